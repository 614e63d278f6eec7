(* The test programs write the files determined by the specification. Proofs only. *)
From Coq Require Import Ascii String.
From Verif Require Import Base Prog SpecPerm Words Mem Vocab VocabK MemProof RefLib RefAead RefIsap SpecFacts Genkat VocabKat.
From Verif Require Spec.
Open Scope N_scope.
Open Scope cm_scope.
Local Notation length := List.length.

(* ---------- strings ---------- *)

Lemma sapp_assoc (a b c : string) : ((a ++ b) ++ c = a ++ b ++ c)%string.
Proof. induction a as [|x a IH]; cbn; [reflexivity|now rewrite IH]. Qed.
Lemma sapp_nil (a : string) : (a ++ "" = a)%string.
Proof. induction a as [|x a IH]; cbn; [reflexivity|now rewrite IH]. Qed.
Lemma sconcat_cons x l : String.concat "" (x :: l) = (x ++ String.concat "" l)%string.
Proof. destruct l as [|y l]; cbn [String.concat]; [now rewrite sapp_nil|reflexivity]. Qed.
Lemma sconcat_app l l' : String.concat "" (l ++ l') = (String.concat "" l ++ String.concat "" l')%string.
Proof. induction l as [|x l IH]; [reflexivity|]. cbn [app]. now rewrite !sconcat_cons, IH, sapp_assoc. Qed.
Lemma sconcat_snoc l x : String.concat "" (l ++ [x]) = (String.concat "" l ++ x)%string.
Proof. now rewrite sconcat_app. Qed.
Lemma hexd_ok d : hexd d = hexdigit d.
Proof.
  unfold hexd, hexdigit. f_equal. f_equal. destruct (N.lt_ge_cases d 16) as [H|H].
  - assert (E : exists j, d = N.of_nat j /\ (j < 16)%nat) by (exists (N.to_nat d); lia). destruct E as (j & -> & Hj).
    do 16 (destruct j as [|j]; [reflexivity|]). lia.
  - rewrite nth_overflow by (cbn [List.length]; lia). destruct (N.ltb_spec d 10); [lia|reflexivity].
Qed.
Lemma dec_ok c : fmt_d (Z.of_nat c) = dec c.
Proof. destruct c; reflexivity. Qed.
Lemma hex_snoc bs v : hex (bs ++ [v]) = (hex bs ++ fmt_02X v)%string.
Proof. unfold hex, fmt_02X. rewrite map_app, sconcat_app. cbn [map String.concat]. now rewrite !hexd_ok. Qed.

(* ---------- the bytes 0, 1, 2, ... ---------- *)

Lemma count_up_length n : length (count_up n) = n.
Proof. unfold count_up. now rewrite map_length, seq_length. Qed.
Lemma count_up_S n : count_up (S n) = count_up n ++ [N.of_nat n mod 256].
Proof. unfold count_up. now rewrite seq_S, map_app. Qed.
Lemma count_up_bytes n : bytes (count_up n).
Proof.
  unfold bytes, count_up. apply Forall_forall. intros x Hx. apply in_map_iff in Hx. destruct Hx as (y & <- & _).
  apply N.mod_lt. discriminate.
Qed.
Lemma count_up_firstn k n : (k <= n)%nat -> firstn k (count_up n) = count_up k.
Proof.
  intros H. unfold count_up. rewrite firstn_map. f_equal. replace n with (k + (n - k))%nat by lia.
  rewrite seq_app, firstn_app, seq_length, Nat.sub_diag, firstn_O, app_nil_r. rewrite <- (seq_length k 0) at 1. apply firstn_all.
Qed.

(* ---------- executions whose result is only described ---------- *)

Definition ends {A} (f : M A) (m : mem) (Q : A -> mem -> Prop) : Prop := exists a m', runs f m a m' /\ Q a m'.

Lemma ends_ret {A} (a : A) m (Q : A -> mem -> Prop) : Q a m -> ends (ret a) m Q.
Proof. intros H. exists a, m. split; [apply runs_ret|exact H]. Qed.
Lemma ends_bind {A B} (f : M A) (g : A -> M B) m Q Q' : ends f m Q -> (forall a m', Q a m' -> ends (g a) m' Q') -> ends (bind f g) m Q'.
Proof.
  intros (a & m1 & R & HQ) H. destruct (H a m1 HQ) as (b & m2 & R2 & HQ2). exists b, m2. split; auto. eapply runs_bind; eauto.
Qed.
Lemma ends_step {A B} (f : M A) (g : A -> M B) m a m1 Q : runs f m a m1 -> ends (g a) m1 Q -> ends (bind f g) m Q.
Proof. intros R (b & m2 & R2 & HQ). exists b, m2. split; auto. eapply runs_bind; eauto. Qed.
Lemma ends_if {A} (b : bool) (x y : M A) m Q : ends (if b then x else y) m Q -> ends (if_ b x y) m Q.
Proof. intros (a & m1 & R & HQ). exists a, m1. split; auto. now apply runs_if. Qed.
Lemma ends_weaken {A} (f : M A) m (Q Q' : A -> mem -> Prop) : ends f m Q -> (forall a m', Q a m' -> Q' a m') -> ends f m Q'.
Proof. intros (a & m1 & R & HQ) H. exists a, m1. auto. Qed.
Lemma ends_with_block {A} k (f : ptr -> M A) m (Q : A -> mem -> Prop) :
  ends (f (P (length m) 0)) (m ++ [uninit k]) (fun a m' => m' <> [] /\ Q a (removelast m')) -> ends (with_block k f) m Q.
Proof.
  intros (a & m1 & R & Hne & HQ). exists a, (removelast m1). split; auto.
  rewrite (app_removelast_last [] Hne) in R. eapply runs_with_block; eauto.
Qed.

Lemma ends_for_nat {A} (Inv : nat -> A -> mem -> Prop) n body : forall i a m,
  (forall k a m, (k < n)%nat -> Inv k a m -> ends (body (i + N.of_nat k) a) m (Inv (S k))) ->
  Inv O a m -> ends (for_nat n i body a) m (Inv n).
Proof.
  revert Inv. induction n as [|n IH]; intros Inv i a m H H0; cbn [for_nat].
  - eapply ends_step; [apply runs_branch|]. now apply ends_ret.
  - eapply ends_step; [apply runs_branch|]. eapply ends_bind.
    + rewrite <- (N.add_0_r i). apply (H O); [lia|exact H0].
    + intros a' m' H'. apply (IH (fun k => Inv (S k))); auto.
      intros k a2 m2 Hk H2. replace (i + 1 + N.of_nat k) with (i + N.of_nat (S k)) by lia. apply H; [lia|exact H2].
Qed.
Lemma ends_for {A} (Inv : nat -> A -> mem -> Prop) n body a m :
  (forall k a m, (k < N.to_nat n)%nat -> Inv k a m -> ends (body (N.of_nat k) a) m (Inv (S k))) ->
  Inv O a m -> ends (for_ 0 n body a) m (Inv (N.to_nat n)).
Proof. intros H H0. unfold for_. rewrite N.sub_0_r. apply ends_for_nat; auto. Qed.

Lemma ends_while {A} (Inv : nat -> A -> mem -> Prop) n : forall fuel cond body a m,
  (n < fuel)%nat ->
  (forall k a m, (k < n)%nat -> Inv k a m -> cond a = true /\ ends (body a) m (Inv (S k))) ->
  (forall a m, Inv n a m -> cond a = false) ->
  Inv O a m -> ends (while_ fuel cond body a) m (Inv n).
Proof.
  revert Inv. induction n as [|n IH]; intros Inv fuel cond body a m Hf H Hc H0; destruct fuel as [|f]; try lia; cbn [while_].
  - eapply ends_step; [apply runs_branch|]. rewrite (Hc a m H0). now apply ends_ret.
  - destruct (H O a m) as [Hc0 Hb]; auto; [lia|]. eapply ends_step; [apply runs_branch|]. rewrite Hc0.
    eapply ends_bind; [exact Hb|]. intros a' m' H'. apply (IH (fun k => Inv (S k))); auto; [lia|].
    intros k a2 m2 Hk H2. apply H; [lia|exact H2].
Qed.

(* ---------- the helpers ---------- *)

Lemma runs_init m p n : room m p n -> runs (init_buffer p (N.of_nat n)) m tt (putp m p (count_up n)).
Proof.
  intros Hr. unfold init_buffer.
  apply (runs_for (fun _ => tt) (fun k => putp m p (count_up k))).
  - intros k Hk. rewrite Nat2N.id in Hk.
    assert (Rk : room m p (length (count_up k))) by (rewrite count_up_length; intros i Hi; apply Hr; lia).
    eapply runs_eq; [apply runs_store1|reflexivity|].
    + rewrite inside_putp by exact Rk. now apply Hr.
    + rewrite count_up_S. rewrite <- putp_app_bytes; [now rewrite count_up_length|].
      rewrite app_length, count_up_length. cbn [List.length]. intros i Hi. apply Hr. lia.
  - reflexivity.
  - unfold count_up. cbn [seq map]. apply putp_nil.
  - reflexivity.
  - now rewrite Nat2N.id.
Qed.

Lemma firstn_snoc {A} (l : list A) k d : (k < length l)%nat -> firstn (S k) l = firstn k l ++ [nth k l d].
Proof.
  revert k. induction l as [|x l IH]; intros k H; cbn [List.length] in H; [lia|].
  destruct k as [|k]; [reflexivity|]. cbn [firstn nth app]. f_equal. apply IH. lia.
Qed.

Lemma runs_bstr m p bs out label : has m p bs ->
  runs (fprint_bstr out label p (N.of_nat (length bs))) m (out ++ label ++ hex bs ++ nl)%string m.
Proof.
  intros Hh. unfold fprint_bstr. eapply runs_bind.
  - apply (runs_for (fun k => (out ++ label) ++ hex (firstn k bs))%string (fun _ => m)).
    + intros k Hk. rewrite Nat2N.id in Hk. eapply runs_bind; [apply runs_load, Hh, Hk|].
      eapply runs_eq; [apply runs_ret| |reflexivity]. rewrite (firstn_snoc _ _ 0) by exact Hk. now rewrite hex_snoc, !sapp_assoc.
    + cbn [firstn]. unfold hex. cbn [map String.concat]. apply sapp_nil.
    + reflexivity.
    + rewrite Nat2N.id, firstn_all. reflexivity.
    + reflexivity.
  - eapply runs_eq; [apply runs_ret| |reflexivity]. now rewrite !sapp_assoc.
Qed.

Lemma runs_memcmp m p q bs : has m p bs -> has m q bs -> runs (memcmp_ne p q (N.of_nat (length bs))) m false m.
Proof.
  intros Hp Hq. unfold memcmp_ne. eapply runs_bind; [apply runs_emit|]. eapply runs_bind; [apply runs_emit|]. rewrite Nat2N.id.
  eapply runs_bind; [apply (runs_loads_ bs), Hp|]. eapply runs_bind; [apply (runs_loads_ bs), Hq|].
  eapply runs_eq; [apply runs_ret| |reflexivity]. destruct (list_eq_dec _ _ _); congruence.
Qed.

(* ---------- the state of the programs ---------- *)

Lemma blk_put_all m b bs : (b < length m)%nat -> length (blk m b) = length bs -> blk (putp m (P b 0) bs) b = map Some bs.
Proof.
  intros Hb Hl. unfold putp, put. cbn [pb po]. change (N.to_nat 0) with 0%nat. rewrite blk_upd, Nat.eqb_refl.
  replace (b <? length m)%nat with true by (symmetry; now apply Nat.ltb_lt). apply splice_all. now rewrite map_length.
Qed.

Lemma has_blk_pre m b bs k : blk m b = map Some bs -> has m (P b 0) (firstn k bs).
Proof. intros H. apply has_firstn. now apply has_blk0. Qed.

Section Drive.
  Variables (X : aead) (cf : cfg) (I : Spec.inst) (n : nat).
  Variable R : mem -> Prop.            (* what is known about the blocks before n *)

  Record good (m : mem) : Prop := {
    gd_len : length m = (n + 8)%nat;
    gd_R : R m;
    gd_key : blk m n = map Some (count_up 16);
    gd_nonce : blk m (n + 1) = map Some (count_up 16);
    gd_msg : blk m (n + 2) = map Some (count_up 32);
    gd_msg2 : length (blk m (n + 3)) = 32%nat;
    gd_ad : blk m (n + 4) = map Some (count_up 32);
    gd_ct : length (blk m (n + 5)) = 48%nat;
    gd_clen : length (blk m (n + 6)) = 8%nat;
    gd_mlen2 : length (blk m (n + 7)) = 8%nat }.

  Notation key := (P n 0). Notation nonce := (P (n + 1) 0). Notation msg := (P (n + 2) 0). Notation msg2 := (P (n + 3) 0).
  Notation ad := (P (n + 4) 0). Notation ct := (P (n + 5) 0). Notation clen := (P (n + 6) 0). Notation mlen2 := (P (n + 7) 0).
  Notation CT t a := (Spec.isap_encrypt I (count_up 16) (count_up 16) (count_up a) (count_up t)).

  (* The implementation does what the programs expect. *)
  Record drives : Prop := {
    dr_enc : forall m a t, good m -> (a <= 32)%nat -> (t <= 32)%nat ->
      ends (a_enc X ct clen msg (N.of_nat t) ad (N.of_nat a) nonce key) m
        (fun r m1 => r = 0%Z /\ good m1 /\ has m1 ct (CT t a) /\ has m1 clen (word_le 8 (N.of_nat t + 16)));
    dr_dec : forall m a t, good m -> (a <= 32)%nat -> (t <= 32)%nat -> has m ct (CT t a) ->
      ends (a_dec X msg2 mlen2 ct (N.of_nat t + 16) ad (N.of_nat a) nonce key) m
        (fun r m1 => r = 0%Z /\ good m1 /\ has m1 msg2 (count_up t) /\ has m1 mlen2 (word_le 8 (N.of_nat t)));
    dr_len : forall a t, length (CT t a) = (t + 16)%nat;
    dr_al : aligned cf clen 8 = true /\ aligned cf mlen2 8 = true }.
  Hypothesis HD : drives.

  Lemma good_key m : good m -> has m key (count_up 16).
  Proof. intros G. apply has_blk0, G. Qed.
  Lemma good_nonce m : good m -> has m nonce (count_up 16).
  Proof. intros G. apply has_blk0, G. Qed.
  Lemma good_msg m t : good m -> (t <= 32)%nat -> has m msg (count_up t).
  Proof. intros G H. rewrite <- (count_up_firstn t 32) by exact H. apply has_blk_pre, G. Qed.
  Lemma good_ad m t : good m -> (t <= 32)%nat -> has m ad (count_up t).
  Proof. intros G H. rewrite <- (count_up_firstn t 32) by exact H. apply has_blk_pre, G. Qed.

  Lemma bstr_count m p k out label : has m p (count_up k) ->
    runs (fprint_bstr out label p (N.of_nat k)) m (out ++ label ++ hex (count_up k) ++ nl)%string m.
  Proof. intros H. rewrite <- (count_up_length k) at 1. now apply runs_bstr. Qed.

  Lemma case_ok m a t g c : good m -> (a <= 32)%nat -> (t <= 32)%nat -> g_count g = Z.of_nat c ->
    ends (kat_case X cf key nonce msg msg2 ad ct clen mlen2 (N.of_nat t) (N.of_nat a) g) m
      (fun r m' => good m' /\ r = (false, Loc (g_ret g) (Z.of_nat (S c)) (g_out g ++ kat_entry I c t a)%string)).
  Proof.
    intros G Ha Ht Hc. unfold kat_case. change KEYBYTES with (N.of_nat 16). change NPUBBYTES with (N.of_nat 16).
    eapply ends_step; [apply bstr_count, good_key, G|].
    eapply ends_step; [apply bstr_count, good_nonce, G|].
    eapply ends_step; [apply bstr_count, (good_msg m t G Ht)|].
    eapply ends_step; [apply bstr_count, (good_ad m a G Ha)|].
    eapply ends_bind; [apply (dr_enc HD m a t G Ha Ht)|].
    intros r m1 (-> & G1 & Hct & Hcl). apply ends_if. change (negb (0 =? 0)%Z) with false. cbv iota.
    destruct (dr_al HD) as [Al1 Al2].
    assert (Lct : N.of_nat t + 16 = N.of_nat (length (CT t a))) by (rewrite (dr_len HD); lia).
    eapply ends_step; [apply (runs_load_ull cf clen (N.of_nat t + 16)); auto; lia|].
    eapply ends_step. { rewrite Lct. apply runs_bstr, Hct. }
    eapply ends_step; [apply (runs_load_ull cf clen (N.of_nat t + 16)); auto; lia|].
    eapply ends_bind; [apply (dr_dec HD m1 a t G1 Ha Ht Hct)|].
    intros r m2 (-> & G2 & Hm2 & Hl2). apply ends_if. change (negb (0 =? 0)%Z) with false. cbv iota.
    eapply ends_step; [apply (runs_load_ull cf mlen2 (N.of_nat t)); auto; lia|].
    apply ends_if. rewrite N.eqb_refl. cbn [negb].
    eapply ends_step.
    { rewrite <- (count_up_length t) at 1. apply runs_memcmp; [now apply good_msg|exact Hm2]. }
    apply ends_if. cbv iota. apply ends_ret. split; [exact G2|]. unfold kat_entry. rewrite Hc, dec_ok, !sapp_assoc. change eol with nl.
    replace (Z.of_nat (S c)) with (Z.of_nat c + 1)%Z by lia. reflexivity.
  Qed.

  (* The first k entries of the file. *)
  Definition entries (k : nat) : string := String.concat "" (map (fun i => kat_entry I (S i) (i / 33) (i mod 33)) (seq 0 k)).
  Lemma entries_S k : entries (S k) = (entries k ++ kat_entry I (S k) (k / 33) (k mod 33))%string.
  Proof. unfold entries. now rewrite seq_S, map_app, sconcat_app. Qed.

  Lemma row_ok m t out : good m -> (t <= 32)%nat -> out = entries (33 * t) ->
    ends (kat_row X cf key nonce msg msg2 ad ct clen mlen2 (N.of_nat t) (Loc KAT_SUCCESS (Z.of_nat (S (33 * t))) out)) m
      (fun g m' => good m' /\ g = Loc KAT_SUCCESS (Z.of_nat (S (33 * S t))) (entries (33 * S t))).
  Proof.
    intros G Ht ->. unfold kat_row.
    eapply ends_bind.
    - apply (ends_while (fun k x m' => good m' /\ x = (N.of_nat k, false, Loc KAT_SUCCESS (Z.of_nat (S (33 * t + k))) (entries (33 * t + k)))) 33).
      + lia.
      + intros k x m' Hk (G' & ->). unfold MAX_ASSOCIATED_DATA_LENGTH. split; [cbn [negb andb]; apply N.leb_le; lia|].
        eapply ends_bind; [apply (case_ok m' k t _ (S (33 * t + k)) G'); auto; lia|].
        intros y m2 (G2 & ->). cbn [fst snd g_ret g_out]. apply ends_ret. split; [exact G2|].
        replace (33 * t + S k)%nat with (S (33 * t + k)) by lia. rewrite entries_S.
        replace ((33 * t + k) / 33)%nat with t.
        * replace ((33 * t + k) mod 33)%nat with k; [f_equal; f_equal; lia|].
          rewrite (Nat.mul_comm 33 t), Nat.add_comm, Nat.mod_add by lia. symmetry. apply Nat.mod_small. lia.
        * rewrite (Nat.mul_comm 33 t), Nat.div_add_l by lia. rewrite Nat.div_small by lia. lia.
      + intros x m' (_ & ->). reflexivity.
      + split; [exact G|]. now rewrite Nat.add_0_r.
    - intros x m' (G' & ->). apply ends_ret. split; [exact G'|]. cbn [snd]. replace (33 * S t)%nat with (33 * t + 33)%nat by lia. reflexivity.
  Qed.

  Lemma table_ok m : good m ->
    ends (kat_table X cf key nonce msg msg2 ad ct clen mlen2 (Loc KAT_SUCCESS 1 "")) m
      (fun g m' => good m' /\ g_ret g = 0%Z /\ g_out g = kat_file I).
  Proof.
    intros G. unfold kat_table. eapply ends_bind.
    - apply (ends_while (fun k x m' => good m' /\ x = (N.of_nat k, Loc KAT_SUCCESS (Z.of_nat (S (33 * k))) (entries (33 * k)))) 33).
      + lia.
      + intros k x m' Hk (G' & ->). cbn [fst snd g_ret]. unfold MAX_MESSAGE_LENGTH.
        split; [change (KAT_SUCCESS =? KAT_SUCCESS)%Z with true; rewrite andb_true_r; apply N.leb_le; lia|].
        eapply ends_bind; [apply (row_ok m' k _ G'); [lia|reflexivity]|].
        intros g m2 (G2 & ->). apply ends_ret. split; [exact G2|]. f_equal. lia.
      + intros x m' (_ & ->). reflexivity.
      + split; [exact G|]. reflexivity.
    - intros x m' (G' & ->). apply ends_ret. cbn [snd g_ret g_out]. split; [exact G'|]. split; reflexivity.
  Qed.
End Drive.

(* ---------- allocation ---------- *)

Definition eight (mm : mem) : mem :=
  (((((((mm ++ [uninit 16]) ++ [uninit 16]) ++ [uninit 32]) ++ [uninit 32]) ++ [uninit 32]) ++ [uninit 48]) ++ [uninit 8]) ++ [uninit 8].

Lemma eight_eq mm : eight mm = mm ++ [uninit 16; uninit 16; uninit 32; uninit 32; uninit 32; uninit 48; uninit 8; uninit 8].
Proof. unfold eight. now rewrite <- !app_assoc. Qed.

Lemma removelast8 {A} (m : list A) n : length m = (n + 8)%nat ->
  removelast (removelast (removelast (removelast (removelast (removelast (removelast (removelast m))))))) = firstn n m.
Proof.
  intros H.
  assert (E : forall k, (k < length m)%nat -> removelast (firstn (S k) m) = firstn k m).
  { intros k Hk. rewrite removelast_firstn; auto. }
  rewrite <- (firstn_all m) at 1. rewrite H. replace (n + 8)%nat with (S (S (S (S (S (S (S (S n)))))))) by lia.
  rewrite !E by lia. reflexivity.
Qed.

Lemma removelast_ne {A} (m : list A) k : length m = S (S k) -> removelast m <> [] /\ length (removelast m) = S k.
Proof.
  intros H. assert (L : length (removelast m) = S k) by (rewrite removelast_firstn_len, firstn_length, H; cbn; lia).
  split; auto. intros E. rewrite E in L. discriminate.
Qed.

Lemma ends_bufs {A} (f : forall key nonce msg msg2 ad ct clen mlen2 : ptr, M A) mm (Q : A -> mem -> Prop) : let n := length mm in
  ends (f (P n 0) (P (n + 1) 0) (P (n + 2) 0) (P (n + 3) 0) (P (n + 4) 0) (P (n + 5) 0) (P (n + 6) 0) (P (n + 7) 0)) (eight mm)
    (fun a m' => length m' = (n + 8)%nat /\ Q a (firstn n m')) ->
  ends (with_bufs f) mm Q.
Proof.
  intros n H. unfold with_bufs.
  do 8 apply ends_with_block. fold (eight mm).
  rewrite !app_length. cbn [List.length]. fold n. replace (n + 1 + 1)%nat with (n + 2)%nat by lia.
  replace (n + 2 + 1)%nat with (n + 3)%nat by lia. replace (n + 3 + 1)%nat with (n + 4)%nat by lia.
  replace (n + 4 + 1)%nat with (n + 5)%nat by lia. replace (n + 5 + 1)%nat with (n + 6)%nat by lia. replace (n + 6 + 1)%nat with (n + 7)%nat by lia.
  eapply ends_weaken; [exact H|]. intros a m' (L & HQ).
  replace (n + 8)%nat with (S (S (n + 6)))%nat in L by lia.
  assert (N1 : m' <> []) by (intros ->; discriminate).
  destruct (removelast_ne m' _ L) as [N2 L2]. replace (n + 6)%nat with (S (n + 5))%nat in L2 by lia.
  destruct (removelast_ne _ _ L2) as [N3 L3]. replace (n + 5)%nat with (S (n + 4))%nat in L3 by lia.
  destruct (removelast_ne _ _ L3) as [N4 L4]. replace (n + 4)%nat with (S (n + 3))%nat in L4 by lia.
  destruct (removelast_ne _ _ L4) as [N5 L5]. replace (n + 3)%nat with (S (n + 2))%nat in L5 by lia.
  destruct (removelast_ne _ _ L5) as [N6 L6]. replace (n + 2)%nat with (S (n + 1))%nat in L6 by lia.
  destruct (removelast_ne _ _ L6) as [N7 L7]. replace (n + 1)%nat with (S n) in L7 by lia.
  destruct (removelast_ne _ _ L7) as [N8 L8].
  rewrite (removelast8 m' n) by lia. repeat (split; [assumption|]). exact HQ.
Qed.

Section Init.
  Variables (mm : mem) (R : mem -> Prop).
  Notation n := (length mm).
  Hypothesis R_app : forall l, R (mm ++ l).
  Hypothesis R_put : forall m p bs, R m -> (n <= pb p)%nat -> R (putp m p bs).

  Definition initialised : mem :=
    putp (putp (putp (putp (eight mm) (P n 0) (count_up 16)) (P (n + 1) 0) (count_up 16)) (P (n + 2) 0) (count_up 32)) (P (n + 4) 0) (count_up 32).

  Lemma eight_blk i : blk (eight mm) (n + i) = nth i [uninit 16; uninit 16; uninit 32; uninit 32; uninit 32; uninit 48; uninit 8; uninit 8] [].
  Proof. rewrite eight_eq. apply blk_app2. Qed.
  Lemma eight_blk0 : blk (eight mm) n = uninit 16.
  Proof. rewrite <- (Nat.add_0_r n) at 1. apply (eight_blk 0). Qed.
  Lemma eight_len : length (eight mm) = (n + 8)%nat.
  Proof. rewrite eight_eq, app_length. reflexivity. Qed.

  Lemma init_room m b k : length (blk m b) = k -> room m (P b 0) k.
  Proof. intros H. apply room_of_le. cbn [pb po]. rewrite H. reflexivity. Qed.

  Ltac other := rewrite !blk_putp_other by (cbn [pb]; lia).

  Lemma init_runs {A} (f : M A) Q : ends f initialised Q ->
    ends (_ <- init_buffer (P n 0) 16 ;; _ <- init_buffer (P (n + 1) 0) 16 ;; _ <- init_buffer (P (n + 2) 0) 32 ;; _ <- init_buffer (P (n + 4) 0) 32 ;; f)
      (eight mm) Q.
  Proof.
    intros H. change 16 with (N.of_nat 16). change 32 with (N.of_nat 32).
    eapply ends_step; [apply runs_init, init_room; now rewrite eight_blk0|].
    eapply ends_step; [apply runs_init, init_room; other; now rewrite eight_blk|].
    eapply ends_step; [apply runs_init, init_room; other; now rewrite eight_blk|].
    eapply ends_step; [apply runs_init, init_room; other; now rewrite eight_blk|].
    exact H.
  Qed.

  Lemma init_good : good n R initialised.
  Proof.
    unfold initialised. constructor.
    - rewrite !putp_length. apply eight_len.
    - do 4 (apply R_put; [|cbn [pb]; lia]). rewrite eight_eq. apply R_app.
    - other. apply blk_put_all; [rewrite eight_len; lia|]. now rewrite eight_blk0.
    - other. apply blk_put_all; [rewrite putp_length, eight_len; lia|]. other. now rewrite eight_blk.
    - other. apply blk_put_all; [rewrite !putp_length, eight_len; lia|]. other. now rewrite eight_blk.
    - other. now rewrite eight_blk.
    - apply blk_put_all; [rewrite !putp_length, eight_len; lia|]. other. now rewrite eight_blk.
    - other. now rewrite eight_blk.
    - other. now rewrite eight_blk.
    - other. now rewrite eight_blk.
  Qed.

  Variables (X : aead) (cf : cfg) (I : Spec.inst).
  Hypothesis HD : drives X cf I n R.

  Lemma genkat_ok : ends (genkat_main X cf true) mm
    (fun r m' => r = (0%Z, Some (file_name, kat_file I), ""%string) /\ exists m2, length m2 = (n + 8)%nat /\ R m2 /\ m' = firstn n m2).
  Proof.
    unfold genkat_main. eapply ends_bind.
    - unfold generate_test_vectors. apply ends_bufs. apply init_runs. apply ends_if. cbn [negb].
      eapply ends_bind; [apply (table_ok X cf I n R HD), init_good|].
      intros g m' (G & E1 & E2). apply ends_ret. split; [apply G|].
      instantiate (1 := fun r m' => r = (0%Z, Some (file_name, kat_file I), ""%string) /\ exists m2, length m2 = (n + 8)%nat /\ R m2 /\ m' = firstn n m2).
      rewrite E1, E2. split; [reflexivity|]. exists m'. split; [apply G|]. split; [apply G|reflexivity].
    - intros r m' (-> & Hm). apply ends_if. change (negb (0 =? KAT_SUCCESS)%Z) with false. cbv iota. apply ends_ret. auto.
  Qed.

  Lemma genkat_closed : runs (genkat_main X cf false) mm
    (KAT_FILE_OPEN_ERROR, None, ("Couldn't open <" ++ file_name ++ "> for write" ++ nl ++ "test vector generation failed with code -1" ++ nl)%string) mm.
  Proof.
    assert (E : ends (generate_test_vectors X cf false) mm (fun r m' => m' = mm /\
      r = (KAT_FILE_OPEN_ERROR, None, ("Couldn't open <" ++ file_name ++ "> for write" ++ nl)%string))).
    { unfold generate_test_vectors. apply ends_bufs. apply init_runs. apply ends_if. cbn [negb]. apply ends_ret.
      split; [unfold initialised; rewrite !putp_length; apply eight_len|]. split; [|reflexivity].
      assert (F : forall m p bs, firstn n m = mm -> (n <= pb p)%nat -> firstn n (putp m p bs) = mm).
      { intros m p bs Hm Hp. rewrite <- Hm at 2. apply (nth_ext _ _ [] []).
        - rewrite !firstn_length, putp_length. reflexivity.
        - intros i Hi. rewrite firstn_length in Hi. rewrite !nth_firstn_lt by lia. apply (blk_putp_other m p bs i). lia. }
      unfold initialised. do 4 (apply F; [|cbn [pb]; lia]). rewrite eight_eq, firstn_app, Nat.sub_diag, firstn_O, app_nil_r. apply firstn_all. }
    destruct E as (r & m' & E & -> & ->). unfold genkat_main. eapply runs_bind; [exact E|]. cbv beta iota.
    apply runs_if. change (negb (KAT_FILE_OPEN_ERROR =? KAT_SUCCESS)%Z) with true. cbv iota.
    eapply runs_eq; [apply runs_ret| |reflexivity]. now rewrite !sapp_assoc.
  Qed.

  Lemma demo_ok : ends (demo_main X cf) mm
    (fun r m' => r = (0%Z, kat_entry I 1 32 32) /\ exists m2, length m2 = (n + 8)%nat /\ R m2 /\ m' = firstn n m2).
  Proof.
    unfold demo_main. eapply ends_bind.
    - apply ends_bufs. apply init_runs.
      change MAX_MESSAGE_LENGTH with (N.of_nat 32). change MAX_ASSOCIATED_DATA_LENGTH with (N.of_nat 32).
      eapply ends_bind; [apply (case_ok X cf I n R HD _ 32 32 _ 1 init_good); reflexivity || lia|].
      intros y m' (G & ->). apply ends_ret. split; [apply G|].
      instantiate (1 := fun g m' => g_ret g = 0%Z /\ g_out g = kat_entry I 1 32 32 /\ exists m2, length m2 = (n + 8)%nat /\ R m2 /\ m' = firstn n m2).
      cbn [snd g_ret g_out]. split; [reflexivity|]. split; [reflexivity|]. exists m'. split; [apply G|]. split; [apply G|reflexivity].
    - intros g m' (E1 & E2 & Hm). apply ends_if. rewrite E1. change (negb (0 =? KAT_SUCCESS)%Z) with false. cbv iota. apply ends_ret.
      rewrite E2. auto.
  Qed.
End Init.
