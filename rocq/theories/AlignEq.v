(* On calls whose pointers are multiples of 8, the optimised ISAP-A-128 implementations run on a machine that requires alignment exactly as on
   one that does not. Proofs only, apart from auxiliary notions. *)
From Verif Require Import Base SpecPerm Words Mem Vocab Vocab2 MemProof RefLib RefProof RefAead Api ApiProof ExLib OptPerm OptIsap OptProof OptEx.
From Verif Require Import A128Perm A128PermProof A128 A128Proof A128Impl ShortUb.
From Verif Require Spec RefIsap ApiCode.
Open Scope N_scope.
Open Scope cm_scope.

(* The same machine without alignment requirements. *)
Definition lx (cf : cfg) : cfg := Cfg (ndebug cf) false (base cf).

(* In a memory of at least n blocks f and g do the same, and leave the number of blocks and a value in Q. *)
Definition sim {A} (n : nat) (f g : M A) (Q : A -> Prop) : Prop :=
  forall s, (n <= length (smem s))%nat ->
  f s = g s /\ match g s with Ok a s' => length (smem s') = length (smem s) /\ Q a | _ => True end.

Section Sim.
  Context {n : nat}.
  Notation sim := (sim n).

  Lemma sim_ret {A} (Q : A -> Prop) a : Q a -> sim (ret a) (ret a) Q.
  Proof. intros H s _. cbn. auto. Qed.
  Lemma sim_bind {A B} (R : A -> Prop) (Q : B -> Prop) f f' g g' : sim f f' R -> (forall a, R a -> sim (g a) (g' a) Q) -> sim (bind f g) (bind f' g') Q.
  Proof.
    intros Hf Hg s Hs. unfold bind. destruct (Hf s Hs) as [-> H]. destruct (f' s) as [a s1| | |]; auto. destruct H as [E Ha].
    destruct (Hg a Ha s1 ltac:(lia)) as [-> H]. split; auto. destruct (g' a s1); auto. destruct H. split; auto. lia.
  Qed.
  Lemma sim_weaken {A} (R Q : A -> Prop) f g : sim f g R -> (forall a, R a -> Q a) -> sim f g Q.
  Proof. intros H HQ s Hs. destruct (H s Hs) as [E G]. split; auto. destruct (g s); auto. intuition. Qed.
  Lemma sim_emit e : sim (emit e) (emit e) any1.
  Proof. intros s Hs. unfold any1. cbn. auto. Qed.
  Lemma sim_branch x : sim (branch x) (branch x) (fun y => y = x).
  Proof. apply (sim_bind any1); [apply sim_emit|]. intros. now apply sim_ret. Qed.
  Lemma sim_if {A} (Q : A -> Prop) x f f' g g' : (x = true -> sim f f' Q) -> (x = false -> sim g g' Q) -> sim (if_ x f g) (if_ x f' g') Q.
  Proof. intros H1 H2. unfold if_. eapply sim_bind; [apply sim_branch|]. intros y ->. destruct x; auto. Qed.
  Lemma sim_load_ p : sim (load_ p) (load_ p) any1.
  Proof. intros s Hs. split; auto. unfold load_, any1. destruct (rd1 (smem s) p); auto. Qed.
  Lemma sim_store_ p v : sim (store_ p v) (store_ p v) any1.
  Proof. intros s Hs. split; auto. unfold store_, any1, wr1. destruct (inside (smem s) p); auto. cbn [smem]. rewrite upd_nth_length. auto. Qed.
  Lemma sim_load p : sim (load p) (load p) any1.
  Proof. eapply sim_bind; [apply sim_emit|]. intros. apply sim_load_. Qed.
  Lemma sim_store p v : sim (store p v) (store p v) any1.
  Proof. eapply sim_bind; [apply sim_emit|]. intros. apply sim_store_. Qed.
  Lemma sim_loads_ k p : sim (loads_ k p) (loads_ k p) any1.
  Proof.
    revert p; induction k as [|k IH]; intros p; cbn [loads_]; [now apply sim_ret|].
    eapply sim_bind; [apply sim_load_|]. intros. eapply sim_bind; [apply IH|]. intros. now apply sim_ret.
  Qed.
  Lemma sim_stores_ vs p : sim (stores_ vs p) (stores_ vs p) any1.
  Proof.
    revert p; induction vs as [|v vs IH]; intros p; cbn [stores_]; [now apply sim_ret|].
    eapply sim_bind; [apply sim_store_|]. intros. apply IH.
  Qed.
  Lemma sim_loadn cf k p : aligned cf p k = true -> sim (loadn cf k p) (loadn (lx cf) k p) any1.
  Proof. intros H. unfold loadn. rewrite H. cbn. eapply sim_bind; [apply sim_emit|]. intros. apply sim_loads_. Qed.
  Lemma sim_storen cf vs p : aligned cf p (length vs) = true -> sim (storen cf vs p) (storen (lx cf) vs p) any1.
  Proof. intros H. unfold storen. rewrite H. cbn. eapply sim_bind; [apply sim_emit|]. intros. apply sim_stores_. Qed.
  Lemma sim_load_ull cf p : aligned cf p 8 = true -> sim (RefIsap.load_ull cf p) (RefIsap.load_ull (lx cf) p) any1.
  Proof. intros H. eapply sim_bind; [now apply sim_loadn|]. intros. now apply sim_ret. Qed.
  Lemma sim_store_ull cf p v : aligned cf p 8 = true -> sim (RefIsap.store_ull cf p v) (RefIsap.store_ull (lx cf) p v) any1.
  Proof. intros H. apply sim_storen. now rewrite word_le_length. Qed.
  Lemma sim_load_word a cf p : aligned cf p 8 = true -> sim (load_word a cf p) (load_word a (lx cf) p) any1.
  Proof. intros H. eapply sim_bind; [now apply sim_load_ull|]. intros. now apply sim_ret. Qed.
  Lemma sim_load32 cf p : aligned cf p 4 = true -> sim (load32 cf p) (load32 (lx cf) p) any1.
  Proof. intros H. eapply sim_bind; [now apply sim_loadn|]. intros. now apply sim_ret. Qed.
  Lemma sim_store32 cf p v : aligned cf p 4 = true -> sim (store32 cf p v) (store32 (lx cf) p v) any1.
  Proof. intros H. apply sim_storen. now rewrite word_le_length. Qed.
  Lemma sim_perm a r s : sim (perm a r s) (perm a r s) any1.
  Proof. eapply sim_bind; [apply sim_emit|]. intros. now apply sim_ret. Qed.
  Lemma sim_with_block {A} (Q : A -> Prop) k f g : (forall b, (n <= b)%nat -> sim (f (P b 0)) (g (P b 0)) Q) -> sim (with_block k f) (with_block k g) Q.
  Proof.
    intros H s Hs. unfold with_block.
    assert (El : length (smem s ++ [uninit k]) = S (length (smem s))) by (rewrite app_length; cbn [length]; lia).
    destruct (H (length (smem s)) Hs (St (smem s ++ [uninit k]) (strc s)) ltac:(cbn [smem]; lia)) as [-> G]. split; auto.
    destruct (g _ _) as [a s1| | |]; auto. cbn [smem] in *. destruct G as [G Ha]. split; auto.
    destruct (smem s1) as [|m0 x _] using rev_ind; [cbn in G; lia|]. rewrite removelast_last. rewrite app_length in G. cbn [length] in G. lia.
  Qed.
  Lemma sim_for_nat {A} (I : A -> Prop) (body body' : N -> A -> M A) k : (forall i a, I a -> sim (body i a) (body' i a) I) ->
    forall i a, I a -> sim (for_nat k i body a) (for_nat k i body' a) I.
  Proof.
    intros H. induction k as [|k IH]; intros i a Ha; cbn [for_nat]; (eapply sim_bind; [apply sim_branch|]; intros).
    - now apply sim_ret.
    - eapply sim_bind; [now apply H|]. intros. now apply IH.
  Qed.
  Lemma sim_for {A} (I : A -> Prop) x y (body body' : N -> A -> M A) a : (forall i a, I a -> sim (body i a) (body' i a) I) -> I a ->
    sim (for_ x y body a) (for_ x y body' a) I.
  Proof. intros H. now apply sim_for_nat. Qed.
  Lemma sim_while {A} (I : A -> Prop) cond (body body' : A -> M A) fuel : (forall a, I a -> cond a = true -> sim (body a) (body' a) I) ->
    forall a, I a -> sim (while_ fuel cond body a) (while_ fuel cond body' a) (fun a => I a /\ cond a = false).
  Proof.
    intros H. induction fuel as [|fuel IH]; intros a Ha; cbn [while_]; [intros s Hs; split; auto; exact Logic.I|].
    eapply sim_bind; [apply sim_branch|]. intros c ->. destruct (cond a) eqn:E; [|now apply sim_ret].
    eapply sim_bind; [now apply H|]. intros. now apply IH.
  Qed.
  Lemma sim_while_any {A} (I : A -> Prop) cond (body body' : A -> M A) fuel : (forall a, I a -> sim (body a) (body' a) I) ->
    forall a, I a -> sim (while_ fuel cond body a) (while_ fuel cond body' a) any1.
  Proof. intros H a Ha. eapply sim_weaken; [apply (sim_while I); auto|]. intros. exact Logic.I. Qed.
End Sim.

Lemma padd0 p : padd p 0 = p.
Proof. destruct p. unfold padd. cbn. f_equal. lia. Qed.
Lemma al8_padd cf p k : al8 cf p -> k mod 8 = 0 -> al8 cf (padd p k).
Proof.
  intros H Hk i. replace (padd (padd p k) (8 * N.of_nat i)) with (padd p (k + 8 * N.of_nat i)) by (unfold padd; cbn [pb po]; f_equal; lia).
  apply al8_at; auto. lia.
Qed.
Lemma al8_here cf p : al8 cf p -> aligned cf p 8 = true.
Proof. intros H. rewrite <- (padd0 p). now apply al8_at. Qed.
Lemma al8_at4 cf p k : al8 cf p -> k mod 4 = 0 -> aligned cf (padd p k) 4 = true.
Proof.
  intros H Hk. pose proof (al8_here _ _ H) as E. unfold aligned in *. destruct (strict cf); auto. cbn [negb orb] in *. apply N.eqb_eq in E. apply N.eqb_eq.
  cbn [padd pb po]. change (N.of_nat 8) with 8 in E. change (N.of_nat 4) with 4. lia.
Qed.

Ltac al :=
  match goal with
  | |- aligned _ (padd _ _) 8 = true => apply al8_at; [al|lia]
  | |- aligned _ (padd _ _) 4 = true => apply al8_at4; [al|lia]
  | |- aligned _ _ 8 = true => first [assumption | apply al8_here; al]
  | |- al8 _ (padd _ _) => first [assumption | apply al8_padd; [al|lia]]
  | H : forall b, (_ <= b)%nat -> al8 _ (P b 0) |- al8 _ (P _ 0) => first [assumption | apply H; assumption]
  | |- al8 _ _ => first [assumption | match goal with H : _ |- _ => apply H; lia end]
  end.
Ltac sim_hook := fail.
Ltac sim_go :=
  repeat first
    [ progress intros
    | solve [sim_hook]
    | apply sim_emit | apply sim_load | apply sim_store | apply sim_perm
    | apply sim_load_word; al | apply sim_load_ull; al | apply sim_store_ull; al | apply sim_load32; al | apply sim_store32; al
    | apply sim_ret; exact Logic.I
    | apply sim_with_block
    | apply sim_if
    | apply sim_bind with (R := any1)
    | apply sim_for with (I := any1); [|exact Logic.I]
    | match goal with x : (_ * _)%type |- _ => destruct x end ].

Definition sim_enc (cf : cfg) (enc enc' : forall (k npub m : ptr) (mlen : N) (c : ptr), M unit) : Prop :=
  forall n k npub m mlen c, (forall i, (i < 3)%nat -> al8 cf (P i 0)) -> (forall b, (n <= b)%nat -> al8 cf (P b 0)) ->
  al8 cf k -> al8 cf npub -> al8 cf m -> al8 cf c -> sim n (enc k npub m mlen c) (enc' k npub m mlen c) any1.
Definition sim_mac (cf : cfg) (mac mac' : forall (k npub ad : ptr) (adlen : N) (c : ptr) (clen : N) (tag : ptr), M unit) : Prop :=
  forall n k npub ad adlen c clen tag, (forall i, (i < 3)%nat -> al8 cf (P i 0)) -> (forall b, (n <= b)%nat -> al8 cf (P b 0)) ->
  al8 cf k -> al8 cf npub -> al8 cf ad -> al8 cf c -> al8 cf tag ->
  sim n (mac k npub ad adlen c clen tag) (mac' k npub ad adlen c clen tag) any1.

(* ---------- opt_64 ---------- *)

Lemma sim_absorb64 n a UL cf s src len : al8 cf src -> sim n (ABSORB_MAC a UL cf s src len) (ABSORB_MAC a UL (lx cf) s src len) any1.
Proof.
  intros H. unfold ABSORB_MAC. eapply sim_bind.
  - apply sim_while_any with (I := any1); [|exact Logic.I]. intros [[s1 i] r] _. unfold absorb_mac_full. sim_go.
  - intros [[s1 i] r] _. sim_go.
Qed.
Lemma sim_rk64 n a cf k iv y ylen out outlen : al8 cf k -> al8 cf iv -> al8 cf out ->
  sim n (isap_rk_64 a cf k iv y ylen out outlen) (isap_rk_64 a (lx cf) k iv y ylen out outlen) any1.
Proof. intros. unfold isap_rk_64, P12. sim_go. Qed.
Ltac sim_hook ::= first [now apply sim_absorb64|apply sim_rk64; auto; al].
Lemma sim_mac64 a UL cf : sim_mac cf (isap_mac_64 a UL cf) (isap_mac_64 a UL (lx cf)).
Proof.
  intros n k npub ad adlen c clen tag Hc Hl Hk Hn Ha Hcc Ht. unfold isap_mac_64, P12. 
  assert (H0 : al8 cf RefIsap.ISAP_IV_A) by (apply Hc; lia). assert (H1 : al8 cf RefIsap.ISAP_IV_KA) by (apply Hc; lia).
  sim_go.
Qed.
Lemma sim_enc64 a UL cf : sim_enc cf (isap_enc_64 a UL cf) (isap_enc_64 a UL (lx cf)).
Proof.
  intros n k npub m mlen c Hc Hl Hk Hn Hm Hcc. unfold isap_enc_64, P12.
  assert (H1 : al8 cf RefIsap.ISAP_IV_KE) by (apply Hc; lia).
  sim_go.
  apply sim_while_any with (I := any1); [|exact Logic.I]. intros [[s1 i] r] _. unfold enc_full_64, P12. sim_go.
Qed.

(* ---------- opt_32 and opt_32_armv67m ---------- *)

Lemma sim_rk32 n a u cf k iv y out outlen : al8 cf k -> al8 cf iv -> al8 cf out ->
  sim n (isap_rk_32 a u cf k iv y out outlen) (isap_rk_32 a u (lx cf) k iv y out outlen) any1.
Proof. intros. unfold isap_rk_32, store_eo. sim_go. Qed.
Lemma sim_absorb32 n a u cf s src len : al8 cf src -> sim n (absorb_32 a u cf s src len) (absorb_32 a u (lx cf) s src len) any1.
Proof.
  intros H. unfold absorb_32. eapply sim_bind.
  - apply sim_while_any with (I := fun st : state * ptr * N => al8 cf (snd (fst st))); [|exact H]. intros [[s1 p] r] Hp. cbn [fst snd] in Hp. unfold absorb_full_32.
    do 2 (apply sim_bind with (R := any1); [sim_go|intros]). apply sim_ret. cbn [fst snd]. al.
  - intros [[s1 p] r] _. sim_go.
Qed.
Ltac sim_hook ::= first [now apply sim_absorb32|apply sim_rk32; auto; al].
Lemma sim_mac32 a u cf : sim_mac cf (isap_mac_32 a u cf) (isap_mac_32 a u (lx cf)).
Proof.
  intros n k npub ad adlen c clen tag Hc Hl Hk Hn Ha Hcc Ht. unfold isap_mac_32, load_eo.
  assert (H0 : al8 cf RefIsap.ISAP_IV_A) by (apply Hc; lia). assert (H1 : al8 cf RefIsap.ISAP_IV_KA) by (apply Hc; lia).
  sim_go.
Qed.
Lemma sim_enc32 a u cf : sim_enc cf (isap_enc_32 a u cf) (isap_enc_32 a u (lx cf)).
Proof.
  intros n k npub m mlen c Hc Hl Hk Hn Hm Hcc. unfold isap_enc_32, load_eo.
  assert (H1 : al8 cf RefIsap.ISAP_IV_KE) by (apply Hc; lia).
  apply sim_with_block; intros b Hb.
  do 6 (apply sim_bind with (R := any1); [sim_go|intros]).
  eapply sim_bind; [|intros; sim_go].
  apply sim_while_any with (I := fun st : state * ptr * N * ptr => al8 cf (snd (fst (fst st))) /\ al8 cf (snd st)); [|cbn [fst snd]; auto].
  intros [[[s1 p] r] q] [Hp Hq]. cbn [fst snd] in Hp, Hq. unfold enc_full_32.
  do 3 (apply sim_bind with (R := any1); [sim_go|intros]). apply sim_ret. cbn [fst snd]. split; al.
Qed.

(* ---------- crypto_aead.c ---------- *)

Section Api.
  Variables (cf : cfg) (n : nat).
  Hypothesis Hc : forall i, (i < 3)%nat -> al8 cf (P i 0).
  Hypothesis Hl : forall b, (n <= b)%nat -> al8 cf (P b 0).
  Variables enc enc' : forall (k npub m : ptr) (mlen : N) (c : ptr), M unit.
  Variables mac mac' : forall (k npub ad : ptr) (adlen : N) (c : ptr) (clen : N) (tag : ptr), M unit.
  Hypothesis He : sim_enc cf enc enc'.
  Hypothesis Hm : sim_mac cf mac mac'.

  Ltac sim_hook ::= first [apply He; auto|apply Hm; auto; al].
  Lemma sim_api_enc c clen m mlen ad adlen npub k : al8 cf k -> al8 cf npub -> al8 cf ad -> al8 cf m -> al8 cf c -> aligned cf clen 8 = true ->
    mlen mod 8 = 0 ->
    sim n (a_enc (api_aead cf enc mac) c clen m mlen ad adlen npub k) (a_enc (api_aead (lx cf) enc' mac') c clen m mlen ad adlen npub k) any1.
  Proof.
    intros. cbn [api_aead a_enc]. unfold ApiCode.crypto_aead_encrypt. sim_go.
  Qed.
  Lemma sim_api_dec m mlen c clen ad adlen npub k : al8 cf k -> al8 cf npub -> al8 cf ad -> al8 cf m -> al8 cf c -> aligned cf mlen 8 = true ->
    sim n (a_dec (api_aead cf enc mac) m mlen c clen ad adlen npub k) (a_dec (api_aead (lx cf) enc' mac') m mlen c clen ad adlen npub k) any1.
  Proof.
    intros. cbn [api_aead a_dec]. unfold ApiCode.crypto_aead_decrypt. sim_go.
  Qed.
End Api.
