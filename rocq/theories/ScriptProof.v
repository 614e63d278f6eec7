(* The shell scripts. Proofs only. *)
From Coq Require Import Ascii String.
From Verif Require Import Base Mem Vocab Vocab2 VocabK MemProof RefIsap RefAead OptPerm OptIsap OptStp OptProof OptImpl Table Api Genkat VocabKat GenkatProof GenkatImpl
  GenkatMore K64Impl ExLib OptEx StpEx Script VocabScript.
From Verif Require Spec.
Open Scope nat_scope.
Open Scope string_scope.
Local Notation length := List.length.

Section Loops.
  Variable df : string -> string -> string.
  Hypothesis Hdf : diff_like df.

  Lemma report_pass label : report label EmptyString = says_pass label.
  Proof. reflexivity. Qed.
  Lemma report_fail label r : r <> EmptyString -> report label r = says_fail label.
  Proof. intros H. unfold report. apply String.eqb_neq in H. now rewrite H. Qed.

  Lemma run_diff_missing f g w : files w f = None -> run_diff df f g w = EmptyString.
  Proof. intros E. unfold run_diff. now rewrite E. Qed.
  Lemma report_both label f g w a b : files w f = Some a -> files w g = Some b ->
    report label (run_diff df f g w) = (if String.eqb a b then says_pass label else says_fail label).
  Proof.
    intros E F. unfold run_diff. rewrite E, F. destruct (String.eqb_spec a b) as [->|N].
    - rewrite (proj2 (Hdf b b) eq_refl). reflexivity.
    - apply report_fail. intros Q. apply N. now apply Hdf.
  Qed.

  (* An invariant of the files, and the verdict for each directory. *)
  Lemma loop1_inv (Inv : world -> Prop) (ev : string -> event) (v : string -> string) l :
    (forall d w, In d l -> Inv w -> exists w', check df "AEAD" aead_kat aead_ref (ev d) w = ([v d], w') /\ Inv w') ->
    forall w, Inv w -> exists w', loop1 df (map (fun d => (d, ev d)) l) w = (flat_map (fun d => [d; v d]) l, w') /\ Inv w'.
  Proof.
    induction l as [|d l IH]; intros H w Hw; cbn [map loop1 flat_map]; [now exists w|].
    destruct (H d w (or_introl eq_refl) Hw) as (w1 & E1 & H1). rewrite E1.
    destruct (IH (fun d' w' Hd => H d' w' (or_intror Hd)) w1 H1) as (w2 & E2 & H2). rewrite E2. exists w2. split; [reflexivity|exact H2].
  Qed.
  Lemma loop2_inv (Inv : world -> Prop) (ev : string -> event * event) (v : string -> string * string) l :
    (forall d w, In d l -> Inv w -> exists w', check df "AEAD" aead_kat aead_ref (fst (ev d)) w = ([fst (v d)], w') /\ Inv w') ->
    (forall d w, In d l -> Inv w -> exists w', check df "HASH" hash_kat hash_ref (snd (ev d)) w = ([snd (v d)], w') /\ Inv w') ->
    forall w, Inv w -> exists w', loop2 df (map (fun d => (d, ev d)) l) w = (flat_map (fun d => [d; fst (v d); snd (v d)]) l, w') /\ Inv w'.
  Proof.
    induction l as [|d l IH]; intros H G w Hw; cbn [map loop2 flat_map]; [now exists w|].
    destruct (H d w (or_introl eq_refl) Hw) as (w1 & E1 & H1). destruct (ev d) as [e h] eqn:Ed. cbn [fst snd] in E1. rewrite E1.
    destruct (G d w1 (or_introl eq_refl) H1) as (w2 & E2 & H2). rewrite Ed in E2. cbn [fst snd] in E2. rewrite E2.
    destruct (IH (fun d' w' Hd => H d' w' (or_intror Hd)) (fun d' w' Hd => G d' w' (or_intror Hd)) w2 H2) as (w3 & E3 & H3). rewrite E3.
    exists w3. split; [reflexivity|exact H3].
  Qed.

  Lemma test_inv (Inv : world -> Prop) f g v v2 w :
    (forall d w, In d named1 -> Inv w -> exists w', check df "AEAD" aead_kat aead_ref (f d) w = ([v d], w') /\ Inv w') ->
    (forall d w, In d named2 -> Inv w -> exists w', check df "AEAD" aead_kat aead_ref (fst (g d)) w = ([fst (v2 d)], w') /\ Inv w') ->
    (forall d w, In d named2 -> Inv w -> exists w', check df "HASH" hash_kat hash_ref (snd (g d)) w = ([snd (v2 d)], w') /\ Inv w') ->
    Inv w -> exists w', test_all df f g w = (output v v2, 0, w') /\ Inv w'.
  Proof.
    intros H1 H2 H3 Hw. unfold test_all.
    change dirs1 with named1. change dirs2 with named2.
    destruct (loop1_inv Inv f v named1 H1 w Hw) as (w1 & E1 & Hw1). rewrite E1.
    destruct (loop2_inv Inv g v2 named2 H2 H3 w1 Hw1) as (w2 & E2 & Hw2). rewrite E2. exists w2. split; [reflexivity|exact Hw2].
  Qed.

  (* ---------- everything builds, every file opens ---------- *)
  Definition verdict (label : string) (t r : string) : string := if String.eqb t r then says_pass label else says_fail label.

  Lemma built_ok f g w R H (ta tb th : string -> string) :
    files w aead_ref = Some R -> files w hash_ref = Some H ->
    (forall d, In d named1 -> exists p, f d = (Built p, true) /\ p true = Some (aead_kat, ta d)) ->
    (forall d, In d named2 -> exists p q, g d = ((Built p, true), (Built q, true)) /\ p true = Some (aead_kat, tb d) /\ q true = Some (hash_kat, th d)) ->
    exists w', test_all df f g w =
      (output (fun d => verdict "AEAD" (ta d) R) (fun d => (verdict "AEAD" (tb d) R, verdict "HASH" (th d) H)), 0, w').
  Proof.
    intros Hr Hh F G.
    assert (Q : forall label k k' t r p w, k' <> aead_kat -> k' <> hash_kat -> k = aead_kat \/ k = hash_kat -> files w k' = Some r -> p true = Some (k, t) ->
      exists w', check df label k k' (Built p, true) w = ([verdict label t r], w') /\ (forall x, x <> aead_kat -> x <> hash_kat -> files w' x = files w x)).
    { clear - Hdf. intros label k k' t r p w N1 N2 Hk Hr Hp. unfold check. cbn [fst snd run_gcc]. unfold run_genkat. cbn [exe files]. rewrite Hp.
      eexists. split; [f_equal; f_equal; apply report_both|]; cbn [files].
      - now rewrite String.eqb_refl.
      - destruct (String.eqb_spec k' k) as [->|_]; [destruct Hk; contradiction|exact Hr].
      - intros x X1 X2. destruct (String.eqb_spec x k) as [->|_]; [destruct Hk; contradiction|reflexivity]. }
    destruct (test_inv (fun w => files w aead_ref = Some R /\ files w hash_ref = Some H) f g
      (fun d => verdict "AEAD" (ta d) R) (fun d => (verdict "AEAD" (tb d) R, verdict "HASH" (th d) H)) w) as (w' & E & _).
    - intros d w1 Hd [I1 I2]. destruct (F d Hd) as (p & -> & Hp).
      destruct (Q "AEAD" aead_kat aead_ref (ta d) R p w1) as (w2 & E & K); try assumption; [discriminate..|now left|].
      exists w2. split; [exact E|]. split; rewrite K; try assumption; discriminate.
    - intros d w1 Hd [I1 I2]. destruct (G d Hd) as (p & q & -> & Hp & Hq). cbn [fst snd].
      destruct (Q "AEAD" aead_kat aead_ref (tb d) R p w1) as (w2 & E & K); try assumption; [discriminate..|now left|].
      exists w2. split; [exact E|]. split; rewrite K; try assumption; discriminate.
    - intros d w1 Hd [I1 I2]. destruct (G d Hd) as (p & q & -> & Hp & Hq). cbn [fst snd].
      destruct (Q "HASH" hash_kat hash_ref (th d) H q w1) as (w2 & E & K); try assumption; [discriminate..|now right|].
      exists w2. split; [exact E|]. split; rewrite K; try assumption; discriminate.
    - split; assumption.
    - exists w'. exact E.
  Qed.

  (* ---------- nothing builds ---------- *)

  Lemma no_build_ok f g w : exe w = None -> files w aead_kat = None -> files w hash_kat = None ->
    (forall d p, fst (f d) <> Built p /\ fst (fst (g d)) <> Built p /\ fst (snd (g d)) <> Built p) ->
    exists w', test_all df f g w = (all_pass, 0, w').
  Proof.
    intros E1 E2 E3 N.
    assert (Q : forall label k k' e w, (forall p, fst e <> Built p) -> k = aead_kat \/ k = hash_kat ->
      exe w = None /\ files w aead_kat = None /\ files w hash_kat = None ->
      exists w', check df label k k' e w = ([says_pass label], w') /\ exe w' = None /\ files w' aead_kat = None /\ files w' hash_kat = None).
    { clear. intros label k k' [[p| |] o] w H Hk (I1 & I2 & I3); cbn [fst] in H; [now destruct (H p)| |];
        unfold check; cbn [fst snd run_gcc]; unfold run_genkat; cbn [exe files]; rewrite ?I1; cbn [files].
      all: eexists; (split; [rewrite run_diff_missing; [reflexivity|cbn [files]; destruct Hk as [-> | ->]; assumption]|]); cbn [exe files]; auto. }
    destruct (test_inv (fun w => exe w = None /\ files w aead_kat = None /\ files w hash_kat = None) f g
      (fun _ => says_pass "AEAD") (fun _ => (says_pass "AEAD", says_pass "HASH")) w) as (w' & E & _).
    - intros d w1 _ I. apply Q; auto. intros p. apply N.
    - intros d w1 _ I. apply Q; auto. intros p. apply N.
    - intros d w1 _ I. apply Q; auto. intros p. apply N.
    - auto.
    - exists w'. exact E.
  Qed.

  (* ---------- an executable and files from earlier ---------- *)

  Lemma stale_ok f g w R p : exe w = Some p -> (forall o, p o = None \/ p o = Some (aead_kat, R)) ->
    files w aead_kat = Some R -> files w aead_ref = Some R -> files w hash_kat = files w hash_ref ->
    (forall d, fst (f d) = NoObject /\ fst (fst (g d)) = NoObject /\ fst (snd (g d)) = NoObject) ->
    exists w', test_all df f g w = (all_pass, 0, w').
  Proof.
    intros E1 Hp E2 E3 E4 N.
    set (Inv := fun w => exe w = Some p /\ files w aead_kat = Some R /\ files w aead_ref = Some R /\ files w hash_kat = files w hash_ref).
    assert (Q : forall label k k' e w, fst e = NoObject -> k = aead_kat /\ k' = aead_ref \/ k = hash_kat /\ k' = hash_ref ->
      Inv w -> exists w', check df label k k' e w = ([says_pass label], w') /\ Inv w').
    { clear - Hdf Hp. intros label k k' [c o] w Hc Hk (I1 & I2 & I3 & I4). cbn [fst] in Hc. subst c. unfold check. cbn [fst snd run_gcc].
      assert (I : Inv (run_genkat o w)).
      { unfold run_genkat. rewrite I1. destruct (Hp o) as [-> | ->]; [unfold Inv; auto|]. unfold Inv. cbn [exe files].
        repeat split; try assumption; auto. }
      exists (run_genkat o w). split; [|exact I]. destruct I as (J1 & J2 & J3 & J4). f_equal. f_equal.
      destruct Hk as [[-> ->]|[-> ->]].
      - rewrite (report_both label _ _ _ R R) by assumption. now rewrite String.eqb_refl.
      - destruct (files (run_genkat o w) hash_kat) as [h|] eqn:F.
        + rewrite (report_both label _ _ _ h h) by (rewrite ?F; auto). now rewrite String.eqb_refl.
        + now rewrite run_diff_missing. }
    destruct (test_inv Inv f g (fun _ => says_pass "AEAD") (fun _ => (says_pass "AEAD", says_pass "HASH")) w) as (w' & E & _).
    - intros d w1 _ I. apply Q; auto. apply N.
    - intros d w1 _ I. apply Q; auto. apply N.
    - intros d w1 _ I. apply Q; auto. apply N.
    - unfold Inv. auto.
    - exists w'. exact E.
  Qed.

  (* ---------- files that cannot be opened ---------- *)

  Lemma unopened_ok f g w R H : files w aead_kat = Some R -> files w aead_ref = Some R -> files w hash_kat = Some H -> files w hash_ref = Some H ->
    (forall d, exists p q r, f d = (Built p, false) /\ g d = ((Built q, false), (Built r, false)) /\ p false = None /\ q false = None /\ r false = None) ->
    exists w', test_all df f g w = (all_pass, 0, w').
  Proof.
    intros E1 E2 E3 E4 N.
    set (Inv := fun w => files w aead_kat = Some R /\ files w aead_ref = Some R /\ files w hash_kat = Some H /\ files w hash_ref = Some H).
    assert (Q : forall label k k' p w, p false = None -> k = aead_kat /\ k' = aead_ref \/ k = hash_kat /\ k' = hash_ref ->
      Inv w -> exists w', check df label k k' (Built p, false) w = ([says_pass label], w') /\ Inv w').
    { clear - Hdf. intros label k k' p w Hp Hk (I1 & I2 & I3 & I4). unfold check. cbn [fst snd run_gcc]. unfold run_genkat. cbn [exe files]. rewrite Hp.
      exists (World (Some p) (files w)). split; [|unfold Inv; cbn [files]; auto]. f_equal. f_equal. destruct Hk as [[-> ->]|[-> ->]].
      - rewrite (report_both label _ _ _ R R) by assumption. now rewrite String.eqb_refl.
      - rewrite (report_both label _ _ _ H H) by assumption. now rewrite String.eqb_refl. }
    destruct (test_inv Inv f g (fun _ => says_pass "AEAD") (fun _ => (says_pass "AEAD", says_pass "HASH")) w) as (w' & E & _).
    - intros d w1 _ I. destruct (N d) as (p & q & r & -> & _ & Z & _ & _). now apply Q; auto.
    - intros d w1 _ I. destruct (N d) as (p & q & r & _ & -> & _ & Z & _). now apply Q; auto.
    - intros d w1 _ I. destruct (N d) as (p & q & r & _ & -> & _ & _ & Z). now apply Q; auto.
    - unfold Inv. auto.
    - exists w'. exact E.
  Qed.
End Loops.

(* ---------- the programs of the package ---------- *)

Lemma genkat_of_det X cf mm p r t e m' : genkat_of X cf mm p -> runs (genkat_main X cf true) mm (r, t, e) m' -> p true = t.
Proof. intros H R. destruct H as (r' & e' & m2 & R'). destruct (runs_det _ _ _ _ _ _ R R') as [E _]. congruence. Qed.

Lemma In_fst_snd {A B} (l : list (A * B)) x y : In (x, y) l -> In y (map snd l).
Proof. intros H. exact (in_map snd _ _ H). Qed.

Lemma builds_file root d p : builds root d p -> p true = Some (aead_kat, kat_file Spec.ISAP_A_128A).
Proof.
  intros [name a cf junk mm q Ha Hs Hj Hc Hn G|name a cf junk mm q Ha Hs Hj Hc Hn H4 H5 G|cf mm q Hs Hc Hn G].
  - assert (Ia : In a fam_opt).
    { apply In_fst_snd in Ha. unfold opt_names in Ha. cbn [map snd In] in Ha. unfold fam_opt, fam_opt_32, fam_bi_32, fam_8. cbn [app In]. tauto. }
    apply (genkat_of_det _ _ _ _ _ _ _ _ G (table_genkat A128A cf _ _ _ mm (io_opt a junk cf Ia Hj Hs) Hc Hn (aligned_lax _ _ _ Hs) (aligned_lax _ _ _ Hs) (calls_any _))).
  - assert (Ia : In a fam_stp) by (apply In_fst_snd in Ha; unfold stp_names in Ha; cbn [map snd In] in Ha; unfold fam_stp; cbn [In]; tauto).
    destruct (stp_genkat a cf junk mm Ia Hs Hj Hc Hn H4 H5) as (m' & R & _). exact (genkat_of_det _ _ _ _ _ _ _ _ G R).
  - apply (genkat_of_det _ _ _ _ _ _ _ _ G (table_genkat A128A cf _ _ _ mm (io_ref A128A cf) Hc Hn (aligned_lax _ _ _ Hs) (aligned_lax _ _ _ Hs)
      (calls_loc _ _ (fun _ _ => Logic.I)))).
Qed.

Lemma builds_hash_file root d p : builds_hash root d p -> p true = Some (hash_kat, hash_file Spec.ascon_hash).
Proof.
  intros [name a cf mm q Ha Hs Hc Hn G].
  assert (Ia : In a (fam_opt ++ fam_stp)).
  { apply In_fst_snd in Ha. unfold opt_names, stp_names in Ha. cbn [map snd In app] in Ha. unfold fam_opt, fam_opt_32, fam_bi_32, fam_8, fam_stp. cbn [app In]. tauto. }
  pose proof (fam_genkat_hash a cf mm Ia (fun i _ => al8_lax cf _ Hs) (al8_lax cf _ Hs) (al8_lax cf _ Hs) Hc Hn) as R.
  destruct G as (r' & e' & m2 & R'). destruct (runs_det _ _ _ _ _ _ R R') as [E _]. unfold hash_kat. change hash_file_name with "LWC_HASH_KAT_256.txt" in E.
  congruence.
Qed.

Lemma pass_fail label : says_pass label <> says_fail label.
Proof.
  unfold says_pass, says_fail. intros E. induction label as [|c l IH]; [discriminate|]. cbn [append] in E. injection E as E. exact (IH E).
Qed.
Lemma verdict_pass label t r : verdict label t r = says_pass label -> t = r.
Proof. unfold verdict. destruct (String.eqb_spec t r) as [->|_]; [reflexivity|]. intros E. symmetry in E. now apply pass_fail in E. Qed.
Lemma verdict_same label t : verdict label t t = says_pass label.
Proof. unfold verdict. now rewrite String.eqb_refl. Qed.
Lemma verdict_fail label t r : t <> r -> verdict label t r = says_fail label.
Proof. unfold verdict. intros H. apply String.eqb_neq in H. now rewrite H. Qed.

Lemma package_ok df f g w R H : diff_like df -> files w aead_ref = Some R -> files w hash_ref = Some H ->
  (forall d, In d named1 -> exists p, f d = (Built p, true) /\ builds "crypto_aead/isapa128av20/" d p) ->
  (forall d, In d named2 -> exists p q, g d = ((Built p, true), (Built q, true)) /\
     builds "crypto_aead_hash/isapa128av20/" d p /\ builds_hash "crypto_aead_hash/isapa128av20/" d q) ->
  exists w', test_all df f g w = (output (fun _ => verdict "AEAD" (kat_file Spec.ISAP_A_128A) R)
    (fun _ => (verdict "AEAD" (kat_file Spec.ISAP_A_128A) R, verdict "HASH" (hash_file Spec.ascon_hash) H)), 0, w').
Proof.
  intros Hd Hr Hh F G.
  apply (built_ok df Hd f g w R H (fun _ => kat_file Spec.ISAP_A_128A) (fun _ => kat_file Spec.ISAP_A_128A) (fun _ => hash_file Spec.ascon_hash) Hr Hh).
  - intros d Id. destruct (F d Id) as (p & E & B). exists p. split; [exact E|]. exact (builds_file _ _ _ B).
  - intros d Id. destruct (G d Id) as (p & q & E & B & C). exists p, q. split; [exact E|]. split; [exact (builds_file _ _ _ B)|exact (builds_hash_file _ _ _ C)].
Qed.

Lemma package_iff df f g w R H : diff_like df -> files w aead_ref = Some R -> files w hash_ref = Some H ->
  (forall d, In d named1 -> exists p, f d = (Built p, true) /\ builds "crypto_aead/isapa128av20/" d p) ->
  (forall d, In d named2 -> exists p q, g d = ((Built p, true), (Built q, true)) /\
     builds "crypto_aead_hash/isapa128av20/" d p /\ builds_hash "crypto_aead_hash/isapa128av20/" d q) ->
  (fst (fst (test_all df f g w)) = all_pass <-> R = kat_file Spec.ISAP_A_128A /\ H = hash_file Spec.ascon_hash).
Proof.
  intros Hd Hr Hh F G. destruct (package_ok df f g w R H Hd Hr Hh F G) as (w' & ->). cbn [fst]. split.
  - intros E. pose proof (f_equal (fun l => nth 4 l "") E) as E1. pose proof (f_equal (fun l => nth 32 l "") E) as E2. clear E.
    cbn [output all_pass nth named1 named2 named map flat_map app fst snd] in E1, E2. apply verdict_pass in E1, E2. now split.
  - intros [-> ->]. rewrite !verdict_same. reflexivity.
Qed.

(* ---------- the exit status ---------- *)

Lemma fails_with_zero df w R H : diff_like df -> files w aead_ref = Some (String "C" R) -> files w hash_ref = Some (String "C" H) ->
  exists f g w', test_all df f g w = (all_fail, 0, w').
Proof.
  intros Hd E1 E2. exists (fun _ => (Built (fun _ => Some (aead_kat, EmptyString)), true)).
  exists (fun _ => ((Built (fun _ => Some (aead_kat, EmptyString)), true), (Built (fun _ => Some (hash_kat, EmptyString)), true))).
  destruct (built_ok df Hd (fun _ => (Built (fun _ => Some (aead_kat, EmptyString)), true))
    (fun _ => ((Built (fun _ => Some (aead_kat, EmptyString)), true), (Built (fun _ => Some (hash_kat, EmptyString)), true)))
    w _ _ (fun _ => EmptyString) (fun _ => EmptyString) (fun _ => EmptyString) E1 E2) as (w' & E).
  - intros d _. eexists. split; reflexivity.
  - intros d _. eexists _, _. repeat split; reflexivity.
  - exists w'. exact E.
Qed.

(* ---------- words and fields ---------- *)

Fixpoint none (p : ascii -> bool) (s : string) : bool := match s with EmptyString => true | String c s => negb (p c) && none p s end.

Lemma pieces_none p s : none p s = true -> pieces p s = [s].
Proof.
  induction s as [|c s IH]; [reflexivity|]. cbn [none pieces]. intros H. apply andb_true_iff in H. destruct H as [H1 H2].
  apply negb_true_iff in H1. now rewrite H1, (IH H2).
Qed.
Lemma pieces_sep p a c b : none p a = true -> p c = true -> pieces p (a ++ String c b) = a :: pieces p b.
Proof.
  induction a as [|x a IH]; cbn [none append pieces]; intros H Hc; [now rewrite Hc|].
  apply andb_true_iff in H. destruct H as [H1 H2]. apply negb_true_iff in H1. now rewrite H1, (IH H2 Hc).
Qed.
Lemma sapp_assoc (a b c : string) : (a ++ b) ++ c = a ++ (b ++ c).
Proof. induction a as [|x a IH]; cbn; [reflexivity|]. now rewrite IH. Qed.
Lemma sapp_nil (a : string) : a ++ "" = a.
Proof. induction a as [|x a IH]; cbn; [reflexivity|]. now rewrite IH. Qed.
Lemma srev_app a b : srev (a ++ b) = srev b ++ srev a.
Proof. induction a as [|x a IH]; cbn [append srev]; [now rewrite sapp_nil|]. now rewrite IH, sapp_assoc. Qed.
Lemma srev_srev a : srev (srev a) = a.
Proof. induction a as [|x a IH]; cbn [srev]; [reflexivity|]. rewrite srev_app, IH. reflexivity. Qed.
Lemma none_app p a b : none p (a ++ b) = none p a && none p b.
Proof. induction a as [|x a IH]; cbn; [reflexivity|]. now rewrite IH, andb_assoc. Qed.
Lemma none_srev p a : none p (srev a) = none p a.
Proof. induction a as [|x a IH]; cbn [srev none]; [reflexivity|]. rewrite none_app, IH. cbn [none]. now rewrite andb_true_r, andb_comm. Qed.

Lemma plain_blank v : plain v = true -> none blank v = true.
Proof. induction v as [|c v IH]; cbn [plain none]; [reflexivity|]. intros H. apply andb_true_iff in H. destruct H as [H1 H2]. apply andb_true_iff in H1. now rewrite (proj1 H1), (IH H2). Qed.
Lemma plain_bar v : plain v = true -> none bar v = true.
Proof. induction v as [|c v IH]; cbn [plain none]; [reflexivity|]. intros H. apply andb_true_iff in H. destruct H as [H1 H2]. apply andb_true_iff in H1. now rewrite (proj2 H1), (IH H2). Qed.

Lemma words_sp b : words (String " " b) = words b.
Proof. reflexivity. Qed.
Lemma words_sps k b : words (String.concat "" (repeat " " k) ++ b) = words b.
Proof.
  induction k as [|k IH]; [reflexivity|]. destruct k as [|k]; [reflexivity|].
  change (String.concat "" (repeat " " (S (S k)))) with (String " " (String.concat "" (repeat " " (S k)))). cbn [append]. now rewrite words_sp.
Qed.
Lemma words_word v b : value v -> words (v ++ String " " b) = v :: words b.
Proof.
  intros [Hn Hp]. unfold words. rewrite pieces_sep by (try reflexivity; now apply plain_blank). cbn [filter].
  unfold nonempty at 1. apply String.eqb_neq in Hn. now rewrite Hn.
Qed.
Lemma words_field v b : value v -> words ("| " ++ pad5 v ++ " " ++ b) = "|" :: v :: words b.
Proof.
  intros Hv. change (words ("| " ++ pad5 v ++ " " ++ b)) with ("|" :: words (pad5 v ++ " " ++ b)). f_equal.
  unfold pad5. rewrite sapp_assoc, words_sps. exact (words_word v b Hv).
Qed.

Lemma value_line_cons v vs : value_line (v :: vs) = "| " ++ pad5 v ++ " " ++ value_line vs.
Proof.
  unfold value_line. cbn [map]. destruct (map (fun v => "| " ++ pad5 v ++ " ") vs) as [|x l] eqn:E.
  - cbn [String.concat]. now rewrite !sapp_assoc.
  - change (String.concat "" (("| " ++ pad5 v ++ " ") :: x :: l)) with (("| " ++ pad5 v ++ " ") ++ "" ++ String.concat "" (x :: l)).
    rewrite !sapp_assoc. reflexivity.
Qed.
Lemma words_line vs : Forall value vs -> words (value_line vs) = (flat_map (fun v => ["|"; v]) vs ++ ["|"])%list.
Proof.
  induction 1 as [|v vs Hv _ IH]; [reflexivity|]. rewrite value_line_cons, words_field by assumption. cbn [flat_map app]. now rewrite IH.
Qed.

Lemma strip_keep s c : c <> "010"%char -> strip (s ++ String c "") = s ++ String c "".
Proof.
  intros Hc. apply Ascii.eqb_neq in Hc.
  assert (A : forall s, all_nl (s ++ String c "") = false) by (induction s0 as [|x s0 IH]; cbn; [now rewrite Hc|]; rewrite IH; apply andb_false_r).
  induction s as [|x s IH]; [cbn; now rewrite Hc|]. cbn [append strip]. change (String x (s ++ String c "")) with (String x s ++ String c ""). rewrite A. cbn [append].
  now rewrite IH.
Qed.

(* The fields of "| a | b | ... |", from the right. *)
Fixpoint right (vs : list string) : string := match vs with [] => "" | v :: vs => " " ++ srev v ++ " |" ++ right vs end.
Lemma echo_line vs : srev (echo (flat_map (fun v => ["|"; v]) vs ++ ["|"])%list) = String "|" (right (rev vs)).
Proof.
  enough (G : forall l, echo (flat_map (fun v => ["|"; v]) vs ++ l)%list = (String.concat "" (map (fun v => "| " ++ v ++ " ") vs)) ++ echo l \/ l = []).
  { destruct (G ["|"]) as [-> |E]; [|discriminate]. clear G. change (echo ["|"]) with "|". rewrite srev_app. cbn [srev append]. f_equal.
    induction vs as [|v vs IH]; [reflexivity|]. cbn [map rev].
    assert (E : forall x l, String.concat "" (x :: l) = x ++ String.concat "" l).
    { intros x [|y l]; [cbn; now rewrite sapp_nil|reflexivity]. }
    rewrite E, srev_app, IH. clear. assert (R : forall l, right (l ++ [v])%list = right l ++ " " ++ srev v ++ " |").
    { induction l as [|x l IH]; cbn [app right]; [now rewrite sapp_nil|]. now rewrite IH, !sapp_assoc. }
    rewrite R. f_equal. cbn [srev append]. rewrite srev_app. cbn [srev append]. now rewrite sapp_assoc. }
  intros l. destruct l as [|x l]; [now right|left]. induction vs as [|v vs IH]; [reflexivity|]. cbn [flat_map app].
  change (echo ("|" :: v :: flat_map (fun v => ["|"; v]) vs ++ x :: l)%list) with ("| " ++ echo (v :: flat_map (fun v => ["|"; v]) vs ++ x :: l)%list).
  assert (C : exists y k, (flat_map (fun v => ["|"; v]) vs ++ x :: l)%list = y :: k) by (destruct vs; eexists _, _; reflexivity).
  destruct C as (y & k & C). rewrite C in *. change (echo (v :: y :: k)) with (v ++ " " ++ echo (y :: k)). rewrite IH. cbn [map].
  assert (E : forall x l, String.concat "" (x :: l) = x ++ String.concat "" l).
  { intros x' [|y' l']; [cbn; now rewrite sapp_nil|reflexivity]. }
  rewrite E, !sapp_assoc. reflexivity.
Qed.

Definition fld (v : string) : string := " " ++ srev v ++ " ".
Lemma pieces_right vs : Forall value vs -> pieces bar (right vs) = (map fld vs ++ [""])%list.
Proof.
  induction 1 as [|v vs [_ Hv] _ IH]; [reflexivity|]. cbn [right map app].
  replace (" " ++ srev v ++ " |" ++ right vs) with ((" " ++ srev v ++ " ") ++ String "|" (right vs)) by now rewrite !sapp_assoc.
  fold (fld v). rewrite pieces_sep; [now rewrite IH| |reflexivity]. unfold fld. rewrite !none_app, none_srev, (plain_bar v Hv). reflexivity.
Qed.

Lemma cut_line vs n v : Forall value vs -> nth_error (rev vs) n = Some v -> cut (2 + n) (srev (echo (words (value_line vs)))) = " " ++ srev v ++ " ".
Proof.
  intros Hv Hn. rewrite words_line, echo_line by assumption. unfold cut. cbn [pieces]. change (bar "|") with true.
  cbv iota. rewrite pieces_right by (now apply Forall_rev). cbn [Nat.sub Nat.add].
  destruct (rev vs) as [|x l] eqn:E; [destruct n; discriminate|]. cbn [map app].
  change (nth n (map fld (x :: l) ++ [""])%list "" = fld v).
  assert (L : (n < length (x :: l))%nat) by (apply nth_error_Some; congruence).
  rewrite app_nth1 by (now rewrite map_length). rewrite nth_indep with (d' := fld "") by (now rewrite map_length).
  rewrite map_nth. now rewrite (nth_error_nth _ _ _ Hn).
Qed.

Lemma field_ok label vs n v : Forall value vs -> nth_error (rev vs) n = Some v -> field_line label (2 + n) (value_line vs) = label ++ " " ++ v.
Proof.
  intros Hv Hn. unfold field_line. rewrite (cut_line vs n v Hv Hn). rewrite !srev_app, srev_srev. cbn [srev append].
  change (String " " (v ++ " ")) with (String " " v ++ " "). change (strip (String " " v ++ " ")) with (strip (String " " v ++ String " " "")).
  rewrite strip_keep by discriminate. cbn [append joined]. change (blank " ") with true. cbv iota. rewrite words_sp.
  assert (V : value v). { apply nth_error_In in Hn. apply in_rev in Hn. rewrite Forall_forall in Hv. now apply Hv. }
  rewrite words_word by assumption. reflexivity.
Qed.

Lemma strip_line vs : strip (value_line vs) = value_line vs.
Proof. unfold value_line. now apply strip_keep. Qed.

Lemma bench_ok what pre v1 v8 v16 v32 v64 v1536 vlong : Forall value [v1; v8; v16; v32; v64; v1536; vlong] ->
  bench what (pre ++ [value_line [v1; v8; v16; v32; v64; v1536; vlong]])%list = [what ++ "   64: " ++ v16; what ++ " 1536: " ++ v64; what ++ " long: " ++ vlong] /\
  bench2 (pre ++ [value_line [v1; v8; v16; v32; v64; v1536; vlong]])%list = ["AEAD  64: " ++ v16; "AEAD 536: " ++ v64; "AEAD ong: " ++ vlong].
Proof.
  intros H. unfold bench, bench2, last_line. rewrite last_last, strip_line.
  rewrite !(field_ok _ _ 4 v16 H eq_refl), !(field_ok _ _ 2 v64 H eq_refl), !(field_ok _ _ 0 vlong H eq_refl). rewrite !sapp_assoc. split; reflexivity.
Qed.

(* ---------- every directory builds some program ---------- *)

Lemma made X cf mm r t e m' : runs (genkat_main X cf true) mm (r, t, e) m' -> exists p, genkat_of X cf mm p.
Proof. intros R. exists (fun _ => t). now exists r, e, m'. Qed.

Lemma opt_built root name a : In (name, a) opt_names -> exists p, builds root (root ++ name) p.
Proof.
  intros Ha. set (mm := map (map Some) opt_consts). assert (Hc : consts_ok opt_consts mm) by (intros i Hi; unfold blk; now apply nth_map_lt).
  assert (Ia : In a fam_opt).
  { apply In_fst_snd in Ha. unfold opt_names in Ha. cbn [map snd In] in Ha. unfold fam_opt, fam_opt_32, fam_bi_32, fam_8. cbn [app In]. tauto. }
  assert (Hn : 4 <= length mm) by apply le_n.
  destruct (made _ _ _ _ _ _ _ (table_genkat A128A lax_cf _ _ _ mm (io_opt a (repeat 0%N 5) lax_cf Ia eq_refl eq_refl) Hc Hn eq_refl eq_refl (calls_any _))) as (p & G).
  exists p. apply (b_opt root name a lax_cf (repeat 0%N 5) mm p); auto.
Qed.
Lemma stp_built root name a : In (name, a) stp_names -> exists p, builds root (root ++ name) p.
Proof.
  intros Ha. set (mm := map (map Some) stp_blocks).
  assert (Hc : consts_ok opt_consts mm).
  { intros i Hi. change (length opt_consts) with 4 in Hi. destruct i as [|[|[|[|i]]]]; [reflexivity..|lia]. }
  assert (Ia : In a fam_stp) by (apply In_fst_snd in Ha; unfold stp_names in Ha; cbn [map snd In] in Ha; unfold fam_stp; cbn [In]; tauto).
  assert (H6 : 6 <= length mm) by repeat constructor. assert (H4 : 8 <= length (blk mm 4)) by repeat constructor. assert (H5 : 8 <= length (blk mm 5)) by repeat constructor.
  destruct (stp_genkat a lax_cf (repeat 0%N 5) mm Ia eq_refl eq_refl Hc H6 H4 H5) as (m' & R & _). destruct (made _ _ _ _ _ _ _ R) as (p & G).
  exists p. apply (b_stp root name a lax_cf (repeat 0%N 5) mm p); auto.
Qed.
Lemma ref_built root : exists p, builds root (root ++ "ref") p.
Proof.
  set (cs := ref_consts (v_macros A128A)). set (mm := map (map Some) cs). assert (Hc : consts_ok cs mm) by (intros i Hi; unfold blk; now apply nth_map_lt).
  assert (Hn : length cs <= length mm) by apply le_n.
  destruct (made _ _ _ _ _ _ _ (table_genkat A128A lax_cf _ _ _ mm (io_ref A128A lax_cf) Hc Hn eq_refl eq_refl (calls_loc _ _ (fun _ _ => Logic.I)))) as (p & G).
  exists p. apply (b_ref root lax_cf mm p); auto.
Qed.
Lemma hash_built root name a : In (name, a) (opt_names ++ stp_names) -> exists p, builds_hash root (root ++ name) p.
Proof.
  intros Ha. set (mm := map (map Some) opt_consts). assert (Hc : consts_ok opt_consts mm) by (intros i Hi; unfold blk; now apply nth_map_lt).
  assert (Ia : In a (fam_opt ++ fam_stp)).
  { apply In_fst_snd in Ha. unfold opt_names, stp_names in Ha. cbn [map snd In app] in Ha. unfold fam_opt, fam_opt_32, fam_bi_32, fam_8, fam_stp. cbn [app In]. tauto. }
  assert (Hn : 4 <= length mm) by apply le_n.
  pose proof (fam_genkat_hash a lax_cf mm Ia (fun i _ => al8_lax lax_cf _ eq_refl) (al8_lax lax_cf _ eq_refl) (al8_lax lax_cf _ eq_refl) Hc Hn) as R.
  exists (fun _ => Some (hash_kat, hash_file Spec.ascon_hash)). apply (b_hash root name a lax_cf mm); auto. eexists _, _, _. exact R.
Qed.

Lemma dirs1_built d : In d named1 -> exists p, builds "crypto_aead/isapa128av20/" d p.
Proof.
  unfold named1. intros H. apply in_map_iff in H. destruct H as (name & <- & H).
  assert (C : In name (map fst opt_names) \/ In name (map fst stp_names) \/ name = "ref").
  { unfold named in H. cbn [map fst opt_names stp_names In app] in *. intuition auto. }
  destruct C as [C|[C| ->]]; [| |apply ref_built]; apply in_map_iff in C; destruct C as ([n a] & <- & C); [exact (opt_built _ _ _ C)|exact (stp_built _ _ _ C)].
Qed.
Lemma dirs2_built d : In d named2 -> exists p q, builds "crypto_aead_hash/isapa128av20/" d p /\ builds_hash "crypto_aead_hash/isapa128av20/" d q.
Proof.
  unfold named2. intros H. apply in_map_iff in H. destruct H as (name & <- & H).
  assert (C : In name (map fst opt_names) \/ In name (map fst stp_names)).
  { unfold named in H. cbn [map fst opt_names stp_names In app] in *. intuition auto. }
  destruct C as [C|C]; apply in_map_iff in C; destruct C as ([n a] & <- & C).
  - destruct (opt_built "crypto_aead_hash/isapa128av20/" n a C) as (p & B). destruct (hash_built "crypto_aead_hash/isapa128av20/" n a (in_or_app _ _ _ (or_introl C))) as (q & B').
    now exists p, q.
  - destruct (stp_built "crypto_aead_hash/isapa128av20/" n a C) as (p & B). destruct (hash_built "crypto_aead_hash/isapa128av20/" n a (in_or_app _ _ _ (or_intror C))) as (q & B').
    now exists p, q.
Qed.
