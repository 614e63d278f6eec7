(* Proofs of property C63. *)
From Coq Require Import String.
From Verif Require Import Base Words SpecPerm RefPerm KeccakProof ByteOrder VocabOrder.
Open Scope N_scope.
Open Scope string_scope.

Lemma same_refl e : same e e = true.
Proof. now destruct e. Qed.

Lemma block_tells d b l x e o : tells d (b, l, x) e -> o = None \/ o = Some e -> block d b l x o = Order (Some e).
Proof.
  intros T Ho. unfold tells in T. cbn [fst snd] in T. unfold block, isdef, equal, value.
  assert (Df : define e o = Order (Some e)) by (destruct Ho as [-> | ->]; cbn; [|rewrite same_refl]; reflexivity).
  destruct (d b) as [[vb|]|], (d l) as [[vl|]|], (d x) as [[vx|]|]; cbn [andb]; try contradiction; try (subst e; exact Df).
  destruct T as [Hn ->]. destruct e.
  - rewrite Z.eqb_refl. exact Df.
  - destruct (Z.eqb_spec vl vb); [congruence|]. rewrite Z.eqb_refl. exact Df.
Qed.
Lemma block_quiet d b l x o : quiet d (b, l, x) -> block d b l x o = Order o.
Proof.
  intros T. unfold quiet in T. cbn [fst snd] in T. unfold block, isdef, equal, value.
  destruct (d b) as [[vb|]|], (d l) as [[vl|]|], (d x) as [[vx|]|]; cbn [andb]; try contradiction; try reflexivity.
  destruct T as [H1 H2]. destruct (Z.eqb_spec vx vb); [congruence|]. destruct (Z.eqb_spec vx vl); [congruence|]. reflexivity.
Qed.
Lemma block_other d b l x e e' : tells d (b, l, x) e -> e <> e' -> block d b l x (Some e') = Redefined.
Proof.
  intros T Ho. unfold tells in T. cbn [fst snd] in T. unfold block, isdef, equal, value.
  assert (Df : define e (Some e') = Redefined) by (destruct e, e'; cbn; auto; congruence).
  destruct (d b) as [[vb|]|], (d l) as [[vl|]|], (d x) as [[vx|]|]; cbn [andb]; try contradiction; try (subst e; exact Df).
  destruct T as [Hn ->]. destruct e.
  - rewrite Z.eqb_refl. exact Df.
  - destruct (Z.eqb_spec vl vb); [congruence|]. rewrite Z.eqb_refl. exact Df.
Qed.

Lemma machines_some d : exists e, machines d = Order (Some e).
Proof.
  unfold machines. destruct (existsb (isdef d) little_machines); [eauto|]. destruct (existsb (isdef d) big_machines); [eauto|].
  destruct (isdef d "__arm__"); [destruct (isdef d "__BIG_ENDIAN")|]; eauto.
Qed.

Lemma brg_defined d : brg_endian d <> Order None /\ brg_endian d <> ErrorDirective.
Proof.
  assert (B : forall b l x o, block d b l x o <> ErrorDirective).
  { intros. unfold block, define. destruct (isdef d b && isdef d l).
    - destruct (equal d x b); [|discriminate]. destruct (isdef d x && b0); [destruct o as [w|]; [destruct (same _ w)|]; discriminate|].
      destruct (equal d x l); [|discriminate]. destruct (isdef d x && b1); [destruct o as [w|]; [destruct (same _ w)|]|]; discriminate.
    - destruct (isdef d b); [destruct o as [w|]; [destruct (same _ w)|]; discriminate|].
      destruct (isdef d l); [destruct o as [w|]; [destruct (same _ w)|]|]; discriminate. }
  assert (T : forall x f, x <> ErrorDirective -> (forall o, f o <> Order None /\ f o <> ErrorDirective) ->
    then_ x f <> Order None /\ then_ x f <> ErrorDirective).
  { intros [o| | |] f Hx Hf; cbn; [apply Hf| | |]; split; congruence. }
  unfold brg_endian. do 4 (apply T; [apply B|intros ?o]).
  destruct o2 as [w|]; [split; discriminate|]. destruct (machines_some d) as [e ->]. split; discriminate.
Qed.

Lemma brg_told d e : (forall n, In n names -> quiet d n \/ tells d n e) -> (exists n, In n names /\ tells d n e) -> brg_endian d = Order (Some e).
Proof.
  intros H (n & Hn & Ht).
  assert (S : forall b l x o, In (b, l, x) names -> o = None \/ o = Some e ->
    exists o', block d b l x o = Order o' /\ (o' = None \/ o' = Some e) /\ (o = Some e -> o' = Some e) /\ (tells d (b, l, x) e -> o' = Some e)).
  { intros b l x o Hi Ho. destruct (H _ Hi) as [Q|T].
    - exists o. split; [now apply block_quiet|]. split; auto. split; auto. intros T. exfalso.
      unfold quiet, tells in *. cbn [fst snd] in *. destruct (d b) as [[?|]|], (d l) as [[?|]|], (d x) as [[?|]|]; try contradiction.
      destruct T as [? ->], Q. destruct e; congruence.
    - exists (Some e). split; [now apply block_tells|]. auto. }
  unfold brg_endian.
  destruct (S "BIG_ENDIAN" "LITTLE_ENDIAN" "BYTE_ORDER" None) as (o1 & E1 & D1 & _ & T1); [cbn; auto|auto|]. rewrite E1. cbn [then_].
  destruct (S "_BIG_ENDIAN" "_LITTLE_ENDIAN" "_BYTE_ORDER" o1) as (o2 & E2 & D2 & K2 & T2); [cbn; auto|auto|]. rewrite E2. cbn [then_].
  destruct (S "__BIG_ENDIAN" "__LITTLE_ENDIAN" "__BYTE_ORDER" o2) as (o3 & E3 & D3 & K3 & T3); [cbn; auto|auto|]. rewrite E3. cbn [then_].
  destruct (S "__BIG_ENDIAN__" "__LITTLE_ENDIAN__" "__BYTE_ORDER__" o3) as (o4 & E4 & D4 & K4 & T4); [cbn; auto|auto|]. rewrite E4. cbn [then_].
  assert (o4 = Some e) as ->; [|reflexivity].
  cbn [names In] in Hn. destruct Hn as [<-|[<-|[<-|[<-|[]]]]]; auto.
Qed.

Lemma brg_quiet d : (forall n, In n names -> quiet d n) -> brg_endian d = machines d.
Proof.
  intros H. unfold brg_endian. rewrite block_quiet by (apply H; cbn; auto). cbn [then_]. rewrite block_quiet by (apply H; cbn; auto). cbn [then_].
  rewrite block_quiet by (apply H; cbn; auto). cbn [then_]. rewrite block_quiet by (apply H; cbn; auto). reflexivity.
Qed.
Lemma some_def d l : existsb (isdef d) l = true <-> exists x, In x l /\ d x <> None.
Proof.
  rewrite existsb_exists. split; intros (x & Hx & D); exists x; split; auto; unfold isdef in *; destruct (d x); congruence.
Qed.
Lemma brg_machines d : (forall n, In n names -> quiet d n) ->
  (brg_endian d = Order (Some IS_BIG_ENDIAN) \/ brg_endian d = Order (Some IS_LITTLE_ENDIAN)) /\
  (brg_endian d = Order (Some IS_BIG_ENDIAN) <->
   (forall x, In x known_little -> d x = None) /\ ((exists x, In x known_big /\ d x <> None) \/ (d "__arm__" <> None /\ d "__BIG_ENDIAN" <> None))).
Proof.
  intros H. rewrite brg_quiet by auto. unfold machines.
  pose proof (some_def d little_machines) as Ll. pose proof (some_def d big_machines) as Lb.
  change little_machines with known_little in *. change big_machines with known_big in *.
  destruct (existsb (isdef d) known_little).
  { split; [auto|]. split; [discriminate|]. intros [N _]. exfalso. destruct (proj1 Ll eq_refl) as (x & Hx & D). apply D. now apply N. }
  assert (N : forall x, In x known_little -> d x = None).
  { intros x Hx. destruct (d x) eqn:E; auto. exfalso. enough (false = true) by discriminate. apply Ll. exists x. split; auto. congruence. }
  destruct (existsb (isdef d) known_big).
  { split; [auto|]. split; auto. intros _. split; auto. left. now apply Lb. }
  assert (NB : ~ exists x, In x known_big /\ d x <> None) by (intros X; apply Lb in X; discriminate).
  unfold isdef. destruct (d "__arm__") eqn:A; [destruct (d "__BIG_ENDIAN") eqn:B|]; cbn.
  - split; [auto|]. split; auto. intros _. split; auto. right. split; discriminate.
  - split; [auto|]. split; [discriminate|]. intros [_ [X|[_ X]]]; exfalso; auto.
  - split; [auto|]. split; [discriminate|]. intros [_ [X|[X _]]]; exfalso; auto.
Qed.

Lemma brg_contradiction d n n' : In n names -> In n' names -> (forall n, In n names -> quiet d n \/ exists e, tells d n e) ->
  tells d n IS_BIG_ENDIAN -> tells d n' IS_LITTLE_ENDIAN -> brg_endian d = Redefined.
Proof.
  intros Hn Hn' H T T'.
  assert (S : forall b l x o, In (b, l, x) names ->
    (exists o', block d b l x o = Order o' /\ (forall e, o = Some e -> o' = Some e) /\ (forall e, tells d (b, l, x) e -> o' = Some e)) \/
    block d b l x o = Redefined).
  { intros b l x o Hi. destruct (H _ Hi) as [Q|[e Te]].
    - left. exists o. split; [now apply block_quiet|]. split; auto. intros e Te. exfalso.
      unfold quiet, tells in *. cbn [fst snd] in *. destruct (d b) as [[?|]|], (d l) as [[?|]|], (d x) as [[?|]|]; try contradiction.
      destruct Te as [? ->], Q. destruct e; congruence.
    - assert (U : forall e', tells d (b, l, x) e' -> e' = e).
      { intros e' Te'. unfold tells in *. cbn [fst snd] in *.
        destruct (d b) as [[?|]|], (d l) as [[?|]|], (d x) as [[?|]|]; try contradiction; try congruence.
        destruct Te as [Hne E1], Te' as [_ E2]. destruct e, e'; congruence. }
      destruct o as [w|].
      + assert (Dec : e = w \/ e <> w) by (destruct e, w; (now left) || (right; discriminate)).
        destruct Dec as [<-|Hw].
        * left. exists (Some e). split; [apply block_tells; auto|]. split; auto. intros e' Te'. f_equal. symmetry. now apply U.
        * right. now apply block_other with (e := e).
      + left. exists (Some e). split; [apply block_tells; auto|]. split; [discriminate|]. intros e' Te'. f_equal. symmetry. now apply U. }
  unfold brg_endian.
  destruct (S "BIG_ENDIAN" "LITTLE_ENDIAN" "BYTE_ORDER" None) as [(o1 & E1 & _ & T1)|E1]; [cbn; auto| |]; rewrite E1; cbn [then_]; [|reflexivity].
  destruct (S "_BIG_ENDIAN" "_LITTLE_ENDIAN" "_BYTE_ORDER" o1) as [(o2 & E2 & K2 & T2)|E2]; [cbn; auto| |]; rewrite E2; cbn [then_]; [|reflexivity].
  destruct (S "__BIG_ENDIAN" "__LITTLE_ENDIAN" "__BYTE_ORDER" o2) as [(o3 & E3 & K3 & T3)|E3]; [cbn; auto| |]; rewrite E3; cbn [then_]; [|reflexivity].
  destruct (S "__BIG_ENDIAN__" "__LITTLE_ENDIAN__" "__BYTE_ORDER__" o3) as [(o4 & E4 & K4 & T4)|E4]; [cbn; auto| |]; rewrite E4; cbn [then_];
    [|reflexivity].
  exfalso. assert (G : forall n e, In n names -> tells d n e -> o4 = Some e).
  { clear -T1 K2 T2 K3 T3 K4 T4. intros n e Hn T. cbn [names In] in Hn. destruct Hn as [<-|[<-|[<-|[<-|[]]]]]; auto. }
  pose proof (G _ _ Hn T). pose proof (G _ _ Hn' T'). congruence.
Qed.

(* ---- The permutation ---- *)

Open Scope list_scope.

Lemma permute_little r s : (r <= 20)%nat -> bytes s -> length s = 50%nat ->
  permute IS_LITTLE_ENDIAN IS_LITTLE_ENDIAN (N.of_nat r) s = Some (keccak_p r s).
Proof. intros. unfold permute. cbn [permute_calls forallb]. cbn. f_equal. now apply keccak_ref_bytes. Qed.

Lemma be_le2 bs : length bs = 2%nat -> be_word bs = le_word (rev bs).
Proof. destruct bs as [|a [|b [|c r]]]; try discriminate. reflexivity. Qed.

Lemma swap_bytes s : bytes s -> bytes (swap_lanes s).
Proof.
  assert (G : forall n s, (length s <= n)%nat -> bytes s -> bytes (swap_lanes s)).
  { induction n as [|n IH]; intros [|a [|b r]] L B; cbn [length swap_lanes] in *; auto; try lia.
    inversion B as [|? ? Ha B1]; subst. inversion B1 as [|? ? Hb B2]; subst. repeat constructor; auto. apply IH; auto. lia. }
  now apply (G (length s)).
Qed.
Lemma swap_length s : length (swap_lanes s) = length s.
Proof.
  assert (G : forall n s, (length s <= n)%nat -> length (swap_lanes s) = length s).
  { induction n as [|n IH]; intros [|a [|b r]] L; cbn [length swap_lanes] in *; auto; try lia. rewrite IH; lia. }
  now apply (G (length s)).
Qed.
Lemma swap_words : forall k s, length s = (k * 2)%nat -> map be_word (chunks 2 s) = map le_word (chunks 2 (swap_lanes s)).
Proof.
  induction k as [|k IH]; intros [|a [|b r]] L; cbn [length Nat.mul Nat.add] in L; try discriminate; [reflexivity|].
  change (a :: b :: r) with ([a; b] ++ r). change (swap_lanes ([a; b] ++ r)) with ([b; a] ++ swap_lanes r).
  rewrite !chunks_app by (cbn; lia). cbn [map]. rewrite IH by lia. reflexivity.
Qed.
Lemma swap_out ws : concat (map (word_be 2) ws) = swap_lanes (concat (map (word_le 2) ws)).
Proof. induction ws as [|w ws IH]; [reflexivity|]. cbn [map concat]. rewrite IH. reflexivity. Qed.

Lemma permute_mistaken r s : (r <= 20)%nat -> bytes s -> length s = 50%nat ->
  permute IS_BIG_ENDIAN IS_LITTLE_ENDIAN (N.of_nat r) s = Some (swap_lanes (keccak_p r (swap_lanes s))).
Proof.
  intros Hr B L. unfold permute. cbn. f_equal.
  rewrite (swap_words 25) by auto. rewrite swap_out. f_equal. apply keccak_ref_bytes; auto using swap_bytes. now rewrite swap_length.
Qed.

(* The state of zeros. *)
Definition zeros : list N := repeat 0 50.
Lemma zeros_differ r : (1 <= r <= 20)%nat -> swap_lanes (keccak_p r (swap_lanes zeros)) <> keccak_p r zeros.
Proof.
  intros Hr. assert (Z0 : swap_lanes zeros = zeros) by reflexivity. rewrite Z0.
  rewrite <- keccak_ref_bytes by (try lia; try reflexivity; apply bytes_repeat; lia).
  assert (A : forallb (fun r => let x := concat (map (word_le 2) (keccak_ref_words (N.of_nat r) (map le_word (chunks 2 zeros)))) in
    negb (nth 0 x 0 =? nth 1 x 0)%N) (seq 1 20) = true) by (vm_compute; reflexivity).
  rewrite forallb_forall in A. specialize (A r ltac:(apply in_seq; lia)). cbv zeta in A.
  assert (L : length (concat (map (word_le 2) (keccak_ref_words (N.of_nat r) (map le_word (chunks 2 zeros))))) = 50%nat).
  { rewrite keccak_ref_bytes by (try lia; try reflexivity; apply bytes_repeat; lia).
    apply keccak_p_bytes; [lia|apply bytes_repeat; lia|reflexivity]. }
  set (x := concat _) in *. clearbody x. intros E. destruct x as [|a [|b t]]; try discriminate.
  cbn [swap_lanes] in E. cbn [nth] in A. assert (a = b) by congruence. subst. now rewrite N.eqb_refl in A.
Qed.

Lemma permute_wrong r : (1 <= r <= 20)%nat -> exists s, bytes s /\ length s = 50%nat /\
  permute IS_BIG_ENDIAN IS_LITTLE_ENDIAN (N.of_nat r) s <> Some (keccak_p r s).
Proof.
  intros Hr. assert (B : bytes zeros) by (apply bytes_repeat; reflexivity).
  exists zeros. split; [exact B|]. split; [reflexivity|]. rewrite permute_mistaken by (auto; lia). intros E. injection E as E.
  now apply (zeros_differ r).
Qed.

Lemma gcc_mistaken m : In m ["__mips__"; "__arm__"; "__aarch64__"; "__s390x__"] ->
  brg_endian (only ((m, 1%Z) :: gcc_order IS_BIG_ENDIAN)) = Order (Some IS_LITTLE_ENDIAN).
Proof. cbn [In]. intros [<-|[<-|[<-|[<-|[]]]]]; reflexivity. Qed.
Lemma glibc_right e : brg_endian (only (gcc_order e ++ glibc_order e)) = Order (Some e).
Proof. destruct e; reflexivity. Qed.
Lemma no_conversion : exists f, In f (permute_calls IS_BIG_ENDIAN) /\ ~ In f ref_functions.
Proof.
  exists "fromBytesToWords". split; [left; reflexivity|]. intros H. cbn [ref_functions In] in H.
  repeat (destruct H as [H|H]; [discriminate|]). destruct H.
Qed.
