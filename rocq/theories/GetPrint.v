(* getcycles.c: sorting, rounding, and what bench_all.sh makes of the last line. Proofs only. *)
From Coq Require Import Ascii String Decimal DecimalString QArith Qround Lqa Permutation Setoid Morphisms.
From Verif Require Import Base Genkat Script VocabScript ScriptProof Getcycles VocabGet.
Open Scope N_scope.
Local Notation length := List.length.

(* ---------- qsort ---------- *)

Lemma compare_le a b : (compare_uint64 a b <= 0)%Z <-> a <= b.
Proof. unfold compare_uint64. destruct (N.ltb_spec b a), (N.ltb_spec a b); lia. Qed.

Lemma sorted_up qs l : qsort_like compare_uint64 qs -> increasing (qs l) /\ length (qs l) = length l.
Proof.
  intros H. destruct (H l) as [P S]. pose proof (Permutation_length P) as L. split; [|now symmetry].
  intros i j Hij. destruct (Nat.eq_dec i j) as [->|Ne]; [lia|]. apply compare_le, S. lia.
Qed.

Lemma filter_perm_length (p : N -> bool) l l' : Permutation l l' -> length (filter p l) = length (filter p l').
Proof. induction 1; cbn [filter]; try destruct (p x); try destruct (p y); cbn [List.length]; congruence. Qed.
Lemma filter_all (p : N -> bool) l : (forall i, (i < length l)%nat -> p (nth i l 0) = true) -> filter p l = l.
Proof.
  induction l as [|a l IH]; intros H; [reflexivity|]. cbn [filter]. rewrite (H 0%nat ltac:(cbn [List.length]; lia) : p a = true). f_equal.
  apply IH. intros i Hi. apply (H (S i)). cbn [List.length]. lia.
Qed.
Lemma filter_app_length (p : N -> bool) a b : length (filter p (a ++ b)) = (length (filter p a) + length (filter p b))%nat.
Proof. induction a as [|x a IH]; [reflexivity|]. cbn [app filter]. destruct (p x); cbn [List.length]; lia. Qed.

Lemma min_median qs l : qsort_like compare_uint64 qs -> length l = 16%nat ->
  In (nth 0 (qs l) 0) l /\ (forall x, In x l -> nth 0 (qs l) 0 <= x) /\
  In (nth 8 (qs l) 0) l /\ (9 <= length (filter (fun x => (x <=? nth 8 (qs l) 0)%N) l))%nat /\ (8 <= length (filter (fun x => (nth 8 (qs l) 0 <=? x)%N) l))%nat.
Proof.
  intros H L. destruct (sorted_up qs l H) as [U L']. destruct (H l) as [P _]. rewrite L in L'.
  assert (I : forall i, (i < 16)%nat -> In (nth i (qs l) 0) l).
  { intros i Hi. apply (Permutation_in _ (Permutation_sym P)), nth_In. lia. }
  split; [apply I; lia|]. split; [|split; [apply I; lia|]].
  - intros x Hx. apply (Permutation_in _ P) in Hx. apply (In_nth _ _ 0) in Hx. destruct Hx as (i & Hi & <-). apply U. lia.
  - rewrite !(filter_perm_length _ _ _ P). set (s := qs l) in *. clearbody s. remember (nth 8 s 0) as v eqn:Ev. split.
    + rewrite <- (firstn_skipn 9 s). rewrite filter_app_length, (filter_all _ (firstn 9 s)).
      * rewrite firstn_length. lia.
      * intros i Hi. rewrite firstn_length in Hi. rewrite nth_firstn_lt by lia. rewrite Ev. apply N.leb_le, U. lia.
    + rewrite <- (firstn_skipn 8 s). rewrite filter_app_length, (filter_all _ (skipn 8 s)).
      * rewrite skipn_length. lia.
      * intros i Hi. rewrite skipn_length in Hi. rewrite nth_skipn_add. rewrite Ev. apply N.leb_le, U. lia.
Qed.

(* ---------- the text of the last line ---------- *)

Lemma plain_app a b : plain (a ++ b) = (plain a && plain b)%bool.
Proof. induction a as [|c a IH]; [reflexivity|]. cbn [append plain]. rewrite IH. now rewrite !andb_assoc. Qed.
Lemma plain_uint u : plain (NilEmpty.string_of_uint u) = true.
Proof. induction u; cbn [NilEmpty.string_of_uint plain]; auto. Qed.
Lemma fmt_llu_value n : value (fmt_llu n).
Proof.
  unfold fmt_llu, NilZero.string_of_uint. destruct (N.to_uint n) as [|u|u|u|u|u|u|u|u|u|u];
    (split; [discriminate|]); cbn [NilEmpty.string_of_uint plain]; try reflexivity; now rewrite plain_uint.
Qed.
Lemma tenths_value n : value (fmt_llu (n / 10) ++ "." ++ fmt_llu (n mod 10)).
Proof.
  split.
  - destruct (fmt_llu_value (n / 10)) as [H _]. destruct (fmt_llu (n / 10)); [contradiction|discriminate].
  - rewrite !plain_app, (proj2 (fmt_llu_value (n / 10))), (proj2 (fmt_llu_value (n mod 10))). reflexivity.
Qed.

Lemma spaces_concat k : String.concat "" (repeat " "%string k) = spaces k.
Proof.
  induction k as [|[|k] IH]; [reflexivity|reflexivity|].
  change (repeat " "%string (S (S k))) with (" "%string :: repeat " "%string (S k)). cbn [String.concat repeat] in *. rewrite IH. reflexivity.
Qed.
Lemma pad5_ok s : pad_to 5 s = pad5 s.
Proof. unfold pad_to, pad5. now rewrite spaces_concat. Qed.

(* what stands in a cell, without the padding *)
Definition cell_text rne factor (mlen : N) (l : list N) : string :=
  if mlen <=? 32 then fmt_llu (Z.to_N (round_even (per_byte rne factor (nth 0 l 0) (nbytes mlen) (d05 rne))))
  else let t := Z.to_N (round_even (10 * per_byte rne factor (nth 0 l 0) (nbytes mlen) (d005 rne))) in (fmt_llu (t / 10) ++ "." ++ fmt_llu (t mod 10))%string.
Lemma cell_ok rne factor mlen l : cell rne factor mlen l = pad5 (cell_text rne factor mlen l) /\ value (cell_text rne factor mlen l).
Proof.
  unfold cell, cell_text, fmt_f0, fmt_f1. cbv zeta. destruct (mlen <=? 32); rewrite pad5_ok; (split; [reflexivity|]); [apply fmt_llu_value|apply tenths_value].
Qed.

Lemma line_ok rne factor t : length t = 7%nat ->
  line_values rne factor t = value_line (map (fun x => cell_text rne factor (fst x) (snd x)) (combine mlens t)).
Proof.
  intros L. unfold line_values, value_line. rewrite map_map. do 2 f_equal. apply map_ext. intros [a b]. cbn [fst snd]. now rewrite (proj1 (cell_ok rne factor a b)).
Qed.

Lemma bench_printed rne factor what r1 r8 r16 r32 r64 r1536 rlong :
  bench what (printed rne factor [r1; r8; r16; r32; r64; r1536; rlong]) =
    [what ++ "   64: " ++ cell_text rne factor 16 r16; what ++ " 1536: " ++ cell_text rne factor 64 r64; what ++ " long: " ++ cell_text rne factor 32768 rlong]%string /\
  bench2 (printed rne factor [r1; r8; r16; r32; r64; r1536; rlong]) =
    ["AEAD  64: " ++ cell_text rne factor 16 r16; "AEAD 536: " ++ cell_text rne factor 64 r64; "AEAD ong: " ++ cell_text rne factor 32768 rlong]%string.
Proof.
  set (t := [r1; r8; r16; r32; r64; r1536; rlong]).
  assert (E : exists pre, printed rne factor t = (pre ++ [value_line [cell_text rne factor 1 r1; cell_text rne factor 8 r8; cell_text rne factor 16 r16;
    cell_text rne factor 32 r32; cell_text rne factor 64 r64; cell_text rne factor 1536 r1536; cell_text rne factor 32768 rlong]])%list).
  { unfold printed. rewrite (line_ok rne factor t eq_refl). rewrite !app_assoc.
    match goal with |- exists pre, (?a ++ [?x; ?y; ?z; ?w])%list = _ => exists (a ++ [x; y; z])%list; rewrite <- app_assoc; reflexivity end. }
  destruct E as [pre ->]. apply bench_ok. repeat constructor; apply cell_ok.
Qed.

Lemma bench_shows rne factor what r1 r8 r16 r32 r64 r1536 rlong : exists v16 v64 vlong,
  cell rne factor 16 r16 = pad5 v16 /\ cell rne factor 64 r64 = pad5 v64 /\ cell rne factor 32768 rlong = pad5 vlong /\
  bench what (printed rne factor [r1; r8; r16; r32; r64; r1536; rlong]) = [what ++ "   64: " ++ v16; what ++ " 1536: " ++ v64; what ++ " long: " ++ vlong]%string /\
  bench2 (printed rne factor [r1; r8; r16; r32; r64; r1536; rlong]) = ["AEAD  64: " ++ v16; "AEAD 536: " ++ v64; "AEAD ong: " ++ vlong]%string.
Proof.
  exists (cell_text rne factor 16 r16), (cell_text rne factor 64 r64), (cell_text rne factor 32768 rlong).
  rewrite <- !(fun a b => proj1 (cell_ok rne factor a b)). repeat (split; [reflexivity|]). apply bench_printed.
Qed.

(* ---------- rounding ---------- *)

From Coq Require Import Lqa.
Open Scope Q_scope.
Lemma round_even_floor q : round_even q = match Qcompare (q - inject_Z (Qfloor q)) (1 # 2) with Lt => Qfloor q | Gt => (Qfloor q + 1)%Z | Eq => if Z.even (Qfloor q) then Qfloor q else (Qfloor q + 1)%Z end.
Proof. destruct q as [n d]. reflexivity. Qed.
Lemma round_even_comp p q : p == q -> round_even p = round_even q.
Proof. intros H. rewrite !round_even_floor, (Qfloor_comp _ _ H). rewrite H. reflexivity. Qed.
Lemma floor_is q f : inject_Z f <= q -> q < inject_Z (f + 1) -> Qfloor q = f.
Proof.
  intros H1 H2. pose proof (Qfloor_le q) as L. pose proof (Qlt_floor q) as U.
  assert (A : inject_Z (Qfloor q) < inject_Z (f + 1)) by (eapply Qle_lt_trans; eassumption).
  assert (B : inject_Z f < inject_Z (Qfloor q + 1)) by (eapply Qle_lt_trans; eassumption).
  rewrite <- Zlt_Qlt in A, B. lia.
Qed.
Lemma inject_S f : inject_Z (f + 1) == inject_Z f + 1.
Proof. now rewrite inject_Z_plus. Qed.
Lemma round_up q f : inject_Z f + (1 # 2) < q -> q < inject_Z f + (3 # 2) -> round_even q = (f + 1)%Z.
Proof.
  intros H1 H2. rewrite round_even_floor. pose proof (inject_S f) as S1. pose proof (inject_S (f + 1)) as S2.
  destruct (Qlt_le_dec q (inject_Z f + 1)) as [H|H].
  - rewrite (floor_is q f) by lra. assert (E : (q - inject_Z f ?= 1 # 2) = Gt) by (apply (proj1 (Qgt_alt _ _)); lra). now rewrite E.
  - rewrite (floor_is q (f + 1)) by lra. assert (E : (q - inject_Z (f + 1) ?= 1 # 2) = Lt) by (apply (proj1 (Qlt_alt _ _)); lra). now rewrite E.
Qed.
Lemma round_half q f : q == inject_Z f + (1 # 2) -> round_even q = (f + f mod 2)%Z.
Proof.
  intros H. rewrite round_even_floor. pose proof (inject_S f) as S1. rewrite (floor_is q f) by lra.
  assert (E : (q - inject_Z f ?= 1 # 2) = Eq) by (apply (proj1 (Qeq_alt _ _)); lra). rewrite E. rewrite Zmod_even. destruct (Z.even f); lia.
Qed.

Section Doubles.
  Variable rne : Q -> Q.
  Hypothesis D : to_double rne.
  Lemma mono p q : p <= q -> rne p <= rne q.
  Proof. apply D. Qed.
  Lemma comp p q : p == q -> rne p == rne q.
  Proof. apply D. Qed.
  Lemma exact_ k e : (0 <= k < 2 ^ 53)%Z -> (0 <= e <= 60)%Z -> rne (k # Z.to_pos (2 ^ e)) == k # Z.to_pos (2 ^ e).
  Proof. apply D. Qed.
  Local Instance rne_proper : Proper (Qeq ==> Qeq) rne.
  Proof. exact comp. Qed.

  Lemma near q : 0 <= q -> q <= 16777216 -> q - (1 # 268435456) <= rne q /\ rne q <= q + (1 # 268435456).
  Proof.
    intros H0 H1. set (k := Qfloor (q * 268435456)).
    pose proof (Qfloor_le (q * 268435456)) as L. pose proof (Qlt_floor (q * 268435456)) as U. fold k in L, U. rewrite inject_S in U.
    assert (K0 : (0 <= k)%Z) by (assert (A : inject_Z 0 < inject_Z (k + 1)) by (rewrite inject_S; change (inject_Z 0) with 0; lra); rewrite <- Zlt_Qlt in A; lia).
    assert (K1 : (k <= 16777216 * 268435456)%Z) by (rewrite Zle_Qle; change (inject_Z (16777216 * 268435456)) with (16777216 * 268435456); lra).
    assert (K2 : (2 ^ 53 = 9007199254740992)%Z) by reflexivity.
    assert (F : forall z, z # 268435456 == inject_Z z * (1 # 268435456)) by (intros z; unfold Qeq, inject_Z, Qmult; cbn [Qnum Qden]; lia).
    pose proof (exact_ k 28 ltac:(lia) ltac:(lia)) as E1. pose proof (exact_ (k + 1)%Z 28 ltac:(lia) ltac:(lia)) as E2.
    change (Z.to_pos (2 ^ 28)) with 268435456%positive in E1, E2. rewrite F in E1, E2. rewrite inject_S in E2.
    assert (M1 := mono (inject_Z k * (1 # 268435456)) q ltac:(lra)). assert (M2 := mono q ((inject_Z k + 1) * (1 # 268435456)) ltac:(lra)).
    split; lra.
  Qed.

  Lemma of_N_ok c : (c < 2 ^ 53)%N -> of_N rne c == inject_Z (Z.of_N c).
  Proof.
    intros H. unfold of_N. change (inject_Z (Z.of_N c)) with (Z.of_N c # Z.to_pos (2 ^ 0)). apply exact_; [|lia].
    change (2 ^ 53)%Z with (Z.of_N (2 ^ 53)). lia.
  Qed.

  (* factor 1 and 32768 bytes: exact *)
  Lemma exact_bytes c d : (c < 2 ^ 52)%N -> d == 1 # 2 -> per_byte rne 1 c 32768 d == inject_Z (Z.of_N c) * (1 # 32768) + (1 # 2).
  Proof.
    intros H Hd. assert (K : (2 ^ 52 = 4503599627370496)%N) by reflexivity. assert (K' : (2 ^ 53 = 9007199254740992)%Z) by reflexivity. unfold per_byte.
    assert (E1 : rne (1 * of_N rne c) == inject_Z (Z.of_N c)).
    { rewrite (comp _ (inject_Z (Z.of_N c))); [apply of_N_ok; change (2 ^ 53)%N with 9007199254740992%N; lia|].
      rewrite of_N_ok by (change (2 ^ 53)%N with 9007199254740992%N; lia). lra. }
    assert (E2 : rne (rne (1 * of_N rne c) / of_N rne 32768) == inject_Z (Z.of_N c) * (1 # 32768)).
    { rewrite (comp _ (Z.of_N c # Z.to_pos (2 ^ 15))).
      - rewrite exact_ by lia. change (Z.to_pos (2 ^ 15)) with 32768%positive. unfold Qeq, inject_Z, Qmult. cbn [Qnum Qden]. lia.
      - rewrite E1, (of_N_ok 32768) by reflexivity. change (Z.to_pos (2 ^ 15)) with 32768%positive. unfold Qeq, Qdiv, Qinv, inject_Z, Qmult. cbn [Qnum Qden Z.of_N]. lia. }
    rewrite (comp _ (Z.of_N c + 16384 # Z.to_pos (2 ^ 15))%Z).
    - rewrite exact_ by lia. change (Z.to_pos (2 ^ 15)) with 32768%positive. unfold Qeq, inject_Z, Qmult, Qplus. cbn [Qnum Qden]. lia.
    - rewrite E2, Hd. change (Z.to_pos (2 ^ 15)) with 32768%positive. unfold Qeq, inject_Z, Qmult, Qplus. cbn [Qnum Qden]. lia.
  Qed.

  Lemma d05_ok : d05 rne == 1 # 2.
  Proof. unfold d05. apply (exact_ 1 1); lia. Qed.

  Lemma whole_ok c : (c < 2 ^ 52)%N -> round_even (per_byte rne 1 c 32768 (d05 rne)) =
    Z.of_N (if (c mod 32768 =? 0)%N then (c / 32768 + (c / 32768) mod 2)%N else (c / 32768 + 1)%N).
  Proof.
    intros H. rewrite (round_even_comp _ _ (exact_bytes c _ H d05_ok)). clear D.
    pose proof (N.div_mod c 32768 ltac:(lia)) as DM. pose proof (N.mod_lt c 32768 ltac:(lia)) as R.
    set (q := (c / 32768)%N) in *. set (r := (c mod 32768)%N) in *. clearbody q r.
    assert (V : inject_Z (Z.of_N c) * (1 # 32768) == inject_Z (Z.of_N q) + inject_Z (Z.of_N r) * (1 # 32768)).
    { rewrite DM, N2Z.inj_add, N2Z.inj_mul, inject_Z_plus, inject_Z_mult. change (inject_Z (Z.of_N 32768)) with 32768. lra. }
    rewrite (round_even_comp _ (inject_Z (Z.of_N q) + inject_Z (Z.of_N r) * (1 # 32768) + (1 # 2))) by lra.
    destruct (N.eqb_spec r 0) as [->|Hr].
    - rewrite (round_half _ (Z.of_N q)) by (change (inject_Z (Z.of_N 0)) with 0; lra). rewrite N2Z.inj_add, N2Z.inj_mod. reflexivity.
    - assert (A : inject_Z 1 <= inject_Z (Z.of_N r)) by (rewrite <- Zle_Qle; lia). assert (B : inject_Z (Z.of_N r) <= inject_Z 32767) by (rewrite <- Zle_Qle; lia).
      change (inject_Z 1) with 1 in A. change (inject_Z 32767) with 32767 in B.
      rewrite (round_up _ (Z.of_N q)) by lra. lia.
  Qed.

  Lemma tenths_ok c bytes : (c < 2 ^ 38)%N -> bytes = 32768%N \/ bytes = 32256%N -> (10 * c mod bytes <> 0)%N ->
    round_even (10 * per_byte rne 1 c bytes (d005 rne)) = Z.of_N (10 * c / bytes + 1).
  Proof.
    intros H Hb Hr. assert (K : (2 ^ 38 = 274877906944)%N) by reflexivity. assert (K' : (2 ^ 53 = 9007199254740992)%N) by reflexivity.
    unfold per_byte, d005.
    assert (E1 : rne (1 * of_N rne c) == inject_Z (Z.of_N c)).
    { rewrite (comp _ (inject_Z (Z.of_N c))); [apply of_N_ok; lia|]. rewrite of_N_ok by lia. lra. }
    assert (EB : of_N rne bytes == inject_Z (Z.of_N bytes)) by (apply of_N_ok; lia).
    assert (I : exists i, / inject_Z (Z.of_N bytes) == i /\ i <= 1 # 32256 /\ 0 <= i /\ inject_Z (Z.of_N bytes) * i == 1).
    { destruct Hb as [-> | ->]; [exists (1 # 32768)|exists (1 # 32256)]; repeat split; try reflexivity; discriminate. }
    destruct I as (i & I0 & I1 & I2 & I3).
    assert (C0 : 0 <= inject_Z (Z.of_N c)) by (change 0 with (inject_Z 0); rewrite <- Zle_Qle; lia).
    assert (C1 : inject_Z (Z.of_N c) <= 274877906944) by (change 274877906944 with (inject_Z 274877906944); rewrite <- Zle_Qle; lia).
    set (x := inject_Z (Z.of_N c) * i).
    assert (X0 : 0 <= x) by (unfold x; nra). assert (X1 : x <= 274877906944 * (1 # 32256)) by (unfold x; nra).
    assert (EY : rne (rne (1 * of_N rne c) / of_N rne bytes) == rne x).
    { apply comp. unfold Qdiv, x. rewrite E1, EB, I0. reflexivity. }
    destruct (near x ltac:(lra) ltac:(lra)) as [Y1 Y2]. destruct (near (5 # 100) ltac:(lra) ltac:(lra)) as [Z1 Z2].
    set (y := rne (rne (1 * of_N rne c) / of_N rne bytes)) in *. set (d := rne (5 # 100)) in *.
    assert (P0 : 0 <= y) by (rewrite EY; pose proof (mono 0 x X0) as M; assert (M0 : rne 0 == 0) by (apply (exact_ 0 0); lia); lra).
    destruct (near (y + d) ltac:(lra) ltac:(lra)) as [W1 W2]. set (w := rne (y + d)) in *.
    pose proof (N.div_mod (10 * c) bytes ltac:(lia)) as DM. pose proof (N.mod_lt (10 * c) bytes ltac:(lia)) as R.
    assert (Ev : (2 <= 10 * c mod bytes <= bytes - 2)%N).
    { assert (exists h, (10 * c mod bytes = 2 * h)%N /\ exists g, (bytes = 2 * g)%N) as (h & Eh & g & Eg).
      { destruct Hb as [-> | ->]; [exists (5 * c mod 16384)%N|exists (5 * c mod 16128)%N]; (split; [|first [now exists 16384%N|now exists 16128%N]]).
        - replace (10 * c)%N with (2 * (5 * c))%N by lia. change 32768%N with (2 * 16384)%N. apply N.mul_mod_distr_l; lia.
        - replace (10 * c)%N with (2 * (5 * c))%N by lia. change 32256%N with (2 * 16128)%N. apply N.mul_mod_distr_l; lia. }
      lia. }
    set (q := (10 * c / bytes)%N) in *. set (r := (10 * c mod bytes)%N) in *. clearbody q r.
    assert (V : 10 * x == inject_Z (Z.of_N q) + inject_Z (Z.of_N r) * i).
    { unfold x. assert (T : inject_Z (Z.of_N (10 * c)) == inject_Z (Z.of_N bytes) * inject_Z (Z.of_N q) + inject_Z (Z.of_N r)).
      { rewrite DM, N2Z.inj_add, N2Z.inj_mul, inject_Z_plus, inject_Z_mult. reflexivity. }
      rewrite N2Z.inj_mul, inject_Z_mult in T. change (inject_Z (Z.of_N 10)) with 10 in T.
      transitivity ((10 * inject_Z (Z.of_N c)) * i); [ring|]. rewrite T. transitivity (inject_Z (Z.of_N q) * (inject_Z (Z.of_N bytes) * i) + inject_Z (Z.of_N r) * i); [ring|]. rewrite I3. ring. }
    assert (B : (1 # 32768) <= i * (1 # 1)) by (destruct Hb as [E|E]; rewrite E in I3; [change (inject_Z (Z.of_N 32768)) with 32768 in I3|change (inject_Z (Z.of_N 32256)) with 32256 in I3]; lra).
    assert (R1 : 2 <= inject_Z (Z.of_N r)) by (change 2 with (inject_Z 2); rewrite <- Zle_Qle; lia).
    assert (R2 : inject_Z (Z.of_N r) <= inject_Z (Z.of_N bytes) - 2).
    { assert (T : inject_Z (Z.of_N r + 2) <= inject_Z (Z.of_N bytes)) by (rewrite <- Zle_Qle; lia). rewrite inject_Z_plus in T. change (inject_Z 2) with 2 in T. lra. }
    assert (S1 : (1 # 16384) <= inject_Z (Z.of_N r) * i) by nra.
    assert (S2 : inject_Z (Z.of_N r) * i <= 1 - (1 # 16384)) by nra.
    rewrite (round_up _ (Z.of_N q)) by lra. lia.
  Qed.
End Doubles.

Lemma id_double : to_double (fun q => q).
Proof. split; [auto|]. split; [auto|]. reflexivity. Qed.

(* rounding down to multiples of 2^-60 *)
Definition down60 (q : Q) : Q := inject_Z (Qfloor (q * inject_Z (2 ^ 60))) / inject_Z (2 ^ 60).
Lemma down60_double : to_double down60.
Proof.
  assert (P0 : 0 < inject_Z (2 ^ 60)) by reflexivity.
  assert (M : forall p q, p <= q -> down60 p <= down60 q).
  { intros p q H. unfold down60, Qdiv. apply Qmult_le_compat_r; [|discriminate]. rewrite <- Zle_Qle. apply Qfloor_resp_le.
    apply Qmult_le_compat_r; [exact H|discriminate]. }
  split; [exact M|]. split.
  - intros p q H. apply Qle_antisym; apply M; rewrite H; apply Qle_refl.
  - intros k e Hk He. unfold down60. assert (Pe : (0 < 2 ^ e)%Z) by (apply Z.pow_pos_nonneg; lia).
    assert (E : (k # Z.to_pos (2 ^ e)) * inject_Z (2 ^ 60) == inject_Z (k * 2 ^ (60 - e))).
    { unfold Qeq, Qmult, inject_Z. cbn [Qnum Qden]. rewrite Pos.mul_1_r, Z2Pos.id by exact Pe. replace 60%Z with (60 - e + e)%Z at 1 by lia. rewrite Z.pow_add_r by lia. ring. }
    rewrite (Qfloor_comp _ _ E), Qfloor_Z, <- E. rewrite Qmult_comm. unfold Qdiv. field. intros X. rewrite X in P0. discriminate.
Qed.

Close Scope Q_scope.
Open Scope N_scope.

Lemma last_ok rne c1 c8 c16 c32 c64 c1536 clong l1 l8 l16 l32 l64 l1536 llong : to_double rne ->
  Forall (fun c => fraction c 32768) [c1; c8; c16; c32] -> Forall (fun c => fraction (10 * c) 32768) [c64; clong] -> fraction (10 * c1536) 32256 ->
  last (printed rne 1 [c1 :: l1; c8 :: l8; c16 :: l16; c32 :: l32; c64 :: l64; c1536 :: l1536; clong :: llong]) EmptyString =
  value_line [decN (c1 / 32768 + 1); decN (c8 / 32768 + 1); decN (c16 / 32768 + 1); decN (c32 / 32768 + 1);
    tenths (10 * c64 / 32768 + 1); tenths (10 * c1536 / 32256 + 1); tenths (10 * clong / 32768 + 1)].
Proof.
  intros D HW HT HM.
  assert (W : forall mlen c l, fraction c 32768 -> mlen <=? 32 = true -> nbytes mlen = 32768 -> cell_text rne 1 mlen (c :: l) = decN (c / 32768 + 1)).
  { intros mlen c l [H1 H2] Hl Hn. unfold cell_text. rewrite Hl, Hn. cbn [nth].
    rewrite (whole_ok rne D c) by (change (2 ^ 52) with 4503599627370496; change (2 ^ 38) with 274877906944 in H1; lia).
    destruct (N.eqb_spec (c mod 32768) 0); [contradiction|]. now rewrite N2Z.id. }
  assert (T : forall mlen c l b, fraction (10 * c) b -> b = 32768 \/ b = 32256 -> mlen <=? 32 = false -> nbytes mlen = b -> cell_text rne 1 mlen (c :: l) = tenths (10 * c / b + 1)).
  { intros mlen c l b [H1 H2] Hb Hl Hn. unfold cell_text. rewrite Hl, Hn. cbn [nth]. cbv zeta.
    rewrite (tenths_ok rne D c b) by (auto; change (2 ^ 38) with 274877906944 in *; lia). now rewrite N2Z.id. }
  assert (E : forall t, length t = 7%nat -> last (printed rne 1 t) EmptyString = value_line (map (fun x => cell_text rne 1 (fst x) (snd x)) (combine mlens t))).
  { intros t L. unfold printed. rewrite (line_ok rne 1 t L), !app_assoc.
    match goal with |- last (?a ++ [?x; ?y; ?z; ?w])%list _ = _ => replace (a ++ [x; y; z; w])%list with ((a ++ [x; y; z]) ++ [w])%list by (rewrite <- app_assoc; reflexivity) end.
    now rewrite last_last. }
  rewrite E by reflexivity. cbn [combine mlens map fst snd].
  repeat match goal with H : Forall _ (_ :: _) |- _ => inversion H; clear H; subst end.
  rewrite !(W _ _ _) by (assumption || reflexivity). rewrite (T 64 _ _ 32768), (T 1536 _ _ 32256), (T 32768 _ _ 32768) by (auto; reflexivity). reflexivity.
Qed.

Lemma bench_64 rne what c1 c8 c16 c32 c64 c1536 clong l1 l8 l16 l32 l64 l1536 llong : to_double rne ->
  fraction c16 32768 -> fraction (10 * c64) 32768 -> fraction (10 * clong) 32768 ->
  bench what (printed rne 1 [c1 :: l1; c8 :: l8; c16 :: l16; c32 :: l32; c64 :: l64; c1536 :: l1536; clong :: llong]) =
  [what ++ "   64: " ++ decN (c16 / 32768 + 1); what ++ " 1536: " ++ tenths (10 * c64 / 32768 + 1); what ++ " long: " ++ tenths (10 * clong / 32768 + 1)]%string.
Proof.
  intros D [A1 A2] [B1 B2] [C1 C2]. rewrite (proj1 (bench_printed _ _ _ _ _ _ _ _ _ _)). unfold cell_text. cbv zeta.
  change (16 <=? 32) with true. change (64 <=? 32) with false. change (32768 <=? 32) with false. cbv iota. cbn [nth].
  change (nbytes 16) with 32768. change (nbytes 64) with 32768. change (nbytes 32768) with 32768. change (2 ^ 38) with 274877906944 in *.
  rewrite (whole_ok rne D) by (change (2 ^ 52) with 4503599627370496; lia).
  rewrite !(tenths_ok rne D) by (auto; change (2 ^ 38) with 274877906944; lia).
  destruct (N.eqb_spec (c16 mod 32768) 0); [contradiction|]. now rewrite !N2Z.id.
Qed.

Lemma not_nearest c : 0 < c mod 32768 < 16384 -> nearest c 32768 (c / 32768) /\ ~ nearest c 32768 (c / 32768 + 1).
Proof.
  intros H. unfold nearest. pose proof (N.div_mod c 32768 ltac:(lia)) as DM.
  set (q := (c / 32768)%N) in *. set (r := (c mod 32768)%N) in *. clearbody q r. lia.
Qed.

(* insertion sort is a qsort *)
Fixpoint insert (x : N) (l : list N) : list N := match l with [] => [x] | y :: l' => if x <=? y then x :: l else y :: insert x l' end.
Definition isort (l : list N) : list N := fold_right insert [] l.
Lemma insert_perm x l : Permutation (x :: l) (insert x l).
Proof.
  induction l as [|y l IH]; [apply Permutation_refl|]. cbn [insert]. destruct (x <=? y); [apply Permutation_refl|].
  eapply perm_trans; [apply perm_swap|]. now apply perm_skip.
Qed.
Lemma isort_perm l : Permutation l (isort l).
Proof. induction l as [|x l IH]; [apply perm_nil|]. cbn [isort fold_right]. eapply perm_trans; [apply perm_skip, IH|apply insert_perm]. Qed.
Fixpoint up (l : list N) : Prop := match l with [] => True | x :: l => Forall (fun y => x <= y) l /\ up l end.
Lemma insert_up x l : up l -> up (insert x l).
Proof.
  induction l as [|y l IH]; intros H; cbn [insert]; [repeat constructor|]. destruct H as [H1 H2]. destruct (N.leb_spec x y) as [L|L].
  - split; [|now split]. constructor; [exact L|]. eapply Forall_impl; [|exact H1]. cbv beta. intros; lia.
  - split; [|now apply IH]. apply (Permutation_Forall (insert_perm x l)). constructor; [lia|exact H1].
Qed.
Lemma isort_up l : up (isort l).
Proof. induction l as [|x l IH]; [exact Logic.I|]. now apply insert_up. Qed.
Lemma up_nth l : up l -> forall i j, (i < j < length l)%nat -> nth i l 0 <= nth j l 0.
Proof.
  induction l as [|x l IH]; intros H i j Hij; cbn [List.length] in Hij; [lia|]. destruct H as [H1 H2]. destruct j as [|j]; [lia|]. destruct i as [|i].
  - cbn [nth]. rewrite Forall_forall in H1. apply H1, nth_In. lia.
  - cbn [nth]. apply IH; [exact H2|lia].
Qed.
Lemma isort_qsort : qsort_like compare_uint64 isort.
Proof.
  intros l. split; [apply isort_perm|]. intros i j Hij. apply compare_le, up_nth; [apply isort_up|]. rewrite <- (Permutation_length (isort_perm l)). exact Hij.
Qed.

Lemma cell_not_nearest rne mlen c l : to_double rne -> In mlen [1; 8; 16; 32] -> c < 2 ^ 38 -> 0 < c mod 32768 < 16384 ->
  exists x, cell rne 1 mlen (c :: l) = pad5 (decN (x + 1)) /\ nearest c 32768 x /\ ~ nearest c 32768 (x + 1).
Proof.
  intros D Hm Hc Hr. exists (c / 32768). split; [|now apply not_nearest]. rewrite (proj1 (cell_ok rne 1 mlen (c :: l))). f_equal. unfold cell_text.
  assert (E : (mlen <=? 32) = true /\ nbytes mlen = 32768) by (cbn [In] in Hm; destruct Hm as [<-|[<-|[<-|[<-|[]]]]]; split; reflexivity).
  destruct E as [-> ->]. cbn [nth].
  rewrite (whole_ok rne D c) by (change (2 ^ 52) with 4503599627370496; change (2 ^ 38) with 274877906944 in Hc; lia).
  destruct (N.eqb_spec (c mod 32768) 0) as [E|_]; [lia|]. now rewrite N2Z.id.
Qed.
