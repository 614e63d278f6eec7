(* Concrete memories used to show that the hypotheses of the theorems can be met. *)
From Verif Require Import Base SpecPerm Words Mem Vocab MemProof RefLib Spec RefProof RefAead SpecFacts Api.
Open Scope N_scope.

(* A machine that traps misaligned accesses, assertions enabled, objects at multiples of 64. *)
Definition ex_cf : cfg := Cfg false true (fun b => 64 * N.of_nat b).

(* Constants, then key, nonce, associated data, input text, output buffer (uninitialised), length cell (uninitialised). *)
Definition ex_mem (cs : list (list N)) (K Nn A T : list N) (n : nat) : mem :=
  map (map Some) cs ++ [map Some K; map Some Nn; map Some A; map Some T; uninit n; uninit 8].
Definition ex_ptr (cs : list (list N)) (i : nat) : ptr := P (length cs + i) 0.

Lemma ex_blk cs K Nn A T n i : blk (ex_mem cs K Nn A T n) (length cs + i) =
  nth i [map Some K; map Some Nn; map Some A; map Some T; uninit n; uninit 8] [].
Proof. unfold ex_mem. rewrite <- (map_length (map (@Some N)) cs). apply (blk_app2 (map (map (@Some N)) cs)). Qed.

Lemma ex_consts cs K Nn A T n : consts_ok cs (ex_mem cs K Nn A T n).
Proof.
  intros i Hi. unfold ex_mem. rewrite blk_app1 by now rewrite map_length. unfold blk.
  rewrite (nth_map_lt _ _ _ []); auto.
Qed.

Lemma ex_has cs K Nn A T n i st : nth i [map Some K; map Some Nn; map Some A; map Some T; uninit n; uninit 8] [] = map Some st ->
  has (ex_mem cs K Nn A T n) (ex_ptr cs i) st.
Proof. intros H. apply has_blk0. now rewrite ex_blk. Qed.

Lemma ex_disj cs i j n k : i <> j -> disj (ex_ptr cs i) n (ex_ptr cs j) k.
Proof. intros H. apply disj_blocks. cbn. lia. Qed.

Lemma ex_room cs K Nn A T n i k : (k <= length (nth i [map Some K; map Some Nn; map Some A; map Some T; uninit n; uninit 8] []))%nat ->
  room (ex_mem cs K Nn A T n) (ex_ptr cs i) k.
Proof. intros H. apply room_of_le. cbn [ex_ptr pb po]. rewrite ex_blk. exact H. Qed.

Lemma ex_enc_valid cf cs K Nn A T :
  aligned cf (ex_ptr cs 5) 8 = true -> bytes K -> length K = 16%nat -> bytes Nn -> length Nn = 16%nat ->
  bytes A -> N.of_nat (length A) < 2 ^ 64 -> bytes T -> N.of_nat (length T) + 16 < 2 ^ 64 ->
  enc_valid cf cs (ex_mem cs K Nn A T (length T + 16)) (ex_ptr cs 4) (ex_ptr cs 5) (ex_ptr cs 3) (ex_ptr cs 2)
            (ex_ptr cs 1) (ex_ptr cs 0) K Nn A T.
Proof.
  intros Al BK LK BN LN BA LA BT LT. constructor.
  - apply ex_consts.
  - repeat split; auto. now apply ex_has.
  - repeat split; auto. now apply ex_has.
  - repeat split; auto. now apply ex_has.
  - repeat split; auto. now apply ex_has.
  - split; [apply ex_room; cbn [nth]; rewrite uninit_length; lia|cbn; lia].
  - split; [apply ex_room; cbn [nth]; rewrite uninit_length; lia|split; [cbn; lia|exact Al]].
  - repeat split; now apply ex_disj.
  - repeat split; now apply ex_disj.
  - apply fwd_ok_disj, ex_disj. lia.
Qed.

Lemma ex_dec_valid cf cs K Nn A Y :
  aligned cf (ex_ptr cs 5) 8 = true -> bytes K -> length K = 16%nat -> bytes Nn -> length Nn = 16%nat ->
  bytes A -> N.of_nat (length A) < 2 ^ 64 -> bytes Y -> N.of_nat (length Y) < 2 ^ 64 -> (16 <= length Y)%nat ->
  dec_valid cf cs (ex_mem cs K Nn A Y (length Y - 16)) (ex_ptr cs 4) (ex_ptr cs 5) (ex_ptr cs 3) (ex_ptr cs 2)
            (ex_ptr cs 1) (ex_ptr cs 0) K Nn A Y.
Proof.
  intros Al BK LK BN LN BA LA BY LY GY. constructor.
  - apply ex_consts.
  - repeat split; auto. now apply ex_has.
  - repeat split; auto. now apply ex_has.
  - repeat split; auto. now apply ex_has.
  - repeat split; auto. now apply ex_has.
  - split; [apply ex_room; cbn [nth]; rewrite uninit_length; lia|cbn; lia].
  - split; [apply ex_room; cbn [nth]; rewrite uninit_length; lia|split; [cbn; lia|exact Al]].
  - repeat split; now apply ex_disj.
  - repeat split; now apply ex_disj.
  - apply fwd_ok_disj, ex_disj. lia.
Qed.

(* The same with the output written over the input: the text block is longer than the text. *)
Definition ex_mem_inplace (cs : list (list N)) (K Nn A T : list N) : mem :=
  map (map Some) cs ++ [map Some K; map Some Nn; map Some A; map Some T ++ uninit 16; uninit 8; uninit 8].

Lemma ex_blk_inplace cs K Nn A T i : blk (ex_mem_inplace cs K Nn A T) (length cs + i) =
  nth i [map Some K; map Some Nn; map Some A; map Some T ++ uninit 16; uninit 8; uninit 8] [].
Proof. unfold ex_mem_inplace. rewrite <- (map_length (map (@Some N)) cs). apply (blk_app2 (map (map (@Some N)) cs)). Qed.

Lemma ex_inplace_valid cf cs K Nn A T :
  aligned cf (ex_ptr cs 5) 8 = true -> bytes K -> length K = 16%nat -> bytes Nn -> length Nn = 16%nat ->
  bytes A -> N.of_nat (length A) < 2 ^ 64 -> bytes T -> N.of_nat (length T) + 16 < 2 ^ 64 ->
  enc_valid cf cs (ex_mem_inplace cs K Nn A T) (ex_ptr cs 3) (ex_ptr cs 5) (ex_ptr cs 3) (ex_ptr cs 2)
            (ex_ptr cs 1) (ex_ptr cs 0) K Nn A T.
Proof.
  intros Al BK LK BN LN BA LA BT LT.
  assert (C : consts_ok cs (ex_mem_inplace cs K Nn A T)).
  { intros i Hi. unfold ex_mem_inplace. rewrite blk_app1 by now rewrite map_length. unfold blk.
    rewrite (nth_map_lt _ _ _ []); auto. }
  constructor; auto.
  - repeat split; auto. apply has_blk0. now rewrite ex_blk_inplace.
  - repeat split; auto. apply has_blk0. now rewrite ex_blk_inplace.
  - repeat split; auto. apply has_blk0. now rewrite ex_blk_inplace.
  - repeat split; auto. intros i Hi. cbn [padd ex_ptr pb po]. rewrite rd1_cell. unfold cellp, padd, ex_ptr. cbn [pb po].
    rewrite ex_blk_inplace. cbn [nth]. replace (N.to_nat (0 + N.of_nat i)) with i by lia.
    rewrite nth_error_app1 by now rewrite map_length. rewrite nth_error_map.
    now rewrite (nth_error_nth' _ 0 Hi).
  - split; [|cbn; lia]. apply room_of_le. cbn [ex_ptr pb po]. rewrite ex_blk_inplace. cbn [nth].
    rewrite app_length, map_length, uninit_length. lia.
  - split; [|split; [cbn; lia|exact Al]]. apply room_of_le. cbn [ex_ptr pb po]. rewrite ex_blk_inplace. cbn [nth].
    rewrite uninit_length. lia.
  - repeat split; now apply ex_disj.
  - repeat split; now apply ex_disj.
  - apply fwd_ok_same.
Qed.

(* Sample strings. *)
Definition ex_K : list N := [0; 1; 2; 3; 4; 5; 6; 7; 8; 9; 10; 11; 12; 13; 14; 15].
Definition ex_N : list N := [255; 254; 253; 252; 251; 250; 249; 248; 7; 6; 5; 4; 3; 2; 1; 0].
Definition ex_A : list N := [97; 98; 99].
Definition ex_T : list N := [1; 2; 3; 4; 5; 6; 7; 8; 9; 10; 11; 12; 13; 14; 15; 16; 17; 18; 19].
Lemma ex_bytes_K : bytes ex_K. Proof. repeat constructor. Qed.
Lemma ex_bytes_N : bytes ex_N. Proof. repeat constructor. Qed.
Lemma ex_bytes_A : bytes ex_A. Proof. repeat constructor. Qed.
Lemma ex_bytes_T : bytes ex_T. Proof. repeat constructor. Qed.
