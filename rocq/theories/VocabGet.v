(* Vocabulary of the theorems on getcycles.c. Definitions only; models no particular file of /repo. *)
From Coq Require Import String DecimalString QArith Permutation.
From Verif Require Import Base Mem Vocab VocabK.
Open Scope N_scope.
Local Notation length := List.length.

(* The global arrays m, a, c, clen, npub, k of getcycles.c are the blocks n, ..., n + 5, the last ones. *)
Definition globals (n : nat) (mm : mem) : Prop :=
  length mm = (n + 6)%nat /\ N.of_nat (length (blk mm n)) = 32768 /\ N.of_nat (length (blk mm (n + 1))) = 32768 /\
  N.of_nat (length (blk mm (n + 2))) = 32768 + 16 /\ length (blk mm (n + 3)) = 8%nat /\ length (blk mm (n + 4)) = 16%nat /\
  length (blk mm (n + 5)) = 16%nat.
(* With CRYPTO_HASH: m and h. *)
Definition globals_hash (n : nat) (mm : mem) : Prop :=
  length mm = (n + 2)%nat /\ N.of_nat (length (blk mm n)) = 32768 /\ length (blk mm (n + 1)) = 32%nat.
(* Only blocks from n on differ. *)
Definition rest_same (n : nat) (mm mm' : mem) : Prop := length mm' = length mm /\ forall b, (b < n)%nat -> blk mm' b = blk mm b.
(* The condition ex holds for all calls that getcycles.c makes. *)
Definition the_lens : list N := [1; 8; 16; 32; 64; 1536; 32768].
Definition get_calls (ex : ext) (n : nat) : Prop :=
  forall mm t, globals n mm -> In (N.of_nat t) the_lens -> ex mm (P (n + 5) 0) (P (n + 4) 0) (P (n + 1) 0) 0%nat (P n 0) (P (n + 2) 0) t.

(* Bytes of a stream of int values, from the i-th on: the value modulo 256. *)
Definition rand_bytes (rnd : N -> Z) (i : N) (len : nat) : list N := map (fun j => Z.to_N (rnd (i + N.of_nat j) mod 256)) (seq 0 len).

(* The text, nonce and key of the r-th measurement: every measurement takes 2 * 32768 + 32 numbers, for m, a, k, npub. *)
Definition text_of (rnd : N -> Z) (r mlen : N) : list N := firstn (N.to_nat mlen) (rand_bytes rnd (65568 * r) (N.to_nat 32768)).
Definition key_of (rnd : N -> Z) (r : N) : list N := rand_bytes rnd (65568 * r + 65536) 16.
Definition nonce_of (rnd : N -> Z) (r : N) : list N := rand_bytes rnd (65568 * r + 65552) 16.
(* With CRYPTO_HASH it takes 32768. *)
Definition hashed_of (rnd : N -> Z) (r mlen : N) : list N := firstn (N.to_nat mlen) (rand_bytes rnd (32768 * r) (N.to_nat 32768)).

(* cycles that have passed between the two readings of a run *)
Definition elapsed (clk : N -> N) (run : N) : N := clk (2 * run + 1) - clk (2 * run).
Definition forward (clk : N -> N) : Prop := forall i j, i <= j -> clk i <= clk j.

(* l' is l in increasing order. *)
Definition increasing (l : list N) : Prop := forall i j, (i <= j < length l)%nat -> nth i l 0 <= nth j l 0.
(* What the C standard says about qsort, for compare: the elements are permuted, none compares greater than a later one. *)
Definition qsort_like (compare : N -> N -> Z) (qs : list N -> list N) : Prop :=
  forall l, Permutation l (qs l) /\ forall i j, (i < j < length l)%nat -> (compare (nth i (qs l) 0%N) (nth j (qs l) 0%N) <= 0)%Z.

(* Rounding to double: monotone, and exact on numbers with 53 significant bits and a moderate exponent. *)
Definition to_double (rne : Q -> Q) : Prop :=
  (forall p q, (p <= q)%Q -> (rne p <= rne q)%Q) /\ (forall p q, (p == q)%Q -> (rne p == rne q)%Q) /\
  (forall k e, (0 <= k < 2 ^ 53)%Z -> (0 <= e <= 60)%Z -> (rne (k # Z.to_pos (2 ^ e)) == k # Z.to_pos (2 ^ e))%Q).

(* a number in decimal, and a number of tenths *)
Definition decN (n : N) : string := DecimalString.NilZero.string_of_uint (N.to_uint n).
Definition tenths (n : N) : string := (decN (n / 10) ++ "." ++ decN (n mod 10))%string.
(* x is an integer nearest to c / b. *)
Definition nearest (c b x : N) : Prop := (2 * Z.abs (Z.of_N c - Z.of_N b * Z.of_N x) <= Z.of_N b)%Z.
(* counts that are not multiples of the number of bytes, and below 2^38 *)
Definition fraction (c b : N) : Prop := c < 2 ^ 38 /\ c mod b <> 0.
