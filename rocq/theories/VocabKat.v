(* Vocabulary of the theorems on the test programs: the files they must write, determined by the specification of ISAP and of Ascon-Hash. Definitions
   only; models no particular file of /repo. *)
From Coq Require Import Ascii String.
From Verif Require Import Base SpecPerm Mem Vocab VocabK Genkat.
From Verif Require Spec.
Open Scope N_scope.

(* End of line; a number in decimal; bytes in hexadecimal with the characters 0-9, A-F (hexd is only used for numbers below 16); the n bytes
   0, 1, 2, ... (modulo 256). *)
Definition eol : string := String "010"%char EmptyString.
Definition dec (n : nat) : string := DecimalString.NilZero.string_of_uint (N.to_uint (N.of_nat n)).
Definition hexd (d : N) : string :=
  String (ascii_of_N (nth (N.to_nat d) [48; 49; 50; 51; 52; 53; 54; 55; 56; 57; 65; 66; 67; 68; 69; 70] (55 + d))) EmptyString.
Definition hex (bs : list N) : string := String.concat "" (map (fun b => hexd (b / 16) ++ hexd (b mod 16))%string bs).
Definition count_up (n : nat) : list N := map (fun i => N.of_nat i mod 256) (seq 0 n).

(* One entry of LWC_AEAD_KAT_128_128.txt: message of m bytes, associated data of a bytes. *)
Definition kat_entry (I : Spec.inst) (count m a : nat) : string :=
  ("Count = " ++ dec count ++ eol ++
   "Key = " ++ hex (count_up 16) ++ eol ++
   "Nonce = " ++ hex (count_up 16) ++ eol ++
   "PT = " ++ hex (count_up m) ++ eol ++
   "AD = " ++ hex (count_up a) ++ eol ++
   "CT = " ++ hex (Spec.isap_encrypt I (count_up 16) (count_up 16) (count_up a) (count_up m)) ++ eol ++ eol)%string.
(* The file: 33 * 33 entries. *)
Definition kat_file (I : Spec.inst) : string :=
  String.concat "" (map (fun i => kat_entry I (S i) (i / 33) (i mod 33)) (seq 0 (33 * 33))).

(* LWC_HASH_KAT_256.txt: 1025 entries, with the hash function H. *)
Definition hash_entry (H : list N -> list N) (m : nat) : string :=
  ("Count = " ++ dec (S m) ++ eol ++
   "Msg = " ++ hex (count_up m) ++ eol ++
   "MD = " ++ hex (H (count_up m)) ++ eol ++ eol)%string.
Definition hash_file (H : list N -> list N) : string := String.concat "" (map (hash_entry H) (seq 0 1025)).

(* The condition ex holds for all calls that genkat_aead.c and demo.c make, when the local arrays key, nonce, msg, msg2, ad, ct, clen, mlen2 are the
   blocks n, ..., n + 7. *)
Definition kat_calls (ex : ext) (n : nat) : Prop :=
  forall m a t, length m = (n + 8)%nat -> length (blk m (n + 4)) = 32%nat -> (a <= 32)%nat -> (t <= 32)%nat ->
    ex m (P n 0) (P (n + 1) 0) (P (n + 4) 0) a (P (n + 2) 0) (P (n + 5) 0) t /\
    ex m (P n 0) (P (n + 1) 0) (P (n + 4) 0) a (P (n + 5) 0) (P (n + 3) 0) t.

(* The same for bulk.c, whose local arrays key, nonce, msg, ad, ct, clen are the blocks n, ..., n + 5. *)
Definition bulk_calls (ex : ext) (n : nat) : Prop :=
  forall m, length m = (n + 6)%nat -> ex m (P n 0) (P (n + 1) 0) (P (n + 3) 0) 0%nat (P (n + 2) 0) (P (n + 4) 0) 1536%nat.
