(* Vocabulary of the theorems on the shell scripts: what the output should say, and which programs the package builds. Definitions only; models no
   particular file of /repo. *)
From Coq Require Import Ascii String.
From Verif Require Import Base Mem Vocab VocabK RefIsap RefAead OptPerm OptIsap OptStp OptProof OptImpl Table Genkat VocabKat Script.
From Verif Require Spec.
Open Scope nat_scope.
Open Scope string_scope.
Local Notation length := List.length.

(* diff prints something other than newlines exactly when the files differ. *)
Definition diff_like (df : string -> string -> string) : Prop := forall a b, strip (df a b) = EmptyString <-> a = b.

Definition says_pass (label : string) : string := label ++ " " ++ String "027"%char ("[0;32mPASS!" ++ String "027"%char "[0m").
Definition says_fail (label : string) : string := label ++ " " ++ String "027"%char ("[0;31mFAIL!" ++ String "027"%char "[0m").

(* The directories that are to be tested: those of isapa128av20 that need no ARM device, with the reference implementation in the first list. *)
Definition named : list string :=
  ["opt_64"; "opt_32"; "opt_32_compact"; "opt_32_stp"; "opt_32_tiny"; "bi_32"; "bi_32_compact"; "bi_32_stp"; "bi_8"; "opt_8"; "opt_8_tiny"].
Definition named1 : list string := map (fun d => "crypto_aead/isapa128av20/" ++ d) (named ++ ["ref"])%list.
Definition named2 : list string := map (fun d => "crypto_aead_hash/isapa128av20/" ++ d) named.

(* Standard output with the given verdict lines: one below every directory of the first list, two below every one of the second. *)
Definition output (f : string -> string) (g : string -> string * string) : list string :=
  (["#################"; "#      AEAD     #"; "#################"] ++
   flat_map (fun d => [d; f d]) named1 ++
   ["########################"; "#      AEAD + HASH     #"; "########################"] ++
   flat_map (fun d => [d; fst (g d); snd (g d)]) named2)%list.
Definition all_pass : list string := output (fun _ => says_pass "AEAD") (fun _ => (says_pass "AEAD", says_pass "HASH")).
Definition all_fail : list string := output (fun _ => says_fail "AEAD") (fun _ => (says_fail "AEAD", says_fail "HASH")).

(* p is genkat_aead.c with implementation X, resp. genkat_hash.c with h, started in memory mm, if
   it can open its output file. *)
Definition genkat_of (X : aead) (cf : cfg) (mm : mem) (p : program) : Prop :=
  exists r e m', runs (genkat_main X cf true) mm (r, p true, e) m'.
Definition genkat_hash_of (h : ptr -> ptr -> N -> M Z) (mm : mem) (p : program) : Prop :=
  exists r e m', runs (genkat_hash_main h true) mm (r, p true, e) m'.

(* The models of the directories, by name. *)
Definition opt_names : list (string * asconp) :=
  [ ("opt_64", opt_64); ("opt_32", opt_32); ("opt_32_compact", opt_32_compact); ("opt_32_tiny", opt_32_tiny); ("bi_32", bi_32);
    ("bi_32_compact", bi_32_compact); ("bi_8", bi_8); ("opt_8", opt_8); ("opt_8_tiny", opt_8_tiny) ].
Definition stp_names : list (string * asconp) := [ ("opt_32_stp", opt_32_stp); ("bi_32_stp", bi_32_stp) ].

(* p is what the sources in directory root/name make of genkat_aead.c (genkat_hash.c), on a machine that permits misaligned accesses: constants (and
   the two globals of the STP directories) where the loader put them, anything in other memory and in uninitialised locals. *)
Inductive builds (root : string) : string -> program -> Prop :=
| b_opt name a cf junk mm p : In (name, a) opt_names -> strict cf = false -> length junk = 5 -> consts_ok opt_consts mm -> 4 <= length mm ->
    genkat_of (opt_impl a cf junk) cf mm p -> builds root (root ++ name) p
| b_stp name a cf junk mm p : In (name, a) stp_names -> strict cf = false -> length junk = 5 -> consts_ok opt_consts mm -> 6 <= length mm ->
    8 <= length (blk mm 4) -> 8 <= length (blk mm 5) -> genkat_of (stp_impl a cf junk) cf mm p -> builds root (root ++ name) p
| b_ref cf mm p : strict cf = false -> consts_ok (ref_consts (v_macros A128A)) mm -> length (ref_consts (v_macros A128A)) <= length mm ->
    genkat_of (ref_impl A128A cf) cf mm p -> builds root (root ++ "ref") p.
Inductive builds_hash (root : string) : string -> program -> Prop :=
| b_hash name a cf mm p : In (name, a) (opt_names ++ stp_names) -> strict cf = false -> consts_ok opt_consts mm -> 4 <= length mm ->
    genkat_hash_of (OptIsap.crypto_hash a cf) mm p -> builds_hash root (root ++ name) p.

(* The last line of getcycles.c, 143-151: seven values, each padded to width 5 (fields of the format "| %5.0f " or "| %5.1f "), and "|". *)
Definition pad5 (v : string) : string := String.concat "" (repeat " " (5 - String.length v)) ++ v.
Definition value_line (vs : list string) : string := String.concat "" (map (fun v => "| " ++ pad5 v ++ " ") vs) ++ "|".
(* A printed number: no blank, no bar, not empty. *)
Fixpoint plain (s : string) : bool := match s with EmptyString => true | String c s => negb (blank c) && negb (bar c) && plain s end.
Definition value (v : string) : Prop := v <> EmptyString /\ plain v = true.
