(* Model of the shell script tests/time_all.sh. Definitions only. As in Script.v the script runs from the root of the package (cd .., line 7), bash stops at
   no error, and what other programs do enters as arguments: whether gcc leaves an executable, and what bash's `time` reports. *)
From Coq Require Import Ascii String.
From Verif Require Import Base Genkat Script.
Open Scope nat_scope.
Open Scope string_scope.

(* gcc -o bulk, line 34: success; an error before the linker, which leaves an existing file bulk alone; a linker error, which removes it. *)
Inductive outcome := Compiled | Failed | Unlinked.
(* What the file bulk is after line 34: compiled from directory d, or missing. *)
Definition gcc_bulk (d : string) (r : outcome) (bulk : option string) : option string :=
  match r with Compiled => Some d | Failed => bulk | Unlinked => None end.

(* What comes out of { time ./bulk; } 2>&1: what the command prints (bulk.c prints nothing; when the file is missing, bash's message), then the
   report of the reserved word time in its default format, the three times formatted by bash. *)
Record timing := Timing { said : string; t_real : string; t_user : string; t_sys : string }.
Definition nl : string := String "010"%char EmptyString.
Definition tab : string := String "009"%char EmptyString.
Definition time_text (t : timing) : string :=
  said t ++ nl ++ "real" ++ tab ++ t_real t ++ nl ++ "user" ++ tab ++ t_user t ++ nl ++ "sys" ++ tab ++ t_sys t ++ nl.

(* cut -d " " -f n *)
Definition space (c : ascii) : bool := Ascii.eqb c " "%char.
Definition cut_sp (n : nat) (s : string) : string := match pieces space s with [_] => s | l => nth (n - 1) l EmptyString end.
(* res=$( ... ); echo $res | rev | cut -d " " -f 3 | rev, lines 35-36 *)
Definition time_line (t : timing) : string := srev (cut_sp 3 (srev (echo (words (strip (time_text t)))))).

(* The loop, lines 31-37. at_ d e: what is reported in the iteration of directory d when the file bulk is e. *)
Fixpoint time_loop (gcc : string -> outcome) (at_ : string -> option string -> timing) (l : list string) (bulk : option string) : list string * option string :=
  match l with
  | [] => ([], bulk)
  | d :: l => let bulk := gcc_bulk d (gcc d) bulk in
              let '(o, bulk') := time_loop gcc at_ l bulk in (d :: time_line (at_ d bulk) :: o, bulk')
  end.
(* lines 12-30 *)
Definition time_dirs : list string := map (fun d => "crypto_aead/isapa128av20/" ++ d)
  ["opt_64"; "opt_32"; "opt_32_compact"; "opt_32_stp"; "opt_32_tiny"; "bi_32"; "bi_32_compact"; "bi_32_stp"; "bi_8"; "opt_8"; "opt_8_tiny"; "ref"].
(* Standard output and the file bulk afterwards. *)
Definition time_all (gcc : string -> outcome) (at_ : string -> option string -> timing) (bulk : option string) : list string * option string :=
  let '(o, bulk) := time_loop gcc at_ time_dirs bulk in
  (["#################"; "#      AEAD     #"; "#################"] ++ o, bulk)%list.
