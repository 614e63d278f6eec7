(* Models of the shell scripts tests/test_all.sh and tests/bench_all.sh. Definitions only.
   The scripts run from the root of the package (cd .., line 7). What other programs do enters as arguments: what gcc leaves in the file genkat,
   what genkat writes, what diff prints for two files, what getcycles prints. Lines of standard output are strings without the newline; standard
   error is ignored, as the scripts do. bash stops at no error (no set -e). *)
From Coq Require Import Ascii String.
From Verif Require Import Base Genkat.
Open Scope nat_scope.
Open Scope string_scope.
Local Notation length := List.length.

(* ---- test_all.sh ---- *)

(* A compiled genkat: given whether fopen succeeds, the file it writes (name, contents). *)
Definition program := bool -> option (string * string).
(* gcc -o genkat: success; an error before the linker, which leaves an existing file genkat alone; a linker error, which removes it. *)
Inductive cc := Built (p : program) | NoObject | NoLink.
(* The files that matter: the executable ./genkat and the text files below the root. *)
Record world := World { exe : option program; files : string -> option string }.

(* gcc ... -o genkat, lines 34, 68, 76 *)
Definition run_gcc (r : cc) (w : world) : world :=
  match r with
  | Built p => World (Some p) (files w)
  | NoObject => w
  | NoLink => World None (files w)
  end.
(* ./genkat, lines 35, 69, 77; without the file bash prints an error to stderr and goes on. *)
Definition run_genkat (opened : bool) (w : world) : world :=
  match exe w with
  | Some p => match p opened with
              | Some (name, text) => World (exe w) (fun f => if String.eqb f name then Some text else files w f)
              | None => w
              end
  | None => w
  end.
(* $(...): trailing newlines are removed *)
Fixpoint all_nl (s : string) : bool := match s with EmptyString => true | String c s => Ascii.eqb c "010"%char && all_nl s end.
Fixpoint strip (s : string) : string := match s with EmptyString => EmptyString | String c t => if all_nl s then EmptyString else String c (strip t) end.

Section TestAll.
  (* What diff writes to standard output for two files with these contents. *)
  Variable df : string -> string -> string.

  (* res=$(diff f g), lines 36, 70, 78; a missing file is reported on stderr and nothing goes to stdout. *)
  Definition run_diff (f g : string) (w : world) : string :=
    strip (match files w f, files w g with Some a, Some b => df a b | _, _ => EmptyString end).

  Definition esc : string := String "027"%char EmptyString.
  Definition GREEN : string := esc ++ "[0;32m".
  Definition RED : string := esc ++ "[0;31m".
  Definition NC : string := esc ++ "[0m".
  (* if [[ $res == "" ]]; then printf ... else printf ... fi, lines 37-41, 71-75, 79-83 *)
  Definition report (label res : string) : string :=
    if String.eqb res EmptyString then label ++ " " ++ GREEN ++ "PASS!" ++ NC else label ++ " " ++ RED ++ "FAIL!" ++ NC.

  Definition aead_kat : string := "LWC_AEAD_KAT_128_128.txt".
  Definition hash_kat : string := "LWC_HASH_KAT_256.txt".
  Definition aead_ref : string := "crypto_aead_hash/isapa128av20/LWC_AEAD_KAT_128_128.txt".
  Definition hash_ref : string := "crypto_aead_hash/isapa128av20/LWC_HASH_KAT_256.txt".

  (* What happens at one compilation and run: the outcome of gcc and of fopen. *)
  Definition event : Type := cc * bool.
  (* Lines 34-41, 68-75 (f = aead_kat), 76-83 (f = hash_kat) *)
  Definition check (label f g : string) (e : event) (w : world) : list string * world :=
    let w := run_genkat (snd e) (run_gcc (fst e) w) in
    ([report label (run_diff f g w)], w).

  (* The first loop, lines 31-42 *)
  Fixpoint loop1 (l : list (string * event)) (w : world) : list string * world :=
    match l with
    | [] => ([], w)
    | (i, e) :: l => let '(o, w) := check "AEAD" aead_kat aead_ref e w in let '(o', w) := loop1 l w in (i :: o ++ o', w)
    end%list.
  (* The second loop, lines 65-84 *)
  Fixpoint loop2 (l : list (string * (event * event))) (w : world) : list string * world :=
    match l with
    | [] => ([], w)
    | (i, (e, h)) :: l =>
      let '(o, w) := check "AEAD" aead_kat aead_ref e w in
      let '(q, w) := check "HASH" hash_kat hash_ref h w in
      let '(o', w) := loop2 l w in (i :: o ++ q ++ o', w)
    end%list.

  (* lines 12-30 *)
  Definition dirs1 : list string := map (fun d => "crypto_aead/isapa128av20/" ++ d)
    ["opt_64"; "opt_32"; "opt_32_compact"; "opt_32_stp"; "opt_32_tiny"; "bi_32"; "bi_32_compact"; "bi_32_stp"; "bi_8"; "opt_8"; "opt_8_tiny"; "ref"].
  (* lines 47-64 *)
  Definition dirs2 : list string := map (fun d => "crypto_aead_hash/isapa128av20/" ++ d)
    ["opt_64"; "opt_32"; "opt_32_compact"; "opt_32_stp"; "opt_32_tiny"; "bi_32"; "bi_32_compact"; "bi_32_stp"; "bi_8"; "opt_8"; "opt_8_tiny"].

  (* The script; f, g, h say what happens for each directory. Result: standard output, exit status (that of the last command, printf), files. *)
  Definition test_all (f : string -> event) (g : string -> event * event) (w : world) : list string * nat * world :=
    let '(o1, w) := loop1 (map (fun d => (d, f d)) dirs1) w in
    let '(o2, w) := loop2 (map (fun d => (d, g d)) dirs2) w in
    ((["#################"; "#      AEAD     #"; "#################"] ++ o1 ++
      ["########################"; "#      AEAD + HASH     #"; "########################"] ++ o2)%list, 0, w).
End TestAll.

(* ---- bench_all.sh ---- *)

Definition blank (c : ascii) : bool := Ascii.eqb c " "%char || Ascii.eqb c "009"%char || Ascii.eqb c "010"%char.
(* The pieces between the characters that satisfy p. *)
Fixpoint pieces (p : ascii -> bool) (s : string) : list string :=
  match s with
  | EmptyString => [EmptyString]
  | String c s => if p c then EmptyString :: pieces p s
                  else match pieces p s with a :: l => String c a :: l | [] => [String c EmptyString] end
  end.
Definition nonempty (s : string) : bool := negb (String.eqb s EmptyString).
(* Unquoted $x: word splitting; echo joins the words. (No file name expansion: there is no *, ? or [ in the text.) *)
Definition words (s : string) : list string := filter nonempty (pieces blank s).
Definition echo (l : list string) : string := String.concat " " l.
(* rev *)
Fixpoint srev (s : string) : string := match s with EmptyString => EmptyString | String c s => srev s ++ String c EmptyString end.
(* cut -d "|" -f n: a line without delimiter is printed whole *)
Definition bar (c : ascii) : bool := Ascii.eqb c "|"%char.
Definition cut (n : nat) (s : string) : string := match pieces bar s with [_] => s | l => nth (n - 1) l EmptyString end.
(* "label"$(echo $res | rev | cut -d "|" -f n | rev) as argument of echo: the first word of the expansion is joined to the label unless the
   expansion begins with a blank *)
Definition joined (label x : string) : list string :=
  match x, words x with
  | EmptyString, _ => [label]
  | String c _, ws => if blank c then cons label ws else match ws with a :: l => cons (label ++ a) l | [] => [label] end
  end.
Definition field_line (label : string) (n : nat) (res : string) : string :=
  echo (joined label (strip (srev (cut n (srev (echo (words res))))))).
(* res=$(./getcycles | tail -n1), lines 35, 66, 71 *)
Definition last_line (l : list string) : string := last l EmptyString.
(* lines 35-38 and 71-74 with HASH for AEAD *)
Definition bench (what : string) (printed : list string) : list string :=
  let res := strip (last_line printed) in
  [field_line (what ++ "   64:") 6 res; field_line (what ++ " 1536:") 4 res; field_line (what ++ " long:") 2 res].
(* lines 66-69: the labels of the second loop *)
Definition bench2 (printed : list string) : list string :=
  let res := strip (last_line printed) in
  [field_line "AEAD  64:" 6 res; field_line "AEAD 536:" 4 res; field_line "AEAD ong:" 2 res].
