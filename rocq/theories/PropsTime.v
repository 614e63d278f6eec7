(* Property theorems: the script tests/time_all.sh (C55). Nothing but statements, each proved by a lemma. *)
From Coq Require Import Ascii String.
From Verif Require Import Base Script VocabScript Timeall VocabTime TimeProof.
Open Scope nat_scope.
Open Scope string_scope.

(* ---- C55 ---- *)

(* If every compilation succeeds, the script prints below each directory the user time of the program compiled from it, whatever an earlier run left
   behind and whatever the program prints. *)
Theorem C55_user_times gcc at_ bulk : (forall d x, timed (at_ d x)) -> (forall d, In d named1 -> gcc d = Compiled) ->
  fst (time_all gcc at_ bulk) = time_output (fun d => t_user (at_ d (Some d))).
Proof. exact (time_built gcc at_ bulk). Qed.
Print Assumptions C55_user_times.

(* Refuted otherwise. Only the first directory compiles: its time is printed below all the others. *)
Theorem C55_stale_program_refuted gcc at_ bulk : (forall d x, timed (at_ d x)) -> gcc "crypto_aead/isapa128av20/opt_64" = Compiled ->
  (forall d, In d named1 -> d <> "crypto_aead/isapa128av20/opt_64" -> gcc d = Failed) ->
  fst (time_all gcc at_ bulk) = time_output (fun d => t_user (at_ d (Some "crypto_aead/isapa128av20/opt_64"))).
Proof. exact (time_first gcc at_ bulk). Qed.
Print Assumptions C55_stale_program_refuted.

(* Nothing compiles: the program of some earlier run d0 (of another implementation, say) is measured twelve times. *)
Theorem C55_old_program_refuted gcc at_ d0 : (forall d x, timed (at_ d x)) -> (forall d, In d named1 -> gcc d = Failed) ->
  fst (time_all gcc at_ (Some d0)) = time_output (fun d => t_user (at_ d (Some d0))).
Proof. exact (time_stale gcc at_ d0). Qed.
Print Assumptions C55_old_program_refuted.

(* Nothing compiles and there is no earlier program: the time bash needs to find no program is printed; the error message it prints is cut away with the
   rest. *)
Theorem C55_no_program_refuted gcc at_ : (forall d x, timed (at_ d x)) -> (forall d, In d named1 -> gcc d <> Compiled) ->
  fst (time_all gcc at_ None) = time_output (fun d => t_user (at_ d None)).
Proof. exact (time_missing gcc at_). Qed.
Print Assumptions C55_no_program_refuted.

(* No failure shows in the output: it is always one that a run in which everything compiles could have produced. *)
Theorem C55_failures_unnoticed_refuted gcc at_ bulk : exists at', (forall d x, exists y, at' d x = at_ d y) /\
  fst (time_all (fun _ => Compiled) at' bulk) = fst (time_all gcc at_ bulk).
Proof. exact (time_unnoticed gcc at_ bulk). Qed.
Print Assumptions C55_failures_unnoticed_refuted.

(* Times as bash prints them: opt_64 needs 0.1 s, any other program 2 s, no program nothing. *)
Definition ex_at (d : string) (x : option string) : timing :=
  match x with
  | Some p => if String.eqb p "crypto_aead/isapa128av20/opt_64" then Timing "" "0m0.120s" "0m0.100s" "0m0.004s" else Timing "" "0m2.050s" "0m2.000s" "0m0.004s"
  | None => Timing ("./time_all.sh: line 35: ./bulk: No such file or directory" ++ String "010"%char EmptyString) "0m0.001s" "0m0.000s" "0m0.001s"
  end.
Example ex_C55_timed d x : timed (ex_at d x).
Proof.
  destruct x as [p|]; unfold ex_at; [destruct (String.eqb _ _)|]; intros s Hs; cbn in Hs;
    repeat (destruct Hs as [<-|Hs]; [split; [discriminate|reflexivity]|]); destruct Hs.
Qed.
Example ex_C55_lines : firstn 7 (fst (time_all (fun _ => Compiled) ex_at None)) =
  ["#################"; "#      AEAD     #"; "#################"; "crypto_aead/isapa128av20/opt_64"; "0m0.100s"; "crypto_aead/isapa128av20/opt_32"; "0m2.000s"].
Proof. reflexivity. Qed.
Example ex_C55_stale : let gcc d := if String.eqb d "crypto_aead/isapa128av20/opt_64" then Compiled else Failed in
  nth 26 (fst (time_all gcc ex_at None)) "" = "0m0.100s" /\ nth 25 (fst (time_all gcc ex_at None)) "" = "crypto_aead/isapa128av20/ref" /\
  nth 26 (fst (time_all (fun _ => Compiled) ex_at None)) "" = "0m2.000s".
Proof. repeat split. Qed.
Example ex_C55_none : time_line (ex_at "crypto_aead/isapa128av20/ref" None) = "0m0.000s".
Proof. reflexivity. Qed.
