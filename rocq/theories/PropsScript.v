(* Property theorems: the script tests/test_all.sh (C52). Nothing but statements, each proved by a lemma. *)
From Coq Require Import Ascii String.
From Verif Require Import Base Mem Vocab VocabK RefIsap RefAead ExLib OptPerm OptIsap OptProof OptImpl OptEx Genkat VocabKat Script VocabScript ScriptProof.
From Verif Require Spec.
Open Scope nat_scope.
Open Scope string_scope.
Local Notation length := List.length.

(* ---- C52 ---- *)

(* If every compilation succeeds and every output file can be opened, each line is right: PASS when the program wrote the reference file, else
   FAIL. ta, tb, th: what the programs write. *)
Theorem C52_verdicts_when_built df f g w R H (ta tb th : string -> string) : diff_like df ->
  files w aead_ref = Some R -> files w hash_ref = Some H ->
  (forall d, In d named1 -> exists p, f d = (Built p, true) /\ p true = Some ("LWC_AEAD_KAT_128_128.txt", ta d)) ->
  (forall d, In d named2 -> exists p q, g d = ((Built p, true), (Built q, true)) /\
     p true = Some ("LWC_AEAD_KAT_128_128.txt", tb d) /\ q true = Some ("LWC_HASH_KAT_256.txt", th d)) ->
  exists w', test_all df f g w =
    (output (fun d => if String.eqb (ta d) R then says_pass "AEAD" else says_fail "AEAD")
       (fun d => (if String.eqb (tb d) R then says_pass "AEAD" else says_fail "AEAD", if String.eqb (th d) H then says_pass "HASH" else says_fail "HASH")), 0, w').
Proof. exact (fun Hd => built_ok df Hd f g w R H ta tb th). Qed.
Print Assumptions C52_verdicts_when_built.

(* With the sources of the package (C46, C47) the script then says PASS everywhere exactly when the two reference files are the ones that the
   specifications of ISAP-A-128A and Ascon-Hash determine. *)
Theorem C52_package_passes df f g w R H : diff_like df -> files w aead_ref = Some R -> files w hash_ref = Some H ->
  (forall d, In d named1 -> exists p, f d = (Built p, true) /\ builds "crypto_aead/isapa128av20/" d p) ->
  (forall d, In d named2 -> exists p q, g d = ((Built p, true), (Built q, true)) /\
     builds "crypto_aead_hash/isapa128av20/" d p /\ builds_hash "crypto_aead_hash/isapa128av20/" d q) ->
  (fst (fst (test_all df f g w)) = all_pass <-> R = kat_file Spec.ISAP_A_128A /\ H = hash_file Spec.ascon_hash).
Proof. exact (package_iff df f g w R H). Qed.
Print Assumptions C52_package_passes.

(* Refuted in general: in a fresh checkout, if no compilation succeeds (no compiler, say), every line says PASS. diff reports the missing file on
   stderr only. *)
Theorem C52_nothing_compiles_refuted df f g w : exe w = None -> files w "LWC_AEAD_KAT_128_128.txt" = None -> files w "LWC_HASH_KAT_256.txt" = None ->
  (forall d p, fst (f d) <> Built p /\ fst (fst (g d)) <> Built p /\ fst (snd (g d)) <> Built p) ->
  exists w', test_all df f g w = (all_pass, 0, w').
Proof. exact (no_build_ok df f g w). Qed.
Print Assumptions C52_nothing_compiles_refuted.

(* After a successful run, sources that no longer compile pass as well: the executable and the files of the earlier run are used. *)
Theorem C52_broken_sources_refuted df f g w R p : diff_like df ->
  exe w = Some p -> (forall o, p o = None \/ p o = Some ("LWC_AEAD_KAT_128_128.txt", R)) ->
  files w "LWC_AEAD_KAT_128_128.txt" = Some R -> files w aead_ref = Some R -> files w "LWC_HASH_KAT_256.txt" = files w hash_ref ->
  (forall d, fst (f d) = NoObject /\ fst (fst (g d)) = NoObject /\ fst (snd (g d)) = NoObject) ->
  exists w', test_all df f g w = (all_pass, 0, w').
Proof. exact (fun Hd => stale_ok df Hd f g w R p). Qed.
Print Assumptions C52_broken_sources_refuted.

(* Programs that cannot open their output file pass on the strength of the old file, whatever they would have computed. *)
Theorem C52_unwritable_refuted df f g w R H : diff_like df ->
  files w "LWC_AEAD_KAT_128_128.txt" = Some R -> files w aead_ref = Some R -> files w "LWC_HASH_KAT_256.txt" = Some H -> files w hash_ref = Some H ->
  (forall d, exists p q r, f d = (Built p, false) /\ g d = ((Built q, false), (Built r, false)) /\ p false = None /\ q false = None /\ r false = None) ->
  exists w', test_all df f g w = (all_pass, 0, w').
Proof. exact (fun Hd => unopened_ok df Hd f g w R H). Qed.
Print Assumptions C52_unwritable_refuted.

(* The exit status is 0 although every line says FAIL. *)
Theorem C52_exit_status_refuted df w R H : diff_like df -> files w aead_ref = Some (String "C" R) -> files w hash_ref = Some (String "C" H) ->
  exists f g w', test_all df f g w = (all_fail, 0, w').
Proof. exact (fails_with_zero df w R H). Qed.
Print Assumptions C52_exit_status_refuted.

(* There is such a diff, PASS and FAIL are different lines, and the package builds such programs. *)
Example ex_C52_diff : diff_like (fun a b => if String.eqb a b then "" else "1c1").
Proof. intros a b. cbv beta. destruct (String.eqb_spec a b); split; intros E; try reflexivity; try contradiction; try assumption; discriminate. Qed.
Example ex_C52_lines : says_pass "AEAD" <> says_fail "AEAD" /\ all_pass <> all_fail /\ length all_pass = 63.
Proof. split; [discriminate|]. split; [discriminate|reflexivity]. Qed.
Example ex_C52_dirs d : In d named1 -> exists p, builds "crypto_aead/isapa128av20/" d p.
Proof. exact (dirs1_built d). Qed.
Example ex_C52_dirs2 d : In d named2 -> exists p q, builds "crypto_aead_hash/isapa128av20/" d p /\ builds_hash "crypto_aead_hash/isapa128av20/" d q.
Proof. exact (dirs2_built d). Qed.
(* Worlds as in the refuted statements: a fresh checkout, and one after a run. *)
Example ex_C52_fresh : exists w, exe w = None /\ files w "LWC_AEAD_KAT_128_128.txt" = None /\ files w "LWC_HASH_KAT_256.txt" = None /\
  files w aead_ref = Some "Count = 1" /\ fst (fst (test_all (fun a b => if String.eqb a b then "" else "1c1") (fun _ => (NoObject, true)) (fun _ => ((NoObject, true), (NoLink, true))) w)) = all_pass.
Proof.
  exists (World None (fun f => if String.eqb f aead_ref then Some "Count = 1" else if String.eqb f hash_ref then Some "Count = 1" else None)).
  repeat split.
Qed.
Example ex_C52_later : exists w p, exe w = Some p /\ (forall o, p o = None \/ p o = Some ("LWC_AEAD_KAT_128_128.txt", "Count = 1")) /\
  files w "LWC_AEAD_KAT_128_128.txt" = Some "Count = 1" /\ files w aead_ref = Some "Count = 1" /\ files w "LWC_HASH_KAT_256.txt" = files w hash_ref /\
  files w hash_ref = Some "Count = 1".
Proof.
  exists (World (Some (fun o => if o : bool then Some ("LWC_AEAD_KAT_128_128.txt", "Count = 1") else None)) (fun _ => Some "Count = 1")).
  eexists. repeat split. intros [|]; auto.
Qed.
