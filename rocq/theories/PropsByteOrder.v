(* Property C63: the byte order found by brg_endian.h, and the reference permutation of the Keccak instances on other byte orders. d: the macros
   defined where brg_endian.h is included. Only statements: proofs are in ByteOrderProof.v. *)
From Coq Require Import String.
From Verif Require Import Base SpecPerm Words ByteOrder VocabOrder ByteOrderProof.
Open Scope string_scope.

(* Whatever is defined, the header never ends without a byte order and never reaches its #error. *)
Theorem C63_always_an_answer d : brg_endian d <> Order None /\ brg_endian d <> ErrorDirective.
Proof. exact (brg_defined d). Qed.
Print Assumptions C63_always_an_answer.

(* If at least one of the four groups of macros tells the byte order and the others agree or tell nothing, the answer is that order. *)
Theorem C63_right_when_told d e : (forall n, In n names -> quiet d n \/ tells d n e) -> (exists n, In n names /\ tells d n e) ->
  brg_endian d = Order (Some e).
Proof. exact (brg_told d e). Qed.
Print Assumptions C63_right_when_told.

(* If two groups contradict each other, the compiler complains. *)
Theorem C63_contradiction_found d n n' : In n names -> In n' names -> (forall n, In n names -> quiet d n \/ exists e, tells d n e) ->
  tells d n IS_BIG_ENDIAN -> tells d n' IS_LITTLE_ENDIAN -> brg_endian d = Redefined.
Proof. exact (brg_contradiction d n n'). Qed.
Print Assumptions C63_contradiction_found.

(* If no group tells anything, the answer depends on the names of machines; it is little-endian for those not known. *)
Theorem C63_machine_names d : (forall n, In n names -> quiet d n) ->
  (brg_endian d = Order (Some IS_BIG_ENDIAN) \/ brg_endian d = Order (Some IS_LITTLE_ENDIAN)) /\
  (brg_endian d = Order (Some IS_BIG_ENDIAN) <->
   (forall x, In x known_little -> d x = None) /\ ((exists x, In x known_big /\ d x <> None) \/ (d "__arm__" <> None /\ d "__BIG_ENDIAN" <> None))).
Proof. exact (brg_machines d). Qed.
Print Assumptions C63_machine_names.

(* Refuted: the header finds the byte order of the machine. With the macros GCC predefines, and no C library that defines more, it takes
   big-endian MIPS, ARM, AArch64 and z/Architecture machines for little-endian. *)
Theorem C63_byte_order_refuted m : In m ["__mips__"; "__arm__"; "__aarch64__"; "__s390x__"] ->
  brg_endian (only ((m, 1%Z) :: gcc_order IS_BIG_ENDIAN)) = Order (Some IS_LITTLE_ENDIAN).
Proof. exact (gcc_mistaken m). Qed.
Print Assumptions C63_byte_order_refuted.

(* With those of <endian.h> of the GNU C library the answer is right. *)
Theorem C63_glibc e : brg_endian (only (gcc_order e ++ glibc_order e)) = Order (Some e).
Proof. exact (glibc_right e). Qed.
Print Assumptions C63_glibc.

(* On a little-endian machine taken for one, the permutation is that of the specification. *)
Theorem C63_little_endian r s : (r <= 20)%nat -> bytes s -> length s = 50%nat ->
  permute IS_LITTLE_ENDIAN IS_LITTLE_ENDIAN (N.of_nat r) s = Some (keccak_p r s).
Proof. exact (permute_little r s). Qed.
Print Assumptions C63_little_endian.

(* On a big-endian machine taken for a little-endian one, it is that of the specification between two exchanges of the bytes of every lane... *)
Theorem C63_mistaken r s : (r <= 20)%nat -> bytes s -> length s = 50%nat ->
  permute IS_BIG_ENDIAN IS_LITTLE_ENDIAN (N.of_nat r) s = Some (swap_lanes (keccak_p r (swap_lanes s))).
Proof. exact (permute_mistaken r s). Qed.
Print Assumptions C63_mistaken.

(* ... which is another permutation, for every number of rounds. *)
Theorem C63_permutation_refuted r : (1 <= r <= 20)%nat -> exists s, bytes s /\ length s = 50%nat /\
  permute IS_BIG_ENDIAN IS_LITTLE_ENDIAN (N.of_nat r) s <> Some (keccak_p r s).
Proof. exact (permute_wrong r). Qed.
Print Assumptions C63_permutation_refuted.

(* Refuted: on a big-endian machine found to be one, the implementation can be linked. *)
Theorem C63_link_refuted : exists f, In f (permute_calls IS_BIG_ENDIAN) /\ ~ In f ref_functions.
Proof. exact no_conversion. Qed.
Print Assumptions C63_link_refuted.

(* ---- The hypotheses can be met. ---- *)

(* One group tells, the others are quiet, although the machine is in the little-endian list. *)
Example C63_told_case : let d := only [("_BIG_ENDIAN", 1%Z); ("__BYTE_ORDER__", 4321%Z); ("i386", 1%Z)] in
  (forall n, In n names -> quiet d n \/ tells d n IS_BIG_ENDIAN) /\ exists n, In n names /\ tells d n IS_BIG_ENDIAN.
Proof.
  split.
  - intros n Hn. cbn [names In] in Hn. destruct Hn as [<-|[<-|[<-|[<-|[]]]]]; [left|right|left|left]; cbn; auto.
  - exists ("_BIG_ENDIAN", "_LITTLE_ENDIAN", "_BYTE_ORDER"). cbn. auto.
Qed.
Example C63_contradiction_case : let d := only (("__BIG_ENDIAN__", 1%Z) :: glibc_order IS_LITTLE_ENDIAN) in
  (forall n, In n names -> quiet d n \/ exists e, tells d n e) /\ tells d ("__BIG_ENDIAN__", "__LITTLE_ENDIAN__", "__BYTE_ORDER__") IS_BIG_ENDIAN /\
  tells d ("BIG_ENDIAN", "LITTLE_ENDIAN", "BYTE_ORDER") IS_LITTLE_ENDIAN.
Proof.
  split; [|split].
  - intros n Hn. cbn [names In] in Hn. destruct Hn as [<-|[<-|[<-|[<-|[]]]]].
    + right. exists IS_LITTLE_ENDIAN. cbn. split; [discriminate|reflexivity].
    + left. exact I.
    + right. exists IS_LITTLE_ENDIAN. cbn. split; [discriminate|reflexivity].
    + right. exists IS_BIG_ENDIAN. reflexivity.
  - reflexivity.
  - cbn. split; [discriminate|reflexivity].
Qed.
Example C63_unknown_case : forall n, In n names -> quiet (only (("__riscv", 1%Z) :: gcc_order IS_LITTLE_ENDIAN)) n.
Proof. intros n Hn. cbn [names In] in Hn. destruct Hn as [<-|[<-|[<-|[<-|[]]]]]; exact I. Qed.
(* A machine of the list that tells nothing else. *)
Example C63_listed_case : brg_endian (only [("m68k", 1%Z)]) = Order (Some IS_BIG_ENDIAN) /\ brg_endian (only [("_M_X64", 1%Z)]) = Order (Some IS_LITTLE_ENDIAN).
Proof. split; reflexivity. Qed.
