(* Vocabulary of property C63. Definitions only. *)
From Coq Require Import String.
From Verif Require Import Base ByteOrder.
Open Scope string_scope.

(* The names with which systems tell their byte order: big-endian, little-endian, actual. *)
Definition names : list (string * string * string) :=
  [("BIG_ENDIAN", "LITTLE_ENDIAN", "BYTE_ORDER"); ("_BIG_ENDIAN", "_LITTLE_ENDIAN", "_BYTE_ORDER");
   ("__BIG_ENDIAN", "__LITTLE_ENDIAN", "__BYTE_ORDER"); ("__BIG_ENDIAN__", "__LITTLE_ENDIAN__", "__BYTE_ORDER__")].
(* The three macros of n tell the order e: one of the first two is defined, or both are, with different values, and the third has one of them. *)
Definition tells (d : defs) (n : string * string * string) (e : order) : Prop :=
  match d (fst (fst n)), d (snd (fst n)), d (snd n) with
  | Some _, None, _ => e = IS_BIG_ENDIAN
  | None, Some _, _ => e = IS_LITTLE_ENDIAN
  | Some (Some b), Some (Some l), Some (Some x) => b <> l /\ x = match e with IS_BIG_ENDIAN => b | IS_LITTLE_ENDIAN => l end
  | _, _, _ => False
  end.
(* They tell nothing. *)
Definition quiet (d : defs) (n : string * string * string) : Prop :=
  match d (fst (fst n)), d (snd (fst n)), d (snd n) with
  | None, None, _ => True
  | Some (Some _), Some (Some _), None => True
  | Some (Some b), Some (Some l), Some (Some x) => x <> b /\ x <> l
  | _, _, _ => False
  end.

(* The macros of list l, everything else undefined. *)
Definition only (l : list (string * Z)) : defs :=
  fun x => match find (fun p => String.eqb (fst p) x) l with Some p => Some (Some (snd p)) | None => None end.
(* What GCC predefines about the byte order on every machine. *)
Definition gcc_order (e : order) : list (string * Z) :=
  [("__ORDER_LITTLE_ENDIAN__", 1234%Z); ("__ORDER_BIG_ENDIAN__", 4321%Z);
   ("__BYTE_ORDER__", match e with IS_BIG_ENDIAN => 4321%Z | IS_LITTLE_ENDIAN => 1234%Z end)].
(* What <endian.h> of the GNU C library defines. *)
Definition glibc_order (e : order) : list (string * Z) :=
  let x := match e with IS_BIG_ENDIAN => 4321%Z | IS_LITTLE_ENDIAN => 1234%Z end in
  [("__LITTLE_ENDIAN", 1234%Z); ("__BIG_ENDIAN", 4321%Z); ("__PDP_ENDIAN", 3412%Z); ("__BYTE_ORDER", x);
   ("LITTLE_ENDIAN", 1234%Z); ("BIG_ENDIAN", 4321%Z); ("PDP_ENDIAN", 3412%Z); ("BYTE_ORDER", x)].

(* The two bytes of every lane exchanged. *)
Fixpoint swap_lanes (s : list N) : list N := match s with a :: b :: r => b :: a :: swap_lanes r | _ => s end.

(* Names of machines, systems and compilers by their byte order. *)
Definition known_little : list string :=
  ["__alpha__"; "__alpha"; "i386"; "__i386__"; "_M_I86"; "_M_IX86"; "__OS2__"; "sun386"; "__TURBOC__"; "vax"; "vms"; "VMS"; "__VMS"; "_M_X64"].
Definition known_big : list string :=
  ["AMIGA"; "applec"; "__AS400__"; "_CRAY"; "__hppa"; "__hp9000"; "ibm370"; "mc68000"; "m68k"; "__MRC__"; "__MVS__"; "__MWERKS__"; "sparc"; "__sparc";
   "SYMANTEC_C"; "__VOS__"; "__TIGCC__"; "__TANDEM"; "THINK_C"; "__VMCMS__"; "_AIX"].
