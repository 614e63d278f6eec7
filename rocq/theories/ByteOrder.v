(* brg_endian.h (the same file in five directories; included by KeccakP-400-reference.c of isapk128av20/ref, isapk128v20/ref and
   isapxv20/ref/lib/KeccakP-400-reference only) as a function of the macros defined where it is included, and the two branches of
   KeccakP400_Permute_Nrounds (KeccakP-400-reference.c) chosen by it. No proofs. Line numbers are those of isapk128av20/ref/brg_endian.h unless the
   other file is named. Lines 35-52 (#if 0) and the include guard are left out; PLATFORM_BYTE_ORDER is not defined before. Simplification: a macro
   used in an #if either is an integer expression in itself or makes the directive ill-formed. *)
From Coq Require Import String.
From Verif Require Import Base SpecPerm Words RefPerm.
Open Scope N_scope.
Open Scope string_scope.

(* Lines 32-33. *)
Inductive order := IS_BIG_ENDIAN | IS_LITTLE_ENDIAN.

(* The macros defined where the header is included: None: not defined; Some (Some z): its replacement has the value z in an #if; Some None: its
   replacement is no integer expression (empty, for instance). *)
Definition defs := string -> option (option Z).
Definition isdef (d : defs) (x : string) : bool := match d x with Some _ => true | None => false end.
(* x == y in an #if; an identifier that is not a macro counts as 0. None: the directive is ill-formed. *)
Definition value (d : defs) (x : string) : option Z := match d x with Some v => v | None => Some 0%Z end.
Definition equal (d : defs) (x y : string) : option bool :=
  match value d x, value d y with Some a, Some b => Some (a =? b)%Z | _, _ => None end.

(* What is known about PLATFORM_BYTE_ORDER, or why the compiler complains: two different definitions, an ill-formed #if, the #error of line 137. *)
Inductive outcome := Order (o : option order) | Redefined | IllFormed | ErrorDirective.
Definition same (a b : order) : bool :=
  match a, b with IS_BIG_ENDIAN, IS_BIG_ENDIAN | IS_LITTLE_ENDIAN, IS_LITTLE_ENDIAN => true | _, _ => false end.
(* #define PLATFORM_BYTE_ORDER v *)
Definition define (v : order) (o : option order) : outcome :=
  match o with None => Order (Some v) | Some w => if same v w then Order (Some v) else Redefined end.

(* Lines 58-68, and the same lines with other names: 70-80, 82-92, 94-104. *)
Definition block (d : defs) (big little byte : string) (o : option order) : outcome :=
  if isdef d big && isdef d little then
    match equal d byte big with
    | None => IllFormed
    | Some e => if isdef d byte && e then define IS_BIG_ENDIAN o else
        match equal d byte little with
        | None => IllFormed
        | Some e => if isdef d byte && e then define IS_LITTLE_ENDIAN o else Order o
        end
    end
  else if isdef d big then define IS_BIG_ENDIAN o
  else if isdef d little then define IS_LITTLE_ENDIAN o
  else Order o.

(* Lines 110-114. *)
Definition little_machines : list string :=
  ["__alpha__"; "__alpha"; "i386"; "__i386__"; "_M_I86"; "_M_IX86"; "__OS2__"; "sun386"; "__TURBOC__"; "vax"; "vms"; "VMS"; "__VMS"; "_M_X64"].
(* Lines 117-123. *)
Definition big_machines : list string :=
  ["AMIGA"; "applec"; "__AS400__"; "_CRAY"; "__hppa"; "__hp9000"; "ibm370"; "mc68000"; "m68k"; "__MRC__"; "__MVS__"; "__MWERKS__"; "sparc"; "__sparc";
   "SYMANTEC_C"; "__VOS__"; "__TIGCC__"; "__TANDEM"; "THINK_C"; "__VMCMS__"; "_AIX"].
(* Lines 110-138. *)
Definition machines (d : defs) : outcome :=
  if existsb (isdef d) little_machines then Order (Some IS_LITTLE_ENDIAN)
  else if existsb (isdef d) big_machines then Order (Some IS_BIG_ENDIAN)
  else if isdef d "__arm__" then
    if isdef d "__BIG_ENDIAN" then Order (Some IS_BIG_ENDIAN) else Order (Some IS_LITTLE_ENDIAN)
  else if true then Order (Some IS_LITTLE_ENDIAN)
  else if false then Order (Some IS_BIG_ENDIAN)
  else ErrorDirective.

Definition then_ (x : outcome) (f : option order -> outcome) : outcome := match x with Order o => f o | _ => x end.
(* Lines 58-140. *)
Definition brg_endian (d : defs) : outcome :=
  then_ (block d "BIG_ENDIAN" "LITTLE_ENDIAN" "BYTE_ORDER" None) (fun o =>
  then_ (block d "_BIG_ENDIAN" "_LITTLE_ENDIAN" "_BYTE_ORDER" o) (fun o =>
  then_ (block d "__BIG_ENDIAN" "__LITTLE_ENDIAN" "__BYTE_ORDER" o) (fun o =>
  then_ (block d "__BIG_ENDIAN__" "__LITTLE_ENDIAN__" "__BYTE_ORDER__" o) (fun o =>
  match o with None => machines d | Some _ => Order o end)))).

(* KeccakP-400-reference.c 115-128 and 130-143: the functions called in the branch compiled for a given PLATFORM_BYTE_ORDER. *)
Definition permute_calls (h : order) : list string :=
  match h with
  | IS_LITTLE_ENDIAN => ["KeccakP400OnWords"]
  | IS_BIG_ENDIAN => ["fromBytesToWords"; "KeccakP400OnWords"; "fromWordsToBytes"]
  end.
(* The functions defined in the C files of isapk128av20/ref and of isapk128v20/ref: KeccakP-400-reference.c, isap.c, crypto_aead.c. *)
Definition ref_functions : list string :=
  ["KeccakP400_Initialize"; "KeccakP400_AddByte"; "KeccakP400_AddBytes"; "KeccakP400_OverwriteBytes"; "KeccakP400_OverwriteWithZeroes";
   "KeccakP400_Permute_Nrounds"; "KeccakP400_Permute_20rounds"; "KeccakP400OnWords"; "KeccakP400Round"; "theta"; "rho"; "pi"; "chi"; "iota";
   "KeccakP400_ExtractBytes"; "KeccakP400_ExtractAndAddBytes"; "isap_rk"; "isap_mac"; "isap_enc"; "crypto_aead_encrypt"; "crypto_aead_decrypt"].

(* KeccakP400_Permute_Nrounds on the 50 bytes of the state, on a machine with byte order e, compiled for byte order h. None: functions are called
   that do not exist. The words are those of KeccakP400OnWords (keccak_ref_words of RefPerm.v). *)
Definition word_of (e : order) (bs : list N) : N := match e with IS_LITTLE_ENDIAN => le_word bs | IS_BIG_ENDIAN => be_word bs end.
Definition bytes_of (e : order) (w : N) : list N := match e with IS_LITTLE_ENDIAN => word_le 2 w | IS_BIG_ENDIAN => word_be 2 w end.
Definition permute (e h : order) (nrounds : N) (s : list N) : option (list N) :=
  if forallb (fun f => existsb (String.eqb f) ref_functions) (permute_calls h)
  then Some (concat (map (bytes_of e) (keccak_ref_words nrounds (map (word_of e) (chunks 2 s)))))
  else None.
