(* The C abstract machine used by the models: byte memory made of finite blocks, a trace of observable
   events, explicit undefined behaviour. Definitions only; models no particular file of /repo. *)
From Verif Require Import Base.
Open Scope N_scope.

(* A cell is a byte or uninitialised; a block is one C object; memory is a list of blocks. *)
Definition cell := option N.
Definition block := list cell.
Definition mem := list block.

(* Pointer: block number and byte offset. A pointer to a block that does not exist (e.g. NULL) is allowed
   as a value; dereferencing it is undefined. *)
Record ptr := P { pb : nat; po : N }.
Definition padd (p : ptr) (n : N) : ptr := P (pb p) (po p + n).

(* Observable events: byte ranges read and written, branch decisions, permutation calls. *)
Inductive event :=
| ERd (p : ptr) (n : N)
| EWr (p : ptr) (n : N)
| EBr (b : bool)
| EPerm (rounds : N).

Record st := St { smem : mem; strc : list event }.     (* most recent event first *)

Inductive res (A : Type) :=
| Ok (a : A) (s : st)
| UB                     (* undefined behaviour *)
| Abort                  (* a failed assert() *)
| OutOfFuel.
Arguments Ok {A}. Arguments UB {A}. Arguments Abort {A}. Arguments OutOfFuel {A}.

Definition M (A : Type) := st -> res A.
Definition ret {A} (a : A) : M A := fun s => Ok a s.
Definition bind {A B} (f : M A) (g : A -> M B) : M B :=
  fun s => match f s with Ok a s' => g a s' | UB => UB | Abort => Abort | OutOfFuel => OutOfFuel end.
Definition fail_ub {A} : M A := fun _ => UB.
Definition fail_abort {A} : M A := fun _ => Abort.
Definition emit (e : event) : M unit := fun s => Ok tt (St (smem s) (e :: strc s)).

Declare Scope cm_scope.
Delimit Scope cm_scope with cm.
Notation "x <- c1 ;; c2" := (bind c1 (fun x => c2)) (at level 61, c1 at next level, right associativity) : cm_scope.
Notation "c1 ;; c2" := (bind c1 (fun _ => c2)) (at level 61, right associativity) : cm_scope.
Open Scope cm_scope.

(* Build configuration: assertions compiled out or not; alignment trapping or not; base addresses of blocks. *)
Record cfg := Cfg { ndebug : bool; strict : bool; base : nat -> N }.

Definition assert_ (c : cfg) (b : bool) : M unit :=
  if b then ret tt else if ndebug c then ret tt else fail_abort.

(* A branch on b: the decision is observable. *)
Definition branch (b : bool) : M bool := _ <- emit (EBr b) ;; ret b.
Definition if_ {A} (b : bool) (x y : M A) : M A := c <- branch b ;; if c then x else y.

Definition blk (m : mem) (b : nat) : block := nth b m [].
Definition inside (m : mem) (p : ptr) : bool := po p <? N.of_nat (length (blk m (pb p))).
Definition rd1 (m : mem) (p : ptr) : option N :=
  if inside m p then nth (N.to_nat (po p)) (blk m (pb p)) None else None.
Definition wr1 (m : mem) (p : ptr) (v : N) : option mem :=
  if inside m p then Some (upd_nth m (pb p) (upd_nth (blk m (pb p)) (N.to_nat (po p)) (Some v))) else None.

(* One byte. *)
Definition load_ (p : ptr) : M N :=
  fun s => match rd1 (smem s) p with Some v => Ok v s | None => UB end.
Definition store_ (p : ptr) (v : N) : M unit :=
  fun s => match wr1 (smem s) p v with Some m => Ok tt (St m (strc s)) | None => UB end.
Definition load (p : ptr) : M N := _ <- emit (ERd p 1) ;; load_ p.
Definition store (p : ptr) (v : N) : M unit := _ <- emit (EWr p 1) ;; store_ p v.

(* n consecutive bytes. *)
Fixpoint loads_ (n : nat) (p : ptr) : M (list N) :=
  match n with
  | O => ret []
  | S n' => v <- load_ p ;; vs <- loads_ n' (padd p 1) ;; ret (v :: vs)
  end.
Fixpoint stores_ (vs : list N) (p : ptr) : M unit :=
  match vs with
  | [] => ret tt
  | v :: vs' => _ <- store_ p v ;; stores_ vs' (padd p 1)
  end.

(* Access to an n-byte object: must be aligned when the machine is strict. *)
Definition aligned (c : cfg) (p : ptr) (n : nat) : bool :=
  negb (strict c) || ((base c (pb p) + po p) mod N.of_nat n =? 0).
Definition loadn (c : cfg) (n : nat) (p : ptr) : M (list N) :=
  if aligned c p n then (_ <- emit (ERd p (N.of_nat n)) ;; loads_ n p) else fail_ub.
Definition storen (c : cfg) (vs : list N) (p : ptr) : M unit :=
  if aligned c p (length vs) then (_ <- emit (EWr p (N.of_nat (length vs))) ;; stores_ vs p) else fail_ub.

(* memcpy (overlap is undefined) and memset. *)
Definition overlap (p q : ptr) (n : N) : bool :=
  (pb p =? pb q)%nat && (po p <? po q + n) && (po q <? po p + n).
Definition memcpy (dst src : ptr) (n : N) : M unit :=
  if overlap dst src n then fail_ub else
  _ <- emit (ERd src n) ;; _ <- emit (EWr dst n) ;;
  vs <- loads_ (N.to_nat n) src ;; stores_ vs dst.
Definition memset (dst : ptr) (v : N) (n : N) : M unit :=
  _ <- emit (EWr dst n) ;; stores_ (repeat v (N.to_nat n)) dst.

(* A local array of n bytes, uninitialised, gone at the end of its scope. *)
Definition uninit (n : nat) : block := repeat None n.
Definition with_block {A} (n : nat) (f : ptr -> M A) : M A :=
  fun s =>
    match f (P (length (smem s)) 0) (St (smem s ++ [uninit n]) (strc s)) with
    | Ok a s' => Ok a (St (removelast (smem s')) (strc s'))
    | UB => UB | Abort => Abort | OutOfFuel => OutOfFuel
    end.

(* for (i = start; i < stop; i++) body, with the loop-carried scalars as an accumulator. *)
Fixpoint for_nat {A} (n : nat) (i : N) (body : N -> A -> M A) (a : A) : M A :=
  match n with
  | O => _ <- branch false ;; ret a
  | S n' => _ <- branch true ;; a' <- body i a ;; for_nat n' (i + 1) body a'
  end.
Definition for_ {A} (start stop : N) (body : N -> A -> M A) (a : A) : M A :=
  for_nat (N.to_nat (stop - start)) start body a.

(* while (cond) body, with fuel. *)
Fixpoint while_ {A} (fuel : nat) (cond : A -> bool) (body : A -> M A) (a : A) : M A :=
  match fuel with
  | O => fun _ => OutOfFuel
  | S f => c <- branch (cond a) ;; if c then (a' <- body a ;; while_ f cond body a') else ret a
  end.

(* Unsigned arithmetic. *)
Definition u64 (x : N) : N := x mod 2 ^ 64.
Definition u32 (x : N) : N := x mod 2 ^ 32.
Definition u8 (x : N) : N := x mod 256.
Definition sub64 (x y : N) : N := (x + 2 ^ 64 - y) mod 2 ^ 64.
