(* Specification of ISAP v2.0 (authenticated encryption) and Ascon-Hash over byte strings, written
   from the specification documents; uses nothing from the models of the code. *)
From Verif Require Import Base SpecPerm.
Open Scope N_scope.

(* An ISAP instance: state size and rate in bytes, round numbers, permutation on byte strings. *)
Record inst := Inst {
  i_sz : nat; i_rate : nat;
  i_sH : nat; i_sB : nat; i_sE : nat; i_sK : nat;
  i_perm : nat -> list N -> list N }.

(* The first [length b] bytes of s are XORed with b. *)
Fixpoint xorp (s b : list N) : list N :=
  match s, b with
  | x :: s', y :: b' => N.lxor x y :: xorp s' b'
  | _, _ => s
  end.

(* Bytewise XOR of two strings, as long as the shorter. *)
Fixpoint xorz (a b : list N) : list N :=
  match a, b with
  | x :: a', y :: b' => N.lxor x y :: xorz a' b'
  | _, _ => []
  end.

(* x || 1 || 0^j up to a multiple of r bytes. *)
Definition pad (r : nat) (x : list N) : list N :=
  x ++ 0x80 :: repeat 0 (r - 1 - length x mod r).

(* Bits of a string, most significant bit of each byte first. *)
Definition msb_bits (bs : list N) : list bool :=
  concat (map (fun b => map (fun j => bit b (7 - j)) (seq 0 8)) bs).

(* A bit placed in the first position of the state. *)
Definition first_bit (b : bool) : list N := [if b then 0x80 else 0].

Section Isap.
  Variable I : inst.
  Notation sz := (i_sz I).
  Notation rate := (i_rate I).
  Notation p_H := (i_perm I (i_sH I)).
  Notation p_B := (i_perm I (i_sB I)).
  Notation p_E := (i_perm I (i_sE I)).
  Notation p_K := (i_perm I (i_sK I)).

  (* IV = type || k || r_H || r_B || s_H || s_B || s_E || s_K with k = 128, r_B = 1. *)
  Definition iv (ty : N) : list N :=
    [ty; 128; N.of_nat (8 * rate); 1; N.of_nat (i_sH I); N.of_nat (i_sB I); N.of_nat (i_sE I); N.of_nat (i_sK I)].
  Definition iv_A := iv 1.
  Definition iv_KA := iv 2.
  Definition iv_KE := iv 3.

  (* x || 0^j, one full state. *)
  Definition zpad (x : list N) : list N := x ++ repeat 0 (sz - length x).

  (* ISAP_RK: Y is absorbed bit by bit, p_B between the bits, p_K after the last one. *)
  Fixpoint rk_absorb (s : list N) (Y : list bool) : list N :=
    match Y with
    | [] => s
    | [b] => p_K (xorp s (first_bit b))
    | b :: Y' => rk_absorb (p_B (xorp s (first_bit b))) Y'
    end.
  Definition isap_rk (k : list N) (iv : list N) (Y : list N) (z : nat) : list N :=
    firstn z (rk_absorb (p_K (zpad (k ++ iv))) (msb_bits Y)).

  (* ISAP_MAC *)
  Definition absorb (s : list N) (blocks : list (list N)) : list N :=
    fold_left (fun s b => p_H (xorp s b)) blocks s.
  (* XOR of 0^{n-1} || 1. *)
  Definition dom_sep (s : list N) : list N := xorp s (repeat 0 (sz - 1) ++ [1]).
  Definition isap_mac (k n a c : list N) : list N :=
    let s := p_H (zpad (n ++ iv_A)) in
    let s := absorb s (chunks rate (pad rate a)) in
    let s := dom_sep s in
    let s := absorb s (chunks rate (pad rate c)) in
    let ka := isap_rk k iv_KA (firstn 16 s) 16 in
    let s := p_H (ka ++ skipn 16 s) in
    firstn 16 s.

  (* ISAP_ENC *)
  Fixpoint enc_blocks (s : list N) (blocks : list (list N)) : list N :=
    match blocks with
    | [] => []
    | m :: ms => let s := p_E s in xorz m (firstn rate s) ++ enc_blocks s ms
    end.
  Definition isap_enc (k n m : list N) : list N :=
    enc_blocks (isap_rk k iv_KE n (sz - 16) ++ n) (chunks rate m).

  (* Authenticated encryption and verified decryption. *)
  Definition isap_encrypt (k n a m : list N) : list N :=
    let c := isap_enc k n m in c ++ isap_mac k n a c.
  Definition isap_decrypt (k n a ct : list N) : option (list N) :=
    if (length ct <? 16)%nat then None
    else
      let c := firstn (length ct - 16) ct in
      let t := skipn (length ct - 16) ct in
      if list_eq_dec N.eq_dec t (isap_mac k n a c) then Some (isap_enc k n c) else None.
End Isap.

(* The four instances of ISAP v2.0. *)
Definition ISAP_A_128A := Inst 40 8 12 1 6 12 ascon_p.
Definition ISAP_K_128A := Inst 50 18 16 1 8 8 keccak_p.
Definition ISAP_A_128  := Inst 40 8 12 12 12 12 ascon_p.
Definition ISAP_K_128  := Inst 50 18 20 12 12 12 keccak_p.

(* Ascon-Hash, Ascon v1.2 section 2.5: r = 64, a = b = 12, h = 256. *)
Definition ascon_hash_iv : list N := [0x00; 0x40; 0x0c; 0x00; 0x00; 0x00; 0x01; 0x00].
Fixpoint squeeze (n : nat) (s : list N) : list N :=
  match n with
  | O => []
  | S O => firstn 8 s
  | S n' => firstn 8 s ++ squeeze n' (ascon_p 12 s)
  end.
Definition ascon_hash (m : list N) : list N :=
  let s := ascon_p 12 (ascon_hash_iv ++ repeat 0 32) in
  let s := fold_left (fun s b => ascon_p 12 (xorp s b)) (chunks 8 (pad 8 m)) s in
  squeeze 4 s.
