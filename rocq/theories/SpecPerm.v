(* Specification of the two permutations, written from the Ascon v1.2 and FIPS-202 documents
   (bit level, S-box table, rotation walk, LFSR), not from the code of /repo. *)
From Verif Require Import Base.
Open Scope N_scope.

(* ---------- bytes and words ---------- *)

Definition b2n (b : bool) : N := if b then 1 else 0.

(* Number with the given bits, least significant first. *)
Fixpoint N_of_bits (l : list bool) : N :=
  match l with [] => 0 | b :: t => b2n b + 2 * N_of_bits t end.

(* w-bit word whose bit number i is f i. *)
Definition mkword (w : nat) (f : nat -> bool) : N := N_of_bits (map f (seq 0 w)).
Definition bit (v : N) (i : nat) : bool := N.testbit v (N.of_nat i).

(* Byte i (from the least significant) of v. *)
Definition byte_at (v : N) (i : nat) : N := N.land (N.shiftr v (8 * N.of_nat i)) 255.
(* Big-endian and little-endian byte strings. *)
Definition be_word (bs : list N) : N := fold_left (fun a b => 256 * a + b) bs 0.
Definition word_be (n : nat) (v : N) : list N := map (fun i => byte_at v (n - 1 - i)) (seq 0 n).
Definition le_word (bs : list N) : N := be_word (rev bs).
Definition word_le (n : nat) (v : N) : list N := map (byte_at v) (seq 0 n).

(* Pieces of at most r elements. *)
Fixpoint chunks_fuel {A} (fuel r : nat) (l : list A) : list (list A) :=
  match fuel, l with
  | O, _ | _, [] => []
  | S f, _ => firstn r l :: chunks_fuel f r (skipn r l)
  end.
Definition chunks {A} (r : nat) (l : list A) : list (list A) := chunks_fuel (length l) r l.

(* ---------- Ascon-p, Ascon v1.2 section 2.6 ---------- *)

(* Table 4: round constants of p^12; p^a uses the last a of them. *)
Definition ascon_rc : list N :=
  [0xf0; 0xe1; 0xd2; 0xc3; 0xb4; 0xa5; 0x96; 0x87; 0x78; 0x69; 0x5a; 0x4b].

(* Table 5: the 5-bit S-box, x0 is the most significant bit of the index. *)
Definition ascon_sbox : list N :=
  [0x04; 0x0b; 0x1f; 0x14; 0x1a; 0x15; 0x09; 0x02; 0x1b; 0x05; 0x08; 0x12; 0x1d; 0x03; 0x06; 0x1c;
   0x1e; 0x13; 0x07; 0x0e; 0x00; 0x0d; 0x11; 0x18; 0x10; 0x0c; 0x01; 0x19; 0x16; 0x0a; 0x0f; 0x17].

Definition col (s : list N) (j : nat) : N :=
  16 * b2n (bit (nth 0 s 0) j) + 8 * b2n (bit (nth 1 s 0) j) + 4 * b2n (bit (nth 2 s 0) j)
  + 2 * b2n (bit (nth 3 s 0) j) + b2n (bit (nth 4 s 0) j).

Definition ascon_addc (c : N) (s : list N) : list N :=
  [nth 0 s 0; nth 1 s 0; N.lxor (nth 2 s 0) c; nth 3 s 0; nth 4 s 0].

Definition ascon_sub (s : list N) : list N :=
  map (fun row => mkword 64 (fun j => N.testbit (nth (N.to_nat (col s j)) ascon_sbox 0) (4 - N.of_nat row)))
      (seq 0 5).

(* x + (x >>> a) + (x >>> b) on 64-bit words. *)
Definition ascon_sigma (a b : nat) (x : N) : N :=
  mkword 64 (fun j => xorb (bit x j) (xorb (bit x ((j + a) mod 64)) (bit x ((j + b) mod 64)))).

Definition ascon_lin (s : list N) : list N :=
  [ascon_sigma 19 28 (nth 0 s 0); ascon_sigma 61 39 (nth 1 s 0); ascon_sigma 1 6 (nth 2 s 0);
   ascon_sigma 10 17 (nth 3 s 0); ascon_sigma 7 41 (nth 4 s 0)].

Definition ascon_round (c : N) (s : list N) : list N := ascon_lin (ascon_sub (ascon_addc c s)).

(* p^r on five 64-bit words. *)
Definition ascon_p_words (r : nat) (s : list N) : list N :=
  fold_left (fun s c => ascon_round c s) (skipn (12 - r) ascon_rc) s.

(* p^r on the 40-byte state: five big-endian words. *)
Definition ascon_p (r : nat) (bs : list N) : list N :=
  concat (map (word_be 8) (ascon_p_words r (map be_word (chunks 8 bs)))).

(* ---------- Keccak-p[400,r], FIPS-202 section 3 ---------- *)

Section KeccakBits.
  (* A bit algebra; bool for the specification itself, polynomials for the proof tool. *)
  Variable B : Type.
  Variables (b0 b1 : B) (bx ba : B -> B -> B).

  Definition kidx (x y z : nat) : nat := 16 * (5 * (y mod 5) + x mod 5) + z mod 16.
  Definition kget (A : list B) (x y z : nat) : B := nth (kidx x y z) A b0.
  Definition kmk (f : nat -> nat -> nat -> B) : list B :=
    map (fun i => f ((i / 16) mod 5)%nat (i / 80)%nat (i mod 16)%nat) (seq 0 400).

  (* Algorithm 1. *)
  Definition k_theta (A : list B) : list B :=
    let C := map (fun i => let x := (i / 16)%nat in let z := (i mod 16)%nat in
      bx (bx (bx (bx (kget A x 0 z) (kget A x 1 z)) (kget A x 2 z)) (kget A x 3 z)) (kget A x 4 z)) (seq 0 80) in
    let Cg x z := nth (16 * (x mod 5) + z mod 16)%nat C b0 in
    kmk (fun x y z => bx (kget A x y z) (bx (Cg (x + 4)%nat z) (Cg (x + 1)%nat (z + 15)%nat))).

  (* Algorithm 2: offset of lane (x,y), found by the walk (x,y) -> (y, 2x+3y). *)
  Fixpoint rho_walk (n t x y : nat) : list (nat * nat * nat) :=
    match n with
    | O => []
    | S n' => (x, y, ((t + 1) * (t + 2) / 2)%nat) :: rho_walk n' (S t) y ((2 * x + 3 * y) mod 5)%nat
    end.
  Definition rho_off (x y : nat) : nat :=
    fold_left (fun acc e => match e with (x', y', o) => if (x =? x') && (y =? y') then o else acc end)%nat
              (rho_walk 24 0 1 0) 0%nat.
  Definition rho_tab : list nat := map (fun i => (rho_off (i mod 5) (i / 5) mod 16)%nat) (seq 0 25).
  Definition k_rho (A : list B) : list B :=
    kmk (fun x y z => kget A x y (z + 16 - nth (5 * y + x) rho_tab 0)%nat).

  (* Algorithm 3. *)
  Definition k_pi (A : list B) : list B := kmk (fun x y z => kget A (x + 3 * y)%nat x z).

  (* Algorithm 4. *)
  Definition k_chi (A : list B) : list B :=
    kmk (fun x y z => bx (kget A x y z) (ba (bx (kget A (x + 1)%nat y z) b1) (kget A (x + 2)%nat y z))).

  (* Algorithms 5 and 6. *)
  Definition lfsr_step (R : list bool) : list bool :=
    let R9 := false :: R in
    let r8 := nth 8 R9 false in
    map (fun i => if (i =? 0)%nat || (i =? 4)%nat || (i =? 5)%nat || (i =? 6)%nat
                  then xorb (nth i R9 false) r8 else nth i R9 false) (seq 0 8).
  Definition rc_bit (t : nat) : bool :=
    nth 0 (Nat.iter (t mod 255) lfsr_step [true; false; false; false; false; false; false; false]) false.
  (* Round constant lane, w = 16, l = 4: bit 2^j-1 is rc(j+7 ir). *)
  Definition k_rc (ir : nat) : list bool :=
    map (fun z => existsb (fun j => if (z =? 2 ^ j - 1)%nat then rc_bit (j + 7 * ir) else false) (seq 0 5)) (seq 0 16).
  Definition k_iota (ir : nat) (A : list B) : list B :=
    let rc := k_rc ir in
    kmk (fun x y z => if (x =? 0)%nat && (y =? 0)%nat && nth z rc false
                      then bx (kget A x y z) b1 else kget A x y z).

  Definition k_round (ir : nat) (A : list B) : list B :=
    k_iota ir (k_chi (k_pi (k_rho (k_theta A)))).

  (* Keccak-p[400, nr]: rounds 12+2l-nr .. 12+2l-1 with l = 4. *)
  Definition keccak_p_bits (nr : nat) (A : list B) : list B :=
    fold_left (fun A ir => k_round ir A) (seq (20 - nr) nr) A.
End KeccakBits.

Arguments k_round {B}.
Arguments keccak_p_bits {B}.

(* Bytes to bits, least significant bit of each byte first. *)
Definition bits_of_bytes (bs : list N) : list bool :=
  concat (map (fun b => map (fun j => bit b j) (seq 0 8)) bs).
Definition bytes_of_bits (l : list bool) : list N := map N_of_bits (chunks 8 l).

Definition keccak_p (r : nat) (bs : list N) : list N :=
  bytes_of_bits (keccak_p_bits false true xorb andb r (bits_of_bytes bs)).
