(* Vocabulary of the theorem statements: contents of memory, valid calls of the NIST API, and what it means for a
   pair of functions to implement ISAP. Definitions only; models no particular file of /repo. *)
From Verif Require Import Base SpecPerm Spec Mem.
Open Scope N_scope.

(* f started in memory m terminates normally with value a in memory m', whatever happened before. *)
Definition runs {A} (f : M A) (m : mem) (a : A) (m' : mem) : Prop :=
  forall t, exists t', f (St m t) = Ok a (St m' t').

(* The bytes bs are found at p. *)
Definition has (m : mem) (p : ptr) (bs : list N) : Prop :=
  forall i, (i < length bs)%nat -> rd1 m (padd p (N.of_nat i)) = Some (nth i bs 0).
(* n bytes at p lie inside an object (initialised or not). *)
Definition room (m : mem) (p : ptr) (n : nat) : Prop :=
  forall i, (i < n)%nat -> inside m (padd p (N.of_nat i)) = true.

(* Memory m with bs stored at p, nothing else changed. *)
Definition splice {A} (l : list A) (o : nat) (xs : list A) : list A :=
  firstn o l ++ xs ++ skipn (o + length xs) l.
Definition put (m : mem) (b o : nat) (bs : list N) : mem :=
  upd_nth m b (splice (blk m b) o (map Some bs)).
Definition putp (m : mem) (p : ptr) (bs : list N) : mem := put m (pb p) (N.to_nat (po p)) bs.

(* The cell at p, None outside every object. *)
Definition cellp (m : mem) (p : ptr) : option cell := nth_error (blk m (pb p)) (N.to_nat (po p)).

(* q is one of the n bytes at p. *)
Definition within (p : ptr) (n : nat) (q : ptr) : bool :=
  (pb q =? pb p)%nat && (po p <=? po q) && (po q <? po p + N.of_nat n).

(* The n bytes at p and the k bytes at q have no byte in common. *)
Definition disj (p : ptr) (n : nat) (q : ptr) (k : nat) : Prop :=
  forall i j, (i < n)%nat -> (j < k)%nat -> padd p (N.of_nat i) <> padd q (N.of_nat j).
(* Writing dst front to back never destroys a byte of src that is still to be read; in particular dst = src is fine,
   and so are disjoint buffers. *)
Definition fwd_ok (dst src : ptr) (n : nat) : Prop :=
  forall i j, (i < j < n)%nat -> padd dst (N.of_nat i) <> padd src (N.of_nat j).

(* A string of n bytes stored at p. *)
Definition bytes_at (m : mem) (p : ptr) (bs : list N) : Prop := bytes bs /\ has m p bs.

(* The constants of the program occupy the first blocks. *)
Definition consts_ok (cs : list (list N)) (m : mem) : Prop :=
  forall i, (i < length cs)%nat -> blk m i = map Some (nth i cs []).

(* A valid call crypto_aead_encrypt(c, clen, m, mlen, ad, adlen, nsec, npub, k) in memory mm, where the key is K, the
   nonce Nn, the associated data A and the message T. cs: program constants. *)
Record enc_valid (cf : cfg) (cs : list (list N)) (mm : mem) (c clen m ad npub k : ptr) (K Nn A T : list N) : Prop := {
  ev_consts : consts_ok cs mm;
  ev_key : bytes_at mm k K /\ length K = 16%nat;
  ev_nonce : bytes_at mm npub Nn /\ length Nn = 16%nat;
  ev_ad : bytes_at mm ad A /\ N.of_nat (length A) < 2 ^ 64;
  ev_msg : bytes_at mm m T /\ N.of_nat (length T) + 16 < 2 ^ 64;
  (* outputs: in writable objects *)
  ev_c : room mm c (length T + 16) /\ (length cs <= pb c)%nat;
  ev_clen : room mm clen 8 /\ (length cs <= pb clen)%nat /\ aligned cf clen 8 = true;
  (* the length cell overlaps nothing *)
  ev_clen_disj : disj clen 8 k 16 /\ disj clen 8 npub 16 /\ disj clen 8 ad (length A) /\
                 disj clen 8 m (length T) /\ disj clen 8 c (length T + 16);
  (* the ciphertext overlaps no input except possibly the message *)
  ev_c_disj : disj c (length T + 16) k 16 /\ disj c (length T + 16) npub 16 /\
              disj c (length T + 16) ad (length A);
  ev_inplace : fwd_ok c m (length T) }.

(* A valid call crypto_aead_decrypt(m, mlen, nsec, c, clen, ad, adlen, npub, k) on the byte string X of at least
   16 bytes. *)
Record dec_valid (cf : cfg) (cs : list (list N)) (mm : mem) (m mlen c ad npub k : ptr) (K Nn A X : list N) : Prop := {
  dv_consts : consts_ok cs mm;
  dv_key : bytes_at mm k K /\ length K = 16%nat;
  dv_nonce : bytes_at mm npub Nn /\ length Nn = 16%nat;
  dv_ad : bytes_at mm ad A /\ N.of_nat (length A) < 2 ^ 64;
  dv_ct : bytes_at mm c X /\ N.of_nat (length X) < 2 ^ 64 /\ (16 <= length X)%nat;
  dv_m : room mm m (length X - 16) /\ (length cs <= pb m)%nat;
  dv_mlen : room mm mlen 8 /\ (length cs <= pb mlen)%nat /\ aligned cf mlen 8 = true;
  dv_mlen_disj : disj mlen 8 k 16 /\ disj mlen 8 npub 16 /\ disj mlen 8 ad (length A) /\
                 disj mlen 8 c (length X) /\ disj mlen 8 m (length X - 16);
  dv_m_disj : disj m (length X - 16) k 16 /\ disj m (length X - 16) npub 16 /\ disj m (length X - 16) ad (length A);
  dv_inplace : fwd_ok m c (length X - 16) }.

(* The two API functions of one implementation (nsec, never used, is left out). *)
Record aead := Aead {
  a_enc : forall (c clen m : ptr) (mlen : N) (ad : ptr) (adlen : N) (npub k : ptr), M Z;
  a_dec : forall (m mlen c : ptr) (clen : N) (ad : ptr) (adlen : N) (npub k : ptr), M Z }.

(* The implementation computes ISAP: on every valid call it terminates without undefined behaviour, and the final memory
   is the initial one with exactly the specified outputs stored. loc b: a local array may be placed in block b
   (an alignment condition; trivial unless the machine traps misaligned accesses). *)
Record impl_ok (I : inst) (cf : cfg) (cs : list (list N)) (loc : nat -> Prop) (X : aead) : Prop := {
  io_enc : forall mm c clen m ad npub k K Nn A T,
    (forall b, (length mm <= b)%nat -> loc b) ->
    enc_valid cf cs mm c clen m ad npub k K Nn A T ->
    runs (a_enc X c clen m (N.of_nat (length T)) ad (N.of_nat (length A)) npub k) mm 0%Z
         (putp (putp mm clen (word_le 8 (N.of_nat (length T) + 16))) c (isap_encrypt I K Nn A T));
  io_dec : forall mm m mlen c ad npub k K Nn A Y,
    (forall b, (length mm <= b)%nat -> loc b) ->
    dec_valid cf cs mm m mlen c ad npub k K Nn A Y ->
    let m1 := putp mm mlen (word_le 8 (N.of_nat (length Y) - 16)) in
    runs (a_dec X m mlen c (N.of_nat (length Y)) ad (N.of_nat (length A)) npub k) mm
         (match isap_decrypt I K Nn A Y with Some _ => 0%Z | None => (-1)%Z end)
         (match isap_decrypt I K Nn A Y with Some T => putp m1 m T | None => m1 end) }.

(* Sequences of API calls. *)
Inductive call :=
| CEnc (c clen m : ptr) (mlen : N) (ad : ptr) (adlen : N) (npub k : ptr)
| CDec (m mlen c : ptr) (clen : N) (ad : ptr) (adlen : N) (npub k : ptr).
Definition do_call (X : aead) (x : call) : M Z :=
  match x with
  | CEnc c clen m mlen ad adlen npub k => a_enc X c clen m mlen ad adlen npub k
  | CDec m mlen c clen ad adlen npub k => a_dec X m mlen c clen ad adlen npub k
  end.
Fixpoint history (X : aead) (l : list call) : M (list Z) :=
  match l with
  | [] => ret []
  | x :: l' => bind (do_call X x) (fun r => bind (history X l') (fun rs => ret (r :: rs)))
  end.

(* Two memories with the same objects (number and sizes), whatever they contain. *)
Definition layout (m1 m2 : mem) : Prop := map (@length cell) m1 = map (@length cell) m2.

(* Rounds of the permutation calls recorded in a trace, first call first. *)
Definition perms (t : list event) : list N :=
  rev (concat (map (fun e => match e with EPerm r => [r] | _ => [] end) t)).

(* The permutation calls of ISAP, as lists of round numbers, from the lengths alone (n plaintext/ciphertext bytes, a bytes
   of associated data). *)
Definition calls_rk (I : inst) : list N := N.of_nat (i_sK I) :: repeat (N.of_nat (i_sB I)) 127 ++ [N.of_nat (i_sK I)].
Definition calls_enc (I : inst) (n : nat) : list N :=
  if (n =? 0)%nat then [] else calls_rk I ++ repeat (N.of_nat (i_sE I)) ((n + i_rate I - 1) / i_rate I).
Definition calls_mac (I : inst) (a n : nat) : list N :=
  repeat (N.of_nat (i_sH I)) (a / i_rate I + n / i_rate I + 3) ++ calls_rk I ++ [N.of_nat (i_sH I)].

(* s' is s with byte i replaced by f i for off <= i < off + n. *)
Definition changed (s s' : list N) (off n : nat) (f : nat -> N) : Prop :=
  length s' = length s /\
  forall i, nth i s' 0 = if (off <=? i)%nat && (i <? off + n)%nat then f i else nth i s 0.
(* f terminates, changes the n bytes from off on of the object b (contents s) as described by g, and nothing else. *)
Definition effect (f : M unit) (m : mem) (b : nat) (s : list N) (off n : nat) (g : nat -> N) : Prop :=
  exists m' s', runs f m tt m' /\ length m' = length m /\ blk m' b = map Some s' /\ changed s s' off n g /\
                forall b', b' <> b -> blk m' b' = blk m b'.

(* What the MAC absorbs: blocks, with a marker on the one followed by the domain separation. *)
Definition frame (r : nat) (A C : list N) : list (list N * bool) :=
  let ab := chunks r (pad r A) in
  map (fun b => (b, false)) (removelast ab) ++ (last ab [], true) :: map (fun b => (b, false)) (chunks r (pad r C)).
(* The tag computed from key, nonce and such a sequence. *)
Definition frame_tag (I : inst) (K Nn : list N) (fr : list (list N * bool)) : list N :=
  let p := i_perm I (i_sH I) in
  let s := fold_left (fun s (e : list N * bool) => let s' := p (xorp s (fst e)) in if snd e then dom_sep I s' else s') fr
                     (p (zpad I (Nn ++ iv_A I))) in
  firstn 16 (p (isap_rk I K (iv_KA I) (firstn 16 s) 16 ++ skipn 16 s)).

(* State of the keystream generator after the permutation call for block j. *)
Definition gen_state (I : inst) (K Nn : list N) (j : nat) : list N :=
  Nat.iter (S j) (i_perm I (i_sE I)) (isap_rk I K (iv_KE I) Nn (i_sz I - 16) ++ Nn).
