(* The specification on known-answer vectors of the repository (crypto_aead/*/LWC_AEAD_KAT_128_128.txt and
   crypto_aead_hash/isapa128av20/LWC_HASH_KAT_256.txt). These are tests of the specification, not properties of the code. They are computed with
   the models of optimised implementations, which are proved to compute the specification (kat_spec, hash_spec). For isapa128av20 and the hash the
   result is a proved equation. For the other three instances, whose evaluation is slow without the virtual machine, the file compiles only if
   the computed ciphertext is the listed one (kat_check); nothing is proved there. *)
From Verif Require Import Base Prog SpecPerm Words Mem Vocab Vocab2 VocabK MemProof RefLib RefProof RefAead SpecFacts Api ApiProof ExLib.
From Verif Require Import OptPerm OptIsap OptProof OptImpl OptEx A128Impl KIsapProof K64Perm K64Impl Table TableProof PropsK64.
From Verif Require Spec.
Open Scope N_scope.

(* What encryption leaves in the ciphertext block. *)
Definition kat_out (X : aead) (cs : list (list N)) (K Nn A T : list N) : option (list cell) :=
  match a_enc X (ex_ptr cs 4) (ex_ptr cs 5) (ex_ptr cs 3) (N.of_nat (length T)) (ex_ptr cs 2) (N.of_nat (length A)) (ex_ptr cs 1) (ex_ptr cs 0)
          (St (ex_mem cs K Nn A T (length T + 16)) []) with
  | Ok _ s => Some (blk (smem s) (pb (ex_ptr cs 4)))
  | _ => None
  end.

Lemma some_inj (x y : list N) : map Some x = map Some y -> x = y.
Proof.
  revert y; induction x as [|a x IH]; intros [|b y] H; try discriminate; auto. cbn [map] in H. injection H as -> H. f_equal. auto.
Qed.

Lemma kat_spec v cf cs ex X K Nn A T CT : impl_of v cf cs ex X -> aligned cf (ex_ptr cs 5) 8 = true ->
  ex (ex_mem cs K Nn A T (length T + 16)) (ex_ptr cs 0) (ex_ptr cs 1) (ex_ptr cs 2) (length A) (ex_ptr cs 3) (ex_ptr cs 4) (length T) ->
  bytes K -> length K = 16%nat -> bytes Nn -> length Nn = 16%nat -> bytes A -> bytes T ->
  N.of_nat (length A) < 2 ^ 64 -> N.of_nat (length T) + 16 < 2 ^ 64 ->
  kat_out X cs K Nn A T = Some (map Some CT) -> Spec.isap_encrypt (v_inst v) K Nn A T = CT.
Proof.
  intros HX Al He BK LK BN LN BA BT GA GT Hk.
  assert (V : enc_valid cf cs (ex_mem cs K Nn A T (length T + 16)) (ex_ptr cs 4) (ex_ptr cs 5) (ex_ptr cs 3) (ex_ptr cs 2) (ex_ptr cs 1) (ex_ptr cs 0) K Nn A T)
    by now apply ex_enc_valid.
  destruct (ioi_enc _ _ _ _ _ (impl_of_ok v cf cs ex X HX) _ _ _ _ _ _ _ _ _ _ _ He V []) as (t & E).
  unfold kat_out in Hk. rewrite E in Hk. cbn [smem] in Hk. clear E. injection Hk as Hk. apply some_inj.
  rewrite <- Hk. clear Hk. set (Y := Spec.isap_encrypt (v_inst v) K Nn A T).
  assert (LY : length Y = (length T + 16)%nat) by (unfold Y; now apply v_encrypt_length).
  set (m1 := putp _ (ex_ptr cs 5) _).
  assert (B : length (blk m1 (pb (ex_ptr cs 4))) = (length T + 16)%nat).
  { unfold m1. rewrite blk_putp_other by (cbn [ex_ptr pb]; lia). unfold ex_ptr. cbn [pb]. rewrite ex_blk. cbn [nth]. apply uninit_length. }
  unfold putp, put. cbn [ex_ptr pb po] in *. change (N.to_nat 0) with 0%nat.
  rewrite blk_upd, Nat.eqb_refl. replace (_ <? _)%nat with true.
  - rewrite splice_all; auto. now rewrite map_length, LY.
  - symmetry. apply Nat.ltb_lt, blk_nonempty. intros E. rewrite E in B. cbn [length] in B. lia.
Qed.

Definition kat_bytes (n : nat) : list N := map N.of_nat (seq 0 n).
Lemma kat_bytes_ok n : (n <= 256)%nat -> bytes (kat_bytes n).
Proof.
  intros H. unfold bytes, kat_bytes. apply Forall_forall. intros x Hx. apply in_map_iff in Hx. destruct Hx as (y & <- & Hy). apply in_seq in Hy. lia.
Qed.
Lemma kat_bytes_length n : length (kat_bytes n) = n.
Proof. unfold kat_bytes. now rewrite map_length, seq_length. Qed.

Ltac kat_side := rewrite ?kat_bytes_length; try apply kat_bytes_ok; try reflexivity; lia.

(* Fails unless the ciphertext block holds the bytes CT. *)
Definition kat_eqb (o : option (list cell)) (CT : list N) : bool :=
  match o with Some l => if list_eq_dec (fun x y : option N => ltac:(decide equality; apply N.eq_dec)) l (map Some CT) then true else false | None => false end.
Ltac kat_check e v := let r := eval vm_compute in (kat_eqb e v) in constr_eq r true; exact tt.

(* isapa128av20, Count = 1089 *)
Example kat_isapa128av20_1089 : Spec.isap_encrypt Spec.ISAP_A_128A (kat_bytes 16) (kat_bytes 16) (kat_bytes 32) (kat_bytes 32) =
  [44; 222; 40; 219; 187; 217; 19; 30; 188; 86; 141; 119; 114; 91; 37; 147; 124; 248; 237; 184; 168; 245; 10; 42; 206; 218; 53; 108; 60; 163; 212; 107; 175; 131; 185; 96; 146; 143; 30; 76; 201; 117; 234; 36; 244; 136; 32; 44].
Proof.
  apply (kat_spec A128A lax_cf opt_consts _ (opt_impl opt_64 lax_cf (repeat 0 5)) _ _ _ _ _ (io_opt opt_64 (repeat 0 5) lax_cf (or_introl eq_refl) eq_refl eq_refl)); [reflexivity|exact Logic.I|kat_side..|vm_compute; reflexivity].
Qed.

(* isapa128v20, Count = 1089 *)
Definition kat_isapa128v20_1089 : unit := ltac:(kat_check
  (kat_out (impl_a128_64 64 lax_cf) cs128 (kat_bytes 16) (kat_bytes 16) (kat_bytes 32) (kat_bytes 32))
  [184; 82; 155; 206; 27; 63; 157; 13; 183; 169; 200; 221; 67; 221; 53; 209; 142; 65; 128; 26; 129; 74; 41; 169; 153; 16; 34; 39; 164; 170; 116; 123; 160; 250; 196; 214; 131; 245; 177; 207; 191; 54; 131; 17; 47; 63; 204; 27]).

(* isapk128av20, Count = 1089 *)
Definition kat_isapk128av20_1089 : unit := ltac:(kat_check
  (kat_out (impl_k64 K128A ex_scr lax_cf) (csK K128A) (kat_bytes 16) (kat_bytes 16) (kat_bytes 32) (kat_bytes 32))
  [1; 188; 156; 203; 24; 110; 74; 55; 50; 232; 107; 159; 172; 74; 191; 62; 108; 74; 130; 116; 161; 133; 255; 52; 67; 21; 140; 197; 111; 19; 181; 154; 11; 104; 81; 212; 156; 62; 96; 73; 183; 102; 192; 19; 68; 52; 51; 236]).

(* isapk128v20, Count = 1089 *)
Definition kat_isapk128v20_1089 : unit := ltac:(kat_check
  (kat_out (impl_k64 K128 ex_scr lax_cf) (csK K128) (kat_bytes 16) (kat_bytes 16) (kat_bytes 32) (kat_bytes 32))
  [89; 213; 164; 91; 203; 203; 51; 35; 17; 134; 155; 115; 246; 51; 210; 150; 6; 5; 107; 121; 31; 138; 104; 78; 77; 135; 108; 193; 183; 173; 115; 163; 124; 171; 255; 201; 194; 85; 251; 149; 49; 243; 3; 233; 102; 51; 47; 253]).

(* crypto_hash *)
Definition hash_mem (X : list N) : mem := map (map Some) opt_consts ++ [map Some X; uninit 32].
Definition hash_out (X : list N) : option (list cell) :=
  match OptIsap.crypto_hash opt_64 lax_cf (P (length opt_consts + 1) 0) (P (length opt_consts) 0) (N.of_nat (length X)) (St (hash_mem X) []) with
  | Ok _ s => Some (blk (smem s) (length opt_consts + 1))
  | _ => None
  end.
Lemma hash_spec X D : bytes X -> N.of_nat (length X) < 2 ^ 64 -> hash_out X = Some (map Some D) -> Spec.ascon_hash X = D.
Proof.
  intros BX LX Hk.
  assert (C : consts_ok opt_consts (hash_mem X)).
  { intros i Hi. unfold hash_mem, blk. rewrite app_nth1 by now rewrite map_length. exact (map_nth (map (@Some N)) opt_consts [] i). }
  assert (E1 : blk (hash_mem X) (length opt_consts) = map Some X) by reflexivity.
  assert (E2 : blk (hash_mem X) (length opt_consts + 1) = uninit 32) by reflexivity.
  destruct (fam_hash opt_64 lax_cf (hash_mem X) (P (length opt_consts + 1) 0) (P (length opt_consts) 0) X) as [R L]; auto.
  - apply in_or_app. left. now left.
  - intros i Hi j. reflexivity.
  - split; auto. now apply has_blk0.
  - apply room_of_le. cbn [pb po]. rewrite E2. reflexivity.
  - intros j. reflexivity.
  - intros j. reflexivity.
  - destruct (R []) as (t & E). unfold hash_out in Hk. rewrite E in Hk. cbn [smem] in Hk. clear R E. injection Hk as Hk. apply some_inj.
    rewrite <- Hk. clear Hk. generalize dependent (Spec.ascon_hash X). intros Z L.
    transitivity (splice (uninit 32) 0 (map Some Z)); [|reflexivity]. symmetry. apply splice_all. now rewrite map_length, L.
Qed.
(* Count = 1 *)
Example kat_hash_1 : Spec.ascon_hash (kat_bytes 0) =
  [115; 70; 188; 20; 240; 54; 232; 122; 224; 61; 9; 151; 145; 48; 136; 245; 246; 132; 17; 67; 75; 60; 248; 181; 79; 167; 150; 168; 13; 37; 31; 145].
Proof. apply hash_spec; [kat_side|kat_side|vm_compute; reflexivity]. Qed.
(* Count = 10 *)
Example kat_hash_10 : Spec.ascon_hash (kat_bytes 9) =
  [30; 30; 113; 13; 8; 167; 130; 99; 119; 51; 49; 120; 38; 33; 8; 140; 169; 254; 46; 228; 245; 150; 240; 108; 143; 120; 132; 202; 86; 74; 206; 193].
Proof. apply hash_spec; [kat_side|kat_side|vm_compute; reflexivity]. Qed.
(* Count = 34 *)
Example kat_hash_34 : Spec.ascon_hash (kat_bytes 33) =
  [166; 223; 24; 68; 65; 43; 173; 83; 106; 152; 219; 1; 2; 76; 115; 168; 120; 11; 225; 167; 9; 147; 117; 105; 109; 55; 67; 5; 134; 186; 147; 129].
Proof. apply hash_spec; [kat_side|kat_side|vm_compute; reflexivity]. Qed.
