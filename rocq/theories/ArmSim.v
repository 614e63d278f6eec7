(* The instructions of ArmIsa.v against the word programs of KArmPerm.v: a translator with what is known about every register, and its soundness.
   Proofs only. *)
From Verif Require Import Base Prog SpecPerm Words ArmIsa.
From Verif Require K64Perm KArmPerm.
Import Prog.
Open Scope N_scope.
Open Scope prog_scope.

(* ---------- memory ---------- *)

Definition hw (g : N -> N) (a : N) : N := le_word [g a; g (a + 1)].

Lemma w32_id x : x < 2 ^ 32 -> w32 x = x.
Proof. intros. apply N.mod_small. auto. Qed.
Lemma w32_lt x : w32 x < 2 ^ 32.
Proof. apply N.mod_lt. discriminate. Qed.

Lemma addrs_1 a : a < 2 ^ 32 -> addrs a 1 = [a].
Proof. intros. cbn [addrs seq map]. unfold addrs. cbn [seq map]. rewrite w32_id; change (N.of_nat 0) with 0; [f_equal|]; lia. Qed.
Lemma addrs_2 a : a + 2 <= 2 ^ 32 -> addrs a 2 = [a; a + 1].
Proof.
  intros. unfold addrs. cbn [seq map]. change (N.of_nat 0) with 0. change (N.of_nat 1) with 1. rewrite !w32_id by lia. now rewrite N.add_0_r.
Qed.
Lemma addrs_4 a : a + 4 <= 2 ^ 32 -> addrs a 4 = [a; a + 1; a + 2; a + 3].
Proof.
  intros. unfold addrs. cbn [seq map]. change (N.of_nat 0) with 0. change (N.of_nat 1) with 1. change (N.of_nat 2) with 2. change (N.of_nat 3) with 3.
  rewrite !w32_id by lia. now rewrite N.add_0_r.
Qed.

Definition putn (g : N -> N) (a : N) (n : nat) (v : N) : N -> N := fold_left put (combine (addrs a n) (word_le n v)) g.

Lemma byte_at_div v k : byte_at v k = v / 2 ^ (8 * N.of_nat k) mod 256.
Proof. unfold byte_at. rewrite N.shiftr_div_pow2. exact (N.land_ones _ 8). Qed.

Lemma le_word_2 a b : le_word [a; b] = a + 256 * b.
Proof. rewrite !le_word_cons. change (le_word []) with 0. lia. Qed.
Lemma le_word_4 a b c d : le_word [a; b; c; d] = a + 256 * b + 65536 * c + 16777216 * d.
Proof. rewrite !le_word_cons. change (le_word []) with 0. lia. Qed.

Lemma putn_1 g a v x : a < 2 ^ 32 -> putn g a 1 v x = if x =? a then v mod 256 else g x.
Proof.
  intros H. unfold putn. rewrite addrs_1 by auto. change (word_le 1 v) with [byte_at v 0]. cbn [combine fold_left]. unfold put. cbn [fst snd].
  rewrite byte_at_div. change (2 ^ (8 * N.of_nat 0)) with 1. now rewrite N.div_1_r.
Qed.
Lemma putn_2 g a v x : a + 2 <= 2 ^ 32 ->
  putn g a 2 v x = if x =? a + 1 then v / 256 mod 256 else if x =? a then v mod 256 else g x.
Proof.
  intros H. unfold putn. rewrite addrs_2 by auto. change (word_le 2 v) with [byte_at v 0; byte_at v 1]. cbn [combine fold_left]. unfold put. cbn [fst snd].
  rewrite !byte_at_div. change (2 ^ (8 * N.of_nat 0)) with 1. change (2 ^ (8 * N.of_nat 1)) with 256. now rewrite N.div_1_r.
Qed.
Lemma putn_4 g a v x : a + 4 <= 2 ^ 32 ->
  putn g a 4 v x = if x =? a + 3 then v / 16777216 mod 256 else if x =? a + 2 then v / 65536 mod 256 else
                   if x =? a + 1 then v / 256 mod 256 else if x =? a then v mod 256 else g x.
Proof.
  intros H. unfold putn. rewrite addrs_4 by auto. change (word_le 4 v) with [byte_at v 0; byte_at v 1; byte_at v 2; byte_at v 3].
  cbn [combine fold_left]. unfold put. cbn [fst snd].
  rewrite !byte_at_div. change (2 ^ (8 * N.of_nat 0)) with 1. change (2 ^ (8 * N.of_nat 1)) with 256.
  change (2 ^ (8 * N.of_nat 2)) with 65536. change (2 ^ (8 * N.of_nat 3)) with 16777216. now rewrite N.div_1_r.
Qed.

Lemma putn_out g a n v x : a + N.of_nat n <= 2 ^ 32 -> (x < a \/ a + N.of_nat n <= x) -> (n = 1 \/ n = 2 \/ n = 4)%nat -> putn g a n v x = g x.
Proof.
  intros H Hx [-> | [-> | ->]]; [rewrite putn_1 by lia|rewrite putn_2 by lia|rewrite putn_4 by lia];
    repeat match goal with |- context [?p =? ?q] => destruct (N.eqb_spec p q); [exfalso; lia|] end; auto.
Qed.
Lemma putn_byte g a n v x : (n = 1 \/ n = 2 \/ n = 4)%nat -> a + N.of_nat n <= 2 ^ 32 -> (forall y, g y < 256) -> putn g a n v x < 256.
Proof.
  intros [-> | [-> | ->]] H G; [rewrite putn_1 by lia|rewrite putn_2 by lia|rewrite putn_4 by lia];
    repeat match goal with |- context [?p =? ?q] => destruct (N.eqb_spec p q) end; auto; apply N.mod_lt; discriminate.
Qed.

Lemma hw_lt g a : (forall y, g y < 256) -> hw g a < 2 ^ 16.
Proof. intros G. unfold hw. rewrite le_word_2. pose proof (G a). pose proof (G (a + 1)). change (2 ^ 16) with 65536. lia. Qed.

Lemma mod16 v : v mod 256 + 256 * (v / 256 mod 256) = v mod 2 ^ 16.
Proof. change (2 ^ 16) with (256 * 256). rewrite N.mod_mul_r by discriminate. reflexivity. Qed.

Lemma hw_put2 g a v x : a + 2 <= 2 ^ 32 -> (x = a \/ x + 2 <= a \/ a + 2 <= x) -> hw (putn g a 2 v) x = if x =? a then v mod 2 ^ 16 else hw g x.
Proof.
  intros H Hx. unfold hw. rewrite !le_word_2, !putn_2 by auto. destruct (N.eqb_spec x a) as [->|Hn].
  - destruct (N.eqb_spec a (a + 1)); [lia|]. rewrite N.eqb_refl. apply mod16.
  - repeat match goal with |- context [?p =? ?q] => destruct (N.eqb_spec p q); [exfalso; lia|] end. reflexivity.
Qed.
Lemma hw_put4 g a v x : a + 4 <= 2 ^ 32 -> v < 2 ^ 32 -> (x = a \/ x = a + 2 \/ x + 2 <= a \/ a + 4 <= x) ->
  hw (putn g a 4 v) x = if x =? a then v mod 2 ^ 16 else if x =? a + 2 then v / 2 ^ 16 else hw g x.
Proof.
  intros H Hv Hx. unfold hw. rewrite !le_word_2, !putn_4 by auto. destruct (N.eqb_spec x a) as [->|Hn].
  - repeat match goal with |- context [?p =? ?q] => first [destruct (N.eqb_spec p q); [exfalso; lia|]] end. rewrite !N.eqb_refl. apply mod16.
  - destruct (N.eqb_spec x (a + 2)) as [->|Hn2].
    + destruct (N.eqb_spec (a + 2) (a + 3)); [lia|]. replace (a + 2 + 1) with (a + 3) by lia. rewrite !N.eqb_refl.
      replace (v / 16777216) with (v / 65536 / 256) by (rewrite N.div_div by discriminate; reflexivity). rewrite mod16.
      change (2 ^ 16) with 65536. apply N.mod_small. apply N.div_lt_upper_bound; [discriminate|]. change (2 ^ 32) with (65536 * 65536) in Hv. lia.
    + repeat match goal with |- context [?p =? ?q] => destruct (N.eqb_spec p q); [exfalso; lia|] end. reflexivity.
Qed.

Lemma word_hw g a : le_word (map g [a; a + 1; a + 2; a + 3]) = hw g a + 2 ^ 16 * hw g (a + 2).
Proof. cbn [map]. unfold hw. rewrite le_word_4, !le_word_2. replace (a + 2 + 1) with (a + 3) by lia. change (2 ^ 16) with 65536. lia. Qed.

Lemma lor_add x y : x < 2 ^ 16 -> y < 2 ^ 16 -> N.lor x (wshl 32 y 16) = x + 2 ^ 16 * y.
Proof.
  intros Hx Hy. unfold wshl. rewrite wtrunc_mod, N.shiftl_mul_pow2.
  rewrite (N.mod_small (y * 2 ^ 16)) by (change (2 ^ 32) with (2 ^ 16 * 2 ^ 16); apply N.mul_lt_mono_pos_r; [reflexivity|auto]).
  assert (E : N.land x (y * 2 ^ 16) = 0).
  { apply bits_inj_iff'. intros i. rewrite N.land_spec, N.bits_0. rewrite <- N.shiftl_mul_pow2, tb_shiftl.
    destruct (N.leb_spec 16 i); [rewrite (tb_high x 16) by auto|]; [reflexivity|apply andb_false_r]. }
  rewrite <- N.lxor_lor, <- N.add_nocarry_lxor by exact E. lia.
Qed.

(* ---------- values ---------- *)

Lemma sh_lsl v k : w32 (N.shiftl v k) = wshl 32 v k.
Proof. unfold w32, wshl. now rewrite wtrunc_mod. Qed.
Lemma sh_ror v k : v < 2 ^ 32 -> N.lor (N.shiftr v k) (w32 (N.shiftl v (32 - k))) = wror 32 v k.
Proof. intros H. unfold wror. now rewrite sh_lsl, (wtrunc_id 32 v). Qed.
Lemma not32 b : b < 2 ^ 32 -> 2 ^ 32 - 1 - b = wnot 32 b.
Proof.
  intros H. unfold wnot. change (2 ^ 32 - 1) with (N.ones 32). apply N.sub_nocarry_ldiff. apply bits_inj_iff'. intros i.
  rewrite N.ldiff_spec, N.bits_0. destruct (N.lt_ge_cases i 32) as [L|G].
  - rewrite N.ones_spec_low by auto. apply andb_false_r.
  - now rewrite (tb_high b 32 i H G).
Qed.
Lemma land_lt a b w : a < 2 ^ w -> N.land a b < 2 ^ w.
Proof. intros H. apply lt_pow2_tb. intros i Hi. now rewrite N.land_spec, (tb_high a w i H Hi). Qed.
Lemma lor_lt a b w : a < 2 ^ w -> b < 2 ^ w -> N.lor a b < 2 ^ w.
Proof. intros H G. apply lt_pow2_tb. intros i Hi. now rewrite N.lor_spec, (tb_high a w i H Hi), (tb_high b w i G Hi). Qed.
Lemma shr_lt a k w : a < 2 ^ w -> N.shiftr a k < 2 ^ w.
Proof. intros H. apply lt_pow2_tb. intros i Hi. rewrite tb_shiftr. apply (tb_high a w); auto. lia. Qed.
Lemma wshl_lt w v k : wshl w v k < 2 ^ w.
Proof. apply wtrunc_lt. Qed.
Lemma wror_lt w v k : wror w v k < 2 ^ w.
Proof. unfold wror. apply lor_lt; [apply shr_lt, wtrunc_lt|apply wshl_lt]. Qed.
Lemma t16_32 v : wtrunc 16 v < 2 ^ 32.
Proof. eapply N.lt_trans; [apply wtrunc_lt|reflexivity]. Qed.

Lemma land_8000 a : N.land a 0x8000 = if N.testbit a 15 then 0x8000 else 0.
Proof.
  apply bits_inj_iff'. intros i. rewrite N.land_spec. change 0x8000 with (2 ^ 15) at 1. rewrite N.pow2_bits_eqb.
  destruct (N.eqb_spec 15 i) as [<-|Hn]; [rewrite andb_true_r|rewrite andb_false_r].
  - destruct (N.testbit a 15); reflexivity.
  - destruct (N.testbit a 15); [|now rewrite N.bits_0]. change 0x8000 with (2 ^ 15). rewrite N.pow2_bits_eqb. symmetry. now apply N.eqb_neq.
Qed.
Lemma bit15 v : (v mod 2 ^ 16 <? 2 ^ 15) = negb (N.testbit v 15).
Proof.
  rewrite N.testbit_odd, N.shiftr_div_pow2. change (2 ^ 16) with (2 ^ 15 * 2). rewrite N.mod_mul_r by discriminate.
  pose proof (N.mod_lt v (2 ^ 15) ltac:(discriminate)). rewrite <- N.bit0_mod, N.bit0_odd. destruct (N.odd (v / 2 ^ 15)); cbn [N.b2n negb].
  - apply N.ltb_ge. lia.
  - apply N.ltb_lt. lia.
Qed.
Lemma ev_sxth (e : env) r d : Prog.run [KArmPerm.sxth d r] e = upd_nth e d
  (let v := nth r e 0 mod 2 ^ 16 in if v <? 2 ^ 15 then v else v + (2 ^ 32 - 2 ^ 16)).
Proof.
  unfold Prog.run, KArmPerm.sxth. cbn [fold_left Prog.step eval]. set (a := nth r e 0). f_equal. cbn zeta. rewrite bit15, land_8000.
  destruct (N.testbit a 15); cbn [negb].
  - rewrite <- !N.lor_assoc. rewrite wtrunc_mod.
    match goal with |- N.lor _ ?c = _ => change c with (wshl 32 0xFFFF 16) end.
    rewrite lor_add; [reflexivity| |reflexivity]. apply N.mod_lt. discriminate.
  - change (wshl 32 0 1) with 0.
    repeat match goal with |- context [wshl 32 0 ?k] => change (wshl 32 0 k) with 0 end. rewrite !N.lor_0_r. apply wtrunc_mod.
Qed.
Lemma rev16_ok v : v < 2 ^ 32 ->
  match word_le 4 v with [a; b; c; e] => le_word [b; a; e; c] | _ => 0 end =
  N.lor (wshl 32 (N.land v 0x00ff00ff) 8) (N.land (N.shiftr v 8) 0x00ff00ff).
Proof.
  intros Hv. change (word_le 4 v) with [byte_at v 0; byte_at v 1; byte_at v 2; byte_at v 3]. cbv iota beta.
  apply bits_inj_iff'. intros i. rewrite tb_le_word by (repeat constructor; apply byte_at_lt).
  rewrite N.lor_spec, tb_wshl, !N.land_spec, tb_shiftr.
  destruct (N.lt_ge_cases i 32) as [L|G].
  - assert (E : exists j, i = N.of_nat j /\ (j < 32)%nat) by (exists (N.to_nat i); lia). destruct E as (j & -> & Hj). clear L.
    do 32 (destruct j as [|j]; [lazymatch goal with |- context [N.of_nat ?n] => let c := eval vm_compute in (N.of_nat n) in change (N.of_nat n) with c end;
      cbn [N.testbit Nat.ltb]; vm_compute (N.to_nat _);
      repeat match goal with |- context [nth ?a ?l 0] => let x := eval vm_compute in a in change a with x; cbn [nth] end;
      rewrite ?tb_byte_at; cbn; rewrite ?andb_true_r, ?andb_false_r, ?orb_false_r, ?orb_false_l; reflexivity|]). lia.
  - rewrite nth_overflow by (cbn [length]; lia). rewrite N.bits_0. destruct (N.ltb_spec i 32); [lia|]. cbn [andb orb].
    rewrite (tb_high v 32) by (auto; lia). reflexivity.
Qed.

(* ---------- the translator ---------- *)

(* What is known about a register: it holds a variable of the word program; the address of byte d of the state (X = 0) or of the copy on the
   stack (X = 25); a number; the address d bytes behind the current position in the table of constants; nothing. *)
Inductive kv := Var | At (X : nat) (d : N) | Cst (c : N) | Tab (d : N) | Junk.
Definition cell (r : nat) : nat := if (r =? 14)%nat then 62 else 49 + r.
Definition cellok (r : nat) : bool := existsb (Nat.eqb r) [1; 2; 3; 4; 5; 6; 7; 9; 10; 11; 12; 14]%nat.
Definition kn := list kv.
Definition isv (k : kn) (r : nat) : bool := match nth r k Junk with Var => cellok r | _ => false end.
Definition vr (r : nat) : exp := V (cell r).

Section Tr.
  Variables (una : bool) (rco : N).

  (* d becomes a variable with value e when all of rs are variables *)
  Definition asg (k : kn) (d : nat) (rs : list nat) (e : exp) : option (kn * prog) :=
    if cellok d && forallb (isv k) rs then Some (upd_nth k d Var, [cell d ::= e]) else None.
  Definition set_kn (k : kn) (d : nat) (v : kv) : option (kn * prog) := if (d <? 15)%nat then Some (upd_nth k d v, []) else None.
  Definition lane (n : N) (o : N) : bool := N.even o && (o + n <=? 50).

  Fixpoint ldm_p (ds : list nat) (X l : nat) : prog :=
    match ds with [] => [] | d :: t => KArmPerm.ldr (cell d) X l :: ldm_p t X (l + 2) end.
  Fixpoint stm_p (ds : list nat) (X l : nat) : prog :=
    match ds with
    | [] => []
    | d :: t => (K64Perm.ls X l ::= Trunc 16 (vr d)) :: (K64Perm.ls X (S l) ::= Shr (vr d) 16) :: stm_p t X (l + 2)
    end.

  Definition tr (k : kn) (i : instr) : option (kn * prog) :=
    match i with
    | IDp _ DMov d _ (Rg r) =>
      match nth r k Junk with
      | Var => asg k d [r] (vr r)
      | At X o => set_kn k d (At X o)
      | Tab o => set_kn k d (Tab o)
      | _ => None
      end
    | IDp _ DMov d _ (Im c) => if c <? 2 ^ 32 then set_kn k d (Cst c) else None
    | IDp _ DMov d _ (Sf r (LSL c)) => asg k d [r] (Shl 32 (vr r) c)
    | IDp _ DMov d _ (Sf r (LSR c)) => asg k d [r] (Shr (vr r) c)
    | IDp _ DEor d n (Rg r) => asg k d [n; r] (vr n .^ vr r)
    | IDp _ DEor d n (Sf r (LSL c)) => asg k d [n; r] (vr n .^ Shl 32 (vr r) c)
    | IDp _ DEor d n (Sf r (LSR c)) => asg k d [n; r] (vr n .^ Shr (vr r) c)
    | IDp _ DOrr d n (Rg r) => asg k d [n; r] (vr n .| vr r)
    | IDp _ DOrr d n (Sf r (LSR c)) => asg k d [n; r] (vr n .| Shr (vr r) c)
    | IDp _ DBic d n (Rg r) => asg k d [n; r] (vr n .& Not 32 (vr r))
    | IDp _ DSub d n (Im c) => match nth n k Junk with At X o => if c <=? o then set_kn k d (At X (o - c)) else None | _ => None end
    | IRorR d r => match nth r k Junk with Cst c => asg k d [d] (Ror 32 (vr d) c) | _ => None end
    | IUxth d (Rg r) => asg k d [r] (Trunc 16 (vr r))
    | IUxth d (Sf r (ROR c)) => asg k d [r] (Trunc 16 (Ror 32 (vr r) c))
    | ISxth d r => if cellok d && isv k r then Some (upd_nth k d Var, [KArmPerm.sxth (cell d) (cell r)]) else None
    | IRev16 d r => if cellok d && isv k r then Some (upd_nth k d Var, [KArmPerm.rev16 (cell d) (cell r)]) else None
    | IBfi16 d r => if cellok d && isv k r && isv k d then Some (upd_nth k d Var, [KArmPerm.bfi16 (cell d) (cell r)]) else None
    | ILdr 2 d b off =>
      match nth b k Junk with
      | At X o => if lane 2 (o + off) then asg k d [] (V (K64Perm.ls X (N.to_nat ((o + off) / 2)))) else None
      | Tab o => if o + off =? rco then asg k d [] (V KArmPerm.aRC) else None
      | _ => None
      end
    | ILdr 4 d b off =>
      match nth b k Junk with
      | At X o =>
        if una && lane 4 (o + off) && cellok d then Some (upd_nth k d Var, [KArmPerm.ldr (cell d) X (N.to_nat ((o + off) / 2))]) else None
      | _ => None
      end
    | IStr 2 s b off =>
      match nth b k Junk with
      | At X o => if lane 2 (o + off) && isv k s then Some (k, [KArmPerm.strh (cell s) X (N.to_nat ((o + off) / 2))]) else None
      | _ => None
      end
    | ILdrP 2 d b off =>
      match nth b k Junk with
      | Tab o => if (o =? rco) && cellok d && negb (d =? b)%nat && (off <=? 2) then Some (upd_nth (upd_nth k b (Tab (o + off))) d Var, [cell d ::= V KArmPerm.aRC]) else None
      | _ => None
      end
    | ILdm b ds =>
      match nth b k Junk with
      | At X o =>
        if (o mod 4 =? 0) && (o + words ds <=? 50) && forallb cellok ds && negb (existsb (Nat.eqb b) ds)
        then Some (upd_nth (fold_left (fun k d => upd_nth k d Var) ds k) b (At X (o + words ds)), ldm_p ds X (N.to_nat (o / 2))) else None
      | _ => None
      end
    | IStm b ds =>
      match nth b k Junk with
      | At X o =>
        if (o mod 4 =? 0) && (o + words ds <=? 50) && forallb (isv k) ds
        then Some (upd_nth k b (At X (o + words ds)), stm_p ds X (N.to_nat (o / 2))) else None
      | _ => None
      end
    | _ => None
    end.

  Fixpoint trs (k : kn) (is : list instr) : option (kn * prog) :=
    match is with
    | [] => Some (k, [])
    | i :: t => match tr k i with
                | Some (k1, p) => match trs k1 t with Some (k2, q) => Some (k2, p ++ q) | None => None end
                | None => None
                end
    end.
End Tr.

(* ---------- soundness ---------- *)

Section Sound.
  Variables (una : bool) (rd wr : N -> bool) (tab : N).
  Variables (sb fb tp rco : N).

  Definition inS (a : N) : Prop := sb <= a < sb + 50.
  Definition inF (a : N) : Prop := fb <= a < fb + 50.
  Record geo : Prop := {
    g_sa : sb mod 4 = 0; g_fa : fb mod 4 = 0; g_s : sb + 50 < 2 ^ 32; g_f : fb + 50 < 2 ^ 32;
    g_sf : sb + 50 <= fb \/ fb + 50 <= sb;
    g_sr : forall a, inS a -> rd a = true /\ wr a = true;
    g_fr : forall a, inF a -> rd a = true /\ wr a = true;
    g_ta : (tp + rco) mod 2 = 0; g_t : tp + rco + 2 < 2 ^ 32;
    g_tr : rd (tp + rco) = true /\ rd (tp + rco + 1) = true;
    g_ts : tp + rco + 2 <= sb \/ sb + 50 <= tp + rco;
    g_tf : tp + rco + 2 <= fb \/ fb + 50 <= tp + rco }.

  Definition holdsk (v : kv) (x c : N) : Prop :=
    match v with
    | Var => x = c
    | At X d => d <= 50 /\ ((X = 0%nat /\ x = sb + d) \/ (X = 25%nat /\ x = fb + d))
    | Cst c => x = c
    | Tab d => x = tp + d
    | Junk => True
    end.
  Record rel (k : kn) (f : nat -> N) (g : N -> N) (e : env) : Prop := {
    l_e : length e = 64%nat;
    l_r : forall r, (r < 15)%nat -> holdsk (nth r k Junk) (f r) (nth (cell r) e 0);
    l_S : forall l, (l < 25)%nat -> hw g (sb + 2 * N.of_nat l) = nth l e 0;
    l_F : forall l, (l < 25)%nat -> hw g (fb + 2 * N.of_nat l) = nth (25 + l) e 0;
    l_C : nth 63 e 0 = hw g (tp + rco);
    l_f : forall r, f r < 2 ^ 32;
    l_g : forall a, g a < 256 }.

  Hypothesis G : geo.

  Lemma cellok_lt d : cellok d = true -> (d < 15)%nat /\ (50 <= cell d < 63)%nat /\ d <> 13%nat /\ d <> 0%nat.
  Proof.
    intros H. unfold cellok in H. apply existsb_exists in H as (x & Hx & E). apply Nat.eqb_eq in E. subst x. cbn [List.In] in Hx.
    unfold cell. destruct (Nat.eqb_spec d 14); lia.
  Qed.
  Lemma cell_inj d r : cellok d = true -> cellok r = true -> cell d = cell r -> d = r.
  Proof.
    intros H1 H2. apply cellok_lt in H1 as (A1 & A2 & A3 & A4). apply cellok_lt in H2 as (B1 & B2 & B3 & B4).
    unfold cell. destruct (Nat.eqb_spec d 14), (Nat.eqb_spec r 14); lia.
  Qed.

  Lemma isv_val k f g e r : rel k f g e -> isv k r = true -> cellok r = true /\ (r < 15)%nat /\ f r = nth (cell r) e 0.
  Proof.
    intros R H. unfold isv in H. destruct (nth r k Junk) eqn:E; try discriminate. pose proof (cellok_lt r H) as (L & _).
    split; [auto|]. split; [auto|]. pose proof (l_r _ _ _ _ R r L) as Q. rewrite E in Q. exact Q.
  Qed.

  (* a register becomes a variable *)
  Lemma rel_var k f g e d v : rel k f g e -> length k = 15%nat -> cellok d = true -> v < 2 ^ 32 ->
    (forall r, (r < 15)%nat -> r <> d -> nth r k Junk = Var -> cellok r = true) ->
    rel (upd_nth k d Var) (set f d v) g (upd_nth e (cell d) v).
  Proof.
    intros R Lk Hd Hv Hk. pose proof (cellok_lt d Hd) as (L1 & L2 & _). destruct R as [Re Rr RS RF RC Rf Rg]. constructor.
    - now rewrite upd_nth_length.
    - intros r Hr. rewrite !nth_upd_nth, Lk, Re. unfold set. destruct (Nat.eqb_spec r d) as [->|Hn].
      + rewrite Nat.eqb_refl. destruct (Nat.ltb_spec d 15); [|lia]. destruct (Nat.ltb_spec (cell d) 64); [|lia]. reflexivity.
      + specialize (Rr r Hr). destruct (Nat.eqb_spec (cell r) (cell d)) as [E|]; [|exact Rr].
        destruct (nth r k Junk) eqn:E1; try exact Rr. exfalso. apply Hn. apply cell_inj; auto.
    - intros l Hl. rewrite nth_upd_nth. destruct (Nat.eqb_spec l (cell d)); [lia|auto].
    - intros l Hl. rewrite nth_upd_nth. destruct (Nat.eqb_spec (25 + l) (cell d)); [lia|auto].
    - rewrite nth_upd_nth. destruct (Nat.eqb_spec 63 (cell d)); [lia|auto].
    - intros r. unfold set. destruct (r =? d)%nat; auto.
    - exact Rg.
  Qed.
  Lemma rel_known k f g e d v x : rel k f g e -> length k = 15%nat -> (d < 15)%nat -> v <> Var -> holdsk v x 0 -> x < 2 ^ 32 ->
    rel (upd_nth k d v) (set f d x) g e.
  Proof.
    intros R Lk Hd Hv Hh Hx. destruct R as [Re Rr RS RF RC Rf Rg]. constructor; auto.
    - intros r Hr. rewrite !nth_upd_nth, Lk. unfold set. destruct (Nat.eqb_spec r d) as [->|Hn]; [|auto].
      destruct (Nat.ltb_spec d 15); [|lia]. destruct v; try exact Hh. now elim Hv.
    - intros r. unfold set. destruct (r =? d)%nat; auto.
  Qed.

  (* all variables are registers with a cell *)
  Definition good (k : kn) : Prop := length k = 15%nat /\ forall r, nth r k Junk = Var -> cellok r = true.
  Lemma good_var k d : good k -> cellok d = true -> good (upd_nth k d Var).
  Proof.
    intros [L H] Hd. split; [now rewrite upd_nth_length|]. intros r. rewrite nth_upd_nth. destruct (Nat.eqb_spec r d) as [->|]; auto.
  Qed.
  Lemma good_known k d v : good k -> v <> Var -> good (upd_nth k d v).
  Proof.
    intros [L H] Hv. split; [now rewrite upd_nth_length|]. intros r. rewrite nth_upd_nth. destruct (Nat.eqb_spec r d) as [->|]; auto.
    destruct (d <? length k)%nat; [|discriminate]. intros E. now elim Hv.
  Qed.

  (* the result of one translated instruction *)
  Definition out (k' : kn) (p : prog) (evs : list event) (m m' : mc) (e : env) : Prop :=
    rel k' (rf m') (me m') (Prog.run p e) /\ tc m' = evs ++ tc m /\ (forall a, ~ inS a -> ~ inF a -> me m' a = me m a).

  Lemma out_var k e d ex v m m' : good k -> rel k (rf m) (me m) e -> cellok d = true -> v < 2 ^ 32 -> eval e ex = v ->
    rf m' = set (rf m) d v -> me m' = me m -> forall evs, tc m' = evs ++ tc m -> out (upd_nth k d Var) [cell d ::= ex] evs m m' e.
  Proof.
    intros [Lk Hk] R Hd Hv Ev E1 E2 evs E3. unfold out. cbn [Prog.run fold_left Prog.step]. unfold Prog.run. cbn [fold_left Prog.step].
    rewrite E1, E2, Ev. split; [|split; [exact E3|auto]]. apply rel_var; auto.
  Qed.
  Lemma out_known k e d v x m m' : good k -> rel k (rf m) (me m) e -> (d < 15)%nat -> v <> Var -> holdsk v x 0 -> x < 2 ^ 32 ->
    rf m' = set (rf m) d x -> me m' = me m -> tc m' = tc m -> out (upd_nth k d v) [] [] m m' e.
  Proof.
    intros [Lk Hk] R Hd Hv Hh Hx E1 E2 E3. unfold out. cbn [Prog.run fold_left]. rewrite E1, E2. split; [|split; [exact E3|auto]].
    apply rel_known; auto.
  Qed.

  Lemma asg_inv k d rs ex k' p : asg k d rs ex = Some (k', p) ->
    cellok d = true /\ (forall r, List.In r rs -> isv k r = true) /\ k' = upd_nth k d Var /\ p = [cell d ::= ex].
  Proof.
    unfold asg. destruct (cellok d) eqn:E; [|discriminate]. destruct (forallb (isv k) rs) eqn:E2; [|discriminate]. cbn [andb]. intros [= <- <-].
    split; [auto|]. split; [|auto]. apply forallb_forall. exact E2.
  Qed.

  (* the address of a lane *)
  Lemma at_ok X d x n o : holdsk (At X d) x 0 -> lane n (d + o) = true -> (n = 2 \/ n = 4) ->
    exists l, l = N.to_nat ((d + o) / 2) /\ (X = 0 \/ X = 25)%nat /\ 2 * N.of_nat l = d + o /\ d + o + n <= 50 /\
      w32 (x + o) = (if (X =? 0)%nat then sb else fb) + 2 * N.of_nat l /\ w32 (x + o) + n < 2 ^ 32 /\ w32 (x + o) mod 2 = 0 /\
      (forall j, j < n -> rd (w32 (x + o) + j) = true /\ wr (w32 (x + o) + j) = true).
  Proof.
    intros [Hd Hx] Hl Hn. unfold lane in Hl. apply andb_true_iff in Hl as [He Hb]. apply N.even_spec in He as [q Hq]. apply N.leb_le in Hb.
    destruct G as [Gsa Gfa Gs Gf Gsf Gsr Gfr _ _ _ _ _].
    exists (N.to_nat ((d + o) / 2)). split; [reflexivity|]. rewrite Hq in *. rewrite (N.mul_comm 2 q), N.div_mul by discriminate. rewrite N2Nat.id.
    destruct Hx as [[-> ->] | [-> ->]]; cbn [Nat.eqb].
    - split; [lia|]. split; [lia|]. split; [lia|].
      assert (E : w32 (sb + d + o) = sb + 2 * q) by (replace (sb + d + o) with (sb + 2 * q) by lia; apply w32_id; lia).
      rewrite E. split; [reflexivity|]. split; [lia|]. split; [clear - Gsa; lia|]. intros j Hj. apply Gsr. unfold inS. lia.
    - split; [lia|]. split; [lia|]. split; [lia|].
      assert (E : w32 (fb + d + o) = fb + 2 * q) by (replace (fb + d + o) with (fb + 2 * q) by lia; apply w32_id; lia).
      rewrite E. split; [reflexivity|]. split; [lia|]. split; [clear - Gfa; lia|]. intros j Hj. apply Gfr. unfold inF. lia.
  Qed.

  Lemma load_ok al n a m : a mod al = 0 -> (forall x, List.In x (addrs a n) -> rd x = true) ->
    load rd al n a m = Some (le_word (map (me m) (addrs a n)), see m (Ld a n)).
  Proof. intros H1 H2. unfold load. rewrite H1. cbn [N.eqb]. rewrite (proj2 (forallb_forall _ _) H2). reflexivity. Qed.
  Lemma store_ok al n a v m : a mod al = 0 -> (forall x, List.In x (addrs a n) -> wr x = true) ->
    store wr al n a v m = Some (see (setm m (putn (me m) a n v)) (St a n)).
  Proof. intros H1 H2. unfold store. rewrite H1. cbn [N.eqb]. rewrite (proj2 (forallb_forall _ _) H2). reflexivity. Qed.

  Lemma lane_val k f g e X l : rel k f g e -> (X = 0 \/ X = 25)%nat -> (l < 25)%nat ->
    hw g ((if (X =? 0)%nat then sb else fb) + 2 * N.of_nat l) = nth (K64Perm.ls X l) e 0.
  Proof. intros R [-> | ->] Hl; cbn [Nat.eqb]; unfold K64Perm.ls; [apply (l_S _ _ _ _ R)|apply (l_F _ _ _ _ R)]; auto. Qed.

  (* storing a halfword into a lane *)
  Lemma rel_strh k f g e X l v : rel k f g e -> good k -> (X = 0 \/ X = 25)%nat -> (l < 25)%nat ->
    let a := (if (X =? 0)%nat then sb else fb) + 2 * N.of_nat l in
    rel k f (putn g a 2 v) (upd_nth e (K64Perm.ls X l) (wtrunc 16 v)) /\ (forall x, ~ inS x -> ~ inF x -> putn g a 2 v x = g x).
  Proof.
    intros R [_ Hk] HX Hl a. destruct R as [Re Rr RS RF RC Rf Rg]. destruct G as [_ _ Gs Gf Gsf _ _ _ Gt _ Gts Gtf].
    assert (Ha : a + 2 < 2 ^ 32) by (unfold a; destruct HX as [-> | ->]; cbn [Nat.eqb]; lia).
    assert (HL : K64Perm.ls X l = (if (X =? 0)%nat then l else 25 + l)%nat /\ (K64Perm.ls X l < 50)%nat)
      by (unfold K64Perm.ls; destruct HX as [-> | ->]; cbn [Nat.eqb]; lia).
    destruct HL as [HL HL2]. split; [|intros x H1 H2; apply putn_out; [lia| |auto]; unfold a, inS, inF in *; destruct HX as [-> | ->]; cbn [Nat.eqb]; change (N.of_nat 2) with 2; lia].
    constructor; auto.
    - now rewrite upd_nth_length.
    - intros r Hr. rewrite nth_upd_nth. destruct (Nat.eqb_spec (cell r) (K64Perm.ls X l)) as [E|]; [|auto]. specialize (Rr r Hr).
      destruct (nth r k Junk) eqn:E1; auto. apply Hk in E1. apply cellok_lt in E1. lia.
    - intros j Hj. rewrite nth_upd_nth, Re. rewrite hw_put2.
      + rewrite RS by auto. rewrite HL. unfold a. destruct HX as [-> | ->]; cbn [Nat.eqb].
        * destruct (N.eqb_spec (sb + 2 * N.of_nat j) (sb + 2 * N.of_nat l)), (Nat.eqb_spec j l); try (exfalso; lia); [|reflexivity].
          destruct (Nat.ltb_spec l 64); [|lia]. now rewrite wtrunc_mod.
        * destruct (N.eqb_spec (sb + 2 * N.of_nat j) (fb + 2 * N.of_nat l)), (Nat.eqb_spec j (25 + l)); try (exfalso; lia). reflexivity.
      + lia.
      + unfold a. destruct HX as [-> | ->]; cbn [Nat.eqb]; lia.
    - intros j Hj. rewrite nth_upd_nth, Re. rewrite hw_put2.
      + rewrite RF by auto. rewrite HL. unfold a. destruct HX as [-> | ->]; cbn [Nat.eqb].
        * destruct (N.eqb_spec (fb + 2 * N.of_nat j) (sb + 2 * N.of_nat l)), (Nat.eqb_spec (25 + j) l); try (exfalso; lia). reflexivity.
        * destruct (N.eqb_spec (fb + 2 * N.of_nat j) (fb + 2 * N.of_nat l)), (Nat.eqb_spec (25 + j) (25 + l)); try (exfalso; lia); [|reflexivity].
          destruct (Nat.ltb_spec (25 + l) 64); [|lia]. now rewrite wtrunc_mod.
      + lia.
      + unfold a. destruct HX as [-> | ->]; cbn [Nat.eqb]; lia.
    - rewrite nth_upd_nth. destruct (Nat.eqb_spec 63 (K64Perm.ls X l)); [lia|]. rewrite RC. rewrite hw_put2.
      + destruct (N.eqb_spec (tp + rco) a) as [E|]; [|reflexivity]. unfold a in E. destruct HX as [-> | ->]; cbn [Nat.eqb] in E; lia.
      + lia.
      + unfold a. destruct HX as [-> | ->]; cbn [Nat.eqb]; lia.
    - intros x. apply putn_byte; auto. lia.
  Qed.

  Lemma al2 a : a mod 2 = 0 -> a mod al una 2 = 0.
  Proof. intros H. unfold al. destruct una; [apply N.mod_1_r|exact H]. Qed.
  Lemma al4 a : una = true -> a mod al una 4 = 0.
  Proof. intros ->. apply N.mod_1_r. Qed.

  Ltac inv H := injection H as <- <-.

  Lemma ld2 k b off X o m e : rel k (rf m) (me m) e -> nth b k Junk = At X o -> (b < 15)%nat -> lane 2 (o + off) = true ->
    load rd (al una 2) 2 (w32 (rf m b + off)) m =
      Some (nth (K64Perm.ls X (N.to_nat ((o + off) / 2))) e 0, see m (Ld ((if (X =? 0)%nat then sb else fb) + 2 * N.of_nat (N.to_nat ((o + off) / 2))) 2)).
  Proof.
    intros R E Hb Hl. pose proof (l_r _ _ _ _ R b Hb) as Q. rewrite E in Q.
    destruct (at_ok X o (rf m b) 2 off Q Hl ltac:(auto)) as (l & El & HX & E2 & H50 & Ea & Hw & Hm & Hrw).
    rewrite <- El. rewrite load_ok.
    - rewrite addrs_2 by lia. rewrite Ea. cbn [map]. fold (hw (me m) ((if (X =? 0)%nat then sb else fb) + 2 * N.of_nat l)). rewrite (lane_val _ _ _ _ X l R HX ltac:(lia)). reflexivity.
    - apply al2; auto.
    - rewrite addrs_2 by lia. intros x [<- | [<- | []]].
      + replace (w32 (rf m b + off)) with (w32 (rf m b + off) + 0) by lia. apply Hrw. reflexivity.
      + apply Hrw. reflexivity.
  Qed.

  Lemma ld4 k b off X o m e : una = true -> rel k (rf m) (me m) e -> nth b k Junk = At X o -> (b < 15)%nat -> lane 4 (o + off) = true ->
    let l := N.to_nat ((o + off) / 2) in
    let v := N.lor (nth (K64Perm.ls X l) e 0) (wshl 32 (nth (K64Perm.ls X (S l)) e 0) 16) in
    load rd (al una 4) 4 (w32 (rf m b + off)) m = Some (v, see m (Ld ((if (X =? 0)%nat then sb else fb) + 2 * N.of_nat l) 4)) /\ v < 2 ^ 32.
  Proof.
    intros Hu R E Hb Hl l0 v. pose proof (l_r _ _ _ _ R b Hb) as Q. rewrite E in Q.
    destruct (at_ok X o (rf m b) 4 off Q Hl ltac:(auto)) as (l & El & HX & E2 & H50 & Ea & Hw & Hm & Hrw).
    assert (V : le_word (map (me m) (addrs (w32 (rf m b + off)) 4)) = v).
    { rewrite addrs_4 by lia. rewrite word_hw, Ea.
      replace ((if (X =? 0)%nat then sb else fb) + 2 * N.of_nat l + 2) with ((if (X =? 0)%nat then sb else fb) + 2 * N.of_nat (S l)) by lia.
      pose proof (hw_lt (me m) ((if (X =? 0)%nat then sb else fb) + 2 * N.of_nat l) (l_g _ _ _ _ R)) as B1.
      pose proof (hw_lt (me m) ((if (X =? 0)%nat then sb else fb) + 2 * N.of_nat (S l)) (l_g _ _ _ _ R)) as B2.
      rewrite <- (lor_add _ _ B1 B2). unfold v, l0. rewrite <- El.
      rewrite (lane_val _ _ _ _ X l R HX) by lia. rewrite (lane_val _ _ _ _ X (S l) R HX) by lia. reflexivity. }
    split.
    - rewrite load_ok.
      + rewrite V. unfold l0. rewrite <- El, Ea. reflexivity.
      + apply al4; auto.
      + rewrite addrs_4 by lia. intros x [<- | [<- | [<- | [<- | []]]]]; try (apply Hrw; reflexivity).
        replace (w32 (rf m b + off)) with (w32 (rf m b + off) + 0) by lia. apply Hrw. reflexivity.
    - rewrite <- V. rewrite addrs_4 by lia. cbn [map]. rewrite le_word_4. pose proof (l_g _ _ _ _ R) as Gm.
      pose proof (Gm (w32 (rf m b + off))). pose proof (Gm (w32 (rf m b + off) + 1)). pose proof (Gm (w32 (rf m b + off) + 2)).
      pose proof (Gm (w32 (rf m b + off) + 3)). change (2 ^ 32) with 4294967296. lia.
  Qed.

  Lemma ldrc k b off o m e : rel k (rf m) (me m) e -> nth b k Junk = Tab o -> (b < 15)%nat -> o + off = rco ->
    load rd (al una 2) 2 (w32 (rf m b + off)) m = Some (nth KArmPerm.aRC e 0, see m (Ld (tp + rco) 2)).
  Proof.
    intros R E Hb Ho. pose proof (l_r _ _ _ _ R b Hb) as Q. rewrite E in Q. cbn [holdsk] in Q. rewrite Q.
    replace (tp + o + off) with (tp + rco) by lia. destruct G as [_ _ _ _ _ _ _ Gta Gt [Gt1 Gt2] _ _].
    rewrite w32_id by lia. rewrite load_ok.
    - rewrite addrs_2 by lia. cbn [map]. fold (hw (me m) (tp + rco)). rewrite <- (l_C _ _ _ _ R). reflexivity.
    - apply al2; auto.
    - rewrite addrs_2 by lia. intros x [<- | [<- | []]]; auto.
  Qed.

  Lemma lt_nth k b v : good k -> nth b k Junk = v -> v <> Junk -> (b < 15)%nat.
  Proof.
    intros [L _] E Hv. destruct (Nat.lt_ge_cases b 15) as [|Hge]; auto. rewrite nth_overflow in E by lia. now elim Hv.
  Qed.

  Notation bs X := (if (X =? 0)%nat then sb else fb).

  Lemma out_nil k m e : rel k (rf m) (me m) e -> out k [] [] m m e.
  Proof. intros R. split; [exact R|]. split; auto. Qed.
  Lemma out_trans k1 k2 p q ev1 ev2 m m1 m2 e : out k1 p ev1 m m1 e -> out k2 q ev2 m1 m2 (Prog.run p e) -> out k2 (p ++ q) (ev2 ++ ev1) m m2 e.
  Proof.
    intros (R1 & T1 & F1) (R2 & T2 & F2). split; [rewrite Prog.run_app; exact R2|]. split; [rewrite T2, T1; apply app_assoc|].
    intros a H1 H2. rewrite F2, F1; auto.
  Qed.

  Lemma bs_facts X l n : (X = 0 \/ X = 25)%nat -> (2 * l + n <= 50)%nat ->
    bs X + 2 * N.of_nat l + N.of_nat n < 2 ^ 32 /\
    forall j, j < N.of_nat n -> rd (bs X + 2 * N.of_nat l + j) = true /\ wr (bs X + 2 * N.of_nat l + j) = true.
  Proof.
    intros HX Hl. destruct G as [_ _ Gs Gf Gsf Gsr Gfr _ _ _ _ _].
    destruct HX as [-> | ->]; cbn [Nat.eqb]; (split; [lia|]); intros j Hj; [apply Gsr|apply Gfr]; unfold inS, inF; lia.
  Qed.
  Lemma bs_al X l : (X = 0 \/ X = 25)%nat -> Nat.even l = true -> (bs X + 2 * N.of_nat l) mod 4 = 0.
  Proof.
    intros HX Hl. apply Nat.even_spec in Hl as [q ->]. destruct G as [Gsa Gfa _ _ _ _ _ _ _ _ _ _]. clear - HX Gsa Gfa.
    destruct HX as [-> | ->]; cbn [Nat.eqb]; lia.
  Qed.

  Lemma ldw k X l m e : rel k (rf m) (me m) e -> (X = 0 \/ X = 25)%nat -> (2 * l + 4 <= 50)%nat -> Nat.even l = true ->
    let v := N.lor (nth (K64Perm.ls X l) e 0) (wshl 32 (nth (K64Perm.ls X (S l)) e 0) 16) in
    load rd 4 4 (bs X + 2 * N.of_nat l) m = Some (v, see m (Ld (bs X + 2 * N.of_nat l) 4)) /\ v < 2 ^ 32.
  Proof.
    intros R HX Hl He v. destruct (bs_facts X l 4 HX Hl) as [Hw Hrw]. set (a := bs X + 2 * N.of_nat l) in *.
    change (N.of_nat 4) with 4 in *.
    assert (V : le_word (map (me m) (addrs a 4)) = v).
    { rewrite addrs_4 by lia. rewrite word_hw. replace (a + 2) with (bs X + 2 * N.of_nat (S l)) by (unfold a; lia).
      rewrite <- lor_add by (apply hw_lt; apply (l_g _ _ _ _ R)). unfold v, a.
      rewrite (lane_val _ _ _ _ X l R HX) by lia. rewrite (lane_val _ _ _ _ X (S l) R HX) by lia. reflexivity. }
    split.
    - rewrite load_ok.
      + rewrite V. reflexivity.
      + apply bs_al; auto.
      + rewrite addrs_4 by lia. intros x [<- | [<- | [<- | [<- | []]]]]; try (apply Hrw; reflexivity).
        replace a with (a + 0) by lia. apply Hrw. reflexivity.
    - rewrite <- V. rewrite addrs_4 by lia. cbn [map]. rewrite le_word_4. pose proof (l_g _ _ _ _ R) as Gm.
      pose proof (Gm a). pose proof (Gm (a + 1)). pose proof (Gm (a + 2)). pose proof (Gm (a + 3)). change (2 ^ 32) with 4294967296. lia.
  Qed.

  Lemma even_SS l : Nat.even l = true -> Nat.even (l + 2) = true.
  Proof. intros H. rewrite Nat.even_add, H. reflexivity. Qed.

  Lemma ldms_ok X ds : (X = 0 \/ X = 25)%nat -> forall l k, good k -> forallb cellok ds = true -> (2 * l + 4 * length ds <= 50)%nat -> Nat.even l = true ->
    good (fold_left (fun k d => upd_nth k d Var) ds k) /\
    exists evs, forall m e, rel k (rf m) (me m) e -> exists m', ldms rd ds (bs X + 2 * N.of_nat l) m = Some m' /\
      out (fold_left (fun k d => upd_nth k d Var) ds k) (ldm_p ds X l) evs m m' e /\ (forall r, ~ List.In r ds -> rf m' r = rf m r).
  Proof.
    intros HX. induction ds as [|d ds IH]; intros l k Hg Hc Hl He.
    - split; [exact Hg|]. exists []. intros m e R. exists m. split; [reflexivity|]. split; [apply out_nil; exact R|auto].
    - cbn [forallb] in Hc. apply andb_true_iff in Hc as [Hd Hc]. cbn [length] in Hl.
      destruct (IH (l + 2)%nat (upd_nth k d Var) (good_var k d Hg Hd) Hc ltac:(lia) (even_SS l He)) as (Hg' & evs & H). clear IH.
      cbn [fold_left]. split; [exact Hg'|]. exists (evs ++ [Ld (bs X + 2 * N.of_nat l) 4]). intros m e R. cbn [ldms ldm_p].
      destruct (ldw k X l m e R HX ltac:(lia) He) as [Q1 Q2]. rewrite Q1.
      match type of Q2 with ?v < _ => set (v0 := v) in * end.
      assert (O : out (upd_nth k d Var) [KArmPerm.ldr (cell d) X l] [Ld (bs X + 2 * N.of_nat l) 4] m (setr (see m (Ld (bs X + 2 * N.of_nat l) 4)) d v0) e).
      { unfold KArmPerm.ldr. apply (out_var k e d _ v0 m); auto. }
      destruct (H _ _ (proj1 O)) as (m' & E' & O' & K').
      destruct (bs_facts X l 4 HX ltac:(lia)) as [Hw _]. change (N.of_nat 4) with 4 in Hw.
      replace (w32 (bs X + 2 * N.of_nat l + 4)) with (bs X + 2 * N.of_nat (l + 2)) by (rewrite w32_id by lia; lia).
      exists m'. split; [exact E'|]. split.
      + change (KArmPerm.ldr (cell d) X l :: ldm_p ds X (l + 2)) with ([KArmPerm.ldr (cell d) X l] ++ ldm_p ds X (l + 2)).
        exact (out_trans _ _ _ _ _ _ _ _ _ _ O O').
      + intros r Hr. rewrite K' by (intros Hi; apply Hr; right; exact Hi). cbn [setr see rf]. unfold set.
        destruct (Nat.eqb_spec r d) as [->|]; auto. elim Hr. left. reflexivity.
  Qed.

  Lemma rel_ext k f g g' e : (forall x, g x = g' x) -> rel k f g e -> rel k f g' e.
  Proof.
    intros E [Re Rr RS RF RC Rf Rg]. constructor; auto.
    - intros l Hl. rewrite <- RS by auto. unfold hw. now rewrite !E.
    - intros l Hl. rewrite <- RF by auto. unfold hw. now rewrite !E.
    - rewrite RC. unfold hw. now rewrite !E.
    - intros a. rewrite <- E. apply Rg.
  Qed.

  Lemma put4_22 g a v x : a + 4 <= 2 ^ 32 -> putn (putn g a 2 v) (a + 2) 2 (N.shiftr v 16) x = putn g a 4 v x.
  Proof.
    intros H. rewrite putn_4, putn_2, putn_2 by lia. rewrite N.shiftr_div_pow2. change (2 ^ 16) with 65536.
    rewrite N.div_div by discriminate. change (65536 * 256) with 16777216. replace (a + 2 + 1) with (a + 3) by lia. reflexivity.
  Qed.

  Lemma rel_stw k f g e X l v : rel k f g e -> good k -> (X = 0 \/ X = 25)%nat -> (2 * l + 4 <= 50)%nat -> v < 2 ^ 32 ->
    let a := bs X + 2 * N.of_nat l in
    rel k f (putn g a 4 v) (upd_nth (upd_nth e (K64Perm.ls X l) (wtrunc 16 v)) (K64Perm.ls X (S l)) (N.shiftr v 16)) /\
    (forall x, ~ inS x -> ~ inF x -> putn g a 4 v x = g x).
  Proof.
    intros R Hg HX Hl Hv a. destruct (bs_facts X l 4 HX Hl) as [Hw _]. change (N.of_nat 4) with 4 in Hw. fold a in Hw.
    destruct (rel_strh k f g e X l v R Hg HX ltac:(lia)) as [R1 F1]. fold a in R1, F1.
    destruct (rel_strh k f _ _ X (S l) (N.shiftr v 16) R1 Hg HX ltac:(lia)) as [R2 F2].
    replace (bs X + 2 * N.of_nat (S l)) with (a + 2) in R2, F2 by (unfold a; lia).
    rewrite (wtrunc_id 16 (N.shiftr v 16)) in R2.
    - split.
      + eapply rel_ext; [|exact R2]. intros x. apply put4_22. lia.
      + intros x H1 H2. rewrite <- put4_22 by lia. rewrite F2, F1; auto.
    - rewrite N.shiftr_div_pow2. apply N.div_lt_upper_bound; [discriminate|]. exact Hv.
  Qed.

  Lemma stms_ok X k ds : good k -> (X = 0 \/ X = 25)%nat -> forall l, forallb (isv k) ds = true -> (2 * l + 4 * length ds <= 50)%nat -> Nat.even l = true ->
    exists evs, forall m e, rel k (rf m) (me m) e -> exists m', stms wr ds (bs X + 2 * N.of_nat l) m = Some m' /\
      out k (stm_p ds X l) evs m m' e /\ rf m' = rf m.
  Proof.
    intros Hg HX. induction ds as [|d ds IH]; intros l Hc Hl He.
    - exists []. intros m e R. exists m. split; [reflexivity|]. split; [apply out_nil; exact R|auto].
    - cbn [forallb] in Hc. apply andb_true_iff in Hc as [Hd Hc]. cbn [length] in Hl.
      destruct (IH (l + 2)%nat Hc ltac:(lia) (even_SS l He)) as (evs & H). clear IH.
      exists (evs ++ [St (bs X + 2 * N.of_nat l) 4]). intros m e R. cbn [stms stm_p].
      destruct (bs_facts X l 4 HX ltac:(lia)) as [Hw Hrw]. change (N.of_nat 4) with 4 in Hw, Hrw.
      rewrite store_ok; [|apply bs_al; auto|].
      2: { rewrite addrs_4 by lia. intros x [<- | [<- | [<- | [<- | []]]]]; try (apply Hrw; reflexivity).
           match goal with |- wr ?a = _ => replace a with (a + 0) by lia end. apply Hrw. reflexivity. }
      destruct (isv_val _ _ _ _ d R Hd) as (Hc1 & Hd15 & Hv).
      destruct (rel_stw k (rf m) (me m) e X l (rf m d) R Hg HX ltac:(lia) (l_f _ _ _ _ R d)) as [R1 F1].
      set (a := bs X + 2 * N.of_nat l) in *.
      set (m1 := see (setm m (putn (me m) a 4 (rf m d))) (St a 4)).
      set (p := [K64Perm.ls X l ::= Trunc 16 (vr d); K64Perm.ls X (S l) ::= Shr (vr d) 16]).
      assert (O : out k p [St a 4] m m1 e).
      { split; [|split; [reflexivity|exact F1]]. unfold p, Prog.run, vr. cbn [fold_left Prog.step eval m1 see setm rf me]. rewrite nth_upd_nth.
        destruct (Nat.eqb_spec (cell d) (K64Perm.ls X l)) as [E|_].
        { exfalso. apply cellok_lt in Hc1. unfold K64Perm.ls in E. lia. }
        rewrite <- Hv. exact R1. }
      destruct (H _ _ (proj1 O)) as (m' & E' & O' & K').
      replace (w32 (a + 4)) with (bs X + 2 * N.of_nat (l + 2)) by (rewrite w32_id by lia; unfold a; lia).
      exists m'. split; [exact E'|]. split; [|exact K'].
      exact (out_trans _ _ p _ _ _ _ _ _ _ O O').
  Qed.

  Definition sound1 (k : kn) (i : instr) (k' : kn) (p : prog) : Prop :=
    good k' /\ exists evs, forall m e, rel k (rf m) (me m) e -> exists m', run1 una rd wr tab i m = Some m' /\ out k' p evs m m' e.

  (* data processing into a variable *)
  Lemma dp_var k s o d n x rs ex k' p : good k -> asg k d rs ex = Some (k', p) ->
    (forall m e, rel k (rf m) (me m) e -> (forall r, List.In r rs -> nth (cell r) e 0 = rf m r /\ rf m r < 2 ^ 32) ->
       let v := fst (alu o (rf m n) (fst (opnd m x)) (snd (opnd m x))) in eval e ex = v /\ v < 2 ^ 32) ->
    sound1 k (IDp s o d n x) k' p.
  Proof.
    intros Hg Ha Hv. apply asg_inv in Ha as (Hd & Hr & -> & ->). split; [apply good_var; auto|]. exists []. intros m e R. cbn [run1].
    destruct (opnd m x) as [b c] eqn:Eo. destruct (alu o (rf m n) b c) as [v c'] eqn:Ea. eexists. split; [reflexivity|].
    destruct (Hv m e R) as [E1 E2].
    { intros r Hi. apply Hr in Hi. destruct (isv_val _ _ _ _ r R Hi) as (_ & _ & <-). split; auto. apply (l_f _ _ _ _ R). }
    rewrite Eo in E1, E2. cbn [fst snd] in E1, E2. rewrite Ea in E1, E2. cbn [fst] in E1, E2.
    apply (out_var k e d ex v m); auto; destruct s; reflexivity.
  Qed.

  Lemma tr_sound k i k' p : good k -> tr una rco k i = Some (k', p) -> sound1 k i k' p.
  Proof.
    intros Hg H. destruct i; cbn [tr] in H; try discriminate.
    - (* data processing *)
      destruct o; try discriminate; destruct x as [r|r [c|c|c]|c]; try discriminate.
      + destruct (nth r k Junk) as [|X o'|c|o'|] eqn:E; try discriminate.
        * eapply dp_var; [exact Hg|exact H|]. intros m e R Hr. cbn [alu opnd fst snd eval vr]. apply (Hr r). left. reflexivity.
        * unfold set_kn in H. destruct (Nat.ltb_spec d 15) as [Hd|]; [|discriminate]. inv H. split; [apply good_known; auto; discriminate|].
          exists []. intros m e R. cbn [run1 opnd alu]. eexists. split; [reflexivity|].
          pose proof (l_r _ _ _ _ R r (lt_nth k r _ Hg E ltac:(discriminate))) as Q. rewrite E in Q.
          apply (out_known k e d _ (rf m r) m); auto; try discriminate; try (destruct s; reflexivity). apply (l_f _ _ _ _ R).
        * unfold set_kn in H. destruct (Nat.ltb_spec d 15) as [Hd|]; [|discriminate]. inv H. split; [apply good_known; auto; discriminate|].
          exists []. intros m e R. cbn [run1 opnd alu]. eexists. split; [reflexivity|].
          pose proof (l_r _ _ _ _ R r (lt_nth k r _ Hg E ltac:(discriminate))) as Q. rewrite E in Q.
          apply (out_known k e d _ (rf m r) m); auto; try discriminate; try (destruct s; reflexivity). apply (l_f _ _ _ _ R).
      + eapply dp_var; [exact Hg|exact H|]. intros m e R Hr. cbn [alu opnd shifted fst snd eval vr].
        destruct (Hr r) as [-> _]; [left; reflexivity|]. rewrite sh_lsl. split; [reflexivity|apply wshl_lt].
      + eapply dp_var; [exact Hg|exact H|]. intros m e R Hr. cbn [alu opnd shifted fst snd eval vr].
        destruct (Hr r) as [-> B]; [left; reflexivity|]. split; [reflexivity|apply shr_lt; exact B].
      + destruct (N.ltb_spec c (2 ^ 32)) as [Hc|]; [|discriminate].
        unfold set_kn in H. destruct (Nat.ltb_spec d 15) as [Hd|]; [|discriminate]. inv H. split; [apply good_known; auto; discriminate|].
        exists []. intros m e R. cbn [run1 opnd alu]. eexists. split; [reflexivity|].
        apply (out_known k e d _ c m); auto; try discriminate; try (destruct s; reflexivity); reflexivity.
      + eapply dp_var; [exact Hg|exact H|]. intros m e R Hr. cbn [alu opnd shifted fst snd eval vr].
        destruct (Hr n) as [-> B]; [left; reflexivity|]. destruct (Hr r) as [-> B']; [right; left; reflexivity|].
        split; [reflexivity|apply lxor_lt; auto].
      + eapply dp_var; [exact Hg|exact H|]. intros m e R Hr. cbn [alu opnd shifted fst snd eval vr].
        destruct (Hr n) as [-> B]; [left; reflexivity|]. destruct (Hr r) as [-> B']; [right; left; reflexivity|].
        rewrite sh_lsl. split; [reflexivity|apply lxor_lt; auto; apply wshl_lt].
      + eapply dp_var; [exact Hg|exact H|]. intros m e R Hr. cbn [alu opnd shifted fst snd eval vr].
        destruct (Hr n) as [-> B]; [left; reflexivity|]. destruct (Hr r) as [-> B']; [right; left; reflexivity|].
        split; [reflexivity|apply lxor_lt; auto; apply shr_lt; auto].
      + eapply dp_var; [exact Hg|exact H|]. intros m e R Hr. cbn [alu opnd shifted fst snd eval vr].
        destruct (Hr n) as [-> B]; [left; reflexivity|]. destruct (Hr r) as [-> B']; [right; left; reflexivity|].
        split; [reflexivity|apply lor_lt; auto].
      + eapply dp_var; [exact Hg|exact H|]. intros m e R Hr. cbn [alu opnd shifted fst snd eval vr].
        destruct (Hr n) as [-> B]; [left; reflexivity|]. destruct (Hr r) as [-> B']; [right; left; reflexivity|].
        split; [reflexivity|apply lor_lt; auto; apply shr_lt; auto].
      + eapply dp_var; [exact Hg|exact H|]. intros m e R Hr. cbn [alu opnd shifted fst snd eval vr].
        destruct (Hr n) as [-> B]; [left; reflexivity|]. destruct (Hr r) as [-> B']; [right; left; reflexivity|].
        rewrite not32 by exact B'. split; [reflexivity|apply land_lt; auto].
      + destruct (nth n k Junk) as [|X o'| | |] eqn:E; try discriminate. destruct (N.leb_spec c o') as [Hc|]; [|discriminate].
        unfold set_kn in H. destruct (Nat.ltb_spec d 15) as [Hd|]; [|discriminate]. inv H. split; [apply good_known; auto; discriminate|].
        exists []. intros m e R. cbn [run1 opnd alu]. eexists. split; [reflexivity|].
        pose proof (l_r _ _ _ _ R n (lt_nth k n _ Hg E ltac:(discriminate))) as Q. rewrite E in Q. destruct Q as [Q1 Q2].
        destruct G as [_ _ Gs Gf _ _ _ _ _ _ _ _].
        assert (W : w32 (rf m n + 2 ^ 32 - c) = rf m n - c).
        { unfold w32. replace (rf m n + 2 ^ 32 - c) with (rf m n - c + 1 * 2 ^ 32) by (destruct Q2 as [[_ Q2]|[_ Q2]]; lia).
          rewrite N.mod_add by discriminate. apply N.mod_small. destruct Q2 as [[_ Q2]|[_ Q2]]; lia. }
        apply (out_known k e d _ (w32 (rf m n + 2 ^ 32 - c)) m); auto; try discriminate; try (destruct s; reflexivity); [|apply w32_lt].
        rewrite W. cbn [holdsk]. split; [lia|]. destruct Q2 as [[? Q2]|[? Q2]]; [left|right]; (split; [auto|lia]).
    - (* rors *)
      destruct (nth m k Junk) as [| |c| |] eqn:E; try discriminate. apply asg_inv in H as (Hd & Hr & -> & ->).
      split; [apply good_var; auto|]. exists []. intros mm e R. cbn [run1 shifted]. eexists. split; [reflexivity|].
      pose proof (l_r _ _ _ _ R m (lt_nth k m _ Hg E ltac:(discriminate))) as Q. rewrite E in Q. cbn [holdsk] in Q. rewrite Q.
      destruct (isv_val _ _ _ _ d R (Hr d (or_introl eq_refl))) as (_ & _ & V).
      rewrite sh_ror by apply (l_f _ _ _ _ R).
      apply (out_var k e d _ (wror 32 (rf mm d) c) mm); auto. { apply wror_lt. } cbn [eval vr]. now rewrite V.
    - (* uxth *)
      destruct x as [r|r [c|c|c]|c]; try discriminate; apply asg_inv in H as (Hd & Hr & -> & ->);
        (split; [apply good_var; auto|]); exists []; intros mm e R; cbn [run1 opnd shifted fst]; eexists; (split; [reflexivity|]);
        destruct (isv_val _ _ _ _ r R (Hr r (or_introl eq_refl))) as (_ & _ & V); rewrite <- wtrunc_mod.
      + apply (out_var k e d _ (wtrunc 16 (rf mm r)) mm); auto. { apply t16_32. } cbn [eval vr]. now rewrite V.
      + rewrite sh_ror by apply (l_f _ _ _ _ R).
        apply (out_var k e d _ (wtrunc 16 (wror 32 (rf mm r) c)) mm); auto. { apply t16_32. } cbn [eval vr]. now rewrite V.
    - (* sxth *)
      destruct (cellok d) eqn:Hd; [|discriminate]. destruct (isv k m) eqn:Hm; [|discriminate]. cbn [andb] in H. inv H.
      split; [apply good_var; auto|]. exists []. intros mm e R. cbn [run1]. eexists. split; [reflexivity|].
      destruct (isv_val _ _ _ _ m R Hm) as (_ & _ & V). unfold out. rewrite ev_sxth. rewrite <- V.
      set (v := let w := rf mm m mod 2 ^ 16 in if w <? 2 ^ 15 then w else w + (2 ^ 32 - 2 ^ 16)).
      split; [|split; auto]. cbn [setr rf me]. apply rel_var; auto; try apply Hg; [|intros; apply Hg; auto].
      unfold v. cbn zeta. pose proof (N.mod_lt (rf mm m) (2 ^ 16) ltac:(discriminate)) as B. change (2 ^ 16) with 65536 in *. change (2 ^ 32) with 4294967296.
      revert B. generalize (rf mm m mod 65536). intros w B. destruct (w <? 2 ^ 15); lia.
    - (* rev16 *)
      destruct (cellok d) eqn:Hd; [|discriminate]. destruct (isv k m) eqn:Hm; [|discriminate]. cbn [andb] in H. inv H.
      split; [apply good_var; auto|]. exists []. intros mm e R. cbn [run1]. eexists. split; [reflexivity|].
      destruct (isv_val _ _ _ _ m R Hm) as (_ & _ & V). rewrite rev16_ok by apply (l_f _ _ _ _ R).
      unfold KArmPerm.rev16. eapply out_var; [exact Hg|exact R|exact Hd| | |reflexivity|reflexivity|reflexivity].
      + apply lor_lt; [apply wshl_lt|]. apply land_lt, shr_lt, (l_f _ _ _ _ R).
      + cbn [eval]. rewrite <- V. reflexivity.
    - (* bfi *)
      destruct (cellok d) eqn:Hd; [|discriminate]. destruct (isv k m) eqn:Hm; [|discriminate]. destruct (isv k d) eqn:Hd2; [|discriminate].
      cbn [andb] in H. inv H.
      split; [apply good_var; auto|]. exists []. intros mm e R. cbn [run1]. eexists. split; [reflexivity|].
      destruct (isv_val _ _ _ _ m R Hm) as (_ & _ & V). destruct (isv_val _ _ _ _ d R Hd2) as (_ & _ & V2).
      rewrite <- !wtrunc_mod. rewrite <- (lor_add (wtrunc 16 (rf mm d)) (wtrunc 16 (rf mm m))) by apply wtrunc_lt.
      unfold KArmPerm.bfi16. eapply out_var; [exact Hg|exact R|exact Hd| | |reflexivity|reflexivity|reflexivity].
      + apply lor_lt; [apply t16_32|apply wshl_lt].
      + cbn [eval]. rewrite <- V, <- V2. reflexivity.
    - (* ldr, ldrh *)
      destruct n as [|[|[|[|[|n]]]]]; try discriminate.
      + destruct (nth b k Junk) as [|X o| |o|] eqn:E; try discriminate.
        * destruct (lane 2 (o + off)) eqn:Hl; [|discriminate]. apply asg_inv in H as (Hd & _ & -> & ->).
          split; [apply good_var; auto|]. eexists [_]. intros m e R. cbn [run1].
          rewrite (ld2 k b off X o m e R E (lt_nth k b _ Hg E ltac:(discriminate)) Hl). eexists. split; [reflexivity|].
          eapply out_var; try reflexivity; auto.
          pose proof (l_r _ _ _ _ R b (lt_nth k b _ Hg E ltac:(discriminate))) as Q. rewrite E in Q.
          destruct (at_ok X o (rf m b) 2 off Q Hl ltac:(auto)) as (l & El & HX & E2 & H50 & _).
          rewrite <- El. cbn [eval]. rewrite <- (lane_val _ _ _ _ X l R HX) by lia. eapply N.lt_trans; [apply hw_lt, (l_g _ _ _ _ R)|reflexivity].
        * destruct (N.eqb_spec (o + off) rco) as [Ho|]; [|discriminate]. apply asg_inv in H as (Hd & _ & -> & ->).
          split; [apply good_var; auto|]. eexists [_]. intros m e R. cbn [run1].
          rewrite (ldrc k b off o m e R E (lt_nth k b _ Hg E ltac:(discriminate)) Ho). eexists. split; [reflexivity|].
          eapply out_var; try reflexivity; auto.
          cbn [eval]. change KArmPerm.aRC with 63%nat. rewrite (l_C _ _ _ _ R). eapply N.lt_trans; [apply hw_lt, (l_g _ _ _ _ R)|reflexivity].
      + destruct (nth b k Junk) as [|X o| |o|] eqn:E; try discriminate. assert (Hu : una = true) by (clear - H; destruct una; [reflexivity|discriminate]). rewrite Hu in H at 1. cbn [andb] in H.
        destruct (lane 4 (o + off)) eqn:Hl; [|discriminate]. destruct (cellok d) eqn:Hd; [|discriminate]. cbn [andb] in H.
        injection H as <- <-. split; [apply good_var; auto|]. eexists [_]. intros m e R. cbn [run1].
        destruct (ld4 k b off X o m e Hu R E (lt_nth k b _ Hg E ltac:(discriminate)) Hl) as [Q1 Q2]. rewrite Q1. eexists. split; [reflexivity|].
        unfold KArmPerm.ldr. eapply out_var; try reflexivity; auto.
    - (* strh *)
      destruct n as [|[|[|n]]]; try discriminate. destruct (nth b k Junk) as [|X o| |o|] eqn:E; try discriminate.
      destruct (lane 2 (o + off)) eqn:Hl; [|discriminate]. destruct (isv k s) eqn:Hs; [|discriminate]. cbn [andb] in H. inv H.
      split; [exact Hg|]. exists [St (bs X + 2 * N.of_nat (N.to_nat ((o + off) / 2))) 2]. intros m e R. cbn [run1].
      pose proof (l_r _ _ _ _ R b (lt_nth k b _ Hg E ltac:(discriminate))) as Q. rewrite E in Q.
      destruct (at_ok X o (rf m b) 2 off Q Hl ltac:(auto)) as (l & El & HX & E2 & H50 & Ea & Hw & Hm & Hrw).
      rewrite store_ok; [|apply al2; auto|].
      2: { rewrite addrs_2 by lia. intros x [<- | [<- | []]]; [|apply Hrw; reflexivity].
           replace (w32 (rf m b + off)) with (w32 (rf m b + off) + 0) by lia. apply Hrw. reflexivity. }
      eexists. split; [reflexivity|]. destruct (isv_val _ _ _ _ s R Hs) as (_ & _ & V).
      destruct (rel_strh k (rf m) (me m) e X l (rf m s) R Hg HX ltac:(lia)) as [R1 F1]. rewrite <- El. rewrite Ea.
      split; [|split; [reflexivity|exact F1]]. unfold KArmPerm.strh, Prog.run. cbn [fold_left Prog.step eval see setm rf me]. rewrite <- V. exact R1.
    - (* ldrh with writeback *)
      destruct n as [|[|[|n]]]; try discriminate. destruct (nth b k Junk) as [|X o| |o|] eqn:E; try discriminate.
      destruct (N.eqb_spec o rco) as [Ho|]; [|discriminate]. destruct (cellok d) eqn:Hd; [|discriminate].
      destruct (Nat.eqb_spec d b) as [|Hn]; [discriminate|]. destruct (N.leb_spec off 2) as [Hoff|]; [|discriminate]. cbn [andb negb] in H. inv H.
      pose proof (lt_nth k b _ Hg E ltac:(discriminate)) as Hb.
      split; [apply good_var; auto; apply good_known; auto; discriminate|]. eexists [_]. intros m e R. cbn [run1].
      pose proof (ldrc k b 0 o m e R E Hb ltac:(lia)) as L. rewrite N.add_0_r in L. rewrite (w32_id (rf m b)) in L by apply (l_f _ _ _ _ R).
      rewrite L. eexists. split; [reflexivity|].
      pose proof (l_r _ _ _ _ R b Hb) as Q. rewrite E in Q. cbn [holdsk] in Q.
      assert (W : w32 (rf m b + off) = tp + (o + off)).
      { rewrite w32_id; destruct G as [_ _ _ _ _ _ _ _ Gt _ _ _]; lia. }
      assert (R1 : rel (upd_nth k b (Tab (o + off))) (set (rf m) b (w32 (rf m b + off))) (me m) e).
      { apply rel_known; auto; try apply Hg; try discriminate. apply w32_lt. }
      split; [|split; [reflexivity|auto]]. unfold Prog.run. cbn [fold_left Prog.step eval see setr rf me].
      apply rel_var; auto; try (rewrite upd_nth_length; apply Hg).
      + change KArmPerm.aRC with 63%nat. rewrite (l_C _ _ _ _ R). eapply N.lt_trans; [apply hw_lt, (l_g _ _ _ _ R)|reflexivity].
      + intros r Hr1 Hr2 Hr3. apply (good_known k b (Tab (o + off)) Hg ltac:(discriminate)). exact Hr3.
    - (* ldm *)
      destruct (nth b k Junk) as [|X o| |o|] eqn:E; try discriminate.
      destruct (N.eqb_spec (o mod 4) 0) as [Ho|]; [|discriminate]. destruct (N.leb_spec (o + words ds) 50) as [Hw|]; [|discriminate].
      destruct (forallb cellok ds) eqn:Hc; [|discriminate]. destruct (existsb (Nat.eqb b) ds) eqn:Hx; [discriminate|]. cbn [andb negb] in H. inv H.
      pose proof (lt_nth k b _ Hg E ltac:(discriminate)) as Hb.
      assert (HoL : exists l, N.to_nat (o / 2) = l /\ o = 2 * N.of_nat l /\ Nat.even l = true).
      { exists (N.to_nat (o / 2)). split; [reflexivity|]. split; [clear - Ho; lia|]. apply Nat.even_spec. exists (N.to_nat (o / 4)). clear - Ho. lia. }
      destruct HoL as (l & El & Eo & He). rewrite El. unfold words in *.
      assert (Hnb : ~ List.In b ds).
      { intros Hi. rewrite (proj2 (existsb_exists _ ds)) in Hx; [discriminate|]. exists b. split; [exact Hi|apply Nat.eqb_refl]. }
      assert (KK : forall m e, rel k (rf m) (me m) e -> (X = 0 \/ X = 25)%nat /\ rf m b = bs X + 2 * N.of_nat l).
      { intros m e R. pose proof (l_r _ _ _ _ R b Hb) as Q. rewrite E in Q. destruct Q as [_ [[-> Q]|[-> Q]]]; rewrite Q, <- Eo; auto. }
      set (k1 := fold_left (fun k d => upd_nth k d Var) ds k).
      assert (HX : (X = 0 \/ X = 25)%nat \/ ~ (X = 0 \/ X = 25)%nat) by lia. destruct HX as [HX|HX].
      + destruct (ldms_ok X ds HX l k Hg Hc ltac:(lia) He) as (Hg1 & evs & Hm). fold k1 in Hg1, Hm.
        split; [apply good_known; auto; discriminate|]. exists evs. intros m e R. destruct (KK m e R) as [_ Eb]. cbn [run1]. rewrite Eb.
        destruct (Hm m e R) as (m' & Em & O & Kb). rewrite Em. cbn [optmap]. eexists. split; [reflexivity|].
        destruct O as (R1 & T1 & F1). split; [|split; [exact T1|exact F1]]. cbn [setr rf me].
        destruct G as [_ _ Gs Gf _ _ _ _ _ _ _ _].
        assert (Bw : bs X + 2 * N.of_nat l + words ds < 2 ^ 32) by (unfold words; destruct HX as [-> | ->]; cbn [Nat.eqb]; lia).
        apply rel_known; auto; try apply Hg1; try discriminate; [|apply w32_lt]. rewrite w32_id by exact Bw. cbn [holdsk].
        split; [unfold words; lia|]. destruct HX as [-> | ->]; cbn [Nat.eqb]; [left|right]; (split; [reflexivity|unfold words; lia]).
      + split.
        { apply good_known; [|discriminate]. unfold k1. clear - Hg Hc. revert k Hg. induction ds as [|d ds IH]; intros k Hg; [exact Hg|].
          cbn [forallb fold_left] in *. apply andb_true_iff in Hc as [H1 H2]. apply IH; auto. apply good_var; auto. }
        exists []. intros m e R. destruct (KK m e R) as [HX' _]. now elim HX.
    - (* stm *)
      destruct (nth b k Junk) as [|X o| |o|] eqn:E; try discriminate.
      destruct (N.eqb_spec (o mod 4) 0) as [Ho|]; [|discriminate]. destruct (N.leb_spec (o + words ds) 50) as [Hw|]; [|discriminate].
      destruct (forallb (isv k) ds) eqn:Hc; [|discriminate]. cbn [andb] in H. inv H.
      pose proof (lt_nth k b _ Hg E ltac:(discriminate)) as Hb.
      assert (HoL : exists l, N.to_nat (o / 2) = l /\ o = 2 * N.of_nat l /\ Nat.even l = true).
      { exists (N.to_nat (o / 2)). split; [reflexivity|]. split; [clear - Ho; lia|]. apply Nat.even_spec. exists (N.to_nat (o / 4)). clear - Ho. lia. }
      destruct HoL as (l & El & Eo & He). rewrite El. unfold words in *.
      assert (KK : forall m e, rel k (rf m) (me m) e -> (X = 0 \/ X = 25)%nat /\ rf m b = bs X + 2 * N.of_nat l).
      { intros m e R. pose proof (l_r _ _ _ _ R b Hb) as Q. rewrite E in Q. destruct Q as [_ [[-> Q]|[-> Q]]]; rewrite Q, <- Eo; auto. }
      split; [apply good_known; auto; discriminate|].
      assert (HX : (X = 0 \/ X = 25)%nat \/ ~ (X = 0 \/ X = 25)%nat) by lia. destruct HX as [HX|HX].
      + destruct (stms_ok X k ds Hg HX l Hc ltac:(lia) He) as (evs & Hm).
        exists evs. intros m e R. destruct (KK m e R) as [_ Eb]. cbn [run1]. rewrite Eb.
        destruct (Hm m e R) as (m' & Em & O & Kb). rewrite Em. cbn [optmap]. eexists. split; [reflexivity|].
        destruct O as (R1 & T1 & F1). split; [|split; [exact T1|exact F1]]. cbn [setr rf me].
        destruct G as [_ _ Gs Gf _ _ _ _ _ _ _ _].
        assert (Bw : bs X + 2 * N.of_nat l + words ds < 2 ^ 32) by (unfold words; destruct HX as [-> | ->]; cbn [Nat.eqb]; lia).
        apply rel_known; auto; try apply Hg; try discriminate; [|apply w32_lt]. rewrite w32_id by exact Bw. cbn [holdsk].
        split; [unfold words; lia|]. destruct HX as [-> | ->]; cbn [Nat.eqb]; [left|right]; (split; [reflexivity|unfold words; lia]).
      + exists []. intros m e R. destruct (KK m e R) as [HX' _]. now elim HX.
  Qed.

  Lemma trs_sound is : forall k k' p, good k -> trs una rco k is = Some (k', p) ->
    good k' /\ exists evs, forall m e, rel k (rf m) (me m) e -> exists m', runs_is una rd wr tab is m = Some m' /\ out k' p evs m m' e.
  Proof.
    induction is as [|i is IH]; intros k k' p Hg H; cbn [trs] in H.
    - inv H. split; [exact Hg|]. exists []. intros m e R. exists m. split; [reflexivity|apply out_nil; exact R].
    - destruct (tr una rco k i) as [[k1 p1]|] eqn:E1; [|discriminate]. destruct (trs una rco k1 is) as [[k2 p2]|] eqn:E2; [|discriminate]. inv H.
      destruct (tr_sound k i k1 p1 Hg E1) as (Hg1 & ev1 & H1). destruct (IH k1 k2 p2 Hg1 E2) as (Hg2 & ev2 & H2).
      split; [exact Hg2|]. exists (ev2 ++ ev1). intros m e R. destruct (H1 m e R) as (m1 & Em1 & O1). destruct (H2 m1 _ (proj1 O1)) as (m2 & Em2 & O2).
      exists m2. split; [cbn [runs_is]; rewrite Em1; exact Em2|]. exact (out_trans _ _ _ _ _ _ _ _ _ _ O1 O2).
  Qed.
End Sound.
