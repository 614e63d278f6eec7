(* Facts about the specification itself, for the four instances. Proofs only. *)
From Verif Require Import Base Prog SpecPerm Words RefPerm AsconProof KeccakProof Mem Vocab MemProof RefLib.
From Verif Require Import Spec Sponge RefProof RefAead.
Open Scope N_scope.

Definition cf0 : cfg := Cfg true false (fun _ => 0).

Definition v_maxr (v : variant) : nat := match v with A128A | A128 => 12 | _ => 20 end.

Lemma v_libok v cf : lib_ok (v_lib v cf) (i_sz (v_inst v)) (i_perm (v_inst v)) (v_maxr v) (v_loc v cf).
Proof. destruct v; first [exact (ascon_lib_ok cf) | exact (keccak_lib_ok cf)]. Qed.

Lemma v_macok v : mac_ok (v_inst v) (v_macros v) (v_maxr v).
Proof. destruct v; constructor; cbn; reflexivity || lia. Qed.

Section V.
  Variable v : variant.
  Notation I := (v_inst v).
  Notation HL := (v_libok v cf0).
  Notation Hmc := (v_macok v).

  Lemma v_rate : (0 < i_rate I)%nat.
  Proof. destruct v; cbn; lia. Qed.

  Lemma v_enc_length K Nn T : length K = 16%nat -> length Nn = 16%nat -> bytes K -> bytes Nn ->
    length (isap_enc I K Nn T) = length T.
  Proof. exact (enc_length _ _ _ _ _ HL Hmc K Nn T). Qed.

  Lemma v_enc_bytes K Nn T : length K = 16%nat -> length Nn = 16%nat -> bytes K -> bytes Nn -> bytes T ->
    bytes (isap_enc I K Nn T).
  Proof. exact (enc_bytes _ _ _ _ _ HL Hmc K Nn T). Qed.

  Lemma v_mac K Nn A C : length K = 16%nat -> length Nn = 16%nat -> bytes K -> bytes Nn -> bytes A -> bytes C ->
    bytes (isap_mac I K Nn A C) /\ length (isap_mac I K Nn A C) = 16%nat.
  Proof. exact (mac_length _ _ _ _ _ HL Hmc K Nn A C). Qed.

  (* The keystream. *)
  Definition v_ks (K Nn : list N) (i : nat) : N :=
    ks_byte (i_rate I) (i_perm I (i_sE I)) (isap_rk I K (iv_KE I) Nn (i_sz I - 16) ++ Nn) i.

  Lemma v_enc_spec K Nn T : length K = 16%nat -> length Nn = 16%nat -> bytes K -> bytes Nn ->
    isap_enc I K Nn T = map (fun i => N.lxor (nth i T 0) (v_ks K Nn i)) (seq 0 (length T)).
  Proof. exact (isap_enc_spec _ _ _ _ _ HL Hmc K Nn T). Qed.

  Lemma v_enc_nth K Nn T i : length K = 16%nat -> length Nn = 16%nat -> bytes K -> bytes Nn -> (i < length T)%nat ->
    nth i (isap_enc I K Nn T) 0 = N.lxor (nth i T 0) (v_ks K Nn i).
  Proof.
    intros. rewrite v_enc_spec by auto. rewrite (nth_map_lt _ _ _ 0%nat) by (now rewrite seq_length).
    now rewrite seq_nth.
  Qed.

  Lemma v_enc_invol K Nn T : length K = 16%nat -> length Nn = 16%nat -> bytes K -> bytes Nn ->
    isap_enc I K Nn (isap_enc I K Nn T) = T.
  Proof.
    intros. apply (nth_ext_le _ _ 0); [now rewrite !v_enc_length|].
    intros i Hi. rewrite !v_enc_length in Hi by auto.
    rewrite !v_enc_nth; rewrite ?v_enc_length; auto.
    now rewrite N.lxor_assoc, N.lxor_nilpotent, N.lxor_0_r.
  Qed.

  Section Keyed.
    Variables K Nn A : list N.
    Hypotheses (LK : length K = 16%nat) (LN : length Nn = 16%nat) (BK : bytes K) (BN : bytes Nn) (BA : bytes A).

    Lemma v_encrypt_length T : bytes T -> length (isap_encrypt I K Nn A T) = (length T + 16)%nat.
    Proof.
      intros BT. unfold isap_encrypt. rewrite app_length, v_enc_length by auto.
      destruct (v_mac K Nn A (isap_enc I K Nn T)); auto. now apply v_enc_bytes.
    Qed.

    Lemma v_encrypt_bytes T : bytes T -> bytes (isap_encrypt I K Nn A T).
    Proof.
      intros BT. unfold isap_encrypt. apply bytes_app. split; [now apply v_enc_bytes|].
      apply v_mac; auto. now apply v_enc_bytes.
    Qed.

    (* Splitting a ciphertext. *)
    Lemma v_decrypt_app C t : length t = 16%nat ->
      isap_decrypt I K Nn A (C ++ t) = if list_eq_dec N.eq_dec t (isap_mac I K Nn A C) then Some (isap_enc I K Nn C) else None.
    Proof.
      clear LK LN BK BN BA. intros Ht. unfold isap_decrypt. rewrite app_length, Ht.
      replace (length C + 16 <? 16)%nat with false by lia.
      replace (length C + 16 - 16)%nat with (length C) by lia.
      now rewrite firstn_app, Nat.sub_diag, firstn_all, firstn_O, app_nil_r, skipn_app, Nat.sub_diag, skipn_all, skipn_O.
    Qed.

    Lemma v_decrypt_encrypt T : bytes T -> isap_decrypt I K Nn A (isap_encrypt I K Nn A T) = Some T.
    Proof.
      intros BT. unfold isap_encrypt. rewrite v_decrypt_app.
      - destruct (list_eq_dec _ _ _) as [_|]; [|congruence]. now rewrite v_enc_invol.
      - apply v_mac; auto. now apply v_enc_bytes.
    Qed.

    Lemma v_decrypt_length Y T : isap_decrypt I K Nn A Y = Some T -> length T = (length Y - 16)%nat.
    Proof.
      unfold isap_decrypt. destruct (Nat.ltb_spec (length Y) 16); [discriminate|].
      destruct (list_eq_dec _ _ _) as [_|]; [|discriminate]. intros E. injection E as <-.
      rewrite v_enc_length, firstn_length by auto. lia.
    Qed.

    (* Decryption accepts only what encryption produces. *)
    Lemma v_decrypt_Some Y T : bytes Y -> isap_decrypt I K Nn A Y = Some T ->
      bytes T /\ Y = isap_encrypt I K Nn A T.
    Proof.
      intros BY. unfold isap_decrypt. destruct (Nat.ltb_spec (length Y) 16); [discriminate|].
      destruct (list_eq_dec _ _ _) as [E|]; [|discriminate]. intros F. injection F as <-.
      split; [apply v_enc_bytes; auto; now apply bytes_firstn|].
      unfold isap_encrypt. rewrite v_enc_invol by auto. rewrite <- E. now rewrite firstn_skipn.
    Qed.

    Lemma v_encrypt_split T : bytes T ->
      firstn (length T) (isap_encrypt I K Nn A T) = isap_enc I K Nn T /\
      skipn (length T) (isap_encrypt I K Nn A T) = isap_mac I K Nn A (isap_enc I K Nn T).
    Proof.
      intros BT. unfold isap_encrypt. rewrite <- (v_enc_length K Nn T) by auto.
      now rewrite firstn_app, Nat.sub_diag, firstn_all, firstn_O, app_nil_r, skipn_app, Nat.sub_diag, skipn_all, skipn_O.
    Qed.
  End Keyed.
End V.
