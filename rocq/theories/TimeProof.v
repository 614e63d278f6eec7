(* The script tests/time_all.sh. Proofs only. *)
From Coq Require Import Ascii String.
From Verif Require Import Base Script VocabScript ScriptProof Timeall VocabTime.
Open Scope nat_scope.
Open Scope string_scope.

Lemma one_word_none s : one_word s = none blank s.
Proof. induction s as [|c s IH]; cbn; congruence. Qed.
Lemma none_space s : none blank s = true -> none space s = true.
Proof.
  induction s as [|c s IH]; cbn [none]; [reflexivity|]. intros H. apply andb_true_iff in H. destruct H as [H1 H2]. rewrite (IH H2), andb_true_r.
  unfold blank in H1. unfold space. now destruct (Ascii.eqb c " ").
Qed.

Lemma pieces_app p a c b : p c = true -> pieces p (a ++ String c b) = (pieces p a ++ pieces p b)%list.
Proof.
  intros Hc. induction a as [|x a IH]; cbn [append pieces]; [now rewrite Hc|]. rewrite IH. destruct (p x); [reflexivity|].
  destruct (pieces p a) eqn:E; [|reflexivity]. destruct a as [|y a]; cbn [pieces] in E; [discriminate|]. destruct (p y); [discriminate|].
  destruct (pieces p a); discriminate.
Qed.
Lemma words_app a c b : blank c = true -> words (a ++ String c b) = (words a ++ words b)%list.
Proof. intros Hc. unfold words. now rewrite pieces_app, filter_app. Qed.
Lemma words_one s : s <> "" -> none blank s = true -> words s = [s].
Proof. intros Hn Hs. unfold words. rewrite pieces_none by assumption. cbn [filter]. unfold nonempty. apply String.eqb_neq in Hn. now rewrite Hn. Qed.

Lemma all_nl_app a b : all_nl (a ++ b) = all_nl a && all_nl b.
Proof. induction a as [|x a IH]; cbn; [reflexivity|]. now rewrite IH, andb_assoc. Qed.
Lemma strip_nl s c : c <> "010"%char -> strip (s ++ String c nl) = s ++ String c "".
Proof.
  intros Hc. assert (E : Ascii.eqb c "010" = false) by now apply Ascii.eqb_neq. induction s as [|x s IH].
  - cbn. now rewrite E.
  - cbn [append strip]. rewrite IH. cbn [all_nl]. rewrite all_nl_app. cbn [all_nl]. rewrite E. cbn [andb]. now rewrite !andb_false_r.
Qed.
Lemma last_char s : s <> "" -> exists a c, s = a ++ String c "".
Proof.
  induction s as [|x s IH]; [congruence|]. intros _. destruct s as [|y s]; [now exists "", x|].
  destruct IH as (a & c & E); [discriminate|]. exists (String x a), c. cbn. now rewrite E.
Qed.

Lemma concat_snoc l x : l <> [] -> String.concat " " (l ++ [x])%list = String.concat " " l ++ " " ++ x.
Proof.
  induction l as [|a l IH]; [congruence|]. intros _. destruct l as [|b l]; [reflexivity|].
  change (String.concat " " ((a :: b :: l) ++ [x])%list) with (a ++ " " ++ String.concat " " ((b :: l) ++ [x])%list).
  rewrite IH by discriminate. change (String.concat " " (a :: b :: l)) with (a ++ " " ++ String.concat " " (b :: l)). now rewrite !sapp_assoc.
Qed.

Lemma time_words t : timed t ->
  words (strip (time_text t)) = (words (said t) ++ ["real"; t_real t; "user"; t_user t; "sys"; t_sys t])%list.
Proof.
  intros H. destruct (H (t_real t)) as [R1 R2]; [cbn; auto|]. destruct (H (t_user t)) as [U1 U2]; [cbn; auto|].
  destruct (H (t_sys t)) as [S1 S2]; [cbn; auto|]. rewrite one_word_none in R2, U2, S2.
  assert (E : strip (time_text t) = said t ++ nl ++ "real" ++ tab ++ t_real t ++ nl ++ "user" ++ tab ++ t_user t ++ nl ++ "sys" ++ tab ++ t_sys t).
  { unfold time_text. destruct (last_char _ S1) as (a & c & Es). rewrite Es in S2 |- *. rewrite none_app in S2. apply andb_true_iff in S2. destruct S2 as [_ S2].
    assert (Hc : c <> "010"%char) by (intros ->; discriminate).
    set (z := said t ++ nl ++ "real" ++ tab ++ t_real t ++ nl ++ "user" ++ tab ++ t_user t ++ nl ++ "sys" ++ tab ++ a).
    transitivity (strip (z ++ String c nl)).
    - unfold z. now rewrite !sapp_assoc.
    - rewrite strip_nl by assumption. unfold z. now rewrite !sapp_assoc. }
  rewrite E. unfold nl, tab. cbn [append].
  rewrite words_app by reflexivity. f_equal.
  change (words ("real" ++ String "009" (t_real t ++ String "010" ("user" ++ String "009" (t_user t ++ String "010" ("sys" ++ String "009" (t_sys t)))))) =
    ["real"; t_real t; "user"; t_user t; "sys"; t_sys t]).
  rewrite !words_app by reflexivity. rewrite !(words_one (t_real t)), !(words_one (t_user t)), !(words_one (t_sys t)) by assumption. reflexivity.
Qed.

Lemma time_line_ok t : timed t -> time_line t = t_user t.
Proof.
  intros H. unfold time_line. rewrite time_words by assumption. destruct (H (t_user t)) as [U1 U2]; [cbn; auto|].
  destruct (H (t_sys t)) as [S1 S2]; [cbn; auto|]. rewrite one_word_none in U2, S2.
  set (l := (words (said t) ++ ["real"; t_real t; "user"])%list).
  replace (words (said t) ++ _)%list with (((l ++ [t_user t]) ++ ["sys"]) ++ [t_sys t])%list by (unfold l; now rewrite <- !app_assoc).
  unfold echo. rewrite concat_snoc by (now destruct l). rewrite concat_snoc by (now destruct l).
  rewrite concat_snoc by (unfold l; now destruct (words (said t))).
  rewrite !srev_app. cbn [srev append]. rewrite !sapp_assoc. cbn [append]. unfold cut_sp.
  rewrite pieces_sep by (try reflexivity; rewrite none_srev; now apply none_space).
  match goal with |- context [pieces space (String "s" ?x)] => set (x0 := x) end.
  assert (E : pieces space (String "s" x0) = "sys" :: srev (t_user t) :: pieces space (srev (String.concat " " l))).
  { subst x0. cbn [pieces]. change (space "s") with false. change (space "y") with false. change (space " ") with true. cbv iota.
    rewrite pieces_sep by (try reflexivity; rewrite none_srev; now apply none_space). reflexivity. }
  rewrite E. cbn [nth Nat.sub]. apply srev_srev.
Qed.

(* The lines when the file bulk is e d in the iteration of directory d. *)
Lemma loop_ok gcc at_ (e : string -> option string) (Inv : option string -> Prop) l b : (forall d x, timed (at_ d x)) ->
  (forall d x, In d l -> Inv x -> gcc_bulk d (gcc d) x = e d /\ Inv (e d)) -> Inv b ->
  fst (time_loop gcc at_ l b) = flat_map (fun d => [d; t_user (at_ d (e d))]) l.
Proof.
  intros Ht. revert b. induction l as [|d l IH]; intros b H Hb; [reflexivity|].
  cbn [time_loop flat_map app]. destruct (H d b) as [E Hi]; [now left|assumption|]. rewrite E.
  specialize (IH (e d)). destruct (time_loop gcc at_ l (e d)) as [o z]. cbn [fst] in IH |- *.
  rewrite time_line_ok by apply Ht. rewrite IH; auto. intros d' x Hd. apply H. now right.
Qed.
Lemma all_ok gcc at_ (e : string -> option string) (Inv : option string -> Prop) b : (forall d x, timed (at_ d x)) ->
  (forall d x, In d named1 -> Inv x -> gcc_bulk d (gcc d) x = e d /\ Inv (e d)) -> Inv b ->
  fst (time_all gcc at_ b) = time_output (fun d => t_user (at_ d (e d))).
Proof.
  intros Ht H Hb. unfold time_all, time_output. change time_dirs with named1. pose proof (loop_ok gcc at_ e Inv named1 b Ht H Hb) as E.
  destruct (time_loop gcc at_ named1 b) as [o z]. cbn [fst] in E |- *. now rewrite E.
Qed.

Lemma time_built gcc at_ b : (forall d x, timed (at_ d x)) -> (forall d, In d named1 -> gcc d = Compiled) ->
  fst (time_all gcc at_ b) = time_output (fun d => t_user (at_ d (Some d))).
Proof. intros Ht H. apply (all_ok gcc at_ (fun d => Some d) (fun _ => True)); auto. intros d x Hd _. now rewrite (H d Hd). Qed.

Lemma time_stale gcc at_ d0 : (forall d x, timed (at_ d x)) -> (forall d, In d named1 -> gcc d = Failed) ->
  fst (time_all gcc at_ (Some d0)) = time_output (fun d => t_user (at_ d (Some d0))).
Proof.
  intros Ht H. apply (all_ok gcc at_ (fun _ => Some d0) (fun x => x = Some d0)); auto. intros d x Hd ->. now rewrite (H d Hd).
Qed.

Lemma time_first gcc at_ b : (forall d x, timed (at_ d x)) -> gcc "crypto_aead/isapa128av20/opt_64" = Compiled ->
  (forall d, In d named1 -> d <> "crypto_aead/isapa128av20/opt_64" -> gcc d = Failed) ->
  fst (time_all gcc at_ b) = time_output (fun d => t_user (at_ d (Some "crypto_aead/isapa128av20/opt_64"))).
Proof.
  intros Ht H0 H. unfold time_all, time_output. change time_dirs with ("crypto_aead/isapa128av20/opt_64" :: tl named1).
  cbn [time_loop]. rewrite H0. cbn [gcc_bulk].
  pose proof (loop_ok gcc at_ (fun _ => Some "crypto_aead/isapa128av20/opt_64") (fun x => x = Some "crypto_aead/isapa128av20/opt_64") (tl named1)
    (Some "crypto_aead/isapa128av20/opt_64") Ht) as E.
  destruct (time_loop gcc at_ (tl named1) (Some "crypto_aead/isapa128av20/opt_64")) as [o z]. cbn [fst] in E |- *. rewrite E.
  - rewrite time_line_ok by apply Ht. reflexivity.
  - intros d x Hd ->. rewrite H; [auto|now right|]. intros ->. cbn in Hd. intuition discriminate.
  - reflexivity.
Qed.

Lemma time_missing gcc at_ : (forall d x, timed (at_ d x)) -> (forall d, In d named1 -> gcc d <> Compiled) ->
  fst (time_all gcc at_ None) = time_output (fun d => t_user (at_ d None)).
Proof.
  intros Ht H. apply (all_ok gcc at_ (fun _ => None) (fun x => x = None)); auto. intros d x Hd ->. specialize (H d Hd). now destruct (gcc d).
Qed.

Lemma loop_any gcc at_ l : NoDup l -> forall b, exists e : string -> option string,
  fst (time_loop gcc at_ l b) = flat_map (fun d => [d; time_line (at_ d (e d))]) l.
Proof.
  induction 1 as [|d l Hd _ IH]; intros b; [now exists (fun _ => None)|].
  cbn [time_loop flat_map]. destruct (IH (gcc_bulk d (gcc d) b)) as (e & E).
  exists (fun x => if String.eqb x d then gcc_bulk d (gcc d) b else e x).
  destruct (time_loop gcc at_ l (gcc_bulk d (gcc d) b)) as [o z]. cbn [fst] in E |- *. rewrite E. rewrite String.eqb_refl. cbn [app]. do 2 f_equal.
  clear - Hd. induction l as [|x l IH]; [reflexivity|]. cbn [flat_map]. rewrite IH by (intros H; apply Hd; now right). f_equal.
  destruct (String.eqb_spec x d) as [->|]; [destruct Hd; now left|reflexivity].
Qed.
Lemma nodup_dirs : NoDup time_dirs.
Proof. repeat constructor; cbn; intuition discriminate. Qed.

Lemma time_unnoticed gcc at_ b : exists at', (forall d x, exists y, at' d x = at_ d y) /\
  fst (time_all (fun _ => Compiled) at' b) = fst (time_all gcc at_ b).
Proof.
  destruct (loop_any gcc at_ _ nodup_dirs b) as (e & E). exists (fun d _ => at_ d (e d)). split; [eauto|].
  destruct (loop_any (fun _ => Compiled) (fun d _ => at_ d (e d)) _ nodup_dirs b) as (e' & E').
  unfold time_all. destruct (time_loop gcc at_ time_dirs b), (time_loop _ (fun d _ => at_ d (e d)) time_dirs b). cbn [fst] in *. now rewrite E, E'.
Qed.
