(** Lemmas: the start values of the shipped distributions do not depend on the order of the
    responses. *)
From Coq Require Import Reals List Bool Arith Permutation Lra Lia.
From Verif Require Import Base Lin Data M_Gram M_OLS M_CD M_Path M_Ridge M_Scaler M_Utils M_Links M_DistTable M_Dist M_Init M_State M_LM M_Equation M_GAMLSS M_GAMDist.
From Verif Require Import S_Rows S_Units S_Order L_Order1 L_Order2 L_Order3.
Import ListNotations.
Open Scope R_scope.

Lemma total_perm l l' : Permutation l l' -> total l = total l'.
Proof. induction 1; cbn; try lra. unfold total in *. cbn. lra. Qed.
Lemma mean_perm l l' : Permutation l l' -> M_Init.np_mean l = M_Init.np_mean l'.
Proof. intros H. unfold M_Init.np_mean. now rewrite (total_perm _ _ H), (Permutation_length H). Qed.
Lemma var_perm d l l' : Permutation l l' -> np_var d l = np_var d l'.
Proof.
  intros H. unfold np_var. rewrite (mean_perm _ _ H), (Permutation_length H). destruct (M_Init.np_mean l') as [m|]; [|reflexivity]. cbn [obind].
  now rewrite (total_perm _ _ (Permutation_map (fun x => (x - m) ^ 2) H)).
Qed.
Lemma std_perm d l l' : Permutation l l' -> np_std d l = np_std d l'.
Proof. intros H. unfold np_std. now rewrite (var_perm d _ _ H). Qed.
Lemma insert_insert x y l : insert x (insert y l) = insert y (insert x l).
Proof.
  destruct (Req_dec x y) as [->|N]; [reflexivity|].
  assert (T : forall a b, a <= b -> Rleb a b = true) by (intros a b; unfold Rleb; destruct (Rle_dec a b); easy).
  assert (F : forall a b, b < a -> Rleb a b = false) by (intros a b; unfold Rleb; destruct (Rle_dec a b); lra).
  induction l as [|z l IH]; cbn [insert].
  - destruct (Rlt_le_dec x y); [rewrite (T x y), (F y x) by lra|rewrite (F x y), (T y x) by lra]; reflexivity.
  - destruct (Rlt_le_dec z x), (Rlt_le_dec z y).
    + rewrite (F x z), (F y z) by lra. cbn [insert]. rewrite (F x z), (F y z) by lra. now f_equal.
    + rewrite (F x z), (T y z) by lra. cbn [insert]. rewrite (F x y), (F x z), (T y z) by lra. reflexivity.
    + rewrite (T x z), (F y z) by lra. cbn [insert]. rewrite (T x z), (F y x), (F y z) by lra. reflexivity.
    + rewrite (T x z), (T y z) by lra. cbn [insert].
      destruct (Rlt_le_dec x y); [rewrite (T x y), (F y x), (T y z) by lra|rewrite (F x y), (T y x), (T x z) by lra]; reflexivity.
Qed.
Lemma sorted_perm l l' : Permutation l l' -> sorted l = sorted l'.
Proof.
  induction 1; unfold sorted in *; cbn; try congruence. apply insert_insert.
Qed.
Lemma median_perm l l' : Permutation l l' -> np_median l = np_median l'.
Proof. intros H. unfold np_median. now rewrite (sorted_perm _ _ H), (Permutation_length H). Qed.
Lemma logs_perm l l' : Permutation l l' ->
  match np_logs l, np_logs l' with Some a, Some b => Permutation a b | None, None => True | _, _ => False end.
Proof.
  induction 1; cbn.
  - constructor.
  - destruct (nplog x) as [a|]; cbn; [|exact I]. destruct (np_logs l), (np_logs l'); cbn in *; auto.
  - destruct (nplog x) as [a|], (nplog y) as [b|]; cbn; try exact I;
      destruct (np_logs l); cbn; try exact I; try constructor.
  - destruct (np_logs l), (np_logs l'), (np_logs l''); cbn in *; try easy. eapply Permutation_trans; eassumption.
Qed.
Lemma obind_logs {B} (f : list R -> option B) l l' : (forall a b, Permutation a b -> f a = f b) -> Permutation l l' ->
  obind (np_logs l) f = obind (np_logs l') f.
Proof.
  intros Hf H. pose proof (logs_perm _ _ H) as K. destruct (np_logs l), (np_logs l'); cbn; try easy. now apply Hf.
Qed.
Lemma initial_values_perm ft fj g d l l' y : (forall a b, Permutation a b -> ft a = ft b) -> (forall a b, Permutation a b -> fj a = fj b) ->
  Permutation l l' -> initial_values ft fj g d l y = initial_values ft fj g d l' y.
Proof.
  intros Ht Hj H.
  pose proof (fun k => std_perm k _ _ H) as HS. pose proof (fun k => var_perm k _ _ H) as HV.
  destruct d; cbn [initial_values]; rewrite ?(mean_perm _ _ H), ?HS, ?HV; try reflexivity.
  - now rewrite (obind_logs _ _ _ mean_perm H), (obind_logs _ _ _ (std_perm 1) H).
  - now rewrite (obind_logs _ _ _ median_perm H), (obind_logs _ _ _ (std_perm 0) H).
  - destruct g; [reflexivity|]. now rewrite (Hj _ _ H).
  - now rewrite (Ht _ _ H).
Qed.
Lemma shipped_exchangeable lg dg tg ft fj g ppf cond d links :
  (forall a b, Permutation a b -> ft a = ft b) -> (forall a b, Permutation a b -> fj a = fj b) ->
  exchangeable_start (shipped lg dg tg ft fj g ppf cond d links).
Proof.
  intros Ht Hj. eexists (fun l y => match all_some (initial_values ft fj g d l y) with
       | Ok row => Some (fun k => nth k row 0) | Raise _ => None end).
  split; [|reflexivity]. intros l l' y H. now rewrite (initial_values_perm ft fj g d l l' y Ht Hj H).
Qed.
Lemma scalar_never_forgets {M} (c : gam_cfg M) : o_forget c = Scalar 0 -> never_forgets c.
Proof.
  intros H pr ms E p. unfold prepare in E. rewrite H in E.
  repeat match type of E with bind ?m _ = _ => destruct m eqn:?; cbn [bind] in E; [|discriminate] end.
  injection E as <- <-. cbn [p_forget process_parameter fst]. unfold entry.
  generalize (seq 0 (d_n (o_dist c))). intros l.
  induction l as [|v l IHl]; cbn; [reflexivity|]. destruct (Nat.eqb v p); [reflexivity|exact IHl].
Qed.

Lemma C112_history_lemma M (ops : method_ops M) c b bs b' bs' s : keeps_gramian ops ->
  never_forgets c -> o_cond_start c = false -> exchangeable_start (o_dist c) ->
  Forall2 reordered (b :: bs) (b' :: bs') -> Forall (fun d => weights_nonneg (b_rows d)) (b :: bs) -> Forall (selection_ok ops c) bs ->
  gam_history ops c (b :: bs) new_gam = Ok s ->
  exists s', gam_history ops c (b' :: bs') new_gam = Ok s' /\ learned_same s s' /\
    forall r p X, snd (predict_parameters c r p X s') = snd (predict_parameters c r p X s).
Proof.
  intros [Hi Hu]. apply history_reordered.
  - intros k q X w HL. rewrite !Hi. now rewrite init_gram_swap.
  - intros k q x0 X w HL. rewrite !Hu. now rewrite update_gram_swap.
Qed.
Lemma C112_ols_fit_lemma inv c b b' s : never_forgets c -> o_cond_start c = false -> exchangeable_start (o_dist c) ->
  reordered b b' -> weights_nonneg (b_rows b) -> gam_history (ols_ops inv) c [b] new_gam = Ok s ->
  exists s', gam_history (ols_ops inv) c [b'] new_gam = Ok s' /\ learned_same s s' /\
    forall r p X, snd (predict_parameters c r p X s') = snd (predict_parameters c r p X s).
Proof.
  intros Hnf Hc Hex Hr Hw H. cbn [gam_history] in *. unfold gpartial_fit in *. cbn [gis_fitted s_nobs new_gam] in *.
  destruct (gam_fit (ols_ops inv) c b new_gam) as [t [[]|]] eqn:E; [|discriminate]. injection H as <-.
  destruct (fit_reordered (ols_ops inv) c b b' new_gam new_gam t) as (t' & E' & HL & HS); auto.
  { intros k q X w HL. cbn [op_init_x ols_ops]. unfold init_inverted_gram. now rewrite init_gram_swap. }
  rewrite E'. exists t'. split; [reflexivity|]. split; [exact HL|]. intros r p X. now apply learned_predict.
Qed.
Lemma C112_denominator_ok_lemma l : forall a n, 0 < a -> Forall (fun v => 0 < v) l -> INR (length l) <= n -> 0 < online_mean_update a l 0 n.
Proof.
  induction l as [|v l IH]; intros a n Ha Hl Hn; cbn [online_mean_update]; [exact Ha|].
  inversion Hl; subst. cbn [length] in Hn. rewrite S_INR in Hn. apply IH; auto; [|lra].
  rewrite omu1 by lra. apply Rdiv_lt_0_compat; [|lra].
  assert (0 <= a * (n - INR (length l) - 1)) by (apply Rmult_le_pos; lra). lra.
Qed.
Lemma C112_denominator_lemma n v : 0 < n < 1 -> 0 < v -> exists a, 0 < a /\ online_mean_update a [v] 0 n < 0.
Proof.
  intros Hn Hv. exists (2 * v / (1 - n)). split.
  - apply Rdiv_lt_0_compat; lra.
  - cbn [online_mean_update length INR]. rewrite omu1 by lra. rewrite Rminus_0_r.
    replace (2 * v / (1 - n) * (n - 1) + v) with (- v) by (field; lra).
    apply Rmult_lt_reg_r with n; [lra|]. unfold Rdiv. rewrite Rmult_assoc, Rinv_l by lra. lra.
Qed.
