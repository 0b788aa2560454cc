(** Lemmas on parameter validation. *)
From Coq Require Import Reals List Bool Arith ZArith String Lra Lia.
From Verif Require Import Base M_State M_LM M_Equation M_Utils M_GAMLSS M_Params S_Params S_Equation L_Equation.
Import ListNotations.
Open Scope R_scope.
Open Scope string_scope.

Lemma as_number_spec v x : as_number v = Some x <-> number v x.
Proof.
  unfold number. split.
  - destruct v; cbn; try discriminate; intro H; inversion H; subst.
    + destruct b; [right; right; left | right; right; right]; auto.
    + right; left. eauto.
    + auto.
  - intros [-> | [[z [-> ->]] | [[-> ->] | [-> ->]]]]; reflexivity.
Qed.
Lemma as_integer_spec v z : as_integer v = Some z <->
  (v = VInt z \/ (v = VBool true /\ z = 1%Z) \/ (v = VBool false /\ z = 0%Z)).
Proof.
  split.
  - destruct v; cbn; try discriminate; intro H; inversion H; subst.
    + destruct b; auto.
    + auto.
  - intros [-> | [[-> ->] | [-> ->]]]; reflexivity.
Qed.
Lemma sat_between lo hi v : satisfies v (IntervalReal lo (Some hi)) = true <-> number_between lo hi v.
Proof.
  unfold number_between, satisfies. destruct (as_number v) as [x|] eqn:E.
  - rewrite andb_true_iff, Rleb_true, Rltb_true. split.
    + intros [H1 H2]. exists x. split; [apply as_number_spec; exact E | lra].
    + intros [y [Hy H]]. apply as_number_spec in Hy. rewrite Hy in E. inversion E; subst. lra.
  - split; [discriminate|]. intros [y [Hy _]]. apply as_number_spec in Hy. congruence.
Qed.
Lemma sat_from lo v : satisfies v (IntervalReal lo None) = true <-> number_from lo v.
Proof.
  unfold number_from, satisfies. destruct (as_number v) as [x|] eqn:E.
  - rewrite andb_true_iff, Rleb_true. split.
    + intros [H1 _]. exists x. split; [apply as_number_spec; exact E | lra].
    + intros [y [Hy H]]. apply as_number_spec in Hy. rewrite Hy in E. inversion E; subst. split; [lra | reflexivity].
  - split; [discriminate|]. intros [y [Hy _]]. apply as_number_spec in Hy. congruence.
Qed.
Lemma sat_int lo v : satisfies v (IntervalInt lo) = true <-> integer_from lo v.
Proof.
  unfold integer_from, satisfies. destruct (as_integer v) as [x|] eqn:E.
  - rewrite Z.leb_le. split.
    + intros H. exists x. split; [exact H | apply as_integer_spec; exact E].
    + intros [y [H Hy]]. apply as_integer_spec in Hy. rewrite Hy in E. inversion E; subst. exact H.
  - split; [discriminate|]. intros [y [_ Hy]]. apply as_integer_spec in Hy. congruence.
Qed.
Lemma sat_real v : satisfies v AnyReal = true <-> any_number v.
Proof.
  unfold any_number. split.
  - destruct v; cbn; try discriminate; intros _; eauto.
    + left. destruct b; [exists 1 | exists 0]; unfold number; auto 6.
    + left. exists (IZR z). right; left. eauto.
    + left. exists x. left; reflexivity.
  - intros [[x H] | [[s ->] | ->]]; try reflexivity.
    destruct H as [-> | [[z [-> _]] | [[-> _] | [-> _]]]]; reflexivity.
Qed.
Lemma sat_bool v : satisfies v IsBool = true <-> a_bool v.
Proof. unfold a_bool. split; [destruct v; cbn; try discriminate; eauto | intros [b ->]; reflexivity]. Qed.
Lemma sat_str v : satisfies v IsStr = true <-> a_string v.
Proof. unfold a_string. split; [destruct v; cbn; try discriminate; eauto | intros [b ->]; reflexivity]. Qed.
Lemma sat_method v : satisfies v IsMethod = true <-> a_method v.
Proof. unfold a_method. split; [destruct v; cbn; try discriminate; eauto | intros [b ->]; reflexivity]. Qed.
Lemma sat_dict v : satisfies v IsDict = true <-> is_dict_value v.
Proof. unfold is_dict_value. split; [destruct v; cbn; try discriminate; eauto | intros [b ->]; reflexivity]. Qed.
Lemma sat_array v : satisfies v IsArray = true <-> v = VArray.
Proof. split; [destruct v; cbn; try discriminate; eauto | intros ->; reflexivity]. Qed.
Lemma sat_none v : satisfies v IsNone = true <-> v = VNone.
Proof. split; [destruct v; cbn; try discriminate; eauto | intros ->; reflexivity]. Qed.
Lemma sat_callable v : satisfies v IsCallable = true <-> v = VCallable.
Proof. split; [destruct v; cbn; try discriminate; eauto | intros ->; reflexivity]. Qed.
Lemma sat_options l v : satisfies v (StrOptions l) = true <-> one_of l v.
Proof.
  unfold one_of. split.
  - destruct v; cbn; try discriminate. intro H. apply existsb_exists in H. destruct H as [t [Ht E]].
    apply String.eqb_eq in E. subst. eauto.
  - intros [s [-> H]]. cbn. apply existsb_exists. exists s. split; [exact H | apply String.eqb_refl].
Qed.

(** The values found by [get_params] after the constructor. *)
Lemma get_params_assigned names all a : (forall n, In n names -> In n all) ->
  get_params names (assign_all all a) = Ok (map (fun n => (n, a n)) names).
Proof.
  induction names as [|n ns IH]; intro H; cbn; [reflexivity|].
  assert (E : assign_all all a n = Some (a n)).
  { unfold assign_all. replace (existsb (String.eqb n) all) with true; [reflexivity|].
    symmetry. apply existsb_exists. exists n. split; [apply H; left; reflexivity | apply String.eqb_refl]. }
  rewrite E, IH by (intros k Hk; apply H; right; exact Hk). reflexivity.
Qed.

Definition checks (names : list string) (cs : constraints) (a : string -> pyval) : bool :=
  forallb (fun n => acceptable cs n (a n)) names.
Lemma fit_context_assigned {S A} names cs a (body : st S A) s :
  fit_context names cs (assign_all names a) body s
  = if checks names cs a then body s else (s, Raise ValueError).
Proof.
  unfold fit_context. rewrite get_params_assigned by auto.
  unfold all_acceptable, checks.
  replace (forallb (fun p => acceptable cs (fst p) (snd p)) (map (fun n => (n, a n)) names))
    with (forallb (fun n => acceptable cs n (a n)) names); [reflexivity|].
  induction names as [|n ns IH]; cbn; [reflexivity | rewrite IH; reflexivity].
Qed.

Lemma two P Q (b1 b2 : bool) : (b1 = true <-> P) -> (b2 = true <-> Q) -> (b1 || b2 = true <-> P \/ Q).
Proof. intros H1 H2. rewrite orb_true_iff. tauto. Qed.

Local Ltac sat := rewrite ?orb_true_iff, ?sat_between, ?sat_from, ?sat_int, ?sat_real, ?sat_bool, ?sat_str,
  ?sat_method, ?sat_dict, ?sat_array, ?sat_none, ?sat_callable, ?sat_options.

Lemma checks_scaler a : checks scaler_names scaler_constraints a = true <-> usable_scaler a.
Proof.
  unfold usable_scaler.
  change (checks scaler_names scaler_constraints a)
    with ((satisfies (a "forget") forget_constraint || false)
          && ((satisfies (a "to_scale") IsBool || (satisfies (a "to_scale") IsArray || false)) && true)).
  unfold forget_constraint. rewrite !andb_true_iff. sat. intuition discriminate.
Qed.
Lemma checks_lm a : checks lm_names lm_constraints a = true <-> usable_lm a.
Proof.
  unfold usable_lm.
  change (checks lm_names lm_constraints a)
    with ((satisfies (a "forget") forget_constraint || false)
          && ((satisfies (a "scale_inputs") IsBool || (satisfies (a "scale_inputs") IsArray || false))
          && ((satisfies (a "fit_intercept") IsBool || false)
          && ((satisfies (a "regularize_intercept") IsBool || false)
          && ((satisfies (a "method") IsMethod || (satisfies (a "method") IsStr || false))
          && ((satisfies (a "ic") (StrOptions ["aic"; "bic"; "hqc"; "max"]) || false) && true)))))).
  unfold forget_constraint. rewrite !andb_true_iff. sat. intuition discriminate.
Qed.
Lemma checks_gam a : checks gam_names gam_constraints a = true <-> usable_gam a.
Proof.
  unfold usable_gam, usable_lm.
  change (checks gam_names gam_constraints a)
    with ((satisfies (a "distribution") IsCallable || false)
          && ((satisfies (a "equation") IsDict || (satisfies (a "equation") IsNone || false))
          && ((satisfies (a "forget") forget_constraint || false)
          && ((satisfies (a "method") IsMethod || (satisfies (a "method") IsStr || false))
          && ((satisfies (a "scale_inputs") IsBool || (satisfies (a "scale_inputs") IsArray || false))
          && ((satisfies (a "fit_intercept") IsBool || false)
          && ((satisfies (a "regularize_intercept") IsBool || false)
          && ((satisfies (a "ic") (StrOptions ["aic"; "bic"; "hqc"; "max"]) || false)
          && ((satisfies (a "model_selection") (StrOptions ["local_rss"; "global_ll"]) || false)
          && ((satisfies (a "prefit_initial") (IntervalInt 0) || false)
          && ((satisfies (a "prefit_update") (IntervalInt 0) || false)
          && ((satisfies (a "step_size") AnyReal || (satisfies (a "step_size") IsDict || false))
          && ((satisfies (a "verbose") (IntervalInt 0) || false)
          && ((satisfies (a "debug") IsBool || false)
          && ((satisfies (a "param_order") IsArray || (satisfies (a "param_order") IsNone || false))
          && ((satisfies (a "cautious_updates") IsBool || false)
          && (true
          && ((satisfies (a "max_it_outer") (IntervalInt 1) || false)
          && ((satisfies (a "max_it_inner") (IntervalInt 1) || false)
          && ((satisfies (a "abs_tol_outer") (IntervalReal 0 None) || false)
          && ((satisfies (a "abs_tol_inner") (IntervalReal 0 None) || false)
          && ((satisfies (a "rel_tol_outer") (IntervalReal 0 None) || false)
          && ((satisfies (a "rel_tol_inner") (IntervalReal 0 None) || false)
          && (true && true)))))))))))))))))))))))).
  unfold forget_constraint. rewrite !andb_true_iff. sat.
  assert (F : forall P : Prop, (P \/ false = true) <-> P) by (intro P; split; [intros [H|H]; [exact H | discriminate] | auto]).
  rewrite !F. tauto.
Qed.

(** * C85 *)
Lemma lasso_params a m : get_params lasso_names (lasso_init a m) = Raise AttributeError.
Proof. reflexivity. Qed.
Lemma lasso_request_raises {M} (ops : method_ops M) c a m q b s :
  lasso_request ops c (lasso_init a m) q b s = (s, Raise AttributeError).
Proof.
  destruct q; cbn [lasso_request]; unfold lasso_call, fit_context; rewrite ?lasso_params; try reflexivity.
  destruct (is_fitted s); reflexivity.
Qed.
Lemma C85_lasso_lemma {M} (ops : method_ops M) c a m qs :
  lasso_requests ops c (lasso_init a m) qs new_lm = (new_lm, map (fun _ => Raise AttributeError) qs).
Proof.
  induction qs as [|[q b] qs IH]; cbn [lasso_requests map]; [reflexivity|].
  rewrite lasso_request_raises, IH. reflexivity.
Qed.
Lemma C85_predict_lemma {M} (ops : method_ops M) c a m qs p X :
  snd (lm_predict c p X (fst (lasso_requests ops c (lasso_init a m) qs new_lm))) = Raise NotFittedError.
Proof. rewrite C85_lasso_lemma. reflexivity. Qed.

(** * C86, C87 *)
Lemma accepted_or_rejected {S A} names cs a (usable : Prop) (body : st S A) :
  (checks names cs a = true <-> usable) ->
  (usable -> forall s, fit_context names cs (assign_all names a) body s = body s) /\
  (~ usable -> forall s, fit_context names cs (assign_all names a) body s = (s, Raise ValueError)).
Proof.
  intro H. split; intros Hu s; rewrite fit_context_assigned.
  - destruct (checks names cs a); [reflexivity | apply H in Hu; discriminate].
  - destruct (checks names cs a); [exfalso; apply Hu, H; reflexivity | reflexivity].
Qed.
Lemma C87_scaler_lemma {S A} a (body : st S A) :
  (usable_scaler a -> forall s, scaler_call (scaler_init a) body s = body s) /\
  (~ usable_scaler a -> forall s, scaler_call (scaler_init a) body s = (s, Raise ValueError)).
Proof. exact (accepted_or_rejected _ _ a _ body (checks_scaler a)). Qed.
Lemma C87_lm_lemma {S A} a (body : st S A) :
  (usable_lm a -> forall s, lm_call (lm_init a) body s = body s) /\
  (~ usable_lm a -> forall s, lm_call (lm_init a) body s = (s, Raise ValueError)).
Proof. exact (accepted_or_rejected _ _ a _ body (checks_lm a)). Qed.
Lemma C87_gam_lemma {S A} a (body : st S A) :
  (usable_gam a -> forall s, gam_call (gam_init a) body s = body s) /\
  (~ usable_gam a -> forall s, gam_call (gam_init a) body s = (s, Raise ValueError)).
Proof. exact (accepted_or_rejected _ _ a _ body (checks_gam a)). Qed.

Lemma dict_not_number d x : ~ number (VDict d) x.
Proof. intros [H | [[z [H _]] | [[H _] | [H _]]]]; discriminate. Qed.
Lemma C86_dicts_lemma {S A} a name d (body : st S A) s :
  In name ["forget"; "method"; "fit_intercept"; "regularize_intercept"; "ic"] ->
  a name = VDict d ->
  gam_call (gam_init a) body s = (s, Raise ValueError).
Proof.
  intros Hn Hd. apply (proj2 (C87_gam_lemma a body)).
  intros [[H1 [_ [H2 [H3 [H4 H5]]]]] _].
  cbn [In] in Hn. destruct Hn as [<- | [<- | [<- | [<- | [<- | []]]]]]; rewrite Hd in *.
  - destruct H1 as [x [H _]]. exact (dict_not_number _ _ H).
  - destruct H4 as [[m H] | [m H]]; discriminate.
  - destruct H2 as [b H]; discriminate.
  - destruct H3 as [b H]; discriminate.
  - destruct H5 as [t [H _]]; discriminate.
Qed.
Lemma C86_step_lemma {S A} a d (body : st S A) s : usable_gam a ->
  gam_call (gam_init (fun n => if String.eqb n "step_size" then VDict d else a n)) body s = body s.
Proof.
  intro H. apply (proj1 (C87_gam_lemma _ body)).
  unfold usable_gam, usable_lm in *. cbn [String.eqb Ascii.eqb Bool.eqb].
  decompose [and] H. unfold is_dict_value. repeat (split; try assumption); eauto.
Qed.

Lemma reads_scalar {A} (value : pyval -> A -> Prop) v o : reads value v o -> ~ is_dict_value v ->
  exists x, o = Scalar x /\ value v x.
Proof.
  destruct o as [x|d]; cbn.
  - intros [_ H] _. eauto.
  - intros [dv [-> _]] H. exfalso. apply H. eexists. reflexivity.
Qed.
Lemma entry_scalar {A} n (x : A) def p : (p < n)%nat ->
  entry (fst (process_parameter n (Scalar x) def)) def p = x.
Proof.
  intro H. unfold entry. rewrite (C54_completed_lemma n (Scalar x) def p H). reflexivity.
Qed.
Lemma number_unique v x y : number v x -> number v y -> x = y.
Proof. intros H1 H2. apply as_number_spec in H1. apply as_number_spec in H2. congruence. Qed.

Lemma all_methods_spec {M} (c : gam_cfg M) ps ms k p : all_methods c ps = Ok ms -> nth_error ps k = Some p ->
  exists m, nth_error ms k = Some m /\ o_method c p = Ok m.
Proof.
  revert ms k. induction ps as [|q ps IH]; intros ms k; cbn [all_methods].
  - destruct k; discriminate.
  - destruct (o_method c q) as [m|e] eqn:E; cbn [bind]; [|discriminate].
    destruct (all_methods c ps) as [r|e] eqn:E'; cbn [bind]; [|discriminate].
    intro H; inversion H; subst. destruct k; cbn.
    + intro H'; inversion H'; subst. eauto.
    + intro H'. exact (IH r k eq_refl H').
Qed.

Lemma C86_same_lemma {M} find a (c : gam_cfg M) pr ms :
  configured find a c -> usable_gam a -> prepare c = Ok (pr, ms) ->
  exists forget crit icpt regicpt,
    0 <= forget < 1 /\ crit <> aicc /\
    forall p, (p < d_n (o_dist c))%nat ->
      p_forget pr p = forget /\ p_ic pr p = crit /\ p_icpt pr p = icpt /\ p_regicpt pr p = regicpt /\
      exists m, find (a "method") = Ok m /\ ms p = Some m.
Proof.
  intros [Rf [Ri [Rc [Rr [Rm _]]]]] [[Hf [_ [Hc [Hr [Hm Hi]]]]] _] Hp.
  destruct Hf as [x [Hx Hx01]].
  destruct (reads_scalar _ _ _ Rf) as [f [Ef Vf]].
  { intros [d E]. rewrite E in Hx. exact (dict_not_number _ _ Hx). }
  destruct (reads_scalar _ _ _ Ri) as [i [Ei Vi]].
  { intros [d E]. destruct Hi as [t [E' _]]. congruence. }
  destruct (reads_scalar _ _ _ Rc) as [ic [Ec _]].
  { intros [d E]. destruct Hc as [t E']. congruence. }
  destruct (reads_scalar _ _ _ Rr) as [rg [Er _]].
  { intros [d E]. destruct Hr as [t E']. congruence. }
  assert (Hmeth : forall p, o_method c p = find (a "method")).
  { intro p. rewrite (Rm p). destruct Hm as [[m ->] | [m ->]]; reflexivity. }
  unfold prepare in Hp.
  destruct (process_equation _ _ _) as [eq|e]; cbn [bind] in Hp; [|discriminate].
  destruct (all_methods c _) as [l|e] eqn:El; cbn [bind] in Hp; [|discriminate].
  destruct (match o_order c with Some _ => _ | None => _ end) as [ord|e]; cbn [bind] in Hp; [|discriminate].
  inversion Hp; subst pr ms. clear Hp. cbn [p_forget p_ic p_icpt p_regicpt].
  rewrite Ef, Ei, Ec, Er.
  exists f, i, ic, rg.
  split. { rewrite (number_unique _ _ _ Vf Hx). exact Hx01. }
  split. { intros ->. destruct Hi as [t [E' Hin]]. rewrite E' in Vi. cbn in Vi. inversion Vi; subst.
           cbn [In] in Hin. destruct Hin as [H|[H|[H|[H|[]]]]]; discriminate. }
  intros p Hlt. rewrite !entry_scalar by exact Hlt. repeat (split; [reflexivity|]).
  destruct (all_methods_spec c _ _ p p El) as [m' [Hm' E']].
  { rewrite (nth_error_nth' _ 0%nat) by (rewrite seq_length; exact Hlt). rewrite seq_nth by exact Hlt. reflexivity. }
  rewrite Hmeth in E'. exists m'. split; [exact E' | exact Hm'].
Qed.
