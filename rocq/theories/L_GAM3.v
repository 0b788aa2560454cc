(** Lemmas: rejected observations, number of outer cycles, failed calls. *)
From Coq Require Import Reals List Bool Arith ZArith Lra Lia.
From Verif Require Import Base Lin Data M_Gram M_OLS M_CD M_Path M_Ridge M_Scaler M_Utils M_Links M_State M_LM S_LM M_Equation S_Equation
  L_Equation M_GAMLSS S_GAMLSS L_GAM1 L_GAM2.
Import ListNotations.
Open Scope R_scope.

(** * Exceptions that cannot happen *)
Definition never {S A} (x : exn) (m : st S A) : Prop := forall s, snd (m s) <> Raise x.
Definition rnever {A} (x : exn) (r : res A) : Prop := r <> Raise x.

Lemma never_bnd {S A B} x (m : st S A) (k : A -> st S B) : never x m -> (forall a, never x (k a)) -> never x (bnd m k).
Proof.
  intros H1 H2 s. unfold bnd. specialize (H1 s). destruct (m s) as [s1 [a|y]]; cbn in *; [apply H2|].
  intros E. injection E as ->. auto.
Qed.
Lemma never_ret {S A} x (a : A) : @never S A x (ret a). Proof. intros s. discriminate. Qed.
Lemma never_write {S} x (f : S -> S) : never x (write f). Proof. intros s. discriminate. Qed.
Lemma never_raise {S A} x y : y <> x -> @never S A x (raise y). Proof. intros H s E. cbn in E. congruence. Qed.
Lemma never_lift {S A} x (r : res A) : rnever x r -> @never S A x (lift r). Proof. intros H s. exact H. Qed.
Lemma never_peek {M A} x (f : work M -> A) : never x (peek f). Proof. intros s. discriminate. Qed.
Lemma never_get {M A} x (f : work M -> option A) : x <> KeyError -> never x (get f).
Proof. intros H s. unfold get. destruct (f s); cbn; congruence. Qed.
Lemma never_read {S A} x (f : S -> option A) : x <> AttributeError -> never x (read f).
Proof. intros H s. unfold read. destruct (f s); cbn; congruence. Qed.
Lemma never_read_iter {M} x i : x <> IndexError -> @never (work M) _ x (read_iter i).
Proof. intros H s. unfold read_iter. destruct (nth_error _ _); cbn; congruence. Qed.
Lemma never_read_step {M} x (e : env M) i j p : x <> IndexError -> never x (read_step e i j p).
Proof. intros H. unfold read_step. destruct (_ && _); [apply never_peek|apply never_raise; congruence]. Qed.

Lemma rnever_bind {A B} x (m : res A) (k : A -> res B) : rnever x m -> (forall a, rnever x (k a)) -> rnever x (bind m k).
Proof. unfold rnever. destruct m; cbn; auto. intros H _ E. apply H. congruence. Qed.
Lemma rnever_ok {A} x (a : A) : rnever x (Ok a). Proof. discriminate. Qed.
Lemma rnever_raise {A} x y : y <> x -> @rnever A x (Raise y). Proof. unfold rnever. congruence. Qed.
Lemma rnever_all_some {A} x (l : list (option A)) : x <> NanResult -> rnever x (all_some l).
Proof.
  intros H. induction l as [|[a|] l IH]; cbn; [apply rnever_ok| |apply rnever_raise; congruence].
  apply rnever_bind; [exact IH|]. intros. apply rnever_ok.
Qed.
Lemma rnever_number {A} x (o : option A) : x <> NanResult -> rnever x (number_or_nan o).
Proof. destruct o; cbn; intros; [apply rnever_ok|apply rnever_raise; congruence]. Qed.
Lemma rnever_argmin x l : x <> ValueError -> rnever x (argmin l).
Proof. destruct l; cbn; intros; [apply rnever_raise; congruence|apply rnever_ok]. Qed.
Lemma rnever_sequence {A} x (l : list (res A)) : (forall r, In r l -> rnever x r) -> rnever x (sequence l).
Proof.
  induction l as [|r l IH]; cbn; intros H; [apply rnever_ok|].
  apply rnever_bind; [apply H; auto|]. intros. apply rnever_bind; [apply IH; auto|]. intros. apply rnever_ok.
Qed.
Lemma rnever_from_ll x c n ps lls : x <> ValueError -> rnever x (from_ll_array c n ps lls).
Proof.
  intros H.
  assert (Q : forall c ps lls, rnever x (sequence (map2 (from_ll c n) ps lls))).
  { intros c' ps' lls'. apply rnever_sequence. revert lls'. induction ps' as [|p ps' IH]; intros [|l lls'] r Hr; cbn in Hr; try tauto.
    destruct Hr as [<-|Hr]; [|eapply IH; eauto]. unfold from_ll. destruct c'; try apply rnever_ok.
    destruct (Reqb _ _); [apply rnever_raise; congruence|apply rnever_ok]. }
  unfold from_ll_array. destruct c; try apply Q. destruct (2 <=? _)%nat; [apply rnever_raise; congruence|apply Q].
Qed.
Lemma rnever_from_rss x c n ps r : x <> ValueError -> rnever x (from_rss_array c n ps r).
Proof. apply rnever_from_ll. Qed.

Ltac nv_step :=
  first
   [ apply never_bnd; [|intros ?] | apply never_ret | apply never_write | apply never_peek
   | apply never_lift | apply never_get; discriminate | apply never_read; discriminate
   | apply never_read_iter; discriminate | apply never_read_step; discriminate
   | apply never_raise; discriminate
   | apply rnever_bind; [|intros ?] | apply rnever_ok | apply rnever_all_some; discriminate
   | apply rnever_number; discriminate | apply rnever_argmin; discriminate
   | apply rnever_from_ll; discriminate | apply rnever_from_rss; discriminate
   | apply rnever_raise; discriminate
   | match goal with
     | |- never _ (match ?y with _ => _ end) => destruct y
     | |- never _ (if ?y then _ else _) => destruct y
     | |- rnever _ (match ?y with _ => _ end) => destruct y
     | |- rnever _ (if ?y then _ else _) => destruct y
     end ].

Section Quiet.
Context {M : Type} (ops : method_ops M) (Q : method_never OutOfSupportErr ops).
Notation x := OutOfSupportErr.

Lemma q_deviance (e : env M) fv : rnever x (deviance e fv).
Proof. unfold deviance. repeat nv_step. Qed.
Lemma q_working (e : env M) w p fv : rnever x (working e w p fv).
Proof. unfold working. repeat nv_step. Qed.
Lemma q_path_lls (e : env M) p fv w path : rnever x (path_lls e p fv w path).
Proof.
  induction path as [|b path IH]; cbn [path_lls]; [apply rnever_ok|].
  unfold path_ll. repeat first [apply IH | nv_step].
Qed.
Lemma q_update_select (e : env M) s p wv wt path old mw : rnever x (update_select e s p wv wt path old mw).
Proof. unfold update_select. repeat first [apply q_path_lls | nv_step]. Qed.
Lemma q_fit_select (e : env M) s p wv wt path : rnever x (fit_select e s p wv wt path).
Proof. unfold fit_select. repeat first [apply q_path_lls | nv_step]. Qed.

Lemma q_update_candidate (e : env M) g p io it fv : never x (update_candidate ops e g p io it fv).
Proof.
  destruct Q as (Q1 & Q2 & Q3 & Q4 & Q5 & Q6).
  unfold update_candidate, put_dbg, put_dbg_coef, set_wmethod.
  repeat first [apply Q2 | apply Q4 | apply Q6 | apply q_working | apply q_update_select | apply q_deviance | nv_step].
Qed.
Lemma q_inner_update_loop (e : env M) g p io k : forall it fv dvs cnt,
  never x (inner_update_loop ops e g p io k it fv dvs cnt).
Proof.
  induction k as [|k IH]; intros; cbn [inner_update_loop]; [apply never_raise; discriminate|].
  unfold set_step. repeat first [apply q_update_candidate | apply IH | nv_step].
Qed.
Lemma q_inner_update (e : env M) g p io : never x (inner_update ops e g p io).
Proof.
  unfold inner_update, store_update.
  repeat first [apply q_deviance | apply q_inner_update_loop | nv_step].
Qed.
Lemma q_update_cycle (e : env M) g ps : forall io dev, never x (update_cycle ops e g ps io dev).
Proof.
  induction ps as [|p ps IH]; intros; cbn [update_cycle]; repeat first [apply q_inner_update | apply IH | nv_step].
Qed.
Lemma q_outer_update_loop (e : env M) g fuel : forall it a b, never x (outer_update_loop ops e g fuel it a b).
Proof.
  induction fuel as [|f IH]; intros; cbn [outer_update_loop]; [apply never_raise; discriminate|].
  repeat first [apply q_update_cycle | apply IH | nv_step].
Qed.
Lemma q_outer_update (e : env M) g fuel : never x (outer_update ops e g fuel).
Proof. unfold outer_update. repeat first [apply q_deviance | apply q_outer_update_loop | nv_step]. Qed.

Context (c : gam_cfg M).
Lemma q_columns eq n : rnever x (columns eq n).
Proof.
  assert (W : forall l, rnever x (wrap_all n l)).
  { induction l as [|z l IH]; cbn [wrap_all]; [apply rnever_ok|]. unfold wrap. repeat first [apply IH | nv_step]. }
  unfold columns, mask. destruct eq; repeat first [apply W | nv_step].
Qed.
Lemma q_arrays pr n X : rnever x (arrays c pr n X).
Proof.
  unfold arrays. apply rnever_bind; [|intros; apply rnever_ok].
  induction (seq 0 (d_n (o_dist c))) as [|p ps IH]; cbn [all_arrays]; [apply rnever_ok|].
  unfold make_model_array. repeat first [apply q_columns | apply IH | nv_step].
Qed.
Lemma q_predict r p X : never x (predict_parameters c r p X).
Proof.
  intros s. unfold predict_parameters. destruct (gfitted s); [|discriminate].
  match goal with |- snd (?m s) <> _ => change (snd (m s) <> Raise x); revert s; change (never x m) end.
  unfold gvalidate_old. repeat first [apply q_arrays | nv_step].
  intros s. destruct (s_nfin s) as [q|]; [destruct (Nat.eqb p q)|]; discriminate.
Qed.
Lemma q_scaler_update sc l : rnever x (scaler_update sc l).
Proof. unfold scaler_update. repeat nv_step. Qed.
Lemma q_on_work {A} (m : st (work M) A) : never x m -> never x (on_work m).
Proof.
  intros H s. unfold on_work. destruct (s_work s) as [w|]; [|discriminate].
  specialize (H w). destruct (m w) as [w' r]. exact H.
Qed.

Lemma outside_spec y : outside (o_dist c) y <-> below y (d_lo (o_dist c)) = true \/ above y (d_hi (o_dist c)) = true.
Proof.
  unfold outside, below, above. destruct (d_lo (o_dist c)) as [|r|], (d_hi (o_dist c)) as [|r'|]; cbn [bound_ltb];
    rewrite ?Rltb_true; intuition congruence.
Qed.
Lemma support_test b : some_outside (o_dist c) b <->
  existsb (fun o => below (oy o) (d_lo (o_dist c))) (b_rows b) = true \/
  existsb (fun o => above (oy o) (d_hi (o_dist c))) (b_rows b) = true.
Proof.
  unfold some_outside. rewrite !existsb_exists. split.
  - intros (o & Ho & H). apply outside_spec in H. destruct H; [left|right]; eauto.
  - intros [(o & Ho & H)|(o & Ho & H)]; exists o; (split; [exact Ho|]); apply outside_spec; auto.
Qed.
Lemma validate_support_raise b s : some_outside (o_dist c) b -> validate_support c (b_rows b) s = (s, Raise OutOfSupportErr).
Proof.
  intros H. apply support_test in H. unfold validate_support. destruct (existsb _ (b_rows b)); [reflexivity|].
  destruct H as [H|H]; [discriminate|]. rewrite H. reflexivity.
Qed.
Lemma gvalidate_old_run b (s : gam M) : shape_ok s b ->
  gvalidate_old (b_p b) (length (b_rows b)) s = (s, Ok tt).
Proof.
  intros [[H1 H2] H3]. unfold gvalidate_old.
  destruct ((length (b_rows b) <? 1)%nat || (b_p b <? 1)%nat) eqn:Ev.
  { apply orb_prop in Ev. destruct Ev as [Ev|Ev]; apply Nat.ltb_lt in Ev; lia. }
  destruct H3 as [-> | ->]; [reflexivity|]. now rewrite Nat.eqb_refl.
Qed.
Lemma C57_rejects_lemma b s : shape_ok s b -> some_outside (o_dist c) b ->
  gam_update ops c b s = (s, Raise OutOfSupportErr).
Proof.
  intros V H. unfold gam_update, bnd at 1. rewrite (gvalidate_old_run b s V).
  unfold bnd at 1. now rewrite (validate_support_raise b s H).
Qed.
Lemma C57_only_lemma b s : snd (gam_update ops c b s) = Raise OutOfSupportErr -> some_outside (o_dist c) b.
Proof.
  intros H. destruct (existsb (fun o => below (oy o) (d_lo (o_dist c))) (b_rows b)) eqn:E1.
  { apply support_test. auto. }
  destruct (existsb (fun o => above (oy o) (d_hi (o_dist c))) (b_rows b)) eqn:E2.
  { apply support_test. auto. }
  exfalso. revert H. match goal with |- snd (?m s) = _ -> _ => change (snd (m s) <> Raise x); revert s; change (never x m) end.
  unfold gam_update, gvalidate_old, validate_support, gset_nobs, gset_ntrain, gupdate_scaler, gset_scaler, gset_dev, cautious_bounds.
  rewrite E1, E2.
  repeat first [apply q_predict | apply q_arrays | apply q_scaler_update | apply q_on_work | apply q_outer_update | nv_step].
  intros s. destruct (s_nfin s) as [q|]; [destruct (Nat.eqb (b_p b) q)|]; discriminate.
Qed.
End Quiet.

(** The shipped methods do not raise that exception. *)
Lemma ols_quiet inv : method_never OutOfSupportErr (ols_ops inv).
Proof.
  unfold method_never. cbn. repeat split; intros; try discriminate.
  - change (rnever OutOfSupportErr (init_inverted_gram inv p X w f)). unfold init_inverted_gram. repeat nv_step.
  - change (rnever OutOfSupportErr (update_inverted_gram p g X f w)). unfold update_inverted_gram. repeat nv_step.
Qed.

Lemma cd_quiet a r perm tol k b : rnever OutOfSupportErr (online_coordinate_descent a r perm tol k b).
Proof.
  unfold online_coordinate_descent. generalize (S k) at 1. intros fuel. generalize O b.
  induction fuel as [|fuel IH]; intros i beta; cbn [cd_loop]; [apply rnever_raise; discriminate|].
  assert (W : forall JJ f b, rnever OutOfSupportErr (cd_sweep a f JJ b)).
  { induction JJ as [|j JJ IHJ]; intros; cbn [cd_sweep]; [apply rnever_ok|].
    unfold cd_visit, cd_coord. repeat first [apply IHJ | nv_step]. }
  repeat first [apply W | apply IH | nv_step].
Qed.
Lemma path_quiet a r perm tol k es w P lams : rnever OutOfSupportErr (online_coordinate_descent_path a r perm tol k es w P lams).
Proof.
  unfold online_coordinate_descent_path.
  assert (G : forall lams i Pn its, rnever OutOfSupportErr (path_loop a r perm tol k es w P i lams Pn its)).
  { clear lams. induction lams as [|l lams IH]; intros; cbn [path_loop]; [apply rnever_ok|].
    repeat first [apply cd_quiet | apply IH | nv_step]. }
  apply G.
Qed.
Lemma en_quiet perms : method_never OutOfSupportErr (en_ops perms).
Proof.
  unfold method_never. cbn [en_ops op_init_x op_update_x op_fit_path op_update_path op_fit_beta op_update_beta].
  repeat split; intros; try discriminate.
  - match goal with |- ?r <> _ => change (rnever OutOfSupportErr r) end.
    unfold fit_beta_path, set_and_validate_bounds, get_lambda_max, np_max, geomspace.
    repeat first [apply path_quiet | nv_step].
  - match goal with |- ?r <> _ => change (rnever OutOfSupportErr r) end.
    unfold update_beta_path, get_lambda_max, np_max, geomspace.
    repeat first [apply path_quiet | nv_step].
Qed.
Lemma ridge_quiet inv perms : method_never OutOfSupportErr (ridge_ops inv perms).
Proof.
  unfold method_never. cbn [ridge_ops op_init_x op_update_x op_fit_path op_update_path op_fit_beta op_update_beta].
  repeat split; intros; try discriminate.
  - match goal with |- ?r <> _ => change (rnever OutOfSupportErr r) end.
    unfold ridge_fit, ridge_bounds. repeat first [apply cd_quiet | nv_step].
  - match goal with |- ?r <> _ => change (rnever OutOfSupportErr r) end.
    unfold ridge_update. repeat first [apply cd_quiet | nv_step].
Qed.

(** * Number of outer cycles *)
Section Cycles.
Context {M : Type} (ops : method_ops M) (c : gam_cfg M).
Lemma prepare_order pr methods : prepare c = Ok (pr, methods) -> (1 <= d_n (o_dist c))%nat -> p_order pr <> [].
Proof.
  unfold prepare. intros H Hn.
  destruct (process_equation _ _ _); [|discriminate]. cbn [bind] in H.
  destruct (all_methods _ _); [|discriminate]. cbn [bind] in H.
  destruct (o_order c) as [l|].
  - destruct (forallb _ _) eqn:F; [|discriminate]. cbn [bind] in H. injection H as <- _. cbn [p_order].
    intros ->. rewrite forallb_forall in F. specialize (F O ltac:(apply in_seq; lia)). discriminate.
  - cbn [bind] in H. injection H as <- _. cbn [p_order]. destruct (d_n (o_dist c)); [lia|discriminate].
Qed.
Lemma schedule_length k : length (iter_schedule c k) = o_max_outer c.
Proof. unfold iter_schedule. now rewrite map_length, seq_length. Qed.

Lemma C58_fit_lemma b s s' : (1 <= d_n (o_dist c))%nat -> gam_fit ops c b s = (s', Ok tt) ->
  exists dv n, s_dev s' = Some (dv, n) /\ (fit_minimum c <= n <= o_max_outer c)%nat.
Proof.
  intros Hn H. apply gam_fit_ok in H.
  destruct H as (pr & methods & fv & js & sc & X & w & dv & n & Ep & _ & _ & _ & _ & _ & _ & _ & _ & Eo & ->).
  exists dv, n. split; [reflexivity|].
  apply (outer_fit_ok ops (start_env c pr b X)) in Eo.
  - destruct Eo as (E & _). exact E.
  - exact (prepare_order _ _ Ep Hn).
  - exact (schedule_length _).
Qed.
Lemma C58_fit_raises_lemma b s : (1 <= d_n (o_dist c))%nat -> (o_max_outer c < fit_minimum c)%nat ->
  exists x, snd (gam_fit ops c b s) = Raise x.
Proof.
  intros Hn Hm. destruct (gam_fit ops c b s) as [s' [[]|x]] eqn:E; [|exists x; reflexivity].
  exfalso. apply (C58_fit_lemma b s s' Hn) in E. destruct E as (dv & n & _ & H). lia.
Qed.
Lemma again_iter pr b fv w0 w1 : again_work c pr b fv w0 = Ok w1 -> length (w_iter w1) = o_max_outer c.
Proof.
  unfold again_work. destruct (o_cautious c).
  - destruct (cautious_bounds c fv); [|discriminate]. cbn [bind]. intros H. injection H as <-.
    cbn [cautious_work w_iter restart_work]. destruct (existsb _ _); [|apply schedule_length].
    rewrite map2_length by (now rewrite seq_length). rewrite seq_length. apply schedule_length.
  - intros H. injection H as <-. apply schedule_length.
Qed.

Lemma C58_update_lemma b s s' : has_order s -> gam_update ops c b s = (s', Ok tt) ->
  exists dv n w, s_dev s' = Some (dv, n) /\ s_work s' = Some w /\ (w_min w <= n <= o_max_outer c)%nat.
Proof.
  intros Hn H. apply gam_update_ok in H.
  destruct H as (n0 & pr & fv & sc0 & sc & X & w0 & w1 & w & dev0 & it0 & isreg & dv & n &
    _ & _ & _ & _ & _ & _ & Epr & _ & Ew & _ & _ & _ & _ & _ & Ea & Eo & ->).
  exists dv, n, (commit_work w). split; [reflexivity|]. split; [reflexivity|].
  apply (outer_update_ok ops (again_env c pr isreg n0 b X)) in Eo; [| |].
  - destruct Eo as (E & _ & E2). cbn [commit_work w_min]. rewrite E2. exact E.
  - cbn. apply Hn. exact Epr.
  - eapply again_iter; eauto.
Qed.
(** Without prefit_update and cautious_updates the minimum number of cycles is the one of the last fit. *)
Lemma C77_carry_lemma b s s' w : has_order s -> o_cautious c = false ->
  s_work s = Some w -> gam_update ops c b s = (s', Ok tt) ->
  exists dv n w', s_dev s' = Some (dv, n) /\ s_work s' = Some w' /\
    w_min w' = (if (0 <? o_prefit_update c)%nat then o_prefit_update c else w_min w) /\ (w_min w' <= n)%nat.
Proof.
  intros Hn Hc Ew0 H. apply gam_update_ok in H.
  destruct H as (n0 & pr & fv & sc0 & sc & X & w0 & w1 & w2 & dev0 & it0 & isreg & dv & n &
    _ & _ & _ & _ & _ & _ & Epr & _ & Ew & _ & _ & _ & _ & _ & Ea & Eo & ->).
  rewrite Ew0 in Ew. injection Ew as <-.
  exists dv, n, (commit_work w2). split; [reflexivity|]. split; [reflexivity|].
  apply (outer_update_ok ops (again_env c pr isreg n0 b X)) in Eo; [| |].
  - destruct Eo as (E & _ & E2). cbn [commit_work w_min]. rewrite E2.
    unfold again_work in Ea. rewrite Hc in Ea. injection Ea as <-. split; [reflexivity|]. apply E.
  - cbn. apply Hn. exact Epr.
  - eapply again_iter; eauto.
Qed.
Lemma fit_leaves b s s' : (1 <= d_n (o_dist c))%nat -> gam_fit ops c b s = (s', Ok tt) ->
  has_order s' /\ exists w, s_work s' = Some w /\ w_min w = fit_minimum c.
Proof.
  intros Hn H. apply gam_fit_ok in H.
  destruct H as (pr & methods & fv & js & sc & X & w & dv & n & Ep & _ & _ & _ & _ & _ & _ & _ & _ & Eo & ->).
  split.
  - intros pr' E. cbn in E. injection E as <-. exact (prepare_order _ _ Ep Hn).
  - exists w. split; [reflexivity|].
    apply (outer_fit_ok ops (start_env c pr b X)) in Eo.
    + destruct Eo as (_ & _ & E). rewrite E. reflexivity.
    + exact (prepare_order _ _ Ep Hn).
    + exact (schedule_length _).
Qed.
Lemma C77_lemma b0 b1 s s1 s2 : (1 <= d_n (o_dist c))%nat -> o_cautious c = false -> o_prefit_update c = O ->
  gam_fit ops c b0 s = (s1, Ok tt) -> gam_update ops c b1 s1 = (s2, Ok tt) ->
  exists dv n, s_dev s2 = Some (dv, n) /\ (fit_minimum c <= n)%nat.
Proof.
  intros Hn Hc Hp H1 H2. destruct (fit_leaves b0 s s1 Hn H1) as (Ho & w & Ew & Em).
  destruct (C77_carry_lemma b1 s1 s2 w Ho Hc Ew H2) as (dv & n & w' & E1 & E2 & E3 & E4).
  exists dv, n. split; [exact E1|]. rewrite Hp in E3. cbn in E3. lia.
Qed.
End Cycles.

(** * Failed calls *)
Section Failed.
Context {M : Type} (ops : method_ops M) (c : gam_cfg M).

(** update needs the deviance of a completed call. *)
Lemma update_needs_completed b s : s_dev s = None -> exists x, snd (gam_update ops c b s) = Raise x.
Proof.
  intros H. destruct (gam_update ops c b s) as [s' [[]|x]] eqn:E; [|exists x; reflexivity].
  exfalso. apply gam_update_ok in E.
  destruct E as (n0 & pr & fv & sc0 & sc & X & w0 & w1 & w & dev0 & it0 & isreg & dv & n &
    _ & _ & _ & _ & _ & _ & _ & _ & _ & Ed & _). congruence.
Qed.
End Failed.
