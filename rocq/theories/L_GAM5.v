(** Lemmas: update does not depend on the step sizes. *)
From Coq Require Import Reals List Bool Arith ZArith Lra Lia.
From Verif Require Import Base Lin Data M_Gram M_OLS M_CD M_Path M_Ridge M_Scaler M_Utils M_Links M_State M_LM S_LM M_Equation S_Equation
  L_Equation M_GAMLSS S_GAMLSS L_GAM1 L_GAM2 L_GAM3.
Import ListNotations.
Open Scope R_scope.

(** Two computations with related start states end in related states with related results. *)
Definition rres {A B} (Q : A -> B -> Prop) (r1 : res A) (r2 : res B) : Prop :=
  match r1, r2 with Ok a, Ok b => Q a b | Raise x, Raise y => x = y | _, _ => False end.
Definition sim {S A B} (rel : S -> S -> Prop) (Q : A -> B -> Prop) (m1 : st S A) (m2 : st S B) : Prop :=
  forall s1 s2, rel s1 s2 -> rel (fst (m1 s1)) (fst (m2 s2)) /\ rres Q (snd (m1 s1)) (snd (m2 s2)).

Lemma sim_bnd {S A1 A2 B1 B2} (rel : S -> S -> Prop) (Q : A1 -> A2 -> Prop) (Q' : B1 -> B2 -> Prop) m1 m2 k1 k2 :
  sim rel Q m1 m2 -> (forall a b, Q a b -> sim rel Q' (k1 a) (k2 b)) -> sim rel Q' (bnd m1 k1) (bnd m2 k2).
Proof.
  intros H1 H2 s1 s2 H. unfold bnd. specialize (H1 s1 s2 H).
  destruct (m1 s1) as [t1 [a|x]], (m2 s2) as [t2 [b|y]]; cbn in *; destruct H1 as [H1 H3]; try tauto.
  apply H2; assumption.
Qed.
Lemma sim_bnd_eq {S A B1 B2} (rel : S -> S -> Prop) (Q' : B1 -> B2 -> Prop) (m1 m2 : st S A) k1 k2 :
  sim rel eq m1 m2 -> (forall a, sim rel Q' (k1 a) (k2 a)) -> sim rel Q' (bnd m1 k1) (bnd m2 k2).
Proof. intros H1 H2. eapply sim_bnd; [exact H1|]. intros a b <-. apply H2. Qed.
Lemma sim_ret {S A} rel (a : A) : @sim S A A rel eq (ret a) (ret a).
Proof. intros s1 s2 H. split; [exact H|reflexivity]. Qed.
Lemma sim_raise {S A B} rel (Q : A -> B -> Prop) x : @sim S A B rel Q (raise x) (raise x).
Proof. intros s1 s2 H. split; [exact H|reflexivity]. Qed.
Lemma rres_refl {A} (r : res A) : rres eq r r. Proof. destruct r; reflexivity. Qed.
Lemma sim_lift {S A} rel (r : res A) : @sim S A A rel eq (lift r) (lift r).
Proof. intros s1 s2 H. split; [exact H|apply rres_refl]. Qed.
Lemma sim_write {S} (rel : S -> S -> Prop) f g : (forall s1 s2, rel s1 s2 -> rel (f s1) (g s2)) -> sim rel eq (write f) (write g).
Proof. intros E s1 s2 H. split; [apply E; exact H|reflexivity]. Qed.

Section Work.
Context {M : Type}.
Definition wrel (w1 w2 : work M) : Prop := work_without_steps w1 = work_without_steps w2.
Ltac wcases := intros ? ?; unfold wrel, work_without_steps;
  repeat match goal with w : work M |- _ => destruct w end; cbn; intros H; injection H as -> -> -> -> -> -> -> -> -> -> -> -> -> -> -> -> -> -> -> -> -> ->.

Lemma wrel_get {A} (f : work M -> option A) : (forall w1 w2, wrel w1 w2 -> f w1 = f w2) -> sim wrel eq (get f) (get f).
Proof. intros E s1 s2 H. unfold get. rewrite (E _ _ H). destruct (f s2); cbn; auto. Qed.
Lemma wrel_peek {A} (f : work M -> A) : (forall w1 w2, wrel w1 w2 -> f w1 = f w2) -> sim wrel eq (peek f) (peek f).
Proof. intros E s1 s2 H. unfold peek. rewrite (E _ _ H). cbn; auto. Qed.
Lemma wrel_read_iter i : sim wrel eq (@read_iter M i) (read_iter i).
Proof.
  intros s1 s2 H. unfold read_iter. assert (E : w_iter s1 = w_iter s2) by exact (f_equal w_iter H). rewrite E.
  destruct (nth_error _ _); cbn; auto.
Qed.

Context (ops : method_ops M) (e1 : env M) (st2 : dict R).
(** The same environment with other step sizes. *)
Definition other_prep (pr : prep) := mk_prep (p_eq pr) (p_forget pr) (p_ic pr) (p_icpt pr) (p_regicpt pr) st2 (p_order pr).
Definition e2 : env M := mk_env (e_cfg e1) (other_prep (e_prep e1)) (e_nobs e1) (e_ntrain e1) (e_isreg e1) (e_X e1) (e_y e1) (e_w e1).
Notation n := (d_n (o_dist (e_cfg e1))).
Hypothesis H1 : (n <= length (values (p_steps (e_prep e1))))%nat.
Hypothesis H2 : (n <= length (values st2))%nat.

Lemma wrel_read_step i j p : sim wrel (fun _ _ => True) (read_step e1 i j p) (read_step e2 i j p).
Proof.
  intros s1 s2 H. unfold read_step. cbn [e2 e_prep other_prep p_steps e_cfg].
  destruct (p <? n)%nat eqn:E; [|rewrite !andb_false_r; cbn; auto].
  apply Nat.ltb_lt in E. replace (p <? length (values (p_steps (e_prep e1))))%nat with true by (symmetry; apply Nat.ltb_lt; lia).
  replace (p <? length (values st2))%nat with true by (symmetry; apply Nat.ltb_lt; lia). cbn. auto.
Qed.
Lemma wrel_set_step i j p v i' j' p' v' : sim wrel eq (@set_step M i j p v) (set_step i' j' p' v').
Proof. unfold set_step. apply sim_write. wcases. reflexivity. Qed.

Ltac wsim :=
  repeat first
    [ apply sim_ret | apply sim_raise | apply sim_lift | apply wrel_read_iter
    | apply wrel_get; wcases; reflexivity | apply wrel_peek; wcases; reflexivity
    | apply sim_write; wcases; (reflexivity || (match goal with |- context [if ?b then _ else _] => destruct b end; reflexivity))
    | apply sim_bnd_eq; [|intros ?]
    | match goal with
      | |- sim _ _ (match ?y with _ => _ end) _ => destruct y
      | |- sim _ _ (let '(_, _) := ?y in _) _ => destruct y
      | |- sim _ _ (if ?y then _ else _) _ => destruct y
      end ].

Lemma select_rel s1 s2 p wv wt path old mw : wrel s1 s2 ->
  update_select e1 s1 p wv wt path old mw = update_select e2 s2 p wv wt path old mw.
Proof. revert s1 s2. wcases. reflexivity. Qed.

Lemma update_candidate_sim g p io it fv : sim wrel eq (update_candidate ops e1 g p io it fv) (update_candidate ops e2 g p io it fv).
Proof.
  unfold update_candidate, put_dbg, put_dbg_coef, set_wmethod.
  change (working e2 true p fv) with (working e1 true p fv).
  change (e_X e2) with (e_X e1). change (e_cfg e2) with (e_cfg e1).
  change (e_w e2) with (e_w e1). change (e_isreg e2) with (e_isreg e1). change (e_y e2) with (e_y e1). change (e_nobs e2) with (e_nobs e1).
  change (p_forget (e_prep e2)) with (p_forget (e_prep e1)). change (forget_vector e2) with (forget_vector e1).
  apply sim_bnd_eq; [apply sim_lift|]. intros [eta dg]. 
  apply sim_bnd_eq; [wsim|]. intros _. destruct (e_X e1 p) as [k X].
  apply sim_bnd_eq; [wsim|]. intros m.
  apply sim_bnd_eq; [wsim|]. intros x0.
  apply sim_bnd_eq; [wsim|]. intros xg.
  apply sim_bnd_eq; [wsim|]. intros y0.
  apply sim_bnd_eq.
  { destruct (op_path_based ops).
    - apply sim_bnd_eq; [wsim|]. intros path.
      apply sim_bnd_eq; [wsim|]. intros r.
      apply sim_bnd_eq; [wsim|]. intros _.
      apply sim_bnd_eq; [wsim|]. intros old.
      apply sim_bnd_eq; [wsim|]. intros mw.
      apply sim_bnd with (Q := wrel).
      + intros s1 s2 H. cbn. auto.
      + intros s1 s2 H. rewrite (select_rel _ _ _ _ _ _ _ _ H). wsim.
    - wsim. }
  intros [[beta path] msd]. wsim.
Qed.
Lemma inner_update_loop_sim g p io k : forall it fv dvs cnt,
  sim wrel eq (inner_update_loop ops e1 g p io k it fv dvs cnt) (inner_update_loop ops e2 g p io k it fv dvs cnt).
Proof.
  induction k as [|k IH]; intros; cbn [inner_update_loop]; [apply sim_raise|].
  eapply sim_bnd; [apply wrel_read_step|]. intros v1 v2 _.
  apply sim_bnd_eq; [apply update_candidate_sim|]. intros q.
  apply sim_bnd_eq; [destruct (Rltb _ _); [apply wrel_set_step|apply sim_ret]|]. intros _.
  change (update_stop e2) with (update_stop e1).
  destruct (_ || _); [apply sim_ret|apply IH].
Qed.
Lemma inner_update_sim g p io : sim wrel eq (inner_update ops e1 g p io) (inner_update ops e2 g p io).
Proof.
  unfold inner_update, store_update.
  apply sim_bnd_eq; [wsim|]. intros fv.
  change (deviance e2) with (deviance e1). change (p_forget (e_prep e2)) with (p_forget (e_prep e1)). change (e_y e2) with (e_y e1).
  apply sim_bnd_eq; [wsim|]. intros dv0.
  apply sim_bnd_eq; [wsim|]. intros m.
  apply sim_bnd_eq; [apply inner_update_loop_sim|]. intros r. wsim.
Qed.
Lemma update_cycle_sim g ps : forall io dev, sim wrel eq (update_cycle ops e1 g ps io dev) (update_cycle ops e2 g ps io dev).
Proof.
  induction ps as [|p ps IH]; intros; cbn [update_cycle]; [apply sim_ret|].
  apply sim_bnd_eq; [apply inner_update_sim|]. intros. apply IH.
Qed.
Lemma outer_update_sim g fuel : sim wrel eq (outer_update ops e1 g fuel) (outer_update ops e2 g fuel).
Proof.
  unfold outer_update. change (deviance e2) with (deviance e1). change (p_forget (e_prep e2)) with (p_forget (e_prep e1)). change (e_y e2) with (e_y e1).
  apply sim_bnd_eq; [wsim|]. intros fv. apply sim_bnd_eq; [wsim|]. intros di.
  generalize ((1 - p_forget (e_prep e1) 0) ^ length (e_y e1) * g + di + 1000). 
  generalize ((1 - p_forget (e_prep e1) 0) ^ length (e_y e1) * g + di). generalize O.
  induction fuel as [|fuel IH]; intros it dev dev0; cbn [outer_update_loop]; [apply sim_raise|].
  apply sim_bnd_eq; [wsim|]. intros mn. change (e_cfg e2) with (e_cfg e1). change (outer_converged e2) with (outer_converged e1).
  destruct (_ && _); [apply sim_ret|].
  apply sim_bnd_eq; [apply update_cycle_sim|]. intros dev'. apply IH.
Qed.
End Work.

Section Object.
Context {M : Type} (ops : method_ops M) (c : gam_cfg M).
Notation n := (d_n (o_dist c)).
Definition grel (s1 s2 : gam M) : Prop := without_steps s1 = without_steps s2 /\ has_steps n s1 /\ has_steps n s2.
Definition prel (a b : prep) : Prop := prep_without_steps a = prep_without_steps b /\
  (n <= length (values (p_steps a)))%nat /\ (n <= length (values (p_steps b)))%nat.

Lemma grel_prep s1 s2 : grel s1 s2 -> match s_prep s1, s_prep s2 with Some a, Some b => prel a b | None, None => True | _, _ => False end.
Proof.
  intros (E & A & B). assert (F := f_equal s_prep E). cbn in F.
  destruct (s_prep s1) as [a|] eqn:E1, (s_prep s2) as [b|] eqn:E2; cbn in F; try discriminate; [|exact I].
  injection F as F1 F2 F3 F4 F5 F6. repeat split; [|apply A; exact E1|apply B; exact E2].
  unfold prep_without_steps. congruence.
Qed.
Lemma grel_work s1 s2 : grel s1 s2 -> match s_work s1, s_work s2 with Some a, Some b => wrel a b | None, None => True | _, _ => False end.
Proof.
  intros (E & _ & _). assert (F := f_equal s_work E). cbn in F.
  destruct (s_work s1) as [a|] eqn:E1, (s_work s2) as [b|] eqn:E2; cbn in F; try discriminate; [|exact I].
  unfold wrel. congruence.
Qed.
Lemma prel_other a b : prel a b -> b = other_prep (p_steps b) a.
Proof.
  intros (E & _). destruct a, b. unfold prep_without_steps in E. cbn in E. injection E as -> -> -> -> -> ->. reflexivity.
Qed.
Lemma grel_on_work {A} (m1 m2 : st (work M) A) : sim wrel eq m1 m2 -> sim grel eq (on_work m1) (on_work m2).
Proof.
  intros H s1 s2 G. unfold on_work. pose proof (grel_work _ _ G) as W.
  destruct (s_work s1) as [a|] eqn:E1, (s_work s2) as [b|] eqn:E2; try tauto; [|cbn; auto].
  specialize (H a b W). destruct (m1 a) as [a' ra], (m2 b) as [b' rb]. cbn in *. destruct H as [H1 H2]. split; [|exact H2].
  destruct G as (E & A1 & A2). split; [|split; [intros pr Hp; apply A1; exact Hp|intros pr Hp; apply A2; exact Hp]].
  unfold without_steps in *. cbn in *. unfold wrel in H1. injection E as E3 E4 E5 E6 E7 E8 E9 E10 E11. congruence.
Qed.
Lemma grel_read_prep : sim grel prel (read s_prep) (read s_prep).
Proof.
  intros s1 s2 G. unfold read. pose proof (grel_prep _ _ G) as P.
  destruct (s_prep s1), (s_prep s2); try tauto; cbn; auto.
Qed.
Lemma grel_read {A} (f : gam M -> option A) : (forall s, f (without_steps s) = f s) -> sim grel eq (read f) (read f).
Proof.
  intros E s1 s2 G. unfold read. assert (F : f s1 = f s2) by (rewrite <- (E s1), <- (E s2); destruct G as [G _]; now rewrite G).
  rewrite F. destruct (f s2); cbn; auto.
Qed.
Lemma grel_write f : (forall s, without_steps (f s) = f (without_steps s)) -> (forall s, s_prep (f s) = s_prep s) ->
  sim grel eq (write f) (write f).
Proof.
  intros E1 E2. apply sim_write. intros s1 s2 (E & A & B). split; [rewrite !E1; now rewrite E|].
  split; intros pr Hp; rewrite E2 in Hp; auto.
Qed.
Lemma grel_old p k : sim grel eq (@gvalidate_old M p k) (gvalidate_old p k).
Proof.
  unfold gvalidate_old. destruct (_ || _); [apply sim_raise|]. intros s1 s2 G.
  assert (F : s_nfin s1 = s_nfin s2) by (destruct G as [G _]; exact (f_equal s_nfin G)). rewrite F.
  destruct (s_nfin s2) as [q|]; [destruct (Nat.eqb p q)|]; cbn; auto.
Qed.
Ltac gsim :=
  repeat first
    [ apply sim_ret | apply sim_raise | apply sim_lift | apply grel_old
    | apply grel_read; intros ?; reflexivity
    | apply grel_write; intros ?; reflexivity
    | apply sim_bnd_eq; [|intros ?]
    | match goal with
      | |- sim _ _ (match ?y with _ => _ end) _ => destruct y
      | |- sim _ _ (let '(_, _) := ?y in _) _ => destruct y
      | |- sim _ _ (if ?y then _ else _) _ => destruct y
      end ].
Lemma arrays_other st a k X : arrays c (other_prep st a) k X = arrays c a k X.
Proof.
  unfold arrays. f_equal. induction (seq 0 n) as [|p ps IH]; cbn [all_arrays]; [reflexivity|]. now rewrite IH.
Qed.
Lemma predict_sim r p X : sim grel eq (predict_parameters c r p X) (predict_parameters c r p X).
Proof.
  intros s1 s2 G. unfold predict_parameters.
  assert (F : gfitted s1 = gfitted s2).
  { pose proof (grel_work _ _ G) as W. destruct G as [G _]. unfold gfitted.
    assert (F1 := f_equal s_nfin G). assert (F2 := f_equal s_nobs G). assert (F3 := f_equal s_ntrain G). assert (F4 := f_equal s_J G).
    cbn in F1, F2, F3, F4. rewrite F1, F2, F3, F4. destruct (s_work s1), (s_work s2); try tauto; reflexivity. }
  rewrite F. destruct (gfitted s2); [|cbn; auto]. revert s1 s2 G F.
  match goal with |- forall s1 s2, grel s1 s2 -> _ -> grel (fst (?m1 s1)) (fst (?m2 s2)) /\ _ => assert (K : sim grel eq m1 m2) end.
  2:{ intros s1 s2 G _. apply K. exact G. }
  apply sim_bnd_eq; [apply grel_old|]. intros _.
  apply sim_bnd_eq; [apply grel_read; reflexivity|]. intros [sc|]; [|apply sim_raise].
  destruct (_ && _); [apply sim_raise|].
  eapply sim_bnd; [apply grel_read_prep|]. intros a b P. rewrite (prel_other a b P).
  rewrite arrays_other.
  apply sim_bnd_eq; [apply sim_lift|]. intros A.
  apply sim_bnd with (Q := fun w1 w2 => w_coef w1 = w_coef w2).
  { intros s1 s2 G. unfold read. pose proof (grel_work _ _ G) as W. destruct (s_work s1), (s_work s2); try tauto; cbn; auto.
    split; [exact G|]. exact (f_equal w_coef W). }
  intros w1 w2 W. rewrite W. apply sim_ret.
Qed.
Lemma update_scaler_sim b : sim grel eq (@gupdate_scaler M b) (gupdate_scaler b).
Proof. unfold gupdate_scaler, gset_scaler. gsim. Qed.
Lemma C61_sim_lemma b : sim grel eq (gam_update ops c b) (gam_update ops c b).
Proof.
  unfold gam_update, gset_nobs, gset_ntrain, gset_dev, validate_support.
  apply sim_bnd_eq; [apply grel_old|]. intros _.
  apply sim_bnd_eq; [gsim|]. intros _.
  apply sim_bnd_eq; [gsim|]. intros n0.
  apply sim_bnd_eq; [gsim|]. intros _.
  eapply sim_bnd; [apply grel_read_prep|]. intros a b' P. rewrite (prel_other a b' P). cbn [p_forget other_prep].
  apply sim_bnd_eq; [gsim|]. intros _.
  apply sim_bnd_eq; [apply predict_sim|]. intros fv.
  apply sim_bnd_eq; [apply update_scaler_sim|]. intros sc. rewrite arrays_other.
  apply sim_bnd_eq; [gsim|]. intros X.
  apply sim_bnd_eq.
  { apply grel_on_work, sim_write. intros w1 w2. unfold wrel, restart_work, work_without_steps. destruct w1, w2; cbn.
    intros H. injection H as -> -> -> -> -> -> -> -> -> -> -> -> -> -> -> -> -> -> -> -> -> ->. reflexivity. }
  intros _.
  apply sim_bnd_eq.
  { destruct (o_cautious c); [|apply sim_ret]. apply sim_bnd_eq; [apply sim_lift|]. intros lh.
    apply grel_on_work, sim_write. intros w1 w2. unfold wrel, cautious_work, work_without_steps. destruct w1, w2; cbn.
    intros H. injection H as -> -> -> -> -> -> -> -> -> -> -> -> -> -> -> -> -> -> -> -> -> ->. reflexivity. }
  intros _.
  apply sim_bnd_eq; [gsim|]. intros g.
  apply sim_bnd_eq; [gsim|]. intros isreg.
  apply sim_bnd_eq.
  { apply grel_on_work.
    apply (outer_update_sim ops (mk_env c a (n0 + lsum (ws (b_rows b)))
      (fun p => effective_training_length (p_forget a p) (n0 + lsum (ws (b_rows b)))) isreg X (ys (b_rows b)) (ws (b_rows b))) (p_steps b'));
      cbn [e_prep e_cfg]; apply P. }
  intros r. apply sim_bnd_eq; [|intros _; gsim].
  apply grel_on_work, sim_write. intros w1 w2. unfold wrel, commit_work, work_without_steps. destruct w1, w2; cbn.
  intros H. injection H as -> -> -> -> -> -> -> -> -> -> -> -> -> -> -> -> -> -> -> -> -> ->. reflexivity.
Qed.
Lemma rres_eq {A} (r1 r2 : res A) : rres eq r1 r2 -> r1 = r2.
Proof. destruct r1, r2; cbn; intuition congruence. Qed.
Lemma C61_lemma b s1 s2 : without_steps s1 = without_steps s2 -> has_steps n s1 -> has_steps n s2 ->
  snd (gam_update ops c b s1) = snd (gam_update ops c b s2) /\
  without_steps (fst (gam_update ops c b s1)) = without_steps (fst (gam_update ops c b s2)) /\
  has_steps n (fst (gam_update ops c b s1)) /\ has_steps n (fst (gam_update ops c b s2)).
Proof.
  intros E A B. destruct (C61_sim_lemma b s1 s2 (conj E (conj A B))) as [(G1 & G2 & G3) G]. apply rres_eq in G. auto.
Qed.
(** Any number of updates, successful or not, and a prediction at the end. *)
Lemma C61_stream_lemma bs : forall s1 s2, without_steps s1 = without_steps s2 -> has_steps n s1 -> has_steps n s2 ->
  forall r p X, snd (predict_parameters c r p X (gam_updates ops c bs s1)) = snd (predict_parameters c r p X (gam_updates ops c bs s2)).
Proof.
  induction bs as [|b bs IH]; intros s1 s2 E A B r p X; cbn [gam_updates].
  - destruct (predict_sim r p X s1 s2 (conj E (conj A B))) as [_ G]. apply rres_eq. exact G.
  - destruct (C61_lemma b s1 s2 E A B) as (_ & E' & A' & B'). apply IH; assumption.
Qed.

(** fit, whether it completes or not, leaves a step size for every parameter. *)
Lemma prepare_steps pr m : prepare c = Ok (pr, m) -> (n <= length (values (p_steps pr)))%nat.
Proof.
  unfold prepare. intros H.
  destruct (process_equation _ _ _); [|discriminate]. cbn [bind] in H.
  destruct (all_methods _ _); [|discriminate]. cbn [bind] in H.
  match type of H with bind ?r _ = _ => destruct r; [|discriminate] end. cbn [bind] in H. injection H as <- _. cbn [p_steps].
  unfold values. rewrite map_length.
  set (D := fst (process_parameter n (o_step c) 1)).
  replace (length D) with (length (keys D)) by (unfold keys; apply map_length).
  rewrite <- (seq_length n 0) at 1. apply NoDup_incl_length; [apply seq_NoDup|].
  intros p Hp. apply in_seq in Hp.
  eapply lookup_in. apply C54_completed_lemma. lia.
Qed.
End Object.
