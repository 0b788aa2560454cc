(** Lemmas for C127. *)
From Coq Require Import Reals List Bool Arith ZArith Lra Lia.
From Verif Require Import Base Lin Data M_Gram M_OLS M_Scaler M_Utils M_Links M_State M_LM M_Equation M_GAMLSS.
From Verif Require Import S_GAMLSS L_GAM1 L_GAM2 L_GAM3 S_Outer.
Import ListNotations.
Open Scope R_scope.
Open Scope st_scope.

Lemma last_of_cons (a : R) l dv : last (a :: l) dv = last l a.
Proof. revert a dv. induction l as [|b l IH]; intros a dv; [reflexivity|]. change (last (a :: b :: l) dv) with (last (b :: l) dv). rewrite !IH. reflexivity. Qed.

Section Loops.
Context {M : Type} (ops : method_ops M) (e : env M).
Notation c := (e_cfg e).

Lemma outer_converged_iff old new : outer_converged e old new = true <-> within_tolerance c old new.
Proof.
  unfold outer_converged, rel_close, within_tolerance. rewrite orb_true_iff, andb_true_iff, negb_true_iff, !Rltb_true, Reqb_false. tauto.
Qed.

(** The loop from cycle [it] on: the condition of ending, for any deviances before. *)
Definition later (inc : bool) (mn it : nat) (old dev : R) (ds : list R) (k : nat) : Prop :=
  (mn <= it + k)%nat /\
  (within_tolerance c (nth k (old :: dev :: ds) 0) (nth k (dev :: ds) 0) \/ (o_max_outer c <= it + k)%nat \/
   (inc = true /\ nth k (old :: dev :: ds) 0 < nth k (dev :: ds) 0)).
Lemma later_S inc mn it old dev d ds k : later inc mn it old dev (d :: ds) (S k) <-> later inc mn (S it) dev d ds k.
Proof. unfold later. cbn [nth]. replace (it + S k)%nat with (S it + k)%nat by lia. tauto. Qed.

Lemma fit_loop_trace fuel : forall it old dev s s' dv n,
  outer_fit_loop ops e fuel it old dev s = (s', Ok (dv, n)) ->
  exists ds, cycles_run (fun it dev => fit_cycle ops e (p_order (e_prep e)) it dev) it dev s ds s' /\
    n = (it + length ds)%nat /\ dv = last ds dev /\ later true (w_min s) it old dev ds (length ds) /\
    forall k, (k < length ds)%nat -> ~ later true (w_min s) it old dev ds k.
Proof.
  induction fuel as [|fuel IH]; intros it old dev s s' dv n H; cbn [outer_fit_loop] in H; [discriminate|].
  peel_as H mn s1 P. apply peek_inv in P. destruct P as [-> <-].
  destruct ((w_min s <=? it)%nat && _) eqn:E.
  - apply ret_inv in H. destruct H as [-> H]. injection H as -> <-. exists []. split; [constructor|].
    split; [cbn; lia|]. split; [reflexivity|]. split; [|intros k Hk; cbn in Hk; lia].
    apply andb_prop in E. destruct E as [E1 E2]. apply Nat.leb_le in E1. unfold later. cbn [length nth].
    split; [lia|]. rewrite !orb_true_iff, outer_converged_iff, Nat.leb_le, Rltb_true in E2. 
    rewrite Nat.add_0_r. tauto.
  - peel_as H dev' s1 P. apply IH in H. destruct H as (ds & H1 & H2 & H3 & H4 & H5).
    destruct (plan_of _ _ _ _ (fit_cycle_plan ops e _ _ _) P) as [_ I2]. rewrite I2 in H4, H5.
    exists (dev' :: ds). replace (S it) with (it + 1)%nat in H1, P by lia.
    split; [econstructor; eauto|]. split; [cbn; lia|]. split; [rewrite H3; symmetry; apply last_of_cons|].
    split; [apply later_S; exact H4|]. intros [|k] Hk.
    + intros [L1 L2]. cbn [nth] in L2. rewrite Nat.add_0_r in L1, L2. apply andb_false_iff in E. destruct E as [E|E].
      * apply Nat.leb_gt in E. lia.
      * rewrite !orb_false_iff in E. destruct E as [[E1 E2] E3].
        apply Nat.leb_gt in E2. apply Rltb_false in E3. rewrite <- outer_converged_iff in L2.
        destruct L2 as [L2|[L2|[_ L2]]]; [congruence|lia|lra].
    + rewrite later_S. apply H5. cbn in Hk. lia.
Qed.
Lemma update_loop_trace g fuel : forall it old dev s s' dv n,
  outer_update_loop ops e g fuel it old dev s = (s', Ok (dv, n)) ->
  exists ds, cycles_run (fun it dev => update_cycle ops e g (p_order (e_prep e)) it dev) it dev s ds s' /\
    n = (it + length ds)%nat /\ dv = last ds dev /\ later false (w_min s) it old dev ds (length ds) /\
    forall k, (k < length ds)%nat -> ~ later false (w_min s) it old dev ds k.
Proof.
  induction fuel as [|fuel IH]; intros it old dev s s' dv n H; cbn [outer_update_loop] in H; [discriminate|].
  peel_as H mn s1 P. apply peek_inv in P. destruct P as [-> <-].
  destruct ((w_min s <=? it)%nat && _) eqn:E.
  - apply ret_inv in H. destruct H as [-> H]. injection H as -> <-. exists []. split; [constructor|].
    split; [cbn; lia|]. split; [reflexivity|]. split; [|intros k Hk; cbn in Hk; lia].
    apply andb_prop in E. destruct E as [E1 E2]. apply Nat.leb_le in E1. unfold later. cbn [length nth].
    split; [lia|]. rewrite !orb_true_iff, outer_converged_iff, Nat.leb_le in E2. 
    rewrite Nat.add_0_r. tauto.
  - peel_as H dev' s1 P. apply IH in H. destruct H as (ds & H1 & H2 & H3 & H4 & H5).
    destruct (plan_of _ _ _ _ (update_cycle_plan ops e _ _ _ _) P) as [_ I2]. rewrite I2 in H4, H5.
    exists (dev' :: ds). replace (S it) with (it + 1)%nat in H1, P by lia.
    split; [econstructor; eauto|]. split; [cbn; lia|]. split; [rewrite H3; symmetry; apply last_of_cons|].
    split; [apply later_S; exact H4|]. intros [|k] Hk.
    + intros [L1 L2]. cbn [nth] in L2. rewrite Nat.add_0_r in L1, L2. apply andb_false_iff in E. destruct E as [E|E].
      * apply Nat.leb_gt in E. lia.
      * rewrite !orb_false_iff in E. destruct E as [E1 E2].
        apply Nat.leb_gt in E2. rewrite <- outer_converged_iff in L2.
        destruct L2 as [L2|[L2|[L2 _]]]; [congruence|lia|discriminate].
    + rewrite later_S. apply H5. cbn in Hk. lia.
Qed.
End Loops.

Section Object.
Context {M : Type} (ops : method_ops M) (c : gam_cfg M).

Lemma C127_fit_lemma b s s' : gam_fit ops c b s = (s', Ok tt) ->
  exists e w0 w D0 ds, e_cfg e = c /\ e_y e = ys (b_rows b) /\ e_w e = ws (b_rows b) /\ s_prep s' = Some (e_prep e) /\
    d_init (o_dist c) (ys (b_rows b)) = Ok (w_fv w0) /\ deviance e (w_fv w0) = Ok D0 /\
    cycles_run (fun it dev => fit_cycle ops e (p_order (e_prep e)) it dev) 0 D0 w0 ds w /\ s_work s' = Some w /\
    s_dev s' = Some (last ds D0, length ds) /\ ended c true (fit_minimum c) D0 ds.
Proof.
  intros H. apply gam_fit_ok in H.
  destruct H as (pr & methods & fv & js & sc & X & w & dv & n & Ep & _ & _ & _ & _ & Ef & _ & _ & _ & Eo & ->).
  unfold outer_fit in Eo.
  peel_as Eo fv1 s1 P1. apply peek_inv in P1. destruct P1 as [-> E]. 
  peel_as Eo dev s2 P2. apply lift_inv in P2. destruct P2 as [-> Ed]. rewrite <- E in Ed.
  apply fit_loop_trace in Eo. destruct Eo as (ds & H1 & -> & -> & H4 & H5).
  exists (start_env c pr b X), (start_work c pr methods fv), w, dev, ds.
  do 9 (split; [reflexivity || assumption|]). split; [exact H4|exact H5].
Qed.

Lemma C127_update_lemma b s s' : gam_update ops c b s = (s', Ok tt) ->
  exists e w0 w D d0 it0 d ds, e_cfg e = c /\ e_y e = ys (b_rows b) /\ e_w e = ws (b_rows b) /\ s_prep s = Some (e_prep e) /\
    s_dev s = Some (d0, it0) /\ snd (predict_parameters c true (b_p b) (Xs (b_rows b)) s) = Ok (w_fv w0) /\
    deviance e (w_fv w0) = Ok d /\ D = (1 - p_forget (e_prep e) 0) ^ length (b_rows b) * d0 + d /\
    cycles_run (fun it dev => update_cycle ops e d0 (p_order (e_prep e)) it dev) 0 D w0 ds w /\
    option_map w_min (s_work s') = Some (w_min w0) /\ option_map w_coef (s_work s') = Some (w_coef w) /\
    s_dev s' = Some (last ds D, length ds) /\ ended c false (w_min w0) D ds.
Proof.
  intros H. apply gam_update_ok in H.
  destruct H as (n0 & pr & fv & sc0 & sc & X & w0 & w1 & w & dev0 & it0 & isreg & dv & n &
    _ & _ & _ & _ & _ & _ & Epr & _ & Ew & Ed & _ & Ef & _ & _ & Ea & Eo & ->).
  assert (Efv : w_fv w1 = fv).
  { unfold again_work in Ea. destruct (o_cautious c).
    - destruct (cautious_bounds c fv); [|discriminate]. cbn [bind] in Ea. injection Ea as <-. reflexivity.
    - injection Ea as <-. reflexivity. }
  unfold outer_update in Eo.
  peel_as Eo fv1 s1 P1. apply peek_inv in P1. destruct P1 as [-> E]. 
  peel_as Eo dev s2 P2. apply lift_inv in P2. destruct P2 as [-> Edv]. rewrite <- E in Edv.
  apply update_loop_trace in Eo. destruct Eo as (ds & H1 & -> & -> & H4 & H5).
  exists (again_env c pr isreg n0 b X), w1, w. eexists. exists dev0, it0, dev, ds.
  assert (Em : w_min w = w_min w1).
  { clear - H1. remember 0%nat as it. clear Heqit. induction H1 as [|it dv s dev1 s1 ds s' Hc Hr IH]; [reflexivity|].
    rewrite IH. exact (proj2 (plan_of _ _ _ _ (update_cycle_plan ops _ _ _ _ _) Hc)). }
  split; [reflexivity|]. split; [reflexivity|]. split; [reflexivity|]. split; [exact Epr|]. split; [exact Ed|].
  split; [rewrite Efv; exact Ef|]. split; [exact Edv|]. split; [reflexivity|].
  cbn [again_env e_y e_prep] in *. unfold ys in H1, H4, H5 |- *. rewrite map_length in *.
  split; [exact H1|]. split; [cbn; f_equal; exact Em|]. split; [reflexivity|]. split; [reflexivity|].
  split; [exact H4|exact H5].
Qed.

(** Tolerances of zero are never met. *)
Lemma zero_tolerance old new : o_rel_outer c <= 0 -> o_abs_outer c <= 0 -> ~ within_tolerance c old new.
Proof.
  intros H1 H2 [[N H]|H].
  - assert (0 <= Rabs (old - new) / Rabs old). { apply Rmult_le_pos; [apply Rabs_pos|]. left. apply Rinv_0_lt_compat. now apply Rabs_pos_lt. } lra.
  - pose proof (Rabs_pos (old - new)). lra.
Qed.
Lemma C127_all_cycles_lemma b s s' : o_rel_outer c <= 0 -> o_abs_outer c <= 0 -> has_order s ->
  gam_update ops c b s = (s', Ok tt) -> cycles s' = Some (o_max_outer c).
Proof.
  intros Z1 Z2 Ho H. destruct (C58_update_lemma ops c b s s' Ho H) as (dv & n & w & E1 & _ & E3).
  destruct (C127_update_lemma b s s' H) as (e & w0 & w' & D & d0 & it0 & dd & ds & _ & _ & _ & _ & _ & _ & _ & _ & _ & _ & _ & E & [[_ En] _]).
  unfold cycles. rewrite E in E1 |- *. cbn. injection E1 as _ <-. f_equal.
  destruct En as [En|[En|[En _]]]; [destruct (zero_tolerance _ _ Z1 Z2 En)|lia|discriminate].
Qed.
Lemma C127_descent_lemma b s s' : gam_fit ops c b s = (s', Ok tt) ->
  exists D0 ds, s_dev s' = Some (last ds D0, length ds) /\
    (forall k, (fit_minimum c <= k < length ds)%nat -> after D0 ds k <= before D0 ds k) /\
    ((length ds < o_max_outer c)%nat ->
       within_tolerance c (before D0 ds (length ds)) (last ds D0) \/ before D0 ds (length ds) < last ds D0).
Proof.
  intros H. destruct (C127_fit_lemma b s s' H) as (e & w0 & w & D0 & ds & _ & _ & _ & _ & _ & _ & _ & _ & E & [[_ En] Hk]).
  exists D0, ds. split; [exact E|]. split.
  - intros k Hk2. apply Rnot_lt_le. intros L. apply (Hk k ltac:(lia)). split; [lia|]. auto.
  - assert (L : after D0 ds (length ds) = last ds D0).
    { unfold after. generalize D0. clear. induction ds as [|a ds IH]; intros D; [reflexivity|].
      change (nth (length (a :: ds)) (D :: a :: ds) 0) with (nth (length ds) (a :: ds) 0).
      rewrite IH. symmetry. apply last_of_cons. }
    rewrite L in En. intros Hl. destruct En as [En|[En|[_ En]]]; [auto|lia|auto].
Qed.
End Object.
