(** Lemmas: model selection and predictions of the distributional regression. *)
From Coq Require Import Reals List Bool Arith ZArith Lra Lia.
From Verif Require Import Base Lin Data M_Gram M_OLS M_Scaler M_Utils M_Links M_DistTable M_Dist M_State M_LM M_Equation M_GAMLSS M_GAMDist.
From Verif Require Import S_Utils S_Links S_LM S_Equation S_Dist S_GAMLSS L_Utils L_Links L_LM2 L_Equation L_GAM1 L_GAM2 L_GAM3 L_GAM4 L_GAM7 L_GAM8 L_GAM9 L_GAM10.
Import ListNotations.
Open Scope R_scope.
Open Scope st_scope.

(** * C65 *)
Lemma from_ll_spec c n k l v : from_ll c n k l = Ok v -> v = penalised c n k (- 2 * l).
Proof.
  unfold from_ll, penalised. destruct c; try (intros H; injection H as <-; lra).
  destruct (Reqb _ 0) eqn:E; [discriminate|]. apply Reqb_false in E. intros H; injection H as <-. field. lra.
Qed.
Lemma from_ll_array_spec c n ks : forall ll ic, length ks = length ll -> from_ll_array c n ks ll = Ok ic ->
  ic = map2 (fun k l => penalised c n k (- 2 * l)) ks ll.
Proof.
  intros ll ic L H.
  assert (E : sequence (map2 (from_ll c n) ks ll) = Ok ic).
  { unfold from_ll_array in H. destruct c; auto. destruct (2 <=? _)%nat; [discriminate H|exact H]. }
  clear H. apply sequence_ok in E. revert ll ic L E.
  induction ks as [|k ks IH]; intros [|l ll] ic L E; cbn in *; try discriminate L.
  - destruct ic; [reflexivity|discriminate E].
  - destruct ic as [|v ic]; [discriminate E|]. cbn in E. injection E as E1 E2. f_equal; [apply from_ll_spec, E1|apply IH; auto].
Qed.
Lemma map2_map_l {A A' B C} (f : A' -> B -> C) (g : A -> A') l : forall m, map2 f (map g l) m = map2 (fun a b => f (g a) b) l m.
Proof. induction l as [|a l IH]; intros [|b m]; cbn; auto. now rewrite IH. Qed.
Lemma map2_map_r {A B B' C} (f : A -> B' -> C) (g : B -> B') l : forall m, map2 f l (map g m) = map2 (fun a b => f a (g b)) l m.
Proof. induction l as [|a l IH]; intros [|b m]; cbn; auto. now rewrite IH. Qed.
Lemma map2_ext' {A B C} (f g : A -> B -> C) l m : (forall a b, f a b = g a b) -> map2 f l m = map2 g l m.
Proof. intros H. revert m. induction l as [|a l IH]; intros [|b m]; cbn; auto. now rewrite IH, H. Qed.

Lemma path_lls_length {M} (e : env M) p fv w path : forall ll, path_lls e p fv w path = Ok ll -> length ll = length path.
Proof.
  induction path as [|b path IH]; intros ll H; cbn [path_lls] in H; [injection H as <-; reflexivity|].
  destruct (path_ll _ _ _ _ b); [|discriminate]. cbn [bind] in H.
  destruct (path_lls _ _ _ _ path) as [r0|]; [|discriminate]. cbn [bind] in H. injection H as <-. cbn. now rewrite (IH r0 eq_refl).
Qed.
Lemma all_some_length {A} (l : list (option A)) r : all_some l = Ok r -> length r = length l.
Proof. intros H. apply all_some_inv in H. subst l. now rewrite map_length. Qed.
Lemma count_other_nat {M} (e : env M) (s : work M) p : exists m, count_other e s p = INR m.
Proof.
  unfold count_other. induction (filter _ _) as [|q l [m IH]]; cbn [map lsum]; [exists O; reflexivity|].
  exists (length (filter (fun j => negb (Reqb (w_coef s q j) 0)) (seq 0 (fst (e_X e q)))) + m)%nat. rewrite plus_INR, IH. reflexivity.
Qed.

Section Sel.
Context {M : Type} (e : env M).
Notation crit p := (p_ic (e_prep e) p).
Notation n p := (e_ntrain e p).
Notation glob := (o_global_ll (e_cfg e)).
Definition sel_value (p others : nat) (b : vec) (v : R) : R :=
  penalised (crit p) (n p) (INR (length (filter (fun j => negb (Reqb (b j) 0)) (seq 0 (fst (e_X e p))))) + INR others)
     (if glob then - 2 * v else n p * (ln (2 * PI) + ln (v / n p) + 1)).

Lemma select_common p (path : list vec) (data : list R) others ks ic i : length data = length path ->
  ks = map (fun b => nonzeros (fst (e_X e p)) b + INR others) path ->
  (if glob then from_ll_array (crit p) (n p) ks data else from_rss_array (crit p) (n p) ks data) = Ok ic ->
  argmin ic = Ok i ->
  (i < length path)%nat /\ first_min (map2 (sel_value p others) path data) i.
Proof.
  intros L -> Hic Hi. unfold sel_value.
  assert (E : ic = map2 (sel_value p others) path data).
  { destruct glob eqn:G.
    - apply from_ll_array_spec in Hic; [|rewrite map_length; congruence]. rewrite Hic, map2_map_l. apply map2_ext'.
      intros b v. unfold sel_value. rewrite G. reflexivity.
    - unfold from_rss_array in Hic. apply from_ll_array_spec in Hic; [|rewrite !map_length; congruence].
      rewrite Hic, map2_map_l, map2_map_r. apply map2_ext'. intros b v. unfold sel_value. rewrite G. unfold nonzeros.
      f_equal. field. }
  apply argmin_spec in Hi. rewrite E in Hi. split; [|exact Hi].
  destruct Hi as [Hi _]. rewrite map2_length in Hi by congruence. exact Hi.
Qed.
Lemma fit_select_ok (s : work M) p wv wt path b data i : fit_select e s p wv wt path = Ok (b, data, i) ->
  length data = length path /\ (i < length path)%nat /\ b = nth i path (fun _ => 0) /\
  exists others, first_min (map2 (sel_value p others) path data) i.
Proof.
  unfold fit_select. destruct (count_other_nat e s p) as [m Em].
  assert (Ks : map (fun b => nonzeros (fst (e_X e p)) b + count_other e s p) path =
               map (fun b => nonzeros (fst (e_X e p)) b + INR m) path) by (apply map_ext; intros; now rewrite Em).
  rewrite Ks. intros H.
  destruct (o_global_ll (e_cfg e)) eqn:G.
  - destruct (path_lls _ _ _ _ _) as [ll|] eqn:E1; [|discriminate]. cbn [bind] in H.
    destruct (from_ll_array _ _ _ _) as [ic|] eqn:E2; [|discriminate]. cbn [bind] in H.
    destruct (argmin ic) as [best|] eqn:E3; [|discriminate]. cbn [bind] in H. injection H as <- <- <-.
    apply path_lls_length in E1. split; [exact E1|].
    destruct (select_common p path ll m _ ic best E1 eq_refl) as [K1 K2]; [rewrite G; exact E2|exact E3|].
    split; [exact K1|]. split; [reflexivity|]. exists m. exact K2.
  - destruct (number_or_nan _) as [mw|]; [|discriminate]. cbn [bind] in H.
    destruct (all_some _) as [rss|] eqn:E1; [|discriminate]. cbn [bind] in H.
    destruct (from_rss_array _ _ _ _) as [ic|] eqn:E2; [|discriminate]. cbn [bind] in H.
    destruct (argmin ic) as [best|] eqn:E3; [|discriminate]. cbn [bind] in H. injection H as <- <- <-.
    apply all_some_length in E1. rewrite map_length in E1. split; [exact E1|].
    destruct (select_common p path rss m _ ic best E1 eq_refl) as [K1 K2]; [rewrite G; exact E2|exact E3|].
    split; [exact K1|]. split; [reflexivity|]. exists m. exact K2.
Qed.
Lemma update_select_ok (s : work M) p wv wt path old mw b data i : update_select e s p wv wt path old mw = Ok (b, data, i) ->
  length data = length path /\ (i < length path)%nat /\ b = nth i path (fun _ => 0) /\
  exists others, first_min (map2 (sel_value p others) path data) i.
Proof.
  unfold update_select. destruct (Nat.eqb_spec (length old) (length path)) as [Lo|]; [|discriminate]. cbn [negb]. intros H.
  destruct (o_global_ll (e_cfg e)) eqn:G.
  - destruct (path_lls _ _ _ _ _) as [ll|] eqn:E1; [|discriminate]. cbn [bind] in H.
    destruct (from_ll_array _ _ _ _) as [ic|] eqn:E2; [|discriminate]. cbn [bind] in H.
    destruct (argmin ic) as [best|] eqn:E3; [|discriminate]. cbn [bind] in H. injection H as <- <- <-.
    apply path_lls_length in E1.
    match goal with |- length ?x = _ /\ _ => set (data := x) in * end.
    assert (E1' : length data = length path) by (unfold data; rewrite map2_length; lia). split; [exact E1'|].
    destruct (select_common p path data O (map (nonzeros (fst (e_X e p))) path) ic best E1') as [K1 K2];
      [apply map_ext; intros; cbn [INR]; ring|rewrite G; exact E2|exact E3|].
    split; [exact K1|]. split; [reflexivity|]. exists O. exact K2.
  - destruct (all_some _) as [rss|] eqn:E1; [|discriminate]. cbn [bind] in H.
    destruct (from_rss_array _ _ _ _) as [ic|] eqn:E2; [|discriminate]. cbn [bind] in H.
    destruct (argmin ic) as [best|] eqn:E3; [|discriminate]. cbn [bind] in H. injection H as <- <- <-.
    apply all_some_length in E1. rewrite map2_length in E1 by congruence. split; [exact E1|].
    destruct (count_other_nat e s p) as [m Em].
    destruct (select_common p path rss m _ ic best E1 eq_refl) as [K1 K2]; [rewrite G, <- E2; f_equal; rewrite map_map; apply map_ext; intros; now rewrite Em|exact E3|].
    split; [exact K1|]. split; [reflexivity|]. exists m. exact K2.
Qed.
Lemma chosen_intro (w : work M) p path data i : w_path w p = Some path -> w_msd w p = Some data -> w_coef w p = nth i path (fun _ => 0) ->
  length data = length path -> (i < length path)%nat -> (exists others, first_min (map2 (sel_value p others) path data) i) ->
  chosen glob (crit p) (n p) (fst (e_X e p)) w p.
Proof.
  intros H1 H2 H3 H4 H5 [m H6]. exists path, data, i, m. do 5 (split; [assumption|]). cbv zeta. intros _. exact H6.
Qed.
End Sel.

Lemma make_width eq icpt ncol X k rows : make_model_array eq icpt ncol X = Ok (k, rows) ->
  exists r, make_model_array eq icpt ncol [] = Ok (k, r).
Proof.
  unfold make_model_array. destruct eq; try (destruct icpt; [|discriminate]; intros H; injection H as <- _; eauto; fail);
  (destruct (columns _ _) as [ks|]; [|discriminate]; cbn [bind]; destruct icpt; intros H; injection H as <- _; eauto).
Qed.
Lemma arrays_width {M} (c : gam_cfg M) pr ncol X A p : arrays c pr ncol X = Ok A -> (p < d_n (o_dist c))%nat ->
  fst (A p) = design_width pr ncol p.
Proof.
  unfold arrays. intros H Hp.
  assert (Q : forall ps l, all_arrays pr ncol X ps = Ok l -> forall i, (i < length ps)%nat ->
     fst (nth i l (O, [])) = design_width pr ncol (nth i ps O)).
  { intros ps. induction ps as [|q ps IH]; intros l Hl i Hi; [cbn in Hi; lia|]. cbn [all_arrays] in Hl.
    destruct (make_model_array _ _ _ _) as [[k a]|] eqn:Ea; [|discriminate]. cbn [bind] in Hl.
    destruct (all_arrays _ _ _ ps) as [r|] eqn:Er; [|discriminate]. cbn [bind] in Hl. injection Hl as <-.
    destruct i as [|i]; cbn [nth]; [|apply (IH r eq_refl); cbn in Hi; lia].
    unfold design_width. destruct (make_width _ _ _ _ _ _ Ea) as [r' ->]. reflexivity. }
  destruct (all_arrays pr ncol X _) as [l|] eqn:E; [|discriminate]. cbn [bind] in H. injection H as <-.
  rewrite (Q (seq 0 (d_n (o_dist c))) l E) by now rewrite seq_length. now rewrite seq_nth.
Qed.

Lemma C65_fit_lemma {M} (ops : method_ops M) (c : gam_cfg M) b s s' p : op_path_based ops = true ->
  gam_fit ops c b s = (s', Ok tt) -> cycles s' <> Some O -> (p < d_n (o_dist c))%nat ->
  exists pr n w, s_prep s' = Some pr /\ s_ntrain s' = Some n /\ s_work s' = Some w /\
    n p = effective_training_length (p_forget pr p) (lsum (ws (b_rows b))) /\
    chosen (o_global_ll c) (p_ic pr p) (n p) (design_width pr (b_p b) p) w p.
Proof.
  intros Hb H Hcy Hp. apply gam_fit_ok in H.
  destruct H as (pr & methods & fv & js & sc & X & w & dv & n & Ep & _ & _ & _ & _ & _ & _ & _ & EX & Eo & ->).
  set (e := start_env c pr b X) in *.
  exists pr, (e_ntrain e), w. do 4 (split; [reflexivity|]).
  rewrite <- (arrays_width c pr (b_p b) _ X p EX Hp).
  change (X p) with (e_X e p). change (o_global_ll c) with (o_global_ll (e_cfg e)). change pr with (e_prep e) at 1.
  eapply (outer_fit_all ops e (fun p w => chosen (o_global_ll (e_cfg e)) (p_ic (e_prep e) p) (e_ntrain e p) (fst (e_X e p)) w p)) in Eo.
  - destruct Eo as [->|Eo]; [exfalso; apply Hcy; reflexivity|]. apply Eo. unfold e. cbn. eapply prepare_order; eauto.
  - intros q t s1 s2 s3 qc it io i step dvo fv1 pth _ _ _ Hc. apply fit_candidate_full in Hc. cbv zeta in Hc.
    destruct Hc as (eta & gd & m & _ & _ & _ & _ & _ & _ & _ & Hc). rewrite Hb in Hc.
    destruct Hc as (m' & path & j & msd & _ & Hs & E1 & E2). apply fit_select_ok in Hs. destruct Hs as (K1 & K2 & K3 & K4).
    eapply chosen_intro with (path := path) (data := msd) (i := j); auto;
      unfold set_itinner, store_fit, write; cbn [fst w_path w_msd w_coef]; rewrite ?E1, ?E2; unfold fupd; rewrite Nat.eqb_refl; auto.
  - intros q q' t t' _ _ _ E3 E4 E5 _ _ _ (path & data & i & m & K). exists path, data, i, m. rewrite E3, E4, E5. exact K.
  - intros q t t' F (path & data & i & m & K). unfold loop_frame in F. exists path, data, i, m.
    replace (w_path t') with (w_path t) by congruence. replace (w_msd t') with (w_msd t) by congruence.
    replace (w_coef t') with (w_coef t) by congruence. exact K.
  - intros q t it K. exact K.
Qed.

Lemma gam_update_width {M} (ops : method_ops M) (c : gam_cfg M) b s s' : gam_update ops c b s = (s', Ok tt) ->
  exists n0 pr X w0 w1 w dev0 it0 isreg dv n,
    s_nobs s = Some n0 /\ s_prep s = Some pr /\ s_work s = Some w0 /\ s_dev s = Some (dev0, it0) /\ s_isreg s = Some isreg /\
    let e := again_env c pr isreg n0 b X in
    (forall p, (p < d_n (o_dist c))%nat -> fst (X p) = design_width pr (b_p b) p) /\ shaped e w1 /\
    outer_update ops e dev0 (enough_fuel c) w1 = (w, Ok (dv, n)) /\
    s_work s' = Some (commit_work w) /\ s_dev s' = Some (dv, n) /\ s_prep s' = Some pr /\ s_ntrain s' = Some (e_ntrain e).
Proof.
  intros H. pose proof H as H'. apply gam_update_ok in H.
  destruct H as (n0 & pr & fv & sc0 & sc & X & w0 & w1 & w & dev0 & it0 & isreg & dv & n &
    _ & _ & _ & _ & _ & E1 & E2 & _ & E3 & E4 & E5 & Efv & _ & EX & Ew & Eo & ->).
  exists n0, pr, X, w0, w1, w, dev0, it0, isreg, dv, n.
  do 5 (split; [assumption|]). cbv zeta.
  split; [intros p Hp; eapply arrays_width; eauto|].
  split; [|split; [exact Eo|cbn; auto]].
  pose proof (again_work_fields c pr b fv w0 w1 Ew) as (F1 & _).
  split; cbn [again_env e_y e_X e_cfg].
  - rewrite F1. destruct (predict_parameters c true (b_p b) (Xs (b_rows b)) s) as [s2 out] eqn:P. cbn in Efv. subst out.
    apply predict_parameters_ok in P. destruct P as (sc1 & pr1 & A & w2 & _ & _ & _ & _ & _ & _ & _ & _ & _ & ->).
    rewrite map_length, seq_length, Xs_length, ys_length. reflexivity.
  - intros p Hp. rewrite (arrays_rows c pr (b_p b) _ X p EX Hp), map_length, Xs_length, ys_length. reflexivity.
Qed.

Lemma C65_update_lemma {M} (ops : method_ops M) (c : gam_cfg M) b s s' p pr : op_path_based ops = true ->
  gam_update ops c b s = (s', Ok tt) -> cycles s' <> Some O -> s_prep s = Some pr -> In p (p_order pr) -> (p < d_n (o_dist c))%nat ->
  exists N n w, s_nobs s = Some N /\ s_ntrain s' = Some n /\ s_work s' = Some w /\
    n p = effective_training_length (p_forget pr p) (N + lsum (ws (b_rows b))) /\
    chosen (o_global_ll c) (p_ic pr p) (n p) (design_width pr (b_p b) p) w p.
Proof.
  intros Hb H Hcy Epr Hord Hp. apply gam_update_width in H.
  destruct H as (n0 & pr' & X & w0 & w1 & w & dev0 & it0 & isreg & dv & n & EN & Epr' & _ & _ & _ & H).
  rewrite Epr in Epr'. injection Epr' as <-. cbv zeta in H.
  destruct H as (HX & Hsh & Eo & Ew' & Ed & _ & En).
  set (e := again_env c pr isreg n0 b X) in *.
  exists n0, (e_ntrain e), (commit_work w). split; [exact EN|]. split; [exact En|]. split; [exact Ew'|]. split; [reflexivity|].
  rewrite <- (HX p Hp).
  change (X p) with (e_X e p). change (o_global_ll c) with (o_global_ll (e_cfg e)). change pr with (e_prep e) at 1.
  eapply (outer_update_all ops e dev0 (shaped e)
    (fun p w => chosen (o_global_ll (e_cfg e)) (p_ic (e_prep e) p) (e_ntrain e p) (fst (e_X e p)) w p)) in Eo; [| | |exact Hsh].
  - destruct Eo as [_ [->|Eo]]; [exfalso; apply Hcy; unfold cycles; now rewrite Ed|]. exact (Eo p Hord).
  - intros q io w2 w3 r Hs Hin. apply inner_update_shaped in Hin; [|exact Hs].
    destruct Hin as (Hs' & _ & qc & it & j & fv1 & s1 & s2 & s3 & sumw & _ & _ & _ & Hc & _ & _ & ->).
    split; [exact Hs'|]. apply update_candidate_ok in Hc. cbv zeta in Hc.
    destruct Hc as (eta & gd & m & x0 & y0 & mw & dv1 & _ & _ & _ & _ & _ & _ & _ & _ & _ & _ & _ & Hc). rewrite Hb in Hc.
    destruct Hc as (path0 & m' & path & old & k & msd & _ & _ & _ & Hsel & E1 & E2).
    apply update_select_ok in Hsel. destruct Hsel as (K1 & K2 & K3 & K4).
    eapply chosen_intro with (path := path) (data := msd) (i := k); auto;
      unfold store_update, write; cbn [fst w_path w_msd w_coef]; rewrite ?E1, ?E2; unfold fupd; rewrite Nat.eqb_refl; auto.
  - intros q q' io w2 w3 r Hne Hs (path & data & i & m & K) Hin.
    apply inner_update_shaped in Hin; [|exact Hs].
    destruct Hin as (_ & _ & qc & it & j & fv1 & s1 & s2 & s3 & sumw & _ & _ & F3 & _ & _ & _ & ->).
    exists path, data, i, m. unfold store_update, write. cbn [fst w_path w_msd w_coef]. unfold fupd.
    replace (Nat.eqb q q') with false by (symmetry; apply Nat.eqb_neq; congruence).
    unfold loop_frame in F3.
    replace (w_path s3) with (w_path w2) by congruence. replace (w_msd s3) with (w_msd w2) by congruence.
    replace (w_coef s3) with (w_coef w2) by congruence. exact K.
Qed.
