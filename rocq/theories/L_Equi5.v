(** Lemmas: the shipped location families. *)
From Coq Require Import Reals List Bool Arith Lra Lia FunctionalExtensionality.
From Verif Require Import Base Lin Data M_Scaler M_Equation M_Utils M_Links M_DistTable M_Dist M_Init M_GAMDist M_State M_LM S_LM M_GAMLSS S_GAMLSS S_Equi.
From Verif Require Import L_GAM15.
Import ListNotations.
Open Scope R_scope.

Lemma total_moved a l : total (map (fun y => y + a) l) = total l + INR (length l) * a.
Proof.
  unfold total. induction l as [|y l IH]; cbn [map fold_right length]; [cbn; ring|]. rewrite IH, S_INR. ring.
Qed.
Lemma npdiv_total a x n : n <> O -> npdiv (x + INR n * a) (INR n) = omap (fun v => v + a) (npdiv x (INR n)).
Proof.
  intros Hn. assert (INR n <> 0) by now apply not_0_INR. unfold npdiv. destruct (Reqb (INR n) 0) eqn:E; [reflexivity|].
  cbn. f_equal. field. assumption.
Qed.
Lemma np_mean_moved a l : np_mean (map (fun y => y + a) l) = omap (fun v => v + a) (np_mean l).
Proof.
  unfold np_mean. rewrite map_length, total_moved. destruct l as [|y l].
  - unfold npdiv. cbn [length]. change (INR 0) with 0. destruct (Reqb 0 0) eqn:E; [reflexivity|].
    exfalso. apply Reqb_false in E. now apply E.
  - apply npdiv_total. discriminate.
Qed.
Lemma np_var_moved a n l : np_var n (map (fun y => y + a) l) = np_var n l.
Proof.
  unfold np_var. rewrite np_mean_moved, map_length. destruct (np_mean l) as [m|]; [|reflexivity]. cbn [omap obind].
  destruct (length l <=? n)%nat; [reflexivity|]. rewrite map_map. f_equal. f_equal. apply map_ext. intros y. f_equal. ring.
Qed.
Lemma np_std_moved a n l : np_std n (map (fun y => y + a) l) = np_std n l.
Proof. unfold np_std. now rewrite np_var_moved. Qed.

Lemma all_some_map {A B} (f g : A -> option B) (m : B -> B) (h : A -> A) l r : (forall y v, In y l -> f y = Some v -> g (h y) = Some (m v)) ->
  all_some (map f l) = Ok r -> all_some (map g (map h l)) = Ok (map m r).
Proof.
  intros H. revert r. induction l as [|y l IH]; intros r; cbn; [now intros [= <-]|].
  destruct (f y) as [v|] eqn:E; [|discriminate]. rewrite (H y v (or_introl eq_refl) E). cbn.
  destruct (all_some (map f l)) as [r'|]; [|discriminate]. cbn. intros [= <-].
  rewrite (IH (fun y v Hy => H y v (or_intror Hy)) r' eq_refl). reflexivity.
Qed.

Section Shipped.
Context (lgam dg tg : R -> R) (fit_t : list R -> R * R * R) (fit_jsu : list R -> R * R * R * R) (gi : bool).
Context (ppf : dist -> R -> vec -> option R) (cond : dist -> list R -> list vec -> nat -> res (list vec)).
Notation ship := (shipped lgam dg tg fit_t fit_jsu gi ppf cond).

Lemma init_moved D a ys y row : location_dist D -> scipy_moves fit_t fit_jsu gi ppf D a ->
  all_some (initial_values fit_t fit_jsu gi D ys y) = Ok row ->
  exists row', all_some (initial_values fit_t fit_jsu gi D (map (fun y => y + a) ys) (y + a)) = Ok row' /\
    (fun k => nth k row' 0) = moved a (fun k => nth k row 0).
Proof.
  intros HD (_ & Ht & Hj).
  assert (R2 : forall x r, exists row', Ok (x + a :: r) = Ok row' /\ (fun k => nth k row' 0) = moved a (fun k => nth k (x :: r) 0)).
  { intros x r. eexists. split; [reflexivity|]. apply functional_extensionality. intros [|k]; unfold moved, location; cbn [nth]; ring. }
  destruct HD as [<-|[<-|[<-|[<-|[<-|[<-|[<-|[]]]]]]]]; cbn [initial_values]; rewrite ?np_mean_moved, ?np_std_moved, ?np_var_moved.
  1-4: destruct (np_mean ys) as [m|]; [|discriminate]; try (destruct (np_std _ ys) as [v|]; [|discriminate]); try (destruct (np_var _ ys) as [v|]; [|discriminate]);
    cbn; intros [= <-]; apply R2.
  - destruct (np_mean ys) as [m|]; [|discriminate]. destruct (np_std _ ys) as [v|]; [|discriminate]. cbn. intros [= <-].
    match goal with |- exists _, Ok (?x :: ?r) = _ /\ _ => replace x with (m + 5772157 / 10000000 * (sqrt 6 * v / PI) + a) by ring end. apply R2.
  - destruct gi.
    + destruct (np_mean ys) as [m|]; [|discriminate]. cbn. intros [= <-].
      replace ((m + a + (y + a)) / 2) with ((m + y) / 2 + a) by field. apply R2.
    + rewrite (Hj eq_refl eq_refl ys). destruct (fit_jsu ys) as [[[u v] loc] sc]. cbn. intros [= <-]. apply R2.
  - rewrite (Ht eq_refl ys). destruct (fit_t ys) as [[df loc] sc]. cbn. intros [= <-]. apply R2.
Qed.

Lemma moved_0 a th : moved a th 0%nat = th 0%nat + a.
Proof. reflexivity. Qed.
Lemma moved_S a th k : moved a th (S k) = th (S k).
Proof. unfold moved. cbn. ring. Qed.
Lemma dev_moved y a m : y + a - (m + a) = y - m.
Proof. ring. Qed.
Lemma score_moved D a y th p : location_dist D -> score dg D (y + a) (moved a th) p = score dg D y th p.
Proof.
  intros HD. destruct HD as [<-|[<-|[<-|[<-|[<-|[<-|[<-|[]]]]]]]]; unfold score, jsu_r, jsu_z; cbv zeta; rewrite !moved_0, !moved_S, !dev_moved; reflexivity.
Qed.
Lemma theta_ok_moved D a th : location_dist D -> theta_ok D (moved a th) = theta_ok D th.
Proof. intros HD. destruct HD as [<-|[<-|[<-|[<-|[<-|[<-|[<-|[]]]]]]]]; unfold theta_ok; rewrite ?moved_S; reflexivity. Qed.
Lemma hess_moved D a y th p : location_dist D -> hess dg tg D (y + a) (moved a th) p = hess dg tg D y th p.
Proof.
  intros HD. pose proof (score_moved JSU a y th p) as HJ.
  destruct HD as [<-|[<-|[<-|[<-|[<-|[<-|[<-|[]]]]]]]]; unfold hess; cbv zeta; rewrite ?HJ, ?moved_S; auto; unfold location_dist; cbn; auto 10.
Qed.
Lemma logpdf_moved D a y th : location_dist D -> logpdf lgam D (y + a) (moved a th) = logpdf lgam D y th.
Proof.
  intros HD. destruct HD as [<-|[<-|[<-|[<-|[<-|[<-|[<-|[]]]]]]]]; unfold logpdf, scipy_logpdf_of, scipy_params, scipy_logpdf; cbv zeta;
    rewrite ?moved_0, ?moved_S, ?dev_moved; reflexivity.
Qed.

Lemma C125_families_lemma D links a : location_dist D -> nth 0 links Identity = Identity -> scipy_moves fit_t fit_jsu gi ppf D a ->
  location_family (ship D links) a.
Proof.
  intros HD Hl HM. unfold location_family, shipped. cbn [d_n d_link d_inv d_dinv d_dl1 d_dl2 d_logpdf d_ppf d_lo d_hi d_init]. rewrite Hl.
  cbn [link_fun link_inv link_inv_d omap].
  split; [destruct HD as [<-|[<-|[<-|[<-|[<-|[<-|[<-|[]]]]]]]]; cbn; lia|].
  split; [reflexivity|]. split; [reflexivity|]. split; [reflexivity|].
  split; [intros; now rewrite theta_ok_moved, score_moved|]. split; [intros; now rewrite theta_ok_moved, hess_moved|].
  split; [intros; now apply logpdf_moved|]. split; [intros; apply HM|].
  split; [intros y; destruct HD as [<-|[<-|[<-|[<-|[<-|[<-|[<-|[]]]]]]]]; split; reflexivity|].
  intros l fv. apply (all_some_map _ _ (moved a)). intros y v _.
  destruct (all_some (initial_values fit_t fit_jsu gi D l y)) as [row|] eqn:E; [|discriminate]. intros [= <-].
  destruct (init_moved D a l y row HD HM E) as (row' & -> & Er). now rewrite Er.
Qed.

Lemma C125_concave_lemma D links p : location_dist D -> concave_in (ship D links) p.
Proof.
  intros HD y th v. unfold shipped. cbn [d_dl2]. unfold guarded. destruct (theta_ok D th) eqn:E; [|discriminate]. intros [= <-].
  assert (Q : forall k s, k <= 0 -> 0 < s -> k / s <= 0).
  { intros k s Hk Hs. unfold Rdiv. pose proof (Rinv_0_lt_compat s Hs). nra. }
  assert (HP : 0 < PI ^ 2) by (apply pow_lt, PI_RGT_0).
  destruct HD as [<-|[<-|[<-|[<-|[<-|[<-|[<-|[]]]]]]]]; cbn [theta_ok] in E; repeat (apply andb_true_iff in E as [E ?E]); try apply Rltb_true in E;
    unfold hess; cbv zeta.
  - assert (0 < th 1%nat ^ 2) by now apply pow_lt. destruct p; [replace (- (1 / th 1%nat ^ 2)) with (- 1 / th 1%nat ^ 2) by (unfold Rdiv; ring)|replace (- (2 / th 1%nat ^ 2)) with (- 2 / th 1%nat ^ 2) by (unfold Rdiv; ring)]; apply Q; lra.
  - assert (0 < th 1%nat ^ 2) by now apply pow_lt. destruct p.
    + replace (- (1 / th 1%nat)) with (- 1 / th 1%nat) by (unfold Rdiv; ring). apply Q; lra.
    + replace (- (1 / (2 * th 1%nat ^ 2))) with (- 1 / (2 * th 1%nat ^ 2)) by (unfold Rdiv; ring). apply Q; lra.
  - assert (0 < th 1%nat ^ 2) by now apply pow_lt. destruct p; [apply Q; lra|].
    assert (- (1 / (3 * th 1%nat ^ 2)) <= 0) by (replace (- (1 / (3 * th 1%nat ^ 2))) with (- 1 / (3 * th 1%nat ^ 2)) by (unfold Rdiv; ring); apply Q; lra). nra.
  - assert (0 < th 1%nat ^ 2) by now apply pow_lt. destruct p; apply Q; lra.
  - assert (0 < th 1%nat ^ 2) by now apply pow_lt. destruct p; apply Q; lra.
  - set (s := score _ _ _ _ _). nra.
  - match goal with H : Rltb _ _ = true |- _ => apply Rltb_true in H end.
    assert (0 < th 1%nat ^ 2) by now apply pow_lt. assert (0 < (th 2%nat + 3) * th 1%nat ^ 2) by (apply Rmult_lt_0_compat; lra).
    destruct p as [|[|p]]; [apply Q; lra..|]. eapply Rle_trans; [apply Rmin_r|].
    assert (0 < / LARGE) by (apply Rinv_0_lt_compat; unfold LARGE; apply pow_lt; lra). lra.
Qed.
End Shipped.
