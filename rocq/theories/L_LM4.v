(** The online linear model: scaled inputs and the residual sum of squares. *)
From Coq Require Import Reals List Bool Arith Lra Lia.
From Verif Require Import Base Lin Data M_Gram S_Gram L_Gram M_OLS L_OLS M_CD M_Path M_Ridge
  M_Scaler M_Utils S_Utils L_Utils M_State M_LM S_LM L_LM L_LM2 L_LM3.
Import ListNotations.
Open Scope R_scope.

Lemma run_nonempty {M} (ops : method_ops M) c tr s : run ops c tr s -> tr <> [].
Proof. destruct 1; [discriminate|]. destruct tr; discriminate. Qed.

(** Shape of the object in a run. *)
Definition sel_ok (p : nat) (sc : scaler) : Prop :=
  sc_do sc && negb (forallb (fun j => j <? p)%nat (sc_sel sc)) = false.
Lemma scaler_fit_sel f t p l sc : scaler_fit f t p l = Ok sc -> sel_ok p sc.
Proof.
  unfold scaler_fit, sel_ok. destruct (length l <? 2)%nat; [discriminate|].
  destruct (selection t p) as [d sel]. destruct d.
  - destruct (forallb _ sel) eqn:E; [|discriminate]. cbn [negb].
    destruct (Reqb _ 0); [discriminate|]. intros H; injection H as <-. cbn [sc_do sc_sel]. rewrite E. reflexivity.
  - intros H; injection H as <-. reflexivity.
Qed.
Lemma scaler_update_sel (p : nat) sc l sc' : scaler_update sc l = Ok sc' ->
  sc_do sc' = sc_do sc /\ sc_sel sc' = sc_sel sc.
Proof.
  unfold scaler_update. destruct (length l <? 1)%nat; [discriminate|].
  assert (F : forall l s, sc_do (fold_left (fun s o => scaler_row s (ox o) (ow o)) l s) = sc_do s /\
     sc_sel (fold_left (fun s o => scaler_row s (ox o) (ow o)) l s) = sc_sel s).
  { clear. induction l as [|o l IH]; intros s; cbn [fold_left]; auto.
    destruct (IH (scaler_row s (ox o) (ow o))) as [-> ->]. auto. }
  destruct (sc_do sc) eqn:D; intros H; injection H as <-.
  - match goal with |- context [fold_left _ l ?s0] => destruct (F l s0) as [-> ->] end. auto.
  - auto.
Qed.

Lemma run_shape {M} (ops : method_ops M) c tr s : run ops c tr s ->
  exists b0 s0 tr0 p sc, tr = (b0, s0) :: tr0 /\ p = b_p b0 /\ (1 <= p)%nat /\
    a_nfin s = Some p /\ a_scaler s = Some (Some sc) /\ sel_ok p sc /\
    is_fitted s = true /\ Forall (fun x => b_p (fst x) = p /\ b_rows (fst x) <> []) tr.
Proof.
  induction 1 as [b s H | tr s b s' R IH H].
  - unfold partial_fit in H. change (is_fitted new_lm) with false in H. cbn iota in H.
    apply lm_fit_ok in H. cbv zeta in H.
    destruct H as (m & sc & xg & _ & _ & L1 & L2 & _ & _ & Hs & _ & H).
    apply scaler_fit_sel in Hs.
    exists b, s, [], (b_p b), sc. split; [reflexivity|]. split; [reflexivity|]. split; [exact L2|].
    assert (N : b_rows b <> []) by (destruct (b_rows b); [cbn in L1; lia|discriminate]).
    destruct H as [(_ & m' & path & ic & k & _ & _ & _ & ->)|(_ & m' & beta & _ & ->)];
    cbn; repeat split; auto.
  - destruct IH as (b0 & s0 & tr0 & p & sc & -> & Ep & P1 & F & S & K & Fit & A).
    unfold partial_fit in H. rewrite Fit in H. apply lm_update_ok in H. cbv zeta in H.
    destruct H as (n0 & sc0 & sc1 & m & x0 & y0 & xg & isreg & _ & S0 & _ & _ & _ & _ & L1 & L2 & Q & K0 & Hs & _ & H).
    assert (E : b_p b = p) by (symmetry; apply Q; exact F).
    destruct (scaler_update_sel p _ _ _ Hs) as [D1 D2].
    exists b0, s0, (tr0 ++ [(b, s')]), p, sc1. split; [reflexivity|]. split; [exact Ep|]. split; [exact P1|].
    assert (N : b_rows b <> []) by (destruct (b_rows b); [cbn in L1; lia|discriminate]).
    assert (K1 : sel_ok p sc1).
    { unfold sel_ok. rewrite D1, D2. rewrite S in S0. injection S0 as <-. exact K. }
    assert (A' : Forall (fun x => b_p (fst x) = p /\ b_rows (fst x) <> []) (((b0, s0) :: tr0) ++ [(b, s')])).
    { apply Forall_app. split; auto. }
    destruct H as [(_ & m' & path0 & rss0 & path & ic & k & _ & _ & _ & _ & _ & _ & ->)|(_ & m' & beta0 & beta & _ & _ & ->)];
    cbn [a_nfin a_scaler]; repeat split; auto.
Qed.

(** * Scaled inputs *)
Lemma scaled_design {M} (c : lm_cfg M) (b : batch) (s : lm M) sc :
  a_scaler s = Some (Some sc) -> scaled_rows (c_icpt c) (b, s) = design_rows c sc (b_rows b).
Proof. intros E. unfold scaled_rows. rewrite E. reflexivity. Qed.

Lemma scaled_nonneg {M} (c : lm_cfg M) sc l : weights_nonneg l -> weights_nonneg (design_rows c sc l).
Proof. unfold weights_nonneg, design_rows. rewrite Forall_map. apply Forall_impl. auto. Qed.

Lemma run_ols inv c tr s :
  matinv_spec inv -> 0 <= c_forget c < 1 -> run (ols_ops inv) c tr s ->
  Forall (fun x => weights_nonneg (b_rows (fst x))) tr ->
  exists o, a_x s = Some (ols_x o) /\ a_y s = Some (ols_y o) /\ a_coef s = Some (ols_coef o) /\
    ols_inv (n_cols (c_icpt c) (match tr with x :: _ => b_p (fst x) | [] => 0%nat end)) (c_forget c)
      (concat (map (scaled_rows (c_icpt c)) tr)) o.
Proof.
  intros HI Hf R. induction R as [b s H | tr s b s' R IH H]; intros W.
  - inversion W as [|? ? W1 _]; subst. cbn [fst] in W1.
    unfold partial_fit in H. change (is_fitted new_lm) with false in H. cbn iota in H.
    apply lm_fit_ok in H. cbv zeta in H.
    destruct H as (m & sc & xg & _ & _ & L1 & L2 & _ & _ & Hs & Hx & [(K & _)|(_ & m' & beta & Hb & Es)]);
    [discriminate K|].
    cbn [ols_ops op_init_x op_fit_beta] in Hx, Hb. injection Hb as <- <-.
    set (l := design_rows c sc (b_rows b)) in *.
    assert (E : ols_fit inv (n_cols (c_icpt c) (b_p b)) (c_forget c) l
      = Ok (mk_ols xg (init_y_gram (Xs l) (ys l) (ws l) (c_forget c))
             (ols_beta (n_cols (c_icpt c) (b_p b)) xg (init_y_gram (Xs l) (ys l) (ws l) (c_forget c))))).
    { unfold ols_fit. rewrite Hx. reflexivity. }
    eexists. rewrite Es. cbn [a_x a_y a_coef].
    split; [|split; [|split]]; [| | |].
    4:{ cbn [map concat fst]. rewrite app_nil_r.
        rewrite (scaled_design c b _ sc) by reflexivity.
        apply (ols_fit_inv inv); auto; [apply scaled_nonneg; exact W1|exact E]. }
    all: reflexivity.
  - apply Forall_app in W. destruct W as [W1 W2]. inversion W2 as [|? ? W3 _]; subst. cbn [fst] in W3.
    destruct (IH W1) as (o & X & Y & C & I).
    destruct (run_shape _ _ _ _ R) as (b0 & s0 & tr0 & p & sc & -> & Ep & P1 & F & S & K & Fit & A).
    unfold partial_fit in H. rewrite Fit in H. apply lm_update_ok in H. cbv zeta in H.
    destruct H as (n0 & sc0 & sc1 & m & x0 & y0 & xg & isreg & _ & S0 & _ & X0 & Y0 & _ & L1 & L2 & Q & K0 & Hs & Hx & [(Z & _)|(_ & m' & beta0 & beta & _ & Hb & Es)]);
    [discriminate Z|].
    assert (E : b_p b = p) by (symmetry; apply Q; exact F).
    rewrite X in X0. injection X0 as <-. rewrite Y in Y0. injection Y0 as <-.
    cbn [ols_ops op_update_x op_update_beta] in Hx, Hb. injection Hb as <- <-.
    cbn [fst] in I |- *. rewrite <- Ep in *. rewrite E in *.
    set (l := design_rows c sc1 (b_rows b)) in *.
    assert (Nl : nonempty l).
    { unfold l, nonempty, design_rows. destruct (b_rows b); [cbn in L1; lia|discriminate]. }
    destruct (ols_update_inv _ _ _ o l Hf I (scaled_nonneg _ _ _ W3) Nl) as (o' & E1 & I').
    unfold ols_update in E1. rewrite Hx in E1. cbn [bind] in E1. injection E1 as <-.
    eexists. rewrite Es. cbn [a_x a_y a_coef].
    split; [|split; [|split]]; [| | |].
    4:{ cbn [app fst]. rewrite <- Ep. rewrite app_comm_cons, map_app, concat_app.
        cbn [map concat]. rewrite app_nil_r.
        rewrite (scaled_design c b _ sc1) by reflexivity. exact I'. }
    all: reflexivity.
Qed.

Lemma scaled_all_nonneg {M} (ops : method_ops M) c tr s : run ops c tr s ->
  Forall (fun x => weights_nonneg (b_rows (fst x))) tr ->
  weights_nonneg (concat (map (scaled_rows (c_icpt c)) tr)).
Proof.
  intros _. induction 1 as [|[b s0] tr H _ IH]; [constructor|].
  cbn [map concat]. apply Forall_app. split; auto. cbn [fst] in H.
  unfold scaled_rows. destruct (a_scaler s0) as [[sc|]|]; try constructor.
  change (weights_nonneg (map (fun o => regressors (c_icpt c) (mkobs (scaler_transform sc (ox o)) (oy o) (ow o))) (b_rows b))).
  unfold weights_nonneg in *. rewrite Forall_map. eapply Forall_impl; [|exact H]. auto.
Qed.

Lemma C48_history_lemma inv c tr s :
  matinv_spec inv -> 0 <= c_forget c < 1 -> run (ols_ops inv) c tr s ->
  Forall (fun x => weights_nonneg (b_rows (fst x))) tr ->
  exists beta p, a_coef s = Some beta /\ a_nfin s = Some p /\
    let cols := n_cols (c_icpt c) p in
    let data := concat (map (scaled_rows (c_icpt c)) tr) in
    forall b, wls_loss cols (c_forget c) data beta <= wls_loss cols (c_forget c) data b /\
      (wls_loss cols (c_forget c) data b = wls_loss cols (c_forget c) data beta -> eqv cols b beta).
Proof.
  intros HI Hf R W. destruct (run_ols inv c tr s HI Hf R W) as (o & X & Y & C & I).
  destruct (run_shape _ _ _ _ R) as (b0 & s0 & tr0 & p & sc & -> & Ep & P1 & F & S & K & Fit & A).
  exists (ols_coef o), p. split; [exact C|]. split; [exact F|]. cbv zeta. cbn [fst] in I. rewrite <- Ep in I.
  intros b. pose proof (ols_inv_coef _ _ _ _ I) as N. destruct I as ((HA & _) & _).
  apply (wls_optimal _ _ _ (ols_x o)); auto; [lra|]. eapply scaled_all_nonneg; eauto.
Qed.

(** One regressor: the coefficient is the ratio of the moments. *)
Lemma ols_inv_one f l o : ols_inv 1 f l o ->
  ols_coef o 0%nat * dsum (1 - f) (fun o => ow o * ox o 0%nat * ox o 0%nat) l
  = dsum (1 - f) (fun o => ow o * ox o 0%nat * oy o) l.
Proof.
  intros I. apply ols_inv_coef in I. specialize (I 0%nat ltac:(lia)).
  unfold mvec in I. cbn [bsum] in I. unfold gram_spec, ygram_spec in I. lra.
Qed.



Lemma sqrt_1' : sqrt 1 = 1.
Proof. apply sqrt_1. Qed.
Lemma sqrt_25 : sqrt 25 = 5.
Proof. replace 25 with (5 * 5) by lra. apply sqrt_square; lra. Qed.

(** A scaler for one column with the given mean and variance. *)
Definition sc_is (sc : scaler) (cum mean var M : R) : Prop :=
  sc_forget sc = 0 /\ sc_do sc = true /\ sc_sel sc = [0%nat] /\ sc_cum sc = cum /\
  (forall k, sc_mean sc k = mean) /\ (forall k, sc_var sc k = var) /\ (forall k, sc_M sc k = M).

Lemma forget0 n : init_forget_vector 0 n = repeat 1 n.
Proof.
  unfold init_forget_vector. destruct (Reqb (1 - 0) 1) eqn:E; [reflexivity|].
  apply Reqb_false in E. exfalso. apply E. lra.
Qed.

Lemma sc48_fit0 : exists sc, scaler_fit 0 ScaleAll 1 (b_rows w48_b0) = Ok sc /\ sc_is sc 2 0 1 2.
Proof.
  unfold scaler_fit, w48_b0, b_rows. cbn [length Nat.ltb Nat.leb selection seq forallb andb negb].
  rewrite forget0. cbn [repeat ws map map2 lsum ow row1 length].
  destruct (Reqb _ 0) eqn:E; [apply Reqb_true in E; exfalso; lra|].
  eexists. split; [reflexivity|]. unfold sc_is. cbn [sc_forget sc_do sc_sel sc_cum sc_mean sc_var sc_M].
  unfold pick. cbn [Xs map map2 lsum ox row1].
  repeat split; try lra; intros k; field.
Qed.
Lemma sc48_fit1 : exists sc, scaler_fit 0 ScaleAll 1 (b_rows w48_b0 ++ b_rows w48_b1) = Ok sc /\ sc_is sc 4 0 25 100.
Proof.
  unfold scaler_fit, w48_b0, w48_b1, b_rows. cbn [app length Nat.ltb Nat.leb selection seq forallb andb negb].
  rewrite forget0. cbn [repeat ws map map2 lsum ow row1 length].
  destruct (Reqb _ 0) eqn:E; [apply Reqb_true in E; exfalso; lra|].
  eexists. split; [reflexivity|]. unfold sc_is. cbn [sc_forget sc_do sc_sel sc_cum sc_mean sc_var sc_M].
  unfold pick. cbn [Xs map map2 lsum ox row1].
  repeat split; try lra; intros k; field.
Qed.
Lemma sc48_update sc : sc_is sc 2 0 1 2 ->
  exists sc', scaler_update sc (b_rows w48_b1) = Ok sc' /\ sc_is sc' 4 0 25 100.
Proof.
  intros (E1 & E2 & E3 & E4 & E5 & E6 & E7).
  unfold scaler_update, w48_b1, b_rows. cbn [length Nat.ltb Nat.leb].
  rewrite E2. eexists. split; [reflexivity|].
  unfold sc_is. cbn [fold_left row1 ox ow]. unfold scaler_row, pick.
  cbn [sc_forget sc_do sc_sel sc_cum sc_mean sc_var sc_M].
  rewrite E1, E3, E4. repeat split; try lra; intros k; rewrite E5, ?E7; field; repeat split; lra.
Qed.
Lemma sc_is_transform sc cum mean var M x : sc_is sc cum mean var M ->
  scaler_transform sc x 0%nat = (x 0%nat - mean) / sqrt var.
Proof.
  intros (E1 & E2 & E3 & E4 & E5 & E6 & E7).
  unfold scaler_transform. rewrite E2, E3. cbn [assign]. unfold cset, pick. cbn. rewrite E5, E6. reflexivity.
Qed.
Lemma sc_is_ok sc cum mean var M : sc_is sc cum mean var M -> sel_ok 1 sc.
Proof. intros (E1 & E2 & E3 & _). unfold sel_ok. rewrite E2, E3. reflexivity. Qed.

Lemma inverse_one (G : mat) : G 0%nat 0%nat <> 0 -> exists B, is_inverse 1 G B.
Proof.
  intros H. exists (fun _ _ => / G 0%nat 0%nat).
  split; intros i j Hi Hj; assert (i = 0)%nat by lia; assert (j = 0)%nat by lia; subst;
  unfold mmul, mid; cbn; field; exact H.
Qed.

(** A successful OLS fit of one column. *)
Lemma w48_fit inv b sc cum mean var MM :
  matinv_spec inv -> b_p b = 1%nat -> (2 <= length (b_rows b))%nat -> 1 < total_weight (b_rows b) ->
  weights_nonneg (b_rows b) ->
  scaler_fit 0 ScaleAll 1 (b_rows b) = Ok sc -> sc_is sc cum mean var MM ->
  gram_spec 0 (design_rows w48_c sc (b_rows b)) 0%nat 0%nat <> 0 ->
  exists s, lm_fit (ols_ops inv) w48_c b new_lm = (s, Ok tt) /\ a_scaler s = Some (Some sc).
Proof.
  intros HI Hp HL Hn HW Hs Hi HG.
  set (l := design_rows w48_c sc (b_rows b)) in *.
  assert (Wl : weights_nonneg l) by (apply scaled_nonneg; exact HW).
  assert (Ex : exists xg, init_inverted_gram inv 1 (Xs l) (ws l) 0 = Ok xg).
  { unfold init_inverted_gram. destruct HI as [_ HI2].
    destruct (HI2 1%nat (init_gram (Xs l) (ws l) 0)) as (B & ->); [|eauto].
    apply inverse_one. rewrite init_gram_spec; auto; lra. }
  destruct Ex as (xg & Hx).
  destruct (lm_fit_intro (ols_ops inv) w48_c b new_lm tt sc xg) as [_ I].
  - reflexivity.
  - reflexivity.
  - lia.
  - rewrite Hp; lia.
  - cbn [w48_c c_ols_name c_icpt]. rewrite Hp, andb_true_r. apply Rleb_false. unfold n_cols. cbn. exact Hn.
  - unfold total_weight in Hn. lra.
  - rewrite Hp. exact Hs.
  - rewrite Hp. exact Hx.
  - eexists. split; [apply I; reflexivity|]. reflexivity.
Qed.

Lemma w48_coef inv tr s p : matinv_spec inv -> run (ols_ops inv) w48_c tr s ->
  Forall (fun x => weights_nonneg (b_rows (fst x))) tr -> a_nfin s = Some p -> p = 1%nat ->
  exists beta, a_coef s = Some beta /\
    beta 0%nat * dsum 1 (fun o => ow o * ox o 0%nat * ox o 0%nat) (concat (map (scaled_rows false) tr))
    = dsum 1 (fun o => ow o * ox o 0%nat * oy o) (concat (map (scaled_rows false) tr)).
Proof.
  intros HI R W F E. subst p.
  destruct (run_ols inv w48_c tr s HI ltac:(cbn; lra) R W) as (o & X & Y & C & I).
  destruct (run_shape _ _ _ _ R) as (b0 & s0 & tr0 & p & sc & -> & Ep & P1 & F' & S & K & Fit & A).
  rewrite F in F'. injection F' as <-. cbn [fst] in I. rewrite <- Ep in I.
  exists (ols_coef o). split; [exact C|]. apply ols_inv_one in I.
  cbn [w48_c c_icpt c_forget] in I. rewrite Rminus_0_r in I. exact I.
Qed.

Lemma w48_predict s sc cum mean var MM beta x :
  a_nfin s = Some 1%nat -> a_scaler s = Some (Some sc) -> sc_is sc cum mean var MM -> a_coef s = Some beta ->
  snd (lm_predict w48_c 1 [fun _ => x] s) = Ok [(x - mean) / sqrt var * beta 0%nat].
Proof.
  intros F S I C. unfold lm_predict, any_fitted_attribute. rewrite F. cbn iota.
  unfold bnd at 1, validate_old.
  change ((length [fun _ : nat => x] <? 1)%nat || (1 <? 1)%nat) with false. cbv beta iota. rewrite F, Nat.eqb_refl.
  erewrite bnd_read by exact S. cbv beta iota.
  pose proof (sc_is_ok _ _ _ _ _ I) as K. unfold sel_ok in K. rewrite K.
  erewrite bnd_read by exact C. unfold ret. cbn [snd map]. f_equal. f_equal.
  change (n_cols (c_icpt w48_c) 1) with 1%nat. unfold dot. cbn [bsum]. unfold design. cbn [w48_c c_icpt].
  rewrite (sc_is_transform _ _ _ _ _ _ I). lra.
Qed.

Lemma w48_online inv : matinv_spec inv -> exists s,
  lm_history (ols_ops inv) w48_c [w48_b0; w48_b1] new_lm = Ok s /\
  snd (lm_predict w48_c 1 [fun _ => 5] s) = Ok [25 / 74].
Proof.
  intros HI. destruct sc48_fit0 as (sc0 & Hs0 & I0).
  assert (T0 : forall x, scaler_transform sc0 x 0%nat = x 0%nat).
  { intros x. rewrite (sc_is_transform _ _ _ _ _ x I0), sqrt_1. field. }
  assert (W0 : weights_nonneg (b_rows w48_b0)) by (repeat constructor; cbn; lra).
  assert (W1 : weights_nonneg (b_rows w48_b1)) by (repeat constructor; cbn; lra).
  destruct (w48_fit inv w48_b0 sc0 2 0 1 2) as (s0 & E0 & S0); auto.
  { cbn. lra. }
  { unfold gram_spec. cbn [w48_b0 b_rows design_rows map dsum w48_c c_icpt design ow ox length pow].
    rewrite !T0. cbn [row1 ox ow]. lra. }
  assert (R0 : run (ols_ops inv) w48_c [(w48_b0, s0)] s0) by (constructor; exact E0).
  destruct (run_ols inv w48_c _ s0 HI ltac:(cbn; lra) R0) as (o & X & Y & C & I).
  { constructor; [exact W0|constructor]. }
  destruct (sc48_update sc0 I0) as (sc1 & Hs1 & I1).
  set (l1 := design_rows w48_c sc1 (b_rows w48_b1)).
  destruct (ols_update_inv 1 0 _ o l1 ltac:(lra) I (scaled_nonneg _ _ _ W1) ltac:(discriminate)) as (o1 & E1 & _).
  unfold ols_update in E1. destruct (update_inverted_gram _ _ _ _ _) as [xg|] eqn:Hx; [|discriminate E1].
  pose proof E0 as E0'. apply lm_fit_ok in E0'. cbv zeta in E0'.
  destruct E0' as (m & sc & xg0 & _ & _ & _ & _ & _ & _ & _ & _ & [(Z & _)|(_ & m' & beta & _ & Es)]); [discriminate Z|].
  assert (U : exists s1, lm_update (ols_ops inv) w48_c w48_b1 s0 = (s1, Ok tt) /\ a_scaler s1 = Some (Some sc1)).
  { destruct (lm_update_intro (ols_ops inv) w48_c w48_b1 s0 2 sc0 sc1 m' (ols_x o) (ols_y o) xg (is_regularized w48_c)) as [_ J];
      auto; try (rewrite Es; reflexivity).
    - rewrite Es. cbn. f_equal. lra.
    - cbn; lia.
    - exact (sc_is_ok _ _ _ _ _ I0).
    - eexists. split; [eapply J; [reflexivity|exact C|reflexivity]|reflexivity]. }
  destruct U as (s1 & U & S1).
  assert (R1 : run (ols_ops inv) w48_c ([(w48_b0, s0)] ++ [(w48_b1, s1)]) s1).
  { econstructor; [exact R0|]. unfold partial_fit. destruct (is_fitted s0) eqn:Fi; [exact U|].
    rewrite Es in Fi. discriminate Fi. }
  destruct (run_shape _ _ _ _ R1) as (b0' & s0' & tr0' & p & sc' & Et & Ep & _ & F & S' & _ & _ & _).
  cbn [app] in Et. injection Et as <- <- <-. cbn in Ep. subst p.
  destruct (w48_coef inv _ s1 1%nat HI R1) as (beta1 & C1 & N1); auto.
  { constructor; [exact W0|constructor; [exact W1|constructor]]. }
  exists s1. split.
  { cbn [lm_history]. unfold partial_fit at 1. change (is_fitted new_lm) with false. cbn iota. rewrite E0.
    unfold partial_fit. destruct (is_fitted s0) eqn:Fi; [rewrite U; reflexivity|].
    rewrite Es in Fi. discriminate Fi. }
  rewrite (w48_predict s1 sc1 4 0 25 100 beta1 5 F S1 I1 C1), sqrt_25. f_equal. f_equal.
  assert (T1 : forall x, scaler_transform sc1 x 0%nat = x 0%nat / 5).
  { intros x. rewrite (sc_is_transform _ _ _ _ _ x I1), sqrt_25. field. }
  cbn [app map concat] in N1. unfold scaled_rows in N1. rewrite S0, S1 in N1.
  cbn [w48_b0 w48_b1 b_rows map app regressors dsum length pow ow ox oy row1] in N1.
  rewrite !T0, !T1 in N1. cbn [ox] in N1. lra.
Qed.

Lemma w48_batch inv : matinv_spec inv -> exists s,
  lm_fit (ols_ops inv) w48_c (mk_batch 1 (stream [w48_b0; w48_b1])) new_lm = (s, Ok tt) /\
  snd (lm_predict w48_c 1 [fun _ => 5] s) = Ok [1 / 10].
Proof.
  intros HI. destruct sc48_fit1 as (sc & Hs & I).
  assert (T : forall x, scaler_transform sc x 0%nat = x 0%nat / 5).
  { intros x. rewrite (sc_is_transform _ _ _ _ _ x I), sqrt_25. field. }
  set (b := mk_batch 1 (stream [w48_b0; w48_b1])).
  assert (W : weights_nonneg (b_rows b)) by (repeat constructor; cbn; lra).
  destruct (w48_fit inv b sc 4 0 25 100) as (s & E & S); auto.
  { cbn. lia. }
  { cbn. lra. }
  { unfold gram_spec, b, stream. cbn [w48_b0 w48_b1 concat app b_rows design_rows map dsum w48_c c_icpt design ow ox length pow].
    rewrite !T. cbn [row1 ox ow]. lra. }
  assert (R : run (ols_ops inv) w48_c [(b, s)] s) by (constructor; exact E).
  destruct (run_shape _ _ _ _ R) as (b0' & s0' & tr0' & p & sc' & Et & Ep & _ & F & S' & _ & _ & _).
  injection Et as <- <- <-. cbn in Ep. subst p.
  destruct (w48_coef inv _ s 1%nat HI R) as (beta & C & N); auto.
  exists s. split; [exact E|].
  rewrite (w48_predict s sc 4 0 25 100 beta 5 F S I C), sqrt_25. f_equal. f_equal.
  cbn [map concat] in N. unfold scaled_rows in N. rewrite S in N.
  unfold b, stream in N. cbn [w48_b0 w48_b1 concat b_rows map app regressors dsum length pow ow ox oy row1] in N.
  rewrite !T in N. cbn [ox] in N. lra.
Qed.

Lemma C48_witness_lemma inv : matinv_spec inv -> exists s sb,
  lm_history (ols_ops inv) w48_c [w48_b0; w48_b1] new_lm = Ok s /\
  lm_fit (ols_ops inv) w48_c (mk_batch 1 (stream [w48_b0; w48_b1])) new_lm = (sb, Ok tt) /\
  snd (lm_predict w48_c 1 [fun _ => 5] s) = Ok [25 / 74] /\
  snd (lm_predict w48_c 1 [fun _ => 5] sb) = Ok [1 / 10].
Proof.
  intros HI. destruct (w48_online inv HI) as (s & A & B). destruct (w48_batch inv HI) as (sb & C & D).
  exists s, sb. auto.
Qed.
