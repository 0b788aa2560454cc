From Coq Require Import Reals List Bool Arith Lra Lia FunctionalExtensionality.
From Verif Require Import Base Lin Data M_Gram M_OLS M_CD M_Path M_Ridge M_Scaler M_Utils M_State M_LM L_LM S_Target.
Import ListNotations.
Open Scope R_scope.

Lemma Xs_retarget g l : Xs (retarget g l) = Xs l.
Proof. unfold Xs, retarget. rewrite map_map. reflexivity. Qed.
Lemma ws_retarget g l : ws (retarget g l) = ws l.
Proof. unfold ws, retarget. rewrite map_map. reflexivity. Qed.
Lemma ys_retarget g l : ys (retarget g l) = map g (ys l).
Proof. unfold ys, retarget. rewrite !map_map. reflexivity. Qed.
Lemma length_retarget g l : length (retarget g l) = length l.
Proof. apply map_length. Qed.

Lemma scaler_fit_retarget g f t p l : scaler_fit f t p (retarget g l) = scaler_fit f t p l.
Proof. unfold scaler_fit. rewrite Xs_retarget, ws_retarget, length_retarget. reflexivity. Qed.
Lemma scaler_update_retarget g s l : scaler_update s (retarget g l) = scaler_update s l.
Proof.
  unfold scaler_update. rewrite ws_retarget, length_retarget.
  assert (E : forall s, fold_left (fun s o => scaler_row s (ox o) (ow o)) (retarget g l) s
    = fold_left (fun s o => scaler_row s (ox o) (ow o)) l s)
    by (induction l as [|o l IH]; intros; simpl; auto).
  rewrite E. reflexivity.
Qed.
Lemma design_rows_retarget {M} (c : lm_cfg M) g sc l : design_rows c sc (retarget g l) = retarget g (design_rows c sc l).
Proof. unfold design_rows, retarget. rewrite !map_map. reflexivity. Qed.

Lemma vec_tmul_scal t : forall X y, vec_tmul X (map (Rmult t) y) = vscale t (vec_tmul X y).
Proof.
  intros X y. apply functional_extensionality. intros i. unfold vec_tmul, vscale. revert y.
  induction X as [|x X IH]; intros [|b y]; cbn; try ring. rewrite IH. ring.
Qed.
Lemma map2_scal t : forall y r, map2 Rmult (map (Rmult t) y) r = map (Rmult t) (map2 Rmult y r).
Proof. induction y as [|b y IH]; intros [|c r]; cbn; auto. rewrite IH. f_equal. ring. Qed.
Lemma init_y_gram_scal t X y w f : init_y_gram X (map (Rmult t) y) w f = vscale t (init_y_gram X y w f).
Proof. unfold init_y_gram. rewrite map2_scal. apply vec_tmul_scal. Qed.
Lemma update_y_gram_scal t g X y f w : update_y_gram (vscale t g) X (map (Rmult t) y) f w = vscale t (update_y_gram g X y f w).
Proof.
  unfold update_y_gram. apply functional_extensionality. intros i.
  assert (E : vscale t g i * (1 - f) ^ length X + vec_tmul (scale_rows X (root_weights w (init_forget_vector f (length X))))
      (map2 Rmult (map (Rmult t) y) (root_weights w (init_forget_vector f (length X)))) i
    = vscale t (fun i => g i * (1 - f) ^ length X + vec_tmul (scale_rows X (root_weights w (init_forget_vector f (length X))))
      (map2 Rmult y (root_weights w (init_forget_vector f (length X)))) i) i).
  { rewrite map2_scal, vec_tmul_scal. unfold vscale. ring. }
  destruct X as [|x [|x' X]]; try exact E.
  destruct y as [|y0 [|y1 y]]; try exact E.
  destruct w as [|w0 [|w1 w]]; try exact E. cbn. unfold vscale. ring.
Qed.

Lemma dot_vscale p t u v : dot p u (vscale t v) = t * dot p u v.
Proof. apply dot_scal_r. Qed.
Lemma rss_fit_scal t p l b : rss_fit p (retarget (Rmult t) l) (vscale t b) = t ^ 2 * rss_fit p l b.
Proof.
  unfold rss_fit, retarget. rewrite map_map. induction l as [|o l IH]; cbn [map lsum fold_right]; [cbn; ring|].
  cbn [lsum]. cbn in IH. cbn. rewrite IH. rewrite dot_vscale. cbn. ring.
Qed.
Lemma rss_update_scal t p l b : rss_update p (retarget (Rmult t) l) (vscale t b) = t ^ 2 * rss_update p l b.
Proof.
  unfold rss_update, retarget. rewrite map_map. induction l as [|o l IH]; cbn [map lsum fold_right]; [cbn; ring|].
  cbn in IH. cbn. rewrite IH. rewrite dot_vscale. cbn. ring.
Qed.
Lemma rss_fit_path t p l path : map (rss_fit p (retarget (Rmult t) l)) (map (vscale t) path) = map (Rmult (t ^ 2)) (map (rss_fit p l) path).
Proof. rewrite !map_map. apply map_ext. intros b. apply rss_fit_scal. Qed.
Lemma rss_update_path t p l f rss0 path :
  map2 (fun r0 r1 => (1 - f) * r0 + r1) (map (Rmult (t ^ 2)) rss0) (map (rss_update p (retarget (Rmult t) l)) (map (vscale t) path))
  = map (Rmult (t ^ 2)) (map2 (fun r0 r1 => (1 - f) * r0 + r1) rss0 (map (rss_update p l) path)).
Proof.
  revert rss0. induction path as [|b path IH]; intros [|r rss0]; cbn [map map2]; auto.
  rewrite IH, rss_update_scal. f_equal. ring.
Qed.
Lemma vscale_zero t : vscale t (fun _ => 0) = fun _ => 0.
Proof. apply functional_extensionality. intros. unfold vscale. ring. Qed.
Lemma nth_vscale t k path : nth k (map (vscale t) path) (fun _ => 0) = vscale t (nth k path (fun _ => 0)).
Proof. rewrite <- (vscale_zero t) at 1. apply map_nth. Qed.

(** * Selection *)
Lemma sequence_ok {A B} (f : A -> B) l : sequence (map (fun a => Ok (f a)) l) = Ok (map f l).
Proof. induction l as [|a l IH]; cbn; auto. rewrite IH. reflexivity. Qed.
Lemma sequence_exists {A} (l : list (res A)) : Forall (fun r => exists a, r = Ok a) l -> exists l', sequence l = Ok l' /\ length l' = length l.
Proof.
  induction 1 as [|r l (a & ->) H (l' & E & L)]; cbn; [eauto|]. rewrite E. cbn. exists (a :: l'). cbn. auto.
Qed.
Lemma map2_Forall {A B C} (f : A -> B -> C) (P : C -> Prop) : (forall a b, P (f a b)) -> forall l m, Forall P (map2 f l m).
Proof. intros H. induction l as [|a l IH]; intros [|b m]; cbn; constructor; auto. Qed.
Lemma from_rss_exists c n ps rss : c <> aicc -> length ps = length rss ->
  exists ic, from_rss_array c n ps rss = Ok ic /\ length ic = length rss.
Proof.
  intros H L. unfold from_rss_array, from_ll_array.
  destruct (sequence_exists (map2 (from_ll c n) ps (map (fun rss => - n / 2 * ln (rss / n) + - n / 2 * (1 + ln (2 * PI))) rss))) as (ic & E & L').
  { apply map2_Forall. intros. unfold from_ll. destruct c; try congruence; eauto. }
  exists ic. rewrite map2_length in L' by (rewrite map_length; exact L). rewrite L in L'. destruct c; auto; congruence.
Qed.
Lemma argmin_loop_shift d : forall l i k m, argmin_loop (map (Rplus d) l) i k (d + m) = argmin_loop l i k m.
Proof.
  induction l as [|x l IH]; intros; cbn; auto.
  replace (Rltb (d + x) (d + m)) with (Rltb x m).
  { destruct (Rltb x m); apply IH. }
  unfold Rltb. destruct (Rlt_dec x m), (Rlt_dec (d + x) (d + m)); auto; lra.
Qed.
Lemma argmin_shift d l : argmin (map (Rplus d) l) = argmin l.
Proof. destruct l as [|x l]; cbn; auto. rewrite argmin_loop_shift. reflexivity. Qed.

Lemma from_ll_shift c n p ll d v : from_ll c n p ll = Ok v ->
  from_ll c n p (ll - d) = Ok ((match c with max_ll => d | _ => 2 * d end) + v).
Proof.
  unfold from_ll. destruct c; [|destruct (Reqb _ 0); [discriminate|]| | |]; intros E; injection E as <-; f_equal; ring.
Qed.
Lemma from_lls_shift c n d : forall ps lls ic, sequence (map2 (from_ll c n) ps lls) = Ok ic ->
  sequence (map2 (from_ll c n) ps (map (fun l => l - d) lls)) = Ok (map (Rplus (match c with max_ll => d | _ => 2 * d end)) ic).
Proof.
  induction ps as [|p ps IH]; intros [|l lls] ic E; cbn in E |- *; try (injection E as <-; reflexivity).
  destruct (from_ll c n p l) as [v|] eqn:Ev; [|discriminate]. cbn in E.
  destruct (sequence _) as [t'|] eqn:Et; [|discriminate]. cbn in E. injection E as <-.
  rewrite (from_ll_shift _ _ _ _ d _ Ev), (IH _ _ Et). reflexivity.
Qed.
Lemma from_rss_scal c n ps rss q ic : 0 < n -> 0 < q -> (forall r, In r rss -> 0 < r) ->
  from_rss_array c n ps rss = Ok ic ->
  exists d, from_rss_array c n ps (map (Rmult q) rss) = Ok (map (Rplus d) ic).
Proof.
  intros Hn Hq Hr E. exists (match c with max_ll => n / 2 * ln q | _ => 2 * (n / 2 * ln q) end).
  unfold from_rss_array in *.
  replace (map (fun rss0 => - n / 2 * ln (rss0 / n) + - n / 2 * (1 + ln (2 * PI))) (map (Rmult q) rss))
    with (map (fun l => l - n / 2 * ln q) (map (fun rss0 => - n / 2 * ln (rss0 / n) + - n / 2 * (1 + ln (2 * PI))) rss)).
  { unfold from_ll_array in *. destruct c; try (apply from_lls_shift; exact E).
    destruct (2 <=? length ps)%nat; [discriminate|]. apply (from_lls_shift aicc); exact E. }
  rewrite !map_map. apply map_ext_in. intros r Hin. specialize (Hr r Hin).
  replace (q * r / n) with (q * (r / n)) by (field; lra).
  rewrite (ln_mult q); [|auto|apply Rdiv_lt_0_compat; lra]. cbv beta. generalize (ln q) (ln (r / n)) (ln (2 * PI)). intros. field.
Qed.
Lemma n_nonzero_same t p path : same_zeros t p path -> map (n_nonzero p) (map (vscale t) path) = map (n_nonzero p) path.
Proof.
  intros H. rewrite map_map. apply map_ext_in. intros v Hv. unfold n_nonzero. do 2 f_equal.
  apply filter_ext_in. intros j Hj. apply in_seq in Hj. specialize (H v j Hv ltac:(lia)).
  unfold counts_as_zero, vscale in *. f_equal. unfold Rleb.
  destruct (Rle_dec (Rabs (t * v j)) _), (Rle_dec (Rabs (v j)) _); auto; tauto.
Qed.

(** * Two runs of the linear model *)
Section LM.
Context {M : Type} (ops : method_ops M) (c : lm_cfg M) (t : R) (d : batch).
(** What the method must do: [Q] holds of the method object throughout. *)
Variable Q : M -> Prop.
Hypothesis Hcfg : forall m, c_method c = Ok m -> Q m.
Hypothesis Hfitp : op_path_based ops = true -> forall m p x y r m' path, Q m -> op_fit_path ops m p x y r = Ok (m', path) ->
  Q m' /\ op_fit_path ops m p x (vscale t y) r = Ok (m', map (vscale t) path).
Hypothesis Hupdp : op_path_based ops = true -> forall m p x y r path0 m' path, Q m -> op_update_path ops m p x y path0 r = Ok (m', path) ->
  Q m' /\ op_update_path ops m p x (vscale t y) (map (vscale t) path0) r = Ok (m', map (vscale t) path).
Hypothesis Hfitb : op_path_based ops = false -> forall m p x y r m' beta, Q m -> op_fit_beta ops m p x y r = Ok (m', beta) ->
  Q m' /\ op_fit_beta ops m p x (vscale t y) r = Ok (m', vscale t beta).
Hypothesis Hupdb : op_path_based ops = false -> forall m p x y r beta0 m' beta, Q m -> op_update_beta ops m p x y beta0 r = Ok (m', beta) ->
  Q m' /\ op_update_beta ops m p x (vscale t y) (vscale t beta0) r = Ok (m', vscale t beta).
Hypothesis Hic : op_path_based ops = true -> c_ic c <> aicc.
Hypothesis Ht : op_path_based ops = true -> 0 < t.

Definition lm_scaled (s s' : lm M) : Prop :=
  (forall m, a_method s = Some m -> Q m) /\ a_nfin s = Some (b_p d) /\ a_nobs s <> None /\
  exists coef', s' = mk_lm (a_method s) (a_scaler s) (a_nfin s) (a_nobs s) (a_nfeat s) (a_ntrain s) (a_isreg s) (a_x s)
    (option_map (vscale t) (a_y s)) (option_map (map (vscale t)) (a_path s)) (option_map (map (Rmult (t ^ 2))) (a_rss s)) coef' /\
  (op_path_based ops = false -> coef' = option_map (vscale t) (a_coef s)) /\
  (op_path_based ops = true -> exists path rss nt ic k ic' k', a_path s = Some path /\ a_rss s = Some rss /\ a_ntrain s = Some nt /\ length rss = length path /\
     from_rss_array (c_ic c) nt (map (n_nonzero (n_cols (c_icpt c) (b_p d))) path) rss = Ok ic /\ argmin ic = Ok k /\
     from_rss_array (c_ic c) nt (map (n_nonzero (n_cols (c_icpt c) (b_p d))) (map (vscale t) path)) (map (Rmult (t ^ 2)) rss) = Ok ic' /\ argmin ic' = Ok k' /\
     a_coef s = Some (nth k path (fun _ => 0)) /\ coef' = Some (vscale t (nth k' path (fun _ => 0)))).

Lemma select_scaled p nt path rss ic k : op_path_based ops = true -> length rss = length path ->
  from_rss_array (c_ic c) nt (map (n_nonzero p) path) rss = Ok ic -> argmin ic = Ok k ->
  exists ic' k', from_rss_array (c_ic c) nt (map (n_nonzero p) (map (vscale t) path)) (map (Rmult (t ^ 2)) rss) = Ok ic' /\ argmin ic' = Ok k'.
Proof.
  intros P L E A.
  destruct (from_rss_exists (c_ic c) nt (map (n_nonzero p) (map (vscale t) path)) (map (Rmult (t ^ 2)) rss)) as (ic' & E' & L'); auto.
  { rewrite !map_length. auto. }
  exists ic'. destruct (from_rss_exists (c_ic c) nt (map (n_nonzero p) path) rss) as (ic2 & E2 & L2); auto.
  { rewrite map_length. auto. }
  rewrite E2 in E. injection E as ->. rewrite map_length in L'. rewrite <- L2 in L'.
  destruct ic' as [|x ic'].
  - destruct ic; cbn in L'; [discriminate A|discriminate].
  - eexists. split; [exact E'|reflexivity].
Qed.

Lemma lm_fit_scaled s : lm_fit ops c d new_lm = (s, Ok tt) ->
  exists s', lm_fit ops c (target_units t d) new_lm = (s', Ok tt) /\ lm_scaled s s'.
Proof.
  intros H. destruct (lm_fit_ok ops c d new_lm s H) as (m & sc & xg & Em & Er & L1 & L2 & Eo & E1 & Es & Ex & K).
  pose proof (lm_fit_intro ops c (target_units t d) new_lm m sc xg) as I.
  cbn [target_units b_rows b_p] in I.
  rewrite ws_retarget, length_retarget, scaler_fit_retarget, design_rows_retarget, Xs_retarget, ys_retarget, ws_retarget, init_y_gram_scal in I.
  destruct (I Em Er L1 L2 Eo E1 Es Ex) as [I1 I2].
  destruct K as [(Ep & m' & path & ic & k & F1 & F2 & F3 & ->)|(Ep & m' & beta & F1 & ->)].
  - destruct (Hfitp Ep _ _ _ _ _ _ _ (Hcfg _ Em) F1) as [Qm' F1'].
    destruct (select_scaled _ _ _ _ _ _ Ep ltac:(rewrite map_length; reflexivity) F2 F3) as (ic' & k' & F2' & F3').
    pose proof (I1 m' _ ic' k' Ep F1') as I1'. rewrite rss_fit_path in I1'.
    eexists. split; [apply I1'; [exact F2'|exact F3']|].
    split; [|split; [reflexivity|split; [discriminate|]]].
    { cbn. intros ? E. injection E as <-. exact Qm'. }
    eexists. split; [cbn; reflexivity|]. split; [congruence|]. intros _.
    exists path, (map (rss_fit (n_cols (c_icpt c) (b_p d)) (design_rows c sc (b_rows d))) path), (effective_training_length (c_forget c) (lsum (ws (b_rows d)))), ic, k, ic', k'. cbn [a_path a_rss a_ntrain a_coef].
    rewrite nth_vscale, map_length. auto 14.
  - destruct (Hfitb Ep _ _ _ _ _ _ _ (Hcfg _ Em) F1) as [Qm' F1'].
    eexists. split; [apply (I2 m' _ Ep F1')|].
    split; [|split; [reflexivity|split; [discriminate|]]].
    { cbn. intros ? E. injection E as <-. exact Qm'. }
    eexists. split; [cbn; reflexivity|]. split; [reflexivity|congruence].
Qed.

Lemma lm_update_scaled s s' e s1 : lm_scaled s s' -> lm_update ops c e s = (s1, Ok tt) ->
  exists s1', lm_update ops c (target_units t e) s' = (s1', Ok tt) /\ lm_scaled s1 s1'.
Proof.
  intros (Qs & Enf & Eno & coef' & -> & Hb & Hp) H.
  destruct (lm_update_ok ops c e s s1 H) as (n0 & sc0 & sc1 & m & x0 & y0 & xg & isreg & A1 & A2 & A3 & A4 & A5 & A6 & L1 & L2 & QQ & Sel & Es & Ex & K).
  set (s' := mk_lm _ _ _ _ _ _ _ _ _ _ _ _).
  pose proof (lm_update_intro ops c (target_units t e) s' n0 sc0 sc1 m x0 (vscale t y0) xg isreg) as I.
  cbn [target_units b_rows b_p] in I.
  rewrite ws_retarget, length_retarget, scaler_update_retarget, design_rows_retarget, Xs_retarget, ys_retarget, ws_retarget, update_y_gram_scal in I.
  assert (Ee : b_p d = b_p e) by (apply QQ; exact Enf).
  assert (Enf' : a_nfin s' = Some (b_p e)) by (unfold s'; cbn [a_nfin]; congruence).
  assert (A5' : a_y s' = Some (vscale t y0)) by (unfold s'; cbn [a_y]; rewrite A5; reflexivity).
  destruct (I A1 A2 A3 A4 A5' A6 L1 L2 Enf' Sel Es Ex) as [I1 I2].
  destruct K as [(Ep & m' & path0 & rss0 & path & ic & k & F1 & F2 & F3 & F4 & F5 & F6 & ->)|(Ep & m' & beta0 & beta & F1 & F2 & ->)].
  - destruct (Hupdp Ep _ _ _ _ _ _ _ _ (Qs _ A3) F3) as [Qm' F3'].
    set (rss := map2 _ rss0 _) in *.
    assert (LL : length rss = length path) by (unfold rss; rewrite map2_length; [exact F4|rewrite map_length; exact F4]).
    destruct (select_scaled _ _ _ _ _ _ Ep LL F5 F6) as (ic' & k' & F5' & F6').
    pose proof (I1 m' (map (vscale t) path0) (map (Rmult (t ^ 2)) rss0) (map (vscale t) path) ic' k' Ep) as I1'.
    cbv zeta in I1'. rewrite rss_update_path in I1'. fold rss in I1'.
    eexists. split.
    { apply I1'; [unfold s'; cbn [a_path]; rewrite F1; reflexivity|unfold s'; cbn [a_rss]; rewrite F2; reflexivity|exact F3'| |exact F5'|exact F6'].
      rewrite !map_length. exact F4. }
    split; [|split; [exact Enf|split; [discriminate|]]].
    { cbn. intros ? E. injection E as <-. exact Qm'. }
    eexists. split; [cbn; reflexivity|]. split; [congruence|]. intros _.
    exists path, rss, (effective_training_length (c_forget c) (n0 + lsum (ws (b_rows e)))), ic, k, ic', k'. cbn [a_path a_rss a_ntrain a_coef].
    rewrite nth_vscale, Ee. auto 14.
  - destruct (Hupdb Ep _ _ _ _ _ _ _ _ (Qs _ A3) F2) as [Qm' F2'].
    eexists. split.
    { apply (I2 m' (vscale t beta0) (vscale t beta) Ep); [unfold s'; cbn [a_coef]; rewrite (Hb Ep), F1; reflexivity|exact F2']. }
    split; [|split; [exact Enf|split; [discriminate|]]].
    { cbn. intros ? E. injection E as <-. exact Qm'. }
    eexists. split; [cbn; reflexivity|]. split; [reflexivity|congruence].
Qed.

Lemma lm_updates_scaled ds : forall s s' s1, lm_scaled s s' -> lm_history ops c ds s = Ok s1 ->
  exists s1', lm_history ops c (map (target_units t) ds) s' = Ok s1' /\ lm_scaled s1 s1'.
Proof.
  induction ds as [|e ds IH]; intros s s' s1 TW H.
  - injection H as <-. exists s'. auto.
  - cbn [lm_history map] in *. unfold partial_fit in *.
    assert (F : is_fitted s = true /\ is_fitted s' = true).
    { destruct TW as (_ & _ & Eno & coef' & -> & _). unfold is_fitted. cbn [a_nobs]. destruct (a_nobs s); auto; congruence. }
    destruct F as [F F']. rewrite F in H. rewrite F'.
    destruct (lm_update ops c e s) as [s2 [[]|]] eqn:E; [|discriminate].
    destruct (lm_update_scaled s s' e s2 TW E) as (s2' & E2 & TW2).
    rewrite E2. apply (IH s2 s2' s1); auto.
Qed.
Lemma lm_history_scaled ds s : lm_history ops c (d :: ds) new_lm = Ok s ->
  exists s', lm_history ops c (map (target_units t) (d :: ds)) new_lm = Ok s' /\ lm_scaled s s'.
Proof.
  intros H. cbn [map lm_history] in *. unfold partial_fit in H at 1. cbn in H.
  destruct (lm_fit ops c d new_lm) as [s0 [[]|]] eqn:E; [|discriminate].
  destruct (lm_fit_scaled s0 E) as (s0' & E0 & TW).
  unfold partial_fit at 1. cbn. rewrite E0. apply (lm_updates_scaled ds s0 s0' s); auto.
Qed.

Lemma lm_scaled_coef s s' path rss nt : lm_scaled s s' -> op_path_based ops = true ->
  a_path s = Some path -> a_rss s = Some rss -> a_ntrain s = Some nt ->
  same_zeros t (n_cols (c_icpt c) (b_p d)) path -> (forall r, In r rss -> 0 < r) -> 0 < nt ->
  a_coef s' = option_map (vscale t) (a_coef s).
Proof.
  intros (Qs & Enf & Eno & coef' & -> & Hb & Hp) P E1 E2 E3 Hz Hr Hn. cbn [a_coef].
  destruct (Hp P) as (path1 & rss1 & nt1 & ic & k & ic' & k' & B1 & B2 & B3 & BL & B4 & B5 & B6 & B7 & B8 & ->).
  rewrite E1 in B1. injection B1 as <-. rewrite E2 in B2. injection B2 as <-. rewrite E3 in B3. injection B3 as <-.
  rewrite n_nonzero_same in B6 by auto.
  destruct (from_rss_scal _ _ _ _ (t ^ 2) _ Hn ltac:(apply pow_lt, Ht, P) Hr B4) as (dd & E).
  rewrite E in B6. injection B6 as <-. rewrite argmin_shift, B5 in B7. injection B7 as <-. rewrite B8. reflexivity.
Qed.
Lemma lm_scaled_predict_path s s' p X : lm_scaled s s' ->
  snd (lm_predict_path c p X s') = res_map (map (map (Rmult t))) (snd (lm_predict_path c p X s)).
Proof.
  intros (Qs & Enf & Eno & coef' & -> & _).
  destruct s as [a1 a2 a3 a4 a5 a6 a7 a8 a9 a10 a11 a12]. cbn in Enf, Eno. subst.
  unfold lm_predict_path, any_fitted_attribute, validate_old, bnd, read, ret, raise. cbn [a_method a_scaler a_nfin a_nobs a_nfeat a_ntrain a_isreg a_x a_y a_path a_rss a_coef].
  destruct ((length X <? 1)%nat || (p <? 1)%nat); [auto|].
  cbn [a_method a_scaler a_nfin a_nobs a_nfeat a_ntrain a_isreg a_x a_y a_path a_rss a_coef].
  destruct (Nat.eqb p (b_p d)); [|auto]. cbn [a_method a_scaler a_nfin a_nobs a_nfeat a_ntrain a_isreg a_x a_y a_path a_rss a_coef].
  destruct a2 as [[sc|]|]; auto.
  destruct (sc_do sc && _); [auto|]. cbn [a_method a_scaler a_nfin a_nobs a_nfeat a_ntrain a_isreg a_x a_y a_path a_rss a_coef].
  destruct a10 as [path|]; cbn [option_map snd res_map]; auto. f_equal. rewrite map_map. apply map_ext. intros x.
  rewrite !map_map. apply map_ext. intros b. apply dot_vscale.
Qed.
Lemma lm_scaled_predict s s' p X : lm_scaled s s' -> a_coef s' = option_map (vscale t) (a_coef s) ->
  snd (lm_predict c p X s') = res_map (map (Rmult t)) (snd (lm_predict c p X s)).
Proof.
  intros (Qs & Enf & Eno & coef' & -> & _) E. cbn [a_coef] in E. subst coef'.
  destruct s as [a1 a2 a3 a4 a5 a6 a7 a8 a9 a10 a11 a12]. cbn in Enf, Eno. subst.
  unfold lm_predict, any_fitted_attribute, validate_old, bnd, read, ret, raise. cbn [a_method a_scaler a_nfin a_nobs a_nfeat a_ntrain a_isreg a_x a_y a_path a_rss a_coef].
  destruct ((length X <? 1)%nat || (p <? 1)%nat); [auto|].
  cbn [a_method a_scaler a_nfin a_nobs a_nfeat a_ntrain a_isreg a_x a_y a_path a_rss a_coef].
  destruct (Nat.eqb p (b_p d)); [|auto]. cbn [a_method a_scaler a_nfin a_nobs a_nfeat a_ntrain a_isreg a_x a_y a_path a_rss a_coef].
  destruct a2 as [[sc|]|]; auto.
  destruct (sc_do sc && _); [auto|]. cbn [a_method a_scaler a_nfin a_nobs a_nfeat a_ntrain a_isreg a_x a_y a_path a_rss a_coef].
  destruct a12 as [coef|]; cbn [option_map snd res_map]; auto. f_equal. rewrite map_map. apply map_ext. intros x. apply dot_vscale.
Qed.
Lemma r2_scal y z : t <> 0 -> r2 (map (Rmult t) y) (map (Rmult t) z) = r2 y z.
Proof.
  intros H. unfold r2. rewrite map_length, map_map.
  assert (E1 : forall l, lsum (map (Rmult t) l) = t * lsum l) by (induction l as [|v l IH]; cbn; [ring|rewrite IH; ring]).
  rewrite E1.
  assert (E2 : forall m l, lsum (map (fun x => (t * x - t * lsum y / m) ^ 2) l) = t ^ 2 * lsum (map (fun a => (a - lsum y / m) ^ 2) l)).
  { intros m l. induction l as [|v l IH]; [cbn; ring|]. cbn [map lsum fold_right] in *. cbn. cbn in IH. rewrite IH. unfold Rdiv. ring. }
  assert (E3 : forall l m, lsum (map2 (fun a b => (a - b) ^ 2) (map (Rmult t) l) (map (Rmult t) m)) = t ^ 2 * lsum (map2 (fun a b => (a - b) ^ 2) l m)).
  { induction l as [|v l IH]; intros [|u m]; try (cbn; ring). cbn [map map2]. cbn in IH |- *. rewrite IH. ring. }
  rewrite E2, E3. set (a := lsum (map2 _ y z)). set (b := lsum (map _ y)).
  assert (Hq : t ^ 2 <> 0) by (apply pow_nonzero; auto).
  unfold Reqb. destruct (Req_EM_T (t ^ 2 * b) 0) as [F|F], (Req_EM_T b 0) as [G|G]; auto.
  - apply Rmult_integral in F. tauto.
  - rewrite G in F. destruct F. ring.
  - do 2 f_equal. field. split; auto.
Qed.
Lemma lm_scaled_score s s' b : lm_scaled s s' -> a_coef s' = option_map (vscale t) (a_coef s) -> t <> 0 ->
  snd (lm_score c (target_units t b) s') = snd (lm_score c b s).
Proof.
  intros TW E H0. pose proof (lm_scaled_predict s s' (b_p b) (Xs (b_rows b)) TW E) as P.
  unfold lm_score, bnd. cbn [target_units b_p b_rows]. rewrite Xs_retarget, ys_retarget.
  destruct (lm_predict c (b_p b) (Xs (b_rows b)) s) as [s1 [v|e]], (lm_predict c (b_p b) (Xs (b_rows b)) s') as [s1' [v'|e']];
    cbn in P; try discriminate; injection P as ->; cbn; auto.
  rewrite r2_scal; auto.
Qed.
End LM.

Lemma C106_ols_lemma inv c t d ds s :
  lm_history (ols_ops inv) c (d :: ds) new_lm = Ok s ->
  exists s', lm_history (ols_ops inv) c (map (target_units t) (d :: ds)) new_lm = Ok s' /\
    a_coef s' = option_map (vscale t) (a_coef s) /\
    (forall p X, snd (lm_predict c p X s') = res_map (map (Rmult t)) (snd (lm_predict c p X s))) /\
    (t <> 0 -> forall b, snd (lm_score c (target_units t b) s') = snd (lm_score c b s)).
Proof.
  intros H.
  assert (E : forall p x y, ols_beta p x (vscale t y) = vscale t (ols_beta p x y)).
  { intros. apply functional_extensionality. intros i. unfold ols_beta, vscale. apply mvec_scal. }
  destruct (lm_history_scaled (ols_ops inv) c t d (fun _ => True)) with (ds := ds) (s := s) as (s' & E' & TW); auto; try discriminate.
  { intros _ m p x y r m' beta _ K. cbn in K |- *. injection K as <- <-. rewrite E. auto. }
  { intros _ m p x y r beta0 m' beta _ K. cbn in K |- *. injection K as <- <-. rewrite E. auto. }
  exists s'. split; [exact E'|].
  assert (C : a_coef s' = option_map (vscale t) (a_coef s)).
  { destruct TW as (_ & _ & _ & coef' & -> & Hb & _). cbn [a_coef]. apply Hb. reflexivity. }
  split; [exact C|]. split.
  - intros p X. apply (lm_scaled_predict (ols_ops inv) c t d (fun _ => True)); auto.
  - intros H0 b. apply (lm_scaled_score (ols_ops inv) c t d (fun _ => True)); auto.
Qed.
