(** Lemmas: penalised regression over all rows seen. *)
From Coq Require Import Reals List Bool Arith Permutation FunctionalExtensionality Lra Lia.
From Verif Require Import Base Lin Data M_Gram S_Gram L_Gram M_OLS L_OLS M_CD S_CD L_CD1 L_CD L_CD2 L_CD4 M_Path L_Path L_Path2 M_Ridge
  M_Scaler M_Utils S_Utils L_Utils M_State M_LM S_LM L_LM L_LM4 L_LM5 S_Rows S_Penal.
Import ListNotations.
Open Scope R_scope.

Lemma all_rows_snoc {M} icpt (tr : list (batch * lm M)) x : all_rows icpt (tr ++ [x]) = all_rows icpt tr ++ scaled_rows icpt x.
Proof. unfold all_rows. rewrite map_app, concat_app. cbn. now rewrite app_nil_r. Qed.
Lemma all_rows_one {M} icpt (x : batch * lm M) : all_rows icpt [x] = scaled_rows icpt x.
Proof. unfold all_rows. cbn. now rewrite app_nil_r. Qed.

(** The Gramians of a run. *)
Lemma run_gram {M} (ops : method_ops M) c tr s : keeps_gramian ops -> 0 <= c_forget c < 1 -> run ops c tr s ->
  Forall (fun x => weights_nonneg (b_rows (fst x))) tr ->
  a_x s = Some (gram_spec (c_forget c) (all_rows (c_icpt c) tr)) /\ a_y s = Some (ygram_spec (c_forget c) (all_rows (c_icpt c) tr)) /\
  a_isreg s = Some (is_regularized c).
Proof.
  intros [Ki Ku] Hf R. induction R as [b s H | tr s b s' R IH H]; intros W.
  - inversion W as [|? ? W1 _]; subst. cbn [fst] in W1.
    unfold partial_fit in H. change (is_fitted new_lm) with false in H. cbn iota in H.
    apply lm_fit_ok in H. cbv zeta in H.
    destruct H as (m & sc & xg & _ & _ & L1 & L2 & _ & _ & Hs & Hx & H).
    rewrite Ki in Hx. injection Hx as <-.
    assert (E : scaled_rows (c_icpt c) (b, s) = design_rows c sc (b_rows b)).
    { apply scaled_design. destruct H as [(_ & m' & path & ic & k & _ & _ & _ & ->)|(_ & m' & beta & _ & ->)]; reflexivity. }
    rewrite all_rows_one, E. pose proof (scaled_nonneg c sc _ W1) as W2.
    assert (EX : init_gram (Xs (design_rows c sc (b_rows b))) (ws (design_rows c sc (b_rows b))) (c_forget c) = gram_spec (c_forget c) (design_rows c sc (b_rows b))).
    { extensionality i. extensionality j. apply init_gram_spec; auto; lra. }
    assert (EY : init_y_gram (Xs (design_rows c sc (b_rows b))) (ys (design_rows c sc (b_rows b))) (ws (design_rows c sc (b_rows b))) (c_forget c) = ygram_spec (c_forget c) (design_rows c sc (b_rows b))).
    { extensionality i. apply init_y_gram_spec; auto; lra. }
    rewrite <- EX, <- EY.
    destruct H as [(_ & m' & path & ic & k & _ & _ & _ & ->)|(_ & m' & beta & _ & ->)]; repeat split; reflexivity.
  - apply Forall_app in W. destruct W as [W1 W2]. inversion W2 as [|? ? W3 _]; subst. cbn [fst] in W3.
    destruct (IH W1) as (X & Y & I).
    destruct (run_shape _ _ _ _ R) as (b0 & s0 & tr0 & p & sc & -> & Ep & P1 & F & S & K & Fit & A).
    unfold partial_fit in H. rewrite Fit in H. apply lm_update_ok in H. cbv zeta in H.
    destruct H as (n0 & sc0 & sc1 & m & x0 & y0 & xg & isreg & _ & S0 & _ & X0 & Y0 & I0 & L1 & L2 & Q & K0 & Hs & Hx & H).
    rewrite Ku in Hx. injection Hx as <-.
    rewrite X in X0. injection X0 as <-. rewrite Y in Y0. injection Y0 as <-. rewrite I in I0. injection I0 as <-.
    assert (E : scaled_rows (c_icpt c) (b, s') = design_rows c sc1 (b_rows b)).
    { apply scaled_design. destruct H as [(_ & m' & path0 & rss0 & path & ic & k & _ & _ & _ & _ & _ & _ & ->)|(_ & m' & beta0 & beta & _ & _ & ->)]; reflexivity. }
    rewrite all_rows_snoc, E. pose proof (scaled_nonneg c sc1 _ W3) as W4.
    set (l := design_rows c sc1 (b_rows b)) in *. set (d := all_rows (c_icpt c) ((b0, s0) :: tr0)) in *.
    assert (EX : update_gram (gram_spec (c_forget c) d) (Xs l) (c_forget c) (ws l) = gram_spec (c_forget c) (d ++ l)).
    { extensionality i. extensionality j. apply update_gram_spec; auto; lra. }
    assert (EY : update_y_gram (ygram_spec (c_forget c) d) (Xs l) (ys l) (c_forget c) (ws l) = ygram_spec (c_forget c) (d ++ l)).
    { extensionality i. apply update_y_gram_spec; auto; lra. }
    rewrite <- EX, <- EY.
    destruct H as [(_ & m' & path0 & rss0 & path & ic & k & _ & _ & _ & _ & _ & _ & ->)|(_ & m' & beta0 & beta & _ & _ & ->)]; repeat split; reflexivity.
Qed.

(** The penalised error is the objective of coordinate descent, up to a constant. *)
Lemma penal_enet (icpt reg : bool) cols f data alpha lambda b :
  penalised_error icpt reg cols f data alpha lambda b =
  enet_obj cols (gram_spec f data) (ygram_spec f data) lambda (fun j => if icpt then match j with O => reg | _ => true end else true) alpha b
  + 1 / 2 * dsum (1 - f) (fun o => ow o * oy o ^ 2) data.
Proof.
  unfold penalised_error, enet_obj. rewrite wls_loss_expand.
  assert (E : forall j, (if icpt && negb reg && Nat.eqb j 0 then 0 else alpha * Rabs (b j) + (1 - alpha) / 2 * b j ^ 2) =
    (if (if icpt then match j with O => reg | _ => true end else true) then alpha * Rabs (b j) + (1 - alpha) / 2 * b j ^ 2 else 0)).
  { intros [|j]; destruct icpt, reg; reflexivity. }
  rewrite (bsum_ext cols _ _ (fun j _ => E j)).
  assert (D : dot cols b (ygram_spec f data) = dot cols (ygram_spec f data) b) by (unfold dot; apply bsum_ext; intros; ring).
  rewrite D. lra.
Qed.
Lemma least_enet (icpt reg : bool) cols f data alpha lambda lo up b :
  enet_minimiser cols (gram_spec f data) (ygram_spec f data) lambda (fun j => if icpt then match j with O => reg | _ => true end else true) alpha lo up b ->
  least_penalised icpt reg cols f data alpha lambda lo up b.
Proof. intros [H1 H2]. split; [exact H1|]. intros b' Hb'. rewrite !penal_enet. pose proof (H2 b' Hb'). lra. Qed.
Lemma isreg_fun {M} (c : lm_cfg M) : is_regularized c = fun j => if c_icpt c then match j with O => c_regicpt c | _ => true end else true.
Proof. reflexivity. Qed.

(** * Descent of one coordinate descent *)
Lemma cd_penal (icpt reg : bool) cols f data alpha lambda lo up random perm tol maxit b b' n : f <= 1 -> weights_nonneg data ->
  0 <= lambda -> 0 <= alpha <= 1 -> box_ok cols lo up -> (forall i, Permutation (perm i) (seq 0 cols)) -> in_box cols lo up b ->
  online_coordinate_descent (mk_cd cols (gram_spec f data) (ygram_spec f data) lambda
     (fun j => if icpt then match j with O => reg | _ => true end else true) alpha lo up) random perm tol maxit b = Ok (b', n) ->
  penalised_error icpt reg cols f data alpha lambda b' <= penalised_error icpt reg cols f data alpha lambda b /\
  (~ least_penalised icpt reg cols f data alpha lambda lo up b ->
   penalised_error icpt reg cols f data alpha lambda b' < penalised_error icpt reg cols f data alpha lambda b).
Proof.
  intros Hf W Hl Ha Hb Hp Hi H.
  pose proof (gram_spec_sym f data cols) as S1. pose proof (gram_spec_psd f data cols Hf W) as S2.
  rewrite !penal_enet. split.
  - enough (K : enet_obj cols (gram_spec f data) (ygram_spec f data) lambda (fun j => if icpt then match j with O => reg | _ => true end else true) alpha b' <=
      enet_obj cols (gram_spec f data) (ygram_spec f data) lambda (fun j => if icpt then match j with O => reg | _ => true end else true) alpha b) by lra.
    eapply C11_lemma; eauto. intros j Hj. now apply (psd_diag cols).
  - intros N. enough (K : enet_obj cols (gram_spec f data) (ygram_spec f data) lambda (fun j => if icpt then match j with O => reg | _ => true end else true) alpha b' <
      enet_obj cols (gram_spec f data) (ygram_spec f data) lambda (fun j => if icpt then match j with O => reg | _ => true end else true) alpha b) by lra.
    eapply C11_strict_lemma; eauto. intros M. apply N. now apply least_enet.
Qed.

Lemma bound_filled b J : bound_fun (Some (fill_bound b J)) = bound_fun b.
Proof. destruct b; [reflexivity|]. extensionality j. cbn. apply nth_repeat_none. Qed.

(** * Ridge *)
Definition ridge_object (m : ridge_cfg) (lambda : R) (J : nat) : ridge_cfg :=
  mk_ridge (Some lambda) (ri_start m) (ri_random m) (Some (fill_bound (ri_lower m) J)) (Some (fill_bound (ri_upper m) J)) (ri_tol m) (ri_maxit m).
Lemma ridge_args_object m l l' J x y isreg : ridge_args (ridge_object m l' J) l J x y isreg = mk_cd J x y l isreg 0 (bound_fun (ri_lower m)) (bound_fun (ri_upper m)).
Proof. unfold ridge_args, ridge_object. cbn [ri_lower ri_upper]. now rewrite !bound_filled. Qed.
Lemma ridge_fit_inv inv m perm J x y isreg m' beta : ridge_fit inv m perm J x y isreg = Ok (m', beta) ->
  exists n st, m' = ridge_object m (ridge_lambda m J x) J /\
    online_coordinate_descent (mk_cd J x y (ridge_lambda m J x) isreg 0 (bound_fun (ri_lower m)) (bound_fun (ri_upper m))) (ri_random m) perm (ri_tol m) (ri_maxit m) st = Ok (beta, n).
Proof.
  unfold ridge_fit, ridge_bounds. cbv zeta.
  destruct (negb _); [discriminate|]. destruct (negb _); [discriminate|]. cbn [bind].
  match goal with |- context [ridge_args ?k ?l J x y isreg] => change k with (ridge_object m l J) end.
  set (l := ridge_lambda (mk_ridge _ _ _ _ _ _ _) J x). assert (L : l = ridge_lambda m J x) by reflexivity. clearbody l. subst l.
  rewrite ridge_args_object. cbn [ri_random ri_tol ri_maxit ridge_object].
  destruct (online_coordinate_descent _ _ _ _ _ _) as [[b n]|] eqn:E; cbn [bind]; [|discriminate].
  intros [= <- <-]. eauto.
Qed.
Lemma ridge_update_inv m l perm J x y b isreg b' : ridge_update (ridge_object m l J) perm J x y b isreg = Ok b' ->
  exists n, online_coordinate_descent (mk_cd J x y l isreg 0 (bound_fun (ri_lower m)) (bound_fun (ri_upper m))) (ri_random m) perm (ri_tol m) (ri_maxit m) b = Ok (b', n).
Proof.
  unfold ridge_update. cbn [ri_lambda ridge_object]. fold (ridge_object m l J). rewrite ridge_args_object. cbn [ri_random ri_tol ri_maxit ridge_object].
  destruct (online_coordinate_descent _ _ _ _ _ _) as [[b1 n]|] eqn:E; cbn [bind]; [|discriminate]. intros [= <-]. eauto.
Qed.

Section Ridge.
Variables (inv : nat -> mat -> option mat) (perms : nat -> nat -> list nat) (c : lm_cfg (ridge_cfg * nat)) (m : ridge_cfg) (k0 : nat).
Hypothesis Hm : c_method c = Ok (m, k0).
Hypothesis Hf : 0 <= c_forget c < 1.
Notation ops := (ridge_ops inv perms).

Lemma ridge_run tr s p : run ops c tr s -> a_nfin s = Some p -> Forall (fun x => weights_nonneg (b_rows (fst x))) tr ->
  box_ok (n_cols (c_icpt c) p) (bound_fun (ri_lower m)) (bound_fun (ri_upper m)) ->
  (forall k i, Permutation (perms k i) (seq 0 (n_cols (c_icpt c) p))) ->
  exists k x0 tr0 beta, tr = x0 :: tr0 /\
    a_method s = Some (ridge_object m (ridge_penalty m (n_cols (c_icpt c) p) (c_forget c) (scaled_rows (c_icpt c) x0)) (n_cols (c_icpt c) p), k) /\
    a_coef s = Some beta /\ in_box (n_cols (c_icpt c) p) (bound_fun (ri_lower m)) (bound_fun (ri_upper m)) beta.
Proof.
  intros R. revert p. induction R as [b s H | tr s b s' R IH H]; intros p Hp W Hb Hpm.
  - assert (RG := run_gram ops c [(b, s)] s (conj (fun _ _ _ _ => eq_refl) (fun _ _ _ _ _ => eq_refl)) Hf (run_fit _ _ _ _ H) W).
    destruct RG as (RX & _ & _). rewrite all_rows_one in RX.
    unfold partial_fit in H. change (is_fitted new_lm) with false in H. cbn iota in H.
    apply lm_fit_ok in H. cbv zeta in H.
    destruct H as (m1 & sc & xg & Hm1 & _ & L1 & L2 & _ & _ & Hs & Hx & [(K & _)|(_ & m' & beta & Hfit & Es)]); [discriminate K|].
    rewrite Hm in Hm1. injection Hm1 as <-. cbn [ridge_ops op_fit_beta fst snd] in Hfit.
    destruct (ridge_fit inv m (perms k0) _ xg _ _) as [[m2 b2]|] eqn:E; cbn [bind] in Hfit; [|discriminate]. injection Hfit as <- <-.
    assert (Ep : b_p b = p) by (rewrite Es in Hp; now injection Hp). rewrite Ep in *.
    apply ridge_fit_inv in E. destruct E as (n & st & -> & E).
    exists (S k0), (b, s), [], b2. split; [reflexivity|].
    rewrite Es in RX. injection RX as RX. rewrite Es at 1. rewrite Es at 2. cbn [a_method a_coef fst snd].
    split; [|split; [reflexivity|]].
    + do 3 f_equal. unfold ridge_lambda, ridge_penalty. destruct (ri_lambda m); [reflexivity|]. rewrite RX. rewrite Es. reflexivity.
    + eapply C12_lemma; eauto.
  - apply Forall_app in W. destruct W as [W1 W2].
    destruct (run_shape _ _ _ _ R) as (b0 & s0 & tr0 & q & sc & -> & Eq & P1 & F & S & K & Fit & A).
    unfold partial_fit in H. rewrite Fit in H. apply lm_update_ok in H. cbv zeta in H.
    destruct H as (n0 & sc0 & sc1 & m1 & x0 & y0 & xg & isreg & _ & S0 & M0 & X0 & Y0 & _ & L1 & L2 & Q & K0 & Hs & Hx & [(Z & _)|(_ & m' & beta0 & beta & C0 & Hu & Es)]); [discriminate Z|].
    assert (Ep : q = p) by (rewrite Es in Hp; cbn in Hp; congruence). rewrite Ep in F.
    assert (E : b_p b = p) by (symmetry; apply Q; exact F).
    destruct (IH p F W1 Hb Hpm) as (k & x1 & tr1 & beta1 & ET & EM & EC & EB).
    rewrite M0 in EM. injection EM as ->. cbn [ridge_ops op_update_beta fst snd] in Hu. rewrite E in Hu.
    destruct (ridge_update _ _ _ _ _ _ _) as [b2|] eqn:EU; cbn [bind] in Hu; [|discriminate]. injection Hu as <- <-.
    apply ridge_update_inv in EU. destruct EU as (n & EU).
    exists (Datatypes.S k), x1, (tr1 ++ [(b, s')]), b2. rewrite ET. split; [reflexivity|].
    rewrite Es. cbn [a_method a_coef]. split; [reflexivity|]. split; [reflexivity|]. eapply C12_lemma; eauto.
Qed.

Lemma C114_ridge_lemma tr s p b s' beta beta' : run ops c tr s -> partial_fit ops c b s = (s', Ok tt) -> a_nfin s = Some p ->
  Forall (fun x => weights_nonneg (b_rows (fst x))) (tr ++ [(b, s')]) ->
  let cols := n_cols (c_icpt c) p in let lo := bound_fun (ri_lower m) in let up := bound_fun (ri_upper m) in
  let f := c_forget c in
  box_ok cols lo up -> (forall k i, Permutation (perms k i) (seq 0 cols)) ->
  let lambda := ridge_penalty m cols f (match tr with x :: _ => scaled_rows (c_icpt c) x | [] => [] end) in
  0 <= lambda -> a_coef s = Some beta -> a_coef s' = Some beta' ->
  let error := penalised_error (c_icpt c) (c_regicpt c) cols f (all_rows (c_icpt c) (tr ++ [(b, s')])) 0 lambda in
  error beta' <= error beta /\
  (~ least_penalised (c_icpt c) (c_regicpt c) cols f (all_rows (c_icpt c) (tr ++ [(b, s')])) 0 lambda lo up beta -> error beta' < error beta).
Proof.
  intros R H Hp W cols lo up f Hb Hpm lambda Hl C C'. 
  pose proof (run_step _ _ _ _ _ _ R H) as R'. pose proof W as W'. apply Forall_app in W. destruct W as [W1 W2].
  destruct (ridge_run tr s p R Hp W1 Hb Hpm) as (k & x0 & tr0 & beta1 & -> & EM & EC & EB).
  rewrite C in EC. injection EC as <-.
  destruct (run_gram ops c _ s' (conj (fun _ _ _ _ => eq_refl) (fun _ _ _ _ _ => eq_refl)) Hf R' W') as (RX & RY & RI).
  destruct (run_shape _ _ _ _ R) as (b0 & s0 & tr1 & q & sc & ET & Eq & P1 & F & S & K & Fit & A).
  rewrite Hp in F. injection F as <-.
  unfold partial_fit in H. rewrite Fit in H. apply lm_update_ok in H. cbv zeta in H.
  destruct H as (n0 & sc0 & sc1 & m1 & xx & yy & xg & isreg & _ & S0 & M0 & X0 & Y0 & _ & L1 & L2 & Q & K0 & Hs & Hx & [(Z & _)|(_ & m' & beta0 & beta2 & C0 & Hu & Es)]); [discriminate Z|].
  rewrite <- (Q p Hp) in *.
  rewrite EM in M0. injection M0 as <-. rewrite C in C0. injection C0 as <-.
  cbn [ridge_ops op_update_beta fst snd] in Hu. fold cols f in Hu.
  change (ridge_penalty m cols f (scaled_rows (c_icpt c) x0)) with lambda in Hu.
  destruct (ridge_update _ _ _ _ _ _ _) as [b2|] eqn:EU; cbn [bind] in Hu; [|discriminate]. injection Hu as <- <-.
  apply ridge_update_inv in EU. destruct EU as (n & EU).
  pose proof (eq_trans (eq_sym (f_equal a_x Es)) RX) as RX'. pose proof (eq_trans (eq_sym (f_equal a_y Es)) RY) as RY'. pose proof (eq_trans (eq_sym (f_equal a_isreg Es)) RI) as RI'. pose proof (eq_trans (eq_sym (f_equal a_coef Es)) C') as C2. cbn [a_x a_y a_isreg a_coef] in RX', RY', RI', C2.
  injection RX' as RX'. injection RY' as RY'. injection RI' as RI'. injection C2 as <-.
  change f with (c_forget c) in EU. rewrite RX', RY', RI' in EU.
  apply (cd_penal (c_icpt c) (c_regicpt c) cols f _ 0 lambda lo up (ri_random m) (perms k) (ri_tol m) (ri_maxit m) beta b2 n); auto.
  - unfold f; lra.
  - eapply scaled_all_nonneg; eauto.
  - lra.
Qed.
End Ridge.

(** * Elastic net *)
Definition en_object (m : en_cfg) (J : nat) : en_cfg :=
  mk_en (en_alpha m) (en_n m) (en_eps m) (en_early_stop m) (en_start_initial m) (en_start_update m) (en_random m)
    (Some (fill_bound (en_lower m) J)) (Some (fill_bound (en_upper m) J)) (en_tol m) (en_maxit m).
Lemma en_args_object m J x y isreg : en_args (en_object m J) J x y isreg = mk_cd J x y 0 isreg (en_alpha m) (bound_fun (en_lower m)) (bound_fun (en_upper m)).
Proof. unfold en_args, en_object. cbn [en_lower en_upper en_alpha]. now rewrite !bound_filled. Qed.
Lemma grid_penalty l eps n k : l <> 0 -> grid_point l (l * eps) n k = penalty l eps n k.
Proof. intros H. unfold grid_point, penalty. do 2 f_equal. field. exact H. Qed.

(** One call: the rows of the new path by coordinate descent from their starts. *)
Definition rows_from (m : en_cfg) (perm : nat -> nat -> list nat) (J : nat) (G : mat) (h : vec) (isreg : nat -> bool) (l : R) (P : nat -> vec) (st : nat -> vec) : Prop :=
  forall k, (k < en_n m)%nat -> 
  if (0 <? en_early_stop m)%nat && (en_early_stop m <=? count_nonzero J (st k))%nat then P k = st k
  else exists n, online_coordinate_descent (mk_cd J G h (penalty l (en_eps m) (en_n m) k) isreg (en_alpha m) (bound_fun (en_lower m)) (bound_fun (en_upper m)))
    (en_random m) (perm k) (en_tol m) (en_maxit m) (st k) = Ok (P k, n).
Lemma rows_from_path m perm J G h isreg l w bp P out : l <> 0 ->
  online_coordinate_descent_path (en_args (en_object m J) J G h isreg) (en_random m) perm (en_tol m) (en_maxit m) (en_early_stop m) w bp
     (map (grid_point l (l * en_eps m) (en_n m)) (seq 0 (en_n m))) = Ok (P, out) ->
  rows_from m perm J G h isreg l P (row_start w P bp).
Proof.
  intros Hl H k Hk. apply path_rows in H. destruct H as [_ H]. rewrite grid_length in H. specialize (H k Hk).
  unfold row_ok in H. cbv zeta in H. rewrite grid_nth in H by exact Hk. rewrite grid_penalty in H by exact Hl.
  rewrite en_args_object in H. cbn [cd_J with_reg cd_x cd_y cd_isreg cd_alpha cd_lo cd_up] in H.
  destruct (_ && _); [tauto|]. eauto.
Qed.

Section EN.
Variables (perms : nat -> nat -> nat -> list nat) (c : lm_cfg (en_cfg * nat)) (m : en_cfg) (k0 : nat).
Hypothesis Hm : c_method c = Ok (m, k0).
Hypothesis Hf : 0 <= c_forget c < 1.
Notation ops := (en_ops perms).
Definition stored (s : lm (en_cfg * nat)) (P : nat -> vec) : Prop := a_path s = Some (map P (seq 0 (en_n m))).

Lemma en_run tr s p : run ops c tr s -> a_nfin s = Some p -> Forall (fun x => weights_nonneg (b_rows (fst x))) tr ->
  let cols := n_cols (c_icpt c) p in let data := all_rows (c_icpt c) tr in
  exists k P l, a_method s = Some (en_object m cols, S k) /\ stored s P /\
    get_lambda_max cols (gram_spec (c_forget c) data) (ygram_spec (c_forget c) data) (is_regularized c) = Ok l /\ l <> 0 /\
    ((exists x, tr = [x] /\
      rows_from m (perms k) cols (gram_spec (c_forget c) data) (ygram_spec (c_forget c) data) (is_regularized c) l P
        (row_start (en_start_initial m) P (fun _ _ => 0))) \/
     (exists tr0 s0 P0 x, tr = tr0 ++ [x] /\ run ops c tr0 s0 /\ a_nfin s0 = Some p /\ stored s0 P0 /\
      rows_from m (perms k) cols (gram_spec (c_forget c) data) (ygram_spec (c_forget c) data) (is_regularized c) l P
        (row_start (en_start_update m) P (fun i => nth i (map P0 (seq 0 (en_n m))) (fun _ => 0))))).
Proof.
  intros R. revert p. induction R as [b s H | tr s b s' R IH H]; intros p Hp W cols data.
  - destruct (run_gram ops c [(b, s)] s (conj (fun _ _ _ _ => eq_refl) (fun _ _ _ _ _ => eq_refl)) Hf (run_fit _ _ _ _ H) W) as (RX & RY & RI).
    fold data in RX, RY.
    unfold partial_fit in H. change (is_fitted new_lm) with false in H. cbn iota in H.
    apply lm_fit_ok in H. cbv zeta in H.
    destruct H as (m1 & sc & xg & Hm1 & _ & L1 & L2 & _ & _ & Hs & Hx & [(_ & m' & path & ic & kk & Hfit & _ & _ & Es)|(K & _)]); [|discriminate K].
    rewrite Hm in Hm1. injection Hm1 as <-. cbn [en_ops op_fit_path fst snd] in Hfit.
    assert (Ep : b_p b = p) by (rewrite Es in Hp; now injection Hp). rewrite Ep in *. fold cols in Hfit.
    pose proof (eq_trans (eq_sym (f_equal a_x Es)) RX) as RX'. pose proof (eq_trans (eq_sym (f_equal a_y Es)) RY) as RY'. cbn [a_x a_y] in RX', RY'. injection RX' as RX'. injection RY' as RY'. rewrite RX', RY' in Hfit. 
    destruct (fit_beta_path m (perms k0) _ _ _ _) as [[m2 P]|] eqn:E; cbn [bind] in Hfit; [|discriminate]. cbn [fst snd] in Hfit. injection Hfit as <- <-.
    apply fit_inv in E. destruct E as (l & out & B & EL & L0 & _ & E). apply bounds_inv in B. destruct B as (B & _).
    change (m2 = en_object m cols) in B. subst m2. apply rows_from_path in E; [|exact L0].
    exists k0, P, l. unfold stored. rewrite Es at 1 2. cbn [a_method a_path en_object en_n].
    split; [reflexivity|]. split; [reflexivity|]. split; [exact EL|]. split; [exact L0|].
    left. exists (b, s). auto.
  - pose proof W as W'. apply Forall_app in W. destruct W as [W1 W2].
    destruct (run_shape _ _ _ _ R) as (b0 & s0 & tr0 & q & sc & ET & Eq & P1 & F & S & K & Fit & A).
    destruct (run_gram ops c _ s' (conj (fun _ _ _ _ => eq_refl) (fun _ _ _ _ _ => eq_refl)) Hf (run_step _ _ _ _ _ _ R H) W') as (RX & RY & RI).
    fold data in RX, RY.
    unfold partial_fit in H. rewrite Fit in H. apply lm_update_ok in H. cbv zeta in H.
    destruct H as (n0 & sc0 & sc1 & m1 & x0 & y0 & xg & isreg & _ & S0 & M0 & X0 & Y0 & _ & L1 & L2 & Q & K0 & Hs & Hx & [(_ & m' & path0 & rss0 & path & ic & kk & Hpath & _ & Hu & _ & _ & _ & Es)|(Z & _)]); [|discriminate Z].
    assert (Ep : q = p) by (rewrite Es in Hp; cbn in Hp; congruence). rewrite Ep in F.
    assert (E : b_p b = p) by (symmetry; apply Q; exact F). rewrite E in *. fold cols in Hu.
    destruct (IH p F W1) as (k & P0 & l0 & EM & EP & _). fold cols in EM.
    rewrite EM in M0. injection M0 as <-. unfold stored in EP. rewrite EP in Hpath. injection Hpath as <-.
    pose proof (eq_trans (eq_sym (f_equal a_x Es)) RX) as RX'. pose proof (eq_trans (eq_sym (f_equal a_y Es)) RY) as RY'. pose proof (eq_trans (eq_sym (f_equal a_isreg Es)) RI) as RI'. cbn [a_x a_y a_isreg] in RX', RY', RI'. injection RX' as RX'. injection RY' as RY'. injection RI' as RI'.
    rewrite RX', RY', RI' in Hu. cbn [en_ops op_update_path fst snd] in Hu.
    destruct (update_beta_path _ _ _ _ _ _ _) as [P|] eqn:EU; cbn [bind] in Hu; [|discriminate]. injection Hu as <- <-.
    apply update_inv in EU. destruct EU as (l & out & EL & L0 & _ & EU).
    cbn [en_object en_random en_tol en_maxit en_early_stop en_start_update en_eps en_n] in EU. fold (en_object m cols) in EU.
    apply rows_from_path in EU; [|exact L0].
    exists (Datatypes.S k), P, l. unfold stored. rewrite Es. cbn [a_method a_path en_object en_n].
    split; [reflexivity|]. split; [reflexivity|]. split; [exact EL|]. split; [exact L0|].
    right. rewrite <- Es. exists tr, s, P0, (b, s'). auto.
Qed.
End EN.

(** * Sums over the rows of a run with intercept *)
Lemma run_scaled {M} (ops : method_ops M) c tr s : run ops c tr s -> Forall (fun x => exists sc, a_scaler (snd x) = Some (Some sc)) tr.
Proof.
  intros R. induction R as [b s H | tr s b s' R IH H].
  - pose proof (run_fit _ _ _ _ H) as R. destruct (run_shape _ _ _ _ R) as (b0 & s0 & tr1 & q & sc & ET & Eq & P1 & F & S & K & Fit & A). repeat constructor. cbn. eauto.
  - apply Forall_app. split; [exact IH|]. pose proof (run_step _ _ _ _ _ _ R H) as R'. destruct (run_shape _ _ _ _ R') as (b0 & s0 & tr1 & q & sc & ET & Eq & P1 & F & S & K & Fit & A). repeat constructor. cbn. eauto.
Qed.
Lemma dsum_map' {A B} g (F : B -> R) (h : A -> B) l : dsum g F (map h l) = dsum g (fun a => F (h a)) l.
Proof. induction l as [|a l IH]; [reflexivity|]. cbn [map dsum]. now rewrite IH, map_length. Qed.
Lemma rows_responses {M} icpt (tr : list (batch * lm M)) : Forall (fun x => exists sc, a_scaler (snd x) = Some (Some sc)) tr ->
  map (fun o => (oy o, ow o)) (all_rows icpt tr) = map (fun o => (oy o, ow o)) (stream (map fst tr)).
Proof.
  induction 1 as [|[b s] tr (sc & E) _ IH]; [reflexivity|]. unfold all_rows, stream in *. cbn [map concat fst]. rewrite !map_app, IH. f_equal.
  unfold scaled_rows. cbn [snd] in E. rewrite E, map_map. reflexivity.
Qed.
Lemma rows_mean {M} icpt (tr : list (batch * lm M)) f : Forall (fun x => exists sc, a_scaler (snd x) = Some (Some sc)) tr ->
  target_mean f (all_rows icpt tr) = target_mean f (stream (map fst tr)).
Proof.
  intros H. apply (rows_responses icpt) in H. unfold target_mean.
  assert (E : forall F : R * R -> R, dsum (1 - f) (fun o => F (oy o, ow o)) (all_rows icpt tr) = dsum (1 - f) (fun o => F (oy o, ow o)) (stream (map fst tr))).
  { intros F. rewrite <- !(dsum_map' _ F (fun o => (oy o, ow o))). now rewrite H. }
  exact (f_equal2 Rdiv (E (fun q => snd q * fst q)) (E snd)).
Qed.
Lemma rows_ones {M} (tr : list (batch * lm M)) o : In o (all_rows true tr) -> ox o 0%nat = 1.
Proof.
  unfold all_rows. rewrite in_concat. intros (l & Hl & Ho). apply in_map_iff in Hl. destruct Hl as ([b s] & <- & _).
  unfold scaled_rows in Ho. destruct (a_scaler s) as [[sc|]|]; [|destruct Ho|destruct Ho]. apply in_map_iff in Ho. destruct Ho as (o' & <- & _). reflexivity.
Qed.
Section Ones.
Variables (f : R) (data : list obs).
Hypothesis H1 : forall o, In o data -> ox o 0%nat = 1.
Lemma ones_gram k : gram_spec f data 0%nat k = dsum (1 - f) (fun o => ow o * ox o k) data.
Proof. unfold gram_spec. apply dsum_ext. intros o Ho. rewrite (H1 o Ho). ring. Qed.
Lemma ones_y : ygram_spec f data 0%nat = dsum (1 - f) (fun o => ow o * oy o) data.
Proof. unfold ygram_spec. apply dsum_ext. intros o Ho. rewrite (H1 o Ho). ring. Qed.
Lemma ones_mean : ygram_spec f data 0%nat / gram_spec f data 0%nat 0%nat = target_mean f data.
Proof.
  rewrite ones_y, ones_gram. unfold target_mean. apply (f_equal2 Rdiv); [reflexivity|]. apply dsum_ext. intros o Ho. rewrite (H1 o Ho). ring.
Qed.
Lemma ones_excess k : res_corr (gram_spec f data) (ygram_spec f data) 0 k = excess f data k.
Proof.
  unfold res_corr. rewrite ones_mean, ones_gram. unfold ygram_spec, excess.
  rewrite Rmult_comm, <- dsum_scal. rewrite <- dsum_minus. apply dsum_ext. intros o _. ring.
Qed.
End Ones.
Lemma intercept_only {M} (c : lm_cfg M) p : c_icpt c = true -> c_regicpt c = false -> only_unreg (n_cols (c_icpt c) p) (is_regularized c) 0.
Proof.
  intros H1 H2. rewrite H1. split; [unfold n_cols; lia|]. intros j Hj. unfold is_regularized. rewrite H1, H2. destruct j; split; congruence || lia.
Qed.
Lemma lambda_excess {M} (c : lm_cfg M) (tr : list (batch * lm M)) p l : c_icpt c = true -> c_regicpt c = false ->
  let cols := n_cols (c_icpt c) p in let data := all_rows (c_icpt c) tr in
  get_lambda_max cols (gram_spec (c_forget c) data) (ygram_spec (c_forget c) data) (is_regularized c) = Ok l ->
  gram_spec (c_forget c) data 0%nat 0%nat <> 0 /\ largest_excess cols (c_forget c) data l.
Proof.
  intros H1 H2 cols data H. pose proof (intercept_only c p H1 H2) as U. fold cols in U.
  assert (N : gram_spec (c_forget c) data 0%nat 0%nat <> 0).
  { unfold get_lambda_max in H. rewrite (unregularized_one _ _ _ U) in H. destruct (Reqb _ 0) eqn:E; [discriminate|]. apply Reqb_false. exact E. }
  split; [exact N|]. rewrite (lambda_max_one _ _ _ _ 0 U N) in H.
  assert (O : forall o, In o data -> ox o 0%nat = 1) by (unfold data; rewrite H1; apply rows_ones).
  apply np_max_spec in H. destruct H as [Ha (k & Hk & Hb)]. split.
  - intros j Hj. rewrite <- (ones_excess _ _ O). apply Ha, Hj.
  - exists k. split; [exact Hk|]. rewrite <- (ones_excess _ _ O). exact Hb.
Qed.

(** * First row *)
Lemma first_row cols G h isreg l random perm tol maxit st P n : symmetric cols G -> psd cols G -> only_unreg cols isreg 0 -> 0 <= l ->
  (forall k, (k < cols)%nat -> Rabs (res_corr G h 0 k) <= l) -> (forall i, Permutation (perm i) (seq 0 cols)) ->
  (forall j, (1 <= j < cols)%nat -> st j = 0) ->
  online_coordinate_descent (mk_cd cols G h l isreg 1 (fun _ => None) (fun _ => None)) random perm tol maxit st = Ok (P, n) ->
  P 0%nat = h 0%nat / G 0%nat 0%nat /\ forall j, (1 <= j < cols)%nat -> P j = 0.
Proof.
  intros HS HP Hu Hl Hm Hp Hst R. set (a := mk_cd cols G h l isreg 1 (fun _ => None) (fun _ => None)) in R.
  assert (Hd : forall j, (j < cols)%nat -> 0 < G j j).
  { intros j Hj. pose proof (psd_diag cols G j HP Hj) as D. destruct (Req_dec (G j j) 0) as [Z|Z]; [|lra]. exfalso.
    assert (K : online_coordinate_descent a random perm tol maxit st = Raise ZeroDivisionError).
    { apply C22_lemma; [exact Hp|]. exists j. split; [exact Hj|]. rewrite Z. destruct (isreg j); ring. }
    rewrite R in K. discriminate. }
  assert (Hub : unbounded a) by (intros j; split; reflexivity).
  assert (Hl' : 0 <= cd_reg a) by exact Hl. assert (Ha' : 0 <= cd_alpha a <= 1) by (cbn; lra).
  assert (F : cd_fixed a (only_u G h 0)).
  { apply (proj2 (one_fixed_iff a 0 HS Hd Hu Hub Hl' Ha')). intros k Hk. cbn [a cd_alpha cd_reg]. rewrite Rmult_1_l. apply Hm, Hk. }
  destruct Hu as [Hu1 Hu2].
  assert (V : cd_coord a st 0 = Ok (h 0%nat / G 0%nat 0%nat)).
  { pose proof (Hd 0%nat Hu1) as D. rewrite coord_unbounded; [|exact Hub|].
    - unfold cd_num, cd_den. cbn [a cd_isreg cd_x]. replace (isreg 0%nat) with false by (symmetry; apply Hu2; auto).
      unfold cd_partial. cbn [a cd_y cd_x cd_J]. do 2 f_equal.
      + rewrite (bsum_ext cols _ (fun i => if Nat.eqb i 0 then G 0%nat 0%nat * st 0%nat else 0)).
        * rewrite (bsum_delta cols 0 (fun _ => _) Hu1). ring.
        * intros j Hj. destruct (Nat.eqb_spec j 0) as [->|Nj]; [ring|]. rewrite (Hst j) by lia. ring.
    - unfold cd_den. cbn [a cd_isreg cd_x]. replace (isreg 0%nat) with false by (symmetry; apply Hu2; auto). lra. }
  destruct (cd_fixed_after_first a random perm tol maxit st (only_u G h 0) _ F Hp Hu1 V) as (b' & n' & E' & Hb').
  { intros k Hk. unfold vset, only_u. destruct (Nat.eqb_spec k 0); [reflexivity|]. apply Hst. cbn in Hk. lia. }
  rewrite R in E'. injection E' as <- _. split.
  - rewrite (Hb' 0%nat Hu1). reflexivity.
  - intros j Hj. rewrite (Hb' j) by (cbn; lia). unfold only_u. destruct (Nat.eqb_spec j 0); [lia|reflexivity].
Qed.
Lemma count_one cols st : (forall j, (1 <= j < cols)%nat -> st j = 0) -> (count_nonzero cols st <= 1)%nat.
Proof.
  induction cols as [|n IH]; intros H; [cbn; lia|]. cbn [count_nonzero]. destruct n as [|n]; [cbn; destruct (Reqb _ _); lia|].
  rewrite (H (S n)) by lia. replace (Reqb 0 0) with true by (symmetry; now apply Reqb_true). specialize (IH (fun j Hj => H j ltac:(lia))). lia.
Qed.

Lemma run_last {M} (ops : method_ops M) c tr s : run ops c tr s -> exists tr0 b, tr = tr0 ++ [(b, s)].
Proof. intros [b s1 H|tr1 s1 b s2 R H]; [exists [], b; reflexivity|eauto]. Qed.
Lemma largest_nonneg cols f data l : largest_excess cols f data l -> 0 <= l.
Proof. intros (_ & j & _ & <-). apply Rabs_pos. Qed.
Lemma first_penalty l eps n : 0 < eps -> penalty l eps n 0 = l.
Proof. intros H. unfold penalty. cbn [INR]. unfold Rdiv. rewrite Rmult_0_l, Rpower_O by exact H. ring. Qed.
Lemma penalty_nonneg l eps n k : 0 <= l -> 0 <= penalty l eps n k.
Proof. intros H. unfold penalty, Rpower. apply Rmult_le_pos; [exact H|]. left. apply exp_pos. Qed.

Section Lasso.
Variables (perms : nat -> nat -> nat -> list nat) (c : lm_cfg (en_cfg * nat)) (m : en_cfg) (k0 : nat).
Hypothesis Hm : c_method c = Ok (m, k0).
Hypothesis Hf : 0 <= c_forget c < 1.
Hypothesis Hi : c_icpt c = true.
Hypothesis Hr : c_regicpt c = false.
Hypothesis Heps : 0 < en_eps m.
Hypothesis Hn : (1 <= en_n m)%nat.

Lemma first_of_run (Ha : en_alpha m = 1) (Hlo : en_lower m = None) (Hup : en_upper m = None) (He : en_early_stop m <> 1%nat) :
  forall n tr s p, length tr = n -> run (en_ops perms) c tr s -> a_nfin s = Some p ->
  Forall (fun x => weights_nonneg (b_rows (fst x))) tr ->
  (forall k i j, Permutation (perms k i j) (seq 0 (S p))) ->
  exists P, stored m s P /\ P 0%nat 0%nat = target_mean (c_forget c) (stream (map fst tr)) /\ forall j, (1 <= j < S p)%nat -> P 0%nat j = 0.
Proof.
  induction n as [n IH] using lt_wf_ind. intros tr s p En R Hp W Hpm.
  destruct (en_run perms c m k0 Hm Hf tr s p R Hp W) as (k & P & l & _ & St & EL & L0 & C).
  assert (NC : n_cols (c_icpt c) p = S p) by (rewrite Hi; unfold n_cols; lia).
  destruct (lambda_excess c tr p l Hi Hr EL) as [G0 LE].
  pose proof (largest_nonneg _ _ _ _ LE) as Lp.
  pose proof (intercept_only c p Hi Hr) as U.
  exists P. split; [exact St|]. rewrite NC in *.
  set (data := all_rows (c_icpt c) tr) in *.
  assert (O : forall o, In o data -> ox o 0%nat = 1) by (unfold data; rewrite Hi; apply rows_ones).
  rewrite <- (rows_mean (c_icpt c)) by (eapply run_scaled; exact R). fold data. rewrite <- (ones_mean _ _ O).
  assert (Q : exists st, (forall j, (1 <= j < S p)%nat -> st 0%nat j = 0) /\
     rows_from m (perms k) (S p) (gram_spec (c_forget c) data) (ygram_spec (c_forget c) data) (is_regularized c) l P st).
  { destruct C as [(x & _ & C)|(tr0 & s0 & P0 & x & -> & R0 & Hp0 & St0 & C)]; eexists; (split; [|exact C]); intros j Hj.
    - unfold row_start. destruct (en_start_initial m); reflexivity.
    - destruct (IH (length tr0) ltac:(rewrite <- En, app_length; cbn; lia) tr0 s0 p eq_refl R0 Hp0 (proj1 (proj1 (Forall_app _ _ _) W)) Hpm) as (P1 & St1 & _ & Z).
      unfold stored in St0, St1. rewrite St0 in St1. injection St1 as St1. unfold row_start.
      assert (E : nth 0 (map P0 (seq 0 (en_n m))) (fun _ => 0) j = 0).
      { rewrite St1. destruct (en_n m); [lia|]. cbn. apply Z, Hj. }
      destruct (en_start_update m); [reflexivity|exact E|exact E]. }
  destruct Q as (st & Z & C'). specialize (C' 0%nat Hn).
  pose proof (count_one _ _ Z) as Cn.
  replace ((0 <? en_early_stop m)%nat && _) with false in C'.
  2:{ symmetry. destruct (Nat.ltb_spec 0 (en_early_stop m)); [|reflexivity]. cbn [andb]. apply Nat.leb_gt. lia. }
  destruct C' as (n1 & C'). rewrite first_penalty, Ha, Hlo, Hup in C' by exact Heps. cbn [bound_fun] in C'.
  eapply first_row; [..|exact C'].
  - apply gram_spec_sym.
  - apply gram_spec_psd; [lra|]. eapply scaled_all_nonneg; eauto.
  - exact U.
  - exact Lp.
  - intros j Hj. rewrite (ones_excess _ _ O). apply (proj1 LE). exact Hj.
  - apply Hpm.
  - exact Z.
Qed.

Lemma C113_lemma tr s p : en_alpha m = 1 -> en_lower m = None -> en_upper m = None -> en_early_stop m <> 1%nat ->
  run (en_ops perms) c tr s -> a_nfin s = Some p -> Forall (fun x => weights_nonneg (b_rows (fst x))) tr ->
  (forall k i j, Permutation (perms k i j) (seq 0 (S p))) ->
  let mean := target_mean (c_forget c) (stream (map fst tr)) in
  (exists row rest, a_path s = Some (row :: rest) /\ row 0%nat = mean /\ forall j, (1 <= j <= p)%nat -> row j = 0) /\
  (forall X, X <> [] -> exists out, snd (lm_predict_path c p X s) = Ok out /\ length out = length X /\ forall r, In r out -> hd_error r = Some mean).
Proof.
  intros Ha Hlo Hup He R Hp W Hpm mean.
  destruct (first_of_run Ha Hlo Hup He _ tr s p eq_refl R Hp W Hpm) as (P & St & E1 & E2). fold mean in E1.
  unfold stored in St. destruct (en_n m) as [|n] eqn:En; [lia|]. cbn [seq map] in St. split.
  - exists (P 0%nat), (map P (seq 1 n)). split; [exact St|]. split; [exact E1|]. intros j Hj. apply E2. lia.
  - intros X HX. destruct (run_shape _ _ _ _ R) as (b0 & s0 & tr1 & q & sc & ET & Eq & P1 & F & S & K & Fit & A).
    assert (EQ : q = p) by congruence. rewrite EQ in *. clear Eq.
    rewrite (predict_path_ok c s p X sc _ F P1 HX S K St). eexists. split; [reflexivity|]. rewrite map_length. split; [reflexivity|].
    intros r Hr'. apply in_map_iff in Hr'. destruct Hr' as (x & <- & _). cbn [map hd_error]. f_equal.
    rewrite Hi. unfold n_cols. rewrite Nat.add_1_r. rewrite <- E1. unfold dot.
    rewrite (bsum_ext _ _ (fun i => if Nat.eqb i 0 then P 0%nat 0%nat else 0)).
    + apply (bsum_delta (Datatypes.S p) 0 (fun _ => P 0%nat 0%nat)). lia.
    + intros j Hj. destruct (Nat.eqb_spec j 0) as [->|Nj]; [cbn; ring|]. rewrite (E2 j) by lia. ring.
Qed.

(** * Updates never worsen *)
Lemma run_boxed tr s p P : en_early_stop m = 0%nat -> run (en_ops perms) c tr s -> a_nfin s = Some p -> Forall (fun x => weights_nonneg (b_rows (fst x))) tr ->
  box_ok (S p) (bound_fun (en_lower m)) (bound_fun (en_upper m)) -> (forall k i j, Permutation (perms k i j) (seq 0 (S p))) ->
  stored m s P -> forall k, (k < en_n m)%nat -> in_box (S p) (bound_fun (en_lower m)) (bound_fun (en_upper m)) (P k).
Proof.
  clear Hn Heps.
  intros He R Hp W Hb Hpm St k Hk.
  destruct (en_run perms c m k0 Hm Hf tr s p R Hp W) as (kk & P1 & l & _ & St1 & _ & _ & C).
  assert (NC : n_cols (c_icpt c) p = S p) by (rewrite Hi; unfold n_cols; lia). rewrite NC in C.
  unfold stored in St, St1. rewrite St in St1. injection St1 as St1.
  assert (E : P k = P1 k).
  { apply (f_equal (fun l => nth k l (fun _ => 0))) in St1. rewrite !(nth_indep _ (fun _ => 0) (P 0%nat)) in St1 by (rewrite map_length, seq_length; exact Hk).
    rewrite map_nth in St1. rewrite (nth_indep _ (P 0%nat) (P1 0%nat)), map_nth in St1 by (rewrite map_length, seq_length; exact Hk).
    rewrite !seq_nth in St1 by exact Hk. exact St1. }
  rewrite E.
  destruct C as [(x & _ & C)|(tr0 & s0 & P0 & x & -> & R0 & Hp0 & St0 & C)]; specialize (C k Hk); rewrite He in C; cbn in C; destruct C as (n & C); (eapply C12_lemma; [exact Hb|exact (Hpm kk k)|exact C]).
Qed.

Lemma stored_nth s P path k v : stored m s P -> a_path s = Some path -> nth_error path k = Some v -> (k < en_n m)%nat /\ v = P k.
Proof.
  clear Hn Heps.
  unfold stored. intros St C N. rewrite C in St. injection St as ->.
  assert (L : (k < en_n m)%nat). { assert (K : nth_error (map P (seq 0 (en_n m))) k <> None) by congruence. apply nth_error_Some in K. now rewrite map_length, seq_length in K. }
  split; [exact L|]. rewrite nth_error_map in N. rewrite (nth_error_nth' _ 0%nat) in N by now rewrite seq_length. rewrite seq_nth in N by exact L. now injection N as <-.
Qed.
Lemma penal_step cols data l P st k old perm : rows_from m perm cols (gram_spec (c_forget c) data) (ygram_spec (c_forget c) data) (is_regularized c) l P st ->
  en_early_stop m = 0%nat -> 0 <= en_alpha m <= 1 -> weights_nonneg data -> 0 <= l ->
  box_ok cols (bound_fun (en_lower m)) (bound_fun (en_upper m)) -> (forall i j, Permutation (perm i j) (seq 0 cols)) ->
  (k < en_n m)%nat -> st k = old -> in_box cols (bound_fun (en_lower m)) (bound_fun (en_upper m)) old ->
  let error := penalised_error true false cols (c_forget c) data (en_alpha m) (penalty l (en_eps m) (en_n m) k) in
  error (P k) <= error old /\
  (~ least_penalised true false cols (c_forget c) data (en_alpha m) (penalty l (en_eps m) (en_n m) k) (bound_fun (en_lower m)) (bound_fun (en_upper m)) old -> error (P k) < error old).
Proof.
  clear Hn Heps.
  intros Rf He Ha W Hl Hb Hpm Hk <- Hbx error. specialize (Rf k Hk). rewrite He in Rf. cbn [Nat.ltb Nat.leb andb] in Rf. destruct Rf as (n & Rf).
  rewrite isreg_fun, Hi, Hr in Rf.
  eapply (cd_penal true false); [..|exact Rf]; auto; [lra|apply penalty_nonneg, Hl].
Qed.

Lemma C114_en_update_lemma tr s p b s' path path' : en_early_stop m = 0%nat -> 0 <= en_alpha m <= 1 -> en_start_update m <> previous_lambda ->
  run (en_ops perms) c tr s -> partial_fit (en_ops perms) c b s = (s', Ok tt) -> a_nfin s = Some p ->
  Forall (fun x => weights_nonneg (b_rows (fst x))) (tr ++ [(b, s')]) ->
  let lo := bound_fun (en_lower m) in let up := bound_fun (en_upper m) in
  box_ok (S p) lo up -> (forall k i j, Permutation (perms k i j) (seq 0 (S p))) ->
  a_path s = Some path -> a_path s' = Some path' ->
  let data := all_rows true (tr ++ [(b, s')]) in
  length path = en_n m /\ length path' = en_n m /\
  exists l, largest_excess (S p) (c_forget c) data l /\ 
  forall k old new, nth_error path k = Some old -> nth_error path' k = Some new ->
    let lambda := penalty l (en_eps m) (en_n m) k in
    let error := penalised_error true false (S p) (c_forget c) data (en_alpha m) lambda in
    error new <= error old /\
    (~ least_penalised true false (S p) (c_forget c) data (en_alpha m) lambda lo up old -> error new < error old).
Proof.
  clear Hn Heps.
  intros He Ha Hsu R H Hp W lo up Hb Hpm C C' data.
  pose proof (run_step _ _ _ _ _ _ R H) as R'. pose proof W as W'. apply Forall_app in W. destruct W as [W1 W2].
  assert (Hp' : a_nfin s' = Some p).
  { destruct (run_shape _ _ _ _ R) as (b0 & s0 & tr1 & q & sc & ET & Eq & P1 & F & S & K & Fit & A).
    destruct (run_shape _ _ _ _ R') as (b0' & s0' & tr1' & q' & sc' & ET' & Eq' & P1' & F' & _).
    rewrite ET in ET'. injection ET' as <- _. congruence. }
  destruct (en_run perms c m k0 Hm Hf _ s' p R' Hp' W') as (k & P & l & _ & St & EL & L0 & D).
  destruct (en_run perms c m k0 Hm Hf _ s p R Hp W1) as (_ & P0 & _ & _ & St0 & _).
  destruct (lambda_excess c _ p l Hi Hr EL) as [_ LE].
  assert (NC : n_cols (c_icpt c) p = S p) by (rewrite Hi; unfold n_cols; lia). rewrite NC in *.
  pose proof (scaled_all_nonneg _ _ _ _ R' W') as Wd. fold (all_rows (c_icpt c) (tr ++ [(b, s')])) in Wd.
  rewrite Hi in LE, Wd, D. fold data in D, LE, Wd.
  split; [unfold stored in St0; rewrite C in St0; injection St0 as ->; now rewrite map_length, seq_length|].
  split; [unfold stored in St; rewrite C' in St; injection St as ->; now rewrite map_length, seq_length|].
  exists l. split; [exact LE|]. intros kk old new No Nn.
  destruct (stored_nth _ _ _ _ _ St0 C No) as [Hk ->]. destruct (stored_nth _ _ _ _ _ St C' Nn) as [_ ->].
  destruct D as [(x & Ex & _)|(tr0 & s0 & P1 & x & Ex & R0 & Hp0 & St1 & D)].
  { exfalso. apply (f_equal (@length _)) in Ex. rewrite app_length in Ex. cbn in Ex. destruct (run_last _ _ _ _ R) as (t1 & b1 & T1). rewrite T1, app_length in Ex. cbn in Ex. lia. }
  apply app_inj_tail in Ex. destruct Ex as [<- _].
  assert (Es : s0 = s).
  { destruct (run_last _ _ _ _ R) as (t1 & b1 & T1). destruct (run_last _ _ _ _ R0) as (t2 & b2 & T2). rewrite T1 in T2. apply app_inj_tail in T2. destruct T2 as [_ T2]. now injection T2. }
  rewrite Es in *. 
  assert (Est : row_start (en_start_update m) P (fun i => nth i (map P1 (seq 0 (en_n m))) (fun _ => 0)) kk = P0 kk).
  { replace (row_start _ _ _ kk) with (nth kk (map P1 (seq 0 (en_n m))) (fun _ => 0)) by (unfold row_start; destruct (en_start_update m); congruence).
    unfold stored in St1. assert (E1 : path = map P1 (seq 0 (en_n m))) by congruence. rewrite <- E1.
    apply nth_error_nth. exact No. }
  apply (penal_step (S p) data l P _ kk (P0 kk) (perms k) D He Ha Wd (largest_nonneg _ _ _ _ LE) Hb (Hpm k) Hk Est).
  exact (run_boxed tr s p P0 He R Hp W1 Hb Hpm St0 kk Hk).
Qed.

Lemma C114_en_path_lemma tr s p path : en_early_stop m = 0%nat -> 0 <= en_alpha m <= 1 ->
  match tr with [_] => en_start_initial m | _ => en_start_update m end = previous_lambda ->
  run (en_ops perms) c tr s -> a_nfin s = Some p -> Forall (fun x => weights_nonneg (b_rows (fst x))) tr ->
  let lo := bound_fun (en_lower m) in let up := bound_fun (en_upper m) in
  box_ok (S p) lo up -> (forall k i j, Permutation (perms k i j) (seq 0 (S p))) -> a_path s = Some path ->
  let data := all_rows true tr in
  length path = en_n m /\
  exists l, largest_excess (S p) (c_forget c) data l /\ 
  forall k prev row, nth_error path k = Some prev -> nth_error path (S k) = Some row ->
    let lambda := penalty l (en_eps m) (en_n m) (S k) in
    let error := penalised_error true false (S p) (c_forget c) data (en_alpha m) lambda in
    error row <= error prev /\
    (~ least_penalised true false (S p) (c_forget c) data (en_alpha m) lambda lo up prev -> error row < error prev).
Proof.
  clear Hn Heps.
  intros He Ha Hsu R Hp W lo up Hb Hpm C data.
  destruct (en_run perms c m k0 Hm Hf _ s p R Hp W) as (k & P & l & _ & St & EL & L0 & D).
  destruct (lambda_excess c _ p l Hi Hr EL) as [_ LE].
  assert (NC : n_cols (c_icpt c) p = S p) by (rewrite Hi; unfold n_cols; lia). rewrite NC in *.
  pose proof (scaled_all_nonneg _ _ _ _ R W) as Wd. fold (all_rows (c_icpt c) tr) in Wd.
  rewrite Hi in LE, Wd, D. fold data in D, LE, Wd.
  split; [unfold stored in St; rewrite C in St; injection St as ->; now rewrite map_length, seq_length|].
  exists l. split; [exact LE|]. intros kk prev row Np Nr.
  destruct (stored_nth _ _ _ _ _ St C Np) as [Hk ->]. destruct (stored_nth _ _ _ _ _ St C Nr) as [Hk' ->].
  assert (B : in_box (S p) lo up (P kk)) by exact (run_boxed tr s p P He R Hp W Hb Hpm St kk Hk).
  destruct D as [(x & -> & D)|(tr0 & s0 & P1 & x & -> & R0 & Hp0 & St1 & D)].
  - rewrite Hsu in D. exact (penal_step (S p) data l P _ (S kk) (P kk) (perms k) D He Ha Wd (largest_nonneg _ _ _ _ LE) Hb (Hpm k) Hk' eq_refl B).
  - replace (en_start_update m) with previous_lambda in D.
    + exact (penal_step (S p) data l P _ (S kk) (P kk) (perms k) D He Ha Wd (largest_nonneg _ _ _ _ LE) Hb (Hpm k) Hk' eq_refl B).
    + destruct tr0 as [|x0 tr0]; [destruct (run_last _ _ _ _ R0) as ([|] & b1 & T1); discriminate T1|]. destruct tr0; exact (eq_sym Hsu).
Qed.
End Lasso.
