(** Lemmas: runs of the loops and of the object from their parts. *)
From Coq Require Import Reals List Bool Arith ZArith Lra Lia.
From Verif Require Import Base Lin Data M_Gram M_OLS M_Scaler M_Utils M_Links M_State M_LM M_Equation M_GAMLSS.
From Verif Require Import L_GAM1 L_GAM2.
Import ListNotations.
Open Scope R_scope.
Open Scope st_scope.

Section Runs.
Context {M : Type} (ops : method_ops M) (e : env M).
Notation c := (e_cfg e).
Notation d := (o_dist (e_cfg e)).

Definition cand_rss (p : nat) (g : dbg) (pred : list R) : option R :=
  let wtf := mult3 (g_wt g) (e_w e) (forget_vector e p) in
  obind (mean wtf) (npdiv (lsum (map2 (fun q v => q ^ 2 * v) (map2 Rminus (g_wv g) pred) wtf))).
Definition put_method (p : nat) (m : M) (s : work M) : work M := fst (set_wmethod p m s).
Definition gram_weights (g : dbg) : list R := map2 Rmult (e_w e) (g_wt g).

Lemma fit_candidate_run p io it step dvo fv path s eta g k X xg m m' beta dv :
  op_path_based ops = false -> o_debug c = false -> e_X e p = (k, X) ->
  working e false p fv = Ok (eta, g) ->
  op_init_x ops k X (gram_weights g) (p_forget (e_prep e) p) = Ok xg ->
  w_method s p = Some m ->
  op_fit_beta ops m k xg (init_y_gram X (g_wv g) (gram_weights g) (p_forget (e_prep e) p)) (e_isreg e p) = Ok (m', beta) ->
  let pred := map2 (fun x et => step * dot k x beta + (1 - step) * et) X eta in
  let fv' := set_col (w_fv s) p (map (d_inv d p) pred) in
  deviance e fv' = Ok dv ->
  fit_candidate ops e p io it step dvo fv path s =
    (put_method p m' s,
     Ok (mk_cand xg (init_y_gram X (g_wv g) (gram_weights g) (p_forget (e_prep e) p)) beta None None (g_wt g)
           (cand_rss p g pred) fv' dv)).
Proof.
  intros Hb Hd HX Hw Hg Hm Hf pred fv' Hdv. destruct s as [a1 a2 a3 a4 a5 a6 a7 a8 a9 a10 a11 a12 a13 a14 a15 a16 a17 a18 a19 a20 a21 a22 a23].
  unfold fit_candidate. rewrite Hw, HX, Hb. cbn [bnd lift].
  unfold put_dbg, put_dbg_coef. rewrite Hd. cbn [bnd write lift]. unfold bnd, lift, write, ret, get, peek.
  fold (gram_weights g). rewrite Hg. cbn [w_method] in *. rewrite Hm, Hf. cbn [fst snd].
  unfold set_wmethod, write. cbn [w_fv] in *. fold pred. change (set_col a2 p (map (d_inv d p) pred)) with fv'.
  rewrite Hdv. reflexivity.
Qed.

Definition after_inner_fit (p it : nat) (q : cand) (s : work M) : work M :=
  fst (set_itinner p it (fst (store_fit e p q s))).

Lemma inner_fit_run1 p io s dv0 fv1 q m :
  w_fv s = fv1 -> deviance e fv1 = Ok dv0 -> nth_error (w_iter s) (io - 1) = Some 1%nat ->
  (p < length (values (p_steps (e_prep e))))%nat -> (p < d_n d)%nat -> o_cond_start c = false ->
  fit_candidate ops e p io 0 (w_step s (io - 1)%nat 0%nat p) dv0 fv1 None s = (put_method p m s, Ok q) ->
  io = 1%nat \/ c_dv q <= dv0 ->
  inner_fit ops e p io s = (after_inner_fit p 0 q (put_method p m s), Ok (c_dv q, [(w_step s (io - 1)%nat 0%nat p, dv0, c_dv q)])).
Proof.
  intros <- Hd Hn Hp1 Hp2 Hc Hq Hio. unfold inner_fit, bnd at 1. cbn [peek].
  unfold bnd at 1. unfold lift. rewrite Hd. unfold bnd at 1. unfold read_iter. rewrite Hn.
  cbn [inner_fit_loop]. unfold bnd at 1. unfold bnd at 1. unfold read_step.
  apply Nat.ltb_lt in Hp1. apply Nat.ltb_lt in Hp2. rewrite Hp1, Hp2. cbn [andb peek].
  unfold bnd at 1. rewrite Hc, andb_false_r. cbn [ret]. unfold bnd at 1. rewrite Hq.
  cbn [Nat.sub Nat.ltb Nat.leb]. rewrite !andb_false_r. cbn [orb Nat.eqb]. rewrite orb_true_r.
  unfold bnd at 1, ret at 1. unfold ret at 1. unfold bnd at 1.
  assert (B : negb (Rltb dv0 (c_dv q)) || Nat.eqb io 1 = true).
  { destruct Hio as [->|H]; [apply orb_true_r|]. destruct (Rltb dv0 (c_dv q)) eqn:E; [apply Rltb_true in E; lra|reflexivity]. }
  rewrite B. unfold store_fit at 1, write. reflexivity.
Qed.
(** The candidate is worse and the cycle is not the first: nothing is stored. *)
Lemma inner_fit_run1_rejected p io s dv0 fv1 q m :
  w_fv s = fv1 -> deviance e fv1 = Ok dv0 -> nth_error (w_iter s) (io - 1) = Some 1%nat ->
  (p < length (values (p_steps (e_prep e))))%nat -> (p < d_n d)%nat -> o_cond_start c = false ->
  fit_candidate ops e p io 0 (w_step s (io - 1)%nat 0%nat p) dv0 fv1 None s = (put_method p m s, Ok q) ->
  io <> 1%nat -> dv0 < c_dv q ->
  inner_fit ops e p io s = (fst (set_itinner p 0 (put_method p m s)), Ok (c_dv q, [(w_step s (io - 1)%nat 0%nat p, dv0, c_dv q)])).
Proof.
  intros <- Hd Hn Hp1 Hp2 Hc Hq Hio Hw. unfold inner_fit, bnd at 1. cbn [peek].
  unfold bnd at 1. unfold lift. rewrite Hd. unfold bnd at 1. unfold read_iter. rewrite Hn.
  cbn [inner_fit_loop]. unfold bnd at 1. unfold bnd at 1. unfold read_step.
  apply Nat.ltb_lt in Hp1. apply Nat.ltb_lt in Hp2. rewrite Hp1, Hp2. cbn [andb peek].
  unfold bnd at 1. rewrite Hc, andb_false_r. cbn [ret]. unfold bnd at 1. rewrite Hq.
  cbn [Nat.sub Nat.ltb Nat.leb]. rewrite !andb_false_r. cbn [orb Nat.eqb]. rewrite orb_true_r.
  unfold bnd at 1, ret at 1. unfold ret at 1. unfold bnd at 1.
  assert (B : negb (Rltb dv0 (c_dv q)) || Nat.eqb io 1 = false).
  { apply Nat.eqb_neq in Hio. rewrite Hio, orb_false_r. destruct (Rltb dv0 (c_dv q)) eqn:E; [reflexivity|apply Rltb_false in E; lra]. }
  rewrite B. unfold ret, write. reflexivity.
Qed.

Lemma update_candidate_run g0 p io it fv s eta g k X x0 xg y0 m m' beta mw dv :
  op_path_based ops = false -> o_debug c = false -> e_X e p = (k, X) ->
  working e true p fv = Ok (eta, g) ->
  w_method s p = Some m -> w_x s p = Some x0 -> w_y s p = Some y0 -> w_mean s p = Some mw ->
  op_update_x ops k x0 X (p_forget (e_prep e) p) (gram_weights g) = Ok xg ->
  op_update_beta ops m k xg (update_y_gram y0 X (g_wv g) (p_forget (e_prep e) p) (gram_weights g)) (w_coef s p) (e_isreg e p) = Ok (m', beta) ->
  let pred := map (fun x => dot k x beta) X in
  let fv' := set_col (w_fv s) p (map (d_inv d p) pred) in
  let forget := p_forget (e_prep e) p in
  let rss := obind (cand_rss p g pred) (fun r => obind (w_rss_old s p) (fun o =>
               npdiv (r + (1 - forget) ^ length (e_y e) * (o * mw)) (online_mean_update mw (g_wt g) forget (e_nobs e)))) in
  deviance e fv' = Ok dv ->
  update_candidate ops e g0 p io it fv s =
    (put_method p m' s,
     Ok (mk_cand xg (update_y_gram y0 X (g_wv g) forget (gram_weights g)) beta None None (g_wt g)
           rss fv' (dv + (1 - p_forget (e_prep e) 0) ^ length (e_y e) * g0))).
Proof.
  intros Hb Hd HX Hw Hm Hx0 Hy0 Hmw Hg Hf pred fv' forget rss Hdv. destruct s as [a1 a2 a3 a4 a5 a6 a7 a8 a9 a10 a11 a12 a13 a14 a15 a16 a17 a18 a19 a20 a21 a22 a23].
  unfold update_candidate. rewrite Hw, HX, Hb. cbn [bnd lift].
  unfold put_dbg, put_dbg_coef. rewrite Hd. cbn [bnd write lift]. unfold bnd, lift, write, ret, get, peek.
  cbn [w_method w_x w_y w_mean w_coef] in *. rewrite Hm. cbn [w_x]. rewrite Hx0.
  fold (gram_weights g). rewrite Hg. cbn [w_y]. rewrite Hy0. cbn [w_coef]. rewrite Hf. cbn [fst snd].
  unfold set_wmethod, write.
  cbn [w_method w_x w_y w_mean w_coef w_fv w_rss_old] in *.
  rewrite Hmw. cbn [w_rss_old w_fv]. fold pred. change (set_col a2 p (map (d_inv d p) pred)) with fv'.
  rewrite Hdv. reflexivity.
Qed.

Definition after_inner_update (p it : nat) (q : cand) (sumw : R) (s : work M) : work M :=
  fst (store_update e p it q sumw s).
Definition halve_step (io p : nat) (b : bool) (s : work M) : work M :=
  if b then fst (set_step (io - 1) 0 p (w_step s (io - 1)%nat 0%nat p / 2) s) else s.

Lemma inner_update_run1 g0 p io s dv0 fv1 q m sumw :
  w_fv s = fv1 -> deviance e fv1 = Ok dv0 -> nth_error (w_iter s) (io - 1) = Some 1%nat ->
  (p < length (values (p_steps (e_prep e))))%nat -> (p < d_n d)%nat ->
  update_candidate ops e g0 p io 0 fv1 s = (put_method p m s, Ok q) ->
  w_sum s p = Some sumw ->
  inner_update ops e g0 p io s =
   (after_inner_update p 0 q sumw (halve_step io p (Rltb (dv0 + (1 - p_forget (e_prep e) 0) ^ length (e_y e) * g0) (c_dv q)) (put_method p m s)),
    Ok (c_dv q)).
Proof.
  intros <- Hd Hn Hp1 Hp2 Hq Hs. unfold inner_update, bnd at 1. cbn [peek].
  unfold bnd at 1. unfold lift. rewrite Hd. unfold bnd at 1. unfold read_iter. rewrite Hn.
  cbn [inner_update_loop]. unfold bnd at 1. unfold bnd at 1. unfold read_step.
  apply Nat.ltb_lt in Hp1. apply Nat.ltb_lt in Hp2. rewrite Hp1, Hp2. cbn [andb peek].
  unfold bnd at 1. rewrite Hq.
  cbn [Nat.eqb]. rewrite orb_true_r. unfold halve_step.
  set (t := Rltb _ (c_dv q)). destruct t; unfold bnd at 1.
  - unfold set_step at 1, write at 1. unfold ret at 1. unfold bnd at 1, get at 1. cbn [w_sum put_method set_wmethod write fst] in *. rewrite Hs.
    reflexivity.
  - unfold ret at 1. unfold ret at 1. unfold bnd at 1, get at 1. cbn [w_sum put_method set_wmethod write fst] in *. rewrite Hs.
    reflexivity.
Qed.
End Runs.

Section Object.
Context {M : Type} (ops : method_ops M) (c : gam_cfg M).
Lemma gam_fit_run b s pr methods fv js sc X w dv n :
    prepare c = Ok (pr, methods) ->
    (1 <= length (b_rows b))%nat -> (1 <= b_p b)%nat ->
    existsb (fun o => below (oy o) (d_lo (o_dist c))) (b_rows b) = false ->
    existsb (fun o => above (oy o) (d_hi (o_dist c))) (b_rows b) = false ->
    d_init (o_dist c) (ys (b_rows b)) = Ok fv ->
    all_J pr (b_p b) (seq 0 (d_n (o_dist c))) = Ok js ->
    scaler_fit (p_forget pr O) (o_scale c) (b_p b) (b_rows b) = Ok sc ->
    arrays c pr (b_p b) (map (scaler_transform sc) (Xs (b_rows b))) = Ok X ->
    outer_fit ops (start_env c pr b X) (enough_fuel c) (start_work c pr methods fv) = (w, Ok (dv, n)) ->
    gam_fit ops c b s = 
      (mk_gam (Some pr) (Some (Some sc)) (Some (b_p b)) (Some (lsum (ws (b_rows b))))
           (Some (e_ntrain (start_env c pr b X))) (Some (fun p => nth p js O)) (Some (gam_isreg pr)) (Some w) (Some (dv, n)), Ok tt).
Proof.
  intros Hp H1 H2 Hl Hh Hf Hj Hsc HX Ho. destruct s as [a1 a2 a3 a4 a5 a6 a7 a8 a9].
  unfold gam_fit, bnd at 1, lift. rewrite Hp. unfold bnd at 1, gset_prep, write at 1.
  unfold bnd at 1, gvalidate_new.
  apply Nat.ltb_ge in H1. apply Nat.ltb_ge in H2. rewrite H1, H2. cbn [orb].
  unfold gset_nfin, write at 1. cbn [s_prep s_scaler s_nfin s_nobs s_ntrain s_J s_isreg s_work s_dev].
  unfold bnd at 1, validate_support. rewrite Hl, Hh. cbn [ret].
  unfold bnd at 1, gset_nobs, write at 1. cbn [s_prep s_scaler s_nfin s_nobs s_ntrain s_J s_isreg s_work s_dev].
  unfold bnd at 1, gset_ntrain, write at 1. cbn [s_prep s_scaler s_nfin s_nobs s_ntrain s_J s_isreg s_work s_dev].
  unfold bnd at 1. rewrite Hf. unfold bnd at 1. rewrite Hj.
  unfold bnd at 1, gset_J, write at 1. cbn [s_prep s_scaler s_nfin s_nobs s_ntrain s_J s_isreg s_work s_dev].
  unfold bnd at 1, gfit_scaler. rewrite Hsc.
  unfold bnd at 1, gset_scaler, write at 1. cbn [s_prep s_scaler s_nfin s_nobs s_ntrain s_J s_isreg s_work s_dev ret].
  unfold bnd at 1. rewrite HX.
  unfold bnd at 1, gset_work, write at 1. cbn [s_prep s_scaler s_nfin s_nobs s_ntrain s_J s_isreg s_work s_dev].
  unfold bnd at 1, on_work. cbn [s_prep s_scaler s_nfin s_nobs s_ntrain s_J s_isreg s_work s_dev].
  unfold start_env in Ho. rewrite Ho. reflexivity.
Qed.

Ltac gproj := cbn [s_prep s_scaler s_nfin s_nobs s_ntrain s_J s_isreg s_work s_dev].
Lemma gam_update_run b n0 pr fv sc0 sc X w0 w1 w dev0 it0 isreg dv n a3 a5 a6 :
    (1 <= length (b_rows b))%nat -> (1 <= b_p b)%nat -> (forall q, a3 = Some q -> q = b_p b) ->
    existsb (fun o => below (oy o) (d_lo (o_dist c))) (b_rows b) = false ->
    existsb (fun o => above (oy o) (d_hi (o_dist c))) (b_rows b) = false ->
    (forall s, s_scaler s = Some (Some sc0) -> s_prep s = Some pr -> s_work s = Some w0 -> s_nfin s = a3 ->
       predict_parameters c true (b_p b) (Xs (b_rows b)) s = (s, Ok fv)) ->
    sc_do sc0 && negb (forallb (fun j => j <? b_p b)%nat (sc_sel sc0)) = false ->
    scaler_update sc0 (b_rows b) = Ok sc ->
    arrays c pr (b_p b) (map (scaler_transform sc) (Xs (b_rows b))) = Ok X ->
    again_work c pr b fv w0 = Ok w1 ->
    outer_update ops (again_env c pr isreg n0 b X) dev0 (enough_fuel c) w1 = (w, Ok (dv, n)) ->
    gam_update ops c b (mk_gam (Some pr) (Some (Some sc0)) a3 (Some n0) a5 a6 (Some isreg) (Some w0) (Some (dev0, it0))) =
      (mk_gam (Some pr) (Some (Some sc)) a3 (Some (n0 + lsum (ws (b_rows b))))
           (Some (e_ntrain (again_env c pr isreg n0 b X))) a6 (Some isreg) (Some (commit_work w)) (Some (dv, n)), Ok tt).
Proof.
  intros H1 H2 H3 Hl Hh Hp Hd Hsc HX Ha Ho.
  unfold gam_update, bnd at 1, gvalidate_old.
  apply Nat.ltb_ge in H1. apply Nat.ltb_ge in H2. rewrite H1, H2. cbn [orb]. gproj.
  assert (V : forall s : gam M, match a3 with
       | Some q => if Nat.eqb (b_p b) q then (s, Ok tt) else (s, Raise ValueError)
       | None => (s, Ok tt) end = (s, Ok tt)).
  { intros s. destruct a3 as [q|]; [|reflexivity]. rewrite (H3 q eq_refl), Nat.eqb_refl. reflexivity. }
  rewrite V. unfold bnd at 1, validate_support. rewrite Hl, Hh. cbn [ret].
  unfold bnd at 1, read at 1. gproj.
  unfold bnd at 1, gset_nobs, write at 1. gproj.
  unfold bnd at 1, read at 1. gproj.
  unfold bnd at 1, gset_ntrain, write at 1. gproj.
  unfold bnd at 1. rewrite Hp; [|reflexivity..].
  unfold bnd at 1, gupdate_scaler. unfold bnd at 1, read at 1. gproj. rewrite Hd.
  unfold bnd at 1, lift at 1. rewrite Hsc. unfold bnd at 1, gset_scaler, write at 1. gproj. unfold ret at 1.
  unfold bnd at 1, lift at 1. rewrite HX.
  unfold bnd at 1, on_work at 1. gproj. unfold write at 1. gproj.
  set (s1 := mk_gam (Some pr) (Some (Some sc)) a3 _ _ a6 (Some isreg) (Some (restart_work _ _ _ _ _)) _).
  assert (Q : (if o_cautious c then
     lh <-- lift (cautious_bounds c fv);;
     on_work (write (cautious_work c (existsb (fun o => Rltb (oy o) (fst lh) || Rltb (snd lh) (oy o)) (b_rows b))))
   else ret tt) s1 = (mk_gam (s_prep s1) (s_scaler s1) (s_nfin s1) (s_nobs s1) (s_ntrain s1) (s_J s1) (s_isreg s1) (Some w1) (s_dev s1), Ok tt)).
  { unfold again_work in Ha. destruct (o_cautious c).
    - unfold bnd, lift. destruct (cautious_bounds c fv) as [lh|]; [|discriminate]. cbn [bind] in Ha. injection Ha as <-.
      unfold on_work, s1, write. gproj. reflexivity.
    - injection Ha as <-. unfold s1, ret. reflexivity. }
  unfold bnd at 1. rewrite Q. unfold s1. gproj.
  unfold bnd at 1, read at 1. gproj. unfold bnd at 1, read at 1. gproj.
  unfold bnd at 1, on_work at 1. gproj. unfold again_env in Ho. cbn [fst]. rewrite Ho.
  reflexivity.
Qed.
End Object.
