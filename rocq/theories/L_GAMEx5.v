(** A concrete run with a method that returns a path of coefficients: the run of L_GAMEx
    with the path (2, 1), of which the second row is the better one. *)
From Coq Require Import Reals List Bool Arith ZArith Lra Lia.
From Verif Require Import Base Lin Data M_Gram M_OLS M_Scaler M_Utils M_Links M_DistTable M_Dist M_State M_LM M_Equation M_GAMLSS M_GAMDist S_GAMLSS.
From Verif Require Import S_Gram L_Inv L_GAM1 L_GAM2 L_GAM6 L_GAMEx.
Import ListNotations.
Open Scope R_scope.
Open Scope st_scope.

Section Runs.
Context {M : Type} (ops : method_ops M) (e : env M).
Notation c := (e_cfg e).
Notation d := (o_dist (e_cfg e)).
Lemma fit_path_run p step dvo fv path0 s eta g k X xg m m' path sel dv :
  op_path_based ops = true -> o_debug c = false -> e_X e p = (k, X) ->
  working e false p fv = Ok (eta, g) ->
  op_init_x ops k X (gram_weights e g) (p_forget (e_prep e) p) = Ok xg ->
  w_method s p = Some m ->
  op_fit_path ops m k xg (init_y_gram X (g_wv g) (gram_weights e g) (p_forget (e_prep e) p)) (e_isreg e p) = Ok (m', path) ->
  fit_select e (put_method p m' s) p (g_wv g) (g_wt g) path = Ok sel ->
  let beta := fst (fst sel) in
  let pred := map2 (fun x et => step * dot k x beta + (1 - step) * et) X eta in
  let fv' := set_col (w_fv s) p (map (d_inv d p) pred) in
  deviance e fv' = Ok dv ->
  fit_candidate ops e p 1 0 step dvo fv path0 s =
    (put_method p m' s,
     Ok (mk_cand xg (init_y_gram X (g_wv g) (gram_weights e g) (p_forget (e_prep e) p)) beta (Some path) (Some (snd (fst sel))) (g_wt g)
           (cand_rss e p g pred) fv' dv)).
Proof.
  destruct sel as [[be ms] ix]. cbn [fst snd].
  intros Hb Hd HX Hw Hg Hm Hf Hs Hdv. destruct s as [a1 a2 a3 a4 a5 a6 a7 a8 a9 a10 a11 a12 a13 a14 a15 a16 a17 a18 a19 a20 a21 a22 a23].
  unfold fit_candidate. rewrite Hw, HX, Hb. cbn [bnd lift].
  unfold put_dbg, put_dbg_coef. rewrite Hd. cbn [bnd write lift]. unfold bnd, lift, write, ret, get, peek.
  fold (gram_weights e g). rewrite Hg. cbn [w_method] in *. rewrite Hm. cbn [Nat.eqb andb]. rewrite Hf. cbn [fst snd].
  unfold put_method, set_wmethod, write in *. cbn [fst w_fv w_method w_x w_y w_rss w_msd w_coef w_path w_sum w_mean w_iter w_step w_itinner w_min w_dbg w_dbg_dv w_dbg_coef w_xn w_yn w_sumn w_meann w_rss_old w_msd_old] in *.
  rewrite Hs. cbn [fst snd w_fv]. cbn [w_fv] in Hdv. rewrite Hdv. reflexivity.
Qed.
End Runs.

Definition toy_path : list vec := [fun _ => 2; fun _ => 1].
(** Least squares Gramians, but always the same path. *)
Definition toy_ops : method_ops unit :=
  mk_ops unit true (op_init_x ex_ops) (op_update_x ex_ops) (fun m _ _ _ _ => Ok (m, toy_path)) (fun m _ _ _ _ _ => Ok (m, toy_path))
    (fun _ _ _ _ _ => Raise NotImplementedErr) (fun _ _ _ _ _ _ => Raise NotImplementedErr).

Lemma toy_fit : exists s1 w, gam_fit toy_ops ex_cfg ex_b0 new_gam = (s1, Ok tt) /\ s_work s1 = Some w /\ cycles s1 = Some 1%nat /\
  w_path w 0%nat = Some toy_path /\ (exists a b, w_msd w 0%nat = Some [a; b] /\ a = 5 / 2 /\ b = 1 / 2) /\ w_coef w 0%nat 0%nat = 1.
Proof.
  set (fv := [fun k => nth k [1] 0; fun k => nth k [1] 0] : list vec).
  assert (Hinit : d_init ex_dist [1 / 2; 3 / 2] = Ok fv).
  { cbn. unfold M_Init.np_mean, npdiv. cbn. rewrite eqb_f by lra. cbn.
    replace ((1 / 2 + (3 / 2 + 0)) / (1 + 1)) with 1 by lra. reflexivity. }
  set (e := start_env ex_cfg ex_prep ex_b0 (ex_X 2)).
  set (s := start_work ex_cfg ex_prep (fun p => nth_error [tt] p) fv).
  assert (Hl : length fv = 2%nat) by reflexivity. assert (Hf : List.Forall at_one fv) by (repeat constructor).
  assert (Hw : e_w e = ones (length (e_y e))) by reflexivity.
  assert (Hy : forall y, In y (e_y e) -> 0 <= y) by (cbn; intros y [<-|[<-|[]]]; lra).
  assert (D4 : 2 * lsum (e_y e) = 4) by (cbn; lra).
  assert (Hdev : deviance e fv = Ok 4).
  { rewrite (ex_deviance e eq_refl Hw Hy); [f_equal; exact D4|exact Hl|exact Hf]. }
  destruct (ex_working e eq_refl eq_refl Hw false fv Hl Hf) as (d1 & d2 & Hwk). rewrite Hl in Hwk.
  set (g := mk_dbg (ones 2) (e_y e) d1 d2 (ones 2) fv) in *.
  set (xg := (fun _ _ : nat => / init_gram (repeat (fun _ => 1) 2) (gram_weights e g) 0 0%nat 0%nat) : mat).
  assert (Hxg : init_gram (repeat (fun _ => 1) 2) (gram_weights e g) 0 0%nat 0%nat = 2).
  { unfold init_gram, mat_tmul, scale_rows, root_weights, gram_weights, init_forget_vector.
    rewrite eqb_t by lra. cbn. rewrite !root1. lra. }
  assert (Hx : op_init_x toy_ops 1 (repeat (fun _ => 1) 2) (gram_weights e g) 0 = Ok xg).
  { cbn [toy_ops ex_ops ols_ops op_init_x]. unfold init_inverted_gram. rewrite ex_inv_one; [reflexivity|]. rewrite Hxg. lra. }
  assert (Hsel : exists a b, fit_select e (put_method 0 tt s) 0 (g_wv g) (g_wt g) toy_path = Ok (fun _ => 1, [a; b], 1%nat) /\ a = 5 / 2 /\ b = 1 / 2).
  { unfold fit_select. change (o_global_ll (e_cfg e)) with false. cbn iota.
    change (g_wv g) with [1 / 2; 3 / 2]. change (g_wt g) with [1; 1]. change (e_w e) with [1; 1].
    change (forget_vector e 0) with (init_forget_vector 0 2). unfold init_forget_vector. rewrite eqb_t by lra.
    cbn [repeat mult3 map2]. unfold mean. cbn [lsum length INR]. unfold npdiv at 1. rewrite eqb_f by (unfold mult3; cbn; lra).
    cbn [number_or_nan bind]. unfold toy_path. cbn [map]. unfold wrss. change (e_X e 0) with (1%nat, [fun _ : nat => 1; fun _ : nat => 1]).
    cbn [mult3 map2 combine lsum fst snd dot bsum].
    set (m := (1 * 1 * 1 + (1 * 1 * 1 + 0)) / (1 + 1)).
    assert (Em : m = 1) by (unfold m; field).
    unfold npdiv. rewrite eqb_f by lra. cbn [all_some bind].
    set (a := _ / m). set (b := _ / m).
    assert (Ea : a = 5 / 2) by (unfold a, dot; cbn [bsum]; rewrite Em; field).
    assert (Eb : b = 1 / 2) by (unfold b, dot; cbn [bsum]; rewrite Em; field).
    exists a, b. split; [|auto].
    change (p_ic (e_prep e) 0%nat) with aic. unfold from_rss_array. cbn [map from_ll_array].
    set (k := nonzeros _ _ + count_other _ _ _).
    assert (Ek : nonzeros 1 (fun _ : nat => 2) = nonzeros 1 (fun _ : nat => 1)).
    { unfold nonzeros. cbn. rewrite !eqb_f by lra. reflexivity. }
    assert (En : e_ntrain e 0 = 2).
    { cbn. unfold effective_training_length. rewrite eqb_t by lra. lra. }
    rewrite En. clearbody a b. subst a b.
    assert (Hln : ln (1 / 2 / 2) < ln (5 / 2 / 2)) by (apply ln_increasing; lra).
    cbn [map2 sequence from_ll bind argmin argmin_loop].
    match goal with |- context [Rltb ?u ?v] => rewrite (ltb_t u v) end; [reflexivity|].
    unfold k. rewrite Ek. cbn. lra. }
  destruct Hsel as (a & b & Hsel & Ea & Eb).
  set (pred := map2 (fun x et => 1 * dot 1 x (fun _ => 1) + (1 - 1) * et) (repeat (fun _ => 1) 2) (ones 2)).
  assert (Hpred : pred = ones 2).
  { unfold pred. cbn [map2 repeat ones]. unfold dot. cbn [bsum]. f_equal; [lra|f_equal; lra]. }
  set (fv' := set_col fv 0 (map (d_inv ex_dist 0) pred)).
  assert (Hf' : List.Forall at_one fv' /\ length fv' = 2%nat).
  { unfold fv'. rewrite Hpred. cbn. split; [|reflexivity]. repeat constructor. }
  destruct Hf' as [Hf' Hl'].
  assert (Hdev' : deviance e fv' = Ok 4).
  { rewrite (ex_deviance e eq_refl Hw Hy); [f_equal; exact D4|exact Hl'|exact Hf']. }
  assert (Hcand := fit_path_run toy_ops e 0 1 4 fv None s (ones 2) g 1 (repeat (fun _ => 1) 2) xg tt tt toy_path _ 4
    eq_refl eq_refl eq_refl Hwk Hx eq_refl eq_refl Hsel Hdev').
  cbn [fst snd] in Hcand. fold pred in Hcand.
  set (q := mk_cand _ _ _ _ _ _ _ _ _) in Hcand.
  assert (Hin := inner_fit_run1 toy_ops e 0 1 s 4 fv q tt eq_refl Hdev eq_refl ltac:(cbn; lia) ltac:(cbn; lia) eq_refl Hcand (or_introl eq_refl)).
  set (w := after_inner_fit e 0 0 q (put_method 0 tt s)) in Hin.
  assert (Ho : outer_fit toy_ops e (enough_fuel ex_cfg) s = (w, Ok (4, 1%nat))).
  { unfold outer_fit, bnd at 1. unfold peek at 1. unfold bnd at 1, lift at 1. change (w_fv s) with fv. rewrite Hdev.
    unfold enough_fuel. change (o_max_outer ex_cfg + 2)%nat with 5%nat. cbn [outer_fit_loop].
    unfold bnd at 1, peek at 1. change (w_min s <=? 0)%nat with false. cbn [andb].
    unfold bnd at 1. change (p_order (e_prep e)) with [0%nat]. cbn [fit_cycle]. unfold bnd at 1. rewrite Hin.
    unfold ret at 1. cbn [fst]. unfold bnd at 1, peek at 1.
    change (w_min w <=? 1)%nat with true. cbn [andb].
    change (c_dv q) with 4.
    assert (Hc : outer_converged e 4 4 = true).
    { unfold outer_converged, rel_close. rewrite Rminus_diag_eq by reflexivity. rewrite Rabs_R0.
      rewrite eqb_f by lra. rewrite ltb_t; [reflexivity|]. cbn. unfold Rdiv at 1. rewrite Rmult_0_l. lra. }
    rewrite Hc. cbn [orb]. reflexivity. }
  eexists. exists w. split; [|split; [|split; [|split; [|split]]]].
  - eapply (gam_fit_run toy_ops ex_cfg ex_b0 new_gam ex_prep _ fv [1%nat] (ex_scaler 2) (ex_X 2) w 4 1); try reflexivity; try exact Hinit; try exact Ho.
    + cbn; lia.
    + cbn [existsb b_rows ex_b0 oy ex_row o_dist ex_cfg]. rewrite !ex_below by lra. reflexivity.
    + cbn. unfold scaler_fit. cbn. unfold ex_scaler. do 2 f_equal. lra.
  - reflexivity.
  - reflexivity.
  - reflexivity.
  - exists a, b. split; [reflexivity|auto].
  - reflexivity.
Qed.

(** One inner iteration of the run of L_GAMEx: it starts at the stationary point. *)
Lemma ex_candidate (fv : list vec) : fv = [fun _ => 1; fun _ => 1] ->
  exists q, fit_candidate ex_ops (start_env ex_cfg ex_prep ex_b0 (ex_X 2)) 0 1 0 1 4 fv None (start_work ex_cfg ex_prep (fun p => nth_error [tt] p) fv) =
    (put_method 0 tt (start_work ex_cfg ex_prep (fun p => nth_error [tt] p) fv), Ok q) /\ c_beta q 0%nat = 1.
Proof.
  intros Efv. set (e := start_env ex_cfg ex_prep ex_b0 (ex_X 2)).
  set (s := start_work ex_cfg ex_prep (fun p => nth_error [tt] p) fv).
  assert (Hl : length fv = 2%nat) by (rewrite Efv; reflexivity).
  assert (Hf : List.Forall at_one fv) by (rewrite Efv; repeat constructor).
  assert (Hw : e_w e = ones (length (e_y e))) by reflexivity.
  assert (Hy : forall y, In y (e_y e) -> 0 <= y) by (cbn; intros y [<-|[<-|[]]]; lra).
  assert (D4 : 2 * lsum (e_y e) = 4) by (cbn; lra).
  destruct (ex_working e eq_refl eq_refl Hw false fv Hl Hf) as (d1 & d2 & Hwk). rewrite Hl in Hwk.
  set (g := mk_dbg (ones 2) (e_y e) d1 d2 (ones 2) fv) in *.
  set (xg := (fun _ _ : nat => / init_gram (repeat (fun _ => 1) 2) (gram_weights e g) 0 0%nat 0%nat) : mat).
  set (yg := init_y_gram (repeat (fun _ => 1) 2) (g_wv g) (gram_weights e g) 0).
  assert (Hxg : forall i j, xg i j = / 2).
  { intros i j. unfold xg. apply Rinv_eq. unfold init_gram, mat_tmul, scale_rows, root_weights, gram_weights, init_forget_vector.
    rewrite eqb_t by lra. cbn. rewrite !root1. lra. }
  assert (Hyg : forall i, yg i = 2).
  { intros i. unfold yg, init_y_gram, vec_tmul, scale_rows, root_weights, gram_weights, init_forget_vector.
    rewrite eqb_t by lra. cbn. rewrite !root1. lra. }
  assert (Hx : op_init_x ex_ops 1 (repeat (fun _ => 1) 2) (gram_weights e g) 0 = Ok xg).
  { cbn [ex_ops ols_ops op_init_x]. unfold init_inverted_gram. rewrite ex_inv_one; [reflexivity|].
    specialize (Hxg 0%nat 0%nat). unfold xg in Hxg. intros E0. rewrite E0, Rinv_0 in Hxg. lra. }
  set (beta := ols_beta 1 xg yg).
  assert (Hb : forall i, beta i = 1) by (intros i; unfold beta, ols_beta, mvec; cbn [bsum]; rewrite Hxg, Hyg; field).
  set (pred := map2 (fun x et => 1 * dot 1 x beta + (1 - 1) * et) (repeat (fun _ => 1) 2) (ones 2)).
  assert (Hpred : pred = ones 2).
  { unfold pred. cbn [map2 repeat ones]. unfold dot. cbn [bsum]. rewrite Hb. f_equal; [lra|f_equal; lra]. }
  set (fv' := set_col fv 0 (map (d_inv ex_dist 0) pred)).
  assert (Hf' : List.Forall at_one fv' /\ length fv' = 2%nat).
  { unfold fv'. rewrite Hpred, Efv. cbn. split; [|reflexivity]. repeat constructor. }
  destruct Hf' as [Hf' Hl'].
  assert (Hdev' : deviance e fv' = Ok 4).
  { rewrite (ex_deviance e eq_refl Hw Hy); [f_equal; exact D4|exact Hl'|exact Hf']. }
  assert (Hcand := fit_candidate_run ex_ops e 0 1 0 1 4 fv None s (ones 2) g 1 (repeat (fun _ => 1) 2) xg tt tt beta 4
    eq_refl eq_refl eq_refl Hwk Hx eq_refl eq_refl Hdev').
  eexists. split; [exact Hcand|]. exact (Hb 0%nat).
Qed.

(** Selection by the log-likelihood: three observations, of which only the last has weight. *)
Definition g_cfg : gam_cfg unit :=
  mk_gcfg unit (mk_dist 1 NegInf PosInf (fun _ x => Some x) (fun _ x => x) (fun _ _ => 1)
    (fun _ y th => Some (y - th 0%nat)) (fun _ _ _ => Some (- 1))
    (fun y th => Some (- (y - th 0%nat) ^ 2 / 2))
    (fun ys => Ok (map (fun _ => (fun _ => 1) : vec) ys)) (fun _ _ _ => Raise ValueError) (fun _ _ => None))
    true (Some [(0%nat, EqIntercept)]) (fun _ => Ok tt) (Scalar 0) (Scalar aic) (Scalar true)
    (Scalar false) (Scalar 1) None ScaleNone true 0 0 3 1 1 (1 / 1000) (1 / 1000) (1 / 1000) (1 / 1000)
    false false false.
Definition g_env : env unit :=
  mk_env g_cfg ex_prep 3 (fun _ => 3) (gam_isreg ex_prep) (ex_X 3) [1; 1; 2] [0; 0; 1].
Definition g_work : work unit := start_work g_cfg ex_prep (fun _ => Some tt) [fun _ => 1; fun _ => 1; fun _ => 1].
Definition g_path : list vec := [fun _ => 1; fun _ => 2].
Lemma g_forget : forget_vector g_env 0 = [1; 1; 1].
Proof. change (init_forget_vector 0 3 = [1; 1; 1]). unfold init_forget_vector. rewrite eqb_t by lra. reflexivity. Qed.
Lemma g_fit_select wv wt : exists ll, fit_select g_env g_work 0 wv wt g_path = Ok (fun _ => 1, ll, 0%nat).
Proof.
  unfold fit_select. rewrite g_forget. cbn.
  rewrite ltb_f; [eexists; reflexivity|]. unfold nonzeros. cbn. rewrite !eqb_f by lra. unfold dot. cbn. lra.
Qed.
Lemma g_update_select wv wt mw : exists ll, update_select g_env g_work 0 wv wt g_path [0; 0] mw = Ok (fun _ => 2, ll, 1%nat).
Proof.
  unfold update_select. rewrite g_forget. cbn.
  rewrite ltb_t; [eexists; reflexivity|]. unfold nonzeros. cbn. rewrite !eqb_f by lra. unfold dot. cbn. lra.
Qed.
