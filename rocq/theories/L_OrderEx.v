(** Lemmas: a run with ridge, worked out (as [L_GAMEx]). *)
From Coq Require Import Reals List Bool Arith ZArith Lra Lia.
From Verif Require Import Base Lin Data M_Gram M_OLS M_CD M_Path M_Ridge M_Scaler M_Utils M_Links M_DistTable M_Dist M_State M_LM M_Equation M_GAMLSS M_GAMDist.
From Verif Require Import S_Gram S_Units L_Inv L_CD2 L_Path L_GAM1 L_GAM2 L_GAM6 L_GAMEx.
Import ListNotations.
Open Scope R_scope.

Definition rx_m (lo up : option (list (option R))) (k : nat) : ridge_cfg * nat := (mk_ridge (Some 0) None false lo up 0 10, k).
Definition rx_cfg : gam_cfg (ridge_cfg * nat) :=
  mk_gcfg _ ex_dist true (Some [(0%nat, EqIntercept)]) (fun _ => Ok (rx_m None None 0)) (Scalar 0) (Scalar aic) (Scalar true)
    (Scalar false) (Scalar 1) None ScaleNone false 0 0 3 1 1 (1 / 1000) (1 / 1000) (1 / 1000) (1 / 1000)
    false false false.
Definition rx_ops : method_ops (ridge_cfg * nat) := ridge_ops ex_inv (fun _ _ => [0%nat]).
Definition rx_work (n : R) (w : work (ridge_cfg * nat)) : Prop :=
  (exists k, w_method w 0%nat = Some (rx_m (Some [None]) (Some [None]) k)) /\
  (exists G, w_x w 0%nat = Some G /\ G 0%nat 0%nat = n) /\
  (exists h, w_y w 0%nat = Some h /\ h 0%nat = n) /\
  w_coef w 0%nat 0%nat = 1 /\ w_sum w 0%nat = Some n /\ w_mean w 0%nat = Some 1 /\ w_min w = 1%nat.
Definition rx_state (n : R) (dev : R) (it : nat) (s : gam (ridge_cfg * nat)) : Prop :=
  exists w nt, rx_work n w /\
  s = mk_gam (Some ex_prep) (Some (Some (ex_scaler n))) (Some 1%nat) (Some n) (Some nt)
        (Some (fun p => nth p [1%nat] O)) (Some (gam_isreg ex_prep)) (Some w) (Some (dev, it)).
Lemma rx_cd x y n isreg perm st : 0 < n -> x 0%nat 0%nat = n -> y 0%nat = n ->
  exists b it, online_coordinate_descent (mk_cd 1 x y 0 isreg 0 (bound_fun (Some [None])) (bound_fun (Some [None]))) false perm 0 10 st = Ok (b, it) /\ b 0%nat = 1.
Proof.
  intros Hn Hx Hy. set (a := mk_cd _ _ _ _ _ _ _ _).
  assert (Hub : unbounded a) by (intros j; split; destruct j as [|[|j]]; reflexivity).
  assert (C : forall b, cd_coord a b 0 = Ok 1).
  { intros b. assert (D : cd_den a 0 = n).
    { unfold cd_den. cbn [a cd_isreg cd_alpha cd_reg cd_x]. rewrite Hx. destruct (isreg 0%nat); lra. }
    rewrite coord_unbounded by (auto; rewrite ?D; lra). rewrite D.
    assert (P : cd_partial a b 0 = n) by (unfold cd_partial; cbn [a cd_J cd_y cd_x bsum]; rewrite Hy; ring).
    assert (N : cd_num a b 0 = n).
    { unfold cd_num. rewrite P. cbn [a cd_isreg cd_alpha cd_reg]. destruct (isreg 0%nat); [|reflexivity].
      unfold soft_threshold, rsign. rewrite ltb_t by lra. rewrite (Rabs_pos_eq n) by lra. rewrite Rmax_left by lra. lra. }
    rewrite N. f_equal. field. lra. }
  unfold online_coordinate_descent. cbn [cd_loop]. unfold cd_order. cbn [andb cd_J a seq].
  cbn [cd_sweep]. unfold cd_visit at 1. cbn [Nat.ltb Nat.leb orb]. fold a. rewrite C. cbn [bind].
  destruct (Rleb _ _); [eexists; eexists; split; reflexivity|]. cbn [Nat.ltb Nat.leb].
  unfold cd_visit at 1. cbn [orb Nat.ltb Nat.leb]. unfold vset at 1. cbn [Nat.eqb]. rewrite eqb_f by lra. cbn [negb]. fold a. rewrite C. cbn [bind].
  rewrite leb_t. { eexists; eexists; split; reflexivity. }
  cbn [max_abs]. unfold vset. cbn [Nat.eqb]. rewrite Rminus_diag_eq by reflexivity. rewrite Rabs_R0, Rmax_left by lra. lra.
Qed.

Section Env.
Context {M : Type}.
Variable e : env M.
Hypothesis Hc : o_dist (e_cfg e) = ex_dist.
Hypothesis Hp : e_prep e = ex_prep.
Hypothesis Hw : e_w e = ones (length (e_y e)).
Hypothesis Hpos : forall y, In y (e_y e) -> 0 <= y.

Lemma rx_forget : forget_vector e 0 = ones (length (e_y e)).
Proof. unfold forget_vector. rewrite Hp. cbn [p_forget ex_prep entry lookup Nat.eqb]. unfold init_forget_vector. rewrite eqb_t by lra. reflexivity. Qed.
Lemma rx_ones_mult n : map2 Rmult (ones n) (ones n) = ones n.
Proof. induction n; cbn; [reflexivity|]. f_equal; [lra|exact IHn]. Qed.

Lemma rx_working u fv : length fv = length (e_y e) -> List.Forall at_one fv ->
  exists d1 d2, working e u 0 fv = Ok (ones (length fv), mk_dbg (ones (length fv)) (e_y e) d1 d2 (ones (length fv)) fv).
Proof.
  intros Hl Hf. unfold working. rewrite Hc. idtac.
  assert (E1 : all_some (map (d_link ex_dist 0) (col fv 0)) = Ok (ones (length fv))).
  { rewrite ex_col by exact Hf. rewrite map_repeat. change (d_link ex_dist 0 1) with (Some 1).
    rewrite <- (map_repeat Some). apply all_some_ok. }
  assert (Hat : forall th, In th fv -> th 0%nat = 1) by (intros th Hin; exact (proj1 (List.Forall_forall _ _) Hf th Hin)).
  assert (E2 : map2 (d_dl1 ex_dist 0) (e_y e) fv = map Some (map (fun y => y - 1) (e_y e))).
  { apply map2_some; [congruence|]. intros a b _ Hb. apply ex_dl1. auto. }
  assert (E3 : map2 (d_dl2 ex_dist 0) (e_y e) fv = map Some (map (fun y => - 1) (e_y e))).
  { apply map2_some; [congruence|]. intros a b _ Hb. apply ex_dl2. auto. }
  rewrite E1. cbn [bind]. rewrite E2, all_some_ok. cbn [bind]. rewrite E3, all_some_ok. cbn [bind].
  assert (E4 : map (d_dinv ex_dist 0) (ones (length fv)) = ones (length fv)).
  { unfold ones. rewrite map_repeat. reflexivity. }
  rewrite E4.
  assert (E5 : map2 (if u then update_weight else fit_weight) (map (fun _ => -1) (e_y e)) (ones (length fv)) = ones (length fv)).
  { rewrite Hl. generalize (e_y e). intros l. induction l as [|y l IH]; [reflexivity|].
    cbn [map length ones repeat map2]. rewrite ex_weight. f_equal. exact IH. }
  rewrite E5.
  assert (E6 : map2 (fun a b : R * R => working_response (fst a) (snd a) (fst b) (snd b))
      (combine (ones (length fv)) (map (fun y => y - 1) (e_y e))) (combine (ones (length fv)) (ones (length fv))) = map Some (e_y e)).
  { rewrite Hl. generalize (e_y e). intros l. induction l as [|y l IH]; [reflexivity|].
    cbn [map length ones repeat combine map2 fst snd]. rewrite ex_response. f_equal. exact IH. }
  rewrite E6, all_some_ok. cbn [bind].
  assert (E7 : forallb (fun v => Rleb 0 v) (map2 Rmult (map2 Rmult (e_w e) (ones (length fv))) (forget_vector e 0)) = true).
  { rewrite Hw, rx_forget, Hl, !rx_ones_mult. generalize (length (e_y e)). intros n. induction n; cbn; [reflexivity|].
    rewrite leb_t by lra. exact IHn. }
  rewrite E7, orb_true_r. eexists. eexists. reflexivity.
Qed.
Lemma rx_deviance fv : length fv = length (e_y e) -> List.Forall at_one fv ->
  deviance e fv = Ok (2 * lsum (e_y e)).
Proof.
  intros Hl Hf. unfold deviance. rewrite Hc. idtac.
  assert (Hat : forall th, In th fv -> th 0%nat = 1) by (intros th Hin; exact (proj1 (List.Forall_forall _ _) Hf th Hin)).
  rewrite (map2_some _ (fun y => - y)); [|congruence|intros a b Ha Hb; apply ex_logpdf; auto].
  rewrite all_some_ok. cbn [bind]. f_equal. rewrite Hw. generalize (e_y e). intros l.
  induction l as [|y l IH]; cbn; [lra|]. cbn in IH. unfold ones in IH. rewrite IH. lra.
Qed.
End Env.


Lemma rx_outer_fit fv : length fv = 2%nat -> List.Forall at_one fv ->
  exists w, outer_fit rx_ops (start_env rx_cfg ex_prep ex_b0 (ex_X 2)) (enough_fuel rx_cfg)
    (start_work rx_cfg ex_prep (fun p => nth_error [rx_m None None 0] p) fv) = (w, Ok (4, 1%nat)) /\ rx_work 2 w.
Proof.
  intros Hl Hf. set (e := start_env rx_cfg ex_prep ex_b0 (ex_X 2)).
  set (s := start_work rx_cfg ex_prep (fun p => nth_error [rx_m None None 0] p) fv).
  assert (Hw : e_w e = ones (length (e_y e))) by reflexivity.
  assert (Hy : forall y, In y (e_y e) -> 0 <= y) by (cbn; intros y [<-|[<-|[]]]; lra).
  assert (D4 : 2 * lsum (e_y e) = 4) by (cbn; lra).
  assert (Hdev : deviance e fv = Ok 4).
  { rewrite (rx_deviance e eq_refl Hw Hy); [f_equal; exact D4|exact Hl|exact Hf]. }
  destruct (rx_working e eq_refl eq_refl Hw false fv Hl Hf) as (d1 & d2 & Hwk). rewrite Hl in Hwk.
  set (g := mk_dbg (ones 2) (e_y e) d1 d2 (ones 2) fv) in *.
  set (xg := init_gram (repeat (fun _ => 1) 2) (gram_weights e g) 0).
  set (yg := init_y_gram (repeat (fun _ => 1) 2) (g_wv g) (gram_weights e g) 0).
  assert (Hxg : forall i j, xg i j = 2).
  { intros i j. unfold xg. unfold init_gram, mat_tmul, scale_rows, root_weights, gram_weights, init_forget_vector.
    rewrite eqb_t by lra. cbn. rewrite !root1. lra. }
  assert (Hyg : forall i, yg i = 2).
  { intros i. unfold yg, init_y_gram, vec_tmul, scale_rows, root_weights, gram_weights, init_forget_vector.
    rewrite eqb_t by lra. cbn. rewrite !root1. lra. }
  assert (Hx : op_init_x rx_ops 1 (repeat (fun _ => 1) 2) (gram_weights e g) 0 = Ok xg) by reflexivity.
  destruct (rx_cd xg yg 2 (e_isreg e 0) (fun _ => [0%nat]) (ridge_start ex_inv (fst (rx_m (Some [None]) (Some [None]) 0)) 1 xg yg) ltac:(lra) (Hxg 0%nat 0%nat) (Hyg 0%nat)) as (beta & itn & Ecd & Hb).
  set (m1 := rx_m (Some [None]) (Some [None]) 1).
  assert (Hfit : op_fit_beta rx_ops (rx_m None None 0) 1 xg yg (e_isreg e 0) = Ok (m1, beta)).
  { cbn [op_fit_beta rx_ops ridge_ops fst snd rx_m]. unfold ridge_fit, ridge_bounds. cbn [ri_lower ri_upper fill_bound repeat length Nat.eqb negb bind].
    unfold ridge_lambda, ridge_args. cbn [ri_start ri_lambda ri_random ri_lower ri_upper ri_tol ri_maxit].
    cbn [rx_m fst] in Ecd. rewrite Ecd. reflexivity. }
  set (pred := map2 (fun x et => 1 * dot 1 x beta + (1 - 1) * et) (repeat (fun _ => 1) 2) (ones 2)).
  assert (Hpred : pred = ones 2).
  { unfold pred. cbn [map2 repeat ones]. unfold dot. cbn [bsum]. rewrite Hb. f_equal; [lra|f_equal; lra]. }
  set (fv' := set_col fv 0 (map (d_inv ex_dist 0) pred)).
  assert (Hf' : List.Forall at_one fv' /\ length fv' = 2%nat).
  { unfold fv'. rewrite Hpred. destruct fv as [|a [|b [|]]]; try discriminate. cbn. split; [|reflexivity]. repeat constructor. }
  destruct Hf' as [Hf' Hl'].
  assert (Hdev' : deviance e fv' = Ok 4).
  { rewrite (rx_deviance e eq_refl Hw Hy); [f_equal; exact D4|exact Hl'|exact Hf']. }
  assert (Hcand := fit_candidate_run rx_ops e 0 1 0 1 4 fv None s (ones 2) g 1 (repeat (fun _ => 1) 2) xg (rx_m None None 0) m1 beta 4
    eq_refl eq_refl eq_refl Hwk Hx eq_refl Hfit Hdev').
  fold pred in Hcand. cbn zeta in Hcand.
  set (q := mk_cand _ _ _ _ _ _ _ _ _) in Hcand.
  assert (Hin := inner_fit_run1 rx_ops e 0 1 s 4 fv q m1 eq_refl Hdev eq_refl ltac:(cbn; lia) ltac:(cbn; lia) eq_refl Hcand (or_introl eq_refl)).
  exists (after_inner_fit e 0 0 q (put_method 0 m1 s)). split.
  - unfold outer_fit, bnd at 1. unfold peek at 1. unfold bnd at 1, lift at 1. change (w_fv s) with fv. rewrite Hdev.
    unfold enough_fuel. change (o_max_outer rx_cfg + 2)%nat with 5%nat. cbn [outer_fit_loop].
    unfold bnd at 1, peek at 1. change (w_min s <=? 0)%nat with false. cbn [andb].
    unfold bnd at 1. change (p_order (e_prep e)) with [0%nat]. cbn [fit_cycle]. unfold bnd at 1. rewrite Hin.
    unfold ret at 1. cbn [fst]. unfold bnd at 1, peek at 1.
    change (w_min (after_inner_fit e 0 0 q (put_method 0 m1 s)) <=? 1)%nat with true. cbn [andb].
    change (c_dv q) with 4.
    assert (Hc : outer_converged e 4 4 = true).
    { unfold outer_converged, rel_close. rewrite Rminus_diag_eq by reflexivity. rewrite Rabs_R0.
      rewrite eqb_f by lra. rewrite ltb_t; [reflexivity|]. cbn. unfold Rdiv at 1. rewrite Rmult_0_l. lra. }
    rewrite Hc. cbn [orb]. reflexivity.
  - repeat split.
    + exists 1%nat. reflexivity.
    + exists xg. split; [reflexivity|apply Hxg].
    + exists yg. split; [reflexivity|apply Hyg].
    + exact Hb.
    + cbn. f_equal. lra.
    + cbn. unfold mean, npdiv. cbn. rewrite eqb_f by lra. f_equal. field.
Qed.

Lemma rx_fit : exists s1, gam_fit rx_ops rx_cfg ex_b0 new_gam = (s1, Ok tt) /\ rx_state 2 4 1 s1.
Proof.
  set (fv := [fun k => nth k [1] 0; fun k => nth k [1] 0] : list vec).
  assert (Hinit : d_init ex_dist [1 / 2; 3 / 2] = Ok fv).
  { cbn. unfold M_Init.np_mean, npdiv. cbn. rewrite eqb_f by lra. cbn.
    replace ((1 / 2 + (3 / 2 + 0)) / (1 + 1)) with 1 by lra. reflexivity. }
  destruct (rx_outer_fit fv eq_refl) as (w & Ho & Hwk).
  { repeat constructor. }
  eexists. split.
  - eapply (gam_fit_run rx_ops rx_cfg ex_b0 new_gam ex_prep _ fv [1%nat] (ex_scaler 2) (ex_X 2) w 4 1); try reflexivity; try exact Hinit; try exact Ho.
    + cbn; lia.
    + cbn [existsb b_rows ex_b0 oy ex_row o_dist rx_cfg]. rewrite !ex_below by lra. reflexivity.
    + cbn. unfold scaler_fit. cbn. unfold ex_scaler. do 2 f_equal. lra.
  - exists w. eexists. split; [exact Hwk|]. cbn. do 2 f_equal. lra.
Qed.

(** * update *)
Lemma rx_outer_update n w0 isreg fv dev : 1 <= n -> length fv = 2%nat -> List.Forall at_one fv -> rx_work n w0 ->
  exists w, outer_update rx_ops (again_env rx_cfg ex_prep isreg n ex_b0 (ex_X 2)) dev (enough_fuel rx_cfg)
    (restart_work rx_cfg ex_prep fv (w_min w0) w0) = (w, Ok (4 + dev, 1%nat)) /\ rx_work (n + 2) (commit_work w).
Proof.
  intros Hn Hl Hf ((k0 & Hm) & (G & HG & HGn) & (h & Hh & Hhn) & Hco & Hsum & Hmean & Hmin).
  set (e := again_env rx_cfg ex_prep isreg n ex_b0 (ex_X 2)).
  set (s := restart_work rx_cfg ex_prep fv (w_min w0) w0).
  assert (Hw : e_w e = ones (length (e_y e))) by reflexivity.
  assert (Hy : forall y, In y (e_y e) -> 0 <= y) by (cbn; intros y [<-|[<-|[]]]; lra).
  assert (D2 : 2 * lsum (e_y e) = 4) by (cbn; lra).
  assert (Hdev : deviance e fv = Ok 4).
  { rewrite (rx_deviance e eq_refl Hw Hy); [f_equal; exact D2|exact Hl|exact Hf]. }
  destruct (rx_working e eq_refl eq_refl Hw true fv Hl Hf) as (d1 & d2 & Hwk). rewrite Hl in Hwk.
  set (g := mk_dbg (ones 2) (e_y e) d1 d2 (ones 2) fv) in *.
  set (xg := update_gram G (repeat (fun _ => 1) 2) 0 (gram_weights e g)).
  set (yg := update_y_gram h (repeat (fun _ => 1) 2) (g_wv g) 0 (gram_weights e g)).
  assert (Hxg : xg 0%nat 0%nat = n + 2).
  { unfold xg, update_gram, mat_tmul, scale_rows, root_weights, gram_weights, init_forget_vector. cbn.
    rewrite eqb_t by lra. cbn. rewrite !root1, HGn. lra. }
  assert (Hyg : yg 0%nat = n + 2).
  { unfold yg, update_y_gram, vec_tmul, scale_rows, root_weights, gram_weights, init_forget_vector. cbn.
    rewrite eqb_t by lra. cbn. rewrite !root1, Hhn. lra. }
  destruct (rx_cd xg yg (n + 2) (e_isreg e 0) (fun _ => [0%nat]) (w_coef s 0%nat) ltac:(lra) Hxg Hyg) as (beta & itn & Ecd & Hb).
  set (m1 := rx_m (Some [None]) (Some [None]) (S k0)).
  assert (Hfit : op_update_beta rx_ops (rx_m (Some [None]) (Some [None]) k0) 1 xg yg (w_coef s 0%nat) (e_isreg e 0) = Ok (m1, beta)).
  { cbn [op_update_beta rx_ops ridge_ops fst snd rx_m]. unfold ridge_update, ridge_args. cbn [ri_start ri_lambda ri_random ri_lower ri_upper ri_tol ri_maxit].
    rewrite Ecd. reflexivity. }
  set (pred := map (fun x => dot 1 x beta) (repeat (fun _ => 1) 2)).
  assert (Hpred : pred = ones 2).
  { unfold pred. cbn [map repeat ones]. unfold dot. cbn [bsum]. rewrite Hb. f_equal; [lra|f_equal; lra]. }
  set (fv' := set_col fv 0 (map (d_inv ex_dist 0) pred)).
  assert (Hf' : List.Forall at_one fv' /\ length fv' = 2%nat).
  { unfold fv'. rewrite Hpred. destruct fv as [|a [|b [|]]]; try discriminate. cbn. split; [|reflexivity]. repeat constructor. }
  destruct Hf' as [Hf' Hl'].
  assert (Hdev' : deviance e fv' = Ok 4).
  { rewrite (rx_deviance e eq_refl Hw Hy); [f_equal; exact D2|exact Hl'|exact Hf']. }
  assert (Hcand := update_candidate_run rx_ops e dev 0 1 0 fv s (ones 2) g 1 (repeat (fun _ => 1) 2) G xg h (rx_m (Some [None]) (Some [None]) k0) m1 beta 1 4
    eq_refl eq_refl eq_refl Hwk Hm HG Hh Hmean eq_refl Hfit Hdev').
  fold pred in Hcand. cbn zeta in Hcand.
  set (q := mk_cand _ _ _ _ _ _ _ _ _) in Hcand.
  assert (Hin := inner_update_run1 rx_ops e dev 0 1 s 4 fv q m1 n eq_refl Hdev eq_refl ltac:(cbn; lia) ltac:(cbn; lia) Hcand Hsum).
  assert (Hdv : c_dv q = 4 + dev) by (cbn; lra).
  assert (Hl1 : 4 + (1 - p_forget (e_prep e) 0) ^ length (e_y e) * dev = 4 + dev) by (cbn; lra).
  rewrite Hl1, Hdv, ltb_f in Hin by lra. cbn [halve_step] in Hin.
  set (w' := after_inner_update e 0 0 q n (put_method 0 m1 s)) in Hin.
  assert (Hc : outer_converged e (4 + dev) (4 + dev) = true).
  { unfold outer_converged. rewrite Rminus_diag_eq by reflexivity. rewrite Rabs_R0.
    rewrite (ltb_t 0) by (cbn; lra). apply orb_true_r. }
  exists w'. split.
  - unfold outer_update, bnd at 1. unfold peek at 1. unfold bnd at 1, lift at 1. change (w_fv s) with fv. rewrite Hdev.
    unfold enough_fuel. change (o_max_outer rx_cfg + 2)%nat with 5%nat. cbn [outer_update_loop].
    unfold bnd at 1, peek at 1. change (w_min s) with (w_min w0). rewrite Hmin. cbn [Nat.leb andb].
    unfold bnd at 1. change (p_order (e_prep e)) with [0%nat]. cbn [update_cycle]. unfold bnd at 1. rewrite Hin.
    unfold ret at 1. unfold bnd at 1, peek at 1.
    change (w_min w') with (w_min w0). rewrite Hmin. cbn [Nat.leb andb].
    replace ((1 - p_forget (e_prep e) 0) ^ length (e_y e) * dev + 4) with (4 + dev) by (cbn; lra).
    rewrite Hc. cbn [orb]. reflexivity.
  - repeat split.
    + exists (S k0). reflexivity.
    + exists xg. split; [reflexivity|exact Hxg].
    + exists yg. split; [reflexivity|exact Hyg].
    + exact Hb.
    + cbn. f_equal. lra.
    + cbn. unfold npdiv.
      assert (En : n + lsum (ws (b_rows ex_b0)) = n + 2) by (cbn; lra).
      unfold effective_training_length. rewrite (eqb_t 0 0) by reflexivity.
      cbn in En. rewrite En. rewrite eqb_f by lra. f_equal. field. lra.
    + exact Hmin.
Qed.

Lemma rx_update n dev it s : 1 <= n -> rx_state n dev it s ->
  exists s', gam_update rx_ops rx_cfg ex_b0 s = (s', Ok tt) /\ rx_state (n + 2) (4 + dev) 1 s'.
Proof.
  intros Hn (w0 & nt & Hw0 & ->).
  set (fv := map (fun i q => let eta := dot (fst (ex_X 2 q)) (nth i (snd (ex_X 2 q)) (fun _ => 0)) (w_coef w0 q) in
                                  d_inv ex_dist q eta) (seq 0 2)).
  assert (Hfv : List.Forall at_one fv).
  { destruct Hw0 as (_ & _ & _ & Hco & _).
    constructor; [|constructor; [|constructor]]; unfold at_one; cbn; unfold dot; cbn [bsum]; rewrite Hco; lra. }
  destruct (rx_outer_update n w0 (gam_isreg ex_prep) fv dev Hn eq_refl Hfv Hw0) as (w & Ho & Hwk).
  eexists. split.
  - eapply (gam_update_run rx_ops rx_cfg ex_b0 n ex_prep fv (ex_scaler n) (ex_scaler (n + 2)) (ex_X 2) w0 _ w dev it); try reflexivity; try exact Ho.
    + cbn; lia.
    + intros q Hq. now injection Hq as <-.
    + cbn [existsb b_rows ex_b0 oy ex_row o_dist rx_cfg]. rewrite !ex_below by lra. reflexivity.
    + intros s E1 E2 E3 E4. change (b_p ex_b0) with 1%nat. rewrite (predict_parameters_run rx_cfg true 1 (Xs (b_rows ex_b0)) s (ex_scaler n) ex_prep (ex_X 2) w0);
        try assumption; try reflexivity; try (cbn; lia).
      intros q Hq. rewrite E4 in Hq. now injection Hq as <-.
    + cbn. unfold ex_scaler, scaler_update. cbn. do 2 f_equal. lra.
  - exists (commit_work w). eexists. split; [exact Hwk|]. f_equal. f_equal. cbn. lra.
Qed.
