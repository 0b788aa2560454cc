(** Concrete runs with forgetting: a user-defined distribution with one parameter (normal
    with variance 1, log-density up to a constant), intercept only, ordinary least squares,
    forgetting factor 1/2. All observations are 1. *)
From Coq Require Import Reals List Bool Arith ZArith Lra Lia.
From Verif Require Import Base Lin Data M_Gram M_OLS M_Scaler M_Utils M_Links M_DistTable M_Dist M_Init M_State M_LM M_Equation M_GAMLSS M_GAMDist S_GAMLSS.
From Verif Require Import L_GAM1 L_GAM2 L_GAM6 L_GAM10 L_GAMEx.
Import ListNotations.
Open Scope R_scope.

Definition u_dist : dist_ops :=
  mk_dist 1 NegInf PosInf (fun _ x => Some x) (fun _ x => x) (fun _ _ => 1)
    (fun _ y th => Some (y - th 0%nat)) (fun _ _ _ => Some (- 1))
    (fun y th => Some (- (y - th 0%nat) ^ 2 / 2))
    (fun ys => Ok (map (fun _ => (fun _ => 1) : vec) ys)) (fun _ _ _ => Raise ValueError) (fun _ _ => None).
Definition u_cfg : gam_cfg unit :=
  mk_gcfg unit u_dist true (Some [(0%nat, EqIntercept)]) (fun _ => Ok tt) (Scalar (1 / 2)) (Scalar aic) (Scalar true)
    (Scalar false) (Scalar 1) None ScaleNone false 0 0 3 1 1 (1 / 1000) (1 / 1000) (1 / 1000) (1 / 1000)
    false false false.
Definition u_prep : prep :=
  mk_prep (entry [(0%nat, EqIntercept)] EqOther) (entry [(0%nat, 1 / 2)] 0) (entry [(0%nat, aic)] aic)
    (entry [(0%nat, true)] true) (entry [(0%nat, false)] false) [(0%nat, 1)] [0%nat].
(** one row, and two rows *)
Definition u_b (two : bool) : batch := mk_batch 1 (if two then [ex_row 1; ex_row 1] else [ex_row 1]).
Definition u_n (two : bool) : nat := if two then 2%nat else 1%nat.

Lemma u_unit : unit_weights u_dist 0.
Proof. intros y th eta h H1 H2. cbn in *. injection H2 as <-. exact (ex_weight true). Qed.

Section Env.
Variable e : env unit.
Hypothesis Hc : e_cfg e = u_cfg.
Hypothesis Hp : e_prep e = u_prep.
Lemma u_deviance two fv : e_y e = ones (u_n two) -> e_w e = ones (u_n two) -> length fv = u_n two -> List.Forall at_one fv -> deviance e fv = Ok 0.
Proof.
  intros Hy Hw Hl Hf. unfold deviance. rewrite Hc, Hy, Hw. cbn [o_dist u_cfg].
  destruct two; cbn [u_n] in *.
  - destruct fv as [|a [|b [|]]]; try discriminate Hl. inversion Hf as [|? ? H1 H2]; subst. inversion H2 as [|? ? H3 H4]; subst. unfold at_one in *.
    cbn. rewrite H1, H3. f_equal. lra.
  - destruct fv as [|a [|]]; try discriminate Hl. inversion Hf as [|? ? H1 H2]; subst. unfold at_one in *. cbn. rewrite H1. f_equal. lra.
Qed.
Lemma u_fvec two : e_y e = ones (u_n two) -> forget_vector e 0 = (if two then [1 / 2; 1] else [1]).
Proof.
  intros Hy. unfold forget_vector. rewrite Hp, Hy. cbn [p_forget u_prep entry lookup Nat.eqb]. unfold init_forget_vector. rewrite eqb_f by lra.
  destruct two; cbn; [|reflexivity]. f_equal. lra.
Qed.
Lemma u_working u two fv : e_y e = ones (u_n two) -> e_w e = ones (u_n two) -> length fv = u_n two -> List.Forall at_one fv ->
  exists d1 d2, working e u 0 fv = Ok (ones (u_n two), mk_dbg (ones (u_n two)) (ones (u_n two)) d1 d2 (ones (u_n two)) fv).
Proof.
  intros Hy Hw Hl Hf. unfold working. rewrite (u_fvec two Hy). rewrite Hc, Hy, Hw. cbn [o_dist u_cfg].
  destruct two; cbn [u_n ones repeat] in *.
  - destruct fv as [|a [|b [|]]]; try discriminate Hl. inversion Hf as [|? ? H1 H2]; subst. inversion H2 as [|? ? H3 H4]; subst. unfold at_one in *.
    cbn [map col map2 all_some bind d_link d_dinv d_dl1 d_dl2 u_dist]. rewrite H1, H3. rewrite ex_weight. cbn [combine map2 fst snd all_some bind length].
    rewrite ex_response. cbn [all_some bind]. rewrite Rmult_1_l. cbn [forallb]. rewrite !leb_t by lra. rewrite orb_true_r.
    eexists. eexists. reflexivity.
  - destruct fv as [|a [|]]; try discriminate Hl. inversion Hf as [|? ? H1 H2]; subst. unfold at_one in *.
    cbn [map col map2 all_some bind d_link d_dinv d_dl1 d_dl2 u_dist]. rewrite H1. rewrite ex_weight. cbn [combine map2 fst snd all_some bind length].
    rewrite ex_response. cbn [all_some bind]. rewrite Rmult_1_l. cbn [forallb]. rewrite !leb_t by lra. rewrite orb_true_r.
    eexists. eexists. reflexivity.
Qed.
End Env.

Definition u_X (n : nat) : nat -> nat * list vec := fun p => nth p [(1%nat, repeat (fun _ => 1) n)] (O, []).
(** [S]: the discounted Gramian, [W]: the weight sum. *)
Definition u_work (S W : R) (w : work unit) : Prop :=
  w_method w 0%nat = Some tt /\
  (exists G, w_x w 0%nat = Some G /\ G 0%nat 0%nat = / S) /\
  (exists h, w_y w 0%nat = Some h /\ h 0%nat = S) /\
  w_coef w 0%nat 0%nat = 1 /\ w_sum w 0%nat = Some W /\ (exists m, w_mean w 0%nat = Some m) /\ w_min w = 1%nat.
Definition u_scaler (n : R) : scaler := mk_scaler (1 / 2) false [] (fun _ => 0) (fun _ => 0) (fun _ => 0) 0 n.
Definition u_state (n S W : R) (it : nat) (s : gam unit) : Prop :=
  exists w nt, u_work S W w /\
  s = mk_gam (Some u_prep) (Some (Some (u_scaler n))) (Some 1%nat) (Some n) (Some nt)
        (Some (fun p => nth p [1%nat] O)) (Some (gam_isreg u_prep)) (Some w) (Some (0, it)).

Lemma u_outer_fit fv : length fv = 2%nat -> List.Forall at_one fv ->
  exists w, outer_fit ex_ops (start_env u_cfg u_prep (u_b true) (u_X 2)) (enough_fuel u_cfg)
    (start_work u_cfg u_prep (fun p => nth_error [tt] p) fv) = (w, Ok (0, 1%nat)) /\ u_work (3 / 2) 2 w.
Proof.
  intros Hl Hf. set (e := start_env u_cfg u_prep (u_b true) (u_X 2)).
  set (s := start_work u_cfg u_prep (fun p => nth_error [tt] p) fv).
  assert (Hdev : deviance e fv = Ok 0) by (apply (u_deviance e eq_refl true); auto).
  destruct (u_working e eq_refl eq_refl false true fv eq_refl eq_refl Hl Hf) as (d1 & d2 & Hwk).
  set (g := mk_dbg (ones (u_n true)) (ones (u_n true)) d1 d2 (ones (u_n true)) fv) in *.
  set (xg := (fun _ _ : nat => / init_gram (repeat (fun _ => 1) 2) (gram_weights e g) (1 / 2) 0%nat 0%nat) : mat).
  set (yg := init_y_gram (repeat (fun _ => 1) 2) (g_wv g) (gram_weights e g) (1 / 2)).
  assert (Hg : init_gram (repeat (fun _ => 1) 2) (gram_weights e g) (1 / 2) 0%nat 0%nat = 3 / 2).
  { unfold init_gram, mat_tmul, scale_rows, root_weights, gram_weights, init_forget_vector. rewrite eqb_f by lra. cbn. rewrite !root1. replace (1 * 1 * (1 * (1 - 1 / 2))) with (1 / 2) by field.
    assert (sqrt (1 / 2) * sqrt (1 / 2) = 1 / 2) by (apply sqrt_sqrt; lra). nra. }
  assert (Hxg : xg 0%nat 0%nat = / (3 / 2)) by (unfold xg; rewrite Hg; reflexivity).
  assert (Hyg : yg 0%nat = 3 / 2).
  { unfold yg, init_y_gram, vec_tmul, scale_rows, root_weights, gram_weights, init_forget_vector. rewrite eqb_f by lra. cbn. rewrite !root1. replace (1 * 1 * (1 * (1 - 1 / 2))) with (1 / 2) by field.
    assert (sqrt (1 / 2) * sqrt (1 / 2) = 1 / 2) by (apply sqrt_sqrt; lra). nra. }
  assert (Hx : op_init_x ex_ops 1 (repeat (fun _ => 1) 2) (gram_weights e g) (1 / 2) = Ok xg).
  { cbn [ex_ops ols_ops op_init_x]. unfold init_inverted_gram. rewrite ex_inv_one; [reflexivity|]. rewrite Hg. lra. }
  set (beta := ols_beta 1 xg yg).
  assert (Hb : beta 0%nat = 1) by (unfold beta, ols_beta, mvec; cbn [bsum]; rewrite Hxg, Hyg; field).
  set (pred := map2 (fun x et => 1 * dot 1 x beta + (1 - 1) * et) (repeat (fun _ => 1) 2) (ones 2)).
  assert (Hpred : pred = ones 2) by (unfold pred; cbn [map2 repeat ones]; unfold dot; cbn [bsum]; rewrite Hb; repeat f_equal; lra).
  set (fv' := set_col fv 0 (map (d_inv u_dist 0) pred)).
  assert (Hf' : List.Forall at_one fv' /\ length fv' = 2%nat).
  { unfold fv'. rewrite Hpred. destruct fv as [|a [|b [|]]]; try discriminate. cbn. split; [|reflexivity]. repeat constructor. }
  destruct Hf' as [Hf' Hl'].
  assert (Hdev' : deviance e fv' = Ok 0) by (apply (u_deviance e eq_refl true); auto).
  assert (Hcand := fit_candidate_run ex_ops e 0 1 0 1 0 fv None s (ones 2) g 1 (repeat (fun _ => 1) 2) xg tt tt beta 0
    eq_refl eq_refl eq_refl Hwk Hx eq_refl eq_refl Hdev').
  fold pred in Hcand. cbn zeta in Hcand.
  set (q := mk_cand _ _ _ _ _ _ _ _ _) in Hcand.
  assert (Hin := inner_fit_run1 ex_ops e 0 1 s 0 fv q tt eq_refl Hdev eq_refl ltac:(cbn; lia) ltac:(cbn; lia) eq_refl Hcand (or_introl eq_refl)).
  exists (after_inner_fit e 0 0 q (put_method 0 tt s)). split.
  - unfold outer_fit, bnd at 1. unfold peek at 1. unfold bnd at 1, lift at 1. change (w_fv s) with fv. rewrite Hdev.
    unfold enough_fuel. change (o_max_outer u_cfg + 2)%nat with 5%nat. cbn [outer_fit_loop].
    unfold bnd at 1, peek at 1. change (w_min s <=? 0)%nat with false. cbn [andb].
    unfold bnd at 1. change (p_order (e_prep e)) with [0%nat]. cbn [fit_cycle]. unfold bnd at 1. rewrite Hin.
    unfold ret at 1. cbn [fst]. unfold bnd at 1, peek at 1.
    change (w_min (after_inner_fit e 0 0 q (put_method 0 tt s)) <=? 1)%nat with true. cbn [andb].
    change (c_dv q) with 0.
    assert (Hc : outer_converged e 0 0 = true).
    { unfold outer_converged. rewrite Rminus_diag_eq by reflexivity. rewrite Rabs_R0. rewrite (ltb_t 0) by (cbn; lra). apply orb_true_r. }
    rewrite Hc. cbn [orb]. reflexivity.
  - split; [reflexivity|]. split; [exists xg; split; [reflexivity|exact Hxg]|]. split; [exists yg; split; [reflexivity|exact Hyg]|].
    split; [exact Hb|]. split; [cbn; f_equal; lra|]. split; [|reflexivity].
    cbn. unfold mean, npdiv. cbn. rewrite eqb_f by lra. eexists. reflexivity.
Qed.
Lemma u_fit : exists s1, gam_fit ex_ops u_cfg (u_b true) new_gam = (s1, Ok tt) /\ u_state 2 (3 / 2) 2 1 s1.
Proof.
  set (fv := [(fun _ => 1) : vec; fun _ => 1]).
  destruct (u_outer_fit fv eq_refl) as (w & Ho & Hwk). { repeat constructor. }
  eexists. split.
  - eapply (gam_fit_run ex_ops u_cfg (u_b true) new_gam u_prep _ fv [1%nat] (u_scaler 2) (u_X 2) w 0 1); try reflexivity; try exact Ho.
    + cbn; lia.
    + unfold scaler_fit. cbn. unfold u_scaler. do 2 f_equal. lra.
  - exists w. eexists. split; [exact Hwk|]. cbn. do 2 f_equal. lra.
Qed.

(** the new Gramian and the new weight sum *)
Definition u_S (two : bool) (S : R) : R := if two then S / 4 + 3 / 2 else S / 2 + 1.
Definition u_W (two : bool) (W : R) : R := INR (u_n two) + W / 2.
Lemma u_outer_update two n S W w0 isreg fv : 0 < S -> 0 < n -> length fv = u_n two -> List.Forall at_one fv -> u_work S W w0 ->
  exists w, outer_update ex_ops (again_env u_cfg u_prep isreg n (u_b two) (u_X (u_n two))) 0 (enough_fuel u_cfg)
    (restart_work u_cfg u_prep fv (w_min w0) w0) = (w, Ok (0, 1%nat)) /\ u_work (u_S two S) (u_W two W) (commit_work w).
Proof.
  intros HS Hn Hl Hf (Hm & (G & HG & HGn) & (h & Hh & Hhn) & Hco & Hsum & (mw & Hmean) & Hmin).
  set (e := again_env u_cfg u_prep isreg n (u_b two) (u_X (u_n two))).
  set (s := restart_work u_cfg u_prep fv (w_min w0) w0).
  assert (Ey : e_y e = ones (u_n two)) by (destruct two; reflexivity).
  assert (Ew : e_w e = ones (u_n two)) by (destruct two; reflexivity).
  assert (Hdev : deviance e fv = Ok 0) by (apply (u_deviance e eq_refl two); auto).
  destruct (u_working e eq_refl eq_refl true two fv Ey Ew Hl Hf) as (d1 & d2 & Hwk).
  set (g := mk_dbg (ones (u_n two)) (ones (u_n two)) d1 d2 (ones (u_n two)) fv) in *.
  set (X := repeat ((fun _ => 1) : vec) (u_n two)).
  assert (Eg : gram_weights e g = map2 Rmult (ones (u_n two)) (ones (u_n two))) by (unfold gram_weights; rewrite Ew; reflexivity).
  set (xg := update_inverted_rows 1 G X (1 / 2) (gram_weights e g)).
  set (yg := update_y_gram h X (g_wv g) (1 / 2) (gram_weights e g)).
  assert (HS' : 0 < u_S two S) by (destruct two; unfold u_S; lra).
  assert (Hxg : xg 0%nat 0%nat = / u_S two S).
  { unfold xg, X. rewrite Eg. destruct two; cbn [u_n ones repeat map2 update_inverted_rows u_S]; unfold update_inverted_gram1, mmul, dot, outer; cbn [bsum]; rewrite HGn;
      field; repeat split; nra. }
  assert (Hyg : yg 0%nat = u_S two S).
  { unfold yg, X. rewrite Eg. cbn [g_wv g]. destruct two; cbn [u_n ones repeat map2 u_S].
    - unfold update_y_gram, vec_tmul, scale_rows, root_weights, init_forget_vector. rewrite eqb_f by lra. cbn. rewrite Hhn.
      rewrite !root1. replace (1 * 1 * (1 * (1 - 1 / 2))) with (1 / 2) by field.
      assert (sqrt (1 / 2) * sqrt (1 / 2) = 1 / 2) by (apply sqrt_sqrt; lra). nra.
    - cbn. rewrite Hhn. field. }
  set (beta := ols_beta 1 xg yg).
  assert (Hb : beta 0%nat = 1) by (unfold beta, ols_beta, mvec; cbn [bsum]; rewrite Hxg, Hyg; field; lra).
  set (pred := map (fun x => dot 1 x beta) X).
  assert (Hpred : pred = ones (u_n two)).
  { unfold pred, X. destruct two; cbn [map u_n repeat ones]; unfold dot; cbn [bsum]; rewrite Hb; repeat f_equal; lra. }
  set (fv' := set_col fv 0 (map (d_inv u_dist 0) pred)).
  assert (Hf' : List.Forall at_one fv' /\ length fv' = u_n two).
  { unfold fv'. rewrite Hpred. destruct two.
    - destruct fv as [|a [|b [|]]]; try discriminate. cbn. split; [|reflexivity]. repeat constructor.
    - destruct fv as [|a [|]]; try discriminate. cbn. split; [|reflexivity]. repeat constructor. }
  destruct Hf' as [Hf' Hl'].
  assert (Hdev' : deviance e fv' = Ok 0) by (apply (u_deviance e eq_refl two); auto).
  assert (Hx : op_update_x ex_ops 1 G X (1 / 2) (gram_weights e g) = Ok xg) by (unfold X; destruct two; reflexivity).
  assert (Hcand := update_candidate_run ex_ops e 0 0 1 0 fv s (ones (u_n two)) g 1 X G xg h tt tt beta mw 0
    eq_refl eq_refl eq_refl Hwk Hm HG Hh Hmean Hx eq_refl Hdev').
  fold pred in Hcand. cbn zeta in Hcand.
  set (q := mk_cand _ _ _ _ _ _ _ _ _) in Hcand.
  assert (Hin := inner_update_run1 ex_ops e 0 0 1 s 0 fv q tt W eq_refl Hdev eq_refl ltac:(cbn; lia) ltac:(cbn; lia) Hcand Hsum).
  assert (Hdv : c_dv q = 0) by (cbn; lra).
  rewrite Rmult_0_r, Rplus_0_r, Hdv, ltb_f in Hin by lra. cbn [halve_step] in Hin.
  set (w' := after_inner_update e 0 0 q W (put_method 0 tt s)) in Hin.
  assert (Hc : outer_converged e 0 0 = true).
  { unfold outer_converged. rewrite Rminus_diag_eq by reflexivity. rewrite Rabs_R0. rewrite (ltb_t 0) by (cbn; lra). apply orb_true_r. }
  exists w'. split.
  - unfold outer_update, bnd at 1. unfold peek at 1. unfold bnd at 1, lift at 1. change (w_fv s) with fv. rewrite Hdev.
    unfold enough_fuel. change (o_max_outer u_cfg + 2)%nat with 5%nat. cbn [outer_update_loop].
    unfold bnd at 1, peek at 1. change (w_min s) with (w_min w0). rewrite Hmin. cbn [Nat.leb andb].
    unfold bnd at 1. change (p_order (e_prep e)) with [0%nat]. cbn [update_cycle]. unfold bnd at 1. rewrite Hin.
    unfold ret at 1. unfold bnd at 1, peek at 1.
    change (w_min w') with (w_min w0). rewrite Hmin. cbn [Nat.leb andb].
    rewrite Rmult_0_r, Rplus_0_r, Hc. cbn [orb]. reflexivity.
  - assert (Sn : lsum (map2 Rmult (e_w e) (c_wt q)) + (1 - p_forget (e_prep e) 0) * W = u_W two W).
    { rewrite Ew. change (c_wt q) with (ones (u_n two)). change (p_forget (e_prep e) 0) with (1 / 2). unfold u_W. destruct two; cbn; lra. }
    split; [reflexivity|]. split; [exists xg; split; [reflexivity|exact Hxg]|]. split; [exists yg; split; [reflexivity|exact Hyg]|].
    split; [exact Hb|]. split; [|split; [|exact Hmin]].
    + change (w_sum (commit_work w') 0%nat) with (Some (lsum (map2 Rmult (e_w e) (c_wt q)) + (1 - p_forget (e_prep e) 0) * W)). rewrite Sn. reflexivity.
    + change (w_mean (commit_work w') 0%nat) with (npdiv (lsum (map2 Rmult (e_w e) (c_wt q)) + (1 - p_forget (e_prep e) 0) * W) (e_ntrain e 0)).
      unfold npdiv. rewrite eqb_f; [eexists; reflexivity|].
      assert (Q : e_ntrain e 0%nat = effective_training_length (1 / 2) (n + lsum (ws (b_rows (u_b two))))) by reflexivity.
      rewrite Q. unfold effective_training_length. rewrite eqb_f by lra.
      assert (Hlt : 0 < n + lsum (ws (b_rows (u_b two)))) by (destruct two; cbn; lra).
      unfold Rpower. match goal with |- context [exp ?t] => assert (exp t < 1) end.
      { apply Rlt_le_trans with (exp 0); [apply exp_increasing|rewrite exp_0; lra]. assert (ln (1 - 1 / 2) < 0) by (rewrite <- ln_1; apply ln_increasing; lra). nra. }
      intros E. apply (f_equal (fun v => v * (1 / 2))) in E. unfold Rdiv in E. lra.
Qed.

Lemma u_update two n S W it s : 0 < S -> 0 < n -> u_state n S W it s ->
  exists s', gam_update ex_ops u_cfg (u_b two) s = (s', Ok tt) /\ u_state (n + INR (u_n two)) (u_S two S) (u_W two W) 1 s'.
Proof.
  intros HS Hn (w0 & nt & Hw0 & ->).
  set (fv := map (fun i q => let eta := dot (fst (u_X (u_n two) q)) (nth i (snd (u_X (u_n two) q)) (fun _ => 0)) (w_coef w0 q) in
                                  d_inv u_dist q eta) (seq 0 (u_n two))).
  assert (Hlv : length fv = u_n two) by (unfold fv; rewrite map_length, seq_length; reflexivity).
  assert (Hfv : List.Forall at_one fv).
  { destruct Hw0 as (_ & _ & _ & Hco & _).
    unfold fv; destruct two; repeat constructor; unfold at_one, dot; cbn; rewrite Hco; lra. }
  destruct (u_outer_update two n S W w0 (gam_isreg u_prep) fv HS Hn Hlv Hfv Hw0) as (w & Ho & Hwk).
  assert (Sw : lsum (ws (b_rows (u_b two))) = INR (u_n two)) by (destruct two; cbn; lra).
  eexists. split.
  - eapply (gam_update_run ex_ops u_cfg (u_b two) n u_prep fv (u_scaler n) (u_scaler (n + INR (u_n two))) (u_X (u_n two)) w0 _ w 0 it); try exact Ho; try reflexivity.
    + destruct two; cbn; lia.
    + intros q Hq. now injection Hq as <-.
    + destruct two; reflexivity.
    + destruct two; reflexivity.
    + intros s E1 E2 E3 E4. change (b_p (u_b two)) with 1%nat.
      rewrite (predict_parameters_run u_cfg true 1 (Xs (b_rows (u_b two))) s (u_scaler n) u_prep (u_X (u_n two)) w0);
        try assumption; try reflexivity; try (destruct two; cbn; lia); try (destruct two; reflexivity).
      intros q Hq. rewrite E4 in Hq. now injection Hq as <-.
    + destruct two; cbn; unfold u_scaler, scaler_update; cbn; do 2 f_equal; lra.
    + destruct two; reflexivity.
  - exists (commit_work w). eexists. split; [exact Hwk|]. rewrite Sw. reflexivity.
Qed.
(** The same four observations, fitted and then updated one by one or in one call. *)
Lemma u_split : exists s s1 s2 : gam unit,
  gam_fit ex_ops u_cfg (u_b true) new_gam = (s, Ok tt) /\
  updates_run ex_ops u_cfg s [u_b false; u_b false]%list s1 /\ updates_run ex_ops u_cfg s [u_b true] s2 /\
  weight_sum s1 0 = Some 2 /\ weight_sum s2 0 = Some 3.
Proof.
  destruct u_fit as (s & Hs & Es).
  destruct (u_update false 2 (3 / 2) 2 1 s ltac:(lra) ltac:(lra) Es) as (a & Ha & Ea).
  destruct (u_update false (2 + INR (u_n false)) (u_S false (3 / 2)) (u_W false 2) 1 a ltac:(cbn; lra) ltac:(cbn; lra) Ea) as (a2 & Ha2 & Ea2).
  destruct (u_update true 2 (3 / 2) 2 1 s ltac:(lra) ltac:(lra) Es) as (b & Hb & Eb).
  assert (Cy : forall n S W s, u_state n S W 1 s -> cycles s <> Some O) by (intros ? ? ? ? (? & ? & _ & ->); cbn; discriminate).
  assert (Wt : forall n S W it s, u_state n S W it s -> weight_sum s 0 = Some W) by (intros ? ? ? ? ? (? & ? & (? & ? & ? & ? & H & _) & ->); exact H).
  exists s, a2, b. split; [exact Hs|]. split; [|split; [|split]].
  - econstructor; [exact Ha|exact (Cy _ _ _ _ Ea)|]. econstructor; [exact Ha2|exact (Cy _ _ _ _ Ea2)|]. constructor.
  - econstructor; [exact Hb|exact (Cy _ _ _ _ Eb)|]. constructor.
  - rewrite (Wt _ _ _ _ _ Ea2). unfold u_W. cbn. f_equal. lra.
  - rewrite (Wt _ _ _ _ _ Eb). unfold u_W. cbn. f_equal. lra.
Qed.
