(** The run of L_GAMEx3 with the location modelled by the only column instead of an intercept. *)
From Coq Require Import Reals List Bool Arith ZArith Lra Lia.
From Verif Require Import Base Lin Data M_Gram M_OLS M_Scaler M_Utils M_Links M_DistTable M_Dist M_Init M_State M_LM M_Equation M_GAMLSS M_GAMDist S_GAMLSS.
From Verif Require Import L_GAM1 L_GAM2 L_GAM6 L_GAMEx L_GAMEx3.
Import ListNotations.
Open Scope R_scope.

Definition r_cfg : gam_cfg unit :=
  mk_gcfg unit n_dist true (Some [(0%nat, EqAll); (1%nat, EqIntercept)]) (fun _ => Ok tt) (Scalar 0) (Scalar aic) (Dict [(0%nat, false); (1%nat, true)])
    (Scalar false) (Scalar 1) None ScaleNone false 0 0 3 1 1 (1 / 1000) (1 / 1000) (1 / 1000) (1 / 1000)
    false false false.
Definition r_prep : prep :=
  mk_prep (entry [(0%nat, EqAll); (1%nat, EqIntercept)] EqOther) (entry [(0%nat, 0); (1%nat, 0)] 0)
    (entry [(0%nat, aic); (1%nat, aic)] aic) (entry [(0%nat, false); (1%nat, true)] true)
    (entry [(0%nat, false); (1%nat, false)] false) [(0%nat, 1); (1%nat, 1)] [0%nat; 1%nat].
Definition r_b0 : batch := mk_batch 1 [n_row (- 1) 1; n_row 0 0; n_row 1 1].
Section Env.
Variables (e : env unit).
Hypothesis Hc : e_cfg e = r_cfg.
Hypothesis Hpr : e_prep e = r_prep.
Hypothesis Hlw : length (e_w e) = length (e_y e).
Hypothesis Hw : List.Forall (fun w => 0 <= w) (e_w e).

Lemma r_forget p : forget_vector e p = ones (length (e_y e)).
Proof.
  unfold forget_vector. rewrite Hpr. replace (p_forget r_prep p) with 0 by (destruct p as [|[|]]; reflexivity).
  unfold init_forget_vector. rewrite eqb_t by lra. reflexivity.
Qed.
Lemma r_pforget p : p_forget (e_prep e) p = 0.
Proof. rewrite Hpr. destruct p as [|[|]]; reflexivity. Qed.
Lemma r_working u p fv : (p < 2)%nat -> length fv = length (e_y e) -> List.Forall at01 fv ->
  exists d1 d2, working e u p fv = Ok (repeat 0 (length (e_y e)), mk_dbg (repeat (cc p) (length (e_y e))) (map (resp p) (e_y e)) d1 d2 (repeat 0 (length (e_y e))) fv).
Proof.
  intros Hp Hl Hf. unfold working. rewrite Hc. cbn [o_dist r_cfg].
  assert (Hat : forall th, In th fv -> at01 th) by (intros th Hin; exact (proj1 (List.Forall_forall _ _) Hf th Hin)).
  assert (E1 : all_some (map (d_link n_dist p) (col fv p)) = Ok (repeat 0 (length (e_y e)))).
  { rewrite <- Hl. clear Hl. unfold col. rewrite map_map. induction fv as [|th fv IH]; [reflexivity|].
    cbn [map length repeat]. rewrite n_link; [|exact Hp|apply Hat; left; reflexivity]. cbn [all_some]. rewrite IH; [reflexivity| |].
    - inversion Hf; assumption.
    - intros t Ht. apply Hat. right; exact Ht. }
  assert (E2 : map2 (d_dl1 n_dist p) (e_y e) fv = map Some (map (fun y => cc p * resp p y) (e_y e))).
  { apply map2_some; [congruence|]. intros a b _ Hb. apply n_dl1; auto. }
  assert (E3 : map2 (d_dl2 n_dist p) (e_y e) fv = map Some (map (fun y => - cc p) (e_y e))).
  { apply map2_some; [congruence|]. intros a b _ Hb. apply n_dl2; auto. }
  rewrite E1. cbn [bind]. rewrite E2, all_some_ok. cbn [bind]. rewrite E3, all_some_ok. cbn [bind].
  assert (E4 : map (d_dinv n_dist p) (repeat 0 (length (e_y e))) = repeat 1 (length (e_y e))).
  { rewrite map_repeat, n_dinv by exact Hp. reflexivity. }
  rewrite E4.
  assert (E5 : map2 (if u then update_weight else fit_weight) (map (fun _ => - cc p) (e_y e)) (repeat 1 (length (e_y e))) = repeat (cc p) (length (e_y e))).
  { generalize (e_y e). intros l. induction l as [|y l IH]; [reflexivity|].
    cbn [map length repeat map2]. rewrite n_weight. f_equal. exact IH. }
  rewrite E5.
  assert (E6 : map2 (fun a b : R * R => working_response (fst a) (snd a) (fst b) (snd b))
      (combine (repeat 0 (length (e_y e))) (map (fun y => cc p * resp p y) (e_y e))) (combine (repeat 1 (length (e_y e))) (repeat (cc p) (length (e_y e)))) = map Some (map (resp p) (e_y e))).
  { generalize (e_y e). intros l. induction l as [|y l IH]; [reflexivity|].
    cbn [map length repeat combine map2 fst snd]. rewrite n_response. f_equal. exact IH. }
  rewrite E6, all_some_ok. cbn [bind].
  assert (E7 : forallb (fun v => Rleb 0 v) (map2 Rmult (map2 Rmult (e_w e) (repeat (cc p) (length (e_y e)))) (forget_vector e p)) = true).
  { rewrite r_forget, <- Hlw. revert Hw. generalize (e_w e). intros l. pose proof (cc_pos p). induction l as [|y l IH]; intros Hl'; [reflexivity|].
    cbn [length repeat ones map2 forallb]. inversion Hl' as [|? ? H1 H2]; subst. unfold ones in IH. rewrite leb_t by nra. exact (IH H2). }
  rewrite E7, orb_true_r. eexists. eexists. reflexivity.
Qed.
Lemma r_deviance fv : length fv = length (e_y e) -> List.Forall at01 fv -> deviance e fv = Ok (ddev (e_y e) (e_w e)).
Proof.
  intros Hl Hf. unfold deviance. rewrite Hc. cbn [o_dist r_cfg].
  assert (Hat : forall th, In th fv -> at01 th) by (intros th Hin; exact (proj1 (List.Forall_forall _ _) Hf th Hin)).
  rewrite (map2_some _ nlp); [|congruence|intros a b Ha Hb; apply n_logpdf; auto].
  rewrite all_some_ok. reflexivity.
Qed.
End Env.

(** State of one parameter after weight [n]. *)
(** * fit *)
Lemma r_inner_fit e p s : e = start_env r_cfg r_prep r_b0 (n_X 3) -> (p < 2)%nat -> length (w_fv s) = 3%nat -> List.Forall at01 (w_fv s) ->
  w_method s p = Some tt -> nth_error (w_iter s) 0 = Some 1%nat -> w_step s 0%nat 0%nat p = 1 ->
  exists q tr, inner_fit ex_ops e p 1 s = (after_inner_fit e p 0 q (put_method p tt s), Ok (ddev (e_y e) (e_w e), tr)) /\
    c_x q 0%nat 0%nat = / (cc p * 2) /\ c_y q 0%nat = 0 /\ c_beta q 0%nat = 0 /\ c_wt q = repeat (cc p) 3 /\
    List.Forall at01 (set_col (w_fv s) p (col (c_fv q) p)) /\ length (set_col (w_fv s) p (col (c_fv q) p)) = 3%nat /\ c_path q = None /\ c_msd q = None.
Proof.
  intros He Hp Hl Hf Hm Hn Hs. assert (Hl2 : length (w_fv s) = length (e_y e)) by (subst e; exact Hl).
  assert (Hw0 : List.Forall (fun w => 0 <= w) (e_w e)) by (subst e; repeat constructor; cbn; lra).
  assert (Hdev := r_deviance e ltac:(subst e; reflexivity) (w_fv s) Hl2 Hf).
  destruct (r_working e ltac:(subst e; reflexivity) ltac:(subst e; reflexivity) ltac:(subst e; reflexivity) Hw0 false p (w_fv s) Hp Hl2 Hf) as (d1 & d2 & Hwk).
  replace (length (e_y e)) with 3%nat in Hwk by (subst e; reflexivity).
  set (g := mk_dbg (repeat (cc p) 3) (map (resp p) (e_y e)) d1 d2 (repeat 0 3) (w_fv s)) in *.
  assert (F0 : p_forget (e_prep e) p = 0) by (subst e; destruct p as [|[|]]; reflexivity).
  set (X := n_rows 3).
  assert (HX : e_X e p = (1%nat, X)) by (subst e; destruct p as [|[|]]; [reflexivity|reflexivity|lia]).
  set (xg := (fun _ _ : nat => / init_gram X (gram_weights e g) 0 0%nat 0%nat) : mat).
  set (yg := init_y_gram X (g_wv g) (gram_weights e g) 0).
  pose proof (cc_pos p) as Hcp.
  assert (Eg : gram_weights e g = [1 * cc p; 0 * cc p; 1 * cc p]) by (subst e; reflexivity).
  assert (Er : root_weights (gram_weights e g) (init_forget_vector 0 (length X)) = [sqrt (cc p); 0; sqrt (cc p)]).
  { rewrite Eg. unfold root_weights, init_forget_vector. rewrite eqb_t by lra. cbn. rewrite !Rmult_1_l, !Rmult_1_r, Rmult_0_l, sqrt_0. reflexivity. }
  assert (R2 : sqrt (cc p) * sqrt (cc p) = cc p) by (apply sqrt_sqrt; lra).
  assert (Hg : init_gram X (gram_weights e g) 0 0%nat 0%nat = cc p * 2).
  { unfold init_gram, mat_tmul, scale_rows. rewrite Er. cbn. nra. }
  assert (Hxg : xg 0%nat 0%nat = / (cc p * 2)) by (unfold xg; rewrite Hg; reflexivity).
  assert (Hyg : yg 0%nat = 0).
  { unfold yg, init_y_gram, vec_tmul, scale_rows. rewrite Er. subst e. cbn [g_wv g e_y start_env b_rows r_b0 ys map oy n_row map2 lsum fold_right X n_rows repeat].
    destruct p as [|[|]]; [| |lia]; cbn [resp]; nra. }
  assert (Hx : op_init_x ex_ops 1 X (gram_weights e g) (p_forget (e_prep e) p) = Ok xg).
  { rewrite F0. cbn [ex_ops ols_ops op_init_x]. unfold init_inverted_gram. rewrite ex_inv_one; [reflexivity|]. rewrite Hg. lra. }
  set (beta := ols_beta 1 xg yg).
  assert (Hb : beta 0%nat = 0) by (unfold beta, ols_beta, mvec; cbn [bsum]; rewrite Hyg; ring).
  destruct (n_keep p (w_fv s) 3 Hp Hl Hf) as [K1 K2].
  assert (Hd : o_dist (e_cfg e) = n_dist) by (subst e; reflexivity).
  assert (Hdev' : deviance e (set_col (w_fv s) p (map (d_inv (o_dist (e_cfg e)) p) (map2 (fun x et => 1 * dot 1 x beta + (1 - 1) * et) X (repeat 0 3)))) = Ok (ddev (e_y e) (e_w e))).
  { unfold X. rewrite zero_pred by exact Hb. rewrite Hd. apply r_deviance; [subst e; reflexivity|subst e; exact K2|exact K1]. }
  assert (Hcand := fit_candidate_run ex_ops e p 1 0 1 (ddev (e_y e) (e_w e)) (w_fv s) None s (repeat 0 3) g 1 X xg tt tt beta _
    eq_refl ltac:(subst e; reflexivity) HX Hwk Hx Hm ltac:(rewrite F0; reflexivity) Hdev').
  cbv zeta in Hcand. set (q := mk_cand _ _ _ _ _ _ _ _ _) in Hcand. fold X in Hcand.
  assert (Hin := inner_fit_run1 ex_ops e p 1 s (ddev (e_y e) (e_w e)) (w_fv s) q tt eq_refl Hdev Hn ltac:(subst e; cbn; lia) ltac:(subst e; cbn; lia) ltac:(subst e; reflexivity)).
  cbn [Nat.sub] in Hin. rewrite Hs in Hin. specialize (Hin Hcand (or_introl eq_refl)).
  eexists q, _. split; [exact Hin|]. split; [exact Hxg|]. split; [cbn [q c_y]; rewrite F0; exact Hyg|]. split; [exact Hb|].
  split; [reflexivity|].
  assert (EF : set_col (w_fv s) p (col (c_fv q) p) = set_col (w_fv s) p (map (d_inv n_dist p) (repeat 0 3))).
  { cbn [q c_fv]. unfold X. rewrite zero_pred by exact Hb. rewrite Hd.
    destruct (w_fv s) as [|t1 [|t2 [|t3 [|]]]]; try discriminate Hl.
    cbn [repeat map set_col map2 col]. unfold set_entry. rewrite Nat.eqb_refl. reflexivity. }
  rewrite EF. split; [exact K1|]. split; [exact K2|]. split; reflexivity.
Qed.

Definition r_state (n : R) (dev : R) (it : nat) (s : gam unit) : Prop :=
  exists w nt, n_work n w /\
  s = mk_gam (Some r_prep) (Some (Some (n_scaler n))) (Some 1%nat) (Some n) (Some nt)
        (Some (fun p => nth p [1%nat; 1%nat] O)) (Some (gam_isreg r_prep)) (Some w) (Some (dev, it)).

Lemma r_outer_fit fv : length fv = 3%nat -> List.Forall at01 fv ->
  exists w dv, outer_fit ex_ops (start_env r_cfg r_prep r_b0 (n_X 3)) (enough_fuel r_cfg)
    (start_work r_cfg r_prep (fun p => nth_error [tt; tt] p) fv) = (w, Ok (dv, 1%nat)) /\ n_work 2 w.
Proof.
  intros Hl Hf. set (e := start_env r_cfg r_prep r_b0 (n_X 3)).
  set (s := start_work r_cfg r_prep (fun p => nth_error [tt; tt] p) fv). set (D := ddev (e_y e) (e_w e)).
  destruct (r_inner_fit e 0 s eq_refl ltac:(lia) Hl Hf eq_refl eq_refl eq_refl) as (q0 & tr0 & H0 & X0 & Y0 & B0 & W0 & F0 & L0 & P0 & M0).
  set (s1 := after_inner_fit e 0 0 q0 (put_method 0 tt s)) in *.
  destruct (r_inner_fit e 1 s1 eq_refl ltac:(lia) L0 F0 eq_refl eq_refl eq_refl) as (q1 & tr1 & H1 & X1 & Y1 & B1 & W1 & F1 & L1 & P1 & M1).
  set (s2 := after_inner_fit e 1 0 q1 (put_method 1 tt s1)) in *.
  exists s2, D. split.
  - unfold outer_fit, bnd at 1. unfold peek at 1. unfold bnd at 1, lift at 1. change (w_fv s) with fv.
    rewrite (r_deviance e eq_refl fv Hl Hf). fold D.
    unfold enough_fuel. change (o_max_outer r_cfg + 2)%nat with 5%nat. cbn [outer_fit_loop].
    unfold bnd at 1, peek at 1. change (w_min s <=? 0)%nat with false. cbn [andb].
    unfold bnd at 1. change (p_order (e_prep e)) with [0%nat; 1%nat]. cbn [fit_cycle]. unfold bnd at 1. rewrite H0.
    unfold bnd at 1. rewrite H1. unfold ret at 1. cbn [fst]. fold D. unfold bnd at 1, peek at 1.
    change (w_min s2 <=? 1)%nat with true. cbn [andb].
    assert (Hc : outer_converged e D D = true).
    { unfold outer_converged. rewrite Rminus_diag_eq by reflexivity. rewrite Rabs_R0. rewrite (ltb_t 0) by (cbn; lra). apply orb_true_r. }
    rewrite Hc. cbn [orb]. reflexivity.
  - assert (E0 : map2 Rmult (e_w e) (c_wt q0) = [1 * cc 0; 0 * cc 0; 1 * cc 0]) by (rewrite W0; reflexivity).
    assert (E1 : map2 Rmult (e_w e) (c_wt q1) = [1 * cc 1; 0 * cc 1; 1 * cc 1]) by (rewrite W1; reflexivity).
    split; [|split; [|split; [reflexivity|split; reflexivity]]].
    + split; [exists (c_x q0); split; [reflexivity|exact X0]|]. split; [exists (c_y q0); split; [reflexivity|exact Y0]|]. split; [exact B0|].
      split.
      * change (w_sum s2 0%nat) with (Some (lsum (map2 Rmult (e_w e) (c_wt q0)))). rewrite E0. f_equal. cbn. lra.
      * change (w_mean s2 0%nat) with (mean (map2 Rmult (e_w e) (c_wt q0))). rewrite E0. unfold mean, npdiv. cbn. rewrite eqb_f by lra. eexists. reflexivity.
    + split; [exists (c_x q1); split; [reflexivity|exact X1]|]. split; [exists (c_y q1); split; [reflexivity|exact Y1]|]. split; [exact B1|].
      split.
      * change (w_sum s2 1%nat) with (Some (lsum (map2 Rmult (e_w e) (c_wt q1)))). rewrite E1. f_equal. cbn. lra.
      * change (w_mean s2 1%nat) with (mean (map2 Rmult (e_w e) (c_wt q1))). rewrite E1. unfold mean, npdiv. cbn. rewrite eqb_f by lra. eexists. reflexivity.
Qed.

Lemma r_fit : exists s1 dv, gam_fit ex_ops r_cfg r_b0 new_gam = (s1, Ok tt) /\ r_state 2 dv 1 s1.
Proof.
  set (fv := repeat ((fun k => nth k [0; 1] 0) : vec) 3).
  assert (Hm : np_mean [-1; 0; 1] = Some 0).
  { unfold np_mean, npdiv. cbn. rewrite eqb_f by lra. f_equal. field. }
  assert (Hs : np_std 1 [-1; 0; 1] = Some 1).
  { unfold np_std, np_var. rewrite Hm. cbn. unfold npdiv. rewrite eqb_f by lra. cbn. unfold npsqrt.
    replace ((((-1 - 0) * ((-1 - 0) * 1) + ((0 - 0) * ((0 - 0) * 1) + ((1 - 0) * ((1 - 0) * 1) + 0))) / (1 + 1))) with 1 by field.
    destruct (Rltb 1 0) eqn:E; [apply Rltb_true in E; lra|]. rewrite sqrt_1. reflexivity. }
  assert (Hinit : d_init n_dist [-1; 0; 1] = Ok fv).
  { cbn [n_dist shipped_default shipped d_init initial_values map]. rewrite Hm, Hs. reflexivity. }
  destruct (r_outer_fit fv eq_refl) as (w & dv & Ho & Hwk).
  { repeat constructor. }
  eexists. exists dv. split.
  - eapply (gam_fit_run ex_ops r_cfg r_b0 new_gam r_prep _ fv [1%nat; 1%nat] (n_scaler 2) (n_X 3) w dv 1); try reflexivity; try exact Hinit; try exact Ho.
    + cbn; lia.
    + cbn. unfold scaler_fit. cbn. unfold n_scaler. do 2 f_equal. lra.
  - exists w. eexists. split; [exact Hwk|]. cbn. do 2 f_equal. lra.
Qed.

