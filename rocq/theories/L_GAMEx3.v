(** A concrete run with the normal distribution and its default links: intercepts only,
    ordinary least squares. Location 0 and scale 1 are the maximum of the likelihood for
    the batches used here, and the starting values. *)
From Coq Require Import Reals List Bool Arith ZArith Lra Lia.
From Verif Require Import Base Lin Data M_Gram M_OLS M_Scaler M_Utils M_Links M_DistTable M_Dist M_Init M_State M_LM M_Equation M_GAMLSS M_GAMDist S_GAMLSS.
From Verif Require Import L_GAM1 L_GAM2 L_GAM6 L_GAMEx.
Import ListNotations.
Open Scope R_scope.

Definition n_dist : dist_ops :=
  shipped_default (fun _ => 0) (fun _ => 0) (fun _ => 0) (fun _ => (0, 1, 1)) (fun _ => (0, 1, 0, 1)) false
    (fun _ _ _ => None) (fun _ _ _ _ => Raise ValueError) Normal.
Definition n_cfg : gam_cfg unit :=
  mk_gcfg unit n_dist true (Some [(0%nat, EqIntercept); (1%nat, EqIntercept)]) (fun _ => Ok tt) (Scalar 0) (Scalar aic) (Scalar true)
    (Scalar false) (Scalar 1) None ScaleNone false 0 0 3 1 1 (1 / 1000) (1 / 1000) (1 / 1000) (1 / 1000)
    false false false.
Definition n_prep : prep :=
  mk_prep (entry [(0%nat, EqIntercept); (1%nat, EqIntercept)] EqOther) (entry [(0%nat, 0); (1%nat, 0)] 0)
    (entry [(0%nat, aic); (1%nat, aic)] aic) (entry [(0%nat, true); (1%nat, true)] true)
    (entry [(0%nat, false); (1%nat, false)] false) [(0%nat, 1); (1%nat, 1)] [0%nat; 1%nat].
Definition n_row (y w : R) : obs := mkobs (fun _ => 1) y w.
Definition n_b0 : batch := mk_batch 1 [n_row (- 1) 1; n_row 0 0; n_row 1 1].
Definition n_b1 : batch := mk_batch 1 [n_row (- 1) 1; n_row 1 1].
Definition n_b2 : batch := mk_batch 1 [n_row 1 1; n_row (- 1) 1].

Definition at01 (th : vec) : Prop := th 0%nat = 0 /\ th 1%nat = 1.
(** working weight of the two parameters *)
Definition cc (p : nat) : R := match p with O => 1 | _ => 2 end.
Definition resp (p : nat) (y : R) : R := match p with O => y | _ => (y ^ 2 - 1) / 2 end.

Lemma small_lt1 : SMALL < 1.
Proof. unfold SMALL. rewrite <- Rinv_1. apply Rinv_lt_contravar; [|]; assert (1 < 10 ^ 10) by (apply Rlt_pow_R1; [lra|lia]); lra. Qed.
Lemma rlog1 : robust_log 1 = 0.
Proof. unfold robust_log. rewrite ltb_t by apply small_lt1. apply ln_1. Qed.
Lemma rexp0 : robust_exp 0 = 1.
Proof.
  unfold robust_exp. rewrite ltb_f; [apply exp_0|]. unfold LOG_LARGE, LARGE. rewrite <- ln_1.
  left. apply ln_increasing; [lra|]. apply Rlt_pow_R1; [lra|lia].
Qed.
Lemma n_link p th : (p < 2)%nat -> at01 th -> d_link n_dist p (th p) = Some 0.
Proof. intros Hp [H0 H1]. destruct p as [|[|]]; [| |lia]; cbn; [rewrite H0; reflexivity|]. rewrite H1, rlog1. reflexivity. Qed.
Lemma n_dinv p : (p < 2)%nat -> d_dinv n_dist p 0 = 1.
Proof. intros Hp. destruct p as [|[|]]; [reflexivity|exact rexp0|lia]. Qed.
Lemma n_inv p : (p < 2)%nat -> d_inv n_dist p 0 = INR p.
Proof. intros Hp. destruct p as [|[|]]; [reflexivity|exact rexp0|lia]. Qed.
Lemma n_dl1 p y th : (p < 2)%nat -> at01 th -> d_dl1 n_dist p y th = Some (cc p * resp p y).
Proof. intros Hp [H0 H1]. cbn. unfold guarded. rewrite H0, H1, ltb_t by lra. destruct p as [|[|]]; [| |lia]; f_equal; unfold cc, resp; field. Qed.
Lemma n_dl2 p y th : (p < 2)%nat -> at01 th -> d_dl2 n_dist p y th = Some (- cc p).
Proof. intros Hp [H0 H1]. cbn. unfold guarded. rewrite H1, ltb_t by lra. destruct p as [|[|]]; [| |lia]; f_equal; unfold cc; field. Qed.
Lemma cc_pos p : 0 < cc p. Proof. destruct p; cbn; lra. Qed.
Lemma cc_le p : 1 <= cc p <= 2. Proof. destruct p; cbn; lra. Qed.
Lemma n_weight u p : (if u : bool then update_weight else fit_weight) (- cc p) 1 = cc p.
Proof.
  assert (E : raw_weight (- cc p) 1 = cc p) by (unfold raw_weight; rewrite eqb_f by lra; field).
  pose proof (cc_le p). assert (10 <= 10 ^ 10) by (rewrite <- (pow_1 10) at 1; apply Rle_pow; [lra|lia]).
  assert (1 / 10 ^ 10 <= 1).
  { unfold Rdiv. rewrite Rmult_1_l. rewrite <- Rinv_1. apply Rinv_le_contravar; lra. }
  destruct u; unfold update_weight, fit_weight, clip; rewrite E; rewrite Rmax_right by lra; apply Rmin_right; lra.
Qed.
Lemma n_response p y : working_response 0 (cc p * resp p y) 1 (cc p) = Some (resp p y).
Proof. pose proof (cc_pos p). unfold working_response. rewrite eqb_f by lra. unfold npdiv. rewrite eqb_f by lra. cbn [omap option_map]. f_equal. field. lra. Qed.
Definition nlp (y : R) : R := - y ^ 2 / 2 - ln (sqrt (2 * PI)).
Lemma n_logpdf y th : at01 th -> d_logpdf n_dist y th = Some (nlp y).
Proof.
  intros [H0 H1]. cbn. unfold scipy_logpdf_of, scipy_logpdf. cbn. rewrite H0, H1, ltb_t by lra. cbn.
  unfold nlp. rewrite ln_1. f_equal. replace ((y - 0) / 1) with y by field. cbn. lra.
Qed.

Definition ddev (ys ws : list R) : R := lsum (map2 (fun l w => - 2 * l * w) (map nlp ys) ws).

Lemma n_keep p fv k : (p < 2)%nat -> length fv = k -> List.Forall at01 fv ->
  List.Forall at01 (set_col fv p (map (d_inv n_dist p) (repeat 0 k))) /\ length (set_col fv p (map (d_inv n_dist p) (repeat 0 k))) = k.
Proof.
  intros Hp <-. rewrite map_repeat, n_inv by exact Hp. unfold set_col.
  induction 1 as [|th fv [H0 H1] _ IH]; [split; constructor|]. cbn [length repeat map2]. destruct IH as [IH1 IH2]. split; [|f_equal; exact IH2].
  constructor; [|exact IH1]. unfold at01, set_entry. destruct p as [|[|]]; [| |lia]; cbn; split; auto.
Qed.

Section Env.
Variables (e : env unit).
Hypothesis Hc : e_cfg e = n_cfg.
Hypothesis Hpr : e_prep e = n_prep.
Hypothesis Hlw : length (e_w e) = length (e_y e).
Hypothesis Hw : List.Forall (fun w => 0 <= w) (e_w e).

Lemma n_forget p : forget_vector e p = ones (length (e_y e)).
Proof.
  unfold forget_vector. rewrite Hpr. replace (p_forget n_prep p) with 0 by (destruct p as [|[|]]; reflexivity).
  unfold init_forget_vector. rewrite eqb_t by lra. reflexivity.
Qed.
Lemma n_pforget p : p_forget (e_prep e) p = 0.
Proof. rewrite Hpr. destruct p as [|[|]]; reflexivity. Qed.
Lemma n_working u p fv : (p < 2)%nat -> length fv = length (e_y e) -> List.Forall at01 fv ->
  exists d1 d2, working e u p fv = Ok (repeat 0 (length (e_y e)), mk_dbg (repeat (cc p) (length (e_y e))) (map (resp p) (e_y e)) d1 d2 (repeat 0 (length (e_y e))) fv).
Proof.
  intros Hp Hl Hf. unfold working. rewrite Hc. cbn [o_dist n_cfg].
  assert (Hat : forall th, In th fv -> at01 th) by (intros th Hin; exact (proj1 (List.Forall_forall _ _) Hf th Hin)).
  assert (E1 : all_some (map (d_link n_dist p) (col fv p)) = Ok (repeat 0 (length (e_y e)))).
  { rewrite <- Hl. clear Hl. unfold col. rewrite map_map. induction fv as [|th fv IH]; [reflexivity|].
    cbn [map length repeat]. rewrite n_link; [|exact Hp|apply Hat; left; reflexivity]. cbn [all_some]. rewrite IH; [reflexivity| |].
    - inversion Hf; assumption.
    - intros t Ht. apply Hat. right; exact Ht. }
  assert (E2 : map2 (d_dl1 n_dist p) (e_y e) fv = map Some (map (fun y => cc p * resp p y) (e_y e))).
  { apply map2_some; [congruence|]. intros a b _ Hb. apply n_dl1; auto. }
  assert (E3 : map2 (d_dl2 n_dist p) (e_y e) fv = map Some (map (fun y => - cc p) (e_y e))).
  { apply map2_some; [congruence|]. intros a b _ Hb. apply n_dl2; auto. }
  rewrite E1. cbn [bind]. rewrite E2, all_some_ok. cbn [bind]. rewrite E3, all_some_ok. cbn [bind].
  assert (E4 : map (d_dinv n_dist p) (repeat 0 (length (e_y e))) = repeat 1 (length (e_y e))).
  { rewrite map_repeat, n_dinv by exact Hp. reflexivity. }
  rewrite E4.
  assert (E5 : map2 (if u then update_weight else fit_weight) (map (fun _ => - cc p) (e_y e)) (repeat 1 (length (e_y e))) = repeat (cc p) (length (e_y e))).
  { generalize (e_y e). intros l. induction l as [|y l IH]; [reflexivity|].
    cbn [map length repeat map2]. rewrite n_weight. f_equal. exact IH. }
  rewrite E5.
  assert (E6 : map2 (fun a b : R * R => working_response (fst a) (snd a) (fst b) (snd b))
      (combine (repeat 0 (length (e_y e))) (map (fun y => cc p * resp p y) (e_y e))) (combine (repeat 1 (length (e_y e))) (repeat (cc p) (length (e_y e)))) = map Some (map (resp p) (e_y e))).
  { generalize (e_y e). intros l. induction l as [|y l IH]; [reflexivity|].
    cbn [map length repeat combine map2 fst snd]. rewrite n_response. f_equal. exact IH. }
  rewrite E6, all_some_ok. cbn [bind].
  assert (E7 : forallb (fun v => Rleb 0 v) (map2 Rmult (map2 Rmult (e_w e) (repeat (cc p) (length (e_y e)))) (forget_vector e p)) = true).
  { rewrite n_forget, <- Hlw. revert Hw. generalize (e_w e). intros l. pose proof (cc_pos p). induction l as [|y l IH]; intros Hl'; [reflexivity|].
    cbn [length repeat ones map2 forallb]. inversion Hl' as [|? ? H1 H2]; subst. unfold ones in IH. rewrite leb_t by nra. exact (IH H2). }
  rewrite E7, orb_true_r. eexists. eexists. reflexivity.
Qed.
Lemma n_deviance fv : length fv = length (e_y e) -> List.Forall at01 fv -> deviance e fv = Ok (ddev (e_y e) (e_w e)).
Proof.
  intros Hl Hf. unfold deviance. rewrite Hc. cbn [o_dist n_cfg].
  assert (Hat : forall th, In th fv -> at01 th) by (intros th Hin; exact (proj1 (List.Forall_forall _ _) Hf th Hin)).
  rewrite (map2_some _ nlp); [|congruence|intros a b Ha Hb; apply n_logpdf; auto].
  rewrite all_some_ok. reflexivity.
Qed.
End Env.

(** State of one parameter after weight [n]. *)
Definition n_param (n : R) (w : work unit) (p : nat) : Prop :=
  (exists G, w_x w p = Some G /\ G 0%nat 0%nat = / (cc p * n)) /\
  (exists h, w_y w p = Some h /\ h 0%nat = 0) /\
  w_coef w p 0%nat = 0 /\ w_sum w p = Some (cc p * n) /\ exists m, w_mean w p = Some m.
Definition n_rows (n : nat) : list vec := repeat (fun _ => 1) n.
Definition n_X (n : nat) : nat -> nat * list vec := fun p => nth p [(1%nat, n_rows n); (1%nat, n_rows n)] (O, []).
Lemma n_rows_2 : n_rows 2 = [fun _ => 1; fun _ => 1]. Proof. reflexivity. Qed.

Lemma zero_pred k (beta : vec) : beta 0%nat = 0 -> map2 (fun x et => 1 * dot 1 x beta + (1 - 1) * et) (n_rows k) (repeat 0 k) = repeat 0 k.
Proof. intros H. induction k as [|k IH]; [reflexivity|]. unfold n_rows in *. cbn [repeat map2]. rewrite IH. unfold dot. cbn [bsum]. rewrite H. f_equal. lra. Qed.
Lemma zero_pred' k (beta : vec) : beta 0%nat = 0 -> map (fun x => dot 1 x beta) (n_rows k) = repeat 0 k.
Proof. intros H. induction k as [|k IH]; [reflexivity|]. unfold n_rows in *. cbn [repeat map]. rewrite IH. unfold dot. cbn [bsum]. rewrite H. f_equal. lra. Qed.

(** * fit *)
Lemma n_inner_fit e p s : e = start_env n_cfg n_prep n_b0 (n_X 3) -> (p < 2)%nat -> length (w_fv s) = 3%nat -> List.Forall at01 (w_fv s) ->
  w_method s p = Some tt -> nth_error (w_iter s) 0 = Some 1%nat -> w_step s 0%nat 0%nat p = 1 ->
  exists q tr, inner_fit ex_ops e p 1 s = (after_inner_fit e p 0 q (put_method p tt s), Ok (ddev (e_y e) (e_w e), tr)) /\
    c_x q 0%nat 0%nat = / (cc p * 2) /\ c_y q 0%nat = 0 /\ c_beta q 0%nat = 0 /\ c_wt q = repeat (cc p) 3 /\
    List.Forall at01 (set_col (w_fv s) p (col (c_fv q) p)) /\ length (set_col (w_fv s) p (col (c_fv q) p)) = 3%nat /\ c_path q = None /\ c_msd q = None.
Proof.
  intros He Hp Hl Hf Hm Hn Hs. assert (Hl2 : length (w_fv s) = length (e_y e)) by (subst e; exact Hl).
  assert (Hw0 : List.Forall (fun w => 0 <= w) (e_w e)) by (subst e; repeat constructor; cbn; lra).
  assert (Hdev := n_deviance e ltac:(subst e; reflexivity) (w_fv s) Hl2 Hf).
  destruct (n_working e ltac:(subst e; reflexivity) ltac:(subst e; reflexivity) ltac:(subst e; reflexivity) Hw0 false p (w_fv s) Hp Hl2 Hf) as (d1 & d2 & Hwk).
  replace (length (e_y e)) with 3%nat in Hwk by (subst e; reflexivity).
  set (g := mk_dbg (repeat (cc p) 3) (map (resp p) (e_y e)) d1 d2 (repeat 0 3) (w_fv s)) in *.
  assert (F0 : p_forget (e_prep e) p = 0) by (subst e; destruct p as [|[|]]; reflexivity).
  set (X := n_rows 3).
  assert (HX : e_X e p = (1%nat, X)) by (subst e; destruct p as [|[|]]; [reflexivity|reflexivity|lia]).
  set (xg := (fun _ _ : nat => / init_gram X (gram_weights e g) 0 0%nat 0%nat) : mat).
  set (yg := init_y_gram X (g_wv g) (gram_weights e g) 0).
  pose proof (cc_pos p) as Hcp.
  assert (Eg : gram_weights e g = [1 * cc p; 0 * cc p; 1 * cc p]) by (subst e; reflexivity).
  assert (Er : root_weights (gram_weights e g) (init_forget_vector 0 (length X)) = [sqrt (cc p); 0; sqrt (cc p)]).
  { rewrite Eg. unfold root_weights, init_forget_vector. rewrite eqb_t by lra. cbn. rewrite !Rmult_1_l, !Rmult_1_r, Rmult_0_l, sqrt_0. reflexivity. }
  assert (R2 : sqrt (cc p) * sqrt (cc p) = cc p) by (apply sqrt_sqrt; lra).
  assert (Hg : init_gram X (gram_weights e g) 0 0%nat 0%nat = cc p * 2).
  { unfold init_gram, mat_tmul, scale_rows. rewrite Er. cbn. nra. }
  assert (Hxg : xg 0%nat 0%nat = / (cc p * 2)) by (unfold xg; rewrite Hg; reflexivity).
  assert (Hyg : yg 0%nat = 0).
  { unfold yg, init_y_gram, vec_tmul, scale_rows. rewrite Er. subst e. cbn [g_wv g e_y start_env b_rows n_b0 ys map oy n_row map2 lsum fold_right X n_rows repeat].
    destruct p as [|[|]]; [| |lia]; cbn [resp]; nra. }
  assert (Hx : op_init_x ex_ops 1 X (gram_weights e g) (p_forget (e_prep e) p) = Ok xg).
  { rewrite F0. cbn [ex_ops ols_ops op_init_x]. unfold init_inverted_gram. rewrite ex_inv_one; [reflexivity|]. rewrite Hg. lra. }
  set (beta := ols_beta 1 xg yg).
  assert (Hb : beta 0%nat = 0) by (unfold beta, ols_beta, mvec; cbn [bsum]; rewrite Hyg; ring).
  destruct (n_keep p (w_fv s) 3 Hp Hl Hf) as [K1 K2].
  assert (Hd : o_dist (e_cfg e) = n_dist) by (subst e; reflexivity).
  assert (Hdev' : deviance e (set_col (w_fv s) p (map (d_inv (o_dist (e_cfg e)) p) (map2 (fun x et => 1 * dot 1 x beta + (1 - 1) * et) X (repeat 0 3)))) = Ok (ddev (e_y e) (e_w e))).
  { unfold X. rewrite zero_pred by exact Hb. rewrite Hd. apply n_deviance; [subst e; reflexivity|subst e; exact K2|exact K1]. }
  assert (Hcand := fit_candidate_run ex_ops e p 1 0 1 (ddev (e_y e) (e_w e)) (w_fv s) None s (repeat 0 3) g 1 X xg tt tt beta _
    eq_refl ltac:(subst e; reflexivity) HX Hwk Hx Hm ltac:(rewrite F0; reflexivity) Hdev').
  cbv zeta in Hcand. set (q := mk_cand _ _ _ _ _ _ _ _ _) in Hcand. fold X in Hcand.
  assert (Hin := inner_fit_run1 ex_ops e p 1 s (ddev (e_y e) (e_w e)) (w_fv s) q tt eq_refl Hdev Hn ltac:(subst e; cbn; lia) ltac:(subst e; cbn; lia) ltac:(subst e; reflexivity)).
  cbn [Nat.sub] in Hin. rewrite Hs in Hin. specialize (Hin Hcand (or_introl eq_refl)).
  eexists q, _. split; [exact Hin|]. split; [exact Hxg|]. split; [cbn [q c_y]; rewrite F0; exact Hyg|]. split; [exact Hb|].
  split; [reflexivity|].
  assert (EF : set_col (w_fv s) p (col (c_fv q) p) = set_col (w_fv s) p (map (d_inv n_dist p) (repeat 0 3))).
  { cbn [q c_fv]. unfold X. rewrite zero_pred by exact Hb. rewrite Hd.
    destruct (w_fv s) as [|t1 [|t2 [|t3 [|]]]]; try discriminate Hl.
    cbn [repeat map set_col map2 col]. unfold set_entry. rewrite Nat.eqb_refl. reflexivity. }
  rewrite EF. split; [exact K1|]. split; [exact K2|]. split; reflexivity.
Qed.

Definition n_work (n : R) (w : work unit) : Prop :=
  n_param n w 0 /\ n_param n w 1 /\ w_method w 0%nat = Some tt /\ w_method w 1%nat = Some tt /\ w_min w = 1%nat.
Definition n_scaler (n : R) : scaler := mk_scaler 0 false [] (fun _ => 0) (fun _ => 0) (fun _ => 0) 0 n.
Definition n_state (n : R) (dev : R) (it : nat) (s : gam unit) : Prop :=
  exists w nt, n_work n w /\
  s = mk_gam (Some n_prep) (Some (Some (n_scaler n))) (Some 1%nat) (Some n) (Some nt)
        (Some (fun p => nth p [1%nat; 1%nat] O)) (Some (gam_isreg n_prep)) (Some w) (Some (dev, it)).

Lemma n_outer_fit fv : length fv = 3%nat -> List.Forall at01 fv ->
  exists w dv, outer_fit ex_ops (start_env n_cfg n_prep n_b0 (n_X 3)) (enough_fuel n_cfg)
    (start_work n_cfg n_prep (fun p => nth_error [tt; tt] p) fv) = (w, Ok (dv, 1%nat)) /\ n_work 2 w.
Proof.
  intros Hl Hf. set (e := start_env n_cfg n_prep n_b0 (n_X 3)).
  set (s := start_work n_cfg n_prep (fun p => nth_error [tt; tt] p) fv). set (D := ddev (e_y e) (e_w e)).
  destruct (n_inner_fit e 0 s eq_refl ltac:(lia) Hl Hf eq_refl eq_refl eq_refl) as (q0 & tr0 & H0 & X0 & Y0 & B0 & W0 & F0 & L0 & P0 & M0).
  set (s1 := after_inner_fit e 0 0 q0 (put_method 0 tt s)) in *.
  destruct (n_inner_fit e 1 s1 eq_refl ltac:(lia) L0 F0 eq_refl eq_refl eq_refl) as (q1 & tr1 & H1 & X1 & Y1 & B1 & W1 & F1 & L1 & P1 & M1).
  set (s2 := after_inner_fit e 1 0 q1 (put_method 1 tt s1)) in *.
  exists s2, D. split.
  - unfold outer_fit, bnd at 1. unfold peek at 1. unfold bnd at 1, lift at 1. change (w_fv s) with fv.
    rewrite (n_deviance e eq_refl fv Hl Hf). fold D.
    unfold enough_fuel. change (o_max_outer n_cfg + 2)%nat with 5%nat. cbn [outer_fit_loop].
    unfold bnd at 1, peek at 1. change (w_min s <=? 0)%nat with false. cbn [andb].
    unfold bnd at 1. change (p_order (e_prep e)) with [0%nat; 1%nat]. cbn [fit_cycle]. unfold bnd at 1. rewrite H0.
    unfold bnd at 1. rewrite H1. unfold ret at 1. cbn [fst]. fold D. unfold bnd at 1, peek at 1.
    change (w_min s2 <=? 1)%nat with true. cbn [andb].
    assert (Hc : outer_converged e D D = true).
    { unfold outer_converged. rewrite Rminus_diag_eq by reflexivity. rewrite Rabs_R0. rewrite (ltb_t 0) by (cbn; lra). apply orb_true_r. }
    rewrite Hc. cbn [orb]. reflexivity.
  - assert (E0 : map2 Rmult (e_w e) (c_wt q0) = [1 * cc 0; 0 * cc 0; 1 * cc 0]) by (rewrite W0; reflexivity).
    assert (E1 : map2 Rmult (e_w e) (c_wt q1) = [1 * cc 1; 0 * cc 1; 1 * cc 1]) by (rewrite W1; reflexivity).
    split; [|split; [|split; [reflexivity|split; reflexivity]]].
    + split; [exists (c_x q0); split; [reflexivity|exact X0]|]. split; [exists (c_y q0); split; [reflexivity|exact Y0]|]. split; [exact B0|].
      split.
      * change (w_sum s2 0%nat) with (Some (lsum (map2 Rmult (e_w e) (c_wt q0)))). rewrite E0. f_equal. cbn. lra.
      * change (w_mean s2 0%nat) with (mean (map2 Rmult (e_w e) (c_wt q0))). rewrite E0. unfold mean, npdiv. cbn. rewrite eqb_f by lra. eexists. reflexivity.
    + split; [exists (c_x q1); split; [reflexivity|exact X1]|]. split; [exists (c_y q1); split; [reflexivity|exact Y1]|]. split; [exact B1|].
      split.
      * change (w_sum s2 1%nat) with (Some (lsum (map2 Rmult (e_w e) (c_wt q1)))). rewrite E1. f_equal. cbn. lra.
      * change (w_mean s2 1%nat) with (mean (map2 Rmult (e_w e) (c_wt q1))). rewrite E1. unfold mean, npdiv. cbn. rewrite eqb_f by lra. eexists. reflexivity.
Qed.

Lemma n_fit : exists s1 dv, gam_fit ex_ops n_cfg n_b0 new_gam = (s1, Ok tt) /\ n_state 2 dv 1 s1.
Proof.
  set (fv := repeat ((fun k => nth k [0; 1] 0) : vec) 3).
  assert (Hm : np_mean [-1; 0; 1] = Some 0).
  { unfold np_mean, npdiv. cbn. rewrite eqb_f by lra. f_equal. field. }
  assert (Hs : np_std 1 [-1; 0; 1] = Some 1).
  { unfold np_std, np_var. rewrite Hm. cbn. unfold npdiv. rewrite eqb_f by lra. cbn. unfold npsqrt.
    replace ((((-1 - 0) * ((-1 - 0) * 1) + ((0 - 0) * ((0 - 0) * 1) + ((1 - 0) * ((1 - 0) * 1) + 0))) / (1 + 1))) with 1 by field.
    destruct (Rltb 1 0) eqn:E; [apply Rltb_true in E; lra|]. rewrite sqrt_1. reflexivity. }
  assert (Hinit : d_init n_dist [-1; 0; 1] = Ok fv).
  { cbn [n_dist shipped_default shipped d_init initial_values map]. rewrite Hm, Hs. reflexivity. }
  destruct (n_outer_fit fv eq_refl) as (w & dv & Ho & Hwk).
  { repeat constructor. }
  eexists. exists dv. split.
  - eapply (gam_fit_run ex_ops n_cfg n_b0 new_gam n_prep _ fv [1%nat; 1%nat] (n_scaler 2) (n_X 3) w dv 1); try reflexivity; try exact Hinit; try exact Ho.
    + cbn; lia.
    + cbn. unfold scaler_fit. cbn. unfold n_scaler. do 2 f_equal. lra.
  - exists w. eexists. split; [exact Hwk|]. cbn. do 2 f_equal. lra.
Qed.

(** * update *)
Definition n_pair (b : batch) : Prop := b = n_b1 \/ b = n_b2.
Lemma n_inner_update e p s isreg n b g : e = again_env n_cfg n_prep isreg n b (n_X 2) -> n_pair b -> 1 <= n -> (p < 2)%nat ->
  length (w_fv s) = 2%nat -> List.Forall at01 (w_fv s) -> n_param n s p ->
  w_method s p = Some tt -> nth_error (w_iter s) 0 = Some 1%nat ->
  exists q m, inner_update ex_ops e g p 1 s = (after_inner_update e p 0 q (cc p * n) (put_method p tt s), Ok (ddev (e_y e) (e_w e) + g)) /\
    c_x q 0%nat 0%nat = / (cc p * (n + 2)) /\ c_y q 0%nat = 0 /\ c_beta q 0%nat = 0 /\ c_wt q = repeat (cc p) 2 /\
    w_mean s p = Some m /\
    List.Forall at01 (set_col (w_fv s) p (col (c_fv q) p)) /\ length (set_col (w_fv s) p (col (c_fv q) p)) = 2%nat /\ c_path q = None /\ c_msd q = None.
Proof.
  intros He Hb0 Hn0 Hp Hl Hf ((G & HG & HGn) & (h & Hh & Hhn) & Hco & Hsum & (mw & Hmean)) Hm Hn.
  assert (Ey : exists y, (y = 1 \/ y = -1) /\ e_y e = [y; - y] /\ e_w e = [1; 1]).
  { subst e. destruct Hb0 as [-> | ->]; [exists (-1)|exists 1]; cbn; split; auto; split; try reflexivity; do 2 f_equal; try lra. }
  destruct Ey as (y & Hy & Ey & Ew).
  assert (Hlen : length (e_y e) = 2%nat) by (rewrite Ey; reflexivity).
  assert (Hl2 : length (w_fv s) = length (e_y e)) by congruence.
  assert (Hw0 : List.Forall (fun w => 0 <= w) (e_w e)) by (rewrite Ew; repeat constructor; lra).
  assert (Hdev := n_deviance e ltac:(subst e; reflexivity) (w_fv s) Hl2 Hf).
  destruct (n_working e ltac:(subst e; reflexivity) ltac:(subst e; reflexivity) ltac:(rewrite Ey, Ew; reflexivity) Hw0 true p (w_fv s) Hp Hl2 Hf) as (d1 & d2 & Hwk).
  rewrite Hlen in Hwk.
  set (gg := mk_dbg (repeat (cc p) 2) (map (resp p) (e_y e)) d1 d2 (repeat 0 2) (w_fv s)) in *.
  assert (F0 : forall p, p_forget (e_prep e) p = 0) by (subst e; intros [|[|]]; reflexivity).
  set (X := n_rows 2).
  assert (HX : e_X e p = (1%nat, X)) by (subst e; destruct p as [|[|]]; [reflexivity|reflexivity|lia]).
  pose proof (cc_pos p) as Hcp.
  assert (Eg : gram_weights e gg = [1 * cc p; 1 * cc p]) by (unfold gram_weights; rewrite Ew; reflexivity).
  set (xg := update_inverted_rows 1 G X 0 (gram_weights e gg)).
  set (yg := update_y_gram h X (g_wv gg) 0 (gram_weights e gg)).
  assert (Hxg : xg 0%nat 0%nat = / (cc p * (n + 2))).
  { unfold xg. rewrite Eg. cbn [update_inverted_rows X n_rows repeat]. unfold update_inverted_gram1, mmul, dot, outer. cbn [bsum]. rewrite HGn.
    field. repeat split; nra. }
  assert (R2 : sqrt (cc p) * sqrt (cc p) = cc p) by (apply sqrt_sqrt; lra).
  assert (Er : root_weights (gram_weights e gg) (init_forget_vector 0 (length X)) = [sqrt (cc p); sqrt (cc p)]).
  { rewrite Eg. unfold root_weights, init_forget_vector. rewrite eqb_t by lra. cbn. rewrite !Rmult_1_l, !Rmult_1_r. reflexivity. }
  assert (Hyg : yg 0%nat = 0).
  { unfold yg, update_y_gram. unfold X at 1. cbn [n_rows repeat]. change [(fun _ : nat => 1) : vec; fun _ => 1] with X.
    unfold vec_tmul, scale_rows. rewrite Er. cbn [g_wv gg]. rewrite Ey, Hhn. cbn [map map2 lsum fold_right X n_rows repeat].
    assert (y ^ 2 = 1) by (destruct Hy; subst; ring).
    destruct p as [|[|]]; [| |lia]; cbn [resp]; nra. }
  assert (Hx : op_update_x ex_ops 1 G X (p_forget (e_prep e) p) (gram_weights e gg) = Ok xg) by (rewrite F0; reflexivity).
  set (beta := ols_beta 1 xg yg).
  assert (Hb : beta 0%nat = 0) by (unfold beta, ols_beta, mvec; cbn [bsum]; rewrite Hyg; ring).
  destruct (n_keep p (w_fv s) 2 Hp Hl Hf) as [K1 K2].
  assert (Hd : o_dist (e_cfg e) = n_dist) by (subst e; reflexivity).
  assert (Hdev' : deviance e (set_col (w_fv s) p (map (d_inv (o_dist (e_cfg e)) p) (map (fun x => dot 1 x beta) X))) = Ok (ddev (e_y e) (e_w e))).
  { unfold X. rewrite zero_pred' by exact Hb. rewrite Hd. apply n_deviance; [subst e; reflexivity|congruence|exact K1]. }
  assert (Hcand := update_candidate_run ex_ops e g p 1 0 (w_fv s) s (repeat 0 2) gg 1 X G xg h tt tt beta mw _
    eq_refl ltac:(subst e; reflexivity) HX Hwk Hm HG Hh Hmean Hx ltac:(rewrite F0; reflexivity) Hdev').
  cbv zeta in Hcand. set (q := mk_cand _ _ _ _ _ _ _ _ _) in Hcand. fold X in Hcand.
  assert (Hin := inner_update_run1 ex_ops e g p 1 s (ddev (e_y e) (e_w e)) (w_fv s) q tt (cc p * n) eq_refl Hdev Hn ltac:(subst e; cbn; lia) ltac:(subst e; cbn; lia) Hcand Hsum).
  assert (E1 : (1 - p_forget (e_prep e) 0) ^ length (e_y e) * g = g) by (rewrite F0, Hlen; cbn; ring).
  assert (Edv : c_dv q = ddev (e_y e) (e_w e) + g) by (cbn [q c_dv]; rewrite E1; reflexivity).
  rewrite E1, Edv, ltb_f in Hin by lra. cbn [halve_step] in Hin.
  exists q, mw. split; [exact Hin|]. split; [exact Hxg|]. split; [cbn [q c_y]; rewrite F0; exact Hyg|]. split; [exact Hb|].
  split; [reflexivity|]. split; [exact Hmean|].
  assert (EF : set_col (w_fv s) p (col (c_fv q) p) = set_col (w_fv s) p (map (d_inv n_dist p) (repeat 0 2))).
  { cbn [q c_fv]. unfold X. rewrite zero_pred' by exact Hb. rewrite Hd.
    destruct (w_fv s) as [|t1 [|t2 [|]]]; try discriminate Hl.
    cbn [repeat map set_col map2 col]. unfold set_entry. rewrite Nat.eqb_refl. reflexivity. }
  rewrite EF. split; [exact K1|]. split; [exact K2|]. split; reflexivity.
Qed.

Lemma n_outer_update isreg n b w0 fv g : n_pair b -> 1 <= n -> length fv = 2%nat -> List.Forall at01 fv -> n_work n w0 ->
  exists w dv, outer_update ex_ops (again_env n_cfg n_prep isreg n b (n_X 2)) g (enough_fuel n_cfg)
    (restart_work n_cfg n_prep fv (w_min w0) w0) = (w, Ok (dv, 1%nat)) /\ n_work (n + 2) (commit_work w).
Proof.
  intros Hb Hn Hl Hf (N0 & N1 & M0 & M1 & Hmin). set (e := again_env n_cfg n_prep isreg n b (n_X 2)).
  set (s := restart_work n_cfg n_prep fv (w_min w0) w0). set (D := ddev (e_y e) (e_w e) + g).
  assert (Ew : e_w e = [1; 1]) by (destruct Hb as [-> | ->]; reflexivity).
  assert (Ey : length (e_y e) = 2%nat) by (destruct Hb as [-> | ->]; reflexivity).
  destruct (n_inner_update e 0 s isreg n b g eq_refl Hb Hn ltac:(lia) Hl Hf N0 M0 eq_refl) as (q0 & m0 & H0 & X0 & Y0 & B0 & W0 & E0 & F0 & L0 & P0 & Q0).
  set (s1 := after_inner_update e 0 0 q0 (cc 0 * n) (put_method 0 tt s)) in *.
  destruct (n_inner_update e 1 s1 isreg n b g eq_refl Hb Hn ltac:(lia) L0 F0 N1 M1 eq_refl) as (q1 & m1 & H1 & X1 & Y1 & B1 & W1 & E1 & F1 & L1 & P1 & Q1).
  set (s2 := after_inner_update e 1 0 q1 (cc 1 * n) (put_method 1 tt s1)) in *.
  assert (En : forall p, e_ntrain e p = n + 2).
  { intros p. unfold e, again_env. cbn [e_ntrain]. unfold effective_training_length.
    replace (p_forget n_prep p) with 0 by (destruct p as [|[|]]; reflexivity). rewrite eqb_t by lra.
    destruct Hb as [-> | ->]; cbn; lra. }
  assert (Sn : forall p q, c_wt q = repeat (cc p) 2 -> lsum (map2 Rmult (e_w e) (c_wt q)) + (1 - p_forget (e_prep e) p) * (cc p * n) = cc p * (n + 2)).
  { intros p q E. rewrite E, Ew. replace (p_forget (e_prep e) p) with 0 by (destruct p as [|[|]]; reflexivity). cbn. lra. }
  exists s2, D. split.
  - unfold outer_update, bnd at 1. unfold peek at 1. unfold bnd at 1, lift at 1. change (w_fv s) with fv.
    rewrite (n_deviance e eq_refl fv); [|congruence|exact Hf].
    assert (ED : (1 - p_forget (e_prep e) 0) ^ length (e_y e) * g + ddev (e_y e) (e_w e) = D).
    { rewrite Ey. change (p_forget (e_prep e) 0) with 0. unfold D. cbn [pow]. lra. }
    rewrite ED. unfold enough_fuel. change (o_max_outer n_cfg + 2)%nat with 5%nat. cbn [outer_update_loop].
    unfold bnd at 1, peek at 1. change (w_min s) with (w_min w0). rewrite Hmin. cbn [Nat.leb andb].
    unfold bnd at 1. change (p_order (e_prep e)) with [0%nat; 1%nat]. cbn [update_cycle]. unfold bnd at 1. rewrite H0.
    unfold bnd at 1. rewrite H1. unfold ret at 1. fold D. unfold bnd at 1, peek at 1.
    change (w_min s2) with (w_min w0). rewrite Hmin. cbn [Nat.leb andb].
    assert (Hc : outer_converged e D D = true).
    { unfold outer_converged. rewrite Rminus_diag_eq by reflexivity. rewrite Rabs_R0. rewrite (ltb_t 0) by (cbn; lra). apply orb_true_r. }
    rewrite Hc. cbn [orb]. reflexivity.
  - assert (NP : forall p, npdiv (cc p * (n + 2)) (n + 2) = Some (cc p)).
    { intros p. unfold npdiv. rewrite eqb_f by lra. f_equal. field. lra. }
    split; [|split; [|split; [reflexivity|split; [reflexivity|exact Hmin]]]].
    + split; [exists (c_x q0); split; [reflexivity|exact X0]|]. split; [exists (c_y q0); split; [reflexivity|exact Y0]|]. split; [exact B0|].
      split.
      * change (w_sum (commit_work s2) 0%nat) with (Some (lsum (map2 Rmult (e_w e) (c_wt q0)) + (1 - p_forget (e_prep e) 0) * (cc 0 * n))). rewrite (Sn 0%nat q0 W0). reflexivity.
      * exists (cc 0). change (w_mean (commit_work s2) 0%nat) with (npdiv (lsum (map2 Rmult (e_w e) (c_wt q0)) + (1 - p_forget (e_prep e) 0) * (cc 0 * n)) (e_ntrain e 0)).
        rewrite (Sn 0%nat q0 W0), En. apply NP.
    + split; [exists (c_x q1); split; [reflexivity|exact X1]|]. split; [exists (c_y q1); split; [reflexivity|exact Y1]|]. split; [exact B1|].
      split.
      * change (w_sum (commit_work s2) 1%nat) with (Some (lsum (map2 Rmult (e_w e) (c_wt q1)) + (1 - p_forget (e_prep e) 1) * (cc 1 * n))). rewrite (Sn 1%nat q1 W1). reflexivity.
      * exists (cc 1). change (w_mean (commit_work s2) 1%nat) with (npdiv (lsum (map2 Rmult (e_w e) (c_wt q1)) + (1 - p_forget (e_prep e) 1) * (cc 1 * n)) (e_ntrain e 1)).
        rewrite (Sn 1%nat q1 W1), En. apply NP.
Qed.

Lemma n_update n dev it s b : n_pair b -> 1 <= n -> n_state n dev it s ->
  exists s' dv, gam_update ex_ops n_cfg b s = (s', Ok tt) /\ n_state (n + 2) dv 1 s'.
Proof.
  intros Hb Hn (w0 & nt & Hw0 & ->).
  set (fv := map (fun i q => let eta := dot (fst (n_X 2 q)) (nth i (snd (n_X 2 q)) (fun _ => 0)) (w_coef w0 q) in
                                  d_inv n_dist q eta) (seq 0 2)).
  assert (Hfv : List.Forall at01 fv).
  { destruct Hw0 as ((_ & _ & Hco0 & _) & (_ & _ & Hco1 & _) & _).
    repeat constructor; unfold dot; cbn; rewrite ?Hco0, ?Hco1; try lra;
      (replace (0 + 1 * 0) with 0 by lra; exact rexp0). }
  destruct (n_outer_update (gam_isreg n_prep) n b w0 fv dev Hb Hn eq_refl Hfv Hw0) as (w & dv & Ho & Hwk).
  assert (Sw : lsum (ws (b_rows b)) = 2) by (destruct Hb as [-> | ->]; cbn; lra).
  eexists. exists dv. split.
  - eapply (gam_update_run ex_ops n_cfg b n n_prep fv (n_scaler n) (n_scaler (n + 2)) (n_X 2) w0 _ w dev it); try exact Ho; try reflexivity.
    + destruct Hb as [-> | ->]; cbn; lia.
    + destruct Hb as [-> | ->]; cbn; lia.
    + intros q Hq. injection Hq as <-. destruct Hb as [-> | ->]; reflexivity.
    + destruct Hb as [-> | ->]; reflexivity.
    + destruct Hb as [-> | ->]; reflexivity.
    + intros s E1 E2 E3 E4. replace (b_p b) with 1%nat by (destruct Hb as [-> | ->]; reflexivity).
      rewrite (predict_parameters_run n_cfg true 1 (Xs (b_rows b)) s (n_scaler n) n_prep (n_X 2) w0);
        try assumption; try reflexivity; try (destruct Hb as [-> | ->]; cbn; lia); try (destruct Hb as [-> | ->]; reflexivity).
      intros q Hq. rewrite E4 in Hq. now injection Hq as <-.
    + destruct Hb as [-> | ->]; cbn; unfold n_scaler, scaler_update; cbn; do 2 f_equal; lra.
    + destruct Hb as [-> | ->]; reflexivity.
  - exists (commit_work w). eexists. split; [exact Hwk|]. rewrite Sw. reflexivity.
Qed.
