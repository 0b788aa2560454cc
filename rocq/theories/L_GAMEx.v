(** A small concrete run for the examples: exponential distribution with identity link, one
    parameter with an intercept only, ordinary least squares, no forgetting. *)
From Coq Require Import Reals List Bool Arith ZArith Lra Lia.
From Verif Require Import Base Lin Data M_Gram M_OLS M_Scaler M_Utils M_Links M_DistTable M_Dist M_State M_LM M_Equation M_GAMLSS M_GAMDist.
From Verif Require Import S_Gram L_Inv L_GAM1 L_GAM2 L_GAM6.
Import ListNotations.
Open Scope R_scope.

Definition ex_dist : dist_ops :=
  shipped (fun _ => 0) (fun _ => 0) (fun _ => 0) (fun _ => (0, 1, 1)) (fun _ => (0, 1, 0, 1)) false
    (fun _ _ _ => None) (fun _ _ _ _ => Raise ValueError) Exponential [Identity].
Definition ex_cfg : gam_cfg unit :=
  mk_gcfg unit ex_dist true (Some [(0%nat, EqIntercept)]) (fun _ => Ok tt) (Scalar 0) (Scalar aic) (Scalar true)
    (Scalar false) (Scalar 1) None ScaleNone false 0 0 3 1 1 (1 / 1000) (1 / 1000) (1 / 1000) (1 / 1000)
    false false false.
(** An inversion routine, explicit for 1x1 matrices. *)
Definition ex_inv (p : nat) (G : mat) : option mat :=
  match p with
  | 1%nat => if Reqb (G 0%nat 0%nat) 0 then None else Some (fun _ _ => / G 0%nat 0%nat)
  | _ => choice_inv p G
  end.
Lemma ex_inv_one G : G 0%nat 0%nat <> 0 -> ex_inv 1 G = Some (fun _ _ => / G 0%nat 0%nat).
Proof. intros H. cbn. destruct (Reqb (G 0%nat 0%nat) 0) eqn:E; [apply Reqb_true in E; contradiction|reflexivity]. Qed.
Lemma ex_inv_spec : matinv_spec ex_inv.
Proof.
  destruct choice_inv_spec as [A B]. split; intros p G.
  - intros C. destruct p as [|[|p]]; try apply A. cbn. destruct (Reqb (G 0%nat 0%nat) 0) eqn:E; [discriminate|].
    apply Reqb_false in E. intros H. injection H as <-.
    split; intros i j Hi Hj; assert (i = 0)%nat by lia; assert (j = 0)%nat by lia; subst; unfold mmul, mid; cbn; field; exact E.
  - destruct p as [|[|p]]; try apply B. intros (C & H & _). rewrite ex_inv_one; [eexists; reflexivity|].
    intros E. specialize (H 0%nat 0%nat ltac:(lia) ltac:(lia)). unfold mmul, mid in H. cbn in H. rewrite E in H. lra.
Qed.
Definition ex_ops := ols_ops ex_inv.
Definition ex_row (y : R) : obs := mkobs (fun _ => 1) y 1.
Definition ex_b0 : batch := mk_batch 1 [ex_row (1 / 2); ex_row (3 / 2)].
Definition ex_b1 : batch := mk_batch 1 [ex_row 1].
Definition ex_bad : batch := mk_batch 1 [ex_row 1; ex_row (- 1)].

(** What the example states look like. *)
Definition ex_work (n : R) (w : work unit) : Prop :=
  w_method w 0%nat = Some tt /\
  (exists G, w_x w 0%nat = Some G /\ G 0%nat 0%nat = / n) /\
  (exists h, w_y w 0%nat = Some h /\ h 0%nat = n) /\
  w_coef w 0%nat 0%nat = 1 /\ w_sum w 0%nat = Some n /\ w_mean w 0%nat = Some 1 /\ w_min w = 1%nat.
Definition ex_prep : prep :=
  mk_prep (entry [(0%nat, EqIntercept)] EqOther) (entry [(0%nat, 0)] 0) (entry [(0%nat, aic)] aic)
    (entry [(0%nat, true)] true) (entry [(0%nat, false)] false) [(0%nat, 1)] [0%nat].
Definition ex_scaler (n : R) : scaler := mk_scaler 0 false [] (fun _ => 0) (fun _ => 0) (fun _ => 0) 0 n.
Definition ex_state (n : R) (dev : R) (it : nat) (s : gam unit) : Prop :=
  exists w nt, ex_work n w /\
  s = mk_gam (Some ex_prep) (Some (Some (ex_scaler n))) (Some 1%nat) (Some n) (Some nt)
        (Some (fun p => nth p [1%nat] O)) (Some (gam_isreg ex_prep)) (Some w) (Some (dev, it)).

Lemma ltb_t a b : a < b -> Rltb a b = true. Proof. apply Rltb_true. Qed.
Lemma ltb_f a b : b <= a -> Rltb a b = false. Proof. apply Rltb_false. Qed.
Lemma leb_t a b : a <= b -> Rleb a b = true. Proof. apply Rleb_true. Qed.
Lemma eqb_f a b : a <> b -> Reqb a b = false. Proof. apply Reqb_false. Qed.
Lemma eqb_t a b : a = b -> Reqb a b = true. Proof. apply Reqb_true. Qed.

Lemma ex_logpdf y th : 0 <= y -> th 0%nat = 1 -> d_logpdf ex_dist y th = Some (- y).
Proof.
  intros Hy Ht. cbn. unfold scipy_logpdf_of, scipy_logpdf. cbn. rewrite Ht.
  rewrite (ltb_t 0 1) by lra. rewrite (leb_t 0 ((y - 0) / 1)) by lra. cbn. rewrite ln_1. f_equal. field.
Qed.
Lemma ex_raw_weight : raw_weight (-1) 1 = 1.
Proof. unfold raw_weight. rewrite eqb_f by lra. field. Qed.
Lemma ex_clip a : a <= 1 -> clip a (10 ^ 10) 1 = 1.
Proof.
  intros H. unfold clip. rewrite Rmax_right by exact H. apply Rmin_right.
  assert (1 <= 10 ^ 10) by (apply pow_R1_Rle; lra). lra.
Qed.
Lemma ex_weight (u : bool) : (if u then update_weight else fit_weight) (-1) 1 = 1.
Proof.
  assert (1 <= 10 ^ 10) by (apply pow_R1_Rle; lra).
  destruct u; unfold update_weight, fit_weight; rewrite ex_raw_weight; apply ex_clip; try lra.
Qed.
Lemma ex_response y : working_response 1 (y - 1) 1 1 = Some y.
Proof.
  unfold working_response. rewrite eqb_f by lra. unfold npdiv. rewrite eqb_f by lra. cbn. f_equal. field.
Qed.
Lemma ex_dl1 y th : th 0%nat = 1 -> d_dl1 ex_dist 0%nat y th = Some (y - 1).
Proof. intros H. cbn. unfold guarded. rewrite H, ltb_t by lra. f_equal. field. Qed.
Lemma ex_dl2 y th : th 0%nat = 1 -> d_dl2 ex_dist 0%nat y th = Some (- 1).
Proof. intros H. cbn. unfold guarded. rewrite H, ltb_t by lra. f_equal. field. Qed.

Lemma ex_prepare : prepare ex_cfg = Ok (ex_prep, fun p => nth_error [tt] p).
Proof. reflexivity. Qed.

(** Working weights 1 and working responses y, for any number of rows of value 1. *)
Definition at_one (th : vec) : Prop := th 0%nat = 1.
Lemma ex_col fv : List.Forall at_one fv -> col fv 0 = repeat 1 (length fv).
Proof. induction 1 as [|th fv H _ IH]; cbn; [reflexivity|]. rewrite H. f_equal. exact IH. Qed.
Lemma all_some_ok {A} (l : list A) : all_some (map Some l) = Ok l.
Proof. induction l as [|a l IH]; cbn; [reflexivity|]. rewrite IH. reflexivity. Qed.
Lemma map_repeat {A B} (f : A -> B) a n : map f (repeat a n) = repeat (f a) n.
Proof. induction n; cbn; congruence. Qed.
Lemma map2_some {A B C} (f : A -> B -> option C) (g : A -> C) ls ms :
  length ls = length ms -> (forall a b, In a ls -> In b ms -> f a b = Some (g a)) ->
  map2 f ls ms = map Some (map g ls).
Proof.
  revert ms. induction ls as [|a ls IH]; intros [|b ms] Hl H; cbn in *; try reflexivity; try discriminate.
  rewrite (H a b) by auto. f_equal. apply IH; auto.
Qed.
Definition ones (n : nat) : list R := repeat 1 n.

Section Env.
Variable e : env unit.
Hypothesis Hc : e_cfg e = ex_cfg.
Hypothesis Hp : e_prep e = ex_prep.
Hypothesis Hw : e_w e = ones (length (e_y e)).
Hypothesis Hpos : forall y, In y (e_y e) -> 0 <= y.

Lemma ex_forget : forget_vector e 0 = ones (length (e_y e)).
Proof. unfold forget_vector. rewrite Hp. cbn [p_forget ex_prep entry lookup Nat.eqb]. unfold init_forget_vector. rewrite eqb_t by lra. reflexivity. Qed.
Lemma ones_mult n : map2 Rmult (ones n) (ones n) = ones n.
Proof. induction n; cbn; [reflexivity|]. f_equal; [lra|exact IHn]. Qed.

Lemma ex_working u fv : length fv = length (e_y e) -> List.Forall at_one fv ->
  exists d1 d2, working e u 0 fv = Ok (ones (length fv), mk_dbg (ones (length fv)) (e_y e) d1 d2 (ones (length fv)) fv).
Proof.
  intros Hl Hf. unfold working. rewrite Hc. cbn [o_dist ex_cfg].
  assert (E1 : all_some (map (d_link ex_dist 0) (col fv 0)) = Ok (ones (length fv))).
  { rewrite ex_col by exact Hf. rewrite map_repeat. change (d_link ex_dist 0 1) with (Some 1).
    rewrite <- (map_repeat Some). apply all_some_ok. }
  assert (Hat : forall th, In th fv -> th 0%nat = 1) by (intros th Hin; exact (proj1 (List.Forall_forall _ _) Hf th Hin)).
  assert (E2 : map2 (d_dl1 ex_dist 0) (e_y e) fv = map Some (map (fun y => y - 1) (e_y e))).
  { apply map2_some; [congruence|]. intros a b _ Hb. apply ex_dl1. auto. }
  assert (E3 : map2 (d_dl2 ex_dist 0) (e_y e) fv = map Some (map (fun y => - 1) (e_y e))).
  { apply map2_some; [congruence|]. intros a b _ Hb. apply ex_dl2. auto. }
  rewrite E1. cbn [bind]. rewrite E2, all_some_ok. cbn [bind]. rewrite E3, all_some_ok. cbn [bind].
  assert (E4 : map (d_dinv ex_dist 0) (ones (length fv)) = ones (length fv)).
  { unfold ones. rewrite map_repeat. reflexivity. }
  rewrite E4.
  assert (E5 : map2 (if u then update_weight else fit_weight) (map (fun _ => -1) (e_y e)) (ones (length fv)) = ones (length fv)).
  { rewrite Hl. generalize (e_y e). intros l. induction l as [|y l IH]; [reflexivity|].
    cbn [map length ones repeat map2]. rewrite ex_weight. f_equal. exact IH. }
  rewrite E5.
  assert (E6 : map2 (fun a b : R * R => working_response (fst a) (snd a) (fst b) (snd b))
      (combine (ones (length fv)) (map (fun y => y - 1) (e_y e))) (combine (ones (length fv)) (ones (length fv))) = map Some (e_y e)).
  { rewrite Hl. generalize (e_y e). intros l. induction l as [|y l IH]; [reflexivity|].
    cbn [map length ones repeat combine map2 fst snd]. rewrite ex_response. f_equal. exact IH. }
  rewrite E6, all_some_ok. cbn [bind].
  assert (E7 : forallb (fun v => Rleb 0 v) (map2 Rmult (map2 Rmult (e_w e) (ones (length fv))) (forget_vector e 0)) = true).
  { rewrite Hw, ex_forget, Hl, !ones_mult. generalize (length (e_y e)). intros n. induction n; cbn; [reflexivity|].
    rewrite leb_t by lra. exact IHn. }
  rewrite E7, orb_true_r. eexists. eexists. reflexivity.
Qed.
Lemma ex_deviance fv : length fv = length (e_y e) -> List.Forall at_one fv ->
  deviance e fv = Ok (2 * lsum (e_y e)).
Proof.
  intros Hl Hf. unfold deviance. rewrite Hc. cbn [o_dist ex_cfg].
  assert (Hat : forall th, In th fv -> th 0%nat = 1) by (intros th Hin; exact (proj1 (List.Forall_forall _ _) Hf th Hin)).
  rewrite (map2_some _ (fun y => - y)); [|congruence|intros a b Ha Hb; apply ex_logpdf; auto].
  rewrite all_some_ok. cbn [bind]. f_equal. rewrite Hw. generalize (e_y e). intros l.
  induction l as [|y l IH]; cbn; [lra|]. cbn in IH. unfold ones in IH. rewrite IH. lra.
Qed.
End Env.


Lemma next0_half : next0 <= / 2.
Proof.
  unfold next0. assert (A : powerRZ 2 (-1074) = powerRZ 2 (-53) * powerRZ 2 (-1021)).
  { rewrite <- powerRZ_add by lra. reflexivity. }
  assert (B : powerRZ 2 (-53) <= / 2).
  { change (powerRZ 2 (-53)) with (/ 2 ^ 53). apply Rinv_le_contravar; lra. }
  assert (C : 0 < powerRZ 2 (-53)) by (apply powerRZ_lt; lra).
  assert (D : powerRZ 2 (-1021) <= 1).
  { change (powerRZ 2 (-1021)) with (/ 2 ^ Pos.to_nat 1021).
    rewrite <- Rinv_1. apply Rinv_le_contravar; [lra|]. apply pow_R1_Rle. lra. }
  rewrite A. nra.
Qed.
Lemma ex_below y : / 2 <= y -> below y (d_lo ex_dist) = false.
Proof. intros H. pose proof next0_half. apply ltb_f. lra. Qed.

(** * fit *)
Definition ex_X (n : nat) : nat -> nat * list vec := fun p => nth p [(1%nat, repeat (fun _ => 1) n)] (O, []).
Lemma Rinv_eq a b : a = b -> / a = / b. Proof. congruence. Qed.
Lemma root1 : sqrt (1 * 1 * 1) = 1. Proof. replace (1 * 1 * 1) with 1 by lra. apply sqrt_1. Qed.
Lemma root1' : sqrt (1 * 1) = 1. Proof. replace (1 * 1) with 1 by lra. apply sqrt_1. Qed.

Lemma ex_outer_fit fv : length fv = 2%nat -> List.Forall at_one fv ->
  exists w, outer_fit ex_ops (start_env ex_cfg ex_prep ex_b0 (ex_X 2)) (enough_fuel ex_cfg)
    (start_work ex_cfg ex_prep (fun p => nth_error [tt] p) fv) = (w, Ok (4, 1%nat)) /\ ex_work 2 w.
Proof.
  intros Hl Hf. set (e := start_env ex_cfg ex_prep ex_b0 (ex_X 2)).
  set (s := start_work ex_cfg ex_prep (fun p => nth_error [tt] p) fv).
  assert (Hw : e_w e = ones (length (e_y e))) by reflexivity.
  assert (Hy : forall y, In y (e_y e) -> 0 <= y) by (cbn; intros y [<-|[<-|[]]]; lra).
  assert (D4 : 2 * lsum (e_y e) = 4) by (cbn; lra).
  assert (Hdev : deviance e fv = Ok 4).
  { rewrite (ex_deviance e eq_refl Hw Hy); [f_equal; exact D4|exact Hl|exact Hf]. }
  destruct (ex_working e eq_refl eq_refl Hw false fv Hl Hf) as (d1 & d2 & Hwk). rewrite Hl in Hwk.
  set (g := mk_dbg (ones 2) (e_y e) d1 d2 (ones 2) fv) in *.
  set (xg := (fun _ _ : nat => / init_gram (repeat (fun _ => 1) 2) (gram_weights e g) 0 0%nat 0%nat) : mat).
  set (yg := init_y_gram (repeat (fun _ => 1) 2) (g_wv g) (gram_weights e g) 0).
  assert (Hxg : forall i j, xg i j = / 2).
  { intros i j. unfold xg. apply Rinv_eq. unfold init_gram, mat_tmul, scale_rows, root_weights, gram_weights, init_forget_vector.
    rewrite eqb_t by lra. cbn. rewrite !root1. lra. }
  assert (Hyg : forall i, yg i = 2).
  { intros i. unfold yg, init_y_gram, vec_tmul, scale_rows, root_weights, gram_weights, init_forget_vector.
    rewrite eqb_t by lra. cbn. rewrite !root1. lra. }
  assert (Hx : op_init_x ex_ops 1 (repeat (fun _ => 1) 2) (gram_weights e g) 0 = Ok xg).
  { cbn [ex_ops ols_ops op_init_x]. unfold init_inverted_gram. rewrite ex_inv_one; [reflexivity|].
    specialize (Hxg 0%nat 0%nat). unfold xg in Hxg. intros E0. rewrite E0, Rinv_0 in Hxg. lra. }
  set (beta := ols_beta 1 xg yg).
  assert (Hb : forall i, beta i = 1) by (intros i; unfold beta, ols_beta, mvec; cbn [bsum]; rewrite Hxg, Hyg; field).
  set (pred := map2 (fun x et => 1 * dot 1 x beta + (1 - 1) * et) (repeat (fun _ => 1) 2) (ones 2)).
  assert (Hpred : pred = ones 2).
  { unfold pred. cbn [map2 repeat ones]. unfold dot. cbn [bsum]. rewrite Hb. f_equal; [lra|f_equal; lra]. }
  set (fv' := set_col fv 0 (map (d_inv ex_dist 0) pred)).
  assert (Hf' : List.Forall at_one fv' /\ length fv' = 2%nat).
  { unfold fv'. rewrite Hpred. destruct fv as [|a [|b [|]]]; try discriminate. cbn. split; [|reflexivity]. repeat constructor. }
  destruct Hf' as [Hf' Hl'].
  assert (Hdev' : deviance e fv' = Ok 4).
  { rewrite (ex_deviance e eq_refl Hw Hy); [f_equal; exact D4|exact Hl'|exact Hf']. }
  assert (Hcand := fit_candidate_run ex_ops e 0 1 0 1 4 fv None s (ones 2) g 1 (repeat (fun _ => 1) 2) xg tt tt beta 4
    eq_refl eq_refl eq_refl Hwk Hx eq_refl eq_refl Hdev').
  fold pred in Hcand. cbn zeta in Hcand.
  set (q := mk_cand _ _ _ _ _ _ _ _ _) in Hcand.
  assert (Hin := inner_fit_run1 ex_ops e 0 1 s 4 fv q tt eq_refl Hdev eq_refl ltac:(cbn; lia) ltac:(cbn; lia) eq_refl Hcand (or_introl eq_refl)).
  exists (after_inner_fit e 0 0 q (put_method 0 tt s)). split.
  - unfold outer_fit, bnd at 1. unfold peek at 1. unfold bnd at 1, lift at 1. change (w_fv s) with fv. rewrite Hdev.
    unfold enough_fuel. change (o_max_outer ex_cfg + 2)%nat with 5%nat. cbn [outer_fit_loop].
    unfold bnd at 1, peek at 1. change (w_min s <=? 0)%nat with false. cbn [andb].
    unfold bnd at 1. change (p_order (e_prep e)) with [0%nat]. cbn [fit_cycle]. unfold bnd at 1. rewrite Hin.
    unfold ret at 1. cbn [fst]. unfold bnd at 1, peek at 1.
    change (w_min (after_inner_fit e 0 0 q (put_method 0 tt s)) <=? 1)%nat with true. cbn [andb].
    change (c_dv q) with 4.
    assert (Hc : outer_converged e 4 4 = true).
    { unfold outer_converged, rel_close. rewrite Rminus_diag_eq by reflexivity. rewrite Rabs_R0.
      rewrite eqb_f by lra. rewrite ltb_t; [reflexivity|]. cbn. unfold Rdiv at 1. rewrite Rmult_0_l. lra. }
    rewrite Hc. cbn [orb]. reflexivity.
  - repeat split.
    + exists xg. split; [reflexivity|apply Hxg].
    + exists yg. split; [reflexivity|apply Hyg].
    + exact (Hb 0%nat).
    + cbn. f_equal. lra.
    + cbn. unfold mean, npdiv. cbn. rewrite eqb_f by lra. f_equal. field.
Qed.

Lemma ex_fit : exists s1, gam_fit ex_ops ex_cfg ex_b0 new_gam = (s1, Ok tt) /\ ex_state 2 4 1 s1.
Proof.
  set (fv := [fun k => nth k [1] 0; fun k => nth k [1] 0] : list vec).
  assert (Hinit : d_init ex_dist [1 / 2; 3 / 2] = Ok fv).
  { cbn. unfold M_Init.np_mean, npdiv. cbn. rewrite eqb_f by lra. cbn.
    replace ((1 / 2 + (3 / 2 + 0)) / (1 + 1)) with 1 by lra. reflexivity. }
  destruct (ex_outer_fit fv eq_refl) as (w & Ho & Hwk).
  { repeat constructor. }
  eexists. split.
  - eapply (gam_fit_run ex_ops ex_cfg ex_b0 new_gam ex_prep _ fv [1%nat] (ex_scaler 2) (ex_X 2) w 4 1); try reflexivity; try exact Hinit; try exact Ho.
    + cbn; lia.
    + cbn [existsb b_rows ex_b0 oy ex_row o_dist ex_cfg]. rewrite !ex_below by lra. reflexivity.
    + cbn. unfold scaler_fit. cbn. unfold ex_scaler. do 2 f_equal. lra.
  - exists w. eexists. split; [exact Hwk|]. cbn. do 2 f_equal. lra.
Qed.

(** * update *)
Lemma ex_outer_update n w0 isreg fv dev : 1 <= n -> length fv = 1%nat -> List.Forall at_one fv -> ex_work n w0 ->
  exists w, outer_update ex_ops (again_env ex_cfg ex_prep isreg n ex_b1 (ex_X 1)) dev (enough_fuel ex_cfg)
    (restart_work ex_cfg ex_prep fv (w_min w0) w0) = (w, Ok (2 + dev, 1%nat)) /\ ex_work (n + 1) (commit_work w).
Proof.
  intros Hn Hl Hf (Hm & (G & HG & HGn) & (h & Hh & Hhn) & Hco & Hsum & Hmean & Hmin).
  set (e := again_env ex_cfg ex_prep isreg n ex_b1 (ex_X 1)).
  set (s := restart_work ex_cfg ex_prep fv (w_min w0) w0).
  assert (Hw : e_w e = ones (length (e_y e))) by reflexivity.
  assert (Hy : forall y, In y (e_y e) -> 0 <= y) by (cbn; intros y [<-|[]]; lra).
  assert (D2 : 2 * lsum (e_y e) = 2) by (cbn; lra).
  assert (Hdev : deviance e fv = Ok 2).
  { rewrite (ex_deviance e eq_refl Hw Hy); [f_equal; exact D2|exact Hl|exact Hf]. }
  destruct (ex_working e eq_refl eq_refl Hw true fv Hl Hf) as (d1 & d2 & Hwk). rewrite Hl in Hwk.
  set (g := mk_dbg (ones 1) (e_y e) d1 d2 (ones 1) fv) in *.
  set (xg := update_inverted_gram1 1 G (fun _ => 1) 0 (1 * 1)).
  set (yg := update_y_gram h (repeat (fun _ => 1) 1) (g_wv g) 0 (gram_weights e g)).
  assert (Hxg : xg 0%nat 0%nat = / (n + 1)).
  { unfold xg, update_inverted_gram1, mmul, dot, outer. cbn [bsum]. rewrite HGn. field. lra. }
  assert (Hyg : yg 0%nat = n + 1).
  { unfold yg. cbn. rewrite Hhn. lra. }
  set (beta := ols_beta 1 xg yg).
  assert (Hb : beta 0%nat = 1) by (unfold beta, ols_beta, mvec; cbn [bsum]; rewrite Hxg, Hyg; field; lra).
  set (pred := map (fun x => dot 1 x beta) (repeat (fun _ => 1) 1)).
  assert (Hpred : pred = ones 1).
  { unfold pred. cbn [map repeat ones]. unfold dot. cbn [bsum]. rewrite Hb. f_equal; lra. }
  set (fv' := set_col fv 0 (map (d_inv ex_dist 0) pred)).
  assert (Hf' : List.Forall at_one fv' /\ length fv' = 1%nat).
  { unfold fv'. rewrite Hpred. destruct fv as [|a [|b]]; try discriminate. cbn. split; [|reflexivity]. repeat constructor. }
  destruct Hf' as [Hf' Hl'].
  assert (Hdev' : deviance e fv' = Ok 2).
  { rewrite (ex_deviance e eq_refl Hw Hy); [f_equal; exact D2|exact Hl'|exact Hf']. }
  assert (Hcand := update_candidate_run ex_ops e dev 0 1 0 fv s (ones 1) g 1 (repeat (fun _ => 1) 1) G xg h tt tt beta 1 2
    eq_refl eq_refl eq_refl Hwk Hm HG Hh Hmean eq_refl eq_refl Hdev').
  fold pred in Hcand. cbn zeta in Hcand.
  set (q := mk_cand _ _ _ _ _ _ _ _ _) in Hcand.
  assert (Hin := inner_update_run1 ex_ops e dev 0 1 s 2 fv q tt n eq_refl Hdev eq_refl ltac:(cbn; lia) ltac:(cbn; lia) Hcand Hsum).
  assert (Hdv : c_dv q = 2 + dev) by (cbn; lra).
  assert (Hl1 : 2 + (1 - p_forget (e_prep e) 0) ^ length (e_y e) * dev = 2 + dev) by (cbn; lra).
  rewrite Hl1, Hdv, ltb_f in Hin by lra. cbn [halve_step] in Hin.
  set (w' := after_inner_update e 0 0 q n (put_method 0 tt s)) in Hin.
  assert (Hc : outer_converged e (2 + dev) (2 + dev) = true).
  { unfold outer_converged. rewrite Rminus_diag_eq by reflexivity. rewrite Rabs_R0.
    rewrite (ltb_t 0) by (cbn; lra). apply orb_true_r. }
  exists w'. split.
  - unfold outer_update, bnd at 1. unfold peek at 1. unfold bnd at 1, lift at 1. change (w_fv s) with fv. rewrite Hdev.
    unfold enough_fuel. change (o_max_outer ex_cfg + 2)%nat with 5%nat. cbn [outer_update_loop].
    unfold bnd at 1, peek at 1. change (w_min s) with (w_min w0). rewrite Hmin. cbn [Nat.leb andb].
    unfold bnd at 1. change (p_order (e_prep e)) with [0%nat]. cbn [update_cycle]. unfold bnd at 1. rewrite Hin.
    unfold ret at 1. unfold bnd at 1, peek at 1.
    change (w_min w') with (w_min w0). rewrite Hmin. cbn [Nat.leb andb].
    replace ((1 - p_forget (e_prep e) 0) ^ length (e_y e) * dev + 2) with (2 + dev) by (cbn; lra).
    rewrite Hc. cbn [orb]. reflexivity.
  - repeat split.
    + exists xg. split; [reflexivity|exact Hxg].
    + exists yg. split; [reflexivity|exact Hyg].
    + exact Hb.
    + cbn. f_equal. lra.
    + cbn. unfold npdiv.
      assert (En : n + lsum (ws (b_rows ex_b1)) = n + 1) by (cbn; lra).
      unfold effective_training_length. rewrite (eqb_t 0 0) by reflexivity.
      cbn in En. rewrite En. rewrite eqb_f by lra. f_equal. field. lra.
    + exact Hmin.
Qed.

Lemma ex_update n dev it s : 1 <= n -> ex_state n dev it s ->
  exists s', gam_update ex_ops ex_cfg ex_b1 s = (s', Ok tt) /\ ex_state (n + 1) (2 + dev) 1 s'.
Proof.
  intros Hn (w0 & nt & Hw0 & ->).
  set (fv := map (fun i q => let eta := dot (fst (ex_X 1 q)) (nth i (snd (ex_X 1 q)) (fun _ => 0)) (w_coef w0 q) in
                                  d_inv ex_dist q eta) (seq 0 1)).
  assert (Hfv : List.Forall at_one fv).
  { constructor; [|constructor]. unfold at_one. destruct Hw0 as (_ & _ & _ & Hco & _).
    cbn. unfold dot. cbn [bsum]. rewrite Hco. lra. }
  destruct (ex_outer_update n w0 (gam_isreg ex_prep) fv dev Hn eq_refl Hfv Hw0) as (w & Ho & Hwk).
  eexists. split.
  - eapply (gam_update_run ex_ops ex_cfg ex_b1 n ex_prep fv (ex_scaler n) (ex_scaler (n + 1)) (ex_X 1) w0 _ w dev it); try reflexivity; try exact Ho.
    + intros q Hq. now injection Hq as <-.
    + cbn [existsb b_rows ex_b1 oy ex_row o_dist ex_cfg]. rewrite !ex_below by lra. reflexivity.
    + intros s E1 E2 E3 E4. change (b_p ex_b1) with 1%nat. rewrite (predict_parameters_run ex_cfg true 1 (Xs (b_rows ex_b1)) s (ex_scaler n) ex_prep (ex_X 1) w0);
        try assumption; try reflexivity; try (cbn; lia).
      intros q Hq. rewrite E4 in Hq. now injection Hq as <-.
    + cbn. unfold ex_scaler, scaler_update. cbn. do 2 f_equal. lra.
  - exists (commit_work w). eexists. split; [exact Hwk|]. f_equal. f_equal. cbn. lra.
Qed.
