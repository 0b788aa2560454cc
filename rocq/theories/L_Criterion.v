(** Lemmas: the criterion only chooses among the rows of the path. *)
From Coq Require Import Reals List Bool Arith Lra Lia.
From Verif Require Import Base Lin Data M_Gram M_Scaler M_Utils S_Utils L_Utils M_State M_LM S_LM S_Criterion L_LM L_LM2.
Import ListNotations.
Open Scope R_scope.

Lemma ll_array_any k n ps lls : k <> aicc -> exists v, from_ll_array k n ps lls = Ok v /\ length v = length (map2 (fun _ _ => tt) ps lls).
Proof.
  intros Hk.
  assert (E : exists v, sequence (map2 (from_ll k n) ps lls) = Ok v /\ length v = length (map2 (fun _ _ => tt) ps lls)).
  { revert lls. induction ps as [|p ps IH]; intros [|l lls]; try (exists []; split; reflexivity).
    destruct (IH lls) as (v & E & L). cbn [map2 sequence].
    assert (exists a, from_ll k n p l = Ok a) as [a ->] by (unfold from_ll; destruct k; eauto; contradiction).
    cbn [bind]. rewrite E. cbn [bind]. eexists. split; [reflexivity|]. cbn. now rewrite L. }
  destruct k; try exact E. contradiction.
Qed.
Lemma choice_any k k' n p path rss ic i : k' <> aicc -> length rss = length path ->
  from_rss_array k n (map (n_nonzero p) path) rss = Ok ic -> argmin ic = Ok i ->
  exists ic' i', from_rss_array k' n (map (n_nonzero p) path) rss = Ok ic' /\ argmin ic' = Ok i'.
Proof.
  intros Hk L E Ei. pose proof (from_rss_array_spec k n p path rss ic L E) as ->.
  unfold from_rss_array. destruct (ll_array_any k' n (map (n_nonzero p) path) (map (fun rss => - n / 2 * ln (rss / n) + - n / 2 * (1 + ln (2 * PI))) rss) Hk) as (v & -> & Lv).
  destruct path as [|b path]; [discriminate|]. destruct rss as [|r rss]; [discriminate|]. destruct v as [|a v]; [discriminate|].
  exists (a :: v). eexists. split; reflexivity.
Qed.

Section Two.
Context {M : Type} (ops : method_ops M) (c : lm_cfg M) (k : criterion).
Hypothesis Hp : op_path_based ops = true.
Hypothesis Hk : k <> aicc.
Notation c' := (with_ic k c).

Lemma fit_ic b s s' t : lm_fit ops c b s = (t, Ok tt) -> exists t', lm_fit ops c' b s' = (t', Ok tt) /\ same_but_coef t t'.
Proof.
  intros H. apply lm_fit_ok in H. cbv zeta in H.
  destruct H as (m & sc & xg & H1 & H2 & H3 & H4 & H5 & H6 & H7 & H8 & [H|[H _]]); [|congruence].
  destruct H as (_ & m' & path & ic & i & E & Hi & Ha & ->).
  destruct (choice_any _ k _ _ _ _ _ _ Hk (map_length _ _) Hi Ha) as (ic' & i' & Hi' & Ha').
  destruct (lm_fit_intro ops c' b s' m sc xg H1 H2 H3 H4 H5 H6 H7 H8) as [Q _].
  specialize (Q m' path ic' i' Hp E Hi' Ha'). eexists. split; [exact Q|reflexivity].
Qed.
Lemma update_ic b s s' t : same_but_coef s s' -> a_nfin s = Some (b_p b) -> lm_update ops c b s = (t, Ok tt) ->
  exists t', lm_update ops c' b s' = (t', Ok tt) /\ same_but_coef t t'.
Proof.
  intros HS Hn H. apply lm_update_ok in H. cbv zeta in H.
  destruct H as (n0 & sc0 & sc & m & x0 & y0 & xg & isreg & A1 & A2 & A3 & A4 & A5 & A6 & A7 & A8 & A9 & A10 & A11 & A12 & [H|[H _]]); [|congruence].
  destruct H as (_ & m' & path0 & rss0 & path & ic & i & B1 & B2 & B3 & B4 & Hi & Ha & ->).
  assert (El : length (map2 (fun r0 r1 => (1 - c_forget c) * r0 + r1) rss0
     (map (rss_update (n_cols (c_icpt c) (b_p b)) (design_rows c sc (b_rows b))) path)) = length path).
  { rewrite map2_length; rewrite ?map_length; auto. }
  destruct (choice_any _ k _ _ _ _ _ _ Hk El Hi Ha) as (ic' & i' & Hi' & Ha').
  revert HS. unfold same_but_coef at 1. generalize (a_coef s') as co. intros co ->.
  destruct (lm_update_intro ops c' b (mk_lm (a_method s) (a_scaler s) (a_nfin s) (a_nobs s) (a_nfeat s) (a_ntrain s)
         (a_isreg s) (a_x s) (a_y s) (a_path s) (a_rss s) co) n0 sc0 sc m x0 y0 xg isreg A1 A2 A3 A4 A5 A6 A7 A8 Hn A10 A11 A12) as [Q _].
  specialize (Q m' path0 rss0 path ic' i' Hp B1 B2 B3 B4 Hi' Ha'). eexists. split; [exact Q|reflexivity].
Qed.
Lemma nfin_fit b s t : lm_fit ops c b s = (t, Ok tt) -> a_nfin t = Some (b_p b) /\ a_nobs t <> None.
Proof.
  intros H. apply lm_fit_ok in H. cbv zeta in H.
  destruct H as (m & sc & xg & H1 & H2 & H3 & H4 & H5 & H6 & H7 & H8 & [H|[H _]]); [|congruence].
  destruct H as (_ & m' & path & ic & i & E & Hi & Ha & ->). split; [reflexivity|discriminate].
Qed.
Lemma nfin_update b s t q : a_nfin s = Some q -> lm_update ops c b s = (t, Ok tt) -> q = b_p b /\ a_nfin t = Some q /\ a_nobs t <> None.
Proof.
  intros Hn H. apply lm_update_ok in H. cbv zeta in H.
  destruct H as (n0 & sc0 & sc & m & x0 & y0 & xg & isreg & A1 & A2 & A3 & A4 & A5 & A6 & A7 & A8 & A9 & A10 & A11 & A12 & [H|[H _]]); [|congruence].
  destruct H as (_ & m' & path0 & rss0 & path & ic & i & B1 & B2 & B3 & B4 & Hi & Ha & ->). split; [now apply A9|]. split; [exact Hn|discriminate].
Qed.
(** The runs in step, from a fitted state. *)
Lemma updates_ic bs : forall s s' t q, same_but_coef s s' -> a_nfin s = Some q -> a_nobs s <> None -> lm_history ops c bs s = Ok t ->
  exists t', lm_history ops c' bs s' = Ok t' /\ same_but_coef t t' /\ a_nfin t = Some q.
Proof.
  induction bs as [|b bs IH]; intros s s' t q HS Hq Hn H; cbn [lm_history] in *.
  - injection H as <-. eauto.
  - assert (En : a_nobs s' = a_nobs s) by (rewrite HS; reflexivity).
    unfold partial_fit, is_fitted in *. rewrite En. destruct (a_nobs s); [|contradiction].
    destruct (lm_update ops c b s) as [s1 [[]|]] eqn:E; [|discriminate].
    destruct (nfin_update b s s1 q Hq E) as (Eq & Q1 & Q2).
    destruct (update_ic b s s' s1 HS ltac:(congruence) E) as (s1' & -> & HS1). eauto.
Qed.
Lemma C126_only_lemma b bs s : lm_history ops c (b :: bs) new_lm = Ok s ->
  exists s', lm_history ops c' (b :: bs) new_lm = Ok s' /\ same_but_coef s s' /\ a_nfin s = Some (b_p b).
Proof.
  cbn [lm_history]. unfold partial_fit. change (is_fitted (@new_lm M)) with false. cbv iota.
  destruct (lm_fit ops c b new_lm) as [s1 [[]|]] eqn:E; [|discriminate]. intros H.
  destruct (fit_ic b new_lm new_lm s1 E) as (s1' & -> & HS). destruct (nfin_fit b new_lm s1 E) as [Q1 Q2].
  destruct (updates_ic bs s1 s1' s (b_p b) HS Q1 Q2 H) as (t' & A & B & D). eauto.
Qed.
End Two.

(** The chosen row after any history. *)
Lemma history_selected {M} (ops : method_ops M) c b bs s : op_path_based ops = true -> lm_history ops c (b :: bs) new_lm = Ok s ->
  selected_row (c_ic c) (n_cols (c_icpt c) (b_p b)) s.
Proof.
  intros Hp. cbn [lm_history]. unfold partial_fit at 1. change (is_fitted (@new_lm M)) with false. cbv iota.
  destruct (lm_fit ops c b new_lm) as [s1 [[]|]] eqn:E; [|discriminate]. intros H.
  pose proof (C50_fit_lemma ops c b _ _ Hp E) as HR. destruct (nfin_fit ops c Hp b new_lm s1 E) as [Q1 Q2]. clear E.
  revert s1 HR Q1 Q2 H. induction bs as [|d bs IH]; intros s1 HR Q1 Q2 H; cbn [lm_history] in H.
  - now injection H as <-.
  - unfold partial_fit at 1, is_fitted in H. destruct (a_nobs s1); [|contradiction].
    destruct (lm_update ops c d s1) as [s2 [[]|]] eqn:E; [|discriminate].
    destruct (nfin_update ops c Hp d s1 s2 (b_p b) Q1 E) as (Eq & Q1' & Q2').
    apply (IH s2); auto. rewrite Eq. exact (C50_update_lemma ops c d _ _ Hp E).
Qed.

Lemma nth_map2_gen {A B C} (f : A -> B -> C) l l' i d a b : (i < length l)%nat -> length l = length l' ->
  nth i (map2 f l l') d = f (nth i l a) (nth i l' b).
Proof.
  revert l' i. induction l as [|x l IH]; intros [|y l'] [|i] H E; cbn in *; try lia; [reflexivity|]. apply IH; lia.
Qed.
Lemma ic_charge k n q r : k <> aicc -> ic_value k n q r = (if match k with max_ll => true | _ => false end then / 2 else 1) *
  (n * (ln (2 * PI) + ln (r / n) + 1) + charge k n * q).
Proof. unfold ic_value, charge. destruct k; intros H; try contradiction; cbv zeta; field. Qed.

Lemma C126_heavier_lemma {M} (ops : method_ops M) c k b bs s s' n rss : op_path_based ops = true -> c_ic c <> aicc -> k <> aicc ->
  lm_history ops c (b :: bs) new_lm = Ok s -> lm_history ops (with_ic k c) (b :: bs) new_lm = Ok s' ->
  a_ntrain s = Some n -> 0 < n -> a_rss s = Some rss -> Forall (fun r => 0 < r) rss ->
  0 <= charge (c_ic c) n < charge k n ->
  exists path i i', a_path s = Some path /\ (i < length path)%nat /\ (i' < length path)%nat /\
    a_coef s = Some (nth i path (fun _ => 0)) /\ a_coef s' = Some (nth i' path (fun _ => 0)) /\
    let p := n_cols (c_icpt c) (b_p b) in
    (length (active p (nth i' path (fun _ => 0%R))) <= length (active p (nth i path (fun _ => 0%R))))%nat /\
    nth i rss 0 <= nth i' rss 0.
Proof.
  intros Hp Hc Hk H H' En Hn Er HF Hch.
  destruct (history_selected ops c b bs s Hp H) as (path & rss1 & n1 & i & P1 & P2 & P3 & P4 & P5 & P6).
  destruct (history_selected ops (with_ic k c) b bs s' Hp H') as (path' & rss' & n' & i' & P1' & P2' & P3' & P4' & P5' & P6').
  destruct (C126_only_lemma ops c k Hp Hk b bs s H) as (s2 & E2 & HS & _). rewrite H' in E2. injection E2 as <-.
  rewrite HS in P1', P2', P3'. cbn in P1', P2', P3'.
  rewrite En in P3, P3'. injection P3 as <-. injection P3' as <-. rewrite Er in P2, P2'. injection P2 as <-. injection P2' as <-.
  rewrite P1 in P1'. injection P1' as <-. cbn [with_ic c_ic c_icpt] in P6'.
  set (p := n_cols (c_icpt c) (b_p b)) in *.
  destruct (P6 Hn HF) as (L & Hmin & _). destruct (P6' Hn HF) as (L' & Hmin' & _).
  assert (Lp : forall kk, length (map2 (fun b r => ic_value kk n (INR (length (active p b))) r) path rss) = length path) by (intros; apply map2_length; congruence).
  rewrite Lp in L, L', Hmin, Hmin'.
  exists path, i, i'. repeat (split; [assumption|]). cbv zeta.
  specialize (Hmin i' L'). specialize (Hmin' i L).
  rewrite !(nth_map2_gen _ path rss _ _ (fun _ => 0) 0) in Hmin by (congruence || assumption).
  rewrite !(nth_map2_gen _ path rss _ _ (fun _ => 0) 0) in Hmin' by (congruence || assumption).
  rewrite !(ic_charge _ n) in Hmin by exact Hc. rewrite !(ic_charge k n) in Hmin' by exact Hk.
  set (q := length (active p (nth i path (fun _ => 0)))) in *. set (q' := length (active p (nth i' path (fun _ => 0)))) in *.
  set (f := n * (ln (2 * PI) + ln (nth i rss 0 / n) + 1)) in *. set (f' := n * (ln (2 * PI) + ln (nth i' rss 0 / n) + 1)) in *.
  assert (A : f + charge (c_ic c) n * INR q <= f' + charge (c_ic c) n * INR q') by (destruct (c_ic c); lra).
  assert (A' : f' + charge k n * INR q' <= f + charge k n * INR q) by (destruct k; lra).
  assert (Q : INR q' <= INR q) by nra. split; [now apply INR_le|].
  assert (F : f <= f') by nra.
  assert (R1 : 0 < nth i rss 0) by (apply (proj1 (Forall_forall _ _) HF), nth_In; congruence || lia).
  assert (R2 : 0 < nth i' rss 0) by (apply (proj1 (Forall_forall _ _) HF), nth_In; congruence || lia).
  destruct (Rle_lt_dec (nth i rss 0) (nth i' rss 0)) as [|G]; [assumption|exfalso].
  assert (ln (nth i' rss 0 / n) < ln (nth i rss 0 / n)).
  { apply ln_increasing; [apply Rdiv_lt_0_compat; lra|]. apply Rmult_lt_compat_r; [now apply Rinv_0_lt_compat|exact G]. }
  unfold f, f' in F. nra.
Qed.

(** * How the criteria compare *)
Lemma pow_lt_strict x y n : 0 <= x < y -> (1 <= n)%nat -> x ^ n < y ^ n.
Proof.
  intros H. induction n as [|[|n] IH]; intros Hn; [lia|cbn; lra|]. cbn [pow] in *.
  assert (0 <= x * x ^ n) by (apply Rmult_le_pos; [lra|apply pow_le; lra]).
  specialize (IH ltac:(lia)). nra.
Qed.
Lemma exp2_8 : exp 2 < 8.
Proof.
  assert (H : 15 / 16 < exp (- / 16)) by (pose proof (exp_ineq1 (- / 16)); lra).
  assert (E : exp (- 2) = exp (- / 16) ^ 32).
  { rewrite <- (Rpower_pow 32 (exp (- / 16))) by apply exp_pos. unfold Rpower. rewrite ln_exp. f_equal. cbn. lra. }
  assert (P : (15 / 16) ^ 32 < exp (- 2)) by (rewrite E; apply pow_lt_strict; lra || lia).
  assert (X : exp 2 * exp (- 2) = 1) by (rewrite <- exp_plus; replace (2 + - 2) with 0 by ring; apply exp_0).
  pose proof (exp_pos 2). assert (1 / 8 < (15 / 16) ^ 32) by (cbn; lra). nra.
Qed.

Lemma ln_mono x y : 0 < x -> x < y -> ln x < ln y.
Proof. intros. now apply ln_increasing. Qed.
Lemma e_3 : exp 1 < 3.
Proof.
  assert (E : exp 1 * exp 1 = exp 2) by (rewrite <- exp_plus; f_equal; ring). pose proof exp2_8. pose proof (exp_pos 1). nra.
Qed.
Lemma C126_order_lemma :
  (forall n, charge max_ll n < charge aic n) /\
  (forall n, 8 <= n -> charge aic n < charge bic n) /\
  (forall n, 3 <= n -> charge max_ll n < charge hqc n) /\
  (forall n, 3 <= n -> charge hqc n < charge bic n) /\
  (forall n, exp (exp 1) < n -> charge aic n < charge hqc n) /\
  (forall n, 3 <= n < exp (exp 1) -> charge hqc n < charge aic n).
Proof.
  assert (L3 : forall n, 3 <= n -> 1 < ln n).
  { intros n Hn. rewrite <- (ln_exp 1). apply ln_mono; [apply exp_pos|]. pose proof e_3. lra. }
  cbn [charge]. split; [intros; lra|]. split; [|split; [|split; [|split]]].
  - intros n Hn. rewrite <- (ln_exp 2). apply ln_mono; [apply exp_pos|]. pose proof exp2_8. lra.
  - intros n Hn. pose proof (L3 n Hn) as H. assert (ln 1 < ln (ln n)) by (apply ln_mono; lra). rewrite ln_1 in *. lra.
  - intros n Hn. pose proof (L3 n Hn) as H. set (x := ln n) in *.
    assert (ln (x / 2) <= x / 2 - 1).
    { destruct (Req_dec (ln (x / 2)) 0) as [E|E].
      - assert (x / 2 = 1) by (apply ln_inv; [lra|lra|now rewrite ln_1]). lra.
      - pose proof (exp_ineq1 _ E). rewrite exp_ln in * by lra. lra. }
    assert (ln 2 < 1) by (rewrite <- (ln_exp 1) at 1; apply ln_mono; [lra|]; pose proof (exp_ineq1 1); lra).
    unfold Rdiv in H0. rewrite ln_mult, ln_Rinv in H0 by lra. lra.
  - intros n Hn. assert (A : exp 1 < ln n) by (rewrite <- (ln_exp (exp 1)); apply ln_mono; [apply exp_pos|exact Hn]).
    assert (1 < ln (ln n)) by (rewrite <- (ln_exp 1) at 1; apply ln_mono; [apply exp_pos|exact A]). lra.
  - intros n [Hn1 Hn2]. pose proof (L3 n Hn1). assert (A : ln n < exp 1) by (rewrite <- (ln_exp (exp 1)); apply ln_mono; [lra|exact Hn2]).
    assert (ln (ln n) < 1) by (rewrite <- (ln_exp 1) at 1; apply ln_mono; [lra|exact A]). lra.
Qed.
