(** Lemmas: the data of the model selection over a stream without forgetting. *)
From Coq Require Import Reals List Bool Arith ZArith Lra Lia.
From Verif Require Import Base Lin Data M_Gram S_Gram L_Gram M_OLS L_OLS M_Scaler M_Utils M_Links M_State M_LM M_Equation S_Equation L_Equation M_GAMLSS S_GAMLSS S_GAMSelect.
From Verif Require Import L_GAM1 L_GAM2 L_GAM8 L_GAM9 L_GAM10 L_GAM11 L_GAM12 L_GAM13 L_GAM14 L_GAM15 L_GAM18 L_GAM19.
Import ListNotations.
Open Scope R_scope.

Lemma mean_zero_forget l : forall a n0, 0 <= n0 -> l <> [] \/ 0 < n0 -> (n0 + INR (length l)) * online_mean_update a l 0 (n0 + INR (length l)) = n0 * a + lsum l.
Proof.
  induction l as [|v l IH]; intros a n0 Hn Hne; cbn [online_mean_update length lsum].
  - destruct Hne as [H|H]; [congruence|]. cbn [INR]. ring.
  - rewrite S_INR. replace (n0 + (INR (length l) + 1) - INR (length l)) with (n0 + 1) by ring.
    replace (n0 + (INR (length l) + 1)) with ((n0 + 1) + INR (length l)) by ring.
    rewrite IH by lra. unfold online_mean_update1. rewrite Rmult_0_l, (proj2 (Rltb_false 0 0)) by lra. field. lra.
Qed.
Lemma unit_ws b : unit_sample_weights b -> ws (b_rows b) = repeat 1 (length (b_rows b)).
Proof. unfold unit_sample_weights, ws. intros H. induction H as [|o l Ho Hl IH]; [reflexivity|]. cbn. now rewrite Ho, IH. Qed.
Lemma unit_sum b : unit_sample_weights b -> lsum (ws (b_rows b)) = INR (length (b_rows b)).
Proof. intros H. rewrite (unit_ws b H). generalize (length (b_rows b)). induction n as [|n IH]; [reflexivity|]. rewrite S_INR. cbn [repeat lsum]. rewrite IH. ring. Qed.
Lemma unit_nonneg b : unit_sample_weights b -> weights_nonneg (b_rows b).
Proof. unfold unit_sample_weights, weights_nonneg. intros H. eapply Forall_impl; [|exact H]. cbn. intros o ->. lra. Qed.
Lemma dsum_one {A} (f : A -> R) l : dsum (1 - 0) f l = lsum (map f l).
Proof. induction l as [|a l IH]; [reflexivity|]. cbn [dsum map lsum]. rewrite IH. replace (1 - 0) with 1 by ring. rewrite pow1. ring. Qed.
Lemma ws_app a b : ws (a ++ b) = ws a ++ ws b. Proof. apply map_app. Qed.

Section Stream.
Context {M : Type} (ops : method_ops M) (c : gam_cfg M).
Notation d := (o_dist c).
Hypothesis Hb : op_path_based ops = true.
Hypothesis Hg : o_global_ll c = false.

(** The state after some calls. *)
Definition sel_inv (pr : prep) (ncol p : nat) (calls : list (list obs * list vec)) (s : gam M) : Prop :=
  s_prep s = Some pr /\ s_nfin s = Some ncol /\
  let all := concat (map fst calls) in
  s_nobs s = Some (INR (length all)) /\ (1 <= length all)%nat /\ selection_data (design_width pr ncol p) p calls s /\
  exists w, s_work s = Some w /\ w_sum w p = Some (lsum (ws all)) /\ w_mean w p = Some (lsum (ws all) / INR (length all)).

Lemma sel_fit b s s' pr p : gam_fit ops c b s = (s', Ok tt) -> cycles s' <> Some O ->
  rowwise d -> o_cond_start c = false -> unit_sample_weights b ->
  s_prep s' = Some pr -> (p < d_n d)%nat -> p_forget pr p = 0 ->
  exists V path, List.Forall2 (some_row d pr (b_p b) p weight_floor) (b_rows b) V /\ sel_inv pr (b_p b) p [(V, path)] s'.
Proof.
  intros H Hcy Hrw Hcs Hu Epr Hp Hf.
  destruct (C118_fit_rss_lemma ops c Hb b s s' pr p Hg H Hcy Hrw Hcs (unit_nonneg b Hu) Epr Hp ltac:(lra))
    as (V & sc & w & path & data & h & _ & Ew & HV & Epa & Eda & Hd & _ & _ & Es & Em & Hm).
  exists V, path. split.
  { eapply Forall2_weaken; [|exact HV]. intros o v K. exists sc. exact K. }
  pose proof (Forall2_len _ _ _ HV) as LV.
  apply gam_fit_ok in H. destruct H as (pr' & methods & fv & js & sc' & X & w' & dv & n & _ & Hn & _ & _ & _ & _ & _ & _ & _ & _ & ->).
  cbn in Epr. injection Epr as ->. cbn in Ew. injection Ew as ->.
  unfold sel_inv. cbn [map fst concat]. rewrite app_nil_r. split; [reflexivity|]. split; [reflexivity|].
  assert (HL : (1 <= length V)%nat).
  { destruct V; [|cbn; lia]. exfalso. apply Hm. cbn. lra. }
  split. { cbn. now rewrite (unit_sum b Hu), LV. }
  split; [exact HL|]. rewrite Hf in Hd, Hm. rewrite dsum_one in Hm.
  split; [|exists w; auto].
  exists w, data, path. split; [reflexivity|]. split; [exact Eda|]. split; [exact Epa|]. split; [now rewrite Hd, map_length|].
  split; [reflexivity|]. cbn [map fst concat]. rewrite app_nil_r. cbv zeta. split; [exact Hm|].
  intros i Hi. unfold total_loss. cbn [map lsum fst snd]. rewrite Rplus_0_r.
  rewrite (nth_indep data 0 (relative_loss (design_width pr (b_p b) p) 0 V (fun _ => 0))) by exact Hi.
  rewrite Hd, map_nth. unfold relative_loss. rewrite dsum_one. reflexivity.
Qed.

Lemma last_snoc {A} (l : list A) a x : last (l ++ [a]) x = a.
Proof. induction l as [|b [|c0 l] IH]; [reflexivity|reflexivity|]. exact IH. Qed.
Lemma lsum_app' a : forall b, lsum (a ++ b) = lsum a + lsum b.
Proof. induction a as [|x a IH]; intros b; cbn; [ring|]. rewrite IH. ring. Qed.

Lemma sel_update b s s' pr ncol p calls : gam_update ops c b s = (s', Ok tt) -> cycles s' <> Some O ->
  unit_sample_weights b -> In p (p_order pr) -> (p < d_n d)%nat -> p_forget pr p = 0 -> sel_inv pr ncol p calls s ->
  exists V path, List.Forall2 (some_row d pr ncol p (- weight_ceiling)) (b_rows b) V /\ sel_inv pr ncol p (calls ++ [(V, path)]) s'.
Proof.
  intros H Hcy Hu Hord Hp Hf (Epr & Enf & En & Hn1 & (w0 & data0 & path0 & Ew0 & Ed0 & Ep0 & Ld0 & El0 & Hm0 & Hdata0) & (w0' & Ew0' & Es0 & Em0)).
  rewrite Ew0 in Ew0'. injection Ew0' as <-.
  destruct (C118_update_lemma ops c Hb b s s' pr p H Hcy Epr Hord Hp) as (w0'' & w & n & sc & old & mean & path & data & K1 & K2 & K3 & K4 & K5 & K6 & K7 & K8 & K9).
  cbv zeta in K9. rewrite Hg in K9. destruct K9 as (V & wts & R1 & R2 & R3 & R4 & R5 & R6 & S & R7 & R8 & R9).
  rewrite Ew0 in K1. injection K1 as <-. rewrite Ed0 in K2. injection K2 as <-. rewrite Em0 in K3. injection K3 as <-.
  rewrite Es0 in R7. injection R7 as <-.
  apply gam_update_ok in H.
  destruct H as (n0 & pr' & fv & sc0 & sc' & X & w1 & w2 & w3 & dev0 & it0 & isreg & dv & nn &
    _ & _ & Hnf & _ & _ & E1 & E2 & _ & E3 & E4 & E5 & Efv & _ & EX & Ew & Eo & ->).
  rewrite Epr in E2. injection E2 as <-. specialize (Hnf _ Enf). subst ncol.
  rewrite En in E1. injection E1 as <-. cbn in K4. injection K4 as <-. cbn in K6. injection K6 as <-.
  pose proof (Forall2_len _ _ _ R1) as LV.
  exists V, path. split.
  { eapply Forall2_weaken; [|exact R1]. intros o v K. exists sc. exact K. }
  set (all := concat (map fst calls)) in *. cbv zeta in *.
  assert (Eall : concat (map fst (calls ++ [(V, path)])) = all ++ V).
  { rewrite map_app, concat_app. cbn. now rewrite app_nil_r. }
  rewrite Hf in *. replace (1 - 0) with 1 in * by ring. rewrite pow1 in R5. rewrite (unit_sum b Hu) in *.
  assert (Ewts : ws V = wts).
  { rewrite R2, (unit_ws b Hu). apply map2_ones. congruence. }
  assert (HN : 0 < INR (length all)) by (apply lt_0_INR; lia).
  assert (Lw : INR (length (b_rows b)) = INR (length wts)) by (f_equal; congruence).
  assert (HM : online_mean_update (lsum (ws all) / INR (length all)) wts 0 (INR (length all) + INR (length (b_rows b)))
               = lsum (ws (all ++ V)) / INR (length (all ++ V))).
  { rewrite Lw. pose proof (mean_zero_forget wts (lsum (ws all) / INR (length all)) (INR (length all)) ltac:(lra) ltac:(auto)) as E.
    rewrite app_length, plus_INR, <- LV, Lw, ws_app, lsum_app', Ewts.
    pose proof (pos_INR (length wts)).
    set (om := online_mean_update _ _ _ _) in *.
    apply Rmult_eq_reg_l with (INR (length all) + INR (length wts)); [|lra]. rewrite E. field. lra. }
  rewrite HM in *.
  unfold sel_inv. rewrite Eall. split; [reflexivity|]. split; [exact Enf|]. cbv zeta.
  split. { cbn [s_nobs]. f_equal. rewrite app_length, plus_INR. f_equal. f_equal. exact LV. }
  split; [rewrite app_length; lia|]. split.
  - exists (commit_work w3), data, path. split; [reflexivity|]. split; [exact K8|]. split; [exact K7|].
    split; [rewrite R5, map2_length; congruence|]. split; [now rewrite last_snoc|].
    rewrite Eall. cbv zeta. split; [exact R6|].
    intros i Hi. assert (Lda : length data = length path) by (rewrite R5, map2_length; congruence).
    assert (Q : forall l m j, length m = length l -> (j < length l)%nat ->
      nth j (map2 (fun (b0 : vec) o => (wls_loss (design_width pr (b_p b) p) 0 V b0 + 1 * (o * (lsum (ws all) / INR (length all)))) /
         (lsum (ws (all ++ V)) / INR (length (all ++ V)))) l m) 0 =
      (wls_loss (design_width pr (b_p b) p) 0 V (nth j l (fun _ => 0)) + 1 * (nth j m 0 * (lsum (ws all) / INR (length all)))) /
         (lsum (ws (all ++ V)) / INR (length (all ++ V)))).
    { clear. induction l as [|x l IH]; intros [|y m] j L Hj; cbn in *; try lia. destruct j as [|j]; [reflexivity|]. apply IH; lia. }
    rewrite R5, Q by lia. f_equal.
    rewrite Hdata0 by lia. unfold total_loss. rewrite map_app, lsum_app'. cbn [map lsum fst snd].
    match goal with |- ?a + 1 * (?t / ?m * ?m) = ?t' + (?a' + 0) => change t' with t; change a' with a; generalize a, t; intros a0 t0 end.
    field. split; [lra|]. intros Z. apply Hm0. rewrite Z. lra.
  - exists (commit_work w3). split; [reflexivity|]. split.
    + rewrite R8. f_equal. rewrite ws_app, lsum_app'. ring.
    + rewrite R9. unfold effective_training_length. rewrite (proj2 (Reqb_true 0 0) eq_refl). unfold npdiv.
      rewrite Lw. rcase; [pose proof (pos_INR (length wts)); lra|]. f_equal.
      rewrite ws_app, lsum_app', app_length, plus_INR, <- LV, Lw. f_equal. ring.
Qed.

Lemma C118_stream_lemma b bs s s1 s' pr p : gam_fit ops c b s = (s1, Ok tt) -> cycles s1 <> Some O ->
  rowwise d -> o_cond_start c = false -> List.Forall unit_sample_weights (b :: bs) ->
  s_prep s1 = Some pr -> (p < d_n d)%nat -> p_forget pr p = 0 -> updates_run ops c s1 bs s' ->
  exists V0 path0 calls, List.Forall2 (some_row d pr (b_p b) p weight_floor) (b_rows b) V0 /\
    List.Forall2 (fun b' call => List.Forall2 (some_row d pr (b_p b) p (- weight_ceiling)) (b_rows b') (fst call)) bs calls /\
    selection_data (design_width pr (b_p b) p) p ((V0, path0) :: calls) s'.
Proof.
  intros H Hcy Hrw Hcs Hu Epr Hp Hf Hrun. inversion Hu as [|? ? Hu0 Hus]; subst.
  destruct (sel_fit b s s1 pr p H Hcy Hrw Hcs Hu0 Epr Hp Hf) as (V0 & path0 & HV0 & HI).
  assert (Hord : In p (p_order pr)).
  { apply gam_fit_ok in H. destruct H as (pr' & methods & fv & js & sc' & X & w & dv & n & Epr' & _ & _ & _ & _ & _ & _ & _ & _ & _ & ->).
    cbn in Epr. injection Epr as ->. eapply prepare_order; eauto. }
  exists V0, path0.
  assert (G : forall calls0, sel_inv pr (b_p b) p calls0 s1 -> exists calls,
    List.Forall2 (fun b' call => List.Forall2 (some_row d pr (b_p b) p (- weight_ceiling)) (b_rows b') (fst call)) bs calls /\
    sel_inv pr (b_p b) p (calls0 ++ calls) s').
  { clear - Hrun Hus Hord Hp Hf Hb Hg. induction Hrun as [s|s b' s2 bs s' Hup Hc2 Hrun IH]; intros calls0 HI.
    - exists []. split; [constructor|]. now rewrite app_nil_r.
    - inversion Hus as [|? ? Hu1 Hus']; subst.
      destruct (sel_update b' s s2 pr (b_p b) p calls0 Hup Hc2 Hu1 Hord Hp Hf HI) as (V & path & HV & HI').
      destruct (IH Hus' _ HI') as (calls & HC & HI2). exists ((V, path) :: calls). split; [constructor; [exact HV|exact HC]|].
      rewrite <- app_assoc in HI2. exact HI2. }
  destruct (G _ HI) as (calls & HC & HI'). exists calls. split; [exact HV0|]. split; [exact HC|]. apply HI'.
Qed.
End Stream.
