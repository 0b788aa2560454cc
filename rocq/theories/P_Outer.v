(** C127: when the outer loops of fit and update end. *)
From Coq Require Import Reals List Bool Arith Lra Lia.
From Verif Require Import Base Lin Data M_State M_LM M_GAMLSS S_GAMLSS S_Outer L_Outer L_GAMEx L_OuterEx.
Import ListNotations.
Open Scope R_scope.

(** C127. The deviance after each cycle of fit is compared with that after the cycle before,
    the first with that of the starting values; fit ends at the first cycle, not before the
    minimum number, that is within the tolerances, increases the deviance, or is the last
    one allowed. *)
Theorem C127_fit : forall M (ops : method_ops M) c b s s', gam_fit ops c b s = (s', Ok tt) ->
  exists e w0 w D0 ds, e_cfg e = c /\ e_y e = ys (b_rows b) /\ e_w e = ws (b_rows b) /\ s_prep s' = Some (e_prep e) /\
    d_init (o_dist c) (ys (b_rows b)) = Ok (w_fv w0) /\ deviance e (w_fv w0) = Ok D0 /\
    cycles_run (fun it dev => fit_cycle ops e (p_order (e_prep e)) it dev) 0 D0 w0 ds w /\ s_work s' = Some w /\
    s_dev s' = Some (last ds D0, length ds) /\ ended c true (fit_minimum c) D0 ds.
Proof. exact @C127_fit_lemma. Qed.
Print Assumptions C127_fit.

(** An update compares discounted old deviance plus deviance of the batch, starting with the
    predictions for the batch, and an increase does not end it. *)
Theorem C127_update : forall M (ops : method_ops M) c b s s', gam_update ops c b s = (s', Ok tt) ->
  exists e w0 w D d0 it0 d ds, e_cfg e = c /\ e_y e = ys (b_rows b) /\ e_w e = ws (b_rows b) /\ s_prep s = Some (e_prep e) /\
    s_dev s = Some (d0, it0) /\ snd (predict_parameters c true (b_p b) (Xs (b_rows b)) s) = Ok (w_fv w0) /\
    deviance e (w_fv w0) = Ok d /\ D = (1 - p_forget (e_prep e) 0) ^ length (b_rows b) * d0 + d /\
    cycles_run (fun it dev => update_cycle ops e d0 (p_order (e_prep e)) it dev) 0 D w0 ds w /\
    option_map w_min (s_work s') = Some (w_min w0) /\ option_map w_coef (s_work s') = Some (w_coef w) /\
    s_dev s' = Some (last ds D, length ds) /\ ended c false (w_min w0) D ds.
Proof. exact @C127_update_lemma. Qed.
Print Assumptions C127_update.

(** After a fit that made fewer cycles than allowed, the last change was within the
    tolerances or an increase; no cycle between the minimum and the last one increased the
    deviance. *)
Theorem C127_descent : forall M (ops : method_ops M) c b s s', gam_fit ops c b s = (s', Ok tt) ->
  exists D0 ds, s_dev s' = Some (last ds D0, length ds) /\
    (forall k, (fit_minimum c <= k < length ds)%nat -> after D0 ds k <= before D0 ds k) /\
    ((length ds < o_max_outer c)%nat ->
       within_tolerance c (before D0 ds (length ds)) (last ds D0) \/ before D0 ds (length ds) < last ds D0).
Proof. exact @C127_descent_lemma. Qed.
Print Assumptions C127_descent.

(** Tolerances of zero are never met, not even by equal deviances: every update makes the
    maximal number of cycles. *)
Theorem C127_all_cycles : forall M (ops : method_ops M) c b s s', o_rel_outer c <= 0 -> o_abs_outer c <= 0 -> has_order s ->
  gam_update ops c b s = (s', Ok tt) -> cycles s' = Some (o_max_outer c).
Proof. exact @C127_all_cycles_lemma. Qed.
Print Assumptions C127_all_cycles.

(** The same fit with tolerances 1/1000 and 0: one and three (all allowed) cycles, though
    the deviance is 4 throughout. *)
Example C127_example : exists s s0,
  gam_fit ex_ops ex_cfg ex_b0 new_gam = (s, Ok tt) /\ s_dev s = Some (4, 1%nat) /\
  gam_fit ex_ops zx_cfg ex_b0 new_gam = (s0, Ok tt) /\ s_dev s0 = Some (4, 3%nat) /\
  o_max_outer ex_cfg = 3%nat /\ o_max_outer zx_cfg = 3%nat /\
  ended ex_cfg true 1 4 [4] /\ ended zx_cfg true 1 4 [4; 4; 4] /\ ~ ended zx_cfg true 1 4 [4] /\
  ended zx_cfg true 1 4 [5] /\ ~ ended zx_cfg false 1 4 [5].
Proof.
  destruct ex_fit as (s & Hf & w & nt & _ & ->). destruct zx_fit as (s0 & Hz & Ez).
  eexists. exists s0. split; [exact Hf|]. split; [reflexivity|]. split; [exact Hz|]. split; [exact Ez|].
  split; [reflexivity|]. split; [reflexivity|].
  assert (Z : forall a b, ~ within_tolerance zx_cfg a b) by (intros a b; apply (zero_tolerance zx_cfg); cbn; lra).
  split; [|split; [|split; [|split]]].
  - split.
    + split; [cbn; lia|]. left. right. cbn. rewrite Rminus_diag_eq, Rabs_R0 by reflexivity. lra.
    + intros [|k] Hk [L _]; cbn in *; lia.
  - split.
    + split; [cbn; lia|]. right. left. cbn. lia.
    + intros [|[|[|k]]] Hk [L [H|[H|[_ H]]]]; cbn in Hk, L, H; try lia; try lra; exact (Z _ _ H).
  - intros [[_ [H|[H|[_ H]]]] _]; cbn in H; [exact (Z _ _ H)|lia|lra].
  - split.
    + split; [cbn; lia|]. right. right. cbn. split; [reflexivity|lra].
    + intros [|k] Hk [L _]; cbn in *; lia.
  - intros [[_ [H|[H|[H _]]]] _]; cbn in H; [exact (Z _ _ H)|lia|discriminate].
Qed.
