(** Lemmas: working weights, failed calls, rejected options. *)
From Coq Require Import Reals List Bool Arith ZArith Lra Lia.
From Verif Require Import Base Lin Data M_Gram M_OLS M_Scaler M_Utils M_Links M_DistTable M_Dist M_State M_LM M_Equation M_GAMLSS M_GAMDist.
From Verif Require Import S_Utils S_LM S_Equation S_GAMLSS L_Equation L_GAM1 L_GAM2 L_GAM3 L_GAM5.
Import ListNotations.
Open Scope R_scope.
Open Scope st_scope.

(** * C61 *)
Lemma fit_has_steps {M} (ops : method_ops M) c b s s' : gam_fit ops c b s = (s', Ok tt) -> has_steps (d_n (o_dist c)) s'.
Proof.
  intros H. apply gam_fit_ok in H.
  destruct H as (pr & methods & fv & js & sc & X & w & dv & n & Ep & _ & _ & _ & _ & _ & _ & _ & _ & _ & ->).
  intros pr' E. cbn in E. injection E as <-. exact (prepare_steps c pr methods Ep).
Qed.

(** * C62 *)
Lemma clip_range lo hi v : lo <= hi -> lo <= clip lo hi v <= hi.
Proof. intros H. unfold clip. split; [apply Rmin_glb; [lra|apply Rmax_l]|apply Rmin_l]. Qed.
Lemma ceiling_ge : 1 <= 10 ^ 10. Proof. apply pow_R1_Rle. lra. Qed.
Lemma floor_le : 1 / 10 ^ 10 <= 10 ^ 10.
Proof.
  pose proof ceiling_ge. apply Rle_trans with 1; [|lra].
  apply Rmult_le_reg_r with (10 ^ 10); [lra|]. field_simplify; lra.
Qed.
Lemma map2_in {A B C} (f : A -> B -> C) ls ms c : In c (map2 f ls ms) -> exists a b, c = f a b.
Proof.
  revert ms. induction ls as [|a ls IH]; intros [|b ms]; cbn; try tauto. intros [<-|H]; eauto.
Qed.
Lemma working_wt {M} (e : env M) u p fv eta g : working e u p fv = Ok (eta, g) ->
  exists dl2 di, g_wt g = map2 (if u then update_weight else fit_weight) dl2 di.
Proof.
  unfold working. intros H.
  destruct (all_some _) as [et|]; [|discriminate]. cbn [bind] in H.
  destruct (all_some _) as [dl1|]; [|discriminate]. cbn [bind] in H.
  destruct (all_some _) as [dl2|]; [|discriminate]. cbn [bind] in H.
  destruct (all_some _) as [wv|]; [|discriminate]. cbn [bind] in H.
  destruct (_ || _); [|discriminate]. injection H as <- <-. cbn [g_wt]. eauto.
Qed.
Lemma C62_fit_lemma {M} (e : env M) p fv eta g : working e false p fv = Ok (eta, g) ->
  Forall (fun v => weight_floor <= v <= weight_ceiling) (g_wt g).
Proof.
  intros H. apply working_wt in H. destruct H as (dl2 & di & ->). apply Forall_forall. intros v Hv.
  apply map2_in in Hv. destruct Hv as (a & b & ->). unfold fit_weight, weight_floor, weight_ceiling. apply clip_range, floor_le.
Qed.
Lemma C62_update_lemma {M} (e : env M) p fv eta g : working e true p fv = Ok (eta, g) ->
  Forall (fun v => - weight_ceiling <= v <= weight_ceiling) (g_wt g).
Proof.
  intros H. apply working_wt in H. destruct H as (dl2 & di & ->). apply Forall_forall. intros v Hv.
  apply map2_in in Hv. destruct Hv as (a & b & ->). unfold update_weight, weight_ceiling. apply clip_range.
  pose proof ceiling_ge. lra.
Qed.

(** * C68 *)
Lemma C68_lemma {M A} (c : gam_cfg M) (f : work M -> key -> option A) param io it s w : o_debug c = true -> s_work s = Some w ->
  get_debug c f param io it s = (s, match f w (param, io, S it) with Some a => Ok a | None => Raise KeyError end).
Proof.
  intros Hd Hw. unfold get_debug. rewrite Hd. unfold bnd, read. cbn [negb]. rewrite Hw, Nat.add_1_r.
  destruct (f w (param, io, S it)); reflexivity.
Qed.

(** * Failed calls *)
(** [m] preserves the condition [Q]. *)
Definition preserves {S A} (Q : S -> Prop) (m : st S A) : Prop := forall s, Q s -> Q (fst (m s)).
Lemma preserves_bnd {S A B} Q (m : st S A) (k : A -> st S B) :
  preserves Q m -> (forall a, preserves Q (k a)) -> preserves Q (bnd m k).
Proof. intros H1 H2 s Hs. unfold bnd. specialize (H1 s Hs). destruct (m s) as [s1 [a|x]]; cbn in *; [apply H2|]; assumption. Qed.
Lemma preserves_dead {S A B} (Q : S -> Prop) (m : st S A) (k : A -> st S B) :
  (forall s, Q s -> exists x, m s = (s, Raise x)) -> preserves Q (bnd m k).
Proof. intros H s Hs. unfold bnd. destruct (H s Hs) as [x ->]. exact Hs. Qed.
Lemma preserves_keeps {S A B} (f : S -> B) (P : B -> Prop) (m : st S A) : keeps f m -> preserves (fun s => P (f s)) m.
Proof. intros H s Hs. rewrite H. exact Hs. Qed.
(** A failing run of [m] leaves [f] as it was. *)
Definition fails_keep {S A B} (f : S -> B) (m : st S A) : Prop := forall s s' x, m s = (s', Raise x) -> f s' = f s.
Lemma fails_bnd {S A B C} (f : S -> C) (m : st S A) (k : A -> st S B) :
  keeps f m -> (forall a, fails_keep f (k a)) -> fails_keep f (bnd m k).
Proof.
  intros H1 H2 s s' x. unfold bnd. specialize (H1 s). destruct (m s) as [s1 [a|y]]; cbn in *; intros E.
  - rewrite (H2 a s1 s' x E). exact H1.
  - injection E as <- _. exact H1.
Qed.
Lemma fails_keeps {S A B} (f : S -> B) (m : st S A) : keeps f m -> fails_keep f m.
Proof. intros H s s' x E. specialize (H s). rewrite E in H. exact H. Qed.

Section Parts.
Context {M : Type} (ops : method_ops M) (c : gam_cfg M).
(** Parts of update and what they leave alone. *)
Lemma k_validate_old {B} (f : gam M -> B) p n : keeps f (gvalidate_old p n).
Proof.
  intros s. unfold gvalidate_old. destruct (_ || _); [reflexivity|].
  destruct (s_nfin s); [destruct (Nat.eqb _ _)|]; reflexivity.
Qed.
Lemma k_validate_support {B} (f : gam M -> B) l : keeps f (validate_support c l).
Proof. intros s. unfold validate_support. destruct (existsb _ _); [reflexivity|]. destruct (existsb _ _); reflexivity. Qed.
Lemma k_predict {B} (f : gam M -> B) r p X : keeps f (predict_parameters c r p X).
Proof.
  unfold predict_parameters. intros s. destruct (gfitted s); [|reflexivity].
  revert s. change (keeps f (gvalidate_old p (length X);;; o <-- read s_scaler;;
     match o with
     | None => raise NotFittedError
     | Some sc =>
         if sc_do sc && negb (forallb (fun j => j <? p)%nat (sc_sel sc)) then raise IndexError
         else
           pr <-- read s_prep;;
           A <-- lift (arrays c pr p (map (scaler_transform sc) X));;
           w <-- read s_work;;
           let eta := fun i q => let (k, rows) := A q in dot k (nth i rows (fun _ => 0)) (w_coef w q) in
           ret (map (fun i q => if r then d_inv (o_dist c) q (eta i q) else eta i q) (seq 0 (length X)))
     end)%st).
  repeat first [apply k_validate_old | keep_step].
Qed.
Lemma k_update_scaler {B} (f : gam M -> B) b :
  (forall s v, f (mk_gam (s_prep s) v (s_nfin s) (s_nobs s) (s_ntrain s) (s_J s) (s_isreg s) (s_work s) (s_dev s)) = f s) ->
  keeps f (gupdate_scaler b).
Proof.
  intros H. unfold gupdate_scaler, gset_scaler.
  repeat first [apply keeps_write; intros ?; apply H | keep_step].
Qed.
Lemma k_on_work {A B} (f : gam M -> B) (m : st (work M) A) :
  (forall s w, s_work s = Some w -> 
     f (mk_gam (s_prep s) (s_scaler s) (s_nfin s) (s_nobs s) (s_ntrain s) (s_J s) (s_isreg s) (Some (fst (m w))) (s_dev s)) = f s) ->
  keeps f (on_work m).
Proof.
  intros H s. unfold on_work. destruct (s_work s) as [w|] eqn:E; [|reflexivity].
  specialize (H s w E). destruct (m w) as [w' r]. exact H.
Qed.
End Parts.

Section Failed.
Context {M : Type} (ops : method_ops M) (c : gam_cfg M).

(** Without a completed call, update fails and there is still no completed call. *)
Lemma update_incomplete b s : incomplete s -> incomplete (fst (gam_update ops c b s)).
Proof.
  revert s. change (preserves incomplete (gam_update ops c b)). unfold gam_update.
  assert (Kn : forall A (m : st (gam M) A), keeps (fun s => (s_nobs s, s_dev s)) m -> preserves incomplete m).
  { intros A m H s Hs. specialize (H s). injection H as H1 H2. unfold incomplete. rewrite H1, H2. exact Hs. }
  apply preserves_bnd; [apply Kn, k_validate_old|intros _].
  apply preserves_bnd; [apply Kn, k_validate_support|intros _].
  apply preserves_bnd; [apply Kn, keeps_read|intros n0].
  apply preserves_bnd; [intros s [H1 H2]; split; [discriminate|exact H2]|intros _].
  apply preserves_bnd; [apply Kn, keeps_read|intros pr].
  apply preserves_bnd; [apply Kn, keeps_write; reflexivity|intros _].
  apply preserves_bnd; [apply Kn, k_predict|intros fv].
  apply preserves_bnd; [apply Kn, k_update_scaler; reflexivity|intros sc].
  apply preserves_bnd; [apply Kn, keeps_lift|intros X].
  apply preserves_bnd; [apply Kn, k_on_work; reflexivity|intros _].
  apply preserves_bnd.
  { apply Kn. destruct (o_cautious c); [|apply keeps_ret].
    apply keeps_bnd; [apply keeps_lift|intros lh]. apply k_on_work. reflexivity. }
  intros _. apply preserves_dead. intros s [H1 H2]. unfold read. rewrite H2. eauto.
Qed.
Lemma C73_lemma bs : forall s, incomplete s -> all_fail ops c bs s.
Proof.
  induction bs as [|b bs IH]; intros s Hs; cbn [all_fail]; [exact I|].
  assert (E : gpartial_fit ops c b s = gam_update ops c b s).
  { unfold gpartial_fit, gis_fitted. destruct Hs as [H1 _]. destruct (s_nobs s); [reflexivity|congruence]. }
  rewrite E. split.
  - destruct Hs as [_ H2]. exact (update_needs_completed ops c b s H2).
  - apply IH. apply update_incomplete. exact Hs.
Qed.

(** A first batch that is rejected by the scaler (one row, for example). *)
Lemma C73_first_lemma pr methods fv js b :
  prepare c = Ok (pr, methods) -> (1 <= b_p b)%nat -> length (b_rows b) = 1%nat ->
  existsb (fun o => below (oy o) (d_lo (o_dist c))) (b_rows b) = false ->
  existsb (fun o => above (oy o) (d_hi (o_dist c))) (b_rows b) = false ->
  d_init (o_dist c) (ys (b_rows b)) = Ok fv ->
  all_J pr (b_p b) (seq 0 (d_n (o_dist c))) = Ok js ->
  exists s', gam_fit ops c b new_gam = (s', Raise ValueError) /\ incomplete s'.
Proof.
  intros Hp Hb Hl Hlo Hhi Hf Hj. unfold gam_fit, bnd at 1, lift. rewrite Hp. unfold bnd at 1, gset_prep, write at 1.
  unfold bnd at 1, gvalidate_new. rewrite Hl. assert (H2 := Hb). apply Nat.ltb_ge in H2. rewrite H2. cbn [Nat.ltb Nat.leb orb].
  unfold gset_nfin, write at 1. cbn [s_prep s_scaler s_nfin s_nobs s_ntrain s_J s_isreg s_work s_dev new_gam option_map].
  unfold bnd at 1, validate_support. rewrite Hlo, Hhi. cbn [ret].
  unfold bnd at 1, gset_nobs, write at 1. cbn [s_prep s_scaler s_nfin s_nobs s_ntrain s_J s_isreg s_work s_dev].
  unfold bnd at 1, gset_ntrain, write at 1. cbn [s_prep s_scaler s_nfin s_nobs s_ntrain s_J s_isreg s_work s_dev].
  unfold bnd at 1. rewrite Hf. unfold bnd at 1. rewrite Hj.
  unfold bnd at 1, gset_J, write at 1. cbn [s_prep s_scaler s_nfin s_nobs s_ntrain s_J s_isreg s_work s_dev].
  unfold bnd at 1, gfit_scaler, scaler_fit. rewrite Hl. cbn [Nat.ltb Nat.leb]. unfold raise.
  eexists. split; [reflexivity|]. split; [discriminate|reflexivity].
Qed.

(** * C78 *)
Definition sums (w : work M) := (w_x w, w_y w, w_sum w, w_mean w).
Lemma inner_update_sums (e : env M) g p io : keeps sums (inner_update ops e g p io).
Proof.
  unfold inner_update, store_update.
  assert (H : forall k it fv dvs cnt, keeps sums (inner_update_loop ops e g p io k it fv dvs cnt)).
  { intros k it fv dvs cnt s. pose proof (inner_update_loop_frame ops e g p io k it fv dvs cnt s) as H.
    unfold loop_frame in H. unfold sums. congruence. }
  repeat first [apply H | keep_step].
Qed.
Lemma update_cycle_sums (e : env M) g ps : forall io dev, keeps sums (update_cycle ops e g ps io dev).
Proof.
  induction ps as [|p ps IH]; intros; cbn [update_cycle]; [apply keeps_ret|].
  repeat first [apply inner_update_sums | apply IH | keep_step].
Qed.
Lemma outer_update_loop_sums (e : env M) g fuel : forall it a b, keeps sums (outer_update_loop ops e g fuel it a b).
Proof.
  induction fuel as [|fuel IH]; intros; cbn [outer_update_loop]; [apply keeps_raise|].
  repeat first [apply update_cycle_sums | apply IH | keep_step].
Qed.
Lemma outer_update_sums (e : env M) g fuel : keeps sums (outer_update ops e g fuel).
Proof. unfold outer_update. repeat first [apply outer_update_loop_sums | keep_step]. Qed.

Lemma C78_accumulated_lemma b s s' x : gam_update ops c b s = (s', Raise x) -> accumulated s' = accumulated s.
Proof.
  revert s s' x. change (fails_keep (@accumulated M) (gam_update ops c b)). unfold gam_update.
  apply fails_bnd; [apply k_validate_old|intros _].
  apply fails_bnd; [apply k_validate_support|intros _].
  apply fails_bnd; [apply keeps_read|intros n0].
  apply fails_bnd; [apply keeps_write; reflexivity|intros _].
  apply fails_bnd; [apply keeps_read|intros pr].
  apply fails_bnd; [apply keeps_write; reflexivity|intros _].
  apply fails_bnd; [apply k_predict|intros fv].
  apply fails_bnd; [apply k_update_scaler; reflexivity|intros sc].
  apply fails_bnd; [apply keeps_lift|intros X].
  apply fails_bnd.
  { apply k_on_work. intros s w E. unfold accumulated. cbn. rewrite E. reflexivity. }
  intros _. apply fails_bnd.
  { destruct (o_cautious c); [|apply keeps_ret].
    apply keeps_bnd; [apply keeps_lift|intros lh]. apply k_on_work. intros s w E. unfold accumulated. cbn. rewrite E. reflexivity. }
  intros _. apply fails_bnd; [apply keeps_read|intros g].
  apply fails_bnd; [apply keeps_read|intros isreg].
  intros s s' x. unfold bnd, on_work at 1. destruct (s_work s) as [w|] eqn:E.
  2:{ intros H. injection H as <- _. reflexivity. }
  pose proof (outer_update_sums (mk_env c pr (n0 + lsum (ws (b_rows b)))
     (fun p => effective_training_length (p_forget pr p) (n0 + lsum (ws (b_rows b)))) isreg X (ys (b_rows b)) (ws (b_rows b))) (fst g) (enough_fuel c) w) as K.
  destruct (outer_update _ _ _ _ w) as [w' [r|y]]; cbn [fst] in K.
  - unfold on_work. cbn. intros H. discriminate.
  - intros H. injection H as <- _. unfold accumulated. cbn. rewrite E. cbn. fold (sums w) (sums w'). congruence.
Qed.
(** ... but the batch is counted. *)
Lemma C78_counted_lemma b s n0 : shape_ok s b -> ~ some_outside (o_dist c) b -> s_nobs s = Some n0 ->
  s_nobs (fst (gam_update ops c b s)) = Some (n0 + lsum (ws (b_rows b))).
Proof.
  intros Hs Ho Hn. unfold gam_update, bnd at 1. rewrite (gvalidate_old_run b s Hs).
  unfold bnd at 1.
  assert (V : validate_support c (b_rows b) s = (s, Ok tt)).
  { unfold validate_support.
    destruct (existsb (fun o => below (oy o) (d_lo (o_dist c))) (b_rows b)) eqn:E1.
    { exfalso. apply Ho. apply support_test. rewrite E1. auto. }
    destruct (existsb (fun o => above (oy o) (d_hi (o_dist c))) (b_rows b)) eqn:E2; [|reflexivity].
    exfalso. apply Ho. apply support_test. rewrite E2. auto. }
  rewrite V. unfold bnd at 1, read at 1. rewrite Hn.
  unfold bnd at 1, gset_nobs, write at 1.
  set (Q := fun s : gam M => s_nobs s = Some (n0 + lsum (ws (b_rows b)))).
  match goal with |- s_nobs (fst (?m ?s0)) = _ => assert (P : preserves Q m); [|exact (P s0 eq_refl)] end.
  assert (Kn : forall A (m : st (gam M) A), keeps s_nobs m -> preserves Q m).
  { intros A m H s1 Hs1. unfold Q. rewrite (H s1). exact Hs1. }
  apply preserves_bnd; [apply Kn, keeps_read|intros pr].
  apply preserves_bnd; [apply Kn, keeps_write; reflexivity|intros _].
  apply preserves_bnd; [apply Kn, k_predict|intros fv].
  apply preserves_bnd; [apply Kn, k_update_scaler; reflexivity|intros sc].
  apply preserves_bnd; [apply Kn, keeps_lift|intros X].
  apply preserves_bnd; [apply Kn, k_on_work; reflexivity|intros _].
  apply preserves_bnd.
  { apply Kn. destruct (o_cautious c); [|apply keeps_ret].
    apply keeps_bnd; [apply keeps_lift|intros lh]. apply k_on_work. reflexivity. }
  intros _. apply preserves_bnd; [apply Kn, keeps_read|intros g].
  apply preserves_bnd; [apply Kn, keeps_read|intros isreg].
  apply preserves_bnd; [apply Kn, k_on_work; reflexivity|intros r].
  apply preserves_bnd; [apply Kn, k_on_work; reflexivity|intros _].
  apply Kn, keeps_write. reflexivity.
Qed.

(** * C74 *)
Lemma C74_lemma pr methods b s : prepare c = Ok (pr, methods) -> data_ok b -> some_outside (o_dist c) b ->
  exists s', gam_fit ops c b s = (s', Raise OutOfSupportErr) /\
    (forall r p X, exists x, snd (predict_parameters c r p X s') = Raise x) /\
    (forall b', exists x, snd (gam_update ops c b' s') = Raise x).
Proof.
  intros Hp (H1 & H2) Ho.
  set (s' := mk_gam (Some pr) (Some None) (Some (b_p b)) (s_nobs s) (s_ntrain s) (s_J s) (s_isreg s)
               (option_map (with_methods methods) (s_work s)) (s_dev s)).
  assert (Ef : gam_fit ops c b s = (s', Raise OutOfSupportErr)).
  { unfold gam_fit, bnd at 1, lift. rewrite Hp. unfold bnd at 1, gset_prep, write at 1.
    unfold bnd at 1, gvalidate_new. apply Nat.ltb_ge in H1. apply Nat.ltb_ge in H2. rewrite H1, H2. cbn [orb].
    unfold gset_nfin, write at 1. unfold bnd at 1. rewrite (validate_support_raise c b); [|exact Ho]. reflexivity. }
  assert (Pr : forall r p X, exists x, snd (predict_parameters c r p X s') = Raise x).
  { intros r p X. destruct (predict_parameters c r p X s') as [s1 [out|x]] eqn:E; [|exists x; reflexivity].
    exfalso. apply predict_parameters_ok in E. destruct E as (sc & pr' & A & w & _ & Esc & _). cbn in Esc. discriminate. }
  exists s'. split; [exact Ef|]. split; [exact Pr|].
  intros b'. destruct (gam_update ops c b' s') as [s1 [[]|x]] eqn:E; [|exists x; reflexivity].
  exfalso. apply gam_update_ok in E.
  destruct E as (n0 & pr' & fv & sc0 & sc & X & w0 & w1 & w & dev0 & it0 & isreg & dv & n & _ & _ & _ & _ & _ & _ & _ & Esc & _).
  cbn in Esc. discriminate.
Qed.

(** * C76 *)
Lemma C76_lemma b s : o_cautious c = true -> length (b_rows b) <> 1%nat -> exists x, snd (gam_update ops c b s) = Raise x.
Proof.
  intros Hc Hl. destruct (gam_update ops c b s) as [s' [[]|x]] eqn:E; [|exists x; reflexivity].
  exfalso. apply gam_update_ok in E.
  destruct E as (n0 & pr & fv & sc0 & sc & X & w0 & w1 & w & dev0 & it0 & isreg & dv & n &
    _ & _ & _ & _ & _ & _ & _ & _ & _ & _ & _ & Ep & _ & _ & Ea & _).
  unfold again_work in Ea. rewrite Hc in Ea.
  destruct (predict_parameters c true (b_p b) (Xs (b_rows b)) s) as [s1 r] eqn:Ee. cbn in Ep. subst r.
  apply predict_parameters_ok in Ee. destruct Ee as (sc' & pr' & A & w' & _ & _ & _ & _ & _ & _ & _ & _ & _ & ->).
  assert (Hn : length (Xs (b_rows b)) <> 1%nat) by (unfold Xs; rewrite map_length; exact Hl).
  destruct (length (Xs (b_rows b))) as [|[|k]]; [discriminate|congruence|discriminate].
Qed.
End Failed.

(** * C75 *)
Lemma process_entries_kept frames ps : forall d d' k v, process_entries frames ps d = Ok d' -> lookup d k = Some v -> lookup d' k = Some v.
Proof.
  induction ps as [|p ps IH]; intros d d' k v H Hk; cbn in H; [injection H as <-; exact Hk|].
  destruct (lookup (fill_step EqIntercept d p) p) as [e|]; [|discriminate].
  destruct (eqn_ok frames e); [|discriminate].
  apply (IH _ _ k v H). unfold fill_step. destruct (lookup d p) eqn:E; [exact Hk|].
  rewrite assign_new by exact E. rewrite lookup_app, Hk. reflexivity.
Qed.
Lemma C75_lemma {M} (ops : method_ops M) c b s d p a l : o_equation c = Some d -> (p < d_n (o_dist c))%nat ->
  lookup d p = Some (EqNames (a :: l)) -> exists x, snd (gam_fit ops c b s) = Raise x.
Proof.
  intros Hd Hp Hl. destruct (gam_fit ops c b s) as [s' [[]|x]] eqn:E; [|exists x; reflexivity].
  exfalso. apply gam_fit_ok in E.
  destruct E as (pr & methods & fv & js & sc & X & w & dv & n & Ep & _ & _ & _ & _ & _ & _ & _ & EX & _).
  assert (Q : p_eq pr p = EqNames (a :: l)).
  { unfold prepare in Ep. rewrite Hd in Ep. unfold process_equation in Ep.
    destruct (process_entries _ _ _) as [d'|] eqn:Ee; [|discriminate]. cbn [bind] in Ep.
    destruct (all_methods _ _); [|discriminate]. cbn [bind] in Ep.
    match type of Ep with bind ?r _ = _ => destruct r; [|discriminate] end. cbn [bind] in Ep. injection Ep as <- _.
    cbn [p_eq]. unfold entry. rewrite (process_entries_kept _ _ _ _ _ _ Ee Hl). reflexivity. }
  unfold arrays in EX. destruct (all_arrays pr (b_p b) _ (seq 0 (d_n (o_dist c)))) as [la|] eqn:Ea; [|discriminate].
  assert (Hin : In p (seq 0 (d_n (o_dist c)))) by (apply in_seq; lia).
  clear EX. revert la Ea. induction (seq 0 (d_n (o_dist c))) as [|q ps IH]; intros la Ea; [destruct Hin|].
  cbn [all_arrays] in Ea. destruct (make_model_array (p_eq pr q) _ _ _) eqn:Em; [|discriminate]. cbn [bind] in Ea.
  destruct (all_arrays _ _ _ ps) as [r|] eqn:Er; [|discriminate].
  destruct Hin as [->|Hin]; [|exact (IH Hin r eq_refl)].
  rewrite Q in Em. cbn in Em. discriminate.
Qed.
