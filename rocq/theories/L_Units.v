From Coq Require Import Reals List Bool Arith Lra Lia FunctionalExtensionality.
From Verif Require Import Base Lin Data M_Gram S_Gram S_Scaler M_Scaler L_Gram L_Scaler M_Utils M_Path M_State M_LM S_LM L_LM M_Equation M_GAMLSS S_GAMLSS L_GAM2 L_GAM6 S_Units.
Import ListNotations.
Open Scope R_scope.

Lemma Xs_map_rows f l : Xs (map_rows f l) = map f (Xs l).
Proof. unfold Xs, map_rows. rewrite !map_map. reflexivity. Qed.
Lemma ys_map_rows f l : ys (map_rows f l) = ys l.
Proof. unfold ys, map_rows. rewrite map_map. reflexivity. Qed.
Lemma ws_map_rows f l : ws (map_rows f l) = ws l.
Proof. unfold ws, map_rows. rewrite map_map. reflexivity. Qed.
Lemma length_map_rows f l : length (map_rows f l) = length l.
Proof. apply map_length. Qed.
Lemma weights_map_rows f l : weights_nonneg l -> weights_nonneg (map_rows f l).
Proof. unfold weights_nonneg, map_rows. rewrite Forall_map. auto. Qed.
Lemma map_rows_app f l m : map_rows f (l ++ m) = map_rows f l ++ map_rows f m.
Proof. apply map_app. Qed.
Lemma existsb_map_rows f (h : R -> bool) l : existsb (fun o => h (oy o)) (map_rows f l) = existsb (fun o => h (oy o)) l.
Proof. induction l as [|o l IH]; simpl; congruence. Qed.

Lemma selection_scaled t p j : In j (snd (selection t p)) <-> scaled_column t p j.
Proof. destruct t; cbn; try tauto. rewrite in_seq. lia. Qed.

Section Units.
Variables (a b : vec).
Let T := rescale a b.

Lemma wtotal_units f l : wtotal f (map_rows T l) = wtotal f l.
Proof. unfold wtotal. rewrite map_rows_dsum. reflexivity. Qed.
Lemma wmean_units f l j : 0 < wtotal f l -> wmean f (map_rows T l) j = a j * wmean f l j + b j.
Proof.
  intros H. unfold wmean. rewrite wtotal_units, map_rows_dsum. cbn [ow ox].
  rewrite (dsum_ext (1 - f) _ (fun o => a j * (ow o * ox o j) + b j * ow o)) by (intros; unfold T, rescale; ring).
  rewrite dsum_plus, !dsum_scal. fold (wtotal f l). field. lra.
Qed.
Lemma wvar_units f l j : 0 < wtotal f l -> wvar f (map_rows T l) j = a j ^ 2 * wvar f l j.
Proof.
  intros H. unfold wvar at 1. rewrite wtotal_units, map_rows_dsum, wmean_units by auto. cbn [ow ox].
  rewrite (dsum_ext (1 - f) _ (fun o => a j ^ 2 * (ow o * (ox o j - wmean f l j) ^ 2))) by (intros; unfold T, rescale; ring).
  rewrite dsum_scal. unfold wvar. field. lra.
Qed.

(** Two scalers, for the rows [l] and for the same rows in the other units. *)
Definition sc_pair f sel l (sc sc' : scaler) : Prop :=
  sc_inv f sel l sc /\ sc_inv f sel (map_rows T l) sc' /\ sc_n sc = sc_n sc' /\
  (forall j, In j sel -> 0 < wvar f l j).

Lemma sc_pair_transform f sel l sc sc' x : sc_pair f sel l sc sc' -> (forall j, 0 < a j) ->
  (forall j, ~ In j sel -> a j = 1 /\ b j = 0) -> scaler_transform sc' (T x) = scaler_transform sc x.
Proof.
  intros (I & I' & _ & P) Ha Hn. apply functional_extensionality. intros j.
  pose proof (sc_inv_consistent _ _ _ _ I) as C. pose proof (sc_inv_consistent _ _ _ _ I') as C'.
  destruct I as (_ & D & S & Ht & _ & H). destruct I' as (_ & D' & S' & _ & _ & H').
  destruct (in_dec Nat.eq_dec j sel) as [Hj|Hj].
  - destruct (In_nth _ _ 0%nat Hj) as (k & Hk & <-). rewrite <- S in Hk at 1. 
    pose proof (transform_at sc x k C D Hk) as [E _].
    assert (Hk' : (k < length (sc_sel sc'))%nat) by congruence.
    pose proof (transform_at sc' (T x) k C' D' Hk') as [E' _].
    rewrite S in E. rewrite S' in E'. rewrite E, E'.
    destruct (H k) as (-> & -> & _). destruct (H' k) as (-> & -> & _).
    set (i := nth k sel 0%nat) in *. rewrite wmean_units, wvar_units by auto.
    rewrite sqrt_mult by (try apply pow2_ge_0; left; auto).
    rewrite sqrt_pow2 by (left; auto). pose proof (Ha i). pose proof (sqrt_lt_R0 _ (P i Hj)).
    unfold T, rescale. field. lra.
  - destruct (transform_notin sc x j) as [-> _]; [right; congruence|].
    destruct (transform_notin sc' (T x) j) as [-> _]; [right; congruence|].
    destruct (Hn j Hj) as [Ea Eb]. unfold T, rescale. rewrite Ea, Eb. ring.
Qed.

Lemma varies_var f d j l : 0 <= f < 1 -> varies d j -> weights_nonneg (b_rows d ++ l) -> 0 < wtotal f (b_rows d ++ l) ->
  0 < wvar f (b_rows d ++ l) j.
Proof.
  intros Hf (o1 & o2 & I1 & I2 & W1 & W2 & N) Hw Ht.
  destruct (wvar_nonneg f _ j Hf Hw Ht) as [Hp|E]; auto.
  symmetry in E. apply wvar_zero_iff in E; auto. destruct E as [q Q]. destruct N.
  rewrite (Q o1), (Q o2); auto; apply in_or_app; auto.
Qed.

Lemma scaler_fit_units f t (d : batch) sc : t <> ScaleNone -> 0 <= f < 1 -> weights_nonneg (b_rows d) ->
  scaled_columns_vary t d ->
  scaler_fit f t (b_p d) (b_rows d) = Ok sc ->
  exists sc', scaler_fit f t (b_p d) (map_rows T (b_rows d)) = Ok sc' /\
    sc_pair f (snd (selection t (b_p d))) (b_rows d) sc sc'.
Proof.
  intros Ht Hf Hw Hv E.
  assert (Ex : exists sc', scaler_fit f t (b_p d) (map_rows T (b_rows d)) = Ok sc').
  { revert E. unfold scaler_fit. rewrite length_map_rows, ws_map_rows.
    destruct (length (b_rows d) <? 2)%nat; [discriminate|]. destruct (selection t (b_p d)) as [[|] sel]; [|eauto].
    destruct (negb _); [discriminate|]. destruct (Reqb _ 0); [discriminate|eauto]. }
  destruct Ex as [sc' E']. exists sc'. split; auto.
  assert (Hs : fst (selection t (b_p d)) = true) by (destruct t; auto; contradiction).
  destruct (scaler_fit_inv _ _ _ _ _ E Hs Hf Hw) as (I & N).
  destruct (scaler_fit_inv _ _ _ _ _ E' Hs Hf (weights_map_rows _ _ Hw)) as (I' & N').
  split; auto. split; auto. split; [rewrite N, N', ws_map_rows; auto|].
  intros j Hj. rewrite <- (app_nil_r (b_rows d)).
  apply varies_var; auto; rewrite ?app_nil_r; auto; [apply Hv, selection_scaled; auto|apply I].
Qed.
Lemma wvar_app_pos f d l m j : 0 <= f < 1 -> varies d j -> weights_nonneg (b_rows d ++ l) -> weights_nonneg m ->
  0 < wtotal f ((b_rows d ++ l) ++ m) -> 0 < wvar f ((b_rows d ++ l) ++ m) j.
Proof.
  intros Hf Hv H1 H2 H3. rewrite <- app_assoc in *. apply varies_var; auto.
  unfold weights_nonneg in *. rewrite Forall_app in *. rewrite Forall_app. tauto.
Qed.

Lemma scaler_update_units f sel d l sc sc1 sc' m : 0 <= f < 1 ->
  sc_pair f sel (b_rows d ++ l) sc sc' -> (forall j, In j sel -> varies d j) ->
  weights_nonneg (b_rows d ++ l) -> weights_nonneg m ->
  scaler_update sc m = Ok sc1 ->
  exists sc1', scaler_update sc' (map_rows T m) = Ok sc1' /\
    sc_pair f sel (b_rows d ++ (l ++ m)) sc1 sc1'.
Proof.
  intros Hf (I & I' & N & P) Hv Hw Hm E.
  assert (Hn : nonempty m).
  { unfold scaler_update in E. destruct m; [discriminate|]. discriminate. }
  destruct (scaler_update_inv _ _ _ _ _ I Hf Hm Hn) as (s1 & E1 & I1 & N1).
  rewrite E1 in E. injection E as <-.
  destruct (scaler_update_inv _ _ _ _ _ I' Hf (weights_map_rows T _ Hm)) as (s1' & E1' & I1' & N1').
  { destruct m; [contradiction|discriminate]. }
  exists s1'. split; auto. rewrite <- map_rows_app in I1'. rewrite <- !app_assoc in *. 
  split; auto. split; auto. split; [rewrite N1, N1', N, ws_map_rows; auto|].
  intros j Hj. apply varies_var; auto.
  - unfold weights_nonneg in *. rewrite app_assoc, Forall_app. auto.
  - apply I1.
Qed.

Lemma sc_pair_check f sel l sc sc' p : sc_pair f sel l sc sc' ->
  sc_do sc' && negb (forallb (fun j => j <? p)%nat (sc_sel sc')) = sc_do sc && negb (forallb (fun j => j <? p)%nat (sc_sel sc)).
Proof. intros ((_ & D & S & _) & (_ & D' & S' & _) & _). congruence. Qed.

(** * Linear model *)
Section LM.
Context {M : Type} (ops : method_ops M) (c : lm_cfg M) (d : batch).
Hypothesis Hf : 0 <= c_forget c < 1.
Hypothesis Ht : c_scale c <> ScaleNone.
Hypothesis Hu : change_of_units (c_scale c) (b_p d) a b.
Hypothesis Hv : scaled_columns_vary (c_scale c) d.
Let sel := snd (selection (c_scale c) (b_p d)).

Lemma units_notin : forall j, ~ In j sel -> a j = 1 /\ b j = 0.
Proof. intros j Hj. apply Hu. intros K. apply Hj. apply selection_scaled. exact K. Qed.
Lemma units_vary : forall j, In j sel -> varies d j.
Proof. intros j Hj. apply Hv. apply selection_scaled. exact Hj. Qed.

Lemma design_rows_units l sc sc' m : sc_pair (c_forget c) sel l sc sc' ->
  design_rows c sc' (map_rows T m) = design_rows c sc m.
Proof.
  intros HP. unfold design_rows, map_rows. rewrite map_map. apply map_ext. intros o. cbn [ox oy ow].
  rewrite (sc_pair_transform _ _ _ _ _ (ox o) HP); auto; [apply Hu|apply units_notin].
Qed.

(** The same object but for the scaler. *)
Definition lm_twin l (s s' : lm M) : Prop :=
  exists sc sc', sc_pair (c_forget c) sel (b_rows d ++ l) sc sc' /\ a_scaler s = Some (Some sc) /\
    a_nfin s = Some (b_p d) /\ a_nobs s <> None /\
    s' = mk_lm (a_method s) (Some (Some sc')) (a_nfin s) (a_nobs s) (a_nfeat s) (a_ntrain s) (a_isreg s) (a_x s) (a_y s)
           (a_path s) (a_rss s) (a_coef s).

Lemma lm_fit_units s : weights_nonneg (b_rows d) -> lm_fit ops c d new_lm = (s, Ok tt) ->
  exists s', lm_fit ops c (rescale_batch a b d) new_lm = (s', Ok tt) /\ lm_twin [] s s'.
Proof.
  intros Hw H. destruct (lm_fit_ok ops c d new_lm s H) as (m & sc & xg & Em & Er & L1 & L2 & Eo & E1 & Es & Ex & K).
  destruct (scaler_fit_units _ _ _ _ Ht Hf Hw Hv Es) as (sc' & Es' & P).
  pose proof (lm_fit_intro ops c (rescale_batch a b d) new_lm m sc' xg) as I.
  cbn [rescale_batch b_rows b_p] in I. fold T in I. rewrite ws_map_rows, length_map_rows in I.
  pose proof (design_rows_units _ _ _ (b_rows d) P) as ED. rewrite ED in I.
  destruct (I Em Er L1 L2 Eo E1 Es' Ex) as [I1 I2].
  rewrite <- (app_nil_r (b_rows d)) in P at 1.
  destruct K as [(Ep & m' & path & ic & k & F1 & F2 & F3 & ->)|(Ep & m' & beta & F1 & ->)].
  - eexists. split; [apply (I1 m' path ic k Ep F1 F2 F3)|].
    exists sc, sc'. split; [exact P|]. cbn. repeat split; discriminate || reflexivity.
  - eexists. split; [apply (I2 m' beta Ep F1)|].
    exists sc, sc'. split; [exact P|]. cbn. repeat split; discriminate || reflexivity.
Qed.

Lemma lm_update_units l s s' e s1 : weights_nonneg (b_rows d ++ l) -> weights_nonneg (b_rows e) ->
  lm_twin l s s' -> lm_update ops c e s = (s1, Ok tt) ->
  exists s1', lm_update ops c (rescale_batch a b e) s' = (s1', Ok tt) /\ lm_twin (l ++ b_rows e) s1 s1'.
Proof.
  intros Hw Hwe (sc & sc' & P & Esc & Enf & Eno & ->) H.
  destruct (lm_update_ok ops c e s s1 H) as (n0 & sc0 & sc1 & m & x0 & y0 & xg & isreg & A1 & A2 & A3 & A4 & A5 & A6 & L1 & L2 & Q & Sel & Es & Ex & K).
  rewrite Esc in A2. injection A2 as <-.
  destruct (scaler_update_units _ _ _ _ _ _ _ _ Hf P units_vary Hw Hwe Es) as (sc1' & Es' & P').
  set (s' := mk_lm _ _ _ _ _ _ _ _ _ _ _ _).
  pose proof (lm_update_intro ops c (rescale_batch a b e) s' n0 sc' sc1' m x0 y0 xg isreg) as I.
  cbn [rescale_batch b_rows b_p] in I. fold T in I. rewrite ws_map_rows, length_map_rows in I.
  pose proof (design_rows_units _ _ _ (b_rows e) P') as ED. rewrite ED in I.
  assert (Sel' : sc_do sc' && negb (forallb (fun j => (j <? b_p e)%nat) (sc_sel sc')) = false)
    by (rewrite (sc_pair_check _ _ _ _ _ _ P); exact Sel).
  assert (Enf' : a_nfin s' = Some (b_p e)).
  { unfold s'. cbn [a_nfin]. rewrite Enf. f_equal. apply Q. exact Enf. }
  destruct (I A1 eq_refl A3 A4 A5 A6 L1 L2 Enf' Sel' Es' Ex) as [I1 I2].
  destruct K as [(Ep & m' & path0 & rss0 & path & ic & k & F1 & F2 & F3 & F4 & F5 & F6 & ->)|(Ep & m' & beta0 & beta & F1 & F2 & ->)].
  - eexists. split; [apply (I1 m' path0 rss0 path ic k Ep F1 F2 F3 F4 F5 F6)|].
    exists sc1, sc1'. split; [exact P'|]. cbn. repeat split; discriminate || auto.
  - eexists. split; [apply (I2 m' beta0 beta Ep F1 F2)|].
    exists sc1, sc1'. split; [exact P'|]. cbn. repeat split; discriminate || auto.
Qed.

Lemma lm_history_units ds : forall l s s' s1, weights_nonneg (b_rows d ++ l) -> Forall (fun e => weights_nonneg (b_rows e)) ds ->
  lm_twin l s s' -> lm_history ops c ds s = Ok s1 ->
  exists l1 s1', lm_history ops c (map (rescale_batch a b) ds) s' = Ok s1' /\ lm_twin l1 s1 s1'.
Proof.
  induction ds as [|e ds IH]; intros l s s' s1 Hw Hws TW H.
  - injection H as <-. exists l, s'. auto.
  - cbn [lm_history map] in *. unfold partial_fit in *. inversion Hws as [|? ? He Hds]; subst.
    assert (F : is_fitted s = true /\ is_fitted s' = true).
    { destruct TW as (sc & sc' & P & Esc & Enf & Eno & ->). unfold is_fitted. cbn [a_nobs]. destruct (a_nobs s); auto; congruence. }
    destruct F as [F F']. rewrite F in H. rewrite F'.
    destruct (lm_update ops c e s) as [s2 [[]|]] eqn:E; [|discriminate].
    destruct (lm_update_units l s s' e s2 Hw He TW E) as (s2' & E2 & TW2).
    rewrite E2. apply (IH (l ++ b_rows e) s2 s2' s1); auto.
    unfold weights_nonneg in *. rewrite !Forall_app in *. tauto.
Qed.

Lemma lm_twin_predict l s s' p X : lm_twin l s s' ->
  snd (lm_predict c p (map T X) s') = snd (lm_predict c p X s) /\
  snd (lm_predict_path c p (map T X) s') = snd (lm_predict_path c p X s).
Proof.
  intros (sc & sc' & P & Esc & Enf & Eno & ->).
  assert (E : forall x, scaler_transform sc' (T x) = scaler_transform sc x)
    by (intros x; apply (sc_pair_transform _ _ _ _ _ x P); [apply Hu|apply units_notin]).
  pose proof (sc_pair_check _ _ _ _ _ p P) as K.
  destruct s as [a1 a2 a3 a4 a5 a6 a7 a8 a9 a10 a11 a12]. cbn in Esc, Enf. subst.
  unfold lm_predict, lm_predict_path, any_fitted_attribute, validate_old, bnd, read, ret, raise. cbn [a_method a_scaler a_nfin a_nobs a_nfeat a_ntrain a_isreg a_x a_y a_path a_rss a_coef].
  rewrite map_length.
  destruct ((length X <? 1)%nat || (p <? 1)%nat); [auto|].
  cbn [a_method a_scaler a_nfin a_nobs a_nfeat a_ntrain a_isreg a_x a_y a_path a_rss a_coef].
  destruct (Nat.eqb p (b_p d)); [|auto]. cbn [a_method a_scaler a_nfin a_nobs a_nfeat a_ntrain a_isreg a_x a_y a_path a_rss a_coef]. rewrite K.
  destruct (sc_do sc && _); [auto|]. cbn [a_method a_scaler a_nfin a_nobs a_nfeat a_ntrain a_isreg a_x a_y a_path a_rss a_coef].
  split; [destruct a12|destruct a10]; cbn [snd]; auto; f_equal; rewrite map_map; apply map_ext; intros x; rewrite E; reflexivity.
Qed.
End LM.
End Units.

Lemma rescale_none p a b : change_of_units ScaleNone p a b -> rescale a b = fun x => x.
Proof.
  intros [_ H]. apply functional_extensionality. intros x. apply functional_extensionality. intros j.
  unfold rescale. destruct (H j) as [-> ->]; [intros K; exact K|ring].
Qed.
Lemma rescale_batch_none p a b d : change_of_units ScaleNone p a b -> rescale_batch a b d = d.
Proof.
  intros H. unfold rescale_batch. rewrite (rescale_none p a b H). destruct d as [q l]. cbn. f_equal.
  unfold map_rows. rewrite <- (map_id l) at 2. apply map_ext. intros []. reflexivity.
Qed.
Lemma map_rescale_none p a b ds : change_of_units ScaleNone p a b -> map (rescale_batch a b) ds = ds.
Proof. intros H. rewrite <- (map_id ds) at 2. apply map_ext. intros d. apply (rescale_batch_none p); auto. Qed.

Lemma C95_lm_lemma {M} (ops : method_ops M) c a b d ds s :
  0 <= c_forget c < 1 -> change_of_units (c_scale c) (b_p d) a b -> scaled_columns_vary (c_scale c) d ->
  Forall (fun e => weights_nonneg (b_rows e)) (d :: ds) ->
  lm_history ops c (d :: ds) new_lm = Ok s ->
  exists s', lm_history ops c (map (rescale_batch a b) (d :: ds)) new_lm = Ok s' /\
    a_coef s' = a_coef s /\ a_path s' = a_path s /\
    forall p X, snd (lm_predict c p (map (rescale a b) X) s') = snd (lm_predict c p X s) /\
                snd (lm_predict_path c p (map (rescale a b) X) s') = snd (lm_predict_path c p X s).
Proof.
  intros Hf Hu Hv Hw H.
  assert (D : c_scale c = ScaleNone \/ c_scale c <> ScaleNone) by (destruct (c_scale c); auto; right; discriminate).
  destruct D as [D|D].
  - rewrite D in Hu. rewrite (map_rescale_none _ _ _ _ Hu). exists s. split; [exact H|]. split; auto. split; auto.
    intros p X. rewrite (rescale_none _ _ _ Hu), map_id. auto.
  - inversion Hw as [|? ? Hd Hds]; subst. cbn [map lm_history] in *. unfold partial_fit in H at 1. cbn in H.
    destruct (lm_fit ops c d new_lm) as [s0 [[]|]] eqn:E; [|discriminate].
    destruct (lm_fit_units a b ops c d Hf D Hu Hv s0 Hd E) as (s0' & E0 & TW).
    unfold partial_fit at 1. cbn. rewrite E0.
    destruct (lm_history_units a b ops c d Hf Hu Hv ds [] s0 s0' s) as (l1 & s1' & E1 & TW1); auto.
    { rewrite app_nil_r. exact Hd. }
    exists s1'. split; [exact E1|]. split; [|split].
    + destruct TW1 as (? & ? & _ & _ & _ & _ & ->). reflexivity.
    + destruct TW1 as (? & ? & _ & _ & _ & _ & ->). reflexivity.
    + intros p X. apply (lm_twin_predict a b c d Hu l1); auto.
Qed.

(** * Distributional regression *)
Section GAM.
Variables (a b : vec).
Let T := rescale a b.
Context {M : Type} (ops : method_ops M) (c : gam_cfg M) (d : batch) (pr : prep).
Hypothesis Hf : 0 <= p_forget pr O < 1.
Hypothesis Ht : o_scale c <> ScaleNone.
Hypothesis Hu : change_of_units (o_scale c) (b_p d) a b.
Hypothesis Hv : scaled_columns_vary (o_scale c) d.
Let sel := snd (selection (o_scale c) (b_p d)).

Lemma gunits_notin : forall j, ~ In j sel -> a j = 1 /\ b j = 0.
Proof. intros j Hj. apply Hu. intros K. apply Hj. apply selection_scaled. exact K. Qed.
Lemma gunits_vary : forall j, In j sel -> varies d j.
Proof. intros j Hj. apply Hv. apply selection_scaled. exact Hj. Qed.
Lemma transform_rows_units l sc sc' X : sc_pair a b (p_forget pr O) sel l sc sc' ->
  map (scaler_transform sc') (map T X) = map (scaler_transform sc) X.
Proof.
  intros HP. rewrite map_map. apply map_ext. intros x.
  apply (sc_pair_transform a b _ _ _ _ _ x HP); [apply Hu|apply gunits_notin].
Qed.

Definition gam_twin l (s s' : gam M) : Prop :=
  exists sc sc', sc_pair a b (p_forget pr O) sel (b_rows d ++ l) sc sc' /\ s_scaler s = Some (Some sc) /\
    s_prep s = Some pr /\ s_nfin s = Some (b_p d) /\ s_nobs s <> None /\
    s' = mk_gam (s_prep s) (Some (Some sc')) (s_nfin s) (s_nobs s) (s_ntrain s) (s_J s) (s_isreg s) (s_work s) (s_dev s).

Lemma gam_fit_units s0 s : weights_nonneg (b_rows d) -> gam_fit ops c d s0 = (s, Ok tt) -> s_prep s = Some pr ->
  exists s', gam_fit ops c (rescale_batch a b d) s0 = (s', Ok tt) /\ gam_twin [] s s'.
Proof.
  intros Hw H Epr.
  destruct (gam_fit_ok ops c d s0 s H) as (pr' & ms & fv & js & sc & X & w & dv & n & E1 & L1 & L2 & E2 & E3 & E4 & E5 & E6 & E7 & E8 & ->).
  cbn in Epr. injection Epr as ->.
  destruct (scaler_fit_units a b _ _ _ _ Ht Hf Hw Hv E6) as (sc' & E6' & P). fold T in E6'.
  eexists. split.
  - apply (gam_fit_run ops c (rescale_batch a b d) s0 pr ms fv js sc' X w dv n); cbn [rescale_batch b_rows b_p]; auto.
    + rewrite length_map_rows. exact L1.
    + rewrite (existsb_map_rows _ (fun y => below y (d_lo (o_dist c)))). exact E2.
    + rewrite (existsb_map_rows _ (fun y => above y (d_hi (o_dist c)))). exact E3.
    + rewrite ys_map_rows. exact E4.
    + rewrite Xs_map_rows. fold T. rewrite (transform_rows_units _ _ _ _ P). exact E7.
    + unfold start_env in *. cbn [rescale_batch b_rows b_p]. rewrite ws_map_rows, ys_map_rows. exact E8.
  - exists sc, sc'. rewrite app_nil_r. split; [exact P|]. cbn [s_prep s_scaler s_nfin s_nobs s_ntrain s_J s_isreg s_work s_dev].
    unfold start_env. cbn [rescale_batch b_rows b_p e_ntrain]. rewrite ws_map_rows. repeat split. discriminate.
Qed.

Lemma gam_twin_predict l s s' r p X : gam_twin l s s' ->
  snd (predict_parameters c r p (map T X) s') = snd (predict_parameters c r p X s).
Proof.
  intros (sc & sc' & P & Esc & Epr & Enf & Eno & ->).
  pose proof (transform_rows_units _ _ _ X P) as E. pose proof (sc_pair_check a b _ _ _ _ _ p P) as K.
  destruct s as [a1 a2 a3 a4 a5 a6 a7 a8 a9]. cbn in Esc, Enf, Epr. subst.
  unfold predict_parameters, gfitted, gvalidate_old, bnd, read, lift, ret, raise.
  cbn [s_prep s_scaler s_nfin s_nobs s_ntrain s_J s_isreg s_work s_dev].
  rewrite map_length.
  destruct ((length X <? 1)%nat || (p <? 1)%nat); [auto|].
  cbn [s_prep s_scaler s_nfin s_nobs s_ntrain s_J s_isreg s_work s_dev].
  destruct (Nat.eqb p (b_p d)); [|auto].
  cbn [s_prep s_scaler s_nfin s_nobs s_ntrain s_J s_isreg s_work s_dev]. rewrite K.
  destruct (sc_do sc && _); [auto|].
  cbn [s_prep s_scaler s_nfin s_nobs s_ntrain s_J s_isreg s_work s_dev]. rewrite E.
  destruct (arrays c pr p (map (scaler_transform sc) X)); [|auto].
  cbn [s_prep s_scaler s_nfin s_nobs s_ntrain s_J s_isreg s_work s_dev]. destruct a8; auto.
Qed.

Lemma gam_update_units l s s' e s1 : weights_nonneg (b_rows d ++ l) -> weights_nonneg (b_rows e) ->
  gam_twin l s s' -> gam_update ops c e s = (s1, Ok tt) ->
  exists s1', gam_update ops c (rescale_batch a b e) s' = (s1', Ok tt) /\ gam_twin (l ++ b_rows e) s1 s1'.
Proof.
  intros Hw Hwe TW H.
  destruct (gam_update_ok ops c e s s1 H) as (n0 & pr' & fv & sc0 & sc1 & X & w0 & w1 & w & dev0 & it0 & isreg & dv & n &
    L1 & L2 & Q & E1 & E2 & A1 & A2 & A3 & A4 & A5 & A6 & EP & Es & EX & EW & EO & E).
  assert (EP' : forall s2, gam_twin l s s2 -> snd (predict_parameters c true (b_p e) (map T (Xs (b_rows e))) s2) = Ok fv).
  { intros s2 T2. rewrite (gam_twin_predict l s s2); auto. }
  pose proof (EP' _ TW) as EPs. clear EP'.
  destruct TW as (sc & sc' & P & Esc & Epr & Enf & Eno & ->).
  rewrite Esc in A3. injection A3 as <-. rewrite Epr in A2. injection A2 as <-.
  destruct (scaler_update_units a b _ _ _ _ _ _ _ _ Hf P gunits_vary Hw Hwe Es) as (sc1' & Es' & P'). fold T in Es'.
  destruct s as [a1 a2 a3 a4 a5 a6 a7 a8 a9].
  cbn [s_prep s_scaler s_nfin s_nobs s_ntrain s_J s_isreg s_work s_dev] in *. subst a1 a2 a3 a4 a7 a8 a9.
  assert (Ep : b_p d = b_p e) by (apply Q; reflexivity).
  destruct (predict_parameters c true (b_p e) (map T (Xs (b_rows e))) _) as [s2 r] eqn:EPs' in EPs. cbn [snd] in EPs. subst r.
  destruct (predict_parameters_ok c _ _ _ _ _ _ EPs') as (sc2 & pr2 & A & w2 & -> & B1 & B2 & B3 & B4 & B5 & B6 & B7 & B8 & B9).
  cbn [s_prep s_scaler s_nfin s_nobs s_ntrain s_J s_isreg s_work s_dev] in *. injection B1 as <-. injection B2 as <-. injection B3 as <-.
  eexists. split.
  - apply (gam_update_run ops c (rescale_batch a b e) n0 pr fv sc' sc1' X w0 w1 w dev0 it0 isreg dv n); cbn [rescale_batch b_rows b_p]; auto.
    + rewrite length_map_rows. exact L1.
    + rewrite (existsb_map_rows _ (fun y => below y (d_lo (o_dist c)))). exact E1.
    + rewrite (existsb_map_rows _ (fun y => above y (d_hi (o_dist c)))). exact E2.
    + rewrite Xs_map_rows. fold T. intros s3 K1 K2 K3 K4.
      rewrite (predict_parameters_run c true (b_p e) (map T (Xs (b_rows e))) s3 sc' pr A w0); auto.
      * rewrite B9. reflexivity.
      * intros q Eq. rewrite K4 in Eq. injection Eq as <-. exact Ep.
    + rewrite Xs_map_rows. fold T. rewrite (transform_rows_units _ _ _ _ P'). exact EX.
    + unfold again_work in *. cbn [rescale_batch b_rows b_p]. destruct (o_cautious c); auto.
      destruct (cautious_bounds c fv) as [lh|]; [|discriminate EW]. cbn [bind] in *.
      rewrite (existsb_map_rows _ (fun y => Rltb y (fst lh) || Rltb (snd lh) y)). exact EW.
    + unfold again_env in *. cbn [rescale_batch b_rows b_p]. rewrite ws_map_rows, ys_map_rows. exact EO.
  - subst s1. exists sc1, sc1'. split; [exact P'|]. cbn [s_prep s_scaler s_nfin s_nobs s_ntrain s_J s_isreg s_work s_dev].
    unfold again_env. cbn [rescale_batch b_rows b_p e_ntrain]. rewrite ws_map_rows. repeat split. discriminate.
Qed.

Lemma gam_history_units ds : forall l s s' s1, weights_nonneg (b_rows d ++ l) -> Forall (fun e => weights_nonneg (b_rows e)) ds ->
  gam_twin l s s' -> gam_history ops c ds s = Ok s1 ->
  exists l1 s1', gam_history ops c (map (rescale_batch a b) ds) s' = Ok s1' /\ gam_twin l1 s1 s1'.
Proof.
  induction ds as [|e ds IH]; intros l s s' s1 Hw Hws TW H.
  - injection H as <-. exists l, s'. auto.
  - cbn [gam_history map] in *. unfold gpartial_fit in *. inversion Hws as [|? ? He Hds]; subst.
    assert (F : gis_fitted s = true /\ gis_fitted s' = true).
    { destruct TW as (sc & sc' & P & Esc & Epr & Enf & Eno & ->). unfold gis_fitted. cbn [s_nobs]. destruct (s_nobs s); auto; congruence. }
    destruct F as [F F']. rewrite F in H. rewrite F'.
    destruct (gam_update ops c e s) as [s2 [[]|]] eqn:E; [|discriminate].
    destruct (gam_update_units l s s' e s2 Hw He TW E) as (s2' & E2 & TW2).
    rewrite E2. apply (IH (l ++ b_rows e) s2 s2' s1); auto.
    unfold weights_nonneg in *. rewrite !Forall_app in *. tauto.
Qed.
End GAM.

Lemma C95_gam_lemma {M} (ops : method_ops M) c a b d ds s :
  (forall pr, s_prep s = Some pr -> 0 <= p_forget pr O < 1) ->
  change_of_units (o_scale c) (b_p d) a b -> scaled_columns_vary (o_scale c) d ->
  Forall (fun e => weights_nonneg (b_rows e)) (d :: ds) ->
  gam_history ops c (d :: ds) new_gam = Ok s ->
  exists s', gam_history ops c (map (rescale_batch a b) (d :: ds)) new_gam = Ok s' /\
    s_work s' = s_work s /\ s_dev s' = s_dev s /\
    forall r p X, snd (predict_parameters c r p (map (rescale a b) X) s') = snd (predict_parameters c r p X s).
Proof.
  intros Hf Hu Hv Hw H.
  assert (D : o_scale c = ScaleNone \/ o_scale c <> ScaleNone) by (destruct (o_scale c); auto; right; discriminate).
  destruct D as [D|D].
  - rewrite D in Hu. rewrite (map_rescale_none _ _ _ _ Hu). exists s. split; [exact H|]. split; auto. split; auto.
    intros r p X. rewrite (rescale_none _ _ _ Hu), map_id. auto.
  - inversion Hw as [|? ? Hd Hds]; subst. cbn [map gam_history] in *. unfold gpartial_fit in H at 1. change (gis_fitted (@new_gam M)) with false in H. cbv iota in H.
    destruct (gam_fit ops c d new_gam) as [s0 [[]|]] eqn:E; [|discriminate].
    pose proof E as E0. apply gam_fit_ok in E0.
    destruct E0 as (pr & ? & ? & ? & ? & ? & ? & ? & ? & _ & _ & _ & _ & _ & _ & _ & _ & _ & _ & Es).
    assert (Epr : s_prep s0 = Some pr) by (subst s0; reflexivity).
    assert (Kpr : s_prep s = Some pr).
    { assert (N : s_nobs s0 <> None) by (rewrite Es; cbn [s_nobs]; discriminate).
      clear E Es Hf Hw Hv Hu Hds. revert s0 H Epr N. induction ds as [|e ds IH]; intros s0 H Epr N; [injection H as <-; auto|].
      cbn [gam_history] in H. unfold gpartial_fit, gis_fitted in H. destruct (s_nobs s0); [|contradiction].
      destruct (gam_update ops c e s0) as [s2 [[]|]] eqn:E; [|discriminate].
      apply gam_update_ok in E.
      destruct E as (? & pr' & ? & ? & ? & ? & ? & ? & ? & ? & ? & ? & ? & ? & _ & _ & _ & _ & _ & _ & A & _ & _ & _ & _ & _ & _ & _ & _ & _ & Es).
      apply (IH s2); auto; subst s2; cbn; congruence. }
    destruct (gam_fit_units a b ops c d pr (Hf pr Kpr) D Hu Hv new_gam s0 Hd E Epr) as (s0' & E0 & TW).
    unfold gpartial_fit at 1. change (gis_fitted (@new_gam M)) with false. cbv iota. rewrite E0.
    destruct (gam_history_units a b ops c d pr (Hf pr Kpr) Hu Hv ds [] s0 s0' s) as (l1 & s1' & E1 & TW1); auto.
    { rewrite app_nil_r. exact Hd. }
    exists s1'. split; [exact E1|]. split; [|split].
    + destruct TW1 as (? & ? & _ & _ & _ & _ & _ & ->). reflexivity.
    + destruct TW1 as (? & ? & _ & _ & _ & _ & _ & ->). reflexivity.
    + intros r p X. apply (gam_twin_predict a b c d pr Hu l1); auto.
Qed.
