(** Lemmas: fit, update and predictions of distributional regression under a change of the
    columns and a shift of the response (ordinary least squares). *)
From Coq Require Import Reals List Bool Arith Lra Lia FunctionalExtensionality.
From Verif Require Import Base Lin Data M_Gram S_Gram M_OLS M_Scaler M_Equation M_Utils M_Links M_State M_LM S_LM M_GAMLSS S_GAMLSS S_Units S_Equi.
From Verif Require Import L_GAM2 L_GAM6 L_GAM8 L_GAM10 L_GAM11 L_GAM12 L_GAM15 L_Units2 L_Fitted L_Equi1 L_Equi2.
Import ListNotations.
Open Scope R_scope.
Open Scope st_scope.

Lemma nth_map_in {A} (g : A -> vec) (l : list A) i (z : A) v : (i < length l)%nat -> nth i (map g l) v = g (nth i l z).
Proof. intros H. rewrite (nth_indep _ v (g z)) by (now rewrite map_length). apply map_nth. Qed.
(** * Model matrices *)
Lemma model_design pr ncol p X A : make_model_array (p_eq pr p) (p_icpt pr p) ncol X = Ok A ->
  A = (design_width pr ncol p, map (design_row pr ncol p) X).
Proof.
  unfold design_width, design_row. destruct (make_model_array_rows (p_eq pr p) (p_icpt pr p) ncol) as [r Hr]. rewrite Hr, (Hr []).
  destruct r as [[q g]|]; [|discriminate]. cbn. intros H. injection H as <-. f_equal. apply map_ext. intros x. now rewrite Hr.
Qed.
Lemma arrays_design {M} (c : gam_cfg M) pr ncol X A p : arrays c pr ncol X = Ok A -> (p < d_n (o_dist c))%nat ->
  A p = (design_width pr ncol p, map (design_row pr ncol p) X).
Proof. intros H Hp. now apply model_design, (arrays_model c pr ncol X A p H). Qed.
Lemma arrays_any {M} (c : gam_cfg M) pr ncol X A : arrays c pr ncol X = Ok A -> forall X', exists A', arrays c pr ncol X' = Ok A'.
Proof.
  unfold arrays. destruct (all_arrays_rows pr ncol (seq 0 (d_n (o_dist c)))) as [r Hr]. rewrite Hr. intros H X'. rewrite Hr.
  destruct r; [cbn; eauto|discriminate].
Qed.

(** * Twin batches *)
Definition twin_batch (h : vec -> vec) (a : R) (b : batch) : batch :=
  mk_batch (b_p b) (map (fun o => mkobs (h (ox o)) (oy o + a) (ow o)) (b_rows b)).
Section Obj.
Context (inv : nat -> mat -> option mat) (c : gam_cfg unit) (pr : prep) (ncol : nat).
Context (h : vec -> vec) (a : R) (T T' : nat -> mat) (u : nat -> vec).
Notation d := (o_dist c).
Notation ops := (ols_ops inv).
Notation K := (design_width pr ncol).
Hypothesis HI : matinv_spec inv.
Hypothesis HL : location_family d a.
Hypothesis Hrow : S_GAMLSS.rowwise d.
Hypothesis Hcond : o_cond_start c = false.
Hypothesis Hf : forall p, 0 <= p_forget pr p < 1.
Hypothesis Hh : (forall x, h x = x) \/ o_scale c = ScaleNone.
Hypothesis Hdes : forall p x, (p < d_n d)%nat -> row_rel (K p) (T p) (u p) (location a p) (design_row pr ncol p x) (design_row pr ncol p (h x)).
Hypothesis HT : forall p, (p < d_n d)%nat -> is_inverse (K p) (T p) (T' p).
Notation tw := (twin_batch h a).

Definition ok_scaler (sc : scaler) : Prop := (forall x, h x = x) \/ sc_do sc = false.
Lemma scale_twin sc x : ok_scaler sc -> scaler_transform sc (h x) = h (scaler_transform sc x).
Proof. intros [H|H]; [now rewrite !H|]. unfold scaler_transform. now rewrite H. Qed.
Lemma tw_ws b : ws (b_rows (tw b)) = ws (b_rows b).
Proof. unfold twin_batch, ws. cbn. rewrite map_map. reflexivity. Qed.
Lemma tw_Xs b : Xs (b_rows (tw b)) = map h (Xs (b_rows b)).
Proof. unfold twin_batch, Xs. cbn. rewrite !map_map. reflexivity. Qed.
Lemma tw_ys b : ys (b_rows (tw b)) = map (fun y => y + a) (ys (b_rows b)).
Proof. unfold twin_batch, ys. cbn. rewrite !map_map. reflexivity. Qed.
Lemma tw_len b : length (b_rows (tw b)) = length (b_rows b).
Proof. apply map_length. Qed.
Lemma scaler_fit_twin f p b sc : scaler_fit f (o_scale c) p (b_rows b) = Ok sc ->
  scaler_fit f (o_scale c) p (b_rows (tw b)) = Ok sc /\ ok_scaler sc.
Proof.
  intros E. unfold scaler_fit in *. rewrite tw_len, tw_ws, tw_Xs. unfold ok_scaler.
  destruct Hh as [H|H]; [|rewrite H in *].
  - rewrite (map_ext h (fun x => x)), map_id by exact H. auto.
  - destruct (_ <? 2)%nat; [discriminate|]. cbn [selection] in *. split; [exact E|]. right. injection E as <-. reflexivity.
Qed.
Lemma scaler_update_twin sc b sc1 : ok_scaler sc -> scaler_update sc (b_rows b) = Ok sc1 ->
  scaler_update sc (b_rows (tw b)) = Ok sc1 /\ ok_scaler sc1.
Proof.
  intros Hs E. unfold scaler_update in *. rewrite tw_len, tw_ws.
  destruct (_ <? 1)%nat; [discriminate|]. destruct Hs as [H|H].
  - split; [|now left]. rewrite <- E. unfold twin_batch. cbn [b_rows]. destruct (sc_do sc); [|reflexivity]. f_equal.
    set (s0 := mk_scaler _ _ _ _ _ _ _ _). clearbody s0. clear E. revert s0. induction (b_rows b) as [|o l IH]; intros s0; cbn; [reflexivity|].
    rewrite H. apply IH.
  - rewrite H in *. split; [exact E|]. right. injection E as <-. reflexivity.
Qed.
Lemma tw_below b : existsb (fun o => below (oy o) (d_lo d)) (b_rows (tw b)) = existsb (fun o => below (oy o) (d_lo d)) (b_rows b).
Proof.
  destruct HL as (_ & _ & _ & _ & _ & _ & _ & _ & H & _). unfold twin_batch. cbn [b_rows]. induction (b_rows b) as [|o l IH]; cbn [map existsb oy]; [reflexivity|].
  now rewrite IH, (proj1 (H _)).
Qed.
Lemma tw_above b : existsb (fun o => above (oy o) (d_hi d)) (b_rows (tw b)) = existsb (fun o => above (oy o) (d_hi d)) (b_rows b).
Proof.
  destruct HL as (_ & _ & _ & _ & _ & _ & _ & _ & H & _). unfold twin_batch. cbn [b_rows]. induction (b_rows b) as [|o l IH]; cbn [map existsb oy]; [reflexivity|].
  now rewrite IH, (proj2 (H _)).
Qed.
Lemma arrays_twin X A : arrays c pr ncol X = Ok A -> exists A', arrays c pr ncol (map h X) = Ok A' /\
  forall p, (p < d_n d)%nat -> fst (A p) = K p /\ fst (A' p) = K p /\ length (snd (A p)) = length X /\
    Forall2 (row_rel (K p) (T p) (u p) (location a p)) (snd (A p)) (snd (A' p)).
Proof.
  intros E. destruct (arrays_any _ _ _ _ _ E (map h X)) as (A' & E'). exists A'. split; [exact E'|]. intros p Hp.
  rewrite (arrays_design c pr ncol X A p E Hp), (arrays_design c pr ncol _ A' p E' Hp). cbn [fst snd]. rewrite map_length.
  do 3 (split; [reflexivity|]). rewrite map_map. clear E E'. induction X as [|x X IH]; cbn; constructor; auto.
Qed.
Lemma arrays_scaled sc X A : ok_scaler sc -> arrays c pr ncol (map (scaler_transform sc) X) = Ok A ->
  exists A', arrays c pr ncol (map (scaler_transform sc) (map h X)) = Ok A' /\
  forall p, (p < d_n d)%nat -> fst (A p) = K p /\ fst (A' p) = K p /\ length (snd (A p)) = length X /\
    Forall2 (row_rel (K p) (T p) (u p) (location a p)) (snd (A p)) (snd (A' p)).
Proof.
  intros Hs E. destruct (arrays_twin _ _ E) as (A' & E' & H). exists A'. rewrite map_length in H. split; [|exact H]. rewrite <- E'.
  f_equal. rewrite !map_map. apply map_ext. intros x. now apply scale_twin.
Qed.

(** * State relation *)
Notation WT n fl := (twin_work (d_n d) (p_forget pr) a K T u n fl).
Definition gam_twin (s s' : gam unit) : Prop :=
  s_prep s = Some pr /\ s_prep s' = Some pr /\
  s_scaler s' = s_scaler s /\ (forall sc, s_scaler s = Some (Some sc) -> ok_scaler sc) /\
  s_nfin s = Some ncol /\ s_nfin s' = Some ncol /\ s_nobs s' = s_nobs s /\ s_ntrain s' = s_ntrain s /\ s_J s' = s_J s /\
  s_isreg s' = s_isreg s /\ s_dev s' = s_dev s /\
  exists w w' n fl, s_work s = Some w /\ s_work s' = Some w' /\ WT n fl w w'.
Definition stored (s : gam unit) : Prop := exists w, s_work s = Some w /\ forall p, (p < d_n d)%nat -> w_x w p <> None.

Lemma fit_twin ms b s s0 s1 : prepare c = Ok (pr, ms) -> weights_nonneg (b_rows b) -> b_p b = ncol ->
  gam_fit ops c b s = (s1, Ok tt) ->
  exists s1', gam_fit ops c (tw b) s0 = (s1', Ok tt) /\ gam_twin s1 s1'.
Proof.
  intros Hpr HW Hb H. apply gam_fit_ok in H.
  destruct H as (pr' & ms' & fv & js & sc & X & w & dv & m & Ep & B1 & B2 & V1 & V2 & Ef & Ej & Esc & EX & Eo & ->).
  rewrite Hpr in Ep. injection Ep as <- <-.
  destruct (scaler_fit_twin _ _ _ _ Esc) as [Esc' Hsc].
  rewrite Hb in *.
  destruct (arrays_scaled sc _ _ Hsc EX) as (X' & EX' & HX).
  assert (Lf : length fv = length (b_rows b)) by (rewrite (Hrow _ _ Ef); apply map_length).
  assert (Ef' : d_init d (ys (b_rows (tw b))) = Ok (map (moved a) fv)) by (rewrite tw_ys; now apply HL).
  set (e := start_env c pr b X). set (e' := start_env c pr (tw b) X').
  assert (S : sim e (length (b_rows b)) a True K T u eq (outer_fit ops e (enough_fuel c)) (outer_fit ops e' (enough_fuel c))).
  { apply (sim_outer_fit inv e e' (length (b_rows b)) a True K T T' u); auto; unfold e, e', start_env; cbn [e_cfg e_prep e_nobs e_ntrain e_isreg e_X e_y e_w]; rewrite ?tw_ws, ?tw_ys; auto.
    - intros p Hp. destruct (HX p Hp) as (A1 & A2 & _). auto.
    - intros p Hp. now apply HX.
    - apply map_length.
    - apply map_length.
    - intros p Hp. destruct (HX p Hp) as (_ & _ & -> & _). apply map_length.
    - now apply weights_list. }
  destruct (S (start_work c pr ms fv) (start_work c pr ms (map (moved a) fv)) w (dv, m)) as (w' & r & Eo' & HWw & <-).
  { split; [exact Lf|]. split; [intros p Hp; left; auto|]. split; [intros p Hp; left; auto|].
    split; [intros p Hp [N|N]; exfalso; now apply N|]. split; [auto|]. repeat eexists. }
  { exact Eo. }
  eexists. split.
  - apply (gam_fit_run ops c (tw b) s0 pr ms (map (moved a) fv) js sc X' w' dv m Hpr); auto.
    + now rewrite tw_len.
    + change (b_p (tw b)) with (b_p b). now rewrite Hb.
    + now rewrite tw_below.
    + now rewrite tw_above.
    + change (b_p (tw b)) with (b_p b). now rewrite Hb.
    + change (b_p (tw b)) with (b_p b). now rewrite Hb.
    + change (b_p (tw b)) with (b_p b). rewrite Hb, tw_Xs. exact EX'.
  - unfold gam_twin, start_env. cbn [s_prep s_scaler s_nfin s_nobs s_ntrain s_J s_isreg s_work s_dev e_ntrain].
    change (b_p (tw b)) with (b_p b). rewrite tw_ws, Hb. do 3 (split; [reflexivity|]).
    split; [intros q Hq; injection Hq as <-; exact Hsc|]. do 7 (split; [reflexivity|]). exists w, w', (length (b_rows b)), True. auto.
Qed.

(** * Predictions *)
Lemma predicted_twin (r : bool) (X : list vec) A A' co co' : arrays c pr ncol X = Ok A -> arrays c pr ncol (map h X) = Ok A' ->
  (forall p, (p < d_n d)%nat -> coef_rel (K p) (T p) (u p) (co p) (co' p)) ->
  map (fun i q => let eta := dot (fst (A' q)) (nth i (snd (A' q)) (fun _ => 0)) (co' q) in
                  if r then d_inv d q eta else eta) (seq 0 (length X)) =
  map (moved a) (map (fun i q => let eta := dot (fst (A q)) (nth i (snd (A q)) (fun _ => 0)) (co q) in
                  if r then d_inv d q eta else eta) (seq 0 (length X))).
Proof.
  intros E E' H. rewrite map_map. apply map_ext_in. intros i Hi. apply in_seq in Hi. apply functional_extensionality. intros p. unfold moved. cbv zeta.
  destruct (Nat.lt_ge_cases p (d_n d)) as [Hp|Hp].
  - rewrite (arrays_design c pr ncol X A p E Hp), (arrays_design c pr ncol _ A' p E' Hp). cbn [fst snd]. rewrite map_map.
    rewrite (nth_map_in (fun x => design_row pr ncol p (h x)) X i (fun _ => 0)), (nth_map_in (design_row pr ncol p) X i (fun _ => 0)) by lia.
    rewrite (dot_rel _ _ _ _ _ _ _ _ (Hdes p (nth i X (fun _ => 0)) Hp) (H p Hp)).
    destruct r; [|reflexivity]. destruct p; [apply HL|]. cbn. now rewrite !Rplus_0_r.
  - rewrite (arrays_beyond c pr ncol X A p E Hp), (arrays_beyond c pr ncol _ A' p E' Hp). cbn [fst].
    destruct p as [|p]; [destruct HL as [Hn _]; lia|]. cbn. destruct r; ring.
Qed.
Lemma predict_twin r X s s' s1 out : gam_twin s s' -> stored s -> predict_parameters c r ncol X s = (s1, Ok out) ->
  predict_parameters c r ncol (map h X) s' = (s', Ok (map (moved a) out)).
Proof.
  intros (G1 & G2 & G3 & G4 & G5 & G6 & G7 & G8 & G9 & G10 & G11 & w & w' & n & fl & Gw & Gw' & HW) (w0 & Hw0 & Hst) P.
  rewrite Gw in Hw0. injection Hw0 as <-. apply predict_parameters_ok in P.
  destruct P as (sc & pr' & A & w0 & -> & P1 & P2 & P3 & P4 & P5 & P6 & P7 & P8 & ->).
  rewrite G1 in P2. injection P2 as <-. rewrite Gw in P3. injection P3 as <-.
  pose proof (G4 sc P1) as Hsc. destruct (arrays_scaled sc X A Hsc P8) as (A' & E' & _).
  rewrite (predict_parameters_run c r ncol (map h X) s' sc pr A' w'); rewrite ?map_length; auto; try congruence.
  do 2 f_equal. rewrite <- (map_length (scaler_transform sc) X).
  apply predicted_twin; [exact P8| |].
  - rewrite <- E'. f_equal. rewrite !map_map. apply map_ext. intros x. symmetry. now apply scale_twin.
  - intros p Hp. apply HW; auto.
Qed.

(** * Updates *)
Hypothesis Hconc : forall p, (p < d_n d)%nat -> concave_in d p.
Lemma again_twin b fv w w' w1 n fl : length fv = length (b_rows b) -> WT n fl w w' -> (forall p, (p < d_n d)%nat -> w_x w p <> None) ->
  again_work c pr b fv w = Ok w1 ->
  exists w1', again_work c pr (tw b) (map (moved a) fv) w' = Ok w1' /\ WT (length (b_rows b)) False w1 w1'.
Proof.
  intros L (L0 & G & N & B & Fl & x & y & r & co & g1 & g2 & g3 & xn & yn & ro & ->) Hst. unfold again_work.
  assert (HR : forall mn, WT (length (b_rows b)) False (restart_work c pr fv mn w)
     (restart_work c pr (map (moved a) fv) mn (mk_work (w_method w) (map (moved a) (w_fv w)) x y r (w_msd w) co (w_path w) (w_sum w) (w_mean w)
    (w_iter w) (w_step w) (w_itinner w) (w_min w) g1 g2 g3 xn yn (w_sumn w) (w_meann w) ro (w_msd_old w)))).
  { intros mn. split; [exact L|]. split; [exact G|]. split; [exact G|]. split; [|split; [|repeat eexists]].
    - intros p Hp Hs. apply B; [exact Hp|]. cbn in Hs. tauto.
    - intros p Hp. right. exact (Hst p Hp). }
  destruct (o_cautious c).
  - destruct fv as [|th [|th' t]]; try discriminate. cbn [map]. unfold cautious_bounds.
    assert (HP : forall q v, number_or_nan (d_ppf d q th) = Ok v -> number_or_nan (d_ppf d q (moved a th)) = Ok (v + a)).
    { intros q v. destruct HL as (_ & _ & _ & _ & _ & _ & _ & Hq & _). rewrite Hq. destruct (d_ppf d q th); [|discriminate]. cbn. intros H. now injection H as ->. }
    destruct (number_or_nan (d_ppf d (5 / 1000) th)) as [lo|] eqn:E1; [|discriminate]. rewrite (HP _ _ E1). cbn [bind].
    destruct (number_or_nan (d_ppf d (995 / 1000) th)) as [hi|] eqn:E2; [|discriminate]. rewrite (HP _ _ E2). cbn [bind fst snd].
    intros H. injection H as <-. eexists. split; [reflexivity|].
    assert (Eb : existsb (fun o => Rltb (oy o) (lo + a) || Rltb (hi + a) (oy o)) (b_rows (tw b)) = existsb (fun o => Rltb (oy o) lo || Rltb hi (oy o)) (b_rows b)).
    { unfold twin_batch. cbn [b_rows]. clear. induction (b_rows b) as [|o l IH]; cbn [map existsb oy]; [reflexivity|]. rewrite IH. f_equal. f_equal.
      - destruct (Rltb (oy o) lo) eqn:E, (Rltb (oy o + a) (lo + a)) eqn:E'; auto; exfalso;
        repeat match goal with H : Rltb _ _ = true |- _ => apply Rltb_true in H | H : Rltb _ _ = false |- _ => apply Rltb_false in H end; lra.
      - destruct (Rltb hi (oy o)) eqn:E, (Rltb (hi + a) (oy o + a)) eqn:E'; auto; exfalso;
        repeat match goal with H : Rltb _ _ = true |- _ => apply Rltb_true in H | H : Rltb _ _ = false |- _ => apply Rltb_false in H end; lra. }
    rewrite Eb. destruct (HR (if (0 <? o_prefit_update c)%nat then o_prefit_update c else w_min w)) as (R1 & R2 & R3 & R4 & R5 & _).
    split; [exact R1|]. split; [exact R2|]. split; [exact R3|]. split; [exact R4|]. split; [exact R5|]. repeat eexists.
  - intros H. injection H as <-. eexists. split; [reflexivity|]. apply HR.
Qed.
Lemma commit_twin n w w' : WT n False w w' -> WT n True (commit_work w) (commit_work w').
Proof.
  intros (L0 & G & N & B & Fl & x & y & r & co & g1 & g2 & g3 & xn & yn & ro & ->).
  split; [exact L0|]. split; [exact N|]. split; [exact N|]. split; [|split; [auto|repeat eexists]].
  intros p Hp Hs. apply B; [exact Hp|]. cbn in Hs. tauto.
Qed.
Lemma update_twin b s s' s1 : weights_nonneg (b_rows b) -> gam_twin s s' -> stored s ->
  gam_update ops c b s = (s1, Ok tt) ->
  exists s1', gam_update ops c (tw b) s' = (s1', Ok tt) /\ gam_twin s1 s1' /\ stored s1.
Proof.
  intros HW HG Hst H. apply gam_update_ok in H.
  destruct H as (n0 & pr' & fv & sc0 & sc & X & w0 & w1 & w & dev0 & it0 & isreg & dv & m & B1 & B2 & B3 & V1 & V2 &
    E1 & E2 & E3 & E4 & E5 & E6 & Efv & Esc & EX & Ew & Eo & ->).
  pose proof HG as (G1 & G2 & G3 & G4 & G5 & G6 & G7 & G8 & G9 & G10 & G11 & w0' & w' & n & fl & Gw & Gw' & HWk).
  rewrite G1 in E2. injection E2 as <-. rewrite E4 in Gw. injection Gw as <-.
  assert (Hb : b_p b = ncol) by (symmetry; apply B3, G5).
  pose proof (G4 sc0 E3) as Hsc0. destruct (scaler_update_twin _ _ _ Hsc0 Esc) as [Esc' Hsc].
  rewrite Hb in *.
  destruct (arrays_scaled sc _ _ Hsc EX) as (X' & EX' & HX).
  destruct (predict_parameters c true ncol (Xs (b_rows b)) s) as [s2 out] eqn:P. cbn in Efv. subst out.
  pose proof (predict_twin true (Xs (b_rows b)) s s' s2 fv HG Hst P) as P'.
  pose proof P as Pk. apply predict_parameters_ok in Pk.
  destruct Pk as (sc0' & pr' & A & w0'' & _ & P1 & _ & _ & P4 & P5 & P6 & P7 & P8 & P9).
  rewrite E3 in P1. injection P1 as <-.
  assert (Lf : length fv = length (b_rows b)) by (rewrite P9, map_length, seq_length; apply map_length).
  assert (Hst0 : forall p, (p < d_n d)%nat -> w_x w0 p <> None).
  { destruct Hst as (w3 & E & Hst). rewrite E4 in E. injection E as <-. exact Hst. }
  destruct (again_twin b fv w0 w' w1 n fl Lf HWk Hst0 Ew) as (w1' & Ew' & HW1).
  set (e := again_env c pr isreg n0 b X) in *. set (e' := again_env c pr isreg n0 (tw b) X').
  assert (S : sim e (length (b_rows b)) a False K T u eq (outer_update ops e dev0 (enough_fuel c)) (outer_update ops e' dev0 (enough_fuel c))).
  { apply (sim_outer_update inv e e' (length (b_rows b)) a False K T T' u); auto; unfold e, e', again_env; cbn [e_cfg e_prep e_nobs e_ntrain e_isreg e_X e_y e_w]; rewrite ?tw_ws, ?tw_ys; auto.
    - intros p Hp. destruct (HX p Hp) as (A1 & A2 & _). auto.
    - intros p Hp. now apply HX.
    - apply map_length.
    - apply map_length.
    - intros p Hp. destruct (HX p Hp) as (_ & _ & -> & _). apply map_length.
    - now apply weights_list. }
  destruct (S w1 w1' w (dv, m) HW1 Eo) as (w2 & r & Eo' & HWw & <-).
  destruct s' as [b1 b2 b3 b4 b5 b6 b7 b8 b9].
  cbn [s_prep s_scaler s_nfin s_nobs s_ntrain s_J s_isreg s_work s_dev] in G2, G3, G6, G7, G8, G9, G10, G11, Gw'. clear P9. subst b1 b2 b3 b4 b5 b6 b7 b8 b9.
  rewrite E3, E1, E5, E6 in *.
  eexists. split; [|split].
  - apply (gam_update_run ops c (tw b) n0 pr (map (moved a) fv) sc0 sc X' w' w1' w2 dev0 it0 isreg dv m (Some ncol) (s_ntrain s) (s_J s)); change (b_p (tw b)) with (b_p b); rewrite ?Hb; auto.
    + now rewrite tw_len.
    + intros q Hq. now injection Hq.
    + now rewrite tw_below.
    + now rewrite tw_above.
    + intros t Q1 Q2 Q3 Q4. rewrite tw_Xs.
      apply predict_parameters_ok in P'. destruct P' as (sc' & pr1 & A' & w'' & _ & P1' & P2' & P3' & P4' & P5' & P6' & P7' & P8' & ->).
      cbn in P1', P2', P3'. injection P1' as <-. injection P2' as <-. injection P3' as <-.
      apply (predict_parameters_run c true ncol _ t sc0 pr A' w'); auto. intros q Hq. congruence.
    + rewrite tw_Xs. exact EX'.
  - unfold gam_twin. cbn [s_prep s_scaler s_nfin s_nobs s_ntrain s_J s_isreg s_work s_dev].
    unfold again_env. cbn [e_ntrain]. rewrite tw_ws. do 3 (split; [reflexivity|]). split; [intros q Hq; injection Hq as <-; exact Hsc|].
    split; [exact G5|]. do 6 (split; [reflexivity|]). exists (commit_work w), (commit_work w2), (length (b_rows b)), True. split; [reflexivity|].
    split; [reflexivity|]. now apply commit_twin.
  - exists (commit_work w). split; [reflexivity|]. intros p Hp.
    destruct HWw as (_ & _ & _ & _ & Fl & _). destruct (Fl p Hp) as [[]|Q]. exact Q.
Qed.
End Obj.
