(** Lemmas: shifted responses and recoded columns over whole histories; the location families. *)
From Coq Require Import Reals List Bool Arith Lra Lia FunctionalExtensionality.
From Verif Require Import Base Lin Data M_Gram S_Gram M_OLS M_Scaler M_Equation M_Utils M_Links M_DistTable M_Dist M_Init M_GAMDist M_State M_LM S_LM M_GAMLSS S_GAMLSS S_Units S_Recode S_Equi.
From Verif Require Import L_GAM2 L_GAM6 L_GAM8 L_GAM10 L_GAM11 L_GAM12 L_GAM15 L_Units2 L_Fitted L_Recode L_Equi1 L_Equi2 L_Equi3.
Import ListNotations.
Open Scope R_scope.
Open Scope st_scope.

Section Hist.
Context (inv : nat -> mat -> option mat) (c : gam_cfg unit) (pr : prep) (ms : nat -> option unit) (ncol : nat).
Context (h : vec -> vec) (a : R) (T T' : nat -> mat) (u : nat -> vec).
Notation d := (o_dist c).
Notation ops := (ols_ops inv).
Notation K := (design_width pr ncol).
Hypothesis HI : matinv_spec inv.
Hypothesis HL : location_family d a.
Hypothesis Hrow : S_GAMLSS.rowwise d.
Hypothesis Hcond : o_cond_start c = false.
Hypothesis Hf : forall p, 0 <= p_forget pr p < 1.
Hypothesis Hpr : prepare c = Ok (pr, ms).
Hypothesis Hh : (forall x, h x = x) \/ o_scale c = ScaleNone.
Hypothesis Hdes : forall p x, (p < d_n d)%nat -> row_rel (K p) (T p) (u p) (location a p) (design_row pr ncol p x) (design_row pr ncol p (h x)).
Hypothesis HT : forall p, (p < d_n d)%nat -> is_inverse (K p) (T p) (T' p).
Notation tw := (twin_batch h a).

Lemma fit_stored b s s0 : gam_fit ops c b s = (s0, Ok tt) -> cycles s0 <> Some O -> weights_nonneg (b_rows b) -> stored c s0.
Proof.
  intros H Hcy Hw. pose proof H as H1. apply gam_fit_ok in H1.
  destruct H1 as (pr' & ms' & fv & js & sc & X & w & dv & m & Ep & _ & _ & _ & _ & _ & _ & _ & _ & _ & ->).
  rewrite Hpr in Ep. injection Ep as <- <-. eexists. split; [reflexivity|]. intros p Hp.
  destruct (C84_fit_lemma inv c HI b s _ pr p H Hcy Hrow Hcond Hw eq_refl Hp (Hf p)) as (V & sc' & _ & _ & _ & _ & w' & Ew & _ & (G & h0 & Gx & _) & _).
  cbn in Ew. injection Ew as <-. congruence.
Qed.
Lemma updates_twin bs : (bs = [] \/ forall p, (p < d_n d)%nat -> concave_in d p) -> forall s s' s1,
  Forall (fun b => weights_nonneg (b_rows b)) bs -> gam_twin c pr ncol h a T u s s' -> stored c s -> s_nobs s <> None ->
  gam_history ops c bs s = Ok s1 ->
  exists s1', gam_history ops c (map tw bs) s' = Ok s1' /\ gam_twin c pr ncol h a T u s1 s1' /\ stored c s1.
Proof.
  intros [->|Hc].
  { intros s s' s1 _ HG HS _ H. cbn in *. injection H as <-. eauto. }
  induction bs as [|b bs IH]; intros s s' s1 HW HG HS HN H; cbn [gam_history map] in *.
  { injection H as <-. eauto. }
  inversion HW; subst. pose proof HG as (_ & _ & _ & _ & _ & _ & G7 & _).
  unfold gpartial_fit, gis_fitted in *. rewrite G7. destruct (s_nobs s) as [n0|]; [|contradiction].
  destruct (gam_update ops c b s) as [t [[]|]] eqn:E; [|discriminate].
  destruct (update_twin inv c pr ncol h a T T' u HL Hf Hh Hdes HT Hc b s s' t H2 HG HS E) as (t' & E' & HG' & HS').
  rewrite E'. apply (IH t t' s1); auto. apply gam_update_ok in E.
  destruct E as (m0 & pr' & fv & sc0 & sc & X & w0 & w1 & w & dev0 & it0 & isreg & dv & m & E). decompose [and] E. subst t. cbn. discriminate.
Qed.
Lemma calls_twin b bs s : (bs = [] \/ forall p, (p < d_n d)%nat -> concave_in d p) ->
  Forall (fun b => weights_nonneg (b_rows b)) (b :: bs) -> b_p b = ncol -> after_calls ops c b bs s ->
  exists s', after_calls ops c (tw b) (map tw bs) s' /\ s_dev s' = s_dev s /\
    (forall r X out, snd (predict_parameters c r ncol X s) = Ok out -> snd (predict_parameters c r ncol (map h X) s') = Ok (map (moved a) out)) /\
    (forall p, (p < d_n d)%nat -> coef_rel (K p) (T p) (u p) (coefs s p) (coefs s' p)).
Proof.
  intros Hc HW Hb (s0 & E & Hcy & H). apply Forall_cons_iff in HW as [H2 H3].
  destruct (fit_twin inv c pr ncol h a T T' u HI HL Hrow Hcond Hf Hh Hdes HT ms b new_gam new_gam s0 Hpr H2 Hb E) as (s0' & E' & HG).
  pose proof (fit_stored b new_gam s0 E Hcy H2) as HS.
  destruct (updates_twin bs Hc s0 s0' s H3 HG HS) as (s' & H' & HG' & HS'); auto.
  { apply gam_fit_ok in E. destruct E as (pr' & ms' & fv & js & sc & X & w & dv & m & E). decompose [and] E. subst s0. cbn. discriminate. }
  exists s'. split.
  { exists s0'. split; [exact E'|]. split; [|exact H']. unfold cycles in *. destruct HG as (_ & _ & _ & _ & _ & _ & _ & _ & _ & _ & -> & _). exact Hcy. }
  pose proof HG' as (_ & _ & _ & _ & _ & _ & _ & _ & _ & _ & Gd & w & w' & n & fl & Gw & Gw' & HWk).
  split; [exact Gd|]. split.
  - intros r X out P. destruct (predict_parameters c r ncol X s) as [t o] eqn:Ep. cbn in P. subst o.
    now rewrite (predict_twin c pr ncol h a T u HL Hdes r X s s' t out HG' HS' Ep).
  - intros p Hp. unfold coefs. rewrite Gw, Gw'. destruct HS' as (w2 & Ew & Hst). rewrite Gw in Ew. injection Ew as <-. apply HWk; auto.
Qed.
End Hist.

(** * Shifted responses *)
Lemma twin_shift a b : twin_batch (fun x => x) a b = shift_batch a b.
Proof. reflexivity. Qed.
Definition shift_vec (a : R) (p : nat) : vec := fun j => match j with O => location a p | S _ => 0 end.
Lemma is_inverse_mid k : is_inverse k mid mid.
Proof. split; apply mmul_id_l. Qed.
Lemma dot_zero k x : dot k x (fun _ => 0) = 0.
Proof. unfold dot. rewrite (bsum_ext k _ (fun _ => 0)) by (intros; ring). apply bsum_0. Qed.
Lemma fit_prepared inv (c : gam_cfg unit) b s s0 pr ms : gam_fit (ols_ops inv) c b s = (s0, Ok tt) -> prepare c = Ok (pr, ms) ->
  exists X A, arrays c pr (b_p b) X = Ok A.
Proof.
  intros H Hpr. apply gam_fit_ok in H.
  destruct H as (pr' & ms' & fv & js & sc & X & w & dv & m & Ep & _ & _ & _ & _ & _ & _ & _ & EX & _). rewrite Hpr in Ep. injection Ep as <- <-. eauto.
Qed.
Lemma intercept_row pr ncol p X A : p_icpt pr p = true -> make_model_array (p_eq pr p) (p_icpt pr p) ncol X = Ok A ->
  (0 < design_width pr ncol p)%nat /\ forall x, design_row pr ncol p x 0%nat = 1.
Proof.
  unfold design_width, design_row. intros ->. unfold make_model_array.
  destruct (p_eq pr p); try (destruct (columns _ ncol) as [ks|]; [|discriminate]); cbn [bind fst map]; intros _; split; (lia || reflexivity).
Qed.
Lemma C125_shift_lemma inv (c : gam_cfg unit) a b bs s pr ms : matinv_spec inv -> location_family (o_dist c) a ->
  S_GAMLSS.rowwise (o_dist c) -> bs = [] \/ (forall p, (p < d_n (o_dist c))%nat -> concave_in (o_dist c) p) -> o_cond_start c = false ->
  prepare c = Ok (pr, ms) -> p_icpt pr 0 = true -> (forall p, 0 <= p_forget pr p < 1) ->
  Forall (fun b => weights_nonneg (b_rows b)) (b :: bs) -> after_calls (ols_ops inv) c b bs s ->
  exists s', after_calls (ols_ops inv) c (shift_batch a b) (map (shift_batch a) bs) s' /\ s_dev s' = s_dev s /\
    (forall r X out, snd (predict_parameters c r (b_p b) X s) = Ok out ->
       snd (predict_parameters c r (b_p b) X s') = Ok (map (moved a) out)) /\
    (forall p j, (p < d_n (o_dist c))%nat -> (j < design_width pr (b_p b) p)%nat ->
       coefs s' p j = coefs s p j + match j with O => location a p | S _ => 0 end).
Proof.
  intros HI HL Hrow Hc Hcond Hpr Hi Hf HW H. pose proof H as (s0 & E & _).
  destruct (fit_prepared inv c b new_gam s0 pr ms E Hpr) as (X & A & EX).
  pose proof HL as [Hn _].
  destruct (intercept_row pr (b_p b) 0 X (A 0%nat) Hi (arrays_model c pr (b_p b) X A 0 EX Hn)) as [Hk Hone].
  destruct (calls_twin inv c pr ms (b_p b) (fun x => x) a (fun _ => mid) (fun _ => mid) (shift_vec a) HI HL Hrow Hcond Hf Hpr) with (b := b) (bs := bs) (s := s)
    as (s' & H1 & H2 & H3 & H4); auto.
  - intros p x Hp. split.
    + intros i Hi'. symmetry. now apply mvec_id.
    + destruct p as [|p].
      * unfold shift_vec. destruct (design_width pr (b_p b) 0) as [|k]; [lia|]. unfold dot. rewrite bsum_shift, Hone.
        rewrite (bsum_ext k _ (fun _ => 0)) by (intros; ring). rewrite bsum_0. ring.
      * cbn [location]. unfold shift_vec, dot. rewrite (bsum_ext _ _ (fun _ => 0)); [apply bsum_0|]. intros [|j] _; cbn; ring.
  - intros p _. apply is_inverse_mid.
  - exists s'. split; [exact H1|]. split; [exact H2|]. split.
    + intros r Y out P. specialize (H3 r Y out P). now rewrite map_id in H3.
    + intros p j Hp Hj. specialize (H4 p Hp j Hj). cbv beta in H4. etransitivity; [|exact H4].
      transitivity (mvec (design_width pr (b_p b) p) mid (coefs s' p) j); [symmetry; now apply mvec_id|].
      unfold mvec. apply bsum_ext. intros i Hi'. f_equal. unfold transp, mid. now rewrite Nat.eqb_sym.
Qed.

(** * Recoded columns *)
Lemma location_zero p : location 0 p = 0.
Proof. now destruct p. Qed.
Lemma moved_zero th : moved 0 th = th.
Proof. apply functional_extensionality. intros p. unfold moved. rewrite location_zero. ring. Qed.
Lemma map_same {A} (g : A -> A) l : (forall x, g x = x) -> map g l = l.
Proof. intros H. induction l; cbn; congruence. Qed.
Lemma any_location d : (0 < d_n d)%nat -> location_family d 0.
Proof.
  intros Hn. unfold location_family. split; [exact Hn|].
  assert (E : forall o : option R, omap (fun v => v + 0) o = o) by (intros [v|]; cbn; [now rewrite Rplus_0_r|reflexivity]).
  repeat split; intros; rewrite ?Rplus_0_r, ?moved_zero, ?E; auto.
  rewrite !map_same; auto using moved_zero, Rplus_0_r.
Qed.
Lemma twin_recode p A b0 b : b_p b = p -> twin_batch (recode p A b0) 0 b = recode_batch A b0 b.
Proof. intros <-. unfold twin_batch, recode_batch. f_equal. apply map_ext. intros o. now rewrite Rplus_0_r. Qed.
Lemma C125_recode_lemma inv (c : gam_cfg unit) A A' b0 b bs s pr ms : matinv_spec inv -> is_inverse (b_p b) A A' ->
  (0 < d_n (o_dist c))%nat -> S_GAMLSS.rowwise (o_dist c) -> bs = [] \/ (forall p, (p < d_n (o_dist c))%nat -> concave_in (o_dist c) p) ->
  o_cond_start c = false -> o_scale c = ScaleNone ->
  prepare c = Ok (pr, ms) -> recodable pr (b_p b) (d_n (o_dist c)) b0 -> (forall p, 0 <= p_forget pr p < 1) ->
  Forall (fun d => weights_nonneg (b_rows d)) (b :: bs) -> Forall (fun d => b_p d = b_p b) bs -> after_calls (ols_ops inv) c b bs s ->
  exists s', after_calls (ols_ops inv) c (recode_batch A b0 b) (map (recode_batch A b0) bs) s' /\ s_dev s' = s_dev s /\
    (forall r X out, snd (predict_parameters c r (b_p b) X s) = Ok out ->
       snd (predict_parameters c r (b_p b) (map (recode (b_p b) A b0) X) s') = Ok out).
Proof.
  intros HI HA Hn Hrow Hc Hcond Hsc Hpr Hrec Hf HW Hbs H. pose proof H as (s0 & E & _).
  destruct (fit_prepared inv c b new_gam s0 pr ms E Hpr) as (X & Y & EX).
  set (n := b_p b) in *.
  set (Tm := fun (M : mat) v p => match p_eq pr p with EqIntercept => mid | _ => full (p_icpt pr p) M v end).
  assert (HK : forall p, (p < d_n (o_dist c))%nat -> (p_eq pr p = EqIntercept /\ design_width pr n p = 1%nat /\ forall x j, design_row pr n p x j = 1) \/
     (p_eq pr p = EqAll /\ design_width pr n p = n_cols (p_icpt pr p) n /\
       forall o i, (i < n_cols (p_icpt pr p) n)%nat -> design_row pr n p (ox o) i = ox (regressors (p_icpt pr p) o) i)).
  { intros p Hp. pose proof (arrays_model c pr n X Y p EX Hp) as Em. unfold design_width, design_row.
    destruct (Hrec p Hp) as [Q|[Q _]]; rewrite Q in *; cbn [make_model_array columns bind] in *.
    - left. destruct (p_icpt pr p); [|discriminate]. auto.
    - right. split; [reflexivity|]. unfold regressors, n_cols. cbn [ox]. destruct (p_icpt pr p); cbn [map]; rewrite seq_length; (split; [cbn [fst]; lia|]).
      + intros o [|i] Hi; [reflexivity|]. rewrite seq_nth by lia. reflexivity.
      + intros o i Hi. rewrite seq_nth by lia. reflexivity. }
  destruct (calls_twin inv c pr ms n (recode n A b0) 0 (Tm A b0) (Tm A' (fun i => - mvec n A' b0 i)) (fun _ _ => 0) HI (any_location _ Hn) Hrow Hcond Hf Hpr) with (b := b) (bs := bs) (s := s)
    as (s' & H1 & H2 & H3 & H4); auto.
  - intros p x Hp. rewrite location_zero. split; [|apply dot_zero]. intros i Hi. unfold Tm.
    destruct (HK p Hp) as [(E1 & E2 & E3)|(E1 & E2 & E3)]; rewrite E1, E2 in *.
    + rewrite mvec_id by exact Hi. now rewrite !E3.
    + transitivity (mvec (n_cols (p_icpt pr p) n) (full (p_icpt pr p) A b0) (ox (regressors (p_icpt pr p) (mkobs x 0 0))) i).
      * rewrite <- full_regressors; [|destruct (Hrec p Hp) as [Q|[_ Q]]; [congruence|exact Q]|exact Hi].
        exact (E3 (mkobs (recode n A b0 x) 0 0) i Hi).
      * unfold mvec. apply bsum_ext. intros j Hj. f_equal. symmetry. exact (E3 (mkobs x 0 0) j Hj).
  - intros p Hp. unfold Tm. destruct (HK p Hp) as [(E1 & E2 & _)|(E1 & E2 & _)]; rewrite E1, E2; [apply is_inverse_mid|now apply full_inverse].
  - exists s'. split; [|split; [exact H2|]].
    + rewrite (twin_recode n A b0 b eq_refl) in H1. rewrite (map_ext_in _ (recode_batch A b0)) in H1; [exact H1|].
      intros d Hd. apply twin_recode. rewrite Forall_forall in Hbs. now apply Hbs.
    + intros r Z out P. specialize (H3 r Z out P). now rewrite (map_same (moved 0)) in H3 by apply moved_zero.
Qed.
