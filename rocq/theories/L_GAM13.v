(** Lemmas: the inner iterations as weighted least squares. *)
From Coq Require Import Reals List Bool Arith ZArith Lra Lia.
From Verif Require Import Base Lin Data M_Gram S_Gram L_Gram M_OLS L_OLS M_Scaler M_Utils M_Links M_State M_LM M_Equation S_Equation L_Equation M_GAMLSS S_GAMLSS.
From Verif Require Import L_GAM1 L_GAM2 L_GAM8 L_GAM9 L_GAM10 L_GAM11 L_GAM12.
Import ListNotations.
Open Scope R_scope.

Section Fit.
Context {M : Type} (ops : method_ops M) (e : env M).
Notation d := (o_dist (e_cfg e)).
Hypothesis Hcond : o_cond_start (e_cfg e) = false.

Lemma shaped_fit_candidate p io it step dvo fv pth s s' q : shaped e s -> (p < d_n d)%nat -> length fv = length (e_y e) ->
  fit_candidate ops e p io it step dvo fv pth s = (s', Ok q) ->
  length (c_fv q) = length (e_y e) /\ length (set_col fv p (col (c_fv q) p)) = length (e_y e).
Proof.
  intros [S1 S2] Hp Hf H. apply fit_candidate_full in H. cbv zeta in H.
  destruct H as (eta & gd & m & Hw & _ & _ & _ & _ & Efv & _).
  apply working_rows in Hw; [|exact Hf]. cbv zeta in Hw. destruct Hw as (L1 & _).
  assert (L : length (c_fv q) = length (e_y e)).
  { rewrite Efv. apply set_col_length; [exact S1|]. rewrite map_length. rewrite map2_length; rewrite (S2 p Hp); congruence. }
  split; [exact L|]. apply set_col_length; [exact Hf|]. now rewrite col_length.
Qed.
Lemma inner_fit_loop_shaped p io n k : forall it fv dvs cnt pathit s s' q it' bad tr,
  shaped e s -> length fv = length (e_y e) ->
  inner_fit_loop ops e p io n k it fv dvs cnt pathit s = (s', Ok (q, it', bad, tr)) ->
  (p < d_n d)%nat /\ exists i step dvo fv1 pth s1 s2, length fv1 = length (e_y e) /\ loop_frame s1 = loop_frame s /\
    fit_candidate ops e p io i step dvo fv1 pth s1 = (s2, Ok q).
Proof.
  induction k as [|k IH]; intros it fv dvs cnt pathit s s' q it' bad tr Hs Hf H; cbn [inner_fit_loop] in H; [discriminate|].
  peel_as H step s1 P1. apply read_step_inv in P1. destruct P1 as (-> & _ & _ & Hp).
  peel_as H fv1 s2 P2. rewrite Hcond, andb_false_r in P2. apply ret_inv in P2. destruct P2 as [-> <-].
  peel_as H q1 s2 P2. pose proof (loop_frame_of _ _ _ _ (fit_candidate_frame ops e p io it step _ fv pathit) P2) as F2.
  peel_as H u s3 P3.
  assert (F3 : loop_frame s3 = loop_frame s).
  { destruct (Rltb _ _ && _); [apply write_inv in P3; subst s3; exact F2|apply ret_inv in P3; destruct P3 as [-> _]; exact F2]. }
  split; [exact Hp|].
  destruct (_ || Nat.eqb k 0).
  - apply ret_inv in H. destruct H as [_ H]. injection H as -> _. exists it, step, (dvs it), fv, pathit, s, s2. auto.
  - peel_as H r s5 P5. destruct r as [[[q' it''] bad'] tr'].
    apply ret_inv in H. destruct H as [-> H]. injection H as <- <- <- <-.
    apply IH in P5.
    + destruct P5 as (_ & i & st0 & dv & fv2 & pth & s4 & s6 & H1 & H2 & H3).
      exists i, st0, dv, fv2, pth, s4, s6. split; [exact H1|]. split; [congruence|exact H3].
    + exact (shaped_frame e s s3 F3 Hs).
    + destruct (Rltb _ _); [exact Hf|]. exact (proj2 (shaped_fit_candidate p io it step _ fv pathit s s2 q1 Hs Hp Hf P2)).
Qed.
Lemma inner_fit_shaped p io s s' r : shaped e s -> inner_fit ops e p io s = (s', Ok r) ->
  shaped e s' /\ (p < d_n d)%nat /\ exists q it i step dvo fv1 pth s1 s2 s3,
    length fv1 = length (e_y e) /\ loop_frame s1 = loop_frame s /\ loop_frame s3 = loop_frame s /\
    fit_candidate ops e p io i step dvo fv1 pth s1 = (s2, Ok q) /\
    ((s' = fst (set_itinner p it (fst (store_fit e p q s3)))) \/ (io <> 1%nat /\ s' = fst (set_itinner p it s3))).
Proof.
  intros Hs H. unfold inner_fit in H.
  peel_as H fv s1 P1. apply peek_inv in P1. destruct P1 as [-> <-].
  peel_as H dv s2 P2. apply lift_inv in P2. destruct P2 as [-> _].
  peel_as H n s3 P3. apply read_iter_inv in P3. destruct P3 as [-> E].
  peel_as H qi s4 P4. destruct qi as [[[q it] bad] tr].
  pose proof (loop_frame_of _ _ _ _ (inner_fit_loop_frame ops e p io _ _ _ _ _ _ _) P4) as F4.
  apply inner_fit_loop_shaped in P4; [|exact Hs|apply Hs].
  destruct P4 as (Hp & i & step & dvo & fv1 & pth & s5 & s6 & L1 & H1 & H2).
  peel_as H u s7 P5. peel_as H u2 s8 P6. apply ret_inv in H. destruct H as [-> <-].
  assert (Hc : (s8 = fst (set_itinner p it (fst (store_fit e p q s4)))) \/ (io <> 1%nat /\ s8 = fst (set_itinner p it s4))).
  { destruct (negb bad || Nat.eqb io 1) eqn:Eb.
    - left. rewrite P5. cbn [fst]. now rewrite P6.
    - right. apply orb_false_iff in Eb. destruct Eb as [_ Eb]. apply Nat.eqb_neq in Eb. split; [exact Eb|].
      apply ret_inv in P5. destruct P5 as [-> _]. now rewrite P6. }
  pose proof (shaped_frame e s s4 F4 Hs) as [S1 S2].
  split.
  { destruct Hc as [-> | [_ ->]]; unfold set_itinner, store_fit, write; cbn [fst]; split; cbn [w_fv]; try exact S2; try exact S1.
    apply set_col_length; [exact S1|]. rewrite col_length.
    exact (proj1 (shaped_fit_candidate p io i step dvo fv1 pth s5 s6 q (shaped_frame e s s5 H1 Hs) Hp L1 H2)). }
  split; [exact Hp|]. exists q, it, i, step, dvo, fv1, pth, s5, s6, s4. auto 10.
Qed.

(** As [outer_fit_all], with shapes. *)
Lemma outer_fit_shaped (L : nat -> work M -> Prop) :
  (forall p (s s1 s2 s3 : work M) q it io i step dvo fv1 pth, (p < d_n d)%nat -> shaped e s ->
     length fv1 = length (e_y e) -> loop_frame s1 = loop_frame s -> loop_frame s3 = loop_frame s ->
     fit_candidate ops e p io i step dvo fv1 pth s1 = (s2, Ok q) ->
     L p (fst (set_itinner p it (fst (store_fit e p q s3))))) ->
  (forall p (s s' : work M),
     w_x s' p = w_x s p -> w_y s' p = w_y s p -> w_coef s' p = w_coef s p -> w_path s' p = w_path s p ->
     w_sum s' p = w_sum s p -> w_mean s' p = w_mean s p -> w_msd s' p = w_msd s p -> L p s -> L p s') ->
  forall fuel s s' dv n, shaped e s -> outer_fit ops e fuel s = (s', Ok (dv, n)) ->
  shaped e s' /\ (n = O \/ forall p, In p (p_order (e_prep e)) -> L p s').
Proof.
  intros H1 H2.
  assert (In1 : forall p q io s s' r, shaped e s -> L p s \/ (p = q /\ io = 1%nat) -> inner_fit ops e q io s = (s', Ok r) -> L p s').
  { intros p q io s s' r Hs HL H. apply inner_fit_shaped in H; [|exact Hs].
    destruct H as (_ & Hp & qc & it & i & step & dvo & fv1 & pth & s1 & s2 & s3 & L1 & F1 & F3 & Hc & [-> | [Hio ->]]).
    - destruct (Nat.eq_dec q p) as [->|Hne]; [exact (H1 p s s1 s2 s3 qc it io i step dvo fv1 pth Hp Hs L1 F1 F3 Hc)|].
      destruct HL as [HL|[E _]]; [|congruence].
      apply (H2 p s); auto; unfold set_itinner, store_fit, write; cbn [fst w_x w_y w_coef w_path w_sum w_mean w_msd];
        try destruct (c_msd qc); unfold fupd; replace (Nat.eqb p q) with false by (symmetry; apply Nat.eqb_neq; congruence);
        unfold loop_frame in F3; congruence.
    - destruct HL as [HL|[_ E]]; [|congruence].
      apply (H2 p s); auto; unfold set_itinner, write; cbn [fst w_x w_y w_coef w_path w_sum w_mean w_msd];
        unfold loop_frame in F3; congruence. }
  assert (Sh : forall q io s s' r, shaped e s -> inner_fit ops e q io s = (s', Ok r) -> shaped e s').
  { intros q io s s' r Hs H. exact (proj1 (inner_fit_shaped q io s s' r Hs H)). }
  assert (Cyc : forall io ps dev s s' r, shaped e s -> fit_cycle ops e ps io dev s = (s', Ok r) ->
     shaped e s' /\ (forall p, (In p ps /\ io = 1%nat) \/ L p s -> L p s')).
  { intros io ps. induction ps as [|q ps IH]; intros dev s s' r Hs H; cbn [fit_cycle] in H.
    - apply ret_inv in H. destruct H as [-> _]. split; [exact Hs|]. intros p Hp. destruct Hp as [[[] _]|Hp]. exact Hp.
    - peel_as H dev' s1 P. apply IH in H; [|exact (Sh _ _ _ _ _ Hs P)]. destruct H as [H3 H]. split; [exact H3|].
      intros p Hp. apply H.
      destruct Hp as [[[ <- | Hp] Hio]|Hp]; [|auto|]; right.
      + exact (In1 q q io s s1 dev' Hs (or_intror (conj eq_refl Hio)) P).
      + exact (In1 p q io s s1 dev' Hs (or_introl Hp) P). }
  assert (Loop : forall fuel it d0 dev s s' dv n, shaped e s -> (forall p, In p (p_order (e_prep e)) -> L p s) ->
     outer_fit_loop ops e fuel it d0 dev s = (s', Ok (dv, n)) -> shaped e s' /\ forall p, In p (p_order (e_prep e)) -> L p s').
  { induction fuel as [|fuel IH]; intros it d0 dev s s' dv n Hs HL H; cbn [outer_fit_loop] in H; [discriminate|].
    peel_as H mn s1 P. apply peek_inv in P. destruct P as [-> <-].
    destruct ((w_min s <=? it)%nat && _).
    - apply ret_inv in H. destruct H as [-> H]. auto.
    - peel_as H dev' s1 P. apply Cyc in P; [|exact Hs]. destruct P as [Hs1 P].
      eapply IH; [exact Hs1| |exact H]. intros p Hp. apply P. auto. }
  intros fuel s s' dv n Hs H. unfold outer_fit in H.
  peel_as H fv s1 P1. apply peek_inv in P1. destruct P1 as [-> <-].
  peel_as H dev s2 P2. apply lift_inv in P2. destruct P2 as [-> _].
  destruct fuel as [|fuel]; cbn [outer_fit_loop] in H; [discriminate|].
  peel_as H mn s1 P. apply peek_inv in P. destruct P as [-> <-].
  destruct ((w_min s <=? 0)%nat && _).
  - apply ret_inv in H. destruct H as [-> H]. injection H as _ <-. auto.
  - peel_as H dev' s1 P. apply Cyc in P; [|exact Hs]. destruct P as [Hs1 P].
    apply Loop in H; [|exact Hs1|intros p Hp; apply P; auto]. tauto.
Qed.
End Fit.
