(** Lemmas: what fit stores. *)
From Coq Require Import Reals List Bool Arith ZArith Lra Lia.
From Verif Require Import Base Lin Data M_Gram M_OLS M_Scaler M_Utils M_Links M_DistTable M_Dist M_State M_LM M_Equation M_GAMLSS M_GAMDist.
From Verif Require Import S_Utils S_LM S_Equation S_GAMLSS L_Equation L_GAM1 L_GAM2 L_GAM3 L_GAM4 L_GAM7 L_GAM8.
Import ListNotations.
Open Scope R_scope.
Open Scope st_scope.

Section Fit.
Context {M : Type} (ops : method_ops M) (e : env M).
Notation c := (e_cfg e).
Notation d := (o_dist (e_cfg e)).

Lemma fit_candidate_full p io it step dvo fv pathit s s' q :
  fit_candidate ops e p io it step dvo fv pathit s = (s', Ok q) ->
  exists eta gd m,
    let k := fst (e_X e p) in let X := snd (e_X e p) in
    let wts := map2 Rmult (e_w e) (g_wt gd) in
    working e false p fv = Ok (eta, gd) /\ w_method s p = Some m /\
    op_init_x ops k X wts (p_forget (e_prep e) p) = Ok (c_x q) /\
    c_y q = init_y_gram X (g_wv gd) wts (p_forget (e_prep e) p) /\
    c_wt q = g_wt gd /\
    c_fv q = set_col (w_fv s) p (map (d_inv d p) (map2 (fun x et => step * dot k x (c_beta q) + (1 - step) * et) X eta)) /\
    deviance e (c_fv q) = Ok (c_dv q) /\
    (if op_path_based ops then
       exists m' path i msd,
         (Nat.eqb it 0 && Nat.eqb io 1 = true -> op_fit_path ops m k (c_x q) (c_y q) (e_isreg e p) = Ok (m', path)) /\
         fit_select e s p (g_wv gd) (g_wt gd) path = Ok (c_beta q, msd, i) /\
         c_path q = Some path /\ c_msd q = Some msd
     else exists m', op_fit_beta ops m k (c_x q) (c_y q) (e_isreg e p) = Ok (m', c_beta q) /\
         c_path q = None /\ c_msd q = None).
Proof.
  intros H. unfold fit_candidate in H.
  peel_as H wk s1 P1. apply lift_inv in P1. destruct P1 as [-> Ew]. destruct wk as [eta gd].
  peel_as H u s2 P2. apply write_inv in P2.
  assert (F2 : loop_frame s2 = loop_frame s /\ w_method s2 = w_method s).
  { subst s2. destruct (o_debug _); split; reflexivity. }
  destruct F2 as [F2 G2]. clear P2.
  destruct (e_X e p) as [k X] eqn:EX.
  peel_as H xg s3 P3. apply lift_inv in P3. destruct P3 as [-> Exg].
  peel_as H m s3 P3. apply get_inv in P3. destruct P3 as [-> Em].
  peel_as H r s5 P5.
  assert (F5 : loop_frame s5 = loop_frame s2).
  { eapply loop_frame_of; [|exact P5]. unfold set_wmethod. repeat keep_step. }
  destruct r as [[beta path'] msd'].
  peel_as H u2 s6 P6. apply write_inv in P6.
  assert (F6 : loop_frame s6 = loop_frame s5).
  { subst s6. destruct (o_debug _); reflexivity. }
  clear P6.
  peel_as H fv0 s7 P7. apply peek_inv in P7. destruct P7 as [-> <-].
  peel_as H dv s8 P8. apply lift_inv in P8. destruct P8 as [-> Ed].
  apply ret_inv in H. destruct H as [<- <-]. cbn [c_fv c_dv c_x c_y c_wt c_beta c_path c_msd].
  unfold loop_frame in F2, F5, F6.
  exists eta, gd, m. cbv zeta. cbn [fst snd].
  split; [exact Ew|]. split; [congruence|]. split; [exact Exg|]. split; [reflexivity|]. split; [reflexivity|].
  split; [congruence|]. split; [exact Ed|].
  destruct (op_path_based ops).
  - peel_as P5 mp s9 Q.
    assert (Q' : s9 = s2 /\ (Nat.eqb it 0 && Nat.eqb io 1 = true -> op_fit_path ops m k xg (init_y_gram X (g_wv gd) (map2 Rmult (e_w e) (g_wt gd)) (p_forget (e_prep e) p)) (e_isreg e p) = Ok mp)).
    { destruct (Nat.eqb it 0 && Nat.eqb io 1); [apply lift_inv in Q; split; [tauto|intros _; tauto]|].
      split; [|discriminate].
      destruct (Nat.eqb it 0).
      - peel_as Q pth s10 Q2. apply peek_inv in Q2. destruct Q2 as [-> _].
        destruct pth; [apply lift_inv in Q; tauto|discriminate].
      - destruct pathit; [apply lift_inv in Q; tauto|discriminate]. }
    destruct Q' as [-> Q'].
    peel_as P5 u3 s10 Q3. apply write_inv in Q3.
    peel_as P5 sq s11 Q2. apply peek_inv in Q2. destruct Q2 as [-> <-].
    peel_as P5 sel s11 Q2. apply lift_inv in Q2. destruct Q2 as [-> Esel].
    apply ret_inv in P5. destruct P5 as [-> P5]. injection P5 as <- <- <-.
    destruct mp as [m' path]. destruct sel as [[b msd] i]. cbn [fst snd] in *.
    exists m', path, i, msd. split; [exact Q'|].
    split; [|auto]. rewrite <- Esel.
    subst s10. unfold fit_select, count_other. cbn [w_fv w_coef].
    replace (w_fv s2) with (w_fv s) by congruence. replace (w_coef s2) with (w_coef s) by congruence. reflexivity.
  - peel_as P5 mb s9 Q. apply lift_inv in Q. destruct Q as [-> Eup].
    peel_as P5 u3 s10 Q. apply write_inv in Q.
    apply ret_inv in P5. destruct P5 as [-> P5]. injection P5 as <- <- <-. destruct mb as [m' b].
    exists m'. cbn [fst snd] in *. auto.
Qed.

Lemma inner_fit_loop_last p io n k : forall it fv dvs cnt pathit s s' q it' bad tr,
  inner_fit_loop ops e p io n k it fv dvs cnt pathit s = (s', Ok (q, it', bad, tr)) ->
  (p < d_n d)%nat /\ exists i step dvo fv1 pth s1 s2, loop_frame s1 = loop_frame s /\
    fit_candidate ops e p io i step dvo fv1 pth s1 = (s2, Ok q).
Proof.
  induction k as [|k IH]; intros it fv dvs cnt pathit s s' q it' bad tr H; cbn [inner_fit_loop] in H; [discriminate|].
  peel_as H step s1 P1. apply read_step_inv in P1. destruct P1 as (-> & _ & _ & Hp).
  peel_as H fv1 s2 P2.
  assert (E2 : s2 = s).
  { destruct (_ && _); [apply lift_inv in P2|apply ret_inv in P2]; tauto. }
  subst s2. clear P2.
  peel_as H q1 s2 P2. pose proof (loop_frame_of _ _ _ _ (fit_candidate_frame ops e p io it step _ fv1 pathit) P2) as F2.
  peel_as H u s3 P3.
  assert (F3 : loop_frame s3 = loop_frame s).
  { destruct (Rltb _ _ && _); [apply write_inv in P3; subst s3; exact F2|apply ret_inv in P3; destruct P3 as [-> _]; exact F2]. }
  split; [exact Hp|].
  destruct (_ || Nat.eqb k 0).
  - apply ret_inv in H. destruct H as [_ H]. injection H as -> _. exists it, step, (dvs it), fv1, pathit, s, s2. auto.
  - peel_as H r s5 P5. destruct r as [[[q' it''] bad'] tr'].
    apply ret_inv in H. destruct H as [-> H]. injection H as <- <- <- <-.
    apply IH in P5. destruct P5 as (_ & i & st0 & dv & fv2 & pth & s4 & s6 & H2 & H3).
    exists i, st0, dv, fv2, pth, s4, s6. split; [congruence|exact H3].
Qed.

(** Either the inner fit stores its last candidate, or (never in the first cycle) it
    leaves everything it would store. *)
Lemma inner_fit_ok p io s s' r : inner_fit ops e p io s = (s', Ok r) ->
  (p < d_n d)%nat /\ exists q it i step dvo fv1 pth s1 s2 s3,
    loop_frame s1 = loop_frame s /\ loop_frame s3 = loop_frame s /\
    fit_candidate ops e p io i step dvo fv1 pth s1 = (s2, Ok q) /\ fst r = c_dv q /\
    ((s' = fst (set_itinner p it (fst (store_fit e p q s3)))) \/ (io <> 1%nat /\ s' = fst (set_itinner p it s3))).
Proof.
  intros H. unfold inner_fit in H.
  peel_as H fv s1 P1. apply peek_inv in P1. destruct P1 as [-> <-].
  peel_as H dv s2 P2. apply lift_inv in P2. destruct P2 as [-> _].
  peel_as H n s3 P3. apply read_iter_inv in P3. destruct P3 as [-> E].
  peel_as H qi s4 P4. destruct qi as [[[q it] bad] tr].
  pose proof (loop_frame_of _ _ _ _ (inner_fit_loop_frame ops e p io _ _ _ _ _ _ _) P4) as F4.
  apply inner_fit_loop_last in P4. destruct P4 as (Hp & i & step & dvo & fv1 & pth & s5 & s6 & H1 & H2).
  split; [exact Hp|].
  peel_as H u s7 P5. peel_as H u2 s8 P6. apply ret_inv in H. destruct H as [-> <-].
  exists q, it, i, step, dvo, fv1, pth, s5, s6, s4. cbn [fst].
  do 4 (split; [assumption || reflexivity|]).
  destruct (negb bad || Nat.eqb io 1) eqn:Eb.
  - left. rewrite P5. cbn [fst]. now rewrite P6.
  - right. apply orb_false_iff in Eb. destruct Eb as [_ Eb]. apply Nat.eqb_neq in Eb. split; [exact Eb|].
    apply ret_inv in P5. destruct P5 as [-> _]. now rewrite P6.
Qed.

(** A property that every stored candidate of parameter [p] has and the others leave
    holds after fit, if there was an outer cycle. *)
Lemma outer_fit_all (L : nat -> work M -> Prop) :
  (forall p (s s1 s2 s3 : work M) q it io i step dvo fv1 pth, (p < d_n d)%nat ->
     loop_frame s1 = loop_frame s -> loop_frame s3 = loop_frame s ->
     fit_candidate ops e p io i step dvo fv1 pth s1 = (s2, Ok q) ->
     L p (fst (set_itinner p it (fst (store_fit e p q s3))))) ->
  (forall p q (s s' : work M), q <> p ->
     w_x s' p = w_x s p -> w_y s' p = w_y s p -> w_coef s' p = w_coef s p -> w_path s' p = w_path s p ->
     w_msd s' p = w_msd s p -> w_rss s' p = w_rss s p ->
     w_sum s' p = w_sum s p -> w_mean s' p = w_mean s p -> L p s -> L p s') ->
  (forall p (s s' : work M), loop_frame s' = loop_frame s -> L p s -> L p s') ->
  (forall p s it, L p s -> L p (fst (set_itinner p it s))) ->
  forall fuel s s' dv n, outer_fit ops e fuel s = (s', Ok (dv, n)) ->
  n = O \/ forall p, In p (p_order (e_prep e)) -> L p s'.
Proof.
  intros H1 H2 H3 H4.
  assert (In1 : forall p q io s s' r, L p s \/ (p = q /\ io = 1%nat) -> inner_fit ops e q io s = (s', Ok r) -> L p s').
  { intros p q io s s' r HL H. apply inner_fit_ok in H.
    destruct H as (Hp & qc & it & i & step & dvo & fv1 & pth & s1 & s2 & s3 & F1 & F3 & Hc & _ & [-> | [Hio ->]]).
    - destruct (Nat.eq_dec q p) as [->|Hne]; [exact (H1 p s s1 s2 s3 qc it io i step dvo fv1 pth Hp F1 F3 Hc)|].
      destruct HL as [HL|[E _]]; [|congruence].
      eapply (H2 p q s); auto; unfold set_itinner, store_fit, write; cbn [fst w_x w_y w_coef w_path w_msd w_rss w_sum w_mean];
        unfold fupd; try (replace (Nat.eqb p q) with false by (symmetry; apply Nat.eqb_neq; congruence));
        try (unfold loop_frame in F3; congruence).
      destruct (c_msd qc); cbn beta iota; [replace (Nat.eqb p q) with false by (symmetry; apply Nat.eqb_neq; congruence)|];
      unfold loop_frame in F3; congruence.
    - destruct HL as [HL|[_ E]]; [|congruence].
      destruct (Nat.eq_dec q p) as [->|Hne]; [apply H4, (H3 p s); auto|].
      eapply (H2 p q s); auto; unfold set_itinner, write; cbn [fst w_x w_y w_coef w_path w_msd w_rss w_sum w_mean];
        unfold loop_frame in F3; congruence. }
  assert (Cyc : forall io ps dev s s' r, fit_cycle ops e ps io dev s = (s', Ok r) ->
     (forall p, (In p ps /\ io = 1%nat) \/ L p s -> L p s')).
  { intros io ps. induction ps as [|q ps IH]; intros dev s s' r H p Hp; cbn [fit_cycle] in H.
    - apply ret_inv in H. destruct H as [-> _]. destruct Hp as [[[] _]|Hp]. exact Hp.
    - peel_as H dev' s1 P. apply (IH _ _ _ _ H).
      destruct Hp as [[[ <- | Hp] Hio]|Hp]; [|auto|]; right.
      + exact (In1 q q io s s1 dev' (or_intror (conj eq_refl Hio)) P).
      + exact (In1 p q io s s1 dev' (or_introl Hp) P). }
  assert (Loop : forall fuel it d0 dev s s' dv n, (forall p, In p (p_order (e_prep e)) -> L p s) ->
     outer_fit_loop ops e fuel it d0 dev s = (s', Ok (dv, n)) -> forall p, In p (p_order (e_prep e)) -> L p s').
  { induction fuel as [|fuel IH]; intros it d0 dev s s' dv n HL H; cbn [outer_fit_loop] in H; [discriminate|].
    peel_as H mn s1 P. apply peek_inv in P. destruct P as [-> <-].
    destruct ((w_min s <=? it)%nat && _).
    - apply ret_inv in H. destruct H as [-> H]. auto.
    - peel_as H dev' s1 P. eapply IH; [|exact H]. intros p Hp. eapply Cyc; [exact P|auto]. }
  intros fuel s s' dv n H. unfold outer_fit in H.
  peel_as H fv s1 P1. apply peek_inv in P1. destruct P1 as [-> <-].
  peel_as H dev s2 P2. apply lift_inv in P2. destruct P2 as [-> _].
  destruct fuel as [|fuel]; cbn [outer_fit_loop] in H; [discriminate|].
  peel_as H mn s1 P. apply peek_inv in P. destruct P as [-> <-].
  destruct ((w_min s <=? 0)%nat && _).
  - apply ret_inv in H. destruct H as [-> H]. injection H as _ <-. auto.
  - right. peel_as H dev' s1 P. eapply Loop; [|exact H]. intros p Hp. eapply Cyc; [exact P|auto].
Qed.
End Fit.
