(** Lemmas: what update stores; zero weights; the weight sums. *)
From Coq Require Import Reals List Bool Arith ZArith Lra Lia.
From Verif Require Import Base Lin Data M_Gram M_OLS M_Scaler M_Utils M_Links M_DistTable M_Dist M_State M_LM M_Equation M_GAMLSS M_GAMDist.
From Verif Require Import S_Utils S_LM S_Equation S_GAMLSS L_Equation L_GAM1 L_GAM2 L_GAM3 L_GAM4 L_GAM7.
Import ListNotations.
Open Scope R_scope.
Open Scope st_scope.

(** * Shapes *)
Lemma arrays_rows {M} (c : gam_cfg M) pr ncol X A p : arrays c pr ncol X = Ok A -> (p < d_n (o_dist c))%nat ->
  length (snd (A p)) = length X.
Proof.
  unfold arrays. intros H Hp.
  assert (Q : forall ps l, all_arrays pr ncol X ps = Ok l -> forall i, (i < length ps)%nat -> length (snd (nth i l (O, []))) = length X).
  { intros ps. induction ps as [|q ps IH]; intros l Hl i Hi; [cbn in Hi; lia|]. cbn [all_arrays] in Hl.
    destruct (make_model_array _ _ _ _) as [a|] eqn:Ea; [|discriminate]. cbn [bind] in Hl.
    destruct (all_arrays _ _ _ ps) as [r|] eqn:Er; [|discriminate]. cbn [bind] in Hl. injection Hl as <-.
    destruct i as [|i]; cbn [nth]; [|apply (IH r eq_refl); cbn in Hi; lia].
    unfold make_model_array in Ea.
    assert (Ea' : p_eq pr q = EqIntercept \/ (do ks <- columns (p_eq pr q) ncol;
      if p_icpt pr q
      then Ok (S (length ks), map (fun x j => match j with O => 1 | S i => x (nth i ks O) end) X)
      else Ok (length ks, map (fun x j => x (nth j ks O)) X)) = Ok a).
    { destruct (p_eq pr q); auto. }
    destruct Ea' as [Eq|Ea'].
    - rewrite Eq in Ea. destruct (p_icpt pr q); [|discriminate]. injection Ea as <-. cbn. now rewrite map_length.
    - destruct (columns _ _) as [ks|]; [|discriminate]. cbn [bind] in Ea'.
      destruct (p_icpt pr q); injection Ea' as <-; cbn [snd]; now rewrite map_length. }
  destruct (all_arrays pr ncol X _) as [l|] eqn:E; [|discriminate]. cbn [bind] in H. injection H as <-.
  apply (Q (seq 0 (d_n (o_dist c))) l E). now rewrite seq_length.
Qed.

Lemma set_col_length fv p v n : length fv = n -> length v = n -> length (set_col fv p v) = n.
Proof. unfold set_col. intros H1 H2. rewrite map2_length; lia. Qed.
Lemma col_length fv p : length (col fv p) = length fv. Proof. unfold col. apply map_length. Qed.

Section Upd.
Context {M : Type} (ops : method_ops M) (e : env M).
Notation c := (e_cfg e).
Notation d := (o_dist (e_cfg e)).
Notation disc := ((1 - p_forget (e_prep e) 0) ^ length (e_y e)).

Lemma loop_frame_of {A} (m : st (work M) A) s s' r : keeps loop_frame m -> m s = (s', r) -> loop_frame s' = loop_frame s.
Proof. intros K H. specialize (K s). rewrite H in K. exact K. Qed.

(** The candidate of one inner iteration of update. *)
Lemma update_candidate_ok g p io it fv s s' q : update_candidate ops e g p io it fv s = (s', Ok q) ->
  exists eta gd m x0 y0 mw dv,
    let k := fst (e_X e p) in let X := snd (e_X e p) in
    let wts := map2 Rmult (e_w e) (g_wt gd) in
    working e true p fv = Ok (eta, gd) /\ w_method s p = Some m /\ w_x s p = Some x0 /\ w_y s p = Some y0 /\
    w_mean s p = Some mw /\
    op_update_x ops k x0 X (p_forget (e_prep e) p) wts = Ok (c_x q) /\
    c_y q = update_y_gram y0 X (g_wv gd) (p_forget (e_prep e) p) wts /\
    c_wt q = g_wt gd /\
    c_fv q = set_col (w_fv s) p (map (d_inv d p) (map (fun x => dot k x (c_beta q)) X)) /\
    deviance e (c_fv q) = Ok dv /\ c_dv q = dv + disc * g /\
    (if op_path_based ops then
       exists path0 m' path old i msd, w_path s p = Some path0 /\
         op_update_path ops m k (c_x q) (c_y q) path0 (e_isreg e p) = Ok (m', path) /\
         w_msd_old s p = Some old /\
         update_select e s p (g_wv gd) (g_wt gd) path old mw = Ok (c_beta q, msd, i) /\
         c_path q = Some path /\ c_msd q = Some msd
     else exists m', op_update_beta ops m k (c_x q) (c_y q) (w_coef s p) (e_isreg e p) = Ok (m', c_beta q) /\
         c_path q = None /\ c_msd q = None /\ w_method s' = fupd (w_method s) p (Some m')).
Proof.
  intros H. unfold update_candidate in H.
  peel_as H wk s1 P1. apply lift_inv in P1. destruct P1 as [-> Ew]. destruct wk as [eta gd].
  peel_as H u s2 P2. apply write_inv in P2.
  assert (F2 : loop_frame s2 = loop_frame s /\ w_method s2 = w_method s).
  { subst s2. destruct (o_debug _); split; reflexivity. }
  destruct F2 as [F2 G2]. clear P2.
  destruct (e_X e p) as [k X] eqn:EX.
  peel_as H m s3 P3. apply get_inv in P3. destruct P3 as [-> Em].
  peel_as H x0 s3 P3. apply get_inv in P3. destruct P3 as [-> Ex].
  peel_as H xg s3 P3. apply lift_inv in P3. destruct P3 as [-> Exg].
  peel_as H y0 s3 P3. apply get_inv in P3. destruct P3 as [-> Ey].
  peel_as H r s5 P5.
  assert (F5 : loop_frame s5 = loop_frame s2).
  { eapply loop_frame_of; [|exact P5]. unfold set_wmethod. repeat keep_step. }
  destruct r as [[beta path'] msd'].
  peel_as H u2 s6 P6. apply write_inv in P6.
  assert (F6 : loop_frame s6 = loop_frame s5 /\ w_method s6 = w_method s5).
  { subst s6. destruct (o_debug _); split; reflexivity. }
  destruct F6 as [F6 G6]. clear P6.
  peel_as H mw s7 P7. apply get_inv in P7. destruct P7 as [-> Emw].
  peel_as H old s7 P7. apply peek_inv in P7. destruct P7 as [-> _].
  peel_as H fv0 s7 P7. apply peek_inv in P7. destruct P7 as [-> <-].
  peel_as H dv s8 P8. apply lift_inv in P8. destruct P8 as [-> Ed].
  apply ret_inv in H. destruct H as [<- <-]. cbn [c_fv c_dv c_x c_y c_wt c_beta c_path c_msd].
  unfold loop_frame in F2, F5, F6.
  exists eta, gd, m, x0, y0, mw, dv. cbv zeta. cbn [fst snd].
  split; [exact Ew|]. split; [congruence|]. split; [congruence|]. split; [congruence|]. split; [congruence|].
  split; [exact Exg|]. split; [reflexivity|]. split; [reflexivity|].
  split; [congruence|]. split; [congruence|]. split; [reflexivity|].
  destruct (op_path_based ops).
  - peel_as P5 path0 s9 Q. apply peek_inv in Q. destruct Q as [-> Epath].
    peel_as P5 mp s9 Q.
    destruct path0 as [path0|]; [|discriminate]. apply lift_inv in Q. destruct Q as [-> Eup].
    peel_as P5 u3 s10 Q. apply write_inv in Q.
    peel_as P5 old' s11 Q2. apply get_inv in Q2. destruct Q2 as [-> Eold].
    peel_as P5 mw' s11 Q2. apply get_inv in Q2. destruct Q2 as [-> Emw'].
    peel_as P5 sq s11 Q2. apply peek_inv in Q2. destruct Q2 as [-> <-].
    peel_as P5 sel s11 Q2. apply lift_inv in Q2. destruct Q2 as [-> Esel].
    apply ret_inv in P5. destruct P5 as [-> P5]. injection P5 as <- <- <-.
    destruct mp as [m' path]. destruct sel as [[b msd] i]. cbn [fst snd] in *.
    exists path0, m', path, old', i, msd.
    split; [congruence|]. split; [exact Eup|]. split; [subst s10; cbn in Eold; congruence|].
    split; [|auto]. rewrite <- Esel. replace mw' with mw by congruence.
    subst s10. unfold update_select, count_other. cbn [w_fv w_coef].
    replace (w_fv s2) with (w_fv s) by congruence. replace (w_coef s2) with (w_coef s) by congruence. reflexivity.
  - peel_as P5 b0 s9 Q. apply peek_inv in Q. destruct Q as [-> Eb].
    peel_as P5 mb s9 Q. apply lift_inv in Q. destruct Q as [-> Eup].
    peel_as P5 u3 s10 Q. apply write_inv in Q.
    apply ret_inv in P5. destruct P5 as [-> P5]. injection P5 as <- <- <-. destruct mb as [m' b].
    exists m'. cbn [fst snd] in *. split; [rewrite <- Eup; do 2 f_equal; congruence|].
    split; [reflexivity|]. split; [reflexivity|]. rewrite G6. subst s10. cbn [w_method]. now rewrite G2.
Qed.

(** The last iteration of an inner update, with a property of the values it works on. *)
Lemma inner_update_loop_last (J : list vec -> Prop) g p io k : forall it fv dvs cnt s s' q it',
  (forall fv i s1 s2 q1, J fv -> loop_frame s1 = loop_frame s -> (p < d_n d)%nat ->
     update_candidate ops e g p io i fv s1 = (s2, Ok q1) -> J (set_col fv p (col (c_fv q1) p))) ->
  J fv ->
  inner_update_loop ops e g p io k it fv dvs cnt s = (s', Ok (q, it')) ->
  (p < d_n d)%nat /\ exists i fv1 s1 s2, J fv1 /\ loop_frame s1 = loop_frame s /\ update_candidate ops e g p io i fv1 s1 = (s2, Ok q).
Proof.
  induction k as [|k IH]; intros it fv dvs cnt s s' q it' HJ Hfv H; cbn [inner_update_loop] in H; [discriminate|].
  peel_as H step s1 P1. apply read_step_inv in P1. destruct P1 as (-> & _ & _ & Hp).
  peel_as H q1 s2 P2. pose proof (loop_frame_of _ _ _ _ (update_candidate_frame ops e g p io it fv) P2) as F2.
  peel_as H u s3 P3.
  assert (F3 : loop_frame s3 = loop_frame s).
  { destruct (Rltb _ _); [apply write_inv in P3; subst s3; exact F2|apply ret_inv in P3; destruct P3 as [-> _]; exact F2]. }
  split; [exact Hp|].
  destruct (_ || Nat.eqb k 0).
  - apply ret_inv in H. destruct H as [_ H]. injection H as -> _. exists it, fv, s, s2. auto.
  - apply IH in H.
    + destruct H as (_ & i & fv1 & s4 & s5 & H1 & H2 & H3). exists i, fv1, s4, s5. split; [exact H1|]. split; [congruence|exact H3].
    + intros fv' i s4 s5 q2 Hf F4. apply HJ; auto. congruence.
    + destruct (Rltb _ _); [exact Hfv|]. exact (HJ fv it s s2 q1 Hfv eq_refl Hp P2).
Qed.
Lemma inner_update_ok (J : list vec -> Prop) g p io s s' r :
  (forall fv i s1 s2 q1, J fv -> loop_frame s1 = loop_frame s -> (p < d_n d)%nat ->
     update_candidate ops e g p io i fv s1 = (s2, Ok q1) -> J (set_col fv p (col (c_fv q1) p))) ->
  J (w_fv s) ->
  inner_update ops e g p io s = (s', Ok r) ->
  (p < d_n d)%nat /\ exists q it i fv1 s1 s2 s3 sumw,
    J fv1 /\ loop_frame s1 = loop_frame s /\ loop_frame s3 = loop_frame s /\
    update_candidate ops e g p io i fv1 s1 = (s2, Ok q) /\ w_sum s p = Some sumw /\ r = c_dv q /\
    s' = fst (store_update e p it q sumw s3).
Proof.
  intros HJ Hfv H. unfold inner_update in H.
  peel_as H fv s1 P1. apply peek_inv in P1. destruct P1 as [-> <-].
  peel_as H dv s2 P2. apply lift_inv in P2. destruct P2 as [-> _].
  peel_as H n s3 P3. apply read_iter_inv in P3. destruct P3 as [-> E].
  peel_as H qi s4 P4. destruct qi as [q it].
  pose proof (loop_frame_of _ _ _ _ (inner_update_loop_frame ops e g p io _ _ _ _ _) P4) as F4.
  pose proof (inner_update_loop_last J _ _ _ _ _ _ _ _ _ _ _ _ HJ Hfv P4) as (Hp & i & fv1 & s5 & s6 & H1 & H2 & H3).
  split; [exact Hp|].
  peel_as H sumw s7 P5. apply get_inv in P5. destruct P5 as [-> Es]. cbn [fst snd] in H.
  peel_as H u s8 P6. apply ret_inv in H. destruct H as [-> <-].
  exists q, it, i, fv1, s5, s6, s4, sumw. split; [exact H1|]. split; [exact H2|]. split; [exact F4|]. split; [exact H3|].
  split; [unfold loop_frame in F4; congruence|]. split; [reflexivity|]. unfold store_update, write in *. cbn [fst]. congruence.
Qed.

(** A property that every inner update of parameter [p] establishes and the others leave
    holds after update, if there was an outer cycle. *)
Lemma outer_update_all g (Inv : work M -> Prop) (L : nat -> work M -> Prop) :
  (forall p io s s' r, Inv s -> inner_update ops e g p io s = (s', Ok r) -> Inv s' /\ L p s') ->
  (forall p q io s s' r, q <> p -> Inv s -> L p s -> inner_update ops e g q io s = (s', Ok r) -> L p s') ->
  forall fuel s s' dv n, Inv s -> outer_update ops e g fuel s = (s', Ok (dv, n)) ->
  Inv s' /\ (n = O \/ forall p, In p (p_order (e_prep e)) -> L p s').
Proof.
  intros H1 H2.
  assert (Cyc : forall io ps dev s s' r, Inv s -> update_cycle ops e g ps io dev s = (s', Ok r) ->
     Inv s' /\ (forall p, In p ps \/ L p s -> L p s')).
  { intros io ps. induction ps as [|q ps IH]; intros dev s s' r HI H; cbn [update_cycle] in H.
    - apply ret_inv in H. destruct H as [-> _]. split; [exact HI|]. intros p [[]|Hp]. exact Hp.
    - peel_as H dev' s1 P. pose proof (H1 _ _ _ _ _ HI P) as [HI1 HL1].
      apply IH in H; [|exact HI1]. destruct H as [HI' H]. split; [exact HI'|].
      intros p [[ <- | Hp]|Hp]; apply H; [right; exact HL1|left; exact Hp|].
      destruct (Nat.eq_dec q p) as [<-|Hne]; [right; exact HL1|right; exact (H2 p q io s s1 dev' Hne HI Hp P)]. }
  assert (Loop : forall fuel it d0 dev s s' dv n, Inv s -> (0 < it)%nat -> (forall p, In p (p_order (e_prep e)) -> L p s) ->
     outer_update_loop ops e g fuel it d0 dev s = (s', Ok (dv, n)) -> Inv s' /\ forall p, In p (p_order (e_prep e)) -> L p s').
  { induction fuel as [|fuel IH]; intros it d0 dev s s' dv n HI Hit HL H; cbn [outer_update_loop] in H; [discriminate|].
    peel_as H mn s1 P. apply peek_inv in P. destruct P as [-> <-].
    destruct ((w_min s <=? it)%nat && _).
    - apply ret_inv in H. destruct H as [-> H]. auto.
    - peel_as H dev' s1 P. apply Cyc in P; [|exact HI]. destruct P as [HI1 P]. eapply IH; [exact HI1| | |exact H]; [lia|].
      intros p Hp. apply P. auto. }
  intros fuel s s' dv n HI H. unfold outer_update in H.
  peel_as H fv s1 P1. apply peek_inv in P1. destruct P1 as [-> <-].
  peel_as H dev s2 P2. apply lift_inv in P2. destruct P2 as [-> _].
  destruct fuel as [|fuel]; cbn [outer_update_loop] in H; [discriminate|].
  peel_as H mn s1 P. apply peek_inv in P. destruct P as [-> <-].
  destruct ((w_min s <=? 0)%nat && _).
  - apply ret_inv in H. destruct H as [-> H]. injection H as _ <-. auto.
  - peel_as H dev' s1 P. apply Cyc in P; [|exact HI]. destruct P as [HI1 P].
    eapply Loop in H; [|exact HI1| |]; [|lia|intros p Hp; apply P; auto]. destruct H as [H3 H4]. auto.
Qed.

(** The shape that all arrays have during update. *)
Definition shaped (s : work M) : Prop :=
  length (w_fv s) = length (e_y e) /\ forall p, (p < d_n d)%nat -> length (snd (e_X e p)) = length (e_y e).
Lemma shaped_candidate g p io it fv s s' q : shaped s -> (p < d_n d)%nat -> length fv = length (e_y e) ->
  update_candidate ops e g p io it fv s = (s', Ok q) ->
  length (c_fv q) = length (e_y e) /\ length (set_col fv p (col (c_fv q) p)) = length (e_y e).
Proof.
  intros [S1 S2] Hp Hf H. apply update_candidate_ok in H. cbv zeta in H.
  destruct H as (eta & gd & m & x0 & y0 & mw & dv & _ & _ & _ & _ & _ & _ & _ & _ & Efv & _).
  assert (L : length (c_fv q) = length (e_y e)).
  { rewrite Efv. apply set_col_length; [exact S1|]. rewrite !map_length. apply S2, Hp. }
  split; [exact L|]. apply set_col_length; [exact Hf|]. now rewrite col_length.
Qed.
Lemma shaped_frame (s s1 : work M) : loop_frame s1 = loop_frame s -> shaped s -> shaped s1.
Proof. unfold shaped, loop_frame. intros H [S1 S2]. split; [congruence|exact S2]. Qed.

Lemma inner_update_shaped g p io s s' r : shaped s -> inner_update ops e g p io s = (s', Ok r) ->
  shaped s' /\ (p < d_n d)%nat /\ exists q it i fv1 s1 s2 s3 sumw,
    length fv1 = length (e_y e) /\ loop_frame s1 = loop_frame s /\ loop_frame s3 = loop_frame s /\
    update_candidate ops e g p io i fv1 s1 = (s2, Ok q) /\ w_sum s p = Some sumw /\ r = c_dv q /\
    s' = fst (store_update e p it q sumw s3).
Proof.
  intros Hs H.
  apply (inner_update_ok (fun fv => length fv = length (e_y e))) in H.
  - destruct H as (Hp & q & it & i & fv1 & s1 & s2 & s3 & sumw & H1 & H2 & H3 & H4 & H5 & H6 & H7).
    split; [|split; [exact Hp|exists q, it, i, fv1, s1, s2, s3, sumw; auto 10]].
    pose proof (shaped_frame _ _ H3 Hs) as [S1 S2].
    pose proof (shaped_candidate g p io i fv1 s1 s2 q (shaped_frame _ _ H2 Hs) Hp H1 H4) as [L _].
    subst s'. unfold store_update, write. cbn [fst]. split; [|exact S2]. cbn [w_fv].
    apply set_col_length; [exact S1|now rewrite col_length].
  - intros fv i s1 s2 q1 Hf F Hp K. exact (proj2 (shaped_candidate g p io i fv s1 s2 q1 (shaped_frame _ _ F Hs) Hp Hf K)).
  - apply Hs.
Qed.
End Upd.

(** The shape at the start of update. *)
Lemma again_work_fields {M} (c : gam_cfg M) pr b fv w w1 : again_work c pr b fv w = Ok w1 ->
  w_fv w1 = fv /\ w_sum w1 = w_sum w /\ w_mean w1 = w_mean w /\ w_x w1 = w_x w /\ w_y w1 = w_y w /\ w_coef w1 = w_coef w /\
  w_path w1 = w_path w /\ w_sumn w1 = w_sum w /\ w_method w1 = w_method w.
Proof.
  unfold again_work. destruct (o_cautious c).
  - destruct (cautious_bounds c fv) as [lh|]; [|discriminate]. cbn [bind]. intros H. injection H as <-. repeat split.
  - intros H. injection H as <-. repeat split.
Qed.
Lemma ys_length l : length (ys l) = length l. Proof. apply map_length. Qed.
Lemma ws_length l : length (ws l) = length l. Proof. apply map_length. Qed.
Lemma Xs_length l : length (Xs l) = length l. Proof. apply map_length. Qed.

Lemma gam_update_shaped {M} (ops : method_ops M) (c : gam_cfg M) b s s' : gam_update ops c b s = (s', Ok tt) ->
  exists n0 pr X w0 w1 w dev0 it0 isreg dv n,
    s_nobs s = Some n0 /\ s_prep s = Some pr /\ s_work s = Some w0 /\ s_dev s = Some (dev0, it0) /\ s_isreg s = Some isreg /\
    let e := again_env c pr isreg n0 b X in
    shaped e w1 /\ w_sum w1 = w_sum w0 /\ w_sumn w1 = w_sum w0 /\ w_x w1 = w_x w0 /\ w_y w1 = w_y w0 /\ w_coef w1 = w_coef w0 /\
    outer_update ops e dev0 (enough_fuel c) w1 = (w, Ok (dv, n)) /\
    s_work s' = Some (commit_work w) /\ s_dev s' = Some (dv, n) /\ s_prep s' = Some pr.
Proof.
  intros H. apply gam_update_ok in H.
  destruct H as (n0 & pr & fv & sc0 & sc & X & w0 & w1 & w & dev0 & it0 & isreg & dv & n &
    _ & _ & _ & _ & _ & E1 & E2 & _ & E3 & E4 & E5 & Efv & _ & EX & Ew & Eo & ->).
  pose proof (again_work_fields c pr b fv w0 w1 Ew) as (F1 & F2 & _ & F3 & F4 & F5 & _ & F6 & _).
  exists n0, pr, X, w0, w1, w, dev0, it0, isreg, dv, n.
  do 5 (split; [assumption|]). cbv zeta.
  split.
  { split; cbn [again_env e_y e_X e_cfg].
    - rewrite F1. destruct (predict_parameters c true (b_p b) (Xs (b_rows b)) s) as [s2 out] eqn:P. cbn in Efv. subst out.
      apply predict_parameters_ok in P. destruct P as (sc1 & pr1 & A & w2 & _ & _ & _ & _ & _ & _ & _ & _ & _ & ->).
      rewrite map_length, seq_length, Xs_length, ys_length. reflexivity.
    - intros p Hp. rewrite (arrays_rows c pr (b_p b) _ X p EX Hp), map_length, Xs_length, ys_length. reflexivity. }
  do 5 (split; [assumption|]). split; [exact Eo|]. cbn. auto.
Qed.
