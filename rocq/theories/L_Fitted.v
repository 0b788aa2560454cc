(** Lemmas: predictions for the rows just learned from. *)
From Coq Require Import Reals List Bool Arith ZArith Lra Lia FunctionalExtensionality.
From Verif Require Import Base Lin Data M_Gram S_Gram L_Gram M_OLS L_OLS M_Scaler M_Utils M_Links M_State M_LM M_Equation S_Equation L_Equation M_GAMLSS S_GAMLSS S_Fitted.
From Verif Require Import L_GAM1 L_GAM2 L_GAM4 L_GAM8 L_GAM9 L_GAM10 L_GAM11 L_GAM12 L_GAM13.
Import ListNotations.
Open Scope R_scope.

(** * Columns *)
Lemma col_set_same fv p v : length fv = length v -> col (set_col fv p v) p = v.
Proof.
  revert v. induction fv as [|th fv IH]; intros [|a v] H; cbn in *; try discriminate; [reflexivity|].
  f_equal; [unfold set_entry; now rewrite Nat.eqb_refl|]. apply IH. lia.
Qed.
Lemma col_set_other fv p q v : length fv = length v -> q <> p -> col (set_col fv p v) q = col fv q.
Proof.
  intros H Hq. revert v H. induction fv as [|th fv IH]; intros [|a v] H; cbn in *; try discriminate; [reflexivity|].
  f_equal; [unfold set_entry; apply Nat.eqb_neq in Hq; now rewrite Hq|]. apply IH. lia.
Qed.
Lemma map2_left {A B C} (f : A -> C) (l : list A) (m : list B) : length l = length m -> map2 (fun a _ => f a) l m = map f l.
Proof. revert m. induction l as [|a l IH]; intros [|b m] H; cbn in *; try discriminate; [reflexivity|]. f_equal. apply IH. lia. Qed.
Lemma col_nth fv p i : nth i (col fv p) 0 = nth i fv (fun _ => 0) p.
Proof. unfold col. exact (map_nth (fun th : vec => th p) fv (fun _ => 0) i). Qed.

(** * Fit *)
Section Fit.
Context {M : Type} (ops : method_ops M) (e : env M).
Notation d := (o_dist (e_cfg e)).
Hypothesis Hcond : o_cond_start (e_cfg e) = false.

Definition fits (p : nat) (s : work M) : Prop :=
  col (w_fv s) p = map (fun x => d_inv d p (dot (fst (e_X e p)) x (w_coef s p))) (snd (e_X e p)).
Definition le1 (p : nat) (s : work M) : Prop := forall i j, w_step s i j p <= 1.
Definition ones (p : nat) (s : work M) : Prop := forall i j, w_step s i j p = 1.
Definition later (p : nat) (s s' : work M) : Prop := le1 p s' /\ (ones p s' -> ones p s).

Lemma inner_fit_loop_steps p io n k : forall it fv dvs cnt pathit s s' q it' bad tr,
  shaped e s -> length fv = length (e_y e) ->
  inner_fit_loop ops e p io n k it fv dvs cnt pathit s = (s', Ok (q, it', bad, tr)) ->
  (forall p' i j, p' <> p -> w_step s' i j p' = w_step s i j p') /\
  (le1 p s -> later p s s' /\ exists i step dvo fv1 pth s1 s2, length fv1 = length (e_y e) /\ loop_frame s1 = loop_frame s /\
    (ones p s' -> step = 1) /\ fit_candidate ops e p io i step dvo fv1 pth s1 = (s2, Ok q)).
Proof.
  induction k as [|k IH]; intros it fv dvs cnt pathit s s' q it' bad tr Hs Hf H; cbn [inner_fit_loop] in H; [discriminate|].
  peel_as H step s1 P1. apply read_step_inv in P1. destruct P1 as (-> & Est & _ & Hp).
  peel_as H fv1 s2 P2. rewrite Hcond, andb_false_r in P2. apply ret_inv in P2. destruct P2 as [-> <-].
  peel_as H q1 s2 P2. pose proof (loop_frame_of _ _ _ _ (fit_candidate_frame ops e p io it step _ fv pathit) P2) as F2.
  pose proof (step_of _ _ _ _ (fit_candidate_steps ops e p io it step _ fv pathit) P2) as S2.
  peel_as H u s3 P3.
  assert (F3 : loop_frame s3 = loop_frame s).
  { destruct (Rltb _ _ && _); [apply write_inv in P3; subst s3; exact F2|apply ret_inv in P3; destruct P3 as [-> _]; exact F2]. }
  assert (O3 : forall p' i j, p' <> p -> w_step s3 i j p' = w_step s i j p').
  { intros p' i j Hne. destruct (Rltb _ _ && _).
    - apply write_inv in P3. subst s3. cbn [w_step]. apply Nat.eqb_neq in Hne. rewrite Hne, !andb_false_r. now rewrite S2.
    - apply ret_inv in P3. destruct P3 as [-> _]. now rewrite S2. }
  assert (D3 : le1 p s -> later p s s3).
  { intros HL. destruct (Rltb _ _ && _).
    - apply write_inv in P3. subst s3. unfold later, le1, ones. cbn [w_step]. rewrite S2. pose proof (HL (io - 1)%nat it) as Hst. rewrite Est in Hst. split.
      + intros i j. destruct (_ && _ && _); [lra|apply HL].
      + intros H1. specialize (H1 (io - 1)%nat (S it)). rewrite !Nat.eqb_refl in H1. cbn [andb] in H1. lra.
    - apply ret_inv in P3. destruct P3 as [-> _]. unfold later, le1, ones. rewrite S2. auto. }
  destruct (_ || Nat.eqb k 0).
  - apply ret_inv in H. destruct H as [-> H]. injection H as -> _. split; [exact O3|]. intros HL. split; [auto|].
    exists it, step, (dvs it), fv, pathit, s, s2. split; [exact Hf|]. split; [reflexivity|]. split; [|exact P2].
    intros H1. rewrite <- Est. apply (proj2 (D3 HL) H1).
  - peel_as H r s5 P5. destruct r as [[[q' it''] bad'] tr'].
    apply ret_inv in H. destruct H as [-> H]. injection H as <- <- <- <-.
    apply IH in P5.
    + destruct P5 as [O5 P5]. split; [intros p' i j Hne; rewrite O5, O3; auto|]. intros HL.
      destruct (D3 HL) as [L3 K3]. destruct (P5 L3) as ((L5 & K5) & i & st0 & dv & fv2 & pth & s4 & s6 & H1 & H2 & H3 & H4).
      split; [split; auto|].
      exists i, st0, dv, fv2, pth, s4, s6. split; [exact H1|]. split; [congruence|]. split; [exact H3|exact H4].
    + exact (shaped_frame e s s3 F3 Hs).
    + destruct (Rltb _ _); [exact Hf|]. exact (proj2 (shaped_fit_candidate ops e p io it step _ fv pathit s s2 q1 Hs Hp Hf P2)).
Qed.

Lemma candidate_fits p io it step dvo fv pth s s' q : shaped e s -> (p < d_n d)%nat -> length fv = length (e_y e) -> step = 1 ->
  fit_candidate ops e p io it step dvo fv pth s = (s', Ok q) ->
  col (c_fv q) p = map (fun x => d_inv d p (dot (fst (e_X e p)) x (c_beta q))) (snd (e_X e p)).
Proof.
  intros [S1 S2] Hp Hf -> H. apply fit_candidate_full in H. cbv zeta in H.
  destruct H as (eta & gd & m & Hw & _ & _ & _ & _ & Efv & _).
  apply working_rows in Hw; [|exact Hf]. cbv zeta in Hw. destruct Hw as (L1 & _).
  assert (E : map2 (fun x et => 1 * dot (fst (e_X e p)) x (c_beta q) + (1 - 1) * et) (snd (e_X e p)) eta =
              map (fun x => dot (fst (e_X e p)) x (c_beta q)) (snd (e_X e p))).
  { rewrite <- (map2_left (fun x => dot (fst (e_X e p)) x (c_beta q)) (snd (e_X e p)) eta).
    - f_equal. extensionality x. extensionality et. ring.
    - rewrite (S2 p Hp). congruence. }
  rewrite E, map_map in Efv. rewrite Efv. apply col_set_same. rewrite map_length. rewrite (S2 p Hp). exact S1.
Qed.

(** One parameter of one cycle. *)
Lemma inner_fit_fits p q io s s' r : shaped e s -> le1 p s -> inner_fit ops e q io s = (s', Ok r) ->
  shaped e s' /\ later p s s' /\ (ones p s' -> fits p s \/ (p = q /\ io = 1%nat) -> fits p s').
Proof.
  intros Hs HL H0. pose proof (inner_fit_shaped ops e Hcond q io s s' r Hs H0) as (Hs' & Hq & _).
  split; [exact Hs'|]. unfold inner_fit in H0. rename H0 into H.
  peel_as H fv s1 P1. apply peek_inv in P1. destruct P1 as [-> <-].
  peel_as H dv s2 P2. apply lift_inv in P2. destruct P2 as [-> _].
  peel_as H n s3 P3. apply read_iter_inv in P3. destruct P3 as [-> _].
  peel_as H qi s4 P4. destruct qi as [[[cq it] bad] tr].
  pose proof (loop_frame_of _ _ _ _ (inner_fit_loop_frame ops e q io _ _ _ _ _ _ _) P4) as F4.
  pose proof (inner_fit_loop_shaped ops e Hcond _ _ _ _ _ _ _ _ _ _ _ _ _ _ _ Hs (proj1 Hs) P4)
    as (_ & i0 & st0 & dvo0 & fv0 & pth0 & s50 & s60 & L0 & H10 & H20).
  apply inner_fit_loop_steps in P4; [|exact Hs|apply Hs].
  destruct P4 as [O4 P4].
  peel_as H u s7 P5. peel_as H u2 s8 P6. apply ret_inv in H. destruct H as [-> <-].
  unfold set_itinner in P6. apply write_inv in P6.
  assert (E7 : w_step s7 = w_step s4).
  { destruct (negb bad || Nat.eqb io 1); [apply write_inv in P5; subst s7; reflexivity|apply ret_inv in P5; destruct P5 as [-> _]; reflexivity]. }
  assert (E8 : w_step s8 = w_step s4) by (subst s8; cbn [w_step]; exact E7).
  assert (F8 : fits p s8 <-> fits p s7) by (subst s8; unfold fits; cbn [w_fv w_coef]; tauto).
  assert (FR : s7 = s4 -> fits p s -> fits p s7).
  { intros -> Hf. unfold fits in *. unfold loop_frame in F4. replace (w_fv s4) with (w_fv s) by congruence.
    replace (w_coef s4) with (w_coef s) by congruence. exact Hf. }
  pose proof (shaped_frame e s s4 F4 Hs) as [Q1 Q2].
  assert (Lq : length (w_fv s4) = length (col (c_fv cq) q)).
  { rewrite col_length, Q1. symmetry.
    exact (proj1 (shaped_fit_candidate ops e q io i0 st0 dvo0 fv0 pth0 s50 s60 cq (shaped_frame e s s50 H10 Hs) Hq L0 H20)). }
  assert (T : later p s s4 -> later p s s8) by (unfold later, le1, ones; rewrite E8; tauto).
  destruct (Nat.eq_dec p q) as [->|Hne].
  - destruct (P4 HL) as (D4 & i & step & dvo & fv1 & pth & s5 & s6 & L1 & H1 & H2 & H3).
    split; [auto|]. intros O8 Hor. apply F8.
    assert (O4' : ones q s4) by (unfold ones in *; rewrite <- E8; exact O8).
    destruct (negb bad || Nat.eqb io 1) eqn:Eb.
    + apply write_inv in P5. subst s7. unfold fits. cbn [w_fv w_coef].
      unfold fupd. rewrite Nat.eqb_refl. rewrite col_set_same by exact Lq.
      exact (candidate_fits q io i step dvo fv1 pth s5 s6 cq (shaped_frame e s s5 H1 Hs) Hq L1 (H2 O4') H3).
    + apply orb_false_iff in Eb. destruct Eb as [_ Eb]. apply Nat.eqb_neq in Eb.
      apply ret_inv in P5. destruct P5 as [E _]. destruct Hor as [Hf|[_ Hf]]; [|congruence]. auto.
  - assert (D4 : later p s s4).
    { split; [intros i j; rewrite O4 by exact Hne; apply HL|intros HO i j; rewrite <- O4 by exact Hne; apply HO]. }
    split; [auto|]. intros O8 Hor. apply F8. destruct Hor as [Hf|[E _]]; [|congruence].
    destruct (negb bad || Nat.eqb io 1) eqn:Eb.
    + apply write_inv in P5. subst s7. unfold fits in *. cbn [w_fv w_coef].
      unfold fupd. apply Nat.eqb_neq in Hne as Hb. rewrite Hb. rewrite col_set_other by (exact Lq || exact Hne).
      unfold loop_frame in F4. replace (w_fv s4) with (w_fv s) by congruence.
      replace (w_coef s4) with (w_coef s) by congruence. exact Hf.
    + apply ret_inv in P5. destruct P5 as [E _]. auto.
Qed.

Lemma outer_fit_fits p fuel s s' dv n : In p (p_order (e_prep e)) -> shaped e s -> le1 p s -> outer_fit ops e fuel s = (s', Ok (dv, n)) ->
  n <> O -> ones p s' -> shaped e s' /\ fits p s'.
Proof.
  intros Hin.
  assert (Cyc : forall io ps dev s s' r, shaped e s -> le1 p s -> fit_cycle ops e ps io dev s = (s', Ok r) ->
     shaped e s' /\ later p s s' /\ (ones p s' -> fits p s \/ (In p ps /\ io = 1%nat) -> fits p s')).
  { intros io ps. induction ps as [|q ps IH]; intros dev s0 s1 r Hs HL H; cbn [fit_cycle] in H.
    - apply ret_inv in H. destruct H as [-> _]. split; [exact Hs|]. split; [split; auto|]. intros _ [Hp|[[] _]]. exact Hp.
    - peel_as H dev' s2 P. pose proof (inner_fit_fits p q io s0 s2 dev' Hs HL P) as (Hs2 & [L2 K2] & F2).
      apply IH in H; [|exact Hs2|exact L2]. destruct H as (Hs1 & [L1 K1] & F1). split; [exact Hs1|]. split; [split; auto|].
      intros HO Hor. destruct Hor as [Hf|[[ -> |Hp] Hio]]; apply F1; auto. }
  assert (Loop : forall fuel it d0 dev s s' dv n, shaped e s -> le1 p s -> (ones p s -> fits p s) ->
     outer_fit_loop ops e fuel it d0 dev s = (s', Ok (dv, n)) -> ones p s' -> shaped e s' /\ ones p s /\ fits p s').
  { clear fuel s s' dv n. induction fuel as [|fuel IH]; intros it d0 dev s s' dv n Hs HL Hf H HO; cbn [outer_fit_loop] in H; [discriminate|].
    peel_as H mn s1 P. apply peek_inv in P. destruct P as [-> <-].
    destruct ((w_min s <=? it)%nat && _).
    - apply ret_inv in H. destruct H as [-> H]. auto.
    - peel_as H dev' s1 P. apply Cyc in P; [|exact Hs|exact HL]. destruct P as (Hs1 & [L1 K1] & F1).
      apply IH in H; auto. destruct H as (A1 & A2 & A3). auto. }
  intros Hs HL H Hn HO. unfold outer_fit in H.
  peel_as H fv s1 P1. apply peek_inv in P1. destruct P1 as [-> <-].
  peel_as H dev s2 P2. apply lift_inv in P2. destruct P2 as [-> _].
  destruct fuel as [|fuel]; cbn [outer_fit_loop] in H; [discriminate|].
  peel_as H mn s1 P. apply peek_inv in P. destruct P as [-> <-].
  destruct ((w_min s <=? 0)%nat && _).
  - apply ret_inv in H. destruct H as [-> H]. injection H as _ <-. congruence.
  - peel_as H dev' s1 P. apply Cyc in P; [|exact Hs|exact HL]. destruct P as (Hs1 & [L1 K1] & F1).
    apply Loop in H; auto. tauto.
Qed.

(** The deviance returned is never smaller than the one of the fitted values. *)
Lemma inner_fit_dev p io s s' r : (1 <= io)%nat -> inner_fit ops e p io s = (s', Ok r) ->
  exists v, deviance e (w_fv s') = Ok v /\ v <= fst r.
Proof.
  intros Hio H. destruct (Nat.eq_dec io 1) as [->|Hne].
  - apply C60_first_lemma in H. exists (fst r). split; [exact H|lra].
  - apply C60_inner_lemma in H; [|lia]. destruct H as (d0 & d1 & E0 & E1 & Hd & [E|[Hlt _]]).
    + exists d1. split; [exact E1|lra].
    + exists d1. split; [exact E1|lra].
Qed.
Lemma fit_cycle_dev ps io : (1 <= io)%nat -> ps <> [] -> forall dev s s' r, fit_cycle ops e ps io dev s = (s', Ok r) ->
  exists v, deviance e (w_fv s') = Ok v /\ v <= r.
Proof.
  intros Hio. induction ps as [|p ps IH]; intros Hps dev s s' r H; [congruence|]. cbn [fit_cycle] in H.
  peel_as H q s1 P. destruct ps as [|p' ps].
  - cbn [fit_cycle] in H. apply ret_inv in H. destruct H as [-> <-]. exact (inner_fit_dev p io s s1 q Hio P).
  - apply IH in H; [exact H|discriminate].
Qed.
Lemma outer_fit_dev fuel s s' dv n : p_order (e_prep e) <> [] -> outer_fit ops e fuel s = (s', Ok (dv, n)) ->
  exists v, deviance e (w_fv s') = Ok v /\ v <= dv.
Proof.
  intros Ho H.
  assert (Loop : forall fuel it d0 dev s s' dv n, (exists v, deviance e (w_fv s) = Ok v /\ v <= dev) ->
     outer_fit_loop ops e fuel it d0 dev s = (s', Ok (dv, n)) -> exists v, deviance e (w_fv s') = Ok v /\ v <= dv).
  { clear fuel s s' dv n H. induction fuel as [|fuel IH]; intros it d0 dev s s' dv n Hd H; cbn [outer_fit_loop] in H; [discriminate|].
    peel_as H mn s1 P. apply peek_inv in P. destruct P as [-> <-].
    destruct ((w_min s <=? it)%nat && _).
    - apply ret_inv in H. destruct H as [-> H]. injection H as <- _. exact Hd.
    - peel_as H dev' s1 P. apply fit_cycle_dev in P; [|lia|exact Ho]. apply IH in H; auto. }
  unfold outer_fit in H.
  peel_as H fv s1 P1. apply peek_inv in P1. destruct P1 as [-> <-].
  peel_as H dev s2 P2. apply lift_inv in P2. destruct P2 as [-> E].
  apply Loop in H; [exact H|]. exists dev. split; [exact E|lra].
Qed.
End Fit.

(** * Update *)
Section Upd.
Context {M : Type} (ops : method_ops M) (e : env M).
Notation d := (o_dist (e_cfg e)).
Notation disc := ((1 - p_forget (e_prep e) 0) ^ length (e_y e)).

Lemma inner_update_fits g p io s s' r : shaped e s -> inner_update ops e g p io s = (s', Ok r) ->
  shaped e s' /\ fits e p s' /\ (forall p', p' <> p -> fits e p' s -> fits e p' s') /\
  (forall p', p' <> p -> col (w_fv s') p' = col (w_fv s) p') /\ (p < d_n d)%nat /\
  exists v, deviance e (w_fv s') = Ok v /\ r = v + disc * g.
Proof.
  intros Hs H. apply inner_update_shaped in H; [|exact Hs].
  destruct H as (Hs' & Hp & q & it & i & fv1 & s1 & s2 & s3 & sumw & L1 & F1 & F3 & Hc & _ & -> & ->).
  split; [exact Hs'|].
  pose proof (shaped_candidate ops e g p io i fv1 s1 s2 q (shaped_frame e s s1 F1 Hs) Hp L1 Hc) as [Lq _].
  apply update_candidate_ok in Hc. cbv zeta in Hc.
  destruct Hc as (eta & gd & m & x0 & y0 & mw & dv & _ & _ & _ & _ & _ & _ & _ & _ & Efv & Edv & Ecd & _).
  pose proof (shaped_frame e s s3 F3 Hs) as [Q1 Q2].
  pose proof (shaped_frame e s s1 F1 Hs) as [R1 R2].
  assert (Efv0 : w_fv s1 = w_fv s /\ w_fv s3 = w_fv s /\ w_coef s3 = w_coef s) by (unfold loop_frame in F1, F3; repeat split; congruence).
  destruct Efv0 as (V1 & V3 & C3).
  assert (Lc : length (w_fv s3) = length (col (c_fv q) p)) by (rewrite col_length; congruence).
  unfold store_update, write, fits. cbn [fst w_fv w_coef].
  assert (Oth : forall p', p' <> p -> col (set_col (w_fv s3) p (col (c_fv q) p)) p' = col (w_fv s) p').
  { intros p' Hne. rewrite col_set_other by (exact Lc || exact Hne). now rewrite V3. }
  split; [|split; [|split; [exact Oth|split; [exact Hp|]]]].
  - unfold fupd. rewrite Nat.eqb_refl. rewrite col_set_same by exact Lc. rewrite Efv.
    rewrite map_map. apply col_set_same. rewrite map_length. rewrite (R2 p Hp). exact R1.
  - intros p' Hne Hf. unfold fupd. apply Nat.eqb_neq in Hne as Hb. rewrite Hb. rewrite Oth by exact Hne. rewrite C3. exact Hf.
  - exists dv. split; [|exact Ecd]. rewrite V3, Efv, V1. rewrite set_col_idem. rewrite Efv, V1 in Edv. exact Edv.
Qed.
Lemma update_cycle_fits g io : forall ps dev s s' r, shaped e s -> update_cycle ops e g ps io dev s = (s', Ok r) ->
  shaped e s' /\ (forall p, In p ps \/ fits e p s -> fits e p s') /\
  (forall p', (d_n d <= p')%nat -> col (w_fv s') p' = col (w_fv s) p') /\
  (ps <> [] -> exists v, deviance e (w_fv s') = Ok v /\ r = v + disc * g).
Proof.
  intros ps. induction ps as [|q ps IH]; intros dev s s' r Hs H; cbn [update_cycle] in H.
  - apply ret_inv in H. destruct H as [-> _]. split; [exact Hs|]. split; [intros p [[]|Hp]; exact Hp|]. split; [auto|congruence].
  - peel_as H dev' s1 P. apply inner_update_fits in P; [|exact Hs]. destruct P as (Hs1 & F1 & G1 & C1 & Hq & D1).
    apply IH in H as H'; [|exact Hs1]. destruct H' as (Hs2 & F2 & C2 & D2). split; [exact Hs2|]. split; [|split].
    + intros p [[ -> |Hp]|Hp]; apply F2; auto. destruct (Nat.eq_dec p q) as [->|Hne]; auto.
    + intros p' Hp'. rewrite C2 by exact Hp'. apply C1. lia.
    + intros _. destruct ps as [|p' ps]; [|apply D2; discriminate].
      cbn [update_cycle] in H. apply ret_inv in H. destruct H as [-> <-]. exact D1.
Qed.
Lemma outer_update_fits g fuel s s' dv n : p_order (e_prep e) <> [] -> shaped e s -> outer_update ops e g fuel s = (s', Ok (dv, n)) ->
  n <> O -> shaped e s' /\ (forall p, In p (p_order (e_prep e)) -> fits e p s') /\
  (forall p', (d_n d <= p')%nat -> col (w_fv s') p' = col (w_fv s) p') /\
  exists v, deviance e (w_fv s') = Ok v /\ dv = v + disc * g.
Proof.
  intros Ho.
  assert (Loop : forall fuel it d0 dev s s' dv n, shaped e s -> (forall p, In p (p_order (e_prep e)) -> fits e p s) ->
     (exists v, deviance e (w_fv s) = Ok v /\ dev = v + disc * g) ->
     outer_update_loop ops e g fuel it d0 dev s = (s', Ok (dv, n)) ->
     shaped e s' /\ (forall p, In p (p_order (e_prep e)) -> fits e p s') /\
     (forall p', (d_n d <= p')%nat -> col (w_fv s') p' = col (w_fv s) p') /\
     exists v, deviance e (w_fv s') = Ok v /\ dv = v + disc * g).
  { clear fuel s s' dv n. induction fuel as [|fuel IH]; intros it d0 dev s s' dv n Hs Hf Hd H; cbn [outer_update_loop] in H; [discriminate|].
    peel_as H mn s1 P. apply peek_inv in P. destruct P as [-> <-].
    destruct ((w_min s <=? it)%nat && _).
    - apply ret_inv in H. destruct H as [-> H]. injection H as <- _. auto.
    - peel_as H dev' s1 P. apply update_cycle_fits in P; [|exact Hs]. destruct P as (Hs1 & F1 & C1 & D1).
      apply IH in H; auto. destruct H as (A1 & A2 & A3 & A4). split; [exact A1|]. split; [exact A2|]. split; [|exact A4].
      intros p' Hp'. rewrite A3, C1; auto. }
  intros Hs H Hn. unfold outer_update in H.
  peel_as H fv s1 P1. apply peek_inv in P1. destruct P1 as [-> <-].
  peel_as H dev s2 P2. apply lift_inv in P2. destruct P2 as [-> _].
  destruct fuel as [|fuel]; cbn [outer_update_loop] in H; [discriminate|].
  peel_as H mn s1 P. apply peek_inv in P. destruct P as [-> <-].
  destruct ((w_min s <=? 0)%nat && _).
  - apply ret_inv in H. destruct H as [-> H]. injection H as _ <-. congruence.
  - peel_as H dev' s1 P. apply update_cycle_fits in P; [|exact Hs]. destruct P as (Hs1 & F1 & C1 & D1).
    apply Loop in H; auto. destruct H as (A1 & A2 & A3 & A4). split; [exact A1|]. split; [exact A2|]. split; [|exact A4].
    intros p' Hp'. rewrite A3, C1; auto.
Qed.
End Upd.

(** * Deviance *)
Lemma logpdf_rows d ll : forall l th, length th = length l -> map2 (d_logpdf d) (ys l) th = map Some ll ->
  length ll = length l /\
  (forall i o, nth_error l i = Some o -> d_logpdf d (oy o) (nth i th (fun _ => 0)) = Some (nth i ll 0)) /\
  lsum (map2 (fun q w => - 2 * q * w) ll (ws l)) = - 2 * lsum (map2 (fun o q => ow o * q) l ll).
Proof.
  induction ll as [|a ll IH]; intros [|o l] [|t th] L E; try discriminate.
  - split; [reflexivity|]. split; [intros [|i] o H; discriminate|]. cbn. lra.
  - cbn in E. injection E as E1 E2. destruct (IH l th ltac:(cbn in L; lia) E2) as (H1 & H2 & H3).
    split; [cbn; lia|]. split.
    + intros [|i] o' Ho; cbn in *; [injection Ho as <-; exact E1|auto].
    + unfold ws in *. cbn [map map2 lsum]. rewrite H3. lra.
Qed.
Lemma deviance_spec {M} (e : env M) l th v : e_y e = ys l -> e_w e = ws l -> length th = length l ->
  deviance e th = Ok v -> has_deviance (o_dist (e_cfg e)) l th v.
Proof.
  intros Ey Ew L H. unfold deviance in H. rewrite Ey, Ew in H.
  destruct (all_some _) as [ll|] eqn:E; [|discriminate]. cbn [bind] in H. injection H as <-.
  apply all_some_inv in E. destruct (logpdf_rows _ ll l th L E) as (H1 & H2 & H3).
  split; [exact L|]. exists ll. auto.
Qed.
Lemma has_deviance_ext d l th th' v : reads_parameters d -> (forall p, (p < d_n d)%nat -> same_values p th th') -> length th = length th' ->
  has_deviance d l th v -> has_deviance d l th' v.
Proof.
  intros Hr Hs L (H1 & ll & H2 & H3 & H4). split; [congruence|]. exists ll. split; [exact H2|]. split; [|exact H4].
  intros i o Ho. rewrite <- (H3 i o Ho). apply Hr. intros p Hp. symmetry. apply (proj2 (Hs p Hp)).
Qed.

(** * The object *)
Lemma rows_of_columns {M} (c : gam_cfg M) (X : nat -> nat * list vec) (co : nat -> vec) n p :
  length (snd (X p)) = n ->
  col (map (fun i q => d_inv (o_dist c) q (dot (fst (X q)) (nth i (snd (X q)) (fun _ => 0)) (co q))) (seq 0 n)) p =
  map (fun x => d_inv (o_dist c) p (dot (fst (X p)) x (co p))) (snd (X p)).
Proof.
  intros <-. unfold col. rewrite map_map. apply (nth_ext _ _ 0 0); [now rewrite !map_length, seq_length|].
  intros i Hi. rewrite map_length, seq_length in Hi.
  set (f := fun i => d_inv (o_dist c) p (dot (fst (X p)) (nth i (snd (X p)) (fun _ => 0)) (co p))).
  rewrite (nth_indep _ 0 (f O)) by now rewrite map_length, seq_length. rewrite (map_nth f), seq_nth by exact Hi.
  set (g := fun x => d_inv (o_dist c) p (dot (fst (X p)) x (co p))).
  rewrite (nth_indep (map g _) 0 (g (fun _ => 0))) by now rewrite map_length. now rewrite (map_nth g).
Qed.
Lemma same_values_col p th th' : length th = length th' -> col th p = col th' p -> same_values p th th'.
Proof. intros L E. split; [exact L|]. intros i. rewrite <- !col_nth. now rewrite E. Qed.
Lemma scaler_fit_sel f t p l sc : scaler_fit f t p l = Ok sc -> sc_do sc && negb (forallb (fun j => j <? p)%nat (sc_sel sc)) = false.
Proof.
  unfold scaler_fit. destruct (selection t p) as [dsc sel]. destruct dsc.
  - repeat (match goal with |- context[if ?b then _ else _] => destruct b eqn:?; try discriminate end);
    intros H; injection H as <-; cbn [sc_do sc_sel andb]; assumption || reflexivity.
  - repeat (match goal with |- context[if ?b then _ else _] => destruct b eqn:?; try discriminate end);
    intros H; injection H as <-; reflexivity.
Qed.
Lemma scaler_rows_sel l : forall s, sc_do (fold_left (fun s o => scaler_row s (ox o) (ow o)) l s) = sc_do s /\
  sc_sel (fold_left (fun s o => scaler_row s (ox o) (ow o)) l s) = sc_sel s.
Proof. induction l as [|o l IH]; intros s; cbn [fold_left]; [auto|]. destruct (IH (scaler_row s (ox o) (ow o))) as [-> ->]. split; reflexivity. Qed.
Lemma scaler_update_sel s l sc : scaler_update s l = Ok sc -> sc_do sc = sc_do s /\ sc_sel sc = sc_sel s.
Proof.
  unfold scaler_update. destruct (_ <? 1)%nat; [discriminate|]. destruct (sc_do s) eqn:E; intros H; injection H as <-.
  - destruct (scaler_rows_sel l (mk_scaler (sc_forget s) true (sc_sel s) (sc_mean s) (sc_var s) (sc_M s) (sc_cum s) (sc_n s + lsum (ws l)))) as [-> ->].
    cbn. auto.
  - cbn. auto.
Qed.
Lemma arrays_beyond {M} (c : gam_cfg M) pr ncol X A p : arrays c pr ncol X = Ok A -> (d_n (o_dist c) <= p)%nat -> A p = (O, []).
Proof.
  unfold arrays. intros H Hp.
  assert (Q : forall ps l, all_arrays pr ncol X ps = Ok l -> length l = length ps).
  { intros ps. induction ps as [|q ps IH]; intros l Hl; cbn [all_arrays] in Hl; [injection Hl as <-; reflexivity|].
    destruct (make_model_array _ _ _ _) as [a|]; [|discriminate]. cbn [bind] in Hl.
    destruct (all_arrays _ _ _ ps) as [r|] eqn:Er; [|discriminate]. cbn [bind] in Hl. injection Hl as <-. cbn. f_equal. auto. }
  destruct (all_arrays _ _ _ _) as [l|] eqn:E; [|discriminate]. cbn [bind] in H. injection H as <-.
  apply nth_overflow. rewrite (Q _ _ E), seq_length. exact Hp.
Qed.
Lemma same_columns (th th' : list vec) : length th = length th' -> (forall p, col th p = col th' p) -> th = th'.
Proof.
  intros L H. apply (nth_ext _ _ (fun _ => 0) (fun _ => 0)); [exact L|]. intros i _. extensionality p.
  rewrite <- !col_nth. now rewrite H.
Qed.

Section Object.
Context {M : Type} (ops : method_ops M) (c : gam_cfg M).
Notation d := (o_dist c).


Lemma C111_fit_lemma b s s' : gam_fit ops c b s = (s', Ok tt) -> rowwise d -> o_cond_start c = false -> cycles s' <> Some O ->
  exists th fv, snd (predict_parameters c true (b_p b) (Xs (b_rows b)) s') = Ok th /\ fitted_values s' = Some fv /\
    forall p, (p < d_n d)%nat -> undamped s' p -> same_values p th fv.
Proof.
  intros H Hr Hcond Hcy. apply gam_fit_ok in H.
  destruct H as (pr & ms & fv & js & sc & X & w & dv & n & Ep & B1 & B2 & _ & _ & Ef & _ & Esc & EX & Eo & ->).
  set (e := start_env c pr b X) in *.
  assert (Hs : shaped e (start_work c pr ms fv)).
  { split; cbn [start_work w_fv e start_env e_y e_X e_cfg].
    - rewrite (Hr _ _ Ef). reflexivity.
    - intros p Hp. rewrite (arrays_rows c pr (b_p b) _ X p EX Hp), map_length, Xs_length, ys_length. reflexivity. }
  eexists. exists (w_fv w). split.
  { erewrite predict_parameters_run; [reflexivity|reflexivity|reflexivity|reflexivity| | | | |exact EX].
    - rewrite Xs_length. exact B1.
    - exact B2.
    - cbn. congruence.
    - exact (scaler_fit_sel _ _ _ _ _ Esc). }
  split; [reflexivity|]. intros p Hp (pr' & w' & E1 & E2 & E3 & E4). cbn in E1, E2. injection E1 as <-. injection E2 as <-.
  assert (Hn : n <> O) by (intros ->; apply Hcy; reflexivity).
  destruct (outer_fit_fits ops e Hcond p _ _ _ _ _ (prepare_order c pr ms Ep p Hp) Hs
    (fun i j => Req_le _ _ E3) Eo Hn E4) as [[S1 _] F].
  apply same_values_col.
  - rewrite map_length, seq_length, Xs_length, S1. unfold e. cbn. now rewrite ys_length.
  - rewrite F. apply (rows_of_columns c X (w_coef w)). rewrite (arrays_rows c pr (b_p b) _ X p EX Hp). now rewrite map_length.
Qed.

Lemma C111_fit_deviance_lemma b s s' : gam_fit ops c b s = (s', Ok tt) -> rowwise d -> o_cond_start c = false -> cycles s' <> Some O ->
  (0 < d_n d)%nat -> reads_parameters d -> (forall p, (p < d_n d)%nat -> undamped s' p) ->
  exists th v dev n, snd (predict_parameters c true (b_p b) (Xs (b_rows b)) s') = Ok th /\
    has_deviance d (b_rows b) th v /\ s_dev s' = Some (dev, n) /\ v <= dev.
Proof.
  intros H Hr Hcond Hcy Hd Hre Hu.
  destruct (C111_fit_lemma b s s' H Hr Hcond Hcy) as (th & fv' & Hth & Hfv & Hsame).
  apply gam_fit_ok in H.
  destruct H as (pr & ms & fv & js & sc & X & w & dv & n & Ep & B1 & B2 & _ & _ & Ef & _ & Esc & EX & Eo & ->).
  cbn in Hfv. injection Hfv as <-.
  assert (Ho : p_order pr <> []).
  { intros E. pose proof (prepare_order c pr ms Ep 0%nat Hd) as Hin. rewrite E in Hin. exact Hin. }
  destruct (outer_fit_dev ops (start_env c pr b X) _ _ _ _ _ Ho Eo) as (v & Hv & Hle).
  exists th, v, dv, n. split; [exact Hth|]. split; [|split; [reflexivity|exact Hle]].
  assert (L : length th = length (b_rows b)).
  { destruct (predict_parameters _ _ _ _ _) as [s2 out] eqn:P. cbn in Hth. subst out.
    apply predict_parameters_ok in P. destruct P as (sc1 & pr1 & A & w2 & _ & _ & _ & _ & _ & _ & _ & _ & _ & ->).
    now rewrite map_length, seq_length, Xs_length. }
  pose proof (Hsame 0%nat Hd (Hu 0%nat Hd)) as [L' _].
  apply (has_deviance_ext d _ (w_fv w)); [exact Hre| |congruence|].
  - intros p Hp. destruct (Hsame p Hp (Hu p Hp)) as [A1 A2]. split; [congruence|]. intros i. now rewrite A2.
  - change d with (o_dist (e_cfg (start_env c pr b X))). apply deviance_spec; auto; congruence.
Qed.

Lemma C111_update_lemma b s s' pr : gam_update ops c b s = (s', Ok tt) -> cycles s' <> Some O ->
  s_prep s = Some pr -> p_order pr <> [] -> (forall p, (p < d_n d)%nat -> In p (p_order pr)) ->
  exists th v dev0 it0 n, snd (predict_parameters c true (b_p b) (Xs (b_rows b)) s') = Ok th /\ fitted_values s' = Some th /\
    has_deviance d (b_rows b) th v /\ s_dev s = Some (dev0, it0) /\
    s_dev s' = Some (v + (1 - p_forget pr 0) ^ length (b_rows b) * dev0, n).
Proof.
  intros H Hcy Epr Hne Hord. apply gam_update_ok in H.
  destruct H as (n0 & pr' & fv & sc0 & sc & X & w0 & w1 & w & dev0 & it0 & isreg & dv & n &
    B1 & B2 & B3 & _ & _ & E1 & E2 & Esc & E3 & E4 & E5 & Efv & Eup & EX & Ew & Eo & ->).
  rewrite Epr in E2. injection E2 as <-. set (e := again_env c pr isreg n0 b X) in *.
  pose proof (again_work_fields c pr b fv w0 w1 Ew) as (F1 & _).
  destruct (predict_parameters c true (b_p b) (Xs (b_rows b)) s) as [s2 out] eqn:P. cbn in Efv. subst out.
  apply predict_parameters_ok in P. destruct P as (sc1 & pr1 & A & w2 & _ & P1 & P2 & P3 & _ & _ & _ & Psel & PA & ->).
  rewrite Esc in P1. injection P1 as <-.
  assert (Hs : shaped e w1).
  { split; cbn [e again_env e_y e_X e_cfg].
    - rewrite F1. rewrite map_length, seq_length, Xs_length, ys_length. reflexivity.
    - intros p Hp. rewrite (arrays_rows c pr (b_p b) _ X p EX Hp), map_length, Xs_length, ys_length. reflexivity. }
  assert (Hn : n <> O) by (intros ->; apply Hcy; reflexivity).
  destruct (outer_update_fits ops e dev0 _ _ _ _ _ Hne Hs Eo Hn) as ([S1 _] & HF & HC & v & Hv & Edv).
  exists (w_fv w), v, dev0, it0, n.
  assert (Hth : snd (predict_parameters c true (b_p b) (Xs (b_rows b))
     (mk_gam (Some pr) (Some (Some sc)) (s_nfin s) (Some (n0 + lsum (ws (b_rows b)))) (Some (e_ntrain e)) (s_J s) (Some isreg) (Some (commit_work w)) (Some (dv, n)))) = Ok (w_fv w)).
  { erewrite predict_parameters_run; [|reflexivity|reflexivity|reflexivity| | | | |exact EX].
    - cbn [snd]. f_equal. apply same_columns.
      + rewrite map_length, seq_length, Xs_length, S1. unfold e. cbn. now rewrite ys_length.
      + intros p. cbn [commit_work w_coef]. destruct (lt_dec p (d_n d)) as [Hp|Hp].
        * rewrite (HF p (Hord p Hp)). apply (rows_of_columns c X (w_coef w)). rewrite (arrays_rows c pr (b_p b) _ X p EX Hp). now rewrite map_length.
        * rewrite HC by (cbn; lia). rewrite F1. unfold col. rewrite !map_map. apply map_ext. intros i.
          rewrite (arrays_beyond _ _ _ _ _ p EX), (arrays_beyond _ _ _ _ _ p PA) by lia. reflexivity.
    - rewrite Xs_length. exact B1.
    - exact B2.
    - exact B3.
    - destruct (scaler_update_sel _ _ _ Eup) as [-> ->]. exact Psel. }
  split; [exact Hth|]. split; [reflexivity|]. split; [|split; [exact E4|]].
  - change d with (o_dist (e_cfg e)). apply deviance_spec; auto. rewrite S1. unfold e. cbn. apply ys_length.
  - cbn [s_dev]. rewrite Edv. unfold e. cbn. now rewrite ys_length.
Qed.
End Object.
