(** Lemmas: what holds after the last outer cycle; the cycles with one inner iteration. *)
From Coq Require Import Reals List Bool Arith ZArith Lra Lia.
From Verif Require Import Base Lin Data M_Scaler M_Utils M_State M_LM M_Equation M_GAMLSS S_GAMLSS.
From Verif Require Import L_GAM1 L_GAM2 L_GAM3 L_GAM4 L_GAM8 L_GAM10.
Import ListNotations.
Open Scope R_scope.

Section Last.
Context {M : Type} (ops : method_ops M) (e : env M).
Variables (Inv : work M -> Prop) (L : nat -> nat -> work M -> Prop).

Lemma outer_fit_last :
  (forall p io s s' r, (1 <= io)%nat -> Inv s -> (io = 1%nat \/ L p (io - 1) s \/ L p io s) -> inner_fit ops e p io s = (s', Ok r) -> Inv s' /\ L p io s') ->
  (forall p q io j s s' r, q <> p -> Inv s -> L p j s -> inner_fit ops e q io s = (s', Ok r) -> L p j s') ->
  forall fuel s s' dv n, Inv s -> outer_fit ops e fuel s = (s', Ok (dv, n)) ->
  Inv s' /\ (n = O \/ forall p, In p (p_order (e_prep e)) -> L p n s').
Proof.
  intros H1 H2.
  assert (Cyc : forall io ps, (1 <= io)%nat -> forall dev s s' r, Inv s ->
     (io = 1%nat \/ forall p, In p ps -> L p (io - 1) s \/ L p io s) -> fit_cycle ops e ps io dev s = (s', Ok r) ->
     Inv s' /\ (forall p, In p ps \/ L p io s -> L p io s')).
  { intros io ps Hio. induction ps as [|q ps IH]; intros dev s s' r HI Ho H; cbn [fit_cycle] in H.
    - apply ret_inv in H. destruct H as [-> _]. split; [exact HI|]. intros p [[]|Hp]. exact Hp.
    - peel_as H dev' s1 P.
      destruct (H1 q io s s1 dev' Hio HI) as [HI1 HL1]; [|exact P|].
      { destruct Ho as [Ho|Ho]; [auto|right]. apply Ho. left. reflexivity. }
      apply IH in H; [|exact HI1|].
      + destruct H as [HI' H]. split; [exact HI'|].
        intros p [[ <- | Hp]|Hp]; apply H; [right; exact HL1|left; exact Hp|].
        destruct (Nat.eq_dec q p) as [<-|Hne]; [right; exact HL1|right; exact (H2 p q io io s s1 dev' Hne HI Hp P)].
      + destruct Ho as [Ho|Ho]; [auto|right]. intros p Hp.
        destruct (Nat.eq_dec q p) as [<-|Hne]; [right; exact HL1|].
        destruct (Ho p (or_intror Hp)) as [K|K]; [left|right]; exact (H2 p q io _ s s1 dev' Hne HI K P). }
  assert (Loop : forall fuel it d0 dev s s' dv n, Inv s -> (it = O \/ forall p, In p (p_order (e_prep e)) -> L p it s) ->
     outer_fit_loop ops e fuel it d0 dev s = (s', Ok (dv, n)) -> Inv s' /\ (n = O \/ forall p, In p (p_order (e_prep e)) -> L p n s')).
  { induction fuel as [|fuel IH]; intros it d0 dev s s' dv n HI HL H; cbn [outer_fit_loop] in H; [discriminate|].
    peel_as H mn s1 P. apply peek_inv in P. destruct P as [-> <-].
    destruct ((w_min s <=? it)%nat && _).
    - apply ret_inv in H. destruct H as [-> H]. injection H as _ <-. auto.
    - peel_as H dev' s1 P. apply Cyc in P; [|lia|exact HI|].
      + destruct P as [HI1 P]. eapply IH; [exact HI1| |exact H]. right. intros p Hp. apply P. auto.
      + destruct HL as [->|HL]; [auto|right]. intros p Hp. left. replace (S it - 1)%nat with it by lia. auto. }
  intros fuel s s' dv n HI H. unfold outer_fit in H.
  peel_as H fv s1 P1. apply peek_inv in P1. destruct P1 as [-> <-].
  peel_as H dev s2 P2. apply lift_inv in P2. destruct P2 as [-> _].
  eapply Loop; [exact HI| |exact H]. auto.
Qed.

Lemma outer_update_last g :
  (forall p io s s' r, (1 <= io)%nat -> Inv s -> inner_update ops e g p io s = (s', Ok r) -> Inv s' /\ L p io s') ->
  (forall p q io j s s' r, q <> p -> Inv s -> L p j s -> inner_update ops e g q io s = (s', Ok r) -> L p j s') ->
  forall fuel s s' dv n, Inv s -> outer_update ops e g fuel s = (s', Ok (dv, n)) ->
  Inv s' /\ (n = O \/ forall p, In p (p_order (e_prep e)) -> L p n s').
Proof.
  intros H1 H2.
  assert (Cyc : forall io ps, (1 <= io)%nat -> forall dev s s' r, Inv s -> update_cycle ops e g ps io dev s = (s', Ok r) ->
     Inv s' /\ (forall p, In p ps \/ L p io s -> L p io s')).
  { intros io ps Hio. induction ps as [|q ps IH]; intros dev s s' r HI H; cbn [update_cycle] in H.
    - apply ret_inv in H. destruct H as [-> _]. split; [exact HI|]. intros p [[]|Hp]. exact Hp.
    - peel_as H dev' s1 P. destruct (H1 q io s s1 dev' Hio HI P) as [HI1 HL1].
      apply IH in H; [|exact HI1]. destruct H as [HI' H]. split; [exact HI'|].
      intros p [[ <- | Hp]|Hp]; apply H; [right; exact HL1|left; exact Hp|].
      destruct (Nat.eq_dec q p) as [<-|Hne]; [right; exact HL1|right; exact (H2 p q io io s s1 dev' Hne HI Hp P)]. }
  assert (Loop : forall fuel it d0 dev s s' dv n, Inv s -> (it = O \/ forall p, In p (p_order (e_prep e)) -> L p it s) ->
     outer_update_loop ops e g fuel it d0 dev s = (s', Ok (dv, n)) -> Inv s' /\ (n = O \/ forall p, In p (p_order (e_prep e)) -> L p n s')).
  { induction fuel as [|fuel IH]; intros it d0 dev s s' dv n HI HL H; cbn [outer_update_loop] in H; [discriminate|].
    peel_as H mn s1 P. apply peek_inv in P. destruct P as [-> <-].
    destruct ((w_min s <=? it)%nat && _).
    - apply ret_inv in H. destruct H as [-> H]. injection H as _ <-. auto.
    - peel_as H dev' s1 P. apply Cyc in P; [|lia|exact HI].
      destruct P as [HI1 P]. eapply IH; [exact HI1| |exact H]. right. intros p Hp. apply P. auto. }
  intros fuel s s' dv n HI H. unfold outer_update in H.
  peel_as H fv s1 P1. apply peek_inv in P1. destruct P1 as [-> <-].
  peel_as H dev s2 P2. apply lift_inv in P2. destruct P2 as [-> _].
  eapply Loop; [exact HI| |exact H]. auto.
Qed.
End Last.

(** * Inner iterations per cycle *)
Section Iterations.
Context {M : Type} (ops : method_ops M).

Lemma schedule_nth (c : gam_cfg M) prefit io n : (1 <= io)%nat -> nth_error (iter_schedule c prefit) (io - 1) = Some n ->
  n = if (io <=? prefit)%nat then 1%nat else o_max_inner c.
Proof.
  intros Hio. unfold iter_schedule. rewrite nth_error_map. destruct (nth_error (seq 0 (o_max_outer c)) (io - 1)) as [i|] eqn:E; [|discriminate].
  assert (Hi : (io - 1 < o_max_outer c)%nat) by (assert (K : nth_error (seq 0 (o_max_outer c)) (io - 1) <> None) by congruence; apply nth_error_Some in K; now rewrite seq_length in K).
  rewrite (nth_error_nth' _ 0%nat) in E by now rewrite seq_length. rewrite seq_nth in E by exact Hi. injection E as <-.
  cbn [option_map Nat.add]. intros K. injection K as <-.
  destruct (Nat.ltb_spec (io - 1) prefit); destruct (Nat.leb_spec io prefit); auto; lia.
Qed.

Lemma inner_update_loop_count (e : env M) g p io k : forall it fv dvs cnt s s' r,
  inner_update_loop ops e g p io k it fv dvs cnt s = (s', Ok r) -> (snd r < it + k)%nat /\ w_itinner s' = w_itinner s.
Proof.
  induction k as [|k IH]; intros it fv dvs cnt s s' r H; cbn [inner_update_loop] in H; [discriminate|].
  pose proof H as H0.
  peel_as H step s1 P1. apply read_step_inv in P1. destruct P1 as (-> & _).
  peel_as H q s2 P2. pose proof (loop_frame_of _ _ _ _ (update_candidate_frame ops e g p io it fv) P2) as F2.
  peel_as H u s3 P3.
  assert (F3 : loop_frame s3 = loop_frame s).
  { destruct (Rltb _ _); [apply write_inv in P3; subst s3; exact F2|apply ret_inv in P3; destruct P3 as [-> _]; exact F2]. }
  destruct (_ || Nat.eqb k 0).
  - apply ret_inv in H. destruct H as [-> <-]. cbn [snd]. split; [lia|]. unfold loop_frame in F3. congruence.
  - apply IH in H. destruct H as [H1 H2]. split; [lia|]. unfold loop_frame in F3. congruence.
Qed.
Lemma inner_update_count (e : env M) g p io s s' r : inner_update ops e g p io s = (s', Ok r) ->
  exists n, nth_error (w_iter s) (io - 1) = Some n /\ (w_itinner s' p < n)%nat /\ forall q, q <> p -> w_itinner s' q = w_itinner s q.
Proof.
  intros H. unfold inner_update in H.
  peel_as H fv s1 P1. apply peek_inv in P1. destruct P1 as [-> <-].
  peel_as H dv s2 P2. apply lift_inv in P2. destruct P2 as [-> _].
  peel_as H n s3 P3. apply read_iter_inv in P3. destruct P3 as [-> E].
  peel_as H qi s4 P4. apply inner_update_loop_count in P4. destruct P4 as [K1 K2].
  peel_as H sw s5 P5. apply get_inv in P5. destruct P5 as [-> _].
  peel_as H u s6 P6. apply write_inv in P6. apply ret_inv in H. destruct H as [-> _].
  exists n. split; [exact E|]. subst s6. cbn [w_itinner]. unfold fupd. rewrite Nat.eqb_refl, K2. split; [lia|].
  intros q Hq. replace (Nat.eqb q p) with false by (symmetry; apply Nat.eqb_neq; auto). reflexivity.
Qed.
Lemma inner_fit_count (e : env M) p io s s' r : (1 <= io)%nat -> inner_fit ops e p io s = (s', Ok r) ->
  exists n, nth_error (w_iter s) (io - 1) = Some n /\ (w_itinner s' p < n)%nat.
Proof.
  intros Hio H. destruct r as [dv tr]. apply C59_lemma in H; [|exact Hio]. destruct H as (n & dv0 & pre & st0 & old & H1 & _ & H2 & H3 & _).
  exists n. split; [exact H1|]. lia.
Qed.
Lemma inner_fit_loop_itinner (e : env M) p io n k it fv dvs cnt path s s' r :
  inner_fit_loop ops e p io n k it fv dvs cnt path s = (s', Ok r) -> w_itinner s' = w_itinner s.
Proof.
  intros H. pose proof (loop_frame_of _ _ _ _ (inner_fit_loop_frame ops e p io n k it fv dvs cnt path) H) as F. unfold loop_frame in F. congruence.
Qed.
Lemma inner_fit_others (e : env M) p io s s' r : inner_fit ops e p io s = (s', Ok r) -> forall q, q <> p -> w_itinner s' q = w_itinner s q.
Proof.
  intros H q Hq. unfold inner_fit in H.
  peel_as H fv s1 P1. apply peek_inv in P1. destruct P1 as [-> <-].
  peel_as H dv s2 P2. apply lift_inv in P2. destruct P2 as [-> _].
  peel_as H n s3 P3. apply read_iter_inv in P3. destruct P3 as [-> E].
  peel_as H qi s4 P4. destruct qi as [[[qc it] bad] tr]. apply inner_fit_loop_itinner in P4.
  peel_as H u s5 P5. peel_as H u2 s6 P6. apply write_inv in P6. apply ret_inv in H. destruct H as [-> _].
  subst s6. cbn [w_itinner]. unfold fupd. replace (Nat.eqb q p) with false by (symmetry; apply Nat.eqb_neq; auto).
  destruct (negb bad || Nat.eqb io 1).
  - apply write_inv in P5. subst s5. cbn [w_itinner]. now rewrite P4.
  - apply ret_inv in P5. destruct P5 as [-> _]. now rewrite P4.
Qed.

Lemma C59_prefit_lemma (c : gam_cfg M) b s s' p : (p < d_n (o_dist c))%nat -> gam_fit ops c b s = (s', Ok tt) -> cycles s' <> Some O ->
  exists w dv n, s_work s' = Some w /\ s_dev s' = Some (dv, n) /\
    (w_itinner w p + 1 <= if (n <=? o_prefit_initial c)%nat then 1 else o_max_inner c)%nat.
Proof.
  intros Hp H Hcy. apply gam_fit_ok in H.
  destruct H as (pr & methods & fv & js & sc & X & w & dv & n & Ep & _ & _ & _ & _ & _ & _ & _ & _ & Eo & ->).
  cbn in Hcy. exists w, dv, n. split; [reflexivity|]. split; [reflexivity|].
  apply (outer_fit_last ops (start_env c pr b X) (fun w => w_iter w = iter_schedule c (o_prefit_initial c))
    (fun p io w => (w_itinner w p + 1 <= if (io <=? o_prefit_initial c)%nat then 1 else o_max_inner c)%nat)) in Eo; [| | |reflexivity].
  - destruct Eo as [_ [Eo|Eo]]; [exfalso; apply Hcy; now rewrite Eo|]. apply Eo. eapply prepare_order; eauto.
  - intros q io t t' r Hio HI _ H. pose proof (inner_fit_plan ops (start_env c pr b X) q io t) as K. rewrite H in K. cbn [fst] in K. unfold plan in K. injection K as K _.
    split; [congruence|]. apply inner_fit_count in H; [|exact Hio]. destruct H as (m & H1 & H2). rewrite HI in H1. apply schedule_nth in H1; [|exact Hio]. subst m. lia.
  - intros q q' io j t t' r Hne _ HL H. rewrite (inner_fit_others _ _ _ _ _ _ H q) by congruence. exact HL.
Qed.
Lemma C59_prefit_update_lemma (c : gam_cfg M) b s s' pr p : s_prep s = Some pr -> In p (p_order pr) -> o_cautious c = false ->
  gam_update ops c b s = (s', Ok tt) -> cycles s' <> Some O ->
  exists w dv n, s_work s' = Some w /\ s_dev s' = Some (dv, n) /\
    (w_itinner w p + 1 <= if (n <=? o_prefit_update c)%nat then 1 else o_max_inner c)%nat.
Proof.
  intros Epr0 Hp Hc H Hcy. apply gam_update_ok in H.
  destruct H as (n0 & pr' & fv & sc0 & sc & X & w0 & w1 & w & dev0 & it0 & isreg & dv & n &
    _ & _ & _ & _ & _ & _ & Epr & _ & Ew & _ & _ & _ & _ & _ & Ea & Eo & ->).
  rewrite Epr0 in Epr. injection Epr as <-.
  cbn in Hcy. exists (commit_work w), dv, n. split; [reflexivity|]. split; [reflexivity|].
  unfold again_work in Ea. rewrite Hc in Ea. injection Ea as <-.
  apply (outer_update_last ops (again_env c pr isreg n0 b X) (fun w => w_iter w = iter_schedule c (o_prefit_update c))
    (fun p io w => (w_itinner w p + 1 <= if (io <=? o_prefit_update c)%nat then 1 else o_max_inner c)%nat)) in Eo; [| | |reflexivity].
  - destruct Eo as [_ [Eo|Eo]]; [exfalso; apply Hcy; now rewrite Eo|]. apply Eo. exact Hp.
  - intros q io t t' r Hio HI H. pose proof (inner_update_plan ops (again_env c pr isreg n0 b X) dev0 q io t) as K. rewrite H in K. cbn [fst] in K. unfold plan in K. injection K as K _.
    split; [congruence|]. apply inner_update_count in H. destruct H as (m & H1 & H2 & _). rewrite HI in H1. apply schedule_nth in H1; [|exact Hio]. subst m. lia.
  - intros q q' io j t t' r Hne _ HL H. apply inner_update_count in H. destruct H as (_ & _ & _ & H). rewrite H by congruence. exact HL.
Qed.
End Iterations.
