(** Lemmas: the inner loop of fit. *)
From Coq Require Import Reals List Bool Arith ZArith Lra Lia.
From Verif Require Import Base Lin Data M_Gram M_OLS M_CD M_Path M_Ridge M_Scaler M_Utils M_Links M_State M_LM S_LM M_Equation S_Equation
  L_Equation M_GAMLSS S_GAMLSS L_GAM1 L_GAM2 L_GAM3.
Import ListNotations.
Open Scope R_scope.

Lemma history_ext f g tr : forall i old step, (forall j, (i < j)%nat -> f j = g j) ->
  inner_history f i old step tr -> inner_history g i old step tr.
Proof.
  induction tr as [|[[s o] v] tr IH]; intros i old step E H; cbn [inner_history] in *; [exact I|].
  destruct H as (H1 & H2 & H3 & H4). split; [exact H1|]. split; [exact H2|]. split; intros H.
  - apply IH; [|apply H3; exact H]. intros j Hj. apply E. lia.
  - rewrite <- (E (S i)) by lia. apply IH; [|apply H4; exact H]. intros j Hj. apply E. lia.
Qed.

Lemma set_col_idem fv p : forall v, set_col fv p (col (set_col fv p v) p) = set_col fv p v.
Proof.
  unfold set_col, col. induction fv as [|th fv IH]; intros [|a v]; cbn; try reflexivity.
  f_equal; [|apply IH]. unfold set_entry. now rewrite Nat.eqb_refl.
Qed.

Section Inner.
Context {M : Type} (ops : method_ops M) (e : env M).
Notation c := (e_cfg e).
Notation d := (o_dist (e_cfg e)).

Lemma fit_candidate_steps p io it step dvo fv path :
  keeps w_step (fit_candidate ops e p io it step dvo fv path).
Proof.
  unfold fit_candidate, set_wmethod, put_dbg, put_dbg_coef. repeat keep_step.
Qed.

Lemma frame_fv {A} (m : st (work M) A) s s' r : keeps loop_frame m -> m s = (s', r) -> w_fv s' = w_fv s.
Proof. intros K H. specialize (K s). rewrite H in K. unfold loop_frame in K. cbn in K. congruence. Qed.
Lemma step_of {A} (m : st (work M) A) s s' r : keeps w_step m -> m s = (s', r) -> w_step s' = w_step s.
Proof. intros K H. specialize (K s). rewrite H in K. exact K. Qed.

(** The candidate is the current fit with one column replaced, and comes with its deviance. *)
Lemma fit_candidate_ok p io it step dvo fv path s s' q :
  fit_candidate ops e p io it step dvo fv path s = (s', Ok q) ->
  (exists v, c_fv q = set_col (w_fv s) p v) /\ deviance e (c_fv q) = Ok (c_dv q).
Proof.
  intros H. unfold fit_candidate in H.
  peel_as H wk s1 P1. apply lift_inv in P1. destruct P1 as [-> _]. destruct wk as [eta g].
  peel_as H u s2 P2. assert (F2 : w_fv s2 = w_fv s) by (eapply frame_fv; [apply put_dbg_frame|exact P2]).
  destruct (e_X e p) as [k X].
  peel_as H xg s3 P3. apply lift_inv in P3. destruct P3 as [-> _].
  peel_as H m s4 P4. apply get_inv in P4. destruct P4 as [-> _].
  peel_as H r s5 P5.
  assert (F5 : w_fv s5 = w_fv s2).
  { eapply frame_fv; [|exact P5]. unfold set_wmethod. repeat keep_step. }
  destruct r as [[beta path'] msd].
  peel_as H u2 s6 P6. assert (F6 : w_fv s6 = w_fv s5) by (eapply frame_fv; [apply put_dbg_coef_frame|exact P6]).
  peel_as H fv0 s7 P7. apply peek_inv in P7. destruct P7 as [-> <-].
  peel_as H dv s8 P8. apply lift_inv in P8. destruct P8 as [-> Ed].
  apply ret_inv in H. destruct H as [_ <-]. cbn [c_fv c_dv].
  rewrite F6, F5, F2 in *. split; [eauto|exact Ed].
Qed.

Lemma inner_fit_loop_ok p io n k : forall it fv dvs cnt path s s' q it' bad tr,
  inner_fit_loop ops e p io n k it fv dvs cnt path s = (s', Ok (q, it', bad, tr)) ->
  (1 <= io)%nat -> (n = it + k)%nat -> (cnt <= 5)%nat -> (forall j, (it <= j)%nat -> dvs j = dvs it) ->
  (1 <= length tr <= k)%nat /\ (it' + 1 = it + length tr)%nat /\ (increases tr + cnt <= 6)%nat /\
  inner_history (fun j => w_step s (io - 1) j p) it (dvs it) (w_step s (io - 1) it p) tr /\
  (exists pre st old, tr = pre ++ [(st, old, c_dv q)] /\
     ((length tr < k)%nat -> (increases tr + cnt = 6)%nat /\ old < c_dv q \/
        inner_tolerance c io (it + length tr) (st, old, c_dv q)) /\
     (forall i x, nth_error pre i = Some x -> ~ inner_tolerance c io (it + i + 1) x) /\
     (increases pre + cnt <= 5)%nat) /\
  bad = Rltb (dvs O) (c_dv q) /\
  (exists v, c_fv q = set_col (w_fv s) p v) /\ deviance e (c_fv q) = Ok (c_dv q) /\ w_fv s' = w_fv s.
Proof.
  induction k as [|k IH]; intros it fv dvs cnt path s s' q it' bad tr H Hio Hn Hc Hd; cbn [inner_fit_loop] in H; [discriminate|].
  peel_as H step s1 P1. apply read_step_inv in P1. destruct P1 as (-> & Es & Hp & Hp2).
  peel_as H fv1 s2 P2.
  assert (E2 : s2 = s).
  { destruct (_ && _); [apply lift_inv in P2|apply ret_inv in P2]; tauto. }
  subst s2. clear P2.
  peel_as H q1 s3 P3. pose proof (fit_candidate_ok _ _ _ _ _ _ _ _ _ _ P3) as [Ev Ed].
  assert (F3 : w_fv s3 = w_fv s) by (eapply frame_fv; [apply fit_candidate_frame|exact P3]).
  assert (S3 : w_step s3 = w_step s) by (eapply step_of; [apply fit_candidate_steps|exact P3]).
  clear P3.
  set (inc := Rltb (dvs it) (c_dv q1)) in *.
  peel_as H u s4 P4.
  assert (F4 : w_fv s4 = w_fv s /\ (forall j, (S it < j)%nat -> w_step s4 (io - 1) j p = w_step s (io - 1) j p) /\
    w_step s4 (io - 1) (S it) p = (if inc && (it <? n - 1)%nat then step / 2 else w_step s (io - 1) (S it) p)).
  { destruct (inc && (it <? n - 1)%nat).
    - apply write_inv in P4. subst s4. cbn [w_fv w_step]. rewrite S3. rewrite !Nat.eqb_refl. cbn [andb].
      split; [exact F3|]. split; [|reflexivity]. intros j Hj. replace (Nat.eqb j (S it)) with false; [reflexivity|].
      symmetry. apply Nat.eqb_neq. lia.
    - apply ret_inv in P4. destruct P4 as [-> _]. rewrite S3. auto. }
  destruct F4 as (F4 & S4 & S4'). clear P4.
  set (cnt' := if inc && (it <? n - 1)%nat then S cnt else cnt) in *.
  assert (Tol : fit_stop e io it (dvs it) (c_dv q1) = true <-> inner_tolerance c io (it + 1) (step, dvs it, c_dv q1)).
  { unfold fit_stop, inner_tolerance, rel_close. cbn [fst snd].
    rewrite andb_true_iff, !orb_true_iff, !andb_true_iff, negb_true_iff, Rleb_true, Rltb_true, !Nat.eqb_eq, !Nat.leb_le.
    rewrite Reqb_false. split.
    - intros [A B]. split; [lia|]. destruct B as [[B|[B1 B2]]|B]; [auto|auto|right; right; lia].
    - intros [A B]. split; [lia|]. destruct B as [B|[[B1 B2]|B]]; [auto|auto|right; lia]. }
  destruct (_ || Nat.eqb k 0) eqn:Estop.
  - apply ret_inv in H. destruct H as [-> H]. injection H as <- <- <- <-. cbn [length].
    assert (Hinc : (increases [(step, dvs it, c_dv q1)] <= 1)%nat).
    { unfold increases. cbn [filter]. destruct (worse _); cbn; lia. }
    split; [lia|]. split; [lia|]. split; [lia|].
    split; [cbn [inner_history]; auto|]. split.
    { exists [], step, (dvs it). split; [reflexivity|]. split; [|split; [intros i x Hx; destruct i; discriminate|cbn; lia]].
      intros Hk. apply orb_prop in Estop. destruct Estop as [Estop|Estop]; [|apply Nat.eqb_eq in Estop; lia].
      apply orb_prop in Estop. destruct Estop as [Estop|Estop]; [left|right].
      - apply andb_prop in Estop. destruct Estop as [E1 E2]. apply Nat.ltb_lt in E2.
        unfold cnt' in E2. rewrite E1 in E2. apply andb_prop in E1. destruct E1 as [E1 _].
        split; [|apply Rltb_true; exact E1]. unfold increases, worse. cbn [filter fst snd]. fold inc. rewrite E1. cbn [length]. lia.
      - apply Tol. exact Estop. }
    split; [reflexivity|]. rewrite F4. auto.
  - apply orb_false_iff in Estop. destruct Estop as [Estop Ek]. apply Nat.eqb_neq in Ek.
    apply orb_false_iff in Estop. destruct Estop as [Es1 Es2].
    assert (Lt : (it <? n - 1)%nat = true) by (apply Nat.ltb_lt; lia).
    unfold cnt' in *. rewrite Lt in *. rewrite andb_true_r in *.
    peel_as H r s5 P5. destruct r as [[[q' it''] bad'] tr'].
    apply ret_inv in H. destruct H as [-> H]. injection H as <- <- <- <-.
    assert (Hc' : (cnt' <= 5)%nat).
    { unfold cnt'. destruct inc eqn:Ei; [|exact Hc]. cbn [andb] in *. apply Nat.ltb_ge in Es1. rewrite ?Lt in *. lia. }
    unfold cnt' in Hc'. rewrite Lt, andb_true_r in Hc'.
    apply IH in P5; [|exact Hio|lia|exact Hc'|].
    2:{ intros j Hj. destruct inc; [rewrite !(Hd (S it)), (Hd j) by lia; reflexivity|].
        replace (S it <=? j)%nat with true by (symmetry; apply Nat.leb_le; lia). now rewrite Nat.leb_refl. }
    destruct P5 as (L1 & L2 & L3 & L4 & (pre & st0 & old & T1 & T2 & T3 & T3') & L6 & L7 & L8 & L9).
    assert (Winc : worse (step, dvs it, c_dv q1) = inc) by reflexivity.
    cbn [length].
    split; [lia|]. split; [lia|].
    split. { unfold increases in *. cbn [filter]. rewrite Winc. destruct inc; cbn [length]; lia. }
    split.
    { cbn [inner_history]. split; [exact (eq_sym Es)|]. split; [reflexivity|]. rewrite Es. split; intros Hv.
      - replace inc with true in *; [|symmetry; apply Rltb_true; exact Hv].
        rewrite S4' in L4. rewrite (Hd (S it)) in L4 by lia.
        eapply history_ext; [|exact L4]. intros j Hj. cbn beta. apply S4. lia.
      - replace inc with false in *; [|symmetry; apply Rltb_false; lra].
        rewrite S4' in L4. rewrite Nat.leb_refl in L4.
        eapply history_ext; [|exact L4]. intros j Hj. cbn beta. apply S4. lia. }
    split.
    { exists ((step, dvs it, c_dv q1) :: pre), st0, old. split; [now rewrite T1|]. split; [|split].
      - intros Hk. destruct T2 as [T2|T2]; [lia| |].
        + left. split; [|tauto]. unfold increases in *. cbn [filter]. rewrite Winc. destruct inc; cbn [length]; lia.
        + right. replace (it + S (length tr'))%nat with (S it + length tr')%nat by lia. exact T2.
      - intros [|i] x Hx; cbn in Hx.
        + injection Hx as <-. rewrite Nat.add_0_r. intros K. apply Tol in K. congruence.
        + specialize (T3 i x Hx). replace (it + S i + 1)%nat with (S it + i + 1)%nat by lia. exact T3.
      - unfold increases in *. cbn [filter]. rewrite Winc. destruct inc; cbn [length]; lia. }
    split. { rewrite L6. destruct inc; reflexivity. }
    rewrite F4 in *. auto.
Qed.

(** * One inner fit *)
Lemma inner_fit_ok p io s s' dv tr : (1 <= io)%nat -> inner_fit ops e p io s = (s', Ok (dv, tr)) ->
  exists n dv0 q bad s1,
    nth_error (w_iter s) (io - 1) = Some n /\ deviance e (w_fv s) = Ok dv0 /\ dv = c_dv q /\
    (1 <= length tr <= n)%nat /\ (increases tr <= 6)%nat /\
    inner_history (fun j => w_step s (io - 1) j p) 0 dv0 (w_step s (io - 1) O p) tr /\
    (exists pre st old, tr = pre ++ [(st, old, dv)] /\
       ((length tr < n)%nat -> increases tr = 6%nat /\ old < dv \/ inner_tolerance c io (length tr) (st, old, dv)) /\
       (forall i x, nth_error pre i = Some x -> ~ inner_tolerance c io (i + 1) x) /\
       (increases pre <= 5)%nat) /\
    bad = Rltb dv0 dv /\ deviance e (c_fv q) = Ok dv /\
    inner_fit_loop ops e p io n n 0 (w_fv s) (fun _ => dv0) 0 None s = (s1, Ok (q, (length tr - 1)%nat, bad, tr)) /\
    w_fv s' = (if negb bad || Nat.eqb io 1 then c_fv q else w_fv s) /\
    w_itinner s' p = (length tr - 1)%nat.
Proof.
  intros Hio H. unfold inner_fit in H.
  peel_as H fv s1 P1. apply peek_inv in P1. destruct P1 as [-> <-].
  peel_as H dv0 s2 P2. apply lift_inv in P2. destruct P2 as [-> Ed0].
  peel_as H n s3 P3. apply read_iter_inv in P3. destruct P3 as [-> En].
  peel_as H r s4 P4. destruct r as [[[q it'] bad] tr'].
  pose proof (inner_fit_loop_ok p io n n 0 _ _ _ _ _ _ _ _ _ _ P4 Hio eq_refl ltac:(lia) ltac:(reflexivity)) as
    (L1 & L2 & L3 & L4 & (pre & st0 & old & T1 & T2 & T3 & T3') & L6 & [v L7] & L8 & L9).
  peel_as H u s5 P5.
  assert (F5 : w_fv s5 = (if negb bad || Nat.eqb io 1 then c_fv q else w_fv s)).
  { destruct (negb bad || Nat.eqb io 1).
    - apply write_inv in P5. subst s5. unfold w_fv at 1. rewrite L9, L7. apply set_col_idem.
    - apply ret_inv in P5. destruct P5 as [-> _]. exact L9. }
  peel_as H u2 s6 P6. apply write_inv in P6.
  apply ret_inv in H. destruct H as [-> H]. injection H as <- <-.
  exists n, dv0, q, bad, s4. cbn in L2. rewrite Nat.add_0_r in *.
  repeat match goal with |- _ /\ _ => split end; try assumption; try lia; try reflexivity.
  - exists pre, st0, old. repeat split; auto; now rewrite ?Nat.add_0_r in *.
  - rewrite P4. replace (length tr' - 1)%nat with it' by lia. reflexivity.
  - subst s6. exact F5.
  - subst s6. cbn [w_itinner]. unfold fupd. rewrite Nat.eqb_refl. lia.
Qed.

Lemma C59_lemma p io s s' dv tr : (1 <= io)%nat -> inner_fit ops e p io s = (s', Ok (dv, tr)) ->
  exists n dv0 pre st old,
    nth_error (w_iter s) (io - 1) = Some n /\ deviance e (w_fv s) = Ok dv0 /\
    (1 <= length tr <= n)%nat /\ w_itinner s' p = (length tr - 1)%nat /\ (increases tr <= 6)%nat /\
    inner_history (fun j => w_step s (io - 1) j p) 0 dv0 (w_step s (io - 1) O p) tr /\
    tr = pre ++ [(st, old, dv)] /\
    ((length tr < n)%nat -> increases tr = 6%nat /\ old < dv \/ inner_tolerance c io (length tr) (st, old, dv)) /\
    (increases pre <= 5)%nat /\ (forall i x, nth_error pre i = Some x -> ~ inner_tolerance c io (i + 1) x).
Proof.
  intros Hio H. apply inner_fit_ok in H; [|exact Hio].
  destruct H as (n & dv0 & q & bad & s1 & H1 & H2 & H3 & H4 & H5 & H6 & (pre & st0 & old & T1 & T2 & T3 & T4) & _ & _ & _ & _ & H7).
  exists n, dv0, pre, st0, old. repeat split; auto; lia.
Qed.

Lemma C60_inner_lemma p io s s' r : (2 <= io)%nat -> inner_fit ops e p io s = (s', Ok r) ->
  exists d0 d1, deviance e (w_fv s) = Ok d0 /\ deviance e (w_fv s') = Ok d1 /\ d1 <= d0 /\
    (d1 = fst r \/ (d0 < fst r /\ w_fv s' = w_fv s)).
Proof.
  intros Hio H. destruct r as [dv tr]. apply inner_fit_ok in H; [|lia].
  destruct H as (n & dv0 & q & bad & s1 & H1 & H2 & H3 & H4 & H5 & H6 & _ & H7 & H8 & _ & H9 & _).
  replace (Nat.eqb io 1) with false in H9 by (symmetry; apply Nat.eqb_neq; lia). rewrite orb_false_r in H9.
  exists dv0. rewrite H9. subst bad. destruct (Rltb dv0 dv) eqn:H; [apply Rltb_true in H|apply Rltb_false in H]; cbn [negb fst].
  - exists dv0. repeat split; auto; lra.
  - exists dv. repeat split; auto; lra.
Qed.
Lemma C60_cycle_lemma ps io : (2 <= io)%nat -> forall dev s s' r, fit_cycle ops e ps io dev s = (s', Ok r) ->
  ps <> [] -> exists d0 d1, deviance e (w_fv s) = Ok d0 /\ deviance e (w_fv s') = Ok d1 /\ d1 <= d0.
Proof.
  intros Hio. induction ps as [|p ps IH]; intros dev s s' r H Hps; cbn [fit_cycle] in H; [congruence|].
  peel_as H q s1 P1. apply C60_inner_lemma in P1; [|exact Hio]. destruct P1 as (d0 & d1 & E0 & E1 & Hd & _).
  destruct ps as [|p' ps].
  - cbn [fit_cycle] in H. apply ret_inv in H. destruct H as [-> _]. eauto.
  - apply IH in H; [|discriminate]. destruct H as (d1' & d2 & E1' & E2 & Hd2).
    rewrite E1 in E1'. injection E1' as <-. exists d0, d2. repeat split; auto. lra.
Qed.
(** Over any number of cycles after the first. *)
Lemma C60_loop_lemma : p_order (e_prep e) <> [] -> forall fuel it dev0 dev s s' r, (1 <= it)%nat ->
  outer_fit_loop ops e fuel it dev0 dev s = (s', Ok r) -> forall d0, deviance e (w_fv s) = Ok d0 ->
  exists d1, deviance e (w_fv s') = Ok d1 /\ d1 <= d0.
Proof.
  intros Ho. induction fuel as [|fuel IH]; intros it dev0 dev s s' r Hit H d0 E0; cbn [outer_fit_loop] in H; [discriminate|].
  peel_as H mn s1 P. apply peek_inv in P. destruct P as [-> <-].
  destruct ((w_min s <=? it)%nat && _).
  - apply ret_inv in H. destruct H as [-> H]. exists d0. split; [exact E0|lra].
  - peel_as H dev' s1 P. apply C60_cycle_lemma in P; [|lia|exact Ho].
    destruct P as (d0' & d1 & E0' & E1 & Hd). rewrite E0 in E0'. injection E0' as <-.
    apply (IH (S it) _ _ _ _ _ ltac:(lia)) with (d0 := d1) in H; [|exact E1].
    destruct H as (d2 & E2 & Hd2). exists d2. split; [exact E2|lra].
Qed.

(** In the first cycle everything is stored, and the deviance that is returned is the one of the stored fit. *)
Lemma C60_first_lemma p s s' r : inner_fit ops e p 1 s = (s', Ok r) -> deviance e (w_fv s') = Ok (fst r).
Proof.
  intros H. destruct r as [dv tr]. apply inner_fit_ok in H; [|lia].
  destruct H as (n & dv0 & q & bad & s1 & _ & _ & _ & _ & _ & _ & _ & _ & H8 & _ & H9 & _).
  rewrite orb_true_r in H9. rewrite H9. exact H8.
Qed.
Lemma first_cycle_deviance ps : forall dev s s' r, fit_cycle ops e ps 1 dev s = (s', Ok r) ->
  ps <> [] -> deviance e (w_fv s') = Ok r.
Proof.
  induction ps as [|p ps IH]; intros dev s s' r H Hps; cbn [fit_cycle] in H; [congruence|].
  peel_as H q s1 P1. apply C60_first_lemma in P1. destruct ps as [|p' ps].
  - cbn [fit_cycle] in H. apply ret_inv in H. destruct H as [-> <-]. exact P1.
  - apply IH in H; [exact H|discriminate].
Qed.
Lemma C60_outer_lemma fuel s s' r : p_order (e_prep e) <> [] -> outer_fit ops e fuel s = (s', Ok r) ->
  (s' = s /\ snd r = O) \/
  exists dev s1 d1 d2, deviance e (w_fv s) = Ok dev /\ fit_cycle ops e (p_order (e_prep e)) 1 dev s = (s1, Ok d1) /\
    deviance e (w_fv s1) = Ok d1 /\ deviance e (w_fv s') = Ok d2 /\ d2 <= d1.
Proof.
  intros Ho H. unfold outer_fit in H.
  peel_as H fv s1 P1. apply peek_inv in P1. destruct P1 as [-> <-].
  peel_as H dev s2 P2. apply lift_inv in P2. destruct P2 as [-> Edev].
  destruct fuel as [|fuel]; cbn [outer_fit_loop] in H; [discriminate|].
  peel_as H mn s1 P. apply peek_inv in P. destruct P as [-> <-].
  destruct ((w_min s <=? 0)%nat && _).
  - apply ret_inv in H. destruct H as [-> <-]. left. split; reflexivity.
  - peel_as H dev' s1 P. right. pose proof (first_cycle_deviance _ _ _ _ _ P Ho) as E1.
    destruct (C60_loop_lemma Ho _ _ _ _ _ _ _ (le_n 1) H _ E1) as (d2 & E2 & Hd).
    exists dev, s1, dev', d2. repeat split; auto.
Qed.
End Inner.
