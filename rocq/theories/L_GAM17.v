(** Lemmas: the debug records of an inner fit. *)
From Coq Require Import Reals List Bool Arith ZArith Lra Lia.
From Verif Require Import Base Lin Data M_Gram M_OLS M_CD M_Path M_Ridge M_Scaler M_Utils M_Links M_State M_LM S_LM M_Equation S_Equation
  L_Equation M_GAMLSS S_GAMLSS L_GAM1 L_GAM2 L_GAM3 L_GAM4 L_GAM7.
Import ListNotations.
Open Scope R_scope.

Lemma put_same {A} (m : key -> option A) p i j v : put m (p, i, j) v (p, i, j) = Some v.
Proof. unfold put, key_eqb. rewrite !Nat.eqb_refl. reflexivity. Qed.
Lemma put_other {A} (m : key -> option A) k k' v : k' <> k -> put m k v k' = m k'.
Proof.
  intros H. unfold put. destruct (key_eqb k' k) eqn:E; [|reflexivity]. contradict H.
  destruct k as [[p i] j], k' as [[p' i'] j']. unfold key_eqb in E.
  apply andb_prop in E. destruct E as [E E3]. apply andb_prop in E. destruct E as [E1 E2].
  apply Nat.eqb_eq in E1, E2, E3. congruence.
Qed.

Section Debug.
Context {M : Type} (ops : method_ops M) (e : env M).
Notation c := (e_cfg e).
Hypothesis Hdebug : o_debug c = true.

Lemma dv_of {A} (m : st (work M) A) s s' r : keeps w_dbg_dv m -> m s = (s', r) -> w_dbg_dv s' = w_dbg_dv s.
Proof. intros K H. specialize (K s). rewrite H in K. exact K. Qed.
Lemma put_dbg_coef_dv k b pth : keeps w_dbg_dv (put_dbg_coef e k b pth).
Proof. apply keeps_write. intros s. destruct (o_debug _); reflexivity. Qed.

Lemma fit_candidate_dv p io it step dvo fv path s s' q :
  fit_candidate ops e p io it step dvo fv path s = (s', Ok q) ->
  w_dbg_dv s' = put (w_dbg_dv s) (p, io, it) dvo.
Proof.
  intros H. unfold fit_candidate in H.
  peel_as H wk s1 P1. apply lift_inv in P1. destruct P1 as [-> _]. destruct wk as [eta g].
  peel_as H u s2 P2. apply write_inv in P2. rewrite Hdebug in P2.
  assert (F2 : w_dbg_dv s2 = put (w_dbg_dv s) (p, io, it) dvo) by (subst s2; reflexivity). clear P2.
  destruct (e_X e p) as [k X].
  peel_as H xg s3 P3. apply lift_inv in P3. destruct P3 as [-> _].
  peel_as H m s4 P4. apply get_inv in P4. destruct P4 as [-> _].
  peel_as H r s5 P5.
  assert (F5 : w_dbg_dv s5 = w_dbg_dv s2).
  { eapply dv_of; [|exact P5]. unfold set_wmethod. repeat keep_step. }
  destruct r as [[beta path'] msd].
  peel_as H u2 s6 P6. assert (F6 : w_dbg_dv s6 = w_dbg_dv s5) by (eapply dv_of; [apply put_dbg_coef_dv|exact P6]).
  peel_as H fv0 s7 P7. apply peek_inv in P7. destruct P7 as [-> <-].
  peel_as H dv s8 P8. apply lift_inv in P8. destruct P8 as [-> Ed].
  apply ret_inv in H. destruct H as [-> _]. congruence.
Qed.

Lemma inner_fit_loop_dv p io n k : forall it fv dvs cnt path s s' q it' bad tr,
  inner_fit_loop ops e p io n k it fv dvs cnt path s = (s', Ok (q, it', bad, tr)) ->
  (forall j x, nth_error tr j = Some x -> w_dbg_dv s' (p, io, it + j)%nat = Some (snd (fst x))) /\
  (forall p' io' j, p' <> p \/ io' <> io \/ (j < it)%nat \/ (it + length tr <= j)%nat ->
     w_dbg_dv s' (p', io', j) = w_dbg_dv s (p', io', j)).
Proof.
  induction k as [|k IH]; intros it fv dvs cnt path s s' q it' bad tr H; cbn [inner_fit_loop] in H; [discriminate|].
  peel_as H step s1 P1. apply read_step_inv in P1. destruct P1 as (-> & Es & Hp & Hp2).
  peel_as H fv1 s2 P2.
  assert (E2 : s2 = s).
  { destruct (_ && _); [apply lift_inv in P2|apply ret_inv in P2]; tauto. }
  subst s2. clear P2.
  peel_as H q1 s3 P3. apply fit_candidate_dv in P3.
  peel_as H u s4 P4.
  assert (F4 : w_dbg_dv s4 = put (w_dbg_dv s) (p, io, it) (dvs it)).
  { destruct (_ && _); [apply write_inv in P4; subst s4; exact P3|apply ret_inv in P4; destruct P4 as [-> _]; exact P3]. }
  clear P3 P4.
  destruct (_ || Nat.eqb k 0).
  - apply ret_inv in H. destruct H as [-> H]. injection H as <- <- <- <-. rewrite F4. split.
    + intros [|[|j]] x Hx; cbn in Hx; try discriminate. injection Hx as <-. cbn. rewrite Nat.add_0_r. apply put_same.
    + intros p' io' j Hj. apply put_other. cbn in Hj. intros E. injection E as -> -> ->. lia.
  - peel_as H r s5 P5. destruct r as [[[q' it''] bad'] tr'].
    apply ret_inv in H. destruct H as [-> H]. injection H as <- <- <- <-.
    apply IH in P5. destruct P5 as [A B]. split.
    + intros [|j] x Hx; cbn in Hx.
      * injection Hx as <-. rewrite B by lia. rewrite F4, Nat.add_0_r. apply put_same.
      * rewrite <- (A j x Hx). f_equal. f_equal. lia.
    + intros p' io' j Hj. cbn [length] in Hj. rewrite B by lia. rewrite F4. apply put_other. intros E. injection E as -> -> ->. lia.
Qed.

Lemma C68_records_lemma p io s s' dv tr : inner_fit ops e p io s = (s', Ok (dv, tr)) ->
  (forall j step old new, nth_error tr j = Some (step, old, new) -> w_dbg_dv s' (p, io, j) = Some old) /\
  (forall p' io' j, p' <> p \/ io' <> io \/ (length tr <= j)%nat -> w_dbg_dv s' (p', io', j) = w_dbg_dv s (p', io', j)).
Proof.
  intros H. unfold inner_fit in H.
  peel_as H fv s1 P1. apply peek_inv in P1. destruct P1 as [-> <-].
  peel_as H dv0 s2 P2. apply lift_inv in P2. destruct P2 as [-> _].
  peel_as H n s3 P3. apply read_iter_inv in P3. destruct P3 as [-> _].
  peel_as H r s4 P4. destruct r as [[[q it] bad] tr0].
  peel_as H u s5 P5.
  assert (F5 : w_dbg_dv s5 = w_dbg_dv s4).
  { destruct (_ || _); [apply write_inv in P5; subst s5; reflexivity|apply ret_inv in P5; destruct P5 as [-> _]; reflexivity]. }
  peel_as H u2 s6 P6. apply write_inv in P6. assert (F6 : w_dbg_dv s6 = w_dbg_dv s5) by (subst s6; reflexivity).
  apply ret_inv in H. destruct H as [-> H]. injection H as <- <-.
  apply inner_fit_loop_dv in P4. destruct P4 as [A B]. rewrite F6, F5. split.
  - intros j step old new Hj. exact (A j _ Hj).
  - intros p' io' j Hj. apply B. cbn. lia.
Qed.
End Debug.

(** What the user gets right after the inner fit. *)
Lemma C68_next_lemma {M} (ops : method_ops M) (e : env M) p io s s' dv tr (g : gam M) it :
  o_debug (e_cfg e) = true -> inner_fit ops e p io s = (s', Ok (dv, tr)) -> s_work g = Some s' ->
  (forall step old new, nth_error tr (S it) = Some (step, old, new) ->
     get_debug (e_cfg e) w_dbg_dv p io it g = (g, Ok old)) /\
  ((length tr <= S it)%nat -> w_dbg_dv s (p, io, S it) = None -> get_debug (e_cfg e) w_dbg_dv p io it g = (g, Raise KeyError)).
Proof.
  intros Hd H Hg. destruct (C68_records_lemma ops e Hd p io s s' dv tr H) as [A B].
  assert (G : get_debug (e_cfg e) w_dbg_dv p io it g =
    (g, match w_dbg_dv s' (p, io, S it) with Some a => Ok a | None => Raise KeyError end)).
  { unfold get_debug. rewrite Hd. cbn [negb]. unfold bnd, read. rewrite Hg. rewrite Nat.add_1_r.
    destruct (w_dbg_dv s' (p, io, S it)); reflexivity. }
  rewrite G. split.
  - intros step old new Hn. rewrite (A _ _ _ _ Hn). reflexivity.
  - intros Hl Hn. rewrite B by lia. rewrite Hn. reflexivity.
Qed.

(** A first batch with one row. *)
Lemma C73_one_row_lemma {M} (ops : method_ops M) (c : gam_cfg M) pr methods fv js b bs :
  prepare c = Ok (pr, methods) -> (1 <= b_p b)%nat -> length (b_rows b) = 1%nat ->
  ~ some_outside (o_dist c) b ->
  d_init (o_dist c) (ys (b_rows b)) = Ok fv ->
  all_J pr (b_p b) (seq 0 (d_n (o_dist c))) = Ok js ->
  all_fail ops c (b :: bs) new_gam.
Proof.
  intros Hp Hb Hl Ho Hi HJ.
  assert (A : existsb (fun o => below (oy o) (d_lo (o_dist c))) (b_rows b) = false).
  { apply not_true_is_false. intros E. apply existsb_exists in E. destruct E as (o & Hin & E). apply Ho. exists o. split; [exact Hin|].
    left. unfold below in E. destruct (d_lo (o_dist c)); cbn in E; try discriminate; [apply Rltb_true in E; exact E|exact I]. }
  assert (B : existsb (fun o => above (oy o) (d_hi (o_dist c))) (b_rows b) = false).
  { apply not_true_is_false. intros E. apply existsb_exists in E. destruct E as (o & Hin & E). apply Ho. exists o. split; [exact Hin|].
    right. unfold above in E. destruct (d_hi (o_dist c)); cbn in E; try discriminate; [exact I|apply Rltb_true in E; exact E]. }
  destruct (C73_first_lemma ops c pr methods fv js b Hp Hb Hl A B Hi HJ) as (s' & Hs & Hinc).
  cbn [all_fail]. change (gpartial_fit ops c b new_gam) with (gam_fit ops c b new_gam). rewrite Hs. cbn [fst snd].
  split; [eexists; reflexivity|]. apply C73_lemma. exact Hinc.
Qed.
