(** Properties C31-C37: link functions and the support check. *)
From Coq Require Import Reals List Lra Lia Bool.
From Coquelicot Require Import Coquelicot.
From Verif Require Import Base M_Links S_Links L_Links L_Links2 L_Links3 M_DistTable.
Import ListNotations.
Open Scope R_scope.

(** C31. *)
Theorem C31_round_trip : forall l x, regular_value l x ->
  exists e, link_fun l x = Some e /\ link_inv l e = x + round_trip_error l.
Proof. exact C31_round_trip_lemma. Qed.
Print Assumptions C31_round_trip.
Theorem C31_clipped : forall x,
  (exists e, link_fun Log x = Some e /\ link_inv Log e = Rmin LARGE (Rmax SMALL x)) /\
  (exists e, link_fun LogIdent x = Some e /\ link_inv LogIdent e = Rmax SMALL x).
Proof. exact C31_clipped_lemma. Qed.
Print Assumptions C31_clipped.
Example C31_example : regular_value Logit (1 / 4) /\ regular_value (LogShiftValue 2) 5 /\
  exists e, link_fun (LogShiftValue 2) 5 = Some e /\ link_inv (LogShiftValue 2) e = 5 + / 10 ^ 10.
Proof.
  assert (H : regular_value (LogShiftValue 2) 5).
  { cbn [regular_value]. unfold SMALL, LARGE. lra. }
  split; [cbn [regular_value]; unfold SMALL, LARGE; lra|]. split; [exact H|].
  exact (C31_round_trip _ _ H).
Qed.
Example C31_example_clipped :
  exists e, link_fun Log (- 7) = Some e /\ link_inv Log e = / 10 ^ 10.
Proof.
  destruct (C31_clipped (- 7)) as [(e & H1 & H2) _]. exists e. split; [exact H1|].
  rewrite H2. unfold SMALL, LARGE. rewrite Rmax_left, Rmin_right by lra. reflexivity.
Qed.

(** C32. *)
Theorem C32_round_trip : forall l e, regular_predictor l e ->
  (forall v, l <> LogShiftValue v) -> (forall v, l <> SqrtShiftValue v) ->
  link_fun l (link_inv l e) = Some e.
Proof. exact C32_round_trip_lemma. Qed.
Print Assumptions C32_round_trip.
Theorem C32_sqrt_abs : forall e, link_fun Sqrt (link_inv Sqrt e) = Some (Rabs e).
Proof. exact C32_sqrt_lemma. Qed.
Print Assumptions C32_sqrt_abs.
Theorem C32_shifted : forall v e,
  (ln SMALL <= e <= ln LARGE ->
   link_fun (LogShiftValue v) (link_inv (LogShiftValue v) e) = Some (ln (exp e + SMALL))
   /\ e < ln (exp e + SMALL)) /\
  link_fun (SqrtShiftValue v) (link_inv (SqrtShiftValue v) e) = Some (sqrt (e ^ 2 + SMALL)) /\
  e < sqrt (e ^ 2 + SMALL).
Proof. exact C32_shifted_lemma. Qed.
Print Assumptions C32_shifted.
Example C32_example : link_fun Logit (link_inv Logit 0) = Some 0 /\ link_inv Logit 0 = 1 / 2 /\
  link_fun Sqrt (link_inv Sqrt (- 3)) = Some 3.
Proof.
  pose proof LOG_SMALL_neg as A. pose proof LOG_LARGE_pos as B. unfold LOG_SMALL, LOG_LARGE in *.
  split; [|split].
  - apply C32_round_trip; try discriminate. cbn [regular_predictor]. lra.
  - cbn [link_inv]. rewrite robust_exp_ok by lra. rewrite exp_0. lra.
  - rewrite C32_sqrt_abs. rewrite Rabs_left by lra. f_equal. lra.
Qed.

(** C33. *)
Theorem C33_in_range : forall l e, link_range l (link_inv l e).
Proof. exact C33_range_lemma. Qed.
Print Assumptions C33_in_range.
Theorem C33_cap : forall e v,
  link_inv Log e <= 10 ^ 15 /\
  link_inv (LogShiftValue v) e <= v + 10 ^ 15 /\
  link_inv Logit e <= 10 ^ 15 / (10 ^ 15 + 1) /\
  link_inv LogIdent e <= Rmax 1 (e + 1) /\
  link_inv InverseSoftPlus e <= Rmax 0 e + ln 2.
Proof. exact C33_cap_lemma. Qed.
Print Assumptions C33_cap.
Example C33_example : 2 < link_inv LogShiftTwo (- 10 ^ 6) /\ link_inv Log (10 ^ 6) <= 10 ^ 15 /\
  link_inv Logit (10 ^ 6) < 1.
Proof.
  split; [exact (C33_in_range LogShiftTwo (- 10 ^ 6))|]. split.
  - apply (C33_cap (10 ^ 6) 0).
  - apply (C33_in_range Logit (10 ^ 6)).
Qed.

(** C34. *)
Theorem C34_link_derivative : forall l x, d1_range l x ->
  exists d, link_d l x = Ok (Some d) /\ has_derivative (link_fun l) x d.
Proof. exact C34_link_derivative_lemma. Qed.
Print Assumptions C34_link_derivative.
Theorem C34_link_second_derivative : forall l x, d2_range l x ->
  exists d, link_d2 l x = Ok (Some d) /\ has_derivative2 (link_fun l) x d.
Proof. exact C34_link_second_derivative_lemma. Qed.
Print Assumptions C34_link_second_derivative.
Theorem C34_inverse_derivative : forall l e, dinv_range l e ->
  is_derive (link_inv l) e (link_inv_d l e).
Proof. exact C34_inverse_derivative_lemma. Qed.
Print Assumptions C34_inverse_derivative.
Theorem C34_above_cap : forall e, ln LARGE < e ->
  is_derive (link_inv Log) e 0 /\ link_inv_d Log e = 10 ^ 15 /\
  is_derive (link_inv Logit) e 0 /\ 0 < link_inv_d Logit e.
Proof. exact C34_cap_lemma. Qed.
Print Assumptions C34_above_cap.
Theorem C34_logident_not_implemented : forall x,
  link_d LogIdent x = Raise NotImplementedErr /\ link_d2 LogIdent x = Raise NotImplementedErr.
Proof. exact C34_not_implemented_lemma. Qed.
Print Assumptions C34_logident_not_implemented.
Example C34_example : has_derivative (link_fun Logit) (1 / 2) 4 /\ link_d Logit (1 / 2) = Ok (Some 4) /\
  link_d2 Sqrt 4 = Ok (Some (- 1 / 32)).
Proof.
  assert (E : link_d Logit (1 / 2) = Ok (Some 4)).
  { cbn [link_d]. rewrite npdiv_ok by (intros ?; lra). do 2 f_equal. lra. }
  split; [|split; [exact E|]].
  - destruct (C34_link_derivative Logit (1 / 2)) as (d & Hd & H).
    + cbn [d1_range]. unfold SMALL. lra.
    + rewrite E in Hd. injection Hd as <-. exact H.
  - cbn [link_d2]. rewrite nppow32_ok by lra. cbn [obind].
    assert (Q : sqrt 4 = 2) by (replace 4 with (2 * 2) by lra; apply sqrt_square; lra).
    rewrite Q. rewrite npdiv_ok by (intros ?; lra). do 2 f_equal. lra.
Qed.

(** C35. *)
Theorem C35_first_derivative_wrong : forall x, SMALL < x < 40 ->
  exists d t, link_d InverseSoftPlus x = Ok (Some d) /\ d = Rmax (/ 10 ^ 15) (exp (- x)) /\
    has_derivative (link_fun InverseSoftPlus) x t /\ t = 1 / (1 - exp (- x)) /\ d < 1 < t.
Proof. exact C35_first_lemma. Qed.
Print Assumptions C35_first_derivative_wrong.
Theorem C35_second_derivative_sign : forall x, SMALL < x <= / 20000 ->
  link_d2 InverseSoftPlus x = Ok (Some (10 ^ 15)) /\
  exists t, has_derivative2 (link_fun InverseSoftPlus) x t /\ t < 0.
Proof. exact C35_second_lemma. Qed.
Print Assumptions C35_second_derivative_sign.
Example C35_example : link_d InverseSoftPlus (ln 2) = Ok (Some (1 / 2)) /\
  has_derivative (link_fun InverseSoftPlus) (ln 2) 2.
Proof.
  assert (B : ln 2 < 40).
  { rewrite <- (ln_exp 40). apply ln_increasing; [lra|]. pose proof (exp_ineq1_le 40). lra. }
  assert (A : SMALL < ln 2).
  { rewrite <- (ln_exp SMALL). apply ln_increasing; [apply exp_pos|].
    pose proof (exp_ineq1_le (- SMALL)) as Q. rewrite exp_Ropp in Q.
    assert (C : 1 / 2 < / exp SMALL) by (unfold SMALL in *; lra).
    apply Rinv_lt_contravar in C; [|apply Rmult_lt_0_compat; [lra|apply Rinv_0_lt_compat, exp_pos]].
    rewrite Rinv_inv in C. lra. }
  destruct (C35_first_derivative_wrong (ln 2) (conj A B)) as (d & t & H1 & -> & H2 & -> & _).
  assert (E : exp (- ln 2) = 1 / 2) by (rewrite exp_Ropp, exp_ln by lra; lra).
  rewrite E in *. rewrite Rmax_right in H1 by lra. split; [exact H1|].
  replace 2 with (1 / (1 - 1 / 2)) at 2 by lra. exact H2.
Qed.

(** C36. *)
Theorem C36_link_nondecreasing : forall l x y a b, x <= y -> (l = Logit -> y < 1) ->
  link_fun l x = Some a -> link_fun l y = Some b -> a <= b.
Proof. exact C36_link_mono_lemma. Qed.
Print Assumptions C36_link_nondecreasing.
Theorem C36_link_strict : forall l x y a b, x < y -> regular_value l x -> regular_value l y ->
  link_fun l x = Some a -> link_fun l y = Some b -> a < b.
Proof. exact C36_link_strict_lemma. Qed.
Print Assumptions C36_link_strict.
Theorem C36_inverse_nondecreasing : forall l e e', e <= e' ->
  match l with
  | Sqrt | SqrtShiftValue _ => 0 <= e
  | InverseSoftPlus | InverseSoftPlusShiftValue _ => e' <= 40 \/ 40 < e
  | _ => True
  end ->
  link_inv l e <= link_inv l e'.
Proof. exact C36_inverse_mono_lemma. Qed.
Print Assumptions C36_inverse_nondecreasing.
Theorem C36_inverse_strict : forall l e e', e < e' ->
  regular_predictor l e -> regular_predictor l e' -> link_inv l e < link_inv l e'.
Proof. exact C36_inverse_strict_lemma. Qed.
Print Assumptions C36_inverse_strict.
Theorem C36_softplus_drop : exists e e', 40 <= e < e' /\
  link_inv InverseSoftPlus e' < link_inv InverseSoftPlus e.
Proof. exact C36_softplus_drop_lemma. Qed.
Print Assumptions C36_softplus_drop.
Theorem C36_logit_above_one : exists a b,
  link_fun Logit (1 / 2) = Some a /\ link_fun Logit 2 = Some b /\ b < a.
Proof. exact C36_logit_refuted_lemma. Qed.
Print Assumptions C36_logit_above_one.
Example C36_example : link_inv Log 0 < link_inv Log 1 /\
  (exists a b, link_fun Log (- 5) = Some a /\ link_fun Log 1 = Some b /\ a < b).
Proof.
  pose proof LOG_SMALL_neg as A. pose proof LOG_LARGE_pos as B. unfold LOG_SMALL, LOG_LARGE in *.
  split.
  - apply C36_inverse_strict; [lra| |]; cbn [regular_predictor]; [lra|].
    split; [lra|]. rewrite <- (ln_exp 1). apply ln_le'; [apply exp_pos|].
    pose proof exp_le_3. unfold LARGE. lra.
  - eexists. eexists. split; [reflexivity|]. split; [reflexivity|].
    rewrite !robust_log_clip. rewrite Rmax_left, Rmax_right by (unfold SMALL; lra).
    rewrite ln_1. exact A.
Qed.

(** C37. *)
Theorem C37_warns_iff : forall lss,
  List.Forall (fun e => exists x, in_support (fst (snd e)) x) lss ->
  (validate_links lss = [] <->
   List.Forall (fun e => contained (fst (snd e)) (snd (snd e))) lss).
Proof. exact C37_warns_lemma. Qed.
Print Assumptions C37_warns_iff.
Theorem C37_construct : forall links d, length links = n_params d ->
  (construct links d = [] <->
   List.Forall (fun e => contained (link_support (fst e)) (snd e))
     (combine links (parameter_support d))).
Proof. exact C37_construct_lemma. Qed.
Print Assumptions C37_construct.
Theorem C37_which : forall lss p,
  List.Forall (fun e => exists x, in_support (fst (snd e)) x) lss ->
  (In (LowerOutside p) (validate_links lss) <->
   exists ls ps : support, In (p, (ls, ps)) lss /\ exists x, in_support ls x /\ ~ above (fst ps) x) /\
  (In (UpperOutside p) (validate_links lss) <->
   exists ls ps : support, In (p, (ls, ps)) lss /\ exists x, in_support ls x /\ ~ below (snd ps) x).
Proof. exact C37_which_lemma. Qed.
Print Assumptions C37_which.
Theorem C37_defaults_silent : forall d,
  length (default_links d) = n_params d /\ construct (default_links d) d = [].
Proof. exact C37_defaults_lemma. Qed.
Print Assumptions C37_defaults_silent.
Theorem C37_sqrt_gap : construct [Identity; Sqrt] Normal = [] /\
  ~ in_support positive (link_inv Sqrt 0).
Proof. exact C37_sqrt_gap_lemma. Qed.
Print Assumptions C37_sqrt_gap.
Example C37_example : construct [Identity; Identity] Normal = [LowerOutside 1] /\
  construct [Log; Logit] Beta = [UpperOutside 0].
Proof.
  split; unfold construct, construct_with;
    cbn [map parameter_support combine number link_support validate_links];
    unfold validate_link, whole, positive, unit_open; cbn [fst snd bound_ltb].
  - reflexivity.
  - rewrite !(proj2 (Rltb_false _ _)) by lra. reflexivity.
Qed.
