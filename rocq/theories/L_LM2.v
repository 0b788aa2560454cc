(** Lemmas about the online linear model: failures, accounting, selection, score. *)
From Coq Require Import Reals List Bool Arith Lra Lia.
From Verif Require Import Base Lin Data M_Gram S_Gram M_OLS M_CD M_Path M_Ridge
  M_Scaler M_Utils S_Utils L_Utils M_State M_LM S_LM L_LM.
Import ListNotations.
Open Scope R_scope.

(** Selection of the row. *)
Lemma sequence_ok {A} (l : list (res A)) v : sequence l = Ok v -> l = map Ok v.
Proof.
  revert v; induction l as [|r l IH]; intros v H; cbn in H.
  - injection H as <-. reflexivity.
  - destruct r as [a|]; [|discriminate H]. cbn in H.
    destruct (sequence l) as [t|] eqn:E; [|discriminate H]. cbn in H. injection H as <-.
    cbn. rewrite (IH t eq_refl). reflexivity.
Qed.

Lemma from_rss_array_spec c n p path rss ic :
  length rss = length path ->
  from_rss_array c n (map (n_nonzero p) path) rss = Ok ic ->
  ic = map2 (fun b r => ic_value c n (INR (length (active p b))) r) path rss.
Proof.
  intros L H. unfold from_rss_array, from_ll_array in H.
  assert (E : sequence (map2 (from_ll c n) (map (n_nonzero p) path)
     (map (fun rss0 => - n / 2 * ln (rss0 / n) + - n / 2 * (1 + ln (2 * PI))) rss)) = Ok ic).
  { destruct c; auto. destruct (2 <=? _)%nat; [discriminate H|exact H]. }
  clear H. apply sequence_ok in E. revert rss ic L E.
  induction path as [|b path IH]; intros [|r rss] ic L E; simpl in L; try discriminate L.
  - destruct ic; [reflexivity|discriminate E].
  - destruct ic as [|v ic]; [discriminate E|]. cbn [map map2] in E |- *.
    injection E as E1 E2. f_equal.
    + assert (K : n_nonzero p b = INR (length (active p b))).
      { unfold n_nonzero, active. f_equal. f_equal. apply filter_ext. intros j.
        destruct (Rltb _ _) eqn:E; [apply Rltb_true in E|apply Rltb_false in E];
        destruct (Rleb _ _) eqn:E'; [apply Rleb_true in E'|apply Rleb_false in E'| apply Rleb_true in E'|apply Rleb_false in E']; simpl; auto; lra. }
      rewrite K in E1. revert E1. unfold from_ll, ic_value.
      destruct c; try (intros E1; injection E1 as <-; lra).
      * destruct (Reqb _ 0) eqn:E; [discriminate|]. apply Reqb_false in E.
        intros E1; injection E1 as <-. field. lra.
    + apply IH; auto.
Qed.

Lemma C50_fit_lemma {M} (ops : method_ops M) c b s s' :
  op_path_based ops = true -> lm_fit ops c b s = (s', Ok tt) ->
  selected_row (c_ic c) (n_cols (c_icpt c) (b_p b)) s'.
Proof.
  intros Hp H. apply lm_fit_ok in H. cbv zeta in H.
  destruct H as (m & sc & xg & _ & _ & _ & _ & _ & _ & _ & _ & [H|[H _]]); [|congruence].
  destruct H as (_ & m' & path & ic & k & _ & Hi & Hk & ->).
  eexists path, _, _, k. cbn [a_path a_rss a_ntrain a_coef].
  repeat (split; [reflexivity|]). split; [rewrite map_length; reflexivity|]. split; [reflexivity|].
  intros _ _. apply from_rss_array_spec in Hi; [|rewrite map_length; reflexivity].
  rewrite <- Hi. apply argmin_spec, Hk.
Qed.
Lemma C50_update_lemma {M} (ops : method_ops M) c b s s' :
  op_path_based ops = true -> lm_update ops c b s = (s', Ok tt) ->
  selected_row (c_ic c) (n_cols (c_icpt c) (b_p b)) s'.
Proof.
  intros Hp H. apply lm_update_ok in H. cbv zeta in H.
  destruct H as (n0 & sc0 & sc & m & x0 & y0 & xg & isreg & _ & _ & _ & _ & _ & _ & _ & _ & _ & _ & _ & _ & [H|[H _]]);
  [|congruence].
  destruct H as (_ & m' & path0 & rss0 & path & ic & k & _ & _ & _ & El & Hi & Hk & ->).
  assert (El' : length (map2 (fun r0 r1 => (1 - c_forget c) * r0 + r1) rss0
     (map (rss_update (n_cols (c_icpt c) (b_p b)) (design_rows c sc (b_rows b))) path)) = length path).
  { rewrite map2_length; rewrite ?map_length; auto. }
  eexists path, _, _, k. cbn [a_path a_rss a_ntrain a_coef].
  repeat (split; [reflexivity|]). split; [exact El'|]. split; [reflexivity|].
  intros _ _. apply from_rss_array_spec in Hi; [|exact El'].
  rewrite <- Hi. apply argmin_spec, Hk.
Qed.

(** What any call of [update] does to the counters. *)
Definition accepted (q : option nat) (b : batch) : Prop :=
  (1 <= length (b_rows b))%nat /\ (1 <= b_p b)%nat /\ match q with Some p => b_p b = p | None => True end.
Lemma accepted_dec q b : {accepted q b} + {~ accepted q b}.
Proof.
  unfold accepted. destruct (le_dec 1 (length (b_rows b))), (le_dec 1 (b_p b)); try (right; tauto).
  destruct q as [p|]; [destruct (Nat.eq_dec (b_p b) p)|]; tauto.
Qed.

Lemma lm_update_rejected {M} (ops : method_ops M) c b s :
  ~ accepted (a_nfin s) b -> lm_update ops c b s = (s, Raise ValueError).
Proof.
  intros H. unfold lm_update, validate_old, bnd at 1, raise.
  destruct (Nat.ltb_spec (length (b_rows b)) 1); [reflexivity|].
  destruct (Nat.ltb_spec (b_p b) 1); [reflexivity|]. cbn [orb].
  unfold accepted in H. destruct (a_nfin s) as [q|]; [|exfalso; apply H; repeat split; lia].
  destruct (Nat.eqb_spec (b_p b) q); [exfalso; apply H; repeat split; lia|]. reflexivity.
Qed.

Ltac crush_update H :=
  repeat (unst H; match type of H with
  | (_, _) = (_, _) => injection H as <- <-
  | context [match ?x with _ => _ end] =>
      lazymatch x with
      | context [match _ with _ => _ end] => fail
      | _ => destruct x eqn:?
      end
  end).

Lemma lm_update_counts {M} (ops : method_ops M) c b s s' r :
  accepted (a_nfin s) b -> lm_update ops c b s = (s', r) ->
  a_nfin s' = a_nfin s /\
  match a_nobs s with
  | None => s' = s /\ r = Raise AttributeError
  | Some n0 => a_nobs s' = Some (n0 + lsum (ws (b_rows b))) /\
      a_ntrain s' = Some (effective_training_length (c_forget c) (n0 + lsum (ws (b_rows b))))
  end.
Proof.
  intros (A1 & A2 & A3) H. destruct s as [am asc anf an anft ant air ax ay ap ars ac].
  cbn [a_nfin a_nobs a_ntrain] in *.
  unfold lm_update, validate_old, update_scaler, select_row in H.
  replace (length (b_rows b) <? 1)%nat with false in H by (symmetry; apply Nat.ltb_ge; lia).
  replace (b_p b <? 1)%nat with false in H by (symmetry; apply Nat.ltb_ge; lia).
  cbn [orb] in H. unst H.
  destruct anf as [q|]; [rewrite A3, Nat.eqb_refl in H|];
  (destruct an as [n0|]; [|unst H; injection H as <- <-; auto]);
  unst H; crush_update H; cbn [a_nfin a_nobs a_ntrain]; auto.
Qed.

(** Poisoned objects. *)
Definition poisoned {M} (s : lm M) : Prop :=
  is_fitted s = true /\ a_coef s = None /\ a_path s = None.

Lemma poisoned_update {M} (ops : method_ops M) c b s :
  poisoned s ->
  poisoned (fst (lm_update ops c b s)) /\ exists e, snd (lm_update ops c b s) = Raise e.
Proof.
  intros (P1 & P2 & P3). destruct s as [am asc anf an anft ant air ax ay ap ars ac].
  unfold is_fitted in P1. cbn [a_nobs a_coef a_path] in *. subst ac ap.
  destruct an as [n0|]; [|discriminate P1]. clear P1.
  destruct (lm_update ops c b _) as [s' r] eqn:H. cbn [fst snd].
  unfold lm_update, validate_old, update_scaler, select_row in H.
  crush_update H; (split; [repeat split|eauto]).
Qed.

Lemma rss_array_ok c n ps rss :
  c <> aicc -> ps <> [] -> rss <> [] ->
  exists ic k, from_rss_array c n ps rss = Ok ic /\ argmin ic = Ok k.
Proof.
  intros Hc Hp Hr. unfold from_rss_array, from_ll_array.
  assert (S : forall ps lls, exists ic, sequence (map2 (from_ll c n) ps lls) = Ok ic /\
     (ps <> [] -> lls <> [] -> ic <> [])).
  { induction ps0 as [|q ps0 IH]; intros [|l lls]; cbn [map2 sequence];
      try (exists []; split; [reflexivity|congruence]).
    destruct (IH lls) as (ic & E & _). rewrite E.
    assert (F : exists v, from_ll c n q l = Ok v) by (destruct c; cbn; eauto; congruence).
    destruct F as (v & ->). cbn. exists (v :: ic). split; [reflexivity|discriminate]. }
  destruct (S ps (map (fun rss0 => - n / 2 * ln (rss0 / n) + - n / 2 * (1 + ln (2 * PI))) rss))
    as (ic & E & N).
  exists ic. destruct ic as [|v ic].
  - exfalso. apply N; auto. destruct rss; [congruence|discriminate].
  - eexists. split; [|reflexivity]. destruct c; try exact E. congruence.
Qed.


Lemma fit_failure {M} (ops : method_ops M) c b s s' e :
  c_ic c <> aicc -> nonempty_paths ops c ->
  a_coef s = None -> a_path s = None ->
  lm_fit ops c b s = (s', Raise e) -> a_coef s' = None /\ a_path s' = None.
Proof.
  intros Hc Hp A1 A2 H. destruct s as [am asc anf an anft ant air ax ay ap ars ac].
  cbn [a_coef a_path] in *. subst ac ap.
  unfold lm_fit, prepare_fit, validate_new, fit_scaler, select_row in H. unst H.
  destruct (c_method c) as [m|] eqn:Em; [|injection H as <- <-; auto].
  destruct (c_regicpt c && negb (c_icpt c)) eqn:Er; [injection H as <- <-; auto|].
  destruct ((length (b_rows b) <? 1)%nat || (b_p b <? 1)%nat) eqn:Ev; [injection H as <- <-; auto|].
  destruct (Rleb _ _ && c_ols_name c) eqn:Eo; [injection H as <- <-; auto|].
  destruct (Reqb _ 1) eqn:E1; [injection H as <- <-; auto|].
  destruct (scaler_fit _ _ _ _) as [sc|e'] eqn:Es.
  2:{ destruct e'; unst H;
      try (destruct (selection (c_scale c) (b_p b)); unst H); injection H as <- <-; auto. }
  unst H.
  destruct (op_init_x ops _ _ _ _) as [xg|] eqn:Ex; [|injection H as <- <-; auto].
  destruct (op_path_based ops) eqn:Ep.
  - destruct (op_fit_path ops _ _ _ _ _) as [[m' path]|] eqn:Ef; [|injection H as <- <-; auto].
    unst H. pose proof (Hp _ _ _ _ _ _ _ Em Ef) as N.
    edestruct (rss_array_ok (c_ic c)) as (ic & k & E2 & E3); [exact Hc| | |rewrite E2 in H].
    + destruct path; [congruence|discriminate].
    + destruct path; [congruence|discriminate].
    + rewrite E3 in H. discriminate H.
  - destruct (op_fit_beta ops _ _ _ _ _) as [[m' beta]|] eqn:Ef; [discriminate H|].
    injection H as <- <-; auto.
Qed.

Lemma is_fitted_update {M} (ops : method_ops M) c b s :
  is_fitted s = true -> is_fitted (fst (lm_update ops c b s)) = true.
Proof.
  intros H. destruct (lm_update ops c b s) as [s' r] eqn:E. cbn [fst].
  destruct (accepted_dec (a_nfin s) b) as [A|A].
  - apply lm_update_counts in E; auto. unfold is_fitted in *.
    destruct (a_nobs s); [|discriminate H]. destruct E as (_ & -> & _). reflexivity.
  - rewrite lm_update_rejected in E by auto. injection E as <- <-. exact H.
Qed.

Lemma poisoned_partial_fits {M} (ops : method_ops M) c bs : forall s,
  poisoned s -> poisoned (partial_fits ops c bs s).
Proof.
  induction bs as [|b bs IH]; intros s P; cbn [partial_fits]; auto.
  apply IH. unfold partial_fit. pose proof P as (F & _). rewrite F.
  apply poisoned_update, P.
Qed.

Lemma C51_poisoned_lemma {M} (ops : method_ops M) c b0 s e :
  c_ic c <> aicc -> nonempty_paths ops c ->
  partial_fit ops c b0 new_lm = (s, Raise e) -> is_fitted s = true ->
  forall bs b, exists e', snd (partial_fit ops c b (partial_fits ops c bs s)) = Raise e'.
Proof.
  intros Hc Hp H F bs b.
  assert (P : poisoned s).
  { unfold partial_fit in H. change (is_fitted new_lm) with false in H. cbn iota in H.
    apply fit_failure in H; auto. split; auto. }
  pose proof (poisoned_partial_fits ops c bs s P) as P'.
  unfold partial_fit. pose proof P' as (F' & _). rewrite F'.
  apply poisoned_update, P'.
Qed.


Lemma lm_fit_counts {M} (ops : method_ops M) c b s :
  config_ok c -> data_ok b ->
  a_nobs (fst (lm_fit ops c b s)) = Some (lsum (ws (b_rows b))) /\
  a_nfin (fst (lm_fit ops c b s)) = Some (b_p b).
Proof.
  intros ((m & Hm) & Hr) (D1 & D2).
  destruct (lm_fit ops c b s) as [s' r] eqn:H. cbn [fst].
  unfold lm_fit, prepare_fit, validate_new, fit_scaler, select_row in H. rewrite Hm in H. unst H.
  replace (c_regicpt c && negb (c_icpt c)) with false in H.
  2:{ destruct (c_regicpt c), (c_icpt c); auto; exfalso; auto. }
  replace (length (b_rows b) <? 1)%nat with false in H by (symmetry; apply Nat.ltb_ge; lia).
  replace (b_p b <? 1)%nat with false in H by (symmetry; apply Nat.ltb_ge; lia).
  cbn [orb] in H.
  crush_update H; cbn [a_nobs a_nfin]; auto.
Qed.

Lemma lm_fit_early {M} (ops : method_ops M) c b s :
  ~ (config_ok c /\ data_ok b) ->
  (exists e, snd (lm_fit ops c b s) = Raise e) /\
  a_nobs (fst (lm_fit ops c b s)) = a_nobs s /\ a_coef (fst (lm_fit ops c b s)) = a_coef s /\
  ((exists m, c_method c = Ok m) -> a_scaler (fst (lm_fit ops c b s)) = Some None /\
     a_nfin (fst (lm_fit ops c b s)) = a_nfin s).
Proof.
  intros N. unfold lm_fit, prepare_fit, validate_new, bnd at 1. unfold bnd at 1, lift.
  destruct (c_method c) as [m|e] eqn:Em.
  2:{ cbn [fst snd]. repeat split; eauto; destruct H as (? & K); discriminate K. }
  cbv beta iota zeta delta [bnd write ret raise set_method set_scaler set_nfin].
  destruct (c_regicpt c && negb (c_icpt c)) eqn:Er.
  { cbn. repeat split; eauto. }
  destruct ((length (b_rows b) <? 1)%nat || (b_p b <? 1)%nat) eqn:Ev.
  { cbn. repeat split; eauto. }
  exfalso. apply N. apply orb_false_iff in Ev. destruct Ev as [V1 V2].
  apply Nat.ltb_ge in V1. apply Nat.ltb_ge in V2. split; [|split; auto].
  split; [eauto|]. intros [K1 K2]. rewrite K1, K2 in Er. discriminate Er.
Qed.

Lemma C51_when_lemma {M} (ops : method_ops M) c b s e :
  partial_fit ops c b new_lm = (s, Raise e) ->
  (is_fitted s = true <-> config_ok c /\ data_ok b).
Proof.
  intros H. unfold partial_fit in H. change (is_fitted new_lm) with false in H. cbn iota in H.
  split.
  - intros F. destruct (is_fitted s) eqn:E; [|discriminate F]. clear F.
    assert (D : {config_ok c /\ data_ok b} + {~ (config_ok c /\ data_ok b)}).
    { unfold config_ok, data_ok.
      destruct (c_method c) as [m|]; [|right; intros (((m & K) & _) & _); discriminate K].
      destruct (le_dec 1 (length (b_rows b))), (le_dec 1 (b_p b)); try (right; tauto).
      destruct (c_regicpt c), (c_icpt c);
        try (left; split; [split; [eauto|intros [? ?]; discriminate]|split; auto]).
      right. intros ((_ & K) & _). apply K; auto. }
    destruct D as [D|D]; auto. exfalso.
    pose proof (lm_fit_early ops c b new_lm D) as (_ & K & _).
    rewrite H in K. cbn [fst] in K. unfold is_fitted in E. rewrite K in E. discriminate E.
  - intros [C D]. pose proof (lm_fit_counts ops c b new_lm C D) as (K & _).
    rewrite H in K. cbn [fst] in K. unfold is_fitted. rewrite K. reflexivity.
Qed.

Lemma C51_one_lemma {M} (ops : method_ops M) c x y p :
  config_ok c -> (1 <= p)%nat ->
  exists s, partial_fit ops c (mk_batch p [mkobs x y 1]) new_lm = (s, Raise ValueError) /\
    is_fitted s = true.
Proof.
  intros C Hp. set (b := mk_batch p [mkobs x y 1]).
  assert (D : data_ok b) by (split; cbn; lia).
  destruct (partial_fit ops c b new_lm) as [s r] eqn:H.
  exists s. assert (R : r = Raise ValueError).
  { unfold partial_fit in H. change (is_fitted new_lm) with false in H. cbn iota in H.
    destruct C as ((m & Hm) & Hr).
    unfold lm_fit, prepare_fit, validate_new in H. rewrite Hm in H. unst H.
    replace (c_regicpt c && negb (c_icpt c)) with false in H.
    2:{ destruct (c_regicpt c), (c_icpt c); auto; exfalso; auto. }
    change (length (b_rows b) <? 1)%nat with false in H.
    replace (b_p b <? 1)%nat with false in H by (symmetry; apply Nat.ltb_ge; cbn; lia).
    cbn [orb] in H.
    destruct (Rleb _ _ && _); [unst H; injection H as <- <-; reflexivity|].
    destruct (Reqb _ 1) eqn:E; [unst H; injection H as <- <-; reflexivity|].
    apply Reqb_false in E. exfalso. apply E. cbn. lra. }
  subst r. split; [reflexivity|]. apply (C51_when_lemma _ _ _ _ _ H). auto.
Qed.

Lemma C51_never_refits_lemma {M} (ops : method_ops M) c b0 s :
  partial_fit ops c b0 new_lm = (s, Ok tt) ->
  forall bs b, partial_fit ops c b (partial_fits ops c bs s) = lm_update ops c b (partial_fits ops c bs s).
Proof.
  intros H bs b.
  assert (F : is_fitted s = true).
  { unfold partial_fit in H. change (is_fitted new_lm) with false in H. cbn iota in H.
    apply lm_fit_ok in H. cbv zeta in H.
    destruct H as (m & sc & xg & _ & _ & _ & _ & _ & _ & _ & _ & [(_ & m' & path & ic & k & _ & _ & _ & ->)|(_ & m' & beta & _ & ->)]);
    reflexivity. }
  assert (G : forall bs s, is_fitted s = true -> is_fitted (partial_fits ops c bs s) = true).
  { clear. induction bs as [|b bs IH]; intros s F; cbn [partial_fits]; auto.
    apply IH. unfold partial_fit. rewrite F. apply is_fitted_update, F. }
  unfold partial_fit. rewrite (G bs s F). reflexivity.
Qed.

(** [fit] forgets the past. *)
Lemma C51_fit_fresh_lemma {M} (ops : method_ops M) c b s s' :
  lm_fit ops c b s = (s', Ok tt) ->
  exists s2, lm_fit ops c b new_lm = (s2, Ok tt) /\
    a_method s' = a_method s2 /\ a_scaler s' = a_scaler s2 /\ a_nfin s' = a_nfin s2 /\
    a_nobs s' = a_nobs s2 /\ a_ntrain s' = a_ntrain s2 /\ a_x s' = a_x s2 /\ a_y s' = a_y s2 /\
    a_coef s' = a_coef s2 /\
    (op_path_based ops = true -> a_path s' = a_path s2 /\ a_rss s' = a_rss s2).
Proof.
  intros H.
  apply lm_fit_ok in H. cbv zeta in H.
  destruct H as (m & sc & xg & Hm & Hr & L1 & L2 & Ho & H1 & Hs & Hx & H).
  destruct (lm_fit_intro ops c b new_lm m sc xg Hm Hr L1 L2 Ho H1 Hs Hx) as [I1 I2].
  destruct H as [(Hp & m' & path & ic & k & Hf & Hi & Hk & ->)|(Hp & m' & beta & Hf & ->)].
  - rewrite (I1 m' path ic k Hp Hf Hi Hk). eexists. split; [reflexivity|]. cbn; repeat split; auto.
  - rewrite (I2 m' beta Hp Hf). eexists. split; [reflexivity|]. cbn; repeat split; auto; congruence.
Qed.


Lemma C52_counts_lemma {M} (ops : method_ops M) c b0 bs :
  config_ok c -> data_ok b0 ->
  a_nobs (partial_fits ops c (b0 :: bs) new_lm)
  = Some (total_weight (b_rows b0) + total_weight (stream (filter (acceptedb (b_p b0)) bs))).
Proof.
  intros C D. cbn [partial_fits]. unfold partial_fit at 1.
  change (is_fitted new_lm) with false. cbn iota.
  destruct (lm_fit_counts ops c b0 new_lm C D) as [N F].
  set (s := fst (lm_fit ops c b0 new_lm)) in *. clearbody s.
  destruct D as [_ D].
  fold (total_weight (b_rows b0)) in N. revert N. generalize (total_weight (b_rows b0)) as n.
  revert s F. induction bs as [|b bs IH]; intros s F n N; cbn [partial_fits filter].
  - rewrite N. unfold total_weight, stream; cbn. f_equal. lra.
  - unfold partial_fit at 1. unfold is_fitted. rewrite N. cbn iota.
    destruct (accepted_dec (a_nfin s) b) as [A|A].
    + destruct (lm_update ops c b s) as [s' r] eqn:E.
      pose proof A as A'. rewrite F in A'. destruct A' as (A1 & A2 & A3).
      apply lm_update_counts in E; auto. rewrite N in E. destruct E as (E1 & E2 & _).
      cbn [fst].
      assert (B : acceptedb (b_p b0) b = true).
      { unfold acceptedb. rewrite A3, Nat.eqb_refl. replace (1 <=? length (b_rows b))%nat with true; auto.
        symmetry. apply Nat.leb_le; lia. }
      rewrite B. rewrite (IH s' (eq_trans E1 F) _ E2). f_equal.
      unfold total_weight, stream. cbn [map concat]. unfold ws. rewrite !map_app, !lsum_app. lra.
    + rewrite lm_update_rejected by auto. cbn [fst].
      assert (B : acceptedb (b_p b0) b = false).
      { rewrite F in A. unfold acceptedb, accepted in *.
        destruct (1 <=? length (b_rows b))%nat eqn:L; auto. apply Nat.leb_le in L.
        destruct (Nat.eqb_spec (b_p b) (b_p b0)); auto. exfalso. apply A. repeat split; lia. }
      rewrite B. apply IH; auto.
Qed.

Lemma run_counts {M} (ops : method_ops M) c tr s :
  run ops c tr s ->
  a_nobs s = Some (total_weight (stream (map fst tr))) /\
  a_ntrain s = Some (effective_training_length (c_forget c) (total_weight (stream (map fst tr)))).
Proof.
  induction 1 as [b s H | tr s b s' R IH H].
  - unfold partial_fit in H. change (is_fitted new_lm) with false in H. cbn iota in H.
    apply lm_fit_ok in H. cbv zeta in H.
    unfold stream; cbn [map fst concat]. rewrite app_nil_r.
    destruct H as (m & sc & xg & _ & _ & _ & _ & _ & _ & _ & _ & [(_ & m' & path & ic & k & _ & _ & _ & ->)|(_ & m' & beta & _ & ->)]);
    split; reflexivity.
  - destruct IH as [I1 I2]. unfold partial_fit, is_fitted in H. rewrite I1 in H.
    apply lm_update_ok in H. cbv zeta in H.
    destruct H as (n0 & sc0 & sc & m & x0 & y0 & xg & isreg & N & _ & _ & _ & _ & _ & _ & _ & _ & _ & _ & _ & H).
    rewrite I1 in N. injection N as N.
    assert (W : total_weight (stream (map fst (tr ++ [(b, s')]))) = n0 + lsum (ws (b_rows b))).
    { rewrite <- N. unfold stream, total_weight. rewrite !map_app, concat_app. cbn [map fst concat].
      rewrite app_nil_r. unfold ws. rewrite map_app, lsum_app. reflexivity. }
    rewrite W.
    destruct H as [(_ & m' & path0 & rss0 & path & ic & k & _ & _ & _ & _ & _ & _ & ->)|(_ & m' & beta0 & beta & _ & _ & ->)];
    split; reflexivity.
Qed.

Lemma C52_success_lemma {M} (ops : method_ops M) c tr s :
  run ops c tr s -> 0 <= c_forget c < 1 ->
  exists nt, a_nobs s = Some (total_weight (stream (map fst tr))) /\ a_ntrain s = Some nt /\
    (c_forget c = 0 -> nt = total_weight (stream (map fst tr))) /\
    (0 < c_forget c -> nt < 1 / c_forget c) /\
    (forall k, total_weight (stream (map fst tr)) = INR k -> nt = bsum k (fun j => (1 - c_forget c) ^ j)).
Proof.
  intros R Hf. destruct (run_counts ops c tr s R) as [N T].
  eexists. split; [exact N|]. split; [exact T|]. repeat split.
  - intros E. unfold effective_training_length. rewrite E.
    destruct (Reqb 0 0) eqn:Z; [reflexivity|apply Reqb_false in Z; lra].
  - intros P. destruct (C27_bounds_lemma (c_forget c) 0 Hf) as [_ K]. specialize (K P (total_weight (stream (map fst tr)))).
    unfold asymptotic_training_length in K. destruct (Reqb (c_forget c) 0) eqn:Z; [apply Reqb_true in Z; lra|exact K].
  - intros k ->. apply C27_sum_lemma, Hf.
Qed.

(** C72: a batch rejected by the input validation changes nothing. *)
Lemma C72_lemma {M} (ops : method_ops M) c b s p :
  a_nfin s = Some p -> (b_p b <> p \/ b_rows b = []) ->
  lm_update ops c b s = (s, Raise ValueError).
Proof.
  intros F H. apply lm_update_rejected. rewrite F. intros (A1 & A2 & A3).
  destruct H as [H|H]; [auto|rewrite H in A1; cbn in A1; lia].
Qed.

(** C71: a failed refit spoils the object. *)
Lemma C71_lemma {M} (ops : method_ops M) c b s :
  (exists m, c_method c = Ok m) -> is_fitted s = true -> b_rows b = [] \/ b_p b = 0%nat ->
  exists s', lm_fit ops c b s = (s', Raise ValueError) /\
    is_fitted s' = true /\ a_coef s' = a_coef s /\
    (forall p X, exists e, snd (lm_predict c p X s') = Raise e) /\
    (forall b2, exists e, snd (partial_fit ops c b2 s') = Raise e).
Proof.
  intros C F D.
  assert (N : ~ (config_ok c /\ data_ok b)).
  { intros (_ & D1 & D2). destruct D as [D|D]; rewrite D in *; cbn in *; lia. }
  destruct (lm_fit_early ops c b s N) as ((e & E) & E1 & E2 & E3).
  destruct (E3 C) as (E4 & E5). clear E3.
  assert (V : e = ValueError).
  { revert E. unfold lm_fit, prepare_fit, validate_new. destruct C as (m & ->).
    cbv beta iota zeta delta [bnd write ret raise lift set_method set_scaler set_nfin].
    destruct (c_regicpt c && negb (c_icpt c)); [cbn; congruence|].
    replace ((length (b_rows b) <? 1)%nat || (b_p b <? 1)%nat) with true; [cbn; congruence|].
    destruct D as [-> | ->]; [reflexivity|]. rewrite orb_true_r. reflexivity. }
  destruct (lm_fit ops c b s) as [s' r]. cbn [fst snd] in *. subst e r.
  assert (F' : is_fitted s' = true) by (unfold is_fitted in *; rewrite E1; exact F).
  exists s'. split; [reflexivity|]. split; [exact F'|]. split; [exact E2|]. split.
  - intros p X. unfold lm_predict. destruct (any_fitted_attribute s'); [|eexists; reflexivity].
    unfold bnd at 1. unfold validate_old at 1.
    destruct ((length X <? 1)%nat || (p <? 1)%nat); [eexists; reflexivity|].
    destruct (a_nfin s') as [q|]; [destruct (Nat.eqb p q)|]; try (eexists; reflexivity);
    unfold bnd, read; rewrite E4; eexists; reflexivity.
  - intros b2. unfold partial_fit. rewrite F'.
    destruct (accepted_dec (a_nfin s') b2) as [A|A].
    2:{ rewrite lm_update_rejected by auto. eexists; reflexivity. }
    destruct (lm_update ops c b2 s') as [s2 [[]|e]] eqn:U; [|eexists; reflexivity].
    exfalso. apply lm_update_ok in U. cbv zeta in U.
    destruct U as (n0 & sc0 & sc & m & x0 & y0 & xg & isreg & _ & S & _). rewrite E4 in S. discriminate S.
Qed.
