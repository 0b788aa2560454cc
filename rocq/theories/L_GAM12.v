(** Lemmas: predicted parameters. *)
From Coq Require Import Reals List Bool Arith ZArith Lra Lia.
From Verif Require Import Base Lin Data M_Scaler M_Links S_Links L_Links M_DistTable M_Dist S_Dist M_Init M_State M_LM M_Equation S_Equation L_Equation M_GAMLSS M_GAMDist S_GAMLSS.
From Verif Require Import L_GAM1 L_GAM2 L_GAM8.
Import ListNotations.
Open Scope R_scope.

Lemma seq_snoc n : seq 0 (S n) = seq 0 n ++ [n].
Proof. rewrite seq_S. reflexivity. Qed.
Lemma map2_snoc {A B C} (f : A -> B -> C) l m a b : length l = length m ->
  map2 f (l ++ [a]) (m ++ [b]) = map2 f l m ++ [f a b].
Proof. revert m. induction l as [|x l IH]; intros [|z m] H; cbn in *; try discriminate; [reflexivity|]. rewrite IH by lia. reflexivity. Qed.
Lemma row_of_length k v : length (row_of k v) = k.
Proof. unfold row_of. now rewrite map_length, seq_length. Qed.
Lemma dot_row_of k u v : dot k u v = lsum (map2 Rmult (row_of k u) (row_of k v)).
Proof.
  induction k as [|k IH]; [reflexivity|]. unfold dot in *. unfold row_of in *. rewrite !seq_snoc, !map_app. cbn [map].
  rewrite map2_snoc by now rewrite !map_length. rewrite lsum_app. cbn [bsum lsum]. rewrite IH. lra.
Qed.

Lemma arrays_model {M} (c : gam_cfg M) pr ncol X A p : arrays c pr ncol X = Ok A -> (p < d_n (o_dist c))%nat ->
  make_model_array (p_eq pr p) (p_icpt pr p) ncol X = Ok (A p).
Proof.
  unfold arrays. intros H Hp.
  assert (Q : forall ps l, all_arrays pr ncol X ps = Ok l -> forall i, (i < length ps)%nat ->
     make_model_array (p_eq pr (nth i ps O)) (p_icpt pr (nth i ps O)) ncol X = Ok (nth i l (O, []))).
  { intros ps. induction ps as [|q ps IH]; intros l Hl i Hi; [cbn in Hi; lia|]. cbn [all_arrays] in Hl.
    destruct (make_model_array _ _ _ _) as [a|] eqn:Ea; [|discriminate]. cbn [bind] in Hl.
    destruct (all_arrays _ _ _ ps) as [r|] eqn:Er; [|discriminate]. cbn [bind] in Hl. injection Hl as <-.
    destruct i as [|i]; cbn [nth]; [exact Ea|]. apply (IH r eq_refl). cbn in Hi. lia. }
  destruct (all_arrays pr ncol X _) as [l|] eqn:E; [|discriminate]. cbn [bind] in H. injection H as <-.
  specialize (Q _ l E p). rewrite seq_length, seq_nth in Q by lia. apply Q. lia.
Qed.

Lemma nth_map_seq (g : nat -> vec) n i z : (i < n)%nat -> nth i (map g (seq 0 n)) z = g i.
Proof. intros H. rewrite (nth_indep _ _ (g O)) by now rewrite map_length, seq_length. rewrite map_nth, seq_nth by exact H. reflexivity. Qed.

Section Predict.
Context {M : Type} (c : gam_cfg M).
Notation d := (o_dist c).

Lemma C64_formula_lemma response ncol X (s s' : gam M) out : predict_parameters c response ncol X s = (s', Ok out) ->
  s' = s /\ length out = length X /\
  exists sc pr w, s_scaler s = Some (Some sc) /\ s_prep s = Some pr /\ s_work s = Some w /\
    forall i p, (i < length X)%nat -> (p < d_n d)%nat -> selects (p_eq pr p) (p_icpt pr p) ncol ->
      let row := model_row (p_eq pr p) (p_icpt pr p) ncol (scaler_transform sc (nth i X (fun _ => 0))) in
      let eta := lsum (map2 Rmult row (row_of (length row) (w_coef w p))) in
      nth i out (fun _ => 0) p = if response then d_inv d p eta else eta.
Proof.
  intros H. apply predict_parameters_ok in H.
  destruct H as (sc & pr & A & w & -> & Esc & Epr & Ew & _ & _ & _ & _ & EA & ->).
  split; [reflexivity|]. split; [now rewrite map_length, seq_length|].
  exists sc, pr, w. do 3 (split; [assumption|]). intros i p Hi Hp Hsel. cbv zeta.
  match goal with |- nth i (map ?g _) ?z p = _ => refine (eq_trans (f_equal (fun v : vec => v p) (nth_map_seq g (length X) i z Hi)) _) end. cbv beta zeta.
  apply (arrays_model c pr ncol _ A p EA) in Hp.
  destruct (C56_model_lemma (p_eq pr p) (p_icpt pr p) ncol (map (scaler_transform sc) X) Hsel) as (rows & E & Er & _).
  rewrite E in Hp. injection Hp as Hp. rewrite <- Hp. cbn [fst snd].
  set (k := length (model_row (p_eq pr p) (p_icpt pr p) ncol (fun _ => 0))) in *.
  assert (Ei : row_of k (nth i rows (fun _ => 0)) = model_row (p_eq pr p) (p_icpt pr p) ncol (scaler_transform sc (nth i X (fun _ => 0)))).
  { assert (Hl : length rows = length X).
    { apply (f_equal (@length _)) in Er. rewrite !map_length in Er. exact Er. }
    apply (f_equal (fun l => nth i l [])) in Er.
    rewrite (nth_indep _ [] (row_of k (fun _ => 0))) in Er by (rewrite map_length; lia).
    rewrite map_nth in Er. rewrite Er. rewrite map_map.
    rewrite (nth_indep _ [] (model_row (p_eq pr p) (p_icpt pr p) ncol (scaler_transform sc (fun _ => 0)))) by (rewrite map_length; lia).
    exact (map_nth (fun x => model_row (p_eq pr p) (p_icpt pr p) ncol (scaler_transform sc x)) X (fun _ => 0) i). }
  pose proof (f_equal (@length _) Ei) as El. rewrite row_of_length in El. rewrite <- El. rewrite dot_row_of, Ei. reflexivity.
Qed.
End Predict.

Lemma C64_range_lemma {M} lgam dg tg fit_t fit_jsu gi ppf cond D links (c : gam_cfg M) ncol X (s s' : gam M) out :
  o_dist c = shipped lgam dg tg fit_t fit_jsu gi ppf cond D links ->
  predict_parameters c true ncol X s = (s', Ok out) ->
  forall i p, (i < length X)%nat -> link_range (nth p links Identity) (nth i out (fun _ => 0) p).
Proof.
  intros Hd H i p Hi. apply predict_parameters_ok in H.
  destruct H as (sc & pr & A & w & -> & _ & _ & _ & _ & _ & _ & _ & EA & ->).
  match goal with |- link_range ?l (nth i (map ?g _) ?z p) =>
    refine (eq_ind_r (fun v : vec => link_range l (v p)) _ (nth_map_seq g (length X) i z Hi)) end. cbv beta zeta. rewrite Hd.
  apply C33_range_lemma.
Qed.
Lemma C64_valid_lemma {M} lgam dg tg fit_t fit_jsu gi ppf cond D (c : gam_cfg M) ncol X (s s' : gam M) out :
  o_dist c = shipped_default lgam dg tg fit_t fit_jsu gi ppf cond D ->
  predict_parameters c true ncol X s = (s', Ok out) ->
  forall th, In th out -> valid_theta D th.
Proof.
  intros Hd H th Hin. unfold shipped_default in Hd.
  assert (L : length out = length X).
  { apply predict_parameters_ok in H. destruct H as (? & ? & ? & ? & _ & _ & _ & _ & _ & _ & _ & _ & _ & ->). now rewrite map_length, seq_length. }
  apply (In_nth out th (fun _ => 0)) in Hin. destruct Hin as (i & Hi & <-). change (i < length out)%nat in Hi. rewrite L in Hi.
  pose proof (C64_range_lemma _ _ _ _ _ _ _ _ _ _ c ncol X s s' out Hd H i) as Q.
  set (th := nth i out (fun _ => 0)) in *.
  pose proof (Q 0%nat Hi) as Q0. pose proof (Q 1%nat Hi) as Q1. pose proof (Q 2%nat Hi) as Q2. pose proof (Q 3%nat Hi) as Q3.
  destruct D; cbn in *; unfold LogShiftTwo in *; cbn in *; try tauto; try lra.
Qed.
