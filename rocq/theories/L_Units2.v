From Coq Require Import Reals List Bool Arith Lra Lia FunctionalExtensionality.
From Verif Require Import Base Lin Data M_Gram S_Gram M_Scaler M_Utils M_Path M_State M_LM S_LM L_LM M_Equation M_GAMLSS S_GAMLSS L_GAM2 L_GAM6 S_Units.
Import ListNotations.
Open Scope R_scope.

(** * A second fit *)
Lemma C96_gam_ok_lemma {M} (ops : method_ops M) c b s s' s0 : gam_fit ops c b s = (s', Ok tt) -> gam_fit ops c b s0 = (s', Ok tt).
Proof.
  intros H. apply gam_fit_ok in H.
  destruct H as (pr & ms & fv & js & sc & X & w & dv & n & H1 & H2 & H3 & H4 & H5 & H6 & H7 & H8 & H9 & H10 & ->).
  apply (gam_fit_run ops c b s0 pr ms fv js sc X w dv n); auto.
Qed.
(** Two runs of the same program in states related by [P] return the same and, if they
    return at all, end in states related by [Q]. *)
Definition agree {S A} (P : S -> S -> Prop) (m : st S A) (Q : S -> S -> Prop) : Prop :=
  forall s s0, P s s0 -> snd (m s) = snd (m s0) /\ ((exists x, snd (m s) = Ok x) -> Q (fst (m s)) (fst (m s0))).
Lemma agree_bnd {S A B} P Q T (m : st S A) (k : A -> st S B) : agree P m Q -> (forall x, agree Q (k x) T) -> agree P (bnd m k) T.
Proof.
  intros Hm Hk s s0 H. destruct (Hm s s0 H) as [E K]. unfold bnd.
  destruct (m s) as [s1 r]. destruct (m s0) as [s2 r0]. cbn [fst snd] in *. subst r0. destruct r as [x|e].
  - apply Hk. apply K. eauto.
  - cbn. split; [reflexivity|]. intros [x K']. discriminate.
Qed.
Lemma agree_lift {S A} (P : S -> S -> Prop) (r : res A) : agree P (lift r) P.
Proof. intros s s0 H. unfold lift. auto. Qed.
Lemma agree_write {S} (P Q : S -> S -> Prop) f : (forall s s0, P s s0 -> Q (f s) (f s0)) -> agree P (write f) Q.
Proof. intros K s s0 H. cbn. auto. Qed.
Lemma agree_ret {S A} (P : S -> S -> Prop) (x : A) : agree P (ret x) P.
Proof. intros s s0 H. cbn. auto. Qed.
Lemma agree_raise {S A} (P Q : S -> S -> Prop) e : agree P (raise (A := A) e) Q.
Proof. intros s s0 H. cbn. split; auto. intros [x K]. discriminate. Qed.

Ltac anyw := apply agree_write; intros; exact I.
Lemma C96_gam_raise_lemma {M} (ops : method_ops M) c b s s0 : snd (gam_fit ops c b s0) = snd (gam_fit ops c b s).
Proof.
  pose (P := fun _ _ : gam M => True).
  assert (A : agree P (gam_fit ops c b) P); [|exact (proj1 (A s0 s I))].
  unfold gam_fit. apply (agree_bnd _ P); [apply agree_lift|]. intros [pr ms].
  apply (agree_bnd _ P); [anyw|]. intros _.
  apply (agree_bnd _ P); [unfold gvalidate_new; destruct (_ || _); [apply agree_raise|anyw]|]. intros _.
  apply (agree_bnd _ P). { unfold validate_support. destruct (existsb _ _); [apply agree_raise|]. destruct (existsb _ _); [apply agree_raise|apply agree_ret]. }
  intros _. apply (agree_bnd _ P); [anyw|]. intros _. apply (agree_bnd _ P); [anyw|]. intros _.
  apply (agree_bnd _ P); [apply agree_lift|]. intros fv. apply (agree_bnd _ P); [apply agree_lift|]. intros js.
  apply (agree_bnd _ P); [anyw|]. intros _.
  apply (agree_bnd _ P).
  { unfold gfit_scaler. destruct (scaler_fit _ _ _ _) as [sc|e].
    - apply (agree_bnd _ P); [anyw|]. intros _. apply agree_ret.
    - destruct (selection _ _). destruct e; try apply agree_raise; (apply (agree_bnd _ P); [anyw|]; intros _; apply agree_raise). }
  intros sc. apply (agree_bnd _ P); [apply agree_lift|]. intros X.
  apply (agree_bnd _ (fun s s0 : gam M => exists w, s_work s = Some w /\ s_work s0 = Some w)).
  { apply agree_write. intros. cbn [s_work]. eauto. }
  intros _. apply (agree_bnd _ P); [|intros r; anyw].
  intros s1 s2 (w & E1 & E2). unfold on_work. rewrite E1, E2. destruct (outer_fit _ _ _ _); cbn; split; auto. exact (fun _ => I).
Qed.

Lemma C96_lm_raise_lemma {M} (ops : method_ops M) c b s s0 : snd (lm_fit ops c b s0) = snd (lm_fit ops c b s).
Proof.
  pose (P := fun _ _ : lm M => True). pose (Q := fun s s0 : lm M => exists m, a_method s = Some m /\ a_method s0 = Some m).
  assert (A : agree P (lm_fit ops c b) P); [|exact (proj1 (A s0 s I))].
  unfold lm_fit. apply (agree_bnd _ Q).
  { unfold prepare_fit. apply (agree_bnd _ P); [apply agree_lift|]. intros m.
    apply (agree_bnd _ Q). { apply agree_write. intros. exists m. auto. }
    intros _. apply (agree_bnd _ Q). { apply agree_write. auto. }
    intros _. destruct (_ && _); [apply agree_raise|apply agree_ret]. }
  intros _. apply (agree_bnd _ Q).
  { unfold validate_new. destruct (_ || _); [apply agree_raise|apply agree_write; auto]. }
  intros _. apply (agree_bnd _ Q); [apply agree_write; auto|]. intros _. apply (agree_bnd _ Q); [apply agree_write; auto|]. intros _.
  destruct (Rleb _ _ && _); [apply agree_raise|]. destruct (Reqb _ _); [apply agree_raise|].
  apply (agree_bnd _ Q); [apply agree_write; auto|]. intros _.
  apply (agree_bnd _ Q).
  { unfold fit_scaler. destruct (scaler_fit _ _ _ _) as [sc|e].
    - apply (agree_bnd _ Q); [apply agree_write; auto|]. intros _. apply agree_ret.
    - destruct (selection _ _). destruct e; try apply agree_raise; (apply (agree_bnd _ P); [anyw|]; intros _; apply agree_raise). }
  intros sc. apply (agree_bnd _ Q); [apply agree_write; auto|]. intros _.
  apply (agree_bnd _ Q); [apply agree_lift|]. intros xg.
  apply (agree_bnd _ Q); [apply agree_write; auto|]. intros _. apply (agree_bnd _ Q); [apply agree_write; auto|]. intros _.
  apply (agree_bnd _ P).
  { intros s1 s2 (m & E1 & E2). unfold read. rewrite E1, E2. split; [reflexivity|]. exact (fun _ => I). }
  intros m. destruct (op_path_based ops).
  - apply (agree_bnd _ P); [apply agree_lift|]. intros r. do 3 (apply (agree_bnd _ P); [anyw|]; intros _).
    unfold select_row. apply (agree_bnd _ P); [apply agree_lift|]. intros ic. apply (agree_bnd _ P); [apply agree_lift|]. intros k. anyw.
  - apply (agree_bnd _ P); [apply agree_lift|]. intros r. apply (agree_bnd _ P); [anyw|]. intros _. anyw.
Qed.

(** * Predictions row by row *)
Lemma length_pos {A} (Z : list A) : Z <> [] -> (length Z <? 1)%nat = false.
Proof. destruct Z; [congruence|reflexivity]. Qed.
Lemma lm_predict_rows {M} (c : lm_cfg M) p s : exists e : res (vec -> R), forall X, X <> [] ->
  snd (lm_predict c p X s) = (do f <- e; Ok (map f X)).
Proof.
  destruct s as [a1 a2 a3 a4 a5 a6 a7 a8 a9 a10 a11 a12].
  unfold lm_predict, validate_old, bnd, read, ret, raise.
  destruct (any_fitted_attribute _); [|exists (Raise NotFittedError); reflexivity].
  destruct (p <? 1)%nat. { exists (Raise ValueError). intros X HX. rewrite (length_pos X HX). reflexivity. }
  assert (V : a3 = Some p \/ a3 = None \/ exists q, a3 = Some q /\ q <> p).
  { destruct a3 as [q|]; auto. destruct (Nat.eq_dec q p) as [->|]; eauto. }
  destruct V as [->|[->|(q & -> & N)]].
  3:{ exists (Raise ValueError). intros X HX. rewrite (length_pos X HX). cbn.
      destruct (Nat.eqb_spec p q); [congruence|reflexivity]. }
  all: destruct a2 as [[sc|]|].
  all: try (exists (Raise NotFittedError); intros X HX; rewrite (length_pos X HX); cbn; rewrite ?Nat.eqb_refl; reflexivity).
  all: try (exists (Raise AttributeError); intros X HX; rewrite (length_pos X HX); cbn; rewrite ?Nat.eqb_refl; reflexivity).
  all: destruct (sc_do sc && negb (forallb (fun j : nat => (j <? p)%nat) (sc_sel sc))) eqn:K.
  all: try (exists (Raise IndexError); intros X HX; rewrite (length_pos X HX); cbn [orb a_nfin a_scaler]; rewrite ?Nat.eqb_refl; cbn [a_nfin a_scaler]; rewrite K; reflexivity).
  all: destruct a12 as [b|].
  all: try (exists (Raise AttributeError); intros X HX; rewrite (length_pos X HX); cbn [orb a_nfin a_scaler]; rewrite ?Nat.eqb_refl; cbn [a_nfin a_scaler]; rewrite K; reflexivity).
  all: exists (Ok (fun x => dot (n_cols (c_icpt c) p) (design (c_icpt c) (scaler_transform sc x)) b));
       intros X HX; rewrite (length_pos X HX); cbn [orb a_nfin a_scaler]; rewrite ?Nat.eqb_refl; cbn [a_nfin a_scaler]; rewrite K; reflexivity.
Qed.

Lemma rowwise {A B} (g : list A -> res (list B)) : (exists e : res (A -> B), forall X, X <> [] -> g X = (do f <- e; Ok (map f X))) ->
  forall X out, X <> [] -> (g X = Ok out <-> Forall2 (fun x o => g [x] = Ok [o]) X out).
Proof.
  intros [e H] X out HX. rewrite H by auto.
  assert (H1 : forall x, g [x] = (do f <- e; Ok [f x])) by (intros x; rewrite H by discriminate; reflexivity).
  destruct e as [f|x]; cbn [bind] in *.
  - split.
    + intros E. injection E as <-. clear HX. induction X; cbn; constructor; auto.
    + intros F. f_equal. clear HX. induction F as [|x o X out E F IH]; cbn; [reflexivity|].
      rewrite H1 in E. injection E as <-. congruence.
  - split; [discriminate|]. intros F. destruct F as [|y o X out E F]; [contradiction|]. rewrite H1 in E. discriminate.
Qed.
Lemma rowwise_raise {A B} (g : list A -> res (list B)) : (exists e : res (A -> B), forall X, X <> [] -> g X = (do f <- e; Ok (map f X))) ->
  forall X x e, In x X -> (g X = Raise e <-> g [x] = Raise e).
Proof.
  intros [e H] X x e0 HX. rewrite !H by (try discriminate; intros ->; destruct HX). destruct e; cbn [bind]; split; congruence.
Qed.

Lemma make_model_array_rows e i k : exists r : res (nat * (vec -> vec)), forall X,
  make_model_array e i k X = (do g <- r; Ok (fst g, map (snd g) X)).
Proof.
  unfold make_model_array. destruct e;
    try (destruct i; [exists (Ok (1%nat, fun _ _ => 1))|exists (Raise ValueError)]; reflexivity);
  (destruct (columns _ k) as [ks|x]; [|exists (Raise x); reflexivity]); cbn [bind];
  (destruct i;
   [exists (Ok (S (length ks), fun (x : vec) j => match j with O => 1 | S i => x (nth i ks O) end))
   |exists (Ok (length ks, fun (x : vec) j => x (nth j ks O)))]; reflexivity).
Qed.
Lemma all_arrays_rows pr k ps : exists r : res (list (nat * (vec -> vec))), forall X,
  all_arrays pr k X ps = (do l <- r; Ok (map (fun g => (fst g, map (snd g) X)) l)).
Proof.
  induction ps as [|p ps [r IH]]; [exists (Ok []); reflexivity|]. cbn [all_arrays].
  destruct (make_model_array_rows (p_eq pr p) (p_icpt pr p) k) as [q Q].
  exists (do g <- q; do l <- r; Ok (g :: l)). intros X. rewrite Q, IH. destruct q; cbn [bind]; [|reflexivity]. destruct r; reflexivity.
Qed.
Lemma map_seq_nth {A B} (F : nat -> B) (G : A -> B) X (d : A) : (forall i, (i < length X)%nat -> F i = G (nth i X d)) ->
  map F (seq 0 (length X)) = map G X.
Proof.
  revert F. induction X as [|x X IH]; intros F H; [reflexivity|]. cbn [length seq map]. f_equal.
  - apply (H O). cbn. lia.
  - rewrite <- seq_shift, map_map. apply IH. intros i Hi. apply (H (S i)). cbn. lia.
Qed.
Lemma predict_parameters_rows {M} (c : gam_cfg M) r p s : exists e : res (vec -> vec), forall X, X <> [] ->
  snd (predict_parameters c r p X s) = (do f <- e; Ok (map f X)).
Proof.
  destruct s as [a1 a2 a3 a4 a5 a6 a7 a8 a9].
  unfold predict_parameters, gvalidate_old, bnd, read, lift, ret, raise.
  destruct (gfitted _); [|exists (Raise NotFittedError); reflexivity].
  destruct (p <? 1)%nat. { exists (Raise ValueError). intros X HX. rewrite (length_pos X HX). reflexivity. }
  assert (V : a3 = Some p \/ a3 = None \/ exists q, a3 = Some q /\ q <> p).
  { destruct a3 as [q|]; auto. destruct (Nat.eq_dec q p) as [->|]; eauto. }
  destruct V as [->|[->|(q & -> & N)]].
  3:{ exists (Raise ValueError). intros X HX. rewrite (length_pos X HX). cbn [orb s_nfin].
      destruct (Nat.eqb_spec p q); [congruence|reflexivity]. }
  all: destruct a2 as [[sc|]|].
  all: try (exists (Raise NotFittedError); intros X HX; rewrite (length_pos X HX); cbn [orb s_nfin s_scaler]; rewrite ?Nat.eqb_refl; reflexivity).
  all: try (exists (Raise AttributeError); intros X HX; rewrite (length_pos X HX); cbn [orb s_nfin s_scaler]; rewrite ?Nat.eqb_refl; reflexivity).
  all: destruct (sc_do sc && negb (forallb (fun j : nat => (j <? p)%nat) (sc_sel sc))) eqn:K.
  all: try (exists (Raise IndexError); intros X HX; rewrite (length_pos X HX); cbn [orb s_nfin s_scaler]; rewrite ?Nat.eqb_refl; cbn [s_nfin s_scaler]; rewrite K; reflexivity).
  all: destruct a1 as [pr|].
  all: try (exists (Raise AttributeError); intros X HX; rewrite (length_pos X HX); cbn [orb s_nfin s_scaler]; rewrite ?Nat.eqb_refl; cbn [s_nfin s_scaler]; rewrite K; reflexivity).
  all: destruct (all_arrays_rows pr p (seq 0 (d_n (o_dist c)))) as [[l|x] AR].
  all: try (exists (Raise x); intros X HX; rewrite (length_pos X HX); cbn [orb s_nfin s_scaler]; rewrite ?Nat.eqb_refl; cbn [s_nfin s_scaler]; rewrite K;
            cbn [s_prep]; unfold arrays; rewrite AR; reflexivity).
  all: destruct a8 as [w|].
  all: try (exists (Raise AttributeError); intros X HX; rewrite (length_pos X HX); cbn [orb s_nfin s_scaler]; rewrite ?Nat.eqb_refl; cbn [s_nfin s_scaler]; rewrite K;
            cbn [s_prep]; unfold arrays; rewrite AR; reflexivity).
  all: exists (Ok (fun x q => let eta := match nth_error l q with Some g => dot (fst g) (snd g (scaler_transform sc x)) (w_coef w q) | None => 0 end in
                              if r then d_inv (o_dist c) q eta else eta));
       intros X HX; rewrite (length_pos X HX); cbn [orb s_nfin s_scaler]; rewrite ?Nat.eqb_refl; cbn [s_nfin s_scaler]; rewrite K;
       cbn [s_prep]; unfold arrays; rewrite AR; cbn [bind s_work snd]; f_equal; apply (map_seq_nth _ _ X (fun _ => 0)); intros i Hi;
       apply functional_extensionality; intros q.
  all: assert (E : (let (k, rows) := nth q (map (fun g : nat * (vec -> vec) => (fst g, map (snd g) (map (scaler_transform sc) X))) l) (0%nat, []) in
               dot k (nth i rows (fun _ => 0)) (w_coef w q)) =
               match nth_error l q with Some g => dot (fst g) (snd g (scaler_transform sc (nth i X (fun _ => 0)))) (w_coef w q) | None => 0 end).
  all: try (rewrite E; reflexivity).
  all: clear -Hi; destruct (nth_error l q) as [g|] eqn:E;
    [apply (map_nth_error (fun g : nat * (vec -> vec) => (fst g, map (snd g) (map (scaler_transform sc) X)))) in E; rewrite (nth_error_nth _ _ _ E), map_map;
     rewrite (nth_indep _ (fun _ => 0) (snd g (scaler_transform sc (fun _ => 0)))) by (rewrite map_length; exact Hi);
     rewrite (map_nth (fun x => snd g (scaler_transform sc x))); reflexivity
    |apply nth_error_None in E; rewrite nth_overflow by (rewrite map_length; exact E); reflexivity].
Qed.

Lemma C96_outcome_lemma {M} (ops : method_ops M) c c' b (s s0 : lm M) (g g0 : gam M) :
  snd (lm_fit ops c b s0) = snd (lm_fit ops c b s) /\ snd (gam_fit ops c' b g0) = snd (gam_fit ops c' b g).
Proof. split; [apply C96_lm_raise_lemma|apply C96_gam_raise_lemma]. Qed.
Lemma C97_lm_lemma {M} (c : lm_cfg M) p s X out : X <> [] ->
  (snd (lm_predict c p X s) = Ok out <-> Forall2 (fun x o => snd (lm_predict c p [x] s) = Ok [o]) X out).
Proof. apply (rowwise (fun X => snd (lm_predict c p X s))), lm_predict_rows. Qed.
Lemma C97_gam_lemma {M} (c : gam_cfg M) r p s X out : X <> [] ->
  (snd (predict_parameters c r p X s) = Ok out <-> Forall2 (fun x o => snd (predict_parameters c r p [x] s) = Ok [o]) X out).
Proof. apply (rowwise (fun X => snd (predict_parameters c r p X s))), predict_parameters_rows. Qed.
Lemma C97_raise_lemma {M} (c : lm_cfg M) (c' : gam_cfg M) p s r g X x e : In x X ->
  (snd (lm_predict c p X s) = Raise e <-> snd (lm_predict c p [x] s) = Raise e) /\
  (snd (predict_parameters c' r p X g) = Raise e <-> snd (predict_parameters c' r p [x] g) = Raise e).
Proof.
  intros H. split.
  - apply (rowwise_raise (fun X => snd (lm_predict c p X s))); auto. apply lm_predict_rows.
  - apply (rowwise_raise (fun X => snd (predict_parameters c' r p X g))); auto. apply predict_parameters_rows.
Qed.
