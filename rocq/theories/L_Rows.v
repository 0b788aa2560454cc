From Coq Require Import Reals List Bool Arith Lra Lia Permutation FunctionalExtensionality.
From Verif Require Import Base Lin Data M_Gram S_Gram L_Gram M_OLS L_OLS M_CD M_Path M_Ridge S_Scaler M_Scaler L_Scaler M_Utils M_State M_LM S_LM L_LM L_LM4 S_Rows L_Target.
Import ListNotations.
Open Scope R_scope.

(** * Weighted sums *)
Definition wsum (f : vec -> R -> R) (l : list obs) : R := lsum (map (fun o => ow o * f (ox o) (oy o)) l).
Definition same_sums (l l' : list obs) : Prop := forall f, wsum f l = wsum f l'.

Lemma lsum_perm (l l' : list R) : Permutation l l' -> lsum l = lsum l'.
Proof. induction 1; cbn in *; try lra. Qed.
Lemma same_data_sums l l' : same_data l l' -> same_sums l l'.
Proof.
  induction 1 as [l l' H|x y w w' l|x y l|l l' _ IH|l m n _ IH1 _ IH2]; intros f.
  - apply lsum_perm, Permutation_map, H.
  - unfold wsum. cbn. ring.
  - unfold wsum. cbn. ring.
  - symmetry. apply IH.
  - rewrite IH1. apply IH2.
Qed.
Lemma wsum_app f l m : wsum f (l ++ m) = wsum f l + wsum f m.
Proof. unfold wsum. rewrite map_app. induction l as [|o l IH]; cbn in *; lra. Qed.
Lemma same_sums_app l l' m m' : same_sums l l' -> same_sums m m' -> same_sums (l ++ m) (l' ++ m').
Proof. intros H K f. rewrite !wsum_app, H, K. reflexivity. Qed.
Lemma same_sums_map (h : vec -> vec) l l' : same_sums l l' ->
  same_sums (map (fun o => mkobs (h (ox o)) (oy o) (ow o)) l) (map (fun o => mkobs (h (ox o)) (oy o) (ow o)) l').
Proof. intros H f. specialize (H (fun x y => f (h x) y)). unfold wsum in *. rewrite !map_map. exact H. Qed.
Lemma dsum_plain {A} (f : A -> R) l : dsum (1 - 0) f l = lsum (map f l).
Proof. rewrite Rminus_0_r. induction l as [|o l IH]; cbn in *; [reflexivity|]. rewrite pow1, IH. ring. Qed.
Lemma sums_weight l l' : same_sums l l' -> lsum (ws l) = lsum (ws l').
Proof.
  intros H. specialize (H (fun _ _ => 1)). unfold wsum in H. unfold ws.
  rewrite (map_ext (fun o => ow o * 1) ow) in H by (intros; ring). rewrite (map_ext (fun o => ow o * 1) ow) in H by (intros; ring). exact H.
Qed.
Lemma sums_dsum (f : vec -> R -> R) l l' : same_sums l l' -> dsum (1 - 0) (fun o => ow o * f (ox o) (oy o)) l = dsum (1 - 0) (fun o => ow o * f (ox o) (oy o)) l'.
Proof. intros H. rewrite !dsum_plain. apply H. Qed.
Lemma sums_gram l l' i j : same_sums l l' -> gram_spec 0 l i j = gram_spec 0 l' i j.
Proof.
  intros H. unfold gram_spec. pose proof (sums_dsum (fun x _ => x i * x j) l l' H) as E.
  rewrite (dsum_ext _ _ (fun o => ow o * (ox o i * ox o j))) by (intros; ring). rewrite E. apply dsum_ext. intros; ring.
Qed.
Lemma sums_ygram l l' i : same_sums l l' -> ygram_spec 0 l i = ygram_spec 0 l' i.
Proof.
  intros H. unfold ygram_spec. pose proof (sums_dsum (fun x y => x i * y) l l' H) as E.
  rewrite (dsum_ext _ _ (fun o => ow o * (ox o i * oy o))) by (intros; ring). rewrite E. apply dsum_ext. intros; ring.
Qed.
Lemma sums_wtotal l l' : same_sums l l' -> wtotal 0 l = wtotal 0 l'.
Proof. intros H. unfold wtotal. rewrite !dsum_plain. apply (sums_weight l l' H). Qed.
Lemma sums_wmean l l' j : same_sums l l' -> wmean 0 l j = wmean 0 l' j.
Proof. intros H. unfold wmean. rewrite (sums_wtotal l l' H). f_equal. apply (sums_dsum (fun x _ => x j)). exact H. Qed.
Lemma sums_wvar l l' j : same_sums l l' -> wvar 0 l j = wvar 0 l' j.
Proof.
  intros H. unfold wvar. rewrite (sums_wtotal l l' H), (sums_wmean l l' j H). f_equal.
  apply (sums_dsum (fun x _ => (x j - wmean 0 l' j) ^ 2)). exact H.
Qed.
Lemma scaler_ext s s' sel l l' : sc_inv 0 sel l s -> sc_inv 0 sel l' s' -> sc_n s = sc_n s' -> same_sums l l' -> s = s'.
Proof.
  intros (A1 & A2 & A3 & A4 & A5 & A6) (B1 & B2 & B3 & B4 & B5 & B6) N H.
  destruct s as [f1 d1 e1 m1 v1 M1 c1 n1], s' as [f2 d2 e2 m2 v2 M2 c2 n2]. cbn in *. subst.
  assert (m1 = m2) by (apply functional_extensionality; intros k; destruct (A6 k) as (-> & _), (B6 k) as (-> & _); apply sums_wmean, H).
  assert (v1 = v2) by (apply functional_extensionality; intros k; destruct (A6 k) as (_ & -> & _), (B6 k) as (_ & -> & _); apply sums_wvar, H).
  assert (M1 = M2) by (apply functional_extensionality; intros k; destruct (A6 k) as (_ & _ & ->), (B6 k) as (_ & _ & ->); rewrite (sums_wvar l l' _ H), (sums_wtotal l l' H); reflexivity).
  subst. rewrite (sums_wtotal l l' H). reflexivity.
Qed.

(** * The scaler *)
Definition sc_same (sel : bool * list nat) (l l' : list obs) (s : scaler) : Prop :=
  same_sums l l' /\ if fst sel then sc_inv 0 (snd sel) l s /\ sc_inv 0 (snd sel) l' s else sc_do s = false.

Lemma scaler_fit_same t p l l' s : same_sums l l' -> weights_nonneg l -> weights_nonneg l' -> (2 <= length l')%nat ->
  scaler_fit 0 t p l = Ok s -> scaler_fit 0 t p l' = Ok s /\ sc_same (selection t p) l l' s.
Proof.
  intros H W W' L E.
  destruct (fst (selection t p)) eqn:D.
  - destruct (scaler_fit_inv 0 t p l s E D ltac:(lra) W) as [I N].
    assert (Ex : exists s', scaler_fit 0 t p l' = Ok s').
    { revert E. unfold scaler_fit. destruct (Nat.ltb_spec (length l) 2); [discriminate|].
      destruct (Nat.ltb_spec (length l') 2); [lia|]. destruct (selection t p) as [b sel]. cbn in D. subst b.
      destruct (negb _); [discriminate|]. rewrite !init_forget_vector_geo.
      assert (Z : lsum (map2 Rmult (ws l) (geo (1 - 0) (length l))) = lsum (map2 Rmult (ws l') (geo (1 - 0) (length l')))).
      { rewrite !eff_total. apply (sums_wtotal l l' H). }
      rewrite Z. destruct (Reqb _ 0); [discriminate|eauto]. }
    destruct Ex as (s' & E'). destruct (scaler_fit_inv 0 t p l' s' E' D ltac:(lra) W') as [I' N'].
    assert (Q : s = s') by (apply (scaler_ext s s' (snd (selection t p)) l l'); auto; rewrite N, N'; apply sums_weight; auto).
    subst s'. split; auto. split; auto. rewrite D. auto.
  - revert E. unfold scaler_fit. destruct (Nat.ltb_spec (length l) 2); [discriminate|].
    destruct (Nat.ltb_spec (length l') 2); [lia|]. unfold sc_same. destruct (selection t p) as [b sel]. cbn in D. subst b.
    intros E. injection E as <-. rewrite (sums_weight l l' H). cbn. auto.
Qed.
Lemma scaler_update_same sel l l' s s1 m m' : sc_same sel l l' s -> same_sums m m' -> weights_nonneg m -> weights_nonneg m' -> (1 <= length m')%nat ->
  scaler_update s m = Ok s1 -> scaler_update s m' = Ok s1 /\ sc_same sel (l ++ m) (l' ++ m') s1.
Proof.
  intros [H K] Hm W W' L E. destruct (fst sel) eqn:D.
  - destruct K as [I I'].
    assert (Nm : nonempty m) by (unfold scaler_update in E; destruct m; [discriminate|discriminate]).
    assert (Nm' : nonempty m') by (destruct m'; [cbn in L; lia|discriminate]).
    destruct (scaler_update_inv 0 (snd sel) l s m I ltac:(lra) W Nm) as (s2 & E2 & I2 & N2).
    destruct (scaler_update_inv 0 (snd sel) l' s m' I' ltac:(lra) W' Nm') as (s3 & E3 & I3 & N3).
    rewrite E in E2. injection E2 as <-.
    assert (Q : s1 = s3).
    { apply (scaler_ext _ _ _ _ _ I2 I3); [|apply same_sums_app; auto]. rewrite N2, N3, (sums_weight m m' Hm). reflexivity. }
    subst s3. split; auto. split; [apply same_sums_app; auto|]. rewrite D. auto.
  - unfold scaler_update in *. rewrite K in *. destruct (Nat.ltb_spec (length m) 1); [discriminate|].
    destruct (Nat.ltb_spec (length m') 1); [lia|]. injection E as <-. rewrite (sums_weight m m' Hm).
    split; auto. split; [apply same_sums_app; auto|]. rewrite D. reflexivity.
Qed.

(** * Gramians *)
Lemma init_gram_same l l' : same_sums l l' -> weights_nonneg l -> weights_nonneg l' -> init_gram (Xs l) (ws l) 0 = init_gram (Xs l') (ws l') 0.
Proof.
  intros H W W'. apply functional_extensionality. intros i. apply functional_extensionality. intros j.
  rewrite !init_gram_spec by (auto; lra). apply sums_gram, H.
Qed.
Lemma init_y_gram_same l l' : same_sums l l' -> weights_nonneg l -> weights_nonneg l' ->
  init_y_gram (Xs l) (ys l) (ws l) 0 = init_y_gram (Xs l') (ys l') (ws l') 0.
Proof.
  intros H W W'. apply functional_extensionality. intros i. rewrite !init_y_gram_spec by (auto; lra). apply sums_ygram, H.
Qed.
Lemma update_gram_plus G b i j : weights_nonneg b -> update_gram G (Xs b) 0 (ws b) i j = G i j + gram_spec 0 b i j.
Proof.
  intros W.
  pose proof (update_gram_spec (fun _ _ => G i j) 0 [mkobs (fun _ => 1) 0 (G i j)] b i j ltac:(lra) W) as H.
  assert (E : update_gram G (Xs b) 0 (ws b) i j = update_gram (fun _ _ => G i j) (Xs b) 0 (ws b) i j).
  { unfold update_gram. destruct (Xs b) as [|x [|x' X]]; auto; destruct (ws b) as [|w [|w' V]]; auto. }
  rewrite E, H by (unfold gram_spec; cbn; ring). unfold gram_spec. rewrite dsum_app. cbn [dsum ow ox length pow].
  rewrite Rminus_0_r, pow1. ring.
Qed.
Lemma update_y_gram_plus G b i : weights_nonneg b -> update_y_gram G (Xs b) (ys b) 0 (ws b) i = G i + ygram_spec 0 b i.
Proof.
  intros W.
  pose proof (update_y_gram_spec (fun _ => G i) 0 [mkobs (fun _ => 1) 1 (G i)] b i ltac:(lra) W) as H.
  assert (E : update_y_gram G (Xs b) (ys b) 0 (ws b) i = update_y_gram (fun _ => G i) (Xs b) (ys b) 0 (ws b) i).
  { unfold update_y_gram. destruct (Xs b) as [|x [|x' X]]; auto; destruct (ys b) as [|y [|y' Y]]; auto; destruct (ws b) as [|w [|w' V]]; auto. }
  rewrite E, H by (unfold ygram_spec; cbn; ring). unfold ygram_spec. rewrite dsum_app. cbn [dsum ow ox oy length pow].
  rewrite Rminus_0_r, pow1. ring.
Qed.
Lemma update_gram_same G l l' : same_sums l l' -> weights_nonneg l -> weights_nonneg l' -> update_gram G (Xs l) 0 (ws l) = update_gram G (Xs l') 0 (ws l').
Proof.
  intros H W W'. apply functional_extensionality. intros i. apply functional_extensionality. intros j.
  rewrite !update_gram_plus by auto. rewrite (sums_gram l l' i j H). reflexivity.
Qed.
Lemma update_y_gram_same G l l' : same_sums l l' -> weights_nonneg l -> weights_nonneg l' ->
  update_y_gram G (Xs l) (ys l) 0 (ws l) = update_y_gram G (Xs l') (ys l') 0 (ws l').
Proof.
  intros H W W'. apply functional_extensionality. intros i. rewrite !update_y_gram_plus by auto. rewrite (sums_ygram l l' i H). reflexivity.
Qed.
