(** Lemmas for the scaler. *)
From Coq Require Import Reals List Bool Arith Lia Lra Psatz.
From Verif Require Import Base Lin Data S_Gram M_Gram L_Gram M_Scaler S_Scaler.
Import ListNotations.
Open Scope R_scope.

(** Weighted sums of the fit are discounted sums. *)
Lemma eff_sum g (h : vec -> R) : forall l,
  lsum (map2 (fun x e => h x * e) (Xs l) (map2 Rmult (ws l) (geo g (length l))))
  = dsum g (fun o => ow o * h (ox o)) l.
Proof. induction l as [|o l IH]; simpl; auto. rewrite IH. ring. Qed.
Lemma eff_total g : forall l, lsum (map2 Rmult (ws l) (geo g (length l))) = dsum g ow l.
Proof. induction l as [|o l IH]; simpl; auto. rewrite IH. ring. Qed.

(** Invariant: the state describes the stream [l]. *)
Definition sc_inv (forget : R) (sel : list nat) (l : list obs) (s : scaler) : Prop :=
  sc_forget s = forget /\ sc_do s = true /\ sc_sel s = sel /\
  0 < wtotal forget l /\ sc_cum s = wtotal forget l /\
  forall k, sc_mean s k = wmean forget l (nth k sel 0%nat) /\
            sc_var s k = wvar forget l (nth k sel 0%nat) /\
            sc_M s k = wvar forget l (nth k sel 0%nat) * wtotal forget l.

(** Raw moments. *)
Definition mom1 g (l : list obs) j := dsum g (fun o => ow o * ox o j) l.
Definition mom2 g (l : list obs) j := dsum g (fun o => ow o * (ox o j) ^ 2) l.
Lemma wvar_mom f l j : wtotal f l <> 0 ->
  wvar f l j * wtotal f l = mom2 (1 - f) l j - mom1 (1 - f) l j ^ 2 / wtotal f l.
Proof.
  intros H. unfold wvar. pose (m := wmean f l j). fold m.
  rewrite (dsum_ext (1 - f) _ (fun o => ow o * (ox o j) ^ 2 - 2 * m * (ow o * ox o j) + m ^ 2 * ow o))
    by (intros; ring).
  rewrite dsum_plus, dsum_minus, !dsum_scal. fold (wtotal f l) (mom1 (1 - f) l j) (mom2 (1 - f) l j).
  unfold m, wmean. fold (mom1 (1 - f) l j). field. exact H.
Qed.

Lemma sc_row_inv f sel l s o : sc_inv f sel l s -> 0 <= f < 1 -> 0 <= ow o ->
  sc_inv f sel (l ++ [o]) (scaler_row s (ox o) (ow o)).
Proof.
  intros (E1 & E2 & E3 & Hp & E4 & H) Hf Hw.
  assert (T : wtotal f (l ++ [o]) = wtotal f l * (1 - f) + ow o).
  { unfold wtotal. rewrite dsum_app. simpl. ring. }
  assert (P : 0 < wtotal f (l ++ [o])).
  { rewrite T. assert (0 < wtotal f l * (1 - f)) by (apply Rmult_lt_0_compat; lra). lra. }
  assert (M1 : forall j, mom1 (1 - f) (l ++ [o]) j = (1 - f) * mom1 (1 - f) l j + ow o * ox o j).
  { intros j. unfold mom1. rewrite dsum_app. simpl. ring. }
  assert (M2 : forall j, mom2 (1 - f) (l ++ [o]) j = (1 - f) * mom2 (1 - f) l j + ow o * (ox o j) ^ 2).
  { intros j. unfold mom2. rewrite dsum_app. simpl. ring. }
  assert (ME : forall l j, wtotal f l <> 0 -> wmean f l j = mom1 (1 - f) l j / wtotal f l) by reflexivity.
  split; [exact E1|]. split; [exact E2|]. split; [exact E3|]. split; [exact P|].
  split; [cbn [scaler_row sc_cum]; rewrite E1, E4, T; reflexivity|].
  intros k. cbn [scaler_row sc_mean sc_var sc_M]. rewrite E1, E3, E4. unfold pick.
  destruct (H k) as (Hm & _ & HM). rewrite Hm, HM.
  pose (j := nth k sel 0%nat). fold j. rewrite <- T.
  assert (A : (wmean f l j * (wtotal f l * (1 - f)) + ox o j * ow o) / wtotal f (l ++ [o]) = wmean f (l ++ [o]) j).
  { rewrite !ME by lra. rewrite M1. field. lra. }
  assert (B : wvar f l j * wtotal f l * (1 - f) + ow o * (ox o j - wmean f l j) * (ox o j - wmean f (l ++ [o]) j)
              = wvar f (l ++ [o]) j * wtotal f (l ++ [o])).
  { rewrite !wvar_mom by lra. rewrite M2, M1. rewrite !ME, M1 by lra. rewrite T in *. field. lra. }
  rewrite A, B. repeat split; auto. field. lra.
Qed.

Lemma sc_fold_inv f sel b : 0 <= f < 1 -> weights_nonneg b -> forall l s,
  sc_inv f sel l s -> sc_inv f sel (l ++ b) (fold_left (fun s o => scaler_row s (ox o) (ow o)) b s).
Proof.
  intros Hf. induction b as [|o b IH]; intros Hw l s H; simpl; [rewrite app_nil_r; auto|].
  inversion Hw; subst. replace (l ++ o :: b) with ((l ++ [o]) ++ b) by (rewrite <- app_assoc; reflexivity).
  apply IH; auto. apply sc_row_inv; auto.
Qed.

Lemma fold_row_n b : forall s, sc_n (fold_left (fun s o => scaler_row s (ox o) (ow o)) b s) = sc_n s.
Proof. induction b as [|o b IH]; intros s; simpl; auto. rewrite IH. reflexivity. Qed.

Lemma scaler_fit_inv f t p l s : scaler_fit f t p l = Ok s -> fst (selection t p) = true ->
  0 <= f < 1 -> weights_nonneg l ->
  sc_inv f (snd (selection t p)) l s /\ sc_n s = lsum (ws l).
Proof.
  unfold scaler_fit. destruct (length l <? 2)%nat; [discriminate|].
  destruct (selection t p) as [d sel] eqn:E. cbn [fst snd]. intros H -> Hf Hw.
  destruct (negb _); [discriminate|].
  rewrite init_forget_vector_geo in H. rewrite eff_total in H.
  destruct (Reqb _ 0) eqn:Z; [discriminate|]. apply Reqb_false in Z. injection H as <-.
  assert (P : 0 < wtotal f l).
  { assert (0 <= wtotal f l); [|unfold wtotal in *; lra].
    apply dsum_nonneg; [lra|]. intros a Ha. unfold weights_nonneg in Hw. rewrite Forall_forall in Hw. auto. }
  split; [|reflexivity]. split; [reflexivity|]. split; [reflexivity|]. split; [reflexivity|].
  split; [exact P|]. split; [reflexivity|]. intros k. cbn [sc_mean sc_var sc_M]. cbv beta.
  assert (Em : lsum (map2 (fun x e => pick sel x k * e) (Xs l) (map2 Rmult (ws l) (geo (1 - f) (length l))))
    / dsum (1 - f) ow l = wmean f l (nth k sel 0%nat)).
  { rewrite (eff_sum (1 - f) (fun x => pick sel x k)). reflexivity. }
  rewrite Em. split; [auto|].
  assert (Ev : lsum (map2 (fun x e => (pick sel x k - wmean f l (nth k sel 0%nat)) ^ 2 * e) (Xs l)
      (map2 Rmult (ws l) (geo (1 - f) (length l)))) / dsum (1 - f) ow l = wvar f l (nth k sel 0%nat)).
  { rewrite (eff_sum (1 - f) (fun x => (pick sel x k - wmean f l (nth k sel 0%nat)) ^ 2)). reflexivity. }
  cbn [pow] in Ev. rewrite Ev. split; [auto|]. reflexivity.
Qed.

Lemma scaler_update_inv f sel l s b : sc_inv f sel l s -> 0 <= f < 1 -> weights_nonneg b -> nonempty b ->
  exists s', scaler_update s b = Ok s' /\ sc_inv f sel (l ++ b) s' /\ sc_n s' = sc_n s + lsum (ws b).
Proof.
  intros H Hf Hw Hn. unfold scaler_update. destruct b as [|o b]; [contradiction|].
  change (length (o :: b) <? 1)%nat with false. cbv iota.
  destruct H as (E1 & E2 & E3 & Hp & E4 & H). rewrite E2. eexists. split; [reflexivity|]. split.
  - apply sc_fold_inv; auto. repeat split; auto; apply H.
  - rewrite fold_row_n. reflexivity.
Qed.

Lemma wsum_app l m : lsum (ws (l ++ m)) = lsum (ws l) + lsum (ws m).
Proof. unfold ws. rewrite map_app. apply lsum_app. Qed.

Lemma scaler_updates_inv f sel bs : 0 <= f < 1 -> Forall weights_nonneg bs -> Forall nonempty bs ->
  forall l s, sc_inv f sel l s ->
  exists s', scaler_updates s bs = Ok s' /\ sc_inv f sel (l ++ concat bs) s' /\
    sc_n s' = sc_n s + lsum (ws (concat bs)).
Proof.
  intros Hf Hw Hn. induction bs as [|b bs IH]; intros l s H; cbn [scaler_updates concat].
  { exists s. rewrite app_nil_r. split; auto. split; auto. simpl. lra. }
  inversion Hw; inversion Hn; subst.
  destruct (scaler_update_inv f sel l s b) as (s1 & E & I & N); auto.
  rewrite E. cbn [bind]. destruct (IH ltac:(auto) ltac:(auto) (l ++ b) s1 I) as (s2 & E2 & I2 & N2).
  exists s2. split; auto. rewrite app_assoc. split; auto. rewrite N2, N, wsum_app. lra.
Qed.

Lemma C23_lemma : forall forget t p b0 bs s0,
  t <> ScaleNone -> 0 <= forget < 1 ->
  weights_nonneg b0 -> Forall weights_nonneg bs -> Forall nonempty bs ->
  scaler_fit forget t p b0 = Ok s0 ->
  exists s, scaler_updates s0 bs = Ok s /\
    sc_sel s = snd (selection t p) /\
    sc_n s = lsum (ws (b0 ++ concat bs)) /\
    forall k, (k < length (snd (selection t p)))%nat ->
      sc_mean s k = wmean forget (b0 ++ concat bs) (nth k (snd (selection t p)) 0%nat) /\
      sc_var s k = wvar forget (b0 ++ concat bs) (nth k (snd (selection t p)) 0%nat).
Proof.
  intros f t p b0 bs s0 Ht Hf Hw0 Hw Hn H.
  destruct (scaler_fit_inv f t p b0 s0 H) as (I & N); auto; [destruct t; auto; contradiction|].
  destruct (scaler_updates_inv f _ bs Hf Hw Hn b0 s0 I) as (s & E & I2 & N2).
  exists s. split; auto. destruct I2 as (_ & _ & E3 & _ & _ & H2). split; auto.
  split; [rewrite N2, N, wsum_app; reflexivity|]. intros k _. destruct (H2 k) as (A & B & _). auto.
Qed.

(** When the fit succeeds. *)
Lemma C23_total_lemma : forall forget t p b0,
  0 <= forget < 1 -> weights_nonneg b0 -> (2 <= length b0)%nat -> (exists o, In o b0 /\ 0 < ow o) ->
  (forall j, In j (snd (selection t p)) -> (j < p)%nat) ->
  exists s, scaler_fit forget t p b0 = Ok s.
Proof.
  intros f t p b0 Hf Hw Hl (o & Ho & Hpos) Hs. unfold scaler_fit.
  replace (length b0 <? 2)%nat with false by (symmetry; apply Nat.ltb_ge; auto).
  destruct (selection t p) as [d sel]; cbn [snd] in Hs. destruct d; [|eauto].
  replace (forallb (fun j => (j <? p)%nat) sel) with true.
  2:{ symmetry. apply forallb_forall. intros j Hj. apply Nat.ltb_lt. auto. }
  cbn [negb]. rewrite init_forget_vector_geo, eff_total.
  destruct (Reqb _ 0) eqn:Z; [|eauto]. apply Reqb_true in Z. exfalso.
  revert Z. apply Rgt_not_eq. unfold weights_nonneg in Hw. rewrite Forall_forall in Hw.
  clear Hl. induction b0 as [|a l IH]; [destruct Ho|]. simpl.
  assert (0 < (1 - f) ^ length l) by (apply pow_lt; lra).
  assert (0 <= dsum (1 - f) ow l) by (apply dsum_nonneg; [lra|intros; apply Hw; right; auto]).
  destruct Ho as [->|Ho].
  - nra.
  - assert (dsum (1 - f) ow l > 0) by (apply IH; auto; intros; apply Hw; right; auto).
    specialize (Hw a (or_introl eq_refl)). nra.
Qed.

(** ** Variance *)
Lemma dsum_zero_iff {A} g (h : A -> R) l : 0 < g -> (forall a, In a l -> 0 <= h a) ->
  (dsum g h l = 0 <-> forall a, In a l -> h a = 0).
Proof.
  intros Hg. induction l as [|a l IH]; simpl; intros H; [split; [intros _ a []|auto]|].
  assert (P : 0 < g ^ length l) by (apply pow_lt; auto).
  assert (0 <= dsum g h l) by (apply dsum_nonneg; [lra|auto]).
  specialize (IH (fun b Hb => H b (or_intror Hb))). pose proof (H a (or_introl eq_refl)).
  split.
  - intros E. assert (0 <= g ^ length l * h a) by (apply Rmult_le_pos; lra).
    assert (E1 : g ^ length l * h a = 0) by lra. assert (E2 : dsum g h l = 0) by lra.
    intros b [->|Hb]; [apply Rmult_integral in E1; destruct E1; lra|]. apply IH; auto.
  - intros K. rewrite (K a) by auto. rewrite (proj2 IH) by auto. ring.
Qed.

Lemma wvar_nonneg f l j : 0 <= f < 1 -> weights_nonneg l -> 0 < wtotal f l -> 0 <= wvar f l j.
Proof.
  intros Hf Hw P. unfold wvar. apply Rle_mult_inv_pos; auto. apply dsum_nonneg; [lra|].
  intros o Ho. unfold weights_nonneg in Hw. rewrite Forall_forall in Hw.
  apply Rmult_le_pos; [auto|apply pow2_ge_0].
Qed.

Lemma wvar_zero_iff f l j : 0 <= f < 1 -> weights_nonneg l -> 0 < wtotal f l ->
  (wvar f l j = 0 <-> exists c, forall o, In o l -> 0 < ow o -> ox o j = c).
Proof.
  intros Hf Hw P. pose proof Hw as Hw'. unfold weights_nonneg in Hw'. rewrite Forall_forall in Hw'.
  assert (Z : forall m, dsum (1 - f) (fun o => ow o * (ox o j - m) ^ 2) l = 0 <->
                   forall o, In o l -> 0 < ow o -> ox o j = m).
  { intros m. rewrite dsum_zero_iff.
    - split; intros H o Ho.
      + intros Hp. specialize (H o Ho). apply Rmult_integral in H. destruct H as [H|H]; [lra|].
        rewrite <- Rsqr_pow2 in H. apply Rsqr_0_uniq in H. lra.
      + destruct (Req_dec (ow o) 0) as [->|Hn]; [ring|]. specialize (Hw' o Ho).
        rewrite (H o Ho) by lra. ring.
    - lra.
    - intros o Ho. apply Rmult_le_pos; [auto|apply pow2_ge_0]. }
  split.
  - intros H. exists (wmean f l j). apply Z. unfold wvar in H.
    apply Rmult_integral in H. destruct H as [H|H]; auto. exfalso.
    apply Rinv_neq_0_compat in H; auto. lra.
  - intros (c & Hc). unfold wvar.
    replace (wmean f l j) with c; [rewrite (proj2 (Z c) Hc); unfold Rdiv; ring|].
    unfold wmean. rewrite (dsum_ext (1 - f) _ (fun o => c * ow o)).
    + rewrite dsum_scal. fold (wtotal f l). field. lra.
    + intros o Ho. destruct (Req_dec (ow o) 0) as [->|Hn]; [ring|]. rewrite (Hc o Ho); [ring|].
      specialize (Hw' o Ho). lra.
Qed.

Lemma C24_lemma : forall forget t p b0 bs s0 s,
  t <> ScaleNone -> 0 <= forget < 1 ->
  weights_nonneg b0 -> Forall weights_nonneg bs -> Forall nonempty bs ->
  scaler_fit forget t p b0 = Ok s0 -> scaler_updates s0 bs = Ok s ->
  forall k, (k < length (snd (selection t p)))%nat ->
    0 <= sc_var s k /\
    (sc_var s k = 0 <-> exists c, forall o, In o (b0 ++ concat bs) -> 0 < ow o ->
                        ox o (nth k (snd (selection t p)) 0%nat) = c).
Proof.
  intros f t p b0 bs s0 s Ht Hf Hw0 Hw Hn H H1 k Hk.
  destruct (scaler_fit_inv f t p b0 s0 H) as (I & N); auto; [destruct t; auto; contradiction|].
  destruct (scaler_updates_inv f _ bs Hf Hw Hn b0 s0 I) as (s' & E & I2 & N2).
  assert (s' = s) by congruence. subst s'.
  destruct I2 as (_ & _ & _ & P & _ & H2). destruct (H2 k) as (_ & -> & _).
  assert (W : weights_nonneg (b0 ++ concat bs)) by (apply Forall_app; split; auto; apply weights_nonneg_concat; auto).
  split; [apply wvar_nonneg; auto|apply wvar_zero_iff; auto].
Qed.

(** ** transform and inverse_transform *)
Lemma assign_notin sel : forall out k v j, ~ In j sel -> assign out sel k v j = out j.
Proof.
  induction sel as [|a sel IH]; intros out k v j H; cbn [assign]; auto.
  rewrite IH by (intros K; apply H; right; auto). unfold cset.
  destruct (Nat.eqb_spec j a) as [->|]; auto. destruct H. left; auto.
Qed.
(** The last occurrence of a column in the selection decides. *)
Lemma assign_in sel : forall out k v j, In j sel ->
  exists i, (i < length sel)%nat /\ nth i sel 0%nat = j /\ assign out sel k v j = v (k + i)%nat.
Proof.
  induction sel as [|a sel IH]; intros out k v j H; [destruct H|]. cbn [assign].
  destruct (in_dec Nat.eq_dec j sel) as [Hin|Hn].
  - destruct (IH (cset out a (v k)) (S k) v j Hin) as (i & Hi & E & A).
    exists (S i). cbn [length nth]. split; [lia|]. split; auto. rewrite A. f_equal. lia.
  - destruct H as [->|H]; [|contradiction]. exists 0%nat. cbn [length nth].
    split; [lia|]. split; auto. rewrite assign_notin by auto. unfold cset. rewrite Nat.eqb_refl, Nat.add_0_r. auto.
Qed.

(** Same column, same moments: holds for every state of the scaler. *)
Definition sc_consistent (s : scaler) : Prop :=
  forall i k, (i < length (sc_sel s))%nat -> (k < length (sc_sel s))%nat ->
    nth i (sc_sel s) 0%nat = nth k (sc_sel s) 0%nat -> sc_mean s i = sc_mean s k /\ sc_var s i = sc_var s k.

Lemma sc_inv_consistent f sel l s : sc_inv f sel l s -> sc_consistent s.
Proof.
  intros (_ & _ & ES & _ & _ & H). unfold sc_consistent. rewrite ES. intros i k _ _ E. destruct (H i) as (-> & -> & _).
  destruct (H k) as (-> & -> & _). rewrite E. auto.
Qed.

Lemma transform_notin s x j : sc_do s = false \/ ~ In j (sc_sel s) ->
  scaler_transform s x j = x j /\ scaler_inverse s x j = x j.
Proof.
  intros H. unfold scaler_transform, scaler_inverse. destruct (sc_do s); [|auto].
  destruct H as [H|H]; [discriminate|]. rewrite !assign_notin by auto. auto.
Qed.
Lemma transform_at s x k : sc_consistent s -> sc_do s = true -> (k < length (sc_sel s))%nat ->
  let j := nth k (sc_sel s) 0%nat in
  scaler_transform s x j = (x j - sc_mean s k) / sqrt (sc_var s k) /\
  scaler_inverse s x j = x j * sqrt (sc_var s k) + sc_mean s k.
Proof.
  intros C D Hk j. unfold scaler_transform, scaler_inverse. rewrite D.
  assert (Hin : In j (sc_sel s)) by (apply nth_In; auto).
  split.
  - destruct (assign_in (sc_sel s) x 0 (fun k => (pick (sc_sel s) x k - sc_mean s k) / sqrt (sc_var s k)) j Hin) as (i & Hi & E & ->).
    cbn [Nat.add]. unfold pick. rewrite E. destruct (C i k Hi Hk E) as (-> & ->). reflexivity.
  - destruct (assign_in (sc_sel s) x 0 (fun k => pick (sc_sel s) x k * sqrt (sc_var s k) + sc_mean s k) j Hin) as (i & Hi & E & ->).
    cbn [Nat.add]. unfold pick. rewrite E. destruct (C i k Hi Hk E) as (-> & ->). reflexivity.
Qed.

Lemma reachable_inv f t p l s : reachable_scaler f t p l s -> t <> ScaleNone -> 0 <= f < 1 ->
  sc_inv f (snd (selection t p)) l s /\ weights_nonneg l.
Proof.
  intros (b0 & bs & s0 & -> & Hw0 & Hw & Hn & H & H1) Ht Hf.
  destruct (scaler_fit_inv f t p b0 s0 H) as (I & N); auto; [destruct t; auto; contradiction|].
  destruct (scaler_updates_inv f _ bs Hf Hw Hn b0 s0 I) as (s' & E & I2 & N2).
  assert (s' = s) by congruence. subst s'. split; auto.
  apply Forall_app; split; auto; apply weights_nonneg_concat; auto.
Qed.
Lemma reachable_none f p l s : reachable_scaler f ScaleNone p l s -> sc_do s = false.
Proof.
  intros (b0 & bs & s0 & -> & _ & _ & _ & H & H1). unfold scaler_fit in H.
  destruct (length b0 <? 2)%nat; [discriminate|]. cbn [selection] in H. injection H as <-.
  revert H1. generalize (lsum (ws b0)). induction bs as [|b bs IH]; intros n H; cbn [scaler_updates] in H.
  { injection H as <-. reflexivity. }
  unfold scaler_update at 1 in H. destruct (length b <? 1)%nat; [discriminate|].
  cbn [sc_do bind sc_forget sc_sel sc_mean sc_var sc_M sc_cum sc_n] in H. eapply IH; eauto.
Qed.

Lemma C25_lemma : forall forget t p l s x,
  0 <= forget < 1 -> reachable_scaler forget t p l s ->
  (forall j, In j (snd (selection t p)) -> 0 < wvar forget l j) ->
  forall j, scaler_inverse s (scaler_transform s x) j = x j /\
            scaler_transform s (scaler_inverse s x) j = x j.
Proof.
  intros f t p l s x Hf Hr Hv j.
  destruct t as [| |sel].
  2:{ rewrite !(proj1 (transform_notin s _ j (or_introl (reachable_none _ _ _ _ Hr)))).
      rewrite !(proj2 (transform_notin s _ j (or_introl (reachable_none _ _ _ _ Hr)))).
      rewrite !(proj1 (transform_notin s _ j (or_introl (reachable_none _ _ _ _ Hr)))). auto. }
  all: destruct (reachable_inv f _ p l s Hr ltac:(discriminate) Hf) as (I & W);
    pose proof (sc_inv_consistent _ _ _ _ I) as C; destruct I as (_ & D & ES & P & _ & H);
    (destruct (in_dec Nat.eq_dec j (sc_sel s)) as [Hin|Hn];
     [|rewrite !(proj1 (transform_notin s _ j (or_intror Hn)));
       rewrite !(proj2 (transform_notin s _ j (or_intror Hn)));
       rewrite !(proj1 (transform_notin s _ j (or_intror Hn))); auto]);
    destruct (In_nth _ _ 0%nat Hin) as (k & Hk & <-);
    rewrite (proj2 (transform_at s _ k C D Hk)), (proj1 (transform_at s _ k C D Hk));
    rewrite (proj1 (transform_at s _ k C D Hk)), (proj2 (transform_at s _ k C D Hk));
    destruct (H k) as (_ & Ev & _);
    (assert (0 < sqrt (sc_var s k)) by (apply sqrt_lt_R0; rewrite Ev; apply Hv; rewrite <- ES; apply nth_In; auto));
    split; field; lra.
Qed.

Lemma C25_untouched_lemma : forall forget t p l s x j,
  0 <= forget < 1 -> reachable_scaler forget t p l s ->
  ~ In j (snd (selection t p)) ->
  scaler_transform s x j = x j /\ scaler_inverse s x j = x j.
Proof.
  intros f t p l s x j Hf Hr Hn. apply transform_notin.
  destruct t as [| |sel]; [|left; eapply reachable_none; eauto|];
    right; destruct (reachable_inv f _ p l s Hr ltac:(discriminate) Hf) as (I & _);
    destruct I as (_ & _ & -> & _); auto.
Qed.

(** ** Standardised training data *)
Lemma map_rows_dsum g f l (h : obs -> R) :
  dsum g h (map_rows f l) = dsum g (fun o => h (mkobs (f (ox o)) (oy o) (ow o))) l.
Proof. induction l as [|o l IH]; simpl; auto. unfold map_rows in *. rewrite map_length, IH. reflexivity. Qed.

Lemma C26_lemma : forall forget t p l s j,
  0 <= forget < 1 -> reachable_scaler forget t p l s ->
  In j (snd (selection t p)) -> 0 < wvar forget l j ->
  wmean forget (map_rows (scaler_transform s) l) j = 0 /\
  wvar forget (map_rows (scaler_transform s) l) j = 1.
Proof.
  intros f t p l s j Hf Hr Hin Hv.
  assert (Ht : t <> ScaleNone) by (intros ->; destruct Hin).
  destruct (reachable_inv f t p l s Hr Ht Hf) as (I & W).
  pose proof (sc_inv_consistent _ _ _ _ I) as C. destruct I as (_ & D & ES & P & _ & H).
  rewrite <- ES in Hin. destruct (In_nth _ _ 0%nat Hin) as (k & Hk & Ej).
  assert (T : forall x, scaler_transform s x j = (x j - wmean f l j) / sqrt (wvar f l j)).
  { intros x. rewrite <- Ej. rewrite (proj1 (transform_at s x k C D Hk)).
    destruct (H k) as (-> & -> & _). rewrite <- ES. reflexivity. }
  assert (Sp : 0 < sqrt (wvar f l j)) by (apply sqrt_lt_R0; auto).
  assert (T0 : wtotal f (map_rows (scaler_transform s) l) = wtotal f l).
  { unfold wtotal. rewrite map_rows_dsum. reflexivity. }
  assert (M0 : wmean f (map_rows (scaler_transform s) l) j = 0).
  { unfold wmean. rewrite T0, map_rows_dsum. cbn [ow ox].
    rewrite (dsum_ext (1 - f) _ (fun o => / sqrt (wvar f l j) * (ow o * ox o j - wmean f l j * ow o))).
    - rewrite dsum_scal, dsum_minus, dsum_scal. fold (wtotal f l).
      unfold wmean. field. split; lra.
    - intros o _. rewrite T. field. lra. }
  split; auto. unfold wvar at 1. rewrite M0, T0, map_rows_dsum. cbn [ow ox].
  rewrite (dsum_ext (1 - f) _ (fun o => / wvar f l j * (ow o * (ox o j - wmean f l j) ^ 2))).
  - rewrite dsum_scal.
    assert (E : dsum (1 - f) (fun o => ow o * (ox o j - wmean f l j) ^ 2) l = wvar f l j * wtotal f l).
    { unfold wvar. field. lra. }
    rewrite E. field. lra.
  - intros o _. rewrite T, Rminus_0_r.
    assert (S2 : sqrt (wvar f l j) * sqrt (wvar f l j) = wvar f l j) by (apply sqrt_sqrt; lra).
    rewrite <- S2 at 2. field. lra.
Qed.
