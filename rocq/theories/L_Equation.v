(** Lemmas about the per-parameter options and the equation. *)
From Coq Require Import Reals List Bool Arith ZArith Lia.
From Verif Require Import Base Lin M_Equation S_Equation.
Import ListNotations.

Lemma lookup_in {A} (d : dict A) k v : lookup d k = Some v -> In k (keys d).
Proof.
  induction d as [|[k' v'] d IH]; cbn; [discriminate|].
  destruct (Nat.eqb_spec k' k); auto.
Qed.
Lemma lookup_none {A} (d : dict A) k : lookup d k = None <-> ~ In k (keys d).
Proof.
  induction d as [|[k' v'] d IH]; cbn.
  - split; auto.
  - destruct (Nat.eqb_spec k' k) as [E|E].
    + split; [discriminate|]. intros H. exfalso. apply H. auto.
    + rewrite IH. split; intros H; [intros [|]|]; auto.
Qed.
Lemma assign_new {A} (d : dict A) k v : lookup d k = None -> assign_key d k v = d ++ [(k, v)].
Proof.
  induction d as [|[k' v'] d IH]; cbn; intros H; [reflexivity|].
  destruct (Nat.eqb k' k); [discriminate|]. rewrite IH; auto.
Qed.
Lemma lookup_app {A} (d d' : dict A) k :
  lookup (d ++ d') k = match lookup d k with Some v => Some v | None => lookup d' k end.
Proof.
  induction d as [|[k' v'] d IH]; cbn; [reflexivity|].
  destruct (Nat.eqb k' k); auto.
Qed.

(** The completed dict: the user's entries, then the missing keys. *)
Definition missing {A} (d : dict A) (ps : list nat) : list nat :=
  filter (fun p => match lookup d p with Some _ => false | None => true end) ps.
Lemma fill_from_list {A} (default : A) ps : forall d, NoDup ps ->
  fold_left (fill_step default) ps d = d ++ map (fun p => (p, default)) (missing d ps).
Proof.
  induction ps as [|p ps IH]; intros d N; cbn [fold_left missing filter map].
  { now rewrite app_nil_r. }
  inversion N as [|? ? Hp N']; subst.
  unfold fill_step at 2. destruct (lookup d p) eqn:E.
  - rewrite IH by auto. reflexivity.
  - rewrite assign_new by auto. rewrite IH by auto. rewrite <- app_assoc.
    f_equal. cbn [map app]. apply (f_equal (fun l => (p, default) :: map (fun p => (p, default)) l)). unfold missing. apply filter_ext_in.
    intros q Hq. rewrite lookup_app. destruct (lookup d q); [reflexivity|]. cbn.
    destruct (Nat.eqb_spec p q); [subst; contradiction|reflexivity].
Qed.
Lemma fill_eq {A} n (default : A) d :
  fill n default d = d ++ map (fun p => (p, default)) (missing d (seq 0 n)).
Proof. apply fill_from_list, seq_NoDup. Qed.
Lemma lookup_const {A} (a : A) ps p : In p ps -> lookup (map (fun p => (p, a)) ps) p = Some a.
Proof.
  induction ps as [|q ps IH]; cbn; [tauto|]. intros [H|H]; destruct (Nat.eqb_spec q p); auto; congruence.
Qed.

Lemma C54_completed_lemma {A} n (attribute : option_value A) default p : (p < n)%nat ->
  lookup (fst (process_parameter n attribute default)) p = Some (wanted attribute default p).
Proof.
  intros Hp. destruct attribute as [a|d]; cbn.
  - apply lookup_const, in_seq. lia.
  - rewrite fill_eq, lookup_app. destruct (lookup d p) eqn:E; [reflexivity|].
    apply lookup_const. unfold missing. apply filter_In. rewrite E. split; [apply in_seq; lia|reflexivity].
Qed.
Lemma C54_kept_lemma {A} n (d : dict A) default k v : lookup d k = Some v ->
  lookup (fst (process_parameter n (Dict d) default)) k = Some v.
Proof. intros H. cbn. rewrite fill_eq, lookup_app, H. reflexivity. Qed.
Lemma missing_fill {A} n (default : A) d : missing (fill n default d) (seq 0 n) = [].
Proof.
  unfold missing. rewrite (filter_ext_in _ (fun _ => false)).
  - induction (seq 0 n); auto.
  - intros p Hp. apply in_seq in Hp.
    pose proof (C54_completed_lemma n (Dict d) default p ltac:(lia)) as H. cbn in H. now rewrite H.
Qed.
Lemma C54_mutated_lemma {A} n (d : dict A) default default' :
  let after := snd (process_parameter n (Dict d) default) in
  after = Dict (fst (process_parameter n (Dict d) default)) /\
  (forall p, (p < n)%nat -> lookup d p = None ->
     wanted after default' p = default) /\
  process_parameter n after default' = (fst (process_parameter n (Dict d) default), after).
Proof.
  cbn. split; [reflexivity|]. split.
  - intros p Hp Hn. pose proof (C54_completed_lemma n (Dict d) default p Hp) as H.
    cbn in H. rewrite H, Hn. reflexivity.
  - rewrite (fill_eq n default' (fill n default d)), missing_fill, app_nil_r. reflexivity.
Qed.

Lemma fill_from_scalar {A} (default : A) ps : forall d,
  fill_from ps (Scalar default) d = Ok (fold_left (fill_step default) ps d).
Proof.
  induction ps as [|p ps IH]; intros d; cbn; [reflexivity|].
  unfold fill_step at 2. destruct (lookup d p); apply IH.
Qed.
Lemma handle_scalar {A} n (param : option_value A) default :
  handle_param_dict n param (Scalar default) = Ok (fst (process_parameter n param default)).
Proof. destruct param; cbn; [reflexivity|]. apply fill_from_scalar. Qed.
Lemma fill_from_dict {A} (dd : dict A) ps : forall d, NoDup ps ->
  (forall p, In p ps -> lookup d p = None -> lookup dd p <> None) ->
  exists d', fill_from ps (Dict dd) d = Ok d' /\
    forall k, lookup d' k = match lookup d k with
                            | Some v => Some v
                            | None => if in_dec Nat.eq_dec k ps then lookup dd k else None end.
Proof.
  induction ps as [|p ps IH]; intros d N H; cbn [fill_from].
  { exists d. split; [reflexivity|]. intros k. cbn. destruct (lookup d k); reflexivity. }
  inversion N as [|? ? Hp N']; subst.
  destruct (lookup d p) as [v|] eqn:E.
  - destruct (IH d N') as (d' & Ed & Hd).
    { intros q Hq. apply H. cbn. auto. }
    exists d'. split; [exact Ed|]. intros k. rewrite Hd. destruct (lookup d k) eqn:Ek; [reflexivity|].
    assert (p <> k) by congruence.
    destruct (in_dec Nat.eq_dec k ps), (in_dec Nat.eq_dec k (p :: ps)); cbn in *; tauto.
  - destruct (lookup dd p) as [a|] eqn:Ea.
    2:{ exfalso. apply (H p); cbn; auto. }
    rewrite (assign_new d p a) by auto.
    destruct (IH (d ++ [(p, a)]) N') as (d' & Ed & Hd).
    { intros q Hq. rewrite lookup_app. destruct (lookup d q) eqn:Eq; [discriminate|].
      intros _. apply H; cbn; auto. }
    exists d'. split; [exact Ed|]. intros k. rewrite Hd, lookup_app. destruct (lookup d k) eqn:Ek; [reflexivity|].
    cbn [lookup]. destruct (Nat.eqb_spec p k) as [->|Hk].
    + destruct (in_dec Nat.eq_dec k (k :: ps)) as [_|C]; [congruence|]. exfalso. apply C. cbn. auto.
    + destruct (in_dec Nat.eq_dec k ps), (in_dec Nat.eq_dec k (p :: ps)); cbn in *; tauto.
Qed.
Lemma fill_from_missing {A} (dd : dict A) ps : forall d p, NoDup ps -> In p ps ->
  lookup d p = None -> lookup dd p = None -> fill_from ps (Dict dd) d = Raise KeyError.
Proof.
  induction ps as [|q ps IH]; intros d p N Hp Hd Hdd; cbn in *; [tauto|].
  inversion N as [|? ? Hq N']; subst.
  destruct (lookup d q) as [v|] eqn:E.
  - destruct Hp as [->|Hp]; [congruence|]. apply (IH d p); auto.
  - destruct (lookup dd q) eqn:Ea; [|reflexivity].
    destruct Hp as [->|Hp]; [congruence|].
    rewrite assign_new by auto. apply (IH _ p); auto. rewrite lookup_app, Hd. cbn.
    destruct (Nat.eqb_spec q p); [congruence|reflexivity].
Qed.
Lemma C54_handle_lemma {A} n (param : option_value A) default :
  (forall a, default = Scalar a ->
     exists d, handle_param_dict n param default = Ok d /\
       forall p, (p < n)%nat -> lookup d p = Some (wanted param a p)) /\
  (forall u dd, param = Dict u -> default = Dict dd ->
     (forall p, (p < n)%nat -> lookup u p = None -> lookup dd p <> None) ->
     exists d, handle_param_dict n param default = Ok d /\
       forall p, (p < n)%nat ->
         lookup d p = match lookup u p with Some v => Some v | None => lookup dd p end) /\
  (forall u dd p, param = Dict u -> default = Dict dd -> (p < n)%nat ->
     lookup u p = None -> lookup dd p = None -> handle_param_dict n param default = Raise KeyError).
Proof.
  split; [|split].
  - intros a ->. rewrite handle_scalar. eexists. split; [reflexivity|].
    intros p Hp. now apply C54_completed_lemma.
  - intros u dd -> -> H. cbn. destruct (fill_from_dict dd (seq 0 n) u (seq_NoDup n 0)) as (d & Ed & Hd).
    { intros p Hp. apply in_seq in Hp. apply H. lia. }
    exists d. split; [exact Ed|]. intros p Hp. rewrite Hd. destruct (lookup u p); [reflexivity|].
    destruct (in_dec Nat.eq_dec p (seq 0 n)) as [_|C]; [reflexivity|]. exfalso. apply C, in_seq. lia.
  - intros u dd p -> -> Hp Hu Hdd. cbn. apply (fill_from_missing dd _ u p); auto; [apply seq_NoDup|apply in_seq; lia].
Qed.

(** * Step sizes *)
Lemma nth_error_lookup {A} (d : dict A) p k v : is_dict d ->
  nth_error d p = Some (k, v) -> lookup d k = Some v.
Proof.
  unfold is_dict. revert p. induction d as [|[k' v'] d IH]; intros p N H; [destruct p; discriminate|].
  inversion N as [|? ? Hk N']; subst. destruct p as [|p]; cbn in *.
  - injection H as -> ->. now rewrite Nat.eqb_refl.
  - pose proof (IH p N' H) as L. destruct (Nat.eqb_spec k' k) as [->|]; [|exact L].
    exfalso. apply Hk. eapply lookup_in; eauto.
Qed.
Lemma keys_fill {A} n (default : A) d : keys (fill n default d) = keys d ++ missing d (seq 0 n).
Proof.
  unfold keys. rewrite fill_eq, map_app, map_map. cbn. now rewrite map_id.
Qed.
Lemma fill_is_dict {A} n (default : A) d : is_dict d -> is_dict (fill n default d).
Proof.
  unfold is_dict. rewrite keys_fill. intros N.
  assert (N2 : NoDup (missing d (seq 0 n))) by (apply NoDup_filter, seq_NoDup).
  assert (D : forall k, In k (keys d) -> ~ In k (missing d (seq 0 n))).
  { intros k H1 H2. unfold missing in H2. apply filter_In in H2. destruct H2 as [_ H2].
    destruct (lookup d k) eqn:E; [discriminate|]. now apply lookup_none in E. }
  induction (keys d) as [|k ks IH]; cbn; [exact N2|].
  inversion N; subst. constructor.
  - rewrite in_app_iff. intros [H|H]; [auto|]. apply (D k); cbn; auto.
  - apply IH; auto. intros q Hq. apply D. cbn. auto.
Qed.
Lemma process_is_dict {A} n (attribute : option_value A) default :
  (forall d, attribute = Dict d -> is_dict d) -> is_dict (fst (process_parameter n attribute default)).
Proof.
  destruct attribute as [a|d]; cbn; intros H.
  - unfold is_dict, keys. rewrite map_map. cbn. rewrite map_id. apply seq_NoDup.
  - apply fill_is_dict. auto.
Qed.
Lemma step_entry_key steps p k v : is_dict steps -> nth_error (keys steps) p = Some k ->
  (step_entry steps p = Ok v <-> lookup steps k = Some v).
Proof.
  intros N H. unfold step_entry, values, keys in *. rewrite nth_error_map in *.
  destruct (nth_error steps p) as [[k' v']|] eqn:E; [|discriminate]. cbn in *. injection H as ->.
  rewrite (nth_error_lookup steps p k v' N E). split; congruence.
Qed.
Lemma C55_by_position_lemma n (attribute : option_value R) default p k :
  (forall d, attribute = Dict d -> is_dict d) ->
  nth_error (keys (fst (process_parameter n attribute default))) p = Some k ->
  exists v, lookup (fst (process_parameter n attribute default)) k = Some v /\
    step_entry (fst (process_parameter n attribute default)) p = Ok v.
Proof.
  intros Hd H. pose proof (process_is_dict n attribute default Hd) as N.
  set (d := fst _) in *.
  destruct (lookup d k) as [v|] eqn:E.
  - exists v. split; [reflexivity|]. apply (step_entry_key d p k v N H). exact E.
  - apply lookup_none in E. exfalso. apply E. eapply nth_error_In; eauto.
Qed.
Lemma missing_prefix {A} (d : dict A) n : in_parameter_order d ->
  missing d (seq 0 n) = seq (length d) (n - length d).
Proof.
  intros H. unfold missing.
  rewrite (filter_ext_in _ (fun p => length d <=? p)%nat).
  2:{ intros p _. destruct (lookup d p) eqn:E; symmetry.
      - apply lookup_in in E. rewrite H in E. apply in_seq in E. apply Nat.leb_gt. lia.
      - apply lookup_none in E. rewrite H in E. apply Nat.leb_le.
        destruct (Nat.le_gt_cases (length d) p); [assumption|]. exfalso. apply E, in_seq. lia. }
  generalize (length d). intros m. clear.
  induction n as [|n IH]; [now rewrite Nat.sub_0_l|].
  rewrite seq_S, filter_app, IH. cbn [filter Nat.add]. destruct (Nat.leb_spec m n).
  - rewrite Nat.sub_succ_l by lia. rewrite seq_S. f_equal. f_equal. lia.
  - replace (n - m)%nat with O by lia. replace (S n - m)%nat with O by lia. reflexivity.
Qed.
Lemma C55_in_order_lemma n (attribute : option_value R) default p :
  (forall d, attribute = Dict d -> in_parameter_order d) -> (p < n)%nat ->
  step_entry (fst (process_parameter n attribute default)) p = Ok (wanted attribute default p).
Proof.
  intros Hd Hp.
  assert (Dd : forall d, attribute = Dict d -> is_dict d).
  { intros d E. unfold is_dict. rewrite (Hd d E). apply seq_NoDup. }
  apply (step_entry_key _ p p); [now apply process_is_dict| |now apply C54_completed_lemma].
  destruct attribute as [a|d]; cbn [process_parameter fst].
  - unfold keys. rewrite map_map. cbn [fst]. rewrite map_id.
    rewrite (nth_error_nth' (seq 0 n) 0%nat) by (rewrite seq_length; lia). now rewrite seq_nth.
  - rewrite keys_fill, (missing_prefix d n (Hd d eq_refl)), (Hd d eq_refl).
    set (m := length d). destruct (Nat.ltb_spec p m).
    + rewrite nth_error_app1 by (rewrite seq_length; lia).
      rewrite (nth_error_nth' (seq 0 m) 0%nat) by (rewrite seq_length; lia). now rewrite seq_nth.
    + rewrite nth_error_app2 by (rewrite seq_length; lia). rewrite seq_length.
      rewrite (nth_error_nth' _ 0%nat) by (rewrite seq_length; lia). rewrite seq_nth by lia. f_equal. lia.
Qed.

(** * The equation *)
Lemma wrap_ok ncol z : index_ok ncol z -> wrap ncol z = Ok (column_of ncol z).
Proof.
  intros [H1 H2]. unfold wrap, column_of.
  destruct (Z.ltb_spec z 0).
  - destruct (Z.ltb_spec (z + Z.of_nat ncol) 0); [lia|]. f_equal. f_equal.
    rewrite <- (Z.mod_add z 1) by lia. rewrite Z.mod_small; lia.
  - destruct (Z.ltb_spec z (Z.of_nat ncol)); [|lia]. f_equal. f_equal. now rewrite Z.mod_small.
Qed.
Lemma wrap_bad ncol z : ~ index_ok ncol z -> wrap ncol z = Raise IndexError.
Proof.
  intros H. unfold wrap, index_ok in *.
  destruct (Z.ltb_spec z 0).
  - destruct (Z.ltb_spec (z + Z.of_nat ncol) 0); [reflexivity|lia].
  - destruct (Z.ltb_spec z (Z.of_nat ncol)); [lia|reflexivity].
Qed.
Lemma wrap_all_ok ncol l : Forall (index_ok ncol) l -> wrap_all ncol l = Ok (map (column_of ncol) l).
Proof.
  induction 1 as [|z l Hz Hl IH]; cbn; [reflexivity|]. rewrite wrap_ok, IH by auto. reflexivity.
Qed.
Lemma index_ok_dec ncol z : {index_ok ncol z} + {~ index_ok ncol z}.
Proof.
  unfold index_ok. destruct (Z_le_dec (- Z.of_nat ncol) z), (Z_lt_dec z (Z.of_nat ncol)); (left; lia) || (right; lia).
Qed.
Lemma wrap_all_bad ncol l : ~ Forall (index_ok ncol) l -> wrap_all ncol l = Raise IndexError.
Proof.
  induction l as [|z l IH]; intros H; [exfalso; auto|]. cbn.
  destruct (index_ok_dec ncol z) as [Hz|Hz].
  - rewrite wrap_ok by auto. cbn. rewrite IH; [reflexivity|]. intros C. apply H. auto.
  - rewrite wrap_bad by auto. reflexivity.
Qed.
Lemma mask_positions_filter l : forall k,
  mask_positions k l = filter (fun j => nth (j - k) l false) (seq k (length l)).
Proof.
  induction l as [|b l IH]; intros k; cbn [mask_positions length seq filter]; [reflexivity|].
  rewrite Nat.sub_diag. cbn [nth]. rewrite (IH (S k)).
  assert (E : filter (fun j => nth (j - S k) l false) (seq (S k) (length l))
            = filter (fun j => nth (j - k) (b :: l) false) (seq (S k) (length l))).
  { apply filter_ext_in. intros j Hj. apply in_seq in Hj.
    replace (j - k)%nat with (S (j - S k)) by lia. reflexivity. }
  rewrite E. destruct b; reflexivity.
Qed.
Lemma zmax_ge l : forall z b, (zmax z l < b)%Z -> (z < b)%Z /\ Forall (fun a => (a < b)%Z) l.
Proof.
  induction l as [|a l IH]; cbn; intros z b H; [auto|].
  destruct (IH _ _ H) as [H1 H2]. split; [lia|]. constructor; [lia|auto].
Qed.
Lemma zmax_lt l : forall z b, (z < b)%Z -> Forall (fun a => (a < b)%Z) l -> (zmax z l < b)%Z.
Proof.
  induction l as [|a l IH]; cbn; intros z b H F; [auto|].
  inversion F; subst. apply IH; [lia|auto].
Qed.
Lemma count_true_filter l : length (filter (fun b : bool => b) l)
  = length (filter (fun j => nth j l false) (seq 0 (length l))).
Proof.
  assert (E : forall k, length (mask_positions k l) = length (filter (fun b : bool => b) l)).
  { clear. induction l as [|b l IH]; intros k; cbn; [reflexivity|].
    destruct b; cbn; rewrite IH; reflexivity. }
  rewrite <- (E 0%nat), mask_positions_filter. f_equal. apply filter_ext_in.
  intros j _. now rewrite Nat.sub_0_r.
Qed.

Lemma columns_ok e ncol i : selects e i ncol -> e <> EqIntercept -> columns e ncol = Ok (selected e ncol).
Proof.
  intros H N. destruct e; cbn in *; try tauto; try congruence.
  - apply wrap_all_ok. tauto.
  - unfold mask. rewrite H, Nat.eqb_refl. rewrite mask_positions_filter, H. f_equal. apply filter_ext.
    intros j. now rewrite Nat.sub_0_r.
  - rewrite H. reflexivity.
  - apply wrap_all_ok. tauto.
  - unfold mask. rewrite H, Nat.eqb_refl. rewrite mask_positions_filter, H. f_equal. apply filter_ext.
    intros j. now rewrite Nat.sub_0_r.
Qed.
Lemma map_nth_row (x : vec) ks : map (fun j => x (nth j ks 0%nat)) (seq 0 (length ks)) = map x ks.
Proof.
  induction ks as [|k ks IH]; cbn; [reflexivity|]. f_equal. rewrite <- seq_shift, map_map. exact IH.
Qed.
Lemma model_array_ok e i ncol X : selects e i ncol ->
  exists rows, make_model_array e i ncol X = Ok (length (model_row e i ncol (fun _ => 0%R)), rows) /\
    map (row_of (length (model_row e i ncol (fun _ => 0%R)))) rows = map (model_row e i ncol) X.
Proof.
  intros H. destruct (match e with EqIntercept => true | _ => false end) eqn:Ei.
  - destruct e; try discriminate. cbn in H. subst i. cbn. eexists. split; [reflexivity|].
    rewrite map_map. reflexivity.
  - assert (N : e <> EqIntercept) by (intros ->; discriminate).
    assert (M : make_model_array e i ncol X =
      if i then Ok (S (length (selected e ncol)), map (fun x j => match j with O => 1%R | S i => x (nth i (selected e ncol) O) end) X)
      else Ok (length (selected e ncol), map (fun x j => x (nth j (selected e ncol) O)) X)).
    { unfold make_model_array. rewrite (columns_ok e ncol i H N). destruct e; try discriminate; reflexivity. }
    rewrite M. unfold model_row. destruct i; cbn [app length]; rewrite map_length; eexists; (split; [reflexivity|]);
      rewrite map_map; apply map_ext; intros x; unfold row_of.
    + cbn [seq map]. f_equal. rewrite <- seq_shift, map_map. apply map_nth_row.
    + apply map_nth_row.
Qed.
Lemma C56_model_lemma e i ncol X : selects e i ncol ->
  exists rows, make_model_array e i ncol X = Ok (length (model_row e i ncol (fun _ => 0%R)), rows) /\
    map (row_of (length (model_row e i ncol (fun _ => 0%R)))) rows = map (model_row e i ncol) X /\
    (is_list_of_bools e = false -> get_J e i ncol = Ok (length (model_row e i ncol (fun _ => 0%R)))).
Proof.
  intros H. destruct (model_array_ok e i ncol X H) as (rows & E & F). exists rows. split; [exact E|].
  split; [exact F|]. intros L. unfold model_row. rewrite app_length, map_length.
  destruct e; cbn in *; try discriminate; try contradiction.
  - rewrite seq_length. destruct i; cbn; f_equal; lia.
  - rewrite H. reflexivity.
  - destruct l as [|z l]; [tauto|]. destruct H as [_ H].
    assert (Z : (zmax z l < Z.of_nat ncol)%Z).
    { inversion H as [|? ? Hz Hl]; subst. apply zmax_lt; [apply Hz|].
      eapply Forall_impl; [|exact Hl]. intros a [_ Ha]. exact Ha. }
    destruct (Z.geb_spec (zmax z l) (Z.of_nat ncol)); [lia|]. cbn. rewrite map_length. destruct i; cbn; f_equal; lia.
  - rewrite H, Nat.eqb_refl. rewrite count_true_filter, H. destruct i; cbn; f_equal; lia.
  - subst l. destruct i; reflexivity.
  - rewrite map_length. destruct i; cbn; f_equal; lia.
Qed.
Lemma C56_agree_lemma e i ncol X J k rows :
  get_J e i ncol = Ok J -> make_model_array e i ncol X = Ok (k, rows) ->
  selects e i ncol /\ (J = k <-> forall l, e = EqListBool l -> Forall (fun b => b = true) l).
Proof.
  intros HJ HM.
  assert (S : selects e i ncol).
  { destruct e; cbn in *; try discriminate; auto.
    - destruct i; [reflexivity|discriminate].
    - destruct l as [|z l]; [discriminate|]. split; [discriminate|].
      destruct (Forall_dec (index_ok ncol) (index_ok_dec ncol) (z :: l)) as [F|F]; [exact F|].
      exfalso. pose proof (wrap_all_bad ncol _ F) as B. cbn in B. cbn in HM. rewrite B in HM. discriminate.
    - destruct (Nat.eqb_spec (length l) ncol); [assumption|discriminate].
    - destruct l; [reflexivity|discriminate].
    - destruct (Forall_dec (index_ok ncol) (index_ok_dec ncol) l) as [F|F]; [exact F|].
      exfalso. rewrite (wrap_all_bad ncol _ F) in HM. discriminate.
    - unfold mask in HM. destruct (Nat.eqb_spec (length l) ncol); [assumption|discriminate]. }
  split; [exact S|].
  destruct (C56_model_lemma e i ncol X S) as (rows' & E & _ & HJ').
  rewrite E in HM. injection HM as Hk _. subst k.
  destruct (is_list_of_bools e) eqn:L.
  - destruct e; try discriminate. cbn in HJ, S. injection HJ as HJ. subst J.
    unfold model_row. rewrite app_length, map_length. cbn [selected]. rewrite <- S, <- count_true_filter.
    assert (Q : forall l : list bool, (length (filter (fun b => b) l) <= length l)%nat /\
              (length (filter (fun b => b) l) = length l <-> Forall (fun b => b = true) l)).
    { clear. induction l as [|b l [IH1 IH2]]; [cbn; split; [lia|split; auto]|]. destruct b; cbn.
      - split; [lia|]. split; intros H.
        + constructor; [reflexivity|]. apply IH2. lia.
        + inversion H; subst. f_equal. now apply IH2.
      - split; [lia|]. split; intros H; [lia|]. inversion H; discriminate. }
    specialize (Q l). destruct Q as [Q1 Q2]. split.
    + intros H l' El. injection El as <-. apply Q2. destruct i; cbn in *; lia.
    + intros H. specialize (H l eq_refl). apply Q2 in H. destruct i; cbn in *; lia.
  - rewrite (HJ' eq_refl) in HJ. injection HJ as <-. split; [|reflexivity].
    intros _ l ->. discriminate.
Qed.
Lemma C56_rejected_lemma e i ncol X : ~ selects e i ncol ->
  (exists x, get_J e i ncol = Raise x) \/ (exists x, make_model_array e i ncol X = Raise x).
Proof.
  intros H. destruct (get_J e i ncol) as [J|x] eqn:EJ; [|left; eauto].
  destruct (make_model_array e i ncol X) as [[k rows]|x] eqn:EM; [|right; eauto].
  exfalso. apply H. eapply C56_agree_lemma; eauto.
Qed.

(** * [_process_equation] *)
Lemma process_entries_ok frames ps : forall d, NoDup ps ->
  if forallb (fun p => eqn_ok frames (wanted (Dict d) EqIntercept p)) ps
  then process_entries frames ps d = Ok (fold_left (fill_step EqIntercept) ps d)
  else process_entries frames ps d = Raise ValueError.
Proof.
  induction ps as [|p ps IH]; intros d N; cbn [forallb process_entries fold_left]; [reflexivity|].
  inversion N as [|? ? Hp N']; subst.
  assert (L : lookup (fill_step EqIntercept d p) p = Some (wanted (Dict d) EqIntercept p)).
  { unfold fill_step. cbn. destruct (lookup d p) eqn:E; [exact E|].
    rewrite assign_new by auto. rewrite lookup_app, E. cbn. now rewrite Nat.eqb_refl. }
  rewrite L. destruct (eqn_ok frames (wanted (Dict d) EqIntercept p)); cbn [andb]; [|reflexivity].
  assert (W : forall q, In q ps -> wanted (Dict (fill_step EqIntercept d p)) EqIntercept q = wanted (Dict d) EqIntercept q).
  { intros q Hq. cbn. unfold fill_step. destruct (lookup d p) eqn:E; [reflexivity|].
    rewrite assign_new by auto. rewrite lookup_app. destruct (lookup d q); [reflexivity|]. cbn.
    destruct (Nat.eqb_spec p q); [subst; contradiction|reflexivity]. }
  specialize (IH (fill_step EqIntercept d p) N').
  assert (F : forallb (fun q => eqn_ok frames (wanted (Dict (fill_step EqIntercept d p)) EqIntercept q)) ps
            = forallb (fun q => eqn_ok frames (wanted (Dict d) EqIntercept q)) ps).
  { clear - W. induction ps as [|q ps IH]; [reflexivity|]. cbn [forallb]. rewrite W by (cbn; auto).
    f_equal. apply IH. intros. apply W. cbn. auto. }
  rewrite F in IH. exact IH.
Qed.
Lemma C54_equation_lemma frames n equation :
  (equation = None -> exists d, process_equation frames n equation = Ok d /\
     forall p, (p < n)%nat -> lookup d p = Some (if Nat.eqb p 0 then EqAll else EqIntercept)) /\
  (forall u, equation = Some u -> (forall p, (p < n)%nat -> eqn_ok frames (wanted (Dict u) EqIntercept p) = true) ->
     exists d, process_equation frames n equation = Ok d /\
       (forall p, (p < n)%nat -> lookup d p = Some (wanted (Dict u) EqIntercept p)) /\
       (forall k v, lookup u k = Some v -> lookup d k = Some v)) /\
  (forall u p, equation = Some u -> (p < n)%nat -> eqn_ok frames (wanted (Dict u) EqIntercept p) = false ->
     process_equation frames n equation = Raise ValueError).
Proof.
  split; [|split].
  - intros ->. cbn. eexists. split; [reflexivity|]. intros p Hp.
    assert (E : forall ps, In p ps -> lookup (map (fun p => (p, match p with O => EqAll | _ => EqIntercept end)) ps) p
              = Some (if Nat.eqb p 0 then EqAll else EqIntercept)).
    { induction ps as [|q ps IH]; cbn; [tauto|]. intros H. destruct (Nat.eqb_spec q p) as [->|C].
      - destruct p; reflexivity.
      - apply IH. tauto. }
    apply E, in_seq. lia.
  - intros u -> H. unfold process_equation.
    pose proof (process_entries_ok frames (seq 0 n) u (seq_NoDup n 0)) as P.
    assert (F : forallb (fun p => eqn_ok frames (wanted (Dict u) EqIntercept p)) (seq 0 n) = true).
    { apply forallb_forall. intros p Hp. apply in_seq in Hp. apply H. lia. }
    rewrite F in P. rewrite P. eexists. split; [reflexivity|]. split.
    + intros p Hp. exact (C54_completed_lemma n (Dict u) EqIntercept p Hp).
    + intros k v Hk. exact (C54_kept_lemma n u EqIntercept k v Hk).
  - intros u p -> Hp Hb. unfold process_equation.
    pose proof (process_entries_ok frames (seq 0 n) u (seq_NoDup n 0)) as P.
    destruct (forallb _ _) eqn:F; [|exact P].
    rewrite forallb_forall in F. rewrite (F p) in Hb by (apply in_seq; lia). discriminate.
Qed.
