(** Lemmas for C132. *)
From Coq Require Import Reals List Bool Arith Lra Lia Permutation FunctionalExtensionality.
From Verif Require Import Base Lin Data M_Gram S_Gram L_Gram M_CD L_CD L_CD2 L_CD4 M_Path M_Ridge
  M_Scaler M_Utils S_Utils M_State M_LM S_LM L_LM L_LM2 L_LM3 L_LM4 L_Learn L_Learn2 S_Penal L_Penal S_RidgeLM L_Windup.
Import ListNotations.
Open Scope R_scope.

(** * A coordinate that is decoupled from the others is exact after coordinate descent *)
Section Decoupled.
Variables (a : cd_args) (k : nat).
Hypothesis Hk : (k < cd_J a)%nat.
Hypothesis Hd : forall j, (j < cd_J a)%nat -> j <> k -> cd_x a k j = 0.

Lemma decoupled_partial b : cd_partial a b k = cd_y a k.
Proof.
  unfold cd_partial. rewrite (bsum_ext (cd_J a) _ (fun j => if Nat.eqb j k then cd_x a k j * b j else 0)).
  - rewrite (bsum_delta (cd_J a) k (fun j => cd_x a k j * b j) Hk). ring.
  - intros j Hj. destruct (Nat.eqb_spec j k) as [->|N]; [reflexivity|]. rewrite Hd by assumption. ring.
Qed.

Lemma decoupled_coord b b' : cd_coord a b k = cd_coord a b' k.
Proof. unfold cd_coord, cd_num. rewrite !decoupled_partial. reflexivity. Qed.

Lemma decoupled_visit v0 first b j b' : cd_coord a v0 k = Ok (b k) -> cd_visit a first b j = Ok b' -> b' k = b k.
Proof.
  unfold cd_visit. intros HV. destruct (first || negb (Reqb (b j) 0)); [|intros E; injection E as <-; reflexivity].
  destruct (cd_coord a b j) as [v|] eqn:E; cbn [bind]; [|discriminate]. intros Q. injection Q as <-.
  unfold vset. destruct (Nat.eqb_spec k j) as [<-|]; [|reflexivity].
  rewrite (decoupled_coord b v0), HV in E. injection E as <-. reflexivity.
Qed.

Lemma decoupled_keeps v0 first JJ : forall b b', cd_coord a v0 k = Ok (b k) -> cd_sweep a first JJ b = Ok b' -> b' k = b k.
Proof.
  induction JJ as [|j JJ IH]; cbn [cd_sweep]; intros b b' HV H; [injection H as <-; reflexivity|].
  destruct (cd_visit a first b j) as [b1|] eqn:E; cbn [bind] in H; [|discriminate].
  pose proof (decoupled_visit v0 first b j b1 HV E) as E1. rewrite <- E1. apply IH; [rewrite E1; exact HV|exact H].
Qed.

Lemma decoupled_first JJ : forall b b', In k JJ -> cd_sweep a true JJ b = Ok b' -> cd_coord a b k = Ok (b' k).
Proof.
  induction JJ as [|j JJ IH]; cbn [cd_sweep In]; intros b b' HI H; [contradiction|].
  destruct (cd_visit a true b j) as [b1|] eqn:E; cbn [bind] in H; [|discriminate].
  destruct (Nat.eq_dec j k) as [->|N].
  - unfold cd_visit in E. cbn [orb] in E. destruct (cd_coord a b k) as [v|] eqn:C; cbn [bind] in E; [|discriminate].
    injection E as <-. assert (K : vset b k v k = v) by (unfold vset; now rewrite Nat.eqb_refl).
    rewrite (decoupled_keeps b true JJ (vset b k v) b'); [now rewrite K|now rewrite K|exact H].
  - destruct HI as [HI|HI]; [contradiction|]. rewrite (decoupled_coord b b1). exact (IH b1 b' HI H).
Qed.

Lemma decoupled_loop random perm tol maxit : forall fuel i b b' n v0, cd_coord a v0 k = Ok (b k) ->
  cd_loop fuel a random perm tol maxit i b = Ok (b', n) -> cd_coord a v0 k = Ok (b' k).
Proof.
  induction fuel as [|fuel IH]; cbn [cd_loop]; intros i b b' n v0 HV H; [discriminate|].
  destruct (cd_sweep a _ _ b) as [b1|] eqn:E; cbn [bind] in H; [|discriminate].
  pose proof (decoupled_keeps v0 _ _ _ _ HV E) as E1. rewrite <- E1 in HV.
  destruct (Rleb _ _); [injection H as <- <-; exact HV|].
  destruct (maxit <? S i)%nat; [injection H as <- <-; exact HV|]. exact (IH _ _ _ _ _ HV H).
Qed.

Lemma decoupled_exact random perm tol maxit b b' n :
  online_coordinate_descent a random perm tol maxit b = Ok (b', n) -> cd_coord a b k = Ok (b' k).
Proof.
  unfold online_coordinate_descent. cbn [cd_loop]. intros H.
  destruct (cd_sweep a _ _ b) as [b1|] eqn:E; cbn [bind] in H; [|discriminate].
  assert (HV : cd_coord a b k = Ok (b1 k)).
  { apply (decoupled_first (cd_order a random perm 1)); [|exact E].
    unfold cd_order. rewrite andb_false_r. apply in_seq. lia. }
  destruct (Rleb _ _); [injection H as <- <-; exact HV|].
  destruct (maxit <? 1)%nat; [injection H as <- <-; exact HV|]. exact (decoupled_loop _ _ _ _ _ _ _ _ _ _ HV H).
Qed.
End Decoupled.

Lemma C132_coordinate_lemma J x y reg isreg alpha lo up random perm tol maxit b b' n k : (k < J)%nat ->
  (forall j, (j < J)%nat -> j <> k -> x k j = 0) ->
  online_coordinate_descent (mk_cd J x y reg isreg alpha lo up) random perm tol maxit b = Ok (b', n) ->
  let v := if isreg k then soft_threshold (y k) (alpha * reg) / (x k k + reg * (1 - alpha)) else y k / x k k in
  b' k = min_up (max_lo v (lo k)) (up k).
Proof.
  intros Hk Hd E. apply (decoupled_exact (mk_cd J x y reg isreg alpha lo up) k Hk Hd) in E. unfold cd_coord, cd_num, cd_den in E.
  rewrite (decoupled_partial (mk_cd J x y reg isreg alpha lo up) k Hk Hd) in E. cbn [cd_isreg cd_alpha cd_reg cd_x cd_y cd_lo cd_up] in E.
  destruct (Reqb _ 0); [discriminate|]. injection E as <-. destruct (isreg k); reflexivity.
Qed.

(** * Histories of online ridge regression *)
Lemma design_plain {M} (c : lm_cfg M) sc l : sc_do sc = false -> design_rows c sc l = map (regressors (c_icpt c)) l.
Proof.
  intros D. unfold design_rows. apply map_ext. intros [x y w]. unfold scaler_transform. rewrite D. unfold design, regressors.
  cbn [ox oy ow]. destruct (c_icpt c); reflexivity.
Qed.

Section History.
Variables (inv : nat -> mat -> option mat) (perms : nat -> nat -> list nat) (c : lm_cfg (ridge_cfg * nat)) (m : ridge_cfg).
Hypothesis HC : ridge_config c m.
Notation ops := (ridge_ops inv perms).
Notation f := (c_forget c).

Definition ridge_problem (cols : nat) (lam : R) (l : list obs) : cd_args :=
  mk_cd cols (gram_spec f l) (ygram_spec f l) lam (is_regularized c) 0 (fun _ => None) (fun _ => None).

(** The object after calls with the regression rows [l]. *)
Record ridge_rel (p : nat) (lam : R) (l : list obs) (beta : vec) (s : lm (ridge_cfg * nat)) : Prop := mk_rrel {
  rr_method : exists k, a_method s = Some (ridge_object m lam (n_cols (c_icpt c) p), k);
  rr_scaler : exists sc, a_scaler s = Some (Some sc) /\ sc_do sc = false;
  rr_nfin : a_nfin s = Some p;
  rr_nobs : exists n, a_nobs s = Some n;
  rr_isreg : a_isreg s = Some (is_regularized c);
  rr_x : a_x s = Some (gram_spec f l);
  rr_y : a_y s = Some (ygram_spec f l);
  rr_coef : a_coef s = Some beta;
  rr_weights : weights_nonneg l;
  rr_intercept : c_icpt c = true -> 0 < gram_spec f l 0%nat 0%nat;
  rr_run : exists random perm tol maxit st n,
    online_coordinate_descent (ridge_problem (n_cols (c_icpt c) p) lam l) random perm tol maxit st = Ok (beta, n)
}.

Lemma gram_diag_nonneg l j : weights_nonneg l -> 0 <= gram_spec f l j j.
Proof.
  intros W. destruct HC as (_ & _ & _ & Hf & _). unfold gram_spec. apply dsum_nonneg; [lra|]. intros o Ho.
  unfold weights_nonneg in W. rewrite Forall_forall in W. pose proof (W o Ho). rewrite Rmult_assoc.
  apply Rmult_le_pos; [assumption|]. nra.
Qed.

Lemma ridge_solves cols lam l random perm tol maxit st : 0 < lam -> weights_nonneg l ->
  (c_icpt c = true -> 0 < gram_spec f l 0%nat 0%nat) -> (forall i, Permutation (perm i) (seq 0 cols)) ->
  exists b n, online_coordinate_descent (ridge_problem cols lam l) random perm tol maxit st = Ok (b, n).
Proof.
  intros Hl W HI HP. apply C22_total_lemma; [exact HP|lra|lra|].
  intros j Hj. destruct (gram_diag_nonneg l j W) as [P|P]; [left; exact P|].
  destruct (is_regularized c j) eqn:E.
  - right. repeat split; try lra; auto.
  - left. unfold is_regularized in E. destruct (c_icpt c) eqn:I; [|discriminate]. destruct j; [auto|discriminate].
Qed.

Lemma ridge_lm_fit b0 : first_call c m b0 -> orders perms (n_cols (c_icpt c) (b_p b0)) -> weights_nonneg (b_rows b0) ->
  exists s beta, partial_fit ops c b0 new_lm = (s, Ok tt) /\
    ridge_rel (b_p b0) (penalty_of c m b0) (map (regressors (c_icpt c)) (b_rows b0)) beta s.
Proof.
  intros (L1 & L2 & T0 & T1 & HP) HO W. destruct HC as ((k & Cm) & Cn & Cs & Hf & Cr & Lo & Up).
  set (sc := mk_scaler f false [] (fun _ => 0) (fun _ => 0) (fun _ => 0) 0 (lsum (ws (b_rows b0)))).
  assert (Hs : scaler_fit f (c_scale c) (b_p b0) (b_rows b0) = Ok sc).
  { unfold scaler_fit. rewrite Cs. cbn [selection].
    destruct (Nat.ltb_spec (length (b_rows b0)) 2); [lia|]. reflexivity. }
  set (l := map (regressors (c_icpt c)) (b_rows b0)).
  assert (Wl : weights_nonneg l) by (apply regressors_nonneg, W).
  assert (EX : init_gram (Xs l) (ws l) f = gram_spec f l).
  { extensionality i. extensionality j. apply init_gram_spec; auto; lra. }
  assert (EY : init_y_gram (Xs l) (ys l) (ws l) f = ygram_spec f l).
  { extensionality i. apply init_y_gram_spec; auto; lra. }
  set (cols := n_cols (c_icpt c) (b_p b0)).
  destruct (lm_fit_intro ops c b0 new_lm (m, k) sc (gram_spec f l)) as [_ I]; auto; try lia.
  { rewrite Cn. apply andb_false_r. }
  { cbv zeta. rewrite design_plain by reflexivity. fold l. cbn [ridge_ops op_init_x]. now rewrite EX. }
  cbv zeta in I. rewrite design_plain in I by reflexivity. fold l cols in I. rewrite EY in I.
  assert (IG : c_icpt c = true -> 0 < gram_spec f l 0%nat 0%nat).
  { intros E. unfold gram_spec, l. rewrite dsum_map, E. cbn [regressors ox ow].
    rewrite (dsum_ext _ _ (fun o => ow o)) by (intros; ring).
    clear - T0 W Hf. unfold total_weight in T0. induction (b_rows b0) as [|a r IH]; [cbn in T0; lra|]. cbn [dsum].
    inversion W as [|? ? Wa Wr]; subst. assert (0 < (1 - f) ^ length r) by (apply pow_lt; lra).
    assert (N : 0 <= dsum (1 - f) (fun o => ow o) r).
    { apply dsum_nonneg; [lra|]. intros o Ho. unfold weights_nonneg in Wr. rewrite Forall_forall in Wr. auto. }
    destruct Wa as [Wa|Wa].
    - assert (0 < (1 - f) ^ length r * ow a) by (apply Rmult_lt_0_compat; assumption). lra.
    - assert (K : 0 < dsum (1 - f) (fun o => ow o) r); [apply IH; [|exact Wr]|rewrite <- Wa; lra].
      change (0 < ow a + lsum (ws r)) in T0. lra. }
  assert (EL : ridge_lambda m cols (gram_spec f l) = penalty_of c m b0).
  { unfold ridge_lambda, penalty_of, ridge_penalty. fold cols l. destruct (ri_lambda m); reflexivity. }
  set (st := ridge_start inv (mk_ridge (ri_lambda m) (ri_start m) (ri_random m) (Some (repeat None cols)) (Some (repeat None cols)) (ri_tol m) (ri_maxit m))
     cols (gram_spec f l) (ygram_spec f l)).
  destruct (ridge_solves cols (penalty_of c m b0) l (ri_random m) (perms k) (ri_tol m) (ri_maxit m) st HP Wl IG (HO k)) as (b & n & E).
  assert (F : op_fit_beta ops (m, k) cols (gram_spec f l) (ygram_spec f l) (is_regularized c)
    = Ok ((ridge_object m (penalty_of c m b0) cols, S k), b)).
  { cbn [op_fit_beta ridge_ops fst snd]. unfold ridge_fit, ridge_bounds. rewrite Lo, Up. cbn [fill_bound].
    rewrite !repeat_length, Nat.eqb_refl. cbn [negb bind]. fold st.
    unfold ridge_lambda at 1. cbn [ri_lambda]. fold (ridge_lambda m cols (gram_spec f l)).
    match goal with |- context [ridge_args ?q _ _ _ _ _] => replace q with (ridge_object m (penalty_of c m b0) cols)
      by (unfold ridge_object; rewrite Lo, Up; cbn [fill_bound]; rewrite <- EL; reflexivity) end.
    unfold ridge_lambda. cbn [ri_lambda ri_start ri_random ri_tol ri_maxit].
    fold (ridge_lambda m cols (gram_spec f l)). rewrite EL, ridge_args_object, Lo, Up. cbn [bound_fun].
    fold (ridge_problem cols (penalty_of c m b0) l). unfold ridge_object. cbn [ri_random ri_tol ri_maxit].
    rewrite E, Lo, Up. reflexivity. }
  specialize (I _ _ eq_refl F). eexists _, b. split; [exact I|].
  split; cbn [a_method a_scaler a_nfin a_nobs a_isreg a_x a_y a_coef]; eauto.
  do 6 eexists. exact E.
Qed.

Lemma ridge_lm_update p lam l beta s b : ridge_rel p lam l beta s -> 0 < lam -> (1 <= p)%nat -> orders perms (n_cols (c_icpt c) p) ->
  weights_nonneg (b_rows b) -> b_rows b <> [] -> b_p b = p ->
  exists s' beta', partial_fit ops c b s = (s', Ok tt) /\ ridge_rel p lam (l ++ map (regressors (c_icpt c)) (b_rows b)) beta' s'.
Proof.
  intros [(k & r1) (sc & r2 & D) r3 (n & r4) r5 r6 r7 r8 r9 r10 _] Hl Hp HO W Nb Ep.
  pose proof HC as ((k0 & Cm) & Cn & Cs & Hf & Cr & Lo & Up).
  set (sc' := mk_scaler (sc_forget sc) (sc_do sc) (sc_sel sc) (sc_mean sc) (sc_var sc) (sc_M sc)
                 (sc_cum sc) (sc_n sc + lsum (ws (b_rows b)))).
  assert (L : (1 <= length (b_rows b))%nat) by (destruct (b_rows b); [congruence|cbn; lia]).
  assert (Hs : scaler_update sc (b_rows b) = Ok sc').
  { unfold scaler_update. destruct (Nat.ltb_spec (length (b_rows b)) 1); [lia|]. rewrite D. cbn.
    unfold sc'. rewrite D. reflexivity. }
  assert (D' : sc_do sc' = false) by exact D.
  set (lb := map (regressors (c_icpt c)) (b_rows b)).
  assert (Wl : weights_nonneg lb) by (apply regressors_nonneg, W).
  assert (EX : update_gram (gram_spec f l) (Xs lb) f (ws lb) = gram_spec f (l ++ lb)).
  { extensionality i. extensionality j. apply update_gram_spec; auto; lra. }
  assert (EY : update_y_gram (ygram_spec f l) (Xs lb) (ys lb) f (ws lb) = ygram_spec f (l ++ lb)).
  { extensionality i. apply update_y_gram_spec; auto; lra. }
  assert (WL : weights_nonneg (l ++ lb)) by (apply Forall_app; split; assumption).
  assert (IG : c_icpt c = true -> 0 < gram_spec f (l ++ lb) 0%nat 0%nat).
  { intros E. unfold gram_spec. rewrite dsum_app. pose proof (gram_diag_nonneg lb 0 Wl) as G1. unfold gram_spec in G1.
    pose proof (r10 E) as G2. unfold gram_spec in G2.
    assert (0 < (1 - f) ^ length lb) by (apply pow_lt; lra).
    pose proof (Rmult_lt_0_compat _ _ H G2). lra. }
  set (cols := n_cols (c_icpt c) p) in *.
  destruct (ridge_solves cols lam (l ++ lb) (ri_random m) (perms k) (ri_tol m) (ri_maxit m) beta Hl WL IG (HO k)) as (b' & it & E).
  destruct (lm_update_intro ops c b s n sc sc' (ridge_object m lam cols, k) (gram_spec f l) (ygram_spec f l) (gram_spec f (l ++ lb)) (is_regularized c)) as [_ I]; auto; try lia.
  - rewrite r3, Ep. reflexivity.
  - rewrite D. reflexivity.
  - cbv zeta. rewrite design_plain by exact D'. fold lb. cbn [ridge_ops op_update_x]. now rewrite EX.
  - cbv zeta in I. rewrite design_plain in I by exact D'. fold lb in I. rewrite EY, Ep in I. fold cols in I.
    assert (F : op_update_beta ops (ridge_object m lam cols, k) cols (gram_spec f (l ++ lb)) (ygram_spec f (l ++ lb)) beta (is_regularized c)
      = Ok ((ridge_object m lam cols, S k), b')).
    { cbn [op_update_beta ridge_ops fst snd]. unfold ridge_update. cbn [ri_lambda ridge_object]. fold (ridge_object m lam cols).
      rewrite ridge_args_object, Lo, Up. cbn [bound_fun ridge_object ri_random ri_tol ri_maxit].
      fold (ridge_problem cols lam (l ++ lb)). rewrite E. reflexivity. }
    specialize (I _ _ _ eq_refl r8 F). eexists _, b'. split.
    { unfold partial_fit. unfold is_fitted. rewrite r4. exact I. }
    split; cbn [a_method a_scaler a_nfin a_nobs a_isreg a_x a_y a_coef]; eauto.
    do 6 eexists. exact E.
Qed.

Lemma ridge_lm_more p lam : forall bs l beta s, ridge_rel p lam l beta s -> 0 < lam -> (1 <= p)%nat -> orders perms (n_cols (c_icpt c) p) ->
  good_calls p bs ->
  exists s' beta', lm_history ops c bs s = Ok s' /\ ridge_rel p lam (l ++ map (regressors (c_icpt c)) (stream bs)) beta' s'.
Proof.
  induction bs as [|b bs IH]; intros l beta s R Hl Hp HO HG.
  - exists s, beta. cbn [lm_history stream map concat]. rewrite app_nil_r. split; [reflexivity|exact R].
  - inversion HG as [|? ? (G1 & G2 & G3) HG']; subst.
    destruct (ridge_lm_update _ lam l beta s b R Hl Hp HO G1 G2 eq_refl) as (s1 & b1 & E1 & R1).
    destruct (IH _ _ _ R1 Hl Hp HO HG') as (s2 & b2 & E2 & R2).
    exists s2, b2. cbn [lm_history]. rewrite E1. split; [exact E2|].
    change (stream (b :: bs)) with (b_rows b ++ stream bs). rewrite map_app, app_assoc. exact R2.
Qed.

Lemma ridge_history b0 bs : first_call c m b0 -> orders perms (n_cols (c_icpt c) (b_p b0)) -> good_calls (b_p b0) (b0 :: bs) ->
  exists s beta, lm_history ops c (b0 :: bs) new_lm = Ok s /\
    ridge_rel (b_p b0) (penalty_of c m b0) (map (regressors (c_icpt c)) (stream (b0 :: bs))) beta s.
Proof.
  intros HF HO HG. inversion HG as [|? ? (G1 & _ & _) HG']; subst.
  destruct (ridge_lm_fit b0 HF HO G1) as (s1 & b1 & E1 & R1). destruct HF as (_ & Hp & _ & _ & Hl).
  destruct (ridge_lm_more _ _ bs _ _ _ R1 Hl Hp HO HG') as (s2 & b2 & E2 & R2).
  exists s2, b2. cbn [lm_history]. rewrite E1. split; [exact E2|].
  change (stream (b0 :: bs)) with (b_rows b0 ++ stream bs). rewrite map_app. exact R2.
Qed.
End History.

(** * Categories *)
Lemma ridge_column c m p lam l beta s k : ridge_config c m -> c_icpt c = false -> 0 < lam -> (k < p)%nat -> disjoint_column p k l ->
  ridge_rel c m p lam (map (regressors (c_icpt c)) l) beta s ->
  beta k * (column_weight (c_forget c) k l + lam) = column_response (c_forget c) k l /\ 0 <= column_weight (c_forget c) k l.
Proof.
  intros HC Hi Hl Hk HD R. rewrite Hi in R.
  assert (RR : map (regressors false) l = l).
  { rewrite <- (map_id l) at 2. apply map_ext. intros [x y w]. reflexivity. }
  rewrite RR in R. destruct R as [_ _ _ _ _ _ _ _ W _ (random & perm & tol & maxit & st & n & E)].
  assert (N : n_cols (c_icpt c) p = p) by (rewrite Hi; unfold n_cols; lia). rewrite N in E.
  assert (P : 0 <= gram_spec (c_forget c) l k k) by (apply (gram_diag_nonneg c m HC); exact W).
  assert (EW : gram_spec (c_forget c) l k k = column_weight (c_forget c) k l).
  { unfold gram_spec, column_weight. apply dsum_ext. intros; ring. }
  apply (decoupled_exact _ k) in E.
  - unfold cd_coord in E. unfold cd_den, cd_num in E. rewrite decoupled_partial in E.
    + cbn [ridge_problem cd_isreg cd_alpha cd_reg cd_x cd_y cd_lo cd_up max_lo min_up] in E.
      assert (G : is_regularized c k = true) by (unfold is_regularized; now rewrite Hi). rewrite G in E.
      rewrite Rmult_0_l, st_0 in E. destruct (Reqb _ 0) eqn:Z; [discriminate|]. injection E as <-.
      rewrite Rminus_0_r, Rmult_1_r, EW. split; [|rewrite <- EW; exact P].
      replace (ygram_spec (c_forget c) l k) with (column_response (c_forget c) k l).
      * field. rewrite <- EW. lra.
      * reflexivity.
    + exact Hk.
    + clear E. intros j Hj Nj. cbn [ridge_problem cd_x cd_J] in *. unfold gram_spec. rewrite (dsum_ext _ _ (fun _ => 0)); [apply dsum_zero|].
      intros o Ho. unfold disjoint_column in HD. rewrite Forall_forall in HD. rewrite Rmult_assoc, (HD o Ho j Hj Nj). ring.
  - exact Hk.
  - intros j Hj Nj. cbn [ridge_problem cd_x cd_J] in *. unfold gram_spec. rewrite (dsum_ext _ _ (fun _ => 0)); [apply dsum_zero|].
    intros o Ho. unfold disjoint_column in HD. rewrite Forall_forall in HD. rewrite Rmult_assoc, (HD o Ho j Hj Nj). ring.
Qed.

Lemma C132_total_lemma inv perms c m b0 bs : ridge_config c m -> first_call c m b0 -> orders perms (n_cols (c_icpt c) (b_p b0)) ->
  good_calls (b_p b0) (b0 :: bs) -> exists s, lm_history (ridge_ops inv perms) c (b0 :: bs) new_lm = Ok s.
Proof. intros HC HF HO HG. destruct (ridge_history inv perms c m HC b0 bs HF HO HG) as (s & beta & E & _). eauto. Qed.

Lemma C132_category_lemma inv perms c m b0 bs k : ridge_config c m -> first_call c m b0 -> c_icpt c = false -> orders perms (b_p b0) ->
  good_calls (b_p b0) (b0 :: bs) -> (k < b_p b0)%nat -> disjoint_column (b_p b0) k (stream (b0 :: bs)) ->
  exists s beta, lm_history (ridge_ops inv perms) c (b0 :: bs) new_lm = Ok s /\ a_coef s = Some beta /\
    beta k = column_response (c_forget c) k (stream (b0 :: bs)) / (column_weight (c_forget c) k (stream (b0 :: bs)) + penalty_of c m b0).
Proof.
  intros HC HF Hi HO HG Hk HD.
  assert (N : n_cols (c_icpt c) (b_p b0) = b_p b0) by (rewrite Hi; unfold n_cols; lia).
  destruct (ridge_history inv perms c m HC b0 bs HF ltac:(rewrite N; exact HO) HG) as (s & beta & E & R).
  destruct HF as (_ & _ & _ & _ & Hl).
  exists s, beta. split; [exact E|]. split; [apply R|].
  destruct (ridge_column _ _ _ _ _ _ _ k HC Hi Hl Hk HD R) as (Q & P). rewrite <- Q. field. lra.
Qed.

Lemma column_app f k l q : Forall (fun o => ox o k = 0) q ->
  column_weight f k (l ++ q) = (1 - f) ^ length q * column_weight f k l /\
  column_response f k (l ++ q) = (1 - f) ^ length q * column_response f k l.
Proof.
  intros HQ. rewrite Forall_forall in HQ. unfold column_weight, column_response. rewrite !dsum_app.
  rewrite (dsum_ext _ (fun o => ow o * ox o k ^ 2) (fun _ => 0) q) by (intros a Ha; rewrite (HQ a Ha); ring).
  rewrite (dsum_ext _ (fun o => ow o * ox o k * oy o) (fun _ => 0) q) by (intros a Ha; rewrite (HQ a Ha); ring).
  rewrite dsum_zero. split; ring.
Qed.

Lemma disjoint_app p k l q : disjoint_column p k l -> Forall (fun o => ox o k = 0) q -> disjoint_column p k (l ++ q).
Proof.
  intros H HQ. apply Forall_app. split; [exact H|]. eapply Forall_impl; [|exact HQ]. intros a Ha j _ _. cbn beta in Ha. rewrite Ha. ring.
Qed.

Lemma C132_absence_lemma inv perms c m b0 bs qs k : ridge_config c m -> first_call c m b0 -> c_icpt c = false -> orders perms (b_p b0) ->
  good_calls (b_p b0) (b0 :: bs ++ qs) -> (k < b_p b0)%nat -> disjoint_column (b_p b0) k (stream (b0 :: bs)) ->
  Forall (fun o => ox o k = 0) (stream qs) ->
  exists s s' beta beta', lm_history (ridge_ops inv perms) c (b0 :: bs) new_lm = Ok s /\ lm_history (ridge_ops inv perms) c qs s = Ok s' /\
    a_coef s = Some beta /\ a_coef s' = Some beta' /\
    let g := (1 - c_forget c) ^ length (stream qs) in
    let D := column_weight (c_forget c) k (stream (b0 :: bs)) in
    let lam := penalty_of c m b0 in
    beta' k = beta k * (g * (D + lam) / (g * D + lam)) /\ Rabs (beta' k) <= Rabs (beta k) /\
    Rabs (beta' k) <= g * ((D + lam) / lam) * Rabs (beta k).
Proof.
  intros HC HF Hi HO HG Hk HD HQ.
  assert (N : n_cols (c_icpt c) (b_p b0) = b_p b0) by (rewrite Hi; unfold n_cols; lia).
  assert (HO' : orders perms (n_cols (c_icpt c) (b_p b0))) by (rewrite N; exact HO).
  change (b0 :: bs ++ qs) with ((b0 :: bs) ++ qs) in HG. apply good_calls_app in HG. destruct HG as [G1 G2].
  destruct (ridge_history inv perms c m HC b0 bs HF HO' G1) as (s & beta & E & R).
  destruct HF as (_ & Hp & _ & _ & Hl).
  destruct (ridge_lm_more inv perms c m HC _ _ qs _ _ _ R Hl Hp HO' G2) as (s' & beta' & E' & R').
  exists s, s', beta, beta'. split; [exact E|]. split; [exact E'|]. split; [apply R|]. split; [apply R'|].
  cbv zeta. set (lam := penalty_of c m b0) in *.
  destruct (ridge_column _ _ _ _ _ _ _ k HC Hi Hl Hk HD R) as (Q & P).
  rewrite <- map_app in R'.
  destruct (ridge_column _ _ _ _ _ _ _ k HC Hi Hl Hk (disjoint_app _ _ _ _ HD HQ) R') as (Q' & P').
  destruct (column_app (c_forget c) k (stream (b0 :: bs)) (stream qs) HQ) as (W1 & W2). rewrite W1, W2 in *.
  destruct HC as (_ & _ & _ & Hf & _).
  set (g := (1 - c_forget c) ^ length (stream qs)) in *. set (D := column_weight (c_forget c) k (stream (b0 :: bs))) in *.
  assert (Hg : 0 < g) by (apply pow_lt; lra). assert (Hg1 : g <= 1) by (apply (L_Learn2.pow_le1 (1 - c_forget c) (length (stream qs))); lra).
  rewrite <- Q in Q'. clearbody g D lam. set (x := beta k) in *. set (x' := beta' k) in *. clearbody x x'.
  assert (V : x' = x * (g * (D + lam) / (g * D + lam))).
  { apply (Rmult_eq_reg_r (g * D + lam)); [|nra]. rewrite Q'. field. nra. }
  assert (PD : 0 < g * D + lam) by nra.
  assert (B : 0 <= g * (D + lam) / (g * D + lam)).
  { apply Rmult_le_pos; [nra|]. left. now apply Rinv_0_lt_compat. }
  split; [exact V|]. rewrite V, Rabs_mult, (Rabs_right (g * (D + lam) / (g * D + lam))) by lra. split.
  - rewrite <- (Rmult_1_r (Rabs x)) at 2. apply Rmult_le_compat_l; [apply Rabs_pos|].
    apply (Rmult_le_reg_r (g * D + lam)); [exact PD|]. unfold Rdiv. rewrite Rmult_assoc, Rinv_l by lra. nra.
  - rewrite (Rmult_comm _ (Rabs x)). apply Rmult_le_compat_l; [apply Rabs_pos|].
    unfold Rdiv. rewrite Rmult_assoc. apply Rmult_le_compat_l; [lra|]. apply Rmult_le_compat_l; [nra|].
    apply Rinv_le_contravar; [exact Hl|nra].
Qed.

Lemma C132_fades_lemma inv perms c m b0 bs k eps : ridge_config c m -> first_call c m b0 -> c_icpt c = false -> orders perms (b_p b0) ->
  good_calls (b_p b0) (b0 :: bs) -> (k < b_p b0)%nat -> disjoint_column (b_p b0) k (stream (b0 :: bs)) ->
  0 < c_forget c -> 0 < eps ->
  exists s N, lm_history (ridge_ops inv perms) c (b0 :: bs) new_lm = Ok s /\
    forall qs, good_calls (b_p b0) qs -> Forall (fun o => ox o k = 0) (stream qs) -> (N <= length (stream qs))%nat ->
    exists s' beta', lm_history (ridge_ops inv perms) c qs s = Ok s' /\ a_coef s' = Some beta' /\ Rabs (beta' k) <= eps.
Proof.
  intros HC HF Hi HO HG Hk HD Hf0 He.
  destruct (C132_absence_lemma inv perms c m b0 bs [] k HC HF Hi HO) as (s & _ & beta & _ & E & _ & EB & _); auto.
  { rewrite app_nil_r. exact HG. }
  { constructor. }
  set (lam := penalty_of c m b0). set (D := column_weight (c_forget c) k (stream (b0 :: bs))).
  assert (Hl : 0 < lam) by apply HF. pose proof HC as (_ & _ & _ & Hf & _).
  set (Q := (D + lam) / lam * Rabs (beta k)).
  assert (PD : 0 <= D).
  { unfold D, column_weight. apply dsum_nonneg; [lra|]. intros o Ho.
    destruct (good_calls_lists (c_icpt c) _ _ HG) as (_ & _ & _ & W). unfold weights_nonneg in W. rewrite Forall_forall in W.
    apply Rmult_le_pos; [auto|apply pow2_ge_0]. }
  assert (PQ : 0 <= Q).
  { unfold Q. apply Rmult_le_pos; [|apply Rabs_pos]. apply Rmult_le_pos; [lra|]. left. now apply Rinv_0_lt_compat. }
  assert (PE : 0 < eps / (Q + 1)) by (apply Rdiv_lt_0_compat; lra).
  destruct (pow_lt_1_zero (1 - c_forget c) ltac:(rewrite Rabs_right; lra) _ PE) as (N & HN).
  exists s, N. split; [exact E|]. intros qs Gq HQ HL.
  destruct (C132_absence_lemma inv perms c m b0 bs qs k HC HF Hi HO) as (s0 & s' & b & b' & E0 & E' & EB0 & EB' & K); auto.
  { change (b0 :: bs ++ qs) with ((b0 :: bs) ++ qs). apply good_calls_app. split; assumption. }
  rewrite E in E0. injection E0 as <-. rewrite EB in EB0. injection EB0 as <-.
  exists s', b'. split; [exact E'|]. split; [exact EB'|]. cbv zeta in K. destruct K as (_ & _ & K).
  specialize (HN (length (stream qs)) HL). rewrite Rabs_right in HN by (apply Rle_ge, pow_le; lra).
  fold lam D in K. set (g := (1 - c_forget c) ^ length (stream qs)) in *.
  eapply Rle_trans; [exact K|]. rewrite Rmult_assoc. fold Q.
  apply Rle_trans with (eps / (Q + 1) * Q); [apply Rmult_le_compat_r; lra|].
  apply (Rmult_le_reg_r (Q + 1)); [lra|]. replace (eps / (Q + 1) * Q * (Q + 1)) with (eps * Q) by (field; lra). nra.
Qed.
