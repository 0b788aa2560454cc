(** Lemmas: the lasso in distributional regression. *)
From Coq Require Import Reals List Bool Arith ZArith Permutation FunctionalExtensionality Lra Lia.
From Verif Require Import Base Lin Data M_Gram S_Gram L_Gram M_OLS L_OLS M_CD S_CD L_CD1 L_CD L_CD2 L_CD4 M_Path L_Path L_Path2 M_Ridge M_Scaler M_Utils M_Links M_State M_LM S_Rows S_Penal L_Penal.
From Verif Require Import M_Equation S_Equation L_Equation M_GAMLSS S_GAMLSS S_LM L_GAM15 L_GAM22 L_GAM23 S_GAMLasso.
Import ListNotations.
Open Scope R_scope.

Definition lasso_like (n : nat) (eps : R) (m : en_cfg) : Prop :=
  en_alpha m = 1 /\ bound_fun (en_lower m) = (fun _ => None) /\ bound_fun (en_upper m) = (fun _ => None) /\ en_early_stop m <> 1%nat /\
  en_random m = false /\ en_n m = n /\ en_eps m = eps.
Lemma plain_like m : plain_lasso m -> lasso_like (en_n m) (en_eps m) m.
Proof. intros (A & B & C & D & E & _). unfold lasso_like. rewrite B, C. repeat split; auto. Qed.

Lemma cyclic_order a perm tol maxit : forall fuel i b, cd_loop fuel a false perm tol maxit i b = cd_loop fuel a false (fun _ => seq 0 (cd_J a)) tol maxit i b.
Proof.
  induction fuel as [|fuel IH]; intros i b; [reflexivity|]. cbn [cd_loop]. unfold cd_order. cbn [andb].
  destruct (cd_sweep _ _ _ _) as [b1|]; [|reflexivity]. cbn [bind]. now rewrite IH.
Qed.
Lemma cyclic_descent a perm tol maxit b : online_coordinate_descent a false perm tol maxit b = online_coordinate_descent a false (fun _ => seq 0 (cd_J a)) tol maxit b.
Proof. apply cyclic_order. Qed.

Lemma like_rows n eps mm w perm J G h isreg l bp P out : lasso_like n eps mm -> l <> 0 ->
  online_coordinate_descent_path (en_args mm J G h isreg) (en_random mm) perm (en_tol mm) (en_maxit mm) (en_early_stop mm) w bp
     (map (grid_point l (l * en_eps mm) (en_n mm)) (seq 0 (en_n mm))) = Ok (P, out) ->
  forall k, (k < n)%nat -> (count_nonzero J (row_start w P bp k) <= 1)%nat ->
  exists it, online_coordinate_descent (mk_cd J G h (penalty l eps n k) isreg 1 (fun _ => None) (fun _ => None)) false (fun _ => seq 0 J) (en_tol mm) (en_maxit mm)
    (row_start w P bp k) = Ok (P k, it).
Proof.
  intros (A & B & C & D & E & En & Ee) Hl H k Hk Hc. rewrite En, Ee in H. apply path_rows in H. destruct H as [_ H]. rewrite grid_length in H. specialize (H k Hk).
  unfold row_ok in H. cbv zeta in H. rewrite grid_nth in H by exact Hk. rewrite grid_penalty in H by exact Hl.
  unfold en_args in H. rewrite A, B, C, E in H. cbn [cd_J with_reg cd_x cd_y cd_isreg cd_alpha cd_lo cd_up] in H.
  replace ((0 <? en_early_stop mm)%nat && _) with false in H.
  2:{ symmetry. destruct (Nat.ltb_spec 0 (en_early_stop mm)); [|reflexivity]. cbn [andb]. apply Nat.leb_gt. lia. }
  rewrite cyclic_descent in H. cbn [cd_J] in H. eauto.
Qed.

(** The two path operations of one object. *)
Lemma like_fit n eps perms mk J G h isreg mk' path : lasso_like n eps (fst mk) -> op_fit_path (en_ops perms) mk J G h isreg = Ok (mk', path) ->
  exists P l out w, lasso_like n eps (fst mk') /\ path = map P (seq 0 n) /\ get_lambda_max J G h isreg = Ok l /\ l <> 0 /\
    online_coordinate_descent_path (en_args (fst mk') J G h isreg) (en_random (fst mk')) (perms (snd mk)) (en_tol (fst mk')) (en_maxit (fst mk')) (en_early_stop (fst mk')) w (fun _ _ => 0)
     (map (grid_point l (l * en_eps (fst mk')) (en_n (fst mk'))) (seq 0 (en_n (fst mk')))) = Ok (P, out).
Proof.
  intros (A & B & C & D & E & En & Ee) H. cbn [en_ops op_fit_path] in H.
  destruct (fit_beta_path _ _ _ _ _ _) as [[m2 P]|] eqn:EF; cbn [bind] in H; [|discriminate]. cbn [fst snd] in H. injection H as <- <-.
  apply fit_inv in EF. destruct EF as (l & out & EB & EL & L0 & _ & EF). apply bounds_inv in EB. destruct EB as (EB & _). rewrite EB in EF |- *.
  exists P, l, out, (en_start_initial (fst mk)). unfold lasso_like. cbn [fst en_alpha en_n en_eps en_early_stop en_random en_lower en_upper en_tol en_maxit] in EF |- *.
  rewrite !bound_filled, En. rewrite En in EF. repeat split; auto.
Qed.
Lemma like_update n eps perms mk J G h isreg path0 mk' path : lasso_like n eps (fst mk) -> op_update_path (en_ops perms) mk J G h path0 isreg = Ok (mk', path) ->
  exists P l out w, lasso_like n eps (fst mk') /\ path = map P (seq 0 n) /\ get_lambda_max J G h isreg = Ok l /\ l <> 0 /\
    online_coordinate_descent_path (en_args (fst mk') J G h isreg) (en_random (fst mk')) (perms (snd mk)) (en_tol (fst mk')) (en_maxit (fst mk')) (en_early_stop (fst mk')) w (fun k => nth k path0 (fun _ => 0))
     (map (grid_point l (l * en_eps (fst mk')) (en_n (fst mk'))) (seq 0 (en_n (fst mk')))) = Ok (P, out).
Proof.
  intros HL H. pose proof HL as (A & B & C & D & E & En & Ee). cbn [en_ops op_update_path] in H.
  destruct (update_beta_path _ _ _ _ _ _ _) as [P|] eqn:EF; cbn [bind] in H; [|discriminate]. injection H as <- <-.
  apply update_inv in EF. destruct EF as (l & out & EL & L0 & _ & EF). cbn [fst].
  exists P, l, out, (en_start_update (fst mk)). rewrite En in *. split; [exact HL|]. repeat split; auto.
Qed.

Lemma ones_in V : starts_with_one V -> forall o, In o V -> ox o 0%nat = 1.
Proof. intros H. now apply Forall_forall. Qed.

(** * First candidate *)
Section First.
Variables (n : nat) (eps : R) (J : nat) (f : R) (isreg : nat -> bool).
Hypothesis Hn : (1 <= n)%nat.
Hypothesis He : 0 < eps.
Hypothesis Hf : f <= 1.
Hypothesis Hu : only_unreg J isreg 0.

Definition first_zero (path : list vec) : Prop := forall j, (1 <= j < J)%nat -> nth 0 path (fun _ => 0) j = 0.
Definition first_mean (V : list obs) (path : list vec) : Prop :=
  exists row rest, path = row :: rest /\ row 0%nat = target_mean f V /\ forall j, (1 <= j < J)%nat -> row j = 0.

Lemma first_of_path mm w perm l bp P out V : lasso_like n eps mm -> starts_with_one V -> weights_nonneg V ->
  let G := gram_spec f V in let h := ygram_spec f V in
  get_lambda_max J G h isreg = Ok l -> l <> 0 -> (forall j, (1 <= j < J)%nat -> bp 0%nat j = 0) ->
  online_coordinate_descent_path (en_args mm J G h isreg) (en_random mm) perm (en_tol mm) (en_maxit mm) (en_early_stop mm) w bp
     (map (grid_point l (l * en_eps mm) (en_n mm)) (seq 0 (en_n mm))) = Ok (P, out) ->
  first_zero (map P (seq 0 n)) /\ first_mean V (map P (seq 0 n)).
Proof.
  intros HL HV HW G h EL L0 Hb H.
  assert (Z : forall j, (1 <= j < J)%nat -> row_start w P bp 0 j = 0) by (intros j Hj; unfold row_start; destruct w; auto).
  destruct (like_rows n eps mm w perm J G h isreg l bp P out HL L0 H 0%nat Hn (count_one _ _ Z)) as (it & R).
  rewrite first_penalty in R by exact He.
  assert (N : G 0%nat 0%nat <> 0).
  { unfold get_lambda_max in EL. rewrite (unregularized_one _ _ _ Hu) in EL. destruct (Reqb _ 0) eqn:E; [discriminate|]. apply Reqb_false. exact E. }
  rewrite (lambda_max_one _ _ _ _ 0 Hu N) in EL. apply np_max_spec in EL. destruct EL as [E1 (j0 & Hj0 & E2)].
  assert (K : P 0%nat 0%nat = h 0%nat / G 0%nat 0%nat /\ forall j, (1 <= j < J)%nat -> P 0%nat j = 0).
  { eapply first_row; [..|exact R].
    - apply gram_spec_sym.
    - now apply gram_spec_psd.
    - exact Hu.
    - rewrite <- E2. apply Rabs_pos.
    - exact E1.
    - intros i. apply Permutation_refl.
    - exact Z. }
  destruct K as [K1 K2]. unfold G, h in K1. rewrite (ones_mean f V (ones_in V HV)) in K1.
  destruct n as [|n1]; [lia|]. cbn [seq map]. split; [exact K2|]. exists (P 0%nat), (map P (seq 1 n1)). auto.
Qed.
End First.

(** * One regularised column *)
Lemma one_coord G h l isreg b v : isreg 0%nat = true -> let a := mk_cd 1 G h l isreg 1 (fun _ => None) (fun _ => None) in
  cd_coord a b 0 = Ok v -> G 0%nat 0%nat <> 0 /\ v = soft_threshold (h 0%nat) l / G 0%nat 0%nat.
Proof.
  intros Hr a. unfold cd_coord, cd_den, cd_num. cbn [cd_isreg a cd_x cd_reg cd_alpha cd_lo cd_up max_lo min_up]. rewrite Hr.
  replace (G 0%nat 0%nat + l * (1 - 1)) with (G 0%nat 0%nat) by ring. destruct (Reqb _ 0) eqn:E; [discriminate|]. intros [= <-].
  split; [now apply Reqb_false|]. apply (f_equal2 Rdiv); [|reflexivity]. f_equal; [|ring].
  unfold cd_partial. cbn [cd_y cd_x cd_J a bsum]. ring.
Qed.
Lemma one_loop G h l isreg perm tol maxit : isreg 0%nat = true -> let a := mk_cd 1 G h l isreg 1 (fun _ => None) (fun _ => None) in
  forall fuel i b b' it, i = O \/ (G 0%nat 0%nat <> 0 /\ b 0%nat = soft_threshold (h 0%nat) l / G 0%nat 0%nat) ->
  cd_loop fuel a false perm tol maxit i b = Ok (b', it) -> G 0%nat 0%nat <> 0 /\ b' 0%nat = soft_threshold (h 0%nat) l / G 0%nat 0%nat.
Proof.
  intros Hr a. induction fuel as [|fuel IH]; intros i b b' it Hb H; [discriminate|]. cbn [cd_loop] in H. unfold cd_order in H. cbn [andb] in H.
  change (cd_J a) with 1%nat in H. cbn [seq cd_sweep] in H.
  destruct (cd_visit a (S i <? 2)%nat b 0) as [b1|] eqn:E; cbn [bind] in H; [|discriminate].
  assert (K : G 0%nat 0%nat <> 0 /\ b1 0%nat = soft_threshold (h 0%nat) l / G 0%nat 0%nat).
  { unfold cd_visit in E. destruct ((S i <? 2)%nat || negb (Reqb (b 0%nat) 0)) eqn:B.
    - destruct (cd_coord a b 0) as [v|] eqn:V; cbn [bind] in E; [|discriminate]. injection E as <-. apply one_coord in V; [|exact Hr]. exact V.
    - injection E as <-. destruct Hb as [->|Hb]; [discriminate B|exact Hb]. }
  destruct (Rleb _ _); [injection H as <- _; exact K|]. destruct (maxit <? S i)%nat; [injection H as <- _; exact K|].
  eapply IH; [right; exact K|exact H].
Qed.

Lemma Rabs_mult_inv a b : 0 < b -> Rabs (a / b) = Rabs a / b.
Proof. intros H. unfold Rdiv. rewrite Rabs_mult, (Rabs_right (/ b)); [reflexivity|]. left. now apply Rinv_0_lt_compat. Qed.

Section Only.
Variables (n : nat) (eps f : R) (isreg : nat -> bool).
Hypothesis He : 0 < eps <= 1.
Hypothesis Hf : f <= 1.
Hypothesis Hr : isreg 0%nat = true.

Definition shrunk (V : list obs) (path : list vec) : Prop :=
  target_mean f V <> 0 /\ length path = n /\ forall k, (k < n)%nat ->
    nth k path (fun _ => 0) 0%nat = target_mean f V - Rabs (target_mean f V) * Rpower eps (INR k / INR (n - 1)).

Lemma rpower_le1 x : 0 <= x -> 0 < Rpower eps x <= 1.
Proof.
  intros Hx. split; [apply exp_pos|]. unfold Rpower. rewrite <- exp_0.
  assert (L : ln eps <= 0). { rewrite <- ln_1. destruct (Req_dec eps 1) as [->|N]; [lra|]. left. apply ln_increasing; lra. }
  assert (x * ln eps <= 0) by nra. destruct (Req_dec (x * ln eps) 0) as [->|N]; [lra|]. left. apply exp_increasing. lra.
Qed.

Lemma shrunk_of_path mm w perm l bp P out V : lasso_like n eps mm -> (1 <= n)%nat -> starts_with_one V -> weights_nonneg V ->
  let G := gram_spec f V in let h := ygram_spec f V in
  get_lambda_max 1 G h isreg = Ok l -> l <> 0 ->
  online_coordinate_descent_path (en_args mm 1 G h isreg) (en_random mm) perm (en_tol mm) (en_maxit mm) (en_early_stop mm) w bp
     (map (grid_point l (l * en_eps mm) (en_n mm)) (seq 0 (en_n mm))) = Ok (P, out) ->
  shrunk V (map P (seq 0 n)).
Proof.
  intros HL Hn HV HW G h EL L0 H.
  assert (El : l = h 0%nat).
  { rewrite lambda_max_all in EL; [|intros j Hj; now replace j with 0%nat by lia]. cbn in EL. congruence. }
  assert (K : forall k, (k < n)%nat -> G 0%nat 0%nat <> 0 /\ P k 0%nat = soft_threshold (h 0%nat) (penalty l eps n k) / G 0%nat 0%nat).
  { intros k Hk. assert (Z : forall j, (1 <= j < 1)%nat -> row_start w P bp k j = 0) by (intros; lia).
    destruct (like_rows n eps mm w perm 1 G h isreg l bp P out HL L0 H k Hk (count_one _ _ Z)) as (it & R).
    eapply one_loop; [exact Hr|left; reflexivity|exact R]. }
  assert (Gp : 0 < G 0%nat 0%nat).
  { pose proof (psd_diag 1 G 0 (gram_spec_psd f V 1 Hf HW) ltac:(lia)) as D. destruct (K 0%nat Hn) as [N _]. lra. }
  pose proof (ones_mean f V (ones_in V HV)) as M. fold G h in M. rewrite El in *. 
  split; [rewrite <- M; intros Z; apply L0; apply (f_equal (fun x => x * G 0%nat 0%nat)) in Z; unfold Rdiv in Z; rewrite Rmult_assoc, Rinv_l in Z by lra; lra|].
  split; [now rewrite map_length, seq_length|]. intros k Hk.
  rewrite (nth_indep _ (fun _ => 0) (P n)) by now rewrite map_length, seq_length. rewrite map_nth, seq_nth by exact Hk. cbn [Nat.add].
  destruct (K k Hk) as [_ ->]. rewrite <- M. unfold penalty.
  assert (Hq : 0 <= INR k / INR (n - 1)).
  { destruct (Nat.eq_dec n 1) as [->|N]; [replace k with 0%nat by lia; cbn; unfold Rdiv; lra|].
    apply Rmult_le_pos; [apply pos_INR|]. left. apply Rinv_0_lt_compat. apply lt_0_INR. lia. }
  pose proof (rpower_le1 _ Hq) as Hp. set (r := Rpower _ _) in *.
  rewrite Rabs_mult_inv by exact Gp. unfold soft_threshold, rsign.
  destruct (Rltb 0 (h 0%nat)) eqn:E1.
  - apply Rltb_true in E1. rewrite !(Rabs_right (h 0%nat)) by lra. rewrite Rmax_left by nra. field. lra.
  - apply Rltb_false in E1. assert (h 0%nat < 0) by lra. replace (Rltb (h 0%nat) 0) with true by (symmetry; now apply Rltb_true).
    rewrite !(Rabs_left (h 0%nat)) by lra. rewrite Rmax_left by nra. field. lra.
Qed.
End Only.

(** * Whole calls *)
Section Whole.
Variables (perms : nat -> nat -> nat -> list nat) (c : gam_cfg (en_cfg * nat)) (m : en_cfg) (k0 : nat) (pr : prep) (p : nat) (b : batch).
Notation d := (o_dist c).
Notation f := (p_forget pr p).
Notation ncol := (b_p b).
Hypothesis Hm : o_method c p = Ok (m, k0).
Hypothesis Hl : plain_lasso m.
Hypothesis Hf : f <= 1.
Hypothesis Hp : (p < d_n d)%nat.
Hypothesis Hi : p_icpt pr p = true.
Hypothesis Hr : p_regicpt pr p = false.
Hypothesis Hs : selects (p_eq pr p) (p_icpt pr p) ncol.
Hypothesis Hcs : o_cond_start c = false.
Hypothesis Hrw : rowwise d.

Lemma C123_first_lemma bs s s1 s' : p_eq pr p <> EqIntercept -> bs = [] \/ concave_in d p ->
  gam_fit (en_ops perms) c b s = (s1, Ok tt) -> cycles s1 <> Some O -> s_prep s1 = Some pr -> updates_run (en_ops perms) c s1 bs s' ->
  weights_nonneg (b_rows b) -> List.Forall (fun b => weights_nonneg (b_rows b)) bs ->
  exists V0 V1 w row rest, List.Forall2 (some_row d pr ncol p weight_floor) (b_rows b) V0 /\
    List.Forall2 (some_row d pr ncol p (- weight_ceiling)) (stream bs) V1 /\
    s_work s' = Some w /\ w_path w p = Some (row :: rest) /\ row 0%nat = target_mean f (V0 ++ V1) /\
    forall j, (1 <= j < design_width pr ncol p)%nat -> row j = 0.
Proof.
  intros Heq Hcv H Hcy Epr Hrun Hw Hws. set (J := design_width pr ncol p).
  assert (Hu : only_unreg J (gam_isreg pr p) 0).
  { split; [unfold J; rewrite design_width_pos by assumption; lia|]. intros j Hj. unfold gam_isreg. rewrite Hi, Hr.
    destruct j; [|split; congruence || lia]. destruct (p_eq pr p); cbn; split; congruence || lia. }
  pose proof Hl as (_ & _ & _ & _ & _ & He & Hn).
  destruct (path_history (en_ops perms) c pr ncol p eq_refl (fun _ _ _ _ => eq_refl) (fun _ _ _ _ _ => eq_refl) Hf Hp Hi Hs
    (fun mk0 => lasso_like (en_n m) (en_eps m) (fst mk0)) (first_zero J) (first_mean J f)) with (b := b) (bs := bs) (s := s) (s1 := s1) (s' := s')
    as (V0 & V1 & K1 & K2 & _ & _ & _ & _ & _ & w & path & K3 & _ & _ & K4 & _ & (row & rest & -> & K5 & K6) & _); auto.
  - intros m1 E. rewrite Hm in E. injection E as <-. now apply plain_like.
  - intros x V x2 path HL HV HW E. apply (like_fit _ _ _ _ _ _ _ _ _ _ HL) in E. destruct E as (P & l & out & w & HL' & -> & EL & L0 & E).
    split; [exact HL'|]. eapply first_of_path; eauto; reflexivity.
  - intros mk V path0 mk' path HL HV HW HI E. apply (like_update _ _ _ _ _ _ _ _ _ _ _ HL) in E. destruct E as (P & l & out & w & HL' & -> & EL & L0 & E).
    split; [exact HL'|]. eapply first_of_path; eauto; exact HI.
  - exists V0, V1, w, row, rest. auto 10.
Qed.

Lemma C123_only_lemma bs s s1 s' : p_eq pr p = EqIntercept -> en_eps m <= 1 -> bs = [] \/ concave_in d p ->
  gam_fit (en_ops perms) c b s = (s1, Ok tt) -> cycles s1 <> Some O -> s_prep s1 = Some pr -> updates_run (en_ops perms) c s1 bs s' ->
  weights_nonneg (b_rows b) -> List.Forall (fun b => weights_nonneg (b_rows b)) bs ->
  exists V0 V1 w path, List.Forall2 (some_row d pr ncol p weight_floor) (b_rows b) V0 /\
    List.Forall2 (some_row d pr ncol p (- weight_ceiling)) (stream bs) V1 /\
    s_work s' = Some w /\ w_path w p = Some path /\ length path = en_n m /\ target_mean f (V0 ++ V1) <> 0 /\
    forall k, (k < en_n m)%nat ->
      nth k path (fun _ => 0) 0%nat = target_mean f (V0 ++ V1) - Rabs (target_mean f (V0 ++ V1)) * Rpower (en_eps m) (INR k / INR (en_n m - 1)).
Proof.
  intros Heq He1 Hcv H Hcy Epr Hrun Hw Hws.
  assert (EJ : design_width pr ncol p = 1%nat) by (rewrite design_width_pos by assumption; rewrite Heq; reflexivity).
  assert (Hu : gam_isreg pr p 0%nat = true) by (unfold gam_isreg; rewrite Hi, Hr, Heq; reflexivity).
  pose proof Hl as (_ & _ & _ & _ & _ & He & Hn).
  destruct (path_history (en_ops perms) c pr ncol p eq_refl (fun _ _ _ _ => eq_refl) (fun _ _ _ _ _ => eq_refl) Hf Hp Hi Hs
    (fun mk0 => lasso_like (en_n m) (en_eps m) (fst mk0)) (fun _ => True) (shrunk (en_n m) (en_eps m) f)) with (b := b) (bs := bs) (s := s) (s1 := s1) (s' := s')
    as (V0 & V1 & K1 & K2 & _ & _ & _ & _ & _ & w & path & K3 & _ & _ & K4 & _ & (K5 & K6 & K7) & _); auto.
  - intros m1 E. rewrite Hm in E. injection E as <-. now apply plain_like.
  - rewrite EJ. intros x V x2 path HL HV HW E. apply (like_fit _ _ _ _ _ _ _ _ _ _ HL) in E. destruct E as (P & l & out & w & HL' & -> & EL & L0 & E).
    split; [exact HL'|]. split; [exact I|]. eapply shrunk_of_path; eauto.
  - rewrite EJ. intros x V path0 x2 path HL HV HW HI E. apply (like_update _ _ _ _ _ _ _ _ _ _ _ HL) in E. destruct E as (P & l & out & w & HL' & -> & EL & L0 & E).
    split; [exact HL'|]. split; [exact I|]. eapply shrunk_of_path; eauto.
  - exists V0, V1, w, path. auto 10.
Qed.
End Whole.
