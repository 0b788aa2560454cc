From Coq Require Import Reals List Bool Arith Lra Lia Permutation FunctionalExtensionality.
From Verif Require Import Base Lin Data M_Gram M_OLS M_CD M_Path M_Ridge M_Scaler M_Equation M_Utils M_Links M_State M_LM S_LM M_GAMLSS S_GAMLSS S_Scaler S_Units S_Rows S_Order
  L_GAM2 L_GAM6 L_GAM8 L_GAM10 L_GAM11 L_Rows L_Fitted L_Order1 L_Order2.
Import ListNotations.
Open Scope R_scope.
Open Scope st_scope.

Lemma Xs_swap k l : Xs (swap k l) = swap k (Xs l).
Proof. unfold Xs. symmetry. apply swap_map. Qed.
Lemma ys_swap k l : ys (swap k l) = swap k (ys l).
Proof. unfold ys. symmetry. apply swap_map. Qed.
Lemma ws_swap k l : ws (swap k l) = swap k (ws l).
Proof. unfold ws. symmetry. apply swap_map. Qed.
Lemma ws_len (l : list obs) : length (ws l) = length l.
Proof. apply map_length. Qed.
Lemma ys_len (l : list obs) : length (ys l) = length l.
Proof. apply map_length. Qed.
Lemma Xs_len (l : list obs) : length (Xs l) = length l.
Proof. apply map_length. Qed.
Lemma swap_nil {A} k : swap k (@nil A) = [].
Proof. now destruct k. Qed.

Definition swap_array (k : nat) (a : nat * list vec) : nat * list vec := (fst a, swap k (snd a)).
Lemma make_model_array_swap k q i nc X a : make_model_array q i nc X = Ok a -> make_model_array q i nc (swap k X) = Ok (swap_array k a).
Proof.
  unfold make_model_array, swap_array. destruct q; try (destruct (columns _ nc) as [ks|]; [cbn [bind]|discriminate]);
  destruct i; try discriminate; intros H; injection H as <-; cbn [fst snd]; now rewrite swap_map.
Qed.
Lemma all_arrays_swap pr nc k X ps : forall l, all_arrays pr nc X ps = Ok l ->
  all_arrays pr nc (swap k X) ps = Ok (map (swap_array k) l).
Proof.
  induction ps as [|p ps IH]; intros l H; cbn [all_arrays] in *; [now injection H as <-|].
  destruct (make_model_array (p_eq pr p) (p_icpt pr p) nc X) as [a|] eqn:E; [|discriminate]. cbn [bind] in H.
  destruct (all_arrays pr nc X ps) as [r|] eqn:E'; [|discriminate]. cbn [bind] in H. injection H as <-.
  rewrite (make_model_array_swap k _ _ _ _ _ E), (IH r eq_refl). reflexivity.
Qed.
Lemma arrays_swap {M} (c : gam_cfg M) pr nc k X A : arrays c pr nc X = Ok A -> arrays c pr nc (swap k X) = Ok (fun p => swap_array k (A p)).
Proof.
  unfold arrays. destruct (all_arrays pr nc X _) as [l|] eqn:E; [|discriminate]. intros H. injection H as <-.
  rewrite (all_arrays_swap pr nc k X _ l E). cbn [bind]. f_equal. apply functional_extensionality. intros p.
  rewrite <- (map_nth (swap_array k)). unfold swap_array at 3. cbn [fst snd]. now rewrite swap_nil.
Qed.

Lemma init_swap d k l fv : exchangeable_start d -> d_init d l = Ok fv -> d_init d (swap k l) = Ok (swap k fv) /\ length fv = length l.
Proof.
  intros (f & Hp & Hi) H. rewrite Hi in H. split.
  - rewrite Hi. rewrite (map_ext _ (f l)) by (intros y; symmetry; apply Hp, swap_perm).
    rewrite <- swap_map. now apply swap_all_some.
  - apply all_some_length in H. now rewrite H, map_length.
Qed.

(** * State relations *)
Definition scalable (sc : scaler) : Prop := exists sel l, sc_same sel l l sc.
Lemma perm_sums l l' : Permutation l l' -> same_sums l l'.
Proof. intros H. apply same_data_sums. now constructor. Qed.
Lemma sc_same_left sel l l' s : sc_same sel l l' s -> sc_same sel l l s.
Proof. intros [_ K]. split; [intros f; reflexivity|]. destruct (fst sel); [destruct K; auto|exact K]. Qed.
Lemma scaler_fit_swap t p k l s : weights_nonneg l -> scaler_fit 0 t p l = Ok s -> scaler_fit 0 t p (swap k l) = Ok s /\ scalable s.
Proof.
  intros W E. assert (L : (2 <= length l)%nat).
  { unfold scaler_fit in E. destruct (Nat.ltb_spec (length l) 2); [discriminate|lia]. }
  destruct (scaler_fit_same t p l (swap k l) s) as [E' S]; auto.
  { apply perm_sums, swap_perm. } { now apply swap_in. } { now rewrite swap_length. }
  split; [exact E'|]. exists (selection t p), l. now apply sc_same_left with (swap k l).
Qed.
Lemma scaler_update_swap k l s s1 : scalable s -> weights_nonneg l -> scaler_update s l = Ok s1 -> scaler_update s (swap k l) = Ok s1 /\ scalable s1.
Proof.
  intros (sel & h & S) W E. assert (L : (1 <= length l)%nat).
  { unfold scaler_update in E. destruct (Nat.ltb_spec (length l) 1); [discriminate|lia]. }
  destruct (scaler_update_same sel h h s s1 l (swap k l)) as [E' S']; auto.
  { apply perm_sums, swap_perm. } { now apply swap_in. } { now rewrite swap_length. }
  split; [exact E'|]. exists sel, (h ++ l). now apply sc_same_left with (h ++ swap k l).
Qed.

Section Obj.
Context {M : Type} (ops : method_ops M) (c : gam_cfg M).
Let d := o_dist c.
Definition sound (s : gam M) : Prop :=
  (forall pr, s_prep s = Some pr -> forall p, p_forget pr p = 0) /\
  (forall sc, s_scaler s = Some (Some sc) -> scalable sc) /\ (forall n0, s_nobs s = Some n0 -> 0 <= n0).
Definition swap_batch (k : nat) (b : batch) : batch := mk_batch (b_p b) (swap k (b_rows b)).

Lemma W_learned k n (w w' : work M) : W k n w w' -> learned_work w w'.
Proof. intros (L & r & g1 & g2 & g3 & ro & ->). unfold learned_work. cbn. auto 20. Qed.
Lemma W_commit k n (w w' : work M) : W k n w w' -> W k n (commit_work w) (commit_work w').
Proof. intros (L & r & g1 & g2 & g3 & ro & ->). split; [exact L|]. repeat eexists. Qed.
Lemma learned_refl (s : gam M) : learned_same s s.
Proof. unfold learned_same. destruct (s_work s); unfold learned_work; auto 25. Qed.
Lemma learned_trans (s t u : gam M) : learned_same s t -> learned_same t u -> learned_same s u.
Proof.
  unfold learned_same. intros (A1 & A2 & A3 & A4 & A5 & A6 & A7 & A8 & A9) (B1 & B2 & B3 & B4 & B5 & B6 & B7 & B8 & B9).
  do 8 (split; [congruence|]). destruct (s_work s), (s_work t), (s_work u); try contradiction; auto.
  unfold learned_work in *. decompose [and] A9. decompose [and] B9. repeat split; congruence.
Qed.
Lemma sound_same s s' : learned_same s s' -> sound s -> sound s'.
Proof. intros (A1 & A2 & A3 & A4 & _) (S1 & S2 & S3). unfold sound. rewrite <- A1, <- A2, <- A4. auto. Qed.
Lemma learned_predict s s' : learned_same s s' -> forall r p X, snd (predict_parameters c r p X s') = snd (predict_parameters c r p X s).
Proof.
  destruct s as [a1 a2 a3 a4 a5 a6 a7 a8 a9], s' as [b1 b2 b3 b4 b5 b6 b7 b8 b9].
  intros (A1 & A2 & A3 & A4 & A5 & A6 & A7 & A8 & A9) r p X. cbn in *. subst.
  unfold predict_parameters, gfitted, gvalidate_old, bnd, read, lift, ret, raise.
  cbn [s_nfin s_nobs s_ntrain s_J s_work s_scaler s_prep].
  assert (E : match b3, b4, b5, b6, b8 with None, None, None, None, None => false | _, _, _, _, _ => true end =
              match b3, b4, b5, b6, a8 with None, None, None, None, None => false | _, _, _, _, _ => true end).
  { destruct a8, b8; try contradiction; reflexivity. }
  rewrite E. destruct (match b3, b4, b5, b6, a8 with None, None, None, None, None => false | _, _, _, _, _ => true end); [|reflexivity].
  destruct (_ || _); [reflexivity|]. cbn [s_nfin s_scaler].
  destruct b3 as [q|]; [destruct (Nat.eqb p q); [|reflexivity]|];
  cbn [s_nfin s_scaler]; destruct b2 as [[sc|]|]; try reflexivity; (destruct (_ && _); [reflexivity|]); cbn [s_prep];
  destruct b1 as [pr|]; try reflexivity; destruct (arrays _ _ _ _); try reflexivity; cbn [s_work];
  destruct a8 as [w|], b8 as [w'|]; try contradiction; try reflexivity; cbn [snd];
  destruct A9 as (_ & _ & _ & _ & -> & _); reflexivity.
Qed.

Lemma fit_swap k b s s0 s1 : (forall q X w, length X = length w -> op_init_x ops q (swap k X) (swap k w) 0 = op_init_x ops q X w 0) ->
  never_forgets c -> o_cond_start c = false -> exchangeable_start d -> weights_nonneg (b_rows b) ->
  gam_fit ops c b s = (s1, Ok tt) ->
  exists s1', gam_fit ops c (swap_batch k b) s0 = (s1', Ok tt) /\ learned_same s1 s1' /\ sound s1.
Proof.
  intros Hi Hnf Hcond Hex HW H. apply gam_fit_ok in H.
  destruct H as (pr & ms & fv & js & sc & X & w & dv & n & Ep & B1 & B2 & V1 & V2 & Ef & Ej & Esc & EX & Eo & ->).
  pose proof (Hnf pr ms Ep) as Hf.
  rewrite Hf in Esc. destruct (scaler_fit_swap _ _ k _ _ HW Esc) as [Esc' Hsc].
  destruct (init_swap d k _ _ Hex Ef) as [Ef' Lf]. rewrite ys_len in Lf.
  pose proof (arrays_swap c pr (b_p b) k _ _ EX) as EX'. rewrite swap_map, <- Xs_swap in EX'.
  set (N := length (b_rows b)) in *.
  assert (HX : forall p, (p < d_n (o_dist (e_cfg (start_env c pr b X))))%nat -> length (snd (e_X (start_env c pr b X) p)) = N).
  { intros p Hp. cbn. rewrite (arrays_rows c pr (b_p b) _ X p EX Hp). now rewrite map_length, Xs_len. }
  pose proof (sim_outer_fit ops (start_env c pr b X) k N Hf (ws_len _) (ys_len _) HX Hcond Hi (enough_fuel c)) as S.
  destruct (S (start_work c pr ms fv) (start_work c pr ms (swap k fv)) w (dv, n)) as (w' & r & Eo' & HWw & <-).
  { split; [exact Lf|]. repeat eexists. } { exact Eo. }
  eexists. split.
  - apply (gam_fit_run ops c (swap_batch k b) s0 pr ms (swap k fv) js sc (fun p => swap_array k (X p)) w' dv n Ep); cbn [swap_batch b_rows b_p]; auto.
    + now rewrite swap_length.
    + now rewrite swap_existsb.
    + now rewrite swap_existsb.
    + rewrite ys_swap. exact Ef'.
    + now rewrite Hf.
    + rewrite <- Eo'. f_equal. unfold start_env, twin_env. cbn [swap_batch b_rows e_cfg e_prep e_nobs e_ntrain e_isreg e_X e_y e_w].
      rewrite ws_swap, ys_swap, swap_lsum. reflexivity.
  - split.
    + unfold learned_same, start_env. cbn [s_prep s_scaler s_nfin s_nobs s_ntrain s_J s_isreg s_work s_dev e_ntrain swap_batch b_rows b_p].
      rewrite ws_swap, swap_lsum. do 8 (split; [reflexivity|]). now apply (W_learned k N).
    + unfold sound. cbn. split; [|split].
      * intros q Hq. injection Hq as <-. exact Hf.
      * intros q Hq. injection Hq as <-. exact Hsc.
      * intros q Hq. injection Hq as <-. clear - HW. unfold weights_nonneg in HW. unfold ws.
        induction (b_rows b) as [|o l IH]; cbn; [lra|]. inversion HW; subst. specialize (IH H2). lra.
Qed.

Lemma predicted_swap (pr : prep) k A co n p0 (X : list vec) : arrays c pr p0 X = Ok A -> length X = n ->
  map (fun i q => let eta := dot (fst (swap_array k (A q))) (nth i (snd (swap_array k (A q))) (fun _ => 0)) (co q) in
                  if true then d_inv (o_dist c) q eta else eta) (seq 0 n) =
  swap k (map (fun i q => let eta := dot (fst (A q)) (nth i (snd (A q)) (fun _ => 0)) (co q) in
                  if true then d_inv (o_dist c) q eta else eta) (seq 0 n)).
Proof.
  intros EX L. cbv zeta. apply same_columns; [now rewrite swap_length, !map_length|]. intros p.
  rewrite col_swap.
  destruct (Nat.lt_ge_cases p (d_n (o_dist c))) as [Hp|Hp].
  - pose proof (arrays_rows c pr p0 _ A p EX Hp) as LA. rewrite L in LA.
    rewrite (rows_of_columns c A co n p LA).
    rewrite (rows_of_columns c (fun q => swap_array k (A q)) co n p) by (cbn; now rewrite swap_length).
    cbn [swap_array fst snd]. now rewrite swap_map.
  - pose proof (arrays_beyond c pr p0 X A p EX Hp) as E.
    unfold col. rewrite !map_map. unfold swap_array. rewrite E. cbn [fst snd]. rewrite swap_nil.
    assert (Q : forall (v : R) l, map (fun _ : nat => v) l = repeat v (length l)) by (intros v l; induction l; cbn; congruence).
    rewrite (map_ext _ (fun _ => d_inv (o_dist c) p 0)) by (intros i; reflexivity).
    rewrite Q. now rewrite swap_repeat.
Qed.

Lemma again_swap k n pr b fv (w w' w1 : work M) : length fv = n -> learned_work w w' -> again_work c pr b fv w = Ok w1 ->
  exists w1', again_work c pr (swap_batch k b) (swap k fv) w' = Ok w1' /\ W k n w1 w1'.
Proof.
  intros L (A1 & A2 & A3 & A4 & A5 & A6 & A7 & A8 & A9 & A10 & A11 & A12).
  destruct w as [q1 q2 q3 q4 q5 q6 q7 q8 q9 q10 q11 q12 q13 q14 q15 q16 q17 q18 q19 q20 q21 q22 q23].
  destruct w' as [r1 r2 r3 r4 r5 r6 r7 r8 r9 r10 r11 r12 r13 r14 r15 r16 r17 r18 r19 r20 r21 r22 r23].
  cbn in A1, A2, A3, A4, A5, A6, A7, A8, A9, A10, A11, A12. subst.
  unfold again_work. destruct (o_cautious c).
  - destruct fv as [|th [|th' t]]; try discriminate. rewrite swap_one.
    destruct (cautious_bounds c [th]) as [lh|]; [|discriminate]. cbn [bind]. intros H. injection H as <-.
    eexists. split; [reflexivity|]. cbn [swap_batch b_rows]. rewrite swap_existsb.
    split; [reflexivity|]. unfold cautious_work, restart_work. cbn [w_fv]. rewrite swap_one. repeat eexists.
  - intros H. injection H as <-. eexists. split; [reflexivity|]. split; [reflexivity|]. repeat eexists.
Qed.

Lemma lsum_at_least (l : list obs) : Forall (fun o => 1 <= ow o) l -> INR (length l) <= lsum (ws l).
Proof.
  unfold ws. induction 1 as [|o l H _ IH]; cbn [length map lsum fold_right] in *; [cbn; lra|]. rewrite S_INR. cbn in *. lra.
Qed.
Lemma lsum_nonneg_ws (l : list obs) : weights_nonneg l -> 0 <= lsum (ws l).
Proof. unfold weights_nonneg, ws. induction 1 as [|o l H _ IH]; cbn in *; lra. Qed.

Lemma update_swap k b s s' s1 :
  (forall q x0 X w, length X = length w -> op_update_x ops q x0 (swap k X) 0 (swap k w) = op_update_x ops q x0 X 0 w) ->
  weights_nonneg (b_rows b) -> selection_ok ops c b -> learned_same s s' -> sound s ->
  gam_update ops c b s = (s1, Ok tt) ->
  exists s1', gam_update ops c (swap_batch k b) s' = (s1', Ok tt) /\ learned_same s1 s1' /\ sound s1.
Proof.
  intros Hu HW Hsel HL (S1 & S2 & S3) H. apply gam_update_ok in H.
  destruct H as (n0 & pr & fv & sc0 & sc & X & w0 & w1 & w & dev0 & it0 & isreg & dv & m & B1 & B2 & B3 & V1 & V2 &
    E1 & E2 & E3 & E4 & E5 & E6 & Efv & Esc & EX & Ew & Eo & ->).
  pose proof (S1 pr E2) as Hf. pose proof (S2 sc0 E3) as Hsc0. pose proof (S3 n0 E1) as Hn0.
  destruct (scaler_update_swap k _ _ _ Hsc0 HW Esc) as [Esc' Hsc].
  destruct (predict_parameters c true (b_p b) (Xs (b_rows b)) s) as [s2 out] eqn:P. cbn in Efv. subst out.
  apply predict_parameters_ok in P.
  destruct P as (sc0' & pr' & A & w0' & -> & P1 & P2 & P3 & P4 & P5 & P6 & P7 & P8 & P9).
  rewrite E3 in P1. injection P1 as <-. rewrite E2 in P2. injection P2 as <-. rewrite E4 in P3. injection P3 as <-.
  set (N := length (b_rows b)) in *.
  assert (Lf : length fv = N) by (rewrite P9, map_length, seq_length; apply Xs_len).
  pose proof (arrays_swap c pr (b_p b) k _ _ EX) as EX'. rewrite swap_map, <- Xs_swap in EX'.
  pose proof (arrays_swap c pr (b_p b) k _ _ P8) as P8'. rewrite swap_map, <- Xs_swap in P8'.
  destruct HL as (A1 & A2 & A3 & A4 & A5 & A6 & A7 & A8 & A9).
  destruct s as [a1 a2 a3 a4 a5 a6 a7 a8 a9], s' as [b1 b2 b3 b4 b5 b6 b7 b8 b9].
  cbn in A1, A2, A3, A4, A5, A6, A7, A8, A9, E1, E2, E3, E4, E5, E6, B3, P6. subst.
  destruct b8 as [w0'|]; [|contradiction].
  set (fv := map _ (seq 0 (length (Xs (b_rows b))))) in *.
  destruct (again_swap k N pr b fv w0 w0' w1 Lf A9 Ew) as (w1' & Ew' & HW1).
  set (e := again_env c pr isreg n0 b X) in *.
  assert (HX : forall p, (p < d_n (o_dist (e_cfg e)))%nat -> length (snd (e_X e p)) = N).
  { intros p Hp. cbn. rewrite (arrays_rows c pr (b_p b) _ X p EX Hp). now rewrite map_length, Xs_len. }
  assert (Hsel' : op_path_based ops = false \/ o_global_ll (e_cfg e) = true \/ forall j, (j < N)%nat -> e_nobs e - INR j <> 0).
  { destruct Hsel as [?|[?|Hge]]; [auto|auto|]. right. right. intros j Hj. cbn. pose proof (lsum_at_least _ Hge) as Q. fold N in Q.
    apply lt_INR in Hj. lra. }
  pose proof (sim_outer_update ops e k N Hf (ws_len _) (ys_len _) HX Hu Hsel' dev0 (enough_fuel c)) as S.
  destruct (S w1 w1' w (dv, m) HW1 Eo) as (w' & r & Eo' & HWw & <-).
  assert (Een : again_env c pr isreg n0 (swap_batch k b) (fun p => swap_array k (X p)) = twin_env e k).
  { unfold e, again_env, twin_env. cbn [swap_batch b_rows e_cfg e_prep e_nobs e_ntrain e_isreg e_X e_y e_w].
    rewrite ws_swap, ys_swap, swap_lsum. reflexivity. }
  eexists. split.
  - apply (gam_update_run ops c (swap_batch k b) n0 pr (swap k fv) sc0 sc (fun p => swap_array k (X p)) w0' w1' w' dev0 it0 isreg dv m b3 b5 b6);
    cbn [swap_batch b_rows b_p]; auto.
    + now rewrite swap_length.
    + now rewrite swap_existsb.
    + now rewrite swap_existsb.
    + intros s Q1 Q2 Q3 Q4.
      rewrite (predict_parameters_run c true (b_p b) (Xs (swap k (b_rows b))) s sc0 pr (fun p => swap_array k (A p)) w0');
        rewrite ?Xs_swap, ?swap_length, ?Xs_len; auto.
      * f_equal. f_equal. unfold fv. rewrite Xs_len.
        destruct A9 as (_ & _ & _ & _ & Ec & _). rewrite Ec.
        apply (predicted_swap pr k A (w_coef w0') N (b_p b) _ P8). now rewrite map_length, Xs_len.
      * rewrite Q4. exact P6.
      * rewrite <- Xs_swap. exact P8'.
    + fold (swap_batch k b). rewrite Een. exact Eo'.
  - split.
    + unfold learned_same. cbn [s_prep s_scaler s_nfin s_nobs s_ntrain s_J s_isreg s_work s_dev].
      rewrite Een. cbn [swap_batch b_rows]. rewrite ws_swap, swap_lsum. do 8 (split; [reflexivity|]).
      apply (W_learned k N), W_commit. exact HWw.
    + unfold sound. cbn. split; [|split].
      * intros q Hq. injection Hq as <-. exact Hf.
      * intros q Hq. injection Hq as <-. exact Hsc.
      * intros q Hq. injection Hq as <-. pose proof (lsum_nonneg_ws _ HW). lra.
Qed.

(** * Any order *)
Lemma batch_eta b : b = mk_batch (b_p b) (b_rows b).
Proof. now destruct b. Qed.
Lemma fit_reordered b b' s s0 s1 : (forall k q X w, length X = length w -> op_init_x ops q (swap k X) (swap k w) 0 = op_init_x ops q X w 0) ->
  never_forgets c -> o_cond_start c = false -> exchangeable_start d -> reordered b b' -> weights_nonneg (b_rows b) ->
  gam_fit ops c b s = (s1, Ok tt) ->
  exists s1', gam_fit ops c b' s0 = (s1', Ok tt) /\ learned_same s1 s1' /\ sound s1.
Proof.
  intros Hi Hnf Hcond Hex [Hp Hperm] HW.
  rewrite (batch_eta b), (batch_eta b'), <- Hp. set (q := b_p b).
  set (Q := fun l l' : list obs => weights_nonneg l -> forall s s0 s1, gam_fit ops c (mk_batch q l) s = (s1, Ok tt) ->
     exists s1', gam_fit ops c (mk_batch q l') s0 = (s1', Ok tt) /\ learned_same s1 s1' /\ sound s1).
  assert (HQ : Q (b_rows b) (b_rows b')); [|intros H; exact (HQ HW s s0 s1 H)].
  apply (swaps_perm Q); auto; unfold Q; clear Q HW Hperm.
  - intros l HW t t0 t1 H.
    destruct (fit_swap (length l) (mk_batch q l) t t0 t1 (Hi (length l)) Hnf Hcond Hex HW H) as (t1' & H' & K).
    unfold swap_batch in H'. cbn [b_p b_rows] in H'. rewrite swap_far in H' by lia. eauto.
  - intros l k m K HW t t0 t1 H.
    destruct (fit_swap k (mk_batch q l) t t0 t1 (Hi k) Hnf Hcond Hex HW H) as (t1' & H' & K1 & K2).
    unfold swap_batch in H'. cbn [b_p b_rows] in H'.
    destruct (K (swap_in k l _ HW) t0 t0 t1' H') as (t2 & H2 & K3 & _). exists t2. split; [exact H2|]. split; [|exact K2].
    eapply learned_trans; eauto.
Qed.
Lemma update_reordered b b' s s' s1 :
  (forall k q x0 X w, length X = length w -> op_update_x ops q x0 (swap k X) 0 (swap k w) = op_update_x ops q x0 X 0 w) ->
  reordered b b' -> weights_nonneg (b_rows b) -> selection_ok ops c b -> learned_same s s' -> sound s ->
  gam_update ops c b s = (s1, Ok tt) ->
  exists s1', gam_update ops c b' s' = (s1', Ok tt) /\ learned_same s1 s1' /\ sound s1.
Proof.
  intros Hi [Hp Hperm] HW Hsel.
  rewrite (batch_eta b) in Hsel |- *. rewrite (batch_eta b'), <- Hp. set (q := b_p b) in *. revert s s' s1.
  set (Q := fun l l' : list obs => weights_nonneg l -> selection_ok ops c (mk_batch q l) -> forall s s' s1,
     learned_same s s' -> sound s -> gam_update ops c (mk_batch q l) s = (s1, Ok tt) ->
     exists s1', gam_update ops c (mk_batch q l') s' = (s1', Ok tt) /\ learned_same s1 s1' /\ sound s1).
  assert (HQ : Q (b_rows b) (b_rows b')); [|exact (HQ HW Hsel)].
  apply (swaps_perm Q); auto; unfold Q; clear Q HW Hperm Hsel.
  - intros l HW Hsel t t' t1 HL HS H.
    destruct (update_swap (length l) (mk_batch q l) t t' t1 (Hi (length l)) HW Hsel HL HS H) as (t1' & H' & K).
    unfold swap_batch in H'. cbn [b_p b_rows] in H'. rewrite swap_far in H' by lia. eauto.
  - intros l k m K HW Hsel t t' t1 HL HS H.
    destruct (update_swap k (mk_batch q l) t t' t1 (Hi k) HW Hsel HL HS H) as (t1' & H' & K1 & K2).
    unfold swap_batch in H'. cbn [b_p b_rows] in H'.
    destruct (K (swap_in k l _ HW)) with (s := t') (s' := t') (s1 := t1') as (t2 & H2 & K3 & _); auto.
    { destruct Hsel as [?|[?|Hge]]; [now left|now right; left|]. right. right. cbn in *. now apply swap_in. }
    { apply learned_refl. } { eapply sound_same; eauto. }
    exists t2. split; [exact H2|]. split; [|exact K2]. eapply learned_trans; eauto.
Qed.
Lemma updates_reordered bs : forall bs' s s' s1,
  (forall k q x0 X w, length X = length w -> op_update_x ops q x0 (swap k X) 0 (swap k w) = op_update_x ops q x0 X 0 w) ->
  Forall2 reordered bs bs' -> Forall (fun b => weights_nonneg (b_rows b)) bs -> Forall (selection_ok ops c) bs ->
  learned_same s s' -> sound s -> (exists n0, s_nobs s = Some n0) ->
  gam_history ops c bs s = Ok s1 -> exists s1', gam_history ops c bs' s' = Ok s1' /\ learned_same s1 s1'.
Proof.
  induction bs as [|b bs IH]; intros bs' s s' s1 Hi H2 HW Hsel HL HS [n0 HN] H; inversion H2; subst; cbn [gam_history] in *.
  { injection H as <-. eauto. }
  inversion HW; subst. inversion Hsel; subst.
  assert (N' : s_nobs s' = Some n0) by (destruct HL as (_ & _ & _ & <- & _); exact HN).
  unfold gpartial_fit, gis_fitted in *. rewrite HN in H. rewrite N'.
  destruct (gam_update ops c b s) as [t [[]|]] eqn:E; [|discriminate].
  destruct (update_reordered b y s s' t Hi) as (t' & E' & HL' & HS'); auto. rewrite E'.
  apply (IH l' t t' s1); auto. apply gam_update_ok in E.
  destruct E as (m0 & pr & fv & sc0 & sc & X & w0 & w1 & w & dev0 & it0 & isreg & dv & m & E). decompose [and] E. subst t. cbn. eauto.
Qed.
Lemma history_reordered b bs b' bs' s1 :
  (forall k q X w, length X = length w -> op_init_x ops q (swap k X) (swap k w) 0 = op_init_x ops q X w 0) ->
  (forall k q x0 X w, length X = length w -> op_update_x ops q x0 (swap k X) 0 (swap k w) = op_update_x ops q x0 X 0 w) ->
  never_forgets c -> o_cond_start c = false -> exchangeable_start d ->
  Forall2 reordered (b :: bs) (b' :: bs') -> Forall (fun b => weights_nonneg (b_rows b)) (b :: bs) -> Forall (selection_ok ops c) bs ->
  gam_history ops c (b :: bs) new_gam = Ok s1 ->
  exists s1', gam_history ops c (b' :: bs') new_gam = Ok s1' /\ learned_same s1 s1' /\
    forall r p X, snd (predict_parameters c r p X s1') = snd (predict_parameters c r p X s1).
Proof.
  intros Hi Hu Hnf Hcond Hex H2 HW Hsel H. inversion H2; subst. inversion HW; subst. cbn [gam_history] in *.
  unfold gpartial_fit in *. cbn [gis_fitted s_nobs new_gam] in *.
  destruct (gam_fit ops c b new_gam) as [t [[]|]] eqn:E; [|discriminate].
  destruct (fit_reordered b b' new_gam new_gam t Hi Hnf Hcond Hex) as (t' & E' & HL & HS); auto. rewrite E'.
  destruct (updates_reordered bs bs' t t' s1) as (s1' & K & HL'); auto.
  { apply gam_fit_ok in E. destruct E as (pr & ms & fv & js & sc & X & w & dv & m & E). decompose [and] E. subst t. cbn. eauto. }
  exists s1'. split; [exact K|]. split; [exact HL'|]. now apply learned_predict.
Qed.
End Obj.
