(** Penalised regression over all rows seen. *)
From Coq Require Import Reals List Bool Arith Permutation Lra Lia.
From Verif Require Import Base Lin Data S_Gram M_CD S_CD M_Path M_Ridge M_Scaler M_Utils M_State M_LM S_LM L_LM L_LM4 S_Target L_Target4 L_Target5
  S_Penal L_Penal L_PenalEx.
Import ListNotations.
Open Scope R_scope.

(** C113. The first row of the lasso path is the running mean of the responses. *)
Theorem C113_first_row : forall perms c m k tr s p,
  c_method c = Ok (m, k) -> 0 <= c_forget c < 1 -> c_icpt c = true -> c_regicpt c = false ->
  0 < en_eps m -> (1 <= en_n m)%nat ->
  en_alpha m = 1 -> en_lower m = None -> en_upper m = None -> en_early_stop m <> 1%nat ->
  run (en_ops perms) c tr s -> a_nfin s = Some p -> Forall (fun x => weights_nonneg (b_rows (fst x))) tr ->
  (forall k i j, Permutation (perms k i j) (seq 0 (S p))) ->
  let mean := target_mean (c_forget c) (stream (map fst tr)) in
  (exists row rest, a_path s = Some (row :: rest) /\ row 0%nat = mean /\ forall j, (1 <= j <= p)%nat -> row j = 0) /\
  (forall X, X <> [] -> exists out, snd (lm_predict_path c p X s) = Ok out /\ length out = length X /\
     forall r, In r out -> hd_error r = Some mean).
Proof. intros. eapply C113_lemma; eauto. Qed.
Print Assumptions C113_first_row.
(** Responses 10, 20, then 4, each counting half as much as the next one. *)
Example C113_example : forall perms, (forall k l i, Permutation (perms k l i) (seq 0 2)) ->
  exists s s' r r' t t', partial_fit (en_ops perms) q_c q_b0 new_lm = (s, Ok tt) /\ partial_fit (en_ops perms) q_c q_b1 s = (s', Ok tt) /\
    a_path s = Some (r :: t) /\ r 0%nat = 50 / 3 /\ r 1%nat = 0 /\ a_path s' = Some (r' :: t') /\ r' 0%nat = 66 / 7 /\ r' 1%nat = 0.
Proof.
  intros perms Hp. destruct (q_runs perms Hp) as (s & s' & H & H' & N & N' & _).
  assert (T : forall l, target_mean (1 / 2) l = dsum (1 - 1 / 2) (fun o => ow o * oy o) l / dsum (1 - 1 / 2) ow l) by reflexivity.
  pose proof (run_fit _ _ _ _ H) as R. pose proof (run_step _ _ _ _ _ _ R H') as R'.
  destruct (C113_first_row perms q_c q_en 0 _ s 1 eq_refl ltac:(cbn; lra) eq_refl eq_refl ltac:(cbn; lra) ltac:(cbn; lia) eq_refl eq_refl eq_refl ltac:(cbn; lia) R N
    ltac:(repeat constructor; cbn; lra) Hp) as [(r & t & A1 & A2 & A3) _].
  destruct (C113_first_row perms q_c q_en 0 _ s' 1 eq_refl ltac:(cbn; lra) eq_refl eq_refl ltac:(cbn; lra) ltac:(cbn; lia) eq_refl eq_refl eq_refl ltac:(cbn; lia) R' N'
    ltac:(repeat constructor; cbn; lra) Hp) as [(r' & t' & B1 & B2 & B3) _].
  exists s, s', r, r', t, t'. rewrite (A3 1%nat), (B3 1%nat), A2, B2 by lia. unfold target_mean. cbn. repeat (split; [assumption || reflexivity || lra|]). lra.
Qed.

(** C114. An update of ridge regression never worsens the penalised error of all rows seen,
    and improves it unless it is already least. *)
Theorem C114_ridge : forall inv perms c m k tr s p b s' beta beta',
  c_method c = Ok (m, k) -> 0 <= c_forget c < 1 ->
  run (ridge_ops inv perms) c tr s -> partial_fit (ridge_ops inv perms) c b s = (s', Ok tt) -> a_nfin s = Some p ->
  Forall (fun x => weights_nonneg (b_rows (fst x))) (tr ++ [(b, s')]) ->
  let cols := n_cols (c_icpt c) p in let lo := bound_fun (ri_lower m) in let up := bound_fun (ri_upper m) in
  let f := c_forget c in
  box_ok cols lo up -> (forall k i, Permutation (perms k i) (seq 0 cols)) ->
  let lambda := ridge_penalty m cols f (match tr with x :: _ => scaled_rows (c_icpt c) x | [] => [] end) in
  0 <= lambda -> a_coef s = Some beta -> a_coef s' = Some beta' ->
  let data := all_rows (c_icpt c) (tr ++ [(b, s')]) in
  let error := penalised_error (c_icpt c) (c_regicpt c) cols f data 0 lambda in
  error beta' <= error beta /\
  (~ least_penalised (c_icpt c) (c_regicpt c) cols f data 0 lambda lo up beta -> error beta' < error beta).
Proof. intros. eapply C114_ridge_lemma; eauto. Qed.
Print Assumptions C114_ridge.
(** The same for each penalty of the elastic net, when updates start at the previous fit. *)
Theorem C114_path_update : forall perms c m k0 tr s p b s' path path',
  c_method c = Ok (m, k0) -> 0 <= c_forget c < 1 -> c_icpt c = true -> c_regicpt c = false ->
  en_early_stop m = 0%nat -> 0 <= en_alpha m <= 1 -> en_start_update m <> previous_lambda ->
  run (en_ops perms) c tr s -> partial_fit (en_ops perms) c b s = (s', Ok tt) -> a_nfin s = Some p ->
  Forall (fun x => weights_nonneg (b_rows (fst x))) (tr ++ [(b, s')]) ->
  let lo := bound_fun (en_lower m) in let up := bound_fun (en_upper m) in
  box_ok (S p) lo up -> (forall k i j, Permutation (perms k i j) (seq 0 (S p))) ->
  a_path s = Some path -> a_path s' = Some path' ->
  let data := all_rows true (tr ++ [(b, s')]) in
  length path = en_n m /\ length path' = en_n m /\
  exists l, largest_excess (S p) (c_forget c) data l /\
  forall k old new, nth_error path k = Some old -> nth_error path' k = Some new ->
    let lambda := penalty l (en_eps m) (en_n m) k in
    let error := penalised_error true false (S p) (c_forget c) data (en_alpha m) lambda in
    error new <= error old /\
    (~ least_penalised true false (S p) (c_forget c) data (en_alpha m) lambda lo up old -> error new < error old).
Proof.
  intros perms c m k0 tr s p b s' path path' H1 H2 H3 H4 H5 H6 H7 H8 H9 H10 H11 lo up H12 H13 H14 H15.
  exact (C114_en_update_lemma perms c m k0 H1 H2 H3 H4 tr s p b s' path path' H5 H6 H7 H8 H9 H10 H11 H12 H13 H14 H15).
Qed.
Print Assumptions C114_path_update.
(** When a call starts each row at the row before, each row beats the row before at its penalty. *)
Theorem C114_path_rows : forall perms c m k0 tr s p path,
  c_method c = Ok (m, k0) -> 0 <= c_forget c < 1 -> c_icpt c = true -> c_regicpt c = false ->
  en_early_stop m = 0%nat -> 0 <= en_alpha m <= 1 ->
  match tr with [_] => en_start_initial m | _ => en_start_update m end = previous_lambda ->
  run (en_ops perms) c tr s -> a_nfin s = Some p -> Forall (fun x => weights_nonneg (b_rows (fst x))) tr ->
  let lo := bound_fun (en_lower m) in let up := bound_fun (en_upper m) in
  box_ok (S p) lo up -> (forall k i j, Permutation (perms k i j) (seq 0 (S p))) -> a_path s = Some path ->
  let data := all_rows true tr in
  length path = en_n m /\
  exists l, largest_excess (S p) (c_forget c) data l /\
  forall k prev row, nth_error path k = Some prev -> nth_error path (S k) = Some row ->
    let lambda := penalty l (en_eps m) (en_n m) (S k) in
    let error := penalised_error true false (S p) (c_forget c) data (en_alpha m) lambda in
    error row <= error prev /\
    (~ least_penalised true false (S p) (c_forget c) data (en_alpha m) lambda lo up prev -> error row < error prev).
Proof.
  intros perms c m k0 tr s p path H1 H2 H3 H4 H5 H6 H7 H8 H9 H10 lo up H11 H12 H13.
  exact (C114_en_path_lemma perms c m k0 H1 H2 H3 H4 tr s p path H5 H6 H7 H8 H9 H10 H11 H12 H13).
Qed.
Print Assumptions C114_path_rows.
(** Ridge on the responses 1, 3, then 7: the coefficient goes from 1 to 11/5 and the penalised
    error of the three rows from 21 to 87/5. *)
Example C114_example : forall inv perms, (forall k i, Permutation (perms k i) (seq 0 1)) ->
  exists s s' beta beta', partial_fit (ridge_ops inv perms) t_rc t_b new_lm = (s, Ok tt) /\ partial_fit (ridge_ops inv perms) t_rc q_b2 s = (s', Ok tt) /\
    a_coef s = Some beta /\ a_coef s' = Some beta' /\ beta 0%nat = 1 /\ beta' 0%nat = 11 / 5 /\
    let error := penalised_error false false 1 0 (b_rows t_b ++ b_rows q_b2) 0 2 in error beta = 21 /\ error beta' = 87 / 5.
Proof.
  intros inv perms Hp. destruct (q_ridge inv perms Hp) as (s & s' & beta & beta' & H & H' & N & C & C' & B & B').
  exists s, s', beta, beta'. repeat (split; [assumption|]). unfold penalised_error, wls_loss, dot. cbn. rewrite B, B'. split; field.
Qed.
(** The lasso of [q_c]: at the largest penalty the update improves the error of the three rows. *)
Example C114_path_example : forall perms, (forall k l i, Permutation (perms k l i) (seq 0 2)) ->
  exists s s' path path', partial_fit (en_ops perms) q_c q_b0 new_lm = (s, Ok tt) /\ partial_fit (en_ops perms) q_c q_b1 s = (s', Ok tt) /\
    a_path s = Some path /\ a_path s' = Some path' /\ length path = 2%nat /\ length path' = 2%nat /\
    exists l, largest_excess 2 (1 / 2) (all_rows true [(q_b0, s); (q_b1, s')]) l /\ l = 40 / 7 /\
    forall k old new, nth_error path k = Some old -> nth_error path' k = Some new ->
      let error := penalised_error true false 2 (1 / 2) (all_rows true [(q_b0, s); (q_b1, s')]) 1 (penalty l (1 / 5) 2 k) in
      error new <= error old.
Proof.
  intros perms Hp. destruct (q_runs perms Hp) as (s & s' & H & H' & N & N' & S1 & S2).
  pose proof (run_fit _ _ _ _ H) as R. pose proof (run_step _ _ _ _ _ _ R H') as R'.
  destruct (C113_lemma perms q_c q_en 0 eq_refl ltac:(cbn; lra) eq_refl eq_refl ltac:(cbn; lra) ltac:(cbn; lia) _ s 1 eq_refl eq_refl eq_refl ltac:(cbn; lia) R N
    ltac:(repeat constructor; cbn; lra) Hp) as [(r & t & A1 & _) _].
  destruct (C113_lemma perms q_c q_en 0 eq_refl ltac:(cbn; lra) eq_refl eq_refl ltac:(cbn; lra) ltac:(cbn; lia) _ s' 1 eq_refl eq_refl eq_refl ltac:(cbn; lia) R' N'
    ltac:(repeat constructor; cbn; lra) Hp) as [(r' & t' & B1 & _) _].
  destruct (C114_path_update perms q_c q_en 0 _ s 1 q_b1 s' (r :: t) (r' :: t') eq_refl ltac:(cbn; lra) eq_refl eq_refl eq_refl ltac:(cbn; lra) ltac:(cbn; discriminate) R H' N
    ltac:(repeat constructor; cbn; lra)) as (L1 & L2 & l & LE & K); auto.
  { intros j Hj. cbn. auto. }
  exists s, s', (r :: t), (r' :: t'). repeat (split; [assumption|]). exists l. split; [exact LE|]. split.
  - destruct LE as [U (j & Hj & E)].
    assert (X : excess (1 / 2) (all_rows true [(q_b0, s); (q_b1, s')]) 0%nat = 0 /\ excess (1 / 2) (all_rows true [(q_b0, s); (q_b1, s')]) 1%nat = - (40 / 7)).
    { unfold all_rows, scaled_rows. cbn [map concat]. rewrite S1, S2. unfold excess, target_mean. cbn. split; field. }
    destruct X as [X0 X1]. specialize (U 1%nat ltac:(lia)). change (c_forget q_c) with (1 / 2) in U, E. change ([(q_b0, s)] ++ [(q_b1, s')]) with [(q_b0, s); (q_b1, s')] in U, E.
    destruct j as [|[|j]]; [| |lia].
    + rewrite X0, Rabs_R0 in E. rewrite X1, Rabs_Ropp, Rabs_pos_eq in U by lra. lra.
    + rewrite X1, Rabs_Ropp, Rabs_pos_eq in E by lra. lra.
  - intros k old new E1 E2. apply (K k old new E1 E2).
Qed.
