(** Properties C23-C26: the online scaler. *)
From Coq Require Import Reals List Bool Arith Lia Lra.
From Verif Require Import Base Lin Data S_Gram M_Scaler S_Scaler L_Scaler.
Import ListNotations.
Open Scope R_scope.

(** C23. Every chunking gives the discounted weighted moments of all rows. *)
Theorem C23_moments : forall forget t p b0 bs s0,
  t <> ScaleNone -> 0 <= forget < 1 ->
  weights_nonneg b0 -> Forall weights_nonneg bs -> Forall nonempty bs ->
  scaler_fit forget t p b0 = Ok s0 ->
  exists s, scaler_updates s0 bs = Ok s /\
    sc_sel s = snd (selection t p) /\
    sc_n s = lsum (ws (b0 ++ concat bs)) /\
    forall k, (k < length (snd (selection t p)))%nat ->
      sc_mean s k = wmean forget (b0 ++ concat bs) (nth k (snd (selection t p)) 0%nat) /\
      sc_var s k = wvar forget (b0 ++ concat bs) (nth k (snd (selection t p)) 0%nat).
Proof. exact C23_lemma. Qed.
Print Assumptions C23_moments.
Theorem C23_fit_succeeds : forall forget t p b0,
  0 <= forget < 1 -> weights_nonneg b0 -> (2 <= length b0)%nat -> (exists o, In o b0 /\ 0 < ow o) ->
  (forall j, In j (snd (selection t p)) -> (j < p)%nat) ->
  exists s, scaler_fit forget t p b0 = Ok s.
Proof. exact C23_total_lemma. Qed.
Print Assumptions C23_fit_succeeds.
(** Rows 1, 3 (fit) and 8 (update) with weights 1, 1, 2 and forget 1/2. *)
Definition ex23a : list obs := [mkobs (fun _ => 1) 0 1; mkobs (fun _ => 3) 0 1].
Definition ex23b : list obs := [mkobs (fun _ => 8) 0 2].
Example C23_example : exists s0 s,
  scaler_fit (1 / 2) ScaleAll 1 ex23a = Ok s0 /\ scaler_updates s0 [ex23b] = Ok s /\
  sc_mean s 0%nat = 71 / 11 /\ sc_n s = 4.
Proof.
  assert (W : weights_nonneg ex23a) by (repeat constructor; cbn; lra).
  destruct (C23_fit_succeeds (1 / 2) ScaleAll 1 ex23a) as (s0 & E0); auto; try lra.
  - exists (mkobs (fun _ => 1) 0 1). split; [left; reflexivity|cbn; lra].
  - cbn. intros j [<-|[]]. lia.
  - destruct (C23_moments (1 / 2) ScaleAll 1 ex23a [ex23b] s0) as (s & E & _ & N & H); auto; try lra.
    + discriminate.
    + repeat constructor; cbn; lra.
    + repeat constructor; discriminate.
    + exists s0, s. split; auto. split; auto.
      destruct (H 0%nat) as (Hm & _); [cbn; lia|]. rewrite Hm, N.
      unfold wmean, wtotal. cbn. lra.
Qed.

(** C24. *)
Theorem C24_variance_nonnegative : forall forget t p b0 bs s0 s,
  t <> ScaleNone -> 0 <= forget < 1 ->
  weights_nonneg b0 -> Forall weights_nonneg bs -> Forall nonempty bs ->
  scaler_fit forget t p b0 = Ok s0 -> scaler_updates s0 bs = Ok s ->
  forall k, (k < length (snd (selection t p)))%nat ->
    0 <= sc_var s k /\
    (sc_var s k = 0 <-> exists c, forall o, In o (b0 ++ concat bs) -> 0 < ow o ->
                        ox o (nth k (snd (selection t p)) 0%nat) = c).
Proof. exact C24_lemma. Qed.
Print Assumptions C24_variance_nonnegative.
Example C24_example : forall s0 s,
  scaler_fit (1 / 2) ScaleAll 1 ex23a = Ok s0 -> scaler_updates s0 [ex23b] = Ok s -> 0 < sc_var s 0%nat.
Proof.
  intros s0 s H0 H.
  destruct (C24_variance_nonnegative (1 / 2) ScaleAll 1 ex23a [ex23b] s0 s) with (k := 0%nat) as (Hp & Hz); auto; try lra.
  - discriminate.
  - repeat constructor; cbn; lra.
  - repeat constructor; cbn; lra.
  - repeat constructor; discriminate.
  - assert (sc_var s 0%nat <> 0); [|lra]. intros E. apply Hz in E. destruct E as (c & Hc).
    pose proof (Hc (mkobs (fun _ => 1) 0 1)) as A. pose proof (Hc (mkobs (fun _ => 3) 0 1)) as B.
    cbn in A, B. assert (1 = c) by (apply A; auto; lra). assert (3 = c) by (apply B; auto; lra). lra.
Qed.

(** C25. *)
Theorem C25_round_trip : forall forget t p l s x,
  0 <= forget < 1 -> reachable_scaler forget t p l s ->
  (forall j, In j (snd (selection t p)) -> 0 < wvar forget l j) ->
  forall j, scaler_inverse s (scaler_transform s x) j = x j /\
            scaler_transform s (scaler_inverse s x) j = x j.
Proof. exact C25_lemma. Qed.
Print Assumptions C25_round_trip.
Theorem C25_unselected_columns : forall forget t p l s x j,
  0 <= forget < 1 -> reachable_scaler forget t p l s ->
  ~ In j (snd (selection t p)) ->
  scaler_transform s x j = x j /\ scaler_inverse s x j = x j.
Proof. exact C25_untouched_lemma. Qed.
Print Assumptions C25_unselected_columns.
(** A state that scales column 1 of 2 by mean 5 and variance 4. *)
Example C25_example :
  let s := mk_scaler 0 true [1%nat] (fun _ => 5) (fun _ => 4) (fun _ => 8) 2 2 in
  scaler_transform s (fun _ => 9) 1%nat = 2 /\ scaler_transform s (fun _ => 9) 0%nat = 9.
Proof.
  cbn. unfold scaler_transform, pick; cbn. split; [|reflexivity].
  replace 4 with (2 * 2) by ring. rewrite sqrt_square by lra. lra.
Qed.

(** C26. *)
Theorem C26_standardised : forall forget t p l s j,
  0 <= forget < 1 -> reachable_scaler forget t p l s ->
  In j (snd (selection t p)) -> 0 < wvar forget l j ->
  wmean forget (map_rows (scaler_transform s) l) j = 0 /\
  wvar forget (map_rows (scaler_transform s) l) j = 1.
Proof. exact C26_lemma. Qed.
Print Assumptions C26_standardised.
Example C26_example : exists s, reachable_scaler (1 / 2) ScaleAll 1 (ex23a ++ ex23b) s /\
  wmean (1 / 2) (map_rows (scaler_transform s) (ex23a ++ ex23b)) 0 = 0.
Proof.
  destruct C23_example as (s0 & s & E0 & E & _ & _). exists s.
  assert (Rr : reachable_scaler (1 / 2) ScaleAll 1 (ex23a ++ ex23b) s).
  { exists ex23a, [ex23b], s0. repeat split; auto; repeat constructor; cbn; try lra; discriminate. }
  split; auto. apply (C26_standardised (1 / 2) ScaleAll 1 _ s 0 ltac:(lra) Rr).
  - left; reflexivity.
  - unfold wvar, wmean, wtotal. cbn. lra.
Qed.
