(** Lemmas: path based methods in distributional regression; what is stored for one
    parameter after the last cycle. *)
From Coq Require Import Reals List Bool Arith ZArith FunctionalExtensionality Lra Lia.
From Verif Require Import Base Lin Data M_Gram S_Gram L_Gram M_OLS L_OLS M_Scaler M_Utils M_Links M_State M_LM M_Equation S_Equation L_Equation M_GAMLSS S_GAMLSS.
From Verif Require Import L_GAM1 L_GAM2 L_GAM8 L_GAM9 L_GAM10 L_GAM11 L_GAM12 L_GAM13 L_GAM14 L_GAM15 L_GAM18 L_GAM21.
Import ListNotations.
Open Scope R_scope.

Lemma fupd_same {A} (f : nat -> A) k v : fupd f k v k = v.
Proof. unfold fupd. now rewrite Nat.eqb_refl. Qed.
Lemma fupd_other {A} (f : nat -> A) k v j : j <> k -> fupd f k v j = f j.
Proof. unfold fupd. destruct (Nat.eqb_spec j k); congruence. Qed.

Section Candidates.
Context {M : Type} (ops : method_ops M) (e : env M).
Notation d := (o_dist (e_cfg e)).
Hypothesis Hb : op_path_based ops = true.

(** One inner iteration of fit: the method call behind the candidate. *)
Lemma fit_candidate_path p io it step dvo fv pathit s s' q :
  fit_candidate ops e p io it step dvo fv pathit s = (s', Ok q) ->
  exists eta gd m m' path,
    let k := fst (e_X e p) in let X := snd (e_X e p) in
    let wts := map2 Rmult (e_w e) (g_wt gd) in
    working e false p fv = Ok (eta, gd) /\ w_method s p = Some m /\
    op_init_x ops k X wts (p_forget (e_prep e) p) = Ok (c_x q) /\
    c_y q = init_y_gram X (g_wv gd) wts (p_forget (e_prep e) p) /\
    c_path q = Some path /\ w_method s' = fupd (w_method s) p (Some m') /\
    (op_fit_path ops m k (c_x q) (c_y q) (e_isreg e p) = Ok (m', path) \/
     exists path0, (w_path s p = Some path0 \/ pathit = Some path0) /\
       op_update_path ops m k (c_x q) (c_y q) path0 (e_isreg e p) = Ok (m', path)).
Proof.
  intros H. unfold fit_candidate in H.
  peel_as H wk s1 P1. apply lift_inv in P1. destruct P1 as [-> Ew]. destruct wk as [eta gd].
  peel_as H u s2 P2. apply write_inv in P2.
  assert (F2 : loop_frame s2 = loop_frame s /\ w_method s2 = w_method s).
  { subst s2. destruct (o_debug _); split; reflexivity. }
  destruct F2 as [F2 G2]. clear P2.
  destruct (e_X e p) as [k X] eqn:EX.
  peel_as H xg s3 P3. apply lift_inv in P3. destruct P3 as [-> Exg].
  peel_as H m s3 P3. apply get_inv in P3. destruct P3 as [-> Em].
  peel_as H r s5 P5.
  destruct r as [[beta path'] msd'].
  peel_as H u2 s6 P6. apply write_inv in P6.
  assert (G6 : w_method s6 = w_method s5).
  { subst s6. destruct (o_debug _); reflexivity. }
  clear P6.
  peel_as H fv0 s7 P7. apply peek_inv in P7. destruct P7 as [-> <-].
  peel_as H dv s8 P8. apply lift_inv in P8. destruct P8 as [-> Ed].
  apply ret_inv in H. destruct H as [<- <-]. cbn [c_fv c_dv c_x c_y c_wt c_beta c_path c_msd].
  unfold loop_frame in F2. rewrite Hb in P5.
  peel_as P5 mp s9 Q. destruct mp as [m' path].
  assert (Q' : s9 = s2 /\ (op_fit_path ops m k xg (init_y_gram X (g_wv gd) (map2 Rmult (e_w e) (g_wt gd)) (p_forget (e_prep e) p)) (e_isreg e p) = Ok (m', path) \/
     exists path0, (w_path s p = Some path0 \/ pathit = Some path0) /\
       op_update_path ops m k xg (init_y_gram X (g_wv gd) (map2 Rmult (e_w e) (g_wt gd)) (p_forget (e_prep e) p)) path0 (e_isreg e p) = Ok (m', path))).
  { destruct (Nat.eqb it 0 && Nat.eqb io 1); [apply lift_inv in Q; split; [tauto|left; tauto]|].
    destruct (Nat.eqb it 0).
    - peel_as Q pth s10 Q2. apply peek_inv in Q2. destruct Q2 as [-> Q2].
      destruct pth as [pth|]; [|discriminate]. apply lift_inv in Q. split; [tauto|right].
      exists pth. split; [left; congruence|tauto].
    - destruct pathit as [pth|]; [|discriminate]. apply lift_inv in Q. split; [tauto|right]. exists pth. split; [auto|tauto]. }
  destruct Q' as [-> Q'].
  peel_as P5 u3 s10 Q3. apply write_inv in Q3.
  peel_as P5 sq s11 Q2. apply peek_inv in Q2. destruct Q2 as [-> <-].
  peel_as P5 sel s11 Q2. apply lift_inv in Q2. destruct Q2 as [-> Esel].
  apply ret_inv in P5. destruct P5 as [-> P5]. injection P5 as <- <- <-. cbn [fst snd] in *.
  exists eta, gd, m, m', path. cbv zeta. cbn [fst snd].
  split; [exact Ew|]. split; [congruence|]. split; [exact Exg|]. split; [reflexivity|]. split; [reflexivity|].
  split; [|exact Q']. rewrite G6. subst s10. cbn [w_method]. now rewrite G2.
Qed.

Lemma update_candidate_path g p io it fv s s' q : update_candidate ops e g p io it fv s = (s', Ok q) ->
  exists eta gd m x0 y0 m' path0 path,
    let k := fst (e_X e p) in let X := snd (e_X e p) in
    let wts := map2 Rmult (e_w e) (g_wt gd) in
    working e true p fv = Ok (eta, gd) /\ w_method s p = Some m /\ w_x s p = Some x0 /\ w_y s p = Some y0 /\ w_path s p = Some path0 /\
    op_update_x ops k x0 X (p_forget (e_prep e) p) wts = Ok (c_x q) /\
    c_y q = update_y_gram y0 X (g_wv gd) (p_forget (e_prep e) p) wts /\
    c_path q = Some path /\ w_method s' = fupd (w_method s) p (Some m') /\
    op_update_path ops m k (c_x q) (c_y q) path0 (e_isreg e p) = Ok (m', path).
Proof.
  intros H. unfold update_candidate in H.
  peel_as H wk s1 P1. apply lift_inv in P1. destruct P1 as [-> Ew]. destruct wk as [eta gd].
  peel_as H u s2 P2. apply write_inv in P2.
  assert (F2 : loop_frame s2 = loop_frame s /\ w_method s2 = w_method s).
  { subst s2. destruct (o_debug _); split; reflexivity. }
  destruct F2 as [F2 G2]. clear P2.
  destruct (e_X e p) as [k X] eqn:EX.
  peel_as H m s3 P3. apply get_inv in P3. destruct P3 as [-> Em].
  peel_as H x0 s3 P3. apply get_inv in P3. destruct P3 as [-> Ex].
  peel_as H xg s3 P3. apply lift_inv in P3. destruct P3 as [-> Exg].
  peel_as H y0 s3 P3. apply get_inv in P3. destruct P3 as [-> Ey].
  peel_as H r s5 P5. destruct r as [[beta path'] msd'].
  peel_as H u2 s6 P6. apply write_inv in P6.
  assert (G6 : w_method s6 = w_method s5).
  { subst s6. destruct (o_debug _); reflexivity. }
  clear P6.
  peel_as H mw s7 P7. apply get_inv in P7. destruct P7 as [-> Emw].
  peel_as H old s7 P7. apply peek_inv in P7. destruct P7 as [-> _].
  peel_as H fv0 s7 P7. apply peek_inv in P7. destruct P7 as [-> <-].
  peel_as H dv s8 P8. apply lift_inv in P8. destruct P8 as [-> Ed].
  apply ret_inv in H. destruct H as [<- <-]. cbn [c_fv c_dv c_x c_y c_wt c_beta c_path c_msd].
  unfold loop_frame in F2. rewrite Hb in P5.
  peel_as P5 path0 s9 Q. apply peek_inv in Q. destruct Q as [-> Epath].
  peel_as P5 mp s9 Q.
  destruct path0 as [path0|]; [|discriminate]. apply lift_inv in Q. destruct Q as [-> Eup].
  peel_as P5 u3 s10 Q. apply write_inv in Q.
  peel_as P5 old' s11 Q2. apply get_inv in Q2. destruct Q2 as [-> Eold].
  peel_as P5 mw' s11 Q2. apply get_inv in Q2. destruct Q2 as [-> Emw'].
  peel_as P5 sq s11 Q2. apply peek_inv in Q2. destruct Q2 as [-> <-].
  peel_as P5 sel s11 Q2. apply lift_inv in Q2. destruct Q2 as [-> Esel].
  apply ret_inv in P5. destruct P5 as [-> P5]. injection P5 as <- <- <-.
  destruct mp as [m' path]. cbn [fst snd] in *.
  exists eta, gd, m, x0, y0, m', path0, path. cbv zeta. cbn [fst snd].
  split; [exact Ew|]. split; [congruence|]. split; [congruence|]. split; [congruence|]. split; [congruence|].
  split; [exact Exg|]. split; [reflexivity|]. split; [reflexivity|]. split; [|exact Eup].
  rewrite G6. subst s10. cbn [w_method]. now rewrite G2.
Qed.
End Candidates.

Section Path.
Context {M : Type} (ops : method_ops M) (e : env M) (p : nat).
Notation d := (o_dist (e_cfg e)).
Notation f := (p_forget (e_prep e) p).
Notation J := (fst (e_X e p)).
Hypothesis Hb : op_path_based ops = true.
Hypothesis Kinit : forall k X w f, op_init_x ops k X w f = Ok (init_gram X w f).
Hypothesis Kupd : forall k g X f w, op_update_x ops k g X f w = Ok (update_gram g X f w).
Hypothesis Hcond : o_cond_start (e_cfg e) = false.
Hypothesis Hlw : length (e_w e) = length (e_y e).
Hypothesis Hw : List.Forall (fun a => 0 <= a) (e_w e).
Hypothesis Hf : f <= 1.

(** The working observations of one iteration. *)
Definition work_obs (u : bool) (V : list obs) : Prop := exists fv eta gd, length fv = length (e_y e) /\
  working e u p fv = Ok (eta, gd) /\ V = zip_obs (snd (e_X e p)) (g_wv gd) (map2 Rmult (e_w e) (g_wt gd)).

Variables (Im : M -> Prop) (Ip : list vec -> Prop) (Q : list obs -> list vec -> Prop) (good : list obs -> Prop).
Hypothesis Hgood : forall V, work_obs false V -> good V.
Hypothesis Hfit : forall m V m' path, Im m -> good V -> weights_nonneg V ->
  op_fit_path ops m J (gram_spec f V) (ygram_spec f V) (e_isreg e p) = Ok (m', path) -> Im m' /\ Ip path /\ Q V path.
Hypothesis Hupd : forall m V path0 m' path, Im m -> good V -> weights_nonneg V -> Ip path0 ->
  op_update_path ops m J (gram_spec f V) (ygram_spec f V) path0 (e_isreg e p) = Ok (m', path) -> Im m' /\ Ip path /\ Q V path.

Definition methods_ok (s : work M) : Prop := forall m, w_method s p = Some m -> Im m.
Definition paths_ok (s : work M) : Prop := forall path, w_path s p = Some path -> Ip path.
Definition result_ok (q : cand) : Prop := exists V path, work_obs false V /\ weights_nonneg V /\
  c_x q = gram_spec f V /\ c_y q = ygram_spec f V /\ c_path q = Some path /\ Ip path /\ Q V path.
Definition stored_ok (w : work M) : Prop := exists V path, work_obs false V /\ weights_nonneg V /\
  w_x w p = Some (gram_spec f V) /\ w_y w p = Some (ygram_spec f V) /\ w_path w p = Some path /\ Ip path /\ Q V path.

Lemma fit_step io it step dvo fv pathit s s' q : shaped e s -> (p < d_n d)%nat -> length fv = length (e_y e) ->
  methods_ok s -> paths_ok s -> (forall path, pathit = Some path -> Ip path) ->
  fit_candidate ops e p io it step dvo fv pathit s = (s', Ok q) -> methods_ok s' /\ result_ok q.
Proof.
  intros Hs Hp Hl HM HP HI H. pose proof (proj2 Hs p Hp) as LX. cbv beta in LX.
  apply (fit_candidate_path ops e Hb) in H. cbv zeta in H.
  destruct H as (eta & gd & m & m' & path & Hwk & Em & Hx & Hy & Epath & Em' & H).
  pose proof (working_obs_of e false p fv eta gd _ _ Hwk Hl (surjective_pairing _) LX Hlw) as K. cbv zeta in K.
  set (V := zip_obs (snd (e_X e p)) (g_wv gd) (map2 Rmult (e_w e) (g_wt gd))) in *. destruct K as (X1 & X2 & X3 & X4 & K).
  assert (HV : weights_nonneg V).
  { apply nonneg_obs. rewrite X3. apply (working_weights e false p fv eta gd Hwk Hl Hlw Hw). discriminate. }
  assert (HW : work_obs false V) by (exists fv, eta, gd; auto).
  assert (EX : c_x q = gram_spec f V).
  { rewrite Kinit in Hx. injection Hx as <-. extensionality i. extensionality j. rewrite <- X1, <- X3. apply init_gram_spec; assumption. }
  assert (EY : c_y q = ygram_spec f V).
  { rewrite Hy. extensionality i. rewrite <- X1, <- X2, <- X3. apply init_y_gram_spec; assumption. }
  rewrite EX, EY in H.
  assert (R0 : Im m' /\ Ip path /\ Q V path).
  { destruct H as [H|(path0 & HP0 & H)].
    - exact (Hfit m V m' path (HM _ Em) (Hgood V HW) HV H).
    - refine (Hupd m V path0 m' path (HM _ Em) (Hgood V HW) HV _ H). destruct HP0 as [E|E]; [apply HP|apply HI]; exact E. }
  destruct R0 as (R1 & R2 & R3). split.
  - intros m1. rewrite Em', fupd_same. intros [= <-]. exact R1.
  - exists V, path. repeat (split; [assumption || reflexivity|]); assumption.
Qed.

Lemma inner_fit_loop_path io n k : forall it fv dvs cnt pathit s s' q it' bad tr,
  shaped e s -> length fv = length (e_y e) -> methods_ok s -> paths_ok s -> (forall path, pathit = Some path -> Ip path) ->
  inner_fit_loop ops e p io n k it fv dvs cnt pathit s = (s', Ok (q, it', bad, tr)) ->
  methods_ok s' /\ result_ok q.
Proof.
  induction k as [|k IH]; intros it fv dvs cnt pathit s s' q it' bad tr Hs Hl HM HP HI H; cbn [inner_fit_loop] in H; [discriminate|].
  peel_as H step s1 P1. apply read_step_inv in P1. destruct P1 as (-> & _ & _ & Hp).
  peel_as H fv1 s2 P2. rewrite Hcond, andb_false_r in P2. apply ret_inv in P2. destruct P2 as [-> <-].
  peel_as H q1 s2 P2. pose proof (loop_frame_of _ _ _ _ (fit_candidate_frame ops e p io it step _ fv pathit) P2) as F2.
  destruct (fit_step _ _ _ _ _ _ _ _ _ Hs Hp Hl HM HP HI P2) as [HM2 HR2].
  peel_as H u s3 P3.
  assert (F3 : loop_frame s3 = loop_frame s /\ w_method s3 = w_method s2).
  { destruct (Rltb _ _ && _); [apply write_inv in P3; subst s3; split; [exact F2|reflexivity]|apply ret_inv in P3; destruct P3 as [-> _]; auto]. }
  destruct F3 as [F3 G3].
  assert (HM3 : methods_ok s3) by (unfold methods_ok; rewrite G3; exact HM2).
  destruct (_ || Nat.eqb k 0).
  - apply ret_inv in H. destruct H as [-> H]. injection H as <- _ _ _. auto.
  - peel_as H r s5 P5. destruct r as [[[q' it''] bad'] tr'].
    apply ret_inv in H. destruct H as [-> H]. injection H as <- <- <- <-.
    apply IH in P5; [exact P5|..].
    + exact (shaped_frame e s s3 F3 Hs).
    + destruct (Rltb _ _); [exact Hl|]. exact (proj2 (shaped_fit_candidate ops e p io it step _ fv pathit s s2 q1 Hs Hp Hl P2)).
    + exact HM3.
    + intros path E. apply HP. unfold loop_frame in F3. congruence.
    + intros path E. destruct HR2 as (V & path1 & _ & _ & _ & _ & E1 & K1 & _). congruence.
Qed.

Lemma fit_candidate_method q io it step dvo fv pathit s s' qc : fit_candidate ops e q io it step dvo fv pathit s = (s', Ok qc) ->
  q <> p -> w_method s' p = w_method s p.
Proof.
  intros H Hne. apply (fit_candidate_path ops e Hb) in H. cbv zeta in H.
  destruct H as (eta & gd & m & m' & path & _ & _ & _ & _ & _ & -> & _). apply fupd_other. congruence.
Qed.
Lemma inner_fit_loop_method q io n k : q <> p -> forall it fv dvs cnt pathit s s' r,
  inner_fit_loop ops e q io n k it fv dvs cnt pathit s = (s', Ok r) -> w_method s' p = w_method s p.
Proof.
  intros Hne. induction k as [|k IH]; intros it fv dvs cnt pathit s s' r H; cbn [inner_fit_loop] in H; [discriminate|].
  peel_as H step s1 P1. apply read_step_inv in P1. destruct P1 as (-> & _ & _ & Hp).
  peel_as H fv1 s2 P2. rewrite Hcond, andb_false_r in P2. apply ret_inv in P2. destruct P2 as [-> <-].
  peel_as H q1 s2 P2. apply fit_candidate_method in P2; [|exact Hne].
  peel_as H u s3 P3.
  assert (G3 : w_method s3 = w_method s2).
  { destruct (Rltb _ _ && _); [apply write_inv in P3; subst s3; reflexivity|apply ret_inv in P3; destruct P3 as [-> _]; auto]. }
  destruct (_ || Nat.eqb k 0).
  - apply ret_inv in H. destruct H as [-> H]. congruence.
  - peel_as H r' s5 P5. destruct r' as [[[q' it''] bad'] tr'].
    apply ret_inv in H. destruct H as [-> H]. apply IH in P5. congruence.
Qed.

Definition inv_fit (s : work M) : Prop := shaped e s /\ methods_ok s /\ paths_ok s.
Lemma inner_fit_path q io s s' r : (1 <= io)%nat -> inv_fit s -> inner_fit ops e q io s = (s', Ok r) ->
  inv_fit s' /\ (q = p -> io = 1%nat \/ stored_ok s -> stored_ok s') /\ (q <> p -> stored_ok s -> stored_ok s').
Proof.
  intros Hio (Hs & HM & HP) H. pose proof (proj1 (inner_fit_shaped ops e Hcond q io s s' r Hs H)) as Hs'.
  unfold inner_fit in H.
  peel_as H fv s1 P1. apply peek_inv in P1. destruct P1 as [-> <-].
  peel_as H dv s2 P2. apply lift_inv in P2. destruct P2 as [-> _].
  peel_as H n s3 P3. apply read_iter_inv in P3. destruct P3 as [-> E].
  peel_as H qi s4 P4. destruct qi as [[[qc it] bad] tr].
  pose proof (loop_frame_of _ _ _ _ (inner_fit_loop_frame ops e q io _ _ _ _ _ _ _) P4) as F4.
  peel_as H u s7 P5. peel_as H u2 s8 P6. apply ret_inv in H. destruct H as [-> <-].
  assert (Hc : (s8 = fst (set_itinner q it (fst (store_fit e q qc s4)))) \/ (io <> 1%nat /\ s8 = fst (set_itinner q it s4))).
  { destruct (negb bad || Nat.eqb io 1) eqn:Eb.
    - left. rewrite P5. cbn [fst]. now rewrite P6.
    - right. apply orb_false_iff in Eb. destruct Eb as [_ Eb]. apply Nat.eqb_neq in Eb. split; [exact Eb|].
      apply ret_inv in P5. destruct P5 as [-> _]. now rewrite P6. }
  assert (Fx : w_x s4 = w_x s) by (unfold loop_frame in F4; congruence).
  assert (Fy : w_y s4 = w_y s) by (unfold loop_frame in F4; congruence).
  assert (Fp : w_path s4 = w_path s) by (unfold loop_frame in F4; congruence).
  destruct (Nat.eq_dec q p) as [->|Hne].
  - apply inner_fit_loop_path in P4; [|exact Hs|apply Hs|exact HM|exact HP|discriminate]. destruct P4 as [HM4 HR].
    destruct HR as (V & path & R1 & R2 & R3 & R4 & R5 & R6 & R7).
    assert (Hm8 : methods_ok s8) by (destruct Hc as [-> | [_ ->]]; exact HM4).
    destruct Hc as [E8 | [Hn1 E8]]; subst s8; unfold set_itinner, store_fit, write in *; cbn [fst] in *.
    + split; [split; [exact Hs'|split; [exact Hm8|]]|split; [|intros Z; now destruct (Z eq_refl)]].
      * intros pth. cbn [w_path]. rewrite fupd_same, R5. intros [= <-]. exact R6.
      * intros _ _. exists V, path. cbn [w_x w_y w_path]. rewrite !fupd_same, R3, R4. repeat (split; [assumption || reflexivity|]); assumption.
    + split; [split; [exact Hs'|split; [exact Hm8|]]|split; [|intros Z; now destruct (Z eq_refl)]].
      * intros pth. cbn [w_path]. rewrite Fp. apply HP.
      * intros _ [K|K]; [now destruct (Hn1 K)|]. unfold stored_ok. cbn [w_x w_y w_path]. rewrite Fx, Fy, Fp. exact K.
  - apply inner_fit_loop_method in P4; [|exact Hne].
    assert (K : w_method s8 p = w_method s p /\ w_path s8 p = w_path s p /\ w_x s8 p = w_x s p /\ w_y s8 p = w_y s p).
    { destruct Hc as [-> | [_ ->]]; unfold set_itinner, store_fit, write; cbn [fst w_method w_path w_x w_y];
        rewrite ?fupd_other by congruence; rewrite ?Fx, ?Fy, ?Fp, P4; auto. }
    destruct K as (K1 & K2 & K3 & K4).
    split; [split; [exact Hs'|split]|split; [intros Z; now destruct (Hne Z)|]].
    + intros m. rewrite K1. apply HM.
    + intros m. rewrite K2. apply HP.
    + intros _. unfold stored_ok. rewrite K2, K3, K4. auto.
Qed.

Lemma outer_fit_path fuel s s' dv n : inv_fit s -> In p (p_order (e_prep e)) ->
  outer_fit ops e fuel s = (s', Ok (dv, n)) -> inv_fit s' /\ (n = O \/ stored_ok s').
Proof.
  intros HI Hp H. apply (outer_fit_last ops e inv_fit (fun q _ w => q = p -> stored_ok w)) in H; [| | |exact HI].
  - destruct H as [H1 [H|H]]; [auto|]. split; [exact H1|]. right. apply (H p Hp eq_refl).
  - intros q io t t' r Hio Ht HL Hin. destruct (inner_fit_path q io t t' r Hio Ht Hin) as (K1 & K2 & _). split; [exact K1|].
    intros ->. apply K2; [reflexivity|]. destruct HL as [HL|[HL|HL]]; auto.
  - intros q q' io j t t' r Hne Ht HL Hin E. subst q.
    destruct (Nat.eq_dec io 0) as [->|Nz].
    + assert (F : stored_ok t) by (apply HL; reflexivity).
      apply inner_fit_shaped in Hin; [|exact Hcond|apply Ht].
      destruct Hin as (_ & _ & qc & it & i & step & dvo & fv1 & pth & s1 & s2 & s3 & L1 & F1 & F3 & Hc & [-> | [Hio ->]]);
        unfold stored_ok, set_itinner, store_fit, write; cbn [fst w_x w_y w_path];
        rewrite ?fupd_other by congruence; unfold loop_frame in F3;
        replace (w_x s3) with (w_x t) by congruence; replace (w_y s3) with (w_y t) by congruence; replace (w_path s3) with (w_path t) by congruence; exact F.
    + destruct (inner_fit_path q' io t t' r ltac:(lia) Ht Hin) as (_ & _ & K). apply K; auto.
Qed.

(** * Update *)
Variables (w0 : work M) (V0 : list obs).
Hypothesis Hcv : concave_in d p.
Hypothesis HV0 : weights_nonneg V0.
Hypothesis Hx0 : w_x w0 p = Some (gram_spec f V0).
Hypothesis Hy0 : w_y w0 p = Some (ygram_spec f V0).
Hypothesis Hgood' : forall V, work_obs true V -> good (V0 ++ V).

Definition result_up (q : cand) : Prop := exists V path, work_obs true V /\ weights_nonneg V /\
  c_x q = gram_spec f (V0 ++ V) /\ c_y q = ygram_spec f (V0 ++ V) /\ c_path q = Some path /\ Ip path /\ Q (V0 ++ V) path.
Definition stored_up (w : work M) : Prop := exists V path, work_obs true V /\ weights_nonneg V /\
  w_xn w p = Some (gram_spec f (V0 ++ V)) /\ w_yn w p = Some (ygram_spec f (V0 ++ V)) /\ w_path w p = Some path /\ Ip path /\ Q (V0 ++ V) path.
Definition inv_up (s : work M) : Prop := shaped e s /\ methods_ok s /\ paths_ok s /\ w_x s p = w_x w0 p /\ w_y s p = w_y w0 p.

Lemma update_step g io it fv s s' q : inv_up s -> (p < d_n d)%nat -> length fv = length (e_y e) ->
  update_candidate ops e g p io it fv s = (s', Ok q) -> methods_ok s' /\ result_up q.
Proof.
  intros (Hs & HM & HP & Ex & Ey) Hp Hl H. pose proof (proj2 Hs p Hp) as LX. cbv beta in LX.
  apply (update_candidate_path ops e Hb) in H. cbv zeta in H.
  destruct H as (eta & gd & m & x0 & y0 & m' & path0 & path & Hwk & Em & Hx & Hy & Ep & Hx' & Hy' & Epath & Em' & H).
  pose proof (working_obs_of e true p fv eta gd _ _ Hwk Hl (surjective_pairing _) LX Hlw) as K. cbv zeta in K.
  set (V := zip_obs (snd (e_X e p)) (g_wv gd) (map2 Rmult (e_w e) (g_wt gd))) in *. destruct K as (X1 & X2 & X3 & X4 & K).
  assert (HV : weights_nonneg V).
  { apply nonneg_obs. rewrite X3. apply (working_weights e true p fv eta gd Hwk Hl Hlw Hw). intros _. exact Hcv. }
  assert (HW : work_obs true V) by (exists fv, eta, gd; auto).
  assert (EX : c_x q = gram_spec f (V0 ++ V)).
  { rewrite Kupd in Hx'. injection Hx' as <-. extensionality i. extensionality j. rewrite <- X1, <- X3. apply update_gram_spec; try assumption. congruence. }
  assert (EY : c_y q = ygram_spec f (V0 ++ V)).
  { rewrite Hy'. extensionality i. rewrite <- X1, <- X2, <- X3. apply update_y_gram_spec; try assumption. congruence. }
  rewrite EX, EY in H.
  destruct (Hupd m (V0 ++ V) path0 m' path (HM _ Em) (Hgood' V HW) (proj2 (Forall_app _ _ _) (conj HV0 HV)) (HP _ Ep) H) as (R1 & R2 & R3). split.
  - intros m1. rewrite Em', fupd_same. intros [= <-]. exact R1.
  - exists V, path. repeat (split; [assumption || reflexivity|]); assumption.
Qed.

Lemma inv_up_frame s s' : loop_frame s' = loop_frame s -> methods_ok s' -> inv_up s -> inv_up s'.
Proof.
  intros F HM (Hs & _ & HP & Ex & Ey). split; [exact (shaped_frame e s s' F Hs)|]. split; [exact HM|].
  unfold paths_ok in *. unfold loop_frame in F. replace (w_path s') with (w_path s) by congruence.
  replace (w_x s') with (w_x s) by congruence. replace (w_y s') with (w_y s) by congruence. auto.
Qed.

Lemma inner_update_loop_path g io k : forall it fv dvs cnt s s' q it', inv_up s -> length fv = length (e_y e) ->
  inner_update_loop ops e g p io k it fv dvs cnt s = (s', Ok (q, it')) -> methods_ok s' /\ result_up q.
Proof.
  induction k as [|k IH]; intros it fv dvs cnt s s' q it' HI Hl H; cbn [inner_update_loop] in H; [discriminate|].
  peel_as H step s1 P1. apply read_step_inv in P1. destruct P1 as (-> & _ & _ & Hp).
  peel_as H q1 s2 P2. pose proof (loop_frame_of _ _ _ _ (update_candidate_frame ops e g p io it fv) P2) as F2.
  destruct (update_step _ _ _ _ _ _ _ HI Hp Hl P2) as [HM2 HR2].
  peel_as H u s3 P3.
  assert (F3 : loop_frame s3 = loop_frame s /\ w_method s3 = w_method s2).
  { destruct (Rltb _ _); [apply write_inv in P3; subst s3; split; [exact F2|reflexivity]|apply ret_inv in P3; destruct P3 as [-> _]; auto]. }
  destruct F3 as [F3 G3].
  assert (HM3 : methods_ok s3) by (unfold methods_ok; rewrite G3; exact HM2).
  destruct (_ || Nat.eqb k 0).
  - apply ret_inv in H. destruct H as [-> H]. injection H as <- _. auto.
  - apply IH in H; [exact H|exact (inv_up_frame s s3 F3 HM3 HI)|].
    destruct (Rltb _ _); [exact Hl|]. exact (proj2 (shaped_candidate ops e g p io it fv s s2 q1 (proj1 HI) Hp Hl P2)).
Qed.
Lemma inner_update_loop_method g q io k : q <> p -> forall it fv dvs cnt s s' r,
  inner_update_loop ops e g q io k it fv dvs cnt s = (s', Ok r) -> w_method s' p = w_method s p.
Proof.
  intros Hne. induction k as [|k IH]; intros it fv dvs cnt s s' r H; cbn [inner_update_loop] in H; [discriminate|].
  peel_as H step s1 P1. apply read_step_inv in P1. destruct P1 as (-> & _ & _ & Hp).
  peel_as H q1 s2 P2. apply (update_candidate_path ops e Hb) in P2. cbv zeta in P2.
  destruct P2 as (eta & gd & m & x0 & y0 & m' & path0 & path & _ & _ & _ & _ & _ & _ & _ & _ & Em' & _).
  assert (E2 : w_method s2 p = w_method s p) by (rewrite Em'; apply fupd_other; congruence).
  peel_as H u s3 P3.
  assert (G3 : w_method s3 = w_method s2).
  { destruct (Rltb _ _); [apply write_inv in P3; subst s3; reflexivity|apply ret_inv in P3; destruct P3 as [-> _]; auto]. }
  destruct (_ || Nat.eqb k 0).
  - apply ret_inv in H. destruct H as [-> H]. congruence.
  - apply IH in H. congruence.
Qed.

Lemma inner_update_path g q io s s' r : inv_up s -> inner_update ops e g q io s = (s', Ok r) ->
  inv_up s' /\ (q = p -> stored_up s') /\ (q <> p -> stored_up s -> stored_up s').
Proof.
  intros HI H. pose proof (proj1 (inner_update_shaped ops e g q io s s' r (proj1 HI) H)) as Hs'.
  unfold inner_update in H.
  peel_as H fv s1 P1. apply peek_inv in P1. destruct P1 as [-> <-].
  peel_as H dv s2 P2. apply lift_inv in P2. destruct P2 as [-> _].
  peel_as H n s3 P3. apply read_iter_inv in P3. destruct P3 as [-> E].
  peel_as H qi s4 P4. destruct qi as [qc it].
  pose proof (loop_frame_of _ _ _ _ (inner_update_loop_frame ops e g q io _ _ _ _ _) P4) as F4.
  peel_as H sumw s7 P5. apply get_inv in P5. destruct P5 as [-> Es]. cbn [fst snd] in H.
  peel_as H u s8 P6. apply ret_inv in H. destruct H as [-> <-].
  assert (E8 : s8 = fst (store_update e q it qc sumw s4)) by (unfold store_update, write in *; cbn [fst]; congruence). clear P6.
  assert (Fx : w_x s4 = w_x s) by (unfold loop_frame in F4; congruence).
  assert (Fy : w_y s4 = w_y s) by (unfold loop_frame in F4; congruence).
  assert (Fp : w_path s4 = w_path s) by (unfold loop_frame in F4; congruence).
  assert (Fxn : w_xn s4 = w_xn s) by (unfold loop_frame in F4; congruence).
  assert (Fyn : w_yn s4 = w_yn s) by (unfold loop_frame in F4; congruence).
  pose proof HI as (Hs & HM & HP & Ex & Ey).
  assert (X8 : w_x s8 p = w_x w0 p /\ w_y s8 p = w_y w0 p).
  { subst s8. unfold store_update, write. cbn [fst w_x w_y]. split; congruence. }
  destruct (Nat.eq_dec q p) as [->|Hne].
  - apply inner_update_loop_path in P4; [|exact HI|apply Hs]. destruct P4 as [HM4 (V & path & R1 & R2 & R3 & R4 & R5 & R6 & R7)].
    assert (Hm8 : methods_ok s8) by (subst s8; exact HM4).
    split; [split; [exact Hs'|split; [exact Hm8|split; [|exact X8]]]|split; [|intros Z; now destruct (Z eq_refl)]].
    + subst s8. unfold store_update, write. intros pth. cbn [fst w_path]. rewrite fupd_same, R5. intros [= <-]. exact R6.
    + intros _. subst s8. unfold store_update, write. exists V, path. cbn [fst w_xn w_yn w_path]. rewrite !fupd_same, R3, R4. repeat (split; [assumption || reflexivity|]); assumption.
  - apply inner_update_loop_method in P4; [|exact Hne].
    assert (K : w_method s8 p = w_method s p /\ w_path s8 p = w_path s p /\ w_xn s8 p = w_xn s p /\ w_yn s8 p = w_yn s p).
    { subst s8; unfold store_update, write; cbn [fst w_method w_path w_xn w_yn];
        rewrite ?fupd_other by congruence; rewrite ?Fxn, ?Fyn, ?Fp, P4; auto. }
    destruct K as (K1 & K2 & K3 & K4).
    split; [split; [exact Hs'|split; [|split; [|exact X8]]]|split; [intros Z; now destruct (Hne Z)|]].
    + intros m. rewrite K1. apply HM.
    + intros m. rewrite K2. apply HP.
    + intros _. unfold stored_up. rewrite K2, K3, K4. auto.
Qed.

Lemma outer_update_path g fuel s s' dv n : inv_up s -> In p (p_order (e_prep e)) ->
  outer_update ops e g fuel s = (s', Ok (dv, n)) -> inv_up s' /\ (n = O \/ stored_up s').
Proof.
  intros HI Hp H. apply (outer_update_all ops e g inv_up (fun q w => q = p -> stored_up w)) in H; [| | |exact HI].
  - destruct H as [H1 [H|H]]; [auto|]. split; [exact H1|]. right. apply (H p Hp eq_refl).
  - intros q io t t' r Ht Hin. destruct (inner_update_path g q io t t' r Ht Hin) as (K1 & K2 & _). auto.
  - intros q q' io t t' r Hne Ht HL Hin E. subst q. destruct (inner_update_path g q' io t t' r Ht Hin) as (_ & _ & K). auto.
Qed.
End Path.
