(** Lemmas about the online linear model. *)
From Coq Require Import Reals List Bool Arith Lra Lia.
From Verif Require Import Base Lin Data M_Gram S_Gram L_Gram M_OLS L_OLS M_CD M_Path M_Ridge
  M_Scaler M_Utils S_Utils L_Utils M_State M_LM S_LM.
Import ListNotations.
Open Scope R_scope.

Ltac unst H :=
  cbv beta iota zeta delta [bnd write ret raise read lift
    set_method set_scaler set_nfin set_nobs set_nfeat set_ntrain set_isreg set_x set_y set_path
    set_rss set_coef a_method a_scaler a_nfin a_nobs a_nfeat a_ntrain a_isreg a_x a_y a_path a_rss a_coef
    fst snd] in H.

(** What a successful [fit] did. *)
Lemma lm_fit_ok {M} (ops : method_ops M) c b s s' :
  lm_fit ops c b s = (s', Ok tt) ->
  let n := lsum (ws (b_rows b)) in
  let p := n_cols (c_icpt c) (b_p b) in
  exists m sc xg,
    c_method c = Ok m /\ c_regicpt c && negb (c_icpt c) = false /\
    (1 <= length (b_rows b))%nat /\ (1 <= b_p b)%nat /\
    Rleb n (INR p) && c_ols_name c = false /\ n <> 1 /\
    scaler_fit (c_forget c) (c_scale c) (b_p b) (b_rows b) = Ok sc /\
    let l := design_rows c sc (b_rows b) in
    let yg := init_y_gram (Xs l) (ys l) (ws l) (c_forget c) in
    let nt := effective_training_length (c_forget c) n in
    op_init_x ops p (Xs l) (ws l) (c_forget c) = Ok xg /\
    ((op_path_based ops = true /\ exists m' path ic k,
        op_fit_path ops m p xg yg (is_regularized c) = Ok (m', path) /\
        from_rss_array (c_ic c) nt (map (n_nonzero p) path) (map (rss_fit p l) path) = Ok ic /\
        argmin ic = Ok k /\
        s' = mk_lm (Some m') (Some (Some sc)) (Some (b_p b)) (Some n) (Some p) (Some nt)
               (Some (is_regularized c)) (Some xg) (Some yg) (Some path)
               (Some (map (rss_fit p l) path)) (Some (nth k path (fun _ => 0))))
     \/ (op_path_based ops = false /\ exists m' beta,
        op_fit_beta ops m p xg yg (is_regularized c) = Ok (m', beta) /\
        s' = mk_lm (Some m') (Some (Some sc)) (Some (b_p b)) (Some n) (Some p) (Some nt)
               (Some (is_regularized c)) (Some xg) (Some yg) (a_path s) (a_rss s) (Some beta))).
Proof.
  intros H n p. unfold lm_fit, prepare_fit, validate_new, fit_scaler, select_row in H. unst H.
  destruct (c_method c) as [m|] eqn:Em; [|discriminate H].
  destruct (c_regicpt c && negb (c_icpt c)) eqn:Er; [discriminate H|].
  destruct ((length (b_rows b) <? 1)%nat || (b_p b <? 1)%nat) eqn:Ev; [discriminate H|].
  apply orb_false_iff in Ev. destruct Ev as [Ev1 Ev2].
  apply Nat.ltb_ge in Ev1. apply Nat.ltb_ge in Ev2.
  fold n p in H.
  destruct (Rleb n (INR p) && c_ols_name c) eqn:Eo; [discriminate H|].
  destruct (Reqb n 1) eqn:E1; [discriminate H|]. apply Reqb_false in E1.
  destruct (scaler_fit (c_forget c) (c_scale c) (b_p b) (b_rows b)) as [sc|e] eqn:Es.
  2:{ destruct e; unst H; try discriminate H;
      destruct (selection (c_scale c) (b_p b)); unst H; discriminate H. }
  unst H. exists m, sc.
  destruct (op_init_x ops p _ _ _) as [xg|] eqn:Ex; [|discriminate H].
  exists xg. repeat (split; [assumption || reflexivity|]).
  destruct (op_path_based ops) eqn:Ep.
  - left. split; [reflexivity|].
    destruct (op_fit_path ops _ _ _ _ _) as [[m' path]|] eqn:Ef; [|discriminate H].
    unst H.
    destruct (from_rss_array _ _ _ _) as [ic|] eqn:Ei; [|discriminate H].
    destruct (argmin ic) as [k|] eqn:Ek; [|discriminate H].
    injection H as H. exists m', path, ic, k. repeat split; auto.
  - right. split; [reflexivity|].
    destruct (op_fit_beta ops _ _ _ _ _) as [[m' beta]|] eqn:Ef; [|discriminate H].
    unst H. injection H as H. exists m', beta. split; auto.
Qed.

(** What a successful [update] did. *)
Lemma lm_update_ok {M} (ops : method_ops M) c b s s' :
  lm_update ops c b s = (s', Ok tt) ->
  let p := n_cols (c_icpt c) (b_p b) in
  exists n0 sc0 sc m x0 y0 xg isreg,
    a_nobs s = Some n0 /\ a_scaler s = Some (Some sc0) /\ a_method s = Some m /\
    a_x s = Some x0 /\ a_y s = Some y0 /\ a_isreg s = Some isreg /\
    (1 <= length (b_rows b))%nat /\ (1 <= b_p b)%nat /\
    (forall q, a_nfin s = Some q -> q = b_p b) /\
    sc_do sc0 && negb (forallb (fun j => j <? b_p b)%nat (sc_sel sc0)) = false /\
    scaler_update sc0 (b_rows b) = Ok sc /\
    let n := n0 + lsum (ws (b_rows b)) in
    let l := design_rows c sc (b_rows b) in
    let yg := update_y_gram y0 (Xs l) (ys l) (c_forget c) (ws l) in
    let nt := effective_training_length (c_forget c) n in
    op_update_x ops p x0 (Xs l) (c_forget c) (ws l) = Ok xg /\
    ((op_path_based ops = true /\ exists m' path0 rss0 path ic k,
        a_path s = Some path0 /\ a_rss s = Some rss0 /\
        op_update_path ops m p xg yg path0 isreg = Ok (m', path) /\
        length rss0 = length path /\
        let rss := map2 (fun r0 r1 => (1 - c_forget c) * r0 + r1) rss0 (map (rss_update p l) path) in
        from_rss_array (c_ic c) nt (map (n_nonzero p) path) rss = Ok ic /\
        argmin ic = Ok k /\
        s' = mk_lm (Some m') (Some (Some sc)) (a_nfin s) (Some n) (a_nfeat s) (Some nt)
               (Some isreg) (Some xg) (Some yg) (Some path)
               (Some rss) (Some (nth k path (fun _ => 0))))
     \/ (op_path_based ops = false /\ exists m' beta0 beta,
        a_coef s = Some beta0 /\
        op_update_beta ops m p xg yg beta0 isreg = Ok (m', beta) /\
        s' = mk_lm (Some m') (Some (Some sc)) (a_nfin s) (Some n) (a_nfeat s) (Some nt)
               (Some isreg) (Some xg) (Some yg) (a_path s) (a_rss s) (Some beta))).
Proof.
  intros H p. destruct s as [am asc anf an anft ant air ax ay ap ars ac].
  unfold lm_update, validate_old, update_scaler, select_row in H. unst H.
  cbn [a_method a_scaler a_nfin a_nobs a_nfeat a_ntrain a_isreg a_x a_y a_path a_rss a_coef].
  destruct ((length (b_rows b) <? 1)%nat || (b_p b <? 1)%nat) eqn:Ev; [discriminate H|].
  apply orb_false_iff in Ev. destruct Ev as [Ev1 Ev2].
  apply Nat.ltb_ge in Ev1. apply Nat.ltb_ge in Ev2.
  assert (Q : forall q, anf = Some q -> q = b_p b).
  { intros q ->. destruct (Nat.eqb_spec (b_p b) q); [auto|discriminate H]. }
  assert (H' : match anf with Some q => Nat.eqb (b_p b) q = true | None => True end).
  { destruct anf as [q|]; [|exact I]. destruct (Nat.eqb (b_p b) q); [reflexivity|discriminate H]. }
  destruct anf as [q|]; [rewrite H' in H|]; unst H; fold p in H;
  (destruct an as [n0|]; [|discriminate H]; unst H;
   destruct asc as [[sc0|]|]; [|discriminate H|discriminate H]; unst H;
   destruct (sc_do sc0 && negb (forallb (fun j => j <? b_p b)%nat (sc_sel sc0))) eqn:Esel;
     [unst H; discriminate H|]; unst H;
   destruct (scaler_update sc0 (b_rows b)) as [sc|e] eqn:Es; [|discriminate H]; unst H;
   destruct ax as [x0|]; [|discriminate H]; unst H;
   destruct (op_update_x ops p x0 _ _ _) as [xg|] eqn:Ex; [|discriminate H]; unst H;
   destruct ay as [y0|]; [|discriminate H]; destruct am as [m|]; [|discriminate H]; unst H;
   assert (H2 : exists isreg, air = Some isreg) by
     (destruct (op_path_based ops); [destruct ap; [|discriminate H]|destruct ac; [|discriminate H]];
      destruct air; [eauto|discriminate H | eauto | discriminate H]);
   destruct H2 as (isreg & ->);
   exists n0, sc0, sc, m, x0, y0, xg, isreg;
   repeat (split; [assumption || reflexivity|]);
   destruct (op_path_based ops) eqn:Ep;
   [ left; split; [reflexivity|];
     destruct ap as [path0|]; [|discriminate H];
     destruct (op_update_path ops _ _ _ _ _ _) as [[m' path]|] eqn:Ef; [|discriminate H];
     unst H; destruct ars as [rss0|]; [|discriminate H];
     destruct (Nat.eqb_spec (length rss0) (length path)) as [El|]; [|discriminate H];
     cbn [negb] in H; unst H;
     destruct (from_rss_array _ _ _ _) as [ic|] eqn:Ei; [|discriminate H];
     destruct (argmin ic) as [k|] eqn:Ek; [|discriminate H];
     injection H as H; exists m', path0, rss0, path, ic, k; subst; repeat split; auto
   | right; split; [reflexivity|];
     destruct ac as [beta0|]; [|discriminate H];
     destruct (op_update_beta ops _ _ _ _ _ _) as [[m' beta]|] eqn:Ef; [|discriminate H];
     unst H; injection H as H; exists m', beta0, beta; subst; repeat split; auto]).
Qed.

Lemma bnd_ok {S A B} (m : st S A) (k : A -> st S B) s s1 a : m s = (s1, Ok a) -> bnd m k s = k a s1.
Proof. unfold bnd. intros ->. reflexivity. Qed.
Lemma bnd_raise {S A B} (m : st S A) (k : A -> st S B) s s1 e : m s = (s1, Raise e) -> bnd m k s = (s1, Raise e).
Proof. unfold bnd. intros ->. reflexivity. Qed.
Lemma lift_ok {S A} (r : res A) a (s : S) : r = Ok a -> lift r s = (s, Ok a).
Proof. unfold lift. intros ->. reflexivity. Qed.

Lemma bnd_write {S B} (f : S -> S) (k : unit -> st S B) s : bnd (write f) k s = k tt (f s).
Proof. reflexivity. Qed.
Lemma bnd_read {S A B} (f : S -> option A) (k : A -> st S B) s a : f s = Some a -> bnd (read f) k s = k a s.
Proof. unfold bnd, read. intros ->. reflexivity. Qed.
Ltac nrm := cbn [a_method a_scaler a_nfin a_nobs a_nfeat a_ntrain a_isreg a_x a_y a_path a_rss a_coef fst snd].
Tactic Notation "wr" reference(f) := unfold f at 1; rewrite bnd_write; nrm.

(** Converse of [lm_fit_ok]. *)
Lemma lm_fit_intro {M} (ops : method_ops M) c b s m sc xg :
  let n := lsum (ws (b_rows b)) in
  let p := n_cols (c_icpt c) (b_p b) in
  c_method c = Ok m -> c_regicpt c && negb (c_icpt c) = false ->
  (1 <= length (b_rows b))%nat -> (1 <= b_p b)%nat ->
  Rleb n (INR p) && c_ols_name c = false -> n <> 1 ->
  scaler_fit (c_forget c) (c_scale c) (b_p b) (b_rows b) = Ok sc ->
  let l := design_rows c sc (b_rows b) in
  let yg := init_y_gram (Xs l) (ys l) (ws l) (c_forget c) in
  let nt := effective_training_length (c_forget c) n in
  op_init_x ops p (Xs l) (ws l) (c_forget c) = Ok xg ->
  (forall m' path ic k,
     op_path_based ops = true ->
     op_fit_path ops m p xg yg (is_regularized c) = Ok (m', path) ->
     from_rss_array (c_ic c) nt (map (n_nonzero p) path) (map (rss_fit p l) path) = Ok ic ->
     argmin ic = Ok k ->
     lm_fit ops c b s
     = (mk_lm (Some m') (Some (Some sc)) (Some (b_p b)) (Some n) (Some p) (Some nt)
            (Some (is_regularized c)) (Some xg) (Some yg) (Some path)
            (Some (map (rss_fit p l) path)) (Some (nth k path (fun _ => 0))), Ok tt)) /\
  (forall m' beta,
     op_path_based ops = false ->
     op_fit_beta ops m p xg yg (is_regularized c) = Ok (m', beta) ->
     lm_fit ops c b s
     = (mk_lm (Some m') (Some (Some sc)) (Some (b_p b)) (Some n) (Some p) (Some nt)
            (Some (is_regularized c)) (Some xg) (Some yg) (a_path s) (a_rss s) (Some beta), Ok tt)).
Proof.
  intros n p Hm Hr L1 L2 Ho H1 Hs l yg nt Hx.
  assert (P : prepare_fit c s = (mk_lm (Some m) (Some None) (a_nfin s) (a_nobs s) (a_nfeat s)
     (a_ntrain s) (a_isreg s) (a_x s) (a_y s) (a_path s) (a_rss s) (a_coef s), Ok tt)).
  { unfold prepare_fit. rewrite Hm, Hr. reflexivity. }
  assert (V : forall s : lm M, validate_new b s = (mk_lm (a_method s) (a_scaler s) (Some (b_p b)) (a_nobs s) (a_nfeat s)
     (a_ntrain s) (a_isreg s) (a_x s) (a_y s) (a_path s) (a_rss s) (a_coef s), Ok tt)).
  { intros s0. unfold validate_new.
    replace (length (b_rows b) <? 1)%nat with false by (symmetry; apply Nat.ltb_ge; lia).
    replace (b_p b <? 1)%nat with false by (symmetry; apply Nat.ltb_ge; lia). reflexivity. }
  assert (E1 : Reqb n 1 = false) by (apply Reqb_false; exact H1).
  assert (F : forall s : lm M, fit_scaler c b s = (mk_lm (a_method s) (Some (Some sc)) (a_nfin s) (a_nobs s) (a_nfeat s)
     (a_ntrain s) (a_isreg s) (a_x s) (a_y s) (a_path s) (a_rss s) (a_coef s), Ok sc)).
  { intros s0. unfold fit_scaler. rewrite Hs. reflexivity. }
  split; [intros m' path ic k Hp Hf Hi Hk|intros m' beta Hp Hf]; unfold lm_fit; cbv zeta;
  fold n p; rewrite Ho, E1, Hp;
  rewrite (bnd_ok _ _ _ _ _ P), (bnd_ok _ _ _ _ _ (V _)); nrm;
  wr set_nobs; wr set_nfeat; wr set_ntrain;
  rewrite (bnd_ok _ _ _ _ _ (F _)); nrm; wr set_isreg; fold l;
  rewrite (bnd_ok _ _ _ _ _ (lift_ok _ _ _ Hx)); wr set_x; wr set_y;
  erewrite bnd_read by reflexivity;
  rewrite (bnd_ok _ _ _ _ _ (lift_ok _ _ _ Hf)); nrm; wr set_method.
  - wr set_path. wr set_rss. unfold select_row. fold nt.
    rewrite (bnd_ok _ _ _ _ _ (lift_ok _ _ _ Hi)), (bnd_ok _ _ _ _ _ (lift_ok _ _ _ Hk)). reflexivity.
  - reflexivity.
Qed.

(** Converse of [lm_update_ok]. *)
Lemma lm_update_intro {M} (ops : method_ops M) c b s n0 sc0 sc m x0 y0 xg isreg :
  let p := n_cols (c_icpt c) (b_p b) in
  a_nobs s = Some n0 -> a_scaler s = Some (Some sc0) -> a_method s = Some m ->
  a_x s = Some x0 -> a_y s = Some y0 -> a_isreg s = Some isreg ->
  (1 <= length (b_rows b))%nat -> (1 <= b_p b)%nat -> a_nfin s = Some (b_p b) ->
  sc_do sc0 && negb (forallb (fun j => j <? b_p b)%nat (sc_sel sc0)) = false ->
  scaler_update sc0 (b_rows b) = Ok sc ->
  let n := n0 + lsum (ws (b_rows b)) in
  let l := design_rows c sc (b_rows b) in
  let yg := update_y_gram y0 (Xs l) (ys l) (c_forget c) (ws l) in
  let nt := effective_training_length (c_forget c) n in
  op_update_x ops p x0 (Xs l) (c_forget c) (ws l) = Ok xg ->
  (forall m' path0 rss0 path ic k,
     op_path_based ops = true ->
     a_path s = Some path0 -> a_rss s = Some rss0 ->
     op_update_path ops m p xg yg path0 isreg = Ok (m', path) ->
     length rss0 = length path ->
     let rss := map2 (fun r0 r1 => (1 - c_forget c) * r0 + r1) rss0 (map (rss_update p l) path) in
     from_rss_array (c_ic c) nt (map (n_nonzero p) path) rss = Ok ic ->
     argmin ic = Ok k ->
     lm_update ops c b s
     = (mk_lm (Some m') (Some (Some sc)) (a_nfin s) (Some n) (a_nfeat s) (Some nt)
            (Some isreg) (Some xg) (Some yg) (Some path)
            (Some rss) (Some (nth k path (fun _ => 0))), Ok tt)) /\
  (forall m' beta0 beta,
     op_path_based ops = false -> a_coef s = Some beta0 ->
     op_update_beta ops m p xg yg beta0 isreg = Ok (m', beta) ->
     lm_update ops c b s
     = (mk_lm (Some m') (Some (Some sc)) (a_nfin s) (Some n) (a_nfeat s) (Some nt)
            (Some isreg) (Some xg) (Some yg) (a_path s) (a_rss s) (Some beta), Ok tt)).
Proof.
  intros p. destruct s as [am asc anf an anft ant air ax ay ap ars ac].
  intros En Es Em Ex Ey Ei L1 L2 Ef Hsel Hs n l yg nt Hx.
  cbn [a_method a_scaler a_nfin a_nobs a_isreg a_x a_y] in En, Es, Em, Ex, Ey, Ei, Ef. subst an asc am ax ay air anf.
  assert (V : forall s : lm M, a_nfin s = Some (b_p b) -> validate_old (b_p b) (length (b_rows b)) s = (s, Ok tt)).
  { intros s0 E0. unfold validate_old.
    replace (length (b_rows b) <? 1)%nat with false by (symmetry; apply Nat.ltb_ge; lia).
    replace (b_p b <? 1)%nat with false by (symmetry; apply Nat.ltb_ge; lia). cbn [orb].
    rewrite E0, Nat.eqb_refl. reflexivity. }
  assert (F : forall s : lm M, a_scaler s = Some (Some sc0) ->
     update_scaler b s = (mk_lm (a_method s) (Some (Some sc)) (a_nfin s) (a_nobs s) (a_nfeat s)
     (a_ntrain s) (a_isreg s) (a_x s) (a_y s) (a_path s) (a_rss s) (a_coef s), Ok sc)).
  { intros s0 E0. unfold update_scaler. erewrite bnd_read by exact E0. cbv beta iota.
    rewrite Hsel, (bnd_ok _ _ _ _ _ (lift_ok _ _ _ Hs)). wr set_scaler. reflexivity. }
  split; [intros m' path0 rss0 path ic k Hp Hq Hr Hf Hl rss Hi Hk; cbn [a_path a_rss] in Hq, Hr; subst ap ars
    |intros m' beta0 beta Hp Hq Hf; cbn [a_coef] in Hq; subst ac];
  unfold lm_update; cbv zeta; fold p; rewrite Hp;
  erewrite bnd_ok by (apply V; reflexivity); erewrite bnd_read by reflexivity;
  wr set_nobs; wr set_ntrain;
  erewrite bnd_ok by (apply F; reflexivity); nrm; fold l;
  erewrite bnd_read by reflexivity;
  rewrite (bnd_ok _ _ _ _ _ (lift_ok _ _ _ Hx)); wr set_x;
  erewrite bnd_read by reflexivity; wr set_y;
  do 3 erewrite bnd_read by reflexivity;
  fold yg; rewrite (bnd_ok _ _ _ _ _ (lift_ok _ _ _ Hf)); nrm; wr set_method.
  - wr set_path. erewrite bnd_read by reflexivity. rewrite Hl, Nat.eqb_refl. cbn [negb].
    wr set_rss. unfold select_row. fold n nt rss.
    rewrite (bnd_ok _ _ _ _ _ (lift_ok _ _ _ Hi)), (bnd_ok _ _ _ _ _ (lift_ok _ _ _ Hk)). reflexivity.
  - reflexivity.
Qed.
