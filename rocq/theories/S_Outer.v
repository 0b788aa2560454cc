(** Specification for C127: when the outer loops of fit and update end. *)
From Coq Require Import Reals List Arith.
From Verif Require Import Base Lin Data M_State M_LM M_GAMLSS.
Import ListNotations.
Open Scope R_scope.

(** [cyc it dev s]: cycle number [it], entered with the deviance [dev]. The list has the
    deviance after each cycle. *)
Inductive cycles_run {S : Type} (cyc : nat -> R -> st S R) : nat -> R -> S -> list R -> S -> Prop :=
| cr_nil it dev s : cycles_run cyc it dev s [] s
| cr_cons it dev s dev1 s1 ds s' : cyc (it + 1)%nat dev s = (s1, Ok dev1) ->
    cycles_run cyc (it + 1)%nat dev1 s1 ds s' -> cycles_run cyc it dev s (dev1 :: ds) s'.

(** Two successive deviances within the tolerances of the outer loop. *)
Definition within_tolerance {M} (c : gam_cfg M) (old new : R) : Prop :=
  (old <> 0 /\ Rabs (old - new) / Rabs old < o_rel_outer c) \/ Rabs (old - new) < o_abs_outer c.

(** The deviance before the first cycle and after [k] cycles; the one "before" it is the
    constant of the code, larger by 1000. *)
Definition after (D0 : R) (ds : list R) (k : nat) : R := nth k (D0 :: ds) 0.
Definition before (D0 : R) (ds : list R) (k : nat) : R := nth k (D0 + 1000 :: D0 :: ds) 0.

(** The loop may end after [k] cycles: [inc] says whether an increase ends it. *)
Definition may_end {M} (c : gam_cfg M) (inc : bool) (mn : nat) (D0 : R) (ds : list R) (k : nat) : Prop :=
  (mn <= k)%nat /\
  (within_tolerance c (before D0 ds k) (after D0 ds k) \/ (o_max_outer c <= k)%nat \/
   (inc = true /\ before D0 ds k < after D0 ds k)).

(** The loop ended at the first possible moment. *)
Definition ended {M} (c : gam_cfg M) (inc : bool) (mn : nat) (D0 : R) (ds : list R) : Prop :=
  may_end c inc mn D0 ds (length ds) /\ forall k, (k < length ds)%nat -> ~ may_end c inc mn D0 ds k.
