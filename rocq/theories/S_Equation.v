(** Specifications for the per-parameter options and the equation. *)
From Coq Require Import Reals List Bool Arith ZArith.
From Verif Require Import Base Lin M_Equation.
Import ListNotations.

(** The value a user expects for parameter [p]. *)
Definition wanted {A} (attribute : option_value A) (default : A) (p : nat) : A :=
  match attribute with
  | Scalar a => a
  | Dict d => match lookup d p with Some v => v | None => default end
  end.

(** Keys of a python dict are distinct. *)
Definition is_dict {A} (d : dict A) : Prop := NoDup (keys d).

(** The dict was written in parameter order, without gaps: [{0: .., 1: .., ..}]. *)
Definition in_parameter_order {A} (d : dict A) : Prop := keys d = seq 0 (length d).

(** An index into [ncol] columns, negative ones counting from the end. *)
Definition index_ok (ncol : nat) (z : Z) : Prop := (- Z.of_nat ncol <= z < Z.of_nat ncol)%Z.
(** The column that numpy takes for an index. *)
Definition column_of (ncol : nat) (z : Z) : nat := Z.to_nat (z mod Z.of_nat ncol).

(** Selections that can be used with [ncol] columns of X. *)
Definition selects (e : eqn) (fit_intercept : bool) (ncol : nat) : Prop :=
  match e with
  | EqAll => True
  | EqIntercept => fit_intercept = true
  | EqInt l => l <> [] /\ Forall (index_ok ncol) l
  | EqBool l | EqListBool l => length l = ncol
  | EqListInt l => Forall (index_ok ncol) l
  | EqNames l => l = []
  | EqArrOther | EqOther => False
  end.

(** The selected columns of X. *)
Definition selected (e : eqn) (ncol : nat) : list nat :=
  match e with
  | EqAll => seq 0 ncol
  | EqInt l | EqListInt l => map (column_of ncol) l
  | EqBool l | EqListBool l => filter (fun j => nth j l false) (seq 0 ncol)
  | _ => []
  end.
(** A row of the model matrix: a one if an intercept is fitted, then the selected columns. *)
Definition model_row (e : eqn) (fit_intercept : bool) (ncol : nat) (x : vec) : list R :=
  (if fit_intercept then [1%R] else []) ++ map x (selected e ncol).

Definition is_list_of_bools (e : eqn) : bool := match e with EqListBool _ => true | _ => false end.

(** The first [k] entries of a vector. *)
Definition row_of (k : nat) (v : vec) : list R := map v (seq 0 k).
