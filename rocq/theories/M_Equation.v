(** Model of the option handling of [OnlineDistributionalRegression]
    (src/ondil/estimators/online_gamlss.py:232-424, 631-638) and of [handle_param_dict]
    (src/ondil/utils.py:8-57). Warnings and messages are not modelled. *)
From Coq Require Import Reals List Bool Arith ZArith.
From Verif Require Import Base Lin.
Import ListNotations.
Open Scope R_scope.

(** A python dict with integer keys: pairs in insertion order, keys distinct. *)
Definition dict (A : Type) : Type := list (nat * A).
Fixpoint lookup {A} (d : dict A) (k : nat) : option A :=
  match d with
  | [] => None
  | (k', v) :: d' => if Nat.eqb k' k then Some v else lookup d' k
  end.
(** [d[k] = v]: an existing key keeps its place, a new key comes last. *)
Fixpoint assign_key {A} (d : dict A) (k : nat) (v : A) : dict A :=
  match d with
  | [] => [(k, v)]
  | (k', v') :: d' => if Nat.eqb k' k then (k', v) :: d' else (k', v') :: assign_key d' k v
  end.
Definition keys {A} (d : dict A) : list nat := map fst d.
Definition values {A} (d : dict A) : list A := map snd d.

(** An option as given by the user: one value or a dict. *)
Inductive option_value (A : Type) : Type := Scalar (a : A) | Dict (d : dict A).
Arguments Scalar {A}. Arguments Dict {A}.

(** The loop of online_gamlss.py:276-288: missing keys get the default. *)
Definition fill_step {A} (default : A) (d : dict A) (p : nat) : dict A :=
  match lookup d p with Some _ => d | None => assign_key d p default end.
Definition fill {A} (n : nat) (default : A) (d : dict A) : dict A :=
  fold_left (fill_step default) (seq 0 n) d.

(** online_gamlss.py:274-294 [_process_parameter] with a scalar default; the first component is the result, the
    second the user's object afterwards (a dict is extended in place). *)
Definition process_parameter {A} (n : nat) (attribute : option_value A) (default : A)
  : dict A * option_value A :=
  match attribute with
  | Dict d => let d' := fill n default d in (d', Dict d')
  | Scalar a => (map (fun p => (p, a)) (seq 0 n), Scalar a)
  end.

(** utils.py:8-57 [handle_param_dict]: the attribute of the object after the call and the
    user's object; a default may be a dict, in which a missing key raises KeyError. *)
Fixpoint fill_from {A} (ps : list nat) (default : option_value A) (d : dict A) : res (dict A) :=
  match ps with
  | [] => Ok d
  | p :: ps' =>
      match lookup d p with
      | Some _ => fill_from ps' default d
      | None =>
          match default with
          | Scalar a => fill_from ps' default (assign_key d p a)
          | Dict dd => match lookup dd p with
                       | Some a => fill_from ps' default (assign_key d p a)
                       | None => Raise KeyError
                       end
          end
      end
  end.
Definition handle_param_dict {A} (n : nat) (param default : option_value A) : res (dict A) :=
  match param with
  | Dict d => fill_from (seq 0 n) default d
  | Scalar a => Ok (map (fun p => (p, a)) (seq 0 n))
  end.

(** One entry of the equation: the strings, integer, boolean or other arrays, lists of
    column names, integers or booleans (an empty list is [EqListInt []]), anything else. *)
Inductive eqn : Type :=
| EqAll | EqIntercept
| EqInt (l : list Z) | EqBool (l : list bool) | EqArrOther
| EqNames (l : list nat) | EqListInt (l : list Z) | EqListBool (l : list bool)
| EqOther.

(** online_gamlss.py:321-334; [frames]: pandas or polars is installed. *)
Definition eqn_ok (frames : bool) (e : eqn) : bool :=
  match e with
  | EqAll | EqIntercept | EqInt _ | EqBool _ | EqArrOther => true
  | EqNames _ | EqListInt _ | EqListBool _ => frames
  | EqOther => false
  end.

(** online_gamlss.py:309-334: one pass of the loop over the parameters. *)
Fixpoint process_entries (frames : bool) (ps : list nat) (d : dict eqn) : res (dict eqn) :=
  match ps with
  | [] => Ok d
  | p :: ps' =>
      let d' := fill_step EqIntercept d p in
      match lookup d' p with
      | Some e => if eqn_ok frames e then process_entries frames ps' d' else Raise ValueError
      | None => Raise KeyError
      end
  end.
(** online_gamlss.py:296-336 [_process_equation]. *)
Definition process_equation (frames : bool) (n : nat) (equation : option (dict eqn)) : res (dict eqn) :=
  match equation with
  | None => Ok (map (fun p => (p, match p with O => EqAll | _ => EqIntercept end)) (seq 0 n))
  | Some d => process_entries frames (seq 0 n) d
  end.

Fixpoint zmax (z : Z) (l : list Z) : Z := match l with [] => z | a :: l' => zmax (Z.max z a) l' end.

(** online_gamlss.py:364-390 [get_J_from_equation], one parameter; [ncol] columns in X. *)
Definition get_J (e : eqn) (fit_intercept : bool) (ncol : nat) : res nat :=
  let i := if fit_intercept then 1%nat else 0%nat in
  match e with
  | EqAll => Ok (ncol + i)%nat
  | EqIntercept => Ok 1%nat
  | EqBool l => if Nat.eqb (length l) ncol then Ok (length (filter (fun b => b) l) + i)%nat else Raise ValueError
  | EqInt [] => Raise ValueError                     (* max() of an empty array *)
  | EqInt (z :: l) => if (zmax z l >=? Z.of_nat ncol)%Z then Raise ValueError else Ok (S (length l) + i)%nat
  | EqArrOther => Raise ValueError
  | EqNames l => Ok (length l + i)%nat
  | EqListInt l => Ok (length l + i)%nat
  | EqListBool l => Ok (length l + i)%nat
  | EqOther => Raise ValueError
  end.

(** numpy's [X[:, eq]] on an array with [ncol] columns: the selected columns. *)
Definition wrap (ncol : nat) (z : Z) : res nat :=
  if (z <? 0)%Z
  then if (z + Z.of_nat ncol <? 0)%Z then Raise IndexError else Ok (Z.to_nat (z + Z.of_nat ncol))
  else if (z <? Z.of_nat ncol)%Z then Ok (Z.to_nat z) else Raise IndexError.
Fixpoint wrap_all (ncol : nat) (l : list Z) : res (list nat) :=
  match l with
  | [] => Ok []
  | z :: l' => do k <- wrap ncol z; do ks <- wrap_all ncol l'; Ok (k :: ks)
  end.
Fixpoint mask_positions (k : nat) (l : list bool) : list nat :=
  match l with [] => [] | b :: l' => if b then k :: mask_positions (S k) l' else mask_positions (S k) l' end.
Definition mask (ncol : nat) (l : list bool) : res (list nat) :=
  if Nat.eqb (length l) ncol then Ok (mask_positions 0 l) else Raise IndexError.
Definition columns (e : eqn) (ncol : nat) : res (list nat) :=
  match e with
  | EqAll => Ok (seq 0 ncol)
  | EqInt l | EqListInt l => wrap_all ncol l
  | EqBool l | EqListBool l => mask ncol l
  | EqNames [] => Ok []
  | EqNames _ | EqArrOther => Raise IndexError
  | EqIntercept | EqOther => Raise ValueError
  end.

(** online_gamlss.py:392-424 [make_model_array] for an ndarray X (fit, update and the
    predict methods always pass one, since [validate_data] converts data frames): the
    number of columns and the rows of the result. *)
Definition make_model_array (e : eqn) (fit_intercept : bool) (ncol : nat) (X : list vec)
  : res (nat * list vec) :=
  match e with
  | EqIntercept => if fit_intercept then Ok (1%nat, map (fun _ _ => 1) X) else Raise ValueError
  | _ =>
      do ks <- columns e ncol;
      if fit_intercept
      then Ok (S (length ks), map (fun x j => match j with O => 1 | S i => x (nth i ks O) end) X)
      else Ok (length ks, map (fun x j => x (nth j ks O)) X)
  end.

(** online_gamlss.py:634-638 [_make_step_size_schedule]: entry [it_outer, it_inner, param]
    is the [param]-th value of the dict; the length of the last axis is the number of values. *)
Definition step_entry (steps : dict R) (param : nat) : res R :=
  match nth_error (values steps) param with Some v => Ok v | None => Raise IndexError end.
