(** Model of [src/ondil/methods/factory.py:9-39] and of the estimation method objects as
    mutable objects on a heap ([base/estimation_method.py], [methods/]), with the two
    places which call the factory: [online_linear_model.py:79] and
    [online_gamlss.py:234-239]. Real arithmetic.

    The methods assign attributes of [self] only ([elasticnet.py:104-109],
    [ridge.py:60-65, 104-105]) and never write into an array they were given, so an
    object is a value and the arrays shared by [copy.copy] need no addresses. *)
From Coq Require Import Reals List Bool Arith String.
From Verif Require Import Base Lin M_OLS M_CD M_Path M_Ridge.
Import ListNotations.
Open Scope R_scope.

(** The concrete classes of [methods/]; [LassoPath] is [ElasticNetPath] with [alpha = 1]
    (lasso_path.py:63-75). *)
Inductive mobj := OOls | OEn (c : en_cfg) | ORidge (c : ridge_cfg).
Definition heap := list mobj.

(** elasticnet.py:37-55 and lasso_path.py:31-47: the defaults of the constructors. *)
Definition default_en (alpha : R) : en_cfg :=
  mk_en alpha 100 (1 / 10000) 0 previous_lambda previous_fit false None None (1 / 10000) 1000.

(** What the user passes as [method] for one parameter: a string, an object (its
    address) or anything else. *)
Inductive marg := MName (s : string) | MRef (a : nat) | MOther.

(** factory.py:13-24 [from_string]. *)
Definition from_string (s : string) : res mobj :=
  if String.eqb s "lasso" then Ok (OEn (default_en 1))
  else if String.eqb s "ols" then Ok OOls
  else if String.eqb s "elasticnet" then Ok (OEn (default_en (1 / 2)))
  else Raise ValueError.

(** factory.py:27-39 [get_estimation_method]. A new object is put at the end of the
    heap, [copy.copy] makes a new object with the same attributes. A reference is never
    dangling in Python; the model raises. *)
Definition get_estimation_method (h : heap) (m : marg) : heap * res nat :=
  match m with
  | MName s => match from_string s with
               | Ok o => ((h ++ [o])%list, Ok (List.length h))
               | Raise e => (h, Raise e)
               end
  | MRef a => match nth_error h a with
              | Some o => ((h ++ [o])%list, Ok (List.length h))
              | None => (h, Raise AttributeError)
              end
  | MOther => (h, Raise ValueError)
  end.

(** A call of an estimation method object with its arguments (the Gramians, the
    coefficients so far, the mask) and the visiting orders drawn during the call. *)
Inductive call :=
| CFitPath (perm : nat -> nat -> list nat) (J : nat) (x : mat) (y : vec) (isreg : nat -> bool)
| CUpdatePath (perm : nat -> nat -> list nat) (J : nat) (x : mat) (y : vec) (P : nat -> vec) (isreg : nat -> bool)
| CFitBeta (perm : nat -> list nat) (J : nat) (x : mat) (y : vec) (isreg : nat -> bool)
| CUpdateBeta (perm : nat -> list nat) (J : nat) (x : mat) (y : vec) (b : vec) (isreg : nat -> bool).

Inductive out := RNone | RPath (P : nat -> vec) | RBeta (b : vec).

(** elasticnet.py:104-109: the assignments, made before the lengths are checked. *)
Definition en_filled (c : en_cfg) (J : nat) : en_cfg :=
  mk_en (en_alpha c) (en_n c) (en_eps c) (en_early_stop c)
    (en_start_initial c) (en_start_update c) (en_random c)
    (Some (fill_bound (en_lower c) J)) (Some (fill_bound (en_upper c) J)) (en_tol c) (en_maxit c).

(** ridge.py:60-65, and 104-105 if the lengths are right. *)
Definition ridge_filled (c : ridge_cfg) (J : nat) (x : mat) : ridge_cfg :=
  mk_ridge
    (match ridge_bounds c J with Ok _ => Some (ridge_lambda c J x) | Raise _ => ri_lambda c end)
    (ri_start c) (ri_random c)
    (Some (fill_bound (ri_lower c) J)) (Some (fill_bound (ri_upper c) J)) (ri_tol c) (ri_maxit c).

Definition as_path (r : res (nat -> vec)) : res out := do P <- r; Ok (RPath P).
Definition as_beta (r : res vec) : res out := do b <- r; Ok (RBeta b).

(** One call: the object afterwards and what the caller gets.
    recursive_least_squares.py:45-76, elasticnet.py:132-186, ridge.py:88-148,
    estimation_method.py:31-48. *)
Definition invoke (inv : nat -> mat -> option mat) (o : mobj) (c : call) : mobj * res out :=
  match o, c with
  | OOls, CFitBeta _ J x y _ => (o, Ok (RBeta (ols_beta J x y)))
  | OOls, CUpdateBeta _ J x y _ _ => (o, Ok (RBeta (ols_beta J x y)))
  | OOls, _ => (o, Raise NotImplementedErr)
  | OEn e, CFitPath perm J x y isreg =>
      (OEn (en_filled e J), as_path (do r <- fit_beta_path e perm J x y isreg; Ok (snd r)))
  | OEn e, CUpdatePath perm J x y P isreg => (o, as_path (update_beta_path e perm J x y P isreg))
  | OEn _, _ => (o, Ok RNone)                                     (* elasticnet.py:182-186 *)
  | ORidge r, CFitBeta perm J x y isreg =>
      (ORidge (ridge_filled r J x), as_beta (do q <- ridge_fit inv r perm J x y isreg; Ok (snd q)))
  | ORidge r, CUpdateBeta perm J x y b isreg => (o, as_beta (ridge_update r perm J x y b isreg))
  | ORidge _, _ => (o, Raise NotImplementedErr)
  end.

Fixpoint invokes (inv : nat -> mat -> option mat) (o : mobj) (cs : list call) : mobj * list (res out) :=
  match cs with
  | [] => (o, [])
  | c :: cs' => let (o1, r) := invoke inv o c in
                let (o2, rs) := invokes inv o1 cs' in (o2, r :: rs)
  end.

Fixpoint put (h : heap) (a : nat) (o : mobj) : heap :=
  match h, a with
  | [], _ => []
  | _ :: h', O => o :: h'
  | o' :: h', S a' => o' :: put h' a' o
  end.

(** An estimator: the [method] argument per distribution parameter (one for the linear
    model) and the objects in [self._method] ([None]: attribute not set). *)
Record est := mk_est { e_args : list marg; e_own : option (list nat) }.
Record world := mk_world { w_heap : heap; w_ests : list est }.

(** online_gamlss.py:234-239, online_linear_model.py:79: one object per parameter; the
    attribute is assigned only if no call of the factory raised. *)
Fixpoint gets (h : heap) (ms : list marg) : heap * res (list nat) :=
  match ms with
  | [] => (h, Ok [])
  | m :: ms' =>
      match get_estimation_method h m with
      | (h1, Raise e) => (h1, Raise e)
      | (h1, Ok a) => match gets h1 ms' with
                      | (h2, Ok l) => (h2, Ok (a :: l))
                      | (h2, Raise e) => (h2, Raise e)
                      end
      end
  end.

(** The calls an estimator makes on its own objects, in order; [p] is the parameter. The
    model does not say which calls it makes (they depend on the data): every list is
    covered, also one which stops after an exception. *)
Fixpoint run_calls (inv : nat -> mat -> option mat) (own : list nat) (h : heap)
    (cs : list (nat * call)) : heap * list (res out) :=
  match cs with
  | [] => (h, [])
  | (p, c) :: cs' =>
      match nth_error own p with
      | None => let (h', rs) := run_calls inv own h cs' in (h', Raise KeyError :: rs)
      | Some a =>
          match nth_error h a with
          | None => let (h', rs) := run_calls inv own h cs' in (h', Raise AttributeError :: rs)
          | Some o => let (o', r) := invoke inv o c in
                      let (h', rs) := run_calls inv own (put h a o') cs' in (h', r :: rs)
          end
      end
  end.

Fixpoint put_est (l : list est) (i : nat) (e : est) : list est :=
  match l, i with
  | [], _ => []
  | _ :: l', O => e :: l'
  | e' :: l', S i' => e' :: put_est l' i' e
  end.

(** What a program does with estimators: construct one, [fit] it (prepare, then calls on
    the new objects), [update] it (calls on the objects of the last fit). *)
Inductive event :=
| ENew (args : list marg)
| EFit (i : nat) (cs : list (nat * call))
| EUpdate (i : nat) (cs : list (nat * call)).

Definition step (inv : nat -> mat -> option mat) (w : world) (ev : event) : world * list (res out) :=
  match ev with
  | ENew args => (mk_world (w_heap w) (w_ests w ++ [mk_est args None])%list, [])
  | EFit i cs =>
      match nth_error (w_ests w) i with
      | None => (w, [Raise AttributeError])
      | Some e =>
          match gets (w_heap w) (e_args e) with
          | (h1, Raise ex) => (mk_world h1 (w_ests w), [Raise ex])
          | (h1, Ok own) =>
              let (h2, rs) := run_calls inv own h1 cs in
              (mk_world h2 (put_est (w_ests w) i (mk_est (e_args e) (Some own))), rs)
          end
      end
  | EUpdate i cs =>
      match nth_error (w_ests w) i with
      | None => (w, [Raise AttributeError])
      | Some e =>
          match e_own e with
          | None => (w, [Raise AttributeError])
          | Some own => let (h2, rs) := run_calls inv own (w_heap w) cs in (mk_world h2 (w_ests w), rs)
          end
      end
  end.

Fixpoint steps (inv : nat -> mat -> option mat) (w : world) (evs : list event) : world :=
  match evs with [] => w | ev :: evs' => steps inv (fst (step inv w ev)) evs' end.
