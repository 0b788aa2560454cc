(** Model of [src/ondil/scaler.py] ([OnlineScaler]). Real arithmetic. A boolean
    mask for [to_scale] is represented by the list of its true positions; negative
    column numbers are not modelled. Rows are assumed to have the fitted number of
    columns (sklearn's [validate_data] raises otherwise). *)
From Coq Require Import Reals List Bool Arith.
From Verif Require Import Base Lin Data M_Gram.
Import ListNotations.
Open Scope R_scope.

Inductive to_scale := ScaleAll | ScaleNone | ScaleCols (sel : list nat).

(** Attributes of the object, scaler.py:38-58 and 90. [mean_], [var_] and [_M] are
    indexed by the position in the selection. *)
Record scaler := mk_scaler {
  sc_forget : R; sc_do : bool; sc_sel : list nat;
  sc_mean : vec; sc_var : vec; sc_M : vec; sc_cum : R; sc_n : R
}.

(** scaler.py:41-51: [_selection] and [_do_scale]. *)
Definition selection (t : to_scale) (p : nat) : bool * list nat :=
  match t with
  | ScaleCols sel => (true, sel)
  | ScaleAll => (true, seq 0 p)
  | ScaleNone => (false, [])
  end.

(** [X[i, self._selection]]. *)
Definition pick (sel : list nat) (x : vec) : vec := fun k => x (nth k sel 0%nat).

(** scaler.py:70-112 [fit] on rows of [p] columns. Fewer than two rows are rejected
    by [validate_data]; a column number out of range raises IndexError;
    [np.average] raises ZeroDivisionError if the weights sum to zero. *)
Definition scaler_fit (forget : R) (t : to_scale) (p : nat) (l : list obs) : res scaler :=
  if (length l <? 2)%nat then Raise ValueError
  else
    let (do_scale, sel) := selection t p in
    let n := lsum (ws l) in
    if do_scale then
      if negb (forallb (fun j => j <? p)%nat sel) then Raise IndexError
      else
        let eff := map2 Rmult (ws l) (init_forget_vector forget (length l)) in
        let cum := lsum eff in
        if Reqb cum 0 then Raise ZeroDivisionError
        else
          let mean : vec := fun k => lsum (map2 (fun x e => pick sel x k * e) (Xs l) eff) / cum in
          let var : vec := fun k =>
            lsum (map2 (fun x e => (pick sel x k - mean k) ^ 2 * e) (Xs l) eff) / cum in
          Ok (mk_scaler forget true sel mean var (fun k => var k * cum) cum n)
    else Ok (mk_scaler forget false [] (fun _ => 0) (fun _ => 0) (fun _ => 0) 0 n).

(** scaler.py:138-156: one pass of the loop. A cumulative weight of zero gives NaN
    in the code; the theorems exclude it. *)
Definition scaler_row (s : scaler) (x : vec) (w : R) : scaler :=
  let xs := pick (sc_sel s) x in
  let eff_old_w := sc_cum s * (1 - sc_forget s) in
  let cum := eff_old_w + w in
  let diff_old : vec := fun k => xs k - sc_mean s k in
  let mean : vec := fun k => (sc_mean s k * eff_old_w + xs k * w) / cum in
  let diff_new : vec := fun k => xs k - mean k in
  let M : vec := fun k => sc_M s k * (1 - sc_forget s) + w * diff_old k * diff_new k in
  let var : vec := fun k => M k / cum in
  mk_scaler (sc_forget s) (sc_do s) (sc_sel s) mean var M cum (sc_n s).

(** scaler.py:115-161 [update]. *)
Definition scaler_update (s : scaler) (l : list obs) : res scaler :=
  if (length l <? 1)%nat then Raise ValueError
  else
    let s1 := mk_scaler (sc_forget s) (sc_do s) (sc_sel s) (sc_mean s) (sc_var s) (sc_M s)
                        (sc_cum s) (sc_n s + lsum (ws l)) in
    if sc_do s then Ok (fold_left (fun s o => scaler_row s (ox o) (ow o)) l s1)
    else Ok s1.

Fixpoint scaler_updates (s : scaler) (bs : list (list obs)) : res scaler :=
  match bs with
  | [] => Ok s
  | b :: bs' => do s' <- scaler_update s b; scaler_updates s' bs'
  end.

Definition cset (x : vec) (j : nat) (v : R) : vec := fun i => if Nat.eqb i j then v else x i.

(** [out[:, sel] = value] for one row: assignments in order of the selection. *)
Fixpoint assign (out : vec) (sel : list nat) (k : nat) (value : vec) : vec :=
  match sel with
  | [] => out
  | j :: sel' => assign (cset out j (value k)) sel' (S k) value
  end.

(** scaler.py:163-189 [transform], one row. *)
Definition scaler_transform (s : scaler) (x : vec) : vec :=
  if sc_do s then
    assign x (sc_sel s) 0 (fun k => (pick (sc_sel s) x k - sc_mean s k) / sqrt (sc_var s k))
  else x.

(** scaler.py:191-216 [inverse_transform], one row. *)
Definition scaler_inverse (s : scaler) (x : vec) : vec :=
  if sc_do s then
    assign x (sc_sel s) 0 (fun k => pick (sc_sel s) x k * sqrt (sc_var s k) + sc_mean s k)
  else x.

(** States after a successful [fit] and any number of successful updates, with the
    stream [l] of all rows seen. *)
Definition reachable_scaler (forget : R) (t : to_scale) (p : nat) (l : list obs) (s : scaler) : Prop :=
  exists b0 bs s0, l = b0 ++ concat bs /\ weights_nonneg b0 /\ Forall weights_nonneg bs /\ Forall nonempty bs /\
    scaler_fit forget t p b0 = Ok s0 /\ scaler_updates s0 bs = Ok s.
