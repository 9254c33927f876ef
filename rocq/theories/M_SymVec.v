(** Model of desdeo_emo/utilities/symmetric_vectors.py. Its shear, householder and rotate_toward (6-27, 66-73, 76-112) are the text
    of utilities/ReferenceVectors.py, and its normalize and rotate (30-63) differ only by a missing np.asarray, so the definitions of
    M_RefVec.v model them; what is modelled here is the smooth-transition loop of [main] (126-131, the same loop again at 132-149).
    Not modelled: the plots, and rounding. *)
From Verif Require Import Base RVec M_RefVec.
From Coq Require Import Reals.
Open Scope R_scope.

(** np.average(rows, axis=0), symmetric_vectors.py:128; the number of columns is that of the first row. [None]: no rows (NaN). *)
Definition average (rows : list (list R)) : option (list R) :=
  match rows with
  | [] => None
  | r :: _ => Some (map (fun j => rsum (map (fun v => nth j v 0) rows) / INR (length rows)) (seq 0 (length r)))
  end.

(** One pass of the loop body, symmetric_vectors.py:128-129 ([None]: NaN). *)
Definition transition_step (target : list R) (degrees : R) (final : list (list R)) : option (list (list R) * bool) :=
  obind (average final) (fun center => rotate_toward center target final degrees).

(** symmetric_vectors.py:126-131, at most [fuel] passes. *)
Inductive progress :=
| Turning (final : list (list R))                       (* not complete after [fuel] passes *)
| Arrived (passes : nat) (final : list (list R))        (* complete at pass [passes] *)
| Undefined (passes : nat).                             (* NaN at pass [passes] *)
Fixpoint transition_from (done fuel : nat) (target : list R) (degrees : R) (final : list (list R)) : progress :=
  match fuel with
  | O => Turning final
  | S fuel' => match transition_step target degrees final with
               | None => Undefined (S done)
               | Some (final', true) => Arrived (S done) final'
               | Some (final', false) => transition_from (S done) fuel' target degrees final'
               end
  end.
Definition transition := transition_from 0.
