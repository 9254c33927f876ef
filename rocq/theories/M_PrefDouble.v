(** Preferred solutions in double precision: SelectionBase.py:268-280 (manage_preferred_solutions), ReferenceVectors.py:275-325 (interactive_adapt_1), 472-483 (add_edge_vectors), 245-250 (normalize); M_RefVec has them over the reals.
    Arithmetic as in M_RefDouble; overflow of the products and sums is not followed (that of norms is: [unit_row_fl]). *)
From Coq Require Import Reals.
From Flocq Require Import Core.
From Verif Require Import Base RVec M_RefVec M_Double M_RefDouble.
Open Scope R_scope.
(** The default translation_param, the double nearest to 0.2, and 1 - translation_param. *)
Definition param_fl : R := fl (2 / 10).
Definition rest_fl : R := fl (1 - param_fl).
(** Lines 300-302, 310-314: translation_param * initial_values + ((1 - translation_param) * z). *)
Definition shifted_fl (z : list R) (rows : list (list R)) : list (list R) := map (fun v => vmap2 (fun x y => fl (fl (param_fl * x) + fl (rest_fl * y))) v z) rows.
(** Lines 291-325 ([values] only). *)
Definition preferred_fl (t : order) (init z : list (list R)) (n_solutions : nat) : res (list (list R)) :=
  if Nat.eqb (length z) n_solutions then Ok (map (unit_row_fl t) init)
  else if Nat.eqb (length z) 0 then Err ValueError
  else Ok (map (unit_row_fl t) (flat_map (fun zi => shifted_fl zi init) z)).
(** SelectionBase.py:274-279 with lines 472-483: the axis vectors are appended and everything is normalised once more; [n]: values.shape[1]. *)
Definition manage_preferred_fl (t : order) (n : nat) (init z : list (list R)) (n_solutions : nat) : res (list (list R)) :=
  bind (preferred_fl t init z n_solutions) (fun vs => Ok (map (unit_row_fl t) (vs ++ eye n))).
(** SelectionBase.py:260-263, a reference point: (values * multiplier - ideal), over its norm; the multipliers are 1 or -1. [None]: the norm is 0, and the division yields NaN or infinity. *)
Definition ref_direction_fl (t : order) (ref mult ideal : list R) : option (list R) :=
  let d := vmap2 (fun x i => fl (x - i)) (map fl (vmap2 Rmult ref mult)) ideal in
  match norm_fl t d with
  | None => Some (map (fun _ => 0) d)
  | Some q => if Req_EM_T q 0 then None else Some (map (fun x => fl (x / q)) d)
  end.
(** SelectionBase.py:264-265 with ReferenceVectors.py:410-416, 472-483. *)
Definition manage_reference_fl (t : order) (n : nat) (init : list (list R)) (r : list R) : list (list R) := map (unit_row_fl t) (map (unit_row_fl t) (shifted_fl r init) ++ eye n).
