(** Non-preferred solutions in double precision: ReferenceVectors.py:327-391 (interactive_adapt_2); M_RefVec has it over the reals. Arithmetic and sums as in M_RefDouble (overflow of the sum of absolute values not followed). *)
From Coq Require Import Reals.
From Flocq Require Import Core.
From Verif Require Import Base RVec M_RefVec M_Double M_RefDouble M_NbDouble.
Open Scope R_scope.
(** Lines 364-368: np.linalg.norm(z, ord=1, axis=1), np.divide(z, norm). [None]: the norm is 0 and the row becomes NaN. *)
Definition norm1_fl (t : order) (z : list R) : R := sum_fl t (fun i => fl (Rabs (nth i z 0))).
Definition direction1_fl (t : order) (z : list R) : option (list R) :=
  let s := norm1_fl t z in if Req_EM_T s 0 then None else Some (map (fun x => fl (x / s)) z).
(** Lines 371-384: all(d >= predefined_distance), the double nearest to 0.2; a comparison with NaN is False. *)
Definition far_enough_fl (t1 t2 : order) (zs : list (list R)) (v : list R) : bool :=
  forallb (fun z => match direction1_fl t1 z with
                    | None => false
                    | Some c => if Rle_dec (fl (2 / 10)) (distance_fl t2 v c) then true else false
                    end) zs.
(** Lines 357-361, 386-388 ([values] only, one row per row of [planar]). *)
Definition non_preferred_fl (t1 t2 : order) (init values planar z : list (list R)) (n_solutions : nat) : res (list (list R)) :=
  if Nat.eqb (length z) n_solutions then Ok (map (unit_row_fl t1) init) else masked (map (far_enough_fl t1 t2 z) planar) values.
