(** MOEA/D's neighbourhoods in double precision (MOEAD_select.py:36-43, 118-127, with scipy's distance_matrix); M_MOEAD has them for any distance of exact numbers.
    Arithmetic as in M_Double; overflow is not followed (with entries up to 2^500 there is none). *)
From Coq Require Import Reals.
From Flocq Require Import Core.
From Verif Require Import Base RVec M_Double M_RefDouble.
Open Scope R_scope.
(** scipy.spatial.distance_matrix, one entry: np.sum(np.abs(y - x) ** 2, axis=-1) ** 0.5 with every difference, square and sum (in the order [t]) and the root rounded. *)
Definition square_sum_fl (t : order) (v w : list R) : R := sum_fl t (fun i => fl (Rabs (fl (nth i w 0 - nth i v 0)) * Rabs (fl (nth i w 0 - nth i v 0)))).
Definition distance_fl (t : order) (v w : list R) : R := fl (sqrt (square_sum_fl t v w)).
(** MOEAD_select.py:37-43: the positions of the n_neighbors smallest distances of each row, [argsort] being np.argsort; [vs] is values_planar. *)
Definition neighborhoods_fl (argsort : list R -> list nat) (t : order) (vs : list (list R)) (n_neighbors : nat) : list (list nat) :=
  map (fun v => firstn n_neighbors (argsort (map (distance_fl t v) vs))) vs.
