(** The simplex lattice of reference vectors in double precision (ReferenceVectors.py:190-212); M_Lattice has its integers and exact quotients. *)
From Coq Require Import Reals.
From Flocq Require Import Core.
From Verif Require Import Base RVec M_Lattice M_Double M_RefDouble.
Open Scope R_scope.
(** ReferenceVectors.py:210-211: weight / lattice_resolution, the array kept as values_planar. Both integers are doubles (they are far below 2^53), so there is one rounding per entry. Resolution 0 (NaN, C45) is left out. *)
Definition planar_fl (h n_obj : nat) : res (list (list R)) :=
  bind (lattice_weights h n_obj) (fun ws => Ok (map (map (fun k => fl (IZR k / INR h))) ws)).
(** ReferenceVectors.py:212, 243-250: normalised; [t]: the order in which the squares of a row are added. *)
Definition initial_vectors_fl (t : order) (h n_obj : nat) : res (list (list R)) :=
  bind (planar_fl h n_obj) (fun vs => Ok (map (unit_row_fl t) vs)).
(** ReferenceVectors.py:247, 250: the planar vectors divided by their sums (as computed); these are what MOEA/D measures distances between. A sum of 0 (NaN) does not occur for resolutions from 1. *)
Definition planar_row_fl (t : order) (v : list R) : list R := let s := sum_fl t (fun i => nth i v 0) in map (fun x => fl (x / s)) v.
Definition planar_vectors_fl (t : order) (h n_obj : nat) : res (list (list R)) :=
  bind (planar_fl h n_obj) (fun vs => Ok (map (planar_row_fl t) vs)).
