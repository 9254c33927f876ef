(** What a trace of a population shows, without reference to how it is built. [rows]: the individuals; [n]: the number of objectives. *)
From Verif Require Import Base M_Animate.
From Coq Require Import QArith.
Open Scope nat_scope.

(** [vals] is objective [j] of every individual, in order. *)
Definition shows_objective (rows : list (list Q)) (j : nat) (vals : list Q) : Prop :=
  length vals = length rows /\ forall k r, nth_error rows k = Some r -> nth_error vals k = Some (nth j r 0%Q).
(** [lo] and [hi] are the smallest and the largest value of objective [j]. *)
Definition range_of (rows : list (list Q)) (j : nat) (lo hi : Q) : Prop :=
  (exists r, In r rows /\ nth j r 0%Q = lo) /\ (exists r, In r rows /\ nth j r 0%Q = hi) /\ forall r, In r rows -> (lo <= nth j r 0)%Q /\ (nth j r 0 <= hi)%Q.

Inductive shows (n : nat) (rows : list (list Q)) : trace -> Prop :=
| shows_2d : forall x y, n = 2 -> shows_objective rows 0 x -> shows_objective rows 1 y -> shows n rows (Scatter x y)
| shows_3d : forall x y z c, n = 3 -> shows_objective rows 0 x -> shows_objective rows 1 y -> shows_objective rows 2 z -> c = z -> shows n rows (Scatter3d x y z c)
| shows_par : forall c lo hi dims, 4 <= n -> length dims = n -> shows_objective rows 0 c -> range_of rows 0 lo hi ->
    (forall j d, nth_error dims j = Some d -> shows_objective rows j (d_values d) /\ range_of rows j (d_min d) (d_max d)) -> shows n rows (Parcoords c lo hi dims).
