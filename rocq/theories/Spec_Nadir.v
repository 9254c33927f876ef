(** Specification of NSGA-III's normalisation (independent of the model of the code). *)
From Verif Require Import Base RVec.
From Coq Require Import Reals.
Open Scope R_scope.

(** [v] is the componentwise least / greatest of the rows (all with [m] components): attained and a bound. *)
Definition least (m : nat) (rows : list (list R)) (v : list R) : Prop :=
  length v = m /\ forall j x, nth_error v j = Some x ->
    (exists r, In r rows /\ nth_error r j = Some x) /\ (forall r y, In r rows -> nth_error r j = Some y -> x <= y).
Definition greatest (m : nat) (rows : list (list R)) (v : list R) : Prop :=
  length v = m /\ forall j x, nth_error v j = Some x ->
    (exists r, In r rows /\ nth_error r j = Some x) /\ (forall r y, In r rows -> nth_error r j = Some y -> y <= x).

(** The hyperplane { x : plane . (x - ideal) = 1 } is usable: it contains every extreme point (up to numpy's tolerance), and
    its intercept with every axis is more than a millionth above the ideal and not beyond the worst value. *)
Definition plane_usable (ext : list (list R)) (ideal worst plane : list R) : Prop :=
  (forall e, In e ext -> Rabs (dot (vsub e ideal) plane - 1) <= 1 / 100000000 + 1 / 100000) /\
  (forall j p i w, nth_error plane j = Some p -> nth_error ideal j = Some i -> nth_error worst j = Some w ->
     p <> 0 /\ 1 / p > 1 / 1000000 /\ i + 1 / p <= w).

(** The nadir estimate: axis intercepts of the hyperplane through the extreme points if there is a usable one, otherwise
    the point [fallback]; components less than a millionth above the ideal are replaced by those of [replacement]. *)
Definition nadir_estimate (solve : list (list R) -> list R -> option (list R)) (ext : list (list R))
    (ideal worst fallback replacement nadir : list R) : Prop :=
  exists raw,
    (forall plane, solve (map (fun e => vsub e ideal) ext) (repeat 1 (length ideal)) = Some plane ->
       plane_usable ext ideal worst plane ->
       forall j p i, nth_error plane j = Some p -> nth_error ideal j = Some i -> nth_error raw j = Some (i + 1 / p)) /\
    ((forall plane, solve (map (fun e => vsub e ideal) ext) (repeat 1 (length ideal)) = Some plane ->
       ~ plane_usable ext ideal worst plane) -> raw = fallback) /\
    length raw = length ideal /\ length nadir = length ideal /\
    forall j r i w, nth_error raw j = Some r -> nth_error ideal j = Some i -> nth_error replacement j = Some w ->
      nth_error nadir j = Some (if Rle_dec (r - i) (1 / 1000000) then w else r).

(** Contract of np.linalg.solve used below: the solution has one component per equation ... *)
Definition solve_dims (solve : list (list R) -> list R -> option (list R)) : Prop :=
  forall M b p, solve M b = Some p -> length p = length b.
(** ... and solves the equations (exactly). *)
Definition solve_exact (solve : list (list R) -> list R -> option (list R)) : Prop :=
  forall M b p, solve M b = Some p -> map (fun r => dot r p) M = b.
