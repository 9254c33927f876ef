(** C111: moving a set of vectors smoothly to a target (utilities/symmetric_vectors.py). *)
From Verif Require Import Base RVec M_RefVec M_SymVec Spec_SymVec P_SymVec.
From Coq Require Import Reals Lra Lia.
Open Scope R_scope.

(** ** C111. The loop that repeatedly turns a set of vectors, as one body, by a fixed angle theta until its centre reaches the target.
    Let phi < pi be the angle between the (non-zero) centre of the set and the target. If phi lies strictly between N and N + 1 times
    theta, the loop ends after exactly N + 1 turns (more passes are not made); the set has kept its shape (all lengths and mutual
    angles) and its centre has kept its length and points along the target. *)
Theorem C111_transition_arrives (n : nat) (xs : list (list R)) (c target : list R) (degrees theta phi : R) (N : nat) :
  xs <> [] -> (forall x, In x xs -> length x = n) -> is_mean n xs c -> norm c <> 0 -> length target = n -> norm target <> 0 ->
  angle c target phi -> phi < PI -> theta = degrees * PI / 180 -> 0 < theta -> INR N * theta < phi < INR (S N) * theta ->
  exists ys, (forall more, transition (S N + more) target degrees xs = Arrived (S N) ys) /\ same_shape xs ys /\
    is_mean n ys (vscale (norm c / norm target) target).
Proof. intros. eapply arrives_spec; eauto. Qed.

(** On the way, every turn brings the centre exactly theta closer to the target. *)
Theorem C111_transition_turns (n : nat) (xs : list (list R)) (c target : list R) (degrees theta phi : R) (k : nat) :
  xs <> [] -> (forall x, In x xs -> length x = n) -> is_mean n xs c -> norm c <> 0 -> length target = n -> norm target <> 0 ->
  angle c target phi -> theta = degrees * PI / 180 -> 0 < theta -> INR k * theta < phi < PI ->
  exists ys c', transition k target degrees xs = Turning ys /\ same_shape xs ys /\ is_mean n ys c' /\ norm c' = norm c /\
    angle c' target (phi - INR k * theta).
Proof. intros. eapply turning_spec; eauto. Qed.

(** "It always reaches the target" fails (in exact arithmetic) whenever the angle is a multiple of theta: the turn number N lands
    exactly on the target without the loop noticing, and the next turn divides 0 by 0. The demonstration in the module does this twice
    (45 and 90 degrees in steps of 5). *)
Theorem C111_exact_multiple_refuted (n : nat) (xs : list (list R)) (c target : list R) (degrees theta phi : R) (N : nat) :
  xs <> [] -> (forall x, In x xs -> length x = n) -> is_mean n xs c -> norm c <> 0 -> length target = n -> norm target <> 0 ->
  angle c target phi -> phi < PI -> theta = degrees * PI / 180 -> 0 < theta -> phi = INR N * theta ->
  forall more, transition (S N + more) target degrees xs = Undefined (S N).
Proof. intros. eapply exact_spec; eauto. Qed.

(** Two vectors around the first axis, moved to the second axis in steps of 60 degrees: two turns. *)
Definition ex_pair : list (list R) := [[1; 1]; [1; -1]].
Lemma ex_mean : is_mean 2 ex_pair [1; 0].
Proof. split; auto. intros j Hj. destruct j as [|[|j]]; [| |lia]; cbn [nth ex_pair length map rsum INR]; lra. Qed.
Lemma ex_norm : norm [1; 0] = 1 /\ norm [0; 1] = 1.
Proof. unfold norm. cbn [dot]. split; replace (_ + _) with 1 by ring; apply sqrt_1. Qed.
Lemma ex_angle : angle [1; 0] [0; 1] (PI / 2).
Proof. pose proof PI_RGT_0. split; [lra|]. rewrite cos_PI2. cbn [dot]. ring. Qed.

Example C111_example : exists ys, transition 2 [0; 1] 60 ex_pair = Arrived 2 ys /\ same_shape ex_pair ys /\ is_mean 2 ys [0; 1].
Proof.
  pose proof PI_RGT_0 as P. destruct ex_norm as (N1 & N2).
  destruct (C111_transition_arrives 2 ex_pair [1; 0] [0; 1] 60 (60 * PI / 180) (PI / 2) 1) as (ys & E & Sh & M); auto; try lra.
  - discriminate.
  - intros x [<-|[<-|[]]]; auto.
  - apply ex_mean.
  - apply ex_angle.
  - cbn [INR]. lra.
  - exists ys. split; [apply (E 0%nat)|]. split; auto. rewrite N1, N2 in M. unfold vscale in M. cbn [map] in M.
    replace (1 / 1 * 0) with 0 in M by lra. replace (1 / 1 * 1) with 1 in M by lra. auto.
Qed.

(** In steps of 30 degrees (a divisor of the angle) the fourth turn is undefined. *)
Example C111_example_exact : transition 4 [0; 1] 30 ex_pair = Undefined 4.
Proof.
  pose proof PI_RGT_0 as P. destruct ex_norm as (N1 & N2).
  apply (C111_exact_multiple_refuted 2 ex_pair [1; 0] [0; 1] 30 (30 * PI / 180) (PI / 2) 3) with (more := 0%nat); auto; try lra.
  - discriminate.
  - intros x [<-|[<-|[]]]; auto.
  - apply ex_mean.
  - apply ex_angle.
  - cbn [INR]. lra.
Qed.

Print Assumptions C111_transition_arrives.
Print Assumptions C111_transition_turns.
Print Assumptions C111_exact_multiple_refuted.
