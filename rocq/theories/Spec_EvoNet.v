(** Vocabulary for C63, C64, C94-C96. *)
From Verif Require Import Base RVec M_EvoNet.
From Coq Require Import Reals.
Open Scope nat_scope.

(** A feed-forward network with [nin] inputs: every node of a layer has a bias and one weight for each output of the layer before. *)
Fixpoint shaped (nin : nat) (layers : list layer) : Prop :=
  match layers with
  | [] => True
  | l :: t => (forall n, In n l -> length n = S nin) /\ shaped (length l) t
  end.
Fixpoint outputs (nin : nat) (layers : list layer) : nat := match layers with [] => nin | l :: t => outputs (length l) t end.
(** Paths through the layers: one node for each layer. *)
Fixpoint paths (layers : list layer) : list (list nat) :=
  match layers with
  | [] => [[]]
  | l :: t => flat_map (fun j => map (cons j) (paths t)) (seq 0 (length l))
  end.
(** The weight of the connection from input [i] of a layer to its node [j]; the bias comes first in a node. *)
Definition weight (l : layer) (i j : nat) : R := nth (S i) (nth j l []) 0%R.
(** The product of the absolute weights along the path p starting at input [i]. *)
Fixpoint path_weight (layers : list layer) (i : nat) (p : list nat) : R :=
  match layers, p with
  | l :: t, j :: q => (Rabs (weight l i j) * path_weight t j q)%R
  | _, _ => 1%R
  end.

(** The sum of the squared errors of predictions [p] for the targets [y]; [e] is the root of its mean. *)
Fixpoint squared_error (p y : list R) : R :=
  match p, y with
  | a :: p', b :: y' => ((b - a) ^ 2 + squared_error p' y')%R
  | _, _ => 0%R
  end.
Definition root_mean_square (p y : list R) (e : R) : Prop := (0 <= e /\ e ^ 2 = squared_error p y / INR (length y))%R.
(** Akaike's criterion, corrected for small samples: [k] parameters, [n] samples, sum of squared errors [sse]. *)
Definition corrected_akaike (k n sse : R) : R := (2 * k + n * ln (sse / n) + 2 * k * (k + 1) / (n - k - 1))%R.
(** The number of weights that are not zero. *)
Fixpoint connections (l : list R) : nat := match l with [] => 0 | v :: t => (if Req_EM_T v 0 then 0 else 1) + connections t end.
(** The weights given by lstsq are best in the sense of least squares. *)
Definition least_squares (lstsq : list (list R) -> list R -> list R) : Prop :=
  forall A y w, (squared_error (map (fun r => dot r (lstsq A y)) A) y <= squared_error (map (fun r => dot r w) A) y)%R.
