(** Model of desdeo_emo/population/CreateIndividuals.py. Random numbers are arguments; pyDOE's
    [lhs] is external (its contract is a hypothesis of the theorem about LHSDesign). *)
From Verif Require Import Base.
From Coq Require Import Reals QArith Qround.
Open Scope nat_scope.

(** CreateIndividuals.py:38-39, default population size. *)
Definition pop_size_options : list nat := [50; 105; 120; 126; 132; 112; 156; 90; 275].
Definition default_pop_size (num_of_objectives : nat) : res nat :=
  match norm_idx (length pop_size_options) (Z.of_nat num_of_objectives - 2) with
  | Some i => Ok (nth i pop_size_options 0)
  | None => Err IndexError
  end.

(** CreateIndividuals.py:46 / 55: [individuals * (upper - lower) + lower], one row. *)
Fixpoint scale_row (us lbs ubs : list R) : list R :=
  match us, lbs, ubs with
  | u :: us', l :: lbs', h :: ubs' => (u * (h - l) + l)%R :: scale_row us' lbs' ubs'
  | _, _, _ => []
  end.

(** CreateIndividuals.py:41-57 (both designs): [samples i j] is the unit-cube sample, from
    np.random.random resp. pyDOE.lhs; the bounds must broadcast against the n_of_variables
    columns. *)
Definition scaled_design (pop_size n_vars : nat) (samples : nat -> nat -> R) (lbs ubs : list R) : res (list (list R)) :=
  if Nat.eqb (length lbs) n_vars && Nat.eqb (length ubs) n_vars
  then Ok (map (fun i => scale_row (map (samples i) (seq 0 n_vars)) lbs ubs) (seq 0 pop_size))
  else Err ValueError.

(** CreateIndividuals.py:74-85, one weight matrix as the list of its columns: uniform weights
    [w r c], the drawn positions [z r c] zeroed, then a row of ones inserted in front. *)
Definition nn_matrix (in_nodes out_nodes : nat) (w : nat -> nat -> R) (z : nat -> nat -> bool) : list (list R) :=
  map (fun c => 1%R :: map (fun r => if z r c then 0%R else w r c) (seq 0 in_nodes)) (seq 0 out_nodes).

(** CreateIndividuals.py:79-81, 116-119: np.random.choice(np.arange(size), ceil(size * prob_omit)), drawn with replacement; [draw]: the random numbers
    (a negative prob_omit raises ValueError and is not modelled). *)
Definition n_omit (size : nat) (p : Q) : nat := Z.to_nat (Qceiling (inject_Z (Z.of_nat size) * p)).
Definition omitted (size : nat) (p : Q) (draw : nat -> nat) : list nat := map (fun k => draw k mod size) (seq 0 (n_omit size p)).
(** individuals.ravel()[zeros] = 0: is the flat (row-major) position among the drawn ones. *)
Definition zeroed (zs : list nat) (k : nat) : bool := existsb (Nat.eqb k) zs.

(** CreateIndividuals.py:59-87: an array of shape (pop_size, in_nodes, num_nodes). *)
Definition evonn_create (pop_size in_nodes num_nodes : nat) (w : nat -> nat -> nat -> R) (p : Q) (draw : nat -> nat) : list (list (list R)) :=
  let zs := omitted (pop_size * in_nodes * num_nodes) p draw in
  map (fun i => nn_matrix in_nodes num_nodes (w i) (fun r c => zeroed zs ((i * in_nodes + r) * num_nodes + c))) (seq 0 pop_size).

(** CreateIndividuals.py:104-127, one subnet: [outs] are the successive draws of out_nodes. *)
Fixpoint dn_layers_create (in_nodes : nat) (outs : list nat) (k : nat) (w : nat -> nat -> nat -> R) (p : Q) (draw : nat -> nat -> nat) : list (list (list R)) :=
  match outs with
  | [] => []
  | o :: t => nn_matrix in_nodes o (w k) (fun r c => zeroed (omitted (in_nodes * o) p (draw k)) (r * o + c)) :: dn_layers_create o t (S k) w p draw
  end.

(** CreateIndividuals.py:105: np.random.randint(1, max_layers) fails unless 1 < max_layers and
    draws from 1 .. max_layers - 1; line 109: random.randint(2, max_nodes) is inclusive. *)
Definition draw_layers (max_layers draw : nat) : res nat :=
  if Nat.ltb 1 max_layers then Ok (1 + draw mod (max_layers - 1)) else Err ValueError.
Definition draw_nodes (max_nodes draw : nat) : res nat :=
  if Nat.leb 2 max_nodes then Ok (2 + draw mod (max_nodes - 1)) else Err ValueError.

Fixpoint draw_all (max_nodes : nat) (n : nat) (dr : nat -> nat) : res (list nat) :=
  match n with
  | O => Ok []
  | S n' => bind (draw_nodes max_nodes (dr n')) (fun o => bind (draw_all max_nodes n' dr) (fun t => Ok (o :: t)))
  end.

(** CreateIndividuals.py:103-127. *)
Definition subnet_create (max_layers max_nodes : nat) (subset_size dl : nat) (dn : nat -> nat)
    (w : nat -> nat -> nat -> R) (p : Q) (draw : nat -> nat -> nat) : res (list (list (list R))) :=
  bind (draw_layers max_layers dl) (fun n =>
  bind (draw_all max_nodes n dn) (fun outs => Ok (dn_layers_create subset_size outs 0 w p draw))).
