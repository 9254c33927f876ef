(** Model of the neural surrogates desdeo_emo/surrogatemodels/EvoNN.py and EvoDN2.py: forward evaluation, complexity, model selection, prediction,
    and the input subsets of EvoDN2. A layer is the list of its nodes, a node its bias followed by its input weights (a column of the weight matrix). Numbers are real. *)
From Verif Require Import Base RVec M_Create.
From Coq Require Import Reals.
Open Scope R_scope.

Definition node := list R.
Definition layer := list node.

Section Net.
(** EvoNN.py:169-181, EvoDN2.py:201-213: the activation function (expit, relu or tanh). *)
Variable act : R -> R.
(** One row of np.dot(X, W[1:, :]) + W[0]: the value of a node on inputs x. *)
Definition node_out (x : list R) (n : node) : R := dot x (tl n) + hd 0 n.
Definition layer_out (x : list R) (l : layer) : list R := map (fun n => act (node_out x n)) l.
(** np.count_nonzero *)
Definition count_nonzero (l : list R) : nat := length (filter (fun v => if Req_EM_T v 0 then false else true) l).
(** np.linalg.lstsq(A, y)[0] for the rows of A; the error measures of sklearn. *)
Variable lstsq : list (list R) -> list R -> list R.
Definition rss (pred y : list R) : R := rsum (map (fun p => (fst p - snd p) * (fst p - snd p)) (combine pred y)).
Definition rmse (pred y : list R) : R := sqrt (rss pred y / INR (length y)).

(** ** EvoNN *)
(** EvoNN.py:183-207 calculate_linear, on the hidden layer of every sample. *)
Definition linear_layer (hidden : list (list R)) (y : list R) : list R := lstsq (map (cons 1) hidden) y.
(** EvoNN.py:140-167: prediction with given first and last layer. *)
Definition nn_pred (first : layer) (last : list R) (x : list R) : R := node_out (layer_out x first) last.
Definition nn_last (X : list (list R)) (y : list R) (first : layer) : list R := linear_layer (map (fun x => layer_out x first) X) y.
(** EvoNN.py:234-245: the corrected Akaike criterion (real arithmetic; numpy gives inf or nan where this divides by 0 or takes ln 0). *)
Definition nn_aicc (X : list (list R)) (y : list R) (first : layer) : R :=
  let last := nn_last X y first in
  let k := INR (count_nonzero (concat first) + count_nonzero last) in
  let n := INR (length y) in
  let aic := 2 * k + n * ln (rss (map (nn_pred first last) X) y / n) in
  aic + (2 * k * (k + 1)) / (n - k - 1).

Inductive criterion := MinError | Akaike | OtherCriterion.
(** Attributes of an EvoNN object touched by select and fit. *)
Record nn_state := mkNN { nn_first : option layer; nn_lastl : option (list R); nn_rmse : option R; nn_AICc : option R; nn_trained : bool }.
Definition nn_new : nn_state := mkNN None None None None false.

(** EvoNN.py:227-258 select; [errors] is objectives[:, 0]. Returns the state reached and the outcome. *)
Definition nn_finish (X : list (list R)) (y : list R) (pop : list layer) (aiccs : list R) (selected : nat) (s : nn_state) : nn_state * res unit :=
  match nth_error pop selected with
  | None => (s, Err IndexError)
  | Some first =>
      let last := nn_last X y first in
      let s1 := mkNN (Some first) (Some last) (Some (rmse (map (nn_pred first last) X) y)) (nn_AICc s) (nn_trained s) in
      match nth_error aiccs selected with
      | None => (s1, Err IndexError)                                              (* line 258: aicc_array[selected] *)
      | Some a => (mkNN (nn_first s1) (nn_lastl s1) (nn_rmse s1) (Some a) (nn_trained s1), Ok tt)
      end
  end.
Definition nn_select (c : criterion) (X : list (list R)) (y : list R) (pop : list layer) (errors : list R) (s : nn_state) : nn_state * res unit :=
  match c with
  | MinError => match argmin errors with None => (s, Err ValueError) | Some i => nn_finish X y pop [] i s end
  | Akaike =>
      let aiccs := map (nn_aicc X y) pop in
      match aiccs with
      | [] => (s, Err UnboundLocalError)                                          (* line 246: aicc is not bound when the loop body never ran *)
      | _ => nn_finish X y pop aiccs 0%nat s                                      (* line 246: np.argmin(aicc) of the last number computed, a scalar: 0 *)
      end
  | OtherCriterion => (s, Err UnboundLocalError)                                  (* line 248: selected is not bound *)
  end.
(** EvoNN.py:106-109: the end of fit, after the evolution gave population [pop]. *)
Definition nn_fit_end (c : criterion) (X : list (list R)) (y : list R) (pop : list layer) (errors : list R) (s : nn_state) : nn_state * res unit :=
  match nn_select c X y pop errors s with
  | (s1, Ok _) => (mkNN (nn_first s1) (nn_lastl s1) (nn_rmse s1) (nn_AICc s1) true, Ok tt)
  | r => r
  end.
(** EvoNN.py:140-167 predict without first_layer. *)
Definition nn_predict (s : nn_state) (X : list (list R)) : res (list R) :=
  if nn_trained s then
    match nn_first s, nn_lastl s with Some f, Some l => Ok (map (nn_pred f l) X) | _, _ => Err TypeError end
  else Err ModelError.
(** EvoNN.py:209-225 _create_individuals: unlike create_new_individuals the bias row is inserted before weights are zeroed, so a bias can become 0. *)
Definition nn_create (pop_size in_nodes num_nodes : nat) (w : nat -> nat -> nat -> R) (p_omit : QArith_base.Q) (draw : nat -> nat) : list layer :=
  let zs := omitted (pop_size * S in_nodes * num_nodes) p_omit draw in
  let z i r c := zeroed zs ((i * S in_nodes + r) * num_nodes + c)%nat in
  map (fun i => map (fun c => (if z i 0%nat c then 0 else 1) :: map (fun r => if z i (S r) c then 0 else w i r c) (seq 0 in_nodes)) (seq 0 num_nodes)) (seq 0 pop_size).

(** ** EvoDN2 *)
(** np.dot(feed, layer[1:, :]) + layer[0] on one sample: ValueError when the shapes do not fit. *)
Fixpoint subnet_out (x : list R) (layers : list layer) : res (list R) :=
  match layers with
  | [] => Ok x
  | l :: t => if forallb (fun n => Nat.eqb (length n) (S (length x))) l then subnet_out (layer_out x l) t else Err ValueError
  end.
(** X[:, subset] on one sample. *)
Fixpoint pick_vars (x : list R) (subset : list nat) : res (list R) :=
  match subset with
  | [] => Ok []
  | v :: t => match nth_error x v with None => Err IndexError | Some a => bind (pick_vars x t) (fun r => Ok (a :: r)) end
  end.
(** EvoDN2.py:158-174 _feed_forward on one sample: the outputs of all subnets side by side. self.subsets[i]: IndexError when there are fewer subsets than subnets. *)
Fixpoint feed (subsets : list (list nat)) (subnets : list (list layer)) (x : list R) : res (list R) :=
  match subnets with
  | [] => Ok []
  | net :: nets =>
      match subsets with
      | [] => Err IndexError
      | s :: ss => bind (pick_vars x s) (fun xs => bind (subnet_out xs net) (fun o => bind (feed ss nets x) (fun r => Ok (o ++ r))))
      end
  end.
Fixpoint each_row {A B} (f : A -> res B) (l : list A) : res (list B) :=
  match l with [] => Ok [] | a :: t => bind (f a) (fun b => bind (each_row f t) (fun r => Ok (b :: r))) end.
(** The complexity of a subnet (EvoDN2.py:164-170): subnet_complexity starts as the number 1, so np.dot(1, |W1|) = |W1|, then |W1| |W2| and so on (bias rows left out); finally the
    sum of all entries. A matrix is the list of its columns; [nin]: its number of rows. *)
Definition matrix := list (list R).
Definition weights_abs (l : layer) : matrix := map (fun n => map Rabs (tl n)) l.
(** A column of A B: the combination of the columns of A with the entries of a column of B. *)
Definition combine_cols (nin : nat) (a : matrix) (b : list R) : list R :=
  fold_right (fun p acc => vadd (vscale (snd p) (fst p)) acc) (repeat 0 nin) (combine a b).
Definition mat_mul (nin : nat) (a b : matrix) : matrix := map (combine_cols nin a) b.
Definition subnet_complexity (nin : nat) (layers : list layer) : R :=
  match layers with
  | [] => 1
  | l :: t => rsum (concat (fold_left (mat_mul nin) (map weights_abs t) (weights_abs l)))
  end.
Definition complexity (subsets : list (list nat)) (subnets : list (list layer)) : R :=
  rsum (map (fun p => subnet_complexity (length (fst p)) (snd p)) (combine subsets subnets)).

(** Attributes of an EvoDN2 object. [dn_subnets]: None until select sets self.subnets (__init__ sets another attribute, _subnets). *)
Record dn_state := mkDN2 { dn_subsets : option (list (list nat)); dn_subnets : option (list (list layer)); dn_last : option (list R); dn_rmse : option R; dn_complexity : option R; dn_trained : bool }.
Definition dn_new (subsets : option (list (list nat))) : dn_state := mkDN2 subsets None None None None false.
(** EvoDN2.py:176-199 *)
Definition dn_linear (pen : list (list R)) (y : list R) : list R * list R :=
  let rows := map (cons 1) pen in let w := lstsq rows y in (map (fun r => dot r w) rows, w).
(** EvoDN2.py:222-234 select *)
Definition dn_select (c : criterion) (X : list (list R)) (y : list R) (pop : list (list (list layer))) (errors : list R) (s : dn_state) : dn_state * res unit :=
  match c with
  | MinError =>
      match argmin errors with
      | None => (s, Err ValueError)
      | Some i =>
          match nth_error pop i, dn_subsets s with
          | Some nets, Some ss =>
              let s1 := mkDN2 (dn_subsets s) (Some nets) (dn_last s) (dn_rmse s) (dn_complexity s) (dn_trained s) in
              match each_row (feed ss nets) X with
              | Err e => (s1, Err e)
              | Ok pen => let '(y_pred, w) := dn_linear pen y in
                          (mkDN2 (dn_subsets s) (Some nets) (Some w) (Some (rmse y_pred y)) (Some (complexity ss nets)) (dn_trained s), Ok tt)
              end
          | _, _ => (s, Err IndexError)
          end
      end
  | _ => (s, Err ModelError)
  end.
Definition dn_fit_end (c : criterion) (X : list (list R)) (y : list R) (pop : list (list (list layer))) (errors : list R) (s : dn_state) : dn_state * res unit :=
  match dn_select c X y pop errors s with
  | (s1, Ok _) => (mkDN2 (dn_subsets s1) (dn_subnets s1) (dn_last s1) (dn_rmse s1) (dn_complexity s1) true, Ok tt)
  | r => r
  end.
(** EvoDN2.py:215-220 predict; there is no check that the model was trained: self.subnets does not exist before. *)
Definition dn_predict (s : dn_state) (X : list (list R)) : res (list R) :=
  match dn_subnets s with
  | None => Err AttributeError
  | Some nets =>
      match dn_subsets s with
      | None => Err TypeError
      | Some ss => bind (each_row (feed ss nets) X) (fun pen => match dn_last s with None => Err TypeError | Some w => Ok (map (fun p => node_out p w) pen) end)
      end
  end.
End Net.

(** ** Input subsets (EvoDN2.py:89-101) *)
Open Scope nat_scope.
Section Subsets.
(** [size i]: random.randint(1, nvar); [sample i n]: random.sample(range(nvar), n); [slot v]: random.randint(0, num_subnets - 1). *)
Variables (size : nat -> nat) (sample : nat -> nat -> list nat) (slot : nat -> nat).
Definition append_at (i : nat) (v : nat) (ss : list (list nat)) : list (list nat) :=
  match nth_error ss i with Some s => set_nth i (s ++ [v]) ss | None => ss end.
Definition cover (nvar : nat) (ss : list (list nat)) : list (list nat) :=
  fold_left (fun ss v => if existsb (mem_nat v) ss then ss else append_at (slot v) v ss) (seq 0 nvar) ss.
Definition make_subsets (num_subnets nvar : nat) : res (list (list nat)) :=
  match num_subnets, nvar with
  | O, O => Ok []
  | O, _ => Err ValueError                         (* randint(0, -1) *)
  | _, O => Err ValueError                         (* randint(1, 0) *)
  | _, _ => Ok (cover nvar (map (fun i => sample i (size i)) (seq 0 num_subnets)))
  end.
(** fit: subsets given by the user, or left from an earlier fit, are used as they are. *)
Definition fit_subsets (old : option (list (list nat))) (num_subnets nvar : nat) : res (list (list nat)) :=
  match old with Some ss => Ok ss | None => make_subsets num_subnets nvar end.
End Subsets.

(** EvoDN2.py:236-268 _create_individuals: pop_size individuals of num_subnets subnets each; the subnets as in M_Create (the same code). *)
Definition dn_create (pop_size max_layers max_nodes : nat) (subsets : list (list nat)) (num_subnets : nat)
    (dl : nat -> nat -> nat) (dn : nat -> nat -> nat -> nat) (w : nat -> nat -> nat -> nat -> nat -> R) (p_omit : QArith_base.Q) (draw : nat -> nat -> nat -> nat -> nat) : res (list (list (list layer))) :=
  each_row (fun i => each_row (fun j => match nth_error subsets j with
      | None => Err IndexError
      | Some s => subnet_create max_layers max_nodes (length s) (dl i j) (dn i j) (w i j) p_omit (draw i j)
      end) (seq 0 num_subnets)) (seq 0 pop_size).
