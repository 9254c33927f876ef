(** Model of the evaluation of models during training, [_model_performance] of desdeo_emo/surrogatemodels/EvoNN.py 111-138, EvoDN2.py 129-156 and BioGP.py 486-507: what
    surrogateProblem.evaluate (Problem.py 12-14) records as the objectives of the individuals. Networks as in M_EvoNet, trees as in M_GPfit. *)
From Verif Require Import Base RVec M_EvoNet M_BioGP M_GPfit.
From Coq Require Import Reals QArith.
Open Scope R_scope.

(** np.asarray((loss, complexity)).T: a row for each individual, or one pair. *)
Inductive perf (A B : Type) := Rows (l : list (A * B)) | One (p : A * B).
Arguments Rows {A B} l.
Arguments One {A B} p.

Section Nets.
Context (act : R -> R) (lstsq : list (list R) -> list R -> list R).
(** self.loss_function(y, y_pred): mean_squared_error, mean_squared_log_error or minus r2_score. *)
Context (loss : list R -> list R -> R).

(** The argument first_layer: a 3-dimensional array of networks or a single network. *)
Inductive nn_arg := Nets (l : list layer) | ANet (f : layer).
(** One network (lines 129-133, 135-137) on the rows [X]: predict with training=True fits the output layer to self.y (LinAlgError, a ValueError, if X has another number of rows).
    [yvar]: the local variable y, unbound when X was given (lines 122-124 assign it only otherwise). *)
Definition nn_row (X : list (list R)) (y : list R) (yvar : option (list R)) (f : layer) : res (R * R) :=
  if Nat.eqb (length X) (length y) then
    let pred := map (nn_pred act f (nn_last act lstsq X y f)) X in
    match yvar with
    | None => Err UnboundLocalError
    | Some y' => Ok (loss y' pred, INR (count_nonzero (concat f)))
    end
  else Err ValueError.
(** EvoNN.py:111-138; [X], [y]: the training data; [other]: the argument X. *)
Definition nn_performance (s : nn_state) (X : list (list R)) (y : list R) (arg : option nn_arg) (other : option (list (list R))) : res (perf R R) :=
  if (match arg with None => negb (nn_trained s) | Some _ => false end) then Err ModelError else
  let X' := match other with None => X | Some o => o end in
  let yvar := match other with None => Some y | Some _ => None end in
  match (match arg with Some a => Some a | None => option_map ANet (nn_first s) end) with
  | None => Err UnboundLocalError                                       (* np.ndim(None) = 0: neither branch; loss unbound *)
  | Some (Nets l) => bind (each_row (nn_row X' y yvar) l) (fun r => Ok (Rows r))
  | Some (ANet f) => bind (nn_row X' y yvar f) (fun p => Ok (One p))
  end.

(** EvoDN2.py:146-150 for one individual on the training data. *)
Definition dn_row (ss : list (list nat)) (X : list (list R)) (y : list R) (nets : list (list layer)) : res (R * R) :=
  bind (each_row (feed act ss nets) X) (fun pen => Ok (loss y (fst (dn_linear lstsq pen y)), complexity ss nets)).
(** EvoDN2.py:129-156 without X. A single individual (line 151, len = 1) is not modelled: it is read as one subnet. *)
Definition dn_performance (s : dn_state) (X : list (list R)) (y : list R) (arg : option (list (list (list layer)))) : res (perf R R) :=
  match arg with
  | None => if dn_trained s then Err TypeError                          (* self._subnets stays None (select sets self.subnets): len(None) *)
            else Err ModelError
  | Some inds =>
      if Nat.ltb 1 (length inds) then
        match dn_subsets s with
        | None => Err TypeError
        | Some ss => bind (each_row (dn_row ss X y) inds) (fun r => Ok (Rows r))
        end
      else Err Unmodelled
  end.
End Nets.

Section GP.
Context {V F : Type} (zero_p : V -> bool) (one : V) (arity : F -> nat) (is_div : F -> bool) (sem : F -> list (list V) -> list V) (rows : nat).
Context (lstsq : list (list V) -> list V -> list V) (dot : list (list V) -> list V -> list V) (low : list (list V) -> list V -> list bool).
Context (pick : nat -> nat -> nat) (coin : nat -> bool) (fs : list F) (ts : list (term V)) (loss : list V -> list V -> V).
(** BioGP.py:497-503 and 507: at least two individuals, fitted one after the other on the same DataFrame. The result: the data left behind, the individuals as they are
    now (calculate_linear changes them in place) and the rows of the objectives. *)
Fixpoint gp_rows (max_depth max_subtrees : nat) (cs : Q) (d : @frame V) (y : list V) (inds : list (list (tree F (term V)))) (t : nat)
    : res (@frame V * list (linode V F * (V * Q)) * nat) :=
  match inds with
  | [] => Ok (d, [], t)
  | roots :: l =>
      bind (calculate_linear zero_p one arity is_div sem rows lstsq dot low pick coin fs ts max_depth max_subtrees cs d y roots t) (fun r =>
      match r with
      | (d1, n, t1) => bind (gp_rows max_depth max_subtrees cs d1 y l t1) (fun q => match q with (d2, ns, t2) => Ok (d2, (n, (loss y (l_out n), l_complexity n)) :: ns, t2) end)
      end)
  end.
End GP.
