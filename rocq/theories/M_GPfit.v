(** Model of the evaluation and fitting of genetic programming trees: desdeo_emo/surrogatemodels/BioGP.py: Node.predict, LinearNode.calculate_linear,
    BioGP.div, BioGP.predict, BioGP._create_individuals. Trees and growing are those of M_BioGP. *)
From Verif Require Import Base M_BioGP.
From Coq Require Import QArith.
Open Scope nat_scope.

Section Fit.
(** Numbers of the data (floats), functions, their number of parameters. [sem f]: what the numpy call of f returns (a new array) for argument arrays. *)
Context {V F : Type} (zero_p : V -> bool) (one : V) (arity : F -> nat) (is_div : F -> bool) (sem : F -> list (list V) -> list V).
(** A terminal: the name of a column of the training data, or a number (BioGP.py:76-85). *)
Inductive term := TVar (c : nat) | TConst (v : V).
Notation tree := (tree F term).
(** A DataFrame: its columns; an array is a column of it (np.asarray of a column shares memory, numpy / pandas without copy-on-write) or a new one. *)
Definition frame := nat -> list V.
Inductive arr := Col (c : nat) | New (l : list V).
Definition deref (d : frame) (a : arr) : list V := match a with Col c => d c | New l => l end.
(** BioGP.py:559: y[y == 0] = 1.0 *)
Definition ones_for_zeros (l : list V) : list V := map (fun v => if zero_p v then one else v) l.
Definition set_col (d : frame) (c : nat) (l : list V) : frame := fun x => if Nat.eqb x c then l else d x.
(** BioGP.py:557-560 div: assigns into the array y in place, then divides. Functions of other names only read their arguments (545-584). *)
Definition call (d : frame) (f : F) (args : list arr) : frame * list V :=
  if is_div f then
    match args with
    | [x; Col c] => let d' := set_col d c (ones_for_zeros (d c)) in (d', sem f [deref d' x; d' c])
    | [x; New l] => (d, sem f [deref d x; ones_for_zeros l])
    | _ => (d, sem f (map (deref d) args)) (* wrong number of arguments: a TypeError; does not occur in well-formed trees *)
    end
  else (d, sem f (map (deref d) args)).
Variable rows : nat.
(** BioGP.py:65-85 Node.predict for a node below the linear node, the argument being a DataFrame; the children are evaluated in order, their results are kept as references. *)
Fixpoint run (d : frame) (g : tree) : frame * arr :=
  match g with
  | Tr (VFun f) kids =>
      let '(d1, args) := (fix runs (d : frame) (l : list tree) : frame * list arr :=
         match l with [] => (d, []) | k :: l' => let '(d1, a) := run d k in let '(d2, r) := runs d1 l' in (d2, a :: r) end) d kids in
      let '(d2, v) := call d1 f args in (d2, New v)
  | Tr (VTerm (TVar c)) _ => (d, Col c)
  | Tr (VTerm (TConst v)) _ => (d, New (repeat v rows))
  | Tr VLin _ => (d, New []) (* not evaluated *)
  end.
Fixpoint runs (d : frame) (l : list tree) : frame * list arr :=
  match l with [] => (d, []) | k :: l' => let '(d1, a) := run d k in let '(d2, r) := runs d1 l' in (d2, a :: r) end.
(** BioGP.py:251-260 and 512-524: the columns of the weight matrix, a column of ones first. np.hstack reads the arrays after all subtrees have been evaluated. *)
Definition weight_columns (d : frame) (roots : list tree) : frame * list (list V) :=
  let '(d', rs) := runs d roots in (d', repeat one rows :: map (deref d') rs).

(** ** calculate_linear *)
(** numpy: [lstsq]: least squares weights; [dot]: matrix (by columns) times weights; [low]: for each entry of error[1:] whether it is below error_lim (266-269, 273). *)
Variables (lstsq : list (list V) -> list V -> list V) (dot : list (list V) -> list V -> list V) (low : list (list V) -> list V -> list bool).
Variables (pick : nat -> nat -> nat) (coin : nat -> bool) (fs : list F) (ts : list term).
(** del l[i] *)
Fixpoint del {A} (i : nat) (l : list A) : list A := match l, i with [], _ => [] | _ :: t, O => t | x :: t, S j => x :: del j t end.
(** BioGP.py:271-275: the loop over enumerate(error[1:]); each hit regrows up to max_subtrees. *)
Fixpoint prune (max_depth max_subtrees : nat) (flags : list bool) (i : nat) (roots : list tree) (t : nat) : res (list tree * nat) :=
  match flags with
  | [] => Ok (roots, t)
  | true :: fl =>
      if i <? length roots then
        bind (grow_root arity pick coin fs ts false max_depth max_subtrees (del i roots) t) (fun p => prune max_depth max_subtrees fl (S i) (fst p) (snd p))
      else Err IndexError
  | false :: fl => prune max_depth max_subtrees fl (S i) roots t
  end.
(** BioGP.py:277-284: total_depth and the number of nodes whose value is callable, on the tree itself (get_sub_nodes gives these: C61, C62). *)
Fixpoint tdepth (g : tree) : nat := match g with Tr _ kids => match kids with [] => 0 | _ => S (list_max (map tdepth kids)) end end.
Fixpoint nfuns (g : tree) : nat := match g with Tr v kids => (match v with VFun _ => 1 | _ => 0 end) + list_sum (map nfuns kids) end.
Definition complexity_of (cs : Q) (roots : list tree) : Q :=
  (cs * inject_Z (Z.of_nat (tdepth (Tr VLin roots))) + (1 - cs) * inject_Z (Z.of_nat (nfuns (Tr VLin roots))))%Q.
(** The attributes of a LinearNode: roots, linear, out, complexity. *)
Record linode := mkLin { l_roots : list tree; l_linear : list V; l_out : list V; l_complexity : Q }.
(** BioGP.py:249-289 *)
Definition calculate_linear (max_depth max_subtrees : nat) (cs : Q) (d : frame) (y : list V) (roots : list tree) (t : nat) : res (frame * linode * nat) :=
  let '(d', m) := weight_columns d roots in
  let w := lstsq m y in
  let out := dot m w in
  bind (prune max_depth max_subtrees (low m y) 0 roots t) (fun p => Ok (d', mkLin (fst p) w out (complexity_of cs (fst p)), snd p)).
(** BioGP.py:509-531 BioGP.predict. Simplification: the reshaping of single values. *)
Definition predict (d : frame) (n : linode) : frame * list V :=
  let '(d', m) := weight_columns d (l_roots n) in (d', dot m (l_linear n)).

(** ** _create_individuals (BioGP.py:424-484); the subtrees of each new linear node. *)
Inductive init_method := Ramped | Full | Grow | Other.
Definition make (full : bool) (md max_subtrees : nat) (t : nat) : res (list tree * nat) := grow_root arity pick coin fs ts full md max_subtrees [] t.
Fixpoint each {A} (l : list nat) (g : nat -> nat -> res (list A * nat)) (t : nat) : res (list A * nat) :=
  match l with
  | [] => Ok ([], t)
  | x :: l' => bind (g x t) (fun p => bind (each l' g (snd p)) (fun q => Ok (fst p ++ fst q, snd q)))
  end.
Definition create_individuals (m : init_method) (pop_size max_depth max_subtrees t : nat) : res (list (list tree) * nat) :=
  match m with
  | Ramped =>
      let k := Nat.div pop_size (S max_depth) in                    (* int(pop_size / (max_depth + 1)) *)
      let lo := Nat.div (S max_depth) 2 in                            (* ceil(max_depth / 2) *)
      each (seq lo (S max_depth - lo)) (fun md t =>
        bind (times k (make false md max_subtrees) t) (fun p => bind (times k (make true md max_subtrees) (snd p)) (fun q => Ok (fst p ++ fst q, snd q)))) t
  | Full => times pop_size (make true max_depth max_subtrees) t
  | Grow => times pop_size (make false max_depth max_subtrees) t
  | Other => Ok ([], t)                                               (* no branch matches: np.asarray([]).reshape(-1, 1) *)
  end.
End Fit.
Arguments term : clear implicits.
Arguments linode : clear implicits.
