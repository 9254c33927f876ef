(** Model of the tree handling of desdeo_emo/surrogatemodels/BioGP.py (Node, LinearNode), recombination/biogp_xover.py and biogp_mutation.py.
    Node objects live in a heap (object identity = a number), because crossover and mutation swap the [value] and [roots] attributes of nodes.
    Functions and terminals are elements of arbitrary types; [arity f] is f.__code__.co_argcount. *)
From Verif Require Import Base.
Open Scope nat_scope.

Section BioGP.
Context {F T : Type} (arity : F -> nat).

(** Node.value: a function, a terminal (a name or a constant), or the string "linear" of the LinearNode. *)
Inductive val := VLin | VFun (f : F) | VTerm (t : T).

(** ** Growing (BioGP.py:141-205). A grown tree: the values; the [depth] attribute given to a node is its level (see [alloc]). *)
Inductive tree := Tr (v : val) (kids : list tree).
(** The random module: [pick t n]: the index of the choice of draw number t among n; [coin t]: is draw number t below prob_terminal. *)
Variables (pick : nat -> nat -> nat) (coin : nat -> bool).
(** random.choice: IndexError on an empty sequence. *)
Definition choose {A} (t : nat) (l : list A) : res (A * nat) :=
  match nth_error l (pick t (length l) mod length l) with Some x => Ok (x, S t) | None => Err IndexError end.

Variables (fs : list F) (ts : list T).
(** BioGP.py:171-182 *)
Definition grow_terminal (t : nat) : res (tree * nat) :=
  bind (choose t ts) (fun p => Ok (Tr (VTerm (fst p)) [], snd p)).
Fixpoint times {A} (n : nat) (g : nat -> res (A * nat)) (t : nat) : res (list A * nat) :=
  match n with
  | O => Ok ([], t)
  | S m => bind (g t) (fun p => bind (times m g (snd p)) (fun q => Ok (fst p :: fst q, snd q)))
  end.
(** BioGP.py:164-205 below the root: [rem] = max_depth - depth (0 when depth >= max_depth). *)
Fixpoint grow (full : bool) (rem t : nat) : res (tree * nat) :=
  match rem with
  | O => grow_terminal t
  | S r =>
      let go t1 := bind (choose t1 fs) (fun p => bind (times (arity (fst p)) (grow full r) (snd p)) (fun q => Ok (Tr (VFun (fst p)) (fst q), snd q))) in
      if full then go t
      else if coin t then grow_terminal (S t) else go (S t)
  end.
(** BioGP.py:163-169: filling the root up to max_subtrees subtrees ([old]: the present ones). *)
Definition grow_root (full : bool) (max_depth max_subtrees : nat) (old : list tree) (t : nat) : res (list tree * nat) :=
  bind (times (max_subtrees - length old) (grow full (max_depth - 1)) t) (fun q => Ok (old ++ fst q, snd q)).

(** ** The heap *)
Record cell := mkCell { c_val : val; c_depth : nat; c_roots : list nat }.
Definition heap := nat -> cell.
Definition upd (h : heap) (a : nat) (c : cell) : heap := fun x => if Nat.eqb x a then c else h x.
Definition set_depth (d : nat) (h : heap) (x : nat) : heap := upd h x (mkCell (c_val (h x)) d (c_roots (h x))).

(** BioGP.py:103-138 get_sub_nodes: the while loop (breadth first), with fuel; [None]: fuel exhausted. The nodes in the order of the list. *)
Fixpoint walk (fuel : nat) (h : heap) (stack : list nat) : option (heap * list nat) :=
  match stack with
  | [] => Some (h, [])
  | x :: q =>
      match fuel with
      | O => None
      | S f =>
          let kids := c_roots (h x) in
          let h' := fold_left (set_depth (S (c_depth (h x)))) kids h in
          match walk f h' (q ++ kids) with
          | Some (h'', l) => Some (h'', x :: l)
          | None => None
          end
      end
  end.
Definition get_sub_nodes (fuel : nat) (h : heap) (root : nat) : option (heap * list nat) := walk fuel h [root].
(** BioGP.py:124-126, 134: nodes_at_depth[d] and total_depth. *)
Definition nodes_at_depth (h : heap) (nodes : list nat) (d : nat) : list nat := filter (fun x => Nat.eqb (c_depth (h x)) d) nodes.
Definition total_depth (h : heap) (nodes : list nat) : nat := list_max (map (fun x => c_depth (h x)) nodes).

(** biogp_xover.py:122-127 and 136-141, biogp_mutation.py:126-131: swapping value and roots of two nodes. *)
Definition swap (h : heap) (a b : nat) : heap :=
  let tmp_value := c_val (h a) in
  let tmp_roots := c_roots (h a) in
  let h1 := upd h a (mkCell (c_val (h b)) (c_depth (h a)) (c_roots (h a))) in
  let h2 := upd h1 a (mkCell (c_val (h1 a)) (c_depth (h1 a)) (c_roots (h1 b))) in
  let h3 := upd h2 b (mkCell tmp_value (c_depth (h2 b)) (c_roots (h2 b))) in
  upd h3 b (mkCell (c_val (h3 b)) (c_depth (h3 b)) tmp_roots).

(** biogp_xover.py:112-147 for one pair: [height_fair], [standard]: which branch r selects; r1, r2: the roots of the two deep copies;
    k1, k2: the random choices. *)
Inductive xmode := HeightFair | Standard | NoXover.
Definition choose_node (k : nat) (l : list nat) : res nat :=
  match nth_error l (k mod length l) with Some x => Ok x | None => Err IndexError end.
Definition xover_pair (fuel : nat) (m : xmode) (h : heap) (r1 r2 : nat) (nodes1 nodes2 : list nat) (k1 k2 : nat) : res (heap * list nat * list nat) :=
  let go l1 l2 :=
    bind (choose_node k1 l1) (fun a => bind (choose_node k2 l2) (fun b =>
      let h' := swap h a b in
      match get_sub_nodes fuel h' r1 with
      | None => Err Unmodelled
      | Some (h1, n1) => match get_sub_nodes fuel h1 r2 with None => Err Unmodelled | Some (h2, n2) => Ok (h2, n1, n2) end
      end)) in
  match m with
  | HeightFair =>
      let d := Nat.min (total_depth h nodes1) (total_depth h nodes2) in
      go (nodes_at_depth h nodes1 d) (nodes_at_depth h nodes2 d)
  | Standard => go (tl nodes1) (tl nodes2)
  | NoXover => Ok (h, nodes1, nodes2)
  end.

(** biogp_xover.py:101-110: the pairs made from a one-dimensional list of ids. *)
Fixpoint pairs_of (l : list nat) : list (nat * nat) :=
  match l with [] => [] | [x] => [(x, x)] | x :: _ :: t => (x, x) :: pairs_of t end.

(** New objects are allocated from [next] on. [alloc]: the objects of a grown (or copied) tree; the [depth] attribute is the level. *)
Fixpoint alloc (h : heap) (next depth : nat) (g : tree) : heap * nat :=
  match g with
  | Tr v kids =>
      let '(h1, n1, ids) := (fix go (h : heap) (n : nat) (l : list tree) : heap * nat * list nat :=
         match l with
         | [] => (h, n, [])
         | k :: l' => let '(h1, n1) := alloc h n (S depth) k in let '(h2, n2, ids) := go h1 n1 l' in (h2, n2, n :: ids)
         end) h (S next) kids in
      (upd h1 next (mkCell v depth ids), n1)
  end.

(** copy.deepcopy of an individual: the reachable nodes, copied (fuel: recursion depth). Simplification: the copied [nodes] list is that of get_sub_nodes on the copy,
    and the copied depth attributes are the levels: the same when those of the original are up to date. *)
Fixpoint all_some {A} (l : list (option A)) : option (list A) :=
  match l with [] => Some [] | Some x :: t => match all_some t with Some r => Some (x :: r) | None => None end | None :: _ => None end.
Fixpoint snap (fuel : nat) (h : heap) (r : nat) : option tree :=
  match fuel with
  | O => None
  | S f => match all_some (map (snap f h) (c_roots (h r))) with Some kids => Some (Tr (c_val (h r)) kids) | None => None end
  end.
(** An individual: its LinearNode object and the [nodes] attribute of that. *)
Definition ind := (nat * list nat)%type.
Definition deepcopy (fuel : nat) (h : heap) (next : nat) (x : ind) : res (heap * nat * ind) :=
  match snap fuel h (fst x) with
  | None => Err Unmodelled
  | Some g => let '(h1, n1) := alloc h next 0 g in
              match get_sub_nodes fuel h1 next with None => Err Unmodelled | Some (h2, l) => Ok (h2, n1, (next, l)) end
  end.
(** biogp_xover.py:112-149 (class BioGP_xover): the loop over the mating pairs; [m]: the branch selected by the one draw r; [ks]: the two random choices of each pair. *)
Definition getind (pop : list ind) (x : nat) : res ind := match nth_error pop x with Some i => Ok i | None => Err IndexError end.
Fixpoint xover_do (fuel : nat) (m : xmode) (h : heap) (next : nat) (pop : list ind) (pairs : list (nat * nat)) (ks : nat -> nat * nat) (q : nat) : res (heap * nat * list ind) :=
  match pairs with
  | [] => Ok (h, next, [])
  | (x, y) :: rest =>
      bind (getind pop x) (fun p1 => bind (deepcopy fuel h next p1) (fun '(h1, n1, o1) =>
      bind (getind pop y) (fun p2 => bind (deepcopy fuel h1 n1 p2) (fun '(h2, n2, o2) =>
      bind (xover_pair fuel m h2 (fst o1) (fst o2) (snd o1) (snd o2) (fst (ks q)) (snd (ks q))) (fun '(h3, l1, l2) =>
      bind (xover_do fuel m h3 n2 pop rest ks (S q)) (fun '(h4, n4, off) => Ok (h4, n4, (fst o1, l1) :: (fst o2, l2) :: off)))))))
  end.

(** ** Mutation (biogp_mutation.py:69-137, class BioGP_mutation) *)
(** lines 120-132, mono parental: random.sample: two different positions of nodes[1:]. *)
Definition mutate_mono (fuel : nat) (h : heap) (x : ind) (i j : nat) : res (heap * ind) :=
  match nth_error (tl (snd x)) i, nth_error (tl (snd x)) j with
  | Some a, Some b =>
      match get_sub_nodes fuel (swap h a b) (fst x) with None => Err Unmodelled | Some (h1, l) => Ok (h1, (fst x, l)) end
  | _, _ => Err ValueError
  end.

(** lines 100-118, small mutation of one node: [c1], [c2]: the outcomes of the two tests rand() < probability_replace; the while loop draws
    until a function of equal arity comes (the present function is one, so it can end): [newf] is the function it ends with. *)
Record small_draw := mkDraw { d_c1 : bool; d_c2 : bool; d_f : F; d_t : T }.
Definition mutate_node (h : heap) (x : nat) (d : small_draw) : heap :=
  match c_val (h x) with
  | VFun f => if d_c1 d then (if Nat.eqb (arity (d_f d)) (arity f) then upd h x (mkCell (VFun (d_f d)) (c_depth (h x)) (c_roots (h x))) else h)
              else if d_c2 d then upd h x (mkCell (VTerm (d_t d)) (c_depth (h x)) (c_roots (h x))) else h
  | _ => if d_c2 d then upd h x (mkCell (VTerm (d_t d)) (c_depth (h x)) (c_roots (h x))) else h
  end.
Definition mutate_small (fuel : nat) (h : heap) (x : ind) (draw : nat -> small_draw) : res (heap * ind) :=
  let h1 := fold_left (fun h y => mutate_node h y (draw y)) (tl (snd x)) h in
  match get_sub_nodes fuel h1 (fst x) with None => Err Unmodelled | Some (h2, l) => Ok (h2, (fst x, l)) end.

(** lines 80-97, standard mutation: the chosen node takes value and roots of a newly grown tree, whose nodes are new objects. *)
Definition mutate_standard (fuel : nat) (max_depth : nat) (h : heap) (next : nat) (x : ind) (k : nat) (t : nat) : res (heap * nat * ind * nat) :=
  bind (choose_node k (tl (snd x))) (fun a =>
  bind (grow false (max_depth - c_depth (h a)) t) (fun p =>
    let '(h1, next') := alloc h next (c_depth (h a)) (fst p) in
    let h2 := upd h1 a (mkCell (c_val (h1 next)) (c_depth (h1 a)) (c_roots (h1 next))) in
    match get_sub_nodes fuel h2 (fst x) with None => Err Unmodelled | Some (h3, l) => Ok (h3, next', (fst x, l), snd p) end)).
End BioGP.
Arguments val : clear implicits.
Arguments tree : clear implicits.
Arguments cell : clear implicits.
Arguments heap : clear implicits.
Arguments small_draw : clear implicits.
