(** Vocabulary for C60-C62: levels, well-formed trees, replacement of a subtree, objects forming a tree. *)
From Verif Require Import Base M_BioGP.
Open Scope nat_scope.

Section S.
Context {F T : Type} (arity : F -> nat) (fs : list F) (ts : list T).
Notation tree := (tree F T).

Definition value (g : tree) : val F T := match g with Tr v _ => v end.
Definition children (g : tree) : list tree := match g with Tr _ k => k end.

(** [s] is a node (with everything below it) at level [n] of [g]; the root is at level 0. *)
Inductive at_level : tree -> nat -> tree -> Prop :=
| at_root g : at_level g 0 g
| at_kid g k n s : In k (children g) -> at_level k n s -> at_level g (S n) s.

(** Every function node has as many children as its arity, a terminal has none; only known functions and terminals occur. *)
Definition node_ok (v : val F T) (kids : nat) : Prop :=
  match v with VFun f => In f fs /\ kids = arity f | VTerm t => In t ts /\ kids = 0 | VLin => False end.
Definition well_formed (g : tree) : Prop := forall n s, at_level g n s -> node_ok (value s) (length (children s)).
(** An individual: a linear node over well-formed subtrees. *)
Definition individual (g : tree) : Prop := value g = VLin /\ forall k, In k (children g) -> well_formed k.
Definition depth_within (d : nat) (g : tree) : Prop := forall n s, at_level g n s -> n <= d.

(** [g'] is [g] with one occurrence of [s], at level [n], replaced by [s']. *)
Inductive replaced (s s' : tree) : nat -> tree -> tree -> Prop :=
| rep_here : replaced s s' 0 s s'
| rep_kid n v pre k k' post : replaced s s' n k k' -> replaced s s' (S n) (Tr v (pre ++ k :: post)) (Tr v (pre ++ k' :: post)).

(** All values of a tree. *)
Fixpoint values (g : tree) : list (val F T) := match g with Tr v kids => v :: flat_map values kids end.

(** Objects: a tree of object identities, ... *)
Inductive itree := Ob (id : nat) (kids : list itree).
Definition oid (t : itree) : nat := match t with Ob i _ => i end.
Fixpoint ids (t : itree) : list nat := match t with Ob i kids => i :: flat_map ids kids end.
Fixpoint level_of (t : itree) (n : nat) : list nat :=
  match t, n with
  | Ob i _, O => [i]
  | Ob _ kids, S m => flat_map (fun k => level_of k m) kids
  end.
(** ... whose roots attributes are as in the heap, ... *)
Inductive linked (h : heap F T) : itree -> Prop :=
| linked_node i kids : c_roots (h i) = map oid kids -> (forall k, In k kids -> linked h k) -> linked h (Ob i kids).
(** ... and the values found there. *)
Fixpoint read (h : heap F T) (t : itree) : tree := match t with Ob i kids => Tr (c_val (h i)) (map (read h) kids) end.
(** The objects reachable from [r] are those of [t], no object occurring twice. *)
Definition forms (h : heap F T) (r : nat) (t : itree) : Prop := oid t = r /\ linked h t /\ NoDup (ids t).
(** The depth attributes are the levels, and [nodes] lists the objects, the root first. *)
Definition up_to_date (h : heap F T) (t : itree) (nodes : list nat) : Prop :=
  Permutation.Permutation nodes (ids t) /\ hd_error nodes = Some (oid t) /\ forall n i, In i (level_of t n) -> c_depth (h i) = n.
(** [x] is an individual of the heap made of the objects of [t]. *)
Definition held (h : heap F T) (x : ind) (t : itree) : Prop := forms h (fst x) t /\ up_to_date h t (snd x).
End S.
