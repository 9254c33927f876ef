(** Vocabulary for shared arrays: what the population and the archived tables show, and the calls an algorithm makes. *)
From Verif Require Import Base M_Population M_Alias.

Section S.
Context {V : Type}.
Definition shows (h : list (list V)) (a : option nat) : option (list V) := option_map (fun x => nth x h []) a.
(** The population's columns as values. *)
Definition columns (s : hst V) : option (list V) * option (list V) * option (list V) :=
  (shows (heap s) (c_ind s), shows (heap s) (c_obj s), shows (heap s) (c_fit s)).
(** The tables archived under generation [g], as read in state [s]. *)
Definition table (s : hst V) (g : Z) : option (option (list V) * option (list V) * option (list V)) :=
  match find (fun e => (fst e =? g)%Z) (shots s) with
  | Some (_, (a, b, c)) => Some (shows (heap s) a, shows (heap s) b, shows (heap s) c)
  | None => None
  end.
(** The value-level population (M_Population) and the value-level calls. *)
Definition as_values (s : hst V) : pop V V V unit unit :=
  mkPop 0 (shows (heap s) (c_ind s)) (shows (heap s) (c_obj s)) (shows (heap s) (c_fit s)) None None.
Definition value_call (o : hop V) : list (op V V V unit unit) :=
  match o with
  | HAdd o ro rf => [OpAdd o (mkRes ro rf None None)]
  | HKeep zs => [OpKeep zs]
  | HDelete zs => [OpDelete zs]
  | HReplace zs i o f => [OpReplace zs i (mkRes1 o f None None)]
  | HReeval g => [OpReeval g]
  | HSnap _ => []
  end.
(** What one step of an algorithm does with the population: replacement (MOEA/D) only happens right after adding the offspring. *)
Inductive block : list (hop V) -> Prop :=
| BAdd l ro rf : block [HAdd (OBatch l) ro rf]
| BKeep zs : block [HKeep zs]
| BDelete zs : block [HDelete zs]
| BReeval g : block [HReeval g]
| BMoead i0 ro rf zs i o f : block [HAdd (OSingle i0) ro rf; HReplace zs i o f; HDelete [(-1)%Z]]
| BSnap g : block [HSnap g].
End S.

(** Every in-place replacement in [post] comes after some rows were added in [post]. *)
Definition replaces_after_add {V} (post : list (hop V)) : Prop :=
  forall pre zs i o f rest, post = pre ++ HReplace zs i o f :: rest ->
  exists x ro rf, In (HAdd x ro rf) pre /\ x <> OOther.
