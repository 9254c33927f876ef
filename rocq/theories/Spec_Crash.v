(** What is said about runs whose evaluations may raise (see [M_Run], field [w_fails]). *)
From Verif Require Import Base M_Population M_Archive M_Run.
Open Scope nat_scope.
Section Spec.
Context {I O F C U : Type}.
(** From the [t]-th call of a collaborator on, no evaluation raises. *)
Definition calm_from (w : world I O F C U) (t : nat) : Prop := forall k b rows, t <= k -> w_fails w k b rows = None.
(** The same object, apart from the number of calls its collaborators have answered. *)
Definition untouched (s s' : st I O F C U) : Prop :=
  s_pop s' = s_pop s /\ s_nd s' = s_nd s /\ s_gen s' = s_gen s /\ s_gen_in_iter s' = s_gen_in_iter s /\ s_iter s' = s_iter s /\ s_fe s' = s_fe s /\
  s_snaps s' = s_snaps s /\ s_log s' = s_log s.
(** What a user sees of an object, its iteration counters and snapshots aside. *)
Definition same_results (s s' : st I O F C U) : Prop :=
  s_pop s' = s_pop s /\ s_nd s' = s_nd s /\ s_gen s' = s_gen s /\ s_fe s' = s_fe s /\ s_log s' = s_log s.
(** The same world with evaluations that never raise. *)
Definition never_raising (w : world I O F C U) : world I O F C U :=
  mkWorld (w_mate w) (w_repair w) (w_eval w) (fun _ _ _ => None) (w_select w) (w_parents w) (w_worst w) (w_prey w) (w_placed w) (w_cull w) (w_killed w) (w_prefs w) (w_adapt w).
(** Recombination, evaluation and selection answer by what they are asked only, not by when. *)
Definition timeless (w : world I O F C U) : Prop :=
  (forall k k' p par, w_mate w k p par = w_mate w k' p par) /\ (forall k k' b rows, w_eval w k b rows = w_eval w k' b rows) /\ (forall k k' p i, w_select w k p i = w_select w k' p i).
(** [j] generations in a row, none of which raises. *)
Inductive generations (dom : F -> F -> bool) (w : world I O F C U) (c : cfg) : nat -> st I O F C U -> st I O F C U -> Prop :=
| no_generation : forall s, generations dom w c 0 s s
| one_more : forall j s s1 s2, generations dom w c j s s1 -> next_gen dom w c s1 = (s2, Ok tt) -> generations dom w c (S j) s s2.
End Spec.
