(** What is said about runs that go on (see [M_Run]): what the collaborators of an algorithm are asked to do, and the selection operators behind [w_select]. *)
From Verif Require Import Base M_Population Spec_Population M_Run.

Section Spec.
Context {I O F C U : Type}.

(** Recombination answers every well-formed request about a non-empty population with at least one offspring, given preferences are usable, and the reference vectors can be adapted. *)
Record steady (w : world I O F C U) : Prop := {
  sm_mate : forall k p par x l, p_ind p = Some (x :: l) -> (forall zs, par = Some zs -> zs <> [] /\ in_range (length (x :: l)) zs) -> exists o rows, w_mate w k p par = Ok (o :: rows);
  sm_prefs : forall k p, exists g, w_prefs w k p = Ok g;
  sm_adapt : forall k p, w_adapt w k p = Ok tt }.
(** ... and no evaluation raises. *)
Definition smooth (w : world I O F C U) : Prop := steady w /\ forall k b rows, w_fails w k b rows = None.

(** The table of a population: these members, [nc] constraints, uncertainties or not. *)
Definition holds (nc : nat) (u : bool) (p : pop I O F C U) (ms : list (member I O F C U)) : Prop :=
  represents p (Some ms) /\ p_nc p = nc /\ (p_unc p <> None <-> u = true).
(** All fitness values, those of the problem and those computed after preferences, satisfy [ok]. *)
Definition fitness_ok (ok : F -> Prop) (w : world I O F C U) : Prop :=
  (forall k b rows f, In f (r_fit (w_eval w k b rows)) -> ok f) /\ (forall k p g o, w_prefs w k p = Ok (Some g) -> ok (g o)).
End Spec.
