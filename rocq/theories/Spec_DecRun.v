(** Specification vocabulary for sessions of the decomposition based EAs: read off a session's calls and what they returned. *)
From Verif Require Import Base M_Preferences M_DecRun.
Open Scope Z_scope.

Section S.
Context {Payload : Type}.
Definition history := list (dcall Payload * res (option request)).
(** The interaction type chosen last: None and unknown types choose nothing. *)
Definition then_type (t : option itype) (e : dcall Payload * res (option request)) : option itype :=
  match fst e with DSetType (ArgType u) => Some u | _ => t end.
Definition type_in_force (h : history) : option itype := fold_left then_type h None.
(** The id drawn by the last requests(), start() or iterate() that returned. *)
Definition then_request (last : option nat) (e : dcall Payload * res (option request)) : option nat :=
  match e with
  | (DRequests r, Ok _) | (DStart r, Ok _) | (DIterate _ r, Ok _) => Some r
  | _ => last
  end.
Definition last_request (h : history) : option nat := fold_left then_request h None.
(** The iterate() calls that returned. *)
Definition iterations (h : history) : nat := length (filter (fun e => match e with (DIterate _ _, Ok _) => true | _ => false end) h).
(** Does the preference answer that request, by an object of the class of that type? *)
Definition answers (t : option itype) (last : option nat) (p : pref Payload) : Prop := last = Some (pf_id p) /\ t <> None /\ pf_class p = t.
End S.

Section G.
Context {VS PS : Type} (gen : counts -> VS -> PS -> PS * res nat).
(** Generations with the vectors [v], one after the other, none raising: [ns] are the offspring numbers. [sur]: evaluations are not counted. *)
Definition counted (sur : bool) (n : nat) : Z := if sur then 0 else Z.of_nat n.
Definition after (sur : bool) (c : counts) (n : nat) : counts := mkCounts (c_it c) (c_gen c + 1) (c_gin c + 1) (c_fe c + counted sur n) (S (c_clock c)).
Inductive generations (sur : bool) (v : VS) : counts -> PS -> list nat -> counts -> PS -> Prop :=
| g_none : forall c p, generations sur v c p [] c p
| g_one : forall c p n q ns c' q', gen c v p = (q, Ok n) -> generations sur v (after sur c n) q ns c' q' -> generations sur v c p (n :: ns) c' q'.
Fixpoint total_counted (sur : bool) (ns : list nat) : Z := match ns with [] => 0 | n :: t => counted sur n + total_counted sur t end.
(** [ns] generations make up one iteration that starts with [fe] evaluations: [gpi] of them, fewer only when the budget is used up, none begun beyond the budget. *)
Definition full_iteration (sur : bool) (gpi budget fe : Z) (ns : list nat) : Prop :=
  Z.of_nat (length ns) <= Z.max 0 gpi /\
  (Z.of_nat (length ns) < gpi -> budget <> 0 /\ budget < fe + total_counted sur ns) /\
  (forall i, (i < length ns)%nat -> budget = 0 \/ fe + total_counted sur (firstn i ns) <= budget).
End G.
