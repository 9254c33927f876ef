(** Several algorithm objects on one population: an object made with [initial_population=p] keeps a reference to [p] (BaseEA.py:404-405,
    BaseIndicatorEA.py:84-85, TournamentEA.py:35, PPGA.py:96), so objects given the same population, or another object's [population], work on one object.
    The objects are those of [M_Run]; each has its own counters, archive, snapshots and world (operators, random draws), the population is common. *)
From Verif Require Import Base M_Population M_Run.
Open Scope Z_scope.

Section Shared.
Context {I O F C U : Type} (dom : F -> F -> bool).
Notation st := (st I O F C U).

(** The state: the common population (with its ghost history), and what each object holds besides. *)
Record group := mkGroup { g_pop : pop I O F C U; g_ops : list (op I O F C U); g_own : nat -> st }.
(** Object [i] with the population it refers to. *)
Definition seen (g : group) (i : nat) : st :=
  let s := g_own g i in
  mkSt (g_pop g) (s_nd s) (s_gen s) (s_gen_in_iter s) (s_iter s) (s_fe s) (s_snaps s) (s_clock s) (s_log s) (g_ops g).

Context (w : nat -> world I O F C U) (c : nat -> cfg).
(** A start() or iterate() call on object [i]. *)
Definition one_call (s : st) (i : nat) (k : call) : st * res unit :=
  match k with CStart => start dom (c i) s | CIterate => iterate dom (w i) (c i) s end.
Definition group_call (g : group) (e : nat * call) : group * res unit :=
  let '(s, out) := one_call (seen g (fst e)) (fst e) (snd e) in
  (mkGroup (s_pop s) (s_ops s) (fun j => if Nat.eqb j (fst e) then s else g_own g j), out).
(** A caller that catches every exception and goes on. *)
Definition group_run (g : group) (es : list (nat * call)) : group := fold_left (fun q e => fst (group_call q e)) es g.

(** Object 0 as constructed ([s0]), the others made with initial_population = its population. *)
Definition blank : st := mkSt (fresh 0) None 0 0 0 0 [] 0 [] [].
Definition sharing (s0 : st) : group := mkGroup (s_pop s0) (s_ops s0) (fun j => if Nat.eqb j 0 then s0 else blank).
End Shared.
Arguments group : clear implicits.
