(** Model of desdeo_emo/EAs/RVEA.py: the time penalty component (constructor argument handling
    and the four penalty functions), the partial penalty factor of APD_Select, and the sequence of
    states in which selection is performed during a run of BaseEA.iterate. *)
From Verif Require Import Base M_BaseEA M_Recombination.
From Coq Require Import Reals.
Open Scope Z_scope.

(** The [time_penalty_component] argument as the code distinguishes it. [TPOtherType]: an int, a
    numpy scalar, a list ... (anything whose [type] is neither float nor str). *)
Inductive tp_arg := TPNone | TPFloat (v : R) | TPOriginal | TPFunctionCount | TPInteractive
                  | TPOtherStr | TPOtherType.
Inductive tp_mode := Const (v : R) | Original | FunctionCount | Interactive.

(** RVEA.py:131-173. The three [eaError(msg)] calls build an exception without raising it, so the
    only failure is the unbound local [time_penalty_function] at line 173. *)
Definition tp_construct (interact : bool) (total_fe : Z) (a : tp_arg) : res tp_mode :=
  let a := match a with
           | TPNone => if interact then TPInteractive
                       else if 0 <? total_fe then TPFunctionCount else TPOriginal
           | _ => a
           end in
  match a with
  | TPFloat v => Ok (Const v)
  | TPOriginal => Ok Original
  | TPFunctionCount => Ok FunctionCount
  | TPInteractive => Ok Interactive
  | _ => Err UnboundLocalError
  end.

(** Python's [a / b] on ints. *)
Definition int_div (a b : Z) : res R := if b =? 0 then Err ZeroDivisionError else Ok (IZR a / IZR b)%R.

(** RVEA.py:184-198, the time penalty function installed by the constructor. BaseEA.py:46:
    total_gen_count = n_gen_per_iter * n_iterations. *)
Definition time_penalty {P} (c : cfg) (m : tp_mode) (s : st P) : res R :=
  match m with
  | Const v => Ok v
  | Original => int_div (gen_count s) (n_gen_per_iter c * n_iterations c)
  | Interactive => int_div (gen_in_iter s) (n_gen_per_iter c)
  | FunctionCount => int_div (fe_count s) (total_fe c)
  end.

(** APD_Select_constraints.py:147-163: clamp to [0,1], power alpha, times the number of
    fitnesses. [None]: the power is not a finite number. *)
Definition partial_penalty (t alpha : R) (n_of_fitnesses : nat) : option R :=
  let t := if Rlt_dec t 0 then 0%R else t in
  let t := if Rlt_dec 1 t then 1%R else t in
  option_map (fun p => p * INR n_of_fitnesses)%R (npow t alpha).

Section Trace.
Context {P : Type} (gen : Z -> P -> P * nat) (c : cfg).

(** BaseEA.py:148-149 with 420-435: the states in which [_next_gen], hence [_select], is called by
    the while loop of one iterate call, in order. Selection reads the counters before they are
    incremented. *)
Fixpoint loop_selections (fuel : nat) (s : st P) : list (st P) :=
  match fuel with
  | O => []
  | S f => if continue_iteration c s then s :: loop_selections f (next_gen gen c s) else []
  end.
(** ... of one iterate call ... *)
Definition iterate_selections (s : st P) : list (st P) := loop_selections (enough c) (reset_gen (snapshot c s)).
(** ... and of [k] successive iterate calls. *)
Fixpoint run_selections (k : nat) (s : st P) : list (st P) :=
  match k with
  | O => []
  | S k' => iterate_selections s ++
            match iterate gen c (enough c) s with Some s' => run_selections k' s' | None => [] end
  end.
End Trace.
