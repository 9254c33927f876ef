(** The generations and iterate() of M_Run.v as sequences of statements, for runs that are stopped (Ctrl-C, a killed notebook cell) between two of them and then continued with the same object.
    A statement is one call of a method of the population, the archive, an operator or the lattice, or one assignment to a counter; stops inside the methods of the population are in M_Interrupt.v. *)
From Verif Require Import Base M_Population M_Archive M_Run.
Open Scope Z_scope.

Section Stop.
Context {I O F C U : Type} (dom : F -> F -> bool).
Notation pop := (pop I O F C U).
Notation st := (st I O F C U).
Context (w : world I O F C U) (c : cfg).

Inductive prog (A : Type) : Type :=
| Ret (a : A)
| Do (B : Type) (m : st -> st * res B) (k : B -> prog A).
Arguments Ret {A} a.
Arguments Do {A} B m k.
Fixpoint seqp {A B} (p : prog A) (k : A -> prog B) : prog B :=
  match p with Ret a => k a | Do X m f => Do X m (fun x => seqp (f x) k) end.
(** Executed to the end or to the first exception. *)
Fixpoint run_all {A} (p : prog A) (s : st) : st * res A :=
  match p with
  | Ret a => (s, Ok a)
  | Do _ m k => match m s with (s', Ok b) => run_all (k b) s' | (s', Err e) => (s', Err e) end
  end.
(** Stopped after [n] statements (or before, by an exception or the end). *)
Fixpoint stopped {A} (n : nat) (p : prog A) (s : st) : st :=
  match n, p with
  | 0%nat, _ | _, Ret _ => s
  | S n', Do _ m k => match m s with (s', Ok b) => stopped n' (k b) s' | (s', Err _) => s' end
  end.
Definition one {B} (m : st -> st * res B) : prog B := Do B m (fun b => Ret b).
Notation "x <- m ;; n" := (Do _ m (fun x => n)) (at level 61, m at next level, right associativity).
Notation "m ;; n" := (Do _ m (fun _ => n)) (at level 61, right associativity).

(** self._current_gen_count += 1 and self._gen_count_in_curr_iteration += 1. *)
Definition inc_gen (s : st) : st := mkSt (s_pop s) (s_nd s) (s_gen s + 1) (s_gen_in_iter s) (s_iter s) (s_fe s) (s_snaps s) (s_clock s) (s_log s) (s_ops s).
Definition inc_gi (s : st) : st := mkSt (s_pop s) (s_nd s) (s_gen s) (s_gen_in_iter s + 1) (s_iter s) (s_fe s) (s_snaps s) (s_clock s) (s_log s) (s_ops s).
Definition count (n : nat) : st -> st * res unit := upd (fun s => add_fe s (Z.of_nat n)).

(** BaseEA.py:424-435. *)
Definition dec_prog : prog unit :=
  off <- ask (fun k p => w_mate w k p None) ;;
  r <- do_add w (c_surrogates c) (OBatch off) off ;;
  (if c_save_nd c then do_archive dom off r else upd (fun s => s)) ;;
  sel <- ask (fun k p => w_select w k p 0) ;;
  do_keep sel ;;
  upd inc_gen ;; upd inc_gi ;;
  one (if c_surrogates c then upd (fun s => s) else count (length off)).
(** MOEAD.py:117-144, eight statements per subproblem. *)
Definition sub_prog (use_repair : bool) (i : nat) : prog unit :=
  par <- ask (fun k _ => w_parents w k i) ;;
  offs <- ask (fun k p => w_mate w k p (Some par)) ;;
  match offs with
  | [] => one (fun s => (s, Err IndexError))
  | o :: _ =>
      let off := if use_repair then w_repair w o else o in
      r <- do_add w (c_surrogates c) (OSingle off) [off] ;;
      (if c_surrogates c then upd (fun s => s) else count 1) ;;
      sel <- ask (fun k p => w_select w k p i) ;;
      do_replace sel off r ;;
      do_delete [-1] ;;
      one (if c_save_nd c then do_archive dom [off] r else upd (fun s => s))
  end.
Fixpoint subs_prog (use_repair : bool) (is : list nat) : prog unit :=
  match is with
  | [] => Ret tt
  | i :: t => seqp (sub_prog use_repair i) (fun _ => subs_prog use_repair t)
  end.
(** MOEAD.py:114-146. *)
Definition moead_prog (pop_size : nat) (use_repair : bool) : prog unit :=
  seqp (subs_prog use_repair (seq 0 pop_size)) (fun _ => upd inc_gen ;; one (upd inc_gi)).
(** BaseIndicatorEA.py:114-119. *)
Fixpoint env_prog (fuel : nat) (pop_size : nat) : prog unit :=
  n <- (fun s => (s, match rows_count s with None => Err AttributeError | Some n => Ok n end)) ;;
  if Nat.ltb pop_size n then
    match fuel with
    | 0%nat => one (fun s => (s, Err Unmodelled))
    | S f => z <- ask (fun k p => Ok (w_worst w k p)) ;; do_delete [z] ;; env_prog f pop_size
    end
  else Ret tt.
(** BaseIndicatorEA.py:111-128. *)
Definition ind_prog (pop_size : nat) : prog unit :=
  fuel <- (fun s => (s, Ok (match rows_count s with Some n => n | None => 0%nat end))) ;;
  seqp (env_prog fuel pop_size) (fun _ =>
  chosen <- ask (fun k p => w_select w k p 0) ;;
  off <- ask (fun k p => w_mate w k p (Some chosen)) ;;
  do_add w false (OBatch off) off ;;
  upd inc_gen ;; upd inc_gi ;; one (count (length off))).
(** TournamentEA.py:68-74. *)
Definition tour_prog : prog unit :=
  sel <- ask (fun k p => w_select w k p 0) ;;
  off <- ask (fun k p => w_mate w k p (Some sel)) ;;
  (fun s => match rows_count s with None => (s, Err TypeError) | Some n => do_delete (map Z.of_nat (seq 0 n)) s end) ;;
  do_add w false (OBatch off) off ;;
  upd inc_gen ;; upd inc_gi ;; one (count (length off)).
(** PPGA.py:129-154. *)
Definition ppga_prog (kill_interval : nat) : prog unit :=
  prs <- ask (fun k _ => w_prey w k) ;;
  off <- ask (fun k p => w_mate w k p (Some prs)) ;;
  placed <- ask (fun k _ => Ok (w_placed w k (length off))) ;;
  let kept := pick_rows placed off in
  do_add w false (OBatch kept) kept ;;
  upd inc_gen ;; upd inc_gi ;; count (length kept) ;;
  due <- (fun s => (s, if Nat.eqb kill_interval 0 then Err ZeroDivisionError else Ok (s_gen s mod Z.of_nat kill_interval =? 0))) ;;
  seqp (if due then sel <- ask (fun k p => Ok (w_cull w k p)) ;; one (do_delete sel) else Ret tt) (fun _ =>
  dead <- ask (w_killed w) ;;
  one (do_delete dead)).
Definition next_prog : prog unit :=
  match c_kind c with
  | KDecomposition => dec_prog
  | KMoead n r => moead_prog n r
  | KIndicator n => ind_prog n
  | KTournament => tour_prog
  | KPpga k => ppga_prog k
  end.
(** BaseEA.py:148-149. *)
Fixpoint loop_prog (fuel : nat) : prog unit :=
  match fuel with
  | 0%nat => one (fun s => (s, Err Unmodelled))
  | S f => b <- (fun s => (s, Ok (continue_iteration c s))) ;;
           if b then seqp next_prog (fun _ => loop_prog f) else Ret tt
  end.
(** BaseEA.py:145-151. *)
Definition iterate_prog : prog unit :=
  g <- ask (w_prefs w) ;;
  (match g with None => upd (fun s => s) | Some g => do_reeval g end) ;;
  upd (fun s => if c_keep_archive c then snap s else s) ;;
  ask (w_adapt w) ;;
  upd reset_gen ;;
  seqp (loop_prog (S (Z.to_nat (c_n_gen_per_iter c)))) (fun _ => one (upd bump_iter)).

(** What a user does: calls as in M_Run.v, or an iterate() that is stopped after [n] statements. *)
Inductive scall := SCall (k : call) | SStop (n : nat).
Definition do_scall (s : st) (k : scall) : st := match k with SCall k => do_call dom w c s k | SStop n => stopped n iterate_prog s end.
Definition ssession (s : st) (ks : list scall) : st := fold_left do_scall ks s.
End Stop.
Arguments Ret {I O F C U A} a.
Arguments Do {I O F C U A} B m k.
