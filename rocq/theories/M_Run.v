(** Whole runs of the evolutionary algorithms: desdeo_emo/EAs/BaseEA.py (start 84-103, end 105-133 and 482-495, iterate 138-152, manage_preferences
    245-281, non_dominated_archive 287-312, BaseDecompositionEA._next_gen 420-435), MOEAD.py 112-146, BaseIndicatorEA.py 106-128, TournamentEA.py 57-74
    and PPGA.py 117-154, on the Population of [M_Population] and the archive of [M_Archive]. Variation, evaluation, the selection operators, the
    preference handling and the lattice of PPGA are answered by a [world]; each answer may depend on the number of calls made before, which stands for
    random draws and for the internal state of those objects. *)
From Verif Require Import Base M_Population M_Archive.
Open Scope Z_scope.

Section Run.
Context {I O F C U : Type} (dom : F -> F -> bool).
Notation pop := (pop I O F C U).
Notation results := (results O F C U).

Record world := mkWorld {
  w_mate : nat -> pop -> option (list Z) -> res (list I);     (* Population.mate(mating_individuals) *)
  w_repair : I -> I;                                          (* Population.repair *)
  w_eval : nat -> bool -> list I -> results;                  (* problem.evaluate(rows, use_surrogates) *)
  w_fails : nat -> bool -> list I -> option exn;              (* the exception it raises instead, if any *)
  w_select : nat -> pop -> nat -> res (list Z);               (* selection_operator.do(population[, i]) *)
  w_parents : nat -> nat -> res (list Z);                     (* MOEAD_select.choose_parents(i) *)
  w_worst : nat -> pop -> Z;                                  (* np.argmin(fitnesses, axis=0)[0] *)
  w_prey : nat -> res (list Z);                               (* lattice.move_prey, flattened *)
  w_placed : nat -> nat -> list nat;                          (* lattice.place_offspring(number) *)
  w_cull : nat -> pop -> list Z;                              (* PPGA.select *)
  w_killed : nat -> pop -> res (list Z);                      (* lattice.move_predator: to_be_killed *)
  w_prefs : nat -> pop -> res (option (O -> F));              (* manage_preferences; [Some g]: the problem now computes fitness [g] (BaseEA.py:272-276) *)
  w_adapt : nat -> pop -> res unit                            (* the reference vector adaptation of pre_iteration *)
}.

(** The constructor settings used below; [KMoead n r]: Population.pop_size and use_repair; [KPpga k]: kill_interval. *)
Inductive kind := KDecomposition | KMoead (pop_size : nat) (use_repair : bool) | KIndicator (pop_size : nat) | KTournament | KPpga (kill_interval : nat).
Record cfg := mkCfg { c_kind : kind; c_surrogates : bool; c_save_nd : bool; c_keep_archive : bool;
  c_n_iterations : Z; c_n_gen_per_iter : Z; c_total_fe : Z }.

(** Ghosts (not in the code): [s_log], every call of problem.evaluate of this object: whether surrogates were used, the rows, the answer; [s_ops]: the calls of the
    population's methods. *)
Record st := mkSt {
  s_pop : pop;
  s_nd : option (arch I O F);                  (* self.non_dominated; None: no such attribute *)
  s_gen : Z; s_gen_in_iter : Z; s_iter : Z; s_fe : Z;
  s_snaps : list (Z * (Z * pop));              (* self.archive, newest first *)
  s_clock : nat;
  s_log : list (bool * list I * results);
  s_ops : list (op I O F C U) }.

Definition set_pop (s : st) (p : pop) (o : op I O F C U) : st :=
  mkSt p (s_nd s) (s_gen s) (s_gen_in_iter s) (s_iter s) (s_fe s) (s_snaps s) (s_clock s) (s_log s) (s_ops s ++ [o]).
Definition set_nd (s : st) (a : arch I O F) : st :=
  mkSt (s_pop s) (Some a) (s_gen s) (s_gen_in_iter s) (s_iter s) (s_fe s) (s_snaps s) (s_clock s) (s_log s) (s_ops s).
Definition tick (s : st) : st :=
  mkSt (s_pop s) (s_nd s) (s_gen s) (s_gen_in_iter s) (s_iter s) (s_fe s) (s_snaps s) (S (s_clock s)) (s_log s) (s_ops s).
Definition logged (s : st) (e : bool * list I * results) : st :=
  mkSt (s_pop s) (s_nd s) (s_gen s) (s_gen_in_iter s) (s_iter s) (s_fe s) (s_snaps s) (s_clock s) (s_log s ++ [e]) (s_ops s).
Definition add_fe (s : st) (n : Z) : st :=
  mkSt (s_pop s) (s_nd s) (s_gen s) (s_gen_in_iter s) (s_iter s) (s_fe s + n) (s_snaps s) (s_clock s) (s_log s) (s_ops s).
Definition bump_gen (s : st) : st :=
  mkSt (s_pop s) (s_nd s) (s_gen s + 1) (s_gen_in_iter s + 1) (s_iter s) (s_fe s) (s_snaps s) (s_clock s) (s_log s) (s_ops s).
Definition bump_iter (s : st) : st :=
  mkSt (s_pop s) (s_nd s) (s_gen s) (s_gen_in_iter s) (s_iter s + 1) (s_fe s) (s_snaps s) (s_clock s) (s_log s) (s_ops s).
Definition reset_gen (s : st) : st :=
  mkSt (s_pop s) (s_nd s) (s_gen s) 0 (s_iter s) (s_fe s) (s_snaps s) (s_clock s) (s_log s) (s_ops s).
Definition snap (s : st) : st :=
  mkSt (s_pop s) (s_nd s) (s_gen s) (s_gen_in_iter s) (s_iter s) (s_fe s) ((s_gen s, (s_iter s, s_pop s)) :: s_snaps s) (s_clock s) (s_log s) (s_ops s).

(** Statements that may raise: the state reached and the outcome. *)
Definition andthen {A B} (m : st -> st * res A) (f : A -> st -> st * res B) (s : st) : st * res B :=
  match m s with (s', Ok a) => f a s' | (s', Err e) => (s', Err e) end.
Definition upd (f : st -> st) (s : st) : st * res unit := (f s, Ok tt).
Notation "x <- m ;; n" := (andthen m (fun x => n)) (at level 61, m at next level, right associativity).
Notation "m ;; n" := (andthen m (fun _ => n)) (at level 61, right associativity).

Context (w : world) (c : cfg).

Definition ask {A} (f : nat -> pop -> res A) (s : st) : st * res A := (tick s, f (s_clock s) (s_pop s)).
(** Population.add (126-175) of a matrix or of one row: [take_results] is lines 146-175, once the evaluation has answered. *)
Definition take_results (surr : bool) (o : offs I) (rows : list I) (s : st) : st * res results :=
  let r := w_eval w (s_clock s) surr rows in
  let '(p, out) := add (s_pop s) o r in
  (set_pop (logged (tick s) (surr, rows, r)) p (OpAdd o r), out).
Definition do_add (surr : bool) (o : offs I) (rows : list I) (s : st) : st * res results :=
  match w_fails w (s_clock s) surr rows with
  | Some e => (tick s, Err e)                    (* line 145 raises: nothing has been assigned yet *)
  | None => take_results surr o rows s
  end.
Definition do_keep (zs : list Z) (s : st) : st * res unit :=
  let '(p, out) := keep (s_pop s) zs in (set_pop s p (OpKeep zs), out).
Definition do_delete (zs : list Z) (s : st) : st * res unit :=
  let '(p, out) := delete (s_pop s) zs in (set_pop s p (OpDelete zs), out).
Definition do_reeval (g : O -> F) (s : st) : st * res unit :=
  let '(p, out) := reevaluate (s_pop s) g in (set_pop s p (OpReeval g), out).
(** The one-row answer as given to Population.replace. *)
Definition first_row (r : results) : option (result1 O F C U) :=
  match r_obj r, r_fit r with
  | o :: _, f :: _ => Some (mkRes1 o f (match r_con r with Some (x :: _) => Some x | _ => None end) (match r_unc r with Some (x :: _) => Some x | _ => None end))
  | _, _ => None
  end.
Definition do_replace (zs : list Z) (i : I) (r : results) (s : st) : st * res unit :=
  match first_row r with
  | None => (s, Err IndexError)
  | Some r1 => let '(p, out) := replace (s_pop s) zs i r1 in (set_pop s p (OpReplace zs i r1), out)
  end.
(** BaseEA.py:283-312; without a start() the attribute does not exist. *)
Definition do_archive (rows : list I) (r : results) (s : st) : st * res unit :=
  match s_nd s with
  | None => (s, Err AttributeError)
  | Some a => (set_nd s (archive_add dom a rows (r_obj r) (r_fit r)), Ok tt)
  end.

(** BaseEA.py:420-435. *)
Definition dec_gen : st -> st * res unit :=
  off <- ask (fun k p => w_mate w k p None) ;;
  r <- do_add (c_surrogates c) (OBatch off) off ;;
  (if c_save_nd c then do_archive off r else upd (fun s => s)) ;;
  sel <- ask (fun k p => w_select w k p 0) ;;
  do_keep sel ;;
  upd (fun s => let s1 := bump_gen s in if c_surrogates c then s1 else add_fe s1 (Z.of_nat (length off))).

(** MOEAD.py:114-143, one subproblem; [offspring[0, :]] of no offspring raises IndexError. *)
Definition moead_sub (use_repair : bool) (i : nat) : st -> st * res unit :=
  par <- ask (fun k _ => w_parents w k i) ;;
  offs <- ask (fun k p => w_mate w k p (Some par)) ;;
  match offs with
  | [] => fun s => (s, Err IndexError)
  | o :: _ =>
      let off := if use_repair then w_repair w o else o in
      r <- do_add (c_surrogates c) (OSingle off) [off] ;;
      upd (fun s => if c_surrogates c then s else add_fe s 1) ;;
      sel <- ask (fun k p => w_select w k p i) ;;
      do_replace sel off r ;;
      do_delete [-1] ;;
      (if c_save_nd c then do_archive [off] r else upd (fun s => s))
  end.
Fixpoint moead_subs (use_repair : bool) (is : list nat) : st -> st * res unit :=
  match is with
  | [] => upd (fun s => s)
  | i :: t => moead_sub use_repair i ;; moead_subs use_repair t
  end.
Definition moead_gen (pop_size : nat) (use_repair : bool) : st -> st * res unit :=
  moead_subs use_repair (seq 0 pop_size) ;; upd bump_gen.

(** len(self.population.individuals); an emptied population has none (TypeError / AttributeError). *)
Definition rows_count (s : st) : option nat := option_map (@length I) (p_ind (s_pop s)).
(** BaseIndicatorEA.py:114-119; the fuel is the number of rows, which is always enough. *)
Fixpoint env_sel (fuel : nat) (pop_size : nat) (s : st) : st * res unit :=
  match rows_count s with
  | None => (s, Err AttributeError)
  | Some n => if Nat.ltb pop_size n then
                match fuel with
                | 0%nat => (s, Err Unmodelled)
                | S f => (z <- ask (fun k p => Ok (w_worst w k p)) ;; do_delete [z] ;; env_sel f pop_size) s
                end
              else (s, Ok tt)
  end.
(** BaseIndicatorEA.py:106-128: the offspring are always evaluated with the problem itself (line 125). *)
Definition ind_gen (pop_size : nat) : st -> st * res unit := fun s =>
  (env_sel (match rows_count s with Some n => n | None => 0%nat end) pop_size ;;
   chosen <- ask (fun k p => w_select w k p 0) ;;
   off <- ask (fun k p => w_mate w k p (Some chosen)) ;;
   do_add false (OBatch off) off ;;
   upd (fun s => add_fe (bump_gen s) (Z.of_nat (length off)))) s.

(** TournamentEA.py:68-74: the whole population is deleted. *)
Definition tour_gen : st -> st * res unit := 
  sel <- ask (fun k p => w_select w k p 0) ;;
  off <- ask (fun k p => w_mate w k p (Some sel)) ;;
  (fun s => match rows_count s with
            | None => (s, Err TypeError)
            | Some n => do_delete (map Z.of_nat (seq 0 n)) s
            end) ;;
  do_add false (OBatch off) off ;;
  upd (fun s => add_fe (bump_gen s) (Z.of_nat (length off))).

(** PPGA.py:117-154. Line 149: the modulus by a zero kill_interval raises. *)
Definition pick_rows (placed : list nat) (off : list I) : list I :=
  flat_map (fun e => if mem_nat (fst e) placed then [snd e] else []) (combine (seq 0 (length off)) off).
Definition ppga_gen (kill_interval : nat) : st -> st * res unit :=
  prs <- ask (fun k _ => w_prey w k) ;;
  off <- ask (fun k p => w_mate w k p (Some prs)) ;;
  placed <- ask (fun k _ => Ok (w_placed w k (length off))) ;;
  let kept := pick_rows placed off in
  do_add false (OBatch kept) kept ;;
  upd (fun s => add_fe (bump_gen s) (Z.of_nat (length kept))) ;;
  (fun s => if Nat.eqb kill_interval 0 then (s, Err ZeroDivisionError)
            else if s_gen s mod Z.of_nat kill_interval =? 0
            then (sel <- ask (fun k p => Ok (w_cull w k p)) ;; do_delete sel) s
            else (s, Ok tt)) ;;
  dead <- ask (w_killed w) ;;
  do_delete dead.

Definition next_gen : st -> st * res unit :=
  match c_kind c with
  | KDecomposition => dec_gen
  | KMoead n r => moead_gen n r
  | KIndicator n => ind_gen n
  | KTournament => tour_gen
  | KPpga k => ppga_gen k
  end.

(** BaseEA.py:187-209. *)
Definition check_FE (s : st) : bool := if c_total_fe c =? 0 then true else s_fe s <=? c_total_fe c.
Definition continue_iteration (s : st) : bool := (s_gen_in_iter s <? c_n_gen_per_iter c) && check_FE s.
Definition continue_evolution (s : st) : bool := (s_iter s <? c_n_iterations c) && check_FE s.
(** BaseEA.py:148-149; the fuel given in [iterate] is always enough. *)
Fixpoint gen_loop (fuel : nat) (s : st) : st * res unit :=
  match fuel with
  | 0%nat => (s, Err Unmodelled)
  | S f => if continue_iteration s then (next_gen ;; gen_loop f) s else (s, Ok tt)
  end.
(** BaseEA.py:138-152 with 154-181 and 437-442. *)
Definition iterate : st -> st * res unit :=
  g <- ask (w_prefs w) ;;
  (match g with None => upd (fun s => s) | Some g => do_reeval g end) ;;
  upd (fun s => if c_keep_archive c then snap s else s) ;;
  ask (w_adapt w) ;;
  upd reset_gen ;;
  gen_loop (S (Z.to_nat (c_n_gen_per_iter c))) ;;
  upd bump_iter.
(** BaseEA.py:84-103 (the checks of 86-91 and the requests are in [M_Preferences]). *)
Definition start (s : st) : st * res unit :=
  if c_save_nd c then
    match p_ind (s_pop s), p_obj (s_pop s), p_fit (s_pop s) with
    | Some i, Some o, Some f => (set_nd s (archive_start dom i o f), Ok tt)
    | _, _, _ => (s, Err TypeError)
    end
  else (s, Ok tt).

(** BaseEA.py:105-133, 482-495: one more snapshot, and the individuals and objectives of the non-dominated rows of the final population. [f]: the objectives
    multiplied by _max_multiplier, compared by [dom']. *)
Definition finish {V : Type} (dom' : V -> V -> bool) (f : O -> V) (s : st) : st * res (list I * list O) :=
  let s1 := if c_keep_archive c then snap s else s in
  match p_ind (s_pop s), p_obj (s_pop s) with
  | Some i, Some o => (s1, Ok (end_result dom' i o f))
  | _, _ => (s1, Err TypeError)
  end.

(** What a user does with the object; exceptions are caught and the user goes on. *)
Inductive call := CStart | CIterate.
Definition do_call (s : st) (k : call) : st := match k with CStart => fst (start s) | CIterate => fst (iterate s) end.
Definition session (s : st) (ks : list call) : st := fold_left do_call ks s.

(** Construction. Given a problem, [rows] are created and evaluated and counted (Population.py:101-124, BaseEA.py:410-414, BaseIndicatorEA.py:90-93); given a population,
    nothing is counted; [ops]: how that population came about (ghost). *)
Definition on_problem (nc : nat) (rows : list I) : st :=
  let s := mkSt (fresh nc) None 0 0 0 0 [] 0 [] [] in
  add_fe (fst (take_results (c_surrogates c) (OBatch rows) rows s)) (Z.of_nat (length rows)).
Definition on_population (nc : nat) (ops : list (op I O F C U)) : st :=
  mkSt (run (fresh nc) ops) None 0 0 0 0 [] 0 [] ops.
End Run.
Arguments world : clear implicits.
Arguments st : clear implicits.
