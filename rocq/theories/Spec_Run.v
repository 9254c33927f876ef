(** What is said about whole runs (see [M_Run]): which evaluations were made, and what it means that a table of results is vouched for by them. *)
From Verif Require Import Base M_Population Spec_Population M_Archive M_Run.

Section Spec.
Context {I O F C U : Type}.

(** Contract of the problem: one row of answers per row asked, constraints exactly if it has some, uncertainties always ([u]) or never. *)
Definition honest (nc : nat) (u : bool) (w : world I O F C U) : Prop :=
  forall k b rows, good_results nc (length rows) (w_eval w k b rows) /\ (r_unc (w_eval w k b rows) <> None <-> u = true).

(** The evaluations of a log, row by row: (decision vector, objectives, fitness, constraints). *)
Definition evals (log : list (bool * list I * results O F C U)) : list (I * O * F * option C) :=
  flat_map (fun e : bool * list I * results O F C U => map (fun m : member I O F C U => (m_ind m, m_obj m, m_fit m, m_con m)) (members_of (snd (fst e)) (snd e))) log.
(** One batch of evaluations: (decision vector, objectives, fitness). *)
Definition batch (e : bool * list I * results O F C U) : list (I * O * F) :=
  map (fun m : member I O F C U => (m_ind m, m_obj m, m_fit m)) (members_of (snd (fst e)) (snd e)).
(** Number of rows evaluated with the problem itself, not a surrogate. *)
Definition real_evals (log : list (bool * list I * results O F C U)) : Z :=
  fold_right Z.add 0%Z (map (fun e : bool * list I * results O F C U => if fst (fst e) then 0%Z else Z.of_nat (length (snd (fst e)))) log).

(** A row was evaluated; its fitness is the evaluated one, or what the problem computed from its objectives after preferences were given. *)
Definition vouched (evs : list (I * O * F * option C)) (refit : (O -> F) -> Prop) (i : I) (o : O) (f : F) : Prop :=
  exists f0 con, In (i, o, f0, con) evs /\ (f = f0 \/ exists g, refit g /\ f = g o).
(** Three columns of equal length, all rows vouched for. *)
Definition table_ok (ok : I -> O -> F -> Prop) (is : list I) (os : list O) (fs : list F) : Prop :=
  length os = length is /\ length fs = length is /\
  forall j i o f, nth_error is j = Some i -> nth_error os j = Some o -> nth_error fs j = Some f -> ok i o f.
Definition pop_ok (ok : I -> O -> F -> Prop) (p : pop I O F C U) : Prop :=
  p_ind p = None \/ exists is os fs, p_ind p = Some is /\ p_obj p = Some os /\ p_fit p = Some fs /\ table_ok ok is os fs.
(** Every entry of a log is a question that was asked and the answer given to it. *)
Definition answered (w : world I O F C U) (log : list (bool * list I * results O F C U)) : Prop :=
  forall b rows r, In (b, rows, r) log -> exists k, r = w_eval w k b rows.
(** Fitness functions in use after preferences were given: before ([ops0]: how an initial population came about) or during the run. *)
Definition refits (w : world I O F C U) (ops0 : list (op I O F C U)) (g : O -> F) : Prop := In (OpReeval g) ops0 \/ exists k p, w_prefs w k p = Ok (Some g).
(** The object before start(): built on a problem (with [rows] created), or on a population with a history [ops0] of well-formed calls. *)
Definition constructed (w : world I O F C U) (c : cfg) (nc : nat) (u : bool) (ops0 : list (op I O F C U)) (s : st I O F C U) : Prop :=
  (ops0 = [] /\ exists rows, s = on_problem w c nc rows) \/
  (s = on_population nc ops0 /\ Forall (good_op nc) ops0 /\ (u = true -> Forall replace_has_unc ops0) /\ (u = false -> Forall add_no_unc ops0)).
End Spec.

Section SpecRuns.
Context {I O F C U : Type} (dom : F -> F -> bool) (w : world I O F C U) (c : cfg).
(** [k] calls of iterate() in a row, none of which raises. *)
Inductive ran : nat -> st I O F C U -> st I O F C U -> Prop :=
| ran_none : forall s, ran 0 s s
| ran_more : forall k s s1 s2, iterate dom w c s = (s1, Ok tt) -> ran k s1 s2 -> ran (S k) s s2.
(** Which kinds of algorithm ever use the surrogates. *)
Definition by_surrogate : bool := match c_kind c with KDecomposition | KMoead _ _ => c_surrogates c | _ => false end.
(** The evaluations of (a part of) one generation: one batch, or in MOEA/D one row for each of at most [pop_size] subproblems. *)
Definition one_generation (l : list (bool * list I * results O F C U)) : Prop :=
  (forall e, In e l -> fst (fst e) = by_surrogate) /\
  match c_kind c with
  | KMoead n _ => (length l <= n)%nat /\ forall e, In e l -> length (snd (fst e)) = 1%nat
  | _ => (length l <= 1)%nat
  end.
End SpecRuns.
