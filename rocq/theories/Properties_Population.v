(** C01-C07: Population. Only statements, closed by lemmas of P_Population. *)
From Verif Require Import Base M_Population Spec_Population P_Population.
From Coq Require Import Permutation QArith.
Open Scope nat_scope.

Section T.
Context {I O F C U : Type}.

(** C01. After any history of calls honouring the evaluator contract (exceptions caught, the
    caller going on), either the population is emptied or there is one list of members whose
    projections are all five columns, each member being one evaluated individual together
    with its own objectives, fitness and constraints; the fitness is the evaluated one unless the
    caller had the problem recompute fitness, which gives the member the fitness of its own objectives. *)
Theorem C01_population_aligned : forall nc (ops : list (op I O F C U)),
  good_history nc ops ->
  p_ind (run (fresh nc) ops) = None \/
  exists ms : list (member I O F C U),
    p_ind (run (fresh nc) ops) = Some (map m_ind ms) /\
    p_obj (run (fresh nc) ops) = Some (map m_obj ms) /\
    p_fit (run (fresh nc) ops) = Some (map m_fit ms) /\
    rows_opt (p_con (run (fresh nc) ops)) (length ms) = map m_con ms /\
    rows_opt (p_unc (run (fresh nc) ops)) (length ms) = map m_unc ms /\
    (forall m, In m ms -> exists f, In (m_ind m, m_obj m, f, m_con m) (evaluated ops) /\
       (m_fit m = f \/ exists g, In (OpReeval g) ops /\ m_fit m = g (m_obj m))).
Proof.
  intros nc ops H. destruct (population_aligned nc ops H) as [E|(ms & (A & B & D & E & G & _) & P)];
  [left; exact E | right; exists ms; repeat split; assumption].
Qed.

(** C01 (refinement form): the concrete population always represents the list-of-members
    specification run on the same calls. *)
Theorem C01_population_refines_member_list : forall nc (ops : list (op I O F C U)),
  good_history nc ops -> represents (run (fresh nc) ops) (snd (spec_run ops)).
Proof. exact population_refines. Qed.

(** C01. Recomputing the fitness changes nothing but the fitness, and gives every member that of its own objectives. *)
Theorem C01_reevaluate : forall (p : pop I O F C U) ms g, represents p (Some ms) ->
  exists p' ms', reevaluate p g = (p', Ok tt) /\ represents p' (Some ms') /\ length ms' = length ms /\ p_nc p' = p_nc p /\
    forall j m, nth_error ms j = Some m -> exists m', nth_error ms' j = Some m' /\
      m_ind m' = m_ind m /\ m_obj m' = m_obj m /\ m_fit m' = g (m_obj m) /\ m_con m' = m_con m /\ m_unc m' = m_unc m.
Proof.
  intros p ms g H. destruct (reevaluate_ok p ms g H) as (p' & A & B & D & _). exists p', (map (refit g) ms).
  split; auto. split; auto. split; [apply map_length|]. split; auto. intros j m Hj. exists (refit g m). rewrite nth_error_map, Hj. split; [reflexivity|]. repeat split.
Qed.
(** C02. keep. *)
Theorem C02_keep_exact : forall (p : pop I O F C U) ms zs,
  represents p (Some ms) ->
  (in_range (length ms) zs ->
     exists p', keep p zs = (p', Ok tt) /\ p_nc p' = p_nc p /\
       represents p' (Some (select_pos
         (fun j => existsb (fun z => (z =? Z.of_nat j)%Z || (z =? Z.of_nat j - Z.of_nat (length ms))%Z) zs) ms))) /\
  (~ in_range (length ms) zs -> keep p zs = (p, Err IndexError)).
Proof.
  intros p ms zs H. split.
  - intros Hz. destruct (keep_ok p ms zs H Hz) as (p' & A & B & D & _). exists p'; auto.
  - intros Hz. exact (keep_err p ms zs H Hz).
Qed.

(** C03. delete is the complement; together they partition. *)
Theorem C03_delete_complement : forall (p : pop I O F C U) ms zs,
  represents p (Some ms) ->
  (in_range (length ms) zs ->
     exists pk pd kept dropped,
       keep p zs = (pk, Ok tt) /\ represents pk (Some kept) /\
       delete p zs = (pd, Ok tt) /\
       represents pd (match dropped with [] => None | _ => Some dropped end) /\
       (forall m, In m kept <-> exists j, nth_error ms j = Some m /\
            (In (Z.of_nat j) zs \/ In (Z.of_nat j - Z.of_nat (length ms))%Z zs)) /\
       (forall m, In m dropped <-> exists j, nth_error ms j = Some m /\
            ~ (In (Z.of_nat j) zs \/ In (Z.of_nat j - Z.of_nat (length ms))%Z zs)) /\
       dropped = select_pos (fun j => negb (listed (length ms) zs j)) ms /\
       Permutation (kept ++ dropped) ms) /\
  (~ in_range (length ms) zs -> delete p zs = (p, Err IndexError)).
Proof.
  intros p ms zs H. split.
  - intros Hz. destruct (keep_ok p ms zs H Hz) as (pk & A & B & _ & _).
    destruct (delete_ok p ms zs H Hz) as (pd & A' & B' & _ & _).
    exists pk, pd, (spec_keep zs ms), (spec_drop zs ms).
    split; [exact A|]. split; [exact B|]. split; [exact A'|].
    split; [destruct (spec_drop zs ms); exact B'|]. split; [|split; [|split; [reflexivity|]]].
    + intros m. unfold spec_keep, select_pos. rewrite In_select_pos_from.
      split; intros (j & Hj & Hl); exists j; split; auto; apply listed_spec; auto.
    + intros m. unfold spec_drop, select_pos. rewrite In_select_pos_from.
      split; intros (j & Hj & Hl); exists j; split; auto; rewrite <- listed_spec in *;
      destruct (listed (length ms) zs (0 + j)) eqn:E; simpl in E, Hl |- *; try rewrite E in *; congruence.
    + exact (keep_delete_partition p ms zs H Hz).
  - intros Hz. exact (delete_err p ms zs H Hz).
Qed.

(** C04. add on a non-empty population: offspring appended in order with their own
    evaluation, earlier members unchanged, evaluation returned. *)
Theorem C04_add_appends : forall (p : pop I O F C U) ms o r,
  represents p (Some ms) -> o <> OOther -> good_results (p_nc p) (length (rows_of o)) r ->
  (p_unc p = None <-> r_unc r = None) ->
  exists p', add p o r = (p', Ok r) /\
    p_ind p' = Some (map m_ind ms ++ rows_of o) /\
    p_obj p' = Some (map m_obj ms ++ r_obj r) /\
    p_fit p' = Some (map m_fit ms ++ r_fit r) /\
    rows_opt (p_con p') (length ms + length (rows_of o)) = map m_con ms ++ rows_opt (r_con r) (length (rows_of o)) /\
    rows_opt (p_unc p') (length ms + length (rows_of o)) = map m_unc ms ++ rows_opt (r_unc r) (length (rows_of o)).
Proof.
  intros p ms o r H Ho Hg Hu. rewrite (add_eval p ms o r H Ho Hg).
  pose proof (con_None_iff _ _ _ _ H Hg) as Hci.
  destruct H as (_ & _ & _ & Hc & Hun & _).
  rewrite <- Hc, <- Hun.
  pose proof (rows_opt_app (p_con p) (r_con r) (length ms) (length (rows_of o)) Hci) as Ac.
  pose proof (rows_opt_app (p_unc p) (r_unc r) (length ms) (length (rows_of o)) Hu) as Au.
  destruct (r_unc r) as [u|] eqn:E1, (p_unc p) as [u0|] eqn:E2;
  try (exfalso; destruct Hu as [h1 h2]; (discriminate (h1 eq_refl) || discriminate (h2 eq_refl)));
  eexists; (split; [reflexivity|]); simpl; repeat split; auto.
Qed.

(** C05. replace: exactly the addressed rows become the new member. *)
Theorem C05_replace_frame : forall (p : pop I O F C U) ms zs i r,
  represents p (Some ms) -> good_result1 (p_nc p) (has (p_unc p)) r ->
  (in_range (length ms) zs ->
    exists p' ms', replace p zs i r = (p', Ok tt) /\ represents p' (Some ms') /\
      length ms' = length ms /\
      forall j m, nth_error ms j = Some m ->
        nth_error ms' j = Some (if listed (length ms) zs j
                                then mkMem i (r1_obj r) (r1_fit r) (r1_con r) (r1_unc r) else m)) /\
  (~ in_range (length ms) zs -> replace p zs i r = (p, Err IndexError)).
Proof.
  intros p ms zs i r H Hg. split.
  - intros Hz. destruct (replace_ok p ms zs i r H Hz (or_introl Hg)) as (p' & A & _ & _ & B).
    eexists p', _. split; [exact A|]. split; [exact B|]. rewrite spec_replace_eq. split.
    + apply length_repl_pos.
    + intros j m Hm. rewrite nth_error_repl_pos, Hm. destruct Hg as [_ Hu].
      destruct (r1_unc r) as [u|]; [rewrite Hu|]; auto.
      destruct (p_unc p); auto.
  - intros Hz. exact (replace_err p ms zs i r H Hz).
Qed.

(** C07. Deleting everything, then refilling. *)
Theorem C07_delete_all_then_add : forall (p : pop I O F C U) ms zs l r,
  represents p (Some ms) -> in_range (length ms) zs ->
  (forall j, j < length ms -> In (Z.of_nat j) zs \/ In (Z.of_nat j - Z.of_nat (length ms))%Z zs) ->
  good_results (p_nc p) (length l) r ->
  exists p', delete p zs = (p', Ok tt) /\ p_ind p' = None /\
    (forall zs', keep p' zs' = (p', Err AttributeError) /\ delete p' zs' = (p', Err AttributeError)) /\
    add p' (OBatch l) r = (mkPop (p_nc p) (Some l) (Some (r_obj r)) (Some (r_fit r)) (r_con r) (r_unc r), Ok r).
Proof.
  intros p ms zs l r H Hz Hall Hg.
  exact (delete_all_refill p ms zs l r H Hz (fun j Hj => proj2 (listed_spec _ _ _) (Hall j Hj)) Hg).
Qed.
End T.

(** C01, the evaluator contract honoured but the array passed to [add] has a wrong rank:
    the code silently (line 163, "TODO raise error") grows the other columns only. *)
Theorem C01_wrong_rank_refuted : exists (p p' : pop nat nat nat nat nat) ms r,
  represents p (Some ms) /\ add p OOther r = (p', Ok r) /\
  exists inds objs, p_ind p' = Some inds /\ p_obj p' = Some objs /\ length inds <> length objs.
Proof.
  exists (mkPop 0 (Some [7]) (Some [1]) (Some [1]) None None).
  eexists. exists [mkMem 7 1 1 None None].
  exists (mkRes [2] [2] None None).
  split; [repeat split; auto|]. split; [reflexivity|].
  eexists _, _. split; [reflexivity|]. split; [reflexivity|]. discriminate.
Qed.

(** C06. repair of a decision vector: gene by gene, NaN genes untouched. *)
Theorem C06_repair_clamps : forall (lbs ubs : list Q) (xs : list gene),
  length lbs = length xs -> length ubs = length xs ->
  (forall j l u, nth_error lbs j = Some l -> nth_error ubs j = Some u -> (l <= u)%Q) ->
  repair_call lbs ubs (Vec xs) = Ok (Vec (repair lbs ubs xs)) /\
  length (repair lbs ubs xs) = length xs /\
  (forall j l u x, nth_error lbs j = Some l -> nth_error ubs j = Some u -> nth_error xs j = Some x ->
     exists y, nth_error (repair lbs ubs xs) j = Some y /\
       match x with
       | None => y = None
       | Some q => exists q', y = Some q' /\ (l <= q' <= u)%Q /\
                   ((l <= q <= u)%Q -> q' = q) /\ ((q < l)%Q -> q' = l) /\ ((u < q)%Q -> q' = u)
       end) /\
  repair lbs ubs (repair lbs ubs xs) = repair lbs ubs xs.
Proof. exact repair_correct. Qed.

(** C06: a vector whose length is not that of the bounds is refused. *)
Theorem C06_repair_wrong_length : forall (lbs ubs : list Q) (xs : list gene),
  length xs <> length lbs \/ length lbs <> length ubs -> repair_call lbs ubs (Vec xs) = Err ValueError.
Proof.
  intros lbs ubs xs H. unfold repair_call. destruct (Nat.eqb_spec (length xs) (length lbs)); destruct (Nat.eqb_spec (length lbs) (length ubs)); simpl; auto. lia.
Qed.

(** C06: a whole population matrix is not accepted although the docstring does not say so. *)
Theorem C06_repair_matrix_refuted : forall lbs ubs rows,
  repair_call lbs ubs (Mat rows) = Err IndexError.
Proof. exact repair_matrix_fails. Qed.

(** ** Non-vacuity *)
Definition ex_ops : list (op nat nat nat nat nat) :=
  [ OpAdd (OBatch [10; 11; 12]) (mkRes [1;2;3] [1;2;3] (Some [0;0;0]) (Some [5;5;5]));
    OpAdd (OSingle 13) (mkRes [4] [4] (Some [1]) (Some [6]));
    OpKeep [0; -1; 9]%Z; OpKeep [0; -1; 2]%Z;
    OpReplace [-2]%Z 20 (mkRes1 8 8 (Some 2) (Some 7));
    OpReeval (fun o => 10 * o);
    OpDelete [0]%Z ].

Example ex_good : good_history 1 ex_ops.
Proof.
  split.
  - repeat constructor; simpl; try discriminate.
  - left. repeat constructor; simpl; discriminate.
Qed.

Example ex_run : run (fresh 1) ex_ops =
  mkPop 1 (Some [20; 13]) (Some [8; 4]) (Some [80; 40]) (Some [2; 1]) (Some [7; 6]).
Proof. reflexivity. Qed.

Example ex_represents : represents (mkPop 1 (Some [20; 13]) (Some [8; 4]) (Some [8; 4]) (Some [2; 1]) (Some [7; 6]))
  (Some [mkMem 20 8 8 (Some 2) (Some 7); mkMem 13 4 4 (Some 1) (Some 6)]).
Proof. repeat split; simpl; auto; discriminate. Qed.

Example ex_result1 : good_result1 (O:=nat) (F:=nat) 1 true (mkRes1 8 8 (Some 2) (Some 7)).
Proof. split; simpl; auto. Qed.

Example ex_results : good_results (O:=nat) (F:=nat) 1 2 (mkRes [1;2] [1;2] (Some [0;0]) (Some [5;5])).
Proof. repeat split; simpl; auto. Qed.

Example ex_repair : repair [0;0;0]%Q [1;1;1]%Q [Some (1#2); Some (3#1); Some (-1#1)]%Q
  = [Some (1#2); Some 1; Some 0]%Q.
Proof. reflexivity. Qed.

Print Assumptions C01_population_aligned.
Print Assumptions C01_reevaluate.
Print Assumptions C01_population_refines_member_list.
Print Assumptions C01_wrong_rank_refuted.
Print Assumptions C02_keep_exact.
Print Assumptions C03_delete_complement.
Print Assumptions C04_add_appends.
Print Assumptions C05_replace_frame.
Print Assumptions C06_repair_clamps.
Print Assumptions C06_repair_matrix_refuted.
Print Assumptions C07_delete_all_then_add.
