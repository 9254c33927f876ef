(** C131: a run that is interrupted between two statements of a Population method. *)
From Coq Require Import QArith.
From Verif Require Import Base Pareto M_Population Spec_Population P_Population M_Archive M_Run Spec_Run Properties_Run M_Interrupt P_Interrupt P_Interrupt2.
Open Scope nat_scope.
Section T.
Context {I O F C U : Type}.
Notation pop := (pop I O F C U).
Notation member := (member I O F C U).
(** The statements are those of the methods: executed to the end they do what the method does, exceptions included, on any population. *)
Theorem C131_statements : forall (o : op I O F C U) (p : pop), exec (code_of o p) p = step p o.
Proof. exact code_step. Qed.
(** C131. An interrupted add(): the table of the population is a table of members (every column of the same length, every row one individual with its values) exactly when the interrupt
    came before the first or after the last column was assigned. *)
Theorem C131_add_refuted : forall n (p : pop) ms (o : offs I) r, represents p (Some ms) -> o <> OOther -> rows_of o <> [] -> good_results (p_nc p) (length (rows_of o)) r -> (p_unc p = None <-> r_unc r = None) ->
  let q := interrupted n (add_code o r p) p in (exists s, represents q s) <-> q = p \/ q = fst (add p o r).
Proof.
  intros n p ms o r H Ho Hne Hg Hu q. split; [apply (interrupted_add n p ms o r); auto|]. intros [->| ->]; [exists (Some ms); exact H|].
  assert (HR : rel (p_nc p) (has (p_unc p), Some ms) p) by (split; [reflexivity|split; [exact H|right; reflexivity]]).
  pose proof (add_rel (p_nc p) (has (p_unc p)) ms p o r HR (conj Ho Hg)) as (_ & T & _). cbn [step] in T. destruct (add p o r) as [p' x]. cbn [fst]. eexists. exact T.
Qed.
(** C131. An interrupted keep() or delete(): likewise (a population of which everybody was deleted counts as empty as soon as it has no individuals). *)
Theorem C131_keep_refuted : forall n (p : pop) ms zs, represents p (Some ms) -> in_range (length ms) zs ->
  let q := interrupted n (keep_code zs p) p in (exists s, represents q s) <-> q = p \/ q = fst (keep p zs).
Proof.
  intros n p ms zs H Hz q. split; [apply (interrupted_keep n p ms zs); auto|]. intros [->| ->]; [exists (Some ms); exact H|].
  destruct (keep_ok p ms zs H Hz) as (p' & E & R & _). rewrite E. eexists. exact R.
Qed.
Theorem C131_delete_refuted : forall n (p : pop) ms zs, represents p (Some ms) -> in_range (length ms) zs -> ms <> [] ->
  let q := interrupted n (delete_code zs p) p in (exists s, represents q s) <-> q = p \/ q = fst (delete p zs) \/ p_ind q = None.
Proof.
  intros n p ms zs H Hz Hne q. split; [apply (interrupted_delete n p ms zs); auto|]. intros [->|[->|E]]; [exists (Some ms); exact H| |exists None; exact E].
  destruct (delete_ok p ms zs H Hz) as (p' & E & R & _). rewrite E. eexists. exact R.
Qed.
(** C131. An interrupted replace() (MOEA/D): the columns still have the same lengths, but the replaced rows have the new individual with (some of) the values of the old one. *)
Theorem C131_replace_refuted : forall n (p : pop) ms zs i r, represents p (Some ms) -> in_range (length ms) zs ->
  let q := interrupted n (replace_code zs i r p) p in
  exists is os fs, (n <= 3 -> p_ind q = Some is /\ p_obj q = Some os /\ p_fit q = Some fs) /\ length is = length ms /\ length os = length ms /\ length fs = length ms /\
    forall j m, nth_error ms j = Some m -> let hit := In (Z.of_nat j) zs \/ In (Z.of_nat j - Z.of_nat (length ms))%Z zs in
      (hit -> nth_error is j = Some (if Nat.leb 1 n then i else m_ind m) /\ nth_error os j = Some (if Nat.leb 2 n then r1_obj r else m_obj m) /\ nth_error fs j = Some (if Nat.leb 3 n then r1_fit r else m_fit m)) /\
      (~ hit -> nth_error is j = Some (m_ind m) /\ nth_error os j = Some (m_obj m) /\ nth_error fs j = Some (m_fit m)).
Proof.
  intros n p ms zs i r H Hz q.
  exists (if Nat.leb 1 n then repl_pos (listed (length ms) zs) i (map m_ind ms) else map m_ind ms), (if Nat.leb 2 n then repl_pos (listed (length ms) zs) (r1_obj r) (map m_obj ms) else map m_obj ms),
    (if Nat.leb 3 n then repl_pos (listed (length ms) zs) (r1_fit r) (map m_fit ms) else map m_fit ms).
  split.
  { intros Hn. subst q. unfold interrupted, replace_code. destruct H as (H1 & H2 & H3 & _). destruct p as [nc ind obj fit con unc]. cbn [p_ind p_obj p_fit p_con p_unc] in *. subst ind obj fit.
    assert (Ci : col_set zs i (Some (map m_ind ms)) = Ok (repl_pos (listed (length ms) zs) i (map m_ind ms))) by (apply (col_set_ok (@m_ind I O F C U)); auto; now rewrite map_length).
    assert (Co : col_set zs (r1_obj r) (Some (map m_obj ms)) = Ok (repl_pos (listed (length ms) zs) (r1_obj r) (map m_obj ms))) by (apply (col_set_ok (@m_obj I O F C U)); auto; now rewrite map_length).
    assert (Cf : col_set zs (r1_fit r) (Some (map m_fit ms)) = Ok (repl_pos (listed (length ms) zs) (r1_fit r) (map m_fit ms))) by (apply (col_set_ok (@m_fit I O F C U)); auto; now rewrite map_length).
    destruct n as [|[|[|[|n]]]]; [| | | |lia]; unfold set_ind, set_obj, set_fit, set_con, set_unc; cbn [app firstn exec some p_ind p_obj p_fit p_con p_unc Nat.leb fst];
      rewrite ?Ci; cbn [some exec p_ind p_obj p_fit p_con p_unc fst]; rewrite ?Co; cbn [some exec p_ind p_obj p_fit p_con p_unc fst]; rewrite ?Cf; cbn [some exec p_ind p_obj p_fit p_con p_unc fst]; auto. }
  split; [destruct (Nat.leb 1 n); rewrite ?length_repl_pos; apply map_length|]. split; [destruct (Nat.leb 2 n); rewrite ?length_repl_pos; apply map_length|]. split; [destruct (Nat.leb 3 n); rewrite ?length_repl_pos; apply map_length|].
  intros j m Hm hit. assert (L : listed (length ms) zs j = true <-> hit).
  { unfold listed, hit. rewrite existsb_exists. split.
    - intros (z & Hin & E). apply orb_true_iff in E. rewrite !Z.eqb_eq in E. destruct E as [<-| <-]; auto.
    - intros [Hin|Hin]; eexists; (split; [exact Hin|]); rewrite Z.eqb_refl, ?orb_true_r; auto. }
  split; intros Hh.
  - apply L in Hh. destruct (Nat.leb 1 n), (Nat.leb 2 n), (Nat.leb 3 n); rewrite ?nth_error_repl_pos, !nth_error_map, !Hm; cbn [option_map]; rewrite ?Hh; auto.
  - assert (Hf : listed (length ms) zs j = false) by (destruct (listed (length ms) zs j); auto; exfalso; apply Hh, L; auto).
    destruct (Nat.leb 1 n), (Nat.leb 2 n), (Nat.leb 3 n); rewrite ?nth_error_repl_pos, !nth_error_map, !Hm; cbn [option_map]; rewrite ?Hf; auto.
Qed.
(** C131. A table whose individuals and objectives have different lengths makes every further keep() and delete() raise; only the individuals are shortened. *)
Theorem C131_torn_raises : forall (p : pop) is os zs, p_ind p = Some is -> p_obj p = Some os -> length is <> length os -> in_range (length is) zs ->
  (exists p', keep p zs = (p', Err IndexError) /\ p_obj p' = Some os /\ p_fit p' = p_fit p /\ p_ind p' = Some (select_pos (listed (length is) zs) is)) /\
  (exists p', delete p zs = (p', Err IndexError) /\ p_obj p' = Some os /\ p_fit p' = p_fit p).
Proof.
  intros p is os zs Hi Ho Hne Hz. destruct (norm_idxs_in_range _ _ Hz) as [idxs Hn]. split.
  - unfold keep. rewrite Hi, Hn. set (m := mask_set (repeat false (length is)) idxs true). assert (Hm : length m = length is) by (unfold m; rewrite length_mask_set, repeat_length; auto).
    eexists. unfold mask_rest. cbn [p_obj p_nc p_ind p_fit p_con p_unc]. rewrite Ho. cbn [col_mask]. rewrite Hm. destruct (Nat.eqb_spec (length is) (length os)); [contradiction|]. split; [reflexivity|].
    cbn [p_obj p_fit p_ind]. split; auto. split; auto. f_equal. apply mask_true_select; auto.
  - unfold delete. rewrite Hi, Hn. set (m := mask_set (repeat true (length is)) idxs false). assert (Hm : length m = length is) by (unfold m; rewrite length_mask_set, repeat_length; auto).
    eexists. unfold mask_rest. cbn [p_obj p_nc p_ind p_fit p_con p_unc]. rewrite Ho. cbn [col_mask]. rewrite Hm. destruct (Nat.eqb_spec (length is) (length os)); [contradiction|]. split; [reflexivity|]. auto.
Qed.
End T.
Print Assumptions C131_statements.
Print Assumptions C131_add_refuted.
Print Assumptions C131_keep_refuted.
Print Assumptions C131_delete_refuted.
Print Assumptions C131_replace_refuted.
Print Assumptions C131_torn_raises.

(** ** What may follow *)
(** Every row of the fitness column is selected (an algorithm whose n_survive is large); a generation adds 3 to each individual. *)
Definition all_world : world Z (list Q) (list Q) unit unit :=
  let w := ref_world ob plain (fun _ => None) in
  mkWorld (w_mate w) (w_repair w) (w_eval w) (w_fails w) (fun _ p _ => match p_fit p with Some l => Ok (map Z.of_nat (seq 0 (length l))) | None => Err TypeError end) (w_parents w) (w_worst w) (w_prey w)
    (w_placed w) (w_cull w) (w_killed w) (w_prefs w) (w_adapt w).
Definition all_cfg : cfg := mkCfg KDecomposition false false false 9 1 0.
(** The object after an interrupt in the add() of its first generation: the individuals have been extended, nothing else. *)
Definition torn_state (k : nat) : st Z (list Q) (list Q) unit unit :=
  let s := on_problem all_world all_cfg 0 [1; 5; 4]%Z in
  let off := [4; 8; 7]%Z in
  mkSt (interrupted k (add_code (OBatch off) (answer ob off) (s_pop s)) (s_pop s)) (s_nd s) (s_gen s) (s_gen_in_iter s) (s_iter s) (s_fe s) (s_snaps s) (s_clock s) (s_log s) (s_ops s).
(** C131. The damage need not be noticed: the next iterate() raises, the one after it succeeds, and from then on the population has individuals with the objectives of others; so has the
    result of end(). *)
Theorem C131_silent_refuted : exists (w : world Z (list Q) (list Q) unit unit) (c : cfg) off k s1 s2 s3 is os i o, honest 0 false w /\
  (let s := on_problem w c 0 [1; 5; 4]%Z in w_mate w 1 (s_pop s) None = Ok off /\ s_pop s1 = interrupted k (add_code (OBatch off) (w_eval w 2 false off) (s_pop s)) (s_pop s)) /\
  iterate dominates w c s1 = (s2, Err IndexError) /\ iterate dominates w c s2 = (s3, Ok tt) /\
  snd (finish c dominates (fun o => o) s3) = Ok (is, os) /\ nth_error is 2 = Some i /\ nth_error os 2 = Some o /\ (forall t b, o <> nth 0 (r_obj (w_eval w t b [i])) []).
Proof.
  exists all_world, all_cfg, [4; 8; 7]%Z, 1, (torn_state 1), (fst (iterate dominates all_world all_cfg (torn_state 1))), (fst (iterate dominates all_world all_cfg (fst (iterate dominates all_world all_cfg (torn_state 1))))).
  eexists. eexists. eexists. eexists. split. { intros k b rows. cbn. unfold good_results. cbn. rewrite !map_length. repeat split; auto; intros X; congruence. }
  split; [split; reflexivity|]. split; [vm_compute; reflexivity|]. split; [vm_compute; reflexivity|]. split; [vm_compute; reflexivity|]. split; [reflexivity|]. split; [reflexivity|].
  intros t b. cbn. discriminate.
Qed.
Print Assumptions C131_silent_refuted.
(** The hypotheses, on the population of that example; with a constraint column the fourth assignment counts as well. *)
Definition ex_members : list (member Z Q Q Q unit) := [mkMem 1%Z 1%Q 1%Q (Some 0%Q) None; mkMem 2%Z 4%Q 4%Q (Some 1%Q) None].
Definition ex_table : pop Z Q Q Q unit := mkPop 1 (Some [1; 2]%Z) (Some [1; 4]%Q) (Some [1; 4]%Q) (Some [0; 1]%Q) None.
Example ex_interrupts : represents ex_table (Some ex_members) /\ good_results 1 1 (mkRes [9%Q] [9%Q] (Some [2%Q]) (@None (list unit))) /\ in_range 2 [-1; 0]%Z /\
  p_con (interrupted 3 (add_code (OBatch [3%Z]) (mkRes [9%Q] [9%Q] (Some [2%Q]) None) ex_table) ex_table) = Some [0; 1]%Q /\
  p_con (interrupted 4 (add_code (OBatch [3%Z]) (mkRes [9%Q] [9%Q] (Some [2%Q]) None) ex_table) ex_table) = Some [0; 1; 2]%Q /\
  p_ind (interrupted 1 (delete_code [0; 1]%Z ex_table) ex_table) = Some [] /\ p_ind (interrupted 2 (delete_code [0; 1]%Z ex_table) ex_table) = None /\
  p_ind (interrupted 1 (replace_code [0]%Z 7%Z (mkRes1 49%Q 49%Q (Some 3%Q) None) ex_table) ex_table) = Some [7; 2]%Z /\ p_obj (interrupted 1 (replace_code [0]%Z 7%Z (mkRes1 49%Q 49%Q (Some 3%Q) None) ex_table) ex_table) = Some [1; 4]%Q.
Proof.
  split; [split; [reflexivity|split; [reflexivity|split; [reflexivity|split; [reflexivity|split; [reflexivity|split; discriminate]]]]]|]. split; [repeat split; discriminate|].
  split; [repeat constructor; lia|]. repeat split.
Qed.
