(** C100, continued: the failure with several vector-valued fitnesses or objectives is not an isolated case; it happens for
    every problem of that kind. *)
From Coq Require Import String Ascii QArith.
From Verif Require Import Base M_Snap Properties_Snap.
Open Scope list_scope.
Open Scope nat_scope.

Lemma same_len ns k : Forall vector ns -> forallb (fun n => Nat.eqb (List.length (items n)) k) ns = true ->
  List.length (component_names ns) = List.length ns * k.
Proof.
  induction 1 as [|n ns [l ->] _ IH]; intros H; [reflexivity|].
  cbn [forallb items] in H. apply andb_prop in H. destruct H as [A B]. apply Nat.eqb_eq in A.
  unfold component_names in *. cbn [flat_map]. rewrite app_length, (IH B), A. reflexivity.
Qed.
Lemma all_list ns : Forall vector ns -> forallb is_list ns = true.
Proof. induction 1 as [|n ns [l ->] _ IH]; [reflexivity|exact IH]. Qed.

Lemma vectors_fail m ns : Forall vector ns -> 2 <= List.length ns -> component_names ns <> [] ->
  width m = List.length (component_names ns) -> DataFrame m ns = Err ValueError.
Proof.
  intros V L C W. unfold DataFrame, ensure_index. destruct ns as [|n0 ns]; [cbn in L; lia|].
  rewrite (all_list _ V). destruct (forallb _ (n0 :: ns)) eqn:E; [|reflexivity]. cbn [bind].
  pose proof (same_len _ _ V E) as S0. unfold transpose_labels. rewrite map_length, seq_length.
  destruct (Nat.eqb_spec (List.length (items n0)) (width m)) as [HT|HT]; [|reflexivity]. exfalso.
  rewrite W, S0 in HT. assert (List.length (component_names (n0 :: ns)) <> 0) as N
    by (intros Z; apply length_zero_iff_nil in Z; contradiction).
  rewrite S0 in N. cbn [List.length] in *. nia.
Qed.

(** Two or more vector-valued fitnesses: no snapshot can ever be stored, although every array has one column per name. *)
Theorem C100_vector_fitnesses_refuted : forall s, keep_archive s = true -> matching (snames s) (spop s) ->
  Forall vector (fitness_names (snames s)) -> 2 <= List.length (fitness_names (snames s)) ->
  component_names (fitness_names (snames s)) <> [] ->
  exists x, pre_iteration s = (s, Err x) /\ finish s = (s, Err x).
Proof.
  intros s K (_ & _ & M) V L C. unfold finish, pre_iteration. rewrite K.
  assert (exists x, make_entry (iteration_counter s) (snames s) (spop s) = Err x) as [x E].
  { unfold make_entry. unfold column_names, first_is_list.
    destruct (objective_names (snames s)) as [|o os]; [cbn; eauto|]. cbn [bind].
    pose proof (vectors_fail _ _ V L C M) as F.
    destruct (fitness_names (snames s)) as [|f fs]; [cbn in L; lia|]. cbn [bind fst snd].
    destruct (DataFrame (individuals (spop s)) _); cbn [bind]; [|eauto].
    destruct (DataFrame (objectives (spop s)) _); cbn [bind]; [|eauto].
    rewrite F. cbn. eauto. }
  rewrite E. eauto.
Qed.

(** Likewise the table of the plot request with two or more vector-valued objectives. *)
Theorem C100_plot_vector_objectives_refuted : forall s, matching (snames s) (spop s) ->
  Forall vector (objective_names (snames s)) -> 2 <= List.length (objective_names (snames s)) ->
  component_names (objective_names (snames s)) <> [] -> plot_table s = Err ValueError.
Proof. intros s (_ & M & _) V L C. unfold plot_table. apply vectors_fail; assumption. Qed.

(** One vector-valued fitness: whenever the snapshot can be stored at all, the columns of the fitness table are labelled with
    one-tuples of the names instead of the names, and the objectives with the fitness names. *)
Theorem C100_single_vector_fitness_refuted : forall s l e, keep_archive s = true -> fitness_names (snames s) = [Lst l] ->
  snd (pre_iteration s) = Ok tt -> archive_get (current_gen s) (archive (fst (pre_iteration s))) = Some e ->
  labels (e_fits e) = map (fun x => LTuple [x]) l /\ data (e_fits e) = fitness (spop s) /\
  labels (e_objs e) = map LStr l /\ data (e_objs e) = objectives (spop s).
Proof.
  intros s l e K F. unfold pre_iteration. rewrite K. unfold make_entry, column_names, first_is_list. rewrite F.
  destruct (objective_names (snames s)) as [|o os]; [discriminate|]. cbn [bind is_list fst snd].
  destruct (DataFrame (individuals (spop s)) (variable_names (snames s))) as [fv|x] eqn:V; cbn [bind]; [|discriminate].
  assert (E : flatten [Lst l] = map Str l) by (unfold flatten; cbn [flat_map items]; now rewrite app_nil_r). rewrite E.
  unfold DataFrame. rewrite index_scalar. cbn [bind]. rewrite map_length.
  destruct (Nat.eqb (List.length l) (width (objectives (spop s)))); cbn [bind]; [|discriminate].
  assert (T : ensure_index [Lst l] = Ok (map (fun x => LTuple [x]) l)).
  { unfold ensure_index. cbn [forallb is_list items map andb]. rewrite Nat.eqb_refl. cbn [andb]. f_equal. unfold transpose_labels.
    clear. induction l as [|x l IH]; [reflexivity|]. cbn [List.length seq map nth]. f_equal. rewrite <- seq_shift, map_map. exact IH. }
  rewrite T. cbn [bind]. rewrite map_length.
  destruct (Nat.eqb (List.length l) (width (fitness (spop s)))); cbn [bind]; [|discriminate]. cbn [fst snd archive]. intros _.
  unfold archive_get. cbn [find fst snd]. rewrite Z.eqb_refl. cbn [snd]. intros H. injection H as <-. cbn [e_fits e_objs labels data]. auto.
Qed.

(** Non-vacuity: fitnesses of unequal and of equal lengths. *)
Definition vs (f : list name) : snapst :=
  mkSnap true 0 0 (mkNames [Str "x"; Str "y"] [Str "a"; Str "b"] f) (mkPop m2 m2 m2) [].
Example ex_vector_fitnesses :
  Forall (fun s => keep_archive s = true /\ matching (snames s) (spop s) /\ Forall vector (fitness_names (snames s)) /\
    2 <= List.length (fitness_names (snames s)) /\ component_names (fitness_names (snames s)) <> [])
   [vs [Lst ["u"%string]; Lst ["v"%string]]; vs [Lst ["u"%string; "v"%string]; Lst []]; vs [Lst []; Lst ["u"%string; "v"%string]]].
Proof.
  repeat constructor; try (eexists; reflexivity); try discriminate.
Qed.

Print Assumptions C100_vector_fitnesses_refuted.
Print Assumptions C100_plot_vector_objectives_refuted.
Print Assumptions C100_single_vector_fitness_refuted.
Example ex_single : exists e, snd (pre_iteration (vs [Lst ["u"%string; "v"%string]])) = Ok tt /\
  archive_get 0 (archive (fst (pre_iteration (vs [Lst ["u"%string; "v"%string]])))) = Some e /\ labels (e_fits e) = [LTuple ["u"%string]; LTuple ["v"%string]].
Proof. eexists. split; [reflexivity|]. split; reflexivity. Qed.
