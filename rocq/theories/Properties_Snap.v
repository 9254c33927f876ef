(** C100: archived tables label every column with the name of the quantity in it. *)
From Coq Require Import String Ascii QArith.
From Verif Require Import Base M_Snap.
Open Scope list_scope.
Open Scope nat_scope.

(** Specification. The names of the single components, in column order: a scalar contributes its name, a vector the
    names of its components. *)
Definition component_names (ns : list name) : list string :=
  flat_map (fun n => match n with Str s => [s] | Lst l => l end) ns.

(** A table shows matrix [m] with its j-th column called [ns[j]]. *)
Definition shows (t : frame) (m : matrix) (ns : list string) : Prop :=
  data t = m /\ List.length (labels t) = width m /\
  forall j s, nth_error ns j = Some s <-> nth_error (labels t) j = Some (LStr s).

(** The snapshot stored for generation [g] by iteration [it] shows population [p] of a problem with names [n]. *)
Definition stored (a : list (Z * entry)) (g it : Z) (n : names) (p : popdata) : Prop :=
  exists e, archive_get g a = Some e /\ e_iteration e = it /\
    shows (e_vars e) (individuals p) (component_names (variable_names n)) /\
    shows (e_objs e) (objectives p) (component_names (objective_names n)) /\
    shows (e_fits e) (fitness p) (component_names (fitness_names n)).

Definition scalar (n : name) : Prop := exists s, n = Str s.
Definition vector (n : name) : Prop := exists l, n = Lst l.

Lemma all_scalar ns : Forall scalar ns -> exists l, ns = map Str l /\ component_names ns = l.
Proof.
  induction 1 as [|n ns [s ->] _ (l & -> & E)]; [exists []; auto|].
  exists (s :: l). split; [reflexivity|]. change (s :: component_names (map Str l) = s :: l). now rewrite E.
Qed.

Lemma index_scalar l : ensure_index (map Str l) = Ok (map LStr l).
Proof.
  destruct l as [|a l]; [reflexivity|]. cbn [map ensure_index forallb is_list andb].
  cbn [map]. do 2 f_equal. rewrite map_map. apply map_ext. reflexivity.
Qed.

Lemma shows_map l m : List.length l = width m -> shows (mkFrame (map LStr l) m) m l.
Proof.
  intros H. split; [reflexivity|]. split; [cbn; now rewrite map_length|].
  intros j s. cbn [labels]. rewrite nth_error_map. destruct (nth_error l j); cbn; split; intros E; inversion E; reflexivity.
Qed.

Lemma frame_scalar l m : List.length l = width m -> DataFrame m (map Str l) = Ok (mkFrame (map LStr l) m).
Proof.
  intros H. unfold DataFrame. rewrite index_scalar. cbn [bind]. rewrite map_length, H, Nat.eqb_refl. reflexivity.
Qed.

Lemma frame_scalar_bad l m : List.length l <> width m -> DataFrame m (map Str l) = Err ValueError.
Proof.
  intros H. unfold DataFrame. rewrite index_scalar. cbn [bind]. rewrite map_length.
  apply Nat.eqb_neq in H. now rewrite H.
Qed.

Lemma first_scalar l : l <> [] -> first_is_list (map Str l) = Ok false.
Proof. destruct l; [congruence|reflexivity]. Qed.

Lemma flatten_vectors ns : Forall vector ns -> flatten ns = map Str (component_names ns).
Proof.
  intros H. unfold flatten, component_names. f_equal. induction H as [|n ns [l ->] _ IH]; [reflexivity|].
  cbn [flat_map items]. now rewrite IH.
Qed.

(** Names for which the code labels correctly: every fitness is a scalar, and the objectives are all scalars or all
    vectors. *)
Definition plain_names (n : names) : Prop :=
  Forall scalar (variable_names n) /\ Forall scalar (fitness_names n) /\ fitness_names n <> [] /\
  objective_names n <> [] /\ (Forall scalar (objective_names n) \/ Forall vector (objective_names n)).

(** The population's arrays have one column per component. *)
Definition matching (n : names) (p : popdata) : Prop :=
  width (individuals p) = List.length (component_names (variable_names n)) /\
  width (objectives p) = List.length (component_names (objective_names n)) /\
  width (fitness p) = List.length (component_names (fitness_names n)).

Lemma plain_columns n : plain_names n ->
  column_names n = Ok (map Str (component_names (objective_names n)), map Str (component_names (fitness_names n))).
Proof.
  intros (V & F & F0 & O0 & O). unfold column_names.
  destruct (all_scalar _ F) as (fl & EF & CF). rewrite CF.
  assert (fl <> []) as Hfl by (intros ->; cbn in EF; congruence).
  destruct O as [O|O].
  - destruct (all_scalar _ O) as (ol & EO & CO). rewrite CO.
    assert (ol <> []) as Hol by (intros ->; cbn in EO; congruence).
    rewrite EO, (first_scalar ol Hol). cbn [bind]. rewrite EF, (first_scalar fl Hfl). reflexivity.
  - assert (first_is_list (objective_names n) = Ok true) as ->
      by (destruct O as [|x l [l' ->] _]; [congruence|reflexivity]).
    cbn [bind]. rewrite (flatten_vectors _ O), EF, (first_scalar fl Hfl). reflexivity.
Qed.

Lemma plain_entry it n p : plain_names n -> matching n p ->
  exists e, make_entry it n p = Ok e /\ e_iteration e = it /\
    shows (e_vars e) (individuals p) (component_names (variable_names n)) /\
    shows (e_objs e) (objectives p) (component_names (objective_names n)) /\
    shows (e_fits e) (fitness p) (component_names (fitness_names n)).
Proof.
  intros P (W1 & W2 & W3). unfold make_entry. rewrite (plain_columns n P). cbn [bind fst snd].
  destruct P as (V & _). destruct (all_scalar _ V) as (vl & EV & CV). rewrite EV in CV, W1 |- *.
  assert (List.length vl = width (individuals p)) as Wv by (rewrite <- CV; now symmetry).
  rewrite (frame_scalar vl _ Wv). cbn [bind].
  rewrite (frame_scalar _ _ (eq_sym W2)). cbn [bind]. rewrite (frame_scalar _ _ (eq_sym W3)). cbn [bind].
  eexists. split; [reflexivity|]. cbn [e_iteration e_vars e_objs e_fits]. split; [reflexivity|].
  rewrite CV. split; [apply shows_map; exact Wv|]. split; apply shows_map; now symmetry.
Qed.

Lemma archive_get_new k e a : archive_get k ((k, e) :: a) = Some e.
Proof. unfold archive_get. cbn [find fst]. now rewrite Z.eqb_refl. Qed.
Lemma archive_get_old k k' e a : k <> k' -> archive_get k ((k', e) :: a) = archive_get k a.
Proof. intros H. unfold archive_get. cbn [find fst]. destruct (Z.eqb_spec k' k); [congruence|reflexivity]. Qed.

(** C100 (partial: fitness components must have scalar names, and objectives be all scalar or all vector). Before an
    iteration, and at the end, the snapshot of the current generation is stored with correctly labelled tables, and the
    snapshots of all other generations are kept; nothing else changes. *)
Theorem C100_snapshot_labels_partial : forall s,
  keep_archive s = true -> plain_names (snames s) -> matching (snames s) (spop s) ->
  let (s', r) := pre_iteration s in
  r = Ok tt /\
  stored (archive s') (current_gen s) (iteration_counter s) (snames s) (spop s) /\
  (forall g, g <> current_gen s -> archive_get g (archive s') = archive_get g (archive s)) /\
  keep_archive s' = true /\ iteration_counter s' = iteration_counter s /\ current_gen s' = current_gen s /\
  snames s' = snames s /\ spop s' = spop s.
Proof.
  intros s K P M. unfold pre_iteration. rewrite K.
  destruct (plain_entry (iteration_counter s) _ _ P M) as (e & E & R). rewrite E. cbn.
  split; [reflexivity|]. split; [exists e; rewrite archive_get_new; split; [reflexivity|exact R]|].
  split; [intros g G; now rewrite archive_get_old|]. auto 8.
Qed.

(** C100 (same hypotheses): [end] returns the archive including that last snapshot. *)
Theorem C100_end_returns_archive_partial : forall s,
  keep_archive s = true -> plain_names (snames s) -> matching (snames s) (spop s) ->
  exists s' a, finish s = (s', Ok (Some a)) /\ a = archive s' /\
  stored a (current_gen s) (iteration_counter s) (snames s) (spop s) /\
  forall g, g <> current_gen s -> archive_get g a = archive_get g (archive s).
Proof.
  intros s K P M. pose proof (C100_snapshot_labels_partial s K P M) as H. unfold finish.
  destruct (pre_iteration s) as [s' r]. destruct H as (-> & S1 & S2 & _). rewrite K.
  exists s', (archive s'). auto.
Qed.

(** C100. Without keep_archive nothing is stored and [end] returns None; and whenever a snapshot fails (with any names)
    the object is unchanged and the caller sees the exception. *)
Theorem C100_no_archive : forall s, keep_archive s = false ->
  pre_iteration s = (s, Ok tt) /\ finish s = (s, Ok None).
Proof. intros s K. unfold finish, pre_iteration. rewrite K. auto. Qed.

Theorem C100_failed_snapshot_changes_nothing : forall s x,
  (snd (pre_iteration s) = Err x -> fst (pre_iteration s) = s) /\ (snd (finish s) = Err x -> fst (finish s) = s).
Proof.
  intros s x. unfold finish, pre_iteration. destruct (keep_archive s); [|split; discriminate].
  destruct (make_entry _ _ _); cbn; split; intros H; try discriminate; reflexivity.
Qed.

(** C100. With such names a snapshot fails exactly when some array does not have one column per name. *)
Theorem C100_snapshot_fails_iff : forall s, plain_names (snames s) ->
  (exists x, snd (pre_iteration s) = Err x) <-> (keep_archive s = true /\ ~ matching (snames s) (spop s)).
Proof.
  intros s P. split.
  - intros (x & H). destruct (keep_archive s) eqn:K; [|unfold pre_iteration in H; rewrite K in H; discriminate].
    split; [reflexivity|]. intros M. pose proof (C100_snapshot_labels_partial s K P M) as C.
    destruct (pre_iteration s) as [s' r]. destruct C as (-> & _). discriminate.
  - intros (K & M). unfold pre_iteration. rewrite K. unfold make_entry. rewrite (plain_columns _ P). cbn [bind fst snd].
    destruct P as (V & _). destruct (all_scalar _ V) as (vl & EV & CV). unfold matching in M. rewrite CV in M. rewrite EV.
    destruct (Nat.eq_dec (List.length vl) (width (individuals (spop s)))) as [W1|W1];
      [|rewrite (frame_scalar_bad _ _ W1); cbn; eauto].
    rewrite (frame_scalar _ _ W1). cbn [bind].
    destruct (Nat.eq_dec (List.length (component_names (objective_names (snames s)))) (width (objectives (spop s)))) as [W2|W2];
      [|rewrite (frame_scalar_bad _ _ W2); cbn; eauto].
    rewrite (frame_scalar _ _ W2). cbn [bind].
    destruct (Nat.eq_dec (List.length (component_names (fitness_names (snames s)))) (width (fitness (spop s)))) as [W3|W3];
      [|rewrite (frame_scalar_bad _ _ W3); cbn; eauto].
    exfalso. apply M. auto.
Qed.

(** C100 (histories). A run is a list of population updates between snapshots; every snapshot of the run stays readable
    with the population of its own time, whatever comes later, as long as generation numbers grow. *)
Fixpoint run (s : snapst) (steps : list (popdata * Z * Z)) : snapst :=
  match steps with
  | [] => s
  | (p, it, g) :: t =>
      run (fst (pre_iteration (mkSnap (keep_archive s) it g (snames s) p (archive s)))) t
  end.

Lemma run_keeps steps : forall s g,
  keep_archive s = true -> plain_names (snames s) ->
  Forall (fun q => matching (snames s) (fst (fst q)) /\ (snd q <> g)%Z) steps ->
  archive_get g (archive (run s steps)) = archive_get g (archive s).
Proof.
  induction steps as [|[[p it] h] t IH]; intros s g K P H; [reflexivity|].
  inversion H as [|? ? [M N] Ht]; subst. cbn [run]. cbn [fst snd] in M, N.
  pose proof (C100_snapshot_labels_partial (mkSnap (keep_archive s) it h (snames s) p (archive s)) K P M) as C.
  destruct (pre_iteration _) as [s' r]. cbn [fst] in *. cbn in C. destruct C as (_ & _ & O & K' & _ & _ & N' & _).
  rewrite IH; [|exact K'|rewrite N'; exact P|rewrite N'; exact Ht].
  apply O. congruence.
Qed.

Theorem C100_run_history_partial : forall s steps i p it g,
  keep_archive s = true -> plain_names (snames s) ->
  Forall (fun q => matching (snames s) (fst (fst q))) steps ->
  NoDup (map snd steps) -> nth_error steps i = Some (p, it, g) ->
  stored (archive (run s steps)) g it (snames s) p.
Proof.
  intros s steps. revert s. induction steps as [|[[p it] h] t IH]; intros s i q jt g K P M N E; [destruct i; discriminate|].
  inversion M as [|? ? M0 Mt]; subst. inversion N as [|? ? N0 Nt]; subst. cbn [run]. cbn [fst snd] in M0.
  pose proof (C100_snapshot_labels_partial (mkSnap (keep_archive s) it h (snames s) p (archive s)) K P M0) as C.
  destruct (pre_iteration _) as [s' r] eqn:EP. cbn [fst] in *. cbn in C. destruct C as (_ & S1 & O & K' & _ & _ & N' & _).
  destruct i as [|i].
  - inversion E; subst. destruct S1 as (e & G & R). exists e. split; [|exact R].
    rewrite run_keeps; [exact G|exact K'|rewrite N'; exact P|].
    rewrite N'. apply Forall_forall. intros [[a b] d] Hin. cbn [fst snd]. split.
    + apply (proj1 (Forall_forall _ _) Mt _ Hin).
    + intros ->. apply N0. apply in_map_iff. exists (a, b, g). auto.
  - cbn [nth_error] in E. rewrite <- N'. apply (IH s' i q jt g); auto; rewrite N'; auto.
Qed.

(** C100 is false for vector-valued fitnesses: (1) the labels of the objectives table are taken from the fitness names;
    (2) two vector-valued fitnesses make every snapshot fail; (3) a scalar after a vector objective is split into
    characters. *)
Definition m2 : matrix := mkMat 2 [[1#1; 2#1]; [3#1; 4#1]].
Definition row2 : list (list Q) := [[1#1; 2#1]].
Open Scope string_scope.

Theorem C100_objective_labels_refuted : exists s e, keep_archive s = true /\ matching (snames s) (spop s) /\
  snd (pre_iteration s) = Ok tt /\ archive_get (current_gen s) (archive (fst (pre_iteration s))) = Some e /\
  component_names (objective_names (snames s)) = ["cost"; "mass"] /\ labels (e_objs e) = [LStr "u"; LStr "v"].
Proof.
  exists (mkSnap true 0 0 (mkNames [Str "x"; Str "y"] [Str "cost"; Str "mass"] [Lst ["u"; "v"]]) (mkPop m2 m2 m2) []).
  eexists. split; [reflexivity|]. split; [repeat split|]. split; [reflexivity|]. split; [reflexivity|].
  split; reflexivity.
Qed.

Theorem C100_vector_fitness_refuted : exists s, keep_archive s = true /\ matching (snames s) (spop s) /\
  snd (pre_iteration s) = Err ValueError.
Proof.
  exists (mkSnap true 0 0 (mkNames [Str "x"; Str "y"] [Str "a"; Str "b"] [Lst ["u"]; Lst ["v"]]) (mkPop m2 m2 m2) []).
  split; [reflexivity|]. split; [repeat split|reflexivity].
Qed.

Theorem C100_mixed_objectives_refuted : exists s, keep_archive s = true /\ matching (snames s) (spop s) /\
  snd (pre_iteration s) = Err ValueError.
Proof.
  exists (mkSnap true 0 0 (mkNames [Str "x"; Str "y"] [Lst ["a"]; Str "cost"] [Str "u"; Str "v"]) (mkPop m2 m2 m2) []).
  split; [reflexivity|]. split; [repeat split|reflexivity].
Qed.

(** C100. The plot request shows the objectives under their own names, provided all objectives are scalar; ... *)
Theorem C100_plot_table_partial : forall s, Forall scalar (objective_names (snames s)) ->
  width (objectives (spop s)) = List.length (objective_names (snames s)) ->
  exists t, plot_table s = Ok t /\ shows t (objectives (spop s)) (component_names (objective_names (snames s))).
Proof.
  intros s H W. unfold plot_table. destruct (all_scalar _ H) as (l & E & C). rewrite C. rewrite E in *. rewrite map_length in W.
  symmetry in W. rewrite (frame_scalar l _ W). eexists. split; [reflexivity|]. apply shows_map. exact W.
Qed.
(** ... with two vector objectives it fails. *)
Theorem C100_plot_table_refuted : exists s, matching (snames s) (spop s) /\ plot_table s = Err ValueError.
Proof.
  exists (mkSnap true 0 0 (mkNames [Str "x"; Str "y"] [Lst ["a"]; Lst ["b"]] [Str "u"; Str "v"]) (mkPop m2 m2 m2) []).
  split; [repeat split|reflexivity].
Qed.

(** Non-vacuity: scalar names, and vector objectives with scalar fitnesses (as in IOPIS: other fitnesses than objectives). *)
Definition ex_n : names := mkNames [Str "x"; Str "y"] [Str "cost"; Str "mass"] [Str "STOM"; Str "GUESS"].
Definition ex_v : names := mkNames [Str "x"; Str "y"] [Lst ["cost"; "mass"]] [Str "STOM"; Str "GUESS"].
Example ex_plain : plain_names ex_n /\ plain_names ex_v /\ matching ex_n (mkPop m2 m2 m2) /\ matching ex_v (mkPop m2 m2 m2).
Proof.
  assert (forall l, Forall scalar (map Str l)) as H by (intros l; apply Forall_forall; intros x Hx; apply in_map_iff in Hx; destruct Hx as (y & <- & _); exists y; reflexivity).
  split; [|split; [|split; repeat split]].
  - split; [apply (H ["x"; "y"])|]. split; [apply (H ["STOM"; "GUESS"])|]. split; [discriminate|]. split; [discriminate|].
    left. apply (H ["cost"; "mass"]).
  - split; [apply (H ["x"; "y"])|]. split; [apply (H ["STOM"; "GUESS"])|]. split; [discriminate|]. split; [discriminate|].
    right. constructor; [eexists; reflexivity|constructor].
Qed.
Example ex_tables : exists e,
  archive_get 7 (archive (fst (pre_iteration (mkSnap true 3 7 ex_v (mkPop m2 m2 m2) [])))) = Some e /\
  e_iteration e = 3%Z /\ labels (e_objs e) = [LStr "cost"; LStr "mass"] /\ labels (e_fits e) = [LStr "STOM"; LStr "GUESS"].
Proof. eexists. split; [reflexivity|]. auto. Qed.
Example ex_run : stored (archive (run (mkSnap true 0 0 ex_n (mkPop m2 m2 m2) [])
    [(mkPop m2 m2 m2, 0%Z, 0%Z); (mkPop (mkMat 2 row2) (mkMat 2 row2) (mkMat 2 row2), 1%Z, 10%Z)]))
  0 0 ex_n (mkPop m2 m2 m2).
Proof.
  apply (C100_run_history_partial (mkSnap true 0 0 ex_n (mkPop m2 m2 m2) [])
    [(mkPop m2 m2 m2, 0%Z, 0%Z); (mkPop (mkMat 2 row2) (mkMat 2 row2) (mkMat 2 row2), 1%Z, 10%Z)] 0); try reflexivity; [apply ex_plain| |].
  - repeat constructor.
  - repeat constructor; cbn; intuition discriminate.
Qed.

Print Assumptions C100_snapshot_labels_partial.
Print Assumptions C100_end_returns_archive_partial.
Print Assumptions C100_no_archive.
Print Assumptions C100_failed_snapshot_changes_nothing.
Print Assumptions C100_snapshot_fails_iff.
Print Assumptions C100_run_history_partial.
Print Assumptions C100_objective_labels_refuted.
Print Assumptions C100_vector_fitness_refuted.
Print Assumptions C100_mixed_objectives_refuted.
Print Assumptions C100_plot_table_partial.
Print Assumptions C100_plot_table_refuted.
