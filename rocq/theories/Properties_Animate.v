(** C65: animations of populations (utilities/plotlyanimate.py). *)
From Verif Require Import Base M_Animate Spec_Animate P_Animate.
From Coq Require Import QArith String.
Open Scope nat_scope.

(** A population of at least two objectives, non-empty if it has more than three. *)
Definition plottable (d : input) : Prop := match d with Array n rows => 2 <= n /\ (rows <> [] \/ n <= 3) | _ => False end.
Definition objectives_of (d : input) : nat * list (list Q) := match d with Array n rows => (n, rows) | Frame ls rows => (List.length ls, rows) | PyList rows => (0, rows) end.

(** animate_next_ adds exactly one frame, showing every individual, and one slider step pointing to it, leaves the rest of the figure alone and saves the figure (and no other file). *)
Theorem C65_next_appends_one : forall fs d fig filename generation, plottable d -> exists fs' fig' t g,
  animate_next fs d fig filename generation = (fs', fig', Ok tt) /\
  f_frames fig' = f_frames fig ++ [mkFrame g t] /\ f_steps fig' = f_steps fig ++ [g] /\ f_data fig' = f_data fig /\
  shows (fst (objectives_of d)) (snd (objectives_of d)) t /\
  (generation = Some g \/ generation = None /\ g = List.length (f_frames fig)) /\
  fs' filename = Some fig' /\ forall f, f <> filename -> fs' f = fs f.
Proof.
  intros fs [n rows|ls rows|rows] fig filename generation; [|intros []|intros []]. intros (Hn & Hr). rewrite (next_trace fs n rows fig filename generation Hn).
  destruct (trace_of_ok n rows Hn Hr) as (t & -> & Ht). unfold next_with. eexists _, _, t, _. split; [reflexivity|]. cbn [f_frames f_steps f_data objectives_of fst snd]. split; [reflexivity|]. split; [reflexivity|]. split; [reflexivity|].
  split; [exact Ht|]. split; [destruct generation; auto|]. unfold plot. split; [rewrite String.eqb_refl; reflexivity|]. intros f Hf. destruct (String.eqb_spec f filename); [congruence|reflexivity].
Qed.
(** animate_init_ starts a figure with that population as first picture and as frame 0, and saves it. *)
Theorem C65_init : forall fs d filename, plottable d -> exists fs' fig t,
  animate_init fs d filename = (fs', Ok fig) /\ f_data fig = [t] /\ f_frames fig = [mkFrame 0 t] /\ f_steps fig = [0] /\ shows (fst (objectives_of d)) (snd (objectives_of d)) t /\
  fs' filename = Some fig /\ forall f, f <> filename -> fs' f = fs f.
Proof.
  intros fs [n rows|ls rows|rows] filename; [|intros []|intros []]. intros (Hn & Hr). rewrite (init_trace fs n rows filename Hn). destruct (trace_of_ok n rows Hn Hr) as (t & -> & Ht). unfold init_with, next_with.
  eexists _, _, t. split; [reflexivity|]. cbn [f_frames f_steps f_data objectives_of fst snd app]. split; [reflexivity|]. split; [reflexivity|]. split; [reflexivity|]. split; [exact Ht|]. unfold plot. split; [rewrite String.eqb_refl; reflexivity|].
  intros f Hf. destruct (String.eqb_spec f filename); [congruence|reflexivity].
Qed.

Lemma run_spec filename calls : forall fs fig, (forall c, In c calls -> plottable (fst c)) -> map f_name (f_frames fig) = f_steps fig -> fs filename = Some fig ->
  let '(fs', fig') := animate_run fs fig filename calls in
  List.length (f_frames fig') = List.length (f_frames fig) + List.length calls /\ map f_name (f_frames fig') = f_steps fig' /\ f_data fig' = f_data fig /\ fs' filename = Some fig' /\
  (forall k fr, nth_error (f_frames fig) k = Some fr -> nth_error (f_frames fig') k = Some fr) /\
  (forall k c, nth_error calls k = Some c -> exists fr, nth_error (f_frames fig') (List.length (f_frames fig) + k) = Some fr /\ shows (fst (objectives_of (fst c))) (snd (objectives_of (fst c))) (f_trace fr) /\
     f_name fr = match snd c with Some g => g | None => List.length (f_frames fig) + k end).
Proof.
  induction calls as [|[d g] calls IH]; intros fs fig Hp Hs Hf.
  - unfold animate_run. cbn [fold_left List.length]. split; [lia|]. split; auto. split; auto. split; auto. split; auto. intros [|k] c H; discriminate.
  - unfold animate_run. cbn [fold_left fst snd]. destruct (C65_next_appends_one fs d fig filename g (Hp (d, g) (or_introl eq_refl))) as (fs1 & fig1 & t & g1 & E & F & S1 & D & Sh & G & Sv & _). rewrite E.
    fold (animate_run fs1 fig1 filename calls). specialize (IH fs1 fig1 (fun c Hc => Hp c (or_intror Hc))). destruct (animate_run fs1 fig1 filename calls) as [fs' fig'] eqn:Er.
    destruct IH as (A & B & C & D' & K & L); auto. { rewrite F, S1, map_app, Hs. reflexivity. }
    assert (L1 : List.length (f_frames fig1) = S (List.length (f_frames fig))) by (rewrite F, app_length; simpl; lia).
    split; [rewrite A, L1; simpl; lia|]. split; auto. split; [congruence|]. split; auto. split.
    + intros k fr Hk. apply K. rewrite F. rewrite nth_error_app1; auto. apply nth_error_Some. congruence.
    + intros [|k] c Hc.
      * injection Hc as <-. exists (mkFrame g1 t). split; [|split; [exact Sh|]].
        { apply K. rewrite F, nth_error_app2 by lia. replace (List.length (f_frames fig) + 0 - List.length (f_frames fig)) with 0 by lia. reflexivity. }
        cbn [f_name snd]. destruct G as [->|(-> & ->)]; [reflexivity|]. lia.
      * destruct (L k c Hc) as (fr & H1 & H2 & H3). exists fr. rewrite L1 in H1, H3. split; [rewrite <- H1; f_equal; lia|]. split; auto. rewrite H3. destruct (snd c); auto. lia.
Qed.

(** An animation of one initial and k further populations has k + 1 frames, the i-th showing the i-th population, and k + 1 slider steps, the i-th pointing to the i-th frame; it is what the file holds. *)
Theorem C65_history : forall fs d filename calls, plottable d -> (forall c, In c calls -> plottable (fst c)) -> exists fs1 fig1 fs' fig',
  animate_init fs d filename = (fs1, Ok fig1) /\ animate_run fs1 fig1 filename calls = (fs', fig') /\
  List.length (f_frames fig') = S (List.length calls) /\ f_steps fig' = map f_name (f_frames fig') /\ fs' filename = Some fig' /\ f_data fig' = f_data fig1 /\
  forall i c, nth_error ((d, Some 0) :: calls) i = Some c -> exists fr, nth_error (f_frames fig') i = Some fr /\ shows (fst (objectives_of (fst c))) (snd (objectives_of (fst c))) (f_trace fr) /\
    f_name fr = match snd c with Some g => g | None => i end.
Proof.
  intros fs d filename calls Hd Hc. destruct (C65_init fs d filename Hd) as (fs1 & fig1 & t & E & D & F & S1 & Sh & Sv & _). exists fs1, fig1.
  pose proof (run_spec filename calls fs1 fig1 Hc) as R1. rewrite F, S1 in R1. specialize (R1 eq_refl Sv). destruct (animate_run fs1 fig1 filename calls) as [fs' fig']. destruct R1 as (A & B & C & D' & K & L).
  exists fs', fig'. split; auto. split; auto. split; [exact A|]. split; auto. split; auto. split; [congruence|]. intros [|i] c Hi.
  - injection Hi as <-. exists (mkFrame 0 t). split; [apply (K 0); reflexivity|]. split; auto.
  - destruct (L i c Hi) as (fr & H1 & H2 & H3). exists fr. split; auto.
Qed.
(** Without explicit generation numbers (or with the iteration counters 1, 2, 3, ... of the surrogate trainings) the frames are named 0, 1, 2, ...: the slider is unambiguous. *)
Theorem C65_names_partial : forall fs d filename calls fs1 fig1 fs' fig', plottable d -> (forall c, In c calls -> plottable (fst c)) ->
  (forall k c, nth_error calls k = Some c -> snd c = None \/ snd c = Some (S k)) ->
  animate_init fs d filename = (fs1, Ok fig1) -> animate_run fs1 fig1 filename calls = (fs', fig') ->
  f_steps fig' = seq 0 (S (List.length calls)) /\ NoDup (map f_name (f_frames fig')).
Proof.
  intros fs d filename calls fs1 fig1 fs' fig' Hd Hc Hg E1 E2. destruct (C65_history fs d filename calls Hd Hc) as (fs2 & fig2 & fs3 & fig3 & F1 & F2 & A & B & _ & _ & C).
  rewrite E1 in F1. injection F1 as <- <-. rewrite E2 in F2. injection F2 as <- <-.
  assert (G : map f_name (f_frames fig') = seq 0 (S (List.length calls))).
  { apply (nth_ext _ _ 0 0); [rewrite map_length, seq_length; auto|]. rewrite map_length, A. intros i Hi. rewrite seq_nth by auto. cbn [Nat.add].
    destruct (nth_error ((d, Some 0) :: calls) i) as [c|] eqn:Ei; [|apply nth_error_None in Ei; simpl in Ei; lia]. destruct (C i c Ei) as (fr & H1 & _ & H3).
    transitivity (f_name fr); [apply nth_error_nth; rewrite nth_error_map, H1; reflexivity|]. rewrite H3. destruct i as [|i]; [injection Ei as <-; reflexivity|]. destruct (Hg i c Ei) as [->| ->]; reflexivity. }
  split; [congruence|]. rewrite G. apply seq_NoDup.
Qed.
(** Mixing explicit and automatic numbers gives two frames of the same name. *)
Theorem C65_names_refuted : exists fs d filename calls fs1 fig1 fs' fig', plottable d /\ (forall c, In c calls -> plottable (fst c)) /\
  animate_init fs d filename = (fs1, Ok fig1) /\ animate_run fs1 fig1 filename calls = (fs', fig') /\ f_steps fig' = [0; 2; 2].
Proof.
  exists (fun _ => None), (Array 2 [[1; 2]%Q]), "a.html"%string, [(Array 2 [[3; 4]%Q], Some 2); (Array 2 [[5; 6]%Q], None)]. eexists _, _, _, _.
  split; [split; [lia|right; lia]|]. split; [intros c [<-|[<-|[]]]; (split; [lia|right; lia])|]. split; [reflexivity|]. split; reflexivity.
Qed.

(** One objective: no figure can be started, and a further population is silently left out. *)
Theorem C65_one_objective_refuted : forall fs rows filename fig generation,
  animate_init fs (Array 1 rows) filename = (fs, Err UnboundLocalError) /\ animate_next fs (Array 1 rows) fig filename generation = (fs, fig, Ok tt).
Proof. intros; split; reflexivity. Qed.
(** The documented DataFrame (two or three objectives) and list arguments are not accepted; the figure stays as it was. *)
Theorem C65_frames_and_lists_refuted : forall fs ls rows filename fig generation, List.length ls = 2 \/ List.length ls = 3 ->
  animate_next fs (Frame ls rows) fig filename generation = (fs, fig, Err TypeError) /\ animate_next fs (PyList rows) fig filename generation = (fs, fig, Err AttributeError).
Proof. intros fs ls rows filename fig generation [H|H]; (split; [unfold animate_next, numobj; rewrite H; reflexivity|reflexivity]). Qed.
(** A DataFrame of four or more objectives is accepted exactly if one of its columns is labelled 0 (the integer); then the new frame shows every column
    under its own label, with its own range. *)
Theorem C65_dataframe_partial : forall fs ls rows filename fig generation, 4 <= List.length ls -> rows <> [] ->
  (In (IntLabel 0) ls -> exists fs' fig' t g c lo hi dims, animate_next fs (Frame ls rows) fig filename generation = (fs', fig', Ok tt) /\
     f_frames fig' = f_frames fig ++ [mkFrame g t] /\ f_steps fig' = f_steps fig ++ [g] /\ (generation = Some g \/ generation = None /\ g = List.length (f_frames fig)) /\
     t = Parcoords (map (fun r => nth c r 0%Q) rows) lo hi dims /\ nth_error ls c = Some (IntLabel 0) /\
     map d_label dims = ls /\ forall j d, nth_error dims j = Some d -> d_values d = map (fun r => nth j r 0%Q) rows) /\
  (~ In (IntLabel 0) ls -> animate_next fs (Frame ls rows) fig filename generation = (fs, fig, Err KeyError)).
Proof.
  intros fs ls rows filename fig generation Hn Hr.
  assert (Mn : forall j, exists lo, col_min (column j rows) = Ok lo) by (intros j; destruct rows; [congruence|eexists; reflexivity]).
  assert (Mx : forall j, exists hi, col_max (column j rows) = Ok hi) by (intros j; destruct rows; [congruence|eexists; reflexivity]).
  assert (S : forall ls k, exists dims, sequence (map (make_dim rows) (combine (seq k (List.length ls)) ls)) = Ok dims /\ map d_label dims = ls /\
     forall j d, nth_error dims j = Some d -> d_values d = column (k + j) rows).
  { clear -Mn Mx. induction ls as [|l ls IH]; intros k.
    - exists []. split; [reflexivity|]. split; [reflexivity|]. intros [|j] d H; discriminate.
    - destruct (IH (S k)) as (dims & E & L & V). destruct (Mn k) as [lo Lo]. destruct (Mx k) as [hi Hi]. exists (mkDim l lo hi (column k rows) :: dims).
      cbn [List.length seq combine map sequence]. unfold make_dim at 1. cbn [fst snd]. rewrite Lo. cbn [bind]. rewrite Hi. cbn [bind]. rewrite E. split; [reflexivity|]. split; [cbn; congruence|].
      intros [|j] d H; cbn in H; [injection H as <-; rewrite Nat.add_0_r; reflexivity|]. rewrite (V j d H). f_equal. lia. }
  assert (Le : forall l, label_eqb (IntLabel 0) l = true <-> l = IntLabel 0).
  { intros [n|s]; cbn [label_eqb]; [rewrite Nat.eqb_eq; split; [intros <-; reflexivity|intros H; injection H as ->; reflexivity]|split; discriminate]. }
  assert (Ps : forall ls, (In (IntLabel 0) ls -> exists c, position (label_eqb (IntLabel 0)) ls = Some c /\ nth_error ls c = Some (IntLabel 0)) /\
     (~ In (IntLabel 0) ls -> position (label_eqb (IntLabel 0)) ls = None)).
  { clear -Le. induction ls as [|l ls [IH1 IH2]]; [split; [intros []|reflexivity]|]. cbn [position]. destruct (label_eqb (IntLabel 0) l) eqn:E.
    - apply Le in E. subst l. split; [exists 0; split; reflexivity|intros H; destruct H; left; reflexivity].
    - assert (N : l <> IntLabel 0) by (intros X; apply Le in X; congruence). split.
      + intros [H|H]; [congruence|]. destruct (IH1 H) as (c & -> & Hc). exists (S c). split; [reflexivity|exact Hc].
      + intros H. rewrite IH2; [reflexivity|]. intros X. apply H. right. exact X. }
  assert (N : animate_next fs (Frame ls rows) fig filename generation = next_with (trace_par (Frame ls rows)) fs fig filename (match generation with None => List.length (f_frames fig) | Some g => g end)).
  { unfold animate_next, numobj. destruct (Nat.eqb_spec (List.length ls) 2); [lia|]. destruct (Nat.eqb_spec (List.length ls) 3); [lia|]. destruct (Nat.leb_spec 4 (List.length ls)); [reflexivity|lia]. }
  destruct (S ls 0) as (dims & E & L & V). unfold trace_par in N. cbn [as_frame] in N. rewrite E in N. cbn [bind] in N. destruct (Ps ls) as [P1 P2]. split.
  - intros H. destruct (P1 H) as (c & Ec & Hc). rewrite Ec in N. destruct (Mn 0) as [lo Lo]. destruct (Mx 0) as [hi Hi]. rewrite Lo in N. cbn [bind] in N. rewrite Hi in N. cbn [bind next_with] in N.
    eexists _, _, _, _, c, lo, hi, dims. split; [exact N|]. cbn [f_frames f_steps]. split; [reflexivity|]. split; [reflexivity|]. split; [destruct generation; auto|]. split; [reflexivity|]. split; [exact Hc|]. split; [exact L|].
    intros j d Hj. exact (V j d Hj).
  - intros H. rewrite (P2 H) in N. exact N.
Qed.
(** An empty population of four or more objectives raises and leaves figure and file as they were. *)
Theorem C65_empty_population : forall fs n filename fig generation, 4 <= n -> animate_next fs (Array n []) fig filename generation = (fs, fig, Err ValueError).
Proof.
  intros fs n filename fig generation Hn. rewrite next_trace by lia. unfold trace_of. destruct (Nat.eqb_spec n 2); [lia|]. destruct (Nat.eqb_spec n 3); [lia|]. rewrite trace_par_empty by auto. reflexivity.
Qed.
(** Whatever the arguments, a call that raises changes neither figure nor files, and no call removes or changes an existing frame, step or picture. *)
Theorem C65_never_loses : forall fs d fig filename generation fs' fig' r, animate_next fs d fig filename generation = (fs', fig', r) ->
  (forall e, r = Err e -> fs' = fs /\ fig' = fig) /\ f_data fig' = f_data fig /\ exists frs, f_frames fig' = f_frames fig ++ frs /\ f_steps fig' = f_steps fig ++ map f_name frs /\ List.length frs <= 1.
Proof.
  intros fs d fig filename generation fs' fig' r E.
  assert (N : forall t g fs' fig' r, next_with t fs fig filename g = (fs', fig', r) -> (forall e, r = Err e -> fs' = fs /\ fig' = fig) /\ f_data fig' = f_data fig /\ exists frs, f_frames fig' = f_frames fig ++ frs /\ f_steps fig' = f_steps fig ++ map f_name frs /\ List.length frs <= 1).
  { intros [t|e] g fs2 fig2 r2 H; unfold next_with in H; injection H as <- <- <-.
    - split; [discriminate|]. split; [reflexivity|]. exists [mkFrame g t]. split; [reflexivity|]. split; [reflexivity|simpl; lia].
    - split; [auto|]. split; [reflexivity|]. exists []. cbn [map]. rewrite !app_nil_r. split; [reflexivity|]. split; [reflexivity|simpl; lia]. }
  assert (M : forall r, r = Ok tt \/ r = Err AttributeError -> (fs, fig, r) = (fs', fig', r) -> (forall e, r = Err e -> fs' = fs /\ fig' = fig) /\ f_data fig' = f_data fig /\ exists frs, f_frames fig' = f_frames fig ++ frs /\ f_steps fig' = f_steps fig ++ map f_name frs /\ List.length frs <= 1).
  { intros r0 _ H. injection H as <- <-. split; [auto|]. split; [reflexivity|]. exists []. cbn [map]. rewrite !app_nil_r. split; [reflexivity|]. split; [reflexivity|simpl; lia]. }
  unfold animate_next in E. destruct (numobj d) as [n|e] eqn:En.
  - destruct (Nat.eqb n 2); [apply (N _ _ _ _ _ E)|]. destruct (Nat.eqb n 3); [apply (N _ _ _ _ _ E)|]. destruct (Nat.leb 4 n); [apply (N _ _ _ _ _ E)|]. injection E as <- <- <-. apply M; auto.
  - injection E as <- <- <-. apply M; auto. destruct d; try discriminate. injection En as <-. auto.
Qed.

(** Non-vacuity. *)
Example C65_example : exists fs1 fig1, animate_init (fun _ => None) (Array 4 [[1; 2; 3; 4]; [0; 5; 2; 2]]%Q) "p.html" = (fs1, Ok fig1) /\ List.length (f_frames fig1) = 1.
Proof. eexists _, _. split; reflexivity. Qed.
Example C65_plottable_example : plottable (Array 3 []) /\ plottable (Array 5 [[1; 2; 3; 4; 5]%Q]).
Proof. split; (split; [lia|]); [right; lia|left; discriminate]. Qed.
Print Assumptions C65_history.
Print Assumptions C65_names_partial.
Print Assumptions C65_never_loses.
