(** C85, C86: the selection operators of the IOPIS algorithms work in the space of scalarisation values. *)
From Verif Require Import Base RVec M_APD Spec_APD P_APD Properties_APD M_NSGA3 Spec_Fronts P_NSGA3 Properties_NSGA3 M_IOPISsel.
From Coq Require Import Reals Lra Permutation.
Open Scope R_scope.

(** F has one row per individual and one column per scalarisation, holding that scalarisation's value for that individual. *)
Definition values_matrix (methods : list scalarisation) (fit : list (list R)) (ref : list R) (F : list (list R)) : Prop :=
  length F = length fit /\
  forall i f, nth_error F i = Some f -> length f = length methods /\
    forall j (s : scalarisation) y, nth_error methods j = Some s -> nth_error (s fit ref) i = Some y -> nth_error f j = Some y.
(** Every scalarisation gives one value per individual. *)
Definition total_methods (methods : list scalarisation) (fit : list (list R)) (ref : list R) : Prop :=
  forall s, In s methods -> length (s fit ref) = length fit.
(** z is the vector of column minima of F. *)
Definition column_minima (F : list (list R)) (z : list R) : Prop :=
  (forall f, In f F -> Forall2 Rle z f) /\ forall j x, nth_error z j = Some x -> exists f, In f F /\ nth_error f j = Some x.

Lemma nth_error_ext2 {A} (l : list A) : forall l', length l = length l' -> (forall i x y, nth_error l i = Some x -> nth_error l' i = Some y -> x = y) -> l = l'.
Proof.
  induction l as [|x l IH]; intros [|y l'] L H; try discriminate; auto. f_equal; [apply (H O); auto|]. apply IH; [simpl in L; lia|]. intros i. apply (H (S i)).
Qed.
Lemma scalarised_unique methods fit ref F : total_methods methods fit ref -> values_matrix methods fit ref F -> F = scalarised methods fit ref.
Proof.
  intros T (L & V). apply nth_error_ext2; [unfold scalarised; rewrite map_length, seq_length; auto|]. intros i f g Hf Hg.
  destruct (V i f Hf) as (Lf & Vf). assert (Hi : (i < length fit)%nat) by (rewrite <- L; apply nth_error_Some; congruence).
  unfold scalarised in Hg. rewrite nth_error_map in Hg. rewrite (nth_error_nth' _ O) in Hg by (rewrite seq_length; auto). rewrite seq_nth in Hg by auto. simpl in Hg. injection Hg as <-.
  apply nth_error_ext2; [rewrite map_length; auto|]. intros j x y Hx Hy. rewrite nth_error_map in Hy.  destruct (nth_error methods j) as [s|] eqn:Es; cbn [option_map] in Hy; [|discriminate Hy]. injection Hy as <-.
  assert (Hs : nth_error (s fit ref) i = Some (nth i (s fit ref) 0)) by (apply nth_error_nth'; rewrite (T s (nth_error_In _ _ Es)); auto).
  rewrite (Vf j s _ Es Hs) in Hx. congruence.
Qed.
Lemma scalarised_values methods fit ref : total_methods methods fit ref -> values_matrix methods fit ref (scalarised methods fit ref).
Proof.
  intros T. split; [unfold scalarised; rewrite map_length, seq_length; auto|]. intros i f Hf.
  assert (Hi : (i < length fit)%nat) by (assert (i < length (scalarised methods fit ref))%nat by (apply nth_error_Some; congruence); unfold scalarised in *; rewrite map_length, seq_length in *; auto).
  unfold scalarised in Hf. rewrite nth_error_map in Hf. rewrite (nth_error_nth' _ O) in Hf by (rewrite seq_length; auto). rewrite seq_nth in Hf by auto. simpl in Hf. injection Hf as <-.
  rewrite map_length. split; auto. intros j s y Hs Hy. rewrite nth_error_map, Hs. simpl. f_equal. apply nth_error_nth; auto.
Qed.

Lemma colmin_spec m F z : (forall f, In f F -> length f = m) -> colmin F = Some z -> length z = m /\ column_minima F z.
Proof.
  intros L H. destruct F as [|f0 t]; [discriminate|]. cbn [colmin] in H. injection H as <-.
  assert (Lt : forall f, In f t -> length f = length f0) by (intros f Hf; rewrite !L; [auto|left; auto|right; auto]).
  destruct (new_ideal_spec m (fold_left vmin t f0) (fold_left vmin t f0) (f0 :: t) (vmin (vmin (fold_left vmin t f0) (fold_left vmin t f0)) (fold_left vmin t f0))) as (A & _ & _ & D & _).
  { destruct (fold_vmin t f0 Lt) as (Q & _). rewrite Q. apply L; left; auto. }
  { destruct (fold_vmin t f0 Lt) as (Q & _). rewrite Q. apply L; left; auto. }
  { exact L. } { reflexivity. }
  assert (Id : forall u : list R, vmin u u = u).
  { induction u as [|x u IH]; auto. unfold vmin in *. simpl. rewrite IH. f_equal. unfold Rmin. destruct (Rle_dec x x); auto. }
  rewrite !Id in *. split; auto. split; auto. intros j x Hx. destruct (fold_vmin_comp t f0 j x Hx) as [C|(f & Hf & C)].
  - exists f0. split; [left; auto|auto].
  - exists f. split; [right; auto|auto].
Qed.
Lemma colmin_unique m F z z' : F <> [] -> length z = m -> length z' = m -> column_minima F z -> column_minima F z' -> z = z'.
Proof.
  intros NE L L' (A & B) (A' & B'). apply nth_error_ext2; [congruence|]. intros j x y Hx Hy.
  assert (G : forall f (u : list R) a b, Forall2 Rle u f -> nth_error u j = Some a -> nth_error f j = Some b -> a <= b).
  { clear. intros f u a b H. revert j. induction H; intros [|j] H1 H2; simpl in *; try discriminate; eauto. injection H1 as <-; injection H2 as <-; auto. }
  destruct (B j x Hx) as (f & Hf & Hfx). destruct (B' j y Hy) as (g & Hg & Hgy). apply Rle_antisym; eauto.
Qed.

Section APDsel.
Variables (methods : list scalarisation) (alpha : nat) (time : R) (fit : list (list R)) (ref : list R) (vecs : list (list R)) (gam : list R) (F : list (list R)) (z : list R).
(** Well-formed input: individuals, total scalarisations, unit non-negative reference vectors of as many components as there are
    scalarisations, one neighbouring angle per vector. *)
Record iopis_input : Prop := {
  ii_fit : fit <> []; ii_methods : total_methods methods fit ref;
  ii_vecs : vecs <> [] /\ forall v, In v vecs -> length v = length methods /\ norm v = 1 /\ forall x, In x v -> 0 <= x;
  ii_gam : length gam = length vecs }.
Hypothesis II : iopis_input.
Hypothesis VM : values_matrix methods fit ref F.
Hypothesis CM : length z = length methods /\ column_minima F z.

Lemma F_eq : F = scalarised methods fit ref. Proof. apply scalarised_unique; auto. apply II. Qed.
Lemma F_ne : F <> []. Proof. intros E. destruct VM as (L & _). rewrite E in L. apply (ii_fit II). destruct fit; [auto|discriminate]. Qed.
Lemma F_len : forall f, In f F -> length f = length methods.
Proof. intros f Hf. apply In_nth_error in Hf. destruct Hf as (i & Hf). apply VM in Hf. apply Hf. Qed.
Lemma z_eq : colmin F = Some z.
Proof.
  destruct (colmin F) as [z'|] eqn:E; [|pose proof F_ne as NE; exfalso; revert E NE; case F; [congruence|discriminate]]. f_equal.
  destruct (colmin_spec _ F z' F_len E) as (L & C). destruct CM as (Lz & Cz). eapply colmin_unique; eauto. apply F_ne.
Qed.
Lemma SI : selection_input (length methods) z z F None vecs gam.
Proof. destruct CM as (Lz & _). constructor; auto; try apply II. split; [apply F_ne|apply F_len]. Qed.
Lemma vmin_id (u : list R) : vmin u u = u.
Proof. induction u as [|x u IH]; auto. unfold vmin in *. simpl. rewrite IH. f_equal. unfold Rmin. destruct (Rle_dec x x); auto. Qed.
Lemma choose_eq p trs k : iopis_choose p vecs trs gam k = choose p vecs trs gam None k.
Proof.
  unfold iopis_choose, choose, constraint_filter. destruct (niche vecs trs k) as [|i [|i' t]]; auto.
Qed.
Lemma do_eq s : iopis_apd_do (new_apd_op methods alpha) time fit ref vecs gam = Ok s <->
  apd_select (partial_penalty (new_apd_op methods alpha) time) z z F None vecs gam = Ok (z, s).
Proof.
  unfold iopis_apd_do, apd_select, new_ideal. cbn [new_apd_op ao_methods]. rewrite <- F_eq, z_eq, !vmin_id. cbn [bind].
  erewrite flat_map_ext; [|intros k; apply choose_eq]. split; intros E; injection E as <-; reflexivity.
Qed.

(** C85. Selection succeeds. *)
Theorem C85_selection_total : exists s, iopis_apd_do (new_apd_op methods alpha) time fit ref vecs gam = Ok s.
Proof.
  destruct (C29_selection_total _ (partial_penalty (new_apd_op methods alpha) time) _ _ _ _ _ _ SI) as (z' & s & E). exists s. apply do_eq. rewrite E. f_equal. f_equal.
  unfold apd_select, new_ideal in E. rewrite z_eq, !vmin_id in E. cbn [bind] in E. congruence.
Qed.
(** C85. One individual per non-empty niche, in the space of scalarisation values translated by their minima. *)
Theorem C85_one_per_niche : forall s, iopis_apd_do (new_apd_op methods alpha) time fit ref vecs gam = Ok s ->
  NoDup s /\ s <> [] /\
  (forall i, In i s -> (i < length fit)%nat /\ exists k, (k < length vecs)%nat /\ closest z F vecs i k) /\
  (forall k, (exists i, closest z F vecs i k) -> exists! i, In i s /\ closest z F vecs i k).
Proof.
  intros s E. apply do_eq in E. destruct (C29_one_per_niche _ _ _ _ _ _ _ _ _ _ SI E) as (A & B & C & D). split; auto. split; auto. split; auto.
  intros i Hi. destruct (C i Hi) as (C1 & C2). split; auto. destruct VM as (L & _). rewrite <- L. auto.
Qed.
(** C85. It has the smallest angle penalised distance of its niche (the first on a tie), with the penalty time^2 * number of scalarisations
    cut to at most 1, whatever alpha was asked for. *)
Theorem C85_smallest_apd_partial : forall s i k f v g g', iopis_apd_do (new_apd_op methods alpha) time fit ref vecs gam = Ok s ->
  In i s -> closest z F vecs i k -> nth_error F i = Some f -> nth_error vecs k = Some v -> nth_error gam k = Some g ->
  (g <> 0 -> g' = g) -> (g = 0 -> g' = / 2 ^ 52) ->
  forall j fj, closest z F vecs j k -> nth_error F j = Some fj ->
    APD (Rmin 1 (time * time * INR (length methods))) g' z f v <= APD (Rmin 1 (time * time * INR (length methods))) g' z fj v /\
    ((j < i)%nat -> APD (Rmin 1 (time * time * INR (length methods))) g' z f v < APD (Rmin 1 (time * time * INR (length methods))) g' z fj v).
Proof.
  intros s i k f v g g' E Hi Hc Hf Hv Hg G1 G2 j fj Hj Hfj. apply do_eq in E.
  assert (Pen : partial_penalty (new_apd_op methods alpha) time = Rmin 1 (time * time * INR (length methods))).
  { unfold partial_penalty, new_apd_op. cbn [ao_alpha ao_n]. assert (0 <= time ^ 2 * INR (length methods)) by (apply Rmult_le_pos; [nra|apply pos_INR]).
    destruct (Rlt_dec (time ^ 2 * INR (length methods)) 0); [lra|]. replace (time * time) with (time ^ 2) by ring.
    unfold Rmin. destruct (Rlt_dec 1 (time ^ 2 * INR (length methods))), (Rle_dec 1 (time ^ 2 * INR (length methods))); lra. }
  rewrite Pen in E.
  destruct (C30_smallest_apd _ _ _ _ _ _ _ _ _ _ i k f v g g' SI E Hi Hc Hf Hv Hg G1 G2) as (_ & M). apply M; auto. split; auto.
Qed.
End APDsel.
(** C85, the part that fails: alpha is a parameter of the algorithm but has no effect. *)
Theorem C85_alpha_ignored_refuted : forall methods a a' time fit ref vecs gam,
  iopis_apd_do (new_apd_op methods a) time fit ref vecs gam = iopis_apd_do (new_apd_op methods a') time fit ref vecs gam.
Proof. reflexivity. Qed.

(** ** C86: NSGA-III in the scalarised space. *)
Definition as3 (s : st3i) (F : list (list R)) : st3 :=
  mkSt3 (match i3i s with Some i => i | None => match colmin F with Some m => m | None => [] end end) (w3i s) (e3i s) (n3i s).
Lemma nsga3_eq fnds solve rng methods dirs s fit ref s' sel :
  iopis_nsga3_do fnds solve rng methods dirs s fit ref = Ok (s', sel) <->
  exists t, nsga3_do fnds solve rng dirs (as3 s (scalarised methods fit ref)) (scalarised methods fit ref) = Ok (t, sel) /\
    s' = mkSt3i (Some (i3 t)) (w3 t) (e3 t) (n3 t).
Proof.
  unfold iopis_nsga3_do, nsga3_do. set (F := scalarised methods fit ref). destruct (fnds F) as [|nd fr]; [split; [discriminate|intros (t & E & _); discriminate]|].
  destruct (colmin F) as [fmin|] eqn:Em; [|split; [discriminate|intros (t & E & _); discriminate]].
  destruct (colmax F) as [wpop|]; [|split; [discriminate|intros (t & E & _); discriminate]].
  destruct (colmax (map (row F) nd)) as [wf|]; [|split; [discriminate|intros (t & E & _); discriminate]].
  unfold as3. cbn [n3 i3 w3 e3]. rewrite Em.
  assert (I3 : vmin (match i3i s with Some i => i | None => fmin end) fmin = match i3i s with Some i => vmin i fmin | None => fmin end) by (destruct (i3i s); [auto|apply vmin_id]).
  rewrite I3. destruct (n3i s) as [n|] eqn:En; [|split; [discriminate|intros (t & E & _); discriminate]].
  match goal with |- context [survive ?a ?b ?c ?d ?e ?f] => destruct (survive a b c d e f) as [l|e0] end; cbn [bind].
  - split. { intros E; injection E as <- <-. eexists; split; reflexivity. } intros (t & E & ->). injection E as <- <-. reflexivity.
  - split; [discriminate|intros (t & E & _); discriminate].
Qed.
Lemma scalarised_length methods fit ref : length (scalarised methods fit ref) = length fit.
Proof. unfold scalarised. rewrite map_length, seq_length. auto. Qed.
Lemma scalarised_ne methods fit ref : fit <> [] -> scalarised methods fit ref <> [].
Proof. intros H E. apply H. apply length_zero_iff_nil. rewrite <- (scalarised_length methods fit ref), E. auto. Qed.

(** C86. Built without an explicit n_survive for a population of n, the operator keeps exactly n distinct individuals of any population of at
    least n, for every random choice; over any number of calls. *)
Theorem C86_exact_count : forall fnds solve rng methods dirs s fit ref n,
  fnds_contract fnds -> shuffles rng -> dirs <> [] -> fit <> [] -> n3i s = Some n -> (n <= length fit)%nat ->
  exists s' sel, iopis_nsga3_do fnds solve rng methods dirs s fit ref = Ok (s', sel) /\
    length sel = n /\ NoDup sel /\ (forall i, In i sel -> (i < length fit)%nat) /\ n3i s' = Some n.
Proof.
  intros fnds solve rng methods dirs s fit ref n FC SH Hd NE Hn Hle.
  destruct (C33_exact_count fnds solve rng dirs (as3 s (scalarised methods fit ref)) (scalarised methods fit ref) n FC SH Hd) as (t & sel & E & A & B & C & D); auto.
  { apply scalarised_ne; auto. } { rewrite scalarised_length; auto. }
  exists (mkSt3i (Some (i3 t)) (w3 t) (e3 t) (n3 t)), sel. split; [apply nsga3_eq; eauto|]. split; auto. split; auto. split; auto. intros i Hi. apply C in Hi. rewrite scalarised_length in Hi. auto.
Qed.
(** C86. The operator of a new IOPIS/NSGA-III object, over any number of selections (with any candidates, preferences and random choices; a failed one is
    not counted): every selection from at least pop_size candidates keeps exactly pop_size of them. *)
Inductive after fnds solve methods dirs : st3i -> st3i -> Prop :=
| after_none s : after fnds solve methods dirs s s
| after_call s s1 s2 rng fit ref sel : after fnds solve methods dirs s s1 -> iopis_nsga3_do fnds solve rng methods dirs s1 fit ref = Ok (s2, sel) -> after fnds solve methods dirs s s2.
Lemma n3i_kept fnds solve methods dirs s s' : after fnds solve methods dirs s s' -> n3i s' = n3i s.
Proof.
  intros H. induction H as [|s s1 s2 rng fit ref sel H IH E]; auto. rewrite <- IH. clear IH H.
  unfold iopis_nsga3_do in E. destruct (fnds _) as [|nd rest]; [discriminate|].
  destruct (colmin _) as [fmin|]; [|discriminate]. destruct (colmax _) as [wp|]; [|discriminate]. destruct (colmax _) as [wf|]; [|discriminate].
  destruct (n3i s1) as [n|] eqn:En; [|discriminate].
  match type of E with bind ?x _ = _ => destruct x end; [|discriminate]. cbn [bind] in E. injection E as <- _. reflexivity.
Qed.
Theorem C86_every_selection : forall fnds solve rng methods dirs s pop_size fit ref,
  after fnds solve methods dirs (init3i pop_size None) s ->
  fnds_contract fnds -> shuffles rng -> dirs <> [] -> fit <> [] -> (pop_size <= length fit)%nat ->
  exists s' sel, iopis_nsga3_do fnds solve rng methods dirs s fit ref = Ok (s', sel) /\
    length sel = pop_size /\ NoDup sel /\ (forall i, In i sel -> (i < length fit)%nat) /\ after fnds solve methods dirs (init3i pop_size None) s'.
Proof.
  intros fnds solve rng methods dirs s pop_size fit ref A FC SH Hd NE Hle.
  destruct (C86_exact_count fnds solve rng methods dirs s fit ref pop_size FC SH Hd NE) as (s' & sel & E & L & N & B & _); auto.
  { rewrite (n3i_kept _ _ _ _ _ _ A). reflexivity. }
  exists s', sel. repeat split; auto. eapply after_call; eauto.
Qed.
(** C86. Whoever dominates a kept individual in the scalarised space is kept. *)
Theorem C86_dominators_selected : forall fnds solve rng methods dirs s fit ref n s' sel i j F,
  fnds_contract fnds -> shuffles rng -> dirs <> [] -> fit <> [] -> n3i s = Some n -> (n <= length fit)%nat ->
  total_methods methods fit ref -> values_matrix methods fit ref F ->
  iopis_nsga3_do fnds solve rng methods dirs s fit ref = Ok (s', sel) ->
  In i sel -> row_dom F j i -> In j sel.
Proof.
  intros fnds solve rng methods dirs s fit ref n s' sel i j F FC SH Hd NE Hn Hle T V E Hi Hj.
  rewrite (scalarised_unique _ _ _ _ T V) in Hj. apply nsga3_eq in E. destruct E as (t & E & _).
  eapply (C34_dominators_selected fnds solve rng dirs (as3 s (scalarised methods fit ref)) (scalarised methods fit ref) n); eauto.
  { apply scalarised_ne; auto. } { rewrite scalarised_length; auto. }
Qed.
(** C86. The running ideal is at most every scalarisation value seen and never increases. *)
Theorem C86_ideal_step : forall fnds solve rng methods dirs s fit ref s' sel F,
  (forall i, i3i s = Some i -> length i = length methods) -> (forall w, w3i s = Some w -> length w = length methods) ->
  total_methods methods fit ref -> values_matrix methods fit ref F ->
  iopis_nsga3_do fnds solve rng methods dirs s fit ref = Ok (s', sel) ->
  exists z, i3i s' = Some z /\ length z = length methods /\ (forall f, In f F -> Forall2 Rle z f) /\ (forall i, i3i s = Some i -> Forall2 Rle z i).
Proof.
  intros fnds solve rng methods dirs s fit ref s' sel F Li Lw T V E.
  assert (Lf : forall f, In f F -> length f = length methods) by (intros f Hf; apply In_nth_error in Hf; destruct Hf as (i & Hf); apply V in Hf; apply Hf).
  rewrite (scalarised_unique _ _ _ _ T V) in *. apply nsga3_eq in E. destruct E as (t & E & ->).
  assert (L3 : length (i3 (as3 s (scalarised methods fit ref))) = length methods).
  { cbn [as3 i3]. destruct (i3i s) as [i|] eqn:Ei; [auto|]. destruct (colmin (scalarised methods fit ref)) as [m|] eqn:Em.
    - eapply colmin_spec; eauto.
    - exfalso. unfold nsga3_do in E. rewrite Em in E. destruct (fnds (scalarised methods fit ref)); discriminate. }
  destruct (C32_nsga3_ideal_worst fnds solve rng dirs _ _ t sel (length methods) L3 Lw Lf E) as (A & B & C & _).
  exists (i3 t). split; auto. split; auto. split; auto. intros i Hi. cbn [as3 i3] in B. rewrite Hi in B. auto.
Qed.
(** C86, the part that fails: an explicit n_survive makes every selection fail. *)
Theorem C86_explicit_n_survive_refuted : forall fnds solve rng methods dirs pop_size k fit ref, fnds_contract fnds -> fit <> [] ->
  iopis_nsga3_do fnds solve rng methods dirs (init3i pop_size (Some k)) fit ref = Err AttributeError.
Proof.
  intros fnds solve rng methods dirs pop_size k fit ref FC NE. unfold iopis_nsga3_do. set (F := scalarised methods fit ref).
  assert (NF : F <> []) by (apply scalarised_ne; auto). pose proof (FC F) as SF.
  destruct (fnds F) as [|nd fr] eqn:Ef.
  { exfalso. pose proof (Permutation_length (sf_perm _ _ _ SF)) as L. rewrite seq_length in L. simpl in L. destruct F; [congruence|discriminate]. }
  assert (Nnd : nd <> []) by (apply (sf_nonempty _ _ _ SF); left; auto). destruct F as [|f0 ft]; [congruence|]. destruct nd; [congruence|]. reflexivity.
Qed.

Print Assumptions C85_one_per_niche.
Print Assumptions C85_smallest_apd_partial.
Print Assumptions C86_exact_count.
Print Assumptions C86_dominators_selected.

(** Two scalarisations (first and second component minus the reference) on three individuals. *)
Definition demo_methods : list scalarisation := [fun fit ref => map (fun f => nth 0 f 0 - nth 0 ref 0) fit; fun fit ref => map (fun f => nth 1 f 0 - nth 1 ref 0) fit].
Example input_ok : iopis_input demo_methods [[1; 3]; [2; 2]; [4; 1]] [1; 1] [[1; 0]; [0; 1]] [PI / 2; PI / 2].
Proof.
  constructor; [discriminate| | |reflexivity].
  - intros s [<-|[<-|[]]]; reflexivity.
  - split; [discriminate|]. intros v [<-|[<-|[]]]; (split; [reflexivity|split]);
     [unfold norm; simpl; replace (1 * 1 + (0 * 0 + 0)) with 1 by ring; apply sqrt_1| |unfold norm; simpl; replace (0 * 0 + (1 * 1 + 0)) with 1 by ring; apply sqrt_1|]; intros x [<-|[<-|[]]]; lra.
Qed.
Example matrix_ok : values_matrix demo_methods [[1; 3]; [2; 2]; [4; 1]] [1; 1] [[1 - 1; 3 - 1]; [2 - 1; 2 - 1]; [4 - 1; 1 - 1]].
Proof. apply (scalarised_values demo_methods [[1; 3]; [2; 2]; [4; 1]] [1; 1]). intros s [<-|[<-|[]]]; reflexivity. Qed.
Example minima_ok : column_minima [[1 - 1; 3 - 1]; [2 - 1; 2 - 1]; [4 - 1; 1 - 1]] [1 - 1; 1 - 1].
Proof.
  split.
  - intros f [<-|[<-|[<-|[]]]]; repeat constructor; lra.
  - intros [|[|[|j]]] x H; simpl in H; try discriminate; injection H as <-;
      [exists [1 - 1; 3 - 1]|exists [4 - 1; 1 - 1]]; (split; [simpl; auto|reflexivity]).
Qed.
Print Assumptions C86_every_selection.
