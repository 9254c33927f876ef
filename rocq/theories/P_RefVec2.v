(** More proofs about reference vectors. *)
From Verif Require Import Base RVec M_APD M_BaseEA M_Lattice P_Lattice M_RefVec P_RefVec.
From Coq Require Import Reals Lra.
Open Scope R_scope.

(** ** Histories *)
Lemma normalize_init s : init_values (normalize_rv s) = init_values s /\ init_planar (normalize_rv s) = init_planar s /\ n_obj (normalize_rv s) = n_obj s.
Proof. auto. Qed.

Lemma adapt_1_Ok s z n s' : interactive_adapt_1 s z n = Ok s' -> init_values s' = init_values s /\ init_planar s' = init_planar s /\ n_obj s' = n_obj s.
Proof.
  unfold interactive_adapt_1. destruct (Nat.eqb (length z) n); [intros E; injection E as <-; auto|].
  destruct (Nat.eqb (length z) 0); [discriminate|]. intros E; injection E as <-; auto.
Qed.
Lemma adapt_2_Ok s z n s' : interactive_adapt_2 s z n = Ok s' -> init_values s' = init_values s /\ init_planar s' = init_planar s /\ n_obj s' = n_obj s.
Proof.
  unfold interactive_adapt_2. destruct (Nat.eqb (length z) n); [intros E; injection E as <-; auto|].
  cbv zeta. unfold masked. destruct (Nat.eqb _ (length (values s))); [|discriminate]. cbn [bind].
  destruct (Nat.eqb _ (length (planar s))); [|discriminate]. cbn [bind]. intros E; injection E as <-. auto.
Qed.
(** The set before edges are added. *)
Definition before_edges (s : rv) (p : pref_action) : res rv :=
  match p with
  | PrefPoint ref mult ideal => Ok (interactive_adapt_3 s (ref_direction ref mult ideal))
  | PrefSolutions z n => interactive_adapt_1 s z n
  | PrefNonPreferred z n => interactive_adapt_2 s z n
  | PrefRanges r w => Ok (interactive_adapt_4 s r w)
  end.
Lemma manage_Ok s p s' : manage s p = Ok s' -> exists t, before_edges s p = Ok t /\ s' = add_edges t.
Proof.
  unfold manage. fold (before_edges s p). destruct (before_edges s p) as [t|]; cbn [bind]; [|discriminate].
  intros E; injection E as <-. eauto.
Qed.
Lemma before_edges_init s p t : before_edges s p = Ok t -> init_values t = init_values s /\ init_planar t = init_planar s /\ n_obj t = n_obj s.
Proof.
  destruct p; cbn [before_edges]; [intros E; injection E as <-; auto|apply adapt_1_Ok|apply adapt_2_Ok|intros E; injection E as <-; auto].
Qed.
Lemma manage_init s p s' : manage s p = Ok s' -> init_values s' = init_values s /\ init_planar s' = init_planar s /\ n_obj s' = n_obj s.
Proof. intros H. apply manage_Ok in H. destruct H as (t & H & ->). apply before_edges_init in H. exact H. Qed.
Lemma adapt_init s f s' : adapt s f = Ok s' -> init_values s' = init_values s /\ init_planar s' = init_planar s /\ n_obj s' = n_obj s.
Proof. unfold adapt. destruct f; [discriminate|]. intros E; injection E as <-. auto. Qed.
Lemma interact_init s a : init_values (interact s a) = init_values s /\ init_planar (interact s a) = init_planar s /\ n_obj (interact s a) = n_obj s.
Proof.
  unfold interact. destruct a as [p|f].
  - destruct (manage s p) as [s'|] eqn:E; auto. apply manage_init in E; auto.
  - destruct (adapt s f) as [s'|] eqn:E; auto. apply adapt_init in E; auto.
Qed.
Lemma interacts_init l : forall s, init_values (fold_left interact l s) = init_values s /\ init_planar (fold_left interact l s) = init_planar s /\ n_obj (fold_left interact l s) = n_obj s.
Proof.
  induction l as [|a l IH]; intros s; simpl; auto.
  destruct (IH (interact s a)) as (A & B & C). destruct (interact_init s a) as (A' & B' & C'). rewrite A, B, C, A', B', C'. auto.
Qed.

Lemma interact_nvec s a : n_vec s = length (values s) -> n_vec (interact s a) = length (values (interact s a)).
Proof.
  intros H. unfold interact. destruct a as [p|f].
  - destruct (manage s p) as [s'|] eqn:E; auto. apply manage_Ok in E. destruct E as (t & _ & ->).
    unfold add_edges. cbn [normalize_rv set_rows values n_vec]. symmetry. apply map_length.
  - destruct (adapt s f) as [s'|] eqn:E; auto. unfold adapt in E. destruct f; [discriminate|]. injection E as <-.
    cbn [normalize_rv set_rows values n_vec]. symmetry. apply map_length.
Qed.
Lemma interacts_nvec l : forall s, n_vec s = length (values s) -> n_vec (fold_left interact l s) = length (values (fold_left interact l s)).
Proof. induction l as [|a l IH]; intros s H; simpl; auto. apply IH, interact_nvec; auto. Qed.

(** ** Adaptation *)
Lemma adapt_values s f s' : adapt s f = Ok s' ->
  values s' = map unit_row (map (fun v => vmap2 Rmult v (vsub (colmaxR f) (colminR f))) (init_values s)).
Proof. unfold adapt. destruct f as [|r t]; [discriminate|]. intros E. injection E as <-. reflexivity. Qed.

Lemma adapt_idem s s1 f : adapt s f = Ok s1 -> (forall v, In v (planar s) -> rsum v <> 0) -> adapt s1 f = Ok s1.
Proof.
  unfold adapt. destruct f as [|r t]; [discriminate|]. intros E H. injection E as <-. f_equal.
  unfold normalize_rv, set_rows. cbn [values planar init_values init_planar n_obj n_vec]. f_equal; auto.
  rewrite map_map. apply map_ext_in. intros v Hv. apply planar_row_sum1, planar_row_sum; auto.
Qed.

Lemma fold_vmap2_length (f : R -> R -> R) n t : forall r, length r = n -> (forall x, In x t -> length x = n) -> length (fold_left (vmap2 f) t r) = n.
Proof.
  induction t as [|x t IH]; intros r L H; simpl; auto. apply IH; [|intros; apply H; right; auto].
  rewrite vmap2_length; auto. rewrite L. symmetry. apply H. left; auto.
Qed.
Lemma fold_max_spec n j t : forall r, length r = n -> (forall x, In x t -> length x = n) -> (j < n)%nat ->
  (exists hi, In hi (r :: t) /\ nth j (fold_left (vmap2 Rmax) t r) 0 = nth j hi 0) /\
  forall x, In x (r :: t) -> nth j x 0 <= nth j (fold_left (vmap2 Rmax) t r) 0.
Proof.
  induction t as [|x t IH]; intros r L H Hj; simpl.
  - split; [exists r; auto|]. intros y [<-|[]]. lra.
  - assert (Lx : length x = n) by (apply H; left; auto).
    assert (N : nth j (vmap2 Rmax r x) 0 = Rmax (nth j r 0) (nth j x 0)) by (apply nth_vmap2; [congruence|lia]).
    destruct (IH (vmap2 Rmax r x)) as ((hi & H1 & H2) & H3); auto.
    { rewrite vmap2_length; congruence. } { intros; apply H; right; auto. }
    split.
    + destruct H1 as [<-|H1].
      * rewrite H2, N. unfold Rmax. destruct (Rle_dec (nth j r 0) (nth j x 0)); [exists x|exists r]; auto.
      * exists hi; auto.
    + intros y Hy. assert (P : nth j (vmap2 Rmax r x) 0 <= nth j (fold_left (vmap2 Rmax) t (vmap2 Rmax r x)) 0) by (apply H3; left; auto).
      rewrite N in P. pose proof (Rmax_l (nth j r 0) (nth j x 0)). pose proof (Rmax_r (nth j r 0) (nth j x 0)).
      destruct Hy as [<-|[<-|Hy]]; [lra|lra|apply H3; right; auto].
Qed.
Lemma fold_min_spec n j t : forall r, length r = n -> (forall x, In x t -> length x = n) -> (j < n)%nat ->
  (exists hi, In hi (r :: t) /\ nth j (fold_left (vmap2 Rmin) t r) 0 = nth j hi 0) /\
  forall x, In x (r :: t) -> nth j (fold_left (vmap2 Rmin) t r) 0 <= nth j x 0.
Proof.
  induction t as [|x t IH]; intros r L H Hj; simpl.
  - split; [exists r; auto|]. intros y [<-|[]]. lra.
  - assert (Lx : length x = n) by (apply H; left; auto).
    assert (N : nth j (vmap2 Rmin r x) 0 = Rmin (nth j r 0) (nth j x 0)) by (apply nth_vmap2; [congruence|lia]).
    destruct (IH (vmap2 Rmin r x)) as ((hi & H1 & H2) & H3); auto.
    { rewrite vmap2_length; congruence. } { intros; apply H; right; auto. }
    split.
    + destruct H1 as [<-|H1].
      * rewrite H2, N. unfold Rmin. destruct (Rle_dec (nth j r 0) (nth j x 0)); [exists r|exists x]; auto.
      * exists hi; auto.
    + intros y Hy. assert (P : nth j (fold_left (vmap2 Rmin) t (vmap2 Rmin r x)) 0 <= nth j (vmap2 Rmin r x) 0) by (apply H3; left; auto).
      rewrite N in P. pose proof (Rmin_l (nth j r 0) (nth j x 0)). pose proof (Rmin_r (nth j r 0) (nth j x 0)).
      destruct Hy as [<-|[<-|Hy]]; [lra|lra|apply H3; right; auto].
Qed.

Lemma ranges_length f n : f <> [] -> (forall r, In r f -> length r = n) -> length (vsub (colmaxR f) (colminR f)) = n.
Proof.
  destruct f as [|r t]; [congruence|]. intros _ H. cbn [colmaxR colminR].
  assert (Lr : length r = n) by (apply H; left; auto).
  rewrite vsub_length; rewrite !(fold_vmap2_length _ n); auto; intros; apply H; right; auto.
Qed.

Lemma ranges_spec (fitness : list (list R)) (n j : nat) : fitness <> [] -> (forall r, In r fitness -> length r = n) -> (j < n)%nat ->
  exists hi lo, In hi fitness /\ In lo fitness /\ nth j (vsub (colmaxR fitness) (colminR fitness)) 0 = nth j hi 0 - nth j lo 0 /\
    forall r, In r fitness -> nth j lo 0 <= nth j r 0 <= nth j hi 0.
Proof.
  destruct fitness as [|r t]; [congruence|]. intros _ H Hj. cbn [colmaxR colminR].
  assert (Lr : length r = n) by (apply H; left; auto).
  destruct (fold_max_spec n j t r) as ((hi & H1 & H2) & H3); auto; [intros; apply H; right; auto|].
  destruct (fold_min_spec n j t r) as ((lo & L1 & L2) & L3); auto; [intros; apply H; right; auto|].
  exists hi, lo. split; auto. split; auto. split.
  - unfold vsub. rewrite nth_vmap2; rewrite ?(fold_vmap2_length _ n); auto; try (intros; apply H; right; auto). congruence.
  - intros x Hx. rewrite <- H2, <- L2. auto.
Qed.

Lemma adapt_all_unit (s s' : rv) (fitness : list (list R)) :
  adapt s fitness = Ok s' ->
  (forall v, In v (init_values s) -> length v = n_obj s /\ exists x, In x v /\ x <> 0) ->
  (forall r, In r fitness -> length r = n_obj s) ->
  (forall j, (j < n_obj s)%nat -> exists r1 r2, In r1 fitness /\ In r2 fitness /\ nth j r1 0 <> nth j r2 0) ->
  forall v, In v (values s') -> norm v = 1.
Proof.
  intros A I L D v Hv. pose proof (adapt_values _ _ _ A) as E. rewrite E, map_map in Hv. apply in_map_iff in Hv.
  destruct Hv as (u & <- & Hu). destruct (I u Hu) as (Lu & x & Hx & Hn).
  assert (NE : fitness <> []) by (destruct fitness; [discriminate|congruence]).
  destruct (vmap2_Rmult_nonzero u (vsub (colmaxR fitness) (colminR fitness)) x) as (z & Z1 & Z2); auto.
  - rewrite (ranges_length _ (n_obj s)); auto.
  - intros y Hy. apply (In_nth _ _ 0) in Hy. destruct Hy as (j & Hj & <-). rewrite (ranges_length _ (n_obj s)) in Hj by auto.
    destruct (ranges_spec fitness (n_obj s) j NE L Hj) as (hi & lo & _ & _ & -> & B).
    destruct (D j Hj) as (r1 & r2 & R1 & R2 & R3). pose proof (B r1 R1). pose proof (B r2 R2). lra.
  - eapply unit_row_unit; eauto.
Qed.

Lemma planar_trace (s s1 s2 : rv) (ref mult ideal : list R) (fitness : list (list R)) :
  length (init_planar s) = length (init_values s) -> (1 <= n_obj s)%nat ->
  manage s (PrefPoint ref mult ideal) = Ok s1 -> adapt s1 fitness = Ok s2 ->
  length (planar s2) = (length (values s2) + n_obj s)%nat /\ length (planar s2) <> length (values s2).
Proof.
  intros L H M A. pose proof (adapt_values _ _ _ A) as E. destruct (manage_init _ _ _ M) as (I1 & _).
  unfold adapt in A. destruct fitness as [|r t]; [discriminate|]. injection A as <-.
  unfold manage in M. cbn [bind] in M. injection M as <-.
  unfold normalize_rv, set_rows, add_edges, interactive_adapt_3, shifted, eye. simpl.
  rewrite !map_length, !app_length, !map_length, seq_length. lia.
Qed.

Lemma skipped_raises (s s1 s2 : rv) (ref mult ideal : list R) (fitness z : list (list R)) (n : nat) :
  length (init_planar s) = length (init_values s) -> (1 <= n_obj s)%nat -> length z <> n ->
  manage s (PrefPoint ref mult ideal) = Ok s1 -> adapt s1 fitness = Ok s2 ->
  manage s2 (PrefNonPreferred z n) = Err IndexError.
Proof.
  intros L H Hz M A. destruct (planar_trace _ _ _ _ _ _ _ L H M A) as (_ & Hd).
  unfold manage, interactive_adapt_2. replace (Nat.eqb (length z) n) with false by (symmetry; apply Nat.eqb_neq; auto).
  cbv zeta. unfold masked at 1. rewrite map_length. apply Nat.eqb_neq in Hd. rewrite Hd. reflexivity.
Qed.

(** ** Acceptance *)
Definition usableP (p : pref_action) : Prop := match p with PrefSolutions z n => z <> [] | _ => True end.

Lemma mask_sel_length_eq {A B} m : forall (l : list A) (l' : list B), length l = length l' -> length (mask_sel m l) = length (mask_sel m l').
Proof.
  induction m as [|b m IH]; intros [|x l] [|y l'] L; simpl; try discriminate; auto.
  simpl in L. injection L as L. destruct b; simpl; auto.
Qed.

Definition sync (s : rv) : Prop := length (values s) = length (planar s) /\ length (init_values s) = length (init_planar s).

Lemma flat_map_shifted_length t z rows : length (flat_map (fun zi => shifted t zi rows) z) = (length z * length rows)%nat.
Proof. induction z as [|x z IH]; simpl; auto. rewrite app_length, IH. unfold shifted. rewrite map_length. auto. Qed.

Lemma add_edges_sync s : sync s -> sync (add_edges s).
Proof. intros (A & B). split; [|exact B]. unfold add_edges. simpl. rewrite !map_length, !app_length. congruence. Qed.

Lemma manage_sync s p : sync s -> usableP p -> exists s', manage s p = Ok s' /\ sync s'.
Proof.
  intros (A & B) U.
  assert (G : exists t, before_edges s p = Ok t /\ sync t).
  { destruct p as [ref mult ideal|z n|z n|r w]; cbn [before_edges].
    - eexists; split; [reflexivity|]. split; [|exact B]. unfold interactive_adapt_3, shifted. simpl. rewrite !map_length. auto.
    - unfold interactive_adapt_1. destruct (Nat.eqb (length z) n).
      + eexists; split; [reflexivity|]. split; [|exact B]. simpl. rewrite !map_length. auto.
      + destruct z as [|x z]; [destruct U; auto|]. change (Nat.eqb (length (x :: z)) 0) with false. cbv iota.
        eexists; split; [reflexivity|]. split; [|exact B]. cbn [normalize_rv set_rows values planar].
        rewrite !map_length, !flat_map_shifted_length. congruence.
    - unfold interactive_adapt_2. destruct (Nat.eqb (length z) n).
      + eexists; split; [reflexivity|]. split; [|exact B]. simpl. rewrite !map_length. auto.
      + cbv zeta. unfold masked. rewrite map_length, A, Nat.eqb_refl. cbn [bind].
        eexists; split; [reflexivity|]. split; [|exact B]. simpl. apply mask_sel_length_eq; auto.
    - eexists; split; [reflexivity|]. split; [|exact B]. simpl. rewrite !map_length. auto. }
  destruct G as (t & E & S). exists (add_edges t). split; [|apply add_edges_sync; auto].
  unfold manage. fold (before_edges s p). rewrite E. reflexivity.
Qed.

Lemma interact_sync s p : sync s -> sync (interact s (inl p)).
Proof.
  intros S. unfold interact. destruct (manage s p) as [s'|] eqn:E; auto.
  destruct p as [ref mult ideal|z n|z n|r w].
  - destruct (manage_sync s _ S (I : usableP (PrefPoint ref mult ideal))) as (t & T & T'). rewrite E in T. injection T as <-. auto.
  - destruct z as [|x z].
    + unfold manage, interactive_adapt_1 in E. destruct n; [|discriminate]. cbn [bind length Nat.eqb] in E. injection E as <-.
      apply add_edges_sync. destruct S as (A & B). split; [|exact B]. simpl. rewrite !map_length. auto.
    + destruct (manage_sync s (PrefSolutions (x :: z) n) S) as (t & T & T'); [simpl; congruence|]. rewrite E in T. injection T as <-. auto.
  - destruct (manage_sync s _ S (I : usableP (PrefNonPreferred z n))) as (t & T & T'). rewrite E in T. injection T as <-. auto.
  - destruct (manage_sync s _ S (I : usableP (PrefRanges r w))) as (t & T & T'). rewrite E in T. injection T as <-. auto.
Qed.

Lemma manages_ok history p : forall s, sync s -> usableP p ->
  exists s', manage (fold_left interact (map inl history) s) p = Ok s' /\ length (values s') = length (planar s').
Proof.
  induction history as [|q history IH]; intros s S U; simpl.
  - destruct (manage_sync s p S U) as (s' & E & (A & _)). eauto.
  - apply IH; auto. apply interact_sync; auto.
Qed.

(** ** Edges *)
Lemma eye_spec n : length (eye n) = n /\ forall i e, nth_error (eye n) i = Some e ->
  length e = n /\ forall j, (j < n)%nat -> nth j e 0 = if Nat.eqb i j then 1 else 0.
Proof.
  unfold eye. split; [rewrite map_length, seq_length; auto|]. intros i e H. rewrite nth_error_map in H.
  destruct (nth_error (seq 0 n) i) as [k|] eqn:E; [|discriminate]. injection H as <-.
  assert (Hi : (i < n)%nat). { rewrite <- (seq_length n 0). apply nth_error_Some. congruence. }
  apply (nth_error_nth _ _ 0%nat) in E. rewrite seq_nth in E by auto. simpl in E. subst k.
  split; [apply unit_vec_length|]. intros j Hj. unfold unit_vec.
  rewrite (nth_indep _ 0 ((fun j => if Nat.eqb i j then 1 else 0) 0%nat)) by (rewrite map_length, seq_length; auto).
  rewrite (map_nth (fun j => if Nat.eqb i j then 1 else 0)), seq_nth by auto. reflexivity.
Qed.

Lemma eye_nth n i : (i < n)%nat -> nth_error (eye n) i = Some (unit_vec n i).
Proof.
  intros H. unfold eye. rewrite nth_error_map. replace (nth_error (seq 0 n) i) with (Some i); auto.
  symmetry. rewrite (nth_error_nth' _ 0%nat) by (rewrite seq_length; auto). rewrite seq_nth by auto. auto.
Qed.

Lemma edges_present (s s' : rv) (p : pref_action) (i : nat) : manage s p = Ok s' -> (i < n_obj s)%nat ->
  exists e, In e (values s') /\ In e (planar s') /\ length e = n_obj s /\ forall j, (j < n_obj s)%nat -> nth j e 0 = if Nat.eqb i j then 1 else 0.
Proof.
  intros M H. apply manage_Ok in M. destruct M as (t & T & ->). destruct (before_edges_init _ _ _ T) as (_ & _ & N).
  pose proof (eye_nth (n_obj s) i H) as E. exists (unit_vec (n_obj s) i).
  destruct (proj2 (eye_spec (n_obj s)) _ _ E) as (L & D). apply nth_error_In in E.
  split; [|split; [|split; auto]].
  - unfold add_edges. cbn [normalize_rv set_rows values]. rewrite map_app, eye_unit, N. apply in_or_app. auto.
  - unfold add_edges. cbn [normalize_rv set_rows planar]. rewrite map_app, eye_planar, N. apply in_or_app. auto.
Qed.

Lemma mask_sel_all {A B} (f : B -> bool) (l : list A) : forall m : list B, length l = length m -> (forall x, In x m -> f x = true) -> mask_sel (map f m) l = l.
Proof.
  induction l as [|x l IH]; intros [|y m] L H; simpl; try discriminate; auto.
  rewrite (H y (or_introl eq_refl)). rewrite IH; auto. intros z Hz. apply H; right; auto.
Qed.

Lemma edges_once (s : rv) (z : list (list R)) (n : nat) :
  length (values s) = length (planar s) -> Forall unit_or_zero (values s) -> length z <> n ->
  (forall v, In v (planar s) -> rsum v = 1 /\ far_enough (2/10) z v = true) ->
  manage s (PrefNonPreferred z n) = Ok (add_edges s) /\ values (add_edges s) = values s ++ eye (n_obj s) /\ planar (add_edges s) = planar s ++ eye (n_obj s).
Proof.
  intros L U Hz P. split; [|split].
  - unfold manage, interactive_adapt_2. replace (Nat.eqb (length z) n) with false by (symmetry; apply Nat.eqb_neq; auto).
    cbv zeta. unfold masked. rewrite map_length, L, Nat.eqb_refl. cbn [bind].
    rewrite !mask_sel_all; auto; try (intros; apply P; auto).
  - apply add_edges_values; auto.
  - unfold add_edges. cbn [normalize_rv set_rows planar]. rewrite map_app, eye_planar. f_equal. apply map_id_in.
    intros v Hv. apply planar_row_sum1, P; auto.
Qed.

Lemma edges_twice (s : rv) (z : list (list R)) (n : nat) :
  length (values s) = length (planar s) -> Forall unit_or_zero (values s) -> length z <> n ->
  (forall v, In v (planar s) -> rsum v = 1 /\ far_enough (2/10) z v = true) ->
  (forall i, (i < n_obj s)%nat -> far_enough (2/10) z (unit_vec (n_obj s) i) = true) ->
  exists s1 s2, manage s (PrefNonPreferred z n) = Ok s1 /\ manage s1 (PrefNonPreferred z n) = Ok s2 /\
    values s2 = values s ++ eye (n_obj s) ++ eye (n_obj s).
Proof.
  intros L U Hz P E. destruct (edges_once s z n L U Hz P) as (M & V & Pl).
  exists (add_edges s), (add_edges (add_edges s)). split; auto.
  destruct (edges_once (add_edges s) z n) as (M2 & V2 & _); auto.
  - rewrite V, Pl, !app_length. congruence.
  - rewrite V. apply Forall_app. split; auto. apply Forall_forall. intros v Hv. unfold eye in Hv. apply in_map_iff in Hv.
    destruct Hv as (i & <- & Hi). apply in_seq in Hi. left. apply unit_vec_norm. lia.
  - intros v Hv. rewrite Pl in Hv. apply in_app_or in Hv. destruct Hv as [Hv|Hv]; auto.
    unfold eye in Hv. apply in_map_iff in Hv. destruct Hv as (i & <- & Hi). apply in_seq in Hi. split; [|apply E; lia].
    apply rsum_unit_seq. lia.
  - split; auto. rewrite V2, V, <- app_assoc. reflexivity.
Qed.
