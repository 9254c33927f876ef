(** Predators, compaction, initialisation, generations. *)
From Verif Require Import Base M_PPGA P_PPGA.
From Coq Require Import QArith Permutation.
Open Scope nat_scope.

(** ** Compaction *)
Lemma write_labels_out lab l : forall k g q, ~ In q l -> write_labels lab k l g q = g q.
Proof.
  induction l as [|p l IH]; intros k g q H; cbn [write_labels]; auto. rewrite IH by (intros X; apply H; right; auto).
  apply upd_other. intros ->. apply H; left; auto.
Qed.
Lemma write_labels_in lab l : forall k g i q, NoDup l -> nth_error l i = Some q -> write_labels lab k l g q = lab (k + i).
Proof.
  induction l as [|p l IH]; intros k g i q N H; [destruct i; discriminate|]. inversion N; subst. cbn [write_labels].
  destruct i as [|i]; simpl in H.
  - injection H as ->. rewrite write_labels_out by auto. rewrite upd_same. f_equal. lia.
  - rewrite (IH _ _ i) by auto. f_equal. lia.
Qed.

Lemma somes_in {B} (l : list (option B)) x : In x (somes l) <-> In (Some x) l.
Proof.
  unfold somes. rewrite in_flat_map. split.
  - intros ([y|] & H1 & H2); [destruct H2 as [->|[]]; auto|destruct H2].
  - intros H. exists (Some x). split; auto. left; auto.
Qed.
Lemma somes_NoDup (l : list (option pos)) : (forall i j p, nth_error l i = Some (Some p) -> nth_error l j = Some (Some p) -> i = j) -> NoDup (somes l).
Proof.
  induction l as [|o l IH]; intros H; [constructor|].
  assert (N : NoDup (somes l)). { apply IH. intros i j p Hi Hj. specialize (H (S i) (S j) p Hi Hj). lia. }
  destruct o as [p|]; [|exact N]. change (somes (Some p :: l)) with (p :: somes l). constructor; auto.
  intros I. apply somes_in in I. apply In_nth_error in I. destruct I as (j & Hj). specialize (H 0 (S j) p eq_refl Hj). lia.
Qed.
Lemma wf_prey_inj s : wf s -> forall i j p, nth_error (preys_loc s) i = Some (Some p) -> nth_error (preys_loc s) j = Some (Some p) -> i = j.
Proof.
  intros W i j p Hi Hj. destruct (wf_prey s W i p Hi) as (_ & C1). destruct (wf_prey s W j p Hj) as (_ & C2).
  apply prey_label_inj. congruence.
Qed.

Lemma compact_wf s : wf s -> wf (compact s).
Proof.
  intros W. set (l := somes (preys_loc s)).
  assert (N : NoDup l) by (apply somes_NoDup, wf_prey_inj; auto).
  assert (Old : forall p, In p l <-> exists i, nth_error (preys_loc s) i = Some (Some p)).
  { intros p. unfold l. rewrite somes_in. split; [apply In_nth_error|intros (i & H); eapply nth_error_In; eauto]. }
  unfold compact. fold l. constructor; cbn [set_preys set_cells preys_loc predators_loc cells].
  - intros i p H. rewrite nth_error_map in H. destruct (nth_error l i) as [q|] eqn:E; [|discriminate]. injection H as ->.
    split; [|rewrite (write_labels_in _ _ _ _ i) by auto; auto].
    apply nth_error_In in E. apply Old in E. destruct E as (j & Hj). apply (wf_prey s W j p Hj).
  - intros i p H. destruct (wf_pred s W i p H) as (B & C). split; [exact B|]. rewrite write_labels_out; auto.
    intros I. apply Old in I. destruct I as (j & Hj). destruct (wf_prey s W j p Hj) as (_ & C').
    pose proof (predator_label_neg i). pose proof (prey_label_pos j). lia.
  - intros q B H. destruct (in_dec (fun a b => match pos_eqb_spec a b with ReflectT _ e => left e | ReflectF _ e => right e end) q l) as [I|I].
    + left. apply In_nth_error in I. destruct I as (i & Hi). exists i. rewrite nth_error_map, Hi. auto.
    + rewrite write_labels_out in H by auto. destruct (wf_cell s W q B H) as [(i & Hi)|(i & Hi)]; [|eauto].
      exfalso. apply I, Old. eauto.
Qed.

(** ** Predators *)
Section Pred.
Context {A : Type} (fitness : A -> list Q).
Variable pop : list A.
Variables (radius n_predators : nat).
Variable draw : nat -> nat -> nat * nat.
Hypothesis two_objectives : forall m, In m pop -> 2 <= length (fitness m).

Notation badness := (badness fitness pop n_predators).
Notation weakest := (weakest fitness pop n_predators).

Lemma badness_some i t k : t = prey_label k -> k < length pop -> exists f, badness i t = Some f.
Proof.
  intros -> Hk. unfold M_PPGA.badness. replace (Z.to_nat (prey_label k - 1)) with k by (unfold prey_label; lia).
  destruct (nth_error pop k) as [m|] eqn:E; [|apply nth_error_None in E; lia].
  pose proof (two_objectives m ltac:(eapply nth_error_In; eauto)) as T.
  destruct (fitness m) as [|o1 [|o2 r]]; simpl in T; try lia. eauto.
Qed.

Lemma worse_total a b : worse a b = false -> worse b a = true.
Proof.
  unfold worse. rewrite <- (Qcompare_antisym (fst a) (fst b)). destruct (fst a ?= fst b)%Q eqn:E; cbn [CompOpp]; intros H; try discriminate; auto.
  - apply Z.leb_gt in H. apply Z.leb_le. lia.
Qed.
Lemma worse_Qle a b : worse a b = true -> (fst a <= fst b)%Q.
Proof.
  unfold worse. destruct (fst a ?= fst b)%Q eqn:E; intros H; try discriminate.
  - apply Qeq_alt in E. rewrite E. apply Qle_refl.
  - apply Qlt_alt in E. apply Qlt_le_weak; auto.
Qed.

Lemma weakest_spec i ts : forall best, (forall t, In t ts -> exists k, t = prey_label k /\ k < length pop) ->
  (forall b, best = Some b -> badness i (snd b) = Some (fst b)) ->
  exists w, weakest i best ts = Ok w /\
    match w with
    | None => best = None /\ ts = []
    | Some (f, t) => badness i t = Some f /\ (In t ts \/ best = Some (f, t)) /\
        (forall u g, In u ts -> badness i u = Some g -> (g <= f)%Q) /\ (forall b, best = Some b -> (fst b <= f)%Q)
    end.
Proof.
  induction ts as [|t ts IH]; intros best H Hb; cbn [M_PPGA.weakest].
  - exists best. split; auto. destruct best as [[f t]|]; auto. split; [apply (Hb _ eq_refl)|]. split; auto. split; [intros u g []|].
    intros b E. injection E as <-. apply Qle_refl.
  - destruct (H t (or_introl eq_refl)) as (k & Ek & Hk). destruct (badness_some i t k Ek Hk) as (f & Ef). rewrite Ef.
    set (nb := match best with None => Some (f, t) | Some b => if worse b (f, t) then Some (f, t) else Some b end).
    destruct (IH nb) as (w & E & S).
    { intros u Hu. apply H; right; auto. }
    { intros b E. unfold nb in E. destruct best as [b0|]; [|injection E as <-; auto].
      destruct (worse b0 (f, t)); injection E as <-; auto. }
    exists w. split; auto. destruct w as [[g u]|].
    + destruct S as (S1 & S2 & S3 & S4).
      assert (Fle : (f <= g)%Q /\ forall b, best = Some b -> (fst b <= g)%Q).
      { unfold nb in S4. destruct best as [b0|].
        - destruct (worse b0 (f, t)) eqn:Ew.
          + specialize (S4 _ eq_refl). cbn [fst] in S4. split; auto. intros b E'. injection E' as <-. apply worse_Qle in Ew. eapply Qle_trans; eauto.
          + specialize (S4 _ eq_refl). apply worse_total, worse_Qle in Ew. split; [eapply Qle_trans; eauto|]. intros b E'. injection E' as <-. auto.
        - specialize (S4 _ eq_refl). split; auto. discriminate. }
      split; auto. split; [|split; [|apply Fle]].
      * destruct S2 as [S2|S2]; [left; right; auto|]. unfold nb in S2. destruct best as [b0|].
        -- destruct (worse b0 (f, t)); [injection S2 as <- <-; left; left; auto|right; auto].
        -- injection S2 as <- <-. left; left; auto.
      * intros v h [<-|Hv] Hh; [rewrite Ef in Hh; injection Hh as <-; apply Fle|eauto].
    + exfalso. destruct S as (S & _). unfold nb in S. destruct best; [destruct (worse _ _)|]; discriminate.
Qed.

(** Killed bookkeeping: exactly the dead prey are listed, once. *)
Definition ledger (s : lat) (killed : list nat) : Prop :=
  NoDup killed /\ length (preys_loc s) = length pop /\ forall k, In k killed <-> nth_error (preys_loc s) k = Some None.

(** What one phase may change: prey only die. *)
Definition only_dies (s s' : lat) : Prop :=
  size_y s' = size_y s /\ size_x s' = size_x s /\ length (predators_loc s') = length (predators_loc s) /\ length (preys_loc s') = length (preys_loc s) /\
  forall i, nth_error (preys_loc s') i = nth_error (preys_loc s) i \/ nth_error (preys_loc s') i = Some None.
Lemma only_dies_refl s : only_dies s s. Proof. unfold only_dies. intuition. Qed.
Lemma only_dies_trans a b c : only_dies a b -> only_dies b c -> only_dies a c.
Proof.
  intros (A1 & A2 & A3 & A4 & A5) (B1 & B2 & B3 & B4 & B5). unfold only_dies.
  split; [congruence|]. split; [congruence|]. split; [congruence|]. split; [congruence|].
  intros i. destruct (B5 i) as [E|E]; auto. rewrite E. apply A5.
Qed.

Lemma predator_step_spec i d s p killed : fst d < Nat.min radius (size_y s) -> snd d < Nat.min radius (size_x s) ->
  wf s -> ledger s killed -> nth_error (predators_loc s) i = Some p ->
  exists s' p' killed', predator_step fitness pop radius n_predators i d s p killed = Ok (s', p', killed') /\
    wf s' /\ ledger s' killed' /\ nth_error (predators_loc s') i = Some p' /\ only_dies s s' /\
    (forall j, j <> i -> nth_error (predators_loc s') j = nth_error (predators_loc s) j) /\
    ((killed' = killed /\ preys_loc s' = preys_loc s /\ (forall z, In z (neighbours s p radius) -> (z <= 0)%Z) /\
      ((s' = s /\ p' = p /\ (cells s (dest s d p) < 0)%Z) \/ (p' = dest s d p /\ cells s p' = 0%Z))) \/
     exists k f, killed' = killed ++ [k] /\ (forall j, j <> k -> nth_error (preys_loc s') j = nth_error (preys_loc s) j) /\ In (prey_label k) (neighbours s p radius) /\ nth_error (preys_loc s) k = Some (Some p') /\
       badness i (prey_label k) = Some f /\
       forall j g, In (prey_label j) (neighbours s p radius) -> badness i (prey_label j) = Some g -> (g <= f)%Q).
Proof.
  intros Dy Dx W (L1 & L2 & L3) Hi. destruct (wf_pred s W i p Hi) as (Bp & Cp).
  assert (Li : i < length (predators_loc s)) by (apply nth_error_Some; congruence).
  unfold predator_step. set (targets := filter (fun z => (0 <? z)%Z) (neighbours s p radius)).
  assert (Tin : forall t, In t targets <-> In t (neighbours s p radius) /\ (0 < t)%Z).
  { intros t. unfold targets. rewrite filter_In. rewrite Z.ltb_lt. tauto. }
  assert (Tp : forall t, In t targets -> exists k, t = prey_label k /\ k < length pop).
  { intros t Ht. apply Tin in Ht. destruct Ht as (T1 & T2). destruct (neighbour_prey s p radius t W Bp T1 T2) as (k & o & Ek & Hk & _).
    exists k. split; auto. rewrite <- L2. apply nth_error_Some. congruence. }
  destruct targets as [|t0 ts] eqn:Et.
  - assert (NoT : forall z, In z (neighbours s p radius) -> (z <= 0)%Z).
    { intros z Hz. destruct (Z.leb_spec z 0); auto. exfalso. apply (proj2 (Tin z)); auto. }
    destruct (Z.ltb_spec (rolled s p d) 0) as [Hl|Hl].
    + exists s, p, killed. split; auto. split; auto. split; [split; auto|]. split; auto. split; [apply only_dies_refl|]. split; auto. left. rewrite rolled_dest in Hl by auto. auto 8.
    + destruct (Z.eqb_spec (cells s (dest s d p)) 0) as [Z0|Z0].
      * eexists; eexists; eexists. split; [reflexivity|]. split; [apply wf_move_predator; auto; apply dest_in_bounds; auto|].
        cbn [set_preds set_cells predators_loc preys_loc]. split; [split; [auto|]; split; auto|]. rewrite nth_error_set_nth, Nat.eqb_refl by auto.
        split; auto. split; [|split; [|left; auto 8]].
        2: { intros j Hj. rewrite nth_error_set_nth by auto. destruct (Nat.eqb_spec i j); auto. subst; contradiction. }
        unfold only_dies. cbn [set_preds set_cells predators_loc preys_loc size_y size_x]. rewrite set_nth_length. intuition.
      * exfalso. assert (In (rolled s p d) (neighbours s p radius)) as Hin by (apply in_neighbours; exists d; auto).
        apply NoT in Hin. rewrite rolled_dest in * by auto. lia.
  - destruct (weakest_spec i (t0 :: ts) None Tp) as (w & Ew & Sw); [discriminate|]. rewrite Ew. cbn [bind].
    destruct w as [[f t]|]; [|destruct Sw; discriminate]. destruct Sw as (S1 & S2 & S3 & _).
    destruct S2 as [S2|S2]; [|discriminate]. destruct (Tin t) as (T1 & _). destruct (T1 S2) as (T2 & T3).
    destruct (neighbour_prey s p radius t W Bp T2 T3) as (k & o & Ek & Hk & _).
    replace (Z.to_nat (t - 1)) with k by (rewrite Ek; unfold prey_label; lia). rewrite Hk.
    assert (Lk : k < length (preys_loc s)) by (apply nth_error_Some; congruence).
    eexists; eexists; eexists. split; [reflexivity|]. split; [apply wf_kill; auto|].
    cbn [set_preys set_preds set_cells predators_loc preys_loc].
    split.
    { split; [|split; [cbn [set_preys set_preds set_cells preys_loc]; rewrite set_nth_length; auto|]].
      - apply NoDup_rev in L1. rewrite <- (rev_involutive (killed ++ [k])). apply NoDup_rev. rewrite rev_app_distr. simpl. constructor; auto.
        intros I. apply in_rev in I. apply L3 in I. congruence.
      - intros j. cbn [set_preys set_preds set_cells preys_loc]. rewrite nth_error_set_nth by auto. rewrite in_app_iff, L3. cbn [In]. destruct (Nat.eqb_spec k j) as [<-|Hn]; [tauto|].
        split; [intros [|[|[]]]; auto; contradiction|auto]. }
    rewrite nth_error_set_nth, Nat.eqb_refl by auto. split; auto.
    split. { unfold only_dies. cbn [set_preys set_preds set_cells predators_loc preys_loc size_y size_x]. rewrite !set_nth_length.
      do 4 (split; auto). intros j. rewrite nth_error_set_nth by auto. destruct (Nat.eqb_spec k j); auto. }
    split. { intros j Hj. rewrite nth_error_set_nth by auto. destruct (Nat.eqb_spec i j); auto. subst; contradiction. }
    right. exists k, f. split; auto. split. { intros j Hj. rewrite nth_error_set_nth by auto. destruct (Nat.eqb_spec k j); auto. subst; contradiction. }
    rewrite <- Ek. split; auto. split; auto. split; auto.
    intros j g Hj Hg. apply (S3 (prey_label j)); auto. apply Tin. split; auto. apply prey_label_pos.
Qed.

(** All moves of one predator, then of all predators. The draws are np.random.randint over the shape of the neighbourhood. *)
Variables (sy sx : nat).
Hypothesis draws_in_range : forall i m, fst (draw i m) < Nat.min radius sy /\ snd (draw i m) < Nat.min radius sx.

Lemma predator_steps_spec i n : forall m s p killed, size_y s = sy -> size_x s = sx -> wf s -> ledger s killed ->
  nth_error (predators_loc s) i = Some p ->
  exists s' killed', predator_steps fitness pop radius n_predators draw n m i s p killed = Ok (s', killed') /\
    wf s' /\ ledger s' killed' /\ only_dies s s' /\ (exists new, killed' = killed ++ new /\ length new <= n).
Proof.
  induction n as [|n IH]; intros m s p killed Hy Hx W L Hi; cbn [predator_steps].
  - exists s, killed. split; auto. split; auto. split; auto. split; [apply only_dies_refl|]. exists []. rewrite app_nil_r. auto.
  - destruct (draws_in_range i m) as (Dy & Dx). rewrite <- Hy in Dy. rewrite <- Hx in Dx.
    destruct (predator_step_spec i (draw i m) s p killed Dy Dx W L Hi) as (s1 & p1 & k1 & E1 & W1 & L1 & H1 & O1 & _ & C).
    rewrite E1. cbn [bind]. pose proof O1 as (Oy & Ox & _).
    destruct (IH (S m) s1 p1 k1) as (s2 & k2 & E2 & W2 & L2 & O2 & new & N1 & N2); try congruence.
    exists s2, k2. split; auto. split; auto. split; auto. split; [eapply only_dies_trans; eauto|].
    destruct C as [(-> & _)|(k & f & -> & _)].
    + exists new. split; auto.
    + exists (k :: new). rewrite N1, <- app_assoc. split; auto. simpl. lia.
Qed.
Lemma predator_turns_spec n mm : forall i s killed, size_y s = sy -> size_x s = sx -> wf s -> ledger s killed ->
  exists s' killed', predator_turns fitness pop radius n_predators draw n mm i s killed = Ok (s', killed') /\
    wf s' /\ ledger s' killed' /\ only_dies s s' /\ (exists new, killed' = killed ++ new /\ length new <= n * mm).
Proof.
  induction n as [|n IH]; intros i s killed Hy Hx W L; cbn [predator_turns].
  - exists s, killed. split; auto. split; auto. split; auto. split; [apply only_dies_refl|]. exists []. rewrite app_nil_r. auto.
  - destruct (nth_error (predators_loc s) i) as [p|] eqn:Hi.
    + destruct (predator_steps_spec i mm 0 s p killed Hy Hx W L Hi) as (s1 & k1 & E1 & W1 & L1 & O1 & new1 & N1 & N2).
      rewrite E1. cbn [bind fst snd]. pose proof O1 as (Oy & Ox & _).
      destruct (IH (S i) s1 k1) as (s2 & k2 & E2 & W2 & L2 & O2 & new2 & N3 & N4); try congruence.
      exists s2, k2. split; auto. split; auto. split; auto. split; [eapply only_dies_trans; eauto|].
      exists (new1 ++ new2). rewrite N3, N1, app_assoc. split; auto. rewrite app_length. simpl. lia.
    + exists s, killed. split; auto. split; auto. split; auto. split; [apply only_dies_refl|]. exists []. rewrite app_nil_r. split; auto. simpl; lia.
Qed.
End Pred.

(** ** Deleting *)
Lemma delete_members_spec {A} (pop : list A) killed : delete_members pop killed = select_pos (fun i => negb (mem_nat i killed)) pop.
Proof.
  unfold delete_members, select_pos. generalize 0 as k. induction pop as [|x pop IH]; intros k; [auto|].
  cbn [length seq combine flat_map select_pos_from fst snd]. change (existsb (Nat.eqb k) killed) with (mem_nat k killed). rewrite IH. destruct (mem_nat k killed); auto.
Qed.
Lemma select_pos_from_length {A} f (l : list A) : forall k, length (select_pos_from k f l) = length (filter f (seq k (length l))).
Proof. induction l as [|x l IH]; intros k; cbn [select_pos_from length seq filter]; auto. destruct (f k); cbn [length]; auto. Qed.
Lemma select_pos_app {A} f (l1 l2 : list A) : forall k, select_pos_from k f (l1 ++ l2) = select_pos_from k f l1 ++ select_pos_from (k + length l1) f l2.
Proof.
  induction l1 as [|x l1 IH]; intros k; cbn [app select_pos_from length]; [f_equal; lia|]. rewrite IH. replace (k + S (length l1)) with (S k + length l1) by lia.
  destruct (f k); auto.
Qed.
Lemma select_pos_combine {A B} f : forall (l1 : list A) (l2 : list B) k, length l1 = length l2 ->
  select_pos_from k f (combine l1 l2) = combine (select_pos_from k f l1) (select_pos_from k f l2).
Proof.
  induction l1 as [|x l1 IH]; intros [|y l2] k H; try discriminate; auto. cbn [combine select_pos_from]. rewrite IH by (simpl in H; lia).
  destruct (f k); auto.
Qed.
Lemma filter_not_killed killed n : NoDup killed -> (forall k, In k killed -> k < n) ->
  length (filter (fun i => negb (mem_nat i killed)) (seq 0 n)) + length killed = n.
Proof.
  intros N H. assert (P : Permutation killed (filter (fun i => mem_nat i killed) (seq 0 n))).
  { apply NoDup_Permutation; auto. { apply NoDup_filter, seq_NoDup. } intros k. rewrite filter_In, in_seq, mem_nat_In. split; [intros I; specialize (H k I); split; auto; lia|tauto]. }
  rewrite (Permutation_length P). rewrite <- (seq_length n 0) at 3. generalize (seq 0 n) as l.
  induction l as [|x l IH]; auto. cbn [filter length]. destruct (mem_nat x killed); cbn [negb length]; lia.
Qed.
Lemma select_pos_in {A} f (l : list A) : forall k x, In x (select_pos_from k f l) <-> exists i, nth_error l i = Some x /\ f (k + i) = true.
Proof.
  induction l as [|y l IH]; intros k x; cbn [select_pos_from].
  - split; [intros []|intros (i & H & _); destruct i; discriminate].
  - assert (T : (exists i, nth_error l i = Some x /\ f (S k + i) = true) <-> (exists i, nth_error (y :: l) (S i) = Some x /\ f (k + S i) = true)).
    { split; intros (i & H1 & H2); exists i; simpl in *; split; auto; rewrite <- H2; f_equal; lia. }
    destruct (f k) eqn:E; cbn [In]; rewrite IH, T; split.
    + intros [<-|(i & H)]; [exists 0; rewrite Nat.add_0_r; auto|eauto].
    + intros ([|i] & H1 & H2); [left; injection H1; auto|right; eauto].
    + intros (i & H); eauto.
    + intros ([|i] & H1 & H2); [rewrite Nat.add_0_r in H2; congruence|eauto].
Qed.

(** All prey alive, one per member of the population. *)
Definition alive {A} (s : lat) (pop : list A) : Prop :=
  length (preys_loc s) = length pop /\ forall i, i < length pop -> exists p, nth_error (preys_loc s) i = Some (Some p).

Lemma somes_select (l : list (option pos)) (l' : list (option pos)) dead : length l' = length l ->
  (forall i, i < length l -> nth_error l' i = if mem_nat i dead then Some None else nth_error l i) ->
  (forall i, i < length l -> exists p, nth_error l i = Some (Some p)) ->
  map Some (somes l') = select_pos (fun i => negb (mem_nat i dead)) l.
Proof.
  unfold select_pos. intros HL H1 H2. assert (G : forall k, (forall i, i < length l -> nth_error l' i = if mem_nat (k + i) dead then Some None else nth_error l i) ->
    map Some (somes l') = select_pos_from k (fun i => negb (mem_nat i dead)) l).
  { clear H1. revert l' HL H2. induction l as [|o l IH]; intros [|o' l'] HL H2 k H1; try discriminate; auto.
    destruct (H2 0) as (p & Ep); [simpl; lia|]. simpl in Ep. injection Ep as ->.
    pose proof (H1 0 ltac:(simpl; lia)) as E0. rewrite Nat.add_0_r in E0. simpl nth_error in E0. cbn [select_pos_from].
    assert (R : map Some (somes l') = select_pos_from (S k) (fun i => negb (mem_nat i dead)) l).
    { apply IH; [simpl in HL; lia|intros i Hi; apply (H2 (S i)); simpl; lia|]. intros i Hi. specialize (H1 (S i) ltac:(simpl; lia)). simpl nth_error in H1.
      rewrite H1. replace (S k + i) with (k + S i) by lia. auto. }
    destruct (mem_nat k dead); injection E0 as ->; cbn [negb].
    - exact R.
    - change (somes (Some p :: l')) with (p :: somes l'). cbn [map]. f_equal. exact R. }
  apply G. intros i Hi. simpl. auto.
Qed.

Lemma alive_select {A} (s s' : lat) (pop : list A) f : alive s pop ->
  preys_loc s' = select_pos f (preys_loc s) -> alive s' (select_pos f pop).
Proof.
  intros (L & H) E. unfold alive. rewrite E. unfold select_pos. rewrite !select_pos_from_length, L. split; auto. intros i Hi.
  rewrite <- L in Hi. rewrite <- select_pos_from_length in Hi. destruct (nth_error (select_pos_from 0 f (preys_loc s)) i) as [o|] eqn:Eo.
  - pose proof (nth_error_In _ _ Eo) as I. apply select_pos_in in I. destruct I as (j & Hj & _).
    assert (Lj : j < length pop) by (rewrite <- L; apply nth_error_Some; congruence). destruct (H j Lj) as (p & Hp). exists p. congruence.
  - apply nth_error_None in Eo. lia.
Qed.

Lemma compact_frame s : size_y (compact s) = size_y s /\ size_x (compact s) = size_x s /\ predators_loc (compact s) = predators_loc s /\
  preys_loc (compact s) = map Some (somes (preys_loc s)).
Proof. unfold compact. cbn [set_preys set_cells size_y size_x predators_loc preys_loc]. auto. Qed.

Lemma move_predator_spec {A} fitness radius n_predators target draw s (pop : list A) :
  (forall m, In m pop -> 2 <= length (fitness m)) ->
  (forall i m, fst (draw i m) < Nat.min radius (size_y s) /\ snd (draw i m) < Nat.min radius (size_x s)) ->
  wf s -> alive s pop -> 0 < n_predators -> length (predators_loc s) = n_predators ->
  exists s' killed, move_predator fitness radius n_predators target draw s pop = Ok (s', select_pos (fun i => negb (mem_nat i killed)) pop) /\
    wf s' /\ alive s' (select_pos (fun i => negb (mem_nat i killed)) pop) /\
    preys_loc s' = select_pos (fun i => negb (mem_nat i killed)) (preys_loc s) /\
    size_y s' = size_y s /\ size_x s' = size_x s /\ length (predators_loc s') = n_predators /\
    NoDup killed /\ (forall k, In k killed -> k < length pop) /\ length killed <= n_predators * max_moves (length pop) target n_predators.
Proof.
  intros H2 D W (L & Al) Hn Hp. unfold move_predator. destruct (Nat.eqb_spec n_predators 0); [lia|].
  assert (Led : ledger pop s []).
  { split; [constructor|]. split; auto. intros k. split; [intros []|]. intros E. assert (Lk : k < length pop) by (rewrite <- L; apply nth_error_Some; congruence).
    destruct (Al k Lk) as (p & Hp'). congruence. }
  destruct (predator_turns_spec fitness pop radius n_predators draw H2 (size_y s) (size_x s) D (length (predators_loc s))
    (max_moves (length pop) target n_predators) 0 s [] eq_refl eq_refl W Led) as (s1 & k1 & E & W1 & (N1 & L1 & I1) & (O1 & O2 & O3 & O4 & O5) & new & Nw & Nl).
  rewrite E. cbn [bind fst snd update_lattice]. exists (compact s1), k1. rewrite delete_members_spec.
  destruct (compact_frame s1) as (F1 & F2 & F3 & F4).
  assert (Pr : preys_loc (compact s1) = select_pos (fun i => negb (mem_nat i k1)) (preys_loc s)).
  { rewrite F4. apply somes_select; auto; [|intros i Hi; apply Al; lia]. intros i Hi. destruct (mem_nat i k1) eqn:Em.
    - apply mem_nat_In in Em. apply I1; auto.
    - destruct (O5 i) as [|E']; auto. apply I1, mem_nat_In in E'. congruence. }
  split; auto. split; [apply compact_wf; auto|]. split; [eapply alive_select; eauto; split; auto|].
  split; auto. split; [congruence|]. split; [congruence|]. split; [congruence|]. split; auto.
  split. { intros k Hk. apply I1 in Hk. rewrite <- L1. apply nth_error_Some. congruence. }
  subst k1. simpl in *. rewrite <- Hp at 1. auto.
Qed.

(** ** Culling *)
Lemma clear_selected_spec sel : forall s, NoDup sel -> (forall i, In i sel -> exists p, nth_error (preys_loc s) i = Some (Some p)) -> wf s ->
  exists s', clear_selected sel s = Ok s' /\ wf s' /\ size_y s' = size_y s /\ size_x s' = size_x s /\ predators_loc s' = predators_loc s /\
    length (preys_loc s') = length (preys_loc s) /\
    forall i, i < length (preys_loc s) -> nth_error (preys_loc s') i = if mem_nat i sel then Some None else nth_error (preys_loc s) i.
Proof.
  induction sel as [|k sel IH]; intros s N H W; cbn [clear_selected].
  - exists s. intuition.
  - destruct (H k (or_introl eq_refl)) as (p & Hp). rewrite Hp. inversion N; subst.
    assert (Lk : k < length (preys_loc s)) by (apply nth_error_Some; congruence).
    set (s1 := set_preys (set_cells s (upd (cells s) p 0)) (set_nth k None (preys_loc s))).
    assert (P1 : preys_loc s1 = set_nth k None (preys_loc s)) by reflexivity.
    destruct (IH s1) as (s' & E & W' & F1 & F2 & F3 & F4 & F5); auto.
    + intros i Hi. rewrite P1, nth_error_set_nth by auto. destruct (Nat.eqb_spec k i); [subst; contradiction|]. apply H; right; auto.
    + apply wf_clear; auto.
    + exists s'. split; auto. split; auto. split; auto. split; auto. split; auto. rewrite F4, P1, set_nth_length. split; auto.
      intros i Hi. rewrite F5 by (rewrite P1, set_nth_length; auto). rewrite P1, nth_error_set_nth by auto.
      unfold mem_nat. cbn [existsb]. rewrite (Nat.eqb_sym i k). destruct (Nat.eqb_spec k i); cbn [orb]; auto. destruct (existsb _ _); auto.
Qed.
Lemma update_lattice_spec {A} sel s (pop : list A) : NoDup sel -> (forall i, In i sel -> i < length pop) -> wf s -> alive s pop ->
  exists s', update_lattice (Some sel) s = Ok s' /\ wf s' /\ alive s' (delete_members pop sel) /\
    size_y s' = size_y s /\ size_x s' = size_x s /\ predators_loc s' = predators_loc s /\
    preys_loc s' = select_pos (fun i => negb (mem_nat i sel)) (preys_loc s).
Proof.
  intros N H W (L & Al). destruct (clear_selected_spec sel s N) as (s1 & E & W1 & F1 & F2 & F3 & F4 & F5); auto.
  unfold update_lattice. rewrite E. cbn [bind]. exists (compact s1). destruct (compact_frame s1) as (G1 & G2 & G3 & G4).
  assert (Pr : preys_loc (compact s1) = select_pos (fun i => negb (mem_nat i sel)) (preys_loc s)).
  { rewrite G4. apply somes_select; auto. intros i Hi. apply Al; lia. }
  split; auto. split; [apply compact_wf; auto|]. rewrite delete_members_spec. split; [eapply alive_select; eauto; split; auto|].
  split; [congruence|]. split; [congruence|]. split; [congruence|]. auto.
Qed.

(** ** Initialisation *)
Definition sample_ok (sample : list pos -> nat -> list pos) : Prop :=
  forall l n, n <= length l -> length (sample l n) = n /\ (NoDup l -> NoDup (sample l n)) /\ incl (sample l n) l.

Lemma all_cells_in sy sx p : In p (all_cells sy sx) <-> fst p < sy /\ snd p < sx.
Proof.
  unfold all_cells. rewrite in_flat_map. split.
  - intros (y & H1 & H2). apply in_map_iff in H2. destruct H2 as (x & <- & H3). apply in_seq in H1, H3. simpl. lia.
  - intros (H1 & H2). exists (fst p). split; [apply in_seq; lia|]. apply in_map_iff. exists (snd p). split; [destruct p; auto|]. apply in_seq; lia.
Qed.
Lemma all_cells_NoDup sy sx : NoDup (all_cells sy sx).
Proof.
  unfold all_cells. generalize (seq_NoDup sy 0). generalize (seq 0 sy) as l. induction l as [|y l IH]; intros N; cbn [flat_map]; [constructor|].
  inversion N; subst. assert (NM : NoDup (map (fun x => (y, x)) (seq 0 sx))). { apply FinFun.Injective_map_NoDup; [intros a b E; congruence|apply seq_NoDup]. }
  assert (Dj : forall q, In q (map (fun x => (y, x)) (seq 0 sx)) -> ~ In q (flat_map (fun y => map (fun x => (y, x)) (seq 0 sx)) l)).
  { intros q Hq Hq'. apply in_map_iff in Hq. destruct Hq as (x & <- & _). apply in_flat_map in Hq'. destruct Hq' as (y' & I1 & I2).
    apply in_map_iff in I2. destruct I2 as (x' & E & _). congruence. }
  specialize (IH H2). revert NM Dj IH. generalize (map (fun x => (y, x)) (seq 0 sx)) as a.
  generalize (flat_map (fun y => map (fun x => (y, x)) (seq 0 sx)) l) as b. intros b. induction a as [|q a IHa]; intros NM Dj Nb; auto.
  inversion NM; subst. cbn [app]. constructor.
  - rewrite in_app_iff. intros [X|X]; [contradiction|]. apply (Dj q); [left; auto|auto].
  - apply IHa; auto. intros r Hr. apply Dj; right; auto.
Qed.
Lemma free_space_in s p : In p (free_space s) <-> in_bounds s p /\ cells s p = 0%Z.
Proof. unfold free_space. rewrite filter_In, all_cells_in, Z.eqb_eq. unfold in_bounds. tauto. Qed.
Lemma free_space_NoDup s : NoDup (free_space s).
Proof. apply NoDup_filter, all_cells_NoDup. Qed.

Lemma new_lattice_spec sample1 sample2 sy sx np ny : sample_ok sample1 -> sample_ok sample2 ->
  match new_lattice sample1 sample2 sy sx np ny with
  | Ok s => wf s /\ size_y s = sy /\ size_x s = sx /\ length (predators_loc s) = np /\ length (preys_loc s) = ny /\
            (forall i, i < ny -> exists p, nth_error (preys_loc s) i = Some (Some p)) /\ np + ny <= sy * sx
  | Err e => e = ValueError /\ np + ny > sy * sx
  end.
Proof.
  intros S1 S2. unfold new_lattice, init_predators. set (s0 := mkLat sy sx (fun _ => 0%Z) [] []).
  assert (LA : length (all_cells sy sx) = sy * sx).
  { assert (G : forall l : list nat, length (flat_map (fun y => map (fun x => (y, x)) (seq 0 sx)) l) = length l * sx).
    { intros l. induction l as [|y l IH]; auto. cbn [flat_map length]. rewrite app_length, map_length, seq_length, IH. simpl; lia. }
    unfold all_cells. rewrite G, seq_length. auto. }
  assert (F0 : free_space s0 = all_cells sy sx). { unfold free_space, s0. cbn [cells size_y size_x]. generalize (all_cells sy sx) as l. induction l; auto. cbn [filter]. rewrite IHl. auto. }
  rewrite F0, LA. destruct (Nat.ltb_spec (sy * sx) np) as [Hlt|Hge]; cbn [bind]; [split; auto; lia|].
  destruct (S1 (all_cells sy sx) np) as (Ln & Nn & In1); [lia|]. set (idx := sample1 (all_cells sy sx) np) in *. specialize (Nn (all_cells_NoDup sy sx)).
  set (s1 := set_preds (set_cells s0 (write_labels predator_label 0 idx (cells s0))) (predators_loc s0 ++ idx)).
  assert (C1 : forall i q, nth_error idx i = Some q -> cells s1 q = predator_label i). { intros i q H. unfold s1. cbn [set_preds set_cells cells]. rewrite (write_labels_in _ _ _ _ i); auto. }
  assert (C2 : forall q, ~ In q idx -> cells s1 q = 0%Z). { intros q H. unfold s1. cbn [set_preds set_cells cells]. rewrite write_labels_out; auto. }
  assert (Fl : length (free_space s1) + np = sy * sx).
  { rewrite <- LA. rewrite <- Ln. unfold free_space. change (size_y s1) with sy. change (size_x s1) with sx.
    assert (P : Permutation idx (filter (fun p => negb (Z.eqb (cells s1 p) 0)) (all_cells sy sx))).
    { apply NoDup_Permutation; auto. { apply NoDup_filter, all_cells_NoDup. } intros p. rewrite filter_In. split.
      - intros I. split; [apply In1; auto|]. apply In_nth_error in I. destruct I as (i & Hi). rewrite (C1 i p Hi). unfold predator_label. destruct (Z.eqb_spec (- (Z.of_nat i + 1)) 0); auto; lia.
      - intros (_ & H). destruct (in_dec (fun a b => match pos_eqb_spec a b with ReflectT _ e => left e | ReflectF _ e => right e end) p idx) as [I|I]; auto.
        rewrite C2 in H by auto. discriminate. }
    rewrite (Permutation_length P). clear. generalize (all_cells sy sx) as l. induction l as [|x l IH]; auto. cbn [filter length].
    destruct (Z.eqb (cells s1 x) 0); cbn [negb length]; lia. }
  unfold init_prey. destruct (Nat.ltb_spec (length (free_space s1)) ny) as [Hl2|Hg2]; [split; auto; lia|].
  destruct (S2 (free_space s1) ny) as (Lm & Nm & In2); [lia|]. set (jdx := sample2 (free_space s1) ny) in *. specialize (Nm (free_space_NoDup s1)).
  cbn [set_preys set_cells size_y size_x predators_loc preys_loc]. change (preys_loc s1) with (@nil (option pos)). change (predators_loc s1) with idx.
  cbn [app]. split; [|split; [auto|split; [auto|split; [auto|split; [rewrite map_length; auto|split; [|lia]]]]]].
  - constructor; cbn [set_preys set_cells preys_loc predators_loc cells].
    + intros i p H. cbn [app] in H. rewrite nth_error_map in H. destruct (nth_error jdx i) as [q|] eqn:E; [|discriminate]. injection H as ->.
      split; [|rewrite (write_labels_in _ _ _ _ i) by auto; auto]. apply nth_error_In, In2, free_space_in in E. apply E.
    + intros i p H. split. { apply nth_error_In, In1, all_cells_in in H. exact H. }
      rewrite write_labels_out; [apply C1; auto|]. intros X. apply In2, free_space_in in X. destruct X as (_ & X). rewrite (C1 i p H) in X. pose proof (predator_label_neg i). lia.
    + intros q B H. destruct (in_dec (fun a b => match pos_eqb_spec a b with ReflectT _ e => left e | ReflectF _ e => right e end) q jdx) as [X|X].
      * left. apply In_nth_error in X. destruct X as (i & Hi). exists i. cbn [app]. change (preys_loc s1) with (@nil (option pos)). cbn [app]. rewrite nth_error_map, Hi. auto.
      * rewrite write_labels_out in H by auto. right. destruct (in_dec (fun a b => match pos_eqb_spec a b with ReflectT _ e => left e | ReflectF _ e => right e end) q idx) as [Y|Y].
        -- apply In_nth_error in Y. auto.
        -- exfalso. apply H, C2. auto.
  - intros i Hi. destruct (nth_error jdx i) as [q|] eqn:E; [exists q; rewrite nth_error_map, E; auto|]. apply nth_error_None in E. lia.
Qed.
