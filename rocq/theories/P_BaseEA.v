From Verif Require Import Base M_BaseEA.
Open Scope Z_scope.

Section P.
Context {P : Type} (gen : Z -> P -> P * nat) (c : cfg).
Notation st := (st P).

(** Ideal history: population and evaluations after the first [n] generations. *)
Fixpoint pop_at (p0 : P) (n : nat) : P :=
  match n with O => p0 | S k => fst (gen (Z.of_nat k) (pop_at p0 k)) end.
Fixpoint evals_at (p0 : P) (n : nat) : Z :=
  match n with O => 0 | S k => evals_at p0 k + Z.of_nat (snd (gen (Z.of_nat k) (pop_at p0 k))) end.

Fixpoint gens (k : nat) (s : st) : st :=
  match k with O => s | S k' => next_gen gen c (gens k' s) end.

Lemma gens_S k s : gens (S k) s = gens k (next_gen gen c s).
Proof. induction k as [|k IH]; simpl; auto. rewrite <- IH. reflexivity. Qed.

Lemma gens_fields k s :
  gen_in_iter (gens k s) = gen_in_iter s + Z.of_nat k /\
  gen_count (gens k s) = gen_count s + Z.of_nat k /\
  it_count (gens k s) = it_count s /\ snaps (gens k s) = snaps s.
Proof.
  induction k as [|k IH]; simpl gens.
  - repeat split; lia.
  - destruct IH as (A & B & C & D). unfold next_gen.
    destruct (gen (gen_count (gens k s)) (popul (gens k s))); cbn -[Z.of_nat]. repeat split; try lia; auto.
Qed.

Lemma gen_loop_char fuel s : (Z.to_nat (n_gen_per_iter c - gen_in_iter s) < fuel)%nat ->
  exists k, gen_loop gen c fuel s = Some (gens k s) /\
    (k <= Z.to_nat (n_gen_per_iter c - gen_in_iter s))%nat /\
    (k = Z.to_nat (n_gen_per_iter c - gen_in_iter s) \/ check_FE c (gens k s) = false) /\
    (forall j, (j < k)%nat -> check_FE c (gens j s) = true).
Proof.
  revert s; induction fuel as [|f IH]; intros s Hf; [lia|]. cbn [gen_loop].
  destruct (continue_iteration c s) eqn:E.
  - unfold continue_iteration in E. apply andb_true_iff in E. destruct E as [E1 E2].
    apply Z.ltb_lt in E1.
    pose proof (gens_fields 1 s) as (G & _). cbn [gens] in G.
    destruct (IH (next_gen gen c s)) as (k & K1 & K2 & K3 & K4).
    { rewrite G. lia. }
    exists (S k). rewrite G in K2, K3. rewrite gens_S. split; auto. split; [lia|]. split.
    + destruct K3 as [K3|K3]; [left; lia|right; auto].
    + intros [|j] Hj; auto. rewrite gens_S. apply K4; lia.
  - exists 0%nat. cbn [gens]. split; auto. split; [lia|]. split; [|intros; lia].
    unfold continue_iteration in E. apply andb_false_iff in E. destruct E as [E|E]; auto.
    left. apply Z.ltb_ge in E. lia.
Qed.

Lemma iterate_char s :
  exists k, iterate gen c (enough c) s = Some (bump_iter (gens k (reset_gen (snapshot c s)))) /\
    (k <= Z.to_nat (n_gen_per_iter c))%nat /\
    (k = Z.to_nat (n_gen_per_iter c) \/ check_FE c (gens k (reset_gen (snapshot c s))) = false) /\
    (forall j, (j < k)%nat -> check_FE c (gens j (reset_gen (snapshot c s))) = true).
Proof.
  unfold iterate.
  destruct (gen_loop_char (enough c) (reset_gen (snapshot c s))) as (k & A & B & C & D).
  { unfold enough; cbn [reset_gen gen_in_iter]. rewrite Z.sub_0_r. lia. }
  cbn [reset_gen gen_in_iter] in B, C. rewrite Z.sub_0_r in B, C.
  exists k. unfold iterate. rewrite A. simpl. repeat split; auto.
Qed.

(** The invariant over histories. *)
Definition Inv (p0 : P) (fe0 ev0 : Z) (s : st) : Prop :=
  0 <= gen_count s /\
  popul s = pop_at p0 (Z.to_nat (gen_count s)) /\
  fe_count s = fe0 + (if use_surrogates c then 0 else evals_at p0 (Z.to_nat (gen_count s))) /\
  true_evals s = ev0 + (if use_surrogates c then 0 else evals_at p0 (Z.to_nat (gen_count s))) /\
  (forall k e, In (k, e) (snaps s) -> 0 <= k <= gen_count s /\ snd e = pop_at p0 (Z.to_nat k)).

Lemma Inv_next p0 fe0 ev0 s : Inv p0 fe0 ev0 s -> Inv p0 fe0 ev0 (next_gen gen c s).
Proof.
  intros (A & B & C & D & E). unfold next_gen, Inv.
  destruct (gen (gen_count s) (popul s)) as [p' k] eqn:Eg. cbn [gen_count popul fe_count true_evals snaps].
  assert (Z.to_nat (gen_count s + 1) = S (Z.to_nat (gen_count s))) as -> by lia.
  cbn [pop_at evals_at]. rewrite Z2Nat.id by auto. rewrite <- B, Eg. cbn [fst snd].
  split; [lia|]. split; [reflexivity|]. split; [|split].
  - destruct (use_surrogates c); lia.
  - destruct (use_surrogates c); lia.
  - intros k0 e He. destruct (E k0 e He). split; auto. lia.
Qed.

Lemma Inv_gens p0 fe0 ev0 k s : Inv p0 fe0 ev0 s -> Inv p0 fe0 ev0 (gens k s).
Proof. intros H; induction k; cbn [gens]; auto. apply Inv_next; auto. Qed.

Lemma Inv_snapshot p0 fe0 ev0 s : Inv p0 fe0 ev0 s -> Inv p0 fe0 ev0 (snapshot c s).
Proof.
  intros (A & B & C & D & E). unfold snapshot. destruct (keep_archive c); [|repeat split; auto; apply (E k e); auto].
  unfold Inv; cbn [gen_count popul fe_count true_evals snaps]. repeat split; auto.
  - destruct H as [H|H]; [injection H as <- <-; lia|apply (E k e H)].
  - destruct H as [H|H]; [injection H as <- <-; lia|apply (E k e H)].
  - destruct H as [H|H]; [injection H as <- <-; auto|apply (E k e H)].
Qed.

Lemma Inv_reset p0 fe0 ev0 s : Inv p0 fe0 ev0 s -> Inv p0 fe0 ev0 (reset_gen s).
Proof. intros H; exact H. Qed.
Lemma Inv_bump p0 fe0 ev0 s : Inv p0 fe0 ev0 s -> Inv p0 fe0 ev0 (bump_iter s).
Proof. intros H; exact H. Qed.

Lemma Inv_iterate p0 fe0 ev0 s s' : Inv p0 fe0 ev0 s -> iterate gen c (enough c) s = Some s' -> Inv p0 fe0 ev0 s'.
Proof.
  intros H E. destruct (iterate_char s) as (k & A & _). rewrite A in E. injection E as <-.
  apply Inv_bump, Inv_gens, Inv_reset, Inv_snapshot; auto.
Qed.

Lemma iterates_total k s : exists s', iterates gen c k s = Some s'.
Proof.
  induction k as [|k [s' IH]]; cbn [iterates]; eauto.
  rewrite IH. destruct (iterate_char s') as (j & A & _). eauto.
Qed.

Lemma Inv_iterates p0 fe0 ev0 k s s' : Inv p0 fe0 ev0 s -> iterates gen c k s = Some s' -> Inv p0 fe0 ev0 s'.
Proof.
  revert s'; induction k as [|k IH]; intros s' H E; cbn [iterates] in E.
  - injection E as <-; auto.
  - destruct (iterates gen c k s) as [s1|] eqn:E1; [|discriminate].
    apply (Inv_iterate p0 fe0 ev0 s1 s'); auto.
Qed.

Lemma Inv_init_problem p n : Inv p (Z.of_nat n) (if use_surrogates c then 0 else Z.of_nat n) (init_problem c p n).
Proof.
  unfold Inv, init_problem; cbn. destruct (use_surrogates c); repeat split; try lia; intros; contradiction.
Qed.
Lemma Inv_init_population p : Inv p 0 0 (init_population p).
Proof. unfold Inv, init_population; cbn. destruct (use_surrogates c); repeat split; try lia; intros; contradiction. Qed.

Lemma iterate_counts s s' : iterate gen c (enough c) s = Some s' ->
  it_count s' = it_count s + 1 /\ gen_count s' = gen_count s + gen_in_iter s' /\
  0 <= gen_in_iter s' <= Z.max 0 (n_gen_per_iter c) /\
  (gen_in_iter s' = Z.max 0 (n_gen_per_iter c) \/ check_FE c s' = false).
Proof.
  intros E. destruct (iterate_char s) as (k & A & B & C & D). rewrite A in E. injection E as <-.
  destruct (gens_fields k (reset_gen (snapshot c s))) as (F1 & F2 & F3 & F4).
  cbn [bump_iter it_count gen_count gen_in_iter].
  rewrite F1, F2, F3.
  assert (S1 : it_count (reset_gen (snapshot c s)) = it_count s) by (unfold reset_gen, snapshot; destruct (keep_archive c); auto).
  assert (S2 : gen_count (reset_gen (snapshot c s)) = gen_count s) by (unfold reset_gen, snapshot; destruct (keep_archive c); auto).
  assert (S3 : gen_in_iter (reset_gen (snapshot c s)) = 0) by reflexivity.
  rewrite S1, S2, S3.
  repeat split; try lia. destruct C as [C|C]; [left; lia|right]. exact C.
Qed.

Lemma iterates_it_count k s s' : iterates gen c k s = Some s' -> it_count s' = it_count s + Z.of_nat k.
Proof.
  revert s'; induction k as [|k IH]; intros s' E; cbn [iterates] in E.
  - injection E as <-; lia.
  - destruct (iterates gen c k s) as [s1|] eqn:E1; [|discriminate].
    specialize (IH s1 eq_refl). apply iterate_counts in E. lia.
Qed.

Lemma evolve_terminates fuel s : (Z.to_nat (n_iterations c - it_count s) < fuel)%nat ->
  exists s' k, evolve gen c fuel s = Some s' /\ iterates gen c k s = Some s' /\
    (k <= Z.to_nat (n_iterations c - it_count s))%nat /\ continue_evolution c s' = false.
Proof.
  revert s; induction fuel as [|f IH]; intros s Hf; [lia|]. cbn [evolve].
  destruct (continue_evolution c s) eqn:E.
  - destruct (iterate_char s) as (j & A & _). rewrite A.
    set (s1 := bump_iter (gens j (reset_gen (snapshot c s)))) in *.
    pose proof (iterate_counts s s1 A) as (I1 & _).
    unfold continue_evolution in E. apply andb_true_iff in E. destruct E as [E _]. apply Z.ltb_lt in E.
    destruct (IH s1) as (s' & k & K1 & K2 & K3 & K4); [lia|].
    exists s', (S k). split; auto. split; [|split; auto; lia].
    clear - A K2.
    assert (H : forall k s', iterates gen c k s1 = Some s' -> iterates gen c (S k) s = Some s').
    { clear s' K2 k. induction k as [|k IHk]; intros s' E; cbn [iterates] in *.
      - injection E as <-. auto.
      - destruct (iterates gen c k s1) as [s2|] eqn:E2; [|discriminate].
        rewrite (IHk s2 eq_refl). auto. }
    apply H; auto.
  - exists s, 0%nat. cbn [iterates]. repeat split; auto; lia.
Qed.

(** ** Budget *)
Lemma gens_fe_bound B k s :
  (forall g p, (snd (gen g p) <= B)%nat) -> 0 < total_fe c ->
  (forall j, (j < k)%nat -> check_FE c (gens j s) = true) ->
  fe_count (gens k s) <= Z.max (fe_count s) (total_fe c + Z.of_nat B).
Proof.
  intros HB Ht H. destruct k as [|k]; [simpl; lia|].
  assert (Hk : check_FE c (gens k s) = true) by (apply H; lia).
  unfold check_FE in Hk. destruct (Z.eqb_spec (total_fe c) 0); [lia|].
  destruct (Z.leb_spec (fe_count (gens k s)) (total_fe c)); [|discriminate].
  cbn [gens]. unfold next_gen. pose proof (HB (gen_count (gens k s)) (popul (gens k s))) as Hb.
  destruct (gen (gen_count (gens k s)) (popul (gens k s))) as [p' n0]. cbn [fe_count snd] in *.
  destruct (use_surrogates c); lia.
Qed.

Lemma snapshot_fe (s : st) : fe_count (reset_gen (snapshot c s)) = fe_count s.
Proof. unfold reset_gen, snapshot. destruct (keep_archive c); reflexivity. Qed.

Lemma iterates_fe_bound B k s s' :
  (forall g p, (snd (gen g p) <= B)%nat) -> 0 < total_fe c ->
  iterates gen c k s = Some s' -> fe_count s' <= Z.max (fe_count s) (total_fe c + Z.of_nat B).
Proof.
  intros HB Ht. revert s'; induction k as [|k IH]; intros s' E; cbn [iterates] in E.
  - injection E as <-; lia.
  - destruct (iterates gen c k s) as [s1|] eqn:E1; [|discriminate].
    specialize (IH s1 eq_refl). destruct (iterate_char s1) as (j & A & _ & _ & D).
    rewrite A in E. injection E as <-. cbn [bump_iter fe_count].
    pose proof (gens_fe_bound B j (reset_gen (snapshot c s1)) HB Ht D) as G. rewrite snapshot_fe in G. lia.
Qed.

Lemma iterate_exhausted (s s' : st) : 0 < total_fe c -> total_fe c < fe_count s ->
  iterate gen c (enough c) s = Some s' ->
  gen_count s' = gen_count s /\ popul s' = popul s /\ fe_count s' = fe_count s /\ gen_in_iter s' = 0.
Proof.
  intros Ht Hf E. destruct (iterate_char s) as (k & A & _ & _ & D). rewrite A in E. injection E as <-.
  assert (k = 0%nat) as ->.
  { destruct k as [|k]; auto. specialize (D 0%nat ltac:(lia)). cbn [gens] in D.
    unfold check_FE in D. rewrite snapshot_fe in D.
    destruct (Z.eqb_spec (total_fe c) 0); [lia|]. destruct (Z.leb_spec (fe_count s) (total_fe c)); [lia|discriminate]. }
  cbn [gens bump_iter]. unfold reset_gen, snapshot. destruct (keep_archive c); cbn; auto.
Qed.

Lemma iterate_unlimited s s' : total_fe c = 0 -> iterate gen c (enough c) s = Some s' ->
  gen_in_iter s' = Z.max 0 (n_gen_per_iter c).
Proof.
  intros Ht E. pose proof (iterate_counts s s' E) as (_ & _ & _ & [H|H]); auto.
  unfold check_FE in H. rewrite Ht in H. simpl in H. discriminate.
Qed.

(** ** Snapshots *)
Lemma snap_get_cons k e l : snap_get (P:=P) k ((k, e) :: l) = Some e.
Proof. unfold snap_get; simpl. rewrite Z.eqb_refl. auto. Qed.

Lemma snap_get_In k (l : list (Z * (Z * P))) e : In (k, e) l -> exists e', snap_get k l = Some e' /\ In (k, e') l.
Proof.
  intros H. unfold snap_get. destruct (find (fun e0 => fst e0 =? k) l) as [[k' e']|] eqn:E.
  - apply find_some in E. destruct E as [E1 E2]. simpl in E2. apply Z.eqb_eq in E2. subst k'.
    exists e'; auto.
  - pose proof (find_none _ _ E _ H) as X. simpl in X. rewrite Z.eqb_refl in X. discriminate.
Qed.

Lemma iterate_snaps s s' : iterate gen c (enough c) s = Some s' ->
  snaps s' = if keep_archive c then (gen_count s, (it_count s, popul s)) :: snaps s else snaps s.
Proof.
  intros E. destruct (iterate_char s) as (k & A & _). rewrite A in E. injection E as <-.
  cbn [bump_iter snaps]. destruct (gens_fields k (reset_gen (snapshot c s))) as (_ & _ & _ & ->).
  unfold reset_gen, snapshot. destruct (keep_archive c); auto.
Qed.

(** After [k] iterations the dictionary's entries are exactly the states at their starts. *)
Lemma iterates_snaps k s s' : keep_archive c = true -> snaps s = [] -> iterates gen c k s = Some s' ->
  forall key i p, In (key, (i, p)) (snaps s') <->
    exists j sj, (j < k)%nat /\ iterates gen c j s = Some sj /\ key = gen_count sj /\ i = it_count sj /\ p = popul sj.
Proof.
  intros Hk H0. revert s'; induction k as [|k IH]; intros s' E; cbn [iterates] in E.
  - injection E as <-. rewrite H0. intros key i p. split; [contradiction|]. intros (j & sj & Hj & _); lia.
  - destruct (iterates gen c k s) as [s1|] eqn:E1; [|discriminate].
    pose proof (iterate_snaps s1 s' E) as Hs. rewrite Hk in Hs. rewrite Hs.
    specialize (IH s1 eq_refl). intros key i p. cbn [In]. rewrite IH. split.
    + intros [H|(j & sj & H1 & H2)].
      * injection H as <- <- <-. exists k, s1. repeat split; auto.
      * exists j, sj. split; [lia|auto].
    + intros (j & sj & H1 & H2 & H3 & H4 & H5).
      destruct (Nat.eq_dec j k) as [->|Hn].
      * rewrite E1 in H2. injection H2 as <-. subst. left; auto.
      * right. exists j, sj. split; [lia|auto].
Qed.

End P.

(** ** Constructor *)
Close Scope Z_scope.
Lemma binom_0 n : binom n 0 = 1.
Proof. destruct n; auto. Qed.

Lemma binom_gt n k : n < k -> binom n k = 0.
Proof.
  revert k; induction n as [|n IH]; intros [|k] H; simpl; try lia.
  rewrite !IH; lia.
Qed.

Lemma binom_pos n k : k <= n -> 0 < binom n k.
Proof.
  revert k; induction n as [|n IH]; intros [|k] H; simpl; try lia.
  specialize (IH k). lia.
Qed.

Lemma default_resolution_spec m : 1 <= m ->
  default_resolution m = Ok (nth m [0; 3; 49; 13; 7; 5; 4; 3; 3; 3; 3] 3).
Proof.
  intros H. unfold default_resolution.
  destruct (Nat.ltb_spec m 11) as [Hm|Hm].
  - do 11 (destruct m as [|m]; [reflexivity || lia|]). lia.
  - do 11 (destruct m as [|m]; [lia|]). simpl. destruct m; reflexivity.
Qed.
