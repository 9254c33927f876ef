(** C60-C62, C92, C93: genetic programming trees (BioGP): growing, crossover, mutation. *)
From Verif Require Import Base M_BioGP Spec_BioGP P_BioGP P_BioGP2 P_BioGP3 P_BioGP4 P_BioGP5.
From Coq Require Import Permutation.
Open Scope nat_scope.

Section BioGP.
Context {F T : Type} (arity : F -> nat) (fs : list F) (ts : list T).
Notation tree := (tree F T).
Notation heap := (heap F T).
Notation individual := (individual arity fs ts).
Notation well_formed := (well_formed arity fs ts).
Implicit Types (h : heap) (g s : tree).

(** *** C60 *)
(** Growing under a linear node that has the subtrees [old]: it is filled up to max_subtrees, [old] kept; every new subtree is well formed and (counting the linear node
    as level 0) not deeper than max_depth; with the full method all its terminals are at max_depth exactly. *)
Theorem C60_grown_trees : forall (pick : nat -> nat -> nat) (coin : nat -> bool) full max_depth max_subtrees old t kids t', 1 <= max_depth -> length old <= max_subtrees ->
  grow_root arity pick coin fs ts full max_depth max_subtrees old t = Ok (kids, t') ->
  length kids = max_subtrees /\ exists new, kids = old ++ new /\
    forall k, In k new -> well_formed k /\
      (forall n s, at_level k n s -> S n <= max_depth) /\
      (full = true -> forall n s x, at_level k n s -> value s = VTerm x -> S n = max_depth).
Proof.
  intros pick coin full D m old t kids t' HD Hm E. unfold grow_root in E. destruct (times (m - length old) (grow arity pick coin fs ts full (D - 1)) t) as [[new q]|] eqn:Et; [|discriminate]. cbn [bind fst snd] in E. injection E as <- <-.
  destruct (times_spec (good arity fs ts full (D - 1)) _ _ (grow_good arity pick coin fs ts full (D - 1)) _ _ _ Et) as (L & Fa). rewrite Forall_forall in Fa. split; [rewrite app_length; lia|]. exists new. split; auto.
  intros k Hk. specialize (Fa k Hk). split; [intros n s A; apply (Fa n s A)|]. split.
  - intros n s A. destruct (Fa n s A) as (_ & X & _). lia.
  - intros Hf n s x A V. destruct (Fa n s A) as (_ & _ & X). rewrite (X Hf); [lia|]. destruct s as [v c]. simpl in V. subst v. exact I.
Qed.
(** A new individual: a linear node over max_subtrees well-formed subtrees, not deeper than max_depth. *)
Theorem C60_new_individual : forall (pick : nat -> nat -> nat) (coin : nat -> bool) full max_depth max_subtrees t kids t', 1 <= max_depth ->
  grow_root arity pick coin fs ts full max_depth max_subtrees [] t = Ok (kids, t') ->
  individual (Tr VLin kids) /\ length (children (Tr VLin kids : tree)) = max_subtrees /\ depth_within max_depth (Tr VLin kids).
Proof.
  intros pick coin full D m t kids t' HD E. destruct (C60_grown_trees pick coin full D m [] t kids t' HD (Nat.le_0_l _) E) as (L & new & -> & H). simpl in *. split; [|split; auto].
  - split; auto. intros k Hk. apply H; auto.
  - intros n s A. inversion A as [|? k n0 ? Hk A']; subst; [lia|]. simpl in Hk. apply (H k Hk) in A'. exact A'.
Qed.
(** Growing always succeeds when there are functions and terminals to choose from. *)
Theorem C60_growing_succeeds : forall (pick : nat -> nat -> nat) (coin : nat -> bool) full max_depth max_subtrees old t, fs <> [] -> ts <> [] -> exists kids t', grow_root arity pick coin fs ts full max_depth max_subtrees old t = Ok (kids, t').
Proof.
  intros pick coin full D m old t Hf Ht. unfold grow_root. destruct (times_total (m - length old) (grow arity pick coin fs ts full (D - 1)) (grow_total arity pick coin fs ts full Hf Ht (D - 1)) t) as (l & q & ->). cbn [bind fst snd]. eauto.
Qed.

(** *** C61 *)
Lemma exchanged_values m (g1 g2 g1' g2' : tree) : exchanged m g1 g2 g1' g2' -> Permutation (values g1' ++ values g2') (values g1 ++ values g2).
Proof.
  assert (G : forall n1 n2 s1 s2, replaced s1 s2 n1 g1 g1' -> replaced s2 s1 n2 g2 g2' -> Permutation (values g1' ++ values g2') (values g1 ++ values g2)).
  { intros n1 n2 s1 s2 R1 R2. apply replaced_values in R1, R2. apply (Permutation_app_inv_r (values s1 ++ values s2)).
    transitivity ((values g1' ++ values s1) ++ (values g2' ++ values s2)). { rewrite <- !app_assoc. apply Permutation_app_head. rewrite !app_assoc. apply Permutation_app_tail, Permutation_app_comm. }
    rewrite R1, R2. rewrite <- !app_assoc. apply Permutation_app_head. rewrite (Permutation_app_comm (values s2)). rewrite <- !app_assoc. apply Permutation_app_head. auto. }
  destruct m; simpl; [intros (n1 & n2 & s1 & s2 & R1 & R2 & _); eauto|intros (n1 & n2 & s1 & s2 & R1 & R2 & _); eauto|intros (-> & ->); auto].
Qed.
Lemma sub_well_formed g n s : individual g -> 0 < n -> at_level g n s -> well_formed s.
Proof.
  intros (V & W) Hn A. inversion A as [|? k n0 ? Hk A']; subst; [lia|]. intros m x Hx. apply (W k Hk (n0 + m) x). eapply at_level_trans; eauto.
Qed.
Lemma replaced_individual s s' n g g' : replaced s s' n g g' -> 0 < n -> individual g -> well_formed s' -> individual g'.
Proof.
  intros R Hn (V & W) W'. destruct R as [|n v pre k k' post R]; [lia|]. split; [exact V|]. simpl in W |- *. intros c Hc. apply in_app_or in Hc. destruct Hc as [Hc|[<-|Hc]]; [apply W, in_or_app; auto| |apply W, in_or_app; right; right; auto].
  intros m x Hx. destruct (replaced_nodes _ _ _ _ _ R m x Hx) as [(m' & -> & Hm)|(y & Hy & E1 & E2)]; [apply (W' m' x Hm)|]. rewrite <- E1, <- E2. apply (W k) in Hy; auto. apply in_or_app; right; left; auto.
Qed.
Lemma exchanged_individuals m g1 g2 g1' g2' : exchanged m g1 g2 g1' g2' -> individual g1 -> individual g2 -> individual g1' /\ individual g2'.
Proof.
  intros Ex W1 W2. assert (G : forall n1 n2 s1 s2, replaced s1 s2 n1 g1 g1' -> replaced s2 s1 n2 g2 g2' -> (0 < n1 /\ 0 < n2) \/ (n1 = 0 /\ n2 = 0) -> individual g1' /\ individual g2').
  { intros n1 n2 s1 s2 R1 R2 [(H1 & H2)|(-> & ->)].
    - pose proof (replaced_level _ _ _ _ _ R1) as (L1 & _). pose proof (replaced_level _ _ _ _ _ R2) as (L2 & _). split; [apply (replaced_individual s1 s2 n1 g1); auto; apply (sub_well_formed g2 n2); auto|apply (replaced_individual s2 s1 n2 g2); auto; apply (sub_well_formed g1 n1); auto].
    - inversion R1; subst. inversion R2; subst. auto. }
  destruct m; simpl in Ex.
  - destruct Ex as (n1 & n2 & s1 & s2 & R1 & R2 & E & _). specialize (E eq_refl). subst n2. apply (G n1 n1 s1 s2 R1 R2). destruct n1; [right; auto|left; lia].
  - destruct Ex as (n1 & n2 & s1 & s2 & R1 & R2 & _ & E). specialize (E eq_refl). apply (G n1 n2 s1 s2 R1 R2). auto.
  - destruct Ex as (-> & ->). auto.
Qed.
(** BioGP_xover.do on individuals (each with at least one subtree) whose objects [ts0] lie below [next]: for every list of mating pairs it succeeds and gives two offspring for
    each pair, all well-formed individuals made of new objects of their own; the two offspring of a pair together hold exactly the values of the nodes of its two
    parents; no object of the population is touched. *)
Theorem C61_crossover : forall fuel m ks (pop : list ind) ts0 pairs h next,
  Forall2 (held h) pop ts0 -> (forall t, In t ts0 -> individual (read h t)) -> (forall t, In t ts0 -> 1 < length (ids t)) -> (forall t i, In t ts0 -> In i (ids t) -> i < next) ->
  2 * length (flat_map ids ts0) <= fuel -> (forall p, In p pairs -> fst p < length pop /\ snd p < length pop) ->
  exists h' next' off ts', xover_do fuel m h next pop pairs ks 0 = Ok (h', next', off) /\
    Forall2 (held h') off ts' /\ length off = 2 * length pairs /\ NoDup (flat_map ids ts') /\ (forall t i, In t ts' -> In i (ids t) -> next <= i < next') /\
    (forall t, In t ts' -> individual (read h' t)) /\
    (forall k x y, nth_error pairs k = Some (x, y) -> exists a b a' b', nth_error ts0 x = Some a /\ nth_error ts0 y = Some b /\ nth_error ts' (2 * k) = Some a' /\ nth_error ts' (2 * k + 1) = Some b' /\
       Permutation (values (read h' a') ++ values (read h' b')) (values (read h a) ++ values (read h b))) /\
    (forall i, i < next -> h' i = h i).
Proof.
  intros fuel m ks pop ts0 pairs h next Hp Hw Hz Hr Hf Hi.
  assert (Le : forall t, In t ts0 -> length (ids t) <= length (flat_map ids ts0)). { intros t Ht. destruct (in_split _ _ Ht) as (p & q & ->). rewrite flat_map_app', app_length. simpl. rewrite app_length. lia. }
  destruct (xover_do_spec fuel m ks pop ts0 pairs h next 0 Hp) as (h' & next' & off & ts' & E & Q1 & Q2 & Q3 & Q4 & Q5 & Q6 & Q7).
  { intros t Ht. split; auto. specialize (Le t Ht). lia. } { intros t Ht i Hii. split; [lia|eauto]. } { auto. }
  { intros p q a b _ _ Ea Eb. apply nth_error_In in Ea, Eb. pose proof (Le a Ea). pose proof (Le b Eb). lia. }
  exists h', next', off, ts'. split; auto. split; auto. split; auto. split; auto. split; [intros t i Ht Hii; apply (Q5 t Ht i Hii)|].
  assert (Two : forall k x y, nth_error pairs k = Some (x, y) -> exists a b a' b', nth_error ts0 x = Some a /\ nth_error ts0 y = Some b /\ nth_error ts' (2 * k) = Some a' /\ nth_error ts' (2 * k + 1) = Some b' /\ exchanged m (read h a) (read h b) (read h' a') (read h' b')).
  { intros k x y Ek. destruct (Q7 k (x, y) Ek) as (g1 & g2 & g1' & g2' & A & B & C & D & X). cbn [fst snd] in A, B. rewrite !nth_error_map in *.
    destruct (nth_error ts0 x) as [a|]; [|discriminate]. destruct (nth_error ts0 y) as [b|]; [|discriminate]. destruct (nth_error ts' (2 * k)) as [a'|]; [|discriminate]. destruct (nth_error ts' (2 * k + 1)) as [b'|]; [|discriminate].
    simpl in A, B, C, D. injection A as <-. injection B as <-. injection C as <-. injection D as <-. exists a, b, a', b'. auto. }
  split; [|split].
  - intros t Ht. apply In_nth_error in Ht. destruct Ht as (j & Hj).
    assert (Lt : j < 2 * length pairs). { rewrite <- Q2, (Forall2_len _ _ _ Q1). apply nth_error_Some. congruence. }
    assert (Hk : Nat.div2 j < length pairs) by (rewrite Nat.div2_div; apply Nat.div_lt_upper_bound; lia).
    destruct (nth_error pairs (Nat.div2 j)) as [[x y]|] eqn:Ek; [|apply nth_error_None in Ek; lia]. destruct (Two _ _ _ Ek) as (a & b & a' & b' & A & B & C & D & X).
    destruct (exchanged_individuals _ _ _ _ _ X) as (W1 & W2). { apply Hw. eapply nth_error_In; eauto. } { apply Hw. eapply nth_error_In; eauto. }
    pose proof (Nat.div2_odd j) as Od. destruct (Nat.odd j); simpl in Od.
    + rewrite Od in Hj. replace (Nat.div2 j + (Nat.div2 j + 0) + 1) with (2 * Nat.div2 j + 1) in Hj by lia. congruence.
    + rewrite Od in Hj. replace (Nat.div2 j + (Nat.div2 j + 0) + 0) with (2 * Nat.div2 j) in Hj by lia. congruence.
  - intros k x y Ek. destruct (Two k x y Ek) as (a & b & a' & b' & A & B & C & D & X). exists a, b, a', b'. split; auto. split; auto. split; auto. split; auto. eapply exchanged_values; eauto.
  - intros i Hii. apply Q4. auto.
Qed.
(** The exchange itself: one subtree of each parent takes the place of the other; height-fair: both roots at the same level; standard: neither is the linear node. *)
Theorem C61_exchange : forall fuel m h x1 x2 t1 t2 k1 k2, m <> NoXover ->
  held h x1 t1 -> held h x2 t2 -> NoDup (ids t1 ++ ids t2) -> length (ids t1 ++ ids t2) <= fuel -> 1 < length (ids t1) -> 1 < length (ids t2) ->
  exists h' l1 l2 t1' t2', xover_pair fuel m h (fst x1) (fst x2) (snd x1) (snd x2) k1 k2 = Ok (h', l1, l2) /\ held h' (fst x1, l1) t1' /\ held h' (fst x2, l2) t2' /\
    exists n1 n2 s1 s2, replaced s1 s2 n1 (read h t1) (read h' t1') /\ replaced s2 s1 n2 (read h t2) (read h' t2') /\ (m = HeightFair -> n1 = n2) /\ (m = Standard -> 0 < n1 /\ 0 < n2).
Proof.
  intros fuel m h x1 x2 t1 t2 k1 k2 Hm H1 H2 ND Hf Z1 Z2. destruct (xover_pair_spec fuel m h x1 x2 t1 t2 k1 k2 H1 H2 ND Hf Z1 Z2) as (h' & l1 & l2 & t1' & t2' & E & A & B & _ & X & _).
  exists h', l1, l2, t1', t2'. split; auto. split; auto. split; auto. destruct m; [exact X|exact X|congruence].
Qed.

(** *** C92: depth after crossover *)
Theorem C92_height_fair_keeps_depth : forall fuel h x1 x2 t1 t2 k1 k2 d,
  held h x1 t1 -> held h x2 t2 -> NoDup (ids t1 ++ ids t2) -> length (ids t1 ++ ids t2) <= fuel -> 1 < length (ids t1) -> 1 < length (ids t2) ->
  depth_within d (read h t1) -> depth_within d (read h t2) ->
  exists h' l1 l2 t1' t2', xover_pair fuel HeightFair h (fst x1) (fst x2) (snd x1) (snd x2) k1 k2 = Ok (h', l1, l2) /\ held h' (fst x1, l1) t1' /\ held h' (fst x2, l2) t2' /\
    depth_within d (read h' t1') /\ depth_within d (read h' t2').
Proof.
  intros fuel h x1 x2 t1 t2 k1 k2 d H1 H2 ND Hf Z1 Z2 D1 D2. destruct (C61_exchange fuel HeightFair h x1 x2 t1 t2 k1 k2) as (h' & l1 & l2 & t1' & t2' & E & A & B & n1 & n2 & s1 & s2 & R1 & R2 & En & _); auto; [discriminate|].
  specialize (En eq_refl). subst n2. exists h', l1, l2, t1', t2'. split; auto. split; auto. split; auto. pose proof (replaced_level _ _ _ _ _ R1) as (L1 & _). pose proof (replaced_level _ _ _ _ _ R2) as (L2 & _). split.
  - eapply replaced_depth; eauto. intros m x Hx. apply (D2 (n1 + m) x). eapply at_level_trans; eauto.
  - eapply replaced_depth; eauto. intros m x Hx. apply (D1 (n1 + m) x). eapply at_level_trans; eauto.
Qed.
(** Standard crossover: only the sum of the depths bounds the result. Missing for the property: the bound max_depth itself, which fails (below). *)
Theorem C92_standard_depth_partial : forall fuel h x1 x2 t1 t2 k1 k2 d1 d2,
  held h x1 t1 -> held h x2 t2 -> NoDup (ids t1 ++ ids t2) -> length (ids t1 ++ ids t2) <= fuel -> 1 < length (ids t1) -> 1 < length (ids t2) ->
  depth_within d1 (read h t1) -> depth_within d2 (read h t2) ->
  exists h' l1 l2 t1' t2', xover_pair fuel Standard h (fst x1) (fst x2) (snd x1) (snd x2) k1 k2 = Ok (h', l1, l2) /\ held h' (fst x1, l1) t1' /\ held h' (fst x2, l2) t2' /\
    depth_within (d1 + d2 - 1) (read h' t1') /\ depth_within (d1 + d2 - 1) (read h' t2').
Proof.
  intros fuel h x1 x2 t1 t2 k1 k2 d1 d2 H1 H2 ND Hf Z1 Z2 D1 D2. destruct (C61_exchange fuel Standard h x1 x2 t1 t2 k1 k2) as (h' & l1 & l2 & t1' & t2' & E & A & B & n1 & n2 & s1 & s2 & R1 & R2 & _ & En); auto; [discriminate|].
  destruct (En eq_refl) as (P1 & P2). exists h', l1, l2, t1', t2'. split; auto. split; auto. split; auto. pose proof (replaced_level _ _ _ _ _ R1) as (L1 & _). pose proof (replaced_level _ _ _ _ _ R2) as (L2 & _).
  pose proof (D1 n1 s1 L1). pose proof (D2 n2 s2 L2). split.
  - eapply replaced_depth; [exact R1| |]. { intros m x Hx. pose proof (D1 m x Hx). lia. } intros m x Hx. assert (n2 + m <= d2) by (apply (D2 _ x); eapply at_level_trans; eauto). lia.
  - eapply replaced_depth; [exact R2| |]. { intros m x Hx. pose proof (D2 m x Hx). lia. } intros m x Hx. assert (n1 + m <= d1) by (apply (D1 _ x); eapply at_level_trans; eauto). lia.
Qed.

(** *** C93: who mates with whom *)
(** With ids given as a plain list (as Population.mate does, and as without ids), every pair is an individual with itself: each second one of the list. *)
Theorem C93_pairs_refuted : forall l p, In p (pairs_of l) -> fst p = snd p.
Proof.
  enough (H : forall n l p, length l <= n -> In p (pairs_of l) -> fst p = snd p) by (intros l p; apply (H (length l)); auto).
  induction n as [|n IH]; intros [|x [|y l]] p Hn Hp; simpl in *; try lia; try tauto; [destruct Hp as [<-|[]]; auto|]. destruct Hp as [<-|Hp]; auto. apply (IH l); auto. lia.
Qed.
Theorem C93_every_second : forall l k x, 2 * k < length l -> nth_error l (2 * k) = Some x -> nth_error (pairs_of l) k = Some (x, x).
Proof.
  enough (H : forall k l x, nth_error l (2 * k) = Some x -> nth_error (pairs_of l) k = Some (x, x)) by (intros; auto).
  induction k as [|k IH]; intros l x E.
  - destruct l as [|a [|b l]]; simpl in *; [discriminate|congruence|congruence].
  - replace (2 * S k) with (S (S (2 * k))) in E by lia. destruct l as [|a [|b l]]; cbn [nth_error] in E; try discriminate. cbn [pairs_of nth_error]. auto.
Qed.
(** Hence what a crossover makes of an individual is made of that individual's material only. *)
Theorem C93_no_exchange_between_individuals : forall fuel m ks (pop : list ind) ts0 shuffled h next,
  Forall2 (held h) pop ts0 -> (forall t, In t ts0 -> individual (read h t)) -> (forall t, In t ts0 -> 1 < length (ids t)) -> (forall t i, In t ts0 -> In i (ids t) -> i < next) ->
  2 * length (flat_map ids ts0) <= fuel -> (forall p, In p (pairs_of shuffled) -> fst p < length pop) ->
  exists h' next' off ts', xover_do fuel m h next pop (pairs_of shuffled) ks 0 = Ok (h', next', off) /\ Forall2 (held h') off ts' /\
    forall t v, In t ts' -> In v (values (read h' t)) -> exists a, In a ts0 /\ (forall u, In u (values (read h' t)) -> In u (values (read h a))).
Proof.
  intros fuel m ks pop ts0 shuffled h next Hp Hw Hz Hr Hf Hi. destruct (C61_crossover fuel m ks pop ts0 (pairs_of shuffled) h next Hp Hw Hz Hr Hf) as (h' & next' & off & ts' & E & Q1 & Q2 & _ & _ & _ & Q3 & _).
  { intros p Hin. rewrite <- (C93_pairs_refuted _ _ Hin). split; auto. }
  exists h', next', off, ts'. split; auto. split; auto. intros t v Ht _. apply In_nth_error in Ht. destruct Ht as (j & Hj).
  assert (Lt : j < 2 * length (pairs_of shuffled)). { rewrite <- Q2, (Forall2_len _ _ _ Q1). apply nth_error_Some. congruence. }
  assert (Hk : Nat.div2 j < length (pairs_of shuffled)) by (rewrite Nat.div2_div; apply Nat.div_lt_upper_bound; lia).
  destruct (nth_error (pairs_of shuffled) (Nat.div2 j)) as [[x y]|] eqn:Ek; [|apply nth_error_None in Ek; lia]. destruct (Q3 _ _ _ Ek) as (a & b & a' & b' & A & B & C & D & X).
  pose proof (C93_pairs_refuted _ _ (nth_error_In _ _ Ek)) as Exy. simpl in Exy. subst y. assert (b = a) by congruence. subst b. exists a. split; [eapply nth_error_In; eauto|].
  assert (Y : t = a' \/ t = b').
  { pose proof (Nat.div2_odd j) as Od. destruct (Nat.odd j); simpl in Od; rewrite Od in Hj.
    - replace (Nat.div2 j + (Nat.div2 j + 0) + 1) with (2 * Nat.div2 j + 1) in Hj by lia. right. congruence.
    - replace (Nat.div2 j + (Nat.div2 j + 0) + 0) with (2 * Nat.div2 j) in Hj by lia. left. congruence. }
  intros u Hu. assert (Hu' : In u (values (read h' a') ++ values (read h' b'))) by (apply in_or_app; destruct Y as [<-|<-]; auto). apply (Permutation_in _ X) in Hu'. apply in_app_or in Hu'. tauto.
Qed.

(** *** C62 *)
(** Standard mutation: one subtree (not the linear node) is replaced by a newly grown one; the result is a well-formed individual, at most as deep as max_depth or as it was before. *)
Theorem C62_standard_mutation : forall (pick : nat -> nat -> nat) (coin : nat -> bool) max_depth h next x t k q,
  held h x t -> (forall i, In i (ids t) -> i < next) -> individual (read h t) -> 1 < length (ids t) -> fs <> [] -> ts <> [] -> depth_within max_depth (read h t) ->
  exists need, forall fuel, need <= fuel -> exists h' next' x' q' t', mutate_standard arity pick coin fs ts fuel max_depth h next x k q = Ok (h', next', x', q') /\ fst x' = fst x /\ held h' x' t' /\
    individual (read h' t') /\ depth_within max_depth (read h' t') /\ (exists n s g, 0 < n /\ replaced s g n (read h t) (read h' t')) /\
    (forall i, i < next -> ~ In i (ids t) -> h' i = h i).
Proof.
  intros pick coin D h next x t k q H Rg W Z Hf Ht Dp. destruct (standard_spec arity fs ts pick coin D h next x t k q H) as (need & Sp); auto. { intros i Hi. split; [lia|auto]. }
  exists need. intros fuel Hn. destruct (Sp fuel Hn) as (h' & next' & x' & q' & t' & n & s & g & E & A & B & _ & _ & C1 & C2 & C3 & C4 & _). exists h', next', x', q', t'. split; auto. split; auto. split; auto.
  split. { eapply replaced_individual; eauto. intros m y Hy. apply (C3 m y Hy). }
  split. { eapply replaced_depth; eauto. intros m y Hy. destruct (C3 m y Hy) as (_ & X & _). pose proof (replaced_level _ _ _ _ _ C2) as (L & _). pose proof (Dp n s L). lia. }
  split; [exists n, s, g; auto|]. auto.
Qed.
(** Mono-parental mutation: a well-formed individual results; either with the values it had, or with one subtree replaced by a part of itself (what else it held is gone).
    Missing: the depth (refuted below). *)
Theorem C62_mono_parental_partial : forall fuel h x t i j,
  held h x t -> individual (read h t) -> length (ids t) <= fuel -> i <> j -> i < length (tl (snd x)) -> j < length (tl (snd x)) ->
  exists h' x' t', mutate_mono fuel h x i j = Ok (h', x') /\ fst x' = fst x /\ held h' x' t' /\ individual (read h' t') /\
    (Permutation (values (read h' t')) (values (read h t)) \/ exists n m s s', at_level s m s' /\ 0 < m /\ 0 < n /\ replaced s s' n (read h t) (read h' t')) /\
    (forall k, ~ In k (ids t) -> h' k = h k).
Proof.
  intros fuel h x t i j H W Hf Nij Hi Hj. destruct (mono_spec arity fs ts fuel h x t i j H Hf Nij Hi Hj) as (h' & x' & t' & E & A & B & C & D & _ & X). exists h', x', t'. split; auto.
Qed.
(** Small mutation: shape and depth stay; the individual stays well formed if no function node with arguments is turned into a terminal, i.e. whenever the first of
    the two draws of such a node fails then so does the second. *)
Theorem C62_small_mutation_partial : forall fuel h x t draw,
  held h x t -> individual (read h t) -> length (ids t) <= fuel -> (forall y, In (d_f (draw y)) fs /\ In (d_t (draw y)) ts) ->
  (forall i f, In i (ids t) -> c_val (h i) = VFun f -> arity f <> 0 -> d_c1 (draw i) = false -> d_c2 (draw i) = false) ->
  exists h' x', mutate_small arity fuel h x draw = Ok (h', x') /\ fst x' = fst x /\ held h' x' t /\ individual (read h' t) /\
    (forall d, depth_within d (read h t) -> depth_within d (read h' t)) /\ (forall k, ~ In k (ids t) -> h' k = h k).
Proof.
  intros fuel h x t draw H W Hf Hd Hn. destruct (small_spec arity fuel h x t draw H Hf) as (h' & x' & E & A & B & C & D & V & R). exists h', x'. split; auto. split; auto. split; auto.
  assert (L' : linked h' t) by apply A. assert (ND : NoDup (ids t)) by apply H. assert (L : linked h t) by apply H. split; [|split; auto].
  - apply (individual_cells arity fs ts h t L ND) in W. destruct W as (W1 & W2). apply (individual_cells arity fs ts h' t L' ND). split; [rewrite R; exact W1|]. intros i Hi Ne. rewrite (V i Hi Ne), D. specialize (W2 i Hi Ne). destruct (Hd i) as (Hdf & Hdt).
    unfold mutate_node. destruct (c_val (h i)) as [|f|tm] eqn:Ev; [destruct W2| |].
    + simpl in W2. destruct W2 as (W2 & W3). destruct (d_c1 (draw i)) eqn:E1.
      * destruct (Nat.eqb (arity (d_f (draw i))) (arity f)) eqn:Ea; [|rewrite Ev; simpl; auto]. unfold upd. rewrite Nat.eqb_refl. simpl. split; auto. apply Nat.eqb_eq in Ea. rewrite Ea; exact W3.
      * destruct (d_c2 (draw i)) eqn:E2; [|rewrite Ev; simpl; auto]. unfold upd. rewrite Nat.eqb_refl. simpl. split; auto. destruct (arity f) eqn:Ef; [auto|]. assert (X : d_c2 (draw i) = false); [|rewrite X in E2; discriminate]. apply (Hn i f); auto. rewrite Ef; discriminate.
    + simpl in W2. destruct (d_c2 (draw i)); [|rewrite Ev; exact W2]. unfold upd. rewrite Nat.eqb_refl. simpl. tauto.
  - intros d Dp n s Hs. destruct (at_level_isub h' t n s Hs) as (y & Sy & _). apply (Dp n (read h y)). apply isub_read; auto.
Qed.
End BioGP.

(** *** Concrete cases *)
Section Examples.
(** Functions: neg (arity 1), add (arity 2); terminals 0, 1, 2. *)
Inductive fn := Neg | Add.
Definition ar (f : fn) : nat := match f with Neg => 1 | Add => 2 end.
Definition fns := [Neg; Add].
Definition tms := [0; 1; 2].

Example C60_example : grow_root ar (fun t n => t) (fun t => Nat.even t) fns tms true 3 1 [] 0 =
  Ok ([Tr (VFun Neg) [Tr (VFun Add) [Tr (VTerm 2) []; Tr (VTerm 0) []]]], 4).
Proof. vm_compute. reflexivity. Qed.
Example C60_example_grow : exists kids t', grow_root ar (fun t n => t) (fun t => Nat.even (Nat.div2 t)) fns tms false 3 2 [Tr (VTerm 1) []] 2 = Ok (Tr (VTerm 1) [] :: kids, t') /\ length kids = 1.
Proof. vm_compute. eexists _, _. split; reflexivity. Qed.

(** Two individuals: linear(add(0, 1)) and linear(neg(neg(2))). *)
Definition hx : heap fn nat := fun i => nth i
  [mkCell VLin 0 [1]; mkCell (VFun Add) 1 [2; 3]; mkCell (VTerm 0) 2 []; mkCell (VTerm 1) 2 [];
   mkCell VLin 0 [5]; mkCell (VFun Neg) 1 [6]; mkCell (VFun Neg) 2 [7]; mkCell (VTerm 2) 3 []] (mkCell VLin 0 []).
Definition t1 := Ob 0 [Ob 1 [Ob 2 []; Ob 3 []]].
Definition t2 := Ob 4 [Ob 5 [Ob 6 [Ob 7 []]]].
Definition x1 : ind := (0, [0; 1; 2; 3]).
Definition x2 : ind := (4, [4; 5; 6; 7]).
Ltac linked_tac := repeat (first [apply linked_node; [reflexivity|simpl; intros ? H; repeat (destruct H as [<-|H]); try contradiction]]).
Ltac levels_tac := intros [|[|[|[|[|n]]]]] i H; simpl in H; repeat (destruct H as [<-|H]); try contradiction; reflexivity.
Lemma held1 : held hx x1 t1.
Proof. split; [split; [reflexivity|split; [linked_tac|repeat constructor; simpl; intuition lia]]|]. split; [simpl; auto|]. split; [reflexivity|]. levels_tac. Qed.
Lemma held2 : held hx x2 t2.
Proof. split; [split; [reflexivity|split; [linked_tac|repeat constructor; simpl; intuition lia]]|]. split; [simpl; auto|]. split; [reflexivity|]. levels_tac. Qed.
Ltac individual_tac := split; [reflexivity|]; intros k Hk; simpl in Hk; repeat (destruct Hk as [<-|Hk]); try contradiction; intros n s A;
  repeat (match goal with
          | H : at_level (Tr _ _) _ _ |- _ => inversion H as [|? ? ? ? ?Hin ?Hat]; clear H; subst
          | H : In _ (children (Tr _ _)) |- _ => simpl in H
          | H : _ \/ _ |- _ => destruct H as [H|H]; [subst|]
          | H : False |- _ => destruct H end); simpl; intuition auto.
Lemma ind1 : individual ar fns tms (read hx t1). Proof. individual_tac. Qed.
Lemma ind2 : individual ar fns tms (read hx t2). Proof. individual_tac. Qed.
Example C61_example : exists h' n' off ts', xover_do 100 Standard hx 8 [x1; x2] [(0, 1); (1, 0)] (fun q => (q, S q)) 0 = Ok (h', n', off) /\ length off = 4 /\ Forall2 (held h') off ts' /\ (forall t, In t ts' -> individual ar fns tms (read h' t)).
Proof.
  destruct (C61_crossover ar fns tms 100 Standard (fun q => (q, S q)) [x1; x2] [t1; t2] [(0, 1); (1, 0)] hx 8) as (h' & n' & off & ts' & E & A & B & _ & _ & C & _).
  - constructor; [apply held1|constructor; [apply held2|constructor]].
  - intros t [<-|[<-|[]]]; [apply ind1|apply ind2].
  - intros t [<-|[<-|[]]]; simpl; lia.
  - intros t i [<-|[<-|[]]] H; simpl in H; intuition lia.
  - simpl. lia.
  - intros p [<-|[<-|[]]]; simpl; lia.
  - exists h', n', off, ts'. auto.
Qed.
Example C61_result : match xover_do 100 Standard hx 8 [x1; x2] [(0, 1)] (fun q => (0, 1)) 0 with
  | Ok (h', _, off) => map (fun o => snap 100 h' (fst o)) off | Err _ => [] end =
  [Some (Tr VLin [Tr (VFun Neg) [Tr (VTerm 2) []]]); Some (Tr VLin [Tr (VFun Neg) [Tr (VFun Add) [Tr (VTerm 0) []; Tr (VTerm 1) []]]])].
Proof. vm_compute. reflexivity. Qed.

(** Standard crossover exceeds max_depth: two parents of depth at most 3, an offspring of depth 4. *)
Theorem C92_standard_depth_refuted : exists (h : heap fn nat) y1 y2 u1 u2 d, held h y1 u1 /\ held h y2 u2 /\ NoDup (ids u1 ++ ids u2) /\
  individual ar fns tms (read h u1) /\ individual ar fns tms (read h u2) /\ depth_within d (read h u1) /\ depth_within d (read h u2) /\
  exists k1 k2 h' l1 l2 g n s, xover_pair 100 Standard h (fst y1) (fst y2) (snd y1) (snd y2) k1 k2 = Ok (h', l1, l2) /\ snap 100 h' (fst y1) = Some g /\ at_level g n s /\ d < n.
Proof.
  exists hx, x1, x2, t1, t2, 3. split; [apply held1|]. split; [apply held2|]. split; [simpl; repeat constructor; simpl; intuition lia|]. split; [apply ind1|]. split; [apply ind2|].
  split. { intros n s A. destruct (at_level_isub hx t1 n s A) as (y & Sy & _). destruct y as [i ki]. rewrite <- (up_to_date_isub hx t1 (snd x1) i ki n (proj2 held1) Sy). apply (isub_ids _ _ _ Sy) with (i := i); [simpl; auto|] || (assert (Hi : In i (ids t1)) by (apply (isub_ids _ _ _ Sy); simpl; auto); simpl in Hi; intuition (subst; simpl; lia)). }
  split. { intros n s A. destruct (at_level_isub hx t2 n s A) as (y & Sy & _). destruct y as [i ki]. rewrite <- (up_to_date_isub hx t2 (snd x2) i ki n (proj2 held2) Sy). assert (Hi : In i (ids t2)) by (apply (isub_ids _ _ _ Sy); simpl; auto). simpl in Hi. intuition (subst; simpl; lia). }
  exists 1, 0. destruct (xover_pair 100 Standard hx (fst x1) (fst x2) (snd x1) (snd x2) 1 0) as [[[h' l1] l2]|] eqn:E; [|vm_compute in E; discriminate].
  exists h', l1, l2, (Tr VLin [Tr (VFun Add) [Tr (VFun Neg) [Tr (VFun Neg) [Tr (VTerm 2) []]]; Tr (VTerm 1) []]]), 4, (Tr (VTerm 2) []). split; auto. split; [|split; [|lia]].
  - vm_compute in E. injection E as <- <- <-. vm_compute. reflexivity.
  - eapply at_kid; [simpl; left; reflexivity|]. eapply at_kid; [simpl; left; reflexivity|]. eapply at_kid; [simpl; left; reflexivity|]. eapply at_kid; [simpl; left; reflexivity|]. constructor.
Qed.
Example C92_example : exists h' l1 l2 t1' t2', xover_pair 100 HeightFair hx 0 4 (snd x1) (snd x2) 1 0 = Ok (h', l1, l2) /\ held h' (0, l1) t1' /\ held h' (4, l2) t2' /\ depth_within 3 (read h' t1') /\ depth_within 3 (read h' t2').
Proof.
  apply (C92_height_fair_keeps_depth 100 hx x1 x2 t1 t2 1 0 3 held1 held2); try (simpl; lia).
  - simpl. repeat constructor; simpl; intuition lia.
  - intros n s A. destruct (at_level_isub hx t1 n s A) as (y & Sy & _). destruct y as [i ki]. rewrite <- (up_to_date_isub hx t1 (snd x1) i ki n (proj2 held1) Sy). assert (Hi : In i (ids t1)) by (apply (isub_ids _ _ _ Sy); simpl; auto). simpl in Hi. intuition (subst; simpl; lia).
  - intros n s A. destruct (at_level_isub hx t2 n s A) as (y & Sy & _). destruct y as [i ki]. rewrite <- (up_to_date_isub hx t2 (snd x2) i ki n (proj2 held2) Sy). assert (Hi : In i (ids t2)) by (apply (isub_ids _ _ _ Sy); simpl; auto). simpl in Hi. intuition (subst; simpl; lia).
Qed.
Example C93_example : pairs_of [7; 3; 5; 1; 4] = [(7, 7); (5, 5); (4, 4)]. Proof. reflexivity. Qed.

(** Small mutation can turn a function node into a terminal that keeps its children. *)
Theorem C62_small_mutation_refuted : exists (h : heap fn nat) x t draw h' x' g, held h x t /\ individual ar fns tms (read h t) /\ (forall y, In (d_f (draw y)) fns /\ In (d_t (draw y)) tms) /\
  mutate_small ar 100 h x draw = Ok (h', x') /\ snap 100 h' (fst x') = Some g /\ ~ individual ar fns tms g /\ exists s t0, at_level g 1 s /\ value s = VTerm t0 /\ children s <> [].
Proof.
  exists hx, x1, t1, (fun y => mkDraw false (Nat.eqb y 1) Neg 2). destruct (mutate_small ar 100 hx x1 (fun y => mkDraw false (Nat.eqb y 1) Neg 2)) as [[h' x']|] eqn:E; [|vm_compute in E; discriminate].
  exists h', x', (Tr VLin [Tr (VTerm 2) [Tr (VTerm 0) []; Tr (VTerm 1) []]]). split; [apply held1|]. split; [apply ind1|]. split; [simpl; auto|]. split; auto. split; [vm_compute in E; injection E as <- <-; vm_compute; reflexivity|].
  split; [|exists (Tr (VTerm 2) [Tr (VTerm 0) []; Tr (VTerm 1) []]), 2; split; [eapply at_kid; [simpl; left; reflexivity|constructor]|split; [reflexivity|discriminate]]].
  intros (_ & W). specialize (W _ (or_introl eq_refl) 0 _ (at_root _)). simpl in W. lia.
Qed.
Example C62_small_example : exists h' x', mutate_small ar 100 hx x1 (fun y => mkDraw true true Add 2) = Ok (h', x') /\ fst x' = 0 /\ held h' x' t1 /\ individual ar fns tms (read h' t1).
Proof.
  destruct (C62_small_mutation_partial ar fns tms 100 hx x1 t1 (fun y => mkDraw true true Add 2) held1 ind1) as (h' & x' & E & A & B & C & _).
  { simpl; lia. } { simpl; auto. } { discriminate. } exists h', x'. auto.
Qed.
(** Mono-parental mutation can exceed max_depth and lose nodes. *)
Definition hy : heap fn nat := fun i => nth i
  [mkCell VLin 0 [1; 4]; mkCell (VFun Neg) 1 [2]; mkCell (VFun Neg) 2 [3]; mkCell (VTerm 0) 3 []; mkCell (VFun Neg) 1 [5]; mkCell (VFun Neg) 2 [6]; mkCell (VTerm 2) 3 []] (mkCell VLin 0 []).
Definition ty := Ob 0 [Ob 1 [Ob 2 [Ob 3 []]]; Ob 4 [Ob 5 [Ob 6 []]]].
Definition xy : ind := (0, [0; 1; 4; 2; 5; 3; 6]).
Lemma heldy : held hy xy ty.
Proof.
  split; [split; [reflexivity|split; [linked_tac|repeat constructor; simpl; intuition lia]]|]. split; [|split; [reflexivity|levels_tac]].
  apply NoDup_Permutation; [repeat constructor; simpl; intuition lia|repeat constructor; simpl; intuition lia|]. intros i; simpl; intuition lia.
Qed.
Lemma indy : individual ar fns tms (read hy ty). Proof. individual_tac. Qed.
Theorem C62_mono_parental_refuted : exists (h : heap fn nat) x t d, held h x t /\ individual ar fns tms (read h t) /\ depth_within d (read h t) /\
  (exists i j h' x' g n s, i <> j /\ mutate_mono 100 h x i j = Ok (h', x') /\ snap 100 h' (fst x') = Some g /\ at_level g n s /\ d < n) /\
  (exists i j h' x' g, i <> j /\ mutate_mono 100 h x i j = Ok (h', x') /\ snap 100 h' (fst x') = Some g /\ length (values g) < length (values (read h t))).
Proof.
  exists hy, xy, ty, 3. split; [apply heldy|]. split; [apply indy|].
  split. { intros n s A. destruct (at_level_isub hy ty n s A) as (y & Sy & _). destruct y as [i ki]. rewrite <- (up_to_date_isub hy ty (snd xy) i ki n (proj2 heldy) Sy). assert (Hi : In i (ids ty)) by (apply (isub_ids _ _ _ Sy); simpl; auto). simpl in Hi. intuition (subst; simpl; lia). }
  split.
  - exists 0, 5. destruct (mutate_mono 100 hy xy 0 5) as [[h' x']|] eqn:E; [|vm_compute in E; discriminate]. exists h', x', (Tr VLin [Tr (VTerm 2) []; Tr (VFun Neg) [Tr (VFun Neg) [Tr (VFun Neg) [Tr (VFun Neg) [Tr (VTerm 0) []]]]]]), 5, (Tr (VTerm 0) []).
    split; [discriminate|]. split; auto. split; [vm_compute in E; injection E as <- <-; vm_compute; reflexivity|]. split; [|lia].
    eapply at_kid; [simpl; right; left; reflexivity|]. do 4 (eapply at_kid; [simpl; left; reflexivity|]). constructor.
  - exists 0, 4. destruct (mutate_mono 100 hy xy 0 4) as [[h' x']|] eqn:E; [|vm_compute in E; discriminate]. exists h', x', (Tr VLin [Tr (VTerm 0) []; Tr (VFun Neg) [Tr (VFun Neg) [Tr (VTerm 2) []]]]).
    split; [discriminate|]. split; auto. split; [vm_compute in E; injection E as <- <-; vm_compute; reflexivity|]. simpl. lia.
Qed.
Example C62_standard_result : match mutate_standard ar (fun t n => t) (fun t => Nat.odd t) fns tms 100 3 hx 8 x1 1 0 with Ok (h', _, x', _) => snap 100 h' (fst x') | Err _ => None end
  = Some (Tr VLin [Tr (VFun Add) [Tr (VFun Add) [Tr (VTerm 2) []; Tr (VTerm 0) []]; Tr (VTerm 1) []]]).
Proof. vm_compute. reflexivity. Qed.
Example C62_standard_example : exists need, forall fuel, need <= fuel -> exists h' next' x' q' t', mutate_standard ar (fun t n => t) (fun t => Nat.odd t) fns tms fuel 3 hx 8 x1 1 0 = Ok (h', next', x', q') /\ individual ar fns tms (read h' t') /\ depth_within 3 (read h' t').
Proof.
  destruct (C62_standard_mutation ar fns tms (fun t n => t) (fun t => Nat.odd t) 3 hx 8 x1 t1 1 0 held1) as (need & H).
  { simpl. intros i Hi. intuition lia. } { apply ind1. } { simpl; lia. } { discriminate. } { discriminate. }
  { intros n s A. destruct (at_level_isub hx t1 n s A) as (y & Sy & _). destruct y as [i ki]. rewrite <- (up_to_date_isub hx t1 (snd x1) i ki n (proj2 held1) Sy). assert (Hi : In i (ids t1)) by (apply (isub_ids _ _ _ Sy); simpl; auto). simpl in Hi. intuition (subst; simpl; lia). }
  exists need. intros fuel Hn. destruct (H fuel Hn) as (h' & n' & x' & q' & t' & E & _ & _ & A & B & _). exists h', n', x', q', t'. auto.
Qed.
Example C62_mono_example : exists h' x' t', mutate_mono 100 hy xy 0 1 = Ok (h', x') /\ held h' x' t' /\ individual ar fns tms (read h' t').
Proof.
  destruct (C62_mono_parental_partial ar fns tms 100 hy xy ty 0 1 heldy indy) as (h' & x' & t' & E & _ & A & B & _); [simpl; lia|lia|simpl; lia|simpl; lia|]. exists h', x', t'. auto.
Qed.
End Examples.

Print Assumptions C60_grown_trees.
Print Assumptions C60_new_individual.
Print Assumptions C61_crossover.
Print Assumptions C61_exchange.
Print Assumptions C92_height_fair_keeps_depth.
Print Assumptions C92_standard_depth_refuted.
Print Assumptions C93_no_exchange_between_individuals.
Print Assumptions C62_standard_mutation.
Print Assumptions C62_mono_parental_partial.
Print Assumptions C62_small_mutation_partial.
Print Assumptions C62_small_mutation_refuted.
Print Assumptions C62_mono_parental_refuted.
