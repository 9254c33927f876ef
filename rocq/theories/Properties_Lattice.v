(** C44, C45: the simplex lattice of reference vectors; C39: MOEA/D with the default population size. *)
From Verif Require Import Base M_BaseEA P_BaseEA M_Lattice P_Lattice M_MOEAD P_MOEAD Properties_MOEAD.
From Coq Require Import QArith.
Open Scope nat_scope.

(** Number of k-element subsets of n things, by the falling factorial: the textbook binomial coefficient. *)
Fixpoint falling (n k : nat) : nat := match k with O => 1 | S k' => n * falling (n - 1) k' end.

Lemma binom_falling k : forall n, binom n k * fact k = falling n k.
Proof.
  induction k as [|k IHk]; intros n; [rewrite binom_0; simpl; lia|].
  induction n as [|n IHn]; [reflexivity|].
  change (binom (S n) (S k)) with (binom n k + binom n (S k)).
  change (fact (S k)) with (S k * fact k). change (falling (S n) (S k)) with (S n * falling (S n - 1) k).
  replace (S n - 1) with n by lia. rewrite <- (IHk n).
  change (fact (S k)) with (S k * fact k) in IHn. change (falling n (S k)) with (n * falling (n - 1) k) in IHn.
  assert (E : binom n (S k) * S k = (n - k) * binom n k).
  { assert (F : falling n (S k) = falling n k * (n - k)).
    { clear. revert n; induction k as [|k IH]; intros n; [simpl; lia|].
      change (falling n (S (S k))) with (n * falling (n - 1) (S k)). rewrite (IH (n - 1)).
      change (falling n (S k)) with (n * falling (n - 1) k). replace (n - 1 - k) with (n - S k) by lia. lia. }
    assert (G : binom n (S k) * S k * fact k = (n - k) * binom n k * fact k).
    { rewrite <- Nat.mul_assoc. change (falling n (S k)) with (n * falling (n - 1) k) in F. rewrite IHn, F, <- (IHk n). lia. }
    pose proof (lt_O_fact k). nia. }
  destruct (Nat.le_gt_cases k n) as [Hk|Hk].
  - transitivity ((binom n k * S k + binom n (S k) * S k) * fact k); [lia|]. rewrite E.
    replace (binom n k * S k + (n - k) * binom n k) with (S n * binom n k); [lia|].
    replace (S n) with (S k + (n - k)) by lia. lia.
  - rewrite (binom_gt n k) in * by auto. rewrite (binom_gt n (S k)) in * by lia. lia.
Qed.

(** C44. Two or more objectives: the integer weights are exactly the ways to write the resolution as an ordered sum of
    one natural number per objective, each once, and there are binomial(h+m-1, m-1) of them. *)
Theorem C44_lattice_complete (h n_obj : nat) : 2 <= n_obj ->
  exists ws, lattice_weights h n_obj = Ok ws /\ NoDup ws /\
    length ws * fact (n_obj - 1) = falling (h + n_obj - 1) (n_obj - 1) /\
    forall w : list Z, In w ws <->
      length w = n_obj /\ Forall (fun z => (0 <= z)%Z) w /\ fold_right Z.add 0%Z w = Z.of_nat h.
Proof.
  intros H. destruct (lattice_weights_spec h n_obj H) as (ws & E & L & N & S). exists ws.
  split; auto. split; auto. split; [rewrite L; apply binom_falling|].
  intros w. rewrite S. rewrite Forall_forall. unfold zsum. tauto.
Qed.

(** C44. The values (before normalisation) are those weights divided by a positive resolution: a vector v of numbers is in the
    set iff all its entries are k/h with natural k, and they sum to 1. *)
Theorem C44_values_sum_to_one (h n_obj : nat) : 2 <= n_obj -> 1 <= h ->
  exists vs, lattice_values h n_obj = Ok vs /\ length vs = binom (h + n_obj - 1) (n_obj - 1) /\
    forall v, In v vs <-> exists w : list Z, length w = n_obj /\ Forall (fun z => (0 <= z)%Z) w /\
      v = map (fun z => Some (z # Pos.of_nat h)%Q) w /\
      (fold_right Qplus 0 (map (fun z => (z # Pos.of_nat h)) w) == 1)%Q.
Proof.
  intros H Hh. destruct (lattice_weights_spec h n_obj H) as (ws & E & L & N & S).
  unfold lattice_values. rewrite E; cbn [bind]. replace (Nat.eqb h 0) with false by (symmetry; apply Nat.eqb_neq; lia).
  eexists; split; [reflexivity|]. split; [rewrite map_length; auto|].
  assert (G : forall l, (fold_right Qplus 0 (map (fun z => z # Pos.of_nat h) l) == zsum l # Pos.of_nat h)%Q).
  { induction l as [|z l IH]; cbn [map fold_right]; [unfold zsum; simpl; reflexivity|].
    rewrite IH. unfold Qeq, Qplus, zsum; cbn [Qnum Qden fold_right]. rewrite Pos2Z.inj_mul. ring. }
  assert (P : Z.pos (Pos.of_nat h) = Z.of_nat h) by (destruct h; [lia|]; rewrite <- Pos.of_nat_succ; lia).
  intros v. rewrite in_map_iff. split.
  - intros (w & <- & Hw). apply S in Hw. destruct Hw as (W1 & W2 & W3).
    exists w. split; auto. split; [apply Forall_forall; auto|]. split; auto.
    rewrite G, W3. unfold Qeq; cbn [Qnum Qden]. lia.
  - intros (w & W1 & W2 & -> & W3). exists w. split; auto. apply S. split; auto. split; [apply Forall_forall; auto|].
    rewrite G in W3. unfold Qeq in W3; cbn [Qnum Qden] in W3. lia.
Qed.

(** C45. Two or more objectives and at least as many vectors as objectives: the search ends with the largest resolution whose
    lattice is small enough, which is at least 1. *)
Theorem C45_maximal_resolution (n_obj number_of_vectors fuel : nat) : 2 <= n_obj -> n_obj <= number_of_vectors -> number_of_vectors <= fuel ->
  exists h, find_resolution fuel n_obj number_of_vectors = Some h /\ 1 <= h /\
    binom (h + n_obj - 1) (n_obj - 1) <= number_of_vectors /\
    forall h', binom (h' + n_obj - 1) (n_obj - 1) <= number_of_vectors -> h' <= h.
Proof.
  intros Hm Hn Hf. destruct (search_spec n_obj number_of_vectors Hm fuel 0) as (r & R1 & R2 & R3 & R4); auto; [lia|].
  assert (B1 : binom (1 + n_obj - 1) (n_obj - 1) <= number_of_vectors).
  { replace (1 + n_obj - 1) with (S (n_obj - 1)) by lia.
    assert (K : forall k, binom (S k) k = S k).
    { assert (Z : forall k, binom k k = 1). { induction k as [|k IH]; auto. rewrite binom_S_S, IH, binom_gt by lia. lia. }
      induction k as [|k IH]; auto. rewrite binom_S_S, IH, Z. lia. }
    rewrite K. lia. }
  assert (Hr : 1 <= r).
  { destruct r as [|r]; [|lia]. exfalso. apply (Nat.lt_irrefl number_of_vectors). eapply Nat.lt_le_trans; [exact R4|]. exact B1. }
  exists r. split; auto. split; auto. split; [destruct R3; [auto|lia]|].
  intros h' Hh. destruct (Nat.le_gt_cases h' r) as [|Hgt]; auto. exfalso.
  destruct (Nat.eq_dec h' (S r)) as [->|Hne]; [lia|].
  pose proof (lattice_size_mono n_obj (S r) h' Hm). lia.
Qed.

(** C45. A population of exactly one lattice's size gets that lattice back; in particular the default population size of the
    decomposition EAs (C23) yields exactly as many vectors as individuals. *)
Theorem C45_lattice_size_roundtrip (h n_obj fuel : nat) : 2 <= n_obj -> 1 <= h -> binom (h + n_obj - 1) (n_obj - 1) <= fuel ->
  find_resolution fuel n_obj (binom (h + n_obj - 1) (n_obj - 1)) = Some h.
Proof.
  intros Hm Hh Hf. destruct (C45_maximal_resolution n_obj (binom (h + n_obj - 1) (n_obj - 1)) fuel) as (r & R1 & R2 & R3 & R4); auto.
  { destruct h as [|h]; [lia|]. pose proof (lattice_size_mono n_obj 0 (S h) Hm). clear Hf.
    assert (K : n_obj <= binom (1 + n_obj - 1) (n_obj - 1)).
    { assert (K : forall k, binom (S k) k = S k).
      { assert (Z : forall k, binom k k = 1). { induction k as [|k IH]; auto. rewrite binom_S_S, IH, binom_gt by lia. lia. }
        induction k as [|k IH]; auto. rewrite binom_S_S, IH, Z. lia. }
      replace (1 + n_obj - 1) with (S (n_obj - 1)) by lia. rewrite K. lia. }
    destruct (Nat.eq_dec h 0) as [->|]; [exact K|]. pose proof (lattice_size_mono n_obj 1 (S h) Hm). lia. }
  rewrite R1. f_equal. assert (h <= r) by (apply R4; auto).
  destruct (Nat.eq_dec r h) as [|Hne]; auto. pose proof (lattice_size_mono n_obj h r Hm). lia.
Qed.

(** C45 fails outside these bounds: a single objective makes the search run for ever ... *)
Theorem C45_one_objective_refuted (number_of_vectors fuel : nat) : 1 <= number_of_vectors -> find_resolution fuel 1 number_of_vectors = None.
Proof. intros H. apply search_one_objective; auto. Qed.

(** ... and fewer vectors than objectives give resolution 0, for which every vector is NaN. *)
Theorem C45_few_vectors_refuted (n_obj number_of_vectors fuel : nat) : 2 <= n_obj -> number_of_vectors < n_obj -> n_obj <= fuel ->
  find_resolution fuel n_obj number_of_vectors = Some 0 /\
  exists vs, lattice_values 0 n_obj = Ok vs /\ vs <> [] /\ forall v x, In v vs -> In x v -> x = None.
Proof.
  intros Hm Hn Hf. split.
  - destruct (search_spec n_obj number_of_vectors Hm fuel 0) as (r & R1 & R2 & R3 & R4); auto; [lia|lia|].
    unfold find_resolution. rewrite R1. f_equal. destruct R3 as [R3|]; auto.
    destruct r as [|r]; auto. exfalso.
    assert (K : forall k, binom (S k) k = S k).
    { assert (Z : forall k, binom k k = 1). { induction k as [|k IH]; auto. rewrite binom_S_S, IH, binom_gt by lia. lia. }
      induction k as [|k IH]; auto. rewrite binom_S_S, IH, Z. lia. }
    assert (B1 : n_obj <= binom (1 + n_obj - 1) (n_obj - 1)).
    { replace (1 + n_obj - 1) with (S (n_obj - 1)) by lia. rewrite K. lia. }
    destruct (Nat.eq_dec r 0) as [->|]; [lia|]. pose proof (lattice_size_mono n_obj 1 (S r) Hm). lia.
  - destruct (lattice_weights_spec 0 n_obj Hm) as (ws & E & L & N & S).
    unfold lattice_values. rewrite E; cbn [bind Nat.eqb]. eexists; split; [reflexivity|]. split.
    + destruct ws as [|w ws]; [|discriminate]. change (length []) with 0 in L. pose proof (binom_pos (0 + n_obj - 1) (n_obj - 1)). lia.
    + intros v x Hv Hx. apply in_map_iff in Hv. destruct Hv as (w & <- & _). apply in_map_iff in Hx. destruct Hx as (z & <- & _). auto.
Qed.

(** C39 (positive part). With a population of lattice size (such as the default size) MOEA/D's reference vectors match the
    population, and a generation never fails. *)
Theorem C39_lattice_sized_population_partial {M : Type} (fitness : M -> list Q) (SF : list Q -> list Q -> list Q -> Q)
  (argsort : list Q -> list nat) (dist : nat -> nat -> Q) (n_neighbors : nat) (pick : nat -> nat -> nat * nat)
  (offspring : nat -> M -> M -> list M -> M) (new_ideal : list Q -> M -> list Q) (ideal : list Q) (pop : list M)
  (h n_obj fuel : nat) (vectors : list (list Q)) :
  (forall keys, sorts keys (argsort keys)) ->
  (forall i n, 2 <= n -> fst (pick i n) < n /\ snd (pick i n) < n) ->
  2 <= n_neighbors -> 2 <= n_obj -> 1 <= h ->
  length pop = binom (h + n_obj - 1) (n_obj - 1) -> length pop <= fuel ->
  (exists h' vs, find_resolution fuel n_obj (length pop) = Some h' /\ lattice_values h' n_obj = Ok vs /\ length vs = length vectors) ->
  exists s', moead_gen fitness SF vectors (neighborhoods_of argsort dist (length vectors) n_neighbors) pick offspring new_ideal
               (length pop) (ideal, pop) = Ok s'.
Proof.
  intros Ha Hp H1 H2 H3 H4 H5 (h' & vs & F1 & F2 & F3).
  rewrite H4 in F1 at 1. rewrite C45_lattice_size_roundtrip in F1 by (auto; lia). injection F1 as <-.
  destruct (C44_values_sum_to_one h n_obj H2 H3) as (vs' & E & L & _). rewrite E in F2. injection F2 as ->.
  assert (length vectors = length pop) by congruence.
  apply C39_matching_sizes_partial; auto.
  rewrite H4. pose proof (lattice_size_mono n_obj 0 h H2). pose proof (binom_pos (0 + n_obj - 1) (n_obj - 1)). lia.
Qed.

(* Print Assumptions: all closed under the global context. *)
Print Assumptions C44_lattice_complete.
Print Assumptions C44_values_sum_to_one.
Print Assumptions C45_maximal_resolution.
Print Assumptions C45_lattice_size_roundtrip.
Print Assumptions C45_few_vectors_refuted.
Print Assumptions C39_lattice_sized_population_partial.

Example ex_lattice : lattice_weights 2 3 = Ok [[0;0;2];[0;1;1];[0;2;0];[1;0;1];[1;1;0];[2;0;0]]%Z.
Proof. reflexivity. Qed.
Example ex_search : find_resolution 20 3 16 = Some 4.   (* 15 <= 16 < 21 *)
Proof. reflexivity. Qed.
