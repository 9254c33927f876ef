(** Proofs about the simplex lattice: stars and bars. *)
From Verif Require Import Base M_BaseEA P_BaseEA M_Lattice.
From Coq Require Import QArith Sorted.
Open Scope nat_scope.

Lemma combinations_length {A} (l : list A) : forall k, length (combinations k l) = binom (length l) k.
Proof.
  induction l as [|x t IH]; intros [|k]; simpl; auto.
  rewrite app_length, map_length, IH, IH. auto.
Qed.

(** Members of the combinations of an interval: strictly increasing lists. *)
Fixpoint incr (lo : nat) (c : list nat) (hi : nat) : Prop :=   (* lo < c0 < c1 < ... < hi *)
  match c with
  | [] => True
  | x :: t => lo < x /\ x < hi /\ incr x t hi
  end.

Lemma incr_weaken lo lo' c hi : lo' <= lo -> incr lo c hi -> incr lo' c hi.
Proof. destruct c; simpl; auto. intros H (H1 & H2 & H3). split; [lia|auto]. Qed.

Lemma In_combinations_seq n : forall a k c, In c (combinations k (seq (S a) n)) <-> length c = k /\ incr a c (S a + n).
Proof.
  induction n as [|n IH]; intros a k c.
  - destruct k as [|k]; simpl.
    + split; [intros [<-|[]]; simpl; auto|]. intros [H _]. destruct c; [auto|discriminate].
    + split; [intros []|]. destruct c as [|x t]; simpl; [intros [H _]; discriminate|]. lia.
  - destruct k as [|k]; cbn [combinations seq].
    + split; [intros [<-|[]]; simpl; auto|]. intros [H _]. destruct c; [left; auto|discriminate].
    + rewrite in_app_iff, in_map_iff, IH. split.
      * intros [(c' & <- & H)|[H1 H2]].
        -- apply IH in H. destruct H as [H1 H2]. simpl. replace (S (a + S n)) with (S (S a) + n) by lia.
           split; [lia|]. split; [lia|]. split; [lia|auto].
        -- split; auto. replace (S a + S n) with (S (S a) + n) by lia. apply incr_weaken with (S a); auto.
      * intros [H1 H2]. destruct c as [|x t]; [discriminate|]. simpl in H2. destruct H2 as (H2 & H3 & H4).
        destruct (Nat.eq_dec x (S a)) as [->|Hn].
        -- left. exists t. split; auto. apply IH. simpl in H1. split; [lia|]. replace (S (S a) + n) with (S (a + S n)) by lia. auto.
        -- right. split; auto. simpl. split; [lia|]. split; [lia|]. replace (S (S (a + n))) with (S (a + S n)) by lia. auto.
Qed.

Lemma NoDup_combinations_seq n : forall a k, NoDup (combinations k (seq (S a) n)).
Proof.
  induction n as [|n IH]; intros a k.
  - destruct k; simpl; repeat constructor; intros [].
  - destruct k as [|k]; cbn [combinations seq]; [constructor; [intros []|constructor]|].
    assert (D : forall c, In c (map (cons (S a)) (combinations k (seq (S (S a)) n))) -> In c (combinations (S k) (seq (S (S a)) n)) -> False).
    { intros c H1 H2. apply in_map_iff in H1. destruct H1 as (c' & <- & _).
      apply In_combinations_seq in H2. destruct H2 as [_ H2]. simpl in H2. lia. }
    revert D. pose proof (IH (S a) (S k)) as N2. pose proof (IH (S a) k) as N1.
    assert (N1' : NoDup (map (cons (S a)) (combinations k (seq (S (S a)) n)))).
    { clear -N1. induction N1 as [|x l Hx HN IHN]; simpl; constructor; auto.
      intros H. apply in_map_iff in H. destruct H as (y & Hy & Hi). injection Hy as ->. contradiction. }
    revert N1'. generalize (map (cons (S a)) (combinations k (seq (S (S a)) n))) as l1.
    intros l1 N1'. induction N1' as [|x l Hx HN IHN]; simpl; intros D; auto.
    constructor.
    + intros H. apply in_app_iff in H. destruct H as [H|H]; [contradiction|]. apply (D x); [left; auto|auto].
    + apply IHN. intros c H1 H2. apply (D c); [right; auto|auto].
Qed.

(** The gaps of a sequence lo < c0 < ... < hi. *)
Fixpoint gaps (lo : nat) (c : list nat) (hi : nat) : list Z :=
  match c with
  | [] => [(Z.of_nat hi - Z.of_nat lo - 1)%Z]
  | x :: t => (Z.of_nat x - Z.of_nat lo - 1)%Z :: gaps x t hi
  end.

Lemma gaps_length c : forall lo hi, length (gaps lo c hi) = S (length c).
Proof. induction c as [|x t IH]; intros; simpl; auto. Qed.

Lemma gaps_inj c : forall c' lo hi, length c = length c' -> gaps lo c hi = gaps lo c' hi -> c = c'.
Proof.
  induction c as [|x t IH]; intros [|y t'] lo hi L E; simpl in *; try discriminate; auto.
  injection E as E1 E2. assert (x = y) by lia. subst y. f_equal. apply IH with x hi; auto.
Qed.

Definition zsum (l : list Z) : Z := fold_right Z.add 0%Z l.

Lemma gaps_spec c : forall lo hi, incr lo c hi -> lo < hi ->
  (forall z, In z (gaps lo c hi) -> (0 <= z)%Z) /\ zsum (gaps lo c hi) = (Z.of_nat hi - Z.of_nat lo - 1 - Z.of_nat (length c))%Z.
Proof.
  induction c as [|x t IH]; intros lo hi H Hl; cbn [gaps incr length] in *.
  - split; [intros z [<-|[]]; lia|]. unfold zsum; cbn [fold_right]. lia.
  - destruct H as (H1 & H2 & H3). destruct (IH _ _ H3 H2) as [P S]. split.
    + intros z [<-|Hz]; [lia|auto].
    + unfold zsum in *; cbn [fold_right]. rewrite S. lia.
Qed.

(** Every composition is the gap list of some sequence. *)
Fixpoint bars (lo : nat) (w : list Z) : list nat :=
  match w with
  | [] => []
  | z :: t => match t with [] => [] | _ => let x := lo + Z.to_nat z + 1 in x :: bars x t end
  end.

Lemma gaps_surj w : forall lo hi, w <> [] -> (forall z, In z w -> (0 <= z)%Z) ->
  zsum w = (Z.of_nat hi - Z.of_nat lo - Z.of_nat (length w))%Z ->
  length (bars lo w) = length w - 1 /\ incr lo (bars lo w) hi /\ gaps lo (bars lo w) hi = w.
Proof.
  induction w as [|z t IH]; intros lo hi Hn Hp Hs; [congruence|].
  destruct t as [|z2 t].
  - unfold zsum in Hs. cbn [fold_right length] in Hs. cbn [bars gaps length incr]. split; auto. split; auto. f_equal. lia.
  - change (bars lo (z :: z2 :: t)) with ((lo + Z.to_nat z + 1) :: bars (lo + Z.to_nat z + 1) (z2 :: t)).
    set (x := lo + Z.to_nat z + 1).
    assert (Hz : (0 <= z)%Z) by (apply Hp; left; auto).
    assert (Hs2 : zsum (z2 :: t) = (Z.of_nat hi - Z.of_nat x - Z.of_nat (length (z2 :: t)))%Z).
    { change (zsum (z :: z2 :: t)) with (z + zsum (z2 :: t))%Z in Hs. cbn [length] in *. unfold x. lia. }
    destruct (IH x hi) as (I1 & I2 & I3); [discriminate| |exact Hs2|].
    { intros y Hy. apply Hp. right; auto. }
    assert (Hx : x < hi).
    { assert (0 <= zsum (z2 :: t))%Z.
      { assert (G : forall l, (forall y, In y l -> (0 <= y)%Z) -> (0 <= zsum l)%Z).
        { induction l as [|y l IHl]; intros G; unfold zsum in *; cbn [fold_right]; [lia|].
          pose proof (G y (or_introl eq_refl)). pose proof (IHl (fun y Hy => G y (or_intror Hy))). lia. }
        apply G. intros y Hy. apply Hp; right; auto. }
      cbn [length] in Hs2. lia. }
    split; [change (length (x :: bars x (z2 :: t))) with (S (length (bars x (z2 :: t)))); rewrite I1; cbn [length]; lia|]. split.
    + cbn [incr]. split; [unfold x; lia|]. split; auto.
    + cbn [gaps]. rewrite I3. f_equal. unfold x. lia.
Qed.

(** The code's rows are the gap lists. *)
Lemma shift_row_from c : forall k, map (fun p => (Z.of_nat (snd p) - Z.of_nat (fst p) - 1)%Z) (combine (seq k (length c)) c) =
  match c with [] => [] | x :: t => (Z.of_nat x - Z.of_nat k - 1)%Z :: map (fun p => (Z.of_nat (snd p) - Z.of_nat (fst p) - 1)%Z) (combine (seq (S k) (length t)) t) end.
Proof. destruct c; intros k; reflexivity. Qed.

Lemma diffs_gaps t : forall x k h n, n = k + length t ->
  diffs (Z.of_nat x - Z.of_nat k - 1)%Z (map (fun p => (Z.of_nat (snd p) - Z.of_nat (fst p) - 1)%Z) (combine (seq (S k) (length t)) t))
  ++ [(Z.of_nat h - last ((Z.of_nat x - Z.of_nat k - 1)%Z :: map (fun p => (Z.of_nat (snd p) - Z.of_nat (fst p) - 1)%Z) (combine (seq (S k) (length t)) t)) 0)%Z]
  = gaps x t (h + n + 2).
Proof.
  induction t as [|y t IH]; intros x k h n Hn; subst n.
  - cbn [length seq combine map diffs app gaps last]. f_equal. lia.
  - cbn [length seq combine map diffs gaps fst snd]. cbn [app]. f_equal; [lia|].
    rewrite <- (IH y (S k) h (k + S (length t))) by lia. reflexivity.
Qed.

Lemma weight_row_gaps h c : c <> [] -> weight_row h (shift_row c) = gaps 0 c (h + length c + 1).
Proof.
  destruct c as [|x t]; [congruence|]. intros _. unfold weight_row, shift_row.
  cbn [length seq combine map fst snd]. rewrite <- (app_comm_cons).
  cbn [gaps]. f_equal.
  replace (h + S (length t) + 1) with (h + length t + 2) by lia.
  rewrite <- (diffs_gaps t x 0 h (length t)) by lia. reflexivity.
Qed.

Lemma lattice_weights_spec h m : 2 <= m ->
  exists ws, lattice_weights h m = Ok ws /\ length ws = binom (h + m - 1) (m - 1) /\ NoDup ws /\
    forall w, In w ws <-> length w = m /\ (forall z, In z w -> (0 <= z)%Z) /\ zsum w = Z.of_nat h.
Proof.
  intros Hm. unfold lattice_weights.
  rewrite combinations_length, seq_length. replace (m + h - 1) with (h + m - 1) by lia.
  rewrite Nat.eqb_refl. cbn [negb].
  replace (Nat.eqb (m - 1) 0) with false by (symmetry; apply Nat.eqb_neq; lia).
  eexists; split; [reflexivity|].
  assert (HC : forall c, In c (combinations (m - 1) (seq 1 (h + m - 1))) <-> length c = m - 1 /\ incr 0 c (h + m)).
  { intros c. rewrite (In_combinations_seq (h + m - 1) 0). replace (1 + (h + m - 1)) with (h + m) by lia. tauto. }
  assert (HW : forall c, In c (combinations (m - 1) (seq 1 (h + m - 1))) -> weight_row h (shift_row c) = gaps 0 c (h + m)).
  { intros c Hc. apply HC in Hc. destruct Hc as [L _]. rewrite weight_row_gaps by (destruct c; simpl in *; [lia|discriminate]).
    f_equal. lia. }
  split; [rewrite map_length, combinations_length, seq_length; auto|]. split.
  - assert (N := NoDup_combinations_seq (h + m - 1) 0 (m - 1)).
    assert (J : forall c c', In c (combinations (m - 1) (seq 1 (h + m - 1))) -> In c' (combinations (m - 1) (seq 1 (h + m - 1))) ->
      weight_row h (shift_row c) = weight_row h (shift_row c') -> c = c').
    { intros c c' H1 H2. rewrite !HW by auto. apply HC in H1. apply HC in H2. apply gaps_inj. lia. }
    revert N J. generalize (combinations (m - 1) (seq 1 (h + m - 1))) as l. clear. induction l as [|c l IH]; intros N J; simpl; [constructor|].
    inversion N; subst. constructor.
    + intros H. apply in_map_iff in H. destruct H as (c' & E & Hi). assert (c' = c) by (apply J; auto; [right; auto|left; auto]). subst; contradiction.
    + apply IH; auto. intros; apply J; auto; right; auto.
  - intros w. rewrite in_map_iff. split.
    + intros (c & <- & Hc). rewrite (HW c Hc). apply HC in Hc. destruct Hc as [L Hi].
      destruct (gaps_spec c 0 (h + m) Hi) as [P S]; [lia|]. split; [rewrite gaps_length; lia|]. split; auto. rewrite S. lia.
    + intros (L & P & S). destruct (gaps_surj w 0 (h + m)) as (B1 & B2 & B3); auto.
      { intros ->; simpl in L; lia. } { rewrite S, L. lia. }
      assert (Hc : In (bars 0 w) (combinations (m - 1) (seq 1 (h + m - 1)))) by (apply HC; split; [lia|auto]).
      exists (bars 0 w). split; auto. rewrite (HW _ Hc). auto.
Qed.

(** ** Resolution search *)
Lemma binom_S_S n k : binom (S n) (S k) = binom n k + binom n (S k).
Proof. reflexivity. Qed.

Lemma lattice_size_incr m r : 2 <= m -> binom (r + m - 1) (m - 1) < binom (S r + m - 1) (m - 1).
Proof.
  intros H. replace (S r + m - 1) with (S (r + m - 1)) by lia. replace (m - 1) with (S (m - 2)) by lia.
  rewrite binom_S_S. pose proof (binom_pos (r + m - 1) (m - 2)). lia.
Qed.

Lemma lattice_size_mono m r r' : 2 <= m -> r < r' -> binom (r + m - 1) (m - 1) < binom (r' + m - 1) (m - 1).
Proof.
  intros Hm H. induction H as [|r' H IH]; [apply lattice_size_incr; auto|].
  pose proof (lattice_size_incr m r' Hm). lia.
Qed.

Lemma lattice_size_gt m r : 2 <= m -> r < binom (r + m - 1) (m - 1).
Proof.
  intros Hm. induction r as [|r IH]; [apply binom_pos; lia|]. pose proof (lattice_size_incr m r Hm). lia.
Qed.

Lemma search_spec m nv : 2 <= m -> forall fuel temp,
  binom (temp + m - 1) (m - 1) <= nv \/ temp = 0 -> nv <= temp + fuel -> 0 < fuel ->
  exists r, search_resolution fuel m nv temp = Some r /\ (temp <= r) /\
    (binom (r + m - 1) (m - 1) <= nv \/ r = 0) /\ nv < binom (S r + m - 1) (m - 1).
Proof.
  intros Hm. induction fuel as [|fuel IH]; intros temp H1 H2 H3; [lia|].
  cbn [search_resolution]. destruct (Nat.ltb_spec nv (binom (temp + 1 + m - 1) (m - 1))) as [Hl|Hl].
  - exists temp. replace (temp + 1 - 1) with temp by lia. split; auto. split; auto. split; auto.
    replace (S temp) with (temp + 1) by lia. auto.
  - pose proof (lattice_size_gt m (temp + 1) Hm).
    destruct (IH (temp + 1)) as (r & R1 & R2 & R3 & R4); [left; auto|lia|lia|].
    exists r. split; auto. split; [lia|auto].
Qed.

Lemma search_one_objective nv : 1 <= nv -> forall fuel temp, search_resolution fuel 1 nv temp = None.
Proof.
  intros H. induction fuel as [|fuel IH]; intros temp; auto. cbn [search_resolution].
  replace (Nat.ltb nv (binom (temp + 1 + 1 - 1) (1 - 1))) with false; [apply IH|].
  symmetry. apply Nat.ltb_ge. change (1 - 1) with 0. rewrite binom_0. auto.
Qed.
