(** C123: indicator based environmental selection in double precision. *)
From Coq Require Import Reals Lra Psatz.
From Flocq Require Import Core.
From Verif Require Import Base RVec Spec_Indicator M_Indicator P_Indicator M_Double Spec_IndDouble M_IndDouble P_IndDouble.
Open Scope R_scope.

Lemma small_n (n : nat) : (Z.of_nat n <= 2 ^ 51)%Z -> 2 * INR (n + n) * uu <= 1.
Proof.
  intros H. rewrite plus_INR, INR_IZR_INZ. unfold uu. apply IZR_le in H.
  apply Rmult_le_reg_r with (IZR (2 ^ 53)); [apply IZR_lt; reflexivity|].
  rewrite Rmult_assoc, Rinv_l by (apply not_0_IZR; discriminate). 
  change (2 ^ 53)%Z with (4 * 2 ^ 51)%Z. rewrite (mult_IZR 4). lra.
Qed.
Lemma tol_eq (n : nat) B : 4 * INR (n + n) * uu * B = INR n * B / IZR (2 ^ 50).
Proof.
  rewrite plus_INR. unfold uu. change (2 ^ 53)%Z with (8 * 2 ^ 50)%Z. rewrite (mult_IZR 8).
  assert (IZR (2 ^ 50) <> 0) by (apply not_0_IZR; discriminate). field. auto.
Qed.
Lemma near_eq (n : nat) B : 2 * INR (n + n) * uu * B = INR n * B / IZR (2 ^ 51).
Proof.
  rewrite plus_INR. unfold uu. change (2 ^ 53)%Z with (4 * 2 ^ 51)%Z. rewrite (mult_IZR 4).
  assert (IZR (2 ^ 51) <> 0) by (apply not_0_IZR; discriminate). field. auto.
Qed.

(** C123. With every sum rounded, environmental selection still ends with min(pop_size, n) members in their old order; every member removed has,
    among those then present, the smallest from-scratch fitness up to n·B·2^-50, and the fitness values handed to the tournament are within n·B·2^-51
    of the from-scratch ones; [B] bounds the sums of exponentials of the initial population. *)
Theorem C123_nearly_exact {M : Type} (ex : M -> M -> R) (pop_size : nat) (pop : list M) (B : R) :
  (forall a b, double (ex a b)) -> (forall a b, 0 <= ex a b) ->
  0 <= B -> sums_within ex B pop -> (Z.of_nat (length pop) <= 2 ^ 51)%Z ->
  exists pop' fit',
    env_loop_fl ex (length pop) pop_size pop (fitness_assignment_fl ex pop) = Some (Ok (pop', fit')) /\
    length pop' = Nat.min pop_size (length pop) /\ subseq pop' pop /\
    trims_upto ex (INR (length pop) * B / IZR (2 ^ 50)) pop_size pop pop' /\
    length fit' = length pop' /\
    forall i m v, nth_error pop' i = Some m -> nth_error fit' i = Some v ->
      Rabs (v - scratch ex m (without i pop')) <= INR (length pop) * B / IZR (2 ^ 51).
Proof.
  intros Hd Hp HB Hs Hn. pose proof (small_n _ Hn) as Hn'.
  assert (H1 : 2 * INR (length pop) * uu <= 1).
  { rewrite plus_INR in Hn'. pose proof (pos_INR (length pop)). pose proof uu_pos. nra. }
  destruct (env_loop_fl_spec ex Hd Hp B (length pop) (length pop) pop_size HB Hn' pop (fitness_assignment_fl ex pop) (length pop))
    as (pop' & fit' & E & T & L & N).
  - lia.
  - apply assignment_near; auto.
  - auto.
  - lia.
  - rewrite tol_eq in T. destruct (trims_upto_size ex _ _ _ _ T) as [S1 S2].
    exists pop', fit'. split; [exact E|]. split; [exact S1|]. split; [exact S2|]. split; [exact T|]. split; [exact L|].
    intros i m v Hm Hv. destruct (N i m Hm) as (v' & V1 & _ & V3). rewrite Hv in V1. injection V1 as <-.
    rewrite near_eq in V3. exact V3.
Qed.

(** C123. So the rounding changes nothing when no two members of any intermediate population are that close. *)
Theorem C123_exact_when_separated {M : Type} (ex : M -> M -> R) (pop_size : nat) (pop : list M) (B : R) :
  (forall a b, double (ex a b)) -> (forall a b, 0 <= ex a b) ->
  0 <= B -> sums_within ex B pop -> (Z.of_nat (length pop) <= 2 ^ 51)%Z ->
  (forall q i j a b, subseq q pop -> i <> j -> nth_error q i = Some a -> nth_error q j = Some b ->
     INR (length pop) * B / IZR (2 ^ 50) < Rabs (scratch ex a (without i q) - scratch ex b (without j q))) ->
  exists pop' fit',
    env_loop_fl ex (length pop) pop_size pop (fitness_assignment_fl ex pop) = Some (Ok (pop', fit')) /\
    trims_upto ex 0 pop_size pop pop'.
Proof.
  intros Hd Hp HB Hs Hn Hsep.
  destruct (C123_nearly_exact ex pop_size pop B Hd Hp HB Hs Hn) as (pop' & fit' & E & _ & _ & T & _).
  exists pop', fit'. split; [exact E|]. clear E Hs Hn. revert T Hsep. generalize (INR (length pop) * B / IZR (2 ^ 50)) as tol.
  intros tol T. induction T as [q H|q k w q' H1 H2 H3 H4 IH]; intros Hsep.
  - apply tu_done; auto.
  - apply tu_step with k w; auto.
    + intros i m Hm. destruct (Nat.eq_dec i k) as [->|Hne].
      * rewrite H2 in Hm. injection Hm as <-. lra.
      * specialize (H3 i m Hm). specialize (Hsep q k i w m (subseq_refl q) (not_eq_sym Hne) H2 Hm).
        unfold Rabs in Hsep. destruct (Rcase_abs _); lra.
    + apply IH.
      intros q2 i j a b Hq. apply Hsep. eapply subseq_trans; [exact Hq|apply subseq_delete].
Qed.

(** C123 (false of the code). The running values are not the from-scratch values, and the wrong member can go: a small exponential that was added to
    a large one is lost for good, also after the large one has been taken out again. Two copies of a point [true] and one point [false], with
    exp(-I/kappa) = 2^-60 of [true] against [false] and 2^-70 the other way round. Once one copy of [true] is gone the other has the smaller
    from-scratch fitness, but the running value of it is 0, and [false] is removed; the fitness left is even positive. *)
Definition wit_ex (a b : bool) : R :=
  if Bool.eqb a b then 1 else if a then / IZR (2 ^ 60) else / IZR (2 ^ 70).

Lemma fl_id x : double x -> fl x = x.
Proof. intros H. apply round_generic; auto. apply valid_rnd_N. Qed.
Lemma double_bpow e : (-1074 <= e)%Z -> double (bpow radix2 e).
Proof. intros H. apply generic_format_FLT_bpow; [reflexivity|auto]. Qed.
Lemma wit_60 : / IZR (2 ^ 60) = bpow radix2 (-60).
Proof. reflexivity. Qed.
Lemma wit_70 : / IZR (2 ^ 70) = bpow radix2 (-70).
Proof. reflexivity. Qed.
Lemma wit_69 : / IZR (2 ^ 70) + / IZR (2 ^ 70) = bpow radix2 (-69).
Proof.
  change (bpow radix2 (-69)) with (/ IZR (2 ^ 69)). change (2 ^ 70)%Z with (2 * 2 ^ 69)%Z. rewrite (mult_IZR 2), Rinv_mult. lra.
Qed.
Lemma wit_double a b : double (wit_ex a b).
Proof.
  unfold wit_ex. destruct (Bool.eqb a b); [apply (double_bpow 0); lia|].
  destruct a; [rewrite wit_60|rewrite wit_70]; apply double_bpow; lia.
Qed.
Lemma wit_nonneg a b : 0 <= wit_ex a b.
Proof.
  unfold wit_ex. destruct (Bool.eqb a b); [lra|].
  destruct a; left; apply Rinv_0_lt_compat, IZR_lt; reflexivity.
Qed.
Lemma double_opp x : double x -> double (- x).
Proof. apply generic_format_opp. Qed.
Lemma inv_lt1 : / IZR (2 ^ 60) < 1.
Proof.
  apply Rmult_lt_reg_r with (IZR (2 ^ 60)); [apply IZR_lt; reflexivity|].
  rewrite Rinv_l by (apply not_0_IZR; discriminate). rewrite Rmult_1_l. apply IZR_lt. reflexivity.
Qed.
(** 1 + 2^-60 rounds to 1. *)
Lemma fl_one : fl (-1 + - / IZR (2 ^ 60)) = -1.
Proof.
  assert (E : fl (1 + / IZR (2 ^ 60)) = 1).
  { apply Rle_antisym.
    - unfold fl. rewrite <- (Rmult_1_l (1 + _)).
      assert (F : cexp radix2 (FLT_exp (-1074) 53) (1 + / IZR (2 ^ 60)) = (-52)%Z).
      { unfold cexp. rewrite (mag_unique radix2 (1 + / IZR (2 ^ 60)) 1).
        - reflexivity.
        - change (bpow radix2 (1 - 1)) with 1. change (bpow radix2 1) with 2.
          assert (0 < / IZR (2 ^ 60) < 1).
          { split; [apply Rinv_0_lt_compat, IZR_lt; reflexivity|]. apply inv_lt1. }
          rewrite Rabs_pos_eq; lra. }
      rewrite Rmult_1_l. unfold round, F2R, scaled_mantissa. rewrite F. cbn [Fnum Fexp].
      rewrite (Znearest_imp _ _ (2 ^ 52)).
      + change (bpow radix2 (-52)) with (/ IZR (2 ^ 52)). rewrite Rinv_r; [lra|]. apply not_0_IZR; discriminate.
      + change (bpow radix2 (- (-52))) with (IZR (2 ^ 52)).
        replace ((1 + / IZR (2 ^ 60)) * IZR (2 ^ 52) - IZR (2 ^ 52)) with (/ IZR (2 ^ 8)).
        * rewrite Rabs_pos_eq; [|left; apply Rinv_0_lt_compat, IZR_lt; reflexivity].
          apply Rmult_lt_reg_r with (IZR (2 ^ 8)); [apply IZR_lt; reflexivity|].
          rewrite Rinv_l by (apply not_0_IZR; discriminate). change (IZR (2 ^ 8)) with 256. lra.
        * change (2 ^ 60)%Z with (2 ^ 8 * 2 ^ 52)%Z. rewrite (mult_IZR (2 ^ 8)).
          assert (IZR (2 ^ 8) <> 0) by (apply not_0_IZR; discriminate).
          assert (IZR (2 ^ 52) <> 0) by (apply not_0_IZR; discriminate). field. auto.
    - rewrite <- (fl_id 1) at 1 by (apply (double_bpow 0); lia).
      unfold fl. apply round_le; [apply FLT_exp_valid; reflexivity|apply valid_rnd_N|].
      assert (0 < / IZR (2 ^ 60)) by (apply Rinv_0_lt_compat, IZR_lt; reflexivity). lra. }
  replace (-1 + - / IZR (2 ^ 60)) with (- (1 + / IZR (2 ^ 60))) by ring.
  unfold fl in *. rewrite round_NE_opp. rewrite E. reflexivity.
Qed.

Theorem C123_wrong_member_removed_refuted :
  exists (ex : bool -> bool -> R) (pop : list bool),
    (forall a b, double (ex a b)) /\ (forall a b, 0 < ex a b <= 1) /\
    env_loop_fl ex (length pop) 1 pop (fitness_assignment_fl ex pop) = Some (Ok ([true], [/ IZR (2 ^ 60)])) /\
    ~ trims_upto ex 0 1 pop [true] /\ trims_upto ex 0 1 pop [false].
Proof.
  exists wit_ex, [true; true; false].
  assert (P60 : 0 < / IZR (2 ^ 60)) by (apply Rinv_0_lt_compat, IZR_lt; reflexivity).
  assert (P70 : 0 < / IZR (2 ^ 70)) by (apply Rinv_0_lt_compat, IZR_lt; reflexivity).
  assert (P6070 : 2 * / IZR (2 ^ 70) < / IZR (2 ^ 60)).
  { change (2 ^ 70)%Z with (1024 * 2 ^ 60)%Z. rewrite (mult_IZR 1024), Rinv_mult. lra. }
  assert (P1 : / IZR (2 ^ 60) < 1).
  { apply inv_lt1. }
  assert (D1 : double 1) by (apply (double_bpow 0); lia).
  assert (D60 : double (/ IZR (2 ^ 60))) by (rewrite wit_60; apply double_bpow; lia).
  assert (D70 : double (/ IZR (2 ^ 70))) by (rewrite wit_70; apply double_bpow; lia).
  assert (D69 : double (/ IZR (2 ^ 70) + / IZR (2 ^ 70))) by (rewrite wit_69; apply double_bpow; lia).
  assert (Ett : wit_ex true true = 1) by reflexivity.
  assert (Eff : wit_ex false false = 1) by reflexivity.
  assert (Etf : wit_ex true false = / IZR (2 ^ 60)) by reflexivity.
  assert (Eft : wit_ex false true = / IZR (2 ^ 70)) by reflexivity.
  set (a := / IZR (2 ^ 60)) in *. set (b := / IZR (2 ^ 70)) in *.
  assert (FO : fl (-1 + - a) = -1) by apply fl_one.
  assert (F0 : forall x, double x -> fl (0 + - x) = - x).
  { intros x Hx. rewrite Rplus_0_l. apply fl_id, double_opp, Hx. }
  split; [apply wit_double|]. split.
  { intros x y. destruct x, y; rewrite ?Ett, ?Eff, ?Etf, ?Eft; lra. }
  split; [|split].
  - assert (EA : fitness_assignment_fl wit_ex [true; true; false] = [-1; -1; - (b + b)]).
    { unfold fitness_assignment_fl, assign_one_fl.
      cbn [length seq combine map fold_left fst snd Nat.eqb]. rewrite Ett, Etf, Eft.
      rewrite !F0 by auto. change (- (1)) with (-1). rewrite FO.
      replace (- b + - b) with (- (b + b)) by ring. rewrite (fl_id (- (b + b))) by (apply double_opp; auto). reflexivity. }
    rewrite EA. clear EA. cbn [length env_loop_fl Nat.ltb Nat.leb].
    assert (A1 : argmin [-1; -1; - (b + b)] = Some 0%nat).
    { unfold argmin. cbn. repeat (destruct (Rlt_dec _ _); try lra); try reflexivity. }
    rewrite A1. cbn [nth_error]. unfold env_update_fl, delete_row.
    cbn [length seq combine map fst snd Nat.eqb firstn skipn app]. rewrite Ett, Eft.
    replace (-1 + 1) with 0 by ring. rewrite (fl_id 0) by apply generic_format_0.
    replace (- (b + b) + b) with (- b) by ring. rewrite (fl_id (- b)) by (apply double_opp; auto).
    cbn [length Nat.ltb Nat.leb].
    assert (A2 : argmin [0; - b] = Some 1%nat).
    { unfold argmin. cbn. repeat (destruct (Rlt_dec _ _); try lra); try reflexivity. }
    rewrite A2. cbn [nth_error length seq combine map fst snd Nat.eqb firstn skipn app]. rewrite Etf.
    replace (fl (0 + a)) with a by (rewrite Rplus_0_l; symmetry; apply fl_id; auto).
    reflexivity.
  - intros T. inversion T as [q H1|q k w q' H1 H2 H3 H4]; subst; clear T.
    assert (Hk : k = 0%nat \/ k = 1%nat).
    { destruct k as [|[|[|k]]]; auto; [|destruct k; discriminate].
      exfalso. injection H2 as <-. specialize (H3 0%nat true eq_refl).
      unfold scratch, without in H3. cbn [firstn skipn app map rsum] in H3. rewrite Ett, Etf, Eft in H3. lra. }
    assert (H4' : trims_upto wit_ex 0 1 [true; false] [true]).
    { destruct Hk as [-> | ->]; exact H4. }
    clear H1 H2 H3 H4 Hk k w. inversion H4' as [q H1|q k w q' H1 H2 H3 H4]; subst; clear H4'.
    destruct k as [|[|k]]; [| |destruct k; discriminate].
    + unfold without in H4. cbn [firstn skipn app] in H4. inversion H4 as [q H5|q k w' q' H5 H6 H7 H8]; subst.
      cbn [length] in H5. lia.
    + injection H2 as <-. specialize (H3 0%nat true eq_refl).
      unfold scratch, without in H3. cbn [firstn skipn app map rsum] in H3. rewrite Etf, Eft in H3. lra.
  - apply tu_step with 0%nat true.
    + cbn [length]. lia.
    + reflexivity.
    + intros i m Hm. destruct i as [|[|[|i]]]; [| | |destruct i; discriminate]; injection Hm as <-;
        unfold scratch, without; cbn [firstn skipn app map rsum]; rewrite ?Ett, ?Etf, ?Eft; lra.
    + apply tu_step with 0%nat true.
      * unfold without. cbn [firstn skipn app length]. lia.
      * reflexivity.
      * intros i m Hm. unfold without in Hm. cbn [firstn skipn app] in Hm.
        destruct i as [|[|i]]; [| |destruct i; discriminate]; injection Hm as <-;
        unfold scratch, without; cbn [firstn skipn app map rsum]; rewrite ?Ett, ?Etf, ?Eft; lra.
      * apply tu_done. unfold without. cbn [firstn skipn app length]. lia.
Qed.
Print Assumptions C123_nearly_exact.
Print Assumptions C123_exact_when_separated.
Print Assumptions C123_wrong_member_removed_refuted.

(** C123's hypotheses hold for the witness with B = 2: tolerance 3 * 2 * 2^-50. *)
Example ex_within : (forall a b, double (wit_ex a b)) /\ (forall a b, 0 <= wit_ex a b) /\ sums_within wit_ex 2 [true; true; false] /\
  (Z.of_nat (length [true; true; false]) <= 2 ^ 51)%Z.
Proof.
  split; [apply wit_double|]. split; [apply wit_nonneg|]. split.
  - pose proof inv_lt1 as P1. pose proof (wit_nonneg false true) as P2.
    assert (P3 : / IZR (2 ^ 70) <= 1).
    { change (2 ^ 70)%Z with (1024 * 2 ^ 60)%Z. rewrite (mult_IZR 1024), Rinv_mult.
      assert (0 < / IZR (2 ^ 60)) by (apply Rinv_0_lt_compat, IZR_lt; reflexivity). lra. }
    intros i m Hm. destruct i as [|[|[|i]]]; [| | |destruct i; discriminate]; injection Hm as <-;
      unfold without; cbn [firstn skipn app map rsum]; unfold wit_ex; cbn [Bool.eqb]; lra.
  - cbn. discriminate.
Qed.
(** A separated population of two: the exponentials are 1 and 1/2. *)
Definition sep_ex (a b : bool) : R := if a then 1 else / 2.
Example ex_separated : forall q i j a b, subseq q [true; false] -> i <> j -> nth_error q i = Some a -> nth_error q j = Some b ->
  INR (length [true; false]) * 1 / IZR (2 ^ 50) < Rabs (scratch sep_ex a (without i q) - scratch sep_ex b (without j q)).
Proof.
  assert (T : INR (length [true; false]) * 1 / IZR (2 ^ 50) < / 2).
  { cbn [length]. change (INR 2) with 2. apply Rmult_lt_reg_r with (IZR (2 ^ 50)); [apply IZR_lt; reflexivity|].
    unfold Rdiv. rewrite Rmult_assoc, Rinv_l by (apply not_0_IZR; discriminate).
    change (2 ^ 50)%Z with (8 * 2 ^ 47)%Z. rewrite (mult_IZR 8). assert (1 <= IZR (2 ^ 47)) by (apply IZR_le; discriminate). lra. }
  intros q i j a b Hq Hij Ha Hb. apply Rlt_le_trans with (1 := T). clear T.
  assert (Hl : q = [true; false] \/ (length q <= 1)%nat).
  { inversion Hq as [|x l l' H|x l l' H]; subst; inversion H as [|x1 l1 l1' H'|x1 l1 l1' H']; subst; inversion H'; subst; cbn [length]; auto. }
  destruct Hl as [-> | Hl].
  - destruct i as [|[|i]], j as [|[|j]]; try congruence; try (destruct i; discriminate); try (destruct j; discriminate);
      injection Ha as <-; injection Hb as <-; unfold scratch, without, sep_ex; cbn [firstn skipn app map rsum];
      unfold Rabs; destruct (Rcase_abs _); lra.
  - assert (i < length q)%nat by (apply nth_error_Some; congruence). assert (j < length q)%nat by (apply nth_error_Some; congruence). lia.
Qed.
