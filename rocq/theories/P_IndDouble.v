(** Proofs about the indicator fitness in double precision. *)
From Coq Require Import Reals Lra Psatz.
From Flocq Require Import Core Plus_error.
From Verif Require Import Base RVec Spec_Indicator M_Indicator P_Indicator M_Double Spec_IndDouble M_IndDouble.
Open Scope R_scope.

(** Unit roundoff. *)
Definition uu : R := / IZR (2 ^ 53).
Lemma uu_pos : 0 < uu.
Proof. unfold uu. apply Rinv_0_lt_compat. apply IZR_lt. reflexivity. Qed.
Lemma u_ro_uu : Relative.u_ro radix2 53 = uu.
Proof.
  unfold Relative.u_ro, uu. change (bpow radix2 (- (53) + 1)) with (/ IZR (2 ^ 52)).
  change (2 ^ 53)%Z with (2 * 2 ^ 52)%Z. rewrite (mult_IZR 2). rewrite Rinv_mult. reflexivity.
Qed.
Lemma fl_double x : double (fl x).
Proof. apply generic_format_round; [apply FLT_exp_valid; reflexivity|apply valid_rnd_N]. Qed.
Lemma fl_plus_err x y : double x -> double y -> Rabs (fl (x + y) - (x + y)) <= uu * Rabs (x + y).
Proof.
  intros Hx Hy.
  destruct (@FLT_plus_error_N_ex radix2 (-1074) 53 ltac:(reflexivity) (fun x => negb (Z.even x)) x y Hx Hy) as (eps & He & Hr).
  unfold fl. change ZnearestE with (Znearest (fun x => negb (Z.even x))). rewrite Hr. rewrite u_ro_uu in He. pose proof uu_pos as Hu.
  replace ((x + y) * (1 + eps) - (x + y)) with (eps * (x + y)) by ring.
  rewrite Rabs_mult. apply Rmult_le_compat_r; [apply Rabs_pos|].
  apply Rle_trans with (1 := He). apply Rmult_le_reg_r with (1 + uu); [lra|].
  unfold Rdiv. rewrite Rmult_assoc, Rinv_l by lra. nra.
Qed.

Lemma rsum_nonneg {A} (g : A -> R) l : (forall x, 0 <= g x) -> 0 <= rsum (map g l).
Proof. intros H; induction l as [|x t IH]; cbn [map rsum]; [lra|]. specialize (H x). lra. Qed.

(** One operation: an accumulator [acc] within 2k·u·B of [t] and a term [x]; the exact result is at most [B] in absolute value. *)
Lemma op_err acc t x B k : double acc -> double x -> 0 <= B -> Rabs (t + x) <= B ->
  2 * INR k * uu <= 1 -> Rabs (acc - t) <= 2 * INR k * uu * B ->
  Rabs (fl (acc + x) - (t + x)) <= 2 * INR (S k) * uu * B.
Proof.
  intros Ha Hx HB Ht Hk He. pose proof (fl_plus_err acc x Ha Hx) as H. pose proof uu_pos as Hu.
  assert (H1 : Rabs (acc + x) <= B + 2 * INR k * uu * B).
  { replace (acc + x) with ((acc - t) + (t + x)) by ring. apply Rle_trans with (1 := Rabs_triang _ _). lra. }
  assert (H2 : Rabs (acc + x) <= 2 * B) by nra.
  assert (H3 : uu * Rabs (acc + x) <= uu * (2 * B)) by (apply Rmult_le_compat_l; lra).
  replace (fl (acc + x) - (t + x)) with ((fl (acc + x) - (acc + x)) + (acc - t)) by ring.
  apply Rle_trans with (1 := Rabs_triang _ _). rewrite S_INR. nra.
Qed.

Section P.
Context {M : Type} (ex : M -> M -> R).
Hypothesis ex_double : forall a b, double (ex a b).
Hypothesis ex_nonneg : forall a b, 0 <= ex a b.

Lemma rsum_without_le (g : M -> R) (l : list M) k : (forall x, 0 <= g x) -> rsum (map g (without k l)) <= rsum (map g l).
Proof.
  intros Hg. destruct (nth_error l k) as [x|] eqn:E.
  - rewrite (rsum_without _ _ _ _ E). specialize (Hg x). lra.
  - apply nth_error_None in E. unfold without. rewrite firstn_all2, skipn_all2 by lia. rewrite app_nil_r. lra.
Qed.

(** [fit] holds doubles within 2k·u·B of the from-scratch fitness. *)
Definition near (B : R) (k : nat) (pop : list M) (fit : list R) : Prop :=
  length fit = length pop /\
  forall i m, nth_error pop i = Some m -> exists v, nth_error fit i = Some v /\ double v /\
    Rabs (v - scratch ex m (without i pop)) <= 2 * INR k * uu * B.

Lemma near_weaken B k k' pop fit : 0 <= B -> (k <= k')%nat -> near B k pop fit -> near B k' pop fit.
Proof.
  intros HB Hk [L H]. split; auto. intros i m Hm. destruct (H i m Hm) as (v & V1 & V2 & V3). exists v. split; auto. split; auto.
  apply Rle_trans with (1 := V3). apply le_INR in Hk. pose proof uu_pos. 
  apply Rmult_le_compat_r; auto. apply Rmult_le_compat_r; lra.
Qed.

Lemma assign_fold_fl (m : M) i B : 0 <= B -> forall (l : list M) s k acc t,
  2 * INR (k + length l) * uu <= 1 -> double acc -> Rabs (acc - t) <= 2 * INR k * uu * B ->
  t <= 0 -> - t + (if Nat.leb s i then rsum (map (ex m) (without (i - s) l)) else rsum (map (ex m) l)) <= B ->
  let r := fold_left (fun acc p => if Nat.eqb (fst p) i then acc else fl (acc + - ex m (snd p))) (combine (seq s (length l)) l) acc in
  double r /\
  Rabs (r - (t + - (if Nat.leb s i then rsum (map (ex m) (without (i - s) l)) else rsum (map (ex m) l)))) <=
    2 * INR (k + length l) * uu * B.
Proof.
  intros HB. pose proof uu_pos as Hu.
  induction l as [|x l IH]; intros s k acc t Hk Hd He Ht Hb.
  - cbn [length seq combine fold_left]. cbv zeta. split; auto.
    assert (E : (if Nat.leb s i then rsum (map (ex m) (without (i - s) [])) else rsum (map (ex m) [])) = 0).
    { destruct (Nat.leb s i); auto. unfold without. rewrite firstn_nil, skipn_nil. reflexivity. }
    rewrite E. rewrite Nat.add_0_r. replace (t + - 0) with t by ring. exact He.
  - cbn [length seq combine fold_left fst snd] in *.
    assert (Hn : forall y, 0 <= ex m y) by auto.
    destruct (Nat.eqb_spec s i) as [->|Hne].
    + rewrite Nat.leb_refl, Nat.sub_diag in *. change (without 0 (x :: l)) with l in *.
      assert (F : Nat.leb (S i) i = false) by (apply Nat.leb_gt; lia).
      destruct (IH (S i) k acc t) as [R1 R2]; auto.
      * rewrite plus_INR in *. rewrite S_INR in Hk. nra.
      * rewrite F. auto.
      * cbv zeta. split; auto. rewrite F in R2.
        apply Rle_trans with (1 := R2). apply Rmult_le_compat_r; auto. apply Rmult_le_compat_r; [lra|].
        apply Rmult_le_compat_l; [lra|]. apply le_INR. lia.
    + set (rest := if Nat.leb (S s) i then rsum (map (ex m) (without (i - S s) l)) else rsum (map (ex m) l)).
      assert (E : (if Nat.leb s i then rsum (map (ex m) (without (i - s) (x :: l))) else rsum (map (ex m) (x :: l))) = ex m x + rest).
      { unfold rest. destruct (Nat.leb_spec s i) as [Hl|Hl].
        - replace (Nat.leb (S s) i) with true by (symmetry; apply Nat.leb_le; lia).
          replace (i - s)%nat with (S (i - S s)) by lia. unfold without. cbn [firstn skipn app map rsum]. reflexivity.
        - replace (Nat.leb (S s) i) with false by (symmetry; apply Nat.leb_gt; lia). reflexivity. }
      assert (Hrest : 0 <= rest) by (unfold rest; destruct (Nat.leb (S s) i); apply rsum_nonneg; auto).
      rewrite E in *. pose proof (Hn x) as Hx0.
      destruct (IH (S s) (S k) (fl (acc + - ex m x)) (t + - ex m x)) as [R1 R2].
      * replace (S k + length l)%nat with (k + S (length l))%nat by lia. auto.
      * apply fl_double.
      * apply op_err; auto.
        -- apply generic_format_opp. apply ex_double.
        -- apply Rabs_le. lra.
        -- rewrite plus_INR in Hk. pose proof (pos_INR (S (length l))). nra.
      * lra.
      * fold rest. lra.
      * cbv zeta. split; auto. replace (S k + length l)%nat with (k + S (length l))%nat in R2 by lia.
        fold rest in R2. replace (t + - (ex m x + rest)) with (t + - ex m x + - rest) by ring. exact R2.
Qed.

Lemma assignment_near pop B : 0 <= B -> sums_within ex B pop -> 2 * INR (length pop) * uu <= 1 ->
  near B (length pop) pop (fitness_assignment_fl ex pop).
Proof.
  intros HB Hs Hk. unfold fitness_assignment_fl. split.
  - rewrite map_length, combine_length, seq_length. lia.
  - intros i m H. rewrite nth_error_map, nth_error_combine, nth_error_seq, H.
    assert (Hl : (i < length pop)%nat) by (apply nth_error_Some; congruence).
    replace (Nat.ltb i (length pop)) with true by (symmetry; apply Nat.ltb_lt; auto). cbn [option_map fst snd Nat.add].
    eexists. split; [reflexivity|]. unfold assign_one_fl.
    destruct (assign_fold_fl m i B HB pop 0 0 0 0) as [R1 R2].
    + exact Hk.
    + apply generic_format_0.
    + replace (0 - 0) with 0 by ring. rewrite Rabs_R0. change (INR 0) with 0. lra.
    + lra.
    + change (Nat.leb 0 i) with true. cbn iota. rewrite Nat.sub_0_r. specialize (Hs i m H). lra.
    + split; auto. change (Nat.leb 0 i) with true in R2. cbn iota in R2. rewrite Nat.sub_0_r in R2.
      unfold scratch. replace (0 + - rsum (map (ex m) (without i pop))) with (- rsum (map (ex m) (without i pop))) in R2 by ring.
      exact R2.
Qed.

Lemma sums_without B pop k : sums_within ex B pop -> sums_within ex B (without k pop).
Proof.
  intros Hs i m H. pose proof H as H0. rewrite nth_error_without in H.
  destruct (nth_error pop k) as [w|] eqn:Ew.
  - specialize (Hs _ _ H). rewrite (rsum_without _ _ _ _ H0), (rsum_without _ _ _ _ Ew).
    rewrite (rsum_without _ _ _ _ H) in Hs. pose proof (ex_nonneg m w). lra.
  - apply nth_error_None in Ew. assert (E : without k pop = pop).
    { unfold without. rewrite firstn_all2, skipn_all2 by lia. apply app_nil_r. }
    rewrite E in *. apply (Hs i m H0).
Qed.

Lemma step_near B k j pop fit w : 0 <= B -> sums_within ex B pop -> 2 * INR k * uu <= 1 ->
  near B k pop fit -> nth_error pop j = Some w ->
  near B (S k) (without j pop) (without j (env_update_fl ex pop fit j w)).
Proof.
  intros HB Hs Hk [L E] Hw. assert (Hj : (j < length pop)%nat) by (apply nth_error_Some; congruence).
  assert (Lu : length (env_update_fl ex pop fit j w) = length pop).
  { unfold env_update_fl. rewrite map_length, !combine_length, seq_length. lia. }
  split.
  - rewrite !length_without by lia. lia.
  - intros i m H0. pose proof H0 as H. rewrite nth_error_without in H. rewrite nth_error_without.
    set (i' := if Nat.ltb i j then i else S i) in *.
    assert (Hi' : i' <> j) by (unfold i'; destruct (Nat.ltb_spec i j); lia).
    assert (Hl' : (i' < length pop)%nat) by (apply nth_error_Some; congruence).
    destruct (E _ _ H) as (v & V1 & V2 & V3).
    unfold env_update_fl. rewrite nth_error_map, !nth_error_combine, nth_error_seq, H, V1.
    replace (Nat.ltb i' (length pop)) with true by (symmetry; apply Nat.ltb_lt; auto).
    cbn [option_map fst snd Nat.add]. rewrite (proj2 (Nat.eqb_neq j i')) by auto.
    eexists. split; [reflexivity|]. split; [apply fl_double|].
    assert (Es : scratch ex m (without i (without j pop)) = scratch ex m (without i' pop) + ex m w).
    { unfold scratch. rewrite (rsum_without _ _ _ _ H), (rsum_without _ _ _ _ H0), (rsum_without _ _ _ _ Hw). lra. }
    rewrite Es. apply op_err; auto.
    rewrite <- Es. pose proof (sums_without B pop j Hs i m H0) as Hb. unfold scratch.
    rewrite Rabs_Ropp, Rabs_pos_eq; auto. apply rsum_nonneg; auto.
Qed.

Lemma env_loop_fl_spec B n fuel pop_size : 0 <= B -> 2 * INR (n + n) * uu <= 1 -> forall pop fit k,
  (k + length pop <= n + n)%nat -> near B k pop fit -> sums_within ex B pop -> (length pop - pop_size <= fuel)%nat ->
  exists pop' fit', env_loop_fl ex fuel pop_size pop fit = Some (Ok (pop', fit')) /\
    trims_upto ex (4 * INR (n + n) * uu * B) pop_size pop pop' /\ near B (n + n) pop' fit'.
Proof.
  intros HB Hn. pose proof uu_pos as Hu.
  assert (Hle : forall a, (a <= n + n)%nat -> 2 * INR a * uu <= 1).
  { intros a Ha. apply le_INR in Ha. nra. }
  induction fuel as [|fuel IH]; intros pop fit k Hk Hx Hs Hf; cbn [env_loop_fl].
  - replace (Nat.ltb pop_size (length pop)) with false by (symmetry; apply Nat.ltb_ge; lia).
    exists pop, fit. split; auto. split; [apply tu_done; lia|]. apply near_weaken with k; auto. lia.
  - destruct (Nat.ltb_spec pop_size (length pop)) as [Hl|Hl].
    + pose proof Hx as [L E].
      destruct (argmin_some fit) as [j Hj]; [intros ->; simpl in L; lia|]. rewrite Hj.
      assert (Hjl : (j < length pop)%nat) by (rewrite <- L; eapply argmin_lt; eauto).
      destruct (nth_error pop j) as [w|] eqn:Ew; [|apply nth_error_None in Ew; lia].
      destruct (IH (without j pop) (without j (env_update_fl ex pop fit j w)) (S k)) as (pop' & fit' & R1 & R2 & R3).
      { rewrite length_without by auto. lia. }
      { apply step_near; auto. apply Hle. lia. }
      { apply sums_without; auto. }
      { rewrite length_without by auto. lia. }
      exists pop', fit'. split; auto. split; auto.
      apply tu_step with j w; auto.
      intros i m Hm. destruct (argmin_spec _ _ Hj) as (v & V1 & V2 & _).
      destruct (near_weaken B k (n + n) pop fit HB ltac:(lia) Hx) as [_ E'].
      destruct (E' _ _ Ew) as (vw & W1 & _ & W3). destruct (E' _ _ Hm) as (vm & X1 & _ & X3).
      rewrite V1 in W1. injection W1 as <-.
      assert (Hvm : v <= vm) by (apply V2; eapply nth_error_In; eauto).
      apply Rabs_le_inv in W3. apply Rabs_le_inv in X3. lra.
    + exists pop, fit. split; auto. split; [apply tu_done; lia|]. apply near_weaken with k; auto. lia.
Qed.
Lemma trims_upto_size tol pop_size pop pop' : trims_upto ex tol pop_size pop pop' ->
  length pop' = Nat.min pop_size (length pop) /\ subseq pop' pop.
Proof.
  induction 1 as [pop H|pop k w pop' H1 H2 H3 H4 [IH1 IH2]].
  - split; [lia|apply subseq_refl].
  - rewrite length_without in IH1 by (apply nth_error_Some; congruence). split; [lia|].
    eapply subseq_trans; [exact IH2|apply subseq_delete].
Qed.
End P.
