(** C13, C67, C68 for the whole operators: SBX_xover.do, BP_mutation.do with the default distribution index, EvoNN recombination. *)
From Verif Require Import Base M_Recombination P_Recombination M_NetRecomb Properties_Recombination Properties_NetRecomb.
From Coq Require Import Reals QArith Lra Lia.
Open Scope nat_scope.

(** ** C67 *)
(** What the draws of one gene make of the parents' values x, y. *)
Definition spread_by (ProC DisC : R) (d : sbx_draw) (x y u v : R) : Prop :=
  (u + v = x + y)%R /\
  (ProC < d_pr d -> u = x /\ v = y)%R /\
  (d_pr d <= ProC -> exists b, (0 <= b)%R /\ (if d_neg d then u - v = - (b * (x - y)) else u - v = b * (x - y))%R /\
     (d_miu d <= 1/2 -> b <= 1 /\ is_power b (DisC + 1) (2 * d_miu d) /\ Rmin x y <= u <= Rmax x y /\ Rmin x y <= v <= Rmax x y)%R /\
     (1/2 < d_miu d -> 1 < b /\ is_power b (DisC + 1) (/ (2 - 2 * d_miu d)))%R)%R.

Lemma npow_is_power b e p : (0 <= b)%R -> (0 < e)%R -> npow b e = Some p -> is_power b e p.
Proof.
  intros Hb He H. destruct Hb as [Hb| <-].
  - rewrite npow_pos in H by exact Hb. injection H as <-. right. auto.
  - rewrite npow_zero in H by exact He. injection H as <-. left. auto.
Qed.

Lemma gene_spread ProC DisC d x y : (0 <= d_miu d < 1)%R -> (0 < DisC + 1)%R ->
  exists u v, sbx_gene ProC DisC d x y = (Some u, Some v) /\ spread_by ProC DisC d x y u v.
Proof.
  intros Hm He. set (d1 := mkDraw (d_miu d) false (d_pr d)).
  assert (P : forall D, d_miu D = d_miu d -> d_pr D = d_pr d -> d_neg D = false -> exists b, sbx_beta ProC DisC D = Some b /\ (d_pr d <= ProC -> 0 <= b)%R).
  { intros D E1 E2 E3. unfold sbx_beta. rewrite E1, E2, E3. destruct (Rlt_dec ProC (d_pr d)) as [L|L]; [exists 1%R; split; [reflexivity|intros; lra]|].
    destruct (Rle_dec (d_miu d) (1 / 2)) as [M|M].
    - destruct (npow_unit (2 * d_miu d) (1 / (DisC + 1)) ltac:(lra) ltac:(apply Rdiv_lt_0_compat; lra)) as (r & Er & Hr). exists r. split; [exact Er|lra].
    - rewrite npow_pos by lra. eexists. split; [reflexivity|]. intros _. left. unfold Rpower. apply exp_pos. }
  destruct (P d1 eq_refl eq_refl eq_refl) as (b1 & Eb1 & Hb1).
  destruct (sbx_beta_ok ProC DisC d1 Hm He) as (b & Eb & B1 & _ & B3 & B4). rewrite Eb1 in Eb. injection Eb as <-. cbn [d1 d_miu d_pr] in B1, B3, B4.
  assert (Ed : sbx_beta ProC DisC d = Some (if Rlt_dec ProC (d_pr d) then 1 else if d_neg d then - b1 else b1)%R).
  { revert Eb1. unfold sbx_beta, d1. cbn [d_miu d_neg d_pr]. destruct (Rlt_dec ProC (d_pr d)) as [L|L]; [reflexivity|]. destruct (d_neg d); [|auto]. intros ->. reflexivity. }
  unfold sbx_gene. rewrite Ed. eexists. eexists. split; [reflexivity|]. split; [field|]. destruct (Rlt_dec ProC (d_pr d)) as [L|L].
  - split; [intros _; split; field|intros; lra].
  - assert (L' : (d_pr d <= ProC)%R) by lra. specialize (Hb1 L'). split; [intros; lra|]. intros _. exists b1. split; [exact Hb1|]. split; [destruct (d_neg d); field|].
    assert (Ea : Rabs b1 = b1) by (apply Rabs_pos_eq; exact Hb1). rewrite Ea in B3, B4. split.
    + intros M. destruct (B3 L' M) as [U1 U2]. split; [exact U1|]. split; [apply npow_is_power; auto|].
      unfold Rmin, Rmax. destruct (d_neg d), (Rle_dec x y); split; split; nra.
    + intros M. destruct (B4 L' M) as [U1 U2]. split; [exact U1|]. apply npow_is_power; auto.
Qed.

(** C67. The k-th pair of children of SBX_xover.do: gene by gene, the parents' genes spread by the draws made for that pair and gene. *)
Theorem C67_sbx_operator : forall ProC DisC dr (pop : list (list R)) ids nv off k z1 z2 p q,
  rect nv pop -> unit_draws dr -> (0 < DisC + 1)%R -> in_range (length pop) ids -> sbx_do ProC DisC dr pop ids = Ok off -> 2 * k < length ids ->
  nth_error ids (2 * k) = Some z1 -> nth_error ids ((2 * k + 1) mod (length ids)) = Some z2 -> row_at pop z1 = Some p -> row_at pop z2 = Some q ->
  exists c1 c2, nth_error off (2 * k) = Some (map Some c1) /\ nth_error off (2 * k + 1) = Some (map Some c2) /\ length c1 = nv /\ length c2 = nv /\
    forall j x y u v, nth_error p j = Some x -> nth_error q j = Some y -> nth_error c1 j = Some u -> nth_error c2 j = Some v -> spread_by ProC DisC (dr k j) x y u v.
Proof.
  intros ProC DisC dr pop ids nv off k z1 z2 p q Hr Hd He Hin Hoff Hk E1 E2 R1 R2.
  destruct (proj1 (C10_sbx_pairs ProC DisC dr pop ids nv Hr Hd He) Hin) as (off0 & Eo & _ & P0). rewrite Hoff in Eo. injection Eo as <-.
  destruct (P0 k Hk) as (y1 & y2 & p0 & q0 & c1 & c2 & A1 & A2 & A3 & A4 & A5 & A6 & A7 & A8 & _).
  assert (y1 = z1) by congruence. assert (y2 = z2) by congruence. subst y1 y2. assert (p0 = p) by congruence. assert (q0 = q) by congruence. subst p0 q0. clear A1 A2 A3 A4.
  exists c1, c2. split; [exact A5|]. split; [exact A6|]. split; [exact A7|]. split; [exact A8|].
  destruct (pairing (sbx_pair ProC DisC dr) pop ids Hin) as (off1 & Eo & _ & P1). unfold sbx_do in Hoff. rewrite Hoff in Eo. injection Eo as <-.
  destruct (P1 k Hk) as (y1 & y2 & p0 & q0 & A1 & A2 & A3 & A4 & B5 & B6). assert (y1 = z1) by congruence. assert (y2 = z2) by congruence. subst y1 y2. assert (p0 = p) by congruence. assert (q0 = q) by congruence. subst p0 q0.
  rewrite A5 in B5. rewrite A6 in B6. injection B5 as B5. injection B6 as B6. unfold sbx_pair in B5, B6. cbn [fst snd] in B5, B6.
  intros j x y u v Hx Hy Hu Hv. destruct (gene_spread ProC DisC (dr k j) x y (Hd k j) He) as (u' & v' & Eg & Sp).
  pose proof (sbx_row_nth ProC DisC (dr k) p 0 q j x y Hx Hy) as N. rewrite Nat.add_0_l, Eg in N.
  assert (U : nth_error (map Some c1) j = Some (Some u')) by (rewrite B5, nth_error_map, N; reflexivity).
  assert (V : nth_error (map Some c2) j = Some (Some v')) by (rewrite B6, nth_error_map, N; reflexivity).
  rewrite nth_error_map, Hu in U. rewrite nth_error_map, Hv in V. injection U as ->. injection V as ->. exact Sp.
Qed.

(** ** C13 *)
(** The quantity of which polynomial mutation takes the 21st root: [s] is the gene's position in its range. *)
Definition radicand (miu s : R) : R := (if Rlt_dec miu (1/2) then 2 * miu + (1 - 2 * miu) * (1 - s) ^ 21 else 2 * (1 - miu) + (2 * miu - 1) * s ^ 21)%R.

Lemma npow_21 x : npow x (20 + 1) = Some (x ^ 21)%R.
Proof.
  unfold npow. destruct (Rlt_dec 0 x) as [L|L].
  - replace (20 + 1)%R with (INR 21) by (simpl; lra). rewrite Rpower_pow by exact L. reflexivity.
  - destruct (Req_EM_T x 0) as [->|N].
    + destruct (Rlt_dec 0 (20 + 1)); [|lra]. f_equal. simpl. lra.
    + rewrite int_part_21. destruct (Req_EM_T (20 + 1) 21) as [_|E]; [|exfalso; apply E; lra]. reflexivity.
Qed.
Lemma root_21_neg x : (x < 0)%R -> npow x (1 / (20 + 1)) = None.
Proof.
  intros H. unfold npow. destruct (Rlt_dec 0 x); [lra|]. destruct (Req_EM_T x 0); [lra|]. rewrite int_part_inv21.
  destruct (Req_EM_T (1 / (20 + 1)) 0) as [E|_]; [|reflexivity]. exfalso. lra.
Qed.
Lemma root_21_pos x : (0 <= x)%R -> exists r, npow x (1 / (20 + 1)) = Some r.
Proof. intros [H| <-]; [rewrite npow_pos by exact H; eauto|]. rewrite npow_zero by lra. eauto. Qed.

Lemma mutated_gene ProM lb ub k miu v : (lb < ub)%R -> (k <= ProM)%R ->
  let s := ((v - lb) / (ub - lb))%R in
  ((radicand miu s < 0)%R -> bp_gene ProM 20 lb ub k miu (Some v) = None) /\
  ((0 <= radicand miu s)%R -> exists w, bp_gene ProM 20 lb ub k miu (Some v) = Some w /\ (lb <= w <= ub)%R).
Proof.
  intros Hb Hk s. unfold bp_gene, radicand. cbn [obind]. destruct (Req_EM_T (ub - lb) 0) as [Z0|_]; [lra|]. cbn [obind]. fold s.
  destruct (Rle_dec k ProM) as [_|N]; [|lra]. destruct (Rlt_dec miu (1/2)) as [M|M]; rewrite npow_21; cbn [obind].
  - split; intros Hr.
    + rewrite root_21_neg by exact Hr. reflexivity.
    + destruct (root_21_pos _ Hr) as (r & ->). cbn [obind]. destruct (clamps_in lb ub (v + (ub - lb) * (r - 1)) ltac:(lra)) as (w & Ew & Hw & _). eauto.
  - replace (2 * (miu - 1/2))%R with (2 * miu - 1)%R by lra. split; intros Hr.
    + rewrite root_21_neg by exact Hr. reflexivity.
    + destruct (root_21_pos _ Hr) as (r & ->). cbn [obind]. destruct (clamps_in lb ub (v + (ub - lb) * (1 - r)) ltac:(lra)) as (w & Ew & Hw & _). eauto.
Qed.
Lemma radicand_inside miu s : (0 <= miu < 1)%R -> (radicand miu s < 0)%R -> ((miu < 1/2)%R /\ (1 < s)%R) \/ ((1/2 <= miu)%R /\ (s < 0)%R).
Proof.
  intros Hm. unfold radicand. destruct (Rlt_dec miu (1/2)) as [M|M]; intros H; [left|right]; (split; [lra|]).
  - apply Rnot_le_lt. intros L. assert (0 <= (1 - s) ^ 21)%R by (apply pow_le; lra). nra.
  - apply Rnot_le_lt. intros L. assert (0 <= s ^ 21)%R by (apply pow_le; lra). nra.
Qed.

(** C13 (partial). BP_mutation.do with the default distribution index, applied to any matrix of numbers: same shape; a gene that is not mutated is clamped into its bounds;
    a mutated gene is in bounds unless it lay beyond the bound it is moved away from, so far that the radicand is negative: then, and only then, it becomes NaN. *)
Theorem C13_mutation_operator_partial : forall ProM dr lbs ubs (m : list (list R)), unit_pairs dr -> bounds_ok lbs ubs -> (forall r, In r m -> length r = length lbs) ->
  exists m', bp_do ProM 20 dr lbs ubs (map (map Some) m) = Ok m' /\ length m' = length m /\
    forall i r, nth_error m i = Some r -> exists r', nth_error m' i = Some r' /\ length r' = length lbs /\
      forall j l u v, nth_error lbs j = Some l -> nth_error ubs j = Some u -> nth_error r j = Some v -> exists x', nth_error r' j = Some x' /\
        let s := ((v - l) / (u - l))%R in let miu := snd (dr i j) in
        (ProM < fst (dr i j) -> x' = Some (Rmin u (Rmax l v)))%R /\
        (fst (dr i j) <= ProM -> (x' = None <-> radicand miu s < 0) /\ (x' = None -> (miu < 1/2 /\ u < v) \/ (1/2 <= miu /\ v < l)))%R /\
        (forall w, x' = Some w -> (l <= w <= u)%R).
Proof.
  intros ProM dr lbs ubs m Hd [Lb Hb] Hr. unfold bp_do.
  assert (F : forallb (fun r : list (option R) => Nat.eqb (length r) (length lbs) && Nat.eqb (length r) (length ubs)) (map (map Some) m) = true).
  { apply forallb_forall. intros r H. apply in_map_iff in H. destruct H as (r0 & <- & H0). rewrite map_length, <- Lb, (Hr r0 H0), Nat.eqb_refl. auto. }
  rewrite F. eexists. split; [reflexivity|]. split; [rewrite bp_rows_length, map_length; reflexivity|]. intros i r Hi.
  assert (Lr : length r = length lbs) by (apply Hr; eapply nth_error_In; eauto).
  eexists. split; [apply bp_rows_nth; rewrite nth_error_map, Hi; reflexivity|]. rewrite Nat.add_0_l. split; [rewrite bp_row_length; rewrite map_length; congruence|].
  intros j l u v Hl Hu Hv. assert (Blu := Hb j l u Hl Hu).
  assert (Nv : nth_error (map Some r) j = Some (Some v)) by (rewrite nth_error_map, Hv; reflexivity).
  exists (bp_gene ProM 20 l u (fst (dr i j)) (snd (dr i j)) (Some v)). split; [apply (bp_row_nth ProM 20 (dr i) lbs 0 ubs (map Some r) j l u (Some v) Hl Hu Nv)|]. cbv zeta.
  destruct (bp_gene_any ProM 20 l u (fst (dr i j)) (snd (dr i j)) (Some v) ltac:(lra)) as [A1 A2]. split; [intros H; apply A2; [exact H|reflexivity]|]. split.
  - intros Hk. destruct (mutated_gene ProM l u (fst (dr i j)) (snd (dr i j)) v Blu Hk) as [B1 B2]. cbv zeta in B1, B2.
    assert (Iff : bp_gene ProM 20 l u (fst (dr i j)) (snd (dr i j)) (Some v) = None <-> (radicand (snd (dr i j)) ((v - l) / (u - l)) < 0)%R).
    { split; [|exact B1]. intros E. apply Rnot_le_lt. intros L. destruct (B2 L) as (w & Ew & _). congruence. }
    split; [exact Iff|]. intros E. apply Iff in E. apply radicand_inside in E; [|apply Hd]. assert (Es : ((u - l) * ((v - l) / (u - l)) = v - l)%R) by (field; lra).
    destruct E as [[E1 E2]|[E1 E2]]; [left|right]; (split; [exact E1|]); set (s := ((v - l) / (u - l))%R) in *; nra.
  - intros w Ew. destruct A1 as [A1|(w' & A1 & A3)]; [congruence|]. rewrite Ew in A1. injection A1 as ->. exact A3.
Qed.

(** ** C68 *)
(** C68 for EvoNN: where the inherited weight is 0 (the parents' weights at a node and input are both 0, or the one the child inherits is), the child's weight is 0. *)
Theorem C68_evonn_zero_stays_zero : forall cur total strength pop dr (ms : list (nat * nat)) nodes inputs,
  (0 < total)%Z -> (0 <= cur <= total)%Z -> uniform_nets nodes inputs pop -> valid_pairs pop ms ->
  exists off, evonn_gaussian cur total strength pop dr (Ids2 ms) = Ok off /\ length off = 2 * length ms /\
    forall k i j a b, nth_error ms k = Some (i, j) -> nth_error pop i = Some a -> nth_error pop j = Some b ->
      exists u v, nth_error off (2 * k) = Some u /\ nth_error off (2 * k + 1) = Some v /\
        forall c n w1 w2, weight a c n = Some w1 -> weight b c n = Some w2 -> exists w1' w2', weight u c n = Some w1' /\ weight v c n = Some w2' /\
          (nn_ex (dr k) c = false -> ((w1 == 0)%Q -> (w1' == 0)%Q) /\ ((w2 == 0)%Q -> (w2' == 0)%Q)) /\
          (nn_ex (dr k) c = true -> ((w2 == 0)%Q -> (w1' == 0)%Q) /\ ((w1 == 0)%Q -> (w2' == 0)%Q)).
Proof.
  intros cur total strength pop dr ms nodes inputs Ht Hc Hu Hv.
  assert (Z0 : forall o w w', scaled_by o w w' -> (w == 0)%Q -> (w' == 0)%Q).
  { intros [q|] w w' E Hw; cbn [scaled_by] in E; subst w'; [rewrite Hw; ring|exact Hw]. }
  destruct (C16_evonn_architecture cur total pop (fun k => gauss_draw (nn_std cur total) strength (dr k)) ms nodes inputs Ht Hc Hu Hv) as (off & E & L & P).
  exists off. split; [exact E|]. split; [exact L|]. intros k i j a b Hk Ha Hb. destruct (P k i j Hk) as (a0 & b0 & u & v & A1 & A2 & A3 & A4 & _ & _ & A5).
  assert (a0 = a) by congruence. assert (b0 = b) by congruence. subst a0 b0. exists u, v. split; [exact A3|]. split; [exact A4|]. intros c n w1 w2 W1 W2.
  assert (Hn : c < nodes).
  { unfold weight in W1. destruct (nth_error a c) eqn:Ec; [|discriminate]. destruct (Hu a) as [La _]; [eapply nth_error_In; eauto|]. rewrite <- La. apply nth_error_Some. congruence. }
  destruct (A5 c Hn) as (x & y & x' & y' & X1 & X2 & X3 & X4 & _ & _ & X5). unfold weight in W1, W2. rewrite X1 in W1. rewrite X2 in W2.
  destruct (X5 n w1 w2 W1 W2) as (w1' & w2' & Y1 & Y2 & Y3 & Y4). exists w1', w2'. unfold weight. rewrite X3, X4. split; [exact Y1|]. split; [exact Y2|]. cbn [gauss_draw nn_ex] in Y3, Y4. split; intros Hex.
  - destruct (Y3 Hex) as [S1 S2]. split; eapply Z0; eauto.
  - destruct (Y4 Hex) as [S1 S2]. split; eapply Z0; eauto.
Qed.
Print Assumptions C67_sbx_operator.
Print Assumptions C13_mutation_operator_partial.
Print Assumptions C68_evonn_zero_stays_zero.

(** ** Non-vacuity *)
(** Two genes: the first not mutated and out of bounds, the second mutated from above its upper bound by the smallest draw: clamped, NaN. *)
Example ex_operator : exists x, bp_do (1/2) 20 (fun _ j => match j with 0 => (1, 0) | _ => (1/2, 0) end)%R [0; 0]%R [1; 1]%R [[Some 3; Some 2]]%R = Ok [[Some x; None]] /\ (x = 1)%R.
Proof.
  destruct (C13_mutation_operator_partial (1/2) (fun _ j => match j with 0 => (1, 0) | _ => (1/2, 0) end)%R [0; 0]%R [1; 1]%R [[3; 2]]%R) as (m' & E & L & P).
  { intros i [|j]; cbn; lra. } { split; [reflexivity|]. intros [|[|[|j]]] l u H1 H2; cbn in H1, H2; try discriminate; injection H1 as <-; injection H2 as <-; lra. }
  { intros r [<-|[]]. reflexivity. }
  destruct (P 0 _ eq_refl) as (r' & R1 & R2 & R3). destruct (R3 0 0%R 1%R 3%R eq_refl eq_refl eq_refl) as (x0 & X1 & X2 & _). destruct (R3 1 0%R 1%R 2%R eq_refl eq_refl eq_refl) as (x1 & Y1 & _ & Y2 & _).
  cbn [fst snd] in X2, Y2. destruct (Y2 ltac:(lra)) as [Y3 _]. exists 1%R. split; [|reflexivity].
  destruct m' as [|r0 [|r1 m']]; cbn in L; try discriminate. cbn in R1. injection R1 as ->. destruct r' as [|a [|b [|c r']]]; cbn in R2; try discriminate. cbn in X1, Y1. injection X1 as ->. injection Y1 as ->.
  assert (N : x1 = None). { apply Y3. unfold radicand. destruct (Rlt_dec 0 (1/2)); [|lra]. replace ((2 - 0) / (1 - 0))%R with 2%R by field. replace (1 - 2)%R with (-1)%R by lra. simpl. lra. }
  assert (A : x0 = Some 1%R). { rewrite X2 by lra. f_equal. unfold Rmin, Rmax. destruct (Rle_dec 0 3); [|lra]. destruct (Rle_dec 1 3); lra. }
  subst. exact E.
Qed.
