(** C97: what a preference does to the directions of the reference vectors. *)
From Verif Require Import Base RVec M_APD M_BaseEA M_Lattice M_RefVec P_RefVec P_RefVec5.
From Coq Require Import Reals Lra.
Open Scope R_scope.

(** Reference point. Let [d] be the unit vector in the direction of the reference point as seen from the ideal point, in fitness space (mult: -1 for maximised objectives).
    Afterwards there is one vector for every initial vector, in order, followed by the axis vectors; the i-th makes no larger angle with [d] than the i-th initial vector did (cosines are
    compared), a strictly smaller one unless that was parallel to [d], and has length one. *)
Theorem C97_reference_point : forall (s : rv) (ref mult ideal d : list R) (k : R) (n : nat),
  length ref = n -> length mult = n -> length ideal = n -> length d = n ->
  (forall v, In v (init_values s) -> length v = n /\ norm v = 1) -> norm d = 1 -> 0 < k ->
  (forall j, (j < n)%nat -> nth j ref 0 * nth j mult 0 - nth j ideal 0 = k * nth j d 0) ->
  exists s', manage s (PrefPoint ref mult ideal) = Ok s' /\ length (values s') = (length (init_values s) + n_obj s)%nat /\
    forall i v, nth_error (init_values s) i = Some v -> exists w, nth_error (values s') i = Some w /\
      dot v d <= dot w d /\ (-1 < dot v d < 1 -> dot v d < dot w d /\ norm w = 1).
Proof.
  intros s ref mult ideal d k n L1 L2 L3 L4 Hv Hd Hk Hr. set (r := vsub (vmap2 Rmult ref mult) ideal).
  assert (Lr : length r = n) by (unfold r; rewrite vsub_length; rewrite vmap2_length; congruence).
  assert (Er : r = vscale k d).
  { apply list_nth_ext; [rewrite vscale_length; congruence|]. intros j Hj. rewrite Lr in Hj. rewrite nth_vscale, <- Hr by auto. unfold r, vsub. rewrite nth_vmap2; [|rewrite vmap2_length; congruence|rewrite vmap2_length; [rewrite L1; auto|congruence]].
    rewrite nth_vmap2; [reflexivity|congruence|rewrite L1; auto]. }
  assert (Nr : norm r = k) by (rewrite Er, norm_scale, Hd, Rabs_right by lra; ring).
  assert (Dr : ref_direction ref mult ideal = d).
  { unfold ref_direction. fold r. rewrite Nr, Er. unfold vscale. rewrite map_map. rewrite <- (map_id d) at 2. apply map_ext. intros x. field. lra. }
  eexists. split; [reflexivity|]. unfold interactive_adapt_3. rewrite Dr.
  set (s1 := normalize_rv _). assert (Ev : values (add_edges s1) = values s1 ++ eye (n_obj s1)) by (apply add_edges_values; unfold s1; apply normalize_unit). rewrite Ev.
  assert (V1 : values s1 = map unit_row (shifted (2/10) d (init_values s))) by reflexivity. split.
  - rewrite app_length, V1. unfold shifted, eye. rewrite !map_length, seq_length. reflexivity.
  - intros i v Hi. exists (unit_row (vadd (vscale (2/10) v) (vscale (1 - 2/10) d))). destruct (Hv v (nth_error_In _ _ Hi)) as (Lv & Nv). split.
    + rewrite nth_error_app1.
      * rewrite V1. unfold shifted. rewrite !nth_error_map, Hi. reflexivity.
      * rewrite V1. unfold shifted. rewrite !map_length. apply nth_error_Some. congruence.
    + apply turned; try lra; congruence.
Qed.

(** Preferred solutions: the same towards the direction [d] of every preferred objective vector z - as seen from the origin of objective space. *)
Theorem C97_preferred_solutions_partial : forall (s : rv) (z : list (list R)) (n_solutions n : nat), z <> [] -> length z <> n_solutions ->
  (forall v, In v (init_values s) -> length v = n /\ norm v = 1) ->
  exists s', manage s (PrefSolutions z n_solutions) = Ok s' /\ length (values s') = (length z * length (init_values s) + n_obj s)%nat /\
    forall i j zi v d k, nth_error z i = Some zi -> nth_error (init_values s) j = Some v -> length d = n -> norm d = 1 -> 0 < k -> zi = vscale k d ->
      exists w, nth_error (values s') (i * length (init_values s) + j) = Some w /\ dot v d <= dot w d /\ (-1 < dot v d < 1 -> dot v d < dot w d /\ norm w = 1).
Proof.
  intros s z m n Hz Hm Hv. eexists. unfold manage, interactive_adapt_1. replace (Nat.eqb (length z) m) with false by (symmetry; apply Nat.eqb_neq; auto).
  replace (Nat.eqb (length z) 0) with false by (symmetry; apply Nat.eqb_neq; destruct z; [congruence|discriminate]). cbn [bind]. split; [reflexivity|].
  set (s1 := normalize_rv _). assert (Ev : values (add_edges s1) = values s1 ++ eye (n_obj s1)) by (apply add_edges_values; unfold s1; apply normalize_unit). rewrite Ev.
  assert (V1 : values s1 = map unit_row (flat_map (fun zi => shifted (2/10) zi (init_values s)) z)) by reflexivity.
  assert (Lf : forall l, length (flat_map (fun zi => shifted (2/10) zi (init_values s)) l) = (length l * length (init_values s))%nat).
  { induction l as [|a l IH]; [reflexivity|]. simpl. rewrite app_length, IH. unfold shifted. rewrite map_length. reflexivity. }
  split.
  - rewrite app_length, V1, map_length, Lf. unfold eye. rewrite map_length, seq_length. reflexivity.
  - intros i j zi v d k Hi Hj Ld Hd Hk Ez. destruct (Hv v (nth_error_In _ _ Hj)) as (Lv & Nv). exists (unit_row (vadd (vscale (2/10) v) (vscale ((1 - 2/10) * k) d))).
    assert (Gn : nth_error (flat_map (fun zi => shifted (2/10) zi (init_values s)) z) (i * length (init_values s) + j) = Some (vadd (vscale (2/10) v) (vscale (1 - 2/10) zi))).
    { clear - Hi Hj. assert (Hl : (j < length (init_values s))%nat) by (apply nth_error_Some; congruence). revert z Hi. induction i as [|i IH]; intros [|a z] Hi; try discriminate.
      - injection Hi as ->. cbn [flat_map]. rewrite nth_error_app1 by (unfold shifted; rewrite map_length; simpl; auto). unfold shifted. simpl. rewrite nth_error_map, Hj. reflexivity.
      - cbn [flat_map]. rewrite nth_error_app2 by (unfold shifted; rewrite map_length; simpl; lia). replace (length (shifted (2/10) a (init_values s))) with (length (init_values s)) by (unfold shifted; rewrite map_length; reflexivity). replace (S i * length (init_values s) + j - length (init_values s))%nat with (i * length (init_values s) + j)%nat by (simpl; lia). apply IH. exact Hi. }
    split.
    + rewrite nth_error_app1.
      * rewrite V1, nth_error_map, Gn, Ez, vscale_vscale. reflexivity.
      * rewrite V1, map_length. apply nth_error_Some. congruence.
    + apply turned; try congruence; [lra|]. apply Rmult_lt_0_compat; lra.
Qed.
(** That origin is not the ideal point, from which selection measures the directions: with a preferred solution (-1, -1) and ideal point (-2, -3/2) the vector (0, 1) is turned away from the solution,
    out of the positive orthant. *)
Theorem C97_preferred_solutions_refuted : exists (s s' : rv) (z ideal : list R) (w : list R),
  init_values s = [[0; 1]] /\ n_obj s = 2%nat /\ (forall j, (j < 2)%nat -> nth j ideal 0 < nth j z 0) /\
  manage s (PrefSolutions [z] 2) = Ok s' /\ nth_error (values s') 0 = Some w /\
  dot w (vsub z ideal) < 0 < dot [0; 1] (vsub z ideal) /\ (forall x, In x w -> x < 0).
Proof.
  set (s := mkRV [[0; 1]] [[0; 1]] [[0; 1]] [[0; 1]] 2 1). eexists s, _, [-1; -1], [-2; -3/2], [-8/10; -6/10].
  split; [reflexivity|]. split; [reflexivity|]. split; [intros [|[|j]] H; simpl; try lra; lia|]. split; [reflexivity|].
  assert (P : vadd (vscale (2/10) [0; 1]) (vscale (1 - 2/10) [-1; -1]) = [-8/10; -6/10]) by (unfold vadd, vscale; simpl; f_equal; [lra|f_equal; lra]).
  assert (Nw : norm [-8/10; -6/10] = 1) by (unfold norm; replace (dot [-8/10; -6/10] [-8/10; -6/10]) with 1 by (simpl; lra); apply sqrt_1).
  split.
  - cbn [add_edges normalize_rv set_rows values planar map flat_map shifted app init_values init_planar nth_error s]. rewrite P. f_equal. rewrite (unit_row_of_unit _ Nw). apply unit_row_of_unit; auto.
  - split; [unfold vsub; simpl; lra|]. intros x [<-|[<-|[]]]; lra.
Qed.

(** Preferred ranges: for a Latin hypercube sample of the unit cube, every new vector is a multiple of a point within the ranges (normalised unless it is the origin); the axis vectors follow. *)
Theorem C97_preferred_ranges : forall (s : rv) (ranges : list (R * R)) (sample : list (list R)) (n : nat), length ranges = n ->
  (forall u, In u sample -> length u = n /\ forall x, In x u -> 0 <= x <= 1) -> (forall r, In r ranges -> fst r <= snd r) ->
  exists s', manage s (PrefRanges ranges sample) = Ok s' /\ length (values s') = (length sample + n_obj s)%nat /\
    forall i, (i < length sample)%nat -> exists w x c, nth_error (values s') i = Some w /\ length x = n /\
      (forall j lo hi, nth_error ranges j = Some (lo, hi) -> lo <= nth j x 0 <= hi) /\ 0 < c /\ w = vscale c x /\ ((exists y, In y x /\ y <> 0) -> norm w = 1).
Proof.
  intros s ranges sample n L Hs Hr. eexists. split; [reflexivity|]. unfold interactive_adapt_4. set (s1 := normalize_rv _).
  assert (Ev : values (add_edges s1) = values s1 ++ eye (n_obj s1)) by (apply add_edges_values; unfold s1; apply normalize_unit). rewrite Ev.
  assert (V1 : values s1 = map unit_row (map (fun u => vmap2 (fun x r => x * (snd r - fst r) + fst r) u ranges) sample)) by reflexivity. split.
  - rewrite app_length, V1, !map_length. unfold eye. rewrite map_length, seq_length. reflexivity.
  - intros i Hi. destruct (nth_error sample i) as [u|] eqn:Eu; [|apply nth_error_None in Eu; lia]. destruct (Hs u (nth_error_In _ _ Eu)) as (Lu & Hu).
    set (x := vmap2 (fun x r => x * (snd r - fst r) + fst r) u ranges). exists (unit_row x), x, (/ zero_eps (norm x)). split.
    { rewrite nth_error_app1; [rewrite V1, !nth_error_map, Eu; reflexivity|rewrite V1, !map_length; auto]. }
    split; [unfold x; rewrite vmap2_length; congruence|]. split.
    { intros j lo hi Hj. assert (Hl : (j < n)%nat) by (rewrite <- L; apply nth_error_Some; congruence). destruct (nth_error u j) as [y|] eqn:Ey; [|apply nth_error_None in Ey; lia].
      assert (Ex : nth j x 0 = y * (hi - lo) + lo). { apply nth_error_nth. unfold x. rewrite vmap2_nth, Ey, Hj. reflexivity. }
      rewrite Ex. pose proof (Hu y (nth_error_In _ _ Ey)) as (Y1 & Y2). pose proof (Hr _ (nth_error_In _ _ Hj)) as Hb. simpl in Hb. split.
      - assert (0 <= y * (hi - lo)) by (apply Rmult_le_pos; lra). lra.
      - assert (y * (hi - lo) <= 1 * (hi - lo)) by (apply Rmult_le_compat_r; lra). lra. }
    pose proof (norm_nonneg x) as Nx. split.
    { apply Rinv_0_lt_compat. unfold zero_eps. destruct (Req_EM_T (norm x) 0); [apply eps_pos|lra]. }
    split; [unfold unit_row, vscale; apply map_ext; intros y; unfold Rdiv; ring|]. intros (y & Hy & Hn). apply (unit_row_unit x y Hy Hn).
Qed.
(** The sample is as large as the current set, axis vectors included: with every preferred-ranges interaction the set grows by the number of objectives, for good. *)
Theorem C97_ranges_grow : forall (lhs : nat -> list (list R)) (rs : list (list (R * R))) (s : rv), (forall m, length (lhs m) = m) -> n_vec s = length (values s) ->
  let s' := fold_left (fun s r => interact s (inl (PrefRanges r (lhs (n_vec s))))) rs s in
  length (values s') = (length (values s) + length rs * n_obj s)%nat.
Proof.
  intros lhs rs s H. revert s. induction rs as [|r rs IH]; intros s Hs; [simpl; lia|]. cbn [fold_left length].
  set (s1 := interact s (inl (PrefRanges r (lhs (n_vec s))))). assert (V : length (values s1) = (length (values s) + n_obj s)%nat /\ n_vec s1 = length (values s1) /\ n_obj s1 = n_obj s).
  { assert (Lv : length (values s1) = (length (values s) + n_obj s)%nat).
    { unfold s1, interact, manage, interactive_adapt_4, add_edges, normalize_rv, set_rows. cbn [bind values planar n_obj]. rewrite !map_length, app_length, !map_length, H, Hs. unfold eye. rewrite map_length, seq_length. reflexivity. }
    split; [exact Lv|]. split; [|reflexivity]. unfold s1, interact, manage, interactive_adapt_4, add_edges, normalize_rv, set_rows. cbn [bind values planar n_obj n_vec]. rewrite !map_length. reflexivity. }
  destruct V as (V1 & V2 & V3). specialize (IH s1 V2). cbn zeta in IH. rewrite IH, V1, V3. lia.
Qed.

(** Non-vacuity. *)
Example C97_reference_example : exists s', manage (mkRV [[0; 1]] [[0; 1]] [[0; 1]] [[0; 1]] 2 1) (PrefPoint [3; 1] [1; 1] [1; 1]) = Ok s' /\ exists w, nth_error (values s') 0 = Some w /\ 0 < dot w [1; 0] /\ norm w = 1.
Proof.
  destruct (C97_reference_point (mkRV [[0; 1]] [[0; 1]] [[0; 1]] [[0; 1]] 2 1) [3; 1] [1; 1] [1; 1] [1; 0] 2 2) as (s' & E & _ & H); try reflexivity.
  - intros v [<-|[]]. split; [reflexivity|]. unfold norm. replace (dot [0; 1] [0; 1]) with 1 by (simpl; lra). apply sqrt_1.
  - unfold norm. replace (dot [1; 0] [1; 0]) with 1 by (simpl; lra). apply sqrt_1.
  - lra.
  - intros [|[|j]] Hj; simpl; try lra; lia.
  - exists s'. split; auto. destruct (H 0%nat [0; 1] eq_refl) as (w & Hw & _ & H2). exists w. split; auto. replace (dot [0; 1] [1; 0]) with 0 in H2 by (simpl; lra). destruct H2 as (H2 & H3); [lra|]. split; auto.
Qed.
Example C97_ranges_example : exists s', manage (mkRV [[0; 1]] [[0; 1]] [[0; 1]] [[0; 1]] 2 1) (PrefRanges [(1, 2); (3, 3)] [[1/2; 1]]) = Ok s' /\ length (values s') = 3%nat.
Proof.
  destruct (C97_preferred_ranges (mkRV [[0; 1]] [[0; 1]] [[0; 1]] [[0; 1]] 2 1) [(1, 2); (3, 3)] [[1/2; 1]] 2 eq_refl) as (s' & E & L & _).
  - intros u [<-|[]]. split; [reflexivity|]. intros x [<-|[<-|[]]]; lra.
  - intros r [<-|[<-|[]]]; simpl; lra.
  - exists s'. split; auto.
Qed.
Example C97_solutions_example : exists s', manage (mkRV [[0; 1]] [[0; 1]] [[0; 1]] [[0; 1]] 2 1) (PrefSolutions [[2; 0]] 5) = Ok s' /\ exists w, nth_error (values s') 0 = Some w /\ 0 < dot w [1; 0] /\ norm w = 1.
Proof.
  destruct (C97_preferred_solutions_partial (mkRV [[0; 1]] [[0; 1]] [[0; 1]] [[0; 1]] 2 1) [[2; 0]] 5 2) as (s' & E & _ & H); try discriminate.
  - intros v [<-|[]]. split; [reflexivity|]. unfold norm. replace (dot [0; 1] [0; 1]) with 1 by (simpl; lra). apply sqrt_1.
  - exists s'. split; auto. destruct (H 0%nat 0%nat [2; 0] [0; 1] [1; 0] 2 eq_refl eq_refl eq_refl) as (w & Hw & _ & H2).
    + unfold norm. replace (dot [1; 0] [1; 0]) with 1 by (simpl; lra). apply sqrt_1.
    + lra.
    + unfold vscale. simpl. f_equal; [ring|f_equal; ring].
    + exists w. split; auto. replace (dot [0; 1] [1; 0]) with 0 in H2 by (simpl; lra). destruct H2 as (H2 & H3); [lra|]. split; auto.
Qed.
Print Assumptions C97_reference_point.
Print Assumptions C97_preferred_solutions_partial.
Print Assumptions C97_preferred_solutions_refuted.
Print Assumptions C97_preferred_ranges.
Print Assumptions C97_ranges_grow.
