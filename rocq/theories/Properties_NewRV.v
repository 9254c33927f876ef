(** The distance-based interactions of newRV: C108 (interact_v2), C109 (interact_v3). *)
From Verif Require Import Base RVec M_APD M_BaseEA M_Lattice P_Lattice M_RefVec P_RefVec P_RefVec2 P_RefVec3 P_RefVec4 M_NewRV P_NewRV.
From Coq Require Import Reals Lra Lia.
Open Scope R_scope.

(** The shrinking factor for squared sine [q] of the angle to the reference direction, [m] being the largest one in the set. *)
Definition shrink (q m : R) : R := if Req_EM_T q 0 then 0 else 1 / (1 + 5 * (1 / q - 1 / m)).
Lemma shrink_t q D : 0 <= q -> t_factor (sqrt q) D = shrink q (D * D).
Proof.
  intros H. unfold t_factor, shrink. destruct (Req_EM_T (sqrt q) 0) as [E|E]; destruct (Req_EM_T q 0) as [Q|Q]; auto.
  - exfalso. apply Q. apply sqrt_eq_0; auto.
  - exfalso. apply E. rewrite Q. apply sqrt_0.
  - rewrite sqrt_sqrt by auto. auto.
Qed.

(** ** C108. interact_v2 with three objectives. [r]: the direction of the reference point, which must not lie on the third axis; the
    vectors have unit length and are not all parallel to r. Then the call succeeds, keeps the number and order of the vectors and their
    length, turns every vector into the hemisphere of r, and multiplies the sine of its angle to r by shrink(q, m), q being the squared
    sine and m the largest one. *)
Theorem C108_pulled_towards_reference (s : rv) (ref r : list R) :
  length ref = 3%nat -> nth 0 ref 0 <> 0 \/ nth 1 ref 0 <> 0 -> r = map (fun x => x / norm ref) ref ->
  (forall v, In v (values s) -> length v = 3%nat /\ norm v = 1) ->
  (exists v, In v (values s) /\ dot v r * dot v r <> 1) ->
  exists s' m, interact_v2 s ref = Ok (Some s') /\ length (values s') = length (values s) /\
    0 < m <= 1 /\ (forall v, In v (values s) -> 1 - dot v r * dot v r <= m) /\ (exists v, In v (values s) /\ 1 - dot v r * dot v r = m) /\
    (forall i v, nth_error (values s) i = Some v -> exists v' t, nth_error (values s') i = Some v' /\ length v' = 3%nat /\ norm v' = 1 /\
       t = shrink (1 - dot v r * dot v r) m /\ 0 <= t <= 1 /\
       0 <= dot v' r /\ 1 - dot v' r * dot v' r = t * t * (1 - dot v r * dot v r) /\
       Rabs (dot v r) <= dot v' r) /\
    (* nothing else changes *)
    planar s' = planar s /\ init_values s' = init_values s /\ init_planar s' = init_planar s /\ n_obj s' = n_obj s /\ n_vec s' = n_vec s.
Proof.
  intros L H Er Hv He. destruct (v2_spec s ref r (ref_dir ref L H) Er Hv He) as (s' & D & E & HD & D1 & D2 & Ln & P1 & P2 & P3 & P4 & P5 & K).
  exists s', (D * D). split; auto. split; auto. split; [nra|]. split; auto. split; auto. split; [|repeat split; auto].
  intros i v Hi. destruct (K i v Hi) as (v' & t & N1 & L1 & U1 & Et & T & Z & Q). exists v', t. split; auto. split; auto. split; auto.
  assert (B : dot v r * dot v r <= 1).
  { destruct (rotations ref (ref_dir ref L H)) as (Lr & Ur & _). rewrite <- Er in *. destruct (Hv v (nth_error_In _ _ Hi)) as (Lv & Uv). apply unit_abs; auto; congruence. }
  split; [rewrite Et; apply shrink_t; lra|]. split; auto. split; auto. split; auto.
  apply Rsqr_incr_0; [|apply Rabs_pos|auto]. rewrite <- Rsqr_abs. unfold Rsqr. assert (t * t <= 1) by nra. assert (t * t * (1 - dot v r * dot v r) <= 1 * (1 - dot v r * dot v r)) by (apply Rmult_le_compat_r; lra). lra.
Qed.
Print Assumptions C108_pulled_towards_reference.

(** The vectors keep their order of closeness to the reference direction; those at the largest angle keep it (up to the hemisphere), all
    others that do not already point to (or away from) r come strictly closer. *)
Theorem C108_order_kept (s s' : rv) (ref r : list R) :
  length ref = 3%nat -> nth 0 ref 0 <> 0 \/ nth 1 ref 0 <> 0 -> r = map (fun x => x / norm ref) ref ->
  (forall v, In v (values s) -> length v = 3%nat /\ norm v = 1) ->
  (exists v, In v (values s) /\ dot v r * dot v r <> 1) ->
  interact_v2 s ref = Ok (Some s') ->
  (forall i j v w v' w', nth_error (values s) i = Some v -> nth_error (values s) j = Some w ->
     nth_error (values s') i = Some v' -> nth_error (values s') j = Some w' -> Rabs (dot v r) <= Rabs (dot w r) -> dot v' r <= dot w' r) /\
  (forall i v v', nth_error (values s) i = Some v -> nth_error (values s') i = Some v' ->
     (forall w, In w (values s) -> Rabs (dot v r) <= Rabs (dot w r)) -> dot v' r = Rabs (dot v r)) /\
  (forall i v v' w, nth_error (values s) i = Some v -> nth_error (values s') i = Some v' -> In w (values s) ->
     Rabs (dot w r) < Rabs (dot v r) < 1 -> Rabs (dot v r) < dot v' r).
Proof.
  intros L H Er Hv He E. destruct (v2_spec s ref r (ref_dir ref L H) Er Hv He) as (s2 & D & E2 & HD & D1 & D2 & _ & _ & _ & _ & _ & _ & K).
  rewrite E in E2. injection E2 as <-.
  destruct (rotations ref (ref_dir ref L H)) as (Lr & Ur & _). rewrite <- Er in *.
  assert (B : forall v, In v (values s) -> 0 <= 1 - dot v r * dot v r).
  { intros v Hin. destruct (Hv v Hin) as (Lv & Uv). pose proof (unit_abs v r ltac:(congruence) Uv Ur). lra. }
  assert (AS : forall x, Rabs x * Rabs x = x * x) by (intros x; symmetry; apply Rsqr_abs).
  assert (SQ : forall v, In v (values s) -> sqrt (1 - dot v r * dot v r) <= D).
  { intros v Hin. rewrite <- (sqrt_square D) by lra. apply sqrt_le_1_alt. auto. }
  split; [|split].
  - intros i j v w v' w' Hi Hj Hi' Hj' Le.
    destruct (K i v Hi) as (v2 & t & N1 & _ & _ & Et & T & Z & Q). rewrite Hi' in N1. injection N1 as <-.
    destruct (K j w Hj) as (w2 & u & N2 & _ & _ & Eu & U & Z2 & Q2). rewrite Hj' in N2. injection N2 as <-.
    pose proof (B v (nth_error_In _ _ Hi)) as Bv. pose proof (B w (nth_error_In _ _ Hj)) as Bw.
    assert (LL : 1 - dot w r * dot w r <= 1 - dot v r * dot v r).
    { rewrite <- (AS (dot v r)), <- (AS (dot w r)). pose proof (Rabs_pos (dot v r)). nra. }
    assert (UT : u <= t).
    { rewrite Eu, Et. apply t_factor_mono; [split; [apply sqrt_pos|apply sqrt_le_1_alt; auto]| |lra]. apply SQ. apply (nth_error_In _ _ Hi). }
    assert (X : u * u * (1 - dot w r * dot w r) <= t * t * (1 - dot v r * dot v r)).
    { apply Rmult_le_compat; auto; nra. }
    apply Rsqr_incr_0; auto. unfold Rsqr. lra.
  - intros i v v' Hi Hi' Far. destruct (K i v Hi) as (v2 & t & N1 & _ & _ & Et & T & Z & Q). rewrite Hi' in N1. injection N1 as <-.
    assert (DD : 1 - dot v r * dot v r = D * D).
    { apply Rle_antisym; [apply D1, (nth_error_In _ _ Hi)|]. destruct D2 as (w & Hw & <-). specialize (Far w Hw).
      rewrite <- (AS (dot v r)), <- (AS (dot w r)). pose proof (Rabs_pos (dot v r)). nra. }
    rewrite DD in *. rewrite sqrt_square in Et by lra. rewrite t_factor_max in Et by lra. rewrite Et in Q.
    apply Rsqr_inj; auto; [apply Rabs_pos|]. unfold Rsqr. rewrite AS. lra.
  - intros i v v' w Hi Hi' Hw (Lt & L1). destruct (K i v Hi) as (v2 & t & N1 & _ & _ & Et & T & Z & Q). rewrite Hi' in N1. injection N1 as <-.
    pose proof (Rabs_pos (dot w r)) as Pw. pose proof (Rabs_pos (dot v r)) as Pv.
    assert (Q1 : 0 < 1 - dot v r * dot v r). { rewrite <- AS. nra. }
    assert (Q2 : 1 - dot v r * dot v r < D * D). { pose proof (D1 w Hw) as X. rewrite <- AS in X. rewrite <- AS. nra. }
    assert (T1 : t < 1).
    { rewrite Et. apply t_factor_strict. split; [apply sqrt_lt_R0; auto|]. rewrite <- (sqrt_square D) by lra. apply sqrt_lt_1_alt. lra. }
    apply Rsqr_incrst_0; auto. unfold Rsqr. rewrite AS. assert (T2 : t * t < 1) by nra.
    assert (t * t * (1 - dot v r * dot v r) < 1 * (1 - dot v r * dot v r)) by (apply Rmult_lt_compat_r; lra). lra.
Qed.
Print Assumptions C108_order_kept.

(** No result (NaN) for a reference point on the third axis - the preference for one objective alone - or when all vectors are
    parallel to the reference direction, for instance when there is only one and it has been reached. *)
Theorem C108_third_axis_refuted (s : rv) (c : R) :
  (forall v, In v (values s) -> length v = 3%nat) -> interact_v2 s [0; 0; c] = Ok None.
Proof.
  intros Hv. unfold interact_v2. rewrite rotate3_ok; auto.
  assert (N : rotate [0; 0; c] axis3 (values s) = None).
  { destruct (Req_EM_T c 0) as [->|Nc].
    - unfold rotate, normalize1. cbn [dot]. unfold norm. cbn [dot]. replace (0 * 0 + (0 * 0 + (0 * 0 + 0))) with 0 by ring. rewrite sqrt_0.
      destruct (Req_EM_T 0 0); [reflexivity|contradiction].
    - assert (X : norm [0; 0; c] = Rabs c). { unfold norm. cbn [dot]. replace (0 * 0 + (0 * 0 + (c * c + 0))) with (Rsqr c) by (unfold Rsqr; ring). apply sqrt_Rsqr_abs. }
      pose proof (Rabs_pos_lt c Nc) as Pc.
      assert (Y : normalize1 [0; 0; c] = Some [0 / Rabs c; 0 / Rabs c; c / Rabs c]).
      { unfold normalize1. rewrite X. destruct (Req_EM_T (Rabs c) 0); [lra|]. reflexivity. }
      rewrite (rotate_normalized_l _ _ _ _ Y).
      assert (Z : [0 / Rabs c; 0 / Rabs c; c / Rabs c] = axis3 \/ [0 / Rabs c; 0 / Rabs c; c / Rabs c] = map Ropp axis3).
      { unfold axis3. cbn [map]. replace (0 / Rabs c) with 0 by (unfold Rdiv; ring). replace (-0) with 0 by ring.
        destruct (Rcase_abs c) as [Q|Q].
        - right. rewrite Rabs_left by auto. replace (c / - c) with (-1) by (field; lra). reflexivity.
        - left. rewrite Rabs_right by auto. replace (c / c) with 1 by (field; auto). reflexivity. }
      destruct Z as [-> | ->].
      + apply rotate_same.
      + pose proof (rotate_opposite (map Ropp axis3) (values s)) as W. rewrite map_map in W.
        rewrite (map_ext (fun x => - - x) (fun x => x)) in W by (intros; ring). rewrite map_id in W. exact W. }
  rewrite N. reflexivity.
Qed.
Print Assumptions C108_third_axis_refuted.

Theorem C108_all_parallel_refuted (s : rv) (ref r : list R) :
  length ref = 3%nat -> nth 0 ref 0 <> 0 \/ nth 1 ref 0 <> 0 -> r = map (fun x => x / norm ref) ref ->
  values s <> [] -> (forall v, In v (values s) -> length v = 3%nat /\ norm v = 1 /\ dot v r * dot v r = 1) ->
  interact_v2 s ref = Ok None.
Proof.
  intros L H Er N Hv. destruct (rotations ref (ref_dir ref L H)) as (Lr & Ur & f & g & F & _ & Fr & _ & Lf & _ & If & _). rewrite <- Er in *.
  unfold interact_v2. rewrite rotate3_ok; auto; [|intros v Hin; apply Hv; auto]. rewrite F. cbn [rbind]. rewrite translation_nan; [reflexivity| |].
  - intros Q. apply map_eq_nil in Q. apply map_eq_nil in Q. auto.
  - intros w Hw. rewrite map_map in Hw. apply in_map_iff in Hw. destruct Hw as (v & <- & Hin). destruct (Hv v Hin) as (Lv & Uv & P).
    destruct (split3 (f v) (Lf v)) as (w & z & _ & _ & -> & E4 & E5). rewrite <- Fr, If in E4 by congruence. rewrite norm_sq, If, <- norm_sq, Uv, <- E4, P in E5 by auto.
    pose proof (norm_nonneg w). nra.
Qed.
Print Assumptions C108_all_parallel_refuted.

(** Any other number of objectives raises ValueError: the axis is written out for three. *)
Theorem C108_three_objectives_only_refuted (s : rv) (ref : list R) : length ref <> 3%nat \/ (exists v, In v (values s) /\ length v <> 3%nat) ->
  interact_v2 s ref = Err ValueError.
Proof.
  intros H. unfold interact_v2, rotate3.
  replace (Nat.eqb (length ref) 3 && Nat.eqb (length axis3) 3 && forallb (fun v => Nat.eqb (length v) 3) (values s))%bool with false; [reflexivity|].
  symmetry. destruct H as [H|(v & Hin & Hl)].
  - apply Nat.eqb_neq in H. rewrite H. reflexivity.
  - apply Bool.andb_false_iff. right. apply Bool.not_true_iff_false. intros Q. rewrite forallb_forall in Q. apply Hl, Nat.eqb_eq, Q. auto.
Qed.
Print Assumptions C108_three_objectives_only_refuted.

(** ** C109. interact_v3 with three objectives: built afresh from the initial vectors. The result is exactly: every initial vector
    (x, y, z), with both signs of x and y, its first two entries multiplied by t = shrink(x^2 + y^2, m) and the third chosen to give
    unit length, turned by an isometry that takes the third axis to the reference direction - those of them without a negative entry. *)
Theorem C109_vectors_around_reference (s : rv) (ref r : list R) :
  length ref = 3%nat -> nth 0 ref 0 <> 0 \/ nth 1 ref 0 <> 0 -> r = map (fun x => x / norm ref) ref -> n_obj s = 3%nat ->
  (forall v, In v (init_values s) -> length v = 3%nat /\ norm v = 1) ->
  (exists v, In v (init_values s) /\ (nth 0 v 0 <> 0 \/ nth 1 v 0 <> 0)) ->
  exists s' m rot, interact_v3 s ref = Ok (Some s') /\
    (forall v, In v (init_values s) -> nth 0 v 0 * nth 0 v 0 + nth 1 v 0 * nth 1 v 0 <= m) /\
    (exists v, In v (init_values s) /\ nth 0 v 0 * nth 0 v 0 + nth 1 v 0 * nth 1 v 0 = m) /\
    rot [0; 0; 1] = r /\ (forall x y, length x = 3%nat -> length y = 3%nat -> length (rot x) = 3%nat /\ dot (rot x) (rot y) = dot x y) /\
    forall w, In w (values s') <->
      (forall x, In x w -> 0 <= x) /\
      exists a b c e1 e2 t, In [a; b; c] (init_values s) /\ (e1 = 1 \/ e1 = -1) /\ (e2 = 1 \/ e2 = -1) /\ t = shrink (a * a + b * b) m /\
        w = rot [t * (e1 * a); t * (e2 * b); sqrt (1 - t * t * (a * a + b * b))].
Proof.
  intros L H Er No Hv He. destruct (v3_spec s ref r (ref_dir ref L H) Er No Hv He) as (s' & D & rot & E & HD & D1 & D2 & _ & _ & _ & _ & _ & R1 & R2 & R3 & FL & V).
  exists s', (D * D), rot. split; auto. split; auto. split; auto. split; [exact R1|]. split; [intros x y Lx Ly; split; auto|].
  assert (NN : forall w, nonnegative w = true <-> forall x, In x w -> 0 <= x).
  { intros w. unfold nonnegative. rewrite forallb_forall. split; intros Q x Hx; specialize (Q x Hx); destruct (Rlt_dec x 0); auto; try lra; discriminate. }
  assert (FE : forall a b c e1 e2, flipped D e1 e2 [a; b; c] = [shrink (a * a + b * b) (D * D) * (e1 * a); shrink (a * a + b * b) (D * D) * (e2 * b); sqrt (1 - shrink (a * a + b * b) (D * D) * shrink (a * a + b * b) (D * D) * (a * a + b * b))]).
  { intros a b c e1 e2. unfold flipped. cbn [nth]. assert (P : 0 <= a * a + b * b) by nra. rewrite shrink_t by auto.
    f_equal. f_equal. f_equal. f_equal. f_equal. set (k := shrink (a * a + b * b) (D * D)). rewrite <- (sqrt_sqrt (a * a + b * b)) at 3 by auto. ring. }
  intros w. rewrite V, filter_In, in_flat_map, NN. split.
  - intros ((c & Hc & Hw) & Q). split; auto. apply in_map_iff in Hw. destruct Hw as (v & <- & Hin). apply combinations3_in in Hc.
    destruct Hc as (e1 & e2 & S1 & S2 & ->). pose proof (proj1 (Hv v Hin)) as Lv. destruct v as [|a [|b [|z [|]]]]; try discriminate.
    exists a, b, z, e1, e2, (shrink (a * a + b * b) (D * D)). split; auto. split; auto. split; auto. split; auto. cbn [nth]. rewrite FE. reflexivity.
  - intros (Q & a & b & z & e1 & e2 & t & Hin & S1 & S2 & -> & ->). split; auto. exists [e1; e2; 1]. split; [apply combinations3_in; exists e1, e2; auto|].
    apply in_map_iff. exists [a; b; z]. split; auto. cbn [nth]. rewrite FE. reflexivity.
Qed.
Print Assumptions C109_vectors_around_reference.

(** Hence every vector is a unit vector without negative entries, at least as close to the reference direction as some initial vector
    is to the third axis; and calling it again, after any change of the current vectors, gives the same vectors. *)
Theorem C109_unit_nonnegative_close (s : rv) (ref r : list R) :
  length ref = 3%nat -> nth 0 ref 0 <> 0 \/ nth 1 ref 0 <> 0 -> r = map (fun x => x / norm ref) ref -> n_obj s = 3%nat ->
  (forall v, In v (init_values s) -> length v = 3%nat /\ norm v = 1) ->
  (exists v, In v (init_values s) /\ (nth 0 v 0 <> 0 \/ nth 1 v 0 <> 0)) ->
  exists s', interact_v3 s ref = Ok (Some s') /\
    forall w, In w (values s') -> length w = 3%nat /\ norm w = 1 /\ (forall x, In x w -> 0 <= x) /\
      exists v, In v (init_values s) /\ Rabs (nth 2 v 0) <= dot w r.
Proof.
  intros L H Er No Hv He. destruct (v3_spec s ref r (ref_dir ref L H) Er No Hv He) as (s' & D & rot & E & HD & D1 & D2 & _ & _ & _ & _ & _ & R1 & R2 & R3 & FL & V).
  exists s'. split; auto. intros w Hw. rewrite V in Hw. apply filter_In in Hw. destruct Hw as (Hw & Q). apply in_flat_map in Hw. destruct Hw as (c & Hc & Hw).
  apply in_map_iff in Hw. destruct Hw as (v & <- & Hin). apply combinations3_in in Hc. destruct Hc as (e1 & e2 & S1 & S2 & ->). cbn [nth] in *.
  destruct (FL e1 e2 v Hin S1 S2) as (F1 & F2 & F3). split; auto. split; [rewrite (iso_norm rot); auto|]. split.
  { intros x Hx. unfold nonnegative in Q. rewrite forallb_forall in Q. specialize (Q x Hx). destruct (Rlt_dec x 0); [discriminate|lra]. }
  exists v. split; auto. rewrite <- R1, R3, F3 by auto. destruct (Hv v Hin) as (Lv & Nv). pose proof (D1 v Hin) as Dv.
  destruct v as [|a [|b [|z [|]]]]; try discriminate. cbn [nth] in *. unfold flipped. cbn [nth].
  assert (P : 0 <= a * a + b * b) by nra. set (d := sqrt (a * a + b * b)). assert (SD : d * d = a * a + b * b) by (apply sqrt_sqrt; auto).
  pose proof (sqrt_pos (a * a + b * b)) as Pd. fold d in Pd.
  assert (BD : d <= D). { apply Rsqr_incr_0; [unfold Rsqr; lra|auto|lra]. }
  destruct (t_factor_bounds d D ltac:(lra) ltac:(lra)) as (T0 & T1).
  assert (N2 := norm_sq [a; b; z]). rewrite Nv in N2. cbn [dot] in N2.
  set (t := t_factor d D) in *. assert (TD : t * d * (t * d) <= d * d). { assert (t * d <= d) by nra. assert (0 <= t * d) by nra. nra. }
  rewrite <- (sqrt_Rsqr_abs z). apply sqrt_le_1_alt. unfold Rsqr. lra.
Qed.
Print Assumptions C109_unit_nonnegative_close.

Theorem C109_no_trace (s1 s2 : rv) (ref : list R) s1' s2' : init_values s1 = init_values s2 -> n_obj s1 = n_obj s2 ->
  interact_v3 s1 ref = Ok (Some s1') -> interact_v3 s2 ref = Ok (Some s2') -> values s1' = values s2'.
Proof.
  unfold interact_v3. intros -> ->. intros E1 E2.
  destruct (dist_based_translation _) as [[w|]|]; cbn [rbind] in *; try discriminate.
  destruct (all_some (map lift_row w)) as [y|]; cbn [rbind] in *; try discriminate.
  destruct (rotate3 axis3 ref y) as [[rows|]|]; cbn [rbind] in *; try discriminate.
  injection E1 as <-. injection E2 as <-. reflexivity.
Qed.
Print Assumptions C109_no_trace.

(** But every vector is there (at least) twice, the recorded number of vectors and the planar copies are left as they were; with an odd
    number recorded it never matches, and the next non-preferred-solutions interaction raises IndexError when the number of planar copies is odd. *)
Theorem C109_duplicates_refuted (s s' : rv) (ref : list R) : n_obj s = 3%nat -> interact_v3 s ref = Ok (Some s') ->
  (forall w, In w (values s') -> exists i j, (i < j)%nat /\ nth_error (values s') i = Some w /\ nth_error (values s') j = Some w) /\
  planar s' = planar s /\ n_vec s' = n_vec s /\
  (Nat.Odd (n_vec s) -> length (values s') <> n_vec s') /\
  (Nat.Odd (length (planar s)) -> forall z n, length z <> n -> manage s' (PrefNonPreferred z n) = Err IndexError).
Proof.
  intros No E. unfold interact_v3 in E. rewrite No in E.
  set (rowsF := flat_map (fun c => map (fun v => vmap2 Rmult v c) (init_values s)) (combinations 3)) in E.
  destruct (dist_based_translation (map (@removelast R) rowsF)) as [[w|]|] eqn:E1; cbn [rbind] in E; try discriminate.
  destruct (all_some (map lift_row w)) as [y|] eqn:E2; cbn [rbind] in E; try discriminate.
  unfold rotate3 in E. destruct (negb _); [discriminate|].
  destruct (rotate axis3 ref y) as [rows|] eqn:E3; cbn [rbind] in E; try discriminate.
  injection E as <-.
  (* everything is a map over rowsF *)
  assert (M1 : exists f, w = map f (map (@removelast R) rowsF)).
  { unfold dist_based_translation in E1. destruct (map norm (map (@removelast R) rowsF)); [discriminate|]. destruct (Req_EM_T _ 0); [discriminate|]. injection E1 as <-. eexists. reflexivity. }
  assert (M2 : exists f, y = map f w).
  { clear - E2. exists (fun x => match lift_row x with Some u => u | None => [] end). revert y E2. induction w as [|a w IH]; intros y E2; cbn in E2; [injection E2 as <-; auto|].
    destruct (lift_row a) as [u|] eqn:Ea; [|discriminate]. destruct (all_some (map lift_row w)) as [t|]; [|discriminate]. cbn in E2. injection E2 as <-. cbn. rewrite Ea, <- (IH t eq_refl). reflexivity. }
  assert (M3 : exists f, rows = map f y).
  { unfold rotate in E3. repeat (match type of E3 with obind ?o _ = _ => destruct o; cbn [obind] in E3; [|discriminate] end). injection E3 as <-. eexists. reflexivity. }
  destruct M1 as (f1 & ->). destruct M2 as (f2 & ->). destruct M3 as (f3 & ->).
  cbn [set_values values planar n_vec].
  assert (T : exists A B C X, filter nonnegative (map f3 (map f2 (map f1 (map (@removelast R) rowsF)))) = (A ++ A) ++ (B ++ B) ++ (C ++ C) ++ (X ++ X)).
  { unfold rowsF. rewrite !map_map. rewrite flat_map_concat_map, concat_map, map_map, <- flat_map_concat_map. apply v3_twice. }
  destruct T as (A & B & C & X & T). rewrite T.
  assert (Ev : length ((A ++ A) ++ (B ++ B) ++ (C ++ C) ++ X ++ X) = (2 * (length A + length B + length C + length X))%nat) by (rewrite !app_length; lia).
  split; [|split; [auto|split; [auto|split]]].
  - intros u Hu. rewrite !in_app_iff in Hu.
    assert (K : In u A \/ In u B \/ In u C \/ In u X) by tauto. destruct K as [K|[K|[K|K]]].
    + destruct (twice_in u A [] ((B ++ B) ++ (C ++ C) ++ X ++ X) K) as (i & j & Z). exists i, j. exact Z.
    + destruct (twice_in u B (A ++ A) ((C ++ C) ++ X ++ X) K) as (i & j & Z). exists i, j. exact Z.
    + destruct (twice_in u C ((A ++ A) ++ B ++ B) (X ++ X) K) as (i & j & Z). exists i, j. rewrite <- (app_assoc (A ++ A)) in Z. exact Z.
    + destruct (twice_in u X ((A ++ A) ++ (B ++ B) ++ C ++ C) [] K) as (i & j & Z). exists i, j. rewrite app_nil_r, <- !(app_assoc (A ++ A)), <- (app_assoc (B ++ B)) in Z. exact Z.
  - intros (k & O) Q. rewrite Ev in Q. lia.
  - intros (k & O) z n Hn. unfold manage, interactive_adapt_2. apply Nat.eqb_neq in Hn. rewrite Hn. cbn [set_values values planar]. unfold masked. rewrite map_length.
    rewrite Ev, O. replace (Nat.eqb (2 * k + 1) (2 * (length A + length B + length C + length X))) with false; [reflexivity|]. symmetry. apply Nat.eqb_neq. lia.
Qed.
Print Assumptions C109_duplicates_refuted.

(** A case: two unit vectors, reference point (3, 0, 4). *)
Definition nr_set : rv := mkRV [[1; 0; 0]; [0; 3/5; 4/5]] [] [[1; 0; 0]; [0; 3/5; 4/5]] [] 3 2.
Lemma sqrt_one_of x : x = 1 -> sqrt x = 1. Proof. intros ->. apply sqrt_1. Qed.
Example ex_nr_hypotheses :
  let ref := [3; 0; 4] in let r := map (fun x => x / norm ref) ref in
  length ref = 3%nat /\ (nth 0 ref 0 <> 0 \/ nth 1 ref 0 <> 0) /\ r = [3/5; 0/5; 4/5] /\
  (forall v, In v (values nr_set) -> length v = 3%nat /\ norm v = 1) /\
  (exists v, In v (values nr_set) /\ dot v r * dot v r <> 1) /\ (exists v, In v (init_values nr_set) /\ (nth 0 v 0 <> 0 \/ nth 1 v 0 <> 0)).
Proof.
  assert (N : norm [3; 0; 4] = 5). { unfold norm. cbn [dot]. replace (3 * 3 + (0 * 0 + (4 * 4 + 0))) with (5 * 5) by ring. apply sqrt_square. lra. }
  cbv zeta. rewrite N. split; [reflexivity|]. split; [left; cbn; lra|]. split; [reflexivity|]. split; [|split].
  - cbn [values nr_set]. intros v [<-|[<-|[]]]; (split; [reflexivity|]); unfold norm; apply sqrt_one_of; cbn [dot]; lra.
  - exists [1; 0; 0]. split; [left; reflexivity|]. cbn. lra.
  - exists [1; 0; 0]. split; [left; reflexivity|]. left. cbn. lra.
Qed.
(** the first vector, at cosine 3/5, has the largest squared sine, 16/25; the second, at cosine 16/25, is moved closer by *)
Example ex_nr_shrink : shrink (369/625) (16/25) = 1 / (1 + 5 * (625/369 - 25/16)) /\ shrink (369/625) (16/25) < 1.
Proof.
  assert (E : shrink (369/625) (16/25) = 1 / (1 + 5 * (625/369 - 25/16))).
  { unfold shrink. destruct (Req_EM_T (369/625) 0); [lra|]. f_equal. f_equal. f_equal. f_equal; lra. }
  split; auto. rewrite E. lra.
Qed.
