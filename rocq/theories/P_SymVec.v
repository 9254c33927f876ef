(** The smooth transition of a set of vectors towards a target. *)
From Verif Require Import Base RVec M_APD M_RefVec P_RefVec P_RefVec2 P_RefVec3 P_RefVec4 M_SymVec Spec_SymVec.
From Coq Require Import Reals Lra Lia.
Open Scope R_scope.

Lemma rotate_linear a b : (forall xs, rotate a b xs = None) \/
  exists M, forall xs, rotate a b xs = Some (map (apply_mat (length a) M) xs).
Proof.
  unfold rotate.
  destruct (normalize1 a); cbn [obind]; [|left; auto].
  destruct (normalize1 b); cbn [obind]; [|left; auto].
  destruct (normalize1 _); cbn [obind]; [|left; auto].
  destruct (householder _); cbn [obind]; [|left; auto].
  destruct (householder _); cbn [obind]; [|left; auto].
  right. eexists. intros xs. reflexivity.
Qed.

Lemma toward_linear a f d : (forall xs, rotate_toward a f xs d = None) \/
  exists M reached, forall xs, rotate_toward a f xs d = Some (map (apply_mat (length a) M) xs, reached).
Proof.
  unfold rotate_toward.
  destruct (normalize1 f) as [f'|]; cbn [obind]; [|left; auto].
  destruct (normalize1 a) as [a'|] eqn:Ea; cbn [obind]; [|left; auto].
  assert (L : length a' = length a) by (apply normalize1_spec in Ea; tauto).
  destruct (Rlt_dec _ _).
  - destruct (rotate_linear a' f') as [H|(M & H)]; [left|right].
    + intros xs. rewrite H. auto.
    + exists M, true. intros xs. rewrite H, L. auto.
  - destruct (Req_EM_T _ _); [left; auto|].
    match goal with |- context [rotate a' ?r] => destruct (rotate_linear a' r) as [H|(M & H)] end; [left|right].
    + intros xs. rewrite H. auto.
    + exists M, false. intros xs. rewrite H, L. auto.
Qed.

Lemma toward_normalized c t d a f xs : normalize1 c = Some a -> normalize1 t = Some f ->
  rotate_toward c t xs d = rotate_toward a f xs d.
Proof.
  intros Hc Ht. unfold rotate_toward. rewrite Hc, Ht.
  assert (Na : norm a = 1) by (apply normalize1_spec in Hc; apply norm_one_dot; tauto).
  assert (Nf : norm f = 1) by (apply normalize1_spec in Ht; apply norm_one_dot; tauto).
  rewrite (normalize1_unit a Na), (normalize1_unit f Nf). auto.
Qed.

(** ** Averages *)
Lemma rsum_div_const {A} (f : A -> R) l k : rsum (map f l) / k = rsum (map (fun x => f x / k) l).
Proof. induction l as [|x l IH]; simpl; [unfold Rdiv; ring|]. rewrite <- IH. unfold Rdiv. ring. Qed.

Lemma average_some n xs : xs <> [] -> (forall x, In x xs -> length x = n) ->
  exists c, average xs = Some c /\ length c = n /\
    forall j, (j < n)%nat -> nth j c 0 = rsum (map (fun v => nth j v 0) xs) / INR (length xs).
Proof.
  intros Hne Hl. destruct xs as [|r xs]; [congruence|]. cbn [average].
  assert (Lr : length r = n) by (apply Hl; left; auto). rewrite Lr.
  eexists. split; [reflexivity|]. split; [rewrite map_length, seq_length; auto|].
  intros j Hj. set (g := fun j => _).
  rewrite (nth_indep _ 0 (g n)) by (rewrite map_length, seq_length; auto). rewrite map_nth, seq_nth; auto.
Qed.

Lemma average_map n M xs c : (forall x, In x xs -> length x = n) -> average xs = Some c ->
  average (map (apply_mat n M) xs) = Some (apply_mat n M c).
Proof.
  intros Hl Hc. assert (Hne : xs <> []) by (intros ->; discriminate).
  destruct (average_some n xs Hne Hl) as (c' & E & Lc & Nc). rewrite E in Hc. injection Hc as ->.
  destruct (average_some n (map (apply_mat n M) xs)) as (d & E' & Ld & Nd).
  { intros Q. apply map_eq_nil in Q. auto. }
  { intros y Hy. apply in_map_iff in Hy. destruct Hy as (x & <- & Hx). apply apply_mat_length. }
  rewrite E'. f_equal. apply list_nth_ext; [rewrite apply_mat_length; auto|].
  intros i Hi. rewrite Ld in Hi. rewrite Nd, apply_mat_nth by auto. rewrite map_map, map_length.
  rewrite (rsum_map_ext _ (fun j => rsum (map (fun v => nth j v 0 * M i j / INR (length xs)) xs)) (seq 0 n)).
  2:{ intros j Hj. apply in_seq in Hj. rewrite Nc by lia. rewrite rsum_div_const.
      rewrite Rmult_comm, <- rsum_map_scale. apply rsum_map_ext. intros; unfold Rdiv; ring. }
  rewrite <- rsum_swap, rsum_div_const. apply rsum_map_ext. intros v Hv.
  rewrite apply_mat_nth by auto. apply rsum_div_const.
Qed.

Lemma apply_mat_scale n M k x : apply_mat n M (vscale k x) = vscale k (apply_mat n M x).
Proof.
  apply list_nth_ext; [rewrite vscale_length, !apply_mat_length; auto|]. rewrite apply_mat_length. intros i Hi.
  rewrite nth_vscale, !apply_mat_nth by auto. rewrite <- rsum_map_scale. apply rsum_map_ext.
  intros j _. rewrite nth_vscale. ring.
Qed.

(** ** One pass. [a], [f]: the directions of the average and of the target. *)
Lemma normalize1_scaled k a : 0 < k -> norm a = 1 -> normalize1 (vscale k a) = Some a.
Proof.
  intros Hk Ha. destruct (normalize1_nonzero (vscale k a)) as [E _].
  { rewrite norm_scale, Ha, Rabs_right by lra. lra. }
  rewrite E. f_equal. rewrite norm_scale, Ha, Rabs_right by lra. unfold vscale. rewrite map_map.
  rewrite <- (map_id a) at 2. apply map_ext. intros x. field. lra.
Qed.

Lemma same_shape_refl xs : same_shape xs xs.
Proof. split; auto. intros i j xi xj Hi Hj. exists xi, xj. auto. Qed.
Lemma same_shape_trans xs ys zs : same_shape xs ys -> same_shape ys zs -> same_shape xs zs.
Proof.
  intros (L1 & H1) (L2 & H2). split; [congruence|]. intros i j xi xj Hi Hj.
  destruct (H1 _ _ _ _ Hi Hj) as (yi & yj & Yi & Yj & E). destruct (H2 _ _ _ _ Yi Yj) as (zi & zj & Zi & Zj & E').
  exists zi, zj. split; auto. split; auto. congruence.
Qed.

Lemma pass (n : nat) (xs : list (list R)) (a f t : list R) (k d phi theta : R) :
  (forall x, In x xs -> length x = n) -> average xs = Some (vscale k a) -> 0 < k ->
  length a = n -> length f = n -> norm a = 1 -> norm f = 1 -> normalize1 t = Some f ->
  0 < phi < PI -> cos phi = dot a f -> theta = d * PI / 180 -> 0 < theta ->
  exists ys reached r, transition_step t d xs = Some (ys, reached) /\ same_shape xs ys /\
    (forall y, In y ys -> length y = n) /\ average ys = Some (vscale k r) /\ length r = n /\
    (reached = true <-> phi < theta) /\ (reached = true -> r = f) /\
    (reached = false -> norm r = 1 /\ dot r f = cos (phi - theta)).
Proof.
  intros Hl Hav Hk La Lf Na Nf Ht Hphi Hcos Hth Hpos.
  assert (St : forall zs, rotate_toward (vscale k a) t zs d = rotate_toward a f zs d).
  { intros zs. apply toward_normalized; auto. apply normalize1_scaled; auto. }
  unfold transition_step. rewrite Hav. cbn [obind]. rewrite St.
  destruct (rotate_toward_spec a f (xs ++ [a]) d phi theta) as (ys & reached & r & E & Ly & R1 & R2 & R3 & R4 & R5); auto; [congruence|].
  destruct (toward_linear a f d) as [H|(M & reached' & H)]; [rewrite H in E; discriminate|].
  pose proof (H xs) as Hx. rewrite La in Hx. rewrite H, La in E. injection E as E <-.
  assert (Ra : apply_mat n M a = r).
  { specialize (R4 (length xs)). rewrite nth_error_app2, Nat.sub_diag in R4 by auto. specialize (R4 eq_refl).
    rewrite <- E, map_app, nth_error_app2 in R4 by (rewrite map_length; auto). rewrite map_length, Nat.sub_diag in R4.
    cbn in R4. injection R4 as ->. auto. }
  exists (map (apply_mat n M) xs), reached', r. split; auto. split.
  { split; [apply map_length|]. intros i j xi xj Hi Hj.
    assert (Li : length xi = n) by (apply Hl; eapply nth_error_In; eauto).
    assert (Lj : length xj = n) by (apply Hl; eapply nth_error_In; eauto).
    destruct (R5 i j xi xj) as (yi & yj & Yi & Yj & D); try congruence.
    { rewrite nth_error_app1; auto. apply nth_error_Some. congruence. }
    { rewrite nth_error_app1; auto. apply nth_error_Some. congruence. }
    exists yi, yj. rewrite <- E, map_app in Yi, Yj.
    rewrite nth_error_app1 in Yi by (rewrite map_length; apply nth_error_Some; congruence).
    rewrite nth_error_app1 in Yj by (rewrite map_length; apply nth_error_Some; congruence). auto. }
  split. { intros y Hy. apply in_map_iff in Hy. destruct Hy as (x & <- & _). apply apply_mat_length. }
  split. { rewrite (average_map n M xs _ Hl Hav), apply_mat_scale, Ra. auto. }
  split. { rewrite <- Ra. apply apply_mat_length. }
  split; auto. split; auto. intros Q. destruct (R3 Q) as (Nr & _ & Df & _). split; auto. rewrite dot_comm. auto.
Qed.

(** ** All passes *)
Lemma turning (n : nat) (f t : list R) (d theta : R) :
  length f = n -> norm f = 1 -> normalize1 t = Some f -> theta = d * PI / 180 -> 0 < theta ->
  forall (N done : nat) (xs : list (list R)) (a : list R) (k phi : R),
  (forall x, In x xs -> length x = n) -> average xs = Some (vscale k a) -> 0 < k -> length a = n -> norm a = 1 ->
  0 < phi < PI -> cos phi = dot a f -> INR N * theta <= phi -> (N <> 0%nat -> INR N * theta < phi) ->
  exists ys r, transition_from done N t d xs = Turning ys /\ same_shape xs ys /\ (forall y, In y ys -> length y = n) /\
    average ys = Some (vscale k r) /\ length r = n /\ norm r = 1 /\ dot r f = cos (phi - INR N * theta) /\
    forall m, transition_from done (N + m) t d xs = transition_from (done + N) m t d ys.
Proof.
  intros Lf Nf Ht Hth Hpos. induction N as [|N IH]; intros done xs a k phi Hl Hav Hk La Na Hphi Hcos HN HN'.
  - exists xs, a. cbn [transition_from Nat.add INR]. rewrite Nat.add_0_r. replace (phi - 0 * theta) with phi by ring.
    split; auto. split; [apply same_shape_refl|]. repeat (split; auto).
  - assert (HN2 : INR (S N) * theta < phi) by (apply HN'; auto). rewrite S_INR in HN2.
    assert (PN : 0 <= INR N * theta) by (apply Rmult_le_pos; [apply pos_INR|lra]).
    destruct (pass n xs a f t k d phi theta) as (ys & reached & r & E & Sh & Ly & Av & Lr & R1 & R2 & R3); auto.
    destruct reached.
    { exfalso. assert (phi < theta) by (apply R1; auto). lra. }
    destruct (R3 eq_refl) as (Nr & Dr).
    destruct (IH (S done) ys r k (phi - theta)) as (zs & q & E2 & Sh2 & Lz & Av2 & Lq & Nq & Dq & Em); auto; try lra.
    exists zs, q. cbn [transition_from Nat.add]. rewrite E, E2. split; auto. split; [eapply same_shape_trans; eauto|].
    split; auto. split; auto. split; auto. split; auto. split.
    + rewrite Dq. f_equal. rewrite S_INR. ring.
    + intros m. rewrite Em. f_equal. lia.
Qed.

Lemma is_mean_average n xs c : xs <> [] -> (forall x, In x xs -> length x = n) -> (average xs = Some c <-> is_mean n xs c).
Proof.
  intros Hne Hl. destruct (average_some n xs Hne Hl) as (c' & E & Lc & Nc).
  assert (Pos : 0 < INR (length xs)) by (apply lt_0_INR; destruct xs; [congruence|simpl; lia]).
  split.
  - rewrite E. intros Q. injection Q as <-. split; auto. intros j Hj. rewrite Nc by auto. field. lra.
  - intros (L & H). rewrite E. f_equal. apply list_nth_ext; [congruence|]. intros i Hi. rewrite Lc in Hi. rewrite Nc by auto.
    rewrite <- H by auto. field. lra.
Qed.

Lemma direction u : norm u <> 0 -> exists a, normalize1 u = Some a /\ length a = length u /\ norm a = 1 /\ u = vscale (norm u) a.
Proof.
  intros H. destruct (normalize1_nonzero u H) as (E & N). eexists. split; [apply E|]. split; [apply map_length|]. split; auto.
  unfold vscale. rewrite map_map. rewrite <- (map_id u) at 1. apply map_ext. intros x. field. auto.
Qed.

Lemma norm_gt u : norm u <> 0 -> 0 < norm u.
Proof. intros H. pose proof (norm_nonneg u). lra. Qed.

Lemma angle_dirs u v a b phi : angle u v phi -> u = vscale (norm u) a -> v = vscale (norm v) b -> norm u <> 0 -> norm v <> 0 ->
  0 <= phi <= PI /\ cos phi = dot a b.
Proof.
  intros (B & E) Hu Hv Nu Nv. split; auto.
  assert (X : dot u v = norm u * norm v * dot a b).
  { rewrite Hu at 1. rewrite Hv at 1. rewrite dot_scale_l, dot_scale_r. ring. }
  rewrite X in E. apply Rmult_eq_reg_l with (norm u * norm v); [lra|]. apply Rmult_integral_contrapositive. auto.
Qed.

Lemma dirs_angle a b phi k : 0 <= phi <= PI -> cos phi = dot a b -> norm a = 1 -> norm b <> 0 -> 0 < k ->
  forall v, v = vscale (norm v) b -> norm b = 1 -> angle (vscale k a) v phi.
Proof.
  intros B E Na Nb Hk v Hv Nb1. split; auto. rewrite norm_scale, Na, Rabs_right by lra. rewrite Hv at 2.
  rewrite dot_scale_l, dot_scale_r, E. ring.
Qed.

Lemma turning_spec (n : nat) (xs : list (list R)) (c t : list R) (d theta phi : R) (N : nat) :
  xs <> [] -> (forall x, In x xs -> length x = n) -> is_mean n xs c -> norm c <> 0 -> length t = n -> norm t <> 0 ->
  angle c t phi -> theta = d * PI / 180 -> 0 < theta -> INR N * theta < phi < PI ->
  exists ys c', transition N t d xs = Turning ys /\ same_shape xs ys /\ is_mean n ys c' /\ norm c' = norm c /\ angle c' t (phi - INR N * theta).
Proof.
  intros Hne Hl Hm Nc Lt Nt Ha Hth Hpos HN.
  destruct (direction c Nc) as (a & E1 & La & Na & Ec). destruct (direction t Nt) as (f & E2 & Lf & Nf & Et).
  destruct (angle_dirs c t a f phi Ha Ec Et Nc Nt) as (B & Hcos).
  assert (PN : 0 <= INR N * theta) by (apply Rmult_le_pos; [apply pos_INR|lra]).
  assert (Lc : length c = n) by apply Hm.
  destruct (turning n f t d theta ltac:(congruence) Nf E2 Hth Hpos N 0%nat xs a (norm c) phi) as (ys & r & E & Sh & Ly & Av & Lr & Nr & Dr & _);
    auto; try lra; try congruence.
  - apply (is_mean_average n xs); auto. rewrite <- Ec. auto.
  - apply norm_gt; auto.
  - exists ys, (vscale (norm c) r). split; auto. split; auto. split; [|split].
    + apply is_mean_average; auto. destruct Sh as (L & _). intros ->. destruct xs; [congruence|discriminate].
    + rewrite norm_scale, Nr, Rabs_right; [ring|]. pose proof (norm_nonneg c). lra.
    + apply (dirs_angle r f _ (norm c)); auto; try lra. apply norm_gt; auto.
Qed.

Lemma arrives_spec (n : nat) (xs : list (list R)) (c t : list R) (d theta phi : R) (N : nat) :
  xs <> [] -> (forall x, In x xs -> length x = n) -> is_mean n xs c -> norm c <> 0 -> length t = n -> norm t <> 0 ->
  angle c t phi -> theta = d * PI / 180 -> 0 < theta -> INR N * theta < phi < INR (S N) * theta -> phi < PI ->
  exists ys, (forall m, transition (S N + m) t d xs = Arrived (S N) ys) /\ same_shape xs ys /\ is_mean n ys (vscale (norm c / norm t) t).
Proof.
  intros Hne Hl Hm Nc Lt Nt Ha Hth Hpos HN Hpi.
  destruct (direction c Nc) as (a & E1 & La & Na & Ec). destruct (direction t Nt) as (f & E2 & Lf & Nf & Et).
  destruct (angle_dirs c t a f phi Ha Ec Et Nc Nt) as (B & Hcos).
  assert (PN : 0 <= INR N * theta) by (apply Rmult_le_pos; [apply pos_INR|lra]).
  assert (Lc : length c = n) by apply Hm. rewrite S_INR in HN.
  destruct (turning n f t d theta ltac:(congruence) Nf E2 Hth Hpos N 0%nat xs a (norm c) phi) as (ys & r & E & Sh & Ly & Av & Lr & Nr & Dr & Em);
    auto; try lra; try congruence.
  { apply (is_mean_average n xs); auto. rewrite <- Ec. auto. }
  { apply norm_gt; auto. }
  destruct (pass n ys r f t (norm c) d (phi - INR N * theta) theta) as (zs & reached & q & F & Sh2 & Lz & Av2 & Lq & R1 & R2 & R3); auto; try lra; try congruence.
  { apply norm_gt; auto. }
  assert (reached = true) by (apply R1; lra). subst reached. rewrite (R2 eq_refl) in *. exists zs. split; [|split].
  - intros m. unfold transition. replace (S N + m)%nat with (N + S m)%nat by lia. rewrite Em. cbn [transition_from Nat.add]. rewrite F. auto.
  - eapply same_shape_trans; eauto.
  - apply is_mean_average; auto. { destruct Sh as (L1 & _), Sh2 as (L2 & _). intros ->. destruct xs; [congruence|]. rewrite <- L2 in L1. discriminate. }
    rewrite Av2. f_equal. rewrite Et at 2. unfold vscale. rewrite map_map. apply map_ext. intros x. field. auto.
Qed.

Lemma unit_dot_one r f : length r = length f -> norm r = 1 -> norm f = 1 -> dot r f = 1 -> r = f.
Proof.
  intros L Nr Nf D. apply norm_one_dot in Nr, Nf. apply vsub_zero_eq; auto. apply dot_self_zero.
  rewrite dot_sub_l, !dot_sub_r by auto. rewrite (dot_comm f r). lra.
Qed.

Lemma exact_spec (n : nat) (xs : list (list R)) (c t : list R) (d theta phi : R) (N : nat) :
  xs <> [] -> (forall x, In x xs -> length x = n) -> is_mean n xs c -> norm c <> 0 -> length t = n -> norm t <> 0 ->
  angle c t phi -> theta = d * PI / 180 -> 0 < theta -> phi = INR N * theta -> phi < PI ->
  forall m, transition (S N + m) t d xs = Undefined (S N).
Proof.
  intros Hne Hl Hm Nc Lt Nt Ha Hth Hpos HN Hpi m.
  destruct (direction c Nc) as (a & E1 & La & Na & Ec). destruct (direction t Nt) as (f & E2 & Lf & Nf & Et).
  destruct (angle_dirs c t a f phi Ha Ec Et Nc Nt) as (B & Hcos).
  assert (Lc : length c = n) by apply Hm.
  assert (Last : forall ys done k, 0 < k -> average ys = Some (vscale k f) -> transition_from done (S m) t d ys = Undefined (S done)).
  { intros ys done k Hk Av. cbn [transition_from]. unfold transition_step. rewrite Av. cbn [obind].
    rewrite (toward_normalized _ _ _ f f); auto; [|apply normalize1_scaled; auto].
    rewrite (proj1 (rotate_toward_parallel f ys d Nf)). auto. }
  assert (Pc : 0 < norm c) by (apply norm_gt; auto).
  assert (Av0 : average xs = Some (vscale (norm c) a)) by (apply (is_mean_average n xs); auto; rewrite <- Ec; auto).
  destruct N as [|N].
  - cbn [INR] in HN. assert (phi = 0) by lra. subst phi. rewrite H, cos_0 in Hcos.
    assert (a = f) by (apply unit_dot_one; auto; congruence). subst a. unfold transition. cbn [Nat.add].
    apply (Last xs 0%nat (norm c)); auto.
  - rewrite S_INR in HN. assert (PN : 0 <= INR N * theta) by (apply Rmult_le_pos; [apply pos_INR|lra]).
    destruct (turning n f t d theta ltac:(congruence) Nf E2 Hth Hpos N 0%nat xs a (norm c) phi) as (ys & r & E & Sh & Ly & Av & Lr & Nr & Dr & Em);
      auto; try lra; try congruence.
    destruct (pass n ys r f t (norm c) d (phi - INR N * theta) theta) as (zs & reached & q & F & Sh2 & Lz & Av2 & Lq & R1 & R2 & R3); auto; try lra; try congruence.
    destruct reached. { exfalso. assert (phi - INR N * theta < theta) by (apply R1; auto). lra. }
    destruct (R3 eq_refl) as (Nq & Dq). replace (phi - INR N * theta - theta) with 0 in Dq by lra. rewrite cos_0 in Dq.
    assert (q = f) by (apply unit_dot_one; auto; congruence). subst q.
    unfold transition. replace (S (S N) + m)%nat with (N + S (S m))%nat by lia. rewrite Em. cbn [Nat.add].
    change (transition_from N (S (S m)) t d ys) with (match transition_step t d ys with
               | None => Undefined (S N) | Some (final', true) => Arrived (S N) final'
               | Some (final', false) => transition_from (S N) (S m) t d final' end).
    rewrite F. apply (Last zs (S N) (norm c)); auto.
Qed.
