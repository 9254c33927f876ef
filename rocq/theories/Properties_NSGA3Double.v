(** C142: NSGA-III's association of solutions to reference directions, in double precision. *)
From Coq Require Import Reals Lra Lia Permutation.
From Flocq Require Import Core.
From Verif Require Import Base RVec M_NSGA3 P_APD M_Double P_Double M_RefDouble P_RefDouble Properties_RefDouble Properties_RefDouble2 M_NbDouble Properties_NbDouble M_APDDouble P_APDDouble Properties_APDDouble M_NSGA3Double P_NSGA3Double.
Open Scope R_scope.

(** Reference directions as the normalisation delivers them (C137), with entries 0 or from 2^-500 on. *)
Definition plain_direction (n : nat) (d : list R) : Prop := direction n d /\ Forall moderate d.
(** Normalised objectives: non-negative doubles. *)
Definition plain_point (n : nat) (v : list R) : Prop := length v = n /\ Forall double v /\ forall x, In x v -> 0 <= x.

Lemma entry_le_norm v x : In x v -> 0 <= x -> x <= norm v.
Proof.
  intros Hx X0. apply Rsqr_incr_0_var; [|apply norm_nonneg]. unfold Rsqr. rewrite norm_sq. clear X0. induction v as [|a v IH]; [destruct Hx|]. cbn [dot]. pose proof (dot_self_nonneg v). destruct Hx as [<-|Hx]; [nra|]. specialize (IH Hx). nra.
Qed.
Lemma norm_zero_map l : (forall x : R, In x l -> x = 0) -> norm l = 0.
Proof. intros H. assert (D : dot l l = 0). { induction l as [|a l IH]; [reflexivity|]. cbn [dot]. rewrite (H a (or_introl eq_refl)), IH; [ring|]. intros x Hx. apply H. right. exact Hx. } unfold norm. rewrite D. apply sqrt_0. Qed.
Lemma dot_map_r (c : R) d : dot (map (fun x => c * x) d) (map (fun x => c * x) d) = c * c * dot d d.
Proof. induction d as [|a d IH]; cbn [map dot]; [ring|rewrite IH; ring]. Qed.
Lemma sum_ext t (f g : nat -> R) : (forall i, f i = g i) -> sum_fl t f = sum_fl t g.
Proof. intros H. induction t as [i|l IHl r IHr]; cbn [sum_fl]; [apply H|congruence]. Qed.
Lemma perp_square t1 t2 t3 v d : perp_fl t1 t2 t3 v d = fl (sqrt (square_sum_fl t3 v (projection_fl t1 t2 v d))).
Proof. unfold perp_fl, square_sum_fl. cbv zeta. f_equal. f_equal. apply sum_ext. intros i. f_equal. generalize (fl (nth i (projection_fl t1 t2 v d) 0 - nth i v 0)). intros x. unfold Rabs. destruct (Rcase_abs x); ring. Qed.

(** C142. The computed distance of a solution from the line through a reference direction is the true one up to (n + 4) * 2^-48 of the solution's norm (and 2^-520), in whatever orders the sums are made. *)
Theorem C142_distance : forall t1 t2 t3 n v d, (1 <= n)%nat -> (n <= 2 ^ 20)%nat -> Permutation (leaves t1) (seq 0 n) -> Permutation (leaves t2) (seq 0 n) -> Permutation (leaves t3) (seq 0 n) -> plain_point n v -> plain_direction n d ->
  Rabs (perp_fl t1 t2 t3 v d - perp_dist v d) <= INR (n + 4) * bpow radix2 (-48) * norm v + bpow radix2 (-520).
Proof.
  intros t1 t2 t3 n v d N1 Hn H1 H2 H3 (Lv & Dv & Pv) ((Ld & Pd & Nd) & Md). destruct (small_units n N1 Hn) as (Z & Zu & Zn). set (z := INR (n + 4) * u) in *. pose proof u_pos as U0. pose proof u_small as U1.
  assert (U51 : INR (n + 4) * bpow radix2 (-51) = 4 * z) by (unfold z; change (-51)%Z with (2 + -53)%Z; rewrite bpow_plus; change (bpow radix2 2) with 4; ring). assert (U48 : INR (n + 4) * bpow radix2 (-48) = 32 * z) by (unfold z; change (-48)%Z with (5 + -53)%Z; rewrite bpow_plus; change (bpow radix2 5) with 32; ring).
  rewrite U51 in Nd. rewrite U48. apply Rabs_le_inv in Nd. set (M := norm d) in *.
  assert (Hz : exists x, In x d /\ x <> 0). { destruct (Forall_Exists_dec (fun x => x = 0) (fun x => Req_EM_T x 0) d) as [A|A]; [|apply Exists_exists in A; exact A]. exfalso. rewrite Forall_forall in A. pose proof (norm_zero_map d A) as X. fold M in X. lra. }
  destruct (magnitude_err t1 d) as (ME & _); try (rewrite Ld); try assumption. rewrite Ld in ME. fold z in ME. fold M in ME. set (N := magnitude_fl t1 d) in *.
  pose proof (C137_cosine_error t2 v d ltac:(lia) ltac:(congruence) ltac:(rewrite Lv; exact H2) ltac:(intros x [X|X]; auto)) as CE. rewrite Lv in CE. set (C := dot v d) in *.
  assert (C0 : 0 <= C) by (apply dot_nonneg; assumption). set (h := bpow radix2 (-1054)) in *. assert (H0 : 2 * bpow radix2 (-1075) <= h) by (unfold h; change (-1054)%Z with (21 + -1075)%Z; rewrite bpow_plus; pose proof (bpow_gt_0 radix2 (-1075)); apply Rmult_le_compat_r; [lra|cbn; lra]).
  assert (hp : 0 < h) by apply bpow_gt_0. assert (s0 : 0 <= dot_fl t2 v d).
  { unfold dot_fl. clear - Pv Pd. assert (F0 : forall x, 0 <= x -> 0 <= fl x) by (intros x Hx; rewrite <- fl_0; apply fl_mono; exact Hx). assert (F : forall i, 0 <= fl (nth i v 0 * nth i d 0)) by (intros i; apply F0, Rmult_le_pos; apply nth_nonneg; assumption).
    induction t2 as [i|l IHl r IHr]; cbn [sum_fl]; [apply F|]. apply F0. lra. }
  set (s := dot_fl t2 v d) in *. assert (A1 : near (2 * z) h s C).
  { unfold near. apply Rle_trans with (1 := CE). apply Rplus_le_compat_r, Rmult_le_compat_r; [exact C0|]. change (-52)%Z with (1 + -53)%Z. rewrite bpow_plus. change (bpow radix2 1) with 2. lra. }
  destruct (quotient_near z (2 * z) h s C N M Z Zu ltac:(lra) H0 s0 C0 A1 ltac:(lra) ME) as (A2 & p0). set (p := fl (s / N)) in *.
  assert (CM0 : 0 <= C / M) by (apply Rmult_le_pos; [exact C0|apply Rlt_le, Rinv_0_lt_compat; lra]).
  assert (Entry : forall x, In x d -> near (12 * z) (64 * h) (fl (fl (p * x) / N)) (C / M * x / M)).
  { intros x Hx. pose proof (Pd x Hx) as X0. pose proof (entry_le_norm d x Hx X0) as X1. fold M in X1.
    destruct (product_near z (2 * z + 4 * z) (4 * h) p (C / M) x Z Zu ltac:(lra) ltac:(lra) p0 CM0 A2 ltac:(lra)) as (A3 & q0).
    destruct (quotient_near z (2 * z + 4 * z + 2 * z) (4 * (4 * h)) (fl (p * x)) (C / M * x) N M Z Zu ltac:(lra) ltac:(lra) q0 ltac:(apply Rmult_le_pos; assumption) A3 ltac:(lra) ME) as (A4 & _).
    unfold near in *. replace (12 * z) with (2 * z + 4 * z + 2 * z + 4 * z) by ring. replace (64 * h) with (4 * (4 * (4 * h))) by ring. exact A4. }
  rewrite perp_square. set (r := projection_fl t1 t2 v d). assert (Er : r = map (fun x => fl (fl (p * x) / N)) d) by reflexivity. set (pr := map (fun x => C / M * x / M) d).
  assert (Lr : length r = n) by (rewrite Er, map_length; exact Ld). assert (Lp : length pr = n) by (unfold pr; rewrite map_length; exact Ld).
  assert (F : Forall2 (fun a b => Rabs (b - a) <= 12 * z * Rabs a + 64 * h) pr r).
  { rewrite Er. unfold pr. clear - Entry Pd CM0 Nd Z. assert (G : forall l, (forall x, In x l -> In x d) -> Forall2 (fun a b => Rabs (b - a) <= 12 * z * Rabs a + 64 * h) (map (fun x => C / M * x / M) l) (map (fun x => fl (fl (p * x) / N)) l)).
    { induction l as [|x l IH]; intros Hl; cbn [map]; [apply Forall2_nil|]. apply Forall2_cons; [|apply IH; intros y Hy; apply Hl; right; exact Hy]. pose proof (Entry x (Hl x (or_introl eq_refl))) as E. unfold near in E. rewrite (Rabs_pos_eq (C / M * x / M)); [exact E|].
      apply Rmult_le_pos; [apply Rmult_le_pos; [exact CM0|apply Pd, Hl; left; reflexivity]|apply Rlt_le, Rinv_0_lt_compat; lra]. }
    apply G. auto. }
  pose proof (norm_close (12 * z) (64 * h) pr r ltac:(lra) ltac:(lra) F) as NC. rewrite Lp in NC.
  assert (Npr : norm pr = C / M). { unfold norm, pr. rewrite (map_ext _ (fun x => C / M / M * x)) by (intros x; unfold Rdiv; ring). rewrite dot_map_r, <- norm_sq. fold M. replace (C / M / M * (C / M / M) * (M * M)) with (C / M * (C / M)) by (field; lra). apply sqrt_square. exact CM0. }
  assert (CMv : C / M <= norm v). { apply Rmult_le_reg_r with M; [lra|]. unfold Rdiv. rewrite Rmult_assoc, Rinv_l, Rmult_1_r by lra. apply Rle_trans with (1 := Rle_abs C). apply dot_le_norms. congruence. }
  pose proof (norm_le_sum (vsub r v) (vsub pr v)) as T1. assert (Lrv : length (vsub r v) = n) by (unfold vsub; rewrite vmap2_length; congruence). assert (Lpv : length (vsub pr v) = n) by (unfold vsub; rewrite vmap2_length; congruence).
  specialize (T1 ltac:(congruence)). assert (EV : vsub (vsub r v) (vsub pr v) = vsub r pr).
  { clear - Lr Lp Lv. assert (G : forall a b c : list R, length a = length b -> length a = length c -> vsub (vsub a c) (vsub b c) = vsub a b); [|apply G; congruence].
    unfold vsub. induction a as [|x a IH]; intros [|y b] [|w c] A B; try discriminate; [reflexivity|]. cbn [vmap2]. f_equal; [ring|apply IH; [injection A|injection B]; auto]. }
  rewrite EV in T1. pose proof (norm_le_sum v pr ltac:(congruence)) as T2. pose proof (norm_le_sum pr v ltac:(congruence)) as T3.
  assert (Pdist : perp_dist v d = norm (vsub pr v)) by reflexivity. rewrite Pdist.
  assert (Tri : norm (vsub pr v) <= norm pr + norm v).
  { apply sqrt_le_intro; [pose proof (norm_nonneg pr); pose proof (norm_nonneg v); lra|]. rewrite dot_sub_l, !dot_sub_r by congruence. assert (0 <= dot pr v) by (apply dot_nonneg; [|exact Pv]; intros x Hx; unfold pr in Hx; apply in_map_iff in Hx; destruct Hx as (y & <- & Hy); apply Rmult_le_pos; [apply Rmult_le_pos; [exact CM0|apply Pd; exact Hy]|apply Rlt_le, Rinv_0_lt_compat; lra]).
    rewrite (dot_comm v pr). pose proof (norm_sq pr). pose proof (norm_sq v). pose proof (norm_nonneg pr). pose proof (norm_nonneg v). nra. }
  assert (Dr : Forall double r) by (rewrite Er; apply Forall_forall; intros x Hx; apply in_map_iff in Hx; destruct Hx as (y & <- & _); apply fl_double).
  destruct (square_sum_bounds t3 v r ltac:(lia) ltac:(congruence) ltac:(rewrite Lv; exact H3) Dv Dr) as (Q0 & Q1). rewrite Lv in Q1. set (D := dot (vsub r v) (vsub r v)) in *.
  pose proof (INR_2pow20 n Hn) as I20. pose proof (pos_INR n) as In0. set (e := INR n * bpow radix2 (-1075)) in *. assert (e0 : 0 <= e) by (apply Rmult_le_pos; [exact In0|apply bpow_ge_0]).
  assert (D0 : 0 <= D) by apply dot_self_nonneg. assert (Zn2 : (INR n + 2) * u <= z) by (unfold z; apply Rmult_le_compat_r; [lra|]; rewrite plus_INR; change (INR 4) with (1 + 1 + 1 + 1); lra). assert (Zn3 : 0 <= (INR n + 2) * u) by (apply Rmult_le_pos; lra).
  pose proof (root_near z (square_sum_fl t3 v r) D e (fl (sqrt (square_sum_fl t3 v r))) Z Zu D0 e0 Q0) as RN.
  assert (RN1 : (1 - z) * D - e <= square_sum_fl t3 v r <= (1 + 2 * z) * (D + e)).
  { split; [apply Rle_trans with (2 := proj1 Q1)|apply Rle_trans with (1 := proj2 Q1)].
    - assert (((INR n + 2) * u) * D <= z * D) by (apply Rmult_le_compat_r; assumption). lra.
    - apply Rmult_le_compat_r; lra. }
  specialize (RN RN1 (double_sqrt_err _ (square_sum_double t3 v r) Q0)). fold (norm (vsub r v)) in RN. change (sqrt D) with (norm (vsub r v)) in RN.
  assert (Se : 2 * sqrt e <= bpow radix2 (-522)).
  { assert (sqrt e <= bpow radix2 (-527)); [|change (-522)%Z with (5 + -527)%Z; rewrite bpow_plus; change (bpow radix2 5) with 32; pose proof (bpow_gt_0 radix2 (-527)); lra]. apply sqrt_le_intro; [apply bpow_ge_0|]. rewrite <- bpow_plus. unfold e. apply Rle_trans with (bpow radix2 20 * bpow radix2 (-1075)); [apply Rmult_le_compat_r; [apply bpow_ge_0|exact I20]|].
    rewrite <- bpow_plus. apply bpow_le. lia. }
  assert (Sh : INR n * (64 * h) <= bpow radix2 (-522)).
  { apply Rle_trans with (bpow radix2 20 * (64 * h)); [apply Rmult_le_compat_r; lra|]. unfold h. change 64 with (bpow radix2 6). rewrite <- !bpow_plus. apply bpow_le. lia. }
  assert (S20 : bpow radix2 (-520) = 4 * bpow radix2 (-522)) by (change (-520)%Z with (2 + -522)%Z; rewrite bpow_plus; reflexivity). pose proof (bpow_gt_0 radix2 (-522)) as B22. rewrite S20. rewrite Npr in *.
  apply Rabs_le_inv in RN, T1. set (a := norm (vsub r v)) in *. set (b := norm (vsub pr v)) in *. set (V := norm v) in *. set (c := norm (vsub r pr)) in *. set (tiny := bpow radix2 (-522)) in *. set (q := fl (sqrt (square_sum_fl t3 v r))) in *.
  assert (a0 : 0 <= a) by apply norm_nonneg. assert (V0 : 0 <= V) by apply norm_nonneg. assert (c1 : c <= 12 * (z * V) + tiny) by (assert (12 * z * (C / M) <= 12 * z * V) by (apply Rmult_le_compat_l; lra); lra).
  assert (a1 : a <= 3 * V + tiny) by (assert (z * V <= / 1000000 * V) by (apply Rmult_le_compat_r; lra); lra). assert (za : z * a <= z * (3 * V + tiny)) by (apply Rmult_le_compat_l; lra). assert (zt : z * tiny <= / 1000000 * tiny) by (apply Rmult_le_compat_r; lra).
  assert (zV : 0 <= z * V) by (apply Rmult_le_pos; lra). clearbody a b V c tiny q. apply Rabs_le. split; lra.
Qed.

(** C142. So a solution is associated with a reference direction whose line is nearest up to (n + 4) * 2^-47 of the solution's norm (and 2^-519), and the recorded distance is the true one up to half of that. *)
Theorem C142_association : forall t1 t2 t3 n dirs v, (1 <= n)%nat -> (n <= 2 ^ 20)%nat -> Permutation (leaves t1) (seq 0 n) -> Permutation (leaves t2) (seq 0 n) -> Permutation (leaves t3) (seq 0 n) -> plain_point n v -> dirs <> [] -> (forall d, In d dirs -> plain_direction n d) ->
  exists d, nth_error dirs (niche_of_fl t1 t2 t3 dirs v) = Some d /\
    Rabs (niche_dist_fl t1 t2 t3 dirs v - perp_dist v d) <= INR (n + 4) * bpow radix2 (-48) * norm v + bpow radix2 (-520) /\
    forall d', In d' dirs -> perp_dist v d <= perp_dist v d' + (INR (n + 4) * bpow radix2 (-47) * norm v + bpow radix2 (-519)).
Proof.
  intros t1 t2 t3 n dirs v N1 Hn H1 H2 H3 Hv NE Hd. unfold niche_dist_fl. set (k := niche_of_fl t1 t2 t3 dirs v). assert (Ek : argmin (map (perp_fl t1 t2 t3 v) dirs) = Some k).
  { unfold k, niche_of_fl. destruct (argmin_some (map (perp_fl t1 t2 t3 v) dirs)) as (j & Hj); [destruct dirs; [congruence|discriminate]|]. rewrite Hj. reflexivity. }
  destruct (argmin_spec _ _ Ek) as (m & Hm & Hall & _). rewrite nth_error_map in Hm. destruct (nth_error dirs k) as [d|] eqn:Ed; [|discriminate]. injection Hm as <-. exists d. split; [reflexivity|].
  pose proof (C142_distance t1 t2 t3 n v d N1 Hn H1 H2 H3 Hv (Hd d (nth_error_In _ _ Ed))) as A. split; [rewrite (nth_error_nth _ _ [] Ed); exact A|]. intros d' Hd'.
  pose proof (C142_distance t1 t2 t3 n v d' N1 Hn H1 H2 H3 Hv (Hd d' Hd')) as B. pose proof (Hall _ (in_map (perp_fl t1 t2 t3 v) _ _ Hd')) as L.
  assert (E1 : bpow radix2 (-47) = 2 * bpow radix2 (-48)) by (change (-47)%Z with (1 + -48)%Z; rewrite bpow_plus; reflexivity). assert (E2 : bpow radix2 (-519) = 2 * bpow radix2 (-520)) by (change (-519)%Z with (1 + -520)%Z; rewrite bpow_plus; reflexivity).
  rewrite E1, E2. apply Rabs_le_inv in A, B. lra.
Qed.
(** C142. When one direction is nearer than every other by more than that, the association is the exact one. *)
Theorem C142_unambiguous : forall t1 t2 t3 n dirs v k d, (1 <= n)%nat -> (n <= 2 ^ 20)%nat -> Permutation (leaves t1) (seq 0 n) -> Permutation (leaves t2) (seq 0 n) -> Permutation (leaves t3) (seq 0 n) -> plain_point n v -> (forall e, In e dirs -> plain_direction n e) ->
  nth_error dirs k = Some d -> (forall j e, j <> k -> nth_error dirs j = Some e -> perp_dist v d + (INR (n + 4) * bpow radix2 (-47) * norm v + bpow radix2 (-519)) < perp_dist v e) ->
  niche_of_fl t1 t2 t3 dirs v = k /\ niche_of dirs v = k.
Proof.
  intros t1 t2 t3 n dirs v k d N1 Hn H1 H2 H3 Hv Hd Ek Hs. assert (NE : dirs <> []) by (intros X; rewrite X in Ek; destruct k; discriminate). split.
  - destruct (C142_association t1 t2 t3 n dirs v N1 Hn H1 H2 H3 Hv NE Hd) as (e & Ee & _ & M). destruct (Nat.eq_dec (niche_of_fl t1 t2 t3 dirs v) k) as [G|G]; [exact G|]. exfalso. specialize (Hs _ e G Ee). specialize (M d (nth_error_In _ _ Ek)). lra.
  - unfold niche_of. destruct (argmin_some (map (perp_dist v) dirs)) as (j & Hj); [destruct dirs; [congruence|discriminate]|]. rewrite Hj. destruct (argmin_spec _ _ Hj) as (m & Hm & Hall & _). rewrite nth_error_map in Hm. destruct (nth_error dirs j) as [e|] eqn:Ee; [|discriminate]. injection Hm as <-.
    destruct (Nat.eq_dec j k) as [G|G]; [exact G|]. exfalso. specialize (Hs j e G Ee). pose proof (Hall _ (in_map (perp_dist v) _ _ (nth_error_In _ _ Ek))) as L. assert (0 <= INR (n + 4) * bpow radix2 (-47) * norm v) by (apply Rmult_le_pos; [apply Rmult_le_pos; [apply pos_INR|apply bpow_ge_0]|apply norm_nonneg]).
    pose proof (bpow_gt_0 radix2 (-519)). lra.
Qed.
