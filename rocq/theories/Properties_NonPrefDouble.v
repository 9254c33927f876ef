(** C144: reference vectors dropped near non-preferred solutions, in double precision. *)
From Coq Require Import Reals Lra Lia Permutation.
From Flocq Require Import Core.
From Verif Require Import Base RVec M_RefVec M_NSGA3 P_APD M_Double P_Double M_RefDouble P_RefDouble Properties_RefDouble Properties_RefDouble2 M_NbDouble Properties_NbDouble M_APDDouble P_APDDouble Properties_APDDouble M_NSGA3Double P_NSGA3Double M_NonPrefDouble.
Open Scope R_scope.
Notation u := (bpow radix2 (-53)).

Lemma sum_ext_on t (f g : nat -> R) : (forall i, f i = g i) -> sum_fl t f = sum_fl t g.
Proof. intros H. induction t as [i|l IHl r IHr]; cbn [sum_fl]; [apply H|]. rewrite IHl, IHr. reflexivity. Qed.
Lemma rsum_nth (v : list R) : forall k, rsum (map (fun i => Rabs (nth (i - k) v 0)) (seq k (length v))) = norm1 v.
Proof.
  unfold norm1. induction v as [|x v IH]; intros k; cbn [length seq map]; [reflexivity|].
  cbn [rsum]. rewrite Nat.sub_diag. f_equal. rewrite <- (IH (S k)). f_equal. apply map_ext_in. intros i Hi.
  apply in_seq in Hi. replace (i - k)%nat with (S (i - S k)) by lia. reflexivity.
Qed.
Lemma norm1_sum t v : Permutation (leaves t) (seq 0 (length v)) -> esum t (fun i => Rabs (nth i v 0)) = norm1 v.
Proof.
  intros H. rewrite (esum_seq _ _ _ H), <- (rsum_nth v 0). f_equal. apply map_ext. intros i. rewrite Nat.sub_0_r. reflexivity.
Qed.
Lemma norm1_nonneg v : 0 <= norm1 v.
Proof. unfold norm1. induction v as [|x v IH]; cbn [map rsum]; [lra|]. pose proof (Rabs_pos x). lra. Qed.
Lemma entry_le_norm1 x v : In x v -> Rabs x <= norm1 v.
Proof.
  unfold norm1. induction v as [|y v IH]; [intros []|]. cbn [map rsum]. pose proof (norm1_nonneg v) as N. unfold norm1 in N. pose proof (Rabs_pos y).
  intros [->|Hv]; [lra|]. specialize (IH Hv). lra.
Qed.
Lemma norm_le_norm1 v : norm v <= norm1 v.
Proof.
  unfold norm. apply sqrt_le_intro; [apply norm1_nonneg|]. unfold norm1. induction v as [|x v IH]; cbn [map rsum dot]; [lra|].
  pose proof (norm1_nonneg v) as N. unfold norm1 in N. pose proof (Rabs_pos x). assert (E : x * x = Rabs x * Rabs x) by (rewrite <- Rabs_mult; symmetry; apply Rabs_pos_eq; nra).
  rewrite E. nra.
Qed.
Lemma norm1_bound v : Forall moderate v -> norm1 v <= INR (length v) * bpow radix2 500.
Proof.
  unfold norm1. induction 1 as [|x v Hx Hv IH]; cbn [map rsum]; [cbn [length INR]; lra|]. cbn [length]. rewrite S_INR.
  assert (Rabs x <= bpow radix2 500); [|lra]. destruct Hx as [->|[_ H]]; [rewrite Rabs_R0; apply bpow_ge_0|exact H].
Qed.
Lemma norm1_unit v : 0 < norm1 v -> norm1 (map (fun x => x / norm1 v) v) = 1.
Proof.
  intros H. set (s := norm1 v) in *. assert (G : forall l, norm1 (map (fun x => x / s) l) = norm1 l / s).
  { unfold norm1. induction l as [|x l IH]; cbn [map rsum]; [unfold Rdiv; ring|]. rewrite IH. unfold Rdiv. rewrite Rabs_mult, (Rabs_pos_eq (/ s)); [ring|]. apply Rlt_le, Rinv_0_lt_compat. exact H. }
  rewrite G. fold s. field. lra.
Qed.

(** A non-preferred solution's objectives: doubles, each 0 or between 2^-500 and 2^500 in size, not all 0. *)
Definition ordinary_solution (n : nat) (z : list R) : Prop := length z = n /\ Forall double z /\ Forall moderate z /\ exists x, In x z /\ x <> 0.

Section Direction.
Context (t : order) (n : nat) (z : list R) (N1 : (1 <= n)%nat) (Hn : (n <= 2 ^ 20)%nat) (Ht : Permutation (leaves t) (seq 0 n)) (Hz : ordinary_solution n z).
Notation k := (INR (n + 4) * u).

Lemma norm1_pos : bpow radix2 (-500) <= norm1 z.
Proof.
  destruct Hz as (_ & _ & M & x & Hx & X0). rewrite Forall_forall in M. destruct (M x Hx) as [E|[E _]]; [contradiction|].
  apply Rle_trans with (1 := E). apply entry_le_norm1. exact Hx.
Qed.
Lemma norm1_err : (1 - k) * norm1 z <= norm1_fl t z <= (1 + 2 * k) * norm1 z.
Proof.
  destruct Hz as (L & D & M & _). destruct (small_units n N1 Hn) as (Z & Zu & Zn). pose proof u_pos as U0. pose proof u_small as U1.
  destruct (sum_fl_err t (fun i => Rabs (nth i z 0))) as (_ & _ & A).
  { intros i _. destruct (nth_in_or_default i z 0) as [Hi|Hi]; [|left; rewrite Hi; apply Rabs_R0]. rewrite Forall_forall in M. destruct (M _ Hi) as [E|[E _]]; [left; rewrite E; apply Rabs_R0|right].
    apply Rle_trans with (2 := E). apply bpow_le. lia. }
  rewrite (norm1_sum t z) in A by (rewrite L; exact Ht). unfold norm1_fl. assert (Ll : length (leaves t) = n) by (rewrite (Permutation_length Ht); apply seq_length). rewrite Ll in A.
  pose proof (pow_minus u n ltac:(lra)) as P1. pose proof (pow_plus u n ltac:(lra) ltac:(lra)) as P2. pose proof (norm1_nonneg z) as S0. split.
  - apply Rle_trans with (2 := proj1 A). apply Rmult_le_compat_r; lra.
  - apply Rle_trans with (1 := proj2 A). apply Rmult_le_compat_r; lra.
Qed.

(** The computed direction: every entry is that of the solution over its sum of absolute values, up to the factor 1 + 3 (n + 4) 2^-53. *)
Lemma direction_err : exists c, direction1_fl t z = Some c /\ length c = n /\ Forall double c /\
  Forall2 (fun x y => Rabs (y - x) <= 3 * k * Rabs x + 0) (map (fun x => x / norm1 z) z) c.
Proof.
  pose proof norm1_pos as S0. pose proof norm1_err as [A B]. pose proof (bpow_gt_0 radix2 (-500)) as P. destruct (small_units n N1 Hn) as (Z & Zu & Zn). pose proof u_pos as U0. pose proof u_small as U1.
  destruct Hz as (L & D & M & _). pose proof (norm1_bound z M) as SB. rewrite L in SB. pose proof (INR_2pow20 n Hn) as I20.
  set (S := norm1 z) in *. set (N := norm1_fl t z) in *. set (kk := k) in *.
  assert (SB2 : S <= bpow radix2 520). { apply Rle_trans with (1 := SB). change 520%Z with (20 + 500)%Z. rewrite (bpow_plus radix2 20 500). apply Rmult_le_compat_r; [apply bpow_ge_0|exact I20]. }
  assert (N0 : 0 < N) by nra. assert (NB : N <= bpow radix2 521). { change 521%Z with (1 + 520)%Z. rewrite bpow_plus. change (bpow radix2 1) with 2. nra. }
  unfold direction1_fl. fold N. cbv zeta. destruct (Req_EM_T N 0) as [E|_]; [lra|]. eexists. split; [reflexivity|]. split; [rewrite map_length; exact L|].
  split; [apply Forall_forall; intros y Hy; apply in_map_iff in Hy; destruct Hy as (x & <- & _); apply fl_double|].
  assert (I0 : 0 < / S) by (apply Rinv_0_lt_compat; lra). assert (J0 : 0 < / N) by (apply Rinv_0_lt_compat; lra).
  (* / N = / S up to 2 kk *)
  assert (SI : S * / S = 1) by (apply Rinv_r; lra). assert (NI : N * / N = 1) by (apply Rinv_r; lra).
  assert (SN : S * / N <= 1 + 2 * kk). { assert ((1 - kk) * (S * / N) <= 1) by (apply Rle_trans with (N * / N); [rewrite <- Rmult_assoc; apply Rmult_le_compat_r; lra|lra]). assert (0 < S * / N) by (apply Rmult_lt_0_compat; lra). nra. }
  assert (SN2 : 1 - 2 * kk <= S * / N). { assert (1 <= (1 + 2 * kk) * (S * / N)) by (apply Rle_trans with (N * / N); [lra|rewrite <- Rmult_assoc; apply Rmult_le_compat_r; lra]). assert (0 < S * / N) by (apply Rmult_lt_0_compat; lra). nra. }
  assert (Entry : forall x, In x z -> Rabs (fl (x / N) - x / S) <= 3 * kk * Rabs (x / S) + 0).
  { intros x Hx. rewrite Forall_forall in M. destruct (M x Hx) as [->|[X1 X2]]; [unfold Rdiv; rewrite !Rmult_0_l, fl_0, Rminus_0_r, Rabs_R0; lra|].
    assert (E : x / N = (S * / N) * (x / S)) by (unfold Rdiv; field; lra). set (y := x / S) in *. set (m := S * / N) in *.
    assert (F : Rabs (fl (x / N) - x / N) <= u * Rabs (x / N)).
    { apply fl_err_normal. unfold Rdiv. rewrite Rabs_mult, (Rabs_pos_eq (/ N)) by lra. apply Rle_trans with (bpow radix2 (-500) * bpow radix2 (-521)); [rewrite <- bpow_plus; apply bpow_le; lia|].
      apply Rmult_le_compat; try apply bpow_ge_0; [exact X1|]. change (bpow radix2 (-521)) with (bpow radix2 (- (521))). rewrite bpow_opp. apply Rinv_le_contravar; assumption. }
    rewrite E in F. rewrite Rabs_mult, (Rabs_pos_eq m) in F by lra. rewrite E.
    replace (fl (m * y) - y) with ((fl (m * y) - m * y) + (m - 1) * y) by ring. apply Rle_trans with (1 := Rabs_triang _ _). rewrite Rabs_mult.
    assert (M1 : Rabs (m - 1) <= 2 * kk) by (apply Rabs_le; lra). pose proof (Rabs_pos y) as Y0.
    assert (Rabs (m - 1) * Rabs y <= 2 * kk * Rabs y) by (apply Rmult_le_compat_r; assumption). assert (u * (m * Rabs y) <= kk * Rabs y); [|lra].
    rewrite <- Rmult_assoc. apply Rmult_le_compat_r; [exact Y0|]. nra. }
  clear - Entry. assert (G : forall l, (forall x, In x l -> In x z) -> Forall2 (fun x y => Rabs (y - x) <= 3 * kk * Rabs x + 0) (map (fun x => x / S) l) (map (fun x => fl (x / N)) l)).
  { induction l as [|x l IH]; intros Hl; cbn [map]; [apply Forall2_nil|]. apply Forall2_cons; [apply Entry, Hl; left; reflexivity|]. apply IH. intros y Hy. apply Hl. right. exact Hy. }
  apply G. auto.
Qed.
End Direction.

(** C144. The computed distance of a reference vector from a non-preferred solution (divided by the sum of its absolute values) is the true one up to (n + 4) * 2^-49, in whatever order the sums are made. *)
Theorem C144_distance : forall t1 t2 n z v, (1 <= n)%nat -> (n <= 2 ^ 20)%nat -> Permutation (leaves t1) (seq 0 n) -> Permutation (leaves t2) (seq 0 n) -> ordinary_solution n z ->
  length v = n -> Forall double v -> norm v <= 2 ->
  exists c, direction1_fl t1 z = Some c /\ Rabs (distance_fl t2 v c - norm (vsub (map (fun x => x / norm1 z) z) v)) <= INR (n + 4) * bpow radix2 (-49).
Proof.
  intros t1 t2 n z v N1 Hn H1 H2 Hz Lv Dv Nv. destruct (direction_err t1 n z N1 Hn H1 Hz) as (c & Ec & Lc & Dc & F). exists c. split; [exact Ec|].
  destruct (small_units n N1 Hn) as (Z & Zu & Zn). pose proof u_pos as U0. pose proof u_small as U1. pose proof (norm1_pos n z Hz) as S0. pose proof (bpow_gt_0 radix2 (-500)) as P. destruct Hz as (Lz & _).
  assert (U49 : INR (n + 4) * bpow radix2 (-49) = 16 * (INR (n + 4) * u)) by (change (-49)%Z with (4 + -53)%Z; rewrite bpow_plus; change (bpow radix2 4) with 16; ring). rewrite U49.
  set (x := map (fun x => x / norm1 z) z) in *. assert (Lx : length x = n) by (unfold x; rewrite map_length; exact Lz).
  assert (Nx : norm x <= 1) by (apply Rle_trans with (1 := norm_le_norm1 x); unfold x; rewrite norm1_unit by lra; lra).
  set (k := INR (n + 4) * u) in *. pose proof (norm_close (3 * k) 0 x c ltac:(lra) ltac:(lra) F) as NC. rewrite Rmult_0_r, Rplus_0_r in NC.
  pose proof (norm_le_sum (vsub c v) (vsub x v)) as T1. assert (Lcv : length (vsub c v) = n) by (unfold vsub; rewrite vmap2_length; congruence). assert (Lxv : length (vsub x v) = n) by (unfold vsub; rewrite vmap2_length; congruence).
  specialize (T1 ltac:(congruence)). assert (EV : vsub (vsub c v) (vsub x v) = vsub c x).
  { clear - Lc Lx Lv. assert (G : forall a b e : list R, length a = length b -> length a = length e -> vsub (vsub a e) (vsub b e) = vsub a b); [|apply G; congruence].
    unfold vsub. induction a as [|p a IH]; intros [|y b] [|w e] A B; try discriminate; [reflexivity|]. cbn [vmap2]. f_equal; [ring|apply IH; [injection A|injection B]; auto]. }
  rewrite EV in T1.
  assert (Tri : norm (vsub x v) <= norm x + norm v).
  { apply sqrt_le_intro; [pose proof (norm_nonneg x); pose proof (norm_nonneg v); lra|]. rewrite dot_sub_l, !dot_sub_r by congruence. rewrite (dot_comm v x).
    pose proof (dot_le_norms x v ltac:(congruence)) as Q. apply Rabs_le_inv in Q. pose proof (norm_sq x). pose proof (norm_sq v). pose proof (norm_nonneg x). pose proof (norm_nonneg v). nra. }
  destruct (square_sum_bounds t2 v c ltac:(lia) ltac:(congruence) ltac:(rewrite Lv; exact H2) Dv Dc) as (Q0 & Q1). rewrite Lv in Q1. unfold distance_fl. set (D := dot (vsub c v) (vsub c v)) in *.
  pose proof (INR_2pow20 n Hn) as I20. pose proof (pos_INR n) as In0. set (e := INR n * bpow radix2 (-1075)) in *. assert (e0 : 0 <= e) by (apply Rmult_le_pos; [exact In0|apply bpow_ge_0]).
  assert (D0 : 0 <= D) by apply dot_self_nonneg. assert (Zn2 : (INR n + 2) * u <= k) by (unfold k; apply Rmult_le_compat_r; [lra|]; rewrite plus_INR; change (INR 4) with (1 + 1 + 1 + 1); lra). assert (Zn3 : 0 <= (INR n + 2) * u) by (apply Rmult_le_pos; lra).
  pose proof (root_near k (square_sum_fl t2 v c) D e (fl (sqrt (square_sum_fl t2 v c))) Z Zu D0 e0 Q0) as RN.
  assert (RN1 : (1 - k) * D - e <= square_sum_fl t2 v c <= (1 + 2 * k) * (D + e)).
  { split; [apply Rle_trans with (2 := proj1 Q1)|apply Rle_trans with (1 := proj2 Q1)].
    - assert (((INR n + 2) * u) * D <= k * D) by (apply Rmult_le_compat_r; assumption). lra.
    - apply Rmult_le_compat_r; lra. }
  specialize (RN RN1 (double_sqrt_err _ (square_sum_double t2 v c) Q0)). change (sqrt D) with (norm (vsub c v)) in RN.
  assert (Se : 2 * sqrt e <= k).
  { apply Rle_trans with u; [|lra]. assert (sqrt e <= bpow radix2 (-527)).
    { apply sqrt_le_intro; [apply bpow_ge_0|]. rewrite <- bpow_plus. unfold e. apply Rle_trans with (bpow radix2 20 * bpow radix2 (-1075)); [apply Rmult_le_compat_r; [apply bpow_ge_0|exact I20]|].
      rewrite <- bpow_plus. apply bpow_le. lia. }
    apply Rle_trans with (2 * bpow radix2 (-527)); [lra|]. change 2 with (bpow radix2 1) at 1. rewrite <- bpow_plus. apply bpow_le. lia. }
  apply Rabs_le_inv in RN, T1. set (a := norm (vsub c v)) in *. set (b := norm (vsub x v)) in *. set (w := norm (vsub c x)) in *. set (q := fl (sqrt (square_sum_fl t2 v c))) in *.
  assert (a0 : 0 <= a) by apply norm_nonneg. assert (w1 : w <= 3 * k) by (assert (3 * k * norm x <= 3 * k * 1) by (apply Rmult_le_compat_l; lra); lra).
  assert (a1 : a <= 4) by lra. assert (ka : k * a <= k * 4) by (apply Rmult_le_compat_l; lra). assert (a2 : a <= 3 + 3 * k) by lra. assert (ka2 : k * a <= k * (3 + 3 * k)) by (apply Rmult_le_compat_l; lra). assert (kk : k * k <= / 1000000 * k) by (apply Rmult_le_compat_r; lra).
  clearbody a b w q. apply Rabs_le. split; lra.
Qed.

(** C144. So a reference vector further than 0.2 + (n + 4) * 2^-48 from every non-preferred solution is kept... *)
Theorem C144_far_kept : forall t1 t2 n zs v, (1 <= n)%nat -> (n <= 2 ^ 20)%nat -> Permutation (leaves t1) (seq 0 n) -> Permutation (leaves t2) (seq 0 n) -> (forall z, In z zs -> ordinary_solution n z) ->
  length v = n -> Forall double v -> norm v <= 2 ->
  (forall z, In z zs -> 2 / 10 + INR (n + 4) * bpow radix2 (-48) <= norm (vsub (map (fun x => x / norm1 z) z) v)) -> far_enough_fl t1 t2 zs v = true.
Proof.
  intros t1 t2 n zs v N1 Hn H1 H2 Hz Lv Dv Nv Hd. unfold far_enough_fl. apply forallb_forall. intros z Hi. destruct (C144_distance t1 t2 n z v N1 Hn H1 H2 (Hz z Hi) Lv Dv Nv) as (c & -> & E). specialize (Hd z Hi).
  destruct (Rle_dec _ _) as [_|X]; [reflexivity|]. exfalso. apply X. apply Rabs_le_inv in E. destruct (small_units n N1 Hn) as (Z & Zu & Zn). pose proof u_pos as U0. pose proof u_small as U1.
  pose proof (fl_pos_err (2 / 10)) as F. assert (F0 : bpow radix2 (-1022) <= 2 / 10) by (apply Rle_trans with (bpow radix2 (-3)); [apply bpow_le; lia|cbn; lra]). destruct (F (or_introl F0)) as [_ F1].
  assert (A : bpow radix2 (-48) = 32 * u) by (change (-48)%Z with (5 + -53)%Z; rewrite bpow_plus; reflexivity). assert (B : bpow radix2 (-49) = 16 * u) by (change (-49)%Z with (4 + -53)%Z; rewrite bpow_plus; reflexivity).
  rewrite A in Hd. rewrite B in E. replace (INR (n + 4) * (32 * u)) with (32 * (INR (n + 4) * u)) in Hd by ring. replace (INR (n + 4) * (16 * u)) with (16 * (INR (n + 4) * u)) in E by ring. lra.
Qed.

(** C144. ... and one nearer than 0.2 - (n + 4) * 2^-48 to one of them is dropped. *)
Theorem C144_near_dropped : forall t1 t2 n zs v z, (1 <= n)%nat -> (n <= 2 ^ 20)%nat -> Permutation (leaves t1) (seq 0 n) -> Permutation (leaves t2) (seq 0 n) -> In z zs -> ordinary_solution n z ->
  length v = n -> Forall double v -> norm v <= 2 ->
  norm (vsub (map (fun x => x / norm1 z) z) v) <= 2 / 10 - INR (n + 4) * bpow radix2 (-48) -> far_enough_fl t1 t2 zs v = false.
Proof.
  intros t1 t2 n zs v z N1 Hn H1 H2 Hi Hz Lv Dv Nv Hd. destruct (C144_distance t1 t2 n z v N1 Hn H1 H2 Hz Lv Dv Nv) as (c & Ec & E).
  destruct (far_enough_fl t1 t2 zs v) eqn:Ef; [|reflexivity]. exfalso. unfold far_enough_fl in Ef. rewrite forallb_forall in Ef. specialize (Ef z Hi). rewrite Ec in Ef.
  destruct (Rle_dec _ _) as [X|_]; [|discriminate]. apply Rabs_le_inv in E. destruct (small_units n N1 Hn) as (Z & Zu & Zn). pose proof u_pos as U0. pose proof u_small as U1.
  pose proof (fl_pos_err (2 / 10)) as F. assert (F0 : bpow radix2 (-1022) <= 2 / 10) by (apply Rle_trans with (bpow radix2 (-3)); [apply bpow_le; lia|cbn; lra]). destruct (F (or_introl F0)) as [F1 _].
  assert (A : bpow radix2 (-48) = 32 * u) by (change (-48)%Z with (5 + -53)%Z; rewrite bpow_plus; reflexivity). assert (B : bpow radix2 (-49) = 16 * u) by (change (-49)%Z with (4 + -53)%Z; rewrite bpow_plus; reflexivity).
  rewrite A in Hd. rewrite B in E. replace (INR (n + 4) * (32 * u)) with (32 * (INR (n + 4) * u)) in Hd by ring. replace (INR (n + 4) * (16 * u)) with (16 * (INR (n + 4) * u)) in E by ring. lra.
Qed.

(** C144. When no reference vector lies that close to the threshold, exactly the vectors exact arithmetic keeps are kept, in the same order. *)
Theorem C144_exact : forall t1 t2 n init values planar zs n_solutions, (1 <= n)%nat -> (n <= 2 ^ 20)%nat -> Permutation (leaves t1) (seq 0 n) -> Permutation (leaves t2) (seq 0 n) -> (forall z, In z zs -> ordinary_solution n z) ->
  (forall v, In v planar -> length v = n /\ Forall double v /\ norm v <= 2) -> length zs <> n_solutions ->
  (forall v z, In v planar -> In z zs -> INR (n + 4) * bpow radix2 (-48) <= Rabs (norm (vsub (map (fun x => x / norm1 z) z) v) - 2 / 10)) ->
  non_preferred_fl t1 t2 init values planar zs n_solutions = masked (map (far_enough (2 / 10) zs) planar) values.
Proof.
  intros t1 t2 n init values planar zs ns N1 Hn H1 H2 Hz Hp Hl Hg. unfold non_preferred_fl. destruct (Nat.eqb_spec (length zs) ns) as [E|_]; [contradiction|]. f_equal. apply map_ext_in. intros v Hv. destruct (Hp v Hv) as (Lv & Dv & Nv).
  destruct (small_units n N1 Hn) as (Z & _). pose proof u_pos as U0. assert (K0 : 0 < INR (n + 4) * bpow radix2 (-48)) by (apply Rmult_lt_0_compat; [apply lt_0_INR; lia|apply bpow_gt_0]).
  set (k := INR (n + 4) * bpow radix2 (-48)) in *. destruct (far_enough (2 / 10) zs v) eqn:E; unfold far_enough in E.
  - rewrite forallb_forall in E. apply (C144_far_kept t1 t2 n zs v N1 Hn H1 H2 Hz Lv Dv Nv). intros z Hi. fold k. specialize (E z Hi). destruct (Rle_dec _ _) as [A|A]; [|discriminate]. specialize (Hg v z Hv Hi). rewrite Rabs_pos_eq in Hg by lra. lra.
  - assert (X : exists z, In z zs /\ (if Rle_dec (2 / 10) (norm (vsub (map (fun x => x / norm1 z) z) v)) then true else false) = false).
    { clear - E. induction zs as [|z zs IH]; cbn [forallb] in E; [discriminate|]. apply Bool.andb_false_iff in E. destruct E as [E|E]; [exists z; split; [left; reflexivity|exact E]|]. destruct (IH E) as (y & A & B). exists y. split; [right; exact A|exact B]. }
    destruct X as (z & Hi & A). apply (C144_near_dropped t1 t2 n zs v z N1 Hn H1 H2 Hi (Hz z Hi) Lv Dv Nv). fold k. destruct (Rle_dec _ _) as [B|B]; [discriminate|]. specialize (Hg v z Hv Hi). rewrite Rabs_left in Hg by lra. lra.
Qed.

(** C144 (false of the code). One non-preferred solution with all objectives 0 becomes NaN and drops every reference vector, however many there are and wherever they are. *)
Theorem C144_origin_refuted : forall t1 t2 init values planar zs z n_solutions, In z zs -> (forall x, In x z -> x = 0) -> length zs <> n_solutions -> length planar = length values ->
  non_preferred_fl t1 t2 init values planar zs n_solutions = Ok [].
Proof.
  intros t1 t2 init values planar zs z ns Hi H0 Hl Hp. unfold non_preferred_fl. destruct (Nat.eqb_spec (length zs) ns) as [E|_]; [contradiction|].
  assert (N0 : direction1_fl t1 z = None).
  { unfold direction1_fl, norm1_fl. cbv zeta. assert (S : forall t, sum_fl t (fun i => fl (Rabs (nth i z 0))) = 0).
    { induction t as [i|l IHl r IHr]; cbn [sum_fl]; [|rewrite IHl, IHr, Rplus_0_l; apply fl_0]. destruct (nth_in_or_default i z 0) as [Hx| ->]; [rewrite (H0 _ Hx)|]; rewrite Rabs_R0; apply fl_0. }
    rewrite S. destruct (Req_EM_T 0 0) as [_|X]; [reflexivity|exfalso; apply X; reflexivity]. }
  assert (F : forall v, far_enough_fl t1 t2 zs v = false).
  { intros v. destruct (far_enough_fl t1 t2 zs v) eqn:E; [|reflexivity]. unfold far_enough_fl in E. rewrite forallb_forall in E. specialize (E z Hi). rewrite N0 in E. discriminate. }
  unfold masked. rewrite map_length, Hp, Nat.eqb_refl. f_equal. clear - F Hp. revert values Hp. induction planar as [|p planar IH]; intros [|w values] Hp; try discriminate; cbn [map mask_sel]; [reflexivity|]. rewrite F. apply IH. injection Hp. auto.
Qed.

(** The hypotheses are met: the objectives (3, 1), the planar vectors (1, 0) (kept: the distance is about 0.35)... *)
Example ex_solution : ordinary_solution 2 [3; 1] /\ norm [1; 0] <= 2 /\ Forall double [1; 0] /\ norm1 [3; 1] = 4.
Proof.
  assert (D1 : double 1) by (change 1 with (bpow radix2 0); apply double_bpow; lia).
  assert (D0 : double 0) by (rewrite <- fl_0; apply fl_double).
  assert (D3 : double 3). { unfold double. apply generic_format_FLT. exists (Float radix2 3 0); [unfold F2R; cbn; lra|cbn; lia|cbn; lia]. }
  split; [|split; [|split]].
  - split; [reflexivity|]. split; [constructor; [exact D3|constructor; [exact D1|constructor]]|]. split.
    + assert (G : forall x, 1 <= x <= 4 -> moderate x).
      { intros x Hx. right. rewrite Rabs_pos_eq by lra. assert (A : bpow radix2 (-500) <= bpow radix2 0) by (apply bpow_le; lia). assert (B : bpow radix2 2 <= bpow radix2 500) by (apply bpow_le; lia).
        change (bpow radix2 0) with 1 in A. change (bpow radix2 2) with 4 in B. lra. }
      constructor; [apply G; lra|]. constructor; [apply G; lra|constructor].
    + exists 1. split; [right; left; reflexivity|lra].
  - unfold norm. apply sqrt_le_intro; cbn; lra.
  - constructor; [exact D1|constructor; [exact D0|constructor]].
  - unfold norm1. cbn. rewrite !Rabs_pos_eq by lra. lra.
Qed.
(** ... kept, ... *)
Example ex_kept : 2 / 10 + INR (2 + 4) * bpow radix2 (-48) <= norm (vsub (map (fun x => x / norm1 [3; 1]) [3; 1]) [1; 0]).
Proof.
  destruct ex_solution as (_ & _ & _ & ->). unfold norm. assert (B : bpow radix2 (-48) <= / 100) by (apply Rle_trans with (bpow radix2 (-7)); [apply bpow_le; lia|cbn; lra]).
  apply Rle_trans with (3 / 10); [cbn [INR plus]; lra|]. rewrite <- (sqrt_square (3 / 10)) by lra. apply sqrt_le_1_alt. cbn. lra.
Qed.
(** ... and the vector (0.75, 0.25) in the solution's own direction dropped. *)
Example ex_dropped : norm (vsub (map (fun x => x / norm1 [3; 1]) [3; 1]) [3 / 4; 1 / 4]) <= 2 / 10 - INR (2 + 4) * bpow radix2 (-48).
Proof.
  destruct ex_solution as (_ & _ & _ & ->). unfold norm. assert (B : bpow radix2 (-48) <= / 100) by (apply Rle_trans with (bpow radix2 (-7)); [apply bpow_le; lia|cbn; lra]).
  apply Rle_trans with 0; [apply sqrt_le_intro; cbn; lra|cbn [INR plus]; lra].
Qed.

Print Assumptions C144_distance.
Print Assumptions C144_far_kept.
Print Assumptions C144_near_dropped.
Print Assumptions C144_exact.
Print Assumptions C144_origin_refuted.
