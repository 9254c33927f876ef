(** C137: unit length and distinctness of reference vectors in double precision. *)
From Coq Require Import Reals Lra Lia Permutation.
From Flocq Require Import Core.
From Verif Require Import Base RVec M_RefVec Properties_RefVec M_Double P_Double M_RefDouble P_RefDouble.
Open Scope R_scope.

(** ** Length. [moderate x]: x is 0 or 2^-500 <= |x| <= 2^500. *)
(** C137 (partial). Rows of at most 2^20 entries, moderate and not all zero, are divided by one positive number up to one rounding each - zeros stay zeros, signs stay, the direction is kept - and get length 1 up to
    (n + 4) * 2^-51, in whatever order the squares are added. Missing: entries outside that range. *)
Theorem C137_unit_length_partial : forall (t : order) (v : list R), (length v <= 2 ^ 20)%nat -> Permutation (leaves t) (seq 0 (length v)) -> Forall moderate v -> (exists x, In x v /\ x <> 0) ->
  Rabs (norm (unit_row_fl t v) - 1) <= INR (length v + 4) * bpow radix2 (-51) /\
  exists l, 0 < l /\ Forall2 (fun x y => Rabs (y - l * x) <= bpow radix2 (-53) * (l * Rabs x)) v (unit_row_fl t v).
Proof. intros t v Hn Ht Hm Hz. split; [apply norm_err; assumption|apply unit_row_scaled; assumption]. Qed.

(** C137 (partial). Adaptation: every adapted vector has length 1 and is the initial one stretched by the ranges, both up to rounding. Missing: ranges and entries that are extremely small or large. *)
Theorem C137_adapt_partial : forall (t : order) init fitness n, let ranges := ranges_fl fitness in (n <= 2 ^ 20)%nat -> Permutation (leaves t) (seq 0 n) -> length ranges = n -> Forall (fun r => bpow radix2 (-250) <= r <= bpow radix2 250) ranges ->
  (forall v, In v init -> length v = n /\ (forall x, In x v -> x = 0 \/ bpow radix2 (-250) <= Rabs x <= bpow radix2 250) /\ exists x, In x v /\ x <> 0) ->
  Forall2 (fun v w => Rabs (norm w - 1) <= INR (n + 4) * bpow radix2 (-51) /\ exists l, 0 < l /\ Forall2 (fun a b => Rabs (b - l * a) <= bpow radix2 (-51) * (l * Rabs a)) (vmap2 Rmult v ranges) w) init (adapt_fl t init fitness).
Proof.
  intros t init fitness n ranges Hn Ht Lr Hr Hv. unfold adapt_fl. fold ranges. apply (Forall2_self (fun v w => Rabs (norm w - 1) <= INR (n + 4) * bpow radix2 (-51) /\ exists l, 0 < l /\ Forall2 (fun a b => Rabs (b - l * a) <= bpow radix2 (-51) * (l * Rabs a)) (vmap2 Rmult v ranges) w)).
  intros v Hi. destruct (Hv v Hi) as (Lv & Rv & Nz). clear Hv Hi.
  assert (Hp : forall x, In x (vmap2 Rmult v ranges) -> x = 0 \/ bpow radix2 (-500) <= Rabs x <= bpow radix2 500).
  { intros x Hx. apply In_nth_error in Hx. destruct Hx as [i Hi]. rewrite vmap2_nth in Hi. destruct (nth_error v i) as [a|] eqn:Ea; [|discriminate]. destruct (nth_error ranges i) as [r|] eqn:Er; [|discriminate]. injection Hi as <-.
    rewrite Forall_forall in Hr. specialize (Hr r (nth_error_In _ _ Er)). pose proof (bpow_gt_0 radix2 (-250)). pose proof (bpow_gt_0 radix2 250). destruct (Rv a (nth_error_In _ _ Ea)) as [->|[A B]]; [left; ring|right]. rewrite Rabs_mult, (Rabs_pos_eq r) by lra.
    change 500%Z with (250 + 250)%Z. change (-500)%Z with (-250 + -250)%Z. rewrite !bpow_plus. split; apply Rmult_le_compat; lra. }
  assert (Hf : forall x, In x (vmap2 Rmult v ranges) -> moderate (fl x) /\ Rabs (fl x - x) <= bpow radix2 (-53) * Rabs x).
  { intros x Hx. destruct (Hp x Hx) as [->|[A B]]; [rewrite fl_0; split; [left; reflexivity|rewrite Rminus_0_r, Rabs_R0; lra]|]. split; [right|apply fl_err_normal; apply Rle_trans with (2 := A); apply bpow_le; lia].
    assert (F : Rabs (fl x) = fl (Rabs x)). { destruct (Rcase_abs x) as [N|N]; [rewrite (Rabs_left x N), fl_opp; apply Rabs_left1; rewrite <- fl_0; apply fl_mono; lra|]. rewrite (Rabs_right x N). apply Rabs_pos_eq. rewrite <- fl_0. apply fl_mono. lra. }
    rewrite F. rewrite <- (fl_id (bpow radix2 (-500))), <- (fl_id (bpow radix2 500)); [split; apply fl_mono; assumption| |]; apply generic_format_FLT_bpow; [reflexivity|lia|reflexivity|lia]. }
  assert (Lm : length (map fl (vmap2 Rmult v ranges)) = n) by (rewrite map_length, vmap2_length; congruence).
  assert (M : Forall moderate (map fl (vmap2 Rmult v ranges))) by (apply Forall_map, Forall_forall; intros x Hx; apply Hf; exact Hx).
  assert (Z : exists x, In x (map fl (vmap2 Rmult v ranges)) /\ x <> 0).
  { destruct Nz as (x & Hx & N). apply In_nth_error in Hx. destruct Hx as [i Hi]. assert (Hr' : exists r, nth_error ranges i = Some r). { destruct (nth_error ranges i) eqn:X; [eauto|]. apply nth_error_None in X. assert (i < length v)%nat by (apply nth_error_Some; congruence). lia. }
    destruct Hr' as [r Er]. assert (Hx : In (x * r) (vmap2 Rmult v ranges)) by (apply nth_error_In with i; rewrite vmap2_nth, Hi, Er; reflexivity). exists (fl (x * r)). split; [apply in_map; exact Hx|].
    destruct (Hf _ Hx) as [_ E]. rewrite Forall_forall in Hr. specialize (Hr r (nth_error_In _ _ Er)). pose proof (bpow_gt_0 radix2 (-250)). intros Q. rewrite Q in E. rewrite Rminus_0_l, Rabs_Ropp in E. pose proof u_small.
    assert (0 < Rabs (x * r)) by (apply Rabs_pos_lt; apply Rmult_integral_contrapositive_currified; [exact N|lra]). nra. }
  assert (Pt : Permutation (leaves t) (seq 0 (length (map fl (vmap2 Rmult v ranges))))) by (rewrite Lm; exact Ht). assert (Hn' : (length (map fl (vmap2 Rmult v ranges)) <= 2 ^ 20)%nat) by (rewrite Lm; exact Hn).
  destruct (C137_unit_length_partial t _ Hn' Pt M Z) as (A & l & L0 & B). rewrite Lm in A. split; [exact A|]. exists l. split; [exact L0|]. clear - B Hf L0.
  set (w := unit_row_fl t _) in *. clearbody w. revert w B. induction (vmap2 Rmult v ranges) as [|x xs IH]; intros w B; inversion B; subst; [constructor|]. constructor; [|apply IH; [intros y0 Hy; apply Hf; right; exact Hy|assumption]].
  destruct (Hf x (or_introl eq_refl)) as [_ E]. pose proof u_pos. pose proof u_small. change (-51)%Z with (2 + -53)%Z. rewrite bpow_plus. change (bpow radix2 2) with 4. set (u := bpow radix2 (-53)) in *.
  match goal with H : Rabs (?y - l * fl x) <= _ |- Rabs (?y - l * x) <= _ => pose proof (Rabs_triang (y - l * fl x) (l * (fl x - x))) as T; replace (y - l * fl x + l * (fl x - x)) with (y - l * x) in T by ring end.
  rewrite (Rabs_mult l), (Rabs_pos_eq l) in T by lra. pose proof (Rabs_triang x (fl x - x)) as T2. replace (x + (fl x - x)) with (fl x) in T2 by ring. pose proof (Rabs_pos x).
  assert (Rabs (fl x) <= 2 * Rabs x) by nra. assert (l * Rabs (fl x - x) <= l * (u * Rabs x)) by (apply Rmult_le_compat_l; lra). assert (u * (l * Rabs (fl x)) <= u * (l * (2 * Rabs x))) by (apply Rmult_le_compat_l; [lra|]; apply Rmult_le_compat_l; lra). assert (0 <= u * (l * Rabs x)) by (apply Rmult_le_pos; [lra|]; apply Rmult_le_pos; lra).
  match goal with H : Rabs (y - l * fl x) <= _ |- _ => apply Rle_trans with (1 := T); replace (4 * u * (l * Rabs x)) with (u * (l * (2 * Rabs x)) + l * (u * Rabs x) + u * (l * Rabs x)) by ring; lra end.
Qed.

(** ** Outside that range *)
Lemma fl_nearest z d : double d -> Rabs (fl z - z) <= Rabs (d - z).
Proof. intros D. unfold fl. apply (proj2 (@round_N_pt radix2 (FLT_exp (-1074) 53) ltac:(apply FLT_exp_valid; reflexivity) (fun x => negb (Z.even x)) z)). exact D. Qed.
(** Among the smallest doubles. *)
Lemma fl_grid (k : Z) z : (Z.abs k < 2 ^ 53)%Z -> Rabs (z - IZR k * bpow radix2 (-1074)) < / 2 * bpow radix2 (-1074) -> fl z = IZR k * bpow radix2 (-1074).
Proof.
  intros K H. pose proof (bpow_gt_0 radix2 (-1074)) as P. assert (D : double (IZR k * bpow radix2 (-1074))) by (apply double_intro; [exact K|lia]). pose proof (fl_nearest z _ D) as N. destruct (double_grid _ (fl_double z)) as [m E].
  rewrite E in *. assert (m = k); [|congruence]. rewrite Rabs_minus_sym in H. apply Rabs_def2 in H. assert (X : Rabs (IZR m * bpow radix2 (-1074) - z) < / 2 * bpow radix2 (-1074)) by (apply Rle_lt_trans with (1 := N); apply Rabs_def1; lra).
  apply Rabs_def2 in X. assert (A : IZR (m - k) < 1) by (rewrite minus_IZR; nra). assert (B : -1 < IZR (m - k)) by (rewrite minus_IZR; nra). apply lt_IZR in A. apply lt_IZR in B. lia.
Qed.
Lemma two_orders t : Permutation (leaves t) (seq 0 2) -> t = Node (Leaf 0) (Leaf 1) \/ t = Node (Leaf 1) (Leaf 0).
Proof.
  intros H. destruct t as [i|l r]; [apply Permutation_length in H; discriminate|]. pose proof (Permutation_length H) as L. cbn [leaves] in L. rewrite app_length in L. cbn [seq length] in L. pose proof (leaves_pos l) as Pl. pose proof (leaves_pos r) as Pr.
  assert (One : forall t, length (leaves t) = 1%nat -> exists i, t = Leaf i). { intros [i|a b] E; [eauto|]. cbn [leaves] in E. rewrite app_length in E. pose proof (leaves_pos a). pose proof (leaves_pos b). lia. }
  destruct (One l) as [i ->]; [lia|]. destruct (One r) as [j ->]; [lia|]. cbn [leaves app seq] in H. pose proof (Permutation_in 0%nat (Permutation_sym H) (or_introl eq_refl)) as A. pose proof (Permutation_in 1%nat (Permutation_sym H) (or_intror (or_introl eq_refl))) as B.
  cbn in A, B. intuition (subst; auto; try discriminate).
Qed.
Lemma double_bpow k : (-1074 <= k)%Z -> double (bpow radix2 k).
Proof. intros H. apply generic_format_FLT_bpow; [reflexivity|exact H]. Qed.
Lemma bp k m : bpow radix2 (k + m) = bpow radix2 k * bpow radix2 m.
Proof. apply bpow_plus. Qed.
(** C137 (false of the code). Squares of tiny entries underflow: a "unit" vector of length 67/64, and one of length 2^-486 (its norm is 0 and is replaced by eps). *)
Theorem C137_tiny_refuted : forall t, Permutation (leaves t) (seq 0 2) ->
  double (67 * bpow radix2 (-542)) /\ unit_row_fl t [67 * bpow radix2 (-542); 0] = [67 / 64; 0] /\
  unit_row_fl t [bpow radix2 (-538); 0] = [bpow radix2 (-486); 0].
Proof.
  intros t Ht. split; [apply double_intro; [reflexivity|lia]|].
  assert (Sum : forall x, sum_fl t (fun i => fl (nth i [x; 0] 0 * nth i [x; 0] 0)) = fl (x * x)).
  { intros x. destruct (two_orders t Ht) as [-> | ->]; cbn [sum_fl nth]; rewrite Rmult_0_l, fl_0; [rewrite Rplus_0_r|rewrite Rplus_0_l]; apply fl_id, fl_double. }
  assert (Row : forall x q, fl (x * x) < bpow radix2 1024 -> fl (sqrt (fl (x * x))) = q -> unit_row_fl t [x; 0] = let q := if Req_EM_T q 0 then bpow radix2 (-52) else q in [fl (x / q); 0]).
  { intros x q B E. unfold unit_row_fl, norm_fl. rewrite Sum. destruct (Rlt_dec _ _) as [_|X]; [|contradiction]. rewrite E. cbn [map]. destruct (Req_EM_T q 0); unfold Rdiv; rewrite Rmult_0_l, fl_0; reflexivity. }
  pose proof (bpow_gt_0 radix2 (-1084)) as P. split.
  - assert (E : fl (67 * bpow radix2 (-542) * (67 * bpow radix2 (-542))) = bpow radix2 (-1072)).
    { replace (67 * bpow radix2 (-542) * (67 * bpow radix2 (-542))) with (4489 * (bpow radix2 (-542) * bpow radix2 (-542))) by ring. rewrite <- bp. change (-542 + -542)%Z with (-1084)%Z.
      rewrite (fl_grid 4); [change (-1072)%Z with (2 + -1074)%Z; rewrite bp; reflexivity|reflexivity|]. replace (bpow radix2 (-1074)) with (1024 * bpow radix2 (-1084)) by (change (-1074)%Z with (10 + -1084)%Z; rewrite bp; reflexivity). apply Rabs_def1; lra. }
    rewrite (Row _ (bpow radix2 (-536))).
    + pose proof (bpow_gt_0 radix2 (-542)) as P2. assert (E2 : bpow radix2 (-536) = 64 * bpow radix2 (-542)) by (change (-536)%Z with (6 + -542)%Z; rewrite bp; reflexivity). destruct (Req_EM_T (bpow radix2 (-536)) 0) as [Z|_]; [lra|].
      cbv zeta. f_equal. rewrite E2. replace (67 * bpow radix2 (-542) / (64 * bpow radix2 (-542))) with (67 * / 64) by (field; lra). change (fl (67 * bpow radix2 (-6)) = 67 * bpow radix2 (-6)). apply fl_id. apply double_intro; [reflexivity|lia].
    + rewrite E. apply bpow_lt. lia.
    + rewrite E. change (-1072)%Z with (-536 + -536)%Z. rewrite bp, sqrt_square by apply bpow_ge_0. apply fl_id, double_bpow. lia.
  - assert (E : fl (bpow radix2 (-538) * bpow radix2 (-538)) = 0).
    { rewrite <- bp. rewrite (fl_grid 0); [ring|reflexivity|]. change (-538 + -538)%Z with (-1076)%Z. replace (bpow radix2 (-1074)) with (4 * bpow radix2 (-1076)) by (change (-1074)%Z with (2 + -1076)%Z; rewrite bp; reflexivity).
      pose proof (bpow_gt_0 radix2 (-1076)). apply Rabs_def1; lra. }
    rewrite (Row _ 0); [|rewrite E; apply bpow_gt_0|rewrite E, sqrt_0; apply fl_0]. destruct (Req_EM_T 0 0) as [_|N]; [|contradiction N; reflexivity]. cbv zeta. f_equal. unfold Rdiv. rewrite <- bpow_opp, <- bp. apply fl_id, double_bpow. cbn. lia.
Qed.
(** C137 (false of the code). Squares of huge entries overflow: the vector becomes zero. *)
Theorem C137_huge_refuted : forall t, Permutation (leaves t) (seq 0 2) -> unit_row_fl t [bpow radix2 512; bpow radix2 512] = [0; 0].
Proof.
  intros t Ht. unfold unit_row_fl, norm_fl. destruct (Rlt_dec _ _) as [L|_]; [|reflexivity]. exfalso. revert L. apply Rle_not_lt.
  assert (E : fl (bpow radix2 512 * bpow radix2 512) = bpow radix2 1024) by (rewrite <- bp; apply fl_id, double_bpow; lia). assert (G : bpow radix2 1024 + bpow radix2 1024 = bpow radix2 1025) by (change 1025%Z with (1 + 1024)%Z; rewrite bp; change (bpow radix2 1) with 2; ring).
  destruct (two_orders t Ht) as [-> | ->]; cbn [sum_fl nth]; rewrite E, G, fl_id by (apply double_bpow; lia); apply bpow_le; lia.
Qed.

(** ** Distinct vectors *)
(** C137. In exact arithmetic vectors of length 1 that differ from all others have a positive neighbouring angle (by which APD divides). *)
Theorem C137_distinct_exact : forall (vs : list (list R)) n i v, (forall w, In w vs -> length w = n /\ norm w = 1) -> (2 <= length vs)%nat -> nth_error vs i = Some v -> (forall j w, j <> i -> nth_error vs j = Some w -> w <> v) ->
  exists angle, nth_error (neighbouring_angles vs) i = Some (Some angle) /\ 0 < angle.
Proof.
  intros vs n i v Hu Hl Hv Hd. destruct (C75_smallest_angle vs n i v Hu Hl Hv) as (angle & A & (j & w & J1 & J2 & J3 & J4) & _). exists angle. split; [exact A|]. destruct J3 as [[L|E] _]; [exact L|]. exfalso. subst angle. rewrite cos_0 in J4.
  apply (Hd j w J1 J2). destruct (Hu v (nth_error_In _ _ Hv)) as [Lv Nv]. destruct (Hu w (nth_error_In _ _ J2)) as [Lw Nw]. pose proof (norm_sq v) as Sv. pose proof (norm_sq w) as Sw. rewrite Nv in Sv. rewrite Nw in Sw.
  assert (Z : dot (vsub w v) (vsub w v) = 0) by (rewrite dot_sub_l, !dot_sub_r by congruence; rewrite (dot_comm w v); lra). pose proof (dot_self_zero _ Z) as Q. clear - Q Lv Lw. revert v n Lv Lw Q. induction w as [|x w IH]; intros [|y v] n Lv Lw Q; cbn [length] in *; try lia; [reflexivity|].
  f_equal; [assert (x - y = 0) by (apply Q; left; reflexivity); lra|]. apply (IH v (Nat.pred n)); [lia|lia|]. intros z Hz. apply Q. right. exact Hz.
Qed.
(** C137. Vectors without negative entries: the neighbouring angle is always defined, from 0 to 90 degrees, whatever the rounding does. *)
Lemma sum_fl_nonneg t f : (forall i, In i (leaves t) -> 0 <= f i) -> 0 <= sum_fl t f.
Proof.
  induction t as [i|l IHl r IHr]; intros H; cbn [sum_fl]; [apply H; left; reflexivity|]. rewrite <- fl_0. apply fl_mono. apply Rplus_le_le_0_compat; [apply IHl|apply IHr]; intros i Hi; apply H; cbn [leaves]; apply in_or_app; auto.
Qed.
Lemma second_in l x : second_largest l = Some x -> In x l.
Proof.
  unfold second_largest. destruct (argmax l) as [k|]; [|discriminate]. destruct (argmax (drop_at k l)) as [j|]; [|discriminate]. intros H. apply nth_error_In in H. unfold drop_at in H. apply in_app_or in H.
  destruct H as [H|H]; [rewrite <- (firstn_skipn k l); apply in_or_app; left; exact H|rewrite <- (firstn_skipn (S k) l); apply in_or_app; right; exact H].
Qed.
Lemma second_some l : (2 <= length l)%nat -> exists x, second_largest l = Some x.
Proof.
  intros H. unfold second_largest. destruct (argmax_some l) as [k K]; [destruct l; [cbn in H; lia|discriminate]|]. rewrite K. pose proof (argmax_lt _ _ K) as Lk.
  assert (Ld : length (drop_at k l) = (length l - 1)%nat) by (unfold drop_at; rewrite app_length, firstn_length, skipn_length; lia).
  destruct (argmax_some (drop_at k l)) as [j J]; [destruct (drop_at k l); [cbn in Ld; lia|discriminate]|]. rewrite J. pose proof (argmax_lt _ _ J) as Lj. destruct (nth_error (drop_at k l) j) eqn:X; [eauto|]. apply nth_error_None in X. lia.
Qed.
Theorem C137_nonnegative_angles : forall t vs v, (2 <= length vs)%nat -> (forall w x, In w vs -> In x w -> 0 <= x) -> In v vs -> exists c, neighbouring_angle_fl t vs v = Some (fl (acos c)) /\ 0 <= c <= 1.
Proof.
  intros t vs v L H Hv. unfold neighbouring_angle_fl. destruct (second_some (map (dot_fl t v) vs)) as [x X]; [rewrite map_length; exact L|]. rewrite X. cbn [option_map]. exists (clip1 x). split; [reflexivity|]. apply second_in, in_map_iff in X. destruct X as (w & <- & Hw).
  assert (N : forall w i, In w vs -> 0 <= nth i w 0) by (intros w' i Hw'; destruct (nth_in_or_default i w' 0) as [A|A]; [exact (H w' _ Hw' A)|rewrite A; lra]).
  assert (0 <= dot_fl t v w) by (apply sum_fl_nonneg; intros i _; apply Rle_trans with (fl 0); [rewrite fl_0; lra|]; apply fl_mono; apply Rmult_le_pos; apply N; assumption). unfold clip1. destruct (Rlt_dec 1 _); lra.
Qed.
(** Sums of one number and at most three far smaller ones. *)
Lemma absorb c k m : (m <= 3)%nat -> (-900 <= k)%Z -> c = bpow radix2 k -> fl (c + INR m * bpow radix2 (k - 60)) = c.
Proof.
  intros M K ->. pose proof (bpow_gt_0 radix2 (k - 60)) as P. pose proof (bpow_gt_0 radix2 k) as P2. assert (D1 : double (bpow radix2 k)) by (apply double_bpow; lia). pose proof (pos_INR m) as P3. apply le_INR in M. replace (INR 3) with 3 in M by (cbn; lra).
  assert (S1 : succ radix2 (FLT_exp (-1074) 53) (bpow radix2 k) = bpow radix2 k + bpow radix2 (k - 52)).
  { rewrite succ_eq_pos by lra. f_equal. rewrite ulp_bpow. f_equal. unfold FLT_exp. lia. }
  apply Rle_antisym; [|rewrite <- (fl_id _ D1) at 1; apply fl_mono; nra].
  unfold fl. apply round_N_le_midp; [apply FLT_exp_valid; reflexivity|exact D1|]. rewrite S1. replace (bpow radix2 (k - 52)) with (256 * bpow radix2 (k - 60)) by (replace (k - 52)%Z with (8 + (k - 60))%Z by lia; rewrite bp; reflexivity). nra.
Qed.
Lemma small_sum m k : (m <= 4)%nat -> (-900 <= k)%Z -> double (INR m * bpow radix2 (k - 60)).
Proof. intros M K. rewrite INR_IZR_INZ. apply double_intro; lia. Qed.
Lemma sum_absorb c k (f : nat -> R) : (-900 <= k)%Z -> c = bpow radix2 k -> f 0%nat = c -> (forall i, i <> 0%nat -> f i = 0 \/ f i = bpow radix2 (k - 60)) ->
  forall t, NoDup (leaves t) -> (length (leaves t) <= 4)%nat -> (In 0%nat (leaves t) -> sum_fl t f = c) /\ (~ In 0%nat (leaves t) -> exists m, (m <= length (leaves t))%nat /\ sum_fl t f = INR m * bpow radix2 (k - 60)).
Proof.
  intros K Hc F0 Fi. induction t as [i|l IHl r IHr]; intros N L; cbn [leaves sum_fl] in *.
  - split; [intros [->|[]]; exact F0|]. intros H. assert (i <> 0%nat) by (intros ->; apply H; left; reflexivity). cbn [length]. destruct (Fi i H0) as [->| ->]; [exists 0%nat|exists 1%nat]; cbn [INR]; split; [lia|ring|lia|ring].
  - rewrite app_length in L. pose proof (leaves_pos l) as Pl. pose proof (leaves_pos r) as Pr. assert (Nl : NoDup (leaves l) /\ NoDup (leaves r) /\ forall x, In x (leaves l) -> ~ In x (leaves r)).
    { clear - N. induction (leaves l) as [|x a IH]; [cbn in N; split; [constructor|split; [exact N|intros ? []]]|]. cbn [app] in N. inversion N; subst. destruct (IH H2) as (A & B & D). split; [constructor; [intros X; apply H1, in_or_app; left; exact X|exact A]|].
      split; [exact B|]. intros y [<-|Hy]; [intros X; apply H1, in_or_app; right; exact X|apply D; exact Hy]. }
    destruct Nl as (Nl & Nr & Nd). destruct (IHl Nl ltac:(lia)) as [Lin Lout]. destruct (IHr Nr ltac:(lia)) as [Rin Rout]. rewrite app_length. split.
    + intros H. apply in_app_or in H. destruct H as [H|H].
      * rewrite (Lin H). destruct (Rout (Nd _ H)) as (m & M & E). rewrite E. apply absorb; [lia|exact K|exact Hc].
      * rewrite (Rin H). destruct Lout as (m & M & E); [intros X; exact (Nd _ X H)|]. rewrite E, Rplus_comm. apply absorb; [lia|exact K|exact Hc].
    + intros H. destruct Lout as (m & M & E); [intros X; apply H, in_or_app; left; exact X|]. destruct Rout as (m' & M' & E'); [intros X; apply H, in_or_app; right; exact X|]. exists (m + m')%nat. split; [lia|].
      rewrite E, E', <- Rmult_plus_distr_r, <- plus_INR. apply fl_id, small_sum; lia.
Qed.
Lemma sum4 t c k f : Permutation (leaves t) (seq 0 4) -> (-900 <= k)%Z -> c = bpow radix2 k -> f 0%nat = c -> (forall i, i <> 0%nat -> f i = 0 \/ f i = bpow radix2 (k - 60)) -> sum_fl t f = c.
Proof.
  intros H K Hc F0 Fi. destruct (sum_absorb c k f K Hc F0 Fi t) as [A _]; [apply (Permutation_NoDup (Permutation_sym H)), seq_NoDup|rewrite (Permutation_length H); cbn; lia|]. apply A. apply (Permutation_in _ (Permutation_sym H)). left. reflexivity.
Qed.

(** Four objectives, the lattice vectors (1,0,0,0) and (1/2,1/2,1/2,1/2) - doubles, of length exactly 1 - and objectives of which the first spreads over 1 and the others over 2^-30 (about 10^-9). *)
Notation e1 := [1; 0; 0; 0].
Notation mid := [/ 2; / 2; / 2; / 2].
Notation b30 := (bpow radix2 (-30)).
Notation spread := [[0; 0; 0; 0]; [1; b30; b30; b30]].
(** C137 (false of the code). Distinct reference vectors get the neighbouring angle 0 when an adaptation brings them close (about 10^-9): APD then divides by zero. In exact arithmetic the angle is positive. *)
Theorem C137_distinct_refuted : forall t, Permutation (leaves t) (seq 0 4) -> let vs := adapt_fl t [e1; mid] spread in
  vs = [e1; [1; b30; b30; b30]] /\ hd [] vs <> nth 1 vs [] /\ forall v, In v vs -> neighbouring_angle_fl t vs v = Some 0.
Proof.
  intros t Ht vs. pose proof (bpow_gt_0 radix2 (-30)) as P. assert (D1 : double 1) by (apply (double_bpow 0); lia). assert (D30 : double b30) by (apply double_bpow; lia). assert (D31 : double (/ 2 * b30)) by (change (double (bpow radix2 (-1) * b30)); rewrite <- bp; apply double_bpow; cbn; lia).
  assert (Dh : double (/ 2)) by (apply (double_bpow (-1)); lia).
  assert (Rg : ranges_fl spread = [1; b30; b30; b30]).
  { unfold ranges_fl. cbn [colmaxR colminR fold_left vmap2 vsub]. unfold vsub. cbn [vmap2 map]. rewrite !(Rmax_right 0), !(Rmin_left 0) by lra. rewrite !Rminus_0_r, !fl_id by assumption. reflexivity. }
  assert (R1 : unit_row_fl t e1 = e1).
  { unfold unit_row_fl, norm_fl. rewrite (sum4 t 1 0 _ Ht); [|lia|reflexivity|cbn [nth]; rewrite Rmult_1_r; apply fl_id; exact D1|].
    - destruct (Rlt_dec 1 _) as [_|N]; [|contradiction N; apply (bpow_lt radix2 0 1024); lia]. rewrite sqrt_1, (fl_id 1 D1). destruct (Req_EM_T 1 0) as [Z|_]; [lra|]. cbn [map]. unfold Rdiv. rewrite Rinv_1, !Rmult_1_r, fl_0, (fl_id 1 D1). reflexivity.
    - intros i Hi. left. destruct i as [|[|[|[|[|i]]]]]; try contradiction; cbn [nth]; rewrite ?Rmult_0_l; apply fl_0. }
  assert (R2 : unit_row_fl t [/ 2; / 2 * b30; / 2 * b30; / 2 * b30] = [1; b30; b30; b30]).
  { assert (E4 : / 2 * / 2 = bpow radix2 (-2)) by (change (bpow radix2 (-2)) with (/ 4); lra). unfold unit_row_fl, norm_fl. rewrite (sum4 t (/ 2 * / 2) (-2) _ Ht); [|lia|exact E4|cbn [nth]; apply fl_id; rewrite E4; apply double_bpow; lia|].
    - destruct (Rlt_dec _ _) as [_|N]; [|contradiction N; rewrite E4; apply bpow_lt; lia]. rewrite sqrt_square, (fl_id _ Dh) by lra. destruct (Req_EM_T (/ 2) 0) as [Z|_]; [lra|]. cbn [map].
      replace (/ 2 / / 2) with 1 by field. replace (/ 2 * b30 / / 2) with b30 by field. rewrite (fl_id 1 D1), (fl_id _ D30). reflexivity.
    - intros i Hi. assert (Q : fl (/ 2 * b30 * (/ 2 * b30)) = bpow radix2 (-2 - 60)). { replace (/ 2 * b30 * (/ 2 * b30)) with (bpow radix2 (-2 - 60)); [apply fl_id, double_bpow; lia|]. change (-2 - 60)%Z with (-2 + (-30 + -30))%Z. rewrite !bp, <- E4. ring. }
      destruct i as [|[|[|[|i]]]]; try contradiction; cbn [nth]; [right; exact Q|right; exact Q|right; exact Q|left]. destruct i; rewrite Rmult_0_l; apply fl_0. }
  assert (V : vs = [e1; [1; b30; b30; b30]]).
  { unfold vs, adapt_fl. rewrite Rg. cbn [map vmap2]. rewrite !Rmult_0_l, !Rmult_1_r, fl_0, (fl_id 1 D1), (fl_id _ Dh), (fl_id _ D31), R1, R2. reflexivity. }
  rewrite V. split; [reflexivity|]. split; [cbn [hd nth]; intros X; injection X as X _ _; lra|].
  assert (S11 : dot_fl t e1 e1 = 1).
  { apply (sum4 t 1 0 _ Ht); [lia|reflexivity|cbn [nth]; rewrite Rmult_1_r; apply fl_id; exact D1|]. intros i Hi. left. destruct i as [|[|[|[|[|i]]]]]; try contradiction; cbn [nth]; rewrite ?Rmult_0_l; apply fl_0. }
  assert (S12 : dot_fl t e1 [1; b30; b30; b30] = 1).
  { apply (sum4 t 1 0 _ Ht); [lia|reflexivity|cbn [nth]; rewrite Rmult_1_r; apply fl_id; exact D1|]. intros i Hi. left. destruct i as [|[|[|[|[|i]]]]]; try contradiction; cbn [nth]; rewrite ?Rmult_0_l; apply fl_0. }
  assert (S21 : dot_fl t [1; b30; b30; b30] e1 = 1).
  { apply (sum4 t 1 0 _ Ht); [lia|reflexivity|cbn [nth]; rewrite Rmult_1_r; apply fl_id; exact D1|]. intros i Hi. left. destruct i as [|[|[|[|[|i]]]]]; try contradiction; cbn [nth]; rewrite ?Rmult_0_r; apply fl_0. }
  assert (S22 : dot_fl t [1; b30; b30; b30] [1; b30; b30; b30] = 1).
  { apply (sum4 t 1 0 _ Ht); [lia|reflexivity|cbn [nth]; rewrite Rmult_1_r; apply fl_id; exact D1|]. intros i Hi. destruct i as [|[|[|[|i]]]]; try contradiction; cbn [nth]; [right|right|right|left];
      [rewrite <- bp; apply fl_id, double_bpow; lia..|]. destruct i; rewrite Rmult_0_l; apply fl_0. }
  assert (G : forall v l, map (dot_fl t v) [e1; [1; b30; b30; b30]] = l -> (forall x, In x l -> x = 1) -> neighbouring_angle_fl t [e1; [1; b30; b30; b30]] v = Some 0).
  { intros v l E A. unfold neighbouring_angle_fl. rewrite E. destruct (second_some l) as [x X]; [rewrite <- E; cbn; lia|]. rewrite X. cbn [option_map]. rewrite (A x (second_in _ _ X)). f_equal. unfold clip1. destruct (Rlt_dec 1 1); rewrite acos_1; apply fl_0. }
  intros v [<-|[<-|[]]]; (eapply G; [cbn [map]; reflexivity|]); intros x [<-|[<-|[]]]; assumption.
Qed.

Print Assumptions C137_unit_length_partial.
Print Assumptions C137_adapt_partial.
Print Assumptions C137_tiny_refuted.
Print Assumptions C137_huge_refuted.
Print Assumptions C137_distinct_exact.
Print Assumptions C137_nonnegative_angles.
Print Assumptions C137_distinct_refuted.

(** The hypotheses are met. *)
Example ex_moderate : Forall moderate mid /\ (exists x, In x mid /\ x <> 0) /\ Permutation (leaves (Node (Node (Leaf 0) (Leaf 1)) (Node (Leaf 2) (Leaf 3)))) (seq 0 4).
Proof.
  split; [|split; [exists (/ 2); split; [left; reflexivity|lra]|apply Permutation_refl]]. assert (M : moderate (/ 2)); [|exact (Forall_cons _ M (Forall_cons _ M (Forall_cons _ M (Forall_cons _ M (Forall_nil _)))))]. right. rewrite Rabs_pos_eq by lra. change (/ 2) with (bpow radix2 (-1)). split; apply bpow_le; lia.
Qed.
Example ex_adapt : exists fitness, length (ranges_fl fitness) = 4%nat /\ Forall (fun r => bpow radix2 (-250) <= r <= bpow radix2 250) (ranges_fl fitness).
Proof.
  exists spread. pose proof (bpow_gt_0 radix2 (-30)) as P. assert (D1 : double 1) by (apply (double_bpow 0); lia). assert (D30 : double b30) by (apply double_bpow; lia).
  assert (Rg : ranges_fl spread = [1; b30; b30; b30]).
  { unfold ranges_fl. cbn [colmaxR colminR fold_left vmap2 vsub]. unfold vsub. cbn [vmap2 map]. rewrite !(Rmax_right 0), !(Rmin_left 0) by lra. rewrite !Rminus_0_r, !fl_id by assumption. reflexivity. }
  rewrite Rg. split; [reflexivity|]. apply Forall_cons; [split; [apply (bpow_le radix2 (-250) 0)|apply (bpow_le radix2 0 250)]; lia|]. apply Forall_cons; [split; apply bpow_le; lia|]. apply Forall_cons; [split; apply bpow_le; lia|]. apply Forall_cons; [split; apply bpow_le; lia|]. apply Forall_nil.
Qed.
