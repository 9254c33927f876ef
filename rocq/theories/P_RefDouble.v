(** Lemmas for C137: sums of squares, norms and quotients in double precision. *)
From Coq Require Import Reals Lra Lia Permutation.
From Flocq Require Import Core.
From Verif Require Import Base RVec M_RefVec M_Double P_Double M_RefDouble.
Open Scope R_scope.
Notation u := (bpow radix2 (-53)).
Lemma u_eq : u = / IZR (2 ^ 53).
Proof. reflexivity. Qed.
Lemma u_pos : 0 < u.
Proof. apply bpow_gt_0. Qed.
Lemma u_small : u <= / 1000000.
Proof. rewrite u_eq. apply Rinv_le_contravar; [lra|]. apply IZR_le. vm_compute. discriminate. Qed.

(** Exact sum in the order of [t]; independent of it. *)
Fixpoint esum (t : order) (g : nat -> R) : R := match t with Leaf i => g i | Node l r => esum l g + esum r g end.
Lemma rsum_app a b : rsum (a ++ b) = rsum a + rsum b.
Proof. induction a as [|x a IH]; cbn [rsum app]; [lra|]. rewrite IH. lra. Qed.
Lemma esum_leaves t g : esum t g = rsum (map g (leaves t)).
Proof. induction t as [i|l IHl r IHr]; cbn [esum leaves map]; [cbn [rsum]; lra|]. rewrite map_app, rsum_app, IHl, IHr. reflexivity. Qed.
Lemma rsum_perm a b : Permutation a b -> rsum a = rsum b.
Proof. induction 1; cbn [rsum]; lra. Qed.
Lemma esum_seq t g n : Permutation (leaves t) (seq 0 n) -> esum t g = rsum (map g (seq 0 n)).
Proof. intros H. rewrite esum_leaves. apply rsum_perm, Permutation_map, H. Qed.
Lemma rsum_dot_from (v w : list R) : forall k, length w = length v -> rsum (map (fun i => nth (i - k) v 0 * nth (i - k) w 0) (seq k (length v))) = dot v w.
Proof.
  revert w. induction v as [|x v IH]; intros [|y w] k L; try discriminate; [reflexivity|]. cbn [length seq map rsum dot]. rewrite Nat.sub_diag. cbn [nth]. f_equal. injection L as L. rewrite <- (IH w (S k) L). f_equal. apply map_ext_in.
  intros i Hi. apply in_seq in Hi. replace (i - k)%nat with (S (i - S k)) by lia. reflexivity.
Qed.
Lemma rsum_dot v w : length w = length v -> rsum (map (fun i => nth i v 0 * nth i w 0) (seq 0 (length v))) = dot v w.
Proof. intros L. rewrite <- (rsum_dot_from v w 0 L). f_equal. apply map_ext. intros i. rewrite Nat.sub_0_r. reflexivity. Qed.

(** Rounding of non-negative numbers. *)
Lemma fl_pos_err z : bpow radix2 (-1022) <= z \/ z = 0 -> (1 - u) * z <= fl z <= (1 + u) * z.
Proof.
  intros [H|H]; [|subst z; rewrite fl_0; lra]. pose proof (bpow_gt_0 radix2 (-1022)). pose proof (fl_err_normal z) as E. rewrite Rabs_pos_eq in E by lra. specialize (E H). apply Rabs_le_inv in E. lra.
Qed.
Lemma fl_sum_pos_err x y : double x -> double y -> 0 <= x -> 0 <= y -> (1 - u) * (x + y) <= fl (x + y) <= (1 + u) * (x + y).
Proof. intros Dx Dy Hx Hy. pose proof (sum_err x y Dx Dy) as E. rewrite (Rabs_pos_eq (x + y)) in E by lra. apply Rabs_le_inv in E. lra. Qed.
Lemma sum_fl_double t f : (forall i, In i (leaves t) -> double (f i)) -> double (sum_fl t f).
Proof. destruct t as [i|l r]; intros H; cbn [sum_fl]; [apply H; left; reflexivity|apply fl_double]. Qed.
Lemma pow_le_1 a n : 0 <= a <= 1 -> 0 <= a ^ n <= 1.
Proof. intros [A B]. induction n as [|n IH]; cbn [pow]; [lra|]. nra. Qed.
Lemma pow_down a m n : 0 <= a <= 1 -> (m <= n)%nat -> a ^ n <= a ^ m.
Proof. intros A L. replace n with (m + (n - m))%nat by lia. rewrite pow_add. pose proof (pow_le_1 a m A). pose proof (pow_le_1 a (n - m) A). nra. Qed.
Lemma pow_up a m n : 1 <= a -> (m <= n)%nat -> a ^ m <= a ^ n.
Proof. intros A L. apply Rle_pow; assumption. Qed.
Lemma leaves_pos t : (1 <= length (leaves t))%nat.
Proof. induction t as [i|l IHl r IHr]; cbn [leaves length]; [lia|]. rewrite app_length. lia. Qed.
(** A sum of rounded non-negative terms, in any order: relative error (1 +- u)^n. *)
Lemma sum_fl_err t g : (forall i, In i (leaves t) -> g i = 0 \/ bpow radix2 (-1022) <= g i) ->
  0 <= esum t g /\ 0 <= sum_fl t (fun i => fl (g i)) /\ (1 - u) ^ length (leaves t) * esum t g <= sum_fl t (fun i => fl (g i)) <= (1 + u) ^ length (leaves t) * esum t g.
Proof.
  pose proof u_pos as U0. pose proof u_small as U1. induction t as [i|l IHl r IHr]; intros H; cbn [sum_fl esum leaves].
  - destruct (H i (or_introl eq_refl)) as [E|E]; cbn [length pow].
    + rewrite E, fl_0. lra.
    + pose proof (bpow_gt_0 radix2 (-1022)). pose proof (fl_pos_err (g i) (or_introl E)) as [A B]. split; [lra|]. split; [|lra]. nra.
  - destruct IHl as (L0 & L1 & L2 & L3); [intros i Hi; apply H; cbn [leaves]; apply in_or_app; left; exact Hi|].
    destruct IHr as (R0 & R1 & R2 & R3); [intros i Hi; apply H; cbn [leaves]; apply in_or_app; right; exact Hi|].
    set (a := sum_fl l _) in *. set (b := sum_fl r _) in *. assert (Da : double a) by (apply sum_fl_double; intros; apply fl_double). assert (Db : double b) by (apply sum_fl_double; intros; apply fl_double).
    pose proof (fl_sum_pos_err a b Da Db L1 R1) as [S1 S2]. rewrite app_length. pose proof (leaves_pos l) as Pl. pose proof (leaves_pos r) as Pr. set (m := length (leaves l)) in *. set (n := length (leaves r)) in *.
    set (A := esum l g) in *. set (B := esum r g) in *.
    pose proof (pow_down (1 - u) m (m + n - 1) ltac:(lra) ltac:(lia)). pose proof (pow_down (1 - u) n (m + n - 1) ltac:(lra) ltac:(lia)).
    pose proof (pow_up (1 + u) m (m + n - 1) ltac:(lra) ltac:(lia)). pose proof (pow_up (1 + u) n (m + n - 1) ltac:(lra) ltac:(lia)).
    replace (m + n)%nat with (S (m + n - 1)) by lia. cbn [pow]. set (p := (1 - u) ^ (m + n - 1)) in *. set (q := (1 + u) ^ (m + n - 1)) in *.
    split; [lra|]. split; [nra|]. split.
    + apply Rle_trans with (2 := S1). rewrite Rmult_assoc. apply Rmult_le_compat_l; [lra|]. nra.
    + apply Rle_trans with (1 := S2). rewrite Rmult_assoc. apply Rmult_le_compat_l; [lra|]. nra.
Qed.

(** Bernoulli. *)
Lemma pow_minus y n : 0 <= y <= 1 -> 1 - INR n * y <= (1 - y) ^ n.
Proof. intros H. induction n as [|n IH]; cbn [pow]; [cbn [INR]; lra|]. rewrite S_INR. pose proof (pow_le_1 (1 - y) n ltac:(lra)). pose proof (pos_INR n). nra. Qed.
Lemma pow_plus y n : 0 <= y <= 1 -> INR n * y <= / 2 -> (1 + y) ^ n <= 1 + 2 * (INR n * y).
Proof.
  intros H L. pose proof (pow_minus y n H) as B. assert (E : (1 + y) ^ n * (1 - y) ^ n <= 1).
  { rewrite <- Rpow_mult_distr. apply pow_le_1. nra. }
  assert (P : 0 <= (1 + y) ^ n) by (apply pow_le; lra). pose proof (pos_INR n). set (z := INR n * y) in *. assert (0 <= z) by (unfold z; nra).
  assert ((1 + y) ^ n * (1 - z) <= 1) by nra. assert (1 <= (1 + 2 * z) * (1 - z)) by nra. nra.
Qed.

(** The entries for which nothing underflows or overflows. *)
Definition moderate (x : R) : Prop := x = 0 \/ bpow radix2 (-500) <= Rabs x <= bpow radix2 500.
Lemma bpow_sqr k : bpow radix2 k * bpow radix2 k = bpow radix2 (k + k).
Proof. rewrite bpow_plus. reflexivity. Qed.
Lemma moderate_sqr x : moderate x -> x * x = 0 \/ bpow radix2 (-1000) <= x * x <= bpow radix2 1000.
Proof.
  intros [->|[A B]]; [left; ring|right]. replace (x * x) with (Rabs x * Rabs x) by (rewrite <- Rabs_mult; apply Rabs_pos_eq; nra).
  change 1000%Z with (500 + 500)%Z. change (-1000)%Z with (-500 + -500)%Z. rewrite <- (bpow_sqr 500), <- (bpow_sqr (-500)). pose proof (bpow_gt_0 radix2 (-500)). pose proof (bpow_gt_0 radix2 500). split; nra.
Qed.
Lemma dot_self_bounds v : Forall moderate v -> 0 <= dot v v <= INR (length v) * bpow radix2 1000 /\ ((exists x, In x v /\ x <> 0) -> bpow radix2 (-1000) <= dot v v).
Proof.
  pose proof (bpow_gt_0 radix2 1000) as P. pose proof (bpow_gt_0 radix2 (-1000)) as P2. induction 1 as [|x v Hx Hv [IH1 IH2]]; cbn [dot]; [cbn [length INR]; split; [lra|intros (x & [] & _)]|].
  cbn [length]. rewrite S_INR. pose proof (moderate_sqr x Hx) as Q. split; [destruct Q; split; nra|].
  intros (y & [<-|Hy] & N); [destruct Q as [Q|Q]; [exfalso; apply N; nra|lra]|]. specialize (IH2 (ex_intro _ y (conj Hy N))). destruct Q; lra.
Qed.
Lemma dot_scaled_bounds (lo hi : R) : 0 <= lo -> 0 <= hi -> forall v w, Forall2 (fun x y => lo * Rabs x <= Rabs y <= hi * Rabs x) v w -> lo * lo * dot v v <= dot w w <= hi * hi * dot v v.
Proof.
  intros L H. induction 1 as [|x y v w [A B] F [C D]]; cbn [dot]; [lra|]. assert (E : Rabs y * Rabs y = y * y) by (rewrite <- Rabs_mult; apply Rabs_pos_eq; nra).
  assert (E2 : Rabs x * Rabs x = x * x) by (rewrite <- Rabs_mult; apply Rabs_pos_eq; nra). pose proof (Rabs_pos x). pose proof (Rabs_pos y).
  assert (0 <= lo * Rabs x) by nra. assert (0 <= hi * Rabs x) by nra.
  assert ((lo * Rabs x) * (lo * Rabs x) <= Rabs y * Rabs y) by nra. assert (Rabs y * Rabs y <= (hi * Rabs x) * (hi * Rabs x)) by nra.
  replace ((lo * Rabs x) * (lo * Rabs x)) with (lo * lo * (Rabs x * Rabs x)) in * by ring. replace ((hi * Rabs x) * (hi * Rabs x)) with (hi * hi * (Rabs x * Rabs x)) in * by ring. nra.
Qed.
Lemma INR_2pow20 n : (n <= 2 ^ 20)%nat -> INR n <= bpow radix2 20.
Proof. intros H. apply le_INR in H. apply Rle_trans with (1 := H). rewrite INR_IZR_INZ. replace (Z.of_nat (2 ^ 20)) with (2 ^ 20)%Z by (rewrite Nat2Z.inj_pow; reflexivity). apply Rle_refl. Qed.
Lemma INR_u n : (n <= 2 ^ 20)%nat -> INR (n + 4) * u <= / 1000000.
Proof.
  intros H. apply INR_2pow20 in H. rewrite plus_INR. replace (INR 4) with 4 by (cbn; lra). pose proof u_pos. apply Rle_trans with (2 * bpow radix2 20 * u).
  - assert (4 <= bpow radix2 20) by (apply IZR_le; vm_compute; discriminate). nra.
  - rewrite Rmult_assoc, <- bpow_plus. change (bpow radix2 (20 + -53)) with (/ IZR (2 ^ 33)). assert (/ IZR (2 ^ 33) <= / 2000000) by (apply Rinv_le_contravar; [lra|apply IZR_le; vm_compute; discriminate]). lra.
Qed.

Lemma Forall2_self {A B} (P : A -> B -> Prop) f l : (forall x, In x l -> P x (f x)) -> Forall2 P l (map f l).
Proof. induction l as [|x l IH]; intros H; cbn [map]; constructor; [apply H; left; reflexivity|apply IH; intros y Hy; apply H; right; exact Hy]. Qed.
Section Unit.
Context (t : order) (v : list R) (Hn : (length v <= 2 ^ 20)%nat) (Ht : Permutation (leaves t) (seq 0 (length v))) (Hm : Forall moderate v) (Hz : exists x, In x v /\ x <> 0).
Notation n := (length v).
Notation s := (sum_fl t (fun i => fl (nth i v 0 * nth i v 0))).
Lemma s_bounds : (1 - u) ^ n * dot v v <= s <= (1 + u) ^ n * dot v v.
Proof.
  destruct (sum_fl_err t (fun i => nth i v 0 * nth i v 0)) as (A & B & E).
  - intros i _. destruct (nth_in_or_default i v 0) as [Hi|Hi]; [|rewrite Hi; left; ring]. rewrite Forall_forall in Hm. destruct (moderate_sqr _ (Hm _ Hi)) as [Q|[Q _]]; [left; exact Q|right].
    apply Rle_trans with (2 := Q). apply bpow_le. lia.
  - rewrite (esum_seq t _ _ Ht), (rsum_dot v v eq_refl), (Permutation_length Ht), seq_length in E. exact E.
Qed.
Lemma D_bounds : bpow radix2 (-1000) <= dot v v <= bpow radix2 1020.
Proof.
  destruct (dot_self_bounds v Hm) as [[_ A] B]. split; [exact (B Hz)|]. apply Rle_trans with (1 := A). pose proof (INR_2pow20 _ Hn). pose proof (bpow_gt_0 radix2 1000).
  replace (bpow radix2 1020) with (bpow radix2 20 * bpow radix2 1000) by (rewrite <- bpow_plus; reflexivity). nra.
Qed.
Lemma n_u : INR n * u <= / 1000000.
Proof. pose proof (INR_u n Hn) as H. rewrite plus_INR in H. pose proof u_pos. assert (0 <= INR 4) by apply pos_INR. nra. Qed.
Lemma s_range : bpow radix2 (-1001) <= s <= bpow radix2 1021.
Proof.
  pose proof s_bounds as [A B]. pose proof D_bounds as [C D]. pose proof u_pos as U. pose proof u_small as U2. pose proof n_u as N.
  pose proof (pow_minus u n ltac:(lra)) as P1. pose proof (pow_plus u n ltac:(lra) ltac:(lra)) as P2. pose proof (bpow_gt_0 radix2 (-1000)).
  replace (bpow radix2 (-1001)) with (/ 2 * bpow radix2 (-1000)) by (change (-1001)%Z with (-1 + -1000)%Z; rewrite bpow_plus; reflexivity).
  replace (bpow radix2 1021) with (2 * bpow radix2 1020) by (change 1021%Z with (1 + 1020)%Z; rewrite bpow_plus; reflexivity). split; nra.
Qed.
Lemma sqrt_range : bpow radix2 (-501) <= sqrt s <= bpow radix2 511.
Proof.
  pose proof s_range as [A B]. split.
  - rewrite <- (sqrt_square (bpow radix2 (-501))) by apply bpow_ge_0. apply sqrt_le_1_alt. rewrite bpow_sqr. apply Rle_trans with (2 := A). apply bpow_le. lia.
  - rewrite <- (sqrt_square (bpow radix2 511)) by apply bpow_ge_0. apply sqrt_le_1_alt. rewrite bpow_sqr. apply Rle_trans with (1 := B). apply bpow_le. lia.
Qed.
Notation q := (fl (sqrt s)).
Lemma q_bounds : (1 - u) * sqrt s <= q <= (1 + u) * sqrt s.
Proof. apply fl_pos_err. left. pose proof sqrt_range as [A _]. apply Rle_trans with (2 := A). apply bpow_le. lia. Qed.
Lemma q_range : bpow radix2 (-502) <= q <= bpow radix2 512.
Proof.
  pose proof q_bounds as [A B]. pose proof sqrt_range as [C D]. pose proof u_pos. pose proof u_small. pose proof (bpow_gt_0 radix2 (-501)).
  replace (bpow radix2 (-502)) with (/ 2 * bpow radix2 (-501)) by (change (-502)%Z with (-1 + -501)%Z; rewrite bpow_plus; reflexivity).
  replace (bpow radix2 512) with (2 * bpow radix2 511) by (change 512%Z with (1 + 511)%Z; rewrite bpow_plus; reflexivity). split; nra.
Qed.
Lemma unit_row_eq : unit_row_fl t v = map (fun x => fl (x / q)) v.
Proof.
  unfold unit_row_fl, norm_fl. destruct (Rlt_dec s (bpow radix2 1024)) as [L|L].
  - destruct (Req_EM_T q 0) as [E|_]; [|reflexivity]. exfalso. pose proof q_range as [A _]. pose proof (bpow_gt_0 radix2 (-502)). lra.
  - exfalso. apply L. pose proof s_range as [_ A]. apply Rle_lt_trans with (1 := A). apply bpow_lt. lia.
Qed.
Lemma quotient_err x : In x v -> Rabs (fl (x / q) - / q * x) <= u * (/ q * Rabs x).
Proof.
  intros Hx. pose proof q_range as [A B]. pose proof (bpow_gt_0 radix2 (-502)) as P. assert (Q0 : 0 < q) by lra. assert (Q1 : 0 < / q) by (apply Rinv_0_lt_compat; exact Q0). rewrite Forall_forall in Hm. specialize (Hm x Hx).
  replace (/ q * Rabs x) with (Rabs (x / q)) by (unfold Rdiv; rewrite Rabs_mult, (Rabs_pos_eq (/ q)) by lra; ring). replace (/ q * x) with (x / q) by (unfold Rdiv; ring).
  destruct Hm as [->|[C D]]; [unfold Rdiv; rewrite Rmult_0_l, fl_0, Rminus_0_r, Rabs_R0; lra|]. apply fl_err_normal. unfold Rdiv. rewrite Rabs_mult, (Rabs_pos_eq (/ q)) by lra.
  apply Rle_trans with (bpow radix2 (-500) * bpow radix2 (-512)); [rewrite <- bpow_plus; apply bpow_le; lia|].
  assert (E : bpow radix2 (-512) <= / q) by (change (bpow radix2 (-512)) with (bpow radix2 (- (512))); rewrite bpow_opp; apply Rinv_le_contravar; assumption). pose proof (bpow_gt_0 radix2 (-500)). pose proof (bpow_gt_0 radix2 (-512)). nra.
Qed.
Lemma unit_row_scaled : exists l, 0 < l /\ Forall2 (fun x y => Rabs (y - l * x) <= u * (l * Rabs x)) v (unit_row_fl t v).
Proof.
  exists (/ q). pose proof q_range as [A B]. pose proof (bpow_gt_0 radix2 (-502)) as P. split; [apply Rinv_0_lt_compat; lra|]. rewrite unit_row_eq. apply (Forall2_self (fun x y => Rabs (y - / q * x) <= u * (/ q * Rabs x))). exact quotient_err.
Qed.
Lemma norm_err : Rabs (norm (unit_row_fl t v) - 1) <= INR (n + 4) * bpow radix2 (-51).
Proof.
  pose proof u_pos as U0. pose proof u_small as U1. pose proof q_range as [Q1 Q2]. pose proof (bpow_gt_0 radix2 (-502)) as P. assert (Hq : 0 < q) by lra. assert (Hi : 0 < / q) by (apply Rinv_0_lt_compat; exact Hq).
  assert (F : Forall2 (fun x y => (1 - u) * / q * Rabs x <= Rabs y <= (1 + u) * / q * Rabs x) v (map (fun x => fl (x / q)) v)).
  { apply (Forall2_self (fun x y => (1 - u) * / q * Rabs x <= Rabs y <= (1 + u) * / q * Rabs x)). intros x Hx. pose proof (quotient_err x Hx) as H.
    assert (E : Rabs (/ q * x) = / q * Rabs x) by (rewrite Rabs_mult, (Rabs_pos_eq (/ q)) by lra; reflexivity).
    pose proof (Rabs_triang_inv (fl (x / q)) (/ q * x)). pose proof (Rabs_triang_inv (/ q * x) (fl (x / q))) as T2. rewrite Rabs_minus_sym in T2. split; lra. }
  pose proof (dot_scaled_bounds ((1 - u) * / q) ((1 + u) * / q) ltac:(nra) ltac:(nra) _ _ F) as [L H]. rewrite <- unit_row_eq in L, H. clear F.
  pose proof s_bounds as [S1 S2]. pose proof q_bounds as [B1 B2]. pose proof D_bounds as [D1 _]. pose proof (bpow_gt_0 radix2 (-1000)). assert (D0 : 0 < dot v v) by lra.
  pose proof s_range as [S0 _]. pose proof (bpow_gt_0 radix2 (-1001)) as P2. assert (Hs : 0 < s) by lra. pose proof (sqrt_sqrt s ltac:(lra)) as SS. assert (Hr : 0 < sqrt s) by (apply sqrt_lt_R0; exact Hs).
  assert (I1 : q * / q = 1) by (apply Rinv_r; lra).
  assert (QQ : exists q0, q0 = q) by eauto. destruct QQ as [q0 Eq0]. assert (SS0 : exists s0, s0 = s) by eauto. destruct SS0 as [s0 Es0]. assert (RR : exists r, r = sqrt s0) by eauto. destruct RR as [r Er]. rewrite <- Eq0 in *. rewrite <- Es0 in *. rewrite <- Er in *.
  set (D := dot v v) in *. set (W := dot (unit_row_fl t v) (unit_row_fl t v)) in *.
  (* W q0^2 against D *)
  assert (L' : (1 - u) * (1 - u) * D <= W * (q0 * q0)).
  { apply Rmult_le_compat_r with (r := q0 * q0) in L; [|nra]. replace ((1 - u) * / q0 * ((1 - u) * / q0) * D * (q0 * q0)) with ((1 - u) * (1 - u) * D * (q0 * / q0) * (q0 * / q0)) in L by ring. rewrite I1, !Rmult_1_r in L. exact L. }
  assert (H' : W * (q0 * q0) <= (1 + u) * (1 + u) * D).
  { apply Rmult_le_compat_r with (r := q0 * q0) in H; [|nra]. replace ((1 + u) * / q0 * ((1 + u) * / q0) * D * (q0 * q0)) with ((1 + u) * (1 + u) * D * (q0 * / q0) * (q0 * / q0)) in H by ring. rewrite I1, !Rmult_1_r in H. exact H. }
  assert (W0 : 0 <= W). { apply Rmult_le_reg_r with (q0 * q0); [nra|]. rewrite Rmult_0_l. apply Rle_trans with (2 := L'). nra. }
  assert (C1 : q0 * q0 <= (1 + u) * (1 + u) * s0).
  { rewrite <- SS. apply Rle_trans with (((1 + u) * r) * ((1 + u) * r)); [apply Rmult_le_compat; lra|right; ring]. }
  assert (C2 : (1 - u) * (1 - u) * s0 <= q0 * q0).
  { rewrite <- SS. assert (0 <= (1 - u) * r) by nra. apply Rle_trans with (((1 - u) * r) * ((1 - u) * r)); [right; ring|apply Rmult_le_compat; lra]. }
  clear L H Hi I1 B1 B2 SS Hr.
  assert (E1 : (1 - u) * (1 - u) <= W * (1 + u) ^ (n + 2)).
  { rewrite pow_add. cbn [pow]. rewrite Rmult_1_r. apply Rmult_le_reg_r with D; [exact D0|]. apply Rle_trans with (1 := L'). apply Rle_trans with (W * ((1 + u) * (1 + u) * ((1 + u) ^ n * D))); [|right; ring].
    apply Rmult_le_compat_l; [exact W0|]. apply Rle_trans with (1 := C1). apply Rmult_le_compat_l; [nra|exact S2]. }
  assert (E2 : W * (1 - u) ^ (n + 2) <= (1 + u) * (1 + u)).
  { rewrite pow_add. cbn [pow]. rewrite Rmult_1_r. apply Rmult_le_reg_r with D; [exact D0|]. apply Rle_trans with (2 := H'). apply Rle_trans with (W * ((1 - u) * (1 - u) * ((1 - u) ^ n * D))); [right; ring|].
    apply Rmult_le_compat_l; [exact W0|]. apply Rle_trans with (2 := C2). apply Rmult_le_compat_l; [nra|exact S1]. }
  pose proof (INR_u n Hn) as N. set (z := INR (n + 4) * u) in *. assert (Z0 : 0 <= z) by (unfold z; pose proof (pos_INR (n + 4)); nra).
  assert (G : INR (n + 4) * bpow radix2 (-51) = 4 * z) by (unfold z; change (-51)%Z with (2 + -53)%Z; rewrite bpow_plus; change (bpow radix2 2) with 4; ring). rewrite G.
  (* (1-u)^(n+4) >= 1-z, (1+u)^(n+4) <= 1+2z *)
  pose proof (pow_minus u (n + 4) ltac:(lra)) as M. pose proof (pow_plus u (n + 4) ltac:(lra) ltac:(fold z; lra)) as Pz. fold z in M, Pz.
  assert (U4 : u <= z). { unfold z. rewrite plus_INR. replace (INR 4) with 4 by (cbn; lra). pose proof (pos_INR n). nra. }
  assert (K1 : (1 + u) ^ (n + 2) <= 1 + 2 * z) by (apply Rle_trans with (2 := Pz); apply pow_up; [lra|lia]).
  assert (K2 : 1 - z <= (1 - u) ^ (n + 2)) by (apply Rle_trans with (1 := M); apply pow_down; [lra|lia]).
  assert (K3 : (1 - u) * (1 - u) >= 1 - 2 * z * / 4 * 2 ) by (assert (4 * u <= z) by (unfold z; rewrite plus_INR; replace (INR 4) with 4 by (cbn; lra); pose proof (pos_INR n); nra); nra).
  assert (K4 : (1 + u) * (1 + u) <= 1 + z) by (assert (4 * u <= z) by (unfold z; rewrite plus_INR; replace (INR 4) with 4 by (cbn; lra); pose proof (pos_INR n); nra); nra).
  assert (W1 : 1 - 4 * z <= W) by nra. assert (W2 : W <= 1 + 4 * z) by nra.
  assert (N2 : norm (unit_row_fl t v) * norm (unit_row_fl t v) = W) by (apply sqrt_sqrt; exact W0). assert (N0 : 0 <= norm (unit_row_fl t v)) by apply sqrt_pos. set (m := norm (unit_row_fl t v)) in *. apply Rabs_le. split; nra.
Qed.
End Unit.
