(** C143, continued: what the adapted reference vectors are, after both normalisations. *)
From Coq Require Import Reals Lra Lia Permutation.
From Flocq Require Import Core.
From Verif Require Import Base RVec M_RefVec M_NSGA3 P_APD M_Double P_Double M_RefDouble P_RefDouble Properties_RefDouble M_APDDouble P_APDDouble M_NSGA3Double P_NSGA3Double M_PrefDouble Properties_PrefDouble Properties_PrefDouble2 Properties_PrefDouble3 Properties_PrefDouble4.
Open Scope R_scope.
Notation u := (bpow radix2 (-53)).

(** Non-negative entries, each 0 or between 2^-400 and 2^40, not all 0. *)
Definition mild (v : list R) : Prop := (forall x, In x v -> x = 0 \/ bpow radix2 (-400) <= x <= bpow radix2 40) /\ exists x, In x v /\ x <> 0.
Lemma mild_moderate v : (forall x, In x v -> x = 0 \/ bpow radix2 (-480) <= x <= bpow radix2 60) -> Forall moderate v.
Proof.
  intros H. apply Forall_forall. intros x Hx. destruct (H x Hx) as [->|[A B]]; [left; reflexivity|right]. pose proof (bpow_gt_0 radix2 (-480)). rewrite Rabs_pos_eq by lra.
  split; [apply Rle_trans with (2 := A)|apply Rle_trans with (1 := B)]; apply bpow_le; lia.
Qed.
Lemma norm_le_entries v m : 0 <= m -> (forall x, In x v -> Rabs x <= m) -> norm v <= INR (length v) * m.
Proof.
  intros M H. unfold norm. apply sqrt_le_intro; [apply Rmult_le_pos; [apply pos_INR|exact M]|]. induction v as [|x v IH]; cbn [dot length]; [cbn [INR]; lra|].
  rewrite S_INR. specialize (IH (fun y Hy => H y (or_intror Hy))). pose proof (H x (or_introl eq_refl)) as X. pose proof (Rabs_pos x). assert (E : x * x = Rabs x * Rabs x) by (rewrite <- Rabs_mult; symmetry; apply Rabs_pos_eq; nra). rewrite E.
  pose proof (pos_INR (length v)) as L. assert (Rabs x * Rabs x <= m * m) by nra. assert (0 <= INR (length v) * m) by (apply Rmult_le_pos; assumption). nra.
Qed.

Lemma forall2_len {A B} (P : A -> B -> Prop) a b : Forall2 P a b -> length a = length b.
Proof. induction 1; cbn [length]; congruence. Qed.
(** One normalisation of a mild row gives a row that can be normalised again. *)
Lemma unit_again t v n : (1 <= n)%nat -> (n <= 2 ^ 20)%nat -> Permutation (leaves t) (seq 0 n) -> length v = n ->
  (forall x, In x v -> x = 0 \/ bpow radix2 (-405) <= x <= bpow radix2 42) -> (exists x, In x v /\ x <> 0) ->
  exists l, 0 < l /\ Forall2 (fun x y => Rabs (y - l * x) <= u * (l * Rabs x)) v (unit_row_fl t v) /\ length (unit_row_fl t v) = n /\
    Forall moderate (unit_row_fl t v) /\ exists y, In y (unit_row_fl t v) /\ y <> 0.
Proof.
  intros N1 Hn Ht Lv Hv Hz. assert (M : Forall moderate v).
  { apply mild_moderate. intros x Hx. destruct (Hv x Hx) as [E|[A B]]; [left; exact E|right; split; [apply Rle_trans with (2 := A)|apply Rle_trans with (1 := B)]; apply bpow_le; lia]. }
  assert (Ln : (length v <= 2 ^ 20)%nat) by lia. assert (Htv : Permutation (leaves t) (seq 0 (length v))) by (rewrite Lv; exact Ht).
  destruct (unit_row_scaled t v Ln Htv M Hz) as (l & L0 & F). exists l. split; [exact L0|]. split; [exact F|].
  assert (Lw : length (unit_row_fl t v) = n) by (rewrite <- (forall2_len _ _ _ F); exact Lv). split; [exact Lw|].
  pose proof (norm_err t v Ln Htv M Hz) as NE. rewrite Lv in NE. pose proof (INR_u n Hn) as K. pose proof u_pos as U0. pose proof u_small as U1.
  assert (U51 : INR (n + 4) * bpow radix2 (-51) = 4 * (INR (n + 4) * u)) by (change (-51)%Z with (2 + -53)%Z; rewrite bpow_plus; change (bpow radix2 2) with 4; ring). rewrite U51 in NE. apply Rabs_le_inv in NE.
  pose proof (norm_scaled l v _ L0 F) as [_ NS].
  assert (NV : norm v <= bpow radix2 62).
  { apply Rle_trans with (INR (length v) * bpow radix2 42); [apply norm_le_entries; [apply bpow_ge_0|]|].
    - intros x Hx. destruct (Hv x Hx) as [->|[A B]]; [rewrite Rabs_R0; apply bpow_ge_0|]. pose proof (bpow_gt_0 radix2 (-405)). rewrite Rabs_pos_eq by lra. exact B.
    - rewrite Lv. change 62%Z with (20 + 42)%Z. rewrite (bpow_plus radix2 20 42). apply Rmult_le_compat_r; [apply bpow_ge_0|apply INR_2pow20; exact Hn]. }
  assert (LL : bpow radix2 (-64) <= l).
  { destruct (Rle_lt_dec (bpow radix2 (-64)) l) as [A|A]; [exact A|]. exfalso. assert (B : l * norm v <= bpow radix2 (-64) * bpow radix2 62) by (apply Rmult_le_compat; try lra; apply norm_nonneg).
    rewrite <- bpow_plus in B. change (bpow radix2 (-64 + 62)) with (/ 4) in B. assert (0 <= l * norm v) by (apply Rmult_le_pos; [lra|apply norm_nonneg]). nra. }
  assert (G : forall y, In y (unit_row_fl t v) -> exists x, In x v /\ Rabs (y - l * x) <= u * (l * Rabs x)).
  { clear - F. induction F as [|x y v w H F IH]; [intros y []|]. intros y' [<-|Hy]; [exists x; split; [left; reflexivity|exact H]|]. destruct (IH y' Hy) as (x' & A & B). exists x'. split; [right; exact A|exact B]. }
  assert (B : forall y x, In x v -> Rabs (y - l * x) <= u * (l * Rabs x) -> y = 0 \/ bpow radix2 (-480) <= y).
  { intros y x Hx H. destruct (Hv x Hx) as [->|[A _]].
    - left. rewrite Rmult_0_r, Rabs_R0, Rminus_0_r, !Rmult_0_r in H. destruct (Req_EM_T y 0) as [E|E]; [exact E|]. exfalso. pose proof (Rabs_pos_lt y E). lra.
    - right. pose proof (bpow_gt_0 radix2 (-405)) as P. rewrite (Rabs_pos_eq x) in H by lra. apply Rabs_le_inv in H. assert (LX : bpow radix2 (-64) * bpow radix2 (-405) <= l * x) by (apply Rmult_le_compat; try apply bpow_ge_0; assumption).
      rewrite <- bpow_plus in LX. change (-64 + -405)%Z with (-469)%Z in LX. assert (Q : bpow radix2 (-480) <= / 2 * bpow radix2 (-469)).
      { apply Rle_trans with (bpow radix2 (-1 + -469)); [apply bpow_le; lia|]. rewrite bpow_plus. apply Rle_refl. }
      pose proof (bpow_gt_0 radix2 (-469)). assert (u * (l * x) <= / 1000000 * (l * x)) by (apply Rmult_le_compat_r; lra). lra. }
  split.
  - apply mild_moderate. intros y Hy. destruct (G y Hy) as (x & Hx & H). destruct (B y x Hx H) as [E|E]; [left; exact E|right; split; [exact E|]].
    pose proof (abs_le_norm y _ Hy) as A. pose proof (Rle_abs y). apply Rle_trans with 2; [lra|]. change 2 with (bpow radix2 1). apply bpow_le. lia.
  - destruct Hz as (x & Hx & X0). assert (E : forall v w, Forall2 (fun x y => Rabs (y - l * x) <= u * (l * Rabs x)) v w -> In x v -> exists y, In y w /\ Rabs (y - l * x) <= u * (l * Rabs x)).
    { clear. induction 1 as [|a b v w H F IH]; [intros []|]. intros [->|Hx]; [exists b; split; [left; reflexivity|exact H]|]. destruct (IH Hx) as (y & A & C). exists y. split; [right; exact A|exact C]. }
    destruct (E _ _ F Hx) as (y & Hy & H). exists y. split; [exact Hy|]. intros ->. destruct (Hv x Hx) as [A|[A _]]; [contradiction|]. pose proof (bpow_gt_0 radix2 (-405)). rewrite (Rabs_pos_eq x) in H by lra.
    apply Rabs_le_inv in H. assert (0 < l * x) by (apply Rmult_lt_0_compat; lra). assert (u * (l * x) <= / 1000000 * (l * x)) by (apply Rmult_le_compat_r; lra). lra.
Qed.

(** A vector [w] is proportional to [e] up to the factor 1 + 2^-49 per entry, and of length 1 up to (n + 4) * 2^-51. *)
Definition along (n : nat) (e w : list R) : Prop :=
  Rabs (norm w - 1) <= INR (n + 4) * bpow radix2 (-51) /\ exists l, 0 < l /\ Forall2 (fun x y => Rabs (y - l * x) <= bpow radix2 (-49) * (l * x)) e w.

Lemma shifted_along t n z v : (1 <= n)%nat -> (n <= 2 ^ 20)%nat -> Permutation (leaves t) (seq 0 n) -> length z = n -> length v = n ->
  (forall x, In x z -> x = 0 \/ bpow radix2 (-400) <= x <= bpow radix2 40) -> mild v ->
  along n (vadd (vscale (2 / 10) v) (vscale (8 / 10) z)) (unit_row_fl t (unit_row_fl t (vmap2 (fun x y => fl (fl (param_fl * x) + fl (rest_fl * y))) v z))).
Proof.
  intros N1 Hn Ht Lz Lv Hz (Hv & xz & Hxz & Xz). pose proof u_pos as U0. pose proof u_small as U1. set (row := vmap2 _ v z). assert (Lr : length row = n) by (unfold row; rewrite vmap2_length; congruence).
  set (e := vadd (vscale (2 / 10) v) (vscale (8 / 10) z)).
  assert (B50 : bpow radix2 (-50) = 8 * u) by (change (-50)%Z with (3 + -53)%Z; rewrite bpow_plus; reflexivity). assert (B49 : bpow radix2 (-49) = 16 * u) by (change (-49)%Z with (4 + -53)%Z; rewrite bpow_plus; reflexivity).
  assert (H1 : bpow radix2 (-1073) <= u * (2 / 10 * bpow radix2 (-400))).
  { apply Rle_trans with (u * (bpow radix2 (-3) * bpow radix2 (-400))); [rewrite <- !bpow_plus; apply bpow_le; lia|]. apply Rmult_le_compat_l; [lra|]. apply Rmult_le_compat_r; [apply bpow_ge_0|]. cbn; lra. }
  set (B := bpow radix2 (-400)) in *. assert (B0 : 0 < B) by apply bpow_gt_0. set (T := bpow radix2 40) in *.
  assert (Entry : forall x y, (x = 0 \/ B <= x <= T) -> (y = 0 \/ B <= y <= T) -> let f := fl (fl (param_fl * x) + fl (rest_fl * y)) in let e := 2 / 10 * x + 8 / 10 * y in
    Rabs (f - e) <= 9 * u * e /\ 0 <= e /\ (f = 0 \/ / 10 * B <= f <= 2 * T) /\ (x <> 0 -> f <> 0)).
  { intros x y Hx Hy f e'. assert (x0 : 0 <= x) by (destruct Hx; lra). assert (y0 : 0 <= y) by (destruct Hy; lra). assert (e0 : 0 <= e') by (unfold e'; lra).
    assert (Z : (x = 0 /\ y = 0) \/ 2 / 10 * B <= e') by (unfold e'; destruct Hx; destruct Hy; [left; auto|right; lra|right; lra|right; lra]).
    destruct Z as [[-> ->]|Z].
    - assert (E : f = 0) by (unfold f; rewrite !Rmult_0_r, fl_0, Rplus_0_r; apply fl_0). assert (E2 : e' = 0) by (unfold e'; ring). rewrite E, E2. split; [rewrite Rminus_0_r, Rabs_R0; lra|]. split; [lra|]. split; [left; reflexivity|]. intros X. lra.
    - pose proof (entry_err x y x0 y0) as EE. cbv zeta in EE. fold f e' in EE. rewrite B50 in EE. assert (u * (2 / 10 * B) <= u * e') by (apply Rmult_le_compat_l; lra). assert (D : Rabs (f - e') <= 9 * u * e') by lra. split; [exact D|]. split; [exact e0|].
      apply Rabs_le_inv in D. assert (9 * u * e' <= 9 / 1000000 * e') by (apply Rmult_le_compat_r; lra). assert (T0 : 0 < T) by apply bpow_gt_0. assert (e' <= T) by (unfold e'; destruct Hx; destruct Hy; lra). split; [right; lra|]. intros _. lra. }
  assert (F : Forall2 (fun x y => Rabs (y - x) <= 9 * u * x /\ 0 <= x) e row).
  { unfold e, row, vadd, vscale. clear - Entry Hz Hv Lz Lv. revert z n Lz Lv Hz. induction v as [|x v IH]; intros [|y z] n Lz Lv Hz; cbn [map vmap2]; try (constructor; fail); try (cbn in Lz, Lv; lia).
    constructor.
    - destruct (Entry x y (Hv x (or_introl eq_refl)) (Hz y (or_introl eq_refl))) as (A & C & _). split; assumption.
    - apply (IH (fun a H => Hv a (or_intror H)) z (length z)); [reflexivity|cbn in Lz, Lv; lia|]. intros a H. apply Hz. right. exact H. }
  assert (Mem : forall f, In f row -> f = 0 \/ / 10 * B <= f <= 2 * T).
  { unfold row. clear - Entry Hz Hv. revert z Hz. induction v as [|x v IH]; intros [|y z] Hz f; cbn [vmap2]; try (intros []; fail). intros [<-|H].
    - apply (Entry x y (Hv x (or_introl eq_refl)) (Hz y (or_introl eq_refl))).
    - apply (IH (fun a H => Hv a (or_intror H)) z); [|exact H]. intros a Ha. apply Hz. right. exact Ha. }
  assert (Nz : exists f, In f row /\ f <> 0).
  { unfold row. clear - Entry Hz Hv Hxz Xz Lz Lv. revert z n Lz Lv Hz. induction v as [|x v IH]; [destruct Hxz|]. intros [|y z] n Lz Lv Hz; [cbn in Lz, Lv; lia|]. cbn [vmap2]. destruct Hxz as [->|H].
    - eexists. split; [left; reflexivity|]. apply (Entry xz y (Hv xz (or_introl eq_refl)) (Hz y (or_introl eq_refl))). exact Xz.
    - destruct (IH (fun a H => Hv a (or_intror H)) H z (length z)) as (f & A & C); [reflexivity|cbn in Lz, Lv; lia|intros a Ha; apply Hz; right; exact Ha|]. exists f. split; [right; exact A|exact C]. }
  assert (M1 : forall x, In x row -> x = 0 \/ bpow radix2 (-405) <= x <= bpow radix2 42).
  { intros x Hx. destruct (Mem x Hx) as [E|[A C]]; [left; exact E|right]. split.
    - apply Rle_trans with (2 := A). unfold B. change (-405)%Z with (-5 + -400)%Z. rewrite (bpow_plus radix2 (-5) (-400)). apply Rmult_le_compat_r; [apply bpow_ge_0|]. cbn; lra.
    - apply Rle_trans with (1 := C). unfold T. change 42%Z with (2 + 40)%Z. rewrite (bpow_plus radix2 2 40). apply Rmult_le_compat_r; [apply bpow_ge_0|]. cbn; lra. }
  destruct (unit_again t row n N1 Hn Ht Lr M1 Nz) as (l1 & L1 & F1 & Lw & Mw & Zw). set (w := unit_row_fl t row) in *.
  assert (Lw2 : (length w <= 2 ^ 20)%nat) by lia. assert (Htw : Permutation (leaves t) (seq 0 (length w))) by (rewrite Lw; exact Ht).
  split; [rewrite <- Lw; apply norm_err; assumption|]. destruct (unit_row_scaled t w Lw2 Htw Mw Zw) as (l2 & L2 & F2). exists (l2 * l1). split; [apply Rmult_lt_0_compat; assumption|].
  rewrite B49. set (w2 := unit_row_fl t w) in *. clearbody w2 w row e. clear - F F1 F2 L1 L2 U0 U1. revert w w2 F1 F2. induction F as [|a x e row [D a0] F IH]; intros w w2 F1 F2; inversion F1; subst; inversion F2; subst; [constructor|]. constructor; [|apply (IH l' l'0); assumption].
  rename y into b, y0 into c. apply Rabs_le_inv in D. assert (x0 : 0 <= x) by nra. rewrite (Rabs_pos_eq x) in * by exact x0.
  assert (D1 : Rabs (b - l1 * x) <= u * (l1 * x)) by assumption. assert (D2 : Rabs (c - l2 * b) <= u * (l2 * Rabs b)) by assumption.
  apply Rabs_le_inv in D1. assert (p1 : 0 <= l1 * x) by (apply Rmult_le_pos; lra). assert (b0 : 0 <= b) by nra. rewrite (Rabs_pos_eq b) in D2 by exact b0. apply Rabs_le_inv in D2.
  assert (q : 0 <= l1 * a) by (apply Rmult_le_pos; lra).
  assert (X1 : Rabs (l1 * x - l1 * a) <= 9 * u * (l1 * a)) by (replace (l1 * x - l1 * a) with (l1 * (x - a)) by ring; rewrite Rabs_mult, (Rabs_pos_eq l1) by lra; replace (9 * u * (l1 * a)) with (l1 * (9 * u * a)) by ring; apply Rmult_le_compat_l; [lra|apply Rabs_le; lra]).
  apply Rabs_le_inv in X1. set (P := l1 * a) in *. set (Q := l1 * x) in *. assert (uP : u * P <= / 1000000 * P) by (apply Rmult_le_compat_r; assumption). assert (uP0 : 0 <= u * P) by (apply Rmult_le_pos; lra).
  assert (X2 : u * Q <= u * (2 * P)) by (apply Rmult_le_compat_l; lra). assert (X3 : Rabs (b - P) <= 11 * (u * P)) by (apply Rabs_le; lra).
  assert (X4 : Rabs (l2 * b - l2 * P) <= l2 * (11 * (u * P))) by (replace (l2 * b - l2 * P) with (l2 * (b - P)) by ring; rewrite Rabs_mult, (Rabs_pos_eq l2) by lra; apply Rmult_le_compat_l; lra). apply Rabs_le_inv in X4. apply Rabs_le_inv in X3.
  assert (X5 : u * (l2 * b) <= 2 * (u * (l2 * P))).
  { replace (2 * (u * (l2 * P))) with (u * (l2 * (2 * P))) by ring. apply Rmult_le_compat_l; [lra|]. apply Rmult_le_compat_l; lra. }
  replace (l2 * l1 * a) with (l2 * P) by (unfold P; ring). assert (0 <= u * (l2 * P)) by (apply Rmult_le_pos; [lra|apply Rmult_le_pos; lra]). replace (l2 * (11 * (u * P))) with (11 * (u * (l2 * P))) in X4 by ring. apply Rabs_le. lra.
Qed.

(** C143. With a reference point in direction [r], the new reference vectors are the normalised 0.2 * vector + 0.8 * r, up to the factor 1 + 2^-49 per entry and in length 1 up to (n + 4) * 2^-51, followed by the axes. *)
Theorem C143_reference_vectors : forall t n init r, (1 <= n)%nat -> (n <= 2 ^ 20)%nat -> Permutation (leaves t) (seq 0 n) -> length r = n -> (forall x, In x r -> x = 0 \/ bpow radix2 (-400) <= x <= bpow radix2 40) ->
  (forall v, In v init -> length v = n /\ mild v) ->
  exists vs, manage_reference_fl t n init r = vs ++ map (unit_vec n) (seq 0 n) /\ Forall2 (fun v w => along n (vadd (vscale (2 / 10) v) (vscale (8 / 10) r)) w) init vs.
Proof.
  intros t n init r N1 Hn Ht Lr Hr Hi. exists (map (fun v => unit_row_fl t (unit_row_fl t (vmap2 (fun x y => fl (fl (param_fl * x) + fl (rest_fl * y))) v r))) init). split.
  - unfold manage_reference_fl, shifted_fl. rewrite map_app, !map_map. f_equal. unfold eye. rewrite map_map. apply map_ext_in. intros k Hk. apply in_seq in Hk. apply C143_axis; [exact Ht|lia].
  - apply (Forall2_self (fun v w => along n (vadd (vscale (2 / 10) v) (vscale (8 / 10) r)) w)). intros v Hv. destruct (Hi v Hv) as [Lv Mv]. apply shifted_along; assumption.
Qed.

(** C143. With preferred solutions of moderate size, the same: one block of vectors per preferred solution, then the axes. *)
Theorem C143_preferred_vectors : forall t n init z n_solutions, (1 <= n)%nat -> (n <= 2 ^ 20)%nat -> Permutation (leaves t) (seq 0 n) -> z <> [] -> length z <> n_solutions ->
  (forall y, In y z -> length y = n /\ forall x, In x y -> x = 0 \/ bpow radix2 (-400) <= x <= bpow radix2 40) -> (forall v, In v init -> length v = n /\ mild v) ->
  exists vs, manage_preferred_fl t n init z n_solutions = Ok (vs ++ map (unit_vec n) (seq 0 n)) /\
    Forall2 (fun p w => along n (vadd (vscale (2 / 10) (snd p)) (vscale (8 / 10) (fst p))) w) (flat_map (fun y => map (fun v => (y, v)) init) z) vs.
Proof.
  intros t n init z ns N1 Hn Ht Hz0 Hl Hz Hi.
  exists (map (fun p => unit_row_fl t (unit_row_fl t (vmap2 (fun x y => fl (fl (param_fl * x) + fl (rest_fl * y))) (snd p) (fst p)))) (flat_map (fun y => map (fun v => (y, v)) init) z)). split.
  - unfold manage_preferred_fl, preferred_fl. destruct (Nat.eqb_spec (length z) ns) as [E|_]; [contradiction|]. destruct (Nat.eqb_spec (length z) 0) as [E|_]; [destruct z; [contradiction|discriminate]|]. cbn [bind]. f_equal. rewrite map_app. f_equal.
    + rewrite map_map. clear. induction z as [|y z IH]; cbn [flat_map]; [reflexivity|]. rewrite !map_app, <- IH. f_equal. unfold shifted_fl. rewrite !map_map. reflexivity.
    + unfold eye. rewrite map_map. apply map_ext_in. intros k Hk. apply in_seq in Hk. apply C143_axis; [exact Ht|lia].
  - apply (Forall2_self (fun p w => along n (vadd (vscale (2 / 10) (snd p)) (vscale (8 / 10) (fst p))) w)). intros p Hp. apply in_flat_map in Hp. destruct Hp as (y & Hy & Hp). apply in_map_iff in Hp. destruct Hp as (v & <- & Hv). cbn [fst snd].
    destruct (Hz y Hy) as [Ly My]. destruct (Hi v Hv) as [Lv Mv]. apply shifted_along; assumption.
Qed.

(** The hypotheses are met: the axes and the direction (1, 1). *)
Example ex_mild : (forall x, In x [1; 1] -> x = 0 \/ bpow radix2 (-400) <= x <= bpow radix2 40) /\ forall v, In v [[1; 0]; [0; 1]] -> length v = 2%nat /\ mild v.
Proof.
  assert (M : bpow radix2 (-400) <= 1 <= bpow radix2 40) by (change 1 with (bpow radix2 0); split; apply bpow_le; lia).
  split; [intros x [<-|[<-|[]]]; right; exact M|]. intros v [<-|[<-|[]]]; (split; [reflexivity|]); (split; [intros x [<-|[<-|[]]]; auto|exists 1; split; [cbn; auto|lra]]).
Qed.

Print Assumptions C143_reference_vectors.
Print Assumptions C143_preferred_vectors.
