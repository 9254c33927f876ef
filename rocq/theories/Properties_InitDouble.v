(** C141 and C142 on the reference vectors a run starts with (C139): the hypotheses there are met by them. *)
From Coq Require Import Reals Lra Lia Permutation ZArith.
From Flocq Require Import Core.
From Verif Require Import Base RVec M_APD M_NSGA3 P_APD M_Double P_Double M_RefDouble P_RefDouble Properties_RefDouble Properties_RefDouble2 Properties_RefDouble3 M_LatDouble P_LatDouble Properties_LatDouble M_APDDouble P_APDDouble Properties_APDDouble M_NSGA3Double P_NSGA3Double Properties_NSGA3Double.
Open Scope R_scope.
Notation u := (bpow radix2 (-53)).
Notation zsum := (fold_right Z.add 0%Z).

Lemma initial_entries t n h vs v : (2 <= n <= 2 ^ 20)%nat -> (1 <= h)%nat -> (Z.of_nat (n + 8) * (Z.of_nat h * Z.of_nat h) <= 2 ^ 44)%Z -> Permutation (leaves t) (seq 0 n) -> initial_vectors_fl t h n = Ok vs -> In v vs -> plain_direction n v /\ forall x, In x v -> x = 0 \/ bpow radix2 (-26) <= x <= 2.
Proof.
  intros Hn Hh Hs Ht Hv Hin. destruct (C139_initial_vectors t n h Hn Hh Hs Ht) as (planar & vs' & _ & E & _ & _ & _ & H). rewrite Hv in E. injection E as <-. apply In_nth_error in Hin. destruct Hin as (i & Hi).
  destruct (H i v Hi) as (w & p & Lw & Pw & Sw & _ & _ & _ & Lv & Pv & Nv & (l & Hl & F) & _). clear H. pose proof Nv as Nv0. destruct (small_units n ltac:(lia) (proj2 Hn)) as (Z & Zu & Zn). pose proof u_pos as U0. pose proof u_small as U1.
  replace (INR (n + 4) * bpow radix2 (-51)) with (4 * (INR (n + 4) * u)) in Nv by (change (-51)%Z with (2 + -53)%Z; rewrite bpow_plus; change (bpow radix2 2) with 4; ring). apply Rabs_le_inv in Nv.
  assert (H22 : (Z.of_nat h <= 2 ^ 22)%Z). { destruct (Z.le_gt_cases (Z.of_nat h) (2 ^ 22)) as [G|G]; [exact G|]. exfalso. assert (2 ^ 22 * 2 ^ 22 <= Z.of_nat h * Z.of_nat h)%Z by (apply Z.mul_le_mono_nonneg; lia). change (2 ^ 22 * 2 ^ 22)%Z with (2 ^ 44)%Z in *. nia. }
  pose proof (near_norm l w v Hl Pw F) as D. rewrite Sw in D. apply IZR_le in H22. assert (h1 : 1 <= IZR (Z.of_nat h)) by (apply (IZR_le 1); lia). set (hh := IZR (Z.of_nat h)) in *.
  assert (N1 : norm v <= (1 + 3 * u) * (l * hh)) by (unfold norm; apply sqrt_le_intro; [apply Rmult_le_pos; [lra|apply Rmult_le_pos; lra]|exact D]).
  assert (l0 : / 2 <= 2 * l * bpow radix2 22). { change (bpow radix2 22) with (IZR (2 ^ 22)). assert (l * hh <= l * IZR (2 ^ 22)) by (apply Rmult_le_compat_l; lra). assert (0 <= l * hh) by (apply Rmult_le_pos; lra). assert (u * (l * hh) <= / 1000000 * (l * hh)) by (apply Rmult_le_compat_r; lra). lra. }
  assert (l1 : bpow radix2 (-24) <= l). { apply Rmult_le_reg_r with (bpow radix2 22); [apply bpow_gt_0|]. rewrite <- bpow_plus. change (bpow radix2 (-24 + 22)) with (/ 4). lra. }
  assert (G0 : forall x, In x v -> x = 0 \/ bpow radix2 (-26) <= x <= 2).
  { intros x Hx. pose proof (Pv x Hx) as X0. pose proof (entry_le_norm v x Hx X0) as X1.
  assert (G : x = 0 \/ (1 - 3 * u) * l <= x).
  { clear - F Hx Pw Hl U1 U0. induction F as [|k y w v E F IH]; [destruct Hx|]. inversion Pw as [|? ? P1 P2]. subst. destruct Hx as [<-|Hx]; [|exact (IH P2 Hx)]. apply Rabs_le_inv in E. destruct (Z.eq_dec k 0) as [->|K].
    - left. rewrite Rmult_0_r, Rmult_0_r in E. lra.
    - right. assert (K1 : 1 <= IZR k) by (apply (IZR_le 1); lia). assert ((1 - 3 * u) * l * 1 <= (1 - 3 * u) * l * IZR k) by (apply Rmult_le_compat_l; [apply Rmult_le_pos; lra|exact K1]). lra. }
  destruct G as [->|G]; [left; reflexivity|]. right. split; [|lra].
  assert (B : bpow radix2 (-24) * / 2 <= x) by (assert (u * l <= / 1000000 * l) by (apply Rmult_le_compat_r; lra); lra). apply Rle_trans with (2 := B). change (/ 2) with (bpow radix2 (-1)). rewrite <- bpow_plus. apply bpow_le. lia. }
  split; [|exact G0]. split; [split; [exact Lv|split; [exact Pv|exact Nv0]]|]. apply Forall_forall. intros x Hx. destruct (G0 x Hx) as [->|(A & B)]; [left; reflexivity|right]. rewrite Rabs_pos_eq by (apply Pv; exact Hx). split.
  - apply Rle_trans with (2 := A). apply bpow_le. lia.
  - apply Rle_trans with (1 := B). change 2 with (bpow radix2 1). apply bpow_le. lia.
Qed.
Lemma initial_plain t n h vs v : (2 <= n <= 2 ^ 20)%nat -> (1 <= h)%nat -> (Z.of_nat (n + 8) * (Z.of_nat h * Z.of_nat h) <= 2 ^ 44)%Z -> Permutation (leaves t) (seq 0 n) -> initial_vectors_fl t h n = Ok vs -> In v vs -> plain_direction n v.
Proof. intros Hn Hh Hs Ht Hv Hin. exact (proj1 (initial_entries t n h vs v Hn Hh Hs Ht Hv Hin)). Qed.
Lemma initial_nonempty t n h vs : (2 <= n <= 2 ^ 20)%nat -> (1 <= h)%nat -> (Z.of_nat (n + 8) * (Z.of_nat h * Z.of_nat h) <= 2 ^ 44)%Z -> Permutation (leaves t) (seq 0 n) -> initial_vectors_fl t h n = Ok vs -> vs <> [].
Proof.
  intros Hn Hh Hs Ht Hv X. destruct (C139_initial_vectors t n h Hn Hh Hs Ht) as (planar & vs' & Hp & E & L & _). rewrite Hv in E. injection E as <-.
  destruct (C139_planar_vectors t n h Hn Hh Hs Ht) as (planar' & pl & Hp' & _ & _ & L' & L2 & _). rewrite Hp in Hp'. injection Hp' as <-. rewrite X in L. cbn [length] in L. lia.
Qed.

(** C141. RVEA on the reference vectors it starts with: every solution with ordinary objectives is assigned to one whose cosine is the largest up to (n + 4) * 2^-48. *)
Theorem C141_initial : forall t t1 t2 n h vs tr, (2 <= n <= 2 ^ 20)%nat -> (1 <= h)%nat -> (Z.of_nat (n + 8) * (Z.of_nat h * Z.of_nat h) <= 2 ^ 44)%Z -> Permutation (leaves t) (seq 0 n) -> Permutation (leaves t1) (seq 0 n) -> Permutation (leaves t2) (seq 0 n) ->
  initial_vectors_fl t h n = Ok vs -> ordinary n tr ->
  exists v, nth_error vs (assigned_fl t1 t2 vs tr) = Some v /\ forall w, In w vs -> cosine_of tr w <= cosine_of tr v + INR (n + 4) * bpow radix2 (-48).
Proof.
  intros t t1 t2 n h vs tr Hn Hh Hs Ht H1 H2 Hv Ho. apply (C141_assignment t1 t2 n vs tr (proj2 Hn) H1 H2 Ho (initial_nonempty t n h vs Hn Hh Hs Ht Hv)). intros v Hin. exact (proj1 (initial_plain t n h vs v Hn Hh Hs Ht Hv Hin)).
Qed.
(** C142. NSGA-III on the reference directions it starts with: every normalised solution is associated with one whose line is nearest up to (n + 4) * 2^-47 of the solution's norm (and 2^-519). *)
Theorem C142_initial : forall t t1 t2 t3 n h dirs v, (2 <= n <= 2 ^ 20)%nat -> (1 <= h)%nat -> (Z.of_nat (n + 8) * (Z.of_nat h * Z.of_nat h) <= 2 ^ 44)%Z -> Permutation (leaves t) (seq 0 n) ->
  Permutation (leaves t1) (seq 0 n) -> Permutation (leaves t2) (seq 0 n) -> Permutation (leaves t3) (seq 0 n) -> initial_vectors_fl t h n = Ok dirs -> plain_point n v ->
  exists d, nth_error dirs (niche_of_fl t1 t2 t3 dirs v) = Some d /\ Rabs (niche_dist_fl t1 t2 t3 dirs v - perp_dist v d) <= INR (n + 4) * bpow radix2 (-48) * norm v + bpow radix2 (-520) /\
    forall d', In d' dirs -> perp_dist v d <= perp_dist v d' + (INR (n + 4) * bpow radix2 (-47) * norm v + bpow radix2 (-519)).
Proof.
  intros t t1 t2 t3 n h dirs v Hn Hh Hs Ht H1 H2 H3 Hd Hv. apply (C142_association t1 t2 t3 n dirs v); try assumption; try lia; [exact (initial_nonempty t n h dirs Hn Hh Hs Ht Hd)|]. intros d Hin. exact (initial_plain t n h dirs d Hn Hh Hs Ht Hd Hin).
Qed.
(** C141. There the neighbouring angles are at least 2^-25, so the computed distance is norm * (1 + penalty * angle / neighbouring angle) without the replacement of zeros. *)
Theorem C141_initial_distance : forall t t1 t2 t3 n h vs penalty trs gam k i v, (2 <= n <= 2 ^ 20)%nat -> (1 <= h)%nat -> (Z.of_nat (n + 8) * (Z.of_nat h * Z.of_nat h) <= 2 ^ 44)%Z -> Permutation (leaves t) (seq 0 n) -> Permutation (leaves t3) (seq 0 n) ->
  initial_vectors_fl t h n = Ok vs -> nth_error vs k = Some v -> neighbouring_angle_fl t vs v = Some (nth k gam 0) -> ordinary n (row trs i) -> 0 <= penalty <= bpow radix2 20 ->
  let exact := norm (row trs i) * (1 + penalty * (theta_fl t1 t2 (row trs i) v / nth k gam 0)) in
  bpow radix2 (-25) <= nth k gam 0 /\ Rabs (apd_fl t1 t2 t3 penalty vs trs gam k i - exact) <= INR (n + 4) * bpow radix2 (-51) * exact.
Proof.
  intros t t1 t2 t3 n h vs p trs gam k i v Hn Hh Hs Ht H3 Hv Hk Hg Ho Hp. cbv zeta. destruct (C139_initial_vectors t n h Hn Hh Hs Ht) as (planar & vs' & _ & E & _ & _ & _ & H). rewrite Hv in E. injection E as <-.
  destruct (H k v Hk) as (w & q & _ & _ & _ & _ & _ & _ & _ & _ & _ & _ & _ & _ & (ang & Ea & La & _)). rewrite Hg in Ea. injection Ea as Ea. rewrite <- Ea in La. pose proof (bpow_gt_0 radix2 (-25)) as B. split; [exact La|].
  destruct (C141_distance t1 t2 t3 n p vs trs gam k i (proj2 Hn) H3 Ho Hp ltac:(lra)) as (_ & D). cbv zeta in D. unfold zero_eps in D. destruct (Req_EM_T (nth k gam 0) 0) as [X|_]; [lra|]. assert (Rk : row vs k = v) by (unfold row; apply nth_error_nth; exact Hk). rewrite Rk in D. exact D.
Qed.
(** The initial vectors' entries lie in the range of C137's theorem on adaptation. *)
Lemma initial_for_adapt t n h vs v : (2 <= n <= 2 ^ 20)%nat -> (1 <= h)%nat -> (Z.of_nat (n + 8) * (Z.of_nat h * Z.of_nat h) <= 2 ^ 44)%Z -> Permutation (leaves t) (seq 0 n) -> initial_vectors_fl t h n = Ok vs -> In v vs ->
  length v = n /\ (forall x, In x v -> x = 0 \/ bpow radix2 (-250) <= Rabs x <= bpow radix2 250) /\ exists x, In x v /\ x <> 0.
Proof.
  intros Hn Hh Hs Ht Hv Hin. destruct (initial_entries t n h vs v Hn Hh Hs Ht Hv Hin) as (((Lv & Pv & Nv) & _) & HE). split; [exact Lv|]. split.
  - intros x Hx. destruct (HE x Hx) as [->|(A & B)]; [left; reflexivity|right]. rewrite Rabs_pos_eq by (apply Pv; exact Hx). split; [apply Rle_trans with (2 := A); apply bpow_le; lia|apply Rle_trans with (1 := B); change 2 with (bpow radix2 1); apply bpow_le; lia].
  - destruct (Forall_Exists_dec (fun x => x = 0) (fun x => Req_EM_T x 0) v) as [A|A]; [|apply Exists_exists in A; exact A]. exfalso. rewrite Forall_forall in A. pose proof (norm_zero_map v A) as X. rewrite X in Nv. apply Rabs_le_inv in Nv. destruct (small_units n ltac:(lia) (proj2 Hn)) as (Z & _).
    replace (INR (n + 4) * bpow radix2 (-51)) with (4 * (INR (n + 4) * u)) in Nv by (change (-51)%Z with (2 + -53)%Z; rewrite bpow_plus; change (bpow radix2 2) with 4; ring). lra.
Qed.
(** C141. The same after an adaptation of the initial vectors to a population whose objectives spread over ranges from 2^-249 to 2^249. *)
Theorem C141_adapted : forall t t1 t2 n h vs fitness tr, (2 <= n <= 2 ^ 20)%nat -> (1 <= h)%nat -> (Z.of_nat (n + 8) * (Z.of_nat h * Z.of_nat h) <= 2 ^ 44)%Z -> Permutation (leaves t) (seq 0 n) -> Permutation (leaves t1) (seq 0 n) -> Permutation (leaves t2) (seq 0 n) ->
  initial_vectors_fl t h n = Ok vs -> fitness <> [] -> (forall r, In r fitness -> length r = n /\ Forall double r) -> (forall j r, (j < n)%nat -> range_of fitness j r -> bpow radix2 (-249) <= r <= bpow radix2 249) -> ordinary n tr ->
  let adapted := adapt_fl t vs fitness in length adapted = length vs /\
  exists v, nth_error adapted (assigned_fl t1 t2 adapted tr) = Some v /\ forall w, In w adapted -> cosine_of tr w <= cosine_of tr v + INR (n + 4) * bpow radix2 (-48).
Proof.
  intros t t1 t2 n h vs fit tr Hn Hh Hs Ht H1 H2 Hv NE Hf Hr Ho. cbv zeta.
  destruct (C137_adapt_by_ranges_partial t vs fit n (proj2 Hn) Ht NE Hf Hr (fun v Hin => initial_for_adapt t n h vs v Hn Hh Hs Ht Hv Hin)) as (rng & Lr & Sr & F). set (ad := adapt_fl t vs fit) in *.
  assert (L : length ad = length vs) by (clear - F; induction F; cbn [length]; congruence). split; [exact L|].
  assert (Rp : forall r, In r rng -> 0 <= r). { intros r Hin. destruct (In_nth rng r 0 Hin) as (j & Hj & <-). rewrite Lr in Hj. pose proof (Hr j _ Hj (Sr j Hj)) as B. pose proof (bpow_gt_0 radix2 (-249)). lra. }
  apply (C141_assignment t1 t2 n ad tr (proj2 Hn) H1 H2 Ho).
  - intros X. pose proof (initial_nonempty t n h vs Hn Hh Hs Ht Hv) as G. rewrite X in L. destruct vs; [congruence|discriminate].
  - assert (Iv : forall v, In v vs -> length v = n /\ forall x, In x v -> 0 <= x) by (intros v Hin; destruct (initial_plain t n h vs v Hn Hh Hs Ht Hv Hin) as ((A & B & _) & _); auto).
    clear - F Iv Rp Lr. clearbody ad. induction F as [|v w vs ad (N & l & Hl & E) F IH]; [intros x []|]. intros x [<-|Hx]; [|apply IH; [intros y Hy; apply Iv; right; exact Hy|exact Hx]]. destruct (Iv v (or_introl eq_refl)) as (Lv & Pv). split; [|split; [|exact N]].
    + assert (LV : length (vmap2 Rmult v rng) = n) by (rewrite vmap2_length; congruence). rewrite <- LV. clear - E. induction E; cbn [length]; congruence.
    + assert (Pm : forall y, In y (vmap2 Rmult v rng) -> 0 <= y). { clear - Pv Rp. revert rng Rp. induction v as [|a v IH]; intros [|r rng] Rp y Hy; try destruct Hy. - subst y. apply Rmult_le_pos; [apply Pv|apply Rp]; left; reflexivity. - apply (IH (fun z Hz => Pv z (or_intror Hz)) rng (fun z Hz => Rp z (or_intror Hz)) y H). }
      clear - E Pm Hl. induction E as [|a b A B X E IH]; [intros x []|]. intros x [<-|Hx]; [|apply IH; [intros y Hy; apply Pm; right; exact Hy|exact Hx]]. pose proof (Pm a (or_introl eq_refl)) as A0. rewrite (Rabs_pos_eq a) in X by exact A0. apply Rabs_le_inv in X.
      assert (0 <= l * a) by (apply Rmult_le_pos; lra). assert (B50 : bpow radix2 (-50) <= 1) by (change 1 with (bpow radix2 0); apply bpow_le; lia). assert (bpow radix2 (-50) * (l * a) <= 1 * (l * a)) by (apply Rmult_le_compat_r; assumption). lra.
Qed.
Print Assumptions C141_initial.
Print Assumptions C142_initial.
Print Assumptions C141_initial_distance.
Print Assumptions C141_adapted.
