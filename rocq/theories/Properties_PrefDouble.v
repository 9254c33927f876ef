(** C143: reference vectors adapted to preferred solutions, in double precision. *)
From Coq Require Import Reals Lra Lia Permutation.
From Flocq Require Import Core.
From Verif Require Import Base RVec M_RefVec M_APD P_APD M_Double P_Double M_RefDouble P_RefDouble Properties_RefDouble Properties_RefDouble2 M_APDDouble P_APDDouble Properties_APDDouble Properties_APDDouble2 M_PrefDouble.
Open Scope R_scope.
Notation u := (bpow radix2 (-53)).
Notation eta := (bpow radix2 (-1075)).

Lemma param_bounds : (1 - u) * (2 / 10) <= param_fl <= (1 + u) * (2 / 10).
Proof. unfold param_fl. apply fl_pos_err. left. apply Rle_trans with (bpow radix2 (-3)); [apply bpow_le; lia|]. change (bpow radix2 (-3)) with (/ 8). lra. Qed.
Lemma rest_bounds : (1 - 2 * u) * (8 / 10) <= rest_fl <= (1 + 2 * u) * (8 / 10).
Proof.
  unfold rest_fl. pose proof param_bounds as P. pose proof u_pos as U0. pose proof u_small as U1. assert (F : (1 - u) * (1 - param_fl) <= fl (1 - param_fl) <= (1 + u) * (1 - param_fl)).
  { apply fl_pos_err. left. apply Rle_trans with (bpow radix2 (-1)); [apply bpow_le; lia|]. change (bpow radix2 (-1)) with (/ 2). lra. }
  assert (A : u * param_fl <= u * 1) by (apply Rmult_le_compat_l; lra). assert (B : u * (1 / 10) <= u * param_fl) by (apply Rmult_le_compat_l; lra). lra.
Qed.
Lemma entry_err x y : 0 <= x -> 0 <= y -> let e := 2 / 10 * x + 8 / 10 * y in Rabs (fl (fl (param_fl * x) + fl (rest_fl * y)) - e) <= bpow radix2 (-50) * e + bpow radix2 (-1073).
Proof.
  intros X Y. cbv zeta. pose proof param_bounds as P. pose proof rest_bounds as Q. pose proof u_pos as U0. pose proof u_small as U1. assert (p0 : 0 <= param_fl) by lra. assert (c0 : 0 <= rest_fl) by lra.
  assert (a0 : 0 <= param_fl * x) by (apply Rmult_le_pos; assumption). assert (b0 : 0 <= rest_fl * y) by (apply Rmult_le_pos; assumption). pose proof (fl_nonneg_err _ a0) as A. pose proof (fl_nonneg_err _ b0) as B.
  assert (F0 : forall w, 0 <= w -> 0 <= fl w) by (intros w Hw; rewrite <- fl_0; apply fl_mono; exact Hw). pose proof (F0 _ a0) as A0. pose proof (F0 _ b0) as B0. pose proof (fl_nonneg_err _ (Rplus_le_le_0_compat _ _ A0 B0)) as S. pose proof (bpow_gt_0 radix2 (-1075)) as E0.
  assert (E4 : bpow radix2 (-1073) = 4 * eta) by (change (-1073)%Z with (2 + -1075)%Z; rewrite bpow_plus; reflexivity). assert (U8 : bpow radix2 (-50) = 8 * u) by (change (-50)%Z with (3 + -53)%Z; rewrite bpow_plus; reflexivity). rewrite E4, U8.
  assert (px : (1 - u) * (2 / 10 * x) <= param_fl * x <= (1 + u) * (2 / 10 * x)) by (split; rewrite <- Rmult_assoc; apply Rmult_le_compat_r; lra). assert (cy : (1 - 2 * u) * (8 / 10 * y) <= rest_fl * y <= (1 + 2 * u) * (8 / 10 * y)) by (split; rewrite <- Rmult_assoc; apply Rmult_le_compat_r; lra).
  set (a := 2 / 10 * x) in *. set (b := 8 / 10 * y) in *. assert (a1 : 0 <= a) by (unfold a; lra). assert (b1 : 0 <= b) by (unfold b; lra). set (a' := param_fl * x) in *. set (b' := rest_fl * y) in *. set (fa := fl a') in *. set (fb := fl b') in *. set (fs := fl (fa + fb)) in *. clearbody a b a' b' fa fb fs.
  assert (ua : 0 <= u * a) by (apply Rmult_le_pos; lra). assert (ub : 0 <= u * b) by (apply Rmult_le_pos; lra). assert (ua' : u * a' <= u * ((1 + u) * a)) by (apply Rmult_le_compat_l; lra). assert (ub' : u * b' <= u * ((1 + 2 * u) * b)) by (apply Rmult_le_compat_l; lra).
  assert (uua : u * (u * a) <= / 1000000 * (u * a)) by (apply Rmult_le_compat_r; lra). assert (uub : u * (u * b) <= / 1000000 * (u * b)) by (apply Rmult_le_compat_r; lra). assert (ue : u * eta <= / 1000000 * eta) by (apply Rmult_le_compat_r; lra).
  assert (fa1 : fa <= a + 3 * (u * a) + eta) by lra. assert (fb1 : fb <= b + 4 * (u * b) + eta) by lra. assert (fa2 : a - 3 * (u * a) - eta <= fa) by lra. assert (fb2 : b - 4 * (u * b) - eta <= fb) by lra.
  assert (us : u * (fa + fb) <= u * (a + 3 * (u * a) + eta + (b + 4 * (u * b) + eta))) by (apply Rmult_le_compat_l; lra). apply Rabs_le. split; lra.
Qed.
(** C143. Every entry of a shifted vector is 0.2 * vector + 0.8 * preferred solution up to the factor 1 + 2^-50 (and 2^-1073), for vectors and solutions without negative entries. *)
Theorem C143_shift : forall z rows, (forall y, In y z -> 0 <= y) -> (forall v, In v rows -> length v = length z /\ forall x, In x v -> 0 <= x) ->
  Forall2 (fun v r => Forall2 (fun e x => Rabs (x - e) <= bpow radix2 (-50) * e + bpow radix2 (-1073)) (vadd (vscale (2 / 10) v) (vscale (8 / 10) z)) r) rows (shifted_fl z rows).
Proof.
  intros z rows Hz. unfold shifted_fl. induction rows as [|v rows IH]; intros H; cbn [map]; [apply Forall2_nil|]. apply Forall2_cons; [|apply IH; intros w Hw; apply H; right; exact Hw]. destruct (H v (or_introl eq_refl)) as (L & P). clear IH H.
  unfold vadd, vscale. revert z Hz L. induction v as [|x v IH]; intros [|y z] Hz L; try discriminate; cbn [map vmap2]; [apply Forall2_nil|]. apply Forall2_cons.
  - apply entry_err; [apply P|apply Hz]; left; reflexivity.
  - apply (IH (fun q Hq => P q (or_intror Hq)) z (fun q Hq => Hz q (or_intror Hq))). injection L as L. exact L.
Qed.

(** ** Large objectives *)
Lemma absorbed x w : double w -> bpow radix2 55 <= w -> 0 <= x <= 1 -> fl (x + w) = w.
Proof.
  intros D W [X0 X1]. assert (W0 : 0 < w) by (pose proof (bpow_gt_0 radix2 55); lra). apply Rle_antisym; [|rewrite <- (fl_id w D) at 1; apply fl_mono; lra]. destruct (Rle_or_lt (fl (x + w)) w) as [G|G]; [exact G|]. exfalso.
  pose proof (fl_nearest (x + w) w D) as N. replace (w - (x + w)) with (- x) in N by ring. rewrite Rabs_Ropp, (Rabs_pos_eq x) in N by exact X0. apply Rabs_le_inv in N.
  assert (V : Valid_exp (FLT_exp (-1074) 53)) by (apply FLT_exp_valid; reflexivity). pose proof (@succ_le_lt radix2 (FLT_exp (-1074) 53) V w (fl (x + w)) D (fl_double _) G) as S. rewrite succ_eq_pos in S by lra.
  pose proof (@ulp_FLT_gt radix2 (-1074) 53 ltac:(reflexivity) w) as U. rewrite Rabs_pos_eq in U by lra. change (- (53))%Z with (-53)%Z in U.
  assert (B : bpow radix2 55 * u <= w * u) by (apply Rmult_le_compat_r; [apply bpow_ge_0|exact W]). rewrite <- bpow_plus in B. change (bpow radix2 (55 + -53)) with 4 in B. lra.
Qed.
Lemma absorbed_row z v : length v = length z -> (forall x, In x v -> 0 <= x <= 2) -> (forall y, In y z -> bpow radix2 56 <= y) -> vmap2 (fun x y => fl (fl (param_fl * x) + fl (rest_fl * y))) v z = map (fun y => fl (rest_fl * y)) z.
Proof.
  intros L. revert z L. induction v as [|x v IH]; intros [|y z] L Hx Hz; try discriminate; [reflexivity|]. cbn [vmap2 map]. f_equal; [|apply IH; [injection L as L; exact L|intros q Hq; apply Hx; right; exact Hq|intros q Hq; apply Hz; right; exact Hq]].
  pose proof param_bounds as P. pose proof rest_bounds as Q. pose proof u_pos as U0. pose proof u_small as U1. destruct (Hx x (or_introl eq_refl)) as (X0 & X2). pose proof (Hz y (or_introl eq_refl)) as Y.
  assert (px : 0 <= param_fl * x <= / 2 * 2) by (split; [apply Rmult_le_pos; lra|apply Rmult_le_compat; lra]). apply absorbed; [apply fl_double| |].
  - rewrite <- (fl_id (bpow radix2 55)) by (apply double_bpow; lia). apply fl_mono. assert (E : bpow radix2 55 = / 2 * bpow radix2 56) by (change 55%Z with (-1 + 56)%Z; rewrite bpow_plus; reflexivity). rewrite E. pose proof (bpow_gt_0 radix2 56). apply Rmult_le_compat; lra.
  - split; [rewrite <- fl_0; apply fl_mono; lra|]. rewrite <- (fl_id 1) by (change 1 with (bpow radix2 0); apply double_bpow; lia). apply fl_mono. lra.
Qed.
(** C143 (false of the code). The preferred solution's objectives are used as they are: when all are at least 2^56, all reference vectors become one and the same (the axis vectors excepted)... *)
Theorem C143_identical_refuted : forall t n init z n_solutions, length z = n -> (forall y, In y z -> bpow radix2 56 <= y) -> (forall v, In v init -> length v = n /\ forall x, In x v -> 0 <= x <= 2) -> n_solutions <> 1%nat ->
  exists w, manage_preferred_fl t n init [z] n_solutions = Ok (repeat w (length init) ++ map (unit_row_fl t) (eye n)).
Proof.
  intros t n init z ns Lz Hz Hi Hn. exists (unit_row_fl t (unit_row_fl t (map (fun y => fl (rest_fl * y)) z))). unfold manage_preferred_fl, preferred_fl. cbn [length]. destruct (Nat.eqb 1 ns) eqn:E; [apply Nat.eqb_eq in E; congruence|]. cbn [Nat.eqb bind flat_map]. rewrite app_nil_r. f_equal.
  rewrite map_app. f_equal. unfold shifted_fl. induction init as [|v init IH]; [reflexivity|]. cbn [map length repeat]. destruct (Hi v (or_introl eq_refl)) as (L & P). rewrite (absorbed_row z v ltac:(congruence) P Hz). f_equal. apply IH. intros q Hq. apply Hi. right. exact Hq.
Qed.
(** ... although in exact arithmetic different vectors stay different. *)
Theorem C143_exact_distinct : forall z v w, length v = length z -> length w = length z -> vadd (vscale (2 / 10) v) (vscale (8 / 10) z) = vadd (vscale (2 / 10) w) (vscale (8 / 10) z) -> v = w.
Proof.
  unfold vadd, vscale. induction z as [|y z IH]; intros [|a v] [|b w] Lv Lw E; try discriminate; [reflexivity|]. cbn [map vmap2] in E. injection E as E1 E2. f_equal; [lra|]. apply IH; [injection Lv; auto|injection Lw; auto|exact E2].
Qed.
Lemma argmax_repeat (c : R) k l : (1 <= k)%nat -> forall j, argmax (repeat c k ++ l) = Some j -> (j = 0 \/ k <= j)%nat.
Proof.
  intros K j H. destruct (argmax_spec _ _ H) as (x & Hx & Hm & First). destruct (Nat.eq_dec j 0) as [->|J]; [left; reflexivity|]. right. destruct (Nat.le_gt_cases k j) as [G|G]; [exact G|]. exfalso.
  assert (Rj : forall i, (i < k)%nat -> nth_error (repeat c k ++ l) i = Some c) by (intros i Hi; rewrite nth_error_app1 by (rewrite repeat_length; exact Hi); apply nth_error_repeat; exact Hi).
  rewrite (Rj j G) in Hx. injection Hx as <-. pose proof (First 0%nat c ltac:(lia) (Rj 0%nat K)). lra.
Qed.
(** C143 (false of the code). With such a preferred solution RVEA's next selection keeps at most one solution besides one per axis vector, however many solutions and reference vectors there are. *)
Theorem C143_collapse_refuted : forall t t1 t2 t3 n init z n_solutions vecs penalty ideal pop_ideal fit gam, length z = n -> (forall y, In y z -> bpow radix2 56 <= y) -> (forall v, In v init -> length v = n /\ forall x, In x v -> 0 <= x <= 2) -> init <> [] -> n_solutions <> 1%nat ->
  manage_preferred_fl t n init [z] n_solutions = Ok vecs -> length ideal = n -> length pop_ideal = n -> (forall f, In f fit -> length f = n) -> fit <> [] ->
  length vecs = (length init + n)%nat /\ exists i s, apd_select_fl t1 t2 t3 penalty ideal pop_ideal fit vecs gam = Ok (i, s) /\ (length s <= 1 + n)%nat.
Proof.
  intros t t1 t2 t3 n init z ns vecs p ideal pi fit gam Lz Hz Hi Ni Hn Hv Li Lp Lf Nf. destruct (C143_identical_refuted t n init z ns Lz Hz Hi Hn) as (w & E). rewrite Hv in E. injection E as E. set (k := length init) in *.
  assert (K : (1 <= k)%nat) by (unfold k; destruct init; [congruence|cbn; lia]). assert (Le : length (map (unit_row_fl t) (eye n)) = n) by (rewrite map_length; unfold eye; rewrite map_length; apply seq_length).
  assert (Lv : length vecs = (k + n)%nat) by (rewrite E, app_length, repeat_length, Le; reflexivity). split; [exact Lv|].
  destruct (new_ideal_total ideal pi fit Nf) as (i & Hz'). unfold apd_select_fl. rewrite Hz'. cbn [bind]. exists i. eexists. split; [reflexivity|]. set (trs := map (translated_fl i) fit). set (g := choose_fl t1 t2 t3 p vecs trs gam).
  assert (As : forall tr, (assigned_fl t1 t2 vecs tr = 0 \/ k <= assigned_fl t1 t2 vecs tr)%nat).
  { intros tr. unfold assigned_fl. rewrite E, map_app. replace (map (cosine_fl t1 t2 tr) (repeat w k)) with (repeat (cosine_fl t1 t2 tr w) k) by (clear; induction k; cbn; [reflexivity|f_equal; assumption]).
    destruct (argmax _) as [j|] eqn:Ej; [|left; reflexivity]. exact (argmax_repeat _ k _ K j Ej). }
  assert (One : forall m, (length (g m) <= 1)%nat).
  { intros m. unfold g, choose_fl. destruct (niche_fl t1 t2 vecs trs m) as [|a [|b l]]; [cbn; lia|cbn; lia|]. destruct (argmin _); cbn; lia. }
  assert (Nil : forall m, (1 <= m < k)%nat -> g m = []). { intros m Hm. apply (proj1 (C141_choice t1 t2 t3 p vecs trs gam m)). intros q _ A. destruct (As (row trs q)) as [B|B]; lia. }
  rewrite Lv. replace (k + n)%nat with (1 + ((k - 1) + n))%nat by lia. rewrite !seq_app, !flat_map_app, !app_length.
  assert (A1 : length (flat_map g (seq (0 + 1) (k - 1))) = 0%nat).
  { assert (G : forall c a, (1 <= a)%nat -> (a + c <= k)%nat -> flat_map g (seq a c) = []) by (induction c as [|c IH]; intros a A B; [reflexivity|]; cbn [seq flat_map]; rewrite Nil, IH by lia; reflexivity). rewrite G by lia. reflexivity. }
  assert (A2 : forall c a, (length (flat_map g (seq a c)) <= c)%nat) by (induction c as [|c IH]; intros a; [cbn; lia|]; cbn [seq flat_map]; rewrite app_length; specialize (One a); specialize (IH (S a)); lia).
  rewrite A1. pose proof (A2 1%nat 0%nat). pose proof (A2 n (0 + 1 + (k - 1))%nat). lia.
Qed.
(** The hypotheses are met: the axes as initial vectors, 2^60 as both objectives. *)
Example ex_large : let z := [bpow radix2 60; bpow radix2 60] in length z = 2%nat /\ (forall y, In y z -> bpow radix2 56 <= y) /\ forall v, In v [[1; 0]; [0; 1]] -> length v = 2%nat /\ forall x, In x v -> 0 <= x <= 2.
Proof.
  cbv zeta. split; [reflexivity|]. split; [intros y [<-|[<-|[]]]; apply bpow_le; lia|]. intros v [<-|[<-|[]]]; (split; [reflexivity|]); intros x [<-|[<-|[]]]; lra.
Qed.
Print Assumptions C143_shift.
Print Assumptions C143_identical_refuted.
Print Assumptions C143_exact_distinct.
Print Assumptions C143_collapse_refuted.
