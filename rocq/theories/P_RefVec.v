(** Proofs about reference vectors. *)
From Verif Require Import Base RVec M_APD M_RefVec.
From Coq Require Import Reals Lra.
Open Scope R_scope.

Definition all_zero (v : list R) : Prop := forall x, In x v -> x = 0.

Lemma all_zero_dec v : all_zero v \/ exists x, In x v /\ x <> 0.
Proof.
  induction v as [|x t IH]; [left; intros y []|].
  destruct (Req_EM_T x 0) as [->|Hn]; [|right; exists x; split; [left; auto|auto]].
  destruct IH as [IH|(y & H1 & H2)].
  - left. intros y [<-|Hy]; auto.
  - right. exists y. split; [right; auto|auto].
Qed.

Lemma all_zero_dot v : all_zero v -> dot v v = 0.
Proof.
  induction v as [|x t IH]; intros H; simpl; auto.
  rewrite (H x (or_introl eq_refl)), IH; [lra|]. intros y Hy. apply H; right; auto.
Qed.
Lemma all_zero_norm v : all_zero v -> norm v = 0.
Proof. intros H. unfold norm. rewrite all_zero_dot by auto. apply sqrt_0. Qed.

Lemma eps_pos : 0 < eps.
Proof. unfold eps. apply Rinv_0_lt_compat. apply pow_lt. lra. Qed.

Lemma unit_row_scale v : norm v <> 0 -> unit_row v = vscale (/ norm v) v.
Proof.
  intros H. unfold unit_row, zero_eps, vscale. destruct (Req_EM_T (norm v) 0); [contradiction|].
  apply map_ext. intros x. unfold Rdiv. apply Rmult_comm.
Qed.

Lemma unit_row_unit v x : In x v -> x <> 0 -> norm (unit_row v) = 1.
Proof.
  intros H1 H2. pose proof (norm_pos v x H1 H2) as P.
  rewrite unit_row_scale by lra. rewrite norm_scale. rewrite Rabs_right by (left; apply Rinv_0_lt_compat; auto).
  apply Rinv_l. lra.
Qed.

Lemma unit_row_zero v : all_zero v -> unit_row v = v.
Proof.
  intros H. unfold unit_row. rewrite <- (map_id v) at 2. apply map_ext_in. intros x Hx. rewrite (H x Hx). unfold Rdiv. lra.
Qed.

Lemma unit_row_of_unit v : norm v = 1 -> unit_row v = v.
Proof.
  intros H. unfold unit_row, zero_eps. rewrite H. destruct (Req_EM_T 1 0); [lra|].
  rewrite <- (map_id v) at 2. apply map_ext. intros x. unfold Rdiv. rewrite Rinv_1. lra.
Qed.

Lemma unit_row_cases v : norm (unit_row v) = 1 \/ all_zero (unit_row v).
Proof.
  destruct (all_zero_dec v) as [H|(x & H1 & H2)].
  - right. rewrite unit_row_zero; auto.
  - left. eapply unit_row_unit; eauto.
Qed.

Definition unit_or_zero (v : list R) : Prop := norm v = 1 \/ all_zero v.

Lemma normalize_unit s : Forall unit_or_zero (values (normalize_rv s)).
Proof. simpl. apply Forall_forall. intros v Hv. apply in_map_iff in Hv. destruct Hv as (u & <- & _). apply unit_row_cases. Qed.

Lemma mask_sel_In {A} m (l : list A) x : In x (mask_sel m l) -> In x l.
Proof.
  revert l; induction m as [|b m IH]; intros [|y l]; simpl; try tauto. destruct b; simpl; [intros [->|H]; auto|auto].
Qed.

Lemma adapt_2_unit s z n s' : Forall unit_or_zero (values s) -> interactive_adapt_2 s z n = Ok s' -> Forall unit_or_zero (values s').
Proof.
  intros H. unfold interactive_adapt_2. destruct (Nat.eqb (length z) n); [intros E; injection E as <-; apply normalize_unit|].
  cbv zeta. unfold masked. destruct (Nat.eqb _ (length (values s))); [|discriminate]. cbn [bind].
  destruct (Nat.eqb _ (length (planar s))); [|discriminate]. cbn [bind]. intros E; injection E as <-.
  simpl. apply Forall_forall. intros v Hv. apply mask_sel_In in Hv. rewrite Forall_forall in H. auto.
Qed.

Lemma interact_unit s a : Forall unit_or_zero (values s) -> Forall unit_or_zero (values (interact s a)).
Proof.
  intros H. unfold interact. destruct a as [p|f].
  - unfold manage. destruct (match p with PrefPoint _ _ _ => _ | _ => _ end); cbn [bind]; [apply normalize_unit|auto].
  - unfold adapt. destruct f; auto. apply normalize_unit.
Qed.

Lemma interacts_unit l : forall s, Forall unit_or_zero (values s) -> Forall unit_or_zero (values (fold_left interact l s)).
Proof. induction l as [|a l IH]; intros s H; simpl; auto. apply IH, interact_unit; auto. Qed.

(** Edge vectors. *)
Lemma unit_vec_length n i : length (unit_vec n i) = n.
Proof. unfold unit_vec. rewrite map_length, seq_length. auto. Qed.

Lemma dot_unit_seq i : forall n s, (s <= i < s + n)%nat ->
  dot (map (fun j => if Nat.eqb i j then 1 else 0) (seq s n)) (map (fun j => if Nat.eqb i j then 1 else 0) (seq s n)) = 1.
Proof.
  induction n as [|n IH]; intros s H; [lia|]. cbn [seq map dot].
  destruct (Nat.eqb_spec i s) as [->|Hn].
  - assert (Z : forall k t, (s < t)%nat -> dot (map (fun j => if Nat.eqb s j then 1 else 0) (seq t k)) (map (fun j => if Nat.eqb s j then 1 else 0) (seq t k)) = 0).
    { induction k as [|k IHk]; intros t Ht; cbn [seq map dot]; auto. replace (Nat.eqb s t) with false by (symmetry; apply Nat.eqb_neq; lia).
      rewrite IHk by lia. lra. }
    rewrite Z by lia. lra.
  - rewrite IH by lia. lra.
Qed.
Lemma unit_vec_norm n i : (i < n)%nat -> norm (unit_vec n i) = 1.
Proof. intros H. unfold norm, unit_vec. rewrite dot_unit_seq by lia. apply sqrt_1. Qed.
Lemma rsum_unit_seq i : forall n s, (s <= i < s + n)%nat -> rsum (map (fun j => if Nat.eqb i j then 1 else 0) (seq s n)) = 1.
Proof.
  induction n as [|n IH]; intros s H; [lia|]. cbn [seq map rsum].
  destruct (Nat.eqb_spec i s) as [->|Hn].
  - assert (Z : forall k t, (s < t)%nat -> rsum (map (fun j => if Nat.eqb s j then 1 else 0) (seq t k)) = 0).
    { induction k as [|k IHk]; intros t Ht; cbn [seq map rsum]; auto. replace (Nat.eqb s t) with false by (symmetry; apply Nat.eqb_neq; lia).
      rewrite IHk by lia. lra. }
    rewrite Z by lia. lra.
  - rewrite IH by lia. lra.
Qed.

Lemma map_id_in {A} (f : A -> A) l : (forall x, In x l -> f x = x) -> map f l = l.
Proof. intros H. rewrite <- (map_id l) at 2. apply map_ext_in; auto. Qed.

Lemma eye_unit n : map unit_row (eye n) = eye n.
Proof.
  apply map_id_in. intros v Hv. unfold eye in Hv. apply in_map_iff in Hv. destruct Hv as (i & <- & Hi).
  apply in_seq in Hi. apply unit_row_of_unit, unit_vec_norm. lia.
Qed.

Lemma planar_row_sum1 v : rsum v = 1 -> planar_row v = v.
Proof. intros H. unfold planar_row. rewrite H. apply map_id_in. intros x _. unfold Rdiv. rewrite Rinv_1. lra. Qed.

Lemma rsum_scale a v : rsum (map (fun x => x * a) v) = rsum v * a.
Proof. induction v as [|x t IH]; simpl; [lra|]. rewrite IH; lra. Qed.
Lemma planar_row_sum v : rsum v <> 0 -> rsum (planar_row v) = 1.
Proof. intros H. unfold planar_row, Rdiv. rewrite rsum_scale. apply Rinv_r; auto. Qed.

Lemma eye_planar n : map planar_row (eye n) = eye n.
Proof.
  apply map_id_in. intros v Hv. unfold eye in Hv. apply in_map_iff in Hv. destruct Hv as (i & <- & Hi).
  apply in_seq in Hi. apply planar_row_sum1, rsum_unit_seq. lia.
Qed.

Lemma unit_or_zero_fix v : unit_or_zero v -> unit_row v = v.
Proof. intros [H|H]; [apply unit_row_of_unit|apply unit_row_zero]; auto. Qed.

Lemma add_edges_values s : Forall unit_or_zero (values s) -> values (add_edges s) = values s ++ eye (n_obj s).
Proof.
  intros H. unfold add_edges. simpl. rewrite map_app, eye_unit. f_equal. apply map_id_in.
  intros v Hv. rewrite Forall_forall in H. apply unit_or_zero_fix; auto.
Qed.

(** Positive ranges: adapted rows are unit. *)
Lemma vmap2_Rmult_nonzero v w x : length v = length w -> In x v -> x <> 0 -> (forall y, In y w -> y <> 0) ->
  exists z, In z (vmap2 Rmult v w) /\ z <> 0.
Proof.
  revert w; induction v as [|a v IH]; intros [|b w] L Hx Hn Hw; simpl in *; try discriminate; try tauto.
  destruct Hx as [->|Hx].
  - exists (x * b). split; [left; auto|]. apply Rmult_integral_contrapositive_currified; auto.
  - destruct (IH w) as (z & Z1 & Z2); auto. exists z. split; [right; auto|auto].
Qed.

(** ** Rotations *)
Lemma rsum_map_ext {A} (f g : A -> R) l : (forall x, In x l -> f x = g x) -> rsum (map f l) = rsum (map g l).
Proof. intros H. f_equal. apply map_ext_in; auto. Qed.
Lemma rsum_map_add {A} (f g : A -> R) l : rsum (map (fun x => f x + g x) l) = rsum (map f l) + rsum (map g l).
Proof. induction l as [|x t IH]; simpl; [lra|]. rewrite IH; lra. Qed.
Lemma rsum_map_scale {A} a (f : A -> R) l : rsum (map (fun x => a * f x) l) = a * rsum (map f l).
Proof. induction l as [|x t IH]; simpl; [lra|]. rewrite IH; lra. Qed.
Lemma rsum_map_zero {A} (l : list A) : rsum (map (fun _ => 0) l) = 0.
Proof. induction l as [|x t IH]; simpl; lra. Qed.
Lemma rsum_swap {A B} (f : A -> B -> R) la lb :
  rsum (map (fun a => rsum (map (fun b => f a b) lb)) la) = rsum (map (fun b => rsum (map (fun a => f a b) la)) lb).
Proof.
  induction la as [|a la IH]; cbn [map rsum].
  - rewrite rsum_map_zero; auto.
  - rewrite IH, <- rsum_map_add. reflexivity.
Qed.
Lemma dot_seq x : forall y, length x = length y -> dot x y = rsum (map (fun j => nth j x 0 * nth j y 0) (seq 0 (length x))).
Proof.
  induction x as [|a x IH]; intros [|b y] L; try discriminate; auto.
  cbn [dot length seq map rsum nth]. f_equal. rewrite <- seq_shift, map_map. apply IH. auto.
Qed.
Lemma rsum_delta (f : nat -> R) i : forall n s, (s <= i < s + n)%nat -> rsum (map (fun j => f j * (if Nat.eqb i j then 1 else 0)) (seq s n)) = f i.
Proof.
  induction n as [|n IH]; intros s H; [lia|]. cbn [seq map rsum]. destruct (Nat.eqb_spec i s) as [->|Hn].
  - assert (Z : forall k t, (s < t)%nat -> rsum (map (fun j => f j * (if Nat.eqb s j then 1 else 0)) (seq t k)) = 0).
    { induction k as [|k IHk]; intros t Ht; cbn [seq map rsum]; auto. replace (Nat.eqb s t) with false by (symmetry; apply Nat.eqb_neq; lia).
      rewrite IHk by lia. lra. }
    rewrite Z by lia. lra.
  - rewrite IH by lia. lra.
Qed.

Lemma apply_mat_length n A x : length (apply_mat n A x) = n.
Proof. unfold apply_mat. rewrite map_length, seq_length. auto. Qed.
Lemma apply_mat_nth n A x i : (i < n)%nat -> nth i (apply_mat n A x) 0 = rsum (map (fun j => nth j x 0 * A i j) (seq 0 n)).
Proof.
  intros H. unfold apply_mat. rewrite (nth_indep _ 0 (rsum (map (fun j => nth j x 0 * A (n) j) (seq 0 n)))) by (rewrite map_length, seq_length; auto).
  rewrite (map_nth (fun i => rsum (map (fun j => nth j x 0 * A i j) (seq 0 n)))). rewrite seq_nth by auto. reflexivity.
Qed.

Lemma list_nth_ext (u v : list R) : length u = length v -> (forall i, (i < length u)%nat -> nth i u 0 = nth i v 0) -> u = v.
Proof. intros L H. apply (nth_ext u v 0 0); auto. Qed.

Lemma apply_matmul n A B x : apply_mat n (matmul n A B) x = apply_mat n A (apply_mat n B x).
Proof.
  apply list_nth_ext; [rewrite !apply_mat_length; auto|]. intros i Hi. rewrite apply_mat_length in Hi.
  rewrite !apply_mat_nth by auto.
  transitivity (rsum (map (fun j => rsum (map (fun k => nth j x 0 * (A i k * B k j)) (seq 0 n))) (seq 0 n))).
  { apply rsum_map_ext. intros j _. unfold matmul. rewrite rsum_map_scale. reflexivity. }
  rewrite rsum_swap. apply rsum_map_ext. intros k Hk. apply in_seq in Hk. rewrite apply_mat_nth by lia.
  rewrite Rmult_comm, <- rsum_map_scale. apply rsum_map_ext. intros j _. lra.
Qed.

Lemma nth_vmap2 (f : R -> R -> R) u : forall v i, length u = length v -> (i < length u)%nat -> nth i (vmap2 f u v) 0 = f (nth i u 0) (nth i v 0).
Proof.
  induction u as [|a u IH]; intros [|b v] i L H; simpl in *; try discriminate; try lia.
  destruct i as [|i]; auto. apply IH; lia.
Qed.
Lemma nth_vscale a u i : nth i (vscale a u) 0 = a * nth i u 0.
Proof. unfold vscale. replace 0 with (a * 0) at 1 by lra. apply map_nth. Qed.

(** The reflection as a formula. *)
Definition reflect (v x : list R) : list R := vsub x (vscale (2 * dot v x / dot v v) v).

Lemma apply_householder v x H : householder v = Some H -> length x = length v -> apply_mat (length v) H x = reflect v x.
Proof.
  unfold householder. destruct (Req_EM_T (dot v v) 0) as [|Hn]; [discriminate|]. intros E L. injection E as <-.
  assert (Lr : length (reflect v x) = length v) by (unfold reflect; rewrite vsub_length; rewrite ?vscale_length; auto).
  apply list_nth_ext; [rewrite apply_mat_length; auto|]. intros i Hi. rewrite apply_mat_length in Hi.
  rewrite apply_mat_nth by auto. unfold reflect, vsub. rewrite nth_vmap2 by (rewrite ?vscale_length; lia). rewrite nth_vscale.
  transitivity (rsum (map (fun j => nth j x 0 * (if Nat.eqb i j then 1 else 0) + (- 2 * nth i v 0 / dot v v) * (nth j v 0 * nth j x 0)) (seq 0 (length v)))).
  { apply rsum_map_ext. intros j _. field. auto. }
  rewrite rsum_map_add, rsum_map_scale, (rsum_delta (fun j => nth j x 0)) by lia.
  rewrite <- dot_seq by auto. field. auto.
Qed.

Lemma reflect_length v x : length x = length v -> length (reflect v x) = length x.
Proof. intros H. unfold reflect. apply vsub_length. rewrite vscale_length. auto. Qed.

Lemma reflect_isometry v x y : dot v v <> 0 -> length x = length v -> length y = length v ->
  dot (reflect v x) (reflect v y) = dot x y.
Proof.
  intros Hn Lx Ly. unfold reflect.
  rewrite dot_sub_l by (rewrite vscale_length; auto). rewrite !dot_sub_r by (rewrite vscale_length; auto).
  rewrite !dot_scale_l, !dot_scale_r. rewrite (dot_comm x v). field. auto.
Qed.

(** Reflecting along a - m swaps unit vectors a and m. *)
Lemma reflect_swaps a m : length a = length m -> dot a a = 1 -> dot m m = 1 -> dot (vsub a m) (vsub a m) <> 0 ->
  reflect (vsub a m) a = m.
Proof.
  intros L Ha Hm Hn.
  assert (D1 : dot (vsub a m) (vsub a m) = 2 - 2 * dot a m).
  { rewrite dot_sub_l, !dot_sub_r by auto. rewrite (dot_comm m a). lra. }
  assert (D2 : dot (vsub a m) a = 1 - dot a m).
  { rewrite dot_sub_l by auto. rewrite (dot_comm m a). lra. }
  apply list_nth_ext; [rewrite reflect_length; [auto|rewrite vsub_length; auto]|].
  intros i Hi. rewrite reflect_length in Hi by (rewrite vsub_length; auto).
  unfold reflect. set (u := vsub a m) in *. assert (Lu : length u = length a) by (unfold u; apply vsub_length; auto).
  unfold vsub at 1. rewrite nth_vmap2 by (rewrite ?vscale_length; lia).
  rewrite nth_vscale. replace (2 * dot u a / dot u u) with 1.
  - unfold u, vsub. rewrite nth_vmap2 by lia. lra.
  - rewrite D2. rewrite D1. field. rewrite D1 in Hn. intros E. apply Hn. lra.
Qed.

Lemma normalize1_spec v u : normalize1 v = Some u -> length u = length v /\ dot u u = 1 /\ u = vscale (/ norm v) v /\ 0 < norm v.
Proof.
  unfold normalize1. destruct (Req_EM_T (norm v) 0) as [|Hn]; [discriminate|]. intros E. injection E as <-.
  assert (P : 0 < norm v) by (pose proof (norm_nonneg v); lra).
  assert (E : map (fun x => x / norm v) v = vscale (/ norm v) v).
  { unfold vscale. apply map_ext. intros x. unfold Rdiv. lra. }
  rewrite E. split; [apply vscale_length|]. split; [|auto].
  rewrite dot_scale_l, dot_scale_r, <- norm_sq. field. auto.
Qed.

Lemma rotate_some init rot others out : length rot = length init -> rotate init rot others = Some out ->
  exists a b m, normalize1 init = Some a /\ normalize1 rot = Some b /\ normalize1 (vadd a b) = Some m /\
    dot (vsub a m) (vsub a m) <> 0 /\ dot (vsub m b) (vsub m b) <> 0 /\
    length a = length init /\ length b = length init /\ length m = length init /\ dot a a = 1 /\ dot b b = 1 /\ dot m m = 1 /\
    forall k x, nth_error others k = Some x -> length x = length init ->
       nth_error out k = Some (reflect (vsub m b) (reflect (vsub a m) x)).
Proof.
  intros L. unfold rotate.
  destruct (normalize1 init) as [a|] eqn:Ea; [|discriminate]. cbn [obind].
  destruct (normalize1 rot) as [b|] eqn:Eb; [|discriminate]. cbn [obind].
  destruct (normalize1 (vadd a b)) as [m|] eqn:Em; [|discriminate]. cbn [obind].
  destruct (householder (vsub a m)) as [Q1|] eqn:E1; [|discriminate]. cbn [obind].
  destruct (householder (vsub m b)) as [Q2|] eqn:E2; [|discriminate]. cbn [obind].
  intros H; injection H as <-.
  destruct (normalize1_spec _ _ Ea) as (A1 & A2 & _). destruct (normalize1_spec _ _ Eb) as (B1 & B2 & _).
  destruct (normalize1_spec _ _ Em) as (M1 & M2 & _). rewrite vadd_length in M1 by congruence.
  assert (LM : length m = length init) by congruence. assert (LB : length b = length init) by congruence.
  assert (L1 : length (vsub a m) = length init) by (rewrite vsub_length; congruence).
  assert (L2 : length (vsub m b) = length init) by (rewrite vsub_length; congruence).
  exists a, b, m. split; auto. split; auto. split; auto.
  split. { unfold householder in E1. destruct (Req_EM_T (dot (vsub a m) (vsub a m)) 0); [discriminate|auto]. }
  split. { unfold householder in E2. destruct (Req_EM_T (dot (vsub m b) (vsub m b)) 0); [discriminate|auto]. }
  do 6 (split; [auto|]).
  intros k x Hk Lx. rewrite nth_error_map, Hk. cbn [option_map]. f_equal.
  rewrite apply_matmul. pose proof (apply_householder _ x _ E1) as P1. rewrite L1 in P1. rewrite P1 by auto.
  pose proof (apply_householder _ (reflect (vsub a m) x) _ E2) as P2. rewrite L2 in P2. apply P2.
  rewrite reflect_length by congruence. auto.
Qed.

(** When the inputs are proper: unit vectors, neither equal nor opposite. *)
Lemma rotate_defined init rot others a b : length rot = length init ->
  normalize1 init = Some a -> normalize1 rot = Some b -> dot a b < 1 -> -1 < dot a b ->
  exists out, rotate init rot others = Some out /\ length out = length others.
Proof.
  intros L Ea Eb H1 H2. unfold rotate. rewrite Ea, Eb. cbn [obind].
  destruct (normalize1_spec _ _ Ea) as (A1 & A2 & _). destruct (normalize1_spec _ _ Eb) as (B1 & B2 & _).
  assert (Lab : length a = length b) by congruence.
  assert (D : dot (vadd a b) (vadd a b) = 2 + 2 * dot a b).
  { rewrite dot_add_l, !dot_add_r by auto. rewrite (dot_comm b a). lra. }
  assert (N : 0 < norm (vadd a b)) by (unfold norm; apply sqrt_lt_R0; lra).
  destruct (normalize1 (vadd a b)) as [m|] eqn:Em.
  2:{ unfold normalize1 in Em. destruct (Req_EM_T (norm (vadd a b)) 0); [lra|discriminate]. }
  cbn [obind]. destruct (normalize1_spec _ _ Em) as (M1 & M2 & M3 & _). rewrite vadd_length in M1 by auto.
  set (s := norm (vadd a b)) in *.
  assert (S2 : s * s = 2 + 2 * dot a b) by (unfold s; rewrite norm_sq; auto).
  assert (Am : dot a m = (1 + dot a b) / s).
  { rewrite M3, dot_scale_r, dot_add_r by auto. rewrite A2. field. lra. }
  assert (Bm : dot m b = (1 + dot a b) / s).
  { rewrite M3, dot_scale_l, dot_add_l by auto. rewrite B2. field. lra. }
  assert (Lt : (1 + dot a b) / s < 1).
  { apply Rmult_lt_reg_r with s; auto. unfold Rdiv. rewrite Rmult_assoc, Rinv_l, Rmult_1_r, Rmult_1_l by lra. nra. }
  assert (N1 : dot (vsub a m) (vsub a m) <> 0).
  { rewrite dot_sub_l, !dot_sub_r by congruence. rewrite (dot_comm m a). lra. }
  assert (N2 : dot (vsub m b) (vsub m b) <> 0).
  { rewrite dot_sub_l, !dot_sub_r by congruence. rewrite (dot_comm b m). lra. }
  unfold householder. destruct (Req_EM_T (dot (vsub a m) (vsub a m)) 0); [contradiction|].
  destruct (Req_EM_T (dot (vsub m b) (vsub m b)) 0); [contradiction|]. cbn [obind].
  eexists; split; [reflexivity|]. apply map_length.
Qed.
