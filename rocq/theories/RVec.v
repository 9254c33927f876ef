(** Real vectors as lists: sums, inner products, norms; argmax/argmin of a list (numpy: first
    extremal position). *)
From Verif Require Import Base.
From Coq Require Import Reals Lra.
Open Scope R_scope.

Fixpoint rsum (l : list R) : R := match l with [] => 0 | x :: t => x + rsum t end.
Fixpoint dot (u v : list R) : R :=
  match u, v with x :: u', y :: v' => x * y + dot u' v' | _, _ => 0 end.
(** np.linalg.norm *)
Definition norm (v : list R) : R := sqrt (dot v v).
Fixpoint vmap2 {A B C} (f : A -> B -> C) (u : list A) (v : list B) : list C :=
  match u, v with x :: u', y :: v' => f x y :: vmap2 f u' v' | _, _ => [] end.
Definition vadd := vmap2 Rplus.
Definition vsub := vmap2 Rminus.
Definition vscale (a : R) (v : list R) : list R := map (Rmult a) v.

Lemma vmap2_length {A B C} (f : A -> B -> C) u v : length u = length v -> length (vmap2 f u v) = length u.
Proof. revert v; induction u; intros [|y v] H; simpl in *; try discriminate; auto. Qed.
Lemma vmap2_nth {A B C} (f : A -> B -> C) u v i : nth_error (vmap2 f u v) i =
  match nth_error u i, nth_error v i with Some x, Some y => Some (f x y) | _, _ => None end.
Proof.
  revert v i; induction u as [|x u IH]; intros [|y v] [|i]; simpl; auto. destruct (nth_error u i); auto.
Qed.
Lemma vscale_length a v : length (vscale a v) = length v.
Proof. apply map_length. Qed.
Lemma vadd_length u v : length u = length v -> length (vadd u v) = length u.
Proof. apply vmap2_length. Qed.
Lemma vsub_length u v : length u = length v -> length (vsub u v) = length u.
Proof. apply vmap2_length. Qed.

Lemma dot_comm u v : dot u v = dot v u.
Proof. revert v; induction u; intros [|y v]; simpl; auto. rewrite IHu. ring. Qed.
Lemma dot_scale_l a u v : dot (vscale a u) v = a * dot u v.
Proof. revert v; induction u; intros [|y v]; simpl; try ring. rewrite IHu. ring. Qed.
Lemma dot_scale_r a u v : dot u (vscale a v) = a * dot u v.
Proof. rewrite dot_comm, dot_scale_l, dot_comm; auto. Qed.
Lemma dot_add_l u v w : length u = length v -> dot (vadd u v) w = dot u w + dot v w.
Proof.
  unfold vadd. revert v w; induction u as [|x u IH]; intros [|y v] [|z w] H; simpl in *; try discriminate; try ring.
  rewrite IH by lia. ring.
Qed.
Lemma dot_sub_l u v w : length u = length v -> dot (vsub u v) w = dot u w - dot v w.
Proof.
  unfold vsub. revert v w; induction u as [|x u IH]; intros [|y v] [|z w] H; simpl in *; try discriminate; try ring.
  rewrite IH by lia. ring.
Qed.
Lemma dot_add_r u v w : length v = length w -> dot u (vadd v w) = dot u v + dot u w.
Proof. intros. rewrite dot_comm, dot_add_l, (dot_comm v), (dot_comm w); auto. Qed.
Lemma dot_sub_r u v w : length v = length w -> dot u (vsub v w) = dot u v - dot u w.
Proof. intros. rewrite dot_comm, dot_sub_l, (dot_comm v), (dot_comm w); auto. Qed.
Lemma dot_nil_r u : dot u [] = 0.
Proof. destruct u; auto. Qed.

Lemma dot_self_nonneg v : 0 <= dot v v.
Proof. induction v as [|x v IH]; simpl; [lra|]. pose proof (Rle_0_sqr x). unfold Rsqr in H. lra. Qed.
Lemma dot_self_zero v : dot v v = 0 -> forall x, In x v -> x = 0.
Proof.
  induction v as [|y v IH]; simpl; intros H x [].
  - subst. pose proof (dot_self_nonneg v). pose proof (Rle_0_sqr x). unfold Rsqr in *. apply Rsqr_0_uniq. unfold Rsqr. lra.
  - apply IH; auto. pose proof (dot_self_nonneg v). pose proof (Rle_0_sqr y). unfold Rsqr in *. lra.
Qed.
Lemma dot_pos v x : In x v -> x <> 0 -> 0 < dot v v.
Proof.
  intros H Hx. destruct (dot_self_nonneg v) as [|E]; auto. exfalso. apply Hx. eapply dot_self_zero; eauto.
Qed.

Lemma norm_nonneg v : 0 <= norm v.
Proof. apply sqrt_pos. Qed.
Lemma norm_sq v : norm v * norm v = dot v v.
Proof. unfold norm. apply sqrt_sqrt. apply dot_self_nonneg. Qed.
Lemma norm_pos v x : In x v -> x <> 0 -> 0 < norm v.
Proof. intros. unfold norm. apply sqrt_lt_R0. eapply dot_pos; eauto. Qed.
Lemma norm_zero v : norm v = 0 -> forall x, In x v -> x = 0.
Proof. intros H. apply dot_self_zero. rewrite <- norm_sq, H. ring. Qed.
Lemma norm_scale a v : norm (vscale a v) = Rabs a * norm v.
Proof.
  unfold norm. rewrite dot_scale_l, dot_scale_r, <- Rmult_assoc.
  rewrite sqrt_mult; [|apply Rle_0_sqr|apply dot_self_nonneg]. f_equal. fold (Rsqr a). apply sqrt_Rsqr_abs.
Qed.

Lemma vsub_scale_dot u v t : length u = length v ->
  dot (vsub u (vscale t v)) (vsub u (vscale t v)) = dot u u - 2 * t * dot u v + t * t * dot v v.
Proof.
  intros H. assert (L : length u = length (vscale t v)) by (rewrite vscale_length; auto).
  rewrite dot_sub_l, !dot_sub_r, !dot_scale_l, !dot_scale_r, (dot_comm v u); auto. ring.
Qed.

(** Cauchy-Schwarz *)
Lemma cauchy_schwarz u v : length u = length v -> dot u v * dot u v <= dot u u * dot v v.
Proof.
  intros H. destruct (dot_self_nonneg v) as [Hv|Hv].
  - pose proof (vsub_scale_dot u v (dot u v / dot v v) H) as E.
    pose proof (dot_self_nonneg (vsub u (vscale (dot u v / dot v v) v))) as N. rewrite E in N.
    assert (N' : 0 <= (dot u u - 2 * (dot u v / dot v v) * dot u v + dot u v / dot v v * (dot u v / dot v v) * dot v v) * dot v v)
      by (apply Rmult_le_pos; lra).
    replace ((dot u u - 2 * (dot u v / dot v v) * dot u v + dot u v / dot v v * (dot u v / dot v v) * dot v v) * dot v v)
      with (dot u u * dot v v - dot u v * dot u v) in N' by (field; lra). lra.
  - assert (Z : dot u v = 0).
    { symmetry in Hv. clear H. assert (Hz := dot_self_zero v Hv). clear Hv. revert v Hz. induction u as [|x u IH]; intros [|y v] Hz; simpl; auto.
      rewrite (Hz y) by (left; auto). rewrite IH by (intros; apply Hz; right; auto). ring. }
    rewrite Z, <- Hv. lra.
Qed.
Lemma dot_le_norms u v : length u = length v -> Rabs (dot u v) <= norm u * norm v.
Proof.
  intros H. apply Rsqr_incr_0_var.
  - rewrite <- Rsqr_abs. unfold Rsqr. replace (norm u * norm v * (norm u * norm v)) with ((norm u * norm u) * (norm v * norm v)) by ring.
    rewrite !norm_sq. apply cauchy_schwarz; auto.
  - apply Rmult_le_pos; apply norm_nonneg.
Qed.

(** ** First minimum / maximum (np.argmin, np.argmax) *)
Fixpoint argmin_from (best : nat) (bv : R) (i : nat) (l : list R) : nat :=
  match l with
  | [] => best
  | x :: t => if Rlt_dec x bv then argmin_from i x (S i) t else argmin_from best bv (S i) t
  end.
Definition argmin (l : list R) : option nat :=
  match l with [] => None | x :: t => Some (argmin_from 0 x 1 t) end.
Definition argmax (l : list R) : option nat := argmin (map Ropp l).

Lemma argmin_from_spec l : forall best bv i,
  (best < i)%nat ->
  let r := argmin_from best bv i l in
  (r = best /\ Forall (fun x => bv <= x) l) \/
  (exists k v, r = (i + k)%nat /\ nth_error l k = Some v /\ v < bv /\ Forall (fun x => v <= x) l /\
     forall k' x, (k' < k)%nat -> nth_error l k' = Some x -> v < x).
Proof.
  induction l as [|x t IH]; intros best bv i Hb; cbn [argmin_from].
  - left; auto.
  - destruct (Rlt_dec x bv) as [Hx|Hx].
    + destruct (IH i x (S i) ltac:(lia)) as [[E F]|(k & v & E & N & Hv & F & First)].
      * right. exists 0%nat, x. rewrite E. repeat split; auto; try lia.
        constructor; auto. lra.
      * right. exists (S k), v. rewrite E. repeat split; auto; try lia; try lra.
        -- constructor; auto. lra.
        -- intros [|k'] y Hk Hy; simpl in Hy; [injection Hy as <-; auto|]. apply (First k' y); auto; lia.
    + destruct (IH best bv (S i) ltac:(lia)) as [[E F]|(k & v & E & N & Hv & F & First)].
      * left. split; auto. constructor; auto. lra.
      * right. exists (S k), v. rewrite E. repeat split; auto; try lia.
        -- constructor; auto. lra.
        -- intros [|k'] y Hk Hy; simpl in Hy; [injection Hy as <-; lra|]. apply (First k' y); auto; lia.
Qed.

Lemma argmin_spec l i : argmin l = Some i ->
  exists v, nth_error l i = Some v /\ (forall x, In x l -> v <= x) /\
    forall k x, (k < i)%nat -> nth_error l k = Some x -> v < x.
Proof.
  destruct l as [|x t]; simpl; [discriminate|]. intros H; injection H as <-.
  destruct (argmin_from_spec t 0 x 1 ltac:(lia)) as [[E F]|(k & v & E & N & Hv & F & First)].
  - rewrite E. exists x. repeat split; auto.
    + intros y [<-|Hy]; [lra|]. rewrite Forall_forall in F. auto.
    + intros k y Hk; lia.
  - rewrite E. exists v. repeat split; auto.
    + intros y [<-|Hy]; [lra|]. rewrite Forall_forall in F. auto.
    + intros [|k'] y Hk Hy; simpl in Hy; [injection Hy as <-; auto|]. apply (First k' y); auto; lia.
Qed.
Lemma argmin_some l : l <> [] -> exists i, argmin l = Some i.
Proof. destruct l; [congruence|simpl; eauto]. Qed.
Lemma argmin_lt l i : argmin l = Some i -> (i < length l)%nat.
Proof. intros H. destruct (argmin_spec l i H) as (v & Hv & _). apply nth_error_Some. congruence. Qed.

Lemma argmax_spec l i : argmax l = Some i ->
  exists v, nth_error l i = Some v /\ (forall x, In x l -> x <= v) /\
    forall k x, (k < i)%nat -> nth_error l k = Some x -> x < v.
Proof.
  intros H. destruct (argmin_spec _ _ H) as (v & Hv & Hall & Hf). rewrite nth_error_map in Hv.
  destruct (nth_error l i) as [w|] eqn:Ew; [|discriminate]. injection Hv as <-. exists w. split; auto. split.
  - intros x Hx. specialize (Hall (- x) (in_map Ropp l x Hx)). lra.
  - intros k x Hk Hx. specialize (Hf k (- x) Hk). rewrite nth_error_map, Hx in Hf. specialize (Hf eq_refl). lra.
Qed.
Lemma argmax_some l : l <> [] -> exists i, argmax l = Some i.
Proof. intros H. apply argmin_some. destruct l; [congruence|discriminate]. Qed.
Lemma argmax_lt l i : argmax l = Some i -> (i < length l)%nat.
Proof. intros H. apply argmin_lt in H. rewrite map_length in H. auto. Qed.

(** The minimum of a non-empty list. *)
Fixpoint rmin_list (x : R) (l : list R) : R := match l with [] => x | y :: t => Rmin x (rmin_list y t) end.
Lemma rmin_list_le x l : rmin_list x l <= x /\ (forall y, In y l -> rmin_list x l <= y) /\ (rmin_list x l = x \/ In (rmin_list x l) l).
Proof.
  revert x; induction l as [|y t IH]; intros x; simpl.
  - repeat split; auto; try lra. intros y [].
  - destruct (IH y) as (A & B & C). split; [apply Rmin_l|]. split.
    + intros z [<-|Hz]; eapply Rle_trans; try apply Rmin_r; auto.
    + unfold Rmin. destruct (Rle_dec x (rmin_list y t)); auto. right. destruct C as [->|C]; auto.
Qed.

(** In-order first element. *)
Lemma sumsq_dot v : dot v v = rsum (map (fun x => x * x) v).
Proof. induction v; simpl; auto. rewrite IHv; auto. Qed.
