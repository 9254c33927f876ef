(** A reference instance of the contract [least_squares] on np.linalg.lstsq: for every matrix and right hand side there is a best weight vector (orthogonal projection, one column
    at a time). *)
From Coq Require Import Reals Lra Lia.
From Verif Require Import Base RVec M_EvoNet Spec_EvoNet.
Open Scope R_scope.

Fixpoint sumn (n : nat) (f : nat -> R) : R := match n with O => 0 | S k => sumn k f + f k end.
Lemma sumn_ext n f g : (forall i, (i < n)%nat -> f i = g i) -> sumn n f = sumn n g.
Proof. induction n as [|n IH]; intros H; cbn [sumn]; [reflexivity|]. rewrite IH, H by (intros; try apply H; lia). reflexivity. Qed.
Lemma sumn_plus n f g : sumn n (fun i => f i + g i) = sumn n f + sumn n g.
Proof. induction n as [|n IH]; cbn [sumn]; [ring|]. rewrite IH. ring. Qed.
Lemma sumn_minus n f g : sumn n (fun i => f i - g i) = sumn n f - sumn n g.
Proof. induction n as [|n IH]; cbn [sumn]; [ring|]. rewrite IH. ring. Qed.
Lemma sumn_scale n c f : sumn n (fun i => c * f i) = c * sumn n f.
Proof. induction n as [|n IH]; cbn [sumn]; [ring|]. rewrite IH. ring. Qed.
Lemma sumn_zero n : sumn n (fun _ => 0) = 0.
Proof. induction n as [|n IH]; cbn [sumn]; [reflexivity|]. rewrite IH. ring. Qed.
Lemma sumn_swap n m f : sumn n (fun i => sumn m (fun j => f i j)) = sumn m (fun j => sumn n (fun i => f i j)).
Proof. induction n as [|n IH]; cbn [sumn]; [rewrite sumn_zero; reflexivity|]. rewrite IH, <- sumn_plus. reflexivity. Qed.
Lemma sumn_nonneg n f : (forall i, (i < n)%nat -> 0 <= f i) -> 0 <= sumn n f.
Proof. induction n as [|n IH]; intros H; cbn [sumn]; [lra|]. assert (0 <= sumn n f) by (apply IH; intros; apply H; lia). specialize (H n ltac:(lia)). lra. Qed.
Lemma sumn_zero_inv n f : (forall i, (i < n)%nat -> 0 <= f i) -> sumn n f = 0 -> forall i, (i < n)%nat -> f i = 0.
Proof.
  induction n as [|n IH]; intros H E i Hi; [lia|]. cbn [sumn] in E. assert (0 <= sumn n f) by (apply sumn_nonneg; intros; apply H; lia). pose proof (H n ltac:(lia)).
  destruct (Nat.eq_dec i n) as [->|]; [lra|]. apply IH; [intros; apply H; lia|lra|lia].
Qed.
Lemma sumn_first n f : sumn (S n) f = f 0%nat + sumn n (fun i => f (S i)).
Proof. induction n as [|n IH]; [cbn [sumn]; ring|]. cbn [sumn] in *. rewrite IH. ring. Qed.

Section LS.
Variable n : nat.
Variable col : nat -> nat -> R.
Definition ip (u v : nat -> R) : R := sumn n (fun i => u i * v i).
Definition comb (k : nat) (w : nat -> R) (i : nat) : R := sumn k (fun j => w j * col j i).
(** Weights for the first k columns. *)
Fixpoint lsq (k : nat) (y : nat -> R) : nat -> R :=
  match k with
  | O => fun _ => 0
  | S k' =>
      let u := fun i => col k' i - comb k' (lsq k' (col k')) i in
      if Req_EM_T (ip u u) 0 then fun j => if Nat.eqb j k' then 0 else lsq k' y j
      else let t := ip y u / ip u u in
           let w := lsq k' (fun i => y i - t * col k' i) in fun j => if Nat.eqb j k' then t else w j
  end.
Definition resid (k : nat) (y : nat -> R) (i : nat) : R := y i - comb k (lsq k y) i.

Lemma ip_sym u v : ip u v = ip v u.
Proof. apply sumn_ext. intros. ring. Qed.
Lemma ip_comb k w u : ip u (comb k w) = sumn k (fun j => w j * ip u (col j)).
Proof.
  unfold ip, comb. rewrite (sumn_ext n _ (fun i => sumn k (fun j => w j * (u i * col j i)))).
  - rewrite sumn_swap. apply sumn_ext. intros j _. apply sumn_scale.
  - intros i _. rewrite <- sumn_scale. apply sumn_ext. intros; ring.
Qed.
Lemma ip_comb_orth k w u : (forall j, (j < k)%nat -> ip u (col j) = 0) -> ip u (comb k w) = 0.
Proof. intros H. rewrite ip_comb, (sumn_ext k _ (fun _ => 0)); [apply sumn_zero|]. intros j Hj. rewrite H by auto. ring. Qed.
Lemma comb_upd k w t i : comb (S k) (fun j => if Nat.eqb j k then t else w j) i = comb k w i + t * col k i.
Proof.
  unfold comb. cbn [sumn]. rewrite Nat.eqb_refl. f_equal. apply sumn_ext. intros j Hj. replace (Nat.eqb j k) with false by (symmetry; apply Nat.eqb_neq; lia). reflexivity.
Qed.
(** The normal equations. *)
Lemma resid_orth k : forall y j, (j < k)%nat -> ip (resid k y) (col j) = 0.
Proof.
  induction k as [|k IH]; intros y j Hj; [lia|].
  set (a := lsq k (col k)). set (u := fun i => col k i - comb k a i).
  assert (Hu : forall j, (j < k)%nat -> ip u (col j) = 0) by (intros; apply (IH (col k)); auto).
  assert (Hc : forall v, (forall j, (j < k)%nat -> ip v (col j) = 0) -> ip v (col k) = ip v u).
  { intros v Hv. replace (ip v (col k)) with (ip v u + ip v (comb k a)); [rewrite (ip_comb_orth k a v Hv); ring|]. unfold ip. rewrite <- sumn_plus. apply sumn_ext. intros. unfold u. ring. }
  destruct (Req_EM_T (ip u u) 0) as [Z|Z].
  - assert (Re : forall i, resid (S k) y i = resid k y i).
    { intros i. unfold resid. cbn [lsq]. fold a. fold u. destruct (Req_EM_T (ip u u) 0); [|contradiction]. rewrite comb_upd. ring. }
    assert (E : ip (resid (S k) y) (col j) = ip (resid k y) (col j)) by (apply sumn_ext; intros; rewrite Re; reflexivity). rewrite E.
    destruct (Nat.eq_dec j k) as [->|]; [|apply IH; lia]. rewrite Hc by (intros; apply IH; auto).
    unfold ip in *. rewrite (sumn_ext n _ (fun _ => 0)); [apply sumn_zero|]. intros i Hi.
    assert (U : u i * u i = 0) by (apply (sumn_zero_inv n (fun i => u i * u i)); auto; intros; pose proof (Rle_0_sqr (u i0)); unfold Rsqr in *; auto).
    assert (u i = 0) by (apply Rmult_integral in U; tauto). rewrite H. ring.
  - set (t := ip y u / ip u u). set (y' := fun i => y i - t * col k i).
    assert (Re : forall i, resid (S k) y i = resid k y' i).
    { intros i. unfold resid at 1. cbn [lsq]. fold a. fold u. destruct (Req_EM_T (ip u u) 0); [contradiction|]. fold t. fold y'. rewrite comb_upd. unfold resid, y'. ring. }
    assert (E : ip (resid (S k) y) (col j) = ip (resid k y') (col j)) by (apply sumn_ext; intros; rewrite Re; reflexivity). rewrite E.
    destruct (Nat.eq_dec j k) as [->|]; [|apply IH; lia]. rewrite Hc by (intros; apply IH; auto).
    replace (ip (resid k y') u) with (ip y u - t * ip u (col k) - ip u (comb k (lsq k y'))).
    + rewrite (ip_comb_orth k _ u Hu), (Hc u Hu). unfold t. field. exact Z.
    + unfold ip. rewrite <- sumn_scale, <- !sumn_minus. apply sumn_ext. intros i _. unfold resid, y'. ring.
Qed.
Lemma lsq_best k y w : sumn n (fun i => (y i - comb k (lsq k y) i) ^ 2) <= sumn n (fun i => (y i - comb k w i) ^ 2).
Proof.
  set (r := resid k y). set (d := comb k (fun j => lsq k y j - w j)).
  assert (D : forall i, comb k (lsq k y) i - comb k w i = d i) by (intros i; unfold d, comb; rewrite <- sumn_minus; apply sumn_ext; intros; ring).
  assert (O : ip r d = 0) by (apply ip_comb_orth; intros; apply resid_orth; auto).
  rewrite (sumn_ext n (fun i => (y i - comb k w i) ^ 2) (fun i => (y i - comb k (lsq k y) i) ^ 2 + (2 * (r i * d i) + d i * d i))).
  - rewrite !sumn_plus, sumn_scale. unfold ip in O. rewrite O. assert (0 <= sumn n (fun i => d i * d i)) by (apply sumn_nonneg; intros; pose proof (Rle_0_sqr (d i)); unfold Rsqr in *; auto). lra.
  - intros i _. replace (y i - comb k w i) with (r i + d i) by (unfold r, resid; rewrite <- D; ring). unfold r, resid. ring.
Qed.
End LS.

(** Matrices by rows, of any lengths. *)
Definition width (A : list (list R)) : nat := list_max (map (@length R) A).
Definition entry (A : list (list R)) (j i : nat) : R := nth j (nth i A []) 0.
Definition ref_lstsq (A : list (list R)) (y : list R) : list R :=
  map (lsq (Nat.min (length A) (length y)) (entry A) (width A) (fun i => nth i y 0)) (seq 0 (width A)).

Lemma dot_sumn r : forall w m, (length r <= m)%nat -> dot r w = sumn m (fun j => nth j w 0 * nth j r 0).
Proof.
  induction r as [|a r IH]; intros w m H.
  - cbn [dot]. rewrite (sumn_ext m _ (fun _ => 0)); [symmetry; apply sumn_zero|]. intros j _. destruct j; cbn [nth]; ring.
  - destruct m as [|m]; [cbn [length] in H; lia|]. rewrite sumn_first. destruct w as [|b w]; cbn [dot nth].
    + rewrite (sumn_ext m _ (fun _ => 0)); [rewrite sumn_zero; ring|]. intros; ring.
    + rewrite (IH w m) by (cbn [length] in H; lia). ring.
Qed.
Lemma squared_sumn p : forall y, squared_error p y = sumn (Nat.min (length p) (length y)) (fun i => (nth i y 0 - nth i p 0) ^ 2).
Proof.
  induction p as [|a p IH]; intros [|b y]; cbn [squared_error length Nat.min]; try reflexivity. rewrite sumn_first. cbn [nth]. rewrite IH. reflexivity.
Qed.
Lemma width_le A r : In r A -> (length r <= width A)%nat.
Proof. intros H. pose proof (proj1 (list_max_le (map (@length R) A) (width A)) (Nat.le_refl _)) as F. rewrite Forall_forall in F. apply F, in_map, H. Qed.
Lemma error_sumn A y w : squared_error (map (fun r => dot r w) A) y =
  sumn (Nat.min (length A) (length y)) (fun i => (nth i y 0 - comb (entry A) (width A) (fun j => nth j w 0) i) ^ 2).
Proof.
  rewrite squared_sumn, map_length. apply sumn_ext. intros i Hi. f_equal. f_equal.
  rewrite (nth_indep _ 0 (dot [] w)) by (rewrite map_length; lia). rewrite (map_nth (fun r => dot r w)). apply dot_sumn. apply width_le, nth_In. lia.
Qed.
Theorem ref_lstsq_least : least_squares ref_lstsq.
Proof.
  intros A y w. rewrite !error_sumn.
  rewrite (sumn_ext _ (fun i => (nth i y 0 - comb (entry A) (width A) (fun j => nth j (ref_lstsq A y) 0) i) ^ 2)
    (fun i => (nth i y 0 - comb (entry A) (width A) (lsq (Nat.min (length A) (length y)) (entry A) (width A) (fun i => nth i y 0)) i) ^ 2)); [apply lsq_best|].
  intros i _. f_equal. f_equal. apply sumn_ext. intros j Hj. f_equal. unfold ref_lstsq.
  rewrite (nth_indep _ 0 (lsq (Nat.min (length A) (length y)) (entry A) (width A) (fun i => nth i y 0) 0%nat)) by (rewrite map_length, seq_length; lia).
  rewrite (map_nth (lsq _ _ _ _)), seq_nth by auto. reflexivity.
Qed.
