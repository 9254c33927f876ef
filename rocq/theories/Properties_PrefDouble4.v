(** C143, continued: the axis vectors added after every adaptation come out exactly. *)
From Coq Require Import Reals Lra Lia Permutation.
From Flocq Require Import Core.
From Verif Require Import Base RVec M_RefVec M_Double P_Double M_RefDouble P_RefDouble Properties_RefDouble M_PrefDouble Properties_PrefDouble Properties_PrefDouble2 Properties_PrefDouble3.
Open Scope R_scope.

Lemma sum_same t (f g : nat -> R) : (forall i, f i = g i) -> sum_fl t f = sum_fl t g.
Proof. intros H. induction t as [i|l IHl r IHr]; cbn [sum_fl]; [apply H|]. rewrite IHl, IHr. reflexivity. Qed.
Lemma fl_1 : fl 1 = 1.
Proof. change 1 with (bpow radix2 0). apply fl_id, double_bpow. lia. Qed.
Lemma nth_unit n k i : (k < n)%nat -> nth i (unit_vec n k) 0 = if Nat.eqb k i then 1 else 0.
Proof.
  intros Hk. unfold unit_vec. destruct (Nat.lt_ge_cases i n) as [Hi|Hi].
  - rewrite (nth_indep _ 0 ((fun j => if Nat.eqb k j then 1 else 0) 0%nat)) by (rewrite map_length, seq_length; exact Hi).
    rewrite (map_nth (fun j => if Nat.eqb k j then 1 else 0) (seq 0 n) 0%nat i), seq_nth by exact Hi. reflexivity.
  - rewrite nth_overflow by (rewrite map_length, seq_length; exact Hi). destruct (Nat.eqb_spec k i); [lia|reflexivity].
Qed.
Lemma nodup_app_l {A} (a b : list A) : NoDup (a ++ b) -> NoDup a.
Proof. induction a as [|x a IH]; cbn; intros N; [constructor|]. inversion N; subst. constructor; [intros I; apply H1, in_or_app; left; exact I|apply IH; assumption]. Qed.
Lemma nodup_app_r {A} (a b : list A) : NoDup (a ++ b) -> NoDup b.
Proof. induction a as [|x a IH]; cbn; intros N; [exact N|]. inversion N; subst. apply IH; assumption. Qed.
Lemma sum_indicator t k : NoDup (leaves t) -> sum_fl t (fun i => if Nat.eqb k i then 1 else 0) = if in_dec Nat.eq_dec k (leaves t) then 1 else 0.
Proof.
  induction t as [i|l IHl r IHr]; cbn [sum_fl leaves]; intros N.
  - destruct (Nat.eqb_spec k i) as [<-|E]; destruct (in_dec Nat.eq_dec k _) as [I|I]; try reflexivity; exfalso; [apply I; left; reflexivity|destruct I as [I|[]]; congruence].
  - assert (Nl : NoDup (leaves l)) by (eapply nodup_app_l; exact N). assert (Nr : NoDup (leaves r)) by (eapply nodup_app_r; exact N).
    assert (X : ~ (In k (leaves l) /\ In k (leaves r))).
    { intros [A B]. clear - N A B. induction (leaves l) as [|x xs IH]; [destruct A|]. cbn in N. inversion N; subst. destruct A as [->|A]; [apply H1, in_or_app; right; exact B|apply IH; assumption]. }
    rewrite (IHl Nl), (IHr Nr). destruct (in_dec Nat.eq_dec k (leaves l ++ leaves r)) as [I|I]; destruct (in_dec Nat.eq_dec k (leaves l)) as [A|A]; destruct (in_dec Nat.eq_dec k (leaves r)) as [B|B];
      try (exfalso; apply X; split; assumption); try (exfalso; apply I, in_or_app; auto; fail); try (exfalso; apply in_app_or in I; destruct I; contradiction);
      rewrite ?Rplus_0_r, ?Rplus_0_l; [apply fl_1|apply fl_1|apply fl_0].
Qed.

(** C143. Normalisation leaves every axis vector as it is, whatever the order of summation. *)
Theorem C143_axis : forall t n k, Permutation (leaves t) (seq 0 n) -> (k < n)%nat -> unit_row_fl t (unit_vec n k) = unit_vec n k.
Proof.
  intros t n k Ht Hk. unfold unit_row_fl, norm_fl. cbv zeta.
  assert (S : sum_fl t (fun i => fl (nth i (unit_vec n k) 0 * nth i (unit_vec n k) 0)) = 1).
  { rewrite (sum_same t _ (fun i => if Nat.eqb k i then 1 else 0)).
    - rewrite sum_indicator by (apply (Permutation_NoDup (Permutation_sym Ht)), seq_NoDup).
      destruct (in_dec Nat.eq_dec k (leaves t)) as [_|I]; [reflexivity|]. exfalso. apply I. apply (Permutation_in k (Permutation_sym Ht)). apply in_seq. lia.
    - intros i. rewrite nth_unit by exact Hk. destruct (Nat.eqb k i); [rewrite Rmult_1_r; apply fl_1|rewrite Rmult_0_r; apply fl_0]. }
  rewrite S. destruct (Rlt_dec 1 (bpow radix2 1024)) as [_|N]; [|exfalso; apply N; change 1 with (bpow radix2 0); apply bpow_lt; lia].
  rewrite sqrt_1, fl_1. destruct (Req_EM_T 1 0) as [E|_]; [lra|].
  rewrite <- map_id. apply map_ext_in. intros x Hx. unfold unit_vec in Hx. apply in_map_iff in Hx. destruct Hx as (i & <- & _).
  destruct (Nat.eqb k i); unfold Rdiv; [rewrite Rmult_1_l, Rinv_1; apply fl_1|rewrite Rmult_0_l; apply fl_0].
Qed.

(** C143. So after adapting to preferred solutions or to a reference point, the last n reference vectors are the axes, exactly; before them, there is one vector per initial vector (and per preferred solution). *)
Theorem C143_axes_added : forall t n init, Permutation (leaves t) (seq 0 n) ->
  (forall r, exists vs, manage_reference_fl t n init r = vs ++ map (unit_vec n) (seq 0 n) /\ length vs = length init) /\
  (forall z n_solutions vecs, manage_preferred_fl t n init z n_solutions = Ok vecs ->
     exists vs, vecs = vs ++ map (unit_vec n) (seq 0 n) /\ length vs = if Nat.eqb (length z) n_solutions then length init else (length z * length init)%nat).
Proof.
  intros t n init Ht. assert (E : map (unit_row_fl t) (eye n) = map (unit_vec n) (seq 0 n)).
  { unfold eye. rewrite map_map. apply map_ext_in. intros k Hk. apply in_seq in Hk. apply C143_axis; [exact Ht|lia]. }
  split.
  - intros r. unfold manage_reference_fl. rewrite map_app, E. eexists. split; [reflexivity|]. unfold shifted_fl. rewrite !map_length. reflexivity.
  - intros z ns vecs H. unfold manage_preferred_fl in H. destruct (preferred_fl t init z ns) as [vs|] eqn:P; cbn [bind] in H; [|discriminate]. injection H as <-. rewrite map_app, E. eexists. split; [reflexivity|].
    rewrite map_length. unfold preferred_fl in P. destruct (Nat.eqb (length z) ns); [injection P as <-; apply map_length|]. destruct (Nat.eqb (length z) 0); [discriminate|]. injection P as <-. rewrite map_length.
    clear. induction z as [|zi z IH]; cbn [flat_map length]; [reflexivity|]. rewrite app_length, IH. unfold shifted_fl. rewrite map_length. lia.
Qed.

(** The hypothesis is met, and the result is not empty: two objectives, one preferred solution of three. *)
Example ex_axes : Permutation (leaves (Node (Leaf 0) (Leaf 1))) (seq 0 2) /\ exists vecs, manage_preferred_fl (Node (Leaf 0) (Leaf 1)) 2 [[1; 0]; [0; 1]] [[1; 1]] 3 = Ok vecs.
Proof. split; [apply Permutation_refl|]. eexists. reflexivity. Qed.

Print Assumptions C143_axis.
Print Assumptions C143_axes_added.
