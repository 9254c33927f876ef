(** Lemmas for C65. *)
From Verif Require Import Base M_Animate Spec_Animate.
From Coq Require Import QArith Qminmax Lqa.
Open Scope nat_scope.

Lemma column_shows rows j : shows_objective rows j (column j rows).
Proof. split; [apply map_length|]. intros k r H. unfold column. rewrite nth_error_map, H. reflexivity. Qed.

Lemma Qmin_or a b : Qmin a b = a \/ Qmin a b = b.
Proof. unfold Qmin, GenericMinMax.gmin. destruct (a ?= b)%Q; auto. Qed.
Lemma Qmax_or a b : Qmax a b = a \/ Qmax a b = b.
Proof. unfold Qmax, GenericMinMax.gmax. destruct (a ?= b)%Q; auto. Qed.
Lemma fold_min l : forall x, let m := fold_left Qmin l x in (m <= x)%Q /\ (forall y, In y l -> (m <= y)%Q) /\ (m = x \/ In m l).
Proof.
  induction l as [|y l IH]; intros x; cbn [fold_left]; [split; [apply Qle_refl|]; split; [intros y []|left; reflexivity]|].
  destruct (IH (Qmin x y)) as (A & B & C). split; [|split].
  - apply (Qle_trans _ _ _ A), Q.le_min_l.
  - intros z [<-|Hz]; [apply (Qle_trans _ _ _ A), Q.le_min_r|apply B; auto].
  - destruct C as [C|C]; [|right; right; auto]. cbn zeta. rewrite C. destruct (Qmin_or x y) as [->| ->]; [left; auto|right; left; auto].
Qed.
Lemma fold_max l : forall x, let m := fold_left Qmax l x in (x <= m)%Q /\ (forall y, In y l -> (y <= m)%Q) /\ (m = x \/ In m l).
Proof.
  induction l as [|y l IH]; intros x; cbn [fold_left]; [split; [apply Qle_refl|]; split; [intros y []|left; reflexivity]|].
  destruct (IH (Qmax x y)) as (A & B & C). split; [|split].
  - apply (Qle_trans _ (Qmax x y)); [apply Q.le_max_l|exact A].
  - intros z [<-|Hz]; [apply (Qle_trans _ (Qmax x y)); [apply Q.le_max_r|exact A]|apply B; auto].
  - destruct C as [C|C]; [|right; right; auto]. cbn zeta. rewrite C. destruct (Qmax_or x y) as [->| ->]; [left; auto|right; left; auto].
Qed.
Lemma range_ok rows j : rows <> [] -> exists lo hi, col_min (column j rows) = Ok lo /\ col_max (column j rows) = Ok hi /\ range_of rows j lo hi.
Proof.
  destruct rows as [|r rows]; [congruence|]. intros _. cbn [column map col_min col_max]. eexists _, _. split; [reflexivity|]. split; [reflexivity|].
  fold (column j rows). destruct (fold_min (column j rows) (nth j r 0%Q)) as (A & B & C). destruct (fold_max (column j rows) (nth j r 0%Q)) as (D & E & F). cbn zeta in *.
  assert (W : forall m, (m = nth j r 0%Q \/ In m (column j rows)) -> exists r0, In r0 (r :: rows) /\ nth j r0 0%Q = m).
  { intros m [->|H]; [exists r; split; [left|]; auto|]. apply in_map_iff in H. destruct H as (r0 & <- & H). exists r0. split; [right|]; auto. }
  split; [apply W; auto|]. split; [apply W; auto|]. intros r0 [<-|H]; [auto|]. assert (In (nth j r0 0%Q) (column j rows)) by (apply (in_map (fun r => nth j r 0%Q)); auto). auto.
Qed.

Lemma sequence_ok {A B} (f : A -> res B) (P : nat -> B -> Prop) l : forall k, (forall i a, nth_error l i = Some a -> exists b, f a = Ok b /\ P (k + i) b) ->
  exists bs, sequence (map f l) = Ok bs /\ length bs = length l /\ forall i b, nth_error bs i = Some b -> P (k + i) b.
Proof.
  induction l as [|a l IH]; intros k H; [exists []; split; [reflexivity|]; split; [reflexivity|]; intros [|i] b E; discriminate|].
  destruct (H 0 a eq_refl) as (b & Eb & Pb). destruct (IH (S k)) as (bs & Es & L & Q). { intros i a0 Hi. destruct (H (S i) a0 Hi) as (b0 & E0 & P0). exists b0. split; auto. replace (S k + i) with (k + S i) by lia. auto. }
  exists (b :: bs). cbn [map sequence]. rewrite Eb. cbn [bind]. rewrite Es. split; [reflexivity|]. split; [simpl; auto|]. intros [|i] b0 E0; [injection E0 as <-; auto|]. replace (k + S i) with (S k + i) by lia. apply Q. exact E0.
Qed.
Lemma nth_combine_seq {A} (l : list A) i p : nth_error (combine (seq 0 (length l)) l) i = Some p -> fst p = i.
Proof.
  enough (G : forall s, nth_error (combine (seq s (length l)) l) i = Some p -> fst p = s + i) by (intros H; apply (G 0 H)).
  revert i. induction l as [|a l IH]; intros [|i] s H; simpl in H; try discriminate; [injection H as <-; simpl; lia|]. rewrite (IH _ _ H). lia.
Qed.

Lemma trace_par_ok n rows : 4 <= n -> rows <> [] -> exists t, trace_par (Array n rows) = Ok t /\ shows n rows t.
Proof.
  intros Hn Hr. unfold trace_par, as_frame. destruct (sequence_ok (make_dim rows) (fun j d => shows_objective rows j (d_values d) /\ range_of rows j (d_min d) (d_max d)) (combine (seq 0 (length (map IntLabel (seq 0 n)))) (map IntLabel (seq 0 n))) 0) as (dims & Ed & Ld & Hd).
  { intros i p Hp. rewrite (surjective_pairing p) in *. pose proof (nth_combine_seq _ _ _ Hp) as Hf. destruct p as [a b]. cbn [fst snd] in *. subst a. destruct (range_ok rows i Hr) as (lo & hi & E1 & E2 & E3). unfold make_dim. cbn [fst snd]. rewrite E1. cbn [bind]. rewrite E2. cbn [bind].
    eexists. split; [reflexivity|]. cbn. split; auto. apply column_shows. }
  rewrite Ed. cbn [bind]. destruct n as [|n]; [lia|]. cbn [seq map position label_eqb Nat.eqb]. destruct (range_ok rows 0 Hr) as (lo & hi & E1 & E2 & E3). rewrite E1. cbn [bind]. rewrite E2. cbn [bind].
  eexists. split; [reflexivity|]. apply shows_par; auto.
  - rewrite Ld, combine_length, seq_length, map_length, seq_length. apply Nat.min_id.
  - apply column_shows.
Qed.
Lemma sequence_err {A B} (f : A -> res B) e l : l <> [] -> (forall a, In a l -> f a = Err e) -> sequence (map f l) = Err e.
Proof. destruct l as [|a l]; [congruence|]. intros _ H. cbn [map sequence]. rewrite (H a (or_introl eq_refl)). reflexivity. Qed.
Lemma trace_par_empty n : 4 <= n -> trace_par (Array n []) = Err ValueError.
Proof. intros Hn. unfold trace_par, as_frame. rewrite (sequence_err (make_dim []) ValueError); [reflexivity| |reflexivity]. destruct n; [lia|]. discriminate. Qed.

(** The trace function used for [n] objectives. *)
Definition trace_of (n : nat) (d : input) : res trace := if Nat.eqb n 2 then trace_2d d else if Nat.eqb n 3 then trace_3d d else trace_par d.
Lemma trace_of_ok n rows : 2 <= n -> rows <> [] \/ n <= 3 -> exists t, trace_of n (Array n rows) = Ok t /\ shows n rows t.
Proof.
  intros Hn Hr. unfold trace_of. destruct (Nat.eqb_spec n 2); [|destruct (Nat.eqb_spec n 3)].
  - eexists. split; [reflexivity|]. apply shows_2d; auto; apply column_shows.
  - eexists. split; [reflexivity|]. apply shows_3d; auto; apply column_shows.
  - apply trace_par_ok; [lia|]. destruct Hr; auto. lia.
Qed.
Lemma next_trace fs n rows fig filename g : 2 <= n -> animate_next fs (Array n rows) fig filename g = next_with (trace_of n (Array n rows)) fs fig filename (match g with None => length (f_frames fig) | Some g => g end).
Proof.
  intros Hn. unfold animate_next, numobj, trace_of. destruct (Nat.eqb_spec n 2); [reflexivity|]. destruct (Nat.eqb_spec n 3); [reflexivity|]. destruct (Nat.leb_spec 4 n); [reflexivity|lia].
Qed.
Lemma init_trace fs n rows filename : 2 <= n -> animate_init fs (Array n rows) filename = init_with (trace_of n (Array n rows)) fs filename.
Proof.
  intros Hn. unfold animate_init, numobj, trace_of. destruct (Nat.eqb_spec n 2); [reflexivity|]. destruct (Nat.eqb_spec n 3); [reflexivity|]. destruct (Nat.leb_spec 4 n); [reflexivity|lia].
Qed.
