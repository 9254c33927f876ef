(** Lemmas for C122, NSGA-III: the objectives in another order. *)
From Coq Require Import Reals Lra Lia Permutation Sorted.
From Verif Require Import Base RVec M_APD M_NSGA3 Spec_Fronts P_NSGA3 P_Shift P_Perm.
Open Scope R_scope.

(** ** Reordering lists *)
Section Relabel.
Context (p : list nat) (m : nat).
Hypothesis P : Permutation p (seq 0 m).
Lemma p_range j : In j p -> (j < m)%nat.
Proof. intros H. apply (Permutation_in _ P) in H. apply in_seq in H. lia. Qed.
Lemma p_len : length p = m.
Proof. rewrite (Permutation_length P). apply seq_length. Qed.
Lemma p_nodup : NoDup p.
Proof. apply (Permutation_NoDup (Permutation_sym P)). apply seq_NoDup. Qed.
Lemma p_nth i : (i < m)%nat -> (nth i p 0 < m)%nat.
Proof. intros H. apply p_range. apply nth_In. rewrite p_len. exact H. Qed.
Lemma map_p (A : Type) (g : nat -> A) : Permutation (map g p) (map g (seq 0 m)).
Proof. apply Permutation_map. exact P. Qed.
Lemma relabel_perm v : length v = m -> Permutation (relabel p v) v.
Proof. intros L. pose proof (map_p R (fun j => nth j v 0)) as H. rewrite <- L in H. rewrite map_nth_seq in H. exact H. Qed.
Lemma map_relabel_in (f : R -> R) v : length v = m -> map f (relabel p v) = relabel p (map f v).
Proof.
  intros L. unfold relabel. rewrite map_map. apply map_ext_in. intros j Hj. apply p_range in Hj. rewrite (nth_indep (map f v) 0 (f 0)) by (rewrite map_length; lia). symmetry. apply map_nth.
Qed.
Lemma relabel_inj u v : length u = m -> length v = m -> relabel p u = relabel p v -> u = v.
Proof.
  intros Lu Lv E. apply (nth_ext u v 0 0); [congruence|]. intros j Hj. rewrite Lu in Hj. unfold relabel in E.
  assert (Hp : In j p) by (apply (Permutation_in _ (Permutation_sym P)); apply in_seq; lia). clear - E Hp. induction p as [|k q IH]; [destruct Hp|]. cbn [map] in E. injection E as E1 E2. destruct Hp as [<-|Hp]; auto.
Qed.
Fixpoint pos (j : nat) (l : list nat) : nat := match l with [] => 0%nat | k :: t => if Nat.eqb k j then 0%nat else S (pos j t) end.
Lemma pos_nth l : NoDup l -> forall i, (i < length l)%nat -> pos (nth i l 0%nat) l = i.
Proof.
  induction 1 as [|x l Hx Hl IH]; intros i Hi; cbn [length] in *; [lia|]. destruct i as [|i]; cbn [nth pos]; [rewrite Nat.eqb_refl; reflexivity|].
  destruct (Nat.eqb_spec x (nth i l 0%nat)) as [B|B]; [exfalso; apply Hx; rewrite B; apply nth_In; lia|]. rewrite IH by lia. reflexivity.
Qed.
Lemma relabel_onto y : length y = m -> exists x, length x = m /\ relabel p x = y.
Proof.
  intros L. exists (map (fun j => nth (pos j p) y 0) (seq 0 m)). split; [rewrite map_length, seq_length; reflexivity|]. unfold relabel.
  rewrite (map_ext_in _ (fun j => nth (pos j p) y 0)).
  - apply (nth_ext _ _ 0 0); [rewrite map_length, p_len; congruence|]. intros i Hi. rewrite map_length, p_len in Hi.
    rewrite (nth_indep _ 0 (nth (pos 0%nat p) y 0)) by (rewrite map_length, p_len; exact Hi). rewrite (map_nth (fun j => nth (pos j p) y 0)). rewrite pos_nth by (rewrite ?p_len; auto using p_nodup). reflexivity.
  - intros j Hj. apply p_range in Hj. rewrite (nth_indep _ 0 ((fun j => nth (pos j p) y 0) 0%nat)) by (rewrite map_length, seq_length; exact Hj). rewrite (map_nth (fun j => nth (pos j p) y 0)). rewrite seq_nth by exact Hj. reflexivity.
Qed.
Lemma vmap2_seq (A : Type) (g : R -> A -> R) (d : A) n w : length n = m -> length w = m -> vmap2 g n w = map (fun j => g (nth j n 0) (nth j w d)) (seq 0 m).
Proof.
  clear P. intros Ln Lw. revert n w Ln Lw. induction m as [|k IH]; intros [|x n] [|y w] Ln Lw; cbn [length] in *; try discriminate; [reflexivity|]. injection Ln as Ln. injection Lw as Lw. cbn [vmap2 seq map nth].
  f_equal. rewrite <- seq_shift, map_map. apply IH; auto.
Qed.
Lemma combine_relabel u v : combine (relabel p u) (relabel p v) = map (fun j => (nth j u 0, nth j v 0)) p.
Proof. unfold relabel. clear P. induction p as [|j q IH]; cbn [map combine]; [reflexivity|]. rewrite IH. reflexivity. Qed.
Lemma combine_seq : forall (u v : list R), length u = length v -> combine u v = map (fun j => (nth j u 0, nth j v 0)) (seq 0 (length u)).
Proof.
  clear. induction u as [|x u IH]; intros [|y v] H; cbn [length] in *; try discriminate; [reflexivity|]. injection H as H. cbn [combine seq map nth]. f_equal. rewrite <- seq_shift, map_map. apply IH; auto.
Qed.
Lemma combine_perm u v : length u = m -> length v = m -> Permutation (combine (relabel p u) (relabel p v)) (combine u v).
Proof. intros Lu Lv. rewrite combine_relabel, combine_seq by congruence. rewrite Lu. apply map_p. Qed.
Lemma vmap2_combine (g : R -> R * R -> R) n i w : length n = m -> length i = m -> length w = m ->
  vmap2 g (relabel p n) (combine (relabel p i) (relabel p w)) = relabel p (vmap2 g n (combine i w)).
Proof.
  intros Ln Li Lw. rewrite combine_relabel. rewrite (vmap2_seq _ g (0, 0) n (combine i w)) by (rewrite ?combine_length; lia). unfold relabel.
  assert (H : forall q, (forall j, In j q -> (j < m)%nat) -> vmap2 g (map (fun j => nth j n 0) q) (map (fun j => (nth j i 0, nth j w 0)) q) = map (fun j => nth j (map (fun j => g (nth j n 0) (nth j (combine i w) (0, 0))) (seq 0 m)) 0) q).
  { induction q as [|j q IH]; intros B; cbn [map vmap2]; [reflexivity|]. rewrite IH by (intros; apply B; right; auto). f_equal. pose proof (B j (or_introl eq_refl)) as Hj.
    set (G := fun j => g (nth j n 0) (nth j (combine i w) (0, 0))). rewrite (nth_indep (map G (seq 0 m)) 0 (G 0%nat)) by (rewrite map_length, seq_length; exact Hj). rewrite (map_nth G), seq_nth by exact Hj. unfold G. cbn [Nat.add].
    rewrite combine_nth by congruence. reflexivity. }
  apply H. apply p_range.
Qed.
Lemma perm_forallb {A} (f : A -> bool) l l' : Permutation l l' -> forallb f l = forallb f l'.
Proof. induction 1 as [|x l l' H IH|x y l|l l' l'' H IH H' IH']; cbn [forallb]; [reflexivity|rewrite IH; reflexivity|destruct (f x), (f y); reflexivity|congruence]. Qed.

(** ** Ideal and worst points *)
Lemma colmin_relabel rows : (forall f, In f rows -> length f = m) -> colmin (map (relabel p) rows) = option_map (relabel p) (colmin rows).
Proof. destruct rows as [|r t]; intros H; [reflexivity|]. cbn [map colmin option_map]. f_equal. apply (fold_vmin_relabel p m); [exact P|apply H; left; auto|intros; apply H; right; auto]. Qed.
Lemma colmax_relabel rows : (forall f, In f rows -> length f = m) -> colmax (map (relabel p) rows) = option_map (relabel p) (colmax rows).
Proof.
  destruct rows as [|r t]; intros H; [reflexivity|]. cbn [map colmax option_map]. f_equal. assert (Hr : length r = m) by (apply H; left; auto). assert (Ht : forall f, In f t -> length f = m) by (intros; apply H; right; auto). clear H.
  revert r Hr. induction t as [|x t IH]; intros r Hr; cbn [map fold_left]; [reflexivity|]. unfold vmax at 2. rewrite (vmap2_relabel Rmax p m) by (auto; apply Ht; left; reflexivity). apply IH; [intros; apply Ht; right; auto|].
  unfold vmax. rewrite vmap2_len, Hr, (Ht x) by (left; auto). lia.
Qed.

(** ** Extreme points *)
Lemma fold_max_spec l : forall x, x <= fold_left Rmax l x /\ (forall y, In y l -> y <= fold_left Rmax l x) /\ In (fold_left Rmax l x) (x :: l).
Proof.
  induction l as [|y l IH]; intros x; cbn [fold_left]; [split; [lra|split; [intros z []|left; reflexivity]]|].
  destruct (IH (Rmax x y)) as (A & B & C0). pose proof (Rmax_l x y). pose proof (Rmax_r x y). split; [lra|]. split.
  - intros z [<-|Hz]; [lra|auto].
  - destruct C0 as [<-|C0]; [|right; right; auto]. unfold Rmax. destruct (Rle_dec x y); [right; left; auto|left; auto].
Qed.
Definition top (l : list R) : R := match l with [] => 0 | x :: t => fold_left Rmax t x end.
Lemma top_perm l l' : Permutation l l' -> top l = top l'.
Proof.
  intros H. destruct l as [|x l]; [apply Permutation_nil in H; subst; reflexivity|]. destruct l' as [|x' l']; [apply Permutation_sym, Permutation_nil in H; discriminate|]. cbn [top].
  destruct (fold_max_spec l x) as (A & B & C0). destruct (fold_max_spec l' x') as (A' & B' & C0').
  apply (Permutation_in _ H) in C0. apply (Permutation_in _ (Permutation_sym H)) in C0'. apply Rle_antisym; [destruct C0 as [E|C0]; [rewrite <- E; auto|auto]|destruct C0' as [E|C0']; [rewrite <- E; auto|auto]].
Qed.
Lemma asf_relabel k ideal f : (k < m)%nat -> length ideal = m -> length f = m -> asf k (relabel p ideal) (relabel p f) = asf (nth k p 0%nat) ideal f.
Proof.
  intros Hk Li Lf. unfold asf. change (top (vmap2 (fun j x => snap_small x * asf_weight k j) (seq 0 (length (relabel p f))) (vsub (relabel p f) (relabel p ideal))) = top (vmap2 (fun j x => snap_small x * asf_weight (nth k p 0%nat) j) (seq 0 (length f)) (vsub f ideal))).
  apply top_perm. unfold vsub at 1. rewrite (vmap2_relabel Rminus p m) by auto. fold vsub. set (x := vsub f ideal). assert (Lx : length x = m) by (unfold x, vsub; rewrite vmap2_len; lia). clearbody x.
  rewrite relabel_length, p_len, Lf.
  assert (Q0 : forall kk (q : list nat) s x0, length x0 = length q -> vmap2 (fun j y => snap_small y * asf_weight kk j) (seq s (length q)) x0 = map (fun i => snap_small (nth i x0 0) * asf_weight kk (s + i)%nat) (seq 0 (length q))).
  { clear. intros kk q. induction q as [|a q IH]; intros s [|y x0] L; cbn [length] in *; try discriminate; [reflexivity|]. injection L as L. cbn [seq vmap2 map nth]. rewrite Nat.add_0_r. f_equal. rewrite (IH (S s) x0 L), <- seq_shift, map_map. apply map_ext. intros i. cbn [nth]. rewrite Nat.add_succ_comm. reflexivity. }
  pose proof (Q0 k p 0%nat (relabel p x)) as E1. rewrite relabel_length in E1. specialize (E1 eq_refl). rewrite p_len in E1. rewrite E1.
  pose proof (Q0 (nth k p 0%nat) p 0%nat x) as E2. rewrite p_len in E2. specialize (E2 Lx). rewrite E2. clear E1 E2 Q0. cbn [Nat.add].
  set (G := fun j => snap_small (nth j x 0) * asf_weight (nth k p 0%nat) j).
  rewrite (map_ext_in _ (fun i => G (nth i p 0%nat))).
  - rewrite <- (map_map (fun i => nth i p 0%nat) G). assert (E : map (fun i => nth i p 0%nat) (seq 0 m) = p) by (rewrite <- p_len at 1; apply map_nth_seq). rewrite E. apply map_p.
  - intros i Hi. apply in_seq in Hi. unfold G, relabel. rewrite (nth_indep _ 0 ((fun j => nth j x 0) 0%nat)) by (rewrite map_length, p_len; lia). rewrite (map_nth (fun j => nth j x 0)). f_equal. unfold asf_weight.
    destruct (Nat.eqb_spec k i) as [->|N]; [rewrite Nat.eqb_refl; reflexivity|]. destruct (Nat.eqb_spec (nth k p 0%nat) (nth i p 0%nat)) as [B|B]; [|reflexivity]. exfalso. apply N. apply (proj1 (NoDup_nth p 0%nat) p_nodup); rewrite ?p_len; auto; lia.
Qed.
(** The row with the smallest value. *)
Definition best (g : list R -> R) (rows : list (list R)) : list R := match argmin (map g rows) with Some i => nth i rows [] | None => [] end.
Lemma best_min g rows : rows <> [] -> In (best g rows) rows /\ forall b, In b rows -> g (best g rows) <= g b.
Proof.
  intros N. unfold best. destruct (argmin_some (map g rows)) as (j & A); [destruct rows; [congruence|discriminate]|]. rewrite A. destruct (argmin_spec _ _ A) as (v & V & Mn & _). rewrite nth_error_map in V.
  destruct (nth_error rows j) as [w|] eqn:W; [|discriminate V]. injection V as <-. rewrite (nth_error_nth rows j [] W). split; [apply (nth_error_In _ _ W)|]. intros b Hb. apply Mn. apply in_map. exact Hb.
Qed.
Lemma best_perm g l l' : Permutation l l' -> (forall a b, In a l -> In b l -> g a = g b -> a = b) -> best g l = best g l'.
Proof.
  intros H U. destruct l as [|x l]; [apply Permutation_nil in H; subst; reflexivity|]. destruct l' as [|x' l']; [apply Permutation_sym, Permutation_nil in H; discriminate|].
  destruct (best_min g (x :: l)) as (I0 & Mn); [discriminate|]. destruct (best_min g (x' :: l')) as (I' & Mn'); [discriminate|]. pose proof (Permutation_in _ (Permutation_sym H) I') as Hb. pose proof (Permutation_in _ H I0) as Ha. apply U; auto. apply Rle_antisym; auto.
Qed.
Lemma best_map (h : list R -> list R) g g' rows : (forall f, In f rows -> g' (h f) = g f) -> rows <> [] -> best g' (map h rows) = h (best g rows).
Proof.
  intros E N. unfold best. rewrite map_map. rewrite (map_ext_in _ g rows E). destruct (argmin_some (map g rows)) as (j & A); [destruct rows; [congruence|discriminate]|]. rewrite A. apply argmin_lt in A. rewrite map_length in A.
  rewrite (nth_indep _ [] (h [])) by (rewrite map_length; exact A). apply map_nth.
Qed.
Lemma best_app g e f : e <> [] -> f <> [] -> best g (e ++ f) = if Rle_dec (g (best g e)) (g (best g f)) then best g e else best g f.
Proof.
  intros Ne Nf. destruct (best_min g e Ne) as (Ie & Me). destruct (best_min g f Nf) as (If & Mf).
  assert (W : forall l, l <> [] -> exists i, (i < length l)%nat /\ best g l = nth i l [] /\ (forall x, In x l -> g (nth i l []) <= g x) /\ forall k, (k < i)%nat -> g (nth i l []) < g (nth k l [])).
  { intros l N. destruct (argmin_some (map g l)) as (i & A); [destruct l; [congruence|discriminate]|]. exists i. pose proof (argmin_lt _ _ A) as Li. rewrite map_length in Li. split; [exact Li|]. unfold best. rewrite A. split; [reflexivity|].
    destruct (argmin_spec _ _ A) as (v & V & Mn & Fst). rewrite nth_error_map in V. rewrite (nth_error_nth' l []) in V by exact Li. injection V as <-. split; [intros x Hx; apply Mn, in_map; exact Hx|].
    intros k Hk. apply (Fst k); [exact Hk|]. rewrite nth_error_map, (nth_error_nth' l []) by lia. reflexivity. }
  assert (Uq : forall l i j, (i < length l)%nat -> (j < length l)%nat -> (forall x, In x l -> g (nth i l []) <= g x) -> (forall k, (k < i)%nat -> g (nth i l []) < g (nth k l [])) ->
     (forall x, In x l -> g (nth j l []) <= g x) -> (forall k, (k < j)%nat -> g (nth j l []) < g (nth k l [])) -> i = j).
  { intros l i j Li Lj A1 A2 B1 B2. destruct (Nat.lt_trichotomy i j) as [H|[H|H]]; [|exact H|].
    - pose proof (B2 i H). pose proof (A1 _ (nth_In l [] Lj)). lra.
    - pose proof (A2 j H). pose proof (B1 _ (nth_In l [] Li)). lra. }
  destruct (W (e ++ f)) as (i & Li & Ei & Mi & Fi); [destruct e; [congruence|discriminate]|]. destruct (W e Ne) as (j & Lj & Ej & Mj & Fj). destruct (W f Nf) as (j' & Lj' & Ej' & Mj' & Fj').
  rewrite app_length in Li. destruct (Nat.lt_ge_cases i (length e)) as [Hi|Hi].
  - assert (Ni : nth i (e ++ f) [] = nth i e []) by (apply app_nth1; exact Hi). rewrite Ni in Ei, Mi.
    assert (i = j) as ->. { apply (Uq e); auto; [intros x Hx; apply Mi, in_or_app; auto|]. intros k Hk. specialize (Fi k Hk). rewrite Ni in Fi. rewrite app_nth1 in Fi by lia. exact Fi. }
    rewrite Ei, Ej. destruct (Rle_dec _ _) as [_|B]; [reflexivity|]. exfalso. apply B. apply Mi, in_or_app. right. exact If.
  - assert (Ni : nth i (e ++ f) [] = nth (i - length e) f []) by (apply app_nth2; exact Hi). rewrite Ni in Ei, Mi.
    assert (i - length e = j')%nat as Eij. { apply (Uq f); auto; [lia|intros x Hx; apply Mi, in_or_app; auto|]. intros k Hk. specialize (Fi (length e + k)%nat ltac:(lia)). rewrite Ni in Fi. rewrite app_nth2 in Fi by lia. replace (length e + k - length e)%nat with k in Fi by lia. exact Fi. }
    rewrite Eij in *. rewrite Ei, Ej'. specialize (Fi j ltac:(lia)). rewrite Ni in Fi. rewrite app_nth1 in Fi by exact Lj. rewrite Ej. destruct (Rle_dec _ _) as [B|_]; [lra|reflexivity].
Qed.
Definition all_rows (old : option (list (list R))) (front : list (list R)) : list (list R) := match old with Some e => e ++ front | None => front end.
Lemma extreme_best front ideal old : all_rows old front <> [] -> extreme_points front ideal old = map (fun k => best (asf k ideal) (all_rows old front)) (seq 0 (length ideal)).
Proof.
  intros N. unfold extreme_points. fold (all_rows old front). set (rows := all_rows old front) in *. induction (seq 0 (length ideal)) as [|k l IH]; cbn [flat_map map]; [reflexivity|]. rewrite IH. unfold best at 2.
  destruct (argmin_some (map (asf k ideal) rows)) as (j & A); [destruct rows; [congruence|discriminate]|]. rewrite A. reflexivity.
Qed.
(** Rows and columns reordered. *)
Definition relabel2 (e : list (list R)) : list (list R) := map (fun k => relabel p (nth k e [])) p.
Lemma relabel2_perm e : length e = m -> Permutation (relabel2 e) (map (relabel p) e).
Proof.
  intros L. unfold relabel2. rewrite <- (map_map (fun k => nth k e []) (relabel p)). apply Permutation_map. pose proof (map_p (list R) (fun k => nth k e [])) as H. rewrite <- L in H. rewrite map_nth_seq in H. exact H.
Qed.
Lemma extreme_relabel front ideal old : front <> [] -> length ideal = m -> (forall f, In f front -> length f = m) -> (forall e, old = Some e -> length e = m /\ forall f, In f e -> length f = m) ->
  (forall e k a b, old = Some e -> (k < m)%nat -> In a e -> In b e -> asf k ideal a = asf k ideal b -> a = b) ->
  extreme_points (map (relabel p) front) (relabel p ideal) (option_map relabel2 old) = relabel2 (extreme_points front ideal old).
Proof.
  intros Nf Li Lf Lo U. assert (N : all_rows old front <> []) by (destruct old as [e|]; [destruct e; [exact Nf|discriminate]|exact Nf]).
  assert (Nf' : map (relabel p) front <> []) by (destruct front; [congruence|discriminate]).
  assert (N' : all_rows (option_map relabel2 old) (map (relabel p) front) <> []) by (destruct old as [e|]; cbn [option_map all_rows]; [destruct (relabel2 e); [exact Nf'|discriminate]|exact Nf']).
  rewrite !extreme_best by auto. rewrite relabel_length, p_len, Li. unfold relabel2.
  assert (E : forall k, (k < m)%nat -> best (asf k (relabel p ideal)) (all_rows (option_map relabel2 old) (map (relabel p) front)) = relabel p (best (asf (nth k p 0%nat) ideal) (all_rows old front))).
  { intros k Hk. assert (B : forall rows, rows <> [] -> (forall f, In f rows -> length f = m) -> best (asf k (relabel p ideal)) (map (relabel p) rows) = relabel p (best (asf (nth k p 0%nat) ideal) rows)) by (intros rows Hn0 Hl; apply best_map; [intros f Hf; apply asf_relabel; auto|exact Hn0]).
    destruct old as [e|]; cbn [option_map all_rows]; [|apply B; auto]. destruct (Lo e eq_refl) as (Le & Lef).
    assert (Ne : e <> []) by (destruct e; [cbn [length] in Le; lia|discriminate]). assert (Ne' : relabel2 e <> []) by (intros Z; apply (f_equal (@length _)) in Z; unfold relabel2 in Z; rewrite map_length, p_len in Z; cbn [length] in Z; lia).
    rewrite !best_app by auto. rewrite (B front Nf Lf).
    assert (Be : best (asf k (relabel p ideal)) (relabel2 e) = relabel p (best (asf (nth k p 0%nat) ideal) e)).
    { rewrite (best_perm _ _ (map (relabel p) e)); [apply B; auto|apply relabel2_perm; exact Le|].
      intros a b Ha Hb Hab. apply (Permutation_in _ (relabel2_perm e Le)) in Ha. apply (Permutation_in _ (relabel2_perm e Le)) in Hb. apply in_map_iff in Ha as (a0 & <- & Ha). apply in_map_iff in Hb as (b0 & <- & Hb). f_equal. rewrite !asf_relabel in Hab by auto. apply (U e (nth k p 0%nat)); auto. apply p_nth; auto. }
    rewrite Be. rewrite !asf_relabel; [|auto|auto|apply Lf; apply (best_min (asf (nth k p 0%nat) ideal) front Nf)|auto|auto|apply Lef; apply (best_min (asf (nth k p 0%nat) ideal) e Ne)].
    destruct (Rle_dec _ _); reflexivity. }
  rewrite (map_ext_in _ (fun k => relabel p (best (asf (nth k p 0%nat) ideal) (all_rows old front)))) by (intros k Hk; apply in_seq in Hk; apply E; lia).
  set (G := fun k => best (asf k ideal) (all_rows old front)). change (map (fun k => relabel p (G (nth k p 0%nat))) (seq 0 m) = map (fun k => relabel p (nth k (map G (seq 0 m)) [])) p).
  rewrite <- (map_map (fun i => nth i p 0%nat) (fun k => relabel p (G k))). assert (E2 : map (fun i => nth i p 0%nat) (seq 0 m) = p) by (rewrite <- p_len at 1; apply map_nth_seq). rewrite E2.
  apply map_ext_in. intros k Hk. apply p_range in Hk. f_equal. rewrite (nth_indep _ [] (G 0%nat)) by (rewrite map_length, seq_length; exact Hk). rewrite (map_nth G), seq_nth by exact Hk. reflexivity.
Qed.
Lemma extreme_len2 front ideal old : front <> [] -> length (extreme_points front ideal old) = length ideal.
Proof. intros Nf. assert (N : all_rows old front <> []) by (destruct old as [e|]; [destruct e; [exact Nf|discriminate]|exact Nf]). rewrite extreme_best by auto. rewrite map_length, seq_length. reflexivity. Qed.

(** ** The nadir point *)
(** [x] solves the linear equations with coefficients [Mx] and right hand sides [b]. *)
Definition solution (Mx : list (list R)) (b x : list R) : Prop := length x = length b /\ map (fun r => dot r x) Mx = b.
Section Nadir.
Context (solve : list (list R) -> list R -> option (list R)).
Hypothesis solve_ok : forall Mx b x, length Mx = m -> length b = m -> (forall r, In r Mx -> length r = m) -> (solve Mx b = Some x <-> unique (solution Mx b) x).
Lemma ones_iff (g : nat -> R) q n : length q = n -> map g q = repeat 1 n <-> forall k, In k q -> g k = 1.
Proof.
  intros <-. induction q as [|k q IH]; cbn [map length repeat]; [split; [intros _ k []|reflexivity]|]. split.
  - intros H j [<-|Hj]; injection H as H1 H2; [exact H1|apply IH; auto].
  - intros H. f_equal; [apply H; left; reflexivity|apply IH; intros; apply H; right; auto].
Qed.
Lemma solution_relabel Mx x : length Mx = m -> (forall r, In r Mx -> length r = m) -> length x = m -> solution (relabel2 Mx) (repeat 1 m) (relabel p x) <-> solution Mx (repeat 1 m) x.
Proof.
  intros LM Lr Lx. unfold solution. rewrite relabel_length, p_len, repeat_length, Lx.
  assert (E1 : map (fun r => dot r (relabel p x)) (relabel2 Mx) = map (fun k => dot (nth k Mx []) x) p).
  { unfold relabel2. rewrite map_map. apply map_ext_in. intros k Hk. apply p_range in Hk. apply (dot_relabel p m); auto. apply Lr, nth_In. lia. }
  assert (E2 : map (fun r => dot r x) Mx = map (fun k => dot (nth k Mx []) x) (seq 0 m)).
  { rewrite <- (map_map (fun k => nth k Mx []) (fun r => dot r x)). rewrite <- LM, map_nth_seq. reflexivity. }
  rewrite E1, E2, (ones_iff _ p m p_len), (ones_iff _ (seq 0 m) m (seq_length _ _)).
  split; intros (H1 & H2); (split; [reflexivity|]); intros k Hk; apply H2; [apply (Permutation_in _ (Permutation_sym P)); exact Hk|apply (Permutation_in _ P); exact Hk].
Qed.
Lemma relabel2_rows Mx : (forall r, In r Mx -> length r = m) -> length (relabel2 Mx) = m /\ forall r, In r (relabel2 Mx) -> length r = m.
Proof. intros _. unfold relabel2. split; [rewrite map_length; apply p_len|]. intros r Hr. apply in_map_iff in Hr as (k & <- & _). rewrite relabel_length. apply p_len. Qed.
Lemma solve_relabel Mx : length Mx = m -> (forall r, In r Mx -> length r = m) -> solve (relabel2 Mx) (repeat 1 m) = option_map (relabel p) (solve Mx (repeat 1 m)).
Proof.
  intros LM Lr. destruct (relabel2_rows Mx Lr) as (LM' & Lr'). assert (Lb : length (repeat 1 m) = m) by apply repeat_length.
  assert (T : forall x, length x = m -> unique (solution Mx (repeat 1 m)) x <-> unique (solution (relabel2 Mx) (repeat 1 m)) (relabel p x)).
  { intros x Lx. split; intros (H1 & H2).
    - split; [exact (proj2 (solution_relabel Mx x LM Lr Lx) H1)|]. intros y Hy. assert (Ly : length y = m) by (destruct Hy as (Hy & _); rewrite Hy; exact Lb). destruct (relabel_onto y Ly) as (x0 & L0 & <-). f_equal. apply H2. exact (proj1 (solution_relabel Mx x0 LM Lr L0) Hy).
    - split; [exact (proj1 (solution_relabel Mx x LM Lr Lx) H1)|]. intros y Hy. assert (Ly : length y = m) by (destruct Hy as (Hy & _); rewrite Hy; exact Lb). apply relabel_inj; auto. apply H2. exact (proj2 (solution_relabel Mx y LM Lr Ly) Hy). }
  destruct (solve Mx (repeat 1 m)) as [x|] eqn:E; cbn [option_map].
  - apply (proj1 (solve_ok Mx (repeat 1 m) x LM Lb Lr)) in E. assert (Lx : length x = m) by (destruct E as ((Hx & _) & _); rewrite Hx; exact Lb). apply (proj2 (solve_ok (relabel2 Mx) (repeat 1 m) (relabel p x) LM' Lb Lr')). apply (proj1 (T x Lx)). exact E.
  - destruct (solve (relabel2 Mx) (repeat 1 m)) as [y|] eqn:E'; [|reflexivity]. exfalso. apply (proj1 (solve_ok (relabel2 Mx) (repeat 1 m) y LM' Lb Lr')) in E'. assert (Ly : length y = m) by (destruct E' as ((Hx & _) & _); rewrite Hx; exact Lb).
    destruct (relabel_onto y Ly) as (x0 & L0 & E0). rewrite <- E0 in E'. apply (proj2 (T x0 L0)) in E'. apply (proj2 (solve_ok Mx (repeat 1 m) x0 LM Lb Lr)) in E'. congruence.
Qed.
Lemma solve_len Mx x : length Mx = m -> (forall r, In r Mx -> length r = m) -> solve Mx (repeat 1 m) = Some x -> length x = m.
Proof. intros LM Lr E. assert (Lb : length (repeat 1 m) = m) by apply repeat_length. apply (proj1 (solve_ok Mx (repeat 1 m) x LM Lb Lr)) in E. destruct E as ((Hx & _) & _). congruence. Qed.
Lemma allclose_ones l : allclose l (repeat 1 (length l)) = forallb (fun x => if Rle_dec (Rabs (x - 1)) (1 / 100000000 + 1 / 100000 * Rabs 1) then true else false) l.
Proof. unfold allclose. induction l as [|x l IH]; cbn [length repeat combine forallb fst snd]; [reflexivity|]. rewrite IH. reflexivity. Qed.
Lemma nadir_relabel ext ideal worst wf wp : length ext = m -> (forall f, In f ext -> length f = m) -> length ideal = m -> length worst = m -> length wf = m -> length wp = m ->
  nadir_point solve (relabel2 ext) (relabel p ideal) (relabel p worst) (relabel p wf) (relabel p wp) = relabel p (nadir_point solve ext ideal worst wf wp) /\ length (nadir_point solve ext ideal worst wf wp) = m.
Proof.
  intros Le Lf Li Lw Lwf Lwp. unfold nadir_point. set (Mx := map (fun e => vsub e ideal) ext). assert (LM : length Mx = m) by (unfold Mx; rewrite map_length; exact Le).
  assert (Lr : forall r, In r Mx -> length r = m) by (intros r Hr; apply in_map_iff in Hr as (e & <- & He); unfold vsub; rewrite vmap2_len, (Lf e He); lia).
  assert (EM : map (fun e => vsub e (relabel p ideal)) (relabel2 ext) = relabel2 Mx).
  { unfold relabel2, Mx. rewrite map_map. apply map_ext_in. intros k Hk. apply p_range in Hk. unfold vsub at 1. rewrite (vmap2_relabel Rminus p m) by (auto; apply Lf, nth_In; lia). fold vsub. f_equal.
    rewrite (nth_indep (map _ ext) [] (vsub [] ideal)) by (rewrite map_length; lia). symmetry. apply (map_nth (fun e => vsub e ideal)). }
  rewrite EM, relabel_length, p_len, Li, solve_relabel by auto.
  assert (Fin : forall n, length n = m -> vmap2 (fun n iw => if Rle_dec (n - fst iw) (1 / 1000000) then snd iw else n) (relabel p n) (combine (relabel p ideal) (relabel p wp)) =
     relabel p (vmap2 (fun n iw => if Rle_dec (n - fst iw) (1 / 1000000) then snd iw else n) n (combine ideal wp)) /\
     length (vmap2 (fun n iw => if Rle_dec (n - fst iw) (1 / 1000000) then snd iw else n) n (combine ideal wp)) = m).
  { intros n Ln. split; [apply vmap2_combine; auto|rewrite vmap2_len, combine_length; lia]. }
  destruct (solve Mx (repeat 1 m)) as [plane|] eqn:Es; cbn [option_map]; [|apply Fin; auto].
  pose proof (solve_len Mx plane LM Lr Es) as Lpl. rewrite (perm_existsb _ _ _ (relabel_perm plane Lpl)). destruct (existsb (fun x => is_zero x) plane); [apply Fin; auto|].
  rewrite map_relabel_in by exact Lpl. set (ints := map (fun x => 1 / x) plane). assert (Lin : length ints = m) by (unfold ints; rewrite map_length; exact Lpl).
  unfold vadd at 1 2. rewrite (vmap2_relabel Rplus p m) by auto. fold vadd. set (nd := vadd ideal ints). assert (Lnd : length nd = m) by (unfold nd, vadd; rewrite vmap2_len; lia).
  rewrite (perm_existsb _ _ _ (relabel_perm ints Lin)), (perm_existsb _ _ _ (combine_perm nd worst Lnd Lw)).
  assert (A : allclose (map (fun r => dot r (relabel p plane)) (relabel2 Mx)) (repeat 1 m) = allclose (map (fun r => dot r plane) Mx) (repeat 1 m)).
  { assert (Pe : Permutation (map (fun r => dot r (relabel p plane)) (relabel2 Mx)) (map (fun r => dot r plane) Mx)).
    { eapply Permutation_trans; [apply Permutation_map; apply (relabel2_perm Mx LM)|]. rewrite map_map. rewrite (map_ext_in _ (fun r => dot r plane)); [apply Permutation_refl|]. intros r Hr. apply (dot_relabel p m); auto. }
    assert (L1 : length (map (fun r => dot r plane) Mx) = m) by (rewrite map_length; exact LM). assert (L2 : length (map (fun r => dot r (relabel p plane)) (relabel2 Mx)) = m) by (rewrite (Permutation_length Pe); exact L1).
    set (u := map (fun r => dot r (relabel p plane)) (relabel2 Mx)) in *. set (v := map (fun r => dot r plane) Mx) in *. rewrite <- L2 at 1. rewrite <- L1. rewrite !allclose_ones. apply perm_forallb. exact Pe. }
  rewrite A. destruct (_ || _ || _); apply Fin; auto.
Qed.
End Nadir.

(** ** Niches *)
Lemma normalise_relabel ideal nadir f : length ideal = m -> length nadir = m -> length f = m -> normalise (relabel p ideal) (relabel p nadir) (relabel p f) = relabel p (normalise ideal nadir f) /\ length (normalise ideal nadir f) = m.
Proof.
  intros Li Ln Lf. unfold normalise, vsub. rewrite !(vmap2_relabel Rminus p m) by auto. assert (L1 : length (vmap2 Rminus nadir ideal) = m) by (rewrite vmap2_len; lia). assert (L2 : length (vmap2 Rminus f ideal) = m) by (rewrite vmap2_len; lia).
  rewrite map_relabel_in by exact L1. rewrite (vmap2_relabel _ p m) by (rewrite ?map_length; auto). split; [reflexivity|]. rewrite vmap2_len, map_length. lia.
Qed.
Lemma perp_relabel v u : length v = m -> length u = m -> perp_dist (relabel p v) (relabel p u) = perp_dist v u.
Proof.
  intros Lv Lu. unfold perp_dist. rewrite (dot_relabel p m), (norm_relabel p m) by auto. rewrite map_relabel_in by exact Lu. unfold vsub. rewrite (vmap2_relabel Rminus p m) by (rewrite ?map_length; auto).
  apply (norm_relabel p m); auto. rewrite vmap2_len, map_length. lia.
Qed.
Lemma niche_relabel dirs v : length v = m -> (forall u, In u dirs -> length u = m) -> niche_of (map (relabel p) dirs) (relabel p v) = niche_of dirs v /\ niche_dist (map (relabel p) dirs) (relabel p v) = niche_dist dirs v.
Proof.
  intros Lv Ld. assert (E : map (perp_dist (relabel p v)) (map (relabel p) dirs) = map (perp_dist v) dirs) by (rewrite map_map; apply map_ext_in; intros u Hu; apply perp_relabel; auto).
  assert (N : niche_of (map (relabel p) dirs) (relabel p v) = niche_of dirs v) by (unfold niche_of; rewrite E; reflexivity). split; [exact N|]. unfold niche_dist. rewrite N. unfold niche_of.
  destruct (argmin (map (perp_dist v) dirs)) as [k|] eqn:A.
  - apply argmin_lt in A. rewrite map_length in A. rewrite (nth_indep _ [] (relabel p [])) by (rewrite map_length; exact A). rewrite (map_nth (relabel p)). apply perp_relabel; auto. apply Ld, nth_In; exact A.
  - destruct dirs as [|u dirs]; [|destruct (argmin_some (map (perp_dist v) (u :: dirs))) as (j & B); [discriminate|congruence]]. cbn [map nth]. unfold perp_dist. cbn [map]. unfold vsub. cbn [vmap2]. reflexivity.
Qed.

(** ** Dominance *)
Lemma rdominates_relabel a b : length a = m -> length b = m -> rdominates (relabel p a) (relabel p b) <-> rdominates a b.
Proof.
  intros La Lb. unfold rdominates.
  assert (F : forall u v, length u = length v -> Forall2 Rle u v <-> forall j, (j < length u)%nat -> nth j u 0 <= nth j v 0).
  { clear. induction u as [|x u IH]; intros [|y v] L; cbn [length] in *; try discriminate; [split; [intros _ j Hj; lia|constructor]|]. injection L as L. split.
    - intros H j Hj. inversion H; subst. destruct j as [|j]; cbn [nth]; [auto|]. apply (proj1 (IH v L)); auto. lia.
    - intros H. constructor; [apply (H 0%nat); lia|]. apply IH; auto. intros j Hj. apply (H (S j)). lia. }
  assert (X : forall u v, length u = length v -> (exists i x y, nth_error u i = Some x /\ nth_error v i = Some y /\ x < y) <-> exists j, (j < length u)%nat /\ nth j u 0 < nth j v 0).
  { clear. intros u v L. split.
    - intros (i & x & y & H1 & H2 & H3). exists i. assert (i < length u)%nat by (apply nth_error_Some; congruence). rewrite (nth_error_nth u i 0 H1), (nth_error_nth v i 0 H2). auto.
    - intros (j & Hj & H). exists j, (nth j u 0), (nth j v 0). split; [apply nth_error_nth'; auto|]. split; [apply nth_error_nth'; lia|auto]. }
  rewrite !F, !X by (rewrite ?relabel_length; congruence). rewrite relabel_length, p_len, La.
  assert (Nt : forall u i, (i < m)%nat -> nth i (relabel p u) 0 = nth (nth i p 0%nat) u 0).
  { intros u i Hi. unfold relabel. rewrite (nth_indep _ 0 ((fun j => nth j u 0) 0%nat)) by (rewrite map_length, p_len; exact Hi). apply (map_nth (fun j => nth j u 0)). }
  assert (Bk : forall j, (j < m)%nat -> exists i, (i < m)%nat /\ nth i p 0%nat = j).
  { intros j Hj. assert (Hp : In j p) by (apply (Permutation_in _ (Permutation_sym P)); apply in_seq; lia). destruct (In_nth p j 0%nat Hp) as (i & H1 & H2). exists i. rewrite p_len in H1. auto. }
  split; intros (H1 & j & Hj & H2); split.
  - intros i Hi. destruct (Bk i Hi) as (i' & Hi' & <-). rewrite <- !Nt by exact Hi'. apply H1; auto.
  - exists (nth j p 0%nat). split; [apply p_nth; auto|]. rewrite <- !Nt by auto. exact H2.
  - intros i Hi. rewrite !Nt by exact Hi. apply H1. apply p_nth; auto.
  - destruct (Bk j Hj) as (i' & Hi' & <-). exists i'. split; [auto|]. rewrite !Nt by auto. exact H2.
Qed.
Lemma row_dom_relabel fit i j : (forall f, In f fit -> length f = m) -> row_dom (map (relabel p) fit) i j <-> row_dom fit i j.
Proof.
  intros H. unfold row_dom. split.
  - intros (a & b & A & B & D). rewrite nth_error_map in A, B. destruct (nth_error fit i) as [a0|] eqn:Ea; [|discriminate]. destruct (nth_error fit j) as [b0|] eqn:Eb; [|discriminate]. injection A as <-. injection B as <-.
    exists a0, b0. split; [auto|]. split; [auto|]. exact (proj1 (rdominates_relabel a0 b0 (H a0 (nth_error_In _ _ Ea)) (H b0 (nth_error_In _ _ Eb))) D).
  - intros (a & b & A & B & D). exists (relabel p a), (relabel p b). rewrite !nth_error_map, A, B. split; [auto|]. split; [auto|]. exact (proj2 (rdominates_relabel a b (H a (nth_error_In _ _ A)) (H b (nth_error_In _ _ B))) D).
Qed.
End Relabel.
