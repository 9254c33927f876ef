(** C122, MOEA/D: a run does not depend on the order in which the objectives are listed. *)
From Coq Require Import QArith Lia Permutation.
From Verif Require Import Base M_MOEAD P_MOEAD Properties_MOEAD M_MoeadRun.
Open Scope nat_scope.

(** The components of [v] listed in the order [p]. *)
Definition qreordered (p : list nat) (v : list Q) : list Q := map (fun j => nth j v 0%Q) p.

Section P.
Context (p : list nat) (m : nat).
Hypothesis HP : Permutation p (seq 0 m).

Lemma pbound j : In j p -> j < m.
Proof. intros H. apply (Permutation_in _ HP) in H. apply in_seq in H. lia. Qed.
Lemma qre_length v : length (qreordered p v) = m.
Proof. unfold qreordered. rewrite map_length, (Permutation_length HP). apply seq_length. Qed.
Lemma qre_map (f : Q -> Q) v : length v = m -> map f (qreordered p v) = qreordered p (map f v).
Proof.
  intros L. unfold qreordered. rewrite map_map. apply map_ext_in. intros j Hj. apply pbound in Hj.
  rewrite (nth_indep (map f v) 0%Q (f 0%Q)) by (rewrite map_length; lia). symmetry. apply (map_nth f).
Qed.
Lemma qre_seq v : length v = m -> qreordered (seq 0 m) v = v.
Proof.
  intros <-. unfold qreordered. clear HP. induction v as [|x v IH]; [reflexivity|]. cbn [length seq map nth]. f_equal.
  rewrite <- seq_shift, map_map. exact IH.
Qed.
Lemma qsum_perm l l' : Permutation l l' -> (qsum l == qsum l')%Q.
Proof.
  unfold qsum. induction 1 as [|x l l' _ IH|x y l|l l' l'' _ IH1 _ IH2]; cbn [fold_right]; [reflexivity|rewrite IH; reflexivity|ring|].
  now rewrite IH1.
Qed.
Lemma qre_perm v : length v = m -> Permutation (qreordered p v) v.
Proof.
  intros L. rewrite <- (qre_seq v L) at 2. unfold qreordered. apply Permutation_map. exact HP.
Qed.
Lemma planar_reordered v : length v = m -> planar_row (qreordered p v) = qreordered p (planar_row v).
Proof.
  intros L. unfold planar_row. rewrite <- (qre_map (fun x => Qred (x / qsum v)) v L). apply map_ext. intros x.
  apply Qred_complete. rewrite (qsum_perm _ _ (qre_perm v L)). reflexivity.
Qed.
Lemma fix_reordered w : length w = m -> fix_weights (qreordered p w) = qreordered p (fix_weights w).
Proof. intros L. apply (qre_map _ w L). Qed.
Lemma zip2_length {A B C} (f : A -> B -> C) : forall u v, length (zip2 f u v) = Nat.min (length u) (length v).
Proof. induction u as [|x u IH]; intros [|y v]; cbn [zip2 length Nat.min]; auto. Qed.
Lemma zip2_nth (f : Q -> Q -> Q) : forall u v j, j < length u -> j < length v -> nth j (zip2 f u v) 0%Q = f (nth j u 0%Q) (nth j v 0%Q).
Proof.
  induction u as [|x u IH]; intros [|y v] [|j]; cbn [zip2 length nth]; try lia; [reflexivity|]. intros H H'. apply IH; lia.
Qed.
Lemma zip2_map {A} (f : Q -> Q -> Q) (g h : A -> Q) l : zip2 f (map g l) (map h l) = map (fun a => f (g a) (h a)) l.
Proof. induction l as [|a l IH]; cbn [map zip2]; congruence. Qed.
Lemma zip2_reordered f u v : length u = m -> length v = m -> zip2 f (qreordered p u) (qreordered p v) = qreordered p (zip2 f u v).
Proof.
  intros Lu Lv. unfold qreordered. rewrite zip2_map. apply map_ext_in. intros j Hj. apply pbound in Hj. symmetry. apply zip2_nth; lia.
Qed.
Lemma sqdist_reordered u v : length u = m -> length v = m -> (sqdist (qreordered p u) (qreordered p v) == sqdist u v)%Q.
Proof.
  intros Lu Lv. unfold sqdist. rewrite zip2_reordered by auto. apply qsum_perm, qre_perm. rewrite zip2_length. lia.
Qed.

Context (argsort : list Q -> list nat) {M : Type} (fitness fitness' : M -> list Q) (SF : list Q -> list Q -> list Q -> Q).
Context (pick : nat -> nat -> nat -> nat * nat) (offspring : nat -> nat -> M -> M -> list M -> M) (new_ideal new_ideal' : list Q -> M -> list Q).
(** Sorting looks only at the values of the numbers. *)
Hypothesis argsort_values : forall l l', Forall2 Qeq l l' -> argsort l = argsort l'.
(** The same solutions, objectives listed in the order [p]. *)
Hypothesis fit_length : forall x, length (fitness x) = m.
Hypothesis fit_reordered : forall x, fitness' x = qreordered p (fitness x).
Hypothesis ideal_reordered : forall z x, length z = m -> length (new_ideal z x) = m /\ new_ideal' (qreordered p z) x = qreordered p (new_ideal z x).
(** The scalarising function does not distinguish objectives (Tchebycheff, PBI, weighted sum). *)
Hypothesis SF_symmetric : forall f w z, length f = m -> length w = m -> length z = m -> (SF (qreordered p f) (qreordered p w) (qreordered p z) == SF f w z)%Q.

Lemma Qle_bool_eq x y x' y' : (x' == x)%Q -> (y' == y)%Q -> Qle_bool x' y' = Qle_bool x y.
Proof. intros -> ->. reflexivity. Qed.
Lemma outperformed_reordered z off : length z = m -> length off = m -> forall nb cur ws,
  (forall f, In f cur -> length f = m) -> (forall w, In w ws -> length w = m) ->
  outperformed SF nb (map (qreordered p) cur) (map (qreordered p) ws) (qreordered p off) (qreordered p z) = outperformed SF nb cur ws off z.
Proof.
  intros Hz Ho. induction nb as [|j nb IH]; intros cur ws Hc Hw; [reflexivity|]. destruct cur as [|f cur]; [reflexivity|].
  destruct ws as [|w ws]; [reflexivity|]. cbn [map outperformed].
  rewrite (IH cur ws (fun f Hf => Hc f (or_intror Hf)) (fun w Hw' => Hw w (or_intror Hw'))).
  assert (Lw : length w = m) by (apply Hw; left; reflexivity). assert (Lf : length f = m) by (apply Hc; left; reflexivity).
  rewrite (fix_reordered w Lw). assert (Lx : length (fix_weights w) = m) by (unfold fix_weights; rewrite map_length; exact Lw).
  rewrite (Qle_bool_eq _ _ _ _ (SF_symmetric f (fix_weights w) z Lf Lx Hz) (SF_symmetric off (fix_weights w) z Ho Lx Hz)). reflexivity.
Qed.
Lemma take_reordered nb : forall l : list (list Q), take_all (map (qreordered p) l) nb = bind (take_all l nb) (fun u => Ok (map (qreordered p) u)).
Proof.
  induction nb as [|j nb IH]; intros l; cbn [take_all]; [reflexivity|]. rewrite nth_error_map. destruct (nth_error l j); cbn [option_map bind]; [|reflexivity].
  rewrite IH. destruct (take_all l nb); reflexivity.
Qed.
Lemma take_in {A} nb : forall (l u : list A), take_all l nb = Ok u -> forall x, In x u -> In x l.
Proof.
  induction nb as [|j nb IH]; intros l u H x Hx; cbn [take_all] in H; [injection H as <-; destruct Hx|].
  destruct (nth_error l j) as [y|] eqn:E; [|discriminate]. destruct (take_all l nb) as [r|] eqn:T; [|discriminate]. cbn [bind] in H. injection H as <-.
  destruct Hx as [<-|Hx]; [apply nth_error_In in E; exact E|apply (IH l r T x Hx)].
Qed.
Definition rows_ok (l : list (list Q)) : Prop := forall w, In w l -> length w = m.
Lemma do_reordered vs nbs z pop i : rows_ok vs -> length z = m ->
  moead_do fitness' SF (map (qreordered p) vs) nbs (qreordered p z) pop i = moead_do fitness SF vs nbs z pop i.
Proof.
  intros Hv Hz. unfold moead_do. destruct (nth_error nbs i) as [nb|]; [|reflexivity].
  assert (E : map fitness' pop = map (qreordered p) (map fitness pop)) by (rewrite map_map; apply map_ext; intros; apply fit_reordered). rewrite E, !take_reordered. destruct (take_all (map fitness pop) nb) as [u|] eqn:T; cbn [bind]; [|reflexivity].
  destruct (rev pop) as [|off r]; [reflexivity|]. destruct (take_all vs nb) as [ws|] eqn:W; cbn [bind]; [|reflexivity]. f_equal. rewrite fit_reordered.
  apply outperformed_reordered; auto.
  - intros f Hf. apply (take_in _ _ _ T) in Hf. apply in_map_iff in Hf. destruct Hf as (x & <- & _). apply fit_length.
  - intros w Hw. apply (take_in _ _ _ W) in Hw. apply Hv, Hw.
Qed.

(** The operator and the state of a run with reordered objectives. *)
Definition reordered_op (o : mop) : mop := mkMop (map (qreordered p) (mo_init o)) (map (qreordered p) (mo_planar o)) (mo_rows o) (mo_nobj o) (mo_nn o) (mo_nbs o).
Definition reordered_run (s : mrun M) : mrun M := mkMRun (reordered_op (mr_op s)) (qreordered p (mr_ideal s)) (mr_pop s) (mr_gens s) (mr_tried s).
(** Vectors and ideal point have one component per objective. *)
Definition shaped_op (o : mop) : Prop := rows_ok (mo_init o) /\ rows_ok (mo_planar o).
Definition shaped_run (s : mrun M) : Prop := shaped_op (mr_op s) /\ length (mr_ideal s) = m.

Lemma nbs_reordered pl nn : rows_ok pl -> nbs_of argsort (map (qreordered p) pl) nn = nbs_of argsort pl nn.
Proof.
  intros H. unfold nbs_of, neighborhoods_of. rewrite map_length. apply map_ext_in. intros i Hi. f_equal. apply argsort_values.
  assert (X : forall l, (forall j, In j l -> j < length pl) -> Forall2 Qeq (map (fun j => sqdist (nth i (map (qreordered p) pl) []) (nth j (map (qreordered p) pl) [])) l) (map (fun j => sqdist (nth i pl []) (nth j pl [])) l)).
  { assert (N : forall j, j < length pl -> nth j (map (qreordered p) pl) [] = qreordered p (nth j pl []) /\ length (nth j pl []) = m).
    { intros j Hj. split; [|apply H, nth_In, Hj]. rewrite (nth_indep (map (qreordered p) pl) [] (qreordered p [])) by (rewrite map_length; exact Hj). apply map_nth. }
    apply in_seq in Hi. destruct (N i ltac:(lia)) as [Ei Li]. rewrite Ei.
    induction l as [|j l IH]; intros Hl; cbn [map]; [constructor|]. constructor; [|apply IH; intros; apply Hl; right; auto].
    destruct (N j (Hl j (or_introl eq_refl))) as [Ej Lj]. rewrite Ej. apply sqdist_reordered; auto. }
  apply X. intros j Hj. apply in_seq in Hj. lia.
Qed.
Lemma rows_planar l : rows_ok l -> rows_ok (map planar_row l) /\ map planar_row (map (qreordered p) l) = map (qreordered p) (map planar_row l).
Proof.
  intros H. split.
  - intros w Hw. apply in_map_iff in Hw. destruct Hw as (v & <- & Hv). unfold planar_row. rewrite map_length. apply H, Hv.
  - rewrite !map_map. apply map_ext_in. intros v Hv. apply planar_reordered, H, Hv.
Qed.
Lemma adapt_reordered o : shaped_op o -> mop_adapt argsort (reordered_op o) = reordered_op (mop_adapt argsort o) /\ shaped_op (mop_adapt argsort o).
Proof.
  intros (Hi & Hp). destruct (rows_planar _ Hp) as [R1 R2]. unfold mop_adapt, reordered_op, shaped_op. cbn [mo_init mo_planar mo_rows mo_nobj mo_nn mo_nbs].
  rewrite R2, map_length, nbs_reordered by auto. auto.
Qed.
Lemma subs_reordered is : forall s, shaped_run s ->
  match mr_subproblems fitness SF pick offspring new_ideal is s with
  | Ok t => mr_subproblems fitness' SF pick offspring new_ideal' is (reordered_run s) = Ok (reordered_run t) /\ shaped_run t
  | Err e => mr_subproblems fitness' SF pick offspring new_ideal' is (reordered_run s) = Err e
  end.
Proof.
  induction is as [|i is IH]; intros s (Ho & Hz); cbn [mr_subproblems]; [split; [reflexivity|split; auto]|].
  change (mr_op (reordered_run s)) with (reordered_op (mr_op s)); change (mr_ideal (reordered_run s)) with (qreordered p (mr_ideal s)); change (mr_pop (reordered_run s)) with (mr_pop s); change (mr_gens (reordered_run s)) with (mr_gens s); change (mr_tried (reordered_run s)) with (mr_tried s). change (mo_planar (reordered_op (mr_op s))) with (map (qreordered p) (mo_planar (mr_op s))). change (mo_nbs (reordered_op (mr_op s))) with (mo_nbs (mr_op s)).
  unfold subproblem. destruct (choose_parents _ _ _) as [[a b]|e]; cbn [bind fst snd]; [|reflexivity].
  destruct (nth_error (mr_pop s) a) as [x|]; [|reflexivity]. destruct (nth_error (mr_pop s) b) as [y|]; [|reflexivity].
  set (off := offspring (mr_gens s) i x y (mr_pop s)). destruct (ideal_reordered (mr_ideal s) off Hz) as [Lz Ez]. rewrite Ez.
  rewrite do_reordered; [|apply Ho|exact Lz]. destruct (moead_do fitness SF _ _ _ _ i) as [sel|e]; cbn [bind fst snd]; [|reflexivity].
  match goal with |- match mr_subproblems _ _ _ _ _ _ ?s1 with _ => _ end => specialize (IH s1) end. apply IH. split; [exact Ho|exact Lz].
Qed.
Lemma gens_reordered ps k : forall s, shaped_run s ->
  match mr_gens_loop fitness SF pick offspring new_ideal ps k s with
  | Ok t => mr_gens_loop fitness' SF pick offspring new_ideal' ps k (reordered_run s) = Ok (reordered_run t) /\ shaped_run t
  | Err e => mr_gens_loop fitness' SF pick offspring new_ideal' ps k (reordered_run s) = Err e
  end.
Proof.
  induction k as [|k IH]; intros s H; cbn [mr_gens_loop]; [auto|]. unfold mr_gen. pose proof (subs_reordered (seq 0 ps) s H) as X.
  destruct (mr_subproblems fitness _ _ _ _ _ s) as [t|e]; [destruct X as [X Y]|]; rewrite X; cbn [bind]; [|reflexivity].
  apply (IH (mkMRun (mr_op t) (mr_ideal t) (mr_pop t) (S (mr_gens t)) (mr_tried t))). exact Y.
Qed.
(** C122. A run of MOEA/D in which no preference is given (interactive or not), the objectives listed in another order, with the reference vectors and the ideal point reordered alike:
    the same population, the same solutions tried for the same subproblems, the same neighbourhoods and the same exception if any; the ideal point comes out reordered alike. *)
Theorem C122_moead_objectives : forall interact pop_size ks s, shaped_run s ->
  match mr_run argsort fitness SF pick offspring new_ideal interact pop_size (map (fun k => (None, k)) ks) s with
  | Ok t => mr_run argsort fitness' SF pick offspring new_ideal' interact pop_size (map (fun k => (None, k)) ks) (reordered_run s) = Ok (reordered_run t)
  | Err e => mr_run argsort fitness' SF pick offspring new_ideal' interact pop_size (map (fun k => (None, k)) ks) (reordered_run s) = Err e
  end.
Proof.
  intros interact ps. induction ks as [|k ks IH]; intros s (Ho & Hz); cbn [map mr_run]; [reflexivity|]. unfold mr_iterate.
  assert (A : exists o', (if interact then Ok (mop_adapt argsort (mr_op s)) else Ok (mop_adapt argsort (mop_adapt argsort (mr_op s)))) = Ok o' /\ shaped_op o' /\
    (if interact then Ok (mop_adapt argsort (reordered_op (mr_op s))) else Ok (mop_adapt argsort (mop_adapt argsort (reordered_op (mr_op s))))) = Ok (reordered_op o')).
  { destruct (adapt_reordered _ Ho) as [E1 S1]. destruct (adapt_reordered _ S1) as [E2 S2]. destruct interact; rewrite E1; [|rewrite E2]; eauto. }
  destruct A as (o' & A1 & A2 & A3). change (mr_op (reordered_run s)) with (reordered_op (mr_op s)); change (mr_ideal (reordered_run s)) with (qreordered p (mr_ideal s)); change (mr_pop (reordered_run s)) with (mr_pop s); change (mr_gens (reordered_run s)) with (mr_gens s); change (mr_tried (reordered_run s)) with (mr_tried s). rewrite A1, A3. cbn [bind].
  pose proof (gens_reordered ps k (mkMRun o' (mr_ideal s) (mr_pop s) (mr_gens s) (mr_tried s)) (conj A2 Hz)) as X.
  change (mkMRun (reordered_op o') (qreordered p (mr_ideal s)) (mr_pop s) (mr_gens s) (mr_tried s)) with (reordered_run (mkMRun o' (mr_ideal s) (mr_pop s) (mr_gens s) (mr_tried s))).
  destruct (mr_gens_loop fitness _ _ _ _ _ _ _) as [t|e]; [destruct X as [X Y]|]; rewrite X; cbn [bind]; [|reflexivity]. apply IH. exact Y.
Qed.
End P.

Print Assumptions C122_moead_objectives.

(** Non-vacuity: the Tchebycheff function, the running minimum and the reference sort meet the hypotheses. *)
Definition tq (q : Q * (Q * Q)) : Q := (fst q * (fst (snd q) - snd (snd q)))%Q.
Definition qtop (l : list Q) : Q := fold_right (fun x acc => if Qle_bool x acc then acc else x) 0%Q l.
Lemma tcheb_top f w z : tcheb f w z = qtop (map tq (combine w (combine f z))).
Proof. unfold tcheb, qtop. induction (combine w (combine f z)) as [|q l IH]; cbn [map fold_right]; [reflexivity|]. rewrite IH. reflexivity. Qed.
Lemma qtop_step x y a b : (x == y)%Q -> (a == b)%Q -> ((if Qle_bool x a then a else x) == (if Qle_bool y b then b else y))%Q.
Proof. intros E F. rewrite (Qle_bool_eq y b x a E F). destruct (Qle_bool y b); auto. Qed.
Lemma qtop_perm l l' : Permutation l l' -> (qtop l == qtop l')%Q.
Proof.
  unfold qtop. induction 1 as [|x l l' _ IH|x y l|l l' l'' _ IH1 _ IH2]; cbn [fold_right]; [reflexivity|apply qtop_step; [reflexivity|exact IH]| |now rewrite IH1].
  set (a := fold_right _ _ l). clearbody a.
  destruct (Qle_bool x a) eqn:A; destruct (Qle_bool y a) eqn:B; try rewrite A; try rewrite B; try reflexivity.
  - destruct (Qle_bool x y) eqn:C; [reflexivity|]. exfalso. apply Bool.not_true_iff_false in C. apply C, Qle_bool_iff.
    apply Qle_bool_iff in A. assert (a < y)%Q by (apply Qnot_le_lt; intros X; apply Qle_bool_iff in X; congruence). apply Qle_trans with a; [exact A|]. apply Qlt_le_weak; auto.
  - destruct (Qle_bool y x) eqn:C; [reflexivity|]. exfalso. apply Bool.not_true_iff_false in C. apply C, Qle_bool_iff.
    apply Qle_bool_iff in B. assert (a < x)%Q by (apply Qnot_le_lt; intros X; apply Qle_bool_iff in X; congruence). apply Qle_trans with a; [exact B|]. apply Qlt_le_weak; auto.
  - destruct (Qle_bool y x) eqn:C, (Qle_bool x y) eqn:D; try reflexivity.
    + apply Qle_bool_iff in C, D. apply Qle_antisym; auto.
    + exfalso. assert (x < y)%Q by (apply Qnot_le_lt; intros X; apply Qle_bool_iff in X; congruence).
      assert (y < x)%Q by (apply Qnot_le_lt; intros X; apply Qle_bool_iff in X; congruence). apply (Qlt_irrefl x). apply Qlt_trans with y; auto.
Qed.
Lemma combine_map2 {A} (g h : A -> Q) l : combine (map g l) (map h l) = map (fun a => (g a, h a)) l.
Proof. induction l as [|a l IH]; cbn [map combine]; congruence. Qed.
Lemma combine_map3 {A} (g : A -> Q) (h : A -> Q * Q) l : combine (map g l) (map h l) = map (fun a => (g a, h a)) l.
Proof. induction l as [|a l IH]; cbn [map combine]; congruence. Qed.
Example ex_tcheb_symmetric : forall p m f w z, Permutation p (seq 0 m) -> length f = m -> length w = m -> length z = m ->
  (tcheb (qreordered p f) (qreordered p w) (qreordered p z) == tcheb f w z)%Q.
Proof.
  intros p m f w z HP Lf Lw Lz. rewrite !tcheb_top. rewrite <- (qre_seq p m HP f Lf) at 2. rewrite <- (qre_seq p m HP w Lw) at 2. rewrite <- (qre_seq p m HP z Lz) at 2.
  unfold qreordered. rewrite !combine_map2, !combine_map3, !map_map. apply qtop_perm, Permutation_map, HP.
Qed.
Example ex_minimum_reordered : forall p m z x, Permutation p (seq 0 m) -> length x = m -> length z = m ->
  length (vmin2 z x) = m /\ vmin2 (qreordered p z) (qreordered p x) = qreordered p (vmin2 z x).
Proof.
  intros p m z x HP Lx Lz. assert (E : forall u v, vmin2 u v = zip2 (fun a b => if Qle_bool a b then a else b) u v).
  { induction u as [|a u IH]; intros [|b v]; try reflexivity. unfold vmin2 in *. cbn [combine map zip2 fst snd]. f_equal. apply IH. }
  rewrite !E. split; [rewrite zip2_length; lia|]. apply (zip2_reordered p m HP); auto.
Qed.
Example ex_sort_values : forall l l', Forall2 Qeq l l' -> ref_argsort l = ref_argsort l'.
Proof.
  intros l l' H. unfold ref_argsort. assert (L : length l = length l') by (induction H; cbn [length]; congruence). rewrite L.
  assert (N : forall i, (nth i l 0 == nth i l' 0)%Q) by (intros i; clear L; revert i; induction H as [|x y l l' E H IH]; intros [|i]; cbn [nth]; try reflexivity; auto).
  assert (I0 : forall i s, ins l i s = ins l' i s).
  { intros i s. induction s as [|j s IH]; cbn [ins]; [reflexivity|]. rewrite (Qle_bool_eq _ _ _ _ (N i) (N j)). rewrite IH. reflexivity. }
  clear L. induction (seq 0 (length l')) as [|i s IH]; cbn [fold_right]; [reflexivity|]. rewrite IH. apply I0.
Qed.
(** A run: three members, two objectives swapped. *)
Definition ex_s : mrun (list Q) := mkMRun (mop_new ref_argsort [[1; 0]; [1#2; 1#2]; [0; 1]]%Q 2 2) [0; 0]%Q [[5; 0]; [3; 3]; [0; 4]]%Q 0 [].
Example ex_shaped : shaped_run 2 ex_s /\ Permutation [1; 0] (seq 0 2) /\
  mr_op (reordered_run [1; 0] ex_s) <> mr_op ex_s /\
  exists t, mr_run ref_argsort (fun x : list Q => x) tcheb (fun _ _ _ => (0, 1)) (fun _ _ a _ _ => map (fun x => Qred (x / 2)) a) vmin2 false 3 [(None, 2)] ex_s = Ok t /\ mr_pop t <> mr_pop ex_s.
Proof.
  split; [repeat split; intros w Hw; cbn in Hw; intuition (subst; reflexivity)|]. split; [apply perm_swap|]. split; [discriminate|].
  eexists. split; [vm_compute; reflexivity|]. discriminate.
Qed.
