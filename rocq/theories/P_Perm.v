(** Lemmas for C122: the order of the individuals, and of the objectives. *)
From Verif Require Import Base RVec M_APD Spec_APD P_APD.
From Coq Require Import Reals Lra Lia Permutation.
Open Scope R_scope.

Lemma vmin_comm : forall a b, vmin a b = vmin b a.
Proof. unfold vmin. induction a as [|x a IH]; intros [|y b]; cbn [vmap2]; try reflexivity. rewrite IH, Rmin_comm. reflexivity. Qed.
Lemma vmin_assoc : forall a b c, vmin a (vmin b c) = vmin (vmin a b) c.
Proof. unfold vmin. induction a as [|x a IH]; intros [|y b] [|w c]; cbn [vmap2]; try reflexivity. rewrite IH, Rmin_assoc. reflexivity. Qed.
Lemma fold_vmin_out t : forall a b, fold_left vmin t (vmin a b) = vmin a (fold_left vmin t b).
Proof. induction t as [|x t IH]; intros a b; cbn [fold_left]; [reflexivity|]. rewrite <- vmin_assoc. apply IH. Qed.
Lemma colmin_cons x l : colmin (x :: l) = Some (match colmin l with None => x | Some m => vmin x m end).
Proof. destruct l as [|y l]; [reflexivity|]. cbn [colmin fold_left]. rewrite fold_vmin_out. reflexivity. Qed.
Lemma colmin_perm l l' : Permutation l l' -> colmin l = colmin l'.
Proof.
  induction 1 as [|x l l' H IH|x y l|l l' l'' H IH H' IH']; [reflexivity| | |congruence].
  - rewrite !colmin_cons, IH. reflexivity.
  - rewrite !colmin_cons. destruct (colmin l) as [m|]; f_equal; [rewrite !vmin_assoc, (vmin_comm x y); reflexivity|apply vmin_comm].
Qed.

Lemma map_filter {A B} (g : A -> B) (q : B -> bool) l : map g (filter (fun i => q (g i)) l) = filter q (map g l).
Proof. induction l as [|x l IH]; cbn [map filter]; [reflexivity|]. destruct (q (g x)); cbn [map]; rewrite IH; reflexivity. Qed.
Lemma map_nth_seq {A} (d : A) l : map (fun i => nth i l d) (seq 0 (length l)) = l.
Proof.
  induction l as [|x l IH]; [reflexivity|]. cbn [length seq map nth]. f_equal. rewrite <- seq_shift, map_map. exact IH.
Qed.
Lemma filter_in_ext {A} (f g : A -> bool) l : (forall x, In x l -> f x = g x) -> filter f l = filter g l.
Proof. induction l as [|x l IH]; intros H; cbn [filter]; [reflexivity|]. rewrite (H x (or_introl eq_refl)), IH by (intros; apply H; right; auto). reflexivity. Qed.
Lemma perm_filter {A} (f : A -> bool) l l' : Permutation l l' -> Permutation (filter f l) (filter f l').
Proof.
  induction 1 as [|x l l' H IH|x y l|l l' l'' H IH H' IH']; cbn [filter]; [constructor| | |eapply Permutation_trans; eauto].
  - destruct (f x); auto.
  - destruct (f x), (f y); auto. constructor.
Qed.
Lemma perm_existsb {A} (f : A -> bool) l l' : Permutation l l' -> existsb f l = existsb f l'.
Proof.
  intros H. destruct (existsb f l) eqn:E; symmetry.
  - apply existsb_exists in E. destruct E as (x & H1 & H2). apply existsb_exists. exists x. split; [apply (Permutation_in _ H); auto|auto].
  - destruct (existsb f l') eqn:E'; [|reflexivity]. apply existsb_exists in E'. destruct E' as (x & H1 & H2).
    assert (existsb f l = true) by (apply existsb_exists; exists x; split; [apply (Permutation_in _ (Permutation_sym H)); auto|auto]). congruence.
Qed.
(** The smallest element of a non-empty list is the same for every order. *)
Lemma rmin_list_perm v l v' l' : Permutation (v :: l) (v' :: l') -> rmin_list v l = rmin_list v' l'.
Proof.
  intros H. destruct (rmin_list_le v l) as (A & B & C0). destruct (rmin_list_le v' l') as (A' & B' & C').
  assert (C1 : In (rmin_list v l) (v :: l)) by (destruct C0 as [->|C0]; [left; reflexivity|right; exact C0]).
  assert (C2 : In (rmin_list v' l') (v' :: l')) by (destruct C' as [->|C']; [left; reflexivity|right; exact C']).
  assert (D : forall x, In x (v :: l) -> rmin_list v l <= x) by (intros x [<-|Hx]; auto).
  assert (D' : forall x, In x (v' :: l') -> rmin_list v' l' <= x) by (intros x [<-|Hx]; auto).
  apply Rle_antisym; [apply D; apply (Permutation_in _ (Permutation_sym H)); exact C2|apply D'; apply (Permutation_in _ H); exact C1].
Qed.

(** ** The choice for one vector, on the individuals themselves *)
Section Choice.
Context (penalty : R) (vecs : list (list R)) (gam : list R) (z : list R) (con : bool).
Notation item := (list R * list R)%type.
Notation dflt := (@nil R, @nil R).
Definition near (k : nat) (a : item) : bool := Nat.eqb (assigned vecs (vsub (fst a) z)) k.
Definition value (k : nat) (a : item) : R :=
  norm (vsub (fst a) z) * (1 + penalty * (acos (cosine (vsub (fst a) z) (row vecs k)) / zero_eps (nth k gam 0))).
Definition viol (a : item) : R := rsum (violation (snd a)).
Definition screened (l : list item) : list item :=
  if con then
    if Nat.ltb 1 (length l) then
      if existsb (fun a => feasible_row (snd a)) l then filter (fun a => feasible_row (snd a)) l
      else match map viol l with [] => [] | v :: vs => filter (fun a => if Req_EM_T (viol a) (rmin_list v vs) then true else false) l end
    else l
  else l.
Definition winner (k : nat) (l : list item) : list item :=
  match l with
  | [] => [] | [a] => [a]
  | l => match argmin (map (value k) l) with Some j => [nth j l dflt] | None => [] end
  end.
Definition cons_of (pop : list item) : option (list (list R)) := if con then Some (map snd pop) else None.
Definition trs_of (pop : list item) : list (list R) := map (fun f => vsub f z) (map fst pop).
Definition at_ (pop : list item) (i : nat) : item := nth i pop dflt.

Lemma row_trs pop i : (i < length pop)%nat -> row (trs_of pop) i = vsub (fst (at_ pop i)) z.
Proof.
  intros H. unfold row, trs_of, at_. rewrite map_map. rewrite (nth_indep _ [] (vsub (fst dflt) z)) by (rewrite map_length; auto). apply (map_nth (fun a => vsub (fst a) z)).
Qed.
Lemma row_cons pop i : row (map snd pop) i = snd (at_ pop i).
Proof. unfold row, at_. apply (map_nth snd pop dflt). Qed.
Lemma niche_values pop k : map (at_ pop) (niche vecs (trs_of pop) k) = filter (near k) pop.
Proof.
  unfold niche, trs_of. rewrite !map_length. fold (trs_of pop).
  rewrite (filter_in_ext _ (fun i => near k (at_ pop i))).
  - rewrite (map_filter (at_ pop) (near k)). unfold at_. rewrite map_nth_seq. reflexivity.
  - intros i Hi. apply in_seq in Hi. unfold near. rewrite row_trs by lia. reflexivity.
Qed.
Lemma niche_range pop k i : In i (niche vecs (trs_of pop) k) -> (i < length pop)%nat.
Proof. unfold niche, trs_of. rewrite !map_length. intros H. apply filter_In in H. destruct H as [H _]. apply in_seq in H. lia. Qed.
Lemma screened_values pop sub : map (at_ pop) (constraint_filter (cons_of pop) sub) = screened (map (at_ pop) sub).
Proof.
  unfold constraint_filter, cons_of, screened. destruct con; [|reflexivity]. rewrite map_length. destruct (Nat.ltb 1 (length sub)); [|reflexivity].
  assert (E : existsb (fun i => feasible_row (row (map snd pop) i)) sub = existsb (fun a => feasible_row (snd a)) (map (at_ pop) sub)).
  { induction sub as [|i sub IH]; cbn [existsb map]; [reflexivity|]. rewrite row_cons, IH. reflexivity. }
  rewrite E. destruct (existsb _ (map (at_ pop) sub)).
  - rewrite (filter_in_ext _ (fun i => feasible_row (snd (at_ pop i)))) by (intros i _; rewrite row_cons; reflexivity). apply (map_filter (at_ pop) (fun a => feasible_row (snd a))).
  - rewrite map_map. rewrite (map_ext (fun i => rsum (violation (row (map snd pop) i))) (fun i => viol (at_ pop i))) by (intros i; rewrite row_cons; reflexivity).
    destruct (map (fun i => viol (at_ pop i)) sub) as [|v vs]; [reflexivity|].
    rewrite (filter_in_ext _ (fun i => if Req_EM_T (viol (at_ pop i)) (rmin_list v vs) then true else false)) by (intros i _; rewrite row_cons; reflexivity).
    apply (map_filter (at_ pop) (fun a => if Req_EM_T (viol a) (rmin_list v vs) then true else false)).
Qed.
Lemma screened_sub sub cons i : In i (constraint_filter cons sub) -> In i sub.
Proof.
  unfold constraint_filter. destruct cons as [c|]; [|auto]. destruct (Nat.ltb 1 (length sub)); [|auto]. destruct (existsb _ sub); [intros H; apply filter_In in H; tauto|].
  destruct (map _ sub); [intros []|]. intros H. apply filter_In in H. tauto.
Qed.
Lemma choose_values pop k : map (at_ pop) (choose penalty vecs (trs_of pop) gam (cons_of pop) k) = winner k (screened (filter (near k) pop)).
Proof.
  rewrite <- niche_values, <- screened_values. unfold choose. pose proof (screened_sub (niche vecs (trs_of pop) k) (cons_of pop)) as S0.
  destruct (constraint_filter (cons_of pop) (niche vecs (trs_of pop) k)) as [|a [|b sub]]; [reflexivity..|]. set (l := a :: b :: sub) in *.
  assert (E : map (apd penalty vecs (trs_of pop) gam k) l = map (value k) (map (at_ pop) l)).
  { rewrite map_map. apply map_ext_in. intros i Hi. unfold apd, value. rewrite row_trs by (apply (niche_range pop k); apply S0; exact Hi). reflexivity. }
  unfold winner. change (map (at_ pop) l) with (at_ pop a :: at_ pop b :: map (at_ pop) sub) at 1. cbv iota. change (at_ pop a :: at_ pop b :: map (at_ pop) sub) with (map (at_ pop) l).
  change (match l with [] => [] | [i] => [i] | _ :: _ :: _ => match argmin (map (apd penalty vecs (trs_of pop) gam k) l) with Some j => [nth j l 0%nat] | None => [] end end)
    with (match argmin (map (apd penalty vecs (trs_of pop) gam k) l) with Some j => [nth j l 0%nat] | None => [] end).
  rewrite E. destruct (argmin (map (value k) (map (at_ pop) l))) as [j|] eqn:A; [|reflexivity]. cbn [map]. f_equal. apply argmin_lt in A. rewrite !map_length in A.
  rewrite (nth_indep (map (at_ pop) l) dflt (at_ pop 0%nat)) by (rewrite map_length; exact A). symmetry. apply (map_nth (at_ pop)).
Qed.
Lemma screened_perm l l' : Permutation l l' -> Permutation (screened l) (screened l').
Proof.
  intros H. unfold screened. destruct con; [|exact H]. rewrite (Permutation_length H). destruct (Nat.ltb 1 (length l')); [|exact H].
  rewrite (perm_existsb _ _ _ H). destruct (existsb _ l'); [apply perm_filter; exact H|].
  pose proof (Permutation_map viol H) as Hm. destruct (map viol l) as [|v vs] eqn:E, (map viol l') as [|v' vs'] eqn:E'.
  - constructor.
  - apply Permutation_nil in Hm. discriminate.
  - apply Permutation_sym, Permutation_nil in Hm. discriminate.
  - rewrite (rmin_list_perm v vs v' vs' Hm). apply perm_filter. exact H.
Qed.
Lemma screened_In a l : In a (screened l) -> In a l.
Proof.
  unfold screened. destruct con; [|auto]. destruct (Nat.ltb 1 (length l)); [|auto]. destruct (existsb _ l); [intros H; apply filter_In in H; tauto|].
  destruct (map viol l); [intros []|]. intros H. apply filter_In in H. tauto.
Qed.
Lemma winner_min k l : l <> [] -> exists a, winner k l = [a] /\ In a l /\ forall b, In b l -> value k a <= value k b.
Proof.
  destruct l as [|a [|b t]]; intros N; [congruence|exists a; split; [reflexivity|]; split; [left; reflexivity|intros c [<-|[]]; lra]|]. set (l := a :: b :: t) in *.
  destruct (argmin_some (map (value k) l)) as (j & A); [discriminate|]. destruct (argmin_spec _ _ A) as (v & V & Mn & _). rewrite nth_error_map in V. destruct (nth_error l j) as [w|] eqn:W; [|discriminate V].
  injection V as <-. exists w. split; [|split; [apply (nth_error_In _ _ W)|intros c Hc; apply Mn; apply in_map; exact Hc]].
  unfold winner. unfold l at 1. cbv iota. fold l. rewrite A. rewrite (nth_error_nth l j dflt W). reflexivity.
Qed.
Lemma winner_perm k l l' : Permutation l l' -> (forall a b, In a l -> In b l -> value k a = value k b -> a = b) -> winner k l = winner k l'.
Proof.
  intros H U. destruct l as [|x l]; [apply Permutation_nil in H; subst; reflexivity|]. destruct l' as [|x' l']; [apply Permutation_sym, Permutation_nil in H; discriminate|].
  destruct (winner_min k (x :: l)) as (a & E & I0 & Mn); [discriminate|]. destruct (winner_min k (x' :: l')) as (b & E' & I' & Mn'); [discriminate|]. rewrite E, E'. f_equal.
  pose proof (Permutation_in _ (Permutation_sym H) I') as Hb. pose proof (Permutation_in _ H I0) as Ha. apply U; auto. apply Rle_antisym; auto.
Qed.
End Choice.

(** ** Objectives in another order *)
Definition relabel (p : list nat) (v : list R) : list R := map (fun j => nth j v 0) p.
Lemma rsum_perm l l' : Permutation l l' -> rsum l = rsum l'.
Proof. induction 1 as [|x l l' H IH|x y l|l l' l'' H IH H' IH']; cbn [rsum]; [reflexivity|rewrite IH; reflexivity|ring|congruence]. Qed.
Lemma rsum_shift (g : nat -> R) n : forall k, rsum (map g (seq (S k) n)) = rsum (map (fun j => g (S j)) (seq k n)).
Proof. intros k. rewrite <- seq_shift, map_map. reflexivity. Qed.
Lemma dot_sum : forall u v, length u = length v -> dot u v = rsum (map (fun j => nth j u 0 * nth j v 0) (seq 0 (length u))).
Proof.
  induction u as [|x u IH]; intros [|y v] H; cbn [length] in *; try discriminate; [reflexivity|]. injection H as H. cbn [dot seq map rsum]. rewrite rsum_shift. cbn [nth]. rewrite (IH v H). reflexivity.
Qed.
Lemma dot_relabel_sum p u v : dot (relabel p u) (relabel p v) = rsum (map (fun j => nth j u 0 * nth j v 0) p).
Proof. unfold relabel. induction p as [|j p IH]; cbn [map dot rsum]; [reflexivity|]. rewrite IH. reflexivity. Qed.
Lemma dot_relabel p m u v : Permutation p (seq 0 m) -> length u = m -> length v = m -> dot (relabel p u) (relabel p v) = dot u v.
Proof. intros P Hu Hv. rewrite dot_relabel_sum, dot_sum by congruence. apply rsum_perm, Permutation_map. rewrite Hu. exact P. Qed.
Lemma norm_relabel p m u : Permutation p (seq 0 m) -> length u = m -> norm (relabel p u) = norm u.
Proof. intros P H. unfold norm. rewrite (dot_relabel p m u u P H H). reflexivity. Qed.
Lemma vmap2_relabel (f : R -> R -> R) p m u v : Permutation p (seq 0 m) -> length u = m -> length v = m -> vmap2 f (relabel p u) (relabel p v) = relabel p (vmap2 f u v).
Proof.
  intros P Hu Hv. assert (B : forall j, In j p -> (j < m)%nat) by (intros j Hj; apply (Permutation_in _ P) in Hj; apply in_seq in Hj; lia). clear P. unfold relabel.
  induction p as [|j p IH]; cbn [map vmap2]; [reflexivity|]. rewrite IH by (intros i Hi; apply B; right; exact Hi). f_equal.
  assert (Hj : (j < m)%nat) by (apply B; left; reflexivity). symmetry. apply nth_error_nth. rewrite vmap2_nth. rewrite (nth_error_nth' u 0) by lia. rewrite (nth_error_nth' v 0) by lia. reflexivity.
Qed.
Lemma relabel_length p v : length (relabel p v) = length p.
Proof. apply map_length. Qed.
Lemma map_relabel (f : R -> R) p v : f 0 = 0 -> map f (relabel p v) = relabel p (map f v).
Proof. intros F. unfold relabel. rewrite map_map. apply map_ext. intros j. rewrite <- F at 2. symmetry. apply (map_nth f). Qed.
Lemma fold_vmin_len m t : forall r, length r = m -> (forall f, In f t -> length f = m) -> length (fold_left vmin t r) = m.
Proof.
  induction t as [|x t IH]; intros r Hr Ht; cbn [fold_left]; [exact Hr|]. apply IH; [|intros; apply Ht; right; auto]. rewrite vmin_length; [exact Hr|]. rewrite Hr. symmetry. apply Ht. left. reflexivity.
Qed.
Lemma fold_vmin_relabel p m t : Permutation p (seq 0 m) -> forall r, length r = m -> (forall f, In f t -> length f = m) -> fold_left vmin (map (relabel p) t) (relabel p r) = relabel p (fold_left vmin t r).
Proof.
  intros P. induction t as [|x t IH]; intros r Hr Ht; cbn [map fold_left]; [reflexivity|]. unfold vmin at 2. rewrite (vmap2_relabel Rmin p m) by (auto; apply Ht; left; reflexivity). apply IH; [|intros; apply Ht; right; auto].
  fold vmin. rewrite vmin_length; [exact Hr|]. rewrite Hr. symmetry. apply Ht. left. reflexivity.
Qed.
Lemma cosine_relabel p m u v : Permutation p (seq 0 m) -> length u = m -> length v = m -> cosine (relabel p u) (relabel p v) = cosine u v.
Proof.
  intros P Hu Hv. unfold cosine, cosine_raw. rewrite (norm_relabel p m u P Hu), map_relabel by (unfold Rdiv; ring). rewrite (dot_relabel p m) by (auto; rewrite map_length; exact Hu). reflexivity.
Qed.
Lemma apd_select_relabel p m pen ideal pi fit cons vecs gam : Permutation p (seq 0 m) -> length ideal = m -> length pi = m ->
  (forall f, In f fit -> length f = m) -> (forall v, In v vecs -> length v = m) ->
  apd_select pen (relabel p ideal) (relabel p pi) (map (relabel p) fit) cons (map (relabel p) vecs) gam =
  bind (apd_select pen ideal pi fit cons vecs gam) (fun zs => Ok (relabel p (fst zs), snd zs)).
Proof.
  intros P Hi Hp Hf Hv. unfold apd_select, new_ideal. destruct fit as [|r t]; [reflexivity|]. cbn [map colmin]. change (relabel p r :: map (relabel p) t) with (map (relabel p) (r :: t)).
  rewrite (fold_vmin_relabel p m) by (auto; try (apply Hf; left; reflexivity); intros; apply Hf; right; auto).
  assert (Lm : length (fold_left vmin t r) = m) by (apply fold_vmin_len; [apply Hf; left; reflexivity|intros; apply Hf; right; auto]).
  set (w := fold_left vmin t r) in *. unfold vmin at 1 2. rewrite (vmap2_relabel Rmin p m ideal w) by auto. fold vmin. assert (Lw : length (vmin ideal w) = m) by (rewrite vmin_length; congruence).
  unfold vmin at 1. rewrite (vmap2_relabel Rmin p m (vmap2 Rmin ideal w) pi) by auto. fold vmin. set (z := vmin (vmin ideal w) pi). change (vmap2 Rmin (vmap2 Rmin ideal w) pi) with z. assert (Lz : length z = m) by (unfold z; rewrite vmin_length; congruence).
  cbn [bind fst snd]. f_equal. f_equal. set (fit := r :: t) in *.
  assert (E : map (fun f => vsub f (relabel p z)) (map (relabel p) fit) = map (relabel p) (map (fun f => vsub f z) fit)).
  { rewrite !map_map. apply map_ext_in. intros f Hin. unfold vsub. apply (vmap2_relabel Rminus p m); auto. }
  change (flat_map (choose pen (map (relabel p) vecs) (map (fun f => vsub f (relabel p z)) (map (relabel p) fit)) gam cons) (seq 0 (length (map (relabel p) vecs))) = flat_map (choose pen vecs (map (fun f => vsub f z) fit) gam cons) (seq 0 (length vecs))).
  rewrite E. set (trs := map (fun f => vsub f z) fit).
  assert (Lt : forall i, (i < length trs)%nat -> length (row trs i) = m).
  { intros i Hl. unfold row. assert (X : In (nth i trs []) trs) by (apply nth_In; exact Hl). unfold trs in X at 2. apply in_map_iff in X. destruct X as (f & <- & Hin). rewrite vsub_length; [auto|]. rewrite Lz. auto. }
  assert (Rw : forall i, (i < length trs)%nat -> row (map (relabel p) trs) i = relabel p (row trs i)).
  { intros i Hl. unfold row. rewrite (nth_indep _ [] (relabel p [])) by (rewrite map_length; exact Hl). apply map_nth. }
  assert (Rv : forall k, (k < length vecs)%nat -> row (map (relabel p) vecs) k = relabel p (row vecs k)).
  { intros i Hl. unfold row. rewrite (nth_indep _ [] (relabel p [])) by (rewrite map_length; exact Hl). apply map_nth. }
  rewrite map_length. assert (FE : forall (f g : nat -> list nat) l, (forall k, In k l -> f k = g k) -> flat_map f l = flat_map g l).
  { intros f g l. induction l as [|a l IH]; intros X; cbn [flat_map]; [reflexivity|]. rewrite (X a (or_introl eq_refl)), IH by (intros k Hk; apply X; right; exact Hk). reflexivity. }
  apply FE. clear FE. intros k Hk. apply in_seq in Hk.
  assert (N : niche (map (relabel p) vecs) (map (relabel p) trs) k = niche vecs trs k).
  { unfold niche. rewrite map_length. apply filter_in_ext. intros i Hin. apply in_seq in Hin. f_equal. rewrite Rw by lia. unfold assigned. rewrite map_map.
    rewrite (map_ext_in (fun x => cosine (relabel p (row trs i)) (relabel p x)) (cosine (row trs i))); [reflexivity|]. intros v Hin'. apply (cosine_relabel p m); auto. apply Lt. lia. }
  unfold choose. rewrite N.
  assert (S0 : forall i, In i (constraint_filter cons (niche vecs trs k)) -> (i < length trs)%nat).
  { intros i Hin. apply screened_sub in Hin. unfold niche in Hin. apply filter_In in Hin. destruct Hin as (Hin & _). apply in_seq in Hin. lia. }
  destruct (constraint_filter cons (niche vecs trs k)) as [|a [|b sub]]; [reflexivity..|].
  assert (A : map (apd pen (map (relabel p) vecs) (map (relabel p) trs) gam k) (a :: b :: sub) = map (apd pen vecs trs gam k) (a :: b :: sub)).
  { apply map_ext_in. intros i Hin. unfold apd. rewrite Rw, Rv by (auto; lia). rewrite (norm_relabel p m), (cosine_relabel p m); auto. unfold row. apply Hv. apply nth_In. lia. }
  rewrite A. reflexivity.
Qed.
Lemma calc_relabel p m t fit unc : Permutation p (seq 0 m) -> (forall f, In f fit -> length f = m) -> (forall u f, unc = Some u -> In f u -> length f = m) ->
  calc_fitness t (map (relabel p) fit) (option_map (map (relabel p)) unc) = bind (calc_fitness t fit unc) (fun f => Ok (map (relabel p) f)) /\
  forall f', calc_fitness t fit unc = Ok f' -> forall f, In f f' -> length f = m.
Proof.
  intros P Hf Hu.
  assert (Q : forall g u, (forall f, In f u -> length f = m) -> vmap2 (vmap2 g) (map (relabel p) fit) (map (relabel p) u) = map (relabel p) (vmap2 (vmap2 g) fit u) /\ forall f, In f (vmap2 (vmap2 g) fit u) -> length f = m).
  { intros g. clear Hu unc. induction fit as [|x fit IH]; intros [|y u] Hu; cbn [map vmap2]; try (split; [reflexivity|intros f []]). destruct (IH (fun f H => Hf f (or_intror H)) u (fun f H => Hu f (or_intror H))) as (I1 & I2).
    rewrite (vmap2_relabel g p m) by (auto; try (apply Hf; left; reflexivity); apply Hu; left; reflexivity). rewrite I1. split; [reflexivity|]. intros f [<-|H]; [|apply I2; exact H].
    rewrite vmap2_length; [apply Hf; left; reflexivity|]. rewrite (Hf x (or_introl eq_refl)), (Hu y (or_introl eq_refl)). reflexivity. }
  destruct t, unc as [u|]; cbn [calc_fitness option_map bind]; try (split; [reflexivity|]; intros f' E; try discriminate E; injection E as <-; exact Hf);
    destruct (Q Rminus u (fun f H => Hu u f eq_refl H)) as (Q1 & Q2); destruct (Q Rplus u (fun f H => Hu u f eq_refl H)) as (Q3 & Q4);
    (split; [f_equal; first [exact Q1|exact Q3]|intros f' E; injection E as <-; first [exact Q2|exact Q4]]).
Qed.
