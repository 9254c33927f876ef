(** Lemmas for C88-C91. *)
From Verif Require Import Base M_BioGP M_GPfit Spec_BioGP P_BioGP Spec_GPfit.
Open Scope nat_scope.

Section L.
Context {V F : Type} (zero_p : V -> bool) (one : V) (arity : F -> nat) (is_div : F -> bool) (sem : F -> list (list V) -> list V) (rows : nat).
Context (fs : list F) (ts : list (term V)).
Notation tree := (tree F (term V)).
Notation run := (run zero_p one is_div sem rows).
Notation runs := (runs zero_p one is_div sem rows).
Notation ones := (ones_for_zeros zero_p one).
Notation call := (call zero_p one is_div sem).
Notation value_on := (value_on zero_p one is_div sem rows).
Notation wf := (well_formed arity fs ts).
Implicit Types (g : tree) (d : nat -> list V).

Lemma tree_ind' (P : tree -> Prop) : (forall v kids, (forall k, In k kids -> P k) -> P (Tr v kids)) -> forall g, P g.
Proof.
  intros H. fix IH 1. intros [v kids]. apply H. induction kids as [|k ks IHk]; [intros k []|]. intros k' [E|Hk]; [rewrite <- E; apply IH|apply IHk; exact Hk].
Qed.
Lemma run_fun d f kids : run d (Tr (VFun f) kids) = let '(d1, args) := runs d kids in let '(d2, v) := call d1 f args in (d2, New v).
Proof. reflexivity. Qed.
Lemma wf_kid v kids k : wf (Tr v kids) -> In k kids -> wf k.
Proof. intros W Hk n s A. apply (W (S n) s). apply (at_kid (Tr v kids) k); auto. Qed.
Lemma wf_node v kids : wf (Tr v kids) -> node_ok arity fs ts v (length kids).
Proof. intros W. apply (W 0 (Tr v kids)). constructor. Qed.

Fixpoint bareb (g : tree) (c : nat) : bool :=
  match g with Tr v kids =>
    existsb (fun k => bareb k c) kids ||
    match v with VFun f => is_div f && match kids with [_; Tr (VTerm (TVar c')) _] => Nat.eqb c c' | _ => false end | _ => false end
  end.
Lemma bareb_spec c : forall g, bareb g c = true <-> bare_denominator is_div g c.
Proof.
  apply tree_ind'. intros v kids IH. cbn [bareb]. rewrite orb_true_iff, existsb_exists. split.
  - intros [(k & Hk & B)|H].
    + apply IH in B; auto. destruct B as (n & f & x & k0 & D & A). exists (S n), f, x, k0. split; auto. apply (at_kid (Tr v kids) k); auto.
    + destruct v as [|f|]; try discriminate. apply andb_true_iff in H. destruct H as (D & H).
      destruct kids as [|x [|y [|]]]; try discriminate. 2: { destruct y as [[|?|[?|?]] ?]; discriminate. }
      destruct y as [[| |[c'|]] k]; try discriminate. apply Nat.eqb_eq in H. subst c'. exists 0, f, x, k. split; auto. constructor.
  - intros (n & f & x & k0 & D & A). inversion A as [g E1 E2 E3|g k n' s Hk A']; subst.
    + right. rewrite D, Nat.eqb_refl. reflexivity.
    + left. exists k. split; auto. apply IH; auto. exists n', f, x, k0. auto.
Qed.

Hypothesis one_nz : zero_p one = false.
Hypothesis div2 : forall f, is_div f = true -> arity f = 2.

Lemma ones_idem l : ones (ones l) = ones l.
Proof. unfold ones_for_zeros. rewrite map_map. apply map_ext. intros v. destruct (zero_p v) eqn:E; [rewrite one_nz; reflexivity|rewrite E; reflexivity]. Qed.
Lemma ones_id l : no_zero zero_p l -> ones l = l.
Proof. intros H. unfold ones_for_zeros. rewrite <- (map_id l) at 2. apply map_ext_in. intros v Hv. rewrite (H v Hv). reflexivity. Qed.
Lemma ones_no_zero l : no_zero zero_p (ones l).
Proof. intros v Hv. apply in_map_iff in Hv. destruct Hv as (u & E & _). destruct (zero_p u) eqn:Z; subst v; auto. Qed.

Definition eff (b : bool) (l : list V) := if b then ones l else l.
Lemma eff_eff a b l : eff a (eff b l) = eff (a || b) l.
Proof. destruct a, b; simpl; auto using ones_idem. Qed.

Lemma runs_eff (Q0 : forall g, Prop) l : (forall k, In k l -> forall d c, fst (run d k) c = eff (bareb k c) (d c)) ->
  forall d c, fst (runs d l) c = eff (existsb (fun k => bareb k c) l) (d c).
Proof.
  induction l as [|k l IH]; intros H d c; cbn [M_GPfit.runs existsb]; [reflexivity|].
  destruct (run d k) as [d1 a] eqn:E1. destruct (runs d1 l) as [d2 r] eqn:E2. cbn [fst].
  pose proof (IH (fun k Hk => H k (or_intror Hk)) d1 c) as X. rewrite E2 in X. cbn [fst] in X. rewrite X.
  pose proof (H k (or_introl eq_refl) d c) as Y. rewrite E1 in Y. cbn [fst] in Y. rewrite Y, eff_eff, orb_comm. reflexivity.
Qed.
(** The reference a well-formed tree evaluates to: a column exactly for a variable. *)
Lemma run_ref g d : snd (run d g) = match g with Tr (VTerm (TVar c)) _ => Col c | _ => New (deref d (snd (run d g))) end.
Proof.
  destruct g as [[|f|[c|v]] kids]; try reflexivity. rewrite run_fun. destruct (runs d kids) as [d1 args]. destruct (call d1 f args) as [d2 v]. reflexivity.
Qed.
Lemma runs_length l : forall d, length (snd (runs d l)) = length l.
Proof. induction l as [|k l IH]; intros d; cbn [M_GPfit.runs]; [reflexivity|]. destruct (run d k) as [d1 a]. specialize (IH d1). destruct (runs d1 l) as [d2 r]. cbn [snd length] in *. lia. Qed.
Lemma run_eff : forall g, wf g -> forall d c, fst (run d g) c = eff (bareb g c) (d c).
Proof.
  apply (tree_ind' (fun g => wf g -> forall d c, fst (run d g) c = eff (bareb g c) (d c))). intros v kids IH W d c.
  pose proof (wf_node _ _ W) as N. destruct v as [|f|[c'|v]].
  - destruct N.
  - rewrite run_fun. destruct N as (Hf & Ha).
    pose proof (runs_eff (fun _ => True) kids (fun k Hk d c => IH k Hk (wf_kid _ _ _ W Hk) d c) d c) as X.
    destruct (runs d kids) as [d1 args] eqn:E. cbn [fst] in X. cbn [bareb]. unfold M_GPfit.call. case_eq (is_div f); intros D.
    + rewrite (div2 f D) in Ha. destruct kids as [|x [|y [|]]]; try discriminate. cbn [M_GPfit.runs] in E.
      destruct (run d x) as [e1 a] eqn:Ea. destruct (run e1 y) as [e2 b] eqn:Eb. injection E as <- <-.
      pose proof (run_ref y e1) as R. rewrite Eb in R. cbn [snd] in R.
      destruct y as [[|g|[c'|u]] ky]; try (destruct b as [cc|lb]; [discriminate|]; cbn [fst]; rewrite X, andb_false_r, orb_false_r; reflexivity).
      subst b. cbn [fst]. unfold set_col. rewrite (Nat.eqb_sym c c'). rewrite (Nat.eqb_sym c' c). destruct (Nat.eqb_spec c c') as [<-|Hn].
      * rewrite X, andb_true_l, orb_true_r. change (eff true (eff (existsb (fun k => bareb k c) [x; Tr (VTerm (TVar c)) ky]) (d c)) = eff true (d c)). rewrite eff_eff. reflexivity.
      * rewrite X, andb_false_r, orb_false_r. reflexivity.
    + cbn [fst]. rewrite X, andb_false_l, orb_false_r. reflexivity.
  - destruct N as (_ & Ha). destruct kids; [|discriminate]. reflexivity.
  - destruct N as (_ & Ha). destruct kids; [|discriminate]. reflexivity.
Qed.

Lemma value_ext d d' : (forall c, d' c = d c) -> forall g, value_on d' g = value_on d g.
Proof.
  intros H. apply tree_ind'. intros v kids IH. destruct v as [|f|[c|v]]; cbn [Spec_GPfit.value_on]; auto. replace (map (value_on d') kids) with (map (value_on d) kids); [reflexivity|].
  apply map_ext_in. intros k Hk. symmetry. apply IH; auto.
Qed.
Lemma deref_ext d d' (a : arr (V:=V)) : (forall c, d' c = d c) -> deref d' a = deref d a.
Proof. intros H. destruct a; simpl; auto. Qed.
Lemma runs_value l : (forall k, In k l -> forall d, (forall c, bareb k c = true -> no_zero zero_p (d c)) -> (forall c, fst (run d k) c = d c) /\ deref d (snd (run d k)) = value_on d k) ->
  forall d, (forall c, existsb (fun k => bareb k c) l = true -> no_zero zero_p (d c)) -> (forall c, fst (runs d l) c = d c) /\ map (deref d) (snd (runs d l)) = map (value_on d) l.
Proof.
  induction l as [|k l IH]; intros H d Z; [split; reflexivity|]. cbn [M_GPfit.runs].
  destruct (run d k) as [d1 a] eqn:E1. destruct (runs d1 l) as [d2 r] eqn:E2. cbn [fst snd map].
  destruct (H k (or_introl eq_refl) d) as (A1 & A2). { intros c B. apply Z. cbn [existsb]. rewrite B. reflexivity. }
  rewrite E1 in A1, A2. cbn [fst snd] in A1, A2.
  destruct (IH (fun k Hk => H k (or_intror Hk)) d1) as (B1 & B2). { intros c B. rewrite A1. apply Z. cbn [existsb]. rewrite B. apply orb_true_r. }
  rewrite E2 in B1, B2. cbn [fst snd] in B1, B2. split; [intros c; rewrite B1; apply A1|]. f_equal; auto.
  transitivity (map (deref d1) r); [apply map_ext; intros x; symmetry; apply deref_ext; auto|]. rewrite B2. apply map_ext. intros g. apply value_ext; auto.
Qed.
Lemma run_value : forall g, wf g -> forall d, (forall c, bareb g c = true -> no_zero zero_p (d c)) -> (forall c, fst (run d g) c = d c) /\ deref d (snd (run d g)) = value_on d g.
Proof.
  apply (tree_ind' (fun g => wf g -> forall d, (forall c, bareb g c = true -> no_zero zero_p (d c)) -> (forall c, fst (run d g) c = d c) /\ deref d (snd (run d g)) = value_on d g)).
  intros v kids IH W d Z. split.
  { intros c. rewrite run_eff by auto. case_eq (bareb (Tr v kids) c); intros B; simpl; auto. apply ones_id. apply Z; auto. }
  pose proof (wf_node _ _ W) as N. destruct v as [|f|[c'|v]]; [destruct N| |reflexivity|reflexivity].
  destruct N as (Hf & Ha). rewrite run_fun.
  destruct (runs_value kids (fun k Hk => IH k Hk (wf_kid _ _ _ W Hk)) d) as (A1 & A2). { intros c B. apply Z. cbn [bareb]. rewrite B. reflexivity. }
  pose proof (runs_length kids d) as L. destruct (runs d kids) as [d1 args] eqn:E. cbn [fst snd] in A1, A2, L. cbn [Spec_GPfit.value_on]. rewrite <- A2. unfold M_GPfit.call. case_eq (is_div f); intros D.
  - rewrite (div2 f D) in Ha. destruct kids as [|x [|y [|]]]; try discriminate. destruct args as [|a [|b [|]]]; try discriminate. cbn [map].
    destruct b as [c|l]; cbn [snd deref map].
    +
      assert (Zc : no_zero zero_p (d c)).
      { apply Z. cbn [bareb]. rewrite D. cbn [M_GPfit.runs] in E. destruct (run d x) as [e1 a1]. pose proof (run_ref y e1) as R. destruct (run e1 y) as [e2 b1]. injection E as -> -> ->. cbn [snd] in R.
        destruct y as [[|g|[c'|u]] ky]; try discriminate. injection R as ->. rewrite Nat.eqb_refl. apply orb_true_r. }
      assert (X : forall c0, set_col d1 c (ones (d1 c)) c0 = d c0). { intros c0. unfold set_col. destruct (Nat.eqb_spec c0 c) as [->|]; auto. rewrite A1, ones_id; auto. }
      rewrite (deref_ext d _ a X), X. fold (ones (d c)). rewrite (ones_id _ Zc). reflexivity.
    + unfold ones_for_zeros. rewrite (deref_ext d d1 a A1). reflexivity.
  - cbn [snd deref]. f_equal. apply map_ext. intros a. apply deref_ext; auto.
Qed.
End L.

Section Prune.
Context {V F : Type} (arity : F -> nat) (pick : nat -> nat -> nat) (coin : nat -> bool) (fs : list F) (ts : list (term V)).
Notation tree := (tree F (term V)).
Notation prune := (prune arity pick coin fs ts).
(** Positions, in the sequence of old subtrees followed by all the regrown ones, of the deleted ones. *)
Fixpoint dels (flags : list bool) (i : nat) : list nat :=
  match flags with [] => [] | true :: fl => i :: map S (dels fl (S i)) | false :: fl => dels fl (S i) end.
Lemma dels_ge flags : forall i p, In p (dels flags i) -> i <= p.
Proof.
  induction flags as [|b fl IH]; intros i p Hp; [destruct Hp|]. destruct b; simpl in Hp.
  - destruct Hp as [<-|Hp]; auto. apply in_map_iff in Hp. destruct Hp as (q & <- & Hq). apply IH in Hq. lia.
  - apply IH in Hp. lia.
Qed.
Lemma dels_spec flags : forall i p, In p (dels flags i) <-> exists k s, nth_error (filter (fun j => nth (j - i) flags false) (seq i (length flags))) k = Some s /\ p = s + k.
Proof.
  induction flags as [|b fl IH]; intros i p; cbn [dels length seq filter].
  - split; [intros []|intros (k & s & H & _); destruct k; discriminate].
  - rewrite Nat.sub_diag. cbn [nth].
    assert (E : filter (fun j => nth (j - i) (b :: fl) false) (seq (S i) (length fl)) = filter (fun j => nth (j - S i) fl false) (seq (S i) (length fl))).
    { apply filter_ext_in. intros j Hj. apply in_seq in Hj. replace (j - i) with (S (j - S i)) by lia. reflexivity. }
    cbn [nth] in E. rewrite E. destruct b.
    + simpl In. split.
      * intros [<-|H]; [exists 0, i; split; [reflexivity|lia]|]. apply in_map_iff in H. destruct H as (q & <- & Hq). apply IH in Hq. destruct Hq as (k & s & Hk & ->). exists (S k), s. split; [exact Hk|lia].
      * intros ([|k] & s & Hk & ->); simpl in Hk; [injection Hk as <-; left; lia|]. right. apply in_map_iff. exists (s + k). split; [lia|]. apply IH. eauto.
    + apply IH.
Qed.
Lemma select_shift {A} f g (l : list A) : forall b, (forall j, b <= j -> g j = f (S j)) -> select_pos_from (S b) f l = select_pos_from b g l.
Proof. induction l as [|x l IH]; intros b H; [reflexivity|]. cbn [select_pos_from]. rewrite (H b) by lia. rewrite IH by (intros; apply H; lia). reflexivity. Qed.
Lemma del_select {A} f g : forall i (l : list A) b, f (b + i) = false -> (forall j, b <= j < b + i -> g j = f j) -> (forall j, b + i <= j -> g j = f (S j)) ->
  select_pos_from b f l = select_pos_from b g (del i l).
Proof.
  induction i as [|i IH]; intros l b H1 H2 H3; destruct l as [|x l]; try reflexivity; cbn [select_pos_from del].
  - rewrite Nat.add_0_r in H1. rewrite H1. apply select_shift. intros; apply H3; lia.
  - rewrite (H2 b) by lia. rewrite (IH l (S b)); [reflexivity| | |]; [rewrite <- H1; f_equal; lia|intros; apply H2; lia|intros; apply H3; lia].
Qed.
Lemma del_length {A} i (l : list A) : i < length l -> S (length (del i l)) = length l.
Proof. revert i; induction l as [|x l IH]; intros [|i] H; simpl in *; try lia. rewrite IH by lia. reflexivity. Qed.
Lemma del_app {A} i (l l' : list A) : i < length l -> del i (l ++ l') = del i l ++ l'.
Proof. revert i; induction l as [|x l IH]; intros [|i] H; simpl in *; try lia; auto. rewrite IH by lia. reflexivity. Qed.
Lemma prune_spec D m flags : forall i roots t roots' t', length roots = m -> i + length flags <= m -> prune D m flags i roots t = Ok (roots', t') ->
  exists new : list tree, length new = length (filter (fun b => b) flags) /\ (forall k : tree, In k new -> exists q q', grow arity pick coin fs ts false (D - 1) q = Ok (k, q')) /\ 
    roots' = select_pos (fun j => negb (mem_nat j (dels flags i))) (roots ++ new).
Proof.
  induction flags as [|b fl IH]; intros i roots t roots' t' L Hi E; cbn [M_GPfit.prune length] in *.
  - injection E as <- <-. exists []. split; [reflexivity|]. split; [intros k []|]. rewrite app_nil_r. unfold select_pos. generalize 0 at 1. clear. induction roots as [|x r IH]; intros b; [reflexivity|]. cbn [select_pos_from dels mem_nat existsb negb]. f_equal. apply IH.
  - destruct b.
    + replace (i <? length roots) with true in E by (symmetry; apply Nat.ltb_lt; lia).
      unfold grow_root in E. assert (L' : S (length (del i roots)) = length roots) by (apply del_length; lia). replace (m - length (del i roots)) with 1 in E by lia.
      cbn [times] in E. destruct (grow arity pick coin fs ts false (D - 1) t) as [[k q]|] eqn:Eg; [|discriminate]. cbn [bind fst snd] in E.
      apply IH in E; [|rewrite app_length; simpl; lia|lia]. destruct E as (new & N1 & N2 & ->). exists (k :: new). split; [simpl; lia|]. split.
      * intros k' [<-|Hk]; [exists t, q; auto|apply N2; auto].
      * rewrite <- app_assoc. simpl app. cbn [dels]. symmetry. rewrite <- (del_app i roots (k :: new)) by lia. apply del_select; cbn [Nat.add].
        -- apply negb_false_iff, mem_nat_In. left; auto.
        -- intros j Hj. f_equal. apply eq_true_iff_eq. rewrite !mem_nat_In. simpl. rewrite in_map_iff. split; [intros H; apply dels_ge in H; lia|]. intros [H|(x & <- & Hx)]; [lia|]. apply dels_ge in Hx. lia.
        -- intros j Hj. f_equal. apply eq_true_iff_eq. rewrite !mem_nat_In. simpl. rewrite in_map_iff. split; [intros H; right; exists j; auto|]. intros [H|(x & Ex & Hx)]; [lia|]. injection Ex as ->. auto.
    + apply IH in E; [|auto|lia]. destruct E as (new & N1 & N2 & ->). exists new. auto.
Qed.
Lemma prune_total D m flags : fs <> [] -> ts <> [] -> forall i roots t, length roots = m -> i + length flags <= m -> exists roots' t', prune D m flags i roots t = Ok (roots', t').
Proof.
  intros Hf Ht. induction flags as [|b fl IH]; intros i roots t L Hi; cbn [M_GPfit.prune length] in *; [eauto|]. destruct b; [|apply IH; lia].
  replace (i <? length roots) with true by (symmetry; apply Nat.ltb_lt; lia). unfold grow_root. assert (L' : S (length (del i roots)) = length roots) by (apply del_length; lia). replace (m - length (del i roots)) with 1 by lia.
  cbn [times]. destruct (grow_total arity pick coin fs ts false Hf Ht (D - 1) t) as (k & q & ->). cbn [bind fst snd]. apply IH; [rewrite app_length; simpl; lia|lia].
Qed.
End Prune.

Section Depth.
Context {F T : Type}.
Notation tree := (tree F T).
Lemma list_max_In l : l <> [] -> In (list_max l) l.
Proof.
  induction l as [|x l IH]; [congruence|]. intros _. simpl. destruct l as [|y l]; [simpl; left; lia|]. destruct (Nat.max_spec x (list_max (y :: l))) as [(_ & E)|(_ & E)]; cbn [list_max fold_right] in *; fold (list_max l) in *; rewrite E; [right; apply IH; discriminate|left; auto].
Qed.
End Depth.
