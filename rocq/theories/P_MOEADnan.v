From Verif Require Import Base M_MOEAD P_MOEAD M_MOEADnan.
From Coq Require Import QArith.
Open Scope nat_scope.

Section PX.
Context {M : Type} (fitness : M -> list xq) (SF : list xq -> list Q -> list xq -> xq) (vectors : list (list Q)) (neighborhoods : list (list nat)).
Context (pick : nat -> nat -> nat * nat) (offspring : nat -> M -> M -> list M -> M).

Lemma In_outperformed_x nb cur ws off ideal j :
  In j (outperformed_x SF nb cur ws off ideal) <->
  exists k f w, nth_error nb k = Some j /\ nth_error cur k = Some f /\ nth_error ws k = Some w /\
    xqlt (SF off (fix_weights w) ideal) (SF f (fix_weights w) ideal) = true.
Proof.
  revert cur ws; induction nb as [|a nb IH]; intros cur ws.
  - simpl. split; [intros []|]. intros (k & f & w & H & _); destruct k; discriminate.
  - destruct cur as [|f cur]; [simpl; split; [intros []|]; intros (k & f & w & _ & H & _); destruct k; discriminate|].
    destruct ws as [|w ws]; [simpl; split; [intros []|]; intros (k & g & w & _ & _ & H & _); destruct k; discriminate|].
    cbn [outperformed_x]. destruct (xqlt (SF off (fix_weights w) ideal) (SF f (fix_weights w) ideal)) eqn:E.
    + cbn [In]. rewrite IH. split.
      * intros [<-|(k & H)]; [exists 0, f, w; auto|exists (S k); auto].
      * intros ([|k] & g & v & H1 & H2 & H3 & H4); simpl in *; [left; congruence|].
        right. exists k, g, v; auto.
    + rewrite IH. split.
      * intros (k & H). exists (S k); auto.
      * intros ([|k] & g & v & H1 & H2 & H3 & H4); simpl in *; [congruence|exists k, g, v; auto].
Qed.

Lemma moead_do_x_spec ideal pop off i sel : moead_do_x fitness SF vectors neighborhoods ideal (pop ++ [off]) i = Ok sel ->
  exists nb, nth_error neighborhoods i = Some nb /\
  (forall j, In j nb -> j < length vectors /\ j <= length pop) /\
  forall j, In j sel <-> In j nb /\ exists m w, nth_error (pop ++ [off]) j = Some m /\ nth_error vectors j = Some w /\
    xqlt (SF (fitness off) (fix_weights w) ideal) (SF (fitness m) (fix_weights w) ideal) = true.
Proof.
  unfold moead_do_x. destruct (nth_error neighborhoods i) as [nb|] eqn:En; [|discriminate].
  destruct (take_all (map fitness (pop ++ [off])) nb) as [cur|e] eqn:Ec; simpl; [|discriminate].
  rewrite rev_app_distr; simpl.
  destruct (take_all vectors nb) as [ws|e] eqn:Ew; simpl; [|discriminate].
  intros H; injection H as <-. exists nb. split; [reflexivity|].
  destruct (take_all_ok _ _ _ Ec) as [C1 C2]. destruct (take_all_ok _ _ _ Ew) as [W1 W2].
  split.
  - intros j Hj. destruct (In_nth_error _ _ Hj) as [k Hk].
    destruct (C2 _ _ Hk) as (x & X1 & _). destruct (W2 _ _ Hk) as (y & Y1 & _).
    assert (j < length (map fitness (pop ++ [off]))) by (apply nth_error_Some; congruence).
    rewrite map_length, app_length in H; simpl in H.
    split; [apply nth_error_Some; congruence|lia].
  - intros j. rewrite In_outperformed_x. split.
    + intros (k & f & w & H1 & H2 & H3 & H4). split; [eapply nth_error_In; eauto|].
      destruct (C2 _ _ H1) as (x & X1 & X2). destruct (W2 _ _ H1) as (y & Y1 & Y2).
      assert (x = f) by congruence. assert (y = w) by congruence. subst x y.
      rewrite nth_error_map in X1. destruct (nth_error (pop ++ [off]) j) as [m|]; [|discriminate].
      simpl in X1; injection X1 as <-. exists m, w; auto.
    + intros (Hj & m & w & H1 & H2 & H3). destruct (In_nth_error _ _ Hj) as [k Hk].
      destruct (C2 _ _ Hk) as (x & X1 & X2). destruct (W2 _ _ Hk) as (y & Y1 & Y2).
      rewrite nth_error_map, H1 in X1; simpl in X1; injection X1 as <-.
      exists k, (fitness m), w. split; auto. split; auto. split; [congruence|auto].
Qed.

Lemma subproblem_x_spec i ideal pop ideal' pop' :
  subproblem_x fitness SF vectors neighborhoods pick offspring i (ideal, pop) = Ok (ideal', pop') ->
  exists nb pa pb a b off,
    nth_error neighborhoods i = Some nb /\ In pa nb /\ In pb nb /\
    nth_error pop pa = Some a /\ nth_error pop pb = Some b /\
    off = offspring i a b pop /\ ideal' = xqmins ideal (fitness off) /\
    length pop' = length pop /\
    (forall j m, nth_error pop j = Some m ->
       (In j nb /\ exists w, nth_error vectors j = Some w /\
          xqlt (SF (fitness off) (fix_weights w) ideal') (SF (fitness m) (fix_weights w) ideal') = true /\ nth_error pop' j = Some off)
       \/ (nth_error pop' j = Some m /\
           (In j nb -> forall w, nth_error vectors j = Some w ->
              xqlt (SF (fitness off) (fix_weights w) ideal') (SF (fitness m) (fix_weights w) ideal') = false))).
Proof.
  unfold subproblem_x, choose_parents.
  destruct (nth_error neighborhoods i) as [nb|] eqn:En; [|discriminate].
  destruct (Nat.ltb (length nb) 2) eqn:El; [discriminate|].
  destruct (nth_error nb (fst (pick i (length nb)))) as [pa|] eqn:Ea; [|discriminate].
  destruct (nth_error nb (snd (pick i (length nb)))) as [pb|] eqn:Eb; [|discriminate].
  cbn [bind fst snd].
  destruct (nth_error pop pa) as [a|] eqn:Epa; [|discriminate].
  destruct (nth_error pop pb) as [b|] eqn:Epb; [|discriminate].
  set (off := offspring i a b pop).
  destruct (moead_do_x fitness SF vectors neighborhoods (xqmins ideal (fitness off)) (pop ++ [off]) i) as [sel|e] eqn:Ed; [|discriminate].
  cbn [bind]. intros H; injection H as <- <-.
  destruct (moead_do_x_spec _ _ _ _ _ Ed) as (nb' & N1 & N2 & N3).
  rewrite En in N1; injection N1 as <-.
  exists nb, pa, pb, a, b, off.
  split; auto. split; [eapply nth_error_In; eauto|]. split; [eapply nth_error_In; eauto|].
  split; auto. split; auto. split; auto. split; auto.
  assert (L : length (removelast (replace_at sel off (pop ++ [off]))) = length pop).
  { rewrite length_removelast, length_replace_at, app_length; simpl; lia. }
  split; auto. intros j m Hj.
  assert (Hl : j < length pop) by (apply nth_error_Some; congruence).
  assert (N : nth_error (removelast (replace_at sel off (pop ++ [off]))) j = if mem_nat j sel then Some off else Some m).
  { rewrite nth_error_removelast by (rewrite length_replace_at, app_length; simpl; lia).
    rewrite nth_error_replace_at.
    replace (Nat.ltb j (length (pop ++ [off]))) with true
      by (symmetry; apply Nat.ltb_lt; rewrite app_length; simpl; lia).
    rewrite nth_error_app1 by auto. rewrite Hj; auto. }
  destruct (mem_nat j sel) eqn:Em.
  - left. apply mem_nat_In in Em. apply N3 in Em. destruct Em as (Hj1 & m' & w & H1 & H2 & H3).
    rewrite nth_error_app1 in H1 by auto. assert (m' = m) by congruence; subst m'.
    split; auto. exists w; auto.
  - right. split; auto. intros Hj1 w Hw.
    destruct (xqlt _ _) eqn:Hc; auto. exfalso.
    assert (In j sel).
    { apply N3. split; auto. exists m, w. rewrite nth_error_app1 by auto. auto. }
    apply mem_nat_In in H. congruence.
Qed.

(** Two populations of the same length, equal at every position. *)
Lemma pop_eq (pop pop' : list M) : length pop' = length pop -> (forall j m, nth_error pop j = Some m -> nth_error pop' j = Some m) -> pop' = pop.
Proof.
  revert pop'. induction pop as [|a pop IH]; intros [|b pop'] L H; try discriminate; auto.
  pose proof (H 0 a eq_refl) as E. injection E as ->. f_equal. apply IH; [cbn in L; congruence|]. intros j m Hj. exact (H (S j) m Hj).
Qed.

(** A step whose offspring is nowhere strictly better changes nobody. *)
Lemma step_no_change i ideal pop ideal' pop' :
  (forall a b m w, In a pop -> In b pop -> In m pop -> In w vectors ->
     let off := offspring i a b pop in xqlt (SF (fitness off) (fix_weights w) (xqmins ideal (fitness off))) (SF (fitness m) (fix_weights w) (xqmins ideal (fitness off))) = false) ->
  subproblem_x fitness SF vectors neighborhoods pick offspring i (ideal, pop) = Ok (ideal', pop') -> pop' = pop.
Proof.
  intros H E. destruct (subproblem_x_spec _ _ _ _ _ E) as (nb & pa & pb & a & b & off & E1 & E2 & E3 & E4 & E5 & E6 & E7 & E8 & E9).
  apply pop_eq; auto. intros j m Hj. destruct (E9 j m Hj) as [(_ & w & Hw & C & _)|[K _]]; auto. exfalso. subst off ideal'.
  rewrite (H a b m w) in C; [discriminate|..]; eapply nth_error_In; eauto.
Qed.

Lemma subproblem_x_total i ideal pop nb :
  nth_error neighborhoods i = Some nb -> 2 <= length nb ->
  (forall n, 2 <= n -> fst (pick i n) < n /\ snd (pick i n) < n) ->
  (forall j, In j nb -> j < length vectors /\ j < length pop) ->
  exists s, subproblem_x fitness SF vectors neighborhoods pick offspring i (ideal, pop) = Ok s.
Proof.
  intros En Hl Hp Hr. unfold subproblem_x, choose_parents. rewrite En.
  replace (Nat.ltb (length nb) 2) with false by (symmetry; apply Nat.ltb_ge; auto).
  destruct (Hp _ Hl) as [P1 P2].
  destruct (nth_error nb (fst (pick i (length nb)))) as [pa|] eqn:Ea; [|apply nth_error_None in Ea; lia].
  destruct (nth_error nb (snd (pick i (length nb)))) as [pb|] eqn:Eb; [|apply nth_error_None in Eb; lia].
  cbn [bind fst snd].
  destruct (Hr pa (nth_error_In _ _ Ea)) as [_ A]. destruct (Hr pb (nth_error_In _ _ Eb)) as [_ B].
  destruct (nth_error pop pa) as [a|] eqn:Epa; [|apply nth_error_None in Epa; lia].
  destruct (nth_error pop pb) as [b|] eqn:Epb; [|apply nth_error_None in Epb; lia].
  set (off := offspring i a b pop).
  unfold moead_do_x. rewrite En.
  destruct (take_all_some (map fitness (pop ++ [off])) nb) as [c Hc].
  { intros j Hj. rewrite map_length, app_length. destruct (Hr j Hj). lia. }
  rewrite Hc; cbn [bind]. rewrite rev_app_distr; simpl.
  destruct (take_all_some vectors nb) as [w Hw]; [intros j Hj; apply Hr; auto|].
  rewrite Hw; cbn [bind]. eauto.
Qed.

Lemma subproblems_x_total is ideal pop :
  (forall i, In i is -> exists nb, nth_error neighborhoods i = Some nb /\ 2 <= length nb /\
     forall j, In j nb -> j < length vectors /\ j < length pop) ->
  (forall i n, 2 <= n -> fst (pick i n) < n /\ snd (pick i n) < n) ->
  exists s, subproblems_x fitness SF vectors neighborhoods pick offspring is (ideal, pop) = Ok s /\ length (snd s) = length pop.
Proof.
  intros H Hp. revert ideal pop H. induction is as [|i t IH]; intros ideal pop H; cbn [subproblems_x]; [eauto|].
  destruct (H i (or_introl eq_refl)) as (nb & N1 & N2 & N3).
  destruct (subproblem_x_total i ideal pop nb N1 N2 (Hp i) N3) as [[id' pop'] E].
  rewrite E; cbn [bind]. destruct (subproblem_x_spec _ _ _ _ _ E) as (? & ? & ? & ? & ? & ? & _ & _ & _ & _ & _ & _ & _ & L & _).
  destruct (IH id' pop') as (s & Es & Ls); [|exists s; rewrite Ls; auto].
  intros k Hk. destruct (H k (or_intror Hk)) as (nb2 & M1 & M2 & M3).
  exists nb2. split; auto. split; auto. intros j Hj. rewrite L. apply M3; auto.
Qed.

(** An invariant of every step is one of a generation. *)
Lemma subproblems_x_inv (P : list xq -> list M -> Prop) is : forall ideal pop ideal' pop',
  (forall i ideal pop ideal' pop', In i is -> P ideal pop -> subproblem_x fitness SF vectors neighborhoods pick offspring i (ideal, pop) = Ok (ideal', pop') -> P ideal' pop') ->
  P ideal pop -> subproblems_x fitness SF vectors neighborhoods pick offspring is (ideal, pop) = Ok (ideal', pop') -> P ideal' pop'.
Proof.
  induction is as [|i t IH]; intros ideal pop ideal' pop' HS H0; cbn [subproblems_x].
  - intros E. injection E as <- <-. exact H0.
  - destruct (subproblem_x fitness SF vectors neighborhoods pick offspring i (ideal, pop)) as [[id1 pop1]|e] eqn:E; [|discriminate]. cbn [bind]. intros E2.
    apply (IH id1 pop1 ideal' pop'); auto.
    + intros k a b a' b' Hk Hp Es. apply (HS k a b a' b'); auto. right; auto.
    + apply (HS i ideal pop id1 pop1); auto. left; auto.
Qed.
End PX.

Lemma moead_gens_x_inv {M : Type} (fitness : M -> list xq) SF vectors neighborhoods pop_size (P : list xq -> list M -> Prop) gens : forall ideal pop ideal' pop',
  (forall g i ideal pop ideal' pop', In g gens -> P ideal pop -> subproblem_x fitness SF vectors neighborhoods (fst g) (snd g) i (ideal, pop) = Ok (ideal', pop') -> P ideal' pop') ->
  P ideal pop -> moead_gens_x fitness SF vectors neighborhoods pop_size gens (ideal, pop) = Ok (ideal', pop') -> P ideal' pop'.
Proof.
  induction gens as [|g t IH]; intros ideal pop ideal' pop' HS H0; cbn [moead_gens_x].
  - intros E. injection E as <- <-. exact H0.
  - destruct (moead_gen_x fitness SF vectors neighborhoods (fst g) (snd g) pop_size (ideal, pop)) as [[id1 pop1]|e] eqn:E; [|discriminate]. cbn [bind]. intros E2.
    apply (IH id1 pop1 ideal' pop'); auto.
    + intros h k a b a' b' Hh Hp Es. apply (HS h k a b a' b'); auto. right; auto.
    + unfold moead_gen_x in E. apply (subproblems_x_inv fitness SF vectors neighborhoods (fst g) (snd g) P (seq 0 pop_size) ideal pop id1 pop1); auto.
      intros i a b a' b' _ Hp Es. apply (HS g i a b a' b'); auto. left; auto.
Qed.

(** ** Ideal points *)
Lemma xqmins_len u : forall v, length (xqmins u v) = Nat.min (length u) (length v).
Proof. induction u as [|a u IH]; intros [|b v]; cbn [xqmins length]; auto. rewrite IH. reflexivity. Qed.
Lemma xqmin_nan_r a : xqmin a QNaN = QNaN.
Proof. destruct a; reflexivity. Qed.
Lemma xqmins_nan j u : forall v, length u = length v -> nth_error u j = Some QNaN \/ nth_error v j = Some QNaN -> nth_error (xqmins u v) j = Some QNaN.
Proof.
  revert j. induction u as [|a u IH]; intros j [|b v] L H; try discriminate.
  - destruct H as [H|H]; destruct j; discriminate.
  - destruct j as [|j]; cbn [xqmins nth_error] in *.
    + destruct H as [H|H]; injection H as ->; [reflexivity|rewrite xqmin_nan_r; reflexivity].
    + apply IH; auto.
Qed.
Lemma fix_weights_pos w : (forall x, In x w -> (0 <= x)%Q) -> forall x, In x (fix_weights w) -> (0 < x)%Q.
Proof.
  intros H x Hin. unfold fix_weights in Hin. apply in_map_iff in Hin as (y & <- & Hin). destruct (Qeq_bool y 0) eqn:E; [reflexivity|].
  specialize (H y Hin). apply Qle_lteq in H as [H|H]; auto. apply Qeq_bool_neq in E. exfalso. apply E. symmetry; exact H.
Qed.
Lemma fix_weights_len w : length (fix_weights w) = length w.
Proof. apply map_length. Qed.
