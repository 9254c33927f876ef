(** Proofs about shared arrays (M_Alias, Spec_Alias). *)
From Verif Require Import Base M_Population M_Alias Spec_Alias.
From Coq Require Import Lia.

Section P.
Context {V : Type}.
Implicit Types (s : hst V) (h : list (list V)).

Definition olist (a : option nat) : list nat := match a with Some x => [x] | None => [] end.
Definition cols s : list nat := olist (c_ind s) ++ olist (c_obj s) ++ olist (c_fit s).
Definition wf s : Prop :=
  NoDup (cols s) /\ (forall a, In a (cols s) -> (a < length (heap s))%nat) /\
  (c_ind s = None \/ exists a b c, c_ind s = Some a /\ c_obj s = Some b /\ c_fit s = Some c).

Lemma wf_fresh : wf hfresh.
Proof. unfold wf, cols; cbn. split; [constructor|]. split; [contradiction|]. left; reflexivity. Qed.

Lemma wf3 s a b c : c_ind s = Some a -> c_obj s = Some b -> c_fit s = Some c ->
  wf s <-> (a <> b /\ a <> c /\ b <> c /\ (a < length (heap s))%nat /\ (b < length (heap s))%nat /\ (c < length (heap s))%nat).
Proof.
  intros A B C. unfold wf, cols. rewrite A, B, C. cbn [olist app]. split.
  - intros (ND & L & _). inversion ND as [|? ? N1 ND1]; subst. inversion ND1 as [|? ? N2 ND2]; subst.
    pose proof (L a (or_introl eq_refl)). pose proof (L b (or_intror (or_introl eq_refl))).
    pose proof (L c (or_intror (or_intror (or_introl eq_refl)))).
    cbn in N1, N2. intuition congruence.
  - intros (D1 & D2 & D3 & L1 & L2 & L3). split; [|split].
    + constructor; [cbn; intuition congruence|]. constructor; [cbn; intuition congruence|]. constructor; [intros []|constructor].
    + intros x [->|[->|[->|[]]]]; assumption.
    + right. exists a, b, c. split; [reflexivity|]. split; reflexivity.
Qed.

(** What one call may do to the arrays. *)
Definition is_replace (o : hop V) : bool := match o with HReplace _ _ _ _ => true | _ => false end.
Definition frame s s' (rep : bool) : Prop :=
  (length (heap s) <= length (heap s'))%nat /\
  (forall a, (a < length (heap s))%nat -> (rep = false \/ ~ In a (cols s)) -> nth a (heap s') [] = nth a (heap s) []) /\
  (forall a, In a (cols s') -> In a (cols s) \/ (length (heap s) <= a)%nat).

Lemma frame_refl s r : frame s s r.
Proof. split; [lia|]. split; [intros; reflexivity|]. intros; left; assumption. Qed.

Lemma frame_app s s' r ext : heap s' = heap s ++ ext ->
  (forall a, In a (cols s') -> In a (cols s) \/ (length (heap s) <= a)%nat) -> frame s s' r.
Proof.
  intros E C. split; [rewrite E, app_length; lia|]. split; [|exact C].
  intros a L _. rewrite E. apply app_nth1. exact L.
Qed.

Lemma nth_deref h a : deref h a = nth a h [].
Proof. reflexivity. Qed.
Lemma deref_app1 h e a : (a < length h)%nat -> deref (h ++ e) a = deref h a.
Proof. intros. unfold deref. apply app_nth1. assumption. Qed.
Lemma deref_last h x : deref (h ++ [x]) (length h) = x.
Proof. unfold deref. rewrite app_nth2, Nat.sub_diag; [reflexivity|lia]. Qed.

Lemma set_nth_length {A} (l : list A) : forall n x, length (set_nth n x l) = length l.
Proof. induction l as [|y l IH]; intros [|n] x; cbn; auto. Qed.
Lemma set_nth_other {A} (l : list A) : forall n m x d, n <> m -> nth m (set_nth n x l) d = nth m l d.
Proof.
  induction l as [|y l IH]; intros [|n] [|m] x d N; cbn; auto; try congruence.
Qed.
Lemma set_nth_same {A} (l : list A) : forall n x d, (n < length l)%nat -> nth n (set_nth n x l) d = x.
Proof. induction l as [|y l IH]; intros [|n] x d N; cbn in *; try lia; [reflexivity|]. apply IH. lia. Qed.

Lemma wf_cases s : wf s -> (c_ind s = None) \/
  (exists a b c, c_ind s = Some a /\ c_obj s = Some b /\ c_fit s = Some c /\
     a <> b /\ a <> c /\ b <> c /\ (a < length (heap s))%nat /\ (b < length (heap s))%nat /\ (c < length (heap s))%nat).
Proof.
  intros W. pose proof W as (_ & _ & [N|(a & b & c & A & B & C)]); [left; exact N|].
  right. exists a, b, c. apply (wf3 s a b c A B C) in W. tauto.
Qed.

Lemma olist_lt s : wf s -> forall a, In a (cols s) -> (a < length (heap s))%nat.
Proof. intros (_ & L & _). exact L. Qed.

(** The steps, seen as values. *)
Lemma shows_app h e a : (forall x, a = Some x -> (x < length h)%nat) -> shows (h ++ e) a = shows h a.
Proof. intros L. destruct a as [x|]; cbn; [|reflexivity]. f_equal. apply app_nth1. apply L. reflexivity. Qed.

Lemma in_ind s x : c_ind s = Some x -> In x (cols s).
Proof. intros E. unfold cols. rewrite E. left. reflexivity. Qed.
Lemma in_obj s x : c_obj s = Some x -> In x (cols s).
Proof. intros E. unfold cols. rewrite E. apply in_or_app. right. left. reflexivity. Qed.
Lemma in_fit s x : c_fit s = Some x -> In x (cols s).
Proof. intros E. unfold cols. rewrite E. apply in_or_app. right. apply in_or_app. right. left. reflexivity. Qed.

Lemma wf_none s : c_ind s = None -> (forall b c, c_obj s = Some b -> c_fit s = Some c -> b <> c) ->
  (forall b, c_obj s = Some b -> (b < length (heap s))%nat) -> (forall c, c_fit s = Some c -> (c < length (heap s))%nat) -> wf s.
Proof.
  intros N D LB LC. unfold wf, cols. rewrite N. cbn [olist app]. split; [|split].
  - destruct (c_obj s) as [b|], (c_fit s) as [c|]; cbn; repeat constructor; cbn; intuition.
    apply (D b c eq_refl eq_refl). symmetry. assumption.
  - intros a I. apply in_app_or in I as [I|I].
    + destruct (c_obj s) as [b|]; [|contradiction]. destruct I as [->|[]]. apply LB. reflexivity.
    + destruct (c_fit s) as [b|]; [|contradiction]. destruct I as [->|[]]. apply LC. reflexivity.
  - left. reflexivity.
Qed.
Lemma wf_none_inv s : wf s -> (forall b c, c_obj s = Some b -> c_fit s = Some c -> b <> c).
Proof.
  intros (ND & _) b c B C E. unfold cols in ND. rewrite B, C, E in ND.
  destruct (c_ind s); cbn in ND; [inversion ND as [|? ? _ ND']; subst|rename ND into ND']; inversion ND' as [|? ? N _]; subst; apply N; left; reflexivity.
Qed.
Lemma wf_ext s ext sh : wf s -> wf (mkH (heap s ++ ext) (c_ind s) (c_obj s) (c_fit s) sh).
Proof.
  intros (ND & L & O). unfold wf, cols in *; cbn. split; [exact ND|]. split; [|exact O].
  intros a I. rewrite app_length. apply L in I. lia.
Qed.

Definition tripled (o : offs V) : Prop := match o with OOther => False | _ => True end.

Lemma add_spec s o ro rf : wf s ->
  wf (fst (hadd s o ro rf)) /\ frame s (fst (hadd s o ro rf)) false /\
  as_values (fst (hadd s o ro rf)) = fst (step (as_values s) (OpAdd o (mkRes ro rf None None))) /\
  snd (hadd s o ro rf) = snd (step (as_values s) (OpAdd o (mkRes ro rf None None))) /\
  shots (fst (hadd s o ro rf)) = shots s /\
  (tripled o -> c_ind (fst (hadd s o ro rf)) = None \/ forall a, In a (cols (fst (hadd s o ro rf))) -> (length (heap s) <= a)%nat) /\
  (c_ind s <> None -> forall a, In a (cols (fst (hadd s o ro rf))) -> In a (cols s) \/ (length (heap s) + 3 <= a)%nat) /\
  deref (heap (fst (hadd s o ro rf))) (length (heap s)) = off_rows o /\
  deref (heap (fst (hadd s o ro rf))) (length (heap s) + 1) = ro /\
  deref (heap (fst (hadd s o ro rf))) (length (heap s) + 2) = rf /\
  (length (heap s) + 3 <= length (heap (fst (hadd s o ro rf))))%nat.
Proof.
  intros W. unfold hadd.
  assert (D0 : forall e, deref ((heap s ++ [off_rows o; ro; rf]) ++ e) (length (heap s)) = off_rows o).
  { intros e. unfold deref. rewrite <- app_assoc, app_nth2, Nat.sub_diag by lia. reflexivity. }
  assert (D1 : forall e, deref ((heap s ++ [off_rows o; ro; rf]) ++ e) (length (heap s) + 1) = ro).
  { intros e. unfold deref. rewrite <- app_assoc, app_nth2 by lia. replace (length (heap s) + 1 - length (heap s))%nat with 1%nat by lia. reflexivity. }
  assert (D2 : forall e, deref ((heap s ++ [off_rows o; ro; rf]) ++ e) (length (heap s) + 2) = rf).
  { intros e. unfold deref. rewrite <- app_assoc, app_nth2 by lia. replace (length (heap s) + 2 - length (heap s))%nat with 2%nat by lia. reflexivity. }
  pose proof (D0 []) as D0'. pose proof (D1 []) as D1'. pose proof (D2 []) as D2'. rewrite app_nil_r in D0', D1', D2'.
  assert (LN : length (heap s ++ [off_rows o; ro; rf]) = (length (heap s) + 3)%nat) by (rewrite app_length; reflexivity).
  destruct (wf_cases s W) as [N|(a & b & c & A & B & C & D & E & F & LA & LB & LC)].
  - rewrite N. destruct o as [l|i|]; cbn [fst snd heap c_ind c_obj c_fit shots].
    + split.
      { apply (wf3 _ (length (heap s)) (length (heap s) + 1) (length (heap s) + 2)); try reflexivity. cbn [heap]. rewrite LN. lia. }
      split.
      { apply (frame_app _ _ _ [off_rows (OBatch l); ro; rf]); [reflexivity|]. intros x [<-|[<-|[<-|[]]]]; right; lia. }
      split.
      { unfold as_values. cbn [fst step add p_ind heap c_ind c_obj c_fit]. rewrite N. cbn.
        change (nth (length (heap s)) (heap s ++ [l; ro; rf]) []) with (deref (heap s ++ [l; ro; rf]) (length (heap s))).
        change (nth (length (heap s) + 1) (heap s ++ [l; ro; rf]) []) with (deref (heap s ++ [l; ro; rf]) (length (heap s) + 1)).
        change (nth (length (heap s) + 2) (heap s ++ [l; ro; rf]) []) with (deref (heap s ++ [l; ro; rf]) (length (heap s) + 2)).
        cbn [off_rows] in *. rewrite D0', D1', D2'. reflexivity. }
      split. { unfold as_values, step, add. cbn [p_ind]. rewrite N. reflexivity. }
      split; [reflexivity|]. split. { intros _. right. intros x [<-|[<-|[<-|[]]]]; lia. }
      split; [congruence|]. split; [exact D0'|]. split; [exact D1'|]. split; [exact D2'|]. rewrite LN; lia.
    + split. { pose proof (wf_ext s [off_rows (OSingle i); ro; rf] (shots s) W) as X. rewrite N in X. exact X. }
      assert (CE : forall x, In x (cols (mkH (heap s ++ [off_rows (OSingle i); ro; rf]) None (c_obj s) (c_fit s) (shots s))) -> In x (cols s))
        by (intros x; unfold cols; cbn [c_ind c_obj c_fit]; rewrite N; trivial).
      split. { apply (frame_app _ _ _ [off_rows (OSingle i); ro; rf]); [reflexivity|]. intros x X. left. apply CE. exact X. }
      split.
      { unfold as_values, step, add. cbn [p_ind heap c_ind c_obj c_fit]. rewrite N. cbn [shows option_map fst].
        rewrite !shows_app; [reflexivity| |]; intros x X; apply (olist_lt s W); [apply in_fit|apply in_obj]; exact X. }
      split. { unfold as_values, step, add. cbn [p_ind]. rewrite N. reflexivity. }
      split; [reflexivity|]. split; [intros _; left; reflexivity|]. split; [congruence|]. split; [exact D0'|]. split; [exact D1'|]. split; [exact D2'|]. rewrite LN; lia.
    + split. { pose proof (wf_ext s [off_rows (@OOther V); ro; rf] (shots s) W) as X. rewrite N in X. exact X. }
      assert (CE : forall x, In x (cols (mkH (heap s ++ [off_rows (@OOther V); ro; rf]) None (c_obj s) (c_fit s) (shots s))) -> In x (cols s))
        by (intros x; unfold cols; cbn [c_ind c_obj c_fit]; rewrite N; trivial).
      split. { apply (frame_app _ _ _ [off_rows (@OOther V); ro; rf]); [reflexivity|]. intros x X. left. apply CE. exact X. }
      split.
      { unfold as_values, step, add. cbn [p_ind heap c_ind c_obj c_fit]. rewrite N. cbn [shows option_map fst].
        rewrite !shows_app; [reflexivity| |]; intros x X; apply (olist_lt s W); [apply in_fit|apply in_obj]; exact X. }
      split. { unfold as_values, step, add. cbn [p_ind]. rewrite N. reflexivity. }
      split; [reflexivity|]. split; [intros []|]. split; [congruence|]. split; [exact D0'|]. split; [exact D1'|]. split; [exact D2'|]. rewrite LN; lia.
  - rewrite A, B, C.
    set (h1 := heap s ++ [off_rows o; ro; rf]) in *.
    assert (VA : shows (heap s) (Some a) = Some (deref (heap s) a)) by reflexivity.
    assert (E1 : forall x, (x < length (heap s))%nat -> forall e, deref (h1 ++ e) x = deref (heap s) x).
    { intros x Lx e. unfold h1. rewrite <- app_assoc. apply deref_app1. exact Lx. }
    assert (NE : forall e, nth a (h1 ++ e) [] = deref (heap s) a) by (intros e; apply (E1 a LA)).
    destruct o as [l|i|].
    + cbn zeta iota beta.
      set (h2 := h1 ++ [deref h1 a ++ off_rows (OBatch l)]). set (h3 := h2 ++ [deref h2 b ++ ro]). set (h4 := h3 ++ [deref h3 c ++ rf]).
      cbn [fst snd heap c_ind c_obj c_fit shots].
      assert (L2 : length h2 = (length (heap s) + 4)%nat) by (unfold h2; rewrite app_length, LN; cbn; lia).
      assert (L3 : length h3 = (length (heap s) + 5)%nat) by (unfold h3; rewrite app_length, L2; cbn; lia).
      assert (L4 : length h4 = (length (heap s) + 6)%nat) by (unfold h4; rewrite app_length, L3; cbn; lia).
      assert (H4 : exists e, h4 = h1 ++ e) by (unfold h4, h3, h2; rewrite <- !app_assoc; eexists; reflexivity).
      destruct H4 as [e4 H4].
      assert (Va : deref h4 (length h1) = deref (heap s) a ++ l).
      { unfold h4, h3. rewrite deref_app1 by (rewrite app_length, L2, LN; lia). rewrite deref_app1 by lia. unfold h2. rewrite deref_last.
        rewrite <- (app_nil_r h1) at 1. rewrite (E1 a LA). reflexivity. }
      assert (Vb : deref h4 (length h2) = deref (heap s) b ++ ro).
      { unfold h4. rewrite deref_app1 by lia. unfold h3. rewrite deref_last. unfold h2. rewrite (E1 b LB). reflexivity. }
      assert (Vc : deref h4 (length h3) = deref (heap s) c ++ rf).
      { unfold h4. rewrite deref_last. unfold h3, h2. rewrite <- app_assoc. rewrite (E1 c LC). reflexivity. }
      split. { apply (wf3 _ (length h1) (length h2) (length h3)); try reflexivity. cbn [heap]. lia. }
      split. { apply (frame_app _ _ _ ([off_rows (OBatch l); ro; rf] ++ e4)); [cbn [heap]; rewrite H4; unfold h1; rewrite <- app_assoc; reflexivity|].
               intros x [<-|[<-|[<-|[]]]]; right; lia. }
      split. { unfold as_values, step, add. cbn [p_ind heap c_ind c_obj c_fit p_obj p_fit p_con p_unc p_nc]. rewrite A, B, C.
               cbn [shows option_map vstack r_obj r_fit r_con r_unc Nat.eqb fst].
               change (nth (length h1) h4 []) with (deref h4 (length h1)). change (nth (length h2) h4 []) with (deref h4 (length h2)).
               change (nth (length h3) h4 []) with (deref h4 (length h3)). rewrite Va, Vb, Vc. reflexivity. }
      split. { unfold as_values, step, add. cbn [p_ind p_obj p_fit]. rewrite A, B, C. reflexivity. }
      split; [reflexivity|].
      split. { intros _. right. intros x [<-|[<-|[<-|[]]]]; lia. }
      split. { intros _ x [<-|[<-|[<-|[]]]]; right; lia. }
      rewrite H4. split; [apply D0|]. split; [apply D1|]. split; [apply D2|]. rewrite <- H4; lia.
    + cbn zeta iota beta.
      set (h2 := h1 ++ [deref h1 a ++ off_rows (OSingle i)]). set (h3 := h2 ++ [deref h2 b ++ ro]). set (h4 := h3 ++ [deref h3 c ++ rf]).
      cbn [fst snd heap c_ind c_obj c_fit shots].
      assert (L2 : length h2 = (length (heap s) + 4)%nat) by (unfold h2; rewrite app_length, LN; cbn; lia).
      assert (L3 : length h3 = (length (heap s) + 5)%nat) by (unfold h3; rewrite app_length, L2; cbn; lia).
      assert (L4 : length h4 = (length (heap s) + 6)%nat) by (unfold h4; rewrite app_length, L3; cbn; lia).
      assert (H4 : exists e, h4 = h1 ++ e) by (unfold h4, h3, h2; rewrite <- !app_assoc; eexists; reflexivity).
      destruct H4 as [e4 H4].
      assert (Va : deref h4 (length h1) = deref (heap s) a ++ [i]).
      { unfold h4, h3. rewrite deref_app1 by (rewrite app_length, L2, LN; lia). rewrite deref_app1 by lia. unfold h2. rewrite deref_last.
        rewrite <- (app_nil_r h1) at 1. rewrite (E1 a LA). reflexivity. }
      assert (Vb : deref h4 (length h2) = deref (heap s) b ++ ro).
      { unfold h4. rewrite deref_app1 by lia. unfold h3. rewrite deref_last. unfold h2. rewrite (E1 b LB). reflexivity. }
      assert (Vc : deref h4 (length h3) = deref (heap s) c ++ rf).
      { unfold h4. rewrite deref_last. unfold h3, h2. rewrite <- app_assoc. rewrite (E1 c LC). reflexivity. }
      split. { apply (wf3 _ (length h1) (length h2) (length h3)); try reflexivity. cbn [heap]. lia. }
      split. { apply (frame_app _ _ _ ([off_rows (OSingle i); ro; rf] ++ e4)); [cbn [heap]; rewrite H4; unfold h1; rewrite <- app_assoc; reflexivity|].
               intros x [<-|[<-|[<-|[]]]]; right; lia. }
      split. { unfold as_values, step, add. cbn [p_ind heap c_ind c_obj c_fit p_obj p_fit p_con p_unc p_nc]. rewrite A, B, C.
               cbn [shows option_map vstack r_obj r_fit r_con r_unc Nat.eqb fst].
               change (nth (length h1) h4 []) with (deref h4 (length h1)). change (nth (length h2) h4 []) with (deref h4 (length h2)).
               change (nth (length h3) h4 []) with (deref h4 (length h3)). rewrite Va, Vb, Vc. reflexivity. }
      split. { unfold as_values, step, add. cbn [p_ind p_obj p_fit]. rewrite A, B, C. reflexivity. }
      split; [reflexivity|].
      split. { intros _. right. intros x [<-|[<-|[<-|[]]]]; lia. }
      split. { intros _ x [<-|[<-|[<-|[]]]]; right; lia. }
      rewrite H4. split; [apply D0|]. split; [apply D1|]. split; [apply D2|]. rewrite <- H4; lia.
    + cbn zeta iota beta.
      set (h2 := h1). set (h3 := h2 ++ [deref h2 b ++ ro]). set (h4 := h3 ++ [deref h3 c ++ rf]).
      cbn [fst snd heap c_ind c_obj c_fit shots].
      assert (L2 : length h2 = (length (heap s) + 3)%nat) by (unfold h2; exact LN).
      assert (L3 : length h3 = (length (heap s) + 4)%nat) by (unfold h3; rewrite app_length, L2; cbn; lia).
      assert (L4 : length h4 = (length (heap s) + 5)%nat) by (unfold h4; rewrite app_length, L3; cbn; lia).
      assert (H4 : exists e, h4 = h1 ++ e) by (unfold h4, h3, h2; rewrite <- !app_assoc; eexists; reflexivity).
      destruct H4 as [e4 H4].
      assert (Va : deref h4 a = deref (heap s) a) by (rewrite H4; apply (E1 a LA)).
      assert (Vb : deref h4 (length h2) = deref (heap s) b ++ ro).
      { unfold h4. rewrite deref_app1 by lia. unfold h3. rewrite deref_last. unfold h2. rewrite <- (app_nil_r h1) at 1. rewrite (E1 b LB). reflexivity. }
      assert (Vc : deref h4 (length h3) = deref (heap s) c ++ rf).
      { unfold h4. rewrite deref_last. unfold h3, h2. rewrite (E1 c LC). reflexivity. }
      split. { apply (wf3 _ a (length h2) (length h3)); try reflexivity. cbn [heap]. lia. }
      split. { apply (frame_app _ _ _ ([off_rows (@OOther V); ro; rf] ++ e4)); [cbn [heap]; rewrite H4; unfold h1; rewrite <- app_assoc; reflexivity|].
               intros x [<-|[<-|[<-|[]]]]; [left; apply in_ind; exact A|right; lia|right; lia]. }
      split. { unfold as_values, step, add. cbn [p_ind heap c_ind c_obj c_fit p_obj p_fit p_con p_unc p_nc]. rewrite A, B, C.
               cbn [shows option_map vstack r_obj r_fit r_con r_unc Nat.eqb fst].
               change (nth a h4 []) with (deref h4 a). change (nth (length h2) h4 []) with (deref h4 (length h2)).
               change (nth (length h3) h4 []) with (deref h4 (length h3)). rewrite Va, Vb, Vc. reflexivity. }
      split. { unfold as_values, step, add. cbn [p_ind p_obj p_fit]. rewrite A, B, C. reflexivity. }
      split; [reflexivity|].
      split. { intros []. }
      split. { intros _ x [<-|[<-|[<-|[]]]]; [left; apply in_ind; exact A|right; lia|right; lia]. }
      rewrite H4. split; [apply D0|]. split; [apply D1|]. split; [apply D2|]. rewrite <- H4; lia.
Qed.

Definition good s s' (out : res unit) (v : pop V V V unit unit * res unit) (rep : bool) : Prop :=
  wf s' /\ frame s s' rep /\ as_values s' = fst v /\ out = snd v /\ shots s' = shots s.

Lemma mask_rest_spec s m x ind : wf s -> c_ind s <> None -> ind = None \/ ind = Some (length (heap s)) ->
  good s (fst (hmask_rest m (heap s ++ [x]) ind s)) (snd (hmask_rest m (heap s ++ [x]) ind s))
       (mask_rest m (mkPop 0 (shows (heap s ++ [x]) ind) (p_obj (as_values s)) (p_fit (as_values s)) None None)) false.
Proof.
  intros W NI IE. destruct (wf_cases s W) as [N|(a & b & c & A & B & C & D & E & F & LA & LB & LC)]; [congruence|].
  unfold good, hmask_rest, hmask, mask_rest, as_values. cbn [p_obj p_fit p_nc p_ind p_unc p_con]. rewrite B, C. cbn [shows option_map col_mask].
  rewrite (deref_app1 _ _ b LB). change (nth b (heap s) []) with (deref (heap s) b). change (nth c (heap s) []) with (deref (heap s) c).
  destruct (Nat.eqb (length m) (length (deref (heap s) b))).
  - rewrite (deref_app1 _ _ c) by (rewrite app_length; lia). rewrite (deref_app1 _ _ c LC).
    rewrite !app_length. cbn [length].
    destruct (Nat.eqb (length m) (length (deref (heap s) c))); cbn [fst snd heap c_ind c_obj c_fit shots Nat.ltb Nat.leb].
    + set (h3 := ((heap s ++ [x]) ++ [mask_sel m (deref (heap s) b)]) ++ [mask_sel m (deref (heap s) c)]).
      assert (L3 : length h3 = (length (heap s) + 3)%nat) by (unfold h3; rewrite !app_length; cbn; lia).
      split; [|split; [|split; [|split; [|]]]].
      * destruct IE as [->| ->].
        -- apply wf_none; cbn [heap c_ind c_obj c_fit]; [reflexivity| | |]; intros; repeat match goal with H : Some _ = Some _ |- _ => injection H as <- end; lia.
        -- apply (wf3 _ (length (heap s)) (length (heap s) + 1) (length (heap s) + 1 + 1)); try reflexivity. cbn [heap]. lia.
      * apply (frame_app _ _ _ [x; mask_sel m (deref (heap s) b); mask_sel m (deref (heap s) c)]).
        { cbn [heap]. unfold h3. rewrite <- !app_assoc. reflexivity. }
        intros y Y. unfold cols in Y. cbn [c_ind c_obj c_fit] in Y. destruct IE as [->| ->]; cbn in Y; right; lia.
      * assert (S0 : shows h3 ind = shows (heap s ++ [x]) ind).
        { unfold h3. rewrite <- app_assoc. apply shows_app. intros y Y. destruct IE as [->| ->]; [congruence|]. injection Y as <-. rewrite app_length; cbn; lia. }
        rewrite S0. f_equal; cbn [shows option_map]; f_equal.
        -- change (nth (length (heap s) + 1) h3 []) with (deref h3 (length (heap s) + 1)). unfold h3. rewrite deref_app1 by (rewrite !app_length; cbn; lia).
           replace (length (heap s) + 1)%nat with (length (heap s ++ [x])) by (rewrite app_length; reflexivity). apply deref_last.
        -- change (nth (length (heap s) + 1 + 1) h3 []) with (deref h3 (length (heap s) + 1 + 1)). unfold h3.
           replace (length (heap s) + 1 + 1)%nat with (length ((heap s ++ [x]) ++ [mask_sel m (deref (heap s) b)])) by (rewrite !app_length; reflexivity). apply deref_last.
      * reflexivity.
      * reflexivity.
    + set (h3 := (heap s ++ [x]) ++ [mask_sel m (deref (heap s) b)]).
      assert (L3 : length h3 = (length (heap s) + 2)%nat) by (unfold h3; rewrite !app_length; cbn; lia).
      split; [|split; [|split; [|split; [|]]]].
      * destruct IE as [->| ->].
        -- apply wf_none; cbn [heap c_ind c_obj c_fit]; [reflexivity| | |]; intros; repeat match goal with H : Some _ = Some _ |- _ => injection H as <- end; lia.
        -- apply (wf3 _ (length (heap s)) (length (heap s) + 1) c); try reflexivity. cbn [heap]. lia.
      * apply (frame_app _ _ _ [x; mask_sel m (deref (heap s) b)]).
        { cbn [heap]. unfold h3. rewrite <- !app_assoc. reflexivity. }
        intros y Y. unfold cols in Y. cbn [c_ind c_obj c_fit] in Y. 
        destruct IE as [->| ->]; cbn in Y.
        -- destruct Y as [<-|[<-|[]]]; [right; lia|left; apply in_fit; exact C].
        -- destruct Y as [<-|[<-|[<-|[]]]]; [right; lia|right; lia|left; apply in_fit; exact C].
      * assert (S0 : shows h3 ind = shows (heap s ++ [x]) ind).
        { unfold h3. apply shows_app. intros y Y. destruct IE as [->| ->]; [congruence|]. injection Y as <-. rewrite app_length; cbn; lia. }
        rewrite S0. f_equal; cbn [shows option_map]; f_equal.
        -- change (nth (length (heap s) + 1) h3 []) with (deref h3 (length (heap s) + 1)). unfold h3.
           replace (length (heap s) + 1)%nat with (length (heap s ++ [x])) by (rewrite app_length; reflexivity). apply deref_last.
        -- change (nth c h3 []) with (deref h3 c). unfold h3. rewrite deref_app1 by (rewrite app_length; lia). apply deref_app1. exact LC.
      * reflexivity.
      * reflexivity.
  - cbn [fst snd heap c_ind c_obj c_fit shots].
    split; [|split; [|split; [|split; [|]]]].
    + destruct IE as [->| ->].
      * apply wf_none; cbn [heap c_ind c_obj c_fit]; [reflexivity| | |]; intros; repeat match goal with H : Some _ = Some _ |- _ => injection H as <- end; try assumption; rewrite app_length; lia.
      * apply (wf3 _ (length (heap s)) b c); try reflexivity. cbn [heap]. rewrite app_length. cbn. lia.
    + apply (frame_app _ _ _ [x]); [reflexivity|].
      intros y Y. unfold cols in Y. cbn [c_ind c_obj c_fit] in Y. 
      destruct IE as [->| ->]; cbn in Y.
      * destruct Y as [<-|[<-|[]]]; [left; apply in_obj; exact B|left; apply in_fit; exact C].
      * destruct Y as [<-|[<-|[<-|[]]]]; [right; lia|left; apply in_obj; exact B|left; apply in_fit; exact C].
    + f_equal; cbn [shows option_map]; f_equal; [apply (deref_app1 _ _ b LB)|apply (deref_app1 _ _ c LC)].
    + reflexivity.
    + reflexivity.
Qed.

Lemma keep_spec s zs : wf s -> good s (fst (hkeep s zs)) (snd (hkeep s zs)) (keep (as_values s) zs) false.
Proof.
  intros W. unfold hkeep, keep. change (p_ind (as_values s)) with (shows (heap s) (c_ind s)).
  case_eq (c_ind s); [intros a A|intros N]; cbn [shows option_map].
  - change (nth a (heap s) []) with (deref (heap s) a). destruct (norm_idxs (length (deref (heap s) a)) zs) as [idxs|e].
    + cbn zeta. pose proof (mask_rest_spec s (mask_set (repeat false (length (deref (heap s) a))) idxs true)
        (mask_sel (mask_set (repeat false (length (deref (heap s) a))) idxs true) (deref (heap s) a)) (Some (length (heap s))) W) as G.
      rewrite A in G. specialize (G ltac:(congruence) (or_intror eq_refl)).
      cbn [shows option_map] in G. change (nth (length (heap s)) ?q []) with (deref q (length (heap s))) in G. rewrite deref_last in G. exact G.
    + split; [exact W|]. split; [apply frame_refl|]. split; [reflexivity|]. split; reflexivity.
  - split; [exact W|]. split; [apply frame_refl|]. split; [reflexivity|]. split; reflexivity.
Qed.

Lemma delete_spec s zs : wf s -> good s (fst (hdelete s zs)) (snd (hdelete s zs)) (delete (as_values s) zs) false.
Proof.
  intros W. unfold hdelete, delete. change (p_ind (as_values s)) with (shows (heap s) (c_ind s)).
  case_eq (c_ind s); [intros a A|intros N]; cbn [shows option_map].
  - change (nth a (heap s) []) with (deref (heap s) a). destruct (norm_idxs (length (deref (heap s) a)) zs) as [idxs|e].
    + cbn zeta. set (rows := mask_sel (mask_set (repeat true (length (deref (heap s) a))) idxs false) (deref (heap s) a)).
      pose proof (mask_rest_spec s (mask_set (repeat true (length (deref (heap s) a))) idxs false) rows
         (match rows with [] => None | _ => Some (length (heap s)) end) W) as G.
      rewrite A in G. specialize (G ltac:(congruence)). 
      assert (IE : match rows with [] => None | _ => Some (length (heap s)) end = None \/ match rows with [] => None | _ => Some (length (heap s)) end = Some (length (heap s)))
        by (destruct rows; [left|right]; reflexivity).
      specialize (G IE).
      replace (shows (heap s ++ [rows]) match rows with [] => None | _ => Some (length (heap s)) end)
        with (match rows with [] => None | _ => Some rows end) in G; [exact G|].
      destruct rows as [|v r] eqn:ER; cbn [shows option_map]; [reflexivity|]. f_equal. symmetry. apply (deref_last (heap s) (v :: r)).
    + split; [exact W|]. split; [apply frame_refl|]. split; [reflexivity|]. split; reflexivity.
  - split; [exact W|]. split; [apply frame_refl|]. split; [reflexivity|]. split; reflexivity.
Qed.

Lemma reeval_spec s g : wf s -> good s (fst (hreeval s g)) (snd (hreeval s g)) (reevaluate (as_values s) g) false.
Proof.
  intros W. unfold hreeval, reevaluate. change (p_obj (as_values s)) with (shows (heap s) (c_obj s)).
  case_eq (c_obj s); [intros b B|intros N]; cbn [shows option_map].
  - assert (LB : (b < length (heap s))%nat) by (apply (olist_lt s W); apply in_obj; exact B).
    split.
    + destruct (wf_cases s W) as [N|(a & b' & c & A & B' & C & D & E & F & LA & _ & LC)].
      * apply wf_none; cbn [fst heap c_ind c_obj c_fit]; [exact N| | |].
        -- intros b' c B' C. injection C as <-. assert (b' = b) by congruence. subst. lia.
        -- intros b' B'. assert (b' = b) by congruence. subst. rewrite app_length. lia.
        -- intros c C. injection C as <-. rewrite app_length. cbn. lia.
      * apply (wf3 _ a b (length (heap s))); cbn [fst heap c_ind c_obj c_fit]; try assumption; try reflexivity.
        assert (b' = b) by congruence. subst b'. rewrite app_length. cbn. lia.
    + split.
      * apply (frame_app _ _ _ [map g (deref (heap s) b)]); [reflexivity|]. intros x X. unfold cols in X |- *. cbn [fst c_ind c_obj c_fit] in X.
        rewrite B. rewrite !in_app_iff in X |- *. destruct X as [X|[X|X]]; [left; left; exact X|left; right; left; exact X|].
        destruct X as [<-|[]]. right; lia.
      * split; [|split; reflexivity]. unfold as_values. cbn [fst heap c_ind c_obj c_fit p_nc p_ind p_obj p_con p_unc]. f_equal.
        -- apply shows_app. intros x X. apply (olist_lt s W). apply in_ind. exact X.
        -- cbn. f_equal. apply app_nth1. exact LB.
        -- cbn. f_equal. apply (deref_last (heap s)).
  - split; [exact W|]. split; [apply frame_refl|]. split; [reflexivity|]. split; reflexivity.
Qed.

Lemma cols_heap s h : cols (mkH h (c_ind s) (c_obj s) (c_fit s) (shots s)) = cols s.
Proof. reflexivity. Qed.
Lemma wf_heap s h : wf s -> length h = length (heap s) -> wf (mkH h (c_ind s) (c_obj s) (c_fit s) (shots s)).
Proof. intros (ND & L & O) E. split; [exact ND|]. split; [|exact O]. intros a X. cbn [heap]. rewrite E. apply L. exact X. Qed.
Lemma frame_heap s h : length h = length (heap s) -> (forall a, ~ In a (cols s) -> nth a h [] = nth a (heap s) []) ->
  frame s (mkH h (c_ind s) (c_obj s) (c_fit s) (shots s)) true.
Proof.
  intros E F. split; [cbn [heap]; lia|]. split; [|intros a X; left; exact X].
  intros a _ [X|X]; [discriminate|]. apply F. exact X.
Qed.

Lemma replace_spec s zs i o f : wf s ->
  good s (fst (hreplace s zs i o f)) (snd (hreplace s zs i o f)) (replace (as_values s) zs i (mkRes1 o f None None)) true /\
  (c_ind s = None -> fst (hreplace s zs i o f) = s) /\
  (c_ind (fst (hreplace s zs i o f)) = c_ind s) /\ (cols (fst (hreplace s zs i o f)) = cols s).
Proof.
  intros W. unfold hreplace, replace, hset. change (p_ind (as_values s)) with (shows (heap s) (c_ind s)).
  change (p_obj (as_values s)) with (shows (heap s) (c_obj s)). change (p_fit (as_values s)) with (shows (heap s) (c_fit s)).
  destruct (wf_cases s W) as [N|(a & b & c & A & B & C & D & E & F & LA & LB & LC)].
  { rewrite N. cbn. split; [|split; [reflexivity|split; [exact N|reflexivity]]]. split; [exact W|]. split; [apply frame_refl|].
    split; [unfold as_values; rewrite N; reflexivity|]. split; reflexivity. }
  rewrite A, B, C. cbn [shows option_map col_set bind r1_obj r1_fit r1_con r1_unc].
  change (nth a (heap s) []) with (deref (heap s) a). change (nth b (heap s) []) with (deref (heap s) b). change (nth c (heap s) []) with (deref (heap s) c).
  destruct (norm_idxs (length (deref (heap s) a)) zs) as [ia|e]; cbn [bind].
  2:{ split; [|split; [congruence|split; [exact A|reflexivity]]]. split; [exact W|]. split; [apply frame_refl|]. split; [reflexivity|]. split; reflexivity. }
  set (ra := fold_left (fun acc j => set_nth j i acc) ia (deref (heap s) a)).
  set (h1 := set_nth a ra (heap s)).
  assert (L1 : length h1 = length (heap s)) by apply set_nth_length.
  assert (O1 : forall x, x <> a -> deref h1 x = deref (heap s) x) by (intros x X; apply set_nth_other; congruence).
  assert (S1 : deref h1 a = ra) by (apply set_nth_same; exact LA).
  rewrite (O1 b) by congruence.
  assert (SH : forall h, mkH h (Some a) (Some b) (Some c) (shots s) = mkH h (c_ind s) (c_obj s) (c_fit s) (shots s)) by (intros; rewrite A, B, C; reflexivity).
  destruct (norm_idxs (length (deref (heap s) b)) zs) as [ib|e]; cbn [bind].
  2:{ cbn [fst snd]. rewrite !SH. split; [|split; [congruence|split; [exact A|reflexivity]]].
      split; [apply wf_heap; assumption|]. split.
      { apply frame_heap; [exact L1|]. intros x X. apply O1. intros ->. apply X. apply in_ind. exact A. }
      split; [|split; reflexivity]. unfold as_values. cbn [heap c_ind c_obj c_fit p_nc p_con p_unc p_obj p_fit]. rewrite A, B, C. cbn [shows option_map].
      change (nth ?x h1 []) with (deref h1 x). rewrite S1, (O1 b), (O1 c) by congruence. reflexivity. }
  set (rb := fold_left (fun acc j => set_nth j o acc) ib (deref (heap s) b)).
  set (h2 := set_nth b rb h1).
  assert (L2 : length h2 = length (heap s)) by (unfold h2; rewrite set_nth_length; exact L1).
  assert (O2 : forall x, x <> b -> deref h2 x = deref h1 x) by (intros x X; apply set_nth_other; congruence).
  assert (S2 : deref h2 b = rb) by (apply set_nth_same; lia).
  rewrite (O2 c), (O1 c) by congruence.
  destruct (norm_idxs (length (deref (heap s) c)) zs) as [ic|e]; cbn [bind].
  2:{ cbn [fst snd]. rewrite !SH. split; [|split; [congruence|split; [exact A|reflexivity]]].
      split; [apply wf_heap; assumption|]. split.
      { apply frame_heap; [exact L2|]. intros x X. change (deref h2 x = deref (heap s) x). rewrite O2, O1; [reflexivity| |];
          intros ->; apply X; [apply in_ind; exact A|apply in_obj; exact B]. }
      split; [|split; reflexivity]. unfold as_values. cbn [heap c_ind c_obj c_fit p_nc p_con p_unc p_obj p_fit]. rewrite A, B, C. cbn [shows option_map].
      change (nth ?x h2 []) with (deref h2 x). rewrite S2, (O2 a), (O2 c), S1, (O1 c) by congruence. reflexivity. }
  set (rc := fold_left (fun acc j => set_nth j f acc) ic (deref (heap s) c)).
  set (h3 := set_nth c rc h2).
  assert (L3 : length h3 = length (heap s)) by (unfold h3; rewrite set_nth_length; exact L2).
  assert (O3 : forall x, x <> c -> deref h3 x = deref h2 x) by (intros x X; apply set_nth_other; congruence).
  assert (S3 : deref h3 c = rc) by (apply set_nth_same; lia).
  cbn [fst snd]. rewrite !SH. split; [|split; [congruence|split; [exact A|reflexivity]]].
  split; [apply wf_heap; assumption|]. split.
  { apply frame_heap; [exact L3|]. intros x X. change (deref h3 x = deref (heap s) x). rewrite O3, O2, O1; [reflexivity| | |];
      intros ->; apply X; [apply in_ind; exact A|apply in_obj; exact B|apply in_fit; exact C]. }
  split; [|split; reflexivity]. unfold as_values. cbn [heap c_ind c_obj c_fit p_nc p_con p_unc p_obj p_fit]. rewrite A, B, C. cbn [shows option_map].
  change (nth ?x h3 []) with (deref h3 x). rewrite S3, (O3 a), (O3 b), (O2 a), S2, S1 by congruence. reflexivity.
Qed.

Lemma step_good s op : wf s ->
  wf (fst (hstep s op)) /\ frame s (fst (hstep s op)) (is_replace op) /\
  as_values (fst (hstep s op)) = run (as_values s) (value_call op) /\
  (forall v, value_call op = [v] -> snd (hstep s op) = snd (step (as_values s) v)) /\
  (forall e, In e (shots s) -> In e (shots (fst (hstep s op)))).
Proof.
  intros W. destruct op as [o ro rf|zs|zs|zs i o f|g|g]; cbn [hstep is_replace].
  - destruct (add_spec s o ro rf W) as (H1 & H2 & H3 & H4 & H5 & _). split; [exact H1|]. split; [exact H2|]. split; [exact H3|].
    split; [intros v V0; injection V0 as <-; exact H4|]. rewrite H5. trivial.
  - destruct (keep_spec s zs W) as (H1 & H2 & H3 & H4 & H5). split; [exact H1|]. split; [exact H2|]. split; [exact H3|].
    split; [intros v V0; injection V0 as <-; exact H4|]. rewrite H5. trivial.
  - destruct (delete_spec s zs W) as (H1 & H2 & H3 & H4 & H5). split; [exact H1|]. split; [exact H2|]. split; [exact H3|].
    split; [intros v V0; injection V0 as <-; exact H4|]. rewrite H5. trivial.
  - destruct (replace_spec s zs i o f W) as ((H1 & H2 & H3 & H4 & H5) & _). split; [exact H1|]. split; [exact H2|]. split; [exact H3|].
    split; [intros v V0; injection V0 as <-; exact H4|]. rewrite H5. trivial.
  - destruct (reeval_spec s g W) as (H1 & H2 & H3 & H4 & H5). split; [exact H1|]. split; [exact H2|]. split; [exact H3|].
    split; [intros v V0; injection V0 as <-; exact H4|]. rewrite H5. trivial.
  - cbn [fst snd]. split; [exact W|]. split; [exact (frame_refl s false)|]. split; [reflexivity|]. split; [discriminate|]. intros e X. right. exact X.
Qed.

Lemma hrun_cons s op r : hrun s (op :: r) = hrun (fst (hstep s op)) r.
Proof. reflexivity. Qed.
Lemma hrun_app s a b : hrun s (a ++ b) = hrun (hrun s a) b.
Proof. apply fold_left_app. Qed.

Lemma run_good : forall ops s, wf s -> wf (hrun s ops) /\ as_values (hrun s ops) = run (as_values s) (flat_map value_call ops) /\
  (length (heap s) <= length (heap (hrun s ops)))%nat.
Proof.
  induction ops as [|op r IH]; intros s W; [split; [exact W|split; [reflexivity|cbn; lia]]|].
  destruct (step_good s op W) as (W1 & F1 & E1 & _). rewrite hrun_cons. destruct (IH _ W1) as (W2 & E2 & L2). split; [exact W2|].
  split.
  - rewrite E2, E1. cbn [flat_map]. unfold run. rewrite fold_left_app. reflexivity.
  - destruct F1 as (L1 & _). lia.
Qed.

(** Arrays the population does not refer to are never written again. *)
Lemma unreferenced : forall ops s a, wf s -> (a < length (heap s))%nat -> ~ In a (cols s) ->
  deref (heap (hrun s ops)) a = deref (heap s) a.
Proof.
  induction ops as [|op r IH]; intros s a W L N; [reflexivity|].
  destruct (step_good s op W) as (W1 & (L1 & C1 & K1) & _). rewrite hrun_cons, IH; [apply C1; [exact L|right; exact N]|exact W1|lia|].
  intros X. destruct (K1 a X); [contradiction|lia].
Qed.

(** With no population to write into, or one that lies in newer arrays, the first [n] arrays are out of reach. *)
Definition beyond (n : nat) s : Prop := (n <= length (heap s))%nat /\ (c_ind s = None \/ forall a, In a (cols s) -> (n <= a)%nat).

Lemma mask_rest_ind s m h ind : c_ind (fst (hmask_rest m h ind s)) = ind.
Proof.
  unfold hmask_rest. destruct (hmask m h (c_obj s)) as [[h1 b]|e]; [|reflexivity]. destruct (hmask m h1 (c_fit s)) as [[h2 c]|e]; reflexivity.
Qed.

Lemma beyond_step n s op : wf s -> beyond n s -> beyond n (fst (hstep s op)) /\ forall a, (a < n)%nat -> deref (heap (fst (hstep s op))) a = deref (heap s) a.
Proof.
  intros W (L & B). destruct (step_good s op W) as (W1 & (L1 & C1 & K1) & _).
  split.
  - split; [lia|]. destruct B as [N|B].
    + destruct op as [o ro rf|zs|zs|zs i o f|g|g]; cbn [hstep] in *.
      * unfold hadd in *. rewrite N in *. destruct o as [l|x|]; cbn [fst c_ind]; [|left; reflexivity|left; reflexivity].
        right. intros a X. unfold cols in X. cbn [c_ind c_obj c_fit] in X. cbn in X. lia.
      * unfold hkeep. rewrite N. left. exact N.
      * unfold hdelete. rewrite N. left. exact N.
      * destruct (replace_spec s zs i o f W) as (_ & _ & E & _). left. rewrite E. exact N.
      * unfold hreeval. destruct (c_obj s); left; exact N.
      * left. exact N.
    + right. intros a X. destruct (K1 a X) as [X1|X1]; [apply B; exact X1|lia].
  - intros a La. destruct B as [N|B].
    + destruct op as [o ro rf|zs|zs|zs i o f|g|g]; try (apply C1; [lia|left; reflexivity]).
      destruct (replace_spec s zs i o f W) as (_ & E & _). cbn [hstep]. rewrite (E N). reflexivity.
    + apply C1; [lia|]. right. intros X. apply B in X. lia.
Qed.

Lemma beyond_run n : forall ops s, wf s -> beyond n s -> forall a, (a < n)%nat -> deref (heap (hrun s ops)) a = deref (heap s) a.
Proof.
  induction ops as [|op r IH]; intros s W B a La; [reflexivity|].
  destruct (beyond_step n s op W B) as (B1 & E1). destruct (step_good s op W) as (W1 & _). rewrite hrun_cons, IH; auto.
Qed.

(** Before the first addition only calls that build new arrays happen. *)
Lemma guarded_run n : forall ops s, wf s -> (n <= length (heap s))%nat -> replaces_after_add ops ->
  forall a, (a < n)%nat -> deref (heap (hrun s ops)) a = deref (heap s) a.
Proof.
  induction ops as [|op r IH]; intros s W L G a La; [reflexivity|].
  destruct (step_good s op W) as (W1 & (L1 & C1 & K1) & _). rewrite hrun_cons.
  assert (NR : is_replace op = false).
  { destruct op; try reflexivity. destruct (G [] zs i o f r eq_refl) as (? & ? & ? & [] & _). }
  assert (E1 : deref (heap (fst (hstep s op))) a = deref (heap s) a) by (apply C1; [lia|left; exact NR]).
  assert (D : (exists x ro rf, op = HAdd x ro rf /\ x <> OOther) \/ ~ (exists x ro rf, op = HAdd x ro rf /\ x <> OOther)).
  { destruct op as [x ro rf| | | | |]; try (right; intros (? & ? & ? & E & _); discriminate).
    destruct x as [l|v|]; [left; exists (OBatch l), ro, rf; split; [reflexivity|discriminate]|left; exists (OSingle v), ro, rf; split; [reflexivity|discriminate]|].
    right. intros (? & ? & ? & E & N). injection E as <- _ _. apply N. reflexivity. }
  destruct D as [(x & ro & rf & -> & N)|D].
  - rewrite (beyond_run n r _ W1); [exact E1| |exact La]. split; [lia|].
    destruct (add_spec s x ro rf W) as (_ & _ & _ & _ & _ & T & _). destruct (T ltac:(destruct x; [exact Logic.I|exact Logic.I|congruence])) as [T1|T1]; [left; exact T1|].
    right. intros b X. apply T1 in X. lia.
  - rewrite IH; [exact E1|exact W1|lia| |exact La]. intros pre zs i o f rest E.
    destruct (G (op :: pre) zs i o f rest) as (x & ro & rf & [X|X] & N); [cbn; rewrite E; reflexivity| |].
    + exfalso. apply D. exists x, ro, rf. split; [exact X|exact N].
    + exists x, ro, rf. split; assumption.
Qed.

Lemma shots_step s op : shots (fst (hstep s op)) = match op with HSnap g => (g, (c_ind s, c_obj s, c_fit s)) :: shots s | _ => shots s end.
Proof.
  destruct op as [o ro rf|zs|zs|zs i o f|g|g]; cbn [hstep]; [| | | | |reflexivity].
  - unfold hadd. destruct (c_ind s); [|destruct o; reflexivity]. destruct o; destruct (c_obj s); try reflexivity; destruct (c_fit s); reflexivity.
  - unfold hkeep, hmask_rest. destruct (c_ind s); [|reflexivity]. destruct (norm_idxs _ zs); [|reflexivity]. cbn zeta.
    destruct (hmask _ _ (c_obj s)) as [[h1 b]|e]; [|reflexivity]. destruct (hmask _ h1 (c_fit s)) as [[h2 c]|e]; reflexivity.
  - unfold hdelete, hmask_rest. destruct (c_ind s); [|reflexivity]. destruct (norm_idxs _ zs); [|reflexivity]. cbn zeta.
    destruct (hmask _ _ (c_obj s)) as [[h1 b]|e]; [|reflexivity]. destruct (hmask _ h1 (c_fit s)) as [[h2 c]|e]; reflexivity.
  - unfold hreplace. destruct (hset zs i _ _); [|reflexivity]. destruct (hset zs o _ _); [|reflexivity]. destruct (hset zs f _ _); reflexivity.
  - unfold hreeval. destruct (c_obj s); reflexivity.
Qed.

Lemma shots_run : forall ops s g, ~ In (HSnap g) ops ->
  find (fun e : Z * (option nat * option nat * option nat) => (fst e =? g)%Z) (shots (hrun s ops)) =
  find (fun e : Z * (option nat * option nat * option nat) => (fst e =? g)%Z) (shots s).
Proof.
  induction ops as [|op r IH]; intros s g N; [reflexivity|]. rewrite hrun_cons, IH; [|intros X; apply N; right; exact X].
  rewrite shots_step. destruct op as [| | | | |g']; try reflexivity. cbn [find fst]. destruct (Z.eqb_spec g' g) as [->|NE]; [|reflexivity].
  exfalso. apply N. left. reflexivity.
Qed.

Lemma table_after s g post (W : wf s) : ~ In (HSnap g) post ->
  (forall a, (a < length (heap s))%nat -> deref (heap (hrun (hsnap s g) post)) a = deref (heap s) a) ->
  table (hrun (hsnap s g) post) g = Some (columns s).
Proof.
  intros N F. unfold table. rewrite shots_run by exact N. cbn [hsnap shots find fst]. rewrite Z.eqb_refl. unfold columns.
  assert (E : forall o, (forall x, o = Some x -> In x (cols s)) -> shows (heap (hrun (hsnap s g) post)) o = shows (heap s) o).
  { intros [x|] X; cbn; [|reflexivity]. f_equal. apply F. apply (olist_lt s W). apply X. reflexivity. }
  rewrite !E; [reflexivity| | |]; intros x X; [apply in_fit|apply in_obj|apply in_ind]; exact X.
Qed.

Lemma blocks_guarded : forall (bs : list (list (hop V))), (forall b, In b bs -> block b) -> replaces_after_add (concat bs).
Proof.
  induction bs as [|b bs IH]; intros B pre zs i o f rest E; [destruct pre; discriminate|].
  cbn [concat] in E. pose proof (B b (or_introl eq_refl)) as B0. specialize (IH (fun x X => B x (or_intror X))).
  assert (C : forall u v, b ++ u = pre ++ HReplace zs i o f :: v -> (exists r, pre = b ++ r /\ u = r ++ HReplace zs i o f :: v) \/ (exists r r', b = pre ++ HReplace zs i o f :: r /\ r' = r)).
  { intros u v. clear. revert pre. induction b as [|y b IHb]; intros pre E; [left; exists pre; split; [reflexivity|exact E]|].
    destruct pre as [|z pre]; cbn in E; injection E as E1 E2.
    - right. exists b, b. split; [rewrite E1; reflexivity|reflexivity].
    - destruct (IHb pre E2) as [(r & P1 & P2)|(r & r' & P1 & _)].
      + left. exists r. split; [cbn; rewrite P1, E1; reflexivity|exact P2].
      + right. exists r, r. split; [cbn; rewrite P1, E1; reflexivity|reflexivity]. }
  destruct (C _ _ E) as [(r & P1 & P2)|(r & _ & P1 & _)].
  - destruct (IH r zs i o f rest P2) as (x & ro & rf & X & N). exists x, ro, rf. split; [rewrite P1; apply in_or_app; right; exact X|exact N].
  - rewrite P1 in B0. inversion B0 as [l ro rf E0|z0 E0|z0 E0|g E0|i0 ro rf z0 i1 o1 f1 E0|g E0];
      (destruct pre as [|p0 pre]; [discriminate|]); cbn in E0; injection E0 as Ep Eq; try (destruct pre; discriminate).
    subst p0. exists (OSingle i0), ro, rf. split; [left; reflexivity|discriminate].
Qed.
End P.
