From Verif Require Import Base M_Population Spec_Population P_Population M_Interrupt P_Interrupt.
Open Scope nat_scope.
Section P.
Context {I O F C U : Type}.
Notation pop := (pop I O F C U).
Notation member := (member I O F C U).
(** All columns that are there have [k] rows. *)
Definition even (k : nat) (q : pop) : Prop := (forall x, p_ind q = Some x -> length x = k) /\ (forall x, p_obj q = Some x -> length x = k) /\ (forall x, p_fit q = Some x -> length x = k) /\
  (forall x, p_con q = Some x -> length x = k) /\ (forall x, p_unc q = Some x -> length x = k).
Lemma rep_even (q : pop) ms : represents q (Some ms) -> even (length ms) q.
Proof.
  intros (H1 & H2 & H3 & H4 & H5 & _). split; [|split; [|split; [|split]]]; intros x E.
  - rewrite H1 in E. injection E as <-. apply map_length.
  - rewrite H2 in E. injection E as <-. apply map_length.
  - rewrite H3 in E. injection E as <-. apply map_length.
  - exact (rep_con_len _ _ _ x H4 E).
  - exact (rep_con_len _ _ _ x H5 E).
Qed.
Definition len_opt {A} (c : option (list A)) : list nat := match c with Some l => [length l] | None => [] end.
Definition lens (q : pop) : list nat := len_opt (p_ind q) ++ len_opt (p_obj q) ++ len_opt (p_fit q) ++ len_opt (p_con q) ++ len_opt (p_unc q).
Lemma rep_lens (q : pop) s : represents q s -> p_ind q <> None -> exists k, forall x, In x (lens q) -> x = k.
Proof.
  intros H Hi. destruct s as [ms|]; [|cbn in H; congruence]. destruct (rep_even q ms H) as (E1 & E2 & E3 & E4 & E5). exists (length ms). intros x Hx. unfold lens, len_opt in Hx.
  rewrite !in_app_iff in Hx. destruct Hx as [Hx|[Hx|[Hx|[Hx|Hx]]]].
  - destruct (p_ind q); [destruct Hx as [<-|[]]; auto|destruct Hx].
  - destruct (p_obj q); [destruct Hx as [<-|[]]; auto|destruct Hx].
  - destruct (p_fit q); [destruct Hx as [<-|[]]; auto|destruct Hx].
  - destruct (p_con q); [destruct Hx as [<-|[]]; auto|destruct Hx].
  - destruct (p_unc q); [destruct Hx as [<-|[]]; auto|destruct Hx].
Qed.
Lemma torn (q : pop) a b : p_ind q <> None -> In a (lens q) -> In b (lens q) -> a <> b -> ~ exists s, represents q s.
Proof. intros Hi Ha Hb Hn (s & Hs). destruct (rep_lens q s Hs Hi) as (k & Hk). apply Hn. rewrite (Hk a Ha), (Hk b Hb). reflexivity. Qed.
Lemma interrupted_all n (o : op I O F C U) (p : pop) : length (code_of o p) <= n -> interrupted n (code_of o p) p = fst (step p o).
Proof. intros H. unfold interrupted. rewrite firstn_all2 by exact H. rewrite code_step. reflexivity. Qed.
Ltac torn_tac := intros HX; exfalso; revert HX.

Lemma interrupted_add n (p : pop) ms (o : offs I) r : represents p (Some ms) -> o <> OOther -> rows_of o <> [] -> good_results (p_nc p) (length (rows_of o)) r -> (p_unc p = None <-> r_unc r = None) ->
  let q := interrupted n (add_code o r p) p in (exists s, represents q s) -> q = p \/ q = fst (add p o r).
Proof.
  intros H Ho Hne (G1 & G2 & G3 & G4) Hu. cbv zeta. set (q := interrupted n (add_code o r p) p).
  assert (Hlen : length (rows_of o) <> 0) by (destruct (rows_of o); [congruence|discriminate]).
  destruct (le_lt_dec (length (add_code o r p)) n) as [Hl|Hl].
  { intros _. right. unfold q. change (add_code o r p) with (code_of (OpAdd o r) p). rewrite interrupted_all by exact Hl. cbn [step]. destruct (add p o r); reflexivity. }
  subst q. destruct (rep_even p ms H) as (E1 & E2 & E3 & E4 & E5). destruct p as [nc ind obj fit con unc]. destruct H as (H1 & H2 & H3 & H4 & H5 & H6).
  cbn [p_nc p_ind p_obj p_fit p_con p_unc] in *. subst ind obj fit. unfold interrupted, add_code in *. cbn [p_ind p_nc] in *.
  set (inds' := match o with OBatch l => map m_ind ms ++ l | OSingle i => map m_ind ms ++ [i] | OOther => map m_ind ms end) in *.
  assert (Li : length inds' = length ms + length (rows_of o)). { unfold inds'. destruct o; cbn [rows_of] in *; rewrite ?app_length, map_length; auto; try congruence. }
  destruct n as [|[|[|n]]]; cbn [app firstn].
  - intros _. left. reflexivity.
  - intros HX. exfalso. revert HX. apply (torn _ (length inds') (length (map m_obj ms))); cbn; [discriminate|left; reflexivity|right; left; reflexivity|rewrite map_length; lia].
  - intros HX. exfalso. revert HX. cbn [exec some vstack p_obj set_ind fst]. apply (torn _ (length inds') (length (map m_fit ms))); cbn; [discriminate|left; reflexivity|right; right; left; reflexivity|rewrite map_length; lia].
  - cbn [exec some vstack p_obj set_ind set_obj set_fit p_fit fst p_nc p_ind p_con p_unc].
    destruct (Nat.eqb_spec nc 0) as [Hz|Hz].
    + assert (Hn : n = 0) by (cbn [app length] in Hl; lia). subst n. cbn [app firstn exec fst].
      destruct unc as [us|].
      * intros HX. exfalso. revert HX. assert (X : length us = length ms) by (apply E5; reflexivity). assert (Y : con = None) by tauto. subst con.
        apply (torn _ (length inds') (length us)); cbn; [discriminate|left; reflexivity|do 3 right; left; reflexivity|lia].
      * intros _. right. assert (Y : con = None) by tauto. subst con nc. assert (Hr : r_unc r = None) by tauto. unfold add. cbn [p_ind p_nc p_obj p_fit p_con p_unc vstack Nat.eqb]. rewrite Hr. reflexivity.
    + destruct con as [cs|]; [|exfalso; apply Hz; tauto]. assert (X : length cs = length ms) by (apply E4; reflexivity). destruct (r_con r) as [rc|] eqn:Erc; [|exfalso; tauto]. destruct G3 as [G3 _].
      destruct n as [|n]; cbn [app firstn exec some vstack p_con set_con p_nc p_ind p_obj p_fit p_unc fst].
      * intros HX. exfalso. revert HX. apply (torn _ (length inds') (length cs)); cbn; [discriminate|left; reflexivity|do 3 right; left; reflexivity|lia].
      * assert (Hn : n = 0) by (cbn [app length] in Hl; lia). subst n. cbn [firstn exec fst]. destruct unc as [us|].
        -- intros HX. exfalso. revert HX. assert (Y : length us = length ms) by (apply E5; reflexivity). apply (torn _ (length inds') (length us)); cbn; [discriminate|left; reflexivity|do 4 right; left; reflexivity|lia].
        -- intros _. right. assert (Hr : r_unc r = None) by tauto. unfold add. cbn [p_ind p_nc p_obj p_fit p_con p_unc vstack]. rewrite Hr, Erc. destruct (Nat.eqb_spec nc 0); [contradiction|]. reflexivity.
Qed.

Lemma mask_sel_full {A} : forall m (l : list A), length m = length l -> length (mask_sel m l) = length l -> m = repeat true (length l).
Proof.
  induction m as [|b m IH]; intros [|x l] H1 H2; cbn in *; try discriminate; auto. injection H1 as H1.
  assert (B : forall m' (l' : list A), length (mask_sel m' l') <= length l').
  { clear. induction m' as [|b m' IH]; intros [|x l']; cbn; try lia. destruct b; cbn; specialize (IH l'); lia. }
  destruct b; cbn in H2; [f_equal; apply IH; auto|]. specialize (B m l). lia.
Qed.
Lemma mask_sel_true {A} (l : list A) : mask_sel (repeat true (length l)) l = l.
Proof. induction l as [|x l IH]; cbn; auto. f_equal. exact IH. Qed.
Lemma mask_sel_le {A} : forall m (l : list A), length (mask_sel m l) <= length l.
Proof. induction m as [|b m IH]; intros [|x l]; cbn; try lia. destruct b; cbn; specialize (IH l); lia. Qed.
(** The statements of keep and of delete, for a mask [m] that drops somebody: [ind'] is what the individuals have become. *)
Lemma interrupted_mask n (p : pop) ms m (x : list I) : represents p (Some ms) -> length m = length ms -> length x = length (mask_sel m ms) -> length x <> length ms ->
  n < length (rest_code m p) -> ~ exists s, represents (fst (exec (firstn n (rest_code m p)) (set_ind (Some x) p))) s.
Proof.
  intros H Hm Hx Hne Hl. destruct (rep_even p ms H) as (E1 & E2 & E3 & E4 & E5). destruct p as [nc ind obj fit con unc]. destruct H as (H1 & H2 & H3 & H4 & H5 & H6).
  cbn [p_nc p_ind p_obj p_fit p_con p_unc] in *. subst ind obj fit. unfold rest_code in *. cbn [p_nc p_unc] in *.
  assert (Co : col_mask m (Some (map m_obj ms)) = Ok (mask_sel m (map m_obj ms))) by (unfold col_mask; rewrite map_length, Hm, Nat.eqb_refl; auto).
  assert (Cf : col_mask m (Some (map m_fit ms)) = Ok (mask_sel m (map m_fit ms))) by (unfold col_mask; rewrite map_length, Hm, Nat.eqb_refl; auto).
  destruct n as [|[|n]]; cbn [app firstn].
  - apply (torn _ (length x) (length (map m_obj ms))); cbn; [discriminate|left; reflexivity|right; left; reflexivity|rewrite map_length; lia].
  - cbn [exec set_ind p_obj]. rewrite Co. cbn [some fst]. apply (torn _ (length x) (length (map m_fit ms))); cbn; [discriminate|left; reflexivity|right; right; left; reflexivity|rewrite map_length; lia].
  - cbn [exec set_ind p_obj]. rewrite Co. unfold set_ind, set_obj, set_fit, set_unc, set_con. cbn [exec some p_fit p_nc p_ind p_obj p_con p_unc]. rewrite Cf. cbn [exec some set_fit p_fit p_nc p_ind p_obj p_con p_unc].
    destruct unc as [us|].
    + assert (Lu : length us = length ms) by (apply E5; reflexivity). assert (Cu : col_mask m (Some us) = Ok (mask_sel m us)) by (unfold col_mask; rewrite Lu, Hm, Nat.eqb_refl; auto).
      destruct n as [|n]; cbn [app firstn exec fst].
      * apply (torn _ (length x) (length us)); [cbn; discriminate|cbn; left; reflexivity|unfold lens; cbn [p_ind p_obj p_fit p_con p_unc]; rewrite !in_app_iff; right; right; right; right; left; reflexivity|lia].
      * cbn [p_unc]. rewrite Cu. cbn [exec some set_unc p_fit p_nc p_ind p_obj p_con p_unc]. destruct (Nat.ltb_spec 0 nc) as [Hz|Hz]; [|cbn [app length] in Hl; lia].
        assert (Hn : n = 0) by (cbn [app length] in Hl; lia). subst n. cbn [firstn exec fst]. destruct con as [cs|]; [|assert (nc = 0) by tauto; lia].
        assert (Lc : length cs = length ms) by (apply E4; reflexivity). apply (torn _ (length x) (length cs)); cbn; [discriminate|left; reflexivity|do 3 right; left; reflexivity|lia].
    + destruct (Nat.ltb_spec 0 nc) as [Hz|Hz]; [|cbn [app length] in Hl; lia].
      assert (Hn : n = 0) by (cbn [app length] in Hl; lia). subst n. cbn [app firstn exec fst]. destruct con as [cs|]; [|assert (nc = 0) by tauto; lia].
      assert (Lc : length cs = length ms) by (apply E4; reflexivity). apply (torn _ (length x) (length cs)); cbn; [discriminate|left; reflexivity|do 3 right; left; reflexivity|lia].
Qed.
(** A mask that drops nobody changes nothing. *)
Lemma interrupted_nothing n (p : pop) ms m : represents p (Some ms) -> m = repeat true (length ms) -> fst (exec (firstn n (rest_code m p)) p) = p.
Proof.
  intros H ->. destruct (rep_even p ms H) as (E1 & E2 & E3 & E4 & E5).
  assert (G : forall (code : list (pop -> res pop)), (forall a, In a code -> a p = Ok p) -> fst (exec code p) = p).
  { induction code as [|a t IH]; intros Ha; cbn [exec]; auto. rewrite (Ha a (or_introl eq_refl)). apply IH. intros b Hb. apply Ha. right. exact Hb. }
  apply G. intros a Ha. assert (Ha' : In a (rest_code (repeat true (length ms)) p)) by (rewrite <- (firstn_skipn n (rest_code (repeat true (length ms)) p)); apply in_or_app; left; exact Ha).
  assert (Cm : forall A (c : option (list A)), c <> None -> (forall x, c = Some x -> length x = length ms) -> col_mask (repeat true (length ms)) c = match c with Some l => Ok l | None => Err TypeError end).
  { intros A [l|] Hc Hl; [|congruence]. cbn [col_mask]. rewrite repeat_length, (Hl l eq_refl), Nat.eqb_refl. f_equal. rewrite <- (Hl l eq_refl). apply mask_sel_true. }
  destruct p as [nc ind obj fit con unc]. destruct H as (H1 & H2 & H3 & H4 & H5 & H6). cbn [p_nc p_ind p_obj p_fit p_con p_unc] in *. subst ind obj fit. unfold rest_code in Ha'. cbn [p_nc p_unc] in Ha'.
  cbn [app] in Ha'. destruct Ha' as [<-|[<-|Ha']].
  - cbn [p_obj]. rewrite Cm; [reflexivity|discriminate|exact E2].
  - cbn [p_fit]. rewrite Cm; [reflexivity|discriminate|exact E3].
  - apply in_app_or in Ha'. destruct Ha' as [Ha'|Ha'].
    + destruct unc as [us|]; [|destruct Ha']. destruct Ha' as [<-|[]]. cbn [p_unc]. rewrite Cm; [reflexivity|discriminate|exact E5].
    + destruct (Nat.ltb_spec 0 nc) as [Hz|Hz]; [|destruct Ha']. destruct Ha' as [<-|[]]. destruct con as [cs|]; [|assert (nc = 0) by tauto; lia]. cbn [p_con]. rewrite Cm; [reflexivity|discriminate|exact E4].
Qed.
Lemma set_same (p : pop) x : p_ind p = Some x -> set_ind (Some x) p = p.
Proof. intros H. destruct p as [nc ind obj fit con unc]. cbn in H. subst ind. reflexivity. Qed.
Lemma interrupted_keep n (p : pop) ms zs : represents p (Some ms) -> in_range (length ms) zs ->
  let q := interrupted n (keep_code zs p) p in (exists s, represents q s) -> q = p \/ q = fst (keep p zs).
Proof.
  intros H Hz. cbv zeta. destruct (le_lt_dec (length (keep_code zs p)) n) as [Hl|Hl].
  { intros _. right. change (keep_code zs p) with (code_of (OpKeep zs) p). rewrite interrupted_all by exact Hl. reflexivity. }
  pose proof H as (Hi & _). unfold interrupted, keep_code in *. rewrite Hi in *. rewrite map_length in *. destruct (norm_idxs_in_range _ _ Hz) as [idxs Hn]. rewrite Hn in *.
  set (m := mask_set (repeat false (length ms)) idxs true) in *. assert (Hm : length m = length ms) by (unfold m; rewrite length_mask_set, repeat_length; auto). clearbody m.
  destruct n as [|n]; [intros _; left; reflexivity|]. cbn [firstn exec length] in *.
  assert (Hx : length (mask_sel m (map m_ind ms)) = length (mask_sel m ms)) by (apply mask_sel_length_eq, map_length).
  destruct (Nat.eq_dec (length (mask_sel m ms)) (length ms)) as [E|E].
  - intros _. left. pose proof (mask_sel_full m ms Hm E) as ->. rewrite <- (map_length m_ind ms) at 2. rewrite mask_sel_true, set_same by exact Hi. eapply interrupted_nothing; eauto.
  - intros HX. exfalso. revert HX. apply interrupted_mask with ms; auto; lia.
Qed.
Lemma exec_ind_none (m : list bool) (p0 p : pop) code : p_ind p = None -> incl code (rest_code m p0) -> p_ind (fst (exec code p)) = None.
Proof.
  revert p. induction code as [|a t IH]; intros p Hp Hin; cbn [exec]; auto. assert (Ha : In a (rest_code m p0)) by (apply Hin; left; reflexivity).
  assert (X : forall p', a p = Ok p' -> p_ind p' = p_ind p).
  { unfold rest_code in Ha. cbn [app] in Ha. destruct Ha as [<-|[<-|Ha]]; [| |apply in_app_or in Ha; destruct Ha as [Ha|Ha]].
    - destruct (col_mask m (p_obj p)); cbn [some]; intros p' E; [injection E as <-; reflexivity|discriminate].
    - destruct (col_mask m (p_fit p)); cbn [some]; intros p' E; [injection E as <-; reflexivity|discriminate].
    - destruct (p_unc p0); [|destruct Ha]. destruct Ha as [<-|[]]. destruct (col_mask m (p_unc p)); cbn [some]; intros p' E; [injection E as <-; reflexivity|discriminate].
    - destruct (Nat.ltb 0 (p_nc p0)); [|destruct Ha]. destruct Ha as [<-|[]]. destruct (col_mask m (p_con p)); cbn [some]; intros p' E; [injection E as <-; reflexivity|discriminate]. }
  destruct (a p) as [p'|e] eqn:E; [|exact Hp]. apply IH; [rewrite (X p' eq_refl); exact Hp|]. intros b Hb. apply Hin. right. exact Hb.
Qed.
Lemma interrupted_delete n (p : pop) ms zs : represents p (Some ms) -> in_range (length ms) zs -> ms <> [] ->
  let q := interrupted n (delete_code zs p) p in (exists s, represents q s) -> q = p \/ q = fst (delete p zs) \/ p_ind q = None.
Proof.
  intros H Hz Hms. cbv zeta. destruct (le_lt_dec (length (delete_code zs p)) n) as [Hl|Hl].
  { intros _. right. left. change (delete_code zs p) with (code_of (OpDelete zs) p). rewrite interrupted_all by exact Hl. reflexivity. }
  pose proof H as (Hi & _). unfold interrupted, delete_code in *. rewrite Hi in *. rewrite map_length in *. destruct (norm_idxs_in_range _ _ Hz) as [idxs Hn]. rewrite Hn in *.
  set (m := mask_set (repeat true (length ms)) idxs false) in *. assert (Hm : length m = length ms) by (unfold m; rewrite length_mask_set, repeat_length; auto). clearbody m.
  destruct n as [|n]; [intros _; left; reflexivity|]. cbn [app firstn exec length] in *.
  assert (Hx : length (mask_sel m (map m_ind ms)) = length (mask_sel m ms)) by (apply mask_sel_length_eq, map_length).
  destruct (mask_sel m (map m_ind ms)) as [|x l] eqn:Em.
  - cbn [app length firstn] in *. destruct n as [|n].
    + cbn [firstn exec fst]. intros HX. exfalso. revert HX. change (set_ind (Some []) p) with (fst (exec (firstn 0 (rest_code m p)) (set_ind (Some []) p))). apply interrupted_mask with ms; auto.
      * cbn [length]. destruct ms; [congruence|discriminate].
      * unfold rest_code. cbn [app length]. lia.
    + intros _. right. right. cbn [firstn exec]. apply exec_ind_none with m p; [reflexivity|]. intros b Hb. rewrite <- (firstn_skipn n (rest_code m p)). apply in_or_app. left. exact Hb.
  - cbn [app] in *. rewrite <- Em in *. destruct (Nat.eq_dec (length (mask_sel m ms)) (length ms)) as [E|E].
    + intros _. left. pose proof (mask_sel_full m ms Hm E) as ->. rewrite <- (map_length m_ind ms) at 2. rewrite mask_sel_true, set_same by exact Hi. eapply interrupted_nothing; eauto.
    + intros HX. exfalso. revert HX. apply interrupted_mask with ms; auto; lia.
Qed.
End P.
