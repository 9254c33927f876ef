From Verif Require Import Base M_Population Spec_Population.
From Coq Require Import Permutation.

Section P.
Context {I O F C U : Type}.
Notation member := (member I O F C U).
Notation pop := (pop I O F C U).

Lemma in_range_b_spec n zs : in_range_b n zs = true <-> in_range n zs.
Proof.
  unfold in_range_b, in_range. rewrite forallb_forall, Forall_forall.
  split; intros H z Hz; specialize (H z Hz).
  - apply andb_true_iff in H. rewrite Z.leb_le, Z.ltb_lt in H. lia.
  - apply andb_true_iff. rewrite Z.leb_le, Z.ltb_lt. lia.
Qed.

(** ** masks *)
Lemma mask_true_select {A} (l : list A) n idxs zs :
  length l = n -> norm_idxs n zs = Ok idxs ->
  mask_sel (mask_set (repeat false n) idxs true) l = select_pos (listed n zs) l.
Proof.
  intros Hl Hn. apply norm_idxs_Ok in Hn. destruct Hn as [_ [_ Hm]].
  apply mask_sel_select.
  - rewrite length_mask_set, repeat_length; auto.
  - intros i b Hi. assert (i < n).
    { assert (nth_error (mask_set (repeat false n) idxs true) i <> None) by congruence.
      apply nth_error_Some in H. rewrite length_mask_set, repeat_length in H. auto. }
    simpl. rewrite <- Hm by auto.
    rewrite nth_error_mask_set, repeat_length, nth_error_repeat' in Hi.
    assert (Nat.ltb i n = true) as Hlt by (apply Nat.ltb_lt; auto).
    rewrite Hlt in Hi. destruct (mem_nat i idxs); congruence.
Qed.

Lemma mask_false_select {A} (l : list A) n idxs zs :
  length l = n -> norm_idxs n zs = Ok idxs ->
  mask_sel (mask_set (repeat true n) idxs false) l = select_pos (fun j => negb (listed n zs j)) l.
Proof.
  intros Hl Hn. apply norm_idxs_Ok in Hn. destruct Hn as [_ [_ Hm]].
  apply mask_sel_select.
  - rewrite length_mask_set, repeat_length; auto.
  - intros i b Hi. assert (i < n).
    { assert (nth_error (mask_set (repeat true n) idxs false) i <> None) by congruence.
      apply nth_error_Some in H. rewrite length_mask_set, repeat_length in H. auto. }
    simpl. rewrite <- Hm by auto.
    rewrite nth_error_mask_set, repeat_length, nth_error_repeat' in Hi.
    assert (Nat.ltb i n = true) as Hlt by (apply Nat.ltb_lt; auto).
    rewrite Hlt in Hi. destruct (mem_nat i idxs); simpl; congruence.
Qed.

Lemma rows_opt_length {A} (c : option (list A)) n :
  length (rows_opt c n) = match c with Some l => length l | None => n end.
Proof. destruct c; simpl; [apply map_length|apply repeat_length]. Qed.

Lemma rep_con_len {A B} (c : option (list A)) (f : B -> option A) (ms : list B) l :
  rows_opt c (length ms) = map f ms -> c = Some l -> length l = length ms.
Proof.
  intros H ->. apply (f_equal (@length _)) in H. simpl in H. rewrite !map_length in H. auto.
Qed.

Lemma mask_sel_length_eq {A B} m (l : list A) (l' : list B) :
  length l = length l' -> length (mask_sel m l) = length (mask_sel m l').
Proof.
  revert l l'; induction m as [|b m IH]; intros [|x l] [|y l'] H; simpl in *; try discriminate; auto.
  destruct b; simpl; auto.
Qed.

Lemma rows_opt_mask {A B} (c : option (list A)) (f : B -> option A) (ms : list B) m :
  length m = length ms ->
  rows_opt c (length ms) = map f ms ->
  rows_opt (match c with Some l => Some (mask_sel m l) | None => None end)
           (length (mask_sel m ms)) = map f (mask_sel m ms).
Proof.
  intros Hl H. rewrite <- mask_sel_map, <- H.
  destruct c as [l|]; simpl.
  - symmetry; apply mask_sel_map.
  - rewrite mask_sel_repeat by auto. f_equal.
    apply mask_sel_length_eq. rewrite repeat_length; auto.
Qed.

(** What the column-wise masking does to a represented population whose
    individuals have already been masked. *)
Lemma mask_rest_spec (p : pop) (ms : list member) m (ind' : option (list I)) :
  represents p (Some ms) -> length m = length ms ->
  mask_rest m (mkPop (p_nc p) ind' (p_obj p) (p_fit p) (p_con p) (p_unc p)) =
  (mkPop (p_nc p) ind' (Some (map m_obj (mask_sel m ms))) (Some (map m_fit (mask_sel m ms)))
         (match p_con p with Some l => Some (mask_sel m l) | None => None end)
         (match p_unc p with Some l => Some (mask_sel m l) | None => None end), Ok tt).
Proof.
  intros (Hi & Ho & Hf & Hc & Hu & Hnc) Hl.
  unfold mask_rest; simpl. rewrite Ho; simpl. rewrite map_length, Hl, Nat.eqb_refl.
  rewrite Hf; simpl. rewrite map_length, Hl, Nat.eqb_refl. rewrite !mask_sel_map.
  destruct (p_unc p) as [us|] eqn:Eu; simpl.
  - rewrite (rep_con_len _ _ _ us Hu eq_refl), Hl, Nat.eqb_refl; simpl.
    destruct (Nat.ltb_spec 0 (p_nc p)) as [Hn|Hn].
    + destruct (p_con p) as [cs|] eqn:Ec; simpl.
      * rewrite (rep_con_len _ _ _ cs Hc eq_refl), Hl, Nat.eqb_refl; auto.
      * exfalso. assert (p_nc p = 0) by (apply Hnc; auto). lia.
    + assert (p_nc p = 0) as H0 by lia. apply Hnc in H0. rewrite H0. auto.
  - destruct (Nat.ltb_spec 0 (p_nc p)) as [Hn|Hn].
    + destruct (p_con p) as [cs|] eqn:Ec; simpl.
      * rewrite (rep_con_len _ _ _ cs Hc eq_refl), Hl, Nat.eqb_refl; auto.
      * exfalso. assert (p_nc p = 0) by (apply Hnc; auto). lia.
    + assert (p_nc p = 0) as H0 by lia. apply Hnc in H0. rewrite H0. auto.
Qed.

(** ** keep *)
Lemma keep_ok (p : pop) ms zs :
  represents p (Some ms) -> in_range (length ms) zs ->
  exists p', keep p zs = (p', Ok tt) /\ represents p' (Some (spec_keep zs ms)) /\
             p_nc p' = p_nc p /\ (p_unc p' = None <-> p_unc p = None).
Proof.
  intros Hr Hz. pose proof Hr as (Hi & Ho & Hf & Hc & Hu & Hnc).
  unfold keep. rewrite Hi, map_length.
  destruct (norm_idxs_in_range _ _ Hz) as [idxs Hn]. rewrite Hn.
  set (m := mask_set (repeat false (length ms)) idxs true).
  assert (length m = length ms) as Hm by (unfold m; rewrite length_mask_set, repeat_length; auto).
  rewrite (mask_rest_spec p ms m) by auto.
  assert (mask_sel m ms = spec_keep zs ms) as Hs by (apply mask_true_select; auto).
  eexists; split; [reflexivity|]. split; [|split; [reflexivity|]].
  - unfold represents; simpl. rewrite mask_sel_map, Hs.
    repeat split; auto.
    + rewrite <- Hs. apply rows_opt_mask; auto.
    + rewrite <- Hs. apply rows_opt_mask; auto.
    + destruct (p_con p); [discriminate|]. intros _; apply Hnc; auto.
    + intros H0. apply Hnc in H0. rewrite H0; auto.
  - simpl. destruct (p_unc p); split; auto; discriminate.
Qed.

Lemma keep_err (p : pop) ms zs :
  represents p (Some ms) -> ~ in_range (length ms) zs -> keep p zs = (p, Err IndexError).
Proof.
  intros (Hi & _) Hz. unfold keep. rewrite Hi, map_length.
  destruct (norm_idxs (length ms) zs) as [l|e] eqn:E.
  - apply norm_idxs_Ok in E. tauto.
  - apply norm_idxs_Err in E. destruct E as [-> _]; auto.
Qed.

Lemma keep_none (p : pop) zs : represents p None -> keep p zs = (p, Err AttributeError).
Proof. intros H. unfold keep. simpl in H. rewrite H; auto. Qed.

(** ** delete *)
Lemma delete_ok (p : pop) ms zs :
  represents p (Some ms) -> in_range (length ms) zs ->
  exists p', delete p zs = (p', Ok tt) /\
             represents p' (match spec_drop zs ms with [] => None | l => Some l end) /\
             p_nc p' = p_nc p /\ (p_unc p' = None <-> p_unc p = None).
Proof.
  intros Hr Hz. pose proof Hr as (Hi & Ho & Hf & Hc & Hu & Hnc).
  unfold delete. rewrite Hi, map_length.
  destruct (norm_idxs_in_range _ _ Hz) as [idxs Hn]. rewrite Hn.
  set (m := mask_set (repeat true (length ms)) idxs false).
  assert (length m = length ms) as Hm by (unfold m; rewrite length_mask_set, repeat_length; auto).
  rewrite (mask_rest_spec p ms m) by auto.
  assert (mask_sel m ms = spec_drop zs ms) as Hs by (apply mask_false_select; auto).
  eexists; split; [reflexivity|]. split; [|split; [reflexivity|]].
  - rewrite mask_sel_map. rewrite <- Hs. destruct (mask_sel m ms) as [|m0 l0] eqn:E.
    + simpl. auto.
    + rewrite <- E. unfold represents; simpl.
      repeat split; auto.
      * rewrite E; simpl; auto.
      * apply rows_opt_mask; auto.
      * apply rows_opt_mask; auto.
      * destruct (p_con p); [discriminate|]. intros _; apply Hnc; auto.
      * intros H0. apply Hnc in H0. rewrite H0; auto.
  - simpl. destruct (p_unc p); split; auto; discriminate.
Qed.

Lemma delete_err (p : pop) ms zs :
  represents p (Some ms) -> ~ in_range (length ms) zs -> delete p zs = (p, Err IndexError).
Proof.
  intros (Hi & _) Hz. unfold delete. rewrite Hi, map_length.
  destruct (norm_idxs (length ms) zs) as [l|e] eqn:E.
  - apply norm_idxs_Ok in E. tauto.
  - apply norm_idxs_Err in E. destruct E as [-> _]; auto.
Qed.

Lemma delete_none (p : pop) zs : represents p None -> delete p zs = (p, Err AttributeError).
Proof. intros H. unfold delete. simpl in H. rewrite H; auto. Qed.

(** ** add *)
Lemma zip_members_proj is os fs (cs : list (option C)) (us : list (option U)) :
  length (os : list O) = length (is : list I) -> length (fs : list F) = length is ->
  length cs = length is -> length us = length is ->
  map m_ind (zip_members is os fs cs us) = is /\ map m_obj (zip_members is os fs cs us) = os /\
  map m_fit (zip_members is os fs cs us) = fs /\ map m_con (zip_members is os fs cs us) = cs /\
  map m_unc (zip_members is os fs cs us) = us.
Proof.
  revert os fs cs us; induction is as [|i is IH]; intros [|o os] [|f fs] [|c cs] [|u us] H1 H2 H3 H4;
    simpl in *; try discriminate; auto.
  destruct (IH os fs cs us) as (A1 & A2 & A3 & A4 & A5); auto.
  rewrite A1, A2, A3, A4, A5; auto.
Qed.

Lemma members_of_proj nc (is : list I) (r : results O F C U) :
  good_results nc (length is) r ->
  map m_ind (members_of is r) = is /\ map m_obj (members_of is r) = r_obj r /\
  map m_fit (members_of is r) = r_fit r /\
  map m_con (members_of is r) = rows_opt (r_con r) (length is) /\
  map m_unc (members_of is r) = rows_opt (r_unc r) (length is).
Proof.
  intros (H1 & H2 & H3 & H4). apply zip_members_proj; auto; rewrite rows_opt_length.
  - destruct (r_con r); tauto.
  - destruct (r_unc r); auto.
Qed.

Lemma members_of_length nc (is : list I) (r : results O F C U) :
  good_results nc (length is) r -> length (members_of is r) = length is.
Proof. intros H. apply members_of_proj in H. destruct H as (H & _). rewrite <- H at 2. now rewrite map_length. Qed.

Lemma forget_proj (ms : list member) :
  map m_ind (map forget_unc ms) = map m_ind ms /\ map m_obj (map forget_unc ms) = map m_obj ms /\
  map m_fit (map forget_unc ms) = map m_fit ms /\ map m_con (map forget_unc ms) = map m_con ms /\
  map m_unc (map forget_unc ms) = repeat None (length ms).
Proof.
  induction ms as [|m ms IH]; simpl; auto.
  destruct IH as (A1 & A2 & A3 & A4 & A5). rewrite A1, A2, A3, A4, A5; auto.
Qed.

Lemma add_first (p : pop) (l : list I) r :
  represents p None -> good_results (p_nc p) (length l) r ->
  add p (OBatch l) r = (mkPop (p_nc p) (Some l) (Some (r_obj r)) (Some (r_fit r)) (r_con r) (r_unc r), Ok r) /\
  represents (fst (add p (OBatch l) r)) (Some (members_of l r)).
Proof.
  intros H Hg. simpl in H. unfold add. rewrite H. split; auto.
  pose proof (members_of_length _ _ _ Hg) as Hl.
  destruct (members_of_proj _ _ _ Hg) as (A1 & A2 & A3 & A4 & A5).
  unfold represents; simpl. rewrite A1, A2, A3, A4, A5, Hl. repeat split; auto.
  - intros E. destruct Hg as (_ & _ & Hg & _). rewrite E in Hg; auto.
  - intros E. destruct Hg as (_ & _ & Hg & _). destruct (r_con r); auto. tauto.
Qed.

Lemma rows_opt_app {A} (c d : option (list A)) n k :
  (c = None <-> d = None) ->
  rows_opt (match c, d with Some x, Some y => Some (x ++ y) | _, _ => None end) (n + k) =
  rows_opt c n ++ rows_opt d k.
Proof.
  intros H. destruct c as [x|], d as [y|]; simpl.
  - apply map_app.
  - exfalso. destruct H as [_ H]. discriminate (H eq_refl).
  - exfalso. destruct H as [H _]. discriminate (H eq_refl).
  - apply repeat_app.
Qed.

Lemma con_None_iff (p : pop) ms (r : results O F C U) n :
  represents p (Some ms) -> good_results (p_nc p) n r -> (p_con p = None <-> r_con r = None).
Proof.
  intros (_ & _ & _ & _ & _ & Hn) (_ & _ & Hc & _). rewrite Hn.
  destruct (r_con r); split; intros; try discriminate; try tauto; auto.
Qed.

Definition con_app (p : pop) (r : results O F C U) :=
  match p_con p, r_con r with Some x, Some y => Some (x ++ y) | _, _ => None end.

Lemma add_eval (p : pop) ms o (r : results O F C U) :
  represents p (Some ms) -> o <> @OOther I -> good_results (p_nc p) (length (rows_of o)) r ->
  add p o r =
  let inds := Some (map m_ind ms ++ rows_of o) in
  let objs := Some (map m_obj ms ++ r_obj r) in
  let fits := Some (map m_fit ms ++ r_fit r) in
  match r_unc r, p_unc p with
  | None, _ => (mkPop (p_nc p) inds objs fits (con_app p r) None, Ok r)
  | Some u, Some u0 => (mkPop (p_nc p) inds objs fits (con_app p r) (Some (u0 ++ u)), Ok r)
  | Some u, None => (mkPop (p_nc p) inds objs fits (con_app p r) None, Err ValueError)
  end.
Proof.
  intros Hr Ho Hg. pose proof (con_None_iff _ _ _ _ Hr Hg) as Hci.
  pose proof Hr as (Hi & Hob & Hf & Hc & Hu & Hn).
  unfold add. rewrite Hi, Hob, Hf; simpl. unfold con_app.
  assert (match o with OBatch l => map m_ind ms ++ l | OSingle i => map m_ind ms ++ [i]
                     | OOther => map m_ind ms end = map m_ind ms ++ rows_of o) as Hrows.
  { destruct o; simpl; auto. congruence. }
  rewrite Hrows.
  destruct (Nat.eqb_spec (p_nc p) 0) as [H0|H0].
  - pose proof H0 as H0'. apply Hn in H0'. rewrite H0'.
    destruct (r_unc r) as [u|]; auto. destruct (p_unc p) as [u0|]; auto.
  - destruct (p_con p) as [c0|] eqn:Ec.
    2:{ exfalso; apply H0, Hn; auto. }
    destruct (r_con r) as [c|] eqn:Ec'.
    2:{ exfalso. destruct Hci as [_ Hci]. discriminate (Hci eq_refl). }
    simpl. destruct (r_unc r) as [u|]; auto. destruct (p_unc p) as [u0|]; auto.
Qed.

Definition uflag_ok (h : bool) (p : pop) : Prop := h = has (p_unc p).

Definition rel (nc : nat) (st : bool * option (list member)) (p : pop) : Prop :=
  p_nc p = nc /\ represents p (snd st) /\ (snd st = None \/ uflag_ok (fst st) p).

Lemma add_rel nc h ms (p : pop) (o : offs I) (r : results O F C U) :
  rel nc (h, Some ms) p -> good_op nc (OpAdd o r) ->
  rel nc (spec_step (h, Some ms) (OpAdd o r)) (fst (step p (OpAdd o r))).
Proof.
  intros (Hnc & Hr & Hh) (Ho & Hg). simpl in Hr, Hh.
  destruct Hh as [Hh|Hh]; [discriminate|]. unfold uflag_ok in Hh.
  subst nc.
  simpl step. rewrite (add_eval p ms o r) by auto.
  pose proof (members_of_length _ _ _ Hg) as Hl.
  destruct (members_of_proj _ _ _ Hg) as (A1 & A2 & A3 & A4 & A5).
  pose proof (con_None_iff _ _ _ _ Hr Hg) as Hci.
  pose proof Hr as (Hi & Hob & Hf & Hc & Hu & Hn).
  assert (Hcon : rows_opt (con_app p r) (length ms + length (rows_of o)) =
                 map m_con ms ++ rows_opt (r_con r) (length (rows_of o))).
  { unfold con_app. rewrite rows_opt_app by auto. rewrite Hc. auto. }
  assert (Hcn : con_app p r = None <-> p_nc p = 0).
  { unfold con_app. destruct (p_con p) as [c|].
    - destruct (r_con r); [|exfalso; destruct Hci as [_ Hci]; discriminate (Hci eq_refl)].
      rewrite <- Hn. split; discriminate.
    - rewrite <- Hn; tauto. }
  destruct (forget_proj ms) as (B1 & B2 & B3 & B4 & B5).
  destruct (forget_proj (members_of (rows_of o) r)) as (C1 & C2 & C3 & C4 & C5).
  assert (Hspec : spec_step (h, Some ms) (OpAdd o r) =
    let new := members_of (rows_of o) r in
      match r_unc r, h with
      | None, _ => (false, Some (map forget_unc ms ++ new))
      | Some _, true => (true, Some (ms ++ new))
      | Some _, false => (false, Some (ms ++ map forget_unc new))
      end) by (destruct o; auto).
  rewrite Hspec. cbn zeta.
  destruct (r_unc r) as [u|] eqn:Eu.
  - destruct (p_unc p) as [u0|] eqn:Eu0; simpl in Hh; subst h; simpl.
    + split; [reflexivity|]. split; [|right; reflexivity].
      unfold represents; simpl. rewrite !map_app, A1, A2, A3, A4, A5, app_length, Hl.
      repeat split; auto; try apply Hcn.
      simpl in Hu. rewrite Hu. auto.
    + split; [reflexivity|]. split; [|right; reflexivity].
      unfold represents; simpl.
      rewrite !map_app, C1, C2, C3, C4, C5, A1, A2, A3, A4, app_length, map_length, Hl.
      repeat split; auto; try apply Hcn.
      rewrite repeat_app. simpl in Hu. rewrite Hu. auto.
  - simpl. split; [reflexivity|]. split; [|right; reflexivity].
    unfold represents; simpl.
    rewrite !map_app, B1, B2, B3, B4, B5, A1, A2, A3, A4, A5, app_length, map_length, Hl.
    repeat split; auto; try apply Hcn.
    simpl. rewrite repeat_app; auto.
Qed.

(** ** replace *)
Lemma length_fold_set {A} (x : A) idxs l :
  length (fold_left (fun acc i => set_nth i x acc) idxs l) = length l.
Proof. revert l; induction idxs as [|i t IH]; intros l; simpl; auto. rewrite IH, length_set_nth; auto. Qed.

Lemma nth_error_fold_set {A} (x : A) idxs l j :
  nth_error (fold_left (fun acc i => set_nth i x acc) idxs l) j =
  if mem_nat j idxs then (if Nat.ltb j (length l) then Some x else None) else nth_error l j.
Proof.
  revert l; induction idxs as [|i t IH]; intros l; simpl; auto.
  rewrite IH, length_set_nth, nth_error_set_nth, (Nat.eqb_sym j i).
  destruct (Nat.eqb i j); simpl; auto. destruct (mem_nat j t); auto.
Qed.

Definition repl_pos {A} (f : nat -> bool) (x : A) (l : list A) : list A :=
  map (fun jm => if f (fst jm) then x else snd jm) (combine (seq 0 (length l)) l).

Lemma nth_error_combine_seq {A} (l : list A) k j :
  nth_error (combine (seq k (length l)) l) j =
  match nth_error l j with Some x => Some (k + j, x) | None => None end.
Proof.
  revert k j; induction l as [|x t IH]; intros k [|j]; simpl; auto.
  - f_equal. f_equal. lia.
  - rewrite IH. destruct (nth_error t j); auto. do 2 f_equal. lia.
Qed.

Lemma nth_error_repl_pos {A} f (x : A) l j :
  nth_error (repl_pos f x l) j =
  match nth_error l j with Some y => Some (if f j then x else y) | None => None end.
Proof.
  unfold repl_pos. rewrite nth_error_map, nth_error_combine_seq.
  destruct (nth_error l j); simpl; auto.
Qed.

Lemma fold_set_repl {A} (x : A) l n zs idxs :
  length l = n -> norm_idxs n zs = Ok idxs ->
  fold_left (fun acc i => set_nth i x acc) idxs l = repl_pos (listed n zs) x l.
Proof.
  intros Hl Hn. apply norm_idxs_Ok in Hn. destruct Hn as (_ & _ & Hm).
  apply nth_error_ext. intros j. rewrite nth_error_fold_set, nth_error_repl_pos.
  destruct (nth_error l j) as [y|] eqn:E.
  - assert (j < length l) as Hj by (apply nth_error_Some; congruence).
    rewrite Hm by lia. apply Nat.ltb_lt in Hj. rewrite Hj.
    destruct (listed n zs j); auto.
  - apply nth_error_None in E. destruct (mem_nat j idxs); auto.
    assert (Nat.ltb j (length l) = false) as -> by (apply Nat.ltb_ge; auto). auto.
Qed.

Lemma repl_pos_map {A B} (g : A -> B) f x l : repl_pos f (g x) (map g l) = map g (repl_pos f x l).
Proof.
  apply nth_error_ext. intros j. rewrite nth_error_map, !nth_error_repl_pos, nth_error_map.
  destruct (nth_error l j); simpl; auto. destruct (f j); auto.
Qed.

Lemma length_repl_pos {A} f (x : A) l : length (repl_pos f x l) = length l.
Proof. unfold repl_pos. rewrite map_length, combine_length, seq_length. lia. Qed.

Lemma repl_pos_repeat {A} f (x : A) n : repl_pos f x (repeat x n) = repeat x n.
Proof.
  apply nth_error_ext. intros j. rewrite nth_error_repl_pos, nth_error_repeat'.
  destruct (Nat.ltb j n); auto. destruct (f j); auto.
Qed.

Lemma col_set_ok {A B} (g : B -> A) (l : list A) (ms : list B) zs (x : A) :
  length l = length ms -> in_range (length ms) zs ->
  col_set zs x (Some l) = Ok (repl_pos (listed (length ms) zs) x l).
Proof.
  intros Hl Hz. unfold col_set. rewrite Hl.
  destruct (norm_idxs_in_range _ _ Hz) as [idxs Hn]. rewrite Hn; simpl.
  f_equal. apply fold_set_repl; auto.
Qed.

Lemma rows_opt_repl {A B} (g : B -> option A) (l : list A) (ms : list B) f (x : A) m :
  rows_opt (Some l) (length ms) = map g ms -> g m = Some x ->
  rows_opt (Some (repl_pos f x l)) (length (repl_pos f m ms)) = map g (repl_pos f m ms).
Proof.
  intros H Hm. simpl. rewrite <- repl_pos_map, <- repl_pos_map, <- H. rewrite Hm. auto.
Qed.

Lemma spec_replace_eq zs m (ms : list member) :
  spec_replace zs m ms = repl_pos (listed (length ms) zs) m ms.
Proof. reflexivity. Qed.

Lemma replace_ok (p : pop) ms zs i (r : result1 O F C U) :
  represents p (Some ms) -> in_range (length ms) zs ->
  good_result1 (p_nc p) (has (p_unc p)) r \/
     (match r1_con r with Some _ => p_nc p <> 0 | None => p_nc p = 0 end /\ (p_unc p = None \/ r1_unc r <> None)) ->
  exists p', replace p zs i r = (p', Ok tt) /\ p_nc p' = p_nc p /\ has (p_unc p') = has (p_unc p) /\
    represents p' (Some (spec_replace zs (mkMem i (r1_obj r) (r1_fit r) (r1_con r)
        (if has (p_unc p) then r1_unc r else None)) ms)).
Proof.
  intros Hr Hz Hg.
  assert (Hg' : match r1_con r with Some _ => p_nc p <> 0 | None => p_nc p = 0 end /\ (p_unc p = None \/ r1_unc r <> None)).
  { destruct Hg as [[G1 G2]|G]; auto. split; auto.
    destruct (r1_unc r); [right; discriminate|]. left. destruct (p_unc p); auto. discriminate. }
  clear Hg. destruct Hg' as [G1 G2].
  pose proof Hr as (Hi & Hob & Hf & Hc & Hu & Hn).
  unfold replace. rewrite Hi, Hob, Hf.
  rewrite (col_set_ok (@m_ind I O F C U) _ ms) by (auto; now rewrite map_length).
  rewrite (col_set_ok (@m_obj I O F C U) _ ms) by (auto; now rewrite map_length).
  rewrite (col_set_ok (@m_fit I O F C U) _ ms) by (auto; now rewrite map_length).
  set (mm := mkMem i (r1_obj r) (r1_fit r) (r1_con r) (if has (p_unc p) then r1_unc r else None)).
  rewrite spec_replace_eq.
  assert (E1 : repl_pos (listed (length ms) zs) i (map m_ind ms) = map m_ind (repl_pos (listed (length ms) zs) mm ms))
    by apply (repl_pos_map (@m_ind I O F C U) _ mm).
  assert (E2 : repl_pos (listed (length ms) zs) (r1_obj r) (map m_obj ms) = map m_obj (repl_pos (listed (length ms) zs) mm ms))
    by apply (repl_pos_map (@m_obj I O F C U) _ mm).
  assert (E3 : repl_pos (listed (length ms) zs) (r1_fit r) (map m_fit ms) = map m_fit (repl_pos (listed (length ms) zs) mm ms))
    by apply (repl_pos_map (@m_fit I O F C U) _ mm).
  rewrite E1, E2, E3.
  assert (Ec : exists con, (match p_con p, r1_con r with
               | None, _ => Ok None
               | Some _, Some c => bind (col_set zs c (p_con p)) (fun x => Ok (Some x))
               | Some _, None => Err Unmodelled end) = Ok con /\
       rows_opt con (length (repl_pos (listed (length ms) zs) mm ms)) = map m_con (repl_pos (listed (length ms) zs) mm ms)
       /\ (con = None <-> p_nc p = 0)).
  { destruct (p_con p) as [cs|] eqn:Ec.
    - destruct (r1_con r) as [c|] eqn:Er.
      + rewrite (col_set_ok (fun m : member => c) _ ms) by (auto; eapply rep_con_len; eauto).
        simpl. eexists; split; [reflexivity|]. split.
        * apply rows_opt_repl; auto.
        * split; [discriminate|]. intros; contradiction.
      + exfalso. apply Hn in G1. discriminate.
    - eexists; split; [reflexivity|]. split; auto.
      simpl. rewrite length_repl_pos.
      rewrite <- (repl_pos_map (@m_con I O F C U)). rewrite <- Hc. simpl.
      assert (r1_con r = None) as -> by (destruct (r1_con r); auto; exfalso; apply G1, Hn; auto).
      symmetry; apply repl_pos_repeat. }
  destruct Ec as (con & Ec & Ec1 & Ec2). rewrite Ec.
  assert (Eu : exists unc, (match p_unc p, r1_unc r with
               | None, _ => Ok None
               | Some _, Some c => bind (col_set zs c (p_unc p)) (fun x => Ok (Some x))
               | Some _, None => Err Unmodelled end) = Ok unc /\
       rows_opt unc (length (repl_pos (listed (length ms) zs) mm ms)) = map m_unc (repl_pos (listed (length ms) zs) mm ms)
       /\ has unc = has (p_unc p)).
  { destruct (p_unc p) as [us|] eqn:Eu.
    - destruct (r1_unc r) as [u|] eqn:Er.
      + rewrite (col_set_ok (fun m : member => u) _ ms) by (auto; eapply rep_con_len; eauto).
        simpl. eexists; split; [reflexivity|]. split; auto.
        apply rows_opt_repl; auto.
      + exfalso. destruct G2 as [G2|G2]; congruence.
    - eexists; split; [reflexivity|]. split; auto.
      simpl. rewrite length_repl_pos.
      rewrite <- (repl_pos_map (@m_unc I O F C U)). rewrite <- Hu. simpl.
      symmetry; apply repl_pos_repeat. }
  destruct Eu as (unc & Eu & Eu1 & Eu2). rewrite Eu.
  eexists; split; [reflexivity|]. split; [reflexivity|]. split; [exact Eu2|].
  unfold represents; simpl. repeat split; auto; apply Ec2.
Qed.

Lemma replace_err (p : pop) ms zs i r :
  represents p (Some ms) -> ~ in_range (length ms) zs -> replace p zs i r = (p, Err IndexError).
Proof.
  intros (Hi & _) Hz. unfold replace, col_set. rewrite Hi, map_length.
  destruct (norm_idxs (length ms) zs) as [l|e] eqn:E; simpl.
  - apply norm_idxs_Ok in E. tauto.
  - apply norm_idxs_Err in E. destruct E as [-> _]; auto.
Qed.

Lemma replace_none (p : pop) zs i r : represents p None -> replace p zs i r = (p, Err TypeError).
Proof. intros H. unfold replace. simpl in H. rewrite H; auto. Qed.

Lemma reevaluate_ok (p : pop) ms g : represents p (Some ms) ->
  exists p', reevaluate p g = (p', Ok tt) /\ represents p' (Some (map (refit g) ms)) /\ p_nc p' = p_nc p /\ p_unc p' = p_unc p.
Proof.
  intros (Hi & Ho & Hf & Hc & Hu & Hnc). unfold reevaluate. rewrite Ho. eexists. split; [reflexivity|]. split; [|split; reflexivity].
  unfold represents. cbn [p_ind p_obj p_fit p_con p_unc p_nc]. rewrite !map_map, map_length. cbn [refit m_ind m_obj m_fit m_con m_unc].
  split; [exact Hi|]. split; [auto|]. split; [auto|]. split; [exact Hc|]. split; [exact Hu|exact Hnc].
Qed.

(** ** histories *)
Definition uok (o : op I O F C U) (h : bool) : Prop :=
  match o with OpReplace _ _ r => r1_unc r <> None \/ h = false | _ => True end.

Lemma has_None {A} (x : option A) : has x = false -> x = None.
Proof. destruct x; auto; discriminate. Qed.

Lemma step_rel nc st (p : pop) o :
  rel nc st p -> good_op nc o -> (snd st = None \/ uok o (fst st)) ->
  rel nc (spec_step st o) (fst (step p o)).
Proof.
  intros Hrel Hg Hu. destruct st as [h [ms|]].
  - destruct o as [o r|zs|zs|zs i r|g].
    + apply add_rel; auto.
    + destruct Hrel as (Hnc & Hr & [Hh|Hh]); [discriminate|]. simpl in Hr, Hh |- *.
      destruct (in_range_b (length ms) zs) eqn:E.
      * apply in_range_b_spec in E. destruct (keep_ok _ _ _ Hr E) as (p' & -> & R1 & R2 & R3).
        simpl. split; [congruence|]. split; auto. right. unfold uflag_ok in *. simpl in *. rewrite Hh.
        destruct (p_unc p), (p_unc p'); auto; exfalso.
        -- destruct R3 as [R3 _]; discriminate (R3 eq_refl).
        -- destruct R3 as [_ R3]; discriminate (R3 eq_refl).
      * rewrite (keep_err p ms zs) by (auto; rewrite <- in_range_b_spec; congruence).
        simpl. split; auto.
    + destruct Hrel as (Hnc & Hr & [Hh|Hh]); [discriminate|]. simpl in Hr, Hh |- *.
      destruct (in_range_b (length ms) zs) eqn:E.
      * apply in_range_b_spec in E. destruct (delete_ok _ _ _ Hr E) as (p' & -> & R1 & R2 & R3).
        simpl. split; [congruence|]. split; auto. right. unfold uflag_ok in *. simpl in *. rewrite Hh.
        destruct (p_unc p), (p_unc p'); auto; exfalso.
        -- destruct R3 as [R3 _]; discriminate (R3 eq_refl).
        -- destruct R3 as [_ R3]; discriminate (R3 eq_refl).
      * rewrite (delete_err p ms zs) by (auto; rewrite <- in_range_b_spec; congruence).
        simpl. split; auto.
    + destruct Hrel as (Hnc & Hr & [Hh|Hh]); [discriminate|]. simpl in Hr, Hh |- *.
      unfold uflag_ok in Hh; simpl in Hh.
      destruct (in_range_b (length ms) zs) eqn:E.
      * apply in_range_b_spec in E.
        destruct (replace_ok p ms zs i r Hr E) as (p' & -> & R1 & R2 & R3).
        { right. subst nc. simpl in Hg. split; auto.
          destruct Hu as [Hu|[Hu|Hu]]; [discriminate|auto|]. simpl in Hu. left. apply has_None. congruence. }
        simpl. split; [congruence|]. split; auto.
        -- rewrite Hh. auto.
        -- right. unfold uflag_ok; simpl. congruence.
      * rewrite (replace_err p ms zs) by (auto; rewrite <- in_range_b_spec; congruence).
        simpl. split; auto.
    + destruct Hrel as (Hnc & Hr & [Hh|Hh]); [discriminate|]. simpl in Hr, Hh |- *.
      destruct (reevaluate_ok p ms g Hr) as (p' & -> & R1 & R2 & R3). simpl. split; [congruence|]. split; auto.
      right. unfold uflag_ok in *. simpl in *. rewrite R3. exact Hh.
  - destruct Hrel as (Hnc & Hr & _). simpl in Hr.
    destruct o as [o r|zs|zs|zs i r|g]; simpl.
    + destruct o as [l|i|].
      * destruct Hg as (_ & Hg). simpl in Hg. subst nc.
        destruct (add_first p l r Hr Hg) as [E1 E2]. rewrite E1 in *. simpl in *.
        split; auto. split; auto. right; reflexivity.
      * unfold add; rewrite Hr; simpl. repeat split; simpl; auto.
      * exfalso. destruct Hg as [Hg _]; auto.
    + rewrite keep_none by auto. repeat split; simpl; auto.
    + rewrite delete_none by auto. repeat split; simpl; auto.
    + rewrite replace_none by auto. repeat split; simpl; auto.
    + unfold reevaluate. destruct (p_obj p); repeat split; simpl; auto.
Qed.

(** [h] stays false if uncertainties are never reported. *)
Lemma spec_step_no_unc (st : bool * option (list member)) (o : op I O F C U) : add_no_unc o -> fst st = false -> fst (spec_step st o) = false.
Proof.
  intros Ha Hh. destruct st as [h [ms|]]; simpl in Hh; subst h;
  destruct o as [o r|zs|zs|zs i r|g]; simpl in *; try rewrite Ha; auto;
  try (destruct (in_range_b (length ms) zs); auto; fail);
  destruct o; simpl; auto.
Qed.

Lemma run_rel nc ops st (p : pop) :
  rel nc st p -> Forall (good_op nc) ops ->
  (Forall replace_has_unc ops \/ (Forall add_no_unc ops /\ fst st = false)) ->
  rel nc (fold_left spec_step ops st) (run p ops).
Proof.
  revert st p; induction ops as [|o ops IH]; intros st p Hrel Hg Hu; simpl; auto.
  inversion Hg as [|? ? Hg1 Hg2]; subst.
  apply IH; auto.
  - apply step_rel; auto. right. destruct o; simpl; auto.
    destruct Hu as [Hu|[_ Hu]]; auto. left. inversion Hu; auto.
  - destruct Hu as [Hu|[Hu1 Hu2]].
    + left; inversion Hu; auto.
    + right. inversion Hu1; subst. split; auto. apply spec_step_no_unc; auto.
Qed.

Lemma population_refines nc (ops : list (op I O F C U)) :
  good_history nc ops ->
  represents (run (fresh nc) ops) (snd (spec_run ops)).
Proof.
  intros [Hg Hu]. apply (run_rel nc ops (false, None) (fresh nc)); auto.
  - repeat split; simpl; auto.
  - destruct Hu; [left|right]; auto.
Qed.

(** ** provenance *)
Definition key (m : member) := (m_ind m, m_obj m, m_con m).
Definition with_fit (k : I * O * option C) (f : F) : I * O * F * option C := let '(i, o, c) := k in (i, o, f, c).
(** The member's evaluation is in the history; its fitness is the evaluated one or was computed anew by a later call. *)
Definition sourced (ev : list (I * O * F * option C)) (gs : (O -> F) -> Prop) (m : member) : Prop :=
  exists f, In (with_fit (key m) f) ev /\ (m_fit m = f \/ exists g, gs g /\ m_fit m = g (m_obj m)).

Lemma select_pos_incl {A} f (l : list A) : incl (select_pos f l) l.
Proof.
  intros x Hx. apply In_select_pos_from in Hx. destruct Hx as (i & Hi & _).
  eapply nth_error_In; eauto.
Qed.

Lemma repl_pos_In {A} f (x y : A) l : In y (repl_pos f x l) -> y = x \/ In y l.
Proof.
  intros H. apply In_nth_error in H. destruct H as [j Hj].
  rewrite nth_error_repl_pos in Hj. destruct (nth_error l j) eqn:E; [|discriminate].
  destruct (f j); injection Hj as <-; auto. right. eapply nth_error_In; eauto.
Qed.

(** One call: a member after it is new with its own evaluation, or an old one, or an old one refitted by this call. *)
Lemma spec_step_prov st (o : op I O F C U) (m : member) :
  match snd (spec_step st o) with Some ms => In m ms | None => False end ->
  In (with_fit (key m) (m_fit m)) (evaluated [o]) \/
  match snd st with
  | Some ms => exists m', In m' ms /\ key m' = key m /\ (m_fit m = m_fit m' \/ exists g, o = OpReeval g /\ m_fit m = g (m_obj m))
  | None => False
  end.
Proof.
  assert (Hnew : forall rows r m0, In m0 (members_of rows r) -> In (with_fit (key m0) (m_fit m0)) (map (fun m : member => (m_ind m, m_obj m, m_fit m, m_con m)) (members_of rows r))).
  { intros rows r m0 H. apply (in_map (fun m : member => (m_ind m, m_obj m, m_fit m, m_con m))) in H. exact H. }
  assert (Hsame : forall ms : list member, In m ms -> exists m', In m' ms /\ key m' = key m /\ (m_fit m = m_fit m' \/ exists g, o = OpReeval g /\ m_fit m = g (m_obj m))).
  { intros ms H. exists m. auto. }
  destruct st as [h [ms|]]; destruct o as [o r|zs|zs|zs i r|g]; cbn [spec_step snd evaluated flat_map app].
  - rewrite app_nil_r.
    assert (N : forall (new : list member), (forall m0, In m0 new -> exists m1, In m1 (members_of (rows_of o) r) /\ key m1 = key m0 /\ m_fit m1 = m_fit m0) ->
       forall old, (forall m0, In m0 old -> exists m1, In m1 ms /\ key m1 = key m0 /\ m_fit m0 = m_fit m1) ->
       In m (old ++ new) ->
       In (with_fit (key m) (m_fit m)) (map (fun m : member => (m_ind m, m_obj m, m_fit m, m_con m)) (members_of (rows_of o) r)) \/
       (exists m', In m' ms /\ key m' = key m /\ (m_fit m = m_fit m' \/ exists g, OpAdd o r = OpReeval g /\ m_fit m = g (m_obj m)))).
    { intros new Hn old Ho Hin. apply in_app_or in Hin. destruct Hin as [Hin|Hin].
      - right. destruct (Ho m Hin) as (m1 & A & B & D). exists m1. auto.
      - left. destruct (Hn m Hin) as (m1 & A & B & D). rewrite <- B, <- D. apply Hnew; auto. }
    assert (Id : forall l m0, In m0 l -> exists m1, In m1 l /\ key m1 = key m0 /\ m_fit m1 = m_fit m0) by (intros l m0 H; exists m0; auto).
    assert (Id' : forall l m0, In m0 l -> exists m1, In m1 l /\ key m1 = key m0 /\ m_fit m0 = m_fit m1) by (intros l m0 H; exists m0; auto).
    assert (Fg : forall l m0, In m0 (map forget_unc l) -> exists m1 : member, In m1 l /\ key m1 = key m0 /\ m_fit m1 = m_fit m0).
    { intros l m0 H. apply in_map_iff in H. destruct H as (m1 & <- & H). exists m1. auto. }
    assert (Fg' : forall l m0, In m0 (map forget_unc l) -> exists m1 : member, In m1 l /\ key m1 = key m0 /\ m_fit m0 = m_fit m1).
    { intros l m0 H. apply in_map_iff in H. destruct H as (m1 & <- & H). exists m1. auto. }
    destruct (r_unc r) as [us|] eqn:Eu; [destruct h|]; destruct o as [l|i|]; intros Hin;
      first [eapply N; [apply Id|apply Id'|exact Hin] | eapply N; [apply Fg|apply Id'|exact Hin] | eapply N; [apply Id|apply Fg'|exact Hin]].
  - destruct (in_range_b (length ms) zs); cbn [snd]; intros Hin; right; apply Hsame; auto.
    apply select_pos_incl in Hin; auto.
  - destruct (in_range_b (length ms) zs); cbn [snd]; intros Hin; right.
    + destruct (spec_drop zs ms) as [|a l] eqn:E; [tauto|]. rewrite <- E in Hin.
      apply select_pos_incl in Hin. apply Hsame; auto.
    + apply Hsame; auto.
  - destruct (in_range_b (length ms) zs); cbn [snd]; intros Hin.
    + apply repl_pos_In in Hin. destruct Hin as [->|Hin]; [left; left; reflexivity|right; apply Hsame; auto].
    + right; apply Hsame; auto.
  - intros Hin. right. apply in_map_iff in Hin. destruct Hin as (m' & <- & Hm'). exists m'. split; auto. split; [reflexivity|]. right. exists g. split; reflexivity.
  - destruct o; cbn [snd]; try tauto. intros Hin. left. rewrite app_nil_r. apply Hnew; auto.
  - tauto.
  - tauto.
  - tauto.
  - tauto.
Qed.

Lemma evaluated_cons o (ops : list (op I O F C U)) : evaluated (o :: ops) = evaluated [o] ++ evaluated ops.
Proof. unfold evaluated; simpl. rewrite app_nil_r; auto. Qed.

Lemma spec_fold_prov (ops : list (op I O F C U)) st (ev : list (I * O * F * option C)) (gs : (O -> F) -> Prop) (m : member) :
  (forall ms, snd st = Some ms -> forall m, In m ms -> sourced ev gs m) ->
  match snd (fold_left spec_step ops st) with Some ms => In m ms | None => False end ->
  sourced (ev ++ evaluated ops) (fun g => gs g \/ In (OpReeval g) ops) m.
Proof.
  revert st ev gs m; induction ops as [|o ops IH]; intros st ev gs m Hst; cbn [fold_left].
  - intros H. destruct (snd st) as [ms|] eqn:E; [|contradiction]. destruct (Hst ms eq_refl m H) as (f & A & B).
    exists f. split; [apply in_or_app; auto|]. destruct B as [B|(g & B & D)]; auto. right. exists g. auto.
  - intros H. rewrite evaluated_cons, app_assoc.
    destruct (IH (spec_step st o) (ev ++ evaluated [o]) (fun g => gs g \/ o = OpReeval g) m) as (f & A & B); auto.
    + intros ms E m0 H0. destruct (spec_step_prov st o m0) as [H1|H1].
      * rewrite E; auto.
      * exists (m_fit m0). split; [apply in_or_app; auto|auto].
      * destruct (snd st) as [ms0|] eqn:Es; [|contradiction]. destruct H1 as (m' & I1 & I2 & I3).
        destruct (Hst ms0 eq_refl m' I1) as (f & A & B). exists f. rewrite <- I2. split; [apply in_or_app; auto|].
        destruct I3 as [I3|(g & I3 & I4)]; [|right; exists g; auto].
        rewrite I3. destruct B as [B|(g & B & D)]; auto. right. exists g. split; auto. rewrite D.
        unfold key in I2. injection I2 as E1 E2 E3. rewrite E2. auto.
    + exists f. split; auto. destruct B as [B|(g & [B|B] & D)]; auto; right; exists g; split; auto.
      * destruct B as [B|B]; [left; auto|right; left; auto].
      * right; right; auto.
Qed.

Lemma population_aligned nc (ops : list (op I O F C U)) :
  good_history nc ops ->
  p_ind (run (fresh nc) ops) = None \/
  exists ms : list member,
    represents (run (fresh nc) ops) (Some ms) /\
    (forall m, In m ms -> exists f, In (m_ind m, m_obj m, f, m_con m) (evaluated ops) /\
       (m_fit m = f \/ exists g, In (OpReeval g) ops /\ m_fit m = g (m_obj m))).
Proof.
  intros H. pose proof (population_refines nc ops H) as Hr. unfold spec_run in Hr.
  destruct (snd (fold_left spec_step ops (false, None))) as [ms|] eqn:E.
  - right. exists ms. split; auto. intros m Hm.
    destruct (spec_fold_prov ops (false, None) [] (fun _ => False) m) as (f & A & B).
    + intros ms0 H0; discriminate.
    + rewrite E; auto.
    + exists f. split; [exact A|]. destruct B as [B|(g & [[]|B] & D)]; auto. right. exists g. auto.
  - left. auto.
Qed.

(** ** frame statements used by the property file *)
Lemma keep_delete_partition (p : pop) ms zs :
  represents p (Some ms) -> in_range (length ms) zs ->
  Permutation (spec_keep zs ms ++ spec_drop zs ms) ms.
Proof. intros _ _. apply Permutation_select_partition. Qed.

Lemma delete_all_refill (p : pop) ms zs l r :
  represents p (Some ms) -> in_range (length ms) zs ->
  (forall j, j < length ms -> listed (length ms) zs j = true) ->
  good_results (p_nc p) (length l) r ->
  exists p', delete p zs = (p', Ok tt) /\ p_ind p' = None /\
    (forall zs', keep p' zs' = (p', Err AttributeError) /\ delete p' zs' = (p', Err AttributeError)) /\
    add p' (OBatch l) r = (mkPop (p_nc p) (Some l) (Some (r_obj r)) (Some (r_fit r)) (r_con r) (r_unc r), Ok r).
Proof.
  intros Hr Hz Hall Hg. destruct (delete_ok _ _ _ Hr Hz) as (p' & Hd & R & Hn & _).
  exists p'. split; auto.
  assert (spec_drop zs ms = []) as E.
  { unfold spec_drop, select_pos. rewrite (select_pos_from_ext _ _ (fun _ => false)).
    - clear. generalize 0. induction ms; simpl; auto.
    - intros i Hi. rewrite Hall by lia. auto. }
  rewrite E in R. split; auto. split.
  - intros zs'. rewrite keep_none, delete_none by auto; auto.
  - destruct (add_first p' l r R) as [Ha _]; [rewrite Hn; auto|]. rewrite Ha, Hn; auto.
Qed.

End P.

(** ** repair *)
From Coq Require Import QArith.
Open Scope Q_scope.
Lemma qlt_spec a b : qlt a b = true <-> a < b.
Proof.
  unfold qlt. rewrite negb_true_iff. split.
  - intros H. apply Qnot_le_lt. intros Hle. apply Qle_bool_iff in Hle. congruence.
  - intros H. destruct (Qle_bool b a) eqn:E; auto. apply Qle_bool_iff in E.
    exfalso. apply (Qlt_not_le _ _ H); auto.
Qed.
Lemma qlt_false a b : qlt a b = false <-> b <= a.
Proof.
  unfold qlt. rewrite negb_false_iff. apply Qle_bool_iff.
Qed.

Lemma repair_gene_spec lb ub x : lb <= ub ->
  repair_gene lb ub (Some x) =
    Some (if qlt x lb then lb else if qlt ub x then ub else x).
Proof. intros H. unfold repair_gene, gene_gt, gene_lt. destruct (qlt x lb), (qlt ub x); auto. Qed.

Lemma repair_gene_bounds lb ub x y : lb <= ub -> repair_gene lb ub (Some x) = Some y -> lb <= y <= ub.
Proof.
  intros H. rewrite repair_gene_spec by auto. intros E; injection E as <-.
  destruct (qlt x lb) eqn:E1; [split; [apply Qle_refl|auto]|].
  apply qlt_false in E1. destruct (qlt ub x) eqn:E2; [split; [auto|apply Qle_refl]|].
  apply qlt_false in E2. auto.
Qed.

Lemma repair_gene_id lb ub x : lb <= x <= ub -> repair_gene lb ub (Some x) = Some x.
Proof.
  intros [H1 H2]. rewrite repair_gene_spec by (eapply Qle_trans; eauto).
  apply qlt_false in H1; apply qlt_false in H2. rewrite H1, H2. auto.
Qed.

Lemma repair_nth lbs ubs xs j :
  length lbs = length xs -> length ubs = length xs ->
  nth_error (repair lbs ubs xs) j =
  match nth_error lbs j, nth_error ubs j, nth_error xs j with
  | Some l, Some u, Some x => Some (repair_gene l u x) | _, _, _ => None end.
Proof.
  revert ubs xs j; induction lbs as [|l lbs IH]; intros [|u ubs] [|x xs] j H1 H2; simpl in *; try discriminate.
  - destruct j; auto.
  - destruct j; simpl; auto.
Qed.

Lemma repair_length lbs ubs xs :
  length lbs = length xs -> length ubs = length xs -> length (repair lbs ubs xs) = length xs.
Proof.
  revert ubs xs; induction lbs as [|l lbs IH]; intros [|u ubs] [|x xs] H1 H2; simpl in *; try discriminate; auto.
Qed.

(** Gene-wise statement: unchanged if NaN or inside, the violated bound otherwise. *)
Lemma repair_correct lbs ubs xs :
  length lbs = length xs -> length ubs = length xs ->
  (forall j l u, nth_error lbs j = Some l -> nth_error ubs j = Some u -> l <= u) ->
  repair_call lbs ubs (Vec xs) = Ok (Vec (repair lbs ubs xs)) /\
  length (repair lbs ubs xs) = length xs /\
  (forall j l u x, nth_error lbs j = Some l -> nth_error ubs j = Some u -> nth_error xs j = Some x ->
     exists y, nth_error (repair lbs ubs xs) j = Some y /\
       match x with
       | None => y = None
       | Some q => exists q', y = Some q' /\ l <= q' <= u /\
                   (l <= q <= u -> q' = q) /\ (q < l -> q' = l) /\ (u < q -> q' = u)
       end) /\
  repair lbs ubs (repair lbs ubs xs) = repair lbs ubs xs.
Proof.
  intros H1 H2 Hb. split; [|split; [|split]].
  - unfold repair_call. rewrite H1, H2, Nat.eqb_refl; auto.
  - apply repair_length; auto.
  - intros j l u x Hl Hu Hx. rewrite repair_nth by auto. rewrite Hl, Hu, Hx.
    eexists; split; [reflexivity|]. pose proof (Hb _ _ _ Hl Hu) as Hlu.
    destruct x as [q|]; [|reflexivity].
    rewrite repair_gene_spec by auto. eexists; split; [reflexivity|].
    pose proof (repair_gene_bounds l u q _ Hlu (repair_gene_spec l u q Hlu)) as Hbd.
    split; auto. split; [|split].
    + intros Hin. pose proof (repair_gene_id _ _ _ Hin) as Hid. rewrite repair_gene_spec in Hid by auto. congruence.
    + intros Hq. apply qlt_spec in Hq. rewrite Hq; auto.
    + intros Hq. destruct (qlt q l) eqn:E.
      * apply qlt_spec in E. exfalso. apply (Qlt_not_le _ _ Hq).
        eapply Qle_trans; [apply Qlt_le_weak; eauto|auto].
      * apply qlt_spec in Hq. rewrite Hq; auto.
  - apply nth_error_ext. intros j.
    rewrite !repair_nth by (rewrite ?repair_length; auto).
    destruct (nth_error lbs j) as [l|] eqn:El, (nth_error ubs j) as [u|] eqn:Eu, (nth_error xs j) as [[q|]|] eqn:Ex; auto.
    pose proof (Hb _ _ _ El Eu) as Hlu. f_equal.
    rewrite (repair_gene_spec l u q) by auto. apply repair_gene_id.
    apply (repair_gene_bounds l u q); auto. apply repair_gene_spec; auto.
Qed.

Lemma repair_matrix_fails lbs ubs rows : repair_call lbs ubs (Mat rows) = Err IndexError.
Proof. reflexivity. Qed.
