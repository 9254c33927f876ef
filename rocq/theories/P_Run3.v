(** Proofs about whole runs, continued: the fuel of the loops, and population sizes. *)
From Verif Require Import Base M_Population Spec_Population P_Population M_Archive P_Archive M_Run Spec_Run P_Run P_Run2.
Open Scope nat_scope.

Section P.
Context {I O F C U : Type} (dom : F -> F -> bool) (w : world I O F C U) (c : cfg).
Notation pop := (pop I O F C U).
Notation st := (st I O F C U).
Notation results := (results O F C U).
Notation log_t := (list (bool * list I * results)).

Lemma loop_more k : forall fuel (s : st), Z.to_nat (c_n_gen_per_iter c - s_gen_in_iter s) < fuel -> gen_loop dom w c (fuel + k) s = gen_loop dom w c fuel s.
Proof.
  induction fuel as [|f IH]; intros s H; [lia|]. cbn [Nat.add gen_loop]. unfold continue_iteration. destruct (Z.ltb_spec (s_gen_in_iter s) (c_n_gen_per_iter c)) as [Hlt|]; [|reflexivity].
  cbn [andb]. destruct (check_FE c s); [|reflexivity]. unfold andthen. pose proof (ct_next dom w c (counts_of s) s eq_refl) as T.
  destruct (next_gen dom w c s) as [s' [x|e]]; [|reflexivity]. apply IH. destruct T as (lg & _ & _ & _ & _ & _ & T). unfold counts_of in T. cbn [n_gi] in T. lia.
Qed.

(** *** The individuals after each call *)
Lemma mask_rest_ind m (p p' : pop) out : mask_rest m p = (p', out) -> p_ind p' = p_ind p.
Proof.
  unfold mask_rest. intros E. destruct (col_mask m (p_obj p)); [|now injection E as <- _]. destruct (col_mask m (p_fit p)); [|now injection E as <- _].
  destruct (match p_unc p with Some _ => _ | None => _ end); [|now injection E as <- _]. destruct (Nat.ltb 0 (p_nc p)); [|now injection E as <- _].
  destruct (col_mask m (p_con p)); now injection E as <- _.
Qed.
Lemma keep_ind (p p' : pop) zs l : keep p zs = (p', Ok tt) -> p_ind p = Some l -> in_range (length l) zs /\ p_ind p' = Some (select_pos (listed (length l) zs) l).
Proof.
  unfold keep. intros E Hl. rewrite Hl in E. destruct (norm_idxs (length l) zs) as [idxs|] eqn:En; [|discriminate]. split; [apply norm_idxs_Ok in En; apply En|].
  rewrite (mask_rest_ind _ _ _ _ E). cbn [p_ind]. f_equal. apply mask_true_select; auto.
Qed.
Lemma delete_ind (p p' : pop) zs l : delete p zs = (p', Ok tt) -> p_ind p = Some l ->
  in_range (length l) zs /\ p_ind p' = match select_pos (fun j => negb (listed (length l) zs j)) l with [] => None | x => Some x end.
Proof.
  unfold delete. intros E Hl. rewrite Hl in E. destruct (norm_idxs (length l) zs) as [idxs|] eqn:En; [|discriminate]. split; [apply norm_idxs_Ok in En; apply En|].
  rewrite (mask_rest_ind _ _ _ _ E). cbn [p_ind]. rewrite (mask_false_select l (length l) idxs zs) by auto. destruct (select_pos _ l); reflexivity.
Qed.
Lemma delete_none_err (p p' : pop) zs : delete p zs = (p', Ok tt) -> p_ind p <> None.
Proof. unfold delete. intros E H. rewrite H in E. discriminate. Qed.
Lemma add_ind (p p' : pop) o r r' l : add p o r = (p', Ok r') -> p_ind p = Some l -> p_ind p' = Some (l ++ rows_of o).
Proof.
  unfold add. intros E Hl. rewrite Hl in E. destruct (vstack (p_obj p) (Some (r_obj r))); [|discriminate]. destruct (vstack (p_fit p) (Some (r_fit r))); [|discriminate].
  destruct (if Nat.eqb (p_nc p) 0 then _ else _); [|discriminate]. assert (Ei : (match o with OSingle i => l ++ [i] | OBatch x => l ++ x | OOther => l end) = l ++ rows_of o) by (destruct o; cbn [rows_of]; auto; now rewrite app_nil_r).
  destruct (r_unc r); [destruct (vstack (p_unc p) _); [|discriminate]|]; injection E as <- _; cbn [p_ind]; rewrite Ei; reflexivity.
Qed.
Lemma add_none_ind (p p' : pop) rows r r' : add p (OBatch rows) r = (p', Ok r') -> p_ind p = None -> p_ind p' = Some rows.
Proof. unfold add. intros E Hl. rewrite Hl in E. injection E as <- _. reflexivity. Qed.
Lemma replace_ind (p p' : pop) zs i r l : replace p zs i r = (p', Ok tt) -> p_ind p = Some l ->
  exists l', p_ind p' = Some l' /\ length l' = length l /\ forall j, nth_error l' j = if Nat.ltb j (length l) && listed (length l) zs j then Some i else nth_error l j.
Proof.
  unfold replace. intros E Hl. rewrite Hl in E. unfold col_set at 1 in E. unfold bind at 1 in E. destruct (norm_idxs (length l) zs) as [idxs|] eqn:En; [|discriminate].
  set (l' := fold_left (fun acc i0 => set_nth i0 i acc) idxs l) in E. assert (Hp : p_ind p' = Some l').
  { destruct (col_set zs (r1_obj r) (p_obj p)); [|discriminate]. destruct (col_set zs (r1_fit r) (p_fit p)); [|discriminate].
    destruct (match p_con p with Some _ => _ | None => _ end); [|discriminate]. destruct (match p_unc p with Some _ => _ | None => _ end); [|discriminate]. injection E as <-. reflexivity. }
  exists l'. split; auto. split; [unfold l'; apply length_fold_set|]. intros j. unfold l'. rewrite nth_error_fold_set. apply norm_idxs_Ok in En. destruct En as (_ & _ & Hm).
  destruct (Nat.ltb j (length l)) eqn:Ej.
  - apply Nat.ltb_lt in Ej. rewrite <- Hm by auto. cbn [andb]. reflexivity.
  - cbn [andb]. rewrite ?andb_false_r. destruct (mem_nat j idxs); cbn; auto. all: apply Nat.ltb_ge in Ej; symmetry; apply nth_error_None; auto.
Qed.

(** *** Generations that succeed *)
Lemma andthen_ok {A B} (m : st -> st * res A) (f : A -> st -> st * res B) (s s' : st) b : andthen m f s = (s', Ok b) -> exists a s1, m s = (s1, Ok a) /\ f a s1 = (s', Ok b).
Proof. unfold andthen. destruct (m s) as [s1 [a|e]]; [eauto|discriminate]. Qed.
Lemma ask_ok {A} (f : nat -> pop -> res A) s s' a : ask f s = (s', Ok a) -> s' = tick s /\ f (s_clock s) (s_pop s) = Ok a.
Proof. unfold ask. intros E. injection E as <- E. auto. Qed.
Lemma do_add_ok b o rows (s s' : st) r : do_add w b o rows s = (s', Ok r) ->
  exists p r0, add (s_pop s) o r0 = (p, Ok r) /\ r0 = w_eval w (s_clock s) b rows /\ s_pop s' = p /\ s_log s' = s_log s ++ [(b, rows, r0)] /\ s_nd s' = s_nd s.
Proof. unfold do_add. destruct (w_fails w (s_clock s) b rows); [discriminate|]. unfold take_results. destruct (add (s_pop s) o (w_eval w (s_clock s) b rows)) as [p out] eqn:E. intros H. injection H as <- ->. exists p, (w_eval w (s_clock s) b rows). auto. Qed.
Lemma do_keep_ok zs (s s' : st) : do_keep zs s = (s', Ok tt) -> exists p, keep (s_pop s) zs = (p, Ok tt) /\ s_pop s' = p /\ s_log s' = s_log s /\ s_nd s' = s_nd s.
Proof. unfold do_keep. destruct (keep (s_pop s) zs) as [p out]. intros H. injection H as <- ->. exists p. auto. Qed.
Lemma do_delete_ok zs (s s' : st) : do_delete zs s = (s', Ok tt) -> exists p, delete (s_pop s) zs = (p, Ok tt) /\ s_pop s' = p /\ s_log s' = s_log s /\ s_nd s' = s_nd s.
Proof. unfold do_delete. destruct (delete (s_pop s) zs) as [p out]. intros H. injection H as <- ->. exists p. auto. Qed.
Lemma do_replace_ok zs i r (s s' : st) : do_replace zs i r s = (s', Ok tt) -> exists p r1, first_row r = Some r1 /\ replace (s_pop s) zs i r1 = (p, Ok tt) /\ s_pop s' = p /\ s_log s' = s_log s /\ s_nd s' = s_nd s.
Proof. unfold do_replace. destruct (first_row r) as [r1|]; [|discriminate]. destruct (replace (s_pop s) zs i r1) as [p out] eqn:E. intros H. injection H as <- ->. exists p, r1. auto. Qed.
Lemma do_archive_ok rows r (s s' : st) : do_archive dom rows r s = (s', Ok tt) -> exists a, s_nd s = Some a /\ s_nd s' = Some (archive_add dom a rows (r_obj r) (r_fit r)) /\ s_pop s' = s_pop s /\ s_log s' = s_log s.
Proof. unfold do_archive. destruct (s_nd s) as [a|]; [|discriminate]. intros H. injection H as <-. exists a. auto. Qed.
Lemma upd_ok (f : st -> st) s s' : upd f s = (s', Ok tt) -> s' = f s.
Proof. unfold upd. intros H. injection H as <-. auto. Qed.

Ltac step H :=
  match type of H with
  | andthen _ _ _ = (_, Ok _) => let a := fresh "a" in let s := fresh "s" in let H1 := fresh "H" in apply andthen_ok in H; destruct H as (a & s & H1 & H)
  end.

Lemma dec_pop s s' old : dec_gen dom w c s = (s', Ok tt) -> p_ind (s_pop s) = Some old ->
  exists rows sel, (exists k, w_mate w k (s_pop s) None = Ok rows) /\ (exists r, s_log s' = s_log s ++ [(c_surrogates c, rows, r)]) /\ (exists k p, w_select w k p 0 = Ok sel /\ p_ind p = Some (old ++ rows)) /\
    in_range (length (old ++ rows)) sel /\ p_ind (s_pop s') = Some (select_pos (listed (length (old ++ rows)) sel) (old ++ rows)).
Proof.
  unfold dec_gen. intros H Ho. step H. apply ask_ok in H0. destruct H0 as [-> Hm]. step H. apply do_add_ok in H0. destruct H0 as (p1 & r0 & A1 & _ & A2 & A3 & A4). cbn [tick s_pop s_log] in *.
  pose proof (add_ind _ _ _ _ _ _ A1 Ho) as Hp1. cbn [rows_of] in Hp1. step H. assert (Hq : s_pop s1 = p1 /\ s_log s1 = s_log s0).
  { destruct (c_save_nd c); [destruct a1; apply do_archive_ok in H0; destruct H0 as (x & _ & _ & X1 & X2)|destruct a1; apply upd_ok in H0; subst s1]; split; congruence. }
  destruct Hq as [Hq1 Hq2]. step H. apply ask_ok in H1. destruct H1 as [-> Hsel]. step H. destruct a3. apply do_keep_ok in H1. destruct H1 as (p2 & K1 & K2 & K3 & K4). apply upd_ok in H.
  cbn [tick s_pop s_log s_nd] in *. rewrite Hq1 in *. exists a, a2. split; [eauto|]. split; [exists r0; rewrite H; destruct (c_surrogates c); cbn [add_fe bump_gen s_log]; congruence|]. split; [eauto|].
  destruct (keep_ind _ _ _ _ K1 Hp1) as [K5 K6]. split; auto. rewrite H. destruct (c_surrogates c); cbn [add_fe bump_gen s_pop]; congruence.
Qed.

Lemma listed_last n j : j < S n -> listed (S n) [(-1)%Z] j = Nat.eqb j n.
Proof.
  intros Hj. unfold listed. cbn [existsb]. rewrite orb_false_r. destruct (Nat.eqb_spec j n) as [->|Hn].
  - replace (-1 =? Z.of_nat n - Z.of_nat (S n))%Z with true; [apply orb_true_r|]. symmetry. apply Z.eqb_eq. lia.
  - apply orb_false_iff. split; apply Z.eqb_neq; lia.
Qed.
Lemma select_all {A} (l : list A) k f : (forall i, k <= i < k + length l -> f i = true) -> select_pos_from k f l = l.
Proof.
  revert k. induction l as [|x l IH]; intros k H; cbn [select_pos_from]; auto. rewrite H by (cbn [length]; lia). f_equal. apply IH. intros i Hi. apply H. cbn [length]. lia.
Qed.
Lemma select_none {A} (l : list A) k f : (forall i, k <= i < k + length l -> f i = false) -> select_pos_from k f l = [].
Proof.
  revert k. induction l as [|x l IH]; intros k H; cbn [select_pos_from]; auto. rewrite H by (cbn [length]; lia). apply IH. intros i Hi. apply H. cbn [length]. lia.
Qed.
Lemma select_app {A} (l1 l2 : list A) k f : select_pos_from k f (l1 ++ l2) = select_pos_from k f l1 ++ select_pos_from (k + length l1) f l2.
Proof.
  revert k. induction l1 as [|x l1 IH]; intros k; cbn [app select_pos_from length]; [now rewrite Nat.add_0_r|]. rewrite IH. replace (S k + length l1) with (k + S (length l1)) by lia. destruct (f k); reflexivity.
Qed.
Lemma delete_last_ind (p p' : pop) l x : delete p [(-1)%Z] = (p', Ok tt) -> p_ind p = Some (l ++ [x]) -> l <> [] -> p_ind p' = Some l.
Proof.
  intros E Hl Hn. destruct (delete_ind _ _ _ _ E Hl) as [_ Hd]. rewrite Hd. unfold select_pos. rewrite select_app.
  assert (Hlen : length (l ++ [x]) = S (length l)) by (rewrite app_length; cbn [length]; lia). rewrite Hlen.
  rewrite select_all. 2: { intros i Hi. rewrite listed_last by lia. destruct (Nat.eqb_spec i (length l)); [lia|reflexivity]. }
  rewrite select_none. 2: { cbn [length]. intros i Hi. rewrite listed_last by lia. destruct (Nat.eqb_spec i (length l)); [reflexivity|lia]. }
  rewrite app_nil_r. destruct l; [congruence|reflexivity].
Qed.

Lemma moead_sub_pop ur i s s' old : moead_sub dom w c ur i s = (s', Ok tt) -> p_ind (s_pop s) = Some old -> old <> [] ->
  exists off new, (exists k p par o rest, w_parents w k i = Ok par /\ w_mate w (S k) p (Some par) = Ok (o :: rest) /\ off = if ur then w_repair w o else o) /\
    (exists r, s_log s' = s_log s ++ [(c_surrogates c, [off], r)]) /\ p_ind (s_pop s') = Some new /\ length new = length old /\
    exists sel, (exists k p, w_select w k p i = Ok sel) /\ forall j x, nth_error old j = Some x -> nth_error new j = Some (if listed (S (length old)) sel j then off else x).
Proof.
  unfold moead_sub. intros H Ho Hne. step H. apply ask_ok in H0. destruct H0 as [-> Hpar]. step H. apply ask_ok in H0. destruct H0 as [-> Hmate]. cbn [tick s_clock s_pop] in Hpar, Hmate. destruct a0 as [|o offs]; [discriminate|].
  cbv zeta in H. set (off := if ur then w_repair w o else o) in *. step H. apply do_add_ok in H0. destruct H0 as (p1 & r0 & A1 & _ & A2 & A3 & A4). cbn [tick s_pop s_log] in *.
  pose proof (add_ind _ _ _ _ _ _ A1 Ho) as Hp1. cbn [rows_of] in Hp1.
  step H. destruct a1. apply upd_ok in H0. assert (Q1 : s_pop s1 = p1) by (rewrite H0; destruct (c_surrogates c); cbn [add_fe s_pop]; auto). assert (Q2 : s_log s1 = s_log s0) by (rewrite H0; destruct (c_surrogates c); auto).
  clear H0. step H. apply ask_ok in H0. destruct H0 as [-> Hsel]. step H. destruct a2. apply do_replace_ok in H0. destruct H0 as (p2 & r1 & R1 & R2 & R3 & R4 & R5). cbn [tick s_pop s_log] in *.
  step H. destruct a2. apply do_delete_ok in H0. destruct H0 as (p3 & D1 & D2 & D3 & D4).
  assert (Q3 : s_pop s' = p3 /\ s_log s' = s_log s3).
  { destruct (c_save_nd c); [apply do_archive_ok in H; destruct H as (x & _ & _ & X1 & X2)|apply upd_ok in H; subst s']; split; congruence. }
  destruct Q3 as [Q3 Q4]. rewrite Q1 in R2. destruct (replace_ind _ _ _ _ _ _ R2 Hp1) as (l' & L1 & L2 & L3). rewrite app_length in L2. cbn [length] in L2. rewrite R3 in D1.
  assert (exists new y, l' = new ++ [y]) as (new & y & ->).
  { destruct (exists_last (l := l')) as (new & y & E); [intros ->; cbn [length] in L2; lia|]. eauto. }
  rewrite app_length in L2. cbn [length] in L2. assert (Hln : length new = length old) by lia.
  assert (D5 : p_ind p3 = Some new) by (apply (delete_last_ind _ _ _ _ D1 L1); destruct new; [destruct old; [congruence|discriminate]|discriminate]).
  exists off, new. split; [exists (s_clock s), (s_pop s), a, o, offs; auto|]. split; [exists r0; congruence|]. split; [congruence|]. split; auto. exists a1. split; [eauto|]. intros j x Hj.
  assert (j < length old) by (apply nth_error_Some; congruence). specialize (L3 j). rewrite !app_length in L3. cbn [length] in L3. rewrite nth_error_app1 in L3 by lia.
  replace (length old + 1) with (S (length old)) in L3 by lia. rewrite nth_error_app1 in L3 by lia. rewrite L3, Hj. destruct (Nat.ltb_spec j (S (length old))); [|lia]. cbn [andb].
  destruct (listed (S (length old)) a1 j); reflexivity.
Qed.

Definition rows_in (lg : log_t) : list I := flat_map (fun e => snd (fst e)) lg.
Definition offspring_of (ur : bool) (i : nat) (e : bool * list I * results) : Prop :=
  exists k p par o rest, w_parents w k i = Ok par /\ w_mate w (S k) p (Some par) = Ok (o :: rest) /\ snd (fst e) = [if ur then w_repair w o else o].
Lemma moead_subs_pop ur is : forall s s' old, moead_subs dom w c ur is s = (s', Ok tt) -> p_ind (s_pop s) = Some old -> old <> [] ->
  exists lg new, s_log s' = s_log s ++ lg /\ Forall2 (offspring_of ur) is lg /\ p_ind (s_pop s') = Some new /\ length new = length old /\ (forall j x, nth_error new j = Some x -> nth_error old j = Some x \/ In x (rows_in lg)).
Proof.
  induction is as [|i is IH]; intros s s' old H Ho Hne; cbn [moead_subs] in H.
  - apply upd_ok in H. subst s'. exists [], old. rewrite app_nil_r. auto 10.
  - step H. destruct a. destruct (moead_sub_pop _ _ _ _ _ H0 Ho Hne) as (off & new & (k & p & par & o & rest & P1 & P2 & ->) & (r & L1) & L2 & L3 & sel & _ & L4). set (off := if ur then w_repair w o else o) in *.
    destruct (IH _ _ _ H L2) as (lg & new' & M1 & M2 & M3 & M4 & M5); [intros ->; destruct old; [congruence|discriminate]|].
    exists ((c_surrogates c, [off], r) :: lg), new'. split; [rewrite M1, L1, <- app_assoc; reflexivity|]. split; [constructor; [exists k, p, par, o, rest; auto|exact M2]|]. split; auto. split; [congruence|].
    intros j x Hj. destruct (M5 j x Hj) as [Hx|Hx].
    + assert (j < length old) by (rewrite <- L3; apply nth_error_Some; congruence). destruct (nth_error old j) as [y|] eqn:Ey; [|apply nth_error_None in Ey; lia].
      rewrite (L4 j y Ey) in Hx. destruct (listed _ sel j); injection Hx as <-; auto. right. cbn. auto.
    + right. unfold rows_in. cbn [flat_map]. apply in_or_app. auto.
Qed.

Lemma rows_count_some (s : st) n : rows_count s = Some n -> exists l, p_ind (s_pop s) = Some l /\ length l = n.
Proof. unfold rows_count. destruct (p_ind (s_pop s)) as [l|]; [|discriminate]. intros E. injection E as <-. eauto. Qed.
Lemma select_but_one {A} (f : nat -> bool) i : forall (l : list A) k, k <= i < k + length l -> (forall j, k <= j < k + length l -> f j = negb (Nat.eqb j i)) ->
  exists l1 x l2, l = l1 ++ x :: l2 /\ select_pos_from k f l = l1 ++ l2.
Proof.
  induction l as [|x l IH]; intros k Hi Hf; [cbn in Hi; lia|]. cbn [length] in *. cbn [select_pos_from]. rewrite Hf by lia. destruct (Nat.eqb_spec k i) as [->|Hn]; cbn [negb].
  - exists [], x, l. split; auto. rewrite select_all; auto. intros j Hj. rewrite Hf by lia. destruct (Nat.eqb_spec j i); [lia|reflexivity].
  - destruct (IH (S k)) as (l1 & y & l2 & -> & E); [lia|intros j Hj; apply Hf; lia|]. exists (x :: l1), y, l2. rewrite E. auto.
Qed.
(** Deleting one row: the others stay, in order. *)
Lemma delete_one_ind (p p' : pop) l z : delete p [z] = (p', Ok tt) -> p_ind p = Some l ->
  exists l1 x l2, l = l1 ++ x :: l2 /\ p_ind p' = match l1 ++ l2 with [] => None | y => Some y end.
Proof.
  intros E Hl. destruct (delete_ind _ _ _ _ E Hl) as [Hr Hd]. rewrite Hd. apply Forall_inv in Hr.
  destruct (select_but_one (fun j => negb (listed (length l) [z] j)) (Z.to_nat (if (z <? 0)%Z then z + Z.of_nat (length l) else z)) l 0) as (l1 & x & l2 & E1 & E2).
  - destruct (Z.ltb_spec z 0); lia.
  - intros j Hj. f_equal. unfold listed. cbn [existsb]. rewrite orb_false_r. destruct (Z.ltb_spec z 0).
    + destruct (Nat.eqb_spec j (Z.to_nat (z + Z.of_nat (length l)))) as [->|]; [|apply orb_false_iff; split; apply Z.eqb_neq; lia]. apply orb_true_iff. right. apply Z.eqb_eq. lia.
    + destruct (Nat.eqb_spec j (Z.to_nat z)) as [->|]; [|apply orb_false_iff; split; apply Z.eqb_neq; lia]. apply orb_true_iff. left. apply Z.eqb_eq. lia.
  - exists l1, x, l2. split; auto. unfold select_pos. rewrite E2. reflexivity.
Qed.

(** [l1] is [l2] with some elements left out. *)
Lemma sub_remove {A} (l1 l2 : list A) x : incl (l1 ++ l2) (l1 ++ x :: l2).
Proof. intros y Hy. apply in_app_or in Hy. apply in_or_app. destruct Hy; [auto|right; right; auto]. Qed.

Lemma env_more k n : forall fuel s, (forall m, rows_count s = Some m -> m <= n + fuel) -> env_sel w (fuel + k) n s = env_sel w fuel n s.
Proof.
  induction fuel as [|f IH]; intros s H; cbn [Nat.add].
  - destruct k; [reflexivity|]. cbn [env_sel]. destruct (rows_count s) as [m|]; [|reflexivity]. specialize (H m eq_refl). destruct (Nat.ltb_spec n m); [lia|reflexivity].
  - cbn [env_sel]. destruct (rows_count s) as [m|] eqn:Em; [|reflexivity]. destruct (Nat.ltb_spec n m); [|reflexivity]. unfold andthen. cbn [ask]. unfold do_delete.
    destruct (delete _ _) as [p out] eqn:E. destruct out as [[]|]; [|reflexivity]. apply IH. intros m' Hm'.
    destruct (rows_count_some _ _ Em) as (l & Hl & Hn). destruct (delete_one_ind _ _ _ _ E Hl) as (l1 & x & l2 & -> & E2). unfold rows_count in Hm'; cbn [set_pop s_pop] in Hm'. rewrite E2 in Hm'. specialize (H m eq_refl).
    rewrite app_length in Hn. cbn [length] in Hn. assert (L3 : length (l1 ++ l2) = length l1 + length l2) by apply app_length. destruct (l1 ++ l2); [discriminate|]. cbn [option_map length] in *. injection Hm' as <-. lia.
Qed.
Lemma env_pop n : forall fuel s s' old, env_sel w fuel n s = (s', Ok tt) -> p_ind (s_pop s) = Some old ->
  exists kept, p_ind (s_pop s') = Some kept /\ length kept = Nat.min n (length old) /\ incl kept old /\ (NoDup old -> NoDup kept) /\ s_log s' = s_log s.
Proof.
  induction fuel as [|f IH]; intros s s' old H Ho; cbn [env_sel] in H; unfold rows_count in H; rewrite Ho in H; cbn [option_map] in H.
  - destruct (Nat.ltb_spec n (length old)); [discriminate|]. injection H as <-. exists old. split; auto. split; [lia|]. split; [apply incl_refl|auto].
  - destruct (Nat.ltb_spec n (length old)); [|injection H as <-; exists old; split; auto; split; [lia|]; split; [apply incl_refl|auto]].
    step H. apply ask_ok in H1. destruct H1 as [-> _]. step H. destruct a0. apply do_delete_ok in H1. destruct H1 as (p & D1 & D2 & D3 & D4). cbn [tick s_pop s_log] in *.
    destruct (delete_one_ind _ _ _ _ D1 Ho) as (l1 & x & l2 & -> & E2).
    destruct (l1 ++ l2) as [|y l3] eqn:E3.
    { destruct f; cbn [env_sel] in H; unfold rows_count in H; rewrite D2, E2 in H; discriminate H. }
    rewrite <- E3 in *. rewrite <- D2 in E2. destruct (IH _ _ _ H E2) as (kept & K1 & K2 & K3 & K4 & K5). exists kept. split; auto.
    rewrite !app_length in *. cbn [length] in *. split; [lia|]. split; [intros z Hz; apply sub_remove; auto|]. split; [|congruence].
    intros Hnd. apply K4. apply NoDup_remove_1 in Hnd. exact Hnd.
Qed.
Lemma ind_pop n s s' old : ind_gen w n s = (s', Ok tt) -> p_ind (s_pop s) = Some old -> exists kept rows, (exists k p par, w_select w k p 0 = Ok par /\ p_ind p = Some kept /\ w_mate w (S k) p (Some par) = Ok rows) /\
  (exists r, s_log s' = s_log s ++ [(false, rows, r)]) /\
  p_ind (s_pop s') = Some (kept ++ rows) /\ length kept = Nat.min n (length old) /\ incl kept old /\ (NoDup old -> NoDup kept).
Proof.
  unfold ind_gen. intros H Ho. step H. destruct a. destruct (env_pop _ _ _ _ _ H0 Ho) as (kept & K1 & K2 & K3 & K4 & K5). step H. apply ask_ok in H1. destruct H1 as [-> Hsel].
  step H. apply ask_ok in H1. destruct H1 as [-> Hmate]. step H. apply do_add_ok in H1. destruct H1 as (p1 & r0 & A1 & _ & A2 & A3 & A4). cbn [tick s_pop s_log] in *. apply upd_ok in H.
  pose proof (add_ind _ _ _ _ _ _ A1 K1) as Hp1. exists kept, a0. subst s'. cbn [add_fe bump_gen s_log s_pop]. split; [exists (s_clock s0), (s_pop s0), a; auto|]. split; [exists r0; congruence|]. split; [rewrite A2; exact Hp1|auto].
Qed.
Lemma tour_pop s s' : tour_gen w s = (s', Ok tt) -> exists rows, (exists k par, w_select w k (s_pop s) 0 = Ok par /\ w_mate w (S k) (s_pop s) (Some par) = Ok rows) /\ (exists r, s_log s' = s_log s ++ [(false, rows, r)]) /\ p_ind (s_pop s') = Some rows.
Proof.
  unfold tour_gen. intros H. step H. apply ask_ok in H0. destruct H0 as [-> Hsel]. step H. apply ask_ok in H0. destruct H0 as [-> Hmate]. step H. cbv beta in H0.
  destruct (rows_count _) as [n|] eqn:Ec; [|discriminate]. destruct (rows_count_some _ _ Ec) as (l & Hl & Hn). destruct a1. apply do_delete_ok in H0. destruct H0 as (p & D1 & D2 & D3 & D4).
  destruct (delete_ind _ _ _ _ D1 Hl) as [_ D5]. unfold select_pos in D5. rewrite select_none in D5.
  2: { intros i Hi. apply negb_false_iff. unfold listed. apply existsb_exists. exists (Z.of_nat i). split; [apply in_map, in_seq; lia|]. rewrite Z.eqb_refl. reflexivity. }
  step H. apply do_add_ok in H0. destruct H0 as (p1 & r0 & A1 & _ & A2 & A3 & A4). apply upd_ok in H. rewrite <- D2 in D5. pose proof (add_none_ind _ _ _ _ _ A1 D5) as Hp.
  exists a0. subst s'. cbn [tick add_fe bump_gen s_log s_pop] in *. split; [exists (s_clock s), a; auto|]. split; [exists r0; congruence|congruence].
Qed.
Lemma pick_rows_filter placed (off : list I) : pick_rows placed off = map snd (filter (fun e => existsb (Nat.eqb (fst e)) placed) (combine (seq 0 (length off)) off)).
Proof.
  unfold pick_rows. generalize (combine (seq 0 (length off)) off). induction l as [|[k x] l IH]; [reflexivity|]. cbn [flat_map filter fst snd]. unfold mem_nat at 1.
  destruct (existsb (Nat.eqb k) placed); cbn [app map snd]; rewrite IH; reflexivity.
Qed.
Lemma ppga_pop ki s s' old : ppga_gen w ki s = (s', Ok tt) -> p_ind (s_pop s) = Some old ->
  exists rows, (exists k prs off, w_prey w k = Ok prs /\ w_mate w (S k) (s_pop s) (Some prs) = Ok off /\
      rows = map snd (filter (fun e => existsb (Nat.eqb (fst e)) (w_placed w (S (S k)) (length off))) (combine (seq 0 (length off)) off))) /\
    (exists r, s_log s' = s_log s ++ [(false, rows, r)]) /\ forall new, p_ind (s_pop s') = Some new -> length new <= length old + length rows /\ incl new (old ++ rows) /\ new <> [].
Proof.
  unfold ppga_gen. intros H Ho. step H. apply ask_ok in H0. destruct H0 as [-> Hprey]. step H. apply ask_ok in H0. destruct H0 as [-> Hmate]. step H. apply ask_ok in H0. destruct H0 as [-> Hpl]. cbv zeta in H.
  injection Hpl as Hpl. pose proof (pick_rows_filter a1 a0) as Hkept.
  set (kept := pick_rows a1 a0) in *. step H. apply do_add_ok in H0. destruct H0 as (p1 & r0 & A1 & _ & A2 & A3 & A4). cbn [tick s_pop s_log] in *. pose proof (add_ind _ _ _ _ _ _ A1 Ho) as Hp1. cbn [rows_of] in Hp1.
  step H. destruct a3. apply upd_ok in H0. assert (Q1 : s_pop s1 = p1) by (subst s1; auto). assert (Q2 : s_log s1 = s_log s ++ [(false, kept, r0)]) by (subst s1; cbn [add_fe bump_gen s_log]; congruence). clear H0.
  assert (Sub : forall zs l, length (select_pos (fun j => negb (listed (length l) zs j)) l) <= length l /\ incl (select_pos (fun j => negb (listed (length l) zs j)) (l : list I)) l).
  { intros zs l. split; [|apply select_pos_incl]. pose proof (length_select_partition 0 (listed (length l) zs) l). unfold select_pos. lia. }
  step H. cbv beta in H0. assert (Q3 : s_log s2 = s_log s1 /\ forall l, p_ind (s_pop s2) = Some l -> length l <= length (old ++ kept) /\ incl l (old ++ kept)).
  { destruct (Nat.eqb ki 0); [discriminate|]. destruct (Z.eqb _ 0).
    - step H0. apply ask_ok in H1. destruct H1 as [-> _]. destruct a3. apply do_delete_ok in H0. destruct H0 as (p & D1 & D2 & D3 & D4). cbn [tick s_pop s_log] in *. split; auto. intros l Hl.
      rewrite Q1 in D1. destruct (delete_ind _ _ _ _ D1 Hp1) as [_ D5]. rewrite D2, D5 in Hl. specialize (Sub a4 (old ++ kept)). destruct (select_pos _ (old ++ kept)); [discriminate|]. injection Hl as <-. exact Sub.
    - injection H0 as -> _. split; auto. intros l Hl. rewrite Q1, Hp1 in Hl. injection Hl as <-. split; [auto|apply incl_refl]. }
  destruct Q3 as [Q3 Q4]. step H. apply ask_ok in H1. destruct H1 as [-> _]. apply do_delete_ok in H. destruct H as (p & D1 & D2 & D3 & D4). cbn [tick s_pop s_log] in *.
  exists kept. split; [exists (s_clock s), a, a0; rewrite Hpl; auto|]. split; [exists r0; congruence|]. intros new Hnew. destruct (p_ind (s_pop s2)) as [l|] eqn:El; [|exfalso; eapply delete_none_err; eauto].
  destruct (delete_ind _ _ _ _ D1 El) as [_ D5]. rewrite D2, D5 in Hnew. destruct (Q4 l eq_refl) as [Q5 Q6]. destruct (Sub a4 l) as [S1 S2]. destruct (select_pos _ l); [discriminate|]. injection Hnew as <-.
  rewrite app_length in Q5. split; [lia|]. split; [|discriminate]. intros x Hx. apply Q6, S2, Hx.
Qed.

(** *** The archive *)
Context (nc : nat) (u : bool) (Hw : honest nc u w).
Lemma archive_batch a b rows k : archive_add dom a rows (r_obj (w_eval w k b rows)) (r_fit (w_eval w k b rows)) = submit dom a (batch (b, rows, w_eval w k b rows)).
Proof.
  destruct (Hw k b rows) as [G _]. set (r := w_eval w k b rows) in *. destruct (members_of_proj _ _ _ G) as (A1 & A2 & A3 & _ & _). unfold submit, batch. cbn [fst snd]. rewrite !map_map. cbn [r_i r_o r_f fst snd].
  unfold r_i, r_o, r_f. cbn [fst snd]. f_equal; symmetry; assumption.
Qed.
Definition follows (a0 : arch I O F) (s s' : st) : Prop := exists lg, s_log s' = s_log s ++ lg /\ answered w lg /\ s_nd s' = Some (fold_left (submit dom) (map batch lg) a0) /\
  (forall m ur, c_kind c = KMoead m ur -> forall e, In e lg -> exists r, batch e = [r]).
Lemma follows_refl a s s' : s_nd s = Some a -> s_log s' = s_log s -> s_nd s' = s_nd s -> follows a s s'.
Proof. intros H H1 H2. exists []. rewrite app_nil_r. split; auto. split; [intros ? ? ? []|]. split; [rewrite H2; auto|]. intros ? ? ? ? []. Qed.
Lemma follows_trans a s s1 s2 : follows a s s1 -> (forall a', s_nd s1 = Some a' -> follows a' s1 s2) -> follows a s s2.
Proof.
  intros (l1 & A1 & A2 & A3 & A4) H. destruct (H _ A3) as (l2 & B1 & B2 & B3 & B4). exists (l1 ++ l2). rewrite app_assoc, <- A1. split; auto. split.
  { intros b rows r Hin. apply in_app_or in Hin. destruct Hin; eauto. }
  split; [rewrite map_app, fold_left_app; auto|]. intros m ur Hk e He. apply in_app_or in He. destruct He; eauto.
Qed.
Lemma batch_single b x k : exists r, batch (b, [x], w_eval w k b [x]) = [r].
Proof.
  destruct (Hw k b [x]) as [G _]. destruct (members_of_proj _ _ _ G) as (A1 & _). unfold batch. cbn [fst snd]. destruct (members_of [x] (w_eval w k b [x])) as [|m [|]]; try discriminate. cbn [map]. eauto.
Qed.
Hypothesis Hsave : c_save_nd c = true.
Lemma do_add_answer b o rows (s s' : st) r : do_add w b o rows s = (s', Ok r) -> r = w_eval w (s_clock s) b rows /\ s_log s' = s_log s ++ [(b, rows, r)] /\ s_nd s' = s_nd s.
Proof.
  unfold do_add. destruct (w_fails w (s_clock s) b rows); [discriminate|]. unfold take_results. destruct (add _ _ _) as [p out] eqn:E. intros H. injection H as <- ->. assert (r = w_eval w (s_clock s) b rows) as <-; [|auto]. unfold add in E. destruct (p_ind (s_pop s)); [|destruct o; now inversion E].
  destruct (vstack (p_obj _) _); [|discriminate]. destruct (vstack (p_fit _) _); [|discriminate]. destruct (if Nat.eqb _ 0 then _ else _); [|discriminate].
  destruct (r_unc _); [destruct (vstack (p_unc _) _); [|discriminate]|]; now injection E.
Qed.
Lemma one_follows a b rows k s s' : s_nd s = Some a -> s_log s' = s_log s ++ [(b, rows, w_eval w k b rows)] -> s_nd s' = Some (archive_add dom a rows (r_obj (w_eval w k b rows)) (r_fit (w_eval w k b rows))) ->
  ((forall m ur, c_kind c = KMoead m ur -> exists x, rows = [x])) -> follows a s s'.
Proof.
  intros Ha Hl Hn Hs. exists [(b, rows, w_eval w k b rows)]. split; auto. split; [intros b' rows' r [E|[]]; injection E as <- <- <-; eauto|]. split.
  - cbn [map fold_left]. rewrite Hn, archive_batch. reflexivity.
  - intros m ur Hk e [<-|[]]. destruct (Hs m ur Hk) as [x ->]. apply batch_single.
Qed.
Lemma dec_follows a s s' : c_kind c = KDecomposition -> dec_gen dom w c s = (s', Ok tt) -> s_nd s = Some a -> follows a s s'.
Proof.
  intros Hk. unfold dec_gen. rewrite Hsave. intros H Ha. step H. apply ask_ok in H0. destruct H0 as [-> _]. step H. apply do_add_answer in H0. destruct H0 as (A1 & A2 & A3). cbn [tick s_pop s_log s_nd] in *.
  step H. destruct a2. apply do_archive_ok in H0. destruct H0 as (a' & N1 & N2 & N3 & N4). step H. apply ask_ok in H0. destruct H0 as [-> _]. step H. destruct a3. apply do_keep_ok in H0.
  destruct H0 as (p2 & K1 & K2 & K3 & K4). apply upd_ok in H. cbn [tick s_pop s_log s_nd] in *. assert (a' = a) by congruence. subst a'. rewrite A1 in *.
  assert (L1 : s_log s' = s_log s2) by (rewrite H; destruct (c_surrogates c); reflexivity). assert (L2 : s_nd s' = s_nd s2) by (rewrite H; destruct (c_surrogates c); reflexivity).
  apply (one_follows a (c_surrogates c) a0 (s_clock (tick s))); [exact Ha|congruence|congruence|intros m ur Hk'; congruence].
Qed.
Lemma sub_follows a ur i s s' : moead_sub dom w c ur i s = (s', Ok tt) -> s_nd s = Some a -> follows a s s'.
Proof.
  unfold moead_sub. rewrite Hsave. intros H Ha. step H. apply ask_ok in H0. destruct H0 as [-> _]. step H. apply ask_ok in H0. destruct H0 as [-> _]. destruct a1 as [|o offs]; [discriminate|].
  cbv zeta in H. set (off := if ur then w_repair w o else o) in *. step H. apply do_add_answer in H0. destruct H0 as (A1 & A2 & A3). cbn [tick s_pop s_log s_nd] in *.
  step H. destruct a2. apply upd_ok in H0. assert (Q1 : s_nd s1 = s_nd s0) by (rewrite H0; destruct (c_surrogates c); auto). assert (Q2 : s_log s1 = s_log s0) by (rewrite H0; destruct (c_surrogates c); auto).
  clear H0. step H. apply ask_ok in H0. destruct H0 as [-> Hsel]. step H. destruct a3. apply do_replace_ok in H0. destruct H0 as (p2 & r1 & R1 & R2 & R3 & R4 & R5). cbn [tick s_pop s_log s_nd] in *.
  step H. destruct a3. apply do_delete_ok in H0. destruct H0 as (p3 & D1 & D2 & D3 & D4). apply do_archive_ok in H. destruct H as (a' & N1 & N2 & N3 & N4). assert (a' = a) by congruence. subst a'. rewrite A1 in *.
  eapply one_follows; [exact Ha| |exact N2|eauto]. rewrite N4, D3, R4, Q2. exact A2.
Qed.
Lemma subs_follows ur is : forall a s s', moead_subs dom w c ur is s = (s', Ok tt) -> s_nd s = Some a -> follows a s s'.
Proof.
  induction is as [|i is IH]; intros a s s' H Ha; cbn [moead_subs] in H.
  - apply upd_ok in H. subst s'. apply follows_refl; auto.
  - step H. destruct a0. eapply follows_trans; [eapply sub_follows; eauto|]. intros a' Ha'. eapply IH; eauto.
Qed.
Hypothesis Hkind : match c_kind c with KDecomposition | KMoead _ _ => True | _ => False end.
Lemma next_follows a s s' : next_gen dom w c s = (s', Ok tt) -> s_nd s = Some a -> follows a s s'.
Proof.
  unfold next_gen. destruct (c_kind c) as [|m ur| | |] eqn:Hk; try contradiction; intros H Ha; [apply dec_follows; auto|].
  unfold moead_gen in H. step H. destruct a0. apply upd_ok in H. subst s'. eapply follows_trans; [eapply subs_follows; eauto|]. intros a' Ha'. apply follows_refl; auto.
Qed.
Lemma loop_follows fuel : forall a s s', gen_loop dom w c fuel s = (s', Ok tt) -> s_nd s = Some a -> follows a s s'.
Proof.
  induction fuel as [|f IH]; intros a s s' H Ha; cbn [gen_loop] in H; [discriminate|]. destruct (continue_iteration c s); [|injection H as <-; apply follows_refl; auto].
  step H. destruct a0. eapply follows_trans; [eapply next_follows; eauto|]. intros a' Ha'. eapply IH; eauto.
Qed.
Lemma iterate_follows a s s' : iterate dom w c s = (s', Ok tt) -> s_nd s = Some a -> follows a s s'.
Proof.
  unfold iterate. intros H Ha. step H. apply ask_ok in H0. destruct H0 as [-> _]. step H. assert (Q : s_nd s0 = s_nd s /\ s_log s0 = s_log s).
  { destruct a0 as [g|].
    - unfold do_reeval in H0. destruct (reevaluate _ g). injection H0 as <- _. auto.
    - destruct a1. apply upd_ok in H0. subst s0. auto. }
  destruct Q as [Q1 Q2]. clear H0. step H. destruct a2. apply upd_ok in H0. assert (Q3 : s_nd s1 = s_nd s0 /\ s_log s1 = s_log s0) by (rewrite H0; destruct (c_keep_archive c); auto). destruct Q3 as [Q3 Q4]. clear H0.
  step H. apply ask_ok in H0. destruct H0 as [-> _]. step H. destruct a3. apply upd_ok in H0. subst s2. step H. destruct a3. apply upd_ok in H. subst s'.
  assert (Hr : s_nd (reset_gen (tick s1)) = Some a) by (cbn [reset_gen tick s_nd]; congruence).
  destruct (loop_follows _ _ _ _ H0 Hr) as (lg & B1 & B2 & B3 & B4). exists lg. cbn [reset_gen tick s_log bump_iter s_nd] in *. split; [congruence|auto].
Qed.
Lemma ran_follows k s s' : ran dom w c k s s' -> forall a, s_nd s = Some a -> follows a s s'.
Proof.
  induction 1 as [s|k s s1 s2 H _ IH]; intros a Ha; [apply follows_refl; auto|]. eapply follows_trans; [eapply iterate_follows; eauto|]. intros a' Ha'. apply IH; auto.
Qed.

(** Without start(). *)
Definition idle (s s' : st) : Prop := s_log s' = s_log s /\ s_nd s' = s_nd s.
Lemma sub_needs_start ur i s s' : moead_sub dom w c ur i s = (s', Ok tt) -> s_nd s <> None.
Proof.
  unfold moead_sub. rewrite Hsave. intros H. step H. apply ask_ok in H0. destruct H0 as [-> _]. step H. apply ask_ok in H0. destruct H0 as [-> _]. destruct a0 as [|o offs]; [discriminate|].
  cbv zeta in H. set (off := if ur then w_repair w o else o) in *. step H. apply do_add_answer in H0. destruct H0 as (A1 & A2 & A3). cbn [tick s_pop s_log s_nd] in *.
  step H. destruct a1. apply upd_ok in H0. assert (Q1 : s_nd s1 = s_nd s0) by (rewrite H0; destruct (c_surrogates c); auto).
  clear H0. step H. apply ask_ok in H0. destruct H0 as [-> Hsel]. step H. destruct a2. apply do_replace_ok in H0. destruct H0 as (p2 & r1 & R1 & R2 & R3 & R4 & R5). cbn [tick s_pop s_log s_nd] in *.
  step H. destruct a2. apply do_delete_ok in H0. destruct H0 as (p3 & D1 & D2 & D3 & D4). apply do_archive_ok in H. destruct H as (a' & N1 & N2 & N3 & N4). congruence.
Qed.
Lemma next_needs_start s s' : next_gen dom w c s = (s', Ok tt) -> s_nd s = None -> idle s s'.
Proof.
  unfold next_gen. destruct (c_kind c) as [|m ur| | |] eqn:Hk; try contradiction; intros H Hn.
  - unfold dec_gen in H. rewrite Hsave in H. step H. apply ask_ok in H0. destruct H0 as [-> _]. step H. apply do_add_answer in H0. destruct H0 as (A1 & A2 & A3). cbn [tick s_pop s_log s_nd] in *.
    step H. destruct a1. apply do_archive_ok in H0. destruct H0 as (a' & N1 & _). congruence.
  - unfold moead_gen in H. step H. destruct a. apply upd_ok in H. subst s'. destruct (seq 0 m) as [|i is]; cbn [moead_subs] in H0; [apply upd_ok in H0; subst s0; split; reflexivity|].
    step H0. destruct a. apply sub_needs_start in H. contradiction.
Qed.
Lemma loop_needs_start fuel : forall s s', gen_loop dom w c fuel s = (s', Ok tt) -> s_nd s = None -> idle s s'.
Proof.
  induction fuel as [|f IH]; intros s s' H Ha; cbn [gen_loop] in H; [discriminate|]. destruct (continue_iteration c s); [|injection H as <-; split; auto].
  step H. destruct a. destruct (next_needs_start _ _ H0 Ha) as [A B]. destruct (IH _ _ H) as [A' B']; [congruence|]. split; congruence.
Qed.
Lemma iterate_needs_start s s' : iterate dom w c s = (s', Ok tt) -> s_nd s = None -> idle s s'.
Proof.
  unfold iterate. intros H Ha. step H. apply ask_ok in H0. destruct H0 as [-> _]. step H. assert (Q : s_nd s0 = s_nd s /\ s_log s0 = s_log s).
  { destruct a as [g|].
    - unfold do_reeval in H0. destruct (reevaluate _ g). injection H0 as <- _. auto.
    - destruct a0. apply upd_ok in H0. subst s0. auto. }
  destruct Q as [Q1 Q2]. clear H0. step H. destruct a1. apply upd_ok in H0. assert (Q3 : s_nd s1 = s_nd s0 /\ s_log s1 = s_log s0) by (rewrite H0; destruct (c_keep_archive c); auto). destruct Q3 as [Q3 Q4]. clear H0.
  step H. apply ask_ok in H0. destruct H0 as [-> _]. step H. destruct a2. apply upd_ok in H0. subst s2. step H. destruct a2. apply upd_ok in H. subst s'.
  destruct (loop_needs_start _ _ _ H0) as [A B]; [cbn [reset_gen tick s_nd]; congruence|]. cbn [reset_gen tick s_log bump_iter s_nd] in *. split; cbn [bump_iter s_log s_nd]; congruence.
Qed.
End P.
