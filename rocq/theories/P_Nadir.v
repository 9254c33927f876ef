(** NSGA-III's nadir estimate and running ideal/worst points meet their specification. *)
From Verif Require Import Base RVec M_APD P_APD M_NSGA3 Spec_Nadir.
From Coq Require Import Reals Lra.
Open Scope R_scope.

Lemma fold_least rows : forall r m, length r = m -> (forall f, In f rows -> length f = m) -> least m (r :: rows) (fold_left vmin rows r).
Proof.
  induction rows as [|a t IH]; intros r m Lr L; cbn [fold_left].
  - split; [exact Lr|]. intros j x H. split; [exists r; split; [left; auto|exact H]|]. intros r' y [<-|[]] E. rewrite H in E. injection E as <-. lra.
  - assert (La : length a = m) by (apply L; left; auto).
    assert (Lv : length (vmin r a) = m) by (rewrite vmin_length; lia).
    destruct (IH (vmin r a) m Lv) as (A & B); [intros f Hf; apply L; right; auto|]. split; [exact A|].
    intros j x H. destruct (B j x H) as ((r' & Hr' & E) & C). split.
    + destruct Hr' as [<-|Hr']; [|exists r'; split; [right; right; auto|auto]].
      destruct (vmin_comp _ _ _ _ E) as [E'|E']; [exists r; split; [left; auto|auto]|exists a; split; [right; left; auto|auto]].
    + assert (M : forall u v, nth_error r j = Some u -> nth_error a j = Some v -> x <= u /\ x <= v).
      { intros u v Hu Hv. assert (Ev : nth_error (vmin r a) j = Some (Rmin u v)) by (unfold vmin; rewrite vmap2_nth, Hu, Hv; auto).
        pose proof (C _ _ (or_introl eq_refl) Ev) as Hx. pose proof (Rmin_l u v). pose proof (Rmin_r u v). lra. }
      assert (Hj : (j < m)%nat) by (rewrite <- A; apply nth_error_Some; congruence).
      destruct (nth_error r j) as [u|] eqn:Eu; [|apply nth_error_None in Eu; lia].
      destruct (nth_error a j) as [v|] eqn:Ev; [|apply nth_error_None in Ev; lia]. destruct (M u v eq_refl eq_refl).
      intros q y [<-|[<-|Hq]] Ey; [congruence|congruence|]. apply (C q y); [right; auto|auto].
Qed.
Lemma fold_greatest rows : forall r m, length r = m -> (forall f, In f rows -> length f = m) -> greatest m (r :: rows) (fold_left vmax rows r).
Proof.
  induction rows as [|a t IH]; intros r m Lr L; cbn [fold_left].
  - split; [exact Lr|]. intros j x H. split; [exists r; split; [left; auto|exact H]|]. intros r' y [<-|[]] E. rewrite H in E. injection E as <-. lra.
  - assert (La : length a = m) by (apply L; left; auto).
    assert (Lv : length (vmax r a) = m) by (unfold vmax; rewrite vmap2_length; lia).
    destruct (IH (vmax r a) m Lv) as (A & B); [intros f Hf; apply L; right; auto|]. split; [exact A|].
    intros j x H. assert (Hj : (j < m)%nat) by (rewrite <- A; apply nth_error_Some; congruence).
    destruct (nth_error r j) as [u|] eqn:Eu; [|apply nth_error_None in Eu; lia].
    destruct (nth_error a j) as [v|] eqn:Ev; [|apply nth_error_None in Ev; lia].
    assert (Em : nth_error (vmax r a) j = Some (Rmax u v)) by (unfold vmax; rewrite vmap2_nth, Eu, Ev; auto).
    destruct (B j x H) as ((r' & Hr' & E) & C). split.
    + destruct Hr' as [<-|Hr']; [|exists r'; split; [right; right; auto|auto]].
      rewrite Em in E. injection E as <-. unfold Rmax. destruct (Rle_dec u v); [exists a|exists r]; split; auto; [right; left; auto|left; auto].
    + pose proof (C _ _ (or_introl eq_refl) Em) as Hx. pose proof (Rmax_l u v). pose proof (Rmax_r u v).
      intros q y [<-|[<-|Hq]] Ey; [rewrite Eu in Ey; injection Ey as <-; lra|rewrite Ev in Ey; injection Ey as <-; lra|].
      apply (C q y); [right; auto|auto].
Qed.

Lemma colmax_greatest rows m v : (forall f, In f rows -> length f = m) -> colmax rows = Some v -> greatest m rows v.
Proof.
  destruct rows as [|r t]; [discriminate|]. intros L E. injection E as <-. apply fold_greatest; [apply L; left; auto|intros f Hf; apply L; right; auto].
Qed.
Lemma colmin_least rows m v : (forall f, In f rows -> length f = m) -> colmin rows = Some v -> least m rows v.
Proof.
  destruct rows as [|r t]; [discriminate|]. intros L E. injection E as <-. apply fold_least; [apply L; left; auto|intros f Hf; apply L; right; auto].
Qed.
Lemma vmin_least m i rows v : length i = m -> least m rows v -> least m (i :: rows) (vmin i v).
Proof.
  intros Li (Lv & B). split; [rewrite vmin_length; lia|]. intros j x H.
  assert (Hj : (j < m)%nat) by (rewrite <- Lv; unfold vmin in H; rewrite vmap2_nth in H; apply nth_error_Some; destruct (nth_error i j); [|discriminate]; destruct (nth_error v j); [discriminate|discriminate H]).
  destruct (nth_error i j) as [a|] eqn:Ea; [|apply nth_error_None in Ea; lia].
  destruct (nth_error v j) as [b|] eqn:Eb; [|apply nth_error_None in Eb; lia].
  destruct (B j b Eb) as ((r & Hr & Er) & C). unfold vmin in H. rewrite vmap2_nth, Ea, Eb in H. injection H as <-. split.
  - unfold Rmin. destruct (Rle_dec a b); [exists i; split; [left; auto|auto]|exists r; split; [right; auto|auto]].
  - pose proof (Rmin_l a b). pose proof (Rmin_r a b). intros q y [<-|Hq] Ey; [rewrite Ea in Ey; injection Ey as <-; lra|].
    specialize (C q y Hq Ey). lra.
Qed.
Lemma vmax_greatest m i rows v : length i = m -> greatest m rows v -> greatest m (i :: rows) (vmax i v).
Proof.
  intros Li (Lv & B). split; [unfold vmax; rewrite vmap2_length; lia|]. intros j x H.
  assert (Hj : (j < m)%nat) by (rewrite <- Lv; unfold vmax in H; rewrite vmap2_nth in H; apply nth_error_Some; destruct (nth_error i j); [|discriminate]; destruct (nth_error v j); [discriminate|discriminate H]).
  destruct (nth_error i j) as [a|] eqn:Ea; [|apply nth_error_None in Ea; lia].
  destruct (nth_error v j) as [b|] eqn:Eb; [|apply nth_error_None in Eb; lia].
  destruct (B j b Eb) as ((r & Hr & Er) & C). unfold vmax in H. rewrite vmap2_nth, Ea, Eb in H. injection H as <-. split.
  - unfold Rmax. destruct (Rle_dec a b); [exists r; split; [right; auto|auto]|exists i; split; [left; auto|auto]].
  - pose proof (Rmax_l a b). pose proof (Rmax_r a b). intros q y [<-|Hq] Ey; [rewrite Ea in Ey; injection Ey as <-; lra|].
    specialize (C q y Hq Ey). lra.
Qed.

(** Each of the code's tests, in words. *)
Lemma zero_test plane : existsb (fun x => is_zero x) plane = false <-> forall j p, nth_error plane j = Some p -> p <> 0.
Proof.
  unfold is_zero. split.
  - intros H j p E. apply nth_error_In in E. intros ->. assert (existsb (fun x => if Req_EM_T x 0 then true else false) plane = true); [|congruence].
    apply existsb_exists. exists 0. split; auto. destruct (Req_EM_T 0 0); auto.
  - intros H. destruct (existsb _ plane) eqn:E; auto. apply existsb_exists in E. destruct E as (x & Hx & E). destruct (Req_EM_T x 0); [|discriminate].
    apply In_nth_error in Hx. destruct Hx as (j & Hj). exfalso. eapply H; eauto.
Qed.
Lemma close_test (l : list R) n : allclose l (repeat 1 n) = true <-> forall j x, (j < n)%nat -> nth_error l j = Some x -> Rabs (x - 1) <= 1 / 100000000 + 1 / 100000.
Proof.
  unfold allclose. revert n. induction l as [|a l IH]; intros [|n]; cbn [repeat combine forallb].
  - split; auto. intros _ [|j] x Hj E; discriminate.
  - split; auto. intros _ [|j] x Hj E; discriminate.
  - split; auto. intros _ j x Hj. lia.
  - rewrite andb_true_iff, IH. cbn [fst snd]. rewrite Rabs_R1. split.
    + intros (A & B) [|j] x Hj E; [injection E as <-; destruct (Rle_dec _ _) in A; [lra|discriminate]|apply (B j); [lia|exact E]].
    + intros H. split; [|intros j x Hj E; apply (H (S j)); [lia|exact E]].
      specialize (H O a ltac:(lia) eq_refl). destruct (Rle_dec _ _); auto. lra.
Qed.
Lemma intercept_test plane : existsb (fun x => if Rle_dec x (1 / 1000000) then true else false) (map (fun x => 1 / x) plane) = false <->
  forall j p, nth_error plane j = Some p -> 1 / p > 1 / 1000000.
Proof.
  split.
  - intros H j p E. apply nth_error_In in E. destruct (Rgt_dec (1 / p) (1 / 1000000)) as [G|G]; auto. exfalso.
    assert (existsb (fun x => if Rle_dec x (1 / 1000000) then true else false) (map (fun x => 1 / x) plane) = true); [|congruence].
    apply existsb_exists. exists (1 / p). split; [apply in_map_iff; eauto|]. destruct (Rle_dec _ _); auto. lra.
  - intros H. match goal with |- ?a = false => destruct a eqn:E; auto end. apply existsb_exists in E. destruct E as (x & Hx & E). apply in_map_iff in Hx. destruct Hx as (p & <- & Hp).
    apply In_nth_error in Hp. destruct Hp as (j & Hj). specialize (H j p Hj). destruct (Rle_dec _ _); [lra|discriminate].
Qed.
Lemma combine_nth_error {A B} (u : list A) : forall (v : list B) j, nth_error (combine u v) j =
  match nth_error u j, nth_error v j with Some x, Some y => Some (x, y) | _, _ => None end.
Proof. induction u as [|x u IH]; intros [|y v] [|j]; cbn; auto. destruct (nth_error u j); auto. Qed.
Lemma worst_test ideal plane worst : existsb (fun p => if Rlt_dec (snd p) (fst p) then true else false) (combine (vadd ideal (map (fun x => 1 / x) plane)) worst) = false <->
  forall j p i w, nth_error plane j = Some p -> nth_error ideal j = Some i -> nth_error worst j = Some w -> i + 1 / p <= w.
Proof.
  split.
  - intros H j p i w Ep Ei Ew. destruct (Rle_dec (i + 1 / p) w) as [G|G]; auto. exfalso.
    match type of H with ?a = false => assert (a = true); [|congruence] end. apply existsb_exists. exists (i + 1 / p, w). split.
    + eapply (nth_error_In _ j). rewrite combine_nth_error. unfold vadd. rewrite vmap2_nth, nth_error_map, Ep, Ei, Ew. reflexivity.
    + cbn [fst snd]. destruct (Rlt_dec _ _); auto. lra.
  - intros H. match goal with |- ?a = false => destruct a eqn:E; auto end. apply existsb_exists in E. destruct E as ([x w] & Hx & E). cbn [fst snd] in E.
    apply In_nth_error in Hx. destruct Hx as (j & Hj). rewrite combine_nth_error in Hj. unfold vadd in Hj. rewrite vmap2_nth, nth_error_map in Hj.
    destruct (nth_error ideal j) as [i|] eqn:Ei; [|discriminate]. destruct (nth_error plane j) as [p|] eqn:Ep; [|discriminate]. cbn [option_map] in Hj.
    destruct (nth_error worst j) as [w'|] eqn:Ew; [|discriminate]. injection Hj as <- <-. specialize (H j p i w' Ep Ei Ew). destruct (Rlt_dec _ _); [lra|discriminate].
Qed.

Lemma nadir_ok solve ext ideal worst wfront wpop : solve_dims solve ->
  length ext = length ideal -> length worst = length ideal -> length wfront = length ideal -> length wpop = length ideal ->
  nadir_estimate solve ext ideal worst wfront wpop (nadir_point solve ext ideal worst wfront wpop).
Proof.
  intros SD Le Lw Lf Lp. unfold nadir_point.
  set (M := map (fun e => vsub e ideal) ext). set (b := repeat 1 (length ideal)).
  match goal with |- nadir_estimate _ _ _ _ _ _ (vmap2 _ ?r _) => set (raw := r) end.
  assert (Use : forall plane, solve M b = Some plane ->
    (existsb (fun x => is_zero x) plane = false /\
     (negb (allclose (map (fun r => dot r plane) M) b)
      || existsb (fun x => if Rle_dec x (1 / 1000000) then true else false) (map (fun x => 1 / x) plane)
      || existsb (fun p => if Rlt_dec (snd p) (fst p) then true else false) (combine (vadd ideal (map (fun x => 1 / x) plane)) worst)) = false) <->
    plane_usable ext ideal worst plane).
  { intros plane Hp. pose proof (SD _ _ _ Hp) as Lpl. unfold b in Lpl. rewrite repeat_length in Lpl.
    rewrite !orb_false_iff, negb_false_iff. unfold b. rewrite zero_test, close_test, intercept_test, worst_test. unfold plane_usable. split.
    - intros (Z & (Cl & I) & W). split.
      + intros e He. apply In_nth_error in He. destruct He as (j & Hj). apply (Cl j); [rewrite <- Le; apply nth_error_Some; congruence|].
        unfold M. rewrite !nth_error_map, Hj. reflexivity.
      + intros j p i w Ep Ei Ew. split; [eapply Z; eauto|]. split; [eapply I; eauto|eapply W; eauto].
    - intros (Cl & P).
      assert (Q : forall j p, nth_error plane j = Some p -> exists i w, nth_error ideal j = Some i /\ nth_error worst j = Some w).
      { intros j p Ep. assert (Hj : (j < length plane)%nat) by (apply nth_error_Some; congruence).
        destruct (nth_error ideal j) as [i|] eqn:Ei; [|apply nth_error_None in Ei; lia]. destruct (nth_error worst j) as [w|] eqn:Ew; [|apply nth_error_None in Ew; lia]. eauto. }
      split; [intros j p Ep; destruct (Q j p Ep) as (i & w & Ei & Ew); apply (P j p i w Ep Ei Ew)|]. split; [split|].
      + intros j x Hj Ex. unfold M in Ex. rewrite !nth_error_map in Ex. destruct (nth_error ext j) as [e|] eqn:Ee; [|discriminate]. injection Ex as <-. apply Cl. eapply nth_error_In; eauto.
      + intros j p Ep; destruct (Q j p Ep) as (i & w & Ei & Ew); apply (P j p i w Ep Ei Ew).
      + intros j p i w Ep Ei Ew. apply (P j p i w Ep Ei Ew). }
  assert (Raw : (forall plane, solve M b = Some plane -> plane_usable ext ideal worst plane -> raw = vadd ideal (map (fun x => 1 / x) plane)) /\
                ((forall plane, solve M b = Some plane -> ~ plane_usable ext ideal worst plane) -> raw = wfront) /\ length raw = length ideal).
  { unfold raw. destruct (solve M b) as [plane|] eqn:Es.
    - pose proof (Use plane eq_refl) as U. pose proof (SD _ _ _ Es) as Lpl. unfold b in Lpl. rewrite repeat_length in Lpl.
      destruct (existsb (fun x => is_zero x) plane) eqn:Z.
      + split; [intros p E Hu; injection E as <-; apply U in Hu; destruct Hu; discriminate|]. split; [auto|exact Lf].
      + destruct (negb _ || _ || _) eqn:T.
        * split; [intros p E Hu; injection E as <-; apply U in Hu; destruct Hu; discriminate|]. split; [auto|exact Lf].
        * split; [intros p E Hu; injection E as <-; reflexivity|]. split; [|rewrite vadd_length; rewrite ?map_length; congruence].
          intros N. exfalso. apply (N plane eq_refl). apply U. split; auto.
    - split; [discriminate|]. split; auto. }
  destruct Raw as (R1 & R2 & R3). clearbody raw. exists raw. split; [|split; [exact R2|split; [exact R3|split]]].
  - intros plane Hp Hu j p i Ep Ei. rewrite (R1 plane Hp Hu). unfold vadd. rewrite vmap2_nth, nth_error_map, Ep, Ei. reflexivity.
  - rewrite vmap2_length; [exact R3|]. rewrite combine_length. lia.
  - intros j r i w Er Ei Ew. rewrite vmap2_nth, combine_nth_error, Er, Ei, Ew. reflexivity.
Qed.
