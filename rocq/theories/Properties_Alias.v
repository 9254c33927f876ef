(** C113: archived tables and shared arrays. *)
From Verif Require Import Base M_Population M_Alias Spec_Alias P_Alias.
From Coq Require Import Lia.

(** Read through its arrays, the population behaves as the value-level model of M_Population: same columns and same outcomes. *)
Theorem C113_values {V} (ops : list (hop V)) :
  as_values (hrun hfresh ops) = run (fresh 0) (flat_map value_call ops) /\
  forall o v, value_call o = [v] ->
    snd (hstep (hrun hfresh ops) o) = snd (step (run (fresh 0) (flat_map value_call ops)) v).
Proof.
  split; [exact (proj1 (proj2 (run_good ops hfresh wf_fresh)))|].
  intros o v E. destruct (run_good ops hfresh wf_fresh) as (W & EV & _).
  destruct (step_good (hrun hfresh ops) o W) as (_ & _ & _ & X & _). rewrite (X v E), EV. reflexivity.
Qed.

(** A snapshot taken in any reachable state keeps showing the population of that moment, whatever calls follow, as long as
    the first in-place replacement after it comes after an addition of rows. *)
Theorem C113_snapshots_frozen {V} (before after : list (hop V)) (g : Z) :
  replaces_after_add after -> ~ In (HSnap g) after ->
  table (hrun (hsnap (hrun hfresh before) g) after) g = Some (columns (hrun hfresh before)).
Proof.
  intros G N. destruct (run_good before hfresh wf_fresh) as (W & _).
  apply table_after; [exact W|exact N|]. intros a La.
  apply (guarded_run (length (heap (hrun hfresh before))) after (hsnap (hrun hfresh before) g)); [exact W|cbn; lia|exact G|exact La].
Qed.

(** The algorithms of the library only ever use the population in such an order, MOEA/D included. *)
Theorem C113_archives_stay {V} (before : list (hop V)) (blocks : list (list (hop V))) (g : Z) :
  (forall b, In b blocks -> block b) -> ~ In (HSnap g) (concat blocks) ->
  table (hrun (hsnap (hrun hfresh before) g) (concat blocks)) g = Some (columns (hrun hfresh before)).
Proof. intros B N. apply C113_snapshots_frozen; [apply blocks_guarded; exact B|exact N]. Qed.

(** Arrays handed to [add] on a population that has members, and the evaluation results, are never written afterwards, by any call. *)
Theorem C113_added_arrays_kept {V} (before after : list (hop V)) (o : offs V) (ro rf : list V) :
  p_ind (as_values (hrun hfresh before)) <> None ->
  let n := length (heap (hrun hfresh before)) in
  let s := hrun (hrun hfresh before) (HAdd o ro rf :: after) in
  nth n (heap s) [] = off_rows o /\ nth (n + 1) (heap s) [] = ro /\ nth (n + 2) (heap s) [] = rf.
Proof.
  intros P n s. destruct (run_good before hfresh wf_fresh) as (W & _). 
  assert (CI : c_ind (hrun hfresh before) <> None) by (intros E; apply P; unfold as_values; cbn [p_ind]; rewrite E; reflexivity).
  destruct (add_spec (hrun hfresh before) o ro rf W) as (W1 & _ & _ & _ & _ & _ & K & D0 & D1 & D2 & L).
  specialize (K CI).
  assert (U : forall k, (k < 3)%nat -> deref (heap s) (n + k) = deref (heap (fst (hadd (hrun hfresh before) o ro rf))) (n + k)).
  { intros k Hk. unfold s. rewrite hrun_cons. apply unreferenced; [exact W1|unfold n; cbn [hstep]; lia|].
    intros X. destruct (K _ X) as [X1|X1]; [|unfold n in X1; lia]. apply (olist_lt _ W) in X1. unfold n in X1. lia. }
  pose proof (U 0%nat ltac:(lia)) as U0. rewrite Nat.add_0_r in U0. unfold deref in *. 
  rewrite U0, (U 1%nat ltac:(lia)), (U 2%nat ltac:(lia)). unfold n. rewrite D0, D1, D2. split; [reflexivity|]. split; reflexivity.
Qed.

(** Refuted: [replace] called without an addition in between rewrites the archived table, which then shows the new population. *)
Theorem C113_direct_replace_refuted :
  (forall V (before : list (hop V)) g zs (i o f : V),
     table (hrun (hsnap (hrun hfresh before) g) [HReplace zs i o f]) g = Some (columns (hrun (hrun hfresh before) [HReplace zs i o f]))) /\
  exists (before : list (hop nat)) g zs i o f,
     table (hsnap (hrun hfresh before) g) g = Some (Some [1; 2], Some [10; 20], Some [100; 200])%nat /\
     table (hrun (hsnap (hrun hfresh before) g) [HReplace zs i o f]) g = Some (Some [1; 9], Some [10; 90], Some [100; 900])%nat.
Proof.
  split.
  - intros V before g zs i o f. set (s := hrun hfresh before).
    unfold hrun at 1. cbn [fold_left]. change (hrun s [HReplace zs i o f]) with (fst (hreplace s zs i o f)).
    cbn [hstep]. unfold table. pose proof (shots_step (hsnap s g) (HReplace zs i o f)) as E. cbn [hstep] in E. rewrite E.
    cbn [hsnap shots find fst]. rewrite Z.eqb_refl. unfold columns.
    destruct (run_good before hfresh wf_fresh) as (W & _). fold s in W.
    assert (HE : forall sh, heap (fst (hreplace (mkH (heap s) (c_ind s) (c_obj s) (c_fit s) sh) zs i o f)) = heap (fst (hreplace s zs i o f)) /\
                c_ind (fst (hreplace s zs i o f)) = c_ind s /\ c_obj (fst (hreplace s zs i o f)) = c_obj s /\ c_fit (fst (hreplace s zs i o f)) = c_fit s).
    { intros sh. unfold hreplace. cbn [heap c_ind c_obj c_fit]. destruct (hset zs i (heap s) (c_ind s)) as [h1|e]; [|cbn; auto].
      destruct (hset zs o h1 (c_obj s)) as [h2|e]; [|cbn; auto]. destruct (hset zs f h2 (c_fit s)) as [h3|e]; cbn; auto. }
    destruct (HE ((g, (c_ind s, c_obj s, c_fit s)) :: shots s)) as (H1 & H2 & H3 & H4). unfold hsnap. rewrite H1, H2, H3, H4. reflexivity.
  - exists [HAdd (OBatch [1; 2]) [10; 20] [100; 200]]%nat, 0%Z, [1%Z], 9%nat, 90%nat, 900%nat. split; reflexivity.
Qed.

(** Refuted: the array handed to the first [add] becomes the population's own, and a later [replace] changes the caller's array. *)
Theorem C113_first_add_shared_refuted :
  forall V (x y : V) l ro rf o f, length ro = S (length l) -> length rf = S (length l) ->
  nth 0 (heap (hrun hfresh [HAdd (OBatch (x :: l)) ro rf; HReplace [0%Z] y o f])) [] = y :: l.
Proof.
  intros V x y l ro rf o f H1 H2. destruct ro as [|r0 ro]; [discriminate|]. destruct rf as [|f0 rf]; [discriminate|]. reflexivity.
Qed.

Print Assumptions C113_values.
Print Assumptions C113_snapshots_frozen.
Print Assumptions C113_archives_stay.
Print Assumptions C113_added_arrays_kept.
Print Assumptions C113_direct_replace_refuted.
Print Assumptions C113_first_add_shared_refuted.

(** A run with MOEA/D steps between two snapshots: both tables read as at their time. *)
Definition ex_steps : list (list (hop nat)) :=
  [[HAdd (OSingle 3) [30] [300]; HReplace [0%Z] 3 30 300; HDelete [(-1)%Z]]; [HKeep [1%Z; 0%Z]]; [HSnap 1%Z];
   [HAdd (OSingle 4) [40] [400]; HReplace [1%Z; 0%Z] 4 40 400; HDelete [(-1)%Z]]; [HReeval (fun x => x + 1)]]%nat.
Definition ex_start : list (hop nat) := [HAdd (OBatch [1; 2]) [10; 20] [100; 200]]%nat.
Example ex_blocks : forall b, In b ex_steps -> block b.
Proof. unfold ex_steps. intros b [<-|[<-|[<-|[<-|[<-|[]]]]]]; constructor. Qed.
Example ex_archive :
  ~ In (HSnap 0%Z) (concat ex_steps) /\
  table (hrun (hsnap (hrun hfresh ex_start) 0) (concat ex_steps)) 0 = Some (Some [1; 2], Some [10; 20], Some [100; 200])%nat /\
  table (hrun (hsnap (hrun hfresh ex_start) 0) (concat ex_steps)) 1 = Some (Some [3; 2], Some [30; 20], Some [300; 200])%nat /\
  columns (hrun (hsnap (hrun hfresh ex_start) 0) (concat ex_steps)) = (Some [4; 4], Some [40; 40], Some [41; 41])%nat.
Proof.
  split; [cbn; intuition discriminate|]. split; [reflexivity|]. split; reflexivity.
Qed.
Example ex_members : p_ind (as_values (hrun hfresh ex_start)) <> None.
Proof. discriminate. Qed.
