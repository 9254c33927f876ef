From Verif Require Import Base M_Population Spec_Population P_Population M_Interrupt.
Section P.
Context {I O F C U : Type}.
Notation pop := (pop I O F C U).
Lemma exec_app (a b : list (pop -> res pop)) p : exec (a ++ b) p = match exec a p with (p', Ok _) => exec b p' | (p', Err e) => (p', Err e) end.
Proof. revert p. induction a as [|x a IH]; intros p; cbn [app exec]; auto. destruct (x p); auto. Qed.
Lemma pop_eta (p : pop) : mkPop (p_nc p) (p_ind p) (p_obj p) (p_fit p) (p_con p) (p_unc p) = p.
Proof. destruct p. reflexivity. Qed.
Lemma rest_exec m (p : pop) : exec (rest_code m p) p = mask_rest m p.
Proof.
  destruct p as [nc ind obj fit con unc]. unfold rest_code, mask_rest, set_obj, set_fit, set_unc, set_con. cbn [p_nc p_ind p_obj p_fit p_con p_unc].
  destruct unc as [us|], (Nat.ltb 0 nc); cbn [app exec p_nc p_ind p_obj p_fit p_con p_unc];
  (destruct (col_mask m obj); cbn [some p_nc p_ind p_obj p_fit p_con p_unc]; [|reflexivity]); (destruct (col_mask m fit); cbn [some p_nc p_ind p_obj p_fit p_con p_unc bind]; [|reflexivity]); try reflexivity;
  try (destruct (col_mask m (Some us)); cbn [some p_nc p_ind p_obj p_fit p_con p_unc bind]; [|reflexivity]); try reflexivity; destruct (col_mask m con); reflexivity.
Qed.
Lemma code_step (o : op I O F C U) (p : pop) : exec (code_of o p) p = step p o.
Proof.
  destruct o as [o r|zs|zs|zs i r|g]; cbn [code_of step].
  - destruct p as [nc ind obj fit con unc]. unfold add_code, add. cbn [p_nc p_ind p_obj p_fit p_con p_unc]. destruct ind as [inds|].
    + unfold set_ind, set_obj, set_fit, set_unc, set_con. destruct (Nat.eqb nc 0); cbn [app exec p_nc p_ind p_obj p_fit p_con p_unc];
        (destruct (vstack obj (Some (r_obj r))); cbn [some p_nc p_ind p_obj p_fit p_con p_unc]; [|reflexivity]); (destruct (vstack fit (Some (r_fit r))); cbn [some p_nc p_ind p_obj p_fit p_con p_unc]; [|reflexivity]);
        try (destruct (vstack con (r_con r)); cbn [some bind p_nc p_ind p_obj p_fit p_con p_unc]; [|reflexivity]); (destruct (r_unc r) as [us|]; [destruct (vstack unc (Some us)); reflexivity|reflexivity]).
    + destruct o; auto.
  - unfold keep_code, keep. destruct (p_ind p) as [inds|]; auto. destruct (norm_idxs (length inds) zs); auto. cbn [exec]. rewrite <- rest_exec. destruct p; reflexivity.
  - unfold delete_code, delete. destruct (p_ind p) as [inds|]; auto. destruct (norm_idxs (length inds) zs) as [idxs|]; auto. rewrite <- rest_exec. destruct (mask_sel (mask_set (repeat true (length inds)) idxs false) inds) eqn:E; destruct p; reflexivity.
  - destruct p as [nc ind obj fit con unc]. unfold replace_code, replace, set_ind, set_obj, set_fit, set_unc, set_con. cbn [p_nc p_ind p_obj p_fit p_con p_unc].
    destruct con as [cs|], unc as [us|]; cbn [app exec p_nc p_ind p_obj p_fit p_con p_unc];
    (destruct (col_set zs i ind); cbn [some p_nc p_ind p_obj p_fit p_con p_unc]; [|reflexivity]); (destruct (col_set zs (r1_obj r) obj); cbn [some p_nc p_ind p_obj p_fit p_con p_unc]; [|reflexivity]);
    (destruct (col_set zs (r1_fit r) fit); cbn [some p_nc p_ind p_obj p_fit p_con p_unc]; [|reflexivity]); try reflexivity;
    try (destruct (r1_con r) as [c0|]; [|reflexivity]; destruct (col_set zs c0 (Some cs)); cbn [some bind p_nc p_ind p_obj p_fit p_con p_unc]; [|reflexivity]); try reflexivity;
    (destruct (r1_unc r) as [u0|]; [|reflexivity]; destruct (col_set zs u0 (Some us)); reflexivity).
  - destruct p as [nc ind obj fit con unc]. cbn [exec]. unfold reevaluate. cbn [p_obj]. destruct obj; reflexivity.
Qed.
End P.
