(** Independent specification of a population: a list of members, each carrying its
    own evaluation. No columns, no masks. *)
From Verif Require Import Base M_Population.

Section Spec.
Context {I O F C U : Type}.

Record member := mkMem { m_ind : I; m_obj : O; m_fit : F; m_con : option C; m_unc : option U }.

(** [None]: emptied (or never filled); [Some ms]: these members, in order. *)
Definition spop := option (list member).

(** Optional column against [n] rows: absent means "no value" in every row. *)
Definition rows_opt {A} (c : option (list A)) (n : nat) : list (option A) :=
  match c with Some l => map Some l | None => repeat None n end.

(** The columns of [p] are exactly the projections of the members. *)
Definition represents (p : pop I O F C U) (s : spop) : Prop :=
  match s with
  | None => p_ind p = None
  | Some ms =>
      p_ind p = Some (map m_ind ms) /\ p_obj p = Some (map m_obj ms) /\
      p_fit p = Some (map m_fit ms) /\
      rows_opt (p_con p) (length ms) = map m_con ms /\
      rows_opt (p_unc p) (length ms) = map m_unc ms /\
      (p_con p = None <-> p_nc p = 0)
  end.

(** One member per offspring row, paired with its own row of the evaluation. *)
Fixpoint zip_members (is : list I) (os : list O) (fs : list F)
         (cs : list (option C)) (us : list (option U)) : list member :=
  match is, os, fs, cs, us with
  | i :: is', o :: os', f :: fs', c :: cs', u :: us' =>
      mkMem i o f c u :: zip_members is' os' fs' cs' us'
  | _, _, _, _, _ => []
  end.

Definition members_of (is : list I) (r : results O F C U) : list member :=
  zip_members is (r_obj r) (r_fit r) (rows_opt (r_con r) (length is)) (rows_opt (r_unc r) (length is)).

Definition forget_unc (m : member) : member := mkMem (m_ind m) (m_obj m) (m_fit m) (m_con m) None.

(** The same member with its fitness computed anew from its objectives. *)
Definition refit (g : O -> F) (m : member) : member := mkMem (m_ind m) (m_obj m) (g (m_obj m)) (m_con m) (m_unc m).

Definition rows_of (o : offs I) : list I :=
  match o with OBatch l => l | OSingle i => [i] | OOther => [] end.

(** Contract of the external evaluator for this call: one row per individual in every
    array; a constraint array exactly when the problem has constraints. *)
Definition good_results (nc : nat) (n : nat) (r : results O F C U) : Prop :=
  length (r_obj r) = n /\ length (r_fit r) = n /\
  (match r_con r with Some c => length c = n /\ nc <> 0 | None => nc = 0 end) /\
  (match r_unc r with Some u => length u = n | None => True end).

Definition good_result1 (nc : nat) (hasunc : bool) (r : result1 O F C U) : Prop :=
  (match r1_con r with Some _ => nc <> 0 | None => nc = 0 end) /\
  (match r1_unc r with Some _ => hasunc = true | None => hasunc = false end).

(** Keeping the members at the listed positions. *)
Definition spec_keep (zs : list Z) (ms : list member) : list member :=
  select_pos (listed (length ms) zs) ms.
Definition spec_drop (zs : list Z) (ms : list member) : list member :=
  select_pos (fun j => negb (listed (length ms) zs j)) ms.

(** Overwriting the members at the listed positions. *)
Definition spec_replace (zs : list Z) (m : member) (ms : list member) : list member :=
  map (fun jm => if listed (length ms) zs (fst jm) then m else snd jm)
      (combine (seq 0 (length ms)) ms).

End Spec.
Arguments member : clear implicits.
Arguments spop : clear implicits.

(** ** Histories of calls against the specification *)
Section SpecRun.
Context {I O F C U : Type}.
Notation member := (member I O F C U).

Definition in_range_b (n : nat) (zs : list Z) : bool :=
  forallb (fun z => (- Z.of_nat n <=? z) && (z <? Z.of_nat n))%Z zs.

(** [(h, s)]: [h] tells whether uncertainties are being tracked. *)
Definition sstate := (bool * option (list member))%type.

Definition has {A} (x : option A) : bool := match x with Some _ => true | None => false end.

Definition spec_step (st : sstate) (o : op I O F C U) : sstate :=
  match o, st with
  | OpAdd (OBatch l) r, (h, None) => (has (r_unc r), Some (members_of l r))
  | OpAdd _ r, (h, None) => (h, None)
  | OpAdd o r, (h, Some ms) =>
      let new := members_of (rows_of o) r in
      match r_unc r, h with
      | None, _ => (false, Some (map forget_unc ms ++ new))
      | Some _, true => (true, Some (ms ++ new))
      | Some _, false => (false, Some (ms ++ map forget_unc new))
      end
  | OpKeep zs, (h, Some ms) =>
      if in_range_b (length ms) zs then (h, Some (spec_keep zs ms)) else st
  | OpDelete zs, (h, Some ms) =>
      if in_range_b (length ms) zs
      then (h, match spec_drop zs ms with [] => None | l => Some l end) else st
  | OpReplace zs i r, (h, Some ms) =>
      if in_range_b (length ms) zs
      then (h, Some (spec_replace zs (mkMem i (r1_obj r) (r1_fit r) (r1_con r)
                                            (if h then r1_unc r else None)) ms))
      else st
  | OpReeval g, (h, Some ms) => (h, Some (map (refit g) ms))
  | _, (h, None) => st
  end.

Definition spec_run (ops : list (op I O F C U)) : sstate := fold_left spec_step ops (false, None).

(** Contract of one call. *)
Definition good_op (nc : nat) (o : op I O F C U) : Prop :=
  match o with
  | OpAdd o r => o <> OOther /\ good_results nc (length (rows_of o)) r
  | OpReplace _ _ r => match r1_con r with Some _ => nc <> 0 | None => nc = 0 end
  | _ => True
  end.
Definition replace_has_unc (o : op I O F C U) : Prop :=
  match o with OpReplace _ _ r => r1_unc r <> None | _ => True end.
Definition add_no_unc (o : op I O F C U) : Prop :=
  match o with OpAdd _ r => r_unc r = None | _ => True end.
(** Every call honours the contract; replacements carry an uncertainty unless
    uncertainties are never reported. *)
Definition good_history (nc : nat) (ops : list (op I O F C U)) : Prop :=
  Forall (good_op nc) ops /\ (Forall replace_has_unc ops \/ Forall add_no_unc ops).

(** All (individual, objectives, fitness, constraints) evaluations requested by a history. *)
Definition evaluated (ops : list (op I O F C U)) : list (I * O * F * option C) :=
  flat_map (fun o => match o with
    | OpAdd o r => map (fun m => (m_ind m, m_obj m, m_fit m, m_con m)) (members_of (rows_of o) r)
    | OpReplace _ i r => [(i, r1_obj r, r1_fit r, r1_con r)]
    | _ => [] end) ops.
End SpecRun.
