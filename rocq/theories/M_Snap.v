(** Model of the archive snapshots of desdeo_emo/EAs/BaseEA.py: [pre_iteration] (lines 154-181) and [end]
    (lines 105-133), down to the labelled tables, and of the table sent with the plot request (lines 463-465).
    Matrices of Q stand for numpy arrays; a matrix knows its width (an empty array still has a number of columns). *)
From Coq Require Import String Ascii QArith.
From Verif Require Import Base.
Open Scope list_scope.
Open Scope nat_scope.

(** A name handed out by the problem: a scalar objective has a string, a vector objective a list of strings. *)
Inductive name := Str (s : string) | Lst (l : list string).

(** A column label of a pandas table: a plain string, a tuple (one level per string) or a raw list object. *)
Inductive label := LStr (s : string) | LTuple (l : list string) | LList (l : list string).

Record matrix := mkMat { width : nat; mrows : list (list Q) }.
Record frame := mkFrame { labels : list label; data : matrix }.

(** Names and data of the population that the code reads. *)
Record names := mkNames { variable_names : list name; objective_names : list name; fitness_names : list name }.
Record popdata := mkPop { individuals : matrix; objectives : matrix; fitness : matrix }.

(** Iterating over a Python string yields its characters. *)
Fixpoint chars (s : string) : list string :=
  match s with EmptyString => [] | String c t => String c EmptyString :: chars t end.

(** [for item in sublist]: the items of a list, or the characters of a string. *)
Definition items (n : name) : list string := match n with Str s => chars s | Lst l => l end.

(** BaseEA.py:110-112 etc.: [[item for sublist in names for item in sublist]]. *)
Definition flatten (ns : list name) : list name := map Str (flat_map items ns).

Definition is_list (n : name) : bool := match n with Lst _ => true | Str _ => false end.

(** [isinstance(names[0], list)]; [names[0]] of an empty list raises. *)
Definition first_is_list (ns : list name) : res bool :=
  match ns with [] => Err IndexError | n :: _ => Ok (is_list n) end.

(** BaseEA.py:108-117 (and 157-166). The second test assigns [objective_names] again, not [fitness_names].
    Result: labels used for the objectives table, labels used for the fitness table. *)
Definition column_names (n : names) : res (list name * list name) :=
  bind (first_is_list (objective_names n)) (fun b =>
  let onames := if b then flatten (objective_names n) else objective_names n in
  let fnames := fitness_names n in
  bind (first_is_list fnames) (fun b' =>
  let onames' := if b' then flatten fnames else onames in
  Ok (onames', fnames))).

(** i-th items of all lists, for i below the common length [k]. *)
Definition transpose_labels (k : nat) (ls : list (list string)) : list label :=
  map (fun i => LTuple (map (fun l => nth i l EmptyString) ls)) (seq 0 k).

(** External (pandas [ensure_index]): a list of strings gives those labels; a nonempty list of lists gives a
    multi-level index, one level per list, all of the same length (else ValueError); otherwise the raw objects. *)
Definition ensure_index (ns : list name) : res (list label) :=
  match ns with
  | [] => Ok []
  | n0 :: _ =>
      if forallb is_list ns
      then let k := List.length (items n0) in
           if forallb (fun n => Nat.eqb (List.length (items n)) k) ns
           then Ok (transpose_labels k (map items ns)) else Err ValueError
      else Ok (map (fun n => match n with Str s => LStr s | Lst l => LList l end) ns)
  end.

(** External (pandas): [pd.DataFrame(array, columns=names)]. *)
Definition DataFrame (m : matrix) (ns : list name) : res frame :=
  bind (ensure_index ns) (fun ls =>
  if Nat.eqb (List.length ls) (width m) then Ok (mkFrame ls m) else Err ValueError).

Record entry := mkEntry { e_iteration : Z; e_vars : frame; e_objs : frame; e_fits : frame }.

(** BaseEA.py:167-181 (118-132): the dict stored under the current generation count. *)
Definition make_entry (it : Z) (n : names) (p : popdata) : res entry :=
  bind (column_names n) (fun on =>
  bind (DataFrame (individuals p) (variable_names n)) (fun fv =>
  bind (DataFrame (objectives p) (fst on)) (fun fo =>
  bind (DataFrame (fitness p) (snd on)) (fun ff =>
  Ok (mkEntry it fv fo ff))))).

(** What [pre_iteration]/[end] see of the algorithm. The archive is a dict: newest first, lookups find the newest. *)
Record snapst := mkSnap {
  keep_archive : bool; iteration_counter : Z; current_gen : Z;
  snames : names; spop : popdata; archive : list (Z * entry) }.

Definition archive_get (k : Z) (a : list (Z * entry)) : option entry :=
  match find (fun e => Z.eqb (fst e) k) a with Some e => Some (snd e) | None => None end.

(** BaseEA.py:154-181 [pre_iteration]: state afterwards and outcome. *)
Definition pre_iteration (s : snapst) : snapst * res unit :=
  if keep_archive s then
    match make_entry (iteration_counter s) (snames s) (spop s) with
    | Ok e => (mkSnap (keep_archive s) (iteration_counter s) (current_gen s) (snames s) (spop s)
                      ((current_gen s, e) :: archive s), Ok tt)
    | Err x => (s, Err x)
    end
  else (s, Ok tt).

(** BaseEA.py:105-133 [end]: the archive is returned, or None when no archive is kept. *)
Definition finish (s : snapst) : snapst * res (option (list (Z * entry))) :=
  let (s', r) := pre_iteration s in
  (s', match r with Ok _ => Ok (if keep_archive s then Some (archive s') else None) | Err x => Err x end).

(** BaseEA.py:463-465 (BaseIndicatorEA.py:221-223): table sent with the plot request. *)
Definition plot_table (s : snapst) : res frame := DataFrame (objectives (spop s)) (objective_names (snames s)).
