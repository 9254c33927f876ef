(** Model of the interaction plumbing:
    desdeo_emo/EAs/BaseEA.py [set_interaction_type] 211-243, [allowable_interaction_types] 71-80,
    [start] 82-91, [request_preferences] 467-475;
    desdeo_emo/selection/SelectionBase.py 91-301;
    desdeo_emo/EAs/BaseIndicatorEA.py [manage_preferences] 143-175;
    desdeo_emo/EAs/IOPIS.py [manage_preferences] 91-126;
    desdeo_emo/problem/IOPIS.py [manage_preferences] 190-217. *)
From Verif Require Import Base.

(** The four documented interaction types. *)
Inductive itype := ReferencePoint | PreferredSolutions | NonPreferredSolutions | PreferredRanges.
(** Argument of set_interaction_type: None, one of the documented strings, any other string. *)
Inductive itype_arg := ArgNone | ArgType (t : itype) | ArgOther.

(** BaseEA._interaction_location *)
Inductive location := LocNone | LocSelection | LocProblem | LocEA | LocPopulation.

Record ea := mkEA {
  ea_interact : bool;
  ea_loc : location;
  ea_set_bool : bool;              (* interaction_type_set_bool *)
  ea_type : option itype;          (* selection_operator.interaction_type *)
  ea_reqid : option nat }.         (* selection_operator._interaction_request_id *)

(** SelectionBase.py:91-99: result of the selection operator's set_interaction_type. *)
Definition sel_set_type (old : option itype) (a : itype_arg) : option itype * res unit :=
  match a with
  | ArgNone => (old, Ok tt)               (* returns the dictionary *)
  | ArgOther => (old, Err ValueError)
  | ArgType t => (Some t, Ok tt)
  end.

(** BaseEA.py:211-243. Only NotImplementedError is caught, so the ValueError of the selection
    operator escapes after line 215/233 has already set the flag. [AttributeError] stands for
    NotImplementedError (raised for location EA). *)
Definition set_interaction_type (e : ea) (a : itype_arg) : ea * res unit :=
  match ea_loc e with
  | LocSelection | LocPopulation =>
      let (t, r) := sel_set_type (ea_type e) a in
      (mkEA (ea_interact e) (ea_loc e) true t (ea_reqid e), r)
  | LocProblem => (mkEA (ea_interact e) (ea_loc e) true (ea_type e) (ea_reqid e), Ok tt)
  | LocEA => (mkEA (ea_interact e) (ea_loc e) false (ea_type e) (ea_reqid e), Err AttributeError)
  | LocNone => (e, Ok tt)
  end.

(** SelectionBase.py:105-122 + 124-229: a fresh random id is stored and handed out; the
    "Preferred ranges" variant (199-229) builds its request but does not return it. *)
Inductive request := ReqSelection (t : itype) (id : nat) | ReqProblem.
Definition sel_request (e : ea) (rnd : nat) : ea * res (option request) :=
  match ea_type e with
  | None => (e, Err ValueError)
  | Some t =>
      (mkEA (ea_interact e) (ea_loc e) (ea_set_bool e) (ea_type e) (Some rnd),
       Ok (match t with PreferredRanges => None | _ => Some (ReqSelection t rnd) end))
  end.

(** BaseEA.py:467-475 ([ReqProblem]: location Problem hands out the problem's data frame and message, problem/IOPIS.py:178-190). *)
Definition request_preferences (e : ea) (rnd : nat) : ea * res (option request) :=
  if negb (ea_interact e) then (e, Ok None)
  else match ea_loc e with
       | LocProblem => (e, Ok (Some ReqProblem))
       | LocSelection => sel_request e rnd
       | _ => (e, Ok None)
       end.

(** BaseEA.py:82-103 for an EA whose population and selection operator exist. *)
Definition start (e : ea) (rnd : nat) : ea * res (option request) :=
  if ea_interact e && negb (ea_set_bool e) then (e, Err EaError)
  else request_preferences e rnd.

(** Constructor, BaseEA.py:381-385: where interaction is handled. *)
Inductive problem_kind := PlainProblem | IOPISproblem | NoProblem.
Definition new_ea (interact : bool) (k : problem_kind) : ea :=
  if interact then
    match k with
    | PlainProblem => mkEA true LocSelection false None None
    | IOPISproblem => fst (set_interaction_type (mkEA true LocProblem false None None) ArgNone)
    | NoProblem => mkEA true LocNone false None None
    end
  else mkEA false LocNone false None None.

(** ** Preferences handed to iterate *)
Section Manage.
(** [VS]: reference-vector state; payloads abstract. *)
Context {VS Payload : Type}.
Context (adapt_RVs : VS -> VS).                         (* adapt + neighbouring_angles *)
Context (apply_pref : itype -> Payload -> VS -> VS).    (* adapt_k + add_edge_vectors + angles *)

(** A preference object: its class (one per interaction type, or foreign), id and response. *)
Record pref := mkPref { pf_class : option itype; pf_id : nat; pf_payload : Payload }.

Definition itype_eqb (a b : itype) : bool :=
  match a, b with
  | ReferencePoint, ReferencePoint | PreferredSolutions, PreferredSolutions
  | NonPreferredSolutions, NonPreferredSolutions | PreferredRanges, PreferredRanges => true
  | _, _ => false
  end.

(** SelectionBase.py:231-257 and the isinstance tests of 259-301. *)
Definition manage_preferences (e : ea) (v : VS) (p : option pref) : VS * res unit :=
  match p with
  | None => (adapt_RVs v, Ok tt)
  | Some p =>
      if negb (match ea_reqid e with Some i => Nat.eqb i (pf_id p) | None => false end)
      then (v, Err ValueError)
      else match ea_type e with
           | None => (v, Err ValueError)
           | Some t =>
               if match pf_class p with Some c => itype_eqb c t | None => false end
               then (apply_pref t (pf_payload p) v, Ok tt)
               else (v, Err TypeError)
           end
  end.

(** BaseIndicatorEA.py:143-175: state (reference point, n_iterations, total FE). [to_fitness]: times problem._max_multiplier (line 173). The request id does not
    exist before the first request (AttributeError); [reqid = None] stands for that. *)
Context (to_fitness : Payload -> Payload).
Record ind_state := mkInd { ind_ref : option Payload; ind_iters : Z; ind_fe : Z }.
Definition ind_manage (interact : bool) (reqid : option nat) (s : ind_state) (p : option pref) : ind_state * res unit :=
  if negb interact then (s, Ok tt)
  else match p with
       | None => (s, Err EaError)
       | Some p =>
           if negb (match pf_class p with Some ReferencePoint => true | _ => false end) then (s, Err EaError)
           else match reqid with
                | None => (s, Err AttributeError)
                | Some i => if negb (Nat.eqb i (pf_id p)) then (s, Err EaError)
                            else (mkInd (Some (to_fitness (pf_payload p))) (ind_iters s + ind_iters s) (ind_fe s + ind_fe s), Ok tt)
                end
       end.

(** EAs/IOPIS.py:91-126 (base class of the IOPIS EAs): stored preference and vectors. *)
Context (adapt_scalarised : Payload -> VS -> VS).
Definition iopis_manage (reqid : option nat) (s : option Payload * VS) (p : option pref) : (option Payload * VS) * res unit :=
  match p with
  | None => (s, Err EaError)
  | Some p =>
      if negb (match pf_class p with Some ReferencePoint => true | _ => false end) then (s, Err EaError)
      else match reqid with
           | None => (s, Err AttributeError)
           | Some i => if negb (Nat.eqb i (pf_id p)) then (s, Err EaError)
                       else ((Some (pf_payload p), adapt_scalarised (pf_payload p) (snd s)), Ok tt)
           end
  end.

(** problem/IOPIS.py:190-217: what kind of Python object the preference is. *)
Inductive pykind := PyDict | PyList | PyNone | PyOther.
Inductive pis_type := PIS_IOPIS | PIS_MultiDM | PIS_Classification.
(** state: the map's stored preference. [true] = the preference was stored. *)
Definition problem_manage (t : pis_type) (k : pykind) (pl : Payload) (s : option Payload) : option Payload * res unit :=
  match t with
  | PIS_IOPIS => match k with PyDict => (Some pl, Ok tt) | _ => (s, Err TypeError) end
  | PIS_MultiDM => match k with PyList => (Some pl, Ok tt) | _ => (s, Err TypeError) end
  | PIS_Classification => (s, Err TypeError)
  end.
End Manage.
Arguments pref : clear implicits.
Arguments ind_state : clear implicits.
