(** Model of the constructors of the evented containers: EventedDict (psygnal/containers/_evented_dict.py, ED), EventedList
    (_evented_list.py, EL), OrderedSet, EventedSet and EventedOrderedSet (_evented_set.py, ES), Selection (_selection.py, SL) and
    SelectableEventedList (_selectable_evented_list.py, SE).

    As for the methods (EDict, EList, ESet, ESelect), they are client programs of the signal model: the object's new signals are
    emitted while it is filled.  Simplified: mappings and iterables given by the caller are lists. *)

From Verif Require Import Base Core Prog PyDict EDict PyList EList PySet ESet SpecSet ESelect EListRead.
Open Scope nat_scope.

(** basetype (ED:48-50): a type, or a sequence of types *)
Inductive basetype := BType (t : oid) | BTypes (ts : list oid).
Definition basetypes (b : basetype) : list oid := match b with BTypes ts => ts | BType t => [t] end.
(** EventedDict.__init__ (ED:166-174), TypedMutableMapping.__init__ (ED:40-51), MutableMapping.update *)
Definition ed_init (same : val -> val -> bool) (isinst : val -> oid -> bool) (data : option (list (val * val))) (b : basetype)
  (kwargs : list (val * val)) : prog dict :=
  let typed := type_ok isinst (basetypes b) in
  act (fun _ => ([], inl VNone));;
  ed_update same typed (match data with None => [] | Some l => l end);; ed_update same typed kwargs;; Ret VNone.
(** EventedList.__init__ (EL:116-128) *)
Definition el_init (vs : list val) : prog data := act (fun _ => ([], inl VNone));; el_extend vs;; Ret VNone.
(** EventedSet.__init__ (ES:269-271): _BaseMutableSet.__init__ (ES:34-36) fills the builtin set *)
Definition es_init (same : val -> val -> bool) (vs : list val) : prog sdata := act (fun _ => (dedup same vs, inl VNone));; Ret VNone.
(** EventedOrderedSet.__init__ (ES:344-345): OrderedSet.__init__ (ES:204-206) calls self.update, which is EventedSet's *)
Definition eo_init (same : val -> val -> bool) (order : list val -> list val) (vs : list val) : prog sdata :=
  act (fun _ => ([], inl VNone));; es_update same order [Items vs];; Ret VNone.
(** Selection.__init__ (SL:78-83) *)
Section Selection.
Context {U : Type}.
Variable same : val -> val -> bool.
Variable sg_items sg_active sg_current : sid.
Variable get : U -> sel.
Variable put : sel -> U -> U.
Variable allowed : U -> val -> bool.
Definition sl_init (vs : list val) : prog U :=
  act (fun u => (put (Sel [] VNone VNone) u, inl VNone));;
  sel_do same sg_items sg_active sg_current get put allowed (LSet_ (SUpdate [Items vs]));;
  update_active same sg_items sg_active sg_current get put allowed;; Ret VNone.
End Selection.
(** A Selection with a parent, or without *)
Definition selection_init (same : val -> val -> bool) (parent : val -> bool) (vs : list val) : prog sel :=
  sl_init same 1 2 3 (fun u => u) (fun x _ => x) (fun _ => parent) vs.
(** SelectableEventedList.__init__ (SE:40-49), Selectable.__init__ (SL:172-174), EventedList.__init__ (EL:116-128); its extend calls
    its own insert.  Its listener of removed, connected last, is part of the methods in ESelect. *)
Definition se_init (same : val -> val -> bool) (vs : list val) : prog both :=
  sl_init same 11 12 13 b_sel (fun s u => Both (b_list u) s) (fun u x => mem same x (b_list u)) [];;
  act (fun u => (Both [] (b_sel u), inl VNone));; se_extend same true vs;; Ret VNone.
