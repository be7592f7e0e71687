(** Model of psygnal/containers/_evented_dict.py (ED below) and of the mixin methods of
    collections.abc.MutableMapping it inherits (CPython, _collections_abc.py:940-998).

    The methods are client programs of the signal model (Core); the state is [self._dict].
    Simplified: mappings and iterables given by the caller are lists of pairs; [typed] says which
    values pass _type_check (ED:71-78). *)

From Verif Require Import Base Core Prog PyDict.

(** DictEvents (ED:113-139) and its relay. *)
Definition d_events : sid := 0.
Definition d_adding : sid := 1.
Definition d_added : sid := 2.
Definition d_changing : sid := 3.
Definition d_changed : sid := 4.
Definition d_removing : sid := 5.
Definition d_removed : sid := 6.
(** The group, freshly created; all other signals belong to someone else. *)
Definition dict_cfg : sid -> sigst := fun s =>
  let sig n := new_signal Immediate (repeat (Param PosOnly false AEmpty) n) in
  match s with
  | 0 => new_relay [("adding"%string, 1); ("added"%string, 2); ("changing"%string, 3);
      ("changed"%string, 4); ("removing"%string, 5); ("removed"%string, 6)]
  | 1 | 3 | 5 => sig 1
  | 2 | 6 => sig 2
  | 4 => sig 3
  | _ => sig 1
  end.
Definition dict_signals (s : sid) : bool := Nat.leb s 6.

Section EventedDict.
Variable same : val -> val -> bool.
Variable typed : val -> bool.

(** TypedMutableMapping.__setitem__ and __delitem__ (ED:53-57, 71-78) *)
Definition do_put (k v : val) (d : dict) : dict * (val + exn) :=
  if typed v then (dset same k v d, inl VNone) else (d, inr EType).
Definition do_del (k : val) (d : dict) : dict * (val + exn) :=
  match dget same k d with Some _ => (ddel same k d, inl VNone) | None => (d, inr EKey) end.
(** __getitem__ (ED:59-60) *)
Definition ed_get (k : val) : prog dict :=
  Look (fun d => match dget same k d with Some v => Ret v | None => Throw EKey end).
(** __setitem__ (ED:176-186) *)
Definition ed_set (k v : val) : prog dict :=
  Look (fun d =>
    match dget same k d with
    | None => say d_adding [k];; act (do_put k v);; say d_added [k; v];; Ret VNone
    | Some old =>
        if val_eqb v old then Ret VNone
        else say d_changing [k];; act (do_put k v);; say d_changed [k; old; v];; Ret VNone
    end).
(** __delitem__ (ED:188-192) *)
Definition ed_del (k : val) : prog dict :=
  bind (ed_get k) (fun item =>
  say d_removing [k];; act (do_del k);; say d_removed [k; item];; Ret VNone).
(** MutableMapping.pop *)
Definition ed_pop (k : val) (default : option val) : prog dict :=
  Look (fun d =>
    match dget same k d with
    | None => match default with Some v => Ret v | None => Throw EKey end
    | Some v => ed_del k;; Ret v
    end).
(** MutableMapping.popitem: the first key *)
Definition ed_popitem : prog dict :=
  Look (fun d =>
    match d with
    | [] => Throw EKey
    | (k, _) :: _ => bind (ed_get k) (fun v => ed_del k;; Ret (VTuple [k; v]))
    end).
(** MutableMapping.clear; unrolled once more than there are entries at the beginning
    (it never needs more; RecursionError would show that). *)
Fixpoint ed_clear_loop (n : nat) : prog dict :=
  match n with
  | O => Throw ERecursion
  | S n => catch ed_popitem (fun x =>
             match x with
             | inl _ => ed_clear_loop n
             | inr EKey => Ret VNone
             | inr e => Throw e
             end)
  end.
Definition ed_clear : prog dict := Look (fun d => ed_clear_loop (S (List.length d))).
(** MutableMapping.update *)
Definition ed_update (kvs : list (val * val)) : prog dict := each (fun kv => ed_set (fst kv) (snd kv)) kvs.
(** MutableMapping.setdefault *)
Definition ed_setdefault (k v : val) : prog dict :=
  Look (fun d =>
    match dget same k d with
    | Some x => Ret x
    | None => ed_set k v;; Ret v
    end).
End EventedDict.
