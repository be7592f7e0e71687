(** What the properties of EventedDict are about, independent of its code: the operations of the
    builtin dict, and how events describe a change. *)

From Verif Require Import Base Core PyDict EDict.

Inductive dop :=
| DSet (k v : val)
| DDel (k : val)
| DPop (k : val) (default : option val)
| DPopitem
| DClear
| DUpdate (kvs : list (val * val))
| DSetdefault (k v : val).

(** builtin dict: [on_dict same o d d' r]. *)
Inductive on_dict (same : val -> val -> bool) : dop -> dict -> dict -> val + exn -> Prop :=
| od_set : forall k v d, on_dict same (DSet k v) d (dset same k v d) (inl VNone)
| od_del : forall k x d, dget same k d = Some x -> on_dict same (DDel k) d (ddel same k d) (inl VNone)
| od_del_err : forall k d, dget same k d = None -> on_dict same (DDel k) d d (inr EKey)
| od_pop : forall k x y d, dget same k d = Some x -> on_dict same (DPop k y) d (ddel same k d) (inl x)
| od_pop_default : forall k y d, dget same k d = None -> on_dict same (DPop k (Some y)) d d (inl y)
| od_pop_err : forall k d, dget same k d = None -> on_dict same (DPop k None) d d (inr EKey)
| od_popitem : forall k v d, on_dict same DPopitem (d ++ [(k, v)]) d (inl (VTuple [k; v]))
| od_popitem_err : on_dict same DPopitem [] [] (inr EKey)
| od_clear : forall d, on_dict same DClear d [] (inl VNone)
| od_update : forall kvs d, on_dict same (DUpdate kvs) d
    (fold_left (fun d kv => dset same (fst kv) (snd kv) d) kvs d) (inl VNone)
| od_setdefault : forall k v x d, dget same k d = Some x -> on_dict same (DSetdefault k v) d d (inl x)
| od_setdefault_new : forall k v d, dget same k d = None -> on_dict same (DSetdefault k v) d (dset same k v d) (inl v).

(** The same operation on an EventedDict. *)
Definition evented_d (same : val -> val -> bool) (typed : val -> bool) (o : dop) : prog dict :=
  match o with
  | DSet k v => ed_set same typed k v
  | DDel k => ed_del same k
  | DPop k d => ed_pop same k d
  | DPopitem => ed_popitem same
  | DClear => ed_clear same
  | DUpdate kvs => ed_update same typed kvs
  | DSetdefault k v => ed_setdefault same typed k v
  end.

(** [follows_d d h d']: the events [h], with the contents when they were emitted, tell how to get
    from [d] to [d']. *)
Inductive follows_d (same : val -> val -> bool) : dict -> list (sid * list val * dict) -> dict -> Prop :=
| fd_nil : forall d, follows_d same d [] d
| fd_add : forall d k v h d', dget same k d = None -> follows_d same (dset same k v d) h d' ->
    follows_d same d ((d_adding, [k], d) :: (d_added, [k; v], dset same k v d) :: h) d'
| fd_change : forall d k old v h d', dget same k d = Some old -> v <> old -> follows_d same (dset same k v d) h d' ->
    follows_d same d ((d_changing, [k], d) :: (d_changed, [k; old; v], dset same k v d) :: h) d'
| fd_remove : forall d k v h d', dget same k d = Some v -> follows_d same (ddel same k d) h d' ->
    follows_d same d ((d_removing, [k], d) :: (d_removed, [k; v], ddel same k d) :: h) d'.
