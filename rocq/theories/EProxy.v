(** Model of psygnal/containers/_evented_proxy.py (EP below): EventedObjectProxy and
    EventedCallableObjectProxy.

    The target is any object: [T] is its state, [target] says what Python's operations do to it
    (reading may have effects, too).  The methods are client programs of the signal model (Core),
    so listeners are arbitrary programs.  The methods of wrapt.ObjectProxy used by super() are part
    of the trusted description of the environment: item access, deletion and in-place operations
    go to the target; attribute access goes to the target, except for attributes of the class of
    the proxy, of which only [events] is considered (a property without setter).  Not modelled: the
    cache of event groups by id(proxy) (EP:77-81; see Descr for caches of this kind); names that
    start with "_self_" and dunder names. *)

From Verif Require Import Base Core Prog.

(** ProxyEvents, CallableProxyEvents (EP:19-32) and the relay. *)
Definition p_events : sid := 0.
Definition attribute_set : sid := 1.
Definition attribute_deleted : sid := 2.
Definition item_set : sid := 3.
Definition item_deleted : sid := 4.
Definition in_place : sid := 5.
Definition called : sid := 6.
Definition proxy_cfg : sid -> sigst := fun s =>
  let sig n := new_signal Immediate (repeat (Param PosOnly false AEmpty) n) in
  match s with
  | 0 => new_relay [("attribute_set"%string, 1); ("attribute_deleted"%string, 2); ("item_set"%string, 3);
                    ("item_deleted"%string, 4); ("in_place"%string, 5); ("called"%string, 6)]
  | 2 | 4 => sig 1
  | _ => sig 2
  end.
Definition proxy_signals (s : sid) : bool := Nat.leb s 6.

(** What Python's operations do to an object. *)
Record target (T : Type) := Target {
  t_getattr : string -> T -> T * (val + exn);
  t_setattr : string -> val -> T -> T * (val + exn);
  t_delattr : string -> T -> T * (val + exn);
  t_getitem : val -> T -> T * (val + exn);
  t_setitem : val -> val -> T -> T * (val + exn);
  t_delitem : val -> T -> T * (val + exn);
  t_inplace : string -> val -> T -> T * (val + exn);
  t_call : list val -> T -> T * (val + exn)
}.
Arguments t_getattr {T}. Arguments t_setattr {T}. Arguments t_delattr {T}. Arguments t_getitem {T}.
Arguments t_setitem {T}. Arguments t_delitem {T}. Arguments t_inplace {T}. Arguments t_call {T}.

(** _UNSET (EP:16), and the group [self.events]. *)
Definition unset : val := VObj 0.
Definition the_events : val := VObj 1.

Section Proxy.
Context {T : Type}.
Variable D : target T.

(** Attribute access of the proxy (wrapt, and the property EP:74-81). *)
Definition own (name : string) : bool := String.eqb name "events".
Definition px_getattr (name : string) : prog T :=
  if own name then Ret the_events else act (t_getattr D name).
Definition super_setattr (name : string) (v : val) : prog T :=
  if own name then Throw EAttribute else act (t_setattr D name v).
Definition super_delattr (name : string) : prog T :=
  if own name then Throw EAttribute else act (t_delattr D name).
(** getattr(self, name, _UNSET) *)
Definition getattr_or (name : string) : prog T :=
  catch (px_getattr name) (fun x =>
    match x with inl v => Ret v | inr EAttribute => Ret unset | inr e => Throw e end).
(** __setattr__, __delattr__ (EP:82-90) *)
Definition px_setattr (name : string) (v : val) : prog T :=
  bind (getattr_or name) (fun before =>
  super_setattr name v;;
  bind (getattr_or name) (fun after =>
  if val_eqb before after then Ret VNone else say attribute_set [VStr name; after];; Ret VNone)).
Definition px_delattr (name : string) : prog T :=
  super_delattr name;; say attribute_deleted [VStr name];; Ret VNone.
(** __setitem__, __delitem__ (EP:92-100) *)
Definition px_setitem (k v : val) : prog T :=
  bind (act (t_getitem D k)) (fun before =>
  act (t_setitem D k v);;
  bind (act (t_getitem D k)) (fun after =>
  if val_eqb before after then Ret VNone else say item_set [k; after];; Ret VNone)).
Definition px_delitem (k : val) : prog T :=
  act (t_delitem D k);; say item_deleted [k];; Ret VNone.
(** __iadd__ … __ior__ (EP:108-159); [name]: add, sub, … *)
Definition px_inplace (name : string) (other : val) : prog T :=
  say in_place [VStr name; other];; act (t_inplace D name other).
(** EventedCallableObjectProxy.__call__ (EP:208-211); keyword arguments are left out. *)
Definition px_call (args : list val) : prog T :=
  say called [VTuple args; VTuple []];; act (t_call D args).
End Proxy.
