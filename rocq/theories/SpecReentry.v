(** What the properties of evented containers whose listeners use the container are about: code that only uses the
    methods of the container, and what is true when an event is emitted. *)

From Verif Require Import Base Core PyDict PySet EDict SpecDict ESet SpecSet.

(** Programs that use an object through the methods [used]; otherwise arbitrary: they may read everything, connect, disconnect,
    pause, block, emit other signals, and so on, but do not write to the object's private data or emit its signals [C]. *)
Inductive user {U} (C : sid -> bool) (used : prog U -> Prop) : prog U -> Prop :=
| us_ret : forall v, user C used (Ret v)
| us_throw : forall e, user C used (Throw e)
| us_halt : user C used Halt
| us_look : forall k, (forall u, user C used (k u)) -> user C used (Look k)
| us_do : forall o k, match o with OUsr _ => False | OEmit s _ _ _ | OEmitFast s _ => C s = false | _ => True end ->
    (forall x, user C used (k x)) -> user C used (Do o k)
| us_bind : forall p k, user C used p -> (forall v, user C used (k v)) -> user C used (bind p k)
| us_catch : forall p k, user C used p -> (forall x, user C used (k x)) -> user C used (catch p k)
| us_used : forall p, used p -> user C used p.
(** All listeners, and functions of the library of the environment, are such programs. *)
Definition users {U} (C : sid -> bool) (used : prog U -> Prop) (E : env U) : Prop :=
  (forall t a w, user C used (e_body E t a w)) /\ (forall m a, user C used (e_lib E m a)).

(** The methods of EventedDict; the loop of clear() with any number of rounds (the number in [ed_clear] is only right for
    listeners that add nothing). *)
Definition used_d (same : val -> val -> bool) (typed : val -> bool) (p : prog dict) : Prop :=
  (exists o, o <> DClear /\ p = evented_d same typed o) \/ exists n, p = ed_clear_loop same n.
(** The methods of EventedSet. *)
Definition used_s (same : val -> val -> bool) (order : list val -> list val) (p : prog sdata) : Prop :=
  exists o, p = evented_s same order o.

(** A dict with distinct keys and values of the base type. *)
Definition proper (same : val -> val -> bool) (typed : val -> bool) (d : dict) : Prop :=
  distinct same (map fst d) /\ Forall (fun kv => typed (snd kv) = true) d.

(** The event and the content when it is emitted (DictEvents, ED:112-131). *)
Inductive true_d (same : val -> val -> bool) (typed : val -> bool) : sid -> list val -> dict -> Prop :=
| td_adding : forall k d, dget same k d = None -> true_d same typed d_adding [k] d
| td_added : forall k v d, dget same k d = Some v -> typed v = true -> true_d same typed d_added [k; v] d
| td_changing : forall k v d, dget same k d = Some v -> true_d same typed d_changing [k] d
| td_changed : forall k old v d, dget same k d = Some v -> typed v = true -> typed old = true -> v <> old ->
    true_d same typed d_changed [k; old; v] d
| td_removing : forall k v d, dget same k d = Some v -> true_d same typed d_removing [k] d
| td_removed : forall k v d, dget same k d = None -> typed v = true -> true_d same typed d_removed [k; v] d.
(** items_changed(added, removed) (SetEvents, ES:220-232): what was added is there, what was removed is not. *)
Inductive true_s (same : val -> val -> bool) : sid -> list val -> sdata -> Prop :=
| ts_changed : forall a r u, a ++ r <> [] -> (forall x, In x a -> inside same x u) -> (forall x, In x r -> ~ inside same x u) ->
    true_s same items_changed [VTuple a; VTuple r] u.

(** A dict that is kept up to date by applying the events added, changed and removed. *)
Definition retell1 (same : val -> val -> bool) (d : dict) (e : sid * list val) : dict :=
  match e with
  | (2, [k; v]) => dset same k v d
  | (4, [k; _; v]) => dset same k v d
  | (6, [k; _]) => ddel same k d
  | _ => d
  end.
Definition retell same (d : dict) (h : list (sid * list val * dict)) : dict := fold_left (retell1 same) (map fst h) d.
(** A set that is kept up to date by applying items_changed. *)
Definition retell1_s (same : val -> val -> bool) (l : sdata) (e : sid * list val) : sdata :=
  match e with
  | (1, [VTuple a; VTuple r]) => fold_left (fun l x => sdel same x l) r (fold_left (fun l x => sadd same x l) a l)
  | _ => l
  end.
Definition retell_s same (l : sdata) (h : list (sid * list val * sdata)) : sdata := fold_left (retell1_s same) (map fst h) l.
(** Applying the events [h] to [u0], after each event one has the content at the time it was emitted, and in the end [u]. *)
Definition up_to_date {U} (tell : U -> list (sid * list val * U) -> U) (u0 : U) (h : list (sid * list val * U)) (u : U) : Prop :=
  (forall h1 s a v h2, h = h1 ++ (s, a, v) :: h2 -> v = tell u0 (h1 ++ [(s, a, v)])) /\ u = tell u0 h.
