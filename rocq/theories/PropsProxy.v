(** EventedObjectProxy: C58. *)

From Verif Require Import Base Core Spec Frame Fuel Demo Client Prog Does EProxy.
Open Scope string_scope.
Open Scope list_scope.

Lemma proxy_cfg_fresh : forall s, fresh_sig (proxy_cfg s).
Proof. intros s. do 7 (destruct s as [|s]; [repeat split|]). repeat split. Qed.
Lemma proxy_cfg_flat : forall {U} (u : U), flat (init_world proxy_cfg u).
Proof.
  intros U u r ms x y H Hi. destruct r as [|r]; [|do 6 (destruct r as [|r]; [discriminate H|]); discriminate H].
  injection H as <-. cbn [In] in Hi. repeat (destruct Hi as [Hi|Hi]; [injection Hi as <- <-; reflexivity|]). destruct Hi.
Qed.
Global Hint Resolve proxy_cfg_fresh proxy_cfg_flat : demo.

(** An operation on the target that is a mere look. *)
Definition look_only {T X} (f : T -> T * X) : Prop := forall t, fst (f t) = t.
(** What hasattr/getattr see: a value, or nothing; no other exception. *)
Inductive sees {T} (f : T -> T * (val + exn)) (t : T) : val -> Prop :=
| sees_value : forall v, snd (f t) = inl v -> sees f t v
| sees_nothing : snd (f t) = inr EAttribute -> sees f t unset.

(** How an operation through the proxy compares with the same operation [f] on the target: the
    target is left as [f] leaves it; if [f] raises, the exception comes out and nothing is emitted;
    if not, [evs] is emitted after the change, and if listeners do not raise, None is returned. *)
Definition like_direct {T} (E : env T) (f : T -> T * (val + exn)) (evs : T -> list (sid * list val * T)) (w w' : world T) (r : out) : Prop :=
  w_usr w' = fst (f (w_usr w))
  /\ exists t, w_tr w' = w_tr w ++ t
  /\ match snd (f (w_usr w)) with
     | inr e => r = Err e /\ heard proxy_signals t = []
     | inl _ => heard proxy_signals t = evs (w_usr w')
                /\ (r = Ok VNone \/ exists e, r = Err e /\ listener_raised E proxy_signals e)
     end.

Section Facts.
Context {T : Type} (E : env T) (D : target T).
Notation C := proxy_signals.
Lemma like_sound : forall p f evs w w' r, env_all (aloof C) E ->
  wp E C p (w_usr w) [] (fun u h r => u = fst (f (w_usr w))
     /\ match snd (f (w_usr w)) with
        | inr e => r = Err e /\ h = []
        | inl _ => h = evs u /\ (r = Ok VNone \/ exists e, r = Err e /\ listener_raised E C e)
        end) ->
  runs E p w w' r -> done r -> like_direct E f evs w w' r.
Proof.
  intros p f evs w w' r HE H HR Hr. destruct (wp_sound E C HE p w w' r HR Hr [] _ H) as (t & Ht & Hu & HQ).
  split; [exact Hu|]. exists t. auto.
Qed.

Lemma getattr_sees : forall name t a k h Q, own name = false -> look_only (t_getattr D name) -> sees (t_getattr D name) t a ->
  wp E C (k a) t h Q -> wp E C (bind (getattr_or D name) k) t h Q.
Proof.
  intros name t a k h Q Ho HL HS H. unfold getattr_or, px_getattr. rewrite Ho. unfold act, call. cbn [catch bind wp].
  rewrite (HL t). destruct HS as [v Hv|Hv]; rewrite Hv; exact H.
Qed.
Lemma super_set : forall name v t k h Q, own name = false ->
  match snd (t_setattr D name v t) with
  | inl _ => wp E C k (fst (t_setattr D name v t)) h Q
  | inr e => Q (fst (t_setattr D name v t)) h (Err e)
  end -> wp E C (super_setattr D name v;; k) t h Q.
Proof.
  intros name v t k h Q Ho H. unfold super_setattr, seq. rewrite Ho. unfold act, call. cbn [bind wp].
  destruct (snd (t_setattr D name v t)); exact H.
Qed.
End Facts.

(** Setting an attribute, if reading it has no effects and does not raise anything but
    AttributeError: as on the target, and attribute_set is emitted iff the attribute changed. *)
Theorem C58_setattr_partial : forall T (D : target T) E name v before after w w' r,
  env_all (aloof proxy_signals) E -> name <> "events" -> look_only (t_getattr D name) ->
  sees (t_getattr D name) (w_usr w) before ->
  sees (t_getattr D name) (fst (t_setattr D name v (w_usr w))) after ->
  runs E (px_setattr D name v) w w' r -> done r ->
  (before = after -> like_direct E (t_setattr D name v) (fun _ => []) w w' r)
  /\ (before <> after -> like_direct E (t_setattr D name v) (fun t => [(attribute_set, [VStr name; after], t)]) w w' r).
Proof.
  intros T D E name v before after w w' r HE Hn HL HB HA HR Hr.
  assert (Ho : own name = false) by (apply String.eqb_neq; exact Hn).
  assert (Main : forall evs, (val_eqb before after = true /\ evs = (fun _ => []))
      \/ (val_eqb before after = false /\ evs = (fun t => [(attribute_set, [VStr name; after], t)])) ->
      like_direct E (t_setattr D name v) evs w w' r).
  { intros evs HV. eapply like_sound; eauto. unfold px_setattr.
    eapply getattr_sees; eauto. eapply super_set; eauto.
    destruct (snd (t_setattr D name v (w_usr w))); [|split; auto].
    eapply getattr_sees; eauto. destruct HV as [[-> ->]|[-> ->]].
    - cbn. auto.
    - unfold say, seq, call. cbn. split; intros; split; auto; split; auto. right. eauto. }
  split; intros H; apply Main; [left|right]; (split; [|reflexivity]).
  - now apply val_eqb_eq.
  - destruct (val_eqb before after) eqn:Hv; [|reflexivity]. apply val_eqb_eq in Hv. contradiction.
Qed.
(** Deleting an attribute: as on the target, and attribute_deleted is emitted. *)
Theorem C58_delattr_partial : forall T (D : target T) E name w w' r,
  env_all (aloof proxy_signals) E -> name <> "events" -> runs E (px_delattr D name) w w' r -> done r ->
  like_direct E (t_delattr D name) (fun t => [(attribute_deleted, [VStr name], t)]) w w' r.
Proof.
  intros T D E name w w' r HE Hn HR Hr. eapply like_sound; eauto.
  unfold px_delattr, super_delattr, own. rewrite (proj2 (String.eqb_neq _ _) Hn). unfold act, say, seq, call. cbn [bind wp].
  destruct (snd (t_delattr D name (w_usr w))); cbn; auto. split; intros; split; auto; split; auto. right. eauto.
Qed.
(** Setting an item that exists. *)
Theorem C58_setitem_partial : forall T (D : target T) E k v before after w w' r,
  env_all (aloof proxy_signals) E -> look_only (t_getitem D k) ->
  snd (t_getitem D k (w_usr w)) = inl before ->
  snd (t_getitem D k (fst (t_setitem D k v (w_usr w)))) = inl after ->
  runs E (px_setitem D k v) w w' r -> done r ->
  (before = after -> like_direct E (t_setitem D k v) (fun _ => []) w w' r)
  /\ (before <> after -> like_direct E (t_setitem D k v) (fun t => [(item_set, [k; after], t)]) w w' r).
Proof.
  intros T D E k v before after w w' r HE HL HB HA HR Hr.
  assert (Main : forall evs, (val_eqb before after = true /\ evs = (fun _ => []))
      \/ (val_eqb before after = false /\ evs = (fun t => [(item_set, [k; after], t)])) ->
      like_direct E (t_setitem D k v) evs w w' r).
  { intros evs HV. eapply like_sound; eauto. unfold px_setitem, act, seq, call. cbn [bind wp].
    rewrite (HL (w_usr w)), HB. cbn [finish bind wp].
    destruct (snd (t_setitem D k v (w_usr w))); cbn [finish bind wp]; [|split; auto].
    rewrite (HL (fst (t_setitem D k v (w_usr w)))), HA. cbn [finish bind wp]. destruct HV as [[-> ->]|[-> ->]].
    - cbn. auto.
    - unfold say, seq, call. cbn. split; intros; split; auto; split; auto. right. eauto. }
  split; intros H; apply Main; [left|right]; (split; [|reflexivity]).
  - now apply val_eqb_eq.
  - destruct (val_eqb before after) eqn:Hv; [|reflexivity]. apply val_eqb_eq in Hv. contradiction.
Qed.
(** Deleting an item. *)
Theorem C58_delitem : forall T (D : target T) E k w w' r,
  env_all (aloof proxy_signals) E -> runs E (px_delitem D k) w w' r -> done r ->
  like_direct E (t_delitem D k) (fun t => [(item_deleted, [k], t)]) w w' r.
Proof.
  intros T D E k w w' r HE HR Hr. eapply like_sound; eauto.
  unfold px_delitem, act, say, seq, call. cbn [bind wp].
  destruct (snd (t_delitem D k (w_usr w))); cbn; auto. split; intros; split; auto; split; auto. right. eauto.
Qed.

(** In-place operations and calls: announced first; if no listener raises, as on the target. *)
Theorem C58_in_place : forall T (D : target T) E name other w w' r,
  env_all (aloof proxy_signals) E -> runs E (px_inplace D name other) w w' r -> done r ->
  exists t, w_tr w' = w_tr w ++ t /\ heard proxy_signals t = [(in_place, [VStr name; other], w_usr w)]
    /\ ((w_usr w' = fst (t_inplace D name other (w_usr w))
         /\ match snd (t_inplace D name other (w_usr w)) with inl v => r = Ok v | inr e => r = Err e end)
        \/ (w_usr w' = w_usr w /\ exists e, r = Err e /\ listener_raised E proxy_signals e)).
Proof.
  intros T D E name other w w' r HE HR Hr.
  assert (H : wp E proxy_signals (px_inplace D name other) (w_usr w) [] (fun u h r =>
     h = [(in_place, [VStr name; other], w_usr w)]
     /\ ((u = fst (t_inplace D name other (w_usr w))
         /\ match snd (t_inplace D name other (w_usr w)) with inl v => r = Ok v | inr e => r = Err e end)
        \/ (u = w_usr w /\ exists e, r = Err e /\ listener_raised E proxy_signals e)))).
  { unfold px_inplace, say, act, seq, call. cbn [bind wp]. cbn [finish bind wp]. split.
    - intros _. destruct (snd (t_inplace D name other (w_usr w))) eqn:HS; cbn [finish wp]; split; auto; left; now rewrite ?HS.
    - intros e He. cbn. split; auto. right. eauto. }
  destruct (wp_sound E proxy_signals HE _ w w' r HR Hr [] _ H) as (t & Ht & Hh & HQ). exists t. auto.
Qed.
Theorem C58_call : forall T (D : target T) E args w w' r,
  env_all (aloof proxy_signals) E -> runs E (px_call D args) w w' r -> done r ->
  exists t, w_tr w' = w_tr w ++ t /\ heard proxy_signals t = [(called, [VTuple args; VTuple []], w_usr w)]
    /\ ((w_usr w' = fst (t_call D args (w_usr w))
         /\ match snd (t_call D args (w_usr w)) with inl v => r = Ok v | inr e => r = Err e end)
        \/ (w_usr w' = w_usr w /\ exists e, r = Err e /\ listener_raised E proxy_signals e)).
Proof.
  intros T D E args w w' r HE HR Hr.
  assert (H : wp E proxy_signals (px_call D args) (w_usr w) [] (fun u h r =>
     h = [(called, [VTuple args; VTuple []], w_usr w)]
     /\ ((u = fst (t_call D args (w_usr w))
         /\ match snd (t_call D args (w_usr w)) with inl v => r = Ok v | inr e => r = Err e end)
        \/ (u = w_usr w /\ exists e, r = Err e /\ listener_raised E proxy_signals e)))).
  { unfold px_call, say, act, seq, call. cbn [bind wp]. cbn [finish bind wp]. split.
    - intros _. destruct (snd (t_call D args (w_usr w))) eqn:HS; cbn [finish wp]; split; auto; left; now rewrite ?HS.
    - intros e He. cbn. split; auto. right. eauto. }
  destruct (wp_sound E proxy_signals HE _ w w' r HR Hr [] _ H) as (t & Ht & Hh & HQ). exists t. auto.
Qed.

(** ** Concrete targets *)

(** An object with attributes and items, both in dictionaries; "ro" is a property that can be set
    but not read; in-place operations are not supported. *)
Record bag := Bag { b_attr : list (string * val); b_item : list (val * val) }.
Fixpoint get_in {K} (eqb : K -> K -> bool) (k : K) (l : list (K * val)) : option val :=
  match l with [] => None | (x, v) :: l => if eqb x k then Some v else get_in eqb k l end.
Definition put_in {K} (eqb : K -> K -> bool) (k : K) (v : val) (l : list (K * val)) : list (K * val) :=
  (k, v) :: filter (fun x => negb (eqb (fst x) k)) l.
Definition del_in {K} (eqb : K -> K -> bool) (k : K) (l : list (K * val)) : list (K * val) := filter (fun x => negb (eqb (fst x) k)) l.
Definition orelse (e : exn) (o : option val) : val + exn := match o with Some v => inl v | None => inr e end.
Definition bag_target : target bag := Target bag
  (fun n t => (t, if String.eqb n "ro" then inr ERuntime else orelse EAttribute (get_in String.eqb n (b_attr t))))
  (fun n v t => (Bag (put_in String.eqb n v (b_attr t)) (b_item t), inl VNone))
  (fun n t => match get_in String.eqb n (b_attr t) with
              | Some _ => (Bag (del_in String.eqb n (b_attr t)) (b_item t), inl VNone)
              | None => (t, inr EAttribute)
              end)
  (fun k t => (t, orelse EKey (get_in val_eqb k (b_item t))))
  (fun k v t => (Bag (b_attr t) (put_in val_eqb k v (b_item t)), inl VNone))
  (fun k t => match get_in val_eqb k (b_item t) with
              | Some _ => (Bag (b_attr t) (del_in val_eqb k (b_item t)), inl VNone)
              | None => (t, inr EKey)
              end)
  (fun _ _ t => (t, inr EType))
  (fun _ t => (t, inl VNone)).
Definition bag_env : env bag := demo (fun f a => match f with 2 => Throw (EUser 7) | _ => Ret VNone end).
Definition bag0 : bag := Bag [("x", VInt 1); ("ro", VInt 4)] [(VStr "k", VInt 2)].
Definition bag_world := world_of bag_env proxy_cfg bag0 50 [conn attribute_set 1 0; conn item_deleted 2 0; conn p_events 3 0].
Lemma bag_aloof : env_all (aloof proxy_signals) bag_env.
Proof. apply demo_all. intros f a. destruct f as [|[|[|f]]]; allp. Qed.
(** Target, result, events. *)
Definition proxied (p : prog bag) : option (bag * out * list (sid * list val)) :=
  match exec bag_env 100 p bag_world with
  | Some (w, r) => Some (w_usr w, r, map fst (heard proxy_signals (skipn (List.length (w_tr bag_world)) (w_tr w))))
  | None => None
  end.
Example C58_case :
  env_all (aloof proxy_signals) bag_env /\ w_usr bag_world = bag0
  /\ look_only (t_getattr bag_target "x") /\ look_only (t_getitem bag_target (VStr "k"))
  /\ sees (t_getattr bag_target "x") bag0 (VInt 1)
  /\ sees (t_getattr bag_target "x") (fst (t_setattr bag_target "x" (VInt 5) bag0)) (VInt 5)
  /\ proxied (px_setattr bag_target "x" (VInt 5)) =
       Some (Bag [("x", VInt 5); ("ro", VInt 4)] [(VStr "k", VInt 2)], Ok VNone, [(attribute_set, [VStr "x"; VInt 5])])
  /\ proxied (px_setattr bag_target "x" (VInt 1)) = Some (bag0, Ok VNone, [])
  /\ proxied (px_setattr bag_target "y" (VInt 6)) =
       Some (Bag [("y", VInt 6); ("x", VInt 1); ("ro", VInt 4)] [(VStr "k", VInt 2)], Ok VNone, [(attribute_set, [VStr "y"; VInt 6])])
  /\ proxied (px_delattr bag_target "y") = Some (bag0, Err EAttribute, [])
  /\ proxied (px_call bag_target [VInt 8]) = Some (bag0, Ok VNone, [(called, [VTuple [VInt 8]; VTuple []])])
  /\ proxied (px_setitem bag_target (VStr "k") (VInt 3)) =
       Some (Bag (b_attr bag0) [(VStr "k", VInt 3)], Ok VNone, [(item_set, [VStr "k"; VInt 3])])
  /\ proxied (px_delitem bag_target (VStr "k")) =
       Some (Bag (b_attr bag0) [], Err (EEmitLoop (Some item_deleted) 0 (EUser 7)), [(item_deleted, [VStr "k"])]).
Proof.
  split; [apply bag_aloof|]. split; [vm_compute; reflexivity|]. split; [intros t; reflexivity|]. split; [intros t; reflexivity|].
  split; [apply sees_value; reflexivity|]. split; [apply sees_value; reflexivity|].
  vm_compute. repeat split.
Qed.
Print Assumptions C58_setattr_partial.
Print Assumptions C58_delattr_partial.
Print Assumptions C58_setitem_partial.
Print Assumptions C58_delitem.
Print Assumptions C58_in_place.
Print Assumptions C58_call.

(** An item with a key that does not exist yet cannot be set. *)
Theorem C58_new_key_refuted :
  t_setitem bag_target (VStr "n") (VInt 3) bag0 = (Bag (b_attr bag0) [(VStr "n", VInt 3); (VStr "k", VInt 2)], inl VNone)
  /\ proxied (px_setitem bag_target (VStr "n") (VInt 3)) = Some (bag0, Err EKey, []).
Proof. vm_compute. split; reflexivity. Qed.
(** Nor can an attribute whose reading raises something other than AttributeError. *)
Theorem C58_unreadable_refuted :
  snd (t_setattr bag_target "ro" (VInt 3) bag0) = inl VNone
  /\ proxied (px_setattr bag_target "ro" (VInt 3)) = Some (bag0, Err ERuntime, []).
Proof. vm_compute. split; reflexivity. Qed.
(** Nor the attribute "events" of the target. *)
Theorem C58_events_refuted :
  snd (t_setattr bag_target "events" (VInt 3) bag0) = inl VNone
  /\ proxied (px_setattr bag_target "events" (VInt 3)) = Some (bag0, Err EAttribute, [])
  /\ proxied (px_delattr bag_target "events") = Some (bag0, Err EAttribute, []).
Proof. vm_compute. repeat split. Qed.
(** An in-place operation that fails is announced. *)
Theorem C58_in_place_refuted :
  t_inplace bag_target "add" (VInt 3) bag0 = (bag0, inr EType)
  /\ proxied (px_inplace bag_target "add" (VInt 3)) = Some (bag0, Err EType, [(in_place, [VStr "add"; VInt 3])]).
Proof. vm_compute. split; reflexivity. Qed.

(** A list of one item, with a counter of the objects made so far: reading a slice makes a new one. *)
Definition slicing : target (val * nat) := Target (val * nat)
  (fun n t => (t, inr EAttribute)) (fun n v t => (t, inr EAttribute)) (fun n t => (t, inr EAttribute))
  (fun k t => match k with
              | VSlice _ _ _ => ((fst t, S (snd t)), inl (VObj (S (snd t))))
              | _ => (t, inl (fst t))
              end)
  (fun k v t => match v with VTuple [x] => ((x, snd t), inl VNone) | _ => (t, inr EValue) end)
  (fun k t => (t, inr EIndex)) (fun _ _ t => (t, inr EType)) (fun _ t => (t, inl VNone)).
(** l[:] = [5] is announced although nothing changes. *)
Theorem C58_slice_refuted : exists (E : env (val * nat)) w w' v t,
  env_all (aloof proxy_signals) E /\ reachable E w
  /\ runs E (px_setitem slicing (VSlice None None None) (VTuple [VInt 5])) w w' (Ok v)
  /\ fst (w_usr w) = VInt 5 /\ fst (w_usr w') = VInt 5
  /\ w_tr w' = w_tr w ++ t /\ map fst (heard proxy_signals t) = [(item_set, [VSlice None None None; VObj 7])].
Proof.
  set (E := demo (fun _ _ => Ret VNone) : env (val * nat)).
  set (w := world_of E proxy_cfg (VInt 5, 5) 50 [conn item_set 1 0]).
  set (p := px_setitem slicing (VSlice None None None) (VTuple [VInt 5])).
  exists E, w, (after E 100 p w), VNone, (skipn (List.length (w_tr w)) (w_tr (after E 100 p w))).
  split; [apply demo_all; intros; exact I|]. split; [reach|]. split; [apply after_runs; vm_compute; reflexivity|].
  vm_compute. repeat split.
Qed.
