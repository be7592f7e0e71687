(** What the property of Selections whose listeners use the selection is about. *)

From Verif Require Import Base Core Prog PySet ESet SpecSet ESelect SpecSelect.

(** Programs that use an object through the methods [used] and do not catch exceptions; otherwise arbitrary: they may read
    everything, raise, connect, disconnect, pause, block, emit, and so on, but do not write to the object's private data. *)
Inductive plain_user {U} (used : prog U -> Prop) : prog U -> Prop :=
| pl_ret : forall v, plain_user used (Ret v)
| pl_throw : forall e, plain_user used (Throw e)
| pl_halt : plain_user used Halt
| pl_look : forall k, (forall u, plain_user used (k u)) -> plain_user used (Look k)
| pl_call : forall o, match o with OUsr _ => False | _ => True end -> plain_user used (call o)
| pl_bind : forall p k, plain_user used p -> (forall v, plain_user used (k v)) -> plain_user used (bind p k)
| pl_used : forall p, used p -> plain_user used p.
Definition plain_users {U} (used : prog U -> Prop) (E : env U) : Prop :=
  (forall t a w, plain_user used (e_body E t a w)) /\ (forall m a, plain_user used (e_lib E m a)).

(** The methods of Selection; the active setter and _update_active may call each other [n] times ([DEPTH] in ESelect is only right
    for listeners that do not use the selection). *)
Section Used.
Context {U : Type}.
Variable same : val -> val -> bool.
Variable si sa sc : sid.
Variable get : U -> sel.
Variable put : sel -> U -> U.
Variable allowed : U -> val -> bool.
Notation id := (fun l : list val => l).
Notation pitems := (p_items get).
Notation psi := (p_set_items get put).
Definition upd (n : nat) : prog U := update_with sa get put (set_active same si sa sc get put allowed n).
Notation H n := (sel_hooks same si get allowed (upd n)).
Notation clear n := (sl_clear same si sc get put allowed (upd n)).
Definition sel_n (n : nat) (o : selop) : prog U :=
  match o with
  | LSet_ o =>
      match o with
      | SAdd x => bs_add same pitems psi (H n) x
      | SDiscard x => bs_discard same pitems psi (H n) x
      | SRemove x => bs_remove same pitems psi (H n) x
      | SPop => bs_pop same id pitems psi (H n)
      | SClear => clear n false
      | SUpdate s => bulk si (bs_update same id pitems psi (H n) s)
      | SDifference s => bulk si (bs_difference_update same id pitems psi (H n) s)
      | SIntersection s => bulk si (bs_intersection_update same id pitems psi (H n) s)
      | SSymmetric a => bulk si (bs_symmetric_difference_update same id pitems psi (H n) a)
      | SIor a => bs_ior same id pitems psi (H n) a
      | SIand a => bs_iand same id pitems psi (H n) a
      | SIsub a => bs_isub same pitems psi (H n) (clear n false) a
      | SIxor a => bs_ixor same id pitems psi (H n) (clear n false) a
      end
  | LKeepClear => clear n true
  | LToggle x => bulk si (bs_symmetric_difference_update same id pitems psi (H n) (Items [x]))
  | LOnly x => sl_select_only same si get put allowed (upd n) x
  | LActive v => set_active same si sa sc get put allowed (S n) v
  | LCurrent v => set_current same sc get put v
  | LAssign vs => bulk si (bs_intersection_update same id pitems psi (H n) [Items vs]);; bulk si (bs_update same id pitems psi (H n) [Items vs])
  end.
(** With [DEPTH] it is the model. *)
Lemma sel_depth : forall o, sel_n DEPTH o = sel_do same si sa sc get put allowed o.
Proof. intros o. destruct o as [o| |x|x|v|v|vs]; reflexivity. Qed.
End Used.
(** A Selection on its own. *)
Definition selection_n (same : val -> val -> bool) (parent : val -> bool) (n : nat) (o : selop) : prog sel :=
  sel_n same 1 2 3 (fun u => u) (fun x _ => x) (fun _ => parent) n o.
Lemma selection_depth : forall same parent o, selection_n same parent DEPTH o = selection same parent o.
Proof. intros. apply sel_depth. Qed.
Definition used_sel (same : val -> val -> bool) (parent : val -> bool) (p : prog sel) : Prop := exists n o, p = selection_n same parent n o.
