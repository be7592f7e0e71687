(** C54, C55, C63: signals and signal groups as attributes of objects. *)

From Coq Require Import List Arith Bool Lia.
From Verif Require Import Descr DescrFacts.
Import ListNotations.

(** Different descriptors have different identities. *)
Definition told_apart (K : nat -> class) : Prop := forall c c' a a' x x',
  c_attr (K c) a = Some x -> c_attr (K c') a' = Some x' -> d_id x = d_id x' -> x = x'.
(** Attribute [a] of object [o] is a Signal; a SignalGroupDescriptor. *)
Definition signal_of (K : nat -> class) s o a : Prop :=
  exists x d n, nth_error (st_objs s) o = Some x /\ c_attr (K (o_class x)) a = Some (DSig d n).
Definition group_of (K : nat -> class) s o a : Prop :=
  exists x d n b, nth_error (st_objs s) o = Some x /\ c_attr (K (o_class x)) a = Some (DGrp d n b).

(** ** C54 *)

(** Whatever objects are created, copied and destroyed, and whichever ids are used again: all
    accesses to an attribute of an object give the same thing.  Partial: a Signal must have the name of
    the attribute. *)
Theorem C54_same_partial : forall K l s o a i i',
  well_named K -> run K l init = Some s -> In (Got o a i) (st_log s) -> In (Got o a i') (st_log s) -> i = i'.
Proof.
  intros K l s o a i i' WN H H1 H2. destruct (run_inv K WN l init s H (init_inv K)) as [_ _ G]. exact (G o a i i' H1 H2).
Qed.
(** Different objects, also those that are dead, and different attributes have different
    SignalInstances.  Partial: without copy.copy. *)
Theorem C54_distinct_partial : forall K l s o a i o' a',
  well_named K -> told_apart K -> (forall p, In p l -> ~ is_copy p) ->
  run K l init = Some s -> In (Got o a i) (st_log s) -> In (Got o' a' i) (st_log s) ->
  o = o' /\ (signal_of K s o a -> signal_of K s o' a' -> a = a').
Proof.
  intros K l s o a i o' a' WN TA HP H H1 H2. destruct (init_all K) as (C & D & G & _ & _).
  assert (GK := run_owns K WN l init s H HP (init_inv K) C D G).
  destruct (GK o a i H1) as (x & de & X1 & X2 & (x1 & d & b & de1 & X3 & X4 & X5 & X6 & X7)).
  destruct (GK o' a' i H2) as (y & de' & Y1 & Y2 & (y1 & d' & b' & de1' & Y3 & Y4 & Y5 & Y6 & Y7)).
  rewrite X4 in Y4. injection Y4 as <- <-. split; [reflexivity|].
  intros (x2 & d2 & n2 & Z1 & Z2) (y2 & d2' & n2' & W1 & W2). unfold at_ in *. rewrite X1 in *. injection X3 as <-. injection Y1 as <-. injection Y3 as <-.
  injection Z1 as <-. injection W1 as <-. rewrite X2 in Z2. injection Z2 as ->. rewrite Y2 in W2. injection W2 as ->.
  cbn in *. destruct de1; try discriminate. destruct de1'; try discriminate. cbn in *.
  assert (E : DSig d2 n2 = DSig d2' n2') by (apply (TA _ _ _ _ _ _ X2 Y2); cbn; congruence).
  rewrite <- (WN _ _ _ X2), <- (WN _ _ _ Y2). now rewrite E.
Qed.

(** Give the state that a run leads to. *)
Ltac leads := match goal with |- exists s, run ?K ?l ?i = Some s /\ _ =>
  let t := eval vm_compute in (run K l i) in match t with Some ?s => exists s end end; split; [vm_compute; reflexivity|].
(** class E: changed = Signal() as attribute 1; a class with __slots__ with it; … without __weakref__. *)
Definition sig1 (a : nat) : option desc := if Nat.eqb a 1 then Some (DSig 10 1) else None.
Definition classes (c : nat) : class :=
  match c with 0 => Class sig1 Stores true | 1 => Class sig1 Refuses true | _ => Class sig1 Refuses false end.
Lemma classes_named : well_named classes /\ told_apart classes.
Proof.
  assert (A : forall c, c_attr (classes c) = sig1) by (intros [|[|c]]; reflexivity).
  split; [intros c a x|intros c c' a a' x x']; rewrite ?A; unfold sig1.
  - destruct (Nat.eqb_spec a 1) as [->|]; [|discriminate]. intros H. injection H as <-. reflexivity.
  - destruct (Nat.eqb a 1); [|discriminate]. destruct (Nat.eqb a' 1); [|discriminate]. intros H1 H2 _. congruence.
Qed.
(** The id of object 0 is used again for object 1. *)
Example C54_case : exists s, run classes [New 1 5; Get 0 1; Get 0 1; Die 0; New 1 5; Get 1 1; Get 1 1; New 0 6; Get 2 1; Deepcopy 2 7; Get 3 1; Get 2 1] init = Some s
  /\ st_log s = [Got 0 1 0; Got 0 1 0; Got 1 1 1; Got 1 1 1; Got 2 1 2; Got 3 1 3; Got 2 1 2]
  /\ signal_of classes s 0 1.
Proof.
  leads. split; [reflexivity|]. do 3 eexists. split; reflexivity.
Qed.

(** Signal(name="other") as attribute 1 of an ordinary class: every access gives another SignalInstance. *)
Definition renamed (c : nat) : class := Class (fun a => if Nat.eqb a 1 then Some (DSig 10 2) else None) Stores true.
Theorem C54_name_refuted : exists s, run renamed [New 0 5; Get 0 1; Get 0 1] init = Some s
  /\ signal_of renamed s 0 1 /\ st_log s = [Got 0 1 0; Got 0 1 1].
Proof. leads. split; [do 3 eexists; split; reflexivity|reflexivity]. Qed.
(** A copy of an object shares its SignalInstance. *)
Theorem C54_copy_refuted : exists s, run classes [New 0 5; Get 0 1; Copy 0 6; Get 1 1] init = Some s
  /\ exists x y, nth_error (st_objs s) 0 = Some x /\ nth_error (st_objs s) 1 = Some y /\ o_alive x = true /\ o_alive y = true
  /\ st_log s = [Got 0 1 0; Got 1 1 0].
Proof. leads. do 2 eexists. repeat split; reflexivity. Qed.

(** ** C55 *)

(** With one SignalGroupDescriptor per class, groups of different objects are different, and
    an object has one group.  Partial: without copy.copy. *)
Theorem C55_partial : forall K l s o a i o' a' i',
  well_named K -> told_apart K -> (forall p, In p l -> ~ is_copy p) ->
  (forall c a a' d n b d' n' b', c_attr (K c) a = Some (DGrp d n b) -> c_attr (K c) a' = Some (DGrp d' n' b') -> a = a') ->
  run K l init = Some s -> In (Got o a i) (st_log s) -> In (Got o' a' i') (st_log s) ->
  group_of K s o a -> group_of K s o' a' -> (i = i' <-> o = o').
Proof.
  intros K l s o a i o' a' i' WN TA HP One H H1 H2 (x & d & n & b & X1 & X2) (x' & d' & n' & b' & Y1 & Y2). split.
  - intros <-. now destruct (C54_distinct_partial K l s o a i o' a' WN TA HP H H1 H2).
  - intros <-. rewrite X1 in Y1. injection Y1 as <-. assert (a = a') as <- by (eapply One; eauto).
    exact (C54_same_partial K l s o a i i' WN H H1 H2).
Qed.
(** The group is of the group class of its own descriptor: the one that made it. *)
Theorem C55_own_partial : forall K l s o a i d n b,
  well_named K -> told_apart K -> (forall p, In p l -> ~ is_copy p) ->
  (forall c a a' d n b d' n' b', c_attr (K c) a = Some (DGrp d n b) -> c_attr (K c) a' = Some (DGrp d' n' b') -> a = a') ->
  run K l init = Some s -> In (Got o a i) (st_log s) ->
  (exists x, nth_error (st_objs s) o = Some x /\ c_attr (K (o_class x)) a = Some (DGrp d n b)) ->
  nth_error (st_made s) i = Some (o, d).
Proof.
  intros K l s o a i d n b WN TA HP One H H1 (x & X1 & X2). destruct (init_all K) as (C & D & G & _ & _).
  assert (GK := run_owns K WN l init s H HP (init_inv K) C D G).
  destruct (GK o a i H1) as (y & de & Y1 & Y2 & (y1 & d' & a' & de1 & Y3 & Y4 & Y5 & Y6 & Y7)). unfold at_ in *.
  rewrite X1 in *. injection Y1 as <-. injection Y3 as <-. rewrite X2 in Y2. injection Y2 as <-. cbn in Y7.
  destruct de1 as [|d1 n1 b1]; [discriminate|]. cbn in Y6. subst d1. assert (a = a') as <- by (eapply One; eauto).
  rewrite X2 in Y5. injection Y5 as -> -> ->. exact Y4.
Qed.
Definition two (c : nat) : class :=
  Class (fun a => if Nat.eqb a 1 then Some (DGrp 10 1 true) else if Nat.eqb a 2 then Some (DGrp 20 2 true) else None) Stores true.
Definition one (c : nat) : class := Class (fun a => if Nat.eqb a 1 then Some (DGrp 10 1 false) else None) Stores true.
Example C55_case : well_named one /\ told_apart one
  /\ (forall c a a' d n b d' n' b', c_attr (one c) a = Some (DGrp d n b) -> c_attr (one c) a' = Some (DGrp d' n' b') -> a = a')
  /\ exists s, run one [New 0 5; Get 0 1; Die 0; New 0 5; New 1 6; Get 1 1; Get 2 1; Get 1 1] init = Some s
       /\ st_log s = [Got 0 1 0; Got 1 1 1; Got 2 1 2; Got 1 1 1] /\ group_of one s 1 1.
Proof.
  split; [|split; [|split]].
  - intros c a x. cbn. destruct (Nat.eqb_spec a 1) as [->|]; [|discriminate]. intros H. injection H as <-. reflexivity.
  - intros c c' a a' x x'. cbn. destruct (Nat.eqb a 1); [|discriminate]. destruct (Nat.eqb a' 1); [|discriminate]. congruence.
  - intros c a a' d n b d' n' b'. cbn. destruct (Nat.eqb_spec a 1) as [->|]; [|discriminate]. destruct (Nat.eqb_spec a' 1) as [->|]; [|discriminate]. reflexivity.
  - leads. split; [reflexivity|]. do 4 eexists. split; reflexivity.
Qed.
(** The second descriptor of a class gives the group of the first. *)
Theorem C55_refuted : exists s, run two [New 0 5; Get 0 1; Get 0 2] init = Some s
  /\ st_log s = [Got 0 1 0; Got 0 2 0] /\ st_made s = [(0, 10)]
  /\ group_of two s 0 1 /\ group_of two s 0 2.
Proof.
  leads. split; [reflexivity|]. split; [reflexivity|]. split; do 4 eexists; split; reflexivity.
Qed.

(** ** C63 *)

(** Signals do not keep an object alive that can be weakly referenced: it can die at any time, and
    then nothing is left of it in the caches. *)
Theorem C63_released_partial : forall K l s o x,
  well_named K -> run K l init = Some s ->
  nth_error (st_objs s) o = Some x -> o_alive x = true -> c_weak (K (o_class x)) = true ->
  exists s', do K (Die o) s = Some s' /\ forall k, cached k (o_addr x) (st_cache s') = None.
Proof.
  intros K l s o x WN H Hx Ha Hw. destruct (init_all K) as (C & _).
  destruct (run_cache K WN l init s H (init_inv K) C) as [I C1]. cbn. unfold die. rewrite Hx, Ha.
  assert (E : held K s o = false).
  { unfold held. destruct (existsb _ (st_cache s)) eqn:E; [|reflexivity]. apply existsb_exists in E as (e & _ & E). unfold strong in E.
    rewrite Hx, Hw in E. destruct (nth_error (st_made s) (snd e)) as [[? ?]|]; [|discriminate]. now rewrite andb_false_r in E. }
  rewrite E. cbn. eexists. split; [reflexivity|]. intros k.
  match goal with |- cached k (o_addr x) (st_cache ?s') = None => assert (HH : change K s s') by (apply ch_died; auto);
    assert (I2 := change_inv K WN s s' HH I); assert (C2 := change_cache K s s' HH I C1);
    destruct (cached k (o_addr x) (st_cache s')) eqn:Ec; [exfalso|reflexivity] end.
  apply cached_in in Ec. destruct (C2 _ Ec) as (o' & y & Y1 & Y2 & Y3 & _). cbn in Y3.
  unfold at_ in Y1. cbn in Y1. rewrite nth_upd in Y1. destruct (nth_error (st_objs s) o') as [z|] eqn:Ez; [|destruct (Nat.eqb o' o); discriminate].
  destruct (Nat.eqb_spec o' o) as [->|N]; cbn in Y1; injection Y1 as <-; [discriminate|].
  apply N. apply (i_addr K s I o' o z x); auto.
Qed.
(** But for ever one that cannot, if its class does not let them be stored. *)
Theorem C63_kept : forall K l s o a i x l' s',
  well_named K -> run K l init = Some s -> In (Got o a i) (st_log s) -> nth_error (st_objs s) o = Some x ->
  c_set (K (o_class x)) <> Stores -> c_weak (K (o_class x)) = false ->
  run K l' s = Some s' -> exists y, nth_error (st_objs s') o = Some y /\ o_alive y = true.
Proof.
  intros K l s o a i x l' s' WN H HL Hx Hs Hw H'. destruct (init_all K) as (C & _ & _ & B & G).
  destruct (run_clings K WN l init s H (init_inv K) C B G) as (I1 & C1 & B1 & G1). clear H.
  assert (P : exists y, nth_error (st_objs s') o = Some y /\ o_class y = o_class x /\ In (Got o a i) (st_log s') /\ clings K s').
  { assert (HX : exists y, nth_error (st_objs s) o = Some y /\ o_class y = o_class x) by eauto. clear Hx. revert s HX HL I1 C1 B1 G1 H'.
    induction l' as [|p l' IH]; intros s (y & Hx & Hy) HL I1 C1 B1 G1 H'; cbn in H'.
    - injection H' as <-. exists y. auto.
    - destruct (do K p s) as [s1|] eqn:E; [|discriminate]. apply do_change in E.
      apply (IH s1); auto.
      + destruct (change_at K s s1 o y E Hx) as (z & Z1 & Z2 & _). exists z. split; [exact Z1|congruence].
      + inversion E; subst; cbn; try apply in_app_iff; auto.
      + exact (change_inv K WN s s1 E I1).
      + exact (change_cache K s s1 E I1 C1).
      + exact (change_bare K s s1 E B1).
      + exact (change_clings K WN s s1 E I1 C1 B1 G1). }
  destruct P as (y & Y1 & Y2 & Y3 & Y4). exists y. split; [exact Y1|]. apply (Y4 o a i y Y3 Y1); now rewrite Y2.
Qed.
Theorem C63_refuted : exists s, run classes [New 2 5; Get 0 1] init = Some s
  /\ forall l' s', run classes l' s = Some s' -> exists y, nth_error (st_objs s') 0 = Some y /\ o_alive y = true.
Proof.
  leads. intros l' s' H.
  apply (C63_kept classes [New 2 5; Get 0 1] _ 0 1 0 (Obj 2 5 true [] []) l' s' (proj1 classes_named)) in H; auto; cbn; auto; discriminate.
Qed.
Example C63_case : exists s, run classes [New 1 5; Get 0 1; New 0 6; Get 1 1] init = Some s
  /\ exists x, nth_error (st_objs s) 0 = Some x /\ o_alive x = true /\ c_weak (classes (o_class x)) = true
  /\ cached (Some 10) 5 (st_cache s) = Some 0.
Proof. leads. eexists. repeat split; reflexivity. Qed.

Print Assumptions C54_same_partial.
Print Assumptions C54_distinct_partial.
Print Assumptions C55_partial.
Print Assumptions C55_own_partial.
Print Assumptions C63_released_partial.
Print Assumptions C63_kept.
