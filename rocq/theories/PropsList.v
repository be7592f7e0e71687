(** EventedList: C33 - C37. *)

From Coq Require Import Permutation.
From Verif Require Import Base Core Spec Frame Fuel Demo Client Prog Does PyList EList SpecList Gather ListFacts.
Open Scope string_scope.
Open Scope Z_scope.
Open Scope list_scope.

Definition result (x : val + exn) : out := match x with inl v => Ok v | inr e => Err e end.
Lemma list_cfg_fresh : forall s, fresh_sig (list_cfg s).
Proof. intros s. do 10 (destruct s as [|s]; [repeat split|]). repeat split. Qed.
Lemma list_cfg_flat : forall {U} (u : U), flat (init_world list_cfg u).
Proof.
  intros U u r ms x y H Hi. destruct r as [|r]; [|do 9 (destruct r as [|r]; [discriminate H|]); discriminate H].
  injection H as <-. cbn [In] in Hi. repeat (destruct Hi as [Hi|Hi]; [injection Hi as <- <-; reflexivity|]). destruct Hi.
Qed.
Global Hint Resolve list_cfg_fresh list_cfg_flat : demo.

(** * C33 *)

(** The cases in which the code does what list does: an index to delete is not below -len; when
    items are themselves lists (which __getitem__ replaces by new EventedLists), no item is
    popped, removed by value, or swapped. *)
Definition as_expected (islist : val -> bool) (individually : bool) (o : lop) (l : list val) : Prop :=
  match o with
  | LDel i => - size l <= i
  | LPop _ | LRemove _ => plain islist l
  | LReverse => individually = true -> plain islist l
  | _ => True
  end.

(** What the operations do, in terms of builtin lists.  (Listeners may have another state than
    the list: the list may be part of a larger object, see PropsChild.) *)
Lemma op_does : forall {V} (E : env V) eqv islist wrap ind o l, as_expected islist ind o l ->
  Does.does E list_signals (evented eqv islist wrap ind o) l
    (fun u _ v => (exists x, on_list eqv o l u x /\ Ok v = result x)
        \/ (o = LClear /\ v = VNone /\ listener_raised E list_signals EIndex))
    (fun u _ e => exists x, on_list eqv o l u x /\ Err e = result x).
Proof.
  intros V E eqv islist wrap ind o l HO.
  assert (Hseen : forall x, plain islist l -> In x l -> seen islist wrap x = x).
  { intros x HP Hx. unfold seen. now rewrite (HP x Hx). }
  assert (Main : forall f g, Does.does E list_signals (evented eqv islist wrap ind o) l f g ->
    (forall u hs v, f u hs v -> (exists x, on_list eqv o l u x /\ Ok v = result x)
        \/ (o = LClear /\ v = VNone /\ listener_raised E list_signals EIndex)) ->
    (forall u hs e, g u hs e -> exists x, on_list eqv o l u x /\ Err e = result x) ->
    Does.does E list_signals (evented eqv islist wrap ind o) l
    (fun u _ v => (exists x, on_list eqv o l u x /\ Ok v = result x)
        \/ (o = LClear /\ v = VNone /\ listener_raised E list_signals EIndex))
    (fun u _ e => exists x, on_list eqv o l u x /\ Err e = result x)).
  { intros f g HD Hf Hg. eapply does_mono; [exact HD|exact Hf|exact Hg]. }
  destruct o as [i v|v|vs|i v|s vs|i|s|i|v| | |vs]; cbn [evented as_expected] in *.
  - eapply Main; [apply insert_does| |intros ? ? ? []]. intros u hs x (-> & -> & _). left.
    eexists; split; [constructor|reflexivity].
  - eapply Main; [apply append_does| |intros ? ? ? []]. intros u hs x (-> & -> & _). left.
    eexists; split; [constructor|reflexivity].
  - eapply Main; [apply extend_does| |intros ? ? ? []]. intros u hs x (-> & -> & _). left.
    eexists; split; [constructor|reflexivity].
  - eapply Main; [apply set_does| |].
    + intros u hs x (-> & H & _). left. eexists; split; [now constructor|reflexivity].
    + intros u hs e (-> & -> & _ & H). eexists; split; [now constructor|reflexivity].
  - eapply Main; [apply set_slice_does| |].
    + intros u hs x (-> & _ & xs & -> & H). left. eexists; split; [now constructor|reflexivity].
    + intros u hs e (-> & _ & H). destruct vs as [xs|].
      * destruct H as [-> H]. eexists; split; [now constructor|reflexivity].
      * destruct (slice_indices (size l) s) eqn:HS; subst e.
        -- exists (inr EType). split; [apply ol_slice_type; congruence|reflexivity].
        -- exists (inr EValue). split; [apply ol_slice_zero; congruence|reflexivity].
  - eapply Main; [apply del_does; exact HO| |].
    + intros u hs x (-> & (y & H) & _). left. eexists; split; [econstructor; exact H|reflexivity].
    + intros u hs e (-> & _ & -> & H). eexists; split; [now constructor|reflexivity].
  - eapply Main; [apply del_slice_does| |].
    + intros u hs x (-> & H & _). left. eexists; split; [now constructor|reflexivity].
    + intros u hs e (-> & _ & -> & H). eexists; split; [now constructor|reflexivity].
  - eapply Main; [apply pop_does| |].
    + intros u hs x (_ & y & H & ->). left. exists (inl y).
      assert (Hy : In y l) by (unfold list_pop in H; destruct (at_ l i) eqn:Ha; [|discriminate]; injection H as -> _; eapply at_in; eauto).
      split; [now constructor|]. cbn [result]. f_equal. now apply Hseen.
    + intros u hs e (-> & _ & -> & H). eexists; split; [now constructor|reflexivity].
  - eapply Main; [apply remove_does| |].
    + intros u hs x (-> & _ & a & y & b & Hl & -> & Hy & Ha). left. exists (inl VNone). split; [|reflexivity].
      apply ol_remove. rewrite Hl. assert (HI : forall z, In z (a ++ y :: b) -> seen islist wrap z = z)
        by (intros z Hz; apply Hseen; [exact HO|now rewrite Hl]).
      constructor.
      * rewrite <- (HI y) by (apply in_or_app; right; now left). exact Hy.
      * rewrite Forall_forall in Ha |- *. intros z Hz. rewrite <- (HI z) by (apply in_or_app; now left). now apply Ha.
    + intros u hs e (-> & _ & -> & Ha). exists (inr EValue). split; [|reflexivity]. apply ol_remove_err.
      rewrite Forall_forall in Ha |- *. intros z Hz. rewrite <- (Hseen z HO Hz). now apply Ha.
  - eapply Main; [apply does_look; apply clear_does; lia| |intros ? ? ? []].
    intros u hs x (-> & [(-> & _)|H]); [left|right; auto]. eexists; split; [constructor|reflexivity].
  - destruct ind.
    + eapply Main; [apply reverse_one_by_one; now apply HO| |intros ? ? ? []].
      intros u hs x (-> & -> & _). left. eexists; split; [constructor|reflexivity].
    + eapply Main; [apply reverse_does| |intros ? ? ? []].
      intros u hs x (-> & -> & _). left. eexists; split; [constructor|reflexivity].
  - eapply Main; [apply extend_does| |intros ? ? ? []]. intros u hs x (-> & -> & _). left.
    eexists; split; [constructor|reflexivity].
Qed.


(** Whatever is connected to the events (listeners do not change the list or emit its events
    themselves; they may raise), every operation leaves the contents and gives the result that
    the builtin list has, or a listener's exception comes out.  (clear() catches IndexError
    around pop(), so it would also end at an IndexError of a listener; emit wraps exceptions of
    callbacks in EmitLoopError, so this could only come from a debug hook.) *)
Theorem C33_like_list_partial : forall E eqv islist wrap ind o w w' r,
  env_all (aloof list_signals) E -> as_expected islist ind o (w_usr w) ->
  runs E (evented eqv islist wrap ind o) w w' r -> done r ->
  (exists x, on_list eqv o (w_usr w) (w_usr w') x /\ r = result x)
  \/ (exists e, r = Err e /\ listener_raised E list_signals e)
  \/ (o = LClear /\ r = Ok VNone /\ listener_raised E list_signals EIndex).
Proof.
  intros E eqv islist wrap ind o w w' r HE HO HR Hr.
  destruct (does_sound E list_signals _ w w' r _ _ HE (op_does E eqv islist wrap ind o (w_usr w) HO) HR Hr) as (t & _ & HQ).
  destruct r as [v|e|]; [| |contradiction].
  - destruct HQ as [H|(-> & -> & H)]; auto.
  - destruct HQ as [HQ|HQ]; [now left|]. right. left. eauto.
Qed.

(** A listener of inserted that emits another signal; one of changed that raises. *)
Definition list_env : env data :=
  demo (fun f a => match f with
                   | 1%nat => calls [emit 20%nat [VInt 1]]
                   | 2%nat => Throw (EUser 7)
                   | _ => Ret VNone
                   end).
Definition list_world (l : data) := world_of list_env list_cfg l 50%nat
  [conn inserted 1%nat 0; conn changed 2%nat 0; conn s_events 3%nat 0; conn removed 3%nat 0].
Definition no_eq (a b : val) : bool := false.
Definition no_lists (a : val) : bool := false.
Lemma list_env_aloof : env_all (aloof list_signals) list_env.
Proof. apply demo_all. intros f a. destruct f as [|[|[|f]]]; allp. Qed.
Example C33_case :
  let l := [VInt 5; VInt 6; VInt 7; VInt 8] in
  let run o := exec list_env 200%nat (evented no_eq no_lists (fun x => x) true o) (list_world l) in
  let res o := match run o with Some (w, r) => Some (w_usr w, r) | None => None end in
  env_all (aloof list_signals) list_env
  /\ res (LInsert (-1) (VInt 9)) = Some ([VInt 5; VInt 6; VInt 7; VInt 9; VInt 8], Ok VNone)
  /\ res (LDelSlice (Some (-1), None, Some (-2))) = Some ([VInt 5; VInt 7], Ok VNone)
  /\ res (LPop (-2)) = Some ([VInt 5; VInt 6; VInt 8], Ok (VInt 7))
  /\ res (LDel 4) = Some (l, Err EIndex)
  /\ res LClear = Some ([], Ok VNone)
  /\ exists e, res (LSet 0 (VInt 1)) = Some ([VInt 1; VInt 6; VInt 7; VInt 8], Err e).
Proof. split; [apply list_env_aloof|]. vm_compute. repeat split. eexists. reflexivity. Qed.
Print Assumptions C33_like_list_partial.

(** del l[-4] of a list with three items deletes the last one instead of raising IndexError. *)
Theorem C33_refuted : exists (E : env data) eqv islist wrap o w w' v,
  env_all (aloof list_signals) E /\ reachable E w
  /\ runs E (evented eqv islist wrap false o) w w' (Ok v)
  /\ w_usr w = [VInt 5; VInt 6; VInt 7] /\ o = LDel (-4) /\ w_usr w' = [VInt 5; VInt 6]
  /\ ~ exists x, on_list eqv o (w_usr w) (w_usr w') x /\ Ok v = result x.
Proof.
  set (l := [VInt 5; VInt 6; VInt 7]).
  exists list_env, no_eq, no_lists, (fun x => x), (LDel (-4)), (list_world l),
    (after list_env 100%nat (evented no_eq no_lists (fun x => x) false (LDel (-4))) (list_world l)), VNone.
  split; [apply list_env_aloof|]. split; [reach|]. split; [apply after_runs; vm_compute; reflexivity|].
  match goal with |- w_usr ?a = _ /\ _ /\ w_usr ?b = _ /\ _ =>
    assert (H1 : w_usr a = l) by (vm_compute; reflexivity);
    assert (H2 : w_usr b = [VInt 5; VInt 6]) by (vm_compute; reflexivity) end.
  rewrite H1, H2. split; [reflexivity|]. split; [reflexivity|]. split; [reflexivity|].
  intros (x & H & Hx). inversion H; subst; try discriminate Hx.
  match goal with HP : list_pop _ _ = Some _ |- _ => vm_compute in HP; discriminate end.
Qed.
(** pop() of an item that is a list gives another object than the item. *)
Theorem C33_pop_refuted : exists (E : env data) eqv islist wrap w w' v,
  env_all (aloof list_signals) E /\ reachable E w
  /\ runs E (evented eqv islist wrap false (LPop 0)) w w' (Ok v)
  /\ w_usr w = [VObj 3%nat] /\ v <> VObj 3%nat.
Proof.
  exists list_env, no_eq, (fun v => match v with VObj 3%nat => true | _ => false end), (fun _ => VObj 4%nat), (list_world [VObj 3%nat]),
    (after list_env 100%nat (evented no_eq (fun v => match v with VObj 3%nat => true | _ => false end) (fun _ => VObj 4%nat) false (LPop 0))
       (list_world [VObj 3%nat])), (VObj 4%nat).
  split; [apply list_env_aloof|]. split; [reach|]. split; [apply after_runs; vm_compute; reflexivity|].
  split; [vm_compute; reflexivity|discriminate].
Qed.
Print Assumptions C33_refuted.

(** * C34 *)

Lemma op_tells : forall {V} (E : env V) eqv islist wrap ind o l,
  Does.does E list_signals (evented eqv islist wrap ind o) l
    (fun u hs _ => (o = LReverse /\ ind = false /\ hs = [(reordered, [], rev l)] /\ u = rev l)
        \/ follows l hs u \/ (o = LClear /\ listener_raised E list_signals EIndex))
    (fun _ _ _ => True).
Proof.
  intros V E eqv islist wrap ind o l.
  assert (Main : forall f g, Does.does E list_signals (evented eqv islist wrap ind o) l f g ->
    (forall u hs v, f u hs v -> (o = LReverse /\ ind = false /\ hs = [(reordered, [], rev l)] /\ u = rev l)
        \/ follows l hs u \/ (o = LClear /\ listener_raised E list_signals EIndex)) ->
    Does.does E list_signals (evented eqv islist wrap ind o) l
    (fun u hs _ => (o = LReverse /\ ind = false /\ hs = [(reordered, [], rev l)] /\ u = rev l)
        \/ follows l hs u \/ (o = LClear /\ listener_raised E list_signals EIndex))
    (fun _ _ _ => True)).
  { intros f g HD' Hf. eapply does_mono; [exact HD'|exact Hf|auto]. }
  destruct o as [i x|x|vs|i x|s vs|i|s|i|x| | |vs]; cbn [evented] in *.
  - eapply Main; [apply insert_does|]. intros u hs y (_ & -> & HT). auto.
  - eapply Main; [apply append_does|]. intros u hs y (_ & -> & HT). auto.
  - eapply Main; [apply extend_does|]. intros u hs y (_ & -> & HT). auto.
  - eapply Main; [apply set_does|]. intros u hs y (_ & _ & HT). auto.
  - eapply Main; [apply set_slice_does|]. intros u hs y (_ & HT & _). auto.
  - eapply Main; [apply del_tells|]. auto.
  - eapply Main; [apply del_slice_does|]. intros u hs y (_ & _ & HT). auto.
  - eapply Main; [apply pop_does|]. intros u hs y (HT & _). auto.
  - eapply Main; [apply remove_does|]. intros u hs y (_ & HT & _). auto.
  - eapply Main; [apply does_look; apply clear_does; lia|]. intros u hs y (_ & [(_ & HT)|HT]); auto.
  - destruct ind.
    + eapply Main; [apply reverse_tells|]. auto.
    + eapply Main; [apply reverse_does|]. intros u hs y (_ & -> & ->). left. auto.
  - eapply Main; [apply extend_does|]. intros u hs y (_ & -> & HT). auto.
Qed.

(** An operation that returns has emitted exactly the events that lead from the old contents to
    the new ones: each emitted before its change with the old contents or after it with the new
    contents in place.  reverse() emits reordered, with the contents reversed. *)
Theorem C34_events : forall E eqv islist wrap ind o w w' v,
  env_all (aloof list_signals) E -> runs E (evented eqv islist wrap ind o) w w' (Ok v) ->
  exists t, w_tr w' = w_tr w ++ t
    /\ ((o = LReverse /\ ind = false /\ heard list_signals t = [(reordered, [], rev (w_usr w))] /\ w_usr w' = rev (w_usr w))
        \/ follows (w_usr w) (heard list_signals t) (w_usr w')
        \/ (o = LClear /\ listener_raised E list_signals EIndex)).
Proof.
  intros E eqv islist wrap ind o w w' v HE HR.
  destruct (does_sound E list_signals _ w w' (Ok v) _ _ HE (op_tells E eqv islist wrap ind o (w_usr w)) HR ltac:(discriminate)) as (t & HT & HQ).
  exists t. auto.
Qed.
Example C34_case :
  let l := [VInt 5; VInt 6; VInt 7; VInt 8] in
  let o := LDelSlice (Some (-1), None, Some (-2)) in
  let w' := after list_env 200%nat (evented no_eq no_lists (fun x => x) false o) (list_world l) in
  let t := skipn (List.length (w_tr (list_world l))) (w_tr w') in
  outcome list_env 200%nat (evented no_eq no_lists (fun x => x) false o) (list_world l) = Some (Ok VNone)
  /\ heard list_signals t =
       [(removing, [VInt 3], l); (removed, [VInt 3; VInt 8], [VInt 5; VInt 6; VInt 7]);
        (removing, [VInt 1], [VInt 5; VInt 6; VInt 7]); (removed, [VInt 1; VInt 6], [VInt 5; VInt 7])]
  /\ follows l (heard list_signals t) (w_usr w').
Proof.
  split; [vm_compute; reflexivity|]. split; [vm_compute; reflexivity|]. vm_compute heard.
  eapply fo_remove; [vm_compute; reflexivity|]. eapply fo_remove; [vm_compute; reflexivity|]. apply fo_nil.
Qed.
Print Assumptions C34_events.
(** Before item deletion, the event is emitted before the index is checked: `removing` is emitted
    for an index that does not exist. *)
Theorem C34_announced_refuted : exists (E : env data) eqv islist wrap w w' t,
  env_all (aloof list_signals) E /\ reachable E w
  /\ runs E (evented eqv islist wrap false (LDel 3)) w w' (Err EIndex)
  /\ w_usr w = [VInt 5; VInt 6; VInt 7] /\ w_usr w' = w_usr w
  /\ w_tr w' = w_tr w ++ t /\ heard list_signals t = [(removing, [VInt 3], w_usr w)].
Proof.
  set (l := [VInt 5; VInt 6; VInt 7]).
  exists list_env, no_eq, no_lists, (fun x => x), (list_world l),
    (after list_env 100%nat (evented no_eq no_lists (fun x => x) false (LDel 3)) (list_world l)),
    (skipn (List.length (w_tr (list_world l))) (w_tr (after list_env 100%nat (evented no_eq no_lists (fun x => x) false (LDel 3)) (list_world l)))).
  split; [apply list_env_aloof|]. split; [reach|]. split; [apply after_runs; vm_compute; reflexivity|].
  split; [vm_compute; reflexivity|]. split; [vm_compute; reflexivity|]. split; vm_compute; reflexivity.
Qed.

(** * C35 *)

(** move(src, dest), for positions inside the list (dest may be negative, then it counts from
    behind the end): the item ends up in front of what was at dest; True and the three events,
    or False without events when that is where it is. *)
Theorem C35_move : forall E i d w w' r,
  env_all (aloof list_signals) E ->
  let l := w_usr w in
  let t := if d <? 0 then d + size l + 1 else d in
  0 <= i < size l -> 0 <= t <= size l ->
  runs E (el_move i d) w w' r -> done r ->
  (exists e, r = Err e /\ listener_raised E list_signals e)
  \/ (w_usr w' = gathered [i] t l
      /\ exists h, w_tr w' = w_tr w ++ h
         /\ if (t =? i) || (t =? i + 1) then r = Ok (VBool false) /\ heard list_signals h = []
            else r = Ok (VBool true) /\ exists x, at_ l i = Some x
              /\ heard list_signals h =
                   [(moving, [VInt i; VInt t], l);
                    (moved, [VInt i; VInt (if i <? t then t - 1 else t); x], w_usr w'); (reordered, [], w_usr w')]).
Proof.
  intros E i d w w' r HE l t Hi Ht HR Hr.
  destruct (does_sound E list_signals _ w w' r _ _ HE (move_does E i d (w_usr w) Hi Ht) HR Hr) as (h & HH & HQ).
  change (target (w_usr w) d) with t in HQ. fold l in HQ.
  destruct r as [v|e|]; [| |contradiction].
  - right. destruct HQ as [HU HQ]. split; [exact HU|]. exists h. split; [exact HH|].
    destruct ((t =? i) || (t =? i + 1)).
    + destruct HQ as [-> HQ]. auto.
    + destruct HQ as (-> & _ & x & l0 & HP & HQ). split; [reflexivity|]. exists x. split; [|exact HQ].
      unfold list_pop in HP. destruct (at_ l i); [|discriminate]. now injection HP as -> _.
  - destruct HQ as [[]|HQ]. left. eauto.
Qed.
Example C35_case :
  let l := [VInt 5; VInt 6; VInt 7; VInt 8] in
  let w' := after list_env 200%nat (el_move 0 (-2)) (list_world l) in
  0 <= 0 < size l /\ 0 <= -2 + size l + 1 <= size l
  /\ outcome list_env 200%nat (el_move 0 (-2)) (list_world l) = Some (Ok (VBool true))
  /\ w_usr w' = [VInt 6; VInt 7; VInt 5; VInt 8] /\ gathered [0] 3 l = w_usr w'.
Proof. vm_compute. repeat split; discriminate. Qed.
Print Assumptions C35_move.
(** A negative src is accepted but not treated as the position it stands for: [1, 2, 3].move(-1, 1)
    does not give what move(2, 1) gives. *)
Theorem C35_negative_refuted : exists (E : env data) w w1 w2,
  env_all (aloof list_signals) E /\ reachable E w /\ w_usr w = [VInt 1; VInt 2; VInt 3]
  /\ runs E (el_move 2 1) w w1 (Ok (VBool true)) /\ runs E (el_move (-1) 1) w w2 (Ok (VBool true))
  /\ w_usr w1 = [VInt 1; VInt 3; VInt 2] /\ w_usr w2 = [VInt 3; VInt 1; VInt 2].
Proof.
  set (l := [VInt 1; VInt 2; VInt 3]).
  exists list_env, (list_world l), (after list_env 100%nat (el_move 2 1) (list_world l)), (after list_env 100%nat (el_move (-1) 1) (list_world l)).
  split; [apply list_env_aloof|]. split; [reach|]. split; [vm_compute; reflexivity|].
  split; [apply after_runs; vm_compute; reflexivity|]. split; [apply after_runs; vm_compute; reflexivity|].
  split; vm_compute; reflexivity.
Qed.
Print Assumptions C35_negative_refuted.

(** * C36 *)

(** Gathering works when the sources are given in descending order, or in ascending order and
    all before the destination or all behind it. *)
Theorem C36_gathers_partial : forall E ss d w w' r,
  env_all (aloof list_signals) E ->
  let l := w_usr w in
  let t := if d <? 0 then d + size l + 1 else d in
  (forall s, In s ss -> 0 <= s < size l) -> 0 <= t <= size l ->
  (desc ss \/ (incr ss /\ ((forall s, In s ss -> s < t) \/ (forall s, In s ss -> t <= s)))) ->
  runs E (el_move_multiple (map inl ss) d) w w' r -> done r ->
  w_usr w' = gathered ss t l \/ (exists e, r = Err e /\ listener_raised E list_signals e).
Proof.
  intros E ss d w w' r HE l t Hs Ht HO HR Hr.
  destruct (does_sound E list_signals _ w w' r _ _ HE (move_multiple_does E ss d (w_usr w) Hs Ht HO) HR Hr) as (h & _ & HQ).
  destruct r as [v|e|]; [left; exact HQ| |contradiction]. destruct HQ as [[]|HQ]. right. eauto.
Qed.
Example C36_case :
  let l := [VInt 0; VInt 1; VInt 2; VInt 3; VInt 4; VInt 5] in
  let go ss d := let w' := after list_env 300%nat (el_move_multiple (map inl ss) d) (list_world l) in
                 (w_usr w', gathered ss (if d <? 0 then d + 7 else d) l) in
  desc [5; 3; 2; 0] /\ incr [0; 1; 3] /\ incr [3; 5]
  /\ go [5; 3; 2; 0] 3 = ([VInt 1; VInt 5; VInt 3; VInt 2; VInt 0; VInt 4], [VInt 1; VInt 5; VInt 3; VInt 2; VInt 0; VInt 4])
  /\ go [0; 1; 3] (-2) = ([VInt 2; VInt 4; VInt 0; VInt 1; VInt 3; VInt 5], [VInt 2; VInt 4; VInt 0; VInt 1; VInt 3; VInt 5])
  /\ go [3; 5] 1 = ([VInt 0; VInt 3; VInt 5; VInt 1; VInt 2; VInt 4], [VInt 0; VInt 3; VInt 5; VInt 1; VInt 2; VInt 4]).
Proof.
  cbn [desc incr In]. repeat split; try (vm_compute; reflexivity); intros j Hj;
    repeat (destruct Hj as [<-|Hj]; [lia|]); destruct Hj.
Qed.
Print Assumptions C36_gathers_partial.
(** In general it does not: moving the items 0, 1, 2 (all of them, in order) in front of item 1. *)
Theorem C36_refuted : exists (E : env data) ss d w w' v,
  env_all (aloof list_signals) E /\ reachable E w /\ NoDup ss
  /\ (forall s, In s ss -> 0 <= s < size (w_usr w)) /\ 0 <= d <= size (w_usr w)
  /\ runs E (el_move_multiple (map inl ss) d) w w' (Ok v)
  /\ w_usr w' <> gathered ss d (w_usr w).
Proof.
  set (l := [VInt 0; VInt 1; VInt 2]).
  exists list_env, [0; 1; 2], 1, (list_world l), (after list_env 300%nat (el_move_multiple (map inl [0; 1; 2]) 1) (list_world l)), (VInt 2).
  split; [apply list_env_aloof|]. split; [reach|].
  split; [repeat constructor; cbn [In]; intuition discriminate|].
  assert (HS : size (w_usr (list_world l)) = 3) by (vm_compute; reflexivity). rewrite HS.
  split; [intros s Hs; cbn [In] in Hs; lia|]. split; [lia|].
  split; [apply after_runs; vm_compute; reflexivity|]. vm_compute. discriminate.
Qed.
(** It may also raise IndexError halfway, for valid positions. *)
Theorem C36_raises_refuted : exists (E : env data) ss d w w',
  env_all (aloof list_signals) E /\ reachable E w /\ NoDup ss
  /\ (forall s, In s ss -> 0 <= s < size (w_usr w)) /\ 0 <= d <= size (w_usr w)
  /\ runs E (el_move_multiple (map inl ss) d) w w' (Err EIndex).
Proof.
  set (l := [VInt 0; VInt 1; VInt 2; VInt 3; VInt 4]).
  exists list_env, [3; 4; 1; 2], 0, (list_world l), (after list_env 300%nat (el_move_multiple (map inl [3; 4; 1; 2]) 0) (list_world l)).
  split; [apply list_env_aloof|]. split; [reach|].
  split; [repeat constructor; cbn [In]; intuition discriminate|].
  assert (HS : size (w_usr (list_world l)) = 5) by (vm_compute; reflexivity). rewrite HS.
  split; [intros s Hs; cbn [In] in Hs; lia|]. split; [lia|].
  apply after_runs; vm_compute; reflexivity.
Qed.
Print Assumptions C36_refuted.

(** * C37 *)

(** Whatever the sources (indices and slices, in any order, in or out of range) and the
    destination, and however it ends - also when it raises halfway. *)
Theorem C37_permutation : forall E ss d w w' r,
  env_all (aloof list_signals) E ->
  runs E (el_move_multiple ss d) w w' r -> done r -> Permutation (w_usr w) (w_usr w').
Proof.
  intros E ss d w w' r HE HR Hr.
  destruct (wp_sound E list_signals HE _ w w' r HR Hr [] _ (move_multiple_perm E ss d (w_usr w) [])) as (t & _ & HQ).
  exact HQ.
Qed.
Example C37_case :
  let l := [VInt 0; VInt 1; VInt 2; VInt 3; VInt 4] in
  let w' := after list_env 300%nat (el_move_multiple [inl 3; inr (None, None, Some 2); inl (-2)] 0) (list_world l) in
  outcome list_env 300%nat (el_move_multiple [inl 3; inr (None, None, Some 2); inl (-2)] 0) (list_world l) = Some (Ok (VInt 4))
  /\ w_usr w' <> l.
Proof. vm_compute. split; [reflexivity|discriminate]. Qed.
Print Assumptions C37_permutation.
