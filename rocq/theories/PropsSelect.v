(** Selection and SelectableEventedList: C43, C44. *)

From Verif Require Import Base Core Spec Frame Fuel Demo Client Prog Through PyList EList PySet ESet SpecSet SetFacts PropsSet
  ESelect SpecSelect SelFacts SelList Raised.
Open Scope nat_scope.

Lemma aloof_keeps : forall {U} (E : env U) C o w w' r, env_all (aloof C) E -> aloof C o -> steps E o w w' r -> w_usr w' = w_usr w.
Proof.
  intros U E C o w w' r HE Ho [k HS]. destruct (frame_step_exec E _ _ _ _ (framed_aside E C) HE k k o w w' r Ho HS) as [Hu _]. exact Hu.
Qed.

(** * C43 *)

(** Operations without a foreign item being made active while nothing is selected, and not ended
    by an exception of a listener. *)
Definition proper (E : env sel) (parent : val -> bool) (o : selop) (u : sel) (r : out) : Prop :=
  (forall v, o = LActive v -> sel_items u = [] -> v = VNone \/ parent v = true)
  /\ (forall e, r = Err e -> ~ listener_raised E selection_signals e).
Lemma good_right : forall same parent u, good same (fun u => u) (fun _ => parent) u -> right_active same u.
Proof.
  intros same parent u [_ H]. unfold right_active. destruct (sel_items u) as [|x [|y l]].
  - right. split; [discriminate|exact H].
  - left. eauto.
  - right. split; [discriminate|exact H].
Qed.
Lemma good_runs : forall E same parent o w w' r,
  env_all (aloof selection_signals) E -> equivalence same -> (forall x y, same x y = true -> parent x = parent y) ->
  good same (fun u => u) (fun _ => parent) (w_usr w) ->
  runs E (selection same parent o) w w' r -> done r ->
  (forall v, o = LActive v -> sel_items (w_usr w) = [] -> v = VNone \/ parent v = true) ->
  (good same (fun u => u) (fun _ => parent) (w_usr w') /\ r <> Err ERecursion)
  \/ (exists e, r = Err e /\ listener_raised E selection_signals e).
Proof.
  intros E same parent o w w' r HE (refl & sym & trans) HP HG HR Hr Ho.
  assert (HT : through E selection_signals (selection same parent o) (w_usr w) (good same (fun u => u) (fun _ => parent))
    (fine E selection_signals same (fun u => u) (fun _ => parent))).
  { unfold selection. apply good_do; auto. }
  pose proof (th_sound _ _ _ _ _ _ _ _ HE HT HR Hr) as H. destruct r as [v|e|]; [| |contradiction].
  - left. split; [exact H|discriminate].
  - destruct H as [[H He]|H]; [left; split; [exact H|congruence]|right; eauto].
Qed.
(** Whatever is connected (listeners do not change the selection or emit its events), after any
    history of operations, also failed ones, active is the sole selected item or None. *)
Theorem C43_active_partial : forall E same parent c w w',
  env_all (aloof selection_signals) E -> equivalence same -> (forall x y, same x y = true -> parent x = parent y) ->
  w_usr w = Sel [] VNone c ->
  past E selection_signals (selection same parent) (proper E parent) w w' ->
  right_active same (w_usr w').
Proof.
  intros E same parent c w w' HE HQ HP H0 HH. apply good_right with (parent := parent).
  assert (HG : good same (fun u => u) (fun _ => parent) (w_usr w)).
  { rewrite H0. split; [split; [exact I|intros x []]|reflexivity]. }
  clear H0. induction HH as [w|o w w1 r w' HR Hr [Ho1 Ho2] HH IH|o w w1 r w' Ho HS HH IH]; [exact HG| |].
  - apply IH. destruct (good_runs E same parent o w w1 r) as [[H _]|(e & -> & H)]; auto. now destruct (Ho2 e).
  - apply IH. now rewrite (aloof_keeps E _ o w w1 r HE Ho HS).
Qed.
(** The active setter and the change notification stop calling each other. *)
Theorem C43_ends_partial : forall E same parent c w w1 o w' r,
  env_all (aloof selection_signals) E -> equivalence same -> (forall x y, same x y = true -> parent x = parent y) ->
  w_usr w = Sel [] VNone c ->
  past E selection_signals (selection same parent) (proper E parent) w w1 ->
  runs E (selection same parent o) w1 w' r -> done r -> proper E parent o (w_usr w1) r ->
  r <> Err ERecursion.
Proof.
  intros E same parent c w w1 o w' r HE HQ HP H0 HH HR Hr [Ho1 Ho2].
  assert (HG : good same (fun u => u) (fun _ => parent) (w_usr w)).
  { rewrite H0. split; [split; [exact I|intros x []]|reflexivity]. }
  assert (HG1 : good same (fun u => u) (fun _ => parent) (w_usr w1)).
  { clear H0 HR Hr Ho1 Ho2. induction HH as [w|o' w w2 r' w1 HR Hr [Ho1 Ho2] HH IH|o' w w2 r' w1 Ho HS HH IH]; [exact HG| |].
    - apply IH. destruct (good_runs E same parent o' w w2 r') as [[H _]|(e & -> & H)]; auto. now destruct (Ho2 e).
    - apply IH. now rewrite (aloof_keeps E _ o' w w2 r' HE Ho HS). }
  destruct (good_runs E same parent o w1 w' r) as [[_ H]|(e & -> & H)]; auto. now destruct (Ho2 e).
Qed.

(** A listener that looks at the selection, and one that raises when 9 is selected. *)
Definition sel_env : env sel :=
  demo (fun f a => match f, a with
                   | 1, _ => Look (fun u => calls [emit 20 [sel_active u]])
                   | 2, [VTuple [VInt 9]; _] => Throw (EUser 7)
                   | _, _ => Ret VNone
                   end).
Definition few (x : val) : bool := match x with VInt z => (z <? 10)%Z | _ => false end.
Definition sel_world := world_of sel_env selection_cfg (Sel [] VNone VNone) 50 [conn 1 1 0; conn 1 2 0; conn 2 1 0; conn 0 3 0].
Lemma sel_env_aloof : env_all (aloof selection_signals) sel_env.
Proof. apply demo_all. intros f a. destruct f as [|[|[|f]]]; try (allp; fail). Qed.
Lemma sel_cfg_fresh : forall s, fresh_sig (selection_cfg s).
Proof. intros s. do 4 (destruct s as [|s]; [repeat split|]). repeat split. Qed.
Lemma sel_cfg_flat : forall {U} (u : U), flat (init_world selection_cfg u).
Proof.
  intros U u r ms x y H Hi. destruct r as [|r]; [|destruct r as [|r]; discriminate H].
  injection H as <-. cbn [In] in Hi. destruct Hi as [Hi|[Hi|[Hi|[]]]]; injection Hi as <- <-; reflexivity.
Qed.
Global Hint Resolve sel_cfg_fresh sel_cfg_flat : demo.
Lemma val_eqb_fit : forall (p : val -> bool) x y, val_eqb x y = true -> p x = p y.
Proof. intros p x y H. apply val_eqb_eq in H. now subst. Qed.
Lemma sel_raised : forall e, listener_raised sel_env selection_signals e -> match e with EEmitLoop _ _ _ | ERecursion | EBase _ | EType => True | _ => False end.
Proof.
  intros e H. apply (raised_p sel_env (fun e => match e with EEmitLoop _ _ _ | ERecursion | EBase _ | EType => True | _ => False end)) in H;
    auto; try (intros; exact I).
  intros h s args w. destruct h as [|[|[|h]]]; cbn; auto.
Qed.
Example C43_case : exists w1 w2 w3 w4,
  let run := selection val_eqb few in
  env_all (aloof selection_signals) sel_env /\ equivalence val_eqb
  /\ w_usr sel_world = Sel [] VNone VNone
  /\ past sel_env selection_signals run (proper sel_env few) sel_world w4
  /\ runs sel_env (run (LSet_ (SUpdate [Items [VInt 5; VInt 6]]))) sel_world w1 (Ok VNone)
  /\ w_usr w1 = Sel [VInt 5; VInt 6] VNone (VInt 5)
  /\ runs sel_env (run (LToggle (VInt 5))) w1 w2 (Ok VNone) /\ w_usr w2 = Sel [VInt 6] (VInt 6) (VInt 6)
  /\ runs sel_env (run (LActive (VInt 77))) w2 w3 (Err EValue) /\ w_usr w3 = Sel [] VNone (VInt 6)
  /\ runs sel_env (run (LActive (VInt 7))) w3 w4 (Ok VNone) /\ w_usr w4 = Sel [VInt 7] (VInt 7) (VInt 7).
Proof.
  set (run := selection val_eqb few).
  pose (w1 := after sel_env 400 (run (LSet_ (SUpdate [Items [VInt 5; VInt 6]]))) sel_world).
  pose (w2 := after sel_env 400 (run (LToggle (VInt 5))) w1).
  pose (w3 := after sel_env 400 (run (LActive (VInt 77))) w2).
  pose (w4 := after sel_env 400 (run (LActive (VInt 7))) w3).
  assert (R1 : runs sel_env (run (LSet_ (SUpdate [Items [VInt 5; VInt 6]]))) sel_world w1 (Ok VNone)) by (apply after_runs; vm_compute; reflexivity).
  assert (R2 : runs sel_env (run (LToggle (VInt 5))) w1 w2 (Ok VNone)) by (apply after_runs; vm_compute; reflexivity).
  assert (R3 : runs sel_env (run (LActive (VInt 77))) w2 w3 (Err EValue)) by (apply after_runs; vm_compute; reflexivity).
  assert (R4 : runs sel_env (run (LActive (VInt 7))) w3 w4 (Ok VNone)) by (apply after_runs; vm_compute; reflexivity).
  assert (V1 : w_usr w1 = Sel [VInt 5; VInt 6] VNone (VInt 5)) by (vm_compute; reflexivity).
  assert (V2 : w_usr w2 = Sel [VInt 6] (VInt 6) (VInt 6)) by (vm_compute; reflexivity).
  assert (V3 : w_usr w3 = Sel [] VNone (VInt 6)) by (vm_compute; reflexivity).
  assert (V4 : w_usr w4 = Sel [VInt 7] (VInt 7) (VInt 7)) by (vm_compute; reflexivity).
  clearbody w4 w3 w2 w1. exists w1, w2, w3, w4. cbv zeta.
  split; [apply sel_env_aloof|]. split; [apply val_eqb_equivalence|]. split; [vm_compute; reflexivity|]. split; [|auto 10].
  eapply past_op; [exact R1|discriminate|split; discriminate|].
  eapply past_op; [exact R2|discriminate|split; discriminate|].
  eapply past_op; [exact R3|discriminate| |].
  { split; [intros v _ Hn; rewrite V2 in Hn; discriminate|]. intros e [= <-] HR. exact (sel_raised _ HR). }
  eapply past_op; [exact R4|discriminate| |apply past_nil].
  split; [|discriminate]. intros v [= <-] _. now right.
Qed.
Print Assumptions C43_active_partial.
Print Assumptions C43_ends_partial.

(** active = x, for x that is not in the parent, on an empty selection: ValueError, and x stays
    active. *)
Theorem C43_refuted : exists (E : env sel) same parent w w' x,
  env_all (aloof selection_signals) E /\ equivalence same /\ reachable E w
  /\ w_usr w = Sel [] VNone VNone /\ parent x = false
  /\ runs E (selection same parent (LActive x)) w w' (Err EValue)
  /\ ~ right_active same (w_usr w').
Proof.
  pose (w' := after sel_env 400 (selection val_eqb few (LActive (VInt 77))) sel_world).
  exists sel_env, val_eqb, few, sel_world, w', (VInt 77).
  split; [apply sel_env_aloof|]. split; [apply val_eqb_equivalence|]. split; [reach|]. split; [vm_compute; reflexivity|].
  split; [reflexivity|]. split; [apply after_runs; vm_compute; reflexivity|].
  assert (H : w_usr w' = Sel [] (VInt 77) VNone) by (vm_compute; reflexivity). rewrite H.
  intros [(x & Hx & _)|[_ Hx]]; discriminate Hx.
Qed.
Print Assumptions C43_refuted.
(** A listener of items_changed that raises: active is not updated. *)
Theorem C43_listener_refuted : exists (E : env sel) same parent w w' x e,
  env_all (aloof selection_signals) E /\ equivalence same /\ reachable E w
  /\ w_usr w = Sel [] VNone VNone
  /\ runs E (selection same parent (LSet_ (SAdd x))) w w' (Err e)
  /\ ~ right_active same (w_usr w').
Proof.
  pose (w' := after sel_env 400 (selection val_eqb few (LSet_ (SAdd (VInt 9)))) sel_world).
  exists sel_env, val_eqb, few, sel_world, w', (VInt 9), (EEmitLoop (Some 1) 0 (EUser 7)).
  split; [apply sel_env_aloof|]. split; [apply val_eqb_equivalence|]. split; [reach|]. split; [vm_compute; reflexivity|].
  split; [apply after_runs; vm_compute; reflexivity|].
  assert (H : w_usr w' = Sel [VInt 9] VNone VNone) by (vm_compute; reflexivity). rewrite H.
  intros [(x & Hx & Hs)|[Hx _]]; [injection Hx as <-; discriminate Hs|now apply (Hx (VInt 9))].
Qed.
Print Assumptions C43_listener_refuted.

(** * C44 *)

(** Whatever is connected (listeners do not change the list or the selection, or emit their
    events; they may raise), after any history of operations that do not replace items, however
    they ended, the selected items are in the list. *)
Theorem C44_subset_partial : forall E same islist wrap activate w w' x,
  env_all (aloof selectable_signals) E -> equivalence same ->
  sel_items (b_sel (w_usr w)) = [] ->
  past E selectable_signals (selectable same islist wrap activate) (fun o _ _ => replaces o = false) w w' ->
  In x (sel_items (b_sel (w_usr w'))) -> inside same x (b_list (w_usr w')).
Proof.
  intros E same islist wrap activate w w' x HE HQ H0 HH Hx. pose proof HQ as (refl & sym & trans).
  set (B := base same b_sel (fun u x => mem same x (b_list u))).
  assert (HB : B (w_usr w)).
  { split; [rewrite H0; exact I|]. intros y Hy. rewrite H0 in Hy. destruct Hy. }
  enough (HB' : B (w_usr w')) by (apply mem_inside; now apply HB'). clear H0 Hx.
  induction HH as [w|o w w1 r w' HR Hr Ho HH IH|o w w1 r w' Ho HS HH IH]; [exact HB| |].
  - apply IH. assert (HT : through E selectable_signals (selectable same islist wrap activate o) (w_usr w) B (fun u _ => B u)).
    { apply selectable_k; auto. destruct o; try discriminate; auto. now destruct individual. }
    pose proof (th_sound _ _ _ _ _ _ _ _ HE HT HR Hr) as H. destruct r; [exact H|exact H|contradiction].
  - apply IH. now rewrite (aloof_keeps E _ o w w1 r HE Ho HS).
Qed.

(** A listener of removed that raises for 8, one of active that looks at the list. *)
Definition both_env : env both :=
  demo (fun f a => match f, a with
                   | 1, _ => Look (fun u => calls [emit 20 [VInt (size (b_list u))]])
                   | 2, [_; VInt 8] => Throw (EUser 7)
                   | _, _ => Ret VNone
                   end).
Definition both_world l := world_of both_env selectable_cfg (Both l (Sel [] VNone VNone)) 50 [conn 4 2 0; conn 12 1 0; conn 0 3 0; conn 10 3 0].
Lemma both_env_aloof : env_all (aloof selectable_signals) both_env.
Proof. apply demo_all. intros f a. destruct f as [|[|[|f]]]; try (allp; fail). Qed.
Lemma both_cfg_fresh : forall s, fresh_sig (selectable_cfg s).
Proof. intros s. do 14 (destruct s as [|s]; [repeat split|]). repeat split. Qed.
Lemma both_cfg_flat : forall {U} (u : U), flat (init_world selectable_cfg u).
Proof.
  intros U u r ms x y H Hi.
  do 14 (destruct r as [|r]; [try discriminate H; injection H as <-; cbn [In] in Hi;
    repeat (destruct Hi as [Hi|Hi]; [injection Hi as <- <-; reflexivity|]); destruct Hi|]). discriminate H.
Qed.
Global Hint Resolve both_cfg_fresh both_cfg_flat : demo.
Definition same_list (v : val) : val := v.
Example C44_case : exists w1 w2 w3 w4 e,
  let run := selectable val_eqb (fun _ => false) same_list true in
  let l := [VInt 5; VInt 6; VInt 8] in
  env_all (aloof selectable_signals) both_env /\ equivalence val_eqb
  /\ w_usr (both_world l) = Both l (Sel [] VNone VNone)
  /\ runs both_env (run ESelectAll) (both_world l) w1 (Ok VNone)
  /\ w_usr w1 = Both l (Sel l VNone (VInt 5))
  /\ runs both_env (run EClear) w1 w2 (Err e) /\ w_usr w2 = Both [VInt 5; VInt 6] (Sel [VInt 5; VInt 6] VNone (VInt 5))
  /\ runs both_env (run (EDel 0)) w2 w3 (Ok VNone) /\ w_usr w3 = Both [VInt 6] (Sel [VInt 6] (VInt 6) (VInt 6))
  /\ runs both_env (run (EAppend (VInt 7))) w3 w4 (Ok VNone)
  /\ w_usr w4 = Both [VInt 6; VInt 7] (Sel [VInt 7] (VInt 7) (VInt 7)).
Proof.
  set (run := selectable val_eqb (fun _ => false) same_list true). set (l := [VInt 5; VInt 6; VInt 8]).
  pose (w1 := after both_env 400 (run ESelectAll) (both_world l)).
  pose (w2 := after both_env 400 (run EClear) w1).
  pose (w3 := after both_env 400 (run (EDel 0)) w2).
  pose (w4 := after both_env 400 (run (EAppend (VInt 7))) w3).
  exists w1, w2, w3, w4, (EEmitLoop (Some 4) 0 (EUser 7)). cbv zeta.
  split; [apply both_env_aloof|]. split; [apply val_eqb_equivalence|]. split; [vm_compute; reflexivity|].
  split; [apply after_runs; vm_compute; reflexivity|]. split; [vm_compute; reflexivity|].
  split; [apply after_runs; vm_compute; reflexivity|]. split; [vm_compute; reflexivity|].
  split; [apply after_runs; vm_compute; reflexivity|]. split; [vm_compute; reflexivity|].
  split; [apply after_runs; vm_compute; reflexivity|]. vm_compute; reflexivity.
Qed.
Print Assumptions C44_subset_partial.

(** An item that is replaced stays selected. *)
Theorem C44_refuted : exists (E : env both) same islist wrap w w' i v x,
  env_all (aloof selectable_signals) E /\ equivalence same /\ reachable E w
  /\ sel_items (b_sel (w_usr w)) = []
  /\ past E selectable_signals (selectable same islist wrap false) (fun o _ r => (o = ESet_ i v \/ replaces o = false) /\ exists y, r = Ok y) w w'
  /\ In x (sel_items (b_sel (w_usr w'))) /\ ~ inside same x (b_list (w_usr w')).
Proof.
  set (run := selectable val_eqb (fun _ => false) same_list false). set (l := [VInt 5; VInt 6]).
  pose (w1 := after both_env 400 (run (ESelect (LActive (VInt 5)))) (both_world l)).
  pose (w2 := after both_env 400 (run (ESet_ 0 (VInt 7))) w1).
  exists both_env, val_eqb, (fun _ => false), same_list, (both_world l), w2, 0%Z, (VInt 7), (VInt 5).
  split; [apply both_env_aloof|]. split; [apply val_eqb_equivalence|]. split; [reach|]. split; [vm_compute; reflexivity|].
  assert (H : w_usr w2 = Both [VInt 7; VInt 6] (Sel [VInt 5] (VInt 5) (VInt 5))) by (vm_compute; reflexivity).
  assert (R2 : runs both_env (run (ESet_ 0 (VInt 7))) w1 w2 (Ok VNone)) by (apply after_runs; vm_compute; reflexivity).
  assert (R1 : runs both_env (run (ESelect (LActive (VInt 5)))) (both_world l) w1 (Ok VNone)) by (apply after_runs; vm_compute; reflexivity).
  clearbody w2. clearbody w1. split.
  - eapply past_op; [exact R1|discriminate|cbn; eauto|]. eapply past_op; [exact R2|discriminate|cbn; eauto|]. apply past_nil.
  - rewrite H. split; [now left|]. intros (y & [<-|[<-|[]]] & Hy); discriminate Hy.
Qed.
Print Assumptions C44_refuted.
