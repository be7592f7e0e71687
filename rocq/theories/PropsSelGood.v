(** The selection of a SelectableEventedList over its history: C43. *)

From Verif Require Import Base Core Spec Frame Fuel Demo Client Prog Through PyList EList PySet ESet SpecSet SetFacts PropsSet
  ESelect SpecSelect SelFacts SelList SelGood Raised PropsSelect PropsSelNext.
Open Scope nat_scope.

(** Operations that replace no items, do not make a foreign item active while nothing is selected, and are not ended by an exception of a
    listener.  (clear() takes an IndexError of a debug hook to be the end of the list.) *)
Definition undisturbed (E : env both) (same : val -> val -> bool) (o : seop) (u : both) (r : out) : Prop :=
  replaces o = false
  /\ (o = EClear -> ~ hook_raised E EIndex)
  /\ (forall v, o = ESelect (LActive v) -> sel_items (b_sel u) = [] -> v = VNone \/ inside same v (b_list u))
  /\ (forall e, r = Err e -> ~ blamed E e).
(** After any history of such operations, also of those that fail, the selected items are in the list, none of them twice, and active is
    the only one, or None. *)
Theorem C43_list_partial : forall E same islist wrap activate w w',
  env_all (aloof selectable_signals) E -> equivalence same -> (forall x, islist x = true -> same (wrap x) x = true) ->
  consistent same (w_usr w) ->
  past E selectable_signals (selectable same islist wrap activate) (undisturbed E same) w w' ->
  consistent same (w_usr w').
Proof.
  intros E same islist wrap activate w w' HE HQ HW H0 HH. pose proof HQ as (refl & sym & trans).
  induction HH as [w|o w w1 r w' HR Hr (Ho & Hc & Ha & He) HH IH|o w w1 r w' Ho HS HH IH]; [exact H0| |].
  - apply IH. apply good_consistent; [exact HQ|]. apply good_consistent in H0; [|exact HQ].
    assert (HI : o = EClear -> ~ listener_raised E selectable_signals EIndex).
    { intros Eo HX. destruct (raised_kinds _ _ _ HX) as [(s & d & c & HK)|[HK|[(n & HK)|HK]]]; try discriminate. now apply (Hc Eo). }
    pose proof (selectable_g E same refl sym trans islist wrap HW activate o (w_usr w) H0 Ho HI) as HT.
    specialize (HT (fun v Hv Hi => match Ha v Hv Hi with or_introl H => or_introl H | or_intror H => or_intror (proj2 (mem_inside same v _) H) end)).
    pose proof (th_sound _ _ _ _ _ _ _ _ HE HT HR Hr) as H. destruct r as [v|e|]; [exact H| |contradiction].
    destruct H as [H|H]; [exact H|]. now destruct (He e eq_refl).
  - apply IH. now rewrite (aloof_keeps E _ o w w1 r HE Ho HS).
Qed.
Definition wrapped_kind (e : exn) : Prop := match e with EEmitLoop _ _ _ | ERecursion | EBase _ | EType => True | _ => False end.
Lemma both_raised : forall e, listener_raised both_env selectable_signals e -> wrapped_kind e.
Proof.
  intros e H. apply (raised_p both_env wrapped_kind) in H; auto; try (intros; exact I).
  intros h s args w. destruct h as [|[|[|h]]]; cbn; auto.
Qed.
Lemma both_hook : forall e, hook_raised both_env e -> wrapped_kind e.
Proof.
  intros e H. apply (hook_p both_env wrapped_kind) in H; auto; try (intros; exact I).
  intros h s args w. destruct h as [|[|[|h]]]; cbn; auto.
Qed.
(** Everything is selected; 6 is removed; there is no item 9; the first item becomes active; the list is cleared. *)
Example C43_list_case : exists w1 w2 w3 w4 w5,
  let ok := undisturbed both_env val_eqb in
  consistent val_eqb (w_usr (both_world N_l))
  /\ past both_env selectable_signals (selectable val_eqb (fun _ => false) same_list false) ok (both_world N_l) w5
  /\ runs both_env (N_run ESelectAll) (both_world N_l) w1 (Ok VNone) /\ w_usr w1 = Both N_l (Sel N_l VNone (VInt 5))
  /\ runs both_env (N_run (ERemove (VInt 6))) w1 w2 (Ok VNone)
  /\ runs both_env (N_run (EDel 9)) w2 w3 (Err EIndex)
  /\ runs both_env (N_run (ESelect (LSet_ (SRemove (VInt 7))))) w3 w4 (Ok VNone)
  /\ w_usr w4 = Both [VInt 5; VInt 7] (Sel [VInt 5] (VInt 5) (VInt 5))
  /\ runs both_env (N_run EClear) w4 w5 (Ok VNone) /\ w_usr w5 = Both [] (Sel [] VNone (VInt 5)).
Proof.
  pose (w1 := N_after ESelectAll (both_world N_l)). pose (w2 := N_after (ERemove (VInt 6)) w1). pose (w3 := N_after (EDel 9) w2).
  pose (w4 := N_after (ESelect (LSet_ (SRemove (VInt 7)))) w3). pose (w5 := N_after EClear w4).
  assert (R1 : runs both_env (N_run ESelectAll) (both_world N_l) w1 (Ok VNone)) by (apply after_runs; vm_compute; reflexivity).
  assert (R2 : runs both_env (N_run (ERemove (VInt 6))) w1 w2 (Ok VNone)) by (apply after_runs; vm_compute; reflexivity).
  assert (R3 : runs both_env (N_run (EDel 9)) w2 w3 (Err EIndex)) by (apply after_runs; vm_compute; reflexivity).
  assert (R4 : runs both_env (N_run (ESelect (LSet_ (SRemove (VInt 7))))) w3 w4 (Ok VNone)) by (apply after_runs; vm_compute; reflexivity).
  assert (R5 : runs both_env (N_run EClear) w4 w5 (Ok VNone)) by (apply after_runs; vm_compute; reflexivity).
  assert (V1 : w_usr w1 = Both N_l (Sel N_l VNone (VInt 5))) by (vm_compute; reflexivity).
  assert (V4 : w_usr w4 = Both [VInt 5; VInt 7] (Sel [VInt 5] (VInt 5) (VInt 5))) by (vm_compute; reflexivity).
  assert (V5 : w_usr w5 = Both [] (Sel [] VNone (VInt 5))) by (vm_compute; reflexivity).
  assert (V0 : w_usr (both_world N_l) = Both N_l (Sel [] VNone VNone)) by (vm_compute; reflexivity).
  clearbody w5 w4 w3 w2 w1. exists w1, w2, w3, w4, w5. cbv zeta. split; [|split; [|auto 10]].
  - rewrite V0. split; [exact I|]. split; [intros x []|]. right. split; [discriminate|reflexivity].
  - eapply past_op; [exact R1|discriminate| |]; [repeat split; discriminate|].
    eapply past_op; [exact R2|discriminate| |]; [repeat split; discriminate|].
    eapply past_op; [exact R3|discriminate| |].
    { split; [reflexivity|]. split; [discriminate|]. split; [discriminate|]. intros e [= <-] [HB|(e' & HB & _)]; [exact (both_raised _ HB)|discriminate]. }
    eapply past_op; [exact R4|discriminate| |]; [repeat split; discriminate|].
    eapply past_op; [exact R5|discriminate| |]; [|apply past_nil].
    split; [reflexivity|]. split; [intros _ HB; exact (both_hook _ HB)|]. split; discriminate.
Qed.
Print Assumptions C43_list_partial.
