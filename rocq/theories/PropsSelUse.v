(** Selections whose listeners use the selection: C103, C104. *)

From Verif Require Import Base Core Spec Frame Fuel Demo Client Prog PyList EList PySet ESet SpecSet SetFacts PropsSet ESelect SpecSelect SelFacts PropsSelect
  Calm SpecSelUse SelCalm PropsReentry.
Open Scope nat_scope.

Lemma plain_sound : forall same parent, equivalence same -> forall p, plain_user (used_sel same parent) p ->
  sound (base same (fun u => u) (fun _ => parent)) (R same (fun u => u)) p.
Proof.
  intros same parent (refl & sym & trans) p Hp.
  assert (RR := R_refl same (fun u : sel => u)). assert (RT := R_trans same (fun u : sel => u)).
  induction Hp as [v|e| |k _ IH|o Ho|p k _ IH1 _ IH2|p Hp].
  - exact (sound_ret _ _ RR _).
  - exact (sound_throw _ _ _).
  - intros u HB. exact Logic.I.
  - apply sound_look. exact IH.
  - now apply sound_call.
  - now apply sound_bind.
  - destruct Hp as (n & o & ->). apply sel_n_sound; auto.
Qed.

(** * C103 *)

(** Whatever the listeners do with the selection, if nothing raises, active is right in the end. *)
Theorem C103_active : forall E same parent p w w' v,
  equivalence same -> plain_users (used_sel same parent) E -> plain_user (used_sel same parent) p ->
  runs E p w w' (Ok v) ->
  distinct same (sel_items (w_usr w)) -> (forall x, In x (sel_items (w_usr w)) -> parent x = true) -> right_active same (w_usr w) ->
  distinct same (sel_items (w_usr w')) /\ (forall x, In x (sel_items (w_usr w')) -> parent x = true) /\ right_active same (w_usr w').
Proof.
  intros E same parent p w w' v Heq [HE1 HE2] Hp HR HD HA HG.
  assert (HG0 : good same (fun u => u) (fun _ => parent) (w_usr w)).
  { split; [split; assumption|]. destruct HG as [(x & -> & Hx)|[Hn Ha]]; [exact Hx|]. rewrite Ha. destruct (sel_items (w_usr w)) as [|x [|y l]]; auto. now destruct (Hn x). }
  assert (HS : forall q, plain_user (used_sel same parent) q -> sound (base same (fun u => u) (fun _ => parent)) (R same (fun u => u)) q) by (intros; now apply plain_sound).
  destruct (calm_sound E _ _ (R_refl same (fun u : sel => u)) (R_trans same (fun u : sel => u)) (conj (fun t a w => HS _ (HE1 t a w)) (fun m a => HS _ (HE2 m a))) p w w' v HR (HS _ Hp) (proj1 HG0)) as [HB' HR'].
  assert (HG' : good same (fun u => u) (fun _ => parent) (w_usr w')) by (eapply R_good; eauto).
  split; [apply HG'|]. split; [apply HG'|]. eapply good_right; exact HG'.
Qed.
(** Listeners: 1 (of items_changed): when 1 is added, adds 2; 2 (of active): makes 4 active instead of 3, and selects 6 and 7 when 5 is. *)
Definition V_used (o : selop) : prog sel := selection_n val_eqb (fun _ => true) 6 o.
Definition V_body (f : oid) (a : list val) : prog sel :=
  match f, a with
  | 1, [VTuple [VInt 1]; VTuple []] => V_used (LSet_ (SAdd (VInt 2)))
  | 2, [VInt 3] => V_used (LActive (VInt 4))
  | 2, [VInt 5] => bind (V_used (LSet_ (SUpdate [Items [VInt 6; VInt 7]]))) (fun _ => V_used (LCurrent (VInt 6)))
  | _, _ => Ret VNone
  end.
Definition V_env : env sel := demo V_body.
Definition V_world := world_of V_env selection_cfg (Sel [VInt 9] (VInt 9) (VInt 9)) 200 [conn 1 1 0; conn 2 2 0].
Lemma V_users : plain_users (used_sel val_eqb (fun _ => true)) V_env.
Proof.
  assert (Used : forall o, plain_user (used_sel val_eqb (fun _ => true)) (V_used o)) by (intros o; apply pl_used; eexists; eexists; reflexivity).
  assert (Body : forall f a, plain_user (used_sel val_eqb (fun _ => true)) (V_body f a)).
  { intros f a; unfold V_body.
    repeat match goal with
    | |- plain_user _ (Ret _) => apply pl_ret
    | |- plain_user _ (bind _ _) => apply pl_bind; [|intros]
    | |- plain_user _ (match ?x with _ => _ end) => destruct x
    | |- _ => apply Used
    end. }
  split; [|intros; apply pl_ret]. intros t a w. destruct t; cbn [V_env demo e_body]; try apply pl_ret; apply Body.
Qed.
Example C103_case :
  let res o := let w' := after V_env 400 (V_used o) V_world in (w_usr w', new_events (fun s => Nat.eqb s 2) V_world w') in
  plain_users (used_sel val_eqb (fun _ => true)) V_env /\ right_active val_eqb (w_usr V_world)
  /\ res (LActive (VInt 3)) = (Sel [VInt 4] (VInt 4) (VInt 3),
     [(2, [VNone]); (2, [VInt 3]); (2, [VNone]); (2, [VInt 4]); (2, [VInt 4]); (2, [VInt 3])])
  /\ fst (res (LOnly (VInt 5))) = Sel [VInt 5; VInt 6; VInt 7] VNone (VInt 6)
  /\ fst (res (LSet_ (SAdd (VInt 1)))) = Sel [VInt 9; VInt 1; VInt 2] VNone (VInt 9).
Proof. split; [apply V_users|]. split; [left; exists (VInt 9); split; reflexivity|]. vm_compute. repeat split. Qed.
Print Assumptions C103_active.

(** * C104 *)
(** The last event of active can be wrong, however, and the current item another one than the one made active last. *)
Theorem C104_told_refuted : exists (E : env sel) same parent o w w' v t,
  equivalence same /\ plain_users (used_sel same parent) E /\ reachable E w /\ right_active same (w_usr w)
  /\ runs E (selection_n same parent 6 o) w w' (Ok v) /\ w_tr w' = w_tr w ++ t
  /\ replay 2 (sel_active (w_usr w)) (heard selection_signals t) <> sel_active (w_usr w')
  /\ sel_active (w_usr w') <> VNone /\ sel_current (w_usr w') <> sel_active (w_usr w').
Proof.
  set (p := V_used (LActive (VInt 3))). set (w' := after V_env 400 p V_world).
  exists V_env, val_eqb, (fun _ => true), (LActive (VInt 3)), V_world, w', VNone, (skipn (List.length (w_tr V_world)) (w_tr w')).
  split; [apply val_eqb_equivalence|]. split; [apply V_users|]. split; [reach|]. split; [left; exists (VInt 9); split; reflexivity|].
  split; [apply after_runs; vm_compute; reflexivity|].
  split; [vm_compute; reflexivity|].
  assert (H1 : replay 2 (sel_active (w_usr V_world)) (heard selection_signals (skipn (List.length (w_tr V_world)) (w_tr w'))) = VInt 3) by (vm_compute; reflexivity).
  assert (H2 : w_usr w' = Sel [VInt 4] (VInt 4) (VInt 3)) by (vm_compute; reflexivity).
  rewrite H1, H2. repeat split; discriminate.
Qed.
Print Assumptions C104_told_refuted.
