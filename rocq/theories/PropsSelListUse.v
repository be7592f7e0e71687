(** SelectableEventedLists whose listeners use the list and its selection: C107. *)

From Verif Require Import Base Core Spec Frame Fuel Demo Client Prog PyList EList PySet ESet SpecSet SetFacts PropsSet ESelect SpecSelect SelFacts SelList PropsSelect
  Calm SpecSelUse SpecSelListUse SelCalm SelListCalm PropsReentry.
Open Scope nat_scope.

(** * C107 *)

(** Whatever the listeners do with the list and the selection, if nothing raises, the selection is consistent in the end. *)
Theorem C107_consistent : forall E same islist wrap activate p w w' v,
  equivalence same -> list_users (used_list same islist wrap activate) E -> list_user (used_list same islist wrap activate) p ->
  runs E p w w' (Ok v) -> consistent same (w_usr w) -> consistent same (w_usr w').
Proof.
  intros E same islist wrap activate p w w' v (refl & sym & trans) [HE1 HE2] Hp HR (HD & HI & HA).
  set (allowed := fun u x => mem same x (b_list u)).
  assert (HS : forall q, list_user (used_list same islist wrap activate) q -> sound (base same b_sel allowed) (R same b_sel) q).
  { intros q Hq. assert (RR := R_refl same b_sel). assert (RT := R_trans same b_sel).
    induction Hq as [x|e| |k _ IH|o Ho|q k _ IH1 _ IH2|q Hq].
    - exact (sound_ret _ _ RR _).
    - exact (sound_throw _ _ _).
    - intros u HB. exact Logic.I.
    - apply sound_look. exact IH.
    - apply sound_call. destruct o; auto.
    - now apply sound_bind.
    - destruct Hq as (n & o & Hr & Hc & ->). now apply selectable_n_sound. }
  assert (HB0 : base same b_sel allowed (w_usr w)).
  { split; [exact HD|]. intros x Hx. now apply mem_inside, HI. }
  destruct (calm_sound E _ _ (R_refl same b_sel) (R_trans same b_sel) (conj (fun t a w => HS _ (HE1 t a w)) (fun m a => HS _ (HE2 m a))) p w w' v HR (HS _ Hp) HB0) as [[HD' HI'] HR'].
  split; [exact HD'|]. split; [intros x Hx; now apply mem_inside, HI'|].
  destruct HR' as [[Hi Ha]|HG]; [unfold right_active; now rewrite Hi, Ha|].
  unfold ract in HG. unfold right_active. destruct (sel_items (b_sel (w_usr w'))) as [|x [|y l]]; [right; split; [discriminate|exact HG]|left; eauto|right; split; [discriminate|exact HG]].
Qed.
(** Listeners: 1 (of removed): when 5 is removed, removes 6 and inserts 7 at the beginning; 2 (of active): when 7 is active, appends 8 and selects it,
    too; 3 (of inserting): moves the second item to the beginning when something is inserted at 2. *)
Definition W_used (o : seop) : prog both := selectable_n val_eqb 6 (fun _ => false) (fun x => x) true o.
Definition W_body (f : oid) (a : list val) : prog both :=
  match f, a with
  | 1, [_; VInt 5] => W_used (ERemove (VInt 6));; W_used (EInsert 0 (VInt 7))
  | 2, [VInt 7] => W_used (EAppend (VInt 8));; W_used (ESelect (LSet_ (SAdd (VInt 7))))
  | 3, [VInt 2] => W_used (EMove 1 0)
  | _, _ => Ret VNone
  end.
Definition W_env : env both := demo W_body.
Definition W_start : both := Both [VInt 5; VInt 6; VInt 9] (Sel [VInt 5; VInt 6] VNone (VInt 6)).
Definition W_world := world_of W_env selectable_cfg W_start 200 [conn 4 1 0; conn 12 2 0; conn 1 3 0].
Lemma W_users : list_users (used_list val_eqb (fun _ => false) (fun x => x) true) W_env.
Proof.
  assert (Used : forall o, replaces o = false -> o <> EClear -> list_user (used_list val_eqb (fun _ => false) (fun x => x) true) (W_used o)).
  { intros o Hr Hc. apply lu_used. exists 6, o. auto. }
  assert (Body : forall f a, list_user (used_list val_eqb (fun _ => false) (fun x => x) true) (W_body f a)).
  { intros f a; unfold W_body.
    repeat match goal with
    | |- list_user _ (Ret _) => apply lu_ret
    | |- list_user _ (seq _ _) => apply lu_bind; [|intros]
    | |- list_user _ (match ?x with _ => _ end) => destruct x
    | |- list_user _ (W_used _) => apply Used; [reflexivity|discriminate]
    end. }
  split; [|intros; apply lu_ret]. intros t a w. destruct t; cbn [W_env demo e_body]; try apply lu_ret; apply Body.
Qed.
Example C107_case :
  let w' := after W_env 900 (W_used (EDel 0)) W_world in
  list_users (used_list val_eqb (fun _ => false) (fun x => x) true) W_env /\ consistent val_eqb (w_usr W_world)
  /\ outcome W_env 900 (W_used (EDel 0)) W_world = Some (Ok VNone)
  /\ w_usr w' = Both [VInt 9; VInt 7; VInt 8] (Sel [VInt 8; VInt 7] VNone (VInt 8))
  /\ new_events (fun _ => true) W_world w'
     = [(3, [VInt 0]); (11, [VTuple []; VTuple [VInt 5]]); (12, [VInt 6]); (4, [VInt 0; VInt 5]); (3, [VInt 0]);
        (11, [VTuple []; VTuple [VInt 6]]); (12, [VNone]); (4, [VInt 0; VInt 6]); (1, [VInt 0]); (2, [VInt 0; VInt 7]);
        (11, [VTuple [VInt 7]; VTuple []]); (13, [VInt 7]); (12, [VInt 7]); (1, [VInt 2]);
        (5, [VInt 1; VInt 0]); (6, [VInt 1; VInt 0; VInt 9]); (8, []); (2, [VInt 2; VInt 8]);
        (11, [VTuple []; VTuple [VInt 7]]); (12, [VNone]); (11, [VTuple [VInt 8]; VTuple []]); (13, [VInt 8]);
        (12, [VInt 8]); (12, [VInt 8]); (11, [VTuple [VInt 7]; VTuple []]); (12, [VNone])].
Proof.
  split; [apply W_users|]. split.
  { split; [vm_compute; auto|]. split.
    - intros x [<-|[<-|[]]]; [exists (VInt 5)|exists (VInt 6)]; vm_compute; auto.
    - right. split; [discriminate|reflexivity]. }
  vm_compute. repeat split.
Qed.
Print Assumptions C107_consistent.
