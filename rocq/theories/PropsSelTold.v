(** What a Selection announces: C91. *)

From Verif Require Import Base Core Spec Frame Fuel Demo Client Prog Through PyList EList PySet ESet SpecSet SetFacts PropsSet
  ESelect SpecSelect SelFacts SelTold PropsSelect.
Open Scope nat_scope.

(** Nothing but None is equal to None. *)
Definition none_alone (same : val -> val -> bool) : Prop := forall v, same v VNone = true -> v = VNone.
Lemma good_past : forall E same parent c w w1,
  env_all (aloof selection_signals) E -> equivalence same -> (forall x y, same x y = true -> parent x = parent y) ->
  w_usr w = Sel [] VNone c -> past E selection_signals (selection same parent) (proper E parent) w w1 ->
  good same (fun u => u) (fun _ => parent) (w_usr w1).
Proof.
  intros E same parent c w w1 HE HQ HP H0 HH.
  assert (HG : good same (fun u => u) (fun _ => parent) (w_usr w)).
  { rewrite H0. split; [split; [exact I|intros x []]|reflexivity]. }
  clear H0. induction HH as [w|o' w w2 r' w1 HR Hr [Ho1 Ho2] HH IH|o' w w2 r' w1 Ho HS HH IH]; [exact HG| |].
  - apply IH. destruct (good_runs E same parent o' w w2 r') as [[H _]|(e & -> & H)]; auto. now destruct (Ho2 e).
  - apply IH. now rewrite (aloof_keeps E _ o' w w2 r' HE Ho HS).
Qed.
Notation settled_here same parent w := (settled same 2 3 (fun u : sel => u) (fun _ => parent) (sel_active (w_usr w)) (sel_current (w_usr w))).
Lemma start_settled : forall same parent (w : world sel), equivalence same -> good same (fun u => u) (fun _ => parent) (w_usr w) ->
  settled_here same parent w (w_usr w) [].
Proof.
  intros same parent w (refl & _ & _) HG. split; [exact HG|]. repeat split; try apply refl; try (left; apply refl); intros t a u [].
Qed.

(** After any operation on a selection with any history (see C43), also a failed one, a listener of events.active that keeps the
    last value it got has the active item, and one of events._current the current item; whenever they are emitted, the value is
    the one that the attribute has at that time. *)
Theorem C91_told_partial : forall E same parent c w0 w o w' r,
  env_all (aloof selection_signals) E -> equivalence same -> none_alone same -> (forall x y, same x y = true -> parent x = parent y) ->
  w_usr w0 = Sel [] VNone c ->
  past E selection_signals (selection same parent) (proper E parent) w0 w ->
  runs E (selection same parent o) w w' r -> done r -> proper E parent o (w_usr w) r ->
  exists tr, w_tr w' = w_tr w ++ tr
  /\ same (replay 2 (sel_active (w_usr w)) (heard selection_signals tr)) (sel_active (w_usr w')) = true
  /\ same (replay 3 (sel_current (w_usr w)) (heard selection_signals tr)) (sel_current (w_usr w')) = true
  /\ truthful same 2 sel_active (heard selection_signals tr) /\ truthful same 3 sel_current (heard selection_signals tr).
Proof.
  intros E same parent c w0 w o w' r HE HQ HN HP H0 HH HR Hd [Ho1 Ho2].
  pose proof (good_past E same parent c w0 w HE HQ HP H0 HH) as HG. pose proof HQ as (refl & sym & trans).
  destruct (tl_sound E selection_signals _ w w' r _ _ HE
    (told_do E selection_signals same refl sym trans 1 2 3 eq_refl eq_refl eq_refl ltac:(discriminate) ltac:(discriminate) ltac:(discriminate)
      (fun u => u) (fun x _ => x) (fun _ => parent) (fun _ _ => eq_refl) (fun _ _ _ => eq_refl) (fun _ x y => HP x y)
      (sel_active (w_usr w)) (sel_current (w_usr w)) HN o (w_usr w) [] (start_settled same parent w HQ HG) Ho1) HR Hd) as (tr & T & A).
  exists tr. split; [exact T|].
  assert (S : settled_here same parent w (w_usr w') (heard selection_signals tr)).
  { destruct r as [v|e|]; [exact A| |contradiction]. destruct A as [A|A]; [exact A|]. now destruct (Ho2 e eq_refl). }
  destruct S as [_ (S1 & S2 & S3 & [S4|(v & S4 & _)])]; [auto|discriminate].
Qed.

(** clear() empties the selection and sets the current item to None, clear(keep_current=True) keeps it; [s -= s] and [s ^= s] clear. *)
Theorem C91_clear_partial : forall E same parent c w0 w o w' x,
  env_all (aloof selection_signals) E -> equivalence same -> none_alone same -> (forall x y, same x y = true -> parent x = parent y) ->
  w_usr w0 = Sel [] VNone c ->
  past E selection_signals (selection same parent) (proper E parent) w0 w ->
  In o [LSet_ SClear; LKeepClear; LSet_ (SIsub Itself); LSet_ (SIxor Itself)] ->
  runs E (selection same parent o) w w' (Ok x) ->
  sel_items (w_usr w') = [] /\ sel_active (w_usr w') = VNone
  /\ sel_current (w_usr w') = match o with LKeepClear => sel_current (w_usr w) | _ => VNone end.
Proof.
  intros E same parent c w0 w o w' x HE HQ HN HP H0 HH Hin HR.
  pose proof (good_past E same parent c w0 w HE HQ HP H0 HH) as HG. pose proof HQ as (refl & sym & trans).
  assert (B : sel_items (w_usr w') = [] /\ match o with LKeepClear => sel_current (w_usr w') = sel_current (w_usr w) | _ => sel_current (w_usr w') = VNone end).
  { set (b := match o with LKeepClear => true | _ => false end).
    assert (P : selection same parent o = sl_clear same 1 3 (fun u : sel => u) (fun x _ => x) (fun _ => parent)
      (update_active same 1 2 3 (fun u : sel => u) (fun x _ => x) (fun _ => parent)) b).
    { unfold b. destruct Hin as [<-|[<-|[<-|[<-|[]]]]]; reflexivity. }
    rewrite P in HR.
    destruct (tl_sound E selection_signals _ w w' (Ok x) _ _ HE
      (clear_do E selection_signals same refl 1 2 3 eq_refl eq_refl eq_refl ltac:(discriminate) ltac:(discriminate) ltac:(discriminate)
        (fun u => u) (fun x _ => x) (fun _ => parent) (fun _ _ => eq_refl) (fun _ _ _ => eq_refl)
        (sel_active (w_usr w)) (sel_current (w_usr w)) b (w_usr w) [] (start_settled same parent w HQ HG)) HR ltac:(discriminate)) as (tr & T & A1 & A2).
    split; [exact A1|]. unfold b in A2. destruct Hin as [<-|[<-|[<-|[<-|[]]]]]; [apply HN, sym, A2|exact A2|apply HN, sym, A2|apply HN, sym, A2]. }
  destruct B as [B1 B2]. split; [exact B1|]. split; [|destruct Hin as [<-|[<-|[<-|[<-|[]]]]]; exact B2].
  destruct (good_runs E same parent o w w' (Ok x)) as [[[_ H] _]|(e & He & _)]; auto; try discriminate.
  - intros v ->. cbn in Hin. intuition discriminate.
  - now rewrite B1 in H.
Qed.
(** active = v: makes it the only selected item, and makes it current; with None, clears.  (Nothing happens if v is active.) *)
Theorem C91_active_partial : forall E same parent c w0 w v w' x,
  env_all (aloof selection_signals) E -> equivalence same -> none_alone same -> (forall x y, same x y = true -> parent x = parent y) ->
  w_usr w0 = Sel [] VNone c ->
  past E selection_signals (selection same parent) (proper E parent) w0 w ->
  runs E (selection same parent (LActive v)) w w' (Ok x) ->
  (sel_items (w_usr w) = [] -> v = VNone \/ parent v = true) ->
  same v (sel_active (w_usr w)) = false ->
  same v (sel_active (w_usr w')) = true /\ same v (sel_current (w_usr w')) = true
  /\ (v = VNone -> sel_items (w_usr w') = []) /\ (v <> VNone -> exists y, sel_items (w_usr w') = [y] /\ same v y = true).
Proof.
  intros E same parent c w0 w v w' x HE HQ HN HP H0 HH HR Hv Hs.
  pose proof (good_past E same parent c w0 w HE HQ HP H0 HH) as HG. pose proof HQ as (refl & sym & trans).
  destruct (tl_sound E selection_signals _ w w' (Ok x) _ _ HE
    (set_active_told E selection_signals same refl sym trans 1 2 3 eq_refl eq_refl eq_refl ltac:(discriminate) ltac:(discriminate) ltac:(discriminate)
      (fun u => u) (fun x _ => x) (fun _ => parent) (fun _ _ => eq_refl) (fun _ _ _ => eq_refl) (fun _ x y => HP x y)
      (sel_active (w_usr w)) (sel_current (w_usr w)) HN 1 v (w_usr w) [] (start_settled same parent w HQ HG) Hv) HR ltac:(discriminate)) as (tr & T & _ & A).
  rewrite Hs in A. exact A.
Qed.

(** ** Cases *)
Notation T_run o := (selection val_eqb few o).
Definition T_heard (o : selop) (w : world sel) : list (sid * list val) :=
  map (fun x => fst x) (filter (fun x => Nat.leb 2 (fst (fst x)))
    (heard selection_signals (skipn (List.length (w_tr w)) (w_tr (after sel_env 400 (T_run o) w))))).
Definition T_w1 := after sel_env 400 (T_run (LSet_ (SUpdate [Items [VInt 5; VInt 6]]))) sel_world.
Definition T_w2 := after sel_env 400 (T_run (LActive (VInt 6))) T_w1.
Lemma val_eqb_none : none_alone val_eqb.
Proof. intros v H. now apply val_eqb_eq in H. Qed.
Lemma T_past : past sel_env selection_signals (selection val_eqb few) (proper sel_env few) sel_world T_w2.
Proof.
  apply past_op with (o := LSet_ (SUpdate [Items [VInt 5; VInt 6]])) (w1 := T_w1) (r := Ok VNone).
  { apply after_runs; vm_compute; reflexivity. }
  { discriminate. }
  { split; [intros v H; discriminate|intros e H; discriminate]. }
  apply past_op with (o := LActive (VInt 6)) (w1 := T_w2) (r := Ok VNone).
  { apply after_runs; vm_compute; reflexivity. }
  { discriminate. }
  { split; [intros v H _; injection H as <-; right; reflexivity|intros e H; discriminate]. }
  apply past_nil.
Qed.
(** 5 and 6 are selected, then 6 is made active, then 5 is toggled, active is assigned, and the selection is cleared. *)
Example C91_case :
  none_alone val_eqb /\ past sel_env selection_signals (selection val_eqb few) (proper sel_env few) sel_world T_w2
  /\ w_usr T_w2 = Sel [VInt 6] (VInt 6) (VInt 6)
  /\ T_heard (LToggle (VInt 5)) T_w2 = [(2, [VNone])]
  /\ T_heard (LActive (VInt 7)) T_w2 = [(2, [VNone]); (3, [VInt 7]); (2, [VInt 7]); (2, [VInt 7])]
  /\ w_usr (after sel_env 400 (T_run (LActive (VInt 7))) T_w2) = Sel [VInt 7] (VInt 7) (VInt 7)
  /\ T_heard (LSet_ SClear) T_w2 = [(3, [VNone]); (2, [VNone])] /\ T_heard LKeepClear T_w2 = [(2, [VNone])]
  /\ outcome sel_env 400 (T_run (LSet_ SClear)) T_w2 = Some (Ok VNone)
  /\ outcome sel_env 400 (T_run LKeepClear) T_w2 = Some (Ok VNone)
  /\ w_usr (after sel_env 400 (T_run LKeepClear) T_w2) = Sel [] VNone (VInt 6)
  /\ outcome sel_env 400 (T_run (LActive (VInt 77))) T_w2 = Some (Err EValue)
  /\ T_heard (LActive (VInt 77)) T_w2 = [(2, [VNone])].
Proof.
  split; [apply val_eqb_none|]. split; [apply T_past|]. vm_compute. repeat split.
Qed.

(** Selecting two items at once announces the first one as active, then None, and leaves it current, although active is None before
    and after: the selection is looked at after each item (SL:152-155), not after the update. *)
Theorem C91_update_refuted : exists (E : env sel) same parent w w' l,
  env_all (aloof selection_signals) E /\ equivalence same /\ none_alone same /\ reachable E w /\ w_usr w = Sel [] VNone VNone
  /\ runs E (selection same parent (LSet_ (SUpdate [Items l]))) w w' (Ok VNone)
  /\ sel_active (w_usr w') = VNone /\ sel_current (w_usr w') <> VNone
  /\ exists tr, w_tr w' = w_tr w ++ tr
     /\ map (fun x => fst x) (filter (fun x => Nat.eqb (fst (fst x)) 2) (heard selection_signals tr)) = [(2, [VInt 5]); (2, [VNone])].
Proof.
  exists sel_env, val_eqb, few, sel_world, T_w1, [VInt 5; VInt 6].
  split; [apply sel_env_aloof|]. split; [apply val_eqb_equivalence|]. split; [apply val_eqb_none|]. split; [reach|].
  split; [vm_compute; reflexivity|]. split; [apply after_runs; vm_compute; reflexivity|]. split; [vm_compute; reflexivity|].
  split; [vm_compute; discriminate|]. exists (skipn (List.length (w_tr sel_world)) (w_tr T_w1)). vm_compute. now split.
Qed.
(** active = 7 while 6 is active: None is announced, and 7 twice. *)
Theorem C91_active_refuted : exists (E : env sel) same parent w0 w w' v,
  env_all (aloof selection_signals) E /\ equivalence same /\ none_alone same /\ reachable E w0 /\ w_usr w0 = Sel [] VNone VNone
  /\ past E selection_signals (selection same parent) (proper E parent) w0 w
  /\ w_usr w = Sel [VInt 6] (VInt 6) (VInt 6)
  /\ runs E (selection same parent (LActive v)) w w' (Ok VNone)
  /\ exists tr, w_tr w' = w_tr w ++ tr
     /\ map (fun x => fst x) (filter (fun x => Nat.eqb (fst (fst x)) 2) (heard selection_signals tr)) = [(2, [VNone]); (2, [v]); (2, [v])].
Proof.
  exists sel_env, val_eqb, few, sel_world, T_w2, (after sel_env 400 (T_run (LActive (VInt 7))) T_w2), (VInt 7).
  split; [apply sel_env_aloof|]. split; [apply val_eqb_equivalence|]. split; [apply val_eqb_none|]. split; [reach|].
  split; [vm_compute; reflexivity|]. split; [apply T_past|]. split; [vm_compute; reflexivity|]. split; [apply after_runs; vm_compute; reflexivity|].
  exists (skipn (List.length (w_tr T_w2)) (w_tr (after sel_env 400 (T_run (LActive (VInt 7))) T_w2))). vm_compute. now split.
Qed.
Print Assumptions C91_told_partial.
Print Assumptions C91_clear_partial.
Print Assumptions C91_active_partial.
Print Assumptions C91_update_refuted.
Print Assumptions C91_active_refuted.
