(** emit_fast: C28. *)

From Verif Require Import Base Core Frame Fuel Conn Keep Spec Trace Inv Quiet Emission Top Demo Alike
  PropsEmit.

(** What a callback does is determined by the callback and its arguments (its code may
    look at the program's own state and call the API at any point). *)
Definition coded {U} (E : env U) : Prop := forall t a w v, e_body E t a w = e_body E t a v.
Definition no_groups {U} (w : world U) : Prop := forall x, s_members (w_sg w x) = None.

(** The same result, up to the recursion depth mentioned in an EmitLoopError. *)
Definition same_result (r r' : out) : Prop :=
  match r, r' with
  | Err (EEmitLoop s _ e), Err (EEmitLoop s' _ e') => s = s' /\ e = e'
  | _, _ => r = r'
  end.
(** The same events (calls of callbacks, with their arguments and results, at every level
    of nesting), the same state of the program, of its threads and objects, and of every
    signal. *)
Record same_effect {U} (w v : world U) : Prop := Same_effect {
  se_events : w_tr w = w_tr v;
  se_state : w_usr w = w_usr v;
  se_queues : w_tq w = w_tq v;
  se_dead : w_dead w = w_dead v;
  se_cur : w_cur w = w_cur v;
  se_slots : forall x, s_slots (w_sg w x) = s_slots (w_sg v x);
  se_blocked : forall x, s_blocked (w_sg w x) = s_blocked (w_sg v x);
  se_paused : forall x, s_paused (w_sg w x) = s_paused (w_sg v x);
  se_args : forall x, s_args (w_sg w x) = s_args (w_sg v x);
  se_eq : forall x, s_eq (w_sg w x) = s_eq (w_sg v x);
  se_depth : forall x, s_depth (w_sg w x) = s_depth (w_sg v x)
}.

Section C28.
Context {U : Type}.

Lemma alike_refl : forall w : world U, no_groups w -> alike (fun x => s_mode (w_sg w x)) w w.
Proof. intros w H. constructor; try reflexivity. intros x. repeat split. apply H. Qed.
Lemma alike_cur_l : forall M c (w v : world U), alike M w v -> alike M (set_cur c w) v.
Proof. intros M c w v []. constructor; assumption. Qed.
Lemma same_result_refl : forall r, same_result r r.
Proof. intros [v|e|]; try reflexivity. destruct e; try reflexivity. now split. Qed.
Lemma same_result_wrap : forall s d e, same_result (Err (wrap_err s d e)) (Err (wrap_err s 0 e)).
Proof. intros s d e. destruct e; cbn; auto. Qed.

(** The relation between the two results, at the level of the model. *)
Definition close (M : sid -> mode) (a b : option (world U * out)) : Prop :=
  match a, b with
  | Some (w, r), Some (v, r') => alike M w v /\ same_result r r'
  | None, None => True
  | _, _ => False
  end.

Lemma run_fast : forall (E : env U) n s args w,
  coded E -> env_all unasking E -> no_groups w ->
  s_mode (w_sg w s) = Immediate -> s_eq (w_sg w s) = [] -> s_blocked (w_sg w s) = false ->
  s_paused (w_sg w s) = false ->
  (forall v r, do_emit_fast (exec E n) E n s args w = Some (v, r) -> s_eq (w_sg v s) = []) ->
  close (fun x => s_mode (w_sg w x))
    (run_emit_loop (exec E n) E n s args (log (EEmit s args (w_usr w)) w))
    (do_emit_fast (exec E n) E n s args w).
Proof.
  intros E n s args w HC HA HG Hm Hq Hb Hp Hfin.
  unfold do_emit_fast in *. cbv zeta in *. cbn [w_sg log set_tr] in *. rewrite Hb, Hp in *.
  set (w0 := log (EEmit s args (w_usr w)) w) in *.
  assert (A0 : alike (fun x => s_mode (w_sg w x)) w0 w0) by (apply alike_log, alike_refl, HG).
  assert (Hm0 : s_mode (w_sg w0 s) = Immediate) by exact Hm.
  assert (Hq0 : s_eq (w_sg w0 s) = []) by exact Hq.
  assert (Hd0 : s_depth (w_sg w s) = s_depth (w_sg w0 s)) by reflexivity. rewrite Hd0 in *.
  clearbody w0. revert A0. pose (M := fun x => s_mode (w_sg w x)).
  change (fun x => s_mode (w_sg w x)) with M. assert (HM : M s = Immediate) by exact Hm. clearbody M.
  clear w HG Hm Hq Hb Hp Hd0. rename w0 into w. intros A0.
  unfold run_emit_loop. cbv zeta. destruct (Nat.leb RECURSION_LIMIT (s_depth (w_sg w s))); [split; [exact A0|reflexivity]|].
  rewrite upd_same. cbn [s_eq set_eq]. rewrite Hq0. change (Nat.ltb 1 (List.length ([] ++ [args]))) with false. cbv iota.
  change (w_nxt (upd s (fun st => set_eq (s_eq st ++ [args]) st) w)) with (w_nxt w).
  change (w_cur (upd s (fun st => set_eq (s_eq st ++ [args]) st) w)) with (w_cur w).
  unfold inner_loop. cbn [w_sg log set_tr]. unfold enter. cbn [w_sg set_cur].
  rewrite upd_same. cbn [w_sg set_nxt]. rewrite upd_same. cbn [s_mode set_max set_depth set_eq s_eq].
  rewrite Hm0, Hq0. cbn [app].
  match goal with |- close _ (match loop_slots _ _ _ _ _ _ _ ?a with _ => _ end)
                             (match loop_slots _ _ _ _ _ _ _ ?b with _ => _ end) =>
    assert (K : alike M a b) end.
  { destruct A0 as [SG H1 H2 H3 H4 H5 H6 H7 H8].
    constructor; try reflexivity; try assumption.
    intros x. destruct (Nat.eq_dec x s) as [->|Hx].
    - unfold upd at 1. cbn. rewrite Nat.eqb_refl. unfold upd. cbn. rewrite ?Nat.eqb_refl.
      destruct (SG s) as (B1 & B2 & B3 & B4).
      split; [|split; [|split]]; cbn; try assumption.
      + change (set_eq [] (set_depth (S (s_depth (w_sg w s))) (set_max 0 (w_sg w s))) =
                set_depth (S (s_depth (w_sg w s))) (set_max 0 (w_sg w s))).
        destruct (w_sg w s); cbn in Hq0 |- *. now subst.
      + rewrite HM. discriminate.
    - unfold upd. cbn. apply Nat.eqb_neq in Hx. rewrite ?Hx. apply SG. }
  pose proof (sim_loop_slots M E (exec E n) (fun t a w v _ => HC t a w v) HA
                (fun p w v => sim_exec M E (fun t a w v _ => HC t a w v) HA n p w v)
                (fun r a w v => sim_relay M E n r a w v) n (w_nxt w) s 0 args _ _ K) as S.
  match type of S with sim _ ?a ?b => destruct a as [[w1 r]|]; destruct b as [[v1 r']|] end;
    cbn in S; try contradiction; [|exact I].
  destruct S as [S <-].
  destruct r as [x|e|]; [| |split; [exact S|reflexivity]].
  all: assert (Hr : s_eq (w_sg v1 s) = []) by
    (specialize (Hfin _ _ eq_refl); rewrite upd_same in Hfin; cbn [w_sg log set_tr] in Hfin;
     destruct (Nat.ltb _ _) in Hfin; exact Hfin).
  all: split; [|try apply same_result_wrap; reflexivity].
  all: unfold leave; apply alike_upd; [apply alike_cur_l, alike_log, S|].
  all: cbn [w_sg set_cur log set_tr]; destruct (al_sg _ _ _ S s) as (B1 & B2 & B3 & B4);
    pose proof (like_depth _ _ _ (al_sg _ _ _ S s)) as Hd; rewrite <- Hd.
  all: assert (Hz : set_eq [] (set_max 0 (w_sg w1 s)) = set_max 0 (w_sg v1 s))
    by (rewrite B1; destruct (w_sg v1 s); cbn in Hr |- *; now subst).
  all: assert (Hz2 : forall d, set_max 0 (set_eq [] (set_depth d (w_sg w1 s))) = set_max 0 (set_depth d (w_sg v1 s)))
    by (intros d; change (set_depth d (set_eq [] (set_max 0 (w_sg w1 s))) = set_depth d (set_max 0 (w_sg v1 s)));
        now rewrite Hz).
  all: destruct (s_depth (w_sg w1 s)) as [|[|d]]; cbn [Nat.sub Nat.leb Nat.ltb].
  all: split; [|split; [|split]]; try assumption; try (intros Hx; rewrite HM in Hx; discriminate Hx).
  all: try apply Hz2.
  all: change (set_max 0 (set_eq [] (set_depth 0 (w_sg w1 s))) = set_max 0 (w_sg v1 s)); rewrite (Hz2 0), Hd;
    now destruct (w_sg v1 s).
Qed.

Lemma same_effect_of : forall M (w v : world U), alike M w v -> w_cur w = w_cur v -> same_effect w v.
Proof.
  intros M w v H Hc. destruct H. constructor; try assumption; intros x.
  - eapply like_slots; eauto.
  - eapply like_blocked; eauto.
  - eapply like_paused; eauto.
  - eapply like_args; eauto.
  - eapply like_eq; eauto.
  - eapply like_depth; eauto.
Qed.
Lemma fast_eq_nil : forall (E0 E : env U) s args w w' r, reachable E0 w -> s_mode (w_sg w s) = Immediate ->
  steps E (OEmitFast s args) w w' r -> s_eq (w_sg w' s) = [].
Proof.
  intros E0 E s args w w' r HR Hm HS.
  pose proof (bg_static _ _ _ _ (steps_based E _ _ _ _ HS) s) as Hst.
  pose proof (runs_eq_ok E (call (OEmitFast s args)) w w' r) as HQ.
  apply HQ; [now apply runs_call|eapply reachable_eq_ok; eauto|].
  left. unfold static in Hst. injection Hst as -> _ _ _ _. rewrite Hm. discriminate.
Qed.
(** The two results, for the same fuel. *)
Lemma emit_fast_close : forall (E0 E : env U) n s args w,
  reachable E0 w -> coded E -> env_all unasking E -> no_groups w ->
  s_mode (w_sg w s) = Immediate -> w_hook w = None ->
  close (fun x => s_mode (w_sg w x)) (step (exec E n) E n (OEmit s args false false) w)
        (step (exec E n) E n (OEmitFast s args) w).
Proof.
  intros E0 E n s args w HR HC HA HG Hm Hh. cbn [step].
  assert (Hq : s_eq (w_sg w s) = []) by (apply (reachable_eq_ok E0 w HR); left; rewrite Hm; discriminate).
  assert (A0 : forall e, alike (fun x => s_mode (w_sg w x)) (log e w) (log e w))
    by (intros; apply alike_log, alike_refl, HG).
  destruct (s_blocked (w_sg w s)) eqn:Hb.
  { unfold do_emit, do_emit_fast. cbv zeta. cbn [w_sg log set_tr]. rewrite Hb. split; [apply A0|reflexivity]. }
  destruct (s_paused (w_sg w s)) eqn:Hp.
  { unfold do_emit, do_emit_fast. cbv zeta. cbn [w_sg log set_tr andb]. rewrite Hb, Hp.
    split; [now apply alike_upd_map|reflexivity]. }
  pose proof (run_fast E n s args w HC HA HG Hm Hq Hb Hp
                (fun v r H => fast_eq_nil E0 E s args w v r HR Hm (ex_intro _ n H))) as K.
  unfold do_emit. cbv zeta. cbn [w_sg log set_tr andb w_hook]. rewrite Hb, Hp, Hh. exact K.
Qed.

(** Whatever emit does with arguments it accepts, emit_fast does too: the same calls at
    every level of nesting, the same final state, the same exception. *)
Theorem C28_emit_fast_partial : forall (E0 E : env U) s args cn w w1 r1,
  reachable E0 w -> coded E -> env_all unasking E -> no_groups w ->
  s_mode (w_sg w s) = Immediate -> w_hook w = None ->
  steps E (OEmit s args cn false) w w1 r1 -> done r1 -> r1 <> Err EType ->
  exists w2 r2, steps E (OEmitFast s args) w w2 r2 /\ same_effect w1 w2 /\ same_result r1 r2.
Proof.
  intros E0 E s args cn w w1 r1 HR HC HA HG Hm Hh HS Hd Ht.
  destruct HS as (n & HS).
  assert (HS2 : step (exec E n) E n (OEmit s args false false) w = Some (w1, r1)).
  { cbn [step] in *. unfold do_emit in *. cbv zeta in *. cbn [andb] in *.
    destruct (s_blocked _); [exact HS|]. destruct (cn && _); [congruence|]. exact HS. }
  pose proof (emit_fast_close E0 E n s args w HR HC HA HG Hm Hh) as K. rewrite HS2 in K.
  destruct (step (exec E n) E n (OEmitFast s args) w) as [[w2 r2]|] eqn:HF; [|contradiction].
  destruct K as [K1 K2]. exists w2, r2. split; [now exists n|]. split; [|exact K2].
  eapply same_effect_of; [exact K1|].
  rewrite (runs_cur E (call (OEmit s args false false)) w w1 r1); [|apply runs_call; now exists n|exact Hd].
  symmetry. apply (runs_cur E (call (OEmitFast s args)) w w2 r2); [apply runs_call; now exists n|].
  intros ->. destruct r1 as [|e|]; try discriminate; [destruct e; discriminate|now apply Hd].
Qed.
(** And the other way round. *)
Theorem C28_fast_emit_partial : forall (E0 E : env U) s args w w2 r2,
  reachable E0 w -> coded E -> env_all unasking E -> no_groups w ->
  s_mode (w_sg w s) = Immediate -> w_hook w = None ->
  steps E (OEmitFast s args) w w2 r2 -> done r2 ->
  exists w1 r1, steps E (OEmit s args false false) w w1 r1 /\ same_effect w1 w2 /\ same_result r1 r2.
Proof.
  intros E0 E s args w w2 r2 HR HC HA HG Hm Hh HS Hd. destruct HS as (n & HF).
  pose proof (emit_fast_close E0 E n s args w HR HC HA HG Hm Hh) as K. rewrite HF in K.
  destruct (step (exec E n) E n (OEmit s args false false) w) as [[w1 r1]|] eqn:HS; [|contradiction].
  destruct K as [K1 K2]. exists w1, r1. split; [now exists n|]. split; [|exact K2].
  eapply same_effect_of; [exact K1|].
  rewrite (runs_cur E (call (OEmit s args false false)) w w1 r1); [|apply runs_call; now exists n|].
  - symmetry. apply (runs_cur E (call (OEmitFast s args)) w w2 r2); [apply runs_call; now exists n|exact Hd].
  - intros ->. apply Hd. destruct r2; try discriminate. reflexivity.
Qed.
End C28.

(** Signal 0 has functions 1 and 2 connected; 1 emits signal 1 (both ways) and signal 0
    once more, 2 counts, 3 (connected to signal 1) raises when told to. *)
Definition C28_env : env nat := demo (fun f a =>
  match f, a with
  | 1, [VInt 5%Z] => calls [OEmitFast 1 [VInt 1%Z]; emit 0 [VInt 6%Z]; emit 1 [VInt 2%Z]]
  | 1, [VInt 9%Z] => calls [emit 1 [VInt 3%Z]]
  | 2, _ => calls [OUsr (fun n => (S n, inl VNone))]
  | 3, [VInt 3%Z] => Throw (EUser 7)
  | _, _ => Ret VNone
  end).
Definition C28_world : world nat :=
  world_of C28_env (all_plain Immediate 1) 0 50 [conn 0 1 0; conn 0 2 0; conn 1 3 0].
Example C28_case :
  reachable C28_env C28_world /\ coded C28_env /\ env_all unasking C28_env
  /\ no_groups C28_world
  /\ s_mode (w_sg C28_world 0) = Immediate /\ w_hook C28_world = None
  /\ outcome1 C28_env 50 (emit 0 [VInt 5%Z]) C28_world = Some (Ok VNone)
  /\ List.length (w_tr (after1 C28_env 50 (emit 0 [VInt 5%Z]) C28_world)) = 24
  /\ w_usr (after1 C28_env 50 (OEmitFast 0 [VInt 5%Z]) C28_world) = 2
  /\ outcome1 C28_env 50 (emit 0 [VInt 9%Z]) C28_world = Some (Err (EEmitLoop (Some 1) 0 (EUser 7))).
Proof.
  split; [reach|]. split; [intros t a w v; reflexivity|].
  split; [apply demo_all; intros f a; repeat (destruct f as [|f]; try exact I); destruct a as [|[] []]; allp;
          repeat match goal with |- prog_all _ (match ?x with _ => _ end) => destruct x; allp end|].
  split; [intros x; vm_compute; destruct x as [|[|x]]; reflexivity|].
  vm_compute. repeat split.
Qed.
Print Assumptions C28_emit_fast_partial.
Print Assumptions C28_fast_emit_partial.

(** * C59 *)

Lemma levels_idle : forall {U} s (tr : list (event U)) x, (fst x = 0 -> snd x = 0) ->
  fst (levels s tr x) = 0 -> snd (levels s tr x) = 0.
Proof.
  intros U s tr. induction tr as [|e tr IH]; intros x Hx H; [now apply Hx|].
  destruct e; cbn [levels] in *; try (now apply (IH x)); (eapply IH; [|exact H]); destruct (Nat.eqb _ s);
    cbn [fst snd]; auto; [discriminate|].
  intros ->. reflexivity.
Qed.
(** Missing for the full property: signals that are also emitted with emit_fast. *)
Theorem C59_idle_partial : forall U (E0 E : env U) s w args cn ct w' r,
  reachable_by (no_fast s) E0 w -> same_objects E0 E ->
  env_all (leaves_alone (members_of w) s) E -> env_all (no_fast s) E ->
  steps E (OEmit s args cn ct) w w' r -> done r ->
  goes_through E s args cn ct w -> w_hook w = None ->
  s_mode (w_sg w s) = LatestOnly -> in_progress s (w_tr w) = 0%Z ->
  exists eid t called uncalled,
    w_tr w' = w_tr w ++ EEmit s args (w_usr w) :: EStart eid s args :: t ++ [EEnd eid s]
    /\ s_slots (w_sg w s) = called ++ uncalled
    /\ notices eid t = map (due (w_me w) args) called
    /\ match r with
       | Err e' => called <> [] /\ exists e, raised eid t = [e] /\ surfaces s e e'
       | _ => uncalled = [] \/ emitted_in s t
       end.
Proof.
  intros U E0 E s w args cn ct w' r HR HO HE HE1 HS Hd Hg Hh Hm Hz.
  destruct (C09_abandons U E0 E s w args cn ct w' r) as (eid & t & cl & un & T & S & N & K & _); auto.
  - lia.
  - pose proof (reachable_leveled E0 s w HR) as HLv. unfold leveled in HLv.
    pose proof (reachable_weaken E0 _ w HR) as HR'.
    destruct (reachable_depth_ok E0 w HR' s) as [_ Hpr]. rewrite Hz in Hpr.
    unfold deepest. rewrite levels_idle; [lia|auto|]. rewrite <- HLv. cbn. lia.
  - exists eid, t, cl, un. split; [exact T|]. split; [exact S|]. split; [exact N|].
    destruct r; [apply K|exact K|apply K].
Qed.
(** Function 1 is called by emit_fast(1) and emits 2; that done, emit(3) calls nobody. *)
Definition C59_env : env unit := demo (fun f a =>
  match f, a with 1, [VInt 1%Z] => calls [emit 0 [VInt 2%Z]] | _, _ => Ret VNone end).
Definition C59_left : world unit := world_of C59_env (all_plain LatestOnly 1) tt 50
  [conn 0 1 0; conn 0 2 0; OEmitFast 0 [VInt 1%Z]].
Theorem C59_refuted : exists (E : env unit) s w w',
  reachable E w /\ env_all (leaves_alone (members_of w) s) E /\ s_mode (w_sg w s) = LatestOnly
  /\ List.length (s_slots (w_sg w s)) = 2 /\ goes_through E s [VInt 3%Z] true false w
  /\ in_progress s (w_tr w) = 0%Z /\ w_hook w = None
  /\ steps E (OEmit s [VInt 3%Z] true false) w w' (Ok VNone)
  /\ w_tr w' = w_tr w ++ [EEmit s [VInt 3%Z] tt; EStart 4 s [VInt 3%Z]; EEnd 4 s].
Proof.
  exists C59_env, 0, C59_left, (after1 C59_env 50 (emit 0 [VInt 3%Z]) C59_left).
  split; [unfold C59_left; reach|]. split.
  { generalize (members_of C59_left). intros m. apply demo_all; intros f a. allp. }
  split; [vm_compute; reflexivity|]. split; [vm_compute; reflexivity|].
  split; [vm_compute; repeat split; auto; discriminate|].
  split; [vm_compute; reflexivity|]. split; [vm_compute; reflexivity|]. split; [ran|]. vm_compute. reflexivity.
Qed.
Definition C59_world := world_of C09_env (all_plain LatestOnly 1) tt 50
  [conn 0 1 0; conn 0 2 0; emit 0 [VInt 1%Z]].
Example C59_case :
  let w' := after1 C09_env 50 (emit 0 [VInt 5%Z]) C59_world in
  reachable_by (no_fast 0) C09_env C59_world /\ in_progress 0 (w_tr C59_world) = 0%Z
  /\ List.length (w_tr C59_world) = 12
  /\ steps C09_env (emit 0 [VInt 5%Z]) C59_world w' (Ok VNone)
  /\ goes_through C09_env 0 [VInt 5%Z] true false C59_world
  /\ notices 4 (w_tr w') = [Called 0 [VInt 5%Z]; Called 1 [VInt 5%Z]].
Proof.
  split.
  - split; [apply demo_all; intros f a; allp|].
    exists (all_plain LatestOnly 1), tt, (calls [conn 0 1 0; conn 0 2 0; emit 0 [VInt 1%Z]]), (Ok VNone).
    split; [auto with demo|]. split; [auto with demo|]. split; [allp|].
    apply after_runs. vm_compute. reflexivity.
  - split; [vm_compute; reflexivity|]. split; [vm_compute; reflexivity|].
    split; [ran|]. vm_compute. repeat split; auto; discriminate.
Qed.
Print Assumptions C59_idle_partial.
Print Assumptions C59_refuted.
