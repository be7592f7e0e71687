(** Blocking, pausing and groups: C15-C20, C24-C26.  Each theorem is followed by a concrete
    case that meets its hypotheses, and by its assumptions. *)

From Verif Require Import Base Core Spec Frame Fuel Demo Conn Keep Trace Inv Dead Rest Quiet Deliver
  Emission Raise Gone Ctl Block Hush Shrink.
Open Scope Z_scope.
Open Scope string_scope.
Open Scope nat_scope.
Open Scope list_scope.

(** * C15 *)

Theorem C15_silent : forall U (E : env U) s args o w w' r,
  s_blocked (w_sg w s) = true ->
  o = OEmitFast s args \/ (exists cn ct, o = OEmit s args cn ct) ->
  steps E o w w' r ->
  r = Ok VNone /\ w' = set_tr (w_tr w ++ [EEmit s args (w_usr w)]) w.
Proof.
  intros U E s args o w w' r Hb [->|(cn & ct & ->)] [n H]; cbn [step] in H.
  - unfold do_emit_fast in H. cbn [log w_sg set_tr] in H. rewrite Hb in H. injection H as <- <-. auto.
  - unfold do_emit in H. cbn [log w_sg set_tr] in H. rewrite Hb in H. injection H as <- <-. auto.
Qed.
(** One callback is connected, the signal is blocked; the wrong number of arguments. *)
Definition C15_env : env unit := demo (fun _ _ => Throw (EUser 1)).
Example C15_case :
  let w := world_of C15_env (all_plain Immediate 1) tt 50 [conn 0 1 0; OBlock 0 []] in
  s_blocked (w_sg w 0) = true /\ List.length (s_slots (w_sg w 0)) = 1
  /\ outcome1 C15_env 9 (emit 0 [VInt 1; VInt 2]) w = Some (Ok VNone)
  /\ outcome1 C15_env 9 (emit 0 [VInt 1]) (unblock 0 w) = Some (Err (EEmitLoop (Some 0) 0 (EUser 1))).
Proof. vm_compute. auto. Qed.
Print Assumptions C15_silent.

(** * C16 *)

Lemma runs_finish : forall {U} (E : env U) p w w' r, runs E p w w' r -> runs E (catch p finish) w w' r.
Proof.
  intros U E p w w' r H. apply runs_catch. exists w', r. split; [exact H|]. destruct r; cbn [finish].
  - now apply runs_ret.
  - now apply runs_throw.
  - auto.
Qed.
Lemma with_blocked_inv : forall {U} (E : env U) s excl p w w' r, runs E (with_blocked s excl p) w w' r ->
  exists w4 r4, runs E p (block s excl w) w4 r4 /\
    match r4 with
    | Halted => w' = w4 /\ r = Halted
    | _ => w' = (if s_blocked (w_sg w s) then w4 else unblock s w4) /\ r = r4
    end.
Proof.
  intros U E s excl p w w' r H. unfold with_blocked in H. apply runs_bind in H as (w1 & r1 & H1 & H).
  apply runs_call, steps_pure in H1; [|reflexivity]. injection H1 as <- <-.
  apply runs_bind in H as (w2 & r2 & H2 & H). apply runs_call, steps_pure in H2; [|reflexivity].
  injection H2 as <- <-. unfold try_finally in H. apply runs_catch in H as (w4 & r4 & H4 & H).
  exists w4, r4. split; [exact H4|].
  assert (HF : forall x, runs E (bind (match s_blocked (w_sg w s) with true => Ret VNone | false => call (OUnblock s) end)
                 (fun _ => finish x)) w4 w' r ->
              w' = (if s_blocked (w_sg w s) then w4 else unblock s w4) /\ r = match x with inl v => Ok v | inr e => Err e end).
  { intros x HX. apply runs_bind in HX as (w5 & r5 & H5 & HX). destruct (s_blocked (w_sg w s)).
    - apply runs_ret in H5 as [-> ->]. destruct x; cbn [finish] in HX; [apply runs_ret in HX|apply runs_throw in HX]; auto.
    - apply runs_call, steps_pure in H5; [|reflexivity]. injection H5 as <- <-.
      destruct x; cbn [finish] in HX; [apply runs_ret in HX|apply runs_throw in HX]; auto. }
  destruct r4; [exact (HF (inl v) H)|exact (HF (inr e) H)|exact H].
Qed.

Theorem C16_restored : forall U (E : env U) s excl p w w' r,
  env_scoped (members_of w) s E -> scoped (members_of w) s p ->
  runs E (with_blocked s excl p) w w' r -> done r ->
  s_blocked (w_sg w' s) = s_blocked (w_sg w s).
Proof.
  intros U E s excl p w w' r HE Hp H Hd. apply runs_finish in H.
  assert (HS : scoped (members_of w) s (catch (with_blocked s excl p) finish)).
  { constructor; [exact Hp|]. intros [v|e]; constructor. }
  destruct (runs_scoped E _ s HE _ _ _ _ HS H) as [_ HF]. now apply HF.
Qed.
Theorem C16_inside : forall U (E : env U) s excl p w w' r,
  env_scoped (members_of w) s E -> scoped (members_of w) s p ->
  runs E p (block s excl w) w' r -> s_blocked (w_sg w' s) = true.
Proof.
  intros U E s excl p w w' r HE Hp H.
  destruct (runs_scoped E _ s HE _ _ _ _ Hp H) as [_ HF]. apply HF; [|apply block_flag].
  intros x. unfold members_of. now rewrite block_members.
Qed.
(** The state seen at any point inside the statement is a state of its body, started after
    block(), and the statement has the result of its body. *)
Theorem C16_body : forall U (E : env U) s excl p w w' r,
  runs E (with_blocked s excl p) w w' r ->
  exists w1, runs E p (block s excl w) w1 r /\ (r = Halted -> w' = w1).
Proof.
  intros U E s excl p w w' r H. apply with_blocked_inv in H as (w4 & r4 & H & HR).
  exists w4. destruct r4; destruct HR as [-> ->]; (split; [exact H|]); auto; discriminate.
Qed.
(** Nested statements, an exception inside, a callback that looks at the flag: function 1,
    called by signal 1 in the body, itself uses [with signal0.blocked()]. *)
Definition C16_env : env unit := demo (fun f _ =>
  match f with 1 => catch (with_blocked 0 [] (calls [emit 0 [VInt 7]])) finish | _ => Ret VNone end).
Definition C16_body_prog : prog unit :=
  catch (with_blocked 0 [] (calls [emit 1 [VInt 1]; emit 0 [VInt 1]])) (fun _ => Throw (EUser 3)).
Example C16_case :
  let w := world_of C16_env (all_plain Immediate 1) tt 50 [conn 0 2 0; conn 1 1 0] in
  let w' := after C16_env 50 (with_blocked 0 [] C16_body_prog) w in
  env_scoped (members_of w) 0 C16_env /\ scoped (members_of w) 0 C16_body_prog
  /\ outcome C16_env 50 (with_blocked 0 [] C16_body_prog) w = Some (Err (EUser 3))
  /\ s_blocked (w_sg w 0) = false /\ s_blocked (w_sg w' 0) = false
  /\ List.length (filter (fun e => match e with ECall _ 1 _ _ => true | _ => false end) (w_tr w')) = 1.
Proof.
  cbv zeta. generalize (members_of (world_of C16_env (all_plain Immediate 1) tt 50 [conn 0 2 0; conn 1 1 0])) as M.
  split.
  { assert (HB : forall f l, scoped M 0 ((fun (f : oid) (_ : list val) =>
        match f with 1 => catch (with_blocked 0 [] (calls (U := unit) [emit 0 [VInt 7]])) finish | _ => Ret VNone end) f l)).
    { intros f l. destruct f as [|[|f]]; cbv beta iota; [constructor|apply sc_with|constructor].
      - unfold calls, call. cbn [bind finish]. constructor; [exact I|]. intros [v|e]; constructor.
      - intros [v|e]; constructor. }
    split; [|intros; constructor]. intros t a w. destruct t; cbn [C16_env demo e_body]; try apply HB; constructor. }
  split.
  { unfold C16_body_prog. constructor; [|intros; constructor]. unfold calls, call. cbn [bind finish].
    constructor; [exact I|]. intros [v|e]; cbn [bind finish]; [constructor; [exact I|]; intros [v2|e2]; constructor|constructor]. }
  vm_compute. auto.
Qed.
Print Assumptions C16_restored.
Print Assumptions C16_inside.
Print Assumptions C16_body.

(** * C17 *)

(** [with group.blocked()] inside [with group.blocked()]: everything was unblocked before,
    and the members stay blocked. *)
Definition C17_env : env unit := demo (fun _ _ => Ret VNone).
Definition C17_prog : prog unit := with_blocked 0 [] (with_blocked 0 [] (Ret VNone)).
Theorem C17_refuted_nested : exists (w w' : world unit),
  reachable C17_env w /\ runs C17_env C17_prog w w' (Ok VNone)
  /\ (forall x, s_blocked (w_sg w x) = false)
  /\ members_of w 0 = [1; 2] /\ s_blocked (w_sg w' 1) = true /\ s_blocked (w_sg w' 2) = true.
Proof.
  exists (init_world (group_of_two Immediate 1) tt), (after C17_env 50 C17_prog (init_world (group_of_two Immediate 1) tt)).
  split; [exists (group_of_two Immediate 1), tt, (Ret VNone), (Ok VNone); split; [auto with demo|]; split; [auto with demo|];
          now apply runs_ret|].
  split; [apply after_runs; vm_compute; reflexivity|]. split; [intros [|x]; reflexivity|]. vm_compute. auto.
Qed.
(** A member that is individually blocked and excluded is unblocked. *)
Theorem C17_refuted_excluded : exists (w w' : world unit),
  reachable C17_env w /\ runs C17_env (with_blocked 0 [inl "a"] (Ret VNone)) w w' (Ok VNone)
  /\ s_members (w_sg w 0) = Some [("a", 1); ("b", 2)]
  /\ s_blocked (w_sg w 0) = false /\ s_blocked (w_sg w 1) = true /\ s_blocked (w_sg w' 1) = false.
Proof.
  exists (world_of C17_env (group_of_two Immediate 1) tt 50 [OBlock 1 []]),
    (after C17_env 50 (with_blocked 0 [inl "a"] (Ret VNone)) (world_of C17_env (group_of_two Immediate 1) tt 50 [OBlock 1 []])).
  split; [reach|]. split; [apply after_runs; vm_compute; reflexivity|]. vm_compute. auto.
Qed.

(** Without nesting, and if no excluded member is blocked: every member is restored, also
    one that was blocked individually, whatever the body and the callbacks do with
    [with member.blocked()] statements. *)
Theorem C17_restored_partial : forall U (E : env U) s excl ms p w w' r,
  s_members (w_sg w s) = Some ms -> NoDup (map fst ms) -> NoDup (map snd ms) -> ~ In s (map snd ms) ->
  s_blocked (w_sg w s) = false ->
  (forall n m, In (n, m) ms -> excluded n m excl = true -> s_blocked (w_sg w m) = false) ->
  (forall m, In m (members_of w s) -> env_scoped (members_of w) m E /\ scoped (members_of w) m p) ->
  runs E (with_blocked s excl p) w w' r -> done r ->
  forall m, In m (members_of w s) -> s_blocked (w_sg w' m) = s_blocked (w_sg w m).
Proof.
  intros U E s excl ms p w w' r Hms N1 N2 Hs Hb Hex Hsc H Hd m Hm.
  assert (HMs : members_of w s = map snd ms) by (unfold members_of; now rewrite Hms).
  apply with_blocked_inv in H as (w4 & r4 & H & HR). rewrite Hb in HR.
  assert (Hd4 : done r4) by (destruct r4; destruct HR; congruence).
  assert (HR' : w' = unblock s w4) by (destruct r4; [apply HR|apply HR|congruence]). clear HR. subst w'.
  assert (HB : block s excl w = fold_left (block_member s excl) ms (upd s (set_blocked true) w))
    by (unfold block; now rewrite Hms).
  destruct (block_fold s excl ms (upd s (set_blocked true) w) N1 N2 Hs) as (_ & _ & B3). rewrite <- HB in B3.
  (* the body *)
  assert (HW : s_wasb (w_sg w4 s) = s_wasb (w_sg (block s excl w) s)).
  { destruct (Hsc m Hm) as [[Se1 Se2] Sp].
    refine (frame_runs E (flag_free s) (fun _ => True) _ _ (framed_wasb E s) _ p _ _ r4 _ H).
    - split; intros; (eapply (scoped_free (members_of w) s m); [exact Hm|intros ->; apply Hs; now rewrite <- HMs|auto]).
    - eapply (scoped_free (members_of w) s m); [exact Hm|intros ->; apply Hs; now rewrite <- HMs|exact Sp]. }
  assert (HMB : forall x, members_of (block s excl w) x = members_of w x)
    by (intros x; unfold members_of; now rewrite block_members).
  assert (HF : forall y, In y (members_of w s) ->
             s_blocked (w_sg w4 y) = s_blocked (w_sg (block s excl w) y)
             /\ s_members (w_sg w4 s) = Some ms).
  { intros y Hy. destruct (Hsc y Hy) as [Se Sp].
    destruct (runs_scoped E (members_of w) y Se _ _ _ _ Sp H) as [F1 F2]. split; [now apply F2|].
    rewrite F1, block_members. exact Hms. }
  destruct (HF m Hm) as [F1 F2].
  assert (HU : unblock s w4 = fold_left (unblock_member s) ms (upd s (set_blocked false) w4))
    by (unfold unblock; now rewrite F2).
  destruct (unblock_fold s ms (upd s (set_blocked false) w4) N1 N2 Hs) as (_ & U2). rewrite <- HU in U2.
  rewrite HMs in Hm. apply in_map_iff in Hm as ([n y] & Hy & Hi). cbn in Hy. subst y.
  rewrite (U2 n m Hi). rewrite upd_same. cbn [s_wasb set_blocked].
  assert (Hne : m <> s). { intros ->. apply Hs. change s with (snd (n, s)). now apply in_map. }
  rewrite (upd_other s) by assumption. rewrite HW, F1. specialize (B3 n m Hi).
  rewrite (upd_other s) in B3 by assumption. destruct (excluded n m excl) eqn:HX.
  - rewrite B3, (Hex n m Hi HX). destruct (assoc_get n _) as [[|]|]; reflexivity.
  - destruct B3 as [-> ->]. destruct (s_blocked (w_sg w m)); reflexivity.
Qed.
(** Member a is blocked individually and stays so; b is excluded; the body blocks b for a while
    and raises. *)
Definition C17_body : prog unit := catch (with_blocked 2 [] (calls [emit 1 [VInt 1]; emit 2 [VInt 1]])) (fun _ => Throw (EUser 4)).
Definition C17_world := world_of C17_env (group_of_two Immediate 1) tt 50 [conn 0 1 0; OBlock 1 []].
Example C17_case :
  let p := with_blocked 0 [inl "b"] C17_body in
  let w' := after C17_env 50 p C17_world in
  s_members (w_sg C17_world 0) = Some [("a", 1); ("b", 2)]
  /\ (forall m, In m (members_of C17_world 0) -> env_scoped (members_of C17_world) m C17_env /\ scoped (members_of C17_world) m C17_body)
  /\ outcome C17_env 50 p C17_world = Some (Err (EUser 4))
  /\ s_blocked (w_sg C17_world 0) = false /\ s_blocked (w_sg C17_world 1) = true /\ s_blocked (w_sg C17_world 2) = false
  /\ s_blocked (w_sg w' 0) = false /\ s_blocked (w_sg w' 1) = true /\ s_blocked (w_sg w' 2) = false.
Proof.
  cbv zeta. split; [vm_compute; reflexivity|]. split; [|vm_compute; auto 10].
  intros m Hm.
  assert (HM : forall x y, In x (members_of C17_world y) -> y = 0).
  { intros x [|[|[|y]]]; [auto|vm_compute; tauto..]. }
  assert (HL : forall x y, x <> y -> x <> 0 -> leaves_flag (U := unit) (members_of C17_world) y (OBlock x [])).
  { intros x y H1 H2. split; [exact H1|]. intros H. now apply HM in H. }
  assert (HL2 : forall x y, x <> y -> x <> 0 -> leaves_flag (U := unit) (members_of C17_world) y (OUnblock x)).
  { intros x y H1 H2. split; [exact H1|]. intros H. now apply HM in H. }
  assert (Hm' : m = 1 \/ m = 2) by (revert Hm; vm_compute; intuition congruence). clear Hm.
  generalize dependent (members_of C17_world). intros M HM HL HL2. split.
  { split; [|intros; constructor]. intros t a w. destruct t; cbn; constructor. }
  destruct Hm' as [->| ->].
  - unfold C17_body, with_blocked, calls, call. cbn [bind catch finish]. constructor; [exact I|].
    intros [v|e]; cbn [bind catch finish]; [|constructor]. constructor; [first [apply HL|apply HL2]; lia|].
    intros [v2|e2]; cbn [bind catch finish]; [|constructor]. unfold try_finally. cbn [bind catch finish].
    constructor; [exact I|].
    assert (HT : forall (a : val) x, scoped M 1
       (catch (bind (match a with VBool true => Ret VNone | _ => Do (OUnblock 2) finish end) (fun _ => finish x))
          (fun _ => Throw (U := unit) (EUser 4)))).
    { assert (HT0 : forall x, scoped M 1 (catch (bind (Do (OUnblock 2) finish) (fun _ => finish x))
          (fun _ => Throw (U := unit) (EUser 4)))).
      { intros x. cbn [bind catch finish]. constructor; [first [apply HL|apply HL2]; lia|].
        intros [v3|e3]; cbn [bind catch finish]; [destruct x; cbn; constructor|constructor]. }
      intros a x. destruct a as [|[|]| | | | | | |]; try apply HT0. cbn. destruct x; constructor. }
    intros [v3|e3]; cbn [bind catch finish]; [|apply (HT v (inr e3))].
    constructor; [exact I|]. intros [v4|e4]; cbn [bind catch finish]; [apply (HT v (inl VNone))|apply (HT v (inr e4))].
  - unfold C17_body. constructor; [|intros; constructor]. unfold calls, call. cbn [bind finish].
    constructor; [exact I|]. intros [v|e]; cbn [bind finish]; [constructor; [exact I|]; intros [v2|e2]; constructor|constructor].
Qed.
Print Assumptions C17_restored_partial.
Print Assumptions C17_refuted_nested.
Print Assumptions C17_refuted_excluded.

(** * C18 *)

(** While paused, an emission is put on the collection; nothing else happens. *)
Theorem C18_paused : forall U (E : env U) s args o w w' r,
  s_blocked (w_sg w s) = false -> s_paused (w_sg w s) = true ->
  o = OEmitFast s args \/ (exists cn ct, o = OEmit s args cn ct
     /\ (cn = true -> bind_ok (s_params (w_sg w s)) (List.length args) = true)
     /\ (ct = true -> types_match E (map (fun a => Param PosOnly false (AClass (e_type E a))) args)
                        (s_params (w_sg w s)) = inl true)) ->
  steps E o w w' r ->
  r = Ok VNone /\ w_tr w' = w_tr w ++ [EEmit s args (w_usr w)] /\ w_usr w' = w_usr w
  /\ w_sg w' s = set_args (s_args (w_sg w s) ++ [args]) (w_sg w s)
  /\ (forall x, x <> s -> w_sg w' x = w_sg w x).
Proof.
  intros U E s args o w w' r Hb Hp Ho [n H].
  assert (HX : w' = upd s (fun st => set_args (s_args st ++ [args]) st) (log (EEmit s args (w_usr w)) w) /\ r = Ok VNone).
  { destruct Ho as [->|(cn & ct & -> & H1 & H2)]; cbn [step] in H.
    - unfold do_emit_fast in H. cbn [log w_sg set_tr] in H. rewrite Hb, Hp in H. injection H as <- <-. auto.
    - unfold do_emit in H. cbn [log w_sg set_tr] in H. rewrite Hb, Hp in H.
      assert (Hc : cn && negb (bind_ok (s_params (w_sg w s)) (List.length args)) = false).
      { destruct cn; [rewrite (H1 eq_refl)|]; reflexivity. }
      rewrite Hc in H.
      assert (Ht : (if ct then types_match E (map (fun a => Param PosOnly false (AClass (e_type E a))) args)
                         (s_params (w_sg w s)) else inl true) = inl true).
      { destruct ct; [apply H2|]; reflexivity. }
      rewrite Ht in H. injection H as <- <-. auto. }
  destruct HX as [-> ->]. split; [reflexivity|]. split; [reflexivity|]. split; [reflexivity|].
  split; [now rewrite upd_same|]. intros x Hx. now rewrite upd_other.
Qed.
(** Nothing collected: resume() only ends the pause. *)
Theorem C18_nothing : forall U (E : env U) s rd w w' r,
  s_args (w_sg w s) = [] -> steps E (OResume s rd) w w' r ->
  r = Ok VNone /\ w_tr w' = w_tr w /\ w_sg w' s = set_paused false (w_sg w s)
  /\ (forall x, x <> s -> w_sg w' x = w_sg w x).
Proof.
  intros U E s rd w w' r Ha [n H]. cbn [step] in H. unfold do_resume in H. rewrite upd_same in H.
  cbn [s_args set_paused] in H. rewrite Ha in H. injection H as <- <-. split; [reflexivity|].
  split; [reflexivity|]. split; [now rewrite upd_same|]. intros x Hx. now rewrite upd_other.
Qed.
(** Nobody listens: what was collected is dropped. *)
Theorem C18_no_slots : forall U (E : env U) s rd w w' r,
  s_slots (w_sg w s) = [] -> steps E (OResume s rd) w w' r ->
  r = Ok VNone /\ w_tr w' = w_tr w /\ w_sg w' s = set_args [] (set_paused false (w_sg w s))
  /\ (forall x, x <> s -> w_sg w' x = w_sg w x).
Proof.
  intros U E s rd w w' r Ha [n H]. cbn [step] in H. unfold do_resume in H. rewrite upd_same in H.
  cbn [s_args set_paused s_slots] in H. rewrite Ha in H. destruct (s_args (w_sg w s)) eqn:HA.
  - injection H as <- <-. split; [reflexivity|]. split; [reflexivity|]. split.
    + rewrite upd_same. destruct (w_sg w s). cbn in *. subst. reflexivity.
    + intros x Hx. now rewrite upd_other.
  - injection H as <- <-. split; [reflexivity|]. split; [reflexivity|]. split; [now rewrite !upd_same|].
    intros x Hx. now rewrite !upd_other.
Qed.

Lemma reduce_reduces : forall f l acc a, reduce_args f acc l = inl a -> reduces f acc l a.
Proof.
  induction l as [|x l IH]; intros acc a H; cbn [reduce_args] in H; [injection H as ->; constructor|].
  destruct (f acc x) as [b|e] eqn:Hf; [|discriminate]. econstructor; [exact Hf|now apply IH].
Qed.

(** The situation in which the theorems about resume() apply: [s] is a plain signal that is not
    being emitted. *)
Lemma resume_still : forall U (E0 E : env U) s w,
  reachable E0 w -> same_objects E0 E -> s_members (w_sg w s) = None -> in_progress s (w_tr w) = 0%Z ->
  (s_mode (w_sg w s) = LatestOnly -> reachable_by (no_fast s) E0 w) ->
  still E (members_of w) s (upd s (set_paused false) w).
Proof.
  intros U E0 E s w HR HO Hm H0 HL.
  assert (HD : s_depth (w_sg w s) = 0) by (destruct (reachable_depth_ok E0 w HR s) as [_ Hp]; rewrite H0 in Hp; lia).
  assert (HC : conn_same w (upd s (set_paused false) w)) by (apply conn_same_upd; reflexivity).
  constructor; try (rewrite upd_same; cbn).
  - constructor.
    + intros x. unfold members_of. now rewrite (proj2 (proj2 (proj1 HC x))).
    + intros p Hp; discriminate.
    + eapply live_same; [exact HC|]. eapply live_objects; [exact HO|]. now apply reachable_live.
  - exact Hm.
  - apply (reachable_eq_ok E0 w HR). now right.
  - exact HD.
  - intros HM. now apply (reachable_calm E0 s w (HL HM)).
  - reflexivity.
Qed.

Lemma resume_ok : forall U (E : env U) M s rd w w' v,
  (forall x m, In m (M x) -> M m = []) -> env_all (untouched M s) E ->
  still E M s (upd s (set_paused false) w) ->
  s_slots (w_sg w s) <> [] -> s_args (w_sg w s) <> [] ->
  steps E (OResume s rd) w w' (Ok v) ->
  s_paused (w_sg w' s) = false /\ s_args (w_sg w' s) = [] /\ s_slots (w_sg w' s) = s_slots (w_sg w s)
  /\ exists t, w_tr w' = w_tr w ++ t /\
     match rd with
     | RNone => emissions s (w_me w) (s_slots (w_sg w s)) (s_args (w_sg w s)) t
     | _ => exists a, reduced rd (s_args (w_sg w s)) a /\ emission s (w_me w) (s_slots (w_sg w s)) a t
     end.
Proof.
  intros U E M s rd w w' v HF HE HS Hsl Hargs [n H].
  cbn [step] in H. unfold do_resume in H. rewrite upd_same in H. cbn [s_args set_paused s_slots] in H.
  destruct (s_args (w_sg w s)) as [|a0 q0] eqn:HA; [congruence|]. rewrite <- HA in *.
  destruct (s_slots (w_sg w s)) as [|c0 l0] eqn:HSl; [congruence|]. rewrite <- HSl in *. clear Hsl Hargs.
  set (w1 := upd s (set_paused false) w) in *.
  assert (HW1 : s_slots (w_sg w1 s) = s_slots (w_sg w s) /\ s_args (w_sg w1 s) = s_args (w_sg w s))
    by (unfold w1; rewrite upd_same; split; reflexivity).
  destruct HW1 as [HW1 HW2].
  assert (HONE : forall a w2 v2, run_emit_loop (exec E n) E n s a w1 = Some (w2, Ok v2) ->
     s_paused (w_sg w2 s) = false /\ s_slots (w_sg w2 s) = s_slots (w_sg w s)
     /\ exists t, w_tr w2 = w_tr w ++ t /\ emission s (w_me w) (s_slots (w_sg w s)) a t).
  { intros a w2 v2 HX.
    destruct (loop_one E M s HF HE _ _ _ _ _ _ HX) as (K1 & K2 & _ & _ & eid & t & cl & un & T & KS & KN & -> & KR);
      [discriminate|exact HS|].
    split; [apply (sl_run _ _ _ _ K1)|]. split; [congruence|].
    exists (EStart eid s a :: t ++ [EEnd eid s]). split; [exact T|]. exists eid, t. split; [reflexivity|].
    rewrite app_nil_r in KS. rewrite HW1 in KS. rewrite KS. auto. }
  assert (HTWO : forall b, match b with Some (w2, Ok _) => Some (upd s (set_args []) w2, Ok VNone) | r => r end = Some (w', Ok v) ->
     exists w2 v2, b = Some (w2, Ok v2) /\ w' = upd s (set_args []) w2).
  { intros [[w2 [v2|e|]]|] HX; try discriminate. injection HX as <- _. eauto. }
  destruct rd as [|f|f i].
  - apply HTWO in H as (w2 & v2 & HX & ->).
    destruct (replay_all E M s HF HE _ _ _ _ _ _ HX) as (K1 & K2 & _ & _ & t & T & KE); [discriminate|exact HS|].
    rewrite upd_same. cbn [s_paused set_args s_args s_slots]. split; [apply (sl_run _ _ _ _ K1)|].
    split; [reflexivity|]. split; [congruence|]. exists t. split; [exact T|].
    rewrite HW1, HW2 in KE. exact KE.
  - destruct (f (s_args (w_sg w s))) as [a|e] eqn:Hf; [|discriminate].
    apply HTWO in H as (w2 & v2 & HX & ->). destruct (HONE _ _ _ HX) as (K1 & K2 & t & T & KE).
    rewrite upd_same. cbn [s_paused set_args s_args s_slots]. split; [exact K1|]. split; [reflexivity|].
    split; [exact K2|]. exists t. split; [exact T|]. exists a. split; [exact Hf|exact KE].
  - destruct (apply_reducer f i (s_args (w_sg w s))) as [a|e] eqn:Hf; [|discriminate].
    apply HTWO in H as (w2 & v2 & HX & ->). destruct (HONE _ _ _ HX) as (K1 & K2 & t & T & KE).
    rewrite upd_same. cbn [s_paused set_args s_args s_slots]. split; [exact K1|]. split; [reflexivity|].
    split; [exact K2|]. exists t. split; [exact T|]. exists a. split; [|exact KE].
    unfold apply_reducer in Hf. unfold reduced.
    destruct i as [x|]; [now apply reduce_reduces|]. rewrite HA in *. now apply reduce_reduces.
Qed.

Theorem C18_resume : forall U (E0 E : env U) s rd w w' v,
  reachable E0 w -> same_objects E0 E -> env_all (untouched (members_of w) s) E ->
  s_members (w_sg w s) = None -> in_progress s (w_tr w) = 0%Z ->
  (s_mode (w_sg w s) = LatestOnly -> reachable_by (no_fast s) E0 w) ->
  s_slots (w_sg w s) <> [] -> s_args (w_sg w s) <> [] ->
  steps E (OResume s rd) w w' (Ok v) ->
  s_paused (w_sg w' s) = false /\ s_args (w_sg w' s) = [] /\ s_slots (w_sg w' s) = s_slots (w_sg w s)
  /\ exists t, w_tr w' = w_tr w ++ t /\
     match rd with
     | RNone => emissions s (w_me w) (s_slots (w_sg w s)) (s_args (w_sg w s)) t
     | _ => exists a, reduced rd (s_args (w_sg w s)) a /\ emission s (w_me w) (s_slots (w_sg w s)) a t
     end.
Proof.
  intros U E0 E s rd w w' v HR HO HE Hm H0 HL Hsl Hargs H.
  apply (resume_ok U E (members_of w) s rd w w' v); auto.
  - exact (flat_members w (reachable_flat E0 w HR)).
  - exact (resume_still U E0 E s w HR HO Hm H0 HL).
Qed.

(** [with s.paused(): s.emit(a1); s.emit(a2); ...] emits a1, a2, ... once each after the block. *)
Lemma paused_calls : forall U (E : env U) s l w w' r,
  s_blocked (w_sg w s) = false -> s_paused (w_sg w s) = true ->
  Forall (fun a => bind_ok (s_params (w_sg w s)) (List.length a) = true) l ->
  runs E (calls (map (emit s) l)) w w' r ->
  r = Ok VNone /\ w_sg w' s = set_args (s_args (w_sg w s) ++ l) (w_sg w s)
  /\ (forall x, x <> s -> w_sg w' x = w_sg w x)
  /\ w' = set_sg (w_sg w') (set_tr (w_tr w ++ map (fun a => EEmit s a (w_usr w)) l) w).
Proof.
  intros U E s l. induction l as [|a l IH]; intros w w' r Hb Hp Hl H; cbn [map calls] in H.
  - apply runs_ret in H as [-> ->]. split; [reflexivity|]. cbn [map]. rewrite !app_nil_r. split; [now destruct (w_sg w s)|].
    split; [auto|]. now destruct w.
  - inversion Hl as [|? ? Ha Hl']; subst. apply runs_bind in H as (w1 & r1 & H1 & H). apply runs_call in H1.
    assert (HX : w1 = upd s (fun st => set_args (s_args st ++ [a]) st) (log (EEmit s a (w_usr w)) w) /\ r1 = Ok VNone).
    { destruct H1 as [n H1]. unfold emit in H1. cbn [step] in H1. unfold do_emit in H1. cbn [log w_sg set_tr] in H1.
      rewrite Hb, Hp, Ha in H1. cbn [andb negb] in H1. injection H1 as <- <-. auto. }
    destruct HX as [HX ->].
    assert (Hsg : w_sg w1 s = set_args (s_args (w_sg w s) ++ [a]) (w_sg w s)) by (rewrite HX, upd_same; reflexivity).
    destruct (IH w1 w' r) as (I1 & I2 & I3 & I4); auto; try (rewrite Hsg; assumption).
    split; [exact I1|]. split; [|split].
    + rewrite I2, Hsg. cbn [s_args set_args]. rewrite <- app_assoc. now destruct (w_sg w s).
    + intros x Hx. rewrite I3 by assumption. rewrite HX. now rewrite upd_other.
    + rewrite I4. rewrite HX. unfold upd, log, set_sg, set_tr. cbn. rewrite <- app_assoc. reflexivity.
Qed.
Theorem C18_with : forall U (E0 E : env U) s rd l w w' v,
  reachable E0 w -> same_objects E0 E -> env_all (untouched (members_of w) s) E ->
  s_members (w_sg w s) = None -> in_progress s (w_tr w) = 0%Z ->
  (s_mode (w_sg w s) = LatestOnly -> reachable_by (no_fast s) E0 w) ->
  s_blocked (w_sg w s) = false -> s_paused (w_sg w s) = false -> s_args (w_sg w s) = [] ->
  s_slots (w_sg w s) <> [] -> l <> [] ->
  Forall (fun a => bind_ok (s_params (w_sg w s)) (List.length a) = true) l ->
  runs E (with_paused s rd (calls (map (emit s) l))) w w' (Ok v) ->
  s_paused (w_sg w' s) = false /\ s_args (w_sg w' s) = []
  /\ exists t, w_tr w' = w_tr w ++ map (fun a => EEmit s a (w_usr w)) l ++ t /\
     match rd with
     | RNone => emissions s (w_me w) (s_slots (w_sg w s)) l t
     | _ => exists a, reduced rd l a /\ emission s (w_me w) (s_slots (w_sg w s)) a t
     end.
Proof.
  intros U E0 E s rd l w w' v HR HO HE Hm H0 HL Hb Hp Ha Hsl Hl Hok H. unfold with_paused in H.
  apply runs_bind in H as (w1 & r1 & H1 & H). apply runs_call, steps_pure in H1; [|reflexivity].
  injection H1 as <- <-. rewrite Hp in H.
  apply runs_bind in H as (w2 & r2 & H2 & H). apply runs_call, steps_pure in H2; [|reflexivity].
  injection H2 as <- <-. unfold try_finally in H. apply runs_catch in H as (w3 & r3 & H3 & H).
  set (wp := upd s (set_paused true) w) in *.
  assert (HP : w_sg wp s = set_paused true (w_sg w s)) by (unfold wp; now rewrite upd_same).
  destruct (paused_calls U E s l wp w3 r3) as (-> & C1 & C2 & C3); auto; try (rewrite HP; assumption || reflexivity).
  apply runs_bind in H as (w4 & r4 & H4 & H). apply runs_call in H4.
  assert (Hr4 : w4 = w' /\ exists v4, r4 = Ok v4).
  { destruct r4 as [v4|e4|]; [apply runs_ret in H as [-> _]; eauto|destruct H as [_ H]; discriminate|destruct H as [_ H]; discriminate]. }
  destruct Hr4 as [-> (v4 & ->)]. clear H.
  rewrite HP in C1. cbn [s_args set_paused] in C1. rewrite Ha in C1. cbn [app] in C1.
  assert (HC2 : forall x, x <> s -> w_sg w3 x = w_sg w x).
  { intros x Hx. rewrite C2 by assumption. unfold wp. now rewrite upd_other. }
  assert (HC : conn_same w (upd s (set_paused false) w3)).
  { eapply conn_same_trans with (b := w3); [|apply conn_same_upd; reflexivity].
    split; [|rewrite C3; auto].
    intros x. destruct (Nat.eq_dec x s) as [->|Hne]; [rewrite C1; auto|rewrite HC2 by assumption; auto]. }
  assert (HT : w_tr w3 = w_tr w ++ map (fun a => EEmit s a (w_usr w)) l) by (rewrite C3; reflexivity).
  assert (HM3 : w_me w3 = w_me w) by (rewrite C3; reflexivity).
  destruct (resume_still U E0 E s w HR HO Hm H0 HL) as [G1 G2 G3 G4 G5 G6].
  rewrite upd_same in *. cbn in G2, G3, G4, G5.
  destruct (resume_ok U E (members_of w) s rd w3 w' v4) as (R1 & R2 & R3 & t & R4 & R5); auto.
  - exact (flat_members w (reachable_flat E0 w HR)).
  - constructor; try (rewrite upd_same, C1; cbn; assumption || reflexivity).
    constructor.
    + intros x. unfold members_of. now rewrite (proj2 (proj2 (proj1 HC x))).
    + intros p Hpp; discriminate.
    + eapply live_same; [exact HC|]. eapply live_objects; [exact HO|]. now apply reachable_live.
  - rewrite C1. exact Hsl.
  - rewrite C1. cbn. exact Hl.
  - split; [exact R1|]. split; [exact R2|]. exists t. rewrite R4, HT, <- app_assoc. split; [reflexivity|].
    rewrite C1, HM3 in R5. exact R5.
Qed.
(** Queued mode, two callbacks, the first of which emits another signal; the pause begins with an
    emission that was collected earlier. *)
Definition C18_env : env unit := demo (fun f a =>
  match f, a with 1, v :: _ => calls [emit 5 [v]] | _, _ => Ret VNone end).
Definition C18_sum : reducer := RTwo (fun a b =>
  match a, b with [VInt x], [VInt y] => inl [VInt (x + y)] | _, _ => inr EType end) None.
Definition C18_world := world_of C18_env (all_plain Queued 1) tt 50 [conn 0 1 0; conn 0 2 3; conn 5 3 0].
Definition C18_paused_world := world_of C18_env (all_plain Queued 1) tt 50
  [conn 0 1 0; conn 0 2 3; conn 5 3 0; OPause 0; emit 0 [VInt 1]; emit 0 [VInt 2]; emit 0 [VInt 4]].
Example C18_case :
  reachable C18_env C18_paused_world /\ env_all (untouched (members_of C18_paused_world) 0) C18_env
  /\ s_members (w_sg C18_paused_world 0) = None /\ s_paused (w_sg C18_paused_world 0) = true
  /\ s_args (w_sg C18_paused_world 0) = [[VInt 1]; [VInt 2]; [VInt 4]]
  /\ in_progress 0 (w_tr C18_paused_world) = 0%Z /\ s_mode (w_sg C18_paused_world 0) = Queued
  /\ steps C18_env (OResume 0 RNone) C18_paused_world (after1 C18_env 50 (OResume 0 RNone) C18_paused_world) (Ok VNone)
  /\ filter (fun e => match e with ECall _ 0 1 _ => true | _ => false end)
       (w_tr (after1 C18_env 50 (OResume 0 RNone) C18_paused_world))
     = [ECall 3 0 1 [VInt 1]; ECall 5 0 1 [VInt 2]; ECall 7 0 1 [VInt 4]]
  /\ steps C18_env (OResume 0 C18_sum) C18_paused_world (after1 C18_env 50 (OResume 0 C18_sum) C18_paused_world) (Ok VNone)
  /\ filter (fun e => match e with ECall _ 0 1 _ => true | _ => false end)
       (w_tr (after1 C18_env 50 (OResume 0 C18_sum) C18_paused_world))
     = [ECall 3 0 1 [VInt 7]]
  /\ outcome C18_env 50 (with_paused 0 RNone (calls (map (emit 0) [[VInt 1]; [VInt 2]]))) C18_world = Some (Ok VNone)
  /\ outcome1 C18_env 5 (emit 0 [VInt 9]) C18_paused_world = Some (Ok VNone).
Proof.
  split; [reach|]. split; [generalize (members_of C18_paused_world); intros M; apply demo_all; intros f a; allp; repeat split; cbn; auto; discriminate|].
  do 5 (split; [vm_compute; reflexivity|]). split; [ran|]. split; [vm_compute; reflexivity|]. split; [ran|].
  vm_compute. auto.
Qed.
Print Assumptions C18_paused.
Print Assumptions C18_nothing.
Print Assumptions C18_no_slots.
Print Assumptions C18_resume.
Print Assumptions C18_with.

(** * C19 *)

(** Emitted once each while paused: 1 and 2.  The callback raises on 2; resume() raises.  A second
    resume() delivers 1 again. *)
Definition C19_env : env unit := demo (fun _ a => match a with [VInt 2] => Throw (EUser 1) | _ => Ret VNone end).
Definition C19_world := world_of C19_env (all_plain Immediate 1) tt 50
  [conn 0 1 0; OPause 0; emit 0 [VInt 1]; emit 0 [VInt 2]].
Theorem C19_refuted : exists (w1 w2 : world unit) e1 e2,
  reachable C19_env C19_world
  /\ steps C19_env (OResume 0 RNone) C19_world w1 (Err e1)
  /\ steps C19_env (OResume 0 RNone) w1 w2 (Err e2)
  /\ filter (fun e => match e with EEmit _ [VInt 1] _ => true | _ => false end) (w_tr w2) = [EEmit 0 [VInt 1] tt]
  /\ filter (fun e => match e with ECall _ _ _ [VInt 1] => true | _ => false end) (w_tr w2)
     = [ECall 1 0 0 [VInt 1]; ECall 3 0 0 [VInt 1]].
Proof.
  set (w1 := after1 C19_env 50 (OResume 0 RNone) C19_world).
  exists w1, (after1 C19_env 50 (OResume 0 RNone) w1), (EEmitLoop (Some 0) 0 (EUser 1)), (EEmitLoop (Some 0) 0 (EUser 1)).
  split; [reach|]. split; [ran|]. split; [ran|]. vm_compute. auto.
Qed.
(** One resume() that fails: the collected emissions before the failing one were delivered once
    each, the failing one to the callbacks up to the raising one, the rest not at all; and the whole
    collection is kept. *)
Theorem C19_single_partial : forall U (E0 E : env U) s w w' e',
  reachable E0 w -> same_objects E0 E -> env_all (untouched (members_of w) s) E ->
  s_members (w_sg w s) = None -> in_progress s (w_tr w) = 0%Z ->
  (s_mode (w_sg w s) = LatestOnly -> reachable_by (no_fast s) E0 w) ->
  steps E (OResume s RNone) w w' (Err e') ->
  s_args (w_sg w' s) = s_args (w_sg w s) /\ s_paused (w_sg w' s) = false
  /\ exists full a more t1 eid t called uncalled,
       s_args (w_sg w s) = full ++ a :: more
       /\ w_tr w' = w_tr w ++ t1 ++ EStart eid s a :: t ++ [EEnd eid s]
       /\ emissions s (w_me w) (s_slots (w_sg w s)) full t1
       /\ s_slots (w_sg w s) = called ++ uncalled
       /\ notices eid t = map (due (w_me w) a) called
       /\ exists e, raised eid t = [e] /\ surfaces s e e'.
Proof.
  intros U E0 E s w w' e' HR HO HE Hm H0 HL [n H].
  pose proof (resume_still U E0 E s w HR HO Hm H0 HL) as HS.
  cbn [step] in H. unfold do_resume in H. rewrite upd_same in H. cbn [s_args set_paused s_slots] in H.
  destruct (s_args (w_sg w s)) as [|a0 q0] eqn:HA; [discriminate|]. rewrite <- HA in *.
  destruct (s_slots (w_sg w s)) as [|c0 l0] eqn:HSl; [discriminate|]. rewrite <- HSl in *.
  destruct (replay (exec E n) E n s 0 (upd s (set_paused false) w)) as [[w2 [v2|e2|]]|] eqn:HX; try discriminate.
  injection H as -> ->.
  destruct (replay_all E (members_of w) s (flat_members w (reachable_flat E0 w HR)) HE _ _ _ _ _ _ HX)
    as (K1 & K2 & K3 & K4 & full & a & more & t1 & eid & t & cl & un & B1 & B2 & B3 & B4 & B5 & B6 & B7);
    [discriminate|exact HS|].
  assert (HW : s_slots (w_sg (upd s (set_paused false) w) s) = s_slots (w_sg w s)
               /\ s_args (w_sg (upd s (set_paused false) w) s) = s_args (w_sg w s))
    by (rewrite upd_same; split; reflexivity).
  destruct HW as [HW1 HW2]. rewrite HW1 in *. rewrite HW2 in *.
  split; [exact K4|]. split; [apply (sl_run _ _ _ _ K1)|].
  exists full, a, more, t1, eid, t, cl, un. cbn [skipn] in B1. repeat (split; [assumption|]). exact B7.
Qed.
Example C19_case :
  env_all (untouched (members_of C19_world) 0) C19_env /\ in_progress 0 (w_tr C19_world) = 0%Z
  /\ s_args (w_sg C19_world 0) = [[VInt 1]; [VInt 2]] /\ s_mode (w_sg C19_world 0) = Immediate
  /\ outcome1 C19_env 50 (OResume 0 RNone) C19_world = Some (Err (EEmitLoop (Some 0) 0 (EUser 1))).
Proof. split; [generalize (members_of C19_world); intros M; apply demo_all; intros f a; allp; repeat split; cbn; auto; discriminate|]. vm_compute. auto. Qed.
Print Assumptions C19_refuted.
Print Assumptions C19_single_partial.

(** * C20 *)

(** Paused, emitted, then blocked: resume() calls the callback although the signal is blocked. *)
Definition C20_world := world_of C17_env (all_plain Immediate 1) tt 50
  [conn 0 1 0; OPause 0; emit 0 [VInt 1]; OBlock 0 []].
Theorem C20_refuted : exists w' : world unit,
  reachable C17_env C20_world /\ s_blocked (w_sg C20_world 0) = true
  /\ steps C17_env (OResume 0 RNone) C20_world w' (Ok VNone)
  /\ s_blocked (w_sg w' 0) = true /\ In (ECall 1 0 0 [VInt 1]) (w_tr w') /\ ~ In (ECall 1 0 0 [VInt 1]) (w_tr C20_world).
Proof.
  exists (after1 C17_env 50 (OResume 0 RNone) C20_world). split; [reach|]. split; [reflexivity|]. split; [ran|].
  vm_compute. intuition discriminate.
Qed.
Print Assumptions C20_refuted.

(** * C24 *)

(** A callback is connected to the group; member a drops its own connections; the group's callback
    hears nothing of an emission of a. *)
Definition C24_world := world_of C17_env (group_of_two Immediate 1) tt 50 [conn 0 1 0; conn 1 2 0].
Theorem C24_refuted : exists (w1 w2 : world unit) eid,
  reachable C17_env C24_world
  /\ steps C17_env (ODisconnect 1 None true) C24_world w1 (Ok VNone)
  /\ s_slots (w_sg w1 0) = s_slots (w_sg C24_world 0) /\ s_slots (w_sg w1 0) <> []
  /\ steps C17_env (emit 1 [VInt 1]) w1 w2 (Ok VNone)
  /\ w_tr w2 = w_tr w1 ++ [EEmit 1 [VInt 1] tt; EStart eid 1 [VInt 1]; EEnd eid 1].
Proof.
  set (w1 := after1 C17_env 50 (ODisconnect 1 None true) C24_world).
  exists w1, (after1 C17_env 50 (emit 1 [VInt 1]) w1), 4. split; [reach|]. split; [ran|].
  split; [reflexivity|]. split; [discriminate|]. split; [ran|]. vm_compute. reflexivity.
Qed.
(** Disconnecting one given callback does not do that. *)
Theorem C24_one_slot_partial : forall U (E : env U) m c mo w w' r,
  s_members (w_sg w m) = None -> (forall g, callable_base c <> BRelay g) ->
  steps E (ODisconnect m (Some (RCallable c)) mo) w w' r ->
  filter internal (s_slots (w_sg w' m)) = filter internal (s_slots (w_sg w m))
  /\ forall x, x <> m -> s_slots (w_sg w' x) = s_slots (w_sg w x).
Proof.
  intros U E m c mo w w' r Hm Hc H. apply steps_pure in H; [|reflexivity]. injection H as H.
  unfold disconnect in H. rewrite Hm in H. unfold disconnect_base in H. cbn [key_of_ref] in H.
  destruct (key_of E c) as [k|e] eqn:Hk; [|injection H as <- _; auto]. unfold remove_key in H.
  destruct (remove_first k (s_slots (w_sg w m))) as [l|] eqn:HR; [|injection H as <- _; auto].
  assert (HW : after_remove m (upd m (set_slots l) w) = upd m (set_slots l) w).
  { unfold after_remove. rewrite upd_same. cbn [s_members set_slots]. now rewrite Hm. }
  rewrite HW in H. injection H as <- _. split; [|intros x Hx; now rewrite upd_other].
  rewrite upd_same. cbn [s_slots set_slots]. apply remove_first_spec in HR as (a & x & b & -> & -> & Hx & _).
  rewrite !filter_app. cbn [filter].
  assert (HI : internal x = false).
  { unfold internal. rewrite Hx. unfold key_of in Hk. destruct (weak_callback E c None RefIgnore 0%Z 0) as [y|e] eqn:HWk; [|discriminate].
    injection Hk as <-.
    destruct (w_key y) eqn:HY; auto. exfalso.
    unfold weak_callback, weak_setattr, weak_setitem in HWk. destruct (callable_base c) eqn:HB;
      try (eapply Hc; reflexivity);
      repeat (match type of HWk with context [match ?z with _ => _ end] => destruct z end; try discriminate HWk);
      try discriminate HWk; injection HWk as <-; discriminate HY. }
  now rewrite HI.
Qed.
Example C24_case :
  s_members (w_sg C24_world 1) = None
  /\ List.length (s_slots (w_sg C24_world 1)) = 2 /\ List.length (filter internal (s_slots (w_sg C24_world 1))) = 1
  /\ outcome1 C17_env 5 (ODisconnect 1 (Some (RCallable (fn 2))) false) C24_world = Some (Ok VNone).
Proof. vm_compute. auto. Qed.
Print Assumptions C24_refuted.
Print Assumptions C24_one_slot_partial.

(** * C25 *)

(** The group is paused; an emission of member a calls the group's callback at once. *)
Definition C25_world := world_of C17_env (group_of_two Immediate 1) tt 50 [conn 0 1 0; OPause 0].
Theorem C25_refuted : exists (w' : world unit) eid u,
  reachable C17_env C25_world /\ s_paused (w_sg C25_world 0) = true
  /\ map w_uid (s_slots (w_sg C25_world 0)) = [u]
  /\ steps C17_env (emit 1 [VInt 1]) C25_world w' (Ok VNone)
  /\ s_paused (w_sg w' 0) = true
  /\ In (ECall eid 0 u [VInfo 1 [VInt 1]]) (w_tr w') /\ w_tr C25_world = [].
Proof.
  exists (after1 C17_env 50 (emit 1 [VInt 1]) C25_world), 4, 0. split; [reach|]. split; [reflexivity|].
  split; [reflexivity|]. split; [ran|]. vm_compute. intuition auto.
Qed.
Print Assumptions C25_refuted.

(** * C26 *)

Definition C26_world := world_of C17_env (group_of_two Immediate 1) tt 50 [conn 0 1 0].
Theorem C26_refuted : exists (w' : world unit) x,
  reachable C17_env C26_world
  /\ s_slots (w_sg C26_world 0) = [x] /\ key_of C17_env (fn 1) = inl (w_key x)
  /\ steps C17_env (ODisconnect 0 (Some (RCallable (fn 1))) false) C26_world w' (Err EValue)
  /\ s_slots (w_sg w' 0) = [x].
Proof.
  exists (after1 C17_env 5 (ODisconnect 0 (Some (RCallable (fn 1))) false) C26_world),
    (Wcb 0 (KFunc 1) (TFun 1 [] []) None 0%Z None None).
  split; [reach|]. split; [vm_compute; reflexivity|]. split; [reflexivity|]. split; [ran|]. vm_compute. reflexivity.
Qed.
Lemma each_missing_ok : forall U (E : env U) k r ms (w w' : world U) o,
  key_of_ref E r = inl k -> disconnect_each E ms (Some r) true w = (w', o) -> o = Ok VNone.
Proof.
  induction ms as [|[n m] ms IH]; intros w w' o Hk H; cbn [disconnect_each] in H; [now injection H as _ <-|].
  unfold disconnect_base at 1 in H. rewrite Hk in H. destruct (remove_key m k w); eapply IH; eauto.
Qed.
Lemma each_other : forall U (E : env U) r mo ms s (w w' : world U) o,
  (forall x, In x (map snd ms) -> s_members (w_sg w x) = None) -> ~ In s (map snd ms) ->
  disconnect_each E ms (Some r) mo w = (w', o) ->
  w_sg w' s = w_sg w s.
Proof.
  induction ms as [|[n m] ms IH]; intros s w w' o Hf Hs H; cbn [disconnect_each] in H; [now injection H as <- _|].
  cbn [map snd In] in Hs.
  assert (H1 : exists w1 o1, disconnect_base E m (Some r) mo w = (w1, o1) /\ (forall x, x <> m -> w_sg w1 x = w_sg w x)
                 /\ s_members (w_sg w1 m) = None).
  { unfold disconnect_base. destruct (key_of_ref E r) as [k|e]; [|do 2 eexists; split; [reflexivity|]; split; [auto|]; apply Hf; now left].
    unfold remove_key. destruct (remove_first k (s_slots (w_sg w m))) as [l|];
      [|do 2 eexists; split; [reflexivity|]; split; [auto|]; apply Hf; now left].
    assert (Hm : s_members (w_sg w m) = None) by (apply Hf; now left).
    assert (HW : after_remove m (upd m (set_slots l) w) = upd m (set_slots l) w).
    { unfold after_remove. rewrite upd_same. cbn [s_members set_slots]. now rewrite Hm. }
    rewrite HW. do 2 eexists. split; [reflexivity|]. split; [intros x Hx; now rewrite upd_other|].
    rewrite upd_same. exact Hm. }
  destruct H1 as (w1 & o1 & H1 & H2 & H3). rewrite H1 in H. destruct o1.
  - rewrite (IH s w1 w' o); [apply H2; intros ->; tauto| |tauto|exact H].
    intros x Hx. destruct (Nat.eq_dec x m) as [->|]; [exact H3|]. rewrite H2 by assumption. apply Hf. now right.
  - injection H as <- _. apply H2. intros ->; tauto.
  - injection H as <- _. apply H2. intros ->; tauto.
Qed.
(** With missing_ok=True (the default) it works: the first such callback of the group is taken
    out and nothing is raised. *)
Theorem C26_missing_ok_partial : forall U (E0 E : env U) s c k w w' r,
  reachable E0 w -> s_members (w_sg w s) <> None -> key_of E c = inl k ->
  steps E (ODisconnect s (Some (RCallable c)) true) w w' r ->
  r = Ok VNone /\
  ((exists x pre post, s_slots (w_sg w s) = pre ++ x :: post /\ s_slots (w_sg w' s) = pre ++ post
     /\ w_key x = k /\ (forall y, In y pre -> w_key y <> k))
   \/ ((forall y, In y (s_slots (w_sg w s)) -> w_key y <> k) /\ s_slots (w_sg w' s) = s_slots (w_sg w s))).
Proof.
  intros U E0 E s c k w w' r HR Hm Hk H. apply steps_pure in H; [|reflexivity]. injection H as H.
  unfold disconnect in H. destruct (s_members (w_sg w s)) as [ms|] eqn:Hms; [|congruence].
  pose proof (reachable_flat E0 w HR) as HF.
  destruct (disconnect_each E ms (Some (RCallable c)) true w) as [w1 o1] eqn:HD.
  pose proof (each_missing_ok _ E k (RCallable c) _ _ _ _ Hk HD) as ->.
  assert (Hself : ~ In s (map snd ms)).
  { pose proof (flat_self w HF s) as HH. unfold members_of in HH. now rewrite Hms in HH. }
  assert (HS : w_sg w1 s = w_sg w s).
  { eapply each_other; [|exact Hself|exact HD]. intros x Hx. apply in_map_iff in Hx as ([n y] & <- & Hi). eapply HF; eauto. }
  unfold disconnect_base in H. cbn [key_of_ref] in H. rewrite Hk in H. unfold remove_key in H. rewrite HS in H.
  destruct (remove_first k (s_slots (w_sg w s))) as [l|] eqn:HR1.
  - injection H as <- <-. split; [reflexivity|]. left. apply remove_first_spec in HR1 as (a & x & b & H1 & H2 & H3 & H4).
    exists x, a, b. repeat (split; [assumption|]). split; [|auto].
    rewrite <- H2. unfold after_remove. rewrite upd_same. cbn [s_members s_slots set_slots].
    rewrite HS, Hms. destruct l as [|y l]; [|now rewrite upd_same].
    assert (HDR : forall (w2 : world U), s_slots (w_sg (disconnect_relay s ms w2) s) = s_slots (w_sg w2 s)).
    { clear -Hself. unfold disconnect_relay. induction ms as [|[n m] ms IH]; intros w2; cbn [fold_left]; [reflexivity|].
      cbn in Hself. rewrite IH by tauto. cbn [snd]. unfold disconnect_relay1. destruct (remove_first _ _); [|reflexivity].
      rewrite upd_other by (intros ->; tauto). reflexivity. }
    rewrite HDR, upd_same. reflexivity.
  - injection H as <- <-. split; [reflexivity|]. right. split; [now apply remove_first_none|]. now rewrite HS.
Qed.
Example C26_case :
  s_members (w_sg C26_world 0) <> None /\ key_of C17_env (fn 1) = inl (KFunc 1)
  /\ List.length (s_slots (w_sg C26_world 0)) = 1
  /\ List.length (s_slots (w_sg (after1 C17_env 5 (ODisconnect 0 (Some (RCallable (fn 1))) true) C26_world) 0)) = 0
  /\ outcome1 C17_env 5 (ODisconnect 0 (Some (RCallable (fn 1))) true) C26_world = Some (Ok VNone).
Proof. split; [discriminate|]. vm_compute. auto. Qed.
Print Assumptions C26_refuted.
Print Assumptions C26_missing_ok_partial.
