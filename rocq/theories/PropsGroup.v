(** Groups: C23.  Each theorem is followed by a concrete case that meets its hypotheses,
    and by its assumptions. *)

From Verif Require Import Base Core Spec Frame Fuel Demo Conn Keep Trace Inv Dead Rest Quiet Deliver
  Emission SpecGroup Relay.
Open Scope Z_scope.
Open Scope string_scope.
Open Scope nat_scope.
Open Scope list_scope.

(** * C23 *)

(** While a group has callbacks, every member holds exactly one internal connection to it;
    otherwise none does. *)
Theorem C23_linked : forall U (E : env U) r m w,
  reachable_by (manages (members_of w) r) E w -> In m (members_of w r) ->
  (s_slots (w_sg w r) <> [] -> linked r m w) /\ (s_slots (w_sg w r) = [] -> unlinked r m w).
Proof.
  intros U E r m w HR Hm. apply reachable_managed in HR. split; intros Hs.
  - apply held_linked. now apply (mg_on r w HR).
  - apply held_unlinked. now apply (mg_off r w HR).
Qed.

(** emit() of a member: the emission makes exactly one call of the group's internal connection,
    and that call is exactly one emission of EmissionInfo(member, args) to all the group's
    callbacks. *)
Theorem C23_told_partial : forall U (E0 E : env U) r m w args cn ct w' v,
  reachable_by (manages (members_of w) r) E0 w -> same_objects E0 E ->
  env_all (leaves_alone (members_of w) m) E -> env_all (leaves_alone (members_of w) r) E ->
  In m (members_of w r) -> s_slots (w_sg w r) <> [] ->
  steps E (OEmit m args cn ct) w w' (Ok v) ->
  goes_through E m args cn ct w -> w_hook w = None ->
  s_mode (w_sg w m) = Immediate -> s_mode (w_sg w r) = Immediate ->
  (in_progress m (w_tr w) < 300)%Z -> (in_progress r (w_tr w) < 300)%Z ->
  exists eid u t1 eid' t2 t3,
    w_tr w' = w_tr w ++ EEmit m args (w_usr w) :: EStart eid m args
      :: t1 ++ (ECall eid m u args :: EStart eid' r [VInfo m args] :: t2
                  ++ EEnd eid' r :: [ERet eid m u None])
         ++ t3 ++ [EEnd eid m]
    /\ notices eid' t2 = map (due (w_me w) [VInfo m args]) (s_slots (w_sg w r))
    /\ raised eid' t2 = []
    /\ times u (notices eid t1) = 0 /\ times u (notices eid t3) = 0.
Proof.
  intros U E0 E r m w args cn ct w' v HR0 HO Hlm Hlr Hm Hs HS Hg Hh Hmm Hmr Hpm Hpr.
  assert (HR : reachable E0 w) by (eapply reachable_weaken; eauto).
  assert (HF := flat_members w (reachable_flat E0 w HR)).
  destruct (proj1 (C23_linked _ _ _ _ _ HR0 Hm) Hs) as (l1 & c & l2 & Hsl & Hl & Hoth).
  assert (HEm : env_all (allows (members_of w) m None) E).
  { destruct Hlm as [A B]. split; intros; (eapply prog_all_impl; [|eauto]); intros o Ho; now left. }
  assert (HEr : env_all (allows (members_of w) r None) E).
  { destruct Hlr as [A B]. split; intros; (eapply prog_all_impl; [|eauto]); intros o Ho; now left. }
  assert (Hdm : s_depth (w_sg w m) < RECURSION_LIMIT).
  { destruct (reachable_depth_ok E0 w HR m) as [_ K]. unfold RECURSION_LIMIT. rewrite K in Hpm. lia. }
  assert (Hdr : s_depth (w_sg w r) < RECURSION_LIMIT).
  { destruct (reachable_depth_ok E0 w HR r) as [_ K]. unfold RECURSION_LIMIT. rewrite K in Hpr. lia. }
  assert (Hrm : r <> m).
  { intros ->. exact (flat_self w (reachable_flat E0 w HR) m Hm). }
  assert (Hqm : s_eq (w_sg w m) = []) by (apply (reachable_eq_ok E0 w HR); left; rewrite Hmm; discriminate).
  assert (Hqr : s_eq (w_sg w r) = []) by (apply (reachable_eq_ok E0 w HR); left; rewrite Hmr; discriminate).
  destruct (emit_inv _ _ _ _ _ _ _ _ HS Hg Hh) as (n & HX).
  apply emit_loop_inv in HX; [|exact Hdm|exact Hqm].
  destruct HX as (w3 & r3 & HLp & [(_ & _ & K)|(Hr3 & -> & Hv)]); [discriminate|].
  destruct r3 as [v3|e3|]; [|discriminate|congruence].
  cbn [w_sg log set_tr] in HLp. rewrite Hmm in HLp. cbn [loop_of] in HLp.
  set (w0 := log (EEmit m args (w_usr w)) w) in *.
  destruct (started_w m args w0) as (W1 & W2 & W3 & W4 & W5 & _).
  assert (HFm := fits_started E0 E None m w HR HO (fun p (Hp : None = Some p) => ltac:(discriminate Hp)) args (EEmit m args (w_usr w))).
  assert (HA : apt E (members_of w) m r (started m args w0)).
  { constructor; auto.
    - destruct HFm as [F1 F2 F3]. constructor; [exact F1| |exact F3]. intros p Hp. discriminate Hp.
    - rewrite started_sg_other by exact Hrm. exact Hmr.
    - rewrite started_sg_other by exact Hrm. exact Hdr.
    - rewrite started_sg_other by exact Hrm. exact Hqr. }
  assert (Hne : members_of w r <> []) by (intros K; rewrite K in Hm; destruct Hm).
  assert (Hk : nth_error (s_slots (w_sg (started m args w0) m)) (List.length l1) = Some c).
  { rewrite started_slots. change (w_sg w0 m) with (w_sg w m). rewrite Hsl, nth_error_app2, Nat.sub_diag by lia. reflexivity. }
  destruct (loop_link E (members_of w) m r HF HEm HEr Hne _ _ _ _ _ _ _ _ c _ HLp
              ltac:(discriminate) HA ltac:(rewrite W1; lia) Hk Hl (Nat.le_0_l _))
    as (t1 & t2 & t3 & y & T & N & [(K1 & K2 & K3)|(_ & _ & e & K)]); [|discriminate].
  destruct y as [vy|ey|]; [|destruct K3; discriminate|destruct K3; discriminate].
  destruct K1 as (eid' & t' & called & uncalled & -> & C1 & C2 & -> & C4).
  rewrite app_nil_r in C1. subst called.
  exists (w_nxt w0), (w_uid c), t1, eid', t', t3.
  split. { cbn. rewrite T, W2. cbn. rewrite <- !app_assoc. cbn. rewrite <- !app_assoc. reflexivity. }
  rewrite started_sg_other in C2 by exact Hrm. rewrite W5 in C2.
  split; [exact C2|]. split; [exact C4|].
  (* the link is called only there *)
  destruct (loop_slots_delivers E (members_of w) None m HF (fun H => False_ind _ (H eq_refl)) HEm _ _ _ _ _ _ _ _ HLp
              HFm) as (t & pre & rest & T' & HMv & S3 & N3 & Kx & _); [rewrite W1; lia|]. subst rest.
  rewrite app_nil_r in S3. cbn [skipn] in S3.
  destruct (proj2 HMv HFm) as (_ & G3 & _). apply grows_none in G3. rewrite started_slots in G3.
  rewrite G3 in S3. change (w_sg w0 m) with (w_sg w m) in S3. subst pre. rewrite W5 in N3. change (w_me w0) with (w_me w) in N3.
  rewrite T in T'. apply app_inv_head in T'. subst t.
  assert (Hone : times (w_uid c) (notices (w_nxt w0) (t1 ++ (ECall (w_nxt w0) m (w_uid c) args :: EStart eid' r [VInfo m args] :: t' ++ EEnd eid' r
         :: [ERet (w_nxt w0) m (w_uid c) None]) ++ t3)) = 1).
  { rewrite N3, Hsl. destruct (reachable_ordered E0 w HR m) as [Hso _]. rewrite Hsl in Hso.
    assert (Hab : forall x, about (w_uid c) (due (w_me w) args x) = Nat.eqb (w_uid x) (w_uid c)).
    { intros x. unfold due. destruct (w_thread x) as [th|]; [destruct (Nat.eqb th (w_me w))|]; reflexivity. }
    unfold times. rewrite map_app, filter_app, app_length. cbn [map filter]. rewrite Hab, Nat.eqb_refl.
    assert (HZ : forall l, (forall x, In x l -> w_uid x <> w_uid c) -> filter (about (w_uid c)) (map (due (w_me w) args) l) = []).
    { induction l as [|x l IH]; intros Hx; [reflexivity|]. cbn. rewrite Hab.
      destruct (Nat.eqb_spec (w_uid x) (w_uid c)) as [Q|Q]; [exfalso; exact (Hx x (or_introl eq_refl) Q)|].
      apply IH. intros z Hz. apply Hx. now right. }
    assert (HU : forall x, In x (l1 ++ l2) -> w_uid x <> w_uid c).
    { intros x Hx Hu. pose proof (reachable_uids E0 w HR m) as HN. rewrite Hsl in HN.
      rewrite map_app in HN. cbn [map] in HN. apply NoDup_remove_2 in HN. apply HN.
      rewrite <- map_app, <- Hu. now apply in_map. }
    rewrite !HZ; [reflexivity| |]; intros x Hx; apply HU, in_or_app; auto. }
  rewrite notices_app in Hone. unfold times in *. rewrite filter_app, app_length in Hone.
  rewrite notices_app, filter_app, app_length in Hone.
  cbn [notices filter about List.length Nat.add app] in Hone. rewrite Nat.eqb_refl in Hone.
  cbn [notices filter about List.length Nat.add app] in Hone. rewrite Nat.eqb_refl in Hone. cbn [List.length Nat.add] in Hone. lia.
Qed.

(** Signal 0 is a group of signals 1 and 2.  Its callbacks were connected, all disconnected and
    connected again; function 1 re-emits member b with 0 once.  Member a has callbacks of higher
    and lower priority than the internal connection. *)
Definition C23_env : env unit := demo (fun f a =>
  match f, a with
  | 1, [VInfo 1 [VInt 7]] => calls [emit 2 [VInt 0]]
  | 4, [VInt 7] => calls [emit 1 [VInt 1]]
  | _, _ => Ret VNone
  end).
Definition C23_calls : list (op unit) :=
  [conn 0 1 0; conn 1 3 5; ODisconnect 0 None true; conn 1 3 5; conn 0 2 0; conn 0 1 3;
   ODisconnect 1 (Some (RCallable (fn 9))) true; conn 1 4 (-2)].
Definition C23_world := world_of C23_env (group_of_two Immediate 1) tt 50 C23_calls.
Lemma C23_all : forall M, env_all (@manages unit M 0) C23_env /\ prog_all (manages M 0) (calls C23_calls).
Proof.
  intros M. split; [apply demo_all|]; [intros [|[|[|[|[|f]]]]] a|]; allp.
Qed.
Example C23_case :
  let o := emit 1 [VInt 7] in
  let w' := after1 C23_env 60 o C23_world in
  reachable_by (manages (members_of C23_world) 0) C23_env C23_world
  /\ env_all (leaves_alone (members_of C23_world) 1) C23_env
  /\ env_all (leaves_alone (members_of C23_world) 0) C23_env
  /\ In 1 (members_of C23_world 0)
  /\ map w_uid (s_slots (w_sg C23_world 0)) = [8; 5] /\ map w_uid (s_slots (w_sg C23_world 1)) = [4; 6; 9]
  /\ steps C23_env o C23_world w' (Ok VNone)
  /\ goes_through C23_env 1 [VInt 7] true false C23_world
  /\ w_hook C23_world = None
  /\ s_mode (w_sg C23_world 1) = Immediate /\ s_mode (w_sg C23_world 0) = Immediate
  /\ in_progress 1 (w_tr C23_world) = 0%Z /\ in_progress 0 (w_tr C23_world) = 0%Z.
Proof.
  split.
  { split; [apply C23_all|]. exists (group_of_two Immediate 1), tt, (calls C23_calls), (Ok VNone).
    split; [auto with demo|]. split; [auto with demo|]. split; [apply C23_all|].
    apply after_runs. vm_compute. reflexivity. }
  split. { apply demo_all. generalize (members_of C23_world). intros M [|[|[|[|[|f]]]]] a; allp. }
  split. { apply demo_all. generalize (members_of C23_world). intros M [|[|[|[|[|f]]]]] a; allp. }
  split; [vm_compute; auto|]. split; [vm_compute; reflexivity|]. split; [vm_compute; reflexivity|].
  split; [ran|]. vm_compute. repeat split; auto; discriminate.
Qed.
Print Assumptions C23_linked.
Print Assumptions C23_told_partial.

(** emit_fast() of a member leaves the group's callbacks in the dark. *)
Theorem C23_fast_refuted : exists (E : env unit) r m w w' eid t,
  reachable_by (manages (members_of w) r) E w /\ In m (members_of w r)
  /\ s_slots (w_sg w r) <> []
  /\ s_blocked (w_sg w m) = false /\ s_paused (w_sg w m) = false
  /\ steps E (OEmitFast m [VInt 7]) w w' (Ok VNone)
  /\ w_tr w' = w_tr w ++ EEmit m [VInt 7] tt :: EStart eid m [VInt 7] :: t ++ [EEnd eid m]
  /\ ~ emitted_in r t.
Proof.
  pose (l := [conn 0 1 0] : list (op unit)).
  exists (demo (fun _ _ => Ret VNone)), 0, 1.
  exists (world_of (demo (fun _ _ => Ret VNone)) (group_of_two Immediate 1) tt 50 l).
  exists (after1 (demo (fun _ _ => Ret VNone)) 50 (OEmitFast 1 [VInt 7])
            (world_of (demo (fun _ _ => Ret VNone)) (group_of_two Immediate 1) tt 50 l)).
  exists 3, [ECall 3 1 1 [VInt 7]; ERet 3 1 1 None].
  split.
  { split; [apply demo_all; intros; exact I|]. exists (group_of_two Immediate 1), tt, (calls l), (Ok VNone).
    split; [auto with demo|]. split; [auto with demo|]. split; [allp|].
    apply after_runs. vm_compute. reflexivity. }
  split; [vm_compute; auto|]. split; [vm_compute; discriminate|]. split; [vm_compute; reflexivity|].
  split; [vm_compute; reflexivity|]. split; [ran|]. split; [vm_compute; reflexivity|].
  intros (i & a & [H|[H|[]]]); discriminate.
Qed.
Print Assumptions C23_fast_refuted.
