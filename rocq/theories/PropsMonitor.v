(** monitor_events: C32.  Each theorem is followed by a concrete case that meets its
    hypotheses, and by its assumptions. *)

From Verif Require Import Base Core Spec Frame Fuel Demo Conn Keep Trace Inv Dead Rest Quiet Deliver
  Emission SpecGroup Relay Prog Monitor Watch PropsEmit.
From Coq Require Import Permutation.
Open Scope Z_scope.
Open Scope string_scope.
Open Scope nat_scope.
Open Scope list_scope.

(** * Specification *)

(** The functions made for the monitored signals are new objects: no two are the same and
    none is connected anywhere. *)
Definition new_functions {U} (rep : nat -> oid) (w : world U) : Prop :=
  (forall i j, rep i = rep j -> i = j)
  /\ forall i x c, In c (s_slots (w_sg w x)) -> w_key c <> KFunc (rep i).
(** A group without callbacks is not connected to its members (see C23_linked). *)
Definition idle_unlinked {U} (w : world U) : Prop := forall r x,
  s_members (w_sg w r) <> None -> s_slots (w_sg w r) = [] -> unlinked r x w.
(** [x] is one of the signals [ss], or a member of a group among them. *)
Definition monitored {U} (ss : list sid) (w : world U) (x : sid) : Prop :=
  In x ss \/ exists r, In r ss /\ In x (members_of w r).
(** The callback is the function [f], called with all arguments, in the emitting thread. *)
Definition plainly (f : oid) (c : wcb) : Prop :=
  w_target c = TFun f [] [] /\ w_maxargs c = None /\ w_thread c = None.

(** * Proofs about the loops *)

Section Loops.
Context {U : Type} (E : env U) (logger : oid) (rep : nat -> oid) (ss : list sid) (w0 : world U).
Implicit Types w : world U.
Hypothesis Hrep : forall i j, rep i = rep j -> i = j.
Hypothesis HF : flat w0.
Hypothesis HS : forall i s, nth_error ss i = Some s -> is_report E logger s (rep i).
Hypothesis HT : forall s, In s ss -> s_chkt (w_sg w0 s) = false.

Definition report_cb (i u : nat) : wcb := Wcb u (KFunc (rep i)) (TFun (rep i) [] []) None 0%Z None None.
Lemma connect_report : forall i s w w' r, nth_error ss i = Some s -> s_chkt (w_sg w s) = false ->
  steps E (OConnect s (CBase (BFunc (rep i))) default_opts) w w' r ->
  r = Ok VNone /\ w' = add_wcb s (report_cb i (w_nxt w)) w.
Proof.
  intros i s w w' r Hi Hc H. apply (steps_pure E) in H; [|reflexivity]. injection H as H.
  destruct (HS i s Hi) as [_ Hsig]. unfold connect in H. cbv zeta in H.
  cbn [callable_dead callable_base default_opts c_check_nargs c_check_types c_unique c_max c_onref c_prio c_thread] in H.
  rewrite Hc in H.
  assert (Hn : check_nargs E (CBase (BFunc (rep i))) (s_params (w_sg w s)) = inl (None, true)).
  { unfold check_nargs. rewrite Hsig. reflexivity. }
  rewrite Hn in H. destruct (s_chkn (w_sg w s)); cbn in H; injection H as <- <-; auto.
Qed.

(** What the state is when the body starts. *)
Definition set_up (P : list (nat * sid)) w : Prop :=
  during w0 ss rep P w /\ (forall x, static (w_sg w x) = static (w_sg w0 x))
  /\ forall i s, In (i, s) P -> exists c, In c (s_slots (w_sg w s)) /\ plainly (rep i) c.

Lemma add_In : forall s c w x d, In d (s_slots (w_sg w x)) -> In d (s_slots (w_sg (add_wcb s c w) x)).
Proof.
  intros s c w x d Hd. unfold add_wcb, append_slot.
  set (w2 := match w_ref c with Some _ => _ | None => _ end).
  assert (H2 : forall y, w_sg w2 y = w_sg w y) by (intros; unfold w2; destruct (w_ref c); reflexivity).
  assert (H3 : In d (s_slots (w_sg (upd s (append_slot_base c) w2) x))).
  { dec_sid x s; [rewrite upd_same|rewrite upd_other by assumption]; rewrite H2; [|exact Hd].
    apply append_In. now right. }
  destruct (s_members _) as [ms|]; [|exact H3]. destruct (Nat.eqb _ _); [|exact H3].
  unfold connect_relay. revert H3. generalize (upd s (append_slot_base c) w2). clear.
  induction ms as [|[n m] ms IH]; intros w Hd; cbn [fold_left]; [exact Hd|]. apply IH. cbn [snd].
  unfold connect_relay1. destruct (has_key _ _); [exact Hd|].
  dec_sid x m; [rewrite upd_same|rewrite upd_other by assumption; exact Hd]. apply append_In. now right.
Qed.
Lemma add_own : forall s c w, In c (s_slots (w_sg (add_wcb s c w) s)).
Proof.
  intros s c w. unfold add_wcb, append_slot.
  set (w2 := match w_ref c with Some _ => _ | None => _ end).
  assert (H3 : In c (s_slots (w_sg (upd s (append_slot_base c) w2) s))).
  { rewrite upd_same. apply append_In. now left. }
  destruct (s_members _) as [ms|]; [|exact H3]. destruct (Nat.eqb _ _); [|exact H3].
  unfold connect_relay. revert H3. generalize (upd s (append_slot_base c) w2). clear.
  induction ms as [|[n m] ms IH]; intros w Hd; cbn [fold_left]; [exact Hd|]. apply IH. cbn [snd].
  unfold connect_relay1. destruct (has_key _ _); [exact Hd|].
  dec_sid s m; [rewrite upd_same|rewrite upd_other by assumption; exact Hd]. apply append_In. now right.
Qed.

Lemma watch_runs : forall k l i P w w' r,
  (forall j s, nth_error l j = Some s -> nth_error ss (i + j) = Some s) ->
  set_up P w -> runs E (watch rep i l None k) w w' r ->
  exists w1, set_up (rev (combine (List.seq i (List.length l)) l) ++ P) w1 /\ runs E k w1 w' r.
Proof.
  intros k. induction l as [|s l IH]; intros i P w w' r Hl HP H; cbn [watch] in H.
  { exists w. split; [exact HP|exact H]. }
  unfold seq in H. apply runs_bind in H as (w1 & r1 & HC & H). apply runs_call in HC.
  assert (Hs : nth_error ss i = Some s) by (rewrite <- (Nat.add_0_r i); now apply Hl).
  assert (Hin : In s ss) by (eapply nth_error_In; eauto).
  assert (Hi : i < List.length ss) by (apply nth_error_Some; congruence).
  destruct HP as (HD & HK & HC0).
  assert (Hc : s_chkt (w_sg w s) = false).
  { rewrite <- (HT s Hin). specialize (HK s). unfold static in HK. congruence. }
  destruct (connect_report i s w w1 r1 Hs Hc HC) as [-> ->].
  specialize (IH (S i) ((i, s) :: P) (add_wcb s (report_cb i (w_nxt w)) w) w' r).
  destruct IH as (w2 & HU & HX).
  - intros j x Hj. replace (S i + j) with (i + S j) by lia. now apply Hl.
  - split; [|split].
    + apply during_add; auto.
    + intros x. rewrite <- HK. apply (keeps_add_wcb s (report_cb i (w_nxt w)) w).
    + intros j x [He|Hj].
      * injection He as <- <-. exists (report_cb i (w_nxt w)). split; [apply add_own|]. repeat split.
      * destruct (HC0 j x Hj) as (c & Hc1 & Hc2). exists c. split; [now apply add_In|exact Hc2].
  - exact H.
  - exists w2. split; [|exact HX]. cbn [List.length List.seq combine rev]. rewrite <- app_assoc. exact HU.
Qed.

Lemma each_none : forall i ms w, (forall m, In m (map snd ms) ->
    kcount (KFunc (rep i)) (s_slots (w_sg w m)) = 0) ->
  disconnect_each E ms (Some (RCallable (CBase (BFunc (rep i))))) true w = (w, Ok VNone).
Proof.
  intros i. induction ms as [|[n m] ms IH]; intros w H; cbn [disconnect_each]; [reflexivity|].
  unfold disconnect_base. cbn [key_of_ref key_of weak_callback callable_base w_key].
  unfold remove_key. rewrite (proj2 (remove_first_none _ _)) by (apply H; now left).
  apply IH. intros x Hx. apply H. now right.
Qed.
Lemma unwatch_runs : forall ord w w' r,
  (forall i s, In (i, s) ord -> nth_error ss i = Some s) ->
  during w0 ss rep ord w -> runs E (unwatch rep ord) w w' r ->
  r = Ok VNone /\ during w0 ss rep [] w'.
Proof.
  unfold unwatch. induction ord as [|[i s] ord IH]; intros w w' r Ho HD H; cbn [each] in H.
  { apply runs_ret in H as [-> ->]. auto. }
  unfold seq in H. apply runs_bind in H as (w1 & r1 & HC & H). apply runs_call in HC.
  apply (steps_pure E) in HC; [|reflexivity]. injection HC as HC.
  assert (Hs : nth_error ss i = Some s) by (apply Ho; now left).
  assert (Hin : In s ss) by (eapply nth_error_In; eauto).
  assert (Hi : i < List.length ss) by (apply nth_error_Some; congruence).
  destruct (during_remove w0 ss rep Hrep HF ord w i s HD Hi Hin) as (w2 & HR & HD2).
  assert (HB : disconnect_base E s (Some (RCallable (CBase (BFunc (rep i))))) true w = (w2, Ok VNone)).
  { unfold disconnect_base. cbn [key_of_ref key_of weak_callback callable_base w_key]. now rewrite HR. }
  assert (HX : disconnect E s (Some (RCallable (CBase (BFunc (rep i))))) true w = (w2, Ok VNone)).
  { unfold disconnect. destruct (s_members (w_sg w s)) as [ms|] eqn:Hms; [|exact HB].
    rewrite each_none; [exact HB|]. intros m Hm.
    assert (Hmm : In m (members_of w0 s)).
    { rewrite <- (during_members w0 ss rep _ w s HD). unfold members_of. now rewrite Hms. }
    rewrite (du_rep w0 ss rep _ _ HD); [|right; exists s; auto|exact Hi].
    apply count_occ_not_In. intros Hin'. apply Ho in Hin'. assert (m = s) by congruence. subst m.
    apply (not_member w0 HF s s); [|exact Hmm]. rewrite <- (du_members w0 ss rep _ _ HD). congruence. }
  rewrite HX in HC. injection HC as <- <-. apply (IH w2); auto. intros j x Hj. apply Ho. now right.
Qed.
End Loops.

Lemma numbered_In : forall ss i s, In (i, s) (numbered ss) <-> nth_error ss i = Some s.
Proof.
  intros ss. unfold numbered.
  assert (H : forall (l : list sid) k i s, In (i, s) (combine (List.seq k (List.length l)) l) <-> k <= i /\ nth_error l (i - k) = Some s).
  { induction l as [|x l IH]; intros k i s; cbn [List.length List.seq combine].
    - split; [intros []|]. intros [_ H]. destruct (i - k); discriminate.
    - cbn [In]. rewrite IH. split.
      + intros [He|[Hk He]].
        * injection He as <- <-. split; [lia|]. now rewrite Nat.sub_diag.
        * split; [lia|]. now replace (i - k) with (S (i - S k)) by lia.
      + intros [Hk He]. destruct (Nat.eq_dec i k) as [->|Hn].
        * rewrite Nat.sub_diag in He. injection He as <-. now left.
        * right. split; [lia|]. now replace (i - k) with (S (i - S k)) in He by lia. }
  intros i s. rewrite H, Nat.sub_0_r. split; [tauto|]. intros; split; [lia|assumption].
Qed.

(** * C32 *)

(** A body that leaves the connections of the monitored signals alone runs with every one of
    them reporting to its own function; when the with statement is left, in whatever way,
    every signal has exactly the callbacks, in the order, it had before, and the result is the
    body's. *)
Theorem C32_restored : forall U (E : env U) logger rep o private ss ord body w w' r,
  flat w -> idle_unlinked w -> new_functions rep w ->
  iter_signal_instances o private = (ss, None) -> Permutation (numbered ss) ord ->
  (forall i s, nth_error ss i = Some s -> is_report E logger s (rep i)) ->
  (forall s, In s ss -> s_chkt (w_sg w s) = false) ->
  (forall x, monitored ss w x -> prog_all (leaves_alone (members_of w) x) body) ->
  (forall x, monitored ss w x -> env_all (leaves_alone (members_of w) x) E) ->
  runs E (monitor_obj rep o private ord body) w w' r -> done r ->
  (forall x, monitored ss w x -> s_slots (w_sg w' x) = s_slots (w_sg w x))
  /\ exists w1 w2, runs E body w1 w2 r
     /\ forall i s, nth_error ss i = Some s ->
          exists c, In c (s_slots (w_sg w1 s)) /\ plainly (rep i) c.
Proof.
  intros U E logger rep o private ss ord body w w' r HF HL [Hinj Hnew] HI HP HR HT HB HE H Hd.
  unfold monitor_obj in H. rewrite HI in H.
  destruct (watch_runs E logger rep ss w Hinj HF HR HT (try_finally body (unwatch rep ord)) ss 0 [] w w' r) as (w1 & (HU & HK & HC) & HX).
  { intros j s Hj. exact Hj. }
  { split; [|split; [reflexivity|intros i s []]]. apply during_start.
    - intros x i c _ _. apply Hnew.
    - intros x q c _ _ Hm Hs. exact (HL q x Hm Hs c). }
  { exact H. }
  rewrite app_nil_r in HU, HC.
  unfold try_finally in HX. apply runs_catch in HX as (w2 & r2 & Hb & HX).
  assert (Hmem : forall x, members_of w1 x = members_of w x) by (intros x; eapply during_members; eauto).
  assert (HQ : forall x, monitored ss w x ->
    (forall y, members_of w2 y = members_of w y) /\ s_slots (w_sg w2 x) = s_slots (w_sg w1 x)).
  { intros x Hx.
    assert (HEx : env_all (allows (members_of w) x None) E).
    { destruct (HE x Hx) as [A B]. split; intros; (eapply prog_all_impl; [|eauto]); intros op Ho; now left. }
    assert (Q := frame_runs E _ _ _ _ (framed_quiet E (members_of w) None x (flat_members w HF)
                  (fun Hne => False_ind _ (Hne eq_refl))) HEx body w1 w2 r2).
    assert (Hpx : prog_all (allows (members_of w) x None) body).
    { eapply prog_all_impl; [|apply (HB x Hx)]. intros op Ho; now left. }
    destruct (Q Hpx Hb Hmem (fun p (Hp : None = Some p) => ltac:(discriminate Hp))) as (A & G & _). split; [exact A|]. now apply grows_none in G. }
  assert (HU2 : during w ss rep ord w2).
  { apply during_perm with (P := rev (combine (List.seq 0 (List.length ss)) ss)).
    { transitivity (numbered ss); [symmetry; apply Permutation_rev|exact HP]. }
    refine (during_same w ss rep _ w1 w2 _ _ HU).
    - intros x. apply static_members. apply (runs_based _ _ _ _ _ Hb).
    - intros x Hx. now apply HQ. }
  assert (Ho : forall i s, In (i, s) ord -> nth_error ss i = Some s).
  { intros i s Hi. apply numbered_In. eapply Permutation_in; [symmetry; exact HP|exact Hi]. }
  assert (HN : r2 <> Halted) by (intros ->; apply Hd; apply HX).
  assert (HE2 : forall x, runs E (bind (unwatch rep ord) (fun _ => finish x)) w2 w' r ->
     during w ss rep [] w' /\ r = match x with inl v => Ok v | inr e => Err e end).
  { intros x K. apply runs_bind in K as (w3 & r3 & K1 & K).
    destruct (unwatch_runs E rep ss w Hinj HF ord w2 w3 r3 Ho HU2 K1) as [-> HD3].
    destruct x; cbn [finish] in K; [apply runs_ret in K as [-> ->]|apply runs_throw in K as [-> ->]]; auto. }
  assert (HZ : during w ss rep [] w' /\ r = r2).
  { destruct r2; [apply (HE2 (inl v) HX)|apply (HE2 (inr e) HX)|congruence]. }
  destruct HZ as [HZ ->]. split.
  - intros x Hx. eapply during_end; eauto.
  - exists w1, w2. split; [exact Hb|]. intros i s Hi. apply HC. apply in_rev. rewrite rev_involutive.
    now apply numbered_In.
Qed.

(** Signals 0 (a group of 1 and 2, without callbacks), 3 and 1 are monitored; 3 has a callback;
    the body emits 1 and 3. *)
Definition C32_env : env unit :=
  let d := demo (fun f a => match f with 7 => call (OUsr (fun u => (u, inl VNone))) | _ => Ret VNone end) in
  Env (fun t a w => match t with
                    | TFun 10 [] [] => e_body d (TFun 7 [] []) [VInfo 1 a] w
                    | TFun 11 [] [] => e_body d (TFun 7 [] []) [VInfo 3 a] w
                    | TFun 12 [] [] => e_body d (TFun 7 [] []) [VInfo 0 a] w
                    | _ => e_body d t a w
                    end)
      (e_lib d) (e_weakref d) (e_fname d)
      (fun c => match c with
                | CBase (BFunc (10 | 11 | 12)) =>
                    SSig [Param VarPos false (AStr (AClass 2)); Param KwOnly true (AStr (AClass 3))]
                | _ => SSig [Param VarPos false AEmpty]
                end) (e_subclass d) (e_type d) (e_hasattr d).
Definition C32_obj : watched :=
  WObj [("_x", ASig 9); ("a", ASig 1); ("b", AOther); ("c", ASig 3); ("d", AFails EAttribute); ("events", AGroup 0)].
Definition C32_body : prog unit := calls [emit 1 [VInt 5]; emit 3 [VInt 6]].
Definition C32_world := world_of C32_env (group_of_two Immediate 1) tt 50 [conn 3 1 2].
Definition C32_rep (i : nat) : oid := 10 + i.
Example C32_case :
  let w' := after C32_env 60 (monitor_obj C32_rep C32_obj false [(2, 0); (0, 1); (1, 3)] C32_body) C32_world in
  flat C32_world /\ idle_unlinked C32_world /\ new_functions C32_rep C32_world
  /\ iter_signal_instances C32_obj false = ([1; 3; 0], None)
  /\ Permutation (numbered [1; 3; 0]) [(2, 0); (0, 1); (1, 3)]
  /\ (forall i s, nth_error [1; 3; 0] i = Some s -> is_report C32_env 7 s (C32_rep i))
  /\ (forall s, In s [1; 3; 0] -> s_chkt (w_sg C32_world s) = false)
  /\ (forall x, prog_all (leaves_alone (members_of C32_world) x) C32_body)
  /\ (forall x, env_all (leaves_alone (members_of C32_world) x) C32_env)
  /\ runs C32_env (monitor_obj C32_rep C32_obj false [(2, 0); (0, 1); (1, 3)] C32_body) C32_world w' (Ok VNone)
  /\ filter (fun e => match e with ECall _ _ _ _ => true | _ => false end) (w_tr w') =
     [ECall 6 1 1 [VInt 5]; ECall 6 1 4 [VInt 5]; ECall 7 0 3 [VInfo 1 [VInt 5]]; ECall 8 3 0 [VInt 6];
      ECall 8 3 2 [VInt 6]].
Proof.
  assert (R : reachable C32_env C32_world) by reach.
  assert (HS : forall x, s_slots (w_sg C32_world x) = [] \/ x = 3).
  { intros [|[|[|[|x]]]]; try (left; vm_compute; reflexivity). now right. }
  assert (H3 : map w_key (s_slots (w_sg C32_world 3)) = [KFunc 1]) by (vm_compute; reflexivity).
  assert (HK : forall x c, In c (s_slots (w_sg C32_world x)) -> w_key c = KFunc 1).
  { intros x c Hc. destruct (HS x) as [H| ->]; [rewrite H in Hc; destruct Hc|].
    apply (in_map w_key) in Hc. rewrite H3 in Hc. destruct Hc as [<-|[]]. reflexivity. }
  split; [exact (reachable_flat _ _ R)|]. split.
  { intros r x _ _ c Hc. rewrite (HK x c Hc). discriminate. }
  split.
  { split; [unfold C32_rep; intros; lia|]. intros i x c Hc. rewrite (HK x c Hc). unfold C32_rep. cbn. discriminate. }
  split; [reflexivity|]. split.
  { cbn. apply Permutation_sym. apply (Permutation_middle [(0, 1); (1, 3)] [] (2, 0)). }
  split.
  { intros [|[|[|i]]] s H; cbn in H; try (injection H as <-; split; [intros; reflexivity|reflexivity]).
    destruct i; discriminate. }
  split. { intros s [<-|[<-|[<-|[]]]]; vm_compute; reflexivity. }
  split. { intros x. unfold C32_body. cbn. allp. }
  split.
  { intros x. split; [|intros; exact I]. intros t a w. unfold C32_env. cbn.
    destruct t as [f pre kw| | | | | |]; try exact I; allp. }
  split; [apply after_runs; vm_compute; reflexivity|]. vm_compute. reflexivity.
Qed.
Print Assumptions C32_restored.

(** While it is connected, each emission reports once, with all arguments: the callback is
    notified exactly once, and its call is the call of the logger with EmissionInfo(s, args). *)
Theorem C32_reported_partial : forall U (E0 E : env U) logger f c s w args cn ct w' v,
  reachable E0 w -> same_objects E0 E -> env_all (leaves_alone (members_of w) s) E ->
  In c (s_slots (w_sg w s)) -> plainly f c -> is_report E logger s f ->
  steps E (OEmit s args cn ct) w w' (Ok v) ->
  goes_through E s args cn ct w -> w_hook w = None ->
  s_mode (w_sg w s) = Immediate -> (in_progress s (w_tr w) < 300)%Z ->
  exists eid t,
    w_tr w' = w_tr w ++ EEmit s args (w_usr w) :: EStart eid s args :: t ++ [EEnd eid s]
    /\ filter (about (w_uid c)) (notices eid t) = [Called (w_uid c) args]
    /\ forall wc, e_body E (w_target c) args wc = e_body E (TFun logger [] []) [VInfo s args] wc.
Proof.
  intros U E0 E logger f c s w args cn ct w' v HR HO HE Hc (Ht & Hx & Hth) [Hrep _] HS Hg Hh Hm Hl.
  destruct (C02_exactly_once U E0 E s w args cn ct w' (Ok v) HR HO HE HS ltac:(discriminate) Hg Hh Hm Hl)
    as (eid & t & cl & un & T & S & _ & N & Hun & _).
  subst un. rewrite app_nil_r in S. exists eid, t. split; [exact T|]. split.
  - rewrite N, <- S. assert (ND := reachable_uids E0 w HR s). apply in_split in Hc as (a & b & Hab).
    rewrite Hab in ND |- *. rewrite map_app in ND. cbn in ND. apply NoDup_remove_2 in ND.
    assert (HZ : forall l, ~ In (w_uid c) (map w_uid l) -> filter (about (w_uid c)) (map (due (w_me w) args) l) = []).
    { induction l as [|x l IH]; intros Hn; cbn; [reflexivity|]. cbn in Hn.
      assert (Hab' : about (w_uid c) (due (w_me w) args x) = false).
      { assert (Hne : Nat.eqb (w_uid x) (w_uid c) = false) by (apply Nat.eqb_neq; tauto).
        unfold due, about. destruct (w_thread x) as [th|]; [destruct (Nat.eqb th (w_me w))|]; exact Hne. }
      rewrite Hab'. apply IH. tauto. }
    rewrite map_app, filter_app. cbn [map filter]. rewrite in_app_iff in ND. rewrite !HZ by tauto.
    assert (HD : due (w_me w) args c = Called (w_uid c) args) by (unfold due; now rewrite Ht, Hx, Hth).
    rewrite HD. cbn. now rewrite Nat.eqb_refl.
  - intros wc. rewrite Ht. apply Hrep.
Qed.
Example C32_reported_case :
  let w := after C32_env 50 (watch C32_rep 0 [1; 3; 0] None (Ret VNone)) C32_world in
  reachable C32_env w /\ (exists c, In c (s_slots (w_sg w 3)) /\ plainly 11 c) /\ is_report C32_env 7 3 11
  /\ goes_through C32_env 3 [VInt 6] true false w /\ w_hook w = None /\ s_mode (w_sg w 3) = Immediate
  /\ outcome1 C32_env 50 (emit 3 [VInt 6]) w = Some (Ok VNone).
Proof.
  split.
  { exists (group_of_two Immediate 1), tt, (bind (calls [conn 3 1 2]) (fun _ => watch C32_rep 0 [1; 3; 0] None (Ret VNone))), (Ok VNone).
    split; [auto with demo|]. split; [auto with demo|]. apply runs_bind. exists C32_world, (Ok VNone).
    split; apply after_runs; vm_compute; reflexivity. }
  split.
  { exists (Wcb 2 (KFunc 11) (TFun 11 [] []) None 0%Z None None). split; [vm_compute; tauto|repeat split]. }
  split; [split; [intros; reflexivity|reflexivity]|]. vm_compute. repeat split; auto; discriminate.
Qed.
Print Assumptions C32_reported_partial.

(** ** Without an object: the global hook *)

(** The call does not replace the hook. *)
Definition keeps_hook {U} (o : op U) : Prop := match o with OSetHook _ => False | _ => True end.

Section Hook.
Context {U : Type} (E : env U).
Definition hooked (w w' : world U) (r : out) : Prop := w_hook w' = w_hook w.
Lemma hook_fold : forall {B} (g : world U -> B -> world U) l w,
  (forall w x, w_hook (g w x) = w_hook w) -> w_hook (fold_left g l w) = w_hook w.
Proof. intros B g l. induction l as [|x l IH]; intros w H; cbn; [reflexivity|]. now rewrite IH, H. Qed.
Lemma hook_connect_relay : forall r ms (w : world U), w_hook (connect_relay r ms w) = w_hook w.
Proof. intros. apply hook_fold. intros w0 x. unfold connect_relay1. destruct (has_key _ _); reflexivity. Qed.
Lemma hook_after_remove : forall s (w : world U), w_hook (after_remove s w) = w_hook w.
Proof.
  intros. unfold after_remove. destruct (s_members _); [|reflexivity]. destruct (s_slots _); [|reflexivity].
  apply hook_fold. intros w0 x. unfold disconnect_relay1. destruct (remove_first _ _); reflexivity.
Qed.
Lemma hook_remove_key : forall s k (w w' : world U), remove_key s k w = Some w' -> w_hook w' = w_hook w.
Proof. intros s k w w' H. unfold remove_key in H. destruct (remove_first _ _); [|discriminate]. injection H as <-. now rewrite hook_after_remove. Qed.
Lemma hook_try_discard : forall s k mo (w : world U), w_hook (fst (try_discard s k mo w)) = w_hook w.
Proof. intros. unfold try_discard. destruct (remove_key _ _ _) eqn:H; [|reflexivity]. eapply hook_remove_key; eauto. Qed.
Lemma hook_add : forall s c (w : world U), w_hook (add_wcb s c w) = w_hook w.
Proof.
  intros. unfold add_wcb, append_slot. destruct (w_ref c); destruct (s_members _); try reflexivity;
    destruct (Nat.eqb _ _); try reflexivity; rewrite hook_connect_relay; reflexivity.
Qed.
Lemma hook_connect : forall s c o (w w' : world U) r, connect E s c o w = (w', r) -> w_hook w' = w_hook w.
Proof.
  intros s c o w w' r H. unfold connect in H. cbv zeta in H.
  repeat match type of H with
         | (match ?t with _ => _ end) = _ => destruct t; try (injection H as <- _; reflexivity)
         end; injection H as <- _; apply hook_add.
Qed.
Lemma hook_base : forall s rf mo (w w' : world U) r, disconnect_base E s rf mo w = (w', r) -> w_hook w' = w_hook w.
Proof.
  intros s rf mo w w' r H. unfold disconnect_base in H. destruct rf as [rf|].
  - destruct (key_of_ref E rf); [|now injection H as <- _]. destruct (remove_key s k w) eqn:HR; injection H as <- _; [|reflexivity].
    eapply hook_remove_key; eauto.
  - injection H as <- _. unfold remove_all. now rewrite hook_after_remove.
Qed.
Lemma hook_each : forall ms rf mo (w w' : world U) r, disconnect_each E ms rf mo w = (w', r) -> w_hook w' = w_hook w.
Proof.
  induction ms as [|[n m] ms IH]; intros rf mo w w' r H; cbn in H; [now injection H as <- _|].
  destruct (disconnect_base E m rf mo w) as [w1 [v|e|]] eqn:HB; apply hook_base in HB; try (injection H as <- _; exact HB).
  apply IH in H. congruence.
Qed.
Lemma hook_disconnect : forall s rf mo (w w' : world U) r, disconnect E s rf mo w = (w', r) -> w_hook w' = w_hook w.
Proof.
  intros s rf mo w w' r H. unfold disconnect in H. destruct (s_members _); [|eapply hook_base; eauto].
  destruct (disconnect_each E l rf mo w) as [w1 [v|e|]] eqn:HB; apply hook_each in HB; try (injection H as <- _; exact HB).
  apply hook_base in H. congruence.
Qed.
Lemma hook_connect_each : forall ms c o (w w' : world U) r, connect_each E ms c o w = (w', r) -> w_hook w' = w_hook w.
Proof.
  induction ms as [|[n m] ms IH]; intros c o w w' r H; cbn in H; [now injection H as <- _|].
  destruct (connect E m c o w) as [w1 [v|e|]] eqn:HB; apply hook_connect in HB; try (injection H as <- _; exact HB).
  apply IH in H. congruence.
Qed.
Lemma hook_pure : forall o (w w' : world U) r, keeps_hook o -> is_pure o = true ->
  pure_step E o w = Some (w', r) -> w_hook w' = w_hook w.
Proof.
  intros o w w' r HA Hp H. destruct o; try discriminate Hp; unfold pure_step in H;
    cbn [step] in H; unfold lift in H; try (injection H as <- _; reflexivity).
  - injection H as H. eapply hook_connect; eauto.
  - injection H as H. unfold connect_direct in H.
    destruct (s_members (w_sg w r0)) as [ms|]; [|injection H as <- _; reflexivity]. eapply hook_connect_each; eauto.
  - injection H as H. unfold connect_setattr in H.
    destruct (w_dead w ob); [injection H as <- _; reflexivity|].
    destruct (negb _); [injection H as <- _; reflexivity|].
    destruct (weak_setattr _ _ _ _ _ _ _); injection H as <- _; [apply hook_add|reflexivity].
  - injection H as H. unfold connect_setitem in H.
    destruct (w_dead w ob); [injection H as <- _; reflexivity|].
    destruct (negb _); [injection H as <- _; reflexivity|].
    destruct (weak_setitem _ _ _ _ _ _ _); injection H as <- _; [apply hook_add|reflexivity].
  - injection H as H. eapply hook_disconnect; eauto.
  - injection H as H. pose proof (hook_try_discard s (KSetattr ob a) missing_ok w) as HT.
    rewrite H in HT. exact HT.
  - destruct (e_hasattr E ob "__setitem__").
    + injection H as H. pose proof (hook_try_discard s (KSetitem ob k) missing_ok w) as HT.
      rewrite H in HT. exact HT.
    + injection H as <- _; reflexivity.
  - injection H as <- _. unfold block. destruct (s_members _); [|reflexivity].
    rewrite hook_fold; [reflexivity|]. intros w1 [n m]. unfold block_member. destruct (excluded _ _ _); reflexivity.
  - injection H as <- _. unfold unblock. destruct (s_members _); [|reflexivity].
    rewrite hook_fold; [reflexivity|]. intros w1 [n m]. unfold unblock_member.
    destruct (assoc_get _ _) as [[|]|]; reflexivity.
  - injection H as <- _. unfold kill. destruct (w_dead w o); [reflexivity|].
    rewrite hook_fold; [reflexivity|]. intros w1 [[o' s'] k']. apply hook_try_discard.
  - destruct HA.
  - destruct (f (w_usr w)) as [u [v|e]]; injection H as <- _; reflexivity.
Qed.
Lemma framed_hook : framed E keeps_hook (fun _ => True) hooked (fun _ _ => hooked).
Proof.
  assert (HT : forall a b c r r', hooked a b r -> hooked b c r' -> hooked a c r').
  { unfold hooked; intros; congruence. }
  constructor; unfold hooked in *; intros; auto; try congruence; try reflexivity.
  - eapply hook_pure; eauto.
  - destruct (started_w s args w) as (_ & _ & _ & _ & _ & _ & _ & _ & HS). rewrite HS in H2.
    destruct r; [| |exact H2]; cbn; exact H2.
  - destruct r; [| |exact H1]; cbn; exact H1.
  - destruct r; cbn in *; exact H0.
  - destruct r; cbn in *; exact H0.
Qed.
End Hook.

(** Whatever the body does, and however it ends, afterwards the hook is the one there was
    before, and the result is the body's.  The body starts with the logger installed. *)
Theorem C32_hook_restored : forall U (E : env U) logger body w w' r,
  runs E (monitor_all logger body) w w' r -> done r ->
  w_hook w' = w_hook w
  /\ exists w1 w2, w_hook w1 = Some logger /\ w_tr w1 = w_tr w /\ runs E body w1 w2 r.
Proof.
  intros U E logger body w w' r H Hd. unfold monitor_all in H.
  apply runs_bind in H as (wa & ra & HG & H). apply runs_call, (steps_pure E) in HG; [|reflexivity].
  injection HG as <- <-. unfold seq in H. apply runs_bind in H as (wb & rb & HG & H).
  apply runs_call, (steps_pure E) in HG; [|reflexivity]. injection HG as <- <-.
  unfold try_finally in H. apply runs_catch in H as (wc & rc & HB & H).
  assert (HN : rc <> Halted) by (intros ->; apply Hd; apply H).
  assert (HF : forall x, runs E (bind (call (OSetHook (match (match w_hook w with Some h => VObj h | None => VNone end)
                                     with VObj h => Some h | _ => None end))) (fun _ => finish x)) wc w' r ->
     w_hook w' = w_hook w /\ r = match x with inl v => Ok v | inr e => Err e end).
  { intros x K. apply runs_bind in K as (wd & rd & K1 & K). apply runs_call, (steps_pure E) in K1; [|reflexivity].
    injection K1 as <- <-.
    assert (K2 : w' = set_hook (match (match w_hook w with Some h => VObj h | None => VNone end)
                                     with VObj h => Some h | _ => None end) wc /\ r = match x with inl v => Ok v | inr e => Err e end).
    { destruct x; cbn [finish] in K; [apply runs_ret in K as [-> ->]|apply runs_throw in K as [-> ->]]; auto. }
    destruct K2 as [-> ->]. split; [|reflexivity]. cbn. destruct (w_hook w); reflexivity. }
  assert (HZ : w_hook w' = w_hook w /\ r = rc).
  { destruct rc; [apply (HF (inl v) H)|apply (HF (inr e) H)|congruence]. }
  destruct HZ as [HZ ->]. split; [exact HZ|]. exists (set_hook (Some logger) w), wc. auto.
Qed.
Definition C32_all_env : env unit := demo (fun f a => match f with 1 => Throw (EUser 4) | _ => Ret VNone end).
Definition C32_all_world := world_of C32_all_env (all_plain Immediate 1) tt 50 [conn 0 1 0; OSetHook (Some 8)].
Example C32_hook_case :
  let w' := after C32_all_env 50 (monitor_all 7 (calls [emit 0 [VInt 5]])) C32_all_world in
  runs C32_all_env (monitor_all 7 (calls [emit 0 [VInt 5]])) C32_all_world w' (Err (EEmitLoop (Some 0) 0 (EUser 4)))
  /\ w_hook C32_all_world = Some 8
  /\ filter (fun e => match e with EHook _ _ _ => true | _ => false end) (w_tr w') = [EHook 7 0 [VInt 5]].
Proof. split; [apply after_runs; vm_compute; reflexivity|]. vm_compute. auto. Qed.
Print Assumptions C32_hook_restored.

(** At every point of a body that does not itself replace the hook, the hook is installed. *)
Theorem C32_hook_during : forall U (E : env U) p w w' r,
  env_all keeps_hook E -> prog_all keeps_hook p -> runs E p w w' r -> w_hook w' = w_hook w.
Proof. intros U E p w w' r HE HP H. exact (frame_runs E _ _ _ _ (framed_hook E) HE p w w' r HP H). Qed.
Example C32_hook_during_case : env_all keeps_hook C32_all_env
  /\ prog_all keeps_hook (calls [emit 0 [VInt 5]] : prog unit).
Proof. split; [apply demo_all; intros f a; allp|allp]. Qed.
Print Assumptions C32_hook_during.

(** With the hook installed, each emit() that is not blocked, paused or rejected calls the
    logger once with EmissionInfo(s, args), before any callback; the others do not call it. *)
Theorem C32_hook_reported : forall U (E : env U) s args cn ct h w w' r,
  steps E (OEmit s args cn ct) w w' r -> w_hook w = Some h ->
  (goes_through E s args cn ct w /\
   exists w1 w2 r2 t, w_tr w1 = w_tr w ++ [EEmit s args (w_usr w); EHook h s args]
     /\ runs E (e_body E (TFun h [] []) [VInfo s args] w1) w1 w2 r2
     /\ w_tr w' = w_tr w2 ++ t
     /\ match r2 with Ok _ => True | _ => w' = w2 /\ r = r2 end)
  \/ (~ goes_through E s args cn ct w /\ w_tr w' = w_tr w ++ [EEmit s args (w_usr w)]).
Proof.
  intros U E s args cn ct h w w' r [n H] Hh.
  cbn [step] in H. unfold do_emit in H. cbn [w_sg log set_tr w_hook] in H. unfold goes_through.
  destruct (s_blocked (w_sg w s)) eqn:Hb.
  { right. injection H as <- <-. split; [intros (A & _); discriminate|reflexivity]. }
  destruct (cn && negb (bind_ok (s_params (w_sg w s)) (List.length args))) eqn:Hn.
  { right. injection H as <- <-. apply andb_true_iff in Hn as [-> Hn]. apply negb_true_iff in Hn.
    split; [|reflexivity]. intros (_ & _ & A & _). specialize (A eq_refl). congruence. }
  set (ty := if ct then _ else _) in H. destruct ty as [[|]|e] eqn:Hty.
  2,3: right; injection H as <- <-; split; [|reflexivity]; intros (_ & _ & _ & A); unfold ty in Hty;
       (destruct ct; [rewrite A in Hty by reflexivity|]); discriminate.
  destruct (s_paused (w_sg w s)) eqn:Hp.
  { right. injection H as <- <-. split; [intros (_ & A & _); discriminate|reflexivity]. }
  left. split.
  { split; [reflexivity|]. split; [reflexivity|]. split.
    - intros ->. cbn in Hn. now apply negb_false_iff in Hn.
    - intros ->. exact Hty. }
  rewrite Hh in H. clear Hty ty.
  set (w1 := log (EHook h s args) (log (EEmit s args (w_usr w)) w)) in *.
  destruct (exec E n _ w1) as [[w2 r2]|] eqn:HX; [|discriminate].
  exists w1, w2, r2.
  assert (HT : w_tr w1 = w_tr w ++ [EEmit s args (w_usr w); EHook h s args]).
  { unfold w1. cbn. rewrite <- app_assoc. reflexivity. }
  assert (HB : exists t, w_tr w' = w_tr w2 ++ t).
  { destruct r2; try (injection H as <- <-; exists []; now rewrite app_nil_r).
    assert (K := frame_run_emit_loop E _ _ _ _ (framed_based E) (fun _ => True)).
    specialize (K (conj (fun _ _ _ => I) (fun _ _ => I)) (exec E n)).
    assert (B : based w2 w' r).
    { eapply K; [| |left; exact I|exact H].
      - intros p a b c _ Hx. eapply runs_based. exists n. exact Hx.
      - intros q ar a b c Hx. eapply runs_based. exists n. exact Hx. }
    destruct B as [_ _ (t & T & _)]. now exists t. }
  destruct HB as (t & Ht). exists t. repeat split; auto.
  - exists n. exact HX.
  - destruct r2; auto; injection H as <- <-; auto.
Qed.
Example C32_hook_reported_case :
  let w := after1 C32_all_env 9 (OSetHook (Some 7)) C32_all_world in
  let w' := after1 C32_all_env 50 (emit 0 [VInt 5]) w in
  steps C32_all_env (emit 0 [VInt 5]) w w' (Err (EEmitLoop (Some 0) 0 (EUser 4))) /\ w_hook w = Some 7
  /\ goes_through C32_all_env 0 [VInt 5] true false w
  /\ filter (fun e => match e with EHook _ _ _ => true | _ => false end) (w_tr w') = [EHook 7 0 [VInt 5]].
Proof. split; [ran|]. vm_compute. repeat split; auto; discriminate. Qed.
Print Assumptions C32_hook_reported.

(** Which signals monitor_events(obj) connects to: all of a group; of other objects, those among the attributes that are
    not private or asked for, for a group its relay; each as often as it occurs.  Getters that raise AttributeError are
    passed over. *)
Definition visible (private : bool) (na : string * attr) : bool := private || negb (String.prefix "_" (fst na)).
Definition signal_in (a : attr) : list sid := match a with ASig s | AGroup s => [s] | _ => [] end.
Theorem C32_signals : forall o private ss, iter_signal_instances o private = (ss, None) ->
  match o with
  | WGroup ms => List.length ss = List.length ms /\ forall s, In s ss <-> exists n, In (n, s) ms
  | WObj l => ss = flat_map (fun na => signal_in (snd na)) (filter (visible private) l)
      /\ forall n e, In (n, AFails e) l -> visible private (n, AFails e) = true -> e = EAttribute
  end.
Proof.
  intros [ms|l] private ss H; cbn in H.
  - injection H as <-. split; [now rewrite map_length|]. intros s. rewrite in_map_iff. split.
    + intros ((n, s') & <- & Hx). now exists n.
    + intros (n & Hn). now exists (n, s).
  - assert (PR : forall n, is_private n = String.prefix "_" n).
    { intros [|c n]; [reflexivity|].
      change (String.prefix "_" (String c n)) with (if Ascii.ascii_dec "_"%char c then String.prefix "" n else false).
      cbn [is_private]. rewrite Ascii.eqb_sym. destruct (Ascii.eqb_spec "_"%char c) as [E|E]; destruct (Ascii.ascii_dec "_"%char c); try contradiction;
        [now destruct n|reflexivity]. }
    revert ss H. induction l as [|[n a] l IH]; intros ss H; cbn [iter_attrs] in H.
    { injection H as <-. split; [reflexivity|intros n e []]. }
    cbn [filter]. rewrite PR in H. unfold visible at 1. cbn [fst].
    replace (private || negb (String.prefix "_" n)) with (negb (negb private && String.prefix "_" n)) by now destruct private, (String.prefix "_" n).
    destruct (negb private && String.prefix "_" n) eqn:EP; cbn [negb].
    { destruct (IH ss H) as [A B]. split; [exact A|]. intros m e [Hx|Hx] Hv; [|now apply (B m)].
      injection Hx as <- ->. unfold visible in Hv. cbn [fst] in Hv. destruct private, (String.prefix "_" n); discriminate. }
    cbn [flat_map snd].
    destruct a as [s|s| |e].
    + destruct (iter_attrs private l) as [ss' e'] eqn:EI. injection H as <- ->. destruct (IH ss' eq_refl) as [-> B].
      split; [reflexivity|]. intros m e [Hx|Hx]; [discriminate|now apply B].
    + destruct (iter_attrs private l) as [ss' e'] eqn:EI. injection H as <- ->. destruct (IH ss' eq_refl) as [-> B].
      split; [reflexivity|]. intros m e [Hx|Hx]; [discriminate|now apply B].
    + destruct (IH ss H) as [-> B]. split; [reflexivity|]. intros m e [Hx|Hx]; [discriminate|now apply B].
    + destruct e; try discriminate H. destruct (IH ss H) as [-> B]. split; [reflexivity|].
      intros m e [Hx|Hx]; [injection Hx as <- <-; reflexivity|now apply B].
Qed.
Example C32_signals_case :
  iter_signal_instances C32_obj false = ([1; 3; 0], None)
  /\ iter_signal_instances (WObj [("_p", ASig 4); ("a", ASig 1); ("b", AGroup 2); ("c", AFails EAttribute); ("d", AOther)]) false = ([1; 2], None)
  /\ iter_signal_instances (WObj [("_p", ASig 4); ("a", ASig 1)]) true = ([4; 1], None)
  /\ iter_signal_instances (WGroup [("a", 4); ("b", 5)]) false = ([4; 5], None).
Proof. repeat split; reflexivity. Qed.
Print Assumptions C32_signals.

(** ** What is not so *)

(** An attribute whose getter raises ends monitor_events(obj) before its body, with the
    report functions connected so far left in place for good. *)
Theorem C32_leak_refuted : exists (E : env unit) rep o w w' e,
  reachable E w /\ new_functions rep w /\ idle_unlinked w
  /\ (forall s, is_report E 7 s (rep 0))
  /\ runs E (monitor_obj rep o false (numbered (fst (iter_signal_instances o false))) (Ret VNone)) w w' (Err e)
  /\ s_slots (w_sg w 0) = [] /\ map w_key (s_slots (w_sg w' 0)) = [KFunc (rep 0)].
Proof.
  pose (E := Env (fun t a w => Ret VNone) (fun _ _ => Ret VNone) (fun _ => true) (fun _ => "f"%string)
      (fun _ => SSig [Param VarPos false (AStr (AClass 2)); Param KwOnly true (AStr (AClass 3))])
      Nat.eqb (fun _ => 0) (fun _ _ => true) : env unit).
  pose (w := world_of E (all_plain Immediate 1) tt 50 []).
  pose (o := WObj [("a", ASig 0); ("b", AFails (EUser 1))]).
  pose (p := monitor_obj C32_rep o false (numbered (fst (iter_signal_instances o false))) (Ret VNone) : prog unit).
  exists E, C32_rep, o, w, (after E 50 p w), (EUser 1).
  assert (HS : forall x, s_slots (w_sg w x) = []) by (intros x; vm_compute; reflexivity).
  split; [reach|]. split.
  { split; [unfold C32_rep; intros; lia|]. intros i x c. rewrite HS. intros []. }
  split. { intros r x _ _ c. rewrite HS. intros []. }
  split; [split; [intros; reflexivity|reflexivity]|].
  split; [apply after_runs; vm_compute; reflexivity|]. vm_compute. auto.
Qed.
Print Assumptions C32_leak_refuted.

(** The same for a signal that checks the types of its callbacks: monitor_events(obj) fails,
    and the signals visited before keep their report function. *)
Theorem C32_leak_types_refuted : exists (E : env unit) rep o w w' e,
  reachable E w /\ new_functions rep w /\ idle_unlinked w
  /\ (forall i s, is_report E 7 s (rep i))
  /\ iter_signal_instances o false = ([0; 1], None)
  /\ runs E (monitor_obj rep o false (numbered [0; 1]) (Ret VNone)) w w' (Err e)
  /\ s_slots (w_sg w 0) = [] /\ map w_key (s_slots (w_sg w' 0)) = [KFunc (rep 0)].
Proof.
  pose (E := Env (fun t a w => Ret VNone) (fun _ _ => Ret VNone) (fun _ => true) (fun _ => "f"%string)
      (fun _ => SSig [Param VarPos false (AStr (AClass 2)); Param KwOnly true (AStr (AClass 3))])
      Nat.eqb (fun _ => 0) (fun _ _ => true) : env unit).
  pose (cfg := fun s : sid => match s with
     | 1 => set_chkt true (new_signal Immediate [Param PosOnly false (AClass 5)])
     | _ => new_signal Immediate [Param PosOnly false (AClass 5)] end).
  pose (w := init_world cfg tt : world unit).
  pose (o := WObj [("a", ASig 0); ("b", ASig 1)]).
  pose (p := monitor_obj C32_rep o false (numbered [0; 1]) (Ret VNone) : prog unit).
  exists E, C32_rep, o, w, (after E 50 p w), EValue.
  assert (HS : forall x, s_slots (w_sg w x) = []) by (intros [|[|x]]; vm_compute; reflexivity).
  split. { exists cfg, tt, (Ret VNone), (Ok VNone). split; [intros [|[|x]]; repeat split|]. split.
           - intros r ms x y H. destruct r as [|[|r]]; discriminate.
           - apply runs_ret. auto. }
  split.
  { split; [unfold C32_rep; intros; lia|]. intros i x c. rewrite HS. intros []. }
  split. { intros r x _ _ c. rewrite HS. intros []. }
  split; [intros; split; [intros; reflexivity|reflexivity]|]. split; [reflexivity|].
  split; [apply after_runs; vm_compute; reflexivity|]. vm_compute. auto.
Qed.
Print Assumptions C32_leak_types_refuted.

(** A signal that is found under two names reports each emission twice. *)
Theorem C32_alias_refuted : exists (E : env unit) rep o w w',
  reachable E w /\ new_functions rep w /\ (forall i, is_report E 7 0 (rep i))
  /\ iter_signal_instances o false = ([0; 0], None)
  /\ runs E (monitor_obj rep o false (numbered [0; 0]) (calls [emit 0 [VInt 5]])) w w' (Ok VNone)
  /\ filter (fun e => match e with ECall _ _ _ _ => true | _ => false end) (w_tr w')
     = [ECall 2 0 0 [VInt 5]; ECall 2 0 1 [VInt 5]].
Proof.
  pose (E := Env (fun t a w => Ret VNone) (fun _ _ => Ret VNone) (fun _ => true) (fun _ => "f"%string)
      (fun _ => SSig [Param VarPos false (AStr (AClass 2)); Param KwOnly true (AStr (AClass 3))])
      Nat.eqb (fun _ => 0) (fun _ _ => true) : env unit).
  pose (w := world_of E (all_plain Immediate 1) tt 50 []).
  pose (o := WObj [("a", ASig 0); ("b", ASig 0)]).
  pose (p := monitor_obj C32_rep o false (numbered [0; 0]) (calls [emit 0 [VInt 5]]) : prog unit).
  exists E, C32_rep, o, w, (after E 50 p w).
  assert (HS : forall x, s_slots (w_sg w x) = []) by (intros x; vm_compute; reflexivity).
  split; [reach|]. split.
  { split; [unfold C32_rep; intros; lia|]. intros i x c. rewrite HS. intros []. }
  split; [intros; split; [intros; reflexivity|reflexivity]|]. split; [reflexivity|].
  split; [apply after_runs; vm_compute; reflexivity|]. vm_compute. reflexivity.
Qed.
Print Assumptions C32_alias_refuted.

(** An emission by emit_fast is not reported by monitor_events(), although callbacks are called. *)
Theorem C32_fast_refuted : exists (E : env unit) w w',
  reachable E w /\ runs E (monitor_all 7 (calls [OEmitFast 0 [VInt 5]])) w w' (Ok VNone)
  /\ filter (fun e => match e with ECall _ _ _ _ | EHook _ _ _ => true | _ => false end) (w_tr w')
     = [ECall 1 0 0 [VInt 5]].
Proof.
  pose (E := demo (fun _ _ => Ret VNone) : env unit).
  pose (w := world_of E (all_plain Immediate 1) tt 50 [conn 0 1 0]).
  exists E, w, (after E 50 (monitor_all 7 (calls [OEmitFast 0 [VInt 5]])) w).
  split; [reach|]. split; [apply after_runs; vm_compute; reflexivity|]. vm_compute. reflexivity.
Qed.
Print Assumptions C32_fast_refuted.
