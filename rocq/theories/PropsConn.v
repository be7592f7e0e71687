(** Connections: C04, C12-C14, C21, C27, C30.  Each theorem is followed by a concrete
    case that meets its hypotheses, and by its assumptions. *)

From Verif Require Import Base Core Frame Fuel Conn Keep Spec Trace Inv Dead Rest Quiet
  Emission Gone Shrink Arity Demo.
Open Scope Z_scope.
Open Scope string_scope.
Open Scope nat_scope.
Open Scope list_scope.

Lemma gone_never : forall U (w : world U) u, gone u w -> never_called u w.
Proof.
  intros U w u HG E p w' r HR. destruct (runs_gone E u p w w' r HR HG) as (_ & t & T & F).
  exists t. split; [exact T|]. intros e He Hd. rewrite Forall_forall in F. specialize (F e He).
  destruct e; cbn in *; congruence.
Qed.
Lemma steps_nxt : forall U (E : env U) o w w' r, steps E o w w' r -> w_nxt w <= w_nxt w'.
Proof. intros U E o w w' r H. exact (bg_nxt _ _ _ _ (steps_based _ _ _ _ _ H)). Qed.
(** A connection that is no longer there after a call that only removes connections. *)
Lemma shrunk_gone : forall U (E0 E : env U) o w w' r s c, reachable E0 w -> steps E o w w' r ->
  shrinks w w' -> In c (s_slots (w_sg w s)) -> ~ In c (s_slots (w_sg w' s)) -> gone (w_uid c) w'.
Proof.
  intros U E0 E o w w' r s c HR HS Hsh HI HN. destruct (reachable_distinct E0 w HR) as [HD HY]. split.
  - specialize (HY s c HI). apply steps_nxt in HS. lia.
  - intros x d Hd Hu. destruct (HD x s d c) as [-> ->]; auto. eapply subseq_In; [apply Hsh|exact Hd].
Qed.

(** No connection occurs twice in a list of slots. *)
Lemma once : forall U (E : env U) w s a x b, reachable E w -> s_slots (w_sg w s) = a ++ x :: b -> ~ In x (a ++ b).
Proof.
  intros U E w s a x b HR H1. destruct (reachable_ordered E w HR s) as [HO _]. rewrite H1 in HO. clear - HO. intros HI.
  assert (HX : before x x).
  { apply in_app_iff in HI as [HI|HI].
    - induction a as [|y a IH]; [destruct HI|]. inversion HO; subst. destruct HI as [->|HI]; auto.
      rewrite Forall_forall in H2. apply H2, in_or_app. right; now left.
    - induction a as [|y a IH]; inversion HO; subst; auto. rewrite Forall_forall in H2. auto. }
  destruct HX as [HX|[_ HX]]; lia.
Qed.

(** * C12 *)

Theorem C12_connect : forall U (E0 E : env U) s c o w w' r,
  reachable E0 w -> steps E (OConnect s c o) w w' r ->
  (w' = w /\ exists e, r = Err e)
  \/ (w' = w /\ r = Ok VNone /\ c_unique o = UTrue
      /\ exists x, In x (s_slots (w_sg w s)) /\ key_of E c = inl (w_key x))
  \/ (r = Ok VNone /\ exists x pre post,
        key_of E c = inl (w_key x) /\ w_prio x = c_prio o
        /\ s_slots (w_sg w s) = pre ++ post /\ s_slots (w_sg w' s) = pre ++ x :: post
        /\ (forall t, t <> s -> ~ In t (members_of w s) -> s_slots (w_sg w' t) = s_slots (w_sg w t))).
Proof.
  intros U E0 E s c o w w' r HR HS. apply steps_pure in HS; [|reflexivity].
  injection HS as HS. destruct (connect_cases E _ _ _ _ _ _ HS) as [H|[H|H]]; [now left| |].
  - destruct H as (-> & -> & HU & k & Hk & HH). right; left. repeat split; auto.
    apply has_key_spec in HH as (x & Hx & Hkx). exists x. now rewrite Hkx.
  - destruct H as (-> & x & -> & Hk & _ & Hp & _ & _). right; right. split; [reflexivity|].
    destruct (add_wcb_self s x w (reachable_flat E0 w HR)) as (a & b & Ha & Hb).
    exists x, a, b. repeat (split; [assumption|]). intros t Ht Hm. apply add_wcb_other; auto.
Qed.
Theorem C12_disconnect : forall U (E0 E : env U) s c mo k w w' r,
  reachable E0 w -> s_members (w_sg w s) = None -> key_of E c = inl k ->
  steps E (ODisconnect s (Some (RCallable c)) mo) w w' r ->
  (exists x pre post, r = Ok VNone
     /\ s_slots (w_sg w s) = pre ++ x :: post /\ s_slots (w_sg w' s) = pre ++ post
     /\ w_key x = k /\ (forall y, In y pre -> w_key y <> k)
     /\ (forall t, t <> s -> w_sg w' t = w_sg w t)
     /\ never_called (w_uid x) w')
  \/ ((forall y, In y (s_slots (w_sg w s)) -> w_key y <> k) /\ w' = w
      /\ r = if mo then Ok VNone else Err EValue).
Proof.
  intros U E0 E s c mo k w w' r HR Hm Hk HS0. pose proof HS0 as HS. apply steps_pure in HS; [|reflexivity].
  injection HS as HS. pose proof (disconnect_shrinks E _ _ _ _ _ _ HS) as Hsh.
  unfold disconnect in HS. rewrite Hm in HS. unfold disconnect_base in HS. cbn [key_of_ref] in HS.
  rewrite Hk in HS. unfold remove_key in HS.
  destruct (remove_first k (s_slots (w_sg w s))) as [l|] eqn:HR1.
  - left. pose proof HR1 as HR2. apply remove_first_spec in HR2 as (a & x & b & H1 & H2 & H3 & H4).
    assert (HW : after_remove s (upd s (set_slots l) w) = upd s (set_slots l) w).
    { unfold after_remove. rewrite upd_same. cbn [s_members set_slots]. now rewrite Hm. }
    rewrite HW in HS. injection HS as <- <-. exists x, a, b. rewrite upd_same. cbn [s_slots set_slots].
    repeat (split; [assumption||reflexivity|]). split; [intros t Ht; now rewrite upd_other|].
    apply gone_never. eapply shrunk_gone; eauto; [rewrite H1; apply in_or_app; right; now left|].
    rewrite upd_same. cbn [s_slots set_slots]. rewrite H2. eapply once; eauto.
  - right. pose proof (proj1 (remove_first_none _ _) HR1). injection HS as <- <-. auto.
Qed.
Theorem C12_disconnect_all : forall U (E0 E : env U) s mo w w' r,
  reachable E0 w -> s_members (w_sg w s) = None ->
  steps E (ODisconnect s None mo) w w' r ->
  r = Ok VNone /\ s_slots (w_sg w' s) = [] /\ (forall t, t <> s -> w_sg w' t = w_sg w t)
  /\ (forall x, In x (s_slots (w_sg w s)) -> never_called (w_uid x) w').
Proof.
  intros U E0 E s mo w w' r HR Hm HS0. pose proof HS0 as HS. apply steps_pure in HS; [|reflexivity].
  injection HS as HS. pose proof (disconnect_shrinks E _ _ _ _ _ _ HS) as Hsh.
  unfold disconnect in HS. rewrite Hm in HS. unfold disconnect_base, remove_all, after_remove in HS.
  rewrite upd_same in HS. cbn [s_members set_slots] in HS. rewrite Hm in HS. injection HS as <- <-.
  split; [reflexivity|]. split; [now rewrite upd_same|]. split; [intros t Ht; now rewrite upd_other|].
  intros x Hx. apply gone_never. eapply shrunk_gone; eauto. rewrite upd_same. cbn. tauto.
Qed.
Theorem C12_len : forall U (E : env U) s w w' r, steps E (OLen s) w w' r ->
  w' = w /\ r = Ok (VInt (Z.of_nat (List.length (s_slots (w_sg w s))))).
Proof. intros U E s w w' r H. apply steps_pure in H; [|reflexivity]. injection H as <- <-. auto. Qed.
Theorem C12_in : forall U (E : env U) s c k w w' r, key_of E c = inl k ->
  steps E (OContains s c) w w' r ->
  w' = w /\ exists b, r = Ok (VBool b)
    /\ (b = true <-> exists x, In x (s_slots (w_sg w s)) /\ w_key x = k).
Proof.
  intros U E s c k w w' r Hk H. apply steps_pure in H; [|reflexivity]. unfold pure_step in H.
  cbn [step] in H. rewrite Hk in H. injection H as <- <-. split; [reflexivity|].
  eexists. split; [reflexivity|]. apply has_key_spec.
Qed.
(** connect, then disconnect of a callable that was not connected: as before. *)
Theorem C12_roundtrip : forall U (E0 E : env U) s c o mo k w w1 w2 r1,
  reachable E0 w -> s_members (w_sg w s) = None -> key_of E c = inl k ->
  (forall y, In y (s_slots (w_sg w s)) -> w_key y <> k) ->
  steps E (OConnect s c o) w w1 (Ok VNone) ->
  steps E (ODisconnect s (Some (RCallable c)) mo) w1 w2 r1 ->
  r1 = Ok VNone /\ forall t, s_slots (w_sg w2 t) = s_slots (w_sg w t).
Proof.
  intros U E0 E s c o mo k w w1 w2 r1 HR Hm Hk Hn H1 H2.
  apply steps_pure in H1; [|reflexivity]. injection H1 as H1.
  destruct (connect_cases E _ _ _ _ _ _ H1) as [(_ & e & He)|[H|H]]; [discriminate| |].
  { destruct H as (_ & _ & _ & k' & Hk' & HH). rewrite Hk in Hk'. injection Hk' as <-.
    apply has_key_spec in HH as (y & Hy & Hyk). exfalso. eapply Hn; eauto. }
  destruct H as (_ & x & -> & Hkx & _). rewrite Hk in Hkx. injection Hkx as Hkx.
  destruct (add_wcb_self s x w (reachable_flat E0 w HR)) as (a & b & Ha & Hb).
  assert (HM : s_members (w_sg (add_wcb s x w) s) = None).
  { rewrite <- Hm. apply static_members. apply keeps_add_wcb. }
  apply steps_pure in H2; [|reflexivity]. injection H2 as H2. unfold disconnect in H2.
  rewrite HM in H2. unfold disconnect_base in H2. cbn [key_of_ref] in H2. rewrite Hk in H2.
  unfold remove_key in H2.
  assert (HF : remove_first k (s_slots (w_sg (add_wcb s x w) s)) = Some (a ++ b)).
  { apply remove_first_spec. exists a, x, b. repeat split; auto. intros y Hy. apply Hn. rewrite Ha.
    apply in_or_app; now left. }
  rewrite HF in H2.
  assert (HW : after_remove s (upd s (set_slots (a ++ b)) (add_wcb s x w)) = upd s (set_slots (a ++ b)) (add_wcb s x w)).
  { unfold after_remove. rewrite upd_same. cbn [s_members set_slots]. now rewrite HM. }
  rewrite HW in H2. injection H2 as <- <-. split; [reflexivity|]. intros t. dec_sid t s.
  - rewrite upd_same. cbn. now rewrite Ha.
  - rewrite upd_other by assumption. apply add_wcb_other; auto. unfold members_of. now rewrite Hm.
Qed.
(** Function 1 connected twice among others. *)
Definition C12_env : env unit := demo (fun _ _ => Ret VNone).
Definition C12_world := world_of C12_env (all_plain Immediate 0) tt 50
  [conn 0 1 0; conn 0 2 3; conn 0 1 5; conn 0 3 0].
Example C12_case :
  reachable C12_env C12_world /\ s_members (w_sg C12_world 0) = None
  /\ map w_uid (s_slots (w_sg C12_world 0)) = [2; 1; 0; 3]
  /\ (let w' := after1 C12_env 5 (conn 0 4 1) C12_world in map w_uid (s_slots (w_sg w' 0)) = [2; 1; 4; 0; 3])
  /\ (let w' := after1 C12_env 5 (ODisconnect 0 (Some (RCallable (fn 1))) false) C12_world in
      map w_uid (s_slots (w_sg w' 0)) = [1; 0; 3])
  /\ outcome1 C12_env 5 (OLen 0) C12_world = Some (Ok (VInt 4))
  /\ outcome1 C12_env 5 (OContains 0 (fn 3)) C12_world = Some (Ok (VBool true))
  /\ outcome1 C12_env 5 (OContains 0 (fn 4)) C12_world = Some (Ok (VBool false))
  /\ outcome1 C12_env 5 (ODisconnect 0 (Some (RCallable (fn 4))) false) C12_world = Some (Err EValue)
  /\ outcome1 C12_env 5 (ODisconnect 0 (Some (RCallable (fn 4))) true) C12_world = Some (Ok VNone)
  /\ outcome1 C12_env 5 (ODisconnect 0 None true) C12_world = Some (Ok VNone).
Proof. split; [reach|]. vm_compute. repeat split. Qed.
Print Assumptions C12_connect.
Print Assumptions C12_disconnect.
Print Assumptions C12_disconnect_all.
Print Assumptions C12_len.
Print Assumptions C12_in.
Print Assumptions C12_roundtrip.

(** * C13 *)

Section Unique.
Context {U : Type} (E : env U) (s : sid).
Definition nodup (w : world U) : Prop := flat w /\ NoDup (map w_key (s_slots (w_sg w s))).

Lemma relay_added_NoDup : forall r l l', relay_added r l l' -> NoDup (map w_key l) -> NoDup (map w_key l').
Proof.
  intros r l l' [->|(HK & a & b & x & -> & -> & Hx)] HN; [exact HN|].
  rewrite map_app in *. cbn. apply NoDup_Add with (a := w_key x) (l := map w_key a ++ map w_key b);
    [apply Add_app|]. split; [exact HN|]. rewrite <- map_app. intros HI.
  apply in_map_iff in HI as (y & Hy & HI).
  assert (has_key (KRelay r) (a ++ b) = true); [|congruence]. apply has_key_spec. exists y. split; congruence.
Qed.
Lemma add_NoDup : forall x c (w : world U), nodup w ->
  (x = s -> has_key (w_key c) (s_slots (w_sg w s)) = false) -> NoDup (map w_key (s_slots (w_sg (add_wcb x c w) s))).
Proof.
  intros x c w [HF HN] HK. destruct (Nat.eq_dec s x) as [<-|Hx].
  - destruct (add_wcb_self s c w HF) as (a & b & Ha & Hb). rewrite Hb. rewrite Ha in HN.
    rewrite map_app in *. cbn. apply NoDup_Add with (a := w_key c) (l := map w_key a ++ map w_key b);
      [apply Add_app|]. split; [exact HN|]. rewrite <- map_app, <- Ha. intros HI.
    apply in_map_iff in HI as (y & Hy & HI). specialize (HK eq_refl).
    assert (has_key (w_key c) (s_slots (w_sg w s)) = true); [|congruence].
    apply has_key_spec. exists y. split; congruence.
  - eapply relay_added_NoDup; [apply add_wcb_member; exact Hx|exact HN].
Qed.
Lemma connect_NoDup : forall x c o (w w' : world U) r, connect E x c o w = (w', r) -> nodup w ->
  (x = s -> c_unique o <> UFalse) -> nodup w'.
Proof.
  intros x c o w w' r H HN HU. split.
  - eapply flat_static; [|apply HN]. apply (keeps_connect E _ _ _ _ _ _ H).
  - destruct (connect_cases E _ _ _ _ _ _ H) as [(-> & _)|[(-> & _)|(_ & y & -> & _ & _ & _ & _ & Hk)]];
      [apply HN|apply HN|]. apply add_NoDup; [exact HN|]. intros ->. apply Hk; auto.
Qed.
Lemma shrinks_nodup : forall (w w' : world U), keeps w w' -> shrinks w w' -> nodup w -> nodup w'.
Proof.
  intros w w' HK HS [HF HN]. split; [eapply flat_static; [|exact HF]; apply HK|].
  eapply subseq_NoDup; [apply HS|exact HN].
Qed.
Lemma same_nodup : forall (w w' : world U), conn_same w w' -> nodup w -> nodup w'.
Proof.
  intros w w' (H1 & _) [HF HN]. split.
  - intros r ms n m Hr Hi. rewrite (proj2 (proj2 (H1 r))) in Hr. rewrite (proj2 (proj2 (H1 m))). eapply HF; eauto.
  - rewrite (proj1 (H1 s)). exact HN.
Qed.
Lemma pure_nodup : forall o (w w' : world U) r, only_unique s o -> is_pure o = true ->
  pure_step E o w = Some (w', r) -> nodup w -> nodup w'.
Proof.
  intros o w w' r HU Hp H HN. pose proof (pure_keeps E o w w' r Hp H) as HK.
  destruct o; try discriminate Hp; unfold pure_step in H; cbn [step] in H; unfold lift in H;
    try (injection H as <- _; exact HN); cbn in HU.
  - injection H as H. eapply connect_NoDup; eauto.
  - injection H as H. unfold connect_direct in H.
    destruct (s_members (w_sg w r0)) as [ms|]; [|injection H as <- _; exact HN].
    remember (Copts _ _ _ _ _ _ _) as oo. assert (HO : c_unique oo <> UFalse) by now rewrite Heqoo.
    clear Heqoo HK. revert w HN H. induction ms as [|[nm m] ms IH]; intros w HN H; cbn in H.
    + injection H as <- _; exact HN.
    + destruct (connect E m c oo w) as [w1 [v|e|]] eqn:EC; (eapply connect_NoDup in EC; [|exact HN|auto]).
      * eapply IH; eauto.
      * injection H as <- _. exact EC.
      * injection H as <- _. exact EC.
  - injection H as H. split; [eapply flat_static; [apply HK|apply HN]|].
    unfold connect_setattr in H. repeat (dm H; try (injection H as <- _; apply HN)).
    injection H as <- _. apply add_NoDup; [exact HN|tauto].
  - injection H as H. split; [eapply flat_static; [apply HK|apply HN]|].
    unfold connect_setitem in H. repeat (dm H; try (injection H as <- _; apply HN)).
    injection H as <- _. apply add_NoDup; [exact HN|tauto].
  - injection H as H. eapply shrinks_nodup; [exact HK| |exact HN]. eapply disconnect_shrinks; eauto.
  - injection H as H. eapply shrinks_nodup; [exact HK| |exact HN].
    pose proof (try_discard_shrinks s0 (KSetattr ob a) missing_ok w) as HT. now rewrite H in HT.
  - destruct (e_hasattr E ob "__setitem__"); [|injection H as <- _; exact HN].
    injection H as H. eapply shrinks_nodup; [exact HK| |exact HN].
    pose proof (try_discard_shrinks s0 (KSetitem ob k) missing_ok w) as HT. now rewrite H in HT.
  - injection H as <- _. eapply same_nodup; [apply conn_same_block|exact HN].
  - injection H as <- _. eapply same_nodup; [apply conn_same_unblock|exact HN].
  - injection H as <- _. eapply same_nodup; [apply conn_same_upd; reflexivity|exact HN].
  - injection H as <- _. eapply shrinks_nodup; [exact HK| |exact HN]. apply kill_shrinks.
  - destruct (f (w_usr w)) as [u [v|e]]; injection H as <- _; exact HN.
Qed.
End Unique.

Theorem C13_unique : forall U (E : env U) s w, reachable_by (only_unique s) E w ->
  NoDup (map w_key (s_slots (w_sg w s))).
Proof.
  intros U E s w (HE & cfg & u & p & r & Hc & Hf & Hp & HR).
  apply (frame_runs E _ _ _ _ (framed_conn E (only_unique s) (nodup s) (same_nodup s) (pure_nodup E s)) HE p _ _ _ Hp HR).
  split; [exact Hf|]. cbn. destruct (Hc s) as (Hs & _). rewrite Hs. constructor.
Qed.
Theorem C13_again : forall U (E : env U) s c o k w w' r,
  callable_dead w c = false -> key_of E c = inl k -> c_unique o <> UFalse ->
  (exists x, In x (s_slots (w_sg w s)) /\ w_key x = k) ->
  steps E (OConnect s c o) w w' r ->
  w' = w /\ r = match c_unique o with URaise => Err EValue | _ => Ok VNone end.
Proof.
  intros U E s c o k w w' r Hd Hk HU Hx HS. apply steps_pure in HS; [|reflexivity]. injection HS as HS.
  unfold connect in HS. rewrite Hd, Hk in HS. apply has_key_spec in Hx. rewrite Hx in HS.
  destruct (c_unique o); [congruence| |]; injection HS as <- <-; auto.
Qed.
Definition uniquely : copts := Copts None None None UTrue None RefWarn 0%Z.
Definition C13_env : env unit := demo (fun f _ =>
  match f with 1 => calls [OConnect 0 (fn 2) uniquely; OConnect 0 (fn 1) uniquely] | _ => Ret VNone end).
Definition C13_world := world_of C13_env (all_plain Immediate 0) tt 50
  [OConnect 0 (fn 1) uniquely; OConnect 0 (meth 7 1) uniquely; emit 0 []].
Example C13_case :
  reachable_by (only_unique 0) C13_env C13_world
  /\ map w_key (s_slots (w_sg C13_world 0)) = [KFunc 1; KBound 7 "b"; KFunc 2]
  /\ callable_dead C13_world (fn 2) = false
  /\ outcome1 C13_env 5 (OConnect 0 (fn 2) uniquely) C13_world = Some (Ok VNone)
  /\ outcome1 C13_env 5 (OConnect 0 (fn 2) (Copts None None None URaise None RefWarn 0%Z)) C13_world = Some (Err EValue).
Proof.
  split.
  - split. { apply demo_all; intros f a. allp. }
    exists (all_plain Immediate 0), tt, (calls [OConnect 0 (fn 1) uniquely; OConnect 0 (meth 7 1) uniquely; emit 0 []]), (Ok VNone).
    split; [auto with demo|]. split; [auto with demo|]. split; [allp|].
    apply after_runs. vm_compute. reflexivity.
  - vm_compute. repeat split.
Qed.
Print Assumptions C13_unique.
Print Assumptions C13_again.
