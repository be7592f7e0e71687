(** Whole emissions (C02, C03, C05, C08, C09).  Proof infrastructure. *)

From Verif Require Import Base Core Frame Fuel Conn Keep Spec Trace Inv Dead Rest Quiet Deliver.

Section Emission.
Context {U : Type}.
Implicit Types w : world U.

Definition loop_of (ex : prog U -> world U -> option (world U * out)) (E : env U) (f : nat)
  (eid : nat) (s : sid) (args : list val) (md : mode) (w : world U) : option (world U * out) :=
  match md with
  | Immediate => loop_slots ex E f eid s 0 args w
  | Queued => loop_queue ex E f eid s 0 w
  | LatestOnly => loop_latest ex E f eid s 0 args w
  end.

Lemma emit_loop_inv : forall ex E f s args w w' r,
  run_emit_loop ex E f s args w = Some (w', r) ->
  s_depth (w_sg w s) < RECURSION_LIMIT -> s_eq (w_sg w s) = [] ->
  exists w3 r3, loop_of ex E f (w_nxt w) s args (s_mode (w_sg w s)) (started s args w) = Some (w3, r3)
    /\ ((r3 = Halted /\ w' = w3 /\ r = Halted) \/
        (r3 <> Halted /\ w' = leave s (w_cur w) (log (EEnd (w_nxt w) s) w3)
         /\ r = loop_out s (s_depth (w_sg w3 s) - 1) r3)).
Proof.
  intros ex E f s args w w' r H Hd Hq. unfold run_emit_loop in H.
  destruct (Nat.leb_spec RECURSION_LIMIT (s_depth (w_sg w s))) as [Hd'|_]; [lia|].
  rewrite upd_same in H. cbn [s_eq set_eq] in H. rewrite Hq in H.
  cbn [List.length Nat.ltb Nat.leb Nat.add app] in H.
  set (w2 := log _ _) in H.
  assert (HW2 : w2 = entered s args w) by (unfold w2, entered; now rewrite ?Hq).
  clearbody w2. subst w2. cbn -[inner_loop leave entered] in H.
  assert (HI : inner_loop ex E f (w_nxt w) s (entered s args w) =
               loop_of ex E f (w_nxt w) s args (s_mode (w_sg w s)) (started s args w)).
  { unfold inner_loop, started, loop_of. rewrite entered_mode, (entered_eq _ _ _ Hq).
    destruct (s_mode (w_sg w s)); reflexivity. }
  rewrite HI in H. destruct (loop_of _ _ _ _ _ _ _ _) as [[w3 r3]|]; [|discriminate].
  exists w3, r3. split; [reflexivity|].
  destruct r3; injection H as <- <-; [right|right|left]; repeat split; auto; discriminate.
Qed.

Lemma emit_inv : forall E s args cn ct w w' r, steps E (OEmit s args cn ct) w w' r ->
  goes_through E s args cn ct w -> w_hook w = None ->
  exists n, run_emit_loop (exec E n) E n s args (log (EEmit s args (w_usr w)) w) = Some (w', r).
Proof.
  intros E s args cn ct w w' r [n H] (G1 & G2 & G3 & G4) Hh. exists n.
  cbn [step] in H. unfold do_emit in H. cbn [w_sg log set_tr w_hook] in H.
  rewrite G1 in H.
  assert (Hb : cn && negb (bind_ok (s_params (w_sg w s)) (List.length args)) = false).
  { destruct cn; [rewrite (G3 eq_refl)|]; reflexivity. }
  rewrite Hb in H.
  assert (Ht : (if ct then types_match E (map (fun a => Param PosOnly false (AClass (e_type E a))) args)
                     (s_params (w_sg w s)) else inl true) = inl true).
  { destruct ct; [apply G4|]; reflexivity. }
  rewrite Ht, G2, Hh in H. exact H.
Qed.

Lemma fast_inv : forall E s args w w' r, steps E (OEmitFast s args) w w' r ->
  s_blocked (w_sg w s) = false -> s_paused (w_sg w s) = false ->
  s_depth (w_sg w s) < RECURSION_LIMIT ->
  let w0 := log (EEmit s args (w_usr w)) w in
  exists n w3 r3, loop_slots (exec E n) E n (w_nxt w) s 0 args (started_fast s args w0) = Some (w3, r3)
    /\ ((r3 = Halted /\ w' = w3 /\ r = Halted) \/
        (r3 <> Halted /\ w' = left_fast s (log (EEnd (w_nxt w) s) w3) /\ r = loop_out s 0 r3)).
Proof.
  intros E s args w w' r [n H] G1 G2 Hd w0. exists n.
  cbn [step] in H. unfold do_emit_fast in H. cbn [w_sg log set_tr] in H. rewrite G1, G2 in H.
  destruct (Nat.leb_spec RECURSION_LIMIT (s_depth (w_sg w s))); [lia|].
  fold w0 in H. change (w_nxt w0) with (w_nxt w) in H.
  change (log (EStart (w_nxt w) s args)
            (upd s (fun st => set_depth (S (s_depth st)) st) (set_nxt (S (w_nxt w)) w0)))
    with (started_fast s args w0) in H.
  destruct (loop_slots _ _ _ _ _ _ _ _) as [[w3 r3]|]; [|discriminate].
  exists w3, r3. split; [reflexivity|].
  destruct r3; injection H as <- <-; [right|right|left]; repeat split; auto; discriminate.
Qed.

Lemma wrap_surfaces : forall s d e, surfaces s e (wrap_err s d e).
Proof. intros s d e. destruct e; cbn; eauto. Qed.

Lemma live_objects : forall (E0 E : env U) w, same_objects E0 E -> live E0 [] None w -> live E [] None w.
Proof.
  intros E0 E w HO.
  assert (Hr : forall k, ref_of E0 k = ref_of E k).
  { intros k. destruct k; cbn; unfold ref_of; cbn; rewrite ?HO; reflexivity. }
  intros [H1 H2 H3 H4]. constructor.
  - intros s c Hc. rewrite <- Hr. eauto.
  - exact H2.
  - intros s k o Hk. rewrite <- Hr in Hk. eauto.
  - intros o s k Hi. rewrite <- Hr. eauto.
Qed.

Lemma flat_members : forall w, flat w -> forall x m, In m (members_of w x) -> members_of w m = [].
Proof.
  intros w H x m Hm. unfold members_of in *. destruct (s_members (w_sg w x)) as [ms|] eqn:Hx; [|destruct Hm].
  apply in_map_iff in Hm as ([n y] & <- & Hi). cbn. now rewrite (H _ _ _ _ Hx Hi).
Qed.
Lemma flat_self : forall w, flat w -> forall x, ~ In x (members_of w x).
Proof.
  intros w H x Hx. pose proof (flat_members w H x x Hx) as E0. rewrite E0 in Hx. destruct Hx.
Qed.

(** What emissions need to know about the state they start in. *)
Definition sound (E : env U) (w : world U) : Prop := live E [] None w /\ flat w /\ eq_ok w.
Lemma reachable_sound : forall (E0 E : env U) w, reachable E0 w -> same_objects E0 E -> sound E w.
Proof.
  intros E0 E w HR HO. split; [|split].
  - eapply live_objects; [exact HO|]. now apply reachable_live.
  - exact (reachable_flat E0 w HR).
  - exact (reachable_eq_ok E0 w HR).
Qed.

Section At.
Context (E : env U) (q : option Z) (s : sid) (w : world U).
Context (HS0 : sound E w).
Context (HE : env_all (allows (members_of w) s q) E).
Context (HL : low q s w).

Lemma fits_started_from : forall args e,
  fits E (members_of w) q s (started s args (log e w)).
Proof.
  intros args e. constructor.
  - intros x. unfold members_of. rewrite (proj2 (proj2 (proj1 (conn_same_started s args (log e w)) x))). reflexivity.
  - intros p Hp. rewrite started_slots. apply HL. exact Hp.
  - eapply live_same; [apply conn_same_started|]. eapply live_same; [apply conn_same_log|].
    apply HS0.
Qed.
Lemma fits_started_fast_from : forall args e,
  fits E (members_of w) q s (started_fast s args (log e w)).
Proof.
  intros args e. constructor.
  - intros x. unfold members_of.
    rewrite (proj2 (proj2 (proj1 (conn_same_started_fast s args (log e w)) x))). reflexivity.
  - intros p Hp. rewrite (proj1 (proj1 (conn_same_started_fast s args (log e w)) s)). apply HL. exact Hp.
  - eapply live_same; [apply conn_same_started_fast|]. eapply live_same; [apply conn_same_log|].
    apply HS0.
Qed.
Let HF := flat_members w (proj1 (proj2 HS0)).
Let Hself : q <> None -> ~ In s (members_of w s) := fun _ => flat_self w (proj1 (proj2 HS0)) s.

(** Immediate mode; callbacks may append callbacks of lowest priority. *)
Theorem emit_delivers_from : forall args cn ct w' r,
  steps E (OEmit s args cn ct) w w' r -> done r ->
  goes_through E s args cn ct w -> w_hook w = None ->
  s_mode (w_sg w s) = Immediate -> s_depth (w_sg w s) < RECURSION_LIMIT ->
  exists eid t called uncalled,
    w_tr w' = w_tr w ++ EEmit s args (w_usr w) :: EStart eid s args :: t ++ [EEnd eid s]
    /\ s_slots (w_sg w' s) = called ++ uncalled
    /\ notices eid t = map (due (w_me w) args) called
    /\ grows q s w w'
    /\ match r with
       | Err e' => called <> [] /\ exists e, raised eid t = [e] /\ surfaces s e e'
       | _ => uncalled = [] /\ raised eid t = []
       end.
Proof.
  intros args cn ct w' r HS Hdone Hg Hh Hm Hd.
  destruct (emit_inv _ _ _ _ _ _ _ _ HS Hg Hh) as (n & HX).
  assert (Hq : s_eq (w_sg w s) = []).
  { apply (proj2 (proj2 HS0)). left. rewrite Hm. discriminate. }
  apply emit_loop_inv in HX; [|exact Hd|exact Hq].
  destruct HX as (w3 & r3 & HLp & [(_ & _ & Hr)|(Hr3 & -> & ->)]); [congruence|].
  cbn [w_sg log set_tr] in HLp. rewrite Hm in HLp. cbn [loop_of] in HLp.
  set (w0 := log (EEmit s args (w_usr w)) w) in *.
  destruct (started_w s args w0) as (W1 & W2 & W3 & W4 & W5 & _).
  destruct (loop_slots_delivers E (members_of w) q s HF Hself HE _ _ _ _ _ _ _ _ HLp
              (fits_started_from args _)) as (t & pre & rest & T & HMv & S3 & N3 & K).
  { rewrite W1. lia. }
  destruct (proj2 HMv (fits_started_from args _)) as (F3 & G3 & M3).
  exists (w_nxt w0), t, pre, rest.
  assert (Hsl : s_slots (w_sg (leave s (w_cur w0) (log (EEnd (w_nxt w0) s) w3)) s) = s_slots (w_sg w3 s)).
  { apply (proj1 (conn_same_leave s (w_cur w0) (log (EEnd (w_nxt w0) s) w3)) s). }
  split. { cbn. rewrite T, W2. cbn. rewrite <- !app_assoc. reflexivity. }
  split; [rewrite Hsl; exact S3|]. split; [rewrite N3, W5; reflexivity|].
  split. { destruct G3 as (l & G3 & G4). exists l. split; [|exact G4].
           rewrite Hsl, G3. now rewrite started_slots. }
  destruct r3 as [v|e|]; cbn [loop_out]; [exact K| |congruence].
  destruct K as [K1 K2]. split; [exact K1|]. exists e. split; [exact K2|apply wrap_surfaces].
Qed.

(** emit_fast does the same (in any mode). *)
Theorem emit_fast_delivers_from : forall args w' r,
  steps E (OEmitFast s args) w w' r -> done r ->
  s_blocked (w_sg w s) = false -> s_paused (w_sg w s) = false ->
  s_depth (w_sg w s) < RECURSION_LIMIT ->
  exists eid t called uncalled,
    w_tr w' = w_tr w ++ EEmit s args (w_usr w) :: EStart eid s args :: t ++ [EEnd eid s]
    /\ s_slots (w_sg w' s) = called ++ uncalled
    /\ notices eid t = map (due (w_me w) args) called
    /\ grows q s w w'
    /\ match r with
       | Err e' => called <> [] /\ exists e, raised eid t = [e] /\ surfaces s e e'
       | _ => uncalled = [] /\ raised eid t = []
       end.
Proof.
  intros args w' r HS Hdone Hb Hp Hd.
  destruct (fast_inv _ _ _ _ _ _ HS Hb Hp Hd) as (n & w3 & r3 & HLp & [(_ & _ & Hr)|(Hr3 & -> & ->)]);
    [congruence|].
  set (w0 := log (EEmit s args (w_usr w)) w) in *.
  destruct (loop_slots_delivers E (members_of w) q s HF Hself HE _ _ _ _ _ _ _ _ HLp
              (fits_started_fast_from args _)) as (t & pre & rest & T & HMv & S3 & N3 & K).
  { cbn. lia. }
  destruct (proj2 HMv (fits_started_fast_from args _)) as (F3 & G3 & M3).
  exists (w_nxt w), t, pre, rest.
  assert (Hsl : s_slots (w_sg (left_fast s (log (EEnd (w_nxt w) s) w3)) s) = s_slots (w_sg w3 s)).
  { apply (proj1 (conn_same_left_fast s (log (EEnd (w_nxt w) s) w3)) s). }
  split. { cbn. rewrite T. cbn. rewrite <- !app_assoc. reflexivity. }
  split; [rewrite Hsl; exact S3|]. split; [exact N3|].
  split. { destruct G3 as (l & G3 & G4). exists l. split; [|exact G4].
           rewrite Hsl, G3. now rewrite (proj1 (proj1 (conn_same_started_fast s args w0) s)). }
  destruct r3 as [v|e|]; cbn [loop_out]; [exact K| |congruence].
  destruct K as [K1 K2]. split; [exact K1|]. exists e. split; [exact K2|apply wrap_surfaces].
Qed.
End At.

Section AtFixed.
Context (E : env U) (s : sid) (w : world U).
Context (HS0 : sound E w).
Context (HE : env_all (allows (members_of w) s None) E).
Let HL : low None s w.
Proof. discriminate. Qed.
Let HF := flat_members w (proj1 (proj2 HS0)).

(** Queued mode. *)
Theorem emit_queued_delivers_from : forall args cn ct w' r,
  steps E (OEmit s args cn ct) w w' r -> done r ->
  goes_through E s args cn ct w -> w_hook w = None ->
  s_mode (w_sg w s) = Queued -> s_depth (w_sg w s) = 0 ->
  exists eid t,
    w_tr w' = w_tr w ++ EEmit s args (w_usr w) :: EStart eid s args :: t ++ [EEnd eid s]
    /\ s_slots (w_sg w' s) = s_slots (w_sg w s)
    /\ match r with
       | Err e' => exists full a more pre rest,
           args :: queued_on s t = full ++ a :: more
           /\ List.length full < RECURSION_LIMIT
           /\ s_slots (w_sg w s) = pre ++ rest /\ pre <> []
           /\ notices eid t = to_all (w_me w) (s_slots (w_sg w s)) full ++ map (due (w_me w) a) pre
           /\ ((exists e, raised eid t = [e] /\ surfaces s e e')
               \/ (raised eid t = [] /\ e' = ERecursion
                   /\ RECURSION_LIMIT < List.length (args :: queued_on s t)))
       | _ => notices eid t = to_all (w_me w) (s_slots (w_sg w s)) (args :: queued_on s t)
              /\ raised eid t = []
              /\ List.length (args :: queued_on s t) <= RECURSION_LIMIT
       end.
Proof.
  intros args cn ct w' r HS Hdone Hg Hh Hm Hd.
  destruct (emit_inv _ _ _ _ _ _ _ _ HS Hg Hh) as (n & HX).
  assert (Hq : s_eq (w_sg w s) = []).
  { apply (proj2 (proj2 HS0)). auto. }
  apply emit_loop_inv in HX; [|cbn; rewrite Hd; unfold RECURSION_LIMIT; lia|exact Hq].
  destruct HX as (w3 & r3 & HLp & [(_ & _ & Hr)|(Hr3 & -> & ->)]); [congruence|].
  cbn [w_sg log set_tr] in HLp. rewrite Hm in HLp. cbn [loop_of] in HLp.
  set (w0 := log (EEmit s args (w_usr w)) w) in *.
  destruct (started_w s args w0) as (W1 & W2 & W3 & W4 & W5 & _).
  destruct (started_sg_same s args w0 Hq) as (S1 & S2 & S3 & S4).
  replace (s_mode (w_sg w0 s)) with Queued in S4 by (symmetry; exact Hm).
  destruct (loop_queue_delivers E (members_of w) s HF HE _ _ _ _ _ _ _ HLp
              (fits_started_from E None s w HS0 HL args _)) as (t & T & HMv & K).
  { rewrite W1. lia. }
  { rewrite S4. discriminate. }
  { rewrite S4. cbn. lia. }
  { rewrite S4. cbn. unfold RECURSION_LIMIT. lia. }
  destruct (proj2 HMv (fits_started_from E None s w HS0 HL args _)) as (F3 & G3 & M3).
  apply grows_none in G3.
  assert (Hs0 : s_slots (w_sg (started s args w0) s) = s_slots (w_sg w s)) by now rewrite started_slots.
  exists (w_nxt w0), t.
  split. { cbn. rewrite T, W2. cbn. rewrite <- !app_assoc. reflexivity. }
  split.
  { rewrite (proj1 (proj1 (conn_same_leave s (w_cur w0) (log (EEnd (w_nxt w0) s) w3)) s)).
    etransitivity; [exact G3|exact Hs0]. }
  rewrite S4, Hs0, W5 in K. cbn [skipn app] in K. change (w_me w0) with (w_me w) in K.
  destruct r3 as [v|e|]; cbn [loop_out]; [| |congruence].
  - exact K.
  - destruct K as (full & a & more & pre & rest & K1 & K0 & K2 & K3 & K4 & K5).
    exists full, a, more, pre, rest. repeat (split; [assumption|]).
    destruct K5 as [K5|(K5 & -> & K6)]; [left|right; auto].
    exists e. split; [exact K5|apply wrap_surfaces].
Qed.

(** Latest-only mode. *)
Context (HE' : env_all (no_fast s) E).
Theorem emit_latest_delivers_from : forall args cn ct w' r,
  steps E (OEmit s args cn ct) w w' r -> done r ->
  goes_through E s args cn ct w -> w_hook w = None ->
  s_mode (w_sg w s) = LatestOnly -> s_depth (w_sg w s) < RECURSION_LIMIT ->
  exists eid t called uncalled,
    w_tr w' = w_tr w ++ EEmit s args (w_usr w) :: EStart eid s args :: t ++ [EEnd eid s]
    /\ s_slots (w_sg w s) = called ++ uncalled
    /\ notices eid t = map (due (w_me w) args) called
    /\ match r with
       | Err e' => called <> [] /\ exists e, raised eid t = [e] /\ surfaces s e e'
       | _ => raised eid t = [] /\ (uncalled = [] \/ emitted_in s t
                                    \/ S (s_depth (w_sg w s)) < s_max (w_sg w s))
       end
    /\ (forall ta j a tb, t = ta ++ EStart j s a :: tb -> notices eid tb = []).
Proof.
  intros args cn ct w' r HS Hdone Hg Hh Hm Hd.
  destruct (emit_inv _ _ _ _ _ _ _ _ HS Hg Hh) as (n & HX).
  assert (Hq : s_eq (w_sg w s) = []).
  { apply (proj2 (proj2 HS0)). left. rewrite Hm. discriminate. }
  apply emit_loop_inv in HX; [|exact Hd|exact Hq].
  destruct HX as (w3 & r3 & HLp & [(_ & _ & Hr)|(Hr3 & -> & ->)]); [congruence|].
  cbn [w_sg log set_tr] in HLp. rewrite Hm in HLp. cbn [loop_of] in HLp.
  set (w0 := log (EEmit s args (w_usr w)) w) in *.
  destruct (started_w s args w0) as (W1 & W2 & W3 & W4 & W5 & _).
  destruct (started_sg_same s args w0 Hq) as (S1 & S2 & S3 & S4).
  destruct (loop_latest_delivers E s (members_of w) HF HE HE' _ _ _ _ _ _ _ _ HLp
              (fits_started_from E None s w HS0 HL args _)) as (t & pre & rest & T & HMv & Sk & N & K & _ & KN).
  { rewrite W1. lia. }
  { rewrite S2. lia. }
  assert (Hs0 : s_slots (w_sg (started s args w0) s) = s_slots (w_sg w s)) by now rewrite started_slots.
  exists (w_nxt w0), t, pre, rest.
  split. { cbn. rewrite T, W2. cbn. rewrite <- !app_assoc. reflexivity. }
  split; [rewrite <- Hs0; exact Sk|]. split; [rewrite N, W5; reflexivity|].
  split; [|exact (KN Hr3)].
  destruct r3 as [v|e|]; cbn [loop_out]; [| |congruence].
  - destruct K as [K1 K2]. split; [exact K1|]. destruct K2 as [K2|[K2|K2]]; auto.
    right; right. rewrite S2, S3 in K2. change (w_sg w0 s) with (w_sg w s) in K2. lia.
  - destruct K as [K1 K2]. split; [exact K1|]. exists e. split; [exact K2|apply wrap_surfaces].
Qed.
End AtFixed.

(** The same for reachable states. *)
Definition fits_started E0 E q s w HR HO := fits_started_from E q s w (reachable_sound E0 E w HR HO).
Definition emit_delivers E0 E q s w HR HO := emit_delivers_from E q s w (reachable_sound E0 E w HR HO).
Definition emit_fast_delivers E0 E q s w HR HO := emit_fast_delivers_from E q s w (reachable_sound E0 E w HR HO).
Definition emit_queued_delivers E0 E s w HR HO := emit_queued_delivers_from E s w (reachable_sound E0 E w HR HO).
Definition emit_latest_delivers E0 E s w HR HO := emit_latest_delivers_from E s w (reachable_sound E0 E w HR HO).
End Emission.

(** ** The peak level of a latest-only signal between emissions *)

Section Peak.
Context {U : Type} (E : env U) (s : sid).

Definition calm (w : world U) : Prop := s_depth (w_sg w s) = 0 -> s_max (w_sg w s) = 0.
Lemma calm_same : forall w w' : world U, s_depth (w_sg w' s) = s_depth (w_sg w s) ->
  s_max (w_sg w' s) = s_max (w_sg w s) -> calm w -> calm w'.
Proof. unfold calm. intros w w' -> ->. auto. Qed.

Lemma framed_calm : framed E (no_fast s) (fun _ => True)
  (fun w w' _ => calm w -> calm w') (fun _ _ w w' _ => calm w -> calm w').
Proof.
  assert (HU : forall x f (w : world U), (forall st, s_depth (f st) = s_depth st) ->
     (forall st, s_max (f st) = s_max st) -> calm w -> calm (upd x f w)).
  { intros x f w H1 H2. apply calm_same.
    - destruct (Nat.eq_dec s x) as [<-|Hx]; [rewrite upd_same|rewrite upd_other]; auto.
    - destruct (Nat.eq_dec s x) as [<-|Hx]; [rewrite upd_same|rewrite upd_other]; auto. }
  constructor; intros; auto.
  - revert H2. destruct (pure_keeps _ _ _ _ _ H0 H1) as (K1 & _). destruct (K1 s) as [_ Hb].
    unfold busy in Hb. injection Hb as _ _ B1 B2. now apply calm_same.
  - apply (HU s0 (fun st => set_eq (s_eq st ++ [args]) st)) in H2; auto.
  - (* loop *)
    assert (HI : calm w -> calm w').
    { intros Hc. apply H2. destruct (Nat.eq_dec s s0) as [<-|Hx].
      - intros K. rewrite (proj1 (proj2 (started_sg_same s args w H1))) in K. discriminate.
      - revert Hc. apply calm_same; rewrite started_sg_other by exact Hx; reflexivity. }
    assert (HL : calm w -> calm (leave s0 (w_cur w) (log (EEnd (w_nxt w) s0) w'))).
    { intros Hc. specialize (HI Hc). destruct (Nat.eq_dec s s0) as [<-|Hx].
      - unfold calm, leave. rewrite upd_same. cbn [w_sg set_cur log set_tr]. cbv zeta.
        destruct (Nat.leb_spec (s_depth (w_sg w' s) - 1) 0); cbn; intros; [reflexivity|lia].
      - revert HI. apply calm_same; rewrite leave_sg_other by exact Hx; reflexivity. }
    destruct r; auto.
  - cbn in H2.
    assert (HI : calm w -> calm w').
    { intros Hc. apply H1. revert Hc. apply calm_same; rewrite started_fast_sg_other by congruence; reflexivity. }
    assert (HL : calm w -> calm (left_fast s0 (log (EEnd (w_nxt w) s0) w'))).
    { intros Hc. specialize (HI Hc).
      revert HI. apply calm_same; rewrite left_fast_sg_other by congruence; reflexivity. }
    destruct r; auto.
  - destruct r; auto.
  - destruct r; auto.
Qed.

Theorem reachable_calm : forall w, reachable_by (no_fast s) E w -> calm w.
Proof.
  intros w (HE & cfg & u & p & r & Hc & _ & Hp & HR).
  refine (frame_runs E (no_fast s) (fun _ => True) (fun w w' _ => calm w -> calm w') _ framed_calm
            HE _ _ _ _ Hp HR _).
  intros _. cbn. apply Hc.
Qed.

Theorem reachable_weaken : forall A w, reachable_by A E w -> reachable E w.
Proof. intros A w (HE & cfg & u & p & r & Hc & Hf & Hp & HR). exists cfg, u, p, r. auto. Qed.
End Peak.
