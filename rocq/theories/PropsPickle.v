(** Pickling: C31. *)

From Verif Require Import Base Core Frame Fuel Conn Keep Spec Trace Inv Dead Rest Quiet Deliver
  Emission Top Demo Made Pickle.
Open Scope Z_scope.
Open Scope string_scope.
Open Scope nat_scope.
Open Scope list_scope.

(** ** What is expected of a copy *)

(** A connection of a plain function (or partial of one), not bound to a thread. *)
Definition of_function (c : wcb) : Prop :=
  w_thread c = None /\ exists f pre kw, w_target c = TFun f pre kw.
(** [d] is the same connection in a program in which function [f] is [rho f]. *)
Definition same_callback (rho : oid -> oid) (c d : wcb) : Prop :=
  w_key d = w_key c /\ w_maxargs d = w_maxargs c /\ w_thread d = None
  /\ exists f pre kw, w_target c = TFun f pre kw /\ w_target d = TFun (rho f) pre kw.
(** [l'] is [l] without the connections that are not of plain functions. *)
Inductive only_functions : list wcb -> list wcb -> Prop :=
| of_nil : only_functions [] []
| of_keep c l l' : of_function c -> only_functions l l' -> only_functions (c :: l) (c :: l')
| of_drop c l l' : ~ of_function c -> only_functions l l' -> only_functions (c :: l) l'.
Definition same_settings (st st' : sigst) : Prop :=
  s_blocked st' = s_blocked st /\ s_paused st' = s_paused st /\ s_args st' = s_args st
  /\ s_mode st' = s_mode st /\ s_params st' = s_params st
  /\ s_chkn st' = s_chkn st /\ s_chkt st' = s_chkt st /\ s_prio st' = s_prio st.

(** ** Lemmas *)

Lemma strong_spec : forall c, is_strong c = true <-> of_function c.
Proof.
  intros c. unfold is_strong, of_function. split.
  - destruct (w_thread c), (w_target c); try discriminate. eauto 6.
  - intros (-> & f & p & k & ->). reflexivity.
Qed.
Lemma filter_strong : forall l, only_functions l (filter is_strong l).
Proof.
  induction l as [|c l IH]; cbn; [constructor|]. destruct (is_strong c) eqn:K.
  - constructor; [now apply strong_spec|exact IH].
  - apply of_drop; [rewrite <- strong_spec; congruence|exact IH].
Qed.
Lemma load_same : forall rho l n,
  Forall2 (same_callback rho) (filter is_strong l)
          (load_slots rho n (flat_map get_fstate (filter is_strong l))).
Proof.
  intros rho l. induction l as [|c l IH]; intros n; cbn; [constructor|].
  destruct (is_strong c) eqn:K; [|apply IH].
  apply strong_spec in K as (K & f & p & k & T). cbn. unfold get_fstate at 1. rewrite T. cbn.
  constructor; [|apply IH]. unfold same_callback. rewrite T. cbn. eauto 10.
Qed.
Lemma load_In : forall rho l n c, In c (load_slots rho n l) ->
  w_ref c = None /\ exists f, In f l /\ w_key c = f_key f.
Proof.
  intros rho l. induction l as [|x l IH]; intros n c; cbn; [intros []|].
  intros [<-|H]; [cbn; eauto|]. destruct (IH _ _ H) as (H1 & f & H2 & H3). eauto.
Qed.
Lemma get_In : forall {U} (E : env U) l f, In f (flat_map get_fstate (filter is_strong l)) ->
  (forall c, In c l -> made E c) -> exists g, f_key f = KFunc g.
Proof.
  intros U E l f Hf HM. apply in_flat_map in Hf as (c & Hc & Hf). apply filter_In in Hc as [Hc _].
  specialize (HM c Hc). unfold made, get_fstate in *. destruct (w_target c); try contradiction.
  destruct Hf as [<-|[]]. cbn. eauto.
Qed.
Lemma load_funcs : forall {U} (E : env U) rho n st c, (forall c, In c (s_slots st) -> made E c) ->
  In c (s_slots (setstate rho n (getstate st))) -> w_ref c = None /\ exists g, w_key c = KFunc g.
Proof.
  intros U E rho n st c HM Hc. apply load_In in Hc as (H1 & f & H2 & ->). split; [exact H1|].
  exact (get_In E _ _ H2 HM).
Qed.

Section Copy.
Context {U V : Type} (E1 : env V) (w : world V) (s : sid).
Context (HR1 : reachable E1 w) (Hout : in_progress s (w_tr w) = 0%Z).
Context (E0 E : env U) (v : world U) (s' : sid) (rho : oid -> oid).
Context (HR : reachable E0 v) (HO : same_objects E0 E).
Context (Hplain : s_members (w_sg v s') = None).

Let v' := unpickle rho (getstate (w_sg w s)) s' v.

Lemma out_depth : s_depth (w_sg w s) = 0.
Proof. destruct (reachable_depth_ok E1 w HR1 s) as [_ H]. rewrite Hout in H. lia. Qed.
Lemma copy_at : w_sg v' s' = setstate rho (w_nxt v) (getstate (w_sg w s)).
Proof. unfold v', unpickle. now rewrite upd_same. Qed.
Lemma copy_other : forall x, x <> s' -> w_sg v' x = w_sg v x.
Proof. intros x Hx. unfold v', unpickle. now rewrite upd_other. Qed.
Lemma copy_members : forall x, members_of v' x = members_of v x.
Proof.
  intros x. unfold members_of. destruct (Nat.eq_dec x s') as [->|Hx]; [now rewrite copy_at, Hplain|].
  now rewrite copy_other.
Qed.
Lemma copy_sound : sound E v'.
Proof.
  destruct (reachable_sound E0 E v HR HO) as ([L1 L2 L3 L4] & F & Q). split; [|split].
  - assert (HF : forall c, In c (s_slots (w_sg v' s')) -> w_ref c = None /\ exists g, w_key c = KFunc g).
    { rewrite copy_at. intros c. apply load_funcs with (E := E1). intros d Hd.
      exact (reachable_made E1 w HR1 s d Hd). }
    assert (HD : w_dead v' = w_dead v) by reflexivity. assert (HRf : w_refs v' = w_refs v) by reflexivity.
    constructor.
    + intros x c Hc. destruct (Nat.eq_dec x s') as [->|Hx]; [|rewrite copy_other in Hc by exact Hx; eauto].
      destruct (HF c Hc) as (-> & g & ->). reflexivity.
    + intros x c o Hc Ho. destruct (Nat.eq_dec x s') as [->|Hx];
        [destruct (HF c Hc) as (K & _); congruence|rewrite copy_other in Hc by exact Hx; rewrite HD; eauto].
    + intros x k o Hk. rewrite HRf. destruct (Nat.eq_dec x s') as [->|Hx]; [|rewrite copy_other by exact Hx; eauto].
      assert (HZ : forall l, (forall c, In c l -> w_ref c = None /\ exists g, w_key c = KFunc g) -> kcount k l = 0).
      { unfold kcount. induction l as [|c l IH]; intros Hl; [reflexivity|]. cbn.
        destruct (key_eqb (w_key c) k) eqn:K; [|apply IH; intros; apply Hl; now right].
        apply key_eqb_eq in K. destruct (Hl c (or_introl eq_refl)) as (_ & g & Hg). rewrite <- K, Hg in Hk.
        discriminate. }
      rewrite (HZ _ HF). lia.
    + intros o x k. rewrite HRf. eauto.
  - intros r ms n m. destruct (Nat.eq_dec r s') as [->|Hr]; [rewrite copy_at; discriminate|].
    rewrite copy_other by exact Hr. intros Hm Hi. destruct (Nat.eq_dec m s') as [->|Hx]; [now rewrite copy_at|].
    rewrite copy_other by exact Hx. eapply F; eauto.
  - intros x Hx. destruct (Nat.eq_dec x s') as [->|Hn]; [|rewrite copy_other in * by exact Hn; now apply Q].
    rewrite copy_at. cbn. apply (reachable_eq_ok E1 w HR1). right. exact out_depth.
Qed.
Lemma copy_slots : exists l,
  only_functions (s_slots (w_sg w s)) l
  /\ Forall2 (same_callback rho) l (s_slots (w_sg v' s')).
Proof.
  exists (filter is_strong (s_slots (w_sg w s))). split; [apply filter_strong|].
  rewrite copy_at. apply load_same.
Qed.
Lemma copy_allows : env_all (leaves_alone (members_of v) s') E -> env_all (allows (members_of v') s' None) E.
Proof.
  intros [A B]. assert (HM : forall o : op U, leaves_alone (members_of v) s' o -> allows (members_of v') s' None o).
  { intros o Ho. left. destruct o; cbn in *; rewrite ?copy_members; auto. }
  split; intros; (eapply prog_all_impl; [exact HM|auto]).
Qed.
End Copy.

(** * C31 *)

(** A signal pickled outside its emissions and unpickled ([v]: state of the program that
    unpickles it, as signal [s']): the function connections in the same order, the same
    settings and collected emissions, nothing in progress; nothing else changes. *)
Theorem C31_kept_partial : forall U V (E1 : env V) w s (E0 : env U) v s' rho,
  reachable E1 w -> in_progress s (w_tr w) = 0%Z -> reachable E0 v ->
  let v' := unpickle rho (getstate (w_sg w s)) s' v in
  (exists l, only_functions (s_slots (w_sg w s)) l
             /\ Forall2 (same_callback rho) l (s_slots (w_sg v' s')))
  /\ same_settings (w_sg w s) (w_sg v' s')
  /\ s_eq (w_sg v' s') = [] /\ s_depth (w_sg v' s') = 0
  /\ forall x, x <> s' -> w_sg v' x = w_sg v x.
Proof.
  intros U V E1 w s E0 v s' rho HR1 Hout HR v'.
  split; [apply copy_slots|]. unfold v'. rewrite copy_at.
  split; [repeat split; reflexivity|].
  split. { cbn. apply (reachable_eq_ok E1 w HR1). right. exact (out_depth E1 w s HR1 Hout). }
  split; [exact (out_depth E1 w s HR1 Hout)|]. intros x Hx. now apply copy_other.
Qed.

(** Emitting the copy, immediate mode: the callbacks are called as those of the original
    would be. *)
Theorem C31_emits_partial : forall U V (E1 : env V) w s (E0 E : env U) v s' rho args cn ct v2 r,
  reachable E1 w -> in_progress s (w_tr w) = 0%Z -> reachable E0 v -> same_objects E0 E ->
  s_members (w_sg v s') = None ->
  env_all (leaves_alone (members_of v) s') E ->
  let v' := unpickle rho (getstate (w_sg w s)) s' v in
  steps E (OEmit s' args cn ct) v' v2 r -> done r ->
  goes_through E s' args cn ct v' -> w_hook v' = None ->
  s_mode (w_sg w s) = Immediate ->
  exists eid t l l' called uncalled,
    only_functions (s_slots (w_sg w s)) l
    /\ Forall2 (same_callback rho) l l'
    /\ w_tr v2 = w_tr v' ++ EEmit s' args (w_usr v) :: EStart eid s' args :: t ++ [EEnd eid s']
    /\ l' = called ++ uncalled
    /\ s_slots (w_sg v' s') = l' /\ s_slots (w_sg v2 s') = l'
    /\ notices eid t = map (due (w_me v) args) called
    /\ match r with
       | Err e' => called <> [] /\ exists e, raised eid t = [e] /\ surfaces s' e e'
       | _ => uncalled = [] /\ raised eid t = []
       end.
Proof.
  intros U V E1 w s E0 E v s' rho args cn ct v2 r HR1 Hout HR HO Hpl HE v' HS Hd Hg Hh Hm.
  assert (HE' := copy_allows w s E v s' rho Hpl HE).
  assert (HSt : w_sg v' s' = setstate rho (w_nxt v) (getstate (w_sg w s))) by apply copy_at.
  destruct (emit_delivers_from E None s' v' (copy_sound E1 w s HR1 Hout E0 E v s' rho HR HO) HE'
              (fun p (Hp : None = Some p) => ltac:(discriminate Hp)) args cn ct v2 r HS Hd Hg Hh)
    as (eid & t & cl & un & T & S & N & G & K).
  { rewrite HSt. exact Hm. }
  { rewrite HSt. cbn. rewrite (out_depth E1 w s HR1 Hout). unfold RECURSION_LIMIT. lia. }
  apply grows_none in G. destruct (copy_slots w s v s' rho) as (l & L1 & L2).
  exists eid, t, l, (s_slots (w_sg v' s')), cl, un. repeat (split; [congruence || assumption|]). exact K.
Qed.

(** The same in queued mode ... *)
Theorem C31_emits_queued_partial : forall U V (E1 : env V) w s (E0 E : env U) v s' rho args cn ct v2 x,
  reachable E1 w -> in_progress s (w_tr w) = 0%Z -> reachable E0 v -> same_objects E0 E ->
  s_members (w_sg v s') = None ->
  env_all (leaves_alone (members_of v) s') E ->
  let v' := unpickle rho (getstate (w_sg w s)) s' v in
  steps E (OEmit s' args cn ct) v' v2 (Ok x) ->
  goes_through E s' args cn ct v' -> w_hook v' = None ->
  s_mode (w_sg w s) = Queued ->
  exists eid t l l',
    only_functions (s_slots (w_sg w s)) l
    /\ Forall2 (same_callback rho) l l'
    /\ w_tr v2 = w_tr v' ++ EEmit s' args (w_usr v) :: EStart eid s' args :: t ++ [EEnd eid s']
    /\ s_slots (w_sg v' s') = l' /\ s_slots (w_sg v2 s') = l'
    /\ notices eid t = to_all (w_me v) l' (args :: queued_on s' t)
    /\ raised eid t = [].
Proof.
  intros U V E1 w s E0 E v s' rho args cn ct v2 x HR1 Hout HR HO Hpl HE v' HS Hg Hh Hm.
  assert (HE' := copy_allows w s E v s' rho Hpl HE).
  assert (HSt : w_sg v' s' = setstate rho (w_nxt v) (getstate (w_sg w s))) by apply copy_at.
  destruct (emit_queued_delivers_from E s' v' (copy_sound E1 w s HR1 Hout E0 E v s' rho HR HO) HE'
              args cn ct v2 (Ok x) HS ltac:(discriminate) Hg Hh)
    as (eid & t & T & S & N & K & _).
  { rewrite HSt. exact Hm. }
  { rewrite HSt. exact (out_depth E1 w s HR1 Hout). }
  destruct (copy_slots w s v s' rho) as (l & L1 & L2).
  exists eid, t, l, (s_slots (w_sg v' s')). repeat (split; [assumption || reflexivity|]). exact K.
Qed.

(** ... and in latest-only mode (in a program that does not use emit_fast). *)
Theorem C31_emits_latest_partial : forall U V (E1 : env V) w s (E0 E : env U) v s' rho args cn ct v2 x,
  reachable_by (no_fast s) E1 w -> in_progress s (w_tr w) = 0%Z -> reachable E0 v -> same_objects E0 E ->
  s_members (w_sg v s') = None ->
  env_all (leaves_alone (members_of v) s') E -> env_all (no_fast s') E ->
  let v' := unpickle rho (getstate (w_sg w s)) s' v in
  steps E (OEmit s' args cn ct) v' v2 (Ok x) ->
  goes_through E s' args cn ct v' -> w_hook v' = None ->
  s_mode (w_sg w s) = LatestOnly ->
  exists eid t l l' called uncalled,
    only_functions (s_slots (w_sg w s)) l
    /\ Forall2 (same_callback rho) l l'
    /\ w_tr v2 = w_tr v' ++ EEmit s' args (w_usr v) :: EStart eid s' args :: t ++ [EEnd eid s']
    /\ s_slots (w_sg v' s') = l'
    /\ l' = called ++ uncalled
    /\ notices eid t = map (due (w_me v) args) called
    /\ raised eid t = [] /\ (uncalled = [] \/ emitted_in s' t).
Proof.
  intros U V E1 w s E0 E v s' rho args cn ct v2 x HR1' Hout HR HO Hpl HE HE1 v' HS Hg Hh Hm.
  pose proof (reachable_weaken E1 _ w HR1') as HR1.
  assert (HE' := copy_allows w s E v s' rho Hpl HE).
  assert (HSt : w_sg v' s' = setstate rho (w_nxt v) (getstate (w_sg w s))) by apply copy_at.
  destruct (emit_latest_delivers_from E s' v' (copy_sound E1 w s HR1 Hout E0 E v s' rho HR HO) HE' HE1
              args cn ct v2 (Ok x) HS ltac:(discriminate) Hg Hh)
    as (eid & t & cl & un & T & S & N & (K1 & K) & _).
  { rewrite HSt. exact Hm. }
  { rewrite HSt. cbn. rewrite (out_depth E1 w s HR1 Hout). unfold RECURSION_LIMIT. lia. }
  destruct (copy_slots w s v s' rho) as (l & L1 & L2).
  exists eid, t, l, (s_slots (w_sg v' s')), cl, un.
  repeat (split; [assumption || reflexivity|]). destruct K as [K|[K|K]]; [now left|now right|].
  exfalso. rewrite HSt in K. cbn in K. rewrite (reachable_calm E1 s w HR1' (out_depth E1 w s HR1 Hout)) in K. lia.
Qed.

Lemma weak_callback_prio : forall {U} (E : env U) c m rc p uid x, weak_callback E c m rc p uid = inl x -> w_prio x = p.
Proof.
  intros U E c m rc p uid x K. unfold weak_callback, weak_setattr, weak_setitem in K.
  destruct (callable_base c); repeat
    match type of K with
    | (match ?t with _ => _ end) = _ => destruct t; try discriminate
    end; injection K as <-; reflexivity.
Qed.

(** Connecting to a copy: as to any signal, when no priority is involved ... *)
Theorem C31_connect_partial : forall U (E : env U) b s c o w,
  s_members (w_sg w s) = None -> s_prio (w_sg w s) = false -> c_prio o = 0%Z ->
  connect_copy E b s c o w = connect E s c o w.
Proof.
  intros U E b s c o w Hm Hp Ho. unfold connect_copy, connect. destruct (callable_dead w c); [reflexivity|].
  repeat match goal with
    | |- match weak_callback ?a ?b ?c ?d ?e ?f with _ => _ end = _ =>
        destruct (weak_callback a b c d e f) as [x|] eqn:K; [|reflexivity];
        unfold append_copy; cbn [w_prio set_thread]; rewrite Hp, (weak_callback_prio _ _ _ _ _ _ _ K), Ho; reflexivity
    | |- (match ?t with _ => _ end) = _ => destruct t eqn:?; try reflexivity
    end.
Qed.

(** ... or when none of the callbacks it has came from the original ... *)
Lemma insert_copy_new : forall b c l, (forall x, In x l -> ~ In (w_uid x) b) -> insert_copy b c l = Some (insert_prio c l).
Proof.
  intros b c l H. induction l as [|x l IH]; cbn; [reflexivity|].
  destruct (existsb _ b) eqn:X.
  { apply existsb_exists in X as (y & Hy & X). apply Nat.eqb_eq in X. subst y. destruct (H x); [now left|exact Hy]. }
  destruct (_ <? _)%Z; [reflexivity|]. rewrite IH; [reflexivity|]. intros y Hy. apply H. now right.
Qed.
Theorem C31_connect_new_partial : forall U (E : env U) b s c o w,
  s_members (w_sg w s) = None -> (forall x, In x (s_slots (w_sg w s)) -> ~ In (w_uid x) b) ->
  connect_copy E b s c o w = connect E s c o w.
Proof.
  intros U E b s c o w Hm Hb. unfold connect_copy, connect. destruct (callable_dead w c); [reflexivity|].
  assert (HA : forall y, append_copy b y (w_sg w s) = (append_slot_base y (w_sg w s), Ok VNone)).
  { intros y. unfold append_copy, append_slot_base. destruct (s_prio (w_sg w s)) eqn:P; cbn [negb andb].
    - cbn [set_prio s_slots]. rewrite insert_copy_new by exact Hb. f_equal. unfold set_slots, set_prio. cbn. rewrite <- P. reflexivity.
    - destruct (w_prio y =? 0)%Z; [reflexivity|]. cbn [set_prio s_slots]. now rewrite insert_copy_new by exact Hb. }
  repeat match goal with
    | |- match weak_callback ?a ?b ?c ?d ?e ?f with _ => _ end = _ =>
        destruct (weak_callback a b c d e f) as [x|] eqn:K; [|reflexivity]; rewrite HA; reflexivity
    | |- (match ?t with _ => _ end) = _ => destruct t eqn:?; try reflexivity
    end.
Qed.

(** ... but otherwise connect raises AttributeError, whatever is connected, when the copy
    has any callback: the unpickled callbacks have no priority. *)
Theorem C31_connect_fails : forall U V (E1 : env V) w s (E0 E : env U) v s' rho f o,
  reachable E1 w -> in_progress s (w_tr w) = 0%Z -> reachable E0 v ->
  (exists c, In c (s_slots (w_sg w s)) /\ of_function c) ->
  s_prio (w_sg w s) = true \/ c_prio o <> 0%Z ->
  let g := getstate (w_sg w s) in
  let v' := unpickle rho g s' v in
  (exists k, connect E s' f o v' = (k, Ok VNone) /\ w_sg k <> w_sg v') ->
  exists k, connect_copy E (bare g v) s' f o v' = (k, Err EAttribute)
    /\ s_slots (w_sg k s') = s_slots (w_sg v' s').
Proof.
  intros U V E1 w s E0 E v s' rho f o HR1 Hout HR (c & Hc & Hf) Hp g v' (k & HC & Hch).
  assert (HSt : w_sg v' s' = setstate rho (w_nxt v) g) by apply copy_at.
  assert (HB : forall y, w_prio y = c_prio o -> exists st, append_copy (bare g v) y (w_sg v' s') = (st, Err EAttribute)
             /\ s_slots st = s_slots (w_sg v' s')).
  { intros y Hy. unfold append_copy. rewrite HSt. cbn [s_prio setstate s_slots set_prio].
    assert (Hpc : negb (g_prio g) && (w_prio y =? 0)%Z = false).
    { destruct Hp as [Hp|Hp]; [cbn [g g_prio getstate]; now rewrite Hp|].
      rewrite Hy. destruct (Z.eqb_spec (c_prio o) 0); [contradiction|]. now rewrite andb_false_r. }
    rewrite Hpc.
    assert (Hne : g_slots g <> []).
    { cbn [g g_slots getstate]. intros HN. apply strong_spec in Hf.
      assert (Hi : In c (filter is_strong (s_slots (w_sg w s)))) by (apply filter_In; auto).
      destruct (filter is_strong (s_slots (w_sg w s))) as [|d l] eqn:Hl; [destruct Hi|].
      assert (Hd : is_strong d = true).
      { apply (proj2 (proj1 (filter_In is_strong d (s_slots (w_sg w s))) ltac:(rewrite Hl; now left))). }
      cbn in HN. apply strong_spec in Hd as (_ & f0 & p & q & Hd). unfold get_fstate in HN. rewrite Hd in HN. discriminate. }
    unfold bare. destruct (g_slots g) as [|x l] eqn:Hgs; [contradiction|]. cbn.
    rewrite Nat.eqb_refl. cbn. eexists. split; [reflexivity|].
    unfold setstate. cbn [s_slots set_prio]. rewrite Hgs. reflexivity. }
  unfold connect in HC. unfold connect_copy. destruct (callable_dead v' f); [discriminate|].
  repeat match type of HC with
    | match weak_callback ?a ?b ?c ?d ?e ?f with _ => _ end = _ =>
        destruct (weak_callback a b c d e f) as [x|] eqn:K; [|discriminate]
    | (match ?t with _ => _ end) = _ => destruct t eqn:?; try discriminate
    end; try (injection HC as <- ; now destruct Hch).
  all: match goal with |- context [append_copy _ ?y _] =>
         destruct (HB y) as (st & HA & HS); [exact (weak_callback_prio _ _ _ _ _ _ _ K)|]; rewrite HA end;
       eexists; split; [reflexivity|]; rewrite upd_same; exact HS.
Qed.

(** Non-vacuity.  Functions 1 (at most one argument) and 2 (priority 3), and method 4 of
    object 7, which is not copied; one emission was collected while the signal was paused.
    It is unpickled in the same program as signal 9. *)
Definition C31_env : env unit := demo (fun f _ => Ret VNone).
Definition C31_calls : list (op unit) :=
  [OConnect 0 (fn 1) (Copts None None None UFalse (Some 1%Z) RefWarn 0%Z);
   OConnect 0 (meth 7 4) default_opts; OConnect 0 (fn 2) (prio 3)].
Definition C31_world := world_of C31_env (all_plain Immediate 2) tt 50 C31_calls.
Definition C31_paused := world_of C31_env (all_plain Immediate 2) tt 50
  (C31_calls ++ [OPause 0; emit 0 [VInt 1; VInt 2]]).
Definition here (f : oid) : oid := f.
Example C31_case :
  let v' := unpickle here (getstate (w_sg C31_world 0)) 9 C31_world in
  let o := emit 9 [VInt 7; VInt 8] in
  let v2 := after1 C31_env 50 o v' in
  reachable C31_env C31_world /\ in_progress 0 (w_tr C31_world) = 0%Z
  /\ s_members (w_sg C31_world 9) = None
  /\ env_all (leaves_alone (members_of C31_world) 9) C31_env
  /\ steps C31_env o v' v2 (Ok VNone)
  /\ goes_through C31_env 9 [VInt 7; VInt 8] true false v' /\ w_hook v' = None
  /\ map w_target (s_slots (w_sg C31_world 0)) = [TFun 2 [] []; TFun 1 [] []; TMeth 7 4 [] []]
  /\ map w_target (s_slots (w_sg v' 9)) = [TFun 2 [] []; TFun 1 [] []]
  /\ notices 5 (w_tr v2) = [Called 3 [VInt 7; VInt 8]; Called 4 [VInt 7]].
Proof.
  split; [reach|]. split; [reflexivity|]. split; [reflexivity|]. split.
  { apply demo_all; intros f a. allp. }
  split; [ran|]. vm_compute. repeat split; auto; discriminate.
Qed.
Example C31_case_paused :
  let v' := unpickle here (getstate (w_sg C31_paused 0)) 9 C31_paused in
  reachable C31_env C31_paused
  /\ s_paused (w_sg v' 9) = true /\ s_args (w_sg v' 9) = [[VInt 1; VInt 2]].
Proof. split; [reach|]. vm_compute. auto. Qed.
Definition C31_queued := world_of C31_env (all_plain Queued 2) tt 50 C31_calls.
Definition C31_latest := world_of C31_env (all_plain LatestOnly 2) tt 50 C31_calls.
Example C31_case_modes :
  let o := emit 9 [VInt 7; VInt 8] in
  let q := unpickle here (getstate (w_sg C31_queued 0)) 9 C31_queued in
  let l := unpickle here (getstate (w_sg C31_latest 0)) 9 C31_latest in
  (reachable C31_env C31_queued /\ steps C31_env o q (after1 C31_env 50 o q) (Ok VNone)
   /\ goes_through C31_env 9 [VInt 7; VInt 8] true false q
   /\ notices 5 (w_tr (after1 C31_env 50 o q)) = [Called 3 [VInt 7; VInt 8]; Called 4 [VInt 7]])
  /\ (reachable_by (no_fast 0) C31_env C31_latest /\ steps C31_env o l (after1 C31_env 50 o l) (Ok VNone)
   /\ goes_through C31_env 9 [VInt 7; VInt 8] true false l
   /\ notices 5 (w_tr (after1 C31_env 50 o l)) = [Called 3 [VInt 7; VInt 8]; Called 4 [VInt 7]]).
Proof.
  split.
  - split; [reach|]. split; [ran|]. vm_compute. repeat split; auto; discriminate.
  - split.
    + split; [apply demo_all; intros f a; allp|].
      exists (all_plain LatestOnly 2), tt, (calls C31_calls), (Ok VNone).
      split; [auto with demo|]. split; [auto with demo|]. split; [allp|].
      apply after_runs. vm_compute. reflexivity.
    + split; [ran|]. vm_compute. repeat split; auto; discriminate.
Qed.
Print Assumptions C31_kept_partial.
Print Assumptions C31_emits_partial.
Print Assumptions C31_emits_queued_partial.
Print Assumptions C31_emits_latest_partial.
Print Assumptions C31_connect_partial.
Print Assumptions C31_connect_fails.

(** A signal that has a function connected with the default priority, nothing else: after
    pickling, connecting another function with priority 1 raises AttributeError; on the
    original it succeeds. *)
Definition C31_one := world_of C31_env (all_plain Immediate 0) tt 50 [conn 0 1 0].
Theorem C31_priority_refuted : exists (E : env unit) w f o,
  reachable E w /\ in_progress 0 (w_tr w) = 0%Z
  /\ let g := getstate (w_sg w 0) in
     let v' := unpickle here g 9 w in
     snd (connect E 0 f o w) = Ok VNone
     /\ snd (connect_copy E (bare g w) 9 f o v') = Err EAttribute.
Proof.
  exists C31_env, C31_one, (fn 2), (prio 1). split; [reach|]. vm_compute. auto.
Qed.
(** It meets the hypotheses of [C31_connect_fails] and, without priority, those of
    [C31_connect_partial]. *)
Example C31_case_connect :
  let g := getstate (w_sg C31_one 0) in
  let v' := unpickle here g 9 C31_one in
  (exists c, In c (s_slots (w_sg C31_one 0)) /\ of_function c)
  /\ (exists k, connect C31_env 9 (fn 2) (prio 1) v' = (k, Ok VNone) /\ w_sg k <> w_sg v')
  /\ s_members (w_sg v' 9) = None /\ s_prio (w_sg v' 9) = false
  /\ map w_target (s_slots (w_sg (fst (connect_copy C31_env (bare g C31_one) 9 (fn 2) (prio 0) v')) 9))
     = [TFun 1 [] []; TFun 2 [] []].
Proof.
  split. { eexists. split; [left; reflexivity|]. split; [reflexivity|]. repeat eexists. }
  split.
  { eexists. split; [reflexivity|]. intros H.
    apply (f_equal (fun g => List.length (s_slots (g 9)))) in H. vm_compute in H. discriminate. }
  vm_compute. auto.
Qed.

(** In another process, where the function is another object, the callback cannot be
    disconnected: it is still found by the identity the function had when pickled. *)
Theorem C31_disconnect_refuted : exists (E : env unit) w v rho,
  reachable E w /\ in_progress 0 (w_tr w) = 0%Z /\ reachable E v
  /\ let v' := unpickle rho (getstate (w_sg w 0)) 9 v in
     map w_target (s_slots (w_sg w 0)) = [TFun 1 [] []]
     /\ map w_target (s_slots (w_sg v' 9)) = [TFun (rho 1) [] []]
     /\ outcome1 E 9 (ODisconnect 0 (Some (RCallable (fn 1))) false) w = Some (Ok VNone)
     /\ outcome1 E 9 (ODisconnect 9 (Some (RCallable (fn (rho 1)))) false) v' = Some (Err EValue).
Proof.
  exists C31_env, C31_one, (init_world (all_plain Immediate 0) tt), (fun f => f + 100).
  split; [reach|]. split; [reflexivity|]. split.
  { exists (all_plain Immediate 0), tt, (Ret VNone), (Ok VNone).
    split; [auto with demo|]. split; [auto with demo|]. exists 1. reflexivity. }
  vm_compute. auto.
Qed.
Print Assumptions C31_priority_refuted.
Print Assumptions C31_disconnect_refuted.

(** A queued signal copied by one of its own callbacks never emits again: the copy has the
    queue of the running emission but nothing that empties it. *)
Definition C31_halt : env unit := demo (fun f _ => match f with 5 => Halt | _ => Ret VNone end).
Definition C31_inside := world_of C31_halt (all_plain Queued 1) tt 50 [conn 0 1 0; conn 0 5 0; emit 0 [VInt 5]].
Theorem C31_inside_refuted : exists (E : env unit) w,
  reachable E w
  /\ let v' := unpickle here (getstate (w_sg w 0)) 9 w in
     map w_target (s_slots (w_sg v' 9)) = [TFun 1 [] []; TFun 5 [] []]
     /\ s_blocked (w_sg v' 9) = false /\ s_paused (w_sg v' 9) = false
     /\ exists v2, steps C31_env (emit 9 [VInt 7]) v' v2 (Ok VNone)
        /\ w_tr v2 = w_tr v' ++ [EEmit 9 [VInt 7] tt; EQueued 9 [VInt 7]].
Proof.
  exists C31_halt, C31_inside. split; [reach|].
  split; [reflexivity|]. split; [reflexivity|]. split; [reflexivity|].
  exists (after1 C31_env 9 (emit 9 [VInt 7]) (unpickle here (getstate (w_sg C31_inside 0)) 9 C31_inside)).
  split; [ran|]. vm_compute. reflexivity.
Qed.
Print Assumptions C31_inside_refuted.
Example C31_case_connect_new :
  let g := getstate (w_sg C31_one 1) in
  let k := fst (connect_copy C31_env (bare g C31_one) 9 (fn 2) (prio 1) (unpickle here g 9 C31_one)) in
  s_slots (w_sg k 9) <> [] /\ s_members (w_sg k 9) = None
  /\ (forall x, In x (s_slots (w_sg k 9)) -> ~ In (w_uid x) (bare g C31_one))
  /\ map w_target (s_slots (w_sg (fst (connect_copy C31_env (bare g C31_one) 9 (fn 1) (prio 2) k)) 9))
     = [TFun 1 [] []; TFun 2 [] []].
Proof. split; [vm_compute; discriminate|]. split; [reflexivity|]. split; [intros x _ []|vm_compute; reflexivity]. Qed.
Print Assumptions C31_connect_new_partial.
