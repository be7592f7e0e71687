(** Connecting WeakCallbacks: C88. *)

From Verif Require Import Base Reuse.
Open Scope list_scope.

(** [owner k]: the object whose method has the key [k]: two WeakCallbacks are equal only if
    they call a method of the same object. *)
Definition keyed (owner : nat -> oid) (e : event) : Prop :=
  match e with Connect _ (Method o _ _ k) _ _ => owner k = o | _ => True end.
(** Methods are connected with the check of their signature while their object exists; a
    WeakCallback is connected only to the signal it was made by, and only if it is not
    connected there. *)
Definition proper (st : state) (e : event) : Prop :=
  match e with
  | Connect s (Method o _ _ _) m _ => m = None /\ r_alive st o = true
  | Connect s (Old w) _ _ =>
      w < r_next st /\ o_final (r_objs st w) = Some s /\ ~ In w (r_slots st s)
      /\ r_alive st (o_ref (r_objs st w)) = true
  | Disconnect _ _ | Die _ => True
  end.
Inductive properly (owner : nat -> oid) : state -> list event -> Prop :=
| pr_nil : forall st, properly owner st []
| pr_cons : forall st e l, keyed owner e -> proper st e -> properly owner (step st e) l ->
    properly owner st (e :: l).

(** * Invariant *)

Record inv (owner : nat -> oid) (st : state) : Prop := Inv {
  i_nodup : forall s, NoDup (r_slots st s);
  i_slots : forall s w, In w (r_slots st s) -> w < r_next st /\ o_final (r_objs st w) = Some s;
  i_alive : forall s w, In w (r_slots st s) -> r_alive st (o_ref (r_objs st w)) = true;
  i_owner : forall w, w < r_next st -> owner (o_key (r_objs st w)) = o_ref (r_objs st w);
  i_args : forall w s, w < r_next st -> o_final (r_objs st w) = Some s ->
             o_min (r_objs st w) <= r_arity st s
             /\ o_maxargs (r_objs st w) = o_max (r_objs st w)
             /\ match o_max (r_objs st w) with Some h => o_min (r_objs st w) <= h | None => True end
}.
Lemma insert_In : forall objs w l x, In x (insert objs w l) <-> x = w \/ In x l.
Proof.
  intros objs w l x. induction l as [|y l IH]; cbn; [intuition congruence|].
  destruct (o_prio (objs y) <? o_prio (objs w))%Z; cbn; [intuition congruence|]. rewrite IH. tauto.
Qed.
Lemma insert_nodup : forall objs w l, NoDup l -> ~ In w l -> NoDup (insert objs w l).
Proof.
  intros objs w l H Hn. induction l as [|y l IH]; cbn; [now repeat constructor|].
  destruct (o_prio (objs y) <? o_prio (objs w))%Z; [now constructor|].
  apply NoDup_cons_iff in H as [H1 H2]. cbn in Hn. constructor; [|apply IH; tauto].
  rewrite insert_In. intros [->|X]; tauto.
Qed.
Lemma discard_incl : forall objs w l x, In x (discard objs w l) -> In x l.
Proof.
  intros objs w l x. induction l as [|y l IH]; cbn; [tauto|].
  destruct (Nat.eqb _ _); cbn; [tauto|]. intros [H|H]; auto.
Qed.
Lemma discard_nodup : forall objs w l, NoDup l -> NoDup (discard objs w l).
Proof.
  intros objs w l H. induction l as [|y l IH]; cbn; [constructor|]. apply NoDup_cons_iff in H as [H1 H2].
  destruct (Nat.eqb _ _); [exact H2|]. constructor; [|auto]. intros X. now apply discard_incl in X.
Qed.
Definition with_key (objs : nat -> wobj) (k : nat) (l : list nat) : nat :=
  List.length (filter (fun i => Nat.eqb (o_key (objs i)) k) l).
Lemma discard_count : forall objs w l,
  with_key objs (o_key (objs w)) (discard objs w l) = pred (with_key objs (o_key (objs w)) l).
Proof.
  intros objs w l. unfold with_key. induction l as [|x l IH]; cbn; [reflexivity|].
  destruct (Nat.eqb (o_key (objs x)) (o_key (objs w))) eqn:E; cbn; [reflexivity|]. rewrite E. exact IH.
Qed.
Lemma discard_count_le : forall objs w k l, with_key objs k (discard objs w l) <= with_key objs k l.
Proof.
  intros objs w k l. unfold with_key. induction l as [|x l IH]; cbn; [lia|].
  destruct (Nat.eqb (o_key (objs x)) (o_key (objs w))) eqn:E; cbn.
  - destruct (Nat.eqb (o_key (objs x)) k); cbn; lia.
  - destruct (Nat.eqb (o_key (objs x)) k); cbn; lia.
Qed.
(** What the finalizers of the first [n] WeakCallbacks leave. *)
Definition left_over (objs : nat -> wobj) (s : sid) (k n next : nat) : nat :=
  List.length (filter (fun i => match o_final (objs i) with Some s' => Nat.eqb s' s | None => false end
                                && Nat.eqb (o_key (objs i)) k) (seq n (next - n))).
Lemma finalize_keeps : forall o n st,
  let st' := finalize o n st in
  r_objs st' = r_objs st /\ r_next st' = r_next st /\ r_arity st' = r_arity st /\ r_alive st' = r_alive st
  /\ forall s, (NoDup (r_slots st s) -> NoDup (r_slots st' s)) /\ forall x, In x (r_slots st' s) -> In x (r_slots st s).
Proof.
  intros o n st. induction n as [|n IH]; cbn [finalize]; [auto 10|]. cbv zeta in IH.
  destruct IH as (H1 & H2 & H3 & H4 & H5). cbv zeta.
  destruct (Nat.eqb _ o); [|auto 10]. destruct (o_final _) as [s0|]; [|auto 10].
  cbn [set_slots r_objs r_next r_arity r_alive r_slots]. split; [exact H1|]. split; [exact H2|].
  split; [exact H3|]. split; [exact H4|]. intros s. destruct (Nat.eqb_spec s s0) as [->|]; [|apply H5].
  split; [intros N; apply discard_nodup, H5, N|]. intros x Hx. apply discard_incl in Hx. now apply H5.
Qed.
Lemma finalize_count : forall owner o n st, inv owner st -> n <= r_next st ->
  forall s k, owner k = o ->
  with_key (r_objs st) k (r_slots (finalize o n st) s) <= left_over (r_objs st) s k n (r_next st).
Proof.
  intros owner o n st I. induction n as [|n IH]; intros Hn s k Hk.
  - cbn [finalize]. unfold with_key, left_over. rewrite Nat.sub_0_r. apply NoDup_incl_length.
    + apply NoDup_filter, (i_nodup _ _ I).
    + intros x Hx. apply filter_In in Hx as [H1 H2]. apply (i_slots _ _ I) in H1 as [H1 H3].
      apply filter_In. split; [apply in_seq; lia|]. now rewrite H3, Nat.eqb_refl, H2.
  - specialize (IH ltac:(lia)). destruct (finalize_keeps o n st) as (E1 & E2 & _ & _ & _).
    assert (L : forall s' k', left_over (r_objs st) s' k' n (r_next st)
              = (if match o_final (r_objs st n) with Some s1 => Nat.eqb s1 s' | None => false end
                    && Nat.eqb (o_key (r_objs st n)) k' then 1 else 0)
                + left_over (r_objs st) s' k' (S n) (r_next st)).
    { intros s' k'. unfold left_over. replace (r_next st - n) with (S (r_next st - S n)) by lia. cbn [seq filter].
      destruct (_ && _); reflexivity. }
    cbn [finalize]. cbv zeta. rewrite E1.
    destruct (Nat.eqb_spec (o_ref (r_objs st n)) o) as [Ho|Ho].
    + destruct (o_final (r_objs st n)) as [s0|] eqn:F.
      * cbn [set_slots r_slots]. destruct (Nat.eqb_spec s s0) as [->|Hs].
        -- destruct (Nat.eqb_spec (o_key (r_objs st n)) k) as [Hk'|Hk'].
           ++ rewrite <- Hk', discard_count, Hk'. specialize (IH s0 k Hk). rewrite L, Nat.eqb_refl in IH.
              rewrite Hk', Nat.eqb_refl in IH. cbn [andb] in IH. lia.
           ++ etransitivity; [apply discard_count_le|]. etransitivity; [exact (IH s0 k Hk)|].
              rewrite L. apply Nat.eqb_neq in Hk'. rewrite Hk', andb_false_r. lia.
        -- etransitivity; [exact (IH s k Hk)|]. rewrite L.
           replace (Nat.eqb s0 s) with false by (symmetry; apply Nat.eqb_neq; congruence). cbn [andb]. lia.
      * etransitivity; [exact (IH s k Hk)|]. rewrite L. cbn [andb]. lia.
    + etransitivity; [exact (IH s k Hk)|]. rewrite L.
      destruct (Nat.eqb_spec (o_key (r_objs st n)) k) as [Hk'|]; [|rewrite andb_false_r; lia].
      destruct Ho. rewrite <- (i_owner _ _ I n) by lia. congruence.
Qed.
Lemma finalize_none : forall owner o st, inv owner st ->
  forall s w, In w (r_slots (finalize o (r_next st) st) s) -> o_ref (r_objs st w) <> o.
Proof.
  intros owner o st I s w Hw Ho. destruct (finalize_keeps o (r_next st) st) as (_ & _ & _ & _ & K).
  assert (Hw' := Hw). apply K in Hw'. apply (i_slots _ _ I) in Hw' as [Hl _].
  pose proof (finalize_count owner o (r_next st) st I (le_n _) s (o_key (r_objs st w))) as C.
  rewrite (i_owner _ _ I) in C by exact Hl. specialize (C Ho). unfold left_over in C. rewrite Nat.sub_diag in C. cbn in C.
  unfold with_key in C. destruct (filter _ _) eqn:F; [|cbn in C; lia].
  assert (X : In w (filter (fun i => Nat.eqb (o_key (r_objs st i)) (o_key (r_objs st w))) (r_slots (finalize o (r_next st) st) s))).
  { apply filter_In. split; [exact Hw|apply Nat.eqb_refl]. }
  rewrite F in X. destruct X.
Qed.
Lemma inv_step : forall owner st e, inv owner st -> keyed owner e -> proper st e ->
  (forall s o lo hi k m p, e = Connect s (Method o lo hi k) m p -> match hi with Some h => lo <= h | None => True end) ->
  inv owner (step st e).
Proof.
  intros owner st e I HK HP HW. destruct e as [s x m p|s v|o]; cbn [step].
  - destruct x as [o lo hi k|w]; cbn [connect].
    + cbn in HP, HK. destruct HP as [-> HA]. specialize (HW s o lo hi k None p eq_refl).
      destruct (Nat.ltb_spec (r_arity st s) lo) as [Hl|Hl]; [exact I|]. destruct I as [I1 I2 I3 I4 I5].
      assert (Fr : forall s', ~ In (r_next st) (r_slots st s')).
      { intros s' X. apply I2 in X as [X _]. lia. }
      assert (N : forall i, i < r_next st -> Nat.eqb i (r_next st) = false) by (intros i Hi; apply Nat.eqb_neq; lia).
      constructor; cbn [set_slots r_slots r_next r_objs r_alive r_arity].
      * intros s'. destruct (Nat.eqb s' s); [|apply I1]. apply insert_nodup; [apply I1|apply Fr].
      * intros s' w Hw. destruct (Nat.eqb_spec s' s) as [->|].
        -- apply insert_In in Hw as [->|Hw]; [rewrite Nat.eqb_refl; split; [lia|reflexivity]|].
           apply I2 in Hw as [H1 H2]. rewrite N by exact H1. split; [lia|exact H2].
        -- apply I2 in Hw as [H1 H2]. rewrite N by exact H1. split; [lia|exact H2].
      * intros s' w Hw. assert (H : w = r_next st \/ In w (r_slots st s')).
        { destruct (Nat.eqb_spec s' s) as [->|]; [now apply insert_In in Hw|now right]. }
        destruct H as [->|H]; [now rewrite Nat.eqb_refl|]. pose proof (I2 _ _ H) as [H1 _]. rewrite N by exact H1. eauto.
      * intros w Hw. destruct (Nat.eqb_spec w (r_next st)) as [->|]; [exact HK|]. apply I4. lia.
      * intros w s' Hw. destruct (Nat.eqb_spec w (r_next st)) as [->|]; [|apply I5; lia].
        cbn. intros [= <-]. auto.
    + cbn in HP. destruct HP as (H1 & H2 & H3 & H4). destruct I as [I1 I2 I3 I4 I5].
      constructor; cbn [set_slots r_slots r_next r_objs r_alive r_arity]; auto.
      * intros s'. destruct (Nat.eqb_spec s' s) as [->|]; [|apply I1]. now apply insert_nodup.
      * intros s' w' Hw. destruct (Nat.eqb_spec s' s) as [->|]; [|auto]. apply insert_In in Hw as [->|Hw]; auto.
      * intros s' w' Hw. destruct (Nat.eqb_spec s' s) as [->|]; [|eauto]. apply insert_In in Hw as [->|Hw]; eauto.
  - destruct I as [I1 I2 I3 I4 I5].
    constructor; cbn [set_slots r_slots r_next r_objs r_alive r_arity]; auto.
    + intros s'. destruct (Nat.eqb_spec s' s) as [->|]; [apply discard_nodup|]; apply I1.
    + intros s' w Hw. destruct (Nat.eqb_spec s' s) as [->|]; [apply discard_incl in Hw|]; auto.
    + intros s' w Hw. destruct (Nat.eqb_spec s' s) as [->|]; [apply discard_incl in Hw|]; eauto.
  - unfold die. cbv zeta. destruct (r_alive st o) eqn:HA; cbn [negb]; [|exact I].
    set (st2 := State _ _ _ _ _). cbn [r_next].
    assert (G : forall n, r_slots (finalize o n st2) = r_slots (finalize o n st) /\ r_objs (finalize o n st2) = r_objs (finalize o n st)).
    { induction n as [|n [G1 G2]]; cbn [finalize]; [auto|]. cbv zeta. rewrite G2.
      destruct (Nat.eqb _ o); [|auto]. destruct (o_final _); [|auto]. cbn [set_slots r_slots r_objs]. now rewrite G1, G2. }
    change (r_next st2) with (r_next st).
    destruct (finalize_keeps o (r_next st) st2) as (E1 & E2 & E3 & E4 & E5).
    destruct (finalize_keeps o (r_next st) st) as (F1 & F2 & F3 & F4 & F5).
    destruct (G (r_next st)) as [G1 G2].
    constructor; rewrite ?E1, ?E2, ?E3, ?E4; cbn [r_objs r_next r_arity r_alive]; try apply I.
    + intros s. rewrite G1. apply F5, I.
    + intros s w Hw. rewrite G1 in Hw. now apply F5, (i_slots _ _ I) in Hw.
    + intros s w Hw. rewrite G1 in Hw. pose proof (finalize_none _ _ _ I _ _ Hw) as Hne.
      apply F5, (i_alive _ _ I) in Hw. apply andb_true_intro. split; [|exact Hw].
      apply negb_true_iff. now apply Nat.eqb_neq.
Qed.
Lemma inv_start : forall owner arity, inv owner (start arity).
Proof.
  intros owner arity. constructor; cbn; intros; try lia; try contradiction. constructor.
Qed.
(** The numbers of arguments of a method make sense. *)
Definition sensible (e : event) : Prop :=
  match e with
  | Connect _ (Method _ lo (Some h) _) _ _ => lo <= h
  | _ => True
  end.
Lemma inv_run : forall owner l st, inv owner st -> properly owner st l -> Forall sensible l -> inv owner (run l st).
Proof.
  intros owner l. induction l as [|e l IH]; intros st I H HS; cbn; [exact I|].
  inversion H as [|? ? ? HK HP H']; subst. inversion HS as [|? ? S1 S2]; subst. apply IH; [|exact H'|exact S2].
  apply inv_step; auto. intros s o lo hi k m p ->. exact S1.
Qed.
Lemma emit_all : forall st n l, (forall w, In w l -> cb st n w = None) -> emit_slots st n l = (l, None).
Proof.
  intros st n l. induction l as [|w l IH]; intros H; cbn; [reflexivity|]. rewrite H by now left.
  rewrite IH; [reflexivity|]. intros x Hx. apply H. now right.
Qed.

(** Whatever is connected, and whichever objects die: emitting a signal calls all its slots
    without error, if WeakCallbacks are connected only to the signals they were made by. *)
Theorem C88_own_partial : forall owner arity l s,
  properly owner (start arity) l -> Forall sensible l ->
  emit s (run l (start arity)) = (r_slots (run l (start arity)) s, None).
Proof.
  intros owner arity l s H HS. pose proof (inv_run owner l _ (inv_start owner arity) H HS) as I.
  unfold emit. apply emit_all. intros w Hw. unfold cb. rewrite (i_alive _ _ I s w Hw). cbn [negb].
  destruct (i_slots _ _ I s w Hw) as [Hl Hf]. destruct (i_args _ _ I w s Hl Hf) as (A1 & A2 & A3).
  rewrite A2. destruct (o_max (r_objs _ w)) as [h|].
  - replace (Nat.min h _ <? _) with false by (symmetry; apply Nat.ltb_ge; lia).
    replace (h <? Nat.min h _) with false by (symmetry; apply Nat.ltb_ge; lia). reflexivity.
  - replace (_ <? _) with false by (symmetry; apply Nat.ltb_ge; lia). reflexivity.
Qed.
(** A slot is there from its connection until its object dies. *)
Theorem C88_connected : forall st s w m p,
  In w (r_slots (step st (Connect s (Old w) m p)) s)
  /\ forall s' x, s' <> s \/ x <> w ->
       (In x (r_slots (step st (Connect s (Old w) m p)) s') <-> In x (r_slots st s')).
Proof.
  intros st s w m p. cbn [step connect set_slots r_slots]. rewrite Nat.eqb_refl. split.
  - apply insert_In. now left.
  - intros s' x H. destruct (Nat.eqb_spec s' s) as [->|]; [|tauto]. rewrite insert_In. intuition congruence.
Qed.
(** A method is refused exactly if max_args is not given and it needs more arguments than the signal has; otherwise it is
    connected. *)
Theorem C88_refused : forall st s o lo hi key m p,
  (connect s (Method o lo hi key) m p st = None <-> m = None /\ r_arity st s < lo)
  /\ (forall st', connect s (Method o lo hi key) m p st = Some st' ->
        In (r_next st) (r_slots st' s) /\ forall s' x, s' <> s \/ x <> r_next st -> (In x (r_slots st' s') <-> In x (r_slots st s'))).
Proof.
  intros st s o lo hi key m p. cbn [connect]. split.
  - destruct m as [m|]; [split; [discriminate|intros [H _]; discriminate]|].
    destruct (Nat.ltb_spec (r_arity st s) lo); split; auto; [discriminate|intros [_ H']; lia].
  - intros st' H. destruct (match m with None => _ | Some _ => _ end) in H; [discriminate|].
    injection H as <-. cbn [set_slots r_slots]. rewrite Nat.eqb_refl. split; [apply insert_In; now left|].
    intros s' x Hx. destruct (Nat.eqb_spec s' s) as [->|]; [|tauto]. rewrite insert_In. intuition congruence.
Qed.
(** With max_args=m the method gets the first m arguments: if it does not take that many, emitting raises TypeError. *)
Theorem C88_max : forall st s o lo hi key m p st', connect s (Method o lo hi key) (Some m) p st = Some st' ->
  r_slots st s = [] -> r_alive st o = true ->
  let n := Nat.min m (r_arity st s) in
  ((lo <= n /\ match hi with Some h => n <= h | None => True end) -> emit s st' = ([r_next st], None))
  /\ (~ (lo <= n /\ match hi with Some h => n <= h | None => True end) -> emit s st' = ([r_next st], Some EType)).
Proof.
  intros st s o lo hi key m p st' H HS HA n. cbn [connect] in H. injection H as <-.
  unfold emit. cbn [set_slots r_slots r_arity]. rewrite Nat.eqb_refl, HS. cbn [insert emit_slots].
  unfold cb. cbn [set_slots r_objs r_alive]. rewrite Nat.eqb_refl. cbn [o_ref o_maxargs o_min o_max]. rewrite HA. cbn [negb].
  fold n. destruct (Nat.ltb_spec n lo).
  - split; [intros [H1 _]; lia|reflexivity].
  - destruct hi as [h|]; [|split; [reflexivity|intros H1; exfalso; apply H1; auto]].
    destruct (Nat.ltb_spec h n); split; try reflexivity; [intros [_ H2]; lia|intros H1; exfalso; apply H1; lia].
Qed.
Example C88_max_case :
  let start := start (fun _ => 3) in
  r_slots start 0 = [] /\ r_alive start 1 = true
  /\ (exists st', connect 0 (Method 1 0 (Some 2) 10) (Some 2) 0 start = Some st' /\ snd (emit 0 st') = None)
  /\ (exists st', connect 0 (Method 1 0 (Some 2) 10) (Some 3) 0 start = Some st' /\ snd (emit 0 st') = Some EType)
  /\ connect 0 (Method 1 4 (Some 4) 10) None 0 start = None.
Proof. split; [reflexivity|]. split; [reflexivity|]. repeat split; eexists; split; reflexivity. Qed.
(** Object 1 has a method with 1 or 2 arguments and key 10, object 2 one with 0 arguments
    and key 20.  Signal 0 has 2 arguments, signal 1 has one, signal 2 none. *)
Definition C88_owner (k : nat) : oid := Nat.div k 10.
Definition C88_arity (s : sid) : nat := match s with 0 => 2 | 1 => 1 | _ => 0 end.
Definition C88_history : list event :=
  [Connect 0 (Method 1 1 (Some 2) 10) None 0; Connect 0 (Method 2 0 (Some 0) 20) None 5;
   Connect 1 (Method 1 1 (Some 2) 10) None 0; Connect 0 (Method 1 1 (Some 2) 10) None 0;
   Connect 2 (Method 1 1 (Some 2) 10) None 0; Disconnect 0 0; Connect 0 (Old 0) None 0; Die 1].
Example C88_case :
  properly C88_owner (start C88_arity) C88_history /\ Forall sensible C88_history
  /\ emit 0 (run (removelast C88_history) (start C88_arity)) = ([1; 3; 0], None)
  /\ emit 0 (run C88_history (start C88_arity)) = ([1], None)
  /\ emit 1 (run C88_history (start C88_arity)) = ([], None).
Proof.
  split.
  - unfold C88_history. repeat (apply pr_cons; [vm_compute; auto|vm_compute; intuition (discriminate || lia || auto)|]). apply pr_nil.
  - split; [repeat constructor|]. vm_compute. auto.
Qed.
(** False of the code for WeakCallbacks that are connected to another signal (0 was made by
    signal 0): when the object dies, the other signal keeps the slot, and every emission
    raises ReferenceError; a signal with too few arguments accepts it, and emissions raise
    TypeError; the priority is ignored.  And one that is connected twice to its own signal is
    removed only once. *)
Theorem C88_foreign_refuted :
  (exists l s w, l = [Connect 0 (Method 1 0 (Some 0) 10) None 0; Connect 1 (Old 0) None 0; Die 1]
     /\ s = 1 /\ w = 0 /\ emit s (run l (start C88_arity)) = ([w], Some EReference))
  /\ (exists l s w, l = [Connect 0 (Method 1 2 (Some 2) 10) None 0; Connect 1 (Old 0) None 0]
     /\ s = 1 /\ w = 0 /\ emit s (run l (start C88_arity)) = ([w], Some EType)
     /\ connect s (Method 1 2 (Some 2) 10) None 0 (start C88_arity) = None)
  /\ (exists l s, l = [Connect 0 (Method 1 0 (Some 0) 10) None 0; Connect 1 (Method 2 0 (Some 0) 20) None 3; Connect 1 (Old 0) None 9]
     /\ s = 1 /\ fst (emit s (run l (start C88_arity))) = [1; 0])
  /\ (exists l s w, l = [Connect 0 (Method 1 0 (Some 0) 10) None 0; Connect 0 (Old 0) None 0; Die 1]
     /\ s = 0 /\ w = 0 /\ emit s (run l (start C88_arity)) = ([w], Some EReference)).
Proof.
  split; [|split; [|split]]; repeat eexists; vm_compute; reflexivity.
Qed.
Print Assumptions C88_own_partial.
Print Assumptions C88_connected.
Print Assumptions C88_foreign_refuted.
Print Assumptions C88_refused.
Print Assumptions C88_max.
