(** The blocked flag under programs that change it only through [with s.blocked()]
    statements.  Proof infrastructure; models no code. *)

From Verif Require Import Base Core Spec Frame Fuel Conn Keep Ctl.

Section Flag.
Context {U : Type} (E : env U) (M : sid -> list sid) (s : sid).

Definition flag (w : world U) : bool := s_blocked (w_sg w s).
(** Members do not change; a blocked signal stays blocked; the flag is as before unless the
    run was cut short. *)
Definition flagged (w w' : world U) (r : out) : Prop :=
  (forall x, s_members (w_sg w' x) = s_members (w_sg w x)) /\
  ((forall x, members_of w x = M x) ->
     (flag w = true -> flag w' = true) /\ (done r -> flag w' = flag w)).

Definition bits (st : sigst) := (s_blocked st, s_members st).
Lemma flagged_same : forall w w' r, fsame bits w w' -> flagged w w' r.
Proof.
  intros w w' r H. assert (H1 : forall x, s_members (w_sg w' x) = s_members (w_sg w x)).
  { intros x. specialize (H x). unfold bits in H. congruence. }
  assert (H2 : flag w' = flag w). { specialize (H s). unfold bits, flag in *. congruence. }
  split; [exact H1|]. intros _. split; [congruence|auto].
Qed.
Lemma flagged_trans : forall a b c r r', flagged a b r -> done r -> flagged b c r' -> flagged a c r'.
Proof.
  intros a b c r r' [H1 H2] Hr [H3 H4]. split; [intros x; rewrite H3; apply H1|].
  intros HM. destruct (H2 HM) as [H5 H6].
  destruct H4 as [H7 H8]. { intros x. unfold members_of. rewrite H1. apply HM. }
  split; [auto|]. intros Hr'. rewrite H8 by assumption. auto.
Qed.
Lemma bits_slots : forall l st, bits (set_slots l st) = bits st. Proof. reflexivity. Qed.
Lemma bits_prio : forall b st, bits (set_prio b st) = bits st. Proof. reflexivity. Qed.

Lemma flagged_pure : forall o w w' r, leaves_flag M s o -> is_pure o = true ->
  pure_step E o w = Some (w', r) -> flagged w w' r.
Proof.
  intros o w w' r HA Hp H.
  destruct o; try (apply flagged_same; eapply (fsame_pure bits bits_slots bits_prio); eauto; exact I).
  - injection H as <- <-. split; [intros x; apply block_members|]. intros HM. destruct HA as [H1 H2].
    unfold flag. rewrite block_other by (try rewrite HM; auto). auto.
  - injection H as <- <-. split; [intros x; apply unblock_members|]. intros HM. destruct HA as [H1 H2].
    unfold flag. rewrite unblock_other by (try rewrite HM; auto). auto.
  - injection H as <- <-. apply flagged_same, fsame_upd. reflexivity.
Qed.

Lemma framed_flag : framed E (leaves_flag M s) (fun _ => True) flagged (fun _ _ => flagged).
Proof.
  split; try (intros; exact I).
  - intros w r. apply flagged_same, fsame_refl.
  - intros; eapply flagged_trans; eauto.
  - intros _ _ w r. apply flagged_same, fsame_refl.
  - intros _ _ a b c r r' H1 Hr H2; eapply flagged_trans; eauto.
  - intros o w w' r HA Hp H. now apply flagged_pure with (o := o).
  - intros x args w r _. apply flagged_same. intros y; reflexivity.
  - intros x args w r _ _. apply flagged_same, fsame_upd. reflexivity.
  - intros h x args w r _. apply flagged_same. intros y; reflexivity.
  - intros x args w r _ _ _. apply flagged_same. intros y. cbn [log w_sg set_tr]. apply fsame_upd. reflexivity.
  - intros x args w w' r _ _ _ H.
    assert (H0 : forall r, flagged w (started x args w) r).
    { intros r0. apply flagged_same. intros y. unfold started, entered, enter.
      destruct (s_mode (w_sg w x)); cbn [log w_sg set_tr set_cur];
        (destruct (Nat.eq_dec y x) as [->|Hne];
         [repeat first [rewrite upd_same | progress cbn [log w_sg set_tr set_cur set_nxt]]; reflexivity
         |repeat first [rewrite upd_other by assumption | progress cbn [log w_sg set_tr set_cur set_nxt]]; reflexivity]). }
    destruct r.
    + eapply flagged_trans; [apply (H0 (Ok v))|discriminate|]. eapply flagged_trans; [exact H|discriminate|].
      apply flagged_same. unfold leave. intros y. destruct (Nat.eq_dec y x) as [->|Hne].
      * rewrite upd_same. cbn. destruct (Nat.leb _ 0); reflexivity.
      * rewrite upd_other by assumption. reflexivity.
    + eapply flagged_trans; [apply (H0 (Err e))|discriminate|]. eapply flagged_trans; [exact H|discriminate|].
      apply flagged_same. unfold leave. intros y. destruct (Nat.eq_dec y x) as [->|Hne].
      * rewrite upd_same. cbn. destruct (Nat.leb _ 0); reflexivity.
      * rewrite upd_other by assumption. reflexivity.
    + eapply flagged_trans; [apply (H0 (Ok VNone))|discriminate|exact H].
  - intros x args w w' r _ _ H _.
    assert (H0 : forall r, flagged w (started_fast x args w) r).
    { intros r0. apply flagged_same. intros y. unfold started_fast.
      cbn [log w_sg set_tr]. destruct (Nat.eq_dec y x) as [->|Hne];
        [rewrite upd_same|rewrite upd_other by assumption]; reflexivity. }
    assert (HL : forall r, flagged w' (left_fast x (log (EEnd (w_nxt w) x) w')) r).
    { intros r0. apply flagged_same. intros y. unfold left_fast. destruct (Nat.eq_dec y x) as [->|Hne].
      * rewrite upd_same. cbn [log w_sg set_tr]. destruct (Nat.ltb 0 _); reflexivity.
      * rewrite upd_other by assumption. reflexivity. }
    destruct r.
    + eapply flagged_trans; [apply (H0 (Ok v))|discriminate|]. eapply flagged_trans; [exact H|discriminate|apply HL].
    + eapply flagged_trans; [apply (H0 (Err e))|discriminate|]. eapply flagged_trans; [exact H|discriminate|apply HL].
    + eapply flagged_trans; [apply (H0 (Ok VNone))|discriminate|exact H].
  - intros eid x c a w w' r _ H _.
    assert (H0 : flagged w w' r).
    { eapply flagged_trans with (r := Ok VNone) (b := log (ECall eid x (w_uid c) a) w);
        [apply flagged_same; intros y; reflexivity|discriminate|exact H]. }
    destruct r; [| |exact H0]; (eapply flagged_trans; [exact H0|discriminate|apply flagged_same; intros y; reflexivity]).
  - intros eid x c a w w' r _ H.
    assert (H0 : flagged w w' r).
    { eapply flagged_trans with (r := Ok VNone) (b := log (EDCall eid x (w_uid c) a) w);
        [apply flagged_same; intros y; reflexivity|discriminate|exact H]. }
    destruct r; [| |exact H0]; (eapply flagged_trans; [exact H0|discriminate|apply flagged_same; intros y; reflexivity]).
  - intros eid x c t args w r _ _ _. apply flagged_same. intros y. reflexivity.
  - intros x rd w r _ _. apply flagged_same, fsame_upd. reflexivity.
  - intros x rd w r _ _. apply flagged_same, fsame_upd. reflexivity.
  - intros t eid x c args q w r _. apply flagged_same. intros y. reflexivity.
Qed.

Hypothesis HE : env_scoped M s E.

Lemma block_flag : forall x excl (w : world U), s_blocked (w_sg (block x excl w) x) = true.
Proof.
  intros x excl w. unfold block. destruct (s_members (w_sg w x)) as [ms|]; [|now rewrite upd_same].
  assert (H : forall w0 : world U, s_blocked (w_sg w0 x) = true ->
     s_blocked (w_sg (fold_left (block_member x excl) ms w0) x) = true).
  { induction ms as [|[n m] ms IH]; intros w0 H0; cbn [fold_left]; [exact H0|]. apply IH.
    unfold block_member. destruct (excluded n m excl); [exact H0|].
    destruct (Nat.eq_dec x m) as [->|Hne]; [now rewrite upd_same|].
    rewrite upd_other by assumption. now rewrite upd_same. }
  apply H. now rewrite upd_same.
Qed.
Lemma unblock_flag : forall x (w : world U), s_blocked (w_sg (unblock x w) x) = false.
Proof.
  intros x w. unfold unblock. destruct (s_members (w_sg w x)) as [ms|]; [|now rewrite upd_same].
  assert (H : forall w0 : world U, s_blocked (w_sg w0 x) = false ->
     s_blocked (w_sg (fold_left (unblock_member x) ms w0) x) = false).
  { induction ms as [|[n m] ms IH]; intros w0 H0; cbn [fold_left]; [exact H0|]. apply IH.
    unfold unblock_member. destruct (match assoc_get _ _ with Some b => b | None => false end); [now rewrite upd_same|].
    destruct (Nat.eq_dec x m) as [->|Hne]; [now rewrite upd_same|].
    rewrite upd_other by assumption. now rewrite upd_same. }
  apply H. now rewrite upd_same.
Qed.

Lemma exec_scoped : forall n,
  (forall p w w' r, scoped M s p -> exec E n p w = Some (w', r) -> flagged w w' r) /\
  (forall r args w w' o,
      exec E n (Do (ORelay r args) (fun x => match x with inl v => Ret v | inr e => Throw e end)) w
        = Some (w', o) -> flagged w w' o).
Proof.
  induction n as [n IH] using lt_wf_ind.
  assert (IH1 : forall m p w w' r, m < n -> scoped M s p -> exec E m p w = Some (w', r) -> flagged w w' r)
    by (intros m p w w' r Hm Hp Hx; exact (proj1 (IH m Hm) p w w' r Hp Hx)).
  assert (IH2 : forall m r args w w' o, m < n ->
      exec E m (Do (ORelay r args) (fun x => match x with inl v => Ret v | inr e => Throw e end)) w
        = Some (w', o) -> flagged w w' o)
    by (intros m r args w w' o Hm Hx; exact (proj2 (IH m Hm) r args w w' o Hx)).
  clear IH.
  assert (HS : forall m o w w' r, m < n -> leaves_flag M s o -> step (exec E m) E m o w = Some (w', r) ->
             flagged w w' r).
  { intros m o w w' r Hm HA H.
    eapply (frame_step E _ _ _ _ framed_flag (scoped M s) HE (exec E m)); [..|exact HA|exact H]; eauto. }
  assert (HT : forall w r, flagged w w r) by (intros; apply flagged_same, fsame_refl).
  split.
  - intros p w w' r Hp H. destruct Hp as [v|e| |k Hk|o k Hk0 Hk|excl p k Hp Hk].
    + destruct n; [discriminate|]. injection H as <- <-. apply HT.
    + destruct n; [discriminate|]. injection H as <- <-. apply HT.
    + destruct n; [discriminate|]. injection H as <- <-. apply HT.
    + destruct n; [discriminate|]. eapply (IH1 n); [lia|apply Hk|exact H].
    + destruct n as [|n]; [discriminate|]. cbn [exec] in H.
      destruct (step (exec E n) E n o w) as [[w1 r1]|] eqn:HX; [|discriminate].
      apply HS in HX; [|lia|exact Hk0].
      destruct r1; [| |injection H as <- <-; exact HX];
        (eapply flagged_trans; [exact HX|discriminate|]; eapply (IH1 n); [lia|apply Hk|exact H]).
    + unfold with_blocked, call in H. cbn [bind catch finish] in H.
      apply exec_pure in H as (n1 & w1 & r1 & -> & HB & H); [|reflexivity].
      injection HB as <- <-. cbn [bind catch finish] in H.
      apply exec_pure in H as (n2 & w2 & r2 & -> & HB & H); [|reflexivity].
      injection HB as <- <-. cbn [bind catch finish] in H. unfold try_finally in H.
      apply exec_catch in H as (m1 & w3 & r3 & Hm1 & HX & H).
      assert (HXX : exists m0 w4 r4, m0 <= n2 /\ exec E m0 p (block s excl w) = Some (w4, r4) /\
        (forall r0, flagged w4 (if flag w then w4 else unblock s w4) r0 -> True) /\
        match r4 with
        | Halted => w3 = w4 /\ r3 = Halted
        | _ => w3 = (if flag w then w4 else unblock s w4) /\ r3 = r4
        end).
      { apply exec_catch in HX as (m0 & w4 & r4 & Hm0 & HX & HK). exists m0, w4, r4.
        split; [lia|]. split; [exact HX|]. split; [auto|]. unfold flag.
        assert (HF : forall m x, exec E m (bind (match s_blocked (w_sg w s) with true => Ret VNone | false => call (OUnblock s) end)
                        (fun _ => finish x)) w4 = Some (w3, r3) ->
                     w3 = (if s_blocked (w_sg w s) then w4 else unblock s w4) /\ r3 = match x with inl v => Ok v | inr e => Err e end).
        { intros m x HF. destruct (s_blocked (w_sg w s)).
          - cbn [bind] in HF. destruct m; [discriminate|]. destruct x; injection HF as <- <-; auto.
          - unfold call in HF. cbn [bind] in HF. apply exec_pure in HF as (m' & w5 & r5 & -> & HB & HF); [|reflexivity].
            injection HB as <- <-. cbn [finish bind] in HF. destruct m'; [discriminate|].
            destruct x; injection HF as <- <-; auto. }
        destruct r4.
        - destruct HK as (m2 & _ & HK). exact (HF m2 (inl v) HK).
        - destruct HK as (m2 & _ & HK). exact (HF m2 (inr e) HK).
        - exact HK. }
      clear HX. destruct HXX as (m0 & w4 & r4 & Hm0 & HX & _ & HR).
      apply IH1 in HX; [|lia|exact Hp].
      (* the statement as a whole *)
      assert (HF : flagged w w3 r3).
      { destruct HX as [HX1 HX2].
        assert (HM4 : forall x, s_members (w_sg w4 x) = s_members (w_sg w x))
          by (intros x; rewrite HX1; apply block_members).
        assert (HB4 : (forall x, members_of w x = M x) -> flag w4 = true).
        { intros HM. apply HX2; [|apply block_flag]. intros x. unfold members_of. rewrite block_members. apply HM. }
        destruct r4.
        - destruct HR as [-> ->]. split.
          + intros x. destruct (flag w); [|rewrite unblock_members]; apply HM4.
          + intros HM. destruct (flag w) eqn:Hf; [rewrite HB4 by assumption; auto|].
            split; [discriminate|]. intros _. apply unblock_flag.
        - destruct HR as [-> ->]. split.
          + intros x. destruct (flag w); [|rewrite unblock_members]; apply HM4.
          + intros HM. destruct (flag w) eqn:Hf; [rewrite HB4 by assumption; auto|].
            split; [discriminate|]. intros _. apply unblock_flag.
        - destruct HR as [-> ->]. split; [exact HM4|]. intros HM. split; [auto|congruence]. }
      destruct r3.
      * destruct H as (m2 & Hm2 & H). eapply flagged_trans; [exact HF|discriminate|].
        eapply (IH1 m2); [lia|apply Hk|exact H].
      * destruct H as (m2 & Hm2 & H). eapply flagged_trans; [exact HF|discriminate|].
        eapply (IH1 m2); [lia|apply Hk|exact H].
      * destruct H as [-> ->]. exact HF.
  - intros r args w w' o H. destruct n as [|n]; [discriminate|]. cbn [exec] in H.
    destruct (step (exec E n) E n (ORelay r args) w) as [[w1 r1]|] eqn:HX; [|discriminate].
    apply HS in HX; [|lia|exact I].
    destruct r1; [| |injection H as <- <-; exact HX];
      (eapply flagged_trans; [exact HX|discriminate|]; destruct n; [discriminate|];
       injection H as <- <-; apply HT).
Qed.

Theorem runs_scoped : forall p w w' r, scoped M s p -> runs E p w w' r -> flagged w w' r.
Proof. intros p w w' r Hp [n H]. exact (proj1 (exec_scoped n) p w w' r Hp H). Qed.
End Flag.

(** ** Members of a group across block() and unblock() of the group *)

Section Members.
Context {U : Type}.

Lemma assoc_get_set : forall {A} n (b : A) l x,
  assoc_get x (assoc_set n b l) = if String.eqb n x then Some b else assoc_get x l.
Proof.
  intros A n b l x. unfold assoc_set. cbn [assoc_get]. destruct (String.eqb_spec n x) as [->|Hne]; [reflexivity|].
  induction l as [|[m c] l IH]; cbn [filter fst]; [reflexivity|].
  destruct (String.eqb_spec m n) as [->|Hm]; cbn [negb assoc_get].
  - destruct (String.eqb_spec n x); [contradiction|exact IH].
  - now rewrite IH.
Qed.
Lemma assoc_get_del : forall {A} n (l : list (string * A)) x, x <> n ->
  assoc_get x (assoc_del n l) = assoc_get x l.
Proof.
  intros A n l x Hx. unfold assoc_del. induction l as [|[m c] l IH]; cbn [filter fst]; [reflexivity|].
  destruct (String.eqb_spec m n) as [->|Hm]; cbn [negb assoc_get].
  - destruct (String.eqb_spec n x); [congruence|exact IH].
  - now rewrite IH.
Qed.

Lemma block_fold : forall s excl ms (w : world U),
  NoDup (map fst ms) -> NoDup (map snd ms) -> ~ In s (map snd ms) ->
  let w' := fold_left (block_member s excl) ms w in
  (forall m, ~ In m (map snd ms) -> s_blocked (w_sg w' m) = s_blocked (w_sg w m))
  /\ (forall n, ~ In n (map fst ms) -> assoc_get n (s_wasb (w_sg w' s)) = assoc_get n (s_wasb (w_sg w s)))
  /\ forall n m, In (n, m) ms ->
       if excluded n m excl then s_blocked (w_sg w' m) = s_blocked (w_sg w m)
       else s_blocked (w_sg w' m) = true /\ assoc_get n (s_wasb (w_sg w' s)) = Some (s_blocked (w_sg w m)).
Proof.
  intros s excl ms. induction ms as [|[n m] ms IH]; intros w Hn Hm Hs; cbn [fold_left map fst snd] in *.
  - repeat split; auto. intros n m [].
  - inversion Hn as [|? ? Hn1 Hn2]; inversion Hm as [|? ? Hm1 Hm2]; subst.
    destruct (IH (block_member s excl w (n, m)) Hn2 Hm2) as (I1 & I2 & I3); [intros Hc; apply Hs; now right|].
    assert (Hsm : s <> m) by (intros ->; apply Hs; now left).
    set (w1 := block_member s excl w (n, m)) in *.
    assert (F1 : forall x, x <> m -> s_blocked (w_sg w1 x) = s_blocked (w_sg w x)).
    { intros x Hx. unfold w1, block_member. destruct (excluded n m excl); [reflexivity|].
      rewrite upd_other by assumption. destruct (Nat.eq_dec x s) as [->|]; [now rewrite upd_same|now rewrite upd_other]. }
    assert (F2 : forall x, x <> n -> assoc_get x (s_wasb (w_sg w1 s)) = assoc_get x (s_wasb (w_sg w s))).
    { intros x Hx. unfold w1, block_member. destruct (excluded n m excl); [reflexivity|].
      rewrite upd_other by assumption. rewrite upd_same. cbn [s_wasb set_wasb]. rewrite assoc_get_set.
      destruct (String.eqb_spec n x); [congruence|reflexivity]. }
    split; [|split].
    + intros x Hx. cbn [In] in Hx. rewrite I1 by tauto. apply F1. intros ->; tauto.
    + intros x Hx. cbn [In] in Hx. rewrite I2 by tauto. apply F2. intros ->; tauto.
    + intros a b [Hab|Hab].
      * injection Hab as <- <-. rewrite I1, I2 by assumption. unfold w1, block_member.
        destruct (excluded n m excl) eqn:HX; [reflexivity|]. split; [now rewrite upd_same|].
        rewrite upd_other by assumption. rewrite upd_same. cbn [s_wasb set_wasb]. rewrite assoc_get_set.
        now rewrite String.eqb_refl.
      * specialize (I3 a b Hab). rewrite F1 in I3; [exact I3|]. intros ->. apply Hm1.
        change m with (snd (a, m)). now apply in_map.
Qed.
Lemma unblock_fold : forall s ms (w : world U),
  NoDup (map fst ms) -> NoDup (map snd ms) -> ~ In s (map snd ms) ->
  let w' := fold_left (unblock_member s) ms w in
  (forall m, ~ In m (map snd ms) -> s_blocked (w_sg w' m) = s_blocked (w_sg w m))
  /\ forall n m, In (n, m) ms ->
       s_blocked (w_sg w' m) = match assoc_get n (s_wasb (w_sg w s)) with
                               | Some true => s_blocked (w_sg w m) | _ => false end.
Proof.
  intros s ms. induction ms as [|[n m] ms IH]; intros w Hn Hm Hs; cbn [fold_left map fst snd] in *.
  - split; auto. intros n m [].
  - inversion Hn as [|? ? Hn1 Hn2]; inversion Hm as [|? ? Hm1 Hm2]; subst.
    destruct (IH (unblock_member s w (n, m)) Hn2 Hm2) as (I1 & I3); [intros Hc; apply Hs; now right|].
    assert (Hsm : s <> m) by (intros ->; apply Hs; now left).
    set (w1 := unblock_member s w (n, m)) in *.
    assert (F1 : forall x, x <> m -> s_blocked (w_sg w1 x) = s_blocked (w_sg w x)).
    { intros x Hx. unfold w1, unblock_member.
      destruct (match assoc_get _ _ with Some b => b | None => false end); [|rewrite upd_other by assumption];
        (destruct (Nat.eq_dec x s) as [->|]; [now rewrite upd_same|now rewrite upd_other]). }
    assert (F2 : forall x, x <> n -> assoc_get x (s_wasb (w_sg w1 s)) = assoc_get x (s_wasb (w_sg w s))).
    { intros x Hx. unfold w1, unblock_member.
      destruct (match assoc_get _ _ with Some b => b | None => false end); [|rewrite upd_other by assumption];
        rewrite upd_same; cbn [s_wasb set_wasb]; now apply assoc_get_del. }
    split.
    + intros x Hx. cbn [In] in Hx. rewrite I1 by tauto. apply F1. intros ->; tauto.
    + intros a b [Hab|Hab].
      * injection Hab as <- <-. rewrite I1 by assumption. unfold w1, unblock_member.
        destruct (assoc_get n (s_wasb (w_sg w s))) as [[|]|].
        -- now rewrite upd_other by congruence.
        -- now rewrite upd_same.
        -- now rewrite upd_same.
      * rewrite (I3 a b Hab), F1, F2; [reflexivity| |].
        -- intros ->. apply Hn1. change n with (fst (n, b)). now apply in_map.
        -- intros ->. apply Hm1. change m with (snd (a, m)). now apply in_map.
Qed.

(** The call does not block or unblock [s] itself. *)
Definition flag_free (s : sid) (o : op U) : Prop :=
  match o with OBlock x _ | OUnblock x => x <> s | _ => True end.
Lemma scoped_free : forall M s m p, In m (M s) -> m <> s -> scoped M m p -> prog_all (flag_free s) p.
Proof.
  intros M s m p Hm Hne H. induction H; cbn [prog_all]; auto.
  - split; [|auto]. destruct o; try exact I; destruct H as [_ H]; intros ->; auto.
  - apply prog_all_catch; [|auto]. unfold with_blocked. apply prog_all_bind; [cbn; split; [exact I|intros [|]; exact I]|].
    intros v. apply prog_all_bind; [cbn; split; [congruence|intros [|]; exact I]|]. intros _.
    unfold try_finally. apply prog_all_catch; [exact IHscoped|]. intros x. apply prog_all_bind.
    + destruct v as [| [] | | | | | | |]; cbn; auto; (split; [congruence|intros [|]; exact I]).
    + intros _. destruct x; exact I.
Qed.
Definition same_wasb (st st' : sigst) : Prop := s_wasb st' = s_wasb st.
Lemma framed_wasb : forall (E : env U) s, framed E (flag_free s) (fun _ => True) (one s same_wasb) (fun _ _ => one s same_wasb).
Proof.
  intros E s. apply framed_one.
  - intros st st' H. unfold ctl in H. unfold same_wasb. congruence.
  - intros a b c H1 H2. unfold same_wasb in *. congruence.
  - intros o w w' r HA Ho H. unfold one, same_wasb. destruct o; try contradiction; injection H as <- _.
    + cbn in HA. unfold block. destruct (s_members (w_sg w s0)) as [ms|]; [|now rewrite upd_other by congruence].
      assert (HH : forall w0 : world U, s_wasb (w_sg (fold_left (block_member s0 excl) ms w0) s) = s_wasb (w_sg w0 s)).
      { induction ms as [|[n m] ms IH]; intros w0; cbn [fold_left]; [reflexivity|]. rewrite IH.
        unfold block_member. destruct (excluded n m excl); [reflexivity|].
        destruct (Nat.eq_dec s m) as [->|]; [rewrite upd_same; cbn [s_wasb set_blocked]|rewrite upd_other by assumption];
          now rewrite upd_other by congruence. }
      rewrite HH. now rewrite upd_other by congruence.
    + cbn in HA. unfold unblock. destruct (s_members (w_sg w s0)) as [ms|]; [|now rewrite upd_other by congruence].
      assert (HH : forall w0 : world U, s_wasb (w_sg (fold_left (unblock_member s0) ms w0) s) = s_wasb (w_sg w0 s)).
      { induction ms as [|[n m] ms IH]; intros w0; cbn [fold_left]; [reflexivity|]. rewrite IH.
        unfold unblock_member. destruct (match assoc_get _ _ with Some b => b | None => false end);
          [now rewrite upd_other by congruence|].
        destruct (Nat.eq_dec s m) as [->|]; [rewrite upd_same; cbn [s_wasb set_blocked]|rewrite upd_other by assumption];
          now rewrite upd_other by congruence. }
      rewrite HH. now rewrite upd_other by congruence.
    + destruct (Nat.eq_dec s s0) as [->|]; [now rewrite upd_same|now rewrite upd_other].
  - intros; exact I.
  - intros; exact I.
  - intros; exact I.
  - intros; reflexivity.
  - intros; reflexivity.
  - intros; reflexivity.
Qed.
End Members.
