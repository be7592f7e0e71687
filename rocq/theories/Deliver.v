(** Delivery: what an emission loop does when callbacks leave the connections of the
    emitting signal alone (or only append to them).  Proof infrastructure. *)

From Verif Require Import Base Core Frame Fuel Conn Keep Spec Trace Inv Dead Rest Quiet.

Section Deliver.
Context {U : Type} (E : env U).
Implicit Types w : world U.
Context (M : sid -> list sid) (q : option Z) (s : sid).
Context (HF : forall x m, In m (M x) -> M m = []).
Context (Hself : q <> None -> ~ In s (M s)).
Context (HE : env_all (allows M s q) E).

(** Standing facts about the state. *)
Record fits (w : world U) : Prop := {
  ft_members : forall x, members_of w x = M x;
  ft_low : low q s w;
  ft_live : live E [] None w
}.

(** Everything a piece of execution tells. *)
Definition moves (own : nat -> Prop) (w w' : world U) (r : out) : Prop :=
  based_gen own w w' r /\ (fits w -> fits w' /\ grows q s w w' /\ w_me w' = w_me w).

Lemma framed_live : framed E (allows M s q) (fun _ => True)
  (fun w w' _ => live E [] None w -> live E [] None w')
  (fun _ _ w w' _ => live E [] None w -> live E [] None w').
Proof. apply framed_conn; [intros; eapply live_same; eauto|intros; eapply live_pure; eauto]. Qed.

Lemma body_moves : forall n t a w0 w w' r,
  exec E n (body_of E t a w0) w = Some (w', r) -> moves (fun _ => False) w w' r.
Proof.
  intros n t a w0 w w' r H. split.
  - destruct (frame_both E _ _ _ _ (framed_based E) (env_all_true E) n) as [H1 H2].
    eapply frame_body; [apply env_all_true|exact H1|exact H2|exact H].
  - intros [F1 F2 F3].
    destruct (frame_both E _ _ _ _ (framed_quiet E M q s HF Hself) HE n) as [H1 H2].
    destruct (frame_body E _ _ HE _ H1 H2 _ _ _ _ _ _ H F1 F2) as (A & B & C).
    destruct (frame_both E _ _ _ _ framed_live HE n) as [K1 K2].
    pose proof (frame_body E _ _ HE _ K1 K2 _ _ _ _ _ _ H F3) as D.
    split; [|split; assumption]. constructor; auto. eapply grows_low; eauto.
Qed.

Lemma fits_log : forall e w, fits w -> fits (log e w).
Proof.
  intros e w [H1 H2 H3]. constructor; auto. eapply live_same; [apply conn_same_log|exact H3].
Qed.

(** One call of a slot. *)
Lemma call_slot_delivers : forall n eid c args w w' r,
  call_slot (exec E n) E eid s c args w = Some (w', r) ->
  fits w -> In c (s_slots (w_sg w s)) -> eid < w_nxt w ->
  exists t, w_tr w' = w_tr w ++ t /\ moves (fun i => i = eid) w w' r
    /\ notices eid t = [due (w_me w) args c]
    /\ raised eid t = match r with Err e => [e] | _ => [] end
    /\ exists ev t', t = ev :: t' /\ notices eid t' = [] /\ forall j x a, ev <> EStart j x a.
Proof.
  intros n eid c args w w' r H HW Hin Hlt.
  assert (HB : based_gen (fun i => i = eid) w w' r).
  { destruct (frame_both E _ _ _ _ (framed_based E) (env_all_true E) n) as [H1 H2].
    eapply (frame_call_slot E _ _ _ _ (framed_based E) _ (env_all_true E)); eauto. }
  assert (HI : forall w1 r1, invoke (exec E n) E false eid s c args w = Some (w1, r1) ->
     exists t, w_tr w1 = w_tr w ++ t
       /\ (fits w1 /\ grows q s w w1 /\ w_me w1 = w_me w)
       /\ notices eid t = [Called (w_uid c) (cb_args c args)]
       /\ raised eid t = match r1 with Err e => [e] | _ => [] end
       /\ exists ev t', t = ev :: t' /\ notices eid t' = [] /\ forall j x a, ev <> EStart j x a).
  { clear H HB w' r. intros w1 r1 H. unfold invoke in H.
    assert (Hd : match w_ref c with Some o => w_dead w o | None => false end = false).
    { destruct (w_ref c) as [o|] eqn:Ho; [|reflexivity].
      destruct (lv_alive _ _ _ _ (ft_live _ HW) _ _ _ Hin Ho) as [|K]; [assumption|discriminate]. }
    rewrite Hd in H. set (w0 := log _ w) in H.
    destruct (exec E n _ w0) as [[w2 r2]|] eqn:HX; [|discriminate].
    apply body_moves in HX. destruct HX as [[_ _ (t & T & O & _)] HM].
    destruct (HM (fits_log _ _ HW)) as (F2 & G2 & M2).
    assert (Hnone : Forall (fun e => emission_of e <> Some eid) t).
    { eapply Forall_impl; [|exact O]. cbn. intros e He Hi. destruct (He _ Hi) as [[|] ?]; [easy|].
      cbn in *; lia. }
    assert (T2 : w_tr w2 = w_tr w ++ ECall eid s (w_uid c) (cb_args c args) :: t)
      by (rewrite T; cbn; now rewrite <- app_assoc).
    assert (G2' : grows q s w w2) by exact G2.
    destruct r2 as [v|e|]; injection H as <- <-.
    - exists (ECall eid s (w_uid c) (cb_args c args) :: t ++ [ERet eid s (w_uid c) None]).
      split; [cbn; rewrite T2, <- app_assoc; reflexivity|].
      split; [split; [apply fits_log, F2|split; [exact G2'|exact M2]]|]. split; [|split].
      + cbn. rewrite Nat.eqb_refl, notices_app, (notices_none _ _ Hnone). reflexivity.
      + cbn. rewrite raised_app, (raised_none _ _ Hnone). reflexivity.
      + eexists _, _. split; [reflexivity|]. split; [|discriminate].
        rewrite notices_app, (notices_none _ _ Hnone). reflexivity.
    - exists (ECall eid s (w_uid c) (cb_args c args) :: t ++ [ERet eid s (w_uid c) (Some e)]).
      split; [cbn; rewrite T2, <- app_assoc; reflexivity|].
      split; [split; [apply fits_log, F2|split; [exact G2'|exact M2]]|]. split; [|split].
      + cbn. rewrite Nat.eqb_refl, notices_app, (notices_none _ _ Hnone). reflexivity.
      + cbn. rewrite raised_app, (raised_none _ _ Hnone). cbn. now rewrite Nat.eqb_refl.
      + eexists _, _. split; [reflexivity|]. split; [|discriminate].
        rewrite notices_app, (notices_none _ _ Hnone). reflexivity.
    - exists (ECall eid s (w_uid c) (cb_args c args) :: t).
      split; [exact T2|]. split; [split; [exact F2|split; [exact G2'|exact M2]]|]. split; [|split].
      + cbn. rewrite Nat.eqb_refl, (notices_none _ _ Hnone). reflexivity.
      + cbn. exact (raised_none _ _ Hnone).
      + eexists _, _. split; [reflexivity|]. split; [exact (notices_none _ _ Hnone)|discriminate]. }
  assert (Hcb : Called (w_uid c) (cb_args c args) =
     Called (w_uid c)
       (let cut := match w_maxargs c with None => args | Some m => py_take m args end in
        match w_target c with
        | TSetattr _ _ | TSetitem _ _ =>
            if Nat.eqb (List.length cut) 1 then cut else [VTuple cut]
        | _ => cut
        end)).
  { f_equal. unfold cb_args, cut_args. cbn zeta.
    set (cut := match w_maxargs c with None => _ | Some _ => _ end).
    destruct (w_target c); try reflexivity; destruct cut as [|x [|y l]]; reflexivity. }
  unfold call_slot in H. unfold due.
  destruct (w_thread c) as [th|] eqn:Hth.
  - destruct (Nat.eqb th (w_me w)) eqn:Hme.
    + destruct (HI _ _ H) as (t & T & HM & N & R). exists t. rewrite N.
      split; [exact T|]. split; [split; [exact HB|intros _; exact HM]|]. split; [now rewrite Hcb|exact R].
    + injection H as <- <-. exists [EDefer eid s (w_uid c) th args].
      split; [reflexivity|]. split; [|split; [cbn; now rewrite Nat.eqb_refl|split; [reflexivity|]]].
      2: { eexists _, _. split; [reflexivity|]. split; [reflexivity|discriminate]. }
      split; [exact HB|]. intros [F1 F2 F3].
      split; [|split; [apply grows_eq; reflexivity|reflexivity]].
      constructor; auto. eapply live_same; [|exact F3]. repeat split; auto.
  - destruct (HI _ _ H) as (t & T & HM & N & R). exists t. rewrite N.
    split; [exact T|]. split; [split; [exact HB|intros _; exact HM]|]. split; [now rewrite Hcb|exact R].
Qed.

Lemma grows_nth : forall w w' i c, grows q s w w' -> nth_error (s_slots (w_sg w s)) i = Some c ->
  nth_error (s_slots (w_sg w' s)) i = Some c.
Proof.
  intros w w' i c (l & -> & _) H. rewrite nth_error_app1; [exact H|].
  apply nth_error_Some. congruence.
Qed.
Lemma skipn_nth : forall {A} (l : list A) i c, nth_error l i = Some c ->
  skipn i l = c :: skipn (S i) l.
Proof.
  induction l as [|x l IH]; intros [|i] c H; cbn in *; try discriminate; [congruence|].
  now apply IH.
Qed.

(** A plain pass through the slots from position [i]. *)
Lemma loop_slots_delivers : forall n f eid i args w w' r,
  loop_slots (exec E n) E f eid s i args w = Some (w', r) -> fits w -> eid < w_nxt w ->
  exists t pre rest, w_tr w' = w_tr w ++ t /\ moves (fun i => i = eid) w w' r
    /\ skipn i (s_slots (w_sg w' s)) = pre ++ rest
    /\ notices eid t = map (due (w_me w) args) pre
    /\ match r with
       | Ok _ => rest = [] /\ raised eid t = []
       | Err e => pre <> [] /\ raised eid t = [e]
       | Halted => raised eid t = []
       end.
Proof.
  induction f as [|f IH]; intros eid i args w w' r H HW Hlt; cbn [loop_slots] in H; [discriminate|].
  destruct (nth_error (s_slots (w_sg w s)) i) as [c|] eqn:Hn.
  - destruct (call_slot (exec E n) E eid s c args w) as [[w1 r1]|] eqn:HC; [|discriminate].
    destruct (call_slot_delivers _ _ _ _ _ _ _ HC HW (nth_error_In _ _ Hn) Hlt)
      as (t1 & T1 & HM1 & N1 & R1 & X1).
    destruct (proj2 HM1 HW) as (F1 & G1 & M1).
    pose proof (grows_nth _ _ _ _ G1 Hn) as Hn1.
    destruct r1 as [v|e|].
    + destruct (IH _ _ _ _ _ _ H F1) as (t2 & pre & rest & T2 & HM2 & S2 & N2 & K).
      { pose proof (bg_nxt _ _ _ _ (proj1 HM1)). lia. }
      destruct (proj2 HM2 F1) as (F2 & G2 & M2).
      exists (t1 ++ t2), (c :: pre), rest.
      rewrite T2, T1, <- app_assoc. split; [reflexivity|]. split.
      { split; [eapply based_gen_trans; [apply HM1|discriminate|apply HM2]|].
        intros _. split; [exact F2|]. split; [eapply grows_trans; eauto|congruence]. }
      split. { rewrite (skipn_nth _ _ _ (grows_nth _ _ _ _ G2 Hn1)), S2. reflexivity. }
      split. { rewrite notices_app, N1, N2, M1. reflexivity. }
      rewrite raised_app, R1. cbn [app]. destruct r; auto. destruct K as [K1 K2]. split; [discriminate|exact K2].
    + injection H as <- <-. exists t1, [c], (skipn (S i) (s_slots (w_sg w1 s))).
      split; [exact T1|]. split; [exact HM1|]. split; [now rewrite (skipn_nth _ _ _ Hn1)|].
      split; [now rewrite N1|]. split; [discriminate|exact R1].
    + injection H as <- <-. exists t1, [c], (skipn (S i) (s_slots (w_sg w1 s))).
      split; [exact T1|]. split; [exact HM1|]. split; [now rewrite (skipn_nth _ _ _ Hn1)|].
      split; [now rewrite N1|]. exact R1.
  - injection H as <- <-. exists [], [], []. rewrite app_nil_r.
    split; [reflexivity|]. split.
    { split; [apply based_gen_refl|]. intros _. split; [exact HW|]. split; [apply grows_refl|reflexivity]. }
    split; [apply skipn_all2; now apply nth_error_None|]. auto.
Qed.

Lemma queued_on_frozen : forall own w w' r t, based_gen own w w' r -> done r ->
  w_tr w' = w_tr w ++ t -> s_eq (w_sg w s) <> [] ->
  s_eq (w_sg w' s) = s_eq (w_sg w s) ++ queued_on s t.
Proof.
  intros own w w' r t [_ _ (t' & T & _ & D)] Hd Ht Hq. rewrite T in Ht.
  apply app_inv_head in Ht. subst t'. rewrite (be_eq _ _ _ (D Hd)).
  destruct (s_eq (w_sg w s)); [congruence|reflexivity].
Qed.

Lemma app_eq_split : forall {A} (a b c d : list A), a ++ b = c ++ d ->
  (exists l, a = c ++ l /\ d = l ++ b) \/ (exists l, c = a ++ l /\ b = l ++ d).
Proof.
  induction a as [|x a IH]; intros b c d H; cbn in H.
  - right. now exists c.
  - destruct c as [|y c]; cbn in H.
    + left. now exists (x :: a).
    + injection H as -> H. destruct (IH _ _ _ H) as [(l & -> & ->)|(l & -> & ->)].
      * left. now exists l.
      * right. now exists l.
Qed.
Lemma nth_error_Some_lt : forall {A} (l : list A) i x, nth_error l i = Some x -> i < List.length l.
Proof. intros A l i x H. apply nth_error_Some. congruence. Qed.

(** One value of a queued emission.  Only stated for fixed connections. *)
Lemma loop_qslots_delivers : forall n f eid i args w w' r,
  loop_qslots (exec E n) E f eid s i args w = Some (w', r) -> fits w -> eid < w_nxt w ->
  exists t pre rest, w_tr w' = w_tr w ++ t /\ moves (fun i => i = eid) w w' r
    /\ skipn i (s_slots (w_sg w' s)) = pre ++ rest
    /\ notices eid t = map (due (w_me w) args) pre
    /\ match r with
       | Ok _ => rest = [] /\ raised eid t = []
                 /\ ((pre = [] /\ w' = w) \/ List.length (s_eq (w_sg w' s)) <= RECURSION_LIMIT)
       | Err e => pre <> [] /\ (raised eid t = [e]
                    \/ (raised eid t = [] /\ e = ERecursion
                        /\ RECURSION_LIMIT < List.length (s_eq (w_sg w' s))))
       | Halted => raised eid t = []
       end.
Proof.
  induction f as [|f IH]; intros eid i args w w' r H HW Hlt; cbn [loop_qslots] in H; [discriminate|].
  destruct (nth_error (s_slots (w_sg w s)) i) as [c|] eqn:Hn.
  - destruct (call_slot (exec E n) E eid s c args w) as [[w1 r1]|] eqn:HC; [|discriminate].
    destruct (call_slot_delivers _ _ _ _ _ _ _ HC HW (nth_error_In _ _ Hn) Hlt)
      as (t1 & T1 & HM1 & N1 & R1 & X1).
    destruct (proj2 HM1 HW) as (F1 & G1 & M1).
    pose proof (grows_nth _ _ _ _ G1 Hn) as Hn1.
    destruct r1 as [v|e|].
    + destruct (Nat.ltb_spec RECURSION_LIMIT (List.length (s_eq (w_sg w1 s)))) as [Hl|Hl].
      { injection H as <- <-. exists t1, [c], (skipn (S i) (s_slots (w_sg w1 s))).
        split; [exact T1|]. split.
        { split; [|intros _; auto]. eapply based_gen_trans; [apply HM1|discriminate|apply based_gen_refl]. }
        split; [now rewrite (skipn_nth _ _ _ Hn1)|].
        split; [now rewrite N1|]. split; [discriminate|]. right; auto. }
      destruct (IH _ _ _ _ _ _ H F1) as (t2 & pre & rest & T2 & HM2 & S2 & N2 & K).
      { pose proof (bg_nxt _ _ _ _ (proj1 HM1)). lia. }
      destruct (proj2 HM2 F1) as (F2 & G2 & M2).
      exists (t1 ++ t2), (c :: pre), rest.
      rewrite T2, T1, <- app_assoc. split; [reflexivity|]. split.
      { split; [eapply based_gen_trans; [apply HM1|discriminate|apply HM2]|].
        intros _. split; [exact F2|]. split; [eapply grows_trans; eauto|congruence]. }
      split. { rewrite (skipn_nth _ _ _ (grows_nth _ _ _ _ G2 Hn1)), S2. reflexivity. }
      split. { rewrite notices_app, N1, N2, M1. reflexivity. }
      rewrite raised_app, R1. cbn [app]. destruct r as [v2|e2|]; auto.
      * destruct K as (K1 & K2 & K3). split; [exact K1|]. split; [exact K2|]. right.
        destruct K3 as [[-> ->]|K3]; [exact Hl|exact K3].
      * destruct K as [K1 K2]. split; [discriminate|exact K2].
    + injection H as <- <-. exists t1, [c], (skipn (S i) (s_slots (w_sg w1 s))).
      split; [exact T1|]. split; [exact HM1|]. split; [now rewrite (skipn_nth _ _ _ Hn1)|].
      split; [now rewrite N1|]. split; [discriminate|left; exact R1].
    + injection H as <- <-. exists t1, [c], (skipn (S i) (s_slots (w_sg w1 s))).
      split; [exact T1|]. split; [exact HM1|]. split; [now rewrite (skipn_nth _ _ _ Hn1)|].
      split; [now rewrite N1|]. exact R1.
  - injection H as <- <-. exists [], [], []. rewrite app_nil_r.
    split; [reflexivity|]. split.
    { split; [apply based_gen_refl|]. intros _. split; [exact HW|]. split; [apply grows_refl|reflexivity]. }
    split; [apply skipn_all2; now apply nth_error_None|]. auto 6.
Qed.
End Deliver.

(** ** Fixed connections: queued and latest-only emissions *)

Section Fixed.
Context {U : Type} (E : env U).
Implicit Types w : world U.
Context (M : sid -> list sid) (s : sid).
Context (HF : forall x m, In m (M x) -> M m = []).
Context (HE : env_all (allows M s None) E).
Let Hself : @None Z <> None -> ~ In s (M s).
Proof. congruence. Qed.

Lemma grows_none : forall w w', grows None s w w' -> s_slots (w_sg w' s) = s_slots (w_sg w s).
Proof.
  intros w w' (l & -> & HL). destruct l as [|c l]; [now rewrite app_nil_r|].
  inversion HL. discriminate.
Qed.

Lemma loop_queue_delivers : forall n f eid i w w' r,
  loop_queue (exec E n) E f eid s i w = Some (w', r) -> fits E M None s w -> eid < w_nxt w ->
  s_eq (w_sg w s) <> [] -> i <= List.length (s_eq (w_sg w s)) ->
  List.length (s_eq (w_sg w s)) <= RECURSION_LIMIT ->
  exists t, w_tr w' = w_tr w ++ t /\ moves E M None s (fun i => i = eid) w w' r
    /\ match r with
       | Ok _ => notices eid t =
                   to_all (w_me w) (s_slots (w_sg w s)) (skipn i (s_eq (w_sg w s) ++ queued_on s t))
                 /\ raised eid t = []
                 /\ List.length (s_eq (w_sg w s) ++ queued_on s t) <= RECURSION_LIMIT
       | Err e => exists full a more pre rest,
                   skipn i (s_eq (w_sg w s) ++ queued_on s t) = full ++ a :: more
                   /\ i + List.length full < RECURSION_LIMIT
                   /\ s_slots (w_sg w s) = pre ++ rest /\ pre <> []
                   /\ notices eid t = to_all (w_me w) (s_slots (w_sg w s)) full ++ map (due (w_me w) a) pre
                   /\ (raised eid t = [e]
                       \/ (raised eid t = [] /\ e = ERecursion
                           /\ RECURSION_LIMIT < List.length (s_eq (w_sg w s) ++ queued_on s t)))
       | Halted => True
       end.
Proof.
  induction f as [|f IH]; intros eid i w w' r H HW Hlt Hne Hi Hlim; cbn [loop_queue] in H; [discriminate|].
  destruct (nth_error (s_eq (w_sg w s)) i) as [a|] eqn:Hn.
  - destruct (loop_qslots (exec E n) E f eid s 0 a w) as [[w1 r1]|] eqn:HC; [|discriminate].
    destruct (loop_qslots_delivers E M None s HF Hself HE _ _ _ _ _ _ _ _ HC HW Hlt)
      as (t1 & pre1 & rest1 & T1 & HM1 & S1 & N1 & K1).
    destruct (proj2 HM1 HW) as (F1 & G1 & M1). apply grows_none in G1. cbn [skipn] in S1.
    assert (HQ1 : done r1 -> s_eq (w_sg w1 s) = s_eq (w_sg w s) ++ queued_on s t1).
    { intros Hd. eapply queued_on_frozen; eauto. apply HM1. }
    destruct r1 as [v|e|].
    + destruct K1 as (-> & R1 & L1). specialize (HQ1 ltac:(discriminate)).
      rewrite app_nil_r in S1. subst pre1.
      destruct (IH _ _ _ _ _ H F1) as (t2 & T2 & HM2 & K).
      { pose proof (bg_nxt _ _ _ _ (proj1 HM1)). lia. }
      { rewrite HQ1. destruct (s_eq (w_sg w s)); [congruence|discriminate]. }
      { rewrite HQ1, app_length. apply nth_error_Some_lt in Hn. lia. }
      { destruct L1 as [[_ ->]|L1]; [exact Hlim|exact L1]. }
      destruct (proj2 HM2 F1) as (F2 & G2 & M2). apply grows_none in G2.
      exists (t1 ++ t2). rewrite T2, T1, <- app_assoc. split; [reflexivity|]. split.
      { split; [eapply based_gen_trans; [apply HM1|discriminate|apply HM2]|].
        intros _. split; [exact F2|]. split; [apply grows_eq; congruence|congruence]. }
      rewrite queued_on_app, raised_app, notices_app, R1, N1, G1. cbn [app].
      rewrite HQ1, G1, M1 in K. rewrite <- app_assoc in K.
      assert (Hsk : skipn i (s_eq (w_sg w s) ++ queued_on s t1 ++ queued_on s t2)
                    = a :: skipn (S i) (s_eq (w_sg w s) ++ queued_on s t1 ++ queued_on s t2)).
      { apply skipn_nth. rewrite nth_error_app1; [exact Hn|]. now apply nth_error_Some_lt in Hn. }
      destruct r as [v2|e2|]; [| |exact I].
      * destruct K as (K1 & K2 & K3). rewrite K1, Hsk. split; [reflexivity|]. split; [exact K2|exact K3].
      * destruct K as (full & b & more & pre & rest & K1 & K0 & K2 & K3 & K4 & K5).
        exists (a :: full), b, more, pre, rest. rewrite Hsk, K1, K4.
        split; [reflexivity|]. split; [cbn [List.length]; lia|]. split; [exact K2|]. split; [exact K3|].
        split; [now rewrite app_assoc|exact K5].
    + injection H as <- <-. exists t1. split; [exact T1|]. split; [exact HM1|].
      destruct K1 as (K1 & K2). specialize (HQ1 ltac:(discriminate)).
      exists [], a, (skipn (S i) (s_eq (w_sg w s) ++ queued_on s t1)), pre1, rest1.
      split. { apply skipn_nth. rewrite nth_error_app1; [exact Hn|]. now apply nth_error_Some_lt in Hn. }
      split. { cbn [List.length]. apply nth_error_Some_lt in Hn. lia. }
      split; [congruence|]. split; [exact K1|]. split; [exact N1|].
      rewrite <- HQ1. exact K2.
    + injection H as <- <-. exists t1. split; [exact T1|]. split; [exact HM1|exact I].
  - injection H as <- <-. exists []. rewrite app_nil_r. apply nth_error_None in Hn.
    split; [reflexivity|]. split.
    { split; [apply based_gen_refl|]. intros _. split; [exact HW|]. split; [apply grows_refl|reflexivity]. }
    cbn. rewrite app_nil_r, skipn_all2 by exact Hn. split; [reflexivity|]. split; [reflexivity|exact Hlim].
Qed.
End Fixed.

(** ** Latest-only emissions *)

Section Latest.
Context {U : Type} (E : env U).
Implicit Types w : world U.
Context (s : sid).

(** What a run says about the deepest level reached by [s]. *)
Definition peaks (w w' : world U) (r : out) : Prop :=
  1 <= s_depth (w_sg w s) -> done r -> forall t, w_tr w' = w_tr w ++ t ->
  s_max (w_sg w s) <= s_max (w_sg w' s)
  /\ (emitted_in s t -> S (s_depth (w_sg w s)) <= s_max (w_sg w' s))
  /\ (emitted_in s t \/ s_max (w_sg w' s) = s_max (w_sg w s)).
Definition peak (w w' : world U) (r : out) : Prop := based w w' r /\ peaks w w' r.
Definition peak_loop (eid : nat) (x : sid) (w w' : world U) (r : out) : Prop :=
  eid < w_nxt w -> based_gen (fun i => i = eid) w w' r /\ peaks w w' r.

Lemma emitted_in_app : forall (t t' : list (event U)),
  emitted_in s (t ++ t') <-> emitted_in s t \/ emitted_in s t'.
Proof.
  intros t t'. split.
  - intros (j & a & H). apply in_app_iff in H as [H|H]; [left|right]; now exists j, a.
  - intros [(j & a & H)|(j & a & H)]; exists j, a; apply in_app_iff; auto.
Qed.

Lemma peaks_trans : forall own a b c r r', based_gen own a b r -> peaks a b r -> done r ->
  based_gen own b c r' -> peaks b c r' -> peaks a c r'.
Proof.
  intros own a b c r r' HB HP Hd HB' HP' Hdep Hd' t T.
  destruct HB as [_ _ (t1 & T1 & _ & D1)]. destruct HB' as [_ _ (t2 & T2 & _ & D2)].
  specialize (D1 Hd). specialize (D2 Hd').
  destruct (HP Hdep Hd t1 T1) as (A1 & A2 & A3).
  pose proof (be_depth _ _ _ D1 s) as HD.
  destruct (HP' ltac:(lia) Hd' t2 T2) as (B1 & B2 & B3).
  assert (t = t1 ++ t2) as ->.
  { rewrite T2, T1, <- app_assoc in T. now apply app_inv_head in T. }
  rewrite !emitted_in_app. split; [lia|]. split.
  - intros [K|K]; [specialize (A2 K); lia|specialize (B2 K); lia].
  - destruct A3 as [A3|A3]; [tauto|]. destruct B3 as [B3|B3]; [tauto|]. right; congruence.
Qed.

Lemma peaks_still : forall w w' r l, w_tr w' = w_tr w ++ l -> ~ emitted_in s l ->
  s_max (w_sg w' s) = s_max (w_sg w s) -> peaks w w' r.
Proof.
  intros w w' r l Hl Hno Hm _ _ t T. rewrite Hl in T. apply app_inv_head in T as <-.
  split; [lia|]. split; [tauto|auto].
Qed.
Lemma not_emitted_nil : ~ emitted_in s (@nil (event U)).
Proof. intros (j & a & []). Qed.

Lemma framed_peak : framed E (no_fast s) (fun _ => True) peak peak_loop.
Proof.
  pose proof (framed_based E) as FB.
  constructor; intros; auto.
  - split; [apply based_gen_refl|]. eapply (peaks_still _ _ _ []); [now rewrite app_nil_r| |reflexivity].
    apply not_emitted_nil.
  - destruct H, H1. split; [eapply based_gen_trans; eauto|eapply peaks_trans; eauto].
  - intros _. split; [apply based_gen_refl|]. eapply (peaks_still _ _ _ []); [now rewrite app_nil_r| |reflexivity].
    apply not_emitted_nil.
  - intros Hlt. destruct (H Hlt) as [B1 P1].
    destruct (H1 ltac:(pose proof (bg_nxt _ _ _ _ B1); lia)) as [B2 P2].
    split; [eapply based_gen_trans; eauto|eapply peaks_trans; eauto].
  - split; [eapply (fr_pure _ _ _ _ _ FB); eauto|].
    destruct (pure_keeps _ _ _ _ _ H0 H1) as (K1 & _ & K3 & _).
    eapply (peaks_still _ _ _ []); [now rewrite app_nil_r| apply not_emitted_nil|].
    destruct (K1 s) as [_ Hb]. unfold busy in Hb. now injection Hb as _ _ _ ->.
  - split; [now apply (fr_emit _ _ _ _ _ FB)|].
    eapply peaks_still; [reflexivity| |reflexivity]. intros (j & a & [K|[]]); discriminate.
  - split; [now apply (fr_pause _ _ _ _ _ FB)|].
    eapply (peaks_still _ _ _ []); [cbn; now rewrite app_nil_r|apply not_emitted_nil|].
    dec_sid s s0; [now rewrite upd_same|now rewrite upd_other].
  - split; [now apply (fr_hook _ _ _ _ _ FB)|].
    eapply peaks_still; [reflexivity| |reflexivity]. intros (j & a & [K|[]]); discriminate.
  - split; [now apply (fr_queued _ _ _ _ _ FB)|].
    eapply peaks_still; [reflexivity| |].
    + intros (j & a & [K|[]]); discriminate.
    + cbn -[upd]. dec_sid s s0; [now rewrite upd_same|now rewrite upd_other].
  - (* loop *)
    destruct (started_w s0 args w) as (W1 & W2 & _).
    destruct (H2 ltac:(lia)) as [B2 P2].
    pose proof (fr_loop _ _ _ _ _ FB s0 args w w' r H H0 H1 (fun _ => B2)) as HL.
    assert (HP : done r -> peaks w (leave s0 (w_cur w) (log (EEnd (w_nxt w) s0) w'))
                   (loop_out s0 (s_depth (w_sg w' s0) - 1) r)).
    { intros Hr Hdep Hd t T.
      destruct B2 as [_ _ (t2 & T2 & _ & D2)]. specialize (D2 Hr).
      assert (t = EStart (w_nxt w) s0 args :: t2 ++ [EEnd (w_nxt w) s0]) as ->.
      { cbn in T. rewrite T2, W2, <- !app_assoc in T. apply app_inv_head in T. now rewrite <- T. }
      pose proof (be_depth _ _ _ D2 s) as HD.
      destruct (Nat.eq_dec s0 s) as [Heq|Hne]; [subst s0|].
      - destruct (started_sg_same s args w H1) as (S1 & S2 & S3 & S4).
        destruct (P2 ltac:(rewrite S2; lia) Hr t2 T2) as (A1 & A2 & A3).
        assert (HM : s_max (w_sg (leave s (w_cur w) (log (EEnd (w_nxt w) s) w')) s) = s_max (w_sg w' s)).
        { unfold leave. rewrite upd_same. cbn [w_sg set_cur log set_tr]. cbv zeta.
          destruct (Nat.leb_spec (s_depth (w_sg w' s) - 1) 0); [lia|reflexivity]. }
        rewrite HM. split; [lia|]. split; [intros _; lia|].
        left. exists (w_nxt w), args. now left.
      - rewrite started_sg_other in HD by congruence.
        assert (HM : s_max (w_sg (leave s0 (w_cur w) (log (EEnd (w_nxt w) s0) w')) s) = s_max (w_sg w' s))
          by (rewrite leave_sg_other; [reflexivity|congruence]).
        destruct (P2 ltac:(rewrite started_sg_other by congruence; lia) Hr t2 T2) as (A1 & A2 & A3).
        rewrite started_sg_other in A1, A2, A3 by congruence. rewrite HM.
        assert (HX : emitted_in s (EStart (w_nxt w) s0 args :: t2 ++ [EEnd (w_nxt w) s0]) <-> emitted_in s t2).
        { split.
          - intros (j & a & [K|K]); [congruence|]. apply in_app_iff in K as [K|[K|[]]]; [|discriminate].
            now exists j, a.
          - intros (j & a & K). exists j, a. right. apply in_app_iff; auto. }
        rewrite HX. auto. }
    destruct r; (split; [exact HL|]); try (apply HP; discriminate). intros _ Hd; congruence.
  - (* fast: another signal *)
    destruct (H1 ltac:(cbn; lia)) as [B2 P2].
    pose proof (fr_fast _ _ _ _ _ FB s0 args w w' r H H0 (fun _ => B2) I) as HL.
    cbn in H2.
    assert (HP : done r -> peaks w (left_fast s0 (log (EEnd (w_nxt w) s0) w')) (loop_out s0 0 r)).
    { intros Hr Hdep Hd t T.
      destruct B2 as [_ _ (t2 & T2 & _ & D2)]. specialize (D2 Hr).
      assert (t = EStart (w_nxt w) s0 args :: t2 ++ [EEnd (w_nxt w) s0]) as ->.
      { cbn in T. rewrite T2 in T. cbn in T. rewrite <- !app_assoc in T. apply app_inv_head in T. now rewrite <- T. }
      assert (HM : s_max (w_sg (left_fast s0 (log (EEnd (w_nxt w) s0) w')) s) = s_max (w_sg w' s))
        by (rewrite left_fast_sg_other; [reflexivity|congruence]).
      destruct (P2 ltac:(rewrite started_fast_sg_other by congruence; lia) Hr t2 T2) as (A1 & A2 & A3).
      rewrite started_fast_sg_other in A1, A2, A3 by congruence. rewrite HM.
      assert (HX : emitted_in s (EStart (w_nxt w) s0 args :: t2 ++ [EEnd (w_nxt w) s0]) <-> emitted_in s t2).
      { split.
        - intros (j & a & [K|K]); [congruence|]. apply in_app_iff in K as [K|[K|[]]]; [|discriminate].
          now exists j, a.
        - intros (j & a & K). exists j, a. right. apply in_app_iff; auto. }
      rewrite HX. auto. }
    destruct r; (split; [exact HL|]); try (apply HP; discriminate). intros _ Hd; congruence.
  - (* call *)
    destruct H0 as [B P].
    assert (HL : eid < w_nxt w -> match r with
      | Halted => based_gen (fun i => i = eid) w w' Halted
      | _ => based_gen (fun i => i = eid) w (log (ev_ret false eid s0 (w_uid c) r) w') r end).
    { intros Hlt. pose proof (fr_call _ _ _ _ _ FB eid s0 c a w w' r H B H1) as HL.
      destruct r; exact (HL Hlt). }
    assert (HP : done r -> peaks w (log (ev_ret false eid s0 (w_uid c) r) w') r).
    { intros Hr Hdep Hd t T. destruct B as [_ _ (t2 & T2 & _ & _)].
      assert (t = ECall eid s0 (w_uid c) a :: t2 ++ [ev_ret false eid s0 (w_uid c) r]) as ->.
      { cbn in T. rewrite T2 in T. cbn in T. rewrite <- !app_assoc in T. apply app_inv_head in T. now rewrite <- T. }
      destruct (P Hdep Hr t2 T2) as (A1 & A2 & A3).
      assert (HX : emitted_in s (ECall eid s0 (w_uid c) a :: t2 ++ [ev_ret false eid s0 (w_uid c) r]) <-> emitted_in s t2).
      { split.
        - intros (j & b & [K|K]); [congruence|]. apply in_app_iff in K as [K|[K|[]]]; [|discriminate].
          now exists j, b.
        - intros (j & b & K). exists j, b. right. apply in_app_iff; auto. }
      rewrite HX. auto. }
    destruct r; intros Hlt; (split; [exact (HL Hlt)|]); try (apply HP; discriminate). intros _ Hd; congruence.
  - destruct H0 as [B P].
    pose proof (fr_dcall _ _ _ _ _ FB eid s0 c a w w' r H B) as HL.
    assert (HP : done r -> peaks w (log (ev_ret true eid s0 (w_uid c) r) w') r).
    { intros Hr Hdep Hd t T. destruct B as [_ _ (t2 & T2 & _ & _)].
      assert (t = EDCall eid s0 (w_uid c) a :: t2 ++ [ev_ret true eid s0 (w_uid c) r]) as ->.
      { cbn in T. rewrite T2 in T. cbn in T. rewrite <- !app_assoc in T. apply app_inv_head in T. now rewrite <- T. }
      destruct (P Hdep Hr t2 T2) as (A1 & A2 & A3).
      assert (HX : emitted_in s (EDCall eid s0 (w_uid c) a :: t2 ++ [ev_ret true eid s0 (w_uid c) r]) <-> emitted_in s t2).
      { split.
        - intros (j & b & [K|K]); [congruence|]. apply in_app_iff in K as [K|[K|[]]]; [|discriminate].
          now exists j, b.
        - intros (j & b & K). exists j, b. right. apply in_app_iff; auto. }
      rewrite HX. auto. }
    destruct r; (split; [exact HL|]); try (apply HP; discriminate). intros _ Hd; congruence.
  - intros Hlt. split; [now apply (fr_defer _ _ _ _ _ FB)|].
    eapply peaks_still; [reflexivity| |reflexivity]. intros (j & a & [K|[]]); discriminate.
  - split; [now apply (fr_unpause _ _ _ _ _ FB _ rd)|].
    eapply (peaks_still _ _ _ []); [cbn; now rewrite app_nil_r|apply not_emitted_nil|].
    dec_sid s s0; [now rewrite upd_same|now rewrite upd_other].
  - split; [now apply (fr_clear _ _ _ _ _ FB _ rd)|].
    eapply (peaks_still _ _ _ []); [cbn; now rewrite app_nil_r|apply not_emitted_nil|].
    dec_sid s s0; [now rewrite upd_same|now rewrite upd_other].
  - split; [eapply (fr_pop _ _ _ _ _ FB); eauto|].
    eapply peaks_still; [reflexivity| |reflexivity]. intros (j & a & [K|[]]); discriminate.
Qed.

Context (M : sid -> list sid).
Context (HF : forall x m, In m (M x) -> M m = []).
Context (HE : env_all (allows M s None) E) (HE' : env_all (no_fast s) E).

Lemma loop_latest_delivers : forall n f eid i args w w' r,
  loop_latest (exec E n) E f eid s i args w = Some (w', r) -> fits E M None s w -> eid < w_nxt w ->
  1 <= s_depth (w_sg w s) ->
  exists t pre rest, w_tr w' = w_tr w ++ t /\ moves E M None s (fun i => i = eid) w w' r
    /\ skipn i (s_slots (w_sg w s)) = pre ++ rest
    /\ notices eid t = map (due (w_me w) args) pre
    /\ match r with
       | Ok _ => raised eid t = []
           /\ (rest = [] \/ emitted_in s t \/ s_depth (w_sg w s) < s_max (w_sg w s))
       | Err e => pre <> [] /\ raised eid t = [e]
       | Halted => raised eid t = []
       end
    /\ (s_depth (w_sg w s) < s_max (w_sg w s) -> pre = [])
    /\ (done r -> forall ta j a tb, t = ta ++ EStart j s a :: tb -> notices eid tb = []).
Proof.
  assert (Hself : @None Z <> None -> ~ In s (M s)) by congruence.
  induction f as [|f IH]; intros eid i args w w' r H HW Hlt Hdep; cbn [loop_latest] in H; [discriminate|].
  assert (Hstop : forall v rest, skipn i (s_slots (w_sg w s)) = rest ->
     (rest = [] \/ s_depth (w_sg w s) < s_max (w_sg w s)) ->
     exists t pre rest, w_tr w = w_tr w ++ t /\ moves E M None s (fun i => i = eid) w w (Ok v)
    /\ skipn i (s_slots (w_sg w s)) = pre ++ rest
    /\ notices eid t = map (due (w_me w) args) pre
    /\ (raised eid t = []
           /\ (rest = [] \/ emitted_in s t \/ s_depth (w_sg w s) < s_max (w_sg w s)))
    /\ (s_depth (w_sg w s) < s_max (w_sg w s) -> pre = [])
    /\ (done (Ok v) -> forall ta j a tb, t = ta ++ EStart j s a :: tb -> notices eid tb = [])).
  { intros v rest Hs Hr. exists [], [], rest. rewrite app_nil_r.
    split; [reflexivity|]. split.
    { split; [apply based_gen_refl|]. intros _. split; [exact HW|]. split; [apply grows_refl|reflexivity]. }
    split; [exact Hs|]. split; [reflexivity|]. split; [split; [reflexivity|tauto]|].
    split; [auto|]. intros _ [|? ?] j a tb K; discriminate. }
  destruct (nth_error (s_slots (w_sg w s)) i) as [c|] eqn:Hn.
  2: { injection H as <- <-. apply (Hstop _ [] ).
       - apply skipn_all2. now apply nth_error_None. - now left. }
  destruct (Nat.ltb_spec (s_depth (w_sg w s)) (s_max (w_sg w s))) as [Hmx|Hmx].
  { injection H as <- <-. eapply Hstop; [reflexivity|auto]. }
  clear Hstop.
  destruct (call_slot (exec E n) E eid s c args w) as [[w1 r1]|] eqn:HC; [|discriminate].
  destruct (call_slot_delivers E M None s HF Hself HE _ _ _ _ _ _ _ HC HW (nth_error_In _ _ Hn) Hlt)
    as (t1 & T1 & HM1 & N1 & R1 & X1).
  assert (PK : peaks w w1 r1).
  { destruct (frame_both E _ _ _ _ framed_peak HE' n) as [H1 H2].
    eapply (frame_call_slot E _ _ _ _ framed_peak _ HE' _ H1 H2); eauto using nth_error_In. }
  destruct (proj2 HM1 HW) as (F1 & G1 & M1). pose proof (grows_none _ _ _ G1) as G1'.
  (* the call event comes before anything nested *)
  destruct X1 as (ev & t1' & X1 & X2 & X3).
  assert (HN1 : forall ta j a tb, t1 = ta ++ EStart j s a :: tb -> notices eid tb = []).
  { intros ta j a tb K. rewrite X1 in K. destruct ta as [|e ta]; injection K as K1 K2.
    - exfalso. eapply X3; eauto.
    - rewrite K2, notices_app in X2. apply app_eq_nil in X2 as [_ X2]. exact X2. }
  destruct r1 as [v|e|].
  - assert (Hd1 : s_depth (w_sg w1 s) = s_depth (w_sg w s)).
    { destruct HM1 as [[_ _ (t' & T' & _ & D')] _]. apply D'. discriminate. }
    destruct (PK Hdep ltac:(discriminate) t1 T1) as (P1 & P2 & P3).
    destruct (IH _ _ _ _ _ _ H F1) as (t2 & pre & rest & T2 & HM2 & S2 & N2 & K & Kp & Kn).
    { pose proof (bg_nxt _ _ _ _ (proj1 HM1)). lia. }
    { lia. }
    destruct (proj2 HM2 F1) as (F2 & G2 & M2).
    exists (t1 ++ t2), (c :: pre), rest.
    rewrite T2, T1, <- app_assoc. split; [reflexivity|]. split.
    { split; [eapply based_gen_trans; [apply HM1|discriminate|apply HM2]|].
      intros _. split; [exact F2|]. split; [eapply grows_trans; eauto|congruence]. }
    split. { rewrite (skipn_nth _ _ _ Hn), <- G1', S2. reflexivity. }
    split. { rewrite notices_app, N1, N2, M1. reflexivity. }
    rewrite raised_app, R1. cbn [app]. split; [|split; [lia|]].
    + destruct r; auto.
      * destruct K as [K1 K2]. split; [exact K1|]. rewrite emitted_in_app. destruct K2 as [K2|[K2|K2]]; auto.
        destruct P3 as [P3|P3]; [auto|]. right; right. lia.
      * destruct K as [K1 K2]. split; [discriminate|exact K2].
    + intros Hd ta j a tb Ht.
      apply app_eq_split in Ht. destruct Ht as [(l & L1 & L2)|(l & L1 & L2)].
      * (* the nested emission is in [t1] (or starts right at its end) *)
        destruct l as [|x l].
        { cbn in L2. symmetry in L2. apply (Kn Hd [] j a tb). exact L2. }
        injection L2 as <- L2. subst tb.
        rewrite notices_app. rewrite (HN1 _ _ _ _ L1).
        assert (HE1 : emitted_in s t1) by (exists j, a; rewrite L1; apply in_app_iff; right; now left).
        specialize (P2 HE1). rewrite (Kp ltac:(lia)) in N2. cbn in N2. exact N2.
      * (* in [t2] *)
        eapply (Kn Hd). exact L2.
  - injection H as <- <-. exists t1, [c], (skipn (S i) (s_slots (w_sg w s))).
    split; [exact T1|]. split; [exact HM1|]. split; [now rewrite (skipn_nth _ _ _ Hn)|].
    split; [now rewrite N1|]. split; [split; [discriminate|exact R1]|]. split; [lia|]. intros _. exact HN1.
  - injection H as <- <-. exists t1, [c], (skipn (S i) (s_slots (w_sg w s))).
    split; [exact T1|]. split; [exact HM1|]. split; [now rewrite (skipn_nth _ _ _ Hn)|].
    split; [now rewrite N1|]. split; [exact R1|]. split; [lia|]. intros _. exact HN1.
Qed.
End Latest.
