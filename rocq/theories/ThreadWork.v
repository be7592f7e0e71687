(** What a running emission has done so far, whatever other threads do.  Proof infrastructure. *)

From Coq Require Import List ZArith Bool Lia.
From Verif Require Import Threads ThreadFacts.
Import ListNotations.
Open Scope Z_scope.

Section Work.
Context {A : Type} (c : setting).
Implicit Types (s : state A) (f : frame A) (fs : list (frame A)) (l : list (event A)).

(** ** Spec *)

(** The slots of [g], by the log. *)
Definition slots_of (g : nat) l : list slot :=
  fold_left (fun x e => match e with
                        | Changed _ h y | Gone h y => if Nat.eqb h g then y else x
                        | _ => x
                        end) l [].
(** The calls made by emit on [g], in any thread. *)
Definition is_call (g : nat) (e : event A) : bool := match e with Called _ h _ _ => Nat.eqb h g | _ => false end.
Definition calls (g : nat) l : list (event A) := filter (is_call g) l.
(** The thread itself emits [g] again, changes its connections, or a callback raises; or an
    object that had a slot dies. *)
Definition touches (th g : nat) (e : event A) : Prop :=
  match e with
  | Began t h _ | Joined t h | Ended t h | Failed t h | Changed t h _ => t = th /\ h = g
  | Gone h _ => h = g
  | _ => False
  end.
Definition clean (th g : nat) l : Prop := forall e, In e l -> ~ touches th g e.

(** ** The emissions that are running, by where they began in the log *)
Definition begun_at (th g : nat) l : nat * list nat :=
  fold_left (fun '(n, st) e => (S n, match e with
                                     | Began t h _ => if Nat.eqb t th && Nat.eqb h g then n :: st else st
                                     | Ended t h => if Nat.eqb t th && Nat.eqb h g then tl st else st
                                     | _ => st
                                     end)) l (0%nat, []).
Definition begun th g l : list nat := snd (begun_at th g l).
Lemma begun_fst : forall th g l, fst (begun_at th g l) = length l.
Proof.
  intros th g l. induction l as [|e l IH] using rev_ind; [reflexivity|]. unfold begun_at in *. rewrite fold_left_app.
  rewrite app_length. cbn. destruct (fold_left _ l _) as [n st]. cbn in *. lia.
Qed.
Lemma begun_app : forall th g l e, begun th g (l ++ [e]) =
  match e with
  | Began t h _ => if Nat.eqb t th && Nat.eqb h g then length l :: begun th g l else begun th g l
  | Ended t h => if Nat.eqb t th && Nat.eqb h g then tl (begun th g l) else begun th g l
  | _ => begun th g l
  end.
Proof.
  intros. rewrite <- (begun_fst th g l). unfold begun, begun_at. rewrite fold_left_app. cbn [fold_left].
  destruct (fold_left _ l _) as [n st]. cbn. now destruct e.
Qed.
Lemma slots_app : forall g l e, slots_of g (l ++ [e]) =
  match e with Changed _ h y | Gone h y => if Nat.eqb h g then y else slots_of g l | _ => slots_of g l end.
Proof. intros. unfold slots_of. rewrite fold_left_app. now destruct e. Qed.
Inductive falling (l : list (event A)) (th g : nat) : list nat -> Prop :=
| fa_nil : falling l th g []
| fa_cons : forall n ns l1 a l2, l = l1 ++ Began th g a :: l2 -> length l1 = n -> (forall m, In m ns -> (m < n)%nat) ->
    falling l th g ns -> falling l th g (n :: ns).
Lemma falling_app : forall l e th g ns, falling l th g ns -> falling (l ++ [e]) th g ns.
Proof.
  intros l e th g ns H. induction H as [|n ns l1 a l2 H1 H2 H3 H4 IH]; [constructor|].
  apply (fa_cons _ th g n ns l1 a (l2 ++ [e])); auto. rewrite H1, <- app_assoc. reflexivity.
Qed.
Lemma falling_lt : forall l th g ns, falling l th g ns -> forall n, In n ns -> (n < length l)%nat.
Proof.
  intros l th g ns H. induction H as [|n ns l1 a l2 H1 H2 H3 H4 IH]; intros m Hm; [destruct Hm|].
  destruct Hm as [<-|Hm]; [|auto]. rewrite H1, app_length. cbn. lia.
Qed.
Lemma begun_falling : forall th g l, falling l th g (begun th g l).
Proof.
  intros th g l. induction l as [|e l IH] using rev_ind; [constructor|]. rewrite begun_app.
  assert (K := falling_app l e th g _ IH). destruct e; try exact K.
  - destruct (Nat.eqb_spec th0 th) as [->|]; cbn; [|exact K]. destruct (Nat.eqb_spec g0 g) as [->|]; [|exact K].
    apply (fa_cons _ th g _ _ l a []); auto. apply (falling_lt l th g). exact IH.
  - destruct (_ && _); [|exact K]. inversion K; subst; [constructor|assumption].
Qed.

(** ** Progress of an emission *)
Definition prog (th g : nat) (a : A) (p : pc A) l1 l2 s : Prop :=
  let x := st_sig s g in
  let sl := slots_of g l1 in
  let did n := calls g l2 = map (fun y => Called th g y a) (firstn n sl) in
  let full := m_mode c g = Queued -> g_queue x = [a] in
  g_slots x = sl /\
  match p with
  | Depth | Save | Enter _ => g_queue x = [a] /\ did 0%nat
  | Loop _ i => g_queue x = [a] /\ ((i = 0%nat /\ did 0%nat) \/ (m_mode c g = Queued /\ i = 1%nat /\ did (length sl)))
  | For _ i b k => b = a /\ i = 0%nat /\ full /\ did k
  | Back _ i b k => b = a /\ i = 0%nat /\ full /\ did (S k)
  | Restore _ | Finish => did (length sl)
  | _ => True
  end.
Definition work1 s (th g : nat) f (n : nat) : Prop :=
  exists a p l1 l2, f = InEmit g a p /\ st_log s = l1 ++ Began th g a :: l2 /\ length l1 = n
    /\ (clean th g l2 -> prog th g a p l1 l2 s).
Definition works s (th g : nat) : Prop :=
  Forall2 (work1 s th g) (filter (runs g) (st_stk s th)) (begun th g (st_log s)).
Definition work s : Prop :=
  (forall g, slots_of g (st_log s) = g_slots (st_sig s g))
  /\ forall th g, m_mode c g <> Latest -> works s th g.

Lemma work1_touched : forall s s' th g f n e, work1 s th g f n -> st_log s' = st_log s ++ [e] -> touches th g e ->
  work1 s' th g f n.
Proof.
  intros s s' th g f n e (a & p & l1 & l2 & -> & H1 & H2 & H3) HL He. exists a, p, l1, (l2 ++ [e]).
  split; [reflexivity|]. split; [rewrite HL, H1, <- app_assoc; reflexivity|]. split; [exact H2|].
  intros K. exfalso. apply (K e); [apply in_app_iff; right; now left|exact He].
Qed.
Lemma work1_same : forall s s' th g f n es, work1 s th g f n -> st_log s' = st_log s ++ es -> calls g es = [] ->
  g_slots (st_sig s' g) = g_slots (st_sig s g) -> g_queue (st_sig s' g) = g_queue (st_sig s g) ->
  work1 s' th g f n.
Proof.
  intros s s' th g f n es (a & p & l1 & l2 & -> & H1 & H2 & H3) HL HC HS HQ. exists a, p, l1, (l2 ++ es).
  split; [reflexivity|]. split; [rewrite HL, H1, <- app_assoc; reflexivity|]. split; [exact H2|].
  intros K. assert (K2 : clean th g l2). { intros e He. apply K. apply in_app_iff. auto. }
  specialize (H3 K2). unfold prog in *. assert (E : calls g (l2 ++ es) = calls g l2).
  { unfold calls in *. now rewrite filter_app, HC, app_nil_r. }
  cbv zeta in *. rewrite HS, HQ, E. exact H3.
Qed.
(** An emission inside which the same thread has begun another one. *)
Lemma work1_outer : forall s s' th g f n m l1 a l2 es, work1 s th g f n -> st_log s = l1 ++ Began th g a :: l2 ->
  length l1 = m -> (n < m)%nat -> st_log s' = st_log s ++ es -> work1 s' th g f n.
Proof.
  intros s s' th g f n m l1 a l2 es (b & p & k1 & k2 & -> & H1 & H2 & H3) HL Hm Hn HL'. exists b, p, k1, (k2 ++ es).
  split; [reflexivity|]. split; [rewrite HL', H1, <- app_assoc; reflexivity|]. split; [exact H2|].
  intros K. exfalso. apply (K (Began th g a)); [|cbn; auto]. apply in_app_iff. left.
  rewrite HL in H1. assert (E : nth_error (k1 ++ Began th g b :: k2) m = Some (Began th g a)).
  { rewrite <- H1, nth_error_app2 by lia. replace (m - length l1)%nat with 0%nat by lia. reflexivity. }
  rewrite nth_error_app2 in E by lia. destruct (m - length k1)%nat as [|j] eqn:Ej; [lia|].
  cbn in E. now apply nth_error_In in E.
Qed.
Lemma outer_keep : forall s s' th g fs n ns es, Forall2 (work1 s th g) fs ns -> falling (st_log s) th g (n :: ns) ->
  st_log s' = st_log s ++ es -> Forall2 (work1 s' th g) fs ns.
Proof.
  intros s s' th g fs n ns es H HF HL. inversion HF as [|n' ns' l1 a l2 F1 F2 F3 F4]; subst.
  clear HF F4. induction H as [|f m fs ns Hf H IH]; [constructor|]. constructor.
  - eapply work1_outer; eauto. apply F3. now left.
  - apply IH. intros k Hk. apply F3. now right.
Qed.

(** A step of thread [th] that concerns signal [g]. *)
Lemma step_work : forall s s' th g fs' es,
  inv s -> work s ->
  (forall t, st_stk s' t = if Nat.eqb t th then fs' else st_stk s t) ->
  (forall h, h <> g -> st_sig s' h = st_sig s h) ->
  st_log s' = st_log s ++ es ->
  (forall h t, h <> g \/ t <> th -> begun t h (st_log s ++ es) = begun t h (st_log s)) ->
  (forall h, h <> g -> calls h es = []) ->
  (forall h, slots_of h (st_log s ++ es) = if Nat.eqb h g then g_slots (st_sig s' g) else slots_of h (st_log s)) ->
  (forall h, h <> g -> filter (runs h) fs' = filter (runs h) (st_stk s th)) ->
  (calls g es = [] /\ g_slots (st_sig s' g) = g_slots (st_sig s g) /\ g_queue (st_sig s' g) = g_queue (st_sig s g))
  \/ (0 < cnt (holds g) (st_stk s th))%nat ->
  (m_mode c g <> Latest -> works s' th g) ->
  work s'.
Proof.
  intros s s' th g fs' es HI [WS W] E1 E2 E3 HB HC HSl HR HX HM. split.
  { intros h. rewrite E3, HSl. destruct (Nat.eqb_spec h g) as [->|N]; [reflexivity|]. rewrite E2 by exact N. apply WS. }
  intros t h Hm. destruct (Nat.eq_dec h g) as [->|Nh].
  - destruct (Nat.eq_dec t th) as [->|Nt]; [auto|]. specialize (W t g Hm). unfold works in *.
    rewrite E1. destruct (Nat.eqb_spec t th); [congruence|]. rewrite E3, HB by auto.
    destruct HX as [(X1 & X2 & X3)|HX].
    + clear -W E3 X1 X2 X3. induction W; constructor; auto. eapply work1_same; eauto.
    + assert (K := others_not s g th HI HX t Nt). unfold cnt in K. apply length_zero_iff_nil in K. rewrite K in *.
      inversion W. constructor.
  - specialize (W t h Hm). unfold works in *. rewrite E3, HB by auto.
    assert (E : filter (runs h) (st_stk s' t) = filter (runs h) (st_stk s t)).
    { rewrite E1. destruct (Nat.eqb_spec t th) as [->|]; auto. }
    rewrite E. assert (X1 := HC h Nh). assert (X2 := E2 h Nh). clear -W E3 X1 X2.
    induction W; constructor; auto. eapply work1_same; eauto; now rewrite X2.
Qed.

(** Nothing happens to the emissions: slots, queue, and what is running. *)
Definition calm (e : event A) : Prop :=
  match e with Began _ _ _ | Ended _ _ | Called _ _ _ _ | Changed _ _ _ | Gone _ _ => False | _ => True end.
Lemma calm_work : forall s s' th g fs' es,
  inv s -> work s -> (es = [] \/ exists e, es = [e] /\ calm e) ->
  (forall t, st_stk s' t = if Nat.eqb t th then fs' else st_stk s t) ->
  (forall h, h <> g -> st_sig s' h = st_sig s h) ->
  st_log s' = st_log s ++ es ->
  (forall h, filter (runs h) fs' = filter (runs h) (st_stk s th)) ->
  g_slots (st_sig s' g) = g_slots (st_sig s g) -> g_queue (st_sig s' g) = g_queue (st_sig s g) ->
  work s'.
Proof.
  intros s s' th g fs' es HI HW HE E1 E2 E3 HF HS HQ.
  assert (HB : forall h t, begun t h (st_log s ++ es) = begun t h (st_log s)).
  { intros h t. destruct HE as [-> | (e & -> & He)]; [now rewrite app_nil_r|]. rewrite begun_app. destruct e; try reflexivity; destruct He. }
  assert (HC : forall h, calls h es = []).
  { intros h. destruct HE as [-> | (e & -> & He)]; [reflexivity|]. destruct e; try reflexivity. destruct He. }
  eapply (step_work s s' th g fs' es); auto.
  - intros h. assert (K : slots_of h (st_log s ++ es) = slots_of h (st_log s)).
    { destruct HE as [-> | (e & -> & He)]; [now rewrite app_nil_r|]. rewrite slots_app. destruct e; try reflexivity; destruct He. }
    rewrite K. destruct (Nat.eqb_spec h g) as [->|]; [|reflexivity]. rewrite HS. apply (proj1 HW).
  - intros Hm. destruct HW as [_ W]. specialize (W th g Hm). unfold works in *.
    rewrite E1, Nat.eqb_refl, HF, E3, HB. assert (X1 := HC g). clear -W E3 X1 HS HQ.
    induction W; constructor; auto. eapply work1_same; eauto.
Qed.
(** The innermost running emission goes on. *)
Lemma head_work : forall s s' th g r1 r2 a p p' es,
  inv s -> work s -> active p = true -> active p' = true ->
  filter (runs g) (st_stk s th) = InEmit g a p :: r1 ->
  (forall t, st_stk s' t = if Nat.eqb t th then r2 else st_stk s t) ->
  filter (runs g) r2 = InEmit g a p' :: r1 ->
  (forall h, h <> g -> filter (runs h) r2 = filter (runs h) (st_stk s th)) ->
  (forall h, h <> g -> st_sig s' h = st_sig s h) ->
  st_log s' = st_log s ++ es -> (es = [] \/ exists y b, es = [Called th g y b]) ->
  g_slots (st_sig s' g) = g_slots (st_sig s g) ->
  (forall l1 l2, clean th g l2 -> m_mode c g <> Latest -> prog th g a p l1 l2 s -> prog th g a p' l1 (l2 ++ es) s') ->
  work s'.
Proof.
  intros s s' th g r1 r2 a p p' es HI HW Hp Hp' F1 E1 F2 F3 E2 E3 HE HS HP.
  assert (HB : forall h t, begun t h (st_log s ++ es) = begun t h (st_log s)).
  { intros h t. destruct HE as [-> | (y & b & ->)]; [now rewrite app_nil_r|]. now rewrite begun_app. }
  eapply (step_work s s' th g r2 es); auto.
  - intros h Hh. destruct HE as [-> | (y & b & ->)]; [reflexivity|]. cbn. destruct (Nat.eqb_spec g h); [congruence|reflexivity].
  - intros h. assert (K : slots_of h (st_log s ++ es) = slots_of h (st_log s)).
    { destruct HE as [-> | (y & b & ->)]; [now rewrite app_nil_r|]. now rewrite slots_app. }
    rewrite K. destruct (Nat.eqb_spec h g) as [->|]; [|reflexivity]. rewrite HS. apply (proj1 HW).
  - right. assert (K := runs_holds g (st_stk s th)). unfold cnt in *. rewrite F1 in K. cbn in K. lia.
  - intros Hm. destruct HW as [_ W]. specialize (W th g Hm). unfold works in *.
    rewrite E1, Nat.eqb_refl, F2, E3, HB. rewrite F1 in W.
    assert (HFa := begun_falling th g (st_log s)).
    inversion W as [|f n fs ns Hf W' X1 X2]; subst f fs. rewrite <- X2 in *. constructor.
    + destruct Hf as (a' & q & l1 & l2 & E & H1 & H2 & H3). injection E as <- <-.
      exists a, p', l1, (l2 ++ es). split; [reflexivity|]. split; [rewrite E3, H1, <- app_assoc; reflexivity|]. split; [exact H2|].
      intros K. assert (K2 : clean th g l2). { intros e He. apply K. apply in_app_iff. auto. } auto.
    + eapply outer_keep; eauto.
Qed.

Lemma filter_active : forall g (a : A) p r, active p = true -> filter (runs g) (InEmit g a p :: r) = InEmit g a p :: filter (runs g) r.
Proof. intros g a p r H. cbn. now rewrite Nat.eqb_refl, H. Qed.
Lemma filter_other : forall h g (a : A) p r, h <> g -> filter (runs h) (InEmit g a p :: r) = filter (runs h) r.
Proof. intros h g a p r H. cbn. destruct (Nat.eqb_spec g h); [congruence|reflexivity]. Qed.
Lemma filter_inactive : forall h g (a : A) p r, active p = false -> filter (runs h) (InEmit g a p :: r) = filter (runs h) r.
Proof. intros h g a p r H. cbn. now rewrite H, andb_false_r. Qed.

Ltac sides := first [reflexivity | solve [intros; reflexivity] | solve [intros; cbn; now rewrite app_nil_r]
  | cbn; now rewrite app_nil_r
  | solve [let h := fresh in let Hh := fresh in intros h Hh; cbn; destruct (Nat.eqb_spec h _); [congruence|reflexivity]]].
Lemma emit_work : forall s s' th g a p r, 0 < m_limit c -> inv s -> work s -> st_stk s th = InEmit g a p :: r ->
  emit_step c th g a p r s = Some s' -> work s'.
Proof.
  intros s s' th g a p r HLim HI HW Hm H. pose proof HW as [WS W].
  assert (CA : forall p' s', active p = false -> active p' = false ->
    (forall t, st_stk s' t = if Nat.eqb t th then InEmit g a p' :: r else st_stk s t) ->
    (forall h, h <> g -> st_sig s' h = st_sig s h) -> st_log s' = st_log s ->
    g_slots (st_sig s' g) = g_slots (st_sig s g) -> g_queue (st_sig s' g) = g_queue (st_sig s g) -> work s').
  { intros p' s1 A1 A2 E1 E2 E3 E4 E5. eapply (calm_work s s1 th g (InEmit g a p' :: r) []); eauto.
    - now rewrite app_nil_r.
    - intros h. rewrite Hm, !filter_inactive by assumption. reflexivity. }
  assert (HD : forall p' s', active p = true -> active p' = true ->
    (forall t, st_stk s' t = if Nat.eqb t th then InEmit g a p' :: r else st_stk s t) ->
    (forall h, h <> g -> st_sig s' h = st_sig s h) -> st_log s' = st_log s ->
    g_slots (st_sig s' g) = g_slots (st_sig s g) ->
    (forall l1 l2, m_mode c g <> Latest -> prog th g a p l1 l2 s -> prog th g a p' l1 l2 s') -> work s').
  { intros p' s1 A1 A2 E1 E2 E3 E4 E5. eapply (head_work s s1 th g (filter (runs g) r) (InEmit g a p' :: r) a p p' []); eauto.
    - rewrite Hm. now apply filter_active.
    - now apply filter_active.
    - intros h Hh. rewrite Hm, !filter_other by assumption. reflexivity.
    - now rewrite app_nil_r.
    - intros l1 l2 _ K1 K2. rewrite app_nil_r. auto. }
  assert (SO : forall x h, h <> g -> (if Nat.eqb h g then x else st_sig s h) = st_sig s h).
  { intros x h Hh. destruct (Nat.eqb_spec h g); [congruence|reflexivity]. }
  assert (SS : forall x, (if Nat.eqb g g then x else st_sig s g) = x) by (intros; now rewrite Nat.eqb_refl).
  destruct p; cbn [emit_step] in H.
  - (* Check *) injection H as <-. destruct (_ >=? _).
    + eapply (calm_work s _ th g r [Refused th g]); eauto; try reflexivity.
      * right. exists (Refused th g). split; [reflexivity|exact Logic.I].
      * intros h. now rewrite Hm, filter_inactive.
    + eapply (CA Acquire); reflexivity.
  - (* Acquire *) destruct (acquire _ _) as [l|] eqn:Ha; [|discriminate]. injection H as <-.
    eapply (CA Append); try reflexivity; cbn; auto; now rewrite SS.
  - (* Append *) injection H as <-.
    assert (HH : (0 < cnt (holds g) (st_stk s th))%nat) by (rewrite Hm, cnt_cons; cbn; rewrite Nat.eqb_refl; cbn; lia).
    destruct (g_queue (st_sig s g)) as [|b q] eqn:Eq.
    + eapply (step_work s _ th g (InEmit g a Depth :: r) [Began th g a]); eauto; try reflexivity.
      * cbn. auto.
      * intros h t [N|N]; rewrite begun_app.
        -- destruct (Nat.eqb_spec g h); [congruence|]. now rewrite andb_false_r.
        -- destruct (Nat.eqb_spec th t); [congruence|reflexivity].
      * intros h. rewrite slots_app. destruct (Nat.eqb_spec h g) as [->|]; [|reflexivity]. cbn. rewrite SS. apply WS.
      * intros h Hh. now rewrite Hm, !filter_other.
      * intros HM. specialize (W th g HM). unfold works in *. cbn [st_stk set_stk]. rewrite Nat.eqb_refl, filter_active by reflexivity.
        cbn [st_log say set_stk set_sig]. rewrite begun_app, !Nat.eqb_refl. cbn [andb]. rewrite Hm, filter_inactive in W by reflexivity.
        constructor.
        -- exists a, Depth, (st_log s), []. split; [reflexivity|]. split; [reflexivity|]. split; [reflexivity|]. intros _.
           unfold prog. cbn. rewrite SS. cbn. repeat split. symmetry. apply WS.
        -- clear -W. induction W; constructor; auto. eapply work1_touched; [eassumption|reflexivity|]. cbn. auto.
    + eapply (step_work s _ th g (InEmit g a Release :: r) [Joined th g]); eauto; try reflexivity.
      * cbn. auto.
      * intros h t _. now rewrite begun_app.
      * intros h. rewrite slots_app. destruct (Nat.eqb_spec h g) as [->|]; [|reflexivity]. cbn. rewrite SS. apply WS.
      * intros h Hh. now rewrite Hm, !filter_other.
      * intros HM. specialize (W th g HM). unfold works in *. cbn [st_stk set_stk]. rewrite Nat.eqb_refl, filter_inactive by reflexivity.
        cbn [st_log say set_stk set_sig]. rewrite begun_app. rewrite Hm, filter_inactive in W by reflexivity.
        clear -W. induction W; constructor; auto. eapply work1_touched; [eassumption|reflexivity|]. cbn. auto.
  - (* Depth *) injection H as <-. eapply (HD Save); try reflexivity; cbn; auto; try now rewrite SS.
    intros l1 l2 _ K. unfold prog in *. cbn in *. rewrite SS. cbn. exact K.
  - (* Save *) injection H as <-. eapply (HD (Enter _)); try reflexivity. intros l1 l2 _ K. exact K.
  - (* Enter *) injection H as <-. eapply (HD (Loop prev 0)); try reflexivity. intros l1 l2 _ K.
    unfold prog in *. cbn in *. tauto.
  - (* Loop *)
    assert (LQ : m_mode c g = Queued \/ m_mode c g <> Queued) by (destruct (m_mode c g); auto; right; discriminate).
    destruct LQ as [LQ|LQ].
    + rewrite LQ in H. injection H as <-. destruct (nth_error _ i) as [b|] eqn:En.
      * eapply (HD (For prev i b 0)); try reflexivity. intros l1 l2 _ (K1 & K2 & K3). unfold prog. cbv zeta. cbn [st_sig set_stk].
        split; [exact K1|]. rewrite K2 in En. destruct K3 as [(-> & K3)|(_ & -> & K3)]; [|discriminate].
        cbn in En. injection En as <-. auto.
      * eapply (HD (Restore prev)); try reflexivity. intros l1 l2 _ (K1 & K2 & K3). unfold prog. cbv zeta. cbn [st_sig set_stk].
        split; [exact K1|]. rewrite K2 in En. destruct K3 as [(-> & K3)|(_ & -> & K3)]; [discriminate|exact K3].
    + assert (H' : Some match g_queue (st_sig s g) with
           | [] => set_stk th (InEmit g a (Restore prev) :: r) s
           | b :: q => set_stk th (InEmit g a (For prev i b 0) :: r) (set_sig g (set_queue q (st_sig s g)) s)
           end = Some s') by (destruct (m_mode c g); [exact H|congruence|exact H]).
      clear H. injection H' as <-. destruct (g_queue (st_sig s g)) as [|b q] eqn:Eq.
      * eapply (HD (Restore prev)); try reflexivity. intros l1 l2 _ (K1 & K2 & K3). congruence.
      * eapply (HD (For prev i b 0)); try reflexivity; cbn; auto; try now rewrite SS.
        intros l1 l2 _ (K1 & K2 & K3). unfold prog. cbn. rewrite SS. cbn.
        destruct K3 as [(-> & K3)|(K3 & _)]; [|congruence]. assert (b = a) as -> by congruence.
        repeat split; auto. intros; congruence.
  - (* For *)
    set (next := match m_mode c g with Queued => Loop prev (S i) | _ => Restore prev end) in H.
    assert (CB : forall y, nth_error (g_slots (st_sig s g)) k = Some y ->
      work (set_stk th (InCallback y :: InEmit g a (Back prev i a0 k) :: r) (say (Called th g y a0) s))).
    { intros y Hy. eapply (head_work s _ th g (filter (runs g) r) (InCallback y :: InEmit g a (Back prev i a0 k) :: r) a (For prev i a0 k) (Back prev i a0 k) [Called th g y a0]);
        [exact HI|exact HW|reflexivity|reflexivity| |reflexivity| | |reflexivity|reflexivity| |reflexivity|].
      - rewrite Hm. now apply filter_active.
      - now apply (filter_active g a (Back prev i a0 k) r).
      - intros h Hh. rewrite Hm, filter_other by exact Hh. now apply (filter_other h g a (Back prev i a0 k) r).
      - right. eauto.
      - intros l1 l2 _ _ (K1 & -> & -> & K4 & K5). unfold prog. cbv zeta. split; [exact K1|]. repeat split; auto.
        unfold calls in *. rewrite filter_app, K5. cbn. rewrite Nat.eqb_refl.
        rewrite K1 in Hy. clear -Hy. revert k Hy. induction (slots_of g l1) as [|x sl IH]; intros [|k] Hy; try discriminate.
        + cbn in Hy. injection Hy as ->. reflexivity.
        + cbn in Hy. cbn [firstn map app]. f_equal. now apply IH. }
    assert (NX : nth_error (g_slots (st_sig s g)) k = None -> work (set_stk th (InEmit g a next :: r) s)).
    { intros Hn. apply (HD next); try reflexivity; try (unfold next; destruct (m_mode c g); reflexivity).
      intros l1 l2 HL (K1 & -> & -> & K4 & K5). rewrite K1 in Hn. apply nth_error_None in Hn.
      rewrite firstn_all2 in K5 by exact Hn. unfold prog, next. cbv zeta. cbn [st_sig set_stk]. split; [exact K1|].
      destruct (m_mode c g) eqn:E; [|split; [auto|right]|congruence]; rewrite firstn_all; auto. }
    injection H as <-. destruct (nth_error _ k) as [y|] eqn:En; [|auto].
    destruct (m_mode c g) eqn:E; auto. destruct (_ <? _); auto.
    apply (HD next); try reflexivity; try (unfold next; rewrite E; reflexivity). congruence.
  - (* Back *)
    assert (FO : work (set_stk th (InEmit g a (For prev i a0 (S k)) :: r) s)).
    { apply (HD (For prev i a0 (S k))); try reflexivity. intros l1 l2 _ K. exact K. }
    injection H as <-. destruct (m_mode c g) eqn:E; auto. destruct (Z.gtb_spec (Z.of_nat (length (g_queue (st_sig s g)))) (m_limit c)) as [L|L]; auto.
    apply (HD (Restore prev)); try reflexivity. intros l1 l2 _ (K1 & -> & -> & K4 & K5). rewrite (K4 E) in L. cbn in L. lia.
  - (* Restore *) injection H as <-. eapply (HD Finish); try reflexivity. intros l1 l2 _ K. exact K.
  - (* Finish *) injection H as <-.
    assert (HH : (0 < cnt (holds g) (st_stk s th))%nat) by (rewrite Hm, cnt_cons; cbn; rewrite Nat.eqb_refl; cbn; lia).
    eapply (step_work s _ th g (InEmit g a Release :: r) [Ended th g]); eauto; try reflexivity.
    + cbn. auto.
    + intros h t [N|N]; rewrite begun_app.
      * destruct (Nat.eqb_spec g h); [congruence|]. now rewrite andb_false_r.
      * destruct (Nat.eqb_spec th t); [congruence|reflexivity].
    + intros h. rewrite slots_app. destruct (Nat.eqb_spec h g) as [->|]; [|reflexivity]. cbn. rewrite SS. cbn.
      destruct (_ <=? _); apply WS.
    + intros h Hh. now rewrite Hm, !filter_other.
    + intros HM. specialize (W th g HM). unfold works in *. cbn [st_stk set_stk]. rewrite Nat.eqb_refl, filter_inactive by reflexivity.
      cbn [st_log say set_stk set_sig]. rewrite begun_app, !Nat.eqb_refl. cbn [andb]. rewrite Hm, filter_active in W by reflexivity.
      assert (HFa := begun_falling th g (st_log s)). inversion W as [|f n fs ns Hf W' X1 X2]; subst f fs. rewrite <- X2 in *. cbn [tl].
      eapply outer_keep; eauto. reflexivity.
  - (* Release *) injection H as <-. eapply (calm_work s _ th g r []); eauto; try reflexivity.
    + cbn. auto.
    + cbn. now rewrite app_nil_r.
    + intros h. now rewrite Hm, filter_inactive.
    + cbn. now rewrite SS.
    + cbn. now rewrite SS.
Qed.
Lemma all_touched : forall s s' e, work s -> (forall t, st_stk s' t = st_stk s t) -> st_log s' = st_log s ++ [e] ->
  (forall g, slots_of g (st_log s') = g_slots (st_sig s' g)) ->
  (forall th g, touches th g e \/ (calls g [e] = [] /\ st_sig s' g = st_sig s g)) ->
  (forall th g, begun th g (st_log s ++ [e]) = begun th g (st_log s)) -> work s'.
Proof.
  intros s s' e [_ W] E1 E2 HS HT HB. split; [exact HS|]. intros th g Hm. specialize (W th g Hm). unfold works in *.
  rewrite E1, E2, HB. assert (K := HT th g). clear -W K E2. induction W; constructor; auto.
  destruct K as [K|[K1 K2]]; [eapply work1_touched; eauto|]. eapply work1_same; eauto; now rewrite K2.
Qed.
Lemma step_works : forall b s s', 0 < m_limit c -> step c b s s' -> inv s -> work s -> work s'.
Proof.
  intros b s s' HLim H HI HW. pose proof HW as [WS W].
  assert (SO : forall g x h, h <> g -> (if Nat.eqb h g then x else st_sig s h) = st_sig s h).
  { intros g x h Hh. destruct (Nat.eqb_spec h g); [congruence|reflexivity]. }
  assert (SS : forall g x, (if Nat.eqb g g then x else st_sig s g) = x) by (intros; now rewrite Nat.eqb_refl).
  destruct H.
  - eapply (calm_work s _ th g (InEmit g a Check :: st_stk s th) []); eauto; try reflexivity.
    + cbn. now rewrite app_nil_r.
    + intros h. now rewrite filter_inactive.
  - subst x. eapply (calm_work s _ th g (InFast g a 0 false :: st_stk s th) []); eauto; try reflexivity; cbn; auto; try now rewrite SS.
    now rewrite app_nil_r.
  - eapply (calm_work s _ th g (InEdit g e false :: st_stk s th) []); eauto; try reflexivity. cbn. now rewrite app_nil_r.
  - eapply (all_touched s _ (Asked th (st_cur s))); [exact HW|reflexivity|reflexivity| | |].
    + intros g. cbn [st_log say]. rewrite slots_app. apply WS.
    + intros t g. right. split; reflexivity.
    + intros t g. now rewrite begun_app.
  - eapply (calm_work s _ th 0%nat r []); eauto; try reflexivity.
    + cbn. now rewrite app_nil_r.
    + intros h. now rewrite H.
  - eapply (step_work s _ th g (InEmit g a (Restore prev) :: r) [Failed th g]); eauto; try reflexivity.
    + intros h t _. now rewrite begun_app.
    + intros h. rewrite slots_app. destruct (Nat.eqb_spec h g) as [->|]; [|reflexivity]. apply WS.
    + intros h Hh. rewrite H. cbn [filter runs]. destruct (Nat.eqb_spec g h); [congruence|reflexivity].
    + intros HM. specialize (W th g HM). unfold works in *. cbn [st_stk set_stk]. rewrite Nat.eqb_refl, filter_active by reflexivity.
      cbn [st_log say set_stk]. rewrite begun_app. rewrite H in W. cbn [filter runs active] in W. rewrite Nat.eqb_refl in W. cbn [andb] in W.
      inversion W as [|f n fs ns Hf W' X1 X2]; subst f fs. constructor.
      * destruct Hf as (a' & q & l1 & l2 & E & H1 & H2 & H3). injection E as <- <-.
        exists a, (Restore prev), l1, (l2 ++ [Failed th g]). split; [reflexivity|].
        split; [cbn [st_log say set_stk]; rewrite H1, <- app_assoc; reflexivity|]. split; [exact H2|].
        intros K. exfalso. apply (K (Failed th g)); [apply in_app_iff; right; now left|cbn; auto].
      * clear -W'. induction W'; constructor; auto. eapply work1_touched; [eassumption|reflexivity|]. cbn. auto.
  - subst y. eapply (calm_work s _ th g r []); eauto; try reflexivity; cbn; auto; try now rewrite SS.
    + now rewrite app_nil_r.
    + intros h. now rewrite H.
  - eapply emit_work; eauto.
  - unfold fast_step. destruct b0.
    + eapply (calm_work s _ th g (InFast g a (S k) false :: r) []); eauto; try reflexivity; [cbn; now rewrite app_nil_r|].
      intros h. now rewrite H.
    + destruct (nth_error _ _) as [y|].
      * eapply (calm_work s _ th g (InCallback y :: InFast g a k true :: r) [CalledFast th g y a]); eauto; try reflexivity.
        -- right. exists (CalledFast th g y a). split; [reflexivity|exact Logic.I].
        -- intros h. now rewrite H.
      * eapply (calm_work s _ th g r []); eauto; try reflexivity; cbn; auto; try now rewrite SS.
        -- now rewrite app_nil_r.
        -- intros h. now rewrite H.
  - unfold edit_step in H0. destruct h.
    + injection H0 as <-. assert (HH : (0 < cnt (holds g) (st_stk s th))%nat) by (rewrite H, cnt_cons; cbn; rewrite Nat.eqb_refl; lia).
      set (l := edited e (g_slots (st_sig s g))).
      eapply (step_work s _ th g r [Changed th g l]); eauto; try reflexivity.
      * cbn. auto.
      * intros h t _. now rewrite begun_app.
      * intros h. rewrite slots_app, (Nat.eqb_sym g h). destruct (Nat.eqb_spec h g) as [->|]; [|reflexivity]. cbn. now rewrite SS.
      * intros h Hh. now rewrite H.
      * intros HM. specialize (W th g HM). unfold works in *. cbn [st_stk set_stk]. rewrite Nat.eqb_refl.
        cbn [st_log say set_stk set_sig]. rewrite begun_app. rewrite H in W. cbn [filter runs] in W.
        clear -W. induction W; constructor; auto. eapply work1_touched; [eassumption|reflexivity|]. cbn. auto.
    + destruct (acquire _ _) as [l|] eqn:Ha; [|discriminate]. injection H0 as <-.
      eapply (calm_work s _ th g (InEdit g e true :: r) []); eauto; try reflexivity; cbn; auto; try now rewrite SS.
      * now rewrite app_nil_r.
      * intros h. now rewrite H.
  - eapply (all_touched s _ (Gone g l)); [exact HW|reflexivity|reflexivity| | |].
    + intros h. cbn [st_log say]. rewrite slots_app. cbn. rewrite (Nat.eqb_sym g h). destruct (Nat.eqb_spec h g) as [->|]; [reflexivity|apply WS].
    + intros t h. cbn. destruct (Nat.eqb_spec h g) as [->|]; [now left|right]. split; reflexivity.
    + intros t h. now rewrite begun_app.
Qed.
Theorem steps_work : forall b s, 0 < m_limit c -> steps c b init s -> inv s /\ work s.
Proof.
  intros b s HL H. remember init as s0 eqn:E. induction H as [|s s1 s2 H IH Hs]; subst.
  - split; [apply init_inv|]. split; [reflexivity|]. intros th g _. constructor.
  - destruct IH as [I1 I2]; [reflexivity|]. split; [eapply step_inv; eauto|eapply step_works; eauto].
Qed.
End Work.
