(** Invariant of Throttler and Debouncer when methods are called one at a time.  Proof
    infrastructure. *)

From Coq Require Import List ZArith Bool Lia.
From Verif Require Import Throttle.
Import ListNotations.
Open Scope Z_scope.

Section Facts.
Context {A : Type} (c : config).
Implicit Types s : state A.
Notation I := (c_interval c).
(** Only calls after a silence. *)
Definition silent : Prop := c_kind c = Debouncer /\ c_leading c = false.

Lemma who_eqb_spec : forall x y, reflect (x = y) (who_eqb x y).
Proof.
  intros [a|a] [b|b]; cbn; try (constructor; discriminate);
    destruct (Nat.eqb_spec a b) as [->|H]; constructor; congruence.
Qed.
Lemma stk_same : forall me fs s, t_stk (set_stk me fs s) me = fs.
Proof. intros. cbn. destruct (who_eqb_spec me me); congruence. Qed.
Lemma stk_other : forall me fs s x, x <> me -> t_stk (set_stk me fs s) x = t_stk s x.
Proof. intros. cbn. destruct (who_eqb_spec x me); congruence. Qed.

Lemma open_app : forall l e, open_request (l ++ [e]) =
  match e with Requested a _ => Some a | Started _ _ _ | Cancelling _ => None | _ => open_request (A:=A) l end.
Proof. intros. unfold open_request. rewrite fold_left_app. now destruct e. Qed.
Lemma end_app : forall l e, last_end (l ++ [e]) =
  match e with Started _ t _ | Returned t => Some t | Raised _ | Cancelling _ => None | Requested _ _ => last_end (A:=A) l end.
Proof. intros. unfold last_end. rewrite fold_left_app. now destruct e. Qed.
Lemma req_app : forall l e, last_request (l ++ [e]) =
  match e with Requested _ t => Some t | _ => last_request (A:=A) l end.
Proof. intros. unfold last_request. rewrite fold_left_app. now destruct e. Qed.

(** What a call of the wrapped function has to satisfy, given what was logged before. *)
Definition rightful (l : list (event A)) (e : event A) : Prop :=
  match e with
  | Started a t fl =>
      open_request l = Some a
      /\ (fl = false -> (forall te, last_end l = Some te -> te + I <= t)
                     /\ (silent -> forall tr, last_request l = Some tr -> tr + I <= t))
  | _ => True
  end.
Definition good (l : list (event A)) : Prop := forall l1 e l2, l = l1 ++ e :: l2 -> rightful l1 e.
Lemma good_app : forall l e, good l -> rightful l e -> good (l ++ [e]).
Proof.
  intros l e H He l1 e1 l2 E. destruct l2 as [|x l2 _] using rev_ind.
  - apply app_inj_tail in E as [<- <-]. exact He.
  - rewrite app_comm_cons, app_assoc in E. apply app_inj_tail in E as [E _]. eapply H; eauto.
Qed.

Record basic s : Prop := {
  b_cur : (t_cur s < t_nxt s)%nat;
  b_wait : forall j due, t_stat s j = Waiting due -> j = t_cur s;
  b_thr : forall j, t_stk s (TimerThread j) <> [] -> (j < t_nxt s)%nat;
  b_end : forall t, last_end (t_log s) = Some t -> t <= t_now s;
  b_req : forall t, last_request (t_log s) = Some t -> t <= t_now s;
  b_log : good (t_log s)
}.
Definition agrees s : Prop :=
  match open_request (t_log s) with
  | None => t_pend s = false
  | Some a => t_pend s = true /\ t_args s = a
  end.
Definition spaced s : Prop := forall te, last_end (t_log s) = Some te ->
  (exists due, t_stat s (t_cur s) = Waiting due /\ te + I <= due) \/ te + I <= t_now s.
Definition spaced_now s : Prop := forall te, last_end (t_log s) = Some te -> te + I <= t_now s.
Definition silence s : Prop := silent -> forall due t,
  t_stat s (t_cur s) = Waiting due -> last_request (t_log s) = Some t -> t + I <= due.
Definition silence_now s : Prop := silent -> forall t, last_request (t_log s) = Some t -> t + I <= t_now s.
Record settled s : Prop := {
  se_agrees : agrees s;
  se_spaced : spaced s;
  se_silence : silence s;
  se_wait : open_request (t_log s) <> None -> exists due, t_stat s (t_cur s) = Waiting due;
  se_cur : t_stat s (t_cur s) = Over \/ t_stat s (t_cur s) = Cancelled \/ exists due, t_stat s (t_cur s) = Waiting due
}.
Definition ready s : Prop := t_stat s (t_cur s) = Over \/ exists due, t_stat s (t_cur s) = Waiting due.
Definition ready_or_me me s : Prop := ready s \/ (t_stat s (t_cur s) = Firing /\ me = TimerThread (t_cur s)).
Definition no_wait s : Prop := forall j due, t_stat s j <> Waiting due.
Definition rest_of : list (instr (A:=A)) := match c_kind c with Throttler => [] | Debouncer => start_timer end.
Definition tail_ok (t : list (instr (A:=A))) : Prop := t = [] \/ t = [ICancel; INew; IStart].
Definition client me : Prop := exists n, me = Client n.

Inductive inside me s : list (instr (A:=A)) -> Prop :=
| k_call1 : forall a, client me -> open_request (t_log s) = Some a -> spaced s -> ready s ->
    inside me s (IPend :: IArgs a :: IIdle :: rest_of)
| k_call2 : forall a, client me -> open_request (t_log s) = Some a -> spaced s -> ready s -> t_pend s = true ->
    inside me s (IArgs a :: IIdle :: rest_of)
| k_call3 : forall a, client me -> open_request (t_log s) = Some a -> spaced s -> ready s -> t_pend s = true ->
    t_args s = a -> inside me s (IIdle :: rest_of)
| k_ac : forall fl t, tail_ok t -> open_request (t_log s) = Some (t_args s) -> (fl = false -> spaced_now s /\ silence_now s) ->
    ready_or_me me s -> silence s -> inside me s (IClear :: IRun fl :: IBody :: ICancel :: INew :: IStart :: t)
| k_run : forall fl t, tail_ok t -> open_request (t_log s) = Some (t_args s) -> (fl = false -> spaced_now s /\ silence_now s) ->
    ready_or_me me s -> silence s -> t_pend s = false ->
    inside me s (IRun fl :: IBody :: ICancel :: INew :: IStart :: t)
| k_body : forall t, tail_ok t -> open_request (t_log s) = None -> t_pend s = false ->
    ready_or_me me s -> silence s -> inside me s (IBody :: ICancel :: INew :: IStart :: t)
| k_sa : forall t, tail_ok t -> agrees s -> inside me s (ICancel :: INew :: IStart :: t)
| k_new : forall t, tail_ok t -> agrees s -> no_wait s -> inside me s (INew :: IStart :: t)
| k_start : forall t, tail_ok t -> agrees s -> no_wait s -> t_stat s (t_cur s) = Fresh -> me <> TimerThread (t_cur s) ->
    inside me s (IStart :: t)
| k_nil : settled (pop me s) -> inside me s []
| k_fired : me = TimerThread (t_cur s) -> t_stat s (t_cur s) = Firing -> agrees s -> spaced_now s -> silence_now s ->
    inside me s [IIfPending false]
| k_flush : client me -> ready s -> settled s -> inside me s [IIfPending true]
| k_cancel1 : client me -> ready s -> silence s -> open_request (t_log s) = None -> last_end (t_log s) = None ->
    inside me s [IClear; ICancel]
| k_cancel2 : client me -> ready s -> silence s -> open_request (t_log s) = None -> last_end (t_log s) = None ->
    t_pend s = false -> inside me s [ICancel].

Definition inv s : Prop := basic s /\
  (((forall x, t_stk s x = []) /\ settled s)
   \/ exists me fr, t_stk s me = [fr] /\ (forall x, x <> me -> t_stk s x = []) /\ inside me s fr).

Lemma init_inv : forall a0 t, inv (init a0 t).
Proof.
  intros a0 t. split.
  - split; cbn.
    + lia.
    + intros [|j] due; discriminate.
    + intros j H. now destruct H.
    + discriminate.
    + discriminate.
    + intros l1 e l2 H. destruct l1; discriminate.
  - left. split; [reflexivity|]. split; cbn.
    + reflexivity.
    + intros te; discriminate.
    + intros _ due u H. discriminate.
    + congruence.
    + auto.
Qed.

Lemma settled_stk : forall s me fs, settled s -> settled (set_stk me fs s).
Proof. intros s me fs [H1 H2 H3 H4 H5]. split; assumption. Qed.
Lemma settled_client : forall s me, client me -> settled s -> settled (pop me s).
Proof. intros s me [n ->] H. unfold pop. now apply settled_stk. Qed.

(** The facts used by [inside] do not depend on the stacks. *)
Definition same_but_stk s s' : Prop :=
  t_pend s' = t_pend s /\ t_args s' = t_args s /\ t_cur s' = t_cur s /\ t_stat s' = t_stat s
  /\ t_nxt s' = t_nxt s /\ t_now s' = t_now s /\ t_log s' = t_log s.

(** Thread [me] is the only one inside and goes on with [fr]. *)
Lemma goes_on : forall s s' me fr fr',
  t_stk s me = [fr] -> (forall x, x <> me -> t_stk s x = []) -> t_stk s' = t_stk s ->
  basic s' -> inside me (set_stk me [fr'] s') fr' -> inv (set_stk me [fr'] s').
Proof.
  intros s s' me fr fr' H1 H2 HS [B1 B2 B3 B4 B5 B6] HI. split.
  - split; auto. intros j Hj. apply B3. destruct (who_eqb_spec (TimerThread j) me) as [<-|Hn].
    + rewrite HS, H1. discriminate.
    + rewrite stk_other in Hj by exact Hn. exact Hj.
  - right. exists me, fr'. split; [apply stk_same|]. split; [|exact HI].
    intros x Hx. rewrite stk_other by exact Hx. rewrite HS. auto.
Qed.
Lemma pop_stk : forall s me fr, t_stk s me = [fr] -> (forall x, x <> me -> t_stk s x = []) ->
  forall x, t_stk (pop me s) x = [].
Proof.
  intros s me fr H1 H2 x. unfold pop. rewrite H1. cbn [tl].
  assert (H : t_stk (set_stk me [] s) x = []).
  { destruct (who_eqb_spec x me) as [->|Hn]; [apply stk_same|rewrite stk_other by exact Hn; auto]. }
  destruct me; exact H.
Qed.
Lemma pop_basic : forall s me fr, basic s -> t_stk s me = [fr] -> (forall x, x <> me -> t_stk s x = []) -> basic (pop me s).
Proof.
  intros s me fr [B1 B2 B3 B4 B5 B6] H1 H2.
  assert (HP : forall j, t_stk (pop me s) (TimerThread j) <> [] -> (j < t_nxt s)%nat).
  { intros j Hj. exfalso. apply Hj. eapply pop_stk; eauto. }
  unfold pop in *. rewrite H1 in *. cbn [tl] in *. destruct me as [n|j].
  - split; auto.
  - split; auto.
    cbn. intros i due. destruct (Nat.eqb_spec i j) as [->|Hn]; [discriminate|apply B2].
Qed.
Lemma leaves : forall s me fr, basic s -> t_stk s me = [fr] -> (forall x, x <> me -> t_stk s x = []) ->
  settled (pop me s) -> inv (pop me s).
Proof.
  intros s me fr HB H1 H2 HS. split; [eapply pop_basic; eauto|]. left. split; [eapply pop_stk; eauto|exact HS].
Qed.

Lemma tick_inv : forall s d, 0 <= d -> inv s -> inv (set_now (t_now s + d) s).
Proof.
  intros s d Hd [HB HI].
  assert (HB' : basic (set_now (t_now s + d) s)).
  { destruct HB as [B1 B2 B3 B4 B5 B6]. split; cbn; auto; intros t Ht; [specialize (B4 t Ht)|specialize (B5 t Ht)]; lia. }
  assert (SP : forall x, spaced x -> spaced (set_now (t_now x + d) x)).
  { intros x H te Ht. destruct (H te Ht) as [H'|H']; [left; exact H'|right; cbn; lia]. }
  assert (SN : forall x, spaced_now x -> spaced_now (set_now (t_now x + d) x)).
  { intros x H te Ht. specialize (H te Ht). cbn. lia. }
  assert (QN : forall x, silence_now x -> silence_now (set_now (t_now x + d) x)).
  { intros x H Hs te Ht. specialize (H Hs te Ht). cbn. lia. }
  assert (ST : forall x, settled x -> settled (set_now (t_now x + d) x)).
  { intros x [H1 H2 H3 H4 H5]. split; auto. }
  split; [exact HB'|]. destruct HI as [[H1 H2]|(me & fr & H1 & H2 & H3)].
  - left. split; auto.
  - right. exists me, fr. split; [exact H1|]. split; [exact H2|].
    assert (HF : forall fl, (fl = false -> spaced_now s /\ silence_now s) ->
      fl = false -> spaced_now (set_now (t_now s + d) s) /\ silence_now (set_now (t_now s + d) s)).
    { intros fl H E. destruct (H E). auto. }
    assert (SP' := SP s). assert (SN' := SN s). assert (QN' := QN s). assert (ST' := ST s).
    Ltac ok := first [eassumption | solve [eauto] | match goal with H : _ -> _ |- _ => apply H; eassumption end].
    destruct H3.
    + apply k_call1; ok.
    + apply k_call2; ok.
    + eapply k_call3; ok.
    + apply k_ac; ok.
    + apply k_run; ok.
    + apply k_body; ok.
    + apply k_sa; ok.
    + apply k_new; ok.
    + apply k_start; ok.
    + apply k_nil. specialize (ST _ H). unfold pop in *. cbn [t_stk set_now] in *. destruct me; [exact ST|].
      destruct (tl _); exact ST.
    + apply k_fired; ok.
    + apply k_flush; ok.
    + apply k_cancel1; ok.
    + apply k_cancel2; ok.
Qed.

Lemma die_inv : forall s j, t_stat s j = Cancelled -> inv s -> inv (set_stat j Over s).
Proof.
  intros s j Hj [HB HI].
  assert (W : forall (x : state A) i due, t_stat x j = Cancelled -> (t_stat (set_stat j Over x) i = Waiting due <-> t_stat x i = Waiting due)).
  { intros x i due Hx. cbn. destruct (Nat.eqb_spec i j) as [->|]; [|tauto]. rewrite Hx. split; discriminate. }
  assert (HB' : basic (set_stat j Over s)).
  { destruct HB as [B1 B2 B3 B4 B5 B6]. split; auto. intros i due Hi. apply (proj1 (W s i due Hj)) in Hi. eapply B2; eauto. }
  assert (SP : forall x : state A, t_stat x j = Cancelled -> spaced x -> spaced (set_stat j Over x)).
  { intros x Hx H te Ht. destruct (H te Ht) as [(due & H1 & H2)|H']; [left|right; exact H'].
    exists due. split; [now apply W|exact H2]. }
  assert (QS : forall x : state A, t_stat x j = Cancelled -> silence x -> silence (set_stat j Over x)).
  { intros x Hx H Hs due t H1 H2. apply (proj1 (W x _ _ Hx)) in H1. eauto. }
  assert (RD : forall x : state A, t_stat x j = Cancelled -> ready x -> ready (set_stat j Over x)).
  { intros x Hx [H|(due & H)]; [left|right; exists due; now apply W].
    cbn. destruct (Nat.eqb (t_cur x) j); [reflexivity|exact H]. }
  assert (ST : forall x : state A, t_stat x j = Cancelled -> settled x -> settled (set_stat j Over x)).
  { intros x Hx [H1 H2 H3 H4 H5]. split; auto.
    - intros H. destruct (H4 H) as (due & H'). exists due. now apply W.
    - destruct H5 as [H5|[H5|(due & H5)]].
      + left. cbn. destruct (Nat.eqb (t_cur x) j); [reflexivity|exact H5].
      + cbn. destruct (Nat.eqb (t_cur x) j); auto.
      + right. right. exists due. now apply W. }
  assert (RM : forall me, ready_or_me me s -> ready_or_me me (set_stat j Over s)).
  { intros me [H|[H1 H2]]; [left; auto|right]. split; [|exact H2]. cbn. destruct (Nat.eqb_spec (t_cur s) j) as [E|]; [|exact H1].
    rewrite E in H1. congruence. }
  split; [exact HB'|]. destruct HI as [[H1 H2]|(me & fr & H1 & H2 & H3)].
  - left. split; auto.
  - right. exists me, fr. split; [exact H1|]. split; [exact H2|].
    assert (SP' := SP s Hj). assert (QS' := QS s Hj). assert (RD' := RD s Hj). assert (ST' := ST s Hj).
    assert (NW : no_wait s -> no_wait (set_stat j Over s)).
    { intros H i due Hi. apply (proj1 (W s i due Hj)) in Hi. eapply H; eauto. }
    assert (OT : forall x, t_stat s (t_cur s) = x -> x <> Cancelled -> t_stat (set_stat j Over s) (t_cur (set_stat j Over s)) = x).
    { intros x Hx Hn. cbn. destruct (Nat.eqb_spec (t_cur s) j) as [E|]; [|exact Hx]. rewrite E in Hx. congruence. }
    destruct H3.
    + apply k_call1; ok.
    + apply k_call2; ok.
    + eapply k_call3; ok.
    + apply k_ac; ok.
    + apply k_run; ok.
    + apply k_body; ok.
    + apply k_sa; ok.
    + apply k_new; ok.
    + apply k_start; try ok. apply OT; [assumption|discriminate].
    + apply k_nil. unfold pop in *. cbn [t_stk set_stat] in *. destruct me as [n|i]; [exact (ST (set_stk (Client n) _ s) Hj H)|].
      destruct (tl _); [|exact (ST (set_stk (TimerThread i) _ s) Hj H)].
      destruct (Nat.eq_dec i j) as [->|Hn].
      * destruct H as [G1 G2 G3 G4 G5].
        assert (HX : forall k, t_stat (set_stat j Over (set_stk (TimerThread j) [] (set_stat j Over s))) k
                     = t_stat (set_stat j Over (set_stk (TimerThread j) [] s)) k).
        { intros k. cbn. destruct (Nat.eqb k j); reflexivity. }
        split; unfold spaced, silence in *; cbn [t_cur t_now t_log t_pend t_args set_stat set_stk] in *;
          [exact G1| | | |]; rewrite HX; assumption.
      * assert (Hj2 : t_stat (set_stat i Over (set_stk (TimerThread i) [] s)) j = Cancelled).
        { cbn. destruct (Nat.eqb_spec j i); [congruence|exact Hj]. }
        destruct (ST _ Hj2 H) as [G1 G2 G3 G4 G5].
        assert (HX : forall k, t_stat (set_stat i Over (set_stk (TimerThread i) [] (set_stat j Over s))) k
                     = t_stat (set_stat j Over (set_stat i Over (set_stk (TimerThread i) [] s))) k).
        { intros k. cbn. destruct (Nat.eqb k j), (Nat.eqb k i); reflexivity. }
        split; unfold spaced, silence in *; cbn [t_cur t_now t_log t_pend t_args set_stat set_stk] in *;
          [exact G1| | | |]; rewrite HX; assumption.
    + apply k_fired; try ok. apply OT; [assumption|discriminate].
    + apply k_flush; ok.
    + apply k_cancel1; ok.
    + apply k_cancel2; ok.
Qed.

Lemma call_inv : forall s n m, quiet s -> inv s -> inv (set_stk (Client n) [code c m] (note m s)).
Proof.
  intros s n m [Q1 Q2] [HB HI]. destruct HI as [[_ HS]|(me & fr & H1 & _)]; [|rewrite Q1 in H1; discriminate].
  destruct HS as [G1 G2 G3 G4 G5].
  assert (HR : ready s).
  { unfold ready. destruct (t_stat s (t_cur s)); try contradiction; eauto. }
  assert (HN : t_stk (note m s) = t_stk s) by (destruct m; reflexivity).
  split.
  - destruct HB as [B1 B2 B3 B4 B5 B6]. destruct m; split; auto; cbn [t_log t_now note add_log set_stk];
      try (intros j Hj; cbn in Hj; rewrite Q1 in Hj; congruence).
    + intros t Ht. rewrite end_app in Ht. auto.
    + intros t Ht. rewrite req_app in Ht. injection Ht as <-. lia.
    + apply good_app; [exact B6|exact Logic.I].
    + intros t Ht. rewrite end_app in Ht. discriminate.
    + intros t Ht. rewrite req_app in Ht. auto.
    + apply good_app; [exact B6|exact Logic.I].
  - right. exists (Client n), (code c m). split; [apply stk_same|].
    split; [intros x Hx; rewrite stk_other, HN by exact Hx; apply Q1|].
    assert (HC : client (Client n)) by (eexists; reflexivity). destruct m.
    + apply k_call1; auto.
      * cbn [t_log t_now t_stat t_cur note add_log set_stk set_stat]. now rewrite open_app.
      * intros te Ht. cbn [t_log t_now t_stat t_cur note add_log set_stk set_stat] in Ht. rewrite end_app in Ht. exact (G2 te Ht).
    + apply k_flush; [exact HC|exact HR|]. split; assumption.
    + apply k_cancel1; auto.
      * intros Hs due t H1 H2. cbn [t_log t_now t_stat t_cur note add_log set_stk set_stat] in H2. rewrite req_app in H2. exact (G3 Hs due t H1 H2).
      * cbn [t_log t_now t_stat t_cur note add_log set_stk set_stat]. now rewrite open_app.
      * cbn [t_log t_now t_stat t_cur note add_log set_stk set_stat]. now rewrite end_app.
Qed.
Lemma fire_inv : forall s j due, t_stat s j = Waiting due -> due <= t_now s -> quiet s -> inv s ->
  inv (set_stk (TimerThread j) [[IIfPending false]] (set_stat j Firing s)).
Proof.
  intros s j due Hj Hd [Q1 Q2] [HB HI]. destruct HI as [[_ HS]|(me & fr & H1 & _)]; [|rewrite Q1 in H1; discriminate].
  destruct HB as [B1 B2 B3 B4 B5 B6]. destruct HS as [G1 G2 G3 G4 G5]. assert (E := B2 _ _ Hj). subst j. split.
  - split; auto.
    + intros i d Hi. cbn in Hi. destruct (Nat.eqb_spec i (t_cur s)) as [->|Hn]; [discriminate|]. eapply B2; eauto.
    + intros i Hi. cbn [t_nxt set_stk set_stat]. destruct (Nat.eq_dec i (t_cur s)) as [->|Hn]; [exact B1|].
      rewrite stk_other in Hi by congruence. apply B3. exact Hi.
  - right. eexists _, _. split; [apply stk_same|]. split; [intros x Hx; rewrite stk_other by exact Hx; apply Q1|].
    apply k_fired; auto.
    + cbn. now rewrite Nat.eqb_refl.
    + intros te Ht. destruct (G2 te Ht) as [(d & H1 & H2)|H]; [|exact H]. cbn. assert (d = due) by congruence. lia.
    + intros Hs t Ht. specialize (G3 Hs due t Hj Ht). cbn. lia.
Qed.
Lemma raise_inv : forall s me rest fs, t_stk s me = (IBody :: rest) :: fs -> inv s ->
  inv (pop me (add_log (Raised (t_now s)) s)).
Proof.
  intros s me rest fs Hm [HB [[Q _]|(me' & fr & H1 & H2 & H3)]]; [rewrite Q in Hm; discriminate|].
  destruct (who_eqb_spec me' me) as [->|Hn]; [|rewrite H2 in Hm by congruence; discriminate].
  rewrite H1 in Hm. injection Hm as -> <-. inversion H3; subst.
  match goal with H : ready_or_me _ s |- _ => rename H into HRM end. match goal with H : silence s |- _ => rename H into HSI end.
  assert (HB' : basic (add_log (Raised (t_now s)) s)).
  { destruct HB as [B1 B2 B3 B4 B5 B6]. split; auto; cbn [t_log t_now t_stat t_cur note add_log set_stk set_stat]; try (intros t0 Ht; rewrite ?end_app, ?req_app in Ht; auto; discriminate).
    apply good_app; [exact B6|exact Logic.I]. }
  eapply leaves; [exact HB'|exact H1|exact H2|]. unfold pop. cbn [t_stk add_log]. rewrite H1. cbn [tl].
  assert (SG : forall x : state A, t_log x = t_log s ++ [Raised (t_now s)] -> t_pend x = t_pend s ->
    silence x -> (t_stat x (t_cur x) = Over \/ exists due, t_stat x (t_cur x) = Waiting due) -> settled x).
  { intros x Hl Hp Hq Hc. split.
    - unfold agrees. rewrite Hl, open_app, Hp. now rewrite H4.
    - intros te. rewrite Hl, end_app. discriminate.
    - exact Hq.
    - rewrite Hl, open_app. congruence.
    - tauto. }
  assert (QA : silence (add_log (Raised (t_now s)) s)).
  { intros Hs due t0 K1 K2. cbn [t_log t_now t_stat t_cur note add_log set_stk set_stat] in K2. rewrite req_app in K2. eapply HSI; eauto. }
  destruct me as [n|j].
  - apply SG; auto. destruct HRM as [HRM|[_ HRM]]; [exact HRM|discriminate].
  - apply SG; auto.
    + intros Hs due t0 K1 K2. cbn in K1. destruct (Nat.eqb (t_cur s) j); [discriminate|]. exact (QA Hs due t0 K1 K2).
    + cbn. destruct (Nat.eqb_spec (t_cur s) j) as [_|Hn]; [auto|].
      destruct HRM as [HRM|[_ HRM]]; [exact HRM|congruence].
Qed.

Lemma return_inv : forall s me fs, t_stk s me = [] :: fs -> inv s -> inv (pop me s).
Proof.
  intros s me fs Hm [HB [[Q _]|(me' & fr & H1 & H2 & H3)]]; [rewrite Q in Hm; discriminate|].
  destruct (who_eqb_spec me' me) as [->|Hn]; [|rewrite H2 in Hm by congruence; discriminate].
  rewrite H1 in Hm. injection Hm as -> <-. inversion H3; subst.
  eapply leaves; eauto.
Qed.
Lemma tail_inside : forall me s t, tail_ok t -> agrees s -> (t = [] -> settled (pop me s)) -> inside me s t.
Proof. intros me s t [-> | ->] HA HS; [apply k_nil; auto|now apply k_sa; [left|]]. Qed.
Lemma rest_tail : tail_ok rest_of.
Proof. unfold rest_of, tail_ok. destruct (c_kind c); auto. Qed.

Ltac names s :=
  try match goal with H : client _ |- _ => rename H into HCl end;
  try match goal with H : open_request (t_log s) = _ |- _ => rename H into Hop end;
  try match goal with H : spaced s |- _ => rename H into HSp end;
  try match goal with H : ready s |- _ => rename H into HRd end;
  try match goal with H : t_pend s = _ |- _ => rename H into HPd end;
  try match goal with H : _ = false -> _ |- _ => rename H into HF end;
  try match goal with H : ready_or_me _ s |- _ => rename H into HRm end;
  try match goal with H : silence s |- _ => rename H into HSi end;
  try match goal with H : last_end (t_log s) = None |- _ => rename H into HLe end;
  try match goal with H : tail_ok _ |- _ => rename H into HTl end;
  try match goal with H : agrees s |- _ => rename H into HAg end;
  try match goal with H : no_wait s |- _ => rename H into HNw end;
  try match goal with H : t_stat s (t_cur s) = _ |- _ => rename H into HSt end;
  try match goal with H : spaced_now s |- _ => rename H into HSn end;
  try match goal with H : silence_now s |- _ => rename H into HQn end;
  try match goal with H : settled s |- _ => rename H into HSet0 end.
Lemma run_inv : forall s me i rest fs, t_stk s me = (i :: rest) :: fs -> inv s -> inv (run c me i rest fs s).
Proof.
  intros s me i rest fs Hm [HB [[Q _]|(me' & fr & H1 & H2 & H3)]]; [rewrite Q in Hm; discriminate|].
  destruct (who_eqb_spec me' me) as [->|Hn]; [|rewrite H2 in Hm by congruence; discriminate].
  rewrite H1 in Hm. injection Hm as -> <-.
  assert (GO := fun s' fr' HS => goes_on s s' me (i :: rest) fr' H1 H2 HS).
  inversion H3; subst; cbn [run]; names s.
  - (* self._has_pending = True *)
    apply GO; [reflexivity|destruct HB; split; assumption|]. apply k_call2; auto.
  - (* self._args = args *)
    apply GO; [reflexivity|destruct HB; split; assumption|]. eapply k_call3; eauto.
  - (* if not self._timer.is_alive() *)
    assert (Hcl : forall x : state A, settled x -> settled (pop me x)) by (intros; now apply settled_client).
    destruct (alive (t_stat s (t_cur s))) eqn:Ha.
    + assert (HW : exists due, t_stat s (t_cur s) = Waiting due).
      { destruct HRd as [HRd|HRd]; [rewrite HRd in Ha; discriminate|exact HRd]. }
      apply GO; [reflexivity|exact HB|]. apply tail_inside.
      * apply rest_tail.
      * unfold agrees. cbn [t_log set_stk]. rewrite Hop. auto.
      * intros Hr. apply Hcl. split.
        -- unfold agrees. cbn [t_log set_stk]. rewrite Hop. auto.
        -- exact HSp.
        -- intros [Hk _]. unfold rest_of in Hr. rewrite Hk in Hr. discriminate.
        -- intros _. exact HW.
        -- right. right. exact HW.
    + assert (HO : t_stat s (t_cur s) = Over).
      { destruct HRd as [HRd|(due & HRd)]; [exact HRd|rewrite HRd in Ha; discriminate]. }
      assert (HAg1 : agrees s) by (unfold agrees; rewrite Hop; auto).
      destruct (c_leading c) eqn:Hl.
      * apply GO; [reflexivity|exact HB|]. apply k_ac.
        -- apply rest_tail.
        -- exact Hop.
        -- intros _. split; [|intros [_ K]; congruence].
           intros te Ht. destruct (HSp te Ht) as [(due & K & _)|K]; [cbn in K; congruence|exact K].
        -- left. exact HRd.
        -- intros [_ K]. congruence.
      * destruct (c_kind c) eqn:Hk.
        -- apply GO; [reflexivity|exact HB|]. apply k_sa; [|exact HAg1]. unfold rest_of. rewrite Hk. now left.
        -- apply GO; [reflexivity|exact HB|]. unfold rest_of. rewrite Hk. apply k_sa; [now left|exact HAg1].
  - (* self._has_pending = False *)
    apply GO; [reflexivity|destruct HB; split; assumption|]. apply k_run; auto.
  - (* the wrapped function is called *)
    apply GO; [reflexivity| |].
    + destruct HB as [B1 B2 B3 B4 B5 B6]. split; auto; cbn [t_log t_now add_log].
      * intros u Hu. rewrite end_app in Hu. injection Hu as <-. lia.
      * intros u Hu. rewrite req_app in Hu. auto.
      * apply good_app; [exact B6|]. split; [exact Hop|]. intros E. destruct (HF E) as [K1 K2].
        split; [exact K1|exact K2].
    + apply k_body; auto; cbn [t_log t_now add_log set_stk].
      * now rewrite open_app.
      * intros Hs due u K1 K2. cbn [t_log t_now add_log set_stk] in K2. rewrite req_app in K2. eapply HSi; eauto.
  - (* it returns *)
    apply GO; [reflexivity| |].
    + destruct HB as [B1 B2 B3 B4 B5 B6]. split; auto; cbn [t_log t_now add_log].
      * intros u Hu. rewrite end_app in Hu. injection Hu as <-. lia.
      * intros u Hu. rewrite req_app in Hu. auto.
      * apply good_app; [exact B6|exact Logic.I].
    + apply k_sa; [assumption|]. unfold agrees. cbn [t_log t_now add_log set_stk]. rewrite open_app, Hop. exact HPd.
  - (* self._timer.cancel() *)
    assert (HN : no_wait (set_stat (t_cur s) (cancelled (t_stat s (t_cur s))) s)).
    { intros j due. cbn. destruct (Nat.eqb_spec j (t_cur s)) as [->|Hn].
      - destruct (t_stat s (t_cur s)); discriminate.
      - intros K. apply Hn. eapply (b_wait s HB); eauto. }
    apply GO; [reflexivity| |].
    + destruct HB as [B1 B2 B3 B4 B5 B6]. split; auto. intros j due K. now apply HN in K.
    + apply k_new; auto.
  - (* self._timer = Timer() *)
    assert (HN : no_wait (set_stat (t_nxt s) Fresh (set_cur (t_nxt s) (S (t_nxt s)) s))).
    { intros j due. cbn. destruct (Nat.eqb j (t_nxt s)); [discriminate|apply HNw]. }
    apply GO; [reflexivity| |].
    + destruct HB as [B1 B2 B3 B4 B5 B6]. split; try assumption.
      * cbn. lia.
      * intros j due K. now apply HN in K.
      * intros j K. cbn. specialize (B3 j K). lia.
    + apply k_start; auto.
      * cbn. now rewrite Nat.eqb_refl.
      * cbn. intros ->. assert (K : t_stk s (TimerThread (t_nxt s)) <> []) by (rewrite H1; discriminate).
        apply (b_thr s HB) in K. lia.
  - (* self._timer.start() *)
    rewrite HSt. set (s1 := set_stat (t_cur s) (Waiting (t_now s + I)) s).
    assert (C1 : t_stat s1 (t_cur s1) = Waiting (t_now s + I)) by (cbn; now rewrite Nat.eqb_refl).
    assert (HSet : settled s1).
    { split.
      - exact HAg.
      - intros te Ht. left. exists (t_now s + I). split; [exact C1|]. pose proof (b_end s HB te Ht). lia.
      - intros _ due u K1 K2. assert (due = t_now s + I) as -> by congruence. pose proof (b_req s HB u K2). lia.
      - intros _. eauto.
      - eauto. }
    apply GO; [reflexivity| |].
    + destruct HB as [B1 B2 B3 B4 B5 B6]. split; auto. intros j due K. cbn in K.
      destruct (Nat.eqb_spec j (t_cur s)) as [->|Hn]; [reflexivity|]. now apply HNw in K.
    + apply tail_inside; [assumption|exact HAg|]. intros _.
      unfold pop. rewrite stk_same. cbn [tl]. destruct me as [n|j]; [now repeat apply settled_stk|].
      assert (Hj : t_cur s <> j) by congruence. apply Nat.eqb_neq in Hj.
      destruct HSet as [G1 G2 G3 G4 G5]. cbn in C1.
      split; unfold spaced, silence in *;
        cbn [t_cur t_now t_log t_pend t_args t_stat set_stat set_stk s1] in *; rewrite ?Hj, ?Nat.eqb_refl in *; auto.
  - (* the timer fires: if self._has_pending *)
    destruct (t_pend s) eqn:Hp.
    + apply GO; [reflexivity|exact HB|]. apply k_ac; auto.
      * now left.
      * cbn [t_log set_stk t_args]. unfold agrees in HAg. destruct (open_request (t_log s)); [|congruence].
        f_equal. symmetry. apply HAg.
      * right. auto.
      * intros _ due u K1 K2. cbn in K1. congruence.
    + apply GO; [reflexivity|exact HB|]. apply k_nil. unfold pop. rewrite stk_same. cbn [tl].
      assert (HOp : open_request (t_log s) = None).
      { unfold agrees in HAg. destruct (open_request (t_log s)); [destruct HAg; congruence|reflexivity]. }
      split.
      * exact HAg.
      * intros te Ht. right. exact (HSn te Ht).
      * intros _ due u K1 _. cbn in K1. rewrite Nat.eqb_refl in K1. discriminate.
      * cbn [t_log set_stk set_stat]. congruence.
      * left. cbn. now rewrite Nat.eqb_refl.
  - (* flush: if self._has_pending *)
    destruct (t_pend s) eqn:Hp.
    + apply GO; [reflexivity|exact HB|]. destruct HSet0 as [G1 G2 G3 G4 G5]. apply k_ac; auto.
      * now left.
      * cbn [t_log set_stk t_args]. unfold agrees in G1. destruct (open_request (t_log s)); [|congruence].
        f_equal. symmetry. apply G1.
      * discriminate.
      * left. assumption.
    + apply GO; [reflexivity|exact HB|]. apply k_nil. apply settled_client; [assumption|]. now apply settled_stk.
  - (* cancel: self._has_pending = False *)
    apply GO; [reflexivity|destruct HB; split; assumption|]. apply k_cancel2; auto.
  - (* cancel: self._timer.cancel() *)
    assert (HN : no_wait (set_stat (t_cur s) (cancelled (t_stat s (t_cur s))) s)).
    { intros j due. cbn. destruct (Nat.eqb_spec j (t_cur s)) as [->|Hn].
      - destruct (t_stat s (t_cur s)); discriminate.
      - intros K. apply Hn. eapply (b_wait s HB); eauto. }
    apply GO; [reflexivity| |].
    + destruct HB as [B1 B2 B3 B4 B5 B6]. split; auto. intros j due K. now apply HN in K.
    + apply k_nil. apply settled_client; [assumption|]. apply settled_stk. split.
      * unfold agrees. cbn [t_log set_stat]. now rewrite Hop.
      * intros te Ht. cbn [t_log set_stat] in Ht. congruence.
      * intros _ due u K1 _. now apply HN in K1.
      * cbn [t_log set_stat]. congruence.
      * cbn. rewrite Nat.eqb_refl. destruct HRd as [-> | (due & ->)]; auto.
Qed.

Lemma step_inv : forall s s', step c true s s' -> inv s -> inv s'.
Proof.
  intros s s' H HI. destruct H.
  - now apply tick_inv.
  - apply call_inv; auto.
  - eapply fire_inv; eauto.
  - eapply run_inv; eauto.
  - eapply return_inv; eauto.
  - eapply raise_inv; eauto.
  - discriminate.
  - now apply die_inv.
Qed.
Theorem serial_inv : forall a0 t s, steps c true (init a0 t) s -> inv s.
Proof.
  intros a0 t s H. remember (init a0 t) as s0 eqn:E. induction H as [|s s1 s2 H IH Hs]; subst; [apply init_inv|].
  eapply step_inv; eauto.
Qed.
End Facts.
