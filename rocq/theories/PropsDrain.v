(** C84: emit_queued in several threads. *)

From Verif Require Import Base Drain.

(** The calls put into, and taken from, the queue of [t], in order. *)
Definition puts (t : nat) (h : list happening) : list nat :=
  flat_map (fun e => match e with HPut _ t' x => if Nat.eqb t' t then [x] else [] | _ => [] end) h.
Definition tooks (t : nat) (h : list happening) : list nat :=
  flat_map (fun e => match e with HTook _ t' x => if Nat.eqb t' t then [x] else [] | _ => [] end) h.

Lemma fifo_step : forall me a s s', act me a s = Some s' ->
  (forall t, puts t (st_log s) = tooks t (st_log s) ++ st_queue s t) ->
  forall t, puts t (st_log s') = tooks t (st_log s') ++ st_queue s' t.
Proof.
  intros me a s s' H HI t. specialize (HI t).
  assert (HM : forall l q h, (puts t h = [] /\ tooks t h = [] /\ q t = st_queue s t
      \/ (exists x, puts t h = [x] /\ tooks t h = [] /\ q t = st_queue s t ++ [x])
      \/ (exists x, puts t h = [] /\ tooks t h = [x] /\ st_queue s t = x :: q t)) ->
    puts t (st_log (move me l s q h)) = tooks t (st_log (move me l s q h)) ++ st_queue (move me l s q h) t).
  { intros l q h HX. cbn [move st_log st_queue]. unfold puts, tooks in *. rewrite !flat_map_app, HI.
    destruct HX as [(-> & -> & ->)|[(x & -> & -> & ->)|(x & -> & -> & ->)]].
    - now rewrite !app_nil_r.
    - rewrite app_nil_r, <- !app_assoc. reflexivity.
    - rewrite app_nil_r, <- !app_assoc. reflexivity. }
  unfold act in H. destruct a as [t' x|t'| | |].
  - destruct (in_program _); [|discriminate]. destruct (Nat.eqb me t'); injection H as <-; apply HM.
    + left. repeat split; reflexivity.
    + unfold put. cbn. destruct (Nat.eqb_spec t' t) as [->|Ht].
      * right. left. exists x. rewrite Nat.eqb_refl. repeat split.
      * left. destruct (Nat.eqb_spec t t'); [congruence|]. repeat split.
  - destruct (in_program _); [|discriminate]. injection H as <-. apply HM. left. repeat split.
  - destruct (st_at s me) as [|[t'|t'|t' x] l]; try discriminate; destruct (st_queue s t') as [|x q] eqn:Hq; try discriminate;
      injection H as <-; apply HM; try (left; repeat split; reflexivity).
    unfold put. cbn. destruct (Nat.eqb_spec t' t) as [->|Ht].
    + right. right. exists x. rewrite Nat.eqb_refl. repeat split. exact Hq.
    + left. destruct (Nat.eqb_spec t t'); [congruence|]. repeat split.
  - destruct (st_at s me) as [|[t'|t'|t' x] l]; try discriminate. injection H as <-. apply HM. left. repeat split.
  - destruct (st_at s me) as [|[t'|t'|t' x] l]; try discriminate. injection H as <-. apply HM. left. repeat split.
Qed.

(** In every schedule: the calls queued for a thread are those taken out so far, in order, followed by those that wait. *)
Theorem C84_once : forall l s t, schedule l at_start = Some s -> puts t (st_log s) = tooks t (st_log s) ++ st_queue s t.
Proof.
  intros l s. assert (H : forall l s0, (forall t, puts t (st_log s0) = tooks t (st_log s0) ++ st_queue s0 t) ->
    schedule l s0 = Some s -> forall t, puts t (st_log s) = tooks t (st_log s) ++ st_queue s t).
  { clear l. induction l as [|[me a] l IH]; intros s0 H0 H; cbn [schedule] in H; [now injection H as <-|].
    destruct (act me a s0) as [s1|] eqn:HA; [|discriminate]. apply (IH s1); [|exact H]. eapply fifo_step; eauto. }
  intros t HS. revert t. now apply (H l at_start).
Qed.

Lemma back_step : forall me a s s', act me a s = Some s' -> exists h, st_log s' = st_log s ++ h
  /\ (forall m t, In (HBack m t) h -> h = [HBack m t] /\ st_queue s t = []).
Proof.
  intros me a s s' H. unfold act in H. destruct a as [t x|t| | |].
  - destruct (in_program _); [|discriminate]. destruct (Nat.eqb me t); injection H as <-; eexists; (split; [reflexivity|]);
      intros m t' [HX|[]]; discriminate.
  - destruct (in_program _); [|discriminate]. injection H as <-. eexists; (split; [reflexivity|]). intros m t' [].
  - destruct (st_at s me) as [|[t|t|t x] l]; try discriminate; destruct (st_queue s t) as [|x q] eqn:Hq; try discriminate;
      injection H as <-; eexists; (split; [reflexivity|]); intros m t' HX; destruct HX as [HX|[]] || destruct HX;
      try discriminate. injection HX as <- <-. auto.
  - destruct (st_at s me) as [|[t|t|t x] l]; try discriminate. injection H as <-. eexists; (split; [reflexivity|]). intros m t' [].
  - destruct (st_at s me) as [|[t|t|t x] l]; try discriminate. injection H as <-. eexists; (split; [reflexivity|]).
    intros m t' [HX|[]]; discriminate.
Qed.

(** When emit_queued returns, all calls queued for the thread by then have been taken out. *)
Theorem C84_emptied : forall l s me t h h', schedule l at_start = Some s -> st_log s = h ++ HBack me t :: h' ->
  puts t h = tooks t h.
Proof.
  intros l s me t. revert l s. assert (H : forall l s0 s,
    (forall t, puts t (st_log s0) = tooks t (st_log s0) ++ st_queue s0 t) ->
    (forall h h', st_log s0 = h ++ HBack me t :: h' -> puts t h = tooks t h) ->
    schedule l s0 = Some s -> forall h h', st_log s = h ++ HBack me t :: h' -> puts t h = tooks t h).
  { induction l as [|[m a] l IH]; intros s0 s H0 HB H; cbn [schedule] in H; [now injection H as <-|].
    destruct (act m a s0) as [s1|] eqn:HA; [|discriminate]. apply (IH s1); [eapply fifo_step; eauto| |exact H].
    destruct (back_step _ _ _ _ HA) as (k & HL & HK). intros h h' HE. rewrite HL in HE.
    assert (HX : (exists r, h' = r ++ k /\ st_log s0 = h ++ HBack me t :: r) \/ exists r, h = st_log s0 ++ r /\ k = r ++ HBack me t :: h').
    { clear -HE. revert h HE. induction (st_log s0) as [|e g IHg]; intros h HE.
      - right. exists h. auto.
      - destruct h as [|e' h]; cbn in HE; injection HE as -> HE.
        + left. exists g. split; [now rewrite HE|reflexivity].
        + destruct (IHg h HE) as [(r & -> & ->)|(r & -> & ->)]; [left; exists r|right; exists r]; auto. }
    destruct HX as [(r & _ & HX)|(r & -> & ->)]; [eapply HB; eauto|].
    destruct (HK me t) as [HK1 HK2]; [apply in_or_app; right; now left|].
    assert (HR : r = []) by (destruct r as [|? [|? ?]]; [reflexivity|discriminate|discriminate]). subst r.
    rewrite app_nil_r, H0, HK2. apply app_nil_r. }
  intros l s h h' HS. apply (H l at_start s); auto. intros g g' HE. destruct g; discriminate.
Qed.

(** [me] waits for a call to be queued. *)
Definition waits (me : nat) (s : state) : Prop := exists t l, st_at s me = Taking t :: l /\ st_queue s t = [].
(** The queue of [t] is emptied by thread [owner t] only. *)
Definition separate (owner : nat -> nat) (l : list (nat * action)) : Prop :=
  forall me t, In (me, ADrain t) l -> owner t = me.
Definition queue_of (p : place) : nat := match p with Testing t | Taking t | Inside t _ => t end.
Definition inside (p : place) : Prop := match p with Inside _ _ => True | _ => False end.

(** If no two threads empty the same queue (in particular, if emit_queued is called without argument), emit_queued
    never waits. *)
Theorem C84_waits_partial : forall owner l s me, separate owner l -> schedule l at_start = Some s -> ~ waits me s.
Proof.
  intros owner l s me0 HO HS.
  set (good := fun (me : nat) (l : list place) => (forall p, In p l -> owner (queue_of p) = me) /\ Forall inside (tl l)).
  set (ready := fun s : state => forall me t k, st_at s me = Taking t :: k -> st_queue s t <> []).
  assert (H : forall l s0, separate owner l -> (forall me, good me (st_at s0 me)) -> ready s0 -> schedule l s0 = Some s -> ready s).
  { clear l HO HS. induction l as [|[me a] l IH]; intros s0 HO HG HR HS; cbn [schedule] in HS; [now injection HS as <-|].
    destruct (act me a s0) as [s1|] eqn:HA; [|discriminate].
    assert (HO1 : separate owner l) by (intros m t Hin; apply HO; now right).
    assert (HX : exists k q h, s1 = move me k s0 q h /\ good me k
      /\ (forall t r, k = Taking t :: r -> q t <> [])
      /\ (forall t, owner t <> me -> st_queue s0 t <> [] -> q t <> [])).
    { unfold act in HA. destruct (HG me) as [G1 G2].
      assert (GP : forall p k, st_at s0 me = p :: k -> forall p', queue_of p' = queue_of p -> good me (p' :: k)).
      { intros p k HK p' Hp'. rewrite HK in G1, G2. split; [|exact G2].
        intros x [<-|Hx]; [rewrite Hp'; apply G1; now left|apply G1; now right]. }
      assert (GT : forall p k, st_at s0 me = p :: k -> good me k /\ forall t r, k <> Taking t :: r).
      { intros p k HK. rewrite HK in G1, G2. cbn [tl] in G2. split.
        - split; [intros x Hx; apply G1; now right|]. destruct k; [exact G2|now inversion G2].
        - intros t r ->. inversion G2 as [|? ? HF]. exact HF. }
      destruct a as [t x|t| | |].
      - destruct (in_program (st_at s0 me)) eqn:HP; [|discriminate].
        assert (HT : forall t' r, st_at s0 me = Taking t' :: r -> False) by (intros t' r HE; rewrite HE in HP; discriminate).
        destruct (Nat.eqb me t); injection HA as <-; eexists _, _, _; (split; [reflexivity|]); (split; [now split|]); split; auto.
        + intros t' r HE. now apply HT in HE.
        + intros t' r HE. now apply HT in HE.
        + intros t' _ HN. unfold put. destruct (Nat.eqb_spec t' t) as [->|_]; [|exact HN].
          intros HF. now apply app_eq_nil in HF.
      - destruct (in_program (st_at s0 me)) eqn:HP; [|discriminate]. injection HA as <-.
        eexists _, _, _; (split; [reflexivity|]). split; [|split; [discriminate|auto]]. split.
        + intros p [<-|Hin]; [|now apply G1]. apply HO. now left.
        + cbn [tl]. destruct (st_at s0 me) as [|[t'|t'|t' x] k]; try discriminate HP; constructor; [exact I|exact G2].
      - destruct (st_at s0 me) as [|[t|t|t x] k] eqn:HK; try discriminate.
        + destruct (st_queue s0 t) as [|x q] eqn:Hq; injection HA as <-; eexists _, _, _; (split; [reflexivity|]).
          * destruct (GT _ _ eq_refl) as [A B]. split; [exact A|]. split; [|auto]. intros t' r HE. now apply B in HE.
          * split; [apply (GP _ _ eq_refl); reflexivity|]. split; [|auto]. intros t' r HE. injection HE as -> _. congruence.
        + destruct (st_queue s0 t) as [|x q] eqn:Hq; [discriminate|]. injection HA as <-. eexists _, _, _; (split; [reflexivity|]).
          split; [apply (GP _ _ eq_refl); reflexivity|].
          split; [discriminate|]. intros t' Ht HN. unfold put. destruct (Nat.eqb_spec t' t) as [->|_]; [|exact HN].
          exfalso. apply Ht. apply (G1 (Taking t)). now left.
      - destruct (st_at s0 me) as [|[t|t|t x] k] eqn:HK; try discriminate. injection HA as <-. eexists _, _, _; (split; [reflexivity|]).
        split; [apply (GP _ _ eq_refl); reflexivity|]. split; [discriminate|auto].
      - destruct (st_at s0 me) as [|[t|t|t x] k] eqn:HK; try discriminate. injection HA as <-. eexists _, _, _; (split; [reflexivity|]).
        destruct (GT _ _ eq_refl) as [A B]. split; [exact A|]. split; [|auto]. intros t' r HE. now apply B in HE. }
    destruct HX as (k & q & h & -> & HK & HT & HQ). eapply IH; [exact HO1| | |exact HS].
    - intros m. cbn [move st_at]. destruct (Nat.eqb_spec m me) as [->|_]; [exact HK|apply HG].
    - intros m t r. cbn [move st_at st_queue]. destruct (Nat.eqb_spec m me) as [->|Hm]; [apply HT|].
      intros HE. apply HQ; [|now apply (HR m t r)].
      destruct (HG m) as [G1 _]. rewrite HE in G1. specialize (G1 (Taking t) (or_introl eq_refl)). cbn in G1. congruence. }
  intros (t & k & HA & HQ). apply (H l at_start HO) in HS; [now apply (HS me0 t k)| |].
  - intros me. split; [intros p []|constructor].
  - intros me t' k' HE. discriminate.
Qed.

(** Two threads emit for the others; each empties its own queue, thread 1 from inside a callback once more. *)
Definition C84_schedule : list (nat * action) :=
  [(1, AEmit 2 7); (2, AEmit 1 8); (3, AEmit 1 9); (1, ADrain 1); (2, ADrain 2); (1, AStep); (1, AStep); (1, ADrain 1);
   (2, AStep); (1, AStep); (3, AEmit 2 5); (1, AStep); (2, AStep); (1, AReturn); (1, AStep); (1, AReturn); (1, AStep); (2, ARaise)].
Example C84_case :
  separate (fun t => t) C84_schedule
  /\ match schedule C84_schedule at_start with
     | Some s => puts 1 (st_log s) = [8; 9] /\ tooks 1 (st_log s) = [8; 9] /\ st_at s 1 = []
                 /\ tooks 2 (st_log s) = [7] /\ st_queue s 2 = [5]
                 /\ st_log s = firstn 7 (st_log s) ++ HBack 1 1 :: skipn 8 (st_log s)
     | None => False
     end.
Proof.
  split.
  - intros me t Hin. cbn in Hin. repeat (destruct Hin as [Hin|Hin]; [discriminate || (injection Hin as <- <-; reflexivity)|]). contradiction.
  - vm_compute. repeat split.
Qed.

(** [me] waits whatever the other threads do, unless one of them emits for the thread whose queue it empties. *)
Definition waits_on (me : nat) (s : state) : Prop :=
  waits me s /\ forall l s', (forall m t x, ~ In (m, AEmit t x) l) -> schedule l s = Some s' -> waits me s'.

Lemma wait_on : forall me t k, forall l s s', (forall m t x, ~ In (m, AEmit t x) l) ->
  st_at s me = Taking t :: k -> st_queue s t = [] -> schedule l s = Some s' -> waits me s'.
Proof.
  intros me t k. induction l as [|[m a] l IH]; intros s s' HN HA HQ HS; cbn [schedule] in HS.
  { injection HS as <-. exists t, k. auto. }
  destruct (act m a s) as [s1|] eqn:HX; [|discriminate]. eapply (IH s1); [|..|exact HS].
  { intros m' t' x' Hin. apply (HN m' t' x'). now right. }
  - unfold act in HX. destruct (Nat.eqb_spec me m) as [<-|Hm].
    + rewrite HA in HX. destruct a; cbn [in_program] in HX; try discriminate. rewrite HQ in HX. discriminate.
    + assert (HM : forall r q h, st_at (move m r s q h) me = st_at s me).
      { intros r q h. cbn [move st_at]. destruct (Nat.eqb_spec me m); [congruence|reflexivity]. }
      destruct a as [t' x| t'| | |]; [exfalso; apply (HN m t' x); now left|..].
      * destruct (in_program _); [|discriminate]. injection HX as <-. now rewrite HM.
      * destruct (st_at s m) as [|[t'|t'|t' x] r]; try discriminate; destruct (st_queue s t'); try discriminate; injection HX as <-; now rewrite HM.
      * destruct (st_at s m) as [|[t'|t'|t' x] r]; try discriminate; injection HX as <-; now rewrite HM.
      * destruct (st_at s m) as [|[t'|t'|t' x] r]; try discriminate; injection HX as <-; now rewrite HM.
  - unfold act in HX. destruct a as [t' x| t'| | |]; [exfalso; apply (HN m t' x); now left|..].
    + destruct (in_program _); [|discriminate]. now injection HX as <-.
    + destruct (st_at s m) as [|[t'|t'|t' x] r]; try discriminate; destruct (st_queue s t') as [|y q] eqn:Hq; try discriminate;
        injection HX as <-; try exact HQ. cbn [move st_queue]. unfold put. destruct (Nat.eqb_spec t t'); [congruence|exact HQ].
    + destruct (st_at s m) as [|[t'|t'|t' x] r]; try discriminate; now injection HX as <-.
    + destruct (st_at s m) as [|[t'|t'|t' x] r]; try discriminate; now injection HX as <-.
Qed.

(** Two threads that call emit_queued for the same thread: one of them can wait for ever, although all calls have
    been made. *)
Theorem C84_waits_refuted : exists l s,
  schedule l at_start = Some s /\ puts 1 (st_log s) = [7] /\ tooks 1 (st_log s) = [7]
  /\ (forall me, me <> 2 -> st_at s me = []) /\ waits_on 2 s.
Proof.
  exists [(3, AEmit 1 7); (1, ADrain 1); (2, ADrain 1); (1, AStep); (2, AStep); (1, AStep); (1, AReturn); (1, AStep)].
  eexists. split; [reflexivity|]. split; [reflexivity|]. split; [reflexivity|]. split.
  - intros me Hm. cbn. destruct me as [|[|[|[|me]]]]; try reflexivity; congruence.
  - split; [exists 1, []; split; reflexivity|]. intros l s' HN HS. eapply (wait_on 2 1 []); eauto; reflexivity.
Qed.
Print Assumptions C84_once.
Print Assumptions C84_emptied.
Print Assumptions C84_waits_partial.
Print Assumptions C84_waits_refuted.
