(** Invariants of signals used from several threads.  Proof infrastructure. *)

From Coq Require Import List ZArith Bool Lia.
From Verif Require Import Threads.
Import ListNotations.
Open Scope Z_scope.

Section Facts.
Context {A : Type} (c : setting).
Implicit Types (s : state A) (f : frame A) (fs : list (frame A)).

(** How many emissions of [g] are running in thread [th], by the log. *)
Definition running (th g : nat) (l : list (event A)) : nat :=
  fold_left (fun n e => match e with
                        | Began t h _ => if Nat.eqb t th && Nat.eqb h g then S n else n
                        | Ended t h => if Nat.eqb t th && Nat.eqb h g then Nat.pred n else n
                        | _ => n
                        end) l 0%nat.
Lemma running_app : forall th g l e, running th g (l ++ [e]) =
  match e with
  | Began t h _ => if Nat.eqb t th && Nat.eqb h g then S (running th g l) else running th g l
  | Ended t h => if Nat.eqb t th && Nat.eqb h g then Nat.pred (running th g l) else running th g l
  | _ => running th g l
  end.
Proof. intros. unfold running. rewrite fold_left_app. now destruct e. Qed.

Definition holding (p : pc A) : bool := match p with Check | Acquire => false | _ => true end.
Definition active (p : pc A) : bool := match p with Check | Acquire | Append | Release => false | _ => true end.
Definition holds (g : nat) f : bool :=
  match f with InEmit h _ p => Nat.eqb h g && holding p | InEdit h _ true => Nat.eqb h g | _ => false end.
Definition runs (g : nat) f : bool := match f with InEmit h _ p => Nat.eqb h g && active p | _ => false end.
Definition cnt (P : frame A -> bool) fs : nat := length (filter P fs).
Lemma cnt_cons : forall P f fs, cnt P (f :: fs) = ((if P f then 1 else 0) + cnt P fs)%nat.
Proof. intros. unfold cnt. cbn. now destruct (P f). Qed.

Definition owned (l : option (nat * nat)) (th : nat) : nat :=
  match l with Some (o, n) => if Nat.eqb o th then n else 0 | None => 0 end.
Definition wf (l : option (nat * nat)) : Prop := match l with Some (_, O) => False | _ => True end.
Lemma acquire_owned : forall th l l', wf l -> acquire th l = Some l' ->
  wf l' /\ (forall t, owned l' t = if Nat.eqb t th then S (owned l t) else owned l t)
  /\ forall t, t <> th -> owned l t = 0%nat.
Proof.
  intros th [[o n]|] l' HW H; cbn in H.
  - destruct (Nat.eqb_spec o th) as [->|]; [|discriminate]. injection H as <-. split; [exact I|]. split; intros t; cbn.
    + rewrite (Nat.eqb_sym t th). now destruct (Nat.eqb th t).
    + intros Ht. destruct (Nat.eqb_spec th t); congruence.
  - injection H as <-. split; [exact I|]. split; intros t; cbn; auto.
    rewrite (Nat.eqb_sym t th). reflexivity.
Qed.
Lemma release_owned : forall th l, wf l -> (0 < owned l th)%nat ->
  wf (release l) /\ (forall t, owned (release l) t = if Nat.eqb t th then Nat.pred (owned l t) else owned l t).
Proof.
  intros th [[o n]|] HW H; cbn in *; [|lia]. destruct (Nat.eqb_spec o th) as [->|]; [|lia].
  destruct n as [|[|n]]; [lia| |]; (split; [exact Logic.I|]); intros t; cbn;
    rewrite (Nat.eqb_sym t th); destruct (Nat.eqb th t); reflexivity.
Qed.
Lemma owner_unique : forall l t1 t2, (0 < owned l t1)%nat -> (0 < owned l t2)%nat -> t1 = t2.
Proof.
  intros [[o n]|] t1 t2; cbn; [|lia].
  destruct (Nat.eqb_spec o t1), (Nat.eqb_spec o t2); lia.
Qed.

(** What has to be true when something is logged. *)
Definition rightful (l : list (event A)) (e : event A) : Prop :=
  match e with
  | Called th g _ _ | Changed th g _ => forall t, t <> th -> running t g l = 0%nat
  | Joined th g => (0 < running th g l)%nat
  | _ => True
  end.
Definition good (l : list (event A)) : Prop := forall l1 e l2, l = l1 ++ e :: l2 -> rightful l1 e.
Lemma good_app : forall l e, good l -> rightful l e -> good (l ++ [e]).
Proof.
  intros l e H He l1 e1 l2 E. destruct l2 as [|x l2 _] using rev_ind.
  - apply app_inj_tail in E as [<- <-]. exact He.
  - rewrite app_comm_cons, app_assoc in E. apply app_inj_tail in E as [E _]. eapply H; eauto.
Qed.

Record inv s : Prop := {
  i_wf : forall g, wf (g_lock (st_sig s g));
  i_lock : forall g t, cnt (holds g) (st_stk s t) = owned (g_lock (st_sig s g)) t;
  i_run : forall g t, running t g (st_log s) = cnt (runs g) (st_stk s t);
  i_queue : forall g, g_queue (st_sig s g) = [] \/ exists t, (0 < cnt (runs g) (st_stk s t))%nat;
  i_log : good (st_log s)
}.
Lemma init_inv : inv init.
Proof.
  split; cbn; auto. intros l1 e l2 H. destruct l1; discriminate.
Qed.
Lemma runs_holds : forall g fs, (cnt (runs g) fs <= cnt (holds g) fs)%nat.
Proof.
  intros g fs. induction fs as [|f fs IH]; [auto|]. rewrite !cnt_cons.
  destruct f as [h a p|h a k b|h e b|x]; cbn; try lia.
  destruct (Nat.eqb h g); cbn; [destruct p; cbn; lia|lia].
Qed.
(** A thread that owns the lock is the only one that runs an emission. *)
Lemma others_not : forall s g th, inv s -> (0 < cnt (holds g) (st_stk s th))%nat ->
  forall t, t <> th -> cnt (runs g) (st_stk s t) = 0%nat.
Proof.
  intros s g th [I1 I2 I3 I4 I5] H t Ht. pose proof (runs_holds g (st_stk s t)) as K.
  destruct (Nat.eq_dec (cnt (runs g) (st_stk s t)) 0) as [|N]; [auto|]. exfalso. apply Ht.
  apply (owner_unique (g_lock (st_sig s g))); rewrite <- I2; lia.
Qed.

(** A step of thread [th] from stack [fs] to [fs'] that changes signal [g] from [x] to [y] and logs [es]. *)
Lemma one_inv : forall s s' th g y es,
  inv s ->
  (forall t, t <> th -> st_stk s' t = st_stk s t) ->
  (forall h, h <> g -> st_sig s' h = st_sig s h) -> st_sig s' g = y ->
  wf (g_lock y) ->
  (forall h, cnt (holds h) (st_stk s' th) = owned (g_lock (st_sig s' h)) th) ->
  (forall t, t <> th -> owned (g_lock y) t = owned (g_lock (st_sig s g)) t) ->
  st_log s' = st_log s ++ es ->
  (forall h t, running t h (st_log s ++ es) = if Nat.eqb t th then cnt (runs h) (st_stk s' th) else running t h (st_log s)) ->
  good (st_log s ++ es) ->
  (forall h, (0 < cnt (runs h) (st_stk s th))%nat -> (0 < cnt (runs h) (st_stk s' th))%nat \/ g_queue (st_sig s' h) = []) ->
  (g_queue y = g_queue (st_sig s g) \/ g_queue y = [] \/ (0 < cnt (runs g) (st_stk s' th))%nat) ->
  inv s'.
Proof.
  intros s s' th g y es [I1 I2 I3 I4 I5] HS HG Hy HW HC HO HL HR HGo HQ HQ'. split.
  - intros h. destruct (Nat.eq_dec h g) as [->|N]; [rewrite Hy; exact HW|rewrite HG by exact N; auto].
  - intros h t. destruct (Nat.eq_dec t th) as [->|N]; [apply HC|]. rewrite HS by exact N. rewrite I2.
    destruct (Nat.eq_dec h g) as [->|N']; [rewrite Hy; symmetry; now apply HO|now rewrite HG by exact N'].
  - intros h t. rewrite HL, HR. destruct (Nat.eqb_spec t th) as [->|N]; [reflexivity|]. rewrite HS by exact N. apply I3.
  - assert (K : forall h, g_queue (st_sig s' h) = g_queue (st_sig s h) ->
      g_queue (st_sig s' h) = [] \/ exists t, (0 < cnt (runs h) (st_stk s' t))%nat).
    { intros h E. destruct (I4 h) as [Q|(t & Q)]; [left; congruence|].
      destruct (Nat.eq_dec t th) as [->|N].
      - destruct (HQ h Q) as [Q'|Q']; [right; exists th; exact Q'|left; exact Q'].
      - right. exists t. rewrite HS by exact N. exact Q. }
    intros h. destruct (Nat.eq_dec h g) as [->|N].
    + rewrite Hy in *. destruct HQ' as [Q|[Q|Q]]; [|auto|right; eauto]. rewrite <- Hy. apply K. rewrite Hy. exact Q.
    + apply K. rewrite HG by exact N. reflexivity.
  - rewrite HL. exact HGo.
Qed.

Lemma stk_same : forall th fs s, st_stk (set_stk th fs s) th = fs.
Proof. intros. cbn. now rewrite Nat.eqb_refl. Qed.
Lemma stk_other : forall th fs s t, t <> th -> st_stk (set_stk th fs s) t = st_stk s t.
Proof. intros. cbn. destruct (Nat.eqb_spec t th); congruence. Qed.
Lemma sig_same : forall g x s, st_sig (set_sig g x s) g = x.
Proof. intros. cbn. now rewrite Nat.eqb_refl. Qed.
Lemma sig_other : forall g x s h, h <> g -> st_sig (set_sig g x s) h = st_sig s h.
Proof. intros. cbn. destruct (Nat.eqb_spec h g); congruence. Qed.

(** The same with nothing about the lock. *)
Lemma quiet_inv : forall s th g y fs es,
  inv s ->
  g_lock y = g_lock (st_sig s g) ->
  (forall h, cnt (holds h) fs = cnt (holds h) (st_stk s th)) ->
  (forall h t, running t h (st_log s ++ es) = if Nat.eqb t th then cnt (runs h) fs else running t h (st_log s)) ->
  good (st_log s ++ es) ->
  (forall h, (0 < cnt (runs h) (st_stk s th))%nat -> (0 < cnt (runs h) fs)%nat \/ (h = g /\ g_queue y = [])) ->
  (g_queue y = g_queue (st_sig s g) \/ g_queue y = [] \/ (0 < cnt (runs g) fs)%nat) ->
  forall s', (forall t, st_stk s' t = if Nat.eqb t th then fs else st_stk s t) ->
    (forall h, st_sig s' h = if Nat.eqb h g then y else st_sig s h) -> st_log s' = st_log s ++ es -> inv s'.
Proof.
  intros s th g y fs es HI HL HH HR HG HQ HQ' s' E1 E2 E3. pose proof HI as [I1 I2 I3 I4 I5].
  assert (Hth : st_stk s' th = fs) by (rewrite E1, Nat.eqb_refl; reflexivity).
  apply (one_inv s s' th g y es); auto.
  - intros t Ht. rewrite E1. destruct (Nat.eqb_spec t th); congruence.
  - intros h Hh. rewrite E2. destruct (Nat.eqb_spec h g); congruence.
  - rewrite E2, Nat.eqb_refl. reflexivity.
  - rewrite HL. auto.
  - intros h. rewrite Hth, HH, I2, E2. destruct (Nat.eqb_spec h g) as [->|]; [now rewrite HL|reflexivity].
  - intros t _. now rewrite HL.
  - intros h t. rewrite HR, Hth. reflexivity.
  - intros h Hh. rewrite Hth. destruct (HQ h Hh) as [K|[-> K]]; [auto|right]. rewrite E2, Nat.eqb_refl. exact K.
  - rewrite Hth. exact HQ'.
Qed.
(** An event that does not begin or end anything. *)
Definition plain_event (e : event A) : Prop := match e with Began _ _ _ | Ended _ _ => False | _ => True end.
(** The same number of locks held and emissions running. *)
Lemma plain_inv : forall s th g y fs es,
  inv s ->
  g_lock y = g_lock (st_sig s g) ->
  (forall h, cnt (holds h) fs = cnt (holds h) (st_stk s th)) ->
  (forall h, cnt (runs h) fs = cnt (runs h) (st_stk s th)) ->
  (es = [] \/ exists e, es = [e] /\ plain_event e /\ rightful (st_log s) e) ->
  (g_queue y = g_queue (st_sig s g) \/ g_queue y = [] \/ (0 < cnt (runs g) fs)%nat) ->
  forall s', (forall t, st_stk s' t = if Nat.eqb t th then fs else st_stk s t) ->
    (forall h, st_sig s' h = if Nat.eqb h g then y else st_sig s h) -> st_log s' = st_log s ++ es -> inv s'.
Proof.
  intros s th g y fs es HI HL HH HR HE HQ s' E1 E2 E3. pose proof HI as [I1 I2 I3 I4 I5].
  apply (quiet_inv s th g y fs es); auto.
  - intros h t. assert (K : running t h (st_log s ++ es) = running t h (st_log s)).
    { destruct HE as [-> | (e & -> & He & _)]; [now rewrite app_nil_r|]. rewrite running_app. destruct e; try reflexivity; destruct He. }
    rewrite K. destruct (Nat.eqb_spec t th) as [->|]; [|reflexivity]. now rewrite HR.
  - destruct HE as [-> | (e & -> & _ & He)]; [now rewrite app_nil_r|now apply good_app].
  - intros h Hh. left. now rewrite HR.
Qed.
Lemma same_sig : forall s g h, st_sig s h = if Nat.eqb h g then st_sig s g else st_sig s h.
Proof. intros. now destruct (Nat.eqb_spec h g) as [->|]. Qed.

Ltac fin := first [reflexivity | solve [intros ?; reflexivity] | solve [intros ?; cbn; apply same_sig] | cbn; now rewrite app_nil_r].
Ltac count0 := intros ?h; rewrite ?cnt_cons; cbn [holds runs holding active]; rewrite ?andb_true_r, ?andb_false_r; try reflexivity.
Ltac count H := intros ?h; rewrite ?H, ?cnt_cons; cbn [holds runs holding active]; rewrite ?andb_true_r, ?andb_false_r; try reflexivity.
Lemma acquire_inv : forall s th g l f f' r,
  inv s -> st_stk s th = f :: r -> acquire th (g_lock (st_sig s g)) = Some l ->
  (forall h, holds h f = false) -> (forall h, holds h f' = Nat.eqb g h) ->
  (forall h, runs h f = false) -> (forall h, runs h f' = false) ->
  inv (set_stk th (f' :: r) (set_sig g (set_lock l (st_sig s g)) s)).
Proof.
  intros s th g l f f' r HI Hm Ha H1 H2 H3 H4. pose proof HI as [I1 I2 I3 I4 I5].
  destruct (acquire_owned th _ l (I1 g) Ha) as (W & O1 & O2).
  eapply (one_inv s _ th g (set_lock l (st_sig s g)) []); auto.
  - intros t Ht. exact (stk_other th (f' :: r) (set_sig g (set_lock l (st_sig s g)) s) t Ht).
  - intros h Hh. exact (sig_other g _ s h Hh).
  - exact (sig_same g _ s).
  - intros h. rewrite stk_same, cnt_cons, H2. specialize (I2 h th). rewrite Hm, cnt_cons, H1 in I2. cbn in I2. cbn [st_sig set_stk].
    destruct (Nat.eqb_spec g h) as [<-|N].
    + rewrite sig_same. cbn [g_lock set_lock]. rewrite O1, Nat.eqb_refl, I2. reflexivity.
    + rewrite sig_other by congruence. exact I2.
  - intros t Ht. cbn [g_lock set_lock]. rewrite O1. destruct (Nat.eqb_spec t th); congruence.
  - cbn. now rewrite app_nil_r.
  - intros h t. rewrite app_nil_r, stk_same. destruct (Nat.eqb_spec t th) as [->|]; [|reflexivity].
    rewrite I3, Hm, !cnt_cons, H3, H4. reflexivity.
  - now rewrite app_nil_r.
  - intros h Hh. left. rewrite stk_same. rewrite Hm, cnt_cons, H3 in Hh. now rewrite cnt_cons, H4.
Qed.
Lemma release_inv : forall s s' th g y es f r,
  inv s -> st_stk s th = f :: r ->
  (forall h, holds h f = Nat.eqb g h) -> (forall h, runs h f = false) ->
  g_lock y = release (g_lock (st_sig s g)) -> g_queue y = g_queue (st_sig s g) ->
  (es = [] \/ exists e, es = [e] /\ plain_event e /\ rightful (st_log s) e) ->
  (forall t, st_stk s' t = if Nat.eqb t th then r else st_stk s t) ->
  (forall h, st_sig s' h = if Nat.eqb h g then y else st_sig s h) -> st_log s' = st_log s ++ es -> inv s'.
Proof.
  intros s s' th g y es f r HI Hm H1 H2 HL HQ HE E1 E2 E3. pose proof HI as [I1 I2 I3 I4 I5].
  assert (Ho : (0 < owned (g_lock (st_sig s g)) th)%nat).
  { rewrite <- I2, Hm, cnt_cons, H1, Nat.eqb_refl. lia. }
  destruct (release_owned th _ (I1 g) Ho) as (W & O1).
  assert (Hth : st_stk s' th = r) by (rewrite E1, Nat.eqb_refl; reflexivity).
  apply (one_inv s s' th g y es); auto.
  - intros t Ht. rewrite E1. destruct (Nat.eqb_spec t th); congruence.
  - intros h Hh. rewrite E2. destruct (Nat.eqb_spec h g); congruence.
  - rewrite E2, Nat.eqb_refl. reflexivity.
  - now rewrite HL.
  - intros h. rewrite Hth. specialize (I2 h th). rewrite Hm, cnt_cons, H1 in I2. rewrite E2.
    destruct (Nat.eqb_spec g h) as [E|N].
    + rewrite <- E in *. rewrite Nat.eqb_refl, HL, O1, Nat.eqb_refl. lia.
    + destruct (Nat.eqb_spec h g); [congruence|]. exact I2.
  - intros t Ht. rewrite HL, O1. destruct (Nat.eqb_spec t th); congruence.
  - intros h t. assert (K : running t h (st_log s ++ es) = running t h (st_log s)).
    { destruct HE as [-> | (e & -> & He & _)]; [now rewrite app_nil_r|]. rewrite running_app. destruct e; try reflexivity; destruct He. }
    rewrite K, Hth. destruct (Nat.eqb_spec t th) as [->|]; [|reflexivity]. rewrite I3, Hm, cnt_cons, H2. reflexivity.
  - destruct HE as [-> | (e & -> & _ & He)]; [now rewrite app_nil_r|now apply good_app].
  - intros h Hh. left. rewrite Hth. rewrite Hm, cnt_cons, H2 in Hh. exact Hh.
Qed.
Lemma emit_inv : forall s s' th g a p r, inv s -> st_stk s th = InEmit g a p :: r ->
  emit_step c th g a p r s = Some s' -> inv s'.
Proof.
  intros s s' th g a p r HI Hm H. pose proof HI as [I1 I2 I3 I4 I5].
  assert (HN : holding p = true -> forall t, t <> th -> running t g (st_log s) = 0%nat).
  { intros Hp t Ht. rewrite I3. apply (others_not s g th); auto. rewrite Hm, cnt_cons. cbn [holds]. rewrite Nat.eqb_refl, Hp. cbn. lia. }
  assert (HA : forall p', active p' = true -> (0 < cnt (runs g) (InEmit g a p' :: r))%nat).
  { intros p' Hp'. rewrite cnt_cons. cbn [runs]. rewrite Nat.eqb_refl, Hp'. cbn. lia. }
  destruct p; cbn [emit_step] in H.
  - (* Check *) injection H as <-. destruct (_ >=? _).
    + eapply (plain_inv s th g (st_sig s g) r [Refused th g]); [exact HI|reflexivity|count Hm|count Hm| |auto|fin..].
      right. exists (Refused th g). repeat split.
    + eapply (plain_inv s th g (st_sig s g) (InEmit g a Acquire :: r) []); [exact HI|reflexivity|count Hm|count Hm|auto|auto|fin..].
  - (* Acquire *) destruct (acquire _ _) as [l|] eqn:Ha; [|discriminate]. injection H as <-.
    eapply acquire_inv; eauto; intros h; cbn; now rewrite ?andb_true_r, ?andb_false_r.
  - (* Append *) injection H as <-. destruct (g_queue (st_sig s g)) as [|b q] eqn:Eq.
    + eapply (quiet_inv s th g (set_queue ([] ++ [a]) (st_sig s g)) (InEmit g a Depth :: r) [Began th g a]);
        [exact HI|reflexivity|count Hm| | | | |fin..].
      * intros h t. rewrite running_app, (Nat.eqb_sym th t), I3. destruct (Nat.eqb_spec t th) as [->|]; [|reflexivity].
        rewrite Hm, !cnt_cons. cbn. rewrite andb_true_r, andb_false_r. now destruct (Nat.eqb g h).
      * apply good_app; [exact I5|exact Logic.I].
      * intros h Hh. left. rewrite Hm, cnt_cons in Hh. cbn in Hh. rewrite andb_false_r in Hh. rewrite cnt_cons. lia.
      * right. right. now apply HA.
    + assert (HR : (0 < cnt (runs g) r)%nat).
      { destruct (I4 g) as [K|(t & K)]; [congruence|]. destruct (Nat.eq_dec t th) as [->|N].
        - rewrite Hm, cnt_cons in K. cbn in K. now rewrite andb_false_r in K.
        - rewrite <- I3, HN in K by auto. lia. }
      eapply (plain_inv s th g (set_queue ((b :: q) ++ [a]) (st_sig s g)) (InEmit g a Release :: r) [Joined th g]);
        [exact HI|reflexivity|count Hm|count Hm| | |fin..].
      * right. exists (Joined th g). repeat split. cbn [rightful]. rewrite I3, Hm, cnt_cons. lia.
      * right. right. rewrite cnt_cons. lia.
  - (* Depth *) injection H as <-.
    eapply (plain_inv s th g _ (InEmit g a Save :: r) []); [exact HI| |count Hm|count Hm|auto| |fin..]; cbn; auto.
  - (* Save *) injection H as <-.
    eapply (plain_inv s th g (st_sig s g) (InEmit g a (Enter _) :: r) []); [exact HI|reflexivity|count Hm|count Hm|auto|auto|fin..].
  - (* Enter *) injection H as <-.
    eapply (plain_inv s th g (st_sig s g) (InEmit g a (Loop _ _) :: r) []); [exact HI|reflexivity|count Hm|count Hm|auto|auto|fin..].
  - (* Loop *)
    assert (HP : forall p', active p' = true -> holding p' = true -> inv (set_stk th (InEmit g a p' :: r) s)).
    { intros p' E1 E2. eapply (plain_inv s th g (st_sig s g) (InEmit g a p' :: r) []); [exact HI|reflexivity| | |auto|auto|fin..];
        intros h; rewrite Hm, !cnt_cons; cbn [holds runs]; rewrite ?E1, ?E2; reflexivity. }
    assert (HQ : forall b q, inv (set_stk th (InEmit g a (For prev i b 0) :: r) (set_sig g (set_queue q (st_sig s g)) s))).
    { intros b q. eapply (plain_inv s th g (set_queue q (st_sig s g)) (InEmit g a (For prev i b 0) :: r) []);
        [exact HI|reflexivity|count Hm|count Hm|auto| |fin..]. right. right. now apply HA. }
    destruct (m_mode c g); injection H as <-.
    + destruct (g_queue (st_sig s g)); auto.
    + destruct (nth_error _ _); auto.
    + destruct (g_queue (st_sig s g)); auto.
  - (* For *)
    assert (HP : forall p', active p' = true -> holding p' = true -> inv (set_stk th (InEmit g a p' :: r) s)).
    { intros p' E1 E2. eapply (plain_inv s th g (st_sig s g) (InEmit g a p' :: r) []); [exact HI|reflexivity| | |auto|auto|fin..];
        intros h; rewrite Hm, !cnt_cons; cbn [holds runs]; rewrite ?E1, ?E2; reflexivity. }
    assert (HC : forall y, inv (set_stk th (InCallback y :: InEmit g a (Back prev i a0 k) :: r) (say (Called th g y a0) s))).
    { intros y. eapply (plain_inv s th g (st_sig s g) (InCallback y :: InEmit g a (Back prev i a0 k) :: r) [Called th g y a0]);
        [exact HI|reflexivity|count Hm|count Hm| |auto|fin..].
      right. exists (Called th g y a0). repeat split. cbn [rightful]. auto. }
    injection H as <-. destruct (nth_error _ _); [|destruct (m_mode c g); auto].
    destruct (m_mode c g); auto. destruct (_ <? _); auto.
  - (* Back *)
    assert (HP : forall p', active p' = true -> holding p' = true -> inv (set_stk th (InEmit g a p' :: r) s)).
    { intros p' E1 E2. eapply (plain_inv s th g (st_sig s g) (InEmit g a p' :: r) []); [exact HI|reflexivity| | |auto|auto|fin..];
        intros h; rewrite Hm, !cnt_cons; cbn [holds runs]; rewrite ?E1, ?E2; reflexivity. }
    injection H as <-. destruct (m_mode c g); auto. destruct (_ >? _); auto.
  - (* Restore *) injection H as <-.
    eapply (plain_inv s th g (st_sig s g) (InEmit g a Finish :: r) []); [exact HI|reflexivity|count Hm|count Hm|auto|auto|fin..].
  - (* Finish *) injection H as <-.
    eapply (quiet_inv s th g (set_queue [] _) (InEmit g a Release :: r) [Ended th g]);
        [exact HI| |count Hm| | | | |fin..].
    + now destruct (_ <=? _).
    + intros h t. rewrite running_app, (Nat.eqb_sym th t), I3. destruct (Nat.eqb_spec t th) as [->|]; [|reflexivity].
      rewrite Hm, !cnt_cons. cbn. rewrite andb_true_r, andb_false_r. now destruct (Nat.eqb g h).
    + apply good_app; [exact I5|exact Logic.I].
    + intros h Hh. rewrite Hm, cnt_cons in Hh. cbn in Hh. rewrite andb_true_r in Hh.
      rewrite cnt_cons. cbn. rewrite andb_false_r. destruct (Nat.eqb_spec g h) as [->|]; [auto|left; exact Hh].
    + auto.
  - (* Release *) injection H as <-.
    eapply (release_inv s _ th g _ []); [exact HI|exact Hm|intros h; cbn; now rewrite andb_true_r|intros h; cbn; now rewrite andb_false_r
      | | |auto|fin..]; reflexivity.
Qed.
Lemma step_inv : forall b s s', step c b s s' -> inv s -> inv s'.
Proof.
  intros b s s' H HI. pose proof HI as [I1 I2 I3 I4 I5]. destruct H.
  - eapply (plain_inv s th g (st_sig s g) (InEmit g a Check :: st_stk s th) []); [exact HI|reflexivity|count0|count0|auto|auto|fin..].
  - subst x. eapply (plain_inv s th g _ (InFast g a 0 false :: st_stk s th) []); [exact HI| |count0|count0|auto| |fin..]; cbn; auto.
  - eapply (plain_inv s th g (st_sig s g) (InEdit g e false :: st_stk s th) []); [exact HI|reflexivity|count0|count0|auto|auto|fin..].
  - eapply (plain_inv s th 0%nat (st_sig s 0%nat) (st_stk s th) [Asked th (st_cur s)]);
      [exact HI|reflexivity|reflexivity|reflexivity| |auto| | |].
    + right. exists (Asked th (st_cur s)). repeat split.
    + intros t. cbn. now destruct (Nat.eqb_spec t th) as [->|].
    + intros h. exact (same_sig s 0%nat h).
    + reflexivity.
  - eapply (plain_inv s th 0%nat (st_sig s 0%nat) r []); [exact HI|reflexivity|count H|count H|auto|auto|fin..].
  - eapply (plain_inv s th g (st_sig s g) (InEmit g a (Restore prev) :: r) [Failed th g]);
      [exact HI|reflexivity|count H|count H| |auto|fin..]. right. exists (Failed th g). repeat split.
  - subst y. eapply (plain_inv s th g _ r []); [exact HI| |count H|count H|auto| |fin..]; cbn; auto.
  - eapply emit_inv; eauto.
  - unfold fast_step. destruct b0.
    + eapply (plain_inv s th g (st_sig s g) (InFast g a (S k) false :: r) []); [exact HI|reflexivity|count H|count H|auto|auto|fin..].
    + destruct (nth_error _ _) as [y|].
      * eapply (plain_inv s th g (st_sig s g) (InCallback y :: InFast g a k true :: r) [CalledFast th g y a]); [exact HI|reflexivity|count H|count H| |auto|fin..].
        right. exists (CalledFast th g y a). repeat split.
      * eapply (plain_inv s th g _ r []); [exact HI| |count H|count H|auto| |fin..]; cbn; auto.
  - unfold edit_step in H0. destruct h.
    + injection H0 as <-. eapply (release_inv s _ th g (set_slots _ (set_lock (release (g_lock (st_sig s g))) (st_sig s g))) [_]);
        [exact HI|exact H|reflexivity|reflexivity|reflexivity|reflexivity| |fin..].
      right. eexists. split; [reflexivity|]. split; [exact Logic.I|]. cbn [rightful]. intros t Ht. rewrite I3.
      apply (others_not s g th); auto. rewrite H, cnt_cons. cbn. rewrite Nat.eqb_refl. lia.
    + destruct (acquire _ _) as [l|] eqn:Ha; [|discriminate]. injection H0 as <-. eapply acquire_inv; eauto.
  - eapply (plain_inv s 0%nat g (set_slots l (st_sig s g)) (st_stk s 0%nat) [Gone g l]);
      [exact HI|reflexivity|reflexivity|reflexivity| | | |reflexivity|reflexivity].
    + right. exists (Gone g l). repeat split.
    + auto.
    + intros t. cbn. now destruct t.
Qed.
Theorem steps_inv : forall b s, steps c b init s -> inv s.
Proof.
  intros b s H. remember init as s0 eqn:E. induction H as [|s s1 s2 H IH Hs]; subst; [apply init_inv|]. eapply step_inv; eauto.
Qed.
End Facts.
