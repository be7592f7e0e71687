(** C49-C51: what Throttler and Debouncer promise about the calls of the wrapped function. *)

From Coq Require Import List ZArith Bool Lia.
From Verif Require Import Throttle ThrottleFacts.
Import ListNotations.
Open Scope Z_scope.

(** ** Spec *)
Section Spec.
Context {A : Type}.
Implicit Types (e : event A) (l : list (event A)).
Definition is_request e : Prop := match e with Requested _ _ => True | _ => False end.
Definition is_call e : Prop := match e with Started _ _ _ => True | _ => False end.
Definition is_cancel e : Prop := match e with Cancelling _ => True | _ => False end.
Definition is_raise e : Prop := match e with Raised _ => True | _ => False end.
Definition time e : Z :=
  match e with Requested _ t | Started _ t _ | Returned t | Raised t | Cancelling t => t end.
(** No thread has anything left to do in a method, and no timer is going to call one. *)
Definition idle (s : state A) : Prop := (forall x, t_stk s x = []) /\ forall j due, t_stat s j <> Waiting due.
End Spec.

(** ** Time does not go backwards, in all executions *)
Section Times.
Context {A : Type} (c : config).
Definition in_order (s : state A) : Prop :=
  (forall e, In e (t_log s) -> time e <= t_now s)
  /\ forall l1 e1 l2 e2 l3, t_log s = l1 ++ e1 :: l2 ++ e2 :: l3 -> time e1 <= time e2.
Lemma order_same : forall s s' : state A, t_log s' = t_log s -> t_now s <= t_now s' -> in_order s -> in_order s'.
Proof.
  intros s s' H1 H2 [K1 K2]. split; rewrite H1; [|exact K2]. intros e He. specialize (K1 e He). lia.
Qed.
Lemma order_log : forall (s : state A) e, time e = t_now s -> in_order s -> in_order (add_log e s).
Proof.
  intros s e He [K1 K2]. split; cbn [t_log t_now add_log].
  - intros x Hx. apply in_app_iff in Hx as [Hx|[<-|[]]]; [auto|lia].
  - intros l1 e1 l2 e2 l3 E. destruct l3 as [|x l3 _] using rev_ind.
    + rewrite app_comm_cons, app_assoc in E. apply app_inj_tail in E as [E <-]. rewrite He.
      apply K1. rewrite E. apply in_app_iff. right. now left.
    + rewrite app_comm_cons, app_assoc, app_comm_cons, app_assoc in E. apply app_inj_tail in E as [E _].
      rewrite <- app_assoc in E. eapply K2. exact E.
Qed.
Lemma order_pop : forall (s : state A) me, in_order s -> in_order (pop me s).
Proof.
  intros s me. apply order_same; unfold pop; destruct me; try destruct (tl _); cbn; auto; lia.
Qed.
Lemma order_note : forall (s : state A) m, in_order s -> in_order (note m s).
Proof. intros s [a| |] H; cbn [note]; try exact H; apply order_log; auto. Qed.
Lemma order_run : forall (s : state A) me i rest fs, in_order s -> in_order (run c me i rest fs s).
Proof.
  assert (P : forall me fs (s s' : state A), in_order s' -> in_order (set_stk me fs s')).
  { intros. eapply order_same; [| |eassumption]; cbn; [reflexivity|lia]. }
  intros s me i rest fs H. destruct i; cbn [run]; try (apply P; auto; fail);
    try (apply P; [exact s|]; apply (order_same s); cbn; auto; lia).
  - destruct (alive _); [apply P; auto|]. destruct (c_leading c); [apply P; auto|]. destruct (c_kind c); apply P; auto.
  - apply P; [exact s|]. now apply order_log.
  - apply P; [exact s|]. now apply order_log.
  - destruct (t_stat s (t_cur s)); try (now apply order_pop); (apply P; [exact s|]; apply (order_same s); cbn; auto; lia).
  - destruct (t_pend s); apply P; auto.
Qed.
Lemma order_step : forall b (s s' : state A), step c b s s' -> in_order s -> in_order s'.
Proof.
  intros b s s' H HI. destruct H.
  - eapply order_same; [| |exact HI]; cbn; [reflexivity|lia].
  - eapply order_same with (s := note m s); [reflexivity|cbn; lia|now apply order_note].
  - eapply order_same; [| |exact HI]; cbn; [reflexivity|lia].
  - now apply order_run.
  - now apply order_pop.
  - apply order_pop. now apply order_log.
  - eapply order_same with (s := note m s); [reflexivity|cbn; lia|now apply order_note].
  - eapply order_same; [| |exact HI]; cbn; [reflexivity|lia].
Qed.
Lemma order_steps : forall b a0 t s, steps c b (init a0 t) s -> in_order s.
Proof.
  intros b a0 t s H. remember (init a0 t) as s0 eqn:E. induction H as [|s s1 s2 H IH Hs]; subst.
  - split; cbn; [intros e []|]. intros l1 e1 l2 e2 l3 E. destruct l1; discriminate.
  - eapply order_step; eauto.
Qed.
End Times.

(** ** What the folds of Throttle.v mean *)
Lemma end_some : forall (A : Type) (l2 l1 : list (event A)) t,
  (forall e, In e l2 -> ~ is_cancel e /\ ~ is_raise e) -> last_end l1 = Some t ->
  exists te, last_end (l1 ++ l2) = Some te /\ (te = t \/ exists e, In e l2 /\ time e = te).
Proof.
  intros A l2. induction l2 as [|e l2 IH] using rev_ind; intros l1 t H Ht.
  - rewrite app_nil_r. eauto.
  - destruct (IH l1 t) as (te & E & W); [|exact Ht|].
    { intros x Hx. apply H. apply in_app_iff. auto. }
    rewrite app_assoc, end_app. assert (He : In e (l2 ++ [e])) by (apply in_app_iff; right; now left).
    assert (W' : te = t \/ exists e0, In e0 (l2 ++ [e]) /\ time e0 = te).
    { destruct W as [W|(x & Hx & W)]; [now left|right]. exists x. split; [apply in_app_iff; auto|exact W]. }
    destruct (H e He) as [N1 N2]. destruct e; cbn in *; try tauto; eauto;
      (eexists; split; [reflexivity|right; eexists; split; [exact He|reflexivity]]).
Qed.
Lemma open_some : forall (A : Type) (l : list (event A)) a, open_request l = Some a ->
  exists l1 t l2, l = l1 ++ Requested a t :: l2 /\ forall e, In e l2 -> ~ is_request e /\ ~ is_call e /\ ~ is_cancel e.
Proof.
  intros A l. induction l as [|e l IH] using rev_ind; intros a H; [discriminate|]. rewrite open_app in H.
  assert (K : forall t, (e = Returned t \/ e = Raised t) -> open_request l = Some a ->
    exists l1 t l2, l ++ [e] = l1 ++ Requested a t :: l2 /\ forall e, In e l2 -> ~ is_request e /\ ~ is_call e /\ ~ is_cancel e).
  { intros t He Ho. destruct (IH a Ho) as (l1 & t1 & l2 & -> & N). exists l1, t1, (l2 ++ [e]). split.
    - rewrite <- app_assoc. reflexivity.
    - intros x Hx. apply in_app_iff in Hx as [Hx|[<-|[]]]; [auto|]. destruct He as [-> | ->]; cbn; tauto. }
  destruct e; try discriminate.
  - injection H as ->. exists l, t, []. split; [reflexivity|]. intros e [].
  - apply (K t); auto.
  - apply (K t); auto.
Qed.
Lemma open_none : forall (A : Type) (l2 l1 : list (event A)) a t, open_request (l1 ++ Requested a t :: l2) = None ->
  exists e, In e l2 /\ (is_call e \/ is_cancel e).
Proof.
  intros A l2. induction l2 as [|e l2 IH] using rev_ind; intros l1 a t H.
  - rewrite open_app in H. discriminate.
  - rewrite app_comm_cons, app_assoc, open_app in H. destruct e; try discriminate;
      try (destruct (IH _ _ _ H) as (x & Hx & W); exists x; split; [apply in_app_iff; auto|exact W]);
      (eexists; split; [apply in_app_iff; right; now left|cbn; tauto]).
Qed.
Lemma req_some : forall (A : Type) (l2 l1 : list (event A)) a t,
  exists a' t', In (Requested a' t') (Requested a t :: l2) /\ last_request (l1 ++ Requested a t :: l2) = Some t'
    /\ exists l3 l4, l1 ++ Requested a t :: l2 = l3 ++ Requested a' t' :: l4 /\ (length l1 <= length l3)%nat.
Proof.
  intros A l2. induction l2 as [|e l2 IH] using rev_ind; intros l1 a t.
  - exists a, t. split; [now left|]. split; [now rewrite req_app|]. exists l1, []. auto.
  - destruct (IH l1 a t) as (a' & t' & Hin & Hr & l3 & l4 & E & Hl).
    rewrite app_comm_cons, app_assoc, req_app. destruct e as [b u| | | |];
      try (exists a', t'; split; [destruct Hin as [Hin|Hin]; [left; exact Hin|right; apply in_app_iff; auto]|]; split; [exact Hr|];
           exists l3; eexists; split; [|exact Hl]; rewrite E, <- app_assoc; reflexivity).
    exists b, u. split; [right; apply in_app_iff; right; now left|]. split; [reflexivity|].
    exists (l1 ++ Requested a t :: l2), []. split; [reflexivity|]. rewrite app_length. lia.
Qed.

(** ** C49 *)

(** Two consecutive calls are at least the interval apart, counted from the start and from the end
    of the first one.  Partial: methods used one at a time ([serial]), and the first call has not
    raised; both are needed (below). *)
Theorem C49_spaced_partial : forall (A : Type) c a0 t0 (s : state A) l1 e1 l2 a2 t2 l3,
  steps c true (init a0 t0) s ->
  t_log s = l1 ++ e1 :: l2 ++ Started a2 t2 false :: l3 ->
  (exists a t f, e1 = Started a t f) \/ (exists t, e1 = Returned t) ->
  (forall e, In e l2 -> ~ is_call e /\ ~ is_cancel e /\ ~ is_raise e) ->
  time e1 + c_interval c <= t2.
Proof.
  intros A c a0 t0 s l1 e1 l2 a2 t2 l3 H E He HN.
  pose proof (order_steps c _ _ _ _ H) as [_ HO]. destruct (serial_inv c a0 t0 s H) as [HB _].
  assert (G := b_log c s HB (l1 ++ e1 :: l2) (Started a2 t2 false) l3).
  rewrite <- app_assoc in G. specialize (G E). destruct G as [_ G]. destruct (G eq_refl) as [GS _].
  assert (H1 : last_end (l1 ++ [e1]) = Some (time e1)).
  { rewrite end_app. destruct He as [(a & t & f & ->)|(t & ->)]; reflexivity. }
  destruct (end_some A l2 (l1 ++ [e1]) (time e1)) as (te & Hte & W); [|exact H1|].
  { intros x Hx. destruct (HN x Hx) as (_ & N2 & N3). auto. }
  rewrite <- app_assoc in Hte. cbn [app] in Hte. specialize (GS te Hte).
  destruct W as [-> | (x & Hx & <-)]; [exact GS|]. apply in_split in Hx as (m1 & m2 & ->).
  assert (time e1 <= time x); [|lia]. rewrite E in HO.
  eapply (HO l1 e1 m1 x). rewrite <- app_assoc. reflexivity.
Qed.

(** ** C50 *)

(** Every call is for the last request, with its arguments, and that request was not cancelled and
    not served before. *)
Theorem C50_last_partial : forall (A : Type) c a0 t0 (s : state A) l1 a t f l2,
  steps c true (init a0 t0) s -> t_log s = l1 ++ Started a t f :: l2 ->
  exists k1 tr k2, l1 = k1 ++ Requested a tr :: k2 /\ tr <= t
    /\ forall e, In e k2 -> ~ is_request e /\ ~ is_call e /\ ~ is_cancel e.
Proof.
  intros A c a0 t0 s l1 a t f l2 H E.
  pose proof (order_steps c _ _ _ _ H) as [_ HO]. destruct (serial_inv c a0 t0 s H) as [HB _].
  destruct (b_log c s HB _ _ _ E) as [G _]. apply open_some in G as (k1 & tr & k2 & -> & N).
  exists k1, tr, k2. split; [reflexivity|]. split; [|exact N].
  rewrite E, <- app_assoc in HO. exact (HO k1 _ k2 _ l2 eq_refl).
Qed.
(** When nothing is going to happen any more, every request was followed by a call or cancelled. *)
Theorem C50_served_partial : forall (A : Type) c a0 t0 (s : state A) l1 a t l2,
  steps c true (init a0 t0) s -> idle s -> t_log s = l1 ++ Requested a t :: l2 ->
  exists e, In e l2 /\ (is_call e \/ is_cancel e).
Proof.
  intros A c a0 t0 s l1 a t l2 H [HQ HW] E. destruct (serial_inv c a0 t0 s H) as [HB [[_ HS]|(me & fr & K & _)]].
  - destruct HS as [S1 S2 S3 S4 S5]. destruct (open_request (t_log s)) as [x|] eqn:Eo.
    + destruct S4 as (due & S4); [congruence|]. now apply HW in S4.
    + rewrite E in Eo. eapply open_none; eauto.
  - rewrite HQ in K. discriminate.
Qed.
(** Until then a timer is running that will call: between methods a request that was neither
    served nor cancelled means that the timer of the throttler is waiting. *)
Theorem C50_pending_partial : forall (A : Type) c a0 t0 (s : state A) l1 a t l2,
  steps c true (init a0 t0) s -> (forall x, t_stk s x = []) -> t_log s = l1 ++ Requested a t :: l2 ->
  (forall e, In e l2 -> ~ is_call e /\ ~ is_cancel e) ->
  t_pend s = true /\ exists due, t_stat s (t_cur s) = Waiting due.
Proof.
  intros A c a0 t0 s l1 a t l2 H HQ E HN. destruct (serial_inv c a0 t0 s H) as [HB [[_ HS]|(me & fr & K & _)]].
  - destruct HS as [S1 S2 S3 S4 S5]. assert (Ho : open_request (t_log s) <> None).
    { rewrite E. intros K. apply open_none in K as (e & He & W). specialize (HN e He). tauto. }
    split; [|auto]. unfold agrees in S1. destruct (open_request (t_log s)); [apply S1|congruence].
  - rewrite HQ in K. discriminate.
Qed.

(** ** C51 *)

(** A trailing Debouncer calls only if there was no request during the last interval … *)
Theorem C51_silence_partial : forall (A : Type) c a0 t0 (s : state A) l1 b tr l2 a t l3,
  c_kind c = Debouncer -> c_leading c = false ->
  steps c true (init a0 t0) s ->
  t_log s = l1 ++ Requested b tr :: l2 ++ Started a t false :: l3 ->
  tr + c_interval c <= t.
Proof.
  intros A c a0 t0 s l1 b tr l2 a t l3 Hk Hl H E.
  pose proof (order_steps c _ _ _ _ H) as [_ HO]. destruct (serial_inv c a0 t0 s H) as [HB _].
  assert (G := b_log c s HB (l1 ++ Requested b tr :: l2) (Started a t false) l3).
  rewrite <- app_assoc in G. specialize (G E). destruct G as [_ G]. destruct (G eq_refl) as [_ GS].
  destruct (req_some A l2 l1 b tr) as (b' & tr' & Hin & Hr & _).
  specialize (GS (conj Hk Hl) tr' Hr). assert (tr <= tr'); [|lia].
  destruct Hin as [Hin|Hin]; [injection Hin as _ ->; lia|]. apply in_split in Hin as (m1 & m2 & ->).
  rewrite E, <- app_assoc in HO. exact (HO l1 _ m1 _ _ eq_refl).
Qed.
(** … and once per burst: between two calls there is a request. *)
Theorem C51_once_partial : forall (A : Type) c a0 t0 (s : state A) l1 a1 t1 f1 l2 a2 t2 f2 l3,
  steps c true (init a0 t0) s ->
  t_log s = l1 ++ Started a1 t1 f1 :: l2 ++ Started a2 t2 f2 :: l3 ->
  exists tr, In (Requested a2 tr) l2.
Proof.
  intros A c a0 t0 s l1 a1 t1 f1 l2 a2 t2 f2 l3 H E.
  destruct (C50_last_partial A c a0 t0 s (l1 ++ Started a1 t1 f1 :: l2) a2 t2 f2 l3 H) as (k1 & tr & k2 & Ek & _ & N).
  { rewrite E, <- app_assoc. reflexivity. }
  exists tr. clear E H. revert l1 Ek.
  induction k1 as [|x k1 IH]; intros [|y l1] Ek; cbn [app] in Ek.
  - discriminate.
  - injection Ek as _ Ek. exfalso. destruct (N (Started a1 t1 f1)) as (_ & K & _); [|apply K; exact Logic.I].
    rewrite <- Ek. apply in_app_iff. right. now left.
  - injection Ek as _ ->. apply in_app_iff. right. now left.
  - injection Ek as _ Ek. eauto.
Qed.

(** ** Concrete executions *)
Section Play.
Context {A : Type} (c : config).
Inductive act :=
| Tick (d : Z) | Call (n : nat) (m : method (A:=A)) | Fire (j : nat) | Run (me : who) | Ret (me : who)
| Throws (me : who) | Again (me : who) (m : method (A:=A)) | Die (j : nat).
Definition nobody (ws : list who) (s : state A) : bool :=
  forallb (fun x => match t_stk s x with [] => true | _ => false end) ws
  && match t_stat s (t_cur s) with Waiting _ | Over => true | _ => false end.
(** [ws]: the threads used so far. *)
Definition play1 (serial : bool) (x : act) (p : state A * list who) : option (state A * list who) :=
  let '(s, ws) := p in
  match x with
  | Tick d => if 0 <=? d then Some (set_now (t_now s + d) s, ws) else None
  | Call n m => match t_stk s (Client n) with
                | [] => if negb serial || nobody ws s
                        then Some (set_stk (Client n) [code c m] (note m s), Client n :: ws) else None
                | _ => None
                end
  | Fire j => match t_stat s j with
              | Waiting due => if (due <=? t_now s) && (negb serial || nobody ws s)
                               then Some (set_stk (TimerThread j) [[IIfPending false]] (set_stat j Firing s), TimerThread j :: ws)
                               else None
              | _ => None
              end
  | Run me => match t_stk s me with (i :: rest) :: fs => Some (run c me i rest fs s, me :: ws) | _ => None end
  | Ret me => match t_stk s me with [] :: fs => Some (pop me s, me :: ws) | _ => None end
  | Throws me => match t_stk s me with
                 | (IBody :: _) :: _ => Some (pop me (add_log (Raised (t_now s)) s), me :: ws)
                 | _ => None
                 end
  | Again me m => if serial then None else
                  match t_stk s me with
                  | (IBody :: rest) :: fs => Some (set_stk me (code c m :: (IBody :: rest) :: fs) (note m s), me :: ws)
                  | _ => None
                  end
  | Die j => match t_stat s j with Cancelled => Some (set_stat j Over s, ws) | _ => None end
  end.
Fixpoint play (serial : bool) (l : list act) (p : state A * list who) : option (state A * list who) :=
  match l with [] => Some p | x :: l => match play1 serial x p with Some p => play serial l p | None => None end end.
Definition rest_idle (p : state A * list who) : Prop := forall x, ~ In x (snd p) -> t_stk (fst p) x = [].
Lemma nobody_quiet : forall p, rest_idle p -> nobody (snd p) (fst p) = true -> quiet (fst p).
Proof.
  intros [s ws] HR H. unfold nobody in H. cbn [fst snd] in *. apply andb_true_iff in H as [H1 H2]. split.
  - intros x. rewrite forallb_forall in H1. destruct (t_stk s x) eqn:E; [reflexivity|]. exfalso.
    assert (Hx : ~ In x ws). { intros Hx. specialize (H1 x Hx). rewrite E in H1. discriminate. }
    assert (K := HR x Hx). cbn in K. congruence.
  - destruct (t_stat s (t_cur s)); try discriminate; exact Logic.I.
Qed.
Lemma idle_stk : forall me fs s s' ws, rest_idle (s, ws) -> t_stk s' = t_stk s -> rest_idle (set_stk me fs s', me :: ws).
Proof.
  intros me fs s s' ws H E x Hx. cbn [fst snd] in *. rewrite stk_other by (intros ->; apply Hx; now left).
  rewrite E. apply H. intros K. apply Hx. now right.
Qed.
Lemma idle_pop : forall me s s' ws, rest_idle (s, ws) -> t_stk s' = t_stk s -> rest_idle (pop me s', me :: ws).
Proof.
  intros me s s' ws H E x Hx. assert (K := idle_stk me (tl (t_stk s' me)) s s' ws H E x Hx).
  unfold pop. cbn [fst] in *. destruct me; [exact K|]. destruct (tl _); exact K.
Qed.
Lemma idle_run : forall me i rest fs s ws, rest_idle (s, ws) -> rest_idle (run c me i rest fs s, me :: ws).
Proof.
  intros me i rest fs s ws H. destruct i; cbn [run]; try (eapply idle_stk; [exact H|reflexivity]).
  - destruct (alive _), (c_leading c), (c_kind c); (eapply idle_stk; [exact H|reflexivity]).
  - destruct (t_stat s (t_cur s)); try (eapply idle_stk; [exact H|reflexivity]); (eapply idle_pop; [exact H|reflexivity]).
  - destruct (t_pend s); (eapply idle_stk; [exact H|reflexivity]).
Qed.
Lemma play1_step : forall serial x p p', rest_idle p -> play1 serial x p = Some p' ->
  step c serial (fst p) (fst p') /\ rest_idle p'.
Proof.
  intros serial x [s ws] p' HR H. assert (HQ := nobody_quiet _ HR). cbn [fst snd] in HQ.
  assert (SQ : negb serial || nobody ws s = true -> serial = true -> quiet s).
  { intros K ->. cbn in K. auto. }
  destruct x; cbn [play1] in H.
  - destruct (Z.leb_spec 0 d); [|discriminate]. injection H as <-. split; [now apply s_tick|exact HR].
  - destruct (t_stk s (Client n)) eqn:E; [|discriminate]. destruct (_ || _) eqn:Eq; [|discriminate]. injection H as <-.
    split; [apply s_call; auto|]. eapply idle_stk; [exact HR|]. destruct m; reflexivity.
  - destruct (t_stat s j) eqn:E; try discriminate. destruct (_ && _) eqn:Eq; [|discriminate]. injection H as <-.
    apply andb_true_iff in Eq as [E1 E2]. apply Z.leb_le in E1.
    split; [eapply s_fire; eauto|]. eapply idle_stk; [exact HR|reflexivity].
  - destruct (t_stk s me) as [|[|i rest] fs] eqn:E; try discriminate. injection H as <-.
    split; [now apply s_run|now apply idle_run].
  - destruct (t_stk s me) as [|[|i rest] fs] eqn:E; try discriminate. injection H as <-.
    split; [now apply s_return with (fs := fs)|eapply idle_pop; [exact HR|reflexivity]].
  - destruct (t_stk s me) as [|[|i rest] fs] eqn:E; try discriminate. destruct i; try discriminate. injection H as <-.
    split; [eapply s_raise; eauto|eapply idle_pop; [exact HR|reflexivity]].
  - destruct serial; [discriminate|]. destruct (t_stk s me) as [|[|i rest] fs] eqn:E; try discriminate.
    destruct i; try discriminate. injection H as <-.
    split; [now apply s_again|]. eapply idle_stk; [exact HR|]. destruct m; reflexivity.
  - destruct (t_stat s j) eqn:E; try discriminate. injection H as <-. split; [now apply s_die|exact HR].
Qed.
Lemma play_steps : forall serial l s0 p p', rest_idle p -> steps c serial s0 (fst p) -> play serial l p = Some p' ->
  steps c serial s0 (fst p') /\ rest_idle p'.
Proof.
  intros serial l. induction l as [|x l IH]; intros s0 p p' HR HS H; cbn [play] in H.
  - injection H as <-. auto.
  - destruct (play1 serial x p) as [p1|] eqn:E; [|discriminate]. destruct (play1_step _ _ _ _ HR E) as [K1 K2].
    apply (IH s0 p1 p'); auto. eapply ss_step; eauto.
Qed.
End Play.
Arguments act : clear implicits.

(** A program over numbers, from the creation of a throttler at time 0. *)
Definition ran (c : config) (serial : bool) (l : list (act nat)) : state nat :=
  match play c serial l (init 0%nat 0, []) with Some (s, _) => s | None => init 0%nat 0 end.
Definition names_of (c : config) (serial : bool) (l : list (act nat)) : list who :=
  match play c serial l (init 0%nat 0, []) with Some (_, ws) => ws | None => [] end.
Lemma ran_steps : forall c serial l, play c serial l (init 0%nat 0, []) <> None ->
  steps c serial (init 0%nat 0) (ran c serial l)
  /\ forall x, ~ In x (names_of c serial l) -> t_stk (ran c serial l) x = [].
Proof.
  intros c serial l H. unfold ran, names_of. destruct (play c serial l (init 0%nat 0, [])) as [[s ws]|] eqn:E; [|congruence].
  destruct (play_steps c serial l (init 0%nat 0) (init 0%nat 0, []) (s, ws)) as [K1 K2]; auto.
  - intros x _. reflexivity.
  - apply ss_refl.
Qed.
(** [n] steps of a thread, and a whole method. *)
Definition go (me : who) (n : nat) : list (act nat) := repeat (Run me) n.
Definition whole (me : who) (n : nat) : list (act nat) := go me n ++ [Ret me].
Definition who_dec : forall x y : who, {x = y} + {x <> y}.
Proof. decide equality; apply Nat.eq_dec. Defined.
(** No timer waits: only those created so far can. *)
Lemma idle_ran : forall c serial l, play c serial l (init 0%nat 0, []) <> None ->
  forallb (fun x => match t_stk (ran c serial l) x with [] => true | _ => false end) (names_of c serial l) = true ->
  (forall j due, t_stat (ran c serial l) j <> Waiting due) -> idle (ran c serial l).
Proof.
  intros c serial l H HF HW. split; [|exact HW]. intros x. destruct (ran_steps c serial l H) as [_ HR].
  destruct (in_dec who_dec x (names_of c serial l)) as [Hx|Hx]; [|auto].
  rewrite forallb_forall in HF. specialize (HF x Hx). destruct (t_stk _ x); [reflexivity|discriminate].
Qed.

Definition throttler : config := Config Throttler 10 true.
Definition debouncer : config := Config Debouncer 10 false.

(** Two requests in a row; the second one is served when the timer fires. *)
Definition two_requests : list (act nat) :=
  [Die 0; Call 0 (Request 1%nat)] ++ whole (Client 0) 9
  ++ [Tick 3; Call 0 (Request 2%nat)] ++ whole (Client 0) 3
  ++ [Tick 4; Call 1 (Request 3%nat)] ++ whole (Client 1) 3
  ++ [Tick 5; Fire 1] ++ whole (TimerThread 1) 7 ++ [Tick 20; Fire 2] ++ whole (TimerThread 2) 1.
Example C49_case : exists s, steps throttler true (init 0%nat 0) s
  /\ t_log s = [Requested 1%nat 0; Started 1%nat 0 false; Returned 0; Requested 2%nat 3; Requested 3%nat 7;
                Started 3%nat 12 false; Returned 12].
Proof. exists (ran throttler true two_requests). split; [apply ran_steps; vm_compute; congruence|vm_compute; reflexivity]. Qed.
Example C50_case : exists s, steps throttler true (init 0%nat 0) s /\ idle s
  /\ t_log s = [Requested 1%nat 0; Started 1%nat 0 false; Returned 0; Requested 2%nat 3; Requested 3%nat 7;
                Started 3%nat 12 false; Returned 12].
Proof.
  exists (ran throttler true two_requests). split; [apply ran_steps; vm_compute; congruence|]. split; [|vm_compute; reflexivity].
  apply idle_ran; [vm_compute; congruence|vm_compute; reflexivity|].
  intros [|[|[|j]]] due; vm_compute; discriminate.
Qed.
(** Pending, with the timer waiting. *)
Example C50_pending_case : exists s, steps throttler true (init 0%nat 0) s /\ (forall x, t_stk s x = [])
  /\ t_log s = [Requested 1%nat 0; Started 1%nat 0 false; Returned 0; Requested 2%nat 3].
Proof.
  set (l := [Die 0; Call 0 (Request 1%nat)] ++ whole (Client 0) 9 ++ [Tick 3; Call 0 (Request 2%nat)] ++ whole (Client 0) 3).
  assert (H : play throttler true l (init 0%nat 0, []) <> None) by (vm_compute; congruence).
  exists (ran throttler true l). destruct (ran_steps throttler true l H) as [K1 K2]. split; [exact K1|]. split; [|vm_compute; reflexivity].
  intros x. destruct (in_dec who_dec x [Client 0]) as [[<-|[]]|Hx]; [vm_compute; reflexivity|].
  apply K2. intros K. apply Hx. vm_compute in K. repeat (destruct K as [<-|K]; [now left|]). destruct K.
Qed.
(** Three requests of a burst, one call. *)
Definition burst : list (act nat) :=
  [Die 0; Call 0 (Request 1%nat)] ++ whole (Client 0) 6
  ++ [Tick 3; Call 0 (Request 2%nat)] ++ whole (Client 0) 6 ++ [Die 1]
  ++ [Tick 9; Call 0 (Request 3%nat)] ++ whole (Client 0) 6 ++ [Die 2]
  ++ [Tick 11; Fire 3] ++ whole (TimerThread 3) 7
  ++ [Tick 11; Fire 4] ++ whole (TimerThread 4) 1
  ++ [Call 0 (Request 4%nat)] ++ whole (Client 0) 6 ++ [Tick 10; Fire 5] ++ whole (TimerThread 5) 7.
Example C51_case : exists s, steps debouncer true (init 0%nat 0) s
  /\ t_log s = [Requested 1%nat 0; Requested 2%nat 3; Requested 3%nat 12; Started 3%nat 23 false; Returned 23;
                Requested 4%nat 34; Started 4%nat 44 false; Returned 44].
Proof. exists (ran debouncer true burst). split; [apply ran_steps; vm_compute; congruence|vm_compute; reflexivity]. Qed.

(** ** What does not hold *)

(** The timer is not started when the wrapped function raises: the next request runs it at once,
    also if methods are used one at a time. *)
Theorem C49_refuted : exists c (s : state nat) l1 a1 t1 l2 a2 t2 l3,
  c_kind c = Throttler /\ steps c true (init 0%nat 0) s
  /\ t_log s = l1 ++ Started a1 t1 false :: l2 ++ Started a2 t2 false :: l3
  /\ (forall e, In e l2 -> ~ is_call e /\ ~ is_cancel e) /\ t2 < t1 + c_interval c.
Proof.
  set (l := [Die 0; Call 0 (Request 1%nat)] ++ go (Client 0) 5 ++ [Throws (Client 0)]
            ++ [Tick 1; Call 0 (Request 2%nat)] ++ whole (Client 0) 9).
  exists throttler, (ran throttler true l), [Requested 1%nat 0], 1%nat, 0, [Raised 0; Requested 2%nat 1], 2%nat, 1, [Returned 1].
  split; [reflexivity|]. split; [apply ran_steps; vm_compute; congruence|]. split; [vm_compute; reflexivity|]. split.
  - intros e [<-|[<-|[]]]; cbn; tauto.
  - reflexivity.
Qed.
(** Two threads that find the timer idle both call the function. *)
Theorem C49_threads_refuted : exists c (s : state nat) l1 a1 t1 l2 a2 t2 l3,
  c_kind c = Throttler /\ steps c false (init 0%nat 0) s
  /\ t_log s = l1 ++ Started a1 t1 false :: l2 ++ Started a2 t2 false :: l3
  /\ (forall e, In e l2 -> ~ is_call e /\ ~ is_cancel e /\ ~ is_raise e) /\ t2 < t1 + c_interval c.
Proof.
  set (l := [Die 0; Call 0 (Request 1%nat); Call 1 (Request 2%nat)] ++ go (Client 0) 3 ++ go (Client 1) 3
            ++ whole (Client 0) 6 ++ whole (Client 1) 6).
  exists throttler, (ran throttler false l), [Requested 1%nat 0; Requested 2%nat 0], 2%nat, 0, [Returned 0], 2%nat, 0, [Returned 0].
  split; [reflexivity|]. split; [apply ran_steps; vm_compute; congruence|]. split; [vm_compute; reflexivity|]. split.
  - intros e [<-|[]]; cbn; tauto.
  - reflexivity.
Qed.
(** So does a function that uses its own throttler, in a single thread. *)
Theorem C49_reentrant_refuted : exists c (s : state nat) l1 a1 t1 l2 a2 t2 l3,
  c_kind c = Throttler /\ steps c false (init 0%nat 0) s
  /\ (forall x, x <> Client 0 -> t_stk s x = [])
  /\ t_log s = l1 ++ Started a1 t1 false :: l2 ++ Started a2 t2 false :: l3
  /\ (forall e, In e l2 -> ~ is_call e /\ ~ is_cancel e /\ ~ is_raise e) /\ t2 < t1 + c_interval c.
Proof.
  set (l := [Die 0; Call 0 (Request 1%nat)] ++ go (Client 0) 5 ++ [Again (Client 0) (Request 2%nat)] ++ whole (Client 0) 9
            ++ whole (Client 0) 4).
  assert (H : play throttler false l (init 0%nat 0, []) <> None) by (vm_compute; congruence).
  exists throttler, (ran throttler false l), [Requested 1%nat 0], 1%nat, 0, [Requested 2%nat 0], 2%nat, 0, [Returned 0; Returned 0].
  destruct (ran_steps throttler false l H) as [K1 K2].
  split; [reflexivity|]. split; [exact K1|]. split.
  { intros x Hx. apply K2. intros K. apply Hx. vm_compute in K. repeat (destruct K as [<-|K]; [reflexivity|]). destruct K. }
  split; [vm_compute; reflexivity|]. split.
  - intros e [<-|[]]; cbn; tauto.
  - reflexivity.
Qed.
(** A request made right after the throttler was created, while the thread of its first timer is
    still ending, is lost: everything is idle and it was neither served nor cancelled. *)
Theorem C50_first_refuted : exists c (s : state nat),
  c_kind c = Throttler /\ steps c false (init 0%nat 0) s /\ idle s /\ t_log s = [Requested 1%nat 0] /\ t_pend s = true.
Proof.
  set (l := [Call 0 (Request 1%nat)] ++ whole (Client 0) 3 ++ [Die 0]).
  exists throttler, (ran throttler false l). split; [reflexivity|]. split; [apply ran_steps; vm_compute; congruence|].
  split; [|vm_compute; auto]. apply idle_ran; [vm_compute; congruence|vm_compute; reflexivity|].
  intros [|j] due; vm_compute; discriminate.
Qed.
(** So is one made right after cancel … *)
Theorem C50_cancel_refuted : exists c (s : state nat) l,
  c_kind c = Throttler /\ steps c false (init 0%nat 0) s /\ idle s /\ t_log s = l ++ [Cancelling 1; Requested 2%nat 1].
Proof.
  set (l := [Die 0; Call 0 (Request 1%nat)] ++ whole (Client 0) 9 ++ [Tick 1; Call 0 Cancel] ++ whole (Client 0) 2
            ++ [Call 0 (Request 2%nat)] ++ whole (Client 0) 3 ++ [Die 1]).
  exists throttler, (ran throttler false l), [Requested 1%nat 0; Started 1%nat 0 false; Returned 0].
  split; [reflexivity|]. split; [apply ran_steps; vm_compute; congruence|].
  split; [|vm_compute; auto]. apply idle_ran; [vm_compute; congruence|vm_compute; reflexivity|].
  intros [|[|j]] due; vm_compute; discriminate.
Qed.
(** … and one made when the timer has fired and found nothing pending, but has not ended. *)
Theorem C50_ending_refuted : exists c (s : state nat) l,
  c_kind c = Throttler /\ steps c false (init 0%nat 0) s /\ idle s
  /\ t_log s = l ++ [Requested 2%nat 10] /\ (forall e, In e l -> ~ is_cancel e).
Proof.
  set (l := [Die 0; Call 0 (Request 1%nat)] ++ whole (Client 0) 9 ++ [Tick 10; Fire 1] ++ go (TimerThread 1) 1
            ++ [Call 0 (Request 2%nat)] ++ whole (Client 0) 3 ++ [Ret (TimerThread 1)]).
  exists throttler, (ran throttler false l), [Requested 1%nat 0; Started 1%nat 0 false; Returned 0].
  split; [reflexivity|]. split; [apply ran_steps; vm_compute; congruence|].
  split; [|split; [vm_compute; auto|]].
  - apply idle_ran; [vm_compute; congruence|vm_compute; reflexivity|].
    intros [|[|j]] due; vm_compute; discriminate.
  - intros e [<-|[<-|[<-|[]]]]; cbn; tauto.
Qed.
(** A request made when the timer of a Debouncer has just fired is served at once. *)
Theorem C51_refuted : exists c (s : state nat) l1 b tr l2 a t l3,
  c_kind c = Debouncer /\ c_leading c = false /\ steps c false (init 0%nat 0) s
  /\ t_log s = l1 ++ Requested b tr :: l2 ++ Started a t false :: l3 /\ t < tr + c_interval c.
Proof.
  set (l := [Die 0; Call 0 (Request 1%nat)] ++ whole (Client 0) 6 ++ [Tick 10; Fire 1] ++ go (TimerThread 1) 1
            ++ [Call 0 (Request 2%nat)] ++ go (Client 0) 2 ++ go (TimerThread 1) 2).
  exists debouncer, (ran debouncer false l), [Requested 1%nat 0], 2%nat, 10, [], 2%nat, 10, [].
  split; [reflexivity|]. split; [reflexivity|]. split; [apply ran_steps; vm_compute; congruence|].
  split; [vm_compute; reflexivity|reflexivity].
Qed.

Print Assumptions C49_spaced_partial.
Print Assumptions C50_last_partial.
Print Assumptions C50_served_partial.
Print Assumptions C50_pending_partial.
Print Assumptions C51_silence_partial.
Print Assumptions C51_once_partial.
Print Assumptions C49_refuted.
Print Assumptions C50_ending_refuted.
Print Assumptions C51_refuted.
