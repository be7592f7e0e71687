(** C52, C53, C62: signals used from several threads. *)

From Coq Require Import List ZArith Bool Lia.
From Verif Require Import Threads ThreadFacts ThreadWork ThreadSolo.
Import ListNotations.
Open Scope Z_scope.

(** ** C52 *)

(** While an emission of a signal is running in a thread, no other thread calls one of its
    callbacks by emit, or changes its connections by connect or disconnect. *)
Theorem C52_exclusive : forall (A : Type) c b (s : state A) l1 e l2 th g t,
  steps c b init s -> st_log s = l1 ++ e :: l2 ->
  (exists x a, e = Called th g x a) \/ (exists x, e = Changed th g x) ->
  (0 < running t g l1)%nat -> t = th.
Proof.
  intros A c b s l1 e l2 th g t H E He Hr. destruct (steps_inv c b s H) as [I1 I2 I3 I4 I5].
  specialize (I5 l1 e l2 E). destruct (Nat.eq_dec t th) as [|N]; [auto|]. exfalso.
  destruct He as [(x & a & ->)|(x & ->)]; cbn in I5; rewrite I5 in Hr by exact N; lia.
Qed.
(** emit leaves its work to a running emission only if that one is running in the same thread. *)
Theorem C52_own : forall (A : Type) c b (s : state A) l1 l2 th g,
  steps c b init s -> st_log s = l1 ++ Joined th g :: l2 -> (0 < running th g l1)%nat.
Proof.
  intros A c b s l1 l2 th g H E. destruct (steps_inv c b s H) as [I1 I2 I3 I4 I5]. exact (I5 l1 _ l2 E).
Qed.
(** Whatever other threads do, an emission calls each slot that was connected when it began, once
    and in order, and nothing else of that signal is called meanwhile: unless its own callbacks emit the
    signal again, change its connections or raise, or a receiver dies.  Not for the latest-only mode,
    see below. *)
Theorem C52_complete : forall (A : Type) c b (s : state A) l1 th g a l2 l3,
  0 < m_limit c -> m_mode c g <> Latest ->
  steps c b init s ->
  st_log s = l1 ++ Began th g a :: l2 ++ Ended th g :: l3 -> clean th g l2 ->
  calls g l2 = map (fun x => Called th g x a) (slots_of g l1).
Proof.
  intros A c b s l1 th g a l2 l3 HL HM H E HC.
  (* the state in which the emission ended *)
  assert (P : forall (s : state A) l l3, steps c b init s -> st_log s = l ++ Ended th g :: l3 ->
    exists s0 : state A, steps c b init s0 /\ st_log s0 = l /\ exists f r, st_stk s0 th = InEmit g f Finish :: r).
  { clear. intros s l l3 H. remember init as i eqn:Ei. revert l3. induction H as [|s s1 s2 H IH Hs]; intros l3 E; subst.
    - destruct l; discriminate.
    - assert (K : st_log s2 = st_log s1 \/ exists e, st_log s2 = st_log s1 ++ [e]
        /\ ((exists t h a r, e = Ended t h /\ st_stk s1 t = InEmit h a Finish :: r) \/ forall t h, e <> Ended t h)).
      { destruct Hs; subst; cbn; try (now left); try (right; eexists; split; [reflexivity|right; discriminate]).
        - destruct p; cbn in H1; try (injection H1 as <-; cbn; now left).
          + injection H1 as <-. destruct (_ >=? _); cbn; [right; eexists; split; [reflexivity|right; discriminate]|now left].
          + destruct (acquire _ _); [|discriminate]. injection H1 as <-. now left.
          + injection H1 as <-. destruct (g_queue _); cbn; right; eexists; (split; [reflexivity|right; discriminate]).
          + destruct (m_mode c g0); injection H1 as <-; [destruct (g_queue _)|destruct (nth_error _ _)|destruct (g_queue _)]; now left.
          + injection H1 as <-. destruct (nth_error _ _); destruct (m_mode c g0); try (now left);
              try (destruct (_ <? _); [now left|]); cbn; right; eexists; (split; [reflexivity|right; discriminate]).
          + injection H1 as <-. destruct (m_mode c g0); try (now left). destruct (_ >? _); now left.
          + injection H1 as <-. cbn. right. eexists. split; [reflexivity|]. left. eauto 8.
        - unfold fast_step. destruct b0; [now left|]. destruct (nth_error _ _); [right; eexists; split; [reflexivity|right; discriminate]|now left].
        - unfold edit_step in H1. destruct h.
          + injection H1 as <-. right. eexists. split; [reflexivity|right; discriminate].
          + destruct (acquire _ _); [|discriminate]. injection H1 as <-. now left. }
      destruct K as [K|(e & K & Ke)].
      + apply (IH eq_refl l3). congruence.
      + destruct l3 as [|x l3 _] using rev_ind.
        * rewrite K in E. apply app_inj_tail in E as [E ->]. destruct Ke as [(t & h & a & r & X & Y)|Ke]; [|now destruct (Ke th g)].
          injection X as <- <-. exists s1. eauto.
        * apply (IH eq_refl l3). rewrite K in E. rewrite app_comm_cons, app_assoc in E. now apply app_inj_tail in E as [E _]. }
  destruct (P s (l1 ++ Began th g a :: l2) l3 H) as (s0 & H0 & E0 & b0 & r & Hstk).
  { rewrite E, <- app_assoc. reflexivity. }
  clear P H E s. destruct (steps_work c b s0 HL H0) as [_ [_ W]]. specialize (W th g HM). unfold works in W.
  rewrite Hstk, filter_active in W by reflexivity. rewrite E0 in W.
  assert (B : begun th g (l1 ++ Began th g a :: l2) = length l1 :: begun th g l1).
  { clear -HC. induction l2 as [|e l2 IH] using rev_ind.
    - rewrite begun_app, !Nat.eqb_refl. reflexivity.
    - rewrite app_comm_cons, app_assoc, begun_app, IH by (intros x Hx; apply HC; apply in_app_iff; auto).
      assert (He : ~ touches th g e) by (apply HC; apply in_app_iff; right; now left).
      destruct e; try reflexivity; cbn in He;
        (destruct (Nat.eqb_spec th0 th) as [->|]; [|reflexivity]; destruct (Nat.eqb_spec g0 g) as [->|]; [tauto|reflexivity]). }
  rewrite B in W. inversion W as [|f n fs ns (a' & p & k1 & k2 & X & E1 & Y & Z) _]; subst. injection X as <- <-.
  rewrite E0 in E1. assert (K : l1 = k1 /\ l2 = k2 /\ a = b0).
  { clear -E1 Y. revert k1 E1 Y. induction l1 as [|x l1 IH]; intros [|y k1] E1 Y; try discriminate; cbn in E1.
    - injection E1 as -> ->. auto.
    - injection E1 as -> E1. injection Y as Y. destruct (IH k1 E1 Y) as (-> & -> & ->). auto. }
  destruct K as (<- & <- & <-). destruct (Z HC) as [_ K]. now rewrite firstn_all in K.
Qed.

(** ** C53 *)

(** current_emitter is the innermost emission of the thread that asks, and None when no thread
    is emitting.  Partial: in executions where no thread emits while another one is emitting. *)
Theorem C53_partial : forall (A : Type) c (s : state A) l1 th r l2,
  steps c true init s -> st_log s = l1 ++ Asked th r :: l2 ->
  (forall g x, inside th l1 = g :: x -> r = Some g) /\ ((forall t, inside t l1 = []) -> r = None).
Proof.
  intros A c s l1 th r l2 H E. destruct (steps_solo c s H) as [_ _ _ K]. exact (K l1 _ l2 E).
Qed.

(** ** C62 *)

(** The signal whose lock a thread is going to acquire. *)
Definition wants {A} (fs : list (frame A)) : option nat :=
  match fs with InEmit g _ Acquire :: _ | InEdit g _ false :: _ => Some g | _ => None end.
(** The signals whose lock it has acquired. *)
Definition has {A} (g : nat) (fs : list (frame A)) : Prop := exists f, In f fs /\
  match f with
  | InEmit h _ p => h = g /\ p <> Check /\ p <> Acquire
  | InEdit h _ true => h = g
  | _ => False
  end.
Lemma has_holds : forall A g (fs : list (frame A)), (0 < cnt (holds g) fs)%nat <-> has g fs.
Proof.
  intros A g fs. split.
  - induction fs as [|f fs IH]; [cbn; lia|]. rewrite cnt_cons. destruct (holds g f) eqn:E.
    + intros _. exists f. split; [now left|]. destruct f as [h a p|h a k b|h e b|x]; cbn in *; try discriminate.
      * apply andb_true_iff in E as [E1 E2]. apply Nat.eqb_eq in E1. destruct p; try discriminate; repeat split; auto; discriminate.
      * destruct b; [now apply Nat.eqb_eq in E|discriminate].
    + intros K. destruct IH as (f' & K1 & K2); [lia|]. exists f'. split; [now right|exact K2].
  - intros (f & K1 & K2). induction fs as [|f' fs IH]; [destruct K1|]. rewrite cnt_cons. destruct K1 as [->|K1]; [|specialize (IH K1); lia].
    assert (E : holds g f = true); [|rewrite E; lia]. destruct f as [h a p|h a k b|h e b|x]; cbn; try destruct K2.
    + subst. rewrite Nat.eqb_refl. cbn. destruct p; try reflexivity; tauto.
    + destruct b; [|destruct K2]. subst. apply Nat.eqb_refl.
Qed.
(** A thread that is in a method and does not wait for the lock of another one can go on. *)
Lemma can_go : forall A c b (s : state A) th, st_stk s th <> [] ->
  (forall g, wants (st_stk s th) = Some g -> acquire th (g_lock (st_sig s g)) <> None) ->
  exists s', step c b s s' /\ st_stk s' th <> st_stk s th.
Proof.
  intros A c b s th H1 H2.
  assert (L : forall (f : frame A) r, r <> f :: r).
  { intros f r E. apply (f_equal (@length _)) in E. cbn in E. lia. }
  assert (L2 : forall (f f' f'' : frame A) r, f :: f' :: r <> f'' :: r).
  { intros f f' f'' r E. apply (f_equal (@length _)) in E. cbn in E. lia. }
  destruct (st_stk s th) as [|f r] eqn:E; [congruence|].
  destruct f as [g a p|g a k k'|g e h|x].
  - assert (K : exists s', emit_step c th g a p r s = Some s').
    { destruct p; cbn; eauto.
      - destruct (acquire _ _) eqn:Ea; [eauto|]. now destruct (H2 g eq_refl).
      - destruct (m_mode c g); eauto. }
    destruct K as (s' & K). exists s'. split; [eapply s_in_emit; eauto|]. rewrite <- E.
    assert (Q : forall x (s0 : state A), st_stk (set_stk th x s0) th = x) by (intros; cbn; now rewrite Nat.eqb_refl).
    rewrite E. destruct p; cbn in K.
    + destruct (_ >=? _); injection K as <-; rewrite Q; [apply L|congruence].
    + destruct (acquire _ _); [|discriminate]. injection K as <-. rewrite Q. congruence.
    + destruct (g_queue _); injection K as <-; rewrite Q; congruence.
    + injection K as <-. rewrite Q. congruence.
    + injection K as <-. rewrite Q. congruence.
    + injection K as <-. rewrite Q. congruence.
    + destruct (m_mode c g); injection K as <-; [destruct (g_queue _)|destruct (nth_error _ _)|destruct (g_queue _)]; rewrite Q; congruence.
    + injection K as <-. destruct (nth_error _ _); destruct (m_mode c g); try (destruct (_ <? _)); rewrite Q; try congruence; apply L2.
    + injection K as <-. destruct (m_mode c g); try (destruct (_ >? _)); rewrite Q; congruence.
    + injection K as <-. rewrite Q. congruence.
    + injection K as <-. rewrite Q. congruence.
    + injection K as <-. rewrite Q. apply L.
  - exists (fast_step th g a k k' r s). split; [now apply s_in_fast|]. unfold fast_step.
    destruct k'; [|destruct (nth_error _ _)]; cbn; rewrite Nat.eqb_refl; [|apply L2|apply L].
    injection. lia.
  - assert (K : exists s', edit_step th g e h r s = Some s').
    { unfold edit_step. destruct h; [eauto|]. destruct (acquire _ _) eqn:Ea; [eauto|]. now destruct (H2 g eq_refl). }
    destruct K as (s' & K). exists s'. split; [eapply s_in_edit; eauto|]. unfold edit_step in K. destruct h.
    + injection K as <-. cbn. rewrite Nat.eqb_refl. apply L.
    + destruct (acquire _ _); [|discriminate]. injection K as <-. cbn. rewrite Nat.eqb_refl. congruence.
  - exists (set_stk th r s). split; [eapply s_return; eauto|]. cbn. rewrite Nat.eqb_refl. apply L.
Qed.
(** If the locks are always acquired in the same order, some thread can go on: as long as there is
    a thread in a method, there is one that can take a step.  [n]: the number of signals. *)
Theorem C62_ordered_partial : forall (A : Type) c b (s : state A) n,
  steps c b init s ->
  (forall th g h, wants (st_stk s th) = Some h -> has g (st_stk s th) -> (g <= h)%nat) ->
  (forall th h, wants (st_stk s th) = Some h -> (h < n)%nat) ->
  forall th, st_stk s th <> [] ->
  exists th' s', step c b s s' /\ st_stk s' th' <> st_stk s th'.
Proof.
  intros A c b s n H HO HN th Hth. destruct (steps_inv c b s H) as [I1 I2 I3 I4 I5].
  assert (Rec : forall k th, st_stk s th <> [] -> (forall h, wants (st_stk s th) = Some h -> (n - h <= k)%nat) ->
    exists th' s', step c b s s' /\ st_stk s' th' <> st_stk s th').
  { clear th Hth. induction k as [|k IH]; intros th Hth Hk.
    - destruct (can_go A c b s th Hth) as (s' & K); [|eauto]. intros g Hg. specialize (Hk g Hg). specialize (HN th g Hg). lia.
    - destruct (wants (st_stk s th)) as [g|] eqn:Ew.
      + destruct (acquire th (g_lock (st_sig s g))) eqn:Ea.
        * destruct (can_go A c b s th Hth) as (s' & K); [|eauto]. intros h Hh. rewrite Ew in Hh. injection Hh as <-. congruence.
        * destruct (g_lock (st_sig s g)) as [[o m]|] eqn:El; [|discriminate]. cbn in Ea.
          destruct (Nat.eqb_spec o th) as [->|N]; [discriminate|].
          assert (Ho : (0 < cnt (holds g) (st_stk s o))%nat).
          { rewrite I2, El. cbn. rewrite Nat.eqb_refl. specialize (I1 g). rewrite El in I1. cbn in I1. destruct m; [destruct I1|lia]. }
          assert (Hg : has g (st_stk s o)) by now apply has_holds.
          assert (Hne : st_stk s o <> []) by (intros K; rewrite K in Ho; cbn in Ho; lia).
          destruct (wants (st_stk s o)) as [h|] eqn:Eo.
          -- destruct (acquire o (g_lock (st_sig s h))) eqn:Eao.
             ++ destruct (can_go A c b s o Hne) as (s' & K); [|eauto]. intros h' Hh. rewrite Eo in Hh. injection Hh as <-. congruence.
             ++ apply (IH o Hne). intros h' Hh. rewrite Eo in Hh. injection Hh as <-.
                assert (g <= h)%nat by (eapply HO; eauto).
                assert (h <> g). { intros ->. rewrite El in Eao. cbn in Eao. rewrite Nat.eqb_refl in Eao. discriminate. }
                specialize (Hk g eq_refl). specialize (HN o h Eo). lia.
          -- destruct (can_go A c b s o Hne) as (s' & K); [|eauto]. intros h Hh. congruence.
      + destruct (can_go A c b s th Hth) as (s' & K); [|eauto]. intros h Hh. congruence. }
  apply (Rec n th Hth). intros h _. lia.
Qed.

(** ** Concrete executions *)
Section Play.
Context {A : Type} (c : setting).
Inductive act :=
| Emit (th g : nat) (a : A) | Fast (th g : nat) (a : A) | Edit (th g : nat) (e : edit) | Ask (th : nat)
| Ret (th : nat) | Throws (th : nat) | Go (th : nat) | Die (g y : nat).
Definition clientb (fs : list (frame A)) : bool := match fs with [] | InCallback _ :: _ => true | _ => false end.
Definition emittingb (fs : list (frame A)) : bool := existsb (fun f => match f with InEmit _ _ _ => true | _ => false end) fs.
(** [ws]: the threads used so far. *)
Definition play1 (solo : bool) (x : act) (p : state A * list nat) : option (state A * list nat) :=
  let '(s, ws) := p in
  match x with
  | Emit th g a => if clientb (st_stk s th) && (negb solo || forallb (fun t => Nat.eqb t th || negb (emittingb (st_stk s t))) ws)
                   then Some (set_stk th (InEmit g a Check :: st_stk s th) s, th :: ws) else None
  | Fast th g a => if clientb (st_stk s th) && (g_depth (st_sig s g) <? m_limit c)
                   then Some (set_stk th (InFast g a 0 false :: st_stk s th)
                                (set_sig g (set_depth (g_depth (st_sig s g) + 1) (g_max (st_sig s g)) (st_sig s g)) s), th :: ws) else None
  | Edit th g e => if clientb (st_stk s th) then Some (set_stk th (InEdit g e false :: st_stk s th) s, th :: ws) else None
  | Ask th => if clientb (st_stk s th) then Some (say (Asked th (st_cur s)) s, th :: ws) else None
  | Ret th => match st_stk s th with InCallback _ :: r => Some (set_stk th r s, th :: ws) | _ => None end
  | Throws th => match st_stk s th with
                 | InCallback _ :: InEmit g a (Back prev i b k) :: r =>
                     Some (set_stk th (InEmit g a (Restore prev) :: r) (say (Failed th g) s), th :: ws)
                 | _ => None
                 end
  | Go th => match st_stk s th with
             | InEmit g a p :: r => option_map (fun s => (s, th :: ws)) (emit_step c th g a p r s)
             | InFast g a k b :: r => Some (fast_step th g a k b r s, th :: ws)
             | InEdit g e h :: r => option_map (fun s => (s, th :: ws)) (edit_step th g e h r s)
             | _ => None
             end
  | Die g y => let l := remove y (g_slots (st_sig s g)) in Some (say (Gone g l) (set_sig g (set_slots l (st_sig s g)) s), ws)
  end.
Fixpoint play (solo : bool) (l : list act) (p : state A * list nat) : option (state A * list nat) :=
  match l with [] => Some p | x :: l => match play1 solo x p with Some p => play solo l p | None => None end end.
Definition rest_out (p : state A * list nat) : Prop := forall t, ~ In t (snd p) -> st_stk (fst p) t = [].
Lemma out_stk : forall th fs (s s' : state A) ws, rest_out (s, ws) -> (forall t, st_stk s' t = if Nat.eqb t th then fs else st_stk s t) ->
  rest_out (s', th :: ws).
Proof.
  intros th fs s s' ws H E t Ht. cbn [fst snd] in *. rewrite E. destruct (Nat.eqb_spec t th) as [->|N].
  - exfalso. apply Ht. now left.
  - apply H. intros K. apply Ht. now right.
Qed.
Lemma emit_stk : forall th g a p r (s s' : state A), emit_step c th g a p r s = Some s' ->
  exists fs, forall t, st_stk s' t = if Nat.eqb t th then fs else st_stk s t.
Proof.
  intros th g a p r s s' H. destruct p; cbn in H; try (injection H as <-; eexists; reflexivity).
  - injection H as <-. destruct (_ >=? _); eexists; reflexivity.
  - destruct (acquire _ _); [|discriminate]. injection H as <-. eexists; reflexivity.
  - injection H as <-. destruct (g_queue _); eexists; reflexivity.
  - destruct (m_mode c g); injection H as <-; [destruct (g_queue _)|destruct (nth_error _ _)|destruct (g_queue _)]; eexists; reflexivity.
  - injection H as <-. destruct (nth_error _ _); destruct (m_mode c g); try (destruct (_ <? _)); eexists; reflexivity.
  - injection H as <-. destruct (m_mode c g); try (destruct (_ >? _)); eexists; reflexivity.
Qed.
Lemma client_in : forall fs : list (frame A), clientb fs = true -> in_client fs.
Proof. intros [|[| | |]]; cbn; auto; discriminate. Qed.
Lemma not_emittingb : forall fs : list (frame A), emittingb fs = false -> ~ emitting fs.
Proof.
  intros fs H (g & a & p & K). assert (E : emittingb fs = true); [|congruence].
  apply existsb_exists. exists (InEmit g a p). auto.
Qed.
Lemma play1_step : forall solo x p p', rest_out p -> play1 solo x p = Some p' -> step c solo (fst p) (fst p') /\ rest_out p'.
Proof.
  intros solo x [s ws] p' HR H. destruct x; cbn [play1] in H.
  - destruct (_ && _) eqn:E; [|discriminate]. injection H as <-. apply andb_true_iff in E as [E1 E2]. split.
    + apply s_emit; [now apply client_in|]. intros -> t Ht. cbn in E2. rewrite forallb_forall in E2. apply not_emittingb.
      destruct (in_dec Nat.eq_dec t ws) as [K|K].
      * specialize (E2 t K). destruct (Nat.eqb_spec t th); [congruence|]. cbn in E2. now apply negb_true_iff in E2.
      * specialize (HR t K). cbn in *. now rewrite HR.
    + eapply out_stk; [exact HR|reflexivity].
  - destruct (_ && _) eqn:E; [|discriminate]. injection H as <-. apply andb_true_iff in E as [E1 E2]. apply Z.ltb_lt in E2.
    split; [eapply s_fast; [now apply client_in|reflexivity|exact E2]|]. eapply out_stk; [exact HR|reflexivity].
  - destruct (clientb _) eqn:E; [|discriminate]. injection H as <-.
    split; [apply s_edit; now apply client_in|]. eapply out_stk; [exact HR|reflexivity].
  - destruct (clientb _) eqn:E; [|discriminate]. injection H as <-.
    split; [apply s_ask; now apply client_in|]. intros t Ht. apply HR. intros K. apply Ht. now right.
  - destruct (st_stk s th) as [|[| | |x] r] eqn:E; try discriminate. injection H as <-.
    split; [eapply s_return; eauto|]. eapply out_stk; [exact HR|reflexivity].
  - destruct (st_stk s th) as [|[| | |x] [|[g a p| | |] r]] eqn:E; try discriminate. destruct p; try discriminate. injection H as <-.
    split; [eapply s_raise; eauto|]. eapply out_stk; [exact HR|reflexivity].
  - destruct (st_stk s th) as [|[g a p|g a k b|g e h|x] r] eqn:E; try discriminate.
    + destruct (emit_step c th g a p r s) as [s'|] eqn:Es; [|discriminate]. injection H as <-.
      split; [eapply s_in_emit; eauto|]. destruct (emit_stk _ _ _ _ _ _ _ Es) as (fs & K). eapply out_stk; eauto.
    + injection H as <-. split; [now apply s_in_fast|]. unfold fast_step.
      destruct b; [|destruct (nth_error _ _)]; (eapply out_stk; [exact HR|reflexivity]).
    + destruct (edit_step th g e h r s) as [s'|] eqn:Es; [|discriminate]. injection H as <-.
      split; [eapply s_in_edit; eauto|]. unfold edit_step in Es. destruct h.
      * injection Es as <-. eapply out_stk; [exact HR|reflexivity].
      * destruct (acquire _ _); [|discriminate]. injection Es as <-. eapply out_stk; [exact HR|reflexivity].
  - injection H as <-. split; [now eapply s_gone|exact HR].
Qed.
Lemma play_steps : forall solo l s0 p p', rest_out p -> steps c solo s0 (fst p) -> play solo l p = Some p' ->
  steps c solo s0 (fst p') /\ rest_out p'.
Proof.
  intros solo l. induction l as [|x l IH]; intros s0 p p' HR HS H; cbn [play] in H.
  - injection H as <-. auto.
  - destruct (play1 solo x p) as [p1|] eqn:E; [|discriminate]. destruct (play1_step _ _ _ _ HR E) as [K1 K2].
    apply (IH s0 p1 p'); auto. eapply ss_step; eauto.
Qed.
End Play.
Arguments act : clear implicits.

Open Scope nat_scope.
Definition ran (c : setting) (solo : bool) (l : list (act nat)) : state nat :=
  match play c solo l (init, []) with Some (s, _) => s | None => init end.
Lemma ran_steps : forall c solo l, play c solo l (init, []) <> None -> steps c solo init (ran c solo l).
Proof.
  intros c solo l H. unfold ran. destruct (play c solo l (init, [])) as [[s ws]|] eqn:E; [|congruence].
  destruct (play_steps c solo l init (init, []) (s, ws)) as [K1 K2]; auto.
  - intros x _. reflexivity.
  - apply ss_refl.
Qed.

Definition plays (c : setting) (solo : bool) (l : list (act nat)) : bool :=
  match play c solo l (init, []) with Some _ => true | None => false end.
Lemma plays_steps : forall c solo l, plays c solo l = true -> steps c solo init (ran c solo l).
Proof. intros c solo l H. apply ran_steps. unfold plays in H. now destruct (play c solo l (init, [])). Qed.

(** RECURSION_LIMIT is 300. *)
Definition immediate : setting := Setting (fun _ => Immediate) 300.
Definition latest : setting := Setting (fun _ => Latest) 300.
Definition go (th n : nat) : list (act nat) := repeat (Go th) n.
(** connect slot [x] to [g]. *)
Definition conn (th g x : nat) : list (act nat) := [Edit th g (Connect (x, 0%Z)); Go th; Go th].
(** From emit to its first callback: 8 steps; from the end of a callback to the next one: 2. *)
Definition start (th g a : nat) : list (act nat) := Emit th g a :: go th 8.
Definition next (th : nat) : list (act nat) := Ret th :: go th 2.
Definition stop (th : nat) : list (act nat) := Ret th :: go th 5.

(** Thread 1 emits, and wants to connect, while thread 0 is emitting: it waits. *)
Definition two_threads : list (act nat) :=
  conn 0 7 1 ++ conn 0 7 2 ++ start 0 7 100 ++ [Emit 1 7 200; Go 1; Edit 2 7 (Connect (3, 0%Z))] ++ next 0 ++ stop 0
  ++ go 1 7 ++ next 1 ++ stop 1 ++ go 2 2.
Example C52_case : exists s : state nat, steps immediate false init s
  /\ st_log s = [Changed 0 7 [(1, 0%Z)]; Changed 0 7 [(1, 0%Z); (2, 0%Z)];
                 Began 0 7 100; Called 0 7 (1, 0%Z) 100; Called 0 7 (2, 0%Z) 100; Ended 0 7;
                 Began 1 7 200; Called 1 7 (1, 0%Z) 200; Called 1 7 (2, 0%Z) 200; Ended 1 7;
                 Changed 2 7 [(1, 0%Z); (2, 0%Z); (3, 0%Z)]].
Proof. exists (ran immediate false two_threads). split; [apply ran_steps; vm_compute; congruence|vm_compute; reflexivity]. Qed.
(** In queued mode a callback emits again: the running emission of the same thread does it. *)
Example C52_own_case : exists s : state nat, steps (Setting (fun _ => Queued) 300) false init s
  /\ st_log s = [Changed 0 7 [(1, 0%Z)]; Began 0 7 100; Called 0 7 (1, 0%Z) 100; Joined 0 7;
                 Called 0 7 (1, 0%Z) 101; Ended 0 7].
Proof.
  exists (ran (Setting (fun _ => Queued) 300) false
    (conn 0 7 1 ++ start 0 7 100 ++ [Emit 0 7 101] ++ go 0 4 ++ [Ret 0] ++ go 0 4 ++ [Ret 0] ++ go 0 6)).
  split; [apply ran_steps; vm_compute; congruence|vm_compute; reflexivity].
Qed.
(** One thread after the other; the callback of 7 emits 8, whose callback asks, too. *)
Example C53_case : exists s : state nat, steps immediate true init s
  /\ filter (fun e => match e with Asked _ _ => true | _ => false end) (st_log s)
     = [Asked 0 (Some 8); Asked 0 (Some 7); Asked 0 None; Asked 1 (Some 7); Asked 1 None].
Proof.
  exists (ran immediate true (conn 0 7 1 ++ conn 1 8 2 ++ start 0 7 100 ++ start 0 8 200 ++ [Ask 0] ++ stop 0 ++ [Ask 0]
    ++ stop 0 ++ [Ask 0] ++ start 1 7 300 ++ [Ask 1] ++ stop 1 ++ [Ask 1])).
  split; [apply ran_steps; vm_compute; congruence|vm_compute; reflexivity].
Qed.
(** Thread 0 emits 7 and from its callback 8; thread 1 waits for 7. *)
Example C62_case : exists s : state nat, steps immediate false init s
  /\ (forall th g h, wants (st_stk s th) = Some h -> has g (st_stk s th) -> (g <= h))
  /\ (forall th h, wants (st_stk s th) = Some h -> (h < 9))
  /\ wants (st_stk s 0) = Some 8 /\ wants (st_stk s 1) = Some 7 /\ has 7 (st_stk s 0).
Proof.
  set (l := conn 0 7 1 ++ conn 0 8 2 ++ start 0 7 100 ++ [Emit 0 8 200; Go 0; Emit 1 7 300; Go 1]).
  exists (ran immediate false l). split; [apply ran_steps; vm_compute; congruence|].
  split; [|split; [|split; [vm_compute; reflexivity|split; [vm_compute; reflexivity|]]]].
  - intros [|[|th]] g h K1 K2; vm_compute in K1; try discriminate; injection K1 as <-; vm_compute in K2;
      destruct K2 as (f & K2 & K3); repeat destruct K2 as [<-|K2]; (destruct K2 || (destruct K3; lia) || tauto).
  - intros [|[|th]] h K; vm_compute in K; try discriminate; injection K as <-; lia.
  - exists (InEmit 7 100 (Back None 0 100 0)). vm_compute. repeat split; auto; discriminate.
Qed.

(** ** What does not hold *)

(** The finalizer of a dead receiver removes its slot without the lock: a slot that was connected all
    the time is not called. *)
Theorem C52_gone_refuted : exists (s : state nat) l1 l2 x,
  steps immediate false init s /\ st_log s = l1 ++ Began 0 7 100 :: l2 ++ [Ended 0 7]
  /\ In x (slots_of 7 l1) /\ In x (slots_of 7 (l1 ++ Began 0 7 100 :: l2))
  /\ (forall e, In e l2 -> touches 0 7 e -> exists y, e = Gone 7 y)
  /\ forall t a, ~ In (Called t 7 x a) l2.
Proof.
  exists (ran immediate false (conn 0 7 1 ++ conn 0 7 2 ++ conn 0 7 3 ++ start 0 7 100 ++ [Die 7 1] ++ next 0 ++ stop 0)).
  exists [Changed 0 7 [(1, 0%Z)]; Changed 0 7 [(1, 0%Z); (2, 0%Z)]; Changed 0 7 [(1, 0%Z); (2, 0%Z); (3, 0%Z)]],
    [Called 0 7 (1, 0%Z) 100; Gone 7 [(2, 0%Z); (3, 0%Z)]; Called 0 7 (3, 0%Z) 100], (2, 0%Z).
  split; [apply ran_steps; vm_compute; congruence|]. split; [vm_compute; reflexivity|].
  split; [vm_compute; auto|]. split; [vm_compute; auto|]. split.
  - intros e [<-|[<-|[<-|[]]]] K; cbn in K; try tauto. eauto.
  - intros t a [K|[K|[K|[]]]]; congruence.
Qed.
(** emit_fast in another thread makes a latest-only emission call nobody. *)
Theorem C52_fast_refuted : exists (s : state nat) l1 l2,
  steps latest false init s /\ st_log s = l1 ++ Began 0 7 100 :: l2 ++ [Ended 0 7] /\ clean 0 7 l2
  /\ slots_of 7 l1 = [(1, 0%Z)] /\ calls 7 l2 = [].
Proof.
  exists (ran latest false (conn 0 7 1 ++ [Fast 1 7 50] ++ go 1 1 ++ [Emit 0 7 100] ++ go 0 7 ++ [Ret 1] ++ go 1 2 ++ go 0 4)).
  exists [Changed 0 7 [(1, 0%Z)]; CalledFast 1 7 (1, 0%Z) 50], [].
  split; [apply ran_steps; vm_compute; congruence|]. split; [vm_compute; reflexivity|].
  split; [intros e []|]. split; vm_compute; reflexivity.
Qed.
(** The recursion limit is checked before the lock is acquired: emit raises RecursionError in a
    thread that is not in any emission, when another one is deep in recursion. *)
Definition nested (n : nat) : list (act nat) := concat (repeat (start 0 7 100) n).
Definition deep_recursion : list (act nat) := conn 0 7 1 ++ nested 300 ++ [Emit 1 7 200; Go 1].
Theorem C52_limit_refuted : exists (s : state nat) l1,
  steps immediate false init s /\ st_log s = l1 ++ [Refused 1 7] /\ forall g, running 1 g l1 = 0.
Proof.
  exists (ran immediate false deep_recursion), (removelast (st_log (ran immediate false deep_recursion))).
  split; [apply plays_steps; vm_compute; reflexivity|]. split; [vm_compute; reflexivity|].
  assert (K : forallb (fun e => match e with Began t _ _ => Nat.eqb t 0 | _ => true end)
                      (removelast (st_log (ran immediate false deep_recursion))) = true) by (vm_compute; reflexivity).
  intros g. revert K. generalize (removelast (st_log (ran immediate false deep_recursion))). intros l.
  induction l as [|e l IH] using rev_ind; intros K; [reflexivity|]. rewrite running_app. rewrite forallb_app in K.
  apply andb_true_iff in K as [K1 K2]. specialize (IH K1). destruct e; auto; cbn in K2.
  - destruct th; [cbn; exact IH|discriminate].
  - rewrite IH. now destruct (_ && _).
Qed.
(** Inside a callback of signal 7 the current emitter is signal 8, which another thread emits … *)
Theorem C53_refuted : exists (s : state nat) l1,
  steps immediate false init s /\ st_log s = l1 ++ [Asked 0 (Some 8)] /\ inside 0 l1 = [7].
Proof.
  set (l := conn 0 7 1 ++ conn 0 8 2 ++ start 0 7 100 ++ start 1 8 200 ++ [Ask 0]).
  exists (ran immediate false l), (removelast (st_log (ran immediate false l))).
  split; [apply ran_steps; vm_compute; congruence|]. split; vm_compute; reflexivity.
Qed.
(** … and it can stay set for ever when all emissions are over. *)
Theorem C53_stale_refuted : exists (s : state nat) l1,
  steps immediate false init s /\ st_log s = l1 ++ [Asked 0 (Some 7)]
  /\ (forall t, inside t l1 = []) /\ forall t, st_stk s t = [].
Proof.
  set (l := conn 0 7 1 ++ conn 0 8 2 ++ start 0 7 100 ++ start 1 8 200 ++ stop 0 ++ stop 1 ++ [Ask 0]).
  exists (ran immediate false l), (removelast (st_log (ran immediate false l))).
  split; [apply ran_steps; vm_compute; congruence|]. split; [vm_compute; reflexivity|]. split.
  - intros [|[|t]]; vm_compute; reflexivity.
  - intros [|[|t]]; vm_compute; reflexivity.
Qed.
(** Two threads that emit two signals from each other's callbacks wait for each other for ever. *)
Definition stuck {A} (s : state A) : Prop :=
  wants (st_stk s 0) = Some 8 /\ wants (st_stk s 1) = Some 7
  /\ has 7 (st_stk s 0) /\ has 8 (st_stk s 1).
Lemma stuck_step : forall A c b (s s' : state A), inv s -> stuck s -> step c b s s' ->
  st_stk s' 0 = st_stk s 0 /\ st_stk s' 1 = st_stk s 1.
Proof.
  intros A c b s s' HI (W0 & W1 & H0 & H1) H. pose proof HI as [I1 I2 I3 I4 I5].
  assert (B0 : acquire 0 (g_lock (st_sig s 8)) = None).
  { apply has_holds in H1. rewrite I2 in H1. destruct (g_lock (st_sig s 8)) as [[o n]|]; cbn in H1; [|lia].
    destruct (Nat.eqb_spec o 1) as [->|]; [reflexivity|lia]. }
  assert (B1 : acquire 1 (g_lock (st_sig s 7)) = None).
  { apply has_holds in H0. rewrite I2 in H0. destruct (g_lock (st_sig s 7)) as [[o n]|]; cbn in H0; [|lia].
    destruct (Nat.eqb_spec o 0) as [->|]; [reflexivity|lia]. }
  assert (N : forall th fs (s0 : state A), th <> 0 -> th <> 1 ->
    st_stk (set_stk th fs s0) 0 = st_stk s0 0 /\ st_stk (set_stk th fs s0) 1 = st_stk s0 1).
  { intros th fs s0 K0 K1. cbn. destruct th as [|[|th]]; [congruence|congruence|]. auto. }
  assert (C : forall th, in_client (st_stk s th) -> th <> 0 /\ th <> 1).
  { intros th K. split; intros ->; [destruct (st_stk s 0) as [|[| | |]]|destruct (st_stk s 1) as [|[| | |]]]; cbn in *; try discriminate; tauto. }
  assert (C' : forall th x r, st_stk s th = InCallback x :: r -> th <> 0 /\ th <> 1).
  { intros th x r K. apply C. rewrite K. exact I. }
  destruct H.
  - destruct (C th H). now apply N.
  - destruct (C th H). now apply (N th _ (set_sig g _ s)).
  - destruct (C th H). now apply N.
  - auto.
  - destruct (C' _ _ _ H). now apply N.
  - destruct (C' _ _ _ H). now apply (N th _ (say (Failed th g) s)).
  - destruct (C' _ _ _ H). subst y. now apply (N th r (set_sig g _ s)).
  - destruct (Nat.eq_dec th 0) as [->|N0]; [|destruct (Nat.eq_dec th 1) as [->|N1]].
    + rewrite H in W0. destruct p; try discriminate. injection W0 as ->. cbn in H2. rewrite B0 in H2. discriminate.
    + rewrite H in W1. destruct p; try discriminate. injection W1 as ->. cbn in H2. rewrite B1 in H2. discriminate.
    + destruct (emit_stk c _ _ _ _ _ _ _ H2) as (fs & K). rewrite !K. destruct th as [|[|th]]; [congruence|congruence|auto].
  - assert (th <> 0 /\ th <> 1) as [N0 N1].
    { split; intros ->; [rewrite H in W0|rewrite H in W1]; discriminate. }
    unfold fast_step. destruct b0; [|destruct (nth_error _ _)]; [now apply N| |now apply (N th r (set_sig g _ s))].
    now apply (N th _ (say _ s)).
  - destruct (Nat.eq_dec th 0) as [->|N0]; [|destruct (Nat.eq_dec th 1) as [->|N1]].
    + rewrite H in W0. destruct h; try discriminate. injection W0 as ->. unfold edit_step in H2. rewrite B0 in H2. discriminate.
    + rewrite H in W1. destruct h; try discriminate. injection W1 as ->. unfold edit_step in H2. rewrite B1 in H2. discriminate.
    + unfold edit_step in H2. destruct h.
      * injection H2 as <-. destruct th as [|[|th]]; [congruence|congruence|auto].
      * destruct (acquire _ _); [|discriminate]. injection H2 as <-. destruct th as [|[|th]]; [congruence|congruence|auto].
  - auto.
Qed.
Theorem C62_refuted : exists s : state nat, steps immediate false init s
  /\ st_stk s 0 <> [] /\ st_stk s 1 <> []
  /\ forall s', steps immediate false s s' -> st_stk s' 0 = st_stk s 0 /\ st_stk s' 1 = st_stk s 1.
Proof.
  set (l := conn 0 7 1 ++ conn 0 8 2 ++ start 0 7 100 ++ start 1 8 200 ++ [Emit 0 8 300; Go 0; Emit 1 7 400; Go 1]).
  exists (ran immediate false l). assert (H : steps immediate false init (ran immediate false l)) by (apply ran_steps; vm_compute; congruence).
  split; [exact H|]. split; [vm_compute; discriminate|]. split; [vm_compute; discriminate|].
  assert (S0 : stuck (ran immediate false l)).
  { split; [vm_compute; reflexivity|]. split; [vm_compute; reflexivity|]. split.
    - exists (InEmit 7 100 (Back None 0 100 0)). vm_compute. repeat split; auto; discriminate.
    - exists (InEmit 8 200 (Back (Some 7) 0 200 0)). vm_compute. repeat split; auto; discriminate. }
  assert (HI := steps_inv _ _ _ H). clear H. intros s' H.
  assert (K : inv s' /\ st_stk s' 0 = st_stk (ran immediate false l) 0 /\ st_stk s' 1 = st_stk (ran immediate false l) 1).
  { induction H as [|s s1 s2 H IH Hs]; [auto|]. destruct (IH S0 HI) as (K1 & K2 & K3).
    split; [eapply step_inv; eauto|]. assert (S1 : stuck s1) by (unfold stuck in *; rewrite K2, K3; exact S0).
    destruct (stuck_step _ _ _ _ _ K1 S1 Hs) as [X Y]. split; congruence. }
  tauto.
Qed.

Print Assumptions C52_exclusive.
Print Assumptions C52_own.
Print Assumptions C52_complete.
Print Assumptions C53_partial.
Print Assumptions C62_ordered_partial.
Print Assumptions C52_limit_refuted.
Print Assumptions C62_refuted.
