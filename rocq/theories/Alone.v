(** Programs of an object nobody listens to.  Proof infrastructure (C108). *)

From Verif Require Import Base Core Frame Fuel Conn Prog.

Section Alone.
Context {U : Type}.
Variable C : sid -> bool.
Implicit Types w : world U.

(** What a program does when nobody listens to the signals [C]; [z]: the signals that are paused. *)
Fixpoint alone (p : prog U) (z : sid -> bool) (u : U) : (sid -> bool) * U * out :=
  match p with
  | Ret v => (z, u, Ok v)
  | Throw e => (z, u, Err e)
  | Halt => (z, u, Halted)
  | Look k => alone (k u) z u
  | Do o k =>
      match o with
      | OUsr f => let (u', r) := f u in alone (k r) z u'
      | OIsPaused s => alone (k (inl (VBool (z s)))) z u
      | OPause s => alone (k (inl VNone)) (fun x => if Nat.eqb x s then true else z x) u
      | OResume s _ => alone (k (inl VNone)) (fun x => if Nat.eqb x s then false else z x) u
      | _ => alone (k (inl VNone)) z u
      end
  end.
Definition fits (o : op U) : Prop :=
  match o with
  | OUsr _ => True
  | OEmit s _ false false | OPause s | OIsPaused s | OResume s _ => C s = true
  | _ => False
  end.
Fixpoint civil (p : prog U) : Prop :=
  match p with
  | Look k => forall u, civil (k u)
  | Do o k => fits o /\ forall x, civil (k x)
  | _ => True
  end.

Lemma civil_bind : forall p k, civil p -> (forall v, civil (k v)) -> civil (bind p k).
Proof. induction p as [v|e| |f IH|o f IH]; intros k Hp Hk; cbn in *; auto. destruct Hp. auto. Qed.
Lemma civil_catch : forall p k, civil p -> (forall v, civil (k v)) -> civil (catch p k).
Proof. induction p as [v|e| |f IH|o f IH]; intros k Hp Hk; cbn in *; auto. destruct Hp. auto. Qed.
Lemma civil_act : forall f, civil (act f).
Proof. intros f. split; [exact Logic.I|]. intros [v|e]; exact Logic.I. Qed.
Lemma civil_say : forall s a, C s = true -> civil (say s a).
Proof. intros s a H. split; [exact H|]. intros [v|e]; exact Logic.I. Qed.
Lemma civil_each : forall {A} (f : A -> prog U) l, (forall x, civil (f x)) -> civil (each f l).
Proof. induction l as [|x l IH]; intros H; [exact Logic.I|]. apply civil_bind; auto. Qed.
Lemma civil_paused : forall s r p, C s = true -> civil p -> civil (with_paused s r p).
Proof.
  intros s r p H Hp. apply civil_bind; [split; [exact H|intros [v|e]; exact Logic.I]|]. intros v.
  apply civil_bind; [split; [exact H|intros [x|e]; exact Logic.I]|]. intros _.
  apply civil_catch; [exact Hp|]. intros x. apply civil_bind; [|destruct x; intros; exact Logic.I].
  destruct v; try (split; [exact H|intros [y|e]; exact Logic.I]).
  destruct b; [exact Logic.I|split; [exact H|intros [y|e]; exact Logic.I]].
Qed.

Lemma alone_bind : forall p k z u,
  alone (bind p k) z u = match alone p z u with
                         | (z1, u1, Ok v) => alone (k v) z1 u1
                         | x => x
                         end.
Proof.
  induction p as [v|e| |f IH|o f IH]; intros k z u; cbn [bind alone]; auto.
  destruct o; auto. destruct (f0 u) as [u' r]. apply IH.
Qed.
Lemma alone_catch : forall p k z u,
  alone (catch p k) z u = match alone p z u with
                          | (z1, u1, Ok v) => alone (k (inl v)) z1 u1
                          | (z1, u1, Err e) => alone (k (inr e)) z1 u1
                          | x => x
                          end.
Proof.
  induction p as [v|e| |f IH|o f IH]; intros k z u; cbn [catch alone]; auto.
  destruct o; auto. destruct (f0 u) as [u' r]. apply IH.
Qed.

(** Nobody listens. *)
Definition mute (z : sid -> bool) w : Prop :=
  w_hook w = None
  /\ forall s, C s = true ->
     s_slots (w_sg w s) = [] /\ s_blocked (w_sg w s) = false /\ s_depth (w_sg w s) = 0 /\ s_eq (w_sg w s) = [] /\ s_paused (w_sg w s) = z s.
Definition no_call (e : event U) : Prop :=
  match e with EEmit s _ _ => C s = true | EStart _ s _ => C s = true | EEnd _ s => C s = true | _ => False end.
(** From [w] to [w'] nobody was called. *)
Definition unheard w w' : Prop :=
  (forall s, C s = false -> w_sg w' s = w_sg w s) /\ exists t, w_tr w' = w_tr w ++ t /\ Forall no_call t.
Lemma unheard_refl : forall w, unheard w w.
Proof. split; [auto|]. exists []. split; [now rewrite app_nil_r|constructor]. Qed.
Lemma unheard_trans : forall w1 w2 w3, unheard w1 w2 -> unheard w2 w3 -> unheard w1 w3.
Proof.
  intros w1 w2 w3 [H1 (t1 & T1 & F1)] [H2 (t2 & T2 & F2)]. split.
  - intros s Hs. rewrite H2, H1; auto.
  - exists (t1 ++ t2). split; [rewrite T2, T1; now rewrite app_assoc|apply Forall_app; auto].
Qed.

Lemma emit_alone : forall E s a z w, C s = true -> mute z w ->
  exists w', steps E (OEmit s a false false) w w' (Ok VNone) /\ mute z w' /\ w_usr w' = w_usr w /\ unheard w w'.
Proof.
  intros E s a z w Hs [Hh HM]. destruct (HM s Hs) as (H1 & H2 & H3 & H4 & H5).
  unfold steps. destruct (z s) eqn:Hz; rewrite ?Hz in H5.
  - exists (upd s (fun st => set_args (s_args st ++ [a]) st) (log (EEmit s a (w_usr w)) w)).
    split; [|split; [|split]].
    + exists 0. cbn [step]. unfold do_emit. cbn [w_sg log set_tr andb]. now rewrite H2, H5.
    + split; [exact Hh|]. intros x Hx. cbn. destruct (Nat.eqb_spec x s) as [->|]; cbn; auto.
    + reflexivity.
    + split; [intros x Hx; cbn; destruct (Nat.eqb_spec x s) as [->|]; [congruence|reflexivity]|].
      exists [EEmit s a (w_usr w)]. split; [reflexivity|]. repeat constructor. exact Hs.
  - set (w0 := log (EEmit s a (w_usr w)) w).
    set (w1 := upd s (fun st => set_eq (s_eq st ++ [a]) st) w0).
    set (w2 := log (EStart (w_nxt w1) s a) (enter s (set_nxt (S (w_nxt w1)) w1))).
    set (w3 := match s_mode (w_sg w s) with Queued => w2 | _ => upd s (set_eq []) w2 end).
    exists (leave s (w_cur w) (log (EEnd (w_nxt w1) s) w3)).
    assert (U2 : w_sg w2 s = set_max (Nat.max (s_max (w_sg w s)) 1) (set_depth 1 (set_eq [a] (w_sg w s)))).
    { unfold w2, enter, w1, w0. cbn. rewrite !Nat.eqb_refl. cbn. now rewrite H3, H4. }
    assert (U3 : w_sg w3 s = set_eq (match s_mode (w_sg w s) with Queued => [a] | _ => [] end) (w_sg w2 s)).
    { unfold w3. destruct (s_mode (w_sg w s)).
      - unfold upd. cbn [w_sg set_sg]. rewrite Nat.eqb_refl. reflexivity.
      - rewrite U2. reflexivity.
      - unfold upd. cbn [w_sg set_sg]. rewrite Nat.eqb_refl. reflexivity. }
    assert (O3 : forall x, x <> s -> w_sg w3 x = w_sg w x).
    { intros x Hx. apply Nat.eqb_neq in Hx. unfold w3, w2, enter, w1, w0. destruct (s_mode (w_sg w s)); cbn; rewrite ?Hx; cbn; rewrite ?Hx; cbn; rewrite ?Hx; reflexivity. }
    assert (K3 : w_hook w3 = w_hook w /\ w_usr w3 = w_usr w /\ w_tr w3 = w_tr w ++ [EEmit s a (w_usr w); EStart (w_nxt w1) s a]).
    { unfold w3, w2, enter, w1, w0. destruct (s_mode (w_sg w s)); cbn; rewrite <- ?app_assoc; auto. }
    assert (I3 : inner_loop (exec E 4) E 4 (w_nxt w1) s w2 = Some (w3, Ok VNone)).
    { unfold inner_loop. rewrite U2. cbn [s_mode set_max set_depth set_eq s_eq]. unfold w3.
      destruct (s_mode (w_sg w s)).
      - cbn [loop_slots]. unfold upd at 1. cbn [w_sg set_sg]. rewrite Nat.eqb_refl, U2. cbn [s_slots set_max set_depth set_eq]. rewrite H1. reflexivity.
      - cbn [loop_queue]. rewrite U2. cbn [s_eq set_max set_depth set_eq nth_error loop_qslots].
        rewrite U2. cbn [s_slots set_max set_depth set_eq]. rewrite H1. cbn [nth_error].
        rewrite U2. reflexivity.
      - cbn [loop_latest]. unfold upd at 1. cbn [w_sg set_sg]. rewrite Nat.eqb_refl, U2. cbn [s_slots set_max set_depth set_eq]. rewrite H1. reflexivity. }
    destruct K3 as (K1 & K2 & K3).
    split; [|split; [|split]].
    + exists 4. cbn [step]. unfold do_emit. fold w0. cbn [andb].
      assert (Hw0 : w_sg w0 = w_sg w) by reflexivity. rewrite Hw0, H2, H5.
      assert (w_hook w0 = None) as -> by exact Hh. unfold run_emit_loop. rewrite Hw0, H3.
      change (Nat.leb RECURSION_LIMIT 0) with false. cbv iota. fold w1.
      assert (s_eq (w_sg w1 s) = [a]) as -> by (unfold w1; cbn; rewrite Nat.eqb_refl; cbn; now rewrite H4).
      cbn [List.length Nat.ltb Nat.leb]. cbv zeta. fold w2. rewrite I3. reflexivity.
    + split; [unfold leave; cbn; now rewrite K1|]. intros x Hx. unfold leave. cbn.
      destruct (Nat.eqb_spec x s) as [->|N].
      * rewrite U3, U2. cbn. repeat split; auto; congruence.
      * rewrite (O3 x N). auto.
    + unfold leave. cbn. exact K2.
    + split.
      * intros x Hx. unfold leave. cbn. destruct (Nat.eqb_spec x s) as [->|N]; [congruence|auto].
      * exists [EEmit s a (w_usr w); EStart (w_nxt w1) s a; EEnd (w_nxt w1) s]. split; [|repeat constructor; exact Hs].
        unfold leave. cbn. rewrite K3. now rewrite <- app_assoc.
Qed.

Lemma resume_alone : forall E s rd z w, C s = true -> mute z w ->
  exists w', steps E (OResume s rd) w w' (Ok VNone) /\ mute (fun x => if Nat.eqb x s then false else z x) w' /\ w_usr w' = w_usr w /\ unheard w w'.
Proof.
  intros E s rd z w Hs [Hh HM]. destruct (HM s Hs) as (H1 & H2 & H3 & H4 & H5).
  set (w1 := upd s (set_paused false) w).
  assert (HS : s_slots (w_sg w1 s) = []) by (unfold w1; cbn; rewrite Nat.eqb_refl; exact H1).
  assert (M1 : mute (fun x => if Nat.eqb x s then false else z x) w1 /\ unheard w w1).
  { split.
    - split; [exact Hh|]. intros x Hx. unfold w1. cbn. destruct (Nat.eqb_spec x s) as [->|]; cbn; auto.
    - split; [intros x Hx; unfold w1; cbn; destruct (Nat.eqb_spec x s) as [->|]; [congruence|reflexivity]|].
      exists []. split; [unfold w1; cbn; now rewrite app_nil_r|constructor]. }
  destruct M1 as [M1 U1]. unfold steps.
  destruct (s_args (w_sg w1 s)) as [|q0 q] eqn:HA.
  - exists w1. split; [|auto]. exists 0. cbn [step]. unfold do_resume. fold w1. now rewrite HA.
  - exists (upd s (set_args []) w1). split; [|split; [|split]].
    + exists 0. cbn [step]. unfold do_resume. fold w1. now rewrite HA, HS.
    + destruct M1 as [A B]. split; [exact A|]. intros x Hx. specialize (B x Hx). cbn.
      unfold w1 in *. cbn in *. destruct (Nat.eqb_spec x s) as [N|N]; cbn; rewrite ?Nat.eqb_refl; cbn; [|exact B]. exact B.
    + reflexivity.
    + eapply unheard_trans; [exact U1|]. split; [intros x Hx; cbn; destruct (Nat.eqb_spec x s) as [->|]; [congruence|reflexivity]|].
      exists []. split; [cbn; now rewrite app_nil_r|constructor].
Qed.

(** Such a program ends, and does what [alone] says. *)
Lemma alone_runs : forall E p z w, civil p -> mute z w ->
  exists w', runs E p w w' (snd (alone p z (w_usr w))) /\ mute (fst (fst (alone p z (w_usr w)))) w' /\ w_usr w' = snd (fst (alone p z (w_usr w))) /\ unheard w w'.
Proof.
  intros E. induction p as [v|e| |k IH|o k IH]; intros z w HC HM; cbn [alone].
  - exists w. split; [now apply runs_ret|]. repeat split; try apply HM; auto using unheard_refl. all: apply unheard_refl.
  - exists w. split; [now apply runs_throw|]. repeat split; try apply HM; auto using unheard_refl. all: apply unheard_refl.
  - exists w. split; [now apply runs_halt|]. repeat split; try apply HM; auto using unheard_refl. all: apply unheard_refl.
  - destruct (IH (w_usr w) z w (HC (w_usr w)) HM) as (w' & HR & H). exists w'. split; [now apply runs_look|exact H].
  - destruct HC as [HF HC].
    assert (Next : forall w1 x z1, steps E o w w1 (match x with inl v => Ok v | inr e => Err e end) -> mute z1 w1 -> unheard w w1 ->
      exists w', runs E (Do o k) w w' (snd (alone (k x) z1 (w_usr w1))) /\ mute (fst (fst (alone (k x) z1 (w_usr w1)))) w'
        /\ w_usr w' = snd (fst (alone (k x) z1 (w_usr w1))) /\ unheard w w').
    { intros w1 x z1 HS HM1 HU1. destruct (IH x z1 w1 (HC x) HM1) as (w' & HR & HM' & HU & HT). exists w'. split; [|split; [exact HM'|split; [exact HU|eapply unheard_trans; eauto]]].
      apply runs_do. exists w1, (match x with inl v => Ok v | inr e => Err e end). split; [exact HS|]. destruct x; exact HR. }
    destruct o; try contradiction HF.
    + destruct cn; [contradiction HF|]. destruct ct; [contradiction HF|].
      destruct (emit_alone E s args z w HF HM) as (w1 & HS & HM1 & HU & HT). rewrite <- HU. exact (Next w1 (inl VNone) z HS HM1 HT).
    + apply (Next (upd s (set_paused true) w) (inl VNone) (fun x => if Nat.eqb x s then true else z x)).
      * exists 0. reflexivity.
      * destruct HM as [A B]. split; [exact A|]. intros x Hx. specialize (B x Hx). cbn. destruct (Nat.eqb_spec x s) as [->|]; cbn; auto. repeat split; apply B.
      * split; [intros x Hx; cbn; destruct (Nat.eqb_spec x s) as [->|]; [cbn in HF; congruence|reflexivity]|].
        exists []. split; [cbn; now rewrite app_nil_r|constructor].
    + destruct (resume_alone E s r z w HF HM) as (w1 & HS & HM1 & HU & HT). rewrite <- HU. exact (Next w1 (inl VNone) _ HS HM1 HT).
    + apply (Next w (inl (VBool (z s))) z); [|exact HM|apply unheard_refl]. exists 0. cbn [step].
      destruct HM as [_ B]. destruct (B s HF) as (_ & _ & _ & _ & ->). reflexivity.
    + destruct (f (w_usr w)) as [u' r] eqn:Hf. apply (Next (set_usr u' w) r z).
      * exists 0. cbn [step]. now rewrite Hf.
      * exact HM.
      * split; [reflexivity|]. exists []. split; [cbn; now rewrite app_nil_r|constructor].
Qed.
Lemma alone_sound : forall E p z w w' r, civil p -> mute z w -> runs E p w w' r ->
  (w_usr w', r) = (snd (fst (alone p z (w_usr w))), snd (alone p z (w_usr w))) /\ mute (fst (fst (alone p z (w_usr w)))) w' /\ unheard w w'.
Proof.
  intros E p z w w' r HC HM HR. destruct (alone_runs E p z w HC HM) as (w2 & HR2 & HM2 & HU & HT).
  destruct (runs_det E p w _ _ _ _ HR HR2) as [-> ->]. rewrite HU. auto.
Qed.
End Alone.
