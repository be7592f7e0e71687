(** Theorems about EventedModel (C47, C48). *)

From Coq Require Import Permutation.
From Verif Require Import Base Core Spec Frame Fuel Demo Client Prog Evented SpecEvented
  PropsEvented EModel SpecModel Rely ModelFacts ModelDelay.
Open Scope string_scope.
Open Scope list_scope.

(** ** C48: dependents *)
Section C48.
Context {X : Type}.

(** Whatever code uses a model through its attributes, and whatever listeners do (assign other
    fields, emit, connect, raise): when no assignment is in progress, nothing is remembered. *)
Theorem C48_clean : forall (K : mclass X) (E : env (mstate X)) p w w' r,
  readable K -> closed_deps K -> iterates K -> tame (k_values K) ->
  (forall t a v, client K (e_body E t a v)) -> (forall m a, client K (e_lib E m a)) ->
  client K p -> at_rest (w_usr w) -> runs E p w w' r -> done r -> at_rest (w_usr w').
Proof.
  intros K E p w w' r HR HC HO HT HB HL Hp (Q1 & Q2 & Q3) H Hd.
  assert (HK : forall q, client K q -> keeps (ModelFacts.R K) q) by (intros; now apply client_keeps).
  assert (H1 : ModelFacts.R K (w_usr w) (w_usr w')).
  { eapply (rely_keeps E (ModelFacts.R K) (R_refl K) (R_trans K)); eauto. }
  destruct H1 as [[H1 H2] H3].
  { split; [apply clean_tidy; now split|]. intros _. now split. }
  rewrite Q3 in H3. destruct (H2 H3). repeat split; assumption.
Qed.

(** The emissions after the comparison. *)
Lemma own_call : forall (K : mclass X) n v, own_name n -> group_call K n v = None.
Proof.
  intros K n v [HN HP]. unfold group_call, mem. cbn [existsb].
  repeat match goal with |- context [String.eqb n ?c] =>
    destruct (String.eqb_spec n c) as [->|]; [exfalso; apply HN; cbn; tauto|] end.
  cbn [orb]. destruct (starts "psygnal" n) eqn:S; [|reflexivity]. exfalso.
  assert (P : forall a b, String.prefix a b = true -> exists r, b = (a ++ r)%string).
  { induction a as [|x a IH]; intros b Hb; [now exists b|]. destruct b as [|y b]; [discriminate|]. simpl in Hb.
    destruct (ascii_dec x y) as [->|]; [|discriminate]. apply IH in Hb as (r & ->). now exists r. }
  apply P in S as (r & S). exact (HP r S).
Qed.
Lemma each_wp : forall (K : mclass X) (E : env (mstate X)) C,
  (forall n s, k_sig K n = Some s -> C s = true) ->
  (forall n, k_sig K n <> None -> own_name n) ->
  forall l u h (Q : post (U := mstate X)),
  (forall n v, In (n, v) l -> k_sig K n <> None) ->
  (forall k h' r, k <= List.length l ->
     Forall2 (fun nv x => exists s, k_sig K (fst nv) = Some s /\ x = (s, [snd nv], u)) (firstn k l) h' ->
     (k = List.length l /\ r = Ok VNone \/ (0 < k /\ exists e, r = Err e /\ listener_raised E C e)) ->
     Q u (h ++ h') r) ->
  wp E C (each (emit_event K) l) u h Q.
Proof.
  intros K E C HC HW l. induction l as [|[n v] l IH]; intros u h Q Hs HQ; cbn [each].
  - cbn [wp]. rewrite <- (app_nil_r h). apply (HQ 0); [apply le_n|constructor|auto].
  - apply wp_bind. unfold emit_event. cbn [fst snd]. rewrite own_call by (apply HW, (Hs n v); now left).
    destruct (k_sig K n) as [s|] eqn:Hn; [|exfalso; apply (Hs n v); [now left|exact Hn]].
    unfold say, call. cbn [wp finish]. rewrite (HC n s Hn). split.
    + intros _. apply IH; [intros m x Hm; apply (Hs m x); now right|].
      intros k h' r Hk HF Hr. rewrite <- app_assoc. apply (HQ (S k)); cbn; [lia| |].
      * constructor; [exists s; auto|exact HF].
      * destruct Hr as [[-> Hr]|[Hk0 Hr]]; [left; auto|right; split; [lia|exact Hr]].
    + intros e He. apply (HQ 1); cbn; [lia| |].
      * constructor; [exists s; auto|constructor].
      * right. split; [lia|]. exists e. auto.
Qed.

(** Assigning an attribute of a model all of whose signals have callbacks (which may raise, but
    do not themselves assign or emit): [touched] are the attributes assigned in the course of it
    (by setters).  Signals are emitted if one of these has another value in the end, for each
    attribute that was touched or depends on one that was and whose value is not what it was at
    the start; once, with the final value, directly assigned ones first; when all assignments
    are done; also if they raised.  A listener's exception stops the emissions, and nothing is
    remembered. *)
Theorem C48_announced : forall (K : mclass X) (E : env (mstate X)) C N name v t w w' r,
  readable K -> closed_deps K -> iterates K -> tame (k_values K) -> k_any K = true ->
  (forall n, k_sig K n <> None -> own_name n) ->
  (forall n s, k_sig K n = Some s -> C s = true) -> env_all (aloof C) E ->
  (forall n s, k_sig K n = Some s -> s_slots (w_sg w s) <> []) ->
  k_sig K name <> None -> declared K name t -> at_rest (w_usr w) ->
  runs E (model_setattr K (S (S N)) name v (todo_prog K (S (S N)) t)) w w' r -> done r ->
  let d := m_data (w_usr w) in
  let '(a, d', how) := effect K t d in
  let touched := name :: a in
  let differ := differs K (m_ops (w_usr w)) d d' in
  exists l1 l2 tr u k,
    w_tr w' = w_tr w ++ tr
    /\ at_rest (w_usr w') /\ m_data (w_usr w') = d'
    /\ NoDup (map fst (l1 ++ l2))
    /\ (forall n x, In (n, x) l1 <-> In n touched /\ differ n /\ k_get K n d' = inl x)
    /\ (forall n x, In (n, x) l2 <-> (exists m, In m touched /\ differ m) /\ ~ In n touched
          /\ (exists f, In f touched /\ In n (k_deps K f)) /\ differ n /\ k_get K n d' = inl x)
    /\ m_data u = d'
    /\ Forall2 (fun nx e => exists s, k_sig K (fst nx) = Some s /\ e = (s, [snd nx], u))
         (firstn k (l1 ++ l2)) (heard C tr)
    /\ (k = List.length (l1 ++ l2) /\ r = match how with inl x => Ok x | inr e => Err e end
        \/ 0 < k <= List.length (l1 ++ l2) /\ exists e, r = Err e /\ listener_raised E C e).
Proof.
  intros K E C N name v t w w' r HR HC HO HT HA HW HCs HE HL Hn HD (Q1 & Q2 & Q3) H Hd. cbv zeta.
  set (d := m_data (w_usr w)). set (u0 := w_usr w) in *.
  set (len := fun s => Z.of_nat (List.length (s_slots (w_sg w s)))).
  assert (Hlen : forall n s, k_sig K n = Some s -> (0 < len s)%Z).
  { intros n s Hs. specialize (HL n s Hs). unfold len. destruct (s_slots (w_sg w s)); [congruence|cbn; lia]. }
  unfold model_setattr in H. destruct (k_sig K name) as [s0|] eqn:Hname; [|congruence]. rewrite HA in H.
  unfold delayed, seq in H. apply runs_bind in H as (w1 & r1 & H1 & H).
  assert (E1 : w1 = set_usr (set_sema 1 u0) w /\ r1 = Ok VNone).
  { eapply (qeval_runs len E) with (u := set_sema 1 u0) (x := inl VNone) in H1; [exact H1|reflexivity|].
    cbn. fold u0. now rewrite Q3. }
  destruct E1 as [-> ->]. cbv beta iota in H. set (u1 := set_sema 1 u0) in *.
  assert (T1 : tidy K u1) by (apply clean_tidy; split; [exact Q1|exact Q2]).
  unfold try_finally in H. apply runs_catch in H as (w2 & r2 & H2 & H).
  destruct (note_evolves K HR HC HO name u1) as (u2 & HN & V2 & D2); [congruence|exact T1|].
  destruct (todo_evolves K HR HC HO HA len Hlen (S N) t name HD u2) as (u3 & HQ3 & D3 & V3).
  { now apply (ev_tidy _ _ _ _ V2). }
  { rewrite (ev_sema _ _ _ _ V2). cbn. discriminate. }
  { intros _. split.
    - apply sget_keys, (ev_keys _ _ _ _ V2 T1). right. left. now left.
    - intros m Hm. apply sget_keys, (ev_keys _ _ _ _ V2 T1). right. right. exists name. split; [now left|exact Hm]. }
  rewrite D2 in D3, HQ3, V3. change (m_data u1) with d in D3, HQ3, V3.
  destruct (effect K t d) as [[a d'] how]. cbn [fst snd] in *.
  assert (V : evolves K (name :: a) u1 u3) by exact (evolves_trans K [name] a u1 u2 u3 V2 V3).
  assert (E2 : w2 = set_usr u3 w /\ r2 = match how with inl x => Ok x | inr e => Err e end).
  { eapply (qeval_runs len E) with (u := u3) (x := how) in H2; [exact H2|reflexivity|].
    cbn [w_usr set_usr]. rewrite (impl_eval K HC HO len Hlen) by congruence. unfold seq. rewrite qeval_bind.
    cbn [act call qeval]. rewrite HN. cbn [fst snd finish qeval]. exact HQ3. }
  destruct E2 as [-> ->].
  assert (H' : runs E (bind (leave_delay ;; check_and_emit K (S (S N))) (fun _ => finish how)) (set_usr u3 w) w' r).
  { destruct how; exact H. }
  clear H. rename H' into H.
  pose proof (ev_tidy _ _ _ _ V T1) as T3.
  assert (S3 : m_sema u3 = 1) by (rewrite (ev_sema _ _ _ _ V); reflexivity).
  set (u4 := set_sema 0 u3). assert (T4 : tidy K u4) by (destruct T3; split; assumption).
  destruct (compare_spec K HR HO HT u4 T4) as (u5 & l1 & l2 & HX & D5 & S5 & C5 & ND & L1 & L2).
  assert (PR : forall n, In n (m_prim u4) <-> In n (name :: a)).
  { intros n. cbn [m_prim set_sema u4]. rewrite (ev_prim _ _ _ _ V). change (m_prim u1) with (m_prim u0). rewrite Q2. cbn. tauto. }
  assert (KY : forall n, sget n (m_queue u4) <> None <-> noted K (name :: a) n).
  { intros n. cbn [m_queue set_sema u4]. rewrite sget_keys, (ev_keys _ _ _ _ V T1). change (m_queue u1) with (m_queue u0).
    rewrite Q1. cbn [map In]. tauto. }
  assert (OV : forall n o, sget n (m_queue u4) = Some o -> exists x, o = Some x /\ k_get K n d = inl x).
  { intros n o Ho. apply (ev_new _ _ _ _ V T1); [|exact Ho]. change (m_queue u1) with (m_queue u0). now rewrite Q1. }
  assert (OP : m_ops u4 = m_ops u0) by (cbn; rewrite (ev_ops _ _ _ _ V); reflexivity).
  assert (MV : forall n x, moved K u4 n x <-> noted K (name :: a) n /\ differs K (m_ops u0) d d' n /\ k_get K n d' = inl x).
  { intros n x. unfold moved, differs. rewrite OP. change (m_data u4) with (m_data u3). rewrite D3. split.
    - intros (M1 & o & M2 & M3). split; [apply KY; congruence|]. split; [|exact M1].
      destruct (OV n o M2) as (y & -> & M4). exists y, x. auto.
    - intros (M1 & (y & z & M2 & M3 & M4) & M5). split; [exact M5|]. apply KY in M1.
      destruct (sget n (m_queue u4)) as [o|] eqn:Ho; [|congruence]. exists o. split; [reflexivity|].
      destruct (OV n o Ho) as (y' & -> & M6). congruence. }
  destruct (wp_sound E C HE _ _ _ _ H Hd []
    (fun u h r => at_rest u /\ m_data u = d' /\ exists ux k, m_data ux = d' /\
       Forall2 (fun nx e => exists s, k_sig K (fst nx) = Some s /\ e = (s, [snd nx], ux)) (firstn k (l1 ++ l2)) h
       /\ (k = List.length (l1 ++ l2) /\ r = match how with inl x => Ok x | inr e => Err e end
           \/ 0 < k <= List.length (l1 ++ l2) /\ exists e, r = Err e /\ listener_raised E C e)))
    as (tr & TR & A1 & A2 & ux & k & A3 & A4 & A5).
  { cbn [w_usr set_usr]. apply wp_bind. apply wp_bind. cbn [leave_delay own act call wp fst snd finish].
    rewrite S3. change (set_sema (1 - 1) u3) with u4. cbn [check_and_emit wp].
    change (m_sema u4) with 0. cbn [Nat.ltb Nat.leb orb].
    assert (Hq : m_queue u4 <> []).
    { intros Hq. assert (Hk : sget name (m_queue u4) <> None) by (apply KY; left; now left). rewrite Hq in Hk. now apply Hk. }
    assert (SG : forall n x, In (n, x) (l1 ++ l2) -> k_sig K n <> None).
    { intros n x Hi. assert (M : moved K u4 n x) by (apply in_app_iff in Hi as [Hi|Hi]; [apply L1 in Hi|apply L2 in Hi]; tauto).
      apply (td_sig K u4 T4). apply MV in M as (M & _). apply sget_keys, KY, M. }
    destruct (m_queue u4) as [|q0 q] eqn:Hq4; [congruence|]. rewrite HX.
    change (m_data u4) with (m_data u3) in D5. rewrite D3 in D5. change (m_sema u4) with 0 in S5. destruct C5 as [C5 C6].
    assert (Done : forall u h, at_rest u -> m_data u = d' -> forall ux k, m_data ux = d' ->
       Forall2 (fun nx e => exists s, k_sig K (fst nx) = Some s /\ e = (s, [snd nx], ux)) (firstn k (l1 ++ l2)) h ->
       k = List.length (l1 ++ l2) ->
       wp E C (finish how) u h (fun u h r => at_rest u /\ m_data u = d' /\ exists ux k, m_data ux = d' /\
         Forall2 (fun nx e => exists s, k_sig K (fst nx) = Some s /\ e = (s, [snd nx], ux)) (firstn k (l1 ++ l2)) h
         /\ (k = List.length (l1 ++ l2) /\ r = match how with inl x => Ok x | inr e => Err e end
             \/ 0 < k <= List.length (l1 ++ l2) /\ exists e, r = Err e /\ listener_raised E C e))).
    { intros u h Hu Hdu ux k Hx HF Hk. destruct how; cbn [finish wp]; (split; [exact Hu|]); (split; [exact Hdu|]);
        exists ux, k; auto. }
    clear L1 L2 ND HX. clear Hq4 Hq. destruct (l1 ++ l2) as [|e l] eqn:El.
    - cbn [own act call wp fst snd finish]. apply (Done u5 []) with (ux := u5) (k := 0); auto; [|constructor].
      repeat split; assumption.
    - apply wp_bind. cbn [own act call wp fst snd finish]. apply wp_bind.
      cbn [enter_delay own act call wp fst snd finish]. rewrite S5. unfold try_finally. apply wp_catch.
      apply (each_wp K E C HCs HW); [exact SG|].
      intros k h' rr Hk HF Hrr. cbn [app].
      assert (U6 : set_sema (m_sema (set_sema 1 u5) - 1) (set_sema 1 u5) = set_sema 0 u5) by reflexivity.
      assert (Rest : at_rest (set_sema 0 u5)) by (repeat split; assumption).
      assert (Dx : m_data (set_sema 0 u5) = d') by exact D5.
      assert (Hchk : forall Q : post (U := mstate X), Q (set_sema 0 u5) h' (Ok VNone) ->
        wp E C (leave_delay ;; check_and_emit K (S N)) (set_sema 1 u5) h' Q).
      { intros Q HQ. apply wp_bind. cbn [leave_delay own act call wp fst snd finish]. rewrite U6.
        cbn [check_and_emit wp]. change (m_sema (set_sema 0 u5)) with 0. cbn [Nat.ltb Nat.leb orb].
        change (m_queue (set_sema 0 u5)) with (m_queue u5). rewrite C5. cbn [wp]. exact HQ. }
      destruct Hrr as [[Hk' ->]|(Hk0 & ex & -> & Hex)].
      + apply wp_bind. apply Hchk. cbn [finish wp]. apply (Done _ h' Rest Dx) with (ux := set_sema 1 u5) (k := k); auto.
      + apply wp_bind. apply Hchk. cbn [finish wp]. split; [exact Rest|]. split; [exact Dx|].
        exists (set_sema 1 u5), k. split; [exact D5|]. split; [exact HF|]. right. split; [lia|]. eauto. }
  exists l1, l2, tr, ux, k. split; [exact TR|]. split; [exact A1|]. split; [exact A2|]. split; [exact ND|].
  split. { intros n x. rewrite L1, PR, MV. unfold noted. tauto. }
  split.
  { intros n x. rewrite L2, PR, MV. unfold noted. split.
    - intros ((m & y & M1 & M2) & M3 & M4 & M5 & M6). split.
      + exists m. apply PR in M1. apply MV in M2. tauto.
      + split; [exact M3|]. split; [destruct M4; [contradiction|assumption]|auto].
    - intros ((m & M1 & M2) & M3 & M4 & M5 & M6). split; [|tauto].
      destruct M2 as (yo & y & Y1 & Y2 & Y3). exists m, y. split; [now apply PR|]. apply MV. split; [left; exact M1|].
      split; [exists yo, y; auto|exact Y2]. }
  split; [exact A3|]. split; [exact A4|exact A5].
Qed.

(** A model nobody listens to: assignments, also those made by setters, do what they would do without signals, and nothing
    else: no attribute is read and no values are compared (no operator is replaced, C45_sticky_refuted), nothing is emitted or
    remembered. *)
Section Unheard.
Variable K : mclass X.
Variable len : sid -> Z.
Hypothesis HC : closed_deps K.
Hypothesis HO : iterates K.
Hypothesis HL : forall n s, k_sig K n = Some s -> len s = 0%Z.
Hypothesis HA : len (k_all K) = 0%Z.
Lemma listening_none : forall l k u, (forall d, In d l -> k_sig K d <> None) ->
  qeval len (listening K l [] k) u = qeval len (k []) u.
Proof.
  induction l as [|d l IH]; intros k u Hl; cbn [listening]; [reflexivity|].
  destruct (k_sig K d) as [s|] eqn:Hd; [|exfalso; apply (Hl d); [now left|exact Hd]].
  cbn [qeval]. rewrite (HL d s Hd). cbn [positive Z.ltb Z.compare]. apply IH. intros x Hx. apply Hl. now right.
Qed.
Lemma quiet_set : forall N name v sup (g : content X -> content X * (val + exn)) u, m_queue u = [] ->
  (forall u, m_queue u = [] -> qeval len sup u = Some (set_data (fst (g (m_data u))) u, snd (g (m_data u)))) ->
  qeval len (model_setattr K (S N) name v sup) u = Some (set_data (fst (g (m_data u))) u, snd (g (m_data u))).
Proof.
  intros N name v sup g u HQ HS. unfold model_setattr. destruct (k_sig K name) as [s|] eqn:Hn; [|now apply HS].
  destruct (k_any K).
  - unfold delayed, seq. rewrite qeval_bind. cbn [enter_delay own act call qeval fst snd finish]. rewrite qeval_finally.
    unfold setattr_impl. rewrite Hn, listening_none.
    2:{ intros d Hd. apply (proj1 (order_In K HO _ _)) in Hd. eauto. }
    cbn [qeval]. rewrite (HL _ _ Hn). cbn [positive Z.ltb Z.compare orb qeval]. rewrite HA. cbn [positive Z.ltb Z.compare].
    rewrite HS by exact HQ. rewrite qeval_bind. cbn [leave_delay own act call qeval fst snd finish check_and_emit].
    cbn [m_queue set_sema set_data]. rewrite HQ, Bool.orb_true_r. cbn [qeval]. f_equal. f_equal.
    destruct u. cbn. now rewrite Nat.sub_0_r.
  - unfold setattr_plain. cbn [qeval]. rewrite (HL _ _ Hn). cbn [positive Z.ltb Z.compare]. now apply HS.
Qed.
Lemma quiet_todo : forall N t u, m_queue u = [] ->
  qeval len (todo_prog K (S N) t) u = Some (set_data (snd (fst (effect K t (m_data u)))) u, snd (effect K t (m_data u))).
Proof.
  intros N t. induction t as [f|l IH] using todo_ind2; intros u HQ.
  - cbn [todo_prog act call qeval fst snd effect]. destruct (snd (f (m_data u))); reflexivity.
  - revert u HQ. induction l as [|[[n v] t] l IHl]; intros u HQ; [destruct u; reflexivity|].
    change (todo_prog K (S N) (Setter ((n, v, t) :: l)))
      with (model_setattr K (S N) n v (todo_prog K (S N) t) ;; todo_prog K (S N) (Setter l)).
    unfold seq. rewrite qeval_bind.
    rewrite (quiet_set N n v _ (fun d => (snd (fst (effect K t d)), snd (effect K t d)))).
    2:{ exact HQ. }
    2:{ intros u1 HQ1. apply (IH n v t (or_introl eq_refl)). exact HQ1. }
    cbn [fst snd].
    assert (HE : effect K (Setter ((n, v, t) :: l)) (m_data u) =
        let '(a, d1, r) := effect K t (m_data u) in
        let a := match k_sig K n with Some _ => n :: a | None => a end in
        match r with
        | inl _ => let '(b, d2, r2) := effect K (Setter l) d1 in (a ++ b, d2, r2)
        | inr e => (a, d1, inr e)
        end) by reflexivity.
    rewrite HE. clear HE. destruct (effect K t (m_data u)) as [[a d1] [x|e]]; cbn [fst snd]; [|reflexivity].
    rewrite (IHl (fun n' v' t' H' => IH n' v' t' (or_intror H'))) by exact HQ. cbn [m_data set_data].
    destruct (effect K (Setter l) d1) as [[b d2] r2]. reflexivity.
Qed.
End Unheard.
Theorem C48_unheard : forall (K : mclass X) (E : env (mstate X)) N name v t w w' r,
  closed_deps K -> iterates K ->
  (forall n s, k_sig K n = Some s -> s_slots (w_sg w s) = []) -> s_slots (w_sg w (k_all K)) = [] ->
  at_rest (w_usr w) ->
  runs E (model_setattr K (S N) name v (todo_prog K (S N) t)) w w' r ->
  let '(_, d', how) := effect K t (m_data (w_usr w)) in
  w' = set_usr (set_data d' (w_usr w)) w /\ r = match how with inl x => Ok x | inr e => Err e end.
Proof.
  intros K E N name v t w w' r HC HO HL HA (HQ & _) H.
  set (len := fun s => Z.of_nat (List.length (s_slots (w_sg w s)))).
  assert (QE := quiet_set K len HC HO).
  assert (L0 : forall n s, k_sig K n = Some s -> len s = 0%Z) by (intros n s Hs; unfold len; now rewrite (HL n s Hs)).
  assert (A0 : len (k_all K) = 0%Z) by (unfold len; now rewrite HA).
  specialize (QE L0 A0 N name v (todo_prog K (S N) t) (fun d => (snd (fst (effect K t d)), snd (effect K t d))) (w_usr w) HQ
    (fun u1 HQ1 => quiet_todo K len HC HO L0 A0 N t u1 HQ1)). cbn [fst snd] in QE.
  destruct (effect K t (m_data (w_usr w))) as [[a d'] how]. cbn [fst snd] in QE.
  eapply (qeval_runs len E); [reflexivity|exact QE|exact H].
Qed.
End C48.
Print Assumptions C48_clean.
Print Assumptions C48_announced.
Print Assumptions C48_unheard.

(** ** C47: fields without dependents *)
Section C47.
Context {X : Type}.

(** The field is stored as given (the validator does not change the value): the signal is
    emitted iff the new value differs from the old one, with the new value, when it is stored.
    (Models with dependents: C48_announced, there the emitted value is the one stored.) *)
Theorem C47_partial : forall (K : mclass X) (E : env (mstate X)) C N name s v f w w' r,
  readable K -> tame (k_values K) -> k_any K = false -> own_name name -> k_sig K name = Some s -> C s = true ->
  env_all (aloof C) E -> s_slots (w_sg w s) <> [] ->
  (forall d x, snd (f d) = inl x -> k_get K name (fst (f d)) = inl v) ->
  runs E (model_setattr K N name v (todo_prog K N (Field f))) w w' r -> done r ->
  let d := m_data (w_usr w) in
  let d' := fst (f d) in
  m_data (w_usr w') = d'
  /\ exists tr, w_tr w' = w_tr w ++ tr
  /\ match snd (f d) with
     | inr e => heard C tr = [] /\ r = Err e
     | inl _ =>
         (~ differs K (m_ops (w_usr w)) d d' name /\ heard C tr = [] /\ r = Ok VNone)
         \/ (differs K (m_ops (w_usr w)) d d' name
             /\ exists u, m_data u = d' /\ heard C tr = [(s, [v], u)]
             /\ ((exists x, r = Ok x) \/ exists e, r = Err e /\ listener_raised E C e))
     end.
Proof.
  intros K E C N name s v f w w' r HR HT HA HW Hs HCs HE HL HV H Hd. cbv zeta.
  unfold model_setattr in H. rewrite Hs, HA in H. unfold setattr_plain in H.
  apply runs_do in H as (w1 & r1 & H1 & H).
  apply steps_pure in H1; [|reflexivity]. unfold pure_step in H1. cbn [step] in H1. injection H1 as <- <-.
  assert (Hp : positive (inl (VInt (Z.of_nat (List.length (s_slots (w_sg w s)))))) = true).
  { apply Z.ltb_lt. destruct (s_slots (w_sg w s)); [congruence|cbn; lia]. }
  rewrite Hp in H. destruct (HR name (m_data (w_usr w))) as [old Hold]; [congruence|].
  set (u0 := w_usr w) in *. set (d := m_data u0) in *.
  destruct (wp_sound E C HE _ _ _ _ H Hd [] (fun u h r => m_data u = fst (f d) /\
    match snd (f d) with
     | inr e => h = [] /\ r = Err e
     | inl _ =>
         (~ differs K (m_ops u0) d (fst (f d)) name /\ h = [] /\ r = Ok VNone)
         \/ (differs K (m_ops u0) d (fst (f d)) name
             /\ exists u, m_data u = fst (f d) /\ h = [(s, [v], u)]
             /\ ((exists x, r = Ok x) \/ exists e, r = Err e /\ listener_raised E C e))
     end)) as (tr & T & A).
  { cbn [wp]. fold u0. unfold get_default. fold d. rewrite Hold. apply wp_bind.
    cbn [todo_prog act call wp fst snd]. fold d. specialize (HV d). destruct (snd (f d)) as [x|e].
    2:{ cbn. auto. }
    specialize (HV x eq_refl). cbn [finish wp]. cbn [m_ops set_data].
    destruct (check_ok K HT name v (Some old) (m_ops u0)) as (ops & b & Hc). rewrite Hc.
    pose proof (check_equal_spec _ _ _ _ _ _ _ Hc) as Hb. apply wp_bind. cbn [own act call wp fst snd finish].
    assert (HDf : differs K (m_ops u0) d (fst (f d)) name <->
                  changed (k_values K) (op_of (m_ops u0) name) (Some v) (Some old)).
    { unfold differs. split; [intros (o & n & A1 & A2 & A3); congruence|]. intros Hx. exists old, v. auto. }
    destruct b.
    - cbn [wp]. split; [reflexivity|]. left. split; [|auto]. rewrite HDf. intros Hx. exact (changed_not K _ _ _ Hx Hb).
    - unfold emit_event. cbn [fst snd]. rewrite (own_call K name v HW), Hs. unfold say, call. cbn [wp finish]. rewrite HCs. cbn [app].
      split; [intros y|intros e He]; (split; [reflexivity|]); right; (split; [now apply HDf|]); eexists;
        (split; [|split; [reflexivity|]]); [reflexivity|eauto|reflexivity|right; exists e; auto]. }
  destruct A as [A1 A2]. split; [exact A1|]. exists tr. split; [exact T|exact A2].
Qed.
(** The same if the field has no value before (it was deleted, or the model was made without it): the value it gets is new unless
    its == says that it is equal to a fresh object(). *)
Theorem C47_missing_partial : forall (K : mclass X) (E : env (mstate X)) C N name s v f w w' r,
  tame (k_values K) -> k_any K = false -> own_name name -> k_sig K name = Some s -> C s = true ->
  env_all (aloof C) E -> s_slots (w_sg w s) <> [] ->
  k_get K name (m_data (w_usr w)) = inr EAttribute ->
  (forall d x, snd (f d) = inl x -> k_get K name (fst (f d)) = inl v) ->
  runs E (model_setattr K N name v (todo_prog K N (Field f))) w w' r -> done r ->
  let d := m_data (w_usr w) in
  let d' := fst (f d) in
  m_data (w_usr w') = d'
  /\ exists tr, w_tr w' = w_tr w ++ tr
  /\ match snd (f d) with
     | inr e => heard C tr = [] /\ r = Err e
     | inl _ =>
         (~ changed (k_values K) (op_of (m_ops (w_usr w)) name) (Some v) None /\ heard C tr = [] /\ r = Ok VNone)
         \/ (changed (k_values K) (op_of (m_ops (w_usr w)) name) (Some v) None
             /\ exists u, m_data u = d' /\ heard C tr = [(s, [v], u)]
             /\ ((exists x, r = Ok x) \/ exists e, r = Err e /\ listener_raised E C e))
     end.
Proof.
  intros K E C N name s v f w w' r HT HA HW Hs HCs HE HL Hold HV H Hd. cbv zeta.
  unfold model_setattr in H. rewrite Hs, HA in H. unfold setattr_plain in H.
  apply runs_do in H as (w1 & r1 & H1 & H).
  apply steps_pure in H1; [|reflexivity]. unfold pure_step in H1. cbn [step] in H1. injection H1 as <- <-.
  assert (Hp : positive (inl (VInt (Z.of_nat (List.length (s_slots (w_sg w s)))))) = true).
  { apply Z.ltb_lt. destruct (s_slots (w_sg w s)); [congruence|cbn; lia]. }
  rewrite Hp in H. 
  set (u0 := w_usr w) in *. set (d := m_data u0) in *.
  destruct (wp_sound E C HE _ _ _ _ H Hd [] (fun u h r => m_data u = fst (f d) /\
    match snd (f d) with
     | inr e => h = [] /\ r = Err e
     | inl _ =>
         (~ changed (k_values K) (op_of (m_ops u0) name) (Some v) None /\ h = [] /\ r = Ok VNone)
         \/ (changed (k_values K) (op_of (m_ops u0) name) (Some v) None
             /\ exists u, m_data u = fst (f d) /\ h = [(s, [v], u)]
             /\ ((exists x, r = Ok x) \/ exists e, r = Err e /\ listener_raised E C e))
     end)) as (tr & T & A).
  { cbn [wp]. fold u0. unfold get_default. fold d. rewrite Hold. apply wp_bind.
    cbn [todo_prog act call wp fst snd]. fold d. specialize (HV d). destruct (snd (f d)) as [x|e].
    2:{ cbn. auto. }
    specialize (HV x eq_refl). cbn [finish wp]. cbn [m_ops set_data].
    destruct (check_ok K HT name v None (m_ops u0)) as (ops & b & Hc). rewrite Hc.
    pose proof (check_equal_spec _ _ _ _ _ _ _ Hc) as Hb. apply wp_bind. cbn [own act call wp fst snd finish].
    destruct b.
    - cbn [wp]. split; [reflexivity|]. left. split; [|auto]. intros Hx. exact (changed_not K _ _ _ Hx Hb).
    - unfold emit_event. cbn [fst snd]. rewrite (own_call K name v HW), Hs. unfold say, call. cbn [wp finish]. rewrite HCs. cbn [app].
      split; [intros y|intros e He]; (split; [reflexivity|]); right; (split; [exact Hb|]); eexists;
        (split; [|split; [reflexivity|]]); [reflexivity|eauto|reflexivity|right; exists e; auto]. }
  destruct A as [A1 A2]. split; [exact A1|]. exists tr. split; [exact T|exact A2].
Qed.
End C47.
Print Assumptions C47_partial.
Print Assumptions C47_missing_partial.

(** ** Cases *)

(** Integers are compared by value; other values are never equal. *)
Definition M_values : values := Values
  (fun _ x y => match x, y with Some (VInt a), Some (VInt b) => inl (Z.eqb a b) | _, _ => inl false end)
  (fun x y => match x, y with Some (VInt a), Some (VInt b) => Z.eqb a b | _, _ => false end)
  (fun _ => false) false.
Definition int_of (d : string -> option val) (n : string) : Z :=
  match d n with Some (VInt z) => z | _ => 0%Z end.
(** A class with fields a and b, and the properties total = a + b and low = min(a, 0), which
    depend on them; the setter of total assigns a := total and b := 0. *)
Definition M_get (n : string) (d : content unit) : val + exn :=
  if String.eqb n "total" then inl (VInt (int_of (fst d) "a" + int_of (fst d) "b")%Z)
  else if String.eqb n "low" then inl (VInt (Z.min (int_of (fst d) "a") 0))
  else inl (VInt (int_of (fst d) n)).
Definition M_sig (n : string) : option sid :=
  if String.eqb n "a" then Some 1 else if String.eqb n "b" then Some 2
  else if String.eqb n "total" then Some 3 else if String.eqb n "low" then Some 4 else None.
Definition M_deps (n : string) : list string :=
  if String.eqb n "a" then ["total"; "low"] else if String.eqb n "b" then ["total"] else [].
Definition M_class : mclass unit := MClass M_sig 0 M_deps true M_get M_values (fun l => l).
Definition put (n : string) (v : val) (d : string -> option val) : string -> option val :=
  fun m => if String.eqb m n then Some v else d m.
(** Validation: integers, and strings, which count as 7; the negative ones are refused. *)
Definition coerce (v : val) : val := match v with VStr _ => VInt 7 | _ => v end.
Definition M_field (n : string) (v : val) : todo unit :=
  Field (fun d => match coerce v with
                  | VInt z => if Z.ltb z 0 then (d, inr EValue) else ((put n (VInt z) (fst d), snd d), inl VNone)
                  | _ => (d, inr EType)
                  end).
Definition M_total (v : val) : todo unit := Setter [("a", v, M_field "a" v); ("b", VInt 0, M_field "b" (VInt 0))].
Definition M_start : mstate unit := MState ((fun n => Some (VInt (if String.eqb n "a" then 1 else 2)%Z)), tt) [] [] 0 [].

Lemma M_readable : readable M_class.
Proof. intros n d _. cbn. unfold M_get. destruct (String.eqb n "total"), (String.eqb n "low"); eauto. Qed.
Lemma M_closed : closed_deps M_class.
Proof.
  intros n d H. cbn in *. unfold M_deps in H. destruct (String.eqb n "a"); [destruct H as [<-|[<-|[]]]; discriminate|].
  destruct (String.eqb n "b"); [destruct H as [<-|[]]; discriminate|destruct H].
Qed.
Lemma M_iterates : iterates M_class.
Proof. intros l. apply Permutation_refl. Qed.
Lemma M_tame : tame M_values.
Proof. intros op x y n. unfold run_op. destruct op, x as [[]|], y as [[]|]; discriminate. Qed.

(** A listener on b raises; the other signals have listeners that do nothing. *)
Definition C48_env : env (mstate unit) := demo (fun f a => match f with 2 => Throw (EUser 1) | _ => Ret VNone end).
Definition C48_world := world_of C48_env (all_plain Immediate 1) M_start 50 [conn 1 1 0; conn 2 2 0; conn 3 3 0; conn 4 4 0].
Definition C48_do (v : val) : prog (mstate unit) := model_setattr M_class 2 "total" v (todo_prog M_class 2 (M_total v)).
(** a = 5 announces a and total (low stays 0); total = 1 leaves a as it is and announces total
    and b, whose listener raises. *)
Example C48_announced_case :
  (forall n, k_sig M_class n <> None -> own_name n)
  /\ (forall n s, k_sig M_class n = Some s -> s_slots (w_sg C48_world s) <> [])
  /\ env_all (aloof (fun _ => true)) C48_env
  /\ declared M_class "total" (M_total (VInt 3)) /\ at_rest (w_usr C48_world)
  /\ outcome C48_env 50 (model_setattr M_class 2 "a" (VInt 5) (todo_prog M_class 2 (M_field "a" (VInt 5)))) C48_world = Some (Ok VNone)
  /\ map (fun x => fst x) (heard (fun _ => true) (w_tr (after C48_env 50
       (model_setattr M_class 2 "a" (VInt 5) (todo_prog M_class 2 (M_field "a" (VInt 5)))) C48_world)))
     = [(1, [VInt 5%Z]); (3, [VInt 7%Z])]
  /\ outcome C48_env 50 (C48_do (VInt 1)) C48_world = Some (Err (EEmitLoop (Some 2) 0 (EUser 1)))
  /\ map (fun x => fst x) (heard (fun _ => true) (w_tr (after C48_env 50 (C48_do (VInt 1)) C48_world)))
     = [(3, [VInt 1%Z]); (2, [VInt 0%Z])]
  /\ effect M_class (M_total (VInt (-1))) (m_data M_start) = (["a"], m_data M_start, inr EValue).
Proof.
  split.
  { intros n H. cbn [k_sig M_class] in H. unfold M_sig in H.
    repeat (match type of H with (if String.eqb n ?c then _ else _) <> _ => destruct (String.eqb_spec n c) as [?|?] end;
      [clear H; subst n; split; [cbn; intuition discriminate|intros r ?; discriminate]|]). congruence. }
  split.
  { intros n s H. cbn in H. unfold M_sig in H.
    repeat (match type of H with (if ?c then _ else _) = _ => destruct c end; [injection H as <-; vm_compute; discriminate|]).
    discriminate. }
  split; [apply demo_all; intros f a; allp|]. split.
  { cbn. assert (HP : forall n v m x, m <> n -> put n v x m = x m).
    { intros n v m x Hm. unfold put. apply String.eqb_neq in Hm. now rewrite Hm. }
    repeat split; intros d m Hs Hn; unfold M_get, int_of; cbn [fst];
      (destruct (String.eqb_spec m "total") as [->|]; [exfalso; apply Hn; cbn; intuition discriminate|]);
      (destruct (String.eqb_spec m "low") as [->|]; [try (exfalso; apply Hn; cbn; intuition discriminate); reflexivity|]);
      (rewrite HP; [reflexivity|]); intros ->; apply Hn; cbn; intuition discriminate. }
  vm_compute. repeat split.
Qed.

(** Listeners that assign other attributes and raise: a's listener assigns b, b's listener
    raises unless b is 0. *)
Definition C48_body (f : oid) (a : list val) : prog (mstate unit) :=
  match f, a with
  | 1, _ => model_setattr M_class 9 "b" (VInt 9) (todo_prog M_class 9 (M_field "b" (VInt 9)))
  | 2, [VInt 0] => Ret VNone
  | 2, _ => Throw (EUser 1)
  | _, _ => Ret VNone
  end.
Definition C48_env2 : env (mstate unit) := demo C48_body.
Lemma field_client : forall N n v, client M_class (todo_prog M_class N (M_field n v)).
Proof.
  intros N n v. constructor; [|intros [x|x]; constructor]. intros u. cbn. repeat split.
Qed.
Lemma total_client : forall N v, client M_class (todo_prog M_class N (M_total v)).
Proof.
  intros N v. cbn [M_total todo_prog]. apply cl_bind; [apply cl_set, (field_client N "a")|]. intros _.
  apply cl_bind; [apply cl_set, (field_client N "b")|]. constructor.
Qed.
Definition C48_do2 (v : val) : prog (mstate unit) :=
  model_setattr M_class 9 "total" v (todo_prog M_class 9 (M_total v)).
Definition C48_world2 := world_of C48_env2 (all_plain Immediate 1) M_start 50 [conn 1 1 0; conn 2 2 0; conn 3 3 0].
Example C48_clean_case :
  readable M_class /\ closed_deps M_class /\ iterates M_class /\ tame (k_values M_class)
  /\ (forall t a v, client M_class (e_body C48_env2 t a v)) /\ (forall m a, client M_class (e_lib C48_env2 m a))
  /\ client M_class (C48_do2 (VInt 5)) /\ at_rest (w_usr C48_world2)
  /\ (exists e, outcome C48_env2 90 (C48_do2 (VInt 5)) C48_world2 = Some (Err e))
  /\ map (fun x => fst x) (heard (fun _ => true) (w_tr (after C48_env2 90 (C48_do2 (VInt 5)) C48_world2)))
     = [(3, [VInt 5%Z]); (1, [VInt 5%Z]); (2, [VInt 0%Z]); (2, [VInt 9%Z])].
Proof.
  split; [apply M_readable|]. split; [apply M_closed|]. split; [apply M_iterates|]. split; [apply M_tame|].
  split.
  { intros t a v.
    assert (HB : forall f l, client M_class (C48_body f l)).
    { intros [|[|[|f]]] l; try apply cl_ret; [apply cl_set, field_client|]. destruct l as [|[| |[]| | | | | |] [|]]; constructor. }
    destruct t; cbn [C48_env2 demo e_body]; (apply cl_ret || apply HB). }
  split; [intros; constructor|]. split; [apply cl_set, total_client|]. split; [vm_compute; auto|]. split.
  - eexists. vm_compute. reflexivity.
  - vm_compute. reflexivity.
Qed.

(** A listener on another signal (5) does not matter. *)
Definition C48_world3 := world_of C48_env (all_plain Immediate 1) M_start 50 [conn 5 1 0].
Example C48_unheard_case :
  (forall n s, k_sig M_class n = Some s -> s_slots (w_sg C48_world3 s) = []) /\ s_slots (w_sg C48_world3 (k_all M_class)) = []
  /\ at_rest (w_usr C48_world3) /\ k_any M_class = true
  /\ outcome C48_env 50 (C48_do (VInt 5)) C48_world3 = Some (Ok VNone)
  /\ s_slots (w_sg C48_world3 5) <> [].
Proof.
  split.
  { intros n s H. cbn [k_sig M_class] in H. unfold M_sig in H.
    destruct (String.eqb n "a"); [|destruct (String.eqb n "b"); [|destruct (String.eqb n "total"); [|destruct (String.eqb n "low")]]];
      [injection H as <-; vm_compute; reflexivity..|discriminate]. }
  vm_compute. repeat split; try reflexivity; discriminate.
Qed.
(** A class like that without the properties, that is, without dependents. *)
Definition F_class : mclass unit := MClass (fun n => if String.eqb n "a" then Some 1 else if String.eqb n "b" then Some 2 else None)
  0 (fun _ => []) false M_get M_values (fun l => l).
Definition C47_do (v : val) : prog (mstate unit) := model_setattr F_class 2 "a" v (todo_prog F_class 2 (M_field "a" v)).
Definition C47_heard (v : val) : list (sid * list val) :=
  map (fun x => fst x) (heard (fun _ => true) (w_tr (after C48_env 50 (C47_do v) C48_world))).
Definition same_store : content unit -> content unit * (val + exn) := fun d => ((put "a" (VInt 5) (fst d), snd d), inl VNone).
Example C47_case :
  readable F_class /\ k_any F_class = false /\ own_name "a" /\ k_sig F_class "a" = Some 1
  /\ s_slots (w_sg C48_world 1) <> []
  /\ (forall d x, snd (same_store d) = inl x -> k_get F_class "a" (fst (same_store d)) = inl (VInt 5))
  /\ M_field "a" (VInt 5) = Field same_store
  /\ outcome C48_env 50 (C47_do (VInt 5)) C48_world = Some (Ok VNone)
  /\ C47_heard (VInt 5) = [(1, [VInt 5%Z])] /\ C47_heard (VInt 1) = []
  /\ C47_heard (VInt (-1)) = [] /\ outcome C48_env 50 (C47_do (VInt (-1))) C48_world = Some (Err EValue).
Proof.
  split. { intros n d _. cbn. unfold M_get. destruct (String.eqb n "total"), (String.eqb n "low"); eauto. }
  split; [reflexivity|]. split; [split; [cbn; intuition discriminate|intros r E; discriminate]|].
  split; [reflexivity|]. split; [vm_compute; discriminate|]. split; [reflexivity|].
  split; [reflexivity|]. vm_compute. repeat split.
Qed.

(** The field a has been deleted. *)
Definition G_class : mclass unit := MClass (fun n => if String.eqb n "a" then Some 1 else None) 0 (fun _ => []) false
  (fun n d => match fst d n with Some v => inl v | None => inr EAttribute end) M_values (fun l => l).
Definition G_world := world_of C48_env (all_plain Immediate 1) (MState ((fun _ => None), tt) [] [] 0 []) 50 [conn 1 1 0].
Definition G_do : prog (mstate unit) := model_setattr G_class 2 "a" (VInt 5) (todo_prog G_class 2 (M_field "a" (VInt 5))).
Example C47_missing_case :
  k_get G_class "a" (m_data (w_usr G_world)) = inr EAttribute /\ s_slots (w_sg G_world 1) <> []
  /\ (forall d x, snd (same_store d) = inl x -> k_get G_class "a" (fst (same_store d)) = inl (VInt 5))
  /\ outcome C48_env 50 G_do G_world = Some (Ok VNone)
  /\ map (fun x => fst x) (heard (fun _ => true) (w_tr (after C48_env 50 G_do G_world))) = [(1, [VInt 5%Z])].
Proof.
  split; [vm_compute; reflexivity|]. split; [vm_compute; discriminate|]. split; [reflexivity|]. vm_compute. now split.
Qed.

(** The value given is emitted and compared, not the one stored: after a = 7, assigning the
    string "7" emits "7" although the field keeps its value 7; from another value, it emits "7"
    and not 7.  (EM:626-635.) *)
Theorem C47_refuted : exists (E : env (mstate unit)) (w w1 w2 : world (mstate unit)) v1 v2,
  readable F_class /\ tame (k_values F_class) /\ reachable E w
  /\ runs E (C47_do v1) w w1 (Ok VNone) /\ runs E (C47_do v2) w1 w2 (Ok VNone)
  /\ k_get F_class "a" (m_data (w_usr w1)) = inl (VInt 7)
  /\ k_get F_class "a" (m_data (w_usr w2)) = inl (VInt 7)
  /\ ~ differs F_class (m_ops (w_usr w1)) (m_data (w_usr w1)) (m_data (w_usr w2)) "a"
  /\ exists a b, w_tr w2 = w_tr w1 ++ a /\ w_tr w1 = w_tr w ++ b
     /\ map (fun x => fst x) (heard (fun _ => true) a) = [(1, [VStr "7"])]
     /\ map (fun x => fst x) (heard (fun _ => true) b) = [(1, [VStr "7"])].
Proof.
  set (w1 := after C48_env 50 (C47_do (VStr "7")) C48_world).
  set (w2 := after C48_env 50 (C47_do (VStr "7")) w1).
  exists C48_env, C48_world, w1, w2, (VStr "7"), (VStr "7").
  split; [apply C47_case|]. split; [apply M_tame|]. split; [reach|].
  split; [apply after_runs; vm_compute; reflexivity|]. split; [apply after_runs; vm_compute; reflexivity|].
  split; [vm_compute; reflexivity|]. split; [vm_compute; reflexivity|]. split.
  { intros (o & n & H1 & H2 & H3).
    assert (o = VInt 7) as -> by (vm_compute in H1; congruence). assert (n = VInt 7) as -> by (vm_compute in H2; congruence).
    assert (op_of (m_ops (w_usr w1)) "a" = OpEq) as Ho by (vm_compute; reflexivity). rewrite Ho in H3.
    assert (K : equals M_values OpEq (Some (VInt 7)) (Some (VInt 7)) (inl true)).
    { constructor. apply (an_op M_values OpEq). discriminate. }
    pose proof (equals_fun _ _ _ _ _ _ H3 K). discriminate. }
  exists (skipn (List.length (w_tr w1)) (w_tr w2)), (skipn (List.length (w_tr C48_world)) (w_tr w1)).
  vm_compute. repeat split.
Qed.
Print Assumptions C47_refuted.

(** A property with a setter whose getter raises (anything but AttributeError): assigning it
    raises, as it should, but the name stays in _primary_changes without an entry in
    _changes_queue (EM:661-671, 570-573): from then on every assignment of any attribute raises
    KeyError, also when the getter works again; the fields are changed and no signal is
    emitted. *)
Definition P_get (n : string) (d : content bool) : val + exn :=
  if String.eqb n "temp" then (if snd d then inl (VInt 0) else inr EValue) else inl (VInt (int_of (fst d) n)).
Definition P_class : mclass bool := MClass
  (fun n => if String.eqb n "a" then Some 1 else if String.eqb n "temp" then Some 2 else if String.eqb n "twice" then Some 3 else None)
  0 (fun n => if String.eqb n "a" then ["twice"] else []) true P_get M_values (fun l => l).
Definition P_field (n : string) (v : val) : todo bool := Field (fun d => ((put n v (fst d), snd d), inl VNone)).
Definition P_set (n : string) (v : val) : prog (mstate bool) := model_setattr P_class 9 n v (todo_prog P_class 9 (P_field n v)).
(** The device behind temp is switched on or off. *)
Definition P_switch (b : bool) : prog (mstate bool) := own (fun u => set_data (fst (m_data u), b) u).
Definition P_env : env (mstate bool) := demo (fun f a => Ret VNone).
Definition P_world (l : list (op (mstate bool))) : world (mstate bool) :=
  world_of P_env (all_plain Immediate 1) (MState ((fun _ => Some (VInt 0)), false) [] [] 0 []) 50 l.
Theorem C48_refuted : exists (w w1 w2 w3 w4 : world (mstate bool)),
  closed_deps P_class /\ iterates P_class /\ tame (k_values P_class)
  /\ at_rest (w_usr w) /\ reachable P_env w
  /\ runs P_env (P_set "temp" (VInt 5)) w w1 (Err EValue)
  /\ runs P_env (P_switch true) w1 w2 (Ok VNone)
  /\ (forall n, k_get P_class n (m_data (w_usr w2)) <> inr EValue)
  /\ runs P_env (P_set "a" (VInt 1)) w2 w3 (Err EKey)
  /\ runs P_env (P_set "a" (VInt 2)) w3 w4 (Err EKey)
  /\ k_get P_class "a" (m_data (w_usr w4)) = inl (VInt 2)
  /\ heard (fun _ => true) (w_tr w4) = []
  /\ ~ at_rest (w_usr w1) /\ ~ at_rest (w_usr w4).
Proof.
  set (w := P_world [conn 1 1 0; conn 2 2 0; conn 3 3 0]).
  set (w1 := after P_env 50 (P_set "temp" (VInt 5)) w).
  set (w2 := after P_env 50 (P_switch true) w1).
  set (w3 := after P_env 50 (P_set "a" (VInt 1)) w2).
  exists w, w1, w2, w3, (after P_env 50 (P_set "a" (VInt 2)) w3).
  split. { intros n d H. cbn in *. destruct (String.eqb n "a"); [destruct H as [<-|[]]; discriminate|destruct H]. }
  split; [intros l; apply Permutation_refl|]. split; [apply M_tame|]. split; [vm_compute; auto|]. split; [reach|].
  split; [apply after_runs; vm_compute; reflexivity|]. split; [apply after_runs; vm_compute; reflexivity|].
  split. { assert (H : snd (m_data (w_usr w2)) = true) by (vm_compute; reflexivity). intros n. change (P_get n (m_data (w_usr w2)) <> inr EValue). unfold P_get. rewrite H.
           destruct (String.eqb n "temp"); discriminate. }
  split; [apply after_runs; vm_compute; reflexivity|]. split; [apply after_runs; vm_compute; reflexivity|].
  split; [vm_compute; reflexivity|]. split; [vm_compute; reflexivity|].
  split; intros (H1 & H2 & H3); vm_compute in H2; discriminate.
Qed.
Print Assumptions C48_refuted.
