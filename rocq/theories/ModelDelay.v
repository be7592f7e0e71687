(** Assignments of an EventedModel while comparisons are delayed.  Proof infrastructure. *)

From Coq Require Import Permutation.
From Verif Require Import Base Core Spec Frame Fuel Client Prog Evented SpecEvented PropsEvented
  EModel SpecModel Rely ModelFacts.
Open Scope string_scope.
Open Scope list_scope.

(** ** Programs that only use the own data and ask for the number of callbacks *)
Section Quiet.
Context {X : Type}.
Implicit Types u : mstate X.
Variable len : sid -> Z.
Fixpoint qeval (p : prog (mstate X)) (u : mstate X) : option (mstate X * (val + exn)) :=
  match p with
  | Ret v => Some (u, inl v)
  | Throw e => Some (u, inr e)
  | Look k => qeval (k u) u
  | Do (OUsr f) k => qeval (k (snd (f u))) (fst (f u))
  | Do (OLen s) k => qeval (k (inl (VInt (len s)))) u
  | _ => None
  end.
Lemma qeval_bind : forall p k u, qeval (bind p k) u =
  match qeval p u with
  | Some (u1, inl v) => qeval (k v) u1
  | Some (u1, inr e) => Some (u1, inr e)
  | None => None
  end.
Proof.
  intros p; induction p as [v|e| |f IH|o f IH]; intros k u; cbn; auto. destruct o; auto.
Qed.
Lemma qeval_catch : forall p k u, qeval (catch p k) u =
  match qeval p u with Some (u1, x) => qeval (k x) u1 | None => None end.
Proof.
  intros p; induction p as [v|e| |f IH|o f IH]; intros k u; cbn; auto. destruct o; auto.
Qed.
Lemma qeval_finally : forall p q u, qeval (try_finally p q) u =
  match qeval p u with
  | Some (u1, x) => match qeval q u1 with
                    | Some (u2, inl _) => Some (u2, x)
                    | Some (u2, inr e) => Some (u2, inr e)
                    | None => None
                    end
  | None => None
  end.
Proof.
  intros p q u. unfold try_finally. rewrite qeval_catch. destruct (qeval p u) as [[u1 x]|]; [|reflexivity].
  rewrite qeval_bind. destruct (qeval q u1) as [[u2 [v|e]]|]; [|reflexivity|reflexivity]. now destruct x.
Qed.
Lemma set_usr_same : forall {U} (w : world U), set_usr (w_usr w) w = w.
Proof. intros U w. now destruct w. Qed.
Lemma qeval_runs : forall (E : env (mstate X)) p w w' r u x,
  (forall s, len s = Z.of_nat (List.length (s_slots (w_sg w s)))) ->
  qeval p (w_usr w) = Some (u, x) -> runs E p w w' r ->
  w' = set_usr u w /\ r = match x with inl v => Ok v | inr e => Err e end.
Proof.
  intros E p; induction p as [v|e| |f IH|o f IH]; intros w w' r u x HL HQ H; cbn in HQ; try discriminate.
  - injection HQ as <- <-. apply runs_ret in H as [-> ->]. now rewrite set_usr_same.
  - injection HQ as <- <-. apply runs_throw in H as [-> ->]. now rewrite set_usr_same.
  - apply runs_look in H. eapply IH; eauto.
  - apply runs_do in H as (w1 & r1 & HS & H). destruct o; try discriminate.
    + apply steps_pure in HS; [|reflexivity]. unfold pure_step in HS. cbn [step] in HS. injection HS as <- <-.
      rewrite HL in HQ. eapply IH; eauto.
    + apply steps_pure in HS; [|reflexivity]. unfold pure_step in HS. cbn [step] in HS.
      destruct (f0 (w_usr w)) as [u1 y]. injection HS as <- <-. cbn [fst snd] in HQ.
      assert (H1 : runs E (f y) (set_usr u1 w) w' r) by (destruct y; exact H).
      destruct (IH y (set_usr u1 w) w' r u x HL HQ H1) as [-> ->]. auto.
Qed.
End Quiet.

(** ** The assignments of a setter, comparisons delayed *)
Section Delayed.
Context {X : Type} (K : mclass X).
Hypothesis HR : readable K.
Hypothesis HC : closed_deps K.
Hypothesis HO : iterates K.
Hypothesis HT : tame (k_values K).
Hypothesis HA : k_any K = true.
Implicit Types u : mstate X.
Variable len : sid -> Z.
Hypothesis HL : forall n s, k_sig K n = Some s -> (0 < len s)%Z.
Notation qeval := (qeval len).
Notation tidy := (tidy K).

(** Attributes whose value is remembered when [l] were assigned. *)
Definition noted (l : list string) (n : string) : Prop := In n l \/ exists f, In f l /\ In n (k_deps K f).
Record evolves (l : list string) (u u' : mstate X) : Prop := {
  ev_tidy : tidy u -> tidy u';
  ev_sema : m_sema u' = m_sema u;
  ev_ops : m_ops u' = m_ops u;
  ev_prim : forall n, In n (m_prim u') <-> In n l \/ In n (m_prim u);
  ev_keys : tidy u -> forall n, In n (map fst (m_queue u')) <-> In n (map fst (m_queue u)) \/ noted l n;
  ev_old : tidy u -> forall n v, sget n (m_queue u) = Some v -> sget n (m_queue u') = Some v;
  ev_new : tidy u -> forall n v, sget n (m_queue u) = None -> sget n (m_queue u') = Some v ->
    exists x, v = Some x /\ k_get K n (m_data u) = inl x;
  ev_rest : tidy u -> forall n, k_sig K n <> None -> sget n (m_queue u') = None ->
    k_get K n (m_data u') = k_get K n (m_data u)
}.
Lemma evolves_refl : forall u, evolves [] u u.
Proof.
  intros u. split; auto; try (intros; cbn; tauto).
  - intros _ n. unfold noted. cbn. firstorder.
  - intros _ n v H1 H2. congruence.
Qed.
Lemma evolves_trans : forall a b u u1 u2, evolves a u u1 -> evolves b u1 u2 -> evolves (a ++ b) u u2.
Proof.
  intros a b u u1 u2 [A1 A2 A3 A4 A5 A6 A7 A8] [B1 B2 B3 B4 B5 B6 B7 B8]. split; auto.
  - congruence.
  - congruence.
  - intros n. rewrite B4, A4, in_app_iff. tauto.
  - intros H n. rewrite B5, A5 by auto. unfold noted.
    assert (Hx : (exists f, In f (a ++ b) /\ In n (k_deps K f)) <->
                 (exists f, In f a /\ In n (k_deps K f)) \/ (exists f, In f b /\ In n (k_deps K f))).
    { split.
      - intros (f & Hf & Hn). apply in_app_iff in Hf as [Hf|Hf]; eauto.
      - intros [(f & Hf & Hn)|(f & Hf & Hn)]; exists f; rewrite in_app_iff; auto. }
    rewrite Hx, in_app_iff. tauto.
  - intros H n v H1 H2. destruct (sget n (m_queue u1)) as [v1|] eqn:E1.
    + rewrite (B6 (A1 H) n v1 E1) in H2. injection H2 as <-. eauto.
    + destruct (B7 (A1 H) n v E1 H2) as (x & -> & Hx). exists x. split; [reflexivity|].
      rewrite <- Hx. symmetry. apply A8; auto.
      assert (Hk : In n (map fst (m_queue u2))) by (apply sget_keys; congruence).
      apply (td_sig K u2 (B1 (A1 H))). exact Hk.
  - intros H n Hn H2. assert (E1 : sget n (m_queue u1) = None).
    { destruct (sget n (m_queue u1)) as [v1|] eqn:E1; [|reflexivity]. rewrite (B6 (A1 H) n v1 E1) in H2. discriminate. }
    rewrite B8 by auto. apply A8; auto.
Qed.
Lemma listening_all : forall l acc k u, (forall d, In d l -> k_sig K d <> None) ->
  qeval (listening K l acc k) u = qeval (k (acc ++ l)) u.
Proof.
  induction l as [|d l IH]; intros acc k u Hl; cbn [listening]; [now rewrite app_nil_r|].
  destruct (k_sig K d) as [s|] eqn:Hd; [|exfalso; apply (Hl d); [now left|exact Hd]].
  cbn [ModelDelay.qeval]. assert (Hp : positive (inl (VInt (len s))) = true) by (apply Z.ltb_lt; eauto).
  rewrite Hp, IH, <- app_assoc; [reflexivity|]. intros x Hx. apply Hl. now right.
Qed.
Lemma impl_eval : forall name sup u, k_sig K name <> None ->
  qeval (setattr_impl K name sup) u = qeval (act (note K name (k_order K (k_deps K name))) ;; sup) u.
Proof.
  intros name sup u Hn. unfold setattr_impl. destruct (k_sig K name) as [s|] eqn:Hs; [|congruence].
  rewrite listening_all; [|intros d Hd; apply (proj1 (order_In K HO _ _)) in Hd; eauto].
  cbn [ModelDelay.qeval app]. assert (Hp : positive (inl (VInt (len s))) = true) by (apply Z.ltb_lt; eauto).
  now rewrite Hp.
Qed.
Lemma note_evolves : forall name u, k_sig K name <> None -> tidy u -> exists u',
  note K name (k_order K (k_deps K name)) u = (u', inl VNone)
  /\ evolves [name] u u' /\ m_data u' = m_data u.
Proof.
  intros name u Hn Ht.
  destruct (note_ok K HR HO name (k_order K (k_deps K name)) u Hn) as (u' & A & B & C & D & F & G & H & I & J); auto.
  { intros d Hd. apply (proj1 (order_In K HO _ _)) in Hd. eauto. }
  exists u'. split; [exact A|]. split; [|exact C]. split; auto.
  - intros n. rewrite G. cbn. intuition congruence.
  - intros _ n. rewrite H. unfold noted. cbn. rewrite order_In by exact HO. split.
    + intros [X1|[->|X1]]; [auto|right; left; now left|right; right; exists name; split; [now left|exact X1]].
    + intros [X1|[[<-|[]]|(f & [<-|[]] & X1)]]; auto.
  - intros _ n _ _. now rewrite C.
Qed.

Section TodoInd.
Variable P : todo X -> Prop.
Hypothesis HF : forall f, P (Field f).
Hypothesis HS : forall l, (forall n v t, In (n, v, t) l -> P t) -> P (Setter l).
Fixpoint todo_ind2 (t : todo X) : P t :=
  match t with
  | Field f => HF f
  | Setter l => HS l ((fix go l : forall n v t, In (n, v, t) l -> P t :=
      match l with
      | [] => fun n v t H => match H with end
      | (n0, v0, t0) :: l => fun n v t H =>
          match H with
          | or_introl e => match f_equal snd e in _ = y return P y with eq_refl => todo_ind2 t0 end
          | or_intror H => go l n v t H
          end
      end) l)
  end.
End TodoInd.

Lemma evolves_sema : forall l u u' n n', evolves l (set_sema n u) u' -> m_sema u = n' -> evolves l u (set_sema n' u').
Proof.
  intros l u u' n n' [A1 A2 A3 A4 A5 A6 A7 A8] <-. 
  assert (HS : forall x k, tidy x -> tidy (set_sema k x)) by (intros x k [P1 P2 P3 P4]; split; assumption).
  split; cbn in *; auto.
Qed.

(** One assignment inside a ComparisonDelayer. *)
Lemma set_evolves : forall N name v t d', k_sig K name <> None ->
  (forall u, tidy u -> m_sema u <> 0 -> sget name (m_queue u) <> None ->
     (forall m, In m (k_deps K name) -> sget m (m_queue u) <> None) ->
     exists u', qeval (todo_prog K (S N) t) u = Some (u', snd (effect K t (m_data u)))
       /\ m_data u' = snd (fst (effect K t (m_data u)))
       /\ evolves (fst (fst (effect K t (m_data u)))) u u') ->
  forall u, tidy u -> m_sema u <> 0 -> m_data u = d' ->
  exists u', qeval (model_setattr K (S N) name v (todo_prog K (S N) t)) u = Some (u', snd (effect K t d'))
    /\ m_data u' = snd (fst (effect K t d')) /\ evolves (name :: fst (fst (effect K t d'))) u u'.
Proof.
  intros N name v t d' Hn IH u Ht Hs <-. unfold model_setattr. destruct (k_sig K name) as [s|] eqn:Hsig; [|congruence].
  rewrite HA. unfold delayed, seq. rewrite qeval_bind.
  cbn [enter_delay own act call ModelDelay.qeval fst snd finish]. rewrite qeval_finally, impl_eval by congruence.
  unfold seq at 1. rewrite qeval_bind. cbn [act call ModelDelay.qeval].
  set (u0 := set_sema (S (m_sema u)) u). assert (T0 : tidy u0) by (destruct Ht; split; assumption).
  destruct (note_evolves name u0) as (u1 & -> & V1 & D1); [congruence|exact T0|]. cbn [fst snd finish ModelDelay.qeval].
  pose proof V1 as [A1 A2 A3 A4 A5 A6 A7 A8].
  destruct (IH u1) as (u2 & -> & D2 & V2).
  { auto. }
  { rewrite A2. cbn. discriminate. }
  { apply sget_keys, A5; [exact T0|]. right. left. now left. }
  { intros m Hm. apply sget_keys, A5; [exact T0|]. right. right. exists name. split; [now left|exact Hm]. }
  rewrite D1 in *. change (m_data u0) with (m_data u) in *.
  cbn [leave_delay own act call bind ModelDelay.qeval fst snd finish check_and_emit].
  assert (S2 : m_sema u2 = S (m_sema u)) by (rewrite (ev_sema _ _ _ V2), A2; reflexivity).
  cbn [m_sema set_sema]. rewrite S2. replace (S (m_sema u) - 1) with (m_sema u) by lia.
  destruct (Nat.ltb_spec 0 (m_sema u)) as [_|Hz]; [|lia]. cbn [orb ModelDelay.qeval].
  exists (set_sema (m_sema u) u2). split; [reflexivity|]. split; [exact D2|].
  eapply evolves_sema; [|reflexivity]. exact (evolves_trans [name] _ _ _ _ V1 V2).
Qed.

Lemma todo_evolves : forall N t name, declared K name t ->
  forall u, tidy u -> m_sema u <> 0 ->
  (k_sig K name <> None -> sget name (m_queue u) <> None /\
     forall m, In m (k_deps K name) -> sget m (m_queue u) <> None) ->
  exists u', qeval (todo_prog K (S N) t) u = Some (u', snd (effect K t (m_data u)))
    /\ m_data u' = snd (fst (effect K t (m_data u)))
    /\ evolves (fst (fst (effect K t (m_data u)))) u u'.
Proof.
  intros N t. induction t as [f|l IH] using todo_ind2; intros name HD u Ht Hs Hq.
  - cbn [todo_prog act call ModelDelay.qeval fst snd effect]. eexists. split.
    { destruct (snd (f (m_data u))); reflexivity. }
    split; [reflexivity|]. split; cbn; auto; try tauto.
    + intros [T1 T2 T3 T4]. split; assumption.
    + intros _ n. unfold noted. cbn. firstorder.
    + intros _ n v H1 H2. congruence.
    + intros _ n Hn H0. apply HD; [exact Hn|]. intros [Hname [->|Hd]].
      * now apply (proj1 (Hq Hname)).
      * now apply (proj2 (Hq Hname) n Hd).
  - clear Hq. revert u Ht Hs HD. induction l as [|[[n v] t] l IHl]; intros u Ht Hs HD.
    + cbn. exists u. split; [reflexivity|]. split; [reflexivity|apply evolves_refl].
    + destruct HD as [HD HDl].
      change (todo_prog K (S N) (Setter ((n, v, t) :: l)))
        with (model_setattr K (S N) n v (todo_prog K (S N) t) ;; todo_prog K (S N) (Setter l)).
      unfold seq. rewrite qeval_bind.
      assert (HE : effect K (Setter ((n, v, t) :: l)) (m_data u) =
        let '(a, d1, r) := effect K t (m_data u) in
        let a := match k_sig K n with Some _ => n :: a | None => a end in
        match r with
        | inl _ => let '(b, d2, r2) := effect K (Setter l) d1 in (a ++ b, d2, r2)
        | inr e => (a, d1, inr e)
        end) by reflexivity.
      rewrite HE. clear HE.
      assert (H1 : exists u1, qeval (model_setattr K (S N) n v (todo_prog K (S N) t)) u = Some (u1, snd (effect K t (m_data u)))
        /\ m_data u1 = snd (fst (effect K t (m_data u)))
        /\ evolves (match k_sig K n with Some _ => n :: fst (fst (effect K t (m_data u)))
                                       | None => fst (fst (effect K t (m_data u))) end) u u1).
      { destruct (k_sig K n) as [s|] eqn:Hn.
        - apply (set_evolves N n v t (m_data u)); [congruence| |exact Ht|exact Hs|reflexivity].
          intros u0 T0 S0 Q0 Q1. apply (IH n v t (or_introl eq_refl) n HD u0 T0 S0). auto.
        - unfold model_setattr. rewrite Hn. apply (IH n v t (or_introl eq_refl) n HD u Ht Hs). congruence. }
      destruct H1 as (u1 & -> & D1 & V1).
      destruct (effect K t (m_data u)) as [[a d1] r]. cbn [fst snd] in *. subst d1.
      destruct r as [x|e].
      * destruct (IHl (fun n' v' t' H' => IH n' v' t' (or_intror H')) u1) as (u2 & -> & D2 & V2).
        { now apply (ev_tidy _ _ _ V1). }
        { now rewrite (ev_sema _ _ _ V1). }
        { exact HDl. }
        destruct (effect K (Setter l) (m_data u1)) as [[b d2] r2]. cbn [fst snd] in *.
        exists u2. split; [reflexivity|]. split; [exact D2|]. exact (evolves_trans _ _ _ _ _ V1 V2).
      * exists u1. auto.
Qed.
End Delayed.

(** ** What is announced *)
Section Compare.
Context {X : Type} (K : mclass X).
Hypothesis HR : readable K.
Hypothesis HO : iterates K.
Hypothesis HT : tame (k_values K).
Implicit Types u : mstate X.

Lemma check_ops : forall name a b ops ops' x n, n <> name ->
  check_equal (k_values K) name a b ops = (ops', x) -> op_of ops' n = op_of ops n.
Proof.
  intros name a b ops ops' x n Hn H. unfold op_of.
  enough (sget n ops' = sget n ops) as -> by reflexivity.
  unfold check_equal in H. destruct a as [a|]; [|now injection H as <- _]. cbv zeta in H.
  assert (S1 : forall v (l : list (string * eqop)), sget n (sset name v l) = sget n l).
  { intros v l. rewrite sget_sset. destruct (String.eqb_spec n name); congruence. }
  repeat match type of H with
         | context [match ?c with _ => _ end] => destruct c
         | context [if ?c then _ else _] => destruct c
         end; injection H as <- _; now rewrite ?S1.
Qed.
Lemma changed_not : forall op a b, changed (k_values K) op a b -> ~ unchanged (k_values K) op a b.
Proof.
  intros op a b H1 H2. unfold changed, unchanged in *. destruct a; [|contradiction].
  pose proof (equals_fun _ _ _ _ _ _ H1 H2). discriminate.
Qed.
(** [n] has the new value [v] and is remembered with another one. *)
Definition moved u (n : string) (v : val) : Prop :=
  k_get K n (m_data u) = inl v /\ exists old, sget n (m_queue u) = Some old
    /\ changed (k_values K) (op_of (m_ops u) n) (Some v) old.
Lemma primaries_spec : forall names emits u, NoDup names ->
  (forall n, In n names -> In n (map fst (m_queue u))) ->
  (forall n, In n (map fst (m_queue u)) -> k_sig K n <> None) -> is_dict (m_queue u) ->
  exists u' l, primaries K names emits u = (u', inl (emits ++ l))
    /\ m_data u' = m_data u /\ m_sema u' = m_sema u /\ is_dict (m_queue u')
    /\ (forall n, In n (map fst (m_queue u')) <-> In n (map fst (m_queue u)) /\ ~ In n names)
    /\ (forall n, ~ In n names -> sget n (m_queue u') = sget n (m_queue u))
    /\ (forall n, ~ In n names -> op_of (m_ops u') n = op_of (m_ops u) n)
    /\ NoDup (map fst l)
    /\ (forall n v, In (n, v) l <-> In n names /\ moved u n v).
Proof.
  induction names as [|n names IH]; intros emits u HN Hin Hs Hd; cbn [primaries].
  - exists u, []. rewrite app_nil_r. repeat (split; [reflexivity|]). split; [exact Hd|].
    split; [cbn; tauto|]. split; [auto|]. split; [auto|]. split; [constructor|]. cbn. tauto.
  - inversion HN as [|? ? Hn HN']; subst.
    assert (Hk : In n (map fst (m_queue u))) by (apply Hin; now left).
    destruct (sget n (m_queue u)) as [old|] eqn:Hold; [|now apply sget_keys in Hk].
    destruct (HR n (m_data u) (Hs n Hk)) as [new Hnew]. rewrite Hnew.
    destruct (check_ok K HT n new old (m_ops u)) as (ops & b & Hc). rewrite Hc.
    pose proof (check_equal_spec _ _ _ _ _ _ _ Hc) as Hb.
    cbn [set_mops m_queue set_queue].
    destruct (IH (if b then emits else emits ++ [(n, new)])
                 (set_queue (sdel n (m_queue u)) (set_mops ops u))) as (u' & l & A & B & C & D & F & G & H & I & J).
    + exact HN'.
    + intros m Hm. cbn. apply sdel_keys. split; [apply Hin; now right|]. intros ->. contradiction.
    + cbn. intros m Hm. apply sdel_keys in Hm as [Hm _]. auto.
    + cbn. now apply sdel_dict.
    + assert (J' : forall m v, In (m, v) l <-> In m names /\ moved u m v).
      { intros m v. rewrite J. unfold moved. cbn [m_data m_queue m_ops set_queue set_mops].
        assert (Hm : In m names -> sget m (sdel n (m_queue u)) = sget m (m_queue u) /\ op_of ops m = op_of (m_ops u) m).
        { intros Hm. assert (Hne : m <> n) by (intros ->; contradiction). split; [now apply sdel_sget|].
          eapply check_ops; eauto. }
        split; intros [M1 (M2 & o & M3 & M4)]; destruct (Hm M1) as [M5 M6]; (split; [exact M1|]); (split; [exact M2|]);
          exists o; rewrite M5, M6 in *; auto. }
      exists u', (if b then l else (n, new) :: l).
      split; [destruct b; rewrite A; [reflexivity|now rewrite <- app_assoc]|].
      repeat (split; [assumption|]). cbn in F, G, H. split.
      { intros m. rewrite F, sdel_keys. cbn. intuition congruence. }
      split.
      { intros m Hm. cbn in Hm. rewrite G by tauto. apply sdel_sget. intros ->. tauto. }
      split.
      { intros m Hm. cbn in Hm. rewrite H by tauto. eapply check_ops; [|exact Hc]. intros ->. tauto. }
      destruct b.
      * split; [exact I|]. intros m v. rewrite J'. cbn. split; [tauto|]. intros [[<-|Hm] M]; [|tauto].
        exfalso. destruct M as (M1 & o & M2 & M3). assert (v = new) as -> by congruence.
        assert (o = old) as -> by congruence. exact (changed_not _ _ _ M3 Hb).
      * split.
        { cbn. constructor; [|exact I]. intros Hi. apply in_map_iff in Hi as ([m v] & <- & Hi). apply J' in Hi. tauto. }
        intros m v. cbn [In]. rewrite J'. split.
        -- intros [Heq|Hm]; [|tauto]. injection Heq as <- <-. split; [now left|]. split; [exact Hnew|]. eauto.
        -- intros [[<-|Hm] M]; [|tauto]. left. destruct M as (M1 & _). congruence.
Qed.
Lemma others_spec : forall q emits u, (forall n, In n (map fst q) -> k_sig K n <> None) -> is_dict q ->
  exists u' l, others K q emits u = (u', inl (emits ++ l))
    /\ m_data u' = m_data u /\ m_sema u' = m_sema u
    /\ NoDup (map fst l)
    /\ (forall n v, In (n, v) l <-> k_get K n (m_data u) = inl v /\ exists old, sget n q = Some old
          /\ changed (k_values K) (op_of (m_ops u) n) (Some v) old).
Proof.
  induction q as [|[n old] q IH]; intros emits u Hs Hd; cbn [others].
  - exists u, []. rewrite app_nil_r. repeat (split; [reflexivity|]). split; [constructor|]. intros n v. cbn. split; [tauto|].
    intros (_ & o & H & _). discriminate.
  - inversion Hd as [|? ? Hn Hd']; subst.
    destruct (HR n (m_data u)) as [new Hnew]; [apply Hs; now left|]. rewrite Hnew.
    destruct (check_ok K HT n new old (m_ops u)) as (ops & b & Hc). rewrite Hc.
    pose proof (check_equal_spec _ _ _ _ _ _ _ Hc) as Hb.
    destruct (IH (if b then emits else emits ++ [(n, new)]) (set_mops ops u)) as (u' & l & A & B & C & D & F).
    { intros m Hm. apply Hs. now right. } { exact Hd'. }
    assert (F' : forall m v, In (m, v) l <-> m <> n /\ k_get K m (m_data u) = inl v /\ exists o,
       sget m ((n, old) :: q) = Some o /\ changed (k_values K) (op_of (m_ops u) m) (Some v) o).
    { intros m v. rewrite F. cbn [m_data m_ops set_mops sget]. destruct (String.eqb_spec m n) as [->|Hne].
      - split; [|tauto]. intros (_ & o & Ho & _). exfalso. apply Hn.
        assert (Hk : sget n q <> None) by congruence. now apply sget_keys in Hk.
      - rewrite (check_ops n _ _ _ _ _ m Hne Hc). tauto. }
    exists u', (if b then l else (n, new) :: l).
    split; [destruct b; rewrite A; [reflexivity|now rewrite <- app_assoc]|].
    split; [exact B|]. split; [exact C|]. destruct b.
    + split; [exact D|]. intros m v. rewrite F'. split; [tauto|]. intros (M1 & o & M2 & M3). split; [|eauto].
      intros ->. cbn [sget] in M2. rewrite String.eqb_refl in M2. injection M2 as <-.
      assert (v = new) as -> by congruence. exact (changed_not _ _ _ M3 Hb).
    + split.
      { cbn. constructor; [|exact D]. intros Hi. apply in_map_iff in Hi as ([m v] & E1 & Hi). cbn in E1. subst m.
        apply F' in Hi. tauto. }
      intros m v. cbn [In]. rewrite F'. split.
      * intros [Heq|Hm]; [|tauto]. injection Heq as <- <-. split; [exact Hnew|]. exists old. cbn.
        rewrite String.eqb_refl. auto.
      * intros (M1 & o & M2 & M3). destruct (String.eqb_spec m n) as [->|Hne]; [|right; eauto]. left. congruence.
Qed.
Lemma compare_spec : forall u, tidy K u -> exists u' l1 l2, compare K u = (u', inl (l1 ++ l2))
  /\ m_data u' = m_data u /\ m_sema u' = m_sema u /\ clean u'
  /\ NoDup (map fst (l1 ++ l2))
  /\ (forall n v, In (n, v) l1 <-> In n (m_prim u) /\ moved u n v)
  /\ (forall n v, In (n, v) l2 <-> (exists m x, In m (m_prim u) /\ moved u m x)
        /\ ~ In n (m_prim u) /\ moved u n v).
Proof.
  intros u [T1 T2 T3 T4]. unfold compare.
  destruct (primaries_spec (k_order K (m_prim u)) [] u) as (u1 & l & -> & B & C & D & F & G & H & I & J).
  { eapply Permutation_NoDup; [apply HO|exact T2]. }
  { intros n Hn. apply (proj1 (order_In K HO _ _)) in Hn. auto. } { exact T4. } { exact T1. }
  assert (J' : forall n v, In (n, v) l <-> In n (m_prim u) /\ moved u n v).
  { intros n v. rewrite J, order_In by exact HO. reflexivity. }
  cbn [app]. destruct l as [|[m x] l'].
  - exists (cleared u1), [], []. cbn [app]. split; [reflexivity|]. split; [exact B|]. split; [exact C|].
    split; [split; reflexivity|]. split; [constructor|]. split; [exact J'|].
    intros n v. cbn. split; [tauto|]. intros ((m & x & Hm & M) & _). apply (J' m x). auto.
  - destruct (others_spec (m_queue u1) ((m, x) :: l') u1) as (u2 & l2 & HX & B2 & C2 & D2 & F2).
    { intros n Hn. apply F in Hn as [Hn _]. auto. } { exact D. }
    assert (F3 : forall n v, In (n, v) l2 <-> ~ In n (m_prim u) /\ moved u n v).
    { intros n v. rewrite F2, B. unfold moved. split.
      - intros (M1 & o & M2 & M3). assert (Hk : sget n (m_queue u1) <> None) by congruence.
        apply sget_keys, F in Hk as [_ Hk]. rewrite G in M2 by exact Hk. rewrite H in M3 by exact Hk.
        rewrite order_In in Hk by exact HO. eauto.
      - intros (M0 & M1 & o & M2 & M3). assert (Hk : ~ In n (k_order K (m_prim u))) by (now rewrite order_In).
        split; [exact M1|]. exists o. rewrite G, H by exact Hk. auto. }
    exists (cleared u2), ((m, x) :: l'), l2. rewrite HX. split; [reflexivity|].
    split; [cbn; congruence|]. split; [cbn; congruence|]. split; [split; reflexivity|].
    split.
    { rewrite map_app. apply NoDup_app; [exact I|exact D2|]. intros n H1 H2.
      apply in_map_iff in H1 as ([n1 v1] & <- & H1). apply in_map_iff in H2 as ([n2 v2] & E2 & H2). cbn in E2. subst n2.
      apply J' in H1. apply F3 in H2. tauto. }
    split; [exact J'|]. intros n v. rewrite F3. split; [|tauto]. intros M. split; [|exact M].
    exists m, x. apply J'. now left.
Qed.
End Compare.
