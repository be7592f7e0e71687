(** Fields bound to each other: C113. *)

From Coq Require Import List Bool Arith Lia.
From Verif Require Import Bind.
Import ListNotations.

Definition nobody : graph := fun _ => [].

Section Facts.
Context {V : Type} (vtuple : list V -> V) (equal : nat -> V -> V -> bool) (watched : nat -> bool).
Hypothesis equal_refl : forall f v, equal f v v = true.
Variable links : list (nat * nat).
Let b := bind_all links nobody.
Notation run := (assign vtuple equal watched b).

Lemma bind_all_spec : forall l b0 f t, In t (bind_all l b0 f) <-> In t (b0 f) \/ exists g, In (f, g) l /\ t = (g, Some 1).
Proof.
  induction l as [|[x y] l IH]; intros b0 f t; cbn [bind_all].
  - split; [auto|]. intros [H|(g & [] & _)]. exact H.
  - rewrite IH. unfold bind. cbn. destruct (Nat.eqb_spec f x) as [->|N].
    + rewrite in_app_iff. cbn. split.
      * intros [[H|[<-|[]]]|(g & H & E)]; eauto.
      * intros [H|(g & [E|H] & ->)]; eauto. injection E as ->. auto.
    + split.
      * intros [H|(g & H & E)]; eauto.
      * intros [H|(g & [E|H] & ->)]; eauto. congruence.
Qed.
Lemma b_spec : forall f t, In t (b f) <-> exists g, In (f, g) links /\ t = (g, Some 1).
Proof. intros. unfold b. rewrite bind_all_spec. cbn. intuition. Qed.

Definition listened (f : nat) : Prop := watched f = true \/ exists g, In (f, g) links.
Lemma listened_b : forall f, (match b f with [] => false | _ => true end || watched f) = true <-> listened f.
Proof.
  intros f. unfold listened. rewrite orb_true_iff. split.
  - intros [H|H]; [|auto]. right. destruct (b f) as [|t l] eqn:E; [discriminate|].
    destruct (proj1 (b_spec f t)) as (g & H' & _); [rewrite E; now left|eauto].
  - intros [H|[g H]]; [auto|]. left. assert (I : In (g, Some 1) (b f)) by (apply b_spec; eauto). destruct (b f); [destruct I|reflexivity].
Qed.

Variable v : V.
(** Fields that still differ from v *)
Definition differs (s : bstate V) (f : nat) : bool := negb (equal f v (stored s f)).
Definition count (fs : list nat) (s : bstate V) : nat := length (filter (differs s) fs).

(** What assignments of v may do *)
Record did (s s' : bstate V) (es : list (nat * V * V)) : Prop := {
  d_log : emitted s' = emitted s ++ es;
  d_val : forall g, stored s' g = v \/ stored s' g = stored s g;
  d_es : forall g x y, In (g, x, y) es -> x = v /\ y = stored s g /\ equal g v (stored s g) = false /\ stored s' g = v /\
           forall h, In (g, h) links -> stored s' h = v;
  d_once : NoDup (map (fun e => fst (fst e)) es);
  d_told : forall g, stored s' g = stored s g \/ equal g v (stored s g) = true \/ ~ listened g \/ In (g, v, stored s g) es
}.
Lemma did_refl : forall s, did s s [].
Proof. intros s. split; [now rewrite app_nil_r|auto|intros ? ? ? []|constructor|auto]. Qed.
Lemma did_trans : forall s s1 s2 e1 e2, did s s1 e1 -> did s1 s2 e2 -> did s s2 (e1 ++ e2).
Proof.
  intros s s1 s2 e1 e2 [L1 V1 E1 O1 T1] [L2 V2 E2 O2 T2].
  assert (K : forall g, stored s1 g = v -> stored s2 g = v) by (intros g H; destruct (V2 g); congruence).
  assert (B : forall g, equal g v (stored s1 g) = false -> stored s1 g = stored s g)
    by (intros g H; destruct (V1 g) as [E|E]; [rewrite E, equal_refl in H; discriminate|exact E]).
  split.
  - now rewrite L2, L1, app_assoc.
  - intros g. destruct (V2 g) as [E|E]; [auto|]. destruct (V1 g) as [E'|E']; [left|right]; congruence.
  - intros g x y H. apply in_app_or in H. destruct H as [H|H].
    + destruct (E1 _ _ _ H) as (A1 & A2 & A3 & A4 & A5). repeat split; auto.
    + destruct (E2 _ _ _ H) as (A1 & A2 & A3 & A4 & A5). rewrite <- (B g A3). repeat split; auto.
  - rewrite map_app. revert O1 O2. clear - E1 E2 equal_refl. revert E1. induction e1 as [|[[g x] y] e1 IH]; intros E1 O1 O2; [exact O2|].
    cbn in *. inversion O1; subst. constructor.
    + rewrite in_app_iff. intros [H|H]; [contradiction|]. apply in_map_iff in H. destruct H as ([[g' x'] y'] & E & H). cbn in E. subst.
      destruct (E1 g x y (or_introl eq_refl)) as (_ & _ & _ & A & _). destruct (E2 g x' y' H) as (_ & _ & A' & _). rewrite A, equal_refl in A'. discriminate.
    + apply IH; auto.
  - intros g. destruct (V1 g) as [E|E].
    + pose proof (K g E) as E2'. destruct (T1 g) as [T|[T|[T|T]]]; auto.
      * left. congruence.
      * right. right. right. apply in_or_app. auto.
    + destruct (T2 g) as [T|[T|[T|T]]]; auto; rewrite ?E in T; auto. right. right. right. apply in_or_app. auto.
Qed.

Variable fs : list nat.
Hypothesis fs_links : forall g h, In (g, h) links -> In h fs.
Lemma differs_mono : forall s s', (forall g, stored s' g = v \/ stored s' g = stored s g) -> forall g, differs s' g = true -> differs s g = true.
Proof. intros s s' H g. unfold differs. destruct (H g) as [E|E]; rewrite E; [rewrite equal_refl; discriminate|auto]. Qed.
Lemma filter_mono : forall (p q : nat -> bool) l, (forall g, p g = true -> q g = true) -> length (filter p l) <= length (filter q l).
Proof.
  intros p q l H. induction l as [|g l IH]; cbn; [lia|]. destruct (p g) eqn:E; [rewrite (H g E); cbn; lia|]. destruct (q g); cbn; lia.
Qed.
Lemma filter_less : forall (p q : nat -> bool) l f, (forall g, p g = true -> q g = true) -> In f l -> p f = false -> q f = true ->
  length (filter p l) < length (filter q l).
Proof.
  intros p q l f H HI Hp Hq. induction l as [|g l IH]; [destruct HI|]. cbn. pose proof (filter_mono p q l H). destruct HI as [->|HI].
  - rewrite Hp, Hq. cbn. lia.
  - specialize (IH HI). destruct (p g) eqn:E; [rewrite (H g E); cbn; lia|]. destruct (q g); cbn; lia.
Qed.
Lemma count_mono : forall s s', (forall g, stored s' g = v \/ stored s' g = stored s g) -> count fs s' <= count fs s.
Proof. intros s s' H. apply filter_mono. now apply differs_mono. Qed.
Lemma count_less : forall s s' f, In f fs -> (forall g, stored s' g = v \/ stored s' g = stored s g) -> stored s' f = v ->
  equal f v (stored s f) = false -> count fs s' < count fs s.
Proof.
  intros s s' f HI H Hf HE. apply (filter_less _ _ _ f); [now apply differs_mono|exact HI| |].
  - unfold differs. now rewrite Hf, equal_refl.
  - unfold differs. now rewrite HE.
Qed.

Lemma run_did : forall n f s, In f fs -> count fs s < n -> exists s' es, run n f v s = Some s' /\ did s s' es /\ stored s' f = v.
Proof.
  induction n as [|n IH]; intros f s HI HC; [lia|]. cbn [assign].
  assert (Sf : stored (store f v s) f = v) by (cbn; now rewrite Nat.eqb_refl).
  assert (So : forall g, stored (store f v s) g = v \/ stored (store f v s) g = stored s g) by (intros g; cbn; destruct (Nat.eqb g f); auto).
  assert (Sn : forall g, g <> f -> stored (store f v s) g = stored s g) by (intros g N; cbn; destruct (Nat.eqb_spec g f); [congruence|auto]).
  rewrite Sf. destruct ((match b f with [] => false | _ => true end || watched f) && negb (equal f v (stored s f))) eqn:C.
  - apply andb_true_iff in C. destruct C as [CL CE]. apply listened_b in CL. apply negb_true_iff in CE.
    set (s1 := log f v (stored s f) (store f v s)).
    assert (HC1 : count fs s1 < n). { assert (count fs s1 < count fs s) by (apply (count_less s s1 f); auto). lia. }
    assert (LP : forall ts s2, (forall t, In t ts -> In t (b f)) -> count fs s2 < n ->
      exists s' es, each (fun t => run n (fst t) (assigned vtuple (snd t) [v; stored s f])) ts s2 = Some s' /\ did s2 s' es /\
        forall t, In t ts -> stored s' (fst t) = v).
    { induction ts as [|t ts IHt]; intros s2 Ht Hc; cbn [each]; [exists s2, []; split; [auto|split; [apply did_refl|intros ? []]]|].
      destruct (proj1 (b_spec f t) (Ht t (or_introl eq_refl))) as (g & Hg & ->). cbn [fst snd]. change (assigned vtuple (Some 1) [v; stored s f]) with v.
      destruct (IH g s2 (fs_links _ _ Hg) Hc) as (s3 & e3 & R3 & D3 & F3). rewrite R3.
      assert (Hc3 : count fs s3 < n) by (pose proof (count_mono s2 s3 (d_val _ _ _ D3)); lia).
      destruct (IHt s3 (fun t H => Ht t (or_intror H)) Hc3) as (s4 & e4 & R4 & D4 & F4).
      exists s4, (e3 ++ e4). split; [exact R4|]. split; [now apply (did_trans s2 s3 s4)|].
      intros t [<-|H]; [|auto]. cbn. destruct (d_val _ _ _ D4 g); congruence. }
    destruct (LP (b f) s1 (fun t H => H) HC1) as (s' & es & R & D & F). exists s', ((f, v, stored s f) :: es). split; [exact R|].
    assert (Vf : stored s' f = v) by (destruct (d_val _ _ _ D f) as [E|E]; [exact E|rewrite E; exact Sf]).
    split; [|exact Vf]. destruct D as [L V1 E1 O1 T1]. split.
    + rewrite L. unfold s1. cbn. now rewrite <- app_assoc.
    + intros g. destruct (V1 g) as [E|E]; [auto|]. rewrite E. apply So.
    + intros g x y [H|H].
      * injection H as <- <- <-. repeat split; auto. intros h Hh. apply (F (h, Some 1)). apply b_spec. eauto.
      * destruct (E1 _ _ _ H) as (A1 & A2 & A3 & A4 & A5). destruct (Nat.eq_dec g f) as [->|N].
        -- change (stored s1 f) with (stored (store f v s) f) in A3. rewrite Sf, equal_refl in A3. discriminate.
        -- change (stored s1 g) with (stored (store f v s) g) in A2, A3. rewrite Sn in A2, A3 by exact N. repeat split; auto.
    + cbn. constructor; [|exact O1]. intros H. apply in_map_iff in H. destruct H as ([[g x] y] & E & H). cbn in E. subst g.
      destruct (E1 _ _ _ H) as (_ & _ & A3 & _). change (stored s1 f) with (stored (store f v s) f) in A3. rewrite Sf, equal_refl in A3. discriminate.
    + intros g. destruct (Nat.eq_dec g f) as [->|N]; [right; right; right; now left|].
      pose proof (T1 g) as T. change (stored s1 g) with (stored (store f v s) g) in T. rewrite Sn in T by exact N.
      destruct T as [T|[T|[T|T]]]; auto. right. right. right. now right.
  - exists (store f v s), []. split; [reflexivity|]. split; [|exact Sf]. split.
    + cbn. now rewrite app_nil_r.
    + exact So.
    + intros ? ? ? [].
    + constructor.
    + intros g. destruct (Nat.eq_dec g f) as [->|N]; [|left; now apply Sn]. right.
      apply andb_false_iff in C. destruct C as [C|C]; [right; left; intros H; apply listened_b in H; congruence|left].
      now apply negb_false_iff.
Qed.
Lemma run_more : forall n f x s s', run n f x s = Some s' -> forall m, n <= m -> run m f x s = Some s'.
Proof.
  induction n as [|n IH]; intros f x s s' H m HM; [discriminate|]. destruct m as [|m]; [lia|]. cbn [assign] in *.
  destruct (_ && _); [|exact H].
  revert H. generalize (log f (stored (store f x s) f) (stored s f) (store f x s)). generalize (b f).
  induction l as [|t l IHl]; intros s2 H; cbn [each] in *; [exact H|].
  destruct (run n _ _ s2) as [s3|] eqn:E; [|discriminate]. rewrite (IH _ _ _ _ E m) by lia. now apply IHl.
Qed.
Lemma run_only : forall (P : nat -> Prop), (forall g h, In (g, h) links -> P g -> P h) ->
  forall n f x s s', run n f x s = Some s' -> P f -> forall g, ~ P g -> stored s' g = stored s g.
Proof.
  intros P HP. induction n as [|n IH]; intros f x s s' H Hf g Hg; [discriminate|]. cbn [assign] in H.
  assert (Sg : stored (store f x s) g = stored s g) by (cbn; destruct (Nat.eqb_spec g f); [subst; contradiction|reflexivity]).
  destruct (_ && _); [|injection H as <-; exact Sg].
  change (stored (store f x s) g) with (stored (log f (stored (store f x s) f) (stored s f) (store f x s)) g) in Sg.
  rewrite <- Sg. clear Sg. revert H. generalize (log f (stored (store f x s) f) (stored s f) (store f x s)) as s2.
  assert (TT : forall t, In t (b f) -> P (fst t)). { intros t H. apply b_spec in H. destruct H as (h & H & ->). cbn. eauto. }
  revert TT. generalize (b f). induction l as [|t l IHl]; intros TT s2 H; cbn [each] in H; [now injection H as <-|].
  destruct (run n _ _ s2) as [s3|] eqn:E; [|discriminate].
  rewrite (IHl (fun t Ht => TT t (or_intror Ht)) s3 H). eapply IH; eauto. apply TT. now left.
Qed.
End Facts.

(** Assigning to a field ends, sets the fields bound to it, and so on, to the new value, leaves the others; each signal emits at
    most once, with the new and the old value, exactly if the value changed; who is bound to a field that emitted has the new value. *)
Theorem C113_bound : forall V (vtuple : list V -> V) equal watched links s f v, (forall g x, equal g x x = true) ->
  exists s' es n, (forall m, n <= m -> assign vtuple equal watched (bind_all links nobody) m f v s = Some s') /\
    stored s' f = v /\ emitted s' = emitted s ++ es /\ NoDup (map (fun e => fst (fst e)) es) /\
    (forall g, stored s' g = v \/ stored s' g = stored s g) /\
    (forall P : nat -> Prop, P f -> (forall g h, In (g, h) links -> P g -> P h) -> forall g, ~ P g -> stored s' g = stored s g) /\
    (forall g x y, In (g, x, y) es -> x = v /\ y = stored s g /\ equal g v y = false /\ stored s' g = v /\ forall h, In (g, h) links -> stored s' h = v) /\
    (forall g, stored s' g = stored s g \/ equal g v (stored s g) = true \/ (watched g = false /\ forall h, ~ In (g, h) links) \/
       In (g, v, stored s g) es).
Proof.
  intros V vtuple equal watched links s f v HR. set (fs := f :: map snd links).
  assert (HF : forall g h, In (g, h) links -> In h fs) by (intros g h H; right; apply in_map_iff; exists (g, h); auto).
  destruct (run_did vtuple equal watched HR links v fs HF (S (count equal v fs s)) f s (or_introl eq_refl) (Nat.lt_succ_diag_r _)) as (s' & es & R & [L V1 E1 O1 T1] & F).
  exists s', es, (S (count equal v fs s)). split; [intros m HM; eapply run_more; eauto|]. repeat split; auto.
  - intros P Hf HP g Hg. eapply run_only; eauto.
  - now destruct (E1 _ _ _ H).
  - now destruct (E1 _ _ _ H) as (_ & ? & _).
  - destruct (E1 _ _ _ H) as (_ & -> & ? & _). assumption.
  - now destruct (E1 _ _ _ H) as (_ & _ & _ & ? & _).
  - now destruct (E1 _ _ _ H) as (_ & _ & _ & _ & ?).
  - intros g. destruct (T1 g) as [T|[T|[T|T]]]; auto. right. right. left. split.
    + destruct (watched g) eqn:W; [|reflexivity]. exfalso. apply T. now left.
    + intros h Hh. apply T. right. eauto.
Qed.

(** Fields bound to each other in both directions, with one equality operator: they stay equal, whichever of them is assigned. *)
Theorem C113_mutual : forall V (vtuple : list V -> V) eqv watched links s f v m s',
  (forall x, eqv x x = true) -> (forall x y, eqv x y = true -> eqv y x = true) -> (forall x y z, eqv x y = true -> eqv y z = true -> eqv x z = true) ->
  (forall g h, In (g, h) links -> In (h, g) links) -> (forall g h, In (g, h) links -> eqv (stored s g) (stored s h) = true) ->
  assign vtuple (fun _ => eqv) watched (bind_all links nobody) m f v s = Some s' ->
  forall g h, In (g, h) links -> eqv (stored s' g) (stored s' h) = true.
Proof.
  intros V vtuple eqv watched links s f v m s' R S T HS HI H g h HL.
  destruct (C113_bound V vtuple (fun _ => eqv) watched links s f v (fun _ => R)) as (s2 & es & n & HR & _ & _ & _ & HV & _ & HE & HT).
  assert (s2 = s') as ->.
  { pose proof (HR (Nat.max n m) (Nat.le_max_l _ _)) as A. pose proof (run_more vtuple (fun _ => eqv) watched links m f v s s' H (Nat.max n m) (Nat.le_max_r _ _)) as B. congruence. }
  pose proof (HI _ _ HL) as I. pose proof (HT g) as Tg. pose proof (HT h) as Th. cbn in *.
  destruct Tg as [Tg|[Tg|[[_ Tg]|Tg]]]; [| |exfalso; eapply Tg; eauto|].
  - destruct Th as [Th|[Th|[[_ Th]|Th]]]; [now rewrite Tg, Th| |exfalso; eapply Th; eauto|].
    + rewrite Tg. destruct (HV h) as [->| ->]; [|exact I]. eapply T; eauto.
    + destruct (HE _ _ _ Th) as (_ & _ & _ & A & B). rewrite A, (B g (HS _ _ HL)). apply R.
  - destruct Th as [Th|[Th|[[_ Th]|Th]]]; [| |exfalso; eapply Th; eauto|].
    + rewrite Th. destruct (HV g) as [->| ->]; [|exact I]. eapply T; eauto.
    + destruct (HV g) as [->| ->], (HV h) as [->| ->]; [apply R|eapply T; eauto|eapply T; [|apply S; exact Th]; exact I|exact I].
    + destruct (HE _ _ _ Th) as (_ & _ & _ & A & B). rewrite A, (B g (HS _ _ HL)). apply R.
  - destruct (HE _ _ _ Tg) as (_ & _ & _ & A & B). rewrite A, (B h HL). apply R.
Qed.

(** A value that is not equal to itself (nan): the assignment does not end. *)
Theorem C113_nan_refuted : exists (equal : nat -> option nat -> option nat -> bool) s, (forall x y, equal 0 (Some x) (Some y) = Nat.eqb x y) /\
  forall n, assign (fun _ => None) equal (fun _ => false) (bind_all [(0, 1); (1, 0)] nobody) n 0 None s = None.
Proof.
  exists (fun _ x y => match x, y with Some x, Some y => Nat.eqb x y | _, _ => false end), (Bstate (fun _ => Some 3) []). split; [reflexivity|].
  intros n. enough (G : forall n s, assign (fun _ => None) (fun _ x y => match x, y with Some x, Some y => Nat.eqb x y | _, _ => false end)
    (fun _ => false) (bind_all [(0, 1); (1, 0)] nobody) n 0 None s = None /\
    assign (fun _ => None) (fun _ x y => match x, y with Some x, Some y => Nat.eqb x y | _, _ => false end)
    (fun _ => false) (bind_all [(0, 1); (1, 0)] nobody) n 1 None s = None) by apply G.
  clear n. induction n as [|n IH]; intros s; [split; reflexivity|].
  split; cbn; [rewrite (proj2 (IH _))|rewrite (proj1 (IH _))]; reflexivity.
Qed.

(** Different equality operators: a field that calls two values equal does not tell the field it is bound to. *)
Theorem C113_operators_refuted : exists (equal : nat -> nat -> nat -> bool) links s s',
  (forall g x, equal g x x = true) /\ (forall g h, In (g, h) links -> In (h, g) links) /\
  (forall x y, equal 1 x y = Nat.eqb x y) /\
  (forall g h, In (g, h) links -> stored s g = stored s h) /\
  assign (fun _ => 0) equal (fun _ => false) (bind_all links nobody) 5 0 8 s = Some s' /\ stored s' 0 = 8 /\ stored s' 1 = 9.
Proof.
  exists (fun g x y => match g with 0 => Nat.eqb (x / 4) (y / 4) | _ => Nat.eqb x y end), [(0, 1); (1, 0)], (Bstate (fun _ => 9) []).
  eexists. repeat split.
  - intros [|g] x; apply Nat.eqb_refl.
  - intros g h [E|[E|[]]]; injection E as <- <-; cbn; auto.
Qed.

(** A ring of three fields, another field bound to one of them, and one that is not; 2 is even, as is 4. *)
Example C113_case :
  let links := [(0, 1); (1, 2); (2, 0); (1, 3)] in
  (exists s', assign (fun _ => 99) (fun _ => Nat.eqb) (fun g => Nat.eqb g 3) (bind_all links nobody) 10 1 5 (Bstate (fun g => g) []) = Some s' /\
    map (stored s') [0; 1; 2; 3; 4] = [5; 5; 5; 5; 4] /\ emitted s' = [(1, 5, 1); (2, 5, 2); (0, 5, 0); (3, 5, 3)]) /\
  (exists s', assign (fun _ => 99) (fun _ x y => Nat.eqb (x mod 2) (y mod 2)) (fun _ => true) (bind_all [(0, 1); (1, 0)] nobody) 10 0 4 (Bstate (fun _ => 2) []) = Some s' /\
    map (stored s') [0; 1] = [4; 2] /\ emitted s' = []).
Proof. split; eexists; repeat split; reflexivity. Qed.

Print Assumptions C113_bound.
Print Assumptions C113_mutual.
Print Assumptions C113_nan_refuted.
Print Assumptions C113_operators_refuted.
