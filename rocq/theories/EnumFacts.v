(** Proofs about enums_as_values (C109). *)

From Verif Require Import Base Core Evented EnumConf SpecEnum.
Open Scope nat_scope.

(** * Dictionaries *)
Section Dicts.
Context {A : Type}.
Implicit Types (d : list (string * A)) (v w : A) (k : string).
Lemma get_set : forall k d v, sget k (sset k v d) = Some v.
Proof.
  intros k d v. induction d as [|[x y] d IH]; cbn; [now rewrite String.eqb_refl|].
  destruct (String.eqb k x) eqn:E; cbn; now rewrite E.
Qed.
Lemma get_set_o : forall k k' d v, k <> k' -> sget k (sset k' v d) = sget k d.
Proof.
  intros k k' d v N. induction d as [|[x y] d IH]; cbn.
  - destruct (String.eqb_spec k k'); congruence.
  - destruct (String.eqb_spec k' x); cbn; destruct (String.eqb_spec k x); congruence.
Qed.
Lemma get_pop_o : forall k k' d, k <> k' -> sget k (spop k' d) = sget k d.
Proof.
  intros k k' d N. induction d as [|[x y] d IH]; cbn; [reflexivity|].
  destruct (String.eqb_spec k' x); cbn; destruct (String.eqb_spec k x); congruence.
Qed.
Lemma set_set : forall k d v w, sset k v (sset k w d) = sset k v d.
Proof.
  intros k d v w. induction d as [|[x y] d IH]; cbn; [now rewrite String.eqb_refl|].
  destruct (String.eqb k x) eqn:E; cbn; rewrite E; congruence.
Qed.
Lemma set_same : forall k d v, sget k d = Some v -> sset k v d = d.
Proof.
  intros k d v H. induction d as [|[x y] d IH]; cbn in *; [discriminate|].
  destruct (String.eqb k x); [congruence|]. now rewrite IH.
Qed.
Lemma pop_none : forall k d, sget k d = None -> spop k d = d.
Proof.
  intros k d H. induction d as [|[x y] d IH]; cbn in *; [reflexivity|].
  destruct (String.eqb k x); [discriminate|]. now rewrite IH.
Qed.
Lemma get_pop : forall k d, sget k (spop k d) = None.
Proof.
  intros k d. induction d as [|[x y] d IH]; cbn; [reflexivity|]. destruct (String.eqb k x) eqn:E; [exact IH|]. cbn. now rewrite E.
Qed.
Lemma pop_set : forall k d v, sget k d = None -> spop k (sset k v d) = d.
Proof.
  intros k d v H. induction d as [|[x y] d IH]; cbn in *; [now rewrite String.eqb_refl|].
  destruct (String.eqb k x) eqn:E; [discriminate|]. cbn. rewrite E. now rewrite IH.
Qed.
Lemma pop_set_in : forall k d v, sget k d <> None -> spop k (sset k v d) = spop k d.
Proof.
  intros k d v H. induction d as [|[x y] d IH]; cbn in *; [congruence|].
  destruct (String.eqb k x) eqn:E; cbn; rewrite E; [reflexivity|]. now rewrite IH.
Qed.
Lemma set_comm : forall k k' d v w, k <> k' -> sget k d <> None -> sset k v (sset k' w d) = sset k' w (sset k v d).
Proof.
  intros k k' d v w N H. induction d as [|[x y] d IH]; cbn in *; [congruence|].
  destruct (String.eqb_spec k x), (String.eqb_spec k' x); subst; cbn;
    repeat match goal with |- context [String.eqb ?a ?b] => destruct (String.eqb_spec a b) end; try congruence.
  now rewrite IH.
Qed.
Lemma pop_comm : forall k k' d w, k <> k' -> spop k (sset k' w d) = sset k' w (spop k d).
Proof.
  intros k k' d w N. induction d as [|[x y] d IH]; cbn in *.
  - destruct (String.eqb_spec k k'); [congruence|reflexivity].
  - destruct (String.eqb_spec k x), (String.eqb_spec k' x); subst; cbn;
      repeat match goal with |- context [String.eqb ?a ?b] => destruct (String.eqb_spec a b) end; try congruence.
Qed.
End Dicts.

(** [d] with the entry set for a while *)
Definition lifts (x y : list (string * val)) (b : bool) : Prop :=
  sget key y = Some (VBool b) /\ match sget key x with Some v => sset key v y = x | None => spop key y = x end.
Lemma lifts_new : forall x b, lifts x (sset key (VBool b) x) b.
Proof.
  intros x b. split; [apply get_set|]. destruct (sget key x) eqn:E.
  - rewrite set_set. now apply set_same.
  - now apply pop_set.
Qed.
Lemma lifts_again : forall x y b b', lifts x y b -> lifts x (sset key (VBool b') y) b'.
Proof.
  intros x y b b' [H1 H2]. split; [apply get_set|]. destruct (sget key x).
  - now rewrite set_set.
  - rewrite pop_set_in by congruence. exact H2.
Qed.
Lemma lifts_put : forall x y b k v, k <> key -> lifts x y b -> lifts (sset k v x) (sset k v y) b.
Proof.
  intros x y b k v N [H1 H2]. split; [rewrite get_set_o; congruence|].
  rewrite get_set_o by congruence. destruct (sget key x).
  - rewrite set_comm by congruence. now rewrite H2.
  - rewrite pop_comm by congruence. now rewrite H2.
Qed.

(** * Both versions *)
Section Both.
Variable at_ : nat -> nat.
Variable exn_ : exn.
Definition enterG (m : nat) (b : bool) (f : confs) : option val * confs :=
  (sget key (f (at_ m)), put (at_ m) (sset key (VBool b) (f (at_ m))) f).
Definition exitG (m : nat) (before : option val) (f : confs) : confs * option exn :=
  match before with
  | Some v => (put (at_ m) (sset key v (f (at_ m))) f, None)
  | None => if has key (f (at_ m)) then (put (at_ m) (spop key (f (at_ m))) f, None) else (f, Some exn_)
  end.

Lemma oget_close : forall u v l, NoDup (map fst l) -> oget v (oclose u l) = if Nat.eqb v u then None else oget v l.
Proof.
  intros u v l. induction l as [|[x y] l IH]; intros N; cbn; [now destruct (Nat.eqb v u)|].
  inversion N as [|? ? N1 N2]; subst.
  destruct (Nat.eqb_spec u x).
  - subst. destruct (Nat.eqb_spec v x); [|reflexivity]. subst. clear -N1.
    induction l as [|[z w] l IH]; cbn in *; [reflexivity|]. destruct (Nat.eqb_spec x z); [subst; tauto|]. apply IH. tauto.
  - cbn. rewrite IH by exact N2. destruct (Nat.eqb_spec v x), (Nat.eqb_spec v u); congruence.
Qed.
Lemma close_in : forall u l x, In x (map fst (oclose u l)) -> In x (map fst l).
Proof.
  intros u l x. induction l as [|[z w] l IH]; cbn; [tauto|]. destruct (Nat.eqb u z); cbn; [tauto|]. intros [H|H]; auto.
Qed.
Lemma close_nodup : forall u l, NoDup (map fst l) -> NoDup (map fst (oclose u l)).
Proof.
  intros u l. induction l as [|[z w] l IH]; cbn; intros N; [constructor|]. inversion N; subst.
  destruct (Nat.eqb u z); cbn; [assumption|]. constructor; [|auto]. intros H. now apply close_in in H.
Qed.
Lemma oget_none : forall u l, oget u l = None -> ~ In u (map fst l).
Proof.
  intros u l. induction l as [|[z w] l IH]; cbn; [tauto|]. destruct (Nat.eqb_spec u z); [discriminate|]. intros H [E|E]; [congruence|].
  now apply IH.
Qed.

(** ** Nested uses *)
Variable f0 : confs.
Definition orig (c : nat) : option val := sget key (f0 c).
(** what the uses [st] of configuration [c] have saved *)
Fixpoint saved (c : nat) (o : list (nat * (nat * option val))) (st : list (nat * bool)) : Prop :=
  match st with
  | [] => True
  | (u, b) :: st =>
      (exists m, at_ m = c /\ oget u o = Some (m, match st with (_, b') :: _ => Some (VBool b') | [] => orig c end)) /\ saved c o st
  end.
Record inv (S : nat -> list (nat * bool)) (B : confs) (s : state) : Prop := Inv {
  i_base : forall c, sget key (B c) = orig c;
  i_none : forall c, S c = [] -> st_conf s c = B c;
  i_some : forall c u b st, S c = (u, b) :: st -> lifts (B c) (st_conf s c) b;
  i_saved : forall c, saved c (st_open s) (S c);
  i_open : forall u m bf, oget u (st_open s) = Some (m, bf) -> In u (map fst (S (at_ m)));
  i_nodup : forall c, NoDup (map fst (S c));
  i_keys : NoDup (map fst (st_open s))
}.
Lemma saved_at : forall c o st u, saved c o st -> In u (map fst st) -> exists m bf, at_ m = c /\ oget u o = Some (m, bf).
Proof.
  intros c o st u. induction st as [|[x b] st IH]; cbn; [tauto|]. intros [[m [E H]] HS] [->|I]; eauto.
Qed.
Lemma saved_new : forall c o st u y, oget u o = None -> saved c o st -> saved c ((u, y) :: o) st.
Proof.
  intros c o st u y N. induction st as [|[x b] st IH]; cbn [saved]; [tauto|]. intros [[m [E H]] HS]. split; [|auto].
  exists m. split; [exact E|]. cbn. destruct (Nat.eqb_spec x u); [congruence|exact H].
Qed.
Lemma saved_close : forall c o st u, NoDup (map fst o) -> ~ In u (map fst st) -> saved c o st -> saved c (oclose u o) st.
Proof.
  intros c o st u N. induction st as [|[x b] st IH]; cbn [saved map fst In]; [tauto|]. intros I [[m [E H]] HS]. split; [|auto].
  exists m. split; [exact E|]. rewrite oget_close by exact N. destruct (Nat.eqb_spec x u); [tauto|exact H].
Qed.
Lemma ex_in : forall u (st : list (nat * bool)), existsb (fun p => Nat.eqb u (fst p)) st = true <-> In u (map fst st).
Proof.
  intros u st. rewrite existsb_exists, in_map_iff. split; intros [p [H1 H2]]; exists p.
  - apply Nat.eqb_eq in H2. auto.
  - rewrite Nat.eqb_eq. auto.
Qed.

Lemma nested_steps : forall l S B s s' es, Forall elsewhere l ->
  inv S B s -> (forall c, pile at_ c l (S c) <> None) -> steps enterG exitG at_ l s = Some (s', es) ->
  es = [] /\ exists S', (forall c, pile at_ c l (S c) = Some (S' c)) /\ inv S' (plain at_ l B) s'.
Proof.
  induction l as [|a l IH]; intros S B s s' es HF I HN H.
  { cbn in H. injection H as <- <-. split; [reflexivity|]. exists S. split; [reflexivity|exact I]. }
  inversion HF as [|? ? Ha HF']; subst. cbn [steps] in H.
  destruct (do_step enterG exitG at_ a s) as [[s1 e]|] eqn:D; [|discriminate].
  destruct (steps enterG exitG at_ l s1) as [[s2 es2]|] eqn:R; [|discriminate]. injection H as <- <-.
  destruct a as [u m b|u|m k v]; cbn [do_step] in D.
  - destruct (oget u (st_open s)) eqn:G; [discriminate|]. cbn in D. injection D as <- <-.
    pose proof (fun s s' es => IH (fun c => if Nat.eqb (at_ m) c then (u, b) :: S c else S c) B s s' es HF') as IH'. clear IH.
    assert (W : forall c, ~ In u (map fst (S c))).
    { intros c Hin. destruct (saved_at _ _ _ _ (i_saved _ _ _ I c) Hin) as (? & ? & ? & ?). congruence. }
    edestruct IH' as (E & S' & P & I').
    2:{ intros c. specialize (HN c). cbn [pile] in HN. destruct (Nat.eqb (at_ m) c); exact HN. }
    2:{ exact R. }
    2:{ split; [exact E|]. exists S'. split; [|exact I']. intros c. specialize (P c). cbn [pile].
        destruct (Nat.eqb (at_ m) c); exact P. }
    constructor; cbn [st_conf st_open].
    + apply (i_base _ _ _ I).
    + intros c Hc. unfold put. rewrite (Nat.eqb_sym c). destruct (Nat.eqb (at_ m) c); [discriminate|]. now apply (i_none _ _ _ I).
    + intros c u0 b0 st Hc. unfold put. rewrite (Nat.eqb_sym c). destruct (Nat.eqb_spec (at_ m) c) as [<-|].
      * injection Hc as <- <- <-. destruct (S (at_ m)) as [|[u' b'] st'] eqn:ES.
        -- rewrite (i_none _ _ _ I _ ES). apply lifts_new.
        -- eapply lifts_again, (i_some _ _ _ I), ES.
      * now apply (i_some _ _ _ I _ _ _ _ Hc).
    + intros c. destruct (Nat.eqb_spec (at_ m) c) as [<-|]; [|apply saved_new; [exact G|apply (i_saved _ _ _ I)]].
      cbn [saved]. split; [|apply saved_new; [exact G|apply (i_saved _ _ _ I)]].
      exists m. split; [reflexivity|]. cbn. rewrite Nat.eqb_refl. do 2 f_equal.
      destruct (S (at_ m)) as [|[u' b'] st'] eqn:ES.
      * rewrite (i_none _ _ _ I _ ES). apply (i_base _ _ _ I).
      * apply (i_some _ _ _ I _ _ _ _ ES).
    + intros u0 m0 bf H0. cbn in H0. destruct (Nat.eqb_spec u0 u) as [->|].
      * injection H0 as <- <-. rewrite Nat.eqb_refl. now left.
      * apply (i_open _ _ _ I) in H0. destruct (Nat.eqb (at_ m) (at_ m0)); [now right|exact H0].
    + intros c. destruct (Nat.eqb (at_ m) c); [cbn; constructor; [apply W|]|]; apply (i_nodup _ _ _ I).
    + cbn. constructor; [now apply oget_none|apply (i_keys _ _ _ I)].
  - destruct (oget u (st_open s)) as [[m bf]|] eqn:G; [|discriminate].
    assert (IN := i_open _ _ _ I _ _ _ G).
    assert (HNm := HN (at_ m)). cbn [pile] in HNm.
    destruct (S (at_ m)) as [|[x b] st] eqn:ES; [destruct IN|].
    destruct (Nat.eqb_spec u x) as [<-|NE].
    2:{ apply ex_in in IN. rewrite IN in HNm. congruence. }
    assert (SV := i_saved _ _ _ I (at_ m)). rewrite ES in SV. cbn [saved] in SV. destruct SV as [[m' [Em Gm]] SV].
    rewrite G in Gm. injection Gm as <- Ebf.
    assert (ND := i_nodup _ _ _ I (at_ m)). rewrite ES in ND. cbn in ND. inversion ND as [|? ? ND1 ND2]; subst.
    assert (L := i_some _ _ _ I _ _ _ _ ES).
    assert (Oth : forall c, at_ m <> c -> ~ In u (map fst (S c))).
    { intros c NE Hin. destruct (saved_at _ _ _ _ (i_saved _ _ _ I c) Hin) as (m2 & ? & <- & G2). congruence. }
    set (bf := match st with (_, b') :: _ => Some (VBool b') | [] => orig (at_ m) end) in *.
    assert (D' : exists y, s1 = State (put (at_ m) y (st_conf s)) (oclose u (st_open s)) /\ e = None /\
      match st with [] => y = B (at_ m) | (_, b') :: _ => lifts (B (at_ m)) y b' end).
    { unfold exitG in D. destruct st as [|[u' b'] st']; cbn in bf; subst bf.
      - destruct L as [L1 L2]. rewrite (i_base _ _ _ I) in L2. destruct (orig (at_ m)) as [v|] eqn:EO.
        + injection D as <- <-. eauto.
        + unfold has in D. rewrite L1 in D. injection D as <- <-. eauto.
      - injection D as <- <-. eexists. split; [reflexivity|]. split; [reflexivity|]. eapply lifts_again, L. }
    destruct D' as (y & -> & -> & Y). clear D.
    pose proof (fun s s' es => IH (fun c => if Nat.eqb (at_ m) c then st else S c) B s s' es HF') as IH'. clear IH.
    assert (PP : forall c, pile at_ c (Exit u :: l) (S c) = pile at_ c l (if Nat.eqb (at_ m) c then st else S c)).
    { intros c. cbn [pile]. destruct (Nat.eqb_spec (at_ m) c) as [<-|NE].
      - rewrite ES. now rewrite Nat.eqb_refl.
      - specialize (Oth c NE). destruct (S c) as [|[x' b''] st''] eqn:ESc; [reflexivity|].
        destruct (Nat.eqb_spec u x'); [subst; cbn in Oth; tauto|].
        destruct (existsb (fun p => Nat.eqb u (fst p)) ((x', b'') :: st'')) eqn:EX; [|reflexivity].
        apply ex_in in EX. tauto. }
    edestruct IH' as (E & S' & P & I').
    2:{ intros c. rewrite <- PP. apply HN. }
    2:{ exact R. }
    2:{ split; [exact E|]. exists S'. split; [|exact I']. intros c. rewrite PP. apply P. }
    constructor; cbn [st_conf st_open].
    + apply (i_base _ _ _ I).
    + intros c Hc. unfold put. rewrite (Nat.eqb_sym c). destruct (Nat.eqb_spec (at_ m) c) as [Ec|]; [|now apply (i_none _ _ _ I)].
      rewrite <- Ec. rewrite Hc in Y. exact Y.
    + intros c u0 b0 st0 Hc. unfold put. rewrite (Nat.eqb_sym c). destruct (Nat.eqb_spec (at_ m) c) as [Ec|].
      * rewrite <- Ec. rewrite Hc in Y. exact Y.
      * now apply (i_some _ _ _ I _ _ _ _ Hc).
    + intros c. destruct (Nat.eqb_spec (at_ m) c) as [Ec|NE].
      * rewrite <- Ec. apply saved_close; [apply (i_keys _ _ _ I)|exact ND1|exact SV].
      * apply saved_close; [apply (i_keys _ _ _ I)|now apply Oth|apply (i_saved _ _ _ I)].
    + intros u0 m0 bf0 H0. rewrite oget_close in H0 by apply (i_keys _ _ _ I). destruct (Nat.eqb_spec u0 u); [discriminate|].
      apply (i_open _ _ _ I) in H0. destruct (Nat.eqb_spec (at_ m) (at_ m0)) as [Eat|]; [|exact H0].
      rewrite <- Eat, ES in H0. cbn in H0. destruct H0; [congruence|assumption].
    + intros c. destruct (Nat.eqb (at_ m) c); [exact ND2|]. apply (i_nodup _ _ _ I).
    + apply close_nodup, (i_keys _ _ _ I).
  - injection D as <- <-. cbn [elsewhere] in Ha.
    pose proof (fun s s' es => IH S (fun c => if Nat.eqb c (at_ m) then sset k v (B c) else B c) s s' es HF') as IH'. clear IH.
    edestruct IH' as (E & S' & P & I').
    2:{ intros c. apply (HN c). }
    2:{ exact R. }
    2:{ split; [exact E|]. exists S'. split; [exact P|exact I']. }
    constructor; cbn [st_conf st_open].
    + intros c. destruct (Nat.eqb c (at_ m)); [rewrite get_set_o by congruence|]; apply (i_base _ _ _ I).
    + intros c Hc. unfold put. destruct (Nat.eqb_spec c (at_ m)) as [->|]; rewrite (i_none _ _ _ I _ Hc); reflexivity.
    + intros c u0 b0 st Hc. unfold put. destruct (Nat.eqb_spec c (at_ m)) as [->|]; [apply lifts_put; [exact Ha|]|];
        apply (i_some _ _ _ I _ _ _ _ Hc).
    + apply (i_saved _ _ _ I).
    + apply (i_open _ _ _ I).
    + apply (i_nodup _ _ _ I).
    + apply (i_keys _ _ _ I).
Qed.
Lemma nested_run : forall l s es, leaves_it l -> nested at_ l -> run enterG exitG at_ l f0 = Some (s, es) ->
  es = [] /\ forall c, exists st, running at_ c l = Some st /\
    match st with
    | [] => st_conf s c = plain at_ l f0 c
    | (_, b) :: _ => lifts (plain at_ l f0 c) (st_conf s c) b
    end.
Proof.
  intros l s es HL HN H.
  destruct (nested_steps l (fun _ => []) f0 (State f0 []) s es HL) as (E & S' & P & I); auto.
  - constructor; cbn; auto; try discriminate; intros; constructor.
  - split; [exact E|]. intros c. exists (S' c). split; [apply P|].
    destruct (S' c) as [|[u b] st] eqn:ES; [now apply (i_none _ _ _ I)|]. eapply (i_some _ _ _ I), ES.
Qed.

(** ** Any uses *)
Variable all : list step.
Definition from_use (c : nat) (x : option val) : Prop :=
  x = orig c \/ exists u m b, In (Enter u m b) all /\ at_ m = c /\ x = Some (VBool b).
Record inv2 (B : confs) (s : state) : Prop := Inv2 {
  j_other : forall c k, k <> key -> sget k (st_conf s c) = sget k (B c);
  j_here : forall u m, oget u (st_open s) = Some (m, None) -> sget key (st_conf s (at_ m)) <> None;
  j_one : forall u u' m m', oget u (st_open s) = Some (m, None) -> oget u' (st_open s) = Some (m', None) -> at_ m = at_ m' -> u = u';
  j_val : forall c, from_use c (sget key (st_conf s c));
  j_before : forall u m bf, oget u (st_open s) = Some (m, bf) -> from_use (at_ m) bf;
  j_keys : NoDup (map fst (st_open s))
}.
Lemma any_steps : forall l B s s' es, Forall elsewhere l -> incl l all ->
  inv2 B s -> steps enterG exitG at_ l s = Some (s', es) -> es = [] /\ inv2 (plain at_ l B) s'.
Proof.
  induction l as [|a l IH]; intros B s s' es HF HA I H.
  { cbn in H. injection H as <- <-. split; [reflexivity|exact I]. }
  inversion HF as [|? ? Ha HF']; subst. cbn [steps] in H.
  destruct (do_step enterG exitG at_ a s) as [[s1 e]|] eqn:D; [|discriminate].
  destruct (steps enterG exitG at_ l s1) as [[s2 es2]|] eqn:R; [|discriminate]. injection H as <- <-.
  assert (HA' : incl l all) by (intros z Hz; apply HA; now right).
  destruct a as [u m b|u|m k v]; cbn [do_step] in D.
  - destruct (oget u (st_open s)) eqn:G; [discriminate|]. cbn in D. injection D as <- <-.
    refine (IH B _ _ _ HF' HA' _ R). clear IH R.
    constructor; cbn [st_conf st_open].
    + intros c k N. unfold put. destruct (Nat.eqb_spec c (at_ m)) as [->|]; [rewrite get_set_o by exact N|]; now apply (j_other _ _ I).
    + intros u0 m0 H0. cbn in H0. unfold put. destruct (Nat.eqb_spec (at_ m0) (at_ m)); [rewrite get_set; discriminate|].
      destruct (Nat.eqb_spec u0 u); [injection H0 as <- _; congruence|]. now apply (j_here _ _ I) in H0.
    + intros u1 u2 m1 m2 H1 H2 E. cbn in H1, H2.
      destruct (Nat.eqb_spec u1 u) as [->|], (Nat.eqb_spec u2 u) as [->|]; [reflexivity| | |].
      * injection H1 as -> H1. exfalso. rewrite E in H1. now apply (j_here _ _ I _ _ H2).
      * injection H2 as -> H2. exfalso. rewrite <- E in H2. now apply (j_here _ _ I _ _ H1).
      * now apply (j_one _ _ I u1 u2 m1 m2).
    + intros c. unfold put. destruct (Nat.eqb_spec c (at_ m)) as [->|]; [|apply (j_val _ _ I)]. rewrite get_set.
      right. exists u, m, b. split; [apply HA; now left|auto].
    + intros u0 m0 bf H0. cbn in H0. destruct (Nat.eqb_spec u0 u); [injection H0 as <- <-; apply (j_val _ _ I)|].
      now apply (j_before _ _ I) in H0.
    + cbn. constructor; [now apply oget_none|apply (j_keys _ _ I)].
  - destruct (oget u (st_open s)) as [[m bf]|] eqn:G; [|discriminate].
    assert (K := j_keys _ _ I).
    assert (Q : e = None /\ st_open s1 = oclose u (st_open s) /\
      exists y, st_conf s1 = put (at_ m) y (st_conf s) /\ (forall k, k <> key -> sget k y = sget k (st_conf s (at_ m))) /\
        match bf with Some v => sget key y = Some v | None => True end /\ from_use (at_ m) (sget key y)).
    { unfold exitG in D. destruct bf as [v|].
      - injection D as <- <-. repeat split. eexists. split; [reflexivity|]. split; [intros; now apply get_set_o|].
        rewrite get_set. split; [reflexivity|]. apply (j_before _ _ I _ _ _ G).
      - assert (Hh := j_here _ _ I _ _ G). unfold has in D. destruct (sget key (st_conf s (at_ m))) eqn:EG; [|congruence].
        injection D as <- <-. repeat split. eexists. split; [reflexivity|]. split; [intros; now apply get_pop_o|].
        split; [exact Logic.I|].
        assert (O := j_before _ _ I _ _ _ G).
        destruct O as [O|(? & ? & ? & ? & ? & ?)]; [|discriminate]. 
        rewrite get_pop. now left. }
    destruct Q as (-> & O1 & y & C1 & Y1 & Y2 & Y3). refine (IH B _ _ _ HF' HA' _ R). clear IH R.
    constructor; rewrite ?C1, ?O1.
    + intros c k N. unfold put. destruct (Nat.eqb_spec c (at_ m)) as [->|]; [rewrite Y1 by exact N|]; now apply (j_other _ _ I).
    + intros u0 m0 H0. rewrite oget_close in H0 by exact K. destruct (Nat.eqb_spec u0 u); [discriminate|].
      unfold put. destruct (Nat.eqb_spec (at_ m0) (at_ m)) as [E|]; [|now apply (j_here _ _ I) in H0].
      destruct bf as [v|]; [congruence|]. exfalso. apply n. now apply (j_one _ _ I u0 u m0 m).
    + intros u1 u2 m1 m2 H1 H2 E. rewrite oget_close in H1, H2 by exact K.
      destruct (Nat.eqb_spec u1 u); [discriminate|]. destruct (Nat.eqb_spec u2 u); [discriminate|].
      now apply (j_one _ _ I u1 u2 m1 m2).
    + intros c. unfold put. destruct (Nat.eqb_spec c (at_ m)) as [->|]; [exact Y3|apply (j_val _ _ I)].
    + intros u0 m0 bf0 H0. rewrite oget_close in H0 by exact K. destruct (Nat.eqb_spec u0 u); [discriminate|].
      now apply (j_before _ _ I) in H0.
    + now apply close_nodup.
  - injection D as <- <-. cbn [elsewhere] in Ha. refine (IH (fun c => if Nat.eqb c (at_ m) then sset k v (B c) else B c) _ _ _ HF' HA' _ R). clear IH R.
    constructor; cbn [st_conf st_open].
    + intros c k0 N. unfold put. destruct (Nat.eqb_spec c (at_ m)) as [->|]; [|now apply (j_other _ _ I)].
      destruct (String.eqb_spec k0 k) as [->|]; [now rewrite !get_set|]. rewrite !get_set_o by assumption. now apply (j_other _ _ I).
    + intros u0 m0 H0. unfold put. destruct (Nat.eqb_spec (at_ m0) (at_ m)) as [E|]; [|now apply (j_here _ _ I) in H0].
      rewrite get_set_o by congruence. rewrite <- E. now apply (j_here _ _ I) in H0.
    + apply (j_one _ _ I).
    + intros c. unfold put. destruct (Nat.eqb_spec c (at_ m)) as [->|]; [rewrite get_set_o by congruence|]; apply (j_val _ _ I).
    + apply (j_before _ _ I).
    + apply (j_keys _ _ I).
Qed.
End Both.

Lemma any_run : forall at_ exn_ f0 l s es, leaves_it l -> run (enterG at_) (exitG at_ exn_) at_ l f0 = Some (s, es) ->
  es = [] /\ forall c, (forall k, k <> key -> sget k (st_conf s c) = sget k (plain at_ l f0 c)) /\
    from_use at_ f0 l c (sget key (st_conf s c)).
Proof.
  intros at_ x f0 l s es HL H.
  destruct (any_steps at_ x f0 l l f0 (State f0 []) s es HL (fun a h => h)) as [E I].
  - constructor; cbn; auto; try discriminate; [intros c; now left|constructor].
  - exact H.
  - split; [exact E|]. intros c. split; [intros; now apply (j_other _ _ _ _ _ I)|apply (j_val _ _ _ _ _ I)].
Qed.

(** * The two versions *)
Lemma run2_G : forall l f, run2 l f = run (enterG id_) (exitG id_ EKey) id_ l f.
Proof. reflexivity. Qed.
Section One.
Variable cfg : nat -> nat.
Variable mro : nat -> list nat.
Variable f0 : confs.
Variable all : list step.
Definition user (c : nat) : Prop := exists u m b, In (Enter u m b) all /\ cfg m = c.
Hypothesis top : forall u m b, In (Enter u m b) all -> exists l, mro (cfg m) = cfg m :: l /\ forall d, In d l -> ~ user d /\ sget key (f0 d) = None.
Lemma lookup_none : forall l f, (forall d, In d l -> sget key (f d) = None) -> lookup l f = None.
Proof.
  induction l as [|d l IH]; intros f H; cbn; [reflexivity|]. rewrite (H d) by (now left). apply IH. intros. apply H. now right.
Qed.
Lemma steps1_G : forall l s, Forall elsewhere l -> incl l all ->
  (forall d, ~ user d -> sget key (st_conf s d) = sget key (f0 d)) ->
  (forall u m bf, oget u (st_open s) = Some (m, bf) -> user (cfg m)) -> NoDup (map fst (st_open s)) ->
  steps (enter1 cfg mro) (exit1 cfg) cfg l s = steps (enterG cfg) (exitG cfg EAttribute) cfg l s.
Proof.
  induction l as [|a l IH]; intros s HF HA Q O K; [reflexivity|].
  inversion HF as [|? ? Ha HF']; subst. assert (HA' : incl l all) by (intros z Hz; apply HA; now right).
  assert (D : do_step (enter1 cfg mro) (exit1 cfg) cfg a s = do_step (enterG cfg) (exitG cfg EAttribute) cfg a s).
  { destruct a as [u m b|u|m k v]; try reflexivity. cbn [do_step]. destruct (oget u (st_open s)); [reflexivity|].
    unfold enter1, enterG. destruct (top u m b) as (r & E & HR); [apply HA; now left|]. rewrite E. cbn [lookup].
    destruct (sget key (st_conf s (cfg m))); [reflexivity|]. rewrite lookup_none; [reflexivity|].
    intros d Hd. destruct (HR d Hd) as [N1 N2]. rewrite Q by exact N1. exact N2. }
  cbn [steps]. rewrite D. destruct (do_step (enterG cfg) (exitG cfg EAttribute) cfg a s) as [[s1 e]|] eqn:E; [|reflexivity].
  rewrite IH; auto; clear IH D; destruct a as [u m b|u|m k v]; cbn [do_step] in E.
  - destruct (oget u (st_open s)); [discriminate|]. cbn in E. injection E as <- <-. intros d Hd. cbn. unfold put.
    destruct (Nat.eqb_spec d (cfg m)) as [->|]; [|now apply Q]. destruct Hd. exists u, m, b. split; [apply HA; now left|reflexivity].
  - destruct (oget u (st_open s)) as [[m bf]|] eqn:G; [|discriminate]. apply O in G. intros d Hd.
    unfold exitG in E. destruct bf as [v|]; [|destruct (has key (st_conf s (cfg m)))]; injection E as <- <-; cbn; unfold put;
      try (destruct (Nat.eqb_spec d (cfg m)) as [->|]; [contradiction|]); now apply Q.
  - injection E as <- <-. cbn. unfold put. intros d Hd. cbn in Ha. destruct (Nat.eqb_spec d (cfg m)) as [->|]; [|now apply Q].
    rewrite get_set_o by congruence. now apply Q.
  - destruct (oget u (st_open s)) eqn:G; [discriminate|]. cbn in E. injection E as <- <-. cbn. intros u0 m0 bf H.
    destruct (Nat.eqb_spec u0 u); [|eauto]. injection H as <- <-. exists u, m, b. split; [apply HA; now left|reflexivity].
  - destruct (oget u (st_open s)) as [[m bf]|] eqn:G; [|discriminate]. destruct (exitG cfg EAttribute m bf (st_conf s)).
    injection E as <- <-. cbn. intros u0 m0 bf0 H. rewrite oget_close in H by exact K. destruct (Nat.eqb u0 u); [discriminate|]. eauto.
  - injection E as <- <-. exact O.
  - destruct (oget u (st_open s)) eqn:G; [discriminate|]. cbn in E. injection E as <- <-. cbn. constructor; [now apply oget_none|exact K].
  - destruct (oget u (st_open s)) as [[m bf]|] eqn:G; [|discriminate]. destruct (exitG cfg EAttribute m bf (st_conf s)).
    injection E as <- <-. cbn. now apply close_nodup.
  - injection E as <- <-. exact K.
Qed.
End One.
