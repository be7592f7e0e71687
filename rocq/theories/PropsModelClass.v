(** EventedModel classes: which events there are (C74), the dependents of a field (C75), which
    setter is used (C76). *)

From Verif Require Import Base Core Spec Frame Fuel Demo Client Prog Evented SpecEvented PropsEvented Uniform PropsUniform
  EModel SpecModel ModelDelay ModelClass.
Open Scope string_scope.
Open Scope list_scope.

(** * C74 *)

(** The reemission mode that the configuration asks for. *)
Definition wanted (r : reem) (n : string) (m : mode) : Prop :=
  match r with
  | RAll x => x = Some m
  | RMap l => sget n l = Some (Some m) \/ sget n l = None /\ m = LatestOnly
  end.
(** A field that can be assigned to, or a property of the class with a setter. *)
Definition assignable (fields : list (string * bool)) (n : string) : Prop := In (n, false) fields.
Definition settable (ns : list (string * nsattr)) (n : string) : Prop := exists p, In (n, NProp p) ns /\ p_set p = true.

Lemma valid_get : forall l r, valid_map l = Some r -> forall n, sget n l = match sget n r with Some m => Some (Some m) | None => None end.
Proof.
  induction l as [|[k [m|]] l IH]; cbn; intros r H n; [now injection H as <-| |discriminate].
  destruct (valid_map l) as [r'|]; [|discriminate]. injection H as <-. cbn. destruct (String.eqb n k); [reflexivity|]. now apply IH.
Qed.
Lemma emission_mode : forall r e, emission r = Some e -> forall n m, wanted r n m <-> m = mode_of e n.
Proof.
  intros [[m0|]|l] e H n m; cbn in H; try discriminate.
  - injection H as <-. cbn. intuition congruence.
  - destruct (valid_map l) as [r|] eqn:V; [|discriminate]. injection H as <-. unfold mode_of. cbn [fst snd wanted].
    rewrite (valid_get l r V n). destruct (sget n r) as [x|].
    + split; [intros [K|[K _]]; congruence|intros ->; now left].
    + split; [intros [K|[_ K]]; congruence|intros ->; right; auto].
Qed.
Lemma field_signals_get : forall e fields d n, is_dict fields ->
  sget n (fold_left (fun d (nf : string * bool) => if snd nf then d else sset (fst nf) (mode_of e (fst nf)) d) fields d)
  = match sget n fields with Some false => Some (mode_of e n) | _ => sget n d end.
Proof.
  unfold is_dict. intros e fields. induction fields as [|[k b] fields IH]; intros d n H; cbn; [reflexivity|].
  inversion H as [|? ? Hn H']; subst. rewrite IH by exact H'.
  destruct (String.eqb_spec n k) as [->|Hx].
  - assert (HN : sget k fields = None).
    { destruct (sget k fields) eqn:S; [|reflexivity]. exfalso. apply Hn, sget_keys. congruence. }
    rewrite HN. destruct b; [reflexivity|]. now rewrite sget_sset, String.eqb_refl.
  - destruct (sget n fields) as [[]|]; try reflexivity; destruct b; try reflexivity;
      rewrite sget_sset; apply String.eqb_neq in Hx; now rewrite Hx.
Qed.
Lemma own_setters_get : forall e ns st n, is_dict ns ->
  sget n (fst (own_setters e ns st)) = match sget n ns with Some (NProp p) => if p_set p then Some p else sget n (fst st) | _ => sget n (fst st) end
  /\ sget n (snd (own_setters e ns st))
     = match sget n ns with Some (NProp p) => if p_set p then Some (mode_of e n) else sget n (snd st) | _ => sget n (snd st) end.
Proof.
  unfold is_dict. intros e ns. induction ns as [|[k a] ns IH]; intros st n H; cbn; [auto|].
  inversion H as [|? ? Hn H']; subst.
  assert (HN : sget k ns = None).
  { destruct (sget k ns) eqn:S; [|reflexivity]. exfalso. apply Hn, sget_keys. congruence. }
  unfold own_setters in IH |- *. cbn [fold_left fst snd].
  destruct a as [p|]; [destruct (p_set p) eqn:P|]; cbn [fst snd];
    (match goal with |- context [fold_left _ ns ?s] => destruct (IH s n H') as [I1 I2]; rewrite I1, I2 end);
    cbn [fst snd]; rewrite ?sget_sset; destruct (String.eqb_spec n k) as [->|]; rewrite ?HN, ?P; auto.
Qed.
Lemma create_inv : forall bases fields ns cf c, create_model bases fields ns cf = inl c ->
  exists e, emission (cf_reem cf) = Some e
  /\ let st := if cf_allow cf then own_setters e ns (base_setters bases, field_signals e fields) else ([], field_signals e fields) in
     mc_fields c = fields /\ mc_allow c = cf_allow cf /\ mc_setters c = fst st /\ mc_signals c = snd st
     /\ field_dependents cf fields (fst st) = inl (mc_deps c)
     /\ (cf_allow cf = false -> existsb mc_allow bases = false).
Proof.
  intros bases fields ns cf c H. unfold create_model in H. destruct (emission (cf_reem cf)) as [e|]; [|discriminate].
  exists e. split; [reflexivity|]. cbv zeta. destruct (cf_allow cf).
  - destruct (own_setters _ _ _) as [st sg] eqn:O. cbn [fst snd]. destruct (field_dependents cf fields st) as [d|] eqn:D; [|discriminate].
    destruct (existsb _ _); [discriminate|]. injection H as <-. repeat split; auto. discriminate.
  - destruct (existsb mc_allow bases); [discriminate|]. destruct (field_dependents cf fields []) as [d|] eqn:D; [|discriminate].
    destruct (existsb _ _); [discriminate|]. injection H as <-. repeat split; auto.
Qed.
Lemma signals_get : forall bases fields ns cf c e, is_dict fields -> is_dict ns ->
  create_model bases fields ns cf = inl c -> emission (cf_reem cf) = Some e ->
  forall n m, sget n (mc_signals c) = Some m
    <-> m = mode_of e n /\ (assignable fields n \/ cf_allow cf = true /\ settable ns n).
Proof.
  intros bases fields ns cf c e Hf Hn H He n m. apply create_inv in H as (e' & He' & _ & _ & _ & HS & _).
  assert (e' = e) by congruence. subst e'. rewrite HS. clear HS. unfold assignable, settable.
  assert (HF : sget n (field_signals e fields) = match sget n fields with Some false => Some (mode_of e n) | _ => None end).
  { unfold field_signals. rewrite field_signals_get by exact Hf. reflexivity. }
  assert (HA : In (n, false) fields <-> sget n fields = Some false) by now apply sget_In.
  assert (HF' : sget n (field_signals e fields) = Some m <-> m = mode_of e n /\ In (n, false) fields).
  { rewrite HF, HA. destruct (sget n fields) as [[]|]; intuition congruence. }
  destruct (cf_allow cf); cbn [snd]; [|rewrite HF'; intuition congruence].
  rewrite (proj2 (own_setters_get e ns _ n Hn)). cbn [fst snd].
  assert (HP : forall p, In (n, NProp p) ns <-> sget n ns = Some (NProp p)) by (intros p; now apply sget_In).
  destruct (sget n ns) as [[p|]|] eqn:S.
  - destruct (p_set p) eqn:P.
    + split; [intros [= <-]; split; [reflexivity|]; right; split; [reflexivity|]; exists p; split; [now apply HP|exact P]|].
      intros [-> _]. reflexivity.
    + rewrite HF'. split; [intros [A B]; auto|]. intros [A [B|[_ (q & B & C)]]]; [auto|]. apply HP in B. congruence.
  - rewrite HF'. split; [intros [A B]; auto|]. intros [A [B|[_ (q & B & C)]]]; [auto|]. apply HP in B. congruence.
  - rewrite HF'. split; [intros [A B]; auto|]. intros [A [B|[_ (q & B & C)]]]; [auto|]. apply HP in B. congruence.
Qed.

(** A class has a signal for every field that can be assigned to and, if they are allowed, for the
    properties with setter in its own body, with the mode it asks for; and no others. *)
Theorem C74_events_partial : forall bases fields ns cf c, is_dict fields -> is_dict ns ->
  create_model bases fields ns cf = inl c ->
  forall n m, sget n (mc_signals c) = Some m
    <-> wanted (cf_reem cf) n m /\ (assignable fields n \/ cf_allow cf = true /\ settable ns n).
Proof.
  intros bases fields ns cf c Hf Hn H n m. destruct (create_inv _ _ _ _ _ H) as (e & He & _).
  rewrite (signals_get _ _ _ _ _ e Hf Hn H He n m), (emission_mode _ _ He n m). reflexivity.
Qed.
(** class A(EventedModel): a: int; b: int = Field(frozen=True); property c with setter. *)
Definition C74_c : prop := Prop_ 1 (Some ["a"; "len"; "b"]) true.
Definition C74_fields : list (string * bool) := [("a", false); ("b", true)].
Definition C74_cfg : config := Config true (RMap [("a", Some Queued)]) [("c", ["a"; "b"])] false.
Definition C74_A : mcls := Mcls C74_fields true [("c", C74_c)] [("a", Queued); ("c", LatestOnly)] [("a", ["c"]); ("b", ["c"])].
Definition C74_ns : list (string * nsattr) := [("f", NOther); ("c", NProp C74_c); ("d", NProp (Prop_ 2 None false))].
Example C74_case : is_dict C74_fields /\ is_dict C74_ns /\ create_model [] C74_fields C74_ns C74_cfg = inl C74_A
  /\ settable C74_ns "c" /\ assignable C74_fields "a" /\ wanted (cf_reem C74_cfg) "a" Queued.
Proof.
  split; [repeat constructor; cbn; intuition discriminate|]. split; [repeat constructor; cbn; intuition discriminate|].
  split; [reflexivity|]. split; [exists C74_c; cbn; auto|]. split; [cbn; auto|]. cbn. now left.
Qed.
Print Assumptions C74_events_partial.
(** class B(A): pass has the setter of c, but no signal c. *)
Theorem C74_refuted : exists A B fields ns cf p,
  create_model [] fields ns cf = inl A /\ create_model [A] fields [] cf = inl B
  /\ In ("c", NProp p) ns /\ setter_used B "c" = Some p
  /\ has "c" (mc_signals A) = true /\ has "c" (mc_signals B) = false.
Proof.
  exists C74_A. eexists. exists C74_fields, C74_ns, C74_cfg, C74_c.
  split; [reflexivity|]. split; [reflexivity|]. repeat split. cbn. auto.
Qed.
Print Assumptions C74_refuted.

(** A class statement is refused for these reasons only: an invalid reemission mode, property
    setters switched off although a base has them switched on, field_dependencies of something
    that is neither a field nor a property with a setter (ValueError); an event whose name starts
    with "_psygnal" (TypeError).  [setters]: as the class would have them. *)
Definition bad_mode (r : reem) : Prop :=
  match r with RAll x => x = None | RMap l => exists k, In (k, None) l end.
Definition has_setter (bases : list mcls) (ns : list (string * nsattr)) (cf : config) (p : string) : Prop :=
  cf_allow cf = true /\ (settable ns p \/ exists b, In b bases /\ In p (map fst (mc_setters b))).
Lemma valid_none : forall l, valid_map l = None <-> exists k, In (k, None) l.
Proof.
  induction l as [|[k [m|]] l IH]; cbn.
  - split; [discriminate|intros (k & [])].
  - destruct (valid_map l).
    + split; [discriminate|]. intros (j & [X|X]); [discriminate|]. exfalso. enough (Some l0 = None) by discriminate. apply IH. eauto.
    + split; [|reflexivity]. intros _. destruct (proj1 IH eq_refl) as (j & J). eauto.
  - split; [|reflexivity]. intros _. exists k. now left.
Qed.
Lemma emission_none : forall r, emission r = None <-> bad_mode r.
Proof.
  intros [[m|]|l]; cbn; [intuition discriminate|intuition|]. rewrite <- valid_none. destruct (valid_map l); intuition discriminate.
Qed.
Lemma base_setters_keys : forall bases p, In p (map fst (base_setters bases)) <-> exists b, In b bases /\ In p (map fst (mc_setters b)).
Proof.
  intros bases p. unfold base_setters.
  assert (HM : forall (d e : list (string * prop)), In p (map fst (merge d e)) <-> In p (map fst d) \/ In p (map fst e)).
  { intros d e. unfold merge. revert d. induction e as [|[k v] e IH]; intros d; cbn; [tauto|]. rewrite IH, <- !sget_keys, sget_sset. cbn.
    rewrite (sget_keys p d), (sget_keys p e). destruct (String.eqb_spec p k) as [->|N]; [split; [auto|left; discriminate]|].
    rewrite <- (sget_keys p d). intuition congruence. }
  assert (HG : forall l (d : list (string * prop)), In p (map fst (fold_left (fun d b => merge d (mc_setters b)) l d))
                 <-> In p (map fst d) \/ exists b, In b l /\ In p (map fst (mc_setters b))).
  { induction l as [|b l IH]; intros d; cbn; [split; [auto|intros [H|(b & [] & _)]; exact H]|]. rewrite IH, HM. split.
    - intros [[H|H]|(b' & B & H)]; eauto.
    - intros [H|(b' & [->|B] & H)]; eauto. }
  rewrite HG. cbn. split; [intros [[]|(b & B & H)]; exists b; split; [now apply in_rev|exact H]|].
  intros (b & B & H). right. exists b. split; [now apply in_rev in B|exact H].
Qed.
Lemma config_deps_none : forall known cfg d, (exists e, config_deps known cfg d = inr e) <-> exists p fs, In (p, fs) cfg /\ known p = false.
Proof.
  intros known cfg. induction cfg as [|[p fs] cfg IH]; intros d; cbn.
  - split; [intros (e & H); discriminate|intros (p & fs & [] & _)].
  - destruct (known p) eqn:K.
    + rewrite IH. split; [intros (q & gs & H & N); eauto|]. intros (q & gs & [X|H] & N); [injection X as -> ->; congruence|eauto].
    + split; [|eauto]. intros _. exists p, fs. auto.
Qed.
Theorem C74_refused : forall bases fields ns cf, is_dict fields -> is_dict ns ->
  let unknown := exists p fs, In (p, fs) (cf_deps cf) /\ ~ In p (map fst fields) /\ ~ has_setter bases ns cf p in
  let switched := cf_allow cf = false /\ exists b, In b bases /\ mc_allow b = true in
  let reserved := exists n, starts "_psygnal" n = true /\ (assignable fields n \/ cf_allow cf = true /\ settable ns n) in
  match create_model bases fields ns cf with
  | inl _ => ~ bad_mode (cf_reem cf) /\ ~ switched /\ ~ unknown /\ ~ reserved
  | inr e => e = EValue /\ (bad_mode (cf_reem cf) \/ switched \/ unknown) \/ e = EType /\ reserved
  end.
Proof.
  intros bases fields ns cf Hf Hn unknown switched reserved.
  destruct (emission (cf_reem cf)) as [e|] eqn:He.
  2:{ unfold create_model. rewrite He. left. split; [reflexivity|]. left. now apply emission_none. }
  assert (HB : ~ bad_mode (cf_reem cf)) by (rewrite <- emission_none; congruence).
  assert (HW : existsb mc_allow bases = true <-> exists b, In b bases /\ mc_allow b = true) by apply existsb_exists.
  destruct (cf_allow cf) eqn:Ha; [|destruct (existsb mc_allow bases) eqn:Hex].
  2:{ unfold create_model. rewrite He, Ha, Hex. left. split; [reflexivity|]. right. left. split; [reflexivity|]. now apply HW. }
  - (* setters allowed *)
    assert (HS : ~ switched) by (intros [X _]; discriminate).
    unfold create_model. rewrite He, Ha. destruct (own_setters e ns (base_setters bases, field_signals e fields)) as [st sg] eqn:O.
    assert (HG : forall n, In n (map fst sg) <-> assignable fields n \/ true = true /\ settable ns n).
    { intros n. rewrite <- sget_keys. pose proof (proj2 (own_setters_get e ns (base_setters bases, field_signals e fields) n Hn)) as H2.
      rewrite O in H2. cbn [snd] in H2. rewrite H2. unfold field_signals. rewrite field_signals_get by exact Hf.
      assert (HP : forall p, In (n, NProp p) ns <-> sget n ns = Some (NProp p)) by (intros p; now apply sget_In).
      assert (HA : In (n, false) fields <-> sget n fields = Some false) by now apply sget_In. unfold assignable, settable. rewrite HA.
      assert (HF : match sget n fields with Some false => Some (mode_of e n) | _ => sget n (@nil (string * mode)) end <> None <-> sget n fields = Some false).
      { destruct (sget n fields) as [[]|]; cbn; intuition congruence. }
      destruct (sget n ns) as [[p|]|] eqn:S.
      - destruct (p_set p) eqn:P; [|rewrite HF; split; [auto|]; intros [K|(_ & q & K1 & K2)]; [exact K|apply HP in K1; congruence]].
        split; [|discriminate]. intros _. right. split; [reflexivity|]. exists p. split; [now apply HP|exact P].
      - rewrite HF. split; [auto|]. intros [K|(_ & q & K1 & K2)]; [exact K|apply HP in K1; congruence].
      - rewrite HF. split; [auto|]. intros [K|(_ & q & K1 & K2)]; [exact K|apply HP in K1; congruence]. }
    assert (HT : forall n, In n (map fst st) <-> has_setter bases ns cf n).
    { intros n. unfold has_setter. rewrite Ha, <- base_setters_keys, <- !sget_keys.
      pose proof (proj1 (own_setters_get e ns (base_setters bases, field_signals e fields) n Hn)) as H1. rewrite O in H1. cbn [fst] in H1. rewrite H1.
      assert (HP : forall p, In (n, NProp p) ns <-> sget n ns = Some (NProp p)) by (intros p; now apply sget_In). unfold settable.
      destruct (sget n ns) as [[p|]|] eqn:S.
      - destruct (p_set p) eqn:P.
        + split; [|discriminate]. intros _. split; [reflexivity|]. left. exists p. split; [now apply HP|exact P].
        + split; [auto|]. intros (_ & [(q & K1 & K2)|K]); [apply HP in K1; congruence|exact K].
      - split; [auto|]. intros (_ & [(q & K1 & K2)|K]); [apply HP in K1; congruence|exact K].
      - split; [auto|]. intros (_ & [(q & K1 & K2)|K]); [apply HP in K1; congruence|exact K]. }
    assert (HU : (exists x, config_deps (fun p => has p fields || has p st) (cf_deps cf) [] = inr x) <-> unknown).
    { rewrite config_deps_none. unfold unknown. split; intros (p & fs & H1 & H2); exists p, fs; (split; [exact H1|]).
      - apply orb_false_iff in H2 as [H2 H3]. split; [rewrite <- sget_keys|rewrite <- HT, <- sget_keys]; unfold has in *;
          [destruct (sget p fields)|destruct (sget p st)]; congruence.
      - destruct H2 as [H2 H3]. apply orb_false_iff. rewrite <- sget_keys in H2. rewrite <- HT, <- sget_keys in H3. unfold has.
        split; [destruct (sget p fields)|destruct (sget p st)]; auto; exfalso; [apply H2|apply H3]; discriminate. }
    assert (HR : existsb (starts "_psygnal") (map fst sg) = true <-> reserved).
    { rewrite existsb_exists. unfold reserved. split; intros (n & H1 & H2); exists n; [split; [exact H2|now apply HG]|split; [now apply HG|exact H1]]. }
    unfold field_dependents. destruct (config_deps (fun p => has p fields || has p st) (cf_deps cf) []) as [d|x] eqn:D.
    + destruct (existsb (starts "_psygnal") (map fst sg)) eqn:R.
      * right. split; [reflexivity|now apply HR].
      * split; [exact HB|]. split; [exact HS|]. split; [rewrite <- HU; intros (x & X); discriminate|rewrite <- HR; congruence].
    + assert (x = EValue) as ->.
      { clear -D. revert D. generalize (@nil (string * list string)). induction (cf_deps cf) as [|[p fs] l IH]; intros d D; cbn in D; [discriminate|].
        destruct (_ || _); [eauto|congruence]. }
      left. split; [reflexivity|]. right. right. apply HU. eauto.
  - (* none allowed, in no base *)
    assert (HS : ~ switched) by (intros [_ X]; apply HW in X; congruence).
    unfold create_model. rewrite He, Ha, Hex.
    assert (HG : forall n, In n (map fst (field_signals e fields)) <-> assignable fields n \/ false = true /\ settable ns n).
    { intros n. rewrite <- sget_keys. unfold field_signals. rewrite field_signals_get by exact Hf. unfold assignable.
      assert (HA : In (n, false) fields <-> sget n fields = Some false) by now apply sget_In. rewrite HA.
      destruct (sget n fields) as [[]|]; cbn; intuition congruence. }
    assert (HU : (exists x, config_deps (fun p => has p fields || has p (@nil (string * prop))) (cf_deps cf) [] = inr x) <-> unknown).
    { rewrite config_deps_none. unfold unknown, has_setter. rewrite Ha. split; intros (p & fs & H1 & H2); exists p, fs; (split; [exact H1|]).
      - apply orb_false_iff in H2 as [H2 _]. split; [|intros [X _]; discriminate]. rewrite <- sget_keys. unfold has in H2. destruct (sget p fields); congruence.
      - destruct H2 as [H2 _]. rewrite <- sget_keys in H2. unfold has. destruct (sget p fields); [exfalso; apply H2; discriminate|reflexivity]. }
    assert (HR : existsb (starts "_psygnal") (map fst (field_signals e fields)) = true <-> reserved).
    { rewrite existsb_exists. unfold reserved. split; intros (n & H1 & H2); exists n; [split; [exact H2|now apply HG]|split; [now apply HG|exact H1]]. }
    unfold field_dependents. destruct (config_deps (fun p => has p fields || has p (@nil (string * prop))) (cf_deps cf) []) as [d|x] eqn:D.
    + destruct (existsb (starts "_psygnal") (map fst (field_signals e fields))) eqn:R.
      * right. split; [reflexivity|now apply HR].
      * split; [exact HB|]. split; [exact HS|]. split; [rewrite <- HU; intros (x & X); discriminate|rewrite <- HR; congruence].
    + assert (x = EValue) as ->.
      { clear -D. revert D. generalize (@nil (string * list string)). induction (cf_deps cf) as [|[p fs] l IH]; intros d D; cbn [config_deps] in D; [discriminate|].
        destruct (_ || _); [eauto|congruence]. }
      left. split; [reflexivity|]. right. right. apply HU. eauto.
Qed.
Example C74_refused_case :
  create_model [C74_A] [("a", false)] [] (Config false (RMap []) [] false) = inr EValue
  /\ create_model [] [("a", false)] [] (Config true (RMap []) [("d", ["a"])] false) = inr EValue
  /\ create_model [] [("a", false)] [] (Config true (RMap [("a", None)]) [] false) = inr EValue
  /\ create_model [] [("_psygnal_x", false)] [] (Config true (RMap []) [] false) = inr EType.
Proof. repeat split. Qed.
Print Assumptions C74_refused.

(** * C75 *)

Definition dependents (c : mcls) (f : string) : list string := match sget f (mc_deps c) with Some l => l | None => [] end.
(** [p] depends on [f]: it says so in field_dependencies, or its getter uses the name of the field
    and guessing is asked for. *)
Definition depends (cf : config) (fields : list (string * bool)) (setters : list (string * prop)) (f p : string) : Prop :=
  (exists fs, In (p, fs) (cf_deps cf) /\ In f fs)
  \/ cf_guess cf = true /\ In f (map fst fields) /\ exists q names, In (p, q) setters /\ p_names q = Some names /\ In f names.

Definition getl (f : string) (d : list (string * list string)) : list string := match sget f d with Some l => l | None => [] end.
Lemma add_dep_get : forall f p d g q, In q (getl g (add_dep f p d)) <-> In q (getl g d) \/ g = f /\ q = p.
Proof.
  intros f p d g q. unfold add_dep, getl. destruct (sget f d) as [l|] eqn:S; rewrite sget_sset;
    destruct (String.eqb_spec g f) as [->|]; try (intuition congruence); rewrite S.
  - destruct (mem p l) eqn:M; [apply mem_In in M; intuition congruence|]. rewrite in_app_iff. cbn. intuition congruence.
  - cbn. intuition congruence.
Qed.
Lemma add_deps_get : forall p fs d g q, In q (getl g (fold_left (fun d f => add_dep f p d) fs d)) <-> In q (getl g d) \/ In g fs /\ q = p.
Proof.
  intros p fs. induction fs as [|f fs IH]; intros d g q; cbn; [tauto|]. rewrite IH, add_dep_get. intuition congruence.
Qed.
Lemma config_deps_get : forall known cfg d d', config_deps known cfg d = inl d' ->
  (forall g q, In q (getl g d') <-> In q (getl g d) \/ exists fs, In (q, fs) cfg /\ In g fs)
  /\ forall p fs, In (p, fs) cfg -> known p = true.
Proof.
  intros known cfg. induction cfg as [|[p fs] cfg IH]; cbn; intros d d' H.
  - injection H as <-. split; [|intros p fs []]. intros g q. split; [auto|]. intros [K|(fs & [] & _)]. exact K.
  - destruct (known p) eqn:N; [|discriminate]. destruct (IH _ _ H) as [I1 I2]. split.
    + intros g q. rewrite I1, add_deps_get. split.
      * intros [[K|[K ->]]|(fs' & K1 & K2)]; [auto|right; exists fs; auto|right; exists fs'; auto].
      * intros [K|(fs' & [K1|K1] & K2)]; [auto| |right; eauto]. injection K1 as <- <-. auto.
    + intros p' fs' [K|K]; [congruence|eauto].
Qed.
Lemma guess_names_get : forall (fields : list (string * bool)) p names d g q,
  In q (getl g (fold_left (fun d n => if has n fields then add_dep n p d else d) names d))
  <-> In q (getl g d) \/ In g names /\ In g (map fst fields) /\ q = p.
Proof.
  intros fields p names. induction names as [|n names IH]; intros d g q; cbn; [tauto|]. rewrite IH.
  assert (HH : has n fields = true <-> In n (map fst fields)).
  { rewrite <- sget_keys. unfold has. destruct (sget n fields); intuition congruence. }
  destruct (has n fields); [rewrite add_dep_get|]; [intuition congruence|].
  split; [tauto|]. intros [K|([<-|K] & K2 & K3)]; [auto| |tauto]. apply HH in K2. discriminate.
Qed.
Lemma guess_deps_get : forall fields setters d g q, In q (getl g (guess_deps fields setters d))
  <-> In q (getl g d) \/ In g (map fst fields) /\ exists x names, In (q, x) setters /\ p_names x = Some names /\ In g names.
Proof.
  intros fields setters. unfold guess_deps. induction setters as [|[p x] setters IH]; intros d g q; cbn [fold_left fst snd].
  - split; [auto|]. intros [K|(_ & x & names & [] & _)]. exact K.
  - rewrite IH. clear IH. destruct (p_names x) as [names|] eqn:N.
    + rewrite guess_names_get. split.
      * intros [[K|(K1 & K2 & ->)]|(K1 & y & ns & K2 & K3 & K4)]; [auto| |].
        -- right. split; [exact K2|]. exists x, names. split; [now left|auto].
        -- right. split; [exact K1|]. exists y, ns. split; [now right|auto].
      * intros [K|(K1 & y & ns & [K2|K2] & K3 & K4)]; [auto| |right; eauto 8].
        injection K2 as <- <-. left. right. split; [congruence|auto].
    + split.
      * intros [K|(K1 & y & ns & K2 & K3 & K4)]; [auto|]. right. split; [exact K1|]. exists y, ns. split; [now right|auto].
      * intros [K|(K1 & y & ns & [K2|K2] & K3 & K4)]; [auto| |right; eauto 8]. congruence.
Qed.
(** __field_dependents__ is what is declared and guessed. *)
Theorem C75_dependents : forall bases fields ns cf c, create_model bases fields ns cf = inl c ->
  forall f p, In p (dependents c f) <-> depends cf fields (mc_setters c) f p.
Proof.
  intros bases fields ns cf c H f p. apply create_inv in H as (e & _ & _ & _ & HS & _ & HD & _). rewrite <- HS in HD. clear HS e.
  unfold field_dependents in HD. destruct (config_deps _ (cf_deps cf) []) as [d|] eqn:D; [|discriminate].
  destruct (config_deps_get _ _ _ _ D) as [H1 _]. injection HD as HD.
  change (dependents c f) with (getl f (mc_deps c)). rewrite <- HD. unfold depends. destruct (cf_guess cf).
  - rewrite guess_deps_get, H1. cbn. tauto.
  - rewrite H1. cbn. intuition congruence.
Qed.

(** The engine's view of an object of the class. *)
Definition of_class {X} (c : mcls) (K : mclass X) : Prop :=
  (forall n, k_sig K n <> None <-> In n (map fst (mc_signals c))) /\ forall n, k_deps K n = dependents c n.
(** If no frozen field has dependencies and the properties that matter are in the body of the class, then
    every dependent has a signal, as C48 requires. *)
Theorem C75_closed_partial : forall X bases fields ns cf c (K : mclass X), is_dict fields -> is_dict ns ->
  create_model bases fields ns cf = inl c -> of_class c K ->
  (forall p fs, In (p, fs) (cf_deps cf) -> assignable fields p \/ cf_allow cf = true /\ settable ns p) ->
  (cf_guess cf = true -> forall p, In p (map fst (mc_setters c)) -> settable ns p) ->
  closed_deps K.
Proof.
  intros X bases fields ns cf c K Hf Hn H [HK1 HK2] H1 H2 f p Hp. rewrite HK2 in Hp. apply HK1, sget_keys.
  apply (C75_dependents _ _ _ _ _ H) in Hp. destruct (create_inv _ _ _ _ _ H) as (e & He & _ & _ & HS & _ & HD & _).
  assert (HA : assignable fields p \/ cf_allow cf = true /\ settable ns p).
  { destruct Hp as [(fs & K1 & K2)|(K1 & K2 & q & names & K3 & K4)]; [eauto|]. right. split.
    - destruct (cf_allow cf); [reflexivity|]. rewrite HS in K3. destruct K3.
    - apply H2; [exact K1|]. change p with (fst (p, q)). now apply in_map. }
  intros HN. pose proof (signals_get _ _ _ _ _ e Hf Hn H He p (mode_of e p)) as HG. rewrite HN in HG.
  destruct HG as [_ HG]. discriminate HG. auto.
Qed.
(** The engine's view of C74_A; the values of the attributes do not matter. *)
Definition class_of (c : mcls) : mclass unit := MClass
  (fun n => if has n (mc_signals c) then Some 1 else None) 0 (dependents c) (match mc_deps c with [] => false | _ => true end)
  (fun n d => match fst d n with Some v => inl v | None => inr EAttribute end)
  (Values (fun _ _ _ => inl false) (fun _ _ => false) (fun _ => false) false) (fun l => l).
Lemma class_of_ok : forall c, of_class c (class_of c).
Proof.
  intros c. split; [|reflexivity]. intros n. rewrite <- sget_keys. cbn. unfold has. destruct (sget n (mc_signals c)); intuition congruence.
Qed.
Example C75_case : create_model [] C74_fields C74_ns C74_cfg = inl C74_A /\ of_class C74_A (class_of C74_A)
  /\ dependents C74_A "a" = ["c"] /\ closed_deps (class_of C74_A).
Proof.
  destruct C74_case as (H1 & H2 & H3 & H4 & _). split; [exact H3|]. split; [apply class_of_ok|]. split; [reflexivity|].
  apply (C75_closed_partial unit [] C74_fields C74_ns C74_cfg C74_A); try assumption; [apply class_of_ok| |discriminate].
  intros p fs [K|[]]. injection K as <- <-. right. auto.
Qed.
Print Assumptions C75_dependents.
Print Assumptions C75_closed_partial.
(** class B(A): pass with the class A above: b.a = 5 raises KeyError, whatever is connected, and does
    not assign. *)
Definition C75_B : mcls := Mcls C74_fields true [("c", C74_c)] [("a", Queued)] [("a", ["c"]); ("b", ["c"])].
Definition C75_env : env (mstate unit) := demo (fun f a => Ret VNone).
Definition C75_start : mstate unit := MState ((fun n => Some (VInt 1)), tt) [] [] 0 [].
Definition C75_world := world_of C75_env (all_plain Immediate 1) C75_start 20 [].
Theorem C75_inherited_refuted : exists A B fields ns cf,
  create_model [] fields ns cf = inl A /\ create_model [A] fields [] cf = inl B
  /\ assignable fields "a" /\ has "a" (mc_signals B) = true
  /\ (forall E (w w' : world (mstate unit)) v sup r, at_rest (w_usr w) ->
        runs E (model_setattr (class_of B) 2 "a" v sup) w w' r -> w' = w /\ r = Err EKey)
  /\ exists E w w' v sup, reachable E w /\ at_rest (w_usr w) /\ runs E (model_setattr (class_of B) 2 "a" v sup) w w' (Err EKey).
Proof.
  exists C74_A, C75_B, C74_fields, C74_ns, C74_cfg.
  split; [reflexivity|]. split; [reflexivity|]. split; [now left|]. split; [reflexivity|]. split.
  - intros E w w' v sup r (H1 & H2 & H3) H.
    eapply (qeval_runs (fun s => Z.of_nat (List.length (s_slots (w_sg w s)))) E) with (u := w_usr w) (x := inr EKey) in H;
      [destruct H as [-> ->]; split; [apply set_usr_same|reflexivity]|reflexivity|].
    destruct (w_usr w) as [d q pr se op]. cbn in H1, H2, H3. subst. reflexivity.
  - exists C75_env, C75_world, (after C75_env 20 (model_setattr (class_of C75_B) 2 "a" (VInt 5) (Ret VNone)) C75_world), (VInt 5), (Ret VNone).
    split; [reach|]. split; [vm_compute; auto|]. apply after_runs with (n := 20). vm_compute. reflexivity.
Qed.
Print Assumptions C75_inherited_refuted.
(** class A(EventedModel): a: int; b: int = Field(frozen=True) with field_dependencies = {"b": ["a"]}: the dependent b of a
    has no signal, with the same effect. *)
Theorem C75_frozen_refuted : exists A fields cf,
  create_model [] fields [] cf = inl A /\ assignable fields "a"
  /\ dependents A "a" = ["b"] /\ has "b" (mc_signals A) = false.
Proof.
  eexists. exists C74_fields, (Config false (RMap []) [("b", ["a"])] false).
  split; [reflexivity|]. split; [now left|]. split; reflexivity.
Qed.
Print Assumptions C75_frozen_refuted.

(** * C76 *)

(** A class and its bases, as far as their bodies go; all of them allow property setters. *)
Inductive hierarchy : list (list (string * nsattr)) -> mcls -> Prop :=
| hi_one : forall fields ns cf c, is_dict ns -> cf_allow cf = true -> create_model [] fields ns cf = inl c -> hierarchy [ns] c
| hi_sub : forall l b fields ns cf c, hierarchy l b -> is_dict ns -> cf_allow cf = true ->
    create_model [b] fields ns cf = inl c -> hierarchy (ns :: l) c.
(** Python's lookup: the first body that has the name. *)
Fixpoint resolved (n : string) (l : list (list (string * nsattr))) : option nsattr :=
  match l with [] => None | ns :: l => match sget n ns with Some a => Some a | None => resolved n l end end.
(** Nothing but a property with setter has this name. *)
Definition only_property (n : string) (l : list (list (string * nsattr))) : Prop :=
  forall ns a, In ns l -> In (n, a) ns -> exists p, a = NProp p /\ p_set p = true.
Lemma base_setters_one : forall b n, is_dict (mc_setters b) -> sget n (base_setters [b]) = sget n (mc_setters b).
Proof.
  intros b n H. unfold base_setters. cbn. unfold merge. rewrite sget_merge by exact H. cbn. now destruct (sget n (mc_setters b)).
Qed.
Lemma own_setters_dict : forall e ns st, is_dict (fst st) -> is_dict (fst (own_setters e ns st)).
Proof.
  intros e ns. unfold own_setters. induction ns as [|[k a] ns IH]; intros st H; cbn [fold_left]; [exact H|].
  apply IH. cbn. destruct a as [p|]; [|exact H]. destruct (p_set p); [now apply sset_dict|exact H].
Qed.
Lemma hierarchy_dict : forall l c, hierarchy l c -> is_dict (mc_setters c).
Proof.
  intros l c H. destruct H as [fields ns cf c Hn Ha H|l b fields ns cf c Hb Hn Ha H];
    apply create_inv in H as (e & _ & _ & _ & -> & _); rewrite Ha; apply own_setters_dict; cbn [fst].
  - constructor.
  - unfold base_setters. cbn. apply merge_dict. constructor.
Qed.
(** The setter that is used is that of the property which Python finds under the name. *)
Theorem C76_setter_partial : forall l c n, hierarchy l c -> only_property n l ->
  forall p, setter_used c n = Some p <-> resolved n l = Some (NProp p).
Proof.
  intros l c n H. unfold setter_used. induction H as [fields ns cf c Hn Ha H|l b fields ns cf c Hb IH Hn Ha H]; intros HO p.
  - apply create_inv in H as (e & _ & _ & _ & -> & _). rewrite Ha. rewrite (proj1 (own_setters_get e ns _ n Hn)). cbn [fst resolved].
    change (sget n (base_setters [])) with (@None prop).
    destruct (sget n ns) as [a|] eqn:S; [|intuition congruence]. apply sget_In in S; [|exact Hn].
    destruct (HO ns a (or_introl eq_refl) S) as (q & -> & Q). rewrite Q. intuition congruence.
  - pose proof (hierarchy_dict _ _ Hb) as HD.
    apply create_inv in H as (e & _ & _ & _ & -> & _). rewrite Ha. rewrite (proj1 (own_setters_get e ns _ n Hn)). cbn [fst resolved].
    rewrite base_setters_one by exact HD. destruct (sget n ns) as [a|] eqn:S.
    + apply sget_In in S; [|exact Hn]. destruct (HO ns a (or_introl eq_refl) S) as (q & -> & Q). rewrite Q. intuition congruence.
    + apply IH. intros ns' a' K. apply HO. now right.
Qed.
Example C76_case :
  let p1 := Prop_ 1 None true in let p2 := Prop_ 2 None true in
  let l := [[("g", NOther)]; [("c", NProp p2)]; [("c", NProp p1); ("f", NOther)]] in
  let cf := Config true (RMap []) [] false in
  (exists c, hierarchy l c /\ setter_used c "c" = Some p2) /\ only_property "c" l /\ resolved "c" l = Some (NProp p2).
Proof.
  cbv zeta. split; [|split; [|reflexivity]].
  - eexists. split.
    + eapply hi_sub with (fields := []) (cf := Config true (RMap []) [] false); [|repeat constructor; cbn; tauto|reflexivity|reflexivity].
      eapply hi_sub with (fields := []) (cf := Config true (RMap []) [] false); [|repeat constructor; cbn; tauto|reflexivity|reflexivity].
      eapply hi_one with (fields := []) (cf := Config true (RMap []) [] false); [|reflexivity|reflexivity].
      repeat constructor; cbn; intuition discriminate.
    + reflexivity.
  - intros ns a H K. cbn in H. repeat (destruct H as [<-|H]; [cbn in K; repeat (destruct K as [K|K]; [try discriminate K; injection K as <-; eexists; split; reflexivity|]); destruct K|]).
    destruct H.
Qed.
Print Assumptions C76_setter_partial.
(** A subclass that makes the property read-only still uses the setter of its base. *)
Theorem C76_readonly_refuted : exists l c p q, hierarchy l c /\ resolved "c" l = Some (NProp q) /\ p_set q = false
  /\ setter_used c "c" = Some p.
Proof.
  exists [[("c", NProp (Prop_ 2 None false))]; [("c", NProp C74_c)]]. eexists. exists C74_c, (Prop_ 2 None false).
  split; [|repeat split].
  - eapply hi_sub with (fields := []) (cf := Config true (RMap []) [] false); [|repeat constructor; cbn; tauto|reflexivity|reflexivity].
    eapply hi_one with (fields := []) (cf := Config true (RMap []) [] false); [|reflexivity|reflexivity].
    repeat constructor; cbn; tauto.
  - reflexivity.
Qed.
Print Assumptions C76_readonly_refuted.
(** Several bases: a property that is not in the body of the class is that of the first base that has one. *)
Fixpoint first_setter (n : string) (bases : list mcls) : option prop :=
  match bases with [] => None | b :: bases => match setter_used b n with Some p => Some p | None => first_setter n bases end end.
Theorem C76_bases : forall bases fields ns cf c n,
  (forall b, In b bases -> is_dict (mc_setters b)) -> is_dict ns -> cf_allow cf = true -> create_model bases fields ns cf = inl c ->
  sget n ns = None -> setter_used c n = first_setter n bases.
Proof.
  intros bases fields ns cf c n HB Hn Ha H HS. unfold setter_used at 1. apply create_inv in H as (e & _ & _ & _ & -> & _). rewrite Ha.
  rewrite (proj1 (own_setters_get e ns _ n Hn)), HS. cbn [fst]. unfold base_setters.
  assert (HG : forall l d, (forall b, In b l -> is_dict (mc_setters b)) ->
    sget n (fold_left (fun d b => merge d (mc_setters b)) (rev l) d) = match first_setter n l with Some p => Some p | None => sget n d end).
  { intros l. induction l as [|b l IH]; intros d HL; cbn [rev fold_left first_setter]; [reflexivity|].
    rewrite fold_left_app. cbn [fold_left]. unfold merge at 1. rewrite sget_merge by (apply HL; now left).
    unfold setter_used. destruct (sget n (mc_setters b)); [reflexivity|]. apply IH. intros b' Hb. apply HL. now right. }
  rewrite HG by exact HB. now destruct (first_setter n bases).
Qed.
Definition C76_p1 : prop := Prop_ 1 None true.
Definition C76_p2 : prop := Prop_ 2 None true.
Definition C76_cf : config := Config true (RMap []) [] false.
Example C76_bases_case : exists a b c,
  create_model [] [] [("c", NProp C76_p1)] C76_cf = inl a /\ create_model [] [] [("c", NProp C76_p2); ("d", NProp C76_p2)] C76_cf = inl b
  /\ create_model [a; b] [] [] C76_cf = inl c /\ setter_used c "c" = Some C76_p1 /\ setter_used c "d" = Some C76_p2
  /\ is_dict (mc_setters a) /\ is_dict (mc_setters b).
Proof.
  eexists _, _, _. split; [reflexivity|]. split; [reflexivity|]. split; [reflexivity|]. split; [reflexivity|]. split; [reflexivity|].
  split; cbn; repeat constructor; cbn; intuition discriminate.
Qed.
(** False of the code: A has the property c, B(A) does not mention it, C(A) overrides it: for D(B, C) Python finds that of C (the
    __mro__ is D, B, C, A), an assignment to c uses the setter of A. *)
Theorem C76_diamond_refuted : exists a b c d,
  create_model [] [] [("c", NProp C76_p1)] C76_cf = inl a
  /\ create_model [a] [] [] C76_cf = inl b /\ create_model [a] [] [("c", NProp C76_p2)] C76_cf = inl c
  /\ create_model [b; c] [] [] C76_cf = inl d
  /\ resolved "c" [[]; []; [("c", NProp C76_p2)]; [("c", NProp C76_p1)]] = Some (NProp C76_p2)
  /\ setter_used d "c" = Some C76_p1.
Proof. eexists _, _, _, _. repeat split; reflexivity. Qed.
Print Assumptions C76_bases.
Print Assumptions C76_diamond_refuted.
