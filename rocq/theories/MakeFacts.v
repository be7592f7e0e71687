(** Constructors, when nobody listens.  Proof infrastructure (C108). *)

From Verif Require Import Base Core Prog Fuel PyDict EDict PyList EList PySet ESet SpecSet ESelect EListRead EMake SpecMake Alone ListFacts.
Open Scope nat_scope.

Section Al.
Context {U : Type}.
Definition al (p : prog U) (u u' : U) (r : out) : Prop := forall z, exists z', alone p z u = (z', u', r).
Lemma al_ret : forall v u, al (Ret v) u u (Ok v).
Proof. intros v u z. now exists z. Qed.
Lemma al_throw : forall e u, al (Throw e) u u (Err e).
Proof. intros v u z. now exists z. Qed.
Lemma al_look : forall k u u' r, al (k u) u u' r -> al (Look k) u u' r.
Proof. intros k u u' r H z. exact (H z). Qed.
Lemma al_act : forall f u u' v, f u = (u', inl v) -> al (act f) u u' (Ok v).
Proof. intros f u u' v H z. exists z. cbn. now rewrite H. Qed.
Lemma al_fail : forall f u u' e, f u = (u', inr e) -> al (act f) u u' (Err e).
Proof. intros f u u' v H z. exists z. cbn. now rewrite H. Qed.
Lemma al_say : forall s a u, al (say s a) u u (Ok VNone).
Proof. intros s a u z. now exists z. Qed.
Lemma al_bind : forall p k u u1 v u' r, al p u u1 (Ok v) -> al (k v) u1 u' r -> al (bind p k) u u' r.
Proof. intros p k u u1 v u' r H1 H2 z. destruct (H1 z) as [z1 E1]. destruct (H2 z1) as [z2 E2]. exists z2. now rewrite alone_bind, E1. Qed.
Lemma al_bind_err : forall p k u u' e, al p u u' (Err e) -> al (bind p k) u u' (Err e).
Proof. intros p k u u' e H1 z. destruct (H1 z) as [z1 E1]. exists z1. now rewrite alone_bind, E1. Qed.
Lemma al_seq : forall p q u u1 v u' r, al p u u1 (Ok v) -> al q u1 u' r -> al (p;; q) u u' r.
Proof. intros. eapply al_bind; eauto. Qed.
Lemma al_paused : forall s rd p u u' r, r <> Halted -> al p u u' r -> al (with_paused s rd p) u u' r.
Proof.
  intros s rd p u u' r Hr H z. unfold with_paused, try_finally. cbn.
  rewrite alone_catch. match goal with |- context [alone p ?z1 u] => destruct (H z1) as [z2 E2] end.
  rewrite E2. destruct r as [v|e|]; [| |congruence]; destruct (z s); cbn; eauto.
Qed.
Lemma al_runs : forall C E p z w w' u' r r', civil C p -> mute C z w -> runs E p w w' r -> al p (w_usr w) u' r' ->
  w_usr w' = u' /\ r = r' /\ unnoticed C w w'.
Proof.
  intros C E p z w w' u' r r' HC HM HR HA. destruct (HA z) as [z' HZ].
  destruct (alone_sound C E p z w w' r HC HM HR) as (H1 & _ & H2 & t & H3 & H4).
  rewrite HZ in H1. cbn in H1. injection H1 as -> ->. split; [reflexivity|]. split; [reflexivity|].
  split; [exact H2|]. exists t. split; [exact H3|]. intros e He. rewrite Forall_forall in H4. specialize (H4 e He). now destruct e.
Qed.
End Al.

Lemma made_mute : forall {U} C cfg (w : world U), just_made C cfg w ->
  (forall s, C s = true -> s_slots (cfg s) = [] /\ s_blocked (cfg s) = false /\ s_depth (cfg s) = 0 /\ s_eq (cfg s) = [] /\ s_paused (cfg s) = false) ->
  mute C (fun _ => false) w.
Proof. intros U C cfg w [H1 H2] H. split; [exact H1|]. intros s Hs. rewrite (H2 s Hs). auto. Qed.

(** * Dicts *)
Section Dict.
Variable same : val -> val -> bool.
Variable typed : val -> bool.
Hypothesis refl : forall x, same x x = true.
Hypothesis sym : forall x y, same x y = true -> same y x = true.
Hypothesis trans : forall x y z, same x y = true -> same y z = true -> same x z = true.

Lemma dget_dset : forall k x v d, dget same k (dset same x v d) = if same k x then Some v else dget same k d.
Proof.
  intros k x v. induction d as [|[y z] d IH]; cbn; [reflexivity|].
  destruct (same x y) eqn:Hxy; cbn.
  - destruct (same k y) eqn:Hky.
    + now rewrite (trans k y x Hky (sym _ _ Hxy)).
    + destruct (same k x) eqn:Hkx; [|reflexivity]. now rewrite (trans k x y Hkx Hxy) in Hky.
  - rewrite IH. destruct (same k y) eqn:Hky; [|reflexivity].
    destruct (same k x) eqn:Hkx; [|reflexivity]. now rewrite (trans x k y (sym _ _ Hkx) Hky) in Hxy.
Qed.
Lemma keys_dset : forall k v d, map fst (dset same k v d) = sadd same k (map fst d).
Proof.
  intros k v. induction d as [|[y z] d IH]; cbn; [reflexivity|]. unfold sadd in *. cbn.
  destruct (same k y); cbn; [reflexivity|]. rewrite IH. fold (mem same k (map fst d)). now destruct (mem same k (map fst d)).
Qed.
Lemma dset_idem : forall k v d, dget same k d = Some v -> dset same k v d = d.
Proof.
  intros k v. induction d as [|[y z] d IH]; cbn; [discriminate|]. destruct (same k y).
  - now intros [= ->].
  - intros H. now rewrite IH.
Qed.
Definition puts (l : list (val * val)) (d : dict) : dict := fold_left (fun d kv => dset same (fst kv) (snd kv) d) l d.
Lemma set_al : forall k v d, typed v = true -> al (ed_set same typed k v) d (dset same k v d) (Ok VNone).
Proof.
  intros k v d Ht. apply al_look. destruct (dget same k d) as [old|] eqn:Hg.
  - destruct (val_eqb v old) eqn:N; [apply val_eqb_eq in N as ->; rewrite dset_idem; [apply al_ret|exact Hg]|].
    eapply al_seq; [apply al_say|]. eapply al_seq; [apply al_act; unfold do_put; now rewrite Ht|]. eapply al_seq; [apply al_say|apply al_ret].
  - eapply al_seq; [apply al_say|]. eapply al_seq; [apply al_act; unfold do_put; now rewrite Ht|]. eapply al_seq; [apply al_say|apply al_ret].
Qed.
Lemma set_al_err : forall k v d, typed v = false -> (forall x y, In (x, y) d -> typed y = true) -> exists d', al (ed_set same typed k v) d d' (Err EType).
Proof.
  intros k v d Ht Hd. exists d. apply al_look. destruct (dget same k d) as [old|] eqn:Hg.
  - destruct (val_eqb v old) eqn:N; [apply val_eqb_eq in N as ->|].
    + exfalso. clear - Hg Hd Ht. induction d as [|[y z] d IH]; cbn in Hg; [discriminate|]. destruct (same k y).
      * injection Hg as ->. rewrite (Hd y old) in Ht; [discriminate|now left].
      * apply IH; [|exact Hg]. intros a b Hab. apply (Hd a b). now right.
    + eapply al_seq; [apply al_say|]. apply al_bind_err, al_fail. unfold do_put. now rewrite Ht.
  - eapply al_seq; [apply al_say|]. apply al_bind_err, al_fail. unfold do_put. now rewrite Ht.
Qed.
Lemma update_al : forall l d, (forall k v, In (k, v) l -> typed v = true) -> al (ed_update same typed l) d (puts l d) (Ok VNone).
Proof.
  induction l as [|[k v] l IH]; intros d H; [apply al_ret|]. eapply al_seq; [apply set_al; apply (H k v); now left|].
  apply IH. intros x y Hxy. apply (H x y). now right.
Qed.
Lemma in_dset : forall k v d x y, In (x, y) (dset same k v d) -> y = v \/ In (x, y) d.
Proof.
  intros k v. induction d as [|[a b] d IH]; intros x y H; cbn in *.
  - destruct H as [[= <- <-]|[]]. now left.
  - destruct (same k a); destruct H as [[= <- <-]|H]; auto. destruct (IH _ _ H); auto.
Qed.
Lemma puts_typed : forall l d, (forall k v, In (k, v) l -> typed v = true) -> (forall k v, In (k, v) d -> typed v = true) ->
  forall k v, In (k, v) (puts l d) -> typed v = true.
Proof.
  induction l as [|[a b] l IH]; intros d Hl Hd; [exact Hd|]. apply IH.
  - intros k v H. apply (Hl k v). now right.
  - intros k v H. cbn in H. apply in_dset in H as [->|H]; [apply (Hl a b); now left|eauto].
Qed.
Lemma update_al_err : forall l d, (exists k v, In (k, v) l /\ typed v = false) -> (forall k v, In (k, v) d -> typed v = true) ->
  exists d', al (ed_update same typed l) d d' (Err EType).
Proof.
  induction l as [|[k v] l IH]; intros d (k0 & v0 & H & Ht) Hd; [destruct H|].
  destruct (typed v) eqn:Hv.
  - destruct H as [[= -> ->]|H]; [congruence|].
    destruct (IH (dset same k v d)) as [d' Hd']; [eauto| |].
    + intros x y Hxy. apply in_dset in Hxy as [->|Hxy]; eauto.
    + exists d'. eapply al_seq; [now apply set_al|exact Hd'].
  - destruct (set_al_err k v d Hv Hd) as [d' Hd']. exists d'. apply al_bind_err, Hd'.
Qed.
Lemma last_app : forall k l l', last_value same k (l ++ l') = match last_value same k l' with Some v => Some v | None => last_value same k l end.
Proof.
  intros k. induction l as [|[x v] l IH]; intros l'; cbn; [now destruct (last_value same k l')|]. rewrite IH.
  now destruct (last_value same k l').
Qed.
Lemma puts_made : forall l, made_of same l (puts l []).
Proof.
  intros l. induction l as [|[k v] l IH] using rev_ind; [split; [reflexivity|reflexivity]|].
  destruct IH as [IH1 IH2]. unfold puts. rewrite fold_left_app. fold (puts l []). cbn [fold_left fst snd]. split.
  - rewrite keys_dset, IH1, map_app. unfold dedup. rewrite fold_left_app. reflexivity.
  - intros x. rewrite dget_dset, last_app, IH2. cbn. now destruct (same x k).
Qed.
End Dict.

(** * Lists and sets *)
Lemma extend_al : forall vs l, al (el_extend vs) l (l ++ vs) (Ok VNone).
Proof.
  induction vs as [|v vs IH]; intros l; [rewrite app_nil_r; apply al_ret|].
  eapply al_seq; [apply al_look; eapply al_seq; [apply al_say|]; eapply al_seq; [apply al_act; unfold do_insert; now rewrite insert_end|]; eapply al_seq; [apply al_say|apply al_ret]|].
  change (l ++ v :: vs) with (l ++ [v] ++ vs). rewrite app_assoc. apply IH.
Qed.
Lemma ordered_al : forall same vs l, al (each (bs_add same sitems set_sitems (set_hooks same)) vs) l (fold_left (fun a x => sadd same x a) vs l) (Ok VNone).
Proof.
  intros same. induction vs as [|v vs IH]; intros l; [apply al_ret|]. eapply al_seq; [|apply IH]. unfold bs_add.
  eapply al_bind; [apply al_look, al_ret|]. unfold sadd. cbn [bails]. change (mem same v l) with (mem same v (sitems l)).
  destruct (mem same v (sitems l)) eqn:Hm; [apply al_ret|].
  eapply al_seq; [apply al_act; unfold modify, sadd, set_sitems; rewrite Hm; reflexivity|]. eapply al_seq; [apply al_say|apply al_ret].
Qed.

(** * Selections *)
Section Sel.
Context {U : Type}.
Variable same : val -> val -> bool.
Variable si sa sc : sid.
Variable get : U -> sel.
Variable put : sel -> U -> U.
Variable allowed : U -> val -> bool.
Hypothesis refl : forall x, same x x = true.
Hypothesis sym : forall x y, same x y = true -> same y x = true.
Hypothesis none : forall x, same x VNone = true -> x = VNone.
Hypothesis get_put : forall s u, get (put s u) = s.
Hypothesis put_put : forall s t u, put s (put t u) = put s u.
Hypothesis allowed_put : forall s u x, allowed (put s u) x = allowed u x.
Variable u : U.
Notation S_ i a c := (put (Sel i a c) u).
Notation upd n := (update_with sa get put (set_active same si sa sc get put allowed n)).
Notation setter n := (set_active same si sa sc get put allowed n).

Lemma items_put : forall i a c, p_items get (S_ i a c) = i.
Proof. intros. unfold p_items. now rewrite get_put. Qed.
Lemma act_active : forall v i a c, al (act (p_set_active get put v)) (S_ i a c) (S_ i v c) (Ok VNone).
Proof. intros. apply al_act. unfold p_set_active. now rewrite get_put, put_put. Qed.
Lemma act_items : forall f i a c, al (act (modify (p_items get) (p_set_items get put) f)) (S_ i a c) (S_ (f i) a c) (Ok VNone).
Proof. intros. apply al_act. unfold modify, p_items, p_set_items. now rewrite get_put, put_put. Qed.
Lemma current_al : forall v i a c, exists c', al (set_current same sc get put v) (S_ i a c) (S_ i a c') (Ok VNone).
Proof.
  intros v i a c. destruct (same v c) eqn:H; [exists c|exists v]; apply al_look; rewrite get_put; cbn [sel_current]; rewrite H; [apply al_ret|].
  eapply al_seq; [apply al_act; unfold p_set_current; now rewrite get_put, put_put|]. eapply al_seq; [apply al_say|apply al_ret].
Qed.
Lemma setter_same : forall n v i a c, same v a = true -> al (setter (S n) v) (S_ i a c) (S_ i a c) (Ok VNone).
Proof. intros n v i a c H. apply al_look. rewrite get_put. cbn [sel_active]. rewrite H. apply al_ret. Qed.
(** An item that is there is not added. *)
Lemma add_there : forall n v i a c, allowed u v = true -> mem same v i = true ->
  al (sl_add same si get put allowed (upd n) v) (S_ i a c) (S_ i a c) (Ok VNone).
Proof.
  intros n v i a c HA HM. eapply al_bind; [apply al_look; rewrite allowed_put, HA; apply al_ret|].
  rewrite items_put. cbn [sel_items]. rewrite HM. apply al_ret.
Qed.
Lemma add_new : forall n v i a c i' a' c' r, allowed u v = true -> mem same v i = false -> al (upd n) (S_ (i ++ [v]) a c) (S_ i' a' c') (Ok r) ->
  al (sl_add same si get put allowed (upd n) v) (S_ i a c) (S_ i' a' c') (Ok VNone).
Proof.
  intros n v i a c i' a' c' r HA HM HU. eapply al_bind; [apply al_look; rewrite allowed_put, HA; apply al_ret|].
  rewrite items_put. cbn [sel_items]. rewrite HM. cbn [bails].
  eapply al_seq; [apply act_items|]. unfold sadd. rewrite HM.
  eapply al_seq; [eapply al_seq; [apply al_say|exact HU]|apply al_ret].
Qed.
Lemma add_refused : forall n v i a c, allowed u v = false -> al (sl_add same si get put allowed (upd n) v) (S_ i a c) (S_ i a c) (Err EValue).
Proof. intros n v i a c HA. apply al_bind_err, al_look. rewrite allowed_put, HA. apply al_throw. Qed.
(** Several items, or none: nothing is active. *)
Lemma upd_many : forall n i a c, (forall x, i <> [x]) -> exists a', al (upd n) (S_ i a c) (S_ i a' c) (Ok VNone) /\ a' = VNone.
Proof.
  intros n i a c H. exists VNone. split; [|reflexivity]. apply al_look. rewrite items_put, get_put. cbn [sel_active].
  assert (G : al (if is_none a then Ret VNone else act (p_set_active get put VNone);; say sa [VNone];; Ret VNone) (S_ i a c) (S_ i VNone c) (Ok VNone)).
  { destruct a; cbn [is_none]; [apply al_ret|..]; (eapply al_seq; [apply act_active|eapply al_seq; [apply al_say|apply al_ret]]). }
  destruct i as [|x [|y i]]; [exact G|now destruct (H x)|exact G].
Qed.
Lemma upd_one : forall n x a c u' r, al (setter n x) (S_ [x] a c) u' r -> al (upd n) (S_ [x] a c) u' r.
Proof. intros n x a c u' r H. apply al_look. rewrite items_put. exact H. Qed.
Lemma inter_keep : forall n x v a c, same x v = true -> al (sl_intersection same si get put allowed (upd n) [Items [v]]) (S_ [x] a c) (S_ [x] a c) (Ok VNone).
Proof.
  intros n x v a c H. apply al_paused; [discriminate|]. apply al_look. rewrite items_put. cbn [sel_items each].
  eapply al_seq; [|apply al_ret]. cbn [forallb elems mem existsb]. rewrite H. apply al_ret.
Qed.
Lemma inter_empty : forall n v a c, al (sl_intersection same si get put allowed (upd n) [Items [v]]) (S_ [] a c) (S_ [] a c) (Ok VNone).
Proof. intros n v a c. apply al_paused; [discriminate|]. apply al_look. rewrite items_put. apply al_ret. Qed.
Lemma inter_drop : forall n x v a c, same x v = false -> al (sl_intersection same si get put allowed (upd n) [Items [v]]) (S_ [x] a c) (S_ [] VNone c) (Ok VNone).
Proof.
  intros n x v a c H. apply al_paused; [discriminate|]. apply al_look. rewrite items_put. cbn [sel_items each].
  eapply al_seq; [|apply al_ret]. cbn [forallb elems mem existsb]. rewrite H. cbn [orb andb].
  eapply al_bind; [apply al_look, al_ret|]. rewrite items_put. cbn [sel_items mem existsb]. rewrite refl. cbn [orb negb bails].
  eapply al_seq; [apply act_items|]. cbn [sdel]. rewrite refl.
  destruct (upd_many n [] a c ltac:(discriminate)) as (a' & G & ->).
  eapply al_seq; [eapply al_seq; [apply al_say|exact G]|apply al_ret].
Qed.
(** The selected item becomes active. *)
Lemma setter_one : forall n v a c, allowed u v = true -> is_none v = false -> exists c', al (setter (S n) v) (S_ [v] a c) (S_ [v] (if same v a then a else v) c') (Ok VNone).
Proof.
  intros n v a c HA HN. destruct (same v a) eqn:H; [exists c; now apply setter_same|].
  destruct (current_al v [v] v c) as [c' G]. exists c'. apply al_look. rewrite get_put. cbn [sel_active]. rewrite H, HN.
  eapply al_seq; [apply act_active|]. eapply al_seq; [eapply al_seq; [apply inter_keep, refl|apply add_there; [exact HA|cbn; now rewrite refl]]|].
  eapply al_seq; [exact G|]. eapply al_seq; [apply al_say|apply al_ret].
Qed.
Lemma upd_settle : forall n x c, allowed u x = true -> exists c', al (upd (S n)) (S_ [x] VNone c) (S_ [x] x c') (Ok VNone).
Proof.
  intros n x c HA. destruct (is_none x) eqn:HN.
  - destruct x; try discriminate HN. exists c. apply upd_one, setter_same, refl.
  - destruct (setter_one n x VNone c HA HN) as [c' G]. exists c'. apply upd_one. destruct (same x VNone) eqn:H; [apply none in H; subst; discriminate|exact G].
Qed.
(** add, from a state where active is right *)
Lemma add_al : forall n x i c, allowed u x = true -> exists c',
  al (sl_add same si get put allowed (upd (S n)) x) (S_ i (only i) c) (S_ (sadd same x i) (only (sadd same x i)) c') (Ok VNone).
Proof.
  intros n x i c HA. unfold sadd. destruct (mem same x i) eqn:HM; [exists c; now apply add_there|].
  destruct i as [|y i].
  - destruct (upd_settle n x c HA) as [c' G]. exists c'. eapply add_new; eauto.
  - destruct (upd_many (S n) ((y :: i) ++ [x]) (only (y :: i)) c) as (a' & G & ->); [intros z; destruct i; discriminate|].
    exists c. assert (only ((y :: i) ++ [x]) = VNone) as -> by (destruct i; reflexivity). eapply add_new; eauto.
Qed.
(** active = v, when at most one item is selected *)
Definition chosen (v : val) (i : list val) : list val := if same v (only i) then i else if is_none v then [] else [v].
Lemma setter_step : forall m v i c, allowed u v = true -> (i = [] \/ exists x, i = [x] /\ is_none x = false) ->
  (forall c, exists c', al (upd m) (S_ [v] VNone c) (S_ [v] v c') (Ok VNone)) -> (forall c, al (upd m) (S_ [v] v c) (S_ [v] v c) (Ok VNone)) ->
  exists c', al (setter (S m) v) (S_ i (only i) c) (S_ (chosen v i) (only (chosen v i)) c') (Ok VNone).
Proof.
  intros m v i c HA HI HS HR. unfold chosen. destruct (same v (only i)) eqn:H; [exists c; now apply setter_same|].
  destruct (is_none v) eqn:HN.
  - destruct v; try discriminate HN. destruct HI as [->|(x & -> & Hx)]; [cbn in H; now rewrite refl in H|].
    destruct (current_al VNone [x] VNone c) as [c1 G1]. destruct (current_al VNone [] VNone c1) as [c2 G2].
    exists c2. apply al_look. rewrite get_put. cbn [sel_active is_none]. rewrite H.
    eapply al_seq; [apply act_active|].
    eapply al_seq; [eapply al_seq; [exact G1|]; apply al_paused; [discriminate|]; apply al_look; eapply al_bind; [apply al_look, al_ret|]|].
    + rewrite items_put. cbn [bails]. eapply al_seq; [apply act_items|].
      destruct (upd_many m [] VNone c1 ltac:(discriminate)) as (a' & G & ->).
      eapply al_seq; [eapply al_seq; [apply al_say|exact G]|apply al_ret].
    + eapply al_seq; [exact G2|]. eapply al_seq; [apply al_say|apply al_ret].
  - destruct HI as [->|(x & -> & Hx)].
    + destruct (current_al v [v] v c) as [c1 G1]. exists c1. apply al_look. rewrite get_put. cbn [sel_active only] in *. rewrite H, HN.
      eapply al_seq; [apply act_active|]. eapply al_seq; [eapply al_seq; [apply inter_empty|]|].
      * eapply add_new; [exact HA|reflexivity|apply HR].
      * eapply al_seq; [exact G1|]. eapply al_seq; [apply al_say|apply al_ret].
    + destruct (HS c) as [c1 G1]. destruct (current_al v [v] v c1) as [c2 G2]. exists c2.
      apply al_look. rewrite get_put. cbn [sel_active only] in *. rewrite H, HN.
      eapply al_seq; [apply act_active|]. eapply al_seq; [eapply al_seq; [apply inter_drop|]|].
      * destruct (same x v) eqn:G; [apply sym in G; congruence|reflexivity].
      * eapply add_new; [exact HA|reflexivity|exact G1].
      * eapply al_seq; [exact G2|]. eapply al_seq; [apply al_say|apply al_ret].
Qed.
Lemma setter_al : forall n v i c, allowed u v = true -> (i = [] \/ exists x, i = [x] /\ is_none x = false) -> exists c',
  al (setter (S (S n)) v) (S_ i (only i) c) (S_ (chosen v i) (only (chosen v i)) c') (Ok VNone).
Proof.
  intros n v i c HA HI. apply setter_step; [exact HA|exact HI|intros; now apply upd_settle|].
  intros c0. apply upd_one, setter_same, refl.
Qed.
Lemma upd_right : forall n i c, al (upd (S n)) (S_ i (only i) c) (S_ i (only i) c) (Ok VNone).
Proof.
  intros n i c. destruct i as [|x [|y i]].
  - destruct (upd_many (S n) [] VNone c ltac:(discriminate)) as (a' & G & ->). exact G.
  - apply upd_one, setter_same, refl.
  - destruct (upd_many (S n) (x :: y :: i) VNone c ltac:(discriminate)) as (a' & G & ->). exact G.
Qed.
Lemma adds_al : forall n vs i c, (forall x, In x vs -> allowed u x = true) -> exists c',
  al (each (sl_add same si get put allowed (upd (S n))) vs) (S_ i (only i) c)
     (S_ (fold_left (fun a x => sadd same x a) vs i) (only (fold_left (fun a x => sadd same x a) vs i)) c') (Ok VNone).
Proof.
  intros n. induction vs as [|v vs IH]; intros i c H; [exists c; apply al_ret|].
  destruct (add_al n v i c (H v (or_introl eq_refl))) as [c1 G1]. destruct (IH (sadd same v i) c1) as [c2 G2]; [intros x Hx; apply H; now right|].
  exists c2. eapply al_seq; [exact G1|exact G2].
Qed.
Lemma adds_err : forall n vs i c, (exists x, In x vs /\ allowed u x = false) -> exists u',
  al (each (sl_add same si get put allowed (upd (S n))) vs) (S_ i (only i) c) u' (Err EValue).
Proof.
  intros n. induction vs as [|v vs IH]; intros i c (x & Hx & HA); [destruct Hx|].
  destruct (allowed u v) eqn:HV.
  - destruct Hx as [->|Hx]; [congruence|]. destruct (add_al n v i c HV) as [c1 G1]. destruct (IH (sadd same v i) c1) as [u' G2]; [eauto|].
    exists u'. eapply al_seq; [exact G1|exact G2].
  - exists (S_ i (only i) c). apply al_bind_err, add_refused, HV.
Qed.
Lemma init_al : forall vs, (forall x, In x vs -> allowed u x = true) -> exists c',
  al (sl_init same si sa sc get put allowed vs) u (S_ (dedup same vs) (only (dedup same vs)) c') (Ok VNone).
Proof.
  intros vs H. destruct (adds_al 1 vs [] VNone H) as [c' G]. exists c'.
  eapply al_seq; [apply al_act; reflexivity|]. eapply al_seq; [apply al_paused; [discriminate|]; eapply al_seq; [exact G|apply al_ret]|].
  eapply al_seq; [apply upd_right|apply al_ret].
Qed.
Lemma init_err : forall vs, (exists x, In x vs /\ allowed u x = false) -> exists u', al (sl_init same si sa sc get put allowed vs) u u' (Err EValue).
Proof.
  intros vs H. destruct (adds_err 1 vs [] VNone H) as [u' G]. exists u'.
  eapply al_seq; [apply al_act; reflexivity|]. apply al_bind_err, al_paused; [discriminate|]. apply al_bind_err, G.
Qed.
End Sel.
