(** Invariants of the model of signal and group attributes. *)

From Coq Require Import List Arith Bool Lia.
From Verif Require Import Descr.
Import ListNotations.

Lemma nth_upd : forall A (f : A -> A) l n m,
  nth_error (upd n f l) m = if Nat.eqb m n then option_map f (nth_error l m) else nth_error l m.
Proof.
  intros A f l. induction l as [|x l IH]; intros [|n] [|m]; cbn; try reflexivity.
  - now destruct (Nat.eqb m n).
  - apply IH.
Qed.
Lemma length_upd : forall A (f : A -> A) l n, length (upd n f l) = length l.
Proof. intros A f l. induction l as [|x l IH]; intros [|n]; cbn; auto. Qed.
Lemma nth_app : forall A (l : list A) l' n x, nth_error l n = Some x -> nth_error (l ++ l') n = Some x.
Proof. intros A l l' n x H. rewrite nth_error_app1; [exact H|]. apply nth_error_Some. congruence. Qed.
Lemma nth_snoc : forall A (l : list A) y n x, nth_error (l ++ [y]) n = Some x -> nth_error l n = Some x \/ (n = length l /\ x = y).
Proof.
  intros A l y n x H. destruct (Nat.lt_ge_cases n (length l)) as [L|L].
  - rewrite nth_error_app1 in H by exact L. auto.
  - rewrite nth_error_app2 in H by exact L. destruct (n - length l) as [|m] eqn:E; cbn in H.
    + injection H as <-. right. split; [lia|reflexivity].
    + destruct m; discriminate.
Qed.
Lemma nth_last : forall A (l : list A) x, nth_error (l ++ [x]) (length l) = Some x.
Proof. intros. rewrite nth_error_app2, Nat.sub_diag by lia. reflexivity. Qed.
Lemma key_eqb_eq : forall a b, key_eqb a b = true <-> a = b.
Proof.
  intros [a|] [b|]; cbn; split; intros H; try discriminate; auto.
  - apply Nat.eqb_eq in H. now subst.
  - injection H as ->. apply Nat.eqb_refl.
Qed.
Lemma is_key_eq : forall k x e, is_key k x e = true <-> fst e = (k, x).
Proof.
  intros k x [[k' x'] i]. unfold is_key. cbn. rewrite andb_true_iff, key_eqb_eq, Nat.eqb_eq. split; [intros [-> ->]; reflexivity|].
  intros H. injection H as -> ->. auto.
Qed.
Lemma cached_in : forall k x l i, cached k x l = Some i -> In ((k, x), i) l.
Proof.
  intros k x l i. induction l as [|e l IH]; cbn; [discriminate|]. destruct (is_key k x e) eqn:E; [|auto].
  intros H. injection H as <-. apply is_key_eq in E. destruct e as [p j]. cbn in *. subst. auto.
Qed.
Lemma find_in : forall a l i, find a l = Some i -> In (a, i) l.
Proof.
  intros a l i. induction l as [|[b j] l IH]; cbn; [discriminate|]. destruct (Nat.eqb_spec b a) as [->|]; [|auto].
  intros H. injection H as <-. auto.
Qed.
Lemma cached_pop : forall k x k' x' l, x' <> x -> cached k' x' (pop k x l) = cached k' x' l.
Proof.
  intros k x k' x' l H. induction l as [|e l IH]; [reflexivity|]. cbn. destruct (is_key k x e) eqn:E; cbn.
  - destruct (is_key k' x' e) eqn:E'; [|exact IH]. apply is_key_eq in E, E'. congruence.
  - destruct (is_key k' x' e); [reflexivity|exact IH].
Qed.
Lemma cached_pops : forall ks x k' x' l, x' <> x -> cached k' x' (fold_left (fun l k => pop k x l) ks l) = cached k' x' l.
Proof.
  intros ks x k' x'. induction ks as [|k ks IH]; intros l H; [reflexivity|]. cbn. rewrite IH by exact H. now apply cached_pop.
Qed.
Lemma in_pops : forall ks x e l, In e (fold_left (fun l k => pop k x l) ks l) <-> In e l /\ forall k, In k ks -> fst e <> (k, x).
Proof.
  intros ks x e. induction ks as [|k ks IH]; intros l; cbn.
  - split; [intros H; split; [exact H|intros k []]|tauto].
  - rewrite IH. unfold pop. rewrite filter_In, negb_true_iff. split.
    + intros [[H1 H2] H3]. split; [exact H1|]. intros k' [->|K]; [|auto]. intros E. apply is_key_eq in E. congruence.
    + intros [H1 H2]. split; [split; [exact H1|]|auto]. destruct (is_key k x e) eqn:E; [|reflexivity].
      apply is_key_eq in E. exfalso. apply (H2 k); auto.
Qed.

Section Facts.
Variable K : nat -> class.
(** Every descriptor has the name of the attribute it is. *)
Definition well_named : Prop := forall c a x, c_attr (K c) a = Some x -> d_name x = a.

(** ** What the operations do *)
Definition at_ s o x := nth_error (st_objs s) o = Some x.
Definition looked s o a i : Prop :=
  exists x, at_ s o x /\ o_alive x = true /\
    (find a (o_dict x) = Some i \/
     (find a (o_dict x) = None /\ exists de, c_attr (K (o_class x)) a = Some de /\ cached (key_of de) (o_addr x) (st_cache s) = Some i)).
(** The ways in which a state changes. *)
Inductive change (s : state) : state -> Prop :=
| ch_none : change s s
| ch_said : forall o a i, looked s o a i -> change s (say (Got o a i) s)
| ch_stored : forall o a x de, at_ s o x -> o_alive x = true -> find a (o_dict x) = None -> c_attr (K (o_class x)) a = Some de ->
    c_set (K (o_class x)) = Stores -> (exists d n, de = DSig d n /\ cached (Some d) (o_addr x) (st_cache s) = None) ->
    change s (say (Got o a (length (st_made s))) (store o (d_name de) (length (st_made s)) (make o (d_id de) s)))
| ch_cached : forall o a x de, at_ s o x -> o_alive x = true -> find a (o_dict x) = None -> c_attr (K (o_class x)) a = Some de ->
    cached (key_of de) (o_addr x) (st_cache s) = None ->
    change s (say (Got o a (length (st_made s)))
      (remember (key_of de) o (o_addr x) (length (st_made s)) (c_weak (K (o_class x))) (make o (d_id de) s)))
| ch_both : forall o a x de, at_ s o x -> o_alive x = true -> find a (o_dict x) = None -> c_attr (K (o_class x)) a = Some de ->
    c_set (K (o_class x)) = Stores -> cached (key_of de) (o_addr x) (st_cache s) = None ->
    change s (say (Got o a (length (st_made s))) (store o (d_name de) (length (st_made s))
      (remember (key_of de) o (o_addr x) (length (st_made s)) (c_weak (K (o_class x))) (make o (d_id de) s))))
| ch_made : forall o d, change s (make o d s)
| ch_died : forall o x, at_ s o x -> o_alive x = true -> held K s o = false ->
    change s (State (upd o kill (st_objs s)) (fold_left (fun l k => pop k (o_addr x) l) (o_fin x) (st_cache s)) (st_made s) (st_log s))
| ch_new : forall c x d m, free x s = true ->
    (d = [] \/ exists o y, at_ s o y /\ o_class y = c /\ map fst d = map fst (o_dict y)) ->
    change s (State (st_objs s ++ [Obj c x true d []]) (st_cache s) (st_made s ++ m) (st_log s)).
Lemma map_fst_combine : forall (l : list nat) n, map fst (combine l (seq n (length l))) = l.
Proof. intros l. induction l as [|x l IH]; intros n; cbn; [reflexivity|]. now rewrite IH. Qed.
Lemma do_change : forall p s s', do K p s = Some s' -> change s s'.
Proof.
  intros p s s' H. destruct p as [c x|o a|o|o x|o x]; cbn in H.
  - unfold create in H. destruct (free x s) eqn:E; [|discriminate]. injection H as <-.
    rewrite <- (app_nil_r (st_made s)) at 1. apply ch_new; auto.
  - unfold get in H. destruct (nth_error (st_objs s) o) as [x|] eqn:E; [|discriminate]. destruct (o_alive x) eqn:Ea; [|discriminate].
    destruct (find a (o_dict x)) as [i|] eqn:Ef.
    { injection H as <-. apply ch_said. exists x. auto. }
    destruct (c_attr (K (o_class x)) a) as [[d n|d n on]|] eqn:Ec.
    + destruct (cached (Some d) (o_addr x) (st_cache s)) as [i|] eqn:Ek.
      { injection H as <-. apply ch_said. exists x. split; [exact E|]. split; [exact Ea|]. right. split; [exact Ef|]. eauto. }
      destruct (c_set (K (o_class x))) eqn:Es; injection H as <-.
      * apply (ch_stored s o a x (DSig d n)); eauto.
      * apply (ch_cached s o a x (DSig d n)); auto.
      * apply ch_made.
    + destruct (cached None (o_addr x) (st_cache s)) as [i|] eqn:Ek.
      { injection H as <-. apply ch_said. exists x. split; [exact E|]. split; [exact Ea|]. right. split; [exact Ef|]. eauto. }
      destruct on; [destruct (c_set (K (o_class x))) eqn:Es|]; injection H as <-.
      * apply (ch_both s o a x (DGrp d n true)); auto.
      * apply (ch_cached s o a x (DGrp d n true)); auto.
      * apply (ch_cached s o a x (DGrp d n true)); auto.
      * apply (ch_cached s o a x (DGrp d n false)); auto.
    + injection H as <-. apply ch_none.
  - unfold die in H. destruct (nth_error (st_objs s) o) as [x|] eqn:E; [|discriminate].
    destruct (o_alive x && negb (held K s o)) eqn:Ea; [|discriminate]. injection H as <-. apply andb_true_iff in Ea as [E1 E2].
    apply ch_died; auto. now apply negb_true_iff in E2.
  - unfold copy in H. destruct (nth_error (st_objs s) o) as [y|] eqn:E; [|discriminate]. destruct (o_alive y) eqn:Ea; [|discriminate].
    unfold create in H. destruct (free x s) eqn:Ef; [|discriminate]. injection H as <-.
    rewrite <- (app_nil_r (st_made s)) at 1. apply ch_new; auto. right. exists o, y. auto.
  - unfold deepcopy in H. destruct (nth_error (st_objs s) o) as [y|] eqn:E; [|discriminate]. destruct (o_alive y) eqn:Ea; [|discriminate].
    unfold create in H. destruct (free x s) eqn:Ef; [|discriminate]. injection H as <-. cbn.
    apply ch_new; auto. right. exists o, y. split; [exact E|]. split; [reflexivity|].
    rewrite <- (map_length fst (o_dict y)). apply map_fst_combine.
Qed.

(** ** Objects keep their class and address *)
Lemma change_at : forall s s' o x, change s s' -> at_ s o x ->
  exists y, at_ s' o y /\ o_class y = o_class x /\ o_addr y = o_addr x /\ (o_alive y = true -> o_alive x = true).
Proof.
  intros s s' o x H Hx. unfold at_ in *.
  assert (Q : exists y, nth_error (st_objs s) o = Some y /\ o_class y = o_class x /\ o_addr y = o_addr x /\ (o_alive y = true -> o_alive x = true)) by (exists x; auto).
  assert (U : forall n f l, nth_error l o = Some x -> (forall y, o_class (f y) = o_class y /\ o_addr (f y) = o_addr y /\ (o_alive (f y) = true -> o_alive y = true)) ->
    exists y, nth_error (upd n f l) o = Some y /\ o_class y = o_class x /\ o_addr y = o_addr x /\ (o_alive y = true -> o_alive x = true)).
  { intros n f l K1 K2. rewrite nth_upd, K1. destruct (Nat.eqb o n); [|exists x; auto]. cbn. exists (f x). split; [reflexivity|]. destruct (K2 x) as (-> & -> & K3). auto. }
  assert (Kd : forall y : obj, o_class (kill y) = o_class y /\ o_addr (kill y) = o_addr y /\ (o_alive (kill y) = true -> o_alive y = true)).
  { intros y. repeat split. discriminate. }
  inversion H; subst; cbn.
  - exact Q.
  - exact Q.
  - apply U; auto.
  - destruct (c_weak _); [apply U; auto|exact Q].
  - destruct (c_weak _).
    + rewrite nth_upd. destruct (Nat.eqb o o0) eqn:E; rewrite nth_upd, Hx, E; cbn; eauto.
    + apply U; auto.
  - exact Q.
  - apply U; auto.
  - apply nth_app with (l' := [Obj c x0 true d []]) in Hx. eauto.
Qed.
Lemma change_back : forall s s' o y, change s s' -> at_ s' o y -> o < length (st_objs s) ->
  exists x, at_ s o x /\ o_class y = o_class x /\ o_addr y = o_addr x /\ (o_alive y = true -> o_alive x = true).
Proof.
  intros s s' o y H Hy HL. destruct (nth_error (st_objs s) o) as [x|] eqn:E.
  - destruct (change_at s s' o x H E) as (y' & H1 & H2 & H3 & H4). unfold at_ in *. rewrite H1 in Hy. injection Hy as <-. exists x. auto.
  - apply nth_error_None in E. lia.
Qed.
Lemma at_lt : forall s o x, at_ s o x -> o < length (st_objs s).
Proof. intros s o x H. apply nth_error_Some. unfold at_ in H. congruence. Qed.

(** ** Live objects have different addresses; what was got is found again *)
Record inv (s : state) : Prop := {
  i_addr : forall o o' x x', at_ s o x -> at_ s o' x' -> o_alive x = true -> o_alive x' = true -> o_addr x = o_addr x' -> o = o';
  i_got : forall o a i, In (Got o a i) (st_log s) -> exists x, at_ s o x /\ (o_alive x = true -> looked s o a i);
  i_same : forall o a i i', In (Got o a i) (st_log s) -> In (Got o a i') (st_log s) -> i = i' }.
Lemma looked_same : forall s o a i i', looked s o a i -> looked s o a i' -> i = i'.
Proof.
  intros s o a i i' (x & H1 & _ & H2) (x' & H3 & _ & H4). unfold at_ in *. rewrite H1 in H3. injection H3 as <-.
  destruct H2 as [H2|(H2 & de & K1 & K2)], H4 as [H4|(H4 & de' & K3 & K4)]; try congruence.
Qed.
Lemma new_dead : forall s o a i x, at_ s o x -> find a (o_dict x) = None -> looked s o a i ->
  exists de, c_attr (K (o_class x)) a = Some de /\ cached (key_of de) (o_addr x) (st_cache s) = Some i.
Proof.
  intros s o a i x H1 H2 (y & H3 & _ & H4). unfold at_ in *. rewrite H1 in H3. injection H3 as <-. destruct H4 as [H4|[_ H4]]; [congruence|exact H4].
Qed.
Lemma init_inv : inv init.
Proof. split; cbn; intros; try tauto. unfold at_ in *. cbn in *. destruct o; discriminate. Qed.

(** What was found before is found afterwards, if the object is still alive. *)
Lemma looked_kept : well_named -> forall s s' o a i y, change s s' -> inv s -> looked s o a i -> at_ s' o y -> o_alive y = true ->
  looked s' o a i.
Proof.
  intros WN s s' o a i y H [A F G] (x & Hx & Ha & HL) Hy Hya.
  assert (Cons : forall e c, (forall de, c_attr (K (o_class x)) a = Some de -> is_key (key_of de) (o_addr x) e = true -> cached (key_of de) (o_addr x) (st_cache s) = None) ->
    (exists de, c_attr (K (o_class x)) a = Some de /\ cached (key_of de) (o_addr x) (st_cache s) = Some i) -> c = e :: st_cache s ->
    exists de, c_attr (K (o_class x)) a = Some de /\ cached (key_of de) (o_addr x) c = Some i).
  { intros e c K1 (de & K2 & K3) ->. exists de. split; [exact K2|]. cbn. destruct (is_key (key_of de) (o_addr x) e) eqn:E; [|exact K3].
    rewrite (K1 de K2 E) in K3. discriminate. }
  assert (Same : forall o0 de0 n j c m lg e ob,
     at_ s o0 de0 -> (forall y, nth_error ob y = if Nat.eqb y o0 then option_map (set_dict n j) (nth_error (st_objs s) y) else nth_error (st_objs s) y) ->
     find n (o_dict de0) = None ->
     (forall de, c_attr (K (o_class de0)) n = Some de -> cached (key_of de) (o_addr de0) (st_cache s) = None) ->
     (c = st_cache s \/ exists de, c_attr (K (o_class de0)) n = Some de /\ c = ((key_of de, o_addr de0), j) :: st_cache s) ->
     o_alive de0 = true ->
     looked (say e (State ob c m lg)) o a i).
  { intros o0 x0 n j c m lg e ob H0 HO Hn Hc HC H0a. unfold looked, at_ in *. cbn. rewrite HO.
    destruct (Nat.eqb_spec o o0) as [->|N].
    - rewrite Hx in *. cbn. injection H0 as <-. eexists. split; [reflexivity|]. cbn. split; [exact Ha|].
      destruct (Nat.eqb_spec n a) as [->|N].
      + exfalso. destruct HL as [HL|(_ & de & K1 & K2)]; [congruence|]. rewrite (Hc de K1) in K2. discriminate.
      + destruct HL as [HL|(K1 & K2)]; [now left|]. right. split; [exact K1|].
        destruct HC as [->|(de & Hde & ->)]; [exact K2|]. eapply Cons; [|exact K2|reflexivity].
        intros de1 X1 X2. apply is_key_eq in X2. cbn in X2. injection X2 as X2. rewrite <- X2. apply Hc, Hde.
    - exists x. split; [exact Hx|]. split; [exact Ha|]. destruct HL as [HL|(K1 & K2)]; [now left|]. right. split; [exact K1|].
      destruct HC as [->|(de & Hde & ->)]; [exact K2|]. eapply Cons; [|exact K2|reflexivity].
      intros de1 X1 X2. apply is_key_eq in X2. cbn in X2. injection X2 as X2 X3. exfalso. apply N. eapply (A o o0 x x0); eauto. }
  assert (Rem : forall o0 x0 de j w d0, at_ s o0 x0 -> o_alive x0 = true -> cached (key_of de) (o_addr x0) (st_cache s) = None ->
     looked (remember (key_of de) o0 (o_addr x0) j w (make o0 d0 s)) o a i).
  { intros o0 x0 de j w d0 H0 H0a Hc. unfold looked, remember, at_ in *. cbn.
    assert (C : find a (o_dict x) = Some i \/ (find a (o_dict x) = None /\ exists de', c_attr (K (o_class x)) a = Some de'
              /\ cached (key_of de') (o_addr x) (((key_of de, o_addr x0), j) :: st_cache s) = Some i)).
    { destruct HL as [HL|(K1 & K2)]; [now left|]. right. split; [exact K1|]. eapply Cons; [|exact K2|reflexivity].
      intros de1 X1 X2. apply is_key_eq in X2. cbn in X2. injection X2 as X2 X3. now rewrite <- X2, <- X3. }
    destruct w; [|exists x; auto]. rewrite nth_upd. destruct (Nat.eqb_spec o o0) as [->|N]; [|exists x; auto].
    rewrite Hx. cbn. eexists. split; [reflexivity|]. cbn. auto. }
  inversion H as [ | | o0 a0 x0 de0 G1 G2 G3 G4 G5 (d0 & n0 & -> & G6) | o0 a0 x0 de0 G1 G2 G3 G4 G5 | o0 a0 x0 de0 G1 G2 G3 G4 G5 G6 | | o0 x0 G1 G2 G3 | c x0 d m G1 G2]; subst s'.
  - exists x. auto.
  - exists x. auto.
  - apply (Same o0 x0 n0 (length (st_made s))); auto.
    + intros z. cbn. apply nth_upd.
    + now rewrite (WN _ _ _ G4 : n0 = a0).
    + intros de X. cbn in *. rewrite (WN _ _ _ G4 : n0 = a0), G4 in X. injection X as <-. exact G6.
  - destruct (Rem o0 x0 de0 (length (st_made s)) (c_weak (K (o_class x0))) (d_id de0) G1 G2 G5) as (z & Z). exists z. exact Z.
  - assert (E := WN _ _ _ G4). rewrite E.
    set (w := c_weak (K (o_class x0))).
    destruct (Rem o0 x0 de0 (length (st_made s)) w (d_id de0) G1 G2 G6) as (z & Z1 & Z2 & Z3).
    unfold looked, at_, say, store in *. cbn [st_objs st_cache] in *. rewrite nth_upd. destruct (Nat.eqb_spec o o0) as [->|N]; [|exists z; auto].
    rewrite Z1. cbn. eexists. split; [reflexivity|]. cbn. split; [exact Z2|]. destruct (Nat.eqb_spec a0 a) as [->|N]; [|exact Z3].
    exfalso. rewrite Hx in G1. injection G1 as <-. destruct HL as [HL|(_ & de & K1 & K2)]; [congruence|].
    rewrite G4 in K1. injection K1 as <-. congruence.
  - exists x. auto.
  - unfold looked, at_ in *. cbn in *. rewrite nth_upd in *. destruct (Nat.eqb_spec o o0) as [->|N].
    { rewrite Hx in *. cbn in Hy. injection Hy as <-. discriminate. }
    exists x. split; [exact Hx|]. split; [exact Ha|]. destruct HL as [HL|(K1 & de & K2 & K3)]; [now left|]. right. split; [exact K1|].
    exists de. split; [exact K2|]. rewrite cached_pops; [exact K3|]. intros E. apply N. eapply (A o o0 x x0); eauto.
  - unfold looked, at_ in *. cbn in *. exists x. rewrite (nth_app _ _ _ _ _ Hx). auto.
Qed.
(** The event that a change adds: what was found. *)
Lemma said_looked : well_named -> forall s s' o a i, change s s' -> In (Got o a i) (st_log s') -> In (Got o a i) (st_log s) \/
  (st_log s' = st_log s ++ [Got o a i] /\ looked s' o a i /\ (looked s o a i \/ forall j, ~ looked s o a j)).
Proof.
  intros WN s s' o a i H HI.
  assert (Nope : forall o0 x0 de a0, at_ s o0 x0 -> find a0 (o_dict x0) = None -> c_attr (K (o_class x0)) a0 = Some de ->
    cached (key_of de) (o_addr x0) (st_cache s) = None -> forall j, ~ looked s o0 a0 j).
  { intros o0 x0 de a0 X1 X2 X3 X4 j X5. destruct (new_dead s o0 a0 j x0 X1 X2 X5) as (de' & Y1 & Y2). congruence. }
  inversion H as [ | o0 a0 i0 G1 | o0 a0 x0 de0 G1 G2 G3 G4 G5 (d0 & n0 & -> & G6) | o0 a0 x0 de0 G1 G2 G3 G4 G5 | o0 a0 x0 de0 G1 G2 G3 G4 G5 G6 | | o0 x0 G1 G2 G3 | c x0 d m G1 G2]; subst s'; cbn in HI; auto;
    (apply in_app_iff in HI as [HI|[HI|[]]]; [now left|]; injection HI as -> -> <-; right; split; [reflexivity|]).
  - split; [|now left]. exact G1.
  - split; [|right; eapply Nope; eauto]. unfold looked, at_ in *. cbn. rewrite nth_upd, Nat.eqb_refl, G1. cbn. eexists. split; [reflexivity|].
    split; [exact G2|]. left. cbn. rewrite (WN _ _ _ G4 : n0 = a). now rewrite Nat.eqb_refl.
  - split; [|right; eapply Nope; eauto]. unfold looked, at_ in *. cbn. destruct (c_weak _).
    + rewrite nth_upd, Nat.eqb_refl, G1. cbn. eexists. split; [reflexivity|]. cbn. split; [exact G2|]. right. split; [exact G3|].
      exists de0. split; [exact G4|]. assert (E : is_key (key_of de0) (o_addr x0) (key_of de0, o_addr x0, length (st_made s)) = true) by now apply is_key_eq. now rewrite E.
    + exists x0. split; [exact G1|]. split; [exact G2|]. right. split; [exact G3|].
      exists de0. split; [exact G4|]. assert (E : is_key (key_of de0) (o_addr x0) (key_of de0, o_addr x0, length (st_made s)) = true) by now apply is_key_eq. now rewrite E.
  - split; [|right; eapply Nope; eauto]. unfold looked, at_ in *. cbn. rewrite nth_upd, Nat.eqb_refl.
    assert (E : exists z, nth_error (if c_weak (K (o_class x0)) then upd o (add_fin (key_of de0)) (st_objs s) else st_objs s) o = Some z /\ o_alive z = true).
    { destruct (c_weak _); [|eauto]. rewrite nth_upd, Nat.eqb_refl, G1. cbn. eauto. }
    destruct E as (z & -> & Hz). cbn. eexists. split; [reflexivity|]. split; [exact Hz|]. left. cbn. rewrite (WN _ _ _ G4). now rewrite Nat.eqb_refl.
Qed.
Lemma change_inv : well_named -> forall s s', change s s' -> inv s -> inv s'.
Proof.
  intros WN s s' H I. pose proof I as [A F G].
  assert (F' : forall o a i, In (Got o a i) (st_log s') -> exists x, at_ s' o x /\ (o_alive x = true -> looked s' o a i)).
  { intros o a i HI. destruct (said_looked WN s s' o a i H HI) as [K1|(_ & K1 & _)].
    - destruct (F o a i K1) as (x & X1 & X2). destruct (change_at s s' o x H X1) as (y & Y1 & Y2 & Y3 & Y4). exists y. split; [exact Y1|].
      intros Y5. apply (looked_kept WN s s' o a i y H I (X2 (Y4 Y5)) Y1 Y5).
    - pose proof K1 as (x & X1 & X2 & _). exists x. auto. }
  split; [|exact F'|].
  - intros o o' x x' H1 H2 H3 H4 H5.
    destruct (Nat.lt_ge_cases o (length (st_objs s))) as [L|L], (Nat.lt_ge_cases o' (length (st_objs s))) as [L'|L'].
    + destruct (change_back s s' o x H H1 L) as (y & Y1 & Y2 & Y3 & Y4). destruct (change_back s s' o' x' H H2 L') as (y' & Y1' & Y2' & Y3' & Y4').
      apply (A o o' y y'); auto. congruence.
    + exfalso. assert (Hl : exists c z d m, s' = State (st_objs s ++ [Obj c z true d []]) (st_cache s) (st_made s ++ m) (st_log s) /\ free z s = true).
      { inversion H; subst; try (exfalso; apply at_lt in H2; cbn in H2; repeat (destruct (c_weak _) in H2); rewrite ?length_upd in H2; lia). eauto 6. }
      destruct Hl as (c & z & d & m & -> & Hf). unfold at_ in H1, H2. cbn in H1, H2.
      rewrite nth_error_app1 in H1 by exact L. apply nth_snoc in H2 as [H2|[-> ->]]; [apply (at_lt s o') in H2; lia|]. cbn in H5.
      unfold free in Hf. rewrite forallb_forall in Hf. specialize (Hf x (nth_error_In _ _ H1)). rewrite H3, H5, Nat.eqb_refl in Hf. discriminate.
    + exfalso. assert (Hl : exists c z d m, s' = State (st_objs s ++ [Obj c z true d []]) (st_cache s) (st_made s ++ m) (st_log s) /\ free z s = true).
      { inversion H; subst; try (exfalso; apply at_lt in H1; cbn in H1; repeat (destruct (c_weak _) in H1); rewrite ?length_upd in H1; lia). eauto 6. }
      destruct Hl as (c & z & d & m & -> & Hf). unfold at_ in H1, H2. cbn in H1, H2.
      rewrite nth_error_app1 in H2 by exact L'. apply nth_snoc in H1 as [H1|[-> ->]]; [apply (at_lt s o) in H1; lia|]. cbn in H5.
      unfold free in Hf. rewrite forallb_forall in Hf. specialize (Hf x' (nth_error_In _ _ H2)). rewrite H4, <- H5, Nat.eqb_refl in Hf. discriminate.
    + assert (Hl : length (st_objs s') <= S (length (st_objs s))).
      { inversion H; subst; cbn; repeat (destruct (c_weak _)); rewrite ?length_upd, ?app_length; cbn; lia. }
      apply at_lt in H1, H2. lia.
  - intros o a i i' H1 H2.
    destruct (said_looked WN s s' o a i H H1) as [K1|(E1 & K1 & J1)], (said_looked WN s s' o a i' H H2) as [K2|(E2 & K2 & J2)].
    + eauto.
    + destruct (F o a i K1) as (x & X1 & X2). destruct (change_at s s' o x H X1) as (y & Y1 & Y2 & Y3 & Y4).
      pose proof K2 as (y' & Y5 & Y6 & _). unfold at_ in Y1, Y5. rewrite Y1 in Y5. injection Y5 as <-.
      destruct J2 as [J2|J2]; [exact (looked_same s o a i i' (X2 (Y4 Y6)) J2)|]. exfalso. exact (J2 i (X2 (Y4 Y6))).
    + destruct (F o a i' K2) as (x & X1 & X2). destruct (change_at s s' o x H X1) as (y & Y1 & Y2 & Y3 & Y4).
      pose proof K1 as (y' & Y5 & Y6 & _). unfold at_ in Y1, Y5. rewrite Y1 in Y5. injection Y5 as <-.
      destruct J1 as [J1|J1]; [exact (looked_same s o a i i' J1 (X2 (Y4 Y6)))|]. exfalso. exact (J1 i' (X2 (Y4 Y6))).
    + exact (looked_same s' o a i i' K1 K2).
Qed.
Lemma run_inv : well_named -> forall l s s', run K l s = Some s' -> inv s -> inv s'.
Proof.
  intros WN l. induction l as [|p l IH]; intros s s' H I; cbn in H; [injection H as <-; exact I|].
  destruct (do K p s) as [s1|] eqn:E; [|discriminate]. apply (IH s1 s' H). apply (change_inv WN s s1); [|exact I].
  eapply do_change; eauto.
Qed.

(** ** Whose thing it is *)
Definition owns s o (k : key) i : Prop := exists x d a de, at_ s o x /\ nth_error (st_made s) i = Some (o, d)
  /\ c_attr (K (o_class x)) a = Some de /\ d_id de = d /\ key_of de = k.
Lemma change_made : forall s s', change s s' -> exists m, st_made s' = st_made s ++ m.
Proof.
  intros s s' H. inversion H; subst; cbn; try (eexists; reflexivity); exists []; now rewrite app_nil_r.
Qed.
Lemma owns_kept : forall s s' o k i, change s s' -> owns s o k i -> owns s' o k i.
Proof.
  intros s s' o k i H (x & d & a & de & H1 & H2 & H3 & H4 & H5). destruct (change_at s s' o x H H1) as (y & Y1 & Y2 & _).
  destruct (change_made s s' H) as (m & Hm). exists y, d, a, de. rewrite Y2, Hm. repeat split; auto. now apply nth_app.
Qed.
(** The entries of the caches belong to live objects. *)
Definition entry_ok s (e : (key * nat) * nat) : Prop := exists o x, at_ s o x /\ o_alive x = true /\ o_addr x = snd (fst e)
  /\ owns s o (fst (fst e)) (snd e) /\ (c_weak (K (o_class x)) = true -> In (fst (fst e)) (o_fin x)).
Definition cache_ok s : Prop := forall e, In e (st_cache s) -> entry_ok s e.
Lemma entry_kept : forall s s' e, change s s' -> entry_ok s e ->
  (forall o x, at_ s o x -> exists y, at_ s' o y /\ o_alive y = o_alive x /\ (forall k, In k (o_fin x) -> In k (o_fin y))) -> entry_ok s' e.
Proof.
  intros s s' e H (o & x & H1 & H2 & H3 & H4 & H5) HP. destruct (HP o x H1) as (y & Y1 & Y2 & Y3).
  destruct (change_at s s' o x H H1) as (y' & Z1 & Z2 & Z3 & _). unfold at_ in *. rewrite Y1 in Z1. injection Z1 as <-.
  exists o, y. rewrite Y2, Z2, Z3. repeat split; auto. eapply owns_kept; eauto.
Qed.
Lemma change_cache : forall s s', change s s' -> inv s -> cache_ok s -> cache_ok s'.
Proof.
  intros s s' H [A _ _] HC e He.
  assert (U : forall ob o f, (forall o x, nth_error (st_objs s) o = Some x -> exists y, nth_error ob o = Some y /\ o_alive y = o_alive x /\ (forall k, In k (o_fin x) -> In k (o_fin y))) ->
     (forall y, o_alive (f y) = o_alive y /\ forall k, In k (o_fin y) -> In k (o_fin (f y))) ->
     (forall o1 x, nth_error (st_objs s) o1 = Some x -> exists y, nth_error (upd o f ob) o1 = Some y /\ o_alive y = o_alive x /\ (forall k, In k (o_fin x) -> In k (o_fin y)))).
  { intros ob o f K1 K2 o1 x K3. destruct (K1 o1 x K3) as (y & Y1 & Y2 & Y3). rewrite nth_upd, Y1. destruct (Nat.eqb o1 o); cbn; [|eauto].
    exists (f y). split; [reflexivity|]. destruct (K2 y) as [-> K4]. auto. }
  assert (Id : forall o x, nth_error (st_objs s) o = Some x -> exists y, nth_error (st_objs s) o = Some y /\ o_alive y = o_alive x /\ (forall k, In k (o_fin x) -> In k (o_fin y))) by (intros o x K1; exists x; auto).
  assert (New : forall o0 a0 x0 de0 z, at_ s o0 x0 -> o_alive x0 = true -> c_attr (K (o_class x0)) a0 = Some de0 ->
     at_ s' o0 z -> o_alive z = true -> o_addr z = o_addr x0 -> o_class z = o_class x0 -> (c_weak (K (o_class x0)) = true -> In (key_of de0) (o_fin z)) ->
     st_made s' = st_made s ++ [(o0, d_id de0)] -> entry_ok s' ((key_of de0, o_addr x0), length (st_made s))).
  { intros o0 a0 x0 de0 z K1 K2 K3 K4 K5 K6 K7 K8 K9. exists o0, z. rewrite K7. repeat split; auto. exists z, (d_id de0), a0, de0. rewrite K7, K9. repeat split; auto. apply nth_last. }
  pose proof H as Q'. remember s' as t eqn:Et in Q'. destruct Q' as [ | o0 a0 i0 G1 | o0 a0 x0 de0 G1 G2 G3 G4 G5 (d0 & n0 & -> & G6) | o0 a0 x0 de0 G1 G2 G3 G4 G5 | o0 a0 x0 de0 G1 G2 G3 G4 G5 G6 | o0 d0 | o0 x0 G1 G2 G3 | c x0 d m G1 G2].
  - subst s'. auto.
  - subst s'. apply (entry_kept s _ e H); [apply HC; exact He|]. exact Id.
  - subst s'. apply (entry_kept s _ e H); [apply HC; exact He|]. apply U; auto.
  - assert (He' : e = ((key_of de0, o_addr x0), length (st_made s)) \/ In e (st_cache s)).
    { subst s'. cbn in He. destruct He as [<-|He]; auto. }
    destruct He' as [->|He'].
    + destruct (c_weak (K (o_class x0))) eqn:Ew.
      * apply (New o0 a0 x0 de0 (add_fin (key_of de0) x0)); auto; [|cbn; auto|subst s'; reflexivity].
        subst s'. unfold at_. cbn. rewrite nth_upd, Nat.eqb_refl. unfold at_ in G1. now rewrite G1.
      * apply (New o0 a0 x0 de0 x0); auto; [|congruence|subst s'; reflexivity]. subst s'. exact G1.
    + subst s'. apply (entry_kept s _ e H); [now apply HC|]. cbn. destruct (c_weak _); [|exact Id]. apply U; auto. intros y. cbn. auto.
  - assert (He' : e = ((key_of de0, o_addr x0), length (st_made s)) \/ In e (st_cache s)).
    { subst s'. cbn in He. destruct He as [<-|He]; auto. }
    destruct He' as [->|He'].
    + destruct (c_weak (K (o_class x0))) eqn:Ew.
      * apply (New o0 a0 x0 de0 (set_dict (d_name de0) (length (st_made s)) (add_fin (key_of de0) x0))); auto; [|cbn; auto|subst s'; reflexivity].
        subst s'. unfold at_. cbn. rewrite !nth_upd, Nat.eqb_refl. unfold at_ in G1. now rewrite G1.
      * apply (New o0 a0 x0 de0 (set_dict (d_name de0) (length (st_made s)) x0)); auto; [|congruence|subst s'; reflexivity].
        subst s'. unfold at_. cbn. rewrite !nth_upd, Nat.eqb_refl. unfold at_ in G1. now rewrite G1.
    + subst s'. apply (entry_kept s _ e H); [now apply HC|]. cbn. apply U; auto. destruct (c_weak _); [|exact Id]. apply U; auto. intros y. cbn. auto.
  - subst s'. apply (entry_kept s _ e H); [apply HC; exact He|]. exact Id.
  - assert (He' : In e (st_cache s) /\ forall k, In k (o_fin x0) -> fst e <> (k, o_addr x0)).
    { subst s'. cbn in He. now apply in_pops in He. }
    destruct He' as [He1 He2]. destruct (HC e He1) as (o & x & K1 & K2 & K3 & K4 & K5).
    assert (N : o <> o0).
    { intros ->. unfold at_ in *. rewrite G1 in K1. injection K1 as <-. destruct (c_weak (K (o_class x0))) eqn:Ew.
      - apply (He2 (fst (fst e)) (K5 eq_refl)). rewrite K3. destruct e as [[k0 y0] i0]. reflexivity.
      - unfold held in G3. assert (K6 : existsb (fun e => strong K s o0 (snd e)) (st_cache s) = true); [|congruence].
        apply existsb_exists. exists e. split; [exact He1|]. unfold strong. destruct K4 as (y & d & a & de & Y1 & Y2 & _). rewrite Y2. unfold at_ in Y1.
        rewrite G1, Nat.eqb_refl, Ew. reflexivity. }
    assert (K4' := owns_kept _ _ _ _ _ H K4). exists o, x. repeat split; auto. subst s'. unfold at_ in *. cbn. rewrite nth_upd.
    destruct (Nat.eqb_spec o o0); [congruence|exact K1].
  - subst s'. apply (entry_kept s _ e H); [apply HC; exact He|]. unfold at_. cbn. intros o x K1. exists x. split; [now apply nth_app|auto].
Qed.
Lemma run_cache : well_named -> forall l s s', run K l s = Some s' -> inv s -> cache_ok s -> inv s' /\ cache_ok s'.
Proof.
  intros WN l. induction l as [|p l IH]; intros s s' H I C; cbn in H; [injection H as <-; auto|].
  destruct (do K p s) as [s1|] eqn:E; [|discriminate]. apply do_change in E. apply (IH s1 s' H).
  - exact (change_inv WN s s1 E I).
  - exact (change_cache s s1 E I C).
Qed.

(** Without copy.copy: the entries of __dict__ and what was got belong to the object. *)
Definition dict_ok s : Prop := forall o x a i, at_ s o x -> In (a, i) (o_dict x) ->
  exists de, c_attr (K (o_class x)) a = Some de /\ owns s o (key_of de) i.
Definition got_ok s : Prop := forall o a i, In (Got o a i) (st_log s) ->
  exists x de, at_ s o x /\ c_attr (K (o_class x)) a = Some de /\ owns s o (key_of de) i.
Definition is_copy (p : op) : Prop := match p with Copy _ _ => True | _ => False end.
Lemma looked_owns : forall s o a i, inv s -> cache_ok s -> dict_ok s -> looked s o a i ->
  exists x de, at_ s o x /\ c_attr (K (o_class x)) a = Some de /\ owns s o (key_of de) i.
Proof.
  intros s o a i [A _ _] HC HD (x & H1 & H2 & [H3|(H3 & de & H4 & H5)]).
  - apply find_in in H3. destruct (HD o x a i H1 H3) as (de & K1 & K2). eauto.
  - exists x, de. repeat split; auto. apply cached_in in H5. destruct (HC _ H5) as (o' & x' & K1 & K2 & K3 & K4 & _). cbn in *.
    assert (o = o') as ->; [|exact K4]. apply (A o o' x x'); auto.
Qed.
(** Changes of __dict__ other than by new objects. *)
Lemma in_upd_dict : forall s o n i o' y, nth_error (upd o (set_dict n i) (st_objs s)) o' = Some y ->
  exists x, nth_error (st_objs s) o' = Some x /\ o_class y = o_class x /\ (o_dict y = o_dict x \/ (o' = o /\ o_dict y = (n, i) :: o_dict x)).
Proof.
  intros s o n i o' y H. rewrite nth_upd in H. destruct (nth_error (st_objs s) o') as [x|]; [|destruct (Nat.eqb o' o); discriminate].
  destruct (Nat.eqb_spec o' o) as [->|]; cbn in H; injection H as <-; exists x; auto.
Qed.
Lemma in_deep : forall (g : nat * nat -> nat * nat) D m a i, In (a, i) (combine (map fst D) (seq m (length D))) ->
  exists i0, In (a, i0) D /\ m <= i /\ nth_error (map g D) (i - m) = Some (g (a, i0)).
Proof.
  intros g D. induction D as [|[b j] D IH]; intros m a i H; [destruct H|]. cbn in H. destruct H as [H|H].
  - injection H as -> ->. exists j. rewrite Nat.sub_diag. cbn. auto.
  - destruct (IH (S m) a i H) as (i0 & H1 & H2 & H3). exists i0. split; [now right|]. split; [lia|].
    replace (i - m) with (S (i - S m)) by lia. exact H3.
Qed.
Lemma get_length : forall o a s s', get K o a s = Some s' -> length (st_objs s') = length (st_objs s).
Proof.
  intros o a s s' H. unfold get in H. destruct (nth_error (st_objs s) o) as [x|]; [|discriminate]. destruct (o_alive x); [|discriminate].
  destruct (find a (o_dict x)); [injection H as <-; reflexivity|].
  destruct (c_attr (K (o_class x)) a) as [[d n|d n on]|]; [| |injection H as <-; reflexivity].
  - destruct (cached _ _ _); [injection H as <-; reflexivity|].
    destruct (c_set _); injection H as <-; cbn; [apply length_upd| |reflexivity]. destruct (c_weak _); [apply length_upd|reflexivity].
  - destruct (cached _ _ _); [injection H as <-; reflexivity|].
    destruct on; [destruct (c_set _)|]; injection H as <-; cbn; rewrite ?length_upd; destruct (c_weak _); rewrite ?length_upd; reflexivity.
Qed.
Lemma do_dict : well_named -> forall p s s', do K p s = Some s' -> ~ is_copy p -> dict_ok s -> dict_ok s'.
Proof.
  intros WN p s s' H HP HD. assert (HH := do_change p s s' H).
  assert (Old : forall o x a i, at_ s o x -> In (a, i) (o_dict x) -> forall y, o_class y = o_class x -> exists de, c_attr (K (o_class y)) a = Some de /\ owns s' o (key_of de) i).
  { intros o x a i H1 H2 y ->. destruct (HD o x a i H1 H2) as (de & K1 & K2). exists de. split; [exact K1|]. eapply owns_kept; eauto. }
  assert (CR : forall c x D m, create c x D s = Some m -> free x s = true /\ m = State (st_objs s ++ [Obj c x true D []]) (st_cache s) (st_made s) (st_log s)).
  { intros c x D m K1. unfold create in K1. destruct (free x s); [|discriminate]. injection K1 as <-. auto. }
  destruct p as [c x|o a|o|o x|o x]; cbn in H.
  - destruct (CR _ _ _ _ H) as [_ ->]. intros o y a i H1 H2. unfold at_ in H1. cbn in H1. apply nth_snoc in H1 as [H1|[-> ->]]; [|destruct H2]. exact (Old o y a i H1 H2 y eq_refl).
  - rename H into HG. intros o1 y a1 i H1 H2.
    pose proof HH as Q'. remember s' as t eqn:Et in Q'. destruct Q' as [ | o0 a0 i0 G1 | o0 a0 x0 de0 G1 G2 G3 G4 G5 (d0 & n0 & -> & G6) | o0 a0 x0 de0 G1 G2 G3 G4 G5 | o0 a0 x0 de0 G1 G2 G3 G4 G5 G6 | o0 d0 | o0 x0 G1 G2 G3 | c x0 d m G1 G2].
    + subst s'. auto.
    + subst s'. exact (Old o1 y a1 i H1 H2 y eq_refl).
    + rewrite <- Et in H1. unfold at_ in H1. cbn in H1. destruct (in_upd_dict _ _ _ _ _ _ H1) as (x & X1 & X2 & [X3|[-> X3]]).
      { rewrite X3 in H2. eapply Old; eauto. }
      rewrite X3 in H2. destruct H2 as [H2|H2]; [|eapply Old; eauto]. injection H2 as <- <-. unfold at_ in G1. rewrite X1 in G1. injection G1 as <-.
      rewrite X2. exists (DSig d0 n0). rewrite (WN _ _ _ G4 : n0 = a0) at 1. split; [exact G4|]. subst s'. exists y, d0, a0, (DSig d0 n0).
      rewrite X2. unfold at_. cbn. repeat split; auto. apply nth_last.
    + rewrite <- Et in H1. unfold at_ in H1. cbn in H1.
      assert (X : exists x, nth_error (st_objs s) o1 = Some x /\ o_class y = o_class x /\ o_dict y = o_dict x).
      { destruct (c_weak _); [|eauto]. rewrite nth_upd in H1. destruct (nth_error (st_objs s) o1) as [x|]; [|destruct (Nat.eqb o1 o0); discriminate].
        destruct (Nat.eqb o1 o0); cbn in H1; injection H1 as <-; eauto. }
      destruct X as (x & X1 & X2 & X3). rewrite X3 in H2. eapply Old; eauto.
    + rewrite <- Et in H1. unfold at_ in H1. cbn in H1.
      assert (X : exists x, nth_error (st_objs s) o1 = Some x /\ o_class y = o_class x /\ (o_dict y = o_dict x \/ (o1 = o0 /\ o_dict y = (d_name de0, length (st_made s)) :: o_dict x))).
      { rewrite nth_upd in H1. destruct (c_weak _).
        - rewrite nth_upd in H1. destruct (nth_error (st_objs s) o1) as [x|]; [|destruct (Nat.eqb o1 o0); discriminate].
          destruct (Nat.eqb_spec o1 o0); cbn in H1; injection H1 as <-; eauto.
          exists x. auto.
        - destruct (nth_error (st_objs s) o1) as [x|]; [|destruct (Nat.eqb o1 o0); discriminate].
          destruct (Nat.eqb_spec o1 o0); cbn in H1; injection H1 as <-; exists x; auto. }
      destruct X as (x & X1 & X2 & [X3|[-> X3]]).
      { rewrite X3 in H2. eapply Old; eauto. }
      rewrite X3 in H2. destruct H2 as [H2|H2]; [|eapply Old; eauto]. injection H2 as <- <-. unfold at_ in G1. rewrite X1 in G1. injection G1 as <-.
      rewrite X2. exists de0. rewrite (WN _ _ _ G4). split; [exact G4|]. exists y, (d_id de0), a0, de0. rewrite X2.
      split; [rewrite <- Et; exact H1|]. split; [|auto]. subst s'. apply nth_last.
    + subst s'. exact (Old o1 y a1 i H1 H2 y eq_refl).
    + rewrite <- Et in H1. unfold at_ in H1. cbn in H1. rewrite nth_upd in H1.
      destruct (nth_error (st_objs s) o1) as [x|] eqn:X1; [|destruct (Nat.eqb o1 o0); discriminate].
      destruct (Nat.eqb o1 o0); cbn in H1; injection H1 as <-; eapply Old; eauto.
    + rewrite <- Et in H1. unfold at_ in H1. cbn in H1. apply nth_snoc in H1 as [H1|[-> ->]]; [eapply Old; eauto|].
      exfalso. apply get_length in HG. rewrite <- Et in HG. cbn in HG. rewrite app_length in HG. cbn in HG. lia.
  - unfold die in H. destruct (nth_error (st_objs s) o) as [x|] eqn:E; [|discriminate]. destruct (_ && _); [|discriminate].
    injection H as <-. intros o1 y a i H1 H2. unfold at_ in H1. cbn in H1. rewrite nth_upd in H1.
    destruct (nth_error (st_objs s) o1) as [x1|] eqn:X1; [|destruct (Nat.eqb o1 o); discriminate].
    destruct (Nat.eqb o1 o); cbn in H1; injection H1 as <-; eapply Old; eauto.
  - destruct (HP I).
  - unfold deepcopy in H. destruct (nth_error (st_objs s) o) as [y|] eqn:E; [|discriminate]. destruct (o_alive y) eqn:Ea; [|discriminate].
    destruct (create _ _ _ s) as [s1|] eqn:Ec; [|discriminate]. destruct (CR _ _ _ _ Ec) as [_ ->]. clear Ec. cbn in H. injection H as H.
    intros o1 z a i H1 H2. rewrite <- H in H1. unfold at_ in H1. cbn in H1.
    apply nth_snoc in H1 as [H1|[-> ->]]; [eapply Old; eauto|]. cbn in H2.
    set (g := fun e : nat * nat => (length (st_objs s), match nth_error (st_made s) (snd e) with Some (_, d) => d | None => 0 end)) in *.
    destruct (in_deep g _ _ _ _ H2) as (i0 & K1 & K2 & K3). destruct (HD o y a i0 E K1) as (de & X1 & (x' & d & a' & de' & X2 & X3 & X4 & X5 & X6)).
    cbn. exists de. split; [exact X1|]. unfold at_ in X2. rewrite E in X2. injection X2 as <-. exists (Obj (o_class y) x true (combine (map fst (o_dict y)) (seq (length (st_made s)) (length (o_dict y)))) []), d, a', de'.
    split; [rewrite <- H; unfold at_; cbn; apply nth_last|]. split; [|auto]. rewrite <- H. cbn. rewrite nth_error_app2 by exact K2.
    rewrite K3. unfold g. cbn. now rewrite X3.
Qed.
Lemma looked_ok : well_named -> forall p s s', do K p s = Some s' -> ~ is_copy p -> inv s -> cache_ok s -> dict_ok s -> got_ok s -> got_ok s'.
Proof.
  intros WN p s s' H HP HI HC HD HG o a i HL. assert (HH := do_change p s s' H).
  destruct (said_looked WN s s' o a i HH HL) as [K1|(_ & K1 & _)].
  - destruct (HG o a i K1) as (x & de & X1 & X2 & X3). destruct (change_at s s' o x HH X1) as (y & Y1 & Y2 & _). exists y, de. rewrite Y2.
    repeat split; auto. eapply owns_kept; eauto.
  - apply looked_owns; auto.
    + exact (change_inv WN s s' HH HI).
    + exact (change_cache s s' HH HI HC).
    + exact (do_dict WN p s s' H HP HD).
Qed.
Lemma run_owns : well_named -> forall l s s', run K l s = Some s' -> (forall p, In p l -> ~ is_copy p) ->
  inv s -> cache_ok s -> dict_ok s -> got_ok s -> got_ok s'.
Proof.
  intros WN l. induction l as [|p l IH]; intros s s' H HP I C D G; cbn in H; [injection H as <-; auto|].
  destruct (do K p s) as [s1|] eqn:E; [|discriminate]. pose proof (do_change _ _ _ E) as HH.
  apply (IH s1 s' H); [intros q Hq; apply HP; now right|..].
  - exact (change_inv WN s s1 HH I).
  - exact (change_cache s s1 HH I C).
  - apply (do_dict WN p s s1 E); auto. apply HP. now left.
  - apply (looked_ok WN p s s1 E); auto. apply HP. now left.
Qed.

(** ** Objects held by the caches *)
(** Objects of a class whose setattr does not store have nothing in __dict__. *)
Definition bare s : Prop := forall o x, at_ s o x -> c_set (K (o_class x)) <> Stores -> o_dict x = [].
Lemma change_bare : forall s s', change s s' -> bare s -> bare s'.
Proof.
  intros s s' H HB o y Hy Hs.
  assert (Q : forall x, at_ s o x -> o_class y = o_class x -> o_dict y = o_dict x -> o_dict y = []).
  { intros x K1 K2 ->. apply (HB o x K1). now rewrite <- K2. }
  assert (S : forall o0 x0 n i ob, at_ s o0 x0 -> c_set (K (o_class x0)) = Stores ->
    (forall o x, nth_error ob o = Some x -> exists x1, at_ s o x1 /\ o_class x = o_class x1 /\ o_dict x = o_dict x1) ->
    nth_error (upd o0 (set_dict n i) ob) o = Some y -> o_dict y = []).
  { intros o0 x0 n i ob K1 K2 K3 K4. rewrite nth_upd in K4. destruct (nth_error ob o) as [x|] eqn:E; [|destruct (Nat.eqb o o0); discriminate].
    destruct (K3 o x E) as (x1 & X1 & X2 & X3). destruct (Nat.eqb_spec o o0) as [->|]; cbn in K4; injection K4 as <-.
    - exfalso. unfold at_ in *. rewrite K1 in X1. injection X1 as <-. cbn in Hs. congruence.
    - apply (Q x1); auto. }
  assert (W : forall k o0 w o x, nth_error (if w : bool then upd o0 (add_fin k) (st_objs s) else st_objs s) o = Some x ->
    exists x1, at_ s o x1 /\ o_class x = o_class x1 /\ o_dict x = o_dict x1).
  { intros k o0 w o1 x K1. unfold at_. destruct w; [|eauto]. rewrite nth_upd in K1. destruct (nth_error (st_objs s) o1) as [x1|]; [|destruct (Nat.eqb o1 o0); discriminate].
    destruct (Nat.eqb o1 o0); cbn in K1; injection K1 as <-; eauto. }
  inversion H as [ | o0 a0 i0 G1 | o0 a0 x0 de0 G1 G2 G3 G4 G5 (d0 & n0 & -> & G6) | o0 a0 x0 de0 G1 G2 G3 G4 G5 | o0 a0 x0 de0 G1 G2 G3 G4 G5 G6 | | o0 x0 G1 G2 G3 | c x0 d m G1 G2]; subst s'; unfold at_ in Hy; cbn in Hy.
  - exact (Q y Hy eq_refl eq_refl).
  - exact (Q y Hy eq_refl eq_refl).
  - apply (S o0 x0 n0 (length (st_made s)) (st_objs s)); auto. intros o1 x1 E1. exists x1. auto.
  - destruct (W _ _ _ _ _ Hy) as (x1 & X1 & X2 & X3). eapply Q; eauto.
  - apply (S o0 x0 _ _ _ G1 G5 (W (key_of de0) o0 (c_weak (K (o_class x0)))) Hy).
  - exact (Q y Hy eq_refl eq_refl).
  - rewrite nth_upd in Hy. destruct (nth_error (st_objs s) o) as [x|] eqn:E; [|destruct (Nat.eqb o o0); discriminate].
    destruct (Nat.eqb o o0); cbn in Hy; injection Hy as <-; exact (Q x E eq_refl eq_refl).
  - apply nth_snoc in Hy as [Hy|[-> ->]]; [exact (Q y Hy eq_refl eq_refl)|]. destruct G2 as [->|(o1 & y1 & Y1 & <- & Y3)]; [reflexivity|]. cbn in *.
    rewrite (HB o1 y1 Y1 Hs) in Y3. now destruct d.
Qed.
(** Once a signal of such an object was accessed, it does not die, if it is not weakly referenceable. *)
Definition clings s : Prop := forall o a i x, In (Got o a i) (st_log s) -> at_ s o x -> c_set (K (o_class x)) <> Stores ->
  c_weak (K (o_class x)) = false -> o_alive x = true.
Lemma change_clings : well_named -> forall s s', change s s' -> inv s -> cache_ok s -> bare s -> clings s -> clings s'.
Proof.
  intros WN s s' H HI HC HB HG o a i y HL Hy Hs Hw.
  destruct (said_looked WN s s' o a i H HL) as [K1|(_ & (z & K1 & K2 & _) & _)]; [|unfold at_ in *; rewrite Hy in K1; injection K1 as <-; exact K2].
  destruct (i_got s HI o a i K1) as (x & X1 & X2). destruct (change_at s s' o x H X1) as (y' & Y1 & Y2 & Y3 & _).
  unfold at_ in Hy, Y1. rewrite Hy in Y1. injection Y1 as <-. rewrite Y2 in *.
  assert (Hx := HG o a i x K1 X1 Hs Hw).
  inversion H as [ | o0 a0 i0 G1 | o0 a0 x0 de0 G1 G2 G3 G4 G5 (d0 & n0 & -> & G6) | o0 a0 x0 de0 G1 G2 G3 G4 G5 | o0 a0 x0 de0 G1 G2 G3 G4 G5 G6 | | o0 x0 G1 G2 G3 | c x0 d m G1 G2]; subst s'; cbn in Hy; unfold at_ in X1; rewrite ?nth_upd, ?X1 in Hy.
  - congruence.
  - congruence.
  - destruct (Nat.eqb o o0); cbn in Hy; injection Hy as <-; exact Hx.
  - destruct (c_weak (K (o_class x0))); rewrite ?nth_upd, ?X1 in Hy; [|congruence]. destruct (Nat.eqb o o0); cbn in Hy; injection Hy as <-; exact Hx.
  - destruct (c_weak (K (o_class x0))); rewrite ?nth_upd, ?X1 in Hy; destruct (Nat.eqb o o0); cbn in Hy; injection Hy as <-; exact Hx.
  - congruence.
  - destruct (Nat.eqb_spec o o0) as [->|N]; [|congruence]. exfalso. unfold at_ in G1. rewrite X1 in G1. injection G1 as <-.
    destruct (new_dead s o0 a i x X1) as (de & Z1 & Z2); [now rewrite (HB o0 x X1 Hs)|auto|].
    apply cached_in in Z2. destruct (HC _ Z2) as (o' & x' & W1 & W2 & W3 & W4 & _). cbn in *.
    assert (o0 = o') as <- by (apply (i_addr s HI o0 o' x x'); auto).
    unfold held in G3. assert (K6 : existsb (fun e => strong K s o0 (snd e)) (st_cache s) = true); [|congruence].
    apply existsb_exists. eexists. split; [exact Z2|]. cbn. unfold strong. destruct W4 as (x1 & d & a' & de' & W5 & W6 & _). rewrite W6, X1, Nat.eqb_refl, Hw. reflexivity.
  - rewrite (nth_app _ _ _ _ _ X1) in Hy. congruence.
Qed.
Lemma run_clings : well_named -> forall l s s', run K l s = Some s' -> inv s -> cache_ok s -> bare s -> clings s ->
  inv s' /\ cache_ok s' /\ bare s' /\ clings s'.
Proof.
  intros WN l. induction l as [|p l IH]; intros s s' H I C B G; cbn in H; [injection H as <-; auto|].
  destruct (do K p s) as [s1|] eqn:E; [|discriminate]. pose proof (do_change _ _ _ E) as HH.
  apply (IH s1 s' H).
  - exact (change_inv WN s s1 HH I).
  - exact (change_cache s s1 HH I C).
  - exact (change_bare s s1 HH B).
  - exact (change_clings WN s s1 HH I C B G).
Qed.
Lemma init_all : cache_ok init /\ dict_ok init /\ got_ok init /\ bare init /\ clings init.
Proof.
  repeat split.
  - intros e [].
  - intros [|o] x a i H; discriminate.
  - intros o a i [].
  - intros [|o] x H; discriminate.
  - intros o a i x [].
Qed.
End Facts.
