(** EventedDict: C38, C39. *)

From Verif Require Import Base Core Spec Frame Fuel Demo Client Prog Does PyDict EDict SpecDict.
Open Scope string_scope.
Open Scope list_scope.

Lemma follows_d_app : forall same d h d' h' d'', follows_d same d h d' -> follows_d same d' h' d'' ->
  follows_d same d (h ++ h') d''.
Proof. intros same d h d' h' d'' H; induction H; intros H'; cbn [List.app]; auto; econstructor; eauto. Qed.

Section D.
Variable E : env dict.
Variable same : val -> val -> bool.
Variable typed : val -> bool.
Notation does := (Does.does E dict_signals).
Notation never := (Does.never (U := dict)).
Let tells (d u : dict) hs := follows_d same d hs u.

Lemma dset_same : forall k v d, dget same k d = Some v -> dset same k v d = d.
Proof.
  intros k v d; induction d as [|[x y] d IH]; cbn; [discriminate|]. destruct (same k x).
  - intros H. injection H as ->. reflexivity.
  - intros H. now rewrite IH.
Qed.
Lemma set_d : forall k v d,
  does (ed_set same typed k v) d
    (fun u hs r => r = VNone /\ u = dset same k v d /\ tells d u hs
       /\ (dget same k d = Some v -> hs = []))
    (fun u hs e => typed v = false /\ e = EType /\ u = d).
Proof.
  intros k v d. apply does_look. destruct (dget same k d) as [old|] eqn:HG.
  - destruct (val_eqb v old) eqn:Hv.
    + apply val_eqb_eq in Hv as ->. apply does_ret. split; [reflexivity|]. split; [symmetry; now apply dset_same|].
      split; [constructor|auto].
    + assert (Hn : v <> old) by (intros ->; rewrite (proj2 (val_eqb_eq old old) eq_refl) in Hv; discriminate).
      eapply does_seq with (f1 := fun u hs _ => u = d /\ hs = [(d_changing, [k], d)]).
      { apply does_say; auto. } intros u hs x [-> ->].
      eapply does_seq with (f1 := fun u hs _ => u = dset same k v d /\ hs = []).
      { apply does_act. unfold do_put. destruct (typed v) eqn:HT; auto. } intros u hs y [-> ->].
      eapply does_seq with (f1 := fun u hs _ => u = dset same k v d /\ hs = [(d_changed, [k; old; v], u)]).
      { apply does_say; auto. } intros u hs z [-> ->].
      apply does_ret. split; [reflexivity|]. split; [reflexivity|]. split; [|congruence].
      apply fd_change; auto. constructor.
  - eapply does_seq with (f1 := fun u hs _ => u = d /\ hs = [(d_adding, [k], d)]).
    { apply does_say; auto. } intros u hs x [-> ->].
    eapply does_seq with (f1 := fun u hs _ => u = dset same k v d /\ hs = []).
    { apply does_act. unfold do_put. destruct (typed v) eqn:HT; auto. } intros u hs y [-> ->].
    eapply does_seq with (f1 := fun u hs _ => u = dset same k v d /\ hs = [(d_added, [k; v], u)]).
    { apply does_say; auto. } intros u hs z [-> ->].
    apply does_ret. split; [reflexivity|]. split; [reflexivity|]. split; [|congruence].
    apply fd_add; auto. constructor.
Qed.
Lemma get_d : forall k d,
  does (ed_get same k) d (fun u hs r => u = d /\ hs = [] /\ dget same k d = Some r)
    (fun u hs e => u = d /\ hs = [] /\ e = EKey /\ dget same k d = None).
Proof. intros k d. apply does_look. destruct (dget same k d) as [x|]; [apply does_ret|apply does_throw]; auto. Qed.
Lemma del_d : forall k d,
  does (ed_del same k) d
    (fun u hs r => r = VNone /\ (exists x, dget same k d = Some x) /\ u = ddel same k d /\ tells d u hs)
    (fun u hs e => u = d /\ hs = [] /\ e = EKey /\ dget same k d = None).
Proof.
  intros k d. unfold ed_del. eapply does_bind; [apply get_d|]. intros u hs x (-> & -> & HG).
  eapply does_seq with (f1 := fun u hs _ => u = d /\ hs = [(d_removing, [k], d)]).
  { apply does_say; auto. } intros u hs y [-> ->].
  eapply does_seq with (f1 := fun u hs _ => u = ddel same k d /\ hs = []).
  { apply does_act. unfold do_del. rewrite HG. auto. } intros u hs y' [-> ->].
  eapply does_seq with (f1 := fun u hs _ => u = ddel same k d /\ hs = [(d_removed, [k; x], u)]).
  { apply does_say; auto. } intros u hs z [-> ->].
  apply does_ret. split; [reflexivity|]. split; [eauto|]. split; [reflexivity|]. apply fd_remove; auto. constructor.
Qed.
Lemma pop_d : forall k y d,
  does (ed_pop same k y) d
    (fun u hs r => tells d u hs /\ ((dget same k d = Some r /\ u = ddel same k d)
                                  \/ (dget same k d = None /\ y = Some r /\ u = d)))
    (fun u hs e => u = d /\ hs = [] /\ e = EKey /\ dget same k d = None /\ y = None).
Proof.
  intros k y d. apply does_look. destruct (dget same k d) as [x|] eqn:HG.
  - eapply does_seq with (f1 := fun u hs _ => u = ddel same k d /\ tells d u hs).
    { eapply does_mono; [apply del_d| |].
      - intros u hs v (_ & _ & -> & HT). auto.
      - intros u hs e (_ & _ & _ & HN). congruence. }
    intros u hs v [-> HT]. apply does_ret. rewrite app_nil_r. auto.
  - destruct y as [y|]; [apply does_ret|apply does_throw]; auto. split; [constructor|auto].
Qed.
Hypothesis refl : forall k, same k k = true.
Lemma popitem_d : forall d,
  does (ed_popitem same) d
    (fun u hs r => exists k v, d = (k, v) :: u /\ r = VTuple [k; v] /\ tells d u hs)
    (fun u hs e => u = d /\ hs = [] /\ e = EKey /\ d = []).
Proof.
  intros d. apply does_look. destruct d as [|[k v] d]; [apply does_throw; auto|].
  assert (HG : dget same k ((k, v) :: d) = Some v) by (cbn; now rewrite refl).
  assert (HD : ddel same k ((k, v) :: d) = d) by (cbn; now rewrite refl).
  eapply does_bind with (f1 := fun u hs r => u = (k, v) :: d /\ hs = [] /\ r = v).
  { eapply does_mono; [apply get_d| |].
    - intros u hs r (-> & -> & Hr). split; [reflexivity|]. split; [reflexivity|]. pose proof (eq_trans (eq_sym Hr) HG) as H. now injection H.
    - intros u hs e (_ & _ & _ & HN). pose proof (eq_trans (eq_sym HN) HG). discriminate. }
  intros u hs r (-> & -> & ->).
  eapply does_seq with (f1 := fun u hs _ => u = d /\ tells ((k, v) :: d) u hs).
  { eapply does_mono; [apply del_d| |].
    - intros u hs r (_ & _ & Hu & HT). assert (u = d) by exact (eq_trans Hu HD). subst u. auto.
    - intros u hs e (_ & _ & _ & HN). pose proof (eq_trans (eq_sym HN) HG). discriminate. }
  intros u hs r [-> HT]. apply does_ret. exists k, v. cbn [List.app]. rewrite app_nil_r. auto.
Qed.
Lemma clear_d : forall n d, List.length d < n ->
  does (ed_clear_loop same n) d
    (fun u hs r => r = VNone /\ ((u = [] /\ tells d u hs) \/ listener_raised E dict_signals EKey)) never.
Proof.
  induction n as [|n IH]; intros d Hn; [lia|]. cbn [ed_clear_loop]. intros h. apply wp_catch.
  eapply wp_mono; [|apply popitem_d]. intros u h' [v|e|] HH; cbn beta in *; auto.
  - destruct HH as (hs & -> & k & x & -> & _ & HT).
    eapply wp_mono; [|apply (IH u)]; [|cbn [List.length] in Hn; lia].
    intros u' h2 [v'|e'|] HK; cbn beta in *; auto.
    + destruct HK as (hs' & -> & -> & HK). exists (hs ++ hs'). rewrite app_assoc. split; [reflexivity|].
      split; [reflexivity|]. destruct HK as [[-> HT']|HK]; [|auto]. left. split; [reflexivity|]. eapply follows_d_app; eauto.
    + destruct HK as (hs' & -> & HK). exists (hs ++ hs'). rewrite app_assoc. destruct HK; auto.
  - destruct HH as (hs & -> & [(-> & -> & -> & ->)|HL]).
    + cbn. exists []. rewrite !app_nil_r. split; [reflexivity|]. split; [reflexivity|]. left. split; [reflexivity|constructor].
    + destruct e; cbn; eauto.
Qed.
Lemma update_d : forall kvs d,
  does (ed_update same typed kvs) d
    (fun u hs r => r = VNone /\ u = fold_left (fun d kv => dset same (fst kv) (snd kv) d) kvs d /\ tells d u hs)
    (fun u hs e => e = EType /\ exists kv, In kv kvs /\ typed (snd kv) = false).
Proof.
  induction kvs as [|[k v] kvs IH]; intros d; cbn [ed_update each].
  - apply does_ret. split; [reflexivity|]. split; [reflexivity|constructor].
  - eapply does_seq with (f1 := fun u hs r => u = dset same k v d /\ tells d u hs).
    { eapply does_mono; [apply set_d| |].
      - intros u hs r (_ & -> & HT & _). auto.
      - intros u hs e (HT & -> & _). split; [reflexivity|]. exists (k, v). split; [now left|exact HT]. }
    intros u hs r [-> HT]. eapply does_mono; [apply IH| |].
    + intros u hs' r' (-> & -> & HT'). split; [reflexivity|]. split; [reflexivity|]. eapply follows_d_app; eauto.
    + intros u hs' e (-> & kv & Hin & HF). split; [reflexivity|]. exists kv. split; [now right|exact HF].
Qed.
Lemma setdefault_d : forall k v d,
  does (ed_setdefault same typed k v) d
    (fun u hs r => tells d u hs /\ ((dget same k d = Some r /\ u = d)
                                  \/ (dget same k d = None /\ r = v /\ u = dset same k v d)))
    (fun u hs e => typed v = false /\ e = EType /\ u = d).
Proof.
  intros k v d. apply does_look. destruct (dget same k d) as [x|] eqn:HG.
  - apply does_ret. split; [constructor|auto].
  - eapply does_seq with (f1 := fun u hs r => u = dset same k v d /\ tells d u hs).
    { eapply does_mono; [apply set_d| |auto]. intros u hs r (_ & -> & HT & _). auto. }
    intros u hs r [-> HT]. apply does_ret. rewrite app_nil_r. auto.
Qed.
End D.

Definition result (x : val + exn) : out := match x with inl v => Ok v | inr e => Err e end.
Lemma dict_cfg_fresh : forall s, fresh_sig (dict_cfg s).
Proof. intros s. do 7 (destruct s as [|s]; [repeat split|]). repeat split. Qed.
Lemma dict_cfg_flat : forall {U} (u : U), flat (init_world dict_cfg u).
Proof.
  intros U u r ms x y H Hi. destruct r as [|r]; [|do 6 (destruct r as [|r]; [discriminate H|]); discriminate H].
  injection H as <-. cbn [In] in Hi. repeat (destruct Hi as [Hi|Hi]; [injection Hi as <- <-; reflexivity|]). destruct Hi.
Qed.
Global Hint Resolve dict_cfg_fresh dict_cfg_flat : demo.

(** * C38 *)

(** The values the operation stores. *)
Definition stores (o : dop) (v : val) : Prop :=
  match o with
  | DSet _ x | DSetdefault _ x => v = x
  | DUpdate kvs => In v (map snd kvs)
  | _ => False
  end.

(** Whatever is connected to the events (listeners do not change the dict or emit its events
    themselves; they may raise), every operation except popitem() of a dict with several items
    leaves the contents and gives the result that the builtin dict has, or a listener's exception
    comes out.  (clear() would also end at a KeyError of a listener; emit wraps exceptions of
    callbacks in EmitLoopError, so this could only come from a debug hook.)  Values pass the type
    check; a key finds itself. *)
Theorem C38_like_dict_partial : forall E same typed o w w' r,
  env_all (aloof dict_signals) E -> (forall k, same k k = true) ->
  (forall v, stores o v -> typed v = true) -> (o = DPopitem -> List.length (w_usr w) <= 1) ->
  runs E (evented_d same typed o) w w' r -> done r ->
  (exists x, on_dict same o (w_usr w) (w_usr w') x /\ r = result x)
  \/ (exists e, r = Err e /\ listener_raised E dict_signals e)
  \/ (o = DClear /\ r = Ok VNone /\ listener_raised E dict_signals EKey).
Proof.
  intros E same typed o w w' r HE HS HV HP HR Hr. set (l := w_usr w) in *.
  assert (Main : forall f g, Does.does E dict_signals (evented_d same typed o) l f g ->
    (forall u hs v, f u hs v -> (exists x, on_dict same o l u x /\ Ok v = result x)
        \/ (o = DClear /\ v = VNone /\ listener_raised E dict_signals EKey)) ->
    (forall u hs e, g u hs e -> exists x, on_dict same o l u x /\ Err e = result x) ->
    (exists x, on_dict same o l (w_usr w') x /\ r = result x)
    \/ (exists e, r = Err e /\ listener_raised E dict_signals e)
    \/ (o = DClear /\ r = Ok VNone /\ listener_raised E dict_signals EKey)).
  { intros f g HD Hf Hg. destruct (does_sound E dict_signals _ w w' r f g HE HD HR Hr) as (t & _ & HQ).
    destruct r as [v|e|]; [| |contradiction].
    - destruct (Hf _ _ _ HQ) as [H|(-> & -> & H)]; auto.
    - destruct HQ as [HQ|HQ]; [left; eapply Hg; eauto|]. right. left. eauto. }
  destruct o as [k v|k|k y| | |kvs|k v]; cbn [evented_d] in *.
  - eapply Main; [apply set_d| |].
    + intros u hs x (-> & -> & _). left. exists (inl VNone). split; [constructor|reflexivity].
    + intros u hs e (HF & _). rewrite HV in HF by reflexivity. discriminate.
  - eapply Main; [apply del_d| |].
    + intros u hs x (-> & (y & HG) & -> & _). left. exists (inl VNone). split; [econstructor; eauto|reflexivity].
    + intros u hs e (-> & _ & -> & HG). exists (inr EKey). split; [now constructor|reflexivity].
  - eapply Main; [apply pop_d| |].
    + intros u hs x (_ & [[HG ->]|(HG & -> & ->)]); left; exists (inl x); (split; [now constructor|reflexivity]).
    + intros u hs e (-> & _ & -> & HG & ->). exists (inr EKey). split; [now constructor|reflexivity].
  - specialize (HP eq_refl). eapply Main; [now apply popitem_d| |].
    + intros u hs x (k & v & Hl & -> & _). left. exists (inl (VTuple [k; v])). split; [|reflexivity].
      rewrite Hl in HP |- *. destruct u; [|cbn in HP; lia]. apply (od_popitem same k v []).
    + intros u hs e (-> & _ & -> & Hl). exists (inr EKey). rewrite Hl. split; [constructor|reflexivity].
  - eapply Main; [apply does_look; apply clear_d; [exact HS|lia]| |intros ? ? ? []].
    intros u hs x (-> & [(-> & _)|H]); [left|right; auto]. exists (inl VNone). split; [constructor|reflexivity].
  - eapply Main; [apply update_d| |].
    + intros u hs x (-> & -> & _). left. exists (inl VNone). split; [constructor|reflexivity].
    + intros u hs e (_ & kv & Hin & HF). rewrite HV in HF; [discriminate|]. cbn. now apply in_map.
  - eapply Main; [apply setdefault_d| |].
    + intros u hs x (_ & [[HG ->]|(HG & -> & ->)]); left; eexists (inl _); (split; [constructor; exact HG|reflexivity]).
    + intros u hs e (HF & _). rewrite HV in HF by reflexivity. discriminate.
Qed.

(** A listener of added that emits another signal; one of changed that raises. *)
Definition dict_env : env dict :=
  demo (fun f a => match f with
                   | 1 => calls [emit 20 [VInt 1]]
                   | 2 => Throw (EUser 7)
                   | _ => Ret VNone
                   end).
Definition dict_world (d : dict) := world_of dict_env dict_cfg d 50
  [conn d_added 1 0; conn d_changed 2 0; conn d_events 3 0; conn d_removed 3 0].
Lemma dict_env_aloof : env_all (aloof dict_signals) dict_env.
Proof. apply demo_all. intros f a. destruct f as [|[|[|f]]]; allp. Qed.
Lemma val_eqb_refl : forall k, val_eqb k k = true.
Proof. intros k. now apply val_eqb_eq. Qed.
Example C38_case :
  let d := [(VInt 5, VInt 50); (VInt 6, VInt 60)] in
  let run o := exec dict_env 200 (evented_d val_eqb (fun _ => true) o) (dict_world d) in
  let res o := match run o with Some (w, r) => Some (w_usr w, r) | None => None end in
  env_all (aloof dict_signals) dict_env
  /\ res (DUpdate [(VInt 7, VInt 70); (VInt 5, VInt 50); (VInt 8, VInt 80)])
     = Some (d ++ [(VInt 7, VInt 70); (VInt 8, VInt 80)], Ok VNone)
  /\ res (DPop (VInt 5) None) = Some ([(VInt 6, VInt 60)], Ok (VInt 50))
  /\ res (DDel (VInt 9)) = Some (d, Err EKey)
  /\ res DClear = Some ([], Ok VNone)
  /\ exists e, res (DSet (VInt 5) (VInt 51)) = Some ([(VInt 5, VInt 51); (VInt 6, VInt 60)], Err e).
Proof. split; [apply dict_env_aloof|]. vm_compute. repeat split. eexists. reflexivity. Qed.
Print Assumptions C38_like_dict_partial.
(** popitem() takes the first item, not the last one. *)
Theorem C38_refuted : exists (E : env dict) same typed w w' v,
  env_all (aloof dict_signals) E /\ reachable E w
  /\ runs E (evented_d same typed DPopitem) w w' (Ok v)
  /\ ~ exists x, on_dict same DPopitem (w_usr w) (w_usr w') x /\ Ok v = result x.
Proof.
  set (d := [(VInt 5, VInt 50); (VInt 6, VInt 60)]).
  exists dict_env, val_eqb, (fun _ => true), (dict_world d),
    (after dict_env 100 (evented_d val_eqb (fun _ => true) DPopitem) (dict_world d)), (VTuple [VInt 5; VInt 50]).
  split; [apply dict_env_aloof|]. split; [reach|]. split; [apply after_runs; vm_compute; reflexivity|].
  assert (H1 : w_usr (dict_world d) = d) by (vm_compute; reflexivity).
  assert (H2 : w_usr (after dict_env 100 (evented_d val_eqb (fun _ => true) DPopitem) (dict_world d)) = [(VInt 6, VInt 60)])
    by (vm_compute; reflexivity).
  rewrite H1, H2. intros (x & H & Hx). inversion H; subst. cbn in Hx. injection Hx as <- <-. discriminate.
Qed.
Print Assumptions C38_refuted.

(** * C39 *)

(** An operation that returns has emitted exactly the events that lead from the old contents to
    the new ones, each before or after its change. *)
Theorem C39_events : forall E same typed o w w' v,
  env_all (aloof dict_signals) E -> (forall k, same k k = true) ->
  runs E (evented_d same typed o) w w' (Ok v) ->
  exists t, w_tr w' = w_tr w ++ t
    /\ (follows_d same (w_usr w) (heard dict_signals t) (w_usr w')
        \/ (o = DClear /\ listener_raised E dict_signals EKey)).
Proof.
  intros E same typed o w w' v HE HS HR. set (l := w_usr w) in *.
  assert (Main : forall f g, Does.does E dict_signals (evented_d same typed o) l f g ->
    (forall u hs v, f u hs v -> follows_d same l hs u \/ (o = DClear /\ listener_raised E dict_signals EKey)) ->
    exists t, w_tr w' = w_tr w ++ t
    /\ (follows_d same l (heard dict_signals t) (w_usr w') \/ (o = DClear /\ listener_raised E dict_signals EKey))).
  { intros f g HD Hf. destruct (does_sound E dict_signals _ w w' (Ok v) f g HE HD HR ltac:(discriminate)) as (t & HT & HQ).
    exists t. split; [exact HT|]. eauto. }
  destruct o as [k x|k|k y| | |kvs|k x]; cbn [evented_d] in *.
  - eapply Main; [apply set_d|]. intros u hs y (_ & _ & HT & _). auto.
  - eapply Main; [apply del_d|]. intros u hs y (_ & _ & _ & HT). auto.
  - eapply Main; [apply pop_d|]. intros u hs z (HT & _). auto.
  - eapply Main; [now apply popitem_d|]. intros u hs z (a & b & _ & _ & HT). auto.
  - eapply Main; [apply does_look; apply clear_d; [exact HS|lia]|]. intros u hs z (_ & [(_ & HT)|HT]); auto.
  - eapply Main; [apply update_d|]. intros u hs z (_ & _ & HT). auto.
  - eapply Main; [apply setdefault_d|]. intros u hs z (HT & _). auto.
Qed.
(** Assigning the object that is already there emits nothing. *)
Theorem C39_same : forall E same typed k v w w' r,
  env_all (aloof dict_signals) E -> dget same k (w_usr w) = Some v ->
  runs E (ed_set same typed k v) w w' (Ok r) ->
  exists t, w_tr w' = w_tr w ++ t /\ heard dict_signals t = [] /\ w_usr w' = w_usr w.
Proof.
  intros E same typed k v w w' r HE HG HR.
  destruct (does_sound E dict_signals _ w w' (Ok r) _ _ HE (set_d E same typed k v (w_usr w)) HR ltac:(discriminate))
    as (t & HT & _ & HU & _ & HH). exists t. split; [exact HT|]. split; [auto|]. rewrite HU. now apply dset_same.
Qed.
Example C39_case :
  let d := [(VInt 5, VInt 50); (VInt 6, VInt 60)] in
  let go o := let w' := after dict_env 200 (evented_d val_eqb (fun _ => true) o) (dict_world d) in
              (w_usr w', heard dict_signals (skipn (List.length (w_tr (dict_world d))) (w_tr w'))) in
  go (DPop (VInt 6) None) = ([(VInt 5, VInt 50)],
     [(d_removing, [VInt 6], d); (d_removed, [VInt 6; VInt 60], [(VInt 5, VInt 50)])])
  /\ go (DSet (VInt 6) (VInt 60)) = (d, [])
  /\ go (DSetdefault (VInt 7) VNone) = (d ++ [(VInt 7, VNone)],
     [(d_adding, [VInt 7], d); (d_added, [VInt 7; VNone], d ++ [(VInt 7, VNone)])]).
Proof. vm_compute. repeat split. Qed.
Print Assumptions C39_events.
Print Assumptions C39_same.
(** With a base type, adding is emitted before the type check refuses the value. *)
Theorem C39_announced_refuted : exists (E : env dict) same typed w w' t,
  env_all (aloof dict_signals) E /\ reachable E w
  /\ runs E (evented_d same typed (DSet (VInt 7) (VInt 70))) w w' (Err EType)
  /\ w_usr w = [(VInt 5, VInt 50)] /\ w_usr w' = w_usr w
  /\ w_tr w' = w_tr w ++ t /\ heard dict_signals t = [(d_adding, [VInt 7], w_usr w)].
Proof.
  set (d := [(VInt 5, VInt 50)]). set (p := evented_d val_eqb (fun _ => false) (DSet (VInt 7) (VInt 70))).
  exists dict_env, val_eqb, (fun _ => false), (dict_world d), (after dict_env 100 p (dict_world d)),
    (skipn (List.length (w_tr (dict_world d))) (w_tr (after dict_env 100 p (dict_world d)))).
  split; [apply dict_env_aloof|]. split; [reach|]. split; [apply after_runs; vm_compute; reflexivity|].
  split; [vm_compute; reflexivity|]. split; [vm_compute; reflexivity|]. split; vm_compute; reflexivity.
Qed.
