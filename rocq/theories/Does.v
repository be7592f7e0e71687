(** Rules for what programs of a class that owns the signals [C] do. Proof infrastructure; models
    no code. *)

From Verif Require Import Base Core Spec Frame Fuel Client Prog.

Section Does.
Context {U V : Type}.
Variable E : env V.
Variable C : sid -> bool.

(** [p] started in [l] ends in a state and with events allowed by [f], or raises what [g] allows,
    or what a listener raised. *)
Definition ends : Type := U -> list (sid * list val * U) -> val -> Prop.
Definition fails : Type := U -> list (sid * list val * U) -> exn -> Prop.
Definition does (p : prog U) (l : U) (f : ends) (g : fails) : Prop :=
  forall h, wp E C p l h (fun u h' r =>
    match r with
    | Ok v => exists hs, h' = h ++ hs /\ f u hs v
    | Err e => exists hs, h' = h ++ hs /\ (g u hs e \/ listener_raised E C e)
    | Halted => False
    end).
Definition never : fails := fun _ _ _ => False.

Lemma does_mono : forall p l (f f' : ends) (g g' : fails), does p l f g ->
  (forall u hs v, f u hs v -> f' u hs v) -> (forall u hs e, g u hs e -> g' u hs e) -> does p l f' g'.
Proof.
  intros p l f f' g g' H Hf Hg h. eapply wp_mono; [|apply H]. intros u h' [v|e|] HH; auto.
  - destruct HH as (hs & -> & HH). eauto.
  - destruct HH as (hs & -> & [HH|HH]); eauto.
Qed.
Lemma does_ret : forall v l (f : ends) (g : fails), f l [] v -> does (Ret v) l f g.
Proof. intros v l f g H h. cbn. exists []. rewrite app_nil_r. auto. Qed.
Lemma does_throw : forall e l (f : ends) (g : fails), g l [] e -> does (Throw e) l f g.
Proof. intros e l f g H h. cbn. exists []. rewrite app_nil_r. auto. Qed.
Lemma does_look : forall k l (f : ends) (g : fails), does (k l) l f g -> does (Look k) l f g.
Proof. intros k l f g H h. cbn. apply H. Qed.
Lemma does_bind : forall p k l (f : ends) (g : fails) (f1 : ends),
  does p l f1 g ->
  (forall u hs v, f1 u hs v -> does (k v) u (fun u' hs' v' => f u' (hs ++ hs') v') (fun u' hs' e => g u' (hs ++ hs') e)) ->
  does (bind p k) l f g.
Proof.
  intros p k l f g f1 H1 H2 h. apply wp_bind. eapply wp_mono; [|apply H1].
  intros u h' [v|e|] HH; auto; cbn in *. destruct HH as (hs & -> & HH).
  eapply wp_mono; [|apply (H2 u hs v HH (h ++ hs))]. intros u' h2 [v'|e|] HK; auto.
  - destruct HK as (hs' & -> & HK). exists (hs ++ hs'). now rewrite app_assoc.
  - destruct HK as (hs' & -> & HK). exists (hs ++ hs'). now rewrite app_assoc.
Qed.
Lemma does_seq : forall p q l (f : ends) (g : fails) (f1 : ends),
  does p l f1 g ->
  (forall u hs v, f1 u hs v -> does q u (fun u' hs' v' => f u' (hs ++ hs') v') (fun u' hs' e => g u' (hs ++ hs') e)) ->
  does (p ;; q) l f g.
Proof. intros. unfold seq. eapply does_bind; eauto. Qed.
Lemma does_say : forall s args l (f : ends) (g : fails), C s = true ->
  (forall v, f l [(s, args, l)] v) -> does (say s args) l f g.
Proof.
  intros s args l f g Hs H h. unfold say, call. cbn [wp]. rewrite Hs. split.
  - intros v. cbn. exists [(s, args, l)]. auto.
  - intros e He. cbn. exists [(s, args, l)]. auto.
Qed.
Lemma does_act : forall fn l (f : ends) (g : fails),
  match fn l with (u, inl v) => f u [] v | (u, inr e) => g u [] e end -> does (act fn) l f g.
Proof.
  intros fn l f g H h. unfold act, call. cbn [wp]. destruct (fn l) as [u [v|e]]; cbn; exists []; rewrite app_nil_r; auto.
Qed.

Lemma blocked_mono : forall s ex p l (f : ends) (g : fails),
  does p l f g -> does (with_blocked s ex p) l f g.
Proof.
  intros s ex p l f g H h. unfold with_blocked, try_finally, call. cbn [bind wp]. intros b. cbn [finish bind].
  apply wp_catch. eapply wp_mono; [|apply H]. intros u h' [v|e|] HH; auto; destruct b; cbn; auto.
Qed.

Lemma paused_mono : forall s rd p l (f : ends) (g : fails), C s = true -> reduces_ok rd ->
  does p l f g -> does (with_paused s rd p) l f g.
Proof.
  intros s rd p l f g HC Hrd H h. unfold with_paused, try_finally, call. cbn [bind wp]. intros b. cbn [finish bind].
  apply wp_catch. eapply wp_mono; [|apply H].
  intros u h' [v|e|] HH; auto; destruct b; cbn; auto; (split; [auto|]); intros e' He; cbn;
    destruct HH as (hs & -> & _); eauto.
Qed.

End Does.
Arguments never {U} _ _ _.

(** What a completed execution of [p] did. *)
Lemma does_sound : forall {U} (E : env U) C p (w w' : world U) r (f : ends) (g : fails), env_all (aloof C) E ->
  does E C p (w_usr w) f g -> runs E p w w' r -> done r ->
  exists t, w_tr w' = w_tr w ++ t
    /\ match r with
       | Ok v => f (w_usr w') (heard C t) v
       | Err e => g (w_usr w') (heard C t) e \/ listener_raised E C e
       | Halted => False
       end.
Proof.
  intros U E C p w w' r f g HE HD HR Hr. destruct (wp_sound E C HE p w w' r HR Hr [] _ (HD [])) as (t & Ht & HQ).
  exists t. split; [exact Ht|]. cbn [List.app] in HQ. destruct r as [v|e|]; auto; destruct HQ as (hs & -> & HQ); exact HQ.
Qed.
