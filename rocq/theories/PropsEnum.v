(** EventedModel.enums_as_values: C109. *)

From Verif Require Import Base Core Evented EnumConf SpecEnum EnumFacts.
Open Scope string_scope.
Open Scope nat_scope.

Lemma lifts_overridden : forall u st x y b, lifts x y b -> overridden (Some ((u, b) :: st)) x y.
Proof.
  intros u st x y b [H1 H2]. split; [exact H1|]. intros k N. destruct (sget key x) as [v|]; rewrite <- H2.
  - now rewrite get_set_o.
  - now rewrite get_pop_o.
Qed.
Lemma over_all : forall at_ exn_ f l s es, leaves_it l -> nested at_ l -> run (enterG at_) (exitG at_ exn_) at_ l f = Some (s, es) ->
  es = [] /\ forall c, overridden (running at_ c l) (plain at_ l f c) (st_conf s c).
Proof.
  intros at_ x f l s es HL HN H. destruct (nested_run at_ x f l s es HL HN H) as [E P]. split; [exact E|]. intros c.
  destruct (P c) as ([|[u b] st] & -> & Q); [exact Q|]. now apply lifts_overridden.
Qed.

(** ** pydantic 2 *)
Theorem C109_nested : forall f l s es, leaves_it l -> nested id_ l -> run2 l f = Some (s, es) ->
  es = [] /\ forall c, overridden (running id_ c l) (plain id_ l f c) (st_conf s c).
Proof. intros f l s es HL HN H. rewrite run2_G in H. eapply over_all; eauto. Qed.
(** Uses of two classes that overlap, one of them nested in itself, with an assignment between. *)
Definition C109_conf : confs := fun c => if Nat.eqb c 1 then [("extra", VNone); (key, VBool false)] else [].
Definition C109_prog : list step :=
  [Enter 1 0 true; Enter 2 1 true; Enter 3 0 false; Put 0 "title" (VInt 1); Exit 3; Exit 1; Put 1 "title" (VInt 2)].
Lemma C109_prog_nested : forall l, In l [C109_prog; (C109_prog ++ [Exit 2])%list] -> leaves_it l /\ nested id_ l.
Proof.
  intros l H. split.
  - cbn in H. destruct H as [<-|[<-|[]]]; repeat constructor; cbn; unfold key; congruence.
  - intros c. cbn in H. destruct H as [<-|[<-|[]]]; destruct c as [|[|c]]; vm_compute; discriminate.
Qed.
Example C109_case : forall f2, f2 = C109_conf ->
  (exists s, run2 C109_prog f2 = Some (s, []) /\ running id_ 0 C109_prog = Some [] /\ running id_ 1 C109_prog = Some [(2, true)] /\
     st_conf s 0 = [("title", VInt 1)] /\ st_conf s 1 = [("extra", VNone); (key, VBool true); ("title", VInt 2)]) /\
  (exists s, run2 ((C109_prog ++ [Exit 2])%list) f2 = Some (s, []) /\ running id_ 1 ((C109_prog ++ [Exit 2])%list) = Some [] /\
     st_conf s 1 = [("extra", VNone); (key, VBool false); ("title", VInt 2)]).
Proof. intros f2 ->. split; eexists; repeat split; vm_compute; reflexivity. Qed.
Print Assumptions C109_nested.

(** Two uses of one class that overlap (in two generators, threads or tasks) leave the setting of the first behind. *)
Theorem C109_overlap_refuted : exists f l s, leaves_it l /\ run2 l f = Some (s, []) /\ st_open s = [] /\
  sget key (f 0) = None /\ sget key (st_conf s 0) = Some (VBool true).
Proof.
  exists (fun _ => []), [Enter 1 0 true; Enter 2 0 true; Exit 1; Exit 2]. eexists.
  split; [repeat constructor|]. split; [vm_compute; reflexivity|]. repeat split; reflexivity.
Qed.
Print Assumptions C109_overlap_refuted.

(** However the uses overlap, they raise nothing, other entries are not touched, and the entry is that of the beginning or of a use. *)
Theorem C109_any : forall f l s es, leaves_it l -> run2 l f = Some (s, es) ->
  es = [] /\ forall c, (forall k, k <> key -> sget k (st_conf s c) = sget k (plain id_ l f c)) /\
    (sget key (st_conf s c) = sget key (f c) \/ exists u b, In (Enter u c b) l /\ sget key (st_conf s c) = Some (VBool b)).
Proof.
  intros f l s es HL H. rewrite run2_G in H. destruct (any_run _ _ _ _ _ _ HL H) as [E P]. split; [exact E|]. intros c.
  destruct (P c) as [P1 P2]. split; [exact P1|]. destruct P2 as [P2|(u & m & b & I & <- & V)]; [now left|]. right. exists u, b. auto.
Qed.
Example C109_any_case : exists s, leaves_it [Enter 1 0 true; Enter 2 0 false; Exit 1; Put 0 "title" VNone; Enter 3 0 true; Exit 2; Exit 3] /\
  run2 [Enter 1 0 true; Enter 2 0 false; Exit 1; Put 0 "title" VNone; Enter 3 0 true; Exit 2; Exit 3] (fun _ => []) = Some (s, []) /\
  st_conf s 0 = [("title", VNone)].
Proof. eexists. split; [repeat constructor; cbn; unfold key; congruence|]. split; vm_compute; reflexivity. Qed.
Print Assumptions C109_any.

(** ** pydantic 1 *)
Lemma run1_G : forall cfg mro f l, leaves_it l -> apart cfg mro l f ->
  run1 cfg mro l f = run (enterG cfg) (exitG cfg EAttribute) cfg l f.
Proof.
  intros cfg mro f l HL HA. apply (steps1_G cfg mro f l).
  - intros u m b I. destruct (HA u m b I) as (r & E & Hr). exists r. split; [exact E|]. intros d Hd. destruct (Hr d Hd) as [N1 N2].
    split; [|exact N2]. intros (u' & m' & b' & I' & Ec). exact (N1 u' m' b' I' Ec).
  - exact HL.
  - intros a h; exact h.
  - reflexivity.
  - discriminate.
  - constructor.
Qed.
(** The entry of a Config class, for all models whose Config it is. *)
Theorem C109_one : forall cfg mro f l s es, leaves_it l -> nested cfg l -> apart cfg mro l f -> run1 cfg mro l f = Some (s, es) ->
  es = [] /\ forall c, overridden (running cfg c l) (plain cfg l f c) (st_conf s c).
Proof. intros cfg mro f l s es HL HN HA H. rewrite run1_G in H by assumption. eapply over_all; eauto. Qed.
(** Model classes 0 and 2 share a Config, which inherits from that of class 1, which is not used. *)
Definition C109_cfg (m : nat) : nat := match m with 1 => 1 | _ => 0 end.
Definition C109_mro (c : nat) : list nat := match c with 0 => [0; 1] | _ => [c] end.
Example C109_one_case : exists s,
  let l := [Enter 1 0 true; Enter 2 2 false; Put 1 "extra" VNone; Exit 2] in
  leaves_it l /\ nested C109_cfg l /\ apart C109_cfg C109_mro l (fun _ => []) /\ run1 C109_cfg C109_mro l (fun _ => []) = Some (s, []) /\
  running C109_cfg 0 l = Some [(1, true)] /\ st_conf s 0 = [(key, VBool true)] /\ st_conf s 1 = [("extra", VNone)].
Proof.
  eexists. cbv zeta. split; [repeat constructor; cbn; unfold key; congruence|]. split; [|split].
  - intros [|[|c]]; vm_compute; discriminate.
  - intros u m b H. cbn in H. assert (Hm : m = 0 \/ m = 2).
    { repeat destruct H as [H|H]; try discriminate; try (injection H as <- <- <-; auto); destruct H. }
    exists [1]. split; [destruct Hm; subst; reflexivity|]. intros d [<-|[]]. split; [|reflexivity].
    intros u' m' b' H'. cbn in H'. repeat destruct H' as [H'|H']; try discriminate; try (injection H' as <- <- <-; discriminate); destruct H'.
  - split; [vm_compute; reflexivity|]. repeat split; reflexivity.
Qed.
Print Assumptions C109_one.

(** When the Config of one model class inherits from that of another, a use of the subclass inside a use of the class leaves
    the setting of the outer use in the Config of the subclass, though the uses are nested. *)
Theorem C109_inherited_refuted : exists cfg mro f l s, leaves_it l /\ nested cfg l /\ nested (fun _ => 0) l /\
  run1 cfg mro l f = Some (s, []) /\ st_open s = [] /\ (forall m, lookup (mro (cfg m)) f = None) /\
  lookup (mro (cfg 1)) (st_conf s) = Some (VBool true).
Proof.
  exists (fun m => m), (fun c => match c with 1 => [1; 0] | _ => [c] end), (fun _ => []),
    [Enter 1 0 true; Enter 2 1 false; Exit 2; Exit 1]. eexists.
  split; [repeat constructor|]. split; [intros [|[|c]]; vm_compute; discriminate|]. split; [intros [|c]; vm_compute; discriminate|].
  split; [vm_compute; reflexivity|]. split; [reflexivity|]. split; [intros [|[|m]]; reflexivity|reflexivity].
Qed.
Print Assumptions C109_inherited_refuted.

(** Model classes without a Config of their own share that of EventedModel: the setting of one is the setting of all. *)
Theorem C109_shared_refuted : exists cfg mro f l s, apart cfg mro l f /\ run1 cfg mro l f = Some (s, []) /\
  (forall u m b, In (Enter u m b) l -> m = 0) /\ lookup (mro (cfg 1)) f = None /\ lookup (mro (cfg 1)) (st_conf s) = Some (VBool true).
Proof.
  exists (fun _ => 0), (fun c => [c]), (fun _ => []), [Enter 1 0 true]. eexists.
  split; [intros u m b H; exists []; split; [reflexivity|intros d []]|]. split; [vm_compute; reflexivity|].
  split; [intros u m b [H|[]]; now injection H as <- <- <-|]. split; reflexivity.
Qed.
Print Assumptions C109_shared_refuted.
