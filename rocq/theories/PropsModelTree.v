(** reset() (C77) and update() (C78) of EventedModels with nested models. *)

From Verif Require Import Base Core Evented SpecEvented PropsEvented Uniform PropsUniform ModelTree.
Open Scope string_scope.
Open Scope list_scope.

Section Tree.
Variable C : nat -> list (string * fdesc).
Variable Cf : nat -> bool.

(** * C77 *)

(** The value of a field in a new model, if the field is not given. *)
Definition initial (f : fdesc) : tv := match fd_default f with DVal t | DFactory t => t | DRequired => TUndef end.
(** Model() *)
Definition fresh (c : nat) : tv := TM c (map (fun kf => (fst kf, initial (snd kf))) (C c)).
(** Models for which reset() does what it says, with models nested less than n deep: no frozen and no required fields, no
    default factories; a default that is a model is one with default values, and the field still has a model of that class. *)
Fixpoint resettable (n : nat) (t : tv) : Prop :=
  match n, t with
  | S n, TM c fs =>
      Cf c = false /\ is_dict (C c) /\ map fst fs = map fst (C c) /\
      forall k f, In (k, f) (C c) -> fd_frozen f = false /\
        exists d x, fd_default f = DVal d /\ In (k, x) fs /\
          (is_model d = false /\ (d = TV VNone -> fd_model f = None)
           \/ exists c' fs', d = fresh c' /\ x = TM c' fs' /\ resettable n (TM c' fs'))
  | _, _ => False
  end.

Lemma sset_at : forall (A : Type) k (x y : A) d1 d2, ~ In k (map fst d1) -> sset k x (d1 ++ (k, y) :: d2) = d1 ++ (k, x) :: d2.
Proof.
  intros A k x y d1 d2. induction d1 as [|[j z] d1 IH]; cbn; intros H; [now rewrite String.eqb_refl|].
  destruct (String.eqb_spec k j) as [->|]; [tauto|]. f_equal. apply IH. tauto.
Qed.
Lemma sget_at : forall (A : Type) k (y : A) d1 d2, ~ In k (map fst d1) -> sget k (d1 ++ (k, y) :: d2) = Some y.
Proof.
  intros A k y d1 d2. induction d1 as [|[j z] d1 IH]; cbn; intros H; [now rewrite String.eqb_refl|].
  destruct (String.eqb_spec k j) as [->|]; [tauto|]. apply IH. tauto.
Qed.
Lemma sget_here : forall (A : Type) k (y : A) d, is_dict d -> In (k, y) d -> sget k d = Some y.
Proof. intros. now apply sget_In. Qed.
Lemma defaults_all : forall rec l,
  (forall k f, In (k, f) l -> exists d, fd_default f = DVal d /\ (d = TV VNone -> fd_model f = None)) ->
  defaults_loop rec l = Some (map (fun kf => (fst kf, initial (snd kf))) l).
Proof.
  intros rec l. induction l as [|[k f] l IH]; intros H; cbn [defaults_loop map fst snd]; [reflexivity|].
  rewrite IH by (intros; apply (H k0); now right). destruct (H k f (or_introl eq_refl)) as (d & Hd & HN).
  unfold get_default, initial. rewrite Hd. destruct d as [v| | | |]; try reflexivity.
  destruct v; try reflexivity. now rewrite (HN eq_refl).
Qed.

Lemma reset_steps : forall n c l fs0 done,
  Cf c = false -> is_dict (C c) -> C c = done ++ l -> map fst fs0 = map fst l ->
  (forall k f, In (k, f) l -> fd_frozen f = false /\
     exists d x, fd_default f = DVal d /\ In (k, x) fs0 /\
       (is_model d = false
        \/ exists c' fs', d = fresh c' /\ x = TM c' fs' /\ reset C Cf n (TM c' fs') = Some (fresh c', None))) ->
  reset_loop C Cf (reset C Cf n) c (map (fun kf => (fst kf, initial (snd kf))) l)
    (map (fun kf => (fst kf, initial (snd kf))) done ++ fs0) = Some (fresh c, None).
Proof.
  intros n c l. induction l as [|[k f] l IH]; intros fs0 done HC HD HE HK H.
  - destruct fs0; [|discriminate]. rewrite app_nil_r in *. unfold fresh. cbn. now rewrite HE.
  - destruct fs0 as [|[k0 x0] fs0]; [discriminate|]. cbn in HK. injection HK as -> HK.
    assert (ND : NoDup (map fst done ++ k :: map fst l)).
    { unfold is_dict in HD. rewrite HE, map_app in HD. exact HD. }
    assert (NI : ~ In k (map fst done) /\ ~ In k (map fst l)).
    { apply NoDup_remove_2 in ND. rewrite in_app_iff in ND. tauto. }
    assert (NI' : ~ In k (map fst (map (fun kf => (fst kf, initial (snd kf))) done))).
    { rewrite map_map. exact (proj1 NI). }
    assert (NX : forall x, In (k, x) ((k, x0) :: fs0) -> x = x0).
    { intros x [Hx|Hx]; [now injection Hx as ->|]. exfalso. apply (proj2 NI). rewrite <- HK. now apply (in_map fst) in Hx. }
    assert (HN : reset_loop C Cf (reset C Cf n) c (map (fun kf => (fst kf, initial (snd kf))) l)
       (map (fun kf => (fst kf, initial (snd kf))) done ++ (k, initial f) :: fs0) = Some (fresh c, None)).
    { specialize (IH fs0 (done ++ [(k, f)]) HC HD). rewrite <- app_assoc in IH. specialize (IH HE HK).
      rewrite map_app, <- app_assoc in IH. apply IH. intros k1 f1 H1. destruct (H k1 f1 (or_intror H1)) as (A & d & x & B & D & F).
      split; [exact A|]. exists d, x. split; [exact B|]. split; [|exact F].
      destruct D as [D|D]; [|exact D]. exfalso. injection D as -> ->. apply (proj2 NI). now apply (in_map fst) in H1. }
    destruct (H k f (or_introl eq_refl)) as (A & d & x & B & D & F).
    pose proof (NX x D) as ->.
    assert (HI : initial f = d) by (unfold initial; now rewrite B).
    cbn [map fst snd reset_loop]. rewrite HI in *.
    destruct F as [F|(c' & fs' & -> & -> & F)].
    + rewrite F, HC. cbn [negb andb]. rewrite (sget_here _ k f (C c)) by (exact HD || (rewrite HE; apply in_or_app; right; now left)).
      rewrite A. cbn [negb andb]. unfold assign.
      rewrite (sget_here _ k f (C c)) by (exact HD || (rewrite HE; apply in_or_app; right; now left)). rewrite A, HC. cbn [orb].
      rewrite sset_at by exact NI'. exact HN.
    + cbn [is_model fresh]. rewrite sget_at by exact NI'. rewrite F.
      rewrite sset_at by exact NI'. exact HN.
Qed.

(** C77: m.reset() makes m equal to a newly created model. *)
Theorem C77_reset_partial : forall n c fs, resettable n (TM c fs) ->
  forall m, n < m -> reset C Cf m (TM c fs) = Some (fresh c, None).
Proof.
  induction n as [|n IH]; intros c fs H m Hm; [destruct H|].
  destruct m as [|[|m]]; [lia|lia|]. destruct H as (HC & HD & HK & HF).
  cbn [reset]. cbn [defaults]. rewrite defaults_all.
  - apply (reset_steps (S m) c (C c) fs [] HC HD eq_refl HK). intros k f Hf.
    destruct (HF k f Hf) as (A & d & x & B & D & F). split; [exact A|]. exists d, x. split; [exact B|]. split; [exact D|].
    destruct F as [F|(c' & fs' & F1 & F2 & F3)]; [now left|]. right. exists c', fs'. split; [exact F1|]. split; [exact F2|].
    apply IH; [exact F3|lia].
  - intros k f Hf. destruct (HF k f Hf) as (A & d & x & B & D & F). exists d. split; [exact B|].
    destruct F as [F|(c' & fs' & -> & _)]; [tauto|discriminate].
Qed.

Lemma reset_flat : forall rec c l fs,
  (forall k d, In (k, d) l -> is_model d = false /\ exists f, sget k (C c) = Some f) ->
  is_dict l ->
  exists fs', reset_loop C Cf rec c l fs = Some (TM c fs', None) /\
    forall k, sget k fs' = match sget k l, sget k (C c) with
                           | Some d, Some f => if Cf c || fd_frozen f then sget k fs else Some d
                           | _, _ => sget k fs
                           end.
Proof.
  intros rec c l. induction l as [|[k d] l IH]; intros fs H HD; cbn [reset_loop].
  - exists fs. split; [reflexivity|]. reflexivity.
  - destruct (H k d (or_introl eq_refl)) as (A & f & B). rewrite A, B.
    unfold is_dict in HD. cbn in HD. apply NoDup_cons_iff in HD. destruct HD as [HN HD].
    assert (HL : sget k l = None).
    { destruct (sget k l) eqn:E; [|reflexivity]. exfalso. apply HN. apply sget_In in E; [|exact HD]. now apply (in_map fst) in E. }
    assert (HX : exists fs1, (if negb (Cf c) && negb (fd_frozen f)
        then match assign C Cf c k d fs with inl fs => reset_loop C Cf rec c l fs | inr e => Some (TM c fs, Some e) end
        else reset_loop C Cf rec c l fs) = reset_loop C Cf rec c l fs1 /\
        fs1 = if Cf c || fd_frozen f then fs else sset k d fs).
    { eexists. split; [|reflexivity]. unfold assign. rewrite B. now destruct (Cf c), (fd_frozen f). }
    destruct HX as (fs1 & -> & ->).
    destruct (IH (if Cf c || fd_frozen f then fs else sset k d fs)) as (fs' & E & F); [intros; apply H; now right|exact HD|].
    exists fs'. split; [exact E|]. intros j. rewrite F. cbn [sget]. destruct (String.eqb_spec j k) as [->|Hj].
    + rewrite HL, B. destruct (Cf c || fd_frozen f); [reflexivity|]. rewrite sget_sset, String.eqb_refl. reflexivity.
    + destruct (Cf c || fd_frozen f); [reflexivity|]. rewrite sget_sset.
      destruct (String.eqb_spec j k); [contradiction|]. reflexivity.
Qed.
(** C77: without nested models and factories, reset() always succeeds; frozen fields keep their values, the others get
    their defaults. *)
Theorem C77_frozen_partial : forall c fs m, 0 < m -> is_dict (C c) ->
  (forall k f, In (k, f) (C c) -> exists d, fd_default f = DVal d /\ is_model d = false /\ (d = TV VNone -> fd_model f = None)) ->
  exists fs', reset C Cf (S m) (TM c fs) = Some (TM c fs', None) /\
    forall k, sget k fs' = match sget k (C c) with
                           | Some f => if Cf c || fd_frozen f then sget k fs else Some (initial f)
                           | None => sget k fs
                           end.
Proof.
  intros c fs m Hm HD HF. destruct m as [|m]; [lia|]. cbn [reset defaults].
  rewrite defaults_all by (intros k f Hf; destruct (HF k f Hf) as (d & A & B & D); now exists d).
  assert (HS : forall k, sget k (map (fun kf => (fst kf, initial (snd kf))) (C c)) = option_map initial (sget k (C c))).
  { intros k. clear. induction (C c) as [|[j f] l IH]; cbn; [reflexivity|]. now destruct (String.eqb k j). }
  edestruct (reset_flat (reset C Cf (S m)) c (map (fun kf => (fst kf, initial (snd kf))) (C c)) fs) as (fs' & E & F).
  - intros k d Hk. apply in_map_iff in Hk. destruct Hk as ([j f] & Hj & Hf). cbn in Hj. injection Hj as -> <-.
    destruct (HF k f Hf) as (d & A & B & D). split; [unfold initial; now rewrite A|]. exists f. now apply sget_here.
  - unfold is_dict in *. now rewrite map_map.
  - exists fs'. split; [exact E|]. intros k. rewrite F, HS. now destruct (sget k (C c)).
Qed.

Lemma reset_app : forall rec c l1 l2 fs fs1, reset_loop C Cf rec c l1 fs = Some (TM c fs1, None) ->
  reset_loop C Cf rec c (l1 ++ l2) fs = reset_loop C Cf rec c l2 fs1.
Proof.
  intros rec c l1 l2. induction l1 as [|[k d] l1 IH]; intros fs fs1 H; cbn [app reset_loop] in *; [now injection H as ->|].
  destruct (is_model d).
  - destruct (sget k fs) as [[| | | |c' fs']|]; try discriminate. destruct (rec (TM c' fs')) as [[x [e|]]|]; try discriminate.
    now apply IH.
  - destruct (_ && _); [|now apply IH]. destruct (assign C Cf c k d fs) as [fs2|e]; [now apply IH|discriminate].
Qed.
(** C77: an exception while a nested model is reset ends the whole reset(): the fields before it have their defaults, those
    after it the values they had. *)
Theorem C77_raises : forall m c fs l1 k f l2 c' g x e, 0 < m -> is_dict (C c) -> C c = l1 ++ (k, f) :: l2 ->
  (forall j h, In (j, h) (C c) -> exists d, fd_default h = DVal d /\ (d = TV VNone -> fd_model h = None)) ->
  (forall j h d, In (j, h) l1 -> fd_default h = DVal d -> is_model d = false) ->
  is_model (initial f) = true -> In (k, TM c' g) fs -> is_dict fs -> reset C Cf m (TM c' g) = Some (x, Some e) ->
  exists fs', reset C Cf (S m) (TM c fs) = Some (TM c fs', Some e) /\
    forall j, sget j fs' = if String.eqb j k then Some x else
                           match sget j l1 with
                           | Some h => if Cf c || fd_frozen h then sget j fs else Some (initial h)
                           | None => sget j fs
                           end.
Proof.
  intros m c fs l1 k f l2 c' g x e Hm HD HC HA H1 HM HK HFs HR. destruct m as [|m]; [lia|]. cbn [reset defaults].
  rewrite defaults_all by exact HA. rewrite HC, map_app. cbn [map fst snd].
  assert (HS : forall j, sget j (map (fun kf => (fst kf, initial (snd kf))) l1) = option_map initial (sget j l1)).
  { intros j. clear. induction l1 as [|[i h] l IH]; cbn; [reflexivity|]. now destruct (String.eqb j i). }
  assert (HD1 : is_dict l1 /\ ~ In k (map fst l1)).
  { unfold is_dict in *. rewrite HC, map_app in HD. cbn in HD. split.
    { clear -HD. induction (map fst l1) as [|i l IH]; [constructor|]. cbn in HD. apply NoDup_cons_iff in HD. destruct HD as [A B].
      constructor; [|now apply IH]. intros HI. apply A. apply in_or_app. now left. }
    apply NoDup_remove_2 in HD. rewrite in_app_iff in HD. tauto. }
  destruct HD1 as [HD1 HN].
  edestruct (reset_flat (reset C Cf (S m)) c (map (fun kf => (fst kf, initial (snd kf))) l1) fs) as (fs1 & E & F).
  - intros j d Hj. apply in_map_iff in Hj. destruct Hj as ([i h] & Hi & Hh). cbn in Hi. injection Hi as -> <-.
    assert (HI : In (j, h) (C c)) by (rewrite HC; apply in_or_app; now left).
    destruct (HA j h HI) as (d & D1 & _). split; [|exists h; now apply sget_here].
    unfold initial. rewrite D1. now apply (H1 j h).
  - unfold is_dict in *. now rewrite map_map.
  - rewrite (reset_app _ _ _ _ _ _ E). cbn [reset_loop]. rewrite HM.
    assert (HL : sget k l1 = None).
    { destruct (sget k l1) eqn:EL; [|reflexivity]. exfalso. apply HN. apply sget_In in EL; [|exact HD1]. now apply (in_map fst) in EL. }
    assert (HG : sget k fs1 = Some (TM c' g)) by (rewrite F, HS, HL; cbn; now apply sget_here).
    rewrite HG, HR. eexists. split; [reflexivity|]. intros j. rewrite sget_sset.
    destruct (String.eqb_spec j k) as [->|Hj]; [reflexivity|]. rewrite F, HS.
    destruct (sget j l1) as [h|] eqn:EJ; cbn [option_map]; [|reflexivity].
    assert (HX : sget j (C c) = Some h).
    { apply sget_here; [exact HD|]. rewrite HC. apply in_or_app. left. now apply sget_In in EJ. }
    now rewrite HX.
Qed.

(** * C78 *)

(** Two models of the same class, nested less than n deep, with no frozen fields; where one has a model the other
    has one of the same class; no models inside other values. *)
Fixpoint similar (n : nat) (t1 t2 : tv) : Prop :=
  match n, t1, t2 with
  | S n, TM c f1, TM c' f2 =>
      c = c' /\ Cf c = false /\ is_dict f2 /\ map fst f1 = map fst f2 /\
      (forall k, In k (map fst f2) -> exists f, sget k (C c) = Some f /\ fd_frozen f = false) /\
      Forall2 (fun a b => similar n (snd a) (snd b)
                          \/ is_model (snd a) = false /\ is_model (snd b) = false /\ dump (snd b) = snd b) f1 f2
  | _, _, _ => False
  end.

Lemma dump_fields : forall c fs, dump (TM c fs) = TD (map (fun kx => (fst kx, dump (snd kx))) fs).
Proof. intros c fs. cbn. f_equal. induction fs as [|[k x] fs IH]; cbn; [reflexivity|]. now rewrite IH. Qed.
(** update() converts a model argument; a dict that comes from one has the same effect *)
Lemma update_dump : forall m r t c fs, update C Cf m r t (dump (TM c fs)) = update C Cf m r t (TM c fs).
Proof. intros [|m] r t c fs; [reflexivity|]. destruct t; reflexivity. Qed.

Lemma Forall2_mono : forall (A B : Type) (P Q : A -> B -> Prop) l l', (forall a b, P a b -> Q a b) -> Forall2 P l l' -> Forall2 Q l l'.
Proof. intros A B P Q l l' H. induction 1; constructor; auto. Qed.
Lemma update_steps : forall m c f1 f2 done,
  Cf c = false -> is_dict (done ++ f2) -> map fst f1 = map fst f2 ->
  (forall k, In k (map fst f2) -> exists f, sget k (C c) = Some f /\ fd_frozen f = false) ->
  Forall2 (fun a b => (exists c' g g', snd a = TM c' g /\ snd b = TM c' g' /\ update C Cf m true (snd a) (snd b) = Some (snd b, None))
                      \/ is_model (snd a) = false /\ is_model (snd b) = false /\ dump (snd b) = snd b) f1 f2 ->
  update_loop C Cf (update C Cf m true) true c (map (fun kx => (fst kx, dump (snd kx))) f2) (done ++ f1)
  = Some (TM c (done ++ f2), None).
Proof.
  intros m c f1 f2 done HC HD HK HF H. revert done HD HK HF.
  induction H as [|[k x] [k' y] f1 f2 Hxy H IH]; intros done HD HK HF; [reflexivity|].
  cbn [map fst snd] in HK. injection HK as -> HK. cbn [map fst snd update_loop].
  assert (NI : ~ In k' (map fst done)).
  { unfold is_dict in HD. rewrite map_app in HD. apply NoDup_remove_2 in HD. rewrite in_app_iff in HD. tauto. }
  rewrite sget_at by exact NI.
  specialize (IH (done ++ [(k', y)])). rewrite <- !app_assoc in IH. cbn [app] in IH.
  assert (IH' := IH HD HK (fun k Hk => HF k (or_intror Hk))). clear IH.
  cbn [snd] in Hxy. destruct Hxy as [(c' & g & g' & -> & -> & HU)|(A & B & D)].
  - cbn [is_model andb]. rewrite update_dump, HU. rewrite sset_at by exact NI. exact IH'.
  - rewrite A, D. cbn [andb]. unfold assign. destruct (HF k' (or_introl eq_refl)) as (f & F1 & F2). rewrite F1, F2, HC.
    cbn [orb]. rewrite sset_at by exact NI. exact IH'.
Qed.
(** C78: after m.update(other), m is equal to other. *)
Theorem C78_update_partial : forall n t1 t2, similar n t1 t2 ->
  forall m, n <= m -> update C Cf m true t1 t2 = Some (t2, None).
Proof.
  induction n as [|n IH]; intros t1 t2 H m Hm; [destruct H|].
  destruct t1 as [| | | |c f1]; try now destruct H.
  destruct t2 as [| | | |c' f2]; try now destruct H.
  destruct H as (<- & HC & HD & HK & HF & HA). destruct m as [|m]; [lia|].
  cbn [update]. rewrite dump_fields.
  apply (update_steps m c f1 f2 [] HC HD HK HF).
  eapply Forall2_mono; [|exact HA]. intros [k x] [k' y] [HS|HS]; cbn [snd] in *; [|now right].
  left. pose proof (IH x y HS m ltac:(lia)) as HU. destruct n as [|n]; [destruct HS|].
  destruct x as [| | | |c1 g]; try now destruct HS.
  destruct y as [| | | |c2 g']; try now destruct HS.
  destruct HS as (<- & _). now exists c1, g, g'.
Qed.

(** C78: an exception while a nested model is updated ends the whole update(). *)
Theorem C78_raises : forall m c vs k v rest fs c' g x e,
  Cf c = false -> is_dict (vs ++ (k, v) :: rest) ->
  (forall j y, In (j, y) vs -> (exists z, In (j, z) fs /\ is_model z = false) /\ exists f, sget j (C c) = Some f /\ fd_frozen f = false) ->
  is_dict fs -> In (k, TM c' g) fs -> update C Cf m true (TM c' g) v = Some (x, Some e) ->
  exists fs', update C Cf (S m) true (TM c fs) (TD (vs ++ (k, v) :: rest)) = Some (TM c fs', Some e) /\
    forall j, sget j fs' = if String.eqb j k then Some x else match sget j vs with Some y => Some y | None => sget j fs end.
Proof.
  intros m c vs k v rest fs c' g x e HC HD HV HF HK HU. cbn [update].
  assert (HG : sget k fs = Some (TM c' g)) by now apply sget_here.
  assert (HV' : forall j y, In (j, y) vs -> (exists z, sget j fs = Some z /\ is_model z = false) /\ exists f, sget j (C c) = Some f /\ fd_frozen f = false).
  { intros j y Hj. destruct (HV j y Hj) as ((z & Z1 & Z2) & R). split; [|exact R]. exists z. split; [now apply sget_here|exact Z2]. }
  clear HV HF HK. revert fs HG HV'. induction vs as [|[j y] vs IH]; intros fs HG HV; cbn [app update_loop sget].
  - rewrite HG. cbn [is_model andb]. rewrite HU. eexists. split; [reflexivity|]. intros j. now rewrite sget_sset.
  - destruct (HV j y (or_introl eq_refl)) as ((z & Z1 & Z2) & f & F1 & F2). rewrite Z1, Z2. cbn [andb].
    unfold assign. rewrite F1, F2, HC. cbn [orb].
    unfold is_dict in HD. cbn in HD. apply NoDup_cons_iff in HD. destruct HD as [HN HD].
    rewrite map_app, in_app_iff in HN. cbn [map fst In] in HN.
    destruct (IH HD (sset j y fs)) as (fs' & A & B).
    + rewrite sget_sset. destruct (String.eqb_spec k j) as [->|]; [tauto|exact HG].
    + intros i w Hi. rewrite sget_sset. destruct (String.eqb_spec i j) as [->|].
      * exfalso. apply HN. left. now apply (in_map fst) in Hi.
      * apply (HV i w). now right.
    + exists fs'. split; [exact A|]. intros i. rewrite B. destruct (String.eqb i k); [reflexivity|].
      rewrite sget_sset. destruct (String.eqb_spec i j) as [->|]; [|reflexivity].
      destruct (sget j vs) eqn:EV; [|reflexivity]. exfalso. apply HN. left. apply (proj1 (sget_keys _ _)). now rewrite EV.
Qed.

(** C78: m.update(values, recurse=False) assigns the values one by one, in their order, up to the first key that m
    does not have (AttributeError) or that is frozen (ValidationError). *)
Theorem C78_flat : forall m c vs rest fs,
  Cf c = false ->
  (forall k x, In (k, x) vs -> In k (map fst fs) /\ exists f, sget k (C c) = Some f /\ fd_frozen f = false) ->
  is_dict (vs ++ rest) ->
  match rest with
  | [] => True
  | (k, _) :: _ => ~ In k (map fst fs) \/ (forall f, sget k (C c) = Some f -> fd_frozen f = true)
  end ->
  exists fs' e, update C Cf (S m) false (TM c fs) (TD (vs ++ rest)) = Some (TM c fs', e) /\
    e = match rest with [] => None | (k, _) :: _ => Some (if mem k (map fst fs) then EValue else EAttribute) end /\
    forall k, sget k fs' = match sget k vs with Some x => Some x | None => sget k fs end.
Proof.
  intros m c vs rest fs HC HV HD HR. cbn [update]. generalize (update C Cf m false). intros rec.
  revert fs HV HR. induction vs as [|[k x] vs IH]; intros fs HV HR; cbn [app update_loop sget].
  - destruct rest as [|[k x] rest]; cbn [update_loop].
    + exists fs, None. repeat split; reflexivity.
    + destruct (sget k fs) as [cur|] eqn:E.
      * rewrite Bool.andb_false_r. unfold assign.
        assert (HX : match sget k (C c) with Some f => fd_frozen f = true | None => True end).
        { destruct (sget k (C c)) eqn:E'; [|exact I]. destruct HR as [HR|HR]; [|now apply HR].
          exfalso. apply HR. apply (proj1 (sget_keys k fs)). now rewrite E. }
        destruct (sget k (C c)); [rewrite HX, Bool.orb_true_r|]; exists fs; eexists; (split; [reflexivity|]);
          (split; [|reflexivity]); rewrite (proj2 (mem_In k (map fst fs))); [reflexivity| |reflexivity|];
          apply (proj1 (sget_keys k fs)); now rewrite E.
      * exists fs; eexists. split; [reflexivity|]. split; [|reflexivity].
        rewrite (proj2 (mem_not_In k (map fst fs))); [reflexivity|]. intros HI. now apply (proj2 (sget_keys k fs)) in HI.
  - destruct (HV k x (or_introl eq_refl)) as (A & f & B & D).
    destruct (sget k fs) as [cur|] eqn:E; [|exfalso; apply (proj2 (sget_keys k fs)) in A; now rewrite E in A].
    rewrite Bool.andb_false_r. unfold assign. rewrite B, D, HC. cbn [orb].
    unfold is_dict in HD. cbn in HD. apply NoDup_cons_iff in HD. destruct HD as [HN HD].
    destruct (IH HD (sset k x fs)) as (fs' & e & F & G & K).
    + intros j y Hj. split; [apply (proj1 (sget_keys _ _)); rewrite sget_sset; destruct (String.eqb j k); [discriminate|];
        apply (proj2 (sget_keys _ _)); apply (HV j y); now right|]. apply (HV j y). now right.
    + destruct rest as [|[j y] rest]; [exact I|]. destruct HR as [HR|HR]; [|now right]. left. intros HI. apply HR.
      apply (proj2 (sget_keys _ _)) in HI. rewrite sget_sset in HI. destruct (String.eqb_spec j k) as [->|].
      * exfalso. apply HN. rewrite map_app, in_app_iff. right. now left.
      * now apply (proj1 (sget_keys _ _)).
    + exists fs', e. split; [exact F|]. split.
      { rewrite G. destruct rest as [|[j y] rest]; [reflexivity|]. do 2 f_equal.
        assert (HM : mem j (map fst (sset k x fs)) = mem j (map fst fs)); [|now rewrite HM].
        apply Bool.eq_iff_eq_true. rewrite !mem_In, <- !sget_keys, sget_sset.
        destruct (String.eqb_spec j k) as [->|]; [|reflexivity]. split; [congruence|discriminate]. }
      intros j. rewrite K, sget_sset.
      destruct (String.eqb_spec j k) as [->|]; [|reflexivity].
      destruct (sget k vs) eqn:E'; [|reflexivity]. exfalso. apply HN. rewrite map_app, in_app_iff. left.
      apply (proj1 (sget_keys _ _)). now rewrite E'.
Qed.
(** C78: a value that is neither a dict nor a model raises TypeError and assigns nothing. *)
Theorem C78_type : forall m recurse c fs v,
  (forall d, v <> TD d) -> (forall c' fs', v <> TM c' fs') ->
  update C Cf (S m) recurse (TM c fs) v = Some (TM c fs, Some EType).
Proof. intros m recurse c fs v H H'. destruct v; try reflexivity; [now destruct (H d)|now destruct (H' c0 fs0)]. Qed.

End Tree.

(** Class 0: x = 1, y = 2.  Class 1: a = 0, inner = Inner().  Class 2: l has default_factory=list.  Class 3: r has no default.
    Class 4: inner = Inner(x=5).  Class 5: inner has default_factory=Inner and annotation Inner.  Class 6: items = [].  Class 7: z = 1 is
    frozen, w = 2. *)
Definition tplain (v : Z) : fdesc := Fdesc (DVal (TV (VInt v))) false None.
Definition inner_of (x y : Z) : tv := TM 0 [("x", TV (VInt x)); ("y", TV (VInt y))].
Definition tC (c : nat) : list (string * fdesc) :=
  match c with
  | 0 => [("x", tplain 1); ("y", tplain 2)]
  | 1 => [("a", tplain 0); ("inner", Fdesc (DVal (inner_of 1 2)) false (Some 0))]
  | 2 => [("l", Fdesc (DFactory (TL [])) false None)]
  | 3 => [("r", Fdesc DRequired false None)]
  | 4 => [("inner", Fdesc (DVal (inner_of 5 2)) false (Some 0))]
  | 5 => [("inner", Fdesc (DFactory (inner_of 1 2)) false (Some 0))]
  | 6 => [("items", Fdesc (DVal (TL [])) false None)]
  | _ => [("z", Fdesc (DVal (TV (VInt 1))) true None); ("w", tplain 2)]
  end.
Definition tCf (c : nat) : bool := false.
Definition outer (a x y : Z) : tv := TM 1 [("a", TV (VInt a)); ("inner", inner_of x y)].

Lemma inner_resettable : forall x y, resettable tC tCf 1 (inner_of x y).
Proof.
  intros x y. cbn. split; [reflexivity|]. split; [repeat constructor; cbn; intuition discriminate|]. split; [reflexivity|].
  intros k f [H|[H|[]]]; injection H as <- <-; (split; [reflexivity|]); eexists; eexists; (split; [reflexivity|]);
    (split; [now (left + (right; left))|]); left; (split; [reflexivity|discriminate]).
Qed.
Example C77_reset_case : resettable tC tCf 2 (outer 7 8 9) /\ reset tC tCf 3 (outer 7 8 9) = Some (outer 0 1 2, None)
  /\ fresh tC 1 = outer 0 1 2.
Proof.
  split; [|split; reflexivity].
  split; [reflexivity|]. split; [repeat constructor; cbn; intuition discriminate|]. split; [reflexivity|].
  intros k f [H|[H|[]]]; injection H as <- <-; (split; [reflexivity|]); eexists; eexists; (split; [reflexivity|]).
  - split; [now left|]. left. split; [reflexivity|discriminate].
  - split; [right; now left|]. right. exists 0, [("x", TV (VInt 8)); ("y", TV (VInt 9))]. split; [reflexivity|]. split; [reflexivity|]. apply inner_resettable.
Qed.
Example C77_frozen_case : reset tC tCf 2 (TM 7 [("z", TV (VInt 5)); ("w", TV (VInt 6))])
  = Some (TM 7 [("z", TV (VInt 5)); ("w", TV (VInt 2))], None) /\ is_dict (tC 7)
  /\ forall k f, In (k, f) (tC 7) -> exists d, fd_default f = DVal d /\ is_model d = false /\ (d = TV VNone -> fd_model f = None).
Proof.
  split; [reflexivity|]. split; [repeat constructor; cbn; intuition discriminate|].
  intros k f [H|[H|[]]]; injection H as <- <-; eexists; (split; [reflexivity|]); (split; [reflexivity|discriminate]).
Qed.
(** Class 8: b = 3, deep = an instance of class 1, e = 4; the model nested twice was replaced by None. *)
Definition tC8 (c : nat) : list (string * fdesc) :=
  match c with
  | 8 => [("b", tplain 3); ("deep", Fdesc (DVal (outer 0 1 2)) false (Some 1)); ("e", tplain 4)]
  | c => tC c
  end.
Example C77_raises_case :
  let broken := TM 1 [("a", TV (VInt 6)); ("inner", TV VNone)] in
  reset tC8 tCf 2 broken = Some (TM 1 [("a", TV (VInt 0)); ("inner", TV VNone)], Some EAttribute)
  /\ reset tC8 tCf 3 (TM 8 [("b", TV (VInt 7)); ("deep", broken); ("e", TV (VInt 9))])
     = Some (TM 8 [("b", TV (VInt 3)); ("deep", TM 1 [("a", TV (VInt 0)); ("inner", TV VNone)]); ("e", TV (VInt 9))], Some EAttribute)
  /\ is_dict (tC8 8) /\ is_model (initial (Fdesc (DVal (outer 0 1 2)) false (Some 1))) = true
  /\ forall j h, In (j, h) (tC8 8) -> exists d, fd_default h = DVal d /\ (d = TV VNone -> fd_model h = None).
Proof.
  split; [reflexivity|]. split; [reflexivity|]. split; [repeat constructor; cbn; intuition discriminate|]. split; [reflexivity|].
  intros j h [H|[H|[H|[]]]]; injection H as <- <-; eexists; (split; [reflexivity|discriminate]).
Qed.
Example C78_raises_case :
  let fs := [("a", TV (VInt 6)); ("inner", inner_of 8 9)] in
  update tC tCf 1 true (inner_of 8 9) (TD [("y", TV (VInt 3)); ("q", TV (VInt 1))]) = Some (inner_of 8 3, Some EAttribute)
  /\ is_dict fs /\ In ("inner", TM 0 [("x", TV (VInt 8)); ("y", TV (VInt 9))]) fs
  /\ update tC tCf 2 true (TM 1 fs) (TD ([("a", TV (VInt 1))] ++ [("inner", TD [("y", TV (VInt 3)); ("q", TV (VInt 1))])]))
     = Some (TM 1 [("a", TV (VInt 1)); ("inner", inner_of 8 3)], Some EAttribute).
Proof.
  split; [reflexivity|]. split; [repeat constructor; cbn; intuition discriminate|]. split; [right; now left|reflexivity].
Qed.
(** False of the code: the result is not a new model.  A field with a default_factory becomes None, a required field
    becomes PydanticUndefined, a default Inner(x=5) becomes Inner(), and a field with a factory and a model class as its
    annotation becomes a dict. *)
Theorem C77_refuted :
  reset tC tCf 3 (fresh tC 2) = Some (TM 2 [("l", TV VNone)], None) /\ fresh tC 2 = TM 2 [("l", TL [])]
  /\ reset tC tCf 3 (TM 3 [("r", TV (VInt 1))]) = Some (TM 3 [("r", TUndef)], None)
  /\ reset tC tCf 3 (fresh tC 4) = Some (TM 4 [("inner", inner_of 1 2)], None) /\ fresh tC 4 = TM 4 [("inner", inner_of 5 2)]
  /\ reset tC tCf 3 (fresh tC 5) = Some (TM 5 [("inner", TD [("x", TV (VInt 1)); ("y", TV (VInt 2))])], None)
  /\ reset tC tCf 3 (TM 1 [("a", TV (VInt 0)); ("inner", TV VNone)])
     = Some (TM 1 [("a", TV (VInt 0)); ("inner", TV VNone)], Some EAttribute).
Proof. repeat split; reflexivity. Qed.

Example C78_update_case : similar tC tCf 2 (outer 7 8 9) (outer 1 2 3)
  /\ update tC tCf 2 true (outer 7 8 9) (outer 1 2 3) = Some (outer 1 2 3, None).
Proof.
  split; [|reflexivity].
  assert (HI : forall k, In k ["x"; "y"] -> exists f, sget k (tC 0) = Some f /\ fd_frozen f = false).
  { intros k [<-|[<-|[]]]; eexists; split; reflexivity. }
  split; [reflexivity|]. split; [reflexivity|]. split; [repeat constructor; cbn; intuition discriminate|]. split; [reflexivity|].
  split; [intros k [<-|[<-|[]]]; eexists; split; reflexivity|].
  constructor; [right; repeat split; reflexivity|]. constructor; [|constructor]. left.
  split; [reflexivity|]. split; [reflexivity|]. split; [repeat constructor; cbn; intuition discriminate|]. split; [reflexivity|].
  split; [exact HI|]. repeat (constructor; [right; repeat split; reflexivity|]). constructor.
Qed.
Example C78_type_case :
  let v := TL [TD [("x", TV (VInt 1))]] in (forall d, v <> TD d) /\ (forall c fs, v <> TM c fs).
Proof. split; intros; discriminate. Qed.
Example C78_flat_case :
  update tC tCf 1 false (inner_of 7 8) (TD [("y", TV (VInt 3)); ("q", TV (VInt 1)); ("x", TV (VInt 2))])
    = Some (inner_of 7 3, Some EAttribute)
  /\ (forall k x, In (k, x) [("y", TV (VInt 3))] -> In k (map fst [("x", TV (VInt 7)); ("y", TV (VInt 8))])
        /\ exists f, sget k (tC 0) = Some f /\ fd_frozen f = false)
  /\ is_dict [("y", TV (VInt 3)); ("q", TV (VInt 1)); ("x", TV (VInt 2))]
  /\ ~ In "q" (map fst [("x", TV (VInt 7)); ("y", TV (VInt 8))]).
Proof.
  split; [reflexivity|]. split; [|split; [repeat constructor; cbn; intuition discriminate|cbn; intuition discriminate]].
  intros k x [H|[]]. injection H as <- <-. split; [right; now left|]. eexists. split; reflexivity.
Qed.
(** False of the code: with recurse=False a model argument leaves a dict where the nested model was; models in lists become
    dicts; an unknown key raises AttributeError after the keys before it have been assigned. *)
Theorem C78_refuted :
  update tC tCf 3 false (outer 7 8 9) (outer 1 2 3)
    = Some (TM 1 [("a", TV (VInt 1)); ("inner", TD [("x", TV (VInt 2)); ("y", TV (VInt 3))])], None)
  /\ update tC tCf 3 true (TM 6 [("items", TL [])]) (TM 6 [("items", TL [inner_of 1 2])])
    = Some (TM 6 [("items", TL [TD [("x", TV (VInt 1)); ("y", TV (VInt 2))]])], None)
  /\ update tC tCf 3 true (inner_of 7 8) (TD [("y", TV (VInt 3)); ("q", TV (VInt 1))]) = Some (inner_of 7 3, Some EAttribute).
Proof. repeat split; reflexivity. Qed.

Print Assumptions C77_reset_partial.
Print Assumptions C77_frozen_partial.
Print Assumptions C77_raises.
Print Assumptions C78_raises.
Print Assumptions C77_refuted.
Print Assumptions C78_update_partial.
Print Assumptions C78_flat.
Print Assumptions C78_type.
Print Assumptions C78_refuted.
