(** Connections, continued: C04, C14, C21, C27, C30. *)

From Verif Require Import Base Core Frame Fuel Conn Keep Spec Trace Inv Dead Rest Quiet
  Emission Gone Shrink Arity Demo PropsConn.
Open Scope Z_scope.
Open Scope string_scope.
Open Scope nat_scope.
Open Scope list_scope.

(** * C14 *)

(** A signal with only partial(f, 1) connected contains partial(f, 2), and
    disconnect(partial(f, 2)) disconnects partial(f, 1). *)
Definition part (f : oid) (n : Z) : callable := CPartial (BFunc f) [VInt n] [].
Theorem C14_refuted_partial : exists (E : env unit) w w1 w2,
  reachable E w /\ s_slots (w_sg w 0) = []
  /\ steps E (OConnect 0 (part 1 1) default_opts) w w1 (Ok VNone)
  /\ steps E (OContains 0 (part 1 2)) w1 w1 (Ok (VBool true))
  /\ steps E (ODisconnect 0 (Some (RCallable (part 1 2))) false) w1 w2 (Ok VNone)
  /\ s_slots (w_sg w2 0) = [].
Proof.
  pose (E := demo (U:=unit) (fun _ _ => Ret VNone)).
  pose (w := world_of E (all_plain Immediate 1) tt 50 []).
  pose (w1 := after1 E 5 (OConnect 0 (part 1 1) default_opts) w).
  exists E, w, w1, (after1 E 5 (ODisconnect 0 (Some (RCallable (part 1 2))) false) w1).
  split; [reach|]. split; [reflexivity|]. split; [ran|]. split; [now exists 5|]. split; [ran|]. reflexivity.
Qed.
(** Two different functions of the same name as methods of the same object. *)
Definition C14_env : env unit :=
  Env (e_body C12_env) (e_lib C12_env) (e_weakref C12_env) (fun _ => "f") (e_sig C12_env)
      (e_subclass C12_env) (e_type C12_env) (e_hasattr C12_env).
Theorem C14_refuted_name : exists w w1,
  reachable C14_env w /\ s_slots (w_sg w 0) = []
  /\ steps C14_env (OConnect 0 (meth 7 1) default_opts) w w1 (Ok VNone)
  /\ steps C14_env (OContains 0 (meth 7 2)) w1 w1 (Ok (VBool true)).
Proof.
  pose (w := world_of C14_env (all_plain Immediate 1) tt 50 []).
  exists w, (after1 C14_env 5 (OConnect 0 (meth 7 1) default_opts) w).
  split; [reach|]. split; [reflexivity|]. split; [ran|]. now exists 5.
Qed.
(** Missing for the full property: bound arguments, and the function itself for methods. *)
Lemma same_key : forall U (E : env U) c d k, key_of E c = inl k -> key_of E d = inl k -> same_receiver E c d.
Proof.
  intros U E c d k. unfold key_of, weak_callback, weak_setattr, weak_setitem, try_ref, same_receiver.
  destruct (callable_base c) as [f|o f|o n| |o|rl] eqn:Hc, (callable_base d) as [g|p g|p m| |p|rp] eqn:Hd;
    intros H1 H2;
    repeat (dm H1; try discriminate); repeat (dm H2; try discriminate);
    cbn [w_key] in *; try discriminate H1; try discriminate H2;
    repeat match goal with H : inl _ = inl _ |- _ => injection H as H end;
    repeat match goal with H : String.eqb _ _ = true |- _ => apply String.eqb_eq in H end;
    cbn [w_key] in *; subst; cbn [w_key] in *; try discriminate; try congruence;
    try (injection H2; clear H2; intros; subst; split; congruence);
    try (injection H2; clear H2; intros; subst; reflexivity).
  all: injection H2 as <- <-; reflexivity.
Qed.
Theorem C14_receiver_partial : forall U (E0 E : env U) s c d o w w1,
  reachable E0 w ->
  steps E (OContains s d) w w (Ok (VBool false)) ->
  steps E (OConnect s c o) w w1 (Ok VNone) ->
  steps E (OContains s d) w1 w1 (Ok (VBool true)) ->
  same_receiver E c d.
Proof.
  intros U E0 E s c d o w w1 HR H0 HC H1.
  destruct (key_of E d) as [k|e] eqn:Hk.
  2:{ apply steps_pure in H0; [|reflexivity]. unfold pure_step in H0. cbn [step] in H0. rewrite Hk in H0. discriminate. }
  apply (C12_in _ E s d k _ _ _ Hk) in H0 as (_ & b & Hb & H0). injection Hb as <-.
  apply (C12_in _ E s d k _ _ _ Hk) in H1 as (_ & b & Hb & H1). injection Hb as <-.
  destruct (proj1 H1 eq_refl) as (x & Hx & Hxk).
  destruct (C12_connect _ E0 E s c o w w1 _ HR HC) as [(_ & e & He)|[(-> & _)|(_ & y & a & b & Hy & _ & Ha & Hb & _)]].
  - discriminate.
  - exfalso. assert (false = true) by (apply H0; eauto). discriminate.
  - rewrite Hb in Hx. apply in_elt_inv in Hx as [<-|Hx].
    + rewrite Hxk in Hy. eapply same_key; eauto.
    + exfalso. rewrite <- Ha in Hx. assert (false = true) by (apply H0; eauto). discriminate.
Qed.
Example C14_case :
  let w1 := after1 C12_env 5 (OConnect 0 (part 4 1) default_opts) C12_world in
  reachable C12_env C12_world
  /\ outcome1 C12_env 5 (OContains 0 (part 4 2)) C12_world = Some (Ok (VBool false))
  /\ outcome1 C12_env 5 (OConnect 0 (part 4 1) default_opts) C12_world = Some (Ok VNone)
  /\ outcome1 C12_env 5 (OContains 0 (part 4 2)) w1 = Some (Ok (VBool true)).
Proof. cbv zeta. split; [reach|]. vm_compute. repeat split. Qed.
Print Assumptions C14_refuted_partial.
Print Assumptions C14_refuted_name.
Print Assumptions C14_receiver_partial.

(** * C04 *)

Definition checks_nargs (st : sigst) (o : copts) : Prop :=
  c_max o = None /\ match c_check_nargs o with Some b => b = true | None => s_chkn st = true end.
Definition no_type_check (st : sigst) (o : copts) : Prop :=
  match c_check_types o with Some b => b = false | None => s_chkt st = false end.

Lemma weak_callback_any : forall U (E : env U) c m1 p1 u1 m2 p2 u2 x,
  weak_callback E c m1 RefIgnore p1 u1 = inl x ->
  exists y, weak_callback E c m2 RefIgnore p2 u2 = inl y /\ w_maxargs y = m2 /\ w_target y = w_target x.
Proof.
  intros U E c m1 p1 u1 m2 p2 u2 x H. unfold weak_callback, weak_setattr, weak_setitem, try_ref in *.
  destruct (callable_base c); repeat (dm H; try discriminate); injection H as <-; cbn;
    eexists; repeat split; reflexivity.
Qed.
(** What connect does when only the number of arguments is checked. *)
Lemma connect_checked : forall U (E : env U) s c o k ps w,
  callable_dead w c = false -> key_of E c = inl k -> c_unique o = UFalse ->
  e_sig E c = SSig ps -> checks_nargs (w_sg w s) o -> no_type_check (w_sg w s) o ->
  match posarg_range ps true with
  | inr e => connect E s c o w = (w, Err EValue)
  | inl (mn, mx) =>
      if Nat.ltb (List.length (s_params (w_sg w s))) mn then connect E s c o w = (w, Err EValue)
      else exists x, connect E s c o w = (add_wcb s x w, Ok VNone) /\ w_maxargs x = option_map Z.of_nat mx
                     /\ w_key x = k
  end.
Proof.
  intros U E s c o k ps w Hd Hk Hu Hs [Hm Hn] Ht. unfold connect. rewrite Hd, Hu, Hm.
  assert (HN : (match c_check_nargs o with Some b => b | None => s_chkn (w_sg w s) end) = true)
    by (destruct (c_check_nargs o); auto).
  assert (HT : (match c_check_types o with Some b => b | None => s_chkt (w_sg w s) end) = false)
    by (unfold no_type_check in Ht; destruct (c_check_types o); auto).
  cbv zeta. rewrite HN, HT. unfold check_nargs. rewrite Hs.
  unfold posarg_range. destruct (scan_params true ps 0 0 false) as [[[req op] ul]|e] eqn:HS.
  - destruct (Nat.ltb _ req); [reflexivity|].
    unfold key_of in Hk. destruct (weak_callback E c None RefIgnore 0%Z 0) as [x|] eqn:HW; [|discriminate].
    destruct (weak_callback_any _ E c None 0%Z 0 (option_map Z.of_nat (if ul then None else Some (req + op))) (c_prio o) (w_nxt w) x HW) as (y & Hy & Hym & _).
    rewrite Hy. eexists. split; [reflexivity|]. split; [exact Hym|]. injection Hk as <-. cbn [w_key set_thread].
    clear - HW Hy. unfold weak_callback, weak_setattr, weak_setitem, try_ref in *.
    destruct (callable_base c); repeat (dm HW; try discriminate); injection HW as <-; injection Hy as <-; reflexivity.
  - assert (e = EValue); [|congruence]. clear - HS. revert HS.
    generalize 0 at 1 as a; generalize 0 as b; generalize false as u.
    induction ps as [|p ps IH]; intros u b a HS; cbn in HS; [discriminate|].
    destruct (p_kind p); eauto; destruct (p_default p); cbn in HS; eauto. now injection HS as <-.
Qed.
Lemma posarg_le : forall ps mn m, posarg_range ps true = inl (mn, Some m) -> mn <= m.
Proof.
  intros ps mn m H. unfold posarg_range in H.
  destruct (scan_params true ps 0 0 false) as [[[req op] [|]]|e]; try discriminate. injection H as <- <-. lia.
Qed.
Theorem C04_accepts : forall U (E : env U) s c o k ps w w' r,
  callable_dead w c = false -> key_of E c = inl k -> c_unique o = UFalse ->
  e_sig E c = SSig ps -> well_formed ps ->
  checks_nargs (w_sg w s) o -> no_type_check (w_sg w s) o ->
  steps E (OConnect s c o) w w' r ->
  (r = Ok VNone <-> exists n, n <= List.length (s_params (w_sg w s)) /\ accepts ps n)
  /\ (r <> Ok VNone -> r = Err EValue /\ w' = w).
Proof.
  intros U E s c o k ps w w' r Hd Hk Hu Hs Hw Hn Ht HS. apply steps_pure in HS; [|reflexivity]. injection HS as HS.
  pose proof (connect_checked _ E s c o k ps w Hd Hk Hu Hs Hn Ht) as HC.
  pose proof (posarg_range_ok ps Hw) as HP.
  destruct (posarg_range ps true) as [[mn mx]|e] eqn:HPR.
  - destruct (Nat.ltb _ mn) eqn:HL.
    + apply Nat.ltb_lt in HL. rewrite HS in HC. injection HC as -> ->. split; [|auto]. split; [discriminate|].
      intros (n & Hle & Ha). apply HP in Ha. lia.
    + apply Nat.ltb_ge in HL. destruct HC as (x & HC & _). rewrite HS in HC. injection HC as -> ->. split; [|congruence].
      split; [|reflexivity]. intros _. exists mn. split; [exact HL|]. apply HP. split; [lia|].
      destruct mx as [m|]; [|exact I]. eapply posarg_le; eauto.
  - rewrite HS in HC. injection HC as -> ->. split; [|auto]. split; [discriminate|].
    intros (n & _ & Ha). exfalso. eapply HP; eauto.
Qed.
(** Every later emission of at least the declared number of arguments passes a number of
    arguments that the callback accepts ([due]: what an emission owes a callback, C02). *)
Lemma py_take_length : forall m (l : list val), List.length (py_take (Z.of_nat m) l) = Nat.min m (List.length l).
Proof.
  intros m l. unfold py_take. destruct (Z.ltb_spec (Z.of_nat m) 0); [lia|].
  rewrite Nat2Z.id. apply firstn_length.
Qed.
Theorem C04_arguments : forall U (E0 E : env U) s c o k ps w w',
  reachable E0 w ->
  callable_dead w c = false -> key_of E c = inl k -> c_unique o = UFalse ->
  e_sig E c = SSig ps -> well_formed ps ->
  checks_nargs (w_sg w s) o -> no_type_check (w_sg w s) o ->
  steps E (OConnect s c o) w w' (Ok VNone) ->
  exists x pre post, s_slots (w_sg w s) = pre ++ post /\ s_slots (w_sg w' s) = pre ++ x :: post
    /\ w_key x = k
    /\ forall me args a, List.length (s_params (w_sg w s)) <= List.length args -> setter x = false ->
         due me args x = Called (w_uid x) a -> accepts ps (List.length a).
Proof.
  intros U E0 E s c o k ps w w' HR Hd Hk Hu Hs Hw Hn Ht HS. apply steps_pure in HS; [|reflexivity]. injection HS as HS.
  pose proof (connect_checked _ E s c o k ps w Hd Hk Hu Hs Hn Ht) as HC.
  pose proof (posarg_range_ok ps Hw) as HP.
  destruct (posarg_range ps true) as [[mn mx]|e] eqn:HPR; [|congruence].
  destruct (Nat.ltb _ mn) eqn:HL; [congruence|]. apply Nat.ltb_ge in HL.
  destruct HC as (x & HC & Hm & Hxk). rewrite HS in HC. injection HC as ->.
  destruct (add_wcb_self s x w (reachable_flat E0 w HR)) as (a & b & Ha & Hb).
  exists x, a, b. repeat (split; [assumption|]). intros me args l Hle Hset HD.
  assert (l = match w_maxargs x with None => args | Some m => py_take m args end).
  { unfold due in HD. unfold setter in Hset.
    destruct (w_target x); try discriminate Hset; (destruct (w_thread x) as [t|]; [destruct (Nat.eqb t me)|];
      [injection HD as <-; reflexivity|discriminate HD|injection HD as <-; reflexivity]). }
  apply HP. rewrite Hm in H. subst l. destruct mx as [m|]; cbn [option_map].
  - rewrite py_take_length. pose proof (posarg_le ps mn m HPR). lia.
  - lia.
Qed.
(** def f(a, b, c=0, *, k=0) connected to a signal of three arguments, and one that needs
    four arguments. *)
Definition C04_params (n : nat) : list param :=
  repeat (Param PosOrKw false AEmpty) n ++ [Param PosOrKw true AEmpty] ++ [] ++ [Param KwOnly true AEmpty] ++ [].
Definition C04_env : env unit :=
  Env (e_body C12_env) (e_lib C12_env) (e_weakref C12_env) (e_fname C12_env)
      (fun c => match c with CBase (BFunc n) => SSig (C04_params n) | _ => SNone end)
      (e_subclass C12_env) (e_type C12_env) (e_hasattr C12_env).
Lemma C04_well_formed : forall n, well_formed (C04_params n).
Proof.
  intros n. exists (repeat (Param PosOrKw false AEmpty) n), [Param PosOrKw true AEmpty], [], [Param KwOnly true AEmpty], [].
  split; [reflexivity|]. split. { apply Forall_forall. intros p Hp. apply repeat_spec in Hp as ->. cbn; auto. }
  split; [constructor; [cbn; auto|constructor]|]. split; [cbn; lia|]. split; [constructor|].
  split; [repeat constructor|]. split; [cbn; lia|constructor].
Qed.
Example C04_case :
  let w := world_of C04_env (all_plain Immediate 3) tt 50 [conn 0 1 0] in
  let w' := after1 C04_env 5 (conn 0 2 0) w in
  reachable C04_env w /\ callable_dead w (fn 2) = false /\ key_of C04_env (fn 2) = inl (KFunc 2)
  /\ e_sig C04_env (fn 2) = SSig (C04_params 2) /\ well_formed (C04_params 2)
  /\ checks_nargs (w_sg w 0) (prio 0) /\ no_type_check (w_sg w 0) (prio 0)
  /\ outcome1 C04_env 5 (conn 0 2 0) w = Some (Ok VNone)
  /\ outcome1 C04_env 5 (conn 0 4 0) w = Some (Err EValue)
  /\ map (due 0 [VInt 1; VInt 2; VInt 3; VInt 4]) (s_slots (w_sg w' 0))
     = [Called 0 [VInt 1; VInt 2]; Called 1 [VInt 1; VInt 2; VInt 3]].
Proof.
  cbv zeta. split; [reach|]. split; [reflexivity|]. split; [reflexivity|]. split; [reflexivity|].
  split; [apply C04_well_formed|]. vm_compute. repeat split.
Qed.
Print Assumptions C04_accepts.
Print Assumptions C04_arguments.

(** * C21 *)

(** Connections to methods, attributes and items of weakly referenceable objects are weak. *)
Theorem C21_weak : forall U (E : env U) w s c o,
  reachable E w -> In c (s_slots (w_sg w s)) ->
  ((exists n, w_key c = KBound o n) \/ (exists a, w_key c = KSetattr o a)
   \/ (exists k, w_key c = KSetitem o k) \/ w_key c = KObj o) ->
  e_weakref E o = true -> w_ref c = Some o.
Proof.
  intros U E w s c o HR HI Hk Hw. rewrite (lv_ref _ _ _ _ (reachable_live E w HR) s c HI). unfold ref_of.
  destruct Hk as [(n & ->)|[(n & ->)|[(n & ->)| ->]]]; cbn; now rewrite Hw.
Qed.
Theorem C21_alive : forall U (E : env U) w s c o,
  reachable E w -> In c (s_slots (w_sg w s)) -> w_ref c = Some o -> w_dead w o = false.
Proof. intros. eapply reachable_alive; eauto. Qed.
Theorem C21_exact : forall U (E0 E : env U) o w w' r s,
  reachable E0 w -> steps E (OKill o) w w' r ->
  ((forall g, ~ In s (members_of w g)) ->
     s_slots (w_sg w' s) = filter (fun c => negb (weak_on o c)) (s_slots (w_sg w s)))
  /\ filter (fun c => negb (internal c)) (s_slots (w_sg w' s))
     = filter (fun c => negb (weak_on o c)) (filter (fun c => negb (internal c)) (s_slots (w_sg w s))).
Proof.
  intros U E0 E o w w' r s HR HS. apply steps_pure in HS; [|reflexivity]. injection HS as <- _.
  pose proof (reachable_live E0 w HR) as HL. split.
  - intros Hm. pose proof (kill_filter E0 o w s (fun _ => true) HL (or_intror Hm)) as HK.
    rewrite (filter_all (fun _ => true) (s_slots (w_sg (kill o w) s))) in HK by auto. exact HK.
  - rewrite (kill_filter E0 o w s (fun c => negb (internal c)) HL).
    + induction (s_slots (w_sg w s)) as [|c l IH]; [reflexivity|]. cbn [filter].
      destruct (internal c); cbn; [exact IH|]. unfold weak_on, of_obj in *.
      destruct (match w_ref c with Some x => Nat.eqb x o | None => false end); cbn; [exact IH|now rewrite IH].
    + left. intros c Hc. unfold is_relay_cb in Hc. unfold internal. now rewrite Hc.
Qed.
Theorem C21_never_called : forall U (E0 E : env U) o w w' r s c,
  reachable E0 w -> steps E (OKill o) w w' r ->
  In c (s_slots (w_sg w s)) -> w_ref c = Some o -> never_called (w_uid c) w'.
Proof.
  intros U E0 E o w w' r s c HR HS HI Ho. apply steps_pure in HS; [|reflexivity]. injection HS as <- _.
  apply gone_never. eapply kill_gone; eauto.
Qed.
(** Object 7 has a method on two signals and an attribute binding, among other callbacks;
    it dies inside a callback. *)
Definition C21_env : env unit := demo (fun f _ => match f with 1 => calls [OKill 7] | _ => Ret VNone end).
Definition C21_world := world_of C21_env (all_plain Immediate 0) tt 50
  [conn 0 2 0; OConnect 0 (meth 7 3) (prio 0); OConnect 1 (meth 7 3) (prio 2); conn 0 4 0;
   OConnectSetattr 0 7 "x" None RefWarn 0%Z; OConnect 0 (meth 8 3) (prio 0)].
Example C21_case :
  reachable C21_env C21_world
  /\ map w_uid (s_slots (w_sg C21_world 0)) = [0; 1; 3; 4; 5]
  /\ map w_uid (s_slots (w_sg C21_world 1)) = [2]
  /\ map (weak_on 7) (s_slots (w_sg C21_world 0)) = [false; true; false; true; false]
  /\ (let w' := after1 C21_env 5 (OKill 7) C21_world in
      map w_uid (s_slots (w_sg w' 0)) = [0; 3; 5] /\ s_slots (w_sg w' 1) = [])
  /\ (let w' := after C21_env 50 (calls [conn 2 1 0; emit 2 []]) C21_world in
      map w_uid (s_slots (w_sg w' 0)) = [0; 3; 5] /\ s_slots (w_sg w' 1) = []).
Proof. split; [reach|]. vm_compute. repeat split. Qed.
Print Assumptions C21_weak.
Print Assumptions C21_alive.
Print Assumptions C21_exact.
Print Assumptions C21_never_called.

(** * C27 *)

(** The value an attribute or item is set to. *)
Definition bound_value (m : option Z) (args : list val) : val :=
  let cut := match m with None => args | Some m => py_take m args end in
  match cut with [v] => v | _ => VTuple cut end.

Lemma due_setter : forall x me args, setter x = true -> w_thread x = None ->
  due me args x = Called (w_uid x) [bound_value (w_maxargs x) args].
Proof.
  intros x me args HS HT. unfold due, setter, bound_value in *. rewrite HT.
  destruct (w_target x); try discriminate;
    (destruct (match w_maxargs x with Some m => py_take m args | None => args end) as [|v [|v2 l]]; reflexivity).
Qed.
Theorem C27_setattr : forall U (E0 E : env U) s ob a m r p w w' out,
  reachable E0 w -> steps E (OConnectSetattr s ob a m r p) w w' out ->
  (exists e, out = Err e /\ w' = w
     /\ (w_dead w ob = true \/ e_hasattr E ob a = false \/ (e_weakref E ob = false /\ r = RefRaise)))
  \/ (out = Ok VNone /\ exists x pre post,
       s_slots (w_sg w s) = pre ++ post /\ s_slots (w_sg w' s) = pre ++ x :: post
       /\ w_prio x = p /\ w_target x = TSetattr ob a
       /\ forall me args, due me args x = Called (w_uid x) [bound_value m args]).
Proof.
  intros U E0 E s ob a m r p w w' out HR HS. apply steps_pure in HS; [|reflexivity]. injection HS as HS.
  unfold connect_setattr in HS. destruct (w_dead w ob) eqn:Hd; [injection HS as <- <-; left; eauto|].
  destruct (e_hasattr E ob a) eqn:Hh; cbn [negb] in HS; [|injection HS as <- <-; left; eauto 6].
  destruct (weak_setattr E ob a m r p (w_nxt w)) as [x|e] eqn:HW; unfold weak_setattr, try_ref in HW.
  - right. injection HS as <- <-. split; [reflexivity|].
    destruct (add_wcb_self s x w (reachable_flat E0 w HR)) as (l1 & l2 & H1 & H2).
    exists x, l1, l2. split; [exact H1|]. split; [exact H2|].
    assert (HX : w_prio x = p /\ w_target x = TSetattr ob a /\ w_maxargs x = m /\ w_thread x = None).
    { destruct (e_weakref E ob); [|destruct r]; try discriminate HW; injection HW as <-; auto. }
    destruct HX as (HX1 & HX2 & HX3 & HX4). split; [exact HX1|]. split; [exact HX2|].
    intros me args. rewrite <- HX3. apply due_setter; [|exact HX4]. unfold setter. now rewrite HX2.
  - left. injection HS as <- <-. exists e. repeat split; auto. right; right.
    destruct (e_weakref E ob); [|destruct r]; try discriminate HW; auto.
Qed.
Theorem C27_setitem : forall U (E0 E : env U) s ob k m r p w w' out,
  reachable E0 w -> steps E (OConnectSetitem s ob k m r p) w w' out ->
  (exists e, out = Err e /\ w' = w
     /\ (w_dead w ob = true \/ e_hasattr E ob "__setitem__" = false \/ (e_weakref E ob = false /\ r = RefRaise)))
  \/ (out = Ok VNone /\ exists x pre post,
       s_slots (w_sg w s) = pre ++ post /\ s_slots (w_sg w' s) = pre ++ x :: post
       /\ w_prio x = p /\ w_target x = TSetitem ob k
       /\ forall me args, due me args x = Called (w_uid x) [bound_value m args]).
Proof.
  intros U E0 E s ob k m r p w w' out HR HS. apply steps_pure in HS; [|reflexivity]. injection HS as HS.
  unfold connect_setitem in HS. destruct (w_dead w ob) eqn:Hd; [injection HS as <- <-; left; eauto|].
  destruct (e_hasattr E ob "__setitem__") eqn:Hh; cbn [negb] in HS; [|injection HS as <- <-; left; eauto 6].
  destruct (weak_setitem E ob k m r p (w_nxt w)) as [x|e] eqn:HW; unfold weak_setitem, try_ref in HW.
  - right. injection HS as <- <-. split; [reflexivity|].
    destruct (add_wcb_self s x w (reachable_flat E0 w HR)) as (l1 & l2 & H1 & H2).
    exists x, l1, l2. split; [exact H1|]. split; [exact H2|].
    assert (HX : w_prio x = p /\ w_target x = TSetitem ob k /\ w_maxargs x = m /\ w_thread x = None).
    { destruct (e_weakref E ob); [|destruct r]; try discriminate HW; injection HW as <-; auto. }
    destruct HX as (HX1 & HX2 & HX3 & HX4). split; [exact HX1|]. split; [exact HX2|].
    intros me args. rewrite <- HX3. apply due_setter; [|exact HX4]. unfold setter. now rewrite HX2.
  - left. injection HS as <- <-. exists e. repeat split; auto. right; right.
    destruct (e_weakref E ob); [|destruct r]; try discriminate HW; auto.
Qed.
(** Taking a binding off a plain signal. *)
Lemma discard_first : forall U (E0 E : env U) op s k mo w w' r,
  reachable E0 w -> s_members (w_sg w s) = None -> steps E op w w' r ->
  try_discard s k mo w = (w', r) ->
  (exists x pre post, r = Ok VNone
     /\ s_slots (w_sg w s) = pre ++ x :: post /\ s_slots (w_sg w' s) = pre ++ post
     /\ w_key x = k /\ (forall y, In y pre -> w_key y <> k)
     /\ (forall t, t <> s -> w_sg w' t = w_sg w t)
     /\ never_called (w_uid x) w')
  \/ ((forall y, In y (s_slots (w_sg w s)) -> w_key y <> k) /\ w' = w
      /\ r = if mo then Ok VNone else Err EValue).
Proof.
  intros U E0 E op s k mo w w' r HR Hm HS HT. pose proof (try_discard_shrinks s k mo w) as Hsh. rewrite HT in Hsh.
  unfold try_discard in HT. unfold remove_key in HT.
  destruct (remove_first k (s_slots (w_sg w s))) as [l|] eqn:HR1.
  - left. pose proof HR1 as HR2. apply remove_first_spec in HR2 as (a & x & b & H1 & H2 & H3 & H4).
    assert (HW : after_remove s (upd s (set_slots l) w) = upd s (set_slots l) w).
    { unfold after_remove. rewrite upd_same. cbn [s_members set_slots]. now rewrite Hm. }
    rewrite HW in HT. injection HT as <- <-. exists x, a, b. rewrite upd_same. cbn [s_slots set_slots].
    repeat (split; [assumption||reflexivity|]). split; [intros t Ht; now rewrite upd_other|].
    apply gone_never. eapply shrunk_gone; eauto; [rewrite H1; apply in_or_app; right; now left|].
    rewrite upd_same. cbn [s_slots set_slots]. rewrite H2. eapply once; eauto.
  - right. pose proof (proj1 (remove_first_none _ _) HR1). injection HT as <- <-. auto.
Qed.
Theorem C27_disconnect_setattr : forall U (E0 E : env U) s ob a mo w w' r,
  reachable E0 w -> s_members (w_sg w s) = None ->
  steps E (ODisconnectSetattr s ob a mo) w w' r ->
  (exists x pre post, r = Ok VNone
     /\ s_slots (w_sg w s) = pre ++ x :: post /\ s_slots (w_sg w' s) = pre ++ post
     /\ w_key x = KSetattr ob a /\ (forall y, In y pre -> w_key y <> KSetattr ob a)
     /\ (forall t, t <> s -> w_sg w' t = w_sg w t)
     /\ never_called (w_uid x) w')
  \/ ((forall y, In y (s_slots (w_sg w s)) -> w_key y <> KSetattr ob a) /\ w' = w
      /\ r = if mo then Ok VNone else Err EValue).
Proof.
  intros U E0 E s ob a mo w w' r HR Hm HS. eapply discard_first; eauto.
  apply steps_pure in HS; [|reflexivity]. now injection HS as HS.
Qed.
Theorem C27_disconnect_setitem : forall U (E0 E : env U) s ob k mo w w' r,
  reachable E0 w -> s_members (w_sg w s) = None -> e_hasattr E ob "__setitem__" = true ->
  steps E (ODisconnectSetitem s ob k mo) w w' r ->
  (exists x pre post, r = Ok VNone
     /\ s_slots (w_sg w s) = pre ++ x :: post /\ s_slots (w_sg w' s) = pre ++ post
     /\ w_key x = KSetitem ob k /\ (forall y, In y pre -> w_key y <> KSetitem ob k)
     /\ (forall t, t <> s -> w_sg w' t = w_sg w t)
     /\ never_called (w_uid x) w')
  \/ ((forall y, In y (s_slots (w_sg w s)) -> w_key y <> KSetitem ob k) /\ w' = w
      /\ r = if mo then Ok VNone else Err EValue).
Proof.
  intros U E0 E s ob k mo w w' r HR Hm Hh HS. eapply discard_first; eauto.
  apply steps_pure in HS; [|reflexivity]. unfold pure_step in HS. cbn [step] in HS. rewrite Hh in HS.
  now injection HS as HS.
Qed.
(** A program whose client state is the list of assignments made so far, newest first. *)
Definition C27_env : env (list (oid * string * val)) :=
  Env (fun t a _ =>
         match t, a with
         | TSetattr o n, [v] => call (OUsr (fun u => ((o, n, v) :: u, inl VNone)))
         | _, _ => Ret VNone
         end)
      (fun _ _ => Ret VNone) (fun _ => true) (fun _ => "f")
      (fun _ => SSig [Param VarPos false AEmpty]) Nat.eqb (fun _ => 0) (fun _ n => String.eqb n "x").
Definition C27_world := world_of C27_env (all_plain Immediate 2) [] 50
  [conn 0 1 0; OConnectSetattr 0 7 "x" (Some 1%Z) RefWarn 0%Z; OConnectSetattr 0 8 "x" None RefWarn 0%Z].
Example C27_case :
  reachable C27_env C27_world
  /\ outcome1 C27_env 5 (OConnectSetattr 0 9 "x" None RefWarn 0%Z) C27_world = Some (Ok VNone)
  /\ outcome1 C27_env 5 (OConnectSetattr 0 9 "y" None RefWarn 0%Z) C27_world = Some (Err EAttribute)
  /\ (let w' := after1 C27_env 9 (emit 0 [VInt 1; VInt 2]) C27_world in
      w_usr w' = [(8, "x", VTuple [VInt 1; VInt 2]); (7, "x", VInt 1)])
  /\ (let w' := after C27_env 9 (calls [ODisconnectSetattr 0 7 "x" false; emit 0 [VInt 1; VInt 2]]) C27_world in
      w_usr w' = [(8, "x", VTuple [VInt 1; VInt 2])]).
Proof. split; [reach|]. vm_compute. repeat split. Qed.
Print Assumptions C27_setattr.
Print Assumptions C27_setitem.
Print Assumptions C27_disconnect_setattr.
Print Assumptions C27_disconnect_setitem.

(** * C30 *)

(** No object supports weak references: connect(obj.method, on_ref_error='raise') with
    otherwise default options succeeds. *)
Definition C30_env : env unit :=
  Env (e_body C12_env) (e_lib C12_env) (fun _ => false) (e_fname C12_env) (e_sig C12_env)
      (e_subclass C12_env) (e_type C12_env) (e_hasattr C12_env).
Definition or_raise (cn : option bool) (m : option Z) : copts := Copts None cn None UFalse m RefRaise 0%Z.
Theorem C30_refuted : exists w w',
  reachable C30_env w /\ e_weakref C30_env 7 = false
  /\ steps C30_env (OConnect 0 (meth 7 1) (or_raise None None)) w w' (Ok VNone).
Proof.
  pose (w := world_of C30_env (all_plain Immediate 1) tt 50 []).
  exists w, (after1 C30_env 5 (OConnect 0 (meth 7 1) (or_raise None None)) w).
  split; [reach|]. split; [reflexivity|]. ran.
Qed.
(** It does raise (TypeError) when the number of arguments is not checked.
    Missing for the full property: connect with check_nargs on and no max_args. *)
Theorem C30_raises_partial : forall U (E : env U) s c o k ob w w' r,
  callable_dead w c = false -> key_of E c = inl k -> receiver c = Some ob -> e_weakref E ob = false ->
  c_onref o = RefRaise -> c_unique o = UFalse -> no_type_check (w_sg w s) o ->
  (c_max o <> None \/ c_check_nargs o = Some false \/ (c_check_nargs o = None /\ s_chkn (w_sg w s) = false)) ->
  steps E (OConnect s c o) w w' r -> w' = w /\ r = Err EType.
Proof.
  intros U E s c o k ob w w' r Hd Hk Hr Hw Ho Hu Ht Hc HS. apply steps_pure in HS; [|reflexivity]. injection HS as HS.
  unfold connect in HS. rewrite Hd, Hu in HS. cbv zeta in HS.
  assert (HT : (match c_check_types o with Some b => b | None => s_chkt (w_sg w s) end) = false)
    by (unfold no_type_check in Ht; destruct (c_check_types o); auto).
  rewrite HT in HS.
  assert (HN : match (match c_check_nargs o with Some b => b | None => s_chkn (w_sg w s) end), c_max o with
               | true, None => match check_nargs E c (s_params (w_sg w s)) with
                               | inr e => inr e
                               | inl (mx, isqt) => inl (mx, if isqt then RefIgnore else c_onref o)
                               end
               | _, _ => inl (c_max o, c_onref o)
               end = inl (c_max o, c_onref o)).
  { destruct Hc as [Hc|[Hc|[Hc1 Hc2]]].
    - destruct (c_max o); [|congruence]. now destruct (match c_check_nargs o with Some b => b | None => _ end).
    - now rewrite Hc.
    - now rewrite Hc1, Hc2. }
  rewrite HN, Ho in HS.
  assert (HW : weak_callback E c (c_max o) RefRaise (c_prio o) (w_nxt w) = inr EType).
  { unfold receiver in Hr. unfold key_of, weak_callback, weak_setitem, try_ref in *.
    destruct (callable_base c); try discriminate Hr; injection Hr as ->; rewrite Hw in *.
    - destruct (String.eqb _ _); [|reflexivity]. destruct (callable_args c); [discriminate|reflexivity].
    - destruct (callable_kw c); [reflexivity|discriminate].
    - reflexivity. }
  rewrite HW in HS. injection HS as <- <-. auto.
Qed.
Example C30_case :
  let w := world_of C30_env (all_plain Immediate 1) tt 50 [conn 0 1 0] in
  callable_dead w (meth 7 1) = false /\ key_of C30_env (meth 7 1) = inl (KBound 7 "b")
  /\ receiver (meth 7 1) = Some 7 /\ no_type_check (w_sg w 0) (or_raise (Some false) None)
  /\ outcome1 C30_env 5 (OConnect 0 (meth 7 1) (or_raise (Some false) None)) w = Some (Err EType)
  /\ outcome1 C30_env 5 (OConnect 0 (meth 7 1) (or_raise None (Some 1%Z))) w = Some (Err EType).
Proof. vm_compute. repeat split. Qed.
Print Assumptions C30_refuted.
Print Assumptions C30_raises_partial.
