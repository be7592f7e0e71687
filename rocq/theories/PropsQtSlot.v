(** Qt signals connected as callbacks: C95. *)

From Coq Require Import String Ascii.
From Verif Require Import Base Core Frame Fuel Conn Keep Spec Trace Inv Dead Rest Quiet
  Emission Gone Shrink Arity Demo PropsConn PropsSlot QtSlot.
Open Scope string_scope.
Open Scope nat_scope.

(** * What is meant *)

(** The text by which Qt calls a signal. *)
Definition qt_text (name : string) (types : list string) : string := name ++ "(" ++ String.concat "," types ++ ")".
Fixpoint has (c : ascii) (s : string) : bool := match s with EmptyString => false | String d s => Ascii.eqb c d || has c s end.
(** Names of types that are no lists of others, without parentheses and spaces. *)
Definition simple (t : string) : Prop := t <> "" /\ has "," t = false /\ has ")" t = false /\ has " " t = false.
Definition named (n : string) : Prop := has "(" n = false /\ has " " n = false /\ n <> "".
(** Signals of Qt and their emit methods, as PyQt and PySide make them; the text of PyQt has a "2" in front. *)
Inductive qt_signal (name : string) (types : list string) : traits -> Prop :=
| qt_pyqt : forall m q a, qt_signal name types (Traits "pyqtBoundSignal" m q ("2" ++ qt_text name types) a)
| qt_pyqt_emit : forall m a, qt_signal name types (Traits "builtin_function_or_method" m "pyqtBoundSignal.emit" ("2" ++ qt_text name types) a)
| qt_pyside : forall m q g rest, within "QtCore" m = true -> q <> "pyqtBoundSignal.emit" ->
    qt_signal name types (Traits "SignalInstance" m q g (Refused (qt_text name types ++ " only accepts " ++ rest)))
| qt_pyside_emit : forall m g rest,
    qt_signal name types (Traits "builtin_function_or_method" m "SignalInstance.emit" g (Refused (qt_text name types ++ " only accepts " ++ rest))).
(** psygnal's own SignalInstances and their emit methods; those of the compiled psygnal are builtin. *)
Definition own_signal (a : answer) : traits := Traits "SignalInstance" "psygnal._signal" "" "" a.
Definition own_emit (compiled : bool) (a : answer) : traits :=
  if compiled then Traits "builtin_function_or_method" "builtins" "SignalInstance.emit" "" a
  else Traits "method" "builtins" "SignalInstance.emit" "" a.

(** * Strings *)

Lemma str_app_assoc : forall a b c : string, (a ++ b) ++ c = a ++ (b ++ c).
Proof. induction a as [|x a IH]; intros b c; cbn; [reflexivity|now rewrite IH]. Qed.
Lemma str_app_nil : forall a : string, a ++ "" = a.
Proof. induction a as [|x a IH]; cbn; [reflexivity|now rewrite IH]. Qed.
Lemma has_app : forall c a b, has c (a ++ b) = has c a || has c b.
Proof. intros c a b. induction a as [|x a IH]; cbn; [reflexivity|]. rewrite IH. now rewrite orb_assoc. Qed.
Lemma after_open_app : forall n x, has "(" n = false -> after_open (n ++ String "(" x) = Some (until_close x).
Proof.
  induction n as [|c n IH]; intros x H; [reflexivity|]. cbn [has] in H. apply orb_false_iff in H as [Hc H].
  change (after_open (String c (n ++ String "(" x)) = Some (until_close x)). cbn [after_open]. rewrite Ascii.eqb_sym, Hc. now apply IH.
Qed.
Lemma until_close_app : forall s, has ")" s = false -> until_close (s ++ ")") = s.
Proof.
  induction s as [|c s IH]; intros H; [reflexivity|]. cbn [has] in H. apply orb_false_iff in H as [Hc H].
  change (until_close (String c (s ++ ")")) = String c s). cbn [until_close]. rewrite Ascii.eqb_sym, Hc. now rewrite IH.
Qed.
Lemma commas_app : forall a b, count_commas (a ++ b) = count_commas a + count_commas b.
Proof. induction a as [|c a IH]; intros b; [reflexivity|]. change (count_commas (String c (a ++ b)) = count_commas (String c a) + count_commas b). cbn [count_commas]. rewrite IH. lia. Qed.
Lemma commas_none : forall a, has "," a = false -> count_commas a = 0.
Proof.
  induction a as [|c a IH]; intros H; [reflexivity|]. cbn [has] in H. apply orb_false_iff in H as [Hc H]. cbn [count_commas].
  rewrite Ascii.eqb_sym, Hc. now rewrite IH.
Qed.
Lemma concat_cons : forall t u l, String.concat "," (t :: u :: l) = t ++ "," ++ String.concat "," (u :: l).
Proof. reflexivity. Qed.
Lemma commas_concat : forall l t, Forall simple (t :: l) -> count_commas (String.concat "," (t :: l)) = length l.
Proof.
  induction l as [|u l IH]; intros t H; inversion H as [|x y (_ & Hc & _) Hl]; subst.
  - now apply commas_none.
  - rewrite concat_cons, commas_app, (commas_none t Hc), commas_app, IH by assumption. reflexivity.
Qed.
Lemma has_concat : forall c l, c <> ","%char -> Forall (fun t => has c t = false) l -> has c (String.concat "," l) = false.
Proof.
  intros c l Hc. induction l as [|t l IH]; intros H; [reflexivity|]. inversion H as [|x y Ht Hl]; subst. destruct l as [|u l]; [exact Ht|].
  rewrite concat_cons, !has_app, Ht, IH by assumption. cbn. destruct (Ascii.eqb_spec c ","); [contradiction|reflexivity].
Qed.
Lemma range_text : forall name types, has "(" name = false -> Forall simple types ->
  posarg_range_str (qt_text name types) = inl (length types, Some (length types)).
Proof.
  intros name types Hn Ht. unfold posarg_range_str, qt_text. change ("(" ++ String.concat "," types ++ ")") with (String "(" (String.concat "," types ++ ")")).
  rewrite after_open_app by assumption.
  rewrite until_close_app by (apply has_concat; [discriminate|]; eapply Forall_impl; [|exact Ht]; now intros t (_ & _ & H & _)).
  destruct types as [|t l]; [reflexivity|]. rewrite (commas_concat l t Ht).
  destruct (String.concat "," (t :: l)) eqn:E; [|reflexivity]. exfalso. inversion Ht as [|x y (H & _) _]; subst.
  destruct l; [now apply H|]. rewrite concat_cons in E. destruct t; [now apply H|discriminate].
Qed.
(** The text of PySide's error. *)
Lemma starts_not : forall s rest, s <> "" -> has " " s = false -> starts "only accepts" ((s ++ ")") ++ " only accepts " ++ rest) = false.
Proof.
  intros s rest Hs Hb.
  destruct s as [|c1 s]; [now destruct Hs|]. cbn -[Ascii.eqb]. destruct (Ascii.eqb_spec "o" c1); [|reflexivity].
  destruct s as [|c2 s]; [reflexivity|]. cbn -[Ascii.eqb]. destruct (Ascii.eqb_spec "n" c2); [|reflexivity].
  destruct s as [|c3 s]; [reflexivity|]. cbn -[Ascii.eqb]. destruct (Ascii.eqb_spec "l" c3); [|reflexivity].
  destruct s as [|c4 s]; [reflexivity|]. cbn -[Ascii.eqb]. destruct (Ascii.eqb_spec "y" c4); [|reflexivity].
  destruct s as [|c5 s]; [reflexivity|]. subst. cbn [has] in Hb. apply orb_false_iff in Hb as [_ Hb]. apply orb_false_iff in Hb as [_ Hb].
  apply orb_false_iff in Hb as [_ Hb]. apply orb_false_iff in Hb as [_ Hb]. apply orb_false_iff in Hb as [Hb _].
  cbn -[Ascii.eqb]. now rewrite Hb.
Qed.
Lemma before_text : forall s rest, has " " s = false -> before "only accepts" ((s ++ ")") ++ " only accepts " ++ rest) = s ++ ") ".
Proof.
  induction s as [|c s IH]; intros rest H; [reflexivity|].
  assert (HS := starts_not (String c s) rest ltac:(discriminate) H). cbn [has] in H. apply orb_false_iff in H as [_ H].
  change ((String c s ++ ")") ++ " only accepts " ++ rest) with (String c ((s ++ ")") ++ " only accepts " ++ rest)) in *.
  cbn [before]. rewrite HS, (IH rest H). reflexivity.
Qed.
Lemma within_text : forall s rest, within "only accepts" ((s ++ ")") ++ " only accepts " ++ rest) = true.
Proof.
  induction s as [|c s IH]; intros rest; [reflexivity|].
  change ((String c s ++ ")") ++ " only accepts " ++ rest) with (String c ((s ++ ")") ++ " only accepts " ++ rest)).
  cbn [within]. rewrite IH. apply orb_true_r.
Qed.
Lemma rstrip_text : forall s, rstrip (s ++ ") ") = s ++ ")".
Proof.
  induction s as [|c s IH]; [reflexivity|]. change (rstrip (String c (s ++ ") ")) = String c (s ++ ")")). cbn [rstrip]. rewrite IH.
  destruct (s ++ ")") eqn:E; [|reflexivity]. destruct s; discriminate.
Qed.
Definition trimmed (s : string) : Prop := match s with EmptyString => False | String c _ => blank c = false end.
Lemma strip_text : forall s, trimmed s -> strip (s ++ ") ") = s ++ ")".
Proof. intros [|c s] H; [contradiction|]. unfold strip. change (rstrip (if blank c then lstrip (s ++ ") ") else String c s ++ ") ") = String c s ++ ")"). rewrite H. apply rstrip_text. Qed.

(** * C95 *)

(** The name does not begin with a blank. *)
Theorem C95_text_partial : forall name types o own,
  named name -> trimmed name -> Forall simple types -> qt_signal name types o ->
  exists s, get_signature_possibly_qt o own = SStr s /\ posarg_range_str s = inl (length types, Some (length types)).
Proof.
  intros name types o own (Hn & Hb & Hne) Htr Ht HQ.
  assert (Hi : has " " (name ++ "(" ++ String.concat "," types) = false).
  { rewrite !has_app, Hb, (has_concat " " types); [reflexivity|discriminate|]. eapply Forall_impl; [|exact Ht]. now intros t (_ & _ & _ & H). }
  assert (HT : qt_text name types = (name ++ "(" ++ String.concat "," types) ++ ")") by (unfold qt_text; now rewrite !str_app_assoc).
  assert (HP : forall rest, ridiculously_call_emit (Refused (qt_text name types ++ " only accepts " ++ rest)) = inl (Some (qt_text name types))).
  { intros rest. rewrite HT. cbn [ridiculously_call_emit]. rewrite within_text, before_text by exact Hi.
    rewrite strip_text; [reflexivity|destruct name; [contradiction|exact Htr]]. }
  assert (H2 : posarg_range_str ("2" ++ qt_text name types) = inl (length types, Some (length types))).
  { change ("2" ++ qt_text name types) with (qt_text (String "2" name) types). apply range_text; [exact Hn|exact Ht]. }
  unfold get_signature_possibly_qt. inversion HQ as [m q a|m a|m q g rest Hm Hq|m g rest]; subst; cbn [guess_qtsignal_signature t_type t_qualname t_signal t_module t_emit].
  - exists ("2" ++ qt_text name types). split; [reflexivity|exact H2].
  - exists ("2" ++ qt_text name types). split; [reflexivity|exact H2].
  - exists (qt_text name types). split; [|now apply range_text].
    unfold guess_qtsignal_signature. cbn [t_type t_qualname t_signal t_module t_emit].
    change (within "pyqtBoundSignal" "SignalInstance") with false. change (within "SignalInstance" "SignalInstance") with true.
    change (starts "builtin" "SignalInstance") with false. rewrite Hm, andb_false_r. cbn [andb].
    destruct (String.eqb_spec q "pyqtBoundSignal.emit"); [contradiction|]. cbn [snd]. now rewrite HP.
  - exists (qt_text name types). split; [|now apply range_text].
    change (snd (guess_qtsignal_signature (Traits "builtin_function_or_method" m "SignalInstance.emit" g (Refused (qt_text name types ++ " only accepts " ++ rest)))))
      with (ridiculously_call_emit (Refused (qt_text name types ++ " only accepts " ++ rest))). now rewrite HP.
Qed.
Lemma connect_text : forall U (E : env U) s c o k t n w,
  callable_dead w c = false -> key_of E c = inl k -> c_unique o = UFalse ->
  e_sig E c = SStr t -> posarg_range_str t = inl (n, Some n) -> checks_nargs (w_sg w s) o -> no_type_check (w_sg w s) o ->
  if Nat.ltb (List.length (s_params (w_sg w s))) n then connect E s c o w = (w, Err EValue)
  else exists x, connect E s c o w = (add_wcb s x w, Ok VNone) /\ w_maxargs x = Some (Z.of_nat n) /\ w_key x = k.
Proof.
  intros U E s c o k t n w Hd Hk Hu Hs Hr [Hm Hn] Ht. unfold connect. rewrite Hd, Hu, Hm.
  assert (HN : (match c_check_nargs o with Some b => b | None => s_chkn (w_sg w s) end) = true) by (destruct (c_check_nargs o); auto).
  assert (HT : (match c_check_types o with Some b => b | None => s_chkt (w_sg w s) end) = false)
    by (unfold no_type_check in Ht; destruct (c_check_types o); auto).
  cbv zeta. rewrite HN, HT. unfold check_nargs. rewrite Hs, Hr. destruct (Nat.ltb _ n); [reflexivity|].
  unfold key_of in Hk. destruct (weak_callback E c None RefIgnore 0%Z 0) as [x|] eqn:HW; [|discriminate].
  destruct (weak_callback_any _ E c None 0%Z 0 (option_map Z.of_nat (Some n)) (c_prio o) (w_nxt w) x HW) as (y & Hy & Hym & _).
  rewrite Hy. eexists. split; [reflexivity|]. split; [exact Hym|]. injection Hk as <-. cbn [w_key set_thread].
  clear - HW Hy. unfold weak_callback, weak_setattr, weak_setitem, try_ref in *.
  destruct (callable_base c); repeat (dm HW; try discriminate); injection HW as <-; injection Hy as <-; reflexivity.
Qed.
(** A Qt signal is accepted as a callback if and only if it takes no more arguments than are declared; *)
Theorem C95_accepts_partial : forall U (E : env U) name types q own s c o k w w' r,
  named name -> trimmed name -> Forall simple types -> qt_signal name types q -> e_sig E c = get_signature_possibly_qt q own ->
  callable_dead w c = false -> key_of E c = inl k -> c_unique o = UFalse -> checks_nargs (w_sg w s) o -> no_type_check (w_sg w s) o ->
  steps E (OConnect s c o) w w' r ->
  (r = Ok VNone <-> length types <= length (s_params (w_sg w s))) /\ (r <> Ok VNone -> r = Err EValue /\ w' = w).
Proof.
  intros U E name types q own s c o k w w' r Hn Htr Ht HQ Hs Hd Hk Hu Hc Hty HS. apply steps_pure in HS; [|reflexivity]. injection HS as HS.
  destruct (C95_text_partial name types q own Hn Htr Ht HQ) as (t & Hq & Hr). rewrite Hq in Hs.
  pose proof (connect_text U E s c o k t _ w Hd Hk Hu Hs Hr Hc Hty) as HC. destruct (Nat.ltb _ _) eqn:HL.
  - rewrite HC in HS. injection HS as <- <-. apply Nat.ltb_lt in HL. split; [|now split]. split; [discriminate|lia].
  - destruct HC as (x & HC & _). rewrite HC in HS. injection HS as <- <-. apply Nat.ltb_ge in HL. split; [tauto|]. intros H. now destruct H.
Qed.
(** and then it is called with just as many arguments as it takes. *)
Theorem C95_arguments_partial : forall U (E0 E : env U) name types q own s c o k w w',
  named name -> trimmed name -> Forall simple types -> qt_signal name types q -> e_sig E c = get_signature_possibly_qt q own ->
  reachable E0 w ->
  callable_dead w c = false -> key_of E c = inl k -> c_unique o = UFalse -> checks_nargs (w_sg w s) o -> no_type_check (w_sg w s) o ->
  steps E (OConnect s c o) w w' (Ok VNone) ->
  exists x pre post, s_slots (w_sg w s) = (pre ++ post)%list /\ s_slots (w_sg w' s) = (pre ++ x :: post)%list /\ w_key x = k
    /\ forall me args a, List.length (s_params (w_sg w s)) <= List.length args -> setter x = false ->
         due me args x = Called (w_uid x) a -> a = firstn (length types) args /\ length a = length types.
Proof.
  intros U E0 E name types q own s c o k w w' Hn Htr Ht HQ Hs HR Hd Hk Hu Hc Hty HS. apply steps_pure in HS; [|reflexivity]. injection HS as HS.
  destruct (C95_text_partial name types q own Hn Htr Ht HQ) as (t & Hq & Hr). rewrite Hq in Hs.
  pose proof (connect_text U E s c o k t _ w Hd Hk Hu Hs Hr Hc Hty) as HC. destruct (Nat.ltb _ _) eqn:HL; [congruence|].
  apply Nat.ltb_ge in HL. destruct HC as (x & HC & Hm & Hxk). rewrite HS in HC. injection HC as ->.
  destruct (add_wcb_self s x w (reachable_flat E0 w HR)) as (a & b & Ha & Hb).
  exists x, a, b. repeat (split; [assumption|]). intros me args l Hle Hset HD.
  assert (l = py_take (Z.of_nat (length types)) args).
  { unfold due in HD. unfold setter in Hset. rewrite Hm in HD.
    destruct (w_target x); try discriminate Hset; (destruct (w_thread x) as [th|]; [destruct (Nat.eqb th me)|];
      [injection HD as <-; reflexivity|discriminate HD|injection HD as <-; reflexivity]). }
  subst l. split; [|rewrite py_take_length; lia]. unfold py_take. destruct (Z.ltb_spec (Z.of_nat (length types)) 0); [lia|]. now rewrite Nat2Z.id.
Qed.
(** A text without a parenthesis is refused. *)
Theorem C95_strange : forall U (E : env U) s c o t w w' r,
  e_sig E c = SStr t -> has "(" t = false -> callable_dead w c = false -> c_unique o = UFalse -> checks_nargs (w_sg w s) o ->
  steps E (OConnect s c o) w w' r -> r = Err EValue /\ w' = w.
Proof.
  intros U E s c o t w w' r Hs Ht Hd Hu [Hm Hn] HS. apply steps_pure in HS; [|reflexivity]. injection HS as HS.
  assert (HO : after_open t = None).
  { clear - Ht. induction t as [|x t IH]; [reflexivity|]. cbn [has] in Ht. apply orb_false_iff in Ht as [Hx Ht].
    cbn [after_open]. rewrite Ascii.eqb_sym, Hx. now apply IH. }
  unfold connect in HS. rewrite Hd, Hu, Hm in HS.
  assert (HN : (match c_check_nargs o with Some b => b | None => s_chkn (w_sg w s) end) = true) by (destruct (c_check_nargs o); auto).
  cbv zeta in HS. rewrite HN in HS. unfold check_nargs in HS. rewrite Hs in HS. unfold posarg_range_str in HS. rewrite HO in HS.
  injection HS as <- <-. auto.
Qed.
(** PySide's valueChanged(int,QString), and PyQt's. *)
Definition Q_env (q : traits) : env unit :=
  Env (e_body C12_env) (e_lib C12_env) (e_weakref C12_env) (e_fname C12_env)
      (fun c => match c with CBase (BBuiltin _ _) => get_signature_possibly_qt q SNone | _ => SNone end)
      (e_subclass C12_env) (e_type C12_env) (e_hasattr C12_env).
Definition Q_types := ["int"; "QString"].
Definition Q_side := Traits "builtin_function_or_method" "" "SignalInstance.emit" ""
  (Refused (qt_text "valueChanged" Q_types ++ " only accepts 2 argument(s), 255 given!")).
Definition Q_pyqt := Traits "pyqtBoundSignal" "PyQt5.QtCore" "" "2valueChanged(int,QString)" Accepted.
Definition Q_emit := CBase (BBuiltin 3 "emit").
Example C95_case : forall q, In q [Q_side; Q_pyqt] ->
  let E := Q_env q in
  let w n := world_of E (all_plain Immediate n) tt 50 [] in
  named "valueChanged" /\ trimmed "valueChanged" /\ Forall simple Q_types /\ qt_signal "valueChanged" Q_types q
  /\ e_sig E Q_emit = get_signature_possibly_qt q SNone
  /\ reachable E (w 3) /\ callable_dead (w 3) Q_emit = false /\ (exists k, key_of E Q_emit = inl k)
  /\ checks_nargs (w_sg (w 3) 0) (prio 0) /\ no_type_check (w_sg (w 3) 0) (prio 0)
  /\ outcome1 E 5 (OConnect 0 Q_emit (prio 0)) (w 1) = Some (Err EValue)
  /\ outcome1 E 5 (OConnect 0 Q_emit (prio 0)) (w 3) = Some (Ok VNone)
  /\ map (due 0 [VInt 1; VInt 2; VInt 3]) (s_slots (w_sg (after1 E 5 (OConnect 0 Q_emit (prio 0)) (w 3)) 0)) = [Called 0 [VInt 1; VInt 2]].
Proof.
  intros q Hq. cbv zeta. split; [repeat split; discriminate|]. split; [reflexivity|]. split; [repeat constructor; discriminate|].
  split. { destruct Hq as [<-|[<-|[]]]; [exact (qt_pyside_emit "valueChanged" Q_types "" "" "2 argument(s), 255 given!")|apply (qt_pyqt "valueChanged" Q_types)]. }
  split; [reflexivity|]. split; [reach|]. split; [reflexivity|]. split; [eexists; reflexivity|].
  destruct Hq as [<-|[<-|[]]]; vm_compute; repeat split.
Qed.
Print Assumptions C95_text_partial.
Print Assumptions C95_accepts_partial.
Example C95_strange_case :
  let E := Q_env (Traits "pyqtBoundSignal" "PyQt5.QtCore" "" "valueChanged" Accepted) in
  let w := world_of E (all_plain Immediate 3) tt 50 [] in
  (exists t, e_sig E Q_emit = SStr t /\ has "(" t = false) /\ callable_dead w Q_emit = false /\ checks_nargs (w_sg w 0) (prio 0)
  /\ outcome1 E 5 (OConnect 0 Q_emit (prio 0)) w = Some (Err EValue).
Proof. cbv zeta. split; [eexists; split; reflexivity|]. split; [reflexivity|]. split; [split; reflexivity|]. vm_compute. reflexivity. Qed.
Print Assumptions C95_arguments_partial.
Print Assumptions C95_strange.
(** A signal of one argument of a type whose name has a comma is refused by signals of one argument. *)
Theorem C95_comma_refuted : exists (E : env unit) name t q own s c k w w',
  named name /\ trimmed name /\ t <> "" /\ has ")" t = false /\ has " " t = false /\ qt_signal name [t] q /\ e_sig E c = get_signature_possibly_qt q own
  /\ reachable E w /\ callable_dead w c = false /\ key_of E c = inl k /\ checks_nargs (w_sg w s) (prio 0) /\ no_type_check (w_sg w s) (prio 0)
  /\ length (s_params (w_sg w s)) = 1 /\ steps E (OConnect s c (prio 0)) w w' (Err EValue).
Proof.
  pose (q := Traits "pyqtBoundSignal" "PyQt5.QtCore" "" "2changed(QMap<QString,int>)" Accepted).
  pose (w := world_of (Q_env q) (all_plain Immediate 1) tt 50 []).
  exists (Q_env q), "changed", "QMap<QString,int>", q, SNone, 0, Q_emit. eexists. exists w. eexists.
  split; [repeat split; discriminate|]. split; [reflexivity|]. split; [discriminate|]. split; [reflexivity|]. split; [reflexivity|].
  split; [apply (qt_pyqt "changed" ["QMap<QString,int>"])|]. split; [reflexivity|]. split; [reach|]. split; [reflexivity|]. split; [reflexivity|].
  split; [vm_compute; repeat split|]. split; [vm_compute; reflexivity|]. split; [vm_compute; reflexivity|].
  apply (after1_steps _ 5). vm_compute. reflexivity.
Qed.
Print Assumptions C95_comma_refuted.
(** Connecting functions, methods, psygnal's own signals, and PyQt's signals and their emit methods calls nothing; *)
Theorem C95_quiet : forall t m q g a,
  t = "function" \/ t = "method" -> q <> "pyqtBoundSignal.emit" ->
  guess_qtsignal_signature (Traits t m q g a) = (false, inl None)
  /\ guess_qtsignal_signature (own_signal a) = (false, inl None)
  /\ guess_qtsignal_signature (own_emit false a) = (false, inl None)
  /\ guess_qtsignal_signature (Traits "pyqtBoundSignal" m q g a) = (false, inl (Some g))
  /\ guess_qtsignal_signature (Traits t m "pyqtBoundSignal.emit" g a) = (false, inl (Some g)).
Proof.
  intros t m q g a Ht Hq. split; [|repeat split; try reflexivity; destruct Ht as [-> | ->]; reflexivity]. unfold guess_qtsignal_signature. cbn [t_type t_module t_qualname t_signal t_emit].
  destruct (String.eqb_spec q "pyqtBoundSignal.emit") as [H|_]; [contradiction|]. destruct Ht as [-> | ->]; cbn [within starts Ascii.eqb andb orb];
  rewrite ?andb_false_r; reflexivity.
Qed.
Example C95_quiet_case : guess_qtsignal_signature (Traits "method" "builtins" "Window.emit" "" Accepted) = (false, inl None).
Proof. apply (C95_quiet "method" "builtins" "Window.emit" "" Accepted); [now right|discriminate]. Qed.
Print Assumptions C95_quiet.
(** but connecting the emit method of a signal of the compiled psygnal emits that signal, with 255 arguments. *)
Theorem C95_compiled_refuted : exists (E : env unit) s1 s2 c w w' eid uid,
  s1 <> s2 /\ reachable E w
  /\ runs E (connect_emit (own_emit true Accepted) s1 s2 c (prio 0)) w w' (Ok VNone)
  /\ ~ In (ECall eid s2 uid (repeat (VInt 1) 255)) (w_tr w) /\ In (ECall eid s2 uid (repeat (VInt 1) 255)) (w_tr w').
Proof.
  pose (E := demo (fun f (a : list val) => Ret (U:=unit) VNone)).
  pose (w := world_of E (all_plain Immediate 1) tt 50 [conn 1 1 0]).
  pose (p := connect_emit (U:=unit) (own_emit true Accepted) 0 1 (CBase (BBuiltin 3 "emit")) (prio 0)).
  exists E, 0, 1, (CBase (BBuiltin 3 "emit")), w, (after E 100 p w), 1, 0.
  split; [discriminate|]. split; [reach|]. split; [apply after_runs; vm_compute; reflexivity|].
  assert (H0 : w_tr w = []) by (vm_compute; reflexivity). split; [rewrite H0; intros []|].
  assert (H1 : exists e1 e2 l, w_tr (after E 100 p w) = e1 :: e2 :: ECall 1 1 0 (repeat (VInt 1) 255) :: l) by (vm_compute; eauto).
  destruct H1 as (e1 & e2 & l & ->). right. right. now left.
Qed.
Print Assumptions C95_compiled_refuted.
