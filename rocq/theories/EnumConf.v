(** EventedModel.enums_as_values: src/psygnal/_evented_model.py ("EM") 670-715.

    A program is the sequence of what it does to the configurations: uses of the context manager
    (in with statements, generators, ExitStacks, threads or tasks; [u]: the context manager object) start
    and end, by exception or not, and entries of configurations are assigned.  Simplified: the entry is only read and written by
    this code and by assignments; what pydantic does with it is not modelled. *)

From Verif Require Import Base Core Evented.

Definition key : string := "use_enum_values".
(** cls.model_config of each model class (pydantic 2), or the attributes set in each Config class itself (pydantic 1). *)
Definition confs : Type := nat -> list (string * val).
Definition put (c : nat) (d : list (string * val)) (f : confs) : confs := fun x => if Nat.eqb x c then d else f x.
(** d.pop(k), del d[k], for a key that is there (once) *)
Fixpoint spop {A} (k : string) (d : list (string * A)) : list (string * A) :=
  match d with [] => [] | (x, y) :: d => if String.eqb k x then spop k d else (x, y) :: spop k d end.

Inductive step :=
| Enter (u m : nat) (as_values : bool)          (* enums_as_values(as_values) of model class m: up to the yield *)
| Exit (u : nat)                                (* … the finally *)
| Put (m : nat) (k : string) (v : val).         (* m.model_config[k] = v, m.Config.k = v *)

(** pydantic 2: EM:707-708, EM:712-715 *)
Definition enter2 (m : nat) (b : bool) (f : confs) : option val * confs :=
  (sget key (f m), put m (sset key (VBool b) (f m)) f).
Definition exit2 (m : nat) (before : option val) (f : confs) : confs * option exn :=
  match before with
  | Some v => (put m (sset key v (f m)) f, None)
  | None => if has key (f m) then (put m (spop key (f m)) f, None) else (f, Some EKey)
  end.

(** pydantic 1: EM:682-683, EM:687-690.  [cfg m]: self.Config; [mro c]: the class c and those it inherits from. *)
Section One.
Variable cfg : nat -> nat.
Variable mro : nat -> list nat.
Fixpoint lookup (l : list nat) (f : confs) : option val :=
  match l with
  | [] => None
  | c :: l => match sget key (f c) with Some v => Some v | None => lookup l f end
  end.
Definition enter1 (m : nat) (b : bool) (f : confs) : option val * confs :=
  (lookup (mro (cfg m)) f, put (cfg m) (sset key (VBool b) (f (cfg m))) f).
Definition exit1 (m : nat) (before : option val) (f : confs) : confs * option exn :=
  match before with
  | Some v => (put (cfg m) (sset key v (f (cfg m))) f, None)
  | None => if has key (f (cfg m)) then (put (cfg m) (spop key (f (cfg m))) f, None) else (f, Some EAttribute)
  end.
End One.

(** The running uses: of which class, and the local variable [before]. *)
Record state := State { st_conf : confs; st_open : list (nat * (nat * option val)) }.
Fixpoint oget (u : nat) (l : list (nat * (nat * option val))) : option (nat * option val) :=
  match l with [] => None | (x, y) :: l => if Nat.eqb u x then Some y else oget u l end.
Fixpoint oclose (u : nat) (l : list (nat * (nat * option val))) : list (nat * (nat * option val)) :=
  match l with [] => [] | (x, y) :: l => if Nat.eqb u x then l else (x, y) :: oclose u l end.

Section Run.
Variable enter : nat -> bool -> confs -> option val * confs.
Variable exit : nat -> option val -> confs -> confs * option exn.
(** [at_ m]: where assignments go *)
Variable at_ : nat -> nat.
(** One step, and the exception it raises; None: no such step (a running context manager is not entered, one that does not run
    does not end). *)
Definition do_step (a : step) (s : state) : option (state * option exn) :=
  match a with
  | Enter u m b =>
      match oget u (st_open s) with
      | Some _ => None
      | None => let (before, f) := enter m b (st_conf s) in Some (State f ((u, (m, before)) :: st_open s), None)
      end
  | Exit u =>
      match oget u (st_open s) with
      | None => None
      | Some (m, before) => let (f, e) := exit m before (st_conf s) in Some (State f (oclose u (st_open s)), e)
      end
  | Put m k v => Some (State (put (at_ m) (sset k v (st_conf s (at_ m))) (st_conf s)) (st_open s), None)
  end.
(** The steps of a program from the configurations [f]; the last exception of a finally. *)
Fixpoint steps (l : list step) (s : state) : option (state * list exn) :=
  match l with
  | [] => Some (s, [])
  | a :: l =>
      match do_step a s with
      | None => None
      | Some (s, e) =>
          match steps l s with
          | None => None
          | Some (s, es) => Some (s, match e with Some e => e :: es | None => es end)
          end
      end
  end.
Definition run (l : list step) (f : confs) : option (state * list exn) := steps l (State f []).
End Run.
Definition id_ (m : nat) : nat := m.
Definition run2 : list step -> confs -> option (state * list exn) := run enter2 exit2 id_.
Definition run1 (cfg : nat -> nat) (mro : nat -> list nat) : list step -> confs -> option (state * list exn) :=
  run (enter1 cfg mro) (exit1 cfg) cfg.
