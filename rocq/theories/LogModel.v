(** The logger of the package: src/python/deepgnn/logging_utils.py.

    Threads run get_logger or setup_default_logging_config.  A step is one access to a variable of the
    module, one operation on the lock or one call of logging; the interpreter switches threads between
    steps.  dictConfig is one step, it holds the lock of the module logging.

    Simplifications: [default] says if logging.getLoggerClass() is logging.Logger; logging.getLogger
    answers [obj] for the name of the package; of the handlers of the logger only their kinds are kept;
    exceptions other than that of dictConfig and the ValueError of the azure handler (no key) do not
    happen; levels and the logger "tensorflow" are left out. *)
From Verif Require Import Base.

Inductive ctx := User (enable : bool) | Inner.
Definition enabling (c : ctx) : bool := match c with User e => e | Inner => false end.      (* 153 *)
Inductive outcome := Got (l : option nat) | Returned | Raised.
Inductive pc :=
| Fast | Acquire | Second | Inited                     (* get_logger 144-152 *)
| Class_ (c : ctx) | Enable (c : ctx) | Config (c : ctx) | Azure (c : ctx) | Mark (c : ctx)  (* 127-136 *)
| Assign | Release (o : outcome)                       (* 154-158 *)
| Stop (o : outcome).
Inductive handler := Console | Telemetry.
Record state := State {
  init_ : bool; logger : option nat; lock : option nat; enabled : bool;
  handlers : list handler; configs : list ctx; threads : nat -> pc }.
Definition at_ (th : nat -> pc) (i : nat) (p : pc) : nat -> pc := fun j => if j =? i then p else th j.
Definition move (s : state) (i : nat) (p : pc) : state :=
  State (init_ s) (logger s) (lock s) (enabled s) (handlers s) (configs s) (at_ (threads s) i p).

Section Log.
Variable default : bool.
Variable obj : nat.

(** The exception of a setup leaves the function that called it. *)
Definition raised (c : ctx) : pc := match c with User _ => Stop Raised | Inner => Release Raised end.
(** One step of thread [i]; [bad] says if dictConfig raises, [key] if the azure handler has a key.
    None: the thread waits or has ended. *)
Definition step (i : nat) (bad key : bool) (s : state) : option state :=
  match threads s i with
  | Fast => Some (move s i (match logger s with Some l => Stop (Got (Some l)) | None => Acquire end))
  | Acquire =>
      match lock s with
      | Some _ => None
      | None => Some (State (init_ s) (logger s) (Some i) (enabled s) (handlers s) (configs s) (at_ (threads s) i Second))
      end
  | Second => Some (move s i (match logger s with Some l => Release (Got (Some l)) | None => Inited end))
  | Inited => Some (move s i (if init_ s then Assign else Class_ Inner))
  | Class_ c => Some (move s i (if default then Enable c else Mark c))
  | Enable c => Some (State (init_ s) (logger s) (lock s) (enabling c) (handlers s) (configs s) (at_ (threads s) i (Config c)))
  | Config c =>
      if bad then Some (move s i (raised c))
      else Some (State (init_ s) (logger s) (lock s) (enabled s) [Console] (c :: configs s) (at_ (threads s) i (Azure c)))
  | Azure c =>
      if key then Some (State (init_ s) (logger s) (lock s) (enabled s) (handlers s ++ [Telemetry]) (configs s) (at_ (threads s) i (Mark c)))
      else Some (State (init_ s) (logger s) (lock s) false (handlers s) (configs s) (at_ (threads s) i (Mark c)))
  | Mark c => Some (State true (logger s) (lock s) (enabled s) (handlers s) (configs s)
                     (at_ (threads s) i (match c with User _ => Stop Returned | Inner => Assign end)))
  | Assign => Some (State (init_ s) (Some obj) (lock s) (enabled s) (handlers s) (configs s) (at_ (threads s) i (Release (Got (Some obj)))))
  | Release o => Some (State (init_ s) (logger s) None (enabled s) (handlers s) (configs s) (at_ (threads s) i (Stop o)))
  | Stop _ => None
  end.
(** A schedule: which thread moves, and what fails. A thread that waits is passed over. *)
Fixpoint run (sched : list (nat * bool * bool)) (s : state) : state :=
  match sched with
  | [] => s
  | (i, bad, key) :: t => run t (match step i bad key s with Some s' => s' | None => s end)
  end.
End Log.

(** The start: every thread calls get_logger or sets up with or without telemetry. *)
Inductive program := Get | Setup (enable : bool) | Nothing.
Definition entry (p : program) : pc := match p with Get => Fast | Setup e => Class_ (User e) | Nothing => Stop Returned end.
Definition start (progs : nat -> program) : state := State false None None false [] [] (fun i => entry (progs i)).

(** AzureAppInsightFilter.filter 44-48 on the handlers: how often a record leaves for Azure. *)
Definition sent (enable dimensions : bool) (hs : list handler) : nat :=
  if enable && dimensions then length (filter (fun h => match h with Telemetry => true | Console => false end) hs) else 0.
