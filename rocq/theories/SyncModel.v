(** Start-up and shutdown through lock files:
    /repo/src/python/deepgnn/graph_engine/backends/snark/synchronized.py (_create_lock_file
    25-36, SynchronizedClient 55-141, _ServerProcess 144-195, SynchronizedServer 198-223).
    Processes and threads are state machines; one event is one visible action of one of them
    and an execution is a list of events.  A check of a lock file and its creation are one
    event (the code checks, then creates); polling without success changes nothing and is not
    an event; sleeping and logging are left out.  Timeouts may strike at any moment. *)
From Verif Require Import Base.

(** *** Servers *)
(** The child process that runs the server: not started, started, server constructed, lock
    file created, stopped by the stop event, or dead for another reason. *)
Inductive child := NotYet | Booting | Built | Listed | Exited | Crashed.
(** The process that owns the SynchronizedServer: before the constructor, before reset, in
    _wait_for_clients, after it, after _stop_event.set, after reset. *)
Inductive parent := PNone | PRun | PWait | PPassed | PSet | PGone.
Record server := Server { v_child : child; v_parent : parent; v_stop : bool }.

(** *** Clients *)
(** self._client: None, connected, after its reset. *)
Inductive conn := Never | Live | Dead.
(** A thread that uses a SynchronizedClient: outside, inside the lock and waiting for servers
    with the indices seen so far, after a wait that timed out and outside of the lock again,
    in reset before the lock, in reset inside the lock after self._client.reset(); [late] tells
    a reset after a timeout from a call of the user. *)
Inductive thread := TRest | TWait (seen : list nat) | TLate | TReset (late : bool) | TClosing (late : bool).
Record client := Client { c_rank : nat; c_owner : bool; c_conn : conn; c_lock : bool; c_threads : nat -> thread }.

Inductive exn := ExAssert | ExMissing | ExTimeout.

Record state := State {
  servers : nat -> server;
  clients : nat -> option client;
  sfiles : list nat;   (* snark_i.server *)
  cfiles : list nat;   (* snark_r.client *)
  raised : list exn }.

Definition upd {A} (f : nat -> A) (i : nat) (a : A) : nat -> A := fun j => if j =? i then a else f j.
Definition drop (r : nat) (l : list nat) : list nat := filter (fun x => negb (x =? r)) l.
Definition has (r : nat) (l : list nat) : bool := existsb (Nat.eqb r) l.

(** The sync folder may hold files of an earlier run. *)
Definition init (sf cf : list nat) : state :=
  State (fun _ => Server NotYet PNone false) (fun _ => None) sf cf [].

Inductive event :=
| SStart (i : nat)            (* SynchronizedServer.__init__ 204-217 *)
| SBuild (i : nat)            (* run: self._server = self._ktr() 185 *)
| SList (i : nat)             (* run: _create_lock_file 186 *)
| SRefuse (i : nat)           (* ... or its assertion fails *)
| SReset (i : nat)            (* reset 219 is called *)
| SPoll (i : nat)             (* _wait_for_clients 161-175: no *.client file is found *)
| SGiveUp (i : nat)           (* ... or the timeout strikes 179-181 *)
| SSet (i : nat)              (* join: _stop_event.set() 193 *)
| SExit (i : nat)             (* run: _stop_event.wait() returns 187, the process ends *)
| SUnlink (i : nat)           (* reset: _delete_lock_file 223 *)
| SCrash (i : nat)            (* the server process dies *)
| CNew (c r : nat)            (* SynchronizedClient.__init__ of object c with rank r 61-81 *)
| CRefuse (c r : nat)         (* ... or its assertion fails *)
| CFork (c d : nat)           (* the process of object c forks, d is the copy *)
| CEnter (c t : nat)          (* client: the lock is taken with self._client = None 87-91 *)
| CSee (c t i : nat)          (* WaitForServer: server file i is there 118-121 *)
| CConnect (c t : nat)        (* all seen: self._client = self._ktr() 92-93 *)
| CExpire (c t : nat)         (* a wait timed out, the lock is released 137-140 *)
| CLate (c t : nat)           (* after the lock 94: reset 96, or another thread has connected *)
| CReset (c t : nat)          (* reset 102 is called *)
| CClose (c t : nat)          (* reset: the lock is taken, self._client.reset() 104-106 *)
| CUnlink (c t : nat)         (* reset: _delete_lock_file unless forked 107-108 *)
| CCrash (c : nat).           (* the process of object c dies *)

Definition set_server (st : state) (i : nat) (v : server) : state :=
  State (upd (servers st) i v) (clients st) (sfiles st) (cfiles st) (raised st).
Definition set_client (st : state) (c : nat) (k : client) : state :=
  State (servers st) (upd (clients st) c (Some k)) (sfiles st) (cfiles st) (raised st).
Definition set_thread (k : client) (t : nat) (th : thread) : client :=
  Client (c_rank k) (c_owner k) (c_conn k) (c_lock k) (upd (c_threads k) t th).
Definition set_lock (k : client) (b : bool) : client :=
  Client (c_rank k) (c_owner k) (c_conn k) b (c_threads k).
Definition set_conn (k : client) (x : conn) : client :=
  Client (c_rank k) (c_owner k) x (c_lock k) (c_threads k).
Definition set_sfiles (st : state) (l : list nat) : state :=
  State (servers st) (clients st) l (cfiles st) (raised st).
Definition set_cfiles (st : state) (l : list nat) : state :=
  State (servers st) (clients st) (sfiles st) l (raised st).
Definition log (st : state) (e : exn) : state :=
  State (servers st) (clients st) (sfiles st) (cfiles st) (raised st ++ [e]).

(** self._client.reset() if it is not None. *)
Definition close_conn (x : conn) : conn := match x with Never => Never | _ => Dead end.
(** Delete a lock file; os.remove raises when there is none. *)
Definition unlink_s (st : state) (i : nat) : state :=
  if has i (sfiles st) then set_sfiles st (drop i (sfiles st)) else log st ExMissing.

Definition server_step (st : state) (i : nat) (e : event) : option state :=
  let v := servers st i in
  let go ch pa b := Some (set_server st i (Server ch pa b)) in
  match e, v_child v, v_parent v with
  | SStart _, NotYet, PNone => go Booting PRun false
  | SBuild _, Booting, p => go Built p (v_stop v)
  | SList _, Built, p =>
      if has i (sfiles st) then None
      else Some (set_sfiles (set_server st i (Server Listed p (v_stop v))) (i :: sfiles st))
  | SRefuse _, Built, p =>
      if has i (sfiles st) then Some (log (set_server st i (Server Crashed p (v_stop v))) ExAssert) else None
  | SReset _, ch, PRun => go ch PWait (v_stop v)
  | SReset _, ch, PGone => go ch PWait (v_stop v)
  | SPoll _, ch, PWait => match cfiles st with [] => go ch PPassed (v_stop v) | _ => None end
  | SGiveUp _, ch, PWait => go ch PPassed (v_stop v)
  | SSet _, ch, PPassed => go ch PSet true
  | SExit _, Listed, p => if v_stop v then go Exited p true else None
  | SUnlink _, ch, PSet => Some (unlink_s (set_server st i (Server ch PGone (v_stop v))) i)
  | SCrash _, Booting, p => go Crashed p (v_stop v)
  | SCrash _, Built, p => go Crashed p (v_stop v)
  | SCrash _, Listed, p => go Crashed p (v_stop v)
  | _, _, _ => None
  end.

Section Servers.
Variable n : nat.  (* num_servers *)

Definition client_step (st : state) (c t : nat) (k : client) (e : event) : option state :=
  let th := c_threads k t in
  match e, th with
  | CEnter _ _, TRest =>
      match c_conn k, c_lock k with
      | Never, false => Some (set_client st c (set_thread (set_lock k true) t (TWait [])))
      | _, _ => None
      end
  | CSee _ _ i, TWait seen =>
      if (i <? n) && has i (sfiles st) then Some (set_client st c (set_thread k t (TWait (i :: seen)))) else None
  | CConnect _ _, TWait seen =>
      if forallb (fun i => has i seen) (seq 0 n)
      then Some (set_client st c (set_thread (set_lock (set_conn k Live) false) t TRest)) else None
  | CExpire _ _, TWait _ => Some (set_client st c (set_thread (set_lock k false) t TLate))
  | CLate _ _, TLate =>
      Some (set_client st c (set_thread k t (match c_conn k with Never => TReset true | _ => TRest end)))
  | CReset _ _, TRest => Some (set_client st c (set_thread k t (TReset false)))
  | CClose _ _, TReset late =>
      if c_lock k then None
      else Some (set_client st c (set_thread (set_lock (set_conn k (close_conn (c_conn k))) true) t (TClosing late)))
  | CUnlink _ _, TClosing late =>
      let st' := set_client st c (set_thread (set_lock k false) t TRest) in
      (* 97: TimeoutError, unless os.remove raised *)
      let ok x := if late then log x ExTimeout else x in
      Some (if c_owner k
            then if has (c_rank k) (cfiles st) then ok (set_cfiles st' (drop (c_rank k) (cfiles st)))
                 else log st' ExMissing
            else ok st')
  | _, _ => None
  end.

Definition step (st : state) (e : event) : option state :=
  match e with
  | SStart i | SBuild i | SList i | SRefuse i | SReset i | SPoll i | SGiveUp i | SSet i | SExit i | SUnlink i | SCrash i =>
      server_step st i e
  | CNew c r =>
      match clients st c with
      | Some _ => None
      | None =>
          if has r (cfiles st) then None
          else Some (set_cfiles (set_client st c (Client r true Never false (fun _ => TRest))) (r :: cfiles st))
      end
  | CRefuse c r =>
      match clients st c with
      | Some _ => None
      | None => if has r (cfiles st) then Some (log st ExAssert) else None
      end
  | CFork c d =>
      match clients st c, clients st d with
      | Some k, None => Some (set_client st d (Client (c_rank k) false (c_conn k) (c_lock k) (fun _ => TRest)))
      | _, _ => None
      end
  | CEnter c t | CSee c t _ | CConnect c t | CExpire c t | CLate c t | CReset c t | CClose c t | CUnlink c t =>
      match clients st c with Some k => client_step st c t k e | None => None end
  | CCrash c =>
      match clients st c with
      | Some k => Some (set_client st c (Client (c_rank k) (c_owner k) Dead true (fun _ => TRest)))
      | None => None
      end
  end.

Fixpoint run (st : state) (tr : list event) : option state :=
  match tr with
  | [] => Some st
  | e :: tr' => match step st e with Some st' => run st' tr' | None => None end
  end.

(** The executions of the code that start with these files. *)
Definition execution (sf cf : list nat) (tr : list event) : Prop := run (init sf cf) tr <> None.
End Servers.
