(** Synchronisation of TensorFlow workers with files: src/python/deepgnn/tf/common/dist_sync.py.

    The files of the folder are pairs of a tag and the index of a task: "sync.{tag}.{index}"
    determines both.  Task [t] is created and then calls sync for the tags of [prog t] one after
    the other (horovod_trainer.py 68-70, ps_trainer.py 74-76, trainer.py 132, 237, 336, hooks.py
    44, 65).  A step of a task is one access to the file system; steps of different tasks are
    interleaved.

    Simplifications: tags are numbers; the folder is one consistent file system; no task dies;
    nobody else removes files, so that os.remove does not raise. *)
From Verif Require Import Base.

Definition file := (nat * nat)%type.
Definition file_eqb (a b : file) : bool := (fst a =? fst b) && (snd a =? snd b).
Definition exists_file (f : file) (l : list file) : bool := existsb (file_eqb f) l.
Definition remove_file (f : file) (l : list file) : list file := filter (fun x => negb (file_eqb f x)) l.

Inductive pc :=
| New                          (* not created *)
| Clean (todo : list file)     (* _cleanup_sync_files 28-42 *)
| Sync (k : nat)               (* about to call sync for the k-th time, or done *)
| Check (k i : nat).           (* in the loop 52-57 of call k, looking for the file of task i *)

Record state := State { files : list file; pcs : nat -> pc }.
Definition set_pc (st : state) (t : nat) (p : pc) : nat -> pc := fun j => if j =? t then p else pcs st j.

Section Tasks.
Variables (tasks : nat) (prog : nat -> list nat).

(** One access of task [t]; None: the task sleeps 30 seconds (55) or has nothing left to do. *)
Definition step (st : state) (t : nat) : option state :=
  match pcs st t with
  | New =>                                                         (* 16-26 *)
      Some (State (files st) (set_pc st t (if t =? 0 then Clean (files st) else Sync 0)))
  | Clean [] => Some (State (files st) (set_pc st t (Sync 0)))
  | Clean (f :: rest) => Some (State (remove_file f (files st)) (set_pc st t (Clean rest)))
  | Sync k =>                                                      (* 46-51 *)
      match nth_error (prog t) k with
      | Some tag => Some (State ((tag, t) :: files st) (set_pc st t (Check k 0)))
      | None => None
      end
  | Check k i =>                                                   (* 52-57 *)
      if i <? tasks then
        match nth_error (prog t) k with
        | Some tag => if exists_file (tag, i) (files st) then Some (State (files st) (set_pc st t (Check k (S i)))) else None
        | None => None
        end
      else Some (State (files st) (set_pc st t (Sync (S k))))
  end.

Definition init (stale : list file) : state := State stale (fun _ => New).

(** Any interleaving; a task that sleeps looks again. *)
Fixpoint run (st : state) (schedule : list nat) : state :=
  match schedule with
  | [] => st
  | t :: rest => run (match step st t with Some st' => st' | None => st end) rest
  end.
End Tasks.
