From Coq Require Import Permutation.
From Verif Require Import Base WriterModel MetaModel MetaSpec DispatchModel DispatchProofs.

(** C69: whatever the order in which dispatcher and workers act and however little a pipe holds,
    a conversion with PipeDispatcher that ends has the metadata of C12 (every worker has
    converted its lines in their order, every report is taken once). *)
Theorem C69_pipe_result :
  forall L (decode : L -> res (list record)) wval wm offset n lines room es st,
  0 < n ->
  run (convert_add decode wval wm) (convert_close offset) n room n false false (init (fun _ => winit wm) (pipe_program n lines)) es = Some st ->
  dispatcher st = Returned ->
  pipe_meta wval decode wm offset n lines (meta_of wm (arrived st)).
Proof. exact (fun L decode wval wm offset n lines room es st => pipe_result decode wval wm offset n lines room es st). Qed.
Print Assumptions C69_pipe_result.

(** C69: every execution has a bounded number of actions, and if every worker can convert its
    lines, as long as the dispatcher has not returned somebody can act: there is no deadlock.
    Missing: lines that cannot be converted, see C69_bad_line_refuted. *)
Theorem C69_pipe_terminates :
  forall L (decode : L -> res (list record)) wval wm offset n lines room es st,
  0 < n ->
  run (convert_add decode wval wm) (convert_close offset) n room n false false (init (fun _ => winit wm) (pipe_program n lines)) es = Some st ->
  length es <= 2 * length lines + 4 * n + 2.
Proof. exact (fun L decode wval wm offset n lines room es st => pipe_terminates decode wval wm offset n lines room es st). Qed.
Print Assumptions C69_pipe_terminates.
Theorem C69_pipe_progress_partial :
  forall L (decode : L -> res (list record)) wval wm offset n lines room es st,
  0 < n -> (forall m, room [] m = true) ->
  (forall i, i < n -> exists o, MetaModel.worker decode wval wm (offset + i, share n i lines) = Ok o) ->
  run (convert_add decode wval wm) (convert_close offset) n room n false false (init (fun _ => winit wm) (pipe_program n lines)) es = Some st ->
  dispatcher st = Returned \/
  exists e st', step (convert_add decode wval wm) (convert_close offset) n room n false false st e = Some st'.
Proof. exact (fun L decode wval wm offset n lines room es st => pipe_progress decode wval wm offset n lines room es st). Qed.
Print Assumptions C69_pipe_progress_partial.

(** C69: the same for QueueDispatcher with processes, any partition function with values below n
    and any order of the set of active partitions. *)
Theorem C69_queue_result_partial :
  forall L (decode : L -> res (list record)) wval wm offset n lines f order room es st,
  (forall x, In x lines -> f x < n) -> NoDup order -> (forall i, In i order <-> exists x, In x lines /\ f x = i) ->
  run (convert_add decode wval wm) (convert_close offset) n room (length order) true false (init (fun _ => winit wm) (queue_program f order lines)) es = Some st ->
  dispatcher st = Returned ->
  queue_meta wval decode wm f offset n lines (meta_of wm (arrived st)).
Proof. exact (fun L decode wval wm offset n lines f order room es st Hf Hd Ho => queue_result decode wval wm offset n lines f order Hf Hd Ho room es st). Qed.
Print Assumptions C69_queue_result_partial.
Theorem C69_queue_progress_partial :
  forall L (decode : L -> res (list record)) wval wm offset n lines f order room es st,
  (forall x, In x lines -> f x < n) -> NoDup order -> (forall i, In i order <-> exists x, In x lines /\ f x = i) ->
  (forall m, room [] m = true) ->
  (forall i, In i order -> exists o, MetaModel.worker decode wval wm (offset + i, filter (fun x => f x =? i) lines) = Ok o) ->
  run (convert_add decode wval wm) (convert_close offset) n room (length order) true false (init (fun _ => winit wm) (queue_program f order lines)) es = Some st ->
  length es <= 2 * length lines + 4 * n + 2 /\
  (dispatcher st = Returned \/
   exists e st', step (convert_add decode wval wm) (convert_close offset) n room (length order) true false st e = Some st').
Proof.
  exact (fun L decode wval wm offset n lines f order room es st Hf Hd Ho Hr Hw H =>
    conj (queue_terminates decode wval wm offset n lines f order Hf Hd Ho room es st false H)
         (queue_progress decode wval wm offset n lines f order Hf Hd Ho room es st Hr Hw H)).
Qed.
Print Assumptions C69_queue_progress_partial.

(** C69: when one worker cannot convert one of its lines the conversion never ends: no execution
    returns, and there are only finitely many actions. *)
Theorem C69_bad_line_never_returns :
  forall L (decode : L -> res (list record)) wval wm offset n lines room es st i e,
  0 < n -> i < n -> MetaModel.worker decode wval wm (offset + i, share n i lines) = Fail e ->
  run (convert_add decode wval wm) (convert_close offset) n room n false false (init (fun _ => winit wm) (pipe_program n lines)) es = Some st ->
  dispatcher st <> Returned.
Proof. exact (fun L decode wval wm offset n lines room es st i e => pipe_hangs decode wval wm offset n lines room es st i e). Qed.
Print Assumptions C69_bad_line_never_returns.

(** C69: QueueDispatcher with use_threads never returns: join ends with terminate, which threads
    do not have. *)
Theorem C69_queue_threads_never_return :
  forall L (decode : L -> res (list record)) wval wm offset n f order lines room es st,
  0 < n ->
  run (convert_add decode wval wm) (convert_close offset) n room (length order) true true (init (fun _ => winit wm) (queue_program f order lines)) es = Some st ->
  dispatcher st <> Returned.
Proof. exact (fun L decode wval wm offset n f order lines room es st Hn H => threads_fail _ _ n room (length order) es _ st Hn H (fun E => ltac:(discriminate E))). Qed.
Print Assumptions C69_queue_threads_never_return.

Section Demo69.
Let node i t w := Rec i (-1) t w None None [Some [1%N]].
Let edge i j t w := Rec i j t w None None [].
Let lines : list (list record) :=
  [ [node 0 0 1; edge 0 1 0 2; edge 0 2 1 3]; [node 1 2 4]; [edge 2 0 3 5] ]%Z.
Let dec (l : list record) : res (list record) := match l with [] => Fail EAssert | _ => Ok l end.
Let two (q : list (msg (list record))) (m : msg (list record)) : bool := length q <? 2.
Let go n th lines es := run (convert_add dec Z.of_N None) (convert_close 0) n two n false th (init (fun _ => winit None) (pipe_program n lines)) es.
Let enabled n st := existsb (fun e => match step (convert_add dec Z.of_N None) (convert_close 0) n two n false false st e with Some _ => true | None => false end)
  (Send :: Get :: End :: map Recv (seq 0 n) ++ map Put (seq 0 n)).

(** Two workers; the second reports first; the metadata are those of the sequential model. *)
Example C69_two_workers :
  option_map (fun st => (dispatcher st, meta_of None (arrived st)))
    (go 2 false lines [Send; Send; Recv 0; Send; Recv 1; Send; Send; Recv 1; Put 1; Recv 0; Send; Get; Recv 0; Put 0; Get; End]) =
  Some (Returned, MJ 2 2 3 3 4 1 0 [(0, ([1; 0; 0]%Z, [2; 3; 0; 5]%Z)); (1, ([0; 0; 4]%Z, [0; 0; 0; 0]%Z))] [1; 0; 1] [1; 1; 0; 1] (-1)%Z).
Proof. vm_compute. reflexivity. Qed.

(** C69 fails with a line that cannot be decoded: the conversion blocks for ever, in join or,
    when more lines follow than the queue holds, in dispatch. *)
Theorem C69_bad_line_refuted :
  option_map (fun st => (dispatcher st, enabled 1 st)) (go 1 false [ []; [node 0 0 1%N] ] [Send; Recv 0; Send; Send; Send]) = Some (Getting 1, false) /\
  option_map (fun st => (dispatcher st, enabled 1 st)) (go 1 false ([] :: repeat [node 0 0 1%N] 3) [Send; Recv 0; Send; Send]) =
    Some (Sending [(0, Line [node 0 0 1%N]); (0, AllDone)], false).
Proof. split; vm_compute; reflexivity. Qed.
Print Assumptions C69_bad_line_refuted.

(** C69 fails for QueueDispatcher with threads: all is converted, then join raises. *)
Theorem C69_queue_threads_refuted :
  option_map (fun st => (dispatcher st, length (arrived st)))
    (run (convert_add dec Z.of_N None) (convert_close 0) 1 two 1 true true (init (fun _ => winit None) (queue_program (fun _ => 0) [0] lines))
      [Send; Recv 0; Send; Recv 0; Send; Recv 0; Send; Send; Recv 0; Put 0; Get; End]) = Some (Failed, 1).
Proof. vm_compute. reflexivity. Qed.
Print Assumptions C69_queue_threads_refuted.
End Demo69.
