From Verif Require Import Base HandlerModel HandlerProofs.

(** C67: no execution in which no client cancels fails an assertion of gRPC, uses an unset
    variable or serves without a request, whatever clients, threads and the destructor do.
    Missing: clients that cancel, see C67_cancel_refuted. *)
Theorem C67_safe_partial :
  forall Payload Reply (impl : list (method * Payload) -> method -> Payload -> bool * Reply) n es,
  forallb (fun e => negb (is_cancel e)) es = true -> run impl n (init n) es <> Crash.
Proof. exact (fun P R => @safe P R). Qed.
Print Assumptions C67_safe_partial.

(** C67: in every execution the requests are those the clients sent, a request is answered at
    most once, those answered are the ones in the log, and an answer is what the service returns
    for this request after the requests answered before.  Missing: the status of six methods,
    see C67_status_refuted. *)
Theorem C67_answers_partial :
  forall Payload Reply (impl : list (method * Payload) -> method -> Payload -> bool * Reply) n es st,
  run impl n (init n) es = Next st ->
  map (fun x => (r_method x, r_payload x)) (reqs st) = flat_map (fun e => match e with Send m p => [(m, p)] | _ => [] end) es /\
  NoDup (map fst (log st)) /\
  (forall r, In r (map fst (log st)) <-> exists x, nth_error (reqs st) r = Some x /\ (r_progress x = Answered \/ r_progress x = Dropped)) /\
  forall before r ok reply after, log st = before ++ (r, (ok, reply)) :: after ->
    exists m p, nth_error (map (fun x => (r_method x, r_payload x)) (reqs st)) r = Some (m, p) /\
      exists calls, map Some calls = map (nth_error (map (fun x => (r_method x, r_payload x)) (reqs st))) (map fst before) /\
        reply = snd (impl calls m p) /\ (keeps_status m = true -> ok = fst (impl calls m p)).
Proof. exact (fun P R => @answers P R). Qed.
Print Assumptions C67_answers_partial.

(** C67: while the server runs, every queue has exactly one call object per method that waits
    for a request (or has just got one). *)
Theorem C67_listening :
  forall Payload Reply (impl : list (method * Payload) -> method -> Payload -> bool * Reply) n es st q m,
  run impl n (init n) es = Next st -> srv st = Running -> q < n ->
  length (filter (fun b => (o_queue b =? q) && method_eqb (o_method b) m && waits b) (objs st)) = 1.
Proof. exact (fun P R => @one_waits P R). Qed.
Print Assumptions C67_listening.

(** C67: when a running server with a thread has nothing more to do, every request ever sent is
    answered.  Missing: cancelled requests and servers without threads, see
    C67_no_threads_refuted. *)
Theorem C67_all_answered_partial :
  forall Payload Reply (impl : list (method * Payload) -> method -> Payload -> bool * Reply) n es st,
  forallb (fun e => negb (is_cancel e)) es = true -> run impl n (init n) es = Next st -> 0 < n -> srv st = Running ->
  (forall e, is_work e = true -> step impl n st e = Stuck) ->
  forall r x, nth_error (reqs st) r = Some x -> r_progress x = Answered /\ In r (map fst (log st)).
Proof. exact (fun P R => @all_answered P R). Qed.
Print Assumptions C67_all_answered_partial.

(** C67: the threads, gRPC and the destructor can only make finitely many steps without a new
    request, and when they have made them all, every thread is joined, every call object deleted,
    and every request answered or refused. *)
Theorem C67_terminates :
  forall Payload Reply (impl : list (method * Payload) -> method -> Payload -> bool * Reply) n es st,
  run impl n (init n) es = Next st ->
  exists bound, forall es' st', forallb (fun e => is_work e || is_end e) es' = true -> run impl n st es' = Next st' -> length es' <= bound.
Proof. intros P R impl n es st H. exists (@cost P R n st). intros es' st'. exact (@work_ends P R impl n es es' st st' H). Qed.
Print Assumptions C67_terminates.

Theorem C67_finished :
  forall Payload Reply (impl : list (method * Payload) -> method -> Payload -> bool * Reply) n es st,
  run impl n (init n) es = Next st -> (forall e, is_work e || is_end e = true -> step impl n st e = Stuck) ->
  joined st = n /\ (forall q, q < n -> thr st q = Done) /\ (forall o b, nth_error (objs st) o = Some b -> o_place b = Freed) /\
  forall r x, nth_error (reqs st) r = Some x -> r_progress x = Refused \/ In r (map fst (log st)).
Proof. exact (fun P R => @finished P R). Qed.
Print Assumptions C67_finished.

(** Two clients, two threads: both requests are served (the second by the object the first
    thread made after taking the first one), then the server stops and deletes everything. *)
Definition count_calls (calls : list (method * nat)) (m : method) (p : nat) : bool * nat := (Nat.even p, length calls * 100 + p).
Definition two_requests : list (event nat) :=
  [Send MSample 7; Send MMetadata 4; Send MSample 5; Match 0 14; Take 0 14; Renew 0; Match 2 30; Match 1 26; Take 1 26; Renew 1; Serve 1; Serve 0;
   Take 0 30; Renew 0; Serve 0; Sent 26 true; Sent 14 false; Take 0 14; Free 0; Take 1 26; Free 1; Sent 30 true].
Definition left_over : list nat := filter (fun o => negb (existsb (Nat.eqb o) [14; 26; 30])) (seq 0 33).
Definition stop_two : list (event nat) :=
  [Flag; Take 0 30; Free 0; Stop; Send MLastN 1; StopDone; Refuse 3; Shut 0] ++ map Close left_over ++
  flat_map (fun o => let q := if (o <? 15) || (o =? 32) then 0 else 1 in [Take q o; Free q]) left_over ++
  [Leave 0; Shut 1; Leave 1; Join 0; Join 1].
Example C67_run :
  match run count_calls 2 (init 2) (two_requests ++ stop_two) with
  | Next st => log st = [(1, (true, 4)); (0, (true, 107)); (2, (true, 205))] /\ joined st = 2 /\
      forallb (fun b => match o_place b with Freed => true | _ => false end) (objs st) = true /\ length (objs st) = 33 /\
      map r_progress (reqs st) = [Answered; Answered; Answered; Refused]
  | _ => False
  end.
Proof. vm_compute. repeat split. Qed.

(** C67 fails when a client cancels (or dies): m_server->Shutdown() no longer waits for the
    request, the destructor shuts the queue down, and the thread registers a new call object
    with it. *)
Theorem C67_cancel_refuted :
  exists es, run count_calls 1 (init 1) es = Crash /\ length (filter is_cancel es) = 1.
Proof. exists [Send MSample 7; Match 0 14; Take 0 14; Cancel 0; Flag; Stop; StopDone; Shut 0; Renew 0]. vm_compute. split; reflexivity. Qed.
Print Assumptions C67_cancel_refuted.

(** C67 fails when hardware_concurrency() is 0 ("not computable"): no request is ever answered. *)
Theorem C67_no_threads_refuted :
  exists st, run count_calls 0 (init 0) [Send MSample 7] = Next st /\
  forall es st', run count_calls 0 st es = Next st' -> log st' = [].
Proof.
  eexists. split; [vm_compute; reflexivity|]. intros es st' H. apply (no_threads _ _ count_calls (Send MSample 7 :: es)). exact H.
Qed.
Print Assumptions C67_no_threads_refuted.

(** C67 fails for the status: an error of Sample reaches the client as OK. *)
Theorem C67_status_refuted :
  exists es st, run count_calls 1 (init 1) es = Next st /\ fst (count_calls [] MSample 7) = false /\ log st = [(0, (true, 7))].
Proof. eexists [Send MSample 7; Match 0 14; Take 0 14; Renew 0; Serve 0], _. split; [vm_compute; reflexivity|]. split; reflexivity. Qed.
Print Assumptions C67_status_refuted.
