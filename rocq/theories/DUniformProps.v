(** Property C64: uniform neighbor sampling through servers.
    [offered wm types x parts l]: [l] are edges on one server matching [x] = (node, time), all
    of them when no type is skipped ([gaps_ok], C59).  [distinct_picks], [filled]: a row is
    filled from distinct positions of these lists. *)
From Coq Require Import Permutation ZifyBool ZifyNat ZifyN.
From Verif Require Import Base Dist WriterModel LoaderModel GraphModel GraphSpec ReservoirModel NeighborModel FeatureModel ServerModel DUniformModel
  LoaderProofs GraphProofs AnswerProofs ShardProofs NeighborProofs UniformProofs ServerProofs DUniformProofs DUniformWithProofs
  Float32 Demo NeighborProps TimeProps ServerProps.
Local Open Scope Q_scope.

(** Without replacement no edge of any server is returned twice, and all are when there are at
    most [count].  Full statement: every set of edges equally likely (false: C19). *)
Theorem C64_distinct_partial :
  forall fadd wval wm split gs nodes types ts count default skip pick ret out,
    Forall2 (converted fadd wval wm) split gs -> stamped nodes ts -> (ret = true -> ts <> None) ->
    Forall (fun parts => Forall (fun x => times_ok true wm parts (snd x)) (stamps nodes ts)) split ->
    (forall s i c, 1 <= skip s i c)%nat -> (forall s i c, pick s i c < count)%nat ->
    may (d_uniform_without skip pick ret gs nodes types ts count default) out ->
    exists rows, out = Ok rows /\
     Forall2 (fun x row => exists ls r, row = filled ls default r /\ distinct_picks count ls r /\ Forall2 (offered wm types x) split ls)
              (stamps nodes ts) rows.
Proof. exact d_without_distinct. Qed.
Print Assumptions C64_distinct_partial.

(** With replacement every slot is a uniform choice from the edges of all servers. *)
Theorem C64_slot_partial :
  forall fadd wval wm split gs nodes types ts count default ret i x,
    Forall2 (converted fadd wval wm) split gs -> stamped nodes ts -> (ret = true -> ts <> None) ->
    Forall (fun parts => Forall (fun x => times_ok false wm parts (snd x)) (stamps nodes ts)) split ->
    nth_error (stamps nodes ts) i = Some x ->
    exists ls, Forall2 (offered wm types x) split ls /\
    forall j f, (j < count)%nat ->
      ex (d_uniform_with ret gs nodes types ts count default) (on_ok (fun rows => f (nth j (nth i rows []) default))) ==
      match concat ls with [] => f default | _ :: _ => qsum f (concat ls) / qnat (length (concat ls)) end.
Proof. exact d_with_uniform. Qed.
Print Assumptions C64_slot_partial.

Theorem C64_shape :
  forall fadd wval wm split gs nodes types ts count default ret out,
    Forall2 (converted fadd wval wm) split gs -> stamped nodes ts -> (ret = true -> ts <> None) ->
    Forall (fun parts => Forall (fun x => times_ok false wm parts (snd x)) (stamps nodes ts)) split ->
    In out (map fst (d_uniform_with ret gs nodes types ts count default)) ->
    exists rows, out = Ok rows /\ length rows = length nodes /\ Forall (fun row => length row = count) rows.
Proof. exact d_with_shape. Qed.
Print Assumptions C64_shape.

(** Node 1 on both servers, with two edges and one. *)
Definition shared_parts : list (list (list record)) :=
  [ [ [nd 1 0 []; ed 1 2 0 one []; ed 1 3 0 two []] ]; [ [nd 1 0 []; ed 1 4 0 half []]; [nd 7 0 []; ed 7 8 0 one []] ] ].
Definition shared_servers := servers None shared_parts [[0]; [1]]%nat.
Definition none3 : slot := (-1, -1, -1)%Z.
Definition at_slot (i j : nat) (d : Z) (rows : list (list slot)) : Q := sdst d (nth j (nth i rows []) none3).

Example C64_case :
  Forall2 (converted f32_add wv None) (map (pick shared_parts) [[0]; [1]]%nat) shared_servers /\
  stamped [9; 1; 7]%Z None /\ (false = true -> @None (list Z) <> None) /\
  Forall (fun parts => Forall (fun x => times_ok false None parts (snd x)) (stamps [9; 1; 7]%Z None)) (map (pick shared_parts) [[0]; [1]]%nat) /\
  map (fun d => Qred (ex (d_uniform_with false shared_servers [9; 1]%Z [0]%Z None 1 none3) (on_ok (at_slot 1 0 d)))) [2; 3; 4; 8; -1]%Z
    = [1 # 3; 1 # 3; 1 # 3; 0; 0] /\
  Qred (ex (d_uniform_with false shared_servers [9; 7]%Z [0]%Z None 2 none3) (on_ok (at_slot 1 1 8))) = 1 /\
  Qred (ex (d_uniform_with false shared_servers [9; 7]%Z [0]%Z None 2 none3) (on_ok (at_slot 0 1 (-1)))) = 1.
Proof.
  split; [apply servers_converted; vm_compute; reflexivity|]. split; [exact I|]. split; [discriminate|].
  split; [repeat (constructor; try exact I)|]. repeat split; vm_compute; reflexivity.
Qed.
Example C64_distinct_case :
  map (fun x => match fst x with Ok rows => map (fun row => map (fun s => fst (fst s)) row) rows | Fail _ => [] end)
    (d_uniform_without (fun _ _ _ => 1%nat) (fun _ _ _ => 0%nat) false shared_servers [1; 9] [0] None 3 none3)%Z
  = repeat [[2; 3; 4]; [-1; -1; -1]]%Z
      (length (d_uniform_without (fun _ _ _ => 1%nat) (fun _ _ _ => 0%nat) false shared_servers [1; 9] [0] None 3 none3)%Z) /\
  ex (d_uniform_without (fun _ _ _ => 1%nat) (fun _ _ _ => 0%nat) false shared_servers [1; 9] [0] None 3 none3)%Z (fun _ => 1) == 1.
Proof. split; vm_compute; reflexivity. Qed.

(** Finding: the slots are not independent.  The client chooses from the rows of the servers,
    not from the edges: with two edges on a single server both slots are equal with
    probability 3/4, locally with probability 1/2. *)
Theorem C64_independent_refuted :
  exists all, convertible None all = true /\
    let both := on_ok (fun rows => ind (forallb (fun r => forallb (fun s => (fst (fst s) =? fst (fst (hd none3 r)))%Z) r) rows)) in
    Qred (ex (d_uniform_with false (servers None all [[0%nat]]) [1] [0] None 2 none3)%Z both) = 3 # 4 /\
    Qred (ex (g_uniform_with false false (load_of None all) [0] 2 none3 1 None)%Z
             (on_ok (fun r => ind (forallb (fun s => (fst (fst s) =? fst (fst (hd none3 r)))%Z) r)))) = 1 # 2.
Proof. exists [ [ [nd 1 0 []; ed 1 2 0 one []; ed 1 3 0 two []] ] ]. repeat split; vm_compute; reflexivity. Qed.
Print Assumptions C64_independent_refuted.

(** Finding: asking for creation times without giving timestamps makes the client fill a null
    pointer. *)
Theorem C64_null_times_refuted :
  exists all, convertible (Some 10%Z) all = true /\
    pr (d_uniform_with true (servers (Some 10%Z) all [[0%nat]]) [1%Z] [0%Z] None 1 none3)
       (fun o => match o with Fail EUB => true | _ => false end) == 1.
Proof. exists [ [ [nd 1 0 []; edt 1 2 0 one 1 (-1)] ] ]. split; vm_compute; reflexivity. Qed.
Print Assumptions C64_null_times_refuted.
