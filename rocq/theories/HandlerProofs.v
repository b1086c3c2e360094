(** The threads of the server. *)
From Verif Require Import Base HandlerModel.
From Coq Require Import ZifyBool ZifyNat ZifyN.
Local Open Scope nat_scope.

Lemma method_eqb_eq a b : method_eqb a b = true <-> a = b.
Proof. split; [destruct a, b; intros H; try reflexivity; discriminate H|intros <-; now destruct a]. Qed.
Lemma method_in m : In m methods.
Proof. destruct m; cbn; tauto. Qed.

Lemma nth_set {A} (l : list A) i old a j : nth_error l i = Some old -> nth_error (set_nth l i a) j = if j =? i then Some a else nth_error l j.
Proof.
  revert i j. induction l as [|x l IH]; intros [|i] j H; cbn [nth_error] in H; try discriminate; unfold set_nth in *.
  - destruct j as [|j]; reflexivity.
  - destruct j as [|j]; [reflexivity|]. cbn [firstn skipn app nth_error Nat.eqb]. exact (IH i j H).
Qed.
Lemma set_length {A} (l : list A) i old a : nth_error l i = Some old -> length (set_nth l i a) = length l.
Proof.
  revert i. induction l as [|x l IH]; intros [|i] H; cbn [nth_error] in H; try discriminate; unfold set_nth in *; [reflexivity|].
  cbn [firstn skipn app length]. f_equal. exact (IH i H).
Qed.
Definition total {A} (f : A -> nat) (l : list A) : nat := list_sum (map f l).
Lemma total_app {A} (f : A -> nat) l k : total f (l ++ k) = total f l + total f k.
Proof. unfold total. now rewrite map_app, list_sum_app. Qed.
Lemma total_set {A} (f : A -> nat) l i old a : nth_error l i = Some old -> total f (set_nth l i a) + f old = total f l + f a.
Proof.
  revert i. induction l as [|x l IH]; intros [|i] H; cbn [nth_error] in H; try discriminate; unfold set_nth, total in *.
  - injection H as ->. cbn. lia.
  - specialize (IH i H). cbn [firstn skipn app map list_sum fold_right] in *. unfold list_sum in IH. lia.
Qed.
Lemma total_pos {A} (f : A -> nat) l : 0 < total f l -> exists i x, nth_error l i = Some x /\ 0 < f x.
Proof.
  induction l as [|x l IH]; unfold total in *; cbn; [lia|]. intros H. destruct (f x) as [|k] eqn:E.
  - destruct IH as (i & y & H1 & H2); [exact H|]. now exists (S i), y.
  - exists 0, x. cbn. split; [reflexivity|lia].
Qed.
Lemma total_le {A} (f : A -> nat) l i x : nth_error l i = Some x -> f x <= total f l.
Proof.
  revert i. induction l as [|y l IH]; intros [|i] H; cbn [nth_error] in H; try discriminate; unfold total in *; cbn.
  - injection H as ->. lia.
  - specialize (IH i H). unfold list_sum in IH. lia.
Qed.
Lemma nth_snoc {A} (l : list A) a i x : nth_error (l ++ [a]) i = Some x -> nth_error l i = Some x \/ (i = length l /\ x = a).
Proof.
  intros H. destruct (Nat.lt_ge_cases i (length l)) as [L|L]; [left; now rewrite nth_error_app1 in H|right].
  rewrite nth_error_app2 in H by lia. destruct (i - length l) as [|k] eqn:E; cbn in H; [injection H as <-; split; [lia|reflexivity]|destruct k; discriminate].
Qed.
Lemma nth_keep {A} (l k : list A) i x : nth_error l i = Some x -> nth_error (l ++ k) i = Some x.
Proof. intros H. rewrite nth_error_app1; [exact H|]. apply nth_error_Some. congruence. Qed.

Lemma snoc_split {A} (l : list A) z before y after : l ++ [z] = before ++ y :: after ->
  (after = [] /\ l = before /\ z = y) \/ exists after', l = before ++ y :: after'.
Proof.
  destruct after as [|u after] using rev_ind.
  - intros H. apply app_inj_tail in H as [-> ->]. now left.
  - intros H. right. rewrite app_comm_cons, app_assoc in H. apply app_inj_tail in H as [-> _]. now exists after.
Qed.

Section Server.
Context {Payload Reply : Type}.
Variable impl : list (method * Payload) -> method -> Payload -> bool * Reply.
Variable n : nat.
Notation state := (state Payload Reply).
Notation req := (req Payload).
Notation event := (event Payload).
Notation step := (step impl n).
Notation run := (run impl n).
Notation init := (@init Payload Reply n).
Implicit Types st : state.

(** *** The steps that are possible *)
Definition with_srv st f s h j : state := State (objs st) (reqs st) (log st) (thr st) f s h j.
Definition served st o b r x q : state :=
  set_thr (reply_with (mark (put st o (Obj (o_queue b) (o_method b) FINISH Sending (o_req b))) r x
    (match r_progress x with Open _ => Answered | _ => Dropped end)) r
    (sent (o_method b) (impl (history st) (o_method b) (r_payload x)))) q Idle.
Inductive moves st : event -> state -> Prop :=
| M_send m p : moves st (Send m p) (State (objs st) (reqs st ++ [Req m p Pending]) (log st) (thr st) (flag st) (srv st) (shut st) (joined st))
| M_cancel r x o : nth_error (reqs st) r = Some x -> r_progress x = Open o -> moves st (Cancel r) (mark st r x (Cancelled o))
| M_match r o x b : nth_error (reqs st) r = Some x -> nth_error (objs st) o = Some b -> srv st = Running -> r_progress x = Pending ->
    o_place b = Listening -> r_method x = o_method b ->
    moves st (Match r o) (put (mark st r x (Open o)) o (Obj (o_queue b) (o_method b) (o_status b) (Queued true) (Some r)))
| M_refuse r x : nth_error (reqs st) r = Some x -> srv st <> Running -> r_progress x = Pending -> moves st (Refuse r) (mark st r x Refused)
| M_close o b : nth_error (objs st) o = Some b -> srv st <> Running -> o_place b = Listening -> moves st (Close o) (put st o (at_place b (Queued false)))
| M_sent o ok b : nth_error (objs st) o = Some b -> o_place b = Sending -> moves st (Sent o ok) (put st o (at_place b (Queued ok)))
| M_free_take q o b ok : thr st q = Idle -> nth_error (objs st) o = Some b -> o_queue b = q -> o_place b = Queued ok -> ok = false \/ o_status b = FINISH ->
    moves st (Take q o) (set_thr (put st o (at_place b (Held Freeing))) q (Busy o))
| M_take q o b : thr st q = Idle -> nth_error (objs st) o = Some b -> o_queue b = q -> o_place b = Queued true -> o_status b = PROCESS ->
    moves st (Take q o) (set_thr (put st o (at_place b (Held Proceeding))) q (Busy o))
| M_create q o b : thr st q = Idle -> nth_error (objs st) o = Some b -> o_queue b = q -> o_place b = Queued true -> o_status b = CREATE ->
    moves st (Take q o) (put st o (Obj (o_queue b) (o_method b) PROCESS Listening (o_req b)))
| M_renew q o b : thr st q = Busy o -> nth_error (objs st) o = Some b -> o_place b = Held Proceeding -> closed st q = false ->
    moves st (Renew q) (add (put st o (at_place b (Held Serving))) (fresh (o_queue b) (o_method b)))
| M_serve q o b r x : thr st q = Busy o -> nth_error (objs st) o = Some b -> o_place b = Held Serving -> closed st q = false ->
    o_req b = Some r -> nth_error (reqs st) r = Some x -> moves st (Serve q) (served st o b r x q)
| M_free q o b : thr st q = Busy o -> nth_error (objs st) o = Some b -> o_place b = Held Freeing ->
    moves st (Free q) (set_thr (put st o (at_place b Freed)) q Idle)
| M_leave q : thr st q = Idle -> q < n -> closed st q = true -> existsb (in_queue q) (objs st) = false -> flag st = true ->
    moves st (Leave q) (set_thr st q Done)
| M_flag : flag st = false -> moves st (Flag) (with_srv st true (srv st) (shut st) (joined st))
| M_stop : flag st = true -> srv st = Running -> moves st (Stop) (with_srv st (flag st) Stopping (shut st) (joined st))
| M_stopdone : srv st = Stopping -> existsb (is_open) (reqs st) = false ->
    moves st (StopDone) (with_srv st (flag st) Stopped (shut st) (joined st))
| M_shut : srv st = Stopped -> shut st < n ->
    moves st (Shut (shut st)) (with_srv st (flag st) (srv st) (S (shut st)) (joined st))
| M_join : thr st (joined st) = Done -> shut st = n -> joined st < n ->
    moves st (Join (joined st)) (with_srv st (flag st) (srv st) (shut st) (S (joined st))).

Lemma step_moves st e st' : step st e = Next st' -> moves st e st'.
Proof.
  destruct e as [m p|r|r o|r|o|o ok|q o|q|q|q|q| | | |q|q]; cbn [HandlerModel.step]; intros H.
  - injection H as <-. constructor.
  - destruct (nth_error _ r) as [x|] eqn:E; [|discriminate]. destruct (r_progress x) eqn:P; try discriminate. injection H as <-. now constructor.
  - destruct (nth_error (reqs _) r) as [x|] eqn:E; [|discriminate]. destruct (nth_error (objs _) o) as [b|] eqn:F; [|discriminate].
    destruct (srv st) eqn:S; try discriminate. destruct (r_progress x) eqn:P; try discriminate. destruct (o_place b) eqn:Q; try discriminate.
    destruct (method_eqb _ _) eqn:M; [|discriminate]. apply method_eqb_eq in M. injection H as <-. now apply M_match.
  - destruct (nth_error _ r) as [x|] eqn:E; destruct (srv st) eqn:S; try discriminate; (destruct (r_progress x) eqn:P; try discriminate); injection H as <-;
      (constructor; [exact E|congruence|exact P]).
  - destruct (nth_error _ o) as [x|] eqn:E; destruct (srv st) eqn:S; try discriminate; (destruct (o_place x) eqn:P; try discriminate); injection H as <-;
      (constructor; [exact E|congruence|exact P]).
  - destruct (nth_error _ o) as [x|] eqn:E; [|discriminate]. destruct (o_place x) eqn:P; try discriminate. injection H as <-. now constructor.
  - destruct (thr st q) eqn:T; try discriminate. destruct (nth_error _ o) as [b|] eqn:E; [|discriminate].
    destruct (o_queue b =? q) eqn:Q; [|discriminate]. apply Nat.eqb_eq in Q. destruct (o_place b) as [|[|]| | |] eqn:P; try discriminate.
    + destruct (o_status b) eqn:S.
      * destruct (closed st q); [discriminate|]. injection H as <-. now apply M_create.
      * injection H as <-. now apply M_take.
      * injection H as <-. apply (M_free_take st q o b true); auto.
    + injection H as <-. apply (M_free_take st q o b false); auto.
  - destruct (thr st q) as [|o|] eqn:T; try discriminate. destruct (nth_error _ o) as [b|] eqn:E; [|discriminate].
    destruct (o_place b) as [| |[| |]| |] eqn:P; try discriminate. destruct (closed st q) eqn:C; [discriminate|]. injection H as <-. now apply M_renew.
  - destruct (thr st q) as [|o|] eqn:T; try discriminate. destruct (nth_error (objs _) o) as [b|] eqn:E; [|discriminate].
    destruct (o_place b) as [| |[| |]| |] eqn:P; try discriminate. destruct (closed st q) eqn:C; [discriminate|].
    destruct (o_req b) as [r|] eqn:R; [|discriminate]. destruct (nth_error (reqs _) r) as [x|] eqn:X; [|discriminate].
    injection H as <-. change (moves st (Serve q) (set_thr (reply_with (mark (put st o (Obj (o_queue b) (o_method b) FINISH Sending (Some r))) r x
      (match r_progress x with Open _ => Answered | _ => Dropped end)) r (sent (o_method b) (impl (history st) (o_method b) (r_payload x)))) q Idle)).
    rewrite <- R. now apply (M_serve st q o b r x).
  - destruct (thr st q) as [|o|] eqn:T; try discriminate. destruct (nth_error _ o) as [b|] eqn:E; [|discriminate].
    destruct (o_place b) as [| |[| |]| |] eqn:P; try discriminate. injection H as <-. now apply M_free.
  - destruct (thr st q) as [|o|] eqn:T; try discriminate. destruct ((q <? n) && closed st q && negb _) eqn:C; [|discriminate].
    destruct (flag st) eqn:F; [|discriminate]. injection H as <-. apply andb_true_iff in C as [C C3]. apply andb_true_iff in C as [C1 C2].
    apply M_leave; auto; [lia|]. now destruct (existsb _ _).
  - destruct (flag st) eqn:F; [discriminate|]. injection H as <-. now apply M_flag.
  - destruct (flag st) eqn:F; [|discriminate]. destruct (srv st) eqn:S; try discriminate. injection H as <-. rewrite <- F. now apply M_stop.
  - destruct (srv st) eqn:S; try discriminate. destruct (existsb _ _) eqn:E; [discriminate|]. injection H as <-. now apply M_stopdone.
  - destruct (srv st) eqn:S; try discriminate. destruct ((q =? _) && _) eqn:E; [|discriminate]. apply andb_true_iff in E as [E1 E2].
    apply Nat.eqb_eq in E1. subst q. injection H as <-. rewrite <- S. apply M_shut; [exact S|lia].
  - destruct (thr st q) eqn:T; try discriminate. destruct ((_ =? n) && _ && _) eqn:E; [|discriminate]. apply andb_true_iff in E as [E E3].
    apply andb_true_iff in E as [E1 E2]. apply Nat.eqb_eq in E2. subst q. injection H as <-. apply M_join; [exact T|lia|lia].
Qed.

(** *** Call objects, threads and requests fit together *)
Definition taken (x : req) (o : nat) : Prop := r_progress x = Open o \/ r_progress x = Cancelled o.
Definition holds (rs : list req) (o : nat) (b : obj) : Prop :=
  exists r x, o_req b = Some r /\ nth_error rs r = Some x /\ r_method x = o_method b /\ taken x o.
Definition obj_ok (rs : list req) (th : nat -> thread) (sv : server) (o : nat) (b : obj) : Prop :=
  o_queue b < n /\
  match o_place b with
  | Listening => o_status b = PROCESS /\ o_req b = None
  | Queued true => (o_status b = PROCESS /\ holds rs o b) \/ o_status b = FINISH
  | Queued false => (o_status b = PROCESS /\ sv <> Running) \/ o_status b = FINISH
  | Held Freeing => th (o_queue b) = Busy o
  | Held _ => o_status b = PROCESS /\ holds rs o b /\ th (o_queue b) = Busy o
  | Sending => o_status b = FINISH
  | Freed => True
  end.
Definition unanswered (b : obj) : Prop :=
  o_place b = Queued true /\ o_status b = PROCESS \/ o_place b = Held Proceeding \/ o_place b = Held Serving.
Record fits st : Prop := Fits {
  f_obj : forall o b, nth_error (objs st) o = Some b -> obj_ok (reqs st) (thr st) (srv st) o b;
  f_thr : forall q o, thr st q = Busy o -> exists b s, nth_error (objs st) o = Some b /\ o_queue b = q /\ o_place b = Held s;
  f_req : forall r x o, nth_error (reqs st) r = Some x -> taken x o -> exists b, nth_error (objs st) o = Some b /\ o_req b = Some r /\ unanswered b }.

Lemma holds_mono rs rs' o b : holds rs o b ->
  (forall r x, nth_error rs r = Some x -> taken x o -> exists x', nth_error rs' r = Some x' /\ r_method x' = r_method x /\ taken x' o) -> holds rs' o b.
Proof. intros (r & x & E & X & M & T) H. destruct (H r x X T) as (x' & X' & M' & T'). exists r, x'. repeat (split; [congruence|]). exact T'. Qed.
Lemma obj_ok_mono rs rs' th th' sv sv' o b : obj_ok rs th sv o b ->
  (forall r x, nth_error rs r = Some x -> taken x o -> exists x', nth_error rs' r = Some x' /\ r_method x' = r_method x /\ taken x' o) ->
  (forall q, th q = Busy o -> th' q = Busy o) -> (sv <> Running -> sv' <> Running) -> obj_ok rs' th' sv' o b.
Proof.
  intros [Q H] Hr Ht Hs. split; [exact Q|]. destruct (o_place b) as [|[|]|[| |]| |]; auto.
  - destruct H as [[H1 H2]|H]; [left|right; exact H]. split; [exact H1|]. exact (holds_mono _ _ _ _ H2 Hr).
  - destruct H as [[H1 H2]|H]; [left|right; exact H]. split; auto.
  - destruct H as (H1 & H2 & H3). split; [exact H1|]. split; [exact (holds_mono _ _ _ _ H2 Hr)|auto].
  - destruct H as (H1 & H2 & H3). split; [exact H1|]. split; [exact (holds_mono _ _ _ _ H2 Hr)|auto].
Qed.
Lemma keep_reqs (rs : list req) o : forall r x, nth_error rs r = Some x -> taken x o -> exists x', nth_error rs r = Some x' /\ r_method x' = r_method x /\ taken x' o.
Proof. intros r x H T. now exists x. Qed.
(** Marking a request that is not [o]'s leaves [o]'s requests alone. *)
Lemma mark_reqs (rs : list req) r0 x0 p o : nth_error rs r0 = Some x0 -> (taken x0 o -> taken (Req (r_method x0) (r_payload x0) p) o) ->
  forall r x, nth_error rs r = Some x -> taken x o -> exists x', nth_error (set_nth rs r0 (Req (r_method x0) (r_payload x0) p)) r = Some x' /\ r_method x' = r_method x /\ taken x' o.
Proof.
  intros H0 H r x X T. rewrite (nth_set _ _ _ _ _ H0). destruct (r =? r0) eqn:E; [|now exists x]. apply Nat.eqb_eq in E. subst r0.
  assert (x0 = x) by congruence. subst x0. eexists. split; [reflexivity|]. split; [reflexivity|]. exact (H T).
Qed.
Lemma upd_same {A} (f : nat -> A) i a : upd f i a i = a.
Proof. unfold upd. now rewrite Nat.eqb_refl. Qed.
Lemma upd_other {A} (f : nat -> A) i a j : j <> i -> upd f i a j = f j.
Proof. intros H. unfold upd. apply Nat.eqb_neq in H. now rewrite H. Qed.
Lemma taken_one (x : req) o o' : taken x o -> taken x o' -> o = o'.
Proof. intros [H|H] [K|K]; congruence. Qed.

Lemma fits_init : fits init.
Proof.
  split; cbn [objs reqs thr srv HandlerModel.init].
  - intros o b H. apply nth_error_In, in_flat_map in H as (q & Hq & H). apply in_map_iff in H as (m & <- & _). apply in_seq in Hq. split; cbn; [lia|auto].
  - discriminate.
  - intros [|r] x o H; discriminate.
Qed.

Ltac obj_cases E := intros o' b' H'; cbn [objs reqs thr srv put mark set_thr reply_with served add with_srv] in *;
  rewrite (nth_set _ _ _ _ _ E) in H'; destruct (o' =? _) eqn:Eo;
  [apply Nat.eqb_eq in Eo; subst o'; injection H' as <- | apply Nat.eqb_neq in Eo].
Lemma fits_step st e st' : fits st -> moves st e st' -> fits st'.
Proof.
  intros [FO FT FR] M. destruct M as [m p|r x o X P|r o x b X B S P L MM|r x X S P|o b B S L|o ok b B L|q o b ok T B Q L OK|q o b T B Q L PS
    |q o b T B Q L CS|q o b T B L C|q o b r x T B L C R X|q o b T B L|q T Q C E F|F|F S|S E|S Q|T Q J].
  - (* Send *) split; cbn [objs reqs thr srv].
    + intros o b H. refine (obj_ok_mono _ _ _ _ _ _ _ _ (FO o b H) _ (fun q K => K) (fun K => K)). intros r x Hx Tx. exists x. split; [now apply nth_keep|auto].
    + exact FT.
    + intros r x o H Tx. apply nth_snoc in H as [H|[-> ->]]; [exact (FR r x o H Tx)|]. destruct Tx; discriminate.
  - (* Cancel *) split; cbn [objs reqs thr srv mark].
    + intros o' b H. refine (obj_ok_mono _ _ _ _ _ _ _ _ (FO o' b H) (mark_reqs _ _ _ _ _ X _) (fun q K => K) (fun K => K)).
      intros [T|T]; right; cbn; congruence.
    + exact FT.
    + intros r' x' o' H Tx. rewrite (nth_set _ _ _ _ _ X) in H. destruct (r' =? r) eqn:E; [|exact (FR r' x' o' H Tx)].
      apply Nat.eqb_eq in E. subst r'. injection H as <-. apply (FR r x o' X). destruct Tx as [T|T]; cbn in T; [discriminate|]. left. congruence.
  - (* Match *) split.
    + obj_cases B.
      * destruct (FO o b B) as [Q K]. rewrite L in K. destruct K as [K1 K2]. split; cbn; [exact Q|]. left. split; [exact K1|].
        exists r. eexists. split; [reflexivity|]. rewrite (nth_set _ _ _ _ _ X), Nat.eqb_refl. split; [reflexivity|]. split; [exact MM|]. left. reflexivity.
      * refine (obj_ok_mono _ _ _ _ _ _ _ _ (FO o' b' H') (mark_reqs _ _ _ _ _ X _) (fun q K => K) (fun K => K)). intros [T|T]; congruence.
    + intros q o' T'. cbn [objs reqs thr srv put mark] in *. destruct (FT q o' T') as (b' & s & B' & Q' & P'). rewrite (nth_set _ _ _ _ _ B).
      destruct (o' =? o) eqn:E; [apply Nat.eqb_eq in E; congruence|]. now exists b', s.
    + intros r' x' o' H Tx. cbn [objs reqs thr srv put mark] in *. rewrite (nth_set _ _ _ _ _ X) in H. rewrite (nth_set _ _ _ _ _ B). destruct (r' =? r) eqn:E.
      * apply Nat.eqb_eq in E. subst r'. injection H as <-. destruct Tx as [Tx|Tx]; cbn in Tx; [|discriminate]. injection Tx as <-. rewrite Nat.eqb_refl.
        eexists. split; [reflexivity|]. split; [reflexivity|]. left. cbn. split; [reflexivity|]. destruct (FO o b B) as [_ K]. rewrite L in K. apply K.
      * destruct (FR r' x' o' H Tx) as (b' & B' & R' & U). destruct (o' =? o) eqn:Eo; [|now exists b'].
        apply Nat.eqb_eq in Eo. subst o'. assert (b' = b) by congruence. subst b'. destruct U as [[U _]|[U|U]]; congruence.
  - (* Refuse *) split; cbn [objs reqs thr srv mark].
    + intros o' b H. refine (obj_ok_mono _ _ _ _ _ _ _ _ (FO o' b H) (mark_reqs _ _ _ _ _ X _) (fun q K => K) (fun K => K)).
      intros [T|T]; congruence.
    + exact FT.
    + intros r' x' o' H Tx. rewrite (nth_set _ _ _ _ _ X) in H. destruct (r' =? r) eqn:E; [|exact (FR r' x' o' H Tx)].
      injection H as <-. destruct Tx as [T|T]; cbn in T; discriminate.
  - (* Close *) split.
    + obj_cases B; [|exact (FO o' b' H')]. destruct (FO o b B) as [Q K]. rewrite L in K. split; cbn; [exact Q|]. left. split; [apply K|exact S].
    + intros q o' T'. cbn [objs reqs thr srv put mark] in *. destruct (FT q o' T') as (b' & s & B' & Q' & P'). rewrite (nth_set _ _ _ _ _ B).
      destruct (o' =? o) eqn:E; [apply Nat.eqb_eq in E; congruence|]. now exists b', s.
    + intros r' x' o' H Tx. cbn [objs reqs thr srv put mark] in *. rewrite (nth_set _ _ _ _ _ B). destruct (FR r' x' o' H Tx) as (b' & B' & R' & U).
      destruct (o' =? o) eqn:Eo; [|now exists b']. apply Nat.eqb_eq in Eo. subst o'. assert (b' = b) by congruence. subst b'. destruct U as [[U _]|[U|U]]; congruence.
  - (* Sent *) split.
    + obj_cases B; [|exact (FO o' b' H')]. destruct (FO o b B) as [Q K]. rewrite L in K. split; cbn; [exact Q|]. destruct ok; right; exact K.
    + intros q o' T'. cbn [objs reqs thr srv put mark] in *. destruct (FT q o' T') as (b' & s & B' & Q' & P'). rewrite (nth_set _ _ _ _ _ B).
      destruct (o' =? o) eqn:E; [apply Nat.eqb_eq in E; congruence|]. now exists b', s.
    + intros r' x' o' H Tx. cbn [objs reqs thr srv put mark] in *. rewrite (nth_set _ _ _ _ _ B). destruct (FR r' x' o' H Tx) as (b' & B' & R' & U).
      destruct (o' =? o) eqn:Eo; [|now exists b']. apply Nat.eqb_eq in Eo. subst o'. assert (b' = b) by congruence. subst b'. destruct U as [[U _]|[U|U]]; congruence.
  - (* Take, to delete *) split.
    + obj_cases B.
      * destruct (FO o b B) as [K _]. split; cbn; [exact K|]. subst q. apply upd_same.
      * refine (obj_ok_mono _ _ _ _ _ _ _ _ (FO o' b' H') (keep_reqs _ _) _ (fun K => K)). intros q' K. rewrite upd_other; [exact K|congruence].
    + intros q' o' T'. cbn [objs reqs thr srv put mark set_thr] in *. rewrite (nth_set _ _ _ _ _ B). destruct (Nat.eq_dec q' q) as [->|Nq].
      * rewrite upd_same in T'. injection T' as <-. rewrite Nat.eqb_refl. eexists _, Freeing. split; [reflexivity|]. split; [exact Q|reflexivity].
      * rewrite upd_other in T' by exact Nq. destruct (FT q' o' T') as (b' & s & B' & Q' & P').
        destruct (o' =? o) eqn:E; [apply Nat.eqb_eq in E; congruence|]. now exists b', s.
    + intros r' x' o' H Tx. cbn [objs reqs thr srv put mark set_thr] in *. rewrite (nth_set _ _ _ _ _ B). destruct (FR r' x' o' H Tx) as (b' & B' & R' & U).
      destruct (o' =? o) eqn:Eo; [|now exists b']. apply Nat.eqb_eq in Eo. subst o'. assert (b' = b) by congruence. subst b'.
      destruct U as [[U U']|[U|U]]; [|congruence|congruence]. destruct OK as [->|OK]; congruence.
  - (* Take, to proceed *) split.
    + obj_cases B.
      * destruct (FO o b B) as [K H]. rewrite L in H. split; cbn; [exact K|]. split; [exact PS|]. subst q. split; [|apply upd_same].
        destruct H as [[_ H]|H]; [exact H|congruence].
      * refine (obj_ok_mono _ _ _ _ _ _ _ _ (FO o' b' H') (keep_reqs _ _) _ (fun K => K)). intros q' K. rewrite upd_other; [exact K|congruence].
    + intros q' o' T'. cbn [objs reqs thr srv put mark set_thr] in *. rewrite (nth_set _ _ _ _ _ B). destruct (Nat.eq_dec q' q) as [->|Nq].
      * rewrite upd_same in T'. injection T' as <-. rewrite Nat.eqb_refl. eexists _, Proceeding. split; [reflexivity|]. split; [exact Q|reflexivity].
      * rewrite upd_other in T' by exact Nq. destruct (FT q' o' T') as (b' & s & B' & Q' & P').
        destruct (o' =? o) eqn:E; [apply Nat.eqb_eq in E; congruence|]. now exists b', s.
    + intros r' x' o' H Tx. cbn [objs reqs thr srv put mark set_thr] in *. rewrite (nth_set _ _ _ _ _ B). destruct (FR r' x' o' H Tx) as (b' & B' & R' & U).
      destruct (o' =? o) eqn:Eo; [|now exists b']. apply Nat.eqb_eq in Eo. subst o'. assert (b' = b) by congruence. subst b'.
      eexists. split; [reflexivity|]. split; [exact R'|]. right. left. reflexivity.
  - (* Proceed in CREATE *) exfalso. destruct (FO o b B) as [_ H]. rewrite L in H. destruct H as [[H _]|H]; congruence.
  - (* Renew *) destruct (FO o b B) as [Qn K]. rewrite L in K. destruct K as (K1 & K2 & K3).
    assert (Len : length (set_nth (objs st) o (at_place b (Held Serving))) = length (objs st)) by exact (set_length _ _ _ _ B).
    split; cbn [objs reqs thr srv put add].
    + intros o' b' H'. apply nth_snoc in H' as [H'|[-> ->]]; [|split; cbn; auto]. rewrite (nth_set _ _ _ _ _ B) in H'. destruct (o' =? o) eqn:Eo.
      * apply Nat.eqb_eq in Eo. subst o'. injection H' as <-. split; cbn; auto.
      * exact (FO o' b' H').
    + intros q' o' T'. destruct (FT q' o' T') as (b' & s & B' & Q' & P'). destruct (Nat.eq_dec o' o) as [->|No].
      * eexists _, Serving. split; [apply nth_keep; rewrite (nth_set _ _ _ _ _ B), Nat.eqb_refl; reflexivity|]. split; [cbn; congruence|reflexivity].
      * exists b', s. split; [apply nth_keep; rewrite (nth_set _ _ _ _ _ B); apply Nat.eqb_neq in No; now rewrite No|auto].
    + intros r' x' o' H Tx. destruct (FR r' x' o' H Tx) as (b' & B' & R' & U). destruct (Nat.eq_dec o' o) as [->|No].
      * eexists. split; [apply nth_keep; rewrite (nth_set _ _ _ _ _ B), Nat.eqb_refl; reflexivity|]. split; [cbn; congruence|]. right. right. reflexivity.
      * exists b'. split; [apply nth_keep; rewrite (nth_set _ _ _ _ _ B); apply Nat.eqb_neq in No; now rewrite No|auto].
  - (* Serve *) destruct (FO o b B) as [Qn K]. rewrite L in K. destruct K as (K1 & (r1 & x1 & E1 & X1 & M1 & T1) & K3).
    assert (r1 = r) by congruence. subst r1. assert (x1 = x) by congruence. subst x1. assert (Qq : o_queue b = q).
    { destruct (FT q o T) as (b2 & s2 & B2 & Q2 & _). congruence. }
    split.
    + obj_cases B; [split; cbn; auto|].
      refine (obj_ok_mono _ _ _ _ _ _ _ _ (FO o' b' H') (mark_reqs _ _ _ _ _ X _) _ (fun K => K)).
      * intros T'. exfalso. apply Eo. exact (taken_one _ _ _ T' T1).
      * intros q' K. destruct (Nat.eq_dec q' q) as [->|Nq]; [congruence|]. now rewrite upd_other.
    + intros q' o' T'. unfold served in *. cbn [objs reqs thr srv put mark set_thr reply_with] in *. destruct (Nat.eq_dec q' q) as [->|Nq].
      * rewrite upd_same in T'. discriminate.
      * rewrite upd_other in T' by exact Nq. destruct (FT q' o' T') as (b' & s & B' & Q' & P'). rewrite (nth_set _ _ _ _ _ B).
        destruct (o' =? o) eqn:E; [apply Nat.eqb_eq in E; congruence|]. now exists b', s.
    + intros r' x' o' H Tx. unfold served in *. cbn [objs reqs thr srv put mark set_thr reply_with] in *. rewrite (nth_set _ _ _ _ _ X) in H. destruct (r' =? r) eqn:E.
      * injection H as <-. destruct Tx as [Tx|Tx]; cbn in Tx; destruct (r_progress x); discriminate.
      * destruct (FR r' x' o' H Tx) as (b' & B' & R' & U). rewrite (nth_set _ _ _ _ _ B). destruct (o' =? o) eqn:Eo; [|now exists b'].
        apply Nat.eqb_eq in Eo. apply Nat.eqb_neq in E. congruence.
  - (* Free *) assert (Qq : o_queue b = q).
    { destruct (FT q o T) as (b2 & s2 & B2 & Q2 & _). congruence. }
    split.
    + obj_cases B.
      * destruct (FO o b B) as [K _]. split; cbn; auto.
      * refine (obj_ok_mono _ _ _ _ _ _ _ _ (FO o' b' H') (keep_reqs _ _) _ (fun K => K)). intros q' K. rewrite upd_other; [exact K|congruence].
    + intros q' o' T'. cbn [objs reqs thr srv put mark set_thr] in *. rewrite (nth_set _ _ _ _ _ B). destruct (Nat.eq_dec q' q) as [->|Nq].
      * rewrite upd_same in T'. discriminate.
      * rewrite upd_other in T' by exact Nq. destruct (FT q' o' T') as (b' & s & B' & Q' & P').
        destruct (o' =? o) eqn:E; [apply Nat.eqb_eq in E; congruence|]. now exists b', s.
    + intros r' x' o' H Tx. cbn [objs reqs thr srv put mark set_thr] in *. rewrite (nth_set _ _ _ _ _ B). destruct (FR r' x' o' H Tx) as (b' & B' & R' & U).
      destruct (o' =? o) eqn:Eo; [|now exists b']. apply Nat.eqb_eq in Eo. subst o'. assert (b' = b) by congruence. subst b'. destruct U as [[U _]|[U|U]]; congruence.
  - (* Leave *) split; cbn [objs reqs thr srv set_thr].
    + intros o' b H. refine (obj_ok_mono _ _ _ _ _ _ _ _ (FO o' b H) (keep_reqs _ _) _ (fun K => K)). intros q' K. rewrite upd_other; [exact K|congruence].
    + intros q' o' T'. destruct (Nat.eq_dec q' q) as [->|Nq]; [rewrite upd_same in T'; discriminate|]. rewrite upd_other in T' by exact Nq. exact (FT q' o' T').
    + exact FR.
  - split; [exact FO|exact FT|exact FR].
  - split; [|exact FT|exact FR]. intros o b H. refine (obj_ok_mono _ _ _ _ _ _ _ _ (FO o b H) (keep_reqs _ _) (fun q K => K) _). discriminate.
  - split; [|exact FT|exact FR]. intros o b H. refine (obj_ok_mono _ _ _ _ _ _ _ _ (FO o b H) (keep_reqs _ _) (fun q K => K) _). discriminate.
  - split; [exact FO|exact FT|exact FR].
  - split; [exact FO|exact FT|exact FR].
Qed.

(** *** Stopping *)
Record stops st : Prop := Stops {
  s_flag : srv st <> Running -> flag st = true;
  s_shut : 0 < shut st -> srv st = Stopped;
  s_open : srv st = Stopped -> forall r x, nth_error (reqs st) r = Some x -> is_open x = false;
  s_num : shut st <= n /\ joined st <= n;
  s_done : forall q, thr st q = Done -> q < shut st /\ q < n /\ forall o b, nth_error (objs st) o = Some b -> o_queue b = q -> o_place b = Freed;
  s_join : forall q, q < joined st -> thr st q = Done }.
Lemma stops_init : stops init.
Proof. split; cbn; try discriminate; try lia; congruence. Qed.
Lemma not_in_queue (l : list obj) q o b : existsb (in_queue q) l = false -> nth_error l o = Some b -> in_queue q b = false.
Proof.
  intros H B. destruct (in_queue q b) eqn:E; [|reflexivity]. assert (existsb (in_queue q) l = true); [|congruence].
  apply existsb_exists. exists b. split; [exact (nth_error_In _ _ B)|exact E].
Qed.
Lemma no_open (rs : list req) r x : existsb is_open rs = false -> nth_error rs r = Some x -> is_open x = false.
Proof.
  intros H B. destruct (is_open x) eqn:E; [|reflexivity]. assert (existsb is_open rs = true); [|congruence].
  apply existsb_exists. exists x. split; [exact (nth_error_In _ _ B)|exact E].
Qed.
(** The threads that are done have no objects left to change. *)
Lemma done_set st o b b' : (forall q, thr st q = Done -> q < shut st /\ q < n /\ forall o b, nth_error (objs st) o = Some b -> o_queue b = q -> o_place b = Freed) ->
  nth_error (objs st) o = Some b -> o_queue b' = o_queue b -> o_place b <> Freed ->
  forall q, thr st q = Done -> q < shut st /\ q < n /\ forall o' b0, nth_error (set_nth (objs st) o b') o' = Some b0 -> o_queue b0 = q -> o_place b0 = Freed.
Proof.
  intros SD B Eq NF q T. destruct (SD q T) as (H1 & H2 & H3). repeat (split; [assumption|]). intros o' b0 H Q. rewrite (nth_set _ _ _ _ _ B) in H.
  destruct (o' =? o) eqn:E; [|exact (H3 o' b0 H Q)]. injection H as <-. exfalso. apply NF. apply (H3 o b B). congruence.
Qed.
Lemma stops_step st e st' : fits st -> stops st -> moves st e st' -> stops st'.
Proof.
  intros [FO FT FR] [SF SS SO [SN SJ] SD SJN] M. destruct M as [m p|r x o X P|r o x b X B S P L MM|r x X S P|o b B S L|o ok b B L|q o b ok T B Q L OK|q o b T B Q L PS
    |q o b T B Q L CS|q o b T B L C|q o b r x T B L C R X|q o b T B L|q T Q C E F|F|F S|S E|S Q|T Q J];
    unfold served; split; cbn [objs reqs thr srv flag shut joined put add mark set_thr reply_with with_srv]; auto; try lia; try congruence;
    try (apply (done_set st o b); [exact SD|exact B|reflexivity|congruence]).
  - intros S r x H. apply nth_snoc in H as [H|[_ ->]]; [exact (SO S r x H)|reflexivity].
  - intros S r' x' H. rewrite (nth_set _ _ _ _ _ X) in H. destruct (r' =? r); [injection H as <-; reflexivity|exact (SO S r' x' H)].
  - intros S' r' x' H. rewrite (nth_set _ _ _ _ _ X) in H. destruct (r' =? r); [injection H as <-; reflexivity|exact (SO S' r' x' H)].
  - intros q' T'. destruct (Nat.eq_dec q' q) as [->|Nq]; [rewrite upd_same in T'; discriminate|]. rewrite upd_other in T' by exact Nq. revert q' T' Nq.
    assert (K := done_set st o b (at_place b (Held Freeing)) SD B eq_refl ltac:(congruence)). intros q' T' _. exact (K q' T').
  - intros q' H. assert (q' <> q) by (intros ->; specialize (SJN q H); congruence). rewrite upd_other by assumption. auto.
  - intros q' T'. destruct (Nat.eq_dec q' q) as [->|Nq]; [rewrite upd_same in T'; discriminate|]. rewrite upd_other in T' by exact Nq.
    exact (done_set st o b (at_place b (Held Proceeding)) SD B eq_refl ltac:(congruence) q' T').
  - intros q' H. assert (q' <> q) by (intros ->; specialize (SJN q H); congruence). rewrite upd_other by assumption. auto.
  - intros q' T'. assert (K := done_set st o b (at_place b (Held Serving)) SD B eq_refl ltac:(congruence) q' T'). destruct K as (K1 & K2 & K3).
    repeat (split; [assumption|]). intros o' b0 H Q'. apply nth_snoc in H as [H|[_ ->]]; [exact (K3 o' b0 H Q')|]. cbn in Q'. exfalso.
    destruct (FT q o T) as (b2 & s2 & B2 & Q2 & _). congruence.
  - intros S r' x' H. rewrite (nth_set _ _ _ _ _ X) in H. destruct (r' =? r); [|exact (SO S r' x' H)]. injection H as <-. cbn. now destruct (r_progress x).
  - intros q' T'. destruct (Nat.eq_dec q' q) as [->|Nq]; [rewrite upd_same in T'; discriminate|]. rewrite upd_other in T' by exact Nq.
    exact (done_set st o b (Obj (o_queue b) (o_method b) FINISH Sending (o_req b)) SD B eq_refl ltac:(congruence) q' T').
  - intros q' H. assert (q' <> q) by (intros ->; specialize (SJN q H); congruence). rewrite upd_other by assumption. auto.
  - intros q' T'. destruct (Nat.eq_dec q' q) as [->|Nq]; [rewrite upd_same in T'; discriminate|]. rewrite upd_other in T' by exact Nq.
    exact (done_set st o b (at_place b Freed) SD B eq_refl ltac:(congruence) q' T').
  - intros q' H. assert (q' <> q) by (intros ->; specialize (SJN q H); congruence). rewrite upd_other by assumption. auto.
  - intros q' T'. destruct (Nat.eq_dec q' q) as [->|Nq]; [|rewrite upd_other in T' by exact Nq; exact (SD q' T')].
    unfold closed in C. split; [lia|]. split; [exact Q|]. intros o b H Qb. pose proof (not_in_queue _ _ _ _ E H) as I. unfold in_queue in I.
    destruct (FO o b H) as [_ K]. rewrite Qb, Nat.eqb_refl in I. destruct (o_place b) as [|[|]|[| |]| |]; try discriminate; auto; exfalso.
    + destruct K as (_ & _ & K). congruence.
    + destruct K as (_ & _ & K). congruence.
    + congruence.
  - intros q' H. destruct (Nat.eq_dec q' q) as [->|Nq]; [apply upd_same|]. rewrite upd_other by exact Nq. auto.
  - intros K. apply SS in K. congruence.
  - intros _. apply SF. congruence.
  - intros _ r x H. exact (no_open _ _ _ E H).
  - intros q' T'. destruct (SD q' T') as (H1 & H2 & H3). split; [lia|]. auto.
  - intros q' H. destruct (Nat.eq_dec q' (joined st)) as [->|Nq]; [exact T|]. apply SJN. lia.
Qed.

(** *** Answers *)
Definition settled (x : req) : Prop := r_progress x = Answered \/ r_progress x = Dropped.
Definition answers_right (rs : list req) (l : list (nat * (bool * Reply))) : Prop :=
  forall before r a after, l = before ++ (r, a) :: after ->
    exists x, nth_error rs r = Some x /\ a = sent (r_method x) (impl (flat_map (request_of rs) (map fst before)) (r_method x) (r_payload x)).
Record replies st : Prop := Replies {
  p_log : forall r, In r (map fst (log st)) <-> exists x, nth_error (reqs st) r = Some x /\ settled x;
  p_once : NoDup (map fst (log st));
  p_right : answers_right (reqs st) (log st) }.
Lemma replies_init : replies init.
Proof.
  split; cbn.
  - intros r. split; [tauto|]. intros (x & H & _). destruct r; discriminate.
  - constructor.
  - intros before r a after H. destruct before; discriminate.
Qed.
Lemma request_set (rs : list req) r x p i : nth_error rs r = Some x -> request_of (set_nth rs r (Req (r_method x) (r_payload x) p)) i = request_of rs i.
Proof. intros X. unfold request_of. rewrite (nth_set _ _ _ _ _ X). destruct (i =? r) eqn:E; [|reflexivity]. apply Nat.eqb_eq in E. subst i. now rewrite X. Qed.
Lemma right_set (rs : list req) l r x p : nth_error rs r = Some x -> answers_right rs l -> answers_right (set_nth rs r (Req (r_method x) (r_payload x) p)) l.
Proof.
  intros X H before r' a after E. destruct (H before r' a after E) as (x' & X' & A). rewrite (nth_set _ _ _ _ _ X).
  rewrite (flat_map_ext _ _ (fun i => request_set rs r x p i X)). destruct (r' =? r) eqn:Er.
  - apply Nat.eqb_eq in Er. subst r'. eexists. split; [reflexivity|]. cbn. congruence.
  - now exists x'.
Qed.
Lemma right_snoc (rs : list req) y l : (forall r, In r (map fst l) -> exists x, nth_error rs r = Some x) -> answers_right rs l -> answers_right (rs ++ [y]) l.
Proof.
  intros K H before r a after E. destruct (H before r a after E) as (x & X & A). exists x. split; [now apply nth_keep|]. rewrite A. f_equal. f_equal.
  rewrite !flat_map_concat_map. f_equal. apply map_ext_in. intros i Hi. assert (In i (map fst l)).
  { rewrite E, map_app. apply in_or_app. now left. }
  destruct (K i H0) as (xi & Xi). unfold request_of. now rewrite Xi, (nth_keep _ _ _ _ Xi).
Qed.
Lemma log_set (rs : list req) (l : list nat) r x p : nth_error rs r = Some x -> (settled x <-> settled (Req (r_method x) (r_payload x) p)) ->
  (forall i, In i l <-> exists y, nth_error rs i = Some y /\ settled y) ->
  forall i, In i l <-> exists y, nth_error (set_nth rs r (Req (r_method x) (r_payload x) p)) i = Some y /\ settled y.
Proof.
  intros X S H i. rewrite H, (nth_set _ _ _ _ _ X). destruct (i =? r) eqn:E; [|tauto]. apply Nat.eqb_eq in E. subst i. split.
  - intros (y & Y & Sy). assert (y = x) by congruence. subst y. eexists. split; [reflexivity|]. now apply S.
  - intros (y & Y & Sy). injection Y as <-. exists x. split; [exact X|]. now apply S.
Qed.
Lemma replies_step st e st' : fits st -> replies st -> moves st e st' -> replies st'.
Proof.
  intros [FO FT FR] [PL PO PR] M. destruct M as [m p|r x o X P|r o x b X B S P L MM|r x X S P|o b B S L|o ok b B L|q o b ok T B Q L OK|q o b T B Q L PS
    |q o b T B Q L CS|q o b T B L C|q o b r x T B L C R X|q o b T B L|q T Q C E F|F|F S|S E|S Q|T Q J];
    unfold served; try (split; cbn [objs reqs thr srv log put add mark set_thr reply_with with_srv]; assumption).
  - split; cbn [reqs log]; [|exact PO|].
    + intros i. rewrite PL. split; intros (x & X & Sx).
      * exists x. split; [now apply nth_keep|exact Sx].
      * apply nth_snoc in X as [X|[_ ->]]; [now exists x|]. destruct Sx; discriminate.
    + apply right_snoc; [|exact PR]. intros i Hi. apply PL in Hi as (x & X & _). now exists x.
  - split; cbn [reqs log mark]; [|exact PO|now apply right_set]. apply log_set; [exact X| |exact PL]. split; intros [H|H]; cbn in *; congruence.
  - split; cbn [reqs log mark put]; [|exact PO|now apply right_set]. apply log_set; [exact X| |exact PL]. split; intros [H|H]; cbn in *; congruence.
  - split; cbn [reqs log mark]; [|exact PO|now apply right_set]. apply log_set; [exact X| |exact PL]. split; intros [H|H]; cbn in *; congruence.
  - destruct (FO o b B) as [_ K]. rewrite L in K. destruct K as (_ & (r1 & x1 & E1 & X1 & M1 & T1) & _).
    assert (r1 = r) by congruence. subst r1. assert (x1 = x) by congruence. subst x1.
    assert (Fresh : ~ In r (map fst (log st))).
    { intros K. apply PL in K as (y & Y & [K|K]); destruct T1; congruence. }
    split; cbn [reqs log mark put set_thr reply_with]; rewrite ?map_app; cbn [map fst].
    + intros i. rewrite (nth_set _ _ _ _ _ X), in_app_iff. cbn [In]. destruct (i =? r) eqn:E.
      * apply Nat.eqb_eq in E. subst i. split; [|auto]. intros _. eexists. split; [reflexivity|]. unfold settled. cbn. destruct (r_progress x); auto.
      * apply Nat.eqb_neq in E. rewrite PL. split; [intros [H|[H|[]]]; [exact H|congruence]|auto].
    + apply NoDup_Add with (a := r) (l := map fst (log st)); [|split; assumption].
      rewrite <- (app_nil_r (map fst (log st))) at 1. apply Add_app.
    + apply right_set; [exact X|]. intros before r' a after E.
      apply snoc_split in E as [(-> & <- & E)|(after' & E)]; [|exact (PR before r' a after' E)]. injection E as <- <-. exists x. split; [exact X|]. rewrite M1. reflexivity.
Qed.

(** *** Listeners *)
Definition waits (b : obj) : bool :=
  match o_status b, o_place b with
  | PROCESS, Listening | PROCESS, Queued _ | PROCESS, Held Proceeding => true
  | _, _ => false
  end.
Definition listens (q : nat) (m : method) (b : obj) : nat := if (o_queue b =? q) && method_eqb (o_method b) m && waits b then 1 else 0.
Definition listeners (q : nat) (m : method) (l : list obj) : nat := total (listens q m) l.
Definition listening st : Prop := forall q m, q < n -> listeners q m (objs st) <= 1 /\ (srv st = Running -> listeners q m (objs st) = 1).
Lemma one_fresh q m : listeners q m (map (fresh q) methods) = 1.
Proof. unfold listeners, total, listens. cbn [methods map fresh o_queue o_method o_status o_place waits list_sum fold_right]. rewrite Nat.eqb_refl. now destruct m. Qed.
Lemma other_fresh q q' m : q' <> q -> listeners q m (map (fresh q') methods) = 0.
Proof. intros H. unfold listeners, total, listens. cbn [methods map fresh o_queue o_method o_status o_place waits list_sum fold_right]. apply Nat.eqb_neq in H. now rewrite H. Qed.
Lemma fresh_count k q m : forall a, listeners q m (flat_map (fun q => map (fresh q) methods) (seq a k)) = if (a <=? q) && (q <? a + k) then 1 else 0.
Proof.
  induction k as [|k IH]; intros a; cbn [seq flat_map].
  - replace ((a <=? q) && (q <? a + 0)) with false by lia. reflexivity.
  - unfold listeners in *. rewrite total_app. fold (listeners q m (map (fresh a) methods)). rewrite IH. destruct (Nat.eq_dec a q) as [->|N].
    + rewrite one_fresh. replace ((S q <=? q) && (q <? S q + k)) with false by lia. replace ((q <=? q) && (q <? q + S k)) with true by lia. reflexivity.
    + rewrite other_fresh by exact N. replace ((a <=? q) && (q <? a + S k)) with ((S a <=? q) && (q <? S a + k)) by lia. reflexivity.
Qed.
Lemma listening_init : listening init.
Proof.
  intros q m H. cbn [objs srv HandlerModel.init]. rewrite fresh_count. replace ((0 <=? q) && (q <? 0 + n)) with true by lia. split; [lia|reflexivity].
Qed.
Lemma listens_same q m b b' : o_queue b' = o_queue b -> o_method b' = o_method b -> waits b' = waits b -> listens q m b' = listens q m b.
Proof. intros E1 E2 E3. unfold listens. now rewrite E1, E2, E3. Qed.
Lemma listens_stop q m b : waits b = false -> listens q m b = 0.
Proof. intros E. unfold listens. now rewrite E, andb_false_r. Qed.
Ltac count_done := match goal with LS : _ /\ (_ -> _) |- _ => destruct LS as [LS1 LS2]; split; [lia|let HS := fresh in intros HS; specialize (LS2 HS); lia] end.
Lemma listening_step st e st' : fits st -> listening st -> moves st e st' -> listening st'.
Proof.
  intros [FO FT FR] LS M q' m' Hq. specialize (LS q' m' Hq). unfold listeners in *. destruct M as [m p|r x o X P|r o x b X B S P L MM|r x X S P|o b B S L|o ok b B L|q o b ok T B Q L OK|q o b T B Q L PS
    |q o b T B Q L CS|q o b T B L C|q o b r x T B L C R X|q o b T B L|q T Q C E F|F|F S|S E|S Q|T Q J];
    unfold served; cbn [objs reqs thr srv put add mark set_thr reply_with with_srv]; auto.
  - destruct (FO o b B) as [_ K]. rewrite L in K. pose proof (total_set (listens q' m') _ _ _ (Obj (o_queue b) (o_method b) (o_status b) (Queued true) (Some r)) B) as D.
    rewrite (listens_same q' m' b (Obj (o_queue b) (o_method b) (o_status b) (Queued true) (Some r))) in D by (try reflexivity; unfold waits; cbn; now rewrite L, (proj1 K)). count_done.
  - destruct (FO o b B) as [_ K]. rewrite L in K. pose proof (total_set (listens q' m') _ _ _ (at_place b (Queued false)) B) as D.
    rewrite (listens_same q' m' b (at_place b (Queued false))) in D by (try reflexivity; unfold waits; cbn; now rewrite L, (proj1 K)). count_done.
  - destruct (FO o b B) as [_ K]. rewrite L in K. pose proof (total_set (listens q' m') _ _ _ (at_place b (Queued ok)) B) as D.
    rewrite (listens_same q' m' b (at_place b (Queued ok))) in D by (try reflexivity; unfold waits; cbn; now rewrite L, K). count_done.
  - destruct (FO o b B) as [_ K]. rewrite L in K. pose proof (total_set (listens q' m') _ _ _ (at_place b (Held Freeing)) B) as D.
    rewrite (listens_stop q' m' (at_place _ _)) in D by (unfold waits; cbn; now destruct (o_status b)).
    destruct (o_status b) eqn:St.
    + rewrite (listens_stop q' m' b) in D by (unfold waits; now rewrite St). count_done.
    + destruct OK as [->|OK]; [|discriminate]. destruct K as [[_ K]|K]; [|discriminate]. split; [lia|]. intros H. congruence.
    + rewrite (listens_stop q' m' b) in D by (unfold waits; now rewrite St). count_done.
  - pose proof (total_set (listens q' m') _ _ _ (at_place b (Held Proceeding)) B) as D.
    rewrite (listens_same q' m' b (at_place b (Held Proceeding))) in D by (try reflexivity; unfold waits; cbn; now rewrite L, PS). count_done.
  - exfalso. destruct (FO o b B) as [_ H]. rewrite L in H. destruct H as [[H _]|H]; congruence.
  - destruct (FO o b B) as [_ K]. rewrite L in K. pose proof (total_set (listens q' m') _ _ _ (at_place b (Held Serving)) B) as D.
    rewrite (listens_stop q' m' (at_place _ _)) in D by (unfold waits; cbn; now destruct (o_status b)).
    rewrite total_app. unfold total at 2 4. cbn [map list_sum fold_right].
    rewrite (listens_same q' m' b (fresh _ _)) by (try reflexivity; unfold waits; cbn; now rewrite L, (proj1 K)). count_done.
  - pose proof (total_set (listens q' m') _ _ _ (Obj (o_queue b) (o_method b) FINISH Sending (o_req b)) B) as D.
    rewrite (listens_stop q' m' (Obj _ _ _ _ _)) in D by reflexivity. rewrite (listens_stop q' m' b) in D by (unfold waits; rewrite L; now destruct (o_status b)). count_done.
  - pose proof (total_set (listens q' m') _ _ _ (at_place b Freed) B) as D.
    rewrite (listens_stop q' m' (at_place _ _)) in D by (unfold waits; cbn; now destruct (o_status b)). rewrite (listens_stop q' m' b) in D by (unfold waits; rewrite L; now destruct (o_status b)). count_done.
  - split; [lia|]. discriminate.
  - split; [lia|]. discriminate.
Qed.

(** *** All executions *)
Definition reaches st : Prop := exists es, run init es = Next st.
Definition well st : Prop := fits st /\ stops st /\ replies st /\ listening st.
Lemma well_step st e st' : well st -> step st e = Next st' -> well st'.
Proof.
  intros (F & S & R & L) H. apply step_moves in H. split; [exact (fits_step _ _ _ F H)|]. split; [exact (stops_step _ _ _ F S H)|].
  split; [exact (replies_step _ _ _ F R H)|exact (listening_step _ _ _ F L H)].
Qed.
Lemma well_run es : forall st st', well st -> run st es = Next st' -> well st'.
Proof.
  induction es as [|e es IH]; intros st st' W H; cbn [HandlerModel.run] in H; [injection H as <-; exact W|].
  destruct (step st e) as [| |st1] eqn:E; try discriminate. exact (IH _ _ (well_step _ _ _ W E) H).
Qed.
Lemma well_init : well init.
Proof. split; [exact fits_init|]. split; [exact stops_init|]. split; [exact replies_init|exact listening_init]. Qed.
Lemma reaches_well st : reaches st -> well st.
Proof. intros (es & H). exact (well_run es _ _ well_init H). Qed.

(** Without cancelled requests nothing crashes. *)
Definition is_cancel (e : event) : bool := match e with Cancel _ => true | _ => false end.
Definition kept st : Prop := forall r x, nth_error (reqs st) r = Some x -> r_progress x <> Dropped /\ forall o, r_progress x <> Cancelled o.
Lemma kept_step st e st' : fits st -> kept st -> is_cancel e = false -> moves st e st' -> kept st'.
Proof.
  intros [FO FT FR] K NC M. destruct M as [m p|r x o X P|r o x b X B S P L MM|r x X S P|o b B S L|o ok b B L|q o b ok T B Q L OK|q o b T B Q L PS
    |q o b T B Q L CS|q o b T B L C|q o b r x T B L C R X|q o b T B L|q T Q C E F|F|F S|S E|S Q|T Q J]; try discriminate;
    unfold served, kept in *; cbn [reqs put add mark set_thr reply_with with_srv]; auto.
  - intros r x H. apply nth_snoc in H as [H|[_ ->]]; [exact (K r x H)|]. split; discriminate.
  - intros r' x' H. rewrite (nth_set _ _ _ _ _ X) in H. destruct (r' =? r); [injection H as <-; split; discriminate|exact (K r' x' H)].
  - intros r' x' H. rewrite (nth_set _ _ _ _ _ X) in H. destruct (r' =? r); [injection H as <-; split; discriminate|exact (K r' x' H)].
  - intros r' x' H. rewrite (nth_set _ _ _ _ _ X) in H. destruct (r' =? r); [injection H as <-; cbn|exact (K r' x' H)].
    destruct (FO o b B) as [_ Kb]. rewrite L in Kb. destruct Kb as (_ & (r1 & x1 & R1 & X1 & _ & Tx) & _). assert (x1 = x) by congruence. subst x1.
    destruct Tx as [Tx|Tx]; [rewrite Tx; split; discriminate|exfalso; exact (proj2 (K r x X) o Tx)].
Qed.
Lemma no_crash st e : well st -> kept st -> step st e <> Crash.
Proof.
  intros ([FO FT FR] & [SF SS SO SN SD SJ] & _ & _) K.
  assert (Open_shut : forall q o b s, thr st q = Busy o -> nth_error (objs st) o = Some b -> o_place b = Held s -> s <> Freeing -> closed st q = true -> False).
  { intros q o b s T B P Ns C. unfold closed in C. destruct (FO o b B) as [_ H]. rewrite P in H. assert (Hh : holds (reqs st) o b) by (destruct s; [apply H|apply H|congruence]).
    destruct Hh as (r & x & _ & X & _ & [Tx|Tx]); [|exact (proj2 (K r x X) o Tx)].
    assert (O := SO (SS ltac:(lia)) r x X). unfold is_open in O. rewrite Tx in O. discriminate. }
  destruct e as [m p|r|r o|r|o|o ok|q o|q|q|q|q| | | |q|q]; cbn [HandlerModel.step]; intros H; try discriminate.
  - destruct (nth_error _ r) as [x|] eqn:E; [|discriminate]. destruct (r_progress x) eqn:P; discriminate.
  - destruct (nth_error (reqs _) r) as [x|] eqn:E; [|discriminate]. destruct (nth_error (objs _) o) as [b|] eqn:F; [|discriminate].
    destruct (srv st) eqn:S; try discriminate. destruct (r_progress x) eqn:P; try discriminate. destruct (o_place b) eqn:Q; try discriminate.
    destruct (method_eqb _ _) eqn:M; discriminate.
  - destruct (nth_error _ r) as [x|] eqn:E; destruct (srv st) eqn:S; try discriminate; (destruct (r_progress x) eqn:P; discriminate).
  - destruct (nth_error _ o) as [x|] eqn:E; destruct (srv st) eqn:S; try discriminate; (destruct (o_place x) eqn:P; discriminate).
  - destruct (nth_error _ o) as [x|] eqn:E; [|discriminate]. destruct (o_place x) eqn:P; discriminate.
  - destruct (thr st q) eqn:T; try discriminate. destruct (nth_error _ o) as [b|] eqn:E; [|discriminate].
    destruct (o_queue b =? q) eqn:Q; [|discriminate]. destruct (o_place b) as [|[|]| | |] eqn:P; try discriminate.
    destruct (FO o b E) as [_ Kb]. rewrite P in Kb. destruct (o_status b) eqn:S; try discriminate. destruct Kb as [[Kb _]|Kb]; discriminate.
  - destruct (thr st q) as [|o|] eqn:T; try discriminate. destruct (nth_error _ o) as [b|] eqn:E; [|discriminate].
    destruct (o_place b) as [| |[| |]| |] eqn:P; try discriminate. destruct (closed st q) eqn:C; [|discriminate]. exact (Open_shut q o b _ T E P ltac:(discriminate) C).
  - destruct (thr st q) as [|o|] eqn:T; try discriminate. destruct (nth_error (objs _) o) as [b|] eqn:E; [|discriminate].
    destruct (o_place b) as [| |[| |]| |] eqn:P; try discriminate. destruct (closed st q) eqn:C; [exact (Open_shut q o b _ T E P ltac:(discriminate) C)|].
    destruct (FO o b E) as [_ Kb]. rewrite P in Kb. destruct Kb as (_ & (r & x & R & X & _) & _). rewrite R, X in H. discriminate.
  - destruct (thr st q) as [|o|] eqn:T; try discriminate. destruct (nth_error _ o) as [b|] eqn:E; [|discriminate].
    destruct (o_place b) as [| |[| |]| |] eqn:P; discriminate.
  - destruct (thr st q) as [|o|] eqn:T; try discriminate. destruct ((q <? n) && closed st q && negb _) eqn:C; [|discriminate].
    destruct (flag st) eqn:F; [discriminate|]. unfold closed in C. assert (S := SS ltac:(lia)). discriminate SF; congruence.
  - destruct (flag st) eqn:F; discriminate.
  - destruct (flag st) eqn:F; [|discriminate]. destruct (srv st) eqn:S; discriminate.
  - destruct (srv st) eqn:S; try discriminate. destruct (existsb _ _) eqn:E; discriminate.
  - destruct (srv st) eqn:S; try discriminate. destruct ((q =? _) && _) eqn:E; discriminate.
  - destruct (thr st q) eqn:T; try discriminate. destruct ((_ =? n) && _ && _) eqn:E; discriminate.
Qed.
Lemma kept_run es : forall st, well st -> kept st -> forallb (fun e => negb (is_cancel e)) es = true -> run st es <> Crash /\ forall st', run st es = Next st' -> kept st'.
Proof.
  induction es as [|e es IH]; intros st W K H; cbn [HandlerModel.run forallb] in *; [split; [discriminate|]; intros st' E; injection E as <-; exact K|].
  apply andb_true_iff in H as [H1 H2]. destruct (step st e) as [| |st1] eqn:E; [split; discriminate|exfalso; exact (no_crash _ _ W K E)|].
  apply IH; [exact (well_step _ _ _ W E)| |exact H2]. apply step_moves in E. apply (kept_step _ e _ (proj1 W) K); [now destruct (is_cancel e)|exact E].
Qed.
Lemma kept_init : kept init.
Proof. intros [|r] x H; discriminate. Qed.
Lemma safe es : forallb (fun e => negb (is_cancel e)) es = true -> run init es <> Crash.
Proof. intros H. exact (proj1 (kept_run es init well_init kept_init H)). Qed.

(** *** Progress *)
(** What threads and gRPC do on their own, and what the destructor does. *)
Definition is_work (e : event) : bool :=
  match e with Send _ _ | Cancel _ | Flag | Stop | StopDone | Shut _ | Join _ => false | _ => true end.
Definition is_end (e : event) : bool := match e with Flag | Stop | StopDone | Shut _ | Join _ => true | _ => false end.
Definition quiet st : Prop := forall e, is_work e = true -> step st e = Stuck.

Lemma quiet_threads st : fits st -> quiet st -> forall q o, thr st q <> Busy o.
Proof.
  intros [FO FT FR] Q q o T. destruct (FT q o T) as (b & s & B & _ & P). destruct s.
  - specialize (Q (Renew q) eq_refl). cbn [HandlerModel.step] in Q. rewrite T, B, P in Q. destruct (closed st q); discriminate.
  - specialize (Q (Serve q) eq_refl). cbn [HandlerModel.step] in Q. rewrite T, B, P in Q. destruct (closed st q); [discriminate|].
    destruct (o_req b); [|discriminate]. destruct (nth_error _ _); discriminate.
  - specialize (Q (Free q) eq_refl). cbn [HandlerModel.step] in Q. rewrite T, B, P in Q. discriminate.
Qed.
Lemma quiet_objects st : fits st -> stops st -> quiet st -> forall o b, nth_error (objs st) o = Some b -> o_place b = Listening /\ srv st = Running \/ o_place b = Freed.
Proof.
  intros F S Q o b B. pose proof (quiet_threads st F Q) as NT. destruct F as [FO FT FR], S as [SF SS SO SN SD SJ]. destruct (FO o b B) as [Qn K].
  destruct (o_place b) as [|ok|s| |] eqn:P; [left|exfalso|exfalso|exfalso|now right].
  - split; [reflexivity|]. specialize (Q (Close o) eq_refl). cbn [HandlerModel.step] in Q. rewrite B, P in Q. destruct (srv st); [reflexivity|discriminate|discriminate].
  - destruct (thr st (o_queue b)) as [|o'|] eqn:T.
    + specialize (Q (Take (o_queue b) o) eq_refl). cbn [HandlerModel.step] in Q. rewrite T, B, Nat.eqb_refl, P in Q.
      destruct ok, (o_status b); try discriminate; destruct (closed st _); discriminate.
    + exact (NT _ _ T).
    + destruct (SD _ T) as (_ & _ & H). specialize (H o b B eq_refl). congruence.
  - destruct s; [destruct K as (_ & _ & T)|destruct K as (_ & _ & T)|rename K into T]; exact (NT _ _ T).
  - specialize (Q (Sent o true) eq_refl). cbn [HandlerModel.step] in Q. rewrite B, P in Q. discriminate.
Qed.
Lemma quiet_taken st : fits st -> stops st -> quiet st -> forall r x, nth_error (reqs st) r = Some x -> forall o, ~ taken x o.
Proof.
  intros F S Q r x X o T. destruct (f_req _ F r x o X T) as (b & B & _ & U). destruct (quiet_objects st F S Q o b B) as [[P _]|P]; destruct U as [[U _]|[U|U]]; congruence.
Qed.
(** When nothing is left to do while the server runs, everything is answered. *)
Lemma quiet_running st : well st -> 0 < n -> srv st = Running -> quiet st ->
  (forall q o, thr st q <> Busy o) /\ forall r x, nth_error (reqs st) r = Some x -> settled x \/ r_progress x = Refused.
Proof.
  intros (F & S & R & L) Hn Hs Q. split; [exact (quiet_threads st F Q)|]. intros r x X. pose proof (quiet_taken st F S Q r x X) as NT.
  destruct (r_progress x) as [|o|o| | |] eqn:P; [|exfalso; apply (NT o); now left|exfalso; apply (NT o); now right|left; now left|left; now right|now right].
  exfalso. destruct (L 0 (r_method x) Hn) as [_ L1]. specialize (L1 Hs). destruct (total_pos (listens 0 (r_method x)) (objs st)) as (o & b & B & Lb); [unfold listeners in L1; lia|].
  unfold listens in Lb. destruct ((o_queue b =? 0) && method_eqb (o_method b) (r_method x) && waits b) eqn:E; [|lia].
  apply andb_true_iff in E as [E W]. apply andb_true_iff in E as [_ M]. apply method_eqb_eq in M.
  destruct (quiet_objects st F S Q o b B) as [[P' _]|P'].
  - specialize (Q (Match r o) eq_refl). cbn [HandlerModel.step] in Q. rewrite X, B, Hs, P, P' in Q. rewrite <- M in Q.
    rewrite (proj2 (method_eqb_eq _ _) eq_refl) in Q. discriminate.
  - unfold waits in W. rewrite P' in W. destruct (o_status b); discriminate.
Qed.
(** The destructor gets to its end. *)
Lemma quiet_end st : well st -> quiet st -> (forall e, is_end e = true -> step st e = Stuck) -> joined st = n.
Proof.
  intros (F & S & R & L) Q E. pose proof (quiet_objects st F S Q) as QO. pose proof (quiet_taken st F S Q) as QT. pose proof (quiet_threads st F Q) as QB. destruct S as [SF SS SO [SN1 SN2] SD SJ].
  pose proof (E Flag eq_refl) as E1. cbn [HandlerModel.step] in E1. destruct (flag st) eqn:Ff; [|discriminate].
  pose proof (E Stop eq_refl) as E2. cbn [HandlerModel.step] in E2. rewrite Ff in E2. destruct (srv st) eqn:Fs; [discriminate| |].
  - pose proof (E StopDone eq_refl) as E3. cbn [HandlerModel.step] in E3. rewrite Fs in E3. destruct (existsb is_open (reqs st)) eqn:Eo; [|discriminate].
    apply existsb_exists in Eo as (x & X & O). apply In_nth_error in X as (r & X). unfold is_open in O. destruct (r_progress x) as [|o|o| | |] eqn:P; try discriminate.
    exfalso. apply (QT r x X o). now left.
  - pose proof (E (Shut (shut st)) eq_refl) as E3. cbn [HandlerModel.step] in E3. rewrite Fs, Nat.eqb_refl in E3. cbn [andb] in E3. destruct (shut st <? n) eqn:El; [discriminate|].
    destruct (Nat.eq_dec (joined st) n) as [H|H]; [exact H|]. exfalso. set (q := joined st) in *.
    destruct (thr st q) as [|o|] eqn:T.
    + specialize (Q (Leave q) eq_refl). cbn [HandlerModel.step] in Q. rewrite T, Ff in Q. unfold closed in Q.
      replace (q <? n) with true in Q by lia. replace (q <? shut st) with true in Q by lia. cbn [andb] in Q.
      destruct (existsb (in_queue q) (objs st)) eqn:Ei; [|discriminate]. apply existsb_exists in Ei as (b & B & I). apply In_nth_error in B as (o & B).
      unfold in_queue in I. destruct (QO o b B) as [[_ P]|P]; [congruence|]. rewrite P, andb_false_r in I. discriminate.
    + exact (QB _ _ T).
    + pose proof (E (Join q) eq_refl) as E4. cbn [HandlerModel.step] in E4. rewrite T in E4. replace (shut st =? n) with true in E4 by lia.
      unfold q in E4. rewrite Nat.eqb_refl in E4. replace (joined st <? n) with true in E4 by lia. discriminate.
Qed.
Lemma end_freed st : well st -> joined st = n -> (forall o b, nth_error (objs st) o = Some b -> o_place b = Freed) /\
  (forall q, q < n -> thr st q = Done) /\ forall r x, nth_error (reqs st) r = Some x -> is_open x = false.
Proof.
  intros ([FO FT FR] & [SF SS SO SN SD SJ] & _ & _) J. assert (AD : forall q, q < n -> thr st q = Done) by (intros q H; apply SJ; lia).
  assert (AF : forall o b, nth_error (objs st) o = Some b -> o_place b = Freed).
  { intros o b B. destruct (FO o b B) as [Q _]. exact (proj2 (proj2 (SD _ (AD _ Q))) o b B eq_refl). }
  split; [exact AF|]. split; [exact AD|]. intros r x X. unfold is_open. destruct (r_progress x) as [|o|o| | |] eqn:P; try reflexivity.
  destruct (FR r x o X (or_introl P)) as (b & B & _ & U). specialize (AF o b B). destruct U as [[U _]|[U|U]]; congruence.
Qed.

(** *** A measure *)
Definition obj_cost (b : obj) : nat :=
  match o_place b with
  | Listening => 3
  | Queued _ => match o_status b with PROCESS => if match o_req b with Some _ => true | None => false end then 9 else 2 | _ => 2 end
  | Held Proceeding => 8 | Held Serving => 4 | Held Freeing => 1 | Sending => 3 | Freed => 0
  end.
Definition req_cost (x : req) : nat := match r_progress x with Pending => 7 | _ => 0 end.
Definition leave_cost st : nat := list_sum (map (fun q => match thr st q with Done => 0 | _ => 1 end) (seq 0 n)).
Definition end_cost st : nat := (if flag st then 0 else 1) + (match srv st with Running => 2 | Stopping => 1 | Stopped => 0 end) + (n - shut st) + (n - joined st).
Definition cost st : nat := total obj_cost (objs st) + total req_cost (reqs st) + leave_cost st + end_cost st.
Lemma leave_upd (th : nat -> thread) q t a k : (forall i, th i = Done -> i <> q) -> t <> Done ->
  list_sum (map (fun q => match th q with Done => 0 | _ => 1 end) (seq a k)) =
  list_sum (map (fun i => match upd th q t i with Done => 0 | _ => 1 end) (seq a k)).
Proof.
  intros H N. f_equal. apply map_ext. intros i. destruct (Nat.eq_dec i q) as [->|Ni]; [rewrite upd_same|now rewrite upd_other].
  destruct (th q) eqn:E; try (now destruct t). exfalso. exact (H q E eq_refl).
Qed.
Lemma leave_less (th : nat -> thread) q k : th q <> Done -> forall a, a <= q < a + k ->
  list_sum (map (fun i => match upd th q Done i with Done => 0 | _ => 1 end) (seq a k)) < list_sum (map (fun i => match th i with Done => 0 | _ => 1 end) (seq a k)).
Proof.
  intros N. induction k as [|k IH]; intros a H; [lia|]. cbn [seq map list_sum fold_right].
  assert (Le : forall b j, fold_right Nat.add 0 (map (fun i => match upd th q Done i with Done => 0 | _ => 1 end) (seq b j)) <= fold_right Nat.add 0 (map (fun i => match th i with Done => 0 | _ => 1 end) (seq b j))).
  { intros b j. revert b. induction j as [|j IHj]; intros b; cbn [seq map fold_right]; [lia|]. specialize (IHj (S b)).
    destruct (Nat.eq_dec b q) as [->|Nb]; [rewrite upd_same|rewrite upd_other by exact Nb]; lia. }
  destruct (Nat.eq_dec a q) as [->|Na].
  - rewrite upd_same. specialize (Le (S q) k). destruct (th q); [lia|lia|congruence].
  - rewrite upd_other by exact Na. specialize (IH (S a) ltac:(lia)). unfold list_sum in IH. lia.
Qed.
Ltac objcost B b' c c' :=
  let D := fresh "D" in pose proof (total_set obj_cost _ _ _ b' B) as D;
  match type of B with nth_error _ _ = Some ?b =>
    assert (obj_cost b = c) by (unfold obj_cost; repeat match goal with K : _ /\ _ |- _ => destruct K | K : o_place b = _ |- _ => rewrite K | K : o_status b = _ |- _ => rewrite K | K : o_req b = _ |- _ => rewrite K end; reflexivity)
  end;
  assert (obj_cost b' = c') by (unfold obj_cost; cbn [o_place o_status o_req at_place]; repeat match goal with K : _ /\ _ |- _ => destruct K | K : o_status _ = _ |- _ => rewrite K | K : o_req _ = _ |- _ => rewrite K end; reflexivity).
Ltac reqcost X x' c c' :=
  let D := fresh "D" in pose proof (total_set req_cost _ _ _ x' X) as D;
  match type of X with nth_error _ _ = Some ?x =>
    assert (req_cost x = c) by (unfold req_cost; repeat match goal with K : r_progress x = _ |- _ => rewrite K end; reflexivity)
  end;
  assert (req_cost x' = c') by reflexivity.
Lemma cost_step st e st' : fits st -> moves st e st' -> is_work e || is_end e = true -> cost st' < cost st.
Proof.
  intros [FO FT FR] M W. destruct M as [m p|r x o X P|r o x b X B S P L MM|r x X S P|o b B S L|o ok b B L|q o b ok T B Q L OK|q o b T B Q L PS
    |q o b T B Q L CS|q o b T B L C|q o b r x T B L C R X|q o b T B L|q T Q C E F|F|F S|S E|S Q|T Q J]; try discriminate;
    unfold served, cost, leave_cost, end_cost; cbn [objs reqs thr srv flag shut joined put add mark set_thr reply_with with_srv].
  - destruct (FO o b B) as [_ K]. rewrite L in K. objcost B (Obj (o_queue b) (o_method b) (o_status b) (Queued true) (Some r)) 3 9. reqcost X (Req (r_method x) (r_payload x) (Open o)) 7 0. lia.
  - reqcost X (Req (r_method x) (r_payload x) Refused) 7 0. lia.
  - destruct (FO o b B) as [_ K]. rewrite L in K. destruct K as [K1 K2]. objcost B (at_place b (Queued false)) 3 2. lia.
  - destruct (FO o b B) as [_ K]. rewrite L in K. objcost B (at_place b (Queued ok)) 3 2. lia.
  - rewrite <- (leave_upd (thr st) q (Busy o)) by congruence. pose proof (total_set obj_cost _ _ _ (at_place b (Held Freeing)) B) as D.
    assert (obj_cost (at_place b (Held Freeing)) = 1) by reflexivity. assert (2 <= obj_cost b) by (unfold obj_cost; rewrite L; destruct (o_status b); [lia| |lia]; destruct (o_req b); lia). lia.
  - rewrite <- (leave_upd (thr st) q (Busy o)) by congruence. destruct (FO o b B) as [_ K]. rewrite L in K. destruct K as [[_ (r & x & R & _)]|K]; [|congruence].
    objcost B (at_place b (Held Proceeding)) 9 8. lia.
  - exfalso. destruct (FO o b B) as [_ H]. rewrite L in H. destruct H as [[H _]|H]; congruence.
  - objcost B (at_place b (Held Serving)) 8 4. rewrite total_app. replace (total obj_cost [fresh _ _]) with 3 by reflexivity. lia.
  - rewrite <- (leave_upd (thr st) q Idle) by congruence. objcost B (Obj (o_queue b) (o_method b) FINISH Sending (o_req b)) 4 3.
    pose proof (total_set req_cost _ _ _ (Req (r_method x) (r_payload x) (match r_progress x with Open _ => Answered | _ => Dropped end)) X) as D2.
    assert (req_cost (Req (r_method x) (r_payload x) (match r_progress x with Open _ => Answered | _ => Dropped end)) = 0) by (unfold req_cost; cbn; now destruct (r_progress x)). lia.
  - rewrite <- (leave_upd (thr st) q Idle) by congruence. objcost B (at_place b Freed) 1 0. lia.
  - pose proof (leave_less (thr st) q n ltac:(congruence) 0 ltac:(lia)). lia.
  - rewrite F. lia.
  - rewrite S. lia.
  - rewrite S. lia.
  - lia.
  - lia.
Qed.
(** Executions of work and of the destructor are finite. *)
Lemma work_bounded es : forall st st', well st -> forallb (fun e => is_work e || is_end e) es = true -> run st es = Next st' -> length es + cost st' <= cost st.
Proof.
  induction es as [|e es IH]; intros st st' W H R; cbn [forallb HandlerModel.run length] in *; [injection R as <-; lia|].
  apply andb_true_iff in H as [H1 H2]. destruct (step st e) as [| |st1] eqn:E; try discriminate.
  specialize (IH st1 st' (well_step _ _ _ W E) H2 R). apply step_moves in E. pose proof (cost_step _ _ _ (proj1 W) E H1). lia.
Qed.

(** The requests are those the clients sent, and none is refused while the server runs. *)
Definition sends (es : list event) : list (method * Payload) := flat_map (fun e => match e with Send m p => [(m, p)] | _ => [] end) es.
Definition contents st : list (method * Payload) := map (fun x => (r_method x, r_payload x)) (reqs st).
Lemma contents_set (rs : list req) r x p : nth_error rs r = Some x ->
  map (fun x => (r_method x, r_payload x)) (set_nth rs r (Req (r_method x) (r_payload x) p)) = map (fun x => (r_method x, r_payload x)) rs.
Proof.
  revert r. induction rs as [|y rs IH]; intros [|r] H; cbn [nth_error] in H; try discriminate; unfold set_nth in *; cbn [firstn skipn app map].
  - now injection H as ->.
  - f_equal. exact (IH r H).
Qed.
Lemma contents_step st e st' : moves st e st' -> contents st' = contents st ++ sends [e].
Proof.
  intros M. destruct M; unfold contents, served; cbn [reqs put add mark set_thr reply_with with_srv sends flat_map]; rewrite ?app_nil_r; try reflexivity;
    try (now apply contents_set). now rewrite map_app.
Qed.
Lemma contents_run es : forall st st', run st es = Next st' -> contents st' = contents st ++ sends es.
Proof.
  induction es as [|e es IH]; intros st st' H; cbn [HandlerModel.run] in H; [injection H as <-; symmetry; apply app_nil_r|].
  destruct (step st e) as [| |st1] eqn:E; try discriminate. rewrite (IH _ _ H), (contents_step _ _ _ (step_moves _ _ _ E)), <- app_assoc.
  f_equal. cbn [sends flat_map]. now rewrite app_nil_r.
Qed.
Definition welcome st : Prop := srv st = Running -> forall r x, nth_error (reqs st) r = Some x -> r_progress x <> Refused.
Lemma welcome_step st e st' : welcome st -> moves st e st' -> welcome st'.
Proof.
  intros K M. destruct M as [m p|r x o X P|r o x b X B S P L MM|r x X S P|o b B S L|o ok b B L|q o b ok T B Q L OK|q o b T B Q L PS
    |q o b T B Q L CS|q o b T B L C|q o b r x T B L C R X|q o b T B L|q T Q C E F|F|F S|S E|S Q|T Q J];
    unfold served, welcome in *; cbn [reqs srv put add mark set_thr reply_with with_srv]; auto; try discriminate; try congruence.
  - intros R r x H. apply nth_snoc in H as [H|[_ ->]]; [exact (K R r x H)|]. discriminate.
  - intros R r' x' H. rewrite (nth_set _ _ _ _ _ X) in H. destruct (r' =? r); [injection H as <-; discriminate|exact (K R r' x' H)].
  - intros R r' x' H. rewrite (nth_set _ _ _ _ _ X) in H. destruct (r' =? r); [injection H as <-; discriminate|exact (K R r' x' H)].
  - intros R' r' x' H. rewrite (nth_set _ _ _ _ _ X) in H. destruct (r' =? r); [injection H as <-; cbn; destruct (r_progress x); discriminate|exact (K R' r' x' H)].
Qed.
Lemma welcome_run es : forall st st', welcome st -> run st es = Next st' -> welcome st'.
Proof.
  induction es as [|e es IH]; intros st st' W H; cbn [HandlerModel.run] in H; [injection H as <-; exact W|].
  destruct (step st e) as [| |st1] eqn:E; try discriminate. exact (IH _ _ (welcome_step _ _ _ W (step_moves _ _ _ E)) H).
Qed.

(** *** The results *)
Lemma answers_once es st : run init es = Next st -> contents st = sends es /\ NoDup (map fst (log st)) /\
  (forall r, In r (map fst (log st)) <-> exists x, nth_error (reqs st) r = Some x /\ settled x) /\ answers_right (reqs st) (log st).
Proof.
  intros H. split; [exact (contents_run _ _ _ H)|]. destruct (reaches_well st (ex_intro _ es H)) as (_ & _ & [PL PO PR] & _). auto.
Qed.
Lemma all_answered es st : forallb (fun e => negb (is_cancel e)) es = true -> run init es = Next st -> 0 < n -> srv st = Running -> quiet st ->
  forall r x, nth_error (reqs st) r = Some x -> r_progress x = Answered /\ In r (map fst (log st)).
Proof.
  intros C H Hn Hs Q r x X. pose proof (reaches_well st (ex_intro _ es H)) as W. destruct (quiet_running st W Hn Hs Q) as [_ A].
  assert (Wc : welcome init) by (intros _ [|i] y Hi; discriminate).
  destruct (proj2 (kept_run es init well_init kept_init C) st H r x X) as [ND _].
  destruct (A r x X) as [S|S]; [|exfalso; exact (welcome_run es _ _ Wc H Hs r x X S)]. split; [destruct S; [assumption|congruence]|].
  apply (p_log _ (proj1 (proj2 (proj2 W)))). now exists x.
Qed.
Lemma finished es st : run init es = Next st -> (forall e, is_work e || is_end e = true -> step st e = Stuck) ->
  joined st = n /\ (forall q, q < n -> thr st q = Done) /\ (forall o b, nth_error (objs st) o = Some b -> o_place b = Freed) /\
  forall r x, nth_error (reqs st) r = Some x -> r_progress x = Refused \/ In r (map fst (log st)).
Proof.
  intros H Q. pose proof (reaches_well st (ex_intro _ es H)) as W. assert (Qq : quiet st) by (intros e He; apply Q; now rewrite He).
  assert (J : joined st = n) by (apply (quiet_end st W Qq); intros e He; apply Q; rewrite He; apply orb_true_r).
  destruct (end_freed st W J) as (A & B & C). split; [exact J|]. split; [exact B|]. split; [exact A|]. intros r x X.
  pose proof (quiet_taken st (proj1 W) (proj1 (proj2 W)) Qq r x X) as NT. destruct (r_progress x) as [|o|o| | |] eqn:P.
  - exfalso. pose proof (Q (Refuse r) eq_refl) as E. cbn [HandlerModel.step] in E. rewrite X, P in E. destruct (srv st) eqn:Sv; try discriminate.
    pose proof (Q Flag eq_refl) as E1. cbn [HandlerModel.step] in E1. destruct (flag st) eqn:Ff; [|discriminate].
    pose proof (Q Stop eq_refl) as E2. cbn [HandlerModel.step] in E2. rewrite Ff, Sv in E2. discriminate.
  - exfalso. apply (NT o). now left.
  - exfalso. apply (NT o). now right.
  - right. apply (p_log _ (proj1 (proj2 (proj2 W)))). exists x. split; [exact X|now left].
  - right. apply (p_log _ (proj1 (proj2 (proj2 W)))). exists x. split; [exact X|now right].
  - now left.
Qed.
Lemma work_ends es es' st st' : run init es = Next st -> forallb (fun e => is_work e || is_end e) es' = true -> run st es' = Next st' -> length es' <= cost st.
Proof. intros H K R. pose proof (work_bounded es' st st' (reaches_well st (ex_intro _ es H)) K R). lia. Qed.
Lemma one_listener es st q m : run init es = Next st -> srv st = Running -> q < n -> listeners q m (objs st) = 1.
Proof. intros H S Q. destruct (reaches_well st (ex_intro _ es H)) as (_ & _ & _ & L). exact (proj2 (L q m Q) S). Qed.

Lemma requests_of (rs : list req) ids : (forall r, In r ids -> nth_error rs r <> None) ->
  map Some (flat_map (request_of rs) ids) = map (nth_error (map (fun x => (r_method x, r_payload x)) rs)) ids.
Proof.
  induction ids as [|r ids IH]; intros H; cbn [flat_map map]; [reflexivity|]. rewrite map_app, IH by (intros r' Hr; apply H; now right).
  assert (N : nth_error rs r <> None) by (apply H; now left). unfold request_of. rewrite nth_error_map. now destruct (nth_error rs r).
Qed.
Lemma answers es st : run init es = Next st -> contents st = sends es /\ NoDup (map fst (log st)) /\
  (forall r, In r (map fst (log st)) <-> exists x, nth_error (reqs st) r = Some x /\ settled x) /\
  forall before r ok reply after, log st = before ++ (r, (ok, reply)) :: after ->
    exists m p, nth_error (contents st) r = Some (m, p) /\
      exists calls, map Some calls = map (nth_error (contents st)) (map fst before) /\
        reply = snd (impl calls m p) /\ (keeps_status m = true -> ok = fst (impl calls m p)).
Proof.
  intros H. destruct (answers_once es st H) as (A & B & C & D). repeat (split; [assumption|]). intros before r ok reply after L.
  destruct (D before r (ok, reply) after L) as (x & X & E). exists (r_method x), (r_payload x). split; [unfold contents; now rewrite nth_error_map, X|].
  exists (flat_map (request_of (reqs st)) (map fst before)). split.
  - apply requests_of. intros r' Hr. destruct (proj1 (C r')) as (y & Y & _); [|congruence]. rewrite L, map_app. apply in_or_app. now left.
  - unfold sent in E. split; [congruence|]. intros K. rewrite K in E. congruence.
Qed.
Lemma listeners_filter q m l : length (filter (fun b => (o_queue b =? q) && method_eqb (o_method b) m && waits b) l) = listeners q m l.
Proof.
  unfold listeners, total, listens. induction l as [|b l IH]; [reflexivity|]. cbn [filter map list_sum fold_right].
  destruct ((o_queue b =? q) && method_eqb (o_method b) m && waits b); cbn [length]; unfold list_sum in *; lia.
Qed.
Lemma one_waits es st q m : run init es = Next st -> srv st = Running -> q < n ->
  length (filter (fun b => (o_queue b =? q) && method_eqb (o_method b) m && waits b) (objs st)) = 1.
Proof. intros H S Q. rewrite listeners_filter. exact (one_listener es st q m H S Q). Qed.
End Server.
Lemma no_threads P R (impl : list (method * P) -> method -> P -> bool * R) es st : run impl 0 (init 0) es = Next st -> log st = [].
Proof.
  assert (G : forall es st0 st, objs st0 = [] -> log st0 = [] -> run impl 0 st0 es = Next st -> log st = []).
  { clear. induction es as [|e es IH]; intros st0 st O L H; cbn [run] in H; [injection H as <-; exact L|].
    destruct (step impl 0 st0 e) as [| |st1] eqn:E; try discriminate. apply step_moves in E.
    assert (Z : forall o b, nth_error (objs st0) o = Some b -> False) by (rewrite O; intros [|o] b Hb; discriminate).
    apply (IH st1 st); [| |exact H]; destruct E; unfold served; cbn [objs log put add mark set_thr reply_with with_srv]; try assumption;
      exfalso; eapply Z; eassumption. }
  exact (G es (init 0) st eq_refl eq_refl).
Qed.
