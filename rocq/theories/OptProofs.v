From Coq Require Import Ascii String List Arith ZArith Bool Lia.
From Verif Require Import Base FilesModel OptModel OptSpec.
Import ListNotations.
Open Scope list_scope.
Local Open Scope nat_scope.

Lemma eqb_iff : forall a b, nm_eqb a b = true <-> a = b.
Proof. intros a b. unfold nm_eqb. destruct (list_eq_dec ascii_dec a b); split; congruence. Qed.
Lemma eqb_same : forall a, nm_eqb a a = true.
Proof. intros a. now apply eqb_iff. Qed.
Lemma get_set : forall k v a j, get_attr j (set_attr k v a) = if nm_eqb j k then Some v else get_attr j a.
Proof.
  intros k v; induction a as [|[i u] a IH]; intros j; simpl; [reflexivity|].
  destruct (nm_eqb k i) eqn:E; simpl.
  - apply eqb_iff in E. subst i. destruct (nm_eqb j k); reflexivity.
  - rewrite IH. destruct (nm_eqb j i) eqn:F; [|reflexivity]. apply eqb_iff in F. subst j.
    destruct (nm_eqb i k) eqn:G; [|reflexivity]. apply eqb_iff in G. subst. rewrite eqb_same in E. discriminate.
Qed.
Lemma get_in : forall k a v, NoDup (keys a) -> In (k, v) a -> get_attr k a = Some v.
Proof.
  intros k a v; induction a as [|[j u] a IH]; intros N I; [destruct I|]. inversion N as [|? ? J N']; subst. simpl.
  destruct I as [I|I]; [injection I as -> ->; now rewrite eqb_same|].
  destruct (nm_eqb k j) eqn:E; [|auto]. apply eqb_iff in E. subst j. exfalso. apply J. apply (in_map fst) in I. exact I.
Qed.
Lemma get_out : forall k a, ~ In k (keys a) <-> get_attr k a = None.
Proof.
  intros k; induction a as [|[j u] a IH]; simpl; [tauto|]. destruct (nm_eqb k j) eqn:E.
  - apply eqb_iff in E. subst. split; [tauto|discriminate].
  - rewrite <- IH. assert (k <> j) by (intros ->; rewrite eqb_same in E; discriminate). intuition congruence.
Qed.
(** Setting arguments one by one. *)
Lemma fold_get : forall params a k, NoDup (keys params) ->
  get_attr k (fold_left (fun a p => set_attr (fst p) (snd p) a) params a)
  = match get_attr k params with Some v => Some v | None => get_attr k a end.
Proof.
  induction params as [|[j u] params IH]; intros a k N; [reflexivity|]. inversion N as [|? ? J N']; subst. simpl.
  rewrite IH, get_set by exact N'. destruct (nm_eqb k j) eqn:E; [|reflexivity].
  apply eqb_iff in E. subst. apply get_out in J. now rewrite J.
Qed.
Lemma given_of : forall params defaults k, NoDup (keys params) -> NoDup (keys defaults) ->
  given_or params defaults k (match get_attr k params with Some v => Some v | None => get_attr k defaults end).
Proof.
  intros params defaults k N M. repeat split.
  - intros u I. now rewrite (get_in k params u N I).
  - intros O u I. apply get_out in O. rewrite O. now apply get_in.
  - intros O Q. apply get_out in O. apply get_out in Q. now rewrite O.
Qed.
Fixpoint nodupb (l : list nm) : bool := match l with [] => true | x :: t => negb (existsb (nm_eqb x) t) && nodupb t end.
Lemma nodupb_ok : forall l, nodupb l = true -> NoDup l.
Proof.
  induction l as [|x l IH]; intros H; [constructor|]. simpl in H. apply andb_true_iff in H. destruct H as [A B].
  constructor; [|auto]. intros I. apply negb_true_iff in A.
  assert (Q : existsb (nm_eqb x) l = true) by (apply existsb_exists; exists x; split; [exact I|apply eqb_same]). congruence.
Qed.
Lemma defaults_nodup : NoDup (keys backend_defaults).
Proof. apply nodupb_ok. vm_compute. reflexivity. Qed.
Lemma options_given : forall params k, NoDup (keys params) ->
  given_or params backend_defaults k (get_attr k (backend_options params)).
Proof.
  intros params k N. unfold backend_options. rewrite fold_get by exact N. apply given_of; [exact N|apply defaults_nodup].
Qed.
Lemma converter_fold : forall params c, NoDup (keys params) ->
  fold_left (fun a p => if has_attr (fst p) a then set_attr (fst p) (snd p) a else a) params [(str "converter", c)]
  = [(str "converter", match get_attr (str "converter") params with Some v => v | None => c end)].
Proof.
  induction params as [|[j u] params IH]; intros c N; [reflexivity|]. inversion N as [|? ? J N']; subst.
  cbn [fold_left fst snd get_attr]. unfold has_attr at 2. cbn [get_attr set_attr].
  destruct (nm_eqb j (str "converter")) eqn:E.
  - apply eqb_iff in E. rewrite E. rewrite eqb_same, IH by exact N'. rewrite <- E. apply get_out in J. now rewrite J.
  - rewrite IH by exact N'. assert (nm_eqb (str "converter") j = false) as ->; [|reflexivity].
    destruct (nm_eqb (str "converter") j) eqn:F; [|reflexivity]. apply eqb_iff in F. rewrite <- F, eqb_same in E. discriminate.
Qed.
Lemma converter_given : forall params, NoDup (keys params) ->
  exists v, converter_options params = [(str "converter", v)] /\ given_or params [(str "converter", VSkip)] (str "converter") (Some v).
Proof.
  intros params N. eexists. split; [apply (converter_fold params VSkip N)|].
  assert (M : NoDup (keys [(str "converter", VSkip)])) by (repeat constructor; simpl; auto).
  pose proof (given_of params [(str "converter", VSkip)] (str "converter") N M) as G.
  destruct (get_attr (str "converter") params) as [v|]; exact G.
Qed.
(** Backends. *)
Lemma local_made : forall o, create_backend o = MLocal ->
  get_attr (str "graph_type") o = Some VLocal /\ (exists d, get_attr (str "data_dir") o = Some d /\ truthy d = true) /\
  (get_attr (str "backend") o = Some VSnark \/ get_attr (str "backend") o = Some (VText (str "snark"))).
Proof.
  intros o H. unfold create_backend in H.
  destruct (get_attr (str "backend") o) as [b|]; [|discriminate].
  destruct (get_attr (str "graph_type") o) as [gt|]; [|discriminate].
  destruct (get_attr (str "data_dir") o) as [d|]; [|discriminate].
  destruct (get_attr (str "custom_backendclass") o) as [c|]; [|discriminate]. cbv zeta in H.
  assert (S : match gt with VLocal => if truthy d then MLocal else Asserted | VRemote => MDistributed | _ => Unbound end = MLocal ->
              gt = VLocal /\ truthy d = true).
  { destruct gt; try discriminate. destruct (truthy d); [auto|discriminate]. }
  destruct b; try discriminate.
  - destruct (nm_eqb s (str "snark")) eqn:E.
    + apply eqb_iff in E. subst. destruct (S H) as [-> T]. repeat split; eauto.
    + destruct (nm_eqb s (str "custom")); discriminate.
  - destruct (S H) as [-> T]. repeat split; eauto.
  - destruct c; discriminate.
Qed.
Lemma cli_local : forall d, d <> [] -> create_backend (backend_options (set_attr (str "data_dir") (VText d) cli_defaults)) = MLocal.
Proof. intros [|x d] H; [congruence|]. reflexivity. Qed.
Lemma cli_remote : forall d, create_backend (backend_options (set_attr (str "graph_type") VRemote (set_attr (str "data_dir") (VText d) cli_defaults))) = MDistributed.
Proof. reflexivity. Qed.

(** TLS. *)
Lemma skip_tls : forall o, skip o = true -> (client_tls (client_of o) = true <-> enable_ssl o = true /\ cert o <> []).
Proof.
  intros o S. unfold client_of. rewrite S. unfold client_tls. cbn [c_cert]. destruct (enable_ssl o); [|intuition discriminate].
  destruct (cert o); simpl; intuition congruence.
Qed.
Lemma started_plain : forall o s, started o = Some s -> server_tls s = false.
Proof. intros o s H. unfold started in H. destruct (skip o); [discriminate|]. injection H as <-. reflexivity. Qed.
Lemma started_always : forall o, skip o = false -> exists s, started o = Some s.
Proof. intros o H. unfold started. rewrite H. eexists; reflexivity. Qed.
Lemma connect_iff : forall o s, started o = Some s -> (connects o s = true <-> cert o = []).
Proof.
  intros o s H. unfold connects. rewrite (started_plain o s H). unfold started in H. destruct (skip o) eqn:S; [discriminate|].
  unfold client_of. rewrite S. unfold client_tls. cbn [c_cert]. destruct (cert o); simpl; intuition congruence.
Qed.
Lemma skip_args : forall o, skip o = true -> c_grpc (client_of o) = Some (grpc o) /\ c_threads (client_of o) = threads o /\ c_queues (client_of o) = queues o.
Proof. intros o S. unfold client_of. rewrite S. auto. Qed.
Lemma server_key : forall k r c, server_ssl (Some k) (Some r) (Some c) = Some (k, c, r) /\ (server_tls (k, c, r) = true <-> k <> []).
Proof. intros k r c. split; [reflexivity|]. destruct k; simpl; intuition congruence. Qed.
Lemma server_missing : forall k r c, server_ssl (Some k) r c = None <-> r = None \/ c = None.
Proof. intros k [r|] [c|]; simpl; intuition congruence. Qed.

Lemma defaults_agree : forall k u v, get_attr k (backend_options []) = Some u -> get_attr k cli_defaults = Some v ->
  (u <> v <-> In k [str "backend"; str "graph_type"; str "servers"; str "server_idx"; str "client_rank"]).
Proof.
  intros k u v A B. cbn [backend_options fold_left] in A.
  assert (N : forall j, nm_eqb k j = true -> k = j) by (intros; now apply eqb_iff).
  unfold cli_defaults in B. cbn [get_attr] in B.
  repeat match type of B with
  | (if nm_eqb k ?j then _ else _) = _ =>
      let E := fresh "E" in destruct (nm_eqb k j) eqn:E; [apply N in E; subst k; vm_compute in A; injection B as <-; first [discriminate A | injection A as <-;
        split; [intros H; first [exfalso; apply H; reflexivity | repeat (first [left; reflexivity | right])]
               |intros H; first [discriminate | exfalso; repeat (destruct H as [H|H]; [vm_compute in H; discriminate H|]); exact H]]]|]
  end.
  discriminate B.
Qed.
Lemma no_data : forall o d, get_attr (str "data_dir") o = Some d -> d = VNone \/ d = VText [] -> create_backend o <> MLocal.
Proof.
  intros o d A H M. apply local_made in M as (_ & (e & B & T) & _). rewrite A in B. injection B as <-.
  destruct H as [-> | ->]; discriminate T.
Qed.
Lemma plain_default : forall params, NoDup (keys params) -> ~ In (str "enable_ssl") (keys params) ->
  get_attr (str "enable_ssl") (backend_options params) = Some (VFlag false).
Proof.
  intros params N H. apply (proj1 (proj2 (options_given params (str "enable_ssl") N)) H). vm_compute. tauto.
Qed.
