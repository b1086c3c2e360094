(** Proofs about datasets. *)
From Coq Require Import String Permutation.
From Verif Require Import Base IterModel IterProofs DatasetModel DatasetSpec.
From Coq Require Import ZifyBool ZifyNat.
Local Open Scope string_scope.
Local Open Scope list_scope.
Local Open Scope nat_scope.

Lemma eqb_neq (a b : string) : a <> b -> String.eqb a b = false.
Proof. apply String.eqb_neq. Qed.

(** The configuration of FileNodeSampler. *)
Definition cfg (sf : value) (B E w W D d : nat) (sh dr : bool) (fill : Z) : env :=
  [("sample_files", sf); ("batch_size", num B); ("epochs", num E); ("shuffle", VBool sh); ("drop_last", VBool dr);
   ("backfill_id", VNum fill); ("worker_index", num w); ("num_workers", num W); ("data_parallel_num", num D); ("data_parallel_index", num d)].

Definition dpn (info : option (nat * nat)) : nat := match info with Some (_, n) => n | None => 1 end.
Definition dpi (info : option (nat * nat)) : nat := match info with Some (i, _) => i | None => 0 end.

Lemma lookup_worker k info kwargs : k <> "data_parallel_index" -> k <> "data_parallel_num" ->
  lookup k (worker_kwargs info kwargs) = lookup k kwargs.
Proof.
  intros H1 H2. destruct info as [[i n]|]; [|reflexivity]. cbn [worker_kwargs lookup].
  now rewrite (eqb_neq _ _ H1), (eqb_neq _ _ H2).
Qed.

Lemma file_node_config o info kwargs fill t0 :
  plain kwargs fill -> (info = None -> lookup "data_parallel_num" kwargs = None /\ lookup "data_parallel_index" kwargs = None) ->
  t_kwargs t0 = kwargs ->
  torch_iter file_node o info t0 =
  Ok (Torch (worker_kwargs info kwargs) (Some (cfg VOther (o_batch o) (o_epochs o) (o_worker o) (o_workers o) (dpn info) (dpi info) false false fill))).
Proof.
  intros (Own & F & Sh & Dr & Fi) Un T0. unfold torch_iter. rewrite T0.
  assert (HS : forall k v, (k <> "data_parallel_index") -> (k <> "data_parallel_num") -> lookup k kwargs = v -> lookup k (worker_kwargs info kwargs) = v).
  { intros k v A B C. now rewrite lookup_worker. }
  assert (K1 := HS "sample_files" _ ltac:(discriminate) ltac:(discriminate) F).
  assert (K2 := HS "batch_size" _ ltac:(discriminate) ltac:(discriminate) (Own "batch_size" ltac:(cbn; auto 12))).
  assert (K3 := HS "epochs" _ ltac:(discriminate) ltac:(discriminate) (Own "epochs" ltac:(cbn; auto 12))).
  assert (K4 := HS "worker_index" _ ltac:(discriminate) ltac:(discriminate) (Own "worker_index" ltac:(cbn; auto 12))).
  assert (K5 := HS "num_workers" _ ltac:(discriminate) ltac:(discriminate) (Own "num_workers" ltac:(cbn; auto 12))).
  assert (K6 := HS "shuffle" _ ltac:(discriminate) ltac:(discriminate) eq_refl).
  assert (K7 := HS "drop_last" _ ltac:(discriminate) ltac:(discriminate) eq_refl).
  assert (K8 := HS "backfill_id" _ ltac:(discriminate) ltac:(discriminate) eq_refl).
  assert (K9 : lookup "data_parallel_num" (worker_kwargs info kwargs) = match info with Some (_, n) => Some (num n) | None => None end).
  { destruct info as [[i n]|]; [reflexivity|]. now apply Un. }
  assert (K10 : lookup "data_parallel_index" (worker_kwargs info kwargs) = match info with Some (i, _) => Some (num i) | None => None end).
  { destruct info as [[i n]|]; [reflexivity|]. now apply Un. }
  assert (E : init_sampler file_node (Some VGraph) (worker_kwargs info kwargs) (("graph", VGraph) :: attributes o) =
    Ok (cfg VOther (o_batch o) (o_epochs o) (o_worker o) (o_workers o) (dpn info) (dpi info) false false fill)).
  { generalize dependent (worker_kwargs info kwargs). intros kw HS K1 K2 K3 K4 K5 K6 K7 K8 K9 K10. clear HS.
    unfold init_sampler, file_node, workers, dp. cbn [app mapM]. unfold sampler_arg, req, opt. cbn [p_graph p_name].
    rewrite K1, K2, K3, K4, K5, K6, K7, K8, K9, K10. cbn.
    destruct Sh as [->| ->]; destruct Dr as [->| ->]; destruct Fi as [->|[-> ->]]; destruct info as [[i n]|]; reflexivity. }
  rewrite E. reflexivity.
Qed.

(** Every iteration configures the sampler in the same way. *)
Fixpoint iterations (params : list param) (o : options) (info : option (nat * nat)) (n : nat) (t : torch) : res torch :=
  match n with
  | O => Ok t
  | S m => do t' <- iterations params o info m t ;; torch_iter params o info t'
  end.
Lemma lookup_again k info kwargs : lookup k (worker_kwargs info (worker_kwargs info kwargs)) = lookup k (worker_kwargs info kwargs).
Proof.
  destruct info as [[i n]|]; [|reflexivity]. cbn [worker_kwargs lookup].
  destruct (String.eqb k "data_parallel_index"); [reflexivity|]. destruct (String.eqb k "data_parallel_num"); reflexivity.
Qed.
Lemma init_ext params graph kw1 kw2 attrs : (forall k, lookup k kw1 = lookup k kw2) ->
  init_sampler params graph kw1 attrs = init_sampler params graph kw2 attrs.
Proof.
  intro H. unfold init_sampler. induction params as [|p ps IH]; [reflexivity|]. cbn [mapM].
  replace (sampler_arg graph kw2 attrs p) with (sampler_arg graph kw1 attrs p) by (unfold sampler_arg; rewrite H; reflexivity).
  now rewrite IH.
Qed.
Theorem iterations_same params o info n t t1 : torch_iter params o info t = Ok t1 ->
  exists t2, iterations params o info (S n) t = Ok t2 /\ t_sampler t2 = t_sampler t1 /\ (forall k, lookup k (t_kwargs t2) = lookup k (t_kwargs t1)).
Proof.
  intro H. induction n as [|n (t2 & H1 & H2 & H3)].
  - exists t1. refine (conj _ (conj eq_refl (fun k => eq_refl))). exact H.
  - cbn [iterations] in *. rewrite H1. cbn [bind]. unfold torch_iter in H |- *.
    destruct (init_sampler params (Some VGraph) (worker_kwargs info (t_kwargs t)) _) as [s|] eqn:E; [|discriminate].
    cbn [bind] in H. injection H as <-. cbn [t_kwargs t_sampler] in *.
    assert (X : forall k, lookup k (worker_kwargs info (t_kwargs t2)) = lookup k (worker_kwargs info (t_kwargs t))).
    { intro k. rewrite <- lookup_again. destruct info as [[i m]|]; [|apply H3].
      cbn [worker_kwargs lookup]. destruct (String.eqb k "data_parallel_index") eqn:E1; [reflexivity|].
      destruct (String.eqb k "data_parallel_num") eqn:E2; [reflexivity|]. rewrite H3. cbn [worker_kwargs lookup].
      now rewrite E1, E2. }
    rewrite (init_ext _ _ _ _ _ X), E. cbn [bind]. eexists. refine (conj eq_refl (conj eq_refl X)).
Qed.

(** ** Coverage *)
Lemma flat_map_split {A B} (f g : A -> list B) l : Permutation (flat_map (fun x => f x ++ g x) l) (flat_map f l ++ flat_map g l).
Proof.
  induction l as [|a l IH]; [constructor|]. cbn. rewrite IH, <- !app_assoc. apply Permutation_app_head.
  rewrite !app_assoc. apply Permutation_app_tail, Permutation_app_comm.
Qed.
Lemma flat_map_perm {A B} (f g : A -> list B) l : (forall x, In x l -> Permutation (f x) (g x)) -> Permutation (flat_map f l) (flat_map g l).
Proof.
  induction l as [|a l IH]; intro H; [constructor|]. cbn. apply Permutation_app; [apply H; now left|]. apply IH. intros x Hx. apply H. now right.
Qed.
Lemma concat_perm {A} (l m : list (list A)) : Permutation l m -> Permutation (List.concat l) (List.concat m).
Proof.
  induction 1 as [|x l m H IH|x y l|l m n _ IH1 _ IH2]; cbn.
  - constructor.
  - now apply Permutation_app_head.
  - rewrite !app_assoc. apply Permutation_app_tail, Permutation_app_comm.
  - now transitivity (List.concat m).
Qed.
Lemma repeats {A B} (f : A -> list B) ws E :
  Permutation (flat_map (fun w => List.concat (repeat (f w) E)) ws) (List.concat (repeat (flat_map f ws) E)).
Proof.
  induction E as [|E IH]; cbn.
  - induction ws; [constructor|exact IHws].
  - rewrite flat_map_split. now apply Permutation_app_head.
Qed.
Lemma with_pads {A B} (f g : A -> list B) fill b ws :
  (forall w, In w ws -> exists pad, Permutation (f w) (g w ++ repeat fill pad) /\ pad < b) ->
  exists pad, Permutation (flat_map f ws) (flat_map g ws ++ repeat fill pad) /\ pad + List.length ws <= b * List.length ws.
Proof.
  induction ws as [|w ws IH]; intro H; [exists 0; split; [constructor|cbn; lia]|].
  destruct (H w (or_introl eq_refl)) as (p1 & P1 & L1). destruct IH as (p2 & P2 & L2); [intros x Hx; apply H; now right|].
  exists (p1 + p2). split; [|cbn [List.length]; lia]. cbn. rewrite P1, P2, repeat_app, <- !app_assoc. apply Permutation_app_head.
  rewrite !app_assoc. apply Permutation_app_tail, Permutation_app_comm.
Qed.
Lemma concat_repeat_seq_index n E : index_of false E n (List.concat (repeat (seq 0 n) E)).
Proof.
  exists (repeat (seq 0 n) E). refine (conj eq_refl (conj (repeat_length _ _) _)). apply Forall_forall. intros t H. now apply repeat_spec in H.
Qed.
Lemma concat_repeat_len {A} (l : list A) E : List.length (List.concat (repeat l E)) = E * List.length l.
Proof. induction E as [|E IH]; [reflexivity|]. cbn. rewrite app_length. lia. Qed.

Definition share (files : list (list Z)) (W w : nat) : list Z := List.concat (pyslice files w (List.length files) W).
Lemma share_all files W : 0 < W -> Permutation (flat_map (share files W) (seq 0 W)) (List.concat files).
Proof.
  intro H. unfold share.
  replace (flat_map (fun w => List.concat (pyslice files w (List.length files) W)) (seq 0 W))
    with (List.concat (List.concat (map (fun w => pyslice files w (List.length files) W) (seq 0 W)))).
  - now apply concat_perm, pyslice_partition.
  - generalize (seq 0 W). intro l. induction l as [|a l IH]; [reflexivity|]. cbn. now rewrite concat_app, IH.
Qed.

Lemma process_plain files perm o info kwargs fill fuel :
  plain kwargs fill -> (info = None -> lookup "data_parallel_num" kwargs = None /\ lookup "data_parallel_index" kwargs = None) ->
  o_workers o <= List.length files -> share files (o_workers o) (o_worker o) <> [] ->
  let nodes := share files (o_workers o) (o_worker o) in
  process files perm o info kwargs fuel =
  Ok (drain (np_next nodes (List.concat (repeat (seq 0 (List.length nodes)) (o_epochs o))) (o_epochs o * List.length nodes)
         (o_batch o) (dpn info) false fill) fuel (np_start (dpi info) (o_batch o))).
Proof.
  intros P U L N nodes. unfold process. rewrite (file_node_config o info kwargs fill) by auto. cbn [bind t_sampler].
  unfold file_node_batches, cfg, nat_arg, bool_arg, z_arg, num. cbn [lookup String.eqb Ascii.eqb Bool.eqb].
  rewrite !Nat2Z.id. unfold worker_files. replace (List.length files <? o_workers o) with false by lia. cbn [bind].
  change (List.concat (pyslice files (o_worker o) (List.length files) (o_workers o))) with nodes.
  destruct (Nat.eqb_spec (List.length nodes) 0) as [E|E]; [|reflexivity].
  exfalso. apply N. now apply length_zero_iff_nil.
Qed.

Definition rank (o : options) (w W : nat) : options := Options W w (o_batch o) (o_epochs o) (o_prefetch o).
Theorem cover files perm o W D kwargs fill fuel :
  plain kwargs fill -> unsplit D kwargs -> 0 < o_batch o -> 0 < W <= List.length files ->
  (forall w, w < W -> share files W w <> []) -> o_epochs o * List.length (List.concat files) < fuel ->
  exists batches pad,
    (forall w info, w < W -> In info (loader D) -> process files perm (rank o w W) info kwargs fuel = Ok (Some (batches w info))) /\
    (forall w info b, w < W -> In info (loader D) -> In b (batches w info) -> List.length b = o_batch o) /\
    Permutation (flat_map (fun w => List.concat (flat_map (batches w) (loader D))) (seq 0 W))
                (List.concat (repeat (List.concat files) (o_epochs o)) ++ repeat fill pad) /\
    pad <= W * (o_batch o - 1).
Proof.
  intros P U HB HW HN HF.
  set (B := o_batch o) in *. set (E := o_epochs o) in *.
  set (D' := Nat.max 1 D).
  assert (Un : forall info, In info (loader D) -> info = None -> lookup "data_parallel_num" kwargs = None /\ lookup "data_parallel_index" kwargs = None).
  { intros info Hi ->. apply U. destruct D as [|D]; [reflexivity|]. exfalso. unfold loader in Hi. apply in_map_iff in Hi. destruct Hi as (d & X & _). discriminate. }
  assert (Dp : forall info, In info (loader D) -> dpn info = D').
  { intros info Hi. destruct D as [|D]; [destruct Hi as [<-|[]]; reflexivity|]. unfold loader in Hi. apply in_map_iff in Hi.
    destruct Hi as (d & <- & _). reflexivity. }
  assert (Di : map dpi (loader D) = seq 0 D').
  { destruct D as [|D]; [reflexivity|]. unfold loader, D'. rewrite map_map. cbn [dpi]. apply map_id. }
  set (res_of := fun w info => match process files perm (rank o w W) info kwargs fuel with Ok (Some b) => b | _ => [] end).
  assert (Lw : forall w, w < W -> List.length (share files W w) <= List.length (List.concat files)).
  { intros w Hw. pose proof (share_all files W ltac:(lia)) as Hp. apply Permutation_length in Hp. rewrite <- Hp.
    assert (I : In w (seq 0 W)) by (apply in_seq; lia). revert I. generalize (seq 0 W). intro l. induction l as [|a l IH]; [intros []|].
    cbn. rewrite app_length. intros [->|I]; [lia|]. apply IH in I. lia. }
  assert (Each : forall w, w < W -> exists bt pad,
    (forall info, In info (loader D) -> process files perm (rank o w W) info kwargs fuel = Ok (Some (bt (dpi info)))) /\
    (forall i b, In b (bt i) -> List.length b = B) /\
    Permutation (List.concat (flat_map bt (seq 0 D'))) (List.concat (repeat (share files W w) E) ++ repeat fill pad) /\ pad < B).
  { intros w Hw. destruct (np_cover false E (share files W w) _ B D' fill (concat_repeat_seq_index _ E) HB ltac:(unfold D'; lia)) as (bt & pad & H1 & H2 & H3 & H4).
    exists bt, pad. refine (conj _ (conj H2 (conj H3 H4))). intros info Hi.
    rewrite (process_plain files perm (rank o w W) info kwargs fill fuel P (Un info Hi)); [|cbn; lia|apply HN; exact Hw].
    cbn [o_workers o_worker o_epochs o_batch rank]. rewrite (Dp info Hi). f_equal. apply H1. rewrite concat_repeat_len, seq_length.
    specialize (Lw w Hw). nia. }
  exists res_of.
  destruct (with_pads (fun w => List.concat (flat_map (res_of w) (loader D))) (fun w => List.concat (repeat (share files W w) E)) fill B (seq 0 W)) as (pad & HP & HL).
  { intros w Hw. apply in_seq in Hw. destruct (Each w ltac:(lia)) as (bt & p & H1 & H2 & H3 & H4). exists p. split; [|exact H4].
    rewrite <- H3, <- Di. rewrite !flat_map_concat_map, map_map.
    replace (map (res_of w) (loader D)) with (map (fun x => bt (dpi x)) (loader D)); [reflexivity|].
    apply map_ext_in. intros info Hi. unfold res_of. now rewrite (H1 info Hi). }
  exists pad. refine (conj _ (conj _ (conj _ _))).
  - intros w info Hw Hi. destruct (Each w Hw) as (bt & p & H1 & _). unfold res_of. now rewrite (H1 info Hi).
  - intros w info b Hw Hi Hb. destruct (Each w Hw) as (bt & p & H1 & H2 & _). unfold res_of in Hb. rewrite (H1 info Hi) in Hb. now apply (H2 (dpi info)).
  - rewrite HP. apply Permutation_app_tail. rewrite repeats.
    assert (R : forall (l m : list Z) n, Permutation l m -> Permutation (List.concat (repeat l n)) (List.concat (repeat m n))).
    { intros l m n H. induction n; cbn; [constructor|now apply Permutation_app]. }
    apply R, share_all. lia.
  - rewrite seq_length in HL. nia.
Qed.

(** ** tf.data *)
Theorem tf_fresh_passes {S B} (next : S -> option (B * S)) s0 fuel bs k :
  drain next fuel s0 = Some bs -> bs <> [] -> tf_fresh next s0 fuel k = Some (repeat bs k).
Proof.
  intros H N.
  assert (X : exists r, next s0 = Some r).
  { destruct fuel as [|f]; [discriminate|]. cbn in H. destruct (next s0) as [[b s']|]; [eauto|]. injection H as <-. contradiction. }
  destruct X as (r & X). induction k as [|k IH]; cbn [tf_fresh]; rewrite X; [reflexivity|]. now rewrite H, IH.
Qed.
Lemma drain_to_end {S B} (next : S -> option (B * S)) : forall fuel s bs, drain next fuel s = Some bs ->
  exists s', drain_to next fuel s = Some (bs, s') /\ next s' = None.
Proof.
  induction fuel as [|f IH]; intros s bs H; [discriminate|]. cbn in *. destruct (next s) as [[b s1]|] eqn:E.
  - destruct (drain next f s1) as [bs'|] eqn:D; [|discriminate]. injection H as <-.
    destruct (IH s1 bs' D) as (s' & H1 & H2). rewrite H1. cbn. eauto.
  - injection H as <-. eauto.
Qed.
Lemma passes_done {S B} (next : S -> option (B * S)) fuel s k : next s = None -> 0 < fuel -> passes next fuel k s = Some (repeat [] k).
Proof.
  intros H F. destruct fuel as [|f]; [lia|]. induction k as [|k IH]; [reflexivity|]. cbn [passes drain_to repeat]. rewrite H. now rewrite IH.
Qed.
Theorem tf_self_passes {S B} (next : S -> option (B * S)) s0 fuel b bs k :
  drain next fuel s0 = Some (b :: bs) -> tf_self next s0 fuel (Datatypes.S k) = Some (bs :: repeat [] k).
Proof.
  intro H. destruct fuel as [|f]; [discriminate|]. pose proof H as H0. cbn [drain] in H. unfold tf_self.
  destruct (next s0) as [[b0 s1]|] eqn:E; [|discriminate]. destruct (drain next f s1) as [bs'|] eqn:D; [|discriminate].
  injection H as <- <-.
  assert (D' : forall f s l, drain next f s = Some l -> drain next (Datatypes.S f) s = Some l).
  { clear. induction f as [|f IH]; intros s l H; [discriminate|]. cbn [drain] in H. cbn [drain]. destruct (next s) as [[b s']|]; [|exact H].
    destruct (drain next f s') as [l'|] eqn:E; [|discriminate]. apply IH in E. cbn [drain] in E. rewrite E. exact H. }
  apply D' in D. destruct (drain_to_end next _ _ _ D) as (s' & H1 & H2). cbn [passes]. rewrite H1.
  rewrite passes_done by (auto; lia). reflexivity.
Qed.

(** ** Arguments of samplers *)
Lemma init_lookup params g kw at_ : forall e p, init_sampler params g kw at_ = Ok e -> NoDup (map p_name params) -> In p params ->
  exists v, lookup (p_name p) e = Some v /\
    (sampler_arg g kw at_ p = Ok (Some v) \/ sampler_arg g kw at_ p = Ok None /\ p_default p = Some v).
Proof.
  induction params as [|p0 ps IH]; intros e p H N I; [destruct I|]. unfold init_sampler in H. cbn [mapM] in H.
  destruct (sampler_arg g kw at_ p0) as [a|] eqn:Ea; [|discriminate]. cbn [bind] in H.
  destruct (bind_param p0 a) as [v|] eqn:Ev; [|discriminate]. cbn [bind] in H.
  match type of H with bind ?m _ = _ => destruct m as [es|] eqn:Em; [|discriminate] end. cbn [bind] in H. injection H as <-.
  cbn [map] in N. apply NoDup_cons_iff in N. destruct N as [Np N]. cbn [lookup]. destruct I as [->|I].
  - rewrite String.eqb_refl. exists v. split; [reflexivity|]. rewrite Ea. unfold bind_param in Ev. destruct a as [x|].
    + injection Ev as ->. now left.
    + destruct (p_default p); [injection Ev as ->|discriminate]. now right.
  - destruct (String.eqb_spec (p_name p) (p_name p0)) as [E|E].
    + exfalso. apply Np. rewrite <- E. now apply in_map.
    + apply (IH es p Em N I).
Qed.
Lemma names_nodup : Forall (fun ps => NoDup (map p_name ps)) all_samplers.
Proof.
  repeat (constructor; [repeat (constructor; [cbn; intuition discriminate|]); constructor|]). constructor.
Qed.
Definition shared : list string := ["num_workers"; "worker_index"; "batch_size"; "epochs"].
Lemma shared_no_graph : Forall (fun ps => Forall (fun p => In (p_name p) shared -> p_graph p = false) ps) all_samplers.
Proof.
  repeat (constructor; [repeat (constructor; [cbn; intuition discriminate|]); constructor|]). constructor.
Qed.
Theorem wiring o params kwargs graph e k :
  In params all_samplers -> (forall k, In k own_names -> lookup k kwargs = None) ->
  init_sampler params graph kwargs (("graph", VGraph) :: attributes o) = Ok e ->
  In k shared -> In k (map p_name params) -> lookup k e = lookup k (attributes o).
Proof.
  intros Hs Own H Hk Hp. apply in_map_iff in Hp. destruct Hp as (p & <- & Hp).
  pose proof (proj1 (Forall_forall _ _) names_nodup params Hs) as N.
  pose proof (proj1 (Forall_forall _ _) shared_no_graph params Hs) as F. cbn in F. rewrite Forall_forall in F.
  destruct (init_lookup params graph kwargs _ e p H N Hp) as (v & E & X). rewrite E.
  assert (A : sampler_arg graph kwargs (("graph", VGraph) :: attributes o) p = Ok (lookup (p_name p) (attributes o)) /\ lookup (p_name p) (attributes o) <> None).
  { unfold sampler_arg. rewrite (F p Hp Hk). rewrite Own by (cbn in Hk |- *; intuition).
    cbn in Hk. destruct Hk as [<-|[<-|[<-|[<-|[]]]]]; split; try reflexivity; discriminate. }
  destruct A as [A1 A2]. rewrite A1 in X. destruct X as [X|[X _]]; injection X as X; [now symmetry|contradiction].
Qed.

Theorem given params kwargs graph attrs e p v :
  In params all_samplers -> init_sampler params graph kwargs attrs = Ok e ->
  In p params -> p_graph p = false -> lookup (p_name p) kwargs = Some v -> lookup (p_name p) e = Some v.
Proof.
  intros Hs H Hp G K. pose proof (proj1 (Forall_forall _ _) names_nodup params Hs) as N.
  destruct (init_lookup params graph kwargs attrs e p H N Hp) as (x & E & X). rewrite E.
  unfold sampler_arg in X. rewrite G, K in X. destruct X as [X|[X _]]; congruence.
Qed.
