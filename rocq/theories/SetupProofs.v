(** Proofs about server placement, partitions of a client and the sampler dictionaries. *)
From Coq Require Import Sorting.Sorted Permutation.
From Verif Require Import Base WriterModel LoaderModel GraphModel GraphSpec LoaderProofs ConvertProofs AnswerProofs SetupModel.
From Coq Require Import ZifyBool ZifyNat ZifyN.

Lemma str_eqb_eq a : forall b, str_eqb a b = true <-> a = b.
Proof.
  induction a as [|x a IH]; intros [|y b]; cbn; split; intro H; try discriminate; try reflexivity.
  - apply andb_true_iff in H. destruct H as [H1 H2]. apply N.eqb_eq in H1. apply IH in H2. congruence.
  - injection H as -> ->. rewrite N.eqb_refl. apply IH. reflexivity.
Qed.
Lemma str_mem_in s l : str_mem s l = true <-> In s l.
Proof.
  unfold str_mem. rewrite existsb_exists. split.
  - intros (x & Hx & E). apply str_eqb_eq in E. now subst.
  - intro H. exists s. split; [assumption|]. now apply str_eqb_eq.
Qed.
Lemma insert_str_perm s l : Permutation (insert_str s l) (s :: l).
Proof.
  induction l as [|x l IH]; cbn; [reflexivity|]. destruct (str_leb s x); [reflexivity|].
  rewrite IH. apply perm_swap.
Qed.
Lemma sort_str_perm l : Permutation (sort_str l) l.
Proof. induction l as [|x l IH]; cbn; [reflexivity|]. rewrite insert_str_perm. now constructor. Qed.

(** What rsplit(":", 1)[0] is: everything before the last colon, or all of it. *)
Definition is_host (w h : str) : Prop :=
  (exists port, w = h ++ colon :: port /\ ~ In colon port) \/ (h = w /\ ~ In colon w).
Lemma has_colon w : existsb (N.eqb colon) w = true <-> In colon w.
Proof.
  rewrite existsb_exists. split.
  - intros (x & Hx & E). apply N.eqb_eq in E. now subst.
  - intro H. exists colon. split; [assumption|reflexivity].
Qed.
Lemma host_of_spec w : is_host w (host_of w).
Proof.
  induction w as [|c w IH]; [right; split; [reflexivity|intros []]|]. cbn [host_of].
  destruct (existsb (N.eqb colon) w) eqn:E.
  - apply has_colon in E. destruct IH as [(port & Hp & Hn)|[_ Hn]]; [|contradiction].
    left. exists port. split; [|assumption]. rewrite Hp at 1. reflexivity.
  - assert (Hw : ~ In colon w) by (rewrite <- has_colon; congruence).
    destruct (N.eqb_spec c colon) as [->|Hc].
    + left. exists w. split; [reflexivity|assumption].
    + right. split; [reflexivity|]. intros [H|H]; [congruence|contradiction].
Qed.
Lemma is_host_unique w h h' : is_host w h -> is_host w h' -> h = h'.
Proof.
  intros [(p & -> & Hp)|[-> Hn]] [(p' & E & Hp')|[-> Hn']].
  - revert h' E. induction h as [|c h IH]; intros [|c' h'] E; cbn in E; [reflexivity| | |].
    + injection E as <- ->. exfalso. apply Hp. apply in_or_app. right. now left.
    + injection E as -> <-. exfalso. apply Hp'. apply in_or_app. right. now left.
    + injection E as -> E. f_equal. now apply IH.
  - exfalso. apply Hn'. apply in_or_app. right. now left.
  - exfalso. apply Hn. rewrite E. apply in_or_app. right. now left.
  - reflexivity.
Qed.

(** The indices in the sorted list. *)
Fixpoint assign (seen : list str) (ws : list str) : list Z :=
  match ws with
  | [] => []
  | w :: ws' =>
      let h := host_of w in
      (if str_mem h seen then (-1)%Z else Z.of_nat (length seen)) ::
      assign (if str_mem h seen then seen else h :: seen) ws'
  end.
Lemma scan_assign ws : forall seen, NoDup ws -> map (fun w => scan_workers w seen ws) ws = map Some (assign seen ws).
Proof.
  induction ws as [|w ws IH]; intros seen HN; [reflexivity|]. inversion HN as [|w' ws' H1 H2]; subst.
  cbn [map assign]. f_equal.
  - cbn [scan_workers]. rewrite (proj2 (str_eqb_eq w w) eq_refl). reflexivity.
  - rewrite <- IH by assumption. apply map_ext_in. intros v Hv. cbn [scan_workers].
    destruct (str_eqb v w) eqn:E; [|reflexivity]. apply str_eqb_eq in E. subst. contradiction.
Qed.
Definition servers_of (ws : list str) (ids : list Z) : list (str * Z) :=
  flat_map (fun p => if (0 <=? snd p)%Z then [(host_of (fst p), snd p)] else []) (combine ws ids).
Lemma assign_spec ws : forall seen, NoDup seen ->
  exists hs, servers_of ws (assign seen ws) = combine hs (map Z.of_nat (seq (length seen) (length hs))) /\
    NoDup hs /\ (forall h, In h hs <-> In h (map host_of ws) /\ ~ In h seen) /\
    Forall (fun z => (-1 <= z)%Z) (assign seen ws) /\ length (assign seen ws) = length ws.
Proof.
  induction ws as [|w ws IH]; intros seen HN.
  - exists []. repeat split; try constructor; cbn; intros; tauto.
  - unfold servers_of. cbn [assign map combine flat_map fst snd].
    destruct (str_mem (host_of w) seen) eqn:E.
    + apply str_mem_in in E. destruct (IH seen HN) as (hs & H1 & H2 & H3 & H4 & H5).
      exists hs. split; [exact H1|]. split; [exact H2|]. split; [|split; [constructor; [lia|exact H4]|cbn; lia]].
      intro h. rewrite H3. cbn. split; [tauto|]. intros [[<-|H] Hn]; tauto.
    + assert (Hn : ~ In (host_of w) seen) by (rewrite <- str_mem_in; congruence).
      destruct (IH (host_of w :: seen)) as (hs & H1 & H2 & H3 & H4 & H5); [now constructor|].
      exists (host_of w :: hs). rewrite (proj2 (Z.leb_le 0 (Z.of_nat (length seen)))) by lia.
      split; [|split; [|split; [|split; [constructor; [lia|exact H4]|cbn; lia]]]].
      * cbn [app length seq map combine]. f_equal. exact H1.
      * constructor; [|exact H2]. intro H. apply H3 in H. destruct H as [_ H]. apply H. now left.
      * intro h. cbn [In map]. rewrite H3. cbn [In]. split.
        -- intros [<-|[H H']]; [tauto|]. tauto.
        -- intros [[<-|H] H']; [tauto|]. destruct (list_eq_dec N.eq_dec (host_of w) h); [tauto|]. right. tauto.
Qed.

(** Indices computed by the workers of a job, worker by worker. *)
Definition index_of_worker (workers : list str) (i : nat) : option Z :=
  match extract_server_index workers i with Ok (z, _) => z | Fail _ => None end.
Definition str_dec : forall a b : str, {a = b} + {a <> b} := list_eq_dec N.eq_dec.

Lemma map_nth_seq {A B} (f : option A -> B) (l : list A) : map (fun i => f (nth_error l i)) (seq 0 (length l)) = map (fun x => f (Some x)) l.
Proof.
  induction l as [|x l IH]; [reflexivity|]. cbn [length seq map nth_error]. f_equal.
  rewrite <- seq_shift, map_map. exact IH.
Qed.
Lemma map_some_inj {A} (l l' : list A) : map Some l = map Some l' -> l = l'.
Proof.
  revert l'. induction l as [|x l IH]; intros [|y l'] H; try discriminate; [reflexivity|].
  cbn in H. injection H as -> H. f_equal. now apply IH.
Qed.
Lemma all_some {A B} (f : A -> option B) l : (forall x, In x l -> f x <> None) -> exists l', map f l = map Some l'.
Proof.
  induction l as [|x l IH]; intro H; [exists []; reflexivity|].
  destruct IH as (l' & E); [intros; apply H; now right|].
  destruct (f x) as [y|] eqn:Ex; [|exfalso; apply (H x); [now left|assumption]].
  exists (y :: l'). cbn. rewrite Ex, E. reflexivity.
Qed.
Lemma combine_map_some {A B} (f : A -> option B) l l' : map f l = map Some l' ->
  map (fun x => (x, f x)) l = map (fun p => (fst p, Some (snd p))) (combine l l').
Proof.
  revert l'. induction l as [|x l IH]; intros [|y l'] H; try discriminate; [reflexivity|].
  cbn in *. injection H as Hx H. rewrite Hx. f_equal. now apply IH.
Qed.

Lemma server_indices workers : NoDup workers ->
  exists ids, map (index_of_worker workers) (seq 0 (length workers)) = map Some ids /\
    Forall (fun z => (-1 <= z)%Z) ids /\
    exists hs, Permutation hs (nodup str_dec (map host_of workers)) /\
      Permutation (servers_of workers ids) (combine hs (map Z.of_nat (seq 0 (length hs)))).
Proof.
  intro HN. set (f := fun w => scan_workers w [] (sort_str workers)).
  assert (E1 : map (index_of_worker workers) (seq 0 (length workers)) = map f workers).
  { transitivity (map (fun i => match nth_error workers i with Some c => f c | None => None end) (seq 0 (length workers))).
    - apply map_ext. intro i. unfold index_of_worker, extract_server_index. destruct (nth_error workers i); reflexivity.
    - apply (map_nth_seq (fun o => match o with Some c => f c | None => None end)). }
  pose proof (sort_str_perm workers) as HP.
  assert (HS : NoDup (sort_str workers)) by (eapply Permutation_NoDup; [symmetry; exact HP|exact HN]).
  pose proof (scan_assign (sort_str workers) [] HS) as HA. fold f in HA.
  destruct (assign_spec (sort_str workers) [] (NoDup_nil _)) as (hs & H1 & H2 & H3 & H4 & H5).
  destruct (all_some f workers) as (ids & E2).
  { intros w Hw. assert (Hi : In (f w) (map f (sort_str workers))).
    { apply in_map. eapply Permutation_in; [symmetry; exact HP|exact Hw]. }
    rewrite HA in Hi. apply in_map_iff in Hi. destruct Hi as (z & <- & _). discriminate. }
  exists ids. split; [congruence|]. split.
  - rewrite Forall_forall in *. intros z Hz.
    assert (Hi : In (Some z) (map f (sort_str workers))).
    { eapply Permutation_in; [apply Permutation_map; symmetry; exact HP|]. fold f. rewrite E2. now apply in_map. }
    rewrite HA in Hi. apply in_map_iff in Hi. destruct Hi as (z' & Ez & Hz'). injection Ez as <-. auto.
  - exists hs. split.
    + apply NoDup_Permutation; [exact H2|apply NoDup_nodup|]. intro h. rewrite H3, nodup_In.
      assert (Hm : In h (map host_of (sort_str workers)) <-> In h (map host_of workers)).
      { split; intro H; (eapply Permutation_in; [apply Permutation_map|exact H]); [|symmetry]; exact HP. }
      rewrite Hm. cbn. tauto.
    + cbn [length] in H1. rewrite <- H1. unfold servers_of.
      set (g := fun p : str * option Z => match snd p with Some z => if (0 <=? z)%Z then [(host_of (fst p), z)] else [] | None => [] end).
      assert (Hg : forall l l', map f l = map Some l' ->
        flat_map (fun p => if (0 <=? snd p)%Z then [(host_of (fst p), snd p)] else []) (combine l l') = flat_map g (map (fun x => (x, f x)) l)).
      { intros l l' Hl. rewrite (combine_map_some f l l' Hl). rewrite !flat_map_concat_map, map_map. reflexivity. }
      rewrite (Hg workers ids E2), (Hg (sort_str workers) _ HA).
      apply Permutation_flat_map, Permutation_map. symmetry. exact HP.
Qed.

(** DDP / MPI: hosts with [size] workers each, ranked host by host. *)
Lemma ddp_servers hosts size : 0 < size ->
  flat_map (fun r => if (0 <=? ddp_index r (r mod size) size)%Z then [(r / size, ddp_index r (r mod size) size)] else [])
    (seq 0 (hosts * size)) =
  map (fun h => (h, Z.of_nat h)) (seq 0 hosts).
Proof.
  intro Hs. induction hosts as [|n IH]; [reflexivity|].
  replace (S n * size) with (n * size + size) by lia. rewrite seq_app, flat_map_app, IH, seq_S, map_app. f_equal.
  cbn [map Nat.add]. destruct size as [|k]; [lia|]. cbn [seq flat_map].
  assert (E0 : (n * S k) mod S k = 0) by (apply Nat.mod_mul; lia). rewrite E0.
  unfold ddp_index at 1 2. cbn [Nat.eqb]. rewrite Nat.div_mul by lia. rewrite (proj2 (Z.leb_le 0 (Z.of_nat n))) by lia.
  change [(n, Z.of_nat n)] with ([(n, Z.of_nat n)] ++ []). f_equal.
  assert (G : forall l, (forall r, In r l -> n * S k < r < n * S k + S k) ->
    flat_map (fun r => if (0 <=? ddp_index r (r mod S k) (S k))%Z then [(r / S k, ddp_index r (r mod S k) (S k))] else []) l = []).
  { induction l as [|r l IHl]; intro Hl; [reflexivity|]. cbn [flat_map]. rewrite IHl by (intros; apply Hl; now right).
    specialize (Hl r (or_introl eq_refl)).
    assert (Em : r mod S k = r - n * S k).
    { symmetry. apply (Nat.mod_unique r (S k) n); lia. }
    rewrite Em. unfold ddp_index. destruct (Nat.eqb_spec (r - n * S k) 0); [lia|]. reflexivity. }
  apply G. intros r Hr. apply in_seq in Hr. lia.
Qed.

(** meta.json is one line. *)
Lemma readlines_one text : ~ In newline text -> length (readlines text) <= 1.
Proof.
  induction text as [|c t IH]; intro H; [cbn; lia|]. cbn [readlines].
  destruct (N.eqb_spec c newline) as [->|Hc]; [exfalso; apply H; now left|].
  assert (Ht : ~ In newline t) by (intro; apply H; now right). specialize (IH Ht).
  destruct (readlines t) as [|l ls]; cbn in *; lia.
Qed.
Lemma auto_servers_fails parse text : ~ In newline text -> auto_servers parse text = Fail EIndex.
Proof.
  intro H. unfold auto_servers. apply readlines_one in H.
  rewrite (proj2 (nth_error_None (readlines text) 7)) by lia. reflexivity.
Qed.

(** Addresses. *)
Lemma read_addresses_perm files listing : Permutation listing files ->
  Permutation (read_addresses listing) (map fst (filter (fun f => (0 <=? snd f)%Z) files)).
Proof.
  intro H. unfold read_addresses. rewrite H. clear H. induction files as [|f l IH]; [reflexivity|].
  cbn. destruct (0 <=? snd f)%Z; cbn; [now constructor|exact IH].
Qed.
Lemma read_addresses_ordered files n :
  filter (fun z => (0 <=? z)%Z) (map snd files) = map Z.of_nat (seq 0 n) ->
  forall a z, In (a, z) files -> (0 <= z)%Z -> listen_on (read_addresses files) z = Ok a.
Proof.
  intros H a z Hin Hz. unfold listen_on.
  assert (G : forall k m, filter (fun z => (0 <=? z)%Z) (map snd files) = map Z.of_nat (seq k m) ->
    (Z.of_nat k <= z)%Z /\ nth_error (read_addresses files) (Z.to_nat z - k) = Some a).
  { clear H. revert Hin. induction files as [|[b y] l IH]; [intros []|]. intros Hin k m H.
    unfold read_addresses. cbn [flat_map fst snd]. cbn [map snd filter] in H.
    destruct (0 <=? y)%Z eqn:Ey.
    - destruct m as [|m]; [discriminate|]. cbn [seq map] in H. injection H as Hy H. subst y.
      destruct Hin as [E|Hin].
      + injection E as -> <-. split; [lia|]. rewrite Nat2Z.id, Nat.sub_diag. reflexivity.
      + destruct (IH Hin (S k) m H) as [G1 G2]. split; [lia|].
        replace (Z.to_nat z - k) with (S (Z.to_nat z - S k)) by lia. exact G2.
    - destruct Hin as [E|Hin]; [injection E as -> ->; lia|]. exact (IH Hin k m H). }
  destruct (G 0 n H) as [_ G2]. rewrite Nat.sub_0_r in G2. rewrite G2. reflexivity.
Qed.

(** Partitions of a client. *)
Lemma client_partitions_seq sel : client_partitions sel = seq 0 (Nat.max 1 (length sel)).
Proof. unfold client_partitions. destruct sel; reflexivity. Qed.
Lemma client_partitions_exact sel : sel <> [] -> (client_partitions sel = sel <-> sel = seq 0 (length sel)).
Proof.
  intro H. rewrite client_partitions_seq. replace (Nat.max 1 (length sel)) with (length sel); [split; congruence|].
  destruct sel; [congruence|cbn; lia].
Qed.
Lemma client_partitions_perm sel : sel <> [] -> (Permutation (client_partitions sel) sel <-> NoDup sel /\ Forall (fun p => p < length sel) sel).
Proof.
  intro H. rewrite client_partitions_seq. replace (Nat.max 1 (length sel)) with (length sel) by (destruct sel; [congruence|cbn; lia]).
  split.
  - intro P. split.
    + eapply Permutation_NoDup; [exact P|apply seq_NoDup].
    + rewrite Forall_forall. intros p Hp. eapply Permutation_in in Hp; [|symmetry; exact P]. apply in_seq in Hp. lia.
  - intros [HN HF]. symmetry. apply NoDup_Permutation_bis; [exact HN|rewrite seq_length; lia|].
    intros p Hp. rewrite Forall_forall in HF. apply in_seq. specialize (HF p Hp). lia.
Qed.
Lemma client_loads fadd wval wm all ps m sel :
  convert wval wm all = Ok (ps, m) -> Forall fits ps -> Forall rec_ok (concat (concat all)) ->
  sel <> [] -> sel = seq 0 (length sel) ->
  exists g, load_graph fadd m (map (fun f => [f]) (pick ps (client_partitions sel))) = Ok g /\
            converted fadd wval wm (pick all sel) g.
Proof.
  intros H F R Hn Hs. rewrite (proj2 (client_partitions_exact sel Hn) Hs).
  destruct (selection_loads fadd wval wm all ps m sel H F R) as (g & E). exists g. split; [exact E|].
  exists all, ps, m, sel. auto.
Qed.

(** Sampler dictionaries. *)
Lemma zs_eqb_eq a : forall b, (fix eqb (a b : list Z) := match a, b with
             | [], [] => true
             | x :: a', y :: b' => (x =? y)%Z && eqb a' b'
             | _, _ => false end) a b = true <-> a = b.
Proof.
  induction a as [|x a IH]; intros [|y b]; split; intro H; try discriminate; try reflexivity.
  - apply andb_true_iff in H. destruct H as [H1 H2]. apply Z.eqb_eq in H1. apply IH in H2. congruence.
  - injection H as -> ->. apply andb_true_iff. split; [apply Z.eqb_refl|now apply IH].
Qed.
Lemma shown_eqb_eq a b : shown_eqb a b = true <-> a = b.
Proof.
  destruct a, b; unfold shown_eqb; try (split; [discriminate|congruence]).
  - rewrite Z.eqb_eq. split; congruence.
  - rewrite zs_eqb_eq. split; congruence.
  - rewrite andb_true_iff, !zs_eqb_eq. split; [intros [-> ->]; reflexivity|intro H; injection H; auto].
Qed.
Lemma strategy_eqb_eq a b : strategy_eqb a b = true <-> a = b.
Proof. destruct a, b; cbn; split; congruence. Qed.
Lemma nkey_eqb_eq a b : nkey_eqb a b = true <-> a = b.
Proof.
  unfold nkey_eqb. rewrite andb_true_iff, strategy_eqb_eq, shown_eqb_eq. destruct a, b; cbn.
  split; [intros [-> ->]; reflexivity|intro H; injection H; auto].
Qed.
Lemma lookup_key_in {K V} (eqb : K -> K -> bool) (Heq : forall a b, eqb a b = true <-> a = b) d k (v : V) :
  lookup_key eqb d k = Some v -> In (k, v) d.
Proof.
  induction d as [|[k' v'] d IH]; cbn; [discriminate|]. destruct (eqb k k') eqn:E.
  - apply Heq in E. intro H. injection H as ->. subst. now left.
  - intro H. right. auto.
Qed.

(** Arrays numpy prints in full. *)
Definition short (t : types) : Prop := match t with TInt _ => True | TArray ts => length ts <= 1000 end.
Lemma str_types_inj a b : short a -> short b -> str_types a = str_types b -> a = b.
Proof.
  destruct a as [x|x], b as [y|y]; cbn; intros Ha Hb H.
  - congruence.
  - destruct (length y <=? 1000); discriminate.
  - destruct (length x <=? 1000); discriminate.
  - rewrite (proj2 (Nat.leb_le _ _) Ha), (proj2 (Nat.leb_le _ _) Hb) in H. congruence.
Qed.

(** The sampler made for this call alone. *)
Definition own_sampler (counts : list Z) (c : strategy * types) : res sampler :=
  create_sampler counts (fst c) (check_types (snd c)).

Lemma node_history counts calls : Forall (fun c => short (snd c)) calls ->
  history (node_sampler counts) [] calls = map (own_sampler counts) calls.
Proof.
  intro HS.
  assert (G : forall d, (forall s k v, In ((s, k), v) d -> exists t, short t /\ str_types t = k /\ create_sampler counts s (check_types t) = Ok v) ->
    history (node_sampler counts) d calls = map (own_sampler counts) calls).
  { induction HS as [|[s t] calls Ht HS IH]; intros d Hd; [reflexivity|]. cbn [history map snd] in *.
    pose proof (eq_refl (node_sampler counts d s t)) as N. unfold node_sampler at 2 in N. cbv zeta in N.
    unfold own_sampler at 1. cbn [fst snd].
    destruct (lookup_key nkey_eqb d (s, str_types t)) as [v|] eqn:E.
    - apply (lookup_key_in _ nkey_eqb_eq) in E. destruct (Hd _ _ _ E) as (t' & H1 & H2 & H3).
      apply str_types_inj in H2; [|assumption|assumption]. subst t'. rewrite N. cbn [fst snd]. rewrite H3. f_equal. apply IH. exact Hd.
    - destruct (create_sampler counts s (check_types t)) as [v|e] eqn:Ec; rewrite N; cbn [fst snd]; f_equal; apply IH; [|exact Hd].
      intros s' k v' [H|H]; [|eapply Hd; exact H]. injection H as <- <- <-. exists t. auto. }
  apply G. intros s k v [].
Qed.

(** Edges: some call up to this one with the same types made the sampler. *)
Lemma edge_history counts calls : Forall (fun c => short (snd c)) calls ->
  forall i s t, nth_error calls i = Some (s, t) ->
  exists j s', j <= i /\ nth_error calls j = Some (s', t) /\
    nth_error (history (edge_sampler counts) [] calls) i = Some (own_sampler counts (s', t)).
Proof.
  intro HS.
  assert (G : forall post pre d, Forall (fun c => short (snd c)) (pre ++ post) ->
    (forall k v, In (k, v) d -> exists s t, In (s, t) pre /\ str_types t = k /\ create_sampler counts s (check_types t) = Ok v) ->
    forall i s t, nth_error post i = Some (s, t) ->
    exists j s', j <= length pre + i /\ nth_error (pre ++ post) j = Some (s', t) /\
      nth_error (history (edge_sampler counts) d post) i = Some (own_sampler counts (s', t))).
  { clear. induction post as [|[s0 t0] post IH]; intros pre d HS Hd i s t Hi; [destruct i; discriminate|].
    assert (Hp : forall c, In c pre -> short (snd c)).
    { intros c Hc. rewrite Forall_forall in HS. apply HS. apply in_or_app. now left. }
    assert (H0 : short t0).
    { rewrite Forall_forall in HS. apply (HS (s0, t0)). apply in_or_app. right. now left. }
    cbn [history]. destruct i as [|i].
    - cbn in Hi. injection Hi as -> ->. cbn [nth_error]. unfold edge_sampler. cbv zeta.
      destruct (lookup_key shown_eqb d (str_types t)) as [v|] eqn:E; cbn [fst].
      + apply (lookup_key_in _ shown_eqb_eq) in E. destruct (Hd _ _ E) as (s' & t' & H1 & H2 & H3).
        apply str_types_inj in H2; [|apply (Hp _ H1)|assumption]. subst t'.
        destruct (In_nth_error _ _ H1) as (j & Hj). exists j, s'.
        assert (j < length pre) by (apply nth_error_Some; congruence).
        split; [lia|]. split; [rewrite nth_error_app1 by assumption; exact Hj|].
        unfold own_sampler. cbn [fst snd]. rewrite H3. reflexivity.
      + exists (length pre), s. split; [lia|]. split; [rewrite nth_error_app2, Nat.sub_diag by lia; reflexivity|].
        unfold own_sampler. cbn [fst snd]. destruct (create_sampler counts s (check_types t)); reflexivity.
    - cbn [nth_error] in Hi.
      destruct (IH (pre ++ [(s0, t0)]) (snd (edge_sampler counts d s0 t0))) with (i := i) (s := s) (t := t) as (j & s' & A1 & A2 & A3).
      + rewrite <- app_assoc. exact HS.
      + intros k v Hk. unfold edge_sampler in Hk. cbv zeta in Hk.
        assert (Hold : forall k v, In (k, v) d -> exists s1 t1, In (s1, t1) (pre ++ [(s0, t0)]) /\ str_types t1 = k /\ create_sampler counts s1 (check_types t1) = Ok v).
        { intros k' v' H'. destruct (Hd _ _ H') as (s1 & t1 & B1 & B2 & B3). exists s1, t1. split; [apply in_or_app; now left|auto]. }
        destruct (lookup_key shown_eqb d (str_types t0)) as [v0|] eqn:E; [now apply Hold|].
        destruct (create_sampler counts s0 (check_types t0)) as [v0|e] eqn:Ec; [|now apply Hold].
        destruct Hk as [Hk|Hk]; [|now apply Hold]. injection Hk as <- <-. exists s0, t0.
        split; [apply in_or_app; right; now left|auto].
      + exact Hi.
      + exists j, s'. rewrite app_length in A1. cbn in A1. rewrite <- app_assoc in A2. split; [lia|]. auto. }
  intros i s t Hi. destruct (G calls [] [] HS) with (i := i) (s := s) (t := t) as (j & s' & A); [intros k v []|exact Hi|].
  exists j, s'. exact A.
Qed.
Lemma history_length {D} (use : D -> strategy -> types -> res sampler * D) calls : forall d, length (history use d calls) = length calls.
Proof. induction calls as [|[s t] calls IH]; intro d; [reflexivity|]. cbn. now rewrite IH. Qed.
Lemma list_ext {A} (l : list A) : forall l', length l = length l' -> (forall i x, nth_error l' i = Some x -> nth_error l i = Some x) -> l = l'.
Proof.
  induction l as [|a l IH]; intros [|b l'] HL H; try discriminate; [reflexivity|].
  pose proof (H 0 b eq_refl) as H0. cbn in H0. injection H0 as ->. f_equal. apply IH; [cbn in HL; lia|].
  intros i x Hi. exact (H (S i) x Hi).
Qed.
Lemma edge_history_fixed counts calls : Forall (fun c => short (snd c)) calls ->
  (forall s s' t, In (s, t) calls -> In (s', t) calls -> s = s') ->
  history (edge_sampler counts) [] calls = map (own_sampler counts) calls.
Proof.
  intros HS HF. apply list_ext; [rewrite history_length, map_length; reflexivity|].
  intros i x Hx. rewrite nth_error_map in Hx. destruct (nth_error calls i) as [[s t]|] eqn:E; [|discriminate].
  cbn in Hx. injection Hx as <-. destruct (edge_history counts calls HS i s t E) as (j & s' & _ & H1 & H2).
  rewrite H2. rewrite (HF s s' t); [reflexivity|eapply nth_error_In; exact E|eapply nth_error_In; exact H1].
Qed.

(** The worker that starts a server has the smallest address on its host. *)
Inductive str_le : str -> str -> Prop :=
| le_nil b : str_le [] b
| le_less x y a b : (x < y)%N -> str_le (x :: a) (y :: b)
| le_same x a b : str_le a b -> str_le (x :: a) (x :: b).
Lemma str_leb_le a b : str_leb a b = true <-> str_le a b.
Proof.
  revert b. induction a as [|x a IH]; intros [|y b]; cbn [str_leb]; split; intro H; try discriminate; try apply le_nil; try reflexivity; try (now inversion H).
  - apply orb_true_iff in H. destruct H as [H|H]; [apply le_less; lia|].
    apply andb_true_iff in H. destruct H as [E H]. apply N.eqb_eq in E. subst. apply le_same. now apply IH.
  - inversion H; subst; apply orb_true_iff; [left; lia|right]. rewrite N.eqb_refl. cbn. now apply IH.
Qed.
Lemma str_le_refl a : str_le a a.
Proof. induction a; now constructor. Qed.
Lemma str_le_trans a b c : str_le a b -> str_le b c -> str_le a c.
Proof.
  intro H. revert c. induction H as [b|x y a b Hl|x a b _ IH]; intros c Hc; [constructor| |].
  - inversion Hc; subst; apply le_less; lia.
  - inversion Hc; subst; [now apply le_less|apply le_same; auto].
Qed.
Lemma str_le_total a b : str_le a b \/ str_le b a.
Proof.
  revert b. induction a as [|x a IH]; intros [|y b]; try (left; apply le_nil); try (right; apply le_nil).
  destruct (N.lt_trichotomy x y) as [H|[->|H]]; [left; now apply le_less| |right; now apply le_less].
  destruct (IH b); [left|right]; now apply le_same.
Qed.
Lemma sort_str_sorted l : StronglySorted str_le (sort_str l).
Proof.
  induction l as [|x l IH]; cbn; [constructor|]. fold (sort_str l). revert IH. generalize (sort_str l). clear l.
  induction 1 as [|y l HS IH HF]; cbn; [repeat constructor|]. destruct (str_leb x y) eqn:E.
  - apply str_leb_le in E. constructor; [now constructor|]. constructor; [exact E|]. eapply Forall_impl; [|exact HF]. intros z. now apply str_le_trans.
  - assert (Hyx : str_le y x) by (destruct (str_le_total x y) as [H|H]; [apply str_leb_le in H; congruence|exact H]).
    constructor; [exact IH|]. rewrite Forall_forall in *. intros z Hz. apply (Permutation_in z (insert_str_perm x l)) in Hz.
    destruct Hz as [<-|Hz]; auto.
Qed.
Lemma scan_split cur ws : forall seen z, scan_workers cur seen ws = Some z -> (0 <= z)%Z ->
  exists pre post, ws = pre ++ cur :: post /\ ~ In (host_of cur) (map host_of pre) /\ ~ In (host_of cur) seen.
Proof.
  induction ws as [|w ws IH]; intros seen z E Hz; cbn [scan_workers] in E; [discriminate|].
  destruct (str_eqb cur w) eqn:Ew; cbn [negb] in E.
  - apply str_eqb_eq in Ew. subst w. exists [], ws. split; [reflexivity|]. split; [intros []|].
    destruct (str_mem (host_of cur) seen) eqn:Em; [injection E as <-; lia|]. rewrite <- str_mem_in. congruence.
  - destruct (IH _ _ E Hz) as (pre & post & -> & H1 & H2). exists (w :: pre), post. split; [reflexivity|].
    assert (H3 : ~ In (host_of cur) seen /\ host_of w <> host_of cur).
    { destruct (str_mem (host_of w) seen) eqn:Em.
      - split; [exact H2|]. apply str_mem_in in Em. intro Eh. apply H2. now rewrite <- Eh.
      - split; [intro H; apply H2; now right|]. intro Eh. apply H2. now left. }
    split; [|tauto]. intros [H|H]; tauto.
Qed.
Lemma starter_smallest workers i w z : nth_error workers i = Some w -> index_of_worker workers i = Some z -> (0 <= z)%Z ->
  forall v, In v workers -> host_of v = host_of w -> str_le w v.
Proof.
  intros Hi Hx Hz v Hv Hh. unfold index_of_worker, extract_server_index in Hx. rewrite Hi in Hx.
  destruct (scan_split _ _ _ _ Hx Hz) as (pre & post & E & H1 & _).
  pose proof (sort_str_sorted workers) as HS. rewrite E in HS.
  assert (Hin : In v (pre ++ w :: post)) by (rewrite <- E; eapply Permutation_in; [symmetry; apply sort_str_perm|exact Hv]).
  apply in_app_or in Hin. destruct Hin as [Hin|[<-|Hin]].
  - exfalso. apply H1. rewrite <- Hh. now apply in_map.
  - apply str_le_refl.
  - clear -HS Hin. induction pre as [|p pre IH]; cbn in HS; apply StronglySorted_inv in HS; destruct HS as [HS HF]; [|now apply IH].
    rewrite Forall_forall in HF. auto.
Qed.

(** What a sampler samples from. *)
Lemma create_sampler_spec counts s ts s' l : create_sampler counts s ts = Ok (s', l) ->
  s' = s /\ (s = Weighted \/ s = Random \/ s = WithoutReplacement) /\ l <> [] /\ StronglySorted Z.lt l /\
  forall t, In t l <-> In t ts /\ (0 <= t)%Z /\ exists c, nth_error counts (Z.to_nat t) = Some c /\ (0 < c)%Z.
Proof.
  unfold create_sampler. set (f := fun t => _ && _). destruct (Nat.eqb_spec (length (filter f (make_sorted_list ts))) 0) as [|Hn]; [discriminate|].
  intro H. assert (G : s' = s /\ l = filter f (make_sorted_list ts) /\ (s = Weighted \/ s = Random \/ s = WithoutReplacement)).
  { destruct s; try discriminate; injection H as <- <-; auto. }
  destruct G as (-> & -> & Hs). split; [reflexivity|]. split; [exact Hs|]. split; [intro E; rewrite E in Hn; now apply Hn|]. split.
  - pose proof (make_sorted_sorted ts) as HS. clear -HS. induction HS as [|x l HS IH HF]; cbn; [constructor|].
    destruct (f x); [|exact IH]. constructor; [exact IH|]. rewrite Forall_forall in *. intros y Hy. apply filter_In in Hy. apply HF. tauto.
  - intro t. rewrite filter_In, make_sorted_in. unfold f. rewrite !andb_true_iff, Z.leb_le, !Z.ltb_lt. split.
    + intros (H1 & (H2 & H3) & H4). split; [exact H1|]. split; [exact H2|].
      destruct (nth_error counts (Z.to_nat t)) as [c|] eqn:E; [|apply nth_error_None in E; lia]. exists c. split; [reflexivity|].
      now rewrite (nth_error_nth _ _ 0%Z E) in H4.
    + intros (H1 & H2 & c & E & Hc). rewrite (nth_error_nth _ _ 0%Z E). split; [exact H1|]. split; [|exact Hc]. split; [exact H2|].
      assert (Z.to_nat t < length counts) by (apply nth_error_Some; congruence). lia.
Qed.
