(** Merging, range splitting and transfer of metadata. *)
From Verif Require Import Base WriterModel GraphSpec WriterProofs ConvertProofs MetaModel MetaSpec MetaProofs.
From Coq Require Import Permutation Sorting.Sorted ZifyBool ZifyNat ZifyN.
Local Open Scope nat_scope.

(** * The rows of the merger *)

Definition zsum (l : list Z) : Z := fold_right Z.add 0%Z l.

Lemma nth_error_map_seq {A} (f : nat -> A) n i : i < n -> nth_error (map f (seq 0 n)) i = Some (f i).
Proof.
  intro H. rewrite nth_error_map. rewrite (nth_error_nth' _ 0) by (now rewrite seq_length).
  now rewrite seq_nth.
Qed.

Lemma row_add_table n j i v (f : nat -> Z) T :
  j < n -> i < T ->
  row_add (repeat 0 n) [map f (seq 0 T)] j i v =
  Ok [map (fun t => if t =? i then (f t + v)%Z else f t) (seq 0 T)].
Proof.
  intros Hj Hi. unfold row_add.
  rewrite (nth_error_nth' _ 0) by (now rewrite repeat_length). rewrite nth_repeat. cbn [bind nth_error].
  rewrite nth_error_map_seq by assumption. cbn [bind].
  change (skipn 1 [map f (seq 0 T)]) with (@nil (list Z)). change (firstn 0 [map f (seq 0 T)]) with (@nil (list Z)).
  cbn [app]. f_equal. f_equal.
  rewrite (map_seq_split (fun t => if t =? i then (f t + v)%Z else f t) T i Hi).
  rewrite (map_seq_split f T i Hi).
  assert (Hl : length (map f (seq 0 i)) = i) by (now rewrite map_length, seq_length).
  rewrite firstn_app, Hl, Nat.sub_diag. rewrite firstn_all2 by lia. cbn [firstn]. rewrite app_nil_r.
  rewrite skipn_app, Hl. rewrite skipn_all2 by lia. replace (S i - i) with 1 by lia. cbn [skipn app].
  rewrite Nat.eqb_refl. f_equal; [|f_equal].
  - apply map_ext_seq. intros t Ht. replace (t =? i) with false by lia. reflexivity.
  - apply map_ext_seq. intros t Ht. replace (t =? i) with false by lia. reflexivity.
Qed.

Lemma row_add_all_table n j w T k : forall a f,
  j < n -> a + k = T -> T <= length w ->
  row_add_all (repeat 0 n) j w (seq a k) [map f (seq 0 T)] =
  Ok [map (fun t => if a <=? t then (f t + nth t w 0)%Z else f t) (seq 0 T)].
Proof.
  induction k as [|k IH]; intros a f Hj Hk Hw; cbn [seq row_add_all].
  - f_equal. f_equal. apply map_ext_seq. intros t Ht. replace (a <=? t) with false by lia. reflexivity.
  - rewrite (nth_error_nth' w 0%Z) by lia. cbn [bind]. rewrite row_add_table by lia. cbn [bind].
    rewrite IH by lia. f_equal. f_equal. apply map_ext_seq. intros t Ht.
    destruct (Nat.eqb_spec t a) as [->|Hne].
    + replace (S a <=? a) with false by lia. replace (a <=? a) with true by lia. reflexivity.
    + replace (S a <=? t) with (a <=? t) by lia. reflexivity.
Qed.

Lemma fill_rows_table n T ws : forall j f,
  j + length ws = n -> Forall (fun w => T <= length w) ws ->
  fill_rows T (repeat 0 n) j ws [map f (seq 0 T)] =
  Ok [map (fun t => (f t + zsum (map (fun w => nth t w 0%Z) ws))%Z) (seq 0 T)].
Proof.
  induction ws as [|w ws IH]; intros j f Hj Hw; cbn [fill_rows].
  - f_equal. f_equal. apply map_ext. intro t. cbn. lia.
  - apply Forall_cons_iff in Hw as [H1 Hw]. cbn [length] in Hj.
    rewrite (row_add_all_table n j w T T 0) by lia. cbn [bind].
    rewrite IH by (auto; lia). f_equal. f_equal. apply map_ext_seq. intros t Ht.
    cbn [Nat.leb map zsum fold_right]. unfold zsum. lia.
Qed.

(** The total of a worker, repeated for every partition of the worker. *)
Definition worker_total (T : nat) (ws : list (list Z)) : list Z :=
  map (fun t => zsum (map (fun w => nth t w 0%Z) ws)) (seq 0 T).

Lemma read_rows_repeat n r : read_rows (repeat 0 n) [r] = repeat r n.
Proof. unfold read_rows. induction n as [|n IH]; [reflexivity|]. cbn. f_equal. exact IH. Qed.

Lemma merger_meta_spec m :
  Forall (fun p => length (fst (snd p)) = j_ntypes m /\ length (snd (snd p)) = j_etypes m) (j_parts m) ->
  merger_meta m = Ok (MM m (length (j_parts m))
    (repeat (worker_total (j_ntypes m) (map (fun p => fst (snd p)) (j_parts m))) (length (j_parts m)))
    (repeat (worker_total (j_etypes m) (map (fun p => snd (snd p)) (j_parts m))) (length (j_parts m)))).
Proof.
  intro H. unfold merger_meta. rewrite !repeat_map_seq with (x := 0%Z).
  rewrite fill_rows_table.
  2: now rewrite map_length.
  2:{ apply Forall_map. eapply Forall_impl; [|exact H]. cbn. intros p [E _]. lia. }
  cbn [bind]. rewrite fill_rows_table.
  2: now rewrite map_length.
  2:{ apply Forall_map. eapply Forall_impl; [|exact H]. cbn. intros p [_ E]. lia. }
  cbn [bind]. rewrite !read_rows_repeat. reflexivity.
Qed.

(** Partition entries of the merged file: for every worker its total, once per partition. *)
Definition merged_weights (m : mjson) : list (list Z * list Z) :=
  repeat (worker_total (j_ntypes m) (map (fun p => fst (snd p)) (j_parts m)),
          worker_total (j_etypes m) (map (fun p => snd (snd p)) (j_parts m))) (length (j_parts m)).

Definition number {A} (a : nat) (l : list A) : list (nat * A) := combine (seq a (length l)) l.

Lemma number_app {A} a (l l' : list A) : number a (l ++ l') = number a l ++ number (a + length l) l'.
Proof. unfold number. rewrite app_length, seq_app. apply combine_app. now rewrite seq_length. Qed.

Lemma number_repeat {A} (x : A) n a : number a (repeat x n) = map (fun i => (a + i, x)) (seq 0 n).
Proof.
  unfold number. rewrite repeat_length.
  assert (G : forall k b, combine (seq (a + b) k) (repeat x k) = map (fun i => (a + i, x)) (seq b k)).
  { clear n. induction k as [|k IH]; intro b; [reflexivity|]. cbn [seq repeat combine map]. f_equal.
    rewrite <- IH. f_equal. f_equal. lia. }
  rewrite <- G. now rewrite Nat.add_0_r.
Qed.

Definition mm_of (m : mjson) : mmeta :=
  MM m (length (j_parts m))
    (repeat (worker_total (j_ntypes m) (map (fun p => fst (snd p)) (j_parts m))) (length (j_parts m)))
    (repeat (worker_total (j_etypes m) (map (fun p => snd (snd p)) (j_parts m))) (length (j_parts m))).

Lemma merge_parts_spec ms : forall a,
  merge_parts (map mm_of ms) a = number a (concat (map merged_weights ms)).
Proof.
  induction ms as [|m ms IH]; intro a; [reflexivity|].
  cbn [map merge_parts concat]. unfold get_partition. rewrite number_app.
  f_equal.
  - unfold merged_weights. rewrite number_repeat. unfold mm_of. cbn [mm_n mm_nw mm_ew].
    apply map_ext_seq. intros i Hi.
    rewrite (nth_indep (repeat _ _) [] (worker_total (j_ntypes m) (map (fun p => fst (snd p)) (j_parts m)))) by (rewrite repeat_length; lia).
    rewrite nth_repeat.
    rewrite (nth_indep (repeat _ _) [] (worker_total (j_etypes m) (map (fun p => snd (snd p)) (j_parts m)))) by (rewrite repeat_length; lia).
    rewrite nth_repeat. reflexivity.
  - rewrite IH. cbn [mm_of mm_n]. unfold merged_weights at 2. now rewrite repeat_length.
Qed.

Lemma idx_sum_spec (ls : list (list nat)) T i :
  Forall (fun l => length l = T) ls -> i < T -> idx_sum ls i = Ok (sum (map (fun l => nth i l 0) ls)).
Proof.
  intros H Hi. unfold idx_sum.
  rewrite (mapM_ok _ (fun l => nth i l 0)).
  - cbn [bind]. now rewrite fold_add_sum.
  - intros l Hl. rewrite Forall_forall in H. specialize (H l Hl).
    rewrite (nth_error_nth' l 0) by lia. reflexivity.
Qed.

Theorem merge_spec m0 ms :
  (forall m, In m (m0 :: ms) ->
     Forall (fun p => length (fst (snd p)) = j_ntypes m /\ length (snd (snd p)) = j_etypes m) (j_parts m) /\
     length (j_npt m) = j_ntypes m0 /\ length (j_ept m) = j_etypes m0 /\ j_version m = j_version m0) ->
  merge_files (m0 :: ms) =
  Ok (MJ (j_version m0) (sum (map j_nodes (m0 :: ms))) (sum (map j_edges (m0 :: ms)))
         (j_ntypes m0) (j_etypes m0) (j_nfeats m0) (j_efeats m0)
         (number 0 (concat (map merged_weights (m0 :: ms))))
         (map (fun t => sum (map (fun m => nth t (j_npt m) 0) (m0 :: ms))) (seq 0 (j_ntypes m0)))
         (map (fun t => sum (map (fun m => nth t (j_ept m) 0) (m0 :: ms))) (seq 0 (j_etypes m0)))
         (j_watermark m0)).
Proof.
  intro H. unfold merge_files.
  rewrite (mapM_ok _ mm_of) by (intros m Hm; apply merger_meta_spec; now apply H).
  cbn [bind]. cbn [map merge_metas]. change (mm_of m0 :: map mm_of ms) with (map mm_of (m0 :: ms)).
  cbn [mm_of mm_json].
  replace (forallb _ _) with true.
  2:{ symmetry. apply forallb_forall. intros x Hx. apply in_map_iff in Hx as (m & <- & Hm).
      cbn [mm_of mm_json]. apply Nat.eqb_eq. now apply H. }
  rewrite !map_map. cbn [mm_of mm_json].
  rewrite (mapM_ok _ (fun t => sum (map (fun m => nth t (j_npt m) 0) (m0 :: ms)))).
  2:{ intros t Ht. apply in_seq in Ht.
      change (j_npt m0 :: map (fun x => j_npt x) ms) with (map j_npt (m0 :: ms)).
      rewrite (idx_sum_spec _ (j_ntypes m0)).
      - now rewrite map_map.
      - apply Forall_map, Forall_forall. intros m Hm. now apply H.
      - lia. }
  cbn [bind]. rewrite (mapM_ok _ (fun t => sum (map (fun m => nth t (j_ept m) 0) (m0 :: ms)))).
  2:{ intros t Ht. apply in_seq in Ht.
      change (j_ept m0 :: map (fun x => j_ept x) ms) with (map j_ept (m0 :: ms)).
      rewrite (idx_sum_spec _ (j_etypes m0)).
      - now rewrite map_map.
      - apply Forall_map, Forall_forall. intros m Hm. now apply H.
      - lia. }
  cbn [bind]. rewrite !fold_add_sum. cbn [plus]. rewrite merge_parts_spec. reflexivity.
Qed.

(** * One partition per worker *)

Lemma glob_small K : K <= 10 -> glob_order K = seq 0 K.
Proof.
  intro H. do 11 (destruct K as [|K]; [vm_compute; reflexivity|]). lia.
Qed.

Lemma nth_count_table n rs t : t < n -> nth t (count_table n rs) 0 = length (of_type t rs).
Proof.
  intro H. unfold count_table.
  rewrite (nth_indep _ 0 (length (of_type 0 rs))) by (now rewrite map_length, seq_length).
  rewrite (map_nth (fun t => length (of_type t rs))). now rewrite seq_nth.
Qed.

Lemma worker_total_one T w : length w = T -> worker_total T [w] = w.
Proof.
  intro H. unfold worker_total. apply (list_nth_ext 0%Z); rewrite map_length, seq_length; [auto|].
  intros i Hi. rewrite (nth_indep _ 0%Z (zsum (map (fun w => nth 0 w 0%Z) [w]))) by (rewrite map_length, seq_length; lia).
  rewrite (map_nth (fun t => zsum (map (fun w => nth t w 0%Z) [w]))). rewrite seq_nth by lia.
  cbn. lia.
Qed.

Lemma weight_table_length w n rs : length (weight_table w n rs) = n.
Proof. unfold weight_table. now rewrite map_length, seq_length. Qed.

Lemma share_one {L} (l : list L) : share 1 0 l = l.
Proof.
  unfold share.
  assert (G : forall a, map snd (filter (fun p : nat * L => fst p mod 1 =? 0) (combine (seq a (length l)) l)) = l).
  { induction l as [|x l IH]; intro a; [reflexivity|].
    cbn [length seq combine filter]. cbn [fst].
    replace (a mod 1 =? 0) with true by (rewrite Nat.mod_1_r; reflexivity).
    cbn [map snd]. f_equal. apply IH. }
  apply G.
Qed.

Lemma max_same {A} (f : A -> nat) l v : l <> [] -> (forall x, In x l -> f x = v) -> max_of (map f l) = v.
Proof.
  intros Hl H. induction l as [|x l IH]; [congruence|]. cbn. fold (max_of (map f l)).
  rewrite (H x) by now left. destruct l as [|y l]; [cbn; lia|].
  rewrite IH; [lia|discriminate|]. intros; apply H; now right.
Qed.

Theorem merge_one_each {L} (decode : L -> res (list record)) wval wm K
    (lines : nat -> list L) (batches : nat -> list (list record)) (metas : nat -> mjson) :
  0 < K <= 10 ->
  (forall k, k < K -> mapM decode (lines k) = Ok (batches k)) ->
  (forall k, k < K -> Forall (fun r => (0 <= rtyp r)%Z) (concat (batches k))) ->
  (forall k, k < K -> pipe_meta wval decode wm k 1 (lines k) (metas k)) ->
  (forall k, k < K -> j_ntypes (metas k) = j_ntypes (metas 0) /\ j_etypes (metas k) = j_etypes (metas 0) /\
                      j_nfeats (metas k) = j_nfeats (metas 0) /\ j_efeats (metas k) = j_efeats (metas 0)) ->
  exists m, merge_files (map metas (glob_order K)) = Ok m /\
    totals wval wm (concat (concat (map batches (seq 0 K)))) m /\
    j_parts m = map (fun k => (k, (weight_table wval (j_ntypes m) (nodes_in (concat (batches k))),
                                   weight_table wval (j_etypes m) (edges_in (concat (batches k)))))) (seq 0 K).
Proof.
  intros HK Hd Hok Hp Ht.
  set (W := map (fun k => (k, concat (batches k))) (seq 0 K)).
  assert (Em : forall k, k < K -> metas k = spec_json wval wm [(k, concat (batches k))]).
  { intros k Hk. pose proof (pipe_meta_spec decode wval wm k 1 (lines k) (batches k) (metas k)
      (Hd k Hk) (Hok k Hk) (Hp k Hk)) as E. cbn [seq map] in E. rewrite share_one, Nat.add_0_r in E. exact E. }
  assert (Hall : concat (map snd W) = concat (concat (map batches (seq 0 K)))).
  { unfold W. rewrite map_map. cbn [snd]. rewrite concat_concat, map_map. reflexivity. }
  assert (Goal1 : merge_files (map metas (glob_order K)) = Ok (spec_json wval wm W)).
  { rewrite glob_small by lia.
    destruct K as [|K]; [lia|]. cbn [seq map].
    rewrite merge_spec.
    2:{ intros m Hm.
        assert (Hin : exists k, k < S K /\ m = metas k).
        { destruct Hm as [<-|Hm]; [exists 0; split; [lia|reflexivity]|].
          apply in_map_iff in Hm as (k & <- & Hk). apply in_seq in Hk. exists k; split; [lia|reflexivity]. }
        destruct Hin as (k & Hk & ->). destruct (Ht k Hk) as (A & B & _). rewrite <- A, <- B.
        rewrite !(Em k Hk). rewrite (Em 0) by lia. unfold spec_json.
        cbn [j_parts j_ntypes j_etypes j_npt j_ept j_version map fst snd].
        rewrite !count_table_ext_len. repeat split. constructor; [|constructor]. cbn [fst snd].
        now rewrite !weight_table_length. }
    change (metas 0 :: map metas (seq 1 K)) with (map metas (seq 0 (S K))).
    f_equal. remember (S K) as n.
    assert (Hsame : forall k, In k (seq 0 n) -> k < n) by (intros k Hk; apply in_seq in Hk; lia).
    assert (Hex : forall (f : mjson -> nat), map f (map metas (seq 0 n)) =
       map (fun k => f (spec_json wval wm [(k, concat (batches k))])) (seq 0 n)).
    { intro f. rewrite map_map. apply map_ext_in. intros k Hk. now rewrite Em by auto. }
    set (nt := j_ntypes (metas 0)). set (et := j_etypes (metas 0)).
    assert (Ent : types_in (nodes_in (concat (map snd W))) = nt).
    { rewrite types_concat by auto using nodes_in_app. unfold W. rewrite !map_map. cbn [snd].
      apply max_same; [subst n; discriminate|]. intros k Hk.
      destruct (Ht k (Hsame k Hk)) as (A & _). fold nt in A. rewrite <- A, (Em k (Hsame k Hk)).
      cbn [spec_json j_ntypes map snd concat]. now rewrite app_nil_r. }
    assert (Eet : types_in (edges_in (concat (map snd W))) = et).
    { rewrite types_concat by auto using edges_in_app. unfold W. rewrite !map_map. cbn [snd].
      apply max_same; [subst n; discriminate|]. intros k Hk.
      destruct (Ht k (Hsame k Hk)) as (_ & A & _). fold et in A. rewrite <- A, (Em k (Hsame k Hk)).
      cbn [spec_json j_etypes map snd concat]. now rewrite app_nil_r. }
    assert (Ek : forall k, k < n -> j_ntypes (metas k) = nt /\ types_in (nodes_in (concat (batches k))) = nt).
    { intros k Hk. destruct (Ht k Hk) as (A & _). split; [exact A|]. unfold nt. rewrite <- A, (Em k Hk).
      cbn [spec_json j_ntypes map snd concat]. now rewrite app_nil_r. }
    assert (Eke : forall k, k < n -> j_etypes (metas k) = et /\ types_in (edges_in (concat (batches k))) = et).
    { intros k Hk. destruct (Ht k Hk) as (_ & A & _). split; [exact A|]. unfold et. rewrite <- A, (Em k Hk).
      cbn [spec_json j_etypes map snd concat]. now rewrite app_nil_r. }
    unfold spec_json. rewrite Ent, Eet. f_equal.
    - rewrite (Em 0) by lia. reflexivity.
    - rewrite Hex. rewrite length_concat' by auto using nodes_in_app. unfold W. rewrite !map_map.
      f_equal. apply map_ext. intro k. cbn [spec_json j_nodes map snd concat]. now rewrite app_nil_r.
    - rewrite Hex. rewrite length_concat' by auto using edges_in_app. unfold W. rewrite !map_map.
      f_equal. apply map_ext. intro k. cbn [spec_json j_edges map snd concat]. now rewrite app_nil_r.
    - rewrite feats_concat by auto using nodes_in_app. unfold W. rewrite !map_map. cbn [snd]. symmetry.
      apply max_same; [subst n; discriminate|]. intros k Hk.
      destruct (Ht k (Hsame k Hk)) as (_ & _ & A & _). rewrite <- A, (Em k (Hsame k Hk)).
      cbn [spec_json j_nfeats map snd concat]. now rewrite app_nil_r.
    - rewrite feats_concat by auto using edges_in_app. unfold W. rewrite !map_map. cbn [snd]. symmetry.
      apply max_same; [subst n; discriminate|]. intros k Hk.
      destruct (Ht k (Hsame k Hk)) as (_ & _ & _ & A). rewrite <- A, (Em k (Hsame k Hk)).
      cbn [spec_json j_efeats map snd concat]. now rewrite app_nil_r.
    - unfold W. rewrite !map_map. cbn [fst snd].
      replace (concat (map (fun x => merged_weights (metas x)) (seq 0 n))) with
        (map (fun k => (weight_table wval nt (nodes_in (concat (batches k))), weight_table wval et (edges_in (concat (batches k))))) (seq 0 n)).
      + unfold number. rewrite map_length, seq_length.
        assert (G : forall n b, combine (seq b n) (map (fun k => (weight_table wval nt (nodes_in (concat (batches k))),
            weight_table wval et (edges_in (concat (batches k))))) (seq b n)) =
            map (fun k => (k, (weight_table wval nt (nodes_in (concat (batches k))), weight_table wval et (edges_in (concat (batches k)))))) (seq b n)).
        { clear. induction n as [|n IH]; intro b; [reflexivity|]. cbn [seq map combine]. now rewrite IH. }
        apply G.
      + assert (G : forall is, (forall k, In k is -> k < n) ->
          map (fun k => (weight_table wval nt (nodes_in (concat (batches k))), weight_table wval et (edges_in (concat (batches k))))) is
          = concat (map (fun x => merged_weights (metas x)) is)).
        { induction is as [|k is IH]; intro Hi; [reflexivity|]. cbn [map concat].
          rewrite <- IH by (intros; apply Hi; now right).
          assert (Hk : k < n) by (apply Hi; now left). unfold merged_weights.
          destruct (Ek k Hk) as [A A']. destruct (Eke k Hk) as [B B']. rewrite A, B, (Em k Hk).
          cbn [spec_json j_parts map fst snd concat length repeat app]. rewrite !app_nil_r, A', B'.
          rewrite !worker_total_one by apply weight_table_length. reflexivity. }
        apply G. exact Hsame.
    - unfold count_table. apply map_ext_seq. intros t Htt. rewrite map_map.
      rewrite (length_concat' (fun rs => of_type t (nodes_in rs))).
      + unfold W. rewrite !map_map. cbn [snd]. f_equal. apply map_ext_in. intros k Hk. apply Hsame in Hk.
        rewrite (Em k Hk). cbn [spec_json j_npt map snd concat]. rewrite app_nil_r.
        destruct (Ek k Hk) as [_ ->]. rewrite nth_count_table by lia. reflexivity.
      + intros a b. now rewrite nodes_in_app, of_type_app.
      + reflexivity.
    - unfold count_table. apply map_ext_seq. intros t Htt. rewrite map_map.
      rewrite (length_concat' (fun rs => of_type t (edges_in rs))).
      + unfold W. rewrite !map_map. cbn [snd]. f_equal. apply map_ext_in. intros k Hk. apply Hsame in Hk.
        rewrite (Em k Hk). cbn [spec_json j_ept map snd concat]. rewrite app_nil_r.
        destruct (Eke k Hk) as [_ ->]. rewrite nth_count_table by lia. reflexivity.
      + intros a b. now rewrite edges_in_app, of_type_app.
      + reflexivity.
    - rewrite (Em 0) by lia. reflexivity. }
  eexists. split; [exact Goal1|]. split.
  - apply spec_json_totals. now rewrite Hall.
  - unfold spec_json. cbn [j_parts j_ntypes j_etypes]. unfold W at 3. rewrite map_map. reflexivity.
Qed.

(** * C39: partition ranges *)

Lemma ceil_bounds P W : (0 < W)%Z -> let c := (- ((- P) / W))%Z in (P <= W * c < P + W)%Z.
Proof.
  intros HW c. unfold c. pose proof (Z.div_mod (- P) W ltac:(lia)). pose proof (Z.mod_pos_bound (- P) W HW). nia.
Qed.

Theorem ranges_cover P W p : (0 < W)%Z -> (0 <= p < P)%Z ->
  exists i, (0 <= i < W)%Z /\
    let '(o, c) := partition_range P i W in (o <= p < o + c)%Z.
Proof.
  intros HW Hp. pose proof (ceil_bounds P W HW) as B. cbv zeta in B. unfold partition_range.
  set (c := (- ((- P) / W))%Z) in *.
  assert (Hc : (0 < c)%Z) by nia.
  exists (p / c)%Z. pose proof (Z.div_mod p c ltac:(lia)). pose proof (Z.mod_pos_bound p c Hc).
  split.
  - split; [apply Z.div_pos; lia|]. apply Z.div_lt_upper_bound; nia.
  - destruct (P <? c * (p / c) + c)%Z eqn:E; lia.
Qed.

Theorem ranges_disjoint P W i j p : (0 < W)%Z -> (0 <= P)%Z ->
  (let '(o, c) := partition_range P i W in (o <= p < o + c)%Z) ->
  (let '(o, c) := partition_range P j W in (o <= p < o + c)%Z) -> i = j.
Proof.
  intros HW HP. pose proof (ceil_bounds P W HW) as B. cbv zeta in B. unfold partition_range.
  set (c := (- ((- P) / W))%Z) in *.
  intros Hi Hj.
  assert (c * i <= p < c * i + c)%Z by (destruct (P <? c * i + c)%Z eqn:E; lia).
  assert (c * j <= p < c * j + c)%Z by (destruct (P <? c * j + c)%Z eqn:E; lia).
  nia.
Qed.

Theorem ranges_inside P W i p : (0 < W)%Z -> (0 <= P)%Z -> (0 <= i)%Z ->
  (let '(o, c) := partition_range P i W in (o <= p < o + c)%Z) -> (0 <= p < P)%Z.
Proof.
  intros HW HP Hi0. pose proof (ceil_bounds P W HW) as B. cbv zeta in B. unfold partition_range.
  set (c := (- ((- P) / W))%Z) in *.
  intros Hi. destruct (P <? c * i + c)%Z eqn:E; nia.
Qed.

(** Files of the workers: residue classes of the positions. *)
Lemma files_share {F} (files : list F) i W : 0 < W -> i < W -> W <= length files ->
  worker_files files i W = Ok (share W i files).
Proof.
  intros HW Hi Hl. unfold worker_files, share. replace (length files <? W) with false by lia. f_equal.
  f_equal. apply filter_ext. intros [k x]. cbn [fst].
  destruct (Nat.leb_spec i k) as [H|H]; cbn [andb].
  - replace k with ((k - i) + i) at 2 by lia.
    rewrite <- Nat.add_mod_idemp_l by lia.
    pose proof (Nat.mod_upper_bound (k - i) W ltac:(lia)) as Hb.
    destruct (Nat.eqb_spec ((k - i) mod W) 0) as [E|E].
    + rewrite E. cbn [plus]. rewrite Nat.mod_small by lia. symmetry. apply Nat.eqb_refl.
    + symmetry. apply Nat.eqb_neq. set (r := (k - i) mod W) in *.
      destruct (Nat.lt_ge_cases (r + i) W).
      * rewrite Nat.mod_small by lia. lia.
      * replace (r + i) with ((r + i - W) + 1 * W) by lia. rewrite Nat.mod_add by lia.
        rewrite Nat.mod_small by lia. lia.
  - symmetry. rewrite Nat.mod_small by lia. lia.
Qed.

Theorem all_files_read {F} (files : list F) (P W : nat) :
  0 < W -> W <= length files -> (W - 1) * ((P + W - 1) / W) < P ->
  exists fs, mapM (fun i => converter_files files P i W) (seq 0 W) = Ok fs /\
    Permutation (concat fs) files.
Proof.
  intros HW Hl HP.
  exists (map (fun i => share W i files) (seq 0 W)). split; [|now apply shares_perm].
  apply mapM_ok. intros i Hi. apply in_seq in Hi. unfold converter_files.
  replace (snd _ <=? 0)%Z with false; [apply files_share; lia|].
  symmetry. unfold partition_range. pose proof (ceil_bounds (Z.of_nat P) (Z.of_nat W) ltac:(lia)) as B.
  cbv zeta in B. set (c := (- ((- Z.of_nat P) / Z.of_nat W))%Z) in *.
  assert (Hc : Z.of_nat ((P + W - 1) / W) = c).
  { pose proof (Nat.div_mod (P + W - 1) W ltac:(lia)). pose proof (Nat.mod_upper_bound (P + W - 1) W ltac:(lia)).
    set (q := (P + W - 1) / W) in *. set (r := (P + W - 1) mod W) in *.
    assert (Z.of_nat W * Z.of_nat q + Z.of_nat r = Z.of_nat P + Z.of_nat W - 1)%Z by nia. nia. }
  assert (Hq : (Z.of_nat (W - 1) * c < Z.of_nat P)%Z) by (rewrite <- Hc; nia).
  cbn [snd]. destruct (Z.of_nat P <? c * Z.of_nat i + c)%Z eqn:E; apply Z.leb_gt; nia.
Qed.

(** * C53: metadata through server and client *)

Lemma split_rows_concat n k : forall ls, length ls = n -> Forall (fun l => length l = k) ls ->
  split_rows n k (concat ls) = Ok ls.
Proof.
  induction n as [|n IH]; intros [|l ls] Hl Hk; try discriminate; [reflexivity|].
  apply Forall_cons_iff in Hk as [H1 Hk]. cbn [split_rows concat]. rewrite app_length.
  replace (_ <? k) with false by lia.
  rewrite skipn_app, firstn_app, H1, Nat.sub_diag. rewrite skipn_all2 by lia. rewrite firstn_all2 by lia.
  cbn [skipn firstn app]. rewrite IH by (cbn in Hl; auto; lia). cbn [bind]. now rewrite app_nil_r.
Qed.

Lemma json_floats_spec narrow l n : length l = n -> json_floats narrow l n = Ok (map narrow l).
Proof.
  intro H. unfold json_floats. rewrite (mapM_ok _ (fun i => narrow (nth i l 0%Z))).
  - f_equal. apply (list_nth_ext (narrow 0%Z)); rewrite !map_length, seq_length; [auto|].
    intros i Hi. rewrite (map_nth narrow).
    rewrite (nth_indep _ _ (narrow (nth 0 l 0%Z))) by (rewrite map_length, seq_length; lia).
    rewrite (map_nth (fun i => narrow (nth i l 0%Z))). now rewrite seq_nth by lia.
  - intros i Hi. apply in_seq in Hi. rewrite (nth_error_nth' l 0%Z) by lia. reflexivity.
Qed.

Lemma json_counts_spec l n : length l = n -> json_counts l n = Ok l.
Proof.
  intro H. unfold json_counts. rewrite (mapM_ok _ (fun i => nth i l 0)).
  - f_equal. apply (list_nth_ext 0); rewrite !map_length, seq_length; [auto|].
    intros i Hi. rewrite (nth_indep _ 0 (nth 0 l 0)) by (rewrite map_length, seq_length; lia).
    rewrite (map_nth (fun i => nth i l 0)). now rewrite seq_nth by lia.
  - intros i Hi. apply in_seq in Hi. rewrite (nth_error_nth' l 0) by lia. reflexivity.
Qed.

Lemma dict_get_number {V} (l : list (nat * V)) : forall a p v,
  map fst l = seq a (length l) -> nth_error l p = Some v -> dict_get l (a + p) = Some (snd v) /\ fst v = a + p.
Proof.
  induction l as [|[k w] l IH]; intros a p v H Hp; [destruct p; discriminate|].
  cbn [map length seq fst] in H. assert (k = a) by congruence. subst k.
  assert (H' : map fst l = seq (S a) (length l)) by congruence.
  destruct p as [|p]; cbn [dict_get].
  - injection Hp as <-. rewrite Nat.add_0_r, Nat.eqb_refl. split; reflexivity.
  - replace (a + S p =? a) with false by lia. replace (a + S p) with (S a + p) by lia.
    apply IH; assumption.
Qed.

Lemma mapM_parts narrow sel m T :
  map fst (j_parts m) = seq 0 (length (j_parts m)) ->
  Forall (fun p => length (sel (snd p)) = T) (j_parts m) ->
  mapM (part_weights narrow sel m T) (seq 0 (length (j_parts m))) =
  Ok (map (fun p => map narrow (sel (snd p))) (j_parts m)).
Proof.
  intros Hf Hs.
  destruct (j_parts m) as [|p0 ps] eqn:E; [reflexivity|]. rewrite <- E in *.
  rewrite (mapM_ok _ (fun i => map narrow (sel (snd (nth i (j_parts m) p0))))).
  - f_equal. set (g := fun p => map narrow (sel (snd p))).
    transitivity (map g (map (fun i => nth i (j_parts m) p0) (seq 0 (length (j_parts m))))).
    + now rewrite map_map.
    + f_equal. apply (list_nth_ext p0); rewrite map_length, seq_length; [reflexivity|].
      intros i Hi. rewrite (nth_indep _ p0 (nth 0 (j_parts m) p0)) by (rewrite map_length, seq_length; lia).
      rewrite (map_nth (fun i => nth i (j_parts m) p0)). now rewrite seq_nth by lia.
  - intros i Hi. apply in_seq in Hi. unfold part_weights.
    assert (Hn : nth_error (j_parts m) i = Some (nth i (j_parts m) p0)) by (apply nth_error_nth'; lia).
    pose proof (dict_get_number _ 0 i _ Hf Hn) as [Hg _]. cbn [plus] in Hg.
    assert (Hl : length (sel (snd (nth i (j_parts m) p0))) = T).
    { rewrite Forall_forall in Hs. apply Hs. apply nth_In. lia. }
    destruct T as [|T].
    + destruct (sel (snd (nth i (j_parts m) p0))); [reflexivity|discriminate].
    + rewrite Hg. now apply json_floats_spec.
Qed.

Definition narrowed (narrow : Z -> Z) (m : mjson) : mjson :=
  MJ (j_version m) (j_nodes m) (j_edges m) (j_ntypes m) (j_etypes m) (j_nfeats m) (j_efeats m)
     (map (fun p => (fst p, (map narrow (fst (snd p)), map narrow (snd (snd p))))) (j_parts m))
     (j_npt m) (j_ept m) (j_watermark m).

Lemma forall2_split (m : mjson) :
  Forall (fun p => length (fst (snd p)) = j_ntypes m /\ length (snd (snd p)) = j_etypes m) (j_parts m) ->
  Forall (fun p => length (fst (snd p)) = j_ntypes m) (j_parts m) /\
  Forall (fun p => length (snd (snd p)) = j_etypes m) (j_parts m).
Proof. intro H. split; (eapply Forall_impl; [|exact H]); cbn; tauto. Qed.

Lemma read_meta_spec narrow mv sf st m :
  mv <= j_version m -> well_formed m ->
  read_meta narrow mv sf st m =
  Ok (EM (j_version m) (j_nodes m) (j_edges m) (j_ntypes m) (j_etypes m)
         (if sf then 0 else j_nfeats m) (if sf then 0 else j_efeats m) (length (j_parts m))
         (map (fun p => map narrow (fst (snd p))) (j_parts m))
         (map (fun p => map narrow (snd (snd p))) (j_parts m)) (j_npt m) (j_ept m)
         (if st then (-1)%Z else j_watermark m)).
Proof.
  intros Hv (Hf & _ & Hs & Hn & He). apply forall2_split in Hs as [Hs1 Hs2].
  unfold read_meta. replace (j_version m <? mv) with false by lia.
  rewrite (mapM_parts narrow fst m) by assumption. cbn [bind].
  rewrite (mapM_parts narrow snd m) by assumption. cbn [bind].
  rewrite !json_counts_spec by assumption. reflexivity.
Qed.

Theorem distributed_meta narrow mv m e :
  mv <= j_version m -> well_formed m ->
  read_meta narrow mv false false m = Ok e ->
  client_meta (get_metadata e) = Ok (narrowed narrow m).
Proof.
  intros Hv Hwf He. rewrite (read_meta_spec narrow mv false false m Hv Hwf) in He. injection He as <-.
  destruct Hwf as (Hf & Hne & Hs & Hn & He'). apply forall2_split in Hs as [Hs1 Hs2].
  unfold client_meta, get_metadata.
  cbn [c_version c_nodes c_edges c_ntypes c_etypes c_nfeats c_efeats c_parts c_nw c_ew c_npt c_ept c_watermark
       r_version r_nodes r_edges r_ntypes r_etypes r_nfeats r_efeats r_parts r_nw r_ew r_npt r_ept r_watermark].
  rewrite split_rows_concat.
  2: now rewrite map_length.
  2:{ apply Forall_map. eapply Forall_impl; [|exact Hs1]. cbn. intros p E. now rewrite map_length. }
  cbn [bind]. rewrite split_rows_concat.
  2: now rewrite map_length.
  2:{ apply Forall_map. eapply Forall_impl; [|exact Hs2]. cbn. intros p E. now rewrite map_length. }
  cbn [bind]. unfold write_meta.
  cbn [c_version c_nodes c_edges c_ntypes c_etypes c_nfeats c_efeats c_parts c_nw c_ew c_npt c_ept c_watermark].
  destruct (j_parts m) as [|p0 ps] eqn:E; [congruence|]. rewrite <- E in *.
  set (g := fun p : nat * (list Z * list Z) => (fst p, (map narrow (fst (snd p)), map narrow (snd (snd p))))).
  rewrite (mapM_ok _ (fun i => g (nth i (j_parts m) p0))).
  2:{ intros i Hi. apply in_seq in Hi.
      assert (Hi' : nth_error (j_parts m) i = Some (nth i (j_parts m) p0)) by (apply nth_error_nth'; lia).
      unfold get. rewrite !nth_error_map, Hi'. cbn [option_map bind].
      destruct (dict_get_number _ 0 i _ Hf Hi') as [_ K]. unfold g. rewrite K. reflexivity. }
  cbn [bind]. unfold narrowed. f_equal. f_equal.
  assert (Em : map (fun i => g (nth i (j_parts m) p0)) (seq 0 (length (j_parts m))) = map g (j_parts m)).
  { rewrite <- (map_map (fun i => nth i (j_parts m) p0) g). f_equal.
    apply (list_nth_ext p0); rewrite map_length, seq_length; [reflexivity|].
    intros i Hi. rewrite (nth_indep _ p0 (nth 0 (j_parts m) p0)) by (rewrite map_length, seq_length; lia).
    rewrite (map_nth (fun i => nth i (j_parts m) p0)). now rewrite seq_nth by lia. }
  rewrite Em. fold g.
  assert (Ef : map fst (map g (j_parts m)) = seq 0 (length (j_parts m))) by (rewrite map_map; exact Hf).
  rewrite E in Ef |- *. cbn [map length seq] in Ef |- *. cbn [fold_left].
  assert (E0 : fst (g p0) = 0) by congruence.
  assert (E1 : map fst (map g ps) = seq 1 (length ps)) by congruence.
  rewrite E0. cbn [dict_set Nat.eqb].
  rewrite (dict_build fst snd).
  - cbn [app]. f_equal.
    + destruct (g p0) as [k v]. cbn in *. now subst.
    + transitivity (map (fun p => p) (map g ps)); [|apply map_id]. apply map_ext. now intros [? ?].
  - cbn [map fst app]. rewrite E1. change (0 :: seq 1 (length ps)) with (seq 0 (S (length ps))). apply seq_NoDup.
Qed.

Lemma narrowed_id narrow m :
  (forall p w, In p (j_parts m) -> In w (fst (snd p)) \/ In w (snd (snd p)) -> narrow w = w) ->
  narrowed narrow m = m.
Proof.
  intro H. unfold narrowed. destruct m as [v n1 n2 n3 n4 n5 n6 ps a b c]. cbn [j_parts j_version j_nodes j_edges j_ntypes j_etypes j_nfeats j_efeats j_npt j_ept j_watermark] in *.
  f_equal. transitivity (map (fun p => p) ps); [|apply map_id]. apply map_ext_in.
  intros [k [x y]] Hp. cbn [fst snd]. f_equal. f_equal.
  - transitivity (map (fun z => z) x); [|apply map_id]. apply map_ext_in. intros w Hw. apply (H _ w Hp). now left.
  - transitivity (map (fun z => z) y); [|apply map_id]. apply map_ext_in. intros w Hw. apply (H _ w Hp). now right.
Qed.

Lemma spec_json_well_formed wval wm (rss : list (list record)) :
  rss <> [] -> well_formed (spec_json wval wm (number 0 rss)).
Proof.
  intro H. unfold well_formed, spec_json. cbn [j_parts j_ntypes j_etypes j_npt j_ept].
  rewrite map_map, map_length. cbn [fst]. repeat split.
  - unfold number. rewrite combine_length, seq_length, Nat.min_id.
    generalize 0. clear. induction rss as [|r rss IH]; intro a; [reflexivity|]. cbn. f_equal. apply IH.
  - destruct rss; [congruence|]. discriminate.
  - apply Forall_map, Forall_forall. intros p _. cbn [fst snd]. now rewrite !weight_table_length.
  - apply count_table_ext_len.
  - apply count_table_ext_len.
Qed.

Theorem converted_well_formed {L} (decode : L -> res (list record)) wval wm n lines batches m :
  0 < n -> mapM decode lines = Ok batches -> Forall (fun r => (0 <= rtyp r)%Z) (concat batches) ->
  pipe_meta wval decode wm 0 n lines m -> well_formed m /\ j_version m = 2.
Proof.
  intros Hn Hd Hok H. apply (pipe_meta_spec decode wval wm 0 n lines batches) in H; auto. subst m.
  split; [|reflexivity].
  replace (map (fun i => (0 + i, concat (share n i batches))) (seq 0 n))
    with (number 0 (map (fun i => concat (share n i batches)) (seq 0 n))).
  - apply spec_json_well_formed. destruct n; [lia|discriminate].
  - unfold number. rewrite map_length, seq_length. cbn [plus].
    assert (G : forall k a, combine (seq a k) (map (fun i => concat (share n i batches)) (seq a k)) =
                map (fun i => (i, concat (share n i batches))) (seq a k)).
    { induction k as [|k IH]; intro a; [reflexivity|]. cbn [seq map combine]. now rewrite IH. }
    apply G.
Qed.
