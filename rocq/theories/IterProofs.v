(** Proofs about IterModel.v. *)
From Coq Require Import Permutation ZifyBool ZifyNat.
From Verif Require Import Base IterModel.

Lemma cdiv_le a b c : 0 < b -> (cdiv a b <= c <-> a <= c * b).
Proof. intros H. unfold cdiv. split; intros; nia. Qed.
Lemma cdiv_lt a b c : 0 < b -> (c < cdiv a b <-> c * b < a).
Proof. intros H. pose proof (cdiv_le a b c H). lia. Qed.
Lemma cdiv_0 b : 0 < b -> cdiv 0 b = 0.
Proof. intros H. assert (cdiv 0 b <= 0) by (apply cdiv_le; lia). lia. Qed.
Lemma cdiv_add a b : 0 < b -> 0 < a -> cdiv a b = S (cdiv (a - b) b).
Proof.
  intros H Ha. unfold cdiv. destruct (Nat.le_gt_cases b a).
  - replace (a + b - 1) with ((a - b + b - 1) + 1 * b) by lia. rewrite Nat.div_add by lia. lia.
  - replace (a - b) with 0 by lia. rewrite (Nat.div_small (0 + b - 1)) by lia.
    symmetry. apply Nat.div_unique with (r := a - 1); lia.
Qed.
Lemma cdiv_exact a b : 0 < b -> cdiv (a * b) b = a.
Proof. intros H. unfold cdiv. symmetry. apply Nat.div_unique with (r := b - 1); lia. Qed.

(** ** Ranges with a step *)

Lemma arange_length a b s : length (arange a b s) = cdiv (b - a) s.
Proof. unfold arange. now rewrite map_length, seq_length. Qed.
Lemma arange_nil a b s : 0 < s -> b <= a -> arange a b s = [].
Proof. intros Hs H. unfold arange. replace (b - a) with 0 by lia. now rewrite cdiv_0. Qed.
Lemma arange_cons a b s : 0 < s -> a < b -> arange a b s = a :: arange (a + s) b s.
Proof.
  intros Hs H. unfold arange. rewrite cdiv_add by lia. cbn [seq map]. f_equal; [lia|].
  rewrite <- seq_shift, map_map. replace (b - a - s) with (b - (a + s)) by lia.
  apply map_ext. intros k. lia.
Qed.
Lemma arange_in a b s x : 0 < s -> (In x (arange a b s) <-> a <= x < b /\ (x - a) mod s = 0).
Proof.
  intros Hs. unfold arange. rewrite in_map_iff. split.
  - intros (k & <- & Hk). apply in_seq in Hk. assert (k < cdiv (b - a) s) as Hk' by lia.
    apply (cdiv_lt (b - a) s k Hs) in Hk'. split; [lia|].
    replace (a + k * s - a) with (k * s) by lia. now apply Nat.mod_mul; lia.
  - intros [Hx Hm]. exists ((x - a) / s). apply Nat.div_exact in Hm; [|lia]. split; [lia|].
    apply in_seq. split; [lia|]. rewrite Nat.add_0_l. apply cdiv_lt; [assumption|]. lia.
Qed.
Lemma arange_nodup a b s : 0 < s -> NoDup (arange a b s).
Proof.
  intros Hs. unfold arange. apply FinFun.Injective_map_NoDup; [|apply seq_NoDup].
  intros x y E. nia.
Qed.
Lemma NoDup_concat_disj {A} (f : nat -> list A) l :
  NoDup l -> (forall i, In i l -> NoDup (f i)) ->
  (forall i j x, In x (f i) -> In x (f j) -> i = j) -> NoDup (concat (map f l)).
Proof.
  intros Hl Hf Hd. induction Hl as [|i l Hi Hl IH]; cbn; [constructor|].
  assert (G : NoDup (f i)) by (apply Hf; now left).
  assert (IH' : NoDup (concat (map f l))) by (apply IH; intros; apply Hf; now right).
  assert (D : forall x, In x (f i) -> ~ In x (concat (map f l))).
  { intros x H1 H2. apply in_concat in H2. destruct H2 as (y & Hy & Hx). apply in_map_iff in Hy.
    destruct Hy as (j & <- & Hj). rewrite (Hd _ _ _ H1 Hx) in Hi. contradiction. }
  clear -G IH' D. induction G as [|x m Hx G IH]; cbn; [assumption|].
  constructor; [|apply IH; intros; apply D; now right].
  rewrite in_app_iff. intros [H|H]; [contradiction|]. apply (D x); [now left|assumption].
Qed.

(** Taking every W-th position from each start below W is a partition of the positions. *)
Lemma mod_sub x i W : i < W -> i <= x -> (x - i) mod W = 0 -> i = x mod W.
Proof.
  intros Hi Hx H. apply Nat.div_exact in H; [|lia].
  apply Nat.mod_unique with (q := (x - i) / W); lia.
Qed.
Lemma arange_partition n W :
  0 < W -> Permutation (concat (map (fun i => arange i n W) (seq 0 W))) (seq 0 n).
Proof.
  intros HW. apply NoDup_Permutation; [|apply seq_NoDup|].
  - assert (E : map (fun i => arange i n W) (seq 0 W)
                = map (fun i => if i <? W then arange i n W else []) (seq 0 W)).
    { apply map_ext_in. intros i Hi. apply in_seq in Hi. destruct (Nat.ltb_spec i W); [reflexivity|lia]. }
    rewrite E. apply NoDup_concat_disj; [apply seq_NoDup| |].
    + intros i _. destruct (i <? W); [now apply arange_nodup|constructor].
    + intros i j x Hi Hj. destruct (Nat.ltb_spec i W); [|destruct Hi].
      destruct (Nat.ltb_spec j W); [|destruct Hj].
      apply arange_in in Hi, Hj; try assumption.
      rewrite (mod_sub x i W), (mod_sub x j W); lia.
  - intros x. rewrite in_seq. split.
    + intros H. apply in_concat in H. destruct H as (l & Hl & Hx). apply in_map_iff in Hl.
      destruct Hl as (i & <- & _). apply arange_in in Hx; lia.
    + intros H. apply in_concat. exists (arange (x mod W) n W). split.
      * apply in_map_iff. exists (x mod W). split; [reflexivity|]. apply in_seq.
        pose proof (Nat.mod_upper_bound x W). lia.
      * apply arange_in; [assumption|]. pose proof (Nat.mod_le x W). pose proof (Nat.div_mod_eq x W).
        split; [lia|]. replace (x - x mod W) with (x / W * W) by lia. apply Nat.mod_mul. lia.
Qed.

Lemma rows_at_map {A} (d : A) l ps : Forall (fun p => p < length l) ps -> rows_at l ps = map (fun p => nth p l d) ps.
Proof.
  induction 1 as [|p ps Hp _ IH]; [reflexivity|]. unfold rows_at in *. cbn. rewrite IH.
  rewrite (nth_error_nth' l d Hp). reflexivity.
Qed.
Lemma rows_at_app {A} (l : list A) ps qs : rows_at l (ps ++ qs) = rows_at l ps ++ rows_at l qs.
Proof. unfold rows_at. now rewrite flat_map_app. Qed.
Lemma rows_at_concat {A} (l : list A) pss : rows_at l (concat pss) = concat (map (rows_at l) pss).
Proof. induction pss; cbn [concat map]; [reflexivity|]. now rewrite rows_at_app, IHpss. Qed.
Lemma rows_at_perm {A} (l : list A) ps qs : Permutation ps qs -> Permutation (rows_at l ps) (rows_at l qs).
Proof. intros H. unfold rows_at. now apply Permutation_flat_map. Qed.
Lemma rows_at_seq_off {A} (a l : list A) : rows_at (a ++ l) (seq (length a) (length l)) = l.
Proof.
  revert a. induction l as [|x l IH]; intros a; [reflexivity|]. unfold rows_at in *. cbn.
  rewrite nth_error_app2, Nat.sub_diag by lia. cbn. f_equal.
  specialize (IH (a ++ [x])). rewrite app_length in IH. cbn in IH. rewrite <- app_assoc in IH. cbn in IH.
  now replace (length a + 1) with (S (length a)) in IH by lia.
Qed.
Lemma rows_at_all {A} (l : list A) : rows_at l (seq 0 (length l)) = l.
Proof. apply (rows_at_seq_off []). Qed.

(** Slices files[w::W] of the W workers are a partition of the files. *)
Lemma pyslice_partition {A} (l : list A) W :
  0 < W -> Permutation (concat (map (fun w => pyslice l w (length l) W) (seq 0 W))) l.
Proof.
  intros HW. unfold pyslice. rewrite Nat.min_id.
  rewrite <- (map_map (fun w => arange w (length l) W) (rows_at l)), <- rows_at_concat.
  rewrite <- (rows_at_all l) at 2. apply rows_at_perm. now apply arange_partition.
Qed.

(** Lines of FileTupleSampler. *)
Lemma tuple_lines_pick {A} (l : list A) c w W :
  tuple_lines c l w W = rows_at l (filter (fun p => (c + p) mod W =? w) (seq 0 (length l))).
Proof.
  revert c. induction l as [|x l IH]; intros c; [reflexivity|]. cbn [tuple_lines length seq filter].
  rewrite IH. rewrite Nat.add_0_r. rewrite <- seq_shift.
  assert (E : forall ps, rows_at (x :: l) (map S ps) = rows_at l ps).
  { intros ps. unfold rows_at. rewrite flat_map_concat_map, map_map, <- flat_map_concat_map. reflexivity. }
  assert (F : filter (fun p => (c + p) mod W =? w) (map S (seq 0 (length l)))
              = map S (filter (fun p => (S c + p) mod W =? w) (seq 0 (length l)))).
  { generalize (seq 0 (length l)). intros ps. induction ps as [|p ps IHp]; [reflexivity|].
    cbn [map filter]. replace (c + S p) with (S c + p) by lia. rewrite IHp.
    now destruct ((S c + p) mod W =? w). }
  rewrite F. destruct (c mod W =? w).
  - cbn [app]. change (rows_at (x :: l) (0 :: ?r)) with (x :: rows_at (x :: l) r). now rewrite E.
  - cbn [app]. now rewrite E.
Qed.
Lemma tuple_lines_partition {A} (l : list A) W :
  0 < W -> Permutation (concat (map (fun w => tuple_lines 0 l w W) (seq 0 W))) l.
Proof.
  intros HW.
  rewrite (map_ext _ (fun w => rows_at l (filter (fun p => p mod W =? w) (seq 0 (length l)))))
    by (intros; apply tuple_lines_pick).
  rewrite <- (map_map (fun w => filter (fun p => p mod W =? w) (seq 0 (length l))) (rows_at l)), <- rows_at_concat.
  rewrite <- (rows_at_all l) at 2. apply rows_at_perm. apply NoDup_Permutation.
  - apply NoDup_concat_disj; [apply seq_NoDup| |].
    + intros i _. apply NoDup_filter, seq_NoDup.
    + intros i j x Hi Hj. apply filter_In in Hi, Hj. lia.
  - apply seq_NoDup.
  - intros x. rewrite in_concat. split.
    + intros (m & Hm & Hx). apply in_map_iff in Hm. destruct Hm as (w & <- & _).
      now apply filter_In in Hx.
    + intros H. exists (filter (fun p => p mod W =? x mod W) (seq 0 (length l))). split.
      * apply in_map_iff. exists (x mod W). split; [reflexivity|]. apply in_seq.
        pose proof (Nat.mod_upper_bound x W). lia.
      * apply filter_In. split; [assumption|]. apply Nat.eqb_refl.
Qed.

(** ** Draining an iterator that steps through chunks *)

Lemma drain_arange {St B} (next : St -> option (B * St)) (enc : nat -> St) (chunk : nat -> B) n D :
  0 < D ->
  (forall c, next (enc c) = if c <? n then Some (chunk c, enc (c + D)) else None) ->
  forall fuel c, n < fuel + c -> 0 < fuel -> drain next fuel (enc c) = Some (map chunk (arange c n D)).
Proof.
  intros HD Hn. induction fuel as [|f IH]; intros c Hf H0; [lia|]. cbn [drain]. rewrite Hn.
  destruct (Nat.ltb_spec c n).
  - rewrite IH by lia. rewrite (arange_cons c) by lia. reflexivity.
  - now rewrite arange_nil by lia.
Qed.

Lemma skipn_skipn' {A} (a b : nat) (l : list A) : skipn a (skipn b l) = skipn (b + a) l.
Proof. revert l. induction b; intros [|x l]; cbn; auto. now destruct a. Qed.
Lemma concat_perm {A} (l l' : list (list A)) : Permutation l l' -> Permutation (concat l) (concat l').
Proof.
  induction 1; cbn; auto.
  - now apply Permutation_app_head.
  - rewrite !app_assoc. apply Permutation_app_tail, Permutation_app_comm.
  - now transitivity (concat l').
Qed.
Lemma chunks_concat {A} (B n : nat) (l : list A) :
  length l <= n * B -> concat (map (fun c => slice l (c * B) B) (seq 0 n)) = l.
Proof.
  revert l. induction n as [|n IH]; intros l L.
  - destruct l; [reflexivity|cbn in L; lia].
  - cbn [seq map concat]. transitivity (firstn B l ++ skipn B l); [|apply firstn_skipn]. f_equal.
    etransitivity; [|apply (IH (skipn B l)); rewrite skipn_length; lia].
    f_equal. rewrite <- seq_shift, map_map. apply map_ext. intros c. unfold slice.
    f_equal. rewrite skipn_skipn'. f_equal; lia.
Qed.

(** All chunks, taken by the D iterators of indices 0 .. D-1, are the chunks in order up to
    a permutation. *)
Lemma chunks_shared {B} (chunk : nat -> list B) n D :
  0 < D ->
  Permutation (concat (concat (map (fun i => map chunk (arange i n D)) (seq 0 D))))
              (concat (map chunk (seq 0 n))).
Proof.
  intros HD. apply concat_perm.
  rewrite <- (map_map (fun i => arange i n D) (map chunk)), <- concat_map.
  apply Permutation_map. now apply arange_partition.
Qed.

(** ** _NumpyIterator *)

Definition np_chunks (total batch : nat) (drop : bool) : nat := if drop then total / batch else cdiv total batch.
(** The rows in the order of the index, padded to whole batches. *)
Definition padded {A} (data : list A) idx batch (fill : A) : list A :=
  rows_at data idx ++ repeat fill (cdiv (length idx) batch * batch - length idx).

Lemma rows_at_length {A} (data : list A) idx :
  Forall (fun p => p < length data) idx -> length (rows_at data idx) = length idx.
Proof.
  destruct data as [|d data]; intros H.
  - destruct H as [|p l Hp _]; [reflexivity|cbn in Hp; lia].
  - now rewrite (rows_at_map d _ _ H), map_length.
Qed.
Lemma rows_at_skipn {A} (data : list A) idx o :
  Forall (fun p => p < length data) idx -> rows_at data (skipn o idx) = skipn o (rows_at data idx).
Proof.
  intros H. rewrite <- (firstn_skipn o idx) at 2. rewrite rows_at_app, skipn_app.
  assert (F : Forall (fun p => p < length data) (firstn o idx)).
  { rewrite <- (firstn_skipn o idx) in H. now apply Forall_app in H. }
  pose proof (rows_at_length _ _ F) as L. rewrite firstn_length in L.
  rewrite (skipn_all2 (rows_at data (firstn o idx))) by lia. cbn [app].
  destruct (Nat.le_gt_cases o (length idx)).
  - replace (o - _) with 0 by lia. reflexivity.
  - rewrite (skipn_all2 idx) by lia. cbn. now rewrite skipn_nil.
Qed.
Lemma rows_at_firstn {A} (data : list A) idx o :
  Forall (fun p => p < length data) idx -> rows_at data (firstn o idx) = firstn o (rows_at data idx).
Proof.
  intros H. rewrite <- (firstn_skipn o idx) at 2. rewrite rows_at_app, firstn_app.
  assert (F : Forall (fun p => p < length data) (firstn o idx)).
  { rewrite <- (firstn_skipn o idx) in H. now apply Forall_app in H. }
  pose proof (rows_at_length _ _ F) as L. rewrite firstn_length in L.
  rewrite (firstn_all2 (rows_at data (firstn o idx))) by lia.
  destruct (Nat.le_gt_cases o (length idx)).
  - replace (o - _) with 0 by lia. now rewrite firstn_O, app_nil_r.
  - rewrite (skipn_all2 idx) by lia. cbn. now rewrite firstn_nil, app_nil_r.
Qed.
Lemma Forall_skipn' {A} (P : A -> Prop) n l : Forall P l -> Forall P (skipn n l).
Proof. intros H. rewrite <- (firstn_skipn n l) in H. now apply Forall_app in H. Qed.

Lemma np_next_chunk {A} (data : list A) idx B D drop fill c :
  0 < B -> Forall (fun p => p < length data) idx ->
  np_next data idx (length idx) B D drop fill (c * B)
  = if c <? np_chunks (length idx) B drop
    then Some (slice (padded data idx B fill) (c * B) B, (c + D) * B) else None.
Proof.
  intros HB H. unfold np_next. pose proof (rows_at_length _ _ H) as L.
  pose proof (cdiv_le (length idx) B c HB) as Hc.
  set (T := length idx) in *.
  assert (Hd : c < T / B <-> (c + 1) * B <= T).
  { split; intros; [|apply Nat.div_le_lower_bound; lia].
    pose proof (Nat.mul_div_le T B). nia. }
  destruct (Nat.leb_spec T (c * B)) as [Hle|Hgt].
  { destruct (Nat.ltb_spec c (np_chunks T B drop)) as [K|K]; [|reflexivity].
    exfalso. unfold np_chunks in K. destruct drop; nia. }
  destruct (Nat.leb_spec (c * B + B) T) as [Hf|Hp].
  - destruct (Nat.ltb_spec c (np_chunks T B drop)) as [K|K].
    + do 2 f_equal; [|lia]. unfold slice, padded.
      rewrite (rows_at_firstn _ _ _ (Forall_skipn' _ _ _ H)), (rows_at_skipn _ _ _ H).
      rewrite skipn_app, firstn_app. rewrite skipn_length, L.
      replace (B - (T - c * B)) with 0 by lia. now rewrite firstn_O, app_nil_r.
    + exfalso. unfold np_chunks in K. destruct drop; nia.
  - destruct drop.
    + destruct (Nat.ltb_spec c (np_chunks T B true)) as [K|K]; [|reflexivity].
      unfold np_chunks in K. exfalso. nia.
    + destruct (Nat.ltb_spec c (np_chunks T B false)) as [K|K]; unfold np_chunks in K; [|nia].
      assert (E : cdiv T B = c + 1).
      { pose proof (cdiv_le T B (c + 1) HB). nia. }
      do 2 f_equal; [|lia]. unfold slice, padded. fold T. rewrite E.
      rewrite (rows_at_skipn _ _ _ H). rewrite skipn_app, firstn_app.
      rewrite skipn_length, L.
      rewrite (firstn_all2 (skipn _ _)) by (rewrite skipn_length; lia). f_equal.
      replace (c * B - T) with 0 by lia. cbn [skipn].
      rewrite firstn_all2 by (rewrite repeat_length; nia). f_equal. nia.
Qed.

Lemma np_drain {A} (data : list A) idx B D drop fill i fuel :
  0 < B -> 0 < D -> Forall (fun p => p < length data) idx -> length idx < fuel ->
  drain (np_next data idx (length idx) B D drop fill) fuel (np_start i B)
  = Some (map (fun c => slice (padded data idx B fill) (c * B) B) (arange i (np_chunks (length idx) B drop) D)).
Proof.
  intros HB HD H Hf. unfold np_start.
  apply (drain_arange (np_next data idx (length idx) B D drop fill) (fun c => c * B)
           (fun c => slice (padded data idx B fill) (c * B) B)); try lia.
  - intros c. now apply np_next_chunk.
  - assert (np_chunks (length idx) B drop <= length idx).
    { unfold np_chunks. destruct drop; [apply Nat.div_le_upper_bound; nia|]. apply cdiv_le; nia. }
    lia.
Qed.

Lemma padded_length {A} (data : list A) idx B fill :
  0 < B -> Forall (fun p => p < length data) idx ->
  length (padded data idx B fill) = cdiv (length idx) B * B.
Proof.
  intros HB H. unfold padded. rewrite app_length, repeat_length, rows_at_length by assumption.
  pose proof (proj1 (cdiv_le (length idx) B (cdiv (length idx) B) HB)). lia.
Qed.
Lemma pad_small n B : 0 < B -> cdiv n B * B - n < B.
Proof.
  intros HB. destruct (cdiv n B) as [|k] eqn:E; [lia|].
  assert (k < cdiv n B) as K by lia. apply (cdiv_lt n B k HB) in K. lia.
Qed.
Lemma slice_length {A} (l : list A) o n : o + n <= length l -> length (slice l o n) = n.
Proof. intros H. unfold slice. rewrite firstn_length, skipn_length. lia. Qed.
Lemma slice_firstn {A} (l : list A) o n k : o + n <= k -> slice (firstn k l) o n = slice l o n.
Proof.
  intros H. unfold slice. rewrite skipn_firstn_comm, firstn_firstn. f_equal. lia.
Qed.

Lemma index_valid shuffle E n idx : index_of shuffle E n idx -> Forall (fun p => p < n) idx /\ length idx = E * n.
Proof.
  intros (ts & -> & <- & H). induction H as [|t ts Ht _ IH]; [split; [constructor|reflexivity]|].
  destruct IH as [I1 I2]. cbn [concat length]. rewrite app_length, I2.
  assert (P : Permutation t (seq 0 n)) by (destruct shuffle; [assumption|now subst]).
  split.
  - apply Forall_app. split; [|assumption]. apply Forall_forall. intros p Hp.
    apply (Permutation_in _ P) in Hp. apply in_seq in Hp. lia.
  - apply Permutation_length in P. rewrite seq_length in P. lia.
Qed.
Lemma index_rows {A} shuffle E (data : list A) idx :
  index_of shuffle E (length data) idx ->
  Permutation (rows_at data idx) (concat (repeat data E)).
Proof.
  intros (ts & -> & <- & H). induction H as [|t ts Ht _ IH]; [constructor|].
  cbn [concat length repeat]. rewrite rows_at_app. apply Permutation_app; [|assumption].
  rewrite <- (rows_at_all data) at 2. apply rows_at_perm.
  destruct shuffle; [assumption|now subst].
Qed.
Lemma index_plain {A} E (data : list A) idx :
  index_of false E (length data) idx -> rows_at data idx = concat (repeat data E).
Proof.
  intros (ts & -> & <- & H). induction H as [|t ts Ht _ IH]; [reflexivity|].
  cbn [concat length repeat]. rewrite rows_at_app, IH. f_equal. subst t. apply rows_at_all.
Qed.

Lemma skipn_seq' a s n : skipn a (seq s n) = seq (s + a) (n - a).
Proof.
  revert s n. induction a as [|a IH]; intros s n; [now rewrite Nat.add_0_r, Nat.sub_0_r|].
  destruct n; [reflexivity|]. cbn. rewrite IH. f_equal; lia.
Qed.
Lemma firstn_seq' a s n : firstn a (seq s n) = seq s (Nat.min a n).
Proof.
  revert s n. induction a as [|a IH]; intros s n; [reflexivity|].
  destruct n; [reflexivity|]. cbn. now rewrite IH.
Qed.

(** ** CSVNodeSampler: the batches of one pass are the positions i, i+D, ... in groups. *)
Lemma csv_next_chunk {A} (nodes : list A) B D i c :
  0 < B -> 0 < D ->
  csv_next nodes B D i c
  = if c <? cdiv (length nodes - i) (B * D)
    then Some (rows_at nodes (slice (arange i (length nodes) D) (c * B) B), c + 1) else None.
Proof.
  intros HB HD. unfold csv_next. set (n := length nodes).
  pose proof (cdiv_lt (n - i) (B * D) c ltac:(nia)) as Hc.
  destruct (Nat.leb_spec n (c * B * D + i)).
  { destruct (Nat.ltb_spec c (cdiv (n - i) (B * D))); [nia|reflexivity]. }
  destruct (Nat.ltb_spec c (cdiv (n - i) (B * D))); [|nia].
  f_equal. f_equal. unfold pyslice. fold n. f_equal.
  replace (Nat.min (if n <=? (c + 1) * B * D + i then n else (c + 1) * B * D + i) n)
    with (Nat.min ((c + 1) * B * D + i) n) by (destruct (Nat.leb_spec n ((c + 1) * B * D + i)); lia).
  (* arange of a prefix of the positions = slice of arange *)
  unfold slice, arange. rewrite skipn_map, firstn_map.
  rewrite skipn_seq', firstn_seq'. rewrite Nat.add_0_l.
  match goal with |- map _ (seq 0 ?a) = map _ (seq _ ?b) => assert (E : a = b) end.
  { pose proof (cdiv_le (n - i) D). 
    assert (G : forall x y, 0 < x -> (forall z, cdiv x D <= z <-> y <= z) -> cdiv x D = y).
    { intros x y _ Hz. apply Nat.le_antisymm; [apply Hz|apply Hz]; lia. }
    apply G; [lia|]. intros z. rewrite cdiv_le by lia.
    assert (Hk : cdiv (n - i) D <= z + c * B <-> n - i <= (z + c * B) * D) by (apply cdiv_le; lia).
    destruct (Nat.le_gt_cases B z); nia. }
  rewrite E. rewrite <- (Nat.add_0_r (c * B)) at 2.
  generalize (Nat.min B (cdiv (n - i) D - c * B)). intros m. generalize 0 as s0.
  induction m as [|m IH]; intros s0; [reflexivity|]. cbn [seq map]. f_equal; [lia|].
  rewrite IH. now rewrite Nat.add_succ_r.
Qed.

Lemma csv_drain {A} (nodes : list A) B D i fuel :
  0 < B -> 0 < D -> length nodes < fuel ->
  drain (csv_next nodes B D i) fuel 0
  = Some (map (fun c => rows_at nodes (slice (arange i (length nodes) D) (c * B) B))
              (seq 0 (cdiv (length nodes - i) (B * D)))).
Proof.
  intros HB HD Hf.
  assert (Hn : cdiv (length nodes - i) (B * D) <= length nodes).
  { assert (0 < B * D) by nia. apply cdiv_le; [assumption|]. nia. }
  rewrite (drain_arange (csv_next nodes B D i) (fun c => c)
             (fun c => rows_at nodes (slice (arange i (length nodes) D) (c * B) B))
             (cdiv (length nodes - i) (B * D)) 1); try lia.
  - do 2 f_equal. unfold arange. rewrite <- (map_id (seq 0 (cdiv (length nodes - i) (B * D)))).
    replace (cdiv (cdiv (length nodes - i) (B * D) - 0) 1) with (cdiv (length nodes - i) (B * D)).
    + apply map_ext. intros. lia.
    + unfold cdiv at 2. rewrite Nat.div_1_r. lia.
  - intros c. now apply csv_next_chunk.
Qed.
Lemma cdiv_cdiv a b c : 0 < b -> 0 < c -> cdiv a (b * c) = cdiv (cdiv a c) b.
Proof.
  intros Hb Hc. apply Nat.le_antisymm.
  - apply cdiv_le; [nia|]. set (x := cdiv (cdiv a c) b).
    assert (cdiv a c <= x * b) as H by (apply (cdiv_le (cdiv a c) b x Hb); unfold x; apply Nat.le_refl). clearbody x.
    apply (proj1 (cdiv_le a c (x * b) Hc)) in H. lia.
  - apply cdiv_le; [assumption|]. apply cdiv_le; [assumption|].
    pose proof (proj1 (cdiv_le a (b * c) (cdiv a (b * c)) ltac:(nia)) (Nat.le_refl _)) as H. lia.
Qed.
Lemma csv_concat {A} (nodes : list A) B D i :
  0 < B -> 0 < D ->
  concat (map (fun c => rows_at nodes (slice (arange i (length nodes) D) (c * B) B))
              (seq 0 (cdiv (length nodes - i) (B * D))))
  = rows_at nodes (arange i (length nodes) D).
Proof.
  intros HB HD.
  rewrite <- (map_map (fun c => slice (arange i (length nodes) D) (c * B) B) (rows_at nodes)), <- rows_at_concat.
  f_equal. apply chunks_concat. rewrite arange_length, (cdiv_cdiv _ B D) by assumption.
  apply (cdiv_le (cdiv (length nodes - i) D) B); [assumption|apply Nat.le_refl].
Qed.

Lemma drain_to_fst {St B} (next : St -> option (B * St)) fuel s :
  drain next fuel s = option_map fst (drain_to next fuel s).
Proof.
  revert s. induction fuel as [|f IH]; intros s; [reflexivity|]. cbn.
  destruct (next s) as [[b s']|]; [|reflexivity]. rewrite IH. now destruct (drain_to next f s') as [[]|].
Qed.
Lemma drain_to_stops {St B} (next : St -> option (B * St)) fuel s bs s' :
  drain_to next fuel s = Some (bs, s') -> next s' = None.
Proof.
  revert s bs. induction fuel as [|f IH]; intros s bs H; [discriminate|]. cbn in H.
  destruct (next s) as [[b s1]|] eqn:E.
  - destruct (drain_to next f s1) as [[bs1 s2]|] eqn:E1; [|discriminate]. cbn in H.
    injection H as <- <-. now apply (IH s1 bs1).
  - now injection H as <- <-.
Qed.
Lemma passes_stopped {St B} (next : St -> option (B * St)) fuel k s :
  0 < fuel -> next s = None -> passes next fuel k s = Some (repeat [] k).
Proof.
  intros Hf Hn. induction k as [|k IH]; [reflexivity|]. cbn. destruct fuel; [lia|]. cbn. rewrite Hn.
  now rewrite IH.
Qed.
Lemma passes_first {St B} (next : St -> option (B * St)) fuel k s bs :
  drain next fuel s = Some bs -> passes next fuel (S k) s = Some (bs :: repeat [] k).
Proof.
  intros H. rewrite drain_to_fst in H. cbn [passes]. destruct (drain_to next fuel s) as [[bs' s']|] eqn:E; [|discriminate].
  cbn in H. injection H as ->. rewrite passes_stopped; [reflexivity| |now apply (drain_to_stops next fuel s bs)].
  destruct fuel; [discriminate|lia].
Qed.

(** ** Ranges *)
Open Scope Z_scope.
Definition range_kept (f last : Z) (D : nat) : nat := Z.to_nat ((last - f) / Z.of_nat D).
Definition range_padded (f last : Z) (B D : nat) (fill : Z) : list Z :=
  map (fun k => f + Z.of_nat (k * D)) (seq 0 (range_kept f last D))
  ++ repeat fill (cdiv (Z.to_nat (last - f)) (B * D) * B - range_kept f last D).

Lemma range_next_chunk f last B W D fill c :
  (0 < B)%nat -> (0 < D)%nat -> f < last ->
  range_next last B W D fill (f + Z.of_nat (c * (B * D)))
  = if (c <? cdiv (Z.to_nat (last - f)) (B * D))%nat
    then Some (slice (range_padded f last B D fill) (c * B) B, f + Z.of_nat ((c + W) * (B * D))) else None.
Proof.
  intros HB HD Hf. unfold range_next. set (n := Z.to_nat (last - f)).
  pose proof (cdiv_lt n (B * D) c ltac:(nia)) as Hc.
  destruct (Z.leb_spec last (f + Z.of_nat (c * (B * D)))).
  { destruct (Nat.ltb_spec c (cdiv n (B * D))); [nia|reflexivity]. }
  destruct (Nat.ltb_spec c (cdiv n (B * D))); [|nia].
  f_equal. f_equal; [|lia].
  assert (K : range_kept f last D = (n / D)%nat).
  { unfold range_kept. replace (last - f) with (Z.of_nat n) by lia. now rewrite <- Nat2Z.inj_div, Nat2Z.id. }
  assert (K' : Z.to_nat ((last - (f + Z.of_nat (c * (B * D)))) / Z.of_nat D) = (n / D - c * B)%nat).
  { replace (last - (f + Z.of_nat (c * (B * D)))) with (Z.of_nat n + - Z.of_nat (c * B) * Z.of_nat D) by nia.
    rewrite Z.div_add by lia. rewrite <- Nat2Z.inj_div. lia. }
  rewrite K'. unfold range_padded, slice. rewrite K. fold n.
  assert (Hle : (c * B <= n / D)%nat) by (apply Nat.div_le_lower_bound; nia).
  assert (M : (n / D * D <= n)%nat) by (pose proof (Nat.mul_div_le n D); nia).
  assert (Hn : (n / D <= cdiv n (B * D) * B)%nat).
  { pose proof (proj1 (cdiv_le n (B * D) (cdiv n (B * D)) ltac:(nia))). nia. }
  rewrite skipn_app, map_length, seq_length. replace (c * B - n / D)%nat with 0%nat by lia. cbn [skipn].
  rewrite skipn_map, skipn_seq'. rewrite firstn_app, map_length, seq_length.
  assert (X : forall m, map (fun k => f + Z.of_nat (c * (B * D)) + Z.of_nat (k * D)) (seq 0 m)
                        = map (fun k => f + Z.of_nat (k * D)) (seq (0 + c * B) m)).
  { intros m. generalize 0%nat as s0. induction m as [|m IH]; intros s0; [reflexivity|]. cbn [seq map].
    f_equal; [lia|]. rewrite IH. do 2 f_equal. }
  destruct (Z.ltb_spec last (f + Z.of_nat (c * (B * D)) + Z.of_nat (B * D))).
  - assert (n / D - c * B < B \/ n / D - c * B = B)%nat as Hk.
    { assert (n / D < (c + 1) * B)%nat; [apply Nat.div_lt_upper_bound; nia|lia]. }
    rewrite firstn_map, firstn_seq'. replace (Nat.min (n / D - c * B) B) with (n / D - c * B)%nat by lia.
    rewrite X. rewrite firstn_all2 by (rewrite map_length, seq_length; lia). f_equal.
    assert (cdiv n (B * D) = c + 1)%nat as ->.
    { pose proof (cdiv_le n (B * D) (c + 1) ltac:(nia)). nia. }
    rewrite firstn_all2 by (rewrite repeat_length; lia). f_equal. lia.
  - assert ((c + 1) * B <= n / D)%nat by (apply Nat.div_le_lower_bound; nia).
    replace (B - (n / D - c * B))%nat with 0%nat by lia. rewrite firstn_O, app_nil_r.
    rewrite X, firstn_map, firstn_seq'. do 2 f_equal. lia.
Qed.

Lemma range_drain f last B W D fill c fuel :
  (0 < B)%nat -> (0 < D)%nat -> (0 < W)%nat -> f < last -> (Z.to_nat (last - f) < fuel)%nat ->
  drain (range_next last B W D fill) fuel (f + Z.of_nat (c * (B * D)))
  = Some (map (fun c => slice (range_padded f last B D fill) (c * B) B)
              (arange c (cdiv (Z.to_nat (last - f)) (B * D)) W)).
Proof.
  intros HB HD HW Hf Hfu.
  apply (drain_arange (range_next last B W D fill) (fun c => f + Z.of_nat (c * (B * D)))
           (fun c => slice (range_padded f last B D fill) (c * B) B)); try lia.
  - intros c'. now apply range_next_chunk.
  - assert (cdiv (Z.to_nat (last - f)) (B * D) <= Z.to_nat (last - f))%nat; [|lia].
    assert (0 < B * D)%nat by nia. apply cdiv_le; [assumption|]. nia.
Qed.
Close Scope Z_scope.

(** ** Statements of the properties *)

Lemma In_firstn {A} (x : A) n l : In x (firstn n l) -> In x l.
Proof. rewrite <- (firstn_skipn n l) at 2. rewrite in_app_iff. now left. Qed.
Lemma In_skipn {A} (x : A) n l : In x (skipn n l) -> In x l.
Proof. rewrite <- (firstn_skipn n l) at 2. rewrite in_app_iff. now right. Qed.
Lemma Permutation_refl' {A} (l l' : list A) : l = l' -> Permutation l l'.
Proof. now intros ->. Qed.

Lemma np_cover {A} shuffle E (data : list A) idx B D fill :
  index_of shuffle E (length data) idx -> 0 < B -> 0 < D ->
  exists batches pad,
    (forall i fuel, length idx < fuel ->
       drain (np_next data idx (E * length data) B D false fill) fuel (np_start i B) = Some (batches i)) /\
    (forall i b, In b (batches i) -> length b = B) /\
    Permutation (concat (flat_map batches (seq 0 D))) (concat (repeat data E) ++ repeat fill pad) /\ pad < B.
Proof.
  intros HI HB HD. destruct (index_valid _ _ _ _ HI) as [Hv HL]. rewrite <- HL.
  exists (fun i => map (fun c => slice (padded data idx B fill) (c * B) B) (arange i (cdiv (length idx) B) D)).
  exists (cdiv (length idx) B * B - length idx). split; [|split; [|split]].
  - intros i fuel Hf. now apply np_drain.
  - intros i b Hb. apply in_map_iff in Hb. destruct Hb as (c & <- & Hc). apply arange_in in Hc; [|assumption].
    apply slice_length. rewrite padded_length by assumption. nia.
  - rewrite flat_map_concat_map.
    rewrite chunks_shared by assumption. rewrite chunks_concat by (rewrite padded_length by assumption; lia).
    unfold padded. apply Permutation_app_tail. now apply (index_rows shuffle).
  - now apply pad_small.
Qed.

(** The order: without shuffling, batch number k of index i is the chunk k*D+i of the
    repeated data. *)
Lemma np_batch {A} E (data : list A) idx B D drop fill i fuel :
  index_of false E (length data) idx -> 0 < B -> 0 < D -> E * length data < fuel ->
  exists bs pad,
    drain (np_next data idx (E * length data) B D drop fill) fuel (np_start i B) = Some bs /\ pad < B /\
    forall k b, nth_error bs k = Some b ->
      b = slice (concat (repeat data E) ++ repeat fill pad) ((i + k * D) * B) B /\
      (drop = true -> (i + k * D) * B + B <= E * length data).
Proof.
  intros HI HB HD Hf. destruct (index_valid _ _ _ _ HI) as [Hv HL]. rewrite <- HL in *.
  eexists. exists (cdiv (length idx) B * B - length idx). split; [|split].
  - now apply np_drain.
  - now apply pad_small.
  - intros k b Hb. unfold arange in Hb. rewrite map_map in Hb.
    assert (k < cdiv (np_chunks (length idx) B drop - i) D) as Hk.
    { (assert (nth_error (map (fun x => slice (padded data idx B fill) ((i + x * D) * B) B) (seq 0 (cdiv (np_chunks (length idx) B drop - i) D))) k <> None) as Hn by congruence; apply nth_error_Some in Hn; rewrite map_length, seq_length in Hn; exact Hn). }
    erewrite map_nth_error in Hb; [|apply (nth_error_nth' _ 0); now rewrite seq_length].
    rewrite seq_nth in Hb by assumption. injection Hb as <-.
    unfold padded. rewrite (index_plain E) by assumption. split; [reflexivity|].
    intros ->. apply cdiv_lt in Hk; [|assumption]. cbn [np_chunks] in Hk.
    pose proof (Nat.mul_div_le (length idx) B). nia.
Qed.

Lemma np_drop_cover {A} E (data : list A) idx B D fill :
  index_of false E (length data) idx -> 0 < B -> 0 < D ->
  exists batches,
    (forall i fuel, length idx < fuel ->
       drain (np_next data idx (E * length data) B D true fill) fuel (np_start i B) = Some (batches i)) /\
    (forall i b, In b (batches i) -> length b = B) /\
    Permutation (concat (flat_map batches (seq 0 D)))
                (firstn (E * length data / B * B) (concat (repeat data E))).
Proof.
  intros HI HB HD. destruct (index_valid _ _ _ _ HI) as [Hv HL]. rewrite <- HL.
  exists (fun i => map (fun c => slice (padded data idx B fill) (c * B) B) (arange i (length idx / B) D)).
  assert (M : length idx / B * B <= length idx) by (pose proof (Nat.mul_div_le (length idx) B); nia).
  assert (C : length idx <= cdiv (length idx) B * B) by (apply cdiv_le; lia).
  split; [|split].
  - intros i fuel Hf. now apply np_drain.
  - intros i b Hb. apply in_map_iff in Hb. destruct Hb as (c & <- & Hc). apply arange_in in Hc; [|assumption].
    apply slice_length. rewrite padded_length by assumption. nia.
  - rewrite flat_map_concat_map.
    rewrite chunks_shared by assumption. rewrite <- (index_plain E data idx) by assumption.
    rewrite <- (chunks_concat B (length idx / B) (firstn (length idx / B * B) (rows_at data idx)))
      by (rewrite firstn_length; lia).
    apply Permutation_refl'. f_equal. apply map_ext_in. intros c Hc. apply in_seq in Hc.
    rewrite slice_firstn by nia.
    unfold padded, slice. rewrite skipn_app, firstn_app, skipn_length, rows_at_length by assumption.
    replace (B - (length idx - c * B)) with 0 by nia. now rewrite firstn_O, app_nil_r.
Qed.

Lemma np_yields {A} shuffle E (data : list A) idx B D drop fill i fuel :
  index_of shuffle E (length data) idx -> 0 < B -> 0 < D -> E * length data < fuel ->
  exists bs, drain (np_next data idx (E * length data) B D drop fill) fuel (np_start i B) = Some bs /\
             length bs = cdiv (np_chunks (E * length data) B drop - i) D.
Proof.
  intros HI HB HD Hf. destruct (index_valid _ _ _ _ HI) as [Hv HL]. rewrite <- HL in *.
  eexists. split; [now apply np_drain|]. now rewrite map_length, arange_length.
Qed.
Lemma np_len_bound total B D drop i :
  0 < B -> 0 < D -> i < D ->
  let y := cdiv (np_chunks total B drop - i) D in
  if drop then np_len total B D drop <= y <= np_len total B D drop + 1
  else y <= np_len total B D drop <= y + 1.
Proof.
  intros HB HD Hi. cbn. unfold np_len, np_chunks. destruct drop.
  - rewrite <- Nat.div_div by lia. set (c := total / B). clearbody c. unfold cdiv. split.
    + apply Nat.div_le_mono; lia.
    + replace (c / D + 1) with ((c + 1 * D) / D) by (rewrite Nat.div_add; lia). apply Nat.div_le_mono; lia.
  - rewrite Nat.mul_comm. rewrite cdiv_cdiv by assumption. set (c := cdiv total B). clearbody c.
    unfold cdiv. split.
    + apply Nat.div_le_mono; lia.
    + replace ((c - i + D - 1) / D + 1) with ((c - i + D - 1 + 1 * D) / D) by (rewrite Nat.div_add; lia).
      apply Nat.div_le_mono; lia.
Qed.
(** The exact condition. *)
Lemma np_len_exact total B D drop i :
  0 < B -> 0 < D -> (exists k, np_chunks total B drop = k * D) \/ D = 1 -> i < D ->
  cdiv (np_chunks total B drop - i) D = np_len total B D drop.
Proof.
  intros HB HD H Hi. assert (exists k, np_chunks total B drop = k * D) as [k Hk].
  { destruct H as [H| ->]; [assumption|]. exists (np_chunks total B drop). lia. }
  clear H. rewrite Hk. unfold np_len, np_chunks in *.
  assert (Y : cdiv (k * D - i) D = k).
  { apply Nat.le_antisymm; [apply cdiv_le; lia|]. destruct k; [lia|]. apply cdiv_lt; nia. }
  rewrite Y. destruct drop.
  - rewrite <- Nat.div_div by lia. rewrite Hk. symmetry. apply Nat.div_mul. lia.
  - rewrite Nat.mul_comm, cdiv_cdiv by assumption. rewrite Hk. symmetry. now apply cdiv_exact.
Qed.

Lemma ge_yields {A} (sample : A) count fuel : count < fuel -> drain (ge_next sample) fuel count = Some (repeat sample count).
Proof.
  revert fuel. induction count as [|c IH]; intros [|f] H; try lia; [reflexivity|].
  cbn [drain ge_next]. rewrite IH by lia. reflexivity.
Qed.

Definition worker_batches (first last : Z) (B W : nat) (fill : Z) (fuel w : nat) : option (list (list Z)) :=
  match range_start first last B w with
  | Ok s => drain (range_next last B W 1 fill) fuel (s + 0)%Z
  | Fail _ => Some []
  end.
Definition ids (first last : Z) : list Z := map (fun k => (first + Z.of_nat k)%Z) (seq 0 (Z.to_nat (last - first))).

Lemma worker_batches_eq first last B W fill fuel w :
  0 < B -> 0 < W -> Z.to_nat (last - first) < fuel ->
  worker_batches first last B W fill fuel w
  = Some (map (fun c => slice (range_padded first last B 1 fill) (c * B) B)
              (arange w (cdiv (Z.to_nat (last - first)) B) W)).
Proof.
  intros HB HW Hf. unfold worker_batches, range_start.
  destruct (Z.ltb_spec (first + Z.of_nat (w * B)) last).
  - rewrite Z.add_0_r. replace (w * B) with (w * (B * 1)) by lia.
    rewrite range_drain by lia. now rewrite Nat.mul_1_r.
  - rewrite arange_nil; [reflexivity|assumption|]. apply cdiv_le; [assumption|]. nia.
Qed.
Lemma range_padded_1 first last B fill : 
  0 < B -> range_padded first last B 1 fill
  = ids first last ++ repeat fill (cdiv (Z.to_nat (last - first)) B * B - Z.to_nat (last - first)).
Proof.
  intros HB. unfold range_padded, range_kept. rewrite Z.div_1_r, Nat.mul_1_r. f_equal.
  apply map_ext. intros k. lia.
Qed.
Lemma range_cover first last B W fill :
  0 < B -> 0 < W ->
  exists batches pad,
    (forall w fuel, Z.to_nat (last - first) < fuel ->
       worker_batches first last B W fill fuel w = Some (batches w)) /\
    (forall w b, In b (batches w) -> length b = B) /\
    Permutation (concat (flat_map batches (seq 0 W))) (ids first last ++ repeat fill pad) /\ pad < B.
Proof.
  intros HB HW. set (n := Z.to_nat (last - first)).
  exists (fun w => map (fun c => slice (range_padded first last B 1 fill) (c * B) B) (arange w (cdiv n B) W)).
  exists (cdiv n B * B - n).
  assert (C : n <= cdiv n B * B) by (apply cdiv_le; lia).
  assert (L : length (range_padded first last B 1 fill) = cdiv n B * B).
  { rewrite range_padded_1 by assumption. unfold ids. rewrite app_length, map_length, seq_length, repeat_length.
    fold n. lia. }
  split; [|split; [|split]].
  - intros w fuel Hf. now apply worker_batches_eq.
  - intros w b Hb. apply in_map_iff in Hb. destruct Hb as (c & <- & Hc). apply arange_in in Hc; [|assumption].
    apply slice_length. nia.
  - rewrite flat_map_concat_map, chunks_shared, chunks_concat by lia.
    now rewrite range_padded_1.
  - now apply pad_small.
Qed.
(** With data parallel workers (one worker of a job): index i yields the ids
    first+i, first+i+D, ... but only (last-first-i) / D of them, rounded down. *)
Lemma range_parallel first last B D fill i fuel :
  0 < B -> 0 < D -> (first + Z.of_nat i < last)%Z -> Z.to_nat (last - first) < fuel ->
  exists bs pad,
    drain (range_next last B 1 D fill) fuel (first + Z.of_nat i)%Z = Some bs /\
    concat bs = map (fun k => (first + Z.of_nat (i + k * D))%Z)
                    (seq 0 (Z.to_nat (last - first - Z.of_nat i) / D)) ++ repeat fill pad /\ pad <= B.
Proof.
  intros HB HD Hi Hf. set (f := (first + Z.of_nat i)%Z) in *. set (n := Z.to_nat (last - f)).
  pose proof (range_drain f last B 1 D fill 0 fuel HB HD ltac:(lia) Hi ltac:(lia)) as E.
  cbn [Nat.mul Z.of_nat] in E. rewrite Z.add_0_r in E. fold n in E.
  eexists. exists (cdiv n (B * D) * B - n / D). split; [exact E|].
  assert (HBD : 0 < B * D) by nia.
  assert (K : range_kept f last D = n / D).
  { unfold range_kept. replace (last - f)%Z with (Z.of_nat n) by lia. now rewrite <- Nat2Z.inj_div, Nat2Z.id. }
  assert (Hn : n <= cdiv n (B * D) * (B * D)) by (apply cdiv_le; lia).
  assert (Hk : n / D <= cdiv n (B * D) * B) by (apply Nat.div_le_upper_bound; nia).
  assert (EA : arange 0 (cdiv n (B * D)) 1 = seq 0 (cdiv n (B * D))).
  { unfold arange. rewrite Nat.sub_0_r. unfold cdiv at 1. rewrite Nat.div_1_r.
    replace (cdiv n (B * D) + 1 - 1) with (cdiv n (B * D)) by lia.
    rewrite <- (map_id (seq 0 (cdiv n (B * D)))) at 2. apply map_ext. intros; lia. }
  rewrite EA. rewrite chunks_concat.
  - split.
    + unfold range_padded. rewrite K. fold n. f_equal. replace (last - first - Z.of_nat i)%Z with (last - f)%Z by lia.
      fold n. apply map_ext. intros. lia.
    + destruct (cdiv n (B * D)) as [|q] eqn:Q; [lia|].
      assert (q < cdiv n (B * D)) as HQ by lia. apply (cdiv_lt _ _ _ HBD) in HQ.
      assert (q * B <= n / D) by (apply Nat.div_le_lower_bound; nia). nia.
  - unfold range_padded. rewrite app_length, map_length, seq_length, repeat_length, K. fold n. lia.
Qed.
Lemma range_yields start last B W fill fuel :
  0 < B -> 0 < W -> (start < last)%Z -> Z.to_nat (last - start) < fuel ->
  exists bs, drain (range_next last B W 1 fill) fuel (start + 0)%Z = Some bs /\
             length bs = range_len start last B W 1.
Proof.
  intros HB HW Hs Hf.
  pose proof (range_drain start last B W 1 fill 0 fuel HB ltac:(lia) HW Hs Hf) as E. cbn [Nat.mul Z.of_nat] in E.
  eexists. split; [exact E|]. rewrite map_length, arange_length, Nat.sub_0_r. unfold range_len.
  rewrite !Nat.mul_1_r. rewrite <- cdiv_cdiv by assumption. f_equal. lia.
Qed.

Lemma csv_cover {A} (nodes : list A) B D :
  0 < B -> 0 < D ->
  exists batches,
    (forall i fuel, length nodes < fuel -> drain (csv_next nodes B D i) fuel 0 = Some (batches i)) /\
    (forall i b, In b (batches i) -> 0 < length b <= B) /\
    Permutation (concat (flat_map batches (seq 0 D))) nodes.
Proof.
  intros HB HD. eexists. split; [intros i fuel Hf; now apply csv_drain|]. split.
  - cbn. intros i b Hb. apply in_map_iff in Hb. destruct Hb as (c & <- & Hc). apply in_seq in Hc.
    assert (c < cdiv (length nodes - i) (B * D)) as Hc' by lia. rewrite cdiv_cdiv in Hc' by assumption.
    apply cdiv_lt in Hc'; [|assumption].
    rewrite rows_at_length.
    + unfold slice. rewrite firstn_length, skipn_length, arange_length. lia.
    + apply Forall_forall. intros p Hp. apply (arange_in i (length nodes) D p HD).
      unfold slice in Hp. apply In_firstn in Hp. now apply In_skipn in Hp.
  - cbn. rewrite flat_map_concat_map.
    assert (E : forall bb : nat -> list (list A), concat (concat (map bb (seq 0 D))) = concat (map (fun i => concat (bb i)) (seq 0 D))).
    { intros bb. induction (seq 0 D); [reflexivity|]. cbn. now rewrite concat_app, IHl. }
    rewrite E. rewrite (map_ext _ (fun i => rows_at nodes (arange i (length nodes) D)))
      by (intros; now apply csv_concat).
    rewrite <- (map_map (fun i => arange i (length nodes) D) (rows_at nodes)), <- rows_at_concat.
    rewrite <- (rows_at_all nodes) at 2. apply rows_at_perm. now apply arange_partition.
Qed.
Lemma csv_yields {A} (nodes : list A) B fuel :
  0 < B -> length nodes < fuel ->
  exists bs, drain (csv_next nodes B 1 0) fuel 0 = Some bs /\ length bs = csv_count (length nodes) B 1 1.
Proof.
  intros HB Hf. eexists. split; [apply csv_drain; lia|]. rewrite map_length, seq_length. unfold csv_count, cdiv.
  rewrite !Nat.mul_1_r, Nat.sub_0_r. reflexivity.
Qed.
