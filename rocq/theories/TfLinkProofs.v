From Coq Require Import QArith.
From Verif Require Import Base Dist GraphOpsModel ConvertProofs GraphOpsProofs TfSageModel TfSageSpec TfSageProofs MetricModel MetricSpec MetricProofs TfLinkModel TfLinkSpec.
Local Open Scope Z_scope.

Lemma as_idx_map l : mapM as_idx (map Idx l) = Ok l.
Proof. induction l as [|x l IH]; [reflexivity|]. cbn [map mapM as_idx bind]. now rewrite IH. Qed.
Lemma slices_length {A} sizes (l : list A) : length (slices sizes l) = length sizes.
Proof. revert l. induction sizes as [|s t IH]; intros l; [reflexivity|]. cbn [slices length]. now rewrite IH. Qed.
Lemma sample_hops_length draw ns n k cur : length (sample_hops draw ns n k cur) = n.
Proof. revert k cur. induction n as [|n IH]; intros k cur; [reflexivity|]. cbn [sample_hops length]. now rewrite IH. Qed.
Lemma lists_length draw ns inputs nodes lists : query_neighbor draw ns inputs = (nodes, lists) -> length lists = S (length ns).
Proof.
  intros E. replace lists with (snd (query_neighbor draw ns inputs)) by now rewrite E. unfold query_neighbor. cbn [snd]. rewrite slices_length, map_length. cbn [neighbor_list length].
  now rewrite sample_hops_length.
Qed.

(** ** Ids in the table *)
Lemma draw_range ok draw n k t cur c u : answers ok draw -> in_table ok n -> In u (concat (draw k t cur c)) -> u < Z.of_nat n.
Proof.
  intros A I H. apply in_concat in H. destruct H as (l & Hl & Hu). pose proof (A k t cur c) as F.
  clear A. induction F as [|v l' vs ls [_ O] F IH]; [destruct Hl|]. destruct Hl as [->|Hl]; [exact (I _ _ _ _ O Hu)|exact (IH Hl)].
Qed.
Lemma hops_range ok draw ns n m k cur l u : answers ok draw -> in_table ok n ->
  In l (sample_hops draw ns m k cur) -> In u l -> u < Z.of_nat n.
Proof.
  intros A I. revert k cur. induction m as [|m IH]; intros k cur Hl Hu; [destruct Hl|]. cbn [sample_hops] in Hl.
  destruct Hl as [<-|Hl]; [|exact (IH _ _ Hl Hu)]. exact (draw_range _ _ _ _ _ _ _ _ A I Hu).
Qed.
Lemma nodes_range ok draw ns n inputs nodes lists : answers ok draw -> in_table ok n -> Forall (fun v => v < Z.of_nat n) inputs ->
  query_neighbor draw ns inputs = (nodes, lists) -> Forall (fun v => v < Z.of_nat n) nodes.
Proof.
  intros A I F E. replace nodes with (fst (query_neighbor draw ns inputs)) by now rewrite E. unfold query_neighbor. cbn [fst]. apply Forall_forall. intros v Hv. unfold np_unique in Hv.
  apply (proj1 (make_sorted_in _ _)) in Hv. apply in_concat in Hv. destruct Hv as (l & Hl & Hv). cbn [neighbor_list] in Hl.
  destruct Hl as [<-|Hl]; [rewrite Forall_forall in F; exact (F v Hv)|exact (hops_range _ _ _ _ _ _ _ _ _ A I Hl Hv)].
Qed.
Lemma nth_last {A} (l : list A) d : last l d = nth (length l - 1) l d.
Proof.
  destruct l as [|a l] using rev_ind; [reflexivity|]. rewrite last_last, app_length. cbn [length].
  rewrite Nat.add_sub, app_nth2, Nat.sub_diag by lia. reflexivity.
Qed.
Lemma identity_right d table nodes : table <> [] -> Forall (fun v => v < Z.of_nat (length table)) nodes ->
  identity table nodes = Ok (map (node_row d table) nodes).
Proof.
  intros N F. unfold identity. assert (P : (0 < length table)%nat) by (destruct table; [congruence|cbn; lia]).
  induction F as [|v l Hv F IH]; [reflexivity|]. cbn [map mapM].
  assert (E : item table (Z.to_nat (if 0 <=? v then v else Z.of_nat (length table) - 1)) = Ok (node_row d table v)).
  { unfold node_row. destruct (Z.leb_spec 0 v).
    - destruct (Z.ltb_spec v 0); [lia|]. apply item_nth. lia.
    - destruct (Z.ltb_spec v 0); [|lia]. rewrite nth_last. replace (Z.to_nat (Z.of_nat (length table) - 1)) with (length table - 1)%nat by lia.
      apply item_nth. lia. }
  rewrite E. cbn [bind]. now rewrite IH.
Qed.
Lemma node_row_length d table v : Forall (fun r => length r = d) table -> length (node_row d table v) = d.
Proof.
  intros F. unfold node_row. assert (G : forall i, length (nth i table (repeat 0%Q d)) = d).
  { intros i. destruct (nth_in_or_default i table (repeat 0%Q d)) as [I| ->]; [rewrite Forall_forall in F; exact (F _ I)|apply repeat_length]. }
  destruct (v <? 0); [rewrite nth_last|]; apply G.
Qed.

(** ** Embeddings of the inputs of a query *)
Section Embed.
Variables (ns dims : list nat) (in_dim : nat) (cat : bool) (aggs : list (aggregator Q)) (feat : Z -> list Q) (ok : nat -> Z -> list Z -> Prop).
Hypotheses (F : fits ns in_dim dims cat aggs) (Hf : forall v, length (feat v) = in_dim).
Lemma query_embeds draw inputs nodes lists : answers ok draw -> query_neighbor draw ns inputs = (nodes, lists) ->
  exists ts, map root ts = inputs /\ Forall (sampled ok (hops_of ns)) ts /\
    (forall norm c, c_ns c = ns -> c_in c = in_dim -> c_dims c = dims -> c_cat c = cat ->
       sage_embedding norm c aggs (map feat nodes) lists = Ok (map (fun t => norm (embed feat (agg_at aggs) (length ns) t)) ts)) /\
    exists first, item lists 0 = Ok first /\ embedding_lookup nodes first = Ok inputs.
Proof.
  intros A E. destruct F as (P & Fn & Fd & La & Ld & W).
  destruct (sage_embeds feat aggs ns dims in_dim cat ok Hf P Fn Fd La Ld W draw inputs A) as (ts & R & S0 & G).
  exists ts. split; [exact R|]. split; [exact S0|]. unfold sage in G. rewrite E in G. unfold sage_call in G.
  destruct (mapM (embedding_lookup (map feat nodes)) lists) as [hidden|] eqn:Eh; [|discriminate]. cbn [bind] in G.
  destruct (aggregate Q aggs ns (in_dim :: dims) cat hidden) as [out|] eqn:Ea; [|discriminate]. cbn [bind] in G.
  destruct (item lists 0) as [first|] eqn:Ei; [|discriminate]. cbn [bind] in G.
  destruct (embedding_lookup nodes first) as [src|] eqn:Es; [|discriminate]. cbn [bind] in G. injection G as -> ->.
  split.
  - intros norm c <- <- <- <-. unfold sage_embedding. rewrite Eh. cbn [bind]. rewrite Ea. cbn [bind]. now rewrite map_map.
  - exists first. auto.
Qed.
Lemma embed_length t : length (embed feat (agg_at aggs) (length ns) t) = width in_dim dims cat (length ns).
Proof. destruct F as (P & Fn & Fd & La & Ld & W). exact (embed_width feat aggs ns dims in_dim cat ok Hf P La Ld W (length ns) t (le_n _)). Qed.
End Embed.

(** ** Products *)
Lemma dot_inner d a b : length a = d -> length b = d -> dot2 a b = inner d a b.
Proof.
  unfold dot2, inner. revert a b. induction d as [|d IH]; intros a b La Lb; [destruct a; [reflexivity|discriminate]|].
  destruct a as [|x a]; [discriminate|]. destruct b as [|y b]; [discriminate|]. cbn [length] in *.
  cbn [combine qsum seq nth fst snd]. rewrite <- seq_shift, qsum_map. f_equal. apply IH; lia.
Qed.
Lemma combine_map {A B C D} (f : A -> C) (g : B -> D) a : forall b, combine (map f a) (map g b) = map (fun p => (f (fst p), g (snd p))) (combine a b).
Proof. induction a as [|x a IH]; intros [|y b]; cbn [map combine]; [reflexivity..|]. now rewrite IH. Qed.
Lemma products_right {A B} d (f : A -> list Q) (g : B -> list Q) a b :
  (forall x, length (f x) = d) -> (forall x, length (g x) = d) -> length a = length b ->
  products (map f a) (map g b) = Ok (map (fun p => inner d (f (fst p)) (g (snd p))) (combine a b)).
Proof.
  intros Hf Hg L. unfold products. rewrite !map_length, L, Nat.eqb_refl. f_equal. rewrite combine_map, map_map.
  apply map_ext. intros p. apply dot_inner; auto.
Qed.
Lemma qavg_mean l : l <> [] -> is_mean (qavg l) l.
Proof.
  intros N. unfold is_mean, qavg. field. intros E. assert (X : (0 < Z.of_nat (length l))%Z) by (destruct l; [congruence|cbn [length]; lia]).
  unfold Qeq in E. cbn in E. lia.
Qed.
Lemma concat_ones {A} (f : A -> list Q) l : (forall a, In a l -> length (f a) = 1%nat) -> length (concat (map f l)) = length l.
Proof.
  induction l as [|a l IH]; intros H; [reflexivity|]. cbn [map concat length]. rewrite app_length, IH by (intros; apply H; now right).
  rewrite H by now left. reflexivity.
Qed.

(** ** Link prediction *)
Section Link.
Variables (norm : list Q -> list Q) (sce : Q -> Q -> Q) (sg : Q -> Q) (c : conf) (src_aggs dst_aggs : list (aggregator Q)) (table : list (list Q)).
Variable ok : nat -> Z -> list Z -> Prop.
Hypotheses (Fs : fits (c_ns c) (c_in c) (c_dims c) (c_cat c) src_aggs) (Fd : fits (c_ns c) (c_in c) (c_dims c) (c_cat c) dst_aggs)
  (Hn : forall x, length (norm x) = length x) (Ht : Forall (fun r => length r = c_in c) table) (Hne : table <> []) (Hi : in_table ok (length table)).
Local Notation emb aggs t := (norm (embed (node_row (c_in c) table) (agg_at aggs) (length (c_ns c)) t)).
Local Notation score p := (inner (width (c_in c) (c_dims c) (c_cat c) (length (c_ns c))) (emb src_aggs (fst p)) (emb dst_aggs (snd p))).

Lemma link_right ds dd label edges : answers ok ds -> answers ok dd ->
  (forall s d t, In (s, d, t) edges -> s < Z.of_nat (length table) /\ d < Z.of_nat (length table)) ->
  exists ts td,
    map root ts = map (fun e => fst (fst e)) edges /\ map root td = map (fun e => snd (fst e)) edges /\
    Forall (sampled ok (hops_of (c_ns c))) ts /\ Forall (sampled ok (hops_of (c_ns c))) td /\
    let zs := map (fun p => score p) (combine ts td) in
    let ys := concat (map label edges) in
    link_call norm sce sg c src_aggs dst_aggs table (link_query ds dd label (c_ns c) edges) =
    (if (length zs =? length ys)%nat then Ok (map sg zs, qavg (map (fun p => sce (fst p) (snd p)) (combine zs ys))) else Fail EAssert).
Proof.
  intros As Ad R.
  set (ss := map (fun e : Z * Z * Z => fst (fst e)) edges). set (es := map (fun e : Z * Z * Z => snd (fst e)) edges).
  destruct (query_neighbor ds (c_ns c) ss) as [sn sl] eqn:Es. destruct (query_neighbor dd (c_ns c) es) as [dn dl] eqn:Ed.
  assert (Rs : Forall (fun v => v < Z.of_nat (length table)) ss).
  { apply Forall_forall. intros v Hv. apply in_map_iff in Hv. destruct Hv as ([[s d] t] & <- & H). exact (proj1 (R _ _ _ H)). }
  assert (Rd : Forall (fun v => v < Z.of_nat (length table)) es).
  { apply Forall_forall. intros v Hv. apply in_map_iff in Hv. destruct Hv as ([[s d] t] & <- & H). exact (proj2 (R _ _ _ H)). }
  assert (Hf : forall v, length (node_row (c_in c) table v) = c_in c) by (intros; now apply node_row_length).
  destruct (query_embeds _ _ _ _ _ _ ok Fs Hf _ _ _ _ As Es) as (ts & R1 & S1 & G1 & _).
  destruct (query_embeds _ _ _ _ _ _ ok Fd Hf _ _ _ _ Ad Ed) as (td & R2 & S2 & G2 & _).
  exists ts, td. do 4 (split; [assumption|]). cbv zeta. unfold link_query. fold ss es. rewrite Es, Ed. cbn [app]. unfold link_call.
  rewrite <- map_app, as_idx_map. cbn [bind].
  rewrite (identity_right (c_in c)) by (auto; exact (nodes_range _ _ _ _ _ _ _ As Hi Rs Es)). cbn [bind].
  rewrite (identity_right (c_in c)) by (auto; exact (nodes_range _ _ _ _ _ _ _ Ad Hi Rd Ed)). cbn [bind].
  pose proof (lists_length _ _ _ _ _ Es) as L. rewrite <- L, firstn_app, skipn_app, firstn_all, skipn_all, Nat.sub_diag, app_nil_r.
  cbn [firstn skipn app].  rewrite G1, G2 by reflexivity. cbn [bind].
  rewrite (products_right (width (c_in c) (c_dims c) (c_cat c) (length (c_ns c)))).
  - cbn [bind]. reflexivity.
  - intros t. rewrite Hn. now apply embed_length.
  - intros t. rewrite Hn. now apply embed_length.
  - apply (f_equal (@length Z)) in R1, R2. rewrite map_length in R1, R2. unfold ss, es in *. rewrite map_length in R1, R2. congruence.
Qed.

Lemma inference_right r draw inputs : answers ok draw -> Forall (fun v => v < Z.of_nat (length table)) inputs ->
  exists ts, map root ts = inputs /\ Forall (sampled ok (hops_of (c_ns c))) ts /\
    link_inference norm c src_aggs dst_aggs table r (inference_query draw (c_ns c) inputs)
    = Ok (inputs, map (fun t => emb (match r with Src => src_aggs | Dst => dst_aggs end) t) ts).
Proof.
  intros A R. unfold inference_query. destruct (query_neighbor draw (c_ns c) inputs) as [nodes lists] eqn:E.
  assert (Hf : forall v, length (node_row (c_in c) table v) = c_in c) by (intros; now apply node_row_length).
  assert (Fr : fits (c_ns c) (c_in c) (c_dims c) (c_cat c) (match r with Src => src_aggs | Dst => dst_aggs end)) by now destruct r.
  destruct (query_embeds _ _ _ _ _ _ ok Fr Hf _ _ _ _ A E) as (ts & R1 & S1 & G1 & first & I1 & I2).
  exists ts. split; [exact R1|]. split; [exact S1|]. unfold link_inference. rewrite as_idx_map. cbn [bind].
  rewrite (identity_right (c_in c)) by (auto; exact (nodes_range _ _ _ _ _ _ _ A Hi R E)). cbn [bind].
  rewrite G1 by reflexivity. cbn [bind]. rewrite I1. cbn [bind]. rewrite I2. reflexivity.
Qed.
End Link.

(** ** Without labels *)
Lemma lookup_seq {A} (x y z : list A) : embedding_lookup (x ++ y ++ z) (seq (length x) (length y)) = Ok y.
Proof.
  revert x. induction y as [|a y IH]; intros x; [reflexivity|]. unfold embedding_lookup in *. cbn [length seq mapM].
  unfold item at 1. rewrite nth_error_app2, Nat.sub_diag by lia. cbn [app nth_error bind].
  specialize (IH (x ++ [a])). rewrite app_length, <- app_assoc in IH. cbn [length app] in IH. rewrite Nat.add_1_r in IH. rewrite IH. reflexivity.
Qed.
Lemma lookup_firstn {A} (x : list A) k : (k <= length x)%nat -> embedding_lookup x (seq 0 k) = Ok (firstn k x).
Proof.
  intros H. rewrite <- (firstn_skipn k x) at 1. pose proof (lookup_seq [] (firstn k x) (skipn k x)) as G. cbn [app length] in G.
  rewrite firstn_length_le in G by exact H. exact G.
Qed.
Lemma mapM_length {A B} (f : A -> res B) l r : mapM f l = Ok r -> length r = length l.
Proof.
  revert r. induction l as [|a l IH]; intros r H; cbn [mapM] in H; [injection H as <-; reflexivity|].
  destruct (f a); [|discriminate]. cbn [bind] in H. destruct (mapM f l); [|discriminate]. cbn [bind] in H. injection H as <-. cbn [length]. now rewrite (IH _ eq_refl).
Qed.
Lemma mapM_firstn {A B} (f : A -> res B) k l r : mapM f l = Ok r -> mapM f (firstn k l) = Ok (firstn k r).
Proof.
  revert k r. induction l as [|a l IH]; intros k r H; cbn [mapM] in H; [injection H as <-; now destruct k|].
  destruct (f a) eqn:E; [|discriminate]. cbn [bind] in H. destruct (mapM f l) eqn:E2; [|discriminate]. cbn [bind] in H. injection H as <-.
  destruct k; [reflexivity|]. cbn [firstn mapM]. rewrite E. cbn [bind]. rewrite (IH k _ eq_refl). reflexivity.
Qed.
Lemma qsum_combine_l {A B} (f : A -> Q) a : forall b : list B, length a = length b -> qsum (fun p => f (fst p)) (combine a b) = qsum f a.
Proof. induction a as [|x a IH]; intros [|y b] L; cbn in *; try discriminate; [reflexivity|]. now rewrite IH by lia. Qed.

Section Unsup.
Variables (norm : list Q -> list Q) (sce : Q -> Q -> Q) (ord : list Q -> list nat) (c : conf) (aggs : list (aggregator Q)) (weight : Q) (feat : Z -> list Q).
Variable ok : nat -> Z -> list Z -> Prop.
Hypotheses (F : fits (c_ns c) (c_in c) (c_dims c) (c_cat c) aggs) (Hn : forall x, length (norm x) = length x)
  (Hf : forall v, length (feat v) = c_in c) (Ho : descending ord).
Local Notation emb t := (norm (embed feat (agg_at aggs) (length (c_ns c)) t)).
Local Notation score a b := (inner (width (c_in c) (c_dims c) (c_cat c) (length (c_ns c))) (emb a) (emb b)).

Lemma unsup_right (table : option (list (list Q))) draw pos neg seeds : answers ok draw ->
  match table with None => True | Some tb => forall nodes lists, query_neighbor draw (c_ns c) (seeds ++ concat pos ++ neg) = (nodes, lists) -> identity tb nodes = Ok (map feat nodes) end ->
  seeds <> [] -> length pos = length seeds -> Forall (fun l => length l = 1%nat) pos ->
  exists ts tp tn,
    map root ts = seeds /\ map root tp = concat pos /\ map root tn = neg /\
    Forall (sampled ok (hops_of (c_ns c))) (ts ++ tp ++ tn) /\ length tp = length ts /\
    exists loss mrr rs,
      unsup_call norm sce ord c aggs weight table (unsup_query draw pos neg (match table with None => Some feat | Some _ => None end) (c_ns c) seeds)
      = Ok (seeds, map (fun t => emb t) ts, loss, mrr) /\
      (loss * inject_Z (Z.of_nat (length ts)) ==
       qsum (fun p => sce (score (fst p) (snd p)) 1 + weight * qsum (fun n => sce (score (fst p) n) 0) tn) (combine ts tp))%Q /\
      is_mrr mrr rs /\ Forall2 (fun p r => ranked (map (fun n => score (fst p) n) tn ++ [score (fst p) (snd p)]) (length tn) r) (combine ts tp) rs.
Proof.
  intros A T N Lp Fp.
  destruct (query_neighbor draw (c_ns c) (seeds ++ concat pos ++ neg)) as [nodes lists] eqn:E.
  destruct (query_embeds _ _ _ _ _ _ ok F Hf _ _ _ _ A E) as (tt & R1 & S1 & G1 & first & I1 & I2).
  destruct (map_app_inv _ _ _ _ R1) as (ts & t' & -> & Rs & R'). destruct (map_app_inv _ _ _ _ R') as (tp & tn & -> & Rp & Rn). clear R1 R'.
  exists ts, tp, tn. do 3 (split; [assumption|]). split; [exact S1|].
  assert (Ls : length ts = length seeds) by (rewrite <- Rs, map_length; reflexivity).
  assert (Lc : length (concat pos) = length seeds).
  { rewrite <- Lp. clear -Fp. induction Fp as [|l ls H Fp IH]; [reflexivity|]. cbn [concat length]. rewrite app_length, H, IH. reflexivity. }
  assert (Lt : length tp = length seeds) by (rewrite <- Lc, <- Rp, map_length; reflexivity).
  assert (Ln : length tn = length neg) by (rewrite <- Rn, map_length; reflexivity).
  split; [congruence|].
  set (neg_aff := map (fun s => map (fun n => score s n) tn) ts). set (aff := map (fun p => score (fst p) (snd p)) (combine ts tp)).
  destruct (tf_rows ord Ho neg_aff aff) as (mrr & rs & Em & M & K).
  { unfold neg_aff. destruct ts; [|discriminate]. cbn in Ls. destruct seeds; [congruence|discriminate]. }
  { unfold neg_aff, aff. rewrite !map_length, combine_length. lia. }
  assert (Q0 : mapM as_idx (map Idx lists) = Ok lists) by apply as_idx_map.
  exists (((qsum (fun a => sce a 1) aff + weight * qsum (qsum (fun a => sce a 0)) neg_aff) / inject_Z (Z.of_nat (length (map (fun t => emb t) ts))))%Q), mrr, rs.
  assert (B : forall (tl : list tensor), tl = Idx (seq 0 (length seeds)) :: Idx (seq (length seeds) (length (concat pos))) :: Idx (seq (length seeds + length (concat pos)) (length neg)) :: map Idx lists ->
     match tl with
     | Idx src_idx :: Idx pos_idx :: Idx neg_idx :: rest =>
      do lists <- mapM as_idx rest ;;
      do output <- sage_embedding norm c aggs (map feat nodes) lists ;;
      do src_emb <- embedding_lookup output src_idx ;;
      do pos_emb <- embedding_lookup output pos_idx ;;
      do neg_emb <- embedding_lookup output neg_idx ;;
      do first <- item lists 0 ;;
      do src_nodes_idx <- embedding_lookup first src_idx ;;
      do src_nodes <- embedding_lookup nodes src_nodes_idx ;;
      do aff <- products src_emb pos_emb ;;
      let neg_aff := map (fun s => map (dot2 s) neg_emb) src_emb in
      do mrr <- tf_mrr ord neg_aff aff ;;
      let loss := (qsum (fun a => sce a 1) aff + weight * qsum (qsum (fun a => sce a 0)) neg_aff)%Q in
      Ok (src_nodes, src_emb, (loss / inject_Z (Z.of_nat (length src_emb)))%Q, mrr)
     | _ => Fail EAssert
     end = Ok (seeds, map (fun t => emb t) ts, ((qsum (fun a => sce a 1) aff + weight * qsum (qsum (fun a => sce a 0)) neg_aff) / inject_Z (Z.of_nat (length (map (fun t => emb t) ts))))%Q, mrr)).
  { intros tl ->. rewrite Q0. cbn [bind]. rewrite G1 by reflexivity. cbn [bind]. rewrite !map_app.
    set (f := fun t => emb t).
    pose proof (lookup_seq [] (map f ts) (map f tp ++ map f tn)) as X1. cbn [app length] in X1. rewrite map_length, Ls in X1. rewrite X1. cbn [bind].
    pose proof (lookup_seq (map f ts) (map f tp) (map f tn)) as X2. rewrite !map_length, Ls, Lt in X2. rewrite Lc, X2. cbn [bind].
    pose proof (lookup_seq (map f ts ++ map f tp) (map f tn) []) as X3. rewrite app_nil_r, <- app_assoc, app_length, !map_length, Ls, Lt, Ln in X3. rewrite X3. cbn [bind].
    rewrite I1. cbn [bind]. assert (Lf : length first = length (seeds ++ concat pos ++ neg)) by (symmetry; exact (mapM_length _ _ _ I2)).
    rewrite lookup_firstn by (rewrite Lf, app_length; lia). cbn [bind].
    unfold embedding_lookup in I2 |- *. rewrite (mapM_firstn _ (length seeds) _ _ I2), firstn_app, firstn_all, Nat.sub_diag, app_nil_r. cbn [bind].
    rewrite (products_right (width (c_in c) (c_dims c) (c_cat c) (length (c_ns c)))).
    2,3: intros t; unfold f; rewrite Hn; now apply embed_length.
    2: congruence.
    cbn [bind]. assert (Y : map (fun s => map (dot2 s) (map f tn)) (map f ts) = neg_aff).
    { unfold neg_aff. rewrite map_map. apply map_ext. intros s. rewrite map_map. apply map_ext. intros n.
      apply dot_inner; unfold f; rewrite Hn; now apply embed_length. }
    rewrite Y. change (map (fun p => inner (width (c_in c) (c_dims c) (c_cat c) (length (c_ns c))) (f (fst p)) (f (snd p))) (combine ts tp)) with aff.
    rewrite Em. reflexivity. }
  split; [|split; [|split]].
  - unfold unsup_query, unsup_call. rewrite E. destruct table as [tb|].
    + cbn [app]. rewrite (T _ _ eq_refl). cbn [bind]. exact (B _ eq_refl).
    + cbn [app bind]. exact (B _ eq_refl).
  - rewrite map_length. unfold aff, neg_aff. rewrite qsum_plus, !qsum_map.
    rewrite (qsum_scale weight).
    assert (Z : (qsum (fun p : tree * tree => qsum (fun n => sce (score (fst p) n) 0) tn) (combine ts tp) == qsum (fun s => qsum (fun a => sce a 0) (map (fun n => score s n) tn)) ts)%Q).
    { rewrite (qsum_combine_l (fun s => qsum (fun n => sce (score s n) 0) tn)) by congruence. apply qsum_ext. intros s _. rewrite qsum_map. reflexivity. }
    rewrite Z. field. intros X. unfold Qeq in X. cbn in X. destruct seeds; [congruence|]. cbn in Ls. lia.
  - exact M.
  - assert (W : combine neg_aff aff = map (fun p => (map (fun n => score (fst p) n) tn, score (fst p) (snd p))) (combine ts tp)).
    { unfold neg_aff, aff. clear -Ls Lt. revert tp seeds Ls Lt. induction ts as [|t ts IH]; intros [|p tp] [|s seeds] Ls Lt; try discriminate; [reflexivity|].
      cbn [map combine fst snd]. f_equal. apply (IH tp seeds); cbn in *; lia. }
    rewrite W in K. clear -K. remember (combine ts tp) as l. clear Heql. revert rs K. induction l as [|p l IH]; intros rs K; inversion K; subst; constructor; auto.
    cbn [fst snd] in H1. now rewrite map_length in H1.
Qed.
End Unsup.

(** ** Consequences for the statements *)
Lemma identity_fails table nodes v : In v nodes -> Z.of_nat (length table) <= v -> identity table nodes = Fail EIndex.
Proof.
  intros H L. unfold identity. set (m := Z.of_nat (length table) - 1).
  assert (G : forall l, (exists r, mapM (fun v => item table (Z.to_nat v)) l = Ok r) \/ mapM (fun v => item table (Z.to_nat v)) l = Fail EIndex).
  { induction l as [|x l IH]; [left; eexists; reflexivity|]. cbn [mapM]. unfold item at 1 3. destruct (nth_error table (Z.to_nat x)); cbn [bind]; [|now right].
    destruct IH as [[r ->]| ->]; [left; eexists; reflexivity|now right]. }
  destruct (G (map (fun v => if 0 <=? v then v else m) nodes)) as [[r E]|E]; [exfalso|exact E].
  clear G. revert r E. induction nodes as [|x nodes IH]; intros r E; [destruct H|]. cbn [map mapM] in E.
  destruct (item table (Z.to_nat (if 0 <=? x then x else m))) eqn:Ei; [|discriminate]. cbn [bind] in E.
  destruct (mapM _ (map _ nodes)) eqn:Em; [|discriminate]. destruct H as [->|H]; [|exact (IH H _ eq_refl)].
  destruct (Z.leb_spec 0 v); [|lia]. unfold item in Ei. destruct (nth_error table (Z.to_nat v)) eqn:X; [|discriminate].
  assert (Z.to_nat v < length table)%nat by (apply nth_error_Some; congruence). lia.
Qed.
Lemma unsup_identity norm sce ord c aggs weight table ok :
  fits (c_ns c) (c_in c) (c_dims c) (c_cat c) aggs -> (forall x, length (norm x) = length x) -> descending ord ->
  Forall (fun r => length r = c_in c) table -> table <> [] -> in_table ok (length table) ->
  forall draw pos neg seeds, answers ok draw -> Forall (fun v => v < Z.of_nat (length table)) (seeds ++ concat pos ++ neg) ->
  seeds <> [] -> length pos = length seeds -> Forall (fun l => length l = 1%nat) pos ->
  let emb t := norm (embed (node_row (c_in c) table) (agg_at aggs) (length (c_ns c)) t) in
  let score a b := inner (width (c_in c) (c_dims c) (c_cat c) (length (c_ns c))) (emb a) (emb b) in
  exists ts tp tn,
    map root ts = seeds /\ map root tp = concat pos /\ map root tn = neg /\
    Forall (sampled ok (hops_of (c_ns c))) (ts ++ tp ++ tn) /\ length tp = length ts /\
    exists loss mrr rs,
      unsup_call norm sce ord c aggs weight (Some table) (unsup_query draw pos neg None (c_ns c) seeds)
      = Ok (seeds, map emb ts, loss, mrr) /\
      (loss * inject_Z (Z.of_nat (length ts)) ==
       qsum (fun p => sce (score (fst p) (snd p)) 1 + weight * qsum (fun n => sce (score (fst p) n) 0) tn) (combine ts tp))%Q /\
      is_mrr mrr rs /\ Forall2 (fun p r => ranked (map (fun n => score (fst p) n) tn ++ [score (fst p) (snd p)]) (length tn) r) (combine ts tp) rs.
Proof.
  intros F Hn Ho Ht Hne Hi draw pos neg seeds A R N Lp Fp emb score.
  assert (Hf : forall v, length (node_row (c_in c) table v) = c_in c) by (intros; now apply node_row_length).
  refine (unsup_right norm sce ord c aggs weight (node_row (c_in c) table) ok F Hn Hf Ho (Some table) draw pos neg seeds A _ N Lp Fp).
  intros nodes lists E. apply identity_right; [exact Hne|]. exact (nodes_range _ _ _ _ _ _ _ A Hi R E).
Qed.
