From Verif Require Import Base GraphOpsModel GraphOpsProofs ConvertProofs TfSageModel TfSageSpec.

(** ** Trees *)
Lemma sampled_cons ok l c rest t :
  sampled ok ((l, c) :: rest) t <->
  length (children t) = c /\ ok l (root t) (map root (children t)) /\ Forall (sampled ok rest) (children t).
Proof.
  cbn [sampled].
  assert (E : forall ts, (fix all (l0 : list tree) : Prop := match l0 with [] => True | x :: r => sampled ok rest x /\ all r end) ts
                         <-> Forall (sampled ok rest) ts).
  { induction ts as [|x ts IH]; [split; auto|]. rewrite IH. split; [intros []; now constructor|intros H; inversion H; auto]. }
  rewrite E. tauto.
Qed.
Fixpoint level (h : nat) (ts : list tree) : list tree :=
  match h with O => ts | S h' => level h' (flat_map children ts) end.
Lemma level_S h ts : level (S h) ts = flat_map children (level h ts).
Proof. revert ts. induction h as [|h IH]; intros ts; [reflexivity|]. cbn [level]. cbn [level] in IH. now rewrite IH. Qed.
Lemma sampled_children ok l c rest ts : Forall (sampled ok ((l, c) :: rest)) ts -> Forall (sampled ok rest) (flat_map children ts).
Proof.
  induction 1 as [|t ts H F IH]; [constructor|]. cbn [flat_map]. apply Forall_app. split; [|exact IH].
  apply sampled_cons in H. apply H.
Qed.
Lemma sampled_level ok hops ts h : h <= length hops -> Forall (sampled ok hops) ts -> Forall (sampled ok (skipn h hops)) (level h ts).
Proof.
  revert hops ts. induction h as [|h IH]; intros hops ts L F; [exact F|].
  destruct hops as [|[l c] rest]; [cbn in L; lia|]. cbn [skipn level]. apply IH; [cbn in L; lia|].
  now apply sampled_children in F.
Qed.

Lemma map_app_inv {A B} (f : A -> B) l a b : map f l = a ++ b -> exists x y, l = x ++ y /\ map f x = a /\ map f y = b.
Proof.
  revert a. induction l as [|z l IH]; intros a H.
  - exists [], []. destruct a; [|discriminate]. destruct b; [auto|discriminate].
  - destruct a as [|w a].
    + exists [], (z :: l). auto.
    + cbn in H. injection H as <- H. destruct (IH a H) as (x & y & -> & <- & <-). exists (z :: x), y. auto.
Qed.
Lemma build ok t c rest cur lists :
  Forall2 (fun v l => length l = c /\ ok t v l) cur lists ->
  forall ts', map root ts' = concat lists -> Forall (sampled ok rest) ts' ->
  exists ts, map root ts = cur /\ flat_map children ts = ts' /\ Forall (sampled ok ((t, c) :: rest)) ts.
Proof.
  induction 1 as [|v l cur lists [L O] F IH]; intros ts' E S0.
  - destruct ts'; [|discriminate]. exists []. repeat split; constructor.
  - cbn [concat] in E. apply map_app_inv in E. destruct E as (x & y & -> & Ex & Ey).
    apply Forall_app in S0. destruct S0 as [Sx Sy]. destruct (IH y Ey Sy) as (ts & A & B & C).
    exists (Node v x :: ts). cbn [map flat_map root children]. rewrite A, B. repeat split.
    constructor; [|exact C]. apply sampled_cons. cbn [root children]. rewrite Ex. repeat split; auto.
    now rewrite <- L, <- Ex, map_length.
Qed.

Lemma nth_map_seq {A} (f : nat -> A) n i d : i < n -> nth i (map f (seq 0 n)) d = f i.
Proof.
  intros H. rewrite nth_indep with (d' := f 0) by now rewrite map_length, seq_length.
  rewrite map_nth. now rewrite seq_nth.
Qed.
Definition hops_from (ns : list nat) (k n : nat) : list (nat * nat) :=
  map (fun j => (length ns - j - 1, nth (length ns - j - 1) ns 0)) (seq k n).
Lemma hops_of_from ns : hops_of ns = hops_from ns 0 (length ns).
Proof.
  unfold hops_of, hops_from. apply nth_ext with (d := (0, 0)) (d' := (0, 0)).
  - rewrite rev_length, combine_length, seq_length, map_length, seq_length. lia.
  - intros i H. rewrite rev_length, combine_length, seq_length, Nat.min_id in H.
    rewrite rev_nth by (rewrite combine_length, seq_length; lia).
    rewrite combine_length, seq_length, Nat.min_id. rewrite combine_nth by now rewrite seq_length.
    rewrite seq_nth by lia.
    rewrite nth_map_seq by exact H. cbn [plus]. now replace (length ns - S i) with (length ns - i - 1) by lia.
Qed.
Lemma hops_length ns : length (hops_of ns) = length ns.
Proof. unfold hops_of. rewrite rev_length, combine_length, seq_length. lia. Qed.
Lemma hops_nth ns h : h < length ns -> skipn h (hops_of ns) = (length ns - h - 1, nth (length ns - h - 1) ns 0) :: skipn (S h) (hops_of ns).
Proof.
  intros H. rewrite hops_of_from. unfold hops_from.
  assert (E : seq 0 (length ns) = seq 0 h ++ h :: seq (S h) (length ns - h - 1)).
  { replace (length ns) with (h + S (length ns - h - 1)) at 1 by lia. now rewrite seq_app. }
  rewrite E, !map_app. cbn [map].
  set (f := fun j => (length ns - j - 1, nth (length ns - j - 1) ns 0)).
  assert (X : forall (a : list (nat * nat)) x b, length a = h -> skipn h (a ++ x :: b) = x :: b /\ skipn (S h) (a ++ x :: b) = b).
  { clear. intros a x b <-. induction a as [|y a [IH1 IH2]]; [split; reflexivity|]. cbn [length app skipn]. split; [exact IH1|exact IH2]. }
  destruct (X (map f (seq 0 h)) (f h) (map f (seq (S h) (length ns - h - 1)))) as [A B]; [now rewrite map_length, seq_length|].
  change (skipn h (map f (seq 0 h) ++ f h :: map f (seq (S h) (length ns - h - 1))) = f h :: skipn (S h) (map f (seq 0 h) ++ f h :: map f (seq (S h) (length ns - h - 1)))).
  now rewrite A, B.
Qed.

Theorem sample_trees ok draw ns n k cur :
  answers ok draw ->
  exists ts, map root ts = cur /\ Forall (sampled ok (hops_from ns k n)) ts /\
    sample_hops draw ns n k cur = map (fun h => map root (level (S h) ts)) (seq 0 n).
Proof.
  intros A. revert k cur. induction n as [|n IH]; intros k cur.
  - exists (map (fun v => Node v []) cur). rewrite map_map, map_id. repeat split.
    unfold hops_from. cbn. rewrite Forall_forall. intros t H. apply in_map_iff in H. destruct H as (v & <- & _). reflexivity.
  - cbn [sample_hops].
    set (t := length ns - k - 1). set (lists := draw k t cur (nth t ns 0)).
    destruct (IH (S k) (concat lists)) as (ts' & R & S0 & E).
    destruct (build ok t (nth t ns 0) (hops_from ns (S k) n) cur lists (A k t cur _) ts' R S0) as (ts & R' & C & S1).
    exists ts. split; [exact R'|]. split; [exact S1|].
    cbn [seq map]. cbn [level]. rewrite C, <- R. f_equal. rewrite R, E. rewrite <- seq_shift, map_map.
    reflexivity.
Qed.

(** ** Positions *)
Lemma item_nth {A} (l : list A) i d : i < length l -> item l i = Ok (nth i l d).
Proof. intros H. unfold item. now rewrite (nth_error_nth' l d H). Qed.
Lemma mapM_Ok {A B} (f : A -> res B) g l : (forall a, In a l -> f a = Ok (g a)) -> mapM f l = Ok (map g l).
Proof.
  induction l as [|a l IH]; intros H; [reflexivity|]. cbn [mapM map]. rewrite (H a) by now left. cbn.
  rewrite IH by (intros; apply H; now right). reflexivity.
Qed.
Lemma slices_map {A B} (f : A -> B) lists : slices (map (@length A) lists) (map f (concat lists)) = map (map f) lists.
Proof.
  induction lists as [|l lists IH]; [reflexivity|]. cbn [map slices concat]. rewrite map_app.
  rewrite firstn_app, map_length, Nat.sub_diag, firstn_O, app_nil_r. rewrite firstn_all2 by (rewrite map_length; lia).
  rewrite skipn_app, map_length, Nat.sub_diag, skipn_O. rewrite skipn_all2 by (rewrite map_length; lia). cbn [app].
  now rewrite IH.
Qed.
Lemma lookup_positions {B} (f : Z -> B) nodes l :
  (forall v, In v l -> In v nodes) ->
  embedding_lookup (map f nodes) (map (fun v => position v nodes) l) = Ok (map f l).
Proof.
  intros H. unfold embedding_lookup. induction l as [|v l IH]; [reflexivity|]. cbn [map mapM].
  assert (I : In v nodes) by (apply H; now left).
  rewrite (item_nth _ _ (f 0%Z)) by (rewrite map_length; now apply position_lt).
  rewrite map_nth, position_nth by exact I. cbn [bind]. rewrite IH by (intros; apply H; now right). reflexivity.
Qed.

(** ** Aggregation *)
Section Agg.
Context {elem : Type}.
Notation row := (list elem).
Lemma reshape_groups k d (gs : list (list row)) :
  0 < k -> 0 < d -> Forall (fun g => length g = k /\ Forall (fun r => length r = d) g) gs ->
  reshape elem k d (concat gs) = Ok gs.
Proof.
  intros Hk Hd F. unfold reshape.
  assert (C : concat (concat gs) = concat (map (@concat elem) gs)).
  { clear. induction gs as [|g gs IH]; [reflexivity|]. cbn. now rewrite concat_app, IH. }
  assert (L : Forall (fun x => length x = k * d) (map (@concat elem) gs)).
  { rewrite Forall_forall in *. intros x Hx. apply in_map_iff in Hx. destruct Hx as (g & <- & Hg). destruct (F g Hg) as [A B].
    rewrite (concat_length_const d) by exact B. lia. }
  rewrite C. rewrite (concat_length_const (k * d)) by exact L.
  assert (Z : 0 < k * d) by nia.
  rewrite (Nat.mul_comm (k * d)), Nat.mod_mul by lia.
  destruct (Nat.eqb_spec (k * d) 0); [lia|]. cbn [orb negb Nat.eqb].
  rewrite fields_concat by auto. rewrite map_map. f_equal. rewrite <- (map_id gs) at 2. apply map_ext_in.
  intros g Hg. rewrite Forall_forall in F. destruct (F g Hg). now apply fields_concat.
Qed.

Variables (feat : Z -> row) (aggs : list (aggregator elem)) (ns layer_dims : list nat) (in_dim : nat) (cat : bool).
Variable ok : nat -> Z -> list Z -> Prop.
Local Notation agg_at := (agg_at aggs).
Local Notation width := (width in_dim layer_dims cat).
Hypotheses (Hfeat : forall v, length (feat v) = in_dim)
  (Hin : 0 < in_dim) (Hns : Forall (fun n => 0 < n) ns) (Hdims : Forall (fun n => 0 < n) layer_dims)
  (La : length aggs = length ns) (Ld : length layer_dims = length ns)
  (Hw : forall l x y, l < length ns -> length (agg_at l x y) = width (S l)).

Lemma embed_width l t : l <= length ns -> length (embed feat agg_at l t) = width l.
Proof. destruct l as [|l]; intros H; cbn [embed]; [apply Hfeat|]. apply Hw. lia. Qed.
Lemma width_pos l : l <= length ns -> 0 < width l.
Proof.
  intros H. destruct l as [|l]; [exact Hin|]. cbn [width]. rewrite Forall_forall in Hdims.
  assert (0 < nth l layer_dims 0) by (apply Hdims, nth_In; lia). destruct cat; lia.
Qed.

Lemma step_hop l hop ts :
  l < length ns -> hop < length ns - l -> Forall (sampled ok (hops_of ns)) ts ->
  reshape elem (nth (length ns - hop - 1) ns 0) (width l) (map (embed feat agg_at l) (level (S hop) ts)) =
  Ok (map (fun t => map (embed feat agg_at l) (children t)) (level hop ts)).
Proof.
  intros Hl Hh F.
  assert (E : map (embed feat agg_at l) (level (S hop) ts) =
              concat (map (fun t => map (embed feat agg_at l) (children t)) (level hop ts))).
  { rewrite level_S. rewrite flat_map_concat_map, concat_map, map_map. reflexivity. }
  rewrite E. apply reshape_groups.
  - rewrite Forall_forall in Hns. apply Hns, nth_In. lia.
  - apply width_pos. lia.
  - assert (S0 : Forall (sampled ok (skipn hop (hops_of ns))) (level hop ts)) by (apply sampled_level; [rewrite hops_length; lia|exact F]).
    rewrite hops_nth in S0 by lia. rewrite Forall_forall in *. intros g Hg. apply in_map_iff in Hg.
    destruct Hg as (t & <- & Ht). specialize (S0 t Ht). apply sampled_cons in S0. destruct S0 as (A & _ & _).
    rewrite map_length. split; [exact A|]. rewrite Forall_forall. intros r Hr. apply in_map_iff in Hr. destruct Hr as (u & <- & _).
    apply embed_width. lia.
Qed.
Definition state (l : nat) (ts : list tree) : list (list row) :=
  map (fun h => map (embed feat agg_at l) (level h ts)) (seq 0 (length ns - l + 1)).
Lemma item_state l ts h : h < length ns - l + 1 -> item (state l ts) h = Ok (map (embed feat agg_at l) (level h ts)).
Proof.
  intros H. unfold state. rewrite (item_nth _ _ []) by (rewrite map_length, seq_length; lia).
  now rewrite nth_map_seq.
Qed.
Lemma step_layer l ts :
  l < length ns -> Forall (sampled ok (hops_of ns)) ts ->
  agg_layer elem aggs ns (in_dim :: layer_dims) cat l (state l ts) = Ok (state (S l) ts).
Proof.
  intros Hl F. unfold agg_layer. rewrite (item_nth aggs l (fun x _ => x)) by lia. cbn [bind].
  replace (state (S l) ts) with (map (fun h => map (embed feat agg_at (S l)) (level h ts)) (seq 0 (length ns - l)))
    by (unfold state; do 2 f_equal; lia).
  apply mapM_Ok. intros hop Hh. apply in_seq in Hh.
  rewrite (item_nth ns _ 0) by lia. cbn [bind].
  rewrite (item_nth _ l 0) by (cbn [length]; lia). cbn [bind].
  rewrite !item_state by lia. cbn [bind].
  assert (W : (if cat && negb (l =? 0) then 2 else 1) * nth l (in_dim :: layer_dims) 0 = width l).
  { destruct l as [|l']; [destruct cat; cbn; lia|]. cbn [nth width Nat.eqb negb]. now destruct cat. }
  rewrite W, step_hop by (auto; lia). cbn [bind]. unfold apply_agg. rewrite !map_length, Nat.eqb_refl.
  f_equal. rewrite <- (map_id (level hop ts)) at 1 2. rewrite !map_map.
  generalize (level hop ts) as us. induction us as [|t us IH]; [reflexivity|]. cbn [map combine fst snd]. now rewrite IH.
Qed.
Lemma run_layers n l ts :
  l + n = length ns -> Forall (sampled ok (hops_of ns)) ts ->
  agg_layers elem aggs ns (in_dim :: layer_dims) cat n l (state l ts) = Ok (state (length ns) ts).
Proof.
  revert l. induction n as [|n IH]; intros l E F.
  - cbn [agg_layers]. now replace l with (length ns) by lia.
  - cbn [agg_layers]. rewrite step_layer by (auto; lia). cbn [bind]. apply IH; [lia|exact F].
Qed.

Theorem sage_embeds draw inputs :
  answers ok draw ->
  exists ts, map root ts = inputs /\ Forall (sampled ok (hops_of ns)) ts /\
    sage elem aggs ns layer_dims in_dim cat draw feat inputs = Ok (map (embed feat agg_at (length ns)) ts, inputs).
Proof.
  intros A. destruct (sample_trees ok draw ns (length ns) 0 inputs A) as (ts & R & S0 & E).
  rewrite <- hops_of_from in S0. exists ts. split; [exact R|]. split; [exact S0|].
  unfold sage, query_neighbor, sage_call.
  set (lists := neighbor_list draw ns inputs).
  assert (El : lists = map (fun h => map root (level h ts)) (seq 0 (length ns + 1))).
  { unfold lists, neighbor_list. rewrite E, Nat.add_1_r. cbn [seq map level]. rewrite R. f_equal.
    rewrite <- seq_shift, map_map. reflexivity. }
  set (nodes := np_unique (concat lists)).
  assert (I : forall l v, In l lists -> In v l -> In v nodes).
  { intros l v Hl Hv. unfold nodes, np_unique. apply make_sorted_in. apply in_concat. eauto. }
  rewrite slices_map.
  assert (H0 : mapM (embedding_lookup (map feat nodes)) (map (map (fun v => position v nodes)) lists) = Ok (state 0 ts)).
  { unfold state. rewrite Nat.sub_0_r. assert (X : map (map feat) lists = map (fun h => map (embed feat agg_at 0) (level h ts)) (seq 0 (length ns + 1))).
    { rewrite El, map_map. apply map_ext. intros h. rewrite map_map. reflexivity. }
    rewrite <- X. clear X El. revert I. clearbody lists nodes. induction lists as [|l lists IH]; intros I; [reflexivity|]. cbn [map mapM].
    rewrite lookup_positions by (intros; eapply I; [now left|eassumption]). cbn [bind]. rewrite IH; [reflexivity|].
    intros l' v Hl. apply (I l' v). now right. }
  rewrite H0. cbn [bind]. unfold aggregate. rewrite run_layers by auto. cbn [bind].
  unfold state. rewrite Nat.sub_diag. cbn [seq map level plus].
  assert (I0 : item (map (map (fun v => position v nodes)) lists) 0 = Ok (map (fun v => position v nodes) inputs)) by reflexivity.
  rewrite I0. cbn [bind]. rewrite <- (map_id nodes) at 1. rewrite lookup_positions.
  2:{ intros v Hv. apply (I inputs v); [now left|exact Hv]. }
  cbn [bind]. now rewrite map_id.
Qed.
End Agg.

(** ** LSTM *)
Theorem lstm_last {A} max_len useds (outputs : list (list A)) d :
  0 < max_len -> length useds = length outputs ->
  Forall (fun o => length o = max_len) outputs -> Forall (fun u => length u = max_len) useds ->
  lstm_gather max_len useds outputs = Ok (map (fun p => nth (lstm_length (fst p) - 1) (snd p) d) (combine useds outputs)).
Proof.
  intros Hm L Fo Fu. unfold lstm_gather.
  assert (X : forall i, i < length outputs ->
    item (concat outputs) (i * max_len + (lstm_length (nth i useds []) - 1)) = Ok (nth (lstm_length (nth i useds []) - 1) (nth i outputs []) d)).
  { intros i Hi.
    assert (B : lstm_length (nth i useds []) - 1 < max_len).
    { rewrite Forall_forall in Fu. assert (Lu : length (nth i useds []) = max_len) by (apply Fu, nth_In; lia).
      unfold lstm_length. assert (length (filter (fun b : bool => b) (nth i useds [])) <= max_len).
      { rewrite <- Lu. generalize (nth i useds []). clear. induction l as [|b l IH]; cbn; [lia|]. destruct b; cbn; lia. }
      lia. }
    revert B. generalize (lstm_length (nth i useds []) - 1) as j. intros j B.
    clear -Fo Hi B. revert i Hi. induction Fo as [|o outputs Lo Fo IH]; intros i Hi; [cbn in Hi; lia|]. cbn [concat].
    destruct i as [|i].
    - unfold item. cbn [Nat.mul plus nth]. rewrite nth_error_app1 by lia. now rewrite (nth_error_nth' o d) by lia.
    - unfold item in *. rewrite nth_error_app2 by lia. replace (S i * max_len + j - length o) with (i * max_len + j) by lia.
      cbn [nth]. apply IH. cbn in Hi. lia. }
  rewrite (mapM_Ok _ (fun i => nth (lstm_length (nth i useds []) - 1) (nth i outputs []) d)).
  2:{ intros i Hi. apply in_seq in Hi. apply X. lia. }
  f_equal. clear -L. revert outputs L. induction useds as [|u useds IH]; intros [|o outputs] L; try discriminate; [reflexivity|].
  cbn [length seq map combine fst snd]. cbn in L. f_equal. rewrite <- seq_shift, map_map. cbn [nth]. apply IH. lia.
Qed.
