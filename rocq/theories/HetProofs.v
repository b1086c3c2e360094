(** Proofs about triples of nodes of several types. *)
From Verif Require Import Base HetModel HetSpec.
From Coq Require Import QArith Lqa ZifyBool ZifyNat ZifyN.
Local Open Scope Z_scope.

(** ** Lists of lists *)
Section Lists.
Context {A : Type}.
Lemma nth_update (l : list (list A)) k v j : (k < length l)%nat -> nth j (firstn k l ++ v :: skipn (S k) l) [] = if (j =? k)%nat then v else nth j l [].
Proof.
  revert k j. induction l as [|a l IH]; intros k j H; [cbn in H; lia|]. destruct k as [|k], j as [|j]; try reflexivity.
  cbn [firstn skipn app nth length] in *. rewrite IH by lia. reflexivity.
Qed.
Lemma length_update (l : list (list A)) k v : (k < length l)%nat -> length (firstn k l ++ v :: skipn (S k) l) = length l.
Proof. intros H. rewrite app_length, firstn_length. cbn [length]. rewrite skipn_length. lia. Qed.
Lemma append_at_right (l : list (list A)) i x : 0 <= i < Z.of_nat (length l) ->
  exists l', append_at l i x = Ok l' /\ length l' = length l /\ forall j, nth j l' [] = nth j l [] ++ (if Z.of_nat j =? i then [x] else []).
Proof.
  intros H. unfold append_at. replace (i <? 0) with false by lia. replace ((0 <=? i) && (i <? Z.of_nat (length l))) with true by lia.
  eexists. split; [reflexivity|]. split; [apply length_update; lia|]. intros j. rewrite nth_update by lia.
  destruct (Nat.eqb_spec j (Z.to_nat i)) as [->|N]; [now replace (Z.of_nat (Z.to_nat i) =? i) with true by lia|].
  replace (Z.of_nat j =? i) with false by lia. now rewrite app_nil_r.
Qed.
Lemma append_all_right xs : forall l : list (list A), Forall (fun x => 0 <= fst x < Z.of_nat (length l)) xs ->
  exists l', append_all l xs = Ok l' /\ length l' = length l /\ forall j, nth j l' [] = nth j l [] ++ map snd (filter (fun x => fst x =? Z.of_nat j) xs).
Proof.
  induction xs as [|[i x] xs IH]; intros l H; cbn [append_all]; [exists l; repeat split; intros; cbn; now rewrite app_nil_r|].
  inversion H as [|? ? Hi Hx]; subst. cbn [fst] in Hi. destruct (append_at_right l i x Hi) as (l1 & E & L & N). rewrite E. cbn [bind].
  destruct (IH l1) as (l2 & E2 & L2 & N2); [rewrite L; assumption|]. exists l2. split; [assumption|]. split; [lia|]. intros j. rewrite N2, N.
  rewrite <- app_assoc. f_equal. cbn [filter fst]. rewrite (Z.eqb_sym i). destruct (Z.of_nat j =? i); reflexivity.
Qed.
End Lists.

Lemma flat_map_one {B} (f : nat -> list B) n k0 : (k0 < n)%nat -> (forall k, (k < n)%nat -> k <> k0 -> f k = []) -> flat_map f (seq 0 n) = f k0.
Proof.
  intros H E. assert (G : forall m, (m <= n)%nat -> flat_map f (seq 0 m) = if (k0 <? m)%nat then f k0 else []).
  { induction m as [|m IH]; intros Hm; [reflexivity|]. rewrite seq_S, flat_map_app, IH by lia. cbn [Nat.add flat_map]. rewrite app_nil_r.
    destruct (Nat.eq_dec m k0) as [->|N].
    - replace (k0 <? k0)%nat with false by lia. now replace (k0 <? S k0)%nat with true by lia.
    - rewrite (E m ltac:(lia) N), app_nil_r. destruct (Nat.ltb_spec k0 m) as [L|L]; [now replace (k0 <? S m)%nat with true by lia|].
      now replace (k0 <? S m)%nat with false by lia. }
  rewrite G by lia. now replace (k0 <? n)%nat with true by lia.
Qed.
Lemma filter_flat_map {B C} (p : C -> bool) (f : B -> list C) l : filter p (flat_map f l) = flat_map (fun x => filter p (f x)) l.
Proof. induction l as [|x l IH]; [reflexivity|]. cbn [flat_map]. now rewrite filter_app, IH. Qed.
Lemma map_flat_map {B C D} (g : C -> D) (f : B -> list C) l : map g (flat_map f l) = flat_map (fun x => map g (f x)) l.
Proof. induction l as [|x l IH]; [reflexivity|]. cbn [flat_map]. now rewrite map_app, IH. Qed.
Lemma flat_map_map {B C D} (f : C -> list D) (g : B -> C) l : flat_map f (map g l) = flat_map (fun x => f (g x)) l.
Proof. induction l as [|x l IH]; [reflexivity|]. cbn [map flat_map]. now rewrite IH. Qed.
Lemma flat_map_nil {B C} (f : B -> list C) l : (forall x, In x l -> f x = []) -> flat_map f l = [].
Proof. induction l as [|x l IH]; intros H; [reflexivity|]. cbn [flat_map]. rewrite H by now left. apply IH. intros y Hy. apply H. now right. Qed.
Lemma flat_map_ext_in' {B C} (f g : B -> list C) l : (forall x, In x l -> f x = g x) -> flat_map f l = flat_map g l.
Proof. induction l as [|x l IH]; intros H; [reflexivity|]. cbn [flat_map]. rewrite H by now left. rewrite IH; [reflexivity|]. intros y Hy. apply H. now right. Qed.

Section Walk.
Variable types : nat.
Variable walk_length : nat.
Variable start : nat -> list Z.
Variable hop : nat -> nat -> list Z -> list (Z * Z).
Variable negs : nat -> nat -> list Z.
Notation nodes_after := (nodes_after start hop).
Notation visit := (visit start hop).
Notation pairs_of := (pairs_of walk_length start hop).
Notation rows := (rows walk_length start hop).
Notation good_hops := (good_hops types hop).

Lemma hops_right k n : forall h, hops hop k h n (nodes_after k h) = map (fun m => hop k m (nodes_after k m)) (seq h n).
Proof.
  induction n as [|n IH]; intros h; [reflexivity|]. cbn [hops seq map]. f_equal. exact (IH (S h)).
Qed.
Lemma rows_right k : rows k = map (fun j => (nth j (start k) 0, Z.of_nat k) :: map (fun h => visit k h j) (seq 0 walk_length)) (seq 0 (length (start k))).
Proof.
  unfold HetModel.rows. apply map_ext_in. intros j Hj. apply in_seq in Hj. cbn [map]. f_equal.
  - rewrite (nth_indep _ (0, 0) ((fun c => (c, Z.of_nat k)) 0)) by (rewrite map_length; lia). now rewrite (map_nth (fun c => (c, Z.of_nat k))).
  - change (start k) with (nodes_after k 0) at 1. rewrite hops_right, map_map. reflexivity.
Qed.
Lemma after_length k h : good_hops -> (k < types)%nat -> length (nodes_after k h) = length (start k).
Proof.
  intros G H. induction h as [|h IH]; [reflexivity|]. cbn [HetSpec.nodes_after]. rewrite map_length. destruct (G k h (nodes_after k h) H) as [L _]. now rewrite L.
Qed.
Lemma visit_type k h j : good_hops -> (k < types)%nat -> (j < length (start k))%nat -> -1 <= snd (visit k h j) < Z.of_nat types.
Proof.
  intros G H Hj. destruct (G k h (nodes_after k h) H) as [L F]. unfold HetSpec.visit. rewrite Forall_forall in F. apply F. apply nth_In.
  rewrite L, after_length by assumption. exact Hj.
Qed.

Definition events (k : nat) : list (Z * triple) := flat_map (row_triples types) (rows k).
Lemma events_right k : events k = flat_map (fun j => flat_map (fun h => if snd (visit k h j) =? -1 then [] else
   [(Z.of_nat k * Z.of_nat types + snd (visit k h j), (nth j (start k) 0, fst (visit k h j), 0))]) (seq 0 walk_length)) (seq 0 (length (start k))).
Proof. unfold events. rewrite rows_right, flat_map_map. apply flat_map_ext. intros j. cbn [row_triples]. now rewrite flat_map_map. Qed.
Lemma events_index k x : good_hops -> (k < types)%nat -> In x (events k) -> Z.of_nat k * Z.of_nat types <= fst x < (Z.of_nat k + 1) * Z.of_nat types.
Proof.
  intros G H I. rewrite events_right in I. apply in_flat_map in I as (j & Hj & I). apply in_flat_map in I as (h & _ & I). apply in_seq in Hj.
  pose proof (visit_type k h j G H ltac:(lia)) as V. destruct (Z.eqb_spec (snd (visit k h j)) (-1)) as [E|N]; [destruct I|]. destruct I as [<-|[]]. cbn [fst]. lia.
Qed.
Lemma filter_events k pt : good_hops -> (k < types)%nat -> (pt < types)%nat ->
  map (fun x => (fst (fst (snd x)), snd (fst (snd x)))) (filter (fun x => fst x =? Z.of_nat (k * types + pt)) (events k)) = pairs_of k (Z.of_nat pt).
Proof.
  intros G H Hp. rewrite events_right. unfold HetSpec.pairs_of. rewrite filter_flat_map, map_flat_map. apply flat_map_ext_in'. intros j Hj. apply in_seq in Hj.
  rewrite filter_flat_map, map_flat_map. apply flat_map_ext_in'. intros h _. pose proof (visit_type k h j G H ltac:(lia)) as V.
  destruct (Z.eqb_spec (snd (visit k h j)) (-1)) as [E|N]; [rewrite E; replace (-1 =? Z.of_nat pt) with false by lia; reflexivity|].
  cbn [filter fst]. destruct (Z.eqb_spec (snd (visit k h j)) (Z.of_nat pt)) as [E|N2].
  - rewrite E. replace (Z.of_nat k * Z.of_nat types + Z.of_nat pt =? Z.of_nat (k * types + pt)) with true by lia. reflexivity.
  - replace (Z.of_nat k * Z.of_nat types + snd (visit k h j) =? Z.of_nat (k * types + pt)) with false by lia. reflexivity.
Qed.
Lemma filter_other k k0 pt : good_hops -> (k < types)%nat -> (k0 < types)%nat -> (pt < types)%nat -> k <> k0 ->
  filter (fun x => fst x =? Z.of_nat (k0 * types + pt)) (events k) = [].
Proof.
  intros G H H0 Hp N. pose proof (events_index k) as EI. induction (events k) as [|x l IH]; [reflexivity|]. cbn [filter].
  pose proof (EI x G H (or_introl eq_refl)) as B. assert (E : (fst x =? Z.of_nat (k0 * types + pt)) = false).
  { apply Z.eqb_neq. intros E. rewrite E, Nat2Z.inj_add, Nat2Z.inj_mul in B. assert (k < k0 \/ k0 < k)%nat as [L|L] by lia; nia. }
  rewrite E. apply IH. intros y G' H' I. apply EI; [assumption|assumption|now right].
Qed.
Lemma combine_third (l : list triple) ns : length ns = length l ->
  let r := map (fun x : triple * Z => (fst (fst (fst x)), snd (fst (fst x)), snd x)) (combine l ns) in
  map fst r = map fst l /\ map snd r = ns.
Proof.
  revert ns. induction l as [|[[a b] c] l IH]; intros [|n ns] H; cbn in H; try lia; [split; reflexivity|]. destruct (IH ns ltac:(lia)) as [I1 I2]. cbv zeta in *.
  cbn [combine map fst snd]. split; [now rewrite I1|now rewrite I2].
Qed.
Lemma nth_combine_seq {B C} (f : nat -> B -> C) (l : list B) (d : C) (b : B) i : (i < length l)%nat ->
  nth i (map (fun x => f (fst x) (snd x)) (combine (seq 0 (length l)) l)) d = f i (nth i l b).
Proof.
  intros H. rewrite (nth_indep _ d ((fun x => f (fst x) (snd x)) (0%nat, b))) by (rewrite map_length, combine_length, seq_length; lia).
  rewrite (map_nth (fun x => f (fst x) (snd x))), combine_nth by apply seq_length. cbn [fst snd]. now rewrite seq_nth.
Qed.

Lemma generate_right : good_hops -> good_negs negs ->
  exists out, generate types walk_length start hop negs = Ok out /\ length out = (types * types)%nat /\
  forall ct pt, (ct < types)%nat -> (pt < types)%nat ->
    let l := nth (ct * types + pt) out [] in
    map fst l = pairs_of ct (Z.of_nat pt) /\ (map snd l = negs (ct * types + pt) (length l) \/ l = []).
Proof.
  intros G GN. unfold generate. change (flat_map (fun k => flat_map (row_triples types) (rows k)) (seq 0 types)) with (flat_map events (seq 0 types)).
  destruct (append_all_right (flat_map events (seq 0 types)) (repeat [] (types * types))) as (l & E & L & N).
  { apply Forall_forall. intros x I. apply in_flat_map in I as (k & Hk & I). apply in_seq in Hk. pose proof (events_index k x G ltac:(lia) I). rewrite repeat_length. nia. }
  rewrite E. cbn [bind]. rewrite repeat_length in L. eexists. split; [reflexivity|]. split; [rewrite map_length, combine_length, seq_length; lia|].
  intros ct pt Hc Hp. assert (I : (ct * types + pt < types * types)%nat) by nia. cbv zeta.
  assert (NC : nth (ct * types + pt) (map (fun x => set_negatives negs (fst x) (snd x)) (combine (seq 0 (types * types)) l)) [] = set_negatives negs (ct * types + pt) (nth (ct * types + pt) l []))
    by (rewrite <- L; apply (nth_combine_seq (set_negatives negs)); lia). rewrite NC.
  assert (P : map (fun x : triple => fst x) (nth (ct * types + pt) l []) = pairs_of ct (Z.of_nat pt)).
  { rewrite N. rewrite nth_repeat. cbn [app]. rewrite <- (filter_events ct pt G Hc Hp), map_map.
    rewrite filter_flat_map, (flat_map_one _ types ct Hc); [apply map_ext; intros [i [[a b] c]]; reflexivity|]. intros k Hk Nk. now apply filter_other. }
  unfold set_negatives. destruct (Nat.ltb_spec 0 (length (nth (ct * types + pt) l []))) as [Z0|Z0].
  - destruct (combine_third (nth (ct * types + pt) l []) (negs (ct * types + pt) (length (nth (ct * types + pt) l []))) (GN _ _)) as [C1 C2]. cbv zeta in C1, C2.
    split; [exact (eq_trans C1 P)|]. left. refine (eq_trans C2 _). f_equal. rewrite map_length, combine_length, GN. lia.
  - split; [exact P|]. right. destruct (nth (ct * types + pt) l []); [reflexivity|cbn in Z0; lia].
Qed.

(** How many triples there are. *)
Lemma sum_types (P : nat -> Z) hs : (forall h, In h hs -> -1 <= P h < Z.of_nat types) ->
  fold_right plus 0%nat (map (fun pt => length (filter (fun h => P h =? Z.of_nat pt) hs)) (seq 0 types)) = length (filter (fun h => negb (P h =? -1)) hs).
Proof.
  induction hs as [|h hs IH]; intros H.
  - cbn [filter length]. clear. induction (seq 0 types); [reflexivity|exact IHl].
  - assert (IH' := IH (fun x Hx => H x (or_intror Hx))). pose proof (H h (or_introl eq_refl)) as B. cbn [filter].
    assert (Sn : forall n s, fold_right plus 0%nat (map (fun pt => length (if (P h =? Z.of_nat pt)%Z then h :: filter (fun x => (P x =? Z.of_nat pt)%Z) hs else filter (fun x => (P x =? Z.of_nat pt)%Z) hs)) (seq s n)) =
      Nat.add (fold_right plus 0%nat (map (fun pt => length (filter (fun x => (P x =? Z.of_nat pt)%Z) hs)) (seq s n))) (if (Z.of_nat s <=? P h)%Z && (P h <? Z.of_nat (s + n))%Z then 1%nat else 0%nat)).
    { induction n as [|n IHn]; intros s; cbn [seq map fold_right]; [replace ((Z.of_nat s <=? P h) && (P h <? Z.of_nat (s + 0))) with false by lia; reflexivity|].
      rewrite IHn. destruct (Z.eqb_spec (P h) (Z.of_nat s)) as [E|N]; cbn [length].
      - replace ((Z.of_nat (S s) <=? P h) && (P h <? Z.of_nat (S s + n))) with false by lia. replace ((Z.of_nat s <=? P h) && (P h <? Z.of_nat (s + S n))) with true by lia. lia.
      - replace ((Z.of_nat s <=? P h) && (P h <? Z.of_nat (s + S n))) with ((Z.of_nat (S s) <=? P h) && (P h <? Z.of_nat (S s + n))) by lia. lia. }
    rewrite Sn, IH'. destruct (Z.eqb_spec (P h) (-1)) as [E|N]; cbn [negb].
    + rewrite E. replace ((Z.of_nat 0 <=? -1) && (-1 <? Z.of_nat (0 + types))) with false by lia. lia.
    + replace ((Z.of_nat 0 <=? P h) && (P h <? Z.of_nat (0 + types))) with true by lia. cbn [length]. lia.
Qed.
Lemma pairs_length k pt : length (pairs_of k pt) = fold_right plus 0%nat (map (fun j => length (filter (fun h => snd (visit k h j) =? pt) (seq 0 walk_length))) (seq 0 (length (start k)))).
Proof.
  unfold HetSpec.pairs_of. induction (seq 0 (length (start k))) as [|j l IH]; [reflexivity|]. cbn [flat_map map fold_right]. rewrite app_length, IH. f_equal. clear IH.
  induction (seq 0 walk_length) as [|h hs IHh]; [reflexivity|]. cbn [flat_map filter]. rewrite app_length, IHh. now destruct (snd (visit k h j) =? pt).
Qed.
Lemma sum_swap (f : nat -> nat -> nat) l1 l2 : fold_right plus 0%nat (map (fun a => fold_right plus 0%nat (map (f a) l2)) l1) = fold_right plus 0%nat (map (fun b => fold_right plus 0%nat (map (fun a => f a b) l1)) l2).
Proof.
  induction l1 as [|a l1 IH]; cbn [map fold_right].
  - induction l2 as [|b l2 IH]; [reflexivity|exact IH].
  - rewrite IH. clear. induction l2 as [|b l2 IH]; [reflexivity|]. cbn [map fold_right]. lia.
Qed.
Lemma found_right k : good_hops -> (k < types)%nat ->
  fold_right plus 0%nat (map (fun pt => length (pairs_of k (Z.of_nat pt))) (seq 0 types)) = found walk_length start hop k.
Proof.
  intros G H. rewrite (map_ext _ _ (fun pt => pairs_length k (Z.of_nat pt))).
  rewrite (sum_swap (fun pt j => length (filter (fun h => snd (visit k h j) =? Z.of_nat pt) (seq 0 walk_length)))).
  unfold found. assert (B : forall j, In j (seq 0 (length (start k))) -> (j < length (start k))%nat) by (intros j Hj; apply in_seq in Hj; lia).
  induction (seq 0 (length (start k))) as [|j l IH]; [reflexivity|]. cbn [map fold_right flat_map]. rewrite app_length.
  rewrite (sum_types (fun h => snd (visit k h j)) (seq 0 walk_length)) by (intros h _; apply visit_type; [assumption|assumption|apply B; now left]).
  f_equal. apply IH. intros x Hx. apply B. now right.
Qed.

(** Walks that end stay ended. *)
Lemma visit_node k h j : (j < length (hop k h (nodes_after k h)))%nat -> nth j (nodes_after k (S h)) 0 = fst (visit k h j).
Proof. intros H. cbn [HetSpec.nodes_after]. unfold HetSpec.visit. rewrite (nth_indep _ 0 (fst (0, 0))) by (rewrite map_length; assumption). now rewrite map_nth. Qed.
Lemma dead_right k j : good_hops -> dead_ends hop -> (k < types)%nat -> (j < length (start k))%nat ->
  forall h m, fst (visit k h j) = -1 -> (h < m)%nat -> visit k m j = (-1, -1).
Proof.
  intros G D H Hj h m E L. induction m as [|m IH]; [lia|]. unfold HetSpec.visit at 1. apply D; [rewrite after_length by assumption; exact Hj|].
  destruct (G k m (nodes_after k m) H) as [LE _]. rewrite visit_node by (rewrite LE, after_length by assumption; exact Hj).
  destruct (Nat.eq_dec h m) as [->|N]; [exact E|]. rewrite IH by lia. reflexivity.
Qed.
End Walk.

(** ** Batches *)
Lemma batches_right b n : 0 < b -> forall fuel, (Z.to_nat n <= fuel)%nat -> batches fuel n b = Ok (Z.to_nat ((n + b - 1) / b)).
Proof.
  intros Hb fuel. revert n. induction fuel as [|f IH]; intros n H; cbn [batches].
  - replace (n <=? 0) with true by lia. assert ((n + b - 1) / b < 1) by (apply Z.div_lt_upper_bound; lia). f_equal. lia.
  - destruct (Z.leb_spec n 0) as [L|L].
    + assert ((n + b - 1) / b < 1) by (apply Z.div_lt_upper_bound; lia). f_equal. lia.
    + rewrite IH by lia. cbn [bind]. f_equal. replace (n + b - 1) with ((n - b + b - 1) + 1 * b) by lia. rewrite Z.div_add by lia.
      assert (0 <= (n - b + b - 1) / b) by (apply Z.div_pos; lia). lia.
Qed.
Lemma len_right b n : 0 < b -> 0 <= n -> sampler_len n b = (n + b - 1) / b.
Proof. intros Hb Hn. unfold sampler_len. apply Z.quot_div_nonneg; lia. Qed.

(** ** The loss *)
Lemma dot_zeros d v : (dot (repeat 0%Q d) v == 0)%Q.
Proof.
  unfold dot. revert v. induction d as [|d IH]; intros [|x v]; cbn [repeat combine map fold_right]; try reflexivity. rewrite IH. cbn [fst snd]. ring.
Qed.
Lemma qsum_app a b : (qsum (a ++ b) == qsum a + qsum b)%Q.
Proof. unfold qsum. induction a as [|x a IH]; cbn [app fold_right]; [ring|rewrite IH; ring]. Qed.
Section Loss.
Variable ls : Q -> Q.
Hypothesis proper : forall x y, (x == y)%Q -> (ls x == ls y)%Q.
Definition empty_loss : Q := (- (ls 0 + ls 0))%Q.
Lemma pad_sum d n : (qsum (map (fun x : vec * vec * vec => - (ls (snd (out_pair x)) + ls (fst (out_pair x)))) (repeat (repeat 0%Q d, repeat 0%Q d, repeat 0%Q d) n)) == inject_Z (Z.of_nat n) * empty_loss)%Q.
Proof.
  induction n as [|n IH]; cbn [repeat map]; [cbn; ring|]. unfold qsum in *. cbn [fold_right]. rewrite IH. rewrite Nat2Z.inj_succ, <- Z.add_1_r, inject_Z_plus.
  unfold out_pair. cbn [fst snd]. assert (E1 : (ls (dot (repeat 0%Q d) (repeat 0%Q d)) == ls 0)%Q) by (apply proper, dot_zeros).
  assert (E2 : (ls (- dot (repeat 0%Q d) (repeat 0%Q d)) == ls 0)%Q) by (apply proper; rewrite dot_zeros; reflexivity). rewrite E1, E2. unfold empty_loss. change (inject_Z 1) with 1%Q. ring.
Qed.
Lemma list_sum d size l : (qsum (map (fun x : vec * vec * vec => - (ls (snd (out_pair x)) + ls (fst (out_pair x)))) (padded d size l)) ==
  qsum (map (triple_loss ls) l) + inject_Z (Z.of_nat (size - length l)) * empty_loss)%Q.
Proof. unfold padded. rewrite map_app, qsum_app, pad_sum. reflexivity. Qed.
Definition missing (size : nat) (embs : list (list (vec * vec * vec))) : nat := fold_right plus 0%nat (map (fun l => size - length l)%nat embs).
Lemma all_sum d size embs : (qsum (map (fun x : vec * vec * vec => - (ls (snd (out_pair x)) + ls (fst (out_pair x)))) (concat (map (padded d size) embs))) ==
  qsum (map (triple_loss ls) (concat embs)) + inject_Z (Z.of_nat (missing size embs)) * empty_loss)%Q.
Proof.
  induction embs as [|l embs IH]; cbn [map concat missing fold_right]; [cbn; ring|]. rewrite !map_app, !qsum_app, IH, list_sum.
  fold (missing size embs). rewrite Nat2Z.inj_add, inject_Z_plus. ring.
Qed.
Lemma max_len_le {A} (l : list (list A)) x : In x l -> (length x <= max_len l)%nat.
Proof. unfold max_len. induction l as [|y l IH]; intros []; cbn [map fold_right]; [subst; lia|]. specialize (IH H). lia. Qed.
Lemma all_length d size embs : (forall x, In x embs -> (length x <= size)%nat) -> length (concat (map (padded d size) embs)) = (length embs * size)%nat.
Proof.
  induction embs as [|l embs IH]; intros H; [reflexivity|]. cbn [map concat length]. rewrite app_length, IH by (intros x Hx; apply H; now right).
  unfold padded. rewrite app_length, repeat_length. specialize (H l (or_introl eq_refl)). lia.
Qed.
Lemma loss_right d embs : embs <> [] -> (0 < max_len embs)%nat ->
  (fst (het_forward ls d embs) * inject_Z (Z.of_nat (length embs * max_len embs)) ==
   qsum (map (triple_loss ls) (concat embs)) + inject_Z (Z.of_nat (missing (max_len embs) embs)) * empty_loss)%Q.
Proof.
  intros N H. unfold het_forward. cbn [fst]. unfold qmean. rewrite map_length, all_length by (intros; now apply max_len_le). fold (qsum (map (fun x : vec * vec * vec => - (ls (snd (out_pair x)) + ls (fst (out_pair x))))%Q (concat (map (padded d (max_len embs)) embs)))).
  rewrite all_sum. field. intros E. unfold Qeq, inject_Z in E. cbn [Qnum Qden] in E. destruct embs; [congruence|]. cbn [length] in *. nia.
Qed.
Lemma missing_none size embs : Forall (fun l => length l = size) embs -> missing size embs = 0%nat.
Proof. unfold missing. induction 1 as [|l embs H _ IH]; [reflexivity|]. cbn [map fold_right]. lia. Qed.
Lemma concat_length size (embs : list (list (vec * vec * vec))) : Forall (fun l => length l = size) embs -> length (concat embs) = (length embs * size)%nat.
Proof. induction 1 as [|l embs H _ IH]; [reflexivity|]. cbn [concat length]. rewrite app_length, IH. lia. Qed.
Lemma max_len_const {A} size (l : list (list A)) : l <> [] -> Forall (fun x => length x = size) l -> max_len l = size.
Proof.
  intros N H. unfold max_len. induction H as [|x l Hx HF IH]; [congruence|]. cbn [map fold_right]. destruct l as [|y l]; [cbn; lia|]. rewrite IH by discriminate. lia.
Qed.
Lemma loss_mean d size embs : embs <> [] -> (0 < size)%nat -> Forall (fun l => length l = size) embs ->
  (fst (het_forward ls d embs) == qmean (map (triple_loss ls) (concat embs)))%Q.
Proof.
  intros N H F. pose proof (max_len_const size embs N F) as M. pose proof (loss_right d embs N ltac:(lia)) as L. rewrite M, (missing_none size embs F) in L.
  unfold qmean. rewrite map_length, (concat_length size embs F). fold (qsum (map (triple_loss ls) (concat embs))).
  assert (NZ : ~ (inject_Z (Z.of_nat (length embs * size)) == 0)%Q). { intros E. unfold Qeq, inject_Z in E. cbn [Qnum Qden] in E. destruct embs; [congruence|]. cbn [length] in E. nia. }
  apply (Qmult_inj_r _ _ (inject_Z (Z.of_nat (length embs * size))) NZ). rewrite L. change (inject_Z (Z.of_nat 0)) with 0%Q. field. exact NZ.
Qed.
End Loss.
Lemma batches_len n b fuel : 0 <= n -> 0 < b -> (Z.to_nat n <= fuel)%nat ->
  exists k, batches fuel n b = Ok k /\ sampler_len n b = Z.of_nat k /\ n <= Z.of_nat k * b < n + b.
Proof.
  intros Hn Hb F. eexists. split; [now apply batches_right|]. rewrite len_right by assumption.
  assert (P : 0 <= (n + b - 1) / b) by (apply Z.div_pos; lia). rewrite Z2Nat.id by exact P. split; [reflexivity|].
  pose proof (Z.div_mod (n + b - 1) b ltac:(lia)). pose proof (Z.mod_pos_bound (n + b - 1) b Hb). nia.
Qed.
Lemma missing_right size (embs : list (list (vec * vec * vec))) : (forall x, In x embs -> (length x <= size)%nat) ->
  (missing size embs + length (concat embs) = length embs * size)%nat.
Proof.
  unfold missing. induction embs as [|l embs IH]; intros H; [reflexivity|]. cbn [map fold_right concat length]. rewrite app_length.
  pose proof (IH (fun x Hx => H x (or_intror Hx))). specialize (H l (or_introl eq_refl)). lia.
Qed.
Lemma loss_total (ls : Q -> Q) : (forall x y, (x == y)%Q -> (ls x == ls y)%Q) -> forall d embs, embs <> [] -> (0 < max_len embs)%nat ->
  (fst (het_forward ls d embs) * inject_Z (Z.of_nat (length embs * max_len embs)) ==
   qsum (map (triple_loss ls) (concat embs)) + inject_Z (Z.of_nat (length embs * max_len embs - length (concat embs))) * - (ls 0 + ls 0))%Q.
Proof.
  intros P d embs N H. rewrite (loss_right ls P d embs N H). pose proof (missing_right (max_len embs) embs (fun x Hx => max_len_le embs x Hx)) as M.
  replace (length embs * max_len embs - length (concat embs))%nat with (missing (max_len embs) embs) by lia. reflexivity.
Qed.
Lemma loss_mean_qsum (ls : Q -> Q) : (forall x y, (x == y)%Q -> (ls x == ls y)%Q) -> forall d size embs, embs <> [] -> (0 < size)%nat -> Forall (fun l => length l = size) embs ->
  (fst (het_forward ls d embs) == qsum (map (triple_loss ls) (concat embs)) / inject_Z (Z.of_nat (length (concat embs))))%Q.
Proof. intros P d size embs N H F. rewrite (loss_mean ls P d size embs N H F). unfold qmean. rewrite map_length. reflexivity. Qed.
Lemma scores_right (ls : Q -> Q) d embs i j x : nth_error (nth i embs []) j = Some x ->
  nth_error (snd (het_forward ls d embs)) (i * max_len embs + j) = Some (- dot (fst (fst x)) (snd x), dot (fst (fst x)) (snd (fst x)))%Q.
Proof.
  intros E. unfold het_forward. cbn [snd]. assert (M : forall size, (forall y, In y embs -> (length y <= size)%nat) -> nth_error (concat (map (padded d size) embs)) (i * size + j) = Some x).
  { intros size. revert i E. induction embs as [|l embs IH]; intros i E H; [destruct i, j; discriminate|]. cbn [map concat].
    assert (LP : length (padded d size l) = size) by (unfold padded; rewrite app_length, repeat_length; specialize (H l (or_introl eq_refl)); lia).
    destruct i as [|i]; cbn [nth] in E.
    - assert (J : (j < length l)%nat) by (apply nth_error_Some; congruence). cbn [Nat.mul Nat.add]. rewrite nth_error_app1 by (rewrite LP; specialize (H l (or_introl eq_refl)); lia).
      unfold padded. rewrite nth_error_app1 by assumption. exact E.
    - rewrite nth_error_app2 by (rewrite LP; lia). rewrite LP. replace (S i * size + j - size)%nat with (i * size + j)%nat by lia. apply IH; [exact E|]. intros y Hy. apply H. now right. }
  apply (map_nth_error out_pair). apply M. intros y Hy. now apply max_len_le.
Qed.
Lemma loss_order (ls : Q -> Q) : (forall x y, (x < y)%Q -> (ls x < ls y)%Q) -> (forall x y, (x == y)%Q -> (ls x == ls y)%Q) -> forall a b c d e f : vec,
  (dot d e < dot a b)%Q -> (dot a c <= dot d f)%Q -> (triple_loss ls (a, b, c) < triple_loss ls (d, e, f))%Q.
Proof.
  intros I P a b c d e f H1 H2. unfold triple_loss. cbn [fst snd]. pose proof (I _ _ H1) as L1.
  assert (L2 : (ls (- dot d f) <= ls (- dot a c))%Q).
  { apply Qle_lteq in H2 as [H2|H2]; [apply Qlt_le_weak, I; lra|]. rewrite (P (- dot d f)%Q (- dot a c)%Q) by (rewrite H2; reflexivity). apply Qle_refl. }
  lra.
Qed.
Lemma padding_wrong (ls : Q -> Q) : ~ (ls 1 == ls 0)%Q -> exists d embs, Forall (fun l => (length l <= 1)%nat) embs /\ length (concat embs) = 1%nat /\
  ~ (fst (het_forward ls d embs) == qsum (map (triple_loss ls) (concat embs)) / inject_Z (Z.of_nat (length (concat embs))))%Q.
Proof.
  intros N. exists 1%nat, [[([1%Q], [1%Q], [(-1)%Q])]; []]. split; [repeat constructor|]. split; [reflexivity|]. intros E. apply N.
  assert (E1 : (fst (het_forward ls 1 [[([1%Q], [1%Q], [(-1)%Q])]; []]) == (- (ls 1 + ls 1) + (- (ls 0 + ls 0) + 0)) / 2)%Q) by reflexivity.
  rewrite E1 in E. assert (E2 : (qsum (map (triple_loss ls) (concat [[([1%Q], [1%Q], [(-1)%Q])]; []])) / inject_Z (Z.of_nat (length (concat [[([1%Q], [1%Q], [(-1)%Q])]; []]))) == (- (ls 1 + ls 1) + 0) / 1)%Q) by reflexivity.
  rewrite E2 in E. unfold Qdiv in E. change (/ 2)%Q with (1 # 2)%Q in E. change (/ 1)%Q with 1%Q in E. lra.
Qed.
