(** Proofs about the graph interface. *)
From Verif Require Import Base GraphModel ConvertProofs FacadeModel FacadeSpec.
From Coq Require Import Sorting.Sorted.
Local Open Scope Z_scope.

Lemma nth_concat_rows {A} (rows : list (list A)) k i j d : Forall (fun r => length r = k) rows -> (i < length rows)%nat -> (j < k)%nat ->
  nth_error (concat rows) (i * k + j) = Some (nth j (nth i rows []) d).
Proof.
  intros H. revert i. induction H as [|r t E Ht IH]; intros i Hi Hj; [cbn in Hi; lia|]. cbn [concat]. destruct i as [|i].
  - cbn [nth Nat.mul Nat.add]. rewrite nth_error_app1 by lia. apply nth_error_nth'. lia.
  - cbn [nth]. rewrite nth_error_app2 by nia. replace (S i * k + j - length r)%nat with (i * k + j)%nat by nia. apply IH; [cbn in Hi; lia|exact Hj].
Qed.
Lemma concat_rows_length {A} (rows : list (list A)) k : Forall (fun r => length r = k) rows -> length (concat rows) = (length rows * k)%nat.
Proof. intros H. induction H as [|r t E Ht IH]; [reflexivity|]. cbn [concat length]. rewrite app_length, IH. lia. Qed.
Lemma repeat_ids {A} (v : A) k : flat_map (fun v => repeat (Some v) k) [v] = repeat (Some v) k.
Proof. cbn. apply app_nil_r. Qed.

Section Proofs.
Context {W : Type}.
Variable engine : strategy -> request -> list (list (option (edge W))).
Variable temporal : bool.

Lemma column_holds {A} (f : edge W -> A) d n count rows : length rows = n -> Forall (fun r => length r = count) rows ->
  exists a, column f d n count rows = Ok a /\ holds a n count (fun i j => cell_of f d (slot rows i j)).
Proof.
  intros Hn H. unfold column. rewrite map_length, (concat_rows_length rows count H), Hn, Nat.ltb_irrefl, Nat.sub_diag. cbn [repeat]. rewrite app_nil_r.
  eexists. split; [reflexivity|]. split; [reflexivity|]. cbn [a_cells]. split; [rewrite map_length, (concat_rows_length rows count H); lia|].
  intros i j Hi Hj. rewrite nth_error_map, (nth_concat_rows rows count i j None H) by lia. reflexivity.
Qed.
Lemma full_holds {A} n count (a : A) : holds (full [n; count] a) n count (fun _ _ => a).
Proof.
  unfold full, holds. cbn [a_shape a_cells fold_right]. rewrite Nat.mul_1_r. split; [reflexivity|]. split; [apply repeat_length|].
  intros i j Hi Hj. assert (L : (i * count + j < n * count)%nat) by nia.
  rewrite (nth_error_nth' _ (Some a)) by (rewrite repeat_length; exact L). now rewrite nth_repeat.
Qed.
Lemma read_given nodes ts : match ts with Some l => length l = length nodes | None => True end ->
  exists ts', read_ts nodes ts = Ok ts' /\ (nodes <> [] -> ts' = ts) /\ (ts <> None -> nodes <> [] -> ts' <> None).
Proof.
  intros H. unfold read_ts. destruct ts as [[|x l]|]; cbn [given].
  - exists None. split; [reflexivity|]. destruct nodes; [split; intros; tauto|discriminate].
  - rewrite H, Nat.ltb_irrefl. exists (Some (x :: l)). split; [reflexivity|]. split; [reflexivity|discriminate].
  - exists None. split; [reflexivity|]. split; [reflexivity|congruence].
Qed.
Lemma asked_sorted nodes types count ts ret (ts' : option (list Z)) : (nodes <> [] -> ts' = ts) -> asked nodes types count ts (Request nodes (make_sorted_list types) count ts' ret).
Proof. intros H. split; [reflexivity|]. split; [reflexivity|]. split; [apply make_sorted_sorted|]. split; [apply make_sorted_in|exact H]. Qed.
Lemma checked types : (forall t, types <> TOther t) -> check_types types = Ok (list_of types).
Proof. intros H. destruct types; [reflexivity|reflexivity|exfalso; eapply H; reflexivity]. Qed.

Hypothesis E : answers engine.

Lemma answer s nodes types count dn dw dt ts ret : callable s temporal nodes ts ret -> (forall t, types <> TOther t) ->
  exists q r, asked nodes (list_of types) count ts q /\ (s <> SPpr -> q_ret q = ret) /\
  sample_neighbors engine temporal s (Nodes [length nodes] nodes) types count dn dw dt ts ret = Ok r /\
  let rows := engine s q in
  holds (o_ids r) (length nodes) count (fun i j => cell_of e_id dn (slot rows i j)) /\
  (s <> SRandom -> s <> SWithout -> holds (o_w r) (length nodes) count (fun i j => cell_of e_w dw (slot rows i j))) /\
  (s <> SPpr -> (s = SByWeight -> dt = -1) -> holds (o_types r) (length nodes) count (fun i j => cell_of e_type dt (slot rows i j))) /\
  (s <> SPpr -> ret = true -> exists c, o_ts r = Some c /\ holds c (length nodes) count (fun i j => cell_of e_ts (-1) (slot rows i j))) /\
  (s <> SLastN -> s = SPpr \/ ret = false -> exists c, o_ts r = Some c /\ holds c (length nodes) count (fun _ _ => -1)).
Proof using E.
  intros (NT & HL & HR & HN & HU) HT. pose proof (checked types HT) as CT. destruct (read_given nodes ts HL) as (ts' & R & R1 & R2).
  pose proof (fun rt => asked_sorted nodes (list_of types) count ts rt ts' R1) as Q.
  assert (G : forall rt st, let q := Request nodes (make_sorted_list (list_of types)) count ts' rt in
            length (engine st q) = length nodes /\ Forall (fun r => length r = count) (engine st q)) by (intros rt st q; exact (E st q)).
  destruct s.
  - (* by weight *)
    specialize (G ret SByWeight). destruct G as [G1 G2]. eexists. cbn [sample_neighbors]. rewrite CT. cbn [bind]. unfold weighted. cbn [len n_shape bind n_data].
    replace (ret && negb temporal) with false by (destruct ret; [rewrite HR by (reflexivity || discriminate); reflexivity|reflexivity]). rewrite R. cbn [bind].
    destruct (column_holds e_id dn _ count _ G1 G2) as (a & -> & Ha). destruct (column_holds e_w dw _ count _ G1 G2) as (b & -> & Hb).
    destruct (column_holds e_type (-1) _ count _ G1 G2) as (c & -> & Hc). destruct (column_holds e_ts (-1) _ count _ G1 G2) as (t & -> & Ht). cbn [bind].
    destruct ret; cbn [bind].
    + eexists. split; [apply (Q true)|]. split; [reflexivity|]. split; [reflexivity|]. cbn [o_ids o_w o_types o_ts]. split; [exact Ha|]. split; [intros _ _; exact Hb|]. split; [intros _ D; rewrite (D eq_refl); exact Hc|]. split; [intros _ _; eexists; split; [reflexivity|exact Ht]|]. intros ? [?|?]; congruence.
    + eexists. split; [apply (Q false)|]. split; [reflexivity|]. split; [reflexivity|]. cbn [o_ids o_w o_types o_ts]. split; [exact Ha|]. split; [intros _ _; exact Hb|]. split; [intros _ D; rewrite (D eq_refl); exact Hc|]. split; [discriminate|]. intros _ _. eexists. split; [reflexivity|]. rewrite (proj1 Ha). apply full_holds.
  - specialize (G ret SRandom). destruct G as [G1 G2]. eexists. cbn [sample_neighbors]. rewrite CT. cbn [bind]. unfold uniform. cbn [len n_shape bind n_data].
    replace (ret && negb temporal) with false by (destruct ret; [rewrite HR by (reflexivity || discriminate); reflexivity|reflexivity]). rewrite R. cbn [bind].
    destruct (column_holds e_id dn _ count _ G1 G2) as (a & -> & Ha).
    destruct (column_holds e_type dt _ count _ G1 G2) as (c & -> & Hc). destruct (column_holds e_ts (-1) _ count _ G1 G2) as (t & -> & Ht). cbn [bind].
    destruct ret; cbn [bind].
    + destruct ts' as [l|]; cbn [bind].
      * eexists. split; [apply (Q true)|]. split; [reflexivity|]. split; [reflexivity|]. cbn [o_ids o_w o_types o_ts]. split; [exact Ha|]. split; [congruence|]. split; [intros _ _; exact Hc|]. split; [intros _ _; eexists; split; [reflexivity|exact Ht]|]. intros ? [?|?]; congruence.
      * assert (N : nodes = []) by (destruct nodes; [reflexivity|]; exfalso; apply R2; [apply HU; tauto|discriminate|reflexivity]).
        replace (length nodes * count =? 0)%nat with true by (rewrite N; reflexivity). cbn [bind].
        eexists. split; [apply (Q true)|]. split; [reflexivity|]. split; [reflexivity|]. cbn [o_ids o_w o_types o_ts]. split; [exact Ha|]. split; [congruence|]. split; [intros _ _; exact Hc|]. split; [|intros ? [?|?]; congruence]. intros _ _. eexists. split; [reflexivity|].
        pose proof (full_holds (length nodes) count (-1)) as [F1 [F2 F3]]. split; [exact F1|]. split; [exact F2|]. intros i j Hi. rewrite N in Hi. cbn in Hi. lia.
    + eexists. split; [apply (Q false)|]. split; [reflexivity|]. split; [reflexivity|]. cbn [o_ids o_w o_types o_ts]. split; [exact Ha|]. split; [congruence|]. split; [intros _ _; exact Hc|]. split; [discriminate|]. intros _ _. eexists. split; [reflexivity|]. rewrite (proj1 Ha). apply full_holds.
  - specialize (G ret SWithout). destruct G as [G1 G2]. eexists. cbn [sample_neighbors]. rewrite CT. cbn [bind]. unfold uniform. cbn [len n_shape bind n_data].
    replace (ret && negb temporal) with false by (destruct ret; [rewrite HR by (reflexivity || discriminate); reflexivity|reflexivity]). rewrite R. cbn [bind].
    destruct (column_holds e_id dn _ count _ G1 G2) as (a & -> & Ha).
    destruct (column_holds e_type dt _ count _ G1 G2) as (c & -> & Hc). destruct (column_holds e_ts (-1) _ count _ G1 G2) as (t & -> & Ht). cbn [bind].
    destruct ret; cbn [bind].
    + destruct ts' as [l|]; cbn [bind].
      * eexists. split; [apply (Q true)|]. split; [reflexivity|]. split; [reflexivity|]. cbn [o_ids o_w o_types o_ts]. split; [exact Ha|]. split; [congruence|]. split; [intros _ _; exact Hc|]. split; [intros _ _; eexists; split; [reflexivity|exact Ht]|]. intros ? [?|?]; congruence.
      * assert (N : nodes = []) by (destruct nodes; [reflexivity|]; exfalso; apply R2; [apply HU; tauto|discriminate|reflexivity]).
        replace (length nodes * count =? 0)%nat with true by (rewrite N; reflexivity). cbn [bind].
        eexists. split; [apply (Q true)|]. split; [reflexivity|]. split; [reflexivity|]. cbn [o_ids o_w o_types o_ts]. split; [exact Ha|]. split; [congruence|]. split; [intros _ _; exact Hc|]. split; [|intros ? [?|?]; congruence]. intros _ _. eexists. split; [reflexivity|].
        pose proof (full_holds (length nodes) count (-1)) as [F1 [F2 F3]]. split; [exact F1|]. split; [exact F2|]. intros i j Hi. rewrite N in Hi. cbn in Hi. lia.
    + eexists. split; [apply (Q false)|]. split; [reflexivity|]. split; [reflexivity|]. cbn [o_ids o_w o_types o_ts]. split; [exact Ha|]. split; [congruence|]. split; [intros _ _; exact Hc|]. split; [discriminate|]. intros _ _. eexists. split; [reflexivity|]. rewrite (proj1 Ha). apply full_holds.
  - specialize (G false SPpr). destruct G as [G1 G2]. eexists. cbn [sample_neighbors]. rewrite CT. cbn [bind]. unfold ppr. cbn [len n_shape bind n_data]. rewrite R. cbn [bind].
    destruct (column_holds e_id dn _ count _ G1 G2) as (a & -> & Ha). destruct (column_holds e_w dw _ count _ G1 G2) as (b & -> & Hb). cbn [bind].
    eexists. split; [apply (Q false)|]. split; [congruence|]. split; [reflexivity|]. cbn [o_ids o_w o_types o_ts]. split; [exact Ha|]. split; [intros _ _; exact Hb|]. split; [congruence|]. split; [congruence|]. intros _ _. eexists. split; [reflexivity|]. rewrite (proj1 Ha). apply full_holds.
  - destruct (HN eq_refl) as [HW HTS]. destruct ts as [l|]; [|congruence]. cbn [sample_neighbors]. rewrite CT. cbn [bind]. unfold lastn. rewrite HW. cbn [len n_shape bind n_data negb].
    rewrite HL, Nat.eqb_refl, Nat.ltb_irrefl. cbn [negb].
    pose proof (asked_sorted nodes (list_of types) count (Some l) ret (Some l) (fun _ => eq_refl)) as Q'.
    destruct (E SLastN (Request nodes (make_sorted_list (list_of types)) count (Some l) ret)) as [G1 G2]. cbn [q_nodes q_count] in G1, G2.
    exists (Request nodes (make_sorted_list (list_of types)) count (Some l) ret).
    destruct (column_holds e_id dn _ count _ G1 G2) as (a & -> & Ha). destruct (column_holds e_w dw _ count _ G1 G2) as (b & -> & Hb).
    destruct (column_holds e_type dt _ count _ G1 G2) as (c & -> & Hc). destruct (column_holds e_ts (-1) _ count _ G1 G2) as (t & -> & Ht). cbn [bind].
    destruct ret; cbn [bind]; eexists; (split; [exact Q'|]); (split; [reflexivity|]); (split; [reflexivity|]); cbn [o_ids o_w o_types o_ts]; (split; [exact Ha|]); (split; [intros _ _; exact Hb|]); (split; [intros _ _; exact Hc|]).
    + split; [intros _ _; eexists; split; [reflexivity|exact Ht]|]. intros ? [?|?]; congruence.
    + split; [discriminate|congruence].
  - congruence.
Qed.

Lemma combine_nth_error {A B} (l : list A) (m : list B) : forall k a b, nth_error l k = Some a -> nth_error m k = Some b -> nth_error (combine l m) k = Some (a, b).
Proof. revert m. induction l as [|x l IH]; intros m k a b Ha Hb; [destruct k; discriminate|]. destruct m as [|y m]; [destruct k; discriminate|]. destruct k as [|k]; cbn in *; [congruence|now apply IH]. Qed.
Lemma sources_nth count nodes : forall i j, (i < length nodes)%nat -> (j < count)%nat ->
  nth_error (flat_map (fun v => repeat (Some v) count) nodes) (i * count + j) = Some (Some (nth i nodes 0)).
Proof.
  intros i j Hi Hj. rewrite flat_map_concat_map.
  rewrite (nth_concat_rows _ count i j None); [|apply Forall_map, Forall_forall; intros; apply repeat_length|now rewrite map_length|exact Hj].
  rewrite (nth_indep _ [] (repeat (Some 0) count)) by (now rewrite map_length). rewrite (map_nth (fun v => repeat (Some v) count)). f_equal.
  rewrite (nth_indep _ None (Some (nth i nodes 0))) by (now rewrite repeat_length). apply nth_repeat.
Qed.
Lemma assign_same {A} n (l : list (option A)) : length l = n -> assign n l = Ok l.
Proof. intros H. unfold assign. now rewrite H, Nat.eqb_refl. Qed.
Lemma out_edges zw s nodes types count : s = SByWeight \/ s = SRandom \/ s = SWithout -> (forall t, types <> TOther t) ->
  exists q l, asked nodes (list_of types) count None q /\ sample_out_edges engine temporal zw s (Nodes [length nodes] nodes) types count = Ok l /\
  length l = (length nodes * count)%nat /\
  forall i j, (i < length nodes)%nat -> (j < count)%nat -> nth_error l (i * count + j) =
    Some (Some (nth i nodes 0), Some (cell_of e_id (-1) (slot (engine s q) i j)), Some (cell_of e_type (-1) (slot (engine s q) i j))).
Proof using E.
  intros HS HT.
  assert (C : callable s temporal nodes None false) by (repeat split; try congruence; destruct HS as [->|[->| ->]]; discriminate).
  destruct (answer s nodes types count (-1) zw (-1) None false C HT) as (q & r & HQ & _ & HR & (I1 & I2 & I3) & _ & HTy & _ & _).
  destruct HTy as (T1 & T2 & T3); [destruct HS as [->|[->| ->]]; discriminate|reflexivity|].
  exists q. unfold sample_out_edges. rewrite HR. cbn [bind len n_shape]. rewrite I1, !Nat.eqb_refl. cbn [andb negb n_data].
  assert (L : length (flat_map (fun v => repeat (Some v) count) nodes) = (length nodes * count)%nat).
  { rewrite flat_map_concat_map, (concat_rows_length _ count) by (apply Forall_map, Forall_forall; intros; apply repeat_length). now rewrite map_length. }
  rewrite (assign_same _ _ L), (assign_same _ _ I2), (assign_same _ _ T2). cbn [bind]. eexists. split; [exact HQ|]. split; [reflexivity|].
  split; [rewrite !combine_length, L, I2, T2; lia|]. intros i j Hi Hj.
  apply combine_nth_error; [apply combine_nth_error|]; [now apply sources_nth|now apply I3|now apply T3].
Qed.
End Proofs.

Lemma walk_set types types' : (forall t, types <> TOther t) -> (forall t, types' <> TOther t) -> (forall t, In t (list_of types) <-> In t (list_of types')) ->
  walk_types types = walk_types types'.
Proof. intros H H' S. unfold walk_types. rewrite (checked types H), (checked types' H'). cbn [bind]. f_equal. now apply make_sorted_ext. Qed.

(** ** Counts *)
Lemma mem_in t l : mem t l = true <-> In t l.
Proof. unfold mem. rewrite existsb_exists. split; [intros (x & H & Hx); apply Z.eqb_eq in Hx; congruence|intros H; exists t; split; [exact H|apply Z.eqb_refl]]. Qed.
Lemma count_fold counts l : forall r, fold_left (fun r t => if (0 <=? t) && (t <? Z.of_nat (length counts)) then r + nth (Z.to_nat t) counts 0 else r) l r =
  r + fold_right (fun t x => (if (0 <=? t) && (t <? Z.of_nat (length counts)) then nth (Z.to_nat t) counts 0 else 0) + x) 0 l.
Proof. induction l as [|t l IH]; intros r; cbn [fold_left fold_right]; [lia|]. rewrite IH. destruct (_ && _); lia. Qed.
Lemma hits_cons ntypes t l : ~ In t l -> hits ntypes (t :: l) = Z.of_nat (length (filter (Z.eqb t) ntypes)) + hits ntypes l.
Proof.
  intros N. unfold hits. induction ntypes as [|x xs IH]; [reflexivity|]. cbn [filter]. unfold mem at 1. cbn [existsb]. fold (mem x l).
  destruct (Z.eqb_spec x t) as [->|D].
  - replace (mem t l) with false by (symmetry; destruct (mem t l) eqn:M; [exfalso; apply N; now apply mem_in|reflexivity]). rewrite Z.eqb_refl. cbn [orb length]. lia.
  - replace (t =? x) with false by lia. cbn [orb]. destruct (mem x l); cbn [length]; lia.
Qed.
Lemma filter_none {A} (f : A -> bool) l : (forall x, In x l -> f x = false) -> filter f l = [].
Proof. induction l as [|x l IH]; intros H; [reflexivity|]. cbn [filter]. rewrite (H x) by now left. apply IH. intros y Hy. apply H. now right. Qed.
Lemma hits_nil ntypes : hits ntypes [] = 0.
Proof. unfold hits. induction ntypes; [reflexivity|exact IHntypes]. Qed.
Lemma hits_ext ntypes l l' : (forall t, In t l <-> In t l') -> hits ntypes l = hits ntypes l'.
Proof.
  intros H. unfold hits. do 2 f_equal. apply filter_ext. intros t. specialize (H t). rewrite <- !mem_in in H.
  destruct (mem t l), (mem t l'); intuition.
Qed.
Lemma count_sorted counts ntypes : (forall t, In t ntypes -> 0 <= t < Z.of_nat (length counts)) ->
  (forall t, 0 <= t < Z.of_nat (length counts) -> nth (Z.to_nat t) counts 0 = Z.of_nat (length (filter (Z.eqb t) ntypes))) ->
  forall l, StronglySorted Z.lt l ->
  fold_right (fun t x => (if (0 <=? t) && (t <? Z.of_nat (length counts)) then nth (Z.to_nat t) counts 0 else 0) + x) 0 l = hits ntypes l.
Proof.
  intros HR HC l S. induction S as [|t l S IH F]; [now rewrite hits_nil|]. cbn [fold_right].
  rewrite hits_cons by (intros I; rewrite Forall_forall in F; specialize (F t I); lia). rewrite IH. f_equal.
  destruct (_ && _) eqn:B; [apply HC; lia|]. replace (filter (Z.eqb t) ntypes) with (@nil Z); [reflexivity|].
  symmetry. apply filter_none. intros x Hx. specialize (HR x Hx). lia.
Qed.
Lemma count_right counts ntypes : (forall t, In t ntypes -> 0 <= t < Z.of_nat (length counts)) ->
  (forall t, 0 <= t < Z.of_nat (length counts) -> nth (Z.to_nat t) counts 0 = Z.of_nat (length (filter (Z.eqb t) ntypes))) ->
  forall types, (forall t, types <> TOther t) -> list_of types <> [] -> type_count counts types = Ok (hits ntypes (list_of types)).
Proof.
  intros HR HC types HT HN.
  assert (R : type_count counts types = Ok (fold_left (fun r t => if (0 <=? t) && (t <? Z.of_nat (length counts)) then r + nth (Z.to_nat t) counts 0 else r) (make_sorted_list (list_of types)) 0)).
  { destruct types as [t|[|t l]|t]; [reflexivity|now destruct HN|reflexivity|exfalso; eapply HT; reflexivity]. }
  rewrite R. f_equal. rewrite count_fold, Z.add_0_l, (count_sorted counts ntypes HR HC) by apply make_sorted_sorted.
  apply hits_ext. apply make_sorted_in.
Qed.
