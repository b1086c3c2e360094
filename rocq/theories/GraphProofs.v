(** The node map of a graph and the lift of row lemmas to graphs and record streams. *)
From Verif Require Import Base WriterModel LoaderModel GraphModel GraphSpec WriterProofs LoaderProofs QueryProofs.
From Coq Require Import Sorting.Sorted ZifyBool ZifyNat ZifyN.
Local Open Scope Z_scope.

(** ** Node map invariant *)

(** Entries processed so far: (partition index, node id, internal id). *)
Definition occ (hist : list (nat * Z * nat)) (n : Z) : list (nat * nat) :=
  map (fun x => (fst (fst x), snd x)) (filter (fun x => snd (fst x) =? n) hist).

Definition NInv (hist : list (nat * Z * nat)) (g : graph) : Prop :=
  length (g_pidx g) = length (g_int g) /\ length (g_cnt g) = length (g_int g) /\
  forall n, match assoc (g_map g) n with
            | None => occ hist n = []
            | Some i => occ hist n <> [] /\ (i + length (occ hist n) <= length (g_int g))%nat /\
                        slice (g_int g) i (length (occ hist n)) = map snd (occ hist n) /\
                        slice (g_pidx g) i (length (occ hist n)) = map fst (occ hist n) /\
                        nth_error (g_cnt g) i = Some (length (occ hist n))
            end.

Lemma occ_snoc hist k id i n :
  occ (hist ++ [(k, id, i)]) n = occ hist n ++ (if id =? n then [(k, i)] else []).
Proof. unfold occ. rewrite filter_app, map_app. cbn. destruct (id =? n); reflexivity. Qed.

Lemma slice_app_keep {A} (l l' : list A) i n : (i + n <= length l)%nat -> slice (l ++ l') i n = slice l i n.
Proof.
  intro H. unfold slice. rewrite skipn_app. replace (i - length l)%nat with 0%nat by lia. cbn [skipn].
  rewrite firstn_app. rewrite skipn_length. replace (n - (length l - i))%nat with 0%nat by lia.
  cbn [firstn]. now rewrite app_nil_r.
Qed.

Lemma slice_at {A} (l m : list A) : slice (l ++ m) (length l) (length m) = m.
Proof. unfold slice. rewrite skipn_app, skipn_all, Nat.sub_diag. cbn. apply firstn_all. Qed.

Lemma slice_len {A} (l : list A) i n : (i + n <= length l)%nat -> length (slice l i n) = n.
Proof. intro H. unfold slice. rewrite firstn_length, skipn_length. lia. Qed.

Lemma add_map_entry_inv hist g k id i :
  NInv hist g -> exists g', add_map_entry k (id, i) g = Ok g' /\ g_parts g' = g_parts g /\ NInv (hist ++ [(k, id, i)]) g'.
Proof.
  intros (Hp & Hc & H). unfold add_map_entry. pose proof (H id) as Hid.
  destruct (assoc (g_map g) id) as [old|] eqn:Ha.
  - destruct Hid as (Hne & Hb & Hi & Hpi & Hcnt).
    rewrite (get_ok _ _ _ Hcnt). cbn [bind].
    set (c := length (occ hist id)) in *.
    destruct (Nat.ltb_spec (length (g_int g)) (old + c)); [lia|].
    destruct (Nat.ltb_spec (length (g_pidx g)) (old + c)); [lia|].
    eexists. split; [reflexivity|]. split; [reflexivity|].
    unfold NInv. cbn [g_int g_pidx g_cnt g_map assoc].
    split; [|split].
    + rewrite !app_length, !slice_len by lia. cbn. lia.
    + rewrite !app_length, repeat_length, slice_len by lia. cbn. lia.
    + intro n. rewrite occ_snoc. destruct (Z.eqb_spec n id) as [->|Hn].
      * rewrite Z.eqb_refl. rewrite app_length. cbn [length]. fold c.
        split; [destruct (occ hist id); discriminate|].
        split; [rewrite !app_length, slice_len by lia; cbn; lia|].
        split; [|split].
        -- rewrite Hi. rewrite map_app. cbn [map].
           replace (c + 1)%nat with (length (map snd (occ hist id) ++ [i]))
             by (rewrite app_length, map_length; cbn; reflexivity).
           apply slice_at.
        -- rewrite Hpi, map_app. cbn [map]. rewrite <- Hp.
           replace (c + 1)%nat with (length (map fst (occ hist id) ++ [k]))
             by (rewrite app_length, map_length; cbn; reflexivity).
           apply slice_at.
        -- rewrite nth_error_app2 by lia. rewrite Hc, Nat.sub_diag.
           replace (c + 1)%nat with (S c) by lia. reflexivity.
      * destruct (Z.eqb_spec id n); [congruence|]. rewrite app_nil_r.
        specialize (H n). destruct (assoc (g_map g) n) as [j|]; [|assumption].
        destruct H as (Q1 & Q2 & Q3 & Q4 & Q5). split; [assumption|].
        split; [rewrite app_length; lia|].
        rewrite !slice_app_keep by lia. split; [assumption|]. split; [assumption|].
        rewrite nth_error_app1; [assumption|]. apply nth_error_Some. congruence.
  - eexists. split; [reflexivity|]. split; [reflexivity|].
    unfold NInv. cbn [g_int g_pidx g_cnt g_map assoc].
    split; [rewrite !app_length; cbn; lia|]. split; [rewrite !app_length; cbn; lia|].
    intro n. rewrite occ_snoc. destruct (Z.eqb_spec n id) as [->|Hn].
    + rewrite Z.eqb_refl, Hid. cbn [app length map fst snd].
      split; [discriminate|]. split; [rewrite app_length; cbn; lia|].
      split; [apply (slice_at (g_int g) [i])|]. split; [rewrite <- Hp; apply (slice_at (g_pidx g) [k])|].
      rewrite nth_error_app2 by lia. rewrite Hc, Nat.sub_diag. reflexivity.
    + destruct (Z.eqb_spec id n); [congruence|]. rewrite app_nil_r.
      specialize (H n). destruct (assoc (g_map g) n) as [j|]; [|assumption].
      destruct H as (Q1 & Q2 & Q3 & Q4 & Q5). split; [assumption|].
      split; [rewrite app_length; lia|].
      rewrite !slice_app_keep by lia. split; [assumption|]. split; [assumption|].
      rewrite nth_error_app1; [assumption|]. apply nth_error_Some. congruence.
Qed.

Lemma add_map_entries_inv k es : forall hist g,
  NInv hist g ->
  exists g', add_map_entries k es g = Ok g' /\ g_parts g' = g_parts g /\
             NInv (hist ++ map (fun e => (k, fst e, snd e)) es) g'.
Proof.
  induction es as [|[id i] es IH]; intros hist g H; cbn [add_map_entries map].
  - exists g. rewrite app_nil_r. auto.
  - destruct (add_map_entry_inv hist g k id i H) as (g1 & E & Hp & H1). rewrite E. cbn [bind].
    destruct (IH _ _ H1) as (g2 & E2 & Hp2 & H2). exists g2. split; [assumption|]. split; [congruence|].
    cbn [fst snd]. rewrite <- app_assoc in H2. exact H2.
Qed.

(** ** Loading a list of partitions, one suffix per path *)

Definition entries (rws : list row) : list (Z * nat) := map (fun x => (row_id (snd x), fst x)) (indexed rws).
Fixpoint hist_from {A} (k : nat) (pes : list (A * list (Z * nat))) : list (nat * Z * nat) :=
  match pes with
  | [] => []
  | pe :: t => map (fun e => (k, fst e, snd e)) (snd pe) ++ hist_from (S k) t
  end.

Section Load.
Variables fadd fsub : N -> N -> N.
Notation part_of := (part_of fadd).

(** Files that load to a partition with given node map entries. *)
Definition loads_to (m : lmeta) (f : pfiles) (pe : partition * list (Z * nat)) : Prop :=
  load_partition fadd m f = Ok (fst pe) /\ map_entries (f_nm f) = snd pe.
(** Files that load to given rows. *)
Definition loads (m : lmeta) (tmp : bool) (f : pfiles) (rws : list row) : Prop :=
  loads_to m f (part_of m tmp rws, entries rws).

Lemma load_paths_inv m fs : forall pes k hist g,
  Forall2 (loads_to m) fs pes -> NInv hist g -> length (g_parts g) = k ->
  exists g', load_paths fadd m k (map (fun f => [f]) fs) g = Ok g' /\
             g_parts g' = g_parts g ++ map fst pes /\ NInv (hist ++ hist_from k pes) g'.
Proof.
  induction fs as [|f fs IH]; intros pes k hist g HF Hg Hk; inversion HF as [|? [p es] ? pes' [Hl He] HF']; subst; cbn [map load_paths].
  - exists g. cbn. rewrite !app_nil_r. auto.
  - cbn [load_suffixes]. unfold load_suffix. cbn [fst snd] in *. rewrite Hl. cbn [bind]. rewrite He.
    assert (H0 : NInv hist (G (g_parts g ++ [p]) (g_map g) (g_int g) (g_pidx g) (g_cnt g))) by exact Hg.
    destruct (add_map_entries_inv (length (g_parts g)) es _ _ H0) as (g1 & E1 & Hp1 & H1).
    rewrite E1. cbn [bind].
    destruct (IH pes' (S (length (g_parts g))) _ _ HF' H1) as (g2 & E2 & Hp2 & H2).
    { rewrite Hp1. cbn [g_parts]. rewrite app_length. cbn. lia. }
    exists g2. split; [assumption|]. split.
    + rewrite Hp2, Hp1. cbn [g_parts]. rewrite <- app_assoc. reflexivity.
    + cbn [hist_from snd]. rewrite app_assoc. exact H2.
Qed.

(** The rows of node [n] in load order. *)
Definition node_rows (n : Z) (rwss : list (list row)) : list row := filter (fun r => row_id r =? n) (concat rwss).

(** Where they are: (partition, internal id). *)
Definition gplaces (n : Z) (pes : list (partition * list (Z * nat))) : list (partition * nat) :=
  flat_map (fun pe => map (fun e => (fst pe, snd e)) (filter (fun e => fst e =? n) (snd pe))) pes.
Definition places (P : list row -> partition) (n : Z) (rwss : list (list row)) : list (partition * nat) :=
  flat_map (fun rws => map (fun x => (P rws, fst x)) (filter (fun x => row_id (snd x) =? n) (indexed rws))) rwss.

Lemma gplaces_rows P n rwss : gplaces n (map (fun rws => (P rws, entries rws)) rwss) = places P n rwss.
Proof.
  unfold gplaces, places. induction rwss as [|rws rwss IH]; [reflexivity|]. cbn [map flat_map fst snd].
  rewrite IH. f_equal. unfold entries. induction (indexed rws) as [|[i r] l IHl]; [reflexivity|].
  cbn [map filter fst snd]. destruct (row_id r =? n); cbn [map fst snd]; now rewrite IHl.
Qed.

Lemma occ_app h1 h2 n : occ (h1 ++ h2) n = occ h1 n ++ occ h2 n.
Proof. unfold occ. now rewrite filter_app, map_app. Qed.

Lemma occ_entries k (es : list (Z * nat)) n :
  occ (map (fun e => (k, fst e, snd e)) es) n = map (fun x => (k, snd x)) (filter (fun x => fst x =? n) es).
Proof.
  unfold occ. induction es as [|[i r] l IH]; [reflexivity|].
  cbn [map filter fst snd]. destruct (i =? n); cbn [map fst snd]; now rewrite IH.
Qed.

Lemma mapM_app {A B} (f : A -> res B) l1 l2 r1 r2 :
  mapM f l1 = Ok r1 -> mapM f l2 = Ok r2 -> mapM f (l1 ++ l2) = Ok (r1 ++ r2).
Proof.
  revert r1; induction l1 as [|a l1 IH]; intros r1 H1 H2; cbn in *.
  - inversion H1; subst. assumption.
  - destruct (f a); cbn in *; [|discriminate]. destruct (mapM f l1) eqn:E; cbn in *; [|discriminate].
    inversion H1; subst. rewrite (IH _ eq_refl H2). reflexivity.
Qed.

Lemma places_resolve pes : forall pre n,
  mapM (fun x : nat * nat => do p <- get (pre ++ map fst pes) (fst x) ;; Ok (p, snd x))
       (occ (hist_from (length pre) pes) n) = Ok (gplaces n pes).
Proof.
  induction pes as [|[p es] pes IH]; intros pre n; [reflexivity|].
  cbn [hist_from gplaces flat_map map fst snd]. rewrite occ_app. fold (gplaces n pes).
  apply mapM_app.
  - rewrite occ_entries. induction (filter _ es) as [|x l IHl]; [reflexivity|].
    cbn [map mapM fst snd].
    assert (E : get (pre ++ p :: map fst pes) (length pre) = Ok p) by (rewrite get_app_r0; reflexivity).
    rewrite E. cbn [bind]. rewrite IHl. reflexivity.
  - specialize (IH (pre ++ [p]) n). rewrite app_length in IH. cbn [length] in IH. rewrite Nat.add_1_r in IH.
    rewrite <- app_assoc in IH. exact IH.
Qed.

Lemma nth_slice {A} (l : list A) i n j x :
  nth_error (slice l i n) j = Some x -> nth_error l (i + j) = Some x.
Proof.
  unfold slice. intro H. rewrite <- (firstn_skipn i l).
  destruct (Nat.le_gt_cases i (length l)) as [Hi|Hi].
  - rewrite nth_error_app2 by (rewrite firstn_length; lia). rewrite firstn_length.
    replace (i + j - Nat.min i (length l))%nat with j by lia.
    rewrite <- (firstn_skipn n (skipn i l)). rewrite nth_error_app1; [assumption|].
    apply nth_error_Some. congruence.
  - rewrite skipn_all2 in H by lia. rewrite firstn_nil in H. destruct j; discriminate.
Qed.

Lemma mapM_seq_list {A B} (F : nat -> res B) (K : A -> res B) (l : list A) : forall s,
  (forall j x, nth_error l j = Some x -> F (s + j)%nat = K x) ->
  mapM F (seq s (length l)) = mapM K l.
Proof.
  induction l as [|x l IH]; intros s H; [reflexivity|]. cbn [length seq mapM].
  pose proof (H 0%nat x eq_refl) as H0. rewrite Nat.add_0_r in H0. rewrite H0.
  rewrite (IH (S s)); [reflexivity|]. intros j y Hj. rewrite <- (H (S j) y Hj). f_equal. lia.
Qed.

(** Loading then looking up a node. *)
Definition found {A} (l : list A) : option (list A) := match l with [] => None | _ => Some l end.
Definition lookup (P : list row -> partition) (rwss : list (list row)) (n : Z) : option (list (partition * nat)) :=
  found (places P n rwss).

Lemma mapM_nil_inv {A B} (f : A -> res B) l : mapM f l = Ok [] -> l = [].
Proof.
  destruct l as [|a l]; [reflexivity|]. cbn. destruct (f a); cbn; [|discriminate].
  destruct (mapM f l); cbn; discriminate.
Qed.

Theorem load_graph_places m fs pes :
  Forall2 (loads_to m) fs pes ->
  exists g, load_graph fadd m (map (fun f => [f]) fs) = Ok g /\ g_parts g = map fst pes /\
            forall n, occurrences g n = Ok (found (gplaces n pes)).
Proof.
  intro HF. unfold load_graph.
  assert (H0 : NInv [] (G [] [] [] [] [])) by (split; [reflexivity|]; split; [reflexivity|]; intro n; reflexivity).
  destruct (load_paths_inv m fs pes 0 [] _ HF H0 eq_refl) as (g & E & Hp & (Hl1 & Hl2 & Hm)).
  cbn [g_parts app] in Hp, Hm. exists g. split; [assumption|]. split; [assumption|]. intro n.
  unfold occurrences. specialize (Hm n).
  pose proof (places_resolve pes [] n) as Hr. cbn [app length] in Hr.
  destruct (assoc (g_map g) n) as [i|].
  - destruct Hm as (Hne & Hb & Hi & Hpi & Hc). rewrite (get_ok _ _ _ Hc). cbn [bind].
    assert (Hs : mapM (fun k => do pi <- get (g_pidx g) k;; do ii <- get (g_int g) k;; do p <- get (g_parts g) pi;; Ok (p, ii))
                   (seq i (length (occ (hist_from 0 pes) n))) = Ok (gplaces n pes)).
    { rewrite <- Hr. apply mapM_seq_list. intros j x Hj.
      assert (Hx1 : nth_error (g_pidx g) (i + j) = Some (fst x)).
      { apply (nth_slice _ _ (length (occ (hist_from 0 pes) n))). rewrite Hpi, nth_error_map, Hj. reflexivity. }
      assert (Hx2 : nth_error (g_int g) (i + j) = Some (snd x)).
      { apply (nth_slice _ _ (length (occ (hist_from 0 pes) n))). rewrite Hi, nth_error_map, Hj. reflexivity. }
      rewrite (get_ok _ _ _ Hx1). cbn [bind]. rewrite (get_ok _ _ _ Hx2). cbn [bind]. rewrite Hp. reflexivity. }
    rewrite Hs. cbn [bind].
    destruct (gplaces n pes) eqn:Epl; [|reflexivity].
    apply mapM_nil_inv in Hr. congruence.
  - rewrite Hm in Hr. cbn in Hr. inversion Hr as [Hr']. reflexivity.
Qed.

Theorem load_graph_rows m tmp fs rwss :
  Forall2 (loads m tmp) fs rwss ->
  exists g, load_graph fadd m (map (fun f => [f]) fs) = Ok g /\ g_parts g = map (part_of m tmp) rwss /\
            forall n, occurrences g n = Ok (lookup (part_of m tmp) rwss n).
Proof.
  intro HF.
  destruct (load_graph_places m fs (map (fun rws => (part_of m tmp rws, entries rws)) rwss)) as (g & E & Hp & Ho).
  - clear - HF. induction HF; constructor; assumption.
  - exists g. split; [assumption|]. split.
    + rewrite Hp, map_map. reflexivity.
    + intro n. unfold lookup. now rewrite Ho, gplaces_rows.
Qed.

(** Lifting a row lemma to the places of a node. *)
Lemma indexed_split {A} (l : list A) i x : In (i, x) (indexed l) -> exists l1 l2, l = l1 ++ x :: l2 /\ i = length l1.
Proof.
  unfold indexed. assert (H : forall s, In (i, x) (combine (seq s (length l)) l) -> exists l1 l2, l = l1 ++ x :: l2 /\ i = (s + length l1)%nat).
  { induction l as [|y l IH]; intros s Hin; cbn in Hin; [contradiction|]. destruct Hin as [Hin|Hin].
    - inversion Hin; subst. exists [], l. cbn. split; [reflexivity|lia].
    - destruct (IH _ Hin) as (l1 & l2 & -> & ->). exists (y :: l1), l2. cbn. split; [reflexivity|lia]. }
  intro Hin. apply (H 0%nat Hin).
Qed.

Lemma filter_indexed {A} (f : A -> bool) (l : list A) :
  map snd (filter (fun x : nat * A => f (snd x)) (indexed l)) = filter f l.
Proof.
  unfold indexed. generalize 0%nat. induction l as [|y l IH]; intro s; [reflexivity|]. cbn.
  destruct (f y); cbn; now rewrite IH.
Qed.

Lemma places_mapM {A} P (q : partition -> nat -> res A) (h : row -> A) n rwss :
  (forall rws r1 r r2, In rws rwss -> rws = r1 ++ r :: r2 -> row_id r = n -> q (P rws) (length r1) = Ok (h r)) ->
  mapM (fun x => q (fst x) (snd x)) (places P n rwss) = Ok (map h (node_rows n rwss)).
Proof.
  intro H. induction rwss as [|rws rwss IH]; [reflexivity|].
  unfold places, node_rows. cbn [flat_map concat]. rewrite filter_app, map_app.
  apply mapM_app.
  2:{ apply IH. intros; eapply H; try eassumption. now right. }
  rewrite <- (filter_indexed (fun r => row_id r =? n)).
  assert (Hin : forall x, In x (filter (fun x : nat * row => row_id (snd x) =? n) (indexed rws)) ->
                 q (P rws) (fst x) = Ok (h (snd x))).
  { intros [i r] Hx. apply filter_In in Hx. destruct Hx as [Hx Hn]. cbn [fst snd] in *.
    apply indexed_split in Hx. destruct Hx as (l1 & l2 & E & ->). apply (H rws l1 r l2); [now left|assumption|lia]. }
  induction (filter _ (indexed rws)) as [|x l IHl]; [reflexivity|]. cbn [map mapM fst snd].
  rewrite (Hin x (or_introl eq_refl)). cbn [bind]. rewrite IHl by (intros; apply Hin; now right). reflexivity.
Qed.

Lemma places_nil P n rwss : places P n rwss = [] <-> node_rows n rwss = [].
Proof.
  induction rwss as [|rws rwss IH]; [split; reflexivity|].
  unfold places, node_rows in *. cbn [flat_map concat]. rewrite filter_app.
  rewrite <- (filter_indexed (fun r => row_id r =? n) rws).
  destruct (filter (fun x : nat * row => row_id (snd x) =? n) (indexed rws)) as [|x l]; cbn; [exact IH|].
  split; discriminate.
Qed.

End Load.
