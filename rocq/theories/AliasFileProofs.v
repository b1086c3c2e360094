(** The alias files a partition writer leaves behind. *)
From Coq Require Import Lqa Permutation.
From Verif Require Import Base Dist WriterModel GraphSpec WriterProofs ConvertProofs AliasModel AliasProofs MetaSpec MetaProofs.
Local Open Scope Q_scope.

(** Weights that are all zero give a table that keeps every element. *)
Lemma split_small_zero ws : forall i sm lg, Forall (fun w => w == 0) ws ->
  snd (split_small ws i sm lg) = lg.
Proof.
  induction ws as [|w ws IH]; intros i sm lg H; cbn [split_small]; [reflexivity|].
  inversion H; subst. replace (qlt w 1) with true by (symmetry; apply qlt_true; lra). now apply IH.
Qed.

Lemma zero_table {A} (zero : A) es ws : length es = length ws -> Forall (fun w => w == 0) ws ->
  alias_table zero es ws = Ok (map (fun e => AR e zero 1) es).
Proof.
  intros Hl Hz. unfold alias_table, vose.
  assert (Hr : Forall (fun w => w == 0) (rescale ws)).
  { unfold rescale. apply Forall_map. eapply Forall_impl; [|exact Hz]. cbn. intros w E. rewrite E. ring. }
  destruct (split_small (rescale ws) 0 [] []) as [sm lg] eqn:E.
  pose proof (split_small_zero (rescale ws) 0 [] [] Hr) as El. rewrite E in El. cbn [snd] in El. subst lg.
  apply split_small_spec in E as (P & _ & _). rewrite !app_nil_r in P.
  assert (Lr : length (rescale ws) = length ws) by (unfold rescale; apply map_length). rewrite Lr in P.
  assert (VL : vose_loop (length sm + length (@nil nat)) sm [] (VS (rescale ws) (repeat None (length ws)) (repeat None (length ws)))
              = Ok (sm, [], VS (rescale ws) (repeat None (length ws)) (repeat None (length ws)))).
  { destruct (length sm + length (@nil nat))%nat, sm; reflexivity. }
  rewrite VL. cbn [bind fst snd v_alias v_prob]. change (set_one [] (repeat None (length ws))) with (repeat (@None Q) (length ws)).
  destruct (set_one_nth sm (repeat None (length ws))) as [L1 N1].
  { intros i Hi. rewrite repeat_length. apply (Permutation_in _ P) in Hi. apply in_seq in Hi. lia. }
  rewrite repeat_length in L1.
  destruct es as [|d es']; [reflexivity|]. set (es := d :: es') in *.
  rewrite (mapM_ok _ (fun i => AR (nth i es d) zero 1)).
  - f_equal. apply (nth_ext _ _ (AR (nth 0 es d) zero 1) (AR d zero 1)); rewrite !map_length, seq_length; [reflexivity|].
    intros i Hi. rewrite (map_nth (fun i => AR (nth i es d) zero 1)), (map_nth (fun e => AR e zero 1)), seq_nth by exact Hi. reflexivity.
  - intros i Hi. apply in_seq in Hi. unfold alias_record. rewrite (get_nth es i d) by lia. cbn [bind].
    rewrite (get_nth _ i None) by lia. cbn [bind]. rewrite N1.
    replace (existsb (Nat.eqb i) sm) with true by (symmetry; apply existsb_nat; apply (Permutation_in _ (Permutation_sym P)); apply in_seq; lia).
    replace (qlt 1 1) with false by reflexivity. reflexivity.
Qed.

(** The writer collects the elements of every type in input order. *)
Lemma foldE_app {A S} (f : A -> S -> res S) a b s :
  foldE f (a ++ b) s = (do s' <- foldE f a s ;; foldE f b s').
Proof. revert s; induction a as [|x a IH]; intros s; cbn [foldE app]; [reflexivity|]. destruct (f x s); cbn [bind]; auto. Qed.

Lemma of_type_snoc t rs r : of_type t (rs ++ [r]) = of_type t rs ++ (if Z.eqb (rtyp r) (Z.of_nat t) then [r] else []).
Proof. unfold of_type. rewrite filter_app. cbn [filter]. destruct (Z.eqb _ _); reflexivity. Qed.

Lemma collect_spec {A} (sel : record -> bool) (h : record -> A * Q) rs :
  Forall (fun r => (0 <= rtyp r)%Z) (filter sel rs) ->
  foldE (fun r fs => if sel r then alias_add (rtyp r) (h r) fs else Ok fs) rs [] =
  Ok (map (fun t => map h (of_type t (filter sel rs))) (seq 0 (types_in (filter sel rs)))).
Proof.
  intros H. induction rs as [|r rs IH] using rev_ind; [reflexivity|].
  rewrite filter_app in *. apply Forall_app in H as [H Hr]. rewrite foldE_app, (IH H). cbn [bind foldE filter] in *.
  destruct (sel r); [|now rewrite app_nil_r].
  unfold alias_add. pose proof (Forall_inv Hr) as Ht. cbn beta in Ht.
  rewrite (grow_add [] (fun f => f ++ [h r]) (fun t => map h (of_type t (filter sel rs)))) by
    (try exact Ht; intros t Hle; now rewrite (of_type_beyond t) by assumption).
  cbn [bind]. f_equal. rewrite types_in_app. cbn [types_in fold_right]. rewrite Nat.max_0_r.
  apply map_ext. intros t. rewrite of_type_snoc, map_app. destruct (Z.eqb (rtyp r) (Z.of_nat t)); [reflexivity|]. now rewrite app_nil_r.
Qed.

Lemma mapM_map' {A B C} (f : B -> res C) (g : A -> B) l : mapM f (map g l) = mapM (fun a => f (g a)) l.
Proof. induction l as [|a l IH]; cbn [mapM map]; [reflexivity|]. now rewrite IH. Qed.

Lemma Forall2_same {A B} (P : A -> B -> Prop) l m : Forall2 P l m -> length l = length m.
Proof. induction 1; cbn [length]; lia. Qed.

Section Files.
Variable qval : N -> Q.
Context {A : Type} (zero : A) (eqb : A -> A -> bool) (eqb_spec : forall a b, eqb a b = true <-> a = b).
Variable sel : record -> bool.
Variable elt : record -> A.

(** Total weight of records. *)
Definition mass (rs : list record) : Q := qsum (fun r => qval (rweight r)) rs.

Lemma qsum_map_id ws (h : record -> Q) : qsum (fun q => q) (map h ws) = qsum h ws.
Proof. induction ws as [|w ws IH]; cbn [map qsum]; [reflexivity|]. now rewrite IH. Qed.

Lemma weight_of_mass x rs : weight_of eqb x (map elt rs) (map (fun r => qval (rweight r)) rs)
  == mass (filter (fun r => eqb (elt r) x) rs).
Proof.
  unfold weight_of, mass. induction rs as [|r rs IH]; cbn [map combine qsum filter fst snd]; [reflexivity|].
  rewrite IH. destruct (eqb (elt r) x); cbn [qsum]; unfold ind; ring.
Qed.

(** Every partition's table of type [t] draws element [x] in proportion to the weights of the
    records with that element; a type whose weights add up to zero is drawn evenly. *)
Lemma file_spec rs :
  Forall (fun r => (0 <= rtyp r)%Z) (filter sel rs) -> (forall r, In r rs -> sel r = true -> 0 <= qval (rweight r)) ->
  exists tables,
    (do fs <- foldE (fun r fs => if sel r then alias_add (rtyp r) (elt r, qval (rweight r)) fs else Ok fs) rs [] ;;
     mapM (fun f => alias_table zero (map fst f) (map snd f)) fs) = Ok tables /\
    length tables = types_in (filter sel rs) /\
    forall t tbl, nth_error tables t = Some tbl ->
      map a_left tbl = map elt (of_type t (filter sel rs)) /\
      (0 < mass (of_type t (filter sel rs)) ->
       forall x, pr (alias_sample tbl) (fun a => eqb a x) ==
         mass (filter (fun r => eqb (elt r) x) (of_type t (filter sel rs))) / mass (of_type t (filter sel rs))) /\
      (mass (of_type t (filter sel rs)) == 0 ->
       tbl = map (fun r => AR (elt r) zero 1) (of_type t (filter sel rs))).
Proof.
  intros Ht Hw. rewrite (collect_spec sel (fun r => (elt r, qval (rweight r)))) by exact Ht. cbn [bind].
  set (recs := filter sel rs) in *.
  assert (Each : forall t, exists tbl, alias_table zero (map elt (of_type t recs)) (map (fun r => qval (rweight r)) (of_type t recs)) = Ok tbl /\
      map a_left tbl = map elt (of_type t recs) /\
      (0 < mass (of_type t recs) ->
       forall x, pr (alias_sample tbl) (fun a => eqb a x) ==
         mass (filter (fun r => eqb (elt r) x) (of_type t recs)) / mass (of_type t recs)) /\
      (mass (of_type t recs) == 0 -> tbl = map (fun r => AR (elt r) zero 1) (of_type t recs))).
  { intros t. set (g := of_type t recs).
    assert (Nn : Forall (fun w => 0 <= w) (map (fun r => qval (rweight r)) g)).
    { apply Forall_map. rewrite Forall_forall. intros r Hr. unfold g, of_type in Hr. apply filter_In in Hr as [Hr _].
      unfold recs in Hr. apply filter_In in Hr as [Hr Hs]. now apply Hw. }
    assert (Sm : qsum (fun q => q) (map (fun r => qval (rweight r)) g) = mass g) by (rewrite qsum_map_id; reflexivity).
    assert (Ln : length (map elt g) = length (map (fun r => qval (rweight r)) g)) by now rewrite !map_length.
    destruct (Qlt_le_dec 0 (mass g)) as [Pos|Neg].
    - destruct (table_spec zero eqb eqb_spec (map elt g) (map (fun r => qval (rweight r)) g) Ln) as (tbl & E & L & _ & _ & Lf & Pr).
      { split; [exact Nn|]. rewrite Sm. exact Pos. }
      exists tbl. split; [exact E|]. split; [|split].
      + clear - Lf. revert Lf. generalize (map a_left tbl) (map elt g). intros l m. revert m. induction l as [|a l IH]; intros [|b m] H.
        * reflexivity.
        * specialize (H 0%nat). discriminate.
        * specialize (H 0%nat). discriminate.
        * pose proof (H 0%nat) as H0. cbn [nth_error] in H0. injection H0 as ->. f_equal. apply IH. intros i. apply (H (S i)).
      + intros _ x. rewrite Pr, Sm, weight_of_mass. reflexivity.
      + intros C. lra.
    - assert (Z : Forall (fun w => w == 0) (map (fun r => qval (rweight r)) g)).
      { assert (G : forall ws, Forall (fun w => 0 <= w) ws -> qsum (fun q => q) ws <= 0 -> Forall (fun w => w == 0) ws).
        { clear. induction ws as [|w ws IH]; intros H S; [constructor|]. inversion H; subst. cbn [qsum] in S.
          pose proof (qsum_nonneg (fun q => q) ws) as N. assert (0 <= qsum (fun q => q) ws).
          { apply N. intros a Ha. rewrite Forall_forall in H3. now apply H3. }
          constructor; [lra|]. apply IH; [assumption|lra]. }
        apply G; [exact Nn|]. rewrite Sm. exact Neg. }
      rewrite (zero_table zero _ _ Ln Z). eexists. split; [reflexivity|]. split; [|split].
      + rewrite map_map. cbn [a_left]. apply map_id.
      + intros C. lra.
      + intros _. now rewrite map_map. }
  set (mk := fun t => alias_table zero (map elt (of_type t recs)) (map (fun r => qval (rweight r)) (of_type t recs))).
  assert (M : exists tables, mapM mk (seq 0 (types_in recs)) = Ok tables).
  { generalize (seq 0 (types_in recs)). induction l as [|t l IH]; cbn [mapM]; [eexists; reflexivity|].
    destruct (Each t) as (tbl & E & _). unfold mk at 1. rewrite E. cbn [bind]. destruct IH as (ts & ->). eexists; reflexivity. }
  destruct M as (tables & M). exists tables. split.
  - rewrite <- M. rewrite mapM_map'. apply mapM_ext_in. intros t _. unfold mk. rewrite !map_map. reflexivity.
  - pose proof (mapM_ok_inv _ _ _ M) as F. split; [rewrite <- (Forall2_same _ _ _ F); apply seq_length|].
    intros t tbl E.
    assert (Et : mk t = Ok tbl).
    { clear - F E. assert (G : forall l a n, Forall2 (fun x y => mk x = Ok y) (seq a n) l -> forall t tbl, nth_error l t = Some tbl -> mk (a + t)%nat = Ok tbl).
      { clear. induction l as [|y l IH]; intros a n F t tbl E; destruct t; cbn [nth_error] in E; try discriminate.
        - injection E as ->. destruct n; cbn [seq] in F; [inversion F|]. inversion F; subst. now rewrite Nat.add_0_r.
        - destruct n; cbn [seq] in F; [inversion F|]. inversion F; subst. rewrite <- Nat.add_succ_comm. eapply IH; eauto. }
      apply (G tables 0%nat _ F t tbl E). }
    destruct (Each t) as (tbl' & E' & H). unfold mk in Et. rewrite E' in Et. injection Et as <-. exact H.
Qed.
End Files.

Lemma node_files_spec qval rs :
  Forall (fun r => (0 <= rtyp r)%Z) (nodes_in rs) -> (forall r, In r (nodes_in rs) -> 0 <= qval (rweight r)) ->
  exists tables, node_alias_files qval rs = Ok tables /\ length tables = types_in (nodes_in rs) /\
    forall t tbl, nth_error tables t = Some tbl ->
      map a_left tbl = map rsrc (of_type t (nodes_in rs)) /\
      (0 < mass qval (of_type t (nodes_in rs)) ->
       forall v, pr (alias_sample tbl) (fun a => Z.eqb a v) ==
         mass qval (filter (fun r => Z.eqb (rsrc r) v) (of_type t (nodes_in rs))) / mass qval (of_type t (nodes_in rs))) /\
      (mass qval (of_type t (nodes_in rs)) == 0 -> tbl = map (fun r => AR (rsrc r) 0%Z 1) (of_type t (nodes_in rs))).
Proof.
  intros Ht Hw. apply (file_spec qval 0%Z Z.eqb Z.eqb_eq is_node rsrc); [exact Ht|].
  intros r Hr Hs. apply Hw. apply filter_In. auto.
Qed.

Definition pair_eqb (a b : Z * Z) : bool := Z.eqb (fst a) (fst b) && Z.eqb (snd a) (snd b).
Lemma pair_eqb_eq a b : pair_eqb a b = true <-> a = b.
Proof. destruct a, b. unfold pair_eqb. cbn [fst snd]. rewrite andb_true_iff, !Z.eqb_eq. split; [intros [-> ->]; reflexivity|]. intros [= -> ->]. auto. Qed.

Lemma edge_files_spec qval rs :
  Forall (fun r => (0 <= rtyp r)%Z) (edges_in rs) -> (forall r, In r (edges_in rs) -> 0 <= qval (rweight r)) ->
  exists tables, edge_alias_files qval rs = Ok tables /\ length tables = types_in (edges_in rs) /\
    forall t tbl, nth_error tables t = Some tbl ->
      map a_left tbl = map (fun r => (rsrc r, rdst r)) (of_type t (edges_in rs)) /\
      (0 < mass qval (of_type t (edges_in rs)) ->
       forall e, pr (alias_sample tbl) (fun a => pair_eqb a e) ==
         mass qval (filter (fun r => pair_eqb (rsrc r, rdst r) e) (of_type t (edges_in rs))) / mass qval (of_type t (edges_in rs))) /\
      (mass qval (of_type t (edges_in rs)) == 0 -> tbl = map (fun r => AR (rsrc r, rdst r) (0%Z, 0%Z) 1) (of_type t (edges_in rs))).
Proof.
  intros Ht Hw. unfold edge_alias_files.
  assert (E : forall l s, foldE (fun r fs => if (rdst r =? -1)%Z then Ok fs else alias_add (rtyp r) (rsrc r, rdst r, qval (rweight r)) fs) l s
     = foldE (fun r fs => if negb (is_node r) then alias_add (rtyp r) (rsrc r, rdst r, qval (rweight r)) fs else Ok fs) l s).
  { induction l as [|r l IH]; intros s; cbn [foldE]; [reflexivity|]. unfold is_node at 1. destruct (rdst r =? -1)%Z; cbn [negb bind]; [apply IH|].
    destruct (alias_add _ _ _); cbn [bind]; auto. }
  rewrite E. apply (file_spec qval (0%Z, 0%Z) pair_eqb pair_eqb_eq (fun r => negb (is_node r)) (fun r => (rsrc r, rdst r))); [exact Ht|].
  intros r Hr Hs. apply Hw. apply filter_In. auto.
Qed.
