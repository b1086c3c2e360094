(** Concrete graphs used by the examples beside the property theorems. *)
From Verif Require Import Base WriterModel LoaderModel GraphModel GraphSpec LoaderProofs AnswerProofs Float32.
Local Open Scope Z_scope.

Definition one := 0x3f800000%N.
Definition two := 0x40000000%N.
Definition half := 0x3f000000%N.
Definition big := 0x4b800000%N. (* 2^24 *)
Definition wv : N -> Z := fun _ => 1.

Definition nd (i t : Z) (fs : list (option (list N))) := Rec i (-1) t one None None fs.
Definition ed (i j t : Z) (w : N) (fs : list (option (list N))) := Rec i j t w None None fs.
Definition edt (i j t : Z) (w : N) (c r : Z) := Rec i j t w (Some c) (Some r) [].

Definition empty_graph := G [] [] [] [] [].
Definition load_of (wm : option Z) (parts : list (list (list record))) : graph :=
  match (do x <- convert wv wm parts ;; load_graph f32_add (snd x) (map (fun f => [f]) (fst x))) with
  | Ok g => g
  | Fail _ => empty_graph
  end.

Definition rec_okb (r : record) : bool :=
  (rsrc r <? 2 ^ 63) && (rdst r <? 2 ^ 63) && (rweight r <? 2 ^ 32)%N && (is_node r || (0 <=? rtyp r)).
Lemma rec_okb_ok r : rec_okb r = true -> rec_ok r.
Proof.
  unfold rec_okb, rec_ok. rewrite !andb_true_iff, orb_true_iff, !Z.ltb_lt, N.ltb_lt, Z.leb_le.
  intros (((H1 & H2) & H3) & H4). repeat split; try assumption. intro Hn. destruct H4; [congruence|assumption].
Qed.

Definition fitsb (f : pfiles) : bool :=
  let ok (l : list N) := (N.of_nat (length l) <? 2 ^ 64)%N in
  ok (f_nm f) && ok (f_ni f) && ok (f_nfi f) && ok (f_nfd f) && ok (f_nbi f) && ok (f_ei f) &&
  ok (f_efi f) && ok (f_efd f) && ok (f_eti f).
Lemma fitsb_ok f : fitsb f = true -> fits f.
Proof. unfold fitsb, fits. rewrite !andb_true_iff, !N.ltb_lt. tauto. Qed.

Definition convertible (wm : option Z) (parts : list (list (list record))) : bool :=
  match convert wv wm parts with
  | Ok (ps, m) => forallb fitsb ps && forallb rec_okb (concat (concat parts))
  | Fail _ => false
  end.

Lemma load_of_converted wm parts : convertible wm parts = true -> converted f32_add wv wm parts (load_of wm parts).
Proof.
  unfold convertible, load_of. destruct (convert wv wm parts) as [[ps m]|e] eqn:E; [|discriminate].
  cbn [bind fst snd]. rewrite andb_true_iff, !forallb_forall. intros [H1 H2].
  assert (F : Forall fits ps) by (apply Forall_forall; intros f Hf; apply fitsb_ok; auto).
  assert (R : Forall rec_ok (concat (concat parts))) by (apply Forall_forall; intros r Hr; apply rec_okb_ok; auto).
  destruct (load_succeeds f32_add wv wm parts ps m E F R) as (g & L). rewrite L.
  eapply converted_whole; eassumption.
Qed.

Definition edge_features_in (parts : list (list (list record))) : bool :=
  existsb (fun x => match e_feats x with [] => false | _ => true end) (flat_map row_edges (flat_map rows parts)).
Definition sourceless (parts : list (list (list record))) (src : Z) : bool :=
  forallb (fun r => negb (row_id r =? src)) (flat_map rows parts).
Lemma readable_cases all parts src : edge_features_in all || sourceless parts src = true ->
  (exists x, In x (flat_map row_edges (flat_map rows all)) /\ e_feats x <> []) \/
  (forall r, In r (flat_map rows parts) -> row_id r <> src).
Proof.
  intro H. apply orb_true_iff in H. destruct H as [H|H].
  - left. apply existsb_exists in H. destruct H as (x & Hx & Hn). exists x. split; [assumption|]. intro Q. now rewrite Q in Hn.
  - right. intros r Hr. unfold sourceless in H. rewrite forallb_forall in H. specialize (H r Hr). lia.
Qed.
Lemma load_of_readable wm parts src : convertible wm parts = true -> edge_features_in parts || sourceless parts src = true ->
  readable f32_add wv wm parts (load_of wm parts) src.
Proof.
  intros Hc Hs. unfold convertible, load_of in *. destruct (convert wv wm parts) as [[ps m]|e] eqn:E; [|discriminate].
  cbn [bind fst snd]. rewrite andb_true_iff, !forallb_forall in Hc. destruct Hc as [H1 H2].
  assert (F : Forall fits ps) by (apply Forall_forall; intros f Hf; apply fitsb_ok; auto).
  assert (R : Forall rec_ok (concat (concat parts))) by (apply Forall_forall; intros r Hr; apply rec_okb_ok; auto).
  destruct (load_succeeds f32_add wv wm parts ps m E F R) as (g & L). rewrite L.
  exists parts, ps, m, (seq 0 (length parts)). rewrite pick_all. repeat (split; [assumption || reflexivity|]). split; [|now apply readable_cases].
  pose proof (Verif.ConvertProofs.convert_loads f32_add wv wm parts ps m E F R) as HL. apply Forall2_len0 in HL. rewrite map_length in HL.
  now rewrite <- HL, pick_all.
Qed.

(** Two partitions; node 9 occurs in both; three edge types; node and edge features. *)
Definition demo : list (list (list record)) :=
  [ [ [nd 9 0 [Some [1; 2; 3]; None; Some [7]]%N; ed 9 0 0 one [Some [5; 6]%N]; ed 9 5 2 two []; ed 9 6 2 half [None; Some [8]%N]];
      [nd 0 1 []; ed 0 9 1 one []] ];
    [ [ed 9 7 1 one []; ed 9 7 1 two [Some [4]%N]];
      [nd 5 2 [Some [9]%N]] ] ].
Definition demo_graph : graph := load_of None demo.
Example demo_converted : converted f32_add wv None demo demo_graph.
Proof. apply load_of_converted. vm_compute. reflexivity. Qed.

(** A temporal graph: created/removed per edge, -1 = never removed. *)
Definition demo_t : list (list (list record)) :=
  [ [ [nd 1 0 []; edt 1 2 0 one 1 5; edt 1 3 0 two 2 (-1); edt 1 4 1 one 4 6] ]; [ [edt 1 8 0 one 3 9] ] ].
Definition demo_t_graph : graph := load_of (Some 10) demo_t.
Example demo_t_converted : converted f32_add wv (Some 10) demo_t demo_t_graph.
Proof. apply load_of_converted. vm_compute. reflexivity. Qed.

(** Decision procedure for the guard of the neighbor theorems. *)
Definition gap_freeb (T Gs : list Z) : bool :=
  forallb (fun g1 => mem g1 T ||
    forallb (fun t => mem t Gs ||
      forallb (fun g2 => negb (mem g2 T) || negb ((g1 <? t) && (t <? g2))) Gs) T) Gs.
Lemma gap_freeb_ok T Gs : gap_freeb T Gs = true -> gap_free T Gs.
Proof.
  unfold gap_freeb. rewrite forallb_forall. intros H g1 t g2 Hg1 Hn1 Ht Hnt Hg2 Hi2 [L1 L2].
  specialize (H g1 Hg1). rewrite orb_true_iff in H.
  assert (M : forall x l, mem x l = true <-> In x l).
  { intros x l. unfold mem. rewrite existsb_exists. split.
    - intros (y & Hy & E). apply Z.eqb_eq in E. now subst.
    - intro Hx. exists x. split; [assumption|apply Z.eqb_refl]. }
  destruct H as [H|H]; [apply M in H; contradiction|]. rewrite forallb_forall in H. specialize (H t Ht).
  rewrite orb_true_iff in H. destruct H as [H|H]; [apply M in H; contradiction|].
  rewrite forallb_forall in H. specialize (H g2 Hg2).
  apply M in Hi2. rewrite Hi2 in H. apply Z.ltb_lt in L1, L2. rewrite L1, L2 in H. discriminate.
Qed.

Fixpoint undo_okb (acc : N) (ws : list N) : bool :=
  match ws with
  | [] => true
  | w :: t => (f32_sub (f32_add acc w) acc =? w)%N && undo_okb (f32_add acc w) t
  end.
Definition exact_sumsb (ws : list N) : bool :=
  match ws with [] => true | w :: t => (f32_add 0 w =? w)%N && undo_okb w t end.
Lemma undo_okb_ok ws : forall acc, undo_okb acc ws = true -> undo_ok f32_add f32_sub acc ws.
Proof.
  induction ws as [|w ws IH]; intros acc H; cbn in *; [exact I|]. apply andb_true_iff in H.
  destruct H as [H1 H2]. split; [now apply N.eqb_eq|auto].
Qed.
Lemma exact_sumsb_ok ws : exact_sumsb ws = true -> exact_sums f32_add f32_sub ws.
Proof.
  destruct ws as [|w ws]; cbn; [trivial|]. rewrite andb_true_iff. intros [H1 H2].
  split; [now apply N.eqb_eq|now apply undo_okb_ok].
Qed.

Definition guardb (types : list Z) (parts : list (list (list record))) : bool :=
  forallb (fun bs => forallb (fun r =>
    gap_freeb types (map e_typ (row_edges r)) &&
    forallb (fun t => exact_sumsb (weights_of_type r t)) (map e_typ (row_edges r))) (rows bs)) parts.
Lemma guardb_ok types parts : guardb types parts = true -> guarded f32_add f32_sub types parts.
Proof.
  unfold guardb. rewrite forallb_forall. intros H bs r Hbs Hr. specialize (H bs Hbs).
  rewrite forallb_forall in H. specialize (H r Hr). apply andb_true_iff in H. destruct H as [H1 H2]. split.
  - now apply gap_freeb_ok.
  - intro t. rewrite forallb_forall in H2. destruct (in_dec Z.eq_dec t (map e_typ (row_edges r))) as [Hin|Hin].
    + apply exact_sumsb_ok. auto.
    + assert (E : weights_of_type r t = []).
      { clear H1 H2. unfold weights_of_type. revert Hin. induction (row_edges r) as [|e l IH]; intro Hin; [reflexivity|]. cbn [filter].
        destruct (Z.eqb_spec (e_typ e) t) as [E|E]; [exfalso; apply Hin; now left|].
        apply IH. intro; apply Hin; now right. }
      rewrite E. exact I.
Qed.
