(** Proofs about embeddings of tokens and the pooler. *)
From Coq Require Import QArith String Lia Lqa ZifyBool ZifyNat ZifyN.
From Verif Require Import Base Dist AliasModel AttModel AttSpec AttProofs TextModel TextSpec TextProofs.
Local Open Scope list_scope.
Local Open Scope nat_scope.

Lemma vadd_length x y : List.length (vadd x y) = Nat.min (List.length x) (List.length y).
Proof. unfold vadd, zip_with. now rewrite map_length, combine_length. Qed.
Lemma vadd_nth x y k : List.length x = List.length y -> (nth k (vadd x y) 0 == nth k x 0 + nth k y 0)%Q.
Proof.
  intros H. destruct (Nat.lt_ge_cases k (List.length x)) as [X|X].
  - unfold vadd. rewrite (zip_with_seq _ x y 0%Q 0%Q H). rewrite nth_map_seq by exact X. reflexivity.
  - rewrite !nth_overflow by (rewrite ?vadd_length; lia). reflexivity.
Qed.
Lemma vsum_from h l : Forall (fun r => List.length r = h) l -> forall x, List.length x = h ->
  List.length (fold_left vadd l x) = h /\ forall k, (nth k (fold_left vadd l x) 0 == nth k x 0 + qsum (fun r => nth k r 0) l)%Q.
Proof.
  induction 1 as [|r l Hr H IH]; intros x Hx; cbn [fold_left].
  - split; [exact Hx|]. intros k. cbn [qsum]. change (qsum (fun r : list Q => nth k r 0%Q) []) with 0%Q. ring.
  - destruct (IH (vadd x r)) as [L C]; [rewrite vadd_length; lia|]. split; [exact L|]. intros k. rewrite C, vadd_nth by lia.
    change (qsum (fun r0 : list Q => nth k r0 0%Q) (r :: l)) with (nth k r 0 + qsum (fun r0 => nth k r0 0) l)%Q. ring.
Qed.
Lemma nth_zeros k h : nth k (repeat 0%Q h) 0%Q = 0%Q.
Proof. apply nth_repeat. Qed.
Lemma embed_ok hidden nl sl table positions ids :
  0 < nl -> List.length ids = sl * nl -> Forall (fun n => n < List.length table) ids -> sl < List.length positions ->
  Forall (fun r => List.length r = hidden) table -> Forall (fun r => List.length r = hidden) positions ->
  exists rows, embed hidden nl table positions ids = Ok rows /\ List.length rows = sl /\
    forall i k, i < sl -> k < hidden ->
      (nth k (nth i rows []) 0 == qsum (fun j => cell table (nth (i * nl + j) ids 0%nat) k) (seq 0 nl) + cell positions (i + 1) k)%Q.
Proof.
  intros Hn L Ht Hp Ft Fp. unfold embed. replace (nl =? 0) with false by lia.
  assert (D : List.length ids / nl = sl) by (rewrite L; apply Nat.div_mul; lia). rewrite D. cbv zeta.
  rewrite (mapM_all_ok _ (fun i => nth (i + 1) positions [])).
  2:{ intros i Hi. apply in_seq in Hi. apply item_ok. lia. }
  cbn [bind]. rewrite (mapM_all_ok _ (fun n => nth n table [])).
  2:{ intros n Hi. rewrite Forall_forall in Ht. apply item_ok. now apply Ht. }
  cbn [bind]. rewrite L, Nat.eqb_refl. eexists. split; [reflexivity|].
  set (e := map (fun n => nth n table []) ids). set (A := map (vsum hidden) (chunks nl sl e)).
  set (B := map (fun i => nth (i + 1) positions []) (seq 0 sl)).
  assert (LA : List.length A = sl) by (unfold A; now rewrite map_length, chunks_length).
  assert (LB : List.length B = sl) by (unfold B; now rewrite map_length, seq_length).
  split; [unfold zip_with; rewrite map_length, combine_length; lia|].
  intros i k Hi Hk. rewrite (zip_with_seq _ A B [] []) by congruence. rewrite LA, nth_map_seq by exact Hi.
  assert (Le : List.length e = sl * nl) by (unfold e; now rewrite map_length).
  assert (Rl : List.length (row nl i e) = nl).
  { unfold row, slice. rewrite firstn_length, skipn_length, Le. nia. }
  assert (En : forall x, x < sl * nl -> nth x e [] = nth (nth x ids 0) table []).
  { intros x Hx. unfold e. rewrite (nth_map_in _ _ _ _ 0) by lia. reflexivity. }
  assert (Rn : forall j, j < nl -> nth j (row nl i e) [] = nth (nth (i * nl + j) ids 0) table []).
  { intros j Hj. rewrite <- En by nia. unfold row, slice. rewrite <- (nth_skip e (i * nl) j []).
    rewrite <- (firstn_skipn nl (skipn (i * nl) e)) at 2. rewrite app_nth1; [reflexivity|]. unfold row, slice in Rl. lia. }
  assert (Fr : Forall (fun r => List.length r = hidden) (row nl i e)).
  { apply Forall_forall. intros r Hr. destruct (In_nth _ _ [] Hr) as (j & Hj & <-). rewrite Rn by lia.
    rewrite Forall_forall in Ft, Ht. apply Ft. apply nth_In. apply Ht. apply nth_In. nia. }
  assert (NA : nth i A [] = vsum hidden (row nl i e)).
  { unfold A. rewrite (nth_map_in _ _ _ _ []) by (now rewrite chunks_length). now rewrite nth_chunks. }
  assert (NB : nth i B [] = nth (i + 1) positions []) by (unfold B; now rewrite nth_map_seq).
  rewrite NA, NB. unfold vsum. destruct (vsum_from hidden _ Fr (repeat 0%Q hidden)) as [Lv Cv]; [apply repeat_length|].
  rewrite vadd_nth.
  2:{ rewrite Lv. rewrite Forall_forall in Fp. symmetry. apply Fp. apply nth_In. lia. }
  rewrite Cv, nth_zeros, (qsum_nth _ []), Rl.
  rewrite (qsum_ext _ (fun j => cell table (nth (i * nl + j) ids 0%nat) k)).
  2:{ intros j Hj. apply in_seq in Hj. rewrite Rn by lia. reflexivity. }
  unfold cell. ring.
Qed.

(** Identifiers of the vocabulary: at most the number of lines. *)
Lemma vocab_id_le lines tok n : vocab_id lines tok n -> n <= List.length lines.
Proof.
  intros [[-> _]|(P & (l & Hl & _) & _)]; [lia|]. assert (n - 1 < List.length lines) by (apply nth_error_Some; congruence). lia.
Qed.
Lemma cell_of_le lines ws i j n : cell_of lines ws i j n -> n <= List.length lines.
Proof.
  unfold cell_of. destruct (nth_error _ i) as [w|]; [|lia]. destruct (j <? List.length w); [apply vocab_id_le|lia].
Qed.
Lemma qsum_seq_split f n m : n <= m -> (forall j, n <= j < m -> (f j == 0)%Q) -> (qsum f (seq 0 m) == qsum f (seq 0 n))%Q.
Proof.
  intros H Z. replace m with (n + (m - n)) by lia. rewrite seq_app, qsum_app. rewrite (qsum_zero f (seq (0 + n) (m - n))); [ring|].
  intros j Hj. apply in_seq in Hj. apply Z. lia.
Qed.
Lemma embed_text lower lines hidden nl sl table positions text ws :
  0 < nl -> separated (filter keep (lower text)) ws ->
  List.length lines < List.length table -> sl < List.length positions ->
  Forall (fun r => List.length r = hidden) table -> Forall (fun r => List.length r = hidden) positions ->
  (forall k, cell table 0 k == 0)%Q ->
  exists rows, embed hidden nl table positions (fst (triletter lower lines sl nl text)) = Ok rows /\ List.length rows = sl /\
    forall i k, i < sl -> k < hidden ->
      match nth_error (match ws with [] => [[35%N]] | _ => ws end) i with
      | Some w => exists id : nat -> nat, (forall j, j < Nat.min (List.length w) nl -> vocab_id lines (trigram w j) (id j)) /\
          (nth k (nth i rows []) 0 == qsum (fun j => cell table (id j) k) (seq 0 (Nat.min (List.length w) nl)) + cell positions (i + 1) k)%Q
      | None => (nth k (nth i rows []) 0 == cell positions (i + 1) k)%Q
      end.
Proof.
  intros Hn H Ht Hp Ft Fp Z. destruct (triletter_ok lower lines sl nl text ws H) as (L & _ & C & _).
  set (ids := fst (triletter lower lines sl nl text)) in *.
  assert (Fi : Forall (fun n => n < List.length table) ids).
  { apply Forall_forall. intros n Hin. destruct (In_nth _ _ 0 Hin) as (x & Hx & <-). rewrite L in Hx.
    assert (Dx : x = x / nl * nl + x mod nl) by (rewrite Nat.mul_comm; apply Nat.div_mod; lia).
    assert (x mod nl < nl) by (apply Nat.mod_upper_bound; lia).
    assert (x / nl < sl) by (apply Nat.div_lt_upper_bound; lia).
    specialize (C (x / nl) (x mod nl) ltac:(assumption) ltac:(assumption)). rewrite <- Dx in C. apply cell_of_le in C. lia. }
  destruct (embed_ok hidden nl sl table positions ids Hn L Fi Hp Ft Fp) as (rows & E & Lr & V).
  exists rows. split; [exact E|]. split; [exact Lr|]. intros i k Hi Hk. specialize (V i k Hi Hk).
  assert (Ci : forall j, j < nl -> cell_of lines ws i j (nth (i * nl + j) ids 0)) by (intros; now apply C).
  unfold cell_of in Ci. destruct (nth_error (match ws with [] => [[35%N]] | _ => ws end) i) as [w|].
  - exists (fun j => nth (i * nl + j) ids 0). split.
    + intros j Hj. specialize (Ci j ltac:(lia)). now replace (j <? List.length w) with true in Ci by lia.
    + rewrite V. rewrite (qsum_seq_split _ (Nat.min (List.length w) nl) nl); [reflexivity|lia|].
      intros j Hj. specialize (Ci j ltac:(lia)). replace (j <? List.length w) with false in Ci by lia. rewrite Ci. apply Z.
  - rewrite V. rewrite (qsum_zero _ (seq 0 nl)); [ring|]. intros j Hj. apply in_seq in Hj. rewrite Ci by lia. apply Z.
Qed.

(** ** Pooler *)
Lemma pool_all ex (G : good_exp ex) inv w hidden terms mask :
  List.length terms = List.length mask -> terms <> [] ->
  exists v, pool ex inv w hidden terms mask = Ok v /\ forall k, k < hidden ->
    attends ex (seq 0 (List.length terms)) (fun i => w (nth i terms []) + (qnat (nth i mask 0%nat) - 1) * inv)%Q
      (fun i => nth k (nth i terms []) 0%Q) (nth k v 0%Q).
Proof.
  intros L Hn. unfold pool. replace (List.length terms =? List.length mask) with true by lia. eexists. split; [reflexivity|]. intros k Hk.
  rewrite weighted_nth by exact Hk. rewrite (zip_with_seq _ terms mask [] 0 L).
  replace (combine terms) with (combine (B := Q) (map (fun i => nth i terms []) (seq 0 (List.length terms)))) by (now rewrite map_seq_nth).
  apply (soft_attends ex G (seq 0 (List.length terms)) _ (fun i => nth i terms []) k). destruct terms; [congruence|discriminate].
Qed.
Lemma pool_ok ex (G : good_exp ex) inv m w hidden terms mask :
  List.length terms = List.length mask -> Forall (fun x => x = 0 \/ x = 1) mask -> In 1 mask ->
  (forall t, In t terms -> - m <= w t <= m)%Q -> (2 * m + 1000 <= inv)%Q ->
  exists v, pool ex inv w hidden terms mask = Ok v /\ forall k, k < hidden ->
    attends ex (filter (fun i => nth i mask 0 =? 1) (seq 0 (List.length terms))) (fun i => w (nth i terms []))
      (fun i => nth k (nth i terms []) 0%Q) (nth k v 0%Q).
Proof.
  intros L Hm H1 Hw Hi. destruct (pool_all ex G inv w hidden terms mask L) as (v & E & A).
  { intros ->. cbn in L. destruct mask; [easy|discriminate]. }
  exists v. split; [exact E|]. intros k Hk. specialize (A k Hk).
  assert (Mi : forall i, i < List.length terms -> nth i mask 0 = 0 \/ nth i mask 0 = 1).
  { intros i X. rewrite Forall_forall in Hm. apply Hm. apply nth_In. lia. }
  assert (Q1 : (qnat 1 - 1 == 0)%Q) by reflexivity. assert (Q0 : (qnat 0 - 1 == - (1))%Q) by reflexivity.
  refine (attends_filter ex G (seq 0 (List.length terms)) (fun i => nth i mask 0 =? 1) _ _ _ _ _ _ _ A).
  - destruct (In_nth _ _ 0 H1) as (i & X & Y). intros F.
    assert (I : In i (filter (fun i => nth i mask 0 =? 1) (seq 0 (List.length terms)))).
    { apply filter_In. split; [apply in_seq; lia|lia]. }
    rewrite F in I. easy.
  - intros i Hi' P. apply Nat.eqb_eq in P. cbv beta. rewrite P, Q1. ring.
  - intros i i' Hi1 Hi2 P P'. apply in_seq in Hi1, Hi2. apply Nat.eqb_eq in P. cbv beta.
    assert (N0 : nth i' mask 0 = 0) by (destruct (Mi i' ltac:(lia)); [assumption|lia]). rewrite P, N0, Q1, Q0.
    pose proof (Hw (nth i terms []) ltac:(apply nth_In; lia)). pose proof (Hw (nth i' terms []) ltac:(apply nth_In; lia)). lra.
Qed.
