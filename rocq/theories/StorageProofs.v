(** All back ends return the bytes of the file. *)
From Coq Require Import ZifyBool ZifyNat ZifyN.
From Verif Require Import Base StorageModel.

(** Spec: what reads of these sizes, one after the other, have to return. *)
Fixpoint pieces (file : list N) (pos : nat) (rs : list (nat * nat)) : list (list N * nat) :=
  match rs with [] => [] | (s, c) :: rs' => (firstn (s * c) (skipn pos file), c) :: pieces file (pos + s * c) rs' end.
Definition total (rs : list (nat * nat)) : nat := fold_right (fun p n => fst p * snd p + n) 0 rs.

Lemma bytes_at_length f o n : o + n <= length f -> length (bytes_at f o n) = n.
Proof. intro H. unfold bytes_at. rewrite firstn_length, skipn_length. lia. Qed.
Lemma skipn_skipn' {A} (l : list A) a b : skipn a (skipn b l) = skipn (b + a) l.
Proof. revert b. induction l as [|x l IH]; intros [|b]; cbn; rewrite ?skipn_nil; auto. Qed.
Lemma bytes_at_app f o a b : bytes_at f o a ++ bytes_at f (o + a) b = bytes_at f o (a + b).
Proof.
  unfold bytes_at. rewrite <- skipn_skipn'. generalize (skipn o f). clear. induction a as [|a IH]; intro l; [reflexivity|].
  destruct l as [|x l]; cbn; [now rewrite firstn_nil|]. now rewrite IH.
Qed.

Lemma memory_reads_spec file offset n : offset + n <= length file ->
  memory_read (memory_data false file) offset n = Ok (firstn n (skipn offset file)).
Proof. intro H. unfold memory_read. cbn [memory_data]. rewrite (proj2 (Nat.leb_le _ _) H). reflexivity. Qed.
Lemma disk_reads_spec file rs : Forall (fun r => fst r < length file /\ fst r + snd r <= length file) rs ->
  disk_reads file false rs = Ok (map (fun r => firstn (snd r) (skipn (fst r) file)) rs).
Proof.
  induction 1 as [|[o n] rs [H1 H2] _ IH]; [reflexivity|]. cbn [fst snd] in *. cbn [disk_reads]. unfold disk_read.
  rewrite (proj2 (Nat.leb_gt _ _) H1). cbn [bind fst snd]. rewrite bytes_at_length by exact H2. rewrite Nat.ltb_irrefl, IH. reflexivity.
Qed.

Lemma fread_all_spec file rs : forall pos, pos + total rs <= length file -> Forall (fun r => 0 < fst r) rs ->
  fread_all file (pos, false) rs = Ok (pieces file pos rs).
Proof.
  induction rs as [|[s c] rs IH]; intros pos H HF; [reflexivity|]. cbn [total fold_right fst snd] in H. fold (total rs) in H.
  pose proof (Forall_inv HF) as Hs. cbn in Hs. cbn [fread_all]. unfold fread_seq. cbn [bind fst snd].
  rewrite bytes_at_length by lia. rewrite Nat.ltb_irrefl, IH; [|lia|exact (Forall_inv_tail HF)].
  cbn [bind pieces]. rewrite (proj2 (Nat.eqb_neq s 0)) by lia. rewrite (Nat.mul_comm s c), Nat.div_mul by lia. rewrite (Nat.mul_comm c s). reflexivity.
Qed.

Section StreamProofs.
Variable B : nat.
Variable file : list N.
(** The stream delivered [pos] bytes: the buffer holds the bytes from there up to the remote
    position; it is full unless the file is exhausted. *)
Definition at_pos (s : stream) (pos : nat) : Prop :=
  s_pos s = s_off s /\ s_off s <= length file /\ s_boff s <= B /\ length (s_buf s) = B /\ pos <= s_off s /\
  bytes_at (s_buf s) (s_boff s) (s_off s - pos) = bytes_at file pos (s_off s - pos) /\
  s_off s - pos <= B - s_boff s /\
  (s_off s - pos = B - s_boff s \/ s_off s = length file).
Lemma start_at junk : length junk = B -> at_pos (stream_start B junk) 0.
Proof. intro H. unfold at_pos, stream_start. cbn. repeat split; try lia. Qed.

Lemma poke_length l i w : i + length w <= length l -> length (poke l i w) = length l.
Proof. intro H. unfold poke. rewrite !app_length, firstn_length, skipn_length. lia. Qed.
Lemma bytes_at_poke l i w : i + length w <= length l -> bytes_at (poke l i w) 0 (i + length w) = firstn i l ++ w.
Proof.
  intro H. unfold bytes_at, poke. cbn [skipn]. rewrite app_assoc, firstn_app.
  assert (E : length (firstn i l ++ w) = i + length w) by (rewrite app_length, firstn_length; lia).
  rewrite E, Nat.sub_diag. cbn. rewrite app_nil_r. apply firstn_all2. lia.
Qed.
Lemma bytes_at_prefix l o n m : n <= m -> bytes_at l o n = firstn n (bytes_at l o m).
Proof. intro H. unfold bytes_at. rewrite firstn_firstn. now rewrite Nat.min_l by exact H. Qed.
Lemma bytes_at_suffix f o a n : bytes_at f (o + a) n = skipn a (bytes_at f o (a + n)).
Proof. unfold bytes_at. rewrite <- skipn_skipn'. generalize (skipn o f). intro l. revert l. induction a as [|a IH]; intro l; [reflexivity|]. destruct l as [|x l]; cbn; [now rewrite firstn_nil|]. apply IH. Qed.

Lemma stream_read_spec s pos size count : 0 < B -> at_pos s pos -> pos + size * count <= length file ->
  (size * count <= B / 2 \/ B < size * count \/ s_boff s = B) ->
  exists s', stream_read B file s size count = Ok (firstn (size * count) (skipn pos file), count, s') /\ at_pos s' (pos + size * count).
Proof.
  intros HB (P1 & P2 & P3 & P4 & P5 & P6 & P7 & P8) Hr Hsz. unfold stream_read. set (n := size * count) in *.
  set (left := B - s_boff s) in *. fold (bytes_at file pos n).
  destruct (Nat.ltb_spec B n) as [Hbig|Hsmall].
  - (* directly into the output *)
    assert (Hl : s_off s - pos = left) by lia.
    unfold remote_read. rewrite (proj2 (Nat.leb_le _ _)) by lia. cbn [bind].
    eexists. split.
    + f_equal. f_equal. f_equal. rewrite <- Hl, P6, P1. replace (s_off s) with (pos + (s_off s - pos)) at 2 by lia.
      rewrite bytes_at_app. f_equal. lia.
    + unfold at_pos. cbn [s_pos s_buf s_boff s_off Nat.add]. assert (Ez : s_off s + (n - left) - (pos + n) = 0) by lia. rewrite Ez.
      repeat split; try lia; auto.
  - destruct ((s_off s =? length file) && (left <? n)) eqn:Eend.
    { exfalso. apply andb_true_iff in Eend. destruct Eend as [E1 E2]. apply Nat.eqb_eq in E1. apply Nat.ltb_lt in E2. lia. }
    destruct (Nat.ltb_spec left n) as [Hl|Hl].
    + (* refill *)
      cbn [bind].
      assert (Hne : s_off s <> length file) by (intro E; apply Nat.eqb_eq in E; rewrite E in Eend; cbn in Eend; lia).
      assert (Hv : s_off s - pos = left) by lia.
      assert (Hov : left <= s_boff s).
      { destruct Hsz as [H|[H|H]]; [|lia|lia]. pose proof (Nat.div_mod B 2 ltac:(lia)). lia. }
      rewrite (proj2 (Nat.ltb_ge _ _) Hov).
      set (rs := Nat.min (s_boff s) (length file - s_off s)).
      assert (Hrs : 0 < rs) by (unfold rs; lia). rewrite (proj2 (Nat.eqb_neq rs 0)) by lia.
      unfold remote_read. rewrite (proj2 (Nat.leb_le _ _)) by (rewrite P1; unfold rs; lia). cbn [bind].
      set (kept := bytes_at (s_buf s) (s_boff s) left). set (more := bytes_at file (s_pos s) rs).
      assert (Lk : length kept = left) by (apply bytes_at_length; rewrite P4; lia).
      assert (Lm : length more = rs) by (apply bytes_at_length; rewrite P1; unfold rs; lia).
      set (buf := poke (poke (s_buf s) 0 kept) left more).
      assert (Lb : length buf = B).
      { unfold buf. rewrite poke_length; rewrite poke_length; lia. }
      assert (Eb : bytes_at buf 0 (left + rs) = bytes_at file pos (left + rs)).
      { unfold buf. rewrite <- Lm at 1. rewrite bytes_at_poke by (rewrite poke_length; lia).
        replace (firstn left (poke (s_buf s) 0 kept)) with kept.
        - unfold kept, more. rewrite <- Hv, P6, P1. replace (s_off s) with (pos + (s_off s - pos)) at 2 by lia. apply bytes_at_app.
        - unfold poke. cbn [firstn app]. rewrite firstn_app, Lk, Nat.sub_diag. cbn. now rewrite app_nil_r, firstn_all2 by lia. }
      cbn [s_buf s_boff s_pos s_off]. eexists. split.
      * f_equal. f_equal. f_equal.
        assert (Hn : n <= left + rs) by (unfold rs; lia).
        rewrite (bytes_at_prefix buf 0 n (left + rs)) by exact Hn. rewrite Eb. now rewrite <- bytes_at_prefix by exact Hn.
      * unfold at_pos. cbn [s_pos s_buf s_boff s_off Nat.add]. repeat split; try (unfold rs; lia).
        -- assert (Hn : n <= left + rs) by (unfold rs; lia).
           replace (s_off s + rs - (pos + n)) with (left + rs - n) by lia.
           rewrite (bytes_at_suffix file pos n). replace (n + (left + rs - n)) with (left + rs) by lia. rewrite <- Eb.
           change n with (0 + n) at 1. rewrite (bytes_at_suffix buf 0 n). replace (n + (left + rs - n)) with (left + rs) by lia. reflexivity.
    + (* served from the buffer *)
      cbn [bind]. assert (Hv : n <= s_off s - pos) by lia. eexists. split.
      * f_equal. f_equal. f_equal. rewrite (bytes_at_prefix (s_buf s) _ n (s_off s - pos)) by exact Hv. rewrite P6. now rewrite <- bytes_at_prefix by exact Hv.
      * unfold at_pos. cbn [s_pos s_buf s_boff s_off Nat.add]. repeat split; try lia.
        rewrite (bytes_at_suffix (s_buf s)), (bytes_at_suffix file). replace (n + (s_off s - (pos + n))) with (s_off s - pos) by lia. now rewrite P6.
Qed.
Lemma stream_reads_spec rs : 0 < B -> forall s pos, at_pos s pos -> pos + total rs <= length file ->
  Forall (fun r => fst r * snd r <= B / 2 \/ B < fst r * snd r) rs ->
  stream_reads B file s rs = Ok (pieces file pos rs).
Proof.
  intro HB. induction rs as [|[sz c] rs IH]; intros s pos Hs Ht HF; [reflexivity|]. cbn [total fold_right fst snd] in Ht. fold (total rs) in Ht.
  pose proof (Forall_inv HF) as H. cbn [fst snd] in H.
  destruct (stream_read_spec s pos sz c HB Hs ltac:(lia) ltac:(tauto)) as (s' & E & Hs').
  cbn [stream_reads]. rewrite E. cbn [bind fst snd]. rewrite (IH s' (pos + sz * c)); [reflexivity|exact Hs'|lia|exact (Forall_inv_tail HF)].
Qed.
Lemma stream_all junk r rs : 0 < B -> length junk = B -> total (r :: rs) <= length file ->
  Forall (fun r => fst r * snd r <= B / 2 \/ B < fst r * snd r) rs ->
  stream_reads B file (stream_start B junk) (r :: rs) = Ok (pieces file 0 (r :: rs)).
Proof.
  intros HB HJ Ht HF. destruct r as [sz c]. cbn [total fold_right fst snd] in Ht. fold (total rs) in Ht.
  destruct (stream_read_spec (stream_start B junk) 0 sz c HB (start_at junk HJ) ltac:(lia)) as (s' & E & Hs'); [right; right; reflexivity|].
  cbn [stream_reads]. rewrite E. cbn [bind fst snd]. rewrite (stream_reads_spec rs HB s' (0 + sz * c)); [reflexivity|exact Hs'|lia|exact HF].
Qed.
End StreamProofs.
