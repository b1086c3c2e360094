(** Uniform neighbor sampling with replacement through servers: every slot is uniform. *)
From Coq Require Import Lqa Permutation.
From Verif Require Import Base Dist WriterModel LoaderModel GraphModel GraphSpec LoaderProofs GraphProofs ConvertProofs AnswerProofs
  ReservoirModel ReservoirProofs ShardProofs NeighborModel NeighborProofs UniformProofs FeatureModel ServerModel ServerProofs
  DUniformModel DUniformProofs.
From Coq Require Import ZifyBool ZifyNat ZifyN.
Local Open Scope Q_scope.

Lemma map_repeat_ {A B} (f : A -> B) a n : map f (repeat a n) = repeat (f a) n.
Proof. induction n; cbn [repeat map]; congruence. Qed.

(** ** Lists of independent draws *)
Lemma ex_dlist_cons {A} (d : dist A) ds f : ex (dlist (d :: ds)) f == ex d (fun a => ex (dlist ds) (fun l => f (a :: l))).
Proof. cbn [dlist]. rewrite ex_bind. apply ex_ext_all. intro a. apply ex_map. Qed.

Lemma ex_dlist_mass {A} (ds : list (dist A)) c : Forall (fun d => ex d (fun _ => 1) == 1) ds -> ex (dlist ds) (fun _ => c) == c.
Proof.
  induction 1 as [|d ds H _ IH]; [apply ex_ret|]. rewrite ex_dlist_cons.
  rewrite (ex_ext_all _ _ (fun _ => c * 1)) by (intro; rewrite IH; ring). rewrite ex_scale, H. ring.
Qed.

Lemma ex_dlist_nth {A} (ds : list (dist A)) dd (a0 : A) f i : Forall (fun d => ex d (fun _ => 1) == 1) ds -> (i < length ds)%nat ->
  ex (dlist ds) (fun l => f (nth i l a0)) == ex (nth i ds dd) f.
Proof.
  intro H. revert i. induction H as [|d ds H F IH]; intros i Hi; [cbn in Hi; lia|]. rewrite ex_dlist_cons.
  destruct i as [|i]; cbn [nth].
  - apply ex_ext_all. intro a. now apply ex_dlist_mass.
  - rewrite (ex_ext_all _ _ (fun _ => ex (nth i ds dd) f * 1)).
    + rewrite ex_scale, H. ring.
    + intro a. rewrite IH by (cbn [length] in Hi; lia). ring.
Qed.

Lemma in_dlist {A} (ds : list (dist A)) l : In l (map fst (dlist ds)) -> Forall2 (fun d a => In a (map fst d)) ds l.
Proof.
  revert l. induction ds as [|d ds IH]; intros l H; cbn [dlist] in H.
  - destruct H as [<-|[]]. constructor.
  - unfold dbind in H. apply in_map_iff in H as ([l' p] & <- & H). apply in_flat_map in H as ([a q] & Ha & H).
    apply in_map_iff in H as ([m w] & E & H). cbn [fst snd] in *. injection E as -> _. unfold dmap in H. apply in_map_iff in H as ([t v] & E & H).
    cbn [fst snd] in E. injection E as <- _. constructor; [exact (in_map fst _ _ Ha)|]. apply IH. exact (in_map fst _ _ H).
Qed.

(** ** One merge *)
Section Merge.
Variable k : nat.
Definition mblend (s : nat) (e : nat * list slot) (f : option slot -> Q) (x : option slot) : Q :=
  if (fst e =? 0)%nat then f x
  else (qnat s * f x + qsum (fun i => f (nth_error (snd e) (i mod k))) (seq 0 (fst e))) / qnat (s + fst e).

Lemma mw_slot_blend s e f x : ex (mw_slot k s e x) f == mblend s e f x.
Proof.
  unfold mw_slot, mblend. destruct (fst e) as [|m] eqn:E; [apply ex_ret|]. rewrite <- E.
  replace (fst e =? 0)%nat with false by (rewrite E; reflexivity). cbn [Nat.eqb]. assert (Hp : (0 < fst e)%nat) by lia.
  rewrite ex_bind, ex_flip, ex_bind, ex_uniform, ex_ret.
  rewrite (qsum_ext _ (fun j => f (nth_error (snd e) (j mod k)))) by (intros; now rewrite ex_ret).
  rewrite qnat_add. pose proof (qnat_pos _ Hp). pose proof (qnat_nonneg s). field. split; lra.
Qed.

Lemma mblend_one s e x : mblend s e (fun _ => 1) x == 1.
Proof.
  unfold mblend. destruct (Nat.eqb_spec (fst e) 0); [reflexivity|]. rewrite qsum_const, seq_length, qnat_add.
  pose proof (qnat_pos (s + fst e) ltac:(lia)) as P. rewrite qnat_add in P. field. lra.
Qed.
Lemma mblend_ext s e f g x : (forall y, f y == g y) -> mblend s e f x == mblend s e g x.
Proof.
  intro H. unfold mblend. destruct (fst e =? 0)%nat; [apply H|]. rewrite (H x).
  rewrite (qsum_ext _ (fun i => g (nth_error (snd e) (i mod k)))) by (intros; apply H). reflexivity.
Qed.

Lemma mw_slots_prod s e : forall r (fs : list (option slot -> Q)),
  ex (mw_slots k s e r) (prodf fs) == prodf (map (mblend s e) fs) r.
Proof.
  induction r as [|x r IH]; intros fs; cbn [mw_slots].
  - rewrite ex_ret. destruct fs; reflexivity.
  - rewrite ex_bind. destruct fs as [|f fs]; cbn [map prodf].
    + transitivity (ex (mw_slot k s e x) (fun _ => 1)).
      * apply ex_ext_all. intros x'. rewrite ex_bind. rewrite <- (IH []).
        cbn [map prodf]. apply ex_ext_all. intros t'. rewrite ex_ret. destruct t'; reflexivity.
      * rewrite mw_slot_blend. apply mblend_one.
    + rewrite <- (IH fs), <- mw_slot_blend, <- ex_scale_r. apply ex_ext_all. intros x'.
      rewrite ex_bind. rewrite <- ex_scale. apply ex_ext_all. intros t'. rewrite ex_ret. reflexivity.
Qed.

(** What the entries do to a test of one slot. *)
Fixpoint mtest (es : list (nat * list slot)) (s : nat) (f : option slot -> Q) : option slot -> Q :=
  match es with [] => f | e :: t => mblend s e (mtest t (s + fst e) f) end.

Lemma merge_with_prod es : forall s r (fs : list (option slot -> Q)),
  ex (merge_with k s es r) (prodf fs) == prodf (map (mtest es s) fs) r.
Proof.
  induction es as [|e es IH]; intros s r fs; cbn [merge_with mtest].
  - rewrite ex_ret, map_id. reflexivity.
  - rewrite ex_bind. rewrite (ex_ext_all _ _ (prodf (map (mtest es (s + fst e)) fs))) by (intros; apply IH).
    rewrite mw_slots_prod, map_map. reflexivity.
Qed.

Lemma mtest_one es : forall s x, mtest es s (fun _ => 1) x == 1.
Proof.
  induction es as [|e es IH]; intros s x; cbn [mtest]; [reflexivity|]. rewrite (mblend_ext _ _ _ (fun _ => 1)) by (intros; apply IH). apply mblend_one.
Qed.

Lemma mw_slots_length s e r : forall q, In q (map fst (mw_slots k s e r)) -> length q = length r.
Proof.
  induction r as [|x r IH]; intros q H; cbn [mw_slots] in H; [destruct H as [<-|[]]; reflexivity|].
  apply in_map_iff in H as ([q' p] & <- & H). unfold dbind in H. apply in_flat_map in H as ([a v] & _ & H).
  apply in_map_iff in H as ([q2 w] & E & H). cbn [fst snd] in *. injection E as -> _.
  apply in_flat_map in H as ([t v'] & Ht & H). apply in_map_iff in H as ([q3 w'] & E & H). cbn [fst snd] in *. injection E as -> _.
  destruct H as [E|[]]. injection E as <- _. cbn [length]. f_equal. apply IH. exact (in_map fst _ _ Ht).
Qed.
Lemma merge_with_length es : forall s r q, In q (map fst (merge_with k s es r)) -> length q = length r.
Proof.
  induction es as [|e es IH]; intros s r q H; cbn [merge_with] in H; [destruct H as [<-|[]]; reflexivity|].
  apply in_map_iff in H as ([q' p] & <- & H). unfold dbind in H. apply in_flat_map in H as ([a v] & Ha & H).
  apply in_map_iff in H as ([q2 w] & E & H). cbn [fst snd] in *. injection E as -> _.
  apply (in_map fst) in H. cbn [fst] in H. rewrite (IH _ _ _ H). apply (mw_slots_length s e). exact (in_map fst _ _ Ha).
Qed.

Lemma prodf_at {X} (F : X -> Q) (d : X) j : forall r, (j < length r)%nat -> prodf (repeat (fun _ => 1) j ++ [F]) r == F (nth j r d).
Proof.
  induction j as [|j IH]; intros [|x r] H; cbn [length] in H; try lia; cbn [repeat app prodf nth].
  - destruct r; ring.
  - rewrite IH by lia. ring.
Qed.

Lemma prodf_skip {X} (g F : X -> Q) (d : X) j : (forall x, g x == 1) -> forall r, (j < length r)%nat ->
  prodf (repeat g j ++ [F]) r == F (nth j r d).
Proof.
  intro Hg. induction j as [|j IH]; intros [|x r] H; cbn [length] in H; try lia; cbn [repeat app prodf nth].
  - destruct r; ring.
  - rewrite IH, Hg by lia. ring.
Qed.

Lemma merge_with_slot es s r F j : (j < length r)%nat ->
  ex (merge_with k s es r) (fun q => F (nth j q None)) == mtest es s F (nth j r None).
Proof.
  intro Hj. rewrite (ex_ext _ _ (prodf (repeat (fun _ => 1) j ++ [F]))).
  - rewrite merge_with_prod, map_app. cbn [map]. rewrite map_repeat_. apply prodf_skip; [|assumption]. intro x. apply mtest_one.
  - intros q Hq. symmetry. apply prodf_at. now rewrite (merge_with_length _ _ _ _ Hq).
Qed.
Lemma merge_with_mass es s r : ex (merge_with k s es r) (fun _ => 1) == 1.
Proof.
  transitivity (ex (merge_with k s es r) (prodf [])); [apply ex_ext_all; intros []; reflexivity|].
  rewrite merge_with_prod. destruct r; reflexivity.
Qed.
End Merge.

(** ** Rows drawn by the servers, then merged *)
Lemma wr_mass {A} (bs : list (list A)) s r : ex (wr_run s bs r) (fun _ => 1) == 1.
Proof.
  transitivity (ex (wr_run s bs r) (prodf [])); [apply ex_ext_all; intros []; reflexivity|].
  rewrite wr_run_prod. destruct r; reflexivity.
Qed.
Lemma wr_slot_mean {A} (bs : list (list A)) k j (F : option A -> Q) : (j < k)%nat ->
  ex (wr_run 0 bs (repeat None k)) (fun q => F (nth j q None)) == blend 0 (concat bs) F None.
Proof.
  intro Hj. rewrite (ex_ext _ _ (prodf (repeat (fun _ => 1) j ++ [F]))).
  - rewrite wr_run_prod, map_app. cbn [map]. rewrite map_repeat_. rewrite (prodf_skip _ _ None j).
    + now rewrite nth_repeat.
    + intro x. unfold blend. destruct (Nat.eqb_spec (0 + length (concat bs)) 0); [reflexivity|].
      rewrite qsum_const, Nat.add_0_l, qnat_0. pose proof (qnat_pos (length (concat bs)) ltac:(lia)). field. lra.
    + now rewrite repeat_length.
  - intros q Hq. symmetry. apply prodf_at. rewrite (wr_run_length _ _ _ _ Hq). now rewrite repeat_length.
Qed.

Lemma blend_nil {A} s (f : option A -> Q) x : blend s [] f x == f x.
Proof.
  unfold blend. cbn [length qsum]. rewrite Nat.add_0_r. destruct (Nat.eqb_spec s 0); [reflexivity|].
  pose proof (qnat_pos s ltac:(lia)). field. lra.
Qed.

Definition all_of (os : list (option (list (list slot)))) : list slot := concat (map (fun o => concat (batches_of o)) os).

Lemma column_mean k default os (F : option slot -> Q) : (0 < k)%nat -> forall s x,
  ex (dlist (map (row_with k default) os)) (fun col => mtest k (present col) s F x) == blend s (all_of os) F x.
Proof.
  intro Hk. induction os as [|o os IH]; intros s x.
  - cbn [map dlist]. rewrite ex_ret. cbn [present flat_map mtest]. unfold all_of. cbn [map concat]. now rewrite blend_nil.
  - cbn [map]. rewrite ex_dlist_cons. unfold all_of. cbn [map concat]. fold (all_of os). destruct o as [bs|]; cbn [row_with batches_of].
    + set (L := concat bs). rewrite ex_map. rewrite <- blend_blend.
      set (H := blend (s + length L) (all_of os) F).
      set (row := fun r : list (option slot) => or_default default r).
      rewrite (ex_ext_all _ _ (fun r => mblend k s (length L, row r) H x)).
      2:{ intro r. transitivity (ex (dlist (map (row_with k default) os)) (fun col => mblend k s (length L, row r) (mtest k (present col) (s + length L) F) x)); [reflexivity|].
          unfold mblend. cbn [fst snd].
          destruct (Nat.eqb_spec (length L) 0) as [E|E]; [unfold H; apply IH|].
          rewrite (ex_ext_all _ _ (fun col => (/ qnat (s + length L)) * (qnat s * mtest k (present col) (s + length L) F x +
             qsum (fun i => mtest k (present col) (s + length L) F (nth_error (row r) (i mod k))) (seq 0 (length L))))) by (intro; unfold Qdiv; ring).
          rewrite ex_scale, ex_plus, ex_scale, ex_qsum, IH. fold H. unfold Qdiv. rewrite Qmult_comm. apply Qmult_comp; [|reflexivity].
          apply Qplus_comp; [reflexivity|]. apply qsum_ext. intros i _. rewrite IH. reflexivity. }
      unfold mblend, blend. cbn [fst snd]. destruct (Nat.eqb_spec (length L) 0) as [E|E].
      * rewrite (ex_ext_all _ _ (fun _ => H x * 1)) by (intro; ring). rewrite ex_scale, wr_mass, Qmult_1_r.
        assert (L = []) as EL by (destruct L; [reflexivity|discriminate]). rewrite EL. fold (blend s [] H x). now rewrite blend_nil.
      * replace (s + length L =? 0)%nat with false by (symmetry; apply Nat.eqb_neq; lia).
        rewrite (ex_ext_all _ _ (fun r => (/ qnat (s + length L)) * (qnat s * H x * 1 +
             qsum (fun i => H (nth_error (row r) (i mod k))) (seq 0 (length L))))) by (intro; unfold Qdiv; ring).
        rewrite ex_scale, ex_plus, ex_scale, ex_qsum, wr_mass. unfold Qdiv. rewrite Qmult_comm. apply Qmult_comp; [|reflexivity].
        rewrite Qmult_1_r. apply Qplus_comp; [reflexivity|].
        rewrite (qsum_ext _ (fun _ => qsum (fun y => H (Some y)) L / qnat (length L))).
        -- rewrite qsum_const, seq_length. pose proof (qnat_pos (length L) ltac:(lia)). field. lra.
        -- intros i _. assert (Hi : (i mod k < k)%nat) by (apply Nat.mod_upper_bound; lia).
           rewrite (ex_ext _ _ (fun q => (fun o => H (Some (match o with Some v => v | None => default end))) (nth (i mod k) q None))).
           ++ rewrite (wr_slot_mean bs k (i mod k) (fun o => H (Some (match o with Some v => v | None => default end))) Hi). fold L. unfold blend.
              rewrite Nat.add_0_l. replace (length L =? 0)%nat with false by (symmetry; apply Nat.eqb_neq; lia). rewrite qnat_0.
              pose proof (qnat_pos (length L) ltac:(lia)). field. lra.
           ++ intros q Hq. apply wr_run_length in Hq. rewrite repeat_length in Hq. unfold row, or_default. rewrite nth_error_map.
              rewrite (nth_error_nth' q None) by lia. reflexivity.
    + rewrite ex_ret. cbn [concat app]. apply IH.
Qed.

Lemma row_with_mass k default o : ex (row_with k default o) (fun _ => 1) == 1.
Proof. destruct o; cbn [row_with]; [rewrite ex_map; apply wr_mass|rewrite ex_ret; reflexivity]. Qed.

Lemma columns_nth {A} n : forall i (rowss : list (list (option A))), (i < n)%nat ->
  nth i (columns n rowss) [] = present (map (fun rows => nth i rows None) rowss).
Proof.
  induction n as [|n IH]; intros i rowss Hi; [lia|]. cbn [columns]. destruct i as [|i]; cbn [nth].
  - f_equal. apply map_ext. now intros [|].
  - rewrite IH by lia. rewrite map_map. f_equal. apply map_ext. intros [|]; [now destruct i|reflexivity].
Qed.
Lemma columns_length {A} n : forall rowss : list (list (option A)), length (columns n rowss) = n.
Proof. induction n as [|n IH]; intro; cbn [columns length]; [reflexivity|]. now rewrite IH. Qed.

(** Position [i] of every server's reply. *)
Lemma column_law k default n i : (i < n)%nat -> forall oss (G : list (option (nat * list slot)) -> Q), Forall (fun os => length os = n) oss ->
  ex (dlist (map (fun os => dlist (map (row_with k default) os)) oss)) (fun rowss => G (map (fun rows => nth i rows None) rowss)) ==
  ex (dlist (map (row_with k default) (map (fun os => nth i os None) oss))) G.
Proof.
  intros Hi oss G H. revert G. induction H as [|os oss Hl _ IH]; intro G; cbn [map].
  - cbn [dlist]. rewrite !ex_ret. reflexivity.
  - rewrite !ex_dlist_cons. cbn [map].
    rewrite (ex_ext_all _ _ (fun a => ex (dlist (map (row_with k default) (map (fun os => nth i os None) oss))) (fun l => G (nth i a None :: l))))
      by (intro a; apply (IH (fun l => G (nth i a None :: l)))).
    rewrite (ex_dlist_nth _ (row_with k default None) None (fun o => ex (dlist (map (row_with k default) (map (fun os => nth i os None) oss))) (fun l => G (o :: l)))).
    + now rewrite map_nth.
    + apply Forall_forall. intros d Hd. apply in_map_iff in Hd as (o & <- & _). apply row_with_mass.
    + now rewrite map_length, Hl.
Qed.

Lemma row_with_support k default o r : In r (map fst (row_with k default o)) ->
  match o with None => r = None | Some bs => exists e, r = Some (length (concat bs), e) /\ length e = k end.
Proof.
  destruct o as [bs|]; cbn [row_with]; intro H.
  - unfold dmap in H. rewrite map_map in H. apply in_map_iff in H as ([q p] & <- & H). cbn [fst]. eexists. split; [reflexivity|].
    unfold or_default. rewrite map_length. apply (in_map fst) in H. apply wr_run_length in H. cbn [fst] in H. now rewrite H, repeat_length.
  - destruct H as [<-|[]]. reflexivity.
Qed.

Section Servers.
Variable fadd : N -> N -> N.
Variable wval : N -> Z.

Lemma rows_aligned k default nodes os known rows :
  Forall2 (fun n o => known n = match o with Some _ => true | None => false end) nodes os ->
  In rows (map fst (dlist (map (row_with k default) os))) -> aligned k nodes rows.
Proof.
  intros Fk H. apply in_dlist in H. split.
  - clear Fk. remember (map (row_with k default) os) as ds eqn:E. revert os E. induction H as [|d r ds rows H _ IH]; intros [|o os] E; try discriminate; [constructor|].
    cbn [map] in E. injection E as -> ->. apply row_with_support in H. constructor; [|now apply (IH os)].
    destruct o; [destruct H as (e & -> & He); exact He|subst; exact I].
  - exists known. revert rows H. induction Fk as [|n o nodes os H _ IH]; intros rows Hr; cbn [map] in Hr; inversion Hr as [|? r ? rs Hd Ht]; subst; constructor.
    + apply row_with_support in Hd. rewrite H. destruct o; [destruct Hd as (e & -> & _)|subst]; reflexivity.
    + now apply IH.
Qed.

Lemma all_batches wm split gs nodes types ts :
  Forall2 (converted fadd wval wm) split gs -> stamped nodes ts ->
  Forall (fun parts => Forall (fun x => times_ok false wm parts (snd x)) (stamps nodes ts)) split ->
  exists oss, mapM (fun g => server_batches false g (make_sorted_list types) nodes ts) gs = Ok oss /\
    Forall (fun os => exists known, Forall2 (fun n o => known n = match o with Some _ => true | None => false end) nodes os) oss /\
    Forall2 (fun parts os => Forall2 (fun x o => offered wm types x parts (concat (batches_of o))) (stamps nodes ts) os) split oss.
Proof.
  intros FC Hst HT. induction FC as [|parts g split gs C _ IH]; [exists []; repeat split; constructor|]. inversion HT as [|? ? T1 T2]; subst.
  destruct (IH T2) as (oss & I1 & I2 & I3). destruct (server_batches_spec fadd wval false wm parts g types nodes ts C T1 Hst) as (os & known & E & F & K).
  exists (os :: oss). cbn [mapM]. rewrite E. cbn [bind]. rewrite I1. split; [reflexivity|]. split; constructor; eauto.
Qed.

Lemma rowss_aligned k default nodes oss rowss :
  Forall (fun os => exists known, Forall2 (fun n o => known n = match o with Some _ => true | None => false end) nodes os) oss ->
  In rowss (map fst (dlist (map (fun os => dlist (map (row_with k default) os)) oss))) -> Forall (aligned k nodes) rowss.
Proof.
  intros F H. apply in_dlist in H. revert rowss H. induction F as [|os oss (known & K) _ IH]; intros rowss H; cbn [map] in H; inversion H; subst; constructor.
  - eapply rows_aligned; eassumption.
  - now apply IH.
Qed.

(** Every slot on its own is a uniform choice from the edges offered by all servers. *)
Theorem d_with_uniform wm split gs nodes types ts count default ret i x :
  Forall2 (converted fadd wval wm) split gs -> stamped nodes ts -> (ret = true -> ts <> None) ->
  Forall (fun parts => Forall (fun x => times_ok false wm parts (snd x)) (stamps nodes ts)) split ->
  nth_error (stamps nodes ts) i = Some x ->
  exists ls, Forall2 (offered wm types x) split ls /\
  forall j f, (j < count)%nat ->
    ex (d_uniform_with ret gs nodes types ts count default) (on_ok (fun rows => f (nth j (nth i rows []) default))) ==
    match concat ls with [] => f default | _ :: _ => qsum f (concat ls) / qnat (length (concat ls)) end.
Proof.
  intros FC Hst Hret HT Hx. destruct (all_batches wm split gs nodes types ts FC Hst HT) as (oss & E & FK & FO).
  assert (Hi : (i < length nodes)%nat) by (rewrite <- (stamps_length nodes ts Hst); apply nth_error_Some; congruence).
  exists (map (fun o => concat (batches_of o)) (map (fun os => nth i os None) oss)). split.
  - clear - FO Hx. induction FO as [|parts os split oss H _ IH]; cbn [map]; constructor; [|exact IH].
    clear IH. revert i Hx. induction H as [|y o ys os H _ IHH]; intros [|i] Hx; try discriminate; cbn [nth nth_error] in *; [now injection Hx as ->|now apply IHH].
  - intros j f Hj. unfold d_uniform_with. rewrite E, ex_bind.
    set (F := fun o => f (match o with Some v => v | None => default end)).
    rewrite (ex_ext _ _ (fun rowss => (fun col => mtest count (present col) 0 F None) (map (fun rows => nth i rows None) rowss))).
    + assert (Hl : Forall (fun os : list (option (list (list slot))) => length os = length nodes) oss).
      { eapply Forall_impl; [|exact FK]. intros os (known & K). now rewrite (Forall2_len _ _ _ K). }
      rewrite (column_law count default (length nodes) i Hi oss (fun col => mtest count (present col) 0 F None) Hl).
      rewrite column_mean by lia. fold (all_of (map (fun os => nth i os None) oss)). unfold blend. rewrite Nat.add_0_l.
      destruct (all_of (map (fun os => nth i os None) oss)) as [|y l]; [reflexivity|]. cbn [length Nat.eqb]. rewrite qnat_0.
      unfold F at 1. assert (HS : qsum (fun y => F (Some y)) (y :: l) == qsum f (y :: l)) by (apply qsum_ext; reflexivity). rewrite HS.
      pose proof (qnat_pos (S (length l)) ltac:(lia)). field. lra.
    + intros rowss Hr. apply (rowss_aligned count default nodes oss rowss FK) in Hr. unfold d_entries. rewrite no_null by assumption.
      rewrite (entries_columns count nodes rowss Hr). rewrite ex_map. cbn [on_ok].
      rewrite (ex_ext _ _ (fun rows => (fun q => f (nth j (or_default default q) default)) (nth i rows []))).
      * rewrite (ex_dlist_nth _ (merge_with count 0 [] (repeat None count)) [] (fun q => f (nth j (or_default default q) default))).
        -- rewrite (map_nth (fun es => merge_with count 0 es (repeat None count))). rewrite columns_nth by assumption.
           rewrite (ex_ext_all _ _ (fun q => F (nth j q None))).
           ++ rewrite merge_with_slot by (rewrite repeat_length; assumption). now rewrite nth_repeat.
           ++ intro q. unfold F, or_default. rewrite <- (map_nth (fun o : option slot => match o with Some v => v | None => default end)). reflexivity.
        -- apply Forall_forall. intros d Hd. apply in_map_iff in Hd as (es & <- & _). apply merge_with_mass.
        -- now rewrite map_length, columns_length.
      * intros rows Hrows. apply in_dlist in Hrows. apply Forall2_len in Hrows. rewrite map_length, columns_length in Hrows.
        rewrite (nth_indep (map (or_default default) rows) [] (or_default default [])) by (rewrite map_length; lia).
        rewrite (map_nth (or_default default)). reflexivity.
Qed.

(** Every answer has one row of [count] slots per node. *)
Theorem d_with_shape wm split gs nodes types ts count default ret out :
  Forall2 (converted fadd wval wm) split gs -> stamped nodes ts -> (ret = true -> ts <> None) ->
  Forall (fun parts => Forall (fun x => times_ok false wm parts (snd x)) (stamps nodes ts)) split ->
  In out (map fst (d_uniform_with ret gs nodes types ts count default)) ->
  exists rows, out = Ok rows /\ length rows = length nodes /\ Forall (fun row => length row = count) rows.
Proof.
  intros FC Hst Hret HT H. destruct (all_batches wm split gs nodes types ts FC Hst HT) as (oss & E & FK & FO).
  unfold d_uniform_with in H. rewrite E in H. apply in_map_iff in H as ([o p] & <- & H). unfold dbind in H. apply in_flat_map in H as ([rowss q] & Hr & H).
  apply in_map_iff in H as ([o2 w] & Eo & H). cbn [fst snd] in *. injection Eo as -> _. apply (in_map fst) in Hr. cbn [fst] in Hr.
  apply (rowss_aligned count default nodes oss rowss FK) in Hr. unfold d_entries in H. rewrite no_null in H by assumption.
  rewrite (entries_columns count nodes rowss Hr) in H. unfold dmap in H. apply in_map_iff in H as ([rows v] & Eo & H). cbn [fst snd] in Eo. injection Eo as <- _.
  exists (map (or_default default) rows). split; [reflexivity|]. apply (in_map fst) in H. cbn [fst] in H. apply in_dlist in H.
  pose proof (Forall2_len _ _ _ H) as L. rewrite map_length, columns_length in L. rewrite map_length. split; [lia|].
  apply Forall_forall. intros row Hrow. apply in_map_iff in Hrow as (q' & <- & Hq). unfold or_default. rewrite map_length.
  clear L. remember (map (fun es => merge_with count 0 es (repeat None count)) (columns (length nodes) rowss)) as ds eqn:Ed.
  assert (A : Forall (fun d => exists es, d = merge_with count 0 es (repeat None count)) ds).
  { subst ds. apply Forall_forall. intros d Hd. apply in_map_iff in Hd as (es & <- & _). now exists es. }
  clear Ed. induction H as [|d r ds rows Hd _ IH]; [destruct Hq|]. inversion A as [|? ? (es & ->) A']; subst. destruct Hq as [<-|Hq]; [|now apply IH].
  rewrite (merge_with_length _ _ _ _ _ Hd). apply repeat_length.
Qed.
End Servers.
