(** String features of temporal graphs. *)
From Verif Require Import Base WriterModel LoaderModel GraphModel GraphSpec FeatureModel FeatureSpec
  WriterProofs LoaderProofs QueryProofs GraphProofs ConvertProofs AnswerProofs FeatureProofs EdgeFeatureProofs TemporalProofs StringProofs.
From Coq Require Import Sorting.Sorted ZifyBool ZifyNat ZifyN.
Local Open Scope Z_scope.

Lemma tlook_facts hist t v : explains hist v ->
  (forall data, resolves data (Some t) (tlook hist t) v) /\ look_ok (tlook hist t) v /\ timely (Some t) (tlook hist t) v.
Proof.
  intro He. split; [intro; now apply tlook_resolves|]. destruct He as (_ & _ & Hp & _). unfold look_ok, timely, tlook.
  pose proof (entry_at_spec t (hist (bytes_of v))) as Hs. destruct (entry_at t (hist (bytes_of v))) as [y|]; [|auto].
  destruct Hs as (H1 & H2 & _). rewrite Forall_forall in Hp. specialize (Hp y H1). split; [now left|]. unfold already. intro. lia.
Qed.

Lemma explains_nonempty hist v : explains hist v -> (length (bytes_of v) =? 0)%nat = false.
Proof.
  intros (_ & _ & _ & E). rewrite E. cbn [bytes_of]. unfold temporal_bytes, cu32. rewrite app_length. cbn. reflexivity.
Qed.

Lemma chosen_temporal hist t vs : Forall (explains hist) vs -> (length vs <= 1)%nat ->
  chosen (tlook hist t) vs = match spec_temporal hist t vs with Some y => snd y | None => [] end.
Proof.
  intros He Hl. destruct vs as [|v [|v' l]]; [reflexivity| |cbn in Hl; lia]. inversion He as [|? ? Hv _]; subst.
  unfold chosen, spec_temporal. cbn [filter flat_map]. rewrite (explains_nonempty _ _ Hv). cbn [negb]. rewrite app_nil_r.
  unfold tlook. destruct (entry_at t (hist (bytes_of v))); reflexivity.
Qed.

Lemma offered_one F fs rws f :
  In f fs -> (length (filter (fun r => gives fs (F r)) rws) <= 1)%nat ->
  (forall v, In v (offered F rws f) -> (length (bytes_of v) =? 0)%nat = false) -> (length (offered F rws f) <= 1)%nat.
Proof.
  intros Hf Hl Hn.
  assert (E : offered F rws f = filter (fun v => negb (length (bytes_of v) =? 0)%nat) (offered F rws f)).
  { induction (offered F rws f) as [|v l IH]; [reflexivity|]. cbn. rewrite (Hn v) by now left. cbn. f_equal. apply IH. intros; apply Hn; now right. }
  rewrite E, (offered_filter F fs rws f Hf). destruct (filter (fun r => gives fs (F r)) rws) as [|r [|r' l]]; [cbn; lia| |cbn in Hl; lia].
  unfold offered. cbn [flat_map]. rewrite app_nil_r. destruct (value_at (F r) f) as [v|]; cbn; [destruct (_ =? 0)%nat; cbn; lia|lia].
Qed.

Section TemporalStrings.
Variables (fadd : N -> N -> N) (wval : N -> Z).
Notation converted := (converted fadd wval).
Definition entry_bytes (hist : list N -> list (Z * list N)) (t : Z) (vs : list (option (list N))) : list N :=
  match spec_temporal hist t vs with Some y => snd y | None => [] end.

Theorem converted_node_strings_ts wm parts g nodes fs ts hist :
  converted wm parts g -> Forall int32 fs ->
  (forall n, In n nodes -> (length (filter (fun r => gives fs (row_feats r)) (node_rows n (map rows parts))) <= 1)%nat) ->
  (forall n f v, In n nodes -> In f fs -> In v (node_values parts n f) -> explains hist v) ->
  node_string_features g nodes fs (Some ts) =
  Ok (map (fun x => map (fun f => Z.of_nat (length (entry_bytes hist (snd x) (node_values parts (fst x) f)))) fs) (combine nodes ts),
      concat (map (fun x => concat (map (fun f => entry_bytes hist (snd x) (node_values parts (fst x) f)) fs)) (combine nodes ts))).
Proof.
  intros C Hi Hu He. unfold node_string_features, stamps.
  set (D := fun x : Z * option Z => map (fun f => match snd x with Some t => entry_bytes hist t (node_values parts (fst x) f) | None => [] end) fs).
  rewrite (string_loop_pure _ D).
  - rewrite !map_map. unfold D. cbn [fst snd app]. f_equal. f_equal. apply map_ext. intro x. now rewrite map_map.
  - intros n t o Hin. apply in_map_iff in Hin. destruct Hin as ([n' t'] & E & Hin). injection E as -> <-. cbn [fst snd] in *.
    apply in_combine_l in Hin. unfold D. cbn [fst snd].
    assert (Hr : forall r f v, In r (node_rows n (map rows parts)) -> In f fs -> given (row_feats r) f = Some v -> explains hist v).
    { intros r f v Hr Hf Hv. apply (He n f v Hin Hf). rewrite <- node_values_offered. unfold offered. apply in_flat_map. exists r.
      split; [assumption|]. unfold given in Hv. destruct (value_at (row_feats r) f) as [w|]; [|discriminate].
      destruct (length (bytes_of w) =? 0)%nat; [discriminate|]. injection Hv as ->. now left. }
    rewrite (g_node_string_spec fadd wval wm parts g fs (Some t') n o (tlook hist t') C Hi (or_intror (Hu n Hin))).
    + rewrite map_map.
      assert (Hc : forall f, In f fs -> chosen (tlook hist t') (node_values parts n f) = entry_bytes hist t' (node_values parts n f)).
      { intros f Hf. apply chosen_temporal.
        - apply Forall_forall. intros v Hv. eapply He; eassumption.
        - rewrite <- node_values_offered. eapply offered_one; [eassumption|now apply Hu|]. intros v Hv. rewrite node_values_offered in Hv.
          eapply explains_nonempty, He; eassumption. }
      f_equal. f_equal; [|do 2 f_equal]; apply map_ext_in; intros f Hf; now rewrite (Hc f Hf).
    + discriminate.
    + intros r f v H1 H2 H3. apply tlook_facts. eapply Hr; eassumption.
Qed.

Theorem converted_edge_strings_ts wm parts g edges fs ts hist :
  Forall int32 fs ->
  (forall e, In e edges -> readable fadd wval wm parts g (fst (fst e))) ->
  (forall e r, In e edges -> In r (flat_map rows parts) -> row_id r = fst (fst e) -> searchable r) ->
  (forall e, In e edges -> (length (filter (fun r => gives fs (edge_row_feats e r)) (node_rows (fst (fst e)) (map rows parts))) <= 1)%nat) ->
  (forall e f v, In e edges -> In f fs -> In v (edge_values parts e f) -> explains hist v) ->
  edge_string_features g edges fs (Some ts) =
  Ok (map (fun x => map (fun f => Z.of_nat (length (entry_bytes hist (snd x) (edge_values parts (fst x) f)))) fs) (combine edges ts),
      concat (map (fun x => concat (map (fun f => entry_bytes hist (snd x) (edge_values parts (fst x) f)) fs)) (combine edges ts))).
Proof.
  intros Hi Hex HSr Hu He. unfold edge_string_features, stamps.
  set (D := fun x : Z * Z * Z * option Z => map (fun f => match snd x with Some t => entry_bytes hist t (edge_values parts (fst x) f) | None => [] end) fs).
  rewrite (string_loop_pure _ D).
  - rewrite !map_map. unfold D. cbn [fst snd app]. f_equal. f_equal. apply map_ext. intro x. now rewrite map_map.
  - intros e t o Hin. apply in_map_iff in Hin. destruct Hin as ([e' t'] & E & Hin). injection E as -> <-. cbn [fst snd] in *.
    apply in_combine_l in Hin. unfold D. cbn [fst snd].
    assert (Hr : forall r f v, In r (node_rows (fst (fst e)) (map rows parts)) -> In f fs -> given (edge_row_feats e r) f = Some v -> explains hist v).
    { intros r f v Hr Hf Hv. apply (He e f v Hin Hf). rewrite <- edge_values_offered. unfold offered. apply in_flat_map. exists r.
      split; [assumption|]. unfold given in Hv. destruct (value_at (edge_row_feats e r) f) as [w|]; [|discriminate].
      destruct (length (bytes_of w) =? 0)%nat; [discriminate|]. injection Hv as ->. now left. }
    rewrite (g_edge_string_spec fadd wval wm parts g fs (Some t') e o (tlook hist t') (Hex e Hin) Hi).
    + rewrite map_map.
      assert (Hc : forall f, In f fs -> chosen (tlook hist t') (edge_values parts e f) = entry_bytes hist t' (edge_values parts e f)).
      { intros f Hf. apply chosen_temporal.
        - apply Forall_forall. intros v Hv. eapply He; eassumption.
        - rewrite <- edge_values_offered. eapply offered_one; [eassumption|now apply Hu|]. intros v Hv. rewrite edge_values_offered in Hv.
          eapply explains_nonempty, He; eassumption. }
      f_equal. f_equal; [|do 2 f_equal]; apply map_ext_in; intros f Hf; now rewrite (Hc f Hf).
    + apply Forall_forall. intros r Hr' Hid. eapply HSr; eassumption.
    + right. now apply Hu.
    + discriminate.
    + intros r f v H1 H2 H3. apply tlook_facts. eapply Hr; eassumption.
Qed.
End TemporalStrings.
