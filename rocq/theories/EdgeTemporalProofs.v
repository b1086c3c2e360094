(** Temporal edge features. *)
From Verif Require Import Base WriterModel LoaderModel GraphModel GraphSpec FeatureModel FeatureSpec
  WriterProofs LoaderProofs QueryProofs GraphProofs ConvertProofs AnswerProofs FeatureProofs TemporalProofs EdgeFeatureProofs.
From Coq Require Import Sorting.Sorted ZifyBool ZifyNat ZifyN.
Local Open Scope Z_scope.

(** The blocks of the source that have the edge. *)
Definition holders (parts : list (list (list record))) (e : Z * Z * Z) : list row :=
  filter (fun r => (row_id r =? fst (fst e)) && existsb (same_edge e) (row_edges r)) (flat_map rows parts).

Lemma find_existsb {A} (f : A -> bool) l : existsb f l = match find f l with Some _ => true | None => false end.
Proof. induction l as [|a l IH]; [reflexivity|]. cbn. destruct (f a); [reflexivity|exact IH]. Qed.

Lemma efold_holders ts look parts e f :
  efold ts look parts e f = snd (fold_left (fun x r => erow ts look e r f x) (holders parts e) (-1, zeros (snd f))).
Proof.
  unfold efold, efull, holders, node_rows. rewrite flat_map_concat_map. generalize (-1, zeros (snd f)).
  induction (concat (map rows parts)) as [|r rws IH]; intro x; [reflexivity|]. cbn [filter].
  destruct (row_id r =? fst (fst e)); cbn [andb]; [|apply IH]. rewrite find_existsb. cbn [fold_left].
  unfold erow at 2. destruct (find (same_edge e) (row_edges r)) as [y|] eqn:E; [|apply IH].
  cbn [fold_left]. rewrite IH. unfold erow at 3. rewrite E. reflexivity.
Qed.

Lemma edge_values_holders parts e f :
  edge_values parts e f = flat_map (fun r => match find (same_edge e) (row_edges r) with
                                             | Some x => opt_list (value_at (e_feats x) f) | None => [] end) (holders parts e).
Proof.
  unfold edge_values, holders. induction (flat_map rows parts) as [|r rws IH]; [reflexivity|]. cbn [flat_map filter].
  destruct (row_id r =? fst (fst e)); cbn [andb]; [|exact IH]. rewrite find_existsb.
  destruct (find (same_edge e) (row_edges r)) as [y|] eqn:E; [|exact IH]. cbn [flat_map]. rewrite E. now rewrite IH.
Qed.

Lemma efold_temporal hist t parts e f :
  (length (holders parts e) <= 1)%nat -> (forall v, In v (edge_values parts e (fst f)) -> explains hist v) ->
  efold (Some t) (tlook hist t) parts e f =
  fixed (snd f) (match spec_temporal hist t (edge_values parts e (fst f)) with Some x => snd x | None => [] end).
Proof.
  intros H1 He. rewrite efold_holders. rewrite edge_values_holders in *.
  destruct (holders parts e) as [|r [|r' l]]; [cbn; symmetry; apply fixed_nil| |cbn in H1; lia].
  cbn [fold_left flat_map] in *. rewrite app_nil_r in *. unfold erow.
  destruct (find (same_edge e) (row_edges r)) as [x|]; [|cbn; symmetry; apply fixed_nil].
  unfold estep. cbn [already fst snd]. destruct (value_at (e_feats x) (fst f)) as [v|]; cbn [opt_list] in *.
  - unfold spec_temporal. cbn [flat_map]. rewrite app_nil_r. unfold tlook.
    pose proof (entry_at_spec t (hist (bytes_of v))) as Hs. destruct (He v (or_introl eq_refl)) as (_ & _ & Hp & _).
    destruct (entry_at t (hist (bytes_of v))) as [y|]; cbn [opt_list newest_from fst snd].
    + destruct Hs as (Hs1 & Hs2 & _). rewrite Forall_forall in Hp. specialize (Hp y Hs1).
      destruct (Z.eqb_spec (-1) t); [lia|reflexivity].
    + rewrite !fixed_nil. destruct (-1 =? t); reflexivity.
  - unfold spec_temporal. cbn [flat_map newest_from]. rewrite fixed_nil. destruct (-1 =? t); reflexivity.
Qed.

Section TemporalEdges.
Variables (fadd : N -> N -> N) (wval : N -> Z).
Theorem converted_edge_features_ts wm parts g edges fs ts hist :
  converted fadd wval wm parts g -> Forall (fun f => int32 (fst f)) fs ->
  (forall e r, In e edges -> In r (flat_map rows parts) -> row_id r = fst (fst e) -> searchable r) ->
  (forall e, In e edges -> (length (holders parts e) <= 1)%nat) ->
  (forall e f v, In e edges -> In f (map fst fs) -> In v (edge_values parts e f) -> explains hist v) ->
  edge_features g edges fs (Some ts) =
  Ok (map (fun x => concat (map (fun f => fixed (snd f)
                 (match spec_temporal hist (snd x) (edge_values parts (fst x) (fst f)) with Some y => snd y | None => [] end)) fs))
          (combine edges ts)).
Proof.
  intros C Hi HSr H1 He. unfold edge_features, per_elem. apply mapM_pure. intros [e t] Hin. cbn [fst snd].
  apply in_combine_l in Hin.
  rewrite (g_edge_feature_spec fadd wval wm parts g fs (Some t) e (tlook hist t) C Hi).
  - f_equal. f_equal. apply map_ext_in. intros f Hf. apply efold_temporal; [now apply H1|]. intros v Hv.
    eapply (He e (fst f)); [assumption|now apply in_map|assumption].
  - apply Forall_forall. intros r Hr Hid. eapply HSr; eassumption.
  - intros r x f v data Hr Hx Hf Hv. apply tlook_resolves.
    eapply (He e (fst f)); [assumption|now apply in_map|]. unfold edge_values. apply in_flat_map. exists r.
    unfold node_rows in Hr. rewrite flat_map_concat_map. apply filter_In in Hr. destruct Hr as [Hr Hr2]. split; [assumption|].
    rewrite Hr2, Hx, Hv. now left.
Qed.
End TemporalEdges.
