(** C99: the BERT encoder. *)
From Coq Require Import QArith Lqa.
From Verif Require Import Base Dist AttModel AttSpec AttProofs BertModel BertSpec BertProofs.

(** Full statement: every head of every position attends to the visible positions and nothing else, so
    that padding does not change the encoding; the encoding does not depend on whether activations are
    kept; embeddings add word, position and type; focal loss is the mean over the batch of its
    definition.  Shown for scores far from the mask, masks that show something, weights in a column;
    the rest is refuted below. *)

Theorem C99_attention_partial : forall ex l x mask H s h e, good_exp ex -> sound H l -> Forall (fun r => length r = H) x -> length mask = length x ->
  zero_one mask -> calm_layer l x -> visible mask <> [] -> (s < length x)%nat -> (h < l_heads l)%nat -> (e < l_size l)%nat ->
  attends ex (visible mask) (head_score l x h s) (fun t => nth (h * l_size l + e) (l_v l (nth t x [])) 0)
    (cell (self_attention ex l x (extended_mask mask)) s (h * l_size l + e)).
Proof. intros ex l x mask H s h e G F X L. exact (attention_cell ex l x mask H G F X L s h e). Qed.
Print Assumptions C99_attention_partial.
(** Shapes are kept, and a layer is attention, dense and normalisation of every row with what came in added. *)
Theorem C99_layer : forall ex l x mask H, sound H l -> Forall (fun r => length r = H) x -> length mask = length x ->
  let y := bert_layer ex l x (extended_mask mask) in
  length y = length x /\ Forall (fun r => length r = H) y /\
  forall s, (s < length x)%nat ->
    let a := l_ln1 l (add_row (l_o l (nth s (self_attention ex l x (extended_mask mask)) [])) (nth s x [])) in
    nth s y [] = l_ln2 l (add_row (l_out l (l_inter l a)) a).
Proof.
  intros ex l x mask H F X L. split; [exact (layer_length ex l x mask H F X L)|]. split; [exact (layer_rows ex l x mask H F X L)|].
  intros s Hs. exact (layer_row ex l x mask H F X L s Hs).
Qed.
Print Assumptions C99_layer.
(** Padded tokens change neither the rows of the others nor the pooled output, whatever they are, with
    any number of layers, however activations are kept. *)
Theorem C99_padding_partial : forall ex H ln word pos typ layers pool ids types pids pt mask all ckpt all' ckpt' e s p e' s' p',
  good_exp ex -> zero_one mask -> In 1%Z mask -> keeps H ln -> proper pool ->
  Forall (fun r => length r = H) word -> Forall (fun r => length r = H) pos -> Forall (fun r => length r = H) typ -> Forall (sound H) layers ->
  let types' := option_map (fun t => t ++ pt) types in
  let mask' := mask ++ repeat 0%Z (length pids) in
  bert_model ex ln word pos typ layers pool ids types (Some mask) all ckpt = Ok (e, s, p) ->
  bert_model ex ln word pos typ layers pool (ids ++ pids) types' (Some mask') all' ckpt' = Ok (e', s', p') ->
  (forall x, embed ln word pos typ ids types = Ok x -> calm ex (extended_mask mask) layers x) ->
  (forall x, embed ln word pos typ (ids ++ pids) types' = Ok x -> calm ex (extended_mask mask') layers x) ->
  begins s s' /\ same_row p p'.
Proof. exact model_pad. Qed.
Print Assumptions C99_padding_partial.
(** Without a mask nothing is masked: every token attends to every token. *)
Theorem C99_unmasked : forall ex ln word pos typ layers pool ids types all ckpt ones,
  length ones = length ids -> Forall (fun m => m = 1%Z) ones ->
  bert_model ex ln word pos typ layers pool ids types None all ckpt =
  bert_model ex ln word pos typ layers pool ids types (Some ones) all ckpt.
Proof. exact model_unmasked. Qed.
Print Assumptions C99_unmasked.
(** Activations that are recomputed change nothing in the outputs of the last layer and the pooler. *)
Theorem C99_checkpoint : forall ex ln word pos typ layers pool ids types mask all ckpt all' ckpt', layers <> [] ->
  match bert_model ex ln word pos typ layers pool ids types mask all ckpt, bert_model ex ln word pos typ layers pool ids types mask all' ckpt' with
  | Ok (_, s, p), Ok (_, s', p') => s = s' /\ p = p'
  | Fail a, Fail b => a = b
  | _, _ => False
  end.
Proof. exact model_flags. Qed.
Print Assumptions C99_checkpoint.
(** The list of encoded layers: the outputs after 1, 2, ... layers when they are kept. *)
Theorem C99_layers_partial : forall X M (mask : M) (layers : list (X -> M -> X)) x i, (i < length layers)%nat ->
  exists enc, encode mask true false layers x = Ok enc /\ length enc = length layers /\
    nth_error enc i = Some (fold_left (fun y f => f y mask) (firstn (S i) layers) x).
Proof.
  intros X M mask layers x i Hi. destruct (encode_right mask true false layers x) as (enc & E & _ & ->). exists (run_all mask layers x). split; [exact E|].
  split; [apply run_all_length|]. rewrite run_all_nth by exact Hi. reflexivity.
Qed.
Print Assumptions C99_layers_partial.
(** Embeddings: rows of three tables added; defined exactly for known words and positions. *)
Theorem C99_embed : forall ln word pos typ ids types x s, embed ln word pos typ ids types = Ok x -> (s < length ids)%nat ->
  let tt := match types with Some t => t | None => repeat 0%nat (length ids) end in
  length x = length ids /\
  exists w q t, nth_error word (nth s ids 0%nat) = Some w /\ nth_error pos s = Some q /\ nth_error typ (nth s tt 0%nat) = Some t /\
    nth s x [] = ln (add_row (add_row w q) t).
Proof. intros ln word pos typ ids types x s E Hs. split; [exact (embed_length _ _ _ _ _ _ _ E)|exact (embed_row _ _ _ _ _ _ _ _ E Hs)]. Qed.
Print Assumptions C99_embed.
Theorem C99_embed_ok : forall ln word pos typ ids, (exists x, embed ln word pos typ ids None = Ok x) <->
  Forall (fun i => i < length word)%nat ids /\ (length ids <= length pos)%nat /\ (ids <> [] -> typ <> []).
Proof. exact embed_ok. Qed.
Print Assumptions C99_embed_ok.
(** The pooled output is of the first position. *)
Theorem C99_pooled : forall ex ln word pos typ layers pool ids types mask all ckpt e s p,
  bert_model ex ln word pos typ layers pool ids types (Some mask) all ckpt = Ok (e, s, p) ->
  exists x first, embed ln word pos typ ids types = Ok x /\ s = fold_left (fun y l => bert_layer ex l y (extended_mask mask)) layers x /\ nth_error s 0 = Some first /\ p = pool first.
Proof.
  intros ex ln word pos typ layers pool ids types mask all ckpt e s p E. destruct (model_run _ _ _ _ _ _ _ _ _ _ _ _ _ _ _ E) as (x & f & Ex & _ & Es & E0 & Ep).
  exists x, f. split; [exact Ex|]. split; [|auto]. rewrite Es. generalize x. clear. induction layers as [|l t IH]; intros x; [reflexivity|]. cbn [map run fold_left]. apply IH.
Qed.
Print Assumptions C99_pooled.
(** A hidden size that is no multiple of the number of heads is an error, otherwise heads cover it. *)
Theorem C99_heads : forall hidden heads, (0 < heads)%nat ->
  (forall d, head_size hidden heads = Ok d -> (heads * d = hidden)%nat) /\ ((exists d, hidden = heads * d)%nat -> exists d, head_size hidden heads = Ok d).
Proof.
  intros hidden heads Hh. unfold head_size. split.
  - intros d E. destruct (Nat.eqb_spec (Nat.modulo hidden heads) 0) as [M|]; [|discriminate]. injection E as <-. apply Nat.div_exact in M; lia.
  - intros [d ->]. rewrite Nat.mul_comm, Nat.mod_mul by lia. rewrite Nat.eqb_refl. eexists. reflexivity.
Qed.
Print Assumptions C99_heads.
(** Focal loss with weights in a column. *)
Theorem C99_focal_partial : forall ex lg pw alpha c inputs targets,
  (forall a b, a == b -> lg a == lg b) -> (forall a b, a == b -> pw a == pw b) ->
  length alpha = c -> Forall (fun r => length r = c) inputs -> Forall (fun t => t < c)%nat targets -> length targets = length inputs ->
  exists cells, Forall2 Qeq cells (map (fun p => focal_cell ex lg pw alpha (fst p) (snd p)) (combine inputs targets)) /\
    focal ex lg pw (Column alpha) true c inputs targets = Ok (qsum idq cells / qnat (length inputs)) /\ focal ex lg pw (Column alpha) false c inputs targets = Ok (qsum idq cells).
Proof. exact focal_right. Qed.
Print Assumptions C99_focal_partial.

(** ** Examples *)
(** An exponential that is 1 down to -1000. *)
Definition step_exp (x : Q) : Q := if Qle_bool x (- (1000)) then 0 else 1.
Lemma step_good : good_exp step_exp.
Proof.
  unfold step_exp. split; [|split; [|split]].
  - intros x. destruct (Qle_bool x _); lra.
  - reflexivity.
  - intros x y E. assert (B : Qle_bool x (- (1000)) = Qle_bool y (- (1000))) by now rewrite E. now rewrite B.
  - intros x H. apply Qle_bool_iff in H. rewrite H. reflexivity.
Qed.
Definition idr (r : list Q) : list Q := r.
(** Two heads of one number each. *)
Definition two_heads : layer := Layer 2 1 1 idr idr (@rev Q) idr idr (map (Qmult 2)) idr idr.
Lemma rev_same a b : same_row a b -> same_row (rev a) (rev b).
Proof. intros H. induction H; cbn [rev]; [constructor|]. apply Forall2_app; [assumption|]. constructor; [assumption|constructor]. Qed.
Lemma two_sound : sound 2 two_heads.
Proof.
  unfold sound, keeps, proper, two_heads, idr. cbn [l_heads l_size l_q l_k l_v l_o l_ln1 l_inter l_out l_ln2].
  repeat split; try (intros; rewrite ?rev_length, ?map_length; assumption); auto using rev_same.
  intros a b H. induction H; cbn [map]; constructor; auto. now rewrite H.
Qed.
Definition words : list (list Q) := [[1; 2]; [3; 4]; [5; 6]].
Definition places : list (list Q) := [[0; 0]; [1; 0]; [0; 1]].
Example C99_case : 
  match bert_model step_exp idr words places [[0; 0]] [two_heads] idr [0; 1]%nat None (Some [1; 1]%Z) true false,
        bert_model step_exp idr words places [[0; 0]] [two_heads] idr [0; 1; 2]%nat None (Some [1; 1; 0]%Z) false true with
  | Ok (_, s, p), Ok (_, s', p') =>
      map (map Qred) s = [[12; 27 # 2]; [21; 39 # 2]] /\ map (map Qred) (firstn 2 s') = [[12; 27 # 2]; [21; 39 # 2]] /\ map Qred p = [12; 27 # 2] /\ map Qred p' = [12; 27 # 2]
  | _, _ => False
  end.
Proof. vm_compute. repeat split. Qed.
(** The scores of the example are far from the mask. *)
Example C99_case_calm : forall x, embed idr words places [[0; 0]] [0; 1; 2]%nat None = Ok x -> calm step_exp (extended_mask [1; 1; 0]%Z) [two_heads] x.
Proof.
  intros x E. injection E as <-. split; [|exact I]. intros h s t Hh Hs Ht. cbn in Hh, Hs, Ht.
  destruct h as [|[|h]]; try lia; destruct s as [|[|[|s]]]; try lia; destruct t as [|[|[|t]]]; try lia; vm_compute; split; discriminate.
Qed.
Example C99_case_chunks : encode 1%nat false true [Nat.add; Nat.mul; Nat.add; Nat.pow; Nat.add]%nat 3%nat = Ok [6]%nat.
Proof. reflexivity. Qed.
Example C99_case_focal : exists v, focal step_exp (fun x => x - 1) (fun x => x * x) (Column [1; 3]) true 2 [[0; 0]; [0; 5000]; [1; 0]] [0; 1; 1]%nat = Ok v /\ v == 1 # 6.
Proof. eexists. split; vm_compute; reflexivity. Qed.

(** ** What does not hold *)
(** nvidia_modeling.py 423, 944: a score 10000 above the others beats the mask. *)
Theorem C99_mask_refuted : let l := Layer 1 1 1 idr idr idr idr idr idr idr idr in
  good_exp step_exp /\ sound 1 l /\ cell (self_attention step_exp l [[1]; [20000]] (extended_mask [1; 0]%Z)) 0 0 == 20000.
Proof.
  split; [exact step_good|]. split; [|vm_compute; reflexivity]. unfold sound, keeps, proper, idr. cbn [l_heads l_size l_q l_k l_v l_o l_ln1 l_inter l_out l_ln2]. repeat split; auto.
Qed.
Print Assumptions C99_mask_refuted.
(** 944: when nothing is visible all positions are, padding included. *)
Theorem C99_none_refuted : forall ex l x mask H s h e, good_exp ex -> sound H l -> Forall (fun r => length r = H) x -> length mask = length x ->
  Forall (fun m => m = 0%Z) mask -> (s < length x)%nat -> (h < l_heads l)%nat -> (e < l_size l)%nat ->
  attends ex (seq 0 (length x)) (head_score l x h s) (fun t => nth (h * l_size l + e) (l_v l (nth t x [])) 0)
    (cell (self_attention ex l x (extended_mask mask)) s (h * l_size l + e)).
Proof. exact attention_none. Qed.
Print Assumptions C99_none_refuted.
(** 579: with activations recomputed only one of the encoded layers is returned although all are asked for. *)
Theorem C99_layers_refuted : exists (layers : list (nat -> nat -> nat)) enc, encode 1%nat true true layers 3%nat = Ok enc /\ length layers = 2%nat /\ length enc = 1%nat.
Proof. exists [Nat.add; Nat.mul], [4%nat]. repeat split. Qed.
Print Assumptions C99_layers_refuted.
(** Without layers all encoded layers are none and the last of them is an error. *)
Theorem C99_empty_refuted : bert_model step_exp idr words places [[0; 0]] [] idr [0]%nat None None true false = Fail EIndex /\
  exists r, bert_model step_exp idr words places [[0; 0]] [] idr [0]%nat None None false false = Ok r.
Proof. split; [vm_compute; reflexivity|]. eexists. vm_compute. reflexivity. Qed.
Print Assumptions C99_empty_refuted.
(** loss.py 15, 50-55: weights in a vector, as documented, are multiplied with every element of the batch. *)
Theorem C99_focal_refuted : exists v w, let lg := fun x => x - 1 in let pw := fun x => x * x in
  focal step_exp lg pw (Vector [1; 3]) false 2 [[0; 0]; [5000; 0]] [0; 1]%nat = Ok v /\
  focal step_exp lg pw (Column [1; 3]) false 2 [[0; 0]; [5000; 0]] [0; 1]%nat = Ok w /\ v == 9 # 2 /\ w == 25 # 8.
Proof. eexists _, _. cbv zeta. split; [vm_compute; reflexivity|]. split; [vm_compute; reflexivity|]. vm_compute. split; reflexivity. Qed.
Print Assumptions C99_focal_refuted.
