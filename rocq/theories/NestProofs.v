(** Proofs about nested batches. *)
From Verif Require Import Base GraphModel ConvertProofs NestModel NestSpec.
From Coq Require Import Sorted ZifyBool ZifyNat.
Local Open Scope Z_scope.

Section TreeInd.
Variable P : tree -> Prop.
Hypothesis Ht : forall c v, P (Tensor c v).
Hypothesis Ho : forall v, P (Other v).
Hypothesis Hd : forall l, Forall (fun x => P (snd x)) l -> P (Dict l).
Hypothesis Hu : forall l, Forall P l -> P (Tuple l).
Hypothesis Hl : forall l, Forall P l -> P (Lst l).
Fixpoint tree_rect' (t : tree) : P t :=
  match t with
  | Tensor c v => Ht c v
  | Other v => Ho v
  | Dict l => Hd l ((fix go l : Forall (fun x => P (snd x)) l := match l with [] => Forall_nil _ | x :: r => Forall_cons x (tree_rect' (snd x)) (go r) end) l)
  | Tuple l => Hu l ((fix go l : Forall P l := match l with [] => Forall_nil _ | x :: r => Forall_cons x (tree_rect' x) (go r) end) l)
  | Lst l => Hl l ((fix go l : Forall P l := match l with [] => Forall_nil _ | x :: r => Forall_cons x (tree_rect' x) (go r) end) l)
  end.
End TreeInd.

(** One child of each kind of container. *)
Definition is_cont (t : tree) : bool := match t with Dict _ | Tuple _ | Lst _ => true | _ => false end.
Definition in_dict (x : tree) : res tree := if is_cont x then to_cuda x else match x with Tensor _ v => Ok (Tensor true v) | _ => Fail EAssert end.
Definition in_tuple (x : tree) : res tree := if is_cont x then to_cuda x else match x with Tensor _ v => Fail EFatal | _ => Ok x end.
Definition in_list (x : tree) : res tree := if is_cont x then to_cuda x else match x with Tensor _ v => Ok (Tensor true v) | _ => Ok x end.
Lemma dict_eq l : to_cuda (Dict l) = do l' <- mapM (fun x : Z * tree => do y <- in_dict (snd x) ;; Ok (fst x, y)) l ;; Ok (Dict l').
Proof.
  cbn [to_cuda]. f_equal. induction l as [|[k x] r IH]; [reflexivity|]. cbn [mapM fst snd]. rewrite IH. unfold in_dict. destruct x; cbn [is_cont bind]; try reflexivity.
  all: match goal with |- bind ?a _ = _ => destruct a; reflexivity end.
Qed.
Lemma tuple_eq l : to_cuda (Tuple l) = do l' <- mapM in_tuple l ;; Ok (Tuple l').
Proof. cbn [to_cuda]. f_equal. induction l as [|x r IH]; [reflexivity|]. cbn [mapM]. rewrite IH. unfold in_tuple. destruct x; reflexivity. Qed.
Lemma list_eq l : to_cuda (Lst l) = do l' <- mapM in_list l ;; Ok (Lst l').
Proof. cbn [to_cuda]. f_equal. induction l as [|x r IH]; [reflexivity|]. cbn [mapM]. rewrite IH. unfold in_list. destruct x; reflexivity. Qed.

(** All tensors moved. *)
Definition moved_to (t t' : tree) : Prop := forall p, node_at t' p = option_map on_device (node_at t p).
Lemma moved_children t t' : on_device (root t) = root t' -> Forall2 moved_to (children t) (children t') -> moved_to t t'.
Proof.
  intros R F [|i q]; cbn [node_at]; [now rewrite <- R|]. clear R. revert i. induction F as [|a b la lb H _ IH]; intros [|i]; cbn [nth_error]; try reflexivity; [apply H|apply IH].
Qed.
Lemma moved_leaf t : is_cont t = false -> forall t', t' = match t with Tensor _ v => Tensor true v | _ => t end -> moved_to t t'.
Proof. intros L t' ->. destruct t; try discriminate; intros [|[|i] q]; reflexivity. Qed.
Lemma mapM_forall2 {A B} (f : A -> res B) (R : A -> B -> Prop) l l' : Forall (fun x => forall y, f x = Ok y -> R x y) l -> mapM f l = Ok l' -> Forall2 R l l'.
Proof.
  intros F. revert l'. induction F as [|x l H _ IH]; intros l' E; cbn [mapM] in E; [injection E as <-; constructor|].
  destruct (f x) as [y|] eqn:Ey; [|discriminate]. cbn [bind] in E. destruct (mapM f l) as [ys|] eqn:Es; [|discriminate]. cbn [bind] in E. injection E as <-. constructor; [now apply H|now apply IH].
Qed.
Lemma forall2_length {A B} (R : A -> B -> Prop) l l' : Forall2 R l l' -> length l = length l'.
Proof. induction 1; cbn; congruence. Qed.
Lemma moved_any t : forall t', is_cont t = true -> to_cuda t = Ok t' -> moved_to t t'.
Proof.
  induction t as [c v|v|l F|l F|l F] using tree_rect'; intros t' C E; try discriminate C.
  - rewrite dict_eq in E. destruct (mapM _ l) as [l'|] eqn:M; [|discriminate]. cbn [bind] in E. injection E as <-.
    assert (G : Forall2 (fun x y : Z * tree => fst x = fst y /\ moved_to (snd x) (snd y)) l l').
    { refine (mapM_forall2 _ _ l l' _ M). revert F. apply Forall_impl. intros [k x] H [k' y] Ey. cbn [fst snd] in *. unfold in_dict in Ey.
      destruct (is_cont x) eqn:Cx.
      - destruct (to_cuda x) as [x'|]; [|discriminate]. cbn [bind] in Ey. injection Ey as <- <-. split; [reflexivity|now apply H].
      - destruct x; try discriminate Cx; try discriminate Ey. cbn [bind] in Ey. injection Ey as <- <-. split; [reflexivity|]. now apply moved_leaf. }
    apply moved_children; [cbn [root on_device]; f_equal; clear -G; induction G as [|? ? ? ? [H _] _ IH]; cbn; congruence|].
    cbn [children]. clear -G. induction G as [|? ? ? ? [_ H] _ IH]; cbn [map]; constructor; assumption.
  - rewrite tuple_eq in E. destruct (mapM _ l) as [l'|] eqn:M; [|discriminate]. cbn [bind] in E. injection E as <-.
    assert (G : Forall2 moved_to l l').
    { refine (mapM_forall2 _ _ l l' _ M). revert F. apply Forall_impl. intros x H y Ey. unfold in_tuple in Ey. destruct (is_cont x) eqn:Cx; [now apply H|].
      destruct x; try discriminate Cx; try discriminate Ey. injection Ey as <-. now apply moved_leaf. }
    apply moved_children; [cbn [root on_device]; f_equal; apply (forall2_length _ _ _ G)|exact G].
  - rewrite list_eq in E. destruct (mapM _ l) as [l'|] eqn:M; [|discriminate]. cbn [bind] in E. injection E as <-.
    assert (G : Forall2 moved_to l l').
    { refine (mapM_forall2 _ _ l l' _ M). revert F. apply Forall_impl. intros x H y Ey. unfold in_list in Ey. destruct (is_cont x) eqn:Cx; [now apply H|].
      destruct x; try discriminate Cx; injection Ey as <-; now apply moved_leaf. }
    apply moved_children; [cbn [root on_device]; f_equal; apply (forall2_length _ _ _ G)|exact G].
Qed.
Lemma moved_right t t' : container t -> to_cuda t = Ok t' -> forall p, node_at t' p = option_map on_device (node_at t p).
Proof. intros C. apply moved_any. destruct t; try destruct C; reflexivity. Qed.

(** When it succeeds. *)
Lemma node_app t p q : node_at t (p ++ q) = match p with [] => node_at t q | i :: r => match nth_error (children t) i with Some x => node_at x (r ++ q) | None => None end end.
Proof. destruct p; reflexivity. Qed.
Lemma movable_child t i x : movable t -> nth_error (children t) i = Some x -> movable x.
Proof.
  intros M E p j. destruct (M (i :: p) j) as [M1 M2]. cbn [app node_at] in M1, M2. rewrite E in M1, M2. split; assumption.
Qed.
Lemma movable_iff t : movable t <-> (forall i x, nth_error (children t) i = Some x -> movable x) /\
  match t with Dict l => Forall (fun x => match snd x with Other _ => False | _ => True end) l | Tuple l => Forall (fun x => match x with Tensor _ _ => False | _ => True end) l | _ => True end.
Proof.
  split.
  - intros M. split; [intros i x; now apply movable_child|]. destruct t as [| |l|l|]; try exact I; apply Forall_forall; intros x Hx; apply In_nth_error in Hx as [i Hi].
    + destruct (M [] i) as [M1 _]. cbn [app node_at root children] in M1. rewrite nth_error_map, Hi in M1. cbn [option_map] in M1. destruct (snd x) as [|v| | |]; try exact I. exact (M1 _ v eq_refl eq_refl).
    + destruct (M [] i) as [_ M2]. cbn [app node_at root children] in M2. rewrite Hi in M2. destruct x as [c v| | | |]; try exact I. exact (M2 _ c v eq_refl eq_refl).
  - intros [C H] [|k p] i.
    + cbn [app node_at]. split.
      * intros keys v E. destruct t as [| |l| |]; try discriminate E. cbn [children]. rewrite nth_error_map. destruct (nth_error l i) as [x|] eqn:Ei; [|discriminate]. cbn [option_map]. rewrite Forall_forall in H. specialize (H x (nth_error_In _ _ Ei)).
        destruct (snd x); try discriminate. destruct H.
      * intros n c v E. destruct t as [| | |l|]; try discriminate E. cbn [children]. destruct (nth_error l i) as [x|] eqn:Ei; [|discriminate]. rewrite Forall_forall in H. specialize (H x (nth_error_In _ _ Ei)).
        destruct x; try discriminate. destruct H.
    + cbn [app node_at]. destruct (nth_error (children t) k) as [x|] eqn:Ek; [|split; discriminate]. exact (C k x Ek p i).
Qed.
Lemma mapM_ok {A B} (f : A -> res B) l : (exists l', mapM f l = Ok l') <-> Forall (fun x => exists y, f x = Ok y) l.
Proof.
  induction l as [|x l IH]; cbn [mapM]; [split; [constructor|eexists; reflexivity]|]. split.
  - intros [l' E]. destruct (f x) as [y|] eqn:Ey; [|discriminate]. cbn [bind] in E. destruct (mapM f l) as [ys|] eqn:Es; [|discriminate]. constructor; [rewrite Ey; eexists; reflexivity|]. apply IH. eexists. reflexivity.
  - intros F. inversion F as [|? ? [y Ey] Fl]; subst. apply IH in Fl as [ys Es]. rewrite Ey, Es. eexists. reflexivity.
Qed.
Lemma bind_ok {A B} (r : res A) (f : A -> B) : (exists y, (do x <- r ;; Ok (f x)) = Ok y) <-> exists x, r = Ok x.
Proof. destruct r; cbn; split; intros [y E]; try discriminate; eexists; reflexivity. Qed.
Lemma movable_leaf t : is_cont t = false -> movable t.
Proof. intros C. apply movable_iff. destruct t; try discriminate; (split; [intros [|i] x E; discriminate|exact I]). Qed.
Lemma succeeds t : (exists t', to_cuda t = Ok t') <-> movable t.
Proof.
  induction t as [c v|v|l F|l F|l F] using tree_rect'.
  - split; [intros _; now apply movable_leaf|intros _; eexists; reflexivity].
  - split; [intros _; now apply movable_leaf|intros _; eexists; reflexivity].
  - rewrite dict_eq, bind_ok, mapM_ok, movable_iff. cbn [children]. rewrite !Forall_forall in *. split.
    + intros H. split; [intros i x E; rewrite nth_error_map in E; destruct (nth_error l i) as [y|] eqn:Ei; [|discriminate]; injection E as <-; apply nth_error_In in Ei|intros y Ei];
        specialize (H y Ei); specialize (F y Ei); rewrite bind_ok in H; unfold in_dict in H; destruct H as [z Hz].
      * destruct (is_cont (snd y)) eqn:Cy; [apply F; eexists; exact Hz|now apply movable_leaf].
      * destruct (snd y); try exact I. discriminate Hz.
    + intros [H1 H2] y Iy. specialize (H2 y Iy). specialize (F y Iy). rewrite bind_ok. unfold in_dict. apply In_nth_error in Iy as [i Ei].
      specialize (H1 i (snd y)). rewrite nth_error_map, Ei in H1. specialize (H1 eq_refl).
      destruct (is_cont (snd y)) eqn:Cy; [now apply F|]. destruct (snd y); try discriminate Cy; [eexists; reflexivity|destruct H2].
  - rewrite tuple_eq, bind_ok, mapM_ok, movable_iff. cbn [children]. rewrite !Forall_forall in *. split.
    + intros H. split; [intros i y Ei; apply nth_error_In in Ei|intros y Ei]; specialize (H y Ei); specialize (F y Ei); unfold in_tuple in H; destruct H as [z Hz].
      * destruct (is_cont y) eqn:Cy; [apply F; eexists; exact Hz|now apply movable_leaf].
      * destruct y; try exact I. discriminate Hz.
    + intros [H1 H2] y Iy. specialize (H2 y Iy). specialize (F y Iy). unfold in_tuple. apply In_nth_error in Iy as [i Ei]. specialize (H1 i y Ei).
      destruct (is_cont y) eqn:Cy; [now apply F|]. destruct y; try discriminate Cy; [destruct H2|eexists; reflexivity].
  - rewrite list_eq, bind_ok, mapM_ok, movable_iff. cbn [children]. rewrite !Forall_forall in *. split.
    + intros H. split; [intros i y Ei; apply nth_error_In in Ei|exact I]; specialize (H y Ei); specialize (F y Ei); unfold in_list in H; destruct H as [z Hz].
      destruct (is_cont y) eqn:Cy; [apply F; eexists; exact Hz|now apply movable_leaf].
    + intros [H1 _] y Iy. specialize (F y Iy). unfold in_list. apply In_nth_error in Iy as [i Ei]. specialize (H1 i y Ei).
      destruct (is_cont y) eqn:Cy; [now apply F|]. destruct y; try discriminate Cy; eexists; reflexivity.
Qed.

(** ** Encoders *)
Section Enc.
Context {Sq Mk Em Tm : Type}.
Notation ctx := (ctx Sq Mk Em Tm).
Variable encode : Sq -> Mk -> nat -> Em * Tm.
Notation enc_node := (enc_node encode).
Lemma twin_node pooler p : forall (c : ctx) out, ctx_at (twin_at encode pooler out c) p = option_map (enc_node pooler (out && (length p =? 0)%nat)) (ctx_at c p).
Proof.
  induction p as [|i p IH]; intros c out.
  - cbn [ctx_at length option_map]. replace (0 =? 0)%nat with true by reflexivity. rewrite andb_true_r. destruct c; cbn; try reflexivity; [destruct out; reflexivity|]. f_equal. f_equal. rewrite map_map. now apply map_ext.
  - cbn [length]. replace (S (length p) =? 0)%nat with false by reflexivity. rewrite andb_false_r. destruct c as [v|s m|l|e|e t]; cbn [twin_at ctx_at option_map]; try reflexivity; [destruct out; reflexivity|].
    rewrite nth_error_map. destruct (nth_error l i) as [x|]; [|reflexivity]. cbn [option_map snd]. rewrite IH. reflexivity.
Qed.
Lemma twin_right (l : list (Z * ctx)) pooler out p : (2 <= length p)%nat \/ out = false ->
  ctx_at (Sub (twin_forward encode l pooler out)) p = option_map (enc_node pooler false) (ctx_at (Sub l) p).
Proof.
  intros H. destruct p as [|i p]; [cbn; f_equal; f_equal; unfold twin_forward; rewrite map_map; now apply map_ext|].
  cbn [ctx_at]. unfold twin_forward. rewrite nth_error_map. destruct (nth_error l i) as [x|]; [|reflexivity]. cbn [option_map snd]. rewrite twin_node.
  replace (out && (length p =? 0)%nat) with false; [reflexivity|]. destruct H as [H| ->]; [|reflexivity]. cbn [length] in H. destruct out; [|reflexivity]. cbn [andb]. lia.
Qed.
Lemma twin_top (l : list (Z * ctx)) pooler i : ctx_at (Sub (twin_forward encode l pooler true)) [i] = option_map (enc_node pooler true) (ctx_at (Sub l) [i]).
Proof. cbn [ctx_at]. unfold twin_forward. rewrite nth_error_map. destruct (nth_error l i) as [x|]; [|reflexivity]. cbn [option_map snd]. exact (twin_node pooler [] (snd x) true). Qed.
End Enc.

Section Multi.
Context {Sq Mk Em Tm : Type}.
Variable encode : option Z -> Sq -> Mk -> nat -> Em * Tm.
Notation own := (own encode).
Notation emb_right := (emb_right encode).
Lemma index_in x l : In x l -> exists n, index_of x l = Ok n /\ nth_error l n = Some x /\ forall m, (m < n)%nat -> nth_error l m <> Some x.
Proof.
  induction l as [|y l IH]; [intros []|]. intros H. cbn [index_of]. destruct (Z.eqb_spec x y) as [->|N].
  - exists 0%nat. repeat split. intros m Hm. lia.
  - destruct H as [H|H]; [congruence|]. destruct (IH H) as (n & E & En & Em'). rewrite E. cbn [bind]. exists (S n). repeat split; [exact En|]. intros [|m] Hm; cbn [nth_error]; [congruence|apply Em'; lia].
Qed.
Lemma encoder_right share known t s m : In t known -> exists e, encoder_of share known t = Ok e /\ own share known t s m (encode (fst e) s m (snd e)).
Proof.
  intros H. unfold encoder_of, own. destruct share.
  - destruct (index_in t known H) as (n & E & En & Ef). rewrite E. cbn [bind]. eexists. split; [reflexivity|]. exists n. repeat split; assumption.
  - replace (existsb (Z.eqb t) known) with true by (symmetry; apply existsb_exists; exists t; split; [exact H|lia]). eexists. split; reflexivity.
Qed.
Lemma group_right share known ts : forall ss ms j last, Forall (fun t => In t known) ts -> (j + length ts <= length ss)%nat -> (j + length ts <= length ms)%nat ->
  exists embs term, group encode share known ss ms j ts last = Ok (embs, term) /\ length embs = length ts /\
  (forall k t s m e, nth_error ts k = Some t -> nth_error ss (j + k) = Some s -> nth_error ms (j + k) = Some m -> nth_error embs k = Some e -> exists w, own share known t s m (e, w)) /\
  (ts = [] -> term = last) /\
  (forall t s m, nth_error ts (length ts - 1) = Some t -> nth_error ss (j + length ts - 1) = Some s -> nth_error ms (j + length ts - 1) = Some m -> exists e w, term = Some w /\ own share known t s m (e, w)).
Proof.
  induction ts as [|t ts IH]; intros ss ms j last F H1 H2; cbn [group].
  - eexists _, _. split; [reflexivity|]. split; [reflexivity|]. split; [intros [|k]; discriminate|]. split; [reflexivity|discriminate].
  - inversion F as [|? ? Ft Fl]; subst. cbn [length] in *. destruct (nth_error ss j) as [s|] eqn:Es; [|apply nth_error_None in Es; lia]. destruct (nth_error ms j) as [m|] eqn:Em'; [|apply nth_error_None in Em'; lia].
    unfold item. rewrite Es, Em'. cbn [bind]. destruct (encoder_right share known t s m Ft) as (e & Ee & Oe). rewrite Ee. cbn [bind].
    destruct (IH ss ms (S j) (Some (snd (encode (fst e) s m (snd e)))) Fl ltac:(lia) ltac:(lia)) as (embs & term & E & L & R & T0 & T1). rewrite E. cbn [bind fst snd].
    eexists _, _. split; [reflexivity|]. split; [cbn; lia|]. split; [|split; [discriminate|]].
    + intros [|k] t' s' m' e' Ht Hs Hm He; cbn [nth_error] in Ht, He.
      * rewrite Nat.add_0_r in Hs, Hm. injection He as <-. exists (snd (encode (fst e) s m (snd e))). rewrite <- surjective_pairing. congruence.
      * apply (R k t' s' m' e' Ht); [|now replace (S j + k)%nat with (j + S k)%nat by lia|exact He]. now replace (S j + k)%nat with (j + S k)%nat by lia.
    + intros t' s' m' Ht Hs Hm. destruct ts as [|t2 ts].
      * cbn in Ht. cbn [length] in Hs, Hm. replace (j + 1 - 1)%nat with j in Hs, Hm by lia. rewrite (T0 eq_refl). eexists _, _. split; [reflexivity|]. rewrite <- surjective_pairing. congruence.
      * cbn [length] in *. apply (T1 t' s' m'); [|now replace (S j + S (length ts) - 1)%nat with (j + S (S (length ts)) - 1)%nat by lia|now replace (S j + S (length ts) - 1)%nat with (j + S (S (length ts)) - 1)%nat by lia].
        replace (S (S (length ts)) - 1)%nat with (S (S (length ts) - 1)) in Ht by lia. exact Ht.
Qed.
Lemma groups_later share known ss ms types : forall i, (0 < i)%nat -> fits known ss ms i types ->
  exists embs, groups encode share known ss ms i (map Some types) = Ok (embs, None) /\ emb_right share known ss ms i types embs.
Proof.
  induction types as [|ts types IH]; intros i Hi F; cbn [map groups].
  - exists []. split; [reflexivity|]. split; [reflexivity|]. intros [|k]; discriminate.
  - destruct (F 0%nat ts eq_refl) as (Ft & s & m & Es & Em' & L1 & L2). rewrite Nat.add_0_r in Es, Em'.
    destruct (group_right share known ts s m 0 None Ft ltac:(lia) ltac:(lia)) as (es & term & E & L & R & _).
    destruct (IH (S i) ltac:(lia)) as (embs & E2 & L3 & R2). { intros k ts' Hk. replace (S i + k)%nat with (i + S k)%nat by lia. exact (F (S k) ts' Hk). }
    assert (Q : exists q, match ts with [] => Ok ([], None) | _ => do s <- item ss i ;; do m <- item ms i ;; group encode share known s m 0 ts None end = Ok (es, q)).
    { destruct ts; [exists None; destruct es; [reflexivity|discriminate]|]. unfold item. rewrite Es, Em'. cbn [bind]. eexists. exact E. }
    destruct Q as [q Q]. rewrite Q. cbn [bind snd fst]. replace (i =? 0)%nat with false by lia. cbn [bind]. rewrite E2. cbn [bind fst snd].
    exists (es :: embs). split; [reflexivity|]. split; [cbn; lia|]. intros [|k] ts' es' H1 H2; cbn [nth_error] in H1, H2.
    + injection H1 as <-. injection H2 as <-. split; [exact L|]. intros j t e s' m' sj mj Ht He Hs Hsj Hm Hmj. rewrite Nat.add_0_r in Hs, Hm. rewrite Es in Hs. rewrite Em' in Hm. injection Hs as <-. injection Hm as <-. exact (R j t sj mj e Ht Hsj Hmj He).
    + destruct (R2 k ts' es' H1 H2) as [Lk Rk]. split; [exact Lk|]. intros j t e s' m' sj mj. replace (i + S k)%nat with (S i + k)%nat by lia. apply Rk.
Qed.
Lemma multi_right share known ss ms types : types <> [] -> (forall ts, nth_error types 0 = Some ts -> ts <> []) -> fits known ss ms 0 types ->
  exists embs term mask m0, multi_forward encode share known ss ms (map Some types) = Ok (embs, Some term, mask) /\ emb_right share known ss ms 0 types embs /\
  nth_error ms 0 = Some m0 /\ nth_error m0 0 = Some mask /\
  forall ts s0 t s m, nth_error types 0 = Some ts -> nth_error ts (length ts - 1) = Some t -> nth_error ss 0 = Some s0 -> nth_error s0 (length ts - 1) = Some s -> nth_error m0 (length ts - 1) = Some m ->
    exists e, own share known t s m (e, term).
Proof.
  intros N NE F. destruct types as [|ts types]; [congruence|]. clear N. specialize (NE ts eq_refl).
  destruct (F 0%nat ts eq_refl) as (Ft & s & m & Es & Em' & L1 & L2). cbn [Nat.add] in Es, Em'.
  destruct (group_right share known ts s m 0 None Ft ltac:(lia) ltac:(lia)) as (es & term & E & L & R & _ & T).
  destruct (groups_later share known ss ms types 1 ltac:(lia)) as (embs & E2 & L3 & R2). { intros k ts' Hk. exact (F (S k) ts' Hk). }
  unfold multi_forward. cbn [map groups]. assert (LT : (0 < length ts)%nat) by (destruct ts; [congruence|cbn; lia]).
  assert (Q : match ts with [] => Ok ([], None) | _ => do s <- item ss 0 ;; do m <- item ms 0 ;; group encode share known s m 0 ts None end = Ok (es, term)).
  { destruct ts; [congruence|]. unfold item. rewrite Es, Em'. cbn [bind]. exact E. }
  destruct (nth_error ts (length ts - 1)) as [t|] eqn:Et; [|apply nth_error_None in Et; lia].
  destruct (nth_error s (length ts - 1)) as [sl|] eqn:Esl; [|apply nth_error_None in Esl; lia]. destruct (nth_error m (length ts - 1)) as [ml|] eqn:Eml; [|apply nth_error_None in Eml; lia].
  cbn [Nat.add] in T. destruct (T t sl ml eq_refl Esl Eml) as (e & w & Tw & Ow). subst term.
  rewrite Q. cbn [bind snd fst Nat.eqb]. rewrite E2. cbn [bind fst snd]. unfold item. rewrite Em'. cbn [bind]. destruct (nth_error m 0) as [mask|] eqn:E0; [|apply nth_error_None in E0; lia]. cbn [bind].
  exists (es :: embs), w, mask, m. split; [reflexivity|]. split; [|split; [reflexivity|split; [exact E0|]]].
  - split; [cbn; lia|]. intros [|k] ts' es' H1 H2; cbn [nth_error] in H1, H2.
    + injection H1 as <-. injection H2 as <-. split; [exact L|]. intros j t' e' s' m' sj mj Ht He Hs Hsj Hm Hmj. cbn [Nat.add] in Hs, Hm. rewrite Es in Hs. rewrite Em' in Hm. injection Hs as <-. injection Hm as <-. exact (R j t' sj mj e' Ht Hsj Hmj He).
    + exact (R2 k ts' es' H1 H2).
  - intros ts' s0 t' s' m' Ht Ht' Hs0 Hs Hm. cbn [nth_error] in Ht. injection Ht as <-. rewrite Et in Ht'. injection Ht' as <-. rewrite Es in Hs0. injection Hs0 as <-. exists e. congruence.
Qed.
End Multi.
Lemma known_right src dst t : In t (known_types src dst) <-> exists l, (In l src \/ In l dst) /\ In t l.
Proof.
  unfold known_types. rewrite make_sorted_in, in_app_iff, !in_concat. split; [intros [(l & H & I)|(l & H & I)]; exists l; tauto|intros (l & [H|H] & I); [left|right]; exists l; tauto].
Qed.
Lemma known_nodup src dst : NoDup (known_types src dst).
Proof.
  unfold known_types. pose proof (make_sorted_sorted (concat src ++ concat dst)) as Hs. induction Hs as [|x l _ IH F]; constructor; [|exact IH]. rewrite Forall_forall in F. intros I. specialize (F x I). lia.
Qed.
Lemma dim_right d h : (0 < d -> twin_dim d h = d /\ multi_dim d h = d) /\ (d <= 0 -> twin_dim d h = h).
Proof. unfold twin_dim, multi_dim. split; intros H; destruct (Z.ltb_spec 0 d); lia. Qed.
