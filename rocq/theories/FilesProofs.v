From Coq Require Import FinFun Ascii String Decimal DecimalFacts DecimalNat.
From Verif Require Import Base FilesModel.
Import ListNotations.
Open Scope list_scope.

(** ** Numbers and names *)
Lemma nm_eqb_spec a b : nm_eqb a b = true <-> a = b.
Proof. unfold nm_eqb. destruct (list_eq_dec ascii_dec a b); split; congruence. Qed.
Lemma nm_eqb_refl a : nm_eqb a a = true.
Proof. now apply nm_eqb_spec. Qed.
Lemma loc_eqb_spec a b : loc_eqb a b = true <-> a = b.
Proof.
  unfold loc_eqb. destruct a as [f d], b as [f' d']. cbn [fst snd]. destruct (list_eq_dec (list_eq_dec ascii_dec) d d') as [->|H].
  - rewrite andb_true_r, Nat.eqb_eq. split; congruence.
  - rewrite andb_false_r. split; congruence.
Qed.
Lemma loc_eqb_refl a : loc_eqb a a = true.
Proof. now apply loc_eqb_spec. Qed.
Lemma loc_eqb_neq a b : a <> b -> loc_eqb a b = false.
Proof. intros H. destruct (loc_eqb a b) eqn:E; [|reflexivity]. now apply loc_eqb_spec in E. Qed.

Lemma unorm_nil u : unorm u <> Nil.
Proof. unfold unorm. destruct (nzhead u); discriminate. Qed.
Lemma dec_uint n : exists u, Nat.to_uint n = u /\ u <> Nil /\ dec n = digits u.
Proof.
  exists (Nat.to_uint n). split; [reflexivity|]. split; [|reflexivity].
  rewrite <- (Unsigned.of_to n) at 1. rewrite Unsigned.to_of. apply unorm_nil.
Qed.
Definition no_digit (n : nm) : Prop := match n with [] => True | c :: _ => digit c = None end.
Lemma leading_digits u rest : no_digit rest -> leading (digits u ++ rest) = u.
Proof.
  intros H. induction u; cbn [digits app leading digit]; [|f_equal; exact IHu..]. destruct rest as [|c rest]; [reflexivity|]. cbn [leading]. now rewrite H.
Qed.
Lemma dec_inj a b r r' : no_digit r -> no_digit r' -> dec a ++ r = dec b ++ r' -> a = b /\ r = r'.
Proof.
  intros Hr Hr' H. assert (E : Nat.to_uint a = Nat.to_uint b) by (unfold dec in H; rewrite <- (leading_digits (Nat.to_uint a) r Hr), H; now apply leading_digits).
  split; [now apply Unsigned.to_uint_inj|]. unfold dec in H. rewrite E in H. now apply app_inv_head in H.
Qed.
Lemma dec_head n r : exists c t, dec n ++ r = c :: t /\ is_space c = false /\ Ascii.eqb c "-" = false /\ Ascii.eqb c "+" = false /\ digit c <> None.
Proof.
  destruct (dec_uint n) as (u & _ & Hn & ->). destruct u; [congruence|..]; cbn [digits app]; eexists _, _; repeat (split; [reflexivity|]); cbn; discriminate.
Qed.
Lemma stoi_dec n r : no_digit r -> (Z.of_nat n < 2 ^ 31)%Z -> stoi (dec n ++ r) = Ok (Z.of_nat n).
Proof.
  intros Hr Hn. unfold stoi. destruct (dec_head n r) as (c & t & E & H1 & H2 & H3 & _). rewrite E. cbn [skip_space]. rewrite H1, H2, H3, <- E.
  destruct (dec_uint n) as (u & Eu & Nu & D). rewrite D, leading_digits by exact Hr.
  assert (V : Nat.of_uint u = n) by (rewrite <- Eu; apply Unsigned.of_to).
  destruct u; [congruence|..]; rewrite V; (replace ((- 2 ^ 31 <=? Z.of_nat n) && (Z.of_nat n <? 2 ^ 31))%Z with true by lia); reflexivity.
Qed.

Lemma last_dot_app a e : (forall c, In c e -> Ascii.eqb c "." = false) -> last_dot (a ++ "."%char :: e) = Some (List.length a).
Proof.
  intros H. assert (N : last_dot e = None).
  { clear a. induction e as [|c e IH]; [reflexivity|]. cbn [last_dot]. rewrite IH by (intros d Hd; apply H; now right). now rewrite (H c (or_introl eq_refl)). }
  induction a as [|c a IH]; cbn [app last_dot List.length]; [now rewrite N|]. now rewrite IH.
Qed.
Lemma stem_app a e : a <> [] -> (forall c, In c e -> Ascii.eqb c "." = false) -> stem (a ++ "."%char :: e) = a.
Proof.
  intros Ha H. unfold stem. rewrite (last_dot_app a e H). destruct a as [|c a]; [congruence|]. cbn [List.length].
  change (c :: a) with ([c] ++ a). replace (S (List.length a)) with (List.length ([c] ++ a)) by reflexivity.
  rewrite firstn_app, Nat.sub_diag, firstn_all. cbn [firstn]. apply app_nil_r.
Qed.
Lemma prefix_app a b : prefix a (a ++ b) = true.
Proof. induction a as [|c a IH]; [reflexivity|]. cbn [prefix app]. now rewrite Ascii.eqb_refl. Qed.
Lemma suffix_app a b : suffix b (a ++ b) = true.
Proof.
  induction a as [|c a IH]; cbn [app]; [destruct b; cbn [suffix]; now rewrite nm_eqb_refl|]. cbn [suffix]. rewrite IH. apply orb_true_r.
Qed.
Lemma glob_matches a m b : matches (Glob a b) (a ++ m ++ b) = true.
Proof.
  unfold matches. rewrite prefix_app. rewrite skipn_app, Nat.sub_diag, skipn_all. cbn [skipn app]. apply suffix_app.
Qed.

(** ** The files of a conversion *)
Definition sfx (p : nat) : nm := dec p ++ str "_0".
Definition nbs (p : nat) : nm := neighbors_prefix ++ sfx p ++ str ".index".
Definition one (p : nat) (n : nm) : list nm := if nm_eqb n (nbs p) then [sfx p] else [].
(** What a name of a converted folder looks like to the search for suffixes. *)
Definition tame (n : nm) : Prop :=
  (exists q, (Z.of_nat q < 2 ^ 31)%Z /\ n = nbs q) \/
  prefix neighbors_prefix (stem n) = false.
Lemma suffixes_step n t p : tame n -> suffixes (n :: t) p = do r <- suffixes t p ;; Ok (one p n ++ r).
Proof.
  intros [(q & Hq & ->)|H]; cbn [suffixes].
  - assert (E : stem (nbs q) = neighbors_prefix ++ sfx q).
    { unfold nbs. rewrite app_assoc. apply (stem_app (neighbors_prefix ++ sfx q) (str "index")); [discriminate|]. intros c Hc. cbn in Hc.
      repeat (destruct Hc as [<-|Hc]; [reflexivity|]). destruct Hc. }
    rewrite E. replace (List.length (neighbors_prefix ++ sfx q) <=? List.length neighbors_prefix) with false.
    2:{ symmetry. apply Nat.leb_gt. rewrite app_length. unfold sfx. rewrite app_length. cbn [str list_ascii_of_string List.length]. lia. }
    rewrite prefix_app, skipn_app, Nat.sub_diag, skipn_all. cbn [skipn app]. unfold sfx at 1. rewrite stoi_dec; [|reflexivity|exact Hq].
    cbn [bind]. destruct (suffixes t p) as [r|e]; [|reflexivity]. cbn [bind]. f_equal. unfold one.
    destruct (Z.eqb_spec (Z.of_nat q) (Z.of_nat p)) as [E'|E'].
    + apply Nat2Z.inj in E'. subst q. now rewrite nm_eqb_refl.
    + destruct (nm_eqb (nbs q) (nbs p)) eqn:B; [|reflexivity]. exfalso. apply nm_eqb_spec in B. unfold nbs, sfx in B. apply app_inv_head in B.
      rewrite <- !app_assoc in B. apply dec_inj in B; [|reflexivity|reflexivity]. destruct B. lia.
  - assert (O : one p n = []).
    { unfold one. destruct (nm_eqb n (nbs p)) eqn:B; [|reflexivity]. exfalso. apply nm_eqb_spec in B. subst n.
      assert (E : stem (nbs p) = neighbors_prefix ++ sfx p).
      { unfold nbs. rewrite app_assoc. apply (stem_app (neighbors_prefix ++ sfx p) (str "index")); [discriminate|]. intros c Hc. cbn in Hc.
        repeat (destruct Hc as [<-|Hc]; [reflexivity|]). destruct Hc. }
      rewrite E, prefix_app in H. discriminate. }
    rewrite O. cbn [app]. destruct (_ <=? _); [|rewrite H]; destruct (suffixes t p); reflexivity.
Qed.
Lemma suffixes_tame names p : Forall tame names -> suffixes names p = Ok (flat_map (one p) names).
Proof.
  induction 1 as [|n t H _ IH]; [reflexivity|]. rewrite suffixes_step, IH by exact H. reflexivity.
Qed.
Lemma one_once p names : NoDup names -> In (nbs p) names -> flat_map (one p) names = [sfx p].
Proof.
  intros ND. induction ND as [|n t Hn ND IH]; intros [].
  - subst n. cbn [flat_map]. unfold one at 1. rewrite nm_eqb_refl. cbn [app]. f_equal.
    assert (E : forall l, ~ In (nbs p) l -> flat_map (one p) l = []).
    { clear. induction l as [|m l IH]; intros H; [reflexivity|]. cbn [flat_map]. rewrite IH by (intros Hi; apply H; now right). unfold one.
      destruct (nm_eqb m (nbs p)) eqn:B; [|reflexivity]. apply nm_eqb_spec in B. destruct H. now left. }
    now apply E.
  - cbn [flat_map]. rewrite IH by assumption. unfold one. destruct (nm_eqb n (nbs p)) eqn:B; [|reflexivity]. apply nm_eqb_spec in B. congruence.
Qed.

Ltac in_list := repeat first [left; reflexivity | right].
Lemma or_iff (A B C D : Prop) : (A <-> C) -> (B <-> D) -> (A \/ B <-> C \/ D).
Proof. tauto. Qed.
(** All names of a conversion, in the form of locator.cc. *)
Lemma written_names w p n : In n (written w p) <->
  In n [str "node_" ++ sfx p ++ str ".map"; str "node_" ++ sfx p ++ str ".index"; str "node_features_" ++ sfx p ++ str ".index";
        str "node_features_" ++ sfx p ++ str ".data"; nbs p; str "edge_" ++ sfx p ++ str ".index"; str "edge_features_" ++ sfx p ++ str ".index";
        str "edge_features_" ++ sfx p ++ str ".data"] \/
  (temporal w = true /\ n = str "edge_" ++ sfx p ++ str ".timestamp") \/
  (skip_nodes w = false /\ exists tp, tp < node_types w /\ n = str "node_" ++ dec tp ++ str "_" ++ dec p ++ str ".alias") \/
  (skip_edges w = false /\ exists tp, tp < edge_types w /\ n = str "edge_" ++ dec tp ++ str "_" ++ dec p ++ str ".alias").
Proof.
  unfold written. rewrite !flat_map_app, !in_app_iff. apply or_iff; [|apply or_iff; [|apply or_iff]].
  - unfold node_map, index, features_index, features_data, neighbors, starred, nbs, sfx, value. cbn [flat_map named]. rewrite !app_nil_r.
    change (dec 0) with (str "0"). rewrite <- !app_assoc. cbn [app]. reflexivity.
  - unfold timestamps, starred, sfx, value. change (dec 0) with (str "0"). destruct (temporal w); cbn [flat_map named app In].
    + rewrite <- !app_assoc. split; [intros [<-|[]]; split; reflexivity|intros [_ ->]; left; reflexivity].
    + split; [intros []|intros [H _]; discriminate].
  - destruct (skip_nodes w); cbn [flat_map In]; [split; [intros []|intros [H _]; discriminate]|].
    rewrite in_flat_map. split.
    + intros (q & Hq & Hn). apply in_map_iff in Hq as (tp & <- & Ht). apply in_seq in Ht. split; [reflexivity|]. exists tp. split; [lia|].
      cbn [alias starred named In] in Hn. destruct Hn as [<-|[]]. reflexivity.
    + intros (_ & tp & Ht & ->). exists (alias NODE (Some tp) p). split; [apply in_map_iff; exists tp; split; [reflexivity|apply in_seq; lia]|]. now left.
  - destruct (skip_edges w); cbn [flat_map In]; [split; [intros []|intros [H _]; discriminate]|].
    rewrite in_flat_map. split.
    + intros (q & Hq & Hn). apply in_map_iff in Hq as (tp & <- & Ht). apply in_seq in Ht. split; [reflexivity|]. exists tp. split; [lia|].
      cbn [alias starred named In] in Hn. destruct Hn as [<-|[]]. reflexivity.
    + intros (_ & tp & Ht & ->). exists (alias EDGE (Some tp) p). split; [apply in_map_iff; exists tp; split; [reflexivity|apply in_seq; lia]|]. now left.
Qed.

Ltac ext_ok := let c := fresh in let Hc := fresh in intros c Hc; cbn in Hc; repeat (destruct Hc as [<-|Hc]; [reflexivity|]); destruct Hc.
Lemma stem_ext a (e : string) : a <> [] -> (forall c, In c (str e) -> Ascii.eqb c "." = false) -> stem (a ++ str (String "." e)) = a.
Proof. exact (stem_app a (str e)). Qed.
Lemma written_tame w p n : (Z.of_nat p < 2 ^ 31)%Z -> In n (written w p) -> tame n.
Proof.
  intros Hp H. apply written_names in H as [H|[[_ ->]|[(_ & tp & _ & ->)|(_ & tp & _ & ->)]]].
  - repeat (destruct H as [<-|H]; [|]); try (destruct H; fail);
    first [left; exists p; split; [exact Hp|reflexivity]|right; rewrite app_assoc; rewrite stem_ext; [reflexivity|discriminate|ext_ok]].
  - right. rewrite app_assoc, stem_ext; [reflexivity|discriminate|ext_ok].
  - right. rewrite 3!app_assoc, stem_ext; [reflexivity|discriminate|ext_ok].
  - right. rewrite 3!app_assoc, stem_ext; [reflexivity|discriminate|ext_ok].
Qed.
Lemma meta_tame : tame meta_name.
Proof. right. reflexivity. Qed.

(** ** No two partitions share a file *)
Definition strip (a n : nm) : option nm := if prefix a n then Some (skipn (List.length a) n) else None.
Definition kind (n : nm) : nat * nm :=
  match strip (str "node_features_") n, strip (str "edge_features_") n, strip (str "neighbors_") n, strip (str "node_") n, strip (str "edge_") n with
  | Some r, _, _, _, _ => (0, r)
  | _, Some r, _, _, _ => (1, r)
  | _, _, Some r, _, _ => (2, r)
  | _, _, _, Some r, _ => (3, r)
  | _, _, _, _, Some r => (4, r)
  | _, _, _, _, _ => (5, n)
  end.
Fixpoint after (n : nm) : nm :=
  match n with
  | c :: t => match digit c with Some _ => after t | None => t end
  | [] => []
  end.
Definition key (n : nm) : nat * ascii * nat * nat :=
  let '(k, r) := kind n in (k, last n " "%char, Nat.of_uint (leading r), Nat.of_uint (leading (after r))).
Lemma after_digits u c r : digit c = None -> after (digits u ++ c :: r) = r.
Proof. intros H. induction u; cbn [digits app after digit]; try exact IHu. now rewrite H. Qed.
Lemma last_app (a b : nm) d : b <> [] -> last (a ++ b) d = last b d.
Proof.
  intros H. induction a as [|c a IH]; [reflexivity|]. cbn [app last]. destruct (a ++ b) as [|x l] eqn:E; [apply app_eq_nil in E as [_ E]; congruence|exact IH].
Qed.
Lemma numbers a b e : no_digit e -> Nat.of_uint (leading (dec a ++ str "_" ++ dec b ++ e)) = a /\ Nat.of_uint (leading (after (dec a ++ str "_" ++ dec b ++ e))) = b.
Proof.
  intros H. unfold dec at 1 3. cbn [str list_ascii_of_string app]. rewrite leading_digits by reflexivity. rewrite after_digits by reflexivity. unfold dec.
  rewrite leading_digits by exact H. split; apply Unsigned.of_to.
Qed.
Ltac kind_tac := let c := fresh in let t := fresh in
  match goal with |- context [dec ?a ++ ?r] => destruct (dec_head a r) as (c & t & -> & _ & _ & _ & ?); unfold kind, strip; cbn [str list_ascii_of_string app prefix] end;
  destruct c as [[] [] [] [] [] [] [] []]; first [exfalso; match goal with H : digit _ <> None |- _ => apply H; reflexivity end|reflexivity].
Lemma kind_node a r : kind (str "node_" ++ dec a ++ r) = (3, dec a ++ r).
Proof. kind_tac. Qed.
Lemma kind_edge a r : kind (str "edge_" ++ dec a ++ r) = (4, dec a ++ r).
Proof. kind_tac. Qed.
Lemma kind_nodef a r : kind (str "node_features_" ++ dec a ++ r) = (0, dec a ++ r).
Proof. kind_tac. Qed.
Lemma kind_edgef a r : kind (str "edge_features_" ++ dec a ++ r) = (1, dec a ++ r).
Proof. kind_tac. Qed.
Lemma kind_nbs a r : kind (str "neighbors_" ++ dec a ++ r) = (2, dec a ++ r).
Proof. kind_tac. Qed.
Lemma key_gen k pre a b (e : string) c : no_digit (str e) -> str e <> [] -> last (str e) " "%char = c ->
  (forall r, kind (str pre ++ dec a ++ r) = (k, dec a ++ r)) ->
  key (str pre ++ dec a ++ str "_" ++ dec b ++ str e) = (k, c, a, b).
Proof.
  intros Hd He Hl Hk. unfold key. rewrite Hk. destruct (numbers a b (str e) Hd) as [-> ->].
  rewrite !last_app by (try exact He; intros E; repeat (apply app_eq_nil in E as [_ E]); contradiction). now rewrite Hl.
Qed.
Definition owner (n : nm) : nat := let '(_, c, a, b) := key n in if Ascii.eqb c "s" then b else a.
Definition keys (w : conversion) (p : nat) : list (nat * ascii * nat * nat) :=
  ([(3, "p", p, 0); (3, "x", p, 0); (0, "x", p, 0); (0, "a", p, 0); (2, "x", p, 0); (4, "x", p, 0); (1, "x", p, 0); (1, "a", p, 0)]
   ++ (if temporal w then [(4, "p", p, 0)] else [])
   ++ (if skip_nodes w then [] else map (fun tp => (3, "s", tp, p)) (seq 0 (node_types w)))
   ++ (if skip_edges w then [] else map (fun tp => (4, "s", tp, p)) (seq 0 (edge_types w))))%char.
Lemma key_of k pre a (b : nat) e c n : no_digit (str e) -> str e <> [] -> last (str e) " "%char = c ->
  (forall r, kind (str pre ++ dec a ++ r) = (k, dec a ++ r)) -> n = str pre ++ dec a ++ str "_" ++ dec b ++ str e -> key n = (k, c, a, b).
Proof. intros H1 H2 H3 H4 ->. now apply key_gen. Qed.
Ltac key_tac K := eapply key_of; [| | |intros ?; apply K|rewrite <- ?app_assoc; reflexivity]; [reflexivity|discriminate|reflexivity].
Lemma written_keys w p : map key (written w p) = keys w p.
Proof.
  unfold written, keys. rewrite !flat_map_app, !map_app. f_equal; [|f_equal; [|f_equal]].
  - unfold node_map, index, features_index, features_data, neighbors, starred, value. cbn [flat_map named map app].
    repeat f_equal; first [key_tac kind_node|key_tac kind_edge|key_tac kind_nodef|key_tac kind_edgef|key_tac kind_nbs].
  - destruct (temporal w); [|reflexivity]. unfold timestamps, starred, value. cbn [flat_map named map app]. f_equal. key_tac kind_edge.
  - destruct (skip_nodes w); [reflexivity|]. induction (seq 0 (node_types w)) as [|tp l IH]; [reflexivity|].
    cbn [map flat_map named alias starred app]. f_equal; [|exact IH]. unfold value. key_tac kind_node.
  - destruct (skip_edges w); [reflexivity|]. induction (seq 0 (edge_types w)) as [|tp l IH]; [reflexivity|].
    cbn [map flat_map named alias starred app]. f_equal; [|exact IH]. unfold value. key_tac kind_edge.
Qed.
Lemma written_owner w p n : In n (written w p) -> owner n = p.
Proof.
  intros H. apply (in_map key) in H. rewrite written_keys in H. unfold owner, keys in *. rewrite !in_app_iff in H. destruct H as [H|[H|[H|H]]].
  - repeat (destruct H as [H|H]; [rewrite <- H; reflexivity|]). destruct H.
  - destruct (temporal w); [|destruct H]. destruct H as [H|[]]. rewrite <- H. reflexivity.
  - destruct (skip_nodes w); [destruct H|]. apply in_map_iff in H as (tp & H & _). rewrite <- H. reflexivity.
  - destruct (skip_edges w); [destruct H|]. apply in_map_iff in H as (tp & H & _). rewrite <- H. reflexivity.
Qed.
Lemma written_apart w w' p p' n : In n (written w p) -> In n (written w' p') -> p = p'.
Proof. intros H H'. now rewrite <- (written_owner w p n H), <- (written_owner w' p' n H'). Qed.
Lemma nodup_app {A} (a b : list A) : NoDup a -> NoDup b -> (forall x, In x a -> In x b -> False) -> NoDup (a ++ b).
Proof.
  induction 1 as [|x a Hx _ IH]; intros Hb H; [exact Hb|]. cbn [app]. constructor.
  - rewrite in_app_iff. intros [Hi|Hi]; [now apply Hx|]. exact (H x (or_introl eq_refl) Hi).
  - apply IH; [exact Hb|]. intros y Hy. apply H. now right.
Qed.
Lemma written_once w p : NoDup (written w p).
Proof.
  apply (NoDup_map_inv key). rewrite written_keys. unfold keys.
  assert (M : forall (k : nat) (c : ascii) len, NoDup (map (fun tp => (k, c, tp, p)) (seq 0 len))).
  { intros k c len. apply Injective_map_NoDup; [intros x y H; congruence|apply seq_NoDup]. }
  apply nodup_app; [|apply nodup_app; [|apply nodup_app|]|].
  - repeat constructor; cbn [In]; intros H; repeat (destruct H as [H|H]; [discriminate|]); destruct H.
  - destruct (temporal w); repeat constructor. intros [].
  - destruct (skip_nodes w); [constructor|apply M].
  - destruct (skip_edges w); [constructor|apply M].
  - intros x Hx Hy. destruct (skip_nodes w); [destruct Hx|]. destruct (skip_edges w); [destruct Hy|].
    apply in_map_iff in Hx as (a & <- & _). apply in_map_iff in Hy as (b & Hy & _). discriminate.
  - intros x Hx Hy. destruct (temporal w); [|destruct Hx]. destruct Hx as [<-|[]]. rewrite in_app_iff in Hy. destruct Hy as [Hy|Hy].
    + destruct (skip_nodes w); [destruct Hy|]. apply in_map_iff in Hy as (b & Hy & _). discriminate.
    + destruct (skip_edges w); [destruct Hy|]. apply in_map_iff in Hy as (b & Hy & _). discriminate.
  - intros x Hx Hy. rewrite !in_app_iff in Hy. destruct Hy as [Hy|[Hy|Hy]].
    + destruct (temporal w); [|destruct Hy]. destruct Hy as [<-|[]]. repeat (destruct Hx as [Hx|Hx]; [discriminate|]). destruct Hx.
    + destruct (skip_nodes w); [destruct Hy|]. apply in_map_iff in Hy as (b & <- & _). repeat (destruct Hx as [Hx|Hx]; [discriminate|]). destruct Hx.
    + destruct (skip_edges w); [destruct Hy|]. apply in_map_iff in Hy as (b & <- & _). repeat (destruct Hx as [Hx|Hx]; [discriminate|]). destruct Hx.
Qed.

(** ** A converted folder *)
Section Store.
Context {C : Type}.
Implicit Types st : store C.
Definition holds st (l : loc) (w : conversion) (all : list nat) : Prop :=
  forall n, In n (listing st l) <-> n = meta_name \/ exists p, In p all /\ In n (written w p).
Lemma listing_in st l n : In n (listing st l) <-> lookup st l n <> None.
Proof.
  unfold listing, lookup. induction st as [|[[l' n'] c] st IH]; cbn [filter map find fst snd]; [split; [intros []|congruence]|].
  destruct (loc_eqb l' l) eqn:E; cbn [map In fst snd andb].
  - destruct (nm_eqb n' n) eqn:B.
    + apply nm_eqb_spec in B. subst n'. split; [discriminate|now left].
    + rewrite <- IH. split; [intros [->|H]; [rewrite nm_eqb_refl in B; discriminate|exact H]|now right].
  - exact IH.
Qed.
Lemma listing_nodup st l : NoDup (map fst st) -> NoDup (listing st l).
Proof.
  unfold listing. induction st as [|[[l' n'] c] st IH]; intros H; cbn [filter map fst snd]; [constructor|]. inversion H as [|? ? Hn Hd]; subst.
  destruct (loc_eqb l' l) eqn:E; [|exact (IH Hd)]. apply loc_eqb_spec in E. subst l'. cbn [map fst snd]. constructor; [|exact (IH Hd)].
  intros Hi. apply Hn. apply in_map_iff in Hi as ([[l2 n2] c2] & Hn2 & Hf). apply filter_In in Hf as [Hf Hl]. cbn [fst snd] in *. apply loc_eqb_spec in Hl. subst l2 n2.
  apply in_map_iff. now exists (l, n', c2).
Qed.
Lemma opened_written w md p n : ((0 <= watermark md)%Z -> temporal w = true) -> In n (opened md (sfx p)) -> In n (written w p).
Proof.
  intros Ht H. apply written_names. unfold opened in H. rewrite !in_app_iff in H. destruct H as [H|[H|[H|[H|[H|H]]]]].
  - left. destruct H as [<-|[<-|[]]]; in_list.
  - left. destruct (node_features md =? 0); [destruct H|]. destruct H as [<-|[<-|[]]]; in_list.
  - left. destruct H as [<-|[<-|[]]]; in_list.
  - right. left. destruct (0 <=? watermark md)%Z eqn:E; [|destruct H]. destruct H as [<-|[]]. split; [apply Ht; lia|reflexivity].
  - left. destruct (edge_features md =? 0); [destruct H|]. destruct H as [<-|[<-|[]]]; in_list.
  - left. destruct H as [<-|[]]; in_list.
Qed.
Lemma open_all st l ns : (forall n, In n ns -> lookup st l n <> None) -> exists cs, mapM (open_file st l) ns = Ok cs /\ map Some cs = map (lookup st l) ns.
Proof.
  induction ns as [|n ns IH]; intros H; [now exists []|]. destruct IH as (cs & E & M); [intros m Hm; apply H; now right|].
  destruct (lookup st l n) as [c|] eqn:L; [|destruct (H n (or_introl eq_refl)); exact L]. exists (c :: cs). cbn [mapM map]. unfold open_file at 1.
  rewrite L, E. cbn [bind]. split; [reflexivity|]. now rewrite M.
Qed.
Lemma nbs_written w p : In (nbs p) (written w p).
Proof. apply written_names. left. in_list. Qed.
(** Loading finds the one suffix when all names are tame and the neighbor file is there once. *)
Lemma load_one st md l p : Forall tame (listing st l) -> flat_map (one p) (listing st l) = [sfx p] ->
  load st md l p = do cs <- mapM (open_file st l) (opened md (sfx p)) ;; Ok [(sfx p, cs)].
Proof.
  intros T O. unfold load. rewrite suffixes_tame, O by exact T. cbn [bind sort fold_right insert mapM]. destruct (mapM _ _); reflexivity.
Qed.
Lemma holds_tame st l w all : (forall p, In p all -> (Z.of_nat p < 2 ^ 31)%Z) -> holds st l w all -> Forall tame (listing st l).
Proof.
  intros B H. apply Forall_forall. intros n Hn. apply H in Hn as [->|(p & Hp & Hn)]; [exact meta_tame|exact (written_tame w p n (B p Hp) Hn)].
Qed.
Lemma loads st md l w all p : NoDup (map fst st) -> (forall p, In p all -> (Z.of_nat p < 2 ^ 31)%Z) -> holds st l w all -> In p all ->
  ((0 <= watermark md)%Z -> temporal w = true) ->
  exists cs, load st md l p = Ok [(sfx p, cs)] /\ map Some cs = map (lookup st l) (opened md (sfx p)).
Proof.
  intros ND B H Hp Ht.
  assert (O : flat_map (one p) (listing st l) = [sfx p]).
  { apply one_once; [now apply listing_nodup|]. apply H. right. exists p. split; [exact Hp|apply nbs_written]. }
  rewrite (load_one st md l p (holds_tame st l w all B H) O).
  destruct (open_all st l (opened md (sfx p))) as (cs & E & M).
  { intros n Hn. apply listing_in. apply H. right. exists p. split; [exact Hp|exact (opened_written w md p n Ht Hn)]. }
  exists cs. rewrite E. split; [reflexivity|exact M].
Qed.
End Store.

(** ** Download *)
Lemma mapM_same {A B} (f g : A -> res B) l : (forall x, In x l -> f x = g x) -> mapM f l = mapM g l.
Proof.
  induction l as [|x l IH]; intros H; [reflexivity|]. cbn [mapM]. rewrite (H x (or_introl eq_refl)), IH by (intros y Hy; apply H; now right). reflexivity.
Qed.
Lemma last_cons {A} (a : A) l d : last (a :: l) d = last l a.
Proof. revert a d. induction l as [|b l IH]; intros a d; [reflexivity|]. change (last (a :: b :: l) d) with (last (b :: l) d). now rewrite !IH. Qed.
Section Download.
Context {C : Type}.
Implicit Types st : store C.
Definition place (tmp : loc) (x : loc * nat) : loc * nat := if is_local (fst x) then x else (tmp, snd x).
Definition asked (md : metadata) (x : loc * nat) : list (loc * pat) := if is_local (fst x) then [] else wanted md (fst x) (snd x).
Lemma collect_spec md tmp parts : forall f,
  collect md tmp parts f = (flat_map (asked md) parts, map (place tmp) parts, last (map (fun x => fst (fst x)) parts) f).
Proof.
  induction parts as [|[l p] t IH]; intros f; [reflexivity|]. cbn [collect]. rewrite IH. cbn [flat_map map fst snd].
  rewrite last_cons. unfold asked, place. cbn [fst snd]. destruct (is_local l); reflexivity.
Qed.
Lemma common_same d ds : ds <> [] -> (forall x, In x ds -> x = d) -> common ds = d.
Proof.
  assert (S : common2 d d = d) by (induction d as [|n d IH]; [reflexivity|]; cbn [common2]; now rewrite nm_eqb_refl, IH).
  induction ds as [|x ds IH]; intros N H; [congruence|]. assert (x = d) by (apply H; now left). subst x. destruct ds as [|y ds]; [reflexivity|].
  change (common (d :: y :: ds)) with (common2 d (common (y :: ds))). rewrite IH; [exact S|discriminate|]. intros x Hx. apply H. now right.
Qed.
Lemma lookup_app st st' l n : lookup (st ++ st') l n = match lookup st l n with Some c => Some c | None => lookup st' l n end.
Proof.
  unfold lookup. induction st as [|x st IH]; [reflexivity|]. cbn [app find]. destruct (loc_eqb _ _ && nm_eqb _ _); [reflexivity|exact IH].
Qed.
Lemma listing_app st st' l : listing (st ++ st') l = listing st l ++ listing st' l.
Proof. unfold listing. now rewrite filter_app, map_app. Qed.
Definition moved (tmp : loc) (x : loc * nm * C) : loc * nm * C := (tmp, snd (fst x), snd x).
Lemma lookup_moved_other tmp st l n : l <> tmp -> lookup (map (moved tmp) st) l n = None.
Proof.
  intros H. unfold lookup. induction st as [|x st IH]; [reflexivity|]. cbn [map find moved fst snd]. rewrite loc_eqb_neq by congruence. exact IH.
Qed.
Lemma listing_moved_other tmp st l : l <> tmp -> listing (map (moved tmp) st) l = [].
Proof.
  intros H. unfold listing. induction st as [|x st IH]; [reflexivity|]. cbn [map filter moved fst snd]. rewrite loc_eqb_neq by congruence. exact IH.
Qed.
Variable Q : nm -> bool.
Variable l2 tmp : loc.
Definition chosen (x : loc * nm * C) : bool := loc_eqb (fst (fst x)) l2 && Q (snd (fst x)).
Lemma lookup_moved st n : lookup (map (moved tmp) (filter chosen st)) tmp n = if Q n then lookup st l2 n else None.
Proof.
  unfold lookup. induction st as [|[[l m] c] st IH]; cbn [filter map find]; [now destruct (Q n)|]. unfold chosen at 1. cbn [fst snd].
  destruct (loc_eqb l l2) eqn:E; cbn [andb]; [|exact IH]. destruct (nm_eqb m n) eqn:B.
  - apply nm_eqb_spec in B. subst m. destruct (Q n) eqn:Qn; [|exact IH]. cbn [map find moved fst snd]. now rewrite loc_eqb_refl, nm_eqb_refl.
  - destruct (Q m); [|exact IH]. cbn [map find moved fst snd]. now rewrite loc_eqb_refl, B.
Qed.
Lemma listing_moved st : listing (map (moved tmp) (filter chosen st)) tmp = filter Q (listing st l2).
Proof.
  unfold listing. induction st as [|[[l m] c] st IH]; [reflexivity|]. cbn [filter map]. unfold chosen at 1. cbn [fst snd].
  destruct (loc_eqb l l2) eqn:E; cbn [andb]; [|exact IH]. cbn [map filter fst snd]. destruct (Q m); [|exact IH].
  cbn [map filter moved fst snd]. rewrite loc_eqb_refl. cbn [map fst snd]. now rewrite IH.
Qed.
End Download.

Lemma load_ext {C} (st st' : store C) md l p : listing st' l = listing st l -> (forall n, lookup st' l n = lookup st l n) -> load st' md l p = load st md l p.
Proof.
  intros L H. unfold load. rewrite L. destruct (suffixes (listing st l) p) as [ss|e]; [|reflexivity]. cbn [bind].
  apply mapM_same. intros s _. rewrite (mapM_same (open_file st' l) (open_file st l)); [reflexivity|]. intros n _. unfold open_file. now rewrite H.
Qed.

(** Every file opened for a partition matches a name asked for. *)
Lemma wanted_opened md md' p n : (node_features md' <> 0 -> node_features md <> 0) -> (edge_features md' <> 0 -> edge_features md <> 0) -> (watermark md' < 0)%Z ->
  In n (opened md' (sfx p)) -> exists q, matches q n = true /\ forall l, In (l, q) (wanted md l p).
Proof.
  intros Hn He Hw H.
  assert (M : forall a b q, q = Glob (a ++ dec p ++ str "_") b -> n = (a ++ dec p ++ str "_") ++ str "0" ++ b -> matches q n = true).
  { intros a b q -> ->. apply glob_matches. }
  assert (I : forall q, In q ([node_map p None; neighbors p None; index NODE p None; index EDGE p None]
     ++ (if node_features md =? 0 then [] else [features_data NODE p None; features_index NODE p None])
     ++ (if edge_features md =? 0 then [] else [features_data EDGE p None; features_index EDGE p None])
     ++ [alias NODE None p; alias EDGE None p]) -> matches q n = true -> exists q, matches q n = true /\ forall l, In (l, q) (wanted md l p)).
  { intros q Hq Hm. exists q. split; [exact Hm|]. intros l. unfold wanted. now apply in_map. }
  assert (E : forall a (e : nm), a ++ (dec p ++ str "_0") ++ e = (a ++ dec p ++ str "_") ++ str "0" ++ e) by (intros a e; now rewrite <- !app_assoc).
  unfold opened in H. rewrite !in_app_iff in H. unfold sfx in H. destruct H as [H|[H|[H|[H|[H|H]]]]].
  - destruct H as [<-|[<-|[]]].
    + apply (I (node_map p None)); [apply in_or_app; left; in_list|]. eapply M; [reflexivity|apply E].
    + apply (I (index NODE p None)); [apply in_or_app; left; in_list|]. eapply (M (str "node_")); [reflexivity|apply E].
  - destruct (node_features md' =? 0) eqn:F; [destruct H|]. apply Nat.eqb_neq in F. apply Hn in F. apply Nat.eqb_neq in F.
    assert (J : forall q, In q [features_data NODE p None; features_index NODE p None] -> matches q n = true -> exists q, matches q n = true /\ forall l, In (l, q) (wanted md l p)).
    { intros q Hq. apply I. rewrite F. apply in_or_app. right. apply in_or_app. now left. }
    destruct H as [<-|[<-|[]]]; [apply (J (features_index NODE p None)); [in_list|]|apply (J (features_data NODE p None)); [in_list|]]; (eapply (M (str "node_features_")); [reflexivity|apply E]).
  - destruct H as [<-|[<-|[]]].
    + apply (I (neighbors p None)); [apply in_or_app; left; in_list|]. eapply M; [reflexivity|apply E].
    + apply (I (index EDGE p None)); [apply in_or_app; left; in_list|]. eapply (M (str "edge_")); [reflexivity|apply E].
  - destruct (0 <=? watermark md')%Z eqn:F; [lia|destruct H].
  - destruct (edge_features md' =? 0) eqn:F; [destruct H|]. apply Nat.eqb_neq in F. apply He in F. apply Nat.eqb_neq in F.
    assert (J : forall q, In q [features_data EDGE p None; features_index EDGE p None] -> matches q n = true -> exists q, matches q n = true /\ forall l, In (l, q) (wanted md l p)).
    { intros q Hq. apply I. rewrite F. apply in_or_app. right. apply in_or_app. right. apply in_or_app. now left. }
    destruct H as [<-|[<-|[]]]; [apply (J (features_index EDGE p None)); [in_list|]|apply (J (features_data EDGE p None)); [in_list|]]; (eapply (M (str "edge_features_")); [reflexivity|apply E]).
  - destruct H as [<-|[]]. apply (I (node_map p None)); [apply in_or_app; left; in_list|]. eapply M; [reflexivity|apply E].
Qed.
Lemma wanted_alias md e tp p : exists q, matches q (value e ++ str "_" ++ dec tp ++ str "_" ++ dec p ++ str ".alias") = true /\ forall l, In (l, q) (wanted md l p).
Proof.
  exists (alias e None p). split.
  - unfold alias, starred. rewrite (app_assoc (value e)). apply glob_matches.
  - intros l. unfold wanted. apply in_map. apply in_or_app. right. apply in_or_app. right. apply in_or_app. right. destruct e; in_list.
Qed.
Lemma meta_unmatched md l p q : In q (wanted md l p) -> matches (snd q) meta_name = false.
Proof.
  intros H. unfold wanted in H. apply in_map_iff in H as (q' & <- & H). cbn [snd]. rewrite !in_app_iff in H. destruct H as [H|[H|[H|H]]].
  - destruct H as [<-|[<-|[<-|[<-|[]]]]]; reflexivity.
  - destruct (node_features md =? 0); [destruct H|]. destruct H as [<-|[<-|[]]]; reflexivity.
  - destruct (edge_features md =? 0); [destruct H|]. destruct H as [<-|[<-|[]]]; reflexivity.
  - destruct H as [<-|[<-|[]]]; reflexivity.
Qed.

Section Downloaded.
Context {C : Type}.
Variable st : store C.
Variable md : metadata.
Variable path l2 : loc.
Variable parts : list (loc * nat).
Variable tmp : list nm.
Hypothesis Hpath : is_local path = false.
Hypothesis Hl2 : is_local l2 = false.
Hypothesis Hparts : forall l p, In (l, p) parts -> is_local l = true \/ l = l2.
Hypothesis Hlast : exists t p, parts = t ++ [(l2, p)].
Hypothesis Hfresh : forall n, lookup st (0, tmp) n = None.
Let T : loc := (0, tmp).
Let qs := flat_map (asked md) parts.
Let Q (n : nm) : bool := existsb (fun q => loc_eqb (fst q) l2 && matches (snd q) n) qs.
Lemma qs_in l q : In (l, q) qs -> l = l2 /\ exists p, In (l2, p) parts /\ In (l2, q) (wanted md l2 p).
Proof.
  intros H. unfold qs in H. apply in_flat_map in H as ([l' p] & Hx & H). unfold asked in H. cbn [fst snd] in H.
  destruct (Hparts l' p Hx) as [L| ->]; [rewrite L in H; destruct H|]. rewrite Hl2 in H.
  assert (l = l2) by (unfold wanted in H; apply in_map_iff in H as (q' & E & _); congruence). subst l. split; [reflexivity|]. now exists p.
Qed.
Lemma Q_true p q n : In (l2, p) parts -> In (l2, q) (wanted md l2 p) -> matches q n = true -> Q n = true.
Proof.
  intros Hp Hq Hm. unfold Q. apply existsb_exists. exists (l2, q). cbn [fst snd]. rewrite loc_eqb_refl, Hm. split; [|reflexivity].
  unfold qs. apply in_flat_map. exists (l2, p). split; [exact Hp|]. unfold asked. cbn [fst snd]. now rewrite Hl2.
Qed.
Lemma found_chosen (x : loc * nm * C) : (fst (fst (fst x)) =? fst l2) && existsb (fun q => loc_eqb (fst q) (fst (fst x)) && matches (snd q) (snd (fst x))) qs = chosen Q l2 x.
Proof.
  destruct x as [[l n] c]. unfold chosen. cbn [fst snd]. destruct (loc_eqb l l2) eqn:E.
  - apply loc_eqb_spec in E. subst l. rewrite Nat.eqb_refl. reflexivity.
  - cbn [andb]. destruct (existsb _ qs) eqn:X; [|apply andb_false_r]. exfalso. apply existsb_exists in X as ([l' q] & Hq & H). cbn [fst snd] in H.
    apply andb_true_iff in H as [H _]. apply loc_eqb_spec in H. subst l'. apply qs_in in Hq as [-> _]. rewrite loc_eqb_refl in E. discriminate.
Qed.
Lemma Q_meta : Q meta_name = false.
Proof.
  unfold Q. destruct (existsb _ qs) eqn:X; [|reflexivity]. exfalso. apply existsb_exists in X as ([l q] & Hq & H). cbn [fst snd] in H.
  apply andb_true_iff in H as [_ H]. apply qs_in in Hq as (_ & p & _ & Hq). pose proof (meta_unmatched md l2 p _ Hq) as U. cbn [snd] in U. rewrite U in H. discriminate.
Qed.
Variable c0 : C.
Hypothesis Hmeta : lookup st path meta_name = Some c0.
Hypothesis Hsome : exists n, Q n = true /\ lookup st l2 n <> None.
Let st' : store C := map (moved T) (filter (chosen Q l2) st) ++ (T, meta_name, c0) :: st.
Lemma l2_T : l2 <> T.
Proof. intros E. rewrite E in Hl2. discriminate. Qed.
Lemma download_ok : download st md path parts tmp = Ok (st', T, map (place T) parts).
Proof.
  unfold download. rewrite Hpath. unfold open_file. rewrite Hmeta. cbn [bind]. rewrite collect_spec.
  assert (F : last (map (fun x : nat * list nm * nat => fst (fst x)) parts) (fst path) = fst l2).
  { destruct Hlast as (t & p & ->). rewrite map_app. cbn [map fst]. clear. change (nat * list nm)%type with loc. generalize (fst path) (fst l2). intros d f. induction (map (fun x : loc * nat => fst (fst x)) t) as [|a m IH]; [reflexivity|].
    cbn [app]. rewrite last_cons. destruct m as [|b m]; [reflexivity|]. cbn [app] in *. now rewrite last_cons in *. }
  rewrite F. unfold get_files. fold qs.
  rewrite (filter_ext _ (chosen Q l2)) by exact found_chosen.
  assert (X : filter (chosen Q l2) ((0, tmp, meta_name, c0) :: st) = filter (chosen Q l2) st).
  { cbn [filter]. unfold chosen at 1. cbn [fst snd]. rewrite (loc_eqb_neq (0, tmp) l2) by (intros E; apply l2_T; symmetry; exact E). reflexivity. }
  rewrite X. clear X.
  destruct (filter (chosen Q l2) st) as [|x found] eqn:E.
  - exfalso. destruct Hsome as (n & Qn & L). apply listing_in in L. unfold listing in L. apply in_map_iff in L as ([[l m] c] & Em & L). cbn [fst snd] in Em. subst m.
    apply filter_In in L as [Hi L]. cbn [fst snd] in L. assert (X : In (l, n, c) (filter (chosen Q l2) st)).
    { apply filter_In. split; [exact Hi|]. unfold chosen. cbn [fst snd]. now rewrite L, Qn. }
    rewrite E in X. destruct X.
  - unfold st'. rewrite <- E.
    set (g := fun y : loc * nm * C => (0, tmp ++ skipn (List.length (common (map (fun x : loc * nm * C => snd (fst (fst x))) (filter (chosen Q l2) st)))) (snd (fst (fst y))), snd (fst y), snd y)).
    assert (G : forall y, In y (filter (chosen Q l2) st) -> g y = moved T y).
    { assert (K : forall d, In d (map (fun y : loc * nm * C => snd (fst (fst y))) (filter (chosen Q l2) st)) -> d = snd l2).
      { intros d Hd. apply in_map_iff in Hd as (y & <- & Hy). apply filter_In in Hy as [_ Hy]. unfold chosen in Hy. apply andb_true_iff in Hy as [Hy _].
        apply loc_eqb_spec in Hy. now rewrite Hy. }
      intros y Hy. unfold g, moved. rewrite (common_same (snd l2)); [|rewrite E; discriminate|exact K].
      apply filter_In in Hy as [_ Hy]. unfold chosen in Hy. apply andb_true_iff in Hy as [Hy _]. apply loc_eqb_spec in Hy. rewrite Hy.
      rewrite skipn_all, app_nil_r. reflexivity. }
    cbn [bind]. do 3 f_equal. exact (f_equal (fun m => m ++ _) (map_ext_in _ _ _ G)).
Qed.
Lemma fresh_listing : listing st T = [].
Proof.
  destruct (listing st T) as [|n l] eqn:E; [reflexivity|]. exfalso. assert (H : In n (listing st T)) by (rewrite E; now left).
  apply listing_in in H. apply H. apply Hfresh.
Qed.
Lemma new_lookup n : Q n = true -> lookup st' T n = lookup st l2 n.
Proof.
  intros H. unfold st'. rewrite lookup_app, lookup_moved, H. destruct (lookup st l2 n); [reflexivity|].
  change ((T, meta_name, c0) :: st) with ([(T, meta_name, c0)] ++ st). rewrite lookup_app. unfold lookup at 1. cbn [find fst snd]. rewrite loc_eqb_refl. cbn [andb].
  destruct (nm_eqb meta_name n) eqn:B; [apply nm_eqb_spec in B; subst n; rewrite Q_meta in H; discriminate|]. exact (Hfresh n).
Qed.
Lemma new_meta : lookup st' T meta_name = Some c0.
Proof.
  unfold st'. rewrite lookup_app, lookup_moved, Q_meta. unfold lookup. cbn [find fst snd]. now rewrite loc_eqb_refl.
Qed.
Lemma new_listing : listing st' T = filter Q (listing st l2) ++ [meta_name].
Proof.
  unfold st'. rewrite listing_app, listing_moved. f_equal. change ((T, meta_name, c0) :: st) with ([(T, meta_name, c0)] ++ st). rewrite listing_app, fresh_listing.
  unfold listing. cbn [filter fst snd]. now rewrite loc_eqb_refl.
Qed.
Lemma old_lookup l n : l <> T -> lookup st' l n = lookup st l n.
Proof.
  intros H. unfold st'. rewrite lookup_app, lookup_moved_other by exact H. change ((T, meta_name, c0) :: st) with ([(T, meta_name, c0)] ++ st). rewrite lookup_app.
  unfold lookup at 1. cbn [find fst snd]. rewrite loc_eqb_neq by congruence. reflexivity.
Qed.
Lemma old_listing l : l <> T -> listing st' l = listing st l.
Proof.
  intros H. unfold st'. rewrite listing_app, listing_moved_other by exact H. unfold listing. cbn [filter fst snd]. rewrite loc_eqb_neq by congruence. reflexivity.
Qed.
Variable md' : metadata.
Variable w : conversion.
Variable all : list nat.
Hypothesis Hnodup : NoDup (map fst st).
Hypothesis Hall : forall p, In p all -> (Z.of_nat p < 2 ^ 31)%Z.
Hypothesis Hholds : holds st l2 w all.
Hypothesis Hin : forall p, In (l2, p) parts -> In p all.
Hypothesis Hn : node_features md' <> 0 -> node_features md <> 0.
Hypothesis He : edge_features md' <> 0 -> edge_features md <> 0.
Hypothesis Hw : (watermark md' < 0)%Z.
Lemma new_load p : In (l2, p) parts -> load st' md' T p = load st md' l2 p.
Proof.
  intros Hp. pose proof (holds_tame st l2 w all Hall Hholds) as Tm. assert (Qo : forall n, In n (opened md' (sfx p)) -> Q n = true).
  { intros n H. destruct (wanted_opened md md' p n Hn He Hw H) as (q & Hm & Hq). exact (Q_true p q n Hp (Hq l2) Hm). }
  assert (N : In (nbs p) (opened md' (sfx p))) by (unfold opened; rewrite !in_app_iff; right; right; left; now left).
  assert (I : In (nbs p) (listing st l2)) by (apply Hholds; right; exists p; split; [now apply Hin|apply nbs_written]).
  rewrite (load_one st' md' T p), (load_one st md' l2 p).
  - rewrite (mapM_same (open_file st' T) (open_file st l2)); [reflexivity|]. intros n H. unfold open_file. now rewrite new_lookup by (now apply Qo).
  - exact Tm.
  - apply one_once; [now apply listing_nodup|exact I].
  - rewrite new_listing. apply Forall_app. split; [|constructor; [exact meta_tame|constructor]].
    apply Forall_forall. intros n H. apply filter_In in H as [H _]. exact (proj1 (Forall_forall _ _) Tm n H).
  - rewrite new_listing, flat_map_app. replace (flat_map (one p) [meta_name]) with (@nil nm) by reflexivity. rewrite app_nil_r.
    apply one_once; [apply NoDup_filter; now apply listing_nodup|]. apply filter_In. split; [exact I|now apply Qo].
Qed.
End Downloaded.

(** Every file of a remote graph is found after the download where it was before. *)
Lemma downloads {C} (st : store C) md md' w all path l2 parts tmp :
  NoDup (map fst st) -> (forall p, In p all -> (Z.of_nat p < 2 ^ 31)%Z) -> holds st l2 w all ->
  is_local path = false -> is_local l2 = false ->
  (forall l p, In (l, p) parts -> (is_local l = true /\ l <> (0, tmp)) \/ (l = l2 /\ In p all)) ->
  (exists t p, parts = t ++ [(l2, p)]) ->
  (forall n, lookup st (0, tmp) n = None) ->
  lookup st path meta_name <> None ->
  (node_features md' <> 0 -> node_features md <> 0) -> (edge_features md' <> 0 -> edge_features md <> 0) -> (watermark md' < 0)%Z ->
  exists st', download st md path parts tmp = Ok (st', (0, tmp), map (place (0, tmp)) parts) /\
    lookup st' (0, tmp) meta_name = lookup st path meta_name /\
    (forall l n, l <> (0, tmp) -> lookup st' l n = lookup st l n) /\
    (forall l p, In (l, p) parts -> let l' := fst (place (0, tmp) (l, p)) in
       load st' md' l' p = load st md' l p /\
       forall home' home tp, open_node_alias st' home' l' p tp = open_node_alias st home l p tp) /\
    (forall p, In (l2, p) parts -> forall l' l tp, open_edge_alias st' (0, tmp) l' p tp = open_edge_alias st l2 l p tp).
Proof.
  intros ND B H Hpath Hl2 Hp Hlast Hf Hm Hn He Hw. destruct (lookup st path meta_name) as [c0|] eqn:Em; [|congruence]. clear Hm.
  assert (Hp' : forall l p, In (l, p) parts -> is_local l = true \/ l = l2) by (intros l p Hi; destruct (Hp l p Hi) as [[? _]|[? _]]; [now left|now right]).
  assert (Hin : forall p, In (l2, p) parts -> In p all).
  { intros p Hi. destruct (Hp l2 p Hi) as [[X _]|[_ X]]; [congruence|exact X]. }
  assert (Qt := fun p q n => Q_true md l2 parts Hl2 p q n).
  pose (Qn := fun n => existsb (fun q => loc_eqb (fst q) l2 && matches (snd q) n) (flat_map (asked md) parts)).
  assert (S : exists n, Qn n = true /\ lookup st l2 n <> None).
  { destruct Hlast as (t & p & E). assert (Hi : In (l2, p) parts) by (rewrite E; apply in_or_app; right; now left).
    exists (nbs p). split.
    - destruct (wanted_opened md md' p (nbs p) Hn He Hw) as (q & Hq & Hwq); [unfold opened; rewrite !in_app_iff; right; right; left; now left|].
      exact (Qt p q _ Hi (Hwq l2) Hq).
    - apply listing_in. apply H. right. exists p. split; [now apply Hin|apply nbs_written]. }
  eexists. split; [exact (download_ok st md path l2 parts tmp Hpath Hl2 Hp' Hlast c0 Em S)|]. split; [|split; [|split]].
  - exact (new_meta st md l2 parts tmp Hl2 Hp' c0).
  - intros l n Hl. exact (old_lookup st md l2 parts tmp c0 l n Hl).
  - intros l p Hi l'. assert (D : {is_local l = true} + {is_local l = false}) by (destruct (is_local l); [now left|now right]). destruct D as [D|D].
    + assert (E : l' = l) by (unfold l', place; cbn [fst]; now rewrite D). rewrite E. destruct (Hp l p Hi) as [[_ X]|[X _]]; [|congruence].
      split; [apply load_ext|].
      * exact (old_listing st md l2 parts tmp c0 l X).
      * intros n. exact (old_lookup st md l2 parts tmp c0 l n X).
      * intros home' home tp. unfold open_node_alias, open_file. rewrite (old_lookup st md l2 parts tmp c0 l _ X). reflexivity.
    + assert (E : l' = (0, tmp)) by (unfold l', place; cbn [fst]; now rewrite D). rewrite E. destruct (Hp l p Hi) as [[X _]|[X _]]; [congruence|]. subst l.
      split.
      * exact (new_load st md l2 parts tmp Hl2 Hp' Hf c0 md' w all ND B H Hin Hn He Hw p Hi).
      * intros home' home tp. destruct (wanted_alias md NODE tp p) as (q & Hm & Hq). unfold open_node_alias, open_file. change (str "node_") with (value NODE ++ str "_").
        rewrite <- (app_assoc (value NODE)). rewrite (new_lookup st md l2 parts tmp Hl2 Hp' Hf c0 _ (Qt p q _ Hi (Hq l2) Hm)). reflexivity.
  - intros p Hi l' l tp. destruct (wanted_alias md EDGE tp p) as (q & Hm & Hq). unfold open_edge_alias, open_file. change (str "edge_") with (value EDGE ++ str "_").
    rewrite <- (app_assoc (value EDGE)). rewrite (new_lookup st md l2 parts tmp Hl2 Hp' Hf c0 _ (Qt p q _ Hi (Hq l2) Hm)). reflexivity.
Qed.

(** What the engine opens for a partition, by the names of the converter. *)
Definition roles (md : metadata) (p : nat) : list nm :=
  let z := Some 0 in
  flat_map named
    ([node_map p z; index NODE p z]
     ++ (if node_features md =? 0 then [] else [features_index NODE p z; features_data NODE p z])
     ++ [neighbors p z; index EDGE p z]
     ++ (if (0 <=? watermark md)%Z then [timestamps EDGE p z] else [])
     ++ (if edge_features md =? 0 then [] else [features_index EDGE p z; features_data EDGE p z])
     ++ [node_map p z]).
Lemma roles_opened md p : opened md (sfx p) = roles md p.
Proof.
  assert (E : forall a (b e : nm), (a ++ b ++ str "_") ++ dec 0 ++ e = a ++ (b ++ str "_0") ++ e) by (intros a b e; now rewrite <- !app_assoc).
  unfold roles, opened, sfx, node_map, index, features_index, features_data, neighbors, timestamps, starred, named.
  rewrite !flat_map_app. destruct (node_features md =? 0), (0 <=? watermark md)%Z, (edge_features md =? 0); cbn [flat_map app];
    repeat (apply f_equal2; [rewrite <- ?app_assoc; reflexivity|]); reflexivity.
Qed.
Lemma loads_roles {C} (st : store C) md l w all p : NoDup (map fst st) -> (forall p, In p all -> (Z.of_nat p < 2 ^ 31)%Z) -> holds st l w all -> In p all ->
  ((0 <= watermark md)%Z -> temporal w = true) ->
  exists cs, load st md l p = Ok [(sfx p, cs)] /\ map Some cs = map (lookup st l) (roles md p).
Proof. rewrite <- roles_opened. apply loads. Qed.
Lemma finds_aliases {C} (st : store C) l w all p tp : holds st l w all -> In p all ->
  (skip_nodes w = false -> tp < node_types w -> forall home, exists c, open_node_alias st home l p tp = Ok c /\ map (lookup st l) (named (alias NODE (Some tp) p)) = [Some c]) /\
  (skip_edges w = false -> tp < edge_types w -> forall l', exists c, open_edge_alias st l l' p tp = Ok c /\ map (lookup st l) (named (alias EDGE (Some tp) p)) = [Some c]).
Proof.
  intros H Hp. split; intros Hs Ht ?.
  - assert (I : In (value NODE ++ str "_" ++ dec tp ++ str "_" ++ dec p ++ str ".alias") (listing st l)).
    { apply H. right. exists p. split; [exact Hp|]. unfold written. rewrite Hs, !flat_map_app, !in_app_iff. right. right. left.
      apply in_flat_map. exists (alias NODE (Some tp) p). split; [apply (in_map (fun tp => alias NODE (Some tp) p)); apply in_seq; lia|]. left. unfold alias, starred. now rewrite <- app_assoc. }
    apply listing_in in I. unfold open_node_alias, open_file. change (str "node_") with (value NODE ++ str "_"). rewrite <- app_assoc.
    unfold alias, starred, named. cbn [map]. rewrite <- app_assoc. destruct (lookup st l _) as [c|] eqn:E; [|congruence]. exists c. split; reflexivity.
  - assert (I : In (value EDGE ++ str "_" ++ dec tp ++ str "_" ++ dec p ++ str ".alias") (listing st l)).
    { apply H. right. exists p. split; [exact Hp|]. unfold written. rewrite Hs, !flat_map_app, !in_app_iff. right. right. right.
      apply in_flat_map. exists (alias EDGE (Some tp) p). split; [apply (in_map (fun tp => alias EDGE (Some tp) p)); apply in_seq; lia|]. left. unfold alias, starred. now rewrite <- app_assoc. }
    apply listing_in in I. unfold open_edge_alias, open_file. change (str "edge_") with (value EDGE ++ str "_"). rewrite <- app_assoc.
    unfold alias, starred, named. cbn [map]. rewrite <- app_assoc. destruct (lookup st l _) as [c|] eqn:E; [|congruence]. exists c. split; reflexivity.
Qed.

(** ** Folders of HDFS *)
Lemma prefix_split a : forall n, prefix a n = true -> exists t, n = a ++ t.
Proof.
  induction a as [|c a IH]; intros n H; [now exists n|]. destruct n as [|d n]; [discriminate|]. cbn [prefix] in H.
  apply andb_true_iff in H as [E H]. apply Ascii.eqb_eq in E. subst d. destruct (IH n H) as [t ->]. now exists t.
Qed.
Lemma find_sub_later dir : forall n, find_sub neighbors_prefix (dir ++ str "/") = None ->
  find_sub neighbors_prefix ((dir ++ str "/") ++ n) = match find_sub neighbors_prefix n with Some k => Some (List.length (dir ++ str "/") + k) | None => None end.
Proof.
  assert (P : forall a d n, ~ In "/"%char a -> prefix a (d ++ str "/") = false -> prefix a ((d ++ str "/") ++ n) = false).
  { induction a as [|c a IH]; intros d n Ha H; [discriminate|]. destruct d as [|e d].
    - cbn [str list_ascii_of_string app prefix]. destruct (Ascii.eqb c "/"%char) eqn:E; [|reflexivity]. apply Ascii.eqb_eq in E. exfalso. apply Ha. now left.
    - cbn [app prefix] in *. destruct (Ascii.eqb c e); [|reflexivity]. cbn [andb] in *. apply IH; [intros X; apply Ha; now right|exact H]. }
  assert (N : ~ In "/"%char neighbors_prefix).
  { intros H. cbn in H. repeat (destruct H as [H|H]; [discriminate H|]). exact H. }
  induction dir as [|c dir IH]; intros n H.
  - cbn [app str list_ascii_of_string List.length]. cbn [find_sub]. change (prefix neighbors_prefix ("/"%char :: n)) with false. cbn [Nat.add].
    destruct (find_sub neighbors_prefix n); reflexivity.
  - cbn [app find_sub] in H. destruct (prefix neighbors_prefix (c :: dir ++ str "/")) eqn:E; [discriminate|].
    assert (H' : find_sub neighbors_prefix (dir ++ str "/") = None) by (destruct (find_sub neighbors_prefix (dir ++ str "/")); [discriminate|reflexivity]).
    cbn [app find_sub]. rewrite (P neighbors_prefix (c :: dir) n N E : prefix neighbors_prefix (c :: (dir ++ str "/") ++ n) = false). rewrite (IH n H').
    destruct (find_sub neighbors_prefix n); reflexivity.
Qed.
Lemma find_sub_none a n : (forall x y, n <> x ++ a ++ y) -> find_sub a n = None.
Proof.
  induction n as [|c n IH]; intros H; cbn [find_sub]; (destruct (prefix a _) eqn:P; [exfalso; apply prefix_split in P as [t P]; exact (H [] t P)|]).
  - reflexivity.
  - rewrite IH; [reflexivity|]. intros x y E. apply (H (c :: x) y). cbn [app]. now rewrite E.
Qed.
(** No n followed by an e. *)
Fixpoint no_ne (n : nm) : bool :=
  match n with
  | c :: t => negb (Ascii.eqb c "n"%char && match t with d :: _ => Ascii.eqb d "e"%char | [] => false end) && no_ne t
  | [] => true
  end.
Lemma no_ne_find n : no_ne n = true -> find_sub neighbors_prefix n = None.
Proof.
  induction n as [|c n IH]; intros H; [reflexivity|]. cbn [no_ne] in H. apply andb_true_iff in H as [E H]. cbn [find_sub].
  destruct (prefix neighbors_prefix (c :: n)) eqn:P; [|rewrite (IH H); reflexivity]. exfalso.
  apply prefix_split in P as [t P]. unfold neighbors_prefix in P. cbn [str list_ascii_of_string app] in P. injection P as -> ->. discriminate.
Qed.
Lemma no_ne_app a b : no_ne a = true -> no_ne b = true -> (last a " "%char <> "n"%char) -> no_ne (a ++ b) = true.
Proof.
  induction a as [|c a IH]; intros Ha Hb L; [exact Hb|]. cbn [no_ne app] in *. apply andb_true_iff in Ha as [E Ha]. destruct a as [|d a].
  - cbn [app last] in *. rewrite Hb, andb_true_r. destruct (Ascii.eqb c "n"%char) eqn:C; [apply Ascii.eqb_eq in C; congruence|reflexivity].
  - rewrite (IH Ha Hb) by exact L. cbn [app] in *. now rewrite E.
Qed.
Lemma no_ne_digits n : no_ne (dec n) = true /\ last (dec n) " "%char <> "n"%char.
Proof.
  unfold dec. generalize (Nat.to_uint n). intros u. induction u; (split; [|]); cbn [digits no_ne last]; try reflexivity; try discriminate;
    destruct IHu as [A B]; try (rewrite A; reflexivity); destruct (digits u); try discriminate; exact B.
Qed.
Lemma written_no_ne w p n : In n (written w p) -> n = nbs p \/ no_ne n = true.
Proof.
  assert (L : forall a b : nm, b <> [] -> last b " "%char <> "n"%char -> last (a ++ b) " "%char <> "n"%char).
  { induction a as [|c a IH]; intros b N H; [exact H|]. cbn [app]. rewrite last_cons. destruct (a ++ b) eqn:E; [destruct a; [cbn in E; congruence|discriminate]|].
    rewrite <- E. specialize (IH b N H). rewrite E in *. rewrite last_cons in *. exact IH. }
  assert (A : forall a q b, no_ne a = true -> last a " "%char <> "n"%char -> no_ne b = true -> no_ne (a ++ dec q ++ b) = true).
  { intros a q b Ha La Hb. destruct (no_ne_digits q) as [D E]. apply no_ne_app; [exact Ha| |exact La]. now apply no_ne_app. }
  assert (S : forall a b, no_ne a = true -> last a " "%char <> "n"%char -> no_ne (str "_0" ++ b) = true -> no_ne (a ++ sfx p ++ b) = true).
  { intros a b Ha La Hb. unfold sfx. rewrite <- app_assoc. now apply A. }
  rewrite written_names. intros [H|[[_ ->]|[[_ (tp & _ & ->)]|[_ (tp & _ & ->)]]]].
  - cbn [In] in H. repeat (destruct H as [<-|H]; [first [left; reflexivity|right; apply S; [reflexivity|discriminate|reflexivity]]|]). destruct H.
  - right. apply S; [reflexivity|discriminate|reflexivity].
  - right. apply A; [reflexivity|discriminate|]. apply A; [reflexivity|discriminate|reflexivity].
  - right. apply A; [reflexivity|discriminate|]. apply A; [reflexivity|discriminate|reflexivity].
Qed.
Lemma hdfs_same w all dir names p : (forall q, In q all -> (Z.of_nat q < 2 ^ 31)%Z) -> find_sub neighbors_prefix (dir ++ str "/") = None ->
  (forall n, In n names -> n = meta_name \/ exists q, In q all /\ In n (written w q)) ->
  hdfs_suffixes (dir ++ str "/") names p = suffixes names p.
Proof.
  intros B D H. rewrite suffixes_tame.
  2:{ apply Forall_forall. intros n Hn. destruct (H n Hn) as [->|(q & Hq & W)]; [exact meta_tame|exact (written_tame w q n (B q Hq) W)]. }
  induction names as [|n t IH]; [reflexivity|]. specialize (IH (fun m Hm => H m (or_intror Hm))). cbn [hdfs_suffixes flat_map].
  rewrite find_sub_later by exact D.
  assert (G : (exists q, (Z.of_nat q < 2 ^ 31)%Z /\ n = nbs q) \/ no_ne n = true).
  { destruct (H n (or_introl eq_refl)) as [->|(q & Hq & W)]; [right; reflexivity|]. destruct (written_no_ne w q n W) as [->|N]; [left; exists q; split; [now apply B|reflexivity]|now right]. }
  destruct G as [(q & Hq & ->)|N].
  - assert (F : find_sub neighbors_prefix (nbs q) = Some 0) by (unfold nbs; destruct (neighbors_prefix ++ sfx q ++ str ".index") eqn:E; [discriminate|]; cbn [find_sub]; rewrite <- E, prefix_app; reflexivity).
    rewrite F. rewrite Nat.add_0_r, Nat.add_comm.
    assert (K : skipn (List.length neighbors_prefix + List.length (dir ++ str "/")) ((dir ++ str "/") ++ nbs q) = sfx q ++ str ".index").
    { rewrite skipn_app. rewrite skipn_all2 by lia. replace (_ + _ - _) with (List.length neighbors_prefix) by lia. unfold nbs. cbn [app].
      rewrite skipn_app, Nat.sub_diag, skipn_all. reflexivity. }
    rewrite K. unfold sfx at 1. rewrite <- app_assoc. rewrite stoi_dec; [|reflexivity|exact Hq]. cbn [bind]. rewrite IH. cbn [bind]. f_equal. unfold one.
    destruct (Z.eqb_spec (Z.of_nat q) (Z.of_nat p)) as [E'|E'].
    + apply Nat2Z.inj in E'. subst q. rewrite nm_eqb_refl. cbn [app]. f_equal.
      assert (X : filename (sfx p ++ str ".index") = sfx p ++ str ".index").
      { assert (Y : existsb (Ascii.eqb "/"%char) (sfx p ++ str ".index") = false).
        { unfold sfx. rewrite <- app_assoc, existsb_app. replace (existsb _ (str "_0" ++ str ".index")) with false by reflexivity. rewrite orb_false_r.
          unfold dec. generalize (Nat.to_uint p). intros u. induction u; cbn [digits existsb]; try reflexivity; rewrite IHu; reflexivity. }
        destruct (sfx p ++ str ".index") as [|c m]; [reflexivity|]. cbn [filename]. now rewrite Y. }
      rewrite X. apply (stem_app (sfx p) (str "index")).
      * unfold sfx. intros E. apply app_eq_nil in E as [_ E]. discriminate.
      * intros c Hc. cbn in Hc. repeat (destruct Hc as [<-|Hc]; [reflexivity|]). destruct Hc.
    + destruct (nm_eqb (nbs q) (nbs p)) eqn:Bq; [|reflexivity]. exfalso. apply nm_eqb_spec in Bq. unfold nbs, sfx in Bq. apply app_inv_head in Bq.
      rewrite <- !app_assoc in Bq. apply dec_inj in Bq; [|reflexivity|reflexivity]. destruct Bq. lia.
  - rewrite (no_ne_find n N). rewrite IH. f_equal. unfold one. destruct (nm_eqb n (nbs p)) eqn:Bq; [|reflexivity]. exfalso. apply nm_eqb_spec in Bq. subst n.
    unfold nbs in N. discriminate N.
Qed.
