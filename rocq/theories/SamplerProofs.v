(** Sampling without replacement over types and partitions. *)
From Coq Require Import Lqa Permutation Qround.
From Verif Require Import Base Dist WriterModel WriterProofs ConvertProofs AliasModel AliasProofs AliasFileProofs ReservoirModel ReservoirProofs SamplerModel.
Local Open Scope nat_scope.

Lemma outcome_bind {A B} (m : prog A) (f : A -> prog B) r : outcome (pbind m f) r <->
  (exists a, outcome m (Ok a) /\ outcome (f a) r) \/ (exists e, outcome m (Fail e) /\ r = Fail e).
Proof.
  induction m as [a|e|n p k IH]; cbn [pbind outcome].
  - split; [intros H; left; exists a; auto|]. intros [(b & E & H)|(e & E & _)]; [|discriminate]. injection E as ->. exact H.
  - split; [intros ->; right; exists e; auto|]. intros [(b & E & _)|(e' & E & ->)]; [discriminate|]. injection E as ->. reflexivity.
  - split.
    + intros (c & Hc & H). apply IH in H as [(a & Ha & H)|(e & He & ->)]; [left; exists a|right; exists e]; split; auto; exists c; auto.
    + intros [(a & (c & Hc & Ha) & H)|(e & (c & Hc & He) & ->)]; exists c; (split; [exact Hc|]); apply IH; [left; exists a; auto|right; exists e; auto].
Qed.

(** ** Tables *)
Definition nsum (l : list nat) : nat := fold_right Nat.add 0 l.

Lemma later_sums_snd ms : snd (fold_right (fun m a => (snd a :: fst a, snd a + m)) (@nil nat, 0) ms) = nsum ms.
Proof. induction ms as [|m ms IH]; cbn [fold_right snd nsum]; [reflexivity|]. rewrite IH. fold (nsum ms). lia. Qed.
Lemma later_sums_cons m ms : later_sums (m :: ms) = nsum ms :: later_sums ms.
Proof. unfold later_sums. cbn [fold_right fst]. now rewrite later_sums_snd. Qed.

Lemma cond_snd ws : (snd (fold_right (fun w a => let s := snd a + w in ((w / s) :: fst a, s)) (@nil Q, 0) ws) == total ws)%Q.
Proof. induction ws as [|w ws IH]; cbn [fold_right snd total qsum]; [reflexivity|]. fold (total ws). rewrite IH. ring. Qed.
Lemma cond_cons w ws : exists p, conditional_probabilities (w :: ws) = p :: conditional_probabilities ws /\ (p == w / total (w :: ws))%Q.
Proof.
  unfold conditional_probabilities. cbn [fold_right fst]. eexists. split; [reflexivity|].
  cbn [total qsum]. rewrite cond_snd. fold (total ws). rewrite (Qplus_comm (total ws) w). reflexivity.
Qed.
Lemma table_cons w ws : exists p, table (w :: ws) = (p, to_count w, nsum (map to_count ws)) :: table ws /\ (p == w / total (w :: ws))%Q.
Proof.
  unfold table. cbn [map]. destruct (cond_cons w ws) as (p & -> & E). rewrite later_sums_cons. cbn [combine]. eauto.
Qed.

Lemma to_count_nat n : to_count (qnat n) = n.
Proof. unfold to_count, qnat. rewrite Qfloor_Z. apply Nat2Z.id. Qed.
Lemma to_count_eq a b : (a == b)%Q -> to_count a = to_count b.
Proof. intros H. unfold to_count. now rewrite H. Qed.
Lemma total_nat ns : (total (map qnat ns) == qnat (nsum ns))%Q.
Proof. induction ns as [|n ns IH]; cbn [map total qsum nsum fold_right]; [reflexivity|]. fold (total (map qnat ns)) (nsum ns). rewrite IH, qnat_add. reflexivity. Qed.

(** ** One count *)
Lemma draw_ok left p mx mn c : outcome (draw_count false left (p, mx, mn)) (Ok c) ->
  c <= mx /\ c <= left /\ (Nat.min (left - c) mn = Nat.min left (mx + mn) - c).
Proof.
  cbn [draw_count outcome]. intros (c0 & _ & H). destruct (Nat.ltb_spec mn (left - Nat.min c0 mx)).
  - destruct (Nat.ltb_spec left mx); cbn [outcome] in H; [discriminate|]. injection H as <-. lia.
  - destruct (Nat.ltb_spec left (Nat.min c0 mx)); cbn [outcome] in H; [discriminate|]. injection H as ->. lia.
Qed.

(** When nothing can overflow. *)
Lemma draw_total left p mx mn r : mx <= mn \/ mx + mn <= left \/ (mn = 0 /\ (0 < mx -> (1 <= p)%Q)) ->
  outcome (draw_count false left (p, mx, mn)) r -> exists c, r = Ok c.
Proof.
  cbn [draw_count outcome]. intros Hc (c0 & (P1 & P2 & P3) & H). destruct (Nat.ltb_spec mn (left - Nat.min c0 mx)).
  - destruct (Nat.ltb_spec left mx); cbn [outcome] in H; [|eauto]. exfalso.
    destruct Hc as [Hc|[Hc|[-> Hc]]]; try lia. rewrite P3 in H0 by (apply Hc; lia). lia.
  - destruct (Nat.ltb_spec left (Nat.min c0 mx)); cbn [outcome] in H; [lia|eauto].
Qed.

(** ** One request *)
Lemma take_ok {A} skip pick (records : list A) count : (forall c, 1 <= skip c) -> 0 < count -> count <= length records ->
  exists xs, take_without skip pick records count = Ok (map Some xs) /\ length xs = count /\ incl xs records /\ (NoDup records -> NoDup xs).
Proof.
  intros Hs Hc Hl. unfold take_without. destruct records as [|d rest] eqn:E; [cbn [length] in Hl; lia|]. rewrite <- E in *.
  destruct (algorithm_l skip (fun c => Nat.modulo (pick c) count) count [records] Hs) as (s & ps & R & L & N & F).
  { intros c. apply Nat.mod_upper_bound. lia. }
  cbn [concat] in *. rewrite app_nil_r in *. rewrite R. cbn [bind snd].
  exists (map (fun p => nth p records d) ps). rewrite map_length. split; [|split; [lia|split]].
  - f_equal. replace (count - length ps) with 0 by lia. cbn [repeat]. rewrite app_nil_r, map_map.
    apply map_ext_in. intros p Hp. rewrite Forall_forall in F. apply nth_error_nth'. now apply F.
  - intros x Hx. apply in_map_iff in Hx as (p & <- & Hp). apply nth_In. rewrite Forall_forall in F. now apply F.
  - intros Nd. clear - N F Nd. induction N as [|p ps Hp N IH]; cbn [map]; [constructor|]. inversion F; subst.
    constructor; [|auto]. intros C. apply in_map_iff in C as (q & E & Hq). apply Hp.
    rewrite Forall_forall in H2. specialize (H2 q Hq).
    assert (p = q) as ->; [|exact Hq]. apply (proj1 (NoDup_nth records d) Nd); auto.
Qed.

(** ** Requests *)
Section Fill.
Context {A : Type} (skips picks : nat -> nat -> nat) (Hskip : forall j c, 1 <= skips j c) (pops : list (list (list A))).

Lemma fill_app a : forall b j, fill_without skips picks j pops (a ++ b) =
  (do x <- fill_without skips picks j pops a ;; do y <- fill_without skips picks (j + length a) pops b ;; Ok (x ++ y)).
Proof.
  induction a as [|[[i p] c] a IH]; intros b j; cbn [app fill_without length bind].
  - rewrite Nat.add_0_r. destruct (fill_without _ _ _ _ _); reflexivity.
  - destruct (get pops i); cbn [bind]; [|reflexivity]. destruct (get _ p); cbn [bind]; [|reflexivity].
    destruct (take_without _ _ _ _); cbn [bind]; [|reflexivity]. rewrite IH. replace (S j + length a) with (j + S (length a)) by lia.
    destruct (fill_without skips picks (S j) pops a); cbn [bind]; [|reflexivity].
    destruct (fill_without skips picks _ pops b); cbn [bind]; [|reflexivity]. now rewrite app_assoc.
Qed.

Definition lens (prs : list (list A)) : list nat := map (@length A) prs.

Lemma NoDup_app_inv {B} (a b : list B) : NoDup (a ++ b) -> NoDup a /\ NoDup b /\ (forall x, In x a -> ~ In x b).
Proof.
  induction a as [|x a IH]; cbn [app]; intros H; [repeat split; auto; constructor|].
  apply NoDup_cons_iff in H as [Hx H]. destruct (IH H) as (H1 & H2 & H3). rewrite in_app_iff in Hx. repeat split; auto.
  - constructor; tauto.
  - intros y [->|Hy]; [tauto|auto].
Qed.

Lemma parts_fill i prs : forall pre left l,
  nth_error pops i = Some (pre ++ prs) ->
  outcome (parts_loop false (table (map qnat (lens prs))) (length pre) left) (Ok l) ->
  forall j, exists xs,
    fill_without skips picks j pops (map (fun x => (i, fst x, snd x)) l) = Ok (map Some xs) /\
    length xs = Nat.min left (nsum (lens prs)) /\ incl xs (concat prs) /\ (NoDup (concat prs) -> NoDup xs).
Proof.
  induction prs as [|rs prs IH]; intros pre left l Hp H j.
  - cbn [parts_loop table conditional_probabilities fold_right lens map combine fst outcome] in H. injection H as ->.
    exists []. cbn [map fill_without length lens nsum fold_right concat]. rewrite Nat.min_0_r. split; [reflexivity|]. split; [reflexivity|]. split; [intros x []|intros _; constructor].
  - cbn [lens map] in H. fold (lens prs) in H.
    destruct (table_cons (qnat (length rs)) (map qnat (lens prs))) as (p & E & _). rewrite E in H. clear E. cbn [parts_loop] in H.
    cbn [lens map nsum fold_right concat]. fold (lens prs) (nsum (lens prs)).
    destruct (Nat.eqb_spec left 0) as [->|Nl].
    { cbn [outcome] in H. injection H as ->. exists []. cbn [map fill_without length]. split; [reflexivity|]. split; [reflexivity|]. split; [intros x []|intros _; constructor]. }
    apply outcome_bind in H as [(c & Hc & H)|(e & _ & E)]; [|discriminate].
    apply draw_ok in Hc as (C1 & C2 & C3). rewrite to_count_nat in C1, C3. 
    replace (nsum (map to_count (map qnat (lens prs)))) with (nsum (lens prs)) in C3
      by (f_equal; rewrite map_map; rewrite <- (map_id (lens prs)) at 1; apply map_ext; intros; now rewrite to_count_nat).
    apply outcome_bind in H as [(l' & Hl & H)|(e & _ & E)]; [|discriminate]. cbn [outcome] in H. injection H as ->.
    specialize (IH (pre ++ [rs]) (left - c) l'). rewrite <- app_assoc, app_length in IH. cbn [app length] in IH. rewrite Nat.add_1_r in IH.
    specialize (IH Hp Hl). destruct (Nat.eqb_spec c 0) as [->|Nc].
    + destruct (IH j) as (xs & F & L & I & N). exists xs. split; [exact F|]. split; [lia|]. split.
      * intros x Hx. apply in_app_iff. right. auto.
      * intros Nd. apply NoDup_app_inv in Nd as (_ & Nd & _). auto.
    + cbn [map fst snd fill_without]. unfold get at 1. rewrite Hp. cbn [bind]. unfold get.
      rewrite nth_error_app2, Nat.sub_diag by lia. cbn [nth_error bind].
      destruct (take_ok (skips j) (picks j) rs c) as (ys & -> & Ly & Iy & Ny); [auto|lia|lia|]. cbn [bind].
      destruct (IH (S j)) as (xs & -> & L & I & N). cbn [bind]. exists (ys ++ xs). split; [now rewrite map_app|].
      rewrite app_length. split; [lia|]. split.
      * intros x Hx. apply in_app_iff in Hx. apply in_app_iff. destruct Hx; auto.
      * intros Nd. apply NoDup_app_inv in Nd as (N1 & N2 & N3). apply NoDup_app_intro; auto.
        intros x Hx Hx'. apply (N3 x); auto.
Qed.

Definition plan_types (types : list (Z * list (list A))) : list (Z * (Q * nat * nat) * list (Q * nat * nat)) :=
  combine (combine (map fst (sizes_of types)) (table (map (fun t => total (snd t)) (sizes_of types))))
          (map (fun t => table (snd t)) (sizes_of types)).
Definition population (types : list (Z * list (list A))) : list A := flat_map (fun t => concat (snd t)) types.

Lemma nsum_lens prs : nsum (lens prs) = length (concat prs).
Proof. induction prs as [|r prs IH]; cbn [lens map nsum fold_right concat]; [reflexivity|]. rewrite app_length. fold (lens prs) (nsum (lens prs)). lia. Qed.

Lemma type_count (prs : list (list A)) : to_count (total (map (fun r => qnat (length r)) prs)) = length (concat prs).
Proof.
  rewrite <- nsum_lens. rewrite <- (to_count_nat (nsum (lens prs))). apply to_count_eq.
  replace (map (fun r => qnat (length r)) prs) with (map qnat (lens prs)) by (unfold lens; now rewrite map_map). apply total_nat.
Qed.
Lemma type_counts (types : list (Z * list (list A))) :
  nsum (map to_count (map (fun t => total (snd t)) (sizes_of types))) = length (population types).
Proof.
  unfold sizes_of, population. induction types as [|[ty prs] types IH]; cbn [map nsum fold_right flat_map snd fst]; [reflexivity|].
  rewrite app_length, type_count. f_equal. exact IH.
Qed.

Lemma plan_cons ty prs types : exists p,
  plan_types ((ty, prs) :: types) =
  (ty, (p, length (concat prs), length (population types)), table (map qnat (lens prs))) :: plan_types types /\
  (p == total (map qnat (lens prs)) / total (map (fun t => total (snd t)) (sizes_of ((ty, prs) :: types))))%Q.
Proof.
  unfold plan_types. cbn [sizes_of map fst snd]. fold (sizes_of types).
  destruct (table_cons (total (map (fun r => qnat (length r)) prs)) (map (fun t => total (snd t)) (sizes_of types))) as (p & -> & E).
  cbn [combine]. rewrite type_count, type_counts. exists p. unfold lens. rewrite !map_map. split; [reflexivity|exact E].
Qed.

Lemma types_fill types : forall pre left ts chunks,
  pops = pre ++ map snd types ->
  outcome (types_loop false (plan_types types) (length pre) left) (Ok (ts, chunks)) ->
  forall j, exists xs,
    fill_without skips picks j pops chunks = Ok (map Some xs) /\
    length xs = Nat.min left (length (population types)) /\
    Forall2 (fun ty x => exists parts, In (ty, parts) types /\ In x (concat parts)) ts xs /\
    (NoDup (population types) -> NoDup xs).
Proof.
  induction types as [|[ty prs] types IH]; intros pre left ts chunks Hp H j.
  - cbn [plan_types types_loop sizes_of map combine outcome] in H. injection H as -> ->. exists [].
    cbn [fill_without map length population flat_map]. rewrite Nat.min_0_r. split; [reflexivity|]. split; [reflexivity|]. split; [constructor|intros _; constructor].
  - destruct (plan_cons ty prs types) as (p & E & _). rewrite E in H. clear E. cbn [types_loop] in H.
    cbn [population flat_map snd]. fold (population types). rewrite app_length.
    destruct (Nat.eqb_spec left 0) as [->|Nl].
    { cbn [outcome] in H. injection H as -> ->. exists []. cbn [map fill_without length]. split; [reflexivity|]. split; [reflexivity|]. split; [constructor|intros _; constructor]. }
    apply outcome_bind in H as [(c & Hc & H)|(e & _ & E)]; [|discriminate].
    apply draw_ok in Hc as (C1 & C2 & C3).
    apply outcome_bind in H as [(l & Hl & H)|(e & _ & E)]; [|discriminate].
    apply outcome_bind in H as [([ts' ch'] & Ht & H)|(e & _ & E)]; [|discriminate].
    cbn [outcome fst snd] in H. injection H as -> ->.
    assert (Hn : nth_error pops (length pre) = Some ([] ++ prs)).
    { rewrite Hp, nth_error_app2, Nat.sub_diag by lia. reflexivity. }
    destruct (parts_fill (length pre) prs [] c l Hn Hl j) as (ys & Fy & Ly & Iy & Ny).
    specialize (IH (pre ++ [prs]) (left - c) ts' ch'). rewrite <- app_assoc, app_length in IH. cbn [app length] in IH. rewrite Nat.add_1_r in IH.
    destruct (IH Hp Ht (j + length (map (fun x => (length pre, fst x, snd x)) l))) as (xs & Fx & Lx & Tx & Nx).
    rewrite fill_app, Fy. cbn [bind]. rewrite Fx. cbn [bind]. exists (ys ++ xs). split; [now rewrite map_app|].
    rewrite nsum_lens in Ly. rewrite app_length. split; [lia|]. split.
    + apply Forall2_app.
      * replace c with (length ys) by lia. clear - Iy. induction ys as [|y ys IHy]; cbn [length repeat]; constructor.
        -- exists prs. split; [now left|]. apply Iy. now left.
        -- apply IHy. intros x Hx. apply Iy. now right.
      * clear - Tx. induction Tx as [|a b ta tb Hab _ IHx]; constructor; [|exact IHx].
        destruct Hab as (parts & H1 & H2). exists parts. split; [now right|exact H2].
    + intros Nd. apply NoDup_app_inv in Nd as (N1 & N2 & N3). apply NoDup_app_intro; auto.
      intros x Hx Hx'. apply (N3 x); [now apply Iy|].
      clear - Tx Hx'. induction Tx as [|a b ta tb Hab _ IHx]; [destruct Hx'|]. destruct Hx' as [->|Hx']; [|auto].
      destruct Hab as (parts & H1 & H2). unfold population. apply in_flat_map. exists (a, parts). auto.
Qed.
End Fill.

(** C20: every run that does not overflow. *)
Theorem without_replacement {A} (types : list (Z * list (list A))) size plan skips picks :
  (forall j c, 1 <= skips j c) -> NoDup (population types) ->
  outcome (sample_plan false (sizes_of types) size) (Ok plan) ->
  exists xs, fill_without skips picks 0 (map snd types) (snd plan) = Ok (map Some xs) /\
    length xs = Nat.min size (length (population types)) /\ NoDup xs /\
    Forall2 (fun ty x => exists parts, In (ty, parts) types /\ In x (concat parts)) (fst plan) xs.
Proof.
  intros Hs Nd H. unfold sample_plan in H. destruct (_ || _); [discriminate|]. destruct plan as [ts chunks].
  destruct (types_fill skips picks Hs (map snd types) types [] size ts chunks eq_refl H 0) as (xs & F & L & T & N).
  exists xs. cbn [fst snd]. auto.
Qed.

(** ** When nothing overflows *)
(** Every size but the last is at most the sum of the later ones. *)
Fixpoint balanced (ns : list nat) : Prop :=
  match ns with [] => True | n :: t => (t = [] \/ n <= nsum t) /\ balanced t end.

Lemma to_counts ns : map to_count (map qnat ns) = ns.
Proof. rewrite map_map. rewrite <- (map_id ns) at 2. apply map_ext. intros; apply to_count_nat. Qed.

Lemma qnat_nonzero n : 0 < n -> (~ qnat n == 0)%Q.
Proof. intros H E. pose proof (qnat_pos n H). lra. Qed.

Lemma parts_total ns : forall p0 left r, balanced ns \/ nsum ns <= left ->
  outcome (parts_loop false (table (map qnat ns)) p0 left) r -> exists l, r = Ok l.
Proof.
  induction ns as [|n ns IH]; intros p0 left r Hb H.
  - cbn [parts_loop table conditional_probabilities fold_right map combine fst outcome] in H. eauto.
  - cbn [map] in H. destruct (table_cons (qnat n) (map qnat ns)) as (p & E & Ep). rewrite E in H. clear E. cbn [parts_loop] in H.
    rewrite to_count_nat, to_counts in H.
    destruct (Nat.eqb_spec left 0) as [->|Nl]; [cbn [outcome] in H; eauto|].
    cbn [nsum fold_right] in Hb. fold (nsum ns) in Hb.
    assert (T : forall r', outcome (draw_count false left (p, n, nsum ns)) r' -> exists c, r' = Ok c).
    { intros r' Hr. apply (draw_total left p n (nsum ns) r'); [|exact Hr]. destruct Hb as [[[->|Hb] _]|Hb]; [|now left|right; left; lia].
      right. right. split; [reflexivity|]. intros Hn. rewrite Ep. cbn [total qsum map]. rewrite Qplus_0_r.
      pose proof (qnat_pos n Hn). rewrite <- (Qmult_inv_r (qnat n)) by (apply qnat_nonzero; exact Hn). apply Qle_refl. }
    apply outcome_bind in H as [(c & Hc & H)|(e & He & _)]; [|destruct (T _ He); discriminate].
    pose proof (draw_ok _ _ _ _ _ Hc) as (C1 & C2 & C3).
    assert (T2 : forall r', outcome (parts_loop false (table (map qnat ns)) (S p0) (left - c)) r' -> exists l, r' = Ok l).
    { intros r' Hr. apply (IH _ _ _) in Hr; [exact Hr|]. destruct Hb as [[_ Hb]|Hb]; [now left|right; lia]. }
    apply outcome_bind in H as [(l & Hl & H)|(e & He & _)]; [|destruct (T2 _ He); discriminate].
    cbn [outcome] in H. eauto.
Qed.

Lemma types_total {A} (types : list (Z * list (list A))) : forall i left r,
  (balanced (map (fun t => length (concat (snd t))) types) /\ Forall (fun t => balanced (lens (snd t))) types)
    \/ length (population types) <= left ->
  outcome (types_loop false (plan_types types) i left) r -> exists l, r = Ok l.
Proof.
  induction types as [|[ty prs] types IH]; intros i left r Hb H.
  - cbn [plan_types types_loop sizes_of map combine outcome] in H. eauto.
  - destruct (plan_cons ty prs types) as (p & E & Ep). rewrite E in H. clear E. cbn [types_loop] in H.
    destruct (Nat.eqb_spec left 0) as [->|Nl]; [cbn [outcome] in H; eauto|].
    cbn [population flat_map map snd balanced] in Hb. fold (population types) in Hb. rewrite app_length in Hb.
    assert (Pop : nsum (map (fun t : Z * list (list A) => length (concat (snd t))) types) = length (population types)).
    { clear. induction types as [|[ty prs] types IH]; cbn [map nsum fold_right population flat_map snd]; [reflexivity|].
      rewrite app_length. f_equal. exact IH. }
    rewrite Pop in Hb.
    assert (T : forall r', outcome (draw_count false left (p, length (concat prs), length (population types))) r' -> exists c, r' = Ok c).
    { intros r' Hr. apply (draw_total _ _ _ _ r' ) in Hr; [exact Hr|]. destruct Hb as [[[[Hm|Hb] _] _]|Hb]; [|now left|right; left; lia].
      right. right. destruct types; [|discriminate]. split; [reflexivity|]. intros Hn. rewrite Ep.
      cbn [sizes_of map total qsum snd]. rewrite Qplus_0_r. change (qsum (fun w => w)) with total.
      replace (map (fun r => qnat (length r)) prs) with (map qnat (lens prs)) by (unfold lens; now rewrite map_map).
      rewrite total_nat, nsum_lens. rewrite <- (Qmult_inv_r (qnat (length (concat prs)))) by (apply qnat_nonzero; exact Hn). apply Qle_refl. }
    apply outcome_bind in H as [(c & Hc & H)|(e & He & _)]; [|destruct (T _ He); discriminate].
    pose proof (draw_ok _ _ _ _ _ Hc) as (C1 & C2 & C3).
    assert (T2 : forall r', outcome (parts_loop false (table (map qnat (lens prs))) 0 c) r' -> exists l, r' = Ok l).
    { intros r' Hr. apply parts_total in Hr; [exact Hr|]. rewrite nsum_lens. destruct Hb as [[_ Hb]|Hb]; [left; exact (Forall_inv Hb)|].
      right. lia. }
    apply outcome_bind in H as [(l & Hl & H)|(e & He & _)]; [|destruct (T2 _ He); discriminate].
    assert (T3 : forall r', outcome (types_loop false (plan_types types) (S i) (left - c)) r' -> exists l, r' = Ok l).
    { intros r' Hr. apply IH in Hr; [exact Hr|]. destruct Hb as [[[_ Hb] Hf]|Hb]; [left; split; [exact Hb|exact (Forall_inv_tail Hf)]|right; lia]. }
    apply outcome_bind in H as [(l' & Hl' & H)|(e & He & _)]; [|destruct (T3 _ He); discriminate].
    cbn [outcome] in H. eauto.
Qed.

Definition has_partitions {A} (types : list (Z * list (list A))) : Prop :=
  types <> [] /\ Forall (fun t => snd t <> []) types.

Lemma plan_guard {A} (types : list (Z * list (list A))) rep size : has_partitions types ->
  sample_plan rep (sizes_of types) size = types_loop rep (plan_types types) 0 size.
Proof.
  intros [H1 H2]. unfold sample_plan.
  replace (length (sizes_of types) =? 0) with false by (unfold sizes_of; rewrite map_length; destruct types; [congruence|reflexivity]).
  replace (existsb _ (sizes_of types)) with false; [reflexivity|]. symmetry. apply not_true_iff_false. intros C.
  apply existsb_exists in C as (t & Ht & Hl). unfold sizes_of in Ht. apply in_map_iff in Ht as (t0 & <- & Ht0). cbn [snd] in Hl.
  rewrite map_length in Hl. apply Nat.eqb_eq in Hl. rewrite Forall_forall in H2. specialize (H2 t0 Ht0). destruct (snd t0); [congruence|discriminate].
Qed.

Theorem no_overflow {A} (types : list (Z * list (list A))) size r :
  has_partitions types ->
  (balanced (map (fun t => length (concat (snd t))) types) /\ Forall (fun t => balanced (lens (snd t))) types)
    \/ length (population types) <= size ->
  outcome (sample_plan false (sizes_of types) size) r -> exists plan, r = Ok plan.
Proof. intros Hp Hb H. rewrite plan_guard in H by exact Hp. eapply types_total; eauto. Qed.

(** Asking for at least the population yields all of it. *)
Theorem whole_population {A} (types : list (Z * list (list A))) size r skips picks :
  (forall j c, 1 <= skips j c) -> NoDup (population types) -> has_partitions types -> length (population types) <= size ->
  outcome (sample_plan false (sizes_of types) size) r ->
  exists plan xs, r = Ok plan /\ fill_without skips picks 0 (map snd types) (snd plan) = Ok (map Some xs) /\
    Permutation xs (population types).
Proof.
  intros Hs Nd Hp Hl H. destruct (no_overflow types size r Hp (or_intror Hl) H) as (plan & ->).
  destruct (without_replacement types size plan skips picks Hs Nd H) as (xs & F & L & N & T). exists plan, xs. split; [reflexivity|]. split; [exact F|].
  apply NoDup_Permutation_bis; [exact N|lia|].
  intros x Hx. clear - T Hx. induction T as [|a b ta tb Hab _ IH]; [destruct Hx|]. destruct Hx as [->|Hx]; [|auto].
  destruct Hab as (parts & H1 & H2). unfold population. apply in_flat_map. exists (a, parts). auto.
Qed.

(** The records of a uniform sampler are the elements of the alias table. *)
Lemma uniform_population {A} (zero : A) (eqb : A -> A -> bool) (eqb_spec : forall a b, eqb a b = true <-> a = b) es ws t rs :
  length es = length ws -> Forall (fun w => (0 <= w)%Q) ws -> alias_table zero es ws = Ok t -> uniform_records t rs ->
  NoDup rs /\ forall x, In x rs <-> In x es.
Proof.
  intros Hl Hw Ht [Nd Hr]. split; [exact Nd|]. intros x. rewrite Hr. destruct (Qlt_le_dec 0 (total ws)) as [Pos|Neg].
  - destruct (table_spec zero eqb eqb_spec es ws Hl (conj Hw Pos)) as (t' & E & L & _ & F & Lf & _).
    rewrite E in Ht. injection Ht as ->. split.
    + rewrite Forall_forall in F. intros (r & Hin & [->|[Hlt ->]]); destruct (F r Hin) as [H1 H2]; auto.
    + intros Hx. apply In_nth_error in Hx as (i & Hi). rewrite <- Lf in Hi. apply nth_error_In in Hi.
      apply in_map_iff in Hi as (r & <- & Hin). exists r. auto.
  - assert (Z : Forall (fun w => (w == 0)%Q) ws).
    { clear - Hw Neg. unfold total in Neg. induction ws as [|w ws IH]; [constructor|]. inversion Hw; subst. cbn [qsum] in Neg.
      assert (0 <= qsum (fun w => w) ws)%Q by (apply qsum_nonneg; intros a Ha; rewrite Forall_forall in H2; now apply H2).
      constructor; [lra|]. apply IH; [assumption|lra]. }
    rewrite (zero_table zero es ws Hl Z) in Ht. injection Ht as <-. split.
    + intros (r & Hin & H). apply in_map_iff in Hin as (e & <- & He). cbn [a_left a_right a_threshold] in H.
      destruct H as [->|[H _]]; [exact He|]. exfalso. lra.
    + intros Hx. exists (AR x zero 1%Q). split; [apply in_map_iff; eauto|now left].
Qed.
