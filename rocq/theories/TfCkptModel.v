(** Conversion of TensorFlow checkpoints: deepgnn/pytorch/encoding/twinbert/deepspeed/
    convert_bert_ckpt_to_deepspeed.py, load_tf_weights_in_bert_kernel (26-172) and the choice of
    convert_ckpt_to_deepspeed (327-343) for TF.

    Models, arrays and errors are those of HfModel.v; np.transpose is the argument [transpose].  The
    checkpoint is the list of its variables in the order of tf.train.list_variables.  The branches of
    lines 82-85 are never reached, gamma and beta are taken by 71-74. *)
From Verif Require Import Base FilesModel CkptModel HfModel.
From Coq Require Import Ascii String.
Import ListNotations.
Open Scope list_scope.

Definition slash : ascii := "/".
Definition letter_char (c : ascii) : bool :=
  let k := N_of_ascii c in (((65 <=? k) && (k <=? 90)) || ((97 <=? k) && (k <=? 122)))%N.
Fixpoint letters (s : nm) : nm * nm :=
  match s with
  | [] => ([], [])
  | c :: t => if letter_char c then (c :: fst (letters t), snd (letters t)) else ([], s)
  end.
(** 66-69: [A-Za-z]+_\d+ is split in two. *)
Definition scope (c : nm) : nm * option nm :=
  match letters c with
  | (((_ :: _) as a), u :: ((_ :: _) as d)) => if Ascii.eqb u "_" && forallb digit_char d then (a, Some d) else (c, None)
  | _ => (c, None)
  end.
(** 101-134 *)
Definition tf_rules : list (nm * bool * target) :=
  [(str "attention/self/query/kernel", false, ToKey QW);
   (str "attention/self/query/bias", false, ToKey QB);
   (str "attention/self/key/kernel", false, ToKey KW);
   (str "attention/self/key/bias", false, ToKey KB);
   (str "attention/self/value/kernel", false, ToKey VW);
   (str "attention/self/value/bias", false, ToKey VB);
   (str "attention/output/dense/kernel", false, ToAttr (str "attn_ow"));
   (str "attention/output/dense/bias", false, ToAttr (str "attn_ob"));
   (str "attention/output/LayerNorm/gamma", false, ToAttr (str "attn_nw"));
   (str "attention/output/LayerNorm/beta", false, ToAttr (str "attn_nb"));
   (str "intermediate/dense/kernel", false, ToAttr (str "inter_w"));
   (str "intermediate/dense/bias", false, ToAttr (str "inter_b"));
   (str "output/dense/kernel", true, ToAttr (str "output_w"));
   (str "output/dense/bias", true, ToAttr (str "output_b"));
   (str "output/LayerNorm/gamma", true, ToAttr (str "norm_w"));
   (str "output/LayerNorm/beta", true, ToAttr (str "norm_b"))].
(** 56-59 *)
Definition skipped : list nm :=
  [str "adam_v"; str "adam_m"; str "AdamWeightDecayOptimizer"; str "AdamWeightDecayOptimizer_1"; str "global_step"].
(** 140 *)
Definition ends_embeddings (c : nm) : bool := nm_eqb (skipn (List.length c - 11) c) (str "_embeddings").

Section Tf.
Context {X : Type}.
Variable zero : nat -> X.
Variable transpose : arr X -> arr X.

Definition must (m : model X) (p : path) (n : nm) : res (option path) := do q <- attr m p n ;; Ok (Some q).
(** 65-135, with the last name that was looked at. *)
Fixpoint walk_tf (m : model X) (full : nm) (comps : list nm) (ptr : path) (m_name : nm) : res (walked * nm) :=
  match comps with
  | [] => Ok (At ptr, m_name)
  | c :: cs =>
      let (s, num) := scope c in
      do o <- (if nm_eqb s (str "kernel") || nm_eqb s (str "gamma") then must m ptr (str "weight")
               else if nm_eqb s (str "output_bias") || nm_eqb s (str "beta") then must m ptr (str "bias")
               else if nm_eqb s (str "output_weights") then must m ptr (str "weight")
               else if nm_eqb s (str "squad") then must m ptr (str "classifier")
               else if contains (str "bert/pooler/dense") full && nm_eqb s (str "dense") then must m ptr (str "dense_act")
               else Ok (if has m (ptr ++ [s]) then Some (ptr ++ [s]) else None)) ;;
      match o with
      | None => Ok (Skip, c)
      | Some p =>
          match num with
          | None => walk_tf m full cs p c
          | Some d =>
              do p' <- attr m p (canon d) ;;
              if nm_eqb s (str "layer") then
                do t <- classify tf_rules full ;;
                match t with
                | ToKey k => Ok (Held k p', c)
                | ToAttr n => do p2 <- attr m p' n ;; Ok (At p2, c)
                end
              else walk_tf m full cs p' c
          end
      end
  end.
(** 165-167 *)
Definition pad_tf (diff : nat) (full : nm) (a : arr X) : res (arr X) :=
  if (0 <? diff) && contains (str "embeddings/word_embeddings") full
  then match wid a with
       | Some w => Ok {| wid := Some w; rows := rows a ++ repeat (zero w) diff |}
       | None => Fail EIndex
       end
  else Ok a.
(** 145-169 *)
Definition store_tf (diff : nat) (full : nm) (m : model X) (q : held) (k : option key) (p : path) (a : arr X) : res (model X * held) :=
  let q := match k with Some k => put q k a | None => q end in
  match q QW, q KW, q VW with
  | Some x, Some y, Some z =>
      do a <- concat3 x y z ;;
      do p <- attr m p (str "attn_qkvw") ;;
      do a <- pad_tf diff full a ;;
      do m <- set_data p a m ;;
      Ok (m, pop3 q QW KW VW)
  | _, _, _ =>
      match q QB, q KB, q VB with
      | Some x, Some y, Some z =>
          do a <- concat3 x y z ;;
          do p <- attr m p (str "attn_qkvb") ;;
          do a <- pad_tf diff full a ;;
          do m <- set_data p a m ;;
          Ok (m, pop3 q QB KB VB)
      | _, _, _ =>
          match k with
          | Some _ => Ok (m, q)
          | None => do a <- pad_tf diff full a ;; do m <- set_data p a m ;; Ok (m, q)
          end
      end
  end.
(** 140-143 and the rest of the loop. *)
Definition finish (diff : nat) (full m_name : nm) (comps : list nm) (s : model X * held) (k : option key) (p : path) (a : arr X) : res (model X * held) :=
  if ends_embeddings m_name then do p' <- attr (fst s) p (str "weight") ;; store_tf diff full (fst s) (snd s) k p' a
  else store_tf diff full (fst s) (snd s) k p (if existsb (nm_eqb (str "kernel")) comps then transpose a else a).
Definition one_tf (diff : nat) (s : model X * held) (e : nm * arr X) : res (model X * held) :=
  let comps := split slash (fst e) in
  if existsb (fun n => existsb (nm_eqb n) skipped) comps then Ok s
  else
    do w <- walk_tf (fst s) (fst e) comps [] [] ;;
    match fst w with
    | Skip => Ok s
    | At p => finish diff (fst e) (snd w) comps s None p (snd e)
    | Held k p => finish diff (fst e) (snd w) comps s (Some k) p (snd e)
    end.
Fixpoint many_tf (diff : nat) (s : model X * held) (l : list (nm * arr X)) : res (model X * held) :=
  match l with [] => Ok s | e :: l' => do s' <- one_tf diff s e ;; many_tf diff s' l' end.
(** 327-343 for TF: without the kernel a ValueError. *)
Definition convert_tf (kernel_enabled : bool) (diff : nat) (m : model X) (ckpt : list (nm * arr X)) : res (model X) :=
  if kernel_enabled then do s <- many_tf diff (m, fun _ => None) ckpt ;; Ok (fst s) else Fail EFatal.
End Tf.
