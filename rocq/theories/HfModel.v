(** Conversion of HuggingFace checkpoints: deepgnn/pytorch/encoding/twinbert/deepspeed/
    convert_bert_ckpt_to_deepspeed.py, set_data (19-25), load_hf_weights_in_bert_kernel (174-281),
    load_hf_weights_in_bert_torch (283-325) and convert_ckpt_to_deepspeed (327-343).

    A model is the list of its parameters with their paths; a path of attributes exists when a
    parameter lies below it (methods and other attributes of modules are not modelled).  An array
    is its width (None for a vector) and its rows of any type; [zero w] is a row of zeros of
    np.zeros.  Python errors: EIndex for AttributeError and IndexError, EAssert for
    AssertionError and the ValueError of np.concatenate, EFatal for the raised ValueError. *)
From Verif Require Import Base FilesModel CkptModel.
From Coq Require Import Ascii String.
Import ListNotations.
Open Scope list_scope.

Section Hf.
Context {X : Type}.
Variable zero : nat -> X.

Record arr := { wid : option nat; rows : list X }.
Definition path := list nm.
Definition model := list (path * arr).

Definition path_eqb (a b : path) : bool := if list_eq_dec (list_eq_dec ascii_dec) a b then true else false.
Fixpoint below (p q : path) : bool :=
  match p, q with
  | [], _ => true
  | _ :: _, [] => false
  | a :: p', b :: q' => nm_eqb a b && below p' q'
  end.
(** getattr succeeds *)
Definition has (m : model) (p : path) : bool := existsb (fun e => below p (fst e)) m.

Definition wid_eqb (a b : option nat) : bool :=
  match a, b with Some x, Some y => x =? y | None, None => true | _, _ => false end.
(** 19-25: pointer.shape of a module is an AttributeError. *)
Fixpoint set_data (p : path) (a : arr) (m : model) : res model :=
  match m with
  | [] => Fail EIndex
  | e :: m' =>
      if path_eqb p (fst e)
      then if wid_eqb (wid a) (wid (snd e)) && (List.length (rows a) =? List.length (rows (snd e)))
           then Ok ((fst e, a) :: m') else Fail EAssert
      else do m2 <- set_data p a m' ;; Ok (e :: m2)
  end.

(** ** Names *)
Definition dotted : ascii := ".".
Definition digit_char (c : ascii) : bool := let k := N_of_ascii c in ((48 <=? k) && (k <=? 57))%N.
Definition isnumeric (c : nm) : bool := match c with [] => false | _ => forallb digit_char c end.
(** The attribute of pointer[int(c)]. *)
Fixpoint canon (c : nm) : nm :=
  match c with
  | d :: ((_ :: _) as c') => if ascii_dec d "0" then canon c' else c
  | _ => c
  end.
Definition later (p s : nm) : bool := match find p s with Some (S _) => true | _ => false end.

Inductive key := QW | QB | KW | KB | VW | VB.
Definition key_eqb (a b : key) : bool :=
  match a, b with QW, QW | QB, QB | KW, KW | KB, KB | VW, VW | VB, VB => true | _, _ => false end.
Inductive target := ToKey (k : key) | ToAttr (n : nm).
(** 215-248: the chain of elif; the flag asks for name_str.find("attention") < 0. *)
Definition rules : list (nm * bool * target) :=
  [(str "attention.self.query.weight", false, ToKey QW);
   (str "attention.self.query.bias", false, ToKey QB);
   (str "attention.self.key.weight", false, ToKey KW);
   (str "attention.self.key.bias", false, ToKey KB);
   (str "attention.self.value.weight", false, ToKey VW);
   (str "attention.self.value.bias", false, ToKey VB);
   (str "attention.output.dense.weight", false, ToAttr (str "attn_ow"));
   (str "attention.output.dense.bias", false, ToAttr (str "attn_ob"));
   (str "attention.output.LayerNorm.weight", false, ToAttr (str "attn_nw"));
   (str "attention.output.LayerNorm.bias", false, ToAttr (str "attn_nb"));
   (str "intermediate.dense.weight", false, ToAttr (str "inter_w"));
   (str "intermediate.dense.bias", false, ToAttr (str "inter_b"));
   (str "output.dense.weight", true, ToAttr (str "output_w"));
   (str "output.dense.bias", true, ToAttr (str "output_b"));
   (str "output.LayerNorm.weight", true, ToAttr (str "norm_w"));
   (str "output.LayerNorm.bias", true, ToAttr (str "norm_b"))].
Fixpoint classify (l : list (nm * bool * target)) (full : nm) : res target :=
  match l with
  | [] => Fail EFatal
  | (p, noatt, t) :: l' =>
      if later p full && negb (noatt && contains (str "attention") full) then Ok t else classify l' full
  end.

(** ** load_hf_weights_in_bert_kernel *)
Inductive walked := Skip | At (p : path) | Held (k : key) (p : path).
Fixpoint walk (m : model) (full : nm) (comps : list nm) (ptr : path) (is_layer : bool) : res walked :=
  match comps with
  | [] => Ok (At ptr)
  | c :: cs =>
      do o <- (if contains (str "bert.pooler.dense") full && nm_eqb c (str "dense")
               then if has m (ptr ++ [str "dense_act"]) then Ok (Some (ptr ++ [str "dense_act"])) else Fail EIndex
               else if is_layer then Ok (Some ptr)
               else if has m (ptr ++ [c]) then Ok (Some (ptr ++ [c])) else Ok None) ;;
      match o with
      | None => Ok Skip
      | Some p =>
          if nm_eqb c (str "layer") then walk m full cs p true
          else if isnumeric c && is_layer
          then if has m (p ++ [canon c])
               then do t <- classify rules full ;;
                    match t with
                    | ToKey k => Ok (Held k (p ++ [canon c]))
                    | ToAttr n => if has m (p ++ [canon c] ++ [n]) then Ok (At (p ++ [canon c] ++ [n])) else Fail EIndex
                    end
               else Fail EIndex
          else walk m full cs p is_layer
      end
  end.

Definition held := key -> option arr.
Definition put (q : held) (k : key) (a : arr) : held := fun k' => if key_eqb k k' then Some a else q k'.
Definition pop3 (q : held) (a b c : key) : held := fun k => if key_eqb a k || key_eqb b k || key_eqb c k then None else q k.
(** np.concatenate((q, k, v), axis=0) *)
Definition concat3 (a b c : arr) : res arr :=
  if wid_eqb (wid a) (wid b) && wid_eqb (wid a) (wid c)
  then Ok {| wid := wid a; rows := rows a ++ rows b ++ rows c |} else Fail EAssert.
(** 271-274, 317-320 *)
Definition pad (diff : nat) (full : nm) (a : arr) : res arr :=
  if (0 <? diff) && contains (str "embeddings.word_embeddings") full
  then match wid a with
       | Some w => Ok {| wid := Some w; rows := rows a ++ repeat (zero w) diff |}
       | None => Fail EIndex
       end
  else Ok a.
Definition attr (m : model) (p : path) (n : nm) : res path := if has m (p ++ [n]) then Ok (p ++ [n]) else Fail EIndex.

(** 254-277: merge and store. *)
Definition store (diff : nat) (full : nm) (m : model) (q : held) (k : option key) (p : path) (a : arr) : res (model * held) :=
  let q := match k with Some k => put q k a | None => q end in
  match q QW, q KW, q VW with
  | Some x, Some y, Some z =>
      do a <- concat3 x y z ;;
      do p <- attr m p (str "attn_qkvw") ;;
      do a <- pad diff full a ;;
      do m <- set_data p a m ;;
      Ok (m, pop3 q QW KW VW)
  | _, _, _ =>
      match q QB, q KB, q VB with
      | Some x, Some y, Some z =>
          do a <- concat3 x y z ;;
          do p <- attr m p (str "attn_qkvb") ;;
          do a <- pad diff full a ;;
          do m <- set_data p a m ;;
          Ok (m, pop3 q QB KB VB)
      | _, _, _ =>
          match k with
          | Some _ => Ok (m, q)
          | None => do a <- pad diff full a ;; do m <- set_data p a m ;; Ok (m, q)
          end
      end
  end.
Definition one (diff : nat) (s : model * held) (e : nm * arr) : res (model * held) :=
  do w <- walk (fst s) (fst e) (split dotted (fst e)) [] false ;;
  match w with
  | Skip => Ok s
  | At p => store diff (fst e) (fst s) (snd s) None p (snd e)
  | Held k p => store diff (fst e) (fst s) (snd s) (Some k) p (snd e)
  end.
Fixpoint many (diff : nat) (s : model * held) (l : list (nm * arr)) : res (model * held) :=
  match l with [] => Ok s | e :: l' => do s' <- one diff s e ;; many diff s' l' end.
Definition kernel (diff : nat) (m : model) (ckpt : list (nm * arr)) : res model :=
  do s <- many diff (m, fun _ => None) ckpt ;; Ok (fst s).

(** ** load_hf_weights_in_bert_torch *)
Fixpoint walk_torch (m : model) (full : nm) (comps : list nm) (ptr : path) : res (option path) :=
  match comps with
  | [] => Ok (Some ptr)
  | c :: cs =>
      if (contains (str "intermediate.dense") full || contains (str "pooler.dense") full) && nm_eqb c (str "dense")
      then if has m (ptr ++ [str "dense_act"]) then walk_torch m full cs (ptr ++ [str "dense_act"]) else Fail EIndex
      else if has m (ptr ++ [c]) then walk_torch m full cs (ptr ++ [c]) else Ok None
  end.
Fixpoint torch (diff : nat) (m : model) (ckpt : list (nm * arr)) : res model :=
  match ckpt with
  | [] => Ok m
  | e :: l =>
      do o <- walk_torch m (fst e) (split dotted (fst e)) [] ;;
      match o with
      | None => torch diff m l
      | Some p => do a <- pad diff (fst e) (snd e) ;; do m' <- set_data p a m ;; torch diff m' l
      end
  end.

(** 327-343 for HF. *)
Definition convert (kernel_enabled : bool) (diff : nat) (m : model) (ckpt : list (nm * arr)) : res model :=
  if kernel_enabled then kernel diff m ckpt else torch diff m ckpt.
End Hf.
Arguments arr : clear implicits.
Arguments model : clear implicits.
