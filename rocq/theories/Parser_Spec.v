(** The Narsese grammar, stated independently of the parser. *)
From Coq Require Import String Ascii Arith Bool List.
From Verif Require Import Term_Model.
Import ListNotations.
Local Open Scope list_scope.

Definition ascii_text (s : string) : list ascii := list_ascii_of_string s.
(** characters of names *)
Definition nameChar (c : ascii) : Prop :=
  In c (ascii_text "0123456789ABCDEFGHIJKLMNOPQRSTUVWXYZabcdefghijklmnopqrstuvwxyz-_^").
Definition nameText (w : list ascii) : Prop := w <> [] /\ length w <= 512 /\ forall c, In c w -> nameChar c.
Definition copText (c : copula) : list ascii :=
  ascii_text match c with INH => " --> " | SIM => " <-> " | IMPL => " ==> " | PREDIMPL => " =/> " | EQUIV => " <=> " end.

(** [writes t w]: the text [w] is a way to write the term [t]. *)
Inductive writes : term -> list ascii -> Prop :=
| w_name : forall w, nameText w -> writes (Name (string_of_list_ascii w)) w
| w_qvar : forall w, nameText w -> writes (QVar (string_of_list_ascii w)) (ascii_text "?" ++ w)
| w_depvar : forall w, nameText w -> writes (DepVar (string_of_list_ascii w)) (ascii_text "#" ++ w)
| w_indepvar : forall w, nameText w -> writes (IndepVar (string_of_list_ascii w)) (ascii_text "$" ++ w)
| w_setext : forall t w, writes t w -> writes (SetExt [t]) (ascii_text "{" ++ w ++ ascii_text "}")
| w_setint : forall t w, writes t w -> writes (SetInt [t]) (ascii_text "[" ++ w ++ ascii_text "]")
| w_neg : forall t w, writes t w -> writes (Neg t) (ascii_text "(!" ++ w ++ ascii_text ")")
| w_seq : forall l w, 2 <= length l -> writesAll "," l w -> writes (Seq l) (ascii_text "(" ++ w ++ ascii_text ")")
| w_prod : forall l w, 2 <= length l -> writesAll "*" l w -> writes (Prod l) (ascii_text "(" ++ w ++ ascii_text ")")
| w_intint : forall l w, length l = 2 -> writesAll "|" l w -> writes (IntInt l) (ascii_text "(" ++ w ++ ascii_text ")")
| w_extint : forall l w, length l = 2 -> writesAll "&" l w -> writes (ExtInt l) (ascii_text "(" ++ w ++ ascii_text ")")
| w_conj : forall l w, 2 <= length l <= 4 -> writesAll "&&" l w -> writes (Conj l) (ascii_text "(" ++ w ++ ascii_text ")")
| w_img0 : forall r w t v, writes r w -> writes t v -> writes (Img r 0 [t]) (ascii_text "(" ++ w ++ ascii_text " /1 " ++ v ++ ascii_text ")")
| w_img1 : forall r w t v, writes r w -> writes t v -> writes (Img r 1 [t]) (ascii_text "(" ++ w ++ ascii_text " /2 " ++ v ++ ascii_text ")")
| w_stmt : forall c s w p v, writes s w -> writes p v -> writes (Stmt c s p) (ascii_text "<" ++ w ++ copText c ++ v ++ ascii_text ">")
(** one or more terms with a separator between them *)
with writesAll : string -> list term -> list ascii -> Prop :=
| wa_one : forall sep t w, writes t w -> writesAll sep [t] w
| wa_more : forall sep t w l v, writes t w -> writesAll sep l v -> writesAll sep (t :: l) (w ++ ascii_text sep ++ v).

(** the text does not continue a name *)
Definition stopsName (i : list ascii) : Prop := match i with [] => True | c :: _ => ~ nameChar c end.

(** what may follow a term: an atom must not be continued *)
Definition mayFollow (t : term) (i : list ascii) : Prop :=
  match t with Name _ | QVar _ | DepVar _ | IndepVar _ => stopsName i | _ => True end.

(** terms without round brackets, with writable names and one-element sets *)
Inductive plain : term -> Prop :=
| pl_name : forall w, nameText w -> plain (Name (string_of_list_ascii w))
| pl_qvar : forall w, nameText w -> plain (QVar (string_of_list_ascii w))
| pl_depvar : forall w, nameText w -> plain (DepVar (string_of_list_ascii w))
| pl_indepvar : forall w, nameText w -> plain (IndepVar (string_of_list_ascii w))
| pl_setext : forall t, plain t -> plain (SetExt [t])
| pl_setint : forall t, plain t -> plain (SetInt [t])
| pl_stmt : forall c s p, plain s -> plain p -> plain (Stmt c s p).

(** ** whole sentences *)
From Verif Require Import F64_Model Sentence_Model.
Definition punctChar (p : punct) : ascii := match p with JUGEMENT => "."%char | GOAL => "!"%char | QUESTION => "?"%char end.
Definition sentenceText (w : list ascii) (p : punct) (v : option (list ascii * list ascii)) (isEvent : bool) : list ascii :=
  w ++ [punctChar p] ++
  match v with Some (a, b) => ascii_text " {" ++ a ++ ascii_text " " ++ b ++ ascii_text "}" | None => [] end ++
  (if isEvent then ascii_text " :|:" else []).
(** text of a number: ASCII without space, bracket and star *)
Definition numText (a : list ascii) : Prop := forall c, In c a -> nat_of_ascii c < 128 /\ c <> " "%char /\ c <> "{"%char /\ c <> "*"%char.
(** a truth value at the end that is no pair of numbers *)
Definition badTv (parseF64 : list ascii -> option f64) (i : list ascii) : Prop :=
  exists pre a b, i = pre ++ ["{"%char] ++ a ++ [" "%char] ++ b ++ ["}"%char] /\ pre <> [] /\
    (forall c, In c (a ++ b) -> c <> " "%char /\ c <> "{"%char) /\ (parseF64 a = None \/ parseF64 b = None).
