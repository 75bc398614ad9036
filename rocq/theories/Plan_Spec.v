(** Vocabulary for typed rules and plans of two steps. *)
From Coq Require Import String Ascii ZArith Bool List.
From Verif Require Import Base F64_Model Term_Model Term_Spec Tv_Model Sentence_Model PMem_Model Goal_Model Goal_Spec Proc_Model Proc_Spec Parser_Model Nar_Model Nar_Spec Serial_Spec Teach_Spec.
Import ListNotations.
Local Open Scope string_scope.
Local Open Scope list_scope.
Local Open Scope Z_scope.

(** the line states [t] for all times, with whatever truth value *)
Definition states (pf : text -> option f64) (line : text) (t : term) : Prop :=
  exists c i v, trimmed line (c :: i) /\ c <> "!"%char /\ ~ starts (tx "//") (c :: i) /\ asciiText (c :: i) /\
                parseNarsese pf (c :: i) = Ok (Some (t, v, JUGEMENT, false)).
(** operation [O] in the situation [A] leads to [C] *)
Inductive rule := Rule (A O C : term).
Definition ruleTerm (r : rule) : term := match r with Rule a o c => Stmt PREDIMPL (Seq [a; o]) c end.
Definition ruleLines (pf : text -> option f64) (rules : list rule) (lines : list (text * lineRnd)) : Prop :=
  Forall2 (fun ru l => states pf (fst l) (ruleTerm ru)) rules lines.
(** all rules about the situation [A] say that [O] leads to [C], and there is one *)
Definition theWay (rules : list rule) (A O C : term) : Prop :=
  In (Rule A O C) rules /\ forall O' C', In (Rule A O' C') rules -> O' = O /\ C' = C.
(** whatever rules about [A] are followed, [C] is reached in one or two steps *)
Definition good (rules : list rule) (A C : term) : Prop :=
  (exists O B, In (Rule A O B) rules) /\
  forall O B, In (Rule A O B) rules -> B = C \/ ((exists O2 D, In (Rule B O2 D) rules) /\ forall O2 D, In (Rule B O2 D) rules -> D = C).
(** [t] calls a registered operation that only acts outside *)
Definition callable (ops : list op) (t : term) : Prop :=
  exists args name o, opCall t args name /\ firstNamed ops name o /\ op_kind o = OpPlain.
(** Babbling off, the rules, a wish, a situation, one step. *)
Definition instruct (lines : list (text * lineRnd)) (lg la : text) (r0 rg ra rs : lineRnd) : list turn :=
  TLine (tx "!peb 0") r0 :: map (fun l => TLine (fst l) (snd l)) lines ++ [TLine lg rg; TLine la ra; TLine (tx "!sp") rs].

(** belief [a] says that [O] in the situation [A] leads to [B] *)
Definition leads (n : pnar) (A O B : term) (a : nat) : Prop :=
  s_term (rd (cells (n_mem n)) a) = Stmt PREDIMPL (Seq [A; O]) B /\ ~ In (-1) (s_stamp (rd (cells (n_mem n)) a)).
(** the belief is strong enough to act on *)
Definition strong (n : pnar) (a : nat) : Prop :=
  exists vb, retTv (rd (cells (n_mem n)) a) = Some vb /\ fltb (c_thresh (n_cfg n)) (calcExp vb) = true.
(** belief [a], then belief [b]: the wish of strength [v] still counts at the beginning *)
Definition reaches (n : pnar) (v : tv) (a b : nat) : Prop :=
  exists va vb, retTv (rd (cells (n_mem n)) a) = Some va /\ retTv (rd (cells (n_mem n)) b) = Some vb /\
    fltb (c_thresh (n_cfg n)) (calcExp (dedGoal (dedGoal v vb) va)) = true.
Definition unwanted (n : pnar) (B : term) : Prop := forall en, stored (n_goals n) en -> e_term en <> B.
(** nothing that is wanted says what to do *)
Definition noOrders (n : pnar) : Prop :=
  (forall en l, stored (n_goals n) en -> e_term en <> Seq l) /\
  (forall en y, In en (g_active (n_goals n)) -> ~ eligible (c_thresh (n_cfg n)) en y).
