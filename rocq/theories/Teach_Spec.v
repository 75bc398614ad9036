(** Vocabulary for teaching: one lesson, then the situation again. *)
From Coq Require Import String Ascii ZArith Bool List.
From Verif Require Import Base F64_Model Term_Model Term_Spec Tv_Model Sentence_Model Mem_Model PMem_Model Goal_Model Goal_Spec Proc_Model Proc_Spec Parser_Model Nar_Model Nar_Spec Serial_Spec.
Import ListNotations.
Local Open Scope string_scope.
Local Open Scope list_scope.
Local Open Scope Z_scope.

(** the line says [t] with punctuation [p], now, without a truth value of its own *)
Definition says (pf : text -> option f64) (line : text) (t : term) (p : punct) : Prop :=
  exists c i, trimmed line (c :: i) /\ c <> "!"%char /\ ~ starts (tx "//") (c :: i) /\ asciiText (c :: i) /\
              parseNarsese pf (c :: i) = Ok (Some (t, defaultTv, p, true)).
(** a state of affairs: no call of an operation, no sequence, nothing left open *)
Definition situation (t : term) : Prop := ground t /\ (forall args name, ~ opCall t args name) /\ forall l, t <> Seq l.
(** [t] calls an operation that is registered for others to see: Operators.rs 17-29 *)
Definition deed (ops : list op) (t : term) : Prop :=
  ground t /\ exists args name o, opCall t args name /\ firstNamed ops name o /\ op_kind o = OpPlain /\ op_evi o = 3.

(** Babbling off; the situation, the operation, what came of it; each is looked at
    in a step of its own. *)
Definition teach (la lo lc : text) (r : nat -> lineRnd) : list turn :=
  [TLine (tx "!peb 0") (r 0%nat); TLine la (r 1%nat); TLine (tx "!sp") (r 2%nat); TLine lo (r 3%nat); TLine (tx "!sp") (r 4%nat); TLine lc (r 5%nat); TLine (tx "!sp") (r 6%nat)].
(** The storing thread handles some messages. *)
Definition filed (ds : list (list nat)) : list turn := map TStore ds.
(** The effect is wanted, the situation is there again, one more step. *)
Definition recall (lg la : text) (r : nat -> lineRnd) : list turn :=
  [TLine lg (r 7%nat); TLine la (r 8%nat); TLine (tx "!sp") (r 9%nat)].
(** the selection of operations draws at least one number: NarProc.rs 185-200 *)
Definition drawn (r : lineRnd) : Prop := forall i, r_draws (ln_smp r i) <> [].

(** Turns that do not concern what happens and what is wanted, and sessions with some of
    them put in between. *)
Definition aside (pf : text -> option f64) (t : turn) : Prop :=
  forall n n' q, takeTurn pf t n = Ok (n', q) -> q = false /\ nr_proc n' = nr_proc n /\ nr_pq n' = nr_pq n.
Inductive mixed (pf : text -> option f64) : list turn -> list turn -> Prop :=
| mx_end : mixed pf [] []
| mx_own : forall t a b, mixed pf a b -> mixed pf (t :: a) (t :: b)
| mx_aside : forall t a b, aside pf t -> mixed pf a b -> mixed pf a (t :: b).

(** belief [a] says that [O] in the situation [A] leads to [C], well enough for a
    wish of strength [v] *)
Definition advises (n : pnar) (A O C : term) (v : tv) (a : nat) : Prop :=
  s_term (rd (cells (n_mem n)) a) = Stmt PREDIMPL (Seq [A; O]) C /\ ~ In (-1) (s_stamp (rd (cells (n_mem n)) a)) /\
  exists vb, retTv (rd (cells (n_mem n)) a) = Some vb /\ fltb (c_thresh (n_cfg n)) (calcExp vb) = true /\ fltb (c_thresh (n_cfg n)) (calcExp (dedGoal v vb)) = true.
(** [a] is remembered at the situation [A] and starts from it *)
Definition relevant (n : pnar) (A : term) (a : nat) : Prop :=
  In a (pBeliefs (n_mem n) [A]) /\ exists rest p, s_term (rd (cells (n_mem n)) a) = Stmt PREDIMPL (Seq (A :: rest)) p.
(** [C] is wanted with strength [v] and nothing is wanted that says what to do *)
Definition wants (n : pnar) (C : term) (v : tv) : Prop :=
  (exists en, stored (n_goals n) en /\ e_term en = C) /\
  (forall en, stored (n_goals n) en -> e_term en = C -> retTv (e_sentence en) = Some v) /\
  (forall en l, stored (n_goals n) en -> e_term en <> Seq l) /\
  (forall en y, In en (g_active (n_goals n)) -> ~ eligible (c_thresh (n_cfg n)) en y).
(** no goal for [O] is left from before *)
Definition noneFor (n : pnar) (O : term) : Prop := forall en, stored (n_goals n) en -> e_term en <> O.
