(** Model of src/Term.rs, src/TermUtils.rs and src/TermApi.rs. *)
From Coq Require Import String Ascii ZArith Bool List.
From Coq Require Import DecimalString.
From Verif Require Import Base.
Import ListNotations.
Local Open Scope string_scope.

(** Term.rs 1-8 *)
Inductive copula := SIM | INH | PREDIMPL | IMPL | EQUIV.

(** Term.rs 10-27. [Box] is dropped; [usize] is [nat]; [String] is a byte
    string. *)
Inductive term :=
| Stmt (c : copula) (subj pred : term)
| Name (n : string)
| Seq (l : list term)
| SetInt (l : list term)
| SetExt (l : list term)
| QVar (n : string)
| DepVar (n : string)
| IndepVar (n : string)
| Conj (l : list term)
| Prod (l : list term)
| Img (rel : term) (i : nat) (l : list term)
| IntInt (l : list term)
| ExtInt (l : list term)
| Par (l : list term)
| Neg (t : term).

(** derived PartialEq of Copula (Term.rs 1) *)
Definition copula_eqb (a b : copula) : bool :=
  match a, b with
  | SIM, SIM | INH, INH | PREDIMPL, PREDIMPL | IMPL, IMPL | EQUIV, EQUIV => true
  | _, _ => false
  end.

(** Term.rs 29-113, hand written Clone *)
Fixpoint term_clone (t : term) : term :=
  match t with
  | Stmt c s p => Stmt c (term_clone s) (term_clone p)
  | Name n => Name n
  | Seq l => Seq (map term_clone l)
  | SetInt l => SetInt (map term_clone l)
  | SetExt l => SetExt (map term_clone l)
  | QVar n => QVar n
  | DepVar n => DepVar n
  | IndepVar n => IndepVar n
  | Conj l => Conj (map term_clone l)
  | Prod l => Prod (map term_clone l)
  | Img r i l => Img (term_clone r) i (map term_clone l)
  | IntInt l => IntInt (map term_clone l)
  | ExtInt l => ExtInt (map term_clone l)
  | Par l => Par (map term_clone l)
  | Neg x => Neg (term_clone x)
  end.

(** Term.rs 116-175 (retSubterms2) and 177-181 (retSubterms): pre-order
    enumeration; the accumulator [res] becomes list concatenation. For images
    the elements come before the relation. *)
Fixpoint retSubterms (t : term) : list term :=
  t :: match t with
       | Stmt _ s p => retSubterms s ++ retSubterms p
       | Seq l | SetInt l | SetExt l | Conj l | Prod l
       | IntInt l | ExtInt l | Par l => flat_map retSubterms l
       | Img r _ l => flat_map retSubterms l ++ retSubterms r
       | Neg x => retSubterms x
       | Name _ | QVar _ | DepVar _ | IndepVar _ => []
       end.

(** Term.rs 376-543. List cases: equal lengths, then element-wise comparison
    with early exit. *)
Fixpoint checkEqTerm (a b : term) : bool :=
  let eql := fun l1 l2 => Nat.eqb (length l1) (length l2) && forallb2 checkEqTerm l1 l2 in
  match a, b with
  | Stmt ca sa pa, Stmt cb sb pb => copula_eqb ca cb && checkEqTerm sa sb && checkEqTerm pa pb
  | Name x, Name y => String.eqb x y
  | Seq l1, Seq l2 => eql l1 l2
  | SetInt l1, SetInt l2 => eql l1 l2
  | SetExt l1, SetExt l2 => eql l1 l2
  | QVar x, QVar y => String.eqb x y
  | DepVar x, DepVar y => String.eqb x y
  | IndepVar x, IndepVar y => String.eqb x y
  | Conj l1, Conj l2 => eql l1 l2
  | Prod l1, Prod l2 => eql l1 l2
  | Img r1 i1 l1, Img r2 i2 l2 => Nat.eqb i1 i2 && checkEqTerm r1 r2 && eql l1 l2
  | IntInt l1, IntInt l2 => eql l1 l2
  | ExtInt l1, ExtInt l2 => eql l1 l2
  | Par l1, Par l2 => eql l1 l2
  | Neg x, Neg y => checkEqTerm x y
  | _, _ => false
  end.

(** Term.rs 183-199 *)
Definition uniqueStep (res : list term) (t : term) : list term :=
  if existsb (fun t2 => checkEqTerm t t2) res then res else res ++ [t].
Definition retUniqueSubterms (t : term) : list term :=
  fold_left uniqueStep (retSubterms t) [].

(** Term.rs 202-285. [u64] is [Z]. Only statements and negations cost an extra
    unit; compounds are the plain sum of their parts. *)
Fixpoint calcComplexity (t : term) : Z :=
  let suml := fun l => fold_left (fun c x => (c + calcComplexity x)%Z) l 0%Z in
  match t with
  | Stmt _ s p => (1 + calcComplexity s + calcComplexity p)%Z
  | Name _ | QVar _ | DepVar _ | IndepVar _ => 1%Z
  | Seq l | SetInt l | SetExt l | Conj l | Prod l
  | IntInt l | ExtInt l | Par l => suml l
  | Img r _ l => (suml l + calcComplexity r)%Z
  | Neg x => (1 + calcComplexity x)%Z
  end.

(** Term.rs 547-635. Does not descend into a match and ignores the relation of
    an image. *)
Fixpoint count_occurence_subterms (t searched : term) : Z :=
  if checkEqTerm t searched then 1%Z else
  let suml := fun l => fold_left (fun n x => (n + count_occurence_subterms x searched)%Z) l 0%Z in
  match t with
  | Stmt _ s p => (count_occurence_subterms s searched + count_occurence_subterms p searched)%Z
  | Name _ | QVar _ | DepVar _ | IndepVar _ => 0%Z
  | Seq l | SetInt l | SetExt l | Conj l | Prod l
  | IntInt l | ExtInt l | Par l => suml l
  | Img _ _ l => suml l
  | Neg x => count_occurence_subterms x searched
  end.

(** [format!("{}", n)] for an unsigned integer. *)
Definition nat_to_string (n : nat) : string := NilEmpty.string_of_uint (Nat.to_uint n).

(** Joining as in convTermToStr: [inner = x[0]; for i in 1.. { inner + sep + x[i] }].
    Panics on an empty vector because of [x[0]]. *)
Definition joinWith (sep : string) (l : list (res string)) : res string :=
  match l with
  | [] => Panic
  | x :: xs => do h <- x; rfold (fun acc y => do s <- y; Ok (acc ++ sep ++ s)) xs h
  end.

(** Term.rs 292 *)
Definition copula_str (c : copula) : string :=
  match c with
  | SIM => "<->" | INH => "-->" | PREDIMPL => "=/>" | IMPL => "==>" | EQUIV => "<=>"
  end.

(** Term.rs 287-373 *)
Fixpoint convTermToStr (t : term) : res string :=
  match t with
  | Stmt c s p =>
      do ss <- convTermToStr s; do ps <- convTermToStr p;
      Ok ("<" ++ ss ++ " " ++ copula_str c ++ " " ++ ps ++ ">")
  | Name n => Ok n
  | Seq l => do s <- joinWith " , " (map convTermToStr l); Ok ("( " ++ s ++ " )")
  | SetInt l => do s <- joinWith " " (map convTermToStr l); Ok ("[" ++ s ++ "]")
  | SetExt l => do s <- joinWith " " (map convTermToStr l); Ok ("{" ++ s ++ "}")
  | QVar n => Ok ("?" ++ n)
  | DepVar n => Ok ("#" ++ n)
  | IndepVar n => Ok ("$" ++ n)
  | Conj l => do s <- joinWith " && " (map convTermToStr l); Ok ("( " ++ s ++ " )")
  | Prod l => do s <- joinWith " * " (map convTermToStr l); Ok ("( " ++ s ++ " )")
  | Img r i l =>
      do s <- joinWith " " (map convTermToStr l); do rs <- convTermToStr r;
      Ok ("( " ++ rs ++ " /" ++ nat_to_string (i + 1) ++ " " ++ s ++ " )")
  | IntInt l => do s <- joinWith " | " (map convTermToStr l); Ok ("( " ++ s ++ " )")
  | ExtInt l => do s <- joinWith " & " (map convTermToStr l); Ok ("( " ++ s ++ " )")
  | Par l => do s <- joinWith " ; " (map convTermToStr l); Ok ("( " ++ s ++ " )")
  | Neg x => do s <- convTermToStr x; Ok ("(! " ++ s ++ " )")
  end.

(** TermUtils.rs 8-30 *)
Definition decodeOp (t : term) : option (list term * string) :=
  match t with
  | Stmt INH subj (Name predName) =>
      match subj with
      | SetExt [Prod args] =>
          if Nat.leb 1 (length args) then Some (map term_clone args, predName) else None
      | _ => None
      end
  | _ => None
  end.

(** TermUtils.rs 33-36 *)
Definition encodeOp (args : list term) (name : string) : term :=
  Stmt INH (SetExt [Prod (map term_clone args)]) (Name name).

(** TermApi.rs 6-33 *)
Definition p2 (a b : term) : term := Prod [a; b].
Definition p3 (a b c : term) : term := Prod [a; b; c].
Definition api_p (ts : list term) : term := Prod ts.
Definition api_s (c : copula) (s p : term) : term := Stmt c s p.
Definition api_seq (ts : list term) : term := Seq ts.
Definition api_conj (ts : list term) : term := Conj ts.

(** Hash map key equality is the derived [PartialEq] (Term.rs 10), i.e.
    structural equality; the association lists of the model use [checkEqTerm],
    which C01 proves to be the same relation. *)
