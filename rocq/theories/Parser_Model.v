(** Model of src/NarseseParser.rs.

    A text is a list of bytes. [parseNarseseRetTv] panics on every text with a
    non-ASCII character (see below), so the grammar itself only ever sees ASCII
    texts, where bytes, [char]s and indices agree. *)
From Coq Require Import String Ascii ZArith Bool Lia List.
From Verif Require Import Base F64_Model Tv_Model Term_Model Sentence_Model.
Import ListNotations.
Local Open Scope list_scope.

Definition text := list ascii.
Definition tx (s : string) : text := list_ascii_of_string s.
Definition str (l : text) : string := string_of_list_ascii l.

(** Outcome of a nom parser: remaining text and value, an error, or (never
    reached, see c40_total) not enough fuel. *)
Inductive pres (A : Type) := POk (a : A) (rest : text) | PErr | PFuel.
Arguments POk {A} _ _.
Arguments PErr {A}.
Arguments PFuel {A}.

(** the [?] operator *)
Definition pbind {A B} (x : pres A) (f : A -> text -> pres B) : pres B :=
  match x with POk a r => f a r | PErr => PErr | PFuel => PFuel end.
(** [match res0 { Ok(term) => return Ok(term.clone()), Err(_) => {} }] *)
Definition orElse {A} (x y : pres A) : pres A := match x with PErr => y | _ => x end.

(** nom [tag] *)
Fixpoint tag (w i : text) : pres unit :=
  match w, i with
  | [], _ => POk tt i
  | c :: w', d :: i' => if Ascii.eqb c d then tag w' i' else PErr
  | _ :: _, [] => PErr
  end.
Definition tagS (s : string) : text -> pres unit := tag (tx s).

(** [char::is_alphanumeric] on ASCII; 487-489 *)
Definition inRange (lo hi n : nat) : bool := Nat.leb lo n && Nat.leb n hi.
Definition isAlnum (c : ascii) : bool :=
  let n := nat_of_ascii c in inRange 48 57 n || inRange 65 90 n || inRange 97 122 n.
Definition isValidSign (c : ascii) : bool :=
  isAlnum c || Ascii.eqb c "-" || Ascii.eqb c "_" || Ascii.eqb c "^".

(** nom [take_while_m_n(1, 512, isValidSign)]; 491-496 *)
Fixpoint takeSigns (n : nat) (i : text) : text * text :=
  match n, i with
  | S n', c :: i' => if isValidSign c then let (w, r) := takeSigns n' i' in (c :: w, r) else ([], i)
  | _, _ => ([], i)
  end.
Definition alpha2 (i : text) : pres string :=
  let (w, r) := takeSigns 512 i in match w with [] => PErr | _ => POk (str w) r end.

(** 506-509, 521-535 *)
Definition parseB (i : text) : pres term := pbind (alpha2 i) (fun n r => POk (Name n) r).
Definition parseQVar (i : text) : pres term := pbind (tagS "?" i) (fun _ i => pbind (alpha2 i) (fun n r => POk (QVar n) r)).
Definition parseDepVar (i : text) : pres term := pbind (tagS "#" i) (fun _ i => pbind (alpha2 i) (fun n r => POk (DepVar n) r)).
Definition parseIndepVar (i : text) : pres term := pbind (tagS "$" i) (fun _ i => pbind (alpha2 i) (fun n r => POk (IndepVar n) r)).

(** 702-762 *)
Definition parseCopula (i : text) : pres copula :=
  let one s c := pbind (tagS s i) (fun _ r => POk c r) in
  orElse (one " --> "%string INH) (orElse (one " <-> "%string SIM) (orElse (one " ==> "%string IMPL)
    (orElse (one " =/> "%string PREDIMPL) (one " <=> "%string EQUIV)))).

Section Self.
(** [parseSubjOrPred] *)
Variable self : text -> pres term.

(** 498-504 and 512-518 *)
Definition parseA (i : text) : pres term :=
  pbind (tagS "{" i) (fun _ i => pbind (self i) (fun t i => pbind (tagS "}" i) (fun _ r => POk (SetExt [t]) r))).
Definition parseC (i : text) : pres term :=
  pbind (tagS "[" i) (fun _ i => pbind (self i) (fun t i => pbind (tagS "]" i) (fun _ r => POk (SetInt [t]) r))).

(** 765-770 *)
Definition parseNeg (i : text) : pres term :=
  pbind (tagS "(!" i) (fun _ i => pbind (self i) (fun t i => pbind (tagS ")" i) (fun _ r => POk (Neg t) r))).

(** the loops 782-796 and 865-879 *)
Fixpoint moreTerms (sep : string) (fuel : nat) (i : text) : pres (list term) :=
  match fuel with
  | O => PFuel
  | S f => match tagS sep i with
           | POk _ i2 => pbind (self i2) (fun t i3 => pbind (moreTerms sep f i3) (fun ts r => POk (t :: ts) r))
           | _ => POk [] i
           end
  end.
(** 772-801 and 823-884 *)
Definition parseList (sep : string) (mk : list term -> term) (i : text) : pres term :=
  pbind (tagS "(" i) (fun _ i => pbind (self i) (fun a i => pbind (tagS sep i) (fun _ i => pbind (self i) (fun b i =>
  pbind (moreTerms sep (S (length i)) i) (fun ts i => pbind (tagS ")" i) (fun _ r => POk (mk (a :: b :: ts)) r)))))).
Definition parseSeq := parseList "," Seq.
Definition parseProd := parseList "*" Prod.

(** 804-819, 887-902, 905-912 *)
Definition parseTwo (sep : string) (mk : term -> term -> term) (i : text) : pres term :=
  pbind (tagS "(" i) (fun _ i => pbind (self i) (fun a i => pbind (tagS sep i) (fun _ i => pbind (self i) (fun b i =>
  pbind (tagS ")" i) (fun _ r => POk (mk a b) r))))).
Definition parseExtInt2 := parseTwo "&" (fun a b => ExtInt [a; b]).
Definition parseIntInt2 := parseTwo "|" (fun a b => IntInt [a; b]).
Definition parseImg0 := parseTwo " /1 " (fun a b => Img a 0 [b]).
Definition parseImg1 := parseTwo " /2 " (fun a b => Img a 1 [b]).
Definition parseConj2 := parseTwo "&&" (fun a b => Conj [a; b]).
(** 913-922 *)
Definition parseConj3 (i : text) : pres term :=
  pbind (tagS "(" i) (fun _ i => pbind (self i) (fun a i => pbind (tagS "&&" i) (fun _ i => pbind (self i) (fun b i =>
  pbind (tagS "&&" i) (fun _ i => pbind (self i) (fun c i => pbind (tagS ")" i) (fun _ r => POk (Conj [a; b; c]) r))))))).
(** 923-934 *)
Definition parseConj4 (i : text) : pres term :=
  pbind (tagS "(" i) (fun _ i => pbind (self i) (fun a i => pbind (tagS "&&" i) (fun _ i => pbind (self i) (fun b i =>
  pbind (tagS "&&" i) (fun _ i => pbind (self i) (fun c i => pbind (tagS "&&" i) (fun _ i => pbind (self i) (fun d i =>
  pbind (tagS ")" i) (fun _ r => POk (Conj [a; b; c; d]) r))))))))).
(** 936-954 *)
Definition parseStatement (i : text) : pres term :=
  pbind (tagS "<" i) (fun _ i => pbind (self i) (fun s i => pbind (parseCopula i) (fun c i => pbind (self i) (fun p i =>
  pbind (tagS ">" i) (fun _ r => POk (Stmt c s p) r))))).

(** 538-698, the alternatives in source order *)
Definition alternatives (i : text) : pres term :=
  orElse (parseA i) (orElse (parseSeq i) (orElse (parseIntInt2 i) (orElse (parseExtInt2 i) (orElse (parseC i)
  (orElse (parseNeg i) (orElse (parseProd i) (orElse (parseImg0 i) (orElse (parseImg1 i) (orElse (parseConj2 i)
  (orElse (parseConj3 i) (orElse (parseConj4 i) (orElse (parseStatement i) (orElse (parseQVar i) (orElse (parseDepVar i)
  (orElse (parseIndepVar i) (parseB i)))))))))))))))).
End Self.

Fixpoint parseSubjOrPred (fuel : nat) (i : text) : pres term :=
  match fuel with O => PFuel | S f => alternatives (parseSubjOrPred f) i end.
(** 956-958 *)
Definition parseEntry (i : text) : pres term := parseSubjOrPred (S (length i)) i.

(** [str::replace(pat, "*")] for a pattern of two different characters *)
Fixpoint replace2 (a b : ascii) (i : text) : text :=
  match i with
  | x :: ((y :: i') as t) => if Ascii.eqb x a && Ascii.eqb y b then "*"%char :: replace2 a b i' else x :: replace2 a b t
  | _ => i
  end.
Fixpoint contains2 (a b : ascii) (i : text) : bool :=
  match i with
  | x :: ((y :: _) as t) => (Ascii.eqb x a && Ascii.eqb y b) || contains2 a b t
  | _ => false
  end.
(** [while narsese2.contains(..) { .. }]; every round shortens the text *)
Fixpoint squeeze (fuel : nat) (a b : ascii) (i : text) : text :=
  match fuel with
  | O => i
  | S f => if contains2 a b i then squeeze f a b (replace2 a b i) else i
  end.
(** 50-57 *)
Definition squeezeStars (i : text) : text :=
  let i1 := squeeze (length i) "*" " " i in squeeze (length i1) " " "*" i1.

(** [str::ends_with] together with cutting the end off *)
Definition cutEnd (w i : text) : option text :=
  match tag (List.rev w) (List.rev i) with POk _ r => Some (List.rev r) | _ => None end.

(** [str::trim_end] on ASCII *)
Definition isSpace (c : ascii) : bool := let n := nat_of_ascii c in inRange 9 13 n || Nat.eqb n 32.
Fixpoint dropSpaces (i : text) : text := match i with c :: i' => if isSpace c then dropSpaces i' else i | [] => [] end.
Definition trimEnd (i : text) : text := List.rev (dropSpaces (List.rev i)).

(** [str::split(" ")] *)
Fixpoint splitSpace (i : text) : list text :=
  match i with
  | [] => [[]]
  | c :: i' => if Ascii.eqb c " " then [] :: splitSpace i'
               else match splitSpace i' with w :: ws => (c :: w) :: ws | [] => [[c]] end
  end.

(** 20-45. [narsese.chars().nth(narsese.len()-1)] is [None] as soon as one
    character needs more than one byte. The loop looks at the indices
    len-1, ..., 1. [parse::<f64>] is a parameter. *)
Definition isAscii (c : ascii) : bool := Nat.ltb (nat_of_ascii c) 128.
Fixpoint findBrace (i : text) (k : nat) : option nat :=
  match k with
  | O => None
  | S k' => match nth_error i k with
            | Some c => if Ascii.eqb c "{" then Some k else findBrace i k'
            | None => findBrace i k'
            end
  end.
Definition defaultTv : tv := mkTv f1 (f_frac 9 10).
Section Float.
Variable parseF64 : text -> option f64.
Definition parseNarseseRetTv (i : text) : res (text * tv) :=
  match i with
  | [] => Ok (i, defaultTv)
  | _ =>
    if negb (forallb isAscii i) then Panic else
    let len := length i in
    if Ascii.eqb (last i "000"%char) "}" then
      match findBrace i (len - 1) with
      | None => Ok (i, defaultTv)
      | Some k =>
          match splitSpace (firstn (len - 1 - (k + 1)) (skipn (k + 1) i)) with
          | [a; b] =>
              do f <- unwrap (parseF64 a); do c <- unwrap (parseF64 b);
              Ok (firstn k i, mkTv f c)
          | _ => Ok (i, defaultTv)
          end
      end
    else Ok (i, defaultTv)
  end.

(** 47-100 *)
Definition punctOf (c : ascii) : option punct :=
  if Ascii.eqb c "." then Some JUGEMENT else if Ascii.eqb c "!" then Some GOAL else if Ascii.eqb c "?" then Some QUESTION else None.
Definition parseNarsese (narsese : text) : res (option (term * tv * punct * bool)) :=
  let i := squeezeStars narsese in
  let '(i, isEvent) := match cutEnd (tx " :|:") i with Some i' => (i', true) | None => (i, false) end in
  do '(i, v) <- parseNarseseRetTv i;
  let i := trimEnd i in
  match i with
  | [] => Ok None
  | _ => match punctOf (last i "000"%char) with
         | None => Ok None
         | Some p => match parseEntry (removelast i) with
                     | POk t _ => Ok (Some (t, v, p, isEvent))
                     | _ => Ok None
                     end
         end
  end.
End Float.
