(** How often the parser of src/NarseseParser.rs calls itself. The functions of
    Parser_Model.v say what is read; here every alternative is the list of what it looks
    for, and the calls of [parseSubjOrPred] are counted. [Props_Cost] shows that this
    reads the same texts. *)
From Coq Require Import String Ascii ZArith List.
From Verif Require Import Base Term_Model Parser_Model.
Import ListNotations.
Local Open Scope Z_scope.

Inductive item :=
| Lit (s : string)     (* nom [tag] *)
| Word                 (* 491-496 *)
| Cop                  (* 702-762 *)
| Call                 (* parseSubjOrPred *)
| More (sep : string)  (* the loops 782-796 and 865-879 *).
(** the alternatives in the order of 538-698; the lines of each are given in Parser_Model.v *)
Definition inParens (l : list item) : list item := Lit "(" :: l ++ [Lit ")"].
Definition grammar : list (list item) :=
  [ [Lit "{"; Call; Lit "}"];
    inParens [Call; Lit ","; Call; More ","];
    inParens [Call; Lit "|"; Call];
    inParens [Call; Lit "&"; Call];
    [Lit "["; Call; Lit "]"];
    [Lit "(!"; Call; Lit ")"];
    inParens [Call; Lit "*"; Call; More "*"];
    inParens [Call; Lit " /1 "; Call];
    inParens [Call; Lit " /2 "; Call];
    inParens [Call; Lit "&&"; Call];
    inParens [Call; Lit "&&"; Call; Lit "&&"; Call];
    inParens [Call; Lit "&&"; Call; Lit "&&"; Call; Lit "&&"; Call];
    [Lit "<"; Call; Cop; Call; Lit ">"];
    [Lit "?"; Word]; [Lit "#"; Word]; [Lit "$"; Word]; [Word] ].

(** What is left of the text if it is read, and the number of calls made. [?] ends an
    alternative at the first error. *)
Definition outcome := (option text * Z)%type.
Definition restOf {A} (p : pres A) : option text := match p with POk _ r => Some r | _ => None end.
Definition andThen (x : outcome) (f : text -> outcome) : outcome :=
  match fst x with Some r => let y := f r in (fst y, snd x + snd y) | None => (None, snd x) end.
Section Self.
(** [parseSubjOrPred] *)
Variable self : text -> outcome.
(** 782-796, 865-879 *)
Fixpoint tryMore (sep : string) (fuel : nat) (i : text) : outcome :=
  match fuel with
  | O => (None, 0)
  | S f => match restOf (tagS sep i) with
           | Some r => andThen (self r) (tryMore sep f)
           | None => (Some i, 0)
           end
  end.
(** 491-954 *)
Definition tryItem (x : item) (i : text) : outcome :=
  match x with
  | Lit s => (restOf (tagS s i), 0)
  | Word => (restOf (alpha2 i), 0)
  | Cop => (restOf (parseCopula i), 0)
  | Call => self i
  | More sep => tryMore sep (S (length i)) i
  end.
Fixpoint tryItems (l : list item) (i : text) : outcome :=
  match l with [] => (Some i, 0) | x :: l' => andThen (tryItem x i) (tryItems l') end.
(** 538-698 *)
Fixpoint tryAll (g : list (list item)) (i : text) : outcome :=
  match g with
  | [] => (None, 0)
  | l :: g' =>
      let x := tryItems l i in
      match fst x with
      | Some r => x
      | None => let y := tryAll g' i in (fst y, snd x + snd y)
      end
  end.
End Self.
(** 538-698, counting the call itself *)
Fixpoint reading (fuel : nat) (i : text) : outcome :=
  match fuel with
  | O => (None, 0)
  | S f => let x := tryAll (reading f) grammar i in (fst x, 1 + snd x)
  end.
(** 956-958: the calls made to read a text *)
Definition callsFor (i : text) : Z := snd (reading (S (length i)) i).
