(** What the theorems about the language network say. *)
From Coq Require Import ZArith Reals String Ascii List Bool.
From Verif Require Import Base F64_Model Tv_Model Term_Model Parser_Model Parser_Spec Nlp_Model.
Import ListNotations.
Local Open Scope list_scope. Local Open Scope nat_scope.

(** ** input *)
(** the sign at place [k] of the 12 places, when the signs [s] stand at the end *)
Definition signAt (s : list nat) (k : nat) : nat :=
  match nth_error (repeat 33 (12 - length s) ++ s) k with Some c => c | None => 33 end.
(** [v] is the input for the signs [s]: a block of 34 numbers for every place *)
Definition fits (s : list nat) : Prop := length s <= 12 /\ forall c, In c s -> c < 34.
Definition isInput {F} (zero one : F) (s : list nat) (v : list (F * F)) : Prop :=
  fits s /\ length v = 12 * 34 /\
  forall k c, k < 12 -> c < 34 -> nth_error v (34 * k + c) = Some (if Nat.eqb c (signAt s k) then one else zero, zero).

(** the words the network knows, by kind *)
Inductive kind := ProperNoun | Noun | Is | Are | Can | Adj | And | To | The | Of | What | Verb | Want | Mark.
Inductive isKind : string -> kind -> Prop :=
| k_proper : forall w, In w ["Tom"; "Tim"; "John"]%string -> isKind w ProperNoun
| k_noun : forall w, In w ["hunting"; "purpose"; "food"; "Cat"]%string -> isKind w Noun
| k_adj : forall w, In w ["fast"; "slow"; "fat"; "thin"; "good"; "bad"]%string -> isKind w Adj
| k_is : isKind "is" Is | k_are : isKind "are" Are | k_can : isKind "can" Can | k_and : isKind "and" And
| k_to : isKind "to" To | k_the : isKind "the" The | k_of : isKind "of" Of | k_what : isKind "what" What
| k_verb : isKind "dance" Verb | k_want : isKind "want" Want | k_mark : isKind "?" Mark.
Definition known (w : text) : Prop := exists s k, w = tx s /\ isKind s k.

(** ** winner *)
Definition lt64 (a b : f64) : Prop := fltb a b = true.
Definition le64 (a b : f64) : Prop := fleb a b = true.
(** [w] wins: nothing is positive and [w] is 0, or [w] is the first place of the
    greatest output, where outputs above 1 count as 1 *)
Definition wins (v : list f64) (w : nat) : Prop :=
  ((forall x, In x v -> ~ lt64 f0 x) /\ w = 0) \/
  (exists x, nth_error v w = Some x /\ lt64 f0 x /\
     (forall i y, i < w -> nth_error v i = Some y -> ~ le64 x y /\ ~ le64 f1 y) /\
     (forall y, In y v -> ~ (lt64 x y /\ lt64 x f1))).

(** ** conversation of the network with itself *)
Definition said (base log : list nat) : list nat := base ++ map (fun a => 18 + a) log.
(** the answer of the network to the signs [s] *)
Definition answers (nn : nlpnet f64) (s : list nat) (a : nat) : Prop :=
  exists v out, isInput f0 f1 s v /\ forward f64_arith nn v = Ok out /\ wins (map fst out) a.
(** every action of [log] is the answer to what was said before *)
Definition talk (nn : nlpnet f64) (base log : list nat) : Prop :=
  forall before a after, log = before ++ a :: after -> answers nn (said base before) a.
Definition ongoing (log : list nat) : Prop := ~ In 0 log /\ length log < 10.
Definition over (log : list nat) : Prop :=
  (exists l, log = l ++ [0] /\ ongoing l) \/ (~ In 0 log /\ length log = 10).

(** what an action says about the words: head and arguments *)
Inductive says (w : list text) : nat -> text -> text -> text -> Prop :=
| says1 : forall a h b, nth_error w 0 = Some a -> nth_error w 1 = Some h -> nth_error w 2 = Some b -> says w 1 h a b
| says2 : forall a h b, nth_error w 0 = Some a -> nth_error w 3 = Some h -> nth_error w 4 = Some b -> says w 2 h a b
| says3 : forall a h b, nth_error w 2 = Some a -> nth_error w 3 = Some h -> nth_error w 4 = Some b -> says w 3 h a b
| says4 : forall a b, nth_error w 0 = Some a -> nth_error w 3 = Some b -> says w 4 (tx "want_to") a b
| says7 : forall a h b, nth_error w 0 = Some a -> nth_error w 1 = Some h -> nth_error w 4 = Some b -> says w 7 h a b.
(** how many words an action needs; 0 for the actions without effect *)
Definition needs (a : nat) : nat := match a with 1 => 3 | 2 => 5 | 3 => 5 | 4 => 4 | 7 => 5 | _ => 0 end.
(** the relations of a log, in order *)
Inductive told (w : list text) : list nat -> list relation -> Prop :=
| told_nil : told w [] []
| told_rel : forall a h x y log rels, says w a h x y -> told w log rels ->
    told w (a :: log) (mkRel h [x; y] false f0998 :: rels)
| told_none : forall a log rels, needs a = 0 -> told w log rels -> told w (a :: log) rels.

(** signs of a sentence *)
Definition kindSign (k : kind) : nat :=
  match k with
  | Is => 0 | Adj => 1 | ProperNoun => 2 | And => 3 | Noun => 5 | Are => 6 | The => 8 | To => 9
  | Verb => 10 | Want => 11 | What => 12 | Mark => 13 | Of => 15 | Can => 17
  end.
Definition signsOf (w : list text) (base : list nat) : Prop :=
  exists cs, base = cs ++ [7] /\ Forall2 (fun x c => exists s k, x = tx s /\ isKind s k /\ c = kindSign k) w cs.

(** the lessons: kinds of words and what to answer *)
Inductive lesson : list kind -> list nat -> Prop :=
| les_isand : lesson [ProperNoun; Is; Adj; And; Adj] [1; 7; 0]
| les_can : lesson [Can; ProperNoun; Verb; Mark] [12; 0]
| les_isthe : lesson [Noun; Is; The; Noun] [11; 0]
| les_isadj : lesson [ProperNoun; Is; Adj] [1; 0]
| les_is : lesson [Noun; Is; Noun] [1; 0]
| les_and : lesson [ProperNoun; And; ProperNoun; Are; Adj] [2; 3; 0]
| les_wantto : lesson [Noun; Want; To; Verb] [4; 0]
| les_are : lesson [Noun; Are; Noun] [1; 0].
Definition ofKinds (w : list text) (ks : list kind) : Prop := Forall2 (fun x k => exists s, x = tx s /\ isKind s k) w ks.

(** ** shape *)
Definition shaped {F} (n0 n1 : nat) (nn : nlpnet F) : Prop :=
  exists l0 l1, nn = [l0; l1] /\ length l0 = n0 /\ length l1 = n1 /\
    (forall n, In n l0 -> length (w_weights n) = 12 * 34) /\ (forall n, In n l1 -> length (w_weights n) = n0).

(** ** storing *)
(** what is left of a number: no derivative, no sign of zero *)
Definition plainNum (p : f64 * f64) : f64 * f64 :=
  (match fst p with SpecFloat.S754_zero _ => f0 | v => v end, f0).
Definition plainNeuron (n : wb f64) : wb f64 := mkWb (map plainNum (w_weights n)) (plainNum (w_bias n)).
Definition plainNet (nn : nlpnet f64) : nlpnet f64 := map (map plainNeuron) nn.
Definition numbers (nn : nlpnet f64) : list f64 :=
  flat_map (fun l => flat_map (fun n => fst (w_bias n) :: map fst (w_weights n)) l) nn.
Definition noNan (nn : nlpnet f64) : Prop := forall v, In v (numbers nn) -> v <> SpecFloat.S754_nan.

(** ** learning, over the real numbers *)
(** the number at layer [l], neuron [j], weight [k] (none: the bias) *)
Definition number {F} (nn : nlpnet F) (l j : nat) (k : option nat) : option (F * F) :=
  match nth_error nn l with
  | Some layer => match nth_error layer j with
                  | Some n => match k with Some k => nth_error (w_weights n) k | None => Some (w_bias n) end
                  | None => None
                  end
  | None => None
  end.
(** [nn'] is [nn] with the value [x] at that place *)
Definition differsAt {F} (l j : nat) (k : option nat) (x : F) (nn nn' : nlpnet F) : Prop :=
  (forall l' j' k', number nn' l' j' k' =
     if Nat.eqb l' l && Nat.eqb j' j && match k', k with Some a, Some b => Nat.eqb a b | None, None => true | _, _ => false end
     then match number nn l j k with Some p => Some (x, snd p) | None => None end
     else number nn l' j' k').
(** no derivative is marked *)
Definition unmarked {F} (zero : F) (nn : nlpnet F) : Prop := forall l j k p, number nn l j k = Some p -> snd p = zero.
(** sums from the left, beginning with zero; with f64 the order matters *)
Fixpoint sumOver {F} (A : arith F) (f : nat -> F) (n : nat) : F :=
  match n with O => A0 A | S n => Aadd A (sumOver A f n) (f n) end.
Definition val {F} (zero : F) (o : option (F * F)) : F := match o with Some p => fst p | None => zero end.
(** inner neuron [j] and output [o] of a network with [n0] inner neurons for the input values [v] *)
Definition inner {F} (A : arith F) (nn : nlpnet F) (v : nat -> F) (j : nat) : F :=
  Aadd A (sumOver A (fun i => Amul A (v i) (val (A0 A) (number nn 0 j (Some i)))) 408) (val (A0 A) (number nn 0 j None)).
Definition output {F} (A : arith F) (nn : nlpnet F) (n0 : nat) (v : nat -> F) (o : nat) : F :=
  Aadd A (sumOver A (fun j => Amul A (inner A nn v j) (val (A0 A) (number nn 1 o (Some j)))) n0) (val (A0 A) (number nn 1 o None)).
(** input values of the signs [s] *)
Definition inputVal {F} (A : arith F) (s : list nat) (i : nat) : F :=
  if Nat.eqb (i mod 34) (signAt s (i / 34)) then A1 A else A0 A.

(** ** what the reasoner makes of a relation *)
Definition mark : text := tx "?".
Definition nameOf (w : text) : term := Name (string_of_list_ascii w).
(** a relation is read as a judgement, unless a word is a question mark *)
Inductive readAs : relation -> option (term * tv * Sentence_Model.punct * bool) -> Prop :=
| read_rel : forall h a b c, h <> mark -> a <> mark -> b <> mark ->
    readAs (mkRel h [a; b] false c) (Some (Stmt INH (Prod [nameOf a; nameOf b]) (nameOf h), mkTv f1 c, Sentence_Model.JUGEMENT, false))
| read_mark : forall h a b c, h = mark \/ a = mark \/ b = mark -> readAs (mkRel h [a; b] false c) None.
(** display and reading of numbers fit together *)
Definition shows (sh : f64 -> text) (pf : text -> option f64) (v : f64) : Prop := numText (sh v) /\ pf (sh v) = Some v.

(** ** training *)
(** the number drawn below [m] at counter [v] *)
Definition draw (sn : Z -> Z) (v : Z) (m r : nat) : Prop :=
  (r < m)%nat /\ Z.of_nat r = ((1383462957253 + v * 1337 + sn v) mod Z.of_nat m)%Z.
(** learning rate of epoch [i] of [n]: 0.01, then a tenth, then a twentieth of it *)
Definition rateOf (n i : nat) : f64 :=
  if Nat.ltb i (n / 5) then f_frac 1 100
  else if Nat.ltb i (n / 2) then fdiv (f_frac 1 100) (f_frac 10 1) else fdiv (f_frac 1 100) (f_frac 20 1).
(** epoch [i] of [n] takes [nn] to [nn']: layer [l] has [neurons] neurons with [inputs]
    weights; drawn are neuron, weight (counted from the back, the last one is the bias), sample and output *)
Inductive epochAt (sn : Z -> Z) (fr : Z -> f64) (ts : list (list nat * nat)) (n i : nat) (nn nn' : nlpnet f64) : Prop :=
| epoch_at : forall v l neurons inputs j r k c s out o,
    v = (12568 + 5 * Z.of_nat i)%Z ->
    (fltb (f_frac 9 10) (fr v) = true /\ l = 1%nat /\ neurons = 15%nat /\ inputs = 9%nat \/
     fltb (f_frac 9 10) (fr v) = false /\ l = 0%nat /\ neurons = 9%nat /\ inputs = 408%nat) ->
    draw sn (v + 1) neurons j -> draw sn (v + 2) (inputs + 1) r ->
    (r = inputs /\ k = None \/ exists w, (w + r + 1 = inputs)%nat /\ k = Some w) ->
    draw sn (v + 3) (length ts) c -> nth_error ts c = Some (s, out) -> draw sn (v + 4) 15 o ->
    trainStep f64_arith (f_frac 1 10) (f_frac 9 10) (rateOf n i) nn l j k s out o = Ok nn' ->
    epochAt sn fr ts n i nn nn'.
(** the [n]th number of the counter, for the first network *)
Definition firstNumber (fr : Z -> f64) (l j : nat) (k : option nat) : option (f64 * f64) :=
  match l, k with
  | 0%nat, Some k => if Nat.ltb j 9 && Nat.ltb k 408 then Some (fadd (fr (8737 + 409 * Z.of_nat j + Z.of_nat k)%Z) (f_frac 1 10), f0) else None
  | 0%nat, None => if Nat.ltb j 9 then Some (fr (8737 + 409 * Z.of_nat j + 408)%Z, f0) else None
  | 1%nat, Some k => if Nat.ltb j 15 && Nat.ltb k 9 then Some (fadd (fr (12418 + 10 * Z.of_nat j + Z.of_nat k)%Z) (f_frac 1 20), f0) else None
  | 1%nat, None => if Nat.ltb j 15 then Some (fr (12418 + 10 * Z.of_nat j + 9)%Z, f0) else None
  | _, _ => None
  end.

(** ** words *)
Definition white (c : ascii) : Prop := nat_of_ascii c = 32%nat \/ (9 <= nat_of_ascii c <= 13)%nat.
(** words are what stands between spaces; with [alone], a question mark is a word of its own *)
Inductive wordsIn (alone : bool) : text -> list text -> Prop :=
| wi_nil : wordsIn alone [] []
| wi_space : forall c i ws, white c -> wordsIn alone i ws -> wordsIn alone (c :: i) ws
| wi_mark : forall i ws, alone = true -> wordsIn alone i ws -> wordsIn alone ("?"%char :: i) (["?"%char] :: ws)
| wi_word : forall w i ws, w <> [] -> (forall c, In c w -> ~ white c /\ (alone = true -> c <> "?"%char)) ->
    match i with c :: _ => white c \/ alone = true /\ c = "?"%char | [] => True end ->
    wordsIn alone i ws -> wordsIn alone (w ++ i) (w :: ws).
