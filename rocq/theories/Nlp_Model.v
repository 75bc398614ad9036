(** The small language network.
    Models /repo/src/ModNlpA.rs: nn_store 48-96, nn_load 99-177, train 181-582 without what is
    printed and without the final [network_test], network_run 596-740, everything from
    742 to the end, and /repo/src/NarModuleNlp3.rs 14-33.
    Simplifications:
    - the pairs of f64 are written over an arithmetic (Tv_Model.arith): f64 (bit exact)
      is what runs, the real numbers are used to speak about derivatives;
    - the database is the list of the rows in the order of insertion, which is the order
      in which SQLite scans a table without an index; it stores a real number as
      it is, except -0.0, which becomes 0.0, and NaN, which becomes NULL and violates
      NOT NULL; other failures of SQLite are left out;
    - only whether the log file exists is kept, not what is written;
    - [split_whitespace] is modelled on ASCII;
    - the sine behind the random numbers is an argument; an index below zero panics
      when it is drawn, not when it is used;
    - codes and actions are nat, the display of an f64 is an argument. *)
From Coq Require Import ZArith SpecFloat String Ascii List Bool.
From Verif Require Import Base F64_Model Tv_Model Parser_Model Nar_Model.
Import ListNotations.
Local Open Scope list_scope. Local Open Scope nat_scope.

(** ** pairs of value and derivative *)
Section Pairs.
  Context {F : Type} (A : arith F).
  Notation "x + y" := (Aadd A x y).
  Notation "x - y" := (Asub A x y).
  Notation "x * y" := (Amul A x y).

  (** 780-782 *)
  Definition p_add (a b : F * F) : F * F := (fst a + fst b, snd a + snd b).
  (** 784-786 *)
  Definition p_mul (a b : F * F) : F * F := (fst a * fst b, snd a * fst b + fst a * snd b).
  (** 763-778 *)
  Definition p_dot (a b : list (F * F)) : res (F * F) :=
    if Nat.eqb (length a) (length b) then
      rfold (fun acc i => do x <- idx a i; do y <- idx b i; Ok (p_add acc (p_mul x y)))
            (seq 0 (length b)) (A0 A, A0 A)
    else Panic.

  (** 792-796: one-hot encoding *)
  Definition encode_onehot (val len : nat) : res (list F) :=
    if Nat.ltb val len then Ok (replace_at val (A1 A) (repeat (A0 A) len)) else Panic.

  (** 801-815 *)
  Record wb := mkWb { w_weights : list (F * F); w_bias : F * F }.
  Definition nlpnet : Type := list (list wb).

  (** 824-826 and 832-834 *)
  Definition fire (stimulus : list (F * F)) (n : wb) : res (F * F) :=
    do s <- p_dot stimulus (w_weights n); Ok (p_add s (w_bias n)).
  (** 818-840 *)
  Definition forward (nn : nlpnet) (stimulus : list (F * F)) : res (list (F * F)) :=
    do l0 <- idx nn 0;
    do out0 <- rmapM (fire stimulus) l0;
    do l1 <- idx nn 1;
    rmapM (fire out0) l1.

  (** 881-941: 12 places for signs, filled from the end, 34 codes *)
  Definition conv_seq_to_nninput (s : list nat) : res (list (F * F)) :=
    do codes <- rfold (fun cs i =>
        let back := (length s - 1 - i)%nat in
        if Nat.ltb (length cs - 1) back then Panic
        else do c <- idx s i; Ok (replace_at (length cs - 1 - back)%nat c cs))
      (seq 0 (length s)) (repeat 33 12);
    do bs <- rmapM (fun c => do v <- encode_onehot c 34; Ok (map (fun x => (x, A0 A)) v)) codes;
    Ok (concat bs).

  (** one number of the network: the bias or a weight *)
  Definition updWeight (k : option nat) (f : F * F -> F * F) (n : wb) : res wb :=
    match k with
    | None => Ok (mkWb (w_weights n) (f (w_bias n)))
    | Some k => do x <- idx (w_weights n) k; Ok (mkWb (replace_at k (f x) (w_weights n)) (w_bias n))
    end.
  Definition updNet (l j : nat) (k : option nat) (f : F * F -> F * F) (nn : nlpnet) : res nlpnet :=
    do layer <- idx nn l;
    do n <- idx layer j;
    do n' <- updWeight k f n;
    Ok (replace_at l (replace_at j n' layer) nn).
  (** 524-525: [lo], [hi] are 0.1 and 0.9 *)
  Definition targetOut (lo hi : F) (nn : nlpnet) (out : nat) : res (list F) :=
    do l1 <- idx nn 1;
    if Nat.ltb out (length l1) then Ok (replace_at out hi (repeat lo (length l1))) else Panic.
  (** 486-559: one epoch with the chosen layer [l], neuron [j], weight [k] (none: the bias),
      sample [(s, out)], output [o] and learning rate [lr]; the displayed averages are
      left out *)
  Definition trainStep (lo hi lr : F) (nn : nlpnet) (l j : nat) (k : option nat)
             (s : list nat) (out o : nat) : res nlpnet :=
    do nn1 <- updNet l j k (fun p => (fst p, A1 A)) nn;
    do b <- conv_seq_to_nninput s;
    do target <- targetOut lo hi nn1 out;
    do res1 <- forward nn1 b;
    do x <- idx res1 o;
    do t <- idx target o;
    let diff := fst x - t in
    let d2 := lr * diff * snd x in
    do nn2 <- updNet l j k (fun p => (fst p - d2, snd p)) nn1;
    updNet l j k (fun p => (fst p, A0 A)) nn2.
End Pairs.
Arguments wb F : clear implicits. Arguments nlpnet F : clear implicits.
Arguments mkWb {F} _ _. Arguments w_weights {F} _. Arguments w_bias {F} _.

(** 396-416: the samples made of one stimulus and the control wanted for it *)
Definition samplesOf (stimulus control : list nat) : list (list nat * nat) :=
  map (fun i => (stimulus ++ map (fun c => 18 + c) (firstn i control), nth i control 0))
      (seq 0 (length control)).

(** 250-318: the stimuli of the training and the control wanted for them *)
Definition trainingSet : list (list text * list nat) :=
  [([tx "NNP"; tx "VBZ"; tx "JJ"; tx "CC"; tx "JJ"], [1; 7; 0]);
   ([tx "MD"; tx "NNP"; tx "VB"; tx "?"], [12; 0]);
   ([tx "NN"; tx "VBZ"; tx "DT"; tx "NN"], [11; 0]);
   ([tx "NNP"; tx "VBZ"; tx "JJ"], [1; 0]);
   ([tx "NN"; tx "VBZ"; tx "NN"], [1; 0]);
   ([tx "NNP"; tx "CC"; tx "NNP"; tx "VBP"; tx "JJ"], [2; 3; 0]);
   ([tx "NN"; tx "VBT"; tx "PRT_TO"; tx "VB"], [4; 0]);
   ([tx "NN"; tx "VBP"; tx "NN"], [1; 0])].

(** ** running *)
(** f64::clamp *)
Definition fclamp (lo hi v : f64) : f64 := if fltb v lo then lo else if fgtb v hi then hi else v.
(** 845-856 *)
Definition calc_max_onehot_idx (v : list (f64 * f64)) : nat :=
  fst (fold_left (fun (st : nat * f64) (p : nat * (f64 * f64)) =>
         let x := fclamp f0 f1 (fst (snd p)) in
         if fgtb x (snd st) then (fst p, x) else st)
       (combine (seq 0 (length v)) v) (0, f0)).

(** first hit in a chain of comparisons *)
Fixpoint lookup {B} (w : text) (l : list (text * B)) : option B :=
  match l with [] => None | (k, b) :: l' => if text_eqb w k then Some b else lookup w l' end.
(** 1012-1028 *)
Definition posCodes : list (text * nat) :=
  [(tx "VBZ", 0); (tx "JJ", 1); (tx "NNP", 2); (tx "CC", 3); (tx ",", 4); (tx "NN", 5); (tx "VBP", 6);
   (tx "DT", 8); (tx "PRT_TO", 9); (tx "VB", 10); (tx "VBT", 11); (tx "WP", 12); (tx "?", 13);
   (tx "VBG", 14); (tx "IN", 15); (tx "PRP", 16); (tx "MD", 17)].
(** 997-1037: 7 is the end of the sentence *)
Definition prot_pos0 (cls : list text) : res (list nat) :=
  do cs <- rmapM (fun c => unwrap (lookup c posCodes)) cls; Ok (cs ++ [7]).
(** 250-416 *)
Definition trainingSamples : res (list (list nat * nat)) :=
  do l <- rmapM (fun sc => do s <- prot_pos0 (fst sc); Ok (samplesOf s (snd sc))) trainingSet;
  Ok (concat l).

(** ** training *)
(** 948-952: [sn v] is the sine of [v] times 8461256485, rounded; the remainder by 0 panics *)
Definition rng_genint (sn : Z -> Z) (v : Z) (m : nat) : res nat :=
  if Nat.eqb m 0 then Panic
  else let r := Z.rem (1383462957253 + v * 1337 + sn v) (Z.of_nat m) in
       if Z.ltb r 0 then Panic else Ok (Z.to_nat r).
(** 182-217: [fr v] is the random number (954-958) for the counter [v] *)
Definition initLayer (fr : Z -> f64) (v : Z) (add : f64) (neurons inputs : nat) : list (wb f64) :=
  map (fun j => let v := (v + Z.of_nat (j * (inputs + 1)))%Z in
                mkWb (map (fun k => (fadd (fr (v + Z.of_nat k)%Z) add, f0)) (seq 0 inputs)) (fr (v + Z.of_nat inputs)%Z, f0))
      (seq 0 neurons).
Definition initNet (fr : Z -> f64) : nlpnet f64 :=
  [initLayer fr 8737 (f_frac 1 10) 9 408; initLayer fr (8737 + 9 * 409) (f_frac 1 20) 15 9].
(** 474-560: epoch [i] of [n] *)
Definition epoch (sn : Z -> Z) (fr : Z -> f64) (seqs : list (list nat * nat)) (n i : nat)
           (st : nlpnet f64 * Z * f64) : res (nlpnet f64 * Z * f64) :=
  let '(nn, v, lr) := st in
  let lr := if Nat.eqb i (n / 5) then fdiv (f_frac 1 100) (f_frac 10 1)
            else if Nat.eqb i (n / 2) then fdiv (f_frac 1 100) (f_frac 20 1) else lr in
  let l := if fgtb (fr v) (f_frac 9 10) then 1 else 0 in
  do layer <- idx nn l;
  do j <- rng_genint sn (v + 1) (length layer);
  do neuron <- idx layer j;
  do r <- rng_genint sn (v + 2) (length (w_weights neuron) + 1);
  let k := if Nat.ltb r (length (w_weights neuron)) then Some (length (w_weights neuron) - 1 - r) else None in
  do c <- rng_genint sn (v + 3) (length seqs);
  do '(s, out) <- idx seqs c;
  do l1 <- idx nn 1;
  do o <- rng_genint sn (v + 4) (length l1);
  do nn' <- trainStep f64_arith (f_frac 1 10) (f_frac 9 10) lr nn l j k s out o;
  Ok (nn', v + 5, lr)%Z.
(** 182-560 with [n] epochs (in the code 450000000): the trained network *)
Definition train (sn : Z -> Z) (fr : Z -> f64) (n : nat) : res (nlpnet f64) :=
  do seqs <- trainingSamples;
  do '(nn, _, _) <- rfold (fun st i => epoch sn fr seqs n i st) (seq 0 n) (initNet fr, (8737 + 9 * 409 + 15 * 10)%Z, f_frac 1 100);
  Ok nn.

(** ** words *)
(** 1044-1069 *)
Definition wordPos : list (text * text) :=
  [(tx "Tom", tx "NNP"); (tx "Tim", tx "NNP"); (tx "John", tx "NNP"); (tx "is", tx "VBZ"); (tx "can", tx "MD");
   (tx "are", tx "VBP"); (tx "?", tx "?"); (tx "to", tx "PRT_TO"); (tx "of", tx "IN"); (tx "the", tx "DT");
   (tx "what", tx "WP"); (tx "and", tx "CC"); (tx "fast", tx "JJ"); (tx "slow", tx "JJ"); (tx "fat", tx "JJ");
   (tx "thin", tx "JJ"); (tx "good", tx "JJ"); (tx "bad", tx "JJ"); (tx "dance", tx "VB"); (tx "hunting", tx "NN");
   (tx "purpose", tx "NN"); (tx "food", tx "NN"); (tx "Cat", tx "NN"); (tx "want", tx "VBT")].
(** 1041-1073 *)
Definition conv_tokens_to_poss (tokens : list text) : res (list text) :=
  rmapM (fun w => unwrap (lookup w wordPos)) tokens.

(** 743-748 *)
Record relation := mkRel { rel_head : text; rel_args : list text; rel_neg : bool; rel_conf : f64 }.
(** 0.998 *)
Definition f0998 : f64 := f_frac 499 500.
(** one of the branches 667-732: relation with head [h] and arguments [a], [b] *)
Definition relFrom (h a b : res text) : res (option relation) :=
  do h <- h; do a <- a; do b <- b; Ok (Some (mkRel h [a; b] false f0998)).
(** 662-732 *)
Definition relOf (w : list text) (action : nat) : res (option relation) :=
  match action with
  | 1 => relFrom (idx w 1) (idx w 0) (idx w 2)
  | 2 => relFrom (idx w 3) (idx w 0) (idx w 4)
  | 3 => relFrom (idx w 3) (idx w 2) (idx w 4)
  | 4 => relFrom (Ok (tx "want_to")) (idx w 0) (idx w 3)
  | 7 => relFrom (idx w 1) (idx w 0) (idx w 4)
  | _ => Ok None
  end.
(** 642-737: the loop, [fuel] rounds at most *)
Fixpoint runLoop (fuel : nat) (nn : nlpnet f64) (w : list text) (cur log : list nat) (rels : list relation)
  : res (list nat * list relation) :=
  match fuel with
  | O => Ok (log, rels)
  | S fuel =>
      do st <- conv_seq_to_nninput f64_arith cur;
      do out <- forward f64_arith nn st;
      let a := calc_max_onehot_idx out in
      let log := log ++ [a] in
      if Nat.eqb a 0 then Ok (log, rels)
      else
        do r <- relOf w a;
        let rels := match r with Some r => rels ++ [r] | None => rels end in
        runLoop fuel nn w (cur ++ [18 + a]) log rels
  end.

(** ** the database *)
Record row := mkRow { r_layer : nat; r_neuron : nat; r_valueid : Z; r_value : f64 }.
(** what SQLite keeps of a value in a column REAL NOT NULL; none: the insertion fails *)
Definition sqlReal (v : f64) : option f64 :=
  if fis_nan v then None else Some (if SFeqb v f0 then f0 else v).
(** 72-93: the rows in the order of their insertion *)
Definition neuronRows (l j : nat) (n : wb f64) : list row :=
  mkRow l j (-1) (fst (w_bias n)) ::
  map (fun kv => mkRow l j (Z.of_nat (fst kv)) (fst (snd kv))) (combine (seq 0 (length (w_weights n))) (w_weights n)).
Definition netRows (nn : nlpnet f64) : list row :=
  flat_map (fun il => flat_map (fun jn => neuronRows (fst il) (fst jn) (snd jn))
                               (combine (seq 0 (length (snd il))) (snd il)))
           (combine (seq 0 (length nn)) nn).
(** the insertions until one fails; whether none did *)
Fixpoint insertRows (l : list row) : list row * bool :=
  match l with
  | [] => ([], true)
  | r :: l' =>
      match sqlReal (r_value r) with
      | Some v => let '(t, b) := insertRows l' in (mkRow (r_layer r) (r_neuron r) (r_valueid r) v :: t, b)
      | None => ([], false)
      end
  end.
(** 48-96: the new table and whether the result is Ok *)
Definition nn_store (nn : nlpnet f64) : list row * bool := insertRows (netRows nn).

(** SQL MAX, NULL for no row *)
Fixpoint sqlMax (l : list nat) : option nat :=
  match l with
  | [] => None
  | a :: l' => match sqlMax l' with Some b => Some (Nat.max a b) | None => Some a end
  end.
(** 152-168 *)
Definition neuronOf (rows : list row) (l j : nat) : wb f64 :=
  fold_left (fun n r => if Z.eqb (r_valueid r) (-1) then mkWb (w_weights n) (r_value r, f0)
                        else mkWb (w_weights n ++ [(r_value r, f0)]) (w_bias n))
            (filter (fun r => Nat.eqb (r_layer r) l && Nat.eqb (r_neuron r) j) rows)
            (mkWb [] (f0, f0)).
(** 99-177: a NULL cannot be read as an i64, the [unwrap]s 116 and 130 panic *)
Definition nn_load (rows : list row) : res (nlpnet f64) :=
  do m <- unwrap (sqlMax (map r_layer rows));
  rmapM (fun l =>
    do k <- unwrap (sqlMax (map r_neuron (filter (fun r => Nat.eqb (r_layer r) l) rows)));
    Ok (map (neuronOf rows l) (seq 0 (S k))))
  (seq 0 (S m)).

(** the files: the table (none: there is no such table), whether logX.txt exists *)
Record disk := mkDisk { dk_db : option (list row); dk_log : bool }.

(** 596-740 *)
Definition network_run (d : disk) (w : list text) : res (list nat * list relation * disk) :=
  do rows <- unwrap (dk_db d);
  do nn <- nn_load rows;
  do l0 <- idx nn 0;
  do _ <- idx l0 0;
  if dk_log d then Panic
  else
    do pos <- conv_tokens_to_poss w;
    do cur <- prot_pos0 pos;
    do '(log, rels) <- runLoop 10 nn w cur [] [];
    Ok (log, rels, mkDisk (dk_db d) true).

(** 751-760 *)
Definition conv_rel_to_narsese (sh : f64 -> text) (r : relation) : res text :=
  match rel_args r with
  | [a; b] => Ok (tx "<(" ++ a ++ tx "*" ++ b ++ tx ") --> " ++ rel_head r ++ tx ">. {" ++ sh f1 ++ tx " " ++ sh (rel_conf r) ++ tx "}")
  | _ => Panic
  end.

(** NarModuleNlp3.rs 16: [replace("?", " ? ")] *)
Definition spreadMarks (i : text) : text :=
  flat_map (fun c => if Ascii.eqb c "?" then tx " ? " else [c]) i.
(** NarModuleNlp3.rs 15-29, without [inputN]: the texts for the reasoner *)
Definition nlpTexts (sh : f64 -> text) (d : disk) (natural : text) : res (list text * disk) :=
  do '(_, rels, d') <- network_run d (words (spreadMarks natural));
  do l <- rmapM (conv_rel_to_narsese sh) rels;
  Ok (l, d').
