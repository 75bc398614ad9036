(** What may be typed so that the program does not panic. *)
From Coq Require Import String Ascii ZArith Bool List.
From Verif Require Import Base F64_Model Term_Model Term_Spec Tv_Model Tv_Spec Sentence_Model Cycle_Model Safe_Spec
  Goal_Model Proc_Model Proc_Spec ProcS_Model Speak_Spec ProcX_Spec Parser_Model Parser_Spec Parser3_Proofs Nar_Model Whole_Model.
Import ListNotations.
Local Open Scope list_scope.
Local Open Scope Z_scope.

Definition asciiOnly (i : text) : Prop := forall c, In c i -> (nat_of_ascii c < 128)%nat.
(** A Narsese text: ASCII, numbers in braces; truth values are truth values, those of
    statements at most 0.999999 sure; nothing is stated about time, and events give
    no property to a part of an operation. *)
Definition goodText (pf : text -> option f64) (ops : list op) (i : text) : Prop :=
  asciiOnly i /\ ~ badTv pf (body i) /\
  forall t v p ev, parseNarsese pf i = Ok (Some (t, v, p, ev)) ->
    match p, ev with
    | JUGEMENT, true => forall x l, t = Stmt INH x (SetInt l) -> ~ callPart ops x
    | JUGEMENT, false => tvInRange v /\ fleb (tvc v) (f_frac 999999 1000000) = true /\ isTemporal t = false
    | GOAL, true => tvInRange v
    | _, _ => True
    end.
(** the Narsese texts of one line without its line end; [net] is the language network *)
Definition starts (w i : text) : bool := if list_eq_dec ascii_dec (firstn (length w) i) w then true else false.
Definition same (a b : text) : bool := if list_eq_dec ascii_dec a b then true else false.
Definition lineTexts (net : text -> res (list text)) (i : text) : list text :=
  if existsb (fun w => starts (tx w) i) ["//"; "!s"; "!por "]%string then []
  else if existsb (fun w => same (tx w) i) ["!dtf"; "!pse"; "!peb 0"; "!peb 1"; "!dt"; "!dmd"; "!QQ"; ""]%string then []
  else if starts (tx "!.nlp ") i && negb (same i (tx "!.nlp ")) then match net (skipn 6 i) with Ok l => l | Panic => [] end
  else [i].
(** a line: "!s" is followed by a number or nothing, no operators are registered any more *)
Definition goodLine (pf : text -> option f64) (ops : list op) (line : text) (r : lineRnd) : Prop :=
  let i := trimNewline line in
  asciiOnly line /\
  (starts (tx "!s") i = true -> starts (tx "!sp") i = false -> i <> tx "!s" -> parseI64 (skipn 2 i) <> None) /\
  (starts (tx "!por ") i = true -> registered (words (skipn 5 i)) = None) /\
  (starts (tx "!.nlp ") i = true -> ln_net r (skipn 6 i) <> Panic) /\
  (forall j, In j (lineTexts (ln_net r) i) -> goodText pf ops j) /\
  expLike (ln_exp r) /\ (forall z, 0 <= z -> unit64 (i_decay (ln_step r) z)).
Definition goodMove (pf : text -> option f64) (ops : list op) (a : wact) : Prop :=
  match a with
  | ARead line r => goodLine pf ops line r
  | AStore draws => forall d, In d (firstn 24 draws) -> Nat.modulo d 16 <> 15%nat
  | _ => True
  end.
(** how many statements are typed *)
Definition statement (pf : text -> option f64) (i : text) : bool :=
  match parseNarsese pf i with Ok (Some (_, _, JUGEMENT, false)) => true | _ => false end.
Definition statements (pf : text -> option f64) (l : list text) : nat := length (filter (statement pf) l).
Definition typed (a : wact) : list text :=
  match a with ARead line r => lineTexts (ln_net r) (trimNewline line) | _ => [] end.
(** one step of any thread, without reading another line *)
Definition busy (pf : text -> option f64) (w w' : whole) : Prop := exists a, (forall line r, a <> ARead line r) /\ wstep pf a w = Ok (Some w').
