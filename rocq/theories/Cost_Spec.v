(** What is said about the work of reading a text. *)
From Coq Require Import String Ascii List.
From Verif Require Import Base Term_Model.
Import ListNotations.

Definition noParen (i : list ascii) : Prop := ~ In "("%char i.
(** (((a*b)*b)*b), with [n] pairs of parentheses *)
Fixpoint nested (n : nat) : list ascii := match n with O => ["a"%char] | S m => "("%char :: nested m ++ list_ascii_of_string "*b)" end.
Fixpoint nestedTerm (n : nat) : term := match n with O => Name "a" | S m => Prod [nestedTerm m; Name "b"] end.
(** {{{a}}}, with [n] pairs of braces *)
Fixpoint sets (n : nat) : list ascii := match n with O => ["a"%char] | S m => "{"%char :: sets m ++ ["}"%char] end.
Fixpoint setsTerm (n : nat) : term := match n with O => Name "a" | S m => SetExt [setsTerm m] end.
