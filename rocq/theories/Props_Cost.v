(** C100: how much work reading a text takes. *)
From Coq Require Import String Ascii ZArith Lia List.
From Verif Require Import Base F64_Model Tv_Model Term_Model Sentence_Model Parser_Model Parser_Spec Parser_Proofs Parser2_Proofs Parser3_Proofs Cost_Model Cost_Spec Cost_Proofs.
Import ListNotations.
Local Open Scope Z_scope.

(** The counting reader leaves the same rest as the parser, and fails where it fails. *)
Theorem c100_same : forall i, fst (reading (S (length i)) i) = match parseEntry i with POk _ r => Some r | _ => None end.
Proof. intros i. rewrite reading_same by lia. now rewrite entry_fuel by lia. Qed.
(** The number of calls is that of the program, whatever the fuel. *)
Theorem c100_fuel : forall f i, (length i < f)%nat -> snd (reading f i) = callsFor i.
Proof. exact calls_fuel. Qed.
(** Reading always ends: the calls are bounded. *)
Theorem c100_upper : forall i, 1 <= callsFor i <= 11 ^ Z.of_nat (length i).
Proof.
  intros i. unfold callsFor. assert (U := calls_upper (S (length i)) i ltac:(lia)). split; [|apply U].
  clear U. destruct i as [|d i]; [vm_compute; discriminate|]. set (m := length (d :: i)). cbn [reading snd].
  assert (X := all_upper (reading m) m (fun j r Lj => rest_short m j r Lj) (fun j Lj => calls_upper m j Lj) d i (le_n m)). lia.
Qed.
(** Without an opening parenthesis no more calls than characters, and one. *)
Theorem c100_plain : forall i, noParen i -> callsFor i <= Z.of_nat (length i) + 1.
Proof.
  intros i N. assert (C := calls_cheap (S (length i)) i ltac:(lia) N). unfold cheap in C. unfold callsFor. destruct (fst (reading (S (length i)) i)); [destruct C as (_ & _ & C)|]; lia.
Qed.
(** [n] opening parentheses take (9^(n+1) - 1) / 8 calls, and nothing is read. *)
Theorem c100_opens : forall n, parseEntry (repeat "("%char n) = PErr /\ 8 * callsFor (repeat "("%char n) + 1 = 9 ^ (Z.of_nat n + 1).
Proof.
  intros n. destruct (opens n (S (length (repeat "("%char n))) ltac:(rewrite repeat_length; lia)) as (A & B). split; [|exact B].
  rewrite c100_same in A. assert (T := entry_total (repeat "("%char n)). destruct (parseEntry (repeat "("%char n)); [discriminate|reflexivity|now elim T].
Qed.
(** A correct line of 4n+2 characters takes (5*4^n - 2) / 3 calls. *)
Theorem c100_nested : forall pf n, length (nested n ++ ["."%char]) = (4 * n + 2)%nat /\
  parseNarsese pf (nested n ++ ["."%char]) = Ok (Some (nestedTerm n, defaultTv, JUGEMENT, false)) /\ 3 * callsFor (nested n) + 2 = 5 * 4 ^ Z.of_nat n.
Proof.
  intros pf n. split; [rewrite app_length, nested_length; cbn; lia|]. split; [|apply calls_nested].
  exact (sentence_read pf (nestedTerm n) (nested n) JUGEMENT None false (nested_writes n) I).
Qed.
(** Finding: no power of the length bounds the work on correct lines. *)
Theorem c100_power_refuted : forall k : nat, exists t w, writes t w /\ Z.of_nat (length w) ^ Z.of_nat k < callsFor w.
Proof. intros k. destruct (calls_no_power k) as (n & H). exists (nestedTerm n), (nested n). split; [apply nested_writes|exact H]. Qed.
(** The calls are nested: n pairs of braces are read if there is room for n+1 calls inside
    each other, and not with less. *)
Theorem c100_depth : forall n d, writes (setsTerm n) (sets n) /\ ((n < d)%nat -> parseSubjOrPred d (sets n) = POk (setsTerm n) []) /\ ((d <= n)%nat -> parseSubjOrPred d (sets n) = PFuel).
Proof.
  intros n d. split; [apply sets_writes|]. assert (E := sets_depth n d [] I). rewrite app_nil_r in E. split; intros L; rewrite E.
  - now rewrite (proj2 (Nat.ltb_lt n d) L).
  - now rewrite (proj2 (Nat.ltb_ge n d) L).
Qed.
(** Finding: no stack is deep enough for all correct texts, although the work is small. *)
Theorem c100_stack_refuted : forall d, exists t w, writes t w /\ parseSubjOrPred d w = PFuel /\ callsFor w <= Z.of_nat (length w) + 1.
Proof.
  intros d. exists (setsTerm d), (sets d). destruct (c100_depth d d) as (A & _ & B). split; [exact A|]. split; [now apply B|]. apply c100_plain.
  clear A B. induction d as [|d IH]; cbn [sets]; [intros [H|[]]; discriminate H|]. intros [H|H]; [discriminate H|]. apply in_app_or in H. destruct H as [H|[H|[]]]; [now apply IH|discriminate H].
Qed.

(** a line of 82 characters takes more than 10^12 calls *)
Example c100_ex_line : length (nested 20 ++ ["."%char]) = 82%nat /\ 10 ^ 12 < callsFor (nested 20).
Proof.
  split; [reflexivity|]. assert (H := calls_nested 20). set (c := callsFor (nested 20)) in *. clearbody c.
  assert (X : 3 * 10 ^ 12 + 2 < 5 * 4 ^ Z.of_nat 20) by reflexivity. lia.
Qed.
Example c100_ex_text : nested 2 = tx "((a*b)*b)" /\ callsFor (tx "((a*b)*b)") = 26 /\ callsFor (tx "<{a} --> [b]>") = 5 /\ callsFor (tx "(((") = 820 /\ callsFor (tx "(a&&b&&c&&d)") = 17.
Proof. vm_compute. repeat split. Qed.
Example c100_ex_depth : sets 3 = tx "{{{a}}}" /\ parseSubjOrPred 3 (tx "{{{a}}}") = PFuel /\ parseSubjOrPred 4 (tx "{{{a}}}") = POk (SetExt [SetExt [SetExt [Name "a"]]]) [].
Proof. vm_compute. repeat split. Qed.
Example c100_ex_plain : noParen (tx "<{a} --> [b]>") /\ callsFor (tx "<{a} --> [b]>") <= 14.
Proof. split; [intros H; cbn in H; repeat (destruct H as [H|H]; [discriminate H|]); exact H|vm_compute; discriminate]. Qed.

Print Assumptions c100_same.
Print Assumptions c100_fuel.
Print Assumptions c100_upper.
Print Assumptions c100_plain.
Print Assumptions c100_opens.
Print Assumptions c100_nested.
Print Assumptions c100_power_refuted.
Print Assumptions c100_depth.
Print Assumptions c100_stack_refuted.
