(** Property C86: which terms can be typed. *)
From Coq Require Import String Ascii Arith ZArith Bool Lia List.
From Verif Require Import Base F64_Model Tv_Model Term_Model Term_Spec Term_Proofs Stamp_Model Sentence_Model Infer_Model Parser_Model Parser_Spec Parser_Proofs Parser2_Proofs Parser3_Proofs
  Speak_Spec Speak_Proofs Safe_Spec Safe3_Proofs Read_Spec Read_Proofs.
Import ListNotations.
Local Open Scope string_scope.
Local Open Scope list_scope.
Local Open Scope nat_scope.

(** A term is read from some text exactly when it has the right shape. *)
Theorem c86_typable : forall t, (exists i r, parseEntry i = POk t r) <-> typable t.
Proof. exact typed_shape. Qed.
(** So it is for whole sentences, with every punctuation, with and without a mark for events. *)
Theorem c86_sentence : forall pf i t v p ev, parseNarsese pf i = Ok (Some (t, v, p, ev)) -> typable t.
Proof. exact sentence_typable. Qed.
Theorem c86_sentence_typed : forall pf t p ev, typable t -> exists i, parseNarsese pf i = Ok (Some (t, defaultTv, p, ev)).
Proof. exact sentence_typed. Qed.
(** What is typed has components where the reasoner wants them, and can be printed. *)
Theorem c86_wf : forall i t r, parseEntry i = POk t r -> wf t.
Proof. intros i t r P. apply typable_wf, typed_shape. eauto. Qed.
Theorem c86_printed : forall i t r, parseEntry i = POk t r -> exists s, convTermToStr t = Ok s.
Proof. intros i t r P. apply sp_text, wf_speaks. eapply c86_wf; eauto. Qed.

Example c86_ex : typable (Stmt INH (SetExt [Prod [Name "a"; IndepVar "x"]]) (Img (Name "r") 1 [Conj [Name "b"; Neg (Name "c")]])).
Proof.
  apply typed_shape. exists (tx "<{(a*$x)} --> (r /2 (b&&(!c)))>."), (tx "."). vm_compute. reflexivity.
Qed.

(** Finding: from two judgements that were typed follows one that cannot be typed: a
    thing with two properties. It can be printed, but neither stated nor asked for. *)
Theorem c86_derived_refuted : exists a b c pb w, typable (s_term a) /\ typable (s_term b) /\
  inference a b 7 = Ok (pb, w) /\ In c (map fst pb) /\ s_term c = Stmt INH (SetExt [Name "cup"]) (SetInt [Name "red"; Name "big"]) /\
  (exists s, convTermToStr (s_term c) = Ok s) /\ forall i r, parseEntry i <> POk (s_term c) r.
Proof.
  set (J := fun q i => newEternalSentenceByTv (Stmt INH (SetExt [Name "cup"]) (SetInt [Name q])) JUGEMENT (mkTv f1 (f_frac 9 10)) (newStamp [i]) 0).
  set (x := inference (J "red" 1%Z) (J "big" 2%Z) 7). 
  exists (J "red" 1%Z), (J "big" 2%Z), (match x with Ok ((c, _) :: _, _) => c | _ => J "red" 1%Z end), (match x with Ok (pb, _) => pb | Panic => [] end), (match x with Ok (_, w) => w | Panic => false end).
  assert (T : forall q, q = "red" \/ q = "big" -> typable (Stmt INH (SetExt [Name "cup"]) (SetInt [Name q]))).
  { intros q H. apply typed_shape. exists (tx ("<{cup} --> [" ++ q ++ "]>")%string), []. destruct H as [->| ->]; vm_compute; reflexivity. }
  split; [apply T; auto|]. split; [apply T; auto|]. split; [vm_compute; reflexivity|]. split; [vm_compute; auto|]. split; [vm_compute; reflexivity|].
  assert (E : s_term (match x with Ok ((c, _) :: _, _) => c | _ => J "red" 1%Z end) = Stmt INH (SetExt [Name "cup"]) (SetInt [Name "red"; Name "big"])) by (vm_compute; reflexivity).
  rewrite E. split; [vm_compute; eauto|]. intros i r P.
  assert (Y : typable (Stmt INH (SetExt [Name "cup"]) (SetInt [Name "red"; Name "big"]))) by (apply typed_shape; eauto).
  assert (K : shape (SetInt [Name "red"; Name "big"])) by (apply Y; apply Relation_Operators.rt_step; constructor). discriminate K.
Qed.

Print Assumptions c86_typable.
Print Assumptions c86_sentence.
Print Assumptions c86_sentence_typed.
Print Assumptions c86_wf.
Print Assumptions c86_printed.
Print Assumptions c86_derived_refuted.
