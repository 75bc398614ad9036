(** Model of the inference rules in src/NarWorkingCycle.rs lines 54-973.
    A rule returns [Ok None] (not applicable), [Ok (Some c)] or [Panic]
    ([unwrap] of a missing truth value, vector index out of bounds). *)
From Coq Require Import String ZArith Bool List.
From Verif Require Import Base F64_Model Term_Model Unify_Model Stamp_Model Tv_Model Sentence_Model.
Import ListNotations.

Definition concl := (term * tv * punct)%type.
Definition concl1 := (term * tv * punct * f64)%type.

Definition isJ (p : punct) : bool := punct_eqb p JUGEMENT.

(** [f(&aTv.as_ref().unwrap(), &bTv.as_ref().unwrap())] *)
Definition tvApp (f : tv -> tv -> tv) (aTv bTv : option tv) : res tv :=
  do x <- unwrap aTv; do y <- unwrap bTv; Ok (f x y).

(** NarWorkingCycle.rs 55-67 *)
Definition infNeg (a : term) (p : punct) (aTv : option tv) : res (option concl1) :=
  if negb (isJ p) then Ok None else
  match a with
  | Neg x => do v <- unwrap aTv; Ok (Some (x, neg v, JUGEMENT, f05))
  | _ => Ok None
  end.

(** NarWorkingCycle.rs 76-96 *)
Definition infStructPred1 (a : term) (p : punct) (aTv : option tv) (i : nat) : res (option concl1) :=
  if negb (isJ p) then Ok None else
  match a with
  | Stmt INH subj (IntInt arr) =>
      match nth_error arr i with (* idx < arr.len() *)
      | Some x => do v <- unwrap aTv; Ok (Some (Stmt INH subj x, v, JUGEMENT, f1))
      | None => Ok None
      end
  | _ => Ok None
  end.

(** NarWorkingCycle.rs 104-124 *)
Definition infStructSubj1 (a : term) (p : punct) (aTv : option tv) (i : nat) : res (option concl1) :=
  if negb (isJ p) then Ok None else
  match a with
  | Stmt INH (IntInt arr) pred =>
      match nth_error arr i with
      | Some x => do v <- unwrap aTv; Ok (Some (Stmt INH x pred, v, JUGEMENT, f_frac 9 10))
      | None => Ok None
      end
  | _ => Ok None
  end.

(** NarWorkingCycle.rs 132-153: no length check before indexing. *)
Definition infStructProd0 (a : term) (p : punct) (aTv : option tv) : res (option concl1) :=
  if negb (isJ p) then Ok None else
  match a with
  | Stmt INH (Prod arr) pred =>
      do prod0 <- idx arr 0; do prod1 <- idx arr 1;
      do v <- unwrap aTv;
      Ok (Some (Stmt INH prod0 (Img pred 0 [prod1]), v, JUGEMENT, f_frac 8 10))
  | _ => Ok None
  end.

(** NarWorkingCycle.rs 160-182 *)
Definition infStructProd1 (a : term) (p : punct) (aTv : option tv) : res (option concl1) :=
  if negb (isJ p) then Ok None else
  match a with
  | Stmt INH (Prod [prod0; prod1]) pred =>
      do v <- unwrap aTv;
      Ok (Some (Stmt INH prod1 (Img pred 1 [prod0]), v, JUGEMENT, f_frac 8 10))
  | _ => Ok None
  end.

(** NarWorkingCycle.rs 188-209: also accepts questions, then unwraps the
    missing truth value. *)
Definition infStructImg0 (a : term) (p : punct) (aTv : option tv) : res (option concl1) :=
  if negb (isJ p) && negb (punct_eqb p QUESTION) then Ok None else
  match a with
  | Stmt INH subj (Img rel 0 [arr0]) =>
      do v <- unwrap aTv;
      Ok (Some (Stmt INH (Prod [subj; arr0]) rel, v, JUGEMENT, f_frac 9 10))
  | _ => Ok None
  end.

(** NarWorkingCycle.rs 216-237 *)
Definition infStructImg1 (a : term) (p : punct) (aTv : option tv) : res (option concl1) :=
  if negb (isJ p) && negb (punct_eqb p QUESTION) then Ok None else
  match a with
  | Stmt INH subj (Img rel 1 [arr0]) =>
      do v <- unwrap aTv;
      Ok (Some (Stmt INH (Prod [arr0; subj]) rel, v, JUGEMENT, f_frac 9 10))
  | _ => Ok None
  end.

(** NarWorkingCycle.rs 247-271 *)
Definition infStructDecomposePar (a : term) (p : punct) (aTv : option tv) : res (option (list concl1)) :=
  if negb (isJ p) then Ok None else
  match a with
  | Stmt PREDIMPL subj (Par arr) =>
      do r <- rmapM (fun t => do v <- unwrap aTv; Ok (Stmt PREDIMPL subj t, v, JUGEMENT, f_frac 9 10)) arr;
      Ok (Some r)
  | _ => Ok None
  end.

(** NarWorkingCycle.rs 278-301 *)
Definition infStructSetInt (a : term) (p : punct) (aTv : option tv) : res (option concl1) :=
  if negb (isJ p) then Ok None else
  match a with
  | Stmt SIM (SetInt [x]) (SetInt [y]) => do v <- unwrap aTv; Ok (Some (Stmt SIM x y, v, JUGEMENT, f1))
  | _ => Ok None
  end.

(** NarWorkingCycle.rs 305-328 *)
Definition infStructSetExt (a : term) (p : punct) (aTv : option tv) : res (option concl1) :=
  if negb (isJ p) then Ok None else
  match a with
  | Stmt SIM (SetExt [x]) (SetExt [y]) => do v <- unwrap aTv; Ok (Some (Stmt SIM x y, v, JUGEMENT, f1))
  | _ => Ok None
  end.

(** NarWorkingCycle.rs 349-351: [true] is side 1 (subject), [false] is side -1. *)
Definition sel (subj pred : term) (side : bool) : term := if side then subj else pred.

(** NarWorkingCycle.rs 335-374 *)
Definition infGeneralizedJudgJudg (a : term) (pA : punct) (aTv : option tv)
    (b : term) (pB : punct) (bTv : option tv)
    (aCop bCop cCop : copula) (aSide bSide : bool) (tvFn : tv -> tv -> tv) : res (option concl) :=
  if negb (isJ pA) || negb (isJ pB) then Ok None else
  match a with
  | Stmt ac asubj apred =>
      if copula_eqb ac aCop then
        match b with
        | Stmt bc bsubj bpred =>
            if copula_eqb bc bCop then
              if checkEqTerm (sel asubj apred aSide) (sel bsubj bpred bSide)
                 && negb (checkEqTerm (sel asubj apred (negb aSide)) (sel bsubj bpred (negb bSide)))
              then do v <- tvApp tvFn aTv bTv;
                   Ok (Some (Stmt cCop (sel asubj apred (negb aSide)) (sel bsubj bpred (negb bSide)), v, JUGEMENT))
              else Ok None
            else Ok None
        | _ => Ok None
        end
      else Ok None
  | _ => Ok None
  end.

Definition isInhSim (c : copula) : bool := copula_eqb c INH || copula_eqb c SIM.

(** NarWorkingCycle.rs 383-402 *)
Definition infCompPred (a : term) (pA : punct) (aTv : option tv) (b : term) (pB : punct) (bTv : option tv) : res (option concl) :=
  if negb (isJ pA) || negb (isJ pB) then Ok None else
  match a with
  | Stmt ca asubj apred =>
      if isInhSim ca then
        match b with
        | Stmt cb bsubj bpred =>
            if isInhSim cb then
              if negb (checkEqTerm apred bpred) && checkEqTerm asubj bsubj
              then do v <- tvApp comp aTv bTv; Ok (Some (Stmt SIM apred bpred, v, JUGEMENT))
              else Ok None
            else Ok None
        | _ => Ok None
        end
      else Ok None
  | _ => Ok None
  end.

(** NarWorkingCycle.rs 409-428 *)
Definition infCompSubj (a : term) (pA : punct) (aTv : option tv) (b : term) (pB : punct) (bTv : option tv) : res (option concl) :=
  if negb (isJ pA) || negb (isJ pB) then Ok None else
  match a with
  | Stmt ca asubj apred =>
      if isInhSim ca then
        match b with
        | Stmt cb bsubj bpred =>
            if isInhSim cb then
              if negb (checkEqTerm asubj bsubj) && checkEqTerm apred bpred
              then do v <- tvApp comp aTv bTv; Ok (Some (Stmt SIM asubj bsubj, v, JUGEMENT))
              else Ok None
            else Ok None
        | _ => Ok None
        end
      else Ok None
  | _ => Ok None
  end.

(** NarWorkingCycle.rs 432-453 *)
Definition inf10 (a : term) (pA : punct) (aTv : option tv) (b : term) (pB : punct) (bTv : option tv) : res (option concl) :=
  if negb (isJ pA) || negb (isJ pB) then Ok None else
  match a, b with
  | Stmt INH asubj apred, Stmt INH bsubj bpred =>
      if negb (checkEqTerm apred bpred) && checkEqTerm asubj bsubj
      then do v <- tvApp int aTv bTv; Ok (Some (Stmt INH asubj (ExtInt [apred; bpred]), v, JUGEMENT))
      else Ok None
  | _, _ => Ok None
  end.

(** NarWorkingCycle.rs 457-500 *)
Definition inf3 (a : term) (pA : punct) (aTv : option tv) (b : term) (pB : punct) (bTv : option tv) : res (option concl) :=
  if negb (isJ pA) || negb (isJ pB) then Ok None else
  match a, b with
  | Stmt INH asubj (SetInt apred), Stmt INH bsubj (SetInt bpred) =>
      if checkEqTerm asubj bsubj
      then do v <- tvApp int aTv bTv; Ok (Some (Stmt INH asubj (SetInt (apred ++ bpred)), v, JUGEMENT))
      else Ok None
  | _, _ => Ok None
  end.

(** NarWorkingCycle.rs 504-550: disabled rule. *)
Definition inf4 (a : term) (pA : punct) (aTv : option tv) (b : term) (pB : punct) (bTv : option tv) : res (option concl) :=
  Ok None.

(** NarWorkingCycle.rs 559-601 *)
Definition inf5 (a : term) (pA : punct) (aTv : option tv) (b : term) (pB : punct) (bTv : option tv) (conjIdx : nat) : res (option concl) :=
  if negb (isJ pA) || negb (isJ pB) then Ok None else
  match a with
  | Stmt IMPL (Conj arr) apred =>
      match nth_error arr conjIdx with
      | Some cj =>
          match unify cj b with
          | Some u =>
              let conclConj := map (fun t => unifySubst t u) (remove_at conjIdx arr) in
              let substPred := unifySubst apred u in
              let conclTerm :=
                match conclConj with
                | [x] => Stmt IMPL x substPred
                | _ => Stmt IMPL (Conj conclConj) substPred
                end in
              do v <- tvApp ded aTv bTv; Ok (Some (conclTerm, v, JUGEMENT))
          | None => Ok None
          end
      | None => Ok None
      end
  | _ => Ok None
  end.

(** NarWorkingCycle.rs 609-625 *)
Definition infImplDed (a : term) (pA : punct) (aTv : option tv) (b : term) (pB : punct) (bTv : option tv) : res (option concl) :=
  if negb (isJ pA) || negb (isJ pB) then Ok None else
  match a with
  | Stmt IMPL asubj apred =>
      match unify asubj b with
      | Some u => do v <- tvApp ded aTv bTv; Ok (Some (unifySubst apred u, v, JUGEMENT))
      | None => Ok None
      end
  | _ => Ok None
  end.

(** NarWorkingCycle.rs 632-649 *)
Definition inf7 (a : term) (pA : punct) (aTv : option tv) (b : term) (pB : punct) (bTv : option tv) : res (option concl) :=
  if negb (punct_eqb pA QUESTION) || negb (isJ pB) then Ok None else
  match a with
  | Stmt IMPL _ apred =>
      match unify apred b with
      | Some u => do v <- unwrap bTv; Ok (Some (unifySubst a u, v, JUGEMENT))
      | None => Ok None
      end
  | _ => Ok None
  end.

(** [match rule(..) { Some(x) => { res.push(x); *wereRulesApplied=true; } _ => {} }]
    over a list of rule results; later rules are not evaluated after a panic. *)
Definition pushRules {A} (rules : list (unit -> res (option A))) (st : list A * bool) : res (list A * bool) :=
  rfold (fun st r => do o <- r tt;
           match o with Some x => Ok (fst st ++ [x], true) | None => Ok st end) rules st.

(** NarWorkingCycle.rs 654-737 *)
Definition binaryRules (a : term) (pA : punct) (aTv : option tv) (b : term) (pB : punct) (bTv : option tv) :
    list (unit -> res (option concl)) :=
  [ (fun _ => inf3 a pA aTv b pB bTv);
    (fun _ => inf4 a pA aTv b pB bTv);
    (fun _ => inf5 a pA aTv b pB bTv 0);
    (fun _ => inf5 a pA aTv b pB bTv 1);
    (fun _ => inf5 a pA aTv b pB bTv 2);
    (fun _ => inf5 a pA aTv b pB bTv 3);
    (fun _ => infImplDed a pA aTv b pB bTv);
    (fun _ => inf7 a pA aTv b pB bTv);
    (fun _ => inf10 a pA aTv b pB bTv);
    (fun _ => infCompPred a pA aTv b pB bTv);
    (fun _ => infCompSubj a pA aTv b pB bTv);
    (fun _ => infGeneralizedJudgJudg a pA aTv b pB bTv PREDIMPL PREDIMPL PREDIMPL false true ded);
    (fun _ => infGeneralizedJudgJudg a pA aTv b pB bTv IMPL IMPL IMPL false true ded);
    (fun _ => infGeneralizedJudgJudg a pA aTv b pB bTv INH INH INH false true ded);
    (fun _ => infGeneralizedJudgJudg a pA aTv b pB bTv INH INH INH false false abd);
    (fun _ => infGeneralizedJudgJudg a pA aTv b pB bTv INH INH INH true true ind) ].
Definition infBinaryInner (a : term) (pA : punct) (aTv : option tv) (b : term) (pB : punct) (bTv : option tv)
    (applied : bool) : res (list concl * bool) :=
  pushRules (binaryRules a pA aTv b pB bTv) ([], applied).

(** NarWorkingCycle.rs 740-746. The second call swaps terms and punctuations
    but passes the truth values in the original order, as the source does. *)
Definition infBinary (a : term) (pA : punct) (aTv : option tv) (b : term) (pB : punct) (bTv : option tv) :
    res (list concl * bool) :=
  do r1 <- infBinaryInner a pA aTv b pB bTv false;
  do r2 <- infBinaryInner b pB aTv a pA bTv (snd r1);
  Ok (fst r1 ++ fst r2, snd r2).

(** NarWorkingCycle.rs 748-804 *)
Definition singleRules (a : term) (p : punct) (aTv : option tv) : list (unit -> res (option concl1)) :=
  [ (fun _ => infNeg a p aTv);
    (fun _ => infStructSubj1 a p aTv 0);
    (fun _ => infStructSubj1 a p aTv 1);
    (fun _ => infStructSubj1 a p aTv 2);
    (fun _ => infStructPred1 a p aTv 0);
    (fun _ => infStructPred1 a p aTv 1);
    (fun _ => infStructPred1 a p aTv 2);
    (fun _ => infStructProd0 a p aTv);
    (fun _ => infStructProd1 a p aTv);
    (fun _ => infStructImg0 a p aTv);
    (fun _ => infStructImg1 a p aTv);
    (fun _ => infStructSetInt a p aTv);
    (fun _ => infStructSetExt a p aTv) ].
Definition infSinglePremise (a : term) (p : punct) (aTv : option tv) : res (list concl1) :=
  do r <- pushRules (singleRules a p aTv) ([], false);
  do par <- infStructDecomposePar a p aTv;
  Ok (fst r ++ match par with Some l => l | None => [] end).

(** Allocation of the usage cells of new sentences: the i-th conclusion gets
    address [u + i]. *)
Fixpoint number {A B} (f : A -> nat -> B) (u : nat) (l : list A) : list B :=
  match l with [] => [] | x :: l' => f x u :: number f (S u) l' end.

(** NarWorkingCycle.rs 913-941; [u] is the next free usage cell. *)
Definition inference2 (paTerm : term) (paPunct : punct) (paStamp : stamp) (paTv : option tv)
    (pbTerm : term) (pbPunct : punct) (pbStamp : stamp) (pbTv : option tv) (u : nat) :
    res (list (sentence * f64) * bool) :=
  do r <- infBinary paTerm paPunct paTv pbTerm pbPunct pbTv;
  let cs := number (fun (c : concl) n =>
      match c with (t, v, p) =>
        (mkSentence t None p (merge paStamp pbStamp) None (Some (TV v)) n, f1) end) u (fst r) in
  let cs := if Nat.ltb 0 (length cs) && checkOverlap paStamp pbStamp then [] else cs in
  Ok (cs, snd r).

(** NarWorkingCycle.rs 946-952 *)
Definition inference (pa pb : sentence) (u : nat) : res (list (sentence * f64) * bool) :=
  inference2 (s_term pa) (s_punct pa) (s_stamp pa) (retTv pa)
             (s_term pb) (s_punct pb) (s_stamp pb) (retTv pb) u.

(** NarWorkingCycle.rs 954-973 *)
Definition infSinglePremise2 (pa : sentence) (u : nat) : res (list (sentence * f64)) :=
  do r <- infSinglePremise (s_term pa) (s_punct pa) (retTv pa);
  Ok (number (fun (c : concl1) n =>
      match c with (t, v, p, bias) =>
        (mkSentence t None p (s_stamp pa) None (Some (TV v)) n, bias) end) u r).
