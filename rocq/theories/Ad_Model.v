(** Dual numbers and the small network.
    Models /repo/src/ad.rs (whole file) and /repo/src/Nn.rs (whole file).
    The formulas are written once over an arithmetic (Tv_Model.arith) and an
    exponential, and used with two instances: f64 (bit exact, except that the
    exponential of the platform's libm is an argument) and the real numbers, over
    which derivatives make sense.
    [i64] and [u32] are Z, vectors are lists, a failed index is [Panic]. *)
From Coq Require Import ZArith Reals List Bool.
From Verif Require Import Base F64_Model Tv_Model.
Import ListNotations.
Local Open Scope nat_scope.

(** ad.rs 4-8: value and derivative *)
Record ad (F : Type) := mkAd { ad_r : F; ad_d : F }.
Arguments mkAd {F} _ _. Arguments ad_r {F} _. Arguments ad_d {F} _.

(** ad.rs 55-60 *)
Record neuron (F : Type) := mkNeuron { n_weights : list (ad F); n_bias : ad F; n_act : Z }.
Arguments mkNeuron {F} _ _ _. Arguments n_weights {F} _. Arguments n_bias {F} _. Arguments n_act {F} _.

(** Nn.rs 7-10 *)
Record network (F : Type) := mkNetwork { layer0 : list (neuron F); layer1 : list (neuron F) }.
Arguments mkNetwork {F} _ _. Arguments layer0 {F} _. Arguments layer1 {F} _.

Section Dual.
  Context {F : Type} (A : arith F) (ex : F -> F).
  Notation "x + y" := (Aadd A x y).
  Notation "x - y" := (Asub A x y).
  Notation "x * y" := (Amul A x y).
  Notation "x / y" := (Adiv A x y).

  (** ad.rs 10-12 *)
  Definition ad_add (a b : ad F) : ad F := mkAd (ad_r a + ad_r b) (ad_d a + ad_d b).
  (** ad.rs 14-16 *)
  Definition ad_sub (a b : ad F) : ad F := mkAd (ad_r a - ad_r b) (ad_d a - ad_d b).
  (** ad.rs 18-20 *)
  Definition ad_mul (a b : ad F) : ad F :=
    mkAd (ad_r a * ad_r b) (ad_r a * ad_d b + ad_d a * ad_r b).
  (** ad.rs 22-25 *)
  Definition ad_div (a b : ad F) : ad F :=
    let z := ad_r a * ad_d b + ad_d a * ad_r b in
    mkAd (ad_r a / ad_r b) (z / (ad_r b * ad_r b)).
  (** ad.rs 27-30 *)
  Definition ad_exp (v : ad F) : ad F :=
    let e := ex (ad_r v) in mkAd e (ad_d v * e).

  (** ad.rs 32-38: [v[0]], [w[0]] first, then the indices of [w] from 1 on *)
  Definition ad_dot (v w : list (ad F)) : res (ad F) :=
    do v0 <- idx v 0;
    do w0 <- idx w 0;
    rfold (fun acc i =>
             do vi <- idx v i;
             do wi <- idx w i;
             Ok (ad_add (ad_mul vi wi) acc))
          (seq 1 (length w - 1)) (ad_mul v0 w0).

  (** ad.rs 41-48 *)
  Definition reluAct (v : ad F) : ad F :=
    if Altb A (A0 A) (ad_r v) then mkAd (ad_r v) (ad_d v) else mkAd (A0 A) (A0 A).

  (** ad.rs 50-53 *)
  Definition sigmoidAct (v : ad F) : ad F :=
    let z := ad_exp v in ad_div z (ad_add z (mkAd (A1 A) (A0 A))).

  (** ad.rs 63-67 *)
  Definition calc (inAct : list (ad F)) (n : neuron F) : res (ad F) :=
    do s <- ad_dot inAct (n_weights n);
    let act := ad_add s (n_bias n) in
    Ok (if Z.eqb (n_act n) 0 then reluAct act else sigmoidAct act).

  (** Nn.rs 25, 27 and the like: [params[*paramsIdx as usize]]; a negative index
      becomes a huge one, which is out of bounds *)
  Definition param (params : list F) (i : Z) : res F :=
    if (i <? 0)%Z then Panic else idx params (Z.to_nat i).

  (** Nn.rs 26, 32, 43, 49: the mark of the parameter to differentiate by *)
  Definition mark (diffIdx : option nat) (i : Z) : F :=
    match diffIdx with
    | Some k => if Z.eqb (Z.of_nat k) i then A1 A else A0 A
    | None => A0 A
    end.

  (** Nn.rs 22-36 and 39-53 without the outer loop: one neuron with [n] weights read
      from the running index; the bias is multiplied by [boost] *)
  Definition buildNeuron (boost : F) (params : list F) (n : Z) (act : Z) (diffIdx : option nat)
             (paramsIdx : Z) : res (neuron F * Z) :=
    do '(weights, i) <-
      rfold (fun '(ws, i) (_ : nat) =>
               do v <- param params i;
               Ok (ws ++ [mkAd v (mark diffIdx i)], (i + 1)%Z))
            (seq 0 (Z.to_nat n)) ([], paramsIdx);
    do b <- param params i;
    Ok (mkNeuron weights (mkAd (b * boost) (mark diffIdx i)) act, (i + 1)%Z).

  (** the outer loops Nn.rs 22, 39 *)
  Definition buildLayer (boost : F) (params : list F) (nNeurons n : Z) (act : Z) (diffIdx : option nat)
             (paramsIdx : Z) : res (list (neuron F) * Z) :=
    rfold (fun '(ns, i) (_ : nat) =>
             do '(x, i') <- buildNeuron boost params n act diffIdx i;
             Ok (ns ++ [x], i'))
          (seq 0 (Z.to_nat nNeurons)) ([], paramsIdx).

  (** Nn.rs 14-56; [c15] and [c8] are the constants 15.0 and 8.0 of the arithmetic.
      The second component is the advanced [paramsIdx]. *)
  Definition buildNn (c15 c8 : F) (paramsIdx : Z) (params : list F) (nInput : Z) (act0 : Z)
             (nNeuronsLayer0 nNeuronsLayer1 : Z) (diffIdx : option nat) : res (network F * Z) :=
    do '(l0, i0) <- buildLayer c15 params nNeuronsLayer0 nInput act0 diffIdx paramsIdx;
    do '(l1, i1) <- buildLayer c8 params nNeuronsLayer1 nNeuronsLayer0 1 diffIdx i0;
    Ok (mkNetwork l0 l1, i1).
End Dual.

(** the two instances *)
Definition R_arith : arith R :=
  mkArith R 0%R 1%R (/2)%R 0%R Rplus Rminus Rmult Rdiv Rabs
          (fun x y => if Rlt_dec x y then true else false)
          (fun x y => if Rle_dec x y then true else false).

Definition buildNn64 := buildNn f64_arith (f_of_Z 15) (f_of_Z 8).
Definition buildNnR := buildNn R_arith 15%R 8%R.

(** mlutils.rs 3-9: the elements of [a] with [b] scaled added; [b[idx]] panics when
    [b] is shorter *)
Definition vecAddScale (a b : list f64) (w : f64) : res (list f64) :=
  rmapM (fun i => do x <- idx a i; do y <- idx b i; Ok (fadd x (fmul y w))) (seq 0 (length a)).
(** mlutils.rs 11-17 *)
Definition vecAdd (a b : list f64) : res (list f64) :=
  rmapM (fun i => do x <- idx a i; do y <- idx b i; Ok (fadd x y)) (seq 0 (length a)).
(** mlutils.rs 19-25 *)
Definition vecScale (a : list f64) (w : f64) : res (list f64) :=
  rmapM (fun i => do x <- idx a i; Ok (fmul x w)) (seq 0 (length a)).
(** mlutils.rs 38-44 *)
Definition vecDot (a b : list f64) : res f64 :=
  rfold (fun acc i => do x <- idx a i; do y <- idx b i; Ok (fadd acc (fmul x y)))
        (seq 0 (length a)) f0.
