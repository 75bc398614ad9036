(** Rust [f64] modelled bit-exactly: IEEE-754 binary64 with round to nearest,
    ties to even, as specified by the standard library's [SpecFloat].
    Simplification: all NaN payloads are one NaN. *)
From Coq Require Import ZArith Bool List.
From Coq Require Import Floats.SpecFloat.
From Verif Require Import Base.
Import ListNotations.
Local Open Scope Z_scope.

Definition f64 := spec_float.
Definition fprec : Z := 53.
Definition femax : Z := 1024.

Definition fadd : f64 -> f64 -> f64 := SFadd fprec femax.
Definition fsub : f64 -> f64 -> f64 := SFsub fprec femax.
Definition fmul : f64 -> f64 -> f64 := SFmul fprec femax.
Definition fdiv : f64 -> f64 -> f64 := SFdiv fprec femax.
Definition fneg : f64 -> f64 := SFopp.
Definition fabs : f64 -> f64 := SFabs.

(** Rust comparison operators: all false when a NaN is involved. *)
Definition fltb (a b : f64) : bool := SFltb a b.
Definition fleb (a b : f64) : bool := SFleb a b.
Definition fgtb (a b : f64) : bool := SFltb b a.
Definition fgeb (a b : f64) : bool := SFleb b a.
Definition fis_nan (a : f64) : bool :=
  match a with S754_nan => true | _ => false end.

(** [x as f64] for an integer (rounds to nearest even). *)
Definition f_of_Z (z : Z) : f64 := binary_normalize fprec femax z 0 false.

(** A decimal literal n/d: the correctly rounded quotient. [n] and [d] may be
    arbitrarily large, because [SFdiv] divides exactly before rounding. *)
Definition f_frac (n d : positive) : f64 :=
  fdiv (S754_finite false n 0) (S754_finite false d 0).

Definition f0 : f64 := S754_zero false.
Definition f1 : f64 := f_of_Z 1.
Definition f05 : f64 := f_frac 1 2.

(** [f64::max]: the other operand if one is NaN. *)
Definition fmax (a b : f64) : f64 :=
  if fis_nan a then b else if fis_nan b then a else if fltb a b then b else a.

(** [iter().sum()] over f64: left fold from -0.0 in recent Rust, 0.0 in older
    versions; both give the same value up to the sign of zero. The model starts
    from 0.0. *)
Definition fsum (l : list f64) : f64 := fold_left fadd l f0.

(** Descending stable sort by an f64 key as written all over the source:
    [sort_by(|a,b| key(b).partial_cmp(key(a)).unwrap())]. With at least two
    elements every element takes part in some comparison, so a NaN key panics. *)
Definition fsort_desc {A} (key : A -> f64) (l : list A) : res (list A) :=
  if (2 <=? Z.of_nat (length l)) && existsb (fun a => fis_nan (key a)) l
  then Panic
  else Ok (sort_by (fun a b => fgtb (key a) (key b)) l).

#[global] Arguments fadd : simpl never.
#[global] Arguments fsub : simpl never.
#[global] Arguments fmul : simpl never.
#[global] Arguments fdiv : simpl never.
#[global] Arguments f_of_Z : simpl never.
#[global] Arguments fltb : simpl never.
#[global] Arguments fleb : simpl never.
#[global] Arguments fgtb : simpl never.
#[global] Arguments fgeb : simpl never.
