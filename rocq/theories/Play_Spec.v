(** Runs of the program "envPong3". *)
From Coq Require Import String ZArith List.
From Verif Require Import Base F64_Model Term_Model Tv_Spec Proc_Model ProcS_Model ProcX_Model Parser_Model Env_Model Play_Model.
Import ListNotations.
Local Open Scope Z_scope.

(** the numbers drawn: goals lose value with age, the environment draws what it asks for, the
    names of introduced variables can be made *)
Definition fairMove (a : pact) : Prop :=
  match a with
  | AMain _ r d => (forall z, 0 <= z -> unit64 (i_decay r z)) /\ 0 <= d_y d < 10 /\ 0 <= d_x d < 50 /\ 0 <= d_dir d < 2
  | AWork draws => forall d, In d (firstn 24 draws) -> Nat.modulo d 16 <> 15%nat
  end.
(** the states after [n] steps of the two threads *)
Inductive played (pf : text -> option f64) : Z -> prog -> Prop :=
| pl_start : played pf 0 pongStart
| pl_step : forall n q a q', played pf n q -> fairMove a -> progStep pf a q = Ok (Some q') -> played pf (n + 1) q'.
(** the call of an operator without arguments *)
Definition plainCall (name : string) : term := Stmt INH (SetExt [Prod [SetExt [Name "SELF"]]]) (Name name).
