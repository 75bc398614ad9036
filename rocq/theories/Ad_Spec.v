(** What the theorems about dual numbers say, without the model's formulas. *)
From Coq Require Import ZArith Reals List Bool.
From Verif Require Import Base Ad_Model.
Import ListNotations.
Local Open Scope nat_scope.

(** the dual number [a] is the value and the derivative of [u] at [x] *)
Definition carries (u : R -> R) (x : R) (a : ad R) : Prop :=
  ad_r a = u x /\ derivable_pt_lim u x (ad_d a).

(** the scalar product of two lists of functions, stopping with the second *)
Fixpoint dotFun (us ws : list (R -> R)) (t : R) : R :=
  match us, ws with
  | u :: us', w :: ws' => (u t * w t + dotFun us' ws' t)%R
  | _, _ => 0%R
  end.

Definition logistic (t : R) : R := (/ (1 + exp (- t)))%R.

(** the numbers of one neuron / of the whole network, in order *)
Definition neuronAds {F} (n : neuron F) : list (ad F) := n_weights n ++ [n_bias n].
Definition networkAds {F} (n : network F) : list (ad F) :=
  flat_map neuronAds (layer0 n ++ layer1 n).

(** [l] is a layer of neurons with [k] weights each, whose parameters start at [start] *)
Definition layerOf {F} (times : F -> F -> F) (boost : F) (params : list F) (start k : nat) (act : Z)
           (l : list (neuron F)) : Prop :=
  forall i n, nth_error l i = Some n ->
    n_act n = act /\
    map (@ad_r F) (n_weights n) = firstn k (skipn (start + i * (k + 1)) params) /\
    length (n_weights n) = k /\
    exists b, nth_error params (start + i * (k + 1) + k) = Some b /\ ad_r (n_bias n) = times b boost.

(** how many parameters a network needs *)
Definition paramCount (nInput n0 n1 : nat) : nat := n0 * (nInput + 1) + n1 * (n0 + 1).
