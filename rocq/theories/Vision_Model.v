(** Model of TvVec.rs, ModVisionB.rs (prototypes of truth values) and
    ModVisionD.rs (prototypes of real vectors).

    Simplifications: debug output is left out; the fields [n_quantize] and
    [stimulus_conf] of the classifier B are read by no function of the file and
    are left out; [exp] is an argument. [classify] and [classify_max] are the
    same text in both files (B 158-225, D 52-120) up to the computation of the
    similarity, the revision and the new prototype; these three are arguments of
    one definition. *)
From Coq Require Import List ZArith QArith Bool Lia Floats.SpecFloat.
From Verif Require Import Base F64_Model Tv_Model Map_Model.
Import ListNotations.
Local Open Scope list_scope.

(** * TvVec.rs *)
Section Vec.
  Context {F : Type} (A : arith F).
  (** 4-6 *)
  Definition g_revVec (a b : list (gtv F)) : list (gtv F) := map (fun '(x, y) => g_rev A x y) (combine a b).
  (** 9-15 *)
  Definition g_foldVec (a : list (gtv F)) : gtv F := fold_left (fun r x => g_rev A r x) a (mkTv (A0 A) (A0 A)).
  (** 25-27 *)
  Definition g_compVec (a b : list (gtv F)) : list (gtv F) := map (fun '(x, y) => g_comp A x y) (combine a b).
  (** ModVisionB.rs 141-150: the similarity of one prototype *)
  Definition g_calcSim (stim proto : list (list (gtv F))) : res F :=
    do t <- rfold (fun t i => do s <- idx stim i; do p <- idx proto i; Ok (g_rev A t (g_foldVec (g_compVec s p)))) (seq 0 (length stim)) (mkTv (A0 A) (A0 A));
    Ok (g_calcExp A t).
End Vec.
Definition revVec := g_revVec f64_arith.
Definition foldVec := g_foldVec f64_arith.
Definition compVec := g_compVec f64_arith.

(** * The shared part *)
Section Classify.
  Context {F : Type} (A : arith F).
  (** B 163-173, D 57-67: the loop; the state is (max_sim, max_idx, idx) *)
  Definition maxLoop (sims : list F) (st : F * nat * nat) : F * nat * nat :=
    fold_left (fun '(m, mi, i) v => if Altb A m v then (v, i, S i) else (m, mi, S i)) sims st.
  (** B 158-180, D 52-74 *)
  Definition g_classifyMax (sims : list F) : option (nat * F) :=
    match sims with
    | [] => None
    | _ =>
        let '(m, mi, _) := maxLoop sims (A0 A, O, O) in
        if Altb A m (Ahalf A) then None else Some (mi, m)
    end.
  Context {P St : Type}.
  Variables (sim : St -> P -> res F) (revise : P -> St -> Z -> res P) (fresh : St -> Z -> P).
  (** B 136-156, D 27-50 *)
  Definition g_calcSims (stim : St) (cls : list P) : res (list F) := rmapM (sim stim) cls.
  (** B 187-225, D 81-120; result: the index and the prototypes *)
  Definition g_classify (cls : list P) (stim : St) (now : Z) (add : bool) : res (option nat * list P) :=
    do sims <- g_calcSims stim cls;
    match g_classifyMax sims with
    | Some (i, _) =>
        if add then
          do p <- idx cls i;
          do p' <- revise p stim now;
          Ok (Some i, put i p' cls)
        else Ok (Some i, cls)
    | None =>
        if add then Ok (Some (length cls), cls ++ [fresh stim now])
        else Ok (None, cls)
    end.
End Classify.
Definition classifyMax := g_classifyMax f64_arith.

(** * ModVisionB.rs *)
(** 112-124; the channels of a stimulus have the same type *)
Record protoB (F : Type) := mkPB { pb_ch : list (list (gtv F)); pb_used : Z }.
Arguments mkPB {F} _ _. Arguments pb_ch {F} _. Arguments pb_used {F} _.
Section B.
  Context {F : Type} (A : arith F).
  Definition g_simB (stim : list (list (gtv F))) (p : protoB F) : res F := g_calcSim A stim (pb_ch p).
  (** 201-207 *)
  Definition g_reviseB (p : protoB F) (stim : list (list (gtv F))) (now : Z) : res (protoB F) :=
    do ch <- rfold (fun ch i => do c <- idx ch i; do s <- idx stim i; Ok (put i (g_revVec A c s) ch)) (seq 0 (length (pb_ch p))) (pb_ch p);
    Ok (mkPB ch now).
  (** 216 *)
  Definition g_freshB (stim : list (list (gtv F))) (now : Z) : protoB F := mkPB stim now.
  Definition g_classifyB := g_classify A g_simB g_reviseB g_freshB.
End B.
Definition classifyB := g_classifyB f64_arith.
(** 229-232: [as i64] truncates towards zero, saturates, and takes NaN to 0 *)
Definition f_to_i64 (v : f64) : Z :=
  let clamp z := Z.max (- 2 ^ 63) (Z.min (2 ^ 63 - 1) z) in
  match v with
  | S754_zero _ | S754_nan => 0
  | S754_infinity s => if s then - 2 ^ 63 else 2 ^ 63 - 1
  | S754_finite s m e =>
      let a := match e with Zneg k => Z.shiftr (Zpos m) (Zpos k) | _ => Z.shiftl (Zpos m) e end in
      clamp (if s then - a else a)%Z
  end%Z.
Definition quantisize (v : f64) (n : Z) : Z := f_to_i64 (fmul v (f_of_Z (n - 1))).
(** 234-239: a negative index as usize is out of range *)
Definition convToTvVec (v : f64) (n : Z) (conf : f64) : res (list tv) :=
  let q := quantisize v n in
  do vec <- alloc (mkTv f0 conf) n;
  if (q <? 0)%Z then Panic else
  do _ <- idx vec (Z.to_nat q);
  Ok (put (Z.to_nat q) (mkTv f1 conf) vec).
(** 98-109 *)
Definition convImgToTvVec (m : map2d f64) (n : Z) (conf : f64) : res (list tv) :=
  rfold (fun acc '(iy, ix) => do v <- readAt f0 m iy ix; do t <- convToTvVec v n conf; Ok (acc ++ t)) (grid 0 (m_h m) 0 (m_w m)) [].

(** * ModVisionD.rs *)
(** 5-20 *)
Record protoD := mkPD { pd_ch : list (map2d f64); pd_used : Z; pd_count : Z }.
Section D.
  Variable expf : f64 -> f64.
  (** 32-44 *)
  Definition simD (stim : list (map2d f64)) (p : protoD) : res f64 :=
    do dist <- rfold (fun dist i =>
        do c <- idx (pd_ch p) i;
        do cp <- divScalar c (f_of_Z (pd_count p));
        do s <- idx stim i;
        do df <- msub s cp;
        do cd <- distPow2 df;
        Ok (fadd dist cd)) (seq 0 (length stim)) f0;
    Ok (expf (fmul dist (fneg f05))).
  (** 96-102 *)
  Definition reviseD (p : protoD) (stim : list (map2d f64)) (now : Z) : res protoD :=
    do ch <- rfold (fun ch i => do c <- idx ch i; do s <- idx stim i; do r <- madd c s; Ok (put i r ch)) (seq 0 (length (pd_ch p))) (pd_ch p);
    Ok (mkPD ch now (pd_count p + 1)).
  (** 111 *)
  Definition freshD (stim : list (map2d f64)) (now : Z) : protoD := mkPD stim now 1.
  Definition classifyD := g_classify f64_arith simD reviseD freshD.
End D.
