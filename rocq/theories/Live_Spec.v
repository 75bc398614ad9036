(** What the procedural reasoner lived through, and what that justifies. *)
From Coq Require Import String ZArith Bool List Permutation.
From Verif Require Import Base F64_Model Term_Model Term_Spec Unify_Model Unify_Spec Stamp_Model Tv_Model Sentence_Model Mem_Model PMem_Model Goal_Model Goal_Spec
  Proc_Model Proc_Spec ProcS_Model ProcX_Model Parser_Model Nar_Model.
Import ListNotations.
Local Open Scope list_scope.
Local Open Scope Z_scope.

(** something worth remembering: an event, a temporal belief or a goal was typed in; a
    random operation was carried out; the operation goal [g] was carried out *)
Inductive happening := LEvent (e : event) | LBelief (s : sentence) | LGoal (s : sentence) | LBabble (t : term) (evs : list event) | LAct (g : sentence) (evs : list event).
(** the events, in order *)
Definition eventsIn (H : list happening) : list event :=
  flat_map (fun x => match x with LEvent e => [e] | LBabble _ evs => evs | LAct _ evs => evs | _ => [] end) H.

(** evidence: a belief that was typed in, or an observation of events that happened *)
Definition source (ops : list op) (tab : list Z) (H : list happening) (o : sentence) : Prop :=
  In (LBelief o) H \/
  exists pre tr post ops0, eventsIn H = pre ++ tr ++ post /\ (forall x, In x ops0 -> In x ops) /\ observation ops0 tab tr o.
(** [s] says what [o] says, or the same with a variable for the subject of the condition *)
Definition general (o s : sentence) : Prop :=
  s_term s = s_term o \/
  exists subj prop opT e x, s_term o = Stmt PREDIMPL (Seq [Stmt INH subj (SetInt prop); opT]) e /\
    (~ occurs (IndepVar x) (s_term o) -> replVar (IndepVar x) subj (s_term s) = s_term o).
Definition posOf (s : sentence) : Z := match s_evi s with Some (CNT p _) => p | _ => 0 end.
Definition cntOf (s : sentence) : Z := match s_evi s with Some (CNT _ c) => c | _ => 0 end.
Definition total (f : sentence -> Z) (l : list sentence) : Z := fold_right (fun s n => f s + n) 0 l.
(** no evidence id belongs to two of them *)
Fixpoint apart (l : list sentence) : Prop :=
  match l with
  | [] => True
  | s :: l' => (forall x i, In x l' -> In i (s_stamp s) -> ~ In i (s_stamp x)) /\ apart l'
  end.
(** the belief [s] rests on [o], where it comes from, on the further evidence [os] for
    the same, and on [k] predictions that were not fulfilled. As long as the stamp has
    room for all of it, nothing was counted twice. *)
Definition restsOn (s o : sentence) (os : list sentence) (k : Z) : Prop :=
  general o s /\ s_expDt s = s_expDt o /\ s_punct s = JUGEMENT /\ 0 <= k /\
  (forall x, In x os -> s_term x = s_term s /\ exists d1 d2, s_expDt s = Some d1 /\ s_expDt x = Some d2 /\ d2 <= d1) /\
  s_evi s = Some (CNT (total posOf (o :: os)) (total cntOf (o :: os) + k)) /\
  (forall i, In i (s_stamp s) -> exists x, In x (o :: os) /\ In i (s_stamp x)) /\
  ((length (concat (map s_stamp (o :: os))) <= 120)%nat ->
    Permutation (s_stamp s) (concat (map s_stamp (o :: os))) /\ apart (o :: os)).
Definition learned (ops : list op) (tab : list Z) (H : list happening) (s : sentence) : Prop :=
  exists o os k, restsOn s o os k /\ source ops tab H o /\ forall x, In x os -> source ops tab H x.

(** one thing leads to another by beliefs of [L] *)
Inductive leads (L : sentence -> Prop) : term -> term -> Prop :=
| ld_here : forall p, leads L p p
| ld_more : forall p q b rest p', leads L p q -> L b -> s_term b = Stmt PREDIMPL (Seq (q :: rest)) p' -> leads L p p'.
(** doing [t] is what is left to do of [q] *)
Definition toDo (q t : term) : Prop :=
  q = t \/ (opTerm t /\ exists pre, q = Seq (pre ++ [t]) \/ exists asg, unifySubst q asg = Seq (pre ++ [t])).
(** what is wanted, given the beliefs [L] and the goals [G] that were typed in: these
    goals, their subgoals, and operations that some belief says lead to what is wanted *)
Inductive wanted (L G : sentence -> Prop) : sentence -> Prop :=
| wt_typed : forall g, G g -> wanted L G g
| wt_sub : forall g ev c, wanted L G g -> goalStep (fun _ b => L b) g ev c -> wanted L G c
| wt_do : forall g b q p v c, wanted L G g -> L b -> s_term b = Stmt PREDIMPL q p -> leads L p (s_term g) -> toDo q (s_term c) ->
    retTv b = Some v -> isGoal c (s_term c) v (s_stamp b) -> wanted L G c.
(** there is a reason to do [t]: a belief that something wanted comes from it *)
Definition reason (L G : sentence -> Prop) (t : term) (b : sentence) : Prop :=
  L b /\ exists g q p, s_term b = Stmt PREDIMPL q p /\ toDo q t /\ leads L p (s_term g) /\ wanted L G g.

(** the operation [t], carried out at time [now], gives the events [evs] *)
Definition doneAt (ops : list op) (now : Z) (t : term) (evs : list event) : Prop :=
  exists args name, opCall t args name /\
    (evs = [] \/ exists o inj rels, firstNamed ops name o /\ performs ops t inj rels /\ evs = map (fun e => mkEvent e now now) (inj ++ [t])).

Definition typedGoal (H : list happening) (g : sentence) : Prop := In (LGoal g) H.
(** [x] happened after [H] for a reason that can be given: events are dated; beliefs that
    are typed in have ten units of evidence; random operations are allowed to be tried;
    everything else that is done is wanted, and there is a reason to do it *)
Definition accounted (ops : list op) (tab : list Z) (H : list happening) (x : happening) : Prop :=
  match x with
  | LEvent e => ev_evi e = ev_occ e
  | LBelief s => exists t id u, s = userBelief t id u
  | LGoal g => s_punct g = GOAL
  | LBabble t evs => exists o ops0 now, In o ops /\ op_babble o = true /\ t = Stmt INH (SetExt [Prod [SetExt [Name "SELF"%string]]]) (Name (op_name o)) /\
      (forall o', In o' ops0 -> In o' ops) /\ doneAt ops0 now t evs
  | LAct g evs => wanted (learned ops tab H) (typedGoal H) g /\ (exists b, reason (learned ops tab H) (typedGoal H) (s_term g) b) /\
      exists ops0 now, (forall o', In o' ops0 -> In o' ops) /\ doneAt ops0 now (s_term g) evs
  end.

(** a life: what happened and the state it led to. Operations can be registered and
    babbling be switched on and off in between. *)
Inductive lived : list happening -> psys -> Prop :=
| lv_start : forall cfg ops tab nMax depth, (1 <= c_nOpsMax cfg)%nat ->
    lived [] (ystart (mkPnar cfg ops tab 0 [] [] pmemMake (makeGoalSystem nMax depth)))
| lv_event : forall us H y e y', lived H y -> yact us y (XEvent e) = Ok (Some y') -> lived (H ++ [LEvent (mkEvent e (n_t (y_nar y)) (n_t (y_nar y)))]) y'
| lv_goal : forall us H y s y', lived H y -> yact us y (XGoal s) = Ok (Some y') -> lived (H ++ [LGoal s]) y'
| lv_belief : forall us H y t id u draws y', lived H y -> yact us y (XBelief t id u draws) = Ok (Some y') -> lived (H ++ [LBelief (userBelief t id u)]) y'
| lv_idle : forall us H y decl r y', lived H y -> yact us y (XStep1 decl r) = Ok (Some y') ->
    n_trace (y_nar y') = lastEvents 20 (n_trace (y_nar y)) -> lived H y'
| lv_babble : forall us H y decl r y' o evs, lived H y -> yact us y (XStep1 decl r) = Ok (Some y') ->
    c_babble (n_cfg (y_nar y)) = true -> In o (n_ops (y_nar y)) -> op_babble o = true ->
    let t := Stmt INH (SetExt [Prod [SetExt [Name "SELF"%string]]]) (Name (op_name o)) in
    doneAt (n_ops (y_nar y)) (n_t (y_nar y)) t evs -> n_trace (y_nar y') = lastEvents 20 (n_trace (y_nar y) ++ evs) ->
    lived (H ++ [LBabble t evs]) y'
| lv_act : forall us H y decl r y' g evs, lived H y -> yact us y (XStep1 decl r) = Ok (Some y') ->
    (exists e a x, g = e_sentence e /\ e_evi e = Some a /\ motivated (y_nar y) e a /\ eligible (c_thresh (n_cfg (y_nar y))) e x) ->
    doneAt (n_ops (y_nar y)) (n_t (y_nar y)) (s_term g) evs -> n_trace (y_nar y') = lastEvents 20 (n_trace (y_nar y) ++ evs) ->
    lived (H ++ [LAct g evs]) y'
| lv_else : forall us H y a y', lived H y -> yact us y a = Ok (Some y') ->
    match a with XStep0 | XMain _ _ | XWork _ => True | _ => False end -> lived H y'
| lv_op : forall H n p c w o, lived H (mkPsys n p c w) -> lived H (mkPsys (setOps n (n_ops n ++ [o])) p c w)
| lv_mode : forall H n p c w b, lived H (mkPsys n p c w) -> lived H (mkPsys (setBabble n b) p c w).
