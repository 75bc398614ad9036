(** Proofs for Map_Model. *)
From Coq Require Import List ZArith Bool Lia Floats.SpecFloat.
From Verif Require Import Base F64_Model Map_Model Map_Spec.
Import ListNotations.
Local Open Scope list_scope.
Local Open Scope Z_scope.

(** * Ranges *)
Lemma zrange_in : forall lo hi x, In x (zrange lo hi) <-> lo <= x < hi.
Proof.
  intros lo hi x. unfold zrange. rewrite in_map_iff. split.
  - intros (k & <- & Hk). apply in_seq in Hk. lia.
  - intros H. exists (Z.to_nat (x - lo)). split; [lia|]. apply in_seq. lia.
Qed.
Lemma grid_in : forall y0 y1 x0 x1 y x, In (y, x) (grid y0 y1 x0 x1) <-> y0 <= y < y1 /\ x0 <= x < x1.
Proof.
  intros y0 y1 x0 x1 y x. unfold grid. rewrite in_flat_map. split.
  - intros (y' & Hy & H). apply in_map_iff in H. destruct H as (x' & E & Hx). injection E as -> ->. rewrite zrange_in in *. lia.
  - intros (Hy & Hx). exists y. rewrite zrange_in. split; [lia|]. apply in_map_iff. exists x. rewrite zrange_in. auto.
Qed.
Lemma inb_iff : forall T (m : map2d T) y x, inb m y x = true <-> within m y x.
Proof. intros T m y x. unfold inb, within. rewrite !andb_true_iff, !Z.leb_le, !Z.ltb_lt. lia. Qed.
Lemma outside : forall T (m : map2d T) y x, ((y <? 0) || (x <? 0) || (x >=? m_w m) || (y >=? m_h m)) = negb (inb m y x).
Proof.
  intros T m y x. unfold inb. rewrite !Z.geb_leb. destruct (Z.ltb_spec y 0), (Z.ltb_spec x 0), (Z.leb_spec (m_w m) x), (Z.leb_spec (m_h m) y),
    (Z.leb_spec 0 y), (Z.ltb_spec y (m_h m)), (Z.leb_spec 0 x), (Z.ltb_spec x (m_w m)); cbn; auto; lia.
Qed.
Lemma cell_lt : forall T (m : map2d T) y x, wfMap m -> within m y x -> (Z.to_nat (y * m_w m + x) < length (m_arr m))%nat.
Proof. intros T m y x (W & H & L) (Hy & Hx). nia. Qed.
Lemma put_length : forall A i (x : A) l, length (put i x l) = length l.
Proof. intros A i x l. revert i. induction l as [|a l IH]; intros [|i]; cbn; auto. Qed.
Lemma put_nth : forall A i j (x d : A) l, (i < length l)%nat -> nth j (put i x l) d = if Nat.eqb j i then x else nth j l d.
Proof.
  intros A i j x d l. revert i j. induction l as [|a l IH]; intros [|i] [|j] H; cbn in *; auto; try lia. apply IH. lia.
Qed.

Definition posDec (a b : Z * Z) : {a = b} + {a <> b}.
Proof. decide equality; apply Z.eq_dec. Defined.

Section Access.
  Context {T : Type} (d : T).
  Theorem read_spec : forall m y x, wfMap m -> readAt d m y x = Ok (val d m y x).
  Proof.
    intros m y x W. unfold readAt, val. rewrite outside. destruct (inb m y x) eqn:I; cbn [negb]; auto. apply inb_iff in I. unfold idx.
    rewrite (nth_error_nth' _ d (cell_lt _ _ _ _ W I)). reflexivity.
  Qed.
  Theorem write_spec : forall m y x v, wfMap m -> exists m', writeAt m y x v = Ok m' /\ sameSize m m' /\
    forall y' x', val d m' y' x' = if (y' =? y) && (x' =? x) && inb m y x then v else val d m y' x'.
  Proof.
    intros m y x v W. unfold writeAt. rewrite outside. destruct (inb m y x) eqn:I; cbn [negb].
    - assert (Wi := proj1 (inb_iff _ _ _ _) I). assert (L := cell_lt _ _ _ _ W Wi). unfold idx. rewrite (nth_error_nth' _ d L). cbn [unwrap rbind]. eexists. split; [reflexivity|].
      split; [repeat split; cbn [m_w m_h m_arr]; try apply W; rewrite put_length; apply W|]. intros y' x'. unfold val, inb. cbn [m_w m_h m_arr].
      rewrite put_nth by auto. fold (inb m y' x'). destruct (inb m y' x') eqn:I'.
      + apply inb_iff in I'. destruct Wi as (Wy & Wx), I' as (Wy' & Wx'). destruct (Nat.eqb_spec (Z.to_nat (y' * m_w m + x')) (Z.to_nat (y * m_w m + x))) as [E|E].
        * assert (Q : y' * m_w m + x' = y * m_w m + x) by nia. assert (Ey : y' = y) by nia. assert (Ex : x' = x) by (subst; lia). subst y' x'. rewrite !Z.eqb_refl. reflexivity.
        * destruct (Z.eqb_spec y' y), (Z.eqb_spec x' x); cbn; auto. subst. contradiction.
      + destruct (Z.eqb_spec y' y), (Z.eqb_spec x' x); cbn; auto. subst. congruence.
    - eexists. split; [reflexivity|]. split; [repeat split; apply W|]. intros y' x'. rewrite andb_false_r. reflexivity.
  Qed.
  (** writing a list of positions *)
  Lemma writes_spec : forall oy ox c (g : Z -> Z -> T) l m, wfMap m ->
    exists m', rfold (fun r '(y, x) => if c y x : bool then writeAt r (oy + y) (ox + x) (g y x) else Ok r) l m = Ok m' /\ sameSize m m' /\
      forall y x, val d m' y x = if inb m y x && c (y - oy) (x - ox) && (if in_dec posDec (y - oy, x - ox) l then true else false)
        then g (y - oy) (x - ox) else val d m y x.
  Proof.
    intros oy ox c g. induction l as [|[a b] l IH]; intros m W; cbn [rfold].
    - exists m. split; auto. split; [repeat split; apply W|]. intros y x. destruct (in_dec _ _ _) as [[]|_]. rewrite andb_false_r. reflexivity.
    - destruct (c a b) eqn:C.
      + destruct (write_spec m (oy + a) (ox + b) (g a b) W) as (m1 & E & S & V). rewrite E. cbn [rbind]. destruct (IH m1 (proj2 (proj2 S))) as (m' & E' & S' & V'). exists m'. split; auto.
        split; [destruct S as (S1 & S2 & _), S' as (S3 & S4 & S5); repeat split; try congruence; apply S5|].
        intros y x. rewrite V', V. assert (In1 : inb m1 y x = inb m y x) by (unfold inb; destruct S as (-> & -> & _); reflexivity). rewrite In1.
        destruct (inb m y x) eqn:I; cbn [andb].
        * destruct (c (y - oy) (x - ox)) eqn:C2; cbn [andb].
          { destruct (in_dec _ (y - oy, x - ox) l) as [H|H]; destruct (in_dec _ (y - oy, x - ox) ((a, b) :: l)) as [H'|H']; auto.
            - destruct H'. now right.
            - destruct H' as [H'|H']; [|contradiction]. injection H' as -> ->. replace (oy + (y - oy)) with y by lia. replace (ox + (x - ox)) with x by lia. rewrite !Z.eqb_refl, I. reflexivity.
            - destruct (Z.eqb_spec y (oy + a)), (Z.eqb_spec x (ox + b)); cbn; auto. destruct H'. left. f_equal; lia. }
          destruct (Z.eqb_spec y (oy + a)), (Z.eqb_spec x (ox + b)); cbn; auto. subst. replace (oy + a - oy) with a in C2 by lia. replace (ox + b - ox) with b in C2 by lia. congruence.
        * destruct (Z.eqb_spec y (oy + a)), (Z.eqb_spec x (ox + b)); cbn; auto. subst. rewrite I. reflexivity.
      + cbn [rbind]. destruct (IH m W) as (m' & E' & S' & V'). exists m'. split; auto. split; auto. intros y x. rewrite V'.
        destruct (inb m y x); cbn [andb]; auto. destruct (c (y - oy) (x - ox)) eqn:C2; cbn [andb]; auto.
        destruct (in_dec _ (y - oy, x - ox) l) as [H|H]; destruct (in_dec _ (y - oy, x - ox) ((a, b) :: l)) as [H'|H']; auto; [destruct H'; now right|].
        destruct H' as [H'|H']; [|contradiction]. injection H' as -> ->. congruence.
  Qed.
  Lemma grid_dec : forall y0 y1 x0 x1 y x, (if in_dec posDec (y, x) (grid y0 y1 x0 x1) then true else false) = inR y0 y1 x0 x1 y x.
  Proof.
    intros y0 y1 x0 x1 y x. unfold inR. destruct (in_dec _ _ _) as [H|H].
    - apply grid_in in H. symmetry. rewrite !andb_true_iff, !Z.leb_le, !Z.ltb_lt. lia.
    - symmetry. apply not_true_iff_false. rewrite !andb_true_iff, !Z.leb_le, !Z.ltb_lt. intros K. apply H, grid_in. lia.
  Qed.
  Lemma rfold_ext : forall A S (f g : S -> A -> res S) l s, (forall s a, In a l -> f s a = g s a) -> rfold f l s = rfold g l s.
  Proof.
    intros A S f g l. induction l as [|a l IH]; intros s H; cbn [rfold]; auto. rewrite (H s a (or_introl eq_refl)). destruct (g s a) as [s'|]; cbn [rbind]; auto. apply IH. intros s0 b Hb. apply H. now right.
  Qed.
  Lemma fill_spec : forall oy ox y0 y1 x0 x1 c (g : Z -> Z -> T) (f : map2d T -> Z * Z -> res (map2d T)) m, wfMap m ->
    (forall r y x, y0 <= y < y1 -> x0 <= x < x1 -> f r (y, x) = if c y x : bool then writeAt r (oy + y) (ox + x) (g y x) else Ok r) ->
    exists m', rfold f (grid y0 y1 x0 x1) m = Ok m' /\ sameSize m m' /\
      forall y x, val d m' y x = if inb m y x && c (y - oy) (x - ox) && inR y0 y1 x0 x1 (y - oy) (x - ox) then g (y - oy) (x - ox) else val d m y x.
  Proof.
    intros oy ox y0 y1 x0 x1 c g f m W F. destruct (writes_spec oy ox c g (grid y0 y1 x0 x1) m W) as (m' & E & S & V). exists m'. split.
    - rewrite <- E. apply rfold_ext. intros r [y x] H. apply grid_in in H. apply F; lia.
    - split; auto. intros y x. rewrite V, grid_dec. reflexivity.
  Qed.
  Lemma repeat_wf : forall w h, 0 <= w -> 0 <= h -> wfMap (mkMap (repeat d (Z.to_nat (w * h))) w h).
  Proof. intros w h W H. repeat split; cbn; auto. rewrite repeat_length. nia. Qed.
  Lemma repeat_val : forall w h y x, val d (mkMap (repeat d (Z.to_nat (w * h))) w h) y x = d.
  Proof. intros w h y x. unfold val. destruct (inb _ y x); auto. cbn [m_arr]. apply nth_repeat. Qed.
  Theorem crop_spec : forall m x y sx sy, wfMap m -> 0 <= sx -> 0 <= sy -> exists c, crop d m x y sx sy = Ok c /\ m_w c = sx /\ m_h c = sy /\ wfMap c /\
    forall iy ix, val d c iy ix = if inR 0 sy 0 sx iy ix then val d m (y + iy) (x + ix) else d.
  Proof.
    intros m x y sx sy W Hx Hy. unfold crop, alloc. destruct (Z.ltb_spec (sx * sy) 0); [nia|]. cbn [rbind].
    destruct (fill_spec 0 0 0 sy 0 sx (fun _ _ => true) (fun iy ix => val d m (y + iy) (x + ix)) (fun r '(iy, ix) => do v <- readAt d m (y + iy) (x + ix); writeAt r iy ix v) _ (repeat_wf _ _ Hx Hy)) as (c & E & (S1 & S2 & S3) & V).
    { intros r a b _ _. rewrite read_spec by auto. cbn [rbind]. reflexivity. }
    cbn [m_w m_h] in S1, S2. exists c. split; auto. split; auto. split; auto. split; auto. intros iy ix. rewrite V, repeat_val, !Z.sub_0_r. rewrite andb_true_r.
    unfold inb. cbn [m_w m_h]. fold (inR 0 sy 0 sx iy ix). destruct (inR 0 sy 0 sx iy ix); reflexivity.
  Qed.
  Theorem crop_panic : forall m x y sx sy, wfMap m -> (crop d m x y sx sy = Panic <-> sx * sy < 0).
  Proof.
    intros m x y sx sy W. unfold crop, alloc. destruct (Z.ltb_spec (sx * sy) 0) as [L|L]; cbn [rbind]; [tauto|]. split; [|lia].
    destruct (Z_le_gt_dec 0 sx) as [Hx|Hx].
    - destruct (Z_le_gt_dec 0 sy) as [Hy|Hy].
      + destruct (crop_spec m x y sx sy W Hx Hy) as (c & E & _). unfold crop, alloc in E. destruct (Z.ltb_spec (sx * sy) 0); [lia|]. cbn [rbind] in E. rewrite E. discriminate.
      + unfold grid. replace (zrange 0 sy) with (@nil Z); [discriminate|]. unfold zrange. replace (Z.to_nat (sy - 0)) with 0%nat by lia. reflexivity.
    - assert (E : grid 0 sy 0 sx = []).
      { unfold grid. replace (zrange 0 sx) with (@nil Z); [|unfold zrange; replace (Z.to_nat (sx - 0)) with 0%nat by lia; reflexivity]. induction (zrange 0 sy); auto. }
      rewrite E. discriminate.
  Qed.
  Theorem box_spec : forall m cx cy w h v, wfMap m -> exists m', drawBox m cx cy w h v = Ok m' /\ sameSize m m' /\
    forall y x, val d m' y x = if inb m y x && inR cy (cy + h) cx (cx + w) y x then v else val d m y x.
  Proof.
    intros m cx cy w h v W. destruct (fill_spec cy cx 0 h 0 w (fun _ _ => true) (fun _ _ => v) (fun r '(iy, ix) => writeAt r (cy + iy) (cx + ix) v) m W) as (m' & E & S & V); [reflexivity|].
    exists m'. split; auto. split; auto. intros y x. rewrite V, andb_true_r. replace (inR 0 h 0 w (y - cy) (x - cx)) with (inR cy (cy + h) cx (cx + w) y x); auto.
    unfold inR. f_equal; [f_equal; [f_equal|]|]; try apply eq_true_iff_eq; rewrite ?Z.leb_le, ?Z.ltb_lt; lia.
  Qed.
  Theorem circle_spec : forall m cx cy r v, wfMap m -> exists m', drawCircle m cx cy r v = Ok m' /\ sameSize m m' /\
    forall y x, val d m' y x = if inb m y x && ((x - cx) * (x - cx) + (y - cy) * (y - cy) <=? r) then v else val d m y x.
  Proof.
    intros m cx cy r v W. destruct (fill_spec cy cx (- (r + 1)) (r + 1) (- (r + 1)) (r + 1) (fun iy ix => ix * ix + iy * iy <=? r) (fun _ _ => v)
      (fun a '(iy, ix) => if ix * ix + iy * iy <=? r then writeAt a (cy + iy) (cx + ix) v else Ok a) m W) as (m' & E & S & V); [reflexivity|].
    exists m'. split; auto. split; auto. intros y x. rewrite V. destruct (inb m y x); cbn [andb]; auto. destruct (Z.leb_spec ((x - cx) * (x - cx) + (y - cy) * (y - cy)) r); cbn [andb]; auto.
    assert (K : inR (- (r + 1)) (r + 1) (- (r + 1)) (r + 1) (y - cy) (x - cx) = true); [|rewrite K; reflexivity].
    assert (A : forall z, z <= z * z /\ - z <= z * z /\ 0 <= z * z) by (intros z; nia). assert (A1 := A (x - cx)). assert (A2 := A (y - cy)).
    unfold inR. rewrite !andb_true_iff, !Z.leb_le, !Z.ltb_lt. lia.
  Qed.
  Theorem line_spec : forall m ax ay bx by_ v, wfMap m -> exists m', drawLine m ax ay bx by_ v = Ok m' /\ sameSize m m' /\
    forall y x, val d m' y x = if inb m y x && onLine ax ay bx by_ y x then v else val d m y x.
  Proof.
    intros m ax ay bx by_ v W. destruct (fill_spec 0 0 0 (m_h m) 0 (m_w m) (fun iy ix => onLine ax ay bx by_ iy ix) (fun _ _ => v)
      (fun a '(iy, ix) => if onLine ax ay bx by_ iy ix then writeAt a iy ix v else Ok a) m W) as (m' & E & S & V); [reflexivity|].
    exists m'. split; auto. split; auto. intros y x. rewrite V, !Z.sub_0_r. unfold inb, inR. destruct ((0 <=? y) && (y <? m_h m) && (0 <=? x) && (x <? m_w m)); cbn [andb]; [rewrite andb_true_r|]; reflexivity.
  Qed.
End Access.

(** * The line from a point to itself *)
Lemma fsub_self : forall x, match fsub x x with S754_zero _ | S754_nan => True | _ => False end.
Proof.
  intros [s|s| |s m e]; unfold fsub; cbn [SFsub]; try (destruct s; exact I); auto. rewrite Z.sub_diag. exact I.
Qed.
Lemma point_off : forall a b iy ix, onLine a b a b iy ix = false.
Proof.
  intros a b iy ix. unfold onLine. assert (A := fsub_self (f_of_Z a)). assert (B := fsub_self (f_of_Z b)).
  set (dx := fsub (f_of_Z a) (f_of_Z a)) in *. set (dy := fsub (f_of_Z b) (f_of_Z b)) in *.
  assert (N : fdiv dx (fsqrt (fadd (fmul dx dx) (fmul dy dy))) = S754_nan).
  { destruct dx as [s|s| |s m e]; try contradiction; destruct dy as [s'|s'| |s' m' e']; try contradiction; try destruct s; try destruct s'; reflexivity. }
  rewrite N. assert (M : forall x y, fadd (fmul x S754_nan) y = S754_nan) by (intros [?|?| |? ? ?] y; reflexivity). rewrite M. reflexivity.
Qed.

Theorem point_spec : forall T (m : map2d T) a b v, wfMap m -> drawLine m a b a b v = Ok m.
Proof.
  intros T m a b v W. unfold drawLine. generalize (grid 0 (m_h m) 0 (m_w m)) as l. induction l as [|[y x] l IH]; auto. cbn [rfold]. rewrite point_off. exact IH.
Qed.
Theorem line_only : forall T d (m m' : map2d T) ax ay bx by_ v, wfMap m -> drawLine m ax ay bx by_ v = Ok m' -> sameSize m m' /\
  forall y x, val d m' y x = val d m y x \/ (within m y x /\ val d m' y x = v).
Proof.
  intros T d m m' ax ay bx by_ v W H. destruct (line_spec d m ax ay bx by_ v W) as (m2 & E & S & V). assert (m2 = m') by congruence. subst m2. split; auto.
  intros y x. rewrite V. destruct (inb m y x) eqn:I; cbn [andb]; auto. destruct (onLine ax ay bx by_ y x); auto. right. split; auto. now apply inb_iff.
Qed.

(** * Arithmetic *)
Lemma make_ok : forall h w, 0 <= w -> 0 <= h -> exists m, makeMap2d h w = Ok m /\ m_w m = w /\ m_h m = h /\ wfMap m /\ forall y x, val f0 m y x = f0.
Proof.
  intros h w W H. unfold makeMap2d, alloc. destruct (Z.ltb_spec (w * h) 0); [nia|]. cbn [rbind]. eexists. split; [reflexivity|]. split; auto. split; auto. split; [now apply repeat_wf|]. intros y x. apply repeat_val.
Qed.
Lemma fill_map : forall y0 y1 x0 x1 (g : Z -> Z -> res f64) (gv : Z -> Z -> f64) h w, 0 <= w -> 0 <= h -> (forall y x, y0 <= y < y1 -> x0 <= x < x1 -> g y x = Ok (gv y x)) ->
  exists m, (do r <- makeMap2d h w; rfold (fun r '(iy, ix) => do v <- g iy ix; writeAt r iy ix v) (grid y0 y1 x0 x1) r) = Ok m /\ m_w m = w /\ m_h m = h /\ wfMap m /\
    forall y x, val f0 m y x = if inR 0 h 0 w y x && inR y0 y1 x0 x1 y x then gv y x else f0.
Proof.
  intros y0 y1 x0 x1 g gv h w W H G. destruct (make_ok h w W H) as (m0 & E0 & W0 & H0 & WF0 & V0). rewrite E0. cbn [rbind].
  destruct (fill_spec f0 0 0 y0 y1 x0 x1 (fun _ _ => true) gv (fun r '(iy, ix) => do v <- g iy ix; writeAt r iy ix v) m0 WF0) as (m & E & (S1 & S2 & S3) & V).
  { intros r y x Hy Hx. rewrite G by auto. reflexivity. }
  exists m. split; [exact E|]. split; [congruence|]. split; [congruence|]. split; auto. intros y x. rewrite V, V0, !Z.sub_0_r, andb_true_r. unfold inb. rewrite W0, H0. reflexivity.
Qed.
Lemma cellwise_spec : forall g gv a, wfMap a -> (forall y x, within a y x -> g y x = Ok (gv y x)) -> exists m, cellwise g a = Ok m /\ sameSize a m /\
  forall y x, val f0 m y x = if inb a y x then gv y x else f0.
Proof.
  intros g gv a (W & H & L) G. destruct (fill_map 0 (m_h a) 0 (m_w a) g gv (m_h a) (m_w a) W H) as (m & E & W1 & H1 & WF & V); [intros y x Hy Hx; apply G; split; auto|].
  exists m. split; auto. split; [split; auto|]. intros y x. rewrite V. fold (inb a y x). unfold inR. fold (inb a y x). destruct (inb a y x); reflexivity.
Qed.
Theorem sub_spec : forall a b, wfMap a -> wfMap b -> exists m, msub a b = Ok m /\ sameSize a m /\ forall y x, val f0 m y x = if inb a y x then fsub (val f0 a y x) (val f0 b y x) else f0.
Proof. intros a b A B. apply (cellwise_spec _ (fun y x => fsub (val f0 a y x) (val f0 b y x))); auto. intros y x _. rewrite !read_spec by auto. reflexivity. Qed.
Theorem add_spec : forall a b, wfMap a -> wfMap b -> exists m, madd a b = Ok m /\ sameSize a m /\ forall y x, val f0 m y x = if inb a y x then fadd (val f0 a y x) (val f0 b y x) else f0.
Proof. intros a b A B. apply (cellwise_spec _ (fun y x => fadd (val f0 a y x) (val f0 b y x))); auto. intros y x _. rewrite !read_spec by auto. reflexivity. Qed.
Theorem div_spec : forall a v, wfMap a -> exists m, divScalar a v = Ok m /\ sameSize a m /\ forall y x, val f0 m y x = if inb a y x then fdiv (val f0 a y x) v else f0.
Proof. intros a v A. apply (cellwise_spec _ (fun y x => fdiv (val f0 a y x) v)); auto. intros y x _. rewrite !read_spec by auto. reflexivity. Qed.

(** row by row, the cells of the map are the array *)
Lemma seq_add : forall n s k, map (fun i => (k + i)%nat) (seq s n) = seq (k + s) n.
Proof. induction n as [|n IH]; intros s k; cbn; auto. rewrite IH. now rewrite Nat.add_succ_r. Qed.
Lemma grid_cells : forall w h, 0 <= w -> 0 <= h -> map (fun '(y, x) => Z.to_nat (y * w + x)) (grid 0 h 0 w) = seq 0 (Z.to_nat (w * h)).
Proof.
  intros w h W H. unfold grid, zrange. rewrite !Z.sub_0_r. replace (w * h) with (Z.of_nat (Z.to_nat h) * w) by lia. generalize (Z.to_nat h) as n. intros n.
  assert (G : forall n s, map (fun '(y, x) => Z.to_nat (y * w + x)) (flat_map (fun y => map (fun x => (y, x)) (map (fun k => 0 + Z.of_nat k) (seq 0 (Z.to_nat w)))) (map (fun k => 0 + Z.of_nat k) (seq s n)))
    = seq (Z.to_nat (Z.of_nat s * w)) (Z.to_nat (Z.of_nat n * w))).
  { clear n. induction n as [|n IH]; intros s; [reflexivity|]. cbn [seq map flat_map]. rewrite map_app, IH, !map_map.
    replace (Z.to_nat (Z.of_nat (S n) * w)) with (Z.to_nat w + Z.to_nat (Z.of_nat n * w))%nat by nia. rewrite seq_app. f_equal.
    - rewrite <- (Nat.add_0_r (Z.to_nat (Z.of_nat s * w))), <- seq_add. apply map_ext. intros k. nia.
    - f_equal. nia. }
  rewrite G. reflexivity.
Qed.
Lemma rfold_dist : forall m, wfMap m -> forall l s, (forall y x, In (y, x) l -> within m y x) ->
  rfold (fun s '(iy, ix) => do v <- readAt f0 m iy ix; Ok (fadd s (fmul v v))) l s = Ok (fold_left (fun s v => fadd s (fmul v v)) (map (fun '(y, x) => nth (Z.to_nat (y * m_w m + x)) (m_arr m) f0) l) s).
Proof.
  intros m W. induction l as [|[y x] l IH]; intros s H; cbn [rfold map fold_left]; auto. rewrite read_spec by auto. cbn [rbind]. rewrite IH by (intros; apply H; now right).
  unfold val. assert (I : inb m y x = true) by (apply inb_iff, H; now left). rewrite I. reflexivity.
Qed.
Theorem dist_spec : forall m, wfMap m -> distPow2 m = Ok (fold_left (fun s v => fadd s (fmul v v)) (m_arr m) f0).
Proof.
  intros m W. unfold distPow2. rewrite rfold_dist; auto; [|intros y x H; apply grid_in in H; exact H]. do 2 f_equal. destruct W as (Hw & Hh & L).
  assert (E := grid_cells (m_w m) (m_h m) Hw Hh). rewrite <- L, Nat2Z.id in E. transitivity (map (fun i => nth i (m_arr m) f0) (seq 0 (length (m_arr m)))).
  - rewrite <- E, map_map. apply map_ext. intros [y x]. reflexivity.
  - clear. generalize (m_arr m) as l. induction l as [|a l IH]; auto. cbn [length seq map nth]. f_equal. rewrite <- seq_shift, map_map. exact IH.
Qed.

(** * Convolution *)
Lemma zrange_shift : forall lo hi s, zrange (lo + s) (hi + s) = map (fun x => x + s) (zrange lo hi).
Proof. intros lo hi s. unfold zrange. rewrite map_map. replace (hi + s - (lo + s)) with (hi - lo) by lia. apply map_ext. intros k. lia. Qed.
Lemma grid_shift : forall y0 y1 x0 x1 sy sx, grid (y0 + sy) (y1 + sy) (x0 + sx) (x1 + sx) = map (fun '(y, x) => (y + sy, x + sx)) (grid y0 y1 x0 x1).
Proof.
  intros. unfold grid. rewrite (zrange_shift y0 y1), (zrange_shift x0 x1). generalize (zrange y0 y1) as l. induction l as [|y l IH]; auto. cbn [map flat_map]. rewrite map_app, IH, !map_map. reflexivity.
Qed.
Lemma conv_sum : forall v k iy ix, wfMap v -> wfMap k -> convSum v k iy ix = Ok (kernelSum v k (grid 0 (2 * Z.quot (m_h k) 2) 0 (2 * Z.quot (m_w k) 2)) iy ix).
Proof.
  intros v k iy ix V K. unfold convSum, kernelSum. assert (O : forall z, Z.quot (- z) 2 = - Z.quot z 2) by (intros; apply Z.quot_opp_l; lia). rewrite !O.
  set (hy := Z.quot (m_h k) 2). set (hx := Z.quot (m_w k) 2).
  replace (grid 0 (2 * hy) 0 (2 * hx)) with (grid (- hy + hy) (hy + hy) (- hx + hx) (hx + hx)) by (f_equal; lia). rewrite grid_shift. generalize f0 at 3 6 as acc. generalize (grid (- hy) hy (- hx) hx) as l.
  induction l as [|[a b] l IH]; intros acc; [reflexivity|]. cbn [rfold map fold_left]. rewrite !read_spec by auto. cbn [rbind]. rewrite IH. rewrite (Z.add_comm hy a), (Z.add_comm hx b).
  replace (iy + (a + hy) - hy) with (a + iy) by lia. replace (ix + (b + hx) - hx) with (b + ix) by lia. reflexivity.
Qed.
Theorem convo_spec : forall v k, wfMap v -> wfMap k -> exists m, convo v k = Ok m /\ sameSize v m /\
  forall y x, val f0 m y x = if inb v y x then kernelSum v k (grid 0 (2 * Z.quot (m_h k) 2) 0 (2 * Z.quot (m_w k) 2)) y x else f0.
Proof. intros v k V K. apply (cellwise_spec _ (kernelSum v k (grid 0 (2 * Z.quot (m_h k) 2) 0 (2 * Z.quot (m_w k) 2)))); auto. intros y x _. now apply conv_sum. Qed.
Theorem convBorder_spec : forall v k, wfMap v -> wfMap k -> exists m, convWithoutBorder v k = Ok m /\ sameSize v m /\
  forall y x, val f0 m y x = if inR (Z.quot (m_h k) 2 + 1) (m_h v - (Z.quot (m_h k) 2 + 1)) (Z.quot (m_w k) 2 + 1) (m_w v - (Z.quot (m_w k) 2 + 1)) y x
    then kernelSum v k (grid 0 (2 * Z.quot (m_h k) 2) 0 (2 * Z.quot (m_w k) 2)) y x else f0.
Proof.
  intros v k V K. set (by_ := Z.quot (m_h k) 2 + 1). set (bx := Z.quot (m_w k) 2 + 1). assert (Pb : 0 <= by_ /\ 0 <= bx).
  { destruct K as (K1 & K2 & _). unfold by_, bx. assert (0 <= Z.quot (m_h k) 2) by (apply Z.quot_pos; lia). assert (0 <= Z.quot (m_w k) 2) by (apply Z.quot_pos; lia). lia. }
  destruct (fill_map by_ (m_h v - by_) bx (m_w v - bx) (convSum v k) (kernelSum v k (grid 0 (2 * Z.quot (m_h k) 2) 0 (2 * Z.quot (m_w k) 2))) (m_h v) (m_w v)) as (m & E & W1 & H1 & WF & S).
  { apply V. } { apply V. } { intros y x _ _. now apply conv_sum. }
  exists m. split; [exact E|]. split; [split; auto|]. intros y x. rewrite S. destruct (inR by_ (m_h v - by_) bx (m_w v - bx) y x) eqn:I; [|now rewrite andb_false_r].
  assert (I2 : inR 0 (m_h v) 0 (m_w v) y x = true); [|rewrite I2; reflexivity]. unfold inR in *. rewrite !andb_true_iff, !Z.leb_le, !Z.ltb_lt in *. lia.
Qed.

(** ** Even kernels use every entry, odd ones lose the last row and column *)
Lemma even_kernel : forall n, Z.even n = true -> 0 <= n -> 2 * Z.quot n 2 = n.
Proof. intros n E P. apply Z.even_spec in E. destruct E as (k & ->). rewrite (Z.mul_comm 2 k), Z.quot_mul by lia. lia. Qed.
Lemma odd_kernel : forall n, Z.odd n = true -> 0 <= n -> 2 * Z.quot n 2 = n - 1.
Proof.
  intros n E P. apply Z.odd_spec in E. destruct E as (k & ->). replace (Z.quot (2 * k + 1) 2) with k; [lia|]. rewrite Z.quot_div_nonneg by lia.
  rewrite Z.mul_comm, Z.div_add_l by lia. change (1 / 2) with 0. lia.
Qed.
Theorem convo_even : forall v k, wfMap v -> wfMap k -> Z.even (m_w k) = true -> Z.even (m_h k) = true -> exists m, convo v k = Ok m /\ sameSize v m /\
  forall y x, val f0 m y x = if inb v y x then kernelSum v k (grid 0 (m_h k) 0 (m_w k)) y x else f0.
Proof. intros v k V K Ew Eh. destruct (convo_spec v k V K) as (m & E & S & X). rewrite (even_kernel (m_w k)), (even_kernel (m_h k)) in X; auto; try apply K. eauto. Qed.
Lemma fold_ext : forall A S (f g : S -> A -> S) l s, (forall s a, In a l -> f s a = g s a) -> fold_left f l s = fold_left g l s.
Proof. intros A S f g l. induction l as [|a l IH]; intros s H; cbn; auto. rewrite H by now left. apply IH. intros. apply H. now right. Qed.
Theorem convo_odd : forall v k k', wfMap v -> wfMap k -> sameSize k k' -> Z.odd (m_w k) = true -> Z.odd (m_h k) = true ->
  (forall y x, 0 <= y < m_h k - 1 -> 0 <= x < m_w k - 1 -> val f0 k' y x = val f0 k y x) -> forall y x, convSum v k' y x = convSum v k y x.
Proof.
  intros v k k' V K (W1 & H1 & K') Ow Oh A y x. rewrite !conv_sum by auto. f_equal. unfold kernelSum. rewrite W1, H1, (odd_kernel (m_w k)), (odd_kernel (m_h k)); auto; try apply K.
  apply fold_ext. intros s [a b] I. apply grid_in in I. rewrite A by lia. reflexivity.
Qed.
