From Coq Require Import List ZArith Bool Lia.
From Verif Require Import Base F64_Model Map_Model Map_Spec Map_Proofs Gabor_Model Map32_Model Map32_Spec.
Import ListNotations.
Local Open Scope list_scope.
Local Open Scope Z_scope.

Lemma chk_ok : forall z, - 2 ^ 31 <= z < 2 ^ 31 -> chk z = Ok z.
Proof. intros z H. unfold chk, in32. destruct (Z.leb_spec (- 2 ^ 31) z); [|lia]. destruct (Z.ltb_spec z (2 ^ 31)); [|lia]. reflexivity. Qed.
Lemma chk_panic : forall z, 2 ^ 31 <= z -> chk z = Panic.
Proof. intros z H. unfold chk, in32. destruct (Z.ltb_spec z (2 ^ 31)); [lia|]. now rewrite andb_false_r. Qed.

(** two loops that agree as long as the state keeps an invariant *)
Lemma rfold_inv : forall A S (I : S -> Prop) (f g : S -> A -> res S) l s, I s -> (forall s a, I s -> In a l -> f s a = g s a) -> (forall s a s', I s -> In a l -> g s a = Ok s' -> I s') -> rfold f l s = rfold g l s.
Proof.
  induction l as [|a l IH]; intros s Hs E P; cbn [rfold]; auto. rewrite (E s a Hs (or_introl eq_refl)). destruct (g s a) as [s'|] eqn:G; cbn [rbind]; auto.
  apply IH; [eapply P; eauto; now left|intros; apply E; auto; now right|intros; eapply P; eauto; now right].
Qed.
(** a loop with an element at which it must panic *)
Lemma rfold_panic : forall A S (I : S -> Prop) (f : S -> A -> res S) a0 l, In a0 l -> (forall s, I s -> f s a0 = Panic) -> (forall s a s', I s -> f s a = Ok s' -> I s') -> forall s, I s -> rfold f l s = Panic.
Proof.
  induction l as [|a l IH]; intros H P K s Hs; [easy|]. cbn [rfold]. destruct H as [->|H]; [now rewrite P|]. destruct (f s a) as [s'|] eqn:E; cbn [rbind]; auto. apply IH; auto. eapply K; eauto.
Qed.

Section Access.
  Context {T : Type} (d : T).
  Lemma cell_range : forall (m : map2d T) y x, small m -> 0 <= y < m_h m -> 0 <= x < m_w m -> chk (y * m_w m) = Ok (y * m_w m) /\ chk (y * m_w m + x) = Ok (y * m_w m + x).
  Proof. intros m y x (W & H & S) Y X. specialize (S ltac:(lia) ltac:(lia)). split; apply chk_ok; nia. Qed.
  Theorem read32 : forall (m : map2d T) y x, small m -> readAt32 d m y x = readAt d m y x.
  Proof.
    intros m y x S. unfold readAt32, readAt. destruct (_ || _) eqn:E; auto. rewrite outside in E. apply negb_false_iff, inb_iff in E. destruct E as [Y X].
    destruct (cell_range m y x S Y X) as [A B]. rewrite A. cbn [rbind]. rewrite B. reflexivity.
  Qed.
  Theorem write32 : forall (m : map2d T) y x v, small m -> writeAt32 m y x v = writeAt m y x v.
  Proof.
    intros m y x v S. unfold writeAt32, writeAt. destruct (_ || _) eqn:E; auto. rewrite outside in E. apply negb_false_iff, inb_iff in E. destruct E as [Y X].
    destruct (cell_range m y x S Y X) as [A B]. rewrite A. cbn [rbind]. rewrite B. reflexivity.
  Qed.
  Lemma write_size : forall (m m' : map2d T) y x v, writeAt m y x v = Ok m' -> m_w m' = m_w m /\ m_h m' = m_h m.
  Proof. intros m m' y x v. unfold writeAt. destruct (_ || _); [intros [= <-]; auto|]. cbv zeta. destruct (idx _ _); cbn [rbind]; intros [= <-]; auto. Qed.
  Lemma write_small : forall (m m' : map2d T) y x v, small m -> writeAt m y x v = Ok m' -> small m'.
  Proof. intros m m' y x v S E. destruct (write_size _ _ _ _ _ E) as [A B]. unfold small. now rewrite A, B. Qed.
  Theorem box32 : forall (m : map2d T) cx cy w h v, small m -> - 2 ^ 31 <= cx -> - 2 ^ 31 <= cy -> cx + w <= 2 ^ 31 -> cy + h <= 2 ^ 31 -> drawBox32 m cx cy w h v = drawBox m cx cy w h v.
  Proof.
    intros m cx cy w h v S X Y X' Y'. unfold drawBox32, drawBox. apply (rfold_inv _ _ small); auto.
    - intros s [iy ix] Hs I. apply grid_in in I. rewrite !chk_ok by lia. cbn [rbind]. now apply write32.
    - intros s [iy ix] s' Hs _ E. eapply write_small; eauto.
  Qed.
  Theorem box32_panic : forall (m : map2d T) cx cy w h v, 0 < w -> 0 < h -> small m -> 2 ^ 31 < cx + w \/ 2 ^ 31 < cy + h -> drawBox32 m cx cy w h v = Panic.
  Proof.
    intros m cx cy w h v W H S O. unfold drawBox32. eapply (rfold_panic _ _ small _ (h - 1, w - 1)); auto.
    - apply grid_in. lia.
    - intros s _. destruct O as [O|O].
      + destruct (chk (cy + (h - 1))); cbn [rbind]; auto. now rewrite chk_panic by lia.
      + now rewrite chk_panic by lia.
    - intros s [iy ix] s' Hs. destruct (chk (cy + iy)); cbn [rbind]; [|discriminate]. destruct (chk (cx + ix)); cbn [rbind]; [|discriminate]. rewrite write32 by auto. intros E. eapply write_small; eauto.
  Qed.
  Theorem crop32_ok : forall (m : map2d T) x y sx sy, small m -> 0 <= sx < 2 ^ 31 -> 0 <= sy < 2 ^ 31 -> sx * sy < 2 ^ 31 -> - 2 ^ 31 <= x -> - 2 ^ 31 <= y -> x + sx <= 2 ^ 31 -> y + sy <= 2 ^ 31 ->
    crop32 d m x y sx sy = crop d m x y sx sy.
  Proof.
    intros m x y sx sy S X Y A X1 Y1 X2 Y2. unfold crop32, crop. rewrite chk_ok by nia. cbn [rbind]. destruct (alloc d (sx * sy)) as [a|]; cbn [rbind]; auto.
    apply (rfold_inv _ _ small).
    - unfold small. cbn [m_w m_h]. lia.
    - intros s [iy ix] Hs I. apply grid_in in I. rewrite !chk_ok by lia. cbn [rbind]. rewrite read32 by auto. destruct (readAt d m (y + iy) (x + ix)); cbn [rbind]; auto. now apply write32.
    - intros s [iy ix] s' Hs _. destruct (readAt d m (y + iy) (x + ix)); cbn [rbind]; [|discriminate]. intros E. eapply write_small; eauto.
  Qed.
  Theorem circle32 : forall (m : map2d T) cx cy r v, small m -> r <= 32766 -> - 2 ^ 30 <= r -> Z.abs cx <= 2 ^ 30 -> Z.abs cy <= 2 ^ 30 -> drawCircle32 m cx cy r v = drawCircle m cx cy r v.
  Proof.
    intros m cx cy r v S R R' X Y. unfold drawCircle32, drawCircle. rewrite !chk_ok by lia. cbn [rbind]. rewrite !chk_ok by lia. cbn [rbind]. apply (rfold_inv _ _ small); auto.
    - intros s [iy ix] Hs I. apply grid_in in I.
      assert (0 <= ix * ix <= 2 ^ 30) by nia. assert (0 <= iy * iy <= 2 ^ 30) by nia. assert (ix * ix + iy * iy < 2 ^ 31) by nia.
      rewrite (chk_ok (ix * ix)) by lia. cbn [rbind]. rewrite (chk_ok (iy * iy)) by lia. cbn [rbind]. rewrite (chk_ok (ix * ix + iy * iy)) by lia. cbn [rbind].
      destruct (_ <=? r); auto. rewrite !chk_ok by lia. cbn [rbind]. now apply write32.
    - intros s [iy ix] s' Hs _. destruct (_ <=? r); [intros E; eapply write_small; eauto|now intros [= <-]].
  Qed.
  Theorem circle32_panic : forall (m : map2d T) cx cy r v, 32767 <= r -> drawCircle32 m cx cy r v = Panic.
  Proof.
    intros m cx cy r v R. unfold drawCircle32. destruct (chk (r + 1)) as [r1|] eqn:E; cbn [rbind]; auto. assert (r1 = r + 1) as ->. { unfold chk in E. destruct (in32 (r + 1)); congruence. }
    destruct (chk (- (r + 1))) as [lo|] eqn:E'; cbn [rbind]; auto. assert (lo = - (r + 1)) as ->. { unfold chk in E'. destruct (in32 (- (r + 1))); congruence. }
    apply (rfold_panic _ _ (fun _ => True) _ (- (r + 1), - (r + 1))); auto.
    - apply grid_in. lia.
    - intros s _. destruct (chk (- (r + 1) * - (r + 1))) as [p|] eqn:P; cbn [rbind]; auto. assert (p = - (r + 1) * - (r + 1)) as ->. { unfold chk in P. destruct (in32 _); congruence. }
      rewrite chk_panic by nia. reflexivity.
  Qed.
End Access.

Theorem make32 : forall h w m, makeMap2d32 h w = Ok m -> makeMap2d h w = Ok m /\ (h < 2 ^ 31 -> w < 2 ^ 31 -> small m).
Proof.
  intros h w m. unfold makeMap2d32, makeMap2d, chk, in32. destruct ((- 2 ^ 31 <=? w * h) && (w * h <? 2 ^ 31)) eqn:E; cbn [rbind]; [|discriminate]. intros G. split; auto.
  destruct (alloc f0 (w * h)); cbn [rbind] in G; [|discriminate]. injection G as <-. intros H W. unfold small. cbn [m_w m_h]. lia.
Qed.
Theorem make32_panic : forall h w, 2 ^ 31 <= w * h -> makeMap2d32 h w = Panic.
Proof. intros h w H. unfold makeMap2d32. now rewrite chk_panic. Qed.
Lemma make32_ok : forall h w, 0 <= h -> 0 <= w -> w * h < 2 ^ 31 -> makeMap2d32 h w = makeMap2d h w.
Proof. intros h w H W S. unfold makeMap2d32, makeMap2d. rewrite chk_ok by nia. reflexivity. Qed.
Theorem cellwise32_ok : forall g g' a, wfMap a -> small a -> (forall y x, within a y x -> g y x = g' y x) -> cellwise32 g a = cellwise g' a.
Proof.
  intros g g' a (W & H & L) S G. unfold cellwise32, cellwise. rewrite make32_ok; auto; [|now apply S]. destruct (makeMap2d (m_h a) (m_w a)) as [r|] eqn:E; cbn [rbind]; auto.
  apply (rfold_inv _ _ small).
  - unfold makeMap2d in E. destruct (alloc f0 _); cbn [rbind] in E; [|discriminate]. injection E as <-. exact S.
  - intros s [y x] Hs I. apply grid_in in I. rewrite G by (split; lia). destruct (g' y x); cbn [rbind]; auto. now apply write32.
  - intros s [y x] s' Hs I. destruct (g' y x); cbn [rbind]; [|discriminate]. intros K. eapply write_small; eauto.
Qed.
Theorem arith32 : forall a b v, wfMap a -> small a -> small b -> msub32 a b = msub a b /\ madd32 a b = madd a b /\ divScalar32 a v = divScalar a v.
Proof. intros a b v W A B. repeat split; apply cellwise32_ok; auto; intros y x _; rewrite !read32 by auto; reflexivity. Qed.
Lemma half_le : forall n, 0 <= n -> 0 <= 2 * Z.quot n 2 <= n.
Proof. intros n N. rewrite Z.quot_div_nonneg by lia. pose proof (Z.div_mod n 2). pose proof (Z.mod_pos_bound n 2). pose proof (Z.div_pos n 2). lia. Qed.
Lemma convSum32_ok : forall v k y x, wfMap k -> small v -> small k -> m_w v + m_w k <= 2 ^ 31 -> m_h v + m_h k <= 2 ^ 31 -> within v y x -> convSum32 v k y x = convSum v k y x.
Proof.
  intros v k y x (Wk & Hk & _) Sv Sk W H (Y & X). unfold convSum32, convSum.
  destruct Sk as (K1 & K2 & K3). assert (Sk : small k) by (repeat split; auto).
  rewrite !chk_ok by lia. cbn [rbind].
  apply (rfold_inv _ _ (fun _ => True)); auto. intros s [dy dx] _ I. apply grid_in in I.
  assert (Qh : Z.quot (- m_h k) 2 = - Z.quot (m_h k) 2) by (apply Z.quot_opp_l; lia). assert (Qw : Z.quot (- m_w k) 2 = - Z.quot (m_w k) 2) by (apply Z.quot_opp_l; lia).
  rewrite Qh, Qw in I. pose proof (half_le _ Hk). pose proof (half_le _ Wk).
  rewrite !chk_ok by lia. cbn [rbind]. rewrite read32 by auto. cbv zeta. destruct (readAt f0 k _ _); cbn [rbind]; auto.
  rewrite read32 by auto. reflexivity.
Qed.
Theorem convo32_ok : forall v k, wfMap v -> wfMap k -> small v -> small k -> m_w v + m_w k <= 2 ^ 31 -> m_h v + m_h k <= 2 ^ 31 -> convo32 v k = convo v k.
Proof. intros v k Wv Wk Sv Sk W H. apply cellwise32_ok; auto. intros y x I. now apply convSum32_ok. Qed.
Theorem border32_ok : forall v k, wfMap v -> wfMap k -> small v -> small k -> m_w v + m_w k <= 2 ^ 31 -> m_h v + m_h k <= 2 ^ 31 -> convWithoutBorder32 v k = convWithoutBorder v k.
Proof.
  intros v k (Wv & Hv & Lv) Wk Sv Sk W H. unfold convWithoutBorder32, convWithoutBorder. rewrite make32_ok; auto; [|now apply Sv]. destruct (makeMap2d (m_h v) (m_w v)) as [r|] eqn:E; cbn [rbind]; auto.
  pose proof (half_le _ (proj1 Wk)) as Bw. pose proof (half_le _ (proj1 (proj2 Wk))) as Bh. destruct Sv as (V1 & V2 & V3). destruct Sk as (K1 & K2 & K3).
  rewrite (chk_ok (Z.quot (m_h k) 2 + 1)) by lia. cbn [rbind]. rewrite (chk_ok (m_h v - _)) by lia. cbn [rbind]. rewrite (chk_ok (Z.quot (m_w k) 2 + 1)) by lia. cbn [rbind]. rewrite (chk_ok (m_w v - _)) by lia. cbn [rbind]. cbv zeta.
  apply (rfold_inv _ _ small).
  - unfold makeMap2d in E. destruct (alloc f0 _); cbn [rbind] in E; [|discriminate]. injection E as <-. repeat split; auto.
  - intros s [y x] Hs I. apply grid_in in I. rewrite convSum32_ok; auto; [|repeat split; auto|repeat split; auto|split; lia]. destruct (convSum v k y x); cbn [rbind]; auto. now apply write32.
  - intros s [y x] s' Hs I. destruct (convSum v k y x); cbn [rbind]; [|discriminate]. intros K. eapply write_small; eauto.
Qed.
Theorem gabor32 : forall c s e w phi lam off asp, - 46340 <= w <= 46340 -> generateGaborKernel32 c s e w phi lam off asp = generateGaborKernel c s e w phi lam off asp.
Proof.
  intros c s e w phi lam off asp W. unfold generateGaborKernel32, generateGaborKernel. unfold makeMap2d32, makeMap2d. rewrite chk_ok by nia. cbn [rbind]. destruct (alloc f0 (w * w)) as [a|]; cbn [rbind]; auto.
  apply (rfold_inv _ _ small).
  - unfold small. cbn [m_w m_h]. nia.
  - intros r [y x] Hr I. apply grid_in in I. unfold coord32.
    assert (B : 0 <= Z.quot w 2 <= w). { rewrite Z.quot_div_nonneg by lia. pose proof (Z.div_mod w 2). pose proof (Z.mod_pos_bound w 2). pose proof (Z.div_pos w 2). lia. }
    rewrite !chk_ok by lia. cbn [rbind]. cbv zeta. rewrite write32 by auto. reflexivity.
  - intros r [y x] r' Hr _ E. eapply write_small; eauto.
Qed.
Theorem gabor32_panic : forall c s e w phi lam off asp, 46340 < Z.abs w -> generateGaborKernel32 c s e w phi lam off asp = Panic.
Proof. intros c s e w phi lam off asp W. unfold generateGaborKernel32. rewrite make32_panic by nia. reflexivity. Qed.
