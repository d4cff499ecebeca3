(** contains2D does not change along a path that does not touch the polygon. *)
From Coq Require Import Reals Lra Psatz List Bool Arith Lia.
From Verif Require Import Num GeoModel EdgeModel GeoSpec GeoMat EdgeSpecR EdgeContains.
Import ListNotations.
Open Scope R_scope.

(* the two segments have no common point *)
Definition apart2 (a b c d : pt) : Prop := forall w, on_seg2 a b w -> on_seg2 c d w -> False.
Lemma at2_xy (a b : pt) t : X (at2 a b t) = X a + t * (X b - X a) /\ Y (at2 a b t) = Y a + t * (Y b - Y a).
Proof. split; reflexivity. Qed.
(* two pieces of the segments over the same heights: the horizontal distance keeps its sign *)
Lemma same_sign (p q a b : pt) s0 s1 t0 t1 : apart2 p q a b -> 0 <= s0 <= 1 -> 0 <= s1 <= 1 -> 0 <= t0 <= 1 -> 0 <= t1 <= 1 ->
  Y p + s0 * (Y q - Y p) = Y a + t0 * (Y b - Y a) -> Y p + s1 * (Y q - Y p) = Y a + t1 * (Y b - Y a) ->
  let d0 := X a + t0 * (X b - X a) - (X p + s0 * (X q - X p)) in let d1 := X a + t1 * (X b - X a) - (X p + s1 * (X q - X p)) in 0 < d0 * d1.
Proof.
  intros A H1 H2 H3 H4 E0 E1 d0 d1. apply Rnot_le_lt. intros H.
  assert (K : exists u, 0 <= u <= 1 /\ d0 + u * (d1 - d0) = 0).
  { destruct (Req_dec d0 d1) as [E|NE].
    - exists 0. split; [lra|]. assert (d0 * d0 <= 0) by (rewrite E at 2; exact H). nra.
    - exists (d0 / (d0 - d1)). assert (N : d0 - d1 <> 0) by lra. split; [|field; exact N].
      assert (Q : d0 / (d0 - d1) * (d0 - d1) = d0) by (field; exact N). set (u := d0 / (d0 - d1)) in *.
      destruct (Rtotal_order d0 0) as [L|[L|L]].
      + assert (0 <= d1) by nra. split; nra.
      + assert (u = 0) by (apply (Rmult_eq_reg_r (d0 - d1)); [lra|exact N]). lra.
      + assert (d1 <= 0) by nra. split; nra. }
  destruct K as (u & U & K). apply (A (at2 p q (s0 + u * (s1 - s0)))).
  - exists (s0 + u * (s1 - s0)). split; [|split; reflexivity]. split; nra.
  - exists (t0 + u * (t1 - t0)). split; [split; nra|]. rewrite (proj1 (at2_xy p q _)), (proj2 (at2_xy p q _)), (proj1 (at2_xy a b _)), (proj2 (at2_xy a b _)).
    unfold d0, d1 in K. split; [lra|]. replace (Y p + (s0 + u * (s1 - s0)) * (Y q - Y p)) with ((1 - u) * (Y p + s0 * (Y q - Y p)) + u * (Y p + s1 * (Y q - Y p))) by ring.
    rewrite E0, E1. ring.
Qed.
Lemma ratio01 u d : 0 < d -> 0 <= u <= d -> 0 <= u / d <= 1.
Proof.
  intros D (H1 & H2). assert (E : u / d * d = u) by (field; lra). split; apply (Rmult_le_reg_r d); try exact D; rewrite E; lra.
Qed.
(* the part right of p q, between its ends *)
Definition right_of (p q a : pt) : bool := above p a && negb (above q a) && Rltb (side p q a) 0.
Lemma sign_iff x y a b : 0 < x * y -> 0 < a -> 0 < b -> (0 < x * a <-> 0 < y * b).
Proof. intros H A B. split; intros K; [assert (0 < x) by nra|assert (0 < y) by nra]; [assert (0 < y) by nra|assert (0 < x) by nra]; nra. Qed.
(* horizontal distances as sides: at a point of ab at height y of p, and at a point of pq at the height of a *)
Lemma d_side (p a b : pt) t : t * (Y b - Y a) = Y p - Y a -> (X a + t * (X b - X a) - X p) * (Y b - Y a) = side a b p.
Proof. intros E. unfold side. replace ((X a + t * (X b - X a) - X p) * (Y b - Y a)) with ((X a - X p) * (Y b - Y a) + (t * (Y b - Y a)) * (X b - X a)) by ring. rewrite E. ring. Qed.
Lemma d_side' (p q a : pt) s : s * (Y q - Y p) = Y a - Y p -> (X a - (X p + s * (X q - X p))) * (Y q - Y p) = - side p q a.
Proof. intros E. rewrite <- (d_side a p q s E). ring. Qed.
Lemma ifb (b : bool) : (if b then true else false) = b.
Proof. destruct b; reflexivity. Qed.
Local Ltac sgn SG := rewrite ?ifb, ?xorb_false_l, ?xorb_false_r; apply eq_iff_eq_true; rewrite !Rltb_true; destruct SG as (S1 & S2);
  split; intros Hx; first [let G := fresh in assert (G := S1 ltac:(lra)); lra | let G := fresh in assert (G := S2 ltac:(lra)); lra].
Lemma edge_step0 (p q a b : pt) : Y p <= Y q -> Y a <= Y b -> apart2 p q a b -> xorb (cb p a b) (cb q a b) = xorb (right_of p q a) (right_of p q b).
Proof.
  intros PQ AB NA. unfold cb, right_of.
  assert (F1 : forall x, Y p < Y q -> (x - Y p) / (Y q - Y p) * (Y q - Y p) = x - Y p) by (intros; field; lra).
  assert (F2 : forall x, Y a < Y b -> (x - Y a) / (Y b - Y a) * (Y b - Y a) = x - Y a) by (intros; field; lra).
  assert (R1 : forall x, Y p < Y q -> Y p <= x <= Y q -> 0 <= (x - Y p) / (Y q - Y p) <= 1) by (intros x L HH; apply ratio01; lra).
  assert (R2 : forall x, Y a < Y b -> Y a <= x <= Y b -> 0 <= (x - Y a) / (Y b - Y a) <= 1) by (intros x L HH; apply ratio01; lra).
  destruct (above p a) eqn:PA, (above p b) eqn:PB, (above q a) eqn:QA, (above q b) eqn:QB; cbn [xorb andb negb]; try reflexivity;
    rewrite ?above_iff, ?above_false in *; try lra; rewrite ?xorb_false_l, ?xorb_false_r, ?andb_true_l.
  - (* middle, high *)
    assert (LQ : Y p < Y q) by lra. assert (LB : Y a < Y b) by lra. specialize (F1 (Y a) LQ). specialize (F2 (Y q) LB). specialize (R1 (Y a) LQ ltac:(lra)). specialize (R2 (Y q) LB ltac:(lra)).
    pose proof (same_sign p q a b ((Y a - Y p) / (Y q - Y p)) 1 0 ((Y q - Y a) / (Y b - Y a)) NA R1 ltac:(lra) ltac:(lra) R2 ltac:(lra) ltac:(lra)) as K. cbv zeta in K.
    pose proof (sign_iff _ _ (Y q - Y p) (Y b - Y a) K ltac:(lra) ltac:(lra)) as SG.
    replace (X a + 0 * (X b - X a)) with (X a) in SG by ring. replace (X p + 1 * (X q - X p)) with (X q) in SG by ring.
    rewrite (d_side' p q a _ F1), (d_side q a b _ F2) in SG. sgn SG.
  - (* middle, middle *)
    assert (LQ : Y p < Y q) by lra.
    pose proof (same_sign p q a b ((Y a - Y p) / (Y q - Y p)) ((Y b - Y p) / (Y q - Y p)) 0 1 NA (R1 (Y a) LQ ltac:(lra)) (R1 (Y b) LQ ltac:(lra)) ltac:(lra) ltac:(lra) ltac:(rewrite F1 by exact LQ; lra) ltac:(rewrite F1 by exact LQ; lra)) as K. cbv zeta in K.
    pose proof (sign_iff _ _ (Y q - Y p) (Y q - Y p) K ltac:(lra) ltac:(lra)) as SG.
    replace (X a + 0 * (X b - X a)) with (X a) in SG by ring. replace (X a + 1 * (X b - X a)) with (X b) in SG by ring.
    rewrite (d_side' p q a _ (F1 _ LQ)), (d_side' p q b _ (F1 _ LQ)) in SG.
    assert (E : Rltb (side p q a) 0 = Rltb (side p q b) 0) by (sgn SG). rewrite E. symmetry. apply xorb_nilpotent.
  - (* low, high *)
    assert (LB : Y a < Y b) by lra.
    pose proof (same_sign p q a b 0 1 ((Y p - Y a) / (Y b - Y a)) ((Y q - Y a) / (Y b - Y a)) NA ltac:(lra) ltac:(lra) (R2 (Y p) LB ltac:(lra)) (R2 (Y q) LB ltac:(lra)) ltac:(rewrite F2 by exact LB; lra) ltac:(rewrite F2 by exact LB; lra)) as K. cbv zeta in K.
    pose proof (sign_iff _ _ (Y b - Y a) (Y b - Y a) K ltac:(lra) ltac:(lra)) as SG.
    replace (X p + 0 * (X q - X p)) with (X p) in SG by ring. replace (X p + 1 * (X q - X p)) with (X q) in SG by ring.
    rewrite (d_side p a b _ (F2 _ LB)), (d_side q a b _ (F2 _ LB)) in SG.
    assert (E : Rltb 0 (side a b p) = Rltb 0 (side a b q)) by (sgn SG). rewrite E. apply xorb_nilpotent.
  - (* low, middle *)
    assert (LQ : Y p < Y q) by lra. assert (LB : Y a < Y b) by lra.
    pose proof (same_sign p q a b 0 ((Y b - Y p) / (Y q - Y p)) ((Y p - Y a) / (Y b - Y a)) 1 NA ltac:(lra) (R1 (Y b) LQ ltac:(lra)) (R2 (Y p) LB ltac:(lra)) ltac:(lra) ltac:(rewrite F2 by exact LB; lra) ltac:(rewrite F1 by exact LQ; lra)) as K. cbv zeta in K.
    pose proof (sign_iff _ _ (Y b - Y a) (Y q - Y p) K ltac:(lra) ltac:(lra)) as SG.
    replace (X p + 0 * (X q - X p)) with (X p) in SG by ring. replace (X a + 1 * (X b - X a)) with (X b) in SG by ring.
    rewrite (d_side p a b _ (F2 _ LB)), (d_side' p q b _ (F1 _ LQ)) in SG. sgn SG.
Qed.
Lemma apart2_sym (p q a b : pt) : apart2 p q a b -> apart2 p q b a.
Proof.
  intros H w H1 (t & T & E1 & E2). apply (H w H1). exists (1 - t). split; [lra|]. rewrite E1, E2. rewrite !(proj1 (at2_xy _ _ _)), !(proj2 (at2_xy _ _ _)). split; ring.
Qed.
Lemma apart2_swap (p q a b : pt) : apart2 p q a b -> apart2 q p a b.
Proof.
  intros H w (t & T & E1 & E2) H1. apply (H w); [|exact H1]. exists (1 - t). split; [lra|]. rewrite E1, E2. rewrite !(proj1 (at2_xy _ _ _)), !(proj2 (at2_xy _ _ _)). split; ring.
Qed.
Lemma edge_step (p q a b : pt) : Y p <= Y q -> apart2 p q a b -> xorb (cb p a b) (cb q a b) = xorb (right_of p q a) (right_of p q b).
Proof.
  intros PQ NA. destruct (Rle_dec (Y a) (Y b)) as [L|L]; [apply edge_step0; assumption|].
  rewrite (cb_sym p), (cb_sym q), (xorb_comm (right_of p q a)). apply edge_step0; [exact PQ|lra|apply apart2_sym; exact NA].
Qed.
Lemma xorl_xor (g h : nat -> bool) l : xorl (map (fun i => xorb (g i) (h i)) l) = xorb (xorl (map g l)) (xorl (map h l)).
Proof. induction l as [|i l IH]; [reflexivity|]. cbn [map xorl fold_right] in *. unfold xorl in *. cbn [fold_right]. rewrite IH. destruct (g i), (h i), (fold_right xorb false (map g l)), (fold_right xorb false (map h l)); reflexivity. Qed.
Theorem contains_path (l : list pt) (p q : pt) : (forall i, (i < length l)%nat -> apart2 p q (cyc l i) (cyc l (S i))) -> contains2D l p = contains2D l q.
Proof.
  assert (G : forall p q : pt, Y p <= Y q -> (forall i, (i < length l)%nat -> apart2 p q (cyc l i) (cyc l (S i))) -> contains2D l p = contains2D l q).
  { clear p q. intros p q PQ NA. rewrite !contains_x. f_equal. apply xorb_eq. rewrite !xloop_index, <- xorl_xor.
    rewrite <- (xloop_telescope (right_of p q) l), xloop_index. f_equal. apply map_ext_in. intros i I. apply in_seq in I. apply edge_step; [exact PQ|apply NA; lia]. }
  intros NA. destruct (Rle_dec (Y p) (Y q)) as [L|L]; [apply G; assumption|]. symmetry. apply G; [lra|]. intros i I. apply apart2_swap, NA, I.
Qed.
