(** The scaled hexagons stay inside the border. *)
From Coq Require Import Reals Lra Psatz ZArith List Bool Arith Lia.
From Verif Require Import Num GeoModel EdgeModel PlanModel FloorModel GeoSpec GeoMat GeoFig EdgeSpecR EdgeContains EdgeReal EdgePath HullSpec FloorSpec HexGrid.
Import ListNotations.
Open Scope R_scope.

(** ** the corners of a hexagon, seen from one of them *)
Definition steps6 : list R := [0; 0; 1; 2; 2; 1].
Lemma side_tab o r i j m : (i < 6)%nat -> (j < 6)%nat -> (m < 6)%nat ->
  side (hexPt (hexagon o r) i (S j)) (hexPt (hexagon o r) i j) (hexPt (hexagon o r) i m) = r * r * (sqrt 3 / 2) * nth ((j + 7 - m) mod 6) steps6 0.
Proof.
  intros I J M. unfold hexPt, hexagon, steps6, side.
  do 6 (destruct i as [|i]; [do 6 (destruct j as [|j]; [do 6 (destruct m as [|m]; [unfold X, Y, P; cbn [map nth Nat.modulo Nat.divmod Nat.add Nat.sub fst snd vx vy]; field|]); lia|]); lia|]). lia.
Qed.
Lemma inside_corners (l : list pt) w i j : length l = 6%nat -> strictly_inside l w -> (i < 6)%nat -> (j < 6)%nat -> 0 < side (hexPt l i (S j)) (hexPt l i j) w.
Proof.
  intros L (_ & H) I J. do 6 (destruct l as [|? l]; [discriminate|]). destruct l; [|discriminate]. clear L.
  assert (H0 := H 0%nat ltac:(cbn; lia)). assert (H1 := H 1%nat ltac:(cbn; lia)). assert (H2 := H 2%nat ltac:(cbn; lia)). assert (H3 := H 3%nat ltac:(cbn; lia)). assert (H4 := H 4%nat ltac:(cbn; lia)). assert (H5 := H 5%nat ltac:(cbn; lia)). clear H.
  do 6 (destruct i as [|i]; [do 6 (destruct j as [|j]; [first [exact H0|exact H1|exact H2|exact H3|exact H4|exact H5]|]); lia|]). lia.
Qed.
Lemma corners_inside (l : list pt) w i : length l = 6%nat -> (i < 6)%nat -> (forall j, (j < 6)%nat -> 0 < side (hexPt l i (S j)) (hexPt l i j) w) -> strictly_inside l w.
Proof.
  intros L I H. split; [destruct l; discriminate|]. rewrite L. intros k K. specialize (H ((i + 5 - k) mod 6)%nat ltac:(apply Nat.mod_upper_bound; discriminate)).
  do 6 (destruct l as [|? l]; [discriminate|]). destruct l; [|discriminate].
  do 6 (destruct i as [|i]; [do 6 (destruct k as [|k]; [exact H|]); lia|]). lia.
Qed.

Lemma pos_mul_cancel g t : 0 < g -> 0 <= g * t -> 0 <= t.
Proof. intros G H. apply Rnot_lt_le. intros N. nra. Qed.
(** ** coordinates in the cone from c over the side u v *)
Section Cone.
Variables c u v : pt.
Let D := side c v u.
Hypothesis HD : 0 < D.
Definition sc (p : pt) : R := side c v p / side c v u.
Definition tc (p : pt) : R := - side c u p / side c v u.
Lemma coords p : X p = X c + sc p * (X u - X c) + tc p * (X v - X c) /\ Y p = Y c + sc p * (Y u - Y c) + tc p * (Y v - Y c).
Proof. unfold sc, tc. fold D. unfold D, side in *. split; field; lra. Qed.
Lemma sc_at a b t : sc (at2 a b t) = sc a + t * (sc b - sc a).
Proof. unfold sc. fold D. assert (E : side c v (at2 a b t) = side c v a + t * (side c v b - side c v a)) by (unfold side, at2, X, Y, P; cbn [vx vy]; ring). rewrite E. field. lra. Qed.
Lemma tc_at a b t : tc (at2 a b t) = tc a + t * (tc b - tc a).
Proof. unfold tc. fold D. assert (E : side c u (at2 a b t) = side c u a + t * (side c u b - side c u a)) by (unfold side, at2, X, Y, P; cbn [vx vy]; ring). rewrite E. field. lra. Qed.
Lemma sc_xy p q : X p = X q -> Y p = Y q -> sc p = sc q. Proof. intros E F. unfold sc, side. rewrite E, F. reflexivity. Qed.
Lemma tc_xy p q : X p = X q -> Y p = Y q -> tc p = tc q. Proof. intros E F. unfold tc, side. rewrite E, F. reflexivity. Qed.
Lemma on_ray_u p : tc p = 0 -> 0 <= sc p <= 1 -> on_seg2 c u p /\ X p = X (at2 c u (sc p)) /\ Y p = Y (at2 c u (sc p)).
Proof.
  intros T S. destruct (coords p) as (EX & EY). rewrite T in EX, EY. assert (Q : X p = X (at2 c u (sc p)) /\ Y p = Y (at2 c u (sc p))) by (rewrite (proj1 (at2_xy _ _ _)), (proj2 (at2_xy _ _ _)); lra).
  split; [exists (sc p); tauto|exact Q].
Qed.
Lemma on_ray_v p : sc p = 0 -> 0 <= tc p <= 1 -> on_seg2 c v p /\ X p = X (at2 c v (tc p)) /\ Y p = Y (at2 c v (tc p)).
Proof.
  intros S T. destruct (coords p) as (EX & EY). rewrite S in EX, EY. assert (Q : X p = X (at2 c v (tc p)) /\ Y p = Y (at2 c v (tc p))) by (rewrite (proj1 (at2_xy _ _ _)), (proj2 (at2_xy _ _ _)); lra).
  split; [exists (tc p); tauto|exact Q].
Qed.
Lemma parallel_u a b : turn c u a b = 0 -> tc a = tc b.
Proof. intros H. unfold tc. f_equal. unfold turn, side in *. lra. Qed.
Lemma parallel_v a b : turn c v a b = 0 -> sc a = sc b.
Proof. intros H. unfold sc. f_equal. unfold turn, side in *. lra. Qed.

Variables (a b : pt) (f : R).
Hypothesis Hf : f <= 1.
Hypothesis Hc : ~ on_seg2 a b c.
(* the sides of the cone meet the segment only beyond f *)
Hypothesis HU : forall z k, on_seg2 a b z -> 0 <= k <= 1 -> X z = X (at2 c u k) -> Y z = Y (at2 c u k) -> turn c u a b <> 0 -> f <= k.
Hypothesis HV : forall z k, on_seg2 a b z -> 0 <= k <= 1 -> X z = X (at2 c v k) -> Y z = Y (at2 c v k) -> turn c v a b <> 0 -> f <= k.
(* so are its ends *)
Hypothesis HE : forall e, e = a \/ e = b -> 0 <= sc e -> 0 <= tc e -> 0 < sc e + tc e < 1 -> f <= sc e + tc e.
Lemma seg_sub w e k : on_seg2 a b w -> e = a \/ e = b -> 0 <= k <= 1 -> on_seg2 a b (at2 w e k).
Proof.
  intros (t & T & EX & EY) E K. rewrite (proj1 (at2_xy _ _ _)) in EX. rewrite (proj2 (at2_xy _ _ _)) in EY. destruct E as [->| ->].
  - exists (t - k * t). split; [nra|]. rewrite !(proj1 (at2_xy _ _ _)), !(proj2 (at2_xy _ _ _)), EX, EY. split; ring.
  - exists (t + k * (1 - t)). split; [nra|]. rewrite !(proj1 (at2_xy _ _ _)), !(proj2 (at2_xy _ _ _)), EX, EY. split; ring.
Qed.
Lemma turn_at_u w e : on_seg2 a b w -> e = a \/ e = b -> tc w <> tc e -> turn c u a b <> 0.
Proof.
  intros (t & T & EX & EY) E N H. apply N. apply parallel_u in H. rewrite (tc_xy w _ EX EY), tc_at, H. destruct E as [->| ->]; rewrite ?H; ring.
Qed.
Lemma turn_at_v w e : on_seg2 a b w -> e = a \/ e = b -> sc w <> sc e -> turn c v a b <> 0.
Proof.
  intros (t & T & EX & EY) E N H. apply N. apply parallel_v in H. rewrite (sc_xy w _ EX EY), sc_at, H. destruct E as [->| ->]; rewrite ?H; ring.
Qed.
Lemma not_c p : on_seg2 a b p -> 0 <= sc p -> 0 <= tc p -> 0 < sc p + tc p.
Proof.
  intros O S T. apply Rnot_le_lt. intros L. apply Hc. destruct (coords p) as (EX & EY). destruct O as (t & H & E1 & E2). exists t. split; [exact H|]. rewrite <- E1, <- E2.
  replace (sc p) with 0 in * by lra. replace (tc p) with 0 in * by lra. lra.
Qed.
Lemma cone_clear w : on_seg2 a b w -> 0 <= sc w -> 0 <= tc w -> sc w + tc w < f -> False.
Proof.
  intros O S T L.
  assert (CH : exists e, (e = a \/ e = b) /\ sc e + tc e <= sc w + tc w).
  { destruct O as (t & H & E1 & E2). rewrite (sc_xy w _ E1 E2), (tc_xy w _ E1 E2), sc_at, tc_at. destruct (Rle_dec (sc a + tc a) (sc b + tc b)); [exists a|exists b]; (split; [auto|nra]). }
  destruct CH as (e & E & LE).
  (* leave the cone through one of its sides *)
  assert (EXU : forall k, 0 <= k <= 1 -> tc w + k * (tc e - tc w) = 0 -> 0 <= sc w + k * (sc e - sc w) -> tc w <> tc e -> False).
  { intros k K T0 S0 N. set (z := at2 w e k). assert (OZ : on_seg2 a b z) by (apply seg_sub; assumption).
    assert (ZS : sc z = sc w + k * (sc e - sc w)) by apply sc_at. assert (ZT : tc z = 0) by (unfold z; rewrite tc_at; exact T0).
    assert (LZ : sc z <= sc w + tc w) by (rewrite ZS; nra). destruct (on_ray_u z ZT ltac:(lra)) as (_ & QX & QY).
    pose proof (HU z (sc z) OZ ltac:(lra) QX QY (turn_at_u w e O E N)). lra. }
  assert (EXV : forall k, 0 <= k <= 1 -> sc w + k * (sc e - sc w) = 0 -> 0 <= tc w + k * (tc e - tc w) -> sc w <> sc e -> False).
  { intros k K S0 T0 N. set (z := at2 w e k). assert (OZ : on_seg2 a b z) by (apply seg_sub; assumption).
    assert (ZT : tc z = tc w + k * (tc e - tc w)) by apply tc_at. assert (ZS : sc z = 0) by (unfold z; rewrite sc_at; exact S0).
    assert (LZ : tc z <= sc w + tc w) by (rewrite ZT; nra). destruct (on_ray_v z ZS ltac:(lra)) as (_ & QX & QY).
    pose proof (HV z (tc z) OZ ltac:(lra) QX QY (turn_at_v w e O E N)). lra. }
  destruct (Rlt_dec (sc e) 0) as [NS|NS], (Rlt_dec (tc e) 0) as [NT|NT].
  - (* both: the side that is reached first *)
    destruct (Rle_dec (tc w * (sc w - sc e)) (sc w * (tc w - tc e))) as [C|C].
    + set (k := tc w / (tc w - tc e)). assert (Q : k * (tc w - tc e) = tc w) by (unfold k; field; lra). assert (K : 0 <= k <= 1) by (apply ratio01; lra).
      apply (EXU k K); [lra| |lra]. apply (pos_mul_cancel (tc w - tc e)); [lra|]. replace ((tc w - tc e) * (sc w + k * (sc e - sc w))) with (sc w * (tc w - tc e) - k * (tc w - tc e) * (sc w - sc e)) by ring. rewrite Q. lra.
    + set (k := sc w / (sc w - sc e)). assert (Q : k * (sc w - sc e) = sc w) by (unfold k; field; lra). assert (K : 0 <= k <= 1) by (apply ratio01; lra).
      apply (EXV k K); [lra| |lra]. apply (pos_mul_cancel (sc w - sc e)); [lra|]. replace ((sc w - sc e) * (tc w + k * (tc e - tc w))) with (tc w * (sc w - sc e) - k * (sc w - sc e) * (tc w - tc e)) by ring. rewrite Q. lra.
  - set (k := sc w / (sc w - sc e)). assert (Q : k * (sc w - sc e) = sc w) by (unfold k; field; lra). assert (K : 0 <= k <= 1) by (apply ratio01; lra). apply (EXV k K); [lra|nra|lra].
  - set (k := tc w / (tc w - tc e)). assert (Q : k * (tc w - tc e) = tc w) by (unfold k; field; lra). assert (K : 0 <= k <= 1) by (apply ratio01; lra). apply (EXU k K); [lra|nra|lra].
  - assert (OE : on_seg2 a b e). { destruct E as [->| ->]; [exists 0|exists 1]; rewrite (proj1 (at2_xy _ _ _)), (proj2 (at2_xy _ _ _)); lra. }
    pose proof (not_c e OE ltac:(lra) ltac:(lra)). pose proof (HE e E ltac:(lra) ltac:(lra) ltac:(lra)). lra.
Qed.
End Cone.

(** ** what the factors of the program guarantee *)
Lemma foldM_each {B} (f : R -> B -> res R) l : (forall a x a', f a x = Ok a' -> a' <= a) -> forall a a', foldM f a l = Ok a' -> a' <= a /\ forall x, In x l -> exists b b', f b x = Ok b' /\ a' <= b'.
Proof.
  intros M. induction l as [|y l IH]; intros a a' E; cbn [foldM] in E.
  - apply Ok_inj in E. subst a'. split; [apply Rle_refl|]. intros x [].
  - apply bind_ok in E. destruct E as (b & E1 & E2). destruct (IH _ _ E2) as (L & H). pose proof (M _ _ _ E1) as L1. split; [lra|].
    intros x [<-|I]; [exists a, b; auto|apply H, I].
Qed.
Lemma pmin_le1 (a b : R) : @pmin Rnum a b <= a.
Proof. unfold pmin. destruct (@nltb Rnum b a) eqn:E; [|apply Rle_refl]. change (Rltb b a = true) in E. apply Rltb_true in E. lra. Qed.
Lemma foldM_step_le {B} (g : B -> res (option (@vec Rnum))) (k : @vec Rnum -> res R) (a : R) x a' :
  bind (g x) (fun m => match m with None => Ok a | Some p => bind (k p) (fun q => Ok (@pmin Rnum q a)) end) = Ok a' -> a' <= a.
Proof.
  intros E. apply bind_ok in E. destruct E as (m & _ & E). destruct m as [p|]; [|apply Ok_inj in E; subst; apply Rle_refl]. apply bind_ok in E. destruct E as (q & _ & E). apply Ok_inj in E. subst a'. apply pmin_le.
Qed.
Lemma vmag_at (c u p : pt) k : 0 <= k -> Z p = Z c -> X p = X (at2 c u k) -> Y p = Y (at2 c u k) -> vmag (vsub p c) = k * edist2 u c.
Proof.
  intros K EZ EX EY. rewrite (proj1 (at2_xy _ _ _)) in EX. rewrite (proj2 (at2_xy _ _ _)) in EY. unfold vmag, vmag2, vdot, vsub, edist2, sqdist2, Rsqr. unfold X, Y, Z in *. cbn [vx vy vz]. rn. rewrite EX, EY, EZ.
  match goal with |- _ = k * sqrt ?B => transitivity (sqrt (k * k * B)); [f_equal; ring|] end. rewrite sqrt_mult_alt by nra. rewrite (sqrt_square k K). reflexivity.
Qed.
Section Factors.
Variables (o : pt) (r : R) (i : nat).
Hypothesis Hr : 0 < r.
Hypothesis Hi : (i < 6)%nat.
Notation hx := (hexagon o r).
Notation c := (hexPt hx i 0).
Lemma corner_in j : In (hexPt hx i j) hx.
Proof. unfold hexPt. apply nth_In. change (length hx) with 6%nat. apply Nat.mod_upper_bound. discriminate. Qed.
Lemma corner_z j : Z (hexPt hx i j) = 0.
Proof. pose proof (corner_in j) as I. revert I. generalize (hexPt hx i j). intros q I. unfold hexagon in I. apply in_map_iff in I. destruct I as (d & <- & _). reflexivity. Qed.
Lemma smag2D_eq (a b : pt) : smag2D (mkSeg a b) = edist2 b a.
Proof. unfold smag2D, edist2, sqdist2, Rsqr, X, Y. cbn [sa sb]. unfold vmag2D, vmagSq2D, vsub. cbn [vx vy]. rn. f_equal; try ring. Qed.
Lemma seg_bound segs f1 f2 : foldM (segFactor hx i segs) f1 [1; 2; 3; 4; 5]%nat = Ok f2 -> f2 <= f1 /\
  forall j s z k, (1 <= j <= 5)%nat -> In s segs -> on_seg2 (sa s) (sb s) z -> 0 <= k <= 1 -> X z = X (at2 c (hexPt hx i j) k) -> Y z = Y (at2 c (hexPt hx i j) k) ->
    eps <= Rabs (turn c (hexPt hx i j) (sa s) (sb s)) -> f2 <= k.
Proof.
  intros E. destruct (foldM_each _ _ (segFactor_le hx i segs) _ _ E) as (L & H). split; [exact L|]. intros j s z k J S O K EX EY T.
  assert (IJ : In j [1; 2; 3; 4; 5]%nat) by (cbn; lia). destruct (H j IJ) as (b & b' & Eb & Lb). apply (Rle_trans _ _ _ Lb). clear H E L Lb f1 f2.
  unfold segFactor in Eb. cbv zeta in Eb. destruct (foldM_each _ _ (fun a x a' => foldM_step_le (fun s => sintersect2D (mkSeg c (hexPt hx i j)) s 0) (fun p => pdiv (vmag (vsub p c)) (smag2D (mkSeg c (hexPt hx i j)))) a x a') _ _ Eb) as (_ & H).
  destruct (H s S) as (d & d' & Ed & Ld). apply (Rle_trans _ _ _ Ld). clear H Eb Ld.
  destruct (sintersect2D_spec (mkSeg c (hexPt hx i j)) s 0) as [(LT & _)|(_ & [(p & Ep & ZP & P1 & P2 & U)|(_ & NO)])].
  - exfalso. cbn [sa sb] in LT. change (cross2 c (hexPt hx i j) (sa s) (sb s)) with (turn c (hexPt hx i j) (sa s) (sb s)) in LT. lra.
  - rewrite Ep in Ed. cbn [bind] in Ed. apply bind_ok in Ed. destruct Ed as (q & Eq & Ed). apply Ok_inj in Ed. subst d'.
    assert (OL1 : on_line2 c (hexPt hx i j) z) by (exists k; auto). assert (OL2 : on_line2 (sa s) (sb s) z) by (destruct O as (t & _ & A & B); exists t; auto).
    cbn [sa sb] in U. destruct (U z OL1 OL2) as (UX & UY). rewrite EX in UX. rewrite EY in UY.
    rewrite (vmag_at c (hexPt hx i j) p k (proj1 K)) in Eq; [|rewrite ZP; symmetry; apply corner_z|symmetry; exact UX|symmetry; exact UY].
    rewrite smag2D_eq in Eq. apply pdiv_ok in Eq. destruct Eq as (NZ & Eq). subst q. apply (Rle_trans _ _ _ (pmin_le1 _ _)). apply Req_le. field. exact NZ.
  - exfalso. apply (NO z); [exists k; auto|exact O].
Qed.
Lemma point_bound pts f1 f2 : foldM (pointFactor hx i) f1 pts = Ok f2 -> f2 <= f1 /\
  forall j p s t, (1 <= j <= 4)%nat -> In p pts -> Z p = 0 -> visClose p c = false -> 0 <= s -> 0 <= t -> 0 < s + t ->
    X p = X c + s * (X (hexPt hx i j) - X c) + t * (X (hexPt hx i (S j)) - X c) -> Y p = Y c + s * (Y (hexPt hx i j) - Y c) + t * (Y (hexPt hx i (S j)) - Y c) ->
    eps <= Rabs (turn (hexPt hx i (S j)) (hexPt hx i j) c p) -> f2 <= s + t.
Proof.
  intros E. destruct (foldM_each _ _ (pointFactor_le hx i) _ _ E) as (L & H). split; [exact L|]. intros j p s t J I ZP NC HS HT ST EX EY TN.
  destruct (H p I) as (b & b' & Eb & Lb). apply (Rle_trans _ _ _ Lb). clear H E L Lb f1 f2.
  unfold pointFactor in Eb. cbv zeta in Eb. rewrite NC in Eb.
  destruct (foldM_each _ _ (fun a x a' => foldM_step_le (fun j => sintersect2D (mkSeg (hexPt hx i (j + 1)) (hexPt hx i j)) (mkSeg c p) 1) (fun q => pdiv (vmag (vsub p c)) (vmag (vsub q c))) a x a') _ _ Eb) as (_ & H).
  assert (IJ : In j [1; 2; 3; 4]%nat) by (cbn; lia). destruct (H j IJ) as (d & d' & Ed & Ld). apply (Rle_trans _ _ _ Ld). clear H Eb Ld. replace (j + 1)%nat with (S j) in Ed by lia.
  set (u := hexPt hx i j) in *. set (v := hexPt hx i (S j)) in *.
  set (z := P (X c + (X p - X c) / (s + t)) (Y c + (Y p - Y c) / (s + t)) 0).
  assert (ZX : X z = X c + (X p - X c) / (s + t)) by reflexivity. assert (ZY : Y z = Y c + (Y p - Y c) / (s + t)) by reflexivity. clearbody z.
  assert (Z1 : on_seg2 v u z).
  { exists (s / (s + t)). split; [apply ratio01; lra|]. rewrite (proj1 (at2_xy _ _ _)), (proj2 (at2_xy _ _ _)). rewrite ZX, ZY, EX, EY. split; field; lra. }
  assert (Z2 : on_line2 c p z). { exists (1 / (s + t)). rewrite (proj1 (at2_xy _ _ _)), (proj2 (at2_xy _ _ _)). rewrite ZX, ZY. split; field; lra. }
  destruct (sintersect2D_spec (mkSeg v u) (mkSeg c p) 1) as [(LT & _)|(_ & [(q & Ep & ZQ & P1 & P2 & U)|(_ & NO)])].
  - exfalso. cbn [sa sb] in LT. change (cross2 v u c p) with (turn v u c p) in LT. lra.
  - rewrite Ep in Ed. cbn [bind] in Ed. apply bind_ok in Ed. destruct Ed as (g & Eq & Ed). apply Ok_inj in Ed. subst d'.
    cbn [sa sb] in U. assert (OL1 : on_line2 v u z) by (destruct Z1 as (h & _ & A & B); exists h; auto). destruct (U z OL1 Z2) as (UX & UY).
    assert (CZ : Z c = 0) by apply corner_z.
    assert (M1 : vmag (vsub p c) = (s + t) * edist2 z c).
    { apply vmag_at; [lra|rewrite ZP, CZ; reflexivity| |]; rewrite ?(proj1 (at2_xy _ _ _)), ?(proj2 (at2_xy _ _ _)); rewrite ?ZX, ?ZY; field; lra. }
    assert (M2 : vmag (vsub q c) = 1 * edist2 z c).
    { apply vmag_at; [lra|rewrite ZQ, CZ; reflexivity| |]; rewrite ?(proj1 (at2_xy _ _ _)), ?(proj2 (at2_xy _ _ _)), <- ?UX, <- ?UY; ring. }
    rewrite M1, M2, Rmult_1_l in Eq. apply pdiv_ok in Eq. destruct Eq as (NZ & Eq). subst g. apply (Rle_trans _ _ _ (pmin_le1 _ _)). apply Req_le. field. exact NZ.
  - exfalso. apply (NO z); [exact Z1|exact Z2].
Qed.
End Factors.
