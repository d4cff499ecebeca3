(** Bumpers in rounded corners, over the reals. *)
From Coq Require Import Reals Lra Psatz ZArith List Bool Arith Lia.
From Verif Require Import Num GeoModel EdgeModel GeoSpec GeoMat GeoCirc ArcModel ArcSpec ArcProof ArcCorner LayoutModel BossModel PlanModel BracketModel BumperModel BodyModel FloorModel EdgeSpecR BumpSpec.
Import ListNotations.
Open Scope R_scope.

Lemma edist2_triangle (x y z : pt) : edist2 x z <= edist2 x y + edist2 y z.
Proof. apply (triangle (X x) (Y x) (X z) (Y z) (X y) (Y y)). Qed.
Lemma edist2_le (x y : pt) r : 0 <= r -> (X x - X y) * (X x - X y) + (Y x - Y y) * (Y x - Y y) <= r * r -> edist2 x y <= r.
Proof. intros H E. unfold edist2. rewrite <- (sqrt_square r H). apply sqrt_le_1_alt. unfold sqdist2, Rsqr. exact E. Qed.
Lemma edist2_sq (x y : pt) : edist2 x y * edist2 x y = (X x - X y) * (X x - X y) + (Y x - Y y) * (Y x - Y y).
Proof. unfold edist2. rewrite sqrt_sqrt; unfold sqdist2; [reflexivity|]. apply Rplus_le_le_0_compat; apply Rle_0_sqr. Qed.
Lemma edist2_nn (x y : pt) : 0 <= edist2 x y.
Proof. apply sqrt_pos. Qed.
(* a unit direction does not lengthen *)
Lemma unit_cross ax ay vx0 vy0 r sg : ax * ax + ay * ay = 1 -> sg * sg = 1 -> 0 <= r -> vx0 * vx0 + vy0 * vy0 <= r * r -> - r <= sg * (ax * vy0 - ay * vx0).
Proof.
  intros U SG Hr H. set (k := sg * (ax * vy0 - ay * vx0)).
  assert (K : k * k <= r * r).
  { replace (k * k) with ((sg * sg) * ((ax * vy0 - ay * vx0) * (ax * vy0 - ay * vx0))) by (unfold k; ring). rewrite SG.
    pose proof (Rle_0_sqr (ax * vx0 + ay * vy0)) as Q. unfold Rsqr in Q.
    replace (1 * ((ax * vy0 - ay * vx0) * (ax * vy0 - ay * vx0))) with ((ax * ax + ay * ay) * (vx0 * vx0 + vy0 * vy0) - (ax * vx0 + ay * vy0) * (ax * vx0 + ay * vy0)) by ring. rewrite U. lra. }
  clearbody k. clear - K Hr. nra.
Qed.

Section Corner.
Variables a b c : pt.
Hypothesis TURN : side b a c <> 0.
Let ax : R := dirx a b. Let ay : R := diry a b. Let cx : R := dirx c b. Let cy : R := diry c b.
Let sg : R := if Rlt_dec 0 (side b a c) then 1 else -1.
Lemma legs : (X a <> X b \/ Y a <> Y b) /\ (X c <> X b \/ Y c <> Y b).
Proof.
  unfold side in TURN. split.
  - destruct (Req_EM_T (X a) (X b)) as [E1|]; [|auto]. destruct (Req_EM_T (Y a) (Y b)) as [E2|]; [|auto]. exfalso. apply TURN. rewrite E1, E2. ring.
  - destruct (Req_EM_T (X c) (X b)) as [E1|]; [|auto]. destruct (Req_EM_T (Y c) (Y b)) as [E2|]; [|auto]. exfalso. apply TURN. rewrite E1, E2. ring.
Qed.
Lemma lens : 0 < len2 (minus a b) /\ 0 < len2 (minus c b).
Proof.
  destruct legs as [HA HC]. split.
  - assert (N : X (minus a b) <> 0 \/ Y (minus a b) <> 0) by (destruct HA; [left|right]; unfold minus, X, Y, P in *; rn; lra). apply (vnorm2D_ok _ N).
  - assert (N : X (minus c b) <> 0 \/ Y (minus c b) <> 0) by (destruct HC; [left|right]; unfold minus, X, Y, P in *; rn; lra). apply (vnorm2D_ok _ N).
Qed.
Lemma units : ax * ax + ay * ay = 1 /\ cx * cx + cy * cy = 1.
Proof. destruct lens as [LA LC]. split; [exact (unit2 _ LA)|exact (unit2 _ LC)]. Qed.
Lemma len_edist (p q : pt) : len2 (minus p q) = edist2 q p.
Proof. unfold len2, edist2, sqdist2, Rsqr. f_equal. unfold minus, X, Y, P. cbn. rn. ring. Qed.
Lemma turn_sign : sg * (ax * cy - ay * cx) = Rabs (cx * ay - cy * ax) /\ sg * sg = 1 /\ cx * ay - cy * ax <> 0.
Proof.
  destruct lens as [LA LC]. assert (E : side b a c = len2 (minus a b) * len2 (minus c b) * (ax * cy - ay * cx)).
  { unfold side, ax, ay, cx, cy, dirx, diry. field. lra. }
  assert (N : ax * cy - ay * cx <> 0) by (intros Q; apply TURN; rewrite E, Q; ring).
  pose proof (Rmult_lt_0_compat _ _ LA LC) as LL. set (w := ax * cy - ay * cx) in *. replace (cx * ay - cy * ax) with (- w) by (unfold w; ring). rewrite Rabs_Ropp.
  unfold sg. destruct (Rlt_dec 0 (side b a c)) as [H|H]; rewrite E in H; (split; [|split; [ring|lra]]).
  - assert (0 < w) by nra. rewrite Rabs_right; lra.
  - assert (w < 0) by nra. rewrite Rabs_left; lra.
Qed.
Lemma depth_a (u v z : R) : depth a b c (P (X b + u) (Y b + v) z) = sg * (ax * v - ay * u).
Proof.
  destruct lens as [LA _]. unfold depth. fold sg. rewrite <- (len_edist a b). unfold ax, ay, dirx, diry, side, P. unfold X at 2 4, Y at 2 4. cbn [vx vy].
  set (L := len2 (minus a b)) in *. clearbody L. unfold X, Y. cbn. field. lra.
Qed.
Lemma depth_c (u v z : R) : depth c b a (P (X b + u) (Y b + v) z) = sg * (cy * u - cx * v).
Proof.
  destruct lens as [LA LC]. assert (SS : side b c a = - side b a c) by (unfold side; ring).
  assert (EG : (if Rlt_dec 0 (side b c a) then 1 else -1) = - sg). { rewrite SS. unfold sg. destruct (Rlt_dec 0 (- side b a c)), (Rlt_dec 0 (side b a c)); lra. }
  unfold depth. rewrite EG. rewrite <- (len_edist c b). unfold cx, cy, dirx, diry, side, P. set (L := len2 (minus c b)) in *. clearbody L. unfold X, Y. cbn. field. lra.
Qed.

(* the position of the bumper *)
Variable fc : @floor_cfg Rnum.
Variable inset : R.
Let r : R := fl_cornerRadius fc.
Let t : R := acos (ax * cx + ay * cy).
Let S2 : R := sin (t / 2).
Let C2 : R := cos (t / 2).
Let wx : R := (ax + cx) / (2 * C2). Let wy : R := (ay + cy) / (2 * C2).
Let D : R := inset / S2 + Rmax 0 ((r / S2 - r) - (inset / S2 - inset)).
Lemma angles : 0 < S2 <= 1 /\ 0 < C2 /\ 2 * S2 * C2 = Rabs (cx * ay - cy * ax) /\ wx * wx + wy * wy = 1 /\ -1 <= ax * cx + ay * cy <= 1.
Proof.
  destruct units as [UA UC]. destruct turn_sign as (_ & _ & N).
  destruct (corner_angles ax ay cx cy UA UC N) as (DD & T & C & SS & H1 & H2 & H3 & H4). fold t in T, C, SS, H1, H2, H3, H4. fold S2 in H1, H3. fold C2 in H2, H3, H4.
  split; [split; [exact H1|apply SIN_bound]|]. split; [exact H2|]. split; [exact H3|]. split; [|lra].
  transitivity (((ax * ax + ay * ay) + (cx * cx + cy * cy) + 2 * (ax * cx + ay * cy)) / (4 * (C2 * C2))); [unfold wx, wy; field; lra|]. rewrite UA, UC.
  replace (1 + 1 + 2 * (ax * cx + ay * cy)) with (2 * (1 + (ax * cx + ay * cy))) by ring. rewrite H4. field. lra.
Qed.
Lemma corner_pos : cornerBumperPos fc a b c inset = Ok (P (X b + D * wx) (Y b + D * wy) (Z b)).
Proof.
  destruct legs as [HA HC]. destruct angles as ([S0 S1] & C0 & SC & _ & DD). destruct turn_sign as (_ & _ & N). destruct units as [UA UC].
  assert (NA : X (minus a b) <> 0 \/ Y (minus a b) <> 0) by (destruct HA; [left|right]; unfold minus, X, Y, P in *; rn; lra).
  assert (NC : X (minus c b) <> 0 \/ Y (minus c b) <> 0) by (destruct HC; [left|right]; unfold minus, X, Y, P in *; rn; lra).
  destruct (vnorm2D_ok (minus a b) NA) as (EA & LA & PA). destruct (vnorm2D_ok (minus c b) NC) as (EC & LC & PC).
  change (X (minus a b) / len2 (minus a b)) with ax in EA. change (Y (minus a b) / len2 (minus a b)) with ay in EA.
  change (X (minus c b) / len2 (minus c b)) with cx in EC. change (Y (minus c b) / len2 (minus c b)) with cy in EC.
  unfold cornerBumperPos. fold r. change (vsub a b) with (minus a b). change (vsub c b) with (minus c b). rewrite EA, EC. cbn [bind].
  assert (ED : vdot (P ax ay 0) (P cx cy 0) = ax * cx + ay * cy) by (unfold P; cbn; rn; ring). rewrite ED.
  rewrite pacos_ok by exact DD. cbn [bind]. fold t. change (@nsin Rnum (@ndiv Rnum t (@nZ Rnum 2))) with S2. rewrite !pdiv_nz by lra. cbn [bind]. cbv zeta. rewrite pmax_R.
  assert (L2 : len2 (P (ax + cx) (ay + cy) 0) = 2 * C2).
  { unfold len2. change (X (P (ax + cx) (ay + cy) 0)) with (ax + cx). change (Y (P (ax + cx) (ay + cy) 0)) with (ay + cy).
    destruct (corner_angles ax ay cx cy UA UC N) as (_ & _ & _ & _ & _ & _ & _ & H4). fold t in H4. fold C2 in H4.
    replace ((ax + cx) * (ax + cx) + (ay + cy) * (ay + cy)) with ((2 * C2) * (2 * C2)); [apply sqrt_square; lra|].
    transitivity ((ax * ax + ay * ay) + (cx * cx + cy * cy) + 2 * (ax * cx + ay * cy)); [|ring]. rewrite UA, UC. lra. }
  assert (EV : vadd (P ax ay 0) (P cx cy 0) = P (ax + cx) (ay + cy) 0) by (apply pt_ext; unfold X, Y, Z, P; cbn; rn; ring). rewrite EV.
  assert (NS : X (P (ax + cx) (ay + cy) 0) <> 0 \/ Y (P (ax + cx) (ay + cy) 0) <> 0).
  { change (ax + cx <> 0 \/ ay + cy <> 0). destruct (Req_EM_T (ax + cx) 0); [|left; assumption]. right. intros E.
    apply N. replace cx with (- ax) by lra. replace cy with (- ay) by lra. ring. }
  destruct (vnorm2D_ok _ NS) as (EN & _ & _). rewrite EN. cbn [bind]. rewrite L2. f_equal.
  change (X (P (ax + cx) (ay + cy) 0)) with (ax + cx). change (Y (P (ax + cx) (ay + cy) 0)) with (ay + cy). fold wx wy.
  assert (EP : forall x y d, vadd b (vscale (P x y 0) d) = P (X b + d * x) (Y b + d * y) (Z b)) by (intros x y d; destruct b as [b1 b2 b3]; apply pt_ext; unfold X, Y, Z, P; cbn; rn; ring).
  apply EP.
Qed.
Lemma depth_bisector (k z : R) : depth a b c (P (X b + k * wx) (Y b + k * wy) z) = k * S2 /\ depth c b a (P (X b + k * wx) (Y b + k * wy) z) = k * S2.
Proof.
  destruct turn_sign as (TS & _ & _). destruct angles as (_ & C0 & SC & _). rewrite depth_a, depth_c. unfold wx, wy.
  split; (transitivity (k * (sg * (ax * cy - ay * cx)) / (2 * C2)); [field; lra|rewrite TS, <- SC; field; lra]).
Qed.
Lemma corner_room p x : 0 < inset -> 0 <= r -> cornerBumperPos fc a b c inset = Ok p -> edist2 x p <= inset -> in_rounded r a b c x.
Proof.
  intros I0 R0 EP EX. rewrite corner_pos in EP. apply Ok_inj in EP. destruct angles as ([S0 S1] & C0 & SC & WU & _). destruct units as [UA UC]. destruct turn_sign as (TS & SG & _).
  destruct (Rle_lt_dec inset r) as [C|C].
  - (* the disc lies in the one of the rounded corner *)
    assert (ED : D = r / S2 - r + inset).
    { unfold D. rewrite Rmax_right; [ring|]. assert (Q : 0 <= (r - inset) * (/ S2 - 1)).
      { apply Rmult_le_pos; [lra|]. assert (1 <= / S2) by (rewrite <- Rinv_1 at 1; apply Rinv_le_contravar; lra). lra. }
      unfold Rdiv. lra. }
    exists (P (X b + (r / S2) * wx) (Y b + (r / S2) * wy) (Z b)). split.
    + destruct (depth_bisector (r / S2) (Z b)) as [D1 D2]. split; [rewrite D1|rewrite D2]; right; field; lra.
    + eapply Rle_trans; [apply (edist2_triangle x p)|]. apply Rle_trans with (inset + (r - inset)); [|lra]. apply Rplus_le_compat; [exact EX|]. subst p. apply edist2_le; [lra|].
      change (X (P (X b + D * wx) (Y b + D * wy) (Z b))) with (X b + D * wx). change (Y (P (X b + D * wx) (Y b + D * wy) (Z b))) with (Y b + D * wy).
      change (X (P (X b + r / S2 * wx) (Y b + r / S2 * wy) (Z b))) with (X b + r / S2 * wx). change (Y (P (X b + r / S2 * wx) (Y b + r / S2 * wy) (Z b))) with (Y b + r / S2 * wy).
      right. rewrite ED. transitivity ((r - inset) * (r - inset) * (wx * wx + wy * wy)); [ring|rewrite WU; ring].
  - assert (ED : D = inset / S2).
    { unfold D. rewrite Rmax_left; [ring|]. assert (Q : (r - inset) * (/ S2 - 1) <= 0).
      { assert (1 <= / S2) by (rewrite <- Rinv_1 at 1; apply Rinv_le_contravar; lra). assert (0 <= (inset - r) * (/ S2 - 1)) by (apply Rmult_le_pos; lra). lra. }
      unfold Rdiv. lra. }
    set (k := 1 - r / inset). assert (K : 0 <= k /\ k * inset = inset - r).
    { split; [|unfold k; field; lra]. unfold k. assert (r / inset <= 1) by (apply Rmult_le_reg_r with inset; [lra|]; unfold Rdiv; rewrite Rmult_assoc, Rinv_l; lra). lra. }
    destruct K as [K0 K1].
    set (vx0 := X x - (X b + D * wx)). set (vy0 := Y x - (Y b + D * wy)).
    assert (VV : vx0 * vx0 + vy0 * vy0 <= inset * inset).
    { pose proof (edist2_sq x p) as Q. pose proof (edist2_nn x p) as Q0. subst p. change (X (P (X b + D * wx) (Y b + D * wy) (Z b))) with (X b + D * wx) in Q. change (Y (P (X b + D * wx) (Y b + D * wy) (Z b))) with (Y b + D * wy) in Q. fold vx0 vy0 in Q. rewrite <- Q. apply Rmult_le_compat; assumption. }
    exists (P (X b + (D * wx + k * vx0)) (Y b + (D * wy + k * vy0)) 0). split; [split|].
    + rewrite depth_a. assert (Q : sg * (ax * (D * wy) - ay * (D * wx)) = inset).
      { destruct (depth_bisector D 0) as [Q _]. rewrite depth_a in Q. rewrite Q, ED. field. lra. }
      pose proof (unit_cross ax ay vx0 vy0 inset sg UA SG ltac:(lra) VV) as L. replace (sg * (ax * (D * wy + k * vy0) - ay * (D * wx + k * vx0))) with (sg * (ax * (D * wy) - ay * (D * wx)) + k * (sg * (ax * vy0 - ay * vx0))) by ring.
      rewrite Q. assert (k * - inset <= k * (sg * (ax * vy0 - ay * vx0))) by (apply Rmult_le_compat_l; assumption). lra.
    + rewrite depth_c. assert (Q : sg * (cy * (D * wx) - cx * (D * wy)) = inset).
      { destruct (depth_bisector D 0) as [_ Q]. rewrite depth_c in Q. rewrite Q, ED. field. lra. }
      pose proof (unit_cross cx cy vx0 vy0 inset (- sg) UC ltac:(lra) ltac:(lra) VV) as L. replace (sg * (cy * (D * wx + k * vx0) - cx * (D * wy + k * vy0))) with (sg * (cy * (D * wx) - cx * (D * wy)) + k * (- sg * (cx * vy0 - cy * vx0))) by ring.
      rewrite Q. assert (k * - inset <= k * (- sg * (cx * vy0 - cy * vx0))) by (apply Rmult_le_compat_l; assumption). lra.
    + apply edist2_le; [exact R0|]. change (X (P (X b + (D * wx + k * vx0)) (Y b + (D * wy + k * vy0)) 0)) with (X b + (D * wx + k * vx0)). change (Y (P (X b + (D * wx + k * vx0)) (Y b + (D * wy + k * vy0)) 0)) with (Y b + (D * wy + k * vy0)).
      replace (X x - (X b + (D * wx + k * vx0))) with ((r / inset) * vx0) by (unfold vx0, k; ring). replace (Y x - (Y b + (D * wy + k * vy0))) with ((r / inset) * vy0) by (unfold vy0, k; ring).
      replace (r / inset * vx0 * (r / inset * vx0) + r / inset * vy0 * (r / inset * vy0)) with ((r / inset) * (r / inset) * (vx0 * vx0 + vy0 * vy0)) by ring.
      apply Rle_trans with ((r / inset) * (r / inset) * (inset * inset)); [apply Rmult_le_compat_l; [apply Rle_0_sqr|exact VV]|right; field; lra].
Qed.
End Corner.
