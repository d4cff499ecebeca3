(** The rounded front of the hitch, seen in the frame of the front wall. *)
From Coq Require Import Reals Lra Psatz ZArith List Bool Arith Lia.
From Verif Require Import Num GeoModel EdgeModel GeoSpec GeoMat GeoPlane GeoCirc ArcModel ArcSpec ArcProof ArcCorner ArcShape PartProof BossModel PlanModel PlanSpec2 PlanRidge BracketModel BumperModel PalmModel PalmSpec.
Import ListNotations.
Open Scope R_scope.

Section InFrame.
Variables (a b : pt).
Hypothesis NE : edist2 a b <> 0.
Let n : R := edist2 a b.
Let ux : R := (X b - X a) / n.
Let uy : R := (Y b - Y a) / n.
Lemma u_unit : ux * ux + uy * uy = 1.
Proof.
  assert (N2 : n * n = (X b - X a) * (X b - X a) + (Y b - Y a) * (Y b - Y a)). { unfold n, edist2. rewrite sqrt_sqrt; [unfold sqdist2, Rsqr; ring|]. unfold sqdist2. apply Rplus_le_le_0_compat; apply Rle_0_sqr. }
  unfold ux, uy. transitivity (((X b - X a) * (X b - X a) + (Y b - Y a) * (Y b - Y a)) / (n * n)); [field; exact NE|]. rewrite <- N2. field. exact NE.
Qed.
Lemma frame_pt x y : frame a b x y = P ((X a + X b) / 2 + x * ux - y * uy) ((Y a + Y b) / 2 + x * uy + y * ux) 0. Proof. reflexivity. Qed.
Lemma frame_diff x1 y1 x2 y2 : X (frame a b x1 y1) - X (frame a b x2 y2) = (x1 - x2) * ux - (y1 - y2) * uy /\ Y (frame a b x1 y1) - Y (frame a b x2 y2) = (x1 - x2) * uy + (y1 - y2) * ux.
Proof. rewrite !frame_pt. unfold P, X, Y. cbn [vx vy]. split; ring. Qed.
(* directions in the frame *)
Lemma frame_dirs x1 y1 x2 y2 l e1 e2 : 0 < l -> e1 * e1 + e2 * e2 = 1 -> x1 - x2 = l * e1 -> y1 - y2 = l * e2 ->
  dirx (frame a b x1 y1) (frame a b x2 y2) = e1 * ux - e2 * uy /\ diry (frame a b x1 y1) (frame a b x2 y2) = e1 * uy + e2 * ux /\
  (X (frame a b x1 y1) <> X (frame a b x2 y2) \/ Y (frame a b x1 y1) <> Y (frame a b x2 y2)).
Proof.
  intros L U D1 D2. destruct (frame_diff x1 y1 x2 y2) as [F1 F2]. pose proof u_unit as UU.
  assert (LE : len2 (minus (frame a b x1 y1) (frame a b x2 y2)) = l).
  { unfold len2. apply sqrt_lem_1; [apply Rplus_le_le_0_compat; apply Rle_0_sqr|lra|]. unfold minus. change (X (P ?x _ _)) with x. change (Y (P _ ?y _)) with y. rewrite F1, F2, D1, D2.
    transitivity (l * l * ((e1 * e1 + e2 * e2) * (ux * ux + uy * uy))); [rewrite U, UU; ring|ring]. }
  assert (DX : dirx (frame a b x1 y1) (frame a b x2 y2) = e1 * ux - e2 * uy) by (unfold dirx; rewrite LE, F1, D1, D2; field; lra).
  assert (DY : diry (frame a b x1 y1) (frame a b x2 y2) = e1 * uy + e2 * ux) by (unfold diry; rewrite LE, F2, D1, D2; field; lra).
  split; [exact DX|]. split; [exact DY|]. destruct (Req_dec (X (frame a b x1 y1)) (X (frame a b x2 y2))) as [E1|E1]; [|left; exact E1]. right. intros E2.
  assert (Q1 : e1 * ux - e2 * uy = 0) by (rewrite <- DX; unfold dirx; rewrite E1; unfold Rdiv; ring). assert (Q2 : e1 * uy + e2 * ux = 0) by (rewrite <- DY; unfold diry; rewrite E2; unfold Rdiv; ring).
  assert (E : (e1 * e1 + e2 * e2) * (ux * ux + uy * uy) = (e1 * ux - e2 * uy) * (e1 * ux - e2 * uy) + (e1 * uy + e2 * ux) * (e1 * uy + e2 * ux)) by ring. rewrite U, UU, Q1, Q2 in E. lra.
Qed.
(* an arc of a corner in the frame: each point is the place of a point at distance r from the centre *)
Lemma frame_corner q r xa ya la a1 a2 xc yc lc c1 c2 x y l : eps <= r -> 0 < la -> 0 < lc -> a1 * a1 + a2 * a2 = 1 -> c1 * c1 + c2 * c2 = 1 ->
  xa - x = la * a1 -> ya - y = la * a2 -> xc - x = lc * c1 -> yc - y = lc * c2 -> c1 * a2 - c2 * a1 <> 0 ->
  cornerArc2D q r (frame a b xa ya) (frame a b x y) (frame a b xc yc) = Ok l ->
  forall p, In p l -> exists w, p = placed a b w /\ sqdist2 w (P (- (x + (a1 + c1) * r / Rabs (c1 * a2 - c2 * a1))) (- (y + (a2 + c2) * r / Rabs (c1 * a2 - c2 * a1))) 0) = r * r.
Proof.
  intros R0 LA LC UA UC D1 D2 D3 D4 NS H p I. destruct (frame_dirs xa ya x y la a1 a2 LA UA D1 D2) as (DA1 & DA2 & NA). destruct (frame_dirs xc yc x y lc c1 c2 LC UC D3 D4) as (DC1 & DC2 & NC). pose proof u_unit as UU.
  destruct q as [h amax]. pose proof (corner_reduces h amax r _ _ _ R0 NA NC) as K. cbv zeta in K. rewrite DA1, DA2, DC1, DC2 in K.
  assert (ES : (c1 * ux - c2 * uy) * (a1 * uy + a2 * ux) - (c1 * uy + c2 * ux) * (a1 * ux - a2 * uy) = c1 * a2 - c2 * a1).
  { transitivity ((c1 * a2 - c2 * a1) * (ux * ux + uy * uy)); [ring|rewrite UU; ring]. }
  rewrite ES in K. destruct (K NS) as (st & sp & _ & _ & SPN & E). rewrite E in H. clear E K. set (s := Rabs (c1 * a2 - c2 * a1)) in *. assert (S0 : 0 < s) by (apply Rabs_pos_lt; exact NS).
  assert (HS : Rabs sp <= PI). { rewrite SPN, Rabs_mult. pose proof (acos_bound ((a1 * ux - a2 * uy) * (c1 * ux - c2 * uy) + (a1 * uy + a2 * ux) * (c1 * uy + c2 * ux))) as AB. rewrite Rabs_right by lra. destruct (Rlt_dec 0 (c1 * a2 - c2 * a1)); [rewrite Rabs_right by lra|rewrite Rabs_left by lra]; lra. }
  destruct (arc_between _ r st sp _ l (or_intror R0) HS H eq_refl p I) as (t & _ & ->).
  change (X (P ?u _ _)) with u. change (Y (P _ ?u _)) with u. set (e1 := r * cos t). set (e2 := r * sin t). set (k1 := x + (a1 + c1) * r / s). set (k2 := y + (a2 + c2) * r / s).
  exists (P (- (k1 + (e1 * ux + e2 * uy))) (- (k2 + (e2 * ux - e1 * uy))) 0). split.
  - unfold placed. change (X (P ?u _ _)) with u. change (Y (P _ ?u _)) with u. rewrite !frame_pt. change (X (P ?u _ _)) with u. change (Y (P _ ?u _)) with u. change (Z (P _ _ ?u)) with u. unfold k1, k2. rewrite !Ropp_involutive. unfold P.
    f_equal.
    + transitivity ((X a + X b) / 2 + x * ux - y * uy + (a1 * ux - a2 * uy + (c1 * ux - c2 * uy)) * r / s + e1 * (ux * ux + uy * uy)); [rewrite UU; ring|field; lra].
    + transitivity ((Y a + Y b) / 2 + x * uy + y * ux + (a1 * uy + a2 * ux + (c1 * uy + c2 * ux)) * r / s + e2 * (ux * ux + uy * uy)); [rewrite UU; ring|field; lra].
  - unfold sqdist2, Rsqr, P, X, Y. cbn [vx vy]. transitivity ((e1 * e1 + e2 * e2) * (ux * ux + uy * uy)); [ring|]. rewrite UU. unfold e1, e2. pose proof (sin2_cos2 t) as U2. unfold Rsqr in U2. transitivity (r * r * (sin t * sin t + cos t * cos t)); [ring|rewrite U2; ring].
Qed.
End InFrame.

(* the arcs of the two front corners of the hitch, as the body draws them *)
Lemma hitch_corners q plc (h : @hitch_cfg Rnum) pts ht (r : R) l2 l3 : planHitch plc h pts = Ok ht ->
  0 <= palmTaperAngle h < PI / 2 -> 0 < palmBodyMargin h + hitchDepth h -> eps <= r ->
  r * (1 - sin (palmTaperAngle h)) <= hitch_half h (- (palmBodyMargin h + hitchDepth h)) * cos (palmTaperAngle h) ->
  cornerArc2D q r (hitchOLB ht) (hitchOLF ht) (hitchORF ht) = Ok l2 -> cornerArc2D q r (hitchOLF ht) (hitchORF ht) (hitchORB ht) = Ok l3 ->
  forall p, In p (l2 ++ l3) -> exists w, p = placed (pinkyORFp pts) (thumbOLFp pts) w /\ hitch_round h r w.
Proof.
  intros HH TA D0 R0 FIT E2 E3 p I. destruct (planHitch_ok plc h pts ht HH) as (NE & CT & _ & _ & OLB & ORB & OLF & ORF). rewrite OLB, OLF, ORF in E2. rewrite OLF, ORF, ORB in E3. clear OLB ORB OLF ORF HH.
  set (a := pinkyORFp pts) in *. set (b := thumbOLFp pts) in *. clearbody a b. set (t := palmTaperAngle h) in *. set (m := palmBodyMargin h) in *. set (d := hitchDepth h) in *. set (s := hitchScrewPitch h) in *.
  pose proof PI_RGT_0 as PP. pose proof eps_pos as EP. assert (CA : 0 < cos t) by (apply cos_gt_0; lra). pose proof (sin2_cos2 t) as U. unfold Rsqr in U. assert (S1 : sin t < 1) by (rewrite <- sin_PI2; apply sin_increasing_1; lra).
  set (H1 := s / 2 + d / 2 / cos t + (m + d / 2 - (m + d)) * (sin t / cos t)) in *. set (H0 := s / 2 + d / 2 / cos t + (m + d / 2 - 0) * (sin t / cos t)) in *.
  assert (HF : hitch_half h (- (m + d)) = H1) by (unfold hitch_half, H1; fold t m d s; f_equal; f_equal; ring). rewrite HF in FIT.
  assert (HD : H0 - H1 = (m + d) / cos t * sin t) by (unfold H0, H1; field; lra). assert (HY : forall y, hitch_half h y * cos t = H1 * cos t + (y + (m + d)) * sin t) by (intros y; unfold hitch_half, H1; fold t m d s; field; lra).
  assert (HP : 0 < H1). { assert (0 < r * (1 - sin t)) by (apply Rmult_lt_0_compat; lra). apply (Rmult_lt_reg_r (cos t)); lra. }
  clearbody H0 H1. assert (LA : 0 < (m + d) / cos t) by (apply Rmult_lt_0_compat; [exact D0|apply Rinv_0_lt_compat, CA]).
  apply in_app_or in I. destruct I as [I|I].
  - assert (NS : -1 * - cos t - 0 * sin t <> 0) by lra.
    destruct (frame_corner a b NE q r H0 0 ((m + d) / cos t) (sin t) (- cos t) (- H1) (m + d) (2 * H1) (-1) 0 H1 (m + d) l2 R0 LA ltac:(lra) ltac:(lra) ltac:(lra) HD ltac:(field; lra) ltac:(ring) ltac:(ring) NS E2 p I) as (w & -> & DW).
    replace (Rabs (-1 * - cos t - 0 * sin t)) with (cos t) in DW by (rewrite Rabs_right; lra). exists w. split; [reflexivity|]. eexists. split; [|right; exact DW].
    unfold hitch_core. fold t m d. rewrite HY. change (X (P ?u _ _)) with u. change (Y (P _ ?u _)) with u.
    assert (K1 : - (H1 + (sin t + -1) * r / cos t) * cos t = - (H1 * cos t) + (1 - sin t) * r) by (field; lra). assert (K2 : - (m + d + (- cos t + 0) * r / cos t) = - (m + d) + r) by (field; lra). rewrite K2.
    split; [rewrite K1; lra|]. split; [|lra]. replace (- - (H1 + (sin t + -1) * r / cos t) * cos t) with (H1 * cos t - (1 - sin t) * r) by (field; lra). lra.
  - assert (NS : - sin t * 0 - - cos t * 1 <> 0) by lra.
    destruct (frame_corner a b NE q r H1 (m + d) (2 * H1) 1 0 (- H0) 0 ((m + d) / cos t) (- sin t) (- cos t) (- H1) (m + d) l3 R0 ltac:(lra) LA ltac:(lra) ltac:(lra) ltac:(ring) ltac:(ring) ltac:(lra) ltac:(field; lra) NS E3 p I) as (w & -> & DW).
    replace (Rabs (- sin t * 0 - - cos t * 1)) with (cos t) in DW by (rewrite Rabs_right; lra). exists w. split; [reflexivity|]. eexists. split; [|right; exact DW].
    unfold hitch_core. fold t m d. rewrite HY. change (X (P ?u _ _)) with u. change (Y (P _ ?u _)) with u.
    assert (K1 : - (- H1 + (1 + - sin t) * r / cos t) * cos t = H1 * cos t - (1 - sin t) * r) by (field; lra). assert (K2 : - (m + d + (0 + - cos t) * r / cos t) = - (m + d) + r) by (field; lra). rewrite K2.
    split; [rewrite K1; lra|]. split; [|lra]. replace (- - (- H1 + (1 + - sin t) * r / cos t) * cos t) with (- (H1 * cos t) + (1 - sin t) * r) by (field; lra). lra.
Qed.
