(** Properties C65 to C67: angles, thumb corner and ridge, and the hitch of a finished plan.  Read with
    PlanSpec.v and PlanSpec2.v.  All over the reals. *)
From Coq Require Import Reals Lra ZArith List Bool Arith Lia.
From Verif Require Import Num Calc GeoModel GeoSpec GeoMat GeoRigid GeoIso EdgeModel ArcModel MeshModel KeyModel LayoutModel LayoutSpec LayoutProof BossModel PlanModel
  HullSpec HullDist PlanSpec WallProof BossFit BossFit2 BossKeys PlanMove PlanTent PlanWalls PlanFinal PlanSpec2 PlanAngle PlanRidge P_Layout P_Plan.
Import ListNotations.
Open Scope R_scope.

Lemma rise_normal (pl : @plane Rnum) (n : pt) : (forall v w, rise pl v - rise pl w = inner (minus v w) n) -> pnormal pl = n.
Proof.
  intros H. pose proof (H (P 1 0 0) (P 0 0 0)) as HX. pose proof (H (P 0 1 0) (P 0 0 0)) as HY. pose proof (H (P 0 0 1) (P 0 0 0)) as HZ.
  destruct pl as [[a b d] [x y z]], n as [nx ny nz]. unfold rise, inner, minus, P, X, Y, Z in *. cbn [ppos pnormal vx vy vz] in *. rn. 
  assert (E1 : x = nx) by lra. assert (E2 : y = ny) by lra. assert (E3 : z = nz) by lra. rewrite E1, E2, E3. reflexivity.
Qed.
Lemma line_normal (pl : @plane Rnum) (l : @line Rnum) a : ldir l = P (cos a) (sin a) 0 -> (forall v, rise pl v = - beyond l v) -> pnormal pl = wall_normal a.
Proof.
  intros D H. apply rise_normal. intros v w. rewrite !H. unfold beyond, wall_normal, inner, minus. rewrite D. unfold P, X, Y, Z. cbn [vx vy vz]. rn. ring.
Qed.

(** * C65 *)
(* every roof faces up, tented by the configured angle towards the middle, tilted, and split; the walls run at
   their configured angles; the crease bisects the alphanumeric (thumb) and pinky roofs, and both roofs meet at it *)
Theorem C65_plan_angles : forall (c : @plan_cfg Rnum) fuel side p, newPlan c fuel side = Ok p -> 0 <= bossDiameter (bossCfg c) ->
  let ps := planPlanes p in let a := pA ps in
  let facing t := turned c (P (sin t) 0 (cos t)) in          (* up, tented by t *)
  let across t := turned c (P (cos t) 0 (- sin t)) in        (* to the right, tented by t *)
  pnormal (alnumOT a) = facing (alnumTentAngle c) /\ pnormal (thumbOT a) = facing (thumbTentAngle c) /\ pnormal (pinkyOT a) = facing (pinkyTentAngle c) /\
  pnormal (alnumOL a) = across 0 /\ pnormal (alnumOF a) = turned c (wall_normal (alnumFrontAngle c)) /\ pnormal (pinkyOR a) = turned c (P (-1) 0 0) /\
  pnormal (alnumOB ps) = wall_normal (alnumBackAngle c + splitAngle c + PI) /\ pnormal (pinkyOF ps) = wall_normal (thumbFrontAngle c + splitAngle c) /\
  pnormal (pivotOB a) = across ((alnumTentAngle c + pinkyTentAngle c) / 2) /\ pnormal (pivotOF a) = across ((thumbTentAngle c + pinkyTentAngle c) / 2) /\
  (forall v, on_plane (pivotOB a) v -> rise (alnumOT a) v = rise (pinkyOT a) v) /\ (forall v, on_plane (pivotOF a) v -> rise (thumbOT a) v = rise (pinkyOT a) v).
Proof.
  intros c fuel side p H D ps a facing across. destruct (n_walled _ _ _ (newPlan_ok c fuel side p D H)) as (lB & lF & W).
  destruct (newPlan_planes c fuel side p D H) as (y & qs & s & ET & Q). destruct (planTent_angles c side y qs ET) as (A1 & A2 & A3 & A4 & A5 & A6 & A7 & A8 & A9 & A10 & _).
  assert (RZ : forall t, rotY_pt t origin (P 0 0 1) = P (sin t) 0 (cos t)) by (intros t; unfold rotY_pt, origin, P, X, Y, Z; cbn [vx vy vz]; rn; apply pt_ext; unfold X, Y, Z; cbn [vx vy vz]; rn; ring).
  assert (RX : forall t, rotY_pt t origin (P 1 0 0) = P (cos t) 0 (- sin t)) by (intros t; unfold rotY_pt, origin, P, X, Y, Z; cbn [vx vy vz]; rn; apply pt_ext; unfold X, Y, Z; cbn [vx vy vz]; rn; ring).
  rewrite !RZ in *. rewrite !RX in *.
  assert (S : forall sel, In sel selA -> pnormal (sel a) = turned c (pnormal (sel qs))) by (intros sel Hs; apply (Q sel Hs)).
  assert (T : forall sel, In sel selA -> forall v, rise (sel a) v = rise (sel qs) (unturned c (minus v s))) by (intros sel Hs; apply (Q sel Hs)).
  split; [rewrite S, A1 by (unfold selA; cbn [In]; auto 20); reflexivity|].
  split; [rewrite S, A2 by (unfold selA; cbn [In]; auto 20); reflexivity|].
  split; [rewrite S, A3 by (unfold selA; cbn [In]; auto 20); reflexivity|].
  split; [rewrite S, A4 by (unfold selA; cbn [In]; auto 20); unfold across; rewrite cos_0, sin_0, Ropp_0; reflexivity|].
  split; [rewrite S, A5 by (unfold selA; cbn [In]; auto 20); reflexivity|].
  split; [rewrite S, A6 by (unfold selA; cbn [In]; auto 20); reflexivity|].
  pose proof (w_planes _ _ _ _ W) as WP. pose proof (w_back _ _ _ _ W) as (_ & _ & (DB & _)). pose proof (w_front _ _ _ _ W) as (_ & _ & (DF & _)).
  rewrite (w_dirB _ _ _ _ W) in DB. rewrite (w_dirF _ _ _ _ W) in DF. cbn [wPlanes wB wF] in *.
  split; [exact (line_normal _ _ _ DB (fun v => proj1 (proj2 (WP v))))|]. split; [exact (line_normal _ _ _ DF (fun v => proj2 (proj2 (proj2 (WP v)))))|].
  split; [rewrite S, A7 by (unfold selA; cbn [In]; auto 20); reflexivity|].
  split; [rewrite S, A8 by (unfold selA; cbn [In]; auto 20); reflexivity|].
  assert (ON : forall pl v, on_plane pl v -> rise pl v = 0) by (intros pl v O; exact O).
  split; intros v O; apply ON in O; rewrite T in O by (unfold selA; cbn [In]; auto 20); rewrite !T by (unfold selA; cbn [In]; auto 20);
  [pose proof (A9 (unturned c (minus v s))) as E|pose proof (A10 (unturned c (minus v s))) as E]; rewrite O, Rmult_0_r in E; lra.
Qed.
Print Assumptions C65_plan_angles.
(* the inner roofs meet at the same creases, and where the alphanumeric and the thumb roof meet on the outside, the pinky roof passes too *)
Theorem C65_creases : forall (c : @plan_cfg Rnum) fuel side p, newPlan c fuel side = Ok p -> 0 <= bossDiameter (bossCfg c) ->
  let a := pA (planPlanes p) in
  (forall v, on_plane (pivotIB a) v -> rise (alnumIT a) v = rise (pinkyIT a) v) /\ (forall v, on_plane (pivotIF a) v -> rise (thumbIT a) v = rise (pinkyIT a) v) /\
  (thumbTentAngle c = pinkyTentAngle c -> forall v, rise (thumbOT a) v = rise (pinkyOT a) v /\ rise (thumbIT a) v = rise (pinkyIT a) v) /\
  thumbTentAngle c < alnumTentAngle c /\
  (alnumTentAngle c < thumbTentAngle c + PI -> forall v, on_plane (alnumOT a) v -> on_plane (thumbOT a) v -> on_plane (pinkyOT a) v).
Proof.
  intros c fuel side p H D a. destruct (C65_plan_angles c fuel side p H D) as (_ & _ & _ & _ & _ & _ & _ & _ & _ & _ & CB & CF). fold a in CB, CF.
  destruct (C62_roofs c fuel side p H D) as (_ & _ & _ & T1 & T2 & T3). fold a in T1, T2, T3.
  destruct (newPlan_planes c fuel side p D H) as (y & qs & s & ET & Q). destruct (planTent_angles c side y qs ET) as (_ & _ & _ & _ & _ & _ & _ & _ & _ & _ & EB & EF & LT & x & RO).
  assert (T : forall sel, In sel selA -> forall v, rise (sel a) v = rise (sel qs) (unturned c (minus v s))) by (intros sel Hs; apply (Q sel Hs)).
  split; [|split; [|split; [|split; [exact LT|]]]].
  - intros v O. rewrite T1, T2. f_equal. apply CB. unfold on_plane in *. change (rise (pivotOB a) v = 0). rewrite T by (unfold selA; cbn [In]; auto 20). rewrite <- EB, <- T by (unfold selA; cbn [In]; auto 20). exact O.
  - intros v O. rewrite T3, T2. f_equal. apply CF. unfold on_plane in *. change (rise (pivotOF a) v = 0). rewrite T by (unfold selA; cbn [In]; auto 20). rewrite <- EF, <- T by (unfold selA; cbn [In]; auto 20). exact O.
  - intros EQ v. assert (E1 : rise (thumbOT a) v = rise (pinkyOT a) v) by (rewrite !T by (unfold selA; cbn [In]; auto 20); destruct (RO (unturned c (minus v s))) as (_ & R2 & R3); rewrite R2, R3, EQ; reflexivity).
    split; [exact E1|]. rewrite T3, T2, E1. reflexivity.
  - intros LP v OA OT. change (rise (alnumOT a) v = 0) in OA. change (rise (thumbOT a) v = 0) in OT. change (rise (pinkyOT a) v = 0).
    rewrite T in * by (unfold selA; cbn [In]; auto 20). destruct (RO (unturned c (minus v s))) as (R1 & R2 & R3). rewrite R3. rewrite R1 in OA. rewrite R2 in OT. clear R1 R2 R3 T T1 T2 T3 CB CF RO.
    set (w := unturned c (minus v s)) in *. set (u := X w - x) in *. set (z := Z w) in *. clearbody u z.
    set (ta := alnumTentAngle c) in *. set (tt := thumbTentAngle c) in *.
    assert (SN : 0 < sin (ta - tt)) by (apply sin_gt_0; lra). rewrite sin_minus in SN.
    assert (U : (sin ta * cos tt - cos ta * sin tt) * u = 0). { transitivity (cos tt * (sin ta * u + cos ta * z) - cos ta * (sin tt * u + cos tt * z)); [ring|]. rewrite OA, OT. ring. }
    assert (V : (sin ta * cos tt - cos ta * sin tt) * z = 0). { transitivity (sin ta * (sin tt * u + cos tt * z) - sin tt * (sin ta * u + cos ta * z)); [ring|]. rewrite OA, OT. ring. }
    apply Rmult_integral in U. apply Rmult_integral in V. destruct U as [U|U]; [lra|]. destruct V as [V|V]; [lra|]. rewrite U, V. ring.
Qed.
Print Assumptions C65_creases.

(** * C66 *)
(* the left side of the thumb cluster runs along the mean direction of both innermost thumb keys and touches the cluster;
   the vertical plane through its meeting point with the inner front wall bisects the wall and the x axis;
   the front of the ridge is the leftmost of the tapered ridge point and the point where the line of sight past all thumb keys meets the cluster's left side *)
Theorem C66_thumb_corner : forall (c : @plan_cfg Rnum) fuel side p, newPlan c fuel side = Ok p -> 0 <= bossDiameter (bossCfg c) ->
  exists l, thumb_edge (planLayout p) l /\
  (exists s, 0 < s /\ P (cos (thumbFrontAngle c + splitAngle c) + 1) (sin (thumbFrontAngle c + splitAngle c)) 0 = scaled s (pnormal (planThumbL p))) /\
  (exists q, on_line l q /\ on_plane (pinkyIF (planPlanes p)) q /\ on_plane (planThumbL p) q) /\
  ridge_front c (flat_map kbounds (lthumb (planLayout p) SideBoth)) l (thumbOLBp (planPoints p)) (thumbILFp (planPoints p)) (ridgeORF (planPoints p)).
Proof. intros c fuel side p H D. exact (newPlan_ridge c fuel side p D H). Qed.
Print Assumptions C66_thumb_corner.

(** * C67 *)
(* the hitch, seen from above, in the frame of the front wall (x to the left from its middle, y away from it): a trapezoid
   from the wall to margin + depth, tapering at the configured angle, its sides half a depth from the screws; the screws are
   one screw pitch apart, at the middle of the depth.  The frame keeps distances *)
Theorem C67_hitch : forall (c : @plan_cfg Rnum) fuel side p h, newPlan c fuel side = Ok p -> palm c = Some h ->
  let a := pinkyORFp (planPoints p) in let b := thumbOLFp (planPoints p) in
  let d := hitchDepth h in let s := hitchScrewPitch h in let m := palmBodyMargin h in let t := palmTaperAngle h in
  let half y := s / 2 + d / 2 / cos t + (m + d / 2 - y) * (sin t / cos t) in
  exists ht, planHitch_ p = Some ht /\ edist2 a b <> 0 /\ cos t <> 0 /\
  bossPos (bossHitchL ht) = frame a b (s / 2) (m + d / 2) /\ bossPos (bossHitchR ht) = frame a b (- (s / 2)) (m + d / 2) /\
  hitchOLB ht = frame a b (half 0) 0 /\ hitchORB ht = frame a b (- half 0) 0 /\
  hitchOLF ht = frame a b (half (m + d)) (m + d) /\ hitchORF ht = frame a b (- half (m + d)) (m + d) /\
  forall x y x' y', edist2 (frame a b x y) (frame a b x' y') = sqrt ((x - x')² + (y - y')²).
Proof.
  intros c fuel side p h H PH a b d s m t half. destruct (newPlan_hitch c fuel side p h H PH) as (ht & E & EH). exists ht. split; [exact E|].
  destruct (planHitch_ok c h _ _ EH) as (N & C & B1 & B2 & B3 & B4 & B5 & B6).
  repeat (split; [assumption|]). intros x y x' y'. exact (frame_rigid _ _ x y x' y' N).
Qed.
Print Assumptions C67_hitch.

(* the default settings meet the hypotheses of C65 to C67: a plan with a hitch, tented roofs and an upright thumb plane *)
(* C67_nonvacuous: see P_Runs.v *)
