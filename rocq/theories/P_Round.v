(** Property C98: the wall is as thick around the corners as along the sides.  Over the reals. *)
From Coq Require Import Reals Lra Psatz ZArith List Bool Arith Lia.
From Verif Require Import Num Calc GeoModel GeoSpec GeoMat GeoRigid GeoPlane GeoCirc EdgeModel ArcModel MeshModel KeyModel LayoutModel LayoutSpec BossModel PlanModel PlanSpec PlanSpec2 BracketModel BumperModel BodyModel PartProof CableProof RoundProof
  P_Layout P_Plan P_Plan2 P_Chamfer.
Import ListNotations.
Open Scope R_scope.

(* all points of outer are at distance r from a common centre, and all points of inner at distance r - t *)
Definition concentric (r t : R) (outer inner_ : list pt) : Prop :=
  exists m, (forall p, In p outer -> Z p = 0 /\ edist2 p m = r) /\ (forall p, In p inner_ -> Z p = 0 /\ edist2 p m = r - t).
(* two walls meet at a corner: each ends on the inner side of the other *)
Definition walls_meet (f g : @plane Rnum) (endf endg : pt) : Prop := 0 < rise f endg /\ 0 < rise g endf.

Lemma both_centres q (fo go fi gi : @plane Rnum) (ao bo co ai bi ci : pt) ro w lo li : upright fo -> upright go -> upright fi -> upright gi -> thick w fo fi -> thick w go gi -> eps <= ro -> eps <= ro - w ->
  on_plane fo ao -> on_plane fo bo -> on_plane go bo -> on_plane go co -> walls_meet fo go ao co ->
  on_plane fi ai -> on_plane fi bi -> on_plane gi bi -> on_plane gi ci -> walls_meet fi gi ai ci ->
  cornerArc2D q ro ao bo co = Ok lo -> (cornerArc2D q (ro - w) ai bi ci = Ok li \/ cornerArc2D q (ro - w) ci bi ai = Ok li) -> concentric ro w lo li.
Proof.
  intros UFO UGO UFI UGI TF TG HO HI O1 O2 O3 O4 (O5 & O6) I1 I2 I3 I4 (I5 & I6) HLO HLI.
  destruct (corner_centre q fo go ao bo co ro lo UFO UGO HO O1 O2 O3 O4 O5 O6 HLO) as (NP & m & M1 & M2 & MO).
  assert (E : exists m', rise fi m' = ro - w /\ rise gi m' = ro - w /\ forall p, In p li -> Z p = 0 /\ edist2 p m' = ro - w).
  { destruct HLI as [HLI|HLI].
    - destruct (corner_centre q fi gi ai bi ci (ro - w) li UFI UGI HI I1 I2 I3 I4 I5 I6 HLI) as (_ & m' & E1 & E2 & E3). exists m'. auto.
    - destruct (corner_centre q gi fi ci bi ai (ro - w) li UGI UFI HI I4 I3 I2 I1 I6 I5 HLI) as (_ & m' & E1 & E2 & E3). exists m'. auto. }
  destruct E as (m' & E1 & E2 & E3). specialize (TF m'). specialize (TG m').
  destruct (same_place fo go m m' UFO UGO NP ltac:(lra) ltac:(lra)) as (EX & EY).
  exists m. split; [exact MO|]. intros p I. destruct (E3 p I) as (Z0 & D). split; [exact Z0|]. rewrite <- D. unfold edist2, sqdist2. rewrite EX, EY. reflexivity.
Qed.

Lemma wall_normal_unit t : unit_vec (wall_normal t).
Proof. unfold unit_vec, inner, wall_normal, P, X, Y, Z. cbn [vx vy vz]. pose proof (sin2_cos2 t) as E. unfold Rsqr in E. lra. Qed.
Lemma upright_of (pl : @plane Rnum) n : pnormal pl = n -> unit_vec n -> Z n = 0 -> upright pl.
Proof. intros E U Z0. unfold upright, wf_plane. rewrite E. split; assumption. Qed.
Lemma thick_upright d (i o : @plane Rnum) : thick d i o -> upright i -> upright o.
Proof.
  intros T (W & Z0). assert (E : pnormal i = pnormal o). { apply rise_normal. intros v w. rewrite !T. unfold rise. transitivity (inner (minus v (ppos o)) (pnormal o) - inner (minus w (ppos o)) (pnormal o)); [lra|]. unfold inner, minus, P, X, Y, Z. cbn [vx vy vz]. rn. ring. }
  unfold upright, wf_plane in *. rewrite <- E. split; assumption.
Qed.

(* the outlines of the body: three rounded corners each, in pairs with a common centre, on which the wall has its thickness *)
Theorem C98_round_corners : forall q (taper : option R) pmod pasin (c : @body_cfg Rnum) (pc : @plan_cfg Rnum) fuel sd pn b,
  newPlan pc fuel sd = Ok pn -> 0 <= bossDiameter (bossCfg pc) -> by_wallThickness c = wallThickness pc -> newBody q taper pmod pasin c pn = Ok b ->
  let p := planPoints pn in let ps := planPlanes pn in let a := pA ps in let r := by_outerCornerRadius c in let w := by_wallThickness c in
  eps <= r -> eps <= r - w ->
  (* the walls meet at each corner; at the left, the front wall meets the middle of the keyboard, straight ahead *)
  walls_meet (pinkyOF ps) (pinkyOR a) (thumbOLFp p) (pinkyORBp p) -> walls_meet (pinkyIF ps) (pinkyIR a) (thumbILFp p) (pinkyIRBp p) ->
  walls_meet (pinkyOR a) (alnumOB ps) (pinkyORFp p) (alnumORBp p) -> walls_meet (pinkyIR a) (alnumIB ps) (pinkyIRFp p) (alnumIRBp p) ->
  Y (thumbOLFp p) < Y (thumbORFp p) -> 0 < rise (pinkyOF ps) (vyz (thumbOLFp p)) -> Y (thumbILFp p) < Y (thumbIRFp p) -> 0 < rise (pinkyIF ps) (vyz (thumbILFp p)) ->
  exists frontLO frontRO backRO frontLI frontRI backRI hitch_ e1 e2,
    outlineO b = collapsed (exy (vyz (thumbOLFp p) :: frontLO ++ hitch_ ++ frontRO ++ backRO ++ [alnumOLBp p; vyz (alnumOLBp p)])) (1 / 1000) /\
    outlineI b = rev (collapsed (exy (vyz (alnumILBp p) :: alnumILBp p :: e1 ++ backRI ++ frontRI ++ e2 ++ frontLI ++ [vyz (thumbILFp p)])) (1 / 1000)) /\
    concentric r w frontLO frontLI /\ concentric r w frontRO frontRI /\ concentric r w backRO backRI.
Proof.
  intros q taper pmod pasin c pc fuel sd pn b HP HD HW HB p ps a r w R0 R1 M1 M1i M2 M2i L1 L2 L3 L4.
  destruct (C62_corners pc fuel sd pn HP HD) as (_ & _ & _ & (ORBI & ORBO) & (IRFI & IRFO) & (IRBI & IRBO) & (TLI & TLO) & _ & (TRI_ & TRO) & _). fold p ps a in ORBI, ORBO, IRFI, IRFO, IRBI, IRBO, TLI, TLO, TRI_, TRO.
  destruct ORBI as (_ & ORBI & _). destruct ORBO as (_ & ORBO & _). destruct IRFI as (IRFI1 & IRFI2 & _). destruct IRFO as (IRFO1 & IRFO2 & _). destruct IRBI as (IRBI1 & IRBI2 & _). destruct IRBO as (IRBO1 & IRBO2 & _).
  destruct TLI as (TLI0 & TLI & _). destruct TLO as (TLO0 & TLO & _). destruct TRI_ as (_ & TRI_ & _). destruct TRO as (_ & TRO & _).
  destruct (C60_plan_walls pc fuel sd pn HP HD) as (_ & _ & KB & _ & _ & KF & _ & _ & _ & _ & _ & _ & _ & _ & KR). fold p ps a in KB, KF, KR. rewrite <- HW in KB, KF, KR. fold w in KB, KF, KR.
  destruct (C65_plan_angles pc fuel sd pn HP HD) as (_ & _ & _ & _ & _ & NR & NB & NF & _). fold a ps in NR, NB, NF.
  destruct (C66_thumb_corner pc fuel sd pn HP HD) as (_ & _ & (s & S0 & BIS) & _).
  assert (UFO : upright (pinkyOF ps)) by (apply (upright_of _ _ NF); [apply wall_normal_unit|reflexivity]).
  assert (UBO : upright (alnumOB ps)) by (apply (upright_of _ _ NB); [apply wall_normal_unit|reflexivity]).
  assert (URO : upright (pinkyOR a)).
  { apply (upright_of _ _ NR); [apply turned_unit; unfold unit_vec, inner, P, X, Y, Z; cbn [vx vy vz]; ring|]. unfold turned, rotZ_pt, rotX_pt, origin, P, X, Y, Z. cbn [vx vy vz]. ring. }
  pose proof (thick_upright _ _ _ KF UFO) as UFI. pose proof (thick_upright _ _ _ KB UBO) as UBI. pose proof (thick_upright _ _ _ KR URO) as URI.
  unfold newBody in HB. cbv zeta in HB. do 3 match type of HB with (if ?x then _ else _) = _ => destruct x; [discriminate|] end. fold p a in HB.
  apply bind_ok in HB. destruct HB as (g & EG & HB). apply bind_ok in HB. destruct HB as (st & _ & HB). apply bind_ok in HB. destruct HB as (k & _ & HB). apply bind_ok in HB. destruct HB as ((((em & ef) & eb) & eo) & _ & HB).
  apply bind_ok in HB. destruct HB as (rr & _ & HB). apply bind_ok in HB. destruct HB as (o & EO & HB). apply Ok_inj in HB. rewrite <- HB. cbn [outlineO outlineI]. clear HB.
  unfold bodyCorners in EG. cbv zeta in EG. fold r in EG. change (nsub (Num := Rnum) r (by_wallThickness c)) with (r - w) in EG.
  apply bind_ok in EG. destruct EG as (a1 & A1 & EG). apply bind_ok in EG. destruct EG as (a2 & A2 & EG). apply bind_ok in EG. destruct EG as (a3 & A3 & EG). apply bind_ok in EG. destruct EG as (a4 & A4 & EG). apply bind_ok in EG. destruct EG as (a5 & A5 & EG). apply bind_ok in EG. destruct EG as (a6 & A6 & EG).
  assert (Q : iLFG g = a1 /\ iRFG g = a2 /\ iRBG g = a3 /\ oLFG g = a4 /\ oRFG g = a5 /\ oRBG g = a6).
  { do 10 (apply bind_ok in EG; destruct EG as (? & _ & EG)). apply bind_ok in EG. destruct EG as (? & _ & EG). apply bind_ok in EG. destruct EG as (? & _ & EG). match type of EG with (if ?x then _ else _) = _ => destruct x; [discriminate|] end.
    apply bind_ok in EG. destruct EG as (? & _ & EG). match type of EG with (if ?x then _ else _) = _ => destruct x; [discriminate|] end.
    apply bind_ok in EG. destruct EG as (? & _ & EG). apply bind_ok in EG. destruct EG as (? & _ & EG). match type of EG with (if ?x then _ else _) = _ => destruct x; [discriminate|] end.
    apply Ok_inj in EG. rewrite <- EG. repeat split. }
  clear EG. destruct Q as (Q1 & Q2 & Q3 & Q4 & Q5 & Q6).
  unfold bodyOutlines in EO. cbv zeta in EO. rewrite Q1, Q2, Q3, Q4, Q5, Q6 in EO. apply bind_ok in EO. destruct EO as (hs & _ & EO). apply Ok_inj in EO. rewrite <- EO. cbn [fst snd].
  exists a4, a5, a6, a1, a2, a3, hs, (eLBC k ++ eRBC k), (eRFC k ++ eLFC k).
  split; [reflexivity|].
  split; [cbn [app]; rewrite <- !app_assoc; reflexivity|].
  split; [|split].
  - (* the left corner: the other wall runs along the x axis *)
    set (go := mkPlane (thumbOLFp p) (P 0 1 0) : @plane Rnum). set (gi := mkPlane (thumbILFp p) (P 0 1 0) : @plane Rnum).
    assert (UY : unit_vec (P 0 1 0)) by (unfold unit_vec, inner, P, X, Y, Z; cbn [vx vy vz]; ring).
    assert (UGO : upright go) by (split; [exact UY|reflexivity]). assert (UGI : upright gi) by (split; [exact UY|reflexivity]).
    assert (RG : forall u v : pt, rise (mkPlane u (P 0 1 0)) v = Y v - Y u) by (intros u v; unfold rise, inner, minus, P, X, Y, Z; cbn [vx vy vz ppos pnormal]; rn; ring).
    assert (YY : forall v : pt, Y (vyz v) = Y v) by reflexivity.
    assert (TG : thick w go gi).
    { intros v. unfold go, gi. rewrite !RG. set (t := thumbFrontAngle pc + splitAngle pc) in *.
      (* both corners are on the bisecting plane *)
      assert (DI : (cos t + 1) * (X (thumbILFp p) - X (thumbOLFp p)) + sin t * (Y (thumbILFp p) - Y (thumbOLFp p)) = 0).
      { set (T := planThumbL pn) in *. assert (QD : inner (minus (thumbILFp p) (thumbOLFp p)) (pnormal T) = 0).
        { unfold on_plane in TLI0, TLO0. transitivity (inner (minus (thumbILFp p) (ppos T)) (pnormal T) - inner (minus (thumbOLFp p) (ppos T)) (pnormal T)); [unfold inner, minus, P, X, Y, Z; cbn [vx vy vz]; rn; ring|]. rewrite TLI0, TLO0. ring. }
        pose proof (f_equal X BIS) as B1. pose proof (f_equal Y BIS) as B2. pose proof (f_equal Z BIS) as B3. change (cos t + 1 = s * X (pnormal T)) in B1. change (sin t = s * Y (pnormal T)) in B2. change (0 = s * Z (pnormal T)) in B3.
        rewrite B1, B2. transitivity (s * inner (minus (thumbILFp p) (thumbOLFp p)) (pnormal T) - (s * Z (pnormal T)) * (Z (thumbILFp p) - Z (thumbOLFp p))); [unfold inner, minus, P, X, Y, Z; cbn [vx vy vz]; rn; ring|]. rewrite QD, <- B3. ring. }
      assert (DF : - sin t * (X (thumbILFp p) - X (thumbOLFp p)) + cos t * (Y (thumbILFp p) - Y (thumbOLFp p)) = w).
      { pose proof (KF (thumbILFp p)) as K1. change (rise (pinkyIF ps) (thumbILFp p) = 0) in TLI. rewrite TLI in K1.
        change (rise (pinkyOF ps) (thumbOLFp p) = 0) in TLO. rewrite (upright_rise _ _ UFO) in K1. rewrite (upright_rise _ _ UFO) in TLO. rewrite NF in *. unfold wall_normal in *. change (X (P ?u _ _)) with u in *. change (Y (P _ ?u _)) with u in *. lra. }
      pose proof (sin2_cos2 t) as SC. unfold Rsqr in SC.
      set (dx := X (thumbILFp p) - X (thumbOLFp p)) in *. set (dy := Y (thumbILFp p) - Y (thumbOLFp p)) in *.
      assert (NC : cos t + 1 <> 0).
      { intros E.
        assert (ST : sin t = 0) by (assert (C1 : cos t = -1) by lra; rewrite C1 in SC; assert (SQ : sin t * sin t = 0) by lra; apply Rmult_integral in SQ; destruct SQ; assumption).
        change (rise (pinkyOF ps) (thumbOLFp p) = 0) in TLO. rewrite (upright_rise _ _ UFO) in TLO. pose proof L2 as L2'. rewrite (upright_rise _ _ UFO), YY in L2'. rewrite NF in TLO, L2'. unfold wall_normal in TLO, L2'.
        change (X (P ?u _ _)) with u in *. change (Y (P _ ?u _)) with u in *. rewrite ST in TLO, L2'. lra. }
      assert (DY : dy = w).
      { assert (Q7 : (cos t + 1) * (dy - w) = 0). { transitivity ((cos t + 1) * dy - (cos t + 1) * (- sin t * dx + cos t * dy)); [rewrite DF; ring|].
          transitivity (sin t * ((cos t + 1) * dx + sin t * dy) + dy * (1 - (sin t * sin t + cos t * cos t))); [ring|]. rewrite DI, SC. ring. }
        apply Rmult_integral in Q7. destruct Q7; [contradiction|lra]. }
      unfold dy in DY. lra. }
    apply (both_centres q go (pinkyOF ps) gi (pinkyIF ps) (vyz (thumbOLFp p)) (thumbOLFp p) (thumbORFp p) (vyz (thumbILFp p)) (thumbILFp p) (thumbIRFp p) r w); try assumption.
    + change (rise go (vyz (thumbOLFp p)) = 0). unfold go. rewrite RG, YY. ring.
    + change (rise go (thumbOLFp p) = 0). unfold go. rewrite RG. ring.
    + split; [unfold go; rewrite RG; lra|exact L2].
    + change (rise gi (vyz (thumbILFp p)) = 0). unfold gi. rewrite RG, YY. ring.
    + change (rise gi (thumbILFp p) = 0). unfold gi. rewrite RG. ring.
    + split; [unfold gi; rewrite RG; lra|exact L4].
    + right. exact A1.
  - apply (both_centres q (pinkyOF ps) (pinkyOR a) (pinkyIF ps) (pinkyIR a) (thumbOLFp p) (pinkyORFp p) (pinkyORBp p) (thumbILFp p) (pinkyIRFp p) (pinkyIRBp p) r w); try assumption. right. exact A2.
  - apply (both_centres q (pinkyOR a) (alnumOB ps) (pinkyIR a) (alnumIB ps) (pinkyORFp p) (pinkyORBp p) (alnumORBp p) (pinkyIRFp p) (pinkyIRBp p) (alnumIRBp p) r w); try assumption. right. exact A3.
Qed.
Print Assumptions C98_round_corners.
