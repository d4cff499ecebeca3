(** C86: the screws of the brackets keep their margins. *)
From Coq Require Import Reals Lra Psatz ZArith List Bool Arith Lia.
From Verif Require Import Num Calc GeoModel EdgeModel GeoSpec GeoMat GeoRigid GeoPlane GeoCirc ArcModel ArcSpec ArcProof ArcCorner ArcShape MeshModel LayoutModel LayoutProof BracketModel EdgeReal PartProof BodyFlat BossFit BossSpec BossProof BrSpec BrProof CableProof.
From Verif Require Import P_Layout P_Solid P_Plan P_Palm P_Body.
Import ListNotations.
Open Scope R_scope.

Lemma Rabs_def2' x a : Rabs x <= a -> - a <= x <= a.
Proof. intros H. pose proof (Rle_abs x). pose proof (Rle_abs (- x)). rewrite Rabs_Ropp in *. lra. Qed.
Section Br.
Variable q : @quality Rnum.
Variable taper : option R.
Variable pmod : R -> R -> R.
Variable pasin : R -> res R.
Variable c : @bracket_cfg Rnum.
Let t : R := br_taperAngle c.
Hypothesis HM : remainder pmod.
Hypothesis HT : 0 <= t < PI / 2.
Hypothesis HB : 2 * eps <= br_boreDiameter c.
Hypothesis HN : 0 <= br_nutAcross c.
Let nut : R := br_nutAcross c.

(* the bracket on the floor, turned so that the wall is in front *)
Lemma floor_margins (a b cc d e : pt) (extra : R) s r : (match taper with Some al => al + t <= PI / 2 | None => True end) ->
  X a = 0 -> X d = 0 -> X e = 0 -> X cc = 0 -> floorFwd q taper pmod c a b cc d e extra s = Ok r ->
  exists (yc zc top : R) (LBG LBT LFT LFG : pt) cornerB cornerF sec,
    let M := br_boreLength c + br_holeLength c in
    bore_sketch q taper c s true sec /\
    archCorner q (br_cornerRadius c) LBG LBT LFT = Ok cornerB /\ archCorner q (Rmin (br_cornerRadius c) (top - Z d)) LBT LFT LFG = Ok cornerF /\
    In (collapsed (map (moved (P M yc 0)) (collapsed (LBG :: cornerB ++ cornerF ++ [LFG]) (1 / 1000)) ++ map (moved (P M 0 0)) [d; cc; a]) (1 / 1000),
        [map (moved (P M yc zc)) (map upright sec)]) (faces (fbMesh r)) /\
    Z LBG = Z a /\ Z LFG = Z d /\ Z LBT = top /\ Z LFT = top /\ Z d < top /\
    depth (cos t) (sin t) LBG LBT = 0 /\ depth (- cos t) (sin t) LFG LFT = 0 /\
    forall p, In p (map upright sec) -> let p' := moved (P 0 0 zc) p in
      Z a + br_baseMargin c <= Z p' /\ Z p' + br_apexMargin c <= top /\
      br_taperMargin c <= depth (cos t) (sin t) LBG p' /\ br_taperMargin c <= depth (- cos t) (sin t) LFG p' /\
      Y d + br_wallMargin c + extra <= Y p' + yc.
Proof.
  intros HU Xa Xd Xe Xc H. pose proof PI_RGT_0 as PP. unfold floorFwd in H. cbv zeta in H.
  assert (C0 : 0 < cos t) by (apply cos_gt_0; lra). pose proof (sin2_cos2 t) as SC. unfold Rsqr in SC.
  destruct (unit_yz t) as (U1 & U2 & U3 & U4).
  set (m := pmax (boreRadius c) (ndiv (br_nutAcross c) (nZ 2))) in H. set (wallOff := nadd (nadd (pmax (boreRadius c) (BracketModel.nutRadius c)) (br_wallMargin c)) (extra : @num Rnum)) in H.
  set (taperOff := nadd (pmax (boreRadius c) (@hexTangentDist Rnum pmod _ _)) (br_taperMargin c)) in H. set (zc := nadd (vz a) (nadd m (br_baseMargin c))) in H.
  set (top := nadd (vz a) (pmax _ (vz d))) in H.
  apply bind_ok in H. destruct H as (lF & ELF & H). apply bind_ok in H. destruct H as (lB & ELB & H). apply bind_ok in H. destruct H as (lG & ELG & H). apply bind_ok in H. destruct H as (lT & ELT & H). apply bind_ok in H. destruct H as (lL & ELL & H).
  apply line_unit in ELF; [|exact U1]. subst lF. cbn [lpos ldir] in ELB. apply line_unit in ELB; [|exact U2]. subst lB.
  apply line_unit in ELG; [|exact U3]. apply line_unit in ELT; [|exact U3]. apply line_unit in ELL; [|exact U3]. subst lG lT lL.
  apply bind_ok in H. destruct H as (LFG & E1 & H). apply bind_ok in H. destruct H as (LFT & E2 & H). apply bind_ok in H. destruct H as (LBT & E3 & H). apply bind_ok in H. destruct H as (LBG & E4 & H).
  destruct (nleb top (vz d)) eqn:CT; [discriminate|]. apply bind_ok in H. destruct H as (cF & ECF & H). apply bind_ok in H. destruct H as (cB & ECB & H). apply bind_ok in H. destruct H as (ae & EAE & H).
  set (yc := if nltb _ _ then _ else _) in H. apply bind_ok in H. destruct H as (hh & EH & H). destruct hh as ((hm & hl) & hr).
  apply bind_ok in H. destruct H as (ae2 & _ & H). destruct (if visClose ae2 e then _ else _) as [aL aR]. apply bind_ok in H. destruct H as (a0 & _ & H). apply bind_ok in H. destruct H as (r0 & _ & H). apply Ok_inj in H.
  destruct (hole_form q taper c _ _ _ _ _ _ EH) as (hole & sec & _ & BS & _ & EHR).
  exists yc, zc, top, LBG, LBT, LFT, LFG, cB, cF, sec. cbv zeta.
  assert (FF : flat_line {| lpos := vadd (V (nZ 0) (nZ 0) zc) (vscale (V (nZ 0) (nopp (ncos (br_taperAngle c))) (nsin (br_taperAngle c))) taperOff); ldir := V (nZ 0) (nsin (br_taperAngle c)) (ncos (br_taperAngle c)) |}).
  { split; [exact U1|]. split; [|reflexivity]. apply flat_add; [reflexivity|apply flat_scale; reflexivity]. }
  assert (FB : flat_line {| lpos := vmirY (vadd (V (nZ 0) (nZ 0) zc) (vscale (V (nZ 0) (nopp (ncos (br_taperAngle c))) (nsin (br_taperAngle c))) taperOff)); ldir := vmirY (V (nZ 0) (nsin (br_taperAngle c)) (ncos (br_taperAngle c))) |}).
  { split; [exact U2|]. split; [|reflexivity]. apply flat_mirY, flat_add; [reflexivity|apply flat_scale; reflexivity]. }
  assert (FH : forall z : R, flat_line {| lpos := V (nZ 0) (nZ 0) z; ldir := V (nZ 0) (nZ 1) (nZ 0) |}) by (intros z; split; [exact U3|split; reflexivity]).
  apply crossing in E1; [|exact FF|apply FH]. apply crossing in E2; [|exact FF|apply FH]. apply crossing in E3; [|exact FB|apply FH]. apply crossing in E4; [|exact FB|apply FH].
  assert (HH : forall (v : pt) (z : R), X v = 0 /\ (Y v - Y (vadd (V (nZ 0) (nZ 0) zc) (vscale (V (nZ 0) (nopp (ncos (br_taperAngle c))) (nsin (br_taperAngle c))) taperOff))) * cos t = (Z v - Z (vadd (V (nZ 0) (nZ 0) zc) (vscale (V (nZ 0) (nopp (ncos (br_taperAngle c))) (nsin (br_taperAngle c))) taperOff))) * sin t /\ (Y v - 0) * 0 = (Z v - z) * 1 ->
    Z v = z /\ - Y v * cos t + (Z v - zc) * sin t = taperOff).
  { intros v z (_ & Q1 & Q2). split; [lra|]. change ((Y v - (0 + - cos t * taperOff)) * cos t = (Z v - (zc + sin t * taperOff)) * sin t) in Q1. transitivity (taperOff * (sin t * sin t + cos t * cos t)); [lra|rewrite SC; apply Rmult_1_r]. }
  assert (HK : forall (v : pt) (z : R), X v = 0 /\ (Y v - - Y (vadd (V (nZ 0) (nZ 0) zc) (vscale (V (nZ 0) (nopp (ncos (br_taperAngle c))) (nsin (br_taperAngle c))) taperOff))) * cos t = (Z v - Z (vadd (V (nZ 0) (nZ 0) zc) (vscale (V (nZ 0) (nopp (ncos (br_taperAngle c))) (nsin (br_taperAngle c))) taperOff))) * - sin t /\ (Y v - 0) * 0 = (Z v - z) * 1 ->
    Z v = z /\ Y v * cos t + (Z v - zc) * sin t = taperOff).
  { intros v z (_ & Q1 & Q2). split; [lra|]. change ((Y v - - (0 + - cos t * taperOff)) * cos t = (Z v - (zc + sin t * taperOff)) * - sin t) in Q1. transitivity (taperOff * (sin t * sin t + cos t * cos t)); [lra|rewrite SC; apply Rmult_1_r]. }
  apply HH in E1. apply HH in E2. apply HK in E3. apply HK in E4. clear HH HK FF FB FH.
  change (Rleb top (Z d) = false) in CT. apply Rleb_false in CT. rewrite pmin_R in ECF.
  split; [exact BS|]. split; [exact ECB|]. split; [exact ECF|]. split.
  { rewrite <- H. cbn [fbMesh meshes faces app]. left. rewrite EHR. f_equal.
    - unfold etranslated. rewrite map_app, map_map. f_equal. f_equal.
      apply map_ext. intros p. destruct p as [p1 p2 p3]. apply pt_ext; unfold moved, X, Y, Z, P; cbn; rn; ring.
    - f_equal. apply map_ext. intros p. destruct p as [p1 p2 p3]. apply pt_ext; unfold moved, X, Y, Z, P; cbn; rn; ring. }
  destruct E1 as [Z1 T1], E2 as [Z2 T2], E3 as [Z3 T3], E4 as [Z4 T4].
  split; [exact Z4|]. split; [exact Z1|]. split; [exact Z3|]. split; [exact Z2|]. split; [exact CT|]. split; [unfold depth; lra|]. split; [unfold depth; lra|].
  intros p IP. apply in_map_iff in IP. destruct IP as (p0 & <- & IP).
  assert (EM : m = Rmax (boreR c) (br_nutAcross c / 2)) by apply pmax_R.
  assert (ET : taperOff = tangentR pmod c (t - PI / 2) + br_taperMargin c) by (unfold taperOff; rewrite pmax_R; reflexivity).
  assert (EW : wallOff = Rmax (boreR c) (nutR c) + br_wallMargin c + extra) by (unfold wallOff; rewrite pmax_R; reflexivity).
  assert (EC : zc = Z a + (m + br_baseMargin c)) by reflexivity.
  assert (TOP : Z a + ((m + br_baseMargin c) + (m + br_apexMargin c)) <= top) by (unfold top; rewrite pmax_R; apply Rplus_le_compat_l, Rmax_l).
  assert (YC : Y d + wallOff <= yc).
  { unfold yc. match goal with |- _ <= (if ?b then _ else _) => destruct b eqn:CY end; [rewrite pmax_R; apply Rmax_l|]. change (Rltb (Y e - Y ae - Y d) wallOff = false) in CY. apply Rltb_false in CY. change (Y d + wallOff <= Y e - Y ae). lra. }
  clearbody m taperOff wallOff zc top yc. assert (HB' : eps <= boreR c) by (unfold boreR; lra).
  assert (HU2 : true = true -> match taper with Some al => al <= PI / 2 | None => True end) by (intros _; destruct taper; [lra|exact I]).
  destruct (bore_box q taper c HB' HN s true sec BS HU2 p0 IP) as [BX BY].
  pose proof (bore_leaning q taper pmod c HM HB' HN s true sec t BS HT (fun _ => HU) p0 IP) as BL. rewrite <- EM in BY.
  apply Rabs_def2' in BX. apply Rabs_def2' in BY. pose proof (Rle_abs (X p0)) as A1. pose proof (Rle_abs (- X p0)) as A2. rewrite Rabs_Ropp in A2.
  set (ax := Rabs (X p0)) in *. clearbody ax. assert (A3 : X p0 * cos t <= ax * cos t) by (apply Rmult_le_compat_r; lra). assert (A4 : - X p0 * cos t <= ax * cos t) by (apply Rmult_le_compat_r; lra).
  change (let p' := P (0 + 0) (- X p0 + 0) (Y p0 + zc) in Z a + br_baseMargin c <= Z p' /\ Z p' + br_apexMargin c <= top /\
      br_taperMargin c <= depth (cos t) (sin t) LBG p' /\ br_taperMargin c <= depth (- cos t) (sin t) LFG p' /\ Y d + br_wallMargin c + extra <= Y p' + yc). cbv zeta.
  unfold depth. repeat match goal with |- context [Z (P ?a ?b ?c)] => change (Z (P a b c)) with c | |- context [Y (P ?a ?b ?c)] => change (Y (P a b c)) with b end. repeat split; lra.
Qed.

(* the bracket in a corner of wall and roof, turned so that the wall is behind *)
Lemma corner_margins cable (a b d : pt) (extra inset : R) s r : X a = 0 -> X b = 0 -> X d = 0 -> cornerFwd q taper pmod pasin c cable a b d extra inset s = Ok r ->
  exists (ce LBG LFG LFT : pt) arc sec,
    let M := br_holeLength c + br_boreLength c in
    bore_sketch q taper c s false sec /\ archCorner q (br_cornerRadius c) LBG LFG LFT = Ok arc /\
    In (rev (collapsed (map (moved (P M 0 0)) (LBG :: arc ++ [LFT; a; d])) (1 / 1000)), [map (moved (P M (Y ce) (Z ce))) (map upright sec)]) (faces (cbMesh r)) /\
    Y LBG = Y d /\ Z LFG = Z LBG /\ left_of a b LFT = 0 /\ depth (- cos t) (- sin t) LFG LFT = 0 /\
    forall p, In p (map upright sec) -> let p' := moved ce p in
      Y p' + br_wallMargin c + extra <= Y d /\ Z LBG + br_apexMargin c <= Z p' /\
      br_baseMargin c + extra <= left_of a b p' /\ br_taperMargin c + inset <= depth (- cos t) (- sin t) LFG p'.
Proof.
  intros Xa Xb Xd H. pose proof PI_RGT_0 as PP. unfold cornerFwd in H. apply bind_ok in H. destruct H as (k & EK & H).
  assert (C0 : 0 < cos t) by (apply cos_gt_0; lra). pose proof (sin2_cos2 t) as SC. unfold Rsqr in SC.
  destruct (unit_yz t) as (U1 & U2 & U3 & U4).
  apply bind_ok in H. destruct H as (hh & EH & H). destruct hh as ((hm & hl) & hr). cbv zeta in H.
  assert (FACE : In (rev (collapsed (map (moved (P (br_holeLength c + br_boreLength c) 0 0)) (csLBG k :: csArc k ++ [csLFT k; a; d])) (1 / 1000)), [hr]) (faces (cbMesh r))).
  { assert (G : In (rev (collapsed (map (moved (P (br_holeLength c + br_boreLength c) 0 0)) (csLBG k :: csArc k ++ [csLFT k; a; d])) (1 / 1000)), [hr])
      (faces (Plus hm (Fill (rev (collapsed (etranslated (csLBG k :: csArc k ++ [csLFT k]) (V (nadd (br_holeLength c) (br_boreLength c)) (nZ 0) (nZ 0)) ++ [vadd a (V (nadd (br_holeLength c) (br_boreLength c)) (nZ 0) (nZ 0)); vadd d (V (nadd (br_holeLength c) (br_boreLength c)) (nZ 0) (nZ 0))]) mu)) [hr])))).
    { cbn [faces]. apply in_or_app. right. left. f_equal. f_equal. change (@mu Rnum) with (1 / 1000). f_equal. unfold etranslated. cbn [map app]. f_equal. rewrite !map_app. rewrite <- app_assoc. reflexivity. }
    destruct cable as [kc|].
    - apply bind_ok in H. destruct H as (z & _ & H). do 6 (apply bind_ok in H; destruct H as (? & _ & H)). apply Ok_inj in H. rewrite <- H. cbn [cbMesh]. cbn [faces] in G |- *. apply in_or_app. left. apply in_or_app. left. exact G.
    - apply Ok_inj in H. rewrite <- H. cbn [cbMesh]. cbn [faces] in G |- *. apply in_or_app. left. exact G. }
  clear H. destruct (hole_form q taper c _ _ _ _ _ _ EH) as (hole & sec & _ & BS & _ & EHR). clear EH.
  unfold cornerLines in EK. cbv zeta in EK. apply bind_ok in EK. destruct EK as (u & EU & H).
  pose proof (vnorm_unit _ _ EU) as UU. assert (Xu : X u = 0) by (apply (norm_flat _ _ EU), flat_sub; assumption).
  apply vnorm_ok in EU. destruct EU as [NAB EU].
  set (roofOff := nadd (nadd (pmax (boreRadius c) (@hexTangentDist Rnum pmod _ _)) (br_baseMargin c)) (extra : @num Rnum)) in H. set (wallOff := nadd (nadd (pmax (boreRadius c) (BracketModel.nutRadius c)) (br_wallMargin c)) (extra : @num Rnum)) in H.
  set (apexOff := nadd (pmax (boreRadius c) (ndiv (br_nutAcross c) (nZ 2))) (br_apexMargin c)) in H. set (taperOff := nadd (nadd (pmax (boreRadius c) (@hexTangentDist Rnum pmod _ _)) (br_taperMargin c)) (inset : @num Rnum)) in H.
  apply bind_ok in H. destruct H as (l1 & L1 & H). apply bind_ok in H. destruct H as (l2 & L2 & H). apply bind_ok in H. destruct H as (ce & E0 & H).
  apply bind_ok in H. destruct H as (l3 & L3 & H). apply bind_ok in H. destruct H as (l4 & L4 & H). apply bind_ok in H. destruct H as (l5 & L5 & H). apply bind_ok in H. destruct H as (l6 & L6 & H).
  apply bind_ok in H. destruct H as (LBG & E1 & H). apply bind_ok in H. destruct H as (LFG & E2 & H). apply bind_ok in H. destruct H as (LFT & E3 & H). apply bind_ok in H. destruct H as (arc & EA & H). apply Ok_inj in H.
  subst k. cbn [csLBG csArc csLFT csCenter] in *.
  apply line_unit in L1; [|exact U4]. apply line_unit in L2; [|exact UU]. apply line_unit in L3; [|exact U4]. apply line_unit in L4; [|exact UU]. apply line_unit in L5; [|exact U3]. apply line_unit in L6; [|exact U2]. subst l1 l2 l3 l4 l5 l6.
  assert (FU : unit_vec u -> forall p : pt, flat p -> flat_line (mkLine p u)) by (intros _ p Q; split; [exact UU|split; [exact Q|exact Xu]]).
  assert (FW : forall p : pt, flat p -> flat_line (mkLine p (V (nZ 0) (nZ 0) (nZ 1)))) by (intros p Q; split; [exact U4|split; [exact Q|reflexivity]]).
  assert (FH : forall p : pt, flat p -> flat_line (mkLine p (V (nZ 0) (nZ 1) (nZ 0)))) by (intros p Q; split; [exact U3|split; [exact Q|reflexivity]]).
  assert (FT : forall p : pt, flat p -> flat_line (mkLine p (V (nZ 0) (nopp (nsin (br_taperAngle c))) (ncos (br_taperAngle c))))) by (intros p Q; split; [exact U2|split; [exact Q|reflexivity]]).
  apply crossing in E0; [|apply (FU UU), flat_sub; [exact Xa|apply flat_scale; reflexivity]|apply FW, flat_sub; [exact Xd|apply flat_scale; reflexivity]].
  destruct E0 as (Xc & R0 & W0).
  apply crossing in E1; [|apply FW; exact Xd|apply FH, flat_sub; [exact Xc|reflexivity]]. apply crossing in E2; [|apply FT, flat_add; [exact Xc|apply flat_scale; reflexivity]|apply FH, flat_sub; [exact Xc|reflexivity]].
  apply crossing in E3; [|apply FT, flat_add; [exact Xc|apply flat_scale; reflexivity]|apply (FU UU); exact Xa]. clear FU FW FH FT.
  destruct E1 as (_ & W1 & A1). destruct E2 as (_ & T2 & A2). destruct E3 as (_ & T3 & R3).
  change ((Y ce - (Y d - 1 * wallOff)) * 1 = (Z ce - (Z d - 0 * wallOff)) * 0) in W0. change ((Y ce - (Y a - Z u * roofOff)) * Z u = (Z ce - (Z a - - Y u * roofOff)) * Y u) in R0.
  change ((Y LBG - Y d) * 1 = (Z LBG - Z d) * 0) in W1. change ((Y LBG - (Y ce - 0)) * 0 = (Z LBG - (Z ce - apexOff)) * 1) in A1. change ((Y LFG - (Y ce - 0)) * 0 = (Z LFG - (Z ce - apexOff)) * 1) in A2.
  change ((Y LFG - (Y ce + - cos t * taperOff)) * cos t = (Z LFG - (Z ce + - sin t * taperOff)) * - sin t) in T2. change ((Y LFT - (Y ce + - cos t * taperOff)) * cos t = (Z LFT - (Z ce + - sin t * taperOff)) * - sin t) in T3.
  change ((Y LFT - Y a) * Z u = (Z LFT - Z a) * Y u) in R3.
  assert (UN : Y u * Y u + Z u * Z u = 1). { unfold unit_vec, inner in UU. rewrite Xu in UU. lra. }
  assert (LO : forall p, left_of a b p = Y u * (Z p - Z a) - Z u * (Y p - Y a)).
  { intros p. unfold left_of. assert (EL : sqrt ((Y b - Y a) * (Y b - Y a) + (Z b - Z a) * (Z b - Z a)) = len (vsub b a)).
    { unfold len, inner. f_equal. change (X (vsub b a)) with (X b - X a). change (Y (vsub b a)) with (Y b - Y a). change (Z (vsub b a)) with (Z b - Z a). rewrite Xa, Xb. ring. }
    rewrite EL. pose proof (len_pos _ NAB) as LP. set (l := len (vsub b a)) in *. rewrite EU. change (Y (scaled (/ l) (vsub b a))) with (/ l * (Y b - Y a)). change (Z (scaled (/ l) (vsub b a))) with (/ l * (Z b - Z a)). clearbody l. field. lra. }
  exists ce, LBG, LFG, LFT, arc, sec. cbv zeta. split; [exact BS|]. split; [exact EA|]. split.
  { rewrite EHR in FACE. rewrite Xc in FACE. rewrite Rplus_0_l in FACE. exact FACE. }
  split; [lra|]. split; [lra|]. split; [rewrite LO; lra|].
  assert (DT : (Y LFG - Y ce) * cos t + (Z LFG - Z ce) * sin t = - taperOff). { transitivity (- taperOff * (sin t * sin t + cos t * cos t)); [lra|rewrite SC; apply Rmult_1_r]. }
  assert (DT3 : (Y LFT - Y ce) * cos t + (Z LFT - Z ce) * sin t = - taperOff). { transitivity (- taperOff * (sin t * sin t + cos t * cos t)); [lra|rewrite SC; apply Rmult_1_r]. }
  split; [unfold depth; lra|].
  assert (RL : Y u * (Z ce - Z a) - Z u * (Y ce - Y a) = roofOff). { transitivity (roofOff * (Y u * Y u + Z u * Z u)); [lra|rewrite UN; apply Rmult_1_r]. }
  intros p IP. apply in_map_iff in IP. destruct IP as (p0 & <- & IP). assert (HB' : eps <= boreR c) by (unfold boreR; lra).
  set (th := vangle2D (V (nopp (vy u)) (nopp (vz u)) (nZ 0))) in *. destruct (atan2_unit (- Y u) (- Z u)) as [CU SU]; [lra|]. change (cos th = - Y u) in CU. change (sin th = - Z u) in SU.
  assert (ER : roofOff = tangentR pmod c th + br_baseMargin c + extra) by (unfold roofOff; rewrite pmax_R; reflexivity).
  assert (ET : taperOff = tangentR pmod c (t - PI / 2) + br_taperMargin c + inset) by (unfold taperOff; rewrite pmax_R; reflexivity).
  assert (EW : wallOff = Rmax (boreR c) (nutR c) + br_wallMargin c + extra) by (unfold wallOff; rewrite pmax_R; reflexivity).
  assert (EP : apexOff = Rmax (boreR c) (br_nutAcross c / 2) + br_apexMargin c) by (unfold apexOff; rewrite pmax_R; reflexivity).
  clearbody roofOff taperOff wallOff apexOff th.
  destruct (bore_box q taper c HB' HN s false sec BS ltac:(discriminate) p0 IP) as [BX BY]. apply Rabs_def2' in BX. apply Rabs_def2' in BY.
  destruct (bore_tangent q taper pmod c HM HB' HN s sec th BS p0 IP) as (_ & B1 & _). destruct (bore_tangent q taper pmod c HM HB' HN s sec (t - PI / 2) BS p0 IP) as (_ & _ & B2 & _).
  assert (CT : cos (t - PI / 2) = sin t). { rewrite <- cos_neg. replace (- (t - PI / 2)) with (PI / 2 - t) by ring. apply cos_shift. }
  assert (ST : sin (t - PI / 2) = - cos t). { replace (t - PI / 2) with (- (PI / 2 - t)) by ring. rewrite sin_neg, sin_shift. reflexivity. }
  rewrite CT, ST in B2. rewrite CU, SU in B1.
  rewrite LO. change (moved ce (upright p0)) with (P (0 + X ce) (- X p0 + Y ce) (Y p0 + Z ce)). unfold depth. repeat match goal with |- context [Z (P ?a ?b ?c)] => change (Z (P a b c)) with c | |- context [Y (P ?a ?b ?c)] => change (Y (P a b c)) with b end. repeat split; lra.
Qed.

(* the sketch of the bracket under the roof: the screw at the origin, the roof above *)
Lemma roof_sketch_form lf lb pT pG : roofSketch q pmod c = Ok (lf, lb, pT, pG) ->
  let m := Rmax (boreR c) (br_nutAcross c / 2) in let off := tangentR pmod c (t - PI / 2) + br_taperMargin c in
  exists LFT LFG LBG LBT cf cb, lf = LFT :: cf /\ lb = cb ++ [LBT] /\ archCorner q (br_cornerRadius c) LFT LFG LBG = Ok cf /\ archCorner q (br_cornerRadius c) LFG LBG LBT = Ok cb /\
    pT = P 0 0 (m + br_baseMargin c) /\ pG = P 0 0 (- (m + br_apexMargin c)) /\ Z LFT = m + br_baseMargin c /\ Z LBT = m + br_baseMargin c /\ Z LFG = - (m + br_apexMargin c) /\ Z LBG = - (m + br_apexMargin c) /\
    - Y LFT * cos t - Z LFT * sin t = off /\ - Y LFG * cos t - Z LFG * sin t = off /\ Y LBT * cos t - Z LBT * sin t = off /\ Y LBG * cos t - Z LBG * sin t = off /\
    X LFT = 0 /\ X LBT = 0.
Proof.
  intros H m off. pose proof (sin2_cos2 t) as SC. unfold Rsqr in SC. destruct (unit_yz t) as (U1 & U2 & U3 & U4).
  unfold roofSketch in H. cbv zeta in H. set (m' := pmax (boreRadius c) (ndiv (br_nutAcross c) (nZ 2))) in H. set (o' := nadd (pmax (boreRadius c) (@hexTangentDist Rnum pmod _ _)) (br_taperMargin c)) in H.
  apply bind_ok in H. destruct H as (lB & L1 & H). apply bind_ok in H. destruct H as (lF & L2 & H). apply bind_ok in H. destruct H as (lG & L3 & H). apply bind_ok in H. destruct H as (lT & L4 & H).
  apply line_unit in L1; [|exact U1]. subst lB. cbn [lpos ldir] in L2. apply line_unit in L2; [|exact U2]. subst lF. apply line_unit in L3; [|exact U3]. apply line_unit in L4; [|exact U3]. subst lG lT.
  apply bind_ok in H. destruct H as (LFT & E1 & H). apply bind_ok in H. destruct H as (LFG & E2 & H). apply bind_ok in H. destruct H as (LBG & E3 & H). apply bind_ok in H. destruct H as (LBT & E4 & H).
  apply bind_ok in H. destruct H as (cf & C1 & H). apply bind_ok in H. destruct H as (cb & C2 & H). apply Ok_inj in H. cbn [lpos] in H.
  apply pair_inj in H. destruct H as [H HG]. apply pair_inj in H. destruct H as [H HTT]. apply pair_inj in H. destruct H as [HF HBB].
  assert (FH : forall z : R, flat_line {| lpos := V (nZ 0) (nZ 0) z; ldir := V (nZ 0) (nZ 1) (nZ 0) |}) by (intros z; split; [exact U3|split; reflexivity]).
  match type of E3 with lintersect ?l _ = _ => assert (FB : flat_line l) by (split; [exact U1|split; [apply flat_scale; reflexivity|reflexivity]]) end.
  match type of E1 with lintersect ?l _ = _ => assert (FF : flat_line l) by (split; [exact U2|split; [apply flat_mirY, flat_scale; reflexivity|reflexivity]]) end.
  apply crossing in E1; [|exact FF|apply FH]. apply crossing in E2; [|exact FF|apply FH]. apply crossing in E3; [|exact FB|apply FH]. apply crossing in E4; [|exact FB|apply FH]. clear FF FB FH.
  assert (EM : m' = m) by apply pmax_R. assert (EO : o' = off) by (unfold o', off; rewrite pmax_R; reflexivity). clearbody m' o' m off. rewrite EM, EO in *. clear m' o' EM EO.
  destruct E1 as (X1 & T1 & Z1). destruct E2 as (_ & T2 & Z2). destruct E3 as (_ & T3 & Z3). destruct E4 as (X4 & T4 & Z4).
  change ((Y LFT - - (cos t * off)) * cos t = (Z LFT - - sin t * off) * - sin t) in T1. change ((Y LFG - - (cos t * off)) * cos t = (Z LFG - - sin t * off) * - sin t) in T2.
  change ((Y LBG - cos t * off) * cos t = (Z LBG - - sin t * off) * sin t) in T3. change ((Y LBT - cos t * off) * cos t = (Z LBT - - sin t * off) * sin t) in T4.
  change ((Y LFT - 0) * 0 = (Z LFT - (m + br_baseMargin c)) * 1) in Z1. change ((Y LFG - 0) * 0 = (Z LFG - - (m + br_apexMargin c)) * 1) in Z2. change ((Y LBG - 0) * 0 = (Z LBG - - (m + br_apexMargin c)) * 1) in Z3. change ((Y LBT - 0) * 0 = (Z LBT - (m + br_baseMargin c)) * 1) in Z4.
  exists LFT, LFG, LBG, LBT, cf, cb. split; [symmetry; exact HF|]. split; [symmetry; exact HBB|]. split; [exact C1|]. split; [exact C2|]. split; [symmetry; exact HTT|]. split; [symmetry; exact HG|].
  split; [lra|]. split; [lra|]. split; [lra|]. split; [lra|].
  split; [transitivity (off * (sin t * sin t + cos t * cos t)); [lra|rewrite SC; apply Rmult_1_r]|]. split; [transitivity (off * (sin t * sin t + cos t * cos t)); [lra|rewrite SC; apply Rmult_1_r]|].
  split; [transitivity (off * (sin t * sin t + cos t * cos t)); [lra|rewrite SC; apply Rmult_1_r]|]. split; [transitivity (off * (sin t * sin t + cos t * cos t)); [lra|rewrite SC; apply Rmult_1_r]|]. auto.
Qed.
Lemma hung_left a b h k p : Y a <> Y b \/ Z a <> Z b -> left_of a b (hung a b h k p) = h - Z p.
Proof.
  intros N. unfold left_of, hung, unit_y, unit_z. set (y := Y b - Y a). set (z := Z b - Z a). assert (L0 : 0 < y * y + z * z).
  { assert (N' : y <> 0 \/ z <> 0) by (unfold y, z; destruct N; [left|right]; lra). pose proof (Rle_0_sqr y) as Q1. pose proof (Rle_0_sqr z) as Q2. unfold Rsqr in *. destruct N' as [N'|N']; apply Rlt_0_sqr in N'; unfold Rsqr in N'; lra. }
  assert (LS : sqrt (y * y + z * z) * sqrt (y * y + z * z) = y * y + z * z) by (apply sqrt_sqrt; lra). assert (LP : 0 < sqrt (y * y + z * z)) by (apply sqrt_lt_R0; exact L0). set (l := sqrt (y * y + z * z)) in *.
  repeat match goal with |- context [Z (P ?a ?b ?c)] => change (Z (P a b c)) with c | |- context [Y (P ?a ?b ?c)] => change (Y (P a b c)) with b end.
  transitivity ((h - Z p) * ((y * y + z * z) / (l * l))); [field; lra|]. rewrite LS. field. lra.
Qed.
Lemma roof_margins mount (a b : pt) rm s r : roofBracket q taper pmod c mount a b rm s = Ok r ->
  exists (h k : R) (LFT LFG LBG LBT : pt) cf cb sec rest,
    let M := br_boreLength c + br_holeLength c in let place := hung a b h k in
    bore_sketch q taper c s false sec /\ archCorner q (br_cornerRadius c) LFT LFG LBG = Ok cf /\ archCorner q (br_cornerRadius c) LFG LBG LBT = Ok cb /\
    In (map (moved (P M 0 0)) (map place (LFT :: cf)) ++ rest, [map (moved (P M 0 0)) (map place (map upright sec))]) (faces (rbMesh r)) /\
    (mount = None -> rest = map (moved (P M 0 0)) (map place (cb ++ [LBT]))) /\ (mount = None -> cos t <> 0 -> let L := sqrt ((Y b - Y a) * (Y b - Y a) + (Z b - Z a) * (Z b - Z a)) in edist LFT LBT <= L -> 0 <= k - Y LFT <= L /\ 0 <= k - Y LBT <= L) /\ (Y a <> Y b \/ Z a <> Z b) /\
    Z LFT = h /\ Z LBT = h /\ Z LFG = Z LBG /\ depth (- cos t) (- sin t) LFT LFG = 0 /\ depth (cos t) (- sin t) LBT LBG = 0 /\
    forall p, In p (map upright sec) -> br_baseMargin c <= h - Z p /\ Z LFG + br_apexMargin c <= Z p /\
      br_taperMargin c <= depth (- cos t) (- sin t) LFG p /\ br_taperMargin c <= depth (cos t) (- sin t) LBG p.
Proof.
  intros H. unfold roofBracket in H. cbv zeta in H. apply bind_ok in H. destruct H as (sk & ES & H). destruct sk as (((lf & lb) & pT) & pG).
  destruct (roof_sketch_form lf lb pT pG ES) as (LFT & LFG & LBG & LBT & cf & cb & EF & EB & C1 & C2 & ET & EG & Z1 & Z2 & Z3 & Z4 & T1 & T2 & T3 & T4 & X1 & X2). clear ES. set (m := Rmax (boreR c) _) in *. set (off := tangentR _ _ _ + _) in *.
  apply bind_ok in H. destruct H as (u & EU & H). apply bind_ok in H. destruct H as (hh & EH & H). destruct hh as ((hm & hl) & hr). apply bind_ok in H. destruct H as (x & EX & H). destruct x as (((((arm & align) & aL) & aR) & fR) & re). apply Ok_inj in H.
  destruct (hole_form q taper c _ _ _ _ _ _ EH) as (hole & sec & _ & BS & _ & EHR). clear EH.
  pose proof (vnorm_unit _ _ EU) as UU. assert (Xu : X u = 0) by (apply (norm_flat _ _ EU), flat_sub; reflexivity). apply vnorm_ok in EU. destruct EU as [NAB EU].
  set (th := vangle2D _) in EX. set (pos0 := mrotX _ th None) in EX. set (h := m + br_baseMargin c) in *.
  assert (NE : Y a <> Y b \/ Z a <> Z b). { destruct (Req_EM_T (Y a) (Y b)) as [E|E]; [|left; exact E]. right. intros E2. apply NAB. apply pt_ext; [change (0 - 0 = 0); ring|change (Y b - Y a = 0); lra|change (Z b - Z a = 0); lra]. }
  assert (LEN : sqrt ((Y b - Y a) * (Y b - Y a) + (Z b - Z a) * (Z b - Z a)) = len (vsub (vyz b) (vyz a))).
  { unfold len, inner. f_equal. change (X (vsub (vyz b) (vyz a))) with (0 - 0). change (Y (vsub (vyz b) (vyz a))) with (Y b - Y a). change (Z (vsub (vyz b) (vyz a))) with (Z b - Z a). ring. }
  assert (EUY : Y u = unit_y a b) by (rewrite EU; unfold unit_y; rewrite LEN; apply Rmult_comm). assert (EUZ : Z u = unit_z a b) by (rewrite EU; unfold unit_z; rewrite LEN; apply Rmult_comm).
  assert (UN : Y u * Y u + Z u * Z u = 1). { unfold unit_vec, inner in UU. rewrite Xu in UU. lra. }
  assert (CS : cos th = - Y u /\ sin th = - Z u).
  { destruct (angle_cs (V (nopp (vy (vsub (vyz b) (vyz a)))) (nopp (vz (vsub (vyz b) (vyz a)))) (nZ 0))) as [A1 A2].
    { destruct NE as [N|N]; [left; change (- (Y b - Y a) <> 0); lra|right; change (- (Z b - Z a) <> 0); lra]. }
    change (cos th = - (Y b - Y a) / sqrt (- (Y b - Y a) * - (Y b - Y a) + - (Z b - Z a) * - (Z b - Z a))) in A1. change (sin th = - (Z b - Z a) / sqrt (- (Y b - Y a) * - (Y b - Y a) + - (Z b - Z a) * - (Z b - Z a))) in A2.
    replace (- (Y b - Y a) * - (Y b - Y a) + - (Z b - Z a) * - (Z b - Z a)) with ((Y b - Y a) * (Y b - Y a) + (Z b - Z a) * (Z b - Z a)) in A1, A2 by ring. rewrite EUY, EUZ, A1, A2. unfold unit_y, unit_z, Rdiv. split; ring. }
  destruct CS as [CU SU].
  assert (PL : forall (rp : pt) k, X rp = 0 -> Y rp = Y a + k * Y u -> Z rp = Z a + k * Z u -> forall p, transformed p (mtranslated pos0 rp) = hung a b h k p).
  { intros rp k R1 R2 R3 p. unfold pos0. rewrite app_tra; [|apply affine_rot; [apply affine_tra, affine_mid|aff]]. rewrite app_rotX; [|apply affine_tra, affine_mid]. rewrite app_tra; [|apply affine_mid]. rewrite app_id.
    unfold hung, rotX_pt. rewrite <- EUY, <- EUZ. cbv zeta. rewrite ET. cbn [ctr]. rewrite CU, SU. set (uy := Y u) in *. set (uz := Z u) in *. clearbody uy uz h. apply pt_ext.
    - change (X p + - 0 + X rp = X p). rewrite R1. ring.
    - change (0 + ((Y p + - 0 - 0) * - uy - (Z p + - h - 0) * - uz) + Y rp = Y a + (k - Y p) * uy - (h - Z p) * uz). rewrite R2. ring.
    - change (0 + ((Y p + - 0 - 0) * - uz + (Z p + - h - 0) * - uy) + Z rp = Z a + (k - Y p) * uz + (h - Z p) * uy). rewrite R3. ring. }
  clear ET EG. assert (MV : forall (g : pt -> pt) l, (forall p, g p = moved (P (br_boreLength c + br_holeLength c) 0 0) p) -> map g l = map (moved (P (br_boreLength c + br_holeLength c) 0 0)) l) by (intros g l G; apply map_ext; exact G).
  assert (KEY : exists k rest, (forall p, transformed p align = hung a b h k p) /\ fR = map (moved (P (br_boreLength c + br_holeLength c) 0 0)) (map (hung a b h k) (LFT :: cf)) ++ rest /\ (mount = None -> rest = map (moved (P (br_boreLength c + br_holeLength c) 0 0)) (map (hung a b h k) (cb ++ [LBT]))) /\ (mount = None -> cos t <> 0 -> let L := sqrt ((Y b - Y a) * (Y b - Y a) + (Z b - Z a) * (Z b - Z a)) in edist LFT LBT <= L -> 0 <= k - Y LFT <= L /\ 0 <= k - Y LBT <= L)).
  { destruct mount as [mo|].
    - apply bind_ok in EX. destruct EX as (mb & EMB & EX). destruct mb as (bm & (((bFG & bFT) & bBG) & bBT)). apply bind_ok in EX. destruct EX as (bd & EBD & EX). apply bind_ok in EX. destruct EX as (rl & ERL & EX). apply bind_ok in EX. destruct EX as (al & EAL & EX).
      apply bind_ok in EX. destruct EX as (aF & EAF & EX). apply bind_ok in EX. destruct EX as (aB & EAB & EX). apply bind_ok in EX. destruct EX as (ao & EAO & EX). apply bind_ok in EX. destruct EX as (rp & ERP & EX).
      do 9 (apply bind_ok in EX; destruct EX as (? & _ & EX)). apply Ok_inj in EX. do 5 (apply pair_inj in EX; destruct EX as [EX ?Q]).
      apply line_unit in ERL; [|exact UU]. subst rl. assert (FR : flat_line {| lpos := vyz a; ldir := u |}) by (split; [exact UU|split; [reflexivity|exact Xu]]).
      assert (FD : flat bd) by (apply (norm_flat _ _ EBD), flat_sub; reflexivity).
      assert (FA : flat_line ao) by (apply (newLine_flat _ _ _ EAO); [apply flat_add; [reflexivity|apply flat_scale; reflexivity]|exact FD]).
      destruct (flat_meet _ _ _ FR FA ERP) as [(k & EK) _]. pose proof (f_equal X EK) as K1. pose proof (f_equal Y EK) as K2. pose proof (f_equal Z EK) as K3.
      change (X rp = 0 + k * X u) in K1. change (Y rp = Y a + k * Y u) in K2. change (Z rp = Z a + k * Z u) in K3. rewrite Xu in K1.
      exists k. eexists. assert (PP : forall p, transformed p align = hung a b h k p) by (intros p; rewrite <- Q3; apply PL; [lra|exact K2|exact K3]). split; [exact PP|]. split; [|split; discriminate].
      rewrite <- Q0. f_equal. rewrite EF. unfold etransformed, etranslated. rewrite !map_map. apply map_ext. intros p. specialize (PP p). rewrite <- Q3 in PP. rewrite PP. unfold moved. destruct (hung a b h k p) as [p1 p2 p3]. apply pt_ext; unfold X, Y, Z, P; cbn; rn; ring.
    - apply bind_ok in EX. destruct EX as (f0 & EF0 & EX). apply bind_ok in EX. destruct EX as (be & EBE & EX). do 4 (apply bind_ok in EX; destruct EX as (? & _ & EX)). apply Ok_inj in EX. do 5 (apply pair_inj in EX; destruct EX as [EX ?Q]).
      match type of Q3 with mtranslated _ (vadd _ (vscale _ ?kk)) = _ => set (k := kk) in * end. exists k. eexists.
      assert (PP : forall p, transformed p align = hung a b h k p). { intros p. rewrite <- Q3. apply PL; [change (0 + X u * k = 0); rewrite Xu; ring|change (Y a + Y u * k = Y a + k * Y u); ring|change (Z a + Z u * k = Z a + k * Z u); ring]. }
      split; [exact PP|]. split; [|split; [intros _; reflexivity|]].
      { rewrite <- Q0, EF, EB. rewrite <- !map_app. unfold etransformed, etranslated. rewrite !map_map. apply map_ext. intros p. specialize (PP p). rewrite <- Q3 in PP. rewrite PP. unfold moved. destruct (hung a b h k p) as [p1 p2 p3]. apply pt_ext; unfold X, Y, Z, P; cbn; rn; ring. }
      intros _ CT L DL. assert (ED : vmag (vsub f0 be) = edist LFT LBT).
      { rewrite EF in EF0. rewrite EB in EBE. apply (hd_is _ _ vzero) in EF0. apply (end_is _ _ vzero) in EBE. cbn [hd] in EF0. rewrite last_last in EBE. subst f0 be. apply mag_dist. }
      assert (EL : vmag (vsub (vyz b) (vyz a)) = L). { unfold L. rewrite LEN. apply vmag_len. }
      assert (EKK : k = 85 / 100 * (L - edist LFT LBT) + edist LFT LBT / 2). { unfold k. rewrite ED, EL. reflexivity. }
      assert (YY : Y LBT = - Y LFT). { apply (Rmult_eq_reg_r (cos t)); [|exact CT]. rewrite Z1 in T1. rewrite Z2 in T3. lra. }
      assert (DD : edist LFT LBT = 2 * Rabs (Y LFT)). { apply edist_sq; [pose proof (Rabs_pos (Y LFT)); lra|]. rewrite X1, X2, Z1, Z2, YY. transitivity (4 * (Rabs (Y LFT) * Rabs (Y LFT))); [|ring]. rewrite <- Rabs_mult, Rabs_right; [ring|]. pose proof (Rle_0_sqr (Y LFT)) as Q9. unfold Rsqr in Q9. lra. }
      rewrite YY, EKK. rewrite DD in *. pose proof (Rle_abs (Y LFT)) as P1. pose proof (Rle_abs (- Y LFT)) as P2. rewrite Rabs_Ropp in P2. split; split; lra. }
  destruct KEY as (k & rest & PP & EFR & ER & EW). exists h, k, LFT, LFG, LBG, LBT, cf, cb, sec, rest. cbv zeta. split; [exact BS|]. split; [exact C1|]. split; [exact C2|]. split.
  { rewrite <- H. cbn [rbMesh meshes faces]. apply in_or_app. right. apply in_or_app. right. apply in_or_app. left. left. f_equal; [exact EFR|]. f_equal. rewrite EHR, !map_map. apply map_ext. intros p. rewrite PP.
    unfold hung, moved, upright. set (uy := unit_y a b). set (uz := unit_z a b). clearbody uy uz. destruct p as [p1 p2 p3], a as [a1 a2 a3]. apply pt_ext; unfold X, Y, Z, P; cbn; rn; ring. }
  split; [exact ER|]. split; [exact EW|]. split; [exact NE|]. split; [exact Z1|]. split; [exact Z2|]. split; [lra|]. split; [unfold depth; lra|]. split; [unfold depth; lra|].
  intros p IP. apply in_map_iff in IP. destruct IP as (p0 & <- & IP). assert (HB' : eps <= boreR c) by (unfold boreR; lra).
  destruct (bore_box q taper c HB' HN s false sec BS ltac:(discriminate) p0 IP) as [BX BY]. apply Rabs_def2' in BX. apply Rabs_def2' in BY. fold m in BY.
  destruct (bore_tangent q taper pmod c HM HB' HN s sec (t - PI / 2) BS p0 IP) as (_ & _ & B1 & B2).
  assert (CT : cos (t - PI / 2) = sin t). { rewrite <- cos_neg. replace (- (t - PI / 2)) with (PI / 2 - t) by ring. apply cos_shift. }
  assert (ST : sin (t - PI / 2) = - cos t). { replace (t - PI / 2) with (- (PI / 2 - t)) by ring. rewrite sin_neg, sin_shift. reflexivity. }
  rewrite CT, ST in B1, B2. set (tr := tangentR pmod c (t - PI / 2)) in *. assert (EO : off = tr + br_taperMargin c) by reflexivity. assert (EH' : h = m + br_baseMargin c) by reflexivity. clearbody tr off h m.
  change (upright p0) with (P 0 (- X p0) (Y p0)). unfold depth. repeat match goal with |- context [Z (P ?a ?b ?c)] => change (Z (P a b c)) with c | |- context [Y (P ?a ?b ?c)] => change (Y (P a b c)) with b end. repeat split; lra.
Qed.
End Br.

Lemma facing_1 l : map (facing 1) l = l.
Proof. rewrite <- (map_id l) at 2. apply map_ext. intros p. apply pt_ext; [reflexivity|change (1 * Y p = Y p); ring|reflexivity]. Qed.
Lemma facing_m1 l : map (facing (-1)) l = map vmirY l.
Proof. apply map_ext. intros p. apply pt_ext; [reflexivity|change (-1 * Y p = - Y p); ring|reflexivity]. Qed.
Lemma turned_face m e (h : list pt) : In (e, [h]) (faces m) -> In (map (facing (-1)) e, [map (facing (-1)) h]) (faces (Flipped vmirY m)).
Proof. intros H. cbn [faces]. rewrite !facing_m1. apply in_map_iff. exists (e, [h]). split; [reflexivity|exact H]. Qed.
Lemma KX (y z : R) : X (P 0 y z) = 0.
Proof. reflexivity. Qed.

(** C86: the bracket between floor and lip.  Seen from the wall (o turns the bracket if the wall is behind), its outline is made of the lip,
    the base at the height of a, two sides that lean by the taper angle and meet the base and the height of the lip, and a top above
    the lip, with rounded upper corners.  The bore, a nut hexagon or an upright screw head, keeps the base margin from the base, the apex margin
    from the top, the taper margin from both sides and the wall margin from the lip *)
Theorem C86_floor_bracket : forall q (taper : option R) pmod (c : @bracket_cfg Rnum) (a b cc d e : pt) s r, floorBracket q taper pmod c a b cc d e s = Ok r ->
  remainder pmod -> let t := br_taperAngle c in 0 <= t < PI / 2 -> 2 * eps <= br_boreDiameter c -> 0 <= br_nutAcross c ->
  (match taper with Some al => al + t <= PI / 2 | None => True end) ->
  let o := if Rlt_dec (Y b) (Y a) then -1 else 1 in let extra := if Rlt_dec (Y b) (Y a) then 0 else br_frontFloorExtra c in
  let M := br_boreLength c + br_holeLength c in let flat p := P 0 (o * Y p) (Z p) in
  exists (yc zc top : R) (LBG LBT LFT LFG : pt) cornerB cornerF sec,
    bore_sketch q taper c s true sec /\
    archCorner q (br_cornerRadius c) LBG LBT LFT = Ok cornerB /\ archCorner q (Rmin (br_cornerRadius c) (top - Z d)) LBT LFT LFG = Ok cornerF /\
    In (map (facing o) (collapsed (map (moved (P M yc 0)) (collapsed (LBG :: cornerB ++ cornerF ++ [LFG]) (1 / 1000)) ++ map (moved (P M 0 0)) [flat d; flat cc; flat a]) (1 / 1000)),
        [map (facing o) (map (moved (P M yc zc)) (map upright sec))]) (faces (fbMesh r)) /\
    Z LBG = Z a /\ Z LFG = Z d /\ Z LBT = top /\ Z LFT = top /\ Z d < top /\
    depth (cos t) (sin t) LBG LBT = 0 /\ depth (- cos t) (sin t) LFG LFT = 0 /\
    forall p, In p (map upright sec) -> let p' := moved (P 0 0 zc) p in
      Z a + br_baseMargin c <= Z p' /\ Z p' + br_apexMargin c <= top /\
      br_taperMargin c <= depth (cos t) (sin t) LBG p' /\ br_taperMargin c <= depth (- cos t) (sin t) LFG p' /\
      o * Y d + br_wallMargin c + extra <= Y p' + yc.
Proof.
  intros q taper pmod c a b cc d e s r H HM t HT HB HN HU o extra M flat. unfold floorBracket in H. cbv zeta in H.
  change (nltb (vy (vyz b)) (vy (vyz a))) with (Rltb (Y b) (Y a)) in H. unfold Rltb in H. subst flat M extra o. cbv zeta beta. destruct (Rlt_dec (Y b) (Y a)) as [L|L].
  - apply bind_ok in H. destruct H as (r' & HF & H). apply Ok_inj in H.
    assert (B : forall p : pt, vmirY (vyz p) = P 0 (-1 * Y p) (Z p)) by (intros p; apply pt_ext; [reflexivity|change (- Y p = -1 * Y p); ring|reflexivity]). rewrite !B in HF.
    destruct (floor_margins q taper pmod c HM HT HB HN _ _ _ _ _ _ _ _ HU (KX _ _) (KX _ _) (KX _ _) (KX _ _) HF) as (yc & zc & top & LBG & LBT & LFT & LFG & cB & cF & sec & K1 & K2 & K3 & K4 & K).
    exists yc, zc, top, LBG, LBT, LFT, LFG, cB, cF, sec. split; [exact K1|]. split; [exact K2|]. split; [exact K3|]. split; [rewrite <- H; cbn [fbMesh]; apply turned_face; exact K4|exact K].
  - assert (B : forall p : pt, vyz p = P 0 (1 * Y p) (Z p)) by (intros p; apply pt_ext; [reflexivity|change (Y p = 1 * Y p); ring|reflexivity]). rewrite !B in H.
    destruct (floor_margins q taper pmod c HM HT HB HN _ _ _ _ _ _ _ _ HU (KX _ _) (KX _ _) (KX _ _) (KX _ _) H) as (yc & zc & top & LBG & LBT & LFT & LFG & cB & cF & sec & K1 & K2 & K3 & K4 & K).
    exists yc, zc, top, LBG, LBT, LFT, LFG, cB, cF, sec. split; [exact K1|]. split; [exact K2|]. split; [exact K3|]. split; [rewrite !facing_1; exact K4|exact K].
Qed.
(** C86: the bracket in the corner of wall and roof.  Seen from the wall, its outline is made of the wall, the roof from a to b, a lower side and a side
    that leans by the taper angle, with a rounded corner.  The bore keeps the wall margin, the base margin (from the roof), the apex margin (from the lower side)
    and the taper margin; at the back the extra margin and, with a cable, its inset are added *)
Theorem C86_corner_bracket : forall q (taper : option R) pmod pasin (c : @bracket_cfg Rnum) cable (a b d : pt) s r, cornerBracket q taper pmod pasin c cable a b d s = Ok r ->
  remainder pmod -> let t := br_taperAngle c in 0 <= t < PI / 2 -> 2 * eps <= br_boreDiameter c -> 0 <= br_nutAcross c ->
  let front := if Rlt_dec (Y a) (Y b) then true else false in let o := if front then -1 else 1 in
  let extra := if front then 0 else br_backExtra c in let inset := if front then 0 else match cable with Some k => ca_bracketInset k | None => 0 end in
  let M := br_holeLength c + br_boreLength c in let flat p := P 0 (o * Y p) (Z p) in
  exists (ce LBG LFG LFT : pt) arc sec,
    bore_sketch q taper c s false sec /\ archCorner q (br_cornerRadius c) LBG LFG LFT = Ok arc /\
    In (map (facing o) (rev (collapsed (map (moved (P M 0 0)) (LBG :: arc ++ [LFT; flat a; flat d])) (1 / 1000))), [map (facing o) (map (moved (P M (Y ce) (Z ce))) (map upright sec))]) (faces (cbMesh r)) /\
    Y LBG = o * Y d /\ Z LFG = Z LBG /\ left_of (flat a) (flat b) LFT = 0 /\ depth (- cos t) (- sin t) LFG LFT = 0 /\
    forall p, In p (map upright sec) -> let p' := moved ce p in
      Y p' + br_wallMargin c + extra <= o * Y d /\ Z LBG + br_apexMargin c <= Z p' /\
      br_baseMargin c + extra <= left_of (flat a) (flat b) p' /\ br_taperMargin c + inset <= depth (- cos t) (- sin t) LFG p'.
Proof.
  intros q taper pmod pasin c cable a b d s r H HM t HT HB HN front o extra inset M flat. unfold cornerBracket in H. cbv zeta in H.
  change (nltb (vy (vyz a)) (vy (vyz b))) with (Rltb (Y a) (Y b)) in H. unfold Rltb in H. subst flat M inset extra o front. cbv zeta beta. destruct (Rlt_dec (Y a) (Y b)) as [L|L].
  - apply bind_ok in H. destruct H as (r' & HF & H). apply Ok_inj in H.
    assert (B : forall p : pt, vmirY (vyz p) = P 0 (-1 * Y p) (Z p)) by (intros p; apply pt_ext; [reflexivity|change (- Y p = -1 * Y p); ring|reflexivity]). rewrite !B in HF.
    destruct (corner_margins q taper pmod pasin c HM HT HB HN _ _ _ _ _ _ _ _ (KX _ _) (KX _ _) (KX _ _) HF) as (ce & LBG & LFG & LFT & arc & sec & K1 & K2 & K3 & K).
    exists ce, LBG, LFG, LFT, arc, sec. split; [exact K1|]. split; [exact K2|]. split; [rewrite <- H; cbn [cbMesh]; apply turned_face; exact K3|exact K].
  - assert (B : forall p : pt, vyz p = P 0 (1 * Y p) (Z p)) by (intros p; apply pt_ext; [reflexivity|change (Y p = 1 * Y p); ring|reflexivity]). rewrite !B in H.
    destruct (corner_margins q taper pmod pasin c HM HT HB HN _ _ _ _ _ _ _ _ (KX _ _) (KX _ _) (KX _ _) H) as (ce & LBG & LFG & LFT & arc & sec & K1 & K2 & K3 & K).
    exists ce, LBG, LFG, LFT, arc, sec. split; [exact K1|]. split; [exact K2|]. split; [rewrite !facing_1; exact K3|exact K].
Qed.
(** C86: the bracket under the roof hangs on the line from a to b; in its own drawing the two sides lean by the taper angle, and the bore keeps the base margin
    from the roof, the apex margin from the lower side and the taper margin from both sides *)
Theorem C86_roof_bracket : forall q (taper : option R) pmod (c : @bracket_cfg Rnum) mount (a b : pt) rm s r, roofBracket q taper pmod c mount a b rm s = Ok r ->
  remainder pmod -> let t := br_taperAngle c in 2 * eps <= br_boreDiameter c -> 0 <= br_nutAcross c ->
  exists (h k : R) (LFT LFG LBG LBT : pt) cf cb sec rest,
    let M := br_boreLength c + br_holeLength c in let place := hung a b h k in
    bore_sketch q taper c s false sec /\ archCorner q (br_cornerRadius c) LFT LFG LBG = Ok cf /\ archCorner q (br_cornerRadius c) LFG LBG LBT = Ok cb /\
    In (map (moved (P M 0 0)) (map place (LFT :: cf)) ++ rest, [map (moved (P M 0 0)) (map place (map upright sec))]) (faces (rbMesh r)) /\
    (mount = None -> rest = map (moved (P M 0 0)) (map place (cb ++ [LBT]))) /\
    (mount = None -> cos t <> 0 -> let L := sqrt ((Y b - Y a) * (Y b - Y a) + (Z b - Z a) * (Z b - Z a)) in edist LFT LBT <= L -> 0 <= k - Y LFT <= L /\ 0 <= k - Y LBT <= L) /\
    (forall p, left_of a b (place p) = h - Z p) /\
    Z LFT = h /\ Z LBT = h /\ Z LFG = Z LBG /\ depth (- cos t) (- sin t) LFT LFG = 0 /\ depth (cos t) (- sin t) LBT LBG = 0 /\
    forall p, In p (map upright sec) -> br_baseMargin c <= left_of a b (place p) /\ Z LFG + br_apexMargin c <= Z p /\
      br_taperMargin c <= depth (- cos t) (- sin t) LFG p /\ br_taperMargin c <= depth (cos t) (- sin t) LBG p.
Proof.
  intros q taper pmod c mount a b rm s r H HM t HB HN.
  destruct (roof_margins q taper pmod c HM HB HN mount a b rm s r H) as (h & k & LFT & LFG & LBG & LBT & cf & cb & sec & rest & K1 & K2 & K3 & K4 & K5 & KW & NE & K6 & K7 & K8 & K9 & K10 & K).
  exists h, k, LFT, LFG, LBG, LBT, cf, cb, sec, rest. cbv zeta. split; [exact K1|]. split; [exact K2|]. split; [exact K3|]. split; [exact K4|]. split; [exact K5|]. split; [exact KW|]. split; [intros p; apply hung_left, NE|].
  split; [exact K6|]. split; [exact K7|]. split; [exact K8|]. split; [exact K9|]. split; [exact K10|]. intros p IP. rewrite hung_left by exact NE. exact (K p IP).
Qed.
(** C86: the screw passes through both halves: the hole in the split plane does not depend on the side that gets the nut *)
Lemma hole_same {N : Num} q taper (c : bracket_cfg) ce s1 s2 up m1 h1 r1 m2 h2 r2 : screwHole q taper c ce s1 up = Ok (m1, h1, r1) -> screwHole q taper c ce s2 up = Ok (m2, h2, r2) -> h1 = h2.
Proof.
  unfold screwHole. cbv zeta. intros A B. apply bind_ok in A. destruct A as (ho & EH & A). rewrite EH in B. cbn [bind] in B. apply bind_ok in A. destruct A as (b1 & _ & A). apply bind_ok in B. destruct B as (b2 & _ & B).
  apply Ok_inj in A. apply Ok_inj in B. apply pair_inj in A. destruct A as [A _]. apply pair_inj in A. destruct A as [_ <-]. apply pair_inj in B. destruct B as [B _]. apply pair_inj in B. destruct B as [_ <-]. reflexivity.
Qed.
Ltac both A B := repeat match type of A with bind ?x _ = Ok _ => let v := fresh "v" in let E := fresh "E" in apply bind_ok in A; destruct A as (v & E & A); rewrite E in B; cbn [bind] in B end.
Theorem C86_sides_match : forall {N : Num} q taper pmod pasin (c : bracket_cfg) cable mount a b cc d e rm s1 s2,
  (forall r1 r2, floorBracket q taper pmod c a b cc d e s1 = Ok r1 -> floorBracket q taper pmod c a b cc d e s2 = Ok r2 -> fbSplit r1 = fbSplit r2 /\ fbHole r1 = fbHole r2) /\
  (forall r1 r2, cornerBracket q taper pmod pasin c cable a b d s1 = Ok r1 -> cornerBracket q taper pmod pasin c cable a b d s2 = Ok r2 -> cbSplit r1 = cbSplit r2 /\ cbHoles r1 = cbHoles r2) /\
  (forall r1 r2, roofBracket q taper pmod c mount a b rm s1 = Ok r1 -> roofBracket q taper pmod c mount a b rm s2 = Ok r2 -> rbSplit r1 = rbSplit r2 /\ rbHole r1 = rbHole r2).
Proof.
  intros N q taper pmod pasin c cable mount a b cc d e rm s1 s2.
  assert (FW : forall a b cc d e ex r1 r2, floorFwd q taper pmod c a b cc d e ex s1 = Ok r1 -> floorFwd q taper pmod c a b cc d e ex s2 = Ok r2 -> fbSplit r1 = fbSplit r2 /\ fbHole r1 = fbHole r2).
  { clear. intros a b cc d e ex r1 r2 A B. unfold floorFwd in A, B. cbv zeta in A, B. do 9 (apply bind_ok in A; let v := fresh "v" in let E := fresh "Q" in destruct A as (v & E & A); rewrite E in B; cbn [bind] in B).
    destruct (nleb _ _); [discriminate|]. do 3 (apply bind_ok in A; let v := fresh "v" in let E := fresh "Q" in destruct A as (v & E & A); rewrite E in B; cbn [bind] in B).
    apply bind_ok in A. destruct A as (h1 & E1 & A). apply bind_ok in B. destruct B as (h2 & E2 & B). destruct h1 as ((m1 & l1) & x1), h2 as ((m2 & l2) & x2). pose proof (hole_same _ _ _ _ _ _ _ _ _ _ _ _ _ E1 E2) as EL. subst l2. clear E1 E2.
    apply bind_ok in A. destruct A as (ae & E & A). rewrite E in B. cbn [bind] in B. destruct (visClose ae e).
    - do 2 (apply bind_ok in A; let v := fresh "v" in let E := fresh "Q" in destruct A as (v & E & A); rewrite E in B; cbn [bind] in B). apply Ok_inj in A. apply Ok_inj in B. subst r1 r2. split; reflexivity.
    - do 2 (apply bind_ok in A; let v := fresh "v" in let E := fresh "Q" in destruct A as (v & E & A); rewrite E in B; cbn [bind] in B). apply Ok_inj in A. apply Ok_inj in B. subst r1 r2. split; reflexivity. }
  assert (CW : forall cable a b d ex ins r1 r2, cornerFwd q taper pmod pasin c cable a b d ex ins s1 = Ok r1 -> cornerFwd q taper pmod pasin c cable a b d ex ins s2 = Ok r2 -> cbSplit r1 = cbSplit r2 /\ cbHoles r1 = cbHoles r2).
  { clear. intros cable a b d ex ins r1 r2 A B. unfold cornerFwd in A, B. apply bind_ok in A. destruct A as (k & EK & A). rewrite EK in B. cbn [bind] in B. cbv zeta in A, B.
    apply bind_ok in A. destruct A as (h1 & E1 & A). apply bind_ok in B. destruct B as (h2 & E2 & B). destruct h1 as ((m1 & l1) & x1), h2 as ((m2 & l2) & x2). pose proof (hole_same _ _ _ _ _ _ _ _ _ _ _ _ _ E1 E2) as EL. subst l2. clear E1 E2.
    destruct cable as [kc|]; [|apply Ok_inj in A; apply Ok_inj in B; subst r1 r2; split; reflexivity].
    do 7 (apply bind_ok in A; let v := fresh "v" in let E := fresh "Q" in destruct A as (v & E & A); rewrite E in B; cbn [bind] in B). apply Ok_inj in A. apply Ok_inj in B. subst r1 r2. split; reflexivity. }
  split; [|split].
  - intros r1 r2 A B. unfold floorBracket in A, B. cbv zeta in A, B. destruct (nltb _ _) in A, B; [|exact (FW _ _ _ _ _ _ _ _ A B)].
    apply bind_ok in A. destruct A as (f1 & E1 & A). apply bind_ok in B. destruct B as (f2 & E2 & B). destruct (FW _ _ _ _ _ _ _ _ E1 E2) as [S1 S2]. apply Ok_inj in A. apply Ok_inj in B. subst r1 r2. cbn [fbSplit fbHole]. rewrite S1, S2. auto.
  - intros r1 r2 A B. unfold cornerBracket in A, B. destruct (nltb _ _) in A, B; [|exact (CW _ _ _ _ _ _ _ _ A B)].
    apply bind_ok in A. destruct A as (f1 & E1 & A). apply bind_ok in B. destruct B as (f2 & E2 & B). destruct (CW _ _ _ _ _ _ _ _ E1 E2) as [S1 S2]. apply Ok_inj in A. apply Ok_inj in B. subst r1 r2. cbn [cbSplit cbHoles]. rewrite S1, S2. auto.
  - intros r1 r2 A B. unfold roofBracket in A, B. cbv zeta in A, B. apply bind_ok in A. destruct A as (sk & ES & A). rewrite ES in B. cbn [bind] in B. destruct sk as (((lf & lb) & pT) & pG). apply bind_ok in A. destruct A as (u & EU & A). rewrite EU in B. cbn [bind] in B.
    apply bind_ok in A. destruct A as (h1 & E1 & A). apply bind_ok in B. destruct B as (h2 & E2 & B). destruct h1 as ((m1 & l1) & x1), h2 as ((m2 & l2) & x2). pose proof (hole_same _ _ _ _ _ _ _ _ _ _ _ _ _ E1 E2) as EL. subst l2. clear E1 E2.
    apply bind_ok in A. destruct A as (x & EX & A). rewrite EX in B. cbn [bind] in B. destruct x as (((((x0 & y1) & y2) & y3) & y4) & y5). apply Ok_inj in A. apply Ok_inj in B. subst r1 r2. split; reflexivity.
Qed.

(* the hypothesis on the remainder can be met: rounding down *)
Lemma remainder_exists : remainder (fun x y => x - IZR (Int_part (x / y)) * y).
Proof.
  intros x y Hy. split; [|exists (Int_part (x / y)); ring]. destruct (base_Int_part (x / y)) as [A B]. assert (E : x = x / y * y) by (field; lra). set (k := IZR (Int_part (x / y))) in *. set (z := x / y) in *. rewrite E. split; [|]; nra.
Qed.
(* brackets of the default size, in fixed point arithmetic: at the floor, in the back corner (with cable) and under the roof, for the side with the nut and the other one *)
Open Scope Z_scope.
Definition at_yz (y z : BinNums.Z) : @vec Calc := @V Calc 0 (dq y 10) (dq z 10).
Definition brackets_of (s : side) : bool :=
  match floorBracket q_mid (Some (P_Plan.deg 45 1)) cmod bracket_default (at_yz 20 0) (at_yz 900 0) (at_yz 10 10) (at_yz 10 22) (at_yz 0 22) s,
        cornerBracket q_mid (Some (P_Plan.deg 45 1)) cmod casin bracket_default (Some cable_default) (at_yz 900 250) (at_yz 0 200) (at_yz 900 240) s,
        roofBracket q_mid (Some (P_Plan.deg 45 1)) cmod bracket_default None (at_yz 900 250) (at_yz 0 200) mid s with
  | Ok f, Ok k, Ok r => (4 <=? length (fbHole f))%nat && (length (cbHoles k) =? 2)%nat && (4 <=? length (rbSplit r))%nat
  | _, _, _ => false end.
Example C86_nonvacuous : brackets_of SideLeft && brackets_of SideRight = true.
Proof. vm_cast_no_check (eq_refl true). Qed.
