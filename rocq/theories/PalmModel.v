(** Model of /repo/body/chrumm/part/palm.py. *)
From Coq Require Import ZArith List Bool.
From Verif Require Import Num GeoModel EdgeModel ArcModel MeshModel LayoutModel BossModel PlanModel BracketModel BumperModel.
Import ListNotations.
Open Scope num_scope.

Section Palm.
Context {N : Num}.
Notation "0" := (nZ 0%Z) : num_scope.
Notation "1" := (nZ 1%Z) : num_scope.
Notation "2" := (nZ 2%Z) : num_scope.
Notation "4" := (nZ 4%Z) : num_scope.

(* cfg.palm.groove (palm.py:165-168) *)
Record groove_cfg := mkGrooveCfg { gr_width : num; gr_height : num; gr_roofMargin : num; gr_relClamp : num }.
(* cfg.palm and cfg.floor.outerHeight (palm.py:23-30, 287-292) *)
Record palm_cfg := mkPalmCfg {
  pa_floorHeight : num; pa_taperAngle : num; pa_bodyMargin : num; pa_height : num; pa_floorFillet : num; pa_floorContact : num;
  pa_hitchDepth : num; pa_hitchRadius : num; pa_depth : num; pa_tentAngle : num; pa_tiltAngle : num; pa_roundness : num; pa_roofFillet : num;
  pa_groove : option groove_cfg }.
Variable q : quality.
Variable c : palm_cfg.
Variable bumperC : option (@bumper_cfg N).

(* palm.py:284-334 _roofSpine; arc[0] and arc[-1] raise IndexError on empty arcs *)
Definition roofSpine (inset : num) : res (list line) :=
  let palmDepth := pa_depth c - 2 * inset in
  let roofFillet := pmax 0 (pa_roofFillet c - inset) in
  let roofAngle := ndiv tau 4 * pmax 0 (pmin (pa_roundness c) 1) in
  let endAngleB := ndiv tau 4 - ndiv roofAngle 2 + pa_tiltAngle c in
  let endAngleF := ndiv tau 4 - ndiv roofAngle 2 - pa_tiltAngle c in
  endArcB <- arc2D q roofFillet 0 endAngleB vzero ;;
  endArcF <- arc2D q roofFillet (npi - endAngleF) endAngleF vzero ;;
  b0 <- pyidx endArcB 0 ;; b1 <- pyidx endArcB (-1)%Z ;; f0 <- pyidx endArcF 0 ;; f1 <- pyidx endArcF (-1)%Z ;;
  let roofWidth := palmDepth - (vx b0 - vx b1) - (vx f0 - vx f1) in
  chordLength <- pdiv roofWidth (ncos (pa_tiltAngle c)) ;;
  roofArc <- (if 0 <? roofAngle then
                r <- pdiv chordLength (2 * nsin (ndiv roofAngle 2)) ;;
                a <- arc2D q (r * 2) endAngleB roofAngle vzero ;;
                Ok (escaled a (nQ 1 2) vzero)
              else Ok [vzero; V (- roofWidth) (- (chordLength * nsin (pa_tiltAngle c))) 0]) ;;
  let sketchOffset := V (pa_bodyMargin c + roofFillet + inset) (roofFillet + inset) 0 in
  let sketch := etranslated endArcB (vopp sketchOffset) in
  s1 <- pyidx sketch (-1)%Z ;; r0 <- pyidx roofArc 0 ;;
  let sketch := sketch ++ etranslated (skipn 1 roofArc) (vsub s1 r0) in
  s1 <- pyidx sketch (-1)%Z ;; f0 <- pyidx endArcF 0 ;;
  let sketch := sketch ++ etranslated (skipn 1 endArcF) (vsub s1 f0) in
  let tentMatrix := mrotY mid (pa_tentAngle c) None in
  mapM (fun p => l <- newLine (V 0 (vx p) (vy p)) (V 1 0 0) ;; ltransformed l tentMatrix) sketch.

(* [plane.intersect(l) for l in lines] *)
Definition cut (pl : plane) (ls : list line) : res (list vec) := mapM (pintersectLine pl) ls.
(* palm.py:41-67: the side planes, the roof edges at their final height, the raise, the ends on the floor *)
Record palmRoof := mkPalmRoof { prPlaneL : plane; prPlaneR : plane; prL : list vec; prR : list vec; prRaise : vec; prBG : vec; prFG : vec }.
Definition palmRoofs (thumbLF pinkyRF : vec) : res palmRoof :=
  let planeNormal := V (ncos (pa_taperAngle c)) (- nsin (pa_taperAngle c)) 0 in
  let planeOutset := ndiv (vmag (vsub pinkyRF thumbLF)) 2 in
  planeL <- newPlane (V (- planeOutset) 0 0) (vmirX planeNormal) ;;
  planeR <- newPlane (V planeOutset 0 0) planeNormal ;;
  spine <- roofSpine 0 ;;
  roofL <- cut planeL spine ;; roofR <- cut planeR spine ;;
  l0 <- pyidx roofL 0 ;; l1 <- pyidx roofL (-1)%Z ;;
  let palmBG := V 0 (vy l0) (- pa_floorHeight c) in
  let palmFG := V 0 (vy l1) (- pa_floorHeight c) in
  maxZ <- maxList (map vz roofL) ;;
  let roofRaise := V 0 0 (pa_height c - pa_floorHeight c - maxZ) in
  let roofL := etranslated roofL roofRaise in
  let roofR := etranslated roofR roofRaise in
  minRoofZ <- minList (map vz (roofL ++ roofR)) ;;
  let minPalmHeight := pa_height c - minRoofZ - pa_floorHeight c + pa_floorFillet c in
  if pa_height c <=? minPalmHeight then Err ValueErr
  else Ok (mkPalmRoof planeL planeR roofL roofR roofRaise palmBG palmFG).

(* palm.py:69-88: the fillets on the floor: lines of the front and of the back *)
Definition filletLines (r : palmRoof) : res (list line * list line) :=
  let centerF := V 0 (vy (prFG r) + pa_floorFillet c) (- pa_floorHeight c + pa_floorFillet c) in
  arcF <- arc2D q (pa_floorFillet c) (ndiv tau 2) (ndiv tau 4) vzero ;;
  linesF <- mapM (fun p => newLine (vadd (V 0 (vx p) (vy p)) centerF) (V 1 0 0)) arcF ;;
  let centerB := V 0 (vy (prBG r) - pa_floorFillet c) (vz centerF) in
  arcB <- arc2D q (pa_floorFillet c) (tau * nQ 3 4) (ndiv tau 4) vzero ;;
  linesB <- mapM (fun p => newLine (vadd (V 0 (vx p) (vy p)) centerB) (V 1 0 0)) arcB ;;
  Ok (linesF, linesB).

(* palm.py:90-125: the notch for the hitch *)
Record notch := mkNotch { noFilletRG : list vec; noFilletRT : list vec; noEdgeT : list vec; noEdgeG : list vec; noRBT : vec; noRFT : vec }.
Definition newNotch (r : palmRoof) (filletLinesB : list line) : res notch :=
  let fh := pa_floorHeight c in
  let n := pnormal (prPlaneR r) in
  let notchY := vy (prFG r) + pa_floorContact c in
  notchBT <- newLine (V 0 (- pa_bodyMargin c) 0) (V 1 0 0) ;;
  notchBG <- newLine (V 0 (- pa_bodyMargin c) (- fh)) (V 1 0 0) ;;
  notchFT <- newLine (V 0 (notchY + fh) 0) (V 1 0 0) ;;
  notchFG <- newLine (V 0 notchY (- fh)) (V 1 0 0) ;;
  let floorOffset := V 0 0 fh in
  let taperOffset := vsub floorOffset (vscale n fh) in
  let notchFloorOffset := vadd floorOffset (vscale n (pa_floorContact c)) in
  notchRG <- newLine (vsub (ppos (prPlaneR r)) notchFloorOffset) (vortho2D n) ;;
  notchRT <- ltranslated notchRG taperOffset ;;
  notchRFT <- lintersect notchFT notchRT ;;
  notchRFG <- lintersect notchFG notchRG ;;
  notchRBT <- lintersect notchBT notchRT ;;
  notchRBG <- lintersect notchBG notchRG ;;
  taperNormal <- vnorm taperOffset ;;
  taperPlaneR <- newPlane notchRBG (vsub taperNormal n) ;;
  filletRG <- cut taperPlaneR filletLinesB ;;
  let filletRT := etranslated filletRG (vsub notchRBT notchRBG) in
  cornerRT <- cornerArc2D q (pa_hitchRadius c) notchRBT notchRFT (vyz notchRFT) ;;
  k <- pdiv fh (pa_hitchRadius c) ;;
  let cornerRG := etranslated (escaled (etranslated cornerRT (vopp notchRFT)) (1 + k) vzero) notchRFG in
  t0 <- pyidx filletRT 0 ;; g0 <- pyidx filletRG 0 ;;
  let edgeT := t0 :: cornerRT in let edgeG := g0 :: cornerRG in
  Ok (mkNotch filletRG filletRT (edgeT ++ rev (emirX edgeT)) (edgeG ++ rev (emirX edgeG)) notchRBT notchRFT).

(* palm.py:187-190: edge.insert(0, edge[0].xy - floorOffset); edge.append(edge[-1].xy - floorOffset) *)
Definition grounded (l : list vec) : res (list vec) :=
  let off := V 0 0 (pa_floorHeight c) in
  a <- pyidx l 0 ;; b <- pyidx l (-1)%Z ;; Ok (vsub (vxy a) off :: l ++ [vsub (vxy b) off]).
(* palm.py:192-199 addClamp; scalar literals *)
Definition addClamp (clampSize : num) (a b cc d : vec) : res mesh :=
  out <- vnorm (vortho2D (vsub d a)) ;;
  let clampOut := vscale out clampSize in
  let clampUp := V 0 0 clampSize in
  let clampA := vadd (vadd (vadd (vscale a (nQ 4 5)) (vscale d (nQ 1 5))) clampOut) clampUp in
  let clampD := vadd (vadd (vadd (vscale a (nQ 1 5)) (vscale d (nQ 4 5))) clampOut) clampUp in
  Ok (Strip [a; b; cc; d] [clampA; clampA; clampD; clampD] true).
(* palm.py:157-233: triangles, faces, and the edges LT, LG, RT, RG *)
Record grooveParts := mkGroove { gvMesh : mesh; gvFaces : list (list vec); gvLT : list vec; gvLG : list vec; gvRT : list vec; gvRG : list vec }.
Definition newGroove (g : groove_cfg) (r : palmRoof) : res grooveParts :=
  if gr_height g <=? pa_floorFillet c then Err ValueErr
  else
    spineT <- roofSpine (gr_roofMargin g) ;;
    spineG <- roofSpine (gr_roofMargin g + gr_height g) ;;
    spineT <- mapM (fun l => ltranslated l (prRaise r)) spineT ;;
    spineG <- mapM (fun l => ltranslated l (prRaise r)) spineG ;;
    let pL := prPlaneL r in let pR := prPlaneR r in
    lto <- cut pL spineT ;; lgo <- cut pL spineG ;; rto <- cut pR spineT ;; rgo <- cut pR spineG ;;
    pLI <- newPlane (vsub (ppos pL) (vscale (pnormal pL) (gr_width g))) (pnormal pL) ;;
    pRI <- newPlane (vsub (ppos pR) (vscale (pnormal pR) (gr_width g))) (pnormal pR) ;;
    lti <- cut pLI spineT ;; lgi <- cut pLI spineG ;; rti <- cut pRI spineT ;; rgi <- cut pRI spineG ;;
    lto <- grounded lto ;; lgo <- grounded lgo ;; rto <- grounded rto ;; rgo <- grounded rgo ;;
    lti <- grounded lti ;; lgi <- grounded lgi ;; rti <- grounded rti ;; rgi <- grounded rgi ;;
    let size := gr_height g * gr_relClamp g in
    let at_ l i := pyidx l i in
    clamps <- (if 0 <? gr_relClamp g then
        a0 <- at_ lgo 0%Z ;; a1 <- at_ lgo 1%Z ;; a2 <- at_ lgi 1%Z ;; a3 <- at_ lgi 0%Z ;; m1 <- addClamp size a0 a1 a2 a3 ;;
        b0 <- at_ rgi 0%Z ;; b1 <- at_ rgi 1%Z ;; b2 <- at_ rgo 1%Z ;; b3 <- at_ rgo 0%Z ;; m2 <- addClamp size b0 b1 b2 b3 ;;
        c0 <- at_ lgi (-1)%Z ;; c1 <- at_ lgi (-2)%Z ;; c2 <- at_ lgo (-2)%Z ;; c3 <- at_ lgo (-1)%Z ;; m3 <- addClamp size c0 c1 c2 c3 ;;
        d0 <- at_ rgo (-1)%Z ;; d1 <- at_ rgo (-2)%Z ;; d2 <- at_ rgi (-2)%Z ;; d3 <- at_ rgi (-1)%Z ;; m4 <- addClamp size d0 d1 d2 d3 ;;
        Ok (meshes [m1; m2; m3; m4; Strip (removelast (skipn 1 lgo)) (removelast (skipn 1 lgi)) false;
                    Strip (removelast (skipn 1 rgi)) (removelast (skipn 1 rgo)) false])
      else Ok (meshes [Strip lgo lgi false; Strip rgi rgo false])) ;;
    lto0 <- at_ lto 0%Z ;; lto1 <- at_ lto (-1)%Z ;; lti0 <- at_ lti 0%Z ;; lti1 <- at_ lti (-1)%Z ;;
    lgi0 <- at_ lgi 0%Z ;; lgi1 <- at_ lgi (-1)%Z ;; lgo0 <- at_ lgo 0%Z ;; lgo1 <- at_ lgo (-1)%Z ;;
    rto0 <- at_ rto 0%Z ;; rto1 <- at_ rto (-1)%Z ;; rti0 <- at_ rti 0%Z ;; rti1 <- at_ rti (-1)%Z ;;
    rgi0 <- at_ rgi 0%Z ;; rgi1 <- at_ rgi (-1)%Z ;; rgo0 <- at_ rgo 0%Z ;; rgo1 <- at_ rgo (-1)%Z ;;
    Ok (mkGroove (meshes [clamps; Strip lti lto false; Strip rto rti false])
          [lgi ++ rev lti; rti ++ rev rgi; rev lgo; rgo]
          (rev lto) [lto1; lti1; lgi1; lgo1; lgo0; lgi0; lti0; lto0]
          (rev rto) [rto0; rti0; rgi0; rgo0; rgo1; rgi1; rti1; rto1]).

(* palm.py:235-261: the bumpers at the four corners, before placing *)
Definition palmBumpers (r : palmRoof) : res (list (@bumper N)) :=
  match bumperC with
  | None => Ok []
  | Some bc =>
      let inset := bu_margin bc + ndiv (bu_diameter bc) 2 in
      let inset := match pa_groove c with Some g => inset + (gr_roofMargin g + gr_height g) | None => inset end in
      let inset := pmax inset (ndiv (pa_floorContact c) 2) in
      let pL := prPlaneL r in
      lineF <- newLine (V 0 (vy (prFG r) + inset) 0) (V 1 0 0) ;;
      lineB <- newLine (V 0 (vy (prBG r) - inset) 0) (V 1 0 0) ;;
      lineL <- newLine (vsub (ppos pL) (vscale (pnormal pL) (ndiv (pa_floorContact c) 2))) (vortho2D (pnormal pL)) ;;
      lf <- lintersect lineL lineF ;; lb <- lintersect lineL lineB ;;
      mapM (fun p => newBumper q bc (pa_floorHeight c) p false) [lf; lb; vmirX lf; vmirX lb]
  end.

(* palm.py:262-266 *)
Definition placeMatrix (thumbLF pinkyRF : vec) : mtx :=
  mtranslated (mrotZ mid (vangle2D (vsub pinkyRF thumbLF)) None) (vhalf (vadd thumbLF pinkyRF)).
(* palm.py:17-281: self.triangles and the triangulated self.faces; paSideR and paSideL are the outlines of the two
   sides before collapsed() (l. 272-273), not placed, and paNotch is the placed upper edge of the notch (l. 125, 275): recorded for the
   theorems only *)
Record palmPart := mkPalm { paMesh : mesh; paSideR : list vec; paSideL : list vec; paNotch : list vec }.
Definition newPalm (pts : @points N) (ht : @hitch N) : res palmPart :=
  let thumbLF := vxy (thumbOLFp pts) in let pinkyRF := vxy (pinkyORFp pts) in
  r <- palmRoofs thumbLF pinkyRF ;;
  fl <- filletLines r ;;
  addL <- cut (prPlaneL r) (fst fl) ;; addR <- cut (prPlaneR r) (fst fl) ;;
  let roofL := prL r ++ addL in let roofR := prR r ++ addR in
  filletLB <- cut (prPlaneL r) (snd fl) ;; filletRB <- cut (prPlaneR r) (snd fl) ;;
  no <- newNotch r (snd fl) ;;
  let nRG := noFilletRG no in let nRT := noFilletRT no in let nLT := emirX nRT in let nLG := emirX nRG in
  lb1 <- pyidx filletLB (-1)%Z ;; l0 <- pyidx roofL 0 ;; r0 <- pyidx roofR 0 ;; rb1 <- pyidx filletRB (-1)%Z ;;
  g1 <- pyidx nLG (-1)%Z ;; g2 <- pyidx nLT (-1)%Z ;; g3 <- pyidx nRT (-1)%Z ;; g4 <- pyidx nRG (-1)%Z ;;
  let maxHitchW := vmag (vsub (hitchOLB ht) (hitchORB ht)) + pa_hitchRadius c in
  if (vx (noRBT no) * 2 <=? maxHitchW) || (- (pa_hitchDepth c + pa_bodyMargin c) <=? vy (noRFT no)) then Err ValueErr
  else
    let m1 := meshes [Strip roofL roofR false; Strip [lb1; l0; r0; rb1] [g1; g2; g3; g4] false; Strip (noEdgeG no) (noEdgeT no) false;
                      Strip filletLB nLG false; Strip nLG nLT false; Strip nLT nRT false; Strip nRT nRG false; Strip nRG filletRB false] in
    gv <- (match pa_groove c with Some g => newGroove g r | None => Ok (mkGroove MEmpty [] [] [] [] []) end) ;;
    bs <- palmBumpers r ;;
    let m := placeMatrix thumbLF pinkyRF in
    let place p := transformed p m in
    rb0 <- pyidx filletRB 0 ;; rl <- pyidx roofR (-1)%Z ;; ll <- pyidx roofL (-1)%Z ;; lb0 <- pyidx filletLB 0 ;;
    let floorEdge := rev (noEdgeG no) ++ [rb0] ++ gvRG gv ++ [rl; ll] ++ gvLG gv ++ [lb0] in
    let sideR := filletRB ++ roofR ++ gvRT gv in
    let sideL := filletLB ++ roofL ++ gvLT gv in
    let floorHoles := map (fun b => etransformed (buFloor b) m) bs in
    let faces := map (fun e => Fill (etransformed e m) []) (gvFaces gv) ++
      [Fill (etransformed floorEdge m) floorHoles;
       Fill (etransformed (collapsed sideR mu) m) [];
       Fill (etransformed (rev (collapsed sideL mu)) m) [];
       Fill (etransformed (noEdgeT no) m) [threadHole (bossHitchL ht); threadHole (bossHitchR ht)]] in
    Ok (mkPalm (meshes (Moved place (meshes (m1 :: gvMesh gv :: map buMesh bs)) :: bThread (bossHitchL ht) :: bThread (bossHitchR ht) :: faces))
               sideR sideL (etransformed (noEdgeT no) m)).
End Palm.
