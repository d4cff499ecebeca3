(** Model of /repo/body/chrumm/part/bracket.py. *)
From Coq Require Import ZArith List Bool.
From Verif Require Import Num GeoModel EdgeModel ArcModel MeshModel LayoutModel.
Import ListNotations.
Open Scope num_scope.

Section Bracket.
Context {N : Num}.
Notation "0" := (nZ 0%Z) : num_scope.
Notation "1" := (nZ 1%Z) : num_scope.
Notation "2" := (nZ 2%Z) : num_scope.
Notation "3" := (nZ 3%Z) : num_scope.
Notation "4" := (nZ 4%Z) : num_scope.

(* cfg.bracket (bracket.py:35-47, 211-221, 376-387, 491-494, 512); nutSide is a string, None: neither left nor right *)
Record bracket_cfg := mkBracketCfg {
  br_nutSide : option side; br_nutAcross : num; br_boreDiameter : num; br_boreLength : num; br_holeDiameter : num; br_holeLength : num;
  br_cornerRadius : num; br_taperAngle : num; br_taperMargin : num; br_wallMargin : num; br_apexMargin : num; br_baseMargin : num;
  br_backExtra : num; br_frontFloorExtra : num }.
(* cfg.cable (bracket.py:48, 112-118; cable.py:26-32) *)
Record cable_cfg := mkCableCfg {
  ca_diameter : num; ca_minBendRadius : num; ca_zipWidth : num; ca_zipHeight : num; ca_bracketInset : num; ca_humpWidth : num;
  ca_humpHeight : num; ca_bumpRadius : num; ca_bumpTaper : num; ca_exitFillet : num }.
(* cfg.pcb.mount, cfg.body.splitAngle and cfg.switch.innerHeight (bracket.py:315-322) *)
Record mount_cfg := mkMountCfg {
  mo_bossHeight : num; mo_bossDiameter : num; mo_threadDiameter : num; mo_nutDiameter : num; mo_xDist : num; mo_yDist : num;
  mo_splitAngle : num; mo_innerHeight : num }.

Variable q : quality.
Variable taper : option num.             (* cfg.support.holeTaperAngle, see uprightHole2D *)
Variable pmod : num -> num -> num.       (* x % y of floats *)
Variable pasin : num -> res num.         (* math.asin *)
Variable c : bracket_cfg.

(* edge.py:84: the default threshold of collapsed *)
Definition mu : num := nQ 1 1000.
(* bracket.py:36: nutAcross / 3**0.5 *)
Definition nutRadius : num := ndiv (br_nutAcross c) (nsqrt 3).
Definition boreRadius : num := ndiv (br_boreDiameter c) 2.
Definition yzLine (py pz dy dz : num) : res line := newLine (V 0 py pz) (V 0 dy dz).
Definition half (v : vec) : vec := V (ndiv (vx v) 2) (ndiv (vy v) 2) (ndiv (vz v) 2).

(* bracket.py:476-482 *)
Definition hexTangentDist (outerRadius tangentAngle : num) : num :=
  outerRadius * ncos (pmod (nabs tangentAngle) (ndiv npi 3) - ndiv npi (nZ 6)).
(* bracket.py:485-487 *)
Definition archCorner (radius : num) (a b d : vec) : res (list vec) :=
  l <- cornerArc2D q radius (V (vy a) (vz a) 0) (V (vy b) (vz b) 0) (V (vy d) (vz d) 0) ;;
  Ok (map (fun p => V 0 (vx p) (vy p)) l).
Definition sideEqb (s t : side) : bool :=
  match s, t with SideLeft, SideLeft | SideRight, SideRight | SideBoth, SideBoth => true | _, _ => false end.
(* bracket.py:490-531: triangles, holeL, boreR *)
Definition screwHole (centerL : vec) (s : side) (isUpright : bool) : res (mesh * list vec * list vec) :=
  let holeRadius := ndiv (br_holeDiameter c) 2 in
  holeXY <- (if isUpright then uprightHole2D q taper holeRadius else arc2D q holeRadius 0 tau vzero) ;;
  let holeYZ := map (fun p => V 0 (- vx p) (vy p)) holeXY in
  let centerR := vadd centerL (V (br_holeLength c) 0 0) in
  let holeL := etranslated holeYZ centerL in
  let holeR := etranslated holeYZ centerR in
  boreXY <- (if match br_nutSide c with Some n => sideEqb s n | None => false end then
               let r := nutRadius in let a := ndiv (br_nutAcross c) 2 in
               Ok [V (ndiv (- r) 2) a 0; V (- r) 0 0; V (ndiv (- r) 2) (ndiv (- br_nutAcross c) 2) 0;
                   V (ndiv r 2) (ndiv (- br_nutAcross c) 2) 0; V r 0 0; V (ndiv r 2) a 0]
             else if isUpright then uprightHole2D q taper boreRadius else arc2D q boreRadius 0 tau vzero) ;;
  let boreL := map (fun p => vadd (V 0 (- vx p) (vy p)) centerR) boreXY in
  let boreR := etranslated boreL (V (br_boreLength c) 0 0) in
  Ok (meshes [Fill (rev boreL) [holeR]; Strip boreL boreR true; Strip holeL holeR true], holeL, boreR).

(* cbShort: the edges that pass through collapsed(), before that (for the theorems only; likewise zShort below) *)
Record cornerB := mkCornerB { cbWall : list vec; cbRoof : list vec; cbSplit : list vec; cbHoles : list (list vec); cbMesh : mesh; cbShort : list (list vec) }.

(** ** CornerBracket *)
(* the sketch of bracket.py:60-92: the screw, the lines and the left arch with its corner *)
Record cornerSketch := mkCS { csCenter : vec; csRoofLine : line; csApexLine : line; csTaperLine : line; csTaperDir : vec; csTaperOrtho : vec;
  csLBG : vec; csLFT : vec; csArc : list vec }.
Definition cornerLines (a b d : vec) (extraMargin cableInset : num) : res cornerSketch :=
  roofDir <- vnorm (vsub b a) ;;
  let roofOrtho := V 0 (vz roofDir) (- vy roofDir) in
  let roofAngle := vangle2D (V (- vy roofDir) (- vz roofDir) 0) in
  let t := br_taperAngle c in
  let taperDir := V 0 (- nsin t) (ncos t) in
  let taperOrtho := V 0 (- vz taperDir) (vy taperDir) in
  let nutRoofDist := hexTangentDist nutRadius roofAngle in
  let nutTaperDist := hexTangentDist nutRadius (t - ndiv npi 2) in
  let roofOffset := pmax boreRadius nutRoofDist + br_baseMargin c + extraMargin in
  let wallOffset := pmax boreRadius nutRadius + br_wallMargin c + extraMargin in
  let apexOffset := pmax boreRadius (ndiv (br_nutAcross c) 2) + br_apexMargin c in
  let taperOffset := pmax boreRadius nutTaperDist + br_taperMargin c + cableInset in
  wallOffsetLine <- newLine (vsub d (vscale (V 0 1 0) wallOffset)) (V 0 0 1) ;;
  roofOffsetLine <- newLine (vsub a (vscale roofOrtho roofOffset)) roofDir ;;
  screwCenter <- lintersect roofOffsetLine wallOffsetLine ;;
  wallLine <- newLine d (V 0 0 1) ;;
  roofLine <- newLine a roofDir ;;
  apexLine <- newLine (vsub screwCenter (V 0 0 apexOffset)) (V 0 1 0) ;;
  taperLine <- newLine (vadd screwCenter (vscale taperOrtho taperOffset)) taperDir ;;
  archLBG <- lintersect wallLine apexLine ;;
  archLFG <- lintersect taperLine apexLine ;;
  archLFT <- lintersect taperLine roofLine ;;
  arcL <- archCorner (br_cornerRadius c) archLBG archLFG archLFT ;;
  Ok (mkCS screwCenter roofLine apexLine taperLine taperDir taperOrtho archLBG archLFT arcL).

(* bracket.py:109-178: the ziptie hump: its triangles and hole, and the hump arch
   (left and right), the right corner, the right hole and the point humpRBT *)
Record zipParts := mkZip { zMesh : mesh; zHole : list vec; zArchL : list vec; zArchR : list vec; zArcR : list vec; zHoleR : list vec; zRBT : vec; zShort : list vec }.
Definition ziptie (k : cable_cfg) (s : cornerSketch) : res zipParts :=
  let t := br_taperAngle c in
  let humpRadius := ca_minBendRadius k in
  let humpInset := humpRadius - ca_humpHeight k in
  let moveH := V (ndiv (ca_humpWidth k) 2) 0 0 in
  humpCenterF <- ltranslated (csTaperLine s) (vscale (csTaperOrtho s) (ca_zipHeight k + br_taperMargin c - humpRadius)) ;;
  humpCenterT <- ltranslated (csApexLine s) (V 0 0 humpInset) ;;
  humpCenter <- lintersect humpCenterF humpCenterT ;;
  let bumpCenter := vsub (csLBG s) (V 0 0 (ca_diameter k + humpRadius)) in
  let maxCableDiameter := vmag (vsub humpCenter bumpCenter) - 2 * humpRadius in
  if maxCableDiameter <? ca_diameter k then Err ValueErr
  else
    r <- pdiv humpInset humpRadius ;; minHumpTaper <- pasin r ;;
    let humpSpan := npi - t - pmax minHumpTaper t in
    humpArcXY <- arc2D q humpRadius t humpSpan vzero ;;
    let humpArc := map (fun p => vadd (V 0 (- vx p) (- vy p)) humpCenter) humpArcXY in
    h0 <- pyidx humpArc 0 ;; h1 <- pyidx humpArc (-1)%Z ;;
    humpLineF <- newLine h0 (ldir (csTaperLine s)) ;;
    humpLineB <- newLine h1 (vmirY (ldir (csTaperLine s))) ;;
    humpLineG <- newLine (vsub (lpos (csApexLine s)) (V 0 0 (ca_humpHeight k))) (V 0 1 0) ;;
    humpLFT <- lintersect humpLineF (csRoofLine s) ;;
    humpLBT <- lintersect humpLineB (csApexLine s) ;;
    humpLFG <- lintersect humpLineG humpLineF ;;
    let humpRBT := vadd (csLFT s) moveH in
    let humpArchL := collapsed (humpLFT :: humpArc ++ [humpLBT]) mu in
    let humpArchR := etranslated humpArchL moveH in
    zipArcXY <- arc2D q (ndiv (ca_zipHeight k) 2) 0 (- npi) (V 0 (ndiv (ca_zipHeight k) 2 - ndiv (ca_zipWidth k) 2) 0) ;;
    let zipHoleXY := etransformed zipArcXY (mrotZ mid t None) in
    let zipHoleXY := zipHoleXY ++ emirY (emirX zipHoleXY) in
    let zipCenter := vsub (vadd (vscale humpLFT (nQ 4 10)) (vscale humpLFG (nQ 6 10)))
                          (vscale (csTaperOrtho s) (ndiv (ca_zipHeight k) 2 + br_taperMargin c)) in
    let zipHoleL := map (fun p => vadd (V 0 (vx p) (vy p)) zipCenter) zipHoleXY in
    z0 <- pyidx zipHoleL 0 ;; al <- pyidx (csArc s) (-1)%Z ;;
    let zipHoleL := if vz z0 <=? vz al then etranslated zipHoleL (vscale (csTaperDir s) (vmag (vsub z0 al))) else zipHoleL in
    let zipHoleR := etranslated zipHoleL moveH in
    let arcR := etranslated (csArc s) moveH in
    let humpEdgeR := humpArchR ++ arcR ++ zipHoleR ++ [humpRBT] in
    Ok (mkZip (meshes [Fill (collapsed humpEdgeR mu) []; Strip zipHoleL zipHoleR true; Strip humpArchL humpArchR false])
              zipHoleL humpArchL humpArchR arcR zipHoleR humpRBT humpEdgeR).

(* bracket.py:60-183 for a corner that is already turned backward *)
Definition cornerFwd (cable : option cable_cfg) (a b d : vec) (extraMargin cableInset : num) (s : side) : res cornerB :=
  k <- cornerLines a b d extraMargin cableInset ;;
  let archL := csLBG k :: csArc k ++ [csLFT k] in
  let moveR := V (br_holeLength c + br_boreLength c) 0 0 in
  let archR := etranslated archL moveR in
  let archR0 := vadd (csLBG k) moveR in let archRe := vadd (csLFT k) moveR in
  let wallEdge := [csLBG k; archR0; vadd d moveR] in
  let roofEdge := [vadd a moveR; archRe; csLFT k] in
  h <- screwHole (csCenter k) s false ;;
  let '(holeMesh, holeL, holeR) := h in
  let edgeR := archR ++ [vadd a moveR; vadd d moveR] in
  let base := Plus holeMesh (Fill (rev (collapsed edgeR mu)) [holeR]) in
  match cable with
  | None => Ok (mkCornerB wallEdge roofEdge archL [rev holeL] (Plus base (Strip archR archL false)) [edgeR])
  | Some kc =>
      z <- ziptie kc k ;;
      l1 <- pyidx (zArchL z) (-1)%Z ;; r1 <- pyidx (zArchR z) (-1)%Z ;;
      z0 <- pyidx (zHoleR z) 0 ;; z1 <- pyidx (zHoleR z) (-1)%Z ;;
      l0 <- pyidx (zArchL z) 0 ;; r0 <- pyidx (zArchR z) 0 ;;
      let archR := csLBG k :: archR in
      let archL := l1 :: r1 :: zArcR z ++ [z0; z1; zRBT z] in
      Ok (mkCornerB wallEdge [vadd a moveR; archRe; zRBT z; r0; l0] (rev (zArchL z ++ [csLBG k])) [rev holeL; rev (zHole z)]
            (Plus (Plus base (zMesh z)) (Strip archR archL false)) [edgeR; zShort z])
  end.
(* bracket.py:19-190; the turned bracket has no cable (l. 58, 111) *)
Definition cornerBracket (cable : option cable_cfg) (a b d : vec) (s : side) : res cornerB :=
  if vy (vyz a) <? vy (vyz b) then
    r <- cornerFwd None (vmirY (vyz a)) (vmirY (vyz b)) (vmirY (vyz d)) 0 0 s ;;
    Ok (mkCornerB (emirY (cbWall r)) (emirY (cbRoof r)) (rev (emirY (cbSplit r))) (map (fun h => rev (emirY h)) (cbHoles r))
                  (Flipped vmirY (cbMesh r)) (cbShort r))
  else cornerFwd cable (vyz a) (vyz b) (vyz d) (br_backExtra c) (match cable with Some k => ca_bracketInset k | None => 0 end) s.

(** ** RoofBracket *)
(* bracket.py:314-351 _makeBoss: the triangles and the four corners of the arm *)
Definition mountBoss (m : mount_cfg) (refMatrix : mtx) : res (mesh * (vec * vec * vec * vec)) :=
  let h := mo_bossHeight m in
  let r := ndiv (mo_bossDiameter m) 2 in
  let nr := ndiv (mo_nutDiameter m) 2 in
  holeG <- uprightHole2D q taper (ndiv (mo_threadDiameter m) 2) ;;
  let holeT := etranslated holeG (V 0 0 h) in
  edgeG <- arc2D q r 0 npi vzero ;;
  let edgeT := etranslated edgeG (V 0 0 h) in
  let rotMatrix := mrotZ mid (ndiv (- tau) 4 - mo_splitAngle m) None in
  let offset := V (- mo_xDist m) (- mo_yDist m) (- mo_innerHeight m) in
  let place p := transformed (vadd (transformed p rotMatrix) offset) refMatrix in
  let fg := place (V r (- r) 0) in let bg := place (V (- r) (- r) 0) in
  let ft := place (V r (- nr) h) in let bt := place (V (- r) (- nr) h) in
  let holeG := map place holeG in let holeT := map place holeT in
  let edgeG := fg :: map place edgeG ++ [bg] in let edgeT := ft :: map place edgeT ++ [bt] in
  Ok (meshes [Strip holeT holeG true; Strip edgeG edgeT false; Fill edgeT [rev holeT]; Fill (rev edgeG) [holeG]], (fg, ft, bg, bt)).

Record roofB := mkRoofB { rbRoof : list vec; rbSplit : list vec; rbHole : list vec; rbMesh : mesh }.
(* bracket.py:223-244: the sketch: front arch, back arch, lineT.pos, lineG.pos *)
Definition roofSketch : res (list vec * list vec * vec * vec) :=
  let t := br_taperAngle c in
  let taperDir := V 0 (nsin t) (ncos t) in
  let taperOrtho := V 0 (vz taperDir) (- vy taperDir) in
  let nutTaperDist := hexTangentDist nutRadius (t - ndiv npi 2) in
  let m := pmax boreRadius (ndiv (br_nutAcross c) 2) in
  let roofOffset := m + br_baseMargin c in
  let apexOffset := m + br_apexMargin c in
  let taperOffset := pmax boreRadius nutTaperDist + br_taperMargin c in
  lineB <- newLine (vscale taperOrtho taperOffset) taperDir ;;
  lineF <- newLine (vmirY (lpos lineB)) (vmirY (ldir lineB)) ;;
  lineG <- newLine (V 0 0 (- apexOffset)) (V 0 1 0) ;;
  lineT <- newLine (V 0 0 roofOffset) (V 0 1 0) ;;
  archLFT <- lintersect lineF lineT ;; archLFG <- lintersect lineF lineG ;;
  archLBG <- lintersect lineB lineG ;; archLBT <- lintersect lineB lineT ;;
  cf <- archCorner (br_cornerRadius c) archLFT archLFG archLBG ;;
  cb <- archCorner (br_cornerRadius c) archLFG archLBG archLBT ;;
  Ok (archLFT :: cf, cb ++ [archLBT], lpos lineT, lpos lineG).
(* bracket.py:196-312 *)
Definition roofBracket (mount : option mount_cfg) (a b : vec) (refMatrix : mtx) (s : side) : res roofB :=
  let a := vyz a in let b := vyz b in let ab := vsub b a in
  sk <- roofSketch ;;
  let '(archLF, archLB, posT, posG) := sk in
  roofDir <- vnorm ab ;;
  let roofOrtho := V 0 (- vz roofDir) (vy roofDir) in
  let roofAngle := vangle2D (V (- vy ab) (- vz ab) 0) in
  let roofAlign := mrotX (mtranslated mid (vopp posT)) roofAngle None in
  let moveR := V (br_boreLength c + br_holeLength c) 0 0 in
  h <- screwHole vzero s false ;;
  let '(holeMesh, holeL, holeR) := h in
  r <- (match mount with
        | Some m =>
            mb <- mountBoss m refMatrix ;;
            let '(bossMesh, (bossFG, bossFT, bossBG, bossBT)) := mb in
            bossDir <- vnorm (vsub (vyz bossFT) (vyz bossFG)) ;;
            let bossOrtho := V 0 (- vz bossDir) (vy bossDir) in
            roofLine <- newLine a roofDir ;;
            apexLine <- newLine (vadd a (vscale roofOrtho (vz (vsub posT posG)))) roofDir ;;
            armLineF <- newLine (vyz bossFT) bossDir ;;
            armLineB <- newLine (vyz bossBT) bossDir ;;
            let armOffset := pmax boreRadius nutRadius + br_wallMargin c in
            armOffsetLine <- newLine (vadd (vyz bossFT) (vscale bossOrtho armOffset)) bossDir ;;
            roofPos <- lintersect roofLine armOffsetLine ;;
            let align := mtranslated roofAlign roofPos in
            let archLF := etransformed archLF align in
            let archLB := etransformed archLB align in
            i0 <- lintersect roofLine armLineB ;; i1 <- lintersect apexLine armLineB ;;
            i2 <- lintersect apexLine armLineF ;; i3 <- lintersect roofLine armLineF ;;
            let l0 := vadd i0 moveR in let l1 := vadd i1 moveR in let l2 := vadd i2 moveR in let l3 := vadd i3 moveR in
            b0 <- pyidx archLB 0 ;;
            let archLB := etranslated archLB (vsub (vyz l1) b0) in
            let archRF := etranslated archLF moveR in
            let archRB := etranslated archLB moveR in
            let archL := archLF ++ vyz l2 :: archLB in
            let archR := archRF ++ l2 :: archRB in
            let faceR := archRF ++ [l2; l3] in
            let arm := meshes [bossMesh; Strip [bossBT; bossBG; bossFG; bossFT] [l0; l1; l2; l3] true; Strip [l0; l1] (rev archRB) false] in
            f0 <- pyidx archL 0 ;; r0 <- pyidx archR 0 ;; re <- pyidx archR (-1)%Z ;; fe <- pyidx archL (-1)%Z ;;
            Ok (arm, align, archL, archR, faceR, [f0; r0; l3; l0; re; fe])
        | None =>
            f0 <- pyidx archLF 0 ;; be <- pyidx archLB (-1)%Z ;;
            let archD := vmag (vsub f0 be) in
            let roofPos := vadd a (vscale roofDir (nQ 85 100 * (vmag ab - archD) + ndiv archD 2)) in
            let align := mtranslated roofAlign roofPos in
            let archL := etransformed (archLF ++ archLB) align in
            let archR := etranslated archL moveR in
            f0 <- pyidx archL 0 ;; r0 <- pyidx archR 0 ;; re <- pyidx archR (-1)%Z ;; fe <- pyidx archL (-1)%Z ;;
            Ok (MEmpty, align, archL, archR, archR, [f0; r0; re; fe])
        end) ;;
  let '(arm, align, archL, archR, faceR, roofEdge) := r in
  let place p := transformed p align in
  Ok (mkRoofB roofEdge (rev archL) (rev (map place holeL))
        (meshes [arm; Moved place holeMesh; Fill faceR [map place holeR]; Strip archL archR false])).

(** ** FloorBracket *)
(* fbShort and fbEnd are for the theorems only: the edge that passes through collapsed(), and the end of the arch with the lip point e *)
Record floorB := mkFloorB { fbLip : list vec; fbTaper : list vec; fbSplit : list vec; fbHole : list vec; fbMesh : mesh; fbShort : list vec; fbEnd : vec * vec }.
(* bracket.py:401-466 for a bracket that is already turned forward *)
Definition floorFwd (a b cc d e : vec) (extraMargin : num) (s : side) : res floorB :=
  let t := br_taperAngle c in
  let taperDir := V 0 (nsin t) (ncos t) in
  let taperOrtho := V 0 (- vz taperDir) (vy taperDir) in
  let nutTaperDist := hexTangentDist nutRadius (t - ndiv npi 2) in
  let m := pmax boreRadius (ndiv (br_nutAcross c) 2) in
  let wallOffset := pmax boreRadius nutRadius + br_wallMargin c + extraMargin in
  let baseOffset := m + br_baseMargin c in
  let apexOffset := m + br_apexMargin c in
  let taperOffset := pmax boreRadius nutTaperDist + br_taperMargin c in
  let lipT := vz d in
  let bracketG := vz a in
  let bracketT := bracketG + pmax (baseOffset + apexOffset) lipT in
  let centerZ := bracketG + baseOffset in
  lineF <- newLine (vadd (V 0 0 centerZ) (vscale taperOrtho taperOffset)) taperDir ;;
  lineB <- newLine (vmirY (lpos lineF)) (vmirY (ldir lineF)) ;;
  lineG <- newLine (V 0 0 bracketG) (V 0 1 0) ;;
  lineT <- newLine (V 0 0 bracketT) (V 0 1 0) ;;
  lineLip <- newLine (V 0 0 lipT) (V 0 1 0) ;;
  archLFG <- lintersect lineF lineLip ;; archLFT <- lintersect lineF lineT ;;
  archLBT <- lintersect lineB lineT ;; archLBG <- lintersect lineB lineG ;;
  if bracketT <=? lipT then Err ValueErr
  else
    let cornerRadiusF := pmin (br_cornerRadius c) (bracketT - lipT) in
    cornerF <- archCorner cornerRadiusF archLBT archLFT archLFG ;;
    cornerB <- archCorner (br_cornerRadius c) archLBG archLBT archLFT ;;
    let archL := collapsed (archLBG :: cornerB ++ cornerF ++ [archLFG]) mu in
    ae <- pyidx archL (-1)%Z ;;
    let centerY := vy e - vy ae in
    let centerY := if centerY - vy d <? wallOffset then pmax (vy d + wallOffset) (centerY + vy d - vy e) else centerY in
    let screwCenter := V 0 centerY centerZ in
    let moveR := V (br_boreLength c + br_holeLength c) 0 0 in
    let archL := etranslated archL (vxy screwCenter) in
    let archR := etranslated archL moveR in
    let faceEdge := etranslated (archL ++ [d; cc; a]) moveR in
    h <- screwHole screwCenter s true ;;
    let '(holeMesh, holeL, holeR) := h in
    ae <- pyidx archL (-1)%Z ;;
    let '(archL, archR) := if visClose ae e then (archL, archR) else (archL ++ [e], archR ++ [vadd d moveR; vadd e moveR]) in
    a0 <- pyidx archL 0 ;; r0 <- pyidx archR 0 ;;
    Ok (mkFloorB (etranslated [e; d; cc; a] moveR) [a0; r0] (rev archL) (rev holeL)
          (meshes [Strip archL archR false; Fill (collapsed faceEdge mu) [holeR]; holeMesh]) faceEdge (ae, e)).
(* bracket.py:357-473 *)
Definition floorBracket (a b cc d e : vec) (s : side) : res floorB :=
  if vy (vyz b) <? vy (vyz a) then
    let g v := vmirY (vyz v) in
    r <- floorFwd (g a) (g b) (g cc) (g d) (g e) 0 s ;;
    Ok (mkFloorB (emirY (fbLip r)) (rev (emirY (fbTaper r))) (rev (emirY (fbSplit r))) (rev (emirY (fbHole r))) (Flipped vmirY (fbMesh r)) (fbShort r) (fbEnd r))
  else floorFwd (vyz a) (vyz b) (vyz cc) (vyz d) (vyz e) (br_frontFloorExtra c) s.
End Bracket.
