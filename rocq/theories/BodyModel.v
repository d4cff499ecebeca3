(** Model of /repo/body/chrumm/part/body.py. *)
From Coq Require Import ZArith List Bool.
From Verif Require Import Num GeoModel EdgeModel ArcModel MeshModel KeyModel LayoutModel BossModel PlanModel BracketModel BumperModel.
Import ListNotations.
Open Scope num_scope.

Section Body.
Context {N : Num}.
Notation "0" := (nZ 0%Z) : num_scope.
Notation "1" := (nZ 1%Z) : num_scope.

(* the settings read by body.py: cfg.body, cfg.boss.innerWallFillet, cfg.floor (l. 32-46, 197), and the parts
   that may be switched off; by_hitchRadius is cfg.palm.hitchCornerRadius (l. 415) *)
Record body_cfg := mkBodyCfg {
  by_wallThickness : num; by_innerChamfer : num; by_outerChamfer : num; by_outerCornerRadius : num; by_innerWallFillet : num;
  by_lipHeight : num; by_lipMargin : num; by_thumbTent : num; by_pinkyTent : num; by_hitchRadius : num;
  by_bracket : option (@bracket_cfg N); by_cable : option (@cable_cfg N); by_encoder : option (@encoder_cfg N); by_mount : option (@mount_cfg N) }.
Variable q : quality.
Variable taper : option num.             (* cfg.support.holeTaperAngle *)
Variable pmod : num -> num -> num.       (* x % y of floats *)
Variable pasin : num -> res num.         (* math.asin *)
Variable c : body_cfg.

(* body.py:431-451; l.intersect raises ZeroDivisionError for parallel lines *)
Definition chamferPoint (a b d normal : vec) (size : num) : res vec :=
  pl <- newPlane b normal ;;
  pa <- projectNormal pl a ;; pd <- projectNormal pl d ;;
  ab <- newLine b (vsub b pa) ;;
  bc <- newLine b (vsub pd b) ;;
  na <- vnorm (vcross normal (ldir ab)) ;; ab <- ltranslated ab (vscale na size) ;;
  nc <- vnorm (vcross normal (ldir bc)) ;; bc <- ltranslated bc (vscale nc size) ;;
  match lintersect ab bc with Err ZeroDivision => Ok (lpos ab) | r => r end.
(* body.py:454-463 *)
Definition parallelChamfer (a b d prev : vec) : res vec :=
  parallel <- newLine prev (vsub b a) ;; cutoff <- newLine b (vsub d b) ;; lintersect parallel cutoff.
(* body.py:466-473; prev is the point before the next one *)
Fixpoint cornerChamfer (prev : vec) (corner : list vec) (next normal : vec) (size : num) : res (list vec) :=
  match corner with
  | [] => Ok []
  | b :: r =>
      p <- chamferPoint prev b (match r with d :: _ => d | [] => next end) normal size ;;
      ps <- cornerChamfer b r next normal size ;; Ok (p :: ps)
  end.
(* Edge(plane.projectZ(p) for p in edge) *)
Definition raised (pl : plane) (l : list vec) : res (list vec) := mapM (projectZ pl) l.

(* body.py:85-114: the rounded corners on the ground (G) and on the roof planes (T), and the walls around the bosses *)
Record cornersB := mkCorners {
  iLFG : list vec; iRFG : list vec; iRBG : list vec; oLFG : list vec; oRFG : list vec; oRBG : list vec;
  iLFT : list vec; iRFT : list vec; iRBT : list vec; oLFT : list vec; oRFT : list vec; oRBT : list vec;
  eLB : list vec; eRB : list vec; eRF : list vec; eLF : list vec }.
Definition bodyCorners (p : @points N) (ps : planesA) (bs : @bosses N) : res cornersB :=
  let ri := by_outerCornerRadius c - by_wallThickness c in let ro := by_outerCornerRadius c in
  a1 <- cornerArc2D q ri (thumbIRFp p) (thumbILFp p) (vyz (thumbILFp p)) ;;
  a2 <- cornerArc2D q ri (pinkyIRBp p) (pinkyIRFp p) (thumbILFp p) ;;
  a3 <- cornerArc2D q ri (alnumIRBp p) (pinkyIRBp p) (pinkyIRFp p) ;;
  a4 <- cornerArc2D q ro (vyz (thumbOLFp p)) (thumbOLFp p) (thumbORFp p) ;;
  a5 <- cornerArc2D q ro (thumbOLFp p) (pinkyORFp p) (pinkyORBp p) ;;
  a6 <- cornerArc2D q ro (pinkyORFp p) (pinkyORBp p) (alnumORBp p) ;;
  t1 <- raised (thumbIT ps) a1 ;; t2 <- raised (pinkyIT ps) a2 ;; t3 <- raised (pinkyIT ps) a3 ;;
  t4 <- raised (thumbOT ps) a4 ;; t5 <- raised (pinkyOT ps) a5 ;; t6 <- raised (pinkyOT ps) a6 ;;
  e1 <- raised (alnumIT ps) (wallEdge (bossAlnumB bs)) ;; e2 <- raised (pinkyIT ps) (wallEdge (bossPinkyB bs)) ;;
  e3 <- raised (pinkyIT ps) (wallEdge (bossPinkyF bs)) ;; e4 <- raised (thumbIT ps) (wallEdge (bossThumbF bs)) ;;
  (* or is lazy: the later indices are only read if the earlier comparisons fail *)
  x1 <- pyidx e2 (-1)%Z ;; y1 <- pyidx t3 0 ;;
  if vx y1 <=? vx x1 then Err ValueErr else
  x2 <- pyidx e3 (-1)%Z ;;
  if vx x2 <=? vx (thumbIRFp p) then Err ValueErr else
  x3 <- pyidx e4 (-1)%Z ;; y3 <- pyidx t1 0 ;;
  if vx x3 <=? vx y3 then Err ValueErr else
  Ok (mkCorners a1 a2 a3 a4 a5 a6 t1 t2 t3 t4 t5 t6 e1 e2 e3 e4).

(* body.py:116-146: the step at the alnum front wall: the shifted points alnumILF and alnumOLF, the corner on the
   thumb plane (inside and outside), and the triangles *)
Record stepB := mkStep { stILF : vec; stOLF : vec; stIG : list vec; stOG : list vec; stMesh : mesh }.
Definition bodyStep (p : @points N) (ps : planesA) : res stepB :=
  let alnumNorm := pnormal (alnumOT ps) in
  stepDir <- vnorm (vsub (thumbOLBp p) (alnumOLFp p)) ;;
  let ro := if 0 <? by_outerChamfer c then by_outerCornerRadius c else 0 in
  let ri := if 0 <? by_innerChamfer c then by_outerCornerRadius c + by_wallThickness c else 0 in
  ilf <- chamferPoint (ridgeIRF p) (alnumILFp p) (alnumIRFp p) alnumNorm (by_innerChamfer c * nQ 5 4) ;;
  olf <- chamferPoint (ridgeORF p) (alnumOLFp p) (alnumORFp p) alnumNorm (by_outerChamfer c * nQ 5 4) ;;
  planeI <- planePoints (alnumIRFp p) ilf (ridgeIRF p) ;;
  planeO <- planePoints (alnumORFp p) olf (ridgeORF p) ;;
  arcI <- cornerArc2D q ri (ridgeIRF p) (thumbILBp p) (alnumIRFp p) ;;
  arcO <- cornerArc2D q ro (alnumORFp p) (thumbOLBp p) (ridgeORF p) ;;
  ig <- raised (thumbIT ps) arcI ;; og <- raised (thumbOT ps) arcO ;;
  it <- mapM (fun v => l <- newLine v stepDir ;; pintersectLine planeI l) ig ;;
  ot <- mapM (fun v => l <- newLine v stepDir ;; pintersectLine planeO l) og ;;
  let edgeIG := ridgeIRF p :: ig ++ [alnumIRFp p] in let edgeIT := ridgeIRF p :: it ++ [alnumIRFp p] in
  let edgeOG := alnumORFp p :: og ++ [ridgeORF p] in let edgeOT := alnumORFp p :: ot ++ [ridgeORF p] in
  Ok (mkStep ilf olf ig og (meshes [Strip edgeIT edgeIG false; Strip edgeOT edgeOG false; Strip [ilf] edgeIT false; Strip [olf] edgeOT false])).

(* body.py:148-204: the chamfered edges: C below, T on the roof *)
Record chamfersB := mkChamfers {
  oLFC : list vec; oRFC : list vec; oRBC : list vec; coLFT : list vec; coRFT : list vec; coRBT : list vec;
  thumbORFC : vec; alnumORBC : vec; alnumOLBC : vec; thumbORFT : vec; alnumORBT : vec; alnumOLBT : vec;
  eLBC : list vec; eRBC : list vec; eRFC : list vec; eLFC : list vec; eLBT : list vec; eRBT : list vec; eRFT : list vec; eLFT : list vec;
  iRBC : list vec; iRFC : list vec; iLFC : list vec; ciRBT : list vec; ciRFT : list vec; ciLFT : list vec;
  alnumILBC : vec; alnumIRBC : vec; thumbIRFC : vec; alnumIRBT : vec; alnumILBT : vec; thumbIRFT : vec }.
Definition bodyChamfers (p : @points N) (ps : planesA) (k : cornersB) (s : stepB) : res chamfersB :=
  let alnumNorm := pnormal (alnumOT ps) in let pinkyNorm := pnormal (pinkyOT ps) in let thumbNorm := pnormal (thumbOT ps) in
  let so := by_outerChamfer c in let si := by_innerChamfer c in
  let downO := V 0 0 (- so) in let downI := V 0 0 (- si) in
  lft <- cornerChamfer (vyz (thumbOLFp p)) (oLFT k) (thumbORFp p) thumbNorm so ;;
  rft <- cornerChamfer (thumbORFp p) (oRFT k) (pinkyORBp p) pinkyNorm so ;;
  rbt <- cornerChamfer (pinkyORFp p) (oRBT k) (alnumORBp p) pinkyNorm so ;;
  r0 <- pyidx rft 0 ;; thumbT <- parallelChamfer (pinkyORFp p) (thumbORFp p) (alnumORFp p) r0 ;;
  r1 <- pyidx rbt (-1)%Z ;; orbT <- parallelChamfer (pinkyORBp p) (alnumORBp p) (alnumORFp p) r1 ;;
  olbT <- parallelChamfer (alnumORBp p) (alnumOLBp p) (stOLF s) orbT ;;
  lb <- cornerChamfer (alnumILBp p) (eLB k) (alnumIRBp p) (vopp alnumNorm) si ;;
  rb <- cornerChamfer (alnumIRBp p) (eRB k) (pinkyIRBp p) (vopp pinkyNorm) si ;;
  rf <- cornerChamfer (pinkyIRFp p) (eRF k) (thumbIRFp p) (vopp pinkyNorm) si ;;
  lf <- cornerChamfer (thumbIRFp p) (eLF k) (thumbILFp p) (vopp thumbNorm) si ;;
  irb <- cornerChamfer (alnumIRBp p) (iRBT k) (pinkyIRFp p) (vopp pinkyNorm) si ;;
  irf <- cornerChamfer (pinkyIRBp p) (iRFT k) (thumbIRFp p) (vopp pinkyNorm) si ;;
  ilf <- cornerChamfer (thumbIRFp p) (iLFT k) (vyz (thumbILFp p)) (vopp thumbNorm) si ;;
  irb0 <- pyidx irb 0 ;; irf1 <- pyidx irf (-1)%Z ;;
  (* l. 197-204; both branches read cornerIRBT[0] first and cornerIRFT[-1] last *)
  let same := by_thumbTent c =? by_pinkyTent c in
  irbT <- parallelChamfer (pinkyIRBp p) (alnumIRBp p) (if same then alnumIRFp p else thumbIRFp p) irb0 ;;
  ilbT <- parallelChamfer (alnumIRBp p) (alnumILBp p) (stILF s) irbT ;;
  tirfT <- parallelChamfer (pinkyIRFp p) (thumbIRFp p) (if same then alnumIRFp p else alnumIRBp p) irf1 ;;
  Ok (mkChamfers (etranslated (oLFT k) downO) (etranslated (oRFT k) downO) (etranslated (oRBT k) downO) lft rft rbt
        (vadd (thumbORFp p) downO) (vadd (alnumORBp p) downO) (vadd (alnumOLBp p) downO) thumbT orbT olbT
        (etranslated (eLB k) downI) (etranslated (eRB k) downI) (etranslated (eRF k) downI) (etranslated (eLF k) downI) lb rb rf lf
        (etranslated (iRBT k) downI) (etranslated (iRFT k) downI) (etranslated (iLFT k) downI) irb irf ilf
        (vadd (alnumILBp p) downI) (vadd (alnumIRBp p) downI) (vadd (thumbIRFp p) downI) irbT ilbT tirfT).

(* body.py:206-226: the key plates and the key holes *)
Definition bodyPlates (p : @points N) (s : stepB) (k : chamfersB) (alnumKeys pinkyKeys thumbKeys : list (@key N)) : mesh :=
  let plate e hole keys := Fill e (map hole keys) in
  meshes ([plate (eLBT k ++ [alnumIRBT k; alnumIRFp p; stILF s; alnumILBT k]) roofHoleI alnumKeys;
           plate (alnumIRBT k :: eRBT k ++ ciRBT k ++ ciRFT k ++ eRFT k ++ [thumbIRFT k]) roofHoleI pinkyKeys;
           plate (thumbIRFT k :: eLFT k ++ ciLFT k ++ ridgeIRF p :: stIG s ++ [alnumIRFp p]) roofHoleI thumbKeys;
           plate [stOLF s; alnumORFp p; alnumORBT k; alnumOLBT k] roofHoleO alnumKeys;
           plate (coRFT k ++ coRBT k ++ [alnumORBT k; alnumORFp p; thumbORFT k]) roofHoleO pinkyKeys;
           plate (coLFT k ++ thumbORFT k :: alnumORFp p :: stOG s ++ [ridgeORF p]) roofHoleO thumbKeys;
           Tris [mkTri (alnumIRFp p) (alnumIRBT k) (thumbIRFT k)]] ++ map ktriangles (alnumKeys ++ pinkyKeys ++ thumbKeys)).

(* body.py:228-259: the encoder: triangles and faces, and its part of the split edges; last, for the theorems, the edge that
   passes through collapsed() *)
Definition bodyEncoder (p : @points N) (s : stepB) : res (mesh * list vec * list vec * list (list vec)) :=
  let ilf := stILF s in let olf := stOLF s in
  let edgeI := [vyz ilf; ilf; ridgeIRF p; vyz (ridgeIRF p)] in
  let edgeO := [vyz (ridgeORF p); ridgeORF p; olf; vyz olf] in
  match by_encoder c with
  | Some ec =>
      let rel := en_relPosition ec in
      let pos := vadd (vscale (vyz (ridgeORF p)) (1 - rel)) (vscale (vyz olf) rel) in
      planeI <- planePoints (ridgeIRF p) ilf (vyz (ridgeIRF p)) ;;
      planeO <- planePoints (ridgeORF p) olf (vyz (ridgeORF p)) ;;
      pl <- newPlane pos (pnormal planeO) ;;
      e <- newEncoder q taper ec pl planeI ;;
      ins <- mapM (fun v => if 0 <? vx v then contains2D edgeI v else Ok true) (enRoofI e) ;;
      if negb (forallb (fun b => b) ins) then Err ValueErr
      else Ok (meshes [enMesh e; Fill (edgeI ++ enRoofI e) []; Fill (edgeO ++ enRoofO e) []], enSplitF e, enSplitB e, [enShort e])
  | None => Ok (meshes [Fill edgeI []; Fill edgeO []], [ridgeORF p; ridgeIRF p], [ridgeIRF p; ridgeORF p], [])
  end.

(* body.py:261-352: ridge and brackets.  Besides the mesh: the brackets, the points of the brackets that start the chamfer
   (l. 357, 362), and, for the theorems, the edges that pass through collapsed(), as closed edges or (rgOpen) as parts of larger edges,
   and (rgLine) the inner corners along the split from front to back: front wall, ridge, step, back wall *)
Record ridgeB := mkRidge { rgMesh : mesh; rgBracketF : option (@cornerB N); rgBracketB : option (@cornerB N); rgWall : vec; rgRoof : vec;
  rgShort : list (list vec); rgOpen : list (list vec); rgLine : list vec }.
Definition bodyRidge (p : @points N) (y : @layout N) (sd : side) (s : stepB) (g : cornersB) (k : chamfersB) (encF encB : list vec) : res ridgeB :=
  let ilf := stILF s in let olf := stOLF s in
  let ilbG := vxy (alnumILBp p) in let olbG := vxy (alnumOLBp p) in
  let floorLipHeight := by_lipHeight c + by_lipMargin c in
  og0 <- pyidx (oLFG g) 0 ;; oc0 <- pyidx (oLFC k) 0 ;; ot0 <- pyidx (coLFT k) 0 ;;
  ig1 <- pyidx (iLFG g) (-1)%Z ;; ic1 <- pyidx (iLFC k) (-1)%Z ;; it1 <- pyidx (ciLFT k) (-1)%Z ;;
  let edgeIT := [alnumILBT k; ilf; vyz ilf] in
  let edgeIB := [vyz ilbG; ilbG; alnumILBC k] in
  let edgeOB := [vyz (alnumOLBC k); alnumOLBC k; olbG; vyz olbG] in
  let edgeORF := [og0; oc0; ot0; ridgeORF p] in
  let edgeORB := [alnumOLBC k; alnumOLBT k; olf] in
  let edgeIRF := [vyz ig1; ig1; ic1; it1; ridgeIRF p; vyz (ridgeIRF p)] in
  let splitF := ig1 :: edgeORF ++ encF ++ [ridgeIRF p] in
  let splitB := ilf :: encB ++ [olf; alnumOLBT k; alnumOLBC k] in
  let finish splitF holesF splitB holesB edgeOB edgeIT edgeIB edgeILF extra bF bB wall roof short open :=
    Ok (mkRidge (meshes ([Fill (collapsed (eyz splitF) mu) holesF; Fill (collapsed (eyz splitB) mu) holesB; Fill edgeOB []; Fill edgeIT [];
                          Fill (collapsed edgeIB mu) []; Strip edgeORF (eyz edgeORF) false; Strip (eyz edgeORB) edgeORB false;
                          Strip edgeILF edgeIRF false] ++ extra)) bF bB wall roof ([eyz splitF; eyz splitB; edgeIB] ++ short) open [it1; ridgeIRF p; ilf; alnumILBT k]) in
  match by_bracket c with
  | Some bc =>
      bF <- cornerBracket q taper pmod pasin bc (by_cable c) it1 (ridgeIRF p) ic1 sd ;;
      bB <- cornerBracket q taper pmod pasin bc (by_cable c) (alnumILBT k) ilf (alnumILBC k) sd ;;
      ref <- pyidx (pinky y SideBoth) 0 ;;
      bT <- roofBracket q taper pmod bc (by_mount c) (alnumILBT k) ilf (kmatrix ref) sd ;;
      (* l. 287-299 *)
      thumbLineL <- newLine (ridgeIRF p) (vsub it1 (ridgeIRF p)) ;;
      my <- maxList (map vy (cbSplit bF)) ;;
      ds <- mapM (ldistance2D thumbLineL) (cbRoof bF) ;; gapFR <- minList ds ;;
      mz <- minList (map vz (cbSplit bF)) ;;
      if (vy (ridgeIRF p) - my <? mu) || (gapFR <? mu) || (mz - floorLipHeight <? mu) then Err ValueErr
      else
        wl <- pyidx (cbWall bB) (-1)%Z ;; mzB <- minList (map vz (cbSplit bB)) ;;
        if (vx (alnumILBC k) - vx wl <? mu) || (mzB - floorLipHeight <? mu) then Err ValueErr
        else
          w0 <- pyidx (cbWall bB) 0 ;; rf0 <- pyidx (cbRoof bB) 0 ;;
          cb <- (match by_cable c with
                 | Some cc =>
                     cab <- newCable q taper bc cc w0 (vy olbG - vy ilbG) ;;
                     g1 <- pyidx (caSplitG cab) (-1)%Z ;; g0 <- pyidx (caSplitG cab) 0 ;;
                     if (vz g1 <? mu) || (vz g0 <? floorLipHeight) then Err ValueErr
                     else Ok (caSplitT cab, caWallB cab, caWallF cab, [Fill (vyz olbG :: vyz ilbG :: caSplitG cab) []; cbMeshC cab], [caShort cab])
                 | None => Ok ([vyz olbG; vyz ilbG], [], [], [], [])
                 end) ;;
          let '(splitCable, wallB, wallF, cableMesh, open) := cb in
          finish (splitF ++ cbSplit bF) (cbHoles bF) (splitB ++ splitCable ++ cbSplit bB ++ rbSplit bT) (cbHoles bB ++ [rbHole bT])
            (edgeOB ++ wallB) (edgeIT ++ rbRoof bT ++ rev (cbRoof bB)) ((wallF ++ edgeIB) ++ rev (cbWall bB)) (cbWall bF ++ cbRoof bF)
            (cableMesh ++ [cbMesh bB; cbMesh bF; rbMesh bT]) (Some bF) (Some bB) wl rf0 (cbShort bF ++ cbShort bB) open
  | None =>
      finish (splitF ++ [it1; ic1]) [] (splitB ++ [vyz olbG; vyz ilbG; alnumILBC k; alnumILBT k]) []
        edgeOB (edgeIT ++ [vyz (alnumILBT k)]) (edgeIB ++ [vyz (alnumILBC k)]) (eyz edgeIRF) [] None None (vyz (alnumILBC k)) (vyz (alnumILBT k)) [] []
  end.

(* body.py:354-405: chamfer strips, walls, threads and the face on the ground; the ground edge before collapsed() *)
Definition bodyWalls (p : @points N) (g : cornersB) (k : chamfersB) (r : ridgeB) (bs : @bosses N) : mesh * list vec :=
  let innerC := alnumILBC k :: eLBC k ++ alnumIRBC k :: eRBC k ++ iRBC k ++ iRFC k ++ eRFC k ++ thumbIRFC k :: eLFC k ++ iLFC k in
  let innerT := alnumILBT k :: eLBT k ++ alnumIRBT k :: eRBT k ++ ciRBT k ++ ciRFT k ++ eRFT k ++ thumbIRFT k :: eLFT k ++ ciLFT k in
  let outerC := oLFC k ++ thumbORFC k :: oRFC k ++ oRBC k ++ [alnumORBC k; alnumOLBC k] in
  let outerT := coLFT k ++ thumbORFT k :: coRFT k ++ coRBT k ++ [alnumORBT k; alnumOLBT k] in
  let ilbG := vxy (alnumILBp p) in let olbG := vxy (alnumOLBp p) in
  let ground := exy ([olbG; vyz olbG; vyz ilbG; ilbG] ++ eLBC k ++ alnumIRBp p :: eRBC k ++ iRBG g ++ iRFG g ++ eRFC k ++ thumbIRFp p :: eLFC k ++ iLFG g ++
                     vyz (thumbILFp p) :: vyz (thumbOLFp p) :: oLFG g ++ thumbORFp p :: oRFG g ++ oRBG g ++ [alnumORBp p]) in
  (meshes [Strip outerC outerT false; Strip (rgWall r :: innerC) (rgRoof r :: innerT) false; Strip (exy outerC) outerC false; Strip (exy innerC) innerC false;
           bThread (bossAlnumB bs); bThread (bossPinkyB bs); bThread (bossPinkyF bs); bThread (bossThumbF bs);
           Fill (rev (collapsed ground mu)) [threadHole (bossAlnumB bs); threadHole (bossPinkyB bs); threadHole (bossPinkyF bs); threadHole (bossThumbF bs)]], ground).

(* body.py:407-428 *)
Definition bodyOutlines (p : @points N) (g : cornersB) (k : chamfersB) (ht : option (@hitch N)) : res (list vec * list vec) :=
  let outO := vyz (thumbOLFp p) :: oLFG g in
  let outI := [vyz (alnumILBp p); alnumILBp p] ++ eLBC k ++ eRBC k ++ iRBG g ++ iRFG g ++ eRFC k ++ eLFC k ++ iLFG g ++ [vyz (thumbILFp p)] in
  hs <- (match ht with
         | Some h =>
             rf0 <- pyidx (oRFG g) 0 ;;
             let r := by_hitchRadius c in
             h1 <- cornerArc2D q r (thumbOLFp p) (hitchOLB h) (hitchOLF h) ;;
             h2 <- cornerArc2D q r (hitchOLB h) (hitchOLF h) (hitchORF h) ;;
             h3 <- cornerArc2D q r (hitchOLF h) (hitchORF h) (hitchORB h) ;;
             h4 <- cornerArc2D q r (hitchORF h) (hitchORB h) rf0 ;;
             Ok (h1 ++ h2 ++ h3 ++ h4)
         | None => Ok []
         end) ;;
  Ok (collapsed (exy (outO ++ hs ++ oRFG g ++ oRBG g ++ [alnumOLBp p; vyz (alnumOLBp p)])) mu, rev (collapsed (exy outI) mu)).

(* body.py:24-428: the triangles and triangulated faces, the outlines and brackets; byShort and byOpen are for the theorems: the
   edges that pass through collapsed(), as closed edges and as parts of larger edges; byLine: the inner corners along the split *)
Record body := mkBody { byMesh : mesh; outlineO : list vec; outlineI : list vec; byBracketF : option (@cornerB N); byBracketB : option (@cornerB N);
  byShort : list (list vec); byOpen : list (list vec); byLine : list vec }.
Definition newBody (pn : @plan N) : res body :=
  let innerCornerRadius := by_outerCornerRadius c - by_wallThickness c in
  if innerCornerRadius <=? by_innerChamfer c then Err ValueErr
  else if by_innerWallFillet c <=? by_innerChamfer c then Err ValueErr
  else if by_outerCornerRadius c <=? by_outerChamfer c then Err ValueErr
  else
    let p := planPoints pn in let ps := pA (planPlanes pn) in let bs := planBoss pn in let y := planLayout pn in let sd := planSide pn in
    g <- bodyCorners p ps bs ;;
    s <- bodyStep p ps ;;
    k <- bodyChamfers p ps g s ;;
    e <- bodyEncoder p s ;;
    let '(encMesh, encF, encB, encOpen) := e in
    r <- bodyRidge p y sd s g k encF encB ;;
    o <- bodyOutlines p g k (planHitch_ pn) ;;
    let w := bodyWalls p g k r bs in
    Ok (mkBody (meshes [stMesh s; bodyPlates p s k (alnum y sd) (pinky y sd) (lthumb y sd); encMesh; rgMesh r; fst w])
          (fst o) (snd o) (rgBracketF r) (rgBracketB r) (snd w :: rgShort r) (encOpen ++ rgOpen r) (rgLine r)).
End Body.
