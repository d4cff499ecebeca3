(** Model of /repo/body/chrumm/part/plan.py. *)
From Coq Require Import ZArith List Bool.
From Verif Require Import Num GeoModel EdgeModel ArcModel MeshModel KeyModel LayoutModel BossModel.
Import ListNotations.
Open Scope num_scope.

Section Plan.
Context {N : Num}.
Notation "0" := (nZ 0%Z) : num_scope.
Notation "1" := (nZ 1%Z) : num_scope.
Notation "2" := (nZ 2%Z) : num_scope.
Notation "4" := (nZ 4%Z) : num_scope.

(* cfg.palm as read by plan.py:328-332 *)
Record hitch_cfg := mkHitchCfg { hitchDepth : num; hitchScrewPitch : num; palmBodyMargin : num; palmTaperAngle : num }.
(* the settings read by plan.py:56-69, 305-307, 328-332, 367-369, 426-427 (angles in radians) *)
Record plan_cfg := mkPlanCfg {
  keyCfg : @key_cfg N; layoutCfg : @layout_cfg N; bossCfg : @boss_cfg N; planQuality : @quality N;
  splitAngle : num; tiltAngle : num; alnumTentAngle : num; thumbTentAngle : num; pinkyTentAngle : num;
  alnumBackAngle : num; alnumFrontAngle : num; thumbFrontAngle : num; minRoofHeight : num; minRidgeWidth : num;
  relRidgeTaper : num; wallThickness : num; p_roofThickness : num; alnumFrontThickness : num;
  capTopToPlate : num; lipHeight : num; innerChamfer : num; floorInnerHeight : num; floorMargin : num;
  palm : option hitch_cfg }.
Variable c : plan_cfg.
Variable bossFuel : nat.   (* bounds the iterations of the while loop of _fitBoss2D *)

(* v / 2 with the literal 2 *)
Definition vhalf (v : vec) : vec := V (ndiv (vx v) 2) (ndiv (vy v) 2) (ndiv (vz v) 2).
(* max(..) and min(..) of a generator of numbers *)
Definition maxList (l : list num) : res num := match l with [] => Err ValueErr | x :: r => Ok (fold_left pmax r x) end.
(* max(.., key=..): the first element with the largest key *)
Definition maxBy (l : list (num * vec)) : res vec :=
  match l with
  | [] => Err ValueErr
  | x :: r => Ok (snd (fold_left (fun best y => if fst best <? fst y then y else best) r x))
  end.

(** ** the static methods *)
(* plan.py:364-374 *)
Definition tentCreaseOffset : res vec :=
  let halfPitch := ndiv (columnPitch (keyCfg c)) 2 in
  let halfAngle := ndiv (alnumTentAngle c - pinkyTentAngle c) 2 in
  pitchHypot <- pdiv halfPitch (ncos halfAngle) ;;
  h <- pdiv (capTopToPlate c) (ncos halfAngle) ;;
  let heightOppo := h * nsin halfAngle in
  Ok (V (- (2) * (pitchHypot + heightOppo - halfPitch)) 0 0).

(* plan.py:376-396 *)
Definition wallLines2D (keys : list key) (thickness angle : num) : res (line * line) :=
  let bI := flat_map (fun k => map vxy (boundsI k)) keys in
  let bO := flat_map (fun k => map vxy (boundsO k)) keys in
  baseLine <- newLine vzero (V (ncos angle) (nsin angle) 0) ;;
  let forward := ldir baseLine in
  let outward := vopp (vortho2D forward) in
  ds <- mapM (fun p => d <- ldistance2D baseLine p ;; Ok (d, p)) bI ;;
  maxBound <- maxBy ds ;;
  lineI <- newLine maxBound forward ;;
  lineO <- ltranslated lineI (vscale outward thickness) ;;
  os <- mapM (ldistance2D lineO) bO ;;
  overlap <- maxList os ;;
  if 0 <? overlap then
    let offset := vscale outward overlap in
    i <- ltranslated lineI offset ;; o <- ltranslated lineO offset ;; Ok (i, o)
  else Ok (lineI, lineO).

(* plan.py:398-413; distances.sort() compares (distance, index) pairs *)
Definition pairLt (a b : num * nat) : bool := if fst a =? fst b then Nat.ltb (snd a) (snd b) else fst a <? fst b.
Fixpoint pairInsert (x : num * nat) (l : list (num * nat)) : list (num * nat) :=
  match l with [] => [x] | y :: r => if pairLt x y then x :: l else y :: pairInsert x r end.
Definition pairSort (l : list (num * nat)) : list (num * nat) := fold_left (fun acc x => pairInsert x acc) l [].
(* plan.py:406, 432: Line(Vector(), Vector(0, 1)).transformed(key.matrix) *)
Definition keyLine (k : key) : res line := l <- newLine vzero (V 0 1 0) ;; ltransformed l (kmatrix k).
Definition alnumBossKeys (keys : list key) (planeL planeR planeB planeT : plane) : res (list key) :=
  pointL <- pintersectPlanes planeL planeB planeT ;;
  pointR <- pintersectPlanes planeR planeB planeT ;;
  let middle := vhalf (vadd pointL pointR) in
  ds <- mapM (fun k => l <- keyLine k ;; p <- pintersectLine planeB l ;; Ok (vmag2 (vsub middle p))) keys ;;
  let best := firstn 2 (pairSort (combine ds (seq 0 (length ds)))) in
  mapM (fun di => pyidx keys (Z.of_nat (snd di))) best.

(* int(x) for a float x: rounds toward zero *)
Definition pint (x : num) : Z := if x <? 0 then nceil x else Z.opp (nceil (- x)).
(* plan.py:452-453: i, -i for i in range(n) *)
Definition steps (n : Z) : list Z := flat_map (fun i => [Z.of_nat i; Z.opp (Z.of_nat i)]) (seq 0 (Z.to_nat n)).
(* plan.py:452-459: the first valid position *)
Fixpoint searchBoss (hull0 hull1 : list vec) (middle forward : vec) (radius : num) (l : list Z) : res (option vec) :=
  match l with
  | [] => Ok None
  | step :: r =>
      let pos := vadd middle (vscale forward (nZ step * nQ 1 2)) in
      d0 <- edistance2D hull0 pos ;; d1 <- edistance2D hull1 pos ;;
      if (radius <=? d0) && (radius <=? d1) then Ok (Some pos) else searchBoss hull0 hull1 middle forward radius r
  end.
(* plan.py:445-462: the while loop; wallLines is changed in place *)
Fixpoint bossLoop (fuel : nat) (hull0 hull1 : list vec) (line0 line1 : line) (bossDelta wallDelta forward : vec) (radius : num)
    (wall : line * line) : res (vec * (line * line)) :=
  match fuel with
  | O => Err OutOfFuel
  | S fuel =>
      bossLine <- ltranslated (snd wall) bossDelta ;;
      i0 <- lintersect bossLine line0 ;; i1 <- lintersect bossLine line1 ;;
      let middle := vhalf (vadd i0 i1) in
      found <- searchBoss hull0 hull1 middle forward radius (steps (Z.add (pint (ndiv radius (nQ 1 2))) 1%Z)) ;;
      match found with
      | Some pos => Ok (pos, wall)
      | None =>
          w0 <- ltranslated (fst wall) wallDelta ;; w1 <- ltranslated (snd wall) wallDelta ;;
          bossLoop fuel hull0 hull1 line0 line1 bossDelta wallDelta forward radius (w0, w1)
      end
  end.
(* plan.py:415-443 *)
Definition fitBoss2D (wall : line * line) (key0 key1 : key) : res (vec * (line * line)) :=
  let radius := ndiv (bossDiameter (bossCfg c)) 2 in
  let margin := outerWallMargin (bossCfg c) in
  let hull0 := convexHull2D (boundsI key0) in
  let hull1 := convexHull2D (boundsI key1) in
  l0 <- keyLine key0 ;; l1 <- keyLine key1 ;;
  line0 <- newLine (vxy (lpos l0)) (vxy (ldir l0)) ;;
  line1 <- newLine (vxy (lpos l1)) (vxy (ldir l1)) ;;
  let forward := ldir (snd wall) in
  let outward := vopp (vortho2D forward) in
  let bossDelta := vscale (vopp outward) (radius + margin) in
  let wallDelta := vscale outward (nQ 1 4) in
  bossLoop bossFuel hull0 hull1 line0 line1 bossDelta wallDelta forward radius wall.

(** ** moving keys: the layout is shared, and its keys are changed in place *)
Definition mapHalf (g : nat) (f : key -> key) (half : list (list (list (option key)))) : list (list (list (option key))) :=
  map (fun row => map (fun ig => if Nat.eqb (fst ig) g then map (option_map f) (snd ig) else snd ig)
                      (combine (seq 0 (length row)) row)) half.
(* for key in layout.alnum() (g = 0) or layout.pinky() (g = 1): change it *)
Definition mapFingers (g : nat) (f : key -> key) (y : layout) : layout :=
  mkLayout (mapHalf g f (fingersL y)) (mapHalf g f (fingersR y)) (thumbL y) (thumbR y).
Definition mapThumb (f : key -> key) (y : layout) : layout :=
  mkLayout (fingersL y) (fingersR y) (map f (thumbL y)) (map f (thumbR y)).
Definition mapAll (f : key -> key) (y : layout) : layout := mapThumb f (mapFingers 1 f (mapFingers 0 f y)).
Definition move (v : vec) (k : key) : key := ktranslate k v.
Definition turnKey (m : mtx) (k : key) : key := ktransform k m.

(** ** reference planes *)
Record planesA := mkPlanesA {
  alnumIT : plane; alnumOT : plane; pivotIB : plane; pivotOB : plane; thumbIT : plane; thumbOT : plane;
  pivotIF : plane; pivotOF : plane; pinkyIT : plane; pinkyOT : plane; alnumIL : plane; alnumOL : plane;
  alnumIF : plane; alnumOF : plane; pinkyIR : plane; pinkyOR : plane }.
Record planesB := mkPlanesB { pA : planesA; alnumIB : plane; alnumOB : plane; pinkyIF : plane; pinkyOF : plane }.
(* for attr in planes.__dict__: setattr(.., f(..)) *)
Definition mapPlanesA (f : plane -> res plane) (p : planesA) : res planesA :=
  a1 <- f (alnumIT p) ;; a2 <- f (alnumOT p) ;; a3 <- f (pivotIB p) ;; a4 <- f (pivotOB p) ;;
  a5 <- f (thumbIT p) ;; a6 <- f (thumbOT p) ;; a7 <- f (pivotIF p) ;; a8 <- f (pivotOF p) ;;
  a9 <- f (pinkyIT p) ;; a10 <- f (pinkyOT p) ;; a11 <- f (alnumIL p) ;; a12 <- f (alnumOL p) ;;
  a13 <- f (alnumIF p) ;; a14 <- f (alnumOF p) ;; a15 <- f (pinkyIR p) ;; a16 <- f (pinkyOR p) ;;
  Ok (mkPlanesA a1 a2 a3 a4 a5 a6 a7 a8 a9 a10 a11 a12 a13 a14 a15 a16).
Definition mapPlanesB (f : plane -> res plane) (p : planesB) : res planesB :=
  a <- mapPlanesA f (pA p) ;; b1 <- f (alnumIB p) ;; b2 <- f (alnumOB p) ;; b3 <- f (pinkyIF p) ;; b4 <- f (pinkyOF p) ;;
  Ok (mkPlanesB a b1 b2 b3 b4).

(* plan.py:52-150: tent, walls next to the fingers, thumb cluster; result: the layout,
   the first planes, before tilting *)
Definition planTent (side : side) : res (layout * planesA) :=
  y <- newLayout (keyCfg c) (layoutCfg c) ;;
  if alnumTentAngle c <=? thumbTentAngle c then Err ValueErr
  else
    creaseOffset <- tentCreaseOffset ;;
    let y := mapThumb (move creaseOffset) (mapFingers 0 (move creaseOffset) y) in
    ka <- maxAlnum y SideBoth ;; kp <- minPinky y SideBoth ;;
    let pivotPos := vhalf (vadd (kposition ka) (kposition kp)) in
    (* alnum tent *)
    let alnumPivotAngle := pinkyTentAngle c + ndiv (alnumTentAngle c - pinkyTentAngle c) 2 in
    let alnumPivotMatrix := mrotY mid alnumPivotAngle (Some pivotPos) in
    let alnumTentMatrix := mrotY mid (alnumTentAngle c) (Some pivotPos) in
    z <- planeZ (- p_roofThickness c) ;; z0 <- planeZ 0 ;; xp <- planeX (vx pivotPos) ;;
    aIT <- ptransformed z alnumTentMatrix ;; aOT <- ptransformed z0 alnumTentMatrix ;;
    pIB <- ptransformed xp alnumPivotMatrix ;; pOB <- ptransformed xp alnumPivotMatrix ;;
    let y := mapFingers 0 (turnKey alnumTentMatrix) y in
    (* thumb tent *)
    let thumbPivotAngle := pinkyTentAngle c + ndiv (thumbTentAngle c - pinkyTentAngle c) 2 in
    let thumbPivotMatrix := mrotY mid thumbPivotAngle (Some pivotPos) in
    let thumbTentMatrix := mrotY mid (thumbTentAngle c) (Some pivotPos) in
    tIT <- ptransformed z thumbTentMatrix ;; tOT <- ptransformed z0 thumbTentMatrix ;;
    pIF <- ptransformed xp thumbPivotMatrix ;; pOF <- ptransformed xp thumbPivotMatrix ;;
    let y := mapThumb (turnKey thumbTentMatrix) y in
    (* pinky tent *)
    let pinkyTentMatrix := mrotY mid (pinkyTentAngle c) (Some pivotPos) in
    iIT <- ptransformed z pinkyTentMatrix ;; iOT <- ptransformed z0 pinkyTentMatrix ;;
    let y := mapFingers 1 (turnKey pinkyTentMatrix) y in
    (* alnum walls *)
    alnumMinX <- minList (map vx (flat_map kbounds (alnum y SideBoth))) ;;
    aIL <- planeX alnumMinX ;; aOL <- planeX alnumMinX ;;
    alnumLinesF <- wallLines2D (alnum y SideBoth) (alnumFrontThickness c) (alnumFrontAngle c) ;;
    aIF <- planeLine2D (fst alnumLinesF) ;; aOF <- planeLine2D (snd alnumLinesF) ;;
    (* move thumb cluster against alnum wall *)
    let thumbBounds := flat_map boundsO (lthumb y SideBoth) in
    let front := snd alnumLinesF in
    alnumSlope <- pdiv (vy (ldir front)) (vx (ldir front)) ;;
    let alnumIntercept := vy (lpos front) - vx (lpos front) * alnumSlope in
    thumbIntercept <- maxList (map (fun p => vy p - vx p * alnumSlope) thumbBounds) ;;
    let thumbDelta := V 0 (alnumIntercept - thumbIntercept) 0 in
    let y := if vy thumbDelta <? 0 then mapThumb (move thumbDelta) y else y in
    (* pinky walls *)
    pinkyLinesR <- wallLines2D (pinky y side) (wallThickness c) (ndiv tau 4) ;;
    iIR <- planeLine2D (fst pinkyLinesR) ;; iOR <- planeLine2D (snd pinkyLinesR) ;;
    Ok (y, mkPlanesA aIT aOT pIB pOB tIT tOT pIF pOF iIT iOT aIL aOL aIF aOF iIR iOR).

(* plan.py:152-159 *)
Definition tiltSplitMatrix : mtx := mrotZ (mrotX mid (tiltAngle c) None) (splitAngle c) None.
Definition planTilt (yp : layout * planesA) : res (layout * planesA) :=
  ps <- mapPlanesA (fun p => ptransformed p tiltSplitMatrix) (snd yp) ;;
  Ok (mapAll (turnKey tiltSplitMatrix) (fst yp), ps).

(* plan.py:171-191: walls B and F are changed in place *)
Definition fitBosses (y : layout) (ps : planesA) (s : side) (walls : (line * line) * (line * line)) :
    res ((vec * vec * vec * vec) * ((line * line) * (line * line))) :=
  let '(wB, wF) := walls in
  pinkyKeysB <- perPinkyCol y 0 s ;;
  pinkyKeysF <- perPinkyCol y (-1)%Z s ;;
  let thumbKeysF := lthumb y s in
  cols <- perAlnumCol y 0 s ;;
  x0 <- planeX 0 ;; pB <- planeLine2D (snd wB) ;;
  alnumKeysB <- alnumBossKeys cols x0 (pivotOF ps) pB (alnumOT ps) ;;
  a0 <- pyidx alnumKeysB 0 ;; a1 <- pyidx alnumKeysB 1 ;;
  r1 <- fitBoss2D wB a0 a1 ;;
  b1 <- pyidx pinkyKeysB (-1)%Z ;; b2 <- pyidx pinkyKeysB (-2)%Z ;;
  r2 <- fitBoss2D (snd r1) b1 b2 ;;
  r3 <- fitBoss2D (snd r2) a0 a1 ;;
  t0 <- pyidx thumbKeysF 0 ;; t1 <- pyidx thumbKeysF 1 ;;
  r4 <- fitBoss2D wF t0 t1 ;;
  f1 <- pyidx pinkyKeysF (-1)%Z ;; f2 <- pyidx pinkyKeysF (-2)%Z ;;
  r5 <- fitBoss2D (snd r4) f1 f2 ;;
  r6 <- fitBoss2D (snd r5) t0 t1 ;;
  Ok ((fst r3, fst r2, fst r5, fst r6), (snd r3, snd r6)).

Definition opposite (s : side) : side := match s with SideLeft => SideRight | _ => SideLeft end.
(* plan.py:161-202: result: planes, wall lines, boss positions (alnumB, pinkyB, pinkyF, thumbF) *)
Record walls := mkWalls { wPlanes : planesB; wB : line * line; wF : line * line; wBoss : vec * vec * vec * vec }.
Definition planWalls (side : side) (yp : layout * planesA) : res walls :=
  let '(y, ps) := yp in
  let wallAngleB := alnumBackAngle c + splitAngle c + npi in
  let wallAngleF := thumbFrontAngle c + splitAngle c in
  alnumLinesB <- wallLines2D (lall y SideBoth) (wallThickness c) wallAngleB ;;
  thumbLinesF <- wallLines2D (lall y SideBoth) (wallThickness c) wallAngleF ;;
  o <- fitBosses y ps (opposite side) (alnumLinesB, thumbLinesF) ;;
  r <- fitBosses y ps side (snd o) ;;
  let '(lB, lF) := snd r in
  iB <- planeLine2D (fst lB) ;; oB <- planeLine2D (snd lB) ;;
  iF <- planeLine2D (fst lF) ;; oF <- planeLine2D (snd lF) ;;
  Ok (mkWalls (mkPlanesB ps iB oB iF oF) lB lF (fst r)).

(* plan.py:204-223 *)
Definition moveLines (d : vec) (l : line * line) : res (line * line) :=
  a <- ltranslated (fst l) d ;; b <- ltranslated (snd l) d ;; Ok (a, b).
Definition planX (y : layout) (w : walls) : res (layout * walls) :=
  let ps := wPlanes w in let a := pA ps in
  alnumILB <- pintersectPlanes (alnumIL a) (alnumIB ps) (alnumIT a) ;;
  alnumOLB <- pintersectPlanes (alnumOL a) (alnumOB ps) (alnumOT a) ;;
  minX <- minList (map vx (flat_map kbounds (lall y SideBoth))) ;;
  let boundsDeltaX := - minX in
  let splitDeltaX := - pmin (vx alnumOLB) (vx alnumILB) + ndiv (minRidgeWidth c) 2 in
  let delta := V (pmax boundsDeltaX splitDeltaX) 0 0 in
  ps <- mapPlanesB (fun p => ptranslated p delta) ps ;;
  lB <- moveLines delta (wB w) ;; lF <- moveLines delta (wF w) ;;
  let '(b1, b2, b3, b4) := wBoss w in
  Ok (mapAll (move delta) y, mkWalls ps lB lF (vadd b1 delta, vadd b2 delta, vadd b3 delta, vadd b4 delta)).

(** ** reference points *)
Record points := mkPoints {
  ridgeIRF : vec; ridgeORF : vec;
  alnumILFp : vec; alnumILBp : vec; alnumIRFp : vec; alnumIRBp : vec; pinkyIRFp : vec; pinkyIRBp : vec;
  thumbILFp : vec; thumbILBp : vec; thumbIRFp : vec;
  alnumOLFp : vec; alnumOLBp : vec; alnumORFp : vec; alnumORBp : vec; pinkyORFp : vec; pinkyORBp : vec;
  thumbOLFp : vec; thumbOLBp : vec; thumbORFp : vec }.
Definition allPoints (p : points) : list vec :=
  [ridgeIRF p; ridgeORF p; alnumILFp p; alnumILBp p; alnumIRFp p; alnumIRBp p; pinkyIRFp p; pinkyIRBp p;
   thumbILFp p; thumbILBp p; thumbIRFp p; alnumOLFp p; alnumOLBp p; alnumORFp p; alnumORBp p; pinkyORFp p; pinkyORBp p;
   thumbOLFp p; thumbOLBp p; thumbORFp p].
Definition mapPoints (f : vec -> vec) (p : points) : points :=
  mkPoints (f (ridgeIRF p)) (f (ridgeORF p)) (f (alnumILFp p)) (f (alnumILBp p)) (f (alnumIRFp p)) (f (alnumIRBp p)) (f (pinkyIRFp p))
    (f (pinkyIRBp p)) (f (thumbILFp p)) (f (thumbILBp p)) (f (thumbIRFp p)) (f (alnumOLFp p)) (f (alnumOLBp p)) (f (alnumORFp p))
    (f (alnumORBp p)) (f (pinkyORFp p)) (f (pinkyORBp p)) (f (thumbOLFp p)) (f (thumbOLBp p)) (f (thumbORFp p)).

(* plan.py:225-237: the plane thumbIL = thumbOL and the line at the left of the thumb keys *)
Definition thumbCorner (y : layout) (w : walls) : res (line * plane) :=
  let bounds := flat_map kbounds (lthumb y SideBoth) in
  kl <- pyidx (lthumb y SideLeft) 0 ;; dl <- transformedNormal (V 0 1 0) (kmatrix kl) ;;
  kr <- pyidx (lthumb y SideRight) 0 ;; dr <- transformedNormal (V 0 1 0) (kmatrix kr) ;;
  thumbLine <- newLine vzero (vadd (vxy dl) (vxy dr)) ;;
  ds <- mapM (ldistance2D thumbLine) bounds ;;
  thumbOffset <- minList ds ;;
  thumbLine <- ltranslated thumbLine (vscale (vortho2D (ldir thumbLine)) (- thumbOffset)) ;;
  pos <- lintersect (fst (wF w)) thumbLine ;;
  pl <- newPlane pos (vadd (ldir (fst (wF w))) (V 1 0 0)) ;;
  Ok (thumbLine, pl).
(* plan.py:255-257: for point in thumbBounds *)
Fixpoint sweep (l : line) (pts : list vec) : res line :=
  match pts with
  | [] => Ok l
  | p :: r =>
      d <- ldistance2D l p ;;
      if 0 <? d then l' <- newLine (lpos l) (vsub (vxy p) (lpos l)) ;; sweep l' r else sweep l r
  end.
(* plan.py:239-267 *)
Definition ridgeFront (y : layout) (w : walls) (thumbLine : line) (thumbL_ : plane) : res (vec * vec) :=
  let ps := wPlanes w in let a := pA ps in
  let thumbBounds := flat_map kbounds (lthumb y SideBoth) in
  tLB <- pintersectPlanes (alnumOL a) (alnumOF a) (thumbOT a) ;; let thumbLB := vxy tLB in
  tLF <- pintersectPlanes thumbL_ (pinkyIF ps) (thumbIT a) ;; let thumbLF := vxy tLF in
  thumbOLB <- pintersectPlanes (alnumOL a) (alnumOF a) (thumbOT a) ;;
  thumbILB <- pintersectPlanes (alnumIL a) (alnumIF a) (thumbIT a) ;;
  let slopeLB := V 0 (vy thumbLB) 0 in
  let slopeRF := V (vx thumbLB) (vy thumbLF) 0 in
  let slopeMid := vadd slopeRF (vscale (vsub slopeLB slopeRF) (relRidgeTaper c)) in
  sweepLine <- newLine thumbLB (vsub slopeMid thumbLB) ;;
  sweepLine <- sweep sweepLine thumbBounds ;;
  sweepIntersect <- lintersect sweepLine thumbLine ;;
  ridgeRF <- projectZ (thumbOT a) (if vltb slopeMid sweepIntersect then slopeMid else sweepIntersect) ;;
  let ridgeI := vadd ridgeRF (vsub thumbILB thumbOLB) in
  if (vx ridgeRF <? 0) || (vx ridgeI <? 0) then Err ValueErr else Ok (ridgeI, ridgeRF).
(* plan.py:269-289 *)
Definition bodyPoints (w : walls) (thumbL_ : plane) (ridge : vec * vec) : res points :=
  let ps := wPlanes w in let a := pA ps in
  i1 <- pintersectPlanes (alnumIL a) (alnumIF a) (alnumIT a) ;;
  i2 <- pintersectPlanes (alnumIL a) (alnumIB ps) (alnumIT a) ;;
  i3 <- pintersectPlanes (thumbIT a) (alnumIF a) (alnumIT a) ;;
  i4 <- pintersectPlanes (pivotIB a) (alnumIB ps) (alnumIT a) ;;
  i5 <- pintersectPlanes (pinkyIR a) (pinkyIF ps) (pinkyIT a) ;;
  i6 <- pintersectPlanes (pinkyIR a) (alnumIB ps) (pinkyIT a) ;;
  i7 <- pintersectPlanes thumbL_ (pinkyIF ps) (thumbIT a) ;;
  i8 <- pintersectPlanes (alnumIL a) (alnumIF a) (thumbIT a) ;;
  i9 <- pintersectPlanes (pivotIF a) (pinkyIF ps) (thumbIT a) ;;
  o1 <- pintersectPlanes (alnumOL a) (alnumOF a) (alnumOT a) ;;
  o2 <- pintersectPlanes (alnumOL a) (alnumOB ps) (alnumOT a) ;;
  o3 <- pintersectPlanes (thumbOT a) (alnumOF a) (alnumOT a) ;;
  o4 <- pintersectPlanes (pivotOB a) (alnumOB ps) (alnumOT a) ;;
  o5 <- pintersectPlanes (pinkyOR a) (pinkyOF ps) (pinkyOT a) ;;
  o6 <- pintersectPlanes (pinkyOR a) (alnumOB ps) (pinkyOT a) ;;
  o7 <- pintersectPlanes thumbL_ (pinkyOF ps) (thumbOT a) ;;
  o8 <- pintersectPlanes (alnumOL a) (alnumOF a) (thumbOT a) ;;
  o9 <- pintersectPlanes (pivotOF a) (pinkyOF ps) (thumbOT a) ;;
  Ok (mkPoints (fst ridge) (snd ridge) i1 i2 i3 i4 i5 i6 i7 i8 i9 o1 o2 o3 o4 o5 o6 o7 o8 o9).

(* plan.py:291-317: the layout, planes, thumb plane and points at their final height *)
Definition planZ (side : side) (y : layout) (w : walls) (thumbL_ : plane) (pts : points) : res (layout * planesB * plane * points) :=
  minKeyZ <- minList (map (fun k => vz (kposition k)) (lall y SideBoth)) ;;
  let delta := V 0 0 (minRoofHeight c - minKeyZ) in
  let y := mapAll (move delta) y in
  ps <- mapPlanesB (fun p => ptranslated p delta) (wPlanes w) ;;
  tl <- ptranslated thumbL_ delta ;;
  let pts := mapPoints (fun p => vadd p delta) pts in
  minBodyZ <- minList (map vz (allPoints pts)) ;;
  minPinZ <- minList (map vz (flat_map boundsI (lall y side))) ;;
  let lipGap := minBodyZ - lipHeight c - innerChamfer c in
  let pinGap := minPinZ + floorOuterHeight (bossCfg c) - floorInnerHeight c - floorMargin c in
  if lipGap <? 0 then Err ValueErr
  else if pinGap <? 0 then Err ValueErr
  else Ok (y, ps, tl, pts).

(** ** bosses and palm hitch *)
Record bosses := mkBosses { bossAlnumB : boss; bossPinkyB : boss; bossPinkyF : boss; bossThumbF : boss }.
Record hitch := mkHitch { hitchOLB : vec; hitchORB : vec; hitchOLF : vec; hitchORF : vec; bossHitchL : boss; bossHitchR : boss }.
(* plan.py:319-324 *)
Definition planBosses (w : walls) (ps : planesB) : res bosses :=
  let '(b1, b2, b3, b4) := wBoss w in let a := pA ps in
  let mk pos l roof := newBoss (planQuality c) (bossCfg c) pos (V 1 0 0) (Some (ldir (fst l))) (Some roof) in
  r1 <- mk b1 (wB w) (alnumOT a) ;; r2 <- mk b2 (wB w) (pinkyOT a) ;;
  r3 <- mk b3 (wF w) (pinkyOT a) ;; r4 <- mk b4 (wF w) (thumbOT a) ;;
  Ok (mkBosses r1 r2 r3 r4).
(* plan.py:326-362 *)
Definition planHitch (h : hitch_cfg) (pts : points) : res hitch :=
  let pinkyRFG := vxy (pinkyORFp pts) in
  let thumbLFG := vxy (thumbOLFp pts) in
  wallDir <- vnorm (vsub thumbLFG pinkyRFG) ;;
  let wallOrtho := vortho2D wallDir in
  let hitchDirL := transformed wallOrtho (mrotZ mid (palmTaperAngle h) None) in
  let hitchDirR := vopp (transformed wallOrtho (mrotZ mid (- palmTaperAngle h) None)) in
  let hitchOrthoL := vortho2D hitchDirL in
  let hitchOrthoR := vortho2D hitchDirR in
  let hitchB := vhalf (vadd thumbLFG pinkyRFG) in
  let hitchM := vadd hitchB (vscale wallOrtho (palmBodyMargin h + ndiv (hitchDepth h) 2)) in
  let hitchF := vadd hitchB (vscale wallOrtho (palmBodyMargin h + hitchDepth h)) in
  let posL := vadd hitchM (vhalf (vscale wallDir (hitchScrewPitch h))) in
  let posR := vsub hitchM (vhalf (vscale wallDir (hitchScrewPitch h))) in
  lineB <- newLine hitchB wallDir ;; lineF <- newLine hitchF wallDir ;;
  lineL <- newLine (vsub posL (vhalf (vscale hitchOrthoL (hitchDepth h)))) hitchDirL ;;
  lineR <- newLine (vsub posR (vhalf (vscale hitchOrthoR (hitchDepth h)))) hitchDirR ;;
  olb <- lintersect lineB lineL ;; orb <- lintersect lineB lineR ;;
  olf <- lintersect lineF lineL ;; orf <- lintersect lineF lineR ;;
  bl <- newBoss (planQuality c) (bossCfg c) posL hitchOrthoL None None ;;
  br <- newBoss (planQuality c) (bossCfg c) posR hitchOrthoL None None ;;
  Ok (mkHitch olb orb olf orf bl br).

Record plan := mkPlan {
  planSide : side; planLayout : layout; planPlanes : planesB; planThumbL : plane; planPoints : points;
  planBoss : bosses; planHitch_ : option hitch }.
(* plan.py:45-362 *)
Definition newPlan (side : side) : res plan :=
  t <- planTent side ;;
  t <- planTilt t ;;
  w <- planWalls side t ;;
  yw <- planX (fst t) w ;;
  let '(y, w) := yw in
  tc <- thumbCorner y w ;;
  ridge <- ridgeFront y w (fst tc) (snd tc) ;;
  pts <- bodyPoints w (snd tc) ridge ;;
  z <- planZ side y w (snd tc) pts ;;
  let '(y, ps, tl, pts) := z in
  bs <- planBosses w ps ;;
  h <- (match palm c with Some h => r <- planHitch h pts ;; Ok (Some r) | None => Ok None end) ;;
  Ok (mkPlan side y ps tl pts bs h).
End Plan.
