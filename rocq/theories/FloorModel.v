(** Model of /repo/body/chrumm/part/floor.py. *)
From Coq Require Import ZArith List Bool.
From Verif Require Import Num GeoModel EdgeModel ArcModel MeshModel LayoutModel BossModel PlanModel BracketModel BumperModel BodyModel.
Import ListNotations.
Open Scope num_scope.

Section Floor.
Context {N : Num}.
Notation "0" := (nZ 0%Z) : num_scope.
Notation "1" := (nZ 1%Z) : num_scope.
Notation "2" := (nZ 2%Z) : num_scope.
Notation "3" := (nZ 3%Z) : num_scope.
Variable q : quality.
Variable taper : option num.             (* cfg.support.holeTaperAngle, see uprightHole2D *)
Variable pmod : num -> num -> num.       (* x % y of floats *)

(* a loop with a state and steps that may raise *)
Fixpoint foldM {A B} (f : A -> B -> res A) (a : A) (l : list B) : res A :=
  match l with [] => Ok a | x :: r => a' <- f a x ;; foldM f a' r end.
(* l[n:] + l[:n] *)
Definition rotate {A} (n : nat) (l : list A) : list A := skipn n l ++ firstn n l.
(* l[i] = f(l[i]); i is in range *)
Fixpoint update {A} (i : nat) (f : A -> A) (l : list A) : list A :=
  match l, i with
  | x :: r, O => f x :: r
  | x :: r, S j => x :: update j f r
  | [], _ => []
  end.
Definition seg0 : segment := mkSeg vzero vzero.

(** ** _naiveOffset2D *)
(* floor.py:235-242: one iteration of connect, for the segments number h = i-1 (cyclic) and i *)
Definition connectStep (n : nat) (l : list segment) (i : nat) : res (list segment) :=
  let h := match i with O => (n - 1)%nat | S j => j end in
  let s0 := nth h l seg0 in let s1 := nth i l seg0 in
  m <- sintersect2D s0 s1 2 ;;
  let middle := match m with Some p => p | None => let p := vadd (sb s0) (sa s1) in V (ndiv (vx p) 2) (ndiv (vy p) 2) (ndiv (vz p) 2) end in
  Ok (update i (fun s => mkSeg middle (sb s)) (update h (fun s => mkSeg (sa s) middle) l)).
Definition connect (l : list segment) : res (list segment) := foldM (connectStep (length l)) l (seq 0 (length l)).
(* floor.py:265-267: is one of the segments closer to v than lim? *)
Fixpoint tooClose (segments : list segment) (v : vec) (lim : num) : res bool :=
  match segments with
  | [] => Ok false
  | s :: r => d <- sdistance2D s v ;; if d <? lim then Ok true else tooClose r v lim
  end.
(* floor.py:261-271: the first segment whose start is not too close, else the first one *)
Fixpoint startIndex (segments offset : list segment) (lim : num) (i : nat) : res nat :=
  match offset with
  | [] => Ok O
  | s :: r => b <- tooClose segments (sa s) lim ;; if (b : bool) then startIndex segments r lim (S i) else Ok i
  end.
(* floor.py:278-288: the nearest intersection, with the number of the crossing segment *)
Definition cutStep (s : segment) (st : nat * option (vec * num * nat)) (o : segment) : res (nat * option (vec * num * nat)) :=
  let '(k, best) := st in
  m <- sintersect2D s o 0 ;;
  Ok (S k, match m with
           | None => best
           | Some pos =>
               let dist := vmag2 (vsub pos (sa s)) in
               match best with
               | Some (_, d, _) => if dist <? d then Some (pos, dist, k) else best
               | None => Some (pos, dist, k)
               end
           end).
(* floor.py:274-293: done are the segments before i, reversed, rest those from i on; fuel >= length rest suffices,
   because one segment is done in every iteration *)
Fixpoint cutLoops (fuel : nat) (first : bool) (done rest : list segment) : res (list segment) :=
  match fuel, rest with
  | S f, s :: r =>
      let cands := if first then removelast (skipn 1 r) else skipn 1 r in
      c <- foldM (cutStep s) (O, None) cands ;;
      match snd c with
      | None => cutLoops f false (s :: done) r
      | Some (pos, _, k) =>
          match skipn (S k) r with
          | s1 :: r1 => cutLoops f false (mkSeg (sa s) pos :: done) (mkSeg pos (sb s1) :: r1)
          | [] => Err IndexErr
          end
      end
  | _, _ => Ok (rev done ++ rest)
  end.
(* list.index *)
Fixpoint indexOf (x : num) (l : list num) (i : nat) : res nat :=
  match l with
  | [] => Err ValueErr
  | y :: r => if y =? x then Ok i else indexOf x r (S i)
  end.
(* floor.py:227-304; minSegLength is always the default *)
Definition naiveOffset2D (edge : list vec) (distance : num) (isClosed : bool) : res (list vec) :=
  if nabs distance <? nQ 1 1000000 then Ok edge
  else
    let segments := toSegments edge true in
    offset <- mapM (fun s => soffset2D s distance) segments ;;
    offset <- (if isClosed then Ok offset
               else match segments with
                    | [] => Err IndexErr
                    | s0 :: _ => s <- soffset2D (last segments s0) 0 ;; Ok (removelast offset ++ [s])
                    end) ;;
    offset <- connect offset ;;
    i <- startIndex segments offset (nabs distance - nQ 1 1000000) 0 ;;
    let offset := rotate i offset in
    offset <- cutLoops (length offset) true [] offset ;;
    offset <- connect (filter (fun s => nQ 1 1000 <=? smag2D s) offset) ;;
    e0 <- (match offset, edge with [], _ => Ok vzero | _, [] => Err IndexErr | _, p :: _ => Ok p end) ;;
    let distances := map (fun s => vmag2 (vsub (sa s) e0)) offset in
    m <- minList distances ;; i <- indexOf m distances 0 ;;
    Ok (map sa (rotate i offset)).

(** ** _hexGrid2D *)
(* cfg.floor.hexHoles *)
Record hex_cfg := mkHexCfg { hx_minDiameter : num; hx_maxDiameter : num; hx_cornerRadius : num; hx_xOffset : num; hx_yOffset : num;
  hx_holeMargin : num; hx_wallMargin : num }.
Variable h : hex_cfg.
Definition root3 : num := nsqrt 3.
Definition maxRadius : num := ndiv (hx_maxDiameter h) 2.
Definition minRadius : num := ndiv maxRadius 2 * root3.
Definition xPitch : num := 3 * maxRadius + hx_holeMargin h * root3.
Definition yPitch : num := 2 * minRadius + hx_holeMargin h.
(* floor.py:342-348 *)
Definition hexagonAt (x y : num) : list vec :=
  [V (x - maxRadius) y 0; V (x - ndiv maxRadius 2) (y - minRadius) 0; V (x + ndiv maxRadius 2) (y - minRadius) 0;
   V (x + maxRadius) y 0; V (x + ndiv maxRadius 2) (y + minRadius) 0; V (x - ndiv maxRadius 2) (y + minRadius) 0].
(* hexagon[i-j] for i in 0..5 and j in 0..5, negative indices count from the end *)
Definition hexPt (hexagon : list vec) (i j : nat) : vec := nth ((i + 6 - j) mod 6) hexagon vzero.
(* floor.py:377-388: the factor that excludes the polygon points *)
Definition pointFactor (hexagon : list vec) (i : nat) (f : num) (point : vec) : res num :=
  let ctr := hexPt hexagon i 0 in
  if visClose point ctr then Ok f
  else
    foldM (fun f j =>
      m <- sintersect2D (mkSeg (hexPt hexagon i (j + 1)) (hexPt hexagon i j)) (mkSeg ctr point) 1 ;;
      match m with
      | None => Ok f
      | Some hit => k <- pdiv (vmag (vsub point ctr)) (vmag (vsub hit ctr)) ;; Ok (pmin k f)
      end) f [1; 2; 3; 4]%nat.
(* floor.py:397-405: the factor that excludes the polygon segments *)
Definition segFactor (hexagon : list vec) (i : nat) (segments : list segment) (f : num) (j : nat) : res num :=
  let ctr := hexPt hexagon i 0 in
  let diag := mkSeg ctr (hexPt hexagon i j) in
  foldM (fun f s =>
    m <- sintersect2D diag s 0 ;;
    match m with
    | None => Ok f
    | Some point => k <- pdiv (vmag (vsub point ctr)) (smag2D diag) ;; Ok (pmin k f)
    end) f segments.
(* floor.py:364-409: one corner of the hexagon as the scaling centre; the state is bestFactor and bestCenter *)
Definition scaleStep (edge : list vec) (segments : list segment) (hexagon pointsInHex : list vec) (best : num * option vec) (i : nat) : res (num * option vec) :=
  let ctr := hexPt hexagon i 0 in
  b <- contains2D edge ctr ;;
  if (b : bool) then
    f <- foldM (pointFactor hexagon i) 1 pointsInHex ;;
    f <- foldM (segFactor hexagon i segments) f [1; 2; 3; 4; 5]%nat ;;
    Ok (if fst best <? f then (f, Some ctr) else best)
  else Ok best.
Fixpoint filterM {A} (f : A -> res bool) (l : list A) : res (list A) :=
  match l with [] => Ok [] | x :: r => b <- f x ;; ys <- filterM f r ;; Ok (if (b : bool) then x :: ys else ys) end.
(* floor.py:341-413: the hexagon around (x, y): none or one *)
Definition hexAt (edge : list vec) (segments : list segment) (x y : num) : res (list (list vec)) :=
  let center := V x y 0 in
  let hexagon := hexagonAt x y in
  ds <- mapM (fun s => sdistance2D s center) segments ;;
  centerDist <- minList ds ;;
  if maxRadius <=? centerDist then
    b <- contains2D edge center ;; Ok (if (b : bool) then [hexagon] else [])
  else
    pointsInHex <- filterM (fun p => contains2D hexagon p) edge ;;
    best <- foldM (scaleStep edge segments hexagon pointsInHex) (0, None) (seq 0 6) ;;
    if hx_minDiameter h <=? hx_maxDiameter h * fst best then
      match snd best with
      | Some ctr => Ok [escaled hexagon (fst best) ctr]
      | None => Err AttrErr
      end
    else Ok [].
(* floor.py:340-351: one row, from x on *)
Fixpoint hexRow (fuel : nat) (edge : list vec) (segments : list segment) (limX x y : num) : res (list (list vec)) :=
  if x <? limX then
    match fuel with
    | O => Err OutOfFuel
    | S f => hs <- hexAt edge segments x y ;; r <- hexRow f edge segments limX (x + xPitch) y ;; Ok (hs ++ r)
    end
  else Ok [].
(* floor.py:336-417: the rows from number row on *)
Fixpoint hexRows (fuel rowFuel : nat) (edge : list vec) (segments : list segment) (limX limY xStart yStart : num) (row : Z) (x y : num) : res (list (list vec)) :=
  if y <? limY then
    match fuel with
    | O => Err OutOfFuel
    | S f =>
        hs <- hexRow rowFuel edge segments limX x y ;;
        let row := Z.add row 1 in
        r <- hexRows f rowFuel edge segments limX limY xStart yStart row
               (xStart + ndiv xPitch 2 * nZ (Z.modulo row 2)) (yStart + ndiv yPitch 2 * nZ row) ;;
        Ok (hs ++ r)
    end
  else Ok [].
(* floor.py:307-417: the hexagons before their corners are rounded *)
Definition hexRaw (fuel : nat) (edge : list vec) : res (list (list vec)) :=
  minX <- minList (map vx edge) ;; maxX <- maxList (map vx edge) ;;
  minY <- minList (map vy edge) ;; maxY <- maxList (map vy edge) ;;
  let xStart := minX + maxRadius + hx_xOffset h in
  let yStart := minY + minRadius + hx_yOffset h - yPitch in
  hexRows fuel fuel edge (toSegments edge true) (maxX + maxRadius) (maxY + minRadius) xStart yStart 0 xStart yStart.
(* floor.py:419-424: cornerArc2D around hexagon[i-1], for i in range(6) *)
Definition hexRound (hexagon : list vec) : res (list vec) :=
  rmap (@concat vec) (mapM (fun i => cornerArc2D q (hx_cornerRadius h) (hexPt hexagon i 2) (hexPt hexagon i 1) (hexPt hexagon i 0)) (seq 0 6)).
(* floor.py:307-426 *)
Definition hexGrid2D (fuel : nat) (edge : list vec) : res (list (list vec)) :=
  hs <- hexRaw fuel edge ;;
  if 0 <? hx_cornerRadius h then mapM hexRound hs else Ok hs.
End Floor.

Section Floor2.
Context {N : Num}.
Notation "0" := (nZ 0%Z) : num_scope.
Notation "1" := (nZ 1%Z) : num_scope.
Notation "2" := (nZ 2%Z) : num_scope.
Variable q : quality.
Variable taper : option num.
Variable pmod : num -> num -> num.

(* cfg.floor, and the other settings floor.py reads *)
Record floor_cfg := mkFloorCfg {
  fl_outerHeight : num; fl_innerHeight : num; fl_innerChamfer : num; fl_lipThickness : num; fl_lipHeight : num; fl_lipMargin : num;
  fl_hex : option hex_cfg; fl_bumper : option (@bumper_cfg N); fl_bracket : option (@bracket_cfg N); fl_cable : option (@cable_cfg N);
  fl_cornerRadius : num (* cfg.body.outerCornerRadius *) }.
Variable c : floor_cfg.
(* floor.py:207-224 _cornerBumper: the position *)
Definition cornerBumperPos (a b cc : vec) (inset : num) : res vec :=
  let cornerRadius := fl_cornerRadius c in
  aDir <- vnorm2D (vsub a b) ;;
  cDir <- vnorm2D (vsub cc b) ;;
  cornerAngle <- pacos (vdot aDir cDir) ;;
  cornerDiag <- pdiv cornerRadius (nsin (ndiv cornerAngle 2)) ;;
  bumperDiag <- pdiv inset (nsin (ndiv cornerAngle 2)) ;;
  let diagOverlap := (cornerDiag - cornerRadius) - (bumperDiag - inset) in
  let bumperDiag := bumperDiag + pmax 0 diagOverlap in
  bumperDir <- vnorm2D (vadd aDir cDir) ;;
  Ok (vadd b (vscale bumperDir bumperDiag)).
(* edge[0] = a; edge[-1] = b *)
Definition setEnds (l : list vec) (a b : vec) : res (list vec) :=
  match l with
  | [] => Err IndexErr
  | _ :: r => Ok (removelast (a :: r) ++ [b])
  end.
Definition sketchYZ (l : list vec) : list vec := map (fun p => V (vy p) (vz p) 0) l.
(* for point in points: if sketch.contains2D(point): raise *)
Definition noneInside (sketch points : list vec) : res unit :=
  foldM (fun (_ : unit) p => b <- contains2D sketch p ;; if (b : bool) then Err ValueErr else Ok tt) tt points.

(* floor.py:63-65: the wall profile after the brackets are integrated, and the edges and triangles of brackets (l. 73-132);
   foShort, foEnds: see fbShort, fbEnd *)
Record floorProf := mkProf { f0 : list vec; f1 : list vec; f2 : list vec; f3 : list vec; f4 : list vec; f5 : list vec; f6 : list vec;
  foInner : list vec; foSplit : list vec; foHoles : list (list vec); foMesh : mesh; foShort : list (list vec); foEnds : list (vec * vec) }.
(* floor.py:17-57 *)
Definition floorSketch (bd : @body N) : res (list (list vec)) :=
  let lipT := V 0 0 (fl_lipHeight c) in
  let floorOG := V 0 0 (- fl_outerHeight c) in
  let floorIG := V 0 0 (- fl_outerHeight c + fl_innerHeight c) in
  let chamferT := V 0 0 (- fl_outerHeight c + fl_innerHeight c + fl_innerChamfer c) in
  lipI <- naiveOffset2D (outlineI bd) (- fl_lipMargin c - fl_lipThickness c) false ;;
  lipO <- naiveOffset2D (outlineI bd) (- fl_lipMargin c) false ;;
  chamfer <- naiveOffset2D (outlineI bd) (- fl_lipMargin c - fl_lipThickness c - fl_innerChamfer c) false ;;
  Ok [etranslated (outlineO bd) floorOG; outlineO bd; lipO; etranslated lipO lipT; etranslated lipI lipT; etranslated lipI chamferT; etranslated chamfer floorIG].
(* floor.py:73-136 *)
Definition floorBrackets (bd : @body N) (s : side) (pr : list (list vec)) : res floorProf :=
  match pr with
  | [p0; p1; p2; p3; p4; p5; p6] =>
      match fl_bracket c with
      | Some bc =>
          p60 <- pyidx p6 0 ;; p6e <- pyidx p6 (-1)%Z ;; p50 <- pyidx p5 0 ;; p40 <- pyidx p4 0 ;; p30 <- pyidx p3 0 ;;
          bF <- floorBracket q taper pmod bc p60 p6e p50 p40 p30 s ;;
          p5e <- pyidx p5 (-1)%Z ;; p4e <- pyidx p4 (-1)%Z ;; p3e <- pyidx p3 (-1)%Z ;;
          bB <- floorBracket q taper pmod bc p6e p60 p5e p4e p3e s ;;
          bodyF <- (match byBracketF bd with Some k => Ok k | None => Err AttrErr end) ;;
          _ <- noneInside (sketchYZ (fbSplit bF)) (sketchYZ (cbSplit bodyF)) ;;
          _ <- (match fl_cable c with
                | Some k =>
                    bodyB <- (match byBracketB bd with Some k => Ok k | None => Err AttrErr end) ;;
                    pts <- naiveOffset2D (sketchYZ (cbSplit bodyB)) (- ca_diameter k) false ;;
                    noneInside (sketchYZ (fbSplit bB)) pts
                | None => Ok tt
                end) ;;
          lF3 <- pyidx (fbLip bF) (-1)%Z ;; lB3 <- pyidx (fbLip bB) (-1)%Z ;; p6 <- setEnds p6 lF3 lB3 ;;
          lF2 <- pyidx (fbLip bF) (-2)%Z ;; lB2 <- pyidx (fbLip bB) (-2)%Z ;; p5 <- setEnds p5 lF2 lB2 ;;
          lF1 <- pyidx (fbLip bF) (-3)%Z ;; lB1 <- pyidx (fbLip bB) (-3)%Z ;; p4 <- setEnds p4 lF1 lB1 ;;
          lF0 <- pyidx (fbLip bF) (-4)%Z ;; lB0 <- pyidx (fbLip bB) (-4)%Z ;; p3 <- setEnds p3 lF0 lB0 ;;
          starts <- mapM (fun e => pyidx e 0) [p0; p1; p2] ;;
          ends <- mapM (fun e => pyidx e (-1)%Z) [p2; p1; p0] ;;
          Ok (mkProf p0 p1 p2 p3 p4 p5 p6 (fbTaper bB ++ fbTaper bF) (starts ++ fbSplit bF ++ fbSplit bB ++ ends) [fbHole bF; fbHole bB]
                (Plus (fbMesh bF) (fbMesh bB)) [fbShort bF; fbShort bB] [fbEnd bF; fbEnd bB])
      | None =>
          starts <- mapM (fun e => pyidx e 0) [p0; p1; p2; p3; p4; p5; p6] ;;
          ends <- mapM (fun e => pyidx e (-1)%Z) [p6; p5; p4; p3; p2; p1; p0] ;;
          Ok (mkProf p0 p1 p2 p3 p4 p5 p6 [] (starts ++ ends) [] MEmpty [] [])
      end
  | _ => Err AssertErr
  end.
(* floor.py:138-150: innerHoles, floorHoles and triangles of the hexagons *)
Definition floorHex (fuel : nat) (p6 : list vec) : res (list (list vec) * list (list vec) * mesh) :=
  match fl_hex c with
  | Some h =>
      let floorOG := V 0 0 (- fl_outerHeight c) in
      let floorIG := V 0 0 (- fl_outerHeight c + fl_innerHeight c) in
      border <- naiveOffset2D p6 (- hx_wallMargin h) true ;;
      hexagons <- hexGrid2D q h fuel border ;;
      let hexI := map (fun e => etranslated e floorIG) hexagons in
      let hexO := map (fun e => etranslated e floorOG) hexagons in
      Ok (map (@rev vec) hexI, hexO, meshes (map (fun e => Strip (etranslated e floorIG) (etranslated e floorOG) true) hexagons))
  | None => Ok ([], [], MEmpty)
  end.
(* floor.py:152-177: floorHoles, splitEdge, floorEdge and triangles of the bumpers *)
Definition floorBumpers (pts : @points N) (p0 : list vec) : res (list (list vec) * list vec * list vec * mesh) :=
  match fl_bumper c with
  | Some bc =>
      let inset := bu_margin bc + ndiv (bu_diameter bc) 2 in
      let z := fl_outerHeight c in
      rf <- cornerBumperPos (alnumOLBp pts) (pinkyORBp pts) (pinkyORFp pts) inset ;; bRF <- newBumper q bc z rf false ;;
      rb <- cornerBumperPos (pinkyORBp pts) (pinkyORFp pts) (thumbORFp pts) inset ;; bRB <- newBumper q bc z rb false ;;
      a <- pyidx p0 0 ;; bLF <- newBumper q bc z (vadd a (V 0 inset 0)) true ;;
      b <- pyidx p0 (-1)%Z ;; bLB <- newBumper q bc z (vsub b (V 0 inset 0)) true ;;
      Ok ([buFloor bRF; buFloor bRB], buSplit bLB ++ buSplit bLF, buFloor bLF ++ buFloor bLB, meshes [buMesh bRF; buMesh bRB; buMesh bLF; buMesh bLB])
  | None => Ok ([], [], [], MEmpty)
  end.
(* floor.py:13-204: the triangles and triangulated faces; flShort: the edges that pass through collapsed(); flEnds: see fbEnd;
   flProfile: the wall profile before the brackets are integrated; flHexagons: the outlines of the hexagons in the floor;
   flFeet, flFeetSplit, flFeetEdge: the holes of the bumpers in the floor and their parts of the split edge and of the floor edge *)
Record floorPart := mkFloor { flMesh : mesh; flShort : list (list vec); flEnds : list (vec * vec); flProfile : list (list vec); flHexagons : list (list vec);
  flFeet : list (list vec); flFeetSplit : list vec; flFeetEdge : list vec }.
Definition newFloor (fuel : nat) (pn : @plan N) (bd : @body N) : res floorPart :=
  sk <- floorSketch bd ;;
  f <- floorBrackets bd (planSide pn) sk ;;
  hx <- floorHex fuel (f6 f) ;;
  bu <- floorBumpers (planPoints pn) (f0 f) ;;
  let '(hexI, hexO, hexMesh) := hx in
  let '(buHoles, buSplits, buFloors, buMeshes) := bu in
  let bs := planBoss pn in
  let bosses := [bossAlnumB bs; bossThumbF bs; bossPinkyB bs; bossPinkyF bs] ++
                match planHitch_ pn with Some h => [bossHitchL h; bossHitchR h] | None => [] end in
  let floorEdge := rev (f0 f) ++ buFloors in
  let splitEdge := foSplit f ++ buSplits in
  let innerEdge := foInner f ++ f6 f in
  let bodyEdge := f1 f ++ rev (f2 f) in
  let lipEdge := f3 f ++ rev (f4 f) in
  a2 <- pyidx (f2 f) 0 ;; b2 <- pyidx (f2 f) (-1)%Z ;;
  a3 <- pyidx (f3 f) 0 ;; b3 <- pyidx (f3 f) (-1)%Z ;;
  let g2 := vyz a2 :: f2 f ++ [vyz b2] in
  let g3 := vyz a3 :: f3 f ++ [vyz b3] in
  Ok (mkFloor (meshes ([foMesh f; hexMesh; buMeshes] ++ map bHead bosses ++
        [Strip (f0 f) (f1 f) false; Strip g2 g3 false; Strip (f4 f) (f5 f) false; Strip (f5 f) (f6 f) false;
         Fill (collapsed splitEdge mu) (foHoles f);
         Fill floorEdge (hexO ++ buHoles ++ map headHole bosses);
         Fill bodyEdge (map clearanceHole bosses);
         Fill (collapsed lipEdge mu) [];
         Fill innerEdge hexI]))
      ([splitEdge; lipEdge] ++ foShort f) (foEnds f) sk hexO buHoles buSplits buFloors).
End Floor2.
