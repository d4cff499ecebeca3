(** Model of /repo/body/chrumm/part/boss.py. *)
From Coq Require Import ZArith List Bool.
From Verif Require Import Num GeoModel EdgeModel ArcModel MeshModel LayoutModel.
Import ListNotations.
Open Scope num_scope.

Section Boss.
Context {N : Num}.
Notation "0" := (nZ 0%Z) : num_scope.
Notation "1" := (nZ 1%Z) : num_scope.
Notation "2" := (nZ 2%Z) : num_scope.
Notation "4" := (nZ 4%Z) : num_scope.

(* the settings read by boss.py; cfg.support is None or has minOverhangAngle and holeTaperAngle *)
Record boss_cfg := mkBossCfg {
  b_wallThickness : num; bossDiameter : num; innerWallFillet : num; outerWallMargin : num;
  b_support : option (num * num);   (* (minOverhangAngle, holeTaperAngle) *)
  floorOuterHeight : num; countersinkDiameter : num; clearanceHoleDiameter : num; clearanceHoleLength : num;
  threadDiameter : num; minThreadLength : num; maxThreadLength : num; threadRoofMargin : num; threadChamfer : num }.
Variable q : quality.
Variable c : boss_cfg.
(* edge.py:84: the default threshold of collapsed *)
Definition b_microns : num := nQ 1 1000.

(* boss.py:159-180 _smoothTransition; x**2 is x*x, [0] and [-1] raise IndexError on empty arcs *)
Definition smoothTransition (protrusion bossRadius bossFillet minTaperAngle : num) : res (list vec) :=
  let filletCenterY := bossRadius - protrusion + bossFillet in
  let filletCenterX := nsqrt (pmax 0 ((bossRadius + bossFillet) * (bossRadius + bossFillet) - filletCenterY * filletCenterY)) in
  let filletCenter := V filletCenterX filletCenterY 0 in
  let tangentAngle := pmin (pmax (pmax 0 minTaperAngle) (vangle2D filletCenter)) (radians (nZ 89)) in
  let arcAngle := ndiv tau 4 - tangentAngle in
  filletArc <- arc2D q bossFillet (- ndiv tau 4) (- arcAngle) filletCenter ;;
  bossArc <- arc2D q bossRadius tangentAngle arcAngle vzero ;;
  b0 <- pyidx bossArc 0 ;; fl <- pyidx filletArc (-1)%Z ;;
  let gapY := vy b0 - vy fl in
  t <- pdiv gapY (ncos tangentAngle) ;;
  let gapX := t * nsin tangentAngle in
  let offset := V (gapX - (vx fl - vx b0)) 0 0 in
  Ok (collapsed (etranslated filletArc offset ++ bossArc) b_microns).

(* boss.py:33-66 _initWall; wallDirection None: the default argument *)
Definition bossWall (pos : vec) (wallDirection : option vec) : res (list vec) :=
  let bossRadius := ndiv (bossDiameter c) 2 in
  let protrusion := bossRadius * 2 + outerWallMargin c - b_wallThickness c in
  match wallDirection with
  | None => Ok []
  | Some dir =>
      if protrusion <? ndiv (b_wallThickness c) (nZ 10) then Ok []
      else
        let '(taperAngleR, taperAngleL) :=
          match b_support c with
          | Some (overhangAngle, _) =>
              if vx dir <? 0 then (overhangAngle - vangle2D (vopp dir), 0) else (0, overhangAngle + vangle2D dir)
          | None => (0, 0)
          end in
        r <- smoothTransition protrusion bossRadius (innerWallFillet c) taperAngleR ;;
        l <- smoothTransition protrusion bossRadius (innerWallFillet c) taperAngleL ;;
        let edge := r ++ rev (emirX l) in
        let matrix := mtranslated (mrotZ mid (vangle2D dir) None) pos in
        Ok (etransformed (collapsed edge b_microns) matrix)
  end.

(* boss.py:68-103 _initHead: the four circles of the head hole *)
Definition headArcs (pos : vec) : res (list vec * list vec * list vec * list vec) :=
  let outerHeight := floorOuterHeight c in
  let sinkRadius := ndiv (countersinkDiameter c) 2 in
  let clearRadius := ndiv (clearanceHoleDiameter c) 2 in
  let clearLength := clearanceHoleLength c in
  let sinkLength := pmin outerHeight (clearLength + (sinkRadius - clearRadius)) in
  let sinkRadius := pmin sinkRadius (clearRadius + (outerHeight - clearLength)) in
  arc <- arc2D q clearRadius 0 tau vzero ;;
  k <- pdiv 1 clearRadius ;;
  let protoArc := escaled arc k vzero in
  let at_ scale z := etranslated (escaled protoArc scale vzero) (V (vx pos) (vy pos) z) in
  Ok (at_ clearRadius 0, at_ clearRadius (- clearLength), at_ sinkRadius (- sinkLength), at_ sinkRadius (- outerHeight)).
Definition headMesh (a : list vec * list vec * list vec * list vec) : mesh :=
  let '(a0, a1, a2, a3) := a in meshes [Strip a0 a1 true; Strip a1 a2 true; Strip a2 a3 true].

(* boss.py:105-156 _initThread: the tip plane, then the circles of the thread hole *)
Definition tipPlane (pos : vec) (roofPlane : option plane) : res plane :=
  match roofPlane with
  | Some roof =>
      marginPlane <- ptranslated roof (vscale (pnormal roof) (- threadRoofMargin c)) ;;
      p <- projectZ marginPlane pos ;;
      let tipZ := pmin (maxThreadLength c) (vz p) in
      if tipZ <? minThreadLength c then Err ValueErr
      else newPlane (V (vx pos) (vy pos) tipZ) (pnormal roof)
  | None => newPlane (V (vx pos) (vy pos) (maxThreadLength c)) (V 0 0 1)
  end.
Definition threadArcs (pos printDirection : vec) (tip : plane) : res (list vec * list vec * list vec * list vec) :=
  let radius := ndiv (threadDiameter c) 2 in
  let chamfer := threadChamfer c in
  let rotation := mrotZ mid (vangle2D printDirection - ndiv tau 4) None in
  hole <- uprightHole2D q (match b_support c with Some (_, t) => Some t | None => None end) radius ;;
  k <- pdiv 1 radius ;;
  let protoArc := etransformed (escaled hole k vzero) rotation in
  let at_ scale z := etranslated (escaled protoArc scale vzero) (V (vx pos) (vy pos) z) in
  let a0 := at_ (radius + ndiv chamfer 2) 0 in
  let a1 := at_ radius chamfer in
  a2 <- mapM (projectZ tip) a1 ;;
  Ok (a0, a1, a2, [ppos tip]).
Definition threadMesh (a : list vec * list vec * list vec * list vec) : mesh :=
  let '(a0, a1, a2, a3) := a in meshes [Strip a1 a0 true; Strip a2 a1 true; Strip a3 a2 true].

Record boss := mkBoss {
  bossPos : vec; wallEdge : list vec; headHole : list vec; clearanceHole : list vec; threadHole : list vec;
  bHead : mesh; bThread : mesh }.
(* boss.py:20-31 *)
Definition newBoss (pos printDirection : vec) (wallDirection : option vec) (roofPlane : option plane) : res boss :=
  w <- bossWall pos wallDirection ;;
  h <- headArcs pos ;;
  tip <- tipPlane pos roofPlane ;;
  t <- threadArcs pos printDirection tip ;;
  let '(h0, _, _, h3) := h in let '(t0, _, _, _) := t in
  Ok (mkBoss pos w h3 (rev h0) t0 (headMesh h) (threadMesh t)).
End Boss.
