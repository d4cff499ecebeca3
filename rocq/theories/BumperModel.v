(** Models of /repo/body/chrumm/part/bumper.py, encoder.py and cable.py. *)
From Coq Require Import ZArith List Bool.
From Verif Require Import Num GeoModel EdgeModel ArcModel MeshModel LayoutModel BracketModel.
Import ListNotations.
Open Scope num_scope.

Section Small.
Context {N : Num}.
Notation "0" := (nZ 0%Z) : num_scope.
Notation "1" := (nZ 1%Z) : num_scope.
Notation "2" := (nZ 2%Z) : num_scope.
Notation "4" := (nZ 4%Z) : num_scope.
Notation "8" := (nZ 8%Z) : num_scope.
Variable q : quality.
Variable taper : option num.

(** ** Bumper *)
(* cfg.bumper (bumper.py:19-20, floor.py, palm.py) *)
Record bumper_cfg := mkBumperCfg { bu_diameter : num; bu_height : num; bu_margin : num }.
Record bumper := mkBumper { buMesh : mesh; buFloor : list vec; buSplit : list vec }.
(* bumper.py:13-31; pos.xy - Vector(0, 0, h) *)
Definition newBumper (c : bumper_cfg) (floorHeight : num) (pos : vec) (isHalf : bool) : res bumper :=
  let radius := ndiv (bu_diameter c) 2 in
  arc <- (if isHalf then rmap esnapped (arc2D q radius (ndiv (- npi) 2) npi vzero) else arc2D q radius 0 tau vzero) ;;
  let edgeG := etranslated arc (vsub (vxy pos) (V 0 0 floorHeight)) in
  let edgeT := etranslated arc (vsub (vxy pos) (V 0 0 (floorHeight - bu_height c))) in
  let m := Plus (Strip (firstn 1 edgeT) edgeT false) (Strip edgeT edgeG (negb isHalf)) in
  if isHalf then
    g1 <- pyidx edgeG (-1)%Z ;; t1 <- pyidx edgeT (-1)%Z ;; t0 <- pyidx edgeT 0 ;; g0 <- pyidx edgeG 0 ;;
    Ok (mkBumper m edgeG [g1; t1; t0; g0])
  else Ok (mkBumper m edgeG []).

(** ** Encoder *)
(* cfg.encoder (encoder.py:23-28, body.py) *)
Record encoder_cfg := mkEncoderCfg {
  en_width : num; en_depth : num; en_relPosition : num; en_holeDiameter : num; en_holeHeight : num; en_holeChamfer : num; en_notchDepth : num }.
Record encoder := mkEncoder { enMesh : mesh; enRoofI : list vec; enRoofO : list vec; enSplitF : list vec; enSplitB : list vec;
  enShort : list vec (* roofEdgeI before collapsed(), for the theorems *) }.
(* encoder.py:14-77 *)
Definition newEncoder (c : encoder_cfg) (roofPlaneO roofPlaneI : plane) : res encoder :=
  let holeRadius := ndiv (en_holeDiameter c) 2 in
  let normal := pnormal roofPlaneO in
  al <- fromAlignment (V 0 0 1) normal ;;
  let align := mtranslated al (ppos roofPlaneO) in
  hole <- uprightHalfHole2D q taper holeRadius ;;
  let holeArc := map (fun p => V (vy p) (vx p) 0) hole in
  k <- pdiv (en_holeChamfer c) holeRadius ;;
  let holeEdgeT := etransformed (escaled holeArc (1 + k) vzero) align in
  let holeEdgeC := etransformed (etranslated holeArc (V 0 0 (- en_holeChamfer c))) align in
  let holeEdgeG := etransformed (etranslated holeArc (V 0 0 (- en_holeHeight c))) align in
  let w := ndiv (en_width c) 2 in let d := ndiv (en_depth c) 2 in let n := en_notchDepth c in let z := - en_holeHeight c in
  let at_ x y := transformed (V x y z) align in
  let b0 := at_ 0 d in let b1 := at_ w d in let b2 := at_ (w + n) (d - n) in
  let b3 := at_ (w + n) (- (d - n)) in let b4 := at_ w (- d) in let b5 := at_ 0 (- d) in
  boxEdgeG <- mapM (fun p => l <- newLine p normal ;; pintersectLine roofPlaneI l) [b0; b1; b2; b3; b4; b5] ;;
  let boxEdgeT := [b0; b1; b1; b4; b4; b5] in
  let boxFaceEdge := [b0; b1; b4; b5] ++ rev holeEdgeG in
  let edges := [boxEdgeG; boxEdgeT; holeEdgeG; holeEdgeC; holeEdgeT] in
  splitF <- mapM (fun e => pyidx e (-1)%Z) (rev edges) ;;
  splitB <- mapM (fun e => pyidx e 0) edges ;;
  Ok (mkEncoder (meshes [Strip holeEdgeC holeEdgeT false; Strip holeEdgeG holeEdgeC false; Strip boxEdgeG boxEdgeT false; Fill boxFaceEdge []])
        (rev (collapsed boxEdgeG mu)) holeEdgeT splitF splitB boxEdgeG).

(** ** Cable *)
Record cable := mkCable { cbMeshC : mesh; caWallF : list vec; caWallB : list vec; caSplitG : list vec; caSplitT : list vec;
  caShort : list vec (* splitEdgeG before collapsed(), for the theorems *) }.
(* consecutive strips: for i in range(len(l) - 1): f(l[i], l[i+1]) *)
Fixpoint stripChain (f : list vec -> list vec -> mesh) (l : list (list vec)) : list mesh :=
  match l with
  | a :: ((b :: _) as r) => f a b :: stripChain f r
  | _ => []
  end.
(* cable.py:26-58: the arcs of the hole, from the inner wall outward *)
Definition cableHoleArcs (c : cable_cfg) (pos : vec) (wallThickness : num) : res (list vec * list (list vec)) :=
  let cableRadius := ndiv (ca_diameter c) 2 in
  let filletRadius := ca_exitFillet c in
  filletArcXY <- arc2D q filletRadius 0 (ndiv tau 4) vzero ;;
  let filletArcYZ := map (fun p => V 0 (vy p) (vx p)) filletArcXY in
  let filletCenter := vadd pos (V 0 (wallThickness - filletRadius) (- cableRadius)) in
  holeArcXY <- uprightHalfHole2D q taper cableRadius ;;
  let holeArcXZ := map (fun p => V (vy p) 0 (vx p)) holeArcXY in
  let first := etranslated holeArcXZ (vadd pos (V 0 0 (- cableRadius))) in
  rest <- mapM (fun p => s <- pdiv (filletRadius - vz p) cableRadius ;;
                         Ok (etranslated (escaled holeArcXZ (1 + s) vzero) (vadd filletCenter (V 0 (vy p) 0)))) filletArcYZ ;;
  Ok (first, rest).
(* cable.py:17-98 *)
Definition newCable (b : bracket_cfg) (c : cable_cfg) (pos : vec) (wallThickness : num) : res cable :=
  let cableRadius := ndiv (ca_diameter c) 2 in
  let bendRadius := ca_minBendRadius c in
  let bumpRadius := ca_bumpRadius c in
  let t := ca_bumpTaper c in
  let bracketWidth := br_holeLength b + br_boreLength b in
  let bumpWidth := bracketWidth * nQ 6 10 + cableRadius * nQ 4 10 in
  hs <- cableHoleArcs c pos wallThickness ;;
  let '(first, rest) := hs in
  let holeArcs := first :: rest in
  let n := Nat.div (length first) 2 in
  let holeEdgeT := firstn (n + 1)%nat first in
  let holeEdgeG := rev (skipn n first) in
  let holeMesh := meshes (stripChain (fun a b => Strip b a false) holeArcs) in
  diag <- vnorm (V 1 1 0) ;;
  let tipCenterXY := vscale diag (bendRadius - bumpRadius) in
  bend1 <- arc2D q bendRadius (ndiv tau 4) (ndiv (- tau) 8) vzero ;;
  bend2 <- arc2D q bumpRadius (ndiv tau 8) (ndiv (- tau) 8) tipCenterXY ;;
  let bendArcYZ := map (fun p => V 0 (- vx p) (vy p)) (bend1 ++ skipn 1 bend2) in
  fe <- pyidx first (-1)%Z ;; b0 <- pyidx bendArcYZ 0 ;;
  let bendArcYZ := etranslated bendArcYZ (vsub fe b0) in
  taperFactor <- pdiv (nsin t) (ncos t) ;;
  taperXY <- arc2D q bumpRadius 0 (- (ndiv tau 4 - t)) tipCenterXY ;;
  te <- pyidx taperXY (-1)%Z ;;
  let taperArcXY := taperXY ++ [V 0 (vy te - vx te * taperFactor) 0] in
  let taperArcYZ := map (fun p => V 0 (- vx p) (vy p)) taperArcXY in
  b0 <- pyidx bendArcYZ 0 ;;
  let grooveArcs := map (fun p => etranslated bendArcYZ (vsub p b0)) holeEdgeG in
  ge <- pyidx grooveArcs (-1)%Z ;; gee <- pyidx ge (-1)%Z ;;
  let grooveWidth := vx gee - vx pos in
  let lastArc := etranslated ge (V (bumpWidth - grooveWidth) 0 0) in
  let grooveArcs := grooveArcs ++ [lastArc] in
  g0 <- pyidx grooveArcs 0 ;; g0e <- pyidx g0 (-1)%Z ;; t0 <- pyidx taperArcYZ 0 ;;
  let taperEdgeL := etranslated taperArcYZ (vsub g0e t0) in
  let taperEdgeR := etranslated taperEdgeL (V bumpWidth 0 0) in
  let bumpEdgeR := lastArc ++ taperEdgeR in
  bendEdgeB <- mapM (fun a => pyidx a (-1)%Z) (rev grooveArcs) ;;
  u0 <- pyidx bumpEdgeR 0 ;; ue <- pyidx bumpEdgeR (-1)%Z ;; tle <- pyidx taperEdgeL (-1)%Z ;;
  let wallB := rev (last holeArcs []) in
  splitT <- mapM (fun a => pyidx a 0) (rev holeArcs) ;;
  ends <- mapM (fun a => pyidx a (-1)%Z) holeArcs ;;
  Ok (mkCable (meshes ([holeMesh; Strip taperEdgeL taperEdgeR false; Strip bendEdgeB (firstn 1 taperEdgeR) false; Strip bumpEdgeR (firstn 1 bumpEdgeR) false]
                       ++ stripChain (fun a b => Strip a b false) grooveArcs))
        (holeEdgeT ++ [u0; ue; tle]) wallB (collapsed (rev taperEdgeL ++ rev g0 ++ ends) mu) splitT (rev taperEdgeL ++ rev g0 ++ ends)).
End Small.
