(** Model of /repo/body/chrumm/part/knob.py. *)
From Coq Require Import ZArith List Bool.
From Verif Require Import Num GeoModel EdgeModel ArcModel MeshModel.
Import ListNotations.
Open Scope num_scope.

Section Knob.
Context {N : Num}.
Notation "0" := (nZ 0%Z) : num_scope.
Notation "1" := (nZ 1%Z) : num_scope.
Notation "2" := (nZ 2%Z) : num_scope.

(* the attributes of cfg.knob; grooveCount is an int (range(1, grooveCount)) *)
Record knob_cfg := mkKnobCfg {
  outerDiameter : num; outerChamfer : num; k_roofThickness : num; shaftHeight : num;
  skirtThickness : num; skirtHeight : num; grooveCount : Z; grooveDiameter : num;
  grooveInset : num; grooveCornerRadius : num;
  shaftAcrossFlat : num; shaftDiameter : num; prongDiameter : num }.
Variable q : quality.
Variable c : knob_cfg.
(* division by the literals 2, 3 and 4 cannot raise *)
Definition half (x : num) : num := ndiv x 2.
(* edge.py:84: the default threshold of collapsed *)
Definition microns : num := nQ 1 1000.
(* math.radians(15) *)
Definition radians15 : num := nZ 15 * ndiv npi (nZ 180).
Definition dist_back (p : vec) (r : num) : vec := V (vx p) (vy p) (vmag p - r).

(* knob.py:70-127 _grooveSketch2D; [1] on a list with fewer points raises IndexError *)
Definition grooveSketch2D : res (list vec) :=
  let outerRadius := half (outerDiameter c) in
  let grooveRadius := half (grooveDiameter c) in
  let cornerRadius := grooveCornerRadius c in
  if (grooveCount c <=? 0)%Z then arc2D q outerRadius 0 tau vzero
  else
    tangentHypot <- psqrt (outerRadius * outerRadius + grooveRadius * grooveRadius) ;;
    let tangentInset := grooveRadius - (tangentHypot - outerRadius) in
    if tangentInset <=? grooveInset c then Err ValueErr
    else if outerChamfer c <=? grooveInset c then Err ValueErr
    else
      let grooveCenter := V 0 (outerRadius + grooveRadius - grooveInset c) 0 in
      is <- cintersectCircle2D (mkCircle vzero (outerRadius - cornerRadius)) (mkCircle grooveCenter (grooveRadius + cornerRadius)) ;;
      cornerCenter <- (match nth_error is 1 with Some p => Ok p | None => Err IndexErr end) ;;
      let segmentSpan := ndiv tau (nZ (grooveCount c)) in
      let cornerStart := vangle2D cornerCenter in
      let grooveStart := vangle2D (vsub cornerCenter grooveCenter) in
      let outerStart := ndiv tau (nZ 4) - half segmentSpan in
      let outerSpan := - (outerStart - cornerStart) in
      let grooveSpan := - (ndiv tau (nZ 4) + grooveStart) in
      let cornerSpan := vangle2D (vsub grooveCenter cornerCenter) - cornerStart in
      a1 <- arc2D q outerRadius outerStart outerSpan vzero ;;
      a2 <- arc2D q cornerRadius cornerStart cornerSpan cornerCenter ;;
      a3 <- arc2D q grooveRadius grooveStart grooveSpan grooveCenter ;;
      let segment := a1 ++ a2 ++ a3 in
      let segment := segment ++ rev (emirX segment) in
      let turned i := etransformed segment (mrotZ mid (segmentSpan * nZ (Z.of_nat i)) None) in
      let edge := segment ++ flat_map turned (seq 1 (Z.to_nat (grooveCount c) - 1)) in
      Ok (collapsed (esnapped edge) microns).

(* knob.py:130-193 _shaftSketch2D *)
Definition shaftSketch2D : res (list vec) :=
  let shaftRadius := half (shaftDiameter c) in
  let prongRadius := half (prongDiameter c) in
  let prongAngle := radians15 in
  let flatY := shaftAcrossFlat c - shaftRadius in
  flatX <- psqrt (shaftRadius * shaftRadius - flatY * flatY) ;;
  let flatVertex := V flatX flatY 0 in
  let prongX := flatX * ndiv 1 (nZ 3) in
  let prongY := flatY + prongRadius in
  let prongCenter := V prongX prongY 0 in
  let notchRadius := prongX - prongRadius * (1 - ndiv 2 (nZ 3)) in
  notchOffset <- psqrt ((prongRadius + notchRadius) * (prongRadius + notchRadius) - prongX * prongX) ;;
  let notchCenter := V 0 (prongY + notchOffset) 0 in
  flatDiagonal <- newLine vzero flatVertex ;;
  shaftTangent <- newLine flatVertex (vortho2D (ldir flatDiagonal)) ;;
  let prongDir := V (ncos prongAngle) (nsin prongAngle) 0 in
  let prongTouch := vsub prongCenter (vscale (vortho2D prongDir) prongRadius) in
  prongTangent <- newLine prongTouch prongDir ;;
  bisectPos <- lintersect shaftTangent prongTangent ;;
  hingeBisect <- newLine bisectPos (vadd (ldir shaftTangent) (ldir prongTangent)) ;;
  hingeCenter <- lintersect flatDiagonal hingeBisect ;;
  let hingeRadius := vmag2D (vsub hingeCenter flatVertex) in
  let notchStart := vangle2D (vsub prongCenter notchCenter) in
  let notchSpan := half npi - notchStart in
  let prongStart := half npi * nZ 3 + prongAngle in
  let prongSpan := npi + notchStart - prongStart in
  let hingeStart := vangle2D hingeCenter in
  let hingeSpan := half npi + prongAngle - hingeStart in
  let shaftStart := half npi * nZ 3 in
  let shaftSpan := half npi + hingeStart in
  b1 <- arc2D q shaftRadius shaftStart shaftSpan vzero ;;
  b2 <- arc2D q hingeRadius hingeStart hingeSpan hingeCenter ;;
  b3 <- arc2D q prongRadius prongStart prongSpan prongCenter ;;
  b4 <- arc2D q notchRadius notchStart notchSpan notchCenter ;;
  let halfEdge := b1 ++ b2 ++ b3 ++ b4 in
  Ok (collapsed (esnapped (halfEdge ++ rev (emirX halfEdge))) microns).

(* knob.py:24-67: the edges of the knob, then its strips and faces.  The sketches
   are computed before any meshing. *)
Definition knob : res mesh :=
  let outerRadius := half (outerDiameter c) in
  let radiusT := outerRadius - outerChamfer c in
  let centerG := V 0 0 (skirtHeight c + shaftHeight c + k_roofThickness c) in
  let shaftG := V 0 0 (k_roofThickness c + shaftHeight c) in
  let shaftT := V 0 0 (k_roofThickness c) in
  grooveSketch <- grooveSketch2D ;;
  let grooveEdgeG := etranslated grooveSketch centerG in
  let grooveEdgeT := map (fun p => dist_back p radiusT) grooveSketch in
  chamferEdge <- mapM (fun p => n <- vnorm p ;; Ok (vscale n radiusT)) grooveSketch ;;
  shaftSketch <- shaftSketch2D ;;
  let shaftEdgeG := etranslated shaftSketch shaftG in
  let shaftEdgeT := etranslated shaftSketch shaftT in
  skirtSketch <- arc2D q (outerRadius - skirtThickness c) 0 tau vzero ;;
  let skirtEdgeG := etranslated skirtSketch centerG in
  let skirtEdgeT := etranslated skirtSketch shaftG in
  Ok (meshes [
    Strip [vzero] chamferEdge true;
    Strip chamferEdge grooveEdgeT true;
    Strip grooveEdgeT grooveEdgeG true;
    Strip skirtEdgeG skirtEdgeT true;
    Strip shaftEdgeG shaftEdgeT true;
    Fill shaftEdgeT [];
    Fill skirtEdgeT [rev shaftEdgeG];
    Fill grooveEdgeG [rev skirtEdgeG]]).
End Knob.
