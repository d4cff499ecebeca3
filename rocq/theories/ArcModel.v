(** Model of /repo/body/chrumm/part/arc.py. *)
From Coq Require Import ZArith List Bool.
From Verif Require Import Num GeoModel EdgeModel.
Import ListNotations.
Open Scope num_scope.

Section Arc.
Context {N : Num}.
Notation "0" := (nZ 0%Z) : num_scope.
Notation "1" := (nZ 1%Z) : num_scope.
Notation "2" := (nZ 2%Z) : num_scope.

(* math.tau *)
Definition tau : num := 2 * npi.
(* math.acos: outside [-1, 1] it raises ValueError *)
Definition pacos (x : num) : res num :=
  if (x <? - (1)) || (1 <? x) then Err ValueErr else Ok (nacos x).

(* arc.py:14, 16: the attributes of cfg.quality *)
Record quality := mkQuality { maxChordHeight : num; maxChordAngle : num }.
Variable q : quality.

(* arc.py:9-36.  math.ceil gives an int; a negative count gives an empty range.
   (math.ceil of NaN or infinity raises in Python; nceil is total.)  Division of a
   float by the int 0 raises ZeroDivisionError. *)
Definition arc2D (radius startAngle spanAngle : num) (center : vec) : res (list vec) :=
  if radius <? nQ 1 1000000 then Ok [center]
  else
    h <- pdiv (maxChordHeight q) radius ;;
    a <- pacos (1 - h) ;;
    let maxHeightAngle := a * 2 in
    let maxAngle := pmin (maxChordAngle q) maxHeightAngle in
    let span := pmax (- tau) (pmin spanAngle tau) in
    c <- pdiv (nabs span) maxAngle ;;
    let chordCount := nceil c in
    chordAngle <- (if (chordCount =? 0)%Z then Err ZeroDivision else Ok (ndiv span (nZ chordCount))) ;;
    let pointCount := Z.add chordCount (if nQ 1 1000000 <? nabs (nabs span - tau) then 1%Z else 0%Z) in
    Ok (map (fun i : nat =>
               let angle := startAngle + nZ (Z.of_nat i) * chordAngle in
               V (vx center + radius * ncos angle) (vy center + radius * nsin angle) 0)
            (seq 0 (Z.to_nat pointCount))).

(* arc.py:39-57; the 2D normalized vectors have z = 0 *)
Definition cornerArc2D (radius : num) (a b c : vec) : res (list vec) :=
  aDir <- vnorm2D (vsub a b) ;;
  cDir <- vnorm2D (vsub c b) ;;
  let sign := if 0 <? vz (vcross cDir aDir) then 1 else - (1) in
  cornerAngle <- pacos (vdot aDir cDir) ;;
  let arcAngle := (npi - cornerAngle) * sign in
  let startAngle := vangle2D (vscale (vortho2D aDir) sign) in
  half <- pdiv cornerAngle 2 ;;
  centerDist <- pdiv radius (nsin half) ;;
  centerDir <- vnorm2D (vadd aDir cDir) ;;
  let centerPos := vadd (vxy b) (vscale centerDir centerDist) in
  arc2D radius startAngle arcAngle centerPos.

(* arc.py:60-74.  taper = None: cfg.support is falsy, Some angle:
   cfg.support.holeTaperAngle.  Edge(top, arc, top.mirroredX()) *)
Definition uprightHole2D (taper : option num) (radius : num) : res (list vec) :=
  match taper with
  | Some angle =>
      if 0 <? angle then
        quarter <- pdiv tau (nZ 4) ;;
        arc <- arc2D radius (quarter + angle) (tau - 2 * angle) vzero ;;
        half <- pdiv angle 2 ;;
        x <- pdiv (- radius * nsin half) (ncos half) ;;
        let top := V x radius 0 in
        Ok (top :: arc ++ [vmirX top])
      else arc2D radius 0 tau vzero
  | None => arc2D radius 0 tau vzero
  end.

(* arc.py:77-87 *)
Definition uprightHalfHole2D (taper : option num) (radius : num) : res (list vec) :=
  match taper with
  | Some angle =>
      if 0 <? angle then
        eighth <- pdiv tau (nZ 8) ;;
        arc <- arc2D radius 0 eighth vzero ;;
        half <- pdiv angle 2 ;;
        x <- pdiv (radius * nsin half) (ncos half) ;;
        let right := arc ++ [V x radius 0] in
        Ok (right ++ rev (emirX right))
      else arc2D radius 0 npi vzero
  | None => arc2D radius 0 npi vzero
  end.
End Arc.
