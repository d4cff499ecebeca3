(** Model of /repo/body/chrumm/pcb.py: the footprint with the switch positions. *)
From Coq Require Import Ascii String ZArith List Bool.
From Verif Require Import Num GeoModel EdgeModel KeyModel LayoutModel BossModel PlanModel.
Import ListNotations.
Open Scope num_scope.

Section Pcb.
Context {N : Num}.
Notation "0" := (nZ 0%Z) : num_scope.
Notation "1" := (nZ 1%Z) : num_scope.
Notation "2" := (nZ 2%Z) : num_scope.
(* pcb.py:108-109: the text of a number; PrettyModel.v models it for floats *)
Variable pretty : num -> string.
(* cfg.pcb.mount *)
Record mount_cfg := mkMountCfg { mt_diameter : num; mt_xDist : num; mt_yDist : num }.
(* the settings that plan.py reads, see PlanModel.v; cfg.pcb.thickness and cfg.pcb.mount *)
Variable c : @plan_cfg N.
Variable pcbThickness : num.
Variable mount : option mount_cfg.

(** ** _flattenLayout *)
(* pcb.py:58-61 *)
Definition pinkyAlign : mtx := mrotY (mrotX (mrotZ mid (- splitAngle c) None) (- tiltAngle c) None) (- pinkyTentAngle c) None.
(* pcb.py:68-79: the rotation that unfolds the alphanumeric keys *)
Definition alnumAlign (y : layout) : res mtx :=
  let alnumAngle := alnumTentAngle c - pinkyTentAngle c in
  ka <- maxAlnum y SideBoth ;;
  kp <- minPinky y SideBoth ;;
  let midPos := vhalf (vadd (kposition ka) (kposition kp)) in
  let midDir := V (nsin (ndiv alnumAngle 2)) 0 (ncos (ndiv alnumAngle 2)) in
  let pcbPos := vsub (kposition kp) (V 0 0 (innerHeight (keyCfg c) + pcbThickness)) in
  midLine <- newLine midPos midDir ;;
  pcbLine <- newLine pcbPos (V 1 0 0) ;;
  alnumPivot <- lintersect pcbLine midLine ;;
  Ok (mrotY mid (- alnumAngle) (Some alnumPivot)).
(* pcb.py:48-89; the layout is a copy *)
Definition flattenLayout (y : layout) : res layout :=
  let y := mapAll (turnKey pinkyAlign) y in
  m <- alnumAlign y ;;
  let y := mapFingers 0 (turnKey m) y in
  k <- pyidx (pinky y SideBoth) 0%Z ;;
  Ok (mapAll (move (vopp (kposition k))) y).

(** ** the text *)
Open Scope string_scope.
Definition newline : string := String (ascii_of_nat 10) "".
Definition quote : string := String (ascii_of_nat 34) "".
(* the degree sign in UTF-8 *)
Definition degree : string := String (ascii_of_nat 194) (String (ascii_of_nat 176) "").
(* math.degrees *)
Definition degrees (x : num) : num := (x * ndiv (nZ 180%Z) npi)%num.
(* pcb.py:111-114 *)
Definition markerPoints (m : mtx) (width height : num) : list vec :=
  etransformed [V (ndiv (- width) 2) (ndiv (- height) 2) 0; V (ndiv width 2) (ndiv (- height) 2) 0; vzero] m.
(* pcb.py:116 *)
Definition coord (p : vec) : string := pretty (- vx p)%num ++ " " ++ pretty (- vy p)%num.
(* pcb.py:120-122 *)
Definition fpLine (layer a b : string) : string :=
  "  (fp_line (start " ++ a ++ ") (end " ++ b ++ ") (layer " ++ quote ++ layer ++ ".Cu" ++ quote ++ ") (width 0.05))" ++ newline.
(* pcb.py:125-127 *)
Definition fpText (layer angle a : string) : string :=
  "  (fp_text user " ++ quote ++ "-" ++ angle ++ degree ++ quote ++ " (at " ++ a ++ ") (layer " ++ quote ++ layer ++ ".Fab" ++ quote ++ ")" ++ newline ++
  "    (effects (font (size 3 3) (thickness 0.3)) (justify left)))" ++ newline.
(* pcb.py:107-127 *)
Definition writeMarker (m : mtx) (width height : num) (layer : string) : string :=
  let pts := markerPoints m width height in
  let p i := nth i pts vzero in
  let angle := pretty (degrees (vangle2D (vsub (p 1%nat) (p 0%nat)))) in
  fpLine layer (coord (p 2%nat)) (coord (p 0%nat)) ++ fpLine layer (coord (p 0%nat)) (coord (p 1%nat)) ++ fpLine layer (coord (p 1%nat)) (coord (p 2%nat)) ++
  (if String.eqb angle "0" then "" else fpText layer angle (coord (p 2%nat))).
(* pcb.py:92-96 *)
Definition writeKeys (keys : list key) (layer : string) : string :=
  String.concat "" (map (fun k => writeMarker (kmatrix k) (switchWidth (keyCfg c)) (switchDepth (keyCfg c)) layer) keys).
(* pcb.py:99-104 *)
Definition writeMounts (mt : mount_cfg) (y : layout) (layer : string) : res string :=
  k <- pyidx (pinky y SideBoth) 0%Z ;;
  Ok (writeMarker (mtranslated (kmatrix k) (V (- mt_xDist mt)%num (- mt_yDist mt)%num 0)) (mt_diameter mt) (mt_diameter mt) layer).
(* pcb.py:29-33 *)
Definition fpHead : string :=
  "(footprint " ++ quote ++ quote ++ " (generator chrumm)" ++ newline ++
  "  (attr board_only exclude_from_pos_files exclude_from_bom)" ++ newline ++
  "  (fp_text reference " ++ quote ++ quote ++ " (at 0 0) (layer " ++ quote ++ "F.Fab" ++ quote ++ ") hide)" ++ newline ++
  "  (fp_text value " ++ quote ++ quote ++ " (at 0 0) (layer " ++ quote ++ "F.Fab" ++ quote ++ ") hide)" ++ newline.
(* pcb.py:22-25 *)
Definition notFlat (k : key) : bool := (nQ 1 1000000 <? nabs (vz (kposition k)))%num.
(* pcb.py:17-45 for the layouts of the two plans *)
Definition footprint (layoutR layoutL : layout) : res string :=
  yr <- flattenLayout layoutR ;;
  yl <- flattenLayout layoutL ;;
  if existsb notFlat (lall yr SideBoth ++ lall yl SideBoth) then Ok ""
  else
    let keys := writeKeys (lall yr SideRight) "F" ++ writeKeys (lall yl SideLeft) "B" in
    mounts <- match mount with
              | None => Ok ""
              | Some mt => r <- writeMounts mt yr "F" ;; l <- writeMounts mt yl "B" ;; Ok (r ++ l)
              end ;;
    Ok (fpHead ++ keys ++ mounts ++ ")" ++ newline).
End Pcb.
