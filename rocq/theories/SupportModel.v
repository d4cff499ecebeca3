(** Model of /repo/body/chrumm/part/support.py. *)
From Coq Require Import ZArith List Bool.
From Verif Require Import Num GeoModel EdgeModel ArcModel MeshModel.
Import ListNotations.
Open Scope num_scope.

Section Support.
Context {N : Num}.
Notation "0" := (nZ 0%Z) : num_scope.
Notation "1" := (nZ 1%Z) : num_scope.
Notation "2" := (nZ 2%Z) : num_scope.

(* the settings read by support.py:17-37 and 72; getattr with a default is an option *)
Record support_cfg := mkSupportCfg {
  sw_width : num; sw_depth : num; roofThickness : num;
  baseWidth : num; baseDepth : num; sideGap : num; baseGap : num; topGap : num; topDepth : num;
  relBasePosition : option num; relBaseInset : option num; relTopInset : option num;
  minOverhangAngle : num }.
Variable q : quality.
Variable c : support_cfg.

Definition getattr (o : option num) (default : num) : num := match o with Some x => x | None => default end.

(* support.py:32-33, 36-37, 49-50: both default insets are computed, which can raise *)
Definition supportInset (depth : num) (rel : option num) : res num :=
  let holeH := roofThickness c in
  k <- pdiv (sideGap c) (holeH - depth) ;;
  let relInset := getattr rel (1 - k) in
  half <- pdiv depth 2 ;;
  Ok (half + (holeH - depth) * relInset).

(* support.py:52-63: edgeL and edgeR; dividing by the literal 2 cannot raise *)
Definition supportEdges : res (list vec * list vec) :=
  let topW := sw_depth c - 2 * sideGap c in
  baseInset <- supportInset (baseDepth c) (relBaseInset c) ;;
  topInset <- supportInset (topDepth c) (relTopInset c) ;;
  let half x := ndiv x 2 in
  let centerL := V (- half (sw_width c) + baseGap c) (half (baseWidth c) - half (baseDepth c)) (- baseInset) in
  let centerR := V (half (sw_width c) - topGap c) (half topW - half (topDepth c)) (- topInset) in
  arcXY <- arc2D q (half (topDepth c)) 0 npi vzero ;;
  let arc := map (fun p => V 0 (vy p) (- vx p)) arcXY in
  scale <- pdiv (baseDepth c) (topDepth c) ;;
  let edgeL := etranslated (escaled arc scale vzero) centerL in
  let edgeR := etranslated arc centerR in
  let edgeL := edgeL ++ rev (emirY edgeL) in
  let edgeR := edgeR ++ rev (emirY edgeR) in
  let baseMove := V 0 (half (topW - baseWidth c) - (topW - baseWidth c) * getattr (relBasePosition c) 0) 0 in
  Ok (etranslated edgeL baseMove, edgeR).

(* support.py:65-67 *)
Definition supportMesh (edgeL edgeR : list vec) : mesh :=
  meshes [Strip edgeL edgeR true; Fill (rev edgeL) []; Fill edgeR []].

(* support.py:69-75 make(key) for a key with the given matrix *)
Definition supportMake (base : list tri) (keyMatrix : mtx) : res (list tri) :=
  n <- transformedNormal (V 1 0 0) keyMatrix ;;
  if nabs (vangle2D n) <=? minOverhangAngle c then Ok (map (tmap (fun p => transformed p keyMatrix)) base) else Ok [].

(* support.py:78-87: keys are the matrices of plan.layout.all(plan.side) *)
Definition support (fill : list vec -> list (list vec) -> res (list tri)) (keys : list mtx) : res (list tri) :=
  e <- supportEdges ;;
  base <- eval fill (supportMesh (fst e) (snd e)) ;;
  ts <- mapM (supportMake base) keys ;;
  Ok (concat ts).
End Support.
