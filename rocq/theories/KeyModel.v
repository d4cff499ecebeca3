(** Model of /repo/body/chrumm/part/key.py. *)
From Coq Require Import ZArith List Bool.
From Verif Require Import Num GeoModel EdgeModel ArcModel MeshModel.
Import ListNotations.
Open Scope num_scope.

Section Key.
Context {N : Num}.
Notation "0" := (nZ 0%Z) : num_scope.
Notation "1" := (nZ 1%Z) : num_scope.
Notation "2" := (nZ 2%Z) : num_scope.
(* key.py uses / 2 and tau / 4 only with literals, which cannot raise *)
Definition kHalf (x : num) : num := ndiv x 2.

(* cfg.switch.clipNotch (key.py:29-30, 78-82); getattr(.., isSideways, False) *)
Record clip_cfg := mkClip { clipWidth : num; clipDepth : num; clipHeight : num; clipTaperAngle : num; clipSideways : bool }.
(* cfg.switch, cfg.body.roofThickness and cfg.layout as read by key.py:20-30, 136-141;
   clipNotch is None if it is missing or falsy *)
Record key_cfg := mkKeyCfg {
  switchWidth : num; switchDepth : num; holeHeight : num; pinHeight : num; innerHeight : num;
  innerMargin : num; outerMargin : num; entryChamfer : num; clipNotch : option clip_cfg;
  columnPitch : num; rowPitch : num; capWidth : num; capDepth : num }.
Variable c : key_cfg.

(* key.py:29 *)
Definition hasClip : option clip_cfg :=
  match clipNotch c with Some k => if clipHeight k <? holeHeight c then Some k else None | None => None end.
(* key.py:30 *)
Definition isSideways : bool := match hasClip with Some k => clipSideways k | None => false end.
(* key.py:32-33 *)
Definition holeW : num := if isSideways then switchDepth c else switchWidth c.
Definition holeD : num := if isSideways then switchWidth c else switchDepth c.
(* key.py:35-38; -holeW/2 is (-holeW)/2 *)
Definition holeL : num := ndiv (- holeW) 2.
Definition holeR : num := ndiv holeW 2.
Definition holeF : num := ndiv (- holeD) 2.
Definition holeB : num := ndiv holeD 2.

(* key.py:42-55 *)
Definition factoryBoundsO : list vec :=
  let m := outerMargin c in
  [V (holeL - m) (holeF - m) 0; V (holeL - m) (holeB + m) 0; V (holeR + m) (holeB + m) 0; V (holeR + m) (holeF - m) 0].
Definition factoryBoundsI : list vec :=
  let m := innerMargin c in let h := - holeHeight c in let z := - innerHeight c - pinHeight c in
  [V (holeL - m) (holeF - m) h; V (holeL - m) (holeB + m) h; V (holeR + m) (holeB + m) h; V (holeR + m) (holeF - m) h;
   V holeL holeF z; V holeL holeB z; V holeR holeB z; V holeR holeF z].

(* key.py:59-70: an edge of two points, with its mirror image appended *)
Definition withMirY (l : list vec) : list vec := l ++ rev (emirY l).
Definition entryEdge : list vec := withMirY [V holeL (holeF - entryChamfer c) 0; V (holeL - entryChamfer c) holeF 0].
Definition chamferEdge : list vec := let p := V holeL holeF (- entryChamfer c) in withMirY [p; p].
Definition exitEdge : list vec := let p := V holeL holeF (- holeHeight c) in withMirY [p; p].
(* l[-1] of a non-empty edge *)
Definition elast (l : list vec) : vec := last l vzero.

(* key.py:77-89: the edges of the clip notch *)
Definition clipEdgeG (k : clip_cfg) : res (list vec) :=
  t <- pdiv (clipDepth k) (ncos (clipTaperAngle k)) ;;
  let clipTaper := t * nsin (clipTaperAngle k) in
  let wL := ndiv (- clipWidth k) 2 in let wR := ndiv (clipWidth k) 2 in
  Ok [V wL holeB (- holeHeight c); V (wL + clipTaper) (holeB + clipDepth k) (- holeHeight c);
      V (wR - clipTaper) (holeB + clipDepth k) (- holeHeight c); V wR holeB (- holeHeight c)].
Definition clipEdgeT (k : clip_cfg) (g : list vec) : list vec := etranslated g (V 0 0 (holeHeight c - clipHeight k)).

(* key.py:72-106: the triangles of the left side and the back, and the exit edge *)
Definition leftMesh : mesh := Plus (Strip exitEdge chamferEdge false) (Strip chamferEdge entryEdge false).
Definition backMesh : res (mesh * list vec) :=
  match hasClip with
  | Some k =>
      g <- clipEdgeG k ;;
      let t := clipEdgeT k g in
      let at_ l i := nth i l vzero in
      let clipEdgeF := [at_ g 0%nat; at_ t 0%nat; elast t; elast g] in
      let entryEdgeB := [elast entryEdge; vmirX (elast entryEdge)] in
      let chamferEdgeB := [elast chamferEdge; vmirX (elast chamferEdge)] in
      let wallEdgeB := [elast exitEdge] ++ chamferEdgeB ++ [vmirX (elast exitEdge)] in
      Ok (meshes [Strip chamferEdgeB entryEdgeB false; Strip clipEdgeF wallEdgeB false; Strip g t false;
                  Strip (firstn 2 t) (rev (skipn 2 t)) false],
          exitEdge ++ g)
  | None =>
      let wallEdgeLB := [elast exitEdge; elast chamferEdge; elast entryEdge] in
      Ok (Strip (emirX wallEdgeLB) wallEdgeLB false, exitEdge)
  end.
(* mirroredX().mirroredY() *)
Definition turnAround (p : vec) : vec := vmirY (vmirX p).

Record factory := mkFactory { fBoundsI : list vec; fBoundsO : list vec; fHoleI : list vec; fHoleO : list vec; fMesh : mesh }.
(* key.py:108-125 *)
Definition keyFactory : res factory :=
  be <- backMesh ;;
  let microns := nQ 1 1000 in
  let base := Plus leftMesh (fst be) in
  let entry := collapsed entryEdge microns in
  let exit := rev (collapsed (snd be) microns) in
  let holeO := entry ++ map turnAround entry in
  let holeI := exit ++ map turnAround exit in
  let all := Plus base (Moved turnAround base) in
  if isSideways then
    let rotate := mrotZ mid (ndiv tau (nZ 4)) None in
    Ok (mkFactory (etransformed factoryBoundsI rotate) (etransformed factoryBoundsO rotate)
                  (etransformed holeI rotate) (etransformed holeO rotate) (Moved (fun p => transformed p rotate) all))
  else Ok (mkFactory factoryBoundsI factoryBoundsO holeI holeO all).

(** ** Key *)
(* key.py:133-150 *)
Record key := mkKey { kmatrix : mtx; kfactory : factory; kPivotL : vec; kPivotR : vec; kCapBounds : list vec }.
Definition newKey (fac : factory) (units : num) : key :=
  let marginX := columnPitch c - capWidth c in
  let marginY := rowPitch c - capDepth c in
  let capW := columnPitch c * units - marginX in
  let capD := rowPitch c - marginY in
  let l := ndiv (- capW) 2 in let r := ndiv capW 2 in
  let f := ndiv (- capD) 2 in let b := ndiv capD 2 in
  mkKey mid fac (V (l - ndiv marginX 2) f 0) (V (r + ndiv marginX 2) f 0)
    [V (l - marginX) (f - marginY) 0; V (r + marginX) (f - marginY) 0; V (r + marginX) (b + marginY) 0; V (l - marginX) (b + marginY) 0].
(* key.py:152-156; keys are mutable, the model returns the changed key *)
Definition ktranslate (k : key) (v : vec) : key := mkKey (mtranslated (kmatrix k) v) (kfactory k) (kPivotL k) (kPivotR k) (kCapBounds k).
Definition ktransform (k : key) (m : mtx) : key := mkKey (mmul (kmatrix k) m) (kfactory k) (kPivotL k) (kPivotR k) (kCapBounds k).
(* key.py:158-192 *)
Definition kposition (k : key) : vec := transformed vzero (kmatrix k).
Definition capPivotL (k : key) : vec := transformed (kPivotL k) (kmatrix k).
Definition capPivotR (k : key) : vec := transformed (kPivotR k) (kmatrix k).
Definition boundsI (k : key) : list vec := etransformed (fBoundsI (kfactory k)) (kmatrix k).
Definition boundsO (k : key) : list vec := etransformed (fBoundsO (kfactory k) ++ kCapBounds k) (kmatrix k).
Definition kbounds (k : key) : list vec := boundsI k ++ boundsO k.
Definition roofHoleI (k : key) : list vec := etransformed (fHoleI (kfactory k)) (kmatrix k).
Definition roofHoleO (k : key) : list vec := etransformed (fHoleO (kfactory k)) (kmatrix k).
Definition ktriangles (k : key) : mesh := Moved (fun p => transformed p (kmatrix k)) (fMesh (kfactory k)).
End Key.
