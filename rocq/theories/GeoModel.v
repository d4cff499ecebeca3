(** Model of /repo/body/chrumm/geo: epsilon, vector, matrix, line, plane,
    segment, circle, triangle.  One definition per method. *)
From Coq Require Import ZArith List Bool.
From Verif Require Import Num.
Import ListNotations.
Open Scope num_scope.

Section Geo.
Context {N : Num}.
Notation "0" := (nZ 0%Z) : num_scope.
Notation "1" := (nZ 1%Z) : num_scope.
Notation "2" := (nZ 2%Z) : num_scope.
Notation "4" := (nZ 4%Z) : num_scope.

(* epsilon.py:25-26 isZero *)
Definition isZero (n : num) : bool := nabs n <? nQ 1 1000000.

(* vector.py:6-13 *)
Record vec := V { vx : num; vy : num; vz : num }.
Definition vzero : vec := V 0 0 0.

(* vector.py:34-35 __eq__ *)
Definition veqb (p q : vec) : bool := (vx p =? vx q) && (vy p =? vy q) && (vz p =? vz q).
(* vector.py:37-42 __lt__ *)
Definition vltb (p q : vec) : bool :=
  if negb (vx p =? vx q) then vx p <? vx q
  else if negb (vy p =? vy q) then vy p <? vy q
  else vz p <? vz q.
(* vector.py:44-57 *)
Definition vopp (p : vec) : vec := V (- vx p) (- vy p) (- vz p).
Definition vadd (p q : vec) : vec := V (vx p + vx q) (vy p + vy q) (vz p + vz q).
Definition vsub (p q : vec) : vec := V (vx p - vx q) (vy p - vy q) (vz p - vz q).
Definition vscale (p : vec) (s : num) : vec := V (vx p * s) (vy p * s) (vz p * s).
Definition vdiv (p : vec) (s : num) : res vec :=
  x <- pdiv (vx p) s ;; y <- pdiv (vy p) s ;; z <- pdiv (vz p) s ;; Ok (V x y z).
(* vector.py:59-69 *)
Definition vxy (p : vec) : vec := V (vx p) (vy p) 0.
Definition vxz (p : vec) : vec := V (vx p) 0 (vz p).
Definition vyz (p : vec) : vec := V 0 (vy p) (vz p).
(* vector.py:71-78 *)
Definition vmirX (p : vec) : vec := V (- vx p) (vy p) (vz p).
Definition vmirY (p : vec) : vec := V (vx p) (- vy p) (vz p).
Definition vmirZ (p : vec) : vec := V (vx p) (vy p) (- vz p).
(* vector.py:80-81 *)
Definition vtranslated (p q : vec) : vec := vadd p q.
(* vector.py:97-102 snapped *)
Definition snap1 (x : num) : num := if isZero x then 0 else x.
Definition vsnapped (p : vec) : vec := V (snap1 (vx p)) (snap1 (vy p)) (snap1 (vz p)).
(* vector.py:107-120 *)
Definition vcross (p q : vec) : vec :=
  V (vy p * vz q - vz p * vy q) (vz p * vx q - vx p * vz q) (vx p * vy q - vy p * vx q).
Definition vdot (p q : vec) : num := vx p * vx q + vy p * vy q + vz p * vz q.
Definition vmag (p : vec) : num := nsqrt (vx p * vx p + vy p * vy p + vz p * vz p).
Definition vmag2 (p : vec) : num := vx p * vx p + vy p * vy p + vz p * vz p.
(* vector.py:104-105 normalized *)
Definition vnorm (p : vec) : res vec := vdiv p (vmag p).
(* vector.py:122-125 angleBetween *)
Definition vangle (p q : vec) : res num :=
  a <- vnorm p ;; b <- vnorm q ;;
  Ok (nacos (pmax (- (1)) (pmin (vdot a b) 1))).
(* vector.py:127-131 isClose *)
Definition visClose (p q : vec) : bool :=
  isZero (vx p - vx q) && isZero (vy p - vy q) && isZero (vz p - vz q).
(* vector.py:133-150 *)
Definition vortho2D (p : vec) : vec := V (- vy p) (vx p) 0.
Definition vmag2D (p : vec) : num := nsqrt (vx p * vx p + vy p * vy p).
Definition vmagSq2D (p : vec) : num := vx p * vx p + vy p * vy p.
Definition vnorm2D (p : vec) : res vec :=
  x <- pdiv (vx p) (vmag2D p) ;; y <- pdiv (vy p) (vmag2D p) ;; Ok (V x y 0).
Definition vangle2D (p : vec) : num := natan2 (vy p) (vx p).

(* vector.py:15-26 fromSurfaceNormal: Newell sums over consecutive pairs, the
   last point paired with the first; an empty list leaves the zero vector *)
Definition newell_term (p q : vec) (acc : vec) : vec :=
  V (vx acc + (vy p - vy q) * (vz p + vz q))
    (vy acc + (vz p - vz q) * (vx p + vx q))
    (vz acc + (vx p - vx q) * (vy p + vy q)).
Fixpoint newell (first : vec) (l : list vec) (acc : vec) : vec :=
  match l with
  | [] => acc
  | [p] => newell_term p first acc
  | p :: (q :: _) as r => newell first r (newell_term p q acc)
  end.
Definition surfaceNormal (l : list vec) : res vec :=
  vnorm (match l with [] => vzero | p :: _ => newell p l vzero end).

(** ** matrix.py *)

(* matrix.py:8-13: 16 numbers, row-vector convention *)
Record mtx := M { m0:num; m1:num; m2:num; m3:num; m4:num; m5:num; m6:num; m7:num;
                  m8:num; m9:num; m10:num; m11:num; m12:num; m13:num; m14:num; m15:num }.
(* matrix.py:8-12 *)
Definition mid : mtx := M 1 0 0 0  0 1 0 0  0 0 1 0  0 0 0 1.
(* matrix.py:37-38 *)
Definition madd (s o : mtx) : mtx :=
  M (m0 s + m0 o) (m1 s + m1 o) (m2 s + m2 o) (m3 s + m3 o) (m4 s + m4 o) (m5 s + m5 o)
    (m6 s + m6 o) (m7 s + m7 o) (m8 s + m8 o) (m9 s + m9 o) (m10 s + m10 o) (m11 s + m11 o)
    (m12 s + m12 o) (m13 s + m13 o) (m14 s + m14 o) (m15 s + m15 o).
(* matrix.py:44-45 *)
Definition mscale (s : mtx) (k : num) : mtx :=
  M (m0 s * k) (m1 s * k) (m2 s * k) (m3 s * k) (m4 s * k) (m5 s * k) (m6 s * k) (m7 s * k)
    (m8 s * k) (m9 s * k) (m10 s * k) (m11 s * k) (m12 s * k) (m13 s * k) (m14 s * k) (m15 s * k).
(* matrix.py:47-66 *)
Definition mmul (s o : mtx) : mtx := M
  (m0 s*m0 o + m1 s*m4 o + m2 s*m8 o + m3 s*m12 o)
  (m0 s*m1 o + m1 s*m5 o + m2 s*m9 o + m3 s*m13 o)
  (m0 s*m2 o + m1 s*m6 o + m2 s*m10 o + m3 s*m14 o)
  (m0 s*m3 o + m1 s*m7 o + m2 s*m11 o + m3 s*m15 o)
  (m4 s*m0 o + m5 s*m4 o + m6 s*m8 o + m7 s*m12 o)
  (m4 s*m1 o + m5 s*m5 o + m6 s*m9 o + m7 s*m13 o)
  (m4 s*m2 o + m5 s*m6 o + m6 s*m10 o + m7 s*m14 o)
  (m4 s*m3 o + m5 s*m7 o + m6 s*m11 o + m7 s*m15 o)
  (m8 s*m0 o + m9 s*m4 o + m10 s*m8 o + m11 s*m12 o)
  (m8 s*m1 o + m9 s*m5 o + m10 s*m9 o + m11 s*m13 o)
  (m8 s*m2 o + m9 s*m6 o + m10 s*m10 o + m11 s*m14 o)
  (m8 s*m3 o + m9 s*m7 o + m10 s*m11 o + m11 s*m15 o)
  (m12 s*m0 o + m13 s*m4 o + m14 s*m8 o + m15 s*m12 o)
  (m12 s*m1 o + m13 s*m5 o + m14 s*m9 o + m15 s*m13 o)
  (m12 s*m2 o + m13 s*m6 o + m14 s*m10 o + m15 s*m14 o)
  (m12 s*m3 o + m13 s*m7 o + m14 s*m11 o + m15 s*m15 o).
(* matrix.py:68-87 *)
Definition mmirX (s : mtx) : mtx := mmul s (M (-(1)) 0 0 0  0 1 0 0  0 0 1 0  0 0 0 1).
Definition mmirY (s : mtx) : mtx := mmul s (M 1 0 0 0  0 (-(1)) 0 0  0 0 1 0  0 0 0 1).
Definition mmirZ (s : mtx) : mtx := mmul s (M 1 0 0 0  0 1 0 0  0 0 (-(1)) 0  0 0 0 1).
(* matrix.py:128-133 *)
Definition mtranslated (s : mtx) (v : vec) : mtx :=
  mmul s (M 1 0 0 0  0 1 0 0  0 0 1 0  (vx v) (vy v) (vz v) 1).
(* matrix.py:89-126; center None is modelled by option *)
Definition rotate_about (s rot : mtx) (center : option vec) : mtx :=
  match center with
  | None => mmul s rot
  | Some c => mtranslated (mmul (mtranslated s (vopp c)) rot) c
  end.
Definition rotX (a : num) : mtx :=
  M 1 0 0 0  0 (ncos a) (nsin a) 0  0 (- nsin a) (ncos a) 0  0 0 0 1.
Definition rotY (a : num) : mtx :=
  M (ncos a) 0 (- nsin a) 0  0 1 0 0  (nsin a) 0 (ncos a) 0  0 0 0 1.
Definition rotZ (a : num) : mtx :=
  M (ncos a) (nsin a) 0 0  (- nsin a) (ncos a) 0 0  0 0 1 0  0 0 0 1.
Definition mrotX (s : mtx) (a : num) (center : option vec) : mtx := rotate_about s (rotX a) center.
Definition mrotY (s : mtx) (a : num) (center : option vec) : mtx := rotate_about s (rotY a) center.
Definition mrotZ (s : mtx) (a : num) (center : option vec) : mtx := rotate_about s (rotZ a) center.

(* matrix.py:15-35 fromAlignment *)
Definition fromAlignment (sourceDir targetDir : vec) : res mtx :=
  s <- vnorm sourceDir ;; t <- vnorm targetDir ;;
  if visClose s t then Ok mid
  else if visClose s (vopp t) then Ok (mmirX mid)
  else
    let c := vcross s t in
    let d := vdot s t in
    let skew := M 0 (vz c) (- vy c) 0  (- vz c) 0 (vx c) 0  (vy c) (- vx c) 0 0  0 0 0 0 in
    k <- pdiv 1 (1 + d) ;;
    Ok (madd (madd mid skew) (mscale (mmul skew skew) k)).

(* vector.py:83-95 *)
Definition transformed (p : vec) (m : mtx) : vec :=
  V (vx p*m0 m + vy p*m4 m + vz p*m8 m + m12 m)
    (vx p*m1 m + vy p*m5 m + vz p*m9 m + m13 m)
    (vx p*m2 m + vy p*m6 m + vz p*m10 m + m14 m).
Definition transformedNormal (p : vec) (m : mtx) : res vec :=
  vnorm (V (vx p*m0 m + vy p*m4 m + vz p*m8 m)
           (vx p*m1 m + vy p*m5 m + vz p*m9 m)
           (vx p*m2 m + vy p*m6 m + vz p*m10 m)).

(** ** line.py *)
Record line := mkLine { lpos : vec; ldir : vec }.
(* line.py:8-10 *)
Definition newLine (pos dir : vec) : res line := d <- vnorm dir ;; Ok (mkLine pos d).
(* line.py:12-18 *)
Definition ltranslated (l : line) (v : vec) : res line := newLine (vadd (lpos l) v) (ldir l).
Definition ltransformed (l : line) (m : mtx) : res line :=
  d <- transformedNormal (ldir l) m ;; newLine (transformed (lpos l) m) d.
(* line.py:20-25 *)
Definition ldistance (l : line) (v : vec) : num :=
  let closest := vadd (lpos l) (vscale (ldir l) (vdot (ldir l) (vsub v (lpos l)))) in
  vmag (vsub closest v).
(* line.py:27-35 *)
Definition ldistance2D (l : line) (v : vec) : res num :=
  d <- vnorm2D (ldir l) ;;
  Ok (vx d * (vy (lpos l) - vy v) - vy d * (vx (lpos l) - vx v)).
(* line.py:37-59 *)
Definition lintersect (s o : line) : res vec :=
  let delta := vsub (lpos s) (lpos o) in
  let d_o := vdot delta (ldir o) in
  let d_s := vdot delta (ldir s) in
  let os := vdot (ldir o) (ldir s) in
  let oo := vdot (ldir o) (ldir o) in
  let ss := vdot (ldir s) (ldir s) in
  let numer := d_o * os - d_s * oo in
  let denom := ss * oo - os * os in
  if isZero denom then Err ZeroDivision
  else
    muA <- pdiv numer denom ;;
    muB <- pdiv (d_o + muA * os) oo ;;
    let a := vadd (lpos s) (vscale (ldir s) muA) in
    let b := vadd (lpos o) (vscale (ldir o) muB) in
    vdiv (vadd a b) 2.

(** ** plane.py *)
Record plane := mkPlane { ppos : vec; pnormal : vec }.
(* plane.py:10-12 *)
Definition newPlane (pos normal : vec) : res plane := n <- vnorm normal ;; Ok (mkPlane pos n).
(* plane.py:14-33 *)
Definition planeX (x : num) : res plane := newPlane (V x 0 0) (V 1 0 0).
Definition planeY (y : num) : res plane := newPlane (V 0 y 0) (V 0 1 0).
Definition planeZ (z : num) : res plane := newPlane (V 0 0 z) (V 0 0 1).
Definition planePoints (a b c : vec) : res plane := newPlane b (vcross (vsub b a) (vsub c a)).
Definition planeLine2D (l : line) : res plane := newPlane (vxy (lpos l)) (vortho2D (ldir l)).
(* plane.py:35-41 *)
Definition ptranslated (p : plane) (v : vec) : res plane := newPlane (vadd (ppos p) v) (pnormal p).
Definition ptransformed (p : plane) (m : mtx) : res plane :=
  n <- transformedNormal (pnormal p) m ;; newPlane (transformed (ppos p) m) n.
(* plane.py:43-45 *)
Definition pdistance (p : plane) (v : vec) : num := vdot (vsub v (ppos p)) (pnormal p).
(* plane.py:97-106 *)
Definition pintersectLine (p : plane) (l : line) : res vec :=
  let numer := vdot (pnormal p) (vsub (ppos p) (lpos l)) in
  let denom := vdot (pnormal p) (ldir l) in
  if isZero denom then Err ZeroDivision
  else t <- pdiv numer denom ;; Ok (vadd (lpos l) (vscale (ldir l) t)).
(* plane.py:47-48 *)
Definition projectNormal (p : plane) (v : vec) : res vec :=
  l <- newLine v (pnormal p) ;; pintersectLine p l.
(* plane.py:50-69 *)
Definition projectX (p : plane) (v : vec) : res vec :=
  if isZero (vx (pnormal p)) then Err ZeroDivision
  else d <- pdiv (vdot (pnormal p) (vsub (ppos p) v)) (vx (pnormal p)) ;; Ok (V (vx v + d) (vy v) (vz v)).
Definition projectY (p : plane) (v : vec) : res vec :=
  if isZero (vy (pnormal p)) then Err ZeroDivision
  else d <- pdiv (vdot (pnormal p) (vsub (ppos p) v)) (vy (pnormal p)) ;; Ok (V (vx v) (vy v + d) (vz v)).
Definition projectZ (p : plane) (v : vec) : res vec :=
  if isZero (vz (pnormal p)) then Err ZeroDivision
  else d <- pdiv (vdot (pnormal p) (vsub (ppos p) v)) (vz (pnormal p)) ;; Ok (V (vx v) (vy v) (vz v + d)).
(* plane.py:78-95 *)
Definition pintersectPlanes (p o1 o2 : plane) : res vec :=
  let dot1 := vdot (pnormal o1) (ppos o1) in
  let dot2 := vdot (pnormal o2) (ppos o2) in
  let dot3 := vdot (pnormal p) (ppos p) in
  let cross23 := vcross (pnormal o2) (pnormal p) in
  let cross31 := vcross (pnormal p) (pnormal o1) in
  let cross12 := vcross (pnormal o1) (pnormal o2) in
  let numer := vadd (vadd (vscale cross23 dot1) (vscale cross31 dot2)) (vscale cross12 dot3) in
  let denom := vdot (pnormal o1) cross23 in
  if isZero denom then Err ZeroDivision else vdiv numer denom.

(** ** segment.py *)
Record segment := mkSeg { sa : vec; sb : vec }.
(* segment.py:13-21 *)
Definition smag (s : segment) : num := vmag (vsub (sb s) (sa s)).
Definition smag2D (s : segment) : num := vmag2D (vsub (sa s) (sb s)).
Definition soffset2D (s : segment) (distance : num) : res segment :=
  n <- vnorm2D (vortho2D (vsub (sa s) (sb s))) ;;
  let off := vscale n distance in
  Ok (mkSeg (vadd (vxy (sa s)) off) (vadd (vxy (sb s)) off)).
(* segment.py:23-34; x**2 is x*x *)
Definition sdistance2D (s : segment) (v : vec) : res num :=
  let a := sa s in let b := sb s in
  let numer := (vx v - vx a) * (vx b - vx a) + (vy v - vy a) * (vy b - vy a) in
  let denom := (vx b - vx a) * (vx b - vx a) + (vy b - vy a) * (vy b - vy a) in
  u <- (if negb (denom =? 0) then q <- pdiv numer denom ;; Ok (pmax 0 (pmin q 1)) else Ok 0) ;;
  let ex := vx a + u * (vx b - vx a) - vx v in
  let ey := vy a + u * (vy b - vy a) - vy v in
  Ok (nsqrt (ex * ex + ey * ey)).
(* segment.py:36-59; asLine is 0, 1 or 2 (asserted) *)
Definition in01 (x : num) : bool := (0 <=? x) && (x <=? 1).
Definition sintersect2D (s o : segment) (asLine : nat) : res (option vec) :=
  let a := sa s in let b := sb s in let c := sa o in let d := sb o in
  let denom := (vy d - vy c) * (vx b - vx a) - (vx d - vx c) * (vy b - vy a) in
  if negb (isZero denom) then
    abPos <- pdiv ((vx d - vx c) * (vy a - vy c) - (vy d - vy c) * (vx a - vx c)) denom ;;
    if Nat.eqb asLine 2 || in01 abPos then
      cdPos <- pdiv ((vx b - vx a) * (vy a - vy c) - (vy b - vy a) * (vx a - vx c)) denom ;;
      if Nat.leb 1 asLine || in01 cdPos then
        Ok (Some (V (vx a + (vx b - vx a) * abPos) (vy a + (vy b - vy a) * abPos) 0))
      else Ok None
    else Ok None
  else Ok None.

(** ** circle.py *)
Record circle := mkCircle { ccenter : vec; cradius : num }.
(* circle.py:21-42 *)
Definition cintersectLine2D (c : circle) (l : line) : res (list vec) :=
  let center := vxy (ccenter c) in
  let linePos := vxy (lpos l) in
  lineDir <- vnorm2D (ldir l) ;;
  let b := 2 * vdot lineDir (vsub linePos center) in
  let cc := vmagSq2D center + vmagSq2D linePos - 2 * vdot center linePos - cradius c * cradius c in
  let exp := b * b - 4 * cc in
  if isZero exp then
    h <- pdiv (- b) 2 ;; Ok [vadd linePos (vscale lineDir h)]
  else if exp <? 0 then Ok []
  else
    r <- psqrt exp ;;
    uNeg <- pdiv (- b - r) 2 ;; uPos <- pdiv (- b + r) 2 ;;
    Ok [vadd linePos (vscale lineDir uNeg); vadd linePos (vscale lineDir uPos)].
(* circle.py:44-66 *)
Definition cintersectCircle2D (c o : circle) : res (list vec) :=
  let a := vxy (ccenter c) in
  let b := vxy (ccenter o) in
  let pitch := vmag2D (vsub b a) in
  let isSeparate := cradius c + cradius o <? pitch in
  let isInside := pitch <? nabs (cradius c - cradius o) in
  if isZero pitch || isSeparate || isInside then Ok []
  else
    midDir <- vnorm (vsub b a) ;;
    midDist <- pdiv (cradius c * cradius c - cradius o * cradius o + pitch * pitch) (2 * pitch) ;;
    let midPos := vadd a (vscale midDir midDist) in
    chordHalf <- psqrt (cradius c * cradius c - midDist * midDist) ;;
    if isZero chordHalf then Ok [midPos]
    else let off := vscale (vortho2D midDir) chordHalf in
         Ok [vadd midPos off; vsub midPos off].

(** ** triangle.py *)
Record tri := mkTri { ta : vec; tb : vec; tc : vec }.
(* triangle.py:16-47 *)
Definition tmirX (t : tri) : tri := mkTri (vmirX (ta t)) (vmirX (tb t)) (vmirX (tc t)).
Definition tmirY (t : tri) : tri := mkTri (vmirY (ta t)) (vmirY (tb t)) (vmirY (tc t)).
Definition tmirZ (t : tri) : tri := mkTri (vmirZ (ta t)) (vmirZ (tb t)) (vmirZ (tc t)).
Definition treversed (t : tri) : tri := mkTri (tc t) (tb t) (ta t).
Definition ttranslated (t : tri) (v : vec) : tri := mkTri (vadd (ta t) v) (vadd (tb t) v) (vadd (tc t) v).
Definition ttransformed (t : tri) (m : mtx) : tri :=
  mkTri (transformed (ta t) m) (transformed (tb t) m) (transformed (tc t) m).
(* triangle.py:49-53 area *)
Definition tarea (t : tri) : res num :=
  pdiv (vmag (vcross (vsub (tb t) (ta t)) (vsub (tc t) (ta t)))) 2.
(* triangle.py:13-14 __bool__ *)
Definition tbool (t : tri) : res bool := a <- tarea t ;; Ok (negb (isZero a)).
(* triangle.py:55-61 circumradius *)
Definition tcircumradius (t : tri) : res num :=
  let ca := vsub (ta t) (tc t) in
  let cb := vsub (tb t) (tc t) in
  let numer := vmag ca * vmag cb * vmag (vsub ca cb) in
  let denom := 2 * vmag (vcross ca cb) in
  if isZero denom then Ok 0 else pdiv numer denom.
(* triangle.py:63-66 normal *)
Definition tnormal (t : tri) : res vec :=
  vnorm (vcross (vsub (tb t) (ta t)) (vsub (tc t) (ta t))).

End Geo.
