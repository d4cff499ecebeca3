(** Specification vocabulary for the geometry theorems, written directly over
    Coq's real numbers and independent of the operations of GeoModel
    (only the record types of vectors, planes, lines, ... are shared). *)
From Coq Require Import Reals List.
From Verif Require Import Num GeoModel.
Import ListNotations.
Open Scope R_scope.

#[global] Existing Instance Rnum.

(* a point of real 3-space *)
Definition pt := @vec Rnum.
Definition P (x y z : R) : pt := @V Rnum x y z.
Definition X (p : pt) : R := vx p.
Definition Y (p : pt) : R := vy p.
Definition Z (p : pt) : R := vz p.

(* the code's absolute tolerance *)
Definition eps : R := 1 / 1000000.

(* Euclidean distance, squared and plain, in space and in the xy plane *)
Definition sqdist (p q : pt) : R := (X p - X q)² + (Y p - Y q)² + (Z p - Z q)².
Definition edist (p q : pt) : R := sqrt (sqdist p q).
Definition sqdist2 (p q : pt) : R := (X p - X q)² + (Y p - Y q)².
Definition edist2 (p q : pt) : R := sqrt (sqdist2 p q).

(* inner product, length, unit vectors *)
Definition inner (p q : pt) : R := X p * X q + Y p * Y q + Z p * Z q.
Definition len (p : pt) : R := sqrt (inner p p).
Definition unit_vec (p : pt) : Prop := inner p p = 1.
Definition minus (p q : pt) : pt := P (X p - X q) (Y p - Y q) (Z p - Z q).
Definition plus (p q : pt) : pt := P (X p + X q) (Y p + Y q) (Z p + Z q).
Definition scaled (k : R) (p : pt) : pt := P (k * X p) (k * Y p) (k * Z p).
Definition origin : pt := P 0 0 0.

(* signed volume spanned by three vectors; orientation of a frame at o *)
Definition triple (a b c : pt) : R :=
  X a * (Y b * Z c - Z b * Y c) - Y a * (X b * Z c - Z b * X c) + Z a * (X b * Y c - Y b * X c).
Definition orient (o a b c : pt) : R := triple (minus a o) (minus b o) (minus c o).

(* incidence *)
Definition on_plane (pl : @plane Rnum) (v : pt) : Prop := inner (minus v (ppos pl)) (pnormal pl) = 0.
Definition on_line (l : @line Rnum) (v : pt) : Prop := exists k, v = plus (lpos l) (scaled k (ldir l)).
(* well formed planes and lines: what the constructors guarantee *)
Definition wf_plane (pl : @plane Rnum) : Prop := unit_vec (pnormal pl).
Definition wf_line (l : @line Rnum) : Prop := unit_vec (ldir l).

(* points of a 2D segment / of the line through it, at parameter t *)
Definition at2 (a b : pt) (t : R) : pt := P (X a + t * (X b - X a)) (Y a + t * (Y b - Y a)) 0.
Definition on_seg2 (a b v : pt) : Prop := exists t, 0 <= t <= 1 /\ X v = X (at2 a b t) /\ Y v = Y (at2 a b t).
Definition on_line2 (a b v : pt) : Prop := exists t, X v = X (at2 a b t) /\ Y v = Y (at2 a b t).

(* rigid motions *)
Definition isometry (f : pt -> pt) : Prop := forall p q, sqdist (f p) (f q) = sqdist p q.
Definition keeps_orientation (f : pt -> pt) : Prop :=
  forall o a b c, orient (f o) (f a) (f b) (f c) = orient o a b c.
Definition flips_orientation (f : pt -> pt) : Prop :=
  forall o a b c, orient (f o) (f a) (f b) (f c) = - orient o a b c.

(* the matrices a user can build with the public builders of Matrix *)
Inductive Built : @mtx Rnum -> Prop :=
| B_id : Built mid
| B_mul A B : Built A -> Built B -> Built (mmul A B)
| B_mirX A : Built A -> Built (mmirX A)
| B_mirY A : Built A -> Built (mmirY A)
| B_mirZ A : Built A -> Built (mmirZ A)
| B_tra A v : Built A -> Built (mtranslated A v)
| B_rotX A a c : Built A -> Built (mrotX A a c)
| B_rotY A a c : Built A -> Built (mrotY A a c)
| B_rotZ A a c : Built A -> Built (mrotZ A a c)
| B_align s t A : fromAlignment s t = Ok A -> Built A.
