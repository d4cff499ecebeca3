(** Vocabulary for the planner theorems, over the reals: horizontal wall lines. *)
From Coq Require Import Reals List.
From Verif Require Import Num GeoModel GeoSpec KeyModel HullSpec.
Import ListNotations.
Open Scope R_scope.

(* a horizontal line on the ground *)
Definition ground_line (l : @line Rnum) : Prop := unit_vec (ldir l) /\ Z (ldir l) = 0 /\ Z (lpos l) = 0.
(* how far v lies beyond the line, seen from above, to the right of its direction
   (walls run counter-clockwise around the keyboard: right is outside, negative is inside) *)
Definition beyond (l : @line Rnum) (v : pt) : R :=
  (X v - X (lpos l)) * Y (ldir l) - (Y v - Y (lpos l)) * X (ldir l).
(* the same line, moved outward by d *)
Definition moved_out (d : R) (l l' : @line Rnum) : Prop :=
  ldir l' = ldir l /\ ground_line l' /\ forall v, beyond l' v = beyond l v - d.
(* all points of the keys, below and above the roof *)
Definition below (keys : list (@key Rnum)) : list pt := flat_map boundsI keys.
Definition above (keys : list (@key Rnum)) : list pt := flat_map boundsO keys.

(* the middle line of a key, from front to back, seen from above *)
Definition key_axis (k : @key Rnum) (l : @line Rnum) : Prop :=
  let o := transformed (P 0 0 0) (kmatrix k) in let back := transformed (P 0 1 0) (kmatrix k) in
  ground_line l /\ X (lpos l) = X o /\ Y (lpos l) = Y o /\
  exists s, 0 < s /\ X back - X o = s * X (ldir l) /\ Y back - Y o = s * Y (ldir l).
(* a place for a boss of radius r: its center is r + margin inside the outer wall, and at most r away,
   in steps of a half, from the middle between the axes of two keys, measured along the wall *)
Definition boss_spot (r margin : R) (wall axis0 axis1 : @line Rnum) (pos : pt) : Prop :=
  exists (a b : pt) (j : BinNums.Z),
    on_line axis0 a /\ on_line axis1 b /\ beyond wall a = - (r + margin) /\ beyond wall b = - (r + margin) /\
    Rabs (IZR j / 2) <= r /\
    pos = P ((X a + X b) / 2 + IZR j / 2 * X (ldir wall)) ((Y a + Y b) / 2 + IZR j / 2 * Y (ldir wall)) 0.
(* a boss of radius r at pos collides with the body spanned by the points *)
Definition collides (r : R) (vs : list pt) (pos : pt) : Prop :=
  (forall nx ny, exists v, In v vs /\ nx * X pos + ny * Y pos <= nx * X v + ny * Y v) \/   (* no line separates them *)
  (exists w, HullSpec.spanned vs w /\ edist2 w pos < r).

(* signed height of a point over a plane, along the plane's normal *)
Definition rise (pl : @plane Rnum) (v : pt) : R := inner (minus v (ppos pl)) (pnormal pl).
(* all points on the side of the plane the normal points to *)
Definition inside (pl : @plane Rnum) (ps : list pt) : Prop := forall p, In p ps -> 0 <= rise pl p.
Definition outside (pl : @plane Rnum) (ps : list pt) : Prop := forall p, In p ps -> rise pl p <= 0.
(* a key sits upright on a roof: its own height coordinate is the height over the roof *)
Definition sits_on (pl : @plane Rnum) (k : @key Rnum) : Prop := forall q, rise pl (transformed q (kmatrix k)) = Z q.
(* the inner surface runs d below (inside of) the outer one *)
Definition thick (d : R) (inner_ outer_ : @plane Rnum) : Prop := forall v, rise inner_ v = rise outer_ v + d.
