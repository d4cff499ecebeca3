(** Specification vocabulary for polygons in the xy plane, over the reals. *)
From Coq Require Import Reals Lra List Arith.
From Verif Require Import Num GeoModel GeoSpec.
Import ListNotations.
Open Scope R_scope.

(* twice the signed area of the triangle a b p: positive when p is left of a->b *)
Definition side (a b p : pt) : R := (X b - X a) * (Y p - Y a) - (Y b - Y a) * (X p - X a).

(* the vertices of a closed polygon, indexed cyclically *)
Definition cyc (l : list pt) (i : nat) : pt := nth (i mod length l) l origin.

(* counter-clockwise strictly convex: every other vertex is strictly left of every side *)
Definition strictly_convex (l : list pt) : Prop :=
  forall i j, (i < length l)%nat -> (j < length l)%nat -> j <> i -> j <> (S i mod length l)%nat ->
    0 < side (cyc l i) (cyc l (S i)) (cyc l j).
(* v is strictly left of every side *)
Definition strictly_inside (l : list pt) (v : pt) : Prop :=
  l <> [] /\ forall i, (i < length l)%nat -> 0 < side (cyc l i) (cyc l (S i)) v.
(* some line separates v from all vertices *)
Definition separated (l : list pt) (v : pt) : Prop :=
  exists nx ny, forall p, In p l -> nx * X p + ny * Y p < nx * X v + ny * Y v.
(* the ray from v in +x direction hits the side a-b, the upper end not counted *)
Definition ray_hits (v a b : pt) : Prop :=
  (Y a <= Y v < Y b \/ Y b <= Y v < Y a) /\
  exists t, 0 <= t <= 1 /\ Y (at2 a b t) = Y v /\ X v < X (at2 a b t).
