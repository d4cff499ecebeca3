(** Vocabulary for arcs, over the reals and independent of ArcModel. *)
From Coq Require Import Reals List.
From Verif Require Import Num GeoModel GeoSpec.
Import ListNotations.
Open Scope R_scope.

(* the point of the circle around c with radius r in direction t, in the xy plane *)
Definition circle_at (c : pt) (r t : R) : pt := P (X c + r * cos t) (Y c + r * sin t) 0.
(* an angle limited to a full turn *)
Definition turn_limited (s : R) : R := Rmax (- (2 * PI)) (Rmin s (2 * PI)).
(* a full turn, as far as the code distinguishes it *)
Definition full_turn (s : R) : Prop := Rabs (Rabs s - 2 * PI) <= eps.
(* the distance from p to the segment a b in the plane is at most d *)
Definition within (d : R) (p a b : pt) : Prop :=
  exists k, 0 <= k <= 1 /\ (X p - (X a + k * (X b - X a)))² + (Y p - (Y a + k * (Y b - Y a)))² <= d².
(* t lies between u and v *)
Definition between (u t v : R) : Prop := u <= t <= v \/ v <= t <= u.
(* a point of the segment from a to b, seen in the plane *)
Definition on_segment2 (p a b : pt) : Prop := exists k, 0 <= k <= 1 /\ X p = X a + k * (X b - X a) /\ Y p = Y a + k * (Y b - Y a).
