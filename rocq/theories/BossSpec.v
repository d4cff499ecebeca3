(** Vocabulary for screw bosses, over the reals and independent of BossModel. *)
From Coq Require Import Reals List.
From Verif Require Import Num GeoModel GeoSpec.
Import ListNotations.
Open Scope R_scope.

(* the corners of a regular polygon in the circle around the axis through pos with radius r, at height z *)
Definition ring (n : nat) (pos : pt) (r z : R) : list pt :=
  map (fun i => P (X pos + r * cos (INR i * (2 * PI / INR n))) (Y pos + r * sin (INR i * (2 * PI / INR n))) z) (seq 0 n).
(* the horizontal part of a direction, with length 1 *)
Definition ux (d : pt) : R := X d / sqrt (X d * X d + Y d * Y d).
Definition uy (d : pt) : R := Y d / sqrt (X d * X d + Y d * Y d).
Definition level (d : pt) : Prop := X d <> 0 \/ Y d <> 0.
(* a drawing whose y axis is turned to the direction d (its x axis to the right of d), enlarged by k, placed over pos at height z *)
Definition drawn_along (d pos : pt) (k z : R) (p : pt) : pt := P (X pos + k * (X p * uy d + Y p * ux d)) (Y pos + k * (Y p * uy d - X p * ux d)) z.
(* a drawing whose x axis is turned to the direction d *)
Definition drawn_on (d pos : pt) (p : pt) : pt := P (X pos + (X p * ux d - Y p * uy d)) (Y pos + (X p * uy d + Y p * ux d)) (Z pos).
(* a point of the outline that leads from the line y = w, along a fillet with radius f and its tangent of length t, to the
   circle around the origin with radius r; the tangent leaves the circle at the angle a *)
Definition flank_point (r f w a t : R) (p : pt) : Prop :=
  (exists s, - PI + a <= s <= - (PI / 2) /\ p = P (((r + f) * cos a + t * sin a) + f * cos s) ((w + f) + f * sin s) 0) \/
  (exists s, a <= s <= PI / 2 /\ p = P (r * cos s) (r * sin s) 0).
(* the fillet with its centre at the height w + f and the circle have that tangent *)
Definition tangent_joins (r f w a t : R) : Prop := w + f = (r + f) * sin a - t * cos a.
Definition mirrored (p : pt) : pt := P (- X p) (Y p) (Z p).
