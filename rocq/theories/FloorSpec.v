(** What the theorems about the floor say, without reference to its constructor. *)
From Coq Require Import Reals List.
From Verif Require Import Num GeoModel GeoSpec EdgeSpecR.
Import ListNotations.
Open Scope R_scope.

(* the edge runs from front to back, with both ends on the split plane x = 0 *)
Definition runs_back (l : list pt) : Prop := exists a m b, l = a :: m ++ [b] /\ (X a = 0 /\ X b = 0 /\ Y a < Y b).
(* two points that are the same, or not even close *)
Definition clear_end (e : pt * pt) : Prop := visClose (fst e) (snd e) = true -> fst e = snd e.

(* the corners of the regular hexagon around c with the circumradius r, two corners of it on a line in x direction *)
Definition hexagon (c : pt) (r : R) : list pt :=
  map (fun d => P (X c + r * fst d) (Y c + r * snd d) 0)
    [(-1, 0); (-1/2, - sqrt 3 / 2); (1/2, - sqrt 3 / 2); (1, 0); (1/2, sqrt 3 / 2); (-1/2, sqrt 3 / 2)].

(* an exact zero, or not even near it *)
Definition distinct_from_zero (x : R) : Prop := x = 0 \/ eps <= Rabs x.
(* the cross product of a b and c d *)
Definition turn (a b c d : pt) : R := (X b - X a) * (Y d - Y c) - (Y b - Y a) * (X d - X c).
(* the hexagon and the closed border, which lies in the ground plane, are in general position: no corner of the hexagon is on the border or near a border
   point, and lines through corners are exactly parallel to sides of the border and to lines from a corner to a border point, or clearly not *)
Definition clear_of (border hx : list pt) : Prop :=
  forall i c v w, (i < length border)%nat -> In c hx -> In v hx -> In w hx -> let a := cyc border i in let b := cyc border (S i) in
    Z a = 0 /\ ~ on_seg2 a b c /\ visClose a c = false /\ distinct_from_zero (turn c v a b) /\ distinct_from_zero (turn v w c a).

(* x0 is the smallest of the numbers *)
Definition smallest (x0 : R) (l : list R) : Prop := In x0 l /\ forall x, In x l -> x0 <= x.
Definition largest (x0 : R) (l : list R) : Prop := In x0 l /\ forall x, In x l -> x <= x0.
(* The places of the hexagons of circumradius r inside the border: a triangular grid, where neighbouring hexagons are gap apart, that starts one row
   before the front of the border, moved by (dx, dy), and ends where the hexagons are behind or right of the border *)
Definition grid_place (border : list pt) (r gap dx dy : R) (c : pt) : Prop :=
  exists x0 x1 y0 y1 row col, smallest x0 (map X border) /\ largest x1 (map X border) /\ smallest y0 (map Y border) /\ largest y1 (map Y border) /\
    let pitch := sqrt 3 * r + gap in
    c = P (x0 + r + dx + sqrt 3 * pitch * (INR col + INR (Nat.modulo row 2) / 2)) (y0 + sqrt 3 / 2 * r + dy + pitch * (INR row / 2 - 1)) 0 /\
    X c < x1 + r /\ Y c < y1 + sqrt 3 / 2 * r.
