(** Vocabulary for simple polygons in the plane, over the reals. *)
From Coq Require Import Reals List.
From Verif Require Import Num GeoModel GeoSpec EdgeSpecR.
Import ListNotations.
Open Scope R_scope.

(* x is on the segment from p to q *)
Definition on_segment (x p q : pt) : Prop := exists s, 0 <= s <= 1 /\ X x = X p + s * (X q - X p) /\ Y x = Y p + s * (Y q - Y p).
(* two sides that are not neighbours have no point in common *)
Definition simple_polygon (l : list pt) : Prop :=
  forall i j, (i < length l)%nat -> (j < length l)%nat -> i <> j -> j <> (S i mod length l)%nat -> i <> (S j mod length l)%nat ->
    forall x, ~ (on_segment x (cyc l i) (cyc l (S i)) /\ on_segment x (cyc l j) (cyc l (S j))).
(* every vertex is farther than 1e-6 from the line through two others *)
Definition keeps_tolerance (l : list pt) : Prop :=
  forall i j k, (i < length l)%nat -> (j < length l)%nat -> (k < length l)%nat -> i <> j -> j <> k -> i <> k ->
    1 / 1000000 * edist2 (cyc l i) (cyc l j) < Rabs (side (cyc l i) (cyc l j) (cyc l k)).
