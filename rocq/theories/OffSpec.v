(** Vocabulary for parallel polygons in the plane, over the reals (C81, C82). *)
From Coq Require Import Reals List Arith Bool.
From Verif Require Import Num GeoModel GeoSpec EdgeSpecR PolySpec.
Import ListNotations.
Open Scope R_scope.

(* p is on the parallel of the line from a to b at the distance d to its right (to its left when d is negative) *)
Definition on_parallel (a b : pt) (d : R) (p : pt) : Prop := side a b p = - d * edist2 a b.
(* how far side number k of n moves: the closing side of an open outline stays where it is *)
Definition moved (closed : bool) (n : nat) (d : R) (k : nat) : R := if closed then d else if (S k =? n)%nat then 0 else d.
(* m is the parallel polygon of l: side i of m is on the parallel of side i of l *)
Definition parallel_polygon (closed : bool) (l : list pt) (d : R) (m : list pt) : Prop :=
  length m = length l /\ (forall p, In p m -> Z p = 0) /\
  forall i, (i < length l)%nat ->
    on_parallel (cyc l i) (cyc l (S i)) (moved closed (length l) d i) (cyc m i) /\
    on_parallel (cyc l i) (cyc l (S i)) (moved closed (length l) d i) (cyc m (S i)).
(* the point p after the move of the side from a to b by d to the right *)
Definition shift (a b : pt) (d : R) (p : pt) : pt :=
  P (X p + d * ((Y b - Y a) / edist2 a b)) (Y p - d * ((X b - X a) / edist2 a b)) 0.
(* twice the area that the segments a-b and c-d span *)
Definition spans (a b c d : pt) : R := Rabs ((X b - X a) * (Y d - Y c) - (Y b - Y a) * (X d - X c)).
(* neighbouring sides turn enough to be extended or cut at their crossing: each moved side, together with the piece
   that is left of the moved side before it, spans at least the tolerance 1e-6.  The corners are treated in turn, first
   the one between the last side and side 0; the moved side i+1 is whole, but the last one already ends at its new corner *)
Definition firm_corners (closed : bool) (l : list pt) (d : R) (m : list pt) : Prop :=
  1 / 1000000 <= spans (cyc l (length l - 1)) (cyc l 0) (cyc l 0) (cyc l 1) /\
  forall i, (S i < length l)%nat ->
    let start k := shift (cyc l k) (cyc l (S k)) (moved closed (length l) d k) (cyc l k) in
    let stop k := shift (cyc l k) (cyc l (S k)) (moved closed (length l) d k) (cyc l (S k)) in
    1 / 1000000 <= spans (cyc m i) (stop i) (start (S i)) (if (S (S i) =? length l)%nat then cyc m 0 else stop (S i)).
(* the list l, starting at its element number k *)
Definition turned {A} (k : nat) (l : list A) : list A := skipn k l ++ firstn k l.
(* the piece from a to b and the piece from c to d, not nearly parallel, have the point x in common *)
Definition cross_at (a b c d x : pt) : Prop := 1 / 1000000 <= spans a b c d /\ on_segment x a b /\ on_segment x c d.
(* the sides of the closed polygon q *)
Definition outline_sides (q : list pt) : list (@segment Rnum) := map (fun i => mkSeg (cyc q i) (cyc q (S i))) (seq 0 (length q)).
(* sides that are not neighbours have no crossing; at most the end of the earlier one touches the other *)
Definition no_crossings (q : list pt) : Prop := forall i j x, (S i < j)%nat -> (j < length q)%nat -> ~ (i = 0%nat /\ S j = length q) ->
  cross_at (cyc q i) (cyc q (S i)) (cyc q j) (cyc q (S j)) x -> X x = X (cyc q (S i)) /\ Y x = Y (cyc q (S i)).
(* every side of q' is a part of a side of q *)
Definition cut_from (q q' : list pt) : Prop := (length q' <= length q)%nat /\ forall j, (j < length q')%nat -> exists i, (j <= i < length q)%nat /\
  on_segment (cyc q' j) (cyc q i) (cyc q (S i)) /\ on_segment (cyc q' (S j)) (cyc q i) (cyc q (S i)).
(* m is the parallel polygon of l at the distance d (>= 1e-6), without crossings, without sides shorter than 1e-3 and with firm corners *)
Definition clean_offset (closed : bool) (l : list pt) (d : R) (m : list pt) : Prop :=
  1 / 1000000 <= Rabs d /\ (3 <= length l)%nat /\
  (forall k, (k < length l)%nat -> ~ (X (cyc l k) = X (cyc l (S k)) /\ Y (cyc l k) = Y (cyc l (S k)))) /\
  parallel_polygon closed l d m /\ firm_corners closed l d m /\
  simple_polygon m /\ (forall k, (k < length m)%nat -> 1 / 1000 <= edist2 (cyc m k) (cyc m (S k))).
(* the points of l, higher by h *)
Definition raised (h : R) (l : list pt) : list pt := map (fun p => P (X p) (Y p) (Z p + h)) l.
