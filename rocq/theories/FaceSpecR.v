(** Vocabulary for triangulations in the plane, over the reals. *)
From Coq Require Import Reals ZArith List.
From Verif Require Import Num GeoModel EdgeModel FaceModel GeoSpec EdgeSpecR FaceSpec.
Import ListNotations.
Open Scope R_scope.

(* signed crossing of the ray from x in +x direction by the side u->v: +1 when
   the side passes upward to the right of x, -1 downward *)
Definition crossing (x u v : pt) : BinNums.Z :=
  if Rle_dec (Y u) (Y x) then (if Rlt_dec (Y x) (Y v) then (if Rlt_dec 0 (side u v x) then 1 else 0)%Z else 0%Z)
  else (if Rle_dec (Y v) (Y x) then (if Rlt_dec 0 (side v u x) then -1 else 0)%Z else 0%Z).
(* winding number of a set of directed sides around x *)
Definition winding (pts : list pt) (es : list dedge) (x : pt) : BinNums.Z :=
  fold_right (fun e s => crossing x (at_ pts (fst e)) (at_ pts (snd e)) + s)%Z 0%Z es.

Definition area2 (pts : list pt) (t : nat * nat * nat) : R :=
  let '(a, b, c) := t in side (at_ pts a) (at_ pts b) (at_ pts c).
(* x is strictly inside / strictly outside the triangle with corners a b c *)
Definition inside3 (a b c x : pt) : Prop := 0 < side a b x /\ 0 < side b c x /\ 0 < side c a x.
Definition outside3 (a b c x : pt) : Prop := side a b x < 0 \/ side b c x < 0 \/ side c a x < 0.
Definition in_tri (pts : list pt) (t : nat * nat * nat) (x : pt) : Prop :=
  let '(a, b, c) := t in inside3 (at_ pts a) (at_ pts b) (at_ pts c) x.
Definition out_tri (pts : list pt) (t : nat * nat * nat) (x : pt) : Prop :=
  let '(a, b, c) := t in outside3 (at_ pts a) (at_ pts b) (at_ pts c) x.
(* x is in exactly the triangles number idx of the list, and outside the others *)
Definition in_exactly (pts : list pt) (ts : list (nat * nat * nat)) (x : pt) (idx : list nat) : Prop :=
  NoDup idx /\ (forall i, In i idx -> (i < length ts)%nat) /\ forall i, (i < length ts)%nat ->
    (In i idx /\ in_tri pts (nth i ts (0, 0, 0)%nat) x) \/ (~ In i idx /\ out_tri pts (nth i ts (0, 0, 0)%nat) x).
(* d lies outside or on the circle through the counter-clockwise triangle a b c
   iff this is <= 0 *)
Definition incircle (a b c d : pt) : R :=
  ((X a - X d)² + (Y a - Y d)²) * ((X b - X d) * (Y c - Y d) - (X c - X d) * (Y b - Y d)) -
  ((X b - X d)² + (Y b - Y d)²) * ((X a - X d) * (Y c - Y d) - (X c - X d) * (Y a - Y d)) +
  ((X c - X d)² + (Y c - Y d)²) * ((X a - X d) * (Y b - Y d) - (X b - X d) * (Y a - Y d)).
(* two triangles never overlap *)
Definition no_overlap (pts : list pt) (ts : list (nat * nat * nat)) : Prop :=
  forall i j x, (i < length ts)%nat -> (j < length ts)%nat -> i <> j ->
    ~ (in_tri pts (nth i ts (0, 0, 0)%nat) x /\ in_tri pts (nth j ts (0, 0, 0)%nat) x).
(* the triangle runs around x once counter-clockwise (1), once clockwise (-1),
   or x is strictly outside (0) *)
Definition turned (t : nat * nat * nat) : nat * nat * nat := let '(a, b, c) := t in (a, c, b).
Definition wraps (pts : list pt) (x : pt) (t : nat * nat * nat) (w : BinNums.Z) : Prop :=
  (w = 1%Z /\ in_tri pts t x) \/ (w = (-1)%Z /\ in_tri pts (turned t) x) \/
  (w = 0%Z /\ ((0 <= area2 pts t /\ out_tri pts t x) \/ (area2 pts t <= 0 /\ out_tri pts (turned t) x))).
Definition zsum (l : list BinNums.Z) : BinNums.Z := fold_right BinIntDef.Z.add 0%Z l.
