(** Vocabulary for the bridge from a hole to the surrounding polygon, over the
    reals.  a is the vertex of the hole the bridge starts from; polygons are
    lists of indexes into pts, side i leads from vertex i to vertex i + 1. *)
From Coq Require Import Reals List.
From Verif Require Import Num GeoModel EdgeModel FaceModel GeoSpec EdgeSpecR FaceSpec FaceSpecR.
Import ListNotations.
Open Scope R_scope.

(* the ray from a to the right meets side i, which goes upward or lies on the
   ray, at abscissa x *)
Definition ray_meets (pts : list pt) (poly : list nat) (a : pt) (i : nat) (x : R) : Prop :=
  let p := at_ pts (nth i poly 0%nat) in let q := at_ pts (nth (S i mod length poly) poly 0%nat) in
  X a < x /\
  ((Y p <= Y a /\ Y a <= Y q /\ Y p < Y q /\ (x - X p) * (Y q - Y p) = (Y a - Y p) * (X q - X p)) \/
   (Y p = Y a /\ Y q = Y a /\ X a < X p /\ X a < X q /\ x = Rmin (X p) (X q))).
(* w is the right end of side i (its upper end if it is vertical), or its left
   end if it lies on the ray *)
Definition far_end (pts : list pt) (poly : list nat) (a b : pt) (i w : nat) : Prop :=
  let p := at_ pts (nth i poly 0%nat) in let q := at_ pts (nth (S i mod length poly) poly 0%nat) in
  let c := at_ pts (nth w poly 0%nat) in
  (Y p < Y q /\ ((w = i /\ X q < X p) \/ (w = (S i mod length poly)%nat /\ X p <= X q))) \/
  (Y p = Y a /\ Y q = Y a /\ (w = i \/ w = (S i mod length poly)%nat) /\ X c = Rmin (X p) (X q)).
(* b is the first point the ray meets, w the end of the side met there *)
Definition first_hit (pts : list pt) (poly : list nat) (a b : pt) (w : nat) : Prop :=
  Z b = 0 /\ Y b = Y a /\ X a < X b /\ (w < length poly)%nat /\
  (exists i, (i < length poly)%nat /\ ray_meets pts poly a i (X b) /\ far_end pts poly a b i w) /\
  (forall i x, (i < length poly)%nat -> ray_meets pts poly a i x -> X b <= x).
(* p is inside the counter-clockwise triangle a b c, farther than the tolerance
   from its sides *)
Definition deep_inside (a b c p : pt) : Prop :=
  eps * edist2 a b < side a b p /\ eps * edist2 b c < side b c p /\ eps * edist2 c a < side c a p.
(* vertex i is a reflex vertex inside the triangle a b c *)
Definition blocking (pts : list pt) (poly : list nat) (a b c : pt) (i : nat) : Prop :=
  (i < length poly)%nat /\
  (deep_inside a b c (at_ pts (nth i poly 0%nat)) \/ deep_inside a c b (at_ pts (nth i poly 0%nat))) /\
  side (at_ pts (nth ((i + length poly - 1) mod length poly) poly 0%nat)) (at_ pts (nth i poly 0%nat))
       (at_ pts (nth ((i + 1) mod length poly) poly 0%nat)) < 0.
(* v is the blocking vertex nearest to a, or w if there is none *)
Definition nearest_corner (pts : list pt) (poly : list nat) (a b : pt) (w v : nat) : Prop :=
  let c := at_ pts (nth w poly 0%nat) in
  (b = c /\ v = w) \/
  (b <> c /\ ((v = w /\ forall i, ~ blocking pts poly a b c i) \/
              (blocking pts poly a b c v /\ forall i, blocking pts poly a b c i ->
                 sqdist2 a (at_ pts (nth v poly 0%nat)) <= sqdist2 a (at_ pts (nth i poly 0%nat))))).
(* the segments ab and cd cross in a point inside both *)
Definition cross (a b c d : pt) : Prop :=
  side a b c * side a b d < 0 /\ side c d a * side c d b < 0.
