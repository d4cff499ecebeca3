(** Vocabulary for the chamfers of the body. *)
From Coq Require Import Reals List.
From Verif Require Import Num GeoModel GeoSpec EdgeModel MeshModel.
Import ListNotations.
Open Scope R_scope.

(* how far v lies to the left of the line from a to b, seen against the direction n *)
Definition left_of (n a b v : pt) : R := triple n (minus b a) (minus v b) / len (minus b a).
(* a, dropped along n onto the plane through b *)
Definition dropped (n b a : pt) : pt := minus a (scaled (inner (minus a b) n) n).
(* the cosine of the turn at b on the way from a to d *)
Definition turn_cos (a b d : pt) : R := inner (minus b a) (minus d b) / (len (minus b a) * len (minus d b)).
(* v lies in the plane through b with normal n, s to the left of the way from a to b and of the way from b to d; at an almost straight corner, only of the former *)
Definition chamfered (n : pt) (s : R) (a b d v : pt) : Prop :=
  let a' := dropped n b a in let d' := dropped n b d in
  inner (minus v b) n = 0 /\ a' <> b /\ d' <> b /\ left_of n a' b v = s /\
  (left_of n b d' v = s \/ (1 - eps < turn_cos a' b d' * turn_cos a' b d' /\ left_of n b d' v = s * turn_cos a' b d')).
(* the points ch run along the way from prev through all points of edge to next *)
Inductive rim (n : pt) (s : R) (next : pt) : pt -> list pt -> list pt -> Prop :=
| rim_nil prev : rim n s next prev [] []
| rim_cons prev b r v vs : chamfered n s prev b (hd next r) v -> rim n s next b r vs -> rim n s next prev (b :: r) (v :: vs).
(* v lies on the line through b and d, as far from the line through a and b as first *)
Definition carried (a b d first v : pt) : Prop := forall pl : @plane Rnum, wf_plane pl -> on_plane pl a -> on_plane pl b -> on_plane pl d -> on_plane pl first ->
  on_plane pl v /\ (exists k, v = plus b (scaled k (minus d b))) /\ left_of (pnormal pl) a b v = left_of (pnormal pl) a b first.
Definition lowered (s : R) (v : pt) : pt := P (X v) (Y v) (Z v - s).
(* m is a part of the mesh M *)
Inductive part_of (m : @mesh Rnum) : @mesh Rnum -> Prop :=
| part_here : part_of m m
| part_list l k : In k l -> part_of m k -> part_of m (meshes l).
(* the edge and its chamfer run along the plane pl, on the side of the body that n looks away from *)
Definition chamfer_run (pl : @plane Rnum) (n : pt) (s : R) (prev next : pt) (edge ch : list pt) : Prop :=
  length ch = length edge /\ Forall (on_plane pl) (edge ++ ch) /\ rim n s next prev edge ch.
(* v ends the chamfer ch, which runs along the plane pl and the edge from a to b, on the line through b and d *)
Definition chamfer_end (pl : @plane Rnum) (a b d first v : pt) : Prop :=
  on_plane pl v /\ (exists k, v = plus b (scaled k (minus d b))) /\ left_of (pnormal pl) a b v = left_of (pnormal pl) a b first.
(* the points of top lie in the plane face, each straight above (in the direction up) the one of bottom, which lies on the roof *)
Definition stepped (roof face : @plane Rnum) (up : pt) (bottom top : list pt) : Prop :=
  Forall2 (fun g t => on_plane roof g /\ on_plane face t /\ exists k, t = plus g (scaled k up)) bottom top.
Definition over (l arc : list pt) : Prop := Forall2 (fun g v => X v = X g /\ Y v = Y g) arc l.
