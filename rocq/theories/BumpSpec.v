(** Vocabulary for corners with rounded edges, over the reals (C83). *)
From Coq Require Import Reals.
From Verif Require Import Num GeoModel GeoSpec EdgeSpecR.
Open Scope R_scope.

(* distance of y from the line through b and a, positive on the side where c is *)
Definition depth (a b c y : pt) : R := (if Rlt_dec 0 (side b a c) then 1 else -1) * side b a y / edist2 b a.
(* y is at least r inside the corner at b between the legs to a and to c *)
Definition in_corner (r : R) (a b c y : pt) : Prop := r <= depth a b c y /\ r <= depth c b a y.
(* the corner at b, rounded with the radius r, is the union of all discs with this radius that fit into the corner *)
Definition in_rounded (r : R) (a b c x : pt) : Prop := exists y, in_corner r a b c y /\ edist2 x y <= r.
