(** Vocabulary for switch holes, over the reals and independent of KeyModel. *)
From Coq Require Import Reals List.
From Verif Require Import Num GeoModel EdgeModel GeoSpec.
Import ListNotations.
Open Scope R_scope.

(* the corners, counter-clockwise, of the rectangle with width w (along x) and depth d (along y) around the z axis, at height z *)
Definition rectangle (w d z : R) : list pt := [P (- (w / 2)) (d / 2) z; P (- (w / 2)) (- (d / 2)) z; P (w / 2) (- (d / 2)) z; P (w / 2) (d / 2) z].
(* half a turn and a quarter turn around the z axis *)
Definition half_turn (p : pt) : pt := P (- X p) (- Y p) (Z p).
Definition quarter_turn (p : pt) : pt := P (- Y p) (X p) (Z p).
(* the rectangle, its corners cut off by triangles with legs e that are put on outside *)
Definition flared (w d e z : R) : list pt :=
  let l := [P (- (w / 2)) (- (d / 2) - e) z; P (- (w / 2) - e) (- (d / 2)) z; P (- (w / 2) - e) (d / 2) z; P (- (w / 2)) (d / 2 + e) z] in
  l ++ map half_turn l.
(* the rectangle, with a trapezoid of width cw and depth cd, narrower by ct on both sides at its end, put on its back and on its front *)
Definition notched (w d cw cd ct z : R) : list pt :=
  let l := [P (cw / 2) (d / 2) z; P (cw / 2 - ct) (d / 2 + cd) z; P (- (cw / 2) + ct) (d / 2 + cd) z; P (- (cw / 2)) (d / 2) z; P (- (w / 2)) (d / 2) z; P (- (w / 2)) (- (d / 2)) z] in
  l ++ map half_turn l.
(* a triangle does not reach into the opening with width w and depth d: it is completely on the outer side of one of the four walls *)
Definition all3 (Q : pt -> Prop) (t : @tri Rnum) : Prop := Q (ta t) /\ Q (tb t) /\ Q (tc t).
Definition outside_opening (w d : R) (t : @tri Rnum) : Prop :=
  all3 (fun p => X p <= - (w / 2)) t \/ all3 (fun p => w / 2 <= X p) t \/ all3 (fun p => Y p <= - (d / 2)) t \/ all3 (fun p => d / 2 <= Y p) t.
Definition within (lo hi : R) (p : pt) : Prop := lo <= Z p <= hi.
