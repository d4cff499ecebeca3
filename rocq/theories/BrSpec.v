(** Vocabulary for brackets: margins in the plane of y and z, and the faces of a mesh. *)
From Coq Require Import Reals ZArith List.
From Verif Require Import Num GeoModel GeoSpec MeshModel.
Import ListNotations.
Open Scope R_scope.

(* the faces that a mesh fills: outline and holes; moved and mirrored with the mesh *)
Fixpoint faces (m : @mesh Rnum) : list (list pt * list (list pt)) :=
  match m with
  | Fill e hs => [(e, hs)]
  | Plus m1 m2 => faces m1 ++ faces m2
  | Moved g m | Flipped g m => map (fun f => (map g (fst f), map (map g) (snd f))) (faces m)
  | MEmpty | Strip _ _ _ | Tris _ => []
  end.
Definition moved (v p : pt) : pt := P (X p + X v) (Y p + Y v) (Z p + Z v).
(* turned backward: o is 1 or -1 *)
Definition facing (o : R) (p : pt) : pt := P (X p) (o * Y p) (Z p).
(* how far p lies behind the line through a whose outward unit normal is (ny, nz) *)
Definition depth (ny nz : R) (a p : pt) : R := (Y a - Y p) * ny + (Z a - Z p) * nz.
(* how far p lies to the left of the line from a to b, in the plane where y points right and z up *)
Definition left_of (a b p : pt) : R :=
  ((Y b - Y a) * (Z p - Z a) - (Z b - Z a) * (Y p - Y a)) / sqrt ((Y b - Y a) * (Y b - Y a) + (Z b - Z a) * (Z b - Z a)).
(* a sketch of x and y, seen in the direction of x: its x axis points to the front *)
Definition upright (p : pt) : pt := P 0 (- X p) (Y p).
(* a regular hexagon with two level sides, by the distance of its sides *)
Definition hexagon (across : R) : list pt :=
  let r := across / sqrt 3 in
  [P (- r / 2) (across / 2) 0; P (- r) 0 0; P (- r / 2) (- across / 2) 0; P (r / 2) (- across / 2) 0; P r 0 0; P (r / 2) (across / 2) 0].
(* what % does with floats: the remainder has the sign of the divisor *)
Definition remainder (pmod : R -> R -> R) : Prop := forall x y, 0 < y -> 0 <= pmod x y < y /\ exists k : BinNums.Z, x = pmod x y + IZR k * y.
(* a drawing that hangs under the line from a to b: its height h lies on the line, up points to the right of the line's direction,
   and its y axis against it; k is the place of its origin along the line *)
Definition unit_y (a b : pt) : R := (Y b - Y a) / sqrt ((Y b - Y a) * (Y b - Y a) + (Z b - Z a) * (Z b - Z a)).
Definition unit_z (a b : pt) : R := (Z b - Z a) / sqrt ((Y b - Y a) * (Y b - Y a) + (Z b - Z a) * (Z b - Z a)).
Definition hung (a b : pt) (h k : R) (p : pt) : pt :=
  P (X p) (Y a + (k - Y p) * unit_y a b - (h - Z p) * unit_z a b) (Z a + (k - Y p) * unit_z a b + (h - Z p) * unit_y a b).
