(** Vocabulary for polygon areas and normals, over the reals. *)
From Coq Require Import Reals List.
From Verif Require Import Num GeoModel GeoSpec.
Import ListNotations.
Open Scope R_scope.

(* the right-handed vector product *)
Definition cross (p q : pt) : pt :=
  P (Y p * Z q - Z p * Y q) (Z p * X q - X p * Z q) (X p * Y q - Y p * X q).
(* every point with its successor, the last one with the first *)
Definition turn {A} (l : list A) : list A := match l with [] => [] | p :: r => r ++ [p] end.
Definition cyclic_pairs {A} (l : list A) : list (A * A) := combine l (turn l).
Definition rsum (l : list R) : R := fold_right Rplus 0 l.
Definition vsum (l : list pt) : pt := fold_right plus origin l.
(* twice the directed area of a polygon in space: for a flat polygon it is
   perpendicular to it, as long as twice the area, and the polygon runs
   counter-clockwise when seen from its tip *)
Definition area_vec (l : list pt) : pt := vsum (map (fun e => cross (fst e) (snd e)) (cyclic_pairs l)).
(* twice the signed area of the projection on the xy plane (shoelace formula) *)
Definition area_xy (l : list pt) : R := rsum (map (fun e => X (fst e) * Y (snd e) - Y (fst e) * X (snd e)) (cyclic_pairs l)).
(* all points in a plane with normal n *)
Definition planar (n : pt) (l : list pt) : Prop := forall p q, In p l -> In q l -> inner (minus p q) n = 0.
(* directed area (doubled) of a triangle of a mesh, and six times the signed
   volume of the cone from o over it *)
Definition tri_area (t : @tri Rnum) : pt := area_vec [ta t; tb t; tc t].
Definition mesh_area (ts : list (@tri Rnum)) : pt := vsum (map tri_area ts).
Definition mesh_volume (o : pt) (ts : list (@tri Rnum)) : R :=
  rsum (map (fun t => orient o (ta t) (tb t) (tc t)) ts).
