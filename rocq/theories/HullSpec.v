(** The region spanned by points in the xy plane. *)
From Coq Require Import Reals List.
From Verif Require Import Num GeoModel GeoSpec.
Import ListNotations.
Open Scope R_scope.

(* w is in the convex hull of the points: it is one of them, or lies between two points of the hull
   (only x and y count) *)
Inductive spanned (vs : list pt) : pt -> Prop :=
| sp_point v w : In v vs -> X w = X v -> Y w = Y v -> spanned vs w
| sp_between a b w : spanned vs a -> spanned vs b -> on_seg2 a b w -> spanned vs w.
