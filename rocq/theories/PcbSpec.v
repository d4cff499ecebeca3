(** What the theorems about the footprint say. *)
From Coq Require Import Reals List.
From Verif Require Import Num GeoModel GeoSpec KeyModel.
Import ListNotations.
Open Scope R_scope.

(* the same keys in the same order, and with the same orientation, each moved by v *)
Definition shifted (v : pt) (l0 l : list (@key Rnum)) : Prop :=
  Forall2 (fun k0 k => forall q, transformed q (kmatrix k) = plus (transformed q (kmatrix k0)) v) l0 l.
