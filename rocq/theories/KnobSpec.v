(** Vocabulary for the knob: distances from its axis and directions around it. *)
From Coq Require Import Reals List.
From Verif Require Import Num GeoModel GeoSpec.
Import ListNotations.
Open Scope R_scope.

(* the distance of p from the z axis *)
Definition axial (p : pt) : R := sqrt (X p * X p + Y p * Y p).
(* seen from the z axis, p lies in direction t *)
Definition in_direction (p : pt) (t : R) : Prop := X p = axial p * cos t /\ Y p = axial p * sin t.
(* running along the points l, the direction seen from the axis starts at u, ends at v and never decreases:
   it only stays the same where the point stays the same *)
Definition sweeps (l : list pt) (u v : R) : Prop :=
  exists ts : list R, Forall2 in_direction l ts /\ hd 0 ts = u /\ last ts 0 = v /\
    forall i, (S i < length l)%nat ->
      nth i ts 0 < nth (S i) ts 0 \/ (nth i ts 0 = nth (S i) ts 0 /\ nth i l origin = nth (S i) l origin).
