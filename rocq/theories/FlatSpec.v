(** Vocabulary for C99: the faces that are handed to the triangulation lie in planes.  Read with BrSpec.v (faces). *)
From Coq Require Import Reals List.
From Verif Require Import Num GeoModel GeoSpec MeshModel LayoutModel BracketModel BumperModel BodyModel BrSpec.
Open Scope R_scope.

(* all points in one plane *)
Definition coplanar (l : list pt) : Prop := exists (n : pt) (r : R), unit_vec n /\ forall p, In p l -> inner p n = r.
(* the outline of the face and its holes *)
Definition flat_face (f : list pt * list (list pt)) : Prop := coplanar (fst f ++ concat (snd f)).

(* on the line from a to b, seen along x *)
Definition beside (a b p : pt) : Prop := (Y b - Y a) * (Z p - Z a) = (Z b - Z a) * (Y p - Y a).
(* The encoder stands on the ridge that falls from a to b, seen from the side, with a on the right of the split: the ridge runs from
   front to back, and it is either level or at a slope that is not hidden by the tolerance for directions (one millionth) *)
Definition ridge_seat (a b : pt) : Prop :=
  0 < X a * (Y b - Y a) /\ (Z a = Z b \/ eps * eps * ((Y b - Y a) * (Y b - Y a) + (Z b - Z a) * (Z b - Z a)) <= (Z b - Z a) * (Z b - Z a)).

(* sizes for the encoder, the brackets and the cable with which round parts can be drawn *)
Definition encoder_size (ec : @encoder_cfg Rnum) : Prop := eps <= en_holeDiameter ec / 2 /\ 0 <= en_holeChamfer ec <= en_holeHeight ec.
Definition cable_size (k : @cable_cfg Rnum) : Prop :=
  eps <= ca_diameter k / 2 /\ eps <= ca_minBendRadius k /\ (ca_bumpRadius k = 0 \/ eps <= ca_bumpRadius k) /\ ca_bumpRadius k <= ca_minBendRadius k /\
  (ca_exitFillet k = 0 \/ eps <= ca_exitFillet k) /\ 0 <= ca_bumpTaper k < PI / 2.
