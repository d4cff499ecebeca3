(** More vocabulary for the planner theorems: angles, the left end of the thumb cluster, the ridge, the hitch of the palm rest. *)
From Coq Require Import Reals List ZArith.
From Verif Require Import Num GeoModel GeoSpec GeoRigid KeyModel LayoutModel PlanModel HullSpec PlanSpec.
Open Scope R_scope.

Section PlanSpec2.
Variable c : @plan_cfg Rnum.
(* tilted about the x axis, then split about the vertical axis *)
Definition turned (v : pt) : pt := rotZ_pt (splitAngle c) origin (rotX_pt (tiltAngle c) origin v).
(* the direction to the left of a wall that runs at an angle *)
Definition wall_normal (a : R) : pt := P (- sin a) (cos a) 0.
(* how far p lies ahead of o in direction w, seen from above *)
Definition ahead (w o p : pt) : R := X w * (X p - X o) + Y w * (Y p - Y o).
(* the direction to the back of a key, seen from above *)
Definition key_back (k : @key Rnum) : pt := let d := minus (transformed (P 0 1 0) (kmatrix k)) (transformed (P 0 0 0) (kmatrix k)) in P (X d) (Y d) 0.
(* the line along the left end of the thumb cluster *)
Definition thumb_edge (y : @layout Rnum) (l : @line Rnum) : Prop :=
  ground_line l /\
  (exists kl kr s, pyidx (lthumb y SideLeft) 0 = Ok kl /\ pyidx (lthumb y SideRight) 0 = Ok kr /\ 0 < s /\ plus (key_back kl) (key_back kr) = scaled s (ldir l)) /\
  (forall q, In q (flat_map kbounds (lthumb y SideBoth)) -> 0 <= beyond l q) /\ (exists q, In q (flat_map kbounds (lthumb y SideBoth)) /\ beyond l q = 0).
(* the front of the ridge, seen from above: o is the front end of the body's left edge, e the front end of the thumb roof's left side *)
Definition ridge_mid (o e : pt) : pt := P (X o * (1 - relRidgeTaper c)) (Y e + (Y o - Y e) * relRidgeTaper c) 0.
Definition ridge_front (thumbs : list pt) (l : @line Rnum) (o e r : pt) : Prop :=
  let m := ridge_mid o e in
  exists s v, ground_line s /\ lpos s = P (X o) (Y o) 0 /\
    (* s runs from o to m, or to some corner of a thumb key *)
    (exists k t, 0 < t /\ (k = m \/ In k thumbs) /\ X k - X o = t * X (ldir s) /\ Y k - Y o = t * Y (ldir s)) /\
    (* no thumb key crosses s, if all lie ahead *)
    (forall w, 0 < ahead w o m -> (forall q, In q thumbs -> 0 < ahead w o q) -> beyond s m <= 0 /\ forall q, In q thumbs -> beyond s q <= 0) /\
    on_line s v /\ on_line l v /\
    (* the leftmost of both *)
    (X r = X m /\ Y r = Y m /\ X m <= X v \/ X r = X v /\ Y r = Y v /\ X v <= X m).
(* the frame of the front wall: u to the left along the wall from its middle, w away from it *)
Definition frame (a b : pt) (x y : R) : pt :=
  let n := edist2 a b in let ux := (X b - X a) / n in let uy := (Y b - Y a) / n in
  P ((X a + X b) / 2 + x * ux - y * uy) ((Y a + Y b) / 2 + x * uy + y * ux) 0.
End PlanSpec2.
