(** Vocabulary for the palm rest.  In its own frame the x axis runs along the front wall of the body, y = 0 is that wall
    and z = 0 is the seam between body and floor. *)
From Coq Require Import Reals List.
From Verif Require Import Num GeoModel GeoSpec ArcModel EdgeModel BossModel PlanModel PlanSpec2 BracketModel BumperModel PalmModel.
Import ListNotations.
Open Scope R_scope.

(* the point at distance r and direction t from ce, in the plane *)
Definition along (ce : pt) (r t : R) : pt := P (X ce + r * cos t) (Y ce + r * sin t) 0.

Section Profile.
Variable c : @palm_cfg Rnum.
(* the angle of the round roof: a right angle for roundness 1, none for roundness 0 *)
Definition roof_turn : R := PI / 2 * Rmax 0 (Rmin (pa_roundness c) 1).
(* the direction in which the back fillet ends and the roof starts *)
Definition roof_start : R := PI / 2 - roof_turn / 2 + pa_tiltAngle c.
(* the centres of the two fillets, and of the roof between them: the fillets are depth minus two radii apart (measured
   horizontally), on a line with the tilt angle *)
Definition back_centre : pt := P (- (pa_bodyMargin c + pa_roofFillet c)) (- pa_roofFillet c) 0.
Definition fillet_pitch : R := (pa_depth c - 2 * pa_roofFillet c) / cos (pa_tiltAngle c).
Definition front_centre : pt := P (X back_centre - fillet_pitch * cos (pa_tiltAngle c)) (Y back_centre - fillet_pitch * sin (pa_tiltAngle c)) 0.
Definition roof_radius : R := pa_roofFillet c + fillet_pitch / (2 * sin (roof_turn / 2)).
Definition roof_centre : pt := along back_centre (pa_roofFillet c - roof_radius) roof_start.
(* p (in the plane of y and height) lies on the curve that runs, i below the surface, around the back fillet, the roof and
   the front fillet: the three arcs have the same centres for all i *)
Definition profile (i : R) (p : pt) : Prop :=
  (exists t, 0 <= t <= roof_start /\ p = along back_centre (pa_roofFillet c - i) t) \/
  (0 < roof_turn /\ exists t, roof_start <= t <= roof_start + roof_turn /\ p = along roof_centre (roof_radius - i) t) \/
  (exists t, roof_start + roof_turn <= t <= PI /\ p = along front_centre (pa_roofFillet c - i) t).
(* v lies on the straight line along the palm rest, sloped by the tent angle, which crosses the profile at p; up is the height by
   which the whole roof is raised *)
Definition on_ruling (up : R) (p v : pt) : Prop :=
  Y v = X p /\ X v * sin (pa_tentAngle c) + (Z v - up) * cos (pa_tentAngle c) = Y p.

(** The box of the palm rest; o is half the length of the front wall. *)
(* half the width of the palm rest at y, measured at a right angle to its side: the sides are tapered and meet the front wall at its
   ends *)
Definition half_width (o y : R) : R := o * cos (pa_taperAngle c) + y * sin (pa_taperAngle c).
Definition footprint (o : R) (v : pt) : Prop :=
  X v * cos (pa_taperAngle c) <= half_width o (Y v) /\ - X v * cos (pa_taperAngle c) <= half_width o (Y v) /\
  - (pa_bodyMargin c + pa_depth c) <= Y v <= - pa_bodyMargin c.
Definition palm_box (o : R) (v : pt) : Prop := footprint o v /\ - pa_floorHeight c <= Z v <= pa_height c - pa_floorHeight c.
(* settings with which this makes sense: moderate angles, radii that fit, and a palm rest that is deep, high and wide enough for
   the notch that takes the hitch *)
Record sane_palm (o : R) : Prop := {
  sp_tilt : - (PI / 4) <= pa_tiltAngle c <= PI / 4;
  sp_tent : 0 <= pa_tentAngle c < PI / 2;
  sp_taper : 0 <= pa_taperAngle c < PI / 2;
  sp_fillet : pa_roofFillet c = 0 \/ eps <= pa_roofFillet c;
  sp_depth : 2 * pa_roofFillet c + eps <= pa_depth c;
  sp_floor : pa_floorFillet c = 0 \/ eps <= pa_floorFillet c;
  sp_contact : pa_floorFillet c <= pa_floorContact c;
  sp_height : 0 <= pa_floorHeight c /\ pa_floorHeight c + pa_floorFillet c <= pa_height c;
  sp_hitch : eps <= pa_hitchRadius c <= pa_hitchDepth c;
  sp_width : pa_floorContact c + pa_floorHeight c + pa_hitchRadius c <= half_width o (- (pa_bodyMargin c + pa_depth c)) }.
(* the rubber feet fit on the contact strip, and the clamps of the groove into the groove *)
Definition sane_feet (b : @bumper_cfg Rnum) : Prop :=
  eps <= bu_diameter b / 2 /\ bu_diameter b <= pa_floorContact c /\ 0 <= bu_margin b /\ 0 <= bu_height b <= pa_height c /\
  bu_margin b + bu_diameter b + (match pa_groove c with Some g => gr_roofMargin g + gr_height g | None => 0 end) <= pa_depth c.
Definition sane_groove (o : R) (g : @groove_cfg Rnum) : Prop :=
  0 <= gr_roofMargin g /\ gr_roofMargin g + gr_height g + eps <= pa_roofFillet c /\ 0 < gr_width g /\ gr_width g <= 2 * half_width o (- (pa_bodyMargin c + pa_depth c)) /\
  gr_relClamp g <= 1 /\ gr_height g <= pa_height c /\ 5 * gr_height g * sin (pa_taperAngle c) <= gr_width g.
(* a corner of the groove: above the footprint, and not above the height of the clamps, or on the profile roofMargin or roofMargin + height below the
   surface *)
Definition groove_corner (o up : R) (g : @groove_cfg Rnum) (v : pt) : Prop :=
  footprint o v /\ (- pa_floorHeight c <= Z v <= gr_height g - pa_floorHeight c \/
    exists p, (profile (gr_roofMargin g) p \/ profile (gr_roofMargin g + gr_height g) p) /\ on_ruling up p v).
(* the point v of the palm rest, placed before the front wall from a (right) to b (left) *)
Definition placed (a b v : pt) : pt := P (X (frame a b (- X v) (- Y v))) (Y (frame a b (- X v) (- Y v))) (Z v).
End Profile.

(** The hitch (plan.py), in the frame of the palm rest: half its width at y (compare C67), and its outline with round front corners: all points
    within r of the core, which lies r inside the two sides and the front. *)
Definition hitch_half (h : @hitch_cfg Rnum) (y : R) : R :=
  hitchScrewPitch h / 2 + hitchDepth h / 2 / cos (palmTaperAngle h) + (palmBodyMargin h + hitchDepth h / 2 + y) * (sin (palmTaperAngle h) / cos (palmTaperAngle h)).
Definition hitch_core (h : @hitch_cfg Rnum) (r : R) (k : pt) : Prop :=
  X k * cos (palmTaperAngle h) <= hitch_half h (Y k) * cos (palmTaperAngle h) - r /\ - X k * cos (palmTaperAngle h) <= hitch_half h (Y k) * cos (palmTaperAngle h) - r /\
  - (palmBodyMargin h + hitchDepth h) + r <= Y k.
Definition hitch_round (h : @hitch_cfg Rnum) (r : R) (w : pt) : Prop := exists k, hitch_core h r k /\ sqdist2 w k <= r * r.
(* the settings which plan and palm rest share *)
Definition same_palm (c : @palm_cfg Rnum) (h : @hitch_cfg Rnum) : Prop :=
  pa_taperAngle c = palmTaperAngle h /\ pa_bodyMargin c = palmBodyMargin h /\ pa_hitchDepth c = hitchDepth h.
