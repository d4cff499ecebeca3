(** Property C72: the floor of the keyboard is a closed solid.
    Read with EdgeSpec.v (watertight), MeshSpec.v (sound_mesh), PartSpec.v (no_short) and FloorSpec.v (runs_back, clear_end). *)
From Coq Require Import Reals Lra ZArith List Bool Arith Lia.
From Verif Require Import Num Calc GeoModel EdgeModel EdgeSpec GeoSpec GeoMat ArcModel FaceModel
  MeshModel MeshSpec MeshProof MeshCheck MeshFace KeyModel LayoutModel BossModel PlanModel BracketModel BumperModel PalmModel BodyModel FloorModel
  PartSpec PartProof PalmProof FloorSpec FloorClosed P_Layout P_Solid P_Plan P_Palm P_Body.
Import ListNotations.
Open Scope R_scope.

(** ** C72 the floor *)
(* over the reals, for every plan, every body with its outlines (also outlines that no body constructor makes) and all settings of the floor,
   with or without hexagonal holes, bumpers, brackets and cable: if the outlines of the wall profile run from the front to the back of the split plane,
   the strips have no slivers, the faces are triangulated exactly, no two different neighbouring points of the edges that pass through collapsed()
   are closer than its threshold, and the arches of the brackets meet the lip exactly or not at all, the floor with its holes and screw heads
   is a closed mesh *)
Theorem C72_floor_closed : forall fill q taper pmod (c : @floor_cfg Rnum) fuel plc pfuel sd pn bd fl ts,
  newPlan plc pfuel sd = Ok pn -> newFloor q taper pmod c fuel pn bd = Ok fl ->
  Forall runs_back (flProfile fl) -> Forall (no_short mu) (flShort fl) -> Forall clear_end (flEnds fl) ->
  sound_mesh (exact_face fill) (flMesh fl) -> eval fill (flMesh fl) = Ok ts ->
  forall eqv, point_eq eqv -> watertight eqv ts.
Proof.
  intros fill q taper pmod c fuel plc pfuel sd pn bd fl ts HP HF RB SS CE S E. apply (eval_watertight fill _ ts S E). intros f W.
  exact (floor_bd q taper pmod c fuel plc pfuel sd pn bd fl f HP HF SS CE RB W).
Qed.
Print Assumptions C72_floor_closed.
(* with the triangulation of the program, it suffices that every face is triangulated completely *)
Theorem C72_floor_closed_real : forall lt_inf ffuel sched q taper pmod (c : @floor_cfg Rnum) fuel plc pfuel sd pn bd fl ts,
  newPlan plc pfuel sd = Ok pn -> newFloor q taper pmod c fuel pn bd = Ok fl ->
  Forall runs_back (flProfile fl) -> Forall (no_short mu) (flShort fl) -> Forall clear_end (flEnds fl) ->
  @sound_mesh Rnum (complete_face (triangulate lt_inf ffuel sched)) (flMesh fl) -> eval (triangulate lt_inf ffuel sched) (flMesh fl) = Ok ts ->
  forall eqv, point_eq eqv -> watertight eqv ts.
Proof.
  intros lt_inf ffuel sched q taper pmod c fuel plc pfuel sd pn bd fl ts HP HF RB SS CE S E.
  apply (C72_floor_closed (triangulate lt_inf ffuel sched) q taper pmod c fuel plc pfuel sd pn bd fl ts); try assumption.
  apply (sound_mono _ _ _ (complete_exact lt_inf ffuel sched) S).
Qed.
Print Assumptions C72_floor_closed_real.

(* A concrete case, in fixed point arithmetic: the floor of the keyboard of C70, with hexagonal holes, bumpers and brackets *)
Open Scope Z_scope.
Definition hex_large : @hex_cfg Calc := @mkHexCfg Calc (dq 16 1) (dq 48 1) (dq 1 1) (dq (-22) 1) (dq (-12) 1) (dq 5 1) (dq 4 1).
Definition bracket_floor : @bracket_cfg Calc := @mkBracketCfg Calc (Some SideLeft) (dq 57 10) (dq 59 10) (dq 27 10) (dq 33 10) (dq 18 10) (dq 15 10)
  (P_Plan.deg 30 1) (dq 21 10) (dq 4 1) (dq 87 100) (dq 2 10) (dq 5 10) (dq 6 1).
Definition floor_full : @floor_cfg Calc := @mkFloorCfg Calc (dq 3 1) (dq 18 10) (dq 1 1) (dq 87 100) (dq 12 10) (dq 6 10)
  (Some hex_large) (Some (@mkBumperCfg Calc (dq 84 10) (dq 1 1) (dq 3 1))) (Some bracket_floor) None (dq 10 1).
Definition runs_backb (l : list (@vec Calc)) : bool :=
  match l with a :: _ :: _ => let b := last l a in (vx a =? 0) && (vx b =? 0) && (vy a <? vy b) | _ => false end.
(* C72_nonvacuous: see P_Runs.v *)
