(** Property C103: the faces of the floor are flat.  Read with FlatSpec.v, FloorSpec.v and BrSpec.v. *)
From Coq Require Import Reals Lra ZArith List Bool.
From Verif Require Import Num GeoModel EdgeModel EdgeSpec GeoSpec GeoMat ArcModel MeshModel LayoutModel BossModel PlanModel BracketModel BumperModel BodyModel FloorModel FloorSpec PartProof BrSpec FlatSpec FlatProof FlatRest FlatFloor Calc P_Layout P_Plan P_Body P_Floor P_Runs.
Import ListNotations.
Open Scope R_scope.

(* The floor of a finished body, for all settings with or without hexagons, bumpers, brackets and cable, if plan and floor agree on the outer
   height and the outlines of its walls run from the front to the back of the split: each face is flat, with its holes.  The only exception is the
   inner floor when there are brackets: there the points that are not at the height of the inner floor are on the split or on the side of the
   brackets; these are the feet of the brackets, whose lowest point is dropped when it is closer than a micron to the next one *)
Theorem C103_floor_flat : forall q (taper : option R) pmod pasin (c : @floor_cfg Rnum) (yc : @body_cfg Rnum) (pc : @plan_cfg Rnum) fuel pf sd pn bd fl,
  newPlan pc pf sd = Ok pn -> newBody q taper pmod pasin yc pn = Ok bd -> newFloor q taper pmod c fuel pn bd = Ok fl ->
  floorOuterHeight (bossCfg pc) = fl_outerHeight c -> Forall runs_back (flProfile fl) ->
  forall f, In f (faces (flMesh fl)) -> flat_face f \/
    exists b, fl_bracket c = Some b /\ forall p, In p (fst f ++ concat (snd f)) -> X p = 0 \/ X p = br_holeLength b + br_boreLength b \/ Z p = - fl_outerHeight c + fl_innerHeight c.
Proof.
  intros q taper pmod pasin c yc pc fuel pf sd pn bd fl HP HB HF HO RB f I.
  assert (OUT : zs 0 (outlineO bd) /\ zs 0 (outlineI bd)).
  { unfold newBody in HB. cbv zeta in HB. do 3 (match type of HB with (if ?x then _ else _) = _ => destruct x; [discriminate|] end).
    do 3 (apply bind_ok in HB; destruct HB as (? & _ & HB)). apply bind_ok in HB. destruct HB as ((((? & ?) & ?) & ?) & _ & HB). apply bind_ok in HB. destruct HB as (? & _ & HB). apply bind_ok in HB. destruct HB as (o & EO & HB).
    apply Ok_inj in HB. subst bd. cbn [outlineO outlineI]. unfold bodyOutlines in EO. cbv zeta in EO. apply bind_ok in EO. destruct EO as (hs & _ & EO). apply Ok_inj in EO. subst o. cbn [fst snd].
    assert (K : forall outl : list pt, zs 0 (collapsed (exy outl) mu)) by (intros outl; apply zs_collapsed; unfold exy; apply Forall_map, Forall_forall; intros p _; reflexivity).
    split; [apply K|apply zs_rev, K]. }
  destruct OUT as (O1 & O2). exact (proj1 (Forall_forall _ _) (floor_faces q taper pmod c fuel pc pf sd pn bd fl HP HO O1 O2 HF RB) f I).
Qed.
Print Assumptions C103_floor_flat.
(* so without brackets all faces are flat *)
Theorem C103_plain_floor_flat : forall q (taper : option R) pmod pasin (c : @floor_cfg Rnum) (yc : @body_cfg Rnum) (pc : @plan_cfg Rnum) fuel pf sd pn bd fl,
  newPlan pc pf sd = Ok pn -> newBody q taper pmod pasin yc pn = Ok bd -> newFloor q taper pmod c fuel pn bd = Ok fl ->
  floorOuterHeight (bossCfg pc) = fl_outerHeight c -> Forall runs_back (flProfile fl) -> fl_bracket c = None -> Forall flat_face (faces (flMesh fl)).
Proof.
  intros q taper pmod pasin c yc pc fuel pf sd pn bd fl HP HB HF HO RB N. apply Forall_forall. intros f I.
  destruct (C103_floor_flat q taper pmod pasin c yc pc fuel pf sd pn bd fl HP HB HF HO RB f I) as [K|(b & E & _)]; [exact K|congruence].
Qed.
Print Assumptions C103_plain_floor_flat.
(* the floor of C72 with hexagons, bumpers and brackets: plan and floor agree, and all of its 9 faces are flat, also the one with the feet *)
Open Scope Z_scope.
Example C103_nonvacuous : floorOuterHeight (bossCfg wide) = fl_outerHeight floor_full /\
  if_ok (newPlan wide 20 SideRight) (fun p => if_ok (wide_body p) (fun b => if_ok (wide_floor p b) check72)) = true /\
  forall fl, check72 fl = true -> forallb runs_backb (flProfile fl) && check103 fl = true.
Proof.
  split; [reflexivity|]. split; [exact C72_nonvacuous|]. intros fl H. unfold check72 in H. do 5 (apply andb_prop in H; destruct H as [H ?]). apply andb_true_intro. split; assumption.
Qed.
