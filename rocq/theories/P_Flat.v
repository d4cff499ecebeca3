(** C99: every face of the body that is handed to the triangulation is flat.  Read with FlatSpec.v. *)
From Coq Require Import Reals Lra ZArith List Bool Arith Lia.
From Verif Require Import Num Calc GeoModel EdgeModel GeoSpec GeoMat GeoRigid GeoPlane GeoCirc ArcModel MeshModel KeyModel LayoutModel LayoutProof BossModel PlanModel BracketModel BumperModel BodyModel PartProof PlanSpec PlanMove BodyFlat BodyReal BodyMade BrSpec CableProof FlatSpec FlatProof FlatRoof FlatPlates FlatEdges FlatBody.
From Verif Require Import LayoutSpec PlanTent P_Layout P_Plan P_Plan2 P_Solid P_Chamfer P_Palm P_Body P_Guard.
Import ListNotations.
Open Scope R_scope.

(* The triangulation works on faces seen along their largest normal component: what it makes of them closes up with the rest of the body only if
   they are flat.  In every body that is made from a plan, the outline and the holes of each face lie in one plane.
   - by_thumbTent and by_pinkyTent, holeHeight and p_roofThickness are the same settings, read by different parts of the program.
   - If thumb and pinky are tented differently, the inner faces at the alphanumeric keys and at the thumb keys are excluded: they are the
     ones with the corner alnumIRF.
   - If a cable leaves the body, the last point of the roof edge of the back bracket has to lie on the slope of the roof: it is dropped when
     it is closer than a micron to the next point of the bracket *)
Theorem C99_body_faces_flat : forall q (taper : option R) pmod pasin (c : @body_cfg Rnum) (pc : @plan_cfg Rnum) fuel sd pn b,
  newPlan pc fuel sd = Ok pn -> 0 <= bossDiameter (bossCfg pc) -> alnumTentAngle pc < thumbTentAngle pc + PI ->
  by_thumbTent c = thumbTentAngle pc -> by_pinkyTent c = pinkyTentAngle pc -> holeHeight (keyCfg pc) = p_roofThickness pc ->
  0 < maxChordAngle q -> 0 < maxChordHeight q -> (match taper with Some al => al < PI | None => True end) ->
  (forall bc, by_bracket c = Some bc -> eps <= br_cornerRadius bc) -> (forall cc, by_cable c = Some cc -> cable_size cc) -> (forall ec, by_encoder c = Some ec -> encoder_size ec) ->
  newBody q taper pmod pasin c pn = Ok b ->
  let p := planPoints pn in
  (by_encoder c <> None -> forall s, bodyStep q c p (pA (planPlanes pn)) = Ok s -> ridge_seat (ridgeORF p) (stOLF s)) ->
  (by_cable c <> None -> forall r, byBracketB b = Some r -> beside (nth 3 (byLine b) origin) (nth 2 (byLine b) origin) (last (cbRoof r) origin)) ->
  forall f, In f (faces (byMesh b)) -> thumbTentAngle pc = pinkyTentAngle pc \/ ~ In (alnumIRFp p) (fst f) -> flat_face f.
Proof.
  intros q taper pmod pasin c pc fuel sd pn b HP HD HT HTT HPT HH HA HC HTA HBR HCA HEN HB p HS HL.
  unfold newBody in HB. cbv zeta in HB. do 3 (match type of HB with (if ?x then _ else _) = _ => destruct x; [discriminate|] end).
  fold p in HB. apply bind_ok in HB. destruct HB as (g & EG & HB). apply bind_ok in HB. destruct HB as (st & EST & HB). apply bind_ok in HB. destruct HB as (k & EK & HB). apply bind_ok in HB. destruct HB as ((((em & ef) & eb) & eo) & EE & HB).
  apply bind_ok in HB. destruct HB as (rr & ER & HB). apply bind_ok in HB. destruct HB as (o & _ & HB). apply Ok_inj in HB. rewrite <- HB in HL |- *. cbn [byMesh byBracketB byLine] in HL |- *. clear HB.
  destruct (plan_shares _ _ _ _ HP) as (fac & EF & SH).
  assert (LN : nth 3 (rgLine rr) origin = alnumILBT k /\ nth 2 (rgLine rr) origin = stILF st).
  { clear - ER. unfold bodyRidge in ER. cbv zeta in ER. do 6 (apply bind_ok in ER; destruct ER as (? & _ & ER)). destruct (by_bracket c) as [bc|].
    - do 9 (apply bind_ok in ER; destruct ER as (? & _ & ER)). match type of ER with (if ?x then _ else _) = _ => destruct x; [discriminate|] end. do 2 (apply bind_ok in ER; destruct ER as (? & _ & ER)). match type of ER with (if ?x then _ else _) = _ => destruct x; [discriminate|] end.
      do 2 (apply bind_ok in ER; destruct ER as (? & _ & ER)). apply bind_ok in ER. destruct ER as (((((spc & wB) & wF) & cm) & op) & _ & ER). apply Ok_inj in ER. rewrite <- ER. split; reflexivity.
    - apply Ok_inj in ER. rewrite <- ER. split; reflexivity. }
  destruct LN as (L3 & L2).
  assert (YO : Y (alnumOLBC k) = Y (alnumOLBp p) /\ Y (alnumILBC k) = Y (alnumILBp p)).
  { clear - EK. unfold bodyChamfers in EK. cbv zeta in EK. repeat (apply bind_ok in EK; destruct EK as (? & _ & EK)). apply Ok_inj in EK. rewrite <- EK. cbn [alnumOLBC alnumILBC]. split; [apply (Rplus_0_r (Y (alnumOLBp p)))|apply (Rplus_0_r (Y (alnumILBp p)))]. }
  destruct YO as (YO & YI).
  assert (PLACE : forall ref, In ref (pinky (planLayout pn) SideBoth) -> exists pl, place_plane pl (kmatrix ref)).
  { intros ref I. destruct (roof_facts pc fuel sd pn HP HD) as ((_ & _ & WI) & _). destruct (C62_roofs pc fuel sd pn HP HD) as (_ & S2 & _). cbv zeta in S2. exists (pinkyOT (pA (planPlanes pn))). split; [exact WI|]. exact (S2 ref I). }
  destruct (plan_bosses pc fuel sd pn HP) as (M1 & M2 & M3 & M4).
  assert (ALL : Forall (fun f => (thumbTentAngle pc = pinkyTentAngle pc \/ ~ In (alnumIRFp p) (fst f)) -> flat_face f)
     (faces (meshes [stMesh st; bodyPlates p st k (alnum (planLayout pn) (planSide pn)) (pinky (planLayout pn) (planSide pn)) (lthumb (planLayout pn) (planSide pn)); em; rgMesh rr; fst (bodyWalls p g k rr (planBoss pn))]))).
  { assert (EASY : forall l, Forall flat_face l -> Forall (fun f => (thumbTentAngle pc = pinkyTentAngle pc \/ ~ In (alnumIRFp p) (fst f)) -> flat_face f) l) by (intros l Q; eapply Forall_impl; [|exact Q]; cbv beta; tauto).
    apply all_meshes. constructor; [|constructor; [|constructor; [|constructor; [|constructor; [|constructor]]]]].
    - clear - EST. unfold bodyStep in EST. cbv zeta in EST. repeat (apply bind_ok in EST; destruct EST as (? & _ & EST)). apply Ok_inj in EST. rewrite <- EST. constructor.
    - exact (plates_flat q c pc fuel sd pn HP HD HT HTT HPT g st k EG EST EK fac EF SH HH).
    - apply EASY. apply (encoder_faces q taper c HA HC HTA p st em ef eb eo EE). intros ec EQ. split; [exact (HEN ec EQ)|]. apply (HS ltac:(congruence) st EST).
    - apply EASY. apply (ridge_faces q taper pmod pasin c HA HC HTA) with (1 := fun bc E => conj (HBR bc E) HCA) (2 := ER); [exact YO|exact YI|exact PLACE|].
      intros b0 E0. destruct (by_cable c) as [cc|]; [right|left; reflexivity]. specialize (HL ltac:(discriminate) b0 E0). rewrite L3, L2 in HL. exact HL.
    - apply EASY. apply ground_faces; assumption. }
  intros f I C. rewrite Forall_forall in ALL. exact (ALL f I C).
Qed.
Print Assumptions C99_body_faces_flat.

(* the hypotheses: a right half with brackets, cable, encoder and the boss for the board, in fixed point arithmetic *)
Example C99_seat_nonvacuous : ridge_seat (P 10 0 20) (P 4 60 23).
Proof. unfold ridge_seat, eps, X, Y, Z, P. cbn [vx vy vz]. split; [lra|right; lra]. Qed.
Open Scope Z_scope.
Definition near0 (x : @num Calc) : bool := (Z.abs x <=? dq 1 1000000).
Definition besideb (a b p : @vec Calc) : bool := near0 (fmul (vy b - vy a) (vz p - vz a) - fmul (vz b - vz a) (vy p - vy a)).
Example C99_nonvacuous : match newPlan (plan_wide boss_default) 20 SideRight with
  | Ok p => match newBody q_mid (Some (P_Plan.deg 45 1)) cmod casin body_mount p, bodyStep q_mid body_mount (planPoints p) (pA (planPlanes p)) with
            | Ok b, Ok s => let a := ridgeORF (planPoints p) in
                (20 <? length (outlineI b))%nat && (0 <? vx a) && (vy a + dq 1 1 <? vy (stOLF s)) && (dq 1 10 <? Z.abs (vz a - vz (stOLF s))) &&
                match byBracketB b with Some r => besideb (nth 3 (byLine b) vzero) (nth 2 (byLine b) vzero) (last (cbRoof r) vzero) | None => false end
            | _, _ => false end
  | Err _ => false end = true.
Proof. vm_cast_no_check (eq_refl true). Qed.
