(** Properties C70 and C71: the body of the keyboard is a closed solid; settings with bosses flush with the wall never give a body.
    Read with EdgeSpec.v (watertight), MeshSpec.v (sound_mesh) and PartSpec.v (no_short, no_short_open). *)
From Coq Require Import Reals Lra ZArith List Bool Arith Lia.
From Verif Require Import Num Calc GeoModel EdgeModel EdgeSpec GeoSpec GeoMat GeoPlane ArcModel FaceModel
  MeshModel MeshSpec MeshProof MeshCheck MeshFace KeyModel LayoutModel BossModel PlanModel BracketModel BumperModel PalmModel BodyModel
  PartSpec PartProof PalmProof BodyKeys BodyClosed P_Layout P_Solid P_Plan P_Palm.
Import ListNotations.
Open Scope R_scope.

(** ** C70 the body *)
(* the inner corners along the split line run from front to back: the front wall before the ridge, the step not behind the back wall *)
Definition split_in_order (line : list pt) : Prop :=
  exists front ridge step back, line = [front; ridge; step; back] /\ Y front < Y ridge /\ Y step <= Y back.
(* over the reals, for every plan (layout, angles, side) and all settings of the body, with or without brackets, cable exit, encoder
   and controller mount, with key holes with or without clip notch: if the strips have no slivers, the faces are triangulated exactly,
   and no two different neighbouring points of the edges that pass through collapsed() are closer than its threshold, the body
   with its key holes and screw threads is a closed mesh *)
Theorem C70_body_closed : forall fill h amax taper pmod pasin (c : @body_cfg Rnum) plc fuel sd pn b holeEdges ts,
  0 < h -> 0 < amax -> eps <= by_outerCornerRadius c - by_wallThickness c -> eps <= by_outerCornerRadius c ->
  newPlan plc fuel sd = Ok pn -> newBody (@mkQuality Rnum h amax) taper pmod pasin c pn = Ok b ->
  key_edges (keyCfg plc) = Ok holeEdges -> Forall (no_short_open mu) holeEdges ->
  Forall (no_short mu) (byShort b) -> Forall (no_short_open mu) (byOpen b) ->
  (by_bracket c <> None -> split_in_order (byLine b)) ->
  sound_mesh (exact_face fill) (byMesh b) -> eval fill (byMesh b) = Ok ts ->
  forall eqv, point_eq eqv -> watertight eqv ts.
Proof.
  intros fill h amax taper pmod pasin c plc fuel sd pn b es ts Hh Ha Hi Ho HP HB HE SK SS SO TL S E. apply (eval_watertight fill _ ts S E). intros f W.
  exact (body_bd h amax taper pmod pasin c plc fuel sd pn b es f Hh Ha Hi Ho HP HB HE SK SS SO TL W).
Qed.
Print Assumptions C70_body_closed.
(* with the triangulation of the program, it suffices that every face is triangulated completely *)
Theorem C70_body_closed_real : forall lt_inf ffuel sched h amax taper pmod pasin (c : @body_cfg Rnum) plc fuel sd pn b holeEdges ts,
  0 < h -> 0 < amax -> eps <= by_outerCornerRadius c - by_wallThickness c -> eps <= by_outerCornerRadius c ->
  newPlan plc fuel sd = Ok pn -> newBody (@mkQuality Rnum h amax) taper pmod pasin c pn = Ok b ->
  key_edges (keyCfg plc) = Ok holeEdges -> Forall (no_short_open mu) holeEdges ->
  Forall (no_short mu) (byShort b) -> Forall (no_short_open mu) (byOpen b) ->
  (by_bracket c <> None -> split_in_order (byLine b)) ->
  @sound_mesh Rnum (complete_face (triangulate lt_inf ffuel sched)) (byMesh b) -> eval (triangulate lt_inf ffuel sched) (byMesh b) = Ok ts ->
  forall eqv, point_eq eqv -> watertight eqv ts.
Proof.
  intros lt_inf ffuel sched h amax taper pmod pasin c plc fuel sd pn b es ts Hh Ha Hi Ho HP HB HE SK SS SO TL S E.
  apply (C70_body_closed (triangulate lt_inf ffuel sched) h amax taper pmod pasin c plc fuel sd pn b es ts); try assumption.
  apply (sound_mono _ _ _ (complete_exact lt_inf ffuel sched) S).
Qed.
Print Assumptions C70_body_closed_real.

(** ** C71 flush bosses *)
(* for every arithmetic and all settings: if the bosses protrude from the wall by less than a tenth of its thickness, the planner
   leaves out their wall edges, and the body, which needs them, always fails *)
Theorem C71_flush_boss_raises : forall (N : Num) q taper pmod pasin (c : @body_cfg N) plc fuel sd pn,
  let bc := bossCfg plc in
  nltb (nsub (nadd (nmul (ndiv (bossDiameter bc) (nZ 2)) (nZ 2)) (outerWallMargin bc)) (b_wallThickness bc)) (ndiv (b_wallThickness bc) (nZ 10)) = true ->
  newPlan plc fuel sd = Ok pn ->
  (let bs := planBoss pn in wallEdge (bossAlnumB bs) = [] /\ wallEdge (bossPinkyB bs) = [] /\ wallEdge (bossPinkyF bs) = [] /\ wallEdge (bossThumbF bs) = []) /\
  exists e, newBody q taper pmod pasin c pn = Err e.
Proof.
  intros N q taper pmod pasin c plc fuel sd pn bc HB HP.
  assert (E : forall q pos dir wd rp b, newBoss q (bossCfg plc) pos dir wd rp = Ok b -> wallEdge b = []).
  { intros q0 pos dir wd rp b H. unfold newBoss in H. grab H. destruct x as [|v l]; [|exfalso].
    - grabs H. destruct x as (((? & ?) & ?) & ?), x1 as (((? & ?) & ?) & ?). apply Ok_inj in H. subst b. reflexivity.
    - unfold bossWall in Q. cbv zeta in Q. destruct wd as [d|]; [|discriminate]. unfold bc in HB. rewrite HB in Q. discriminate. }
  assert (BS : let bs := planBoss pn in wallEdge (bossAlnumB bs) = [] /\ wallEdge (bossPinkyB bs) = [] /\ wallEdge (bossPinkyF bs) = [] /\ wallEdge (bossThumbF bs) = []).
  { unfold newPlan in HP. do 3 grab HP. grab HP. destruct x2 as (y & w). do 4 grab HP. destruct x5 as (((y' & ps) & tl) & pts). grab HP. grab HP. apply Ok_inj in HP. subst pn. cbn [planBoss].
    match goal with K : planBosses plc w ps = Ok _ |- _ => rename K into B end.
    unfold planBosses in B. destruct (wBoss w) as (((b1 & b2) & b3) & b4). cbv zeta in B. grabs B. apply Ok_inj in B. subst x5. cbn [bossAlnumB bossPinkyB bossPinkyF bossThumbF].
    repeat split; eapply E; eassumption. }
  split; [exact BS|]. destruct BS as (_ & B2 & _). unfold newBody. cbv zeta. destruct (nleb _ _); [eauto|]. destruct (nleb _ _); [eauto|]. destruct (nleb _ _); [eauto|].
  destruct (bodyCorners q c (planPoints pn) (pA (planPlanes pn)) (planBoss pn)) as [g|e] eqn:HG; [exfalso|exists e; reflexivity].
  unfold bodyCorners in HG. cbv zeta in HG. do 12 grab HG. rewrite B2 in HG. cbn [raised mapM bind] in HG.
  apply bind_ok in HG. destruct HG as (e1 & _ & HG). apply bind_ok in HG. destruct HG as (e3 & _ & HG). apply bind_ok in HG. destruct HG as (e4 & _ & HG). discriminate.
Qed.
Print Assumptions C71_flush_boss_raises.

(* Concrete cases, in fixed point arithmetic: a small keyboard (two rows, wide columns) with brackets, cable exit and encoder *)
Open Scope Z_scope.
Definition q_mid : @quality Calc := @mkQuality Calc (dq 5 10) (P_Plan.deg 60 1).
Definition key_wide : @key_cfg Calc := @mkKeyCfg Calc (dq 141 10) (dq 139 10) (dq 4 1) (dq 33 10) (dq 5 1) (dq 2 1) (dq 4 1) (dq 4 10)
  (Some (@mkClip Calc (dq 8 1) (dq 9 10) (dq 14 10) (Z.div fpi 3) false)) (dq 30 1) (dq 30 1) (dq 29 1) (dq 29 1).
Definition row_wide : list (list (@stagger Calc)) := [[n_ 0 1; n_ 0 1]; [n_ 48 10; n_ 72 10]; [n_ 72 10; n_ 48 10]; [n_ 0 1; n_ 0 1]].
Definition layout_wide : @layout_cfg Calc := @mkLayoutCfg Calc [row_wide; row_wide] [[dq 1 1; dq 125 100]; [dq 125 100; dq 1 1]]
  [[dq 0 1; dq 3 1]; [dq 3 1; dq 0 1]] [[dq 0 1; dq 48 10]; [dq 0 1; dq 48 10]].
Definition plan_wide (boss : @boss_cfg Calc) : @plan_cfg Calc := @mkPlanCfg Calc key_wide layout_wide boss q_mid
  (P_Plan.deg 12 1) (P_Plan.deg (-3) 1) (P_Plan.deg 12 1) (P_Plan.deg 3 1) (P_Plan.deg 3 1) (P_Plan.deg (-48) 10) (P_Plan.deg 24 10) (P_Plan.deg 72 10) (dq 82 10) (dq 135 10) (dq 25 100)
  (dq 4 1) (dq 4 1) (dq 3 1) (dq 14 1) (dq 12 10) (dq 1 1) (dq 18 10) (dq 33 100) None.
Definition bracket_default : @bracket_cfg Calc := @mkBracketCfg Calc (Some SideLeft) (dq 57 10) (dq 59 10) (dq 27 10) (dq 33 10) (dq 18 10) (dq 15 10) (P_Plan.deg 30 1) (dq 21 10) (dq 5 10) (dq 87 100) (dq 2 10) (dq 5 10) 0.
Definition cable_default : @cable_cfg Calc := @mkCableCfg Calc (dq 4 1) (dq 4 1) (dq 36 10) (dq 18 10) (dq 6 10) (dq 48 10) (dq 3 1) (dq 1 1) (P_Plan.deg 30 1) (dq 15 10).
Definition encoder_small : @encoder_cfg Calc := @mkEncoderCfg Calc (dq 3 1) (dq 3 1) (dq 5 10) (dq 2 1) (dq 1 1) (dq 4 10) (dq 2 1).
Definition body_full : @body_cfg Calc := @mkBodyCfg Calc (dq 4 1) (dq 1 1) (dq 2 1) (dq 10 1) (dq 3 1) (dq 12 10) (dq 6 10) (P_Plan.deg 3 1) (P_Plan.deg 3 1) (dq 5 1)
  (Some bracket_default) (Some cable_default) (Some encoder_small) None.
Definition cmod (a b : @num Calc) : @num Calc := Z.modulo a b.
Definition casin (x : @num Calc) : res (@num Calc) := Ok (fatan2 x (fsqrt (Z.max 0 (fone - fmul x x)))).
Definition edges_of (c : @key_cfg Calc) : res (list (list (@vec Calc))) := rmap (fun be => [entryEdge c; snd be]) (backMesh c).
(* C70_nonvacuous: see P_Runs.v *)
(* C71: bosses of 4.2 mm in a wall of 4 mm: the plan succeeds, the body does not *)
Definition boss_flush : @boss_cfg Calc := @mkBossCfg Calc (dq 4 1) (dq 4 1) (dq 3 1) (dq 2 10) None (dq 3 1) (dq 6 1) (dq 32 10) (dq 1 1) (dq 25 10) (dq 3 1) (dq 8 1) (dq 1 1) (dq 5 10).
Example C71_nonvacuous : match newPlan (plan_wide boss_flush) 20 SideRight with
  | Ok p => match newBody q_mid (Some (P_Plan.deg 45 1)) cmod casin body_full p with Err IndexErr => true | _ => false end
  | Err _ => false end = true.
Proof. vm_cast_no_check (eq_refl true). Qed.
