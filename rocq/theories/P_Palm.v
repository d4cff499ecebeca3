(** Properties C68 and C69: the holes of a boss fit the faces they are cut into, the screw
    thread ends below the roof, and the palm rest is a closed solid.
    Read with EdgeSpec.v (bounds, watertight), MeshSpec.v (sound_mesh) and PartSpec.v (no_short). *)
From Coq Require Import Reals Lra ZArith List Bool Arith Lia.
From Verif Require Import Num Calc GeoModel EdgeModel EdgeSpec GeoSpec GeoMat GeoPlane ArcModel FaceModel
  MeshModel MeshSpec MeshProof MeshCheck MeshFace LayoutModel BossModel PlanModel BracketModel BumperModel PalmModel
  PartSpec PartProof PalmProof BossTip P_Layout P_Solid P_Plan.
Import ListNotations.
Open Scope R_scope.

(** ** C68 bosses *)
(* for every arithmetic: the passage of the screw head is bounded by the two holes, and the
   thread by its hole, each run backward: the faces that have these holes close them *)
Theorem C68_boss_bounds : forall (N : Num) fill q c pos dir wall roof b ts tt, newBoss q c pos dir wall roof = Ok b ->
  sound_mesh (exact_face fill) (bHead b) -> sound_mesh (exact_face fill) (bThread b) -> eval fill (bHead b) = Ok ts -> eval fill (bThread b) = Ok tt ->
  forall eqv, point_eq eqv ->
    bounds eqv ts [outline (rev (clearanceHole b)) true; outline (rev (headHole b)) true] /\ bounds eqv tt [outline (rev (threadHole b)) true].
Proof.
  intros N fill q c pos dir wall roof b ts tt H S1 S2 E1 E2 eqv Q. split.
  - apply (eval_bounds fill _ _ _ S1 E1); [|exact Q]. intros f W. rewrite (proj1 (boss_bd _ _ _ _ _ _ _ f H W)).
    cbn [fold_right]. change (walk f (outline (rev (clearanceHole b)) true)) with (loop f (rev (clearanceHole b))).
    change (walk f (outline (rev (headHole b)) true)) with (loop f (rev (headHole b))). rewrite !loop_rev by exact W. lia.
  - apply (eval_bounds fill _ _ _ S2 E2); [|exact Q]. intros f W. rewrite (proj2 (boss_bd _ _ _ _ _ _ _ f H W)).
    cbn [fold_right]. change (walk f (outline (rev (threadHole b)) true)) with (loop f (rev (threadHole b))). rewrite loop_rev by exact W. lia.
Qed.
Print Assumptions C68_boss_bounds.
(* over the reals, under a roof plane that faces up: the thread runs straight up and ends in a slanted disk parallel to
   the roof, on every point at least threadRoofMargin below the roof; its axis has the required length, as long as
   possible; so a boss that is too low makes the constructor fail *)
Theorem C68_thread_below_roof : forall q (c : @boss_cfg Rnum) (pos dir : pt) wall roof b, wf_plane roof -> 0 < GeoSpec.Z (pnormal roof) ->
  newBoss q c pos dir wall (Some roof) = Ok b ->
  exists (a0 a1 a2 : list pt) (tip : pt) (h : R), bThread b = threadMesh (a0, a1, a2, [tip]) /\ threadHole b = a0 /\
    Forall2 (fun p p' : pt => X p' = X p /\ Y p' = Y p) a1 a2 /\
    (forall p : pt, In p (tip :: a2) -> inner (minus p (ppos roof)) (pnormal roof) <= - threadRoofMargin c) /\
    on_plane roof (P (X pos) (Y pos) h) /\
    tip = P (X pos) (Y pos) (Rmin (maxThreadLength c) (h - threadRoofMargin c / GeoSpec.Z (pnormal roof))) /\
    (minThreadLength c : R) <= GeoSpec.Z tip <= (maxThreadLength c : R).
Proof.
  intros q c pos dir wall roof b U NZ H. unfold newBoss in H. grab H. grab H.
  apply bind_ok in H. destruct H as (tip & Ht & H). apply bind_ok in H. destruct H as (t & Ha & H).
  destruct x0 as (((h0 & h1) & h2) & h3). destruct t as (((a0 & a1) & a2) & a3). apply Ok_inj in H. subst b. cbn [bThread threadHole].
  destruct (tipPlane_spec c pos roof tip U NZ Ht) as (EN & h & OP & ET & ML).
  unfold threadArcs in Ha. cbv zeta in Ha. apply bind_ok in Ha. destruct Ha as (hole & _ & Ha). apply bind_ok in Ha. destruct Ha as (k & _ & Ha).
  apply bind_ok in Ha. destruct Ha as (l2 & H2 & Ha). apply Ok_inj in Ha.
  apply pair_inj in Ha. destruct Ha as (Ha & <-). apply pair_inj in Ha. destruct Ha as (Ha & <-). apply pair_inj in Ha. destruct Ha as (_ & E1). rewrite E1 in H2. clear E1.
  apply mapM_ok in H2. assert (F2 : Forall2 (fun p p' : pt => on_plane tip p' /\ X p' = X p /\ Y p' = Y p) a1 l2).
  { clear -H2. induction H2 as [|u v lu lv Hu F IH]; constructor; [|exact IH]. exact (projectZ_sound _ _ _ Hu). }
  exists a0, a1, l2, (ppos tip), h. split; [reflexivity|]. split; [reflexivity|]. split.
  { clear -F2. induction F2 as [|u v lu lv Hu F IH]; constructor; [apply Hu|exact IH]. }
  split; [|split; [exact OP|]; split; [exact ET|rewrite ET; unfold P, GeoSpec.Z; cbn [vz]; split; [exact ML|apply Rmin_l]]].
  assert (ZT : Rmin (maxThreadLength c) (h - threadRoofMargin c / GeoSpec.Z (pnormal roof)) <= h - threadRoofMargin c / GeoSpec.Z (pnormal roof)) by apply Rmin_r.
  intros p [<-|I].
  - apply (tip_distance roof (ppos tip) (ppos tip) _ h _ _ _ ET OP ZT NZ). destruct (ppos tip) as [u1 u2 u3], (pnormal roof) as [w1 w2 w3]. unfold inner, minus, P, X, Y, GeoSpec.Z. cbn [vx vy vz]. rn. ring.
  - apply (tip_distance roof (ppos tip) p _ h _ _ _ ET OP ZT NZ). rewrite <- EN.
    clear -F2 I. induction F2 as [|u v lu lv Hu F IH]; [destruct I|]. destruct I as [<-|I]; [apply Hu|exact (IH I)].
Qed.
Print Assumptions C68_thread_below_roof.

(** ** C69 the palm rest *)
(* for every arithmetic, triangulator, settings (with or without groove, clamps and bumpers) and plan: if the strips have no
   slivers, the faces are triangulated exactly, and no two different neighbouring points of the two side outlines are closer than
   the collapse distance, the palm rest with the threads of its two bosses is a closed mesh *)
Theorem C69_palm_closed : forall (N : Num) fill q c bumper plc h pts ht p ts, planHitch plc h pts = Ok ht ->
  newPalm q c bumper pts ht = Ok p -> no_short mu (paSideR p) -> no_short mu (paSideL p) ->
  sound_mesh (exact_face fill) (paMesh p) -> eval fill (paMesh p) = Ok ts ->
  forall eqv, point_eq eqv -> watertight eqv ts.
Proof.
  intros N fill q c bumper plc h pts ht p ts Hh H S1 S2 S E. apply (eval_watertight fill _ ts S E). intros f W.
  destruct (hitch_bosses plc h pts ht Hh) as (BL & BR).
  exact (palm_bd q c bumper pts ht p f H BL BR (palm_keeps q c bumper pts ht p fill H S) S1 S2 W).
Qed.
Print Assumptions C69_palm_closed.
(* over the reals, with the triangulation of the program, it suffices that every face is triangulated completely *)
Theorem C69_palm_closed_real : forall lt_inf fuel sched q c bumper plc h pts ht p ts, planHitch plc h pts = Ok ht ->
  newPalm q c bumper pts ht = Ok p -> no_short mu (paSideR p) -> no_short mu (paSideL p) ->
  @sound_mesh Rnum (complete_face (triangulate lt_inf fuel sched)) (paMesh p) -> eval (triangulate lt_inf fuel sched) (paMesh p) = Ok ts ->
  forall eqv, point_eq eqv -> watertight eqv ts.
Proof.
  intros lt_inf fuel sched q c bumper plc h pts ht p ts Hh H S1 S2 S E.
  apply (C69_palm_closed Rnum (triangulate lt_inf fuel sched) q c bumper plc h pts ht p ts Hh H S1 S2); [|exact E].
  apply (sound_mono _ _ _ (complete_exact lt_inf fuel sched) S).
Qed.
Print Assumptions C69_palm_closed_real.

(* Concrete cases, in fixed point arithmetic: the default palm rest with coarse arcs, triangulated by the program, without groove
   and bumpers; and with groove, clamps and bumpers, each face cut into a fan *)
Open Scope Z_scope.
Definition coarse : @quality Calc := @mkQuality Calc (dq 2 1) (P_Plan.deg 90 1).
Definition plan_coarse : @plan_cfg Calc := @mkPlanCfg Calc key_default layout_default boss_default coarse
  0 0 0 0 0 0 0 0 (dq 82 10) (dq 135 10) (dq 25 100) (dq 4 1) (dq 4 1) (dq 3 1) (dq 14 1) (dq 12 10) (dq 1 1) (dq 18 10) (dq 33 100) None.
Definition palm_points : @points Calc := let o := @vzero Calc in
  mkPoints o o o o o o o o o o o o o o o (@V Calc (dq 150 1) (dq (-30) 1) (dq 20 1)) o (@V Calc (dq 30 1) (dq (-60) 1) (dq 15 1)) o o.
Definition palm_default (g : option (@groove_cfg Calc)) : @palm_cfg Calc := @mkPalmCfg Calc (dq 3 1) (P_Plan.deg 72 10) (dq 15 10) (dq 24 1) (dq 1 1) (dq 15 1) (dq 15 1)
  (dq 5 1) (dq 80 1) (P_Plan.deg 3 1) (P_Plan.deg 6 1) (dq 2 10) (dq 6 1) g.
Definition palm_groove : @groove_cfg Calc := @mkGrooveCfg Calc (dq 10 1) (dq 18 10) (dq 25 10) (dq 5 10).
Definition palm_case (g : option (@groove_cfg Calc)) (b : option (@bumper_cfg Calc)) := ht <- planHitch plan_coarse (@mkHitchCfg Calc (dq 15 1) (dq 50 1) (dq 15 10) (P_Plan.deg 72 10)) palm_points ;;
  newPalm coarse (palm_default g) b palm_points ht.
Definition fan (e : list (@vec Calc)) : list (@tri Calc) := match e with a :: r => map (fun s => mkTri a (sa s) (sb s)) (segs_open r) | _ => [] end.
Definition fan_fill (e : list (@vec Calc)) (hs : list (list (@vec Calc))) : res (list (@tri Calc)) := Ok (fan e ++ concat (map fan hs)).
Example C69_nonvacuous : match palm_case None None with
  | Ok p => no_shortb mu (paSideR p) && no_shortb mu (paSideL p) && sound_meshb cfill (paMesh p) && match eval cfill (paMesh p) with Ok ts => (length ts =? 140)%nat | Err _ => false end
  | Err _ => false end = true.
Proof. vm_cast_no_check (eq_refl true). Qed.
Example C69_groove_nonvacuous : match palm_case (Some palm_groove) (Some (@mkBumperCfg Calc (dq 84 10) (dq 1 1) (dq 3 1))) with
  | Ok p => no_shortb mu (paSideR p) && no_shortb mu (paSideL p) && sound_meshb fan_fill (paMesh p)
  | Err _ => false end = true.
Proof. vm_cast_no_check (eq_refl true). Qed.
(* a boss of the default size under a sloped roof *)
Example C68_nonvacuous : match newBoss coarse boss_default vzero (@V Calc (dq 1 1) 0 0) None (Some (mkPlane (@V Calc 0 0 (dq 12 1)) (@V Calc 0 (dq 6 10) (dq 8 10)))) with
  | Ok b => sound_meshb fan_fill (bHead b) && sound_meshb fan_fill (bThread b) | Err _ => false end = true.
Proof. vm_cast_no_check (eq_refl true). Qed.
