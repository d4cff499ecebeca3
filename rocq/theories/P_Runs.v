(** Concrete runs of the whole program in fixed point arithmetic.  They show that the hypotheses of C62, C65 to C67, C70, C72, C77, C82 and C103 are met:
    the results are computed once and then checked for all of these properties. *)
From Coq Require Import String Reals ZArith List Bool Arith.
From Verif Require Import Num Calc GeoModel EdgeModel ArcModel MeshModel MeshCheck KeyModel LayoutModel BossModel PlanModel BracketModel BumperModel PalmModel BodyModel FloorModel PcbModel
  PartSpec P_Layout P_Solid P_Plan P_Plan2 P_Palm P_Body P_Floor P_Offset P_Pcb.
Import ListNotations.
Open Scope Z_scope.

Definition if_ok {A} (r : res A) (f : A -> bool) : bool := match r with Ok a => f a | Err _ => false end.
Lemma if_ok_and {A} (r : res A) f g : if_ok r (fun a => f a && g a) = true -> if_ok r f = true /\ if_ok r g = true.
Proof. destruct r as [a|e]; cbn [if_ok]; [apply andb_prop|discriminate]. Qed.
Lemma if_ok_all {A B C} (r : res A) (k77 : A -> bool) (body : A -> res B) (k70 : B -> bool) (flr : A -> B -> res C) (k72 : C -> bool) (k82 : B -> C -> bool) :
  if_ok r (fun p => k77 p && if_ok (body p) (fun b => k70 b && if_ok (flr p b) (fun fl => k72 fl && k82 b fl))) = true ->
  if_ok r k77 = true /\ if_ok r (fun p => if_ok (body p) k70) = true /\ if_ok r (fun p => if_ok (body p) (fun b => if_ok (flr p b) k72)) = true /\
  if_ok r (fun p => if_ok (body p) (fun b => if_ok (flr p b) (k82 b))) = true.
Proof.
  destruct r as [p|e]; cbn [if_ok]; [|discriminate]. intros H. apply andb_prop in H. destruct H as [H1 H]. destruct (body p) as [b|e]; cbn [if_ok] in *; [|discriminate]. apply andb_prop in H. destruct H as [H2 H].
  destruct (flr p b) as [fl|e]; cbn [if_ok] in *; [|discriminate]. apply andb_prop in H. tauto.
Qed.

(** ** the default settings of the repository *)
Definition check62 (p : @plan Calc) : bool :=
  (vx (alnumOLBp (planPoints p)) - dq 675 100 <? 1000)%Z && (0 <? vx (ridgeORF (planPoints p)))%Z && (length (lall (planLayout p) SideRight) =? 35)%nat.
Definition check67 (p : @plan Calc) : bool :=
  match planHitch_ p with
  | Some ht => let u := vsub (hitchOLB ht) (hitchORB ht) in let v := vsub (bossPos (bossHitchL ht)) (bossPos (bossHitchR ht)) in
               let w := vsub (hitchOLF ht) (hitchORF ht) in
               (Z.abs (Z.sub (vmag v) (dq 50 1)) <? 1000)%Z && (dq 50 1 <? vmag u)%Z && (vmag w <? vmag u)%Z
               && (vz (pnormal (planThumbL p)) =? 0)%Z && (0 <? vx (pnormal (planThumbL p)))%Z && (0 <? vz (pnormal (alnumOT (pA (planPlanes p)))))%Z && (vx (ridgeORF (planPoints p)) <? vx (thumbOLBp (planPoints p)))%Z
  | None => false end.
(* C98: the walls meet at the rounded corners, outside and inside *)
Definition check98 (pn : @plan Calc) : bool :=
  let p := planPoints pn in let ps := planPlanes pn in let a := pA ps in
  let over (pl : @plane Calc) (v : @vec Calc) := (0 <? vdot (vsub v (ppos pl)) (pnormal pl))%Z in
  over (pinkyOF ps) (pinkyORBp p) && over (pinkyOR a) (thumbOLFp p) && over (pinkyIF ps) (pinkyIRBp p) && over (pinkyIR a) (thumbILFp p) &&
  over (pinkyOR a) (alnumORBp p) && over (alnumOB ps) (pinkyORFp p) && over (pinkyIR a) (alnumIRBp p) && over (alnumIB ps) (pinkyIRFp p) &&
  (vy (thumbOLFp p) <? vy (thumbORFp p))%Z && over (pinkyOF ps) (vyz (thumbOLFp p)) && (vy (thumbILFp p) <? vy (thumbIRFp p))%Z && over (pinkyIF ps) (vyz (thumbILFp p)).
Lemma run_default : if_ok (newPlan plan_default 20 SideRight) (fun p => check62 p && (check67 p && check98 p)) = true.
Proof. vm_cast_no_check (eq_refl true). Qed.
Example C62_nonvacuous : if_ok (newPlan plan_default 20 SideRight) check62 = true.
Proof. exact (proj1 (if_ok_and (newPlan plan_default 20 SideRight) check62 _ run_default)). Qed.
(* C65 to C67: a plan with a hitch, tented roofs and an upright thumb plane *)
Example C67_nonvacuous : if_ok (newPlan plan_default 20 SideRight) check67 = true.
Proof. exact (proj1 (if_ok_and (newPlan plan_default 20 SideRight) check67 check98 (proj2 (if_ok_and (newPlan plan_default 20 SideRight) check62 _ run_default)))). Qed.
Example C98_nonvacuous : if_ok (newPlan plan_default 20 SideRight) check98 = true.
Proof. exact (proj2 (if_ok_and (newPlan plan_default 20 SideRight) check67 check98 (proj2 (if_ok_and (newPlan plan_default 20 SideRight) check62 _ run_default)))). Qed.

(** ** a small keyboard with brackets, cable exit and encoder: plan, body, floor and footprint *)
Definition check70 (b : @BodyModel.body Calc) : bool :=
  forallb (no_shortb mu) (byShort b) && forallb (no_short_openb mu) (byOpen b) && sound_meshb fan_fill (byMesh b) &&
  match edges_of key_wide with Ok es => forallb (no_short_openb mu) es | Err _ => false end &&
  match byLine b with [f; r; s; k] => (vy f <? vy r) && (vy s <=? vy k) | _ => false end.
(* C103: the triangulated faces of the floor, each at one x or at one z *)
Fixpoint fills (m : @mesh Calc) : list (list (@vec Calc)) :=
  match m with
  | Fill e hs => [e ++ concat hs]
  | Plus a b => fills a ++ fills b
  | Moved g m | Flipped g m => map (map g) (fills m)
  | _ => []
  end.
Definition same_to (l : list Z) : bool := match l with x :: r => forallb (fun y => Z.abs (y - x) <=? dq 1 1000000) r | [] => true end.
Definition check103 (fl : @floorPart Calc) : bool :=
  forallb (fun l => same_to (map (@vx Calc) l) || same_to (map (@vz Calc) l)) (fills (flMesh fl)) && (length (fills (flMesh fl)) =? 9)%nat.
Definition check72 (fl : @floorPart Calc) : bool :=
  forallb runs_backb (flProfile fl) && forallb (no_shortb mu) (flShort fl) && forallb (fun e => negb (visClose (fst e) (snd e))) (flEnds fl) &&
  sound_meshb fan_fill (flMesh fl) && (length (flHexagons fl) =? 8)%nat && check103 fl.
Definition check82 (b : @BodyModel.body Calc) (fl : @floorPart Calc) : bool :=
  match flProfile fl with
  | [_; _; lipO; _; lipI; _; chamfer] => (length (outlineI b) =? 47)%nat && (length lipO =? 47)%nat && (length lipI =? 47)%nat &&
      parallelb (outlineI b) lipO (dq (-6) 10) && parallelb (outlineI b) lipI (dq (-147) 100) && uncrossedb lipO && uncrossedb lipI && uncrossedb chamfer
  | _ => false end.
Definition wide := plan_wide boss_default.
Definition wide_body (p : @plan Calc) := newBody q_mid (Some (P_Plan.deg 45 1)) cmod casin body_full p.
Definition wide_floor (p : @plan Calc) (b : @BodyModel.body Calc) := newFloor q_mid (Some (P_Plan.deg 45 1)) cmod floor_full 30 p b.
Definition if_some (o : option nat) (f : nat -> bool) : bool := match o with Some n => f n | None => false end.
Definition check77 (pr : @plan Calc) : bool := if_some (foot_len wide (Ok pr) (newPlan wide 20 SideLeft)) (Nat.ltb 1000).
Lemma run_wide : if_ok (newPlan wide 20 SideRight) (fun p => check77 p && if_ok (wide_body p) (fun b => check70 b && if_ok (wide_floor p b) (fun fl => check72 fl && check82 b fl))) = true.
Proof. vm_cast_no_check (eq_refl true). Qed.
Definition runs := if_ok_all (newPlan wide 20 SideRight) check77 wide_body check70 wide_floor check72 check82 run_wide.
Example C77_nonvacuous : if_ok (newPlan wide 20 SideRight) check77 = true.
Proof. exact (proj1 runs). Qed.
Example C70_nonvacuous : if_ok (newPlan wide 20 SideRight) (fun p => if_ok (wide_body p) check70) = true.
Proof. exact (proj1 (proj2 runs)). Qed.
(* the floor, with hexagonal holes, bumpers and brackets *)
Example C72_nonvacuous : if_ok (newPlan wide 20 SideRight) (fun p => if_ok (wide_body p) (fun b => if_ok (wide_floor p b) check72)) = true.
Proof. exact (proj1 (proj2 (proj2 runs))). Qed.
(* its lip: 47 corners, each on the parallels of its two sides of the inner outline (to 1e-6), no crossings and no short sides *)
Example C82_nonvacuous : if_ok (newPlan wide 20 SideRight) (fun p => if_ok (wide_body p) (fun b => if_ok (wide_floor p b) (check82 b))) = true.
Proof. exact (proj2 (proj2 (proj2 runs))). Qed.
(* the same keyboard with a steeper thumb cluster: the footprint is empty *)
Definition wide_steep : @plan_cfg Calc := @mkPlanCfg Calc key_wide layout_wide boss_default q_mid
  (P_Plan.deg 12 1) (P_Plan.deg (-3) 1) (P_Plan.deg 12 1) (P_Plan.deg 6 1) (P_Plan.deg 3 1) (P_Plan.deg (-48) 10) (P_Plan.deg 24 10) (P_Plan.deg 72 10) (dq 82 10) (dq 135 10) (dq 25 100)
  (dq 4 1) (dq 4 1) (dq 3 1) (dq 14 1) (dq 12 10) (dq 1 1) (dq 18 10) (dq 33 100) None.
Example C77_steep_nonvacuous : if_some (foot_len wide_steep (newPlan wide_steep 20 SideRight) (newPlan wide_steep 20 SideLeft)) (Nat.eqb 0) = true.
Proof. vm_cast_no_check (eq_refl true). Qed.
