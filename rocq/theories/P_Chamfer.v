(** Property C96: the chamfers of the body.  Read with ChamSpec.v.  All over the reals. *)
From Coq Require Import Reals Lra Psatz ZArith List Bool Arith Lia.
From Verif Require Import Num Calc GeoModel EdgeModel ArcModel GeoSpec GeoMat GeoRigid GeoPlane PartProof CableProof MeshModel KeyModel LayoutModel LayoutSpec BossModel PlanModel PlanSpec PlanSpec2 BracketModel BumperModel BodyModel BodyMade PlanMove
  P_Layout P_Plan P_Plan2 P_Body ChamSpec ChamProof.
Import ListNotations.
Open Scope R_scope.

(* the point that replaces a corner of an edge lies the size of the chamfer beside both of its sides *)
Theorem C96_chamfer_point : forall (a b d n v : pt) (s : R), unit_vec n -> chamferPoint a b d n s = Ok v -> chamfered n s a b d v.
Proof. intros a b d n v s U H. exact (chamfer_made a b d n s v U H). Qed.
Print Assumptions C96_chamfer_point.

Lemma turned_unit (c : @plan_cfg Rnum) v : unit_vec v -> unit_vec (turned c v).
Proof.
  intros U. unfold unit_vec in *. rewrite <- U. destruct v as [x y z]. unfold turned, rotZ_pt, rotX_pt, inner, origin, P, X, Y, Z. cbn [vx vy vz]. rn.
  pose proof (sin2_cos2 (splitAngle c)) as E1. pose proof (sin2_cos2 (tiltAngle c)) as E2. unfold Rsqr in *.
  set (cs := cos (splitAngle c)) in *. set (ss := sin (splitAngle c)) in *. set (ct := cos (tiltAngle c)) in *. set (st := sin (tiltAngle c)) in *.
  match goal with |- ?l = _ => replace l with ((ss * ss + cs * cs) * (x * x + (y * ct - z * st) * (y * ct - z * st)) + (y * st + z * ct) * (y * st + z * ct)) by ring end. rewrite E1.
  transitivity (x * x + (st * st + ct * ct) * (y * y + z * z)); [ring|]. rewrite E2. ring.
Qed.
Lemma neg_unit (v : pt) : unit_vec v -> unit_vec (vopp v).
Proof. intros U. unfold unit_vec in *. rewrite <- U. vr. ring. Qed.
Lemma raised_on pl l l' : raised pl l = Ok l' -> Forall2 (fun g v => on_plane pl v /\ X v = X g /\ Y v = Y g) l l'.
Proof. intros H. unfold raised in H. apply mapM_ok in H. induction H as [|g v l l' E H IH]; constructor; [|exact IH]. exact (projectZ_sound pl g v E). Qed.
Lemma part_in m l : In m l -> part_of m (meshes l).
Proof. intros I. apply (part_list _ l m I). constructor. Qed.
Lemma rim_len n s next prev e ch : rim n s next prev e ch -> length ch = length e.
Proof. induction 1; cbn [length]; [reflexivity|]. f_equal. assumption. Qed.
Lemma rim_on pl n s next prev e ch : n = pnormal pl \/ n = vopp (pnormal pl) -> rim n s next prev e ch -> Forall (on_plane pl) e -> Forall (on_plane pl) ch.
Proof.
  intros N. induction 1 as [prev|prev b r v vs C _ IH]; intros F; [constructor|]. inversion F as [|b' r' OB OR]. subst. constructor; [|exact (IH OR)].
  destruct C as (C & _). unfold on_plane in *. assert (Q : inner (minus v b) (pnormal pl) = 0).
  { destruct N as [->| ->]; [exact C|]. transitivity (- inner (minus v b) (vopp (pnormal pl))); [vr; ring|]. rewrite C. ring. }
  transitivity (inner (minus v b) (pnormal pl) + inner (minus b (ppos pl)) (pnormal pl)); [vr; ring|]. rewrite Q, OB. ring.
Qed.
Lemma raised_all pl l l' : raised pl l = Ok l' -> Forall (on_plane pl) l'.
Proof.
  intros H. apply raised_on in H. induction H as [|g v l l' (O & _) _ IH]; constructor; assumption.
Qed.
Lemma run_made pl n s prev next e ch : unit_vec n -> n = pnormal pl \/ n = vopp (pnormal pl) -> Forall (on_plane pl) e ->
  cornerChamfer prev e next n s = Ok ch -> chamfer_run pl n s prev next e ch.
Proof.
  intros U N O H. pose proof (rim_made n s next U e prev ch H) as R. split; [exact (rim_len _ _ _ _ _ _ R)|]. split; [|exact R].
  apply Forall_app. split; [exact O|]. exact (rim_on pl n s next prev e ch N R O).
Qed.
Lemma end_made (pl : @plane Rnum) a b d first v : wf_plane pl -> on_plane pl a -> on_plane pl b -> on_plane pl d -> on_plane pl first -> parallelChamfer a b d first = Ok v -> chamfer_end pl a b d first v.
Proof. intros W OA OB OD OF H. exact (carried_made a b d first v H pl W OA OB OD OF). Qed.
Lemma lower_list (l : list pt) s : etranslated l (@V Rnum 0 0 (- s)) = map (lowered s) l.
Proof. unfold etranslated. apply map_ext. intros v. unfold lowered, P, X, Y, Z, vadd. cbn [vx vy vz]. rn. f_equal; ring. Qed.
Lemma lower_one (v : pt) s : vadd v (@V Rnum 0 0 (- s)) = lowered s v.
Proof. unfold lowered, P, X, Y, Z, vadd. cbn [vx vy vz]. rn. f_equal; ring. Qed.
Lemma part_trans m k M : part_of m k -> part_of k M -> part_of m M.
Proof. intros H. induction 1 as [|l k' I P IH]; [exact H|]. exact (part_list m l k' I IH). Qed.

Section Body.
Variable q : @quality Rnum.
Variable taper : option R.
Variable pmod : R -> R -> R.
Variable pasin : R -> res R.
Variable c : @body_cfg Rnum.
(* the steps of newBody *)
Lemma body_steps pn b : newBody q taper pmod pasin c pn = Ok b ->
  exists g s k r encF encB w, bodyCorners q c (planPoints pn) (pA (planPlanes pn)) (planBoss pn) = Ok g /\ bodyStep q c (planPoints pn) (pA (planPlanes pn)) = Ok s /\
    bodyChamfers c (planPoints pn) (pA (planPlanes pn)) g s = Ok k /\ bodyRidge q taper pmod pasin c (planPoints pn) (planLayout pn) (planSide pn) s g k encF encB = Ok r /\
    w = bodyWalls (planPoints pn) g k r (planBoss pn) /\ part_of (fst w) (byMesh b) /\ part_of (stMesh s) (byMesh b).
Proof.
  intros H. unfold newBody in H. cbv zeta in H. do 3 match type of H with (if ?b then _ else _) = _ => destruct b; [discriminate|] end.
  apply bind_ok in H. destruct H as (g & E1 & H). apply bind_ok in H. destruct H as (s & E2 & H). apply bind_ok in H. destruct H as (k & E3 & H). apply bind_ok in H. destruct H as ((((em & ef) & eb) & eo) & E4 & H).
  apply bind_ok in H. destruct H as (r & E5 & H). apply bind_ok in H. destruct H as (o & _ & H). apply Ok_inj in H. rewrite <- H. cbn [byMesh]. clear H.
  exists g, s, k, r, ef, eb, (bodyWalls (planPoints pn) g k r (planBoss pn)). split; [exact E1|]. split; [exact E2|]. split; [exact E3|]. split; [exact E5|]. split; [reflexivity|].
  split; apply part_in; cbn [In]; auto 10.
Qed.
End Body.

(* the roofs of a plan *)
Lemma roof_facts (c : @plan_cfg Rnum) fuel side p : newPlan c fuel side = Ok p -> 0 <= bossDiameter (bossCfg c) ->
  let a := pA (planPlanes p) in
  (wf_plane (alnumOT a) /\ wf_plane (thumbOT a) /\ wf_plane (pinkyOT a)) /\ (pnormal (alnumIT a) = pnormal (alnumOT a) /\ pnormal (thumbIT a) = pnormal (thumbOT a) /\ pnormal (pinkyIT a) = pnormal (pinkyOT a)).
Proof.
  intros H D a. destruct (C65_plan_angles c fuel side p H D) as (N1 & N2 & N3 & _). fold a in N1, N2, N3. destruct (C62_roofs c fuel side p H D) as (_ & _ & _ & T1 & T2 & T3). fold a in T1, T2, T3.
  assert (F : forall t, unit_vec (turned c (P (sin t) 0 (cos t)))).
  { intros t. apply turned_unit. unfold unit_vec, inner, P, X, Y, Z. cbn [vx vy vz]. pose proof (sin2_cos2 t) as E. unfold Rsqr in E. lra. }
  assert (TH : forall d i o, thick d i o -> pnormal i = pnormal o).
  { intros d i o T. apply rise_normal. intros v w. rewrite !T. unfold rise. vr. ring. }
  split; [unfold wf_plane; rewrite N1, N2, N3; auto|]. split; [exact (TH _ _ _ T1)|]. split; [exact (TH _ _ _ T3)|exact (TH _ _ _ T2)].
Qed.

(* the outer edge of the roof, as drawn: along the front, the right side and the back, a band that ends in points beside the edge,
   above a band that ends the size of the chamfer below the edge; above the walls *)
Theorem C96_outer_chamfer : forall q (taper : option R) pmod pasin (c : @body_cfg Rnum) (pc : @plan_cfg Rnum) fuel sd pn b,
  newPlan pc fuel sd = Ok pn -> 0 <= bossDiameter (bossCfg pc) -> alnumTentAngle pc < thumbTentAngle pc + PI -> newBody q taper pmod pasin c pn = Ok b ->
  let p := planPoints pn in let a := pA (planPlanes pn) in let s := by_outerChamfer c in
  exists lf rf rb lf' rf' rb' e1 e2 e3 step,
    let edge := lf ++ thumbORFp p :: rf ++ rb ++ [alnumORBp p; alnumOLBp p] in
    let below_ := map (lowered s) edge in
    part_of (Strip below_ (lf' ++ e1 :: rf' ++ rb' ++ [e2; e3]) false) (byMesh b) /\ part_of (Strip (exy below_) below_ false) (byMesh b) /\
    lf <> [] /\ rf <> [] /\ rb <> [] /\
    chamfer_run (thumbOT a) (pnormal (thumbOT a)) s (vyz (thumbOLFp p)) (thumbORFp p) lf lf' /\
    chamfer_run (pinkyOT a) (pnormal (pinkyOT a)) s (thumbORFp p) (pinkyORBp p) rf rf' /\
    chamfer_run (pinkyOT a) (pnormal (pinkyOT a)) s (pinkyORFp p) (alnumORBp p) rb rb' /\
    chamfer_end (pinkyOT a) (pinkyORFp p) (thumbORFp p) (alnumORFp p) (hd vzero rf') e1 /\
    chamfer_end (pinkyOT a) (pinkyORBp p) (alnumORBp p) (alnumORFp p) (last rb' vzero) e2 /\
    chamfered (pnormal (alnumOT a)) (s * (5 / 4)) (ridgeORF p) (alnumOLFp p) (alnumORFp p) step /\
    chamfer_end (alnumOT a) (alnumORBp p) (alnumOLBp p) step e2 e3.
Proof.
  intros q taper pmod pasin c pc fuel sd pn b HP HD HT HB p a s.
  destruct (roof_facts pc fuel sd pn HP HD) as ((WA & WT & WI) & _). fold a in WA, WT, WI.
  destruct (C62_corners pc fuel sd pn HP HD) as ((_ & OLF) & (_ & OLB) & (_ & ORF) & (_ & ORB) & (_ & IRF) & (_ & IRB) & _ & _ & (_ & TRF) & RI & _). fold p a in OLF, OLB, ORF, ORB, IRF, IRB, TRF, RI.
  destruct (C65_plan_angles pc fuel sd pn HP HD) as (_ & _ & _ & _ & _ & _ & _ & _ & _ & _ & CB & CF). fold a in CB, CF.
  destruct (C65_creases pc fuel sd pn HP HD) as (_ & _ & _ & _ & CR). fold a in CR. specialize (CR HT).
  destruct OLF as (_ & _ & OLF). destruct OLB as (_ & _ & OLB). destruct ORF as (ORF1 & _ & ORF2). destruct ORB as (ORB1 & _ & ORB2). destruct IRF as (_ & _ & IRF). destruct IRB as (_ & _ & IRB). destruct TRF as (TRF1 & _ & TRF2).
  assert (ORF3 : on_plane (pinkyOT a) (alnumORFp p)) by (apply CR; assumption).
  assert (ORB3 : on_plane (pinkyOT a) (alnumORBp p)) by (change (rise (pinkyOT a) (alnumORBp p) = 0); rewrite <- (CB _ ORB1); exact ORB2).
  assert (TRF3 : on_plane (pinkyOT a) (thumbORFp p)) by (change (rise (pinkyOT a) (thumbORFp p) = 0); rewrite <- (CF _ TRF1); exact TRF2).
  destruct (body_steps _ _ _ _ _ _ _ HB) as (g & st & k & r & ef & eb & w & EG & ES & EK & ER & EW & PW & _). fold p a in EG, ES, EK, ER, EW.
  assert (NL : coLFT k <> []).
  { unfold bodyRidge in ER. cbv zeta in ER. apply bind_ok in ER. destruct ER as (? & _ & ER). apply bind_ok in ER. destruct ER as (? & _ & ER). apply bind_ok in ER. destruct ER as (o0 & EO0 & _). intros Q. rewrite Q in EO0. discriminate. }
  clear ER.
  unfold bodyStep in ES. cbv zeta in ES. apply bind_ok in ES. destruct ES as (sdir & _ & ES). apply bind_ok in ES. destruct ES as (ilf & _ & ES). apply bind_ok in ES. destruct ES as (olf & EO & ES).
  assert (SO : stOLF st = olf). { do 8 (apply bind_ok in ES; destruct ES as (? & _ & ES)). apply Ok_inj in ES. rewrite <- ES. reflexivity. }
  clear ES.
  unfold bodyCorners in EG. cbv zeta in EG. do 6 (apply bind_ok in EG; destruct EG as (? & _ & EG)).
  apply bind_ok in EG. destruct EG as (t1 & _ & EG). apply bind_ok in EG. destruct EG as (t2 & _ & EG). apply bind_ok in EG. destruct EG as (t3 & _ & EG).
  apply bind_ok in EG. destruct EG as (t4 & T4 & EG). apply bind_ok in EG. destruct EG as (t5 & T5 & EG). apply bind_ok in EG. destruct EG as (t6 & T6 & EG).
  apply raised_all in T4. apply raised_all in T5. apply raised_all in T6.
  assert (Q : oLFT g = t4 /\ oRFT g = t5 /\ oRBT g = t6).
  { do 4 (apply bind_ok in EG; destruct EG as (? & _ & EG)). apply bind_ok in EG. destruct EG as (? & _ & EG). apply bind_ok in EG. destruct EG as (? & _ & EG). match type of EG with (if ?x then _ else _) = _ => destruct x; [discriminate|] end.
    apply bind_ok in EG. destruct EG as (? & _ & EG). match type of EG with (if ?x then _ else _) = _ => destruct x; [discriminate|] end.
    apply bind_ok in EG. destruct EG as (? & _ & EG). apply bind_ok in EG. destruct EG as (? & _ & EG). match type of EG with (if ?x then _ else _) = _ => destruct x; [discriminate|] end.
    apply Ok_inj in EG. rewrite <- EG. split; [reflexivity|split; reflexivity]. }
  clear EG. destruct Q as (Q4 & Q5 & Q6).
  unfold bodyChamfers in EK. cbv zeta in EK. rewrite Q4, Q5, Q6 in EK. fold s in EK.
  apply bind_ok in EK. destruct EK as (lf' & E1 & EK). apply bind_ok in EK. destruct EK as (rf' & E2 & EK). apply bind_ok in EK. destruct EK as (rb' & E3 & EK).
  apply bind_ok in EK. destruct EK as (r0 & I0 & EK). apply bind_ok in EK. destruct EK as (j1 & J1 & EK). apply bind_ok in EK. destruct EK as (r1 & I1 & EK). apply bind_ok in EK. destruct EK as (j2 & J2 & EK). apply bind_ok in EK. destruct EK as (j3 & J3 & EK).
  do 7 (apply bind_ok in EK; destruct EK as (? & _ & EK)). do 5 (apply bind_ok in EK; destruct EK as (? & _ & EK)). apply Ok_inj in EK.
  rewrite SO in J3.
  exists t4, t5, t6, lf', rf', rb', j1, j2, j3, olf. cbv zeta.
  assert (KC : oLFC k ++ thumbORFC k :: oRFC k ++ oRBC k ++ [alnumORBC k; alnumOLBC k] = map (lowered s) (t4 ++ thumbORFp p :: t5 ++ t6 ++ [alnumORBp p; alnumOLBp p])).
  { rewrite <- EK. cbn [oLFC oRFC oRBC thumbORFC alnumORBC alnumOLBC]. fold s. rewrite !map_app. cbn [map]. rewrite !map_app. cbn [map].
    change (@nopp Rnum s) with (- s). change (@nZ Rnum 0) with 0. rewrite !lower_list, !lower_one. reflexivity. }
  assert (KT : coLFT k ++ thumbORFT k :: coRFT k ++ coRBT k ++ [alnumORBT k; alnumOLBT k] = lf' ++ j1 :: rf' ++ rb' ++ [j2; j3]).
  { rewrite <- EK. reflexivity. }
  assert (KL : coLFT k = lf') by (rewrite <- EK; reflexivity).
  rewrite EW in PW. unfold bodyWalls in PW. cbv zeta in PW. cbn [fst] in PW. rewrite KC, KT in PW.
  split; [eapply part_trans; [|exact PW]; apply part_in; cbn [In]; auto|]. split; [eapply part_trans; [|exact PW]; apply part_in; cbn [In]; auto|].
  assert (UT : unit_vec (pnormal (thumbOT a))) by exact WT. assert (UI : unit_vec (pnormal (pinkyOT a))) by exact WI. assert (UA : unit_vec (pnormal (alnumOT a))) by exact WA.
  pose proof (run_made _ _ _ _ _ _ _ UT (or_introl eq_refl) T4 E1) as R1. pose proof (run_made _ _ _ _ _ _ _ UI (or_introl eq_refl) T5 E2) as R2. pose proof (run_made _ _ _ _ _ _ _ UI (or_introl eq_refl) T6 E3) as R3.
  assert (NE : forall (pl : @plane Rnum) n xx yy zz (e ch : list pt), chamfer_run pl n xx yy zz e ch -> ch <> [] -> e <> []).
  { intros pl n xx yy zz e ch (L & _) N Z0. subst e. destruct ch; [exact (N eq_refl)|discriminate]. }
  assert (N2 : rf' <> []) by (intros Z0; rewrite Z0 in I0; discriminate). assert (N3 : rb' <> []) by (intros Z0; rewrite Z0 in I1; discriminate). rewrite KL in NL.
  split; [exact (NE _ _ _ _ _ _ _ R1 NL)|]. split; [exact (NE _ _ _ _ _ _ _ R2 N2)|]. split; [exact (NE _ _ _ _ _ _ _ R3 N3)|].
  split; [exact R1|]. split; [exact R2|]. split; [exact R3|].
  assert (H0 : r0 = hd vzero rf'). { apply first_is in I0. destruct I0 as (rr & I0). rewrite I0. reflexivity. }
  assert (H1 : r1 = last rb' vzero) by (symmetry; exact (end_is _ _ vzero I1)).
  assert (O0 : on_plane (pinkyOT a) r0). { destruct R2 as (_ & O & _). rewrite Forall_forall in O. apply O. apply in_or_app. right. apply first_is in I0. destruct I0 as (rr & I0). rewrite I0. left. reflexivity. }
  assert (O1 : on_plane (pinkyOT a) r1). { destruct R3 as (_ & O & _). rewrite Forall_forall in O. apply O. apply in_or_app. right. rewrite H1. destruct (exists_last N3) as (l & z & ->). rewrite last_last. apply in_or_app. right. left. reflexivity. }
  assert (K1 : chamfer_end (pinkyOT a) (pinkyORFp p) (thumbORFp p) (alnumORFp p) r0 j1) by (apply end_made; assumption).
  assert (K2 : chamfer_end (pinkyOT a) (pinkyORBp p) (alnumORBp p) (alnumORFp p) r1 j2) by (apply end_made; assumption).
  split; [rewrite <- H0; exact K1|]. split; [rewrite <- H1; exact K2|].
  assert (CS : chamfered (pnormal (alnumOT a)) (s * (5 / 4)) (ridgeORF p) (alnumOLFp p) (alnumORFp p) olf) by exact (chamfer_made _ _ _ _ _ _ UA EO).
  split; [exact CS|].
  assert (OS : on_plane (alnumOT a) olf).
  { destruct CS as (C & _). unfold on_plane in *. transitivity (inner (minus olf (alnumOLFp p)) (pnormal (alnumOT a)) + inner (minus (alnumOLFp p) (ppos (alnumOT a))) (pnormal (alnumOT a))); [vr; ring|]. rewrite C, OLF. ring. }
  assert (OJ : on_plane (alnumOT a) j2).
  { destruct K2 as (_ & (kk & EK2) & _). unfold on_plane in *. rewrite EK2.
    transitivity ((1 - kk) * inner (minus (alnumORBp p) (ppos (alnumOT a))) (pnormal (alnumOT a)) + kk * inner (minus (alnumORFp p) (ppos (alnumOT a))) (pnormal (alnumOT a))); [vr; ring|]. rewrite ORB2, ORF2. ring. }
  apply end_made; assumption.
Qed.
Print Assumptions C96_outer_chamfer.

(* the inner edge of the roof: along the back, the right side and the front, as seen from below; v and w are where the brackets (or the split) begin.
   If the tents of the thumb cluster and of the pinky keys differ, then the last point before them is not in the plane of the alphanumeric roof *)
Theorem C96_inner_chamfer : forall q (taper : option R) pmod pasin (c : @body_cfg Rnum) (pc : @plan_cfg Rnum) fuel sd pn b,
  newPlan pc fuel sd = Ok pn -> 0 <= bossDiameter (bossCfg pc) -> by_thumbTent c = thumbTentAngle pc -> by_pinkyTent c = pinkyTentAngle pc -> newBody q taper pmod pasin c pn = Ok b ->
  let p := planPoints pn in let a := pA (planPlanes pn) in let s := by_innerChamfer c in
  let down pl := vopp (pnormal pl) in
  exists mb mpb rb rf mpf mf lf mb' mpb' rb' rf' mpf' mf' lf' e1 e2 e3 step v w,
    let below_ := v :: map (lowered s) (alnumILBp p :: mb ++ alnumIRBp p :: mpb ++ rb ++ rf ++ mpf ++ thumbIRFp p :: mf ++ lf) in
    part_of (Strip below_ (w :: e1 :: mb' ++ e2 :: mpb' ++ rb' ++ rf' ++ mpf' ++ e3 :: mf' ++ lf') false) (byMesh b) /\ part_of (Strip (exy (tl below_)) (tl below_) false) (byMesh b) /\
    rb <> [] /\ rf <> [] /\ lf <> [] /\
    chamfer_run (alnumIT a) (down (alnumIT a)) s (alnumILBp p) (alnumIRBp p) mb mb' /\
    chamfer_run (pinkyIT a) (down (pinkyIT a)) s (alnumIRBp p) (pinkyIRBp p) mpb mpb' /\
    chamfer_run (pinkyIT a) (down (pinkyIT a)) s (alnumIRBp p) (pinkyIRFp p) rb rb' /\
    chamfer_run (pinkyIT a) (down (pinkyIT a)) s (pinkyIRBp p) (thumbIRFp p) rf rf' /\
    chamfer_run (pinkyIT a) (down (pinkyIT a)) s (pinkyIRFp p) (thumbIRFp p) mpf mpf' /\
    chamfer_run (thumbIT a) (down (thumbIT a)) s (thumbIRFp p) (thumbILFp p) mf mf' /\
    chamfer_run (thumbIT a) (down (thumbIT a)) s (thumbIRFp p) (vyz (thumbILFp p)) lf lf' /\
    (exists d, (d = alnumIRFp p \/ d = thumbIRFp p) /\ chamfer_end (pinkyIT a) (pinkyIRBp p) (alnumIRBp p) d (hd vzero rb') e2) /\
    (exists d, (d = alnumIRFp p \/ d = alnumIRBp p) /\ chamfer_end (pinkyIT a) (pinkyIRFp p) (thumbIRFp p) d (last rf' vzero) e3) /\
    chamfered (pnormal (alnumIT a)) (s * (5 / 4)) (ridgeIRF p) (alnumILFp p) (alnumIRFp p) step /\
    (thumbTentAngle pc = pinkyTentAngle pc -> chamfer_end (alnumIT a) (alnumIRBp p) (alnumILBp p) step e2 e1).
Proof.
  intros q taper pmod pasin c pc fuel sd pn b HP HD HTT HPT HB p a s down.
  destruct (roof_facts pc fuel sd pn HP HD) as ((WA & WT & WI) & (NA & NT & NI)). fold a in WA, WT, WI, NA, NT, NI.
  destruct (C62_corners pc fuel sd pn HP HD) as ((OLF & _) & (OLB & _) & (ORF & _) & (ORB & _) & (IRF & _) & (IRB & _) & _ & _ & (TRF & _) & RI & _). fold p a in OLF, OLB, ORF, ORB, IRF, IRB, TRF, RI.
  destruct (C65_creases pc fuel sd pn HP HD) as (CB & CF & SAME & _). fold a in CB, CF, SAME.
  destruct OLF as (_ & _ & OLF). destruct OLB as (_ & _ & OLB). destruct ORF as (ORF1 & _ & ORF2). destruct ORB as (ORB1 & _ & ORB2). destruct IRF as (_ & _ & IRF). destruct IRB as (_ & _ & IRB). destruct TRF as (TRF1 & _ & TRF2).
  assert (ORB3 : on_plane (pinkyIT a) (alnumIRBp p)) by (change (rise (pinkyIT a) (alnumIRBp p) = 0); rewrite <- (CB _ ORB1); exact ORB2).
  assert (TRF3 : on_plane (pinkyIT a) (thumbIRFp p)) by (change (rise (pinkyIT a) (thumbIRFp p) = 0); rewrite <- (CF _ TRF1); exact TRF2).
  assert (ORF3 : thumbTentAngle pc = pinkyTentAngle pc -> on_plane (pinkyIT a) (alnumIRFp p)).
  { intros EQ. destruct (SAME EQ (alnumIRFp p)) as (_ & ES). change (rise (pinkyIT a) (alnumIRFp p) = 0). rewrite <- ES. exact ORF1. }
  destruct (body_steps _ _ _ _ _ _ _ HB) as (g & st & k & r & ef & eb & w & EG & ES & EK & ER & EW & PW & _). fold p a in EG, ES, EK, ER, EW.
  assert (NL : ciLFT k <> []).
  { unfold bodyRidge in ER. cbv zeta in ER. do 5 (apply bind_ok in ER; destruct ER as (? & _ & ER)). apply bind_ok in ER. destruct ER as (o0 & EO0 & _). intros Q. rewrite Q in EO0. discriminate. }
  clear ER.
  unfold bodyStep in ES. cbv zeta in ES. apply bind_ok in ES. destruct ES as (sdir & _ & ES). apply bind_ok in ES. destruct ES as (ilf & EI & ES). apply bind_ok in ES. destruct ES as (olf & _ & ES).
  assert (SI : stILF st = ilf). { do 8 (apply bind_ok in ES; destruct ES as (? & _ & ES)). apply Ok_inj in ES. rewrite <- ES. reflexivity. }
  clear ES.
  unfold bodyCorners in EG. cbv zeta in EG. do 6 (apply bind_ok in EG; destruct EG as (? & _ & EG)).
  apply bind_ok in EG. destruct EG as (t1 & T1 & EG). apply bind_ok in EG. destruct EG as (t2 & T2 & EG). apply bind_ok in EG. destruct EG as (t3 & T3 & EG). do 3 (apply bind_ok in EG; destruct EG as (? & _ & EG)).
  apply bind_ok in EG. destruct EG as (u1 & U1 & EG). apply bind_ok in EG. destruct EG as (u2 & U2 & EG). apply bind_ok in EG. destruct EG as (u3 & U3 & EG). apply bind_ok in EG. destruct EG as (u4 & U4 & EG).
  apply raised_all in T1. apply raised_all in T2. apply raised_all in T3. apply raised_all in U1. apply raised_all in U2. apply raised_all in U3. apply raised_all in U4.
  assert (Q : (iLFT g = t1 /\ iRFT g = t2 /\ iRBT g = t3) /\ (eLB g = u1 /\ eRB g = u2 /\ eRF g = u3 /\ eLF g = u4)).
  { apply bind_ok in EG. destruct EG as (? & _ & EG). apply bind_ok in EG. destruct EG as (? & _ & EG). match type of EG with (if ?x then _ else _) = _ => destruct x; [discriminate|] end.
    apply bind_ok in EG. destruct EG as (? & _ & EG). match type of EG with (if ?x then _ else _) = _ => destruct x; [discriminate|] end.
    apply bind_ok in EG. destruct EG as (? & _ & EG). apply bind_ok in EG. destruct EG as (? & _ & EG). match type of EG with (if ?x then _ else _) = _ => destruct x; [discriminate|] end.
    apply Ok_inj in EG. rewrite <- EG. repeat split. }
  clear EG. destruct Q as ((Q1 & Q2 & Q3) & (Q4 & Q5 & Q6 & Q7)).
  unfold bodyChamfers in EK. cbv zeta in EK. rewrite Q1, Q2, Q3, Q4, Q5, Q6, Q7 in EK. fold s in EK. rewrite SI in EK.
  do 3 (apply bind_ok in EK; destruct EK as (? & _ & EK)). apply bind_ok in EK. destruct EK as (? & _ & EK). apply bind_ok in EK. destruct EK as (? & _ & EK). apply bind_ok in EK. destruct EK as (? & _ & EK). apply bind_ok in EK. destruct EK as (? & _ & EK). apply bind_ok in EK. destruct EK as (? & _ & EK).
  apply bind_ok in EK. destruct EK as (lb & E1 & EK). apply bind_ok in EK. destruct EK as (rb & E2 & EK). apply bind_ok in EK. destruct EK as (rf & E3 & EK). apply bind_ok in EK. destruct EK as (lf & E4 & EK).
  apply bind_ok in EK. destruct EK as (irb & E5 & EK). apply bind_ok in EK. destruct EK as (irf & E6 & EK). apply bind_ok in EK. destruct EK as (ilf' & E7 & EK).
  apply bind_ok in EK. destruct EK as (r0 & I0 & EK). apply bind_ok in EK. destruct EK as (r1 & I1 & EK). apply bind_ok in EK. destruct EK as (j2 & J2 & EK). apply bind_ok in EK. destruct EK as (j1 & J1 & EK). apply bind_ok in EK. destruct EK as (j3 & J3 & EK). apply Ok_inj in EK.
  exists u1, u2, t3, t2, u3, u4, t1, lb, rb, irb, irf, rf, lf, ilf', j1, j2, j3, ilf, (rgWall r), (rgRoof r). cbv zeta. cbn [tl].
  assert (KC : alnumILBC k :: eLBC k ++ alnumIRBC k :: eRBC k ++ iRBC k ++ iRFC k ++ eRFC k ++ thumbIRFC k :: eLFC k ++ iLFC k = map (lowered s) (alnumILBp p :: u1 ++ alnumIRBp p :: u2 ++ t3 ++ t2 ++ u3 ++ thumbIRFp p :: u4 ++ t1)).
  { rewrite <- EK. cbn [alnumILBC eLBC alnumIRBC eRBC iRBC iRFC eRFC thumbIRFC eLFC iLFC]. fold s. cbn [map]. rewrite !map_app. cbn [map]. rewrite !map_app. cbn [map]. rewrite !map_app.
    change (@nopp Rnum s) with (- s). change (@nZ Rnum 0) with 0. rewrite !lower_list, !lower_one. reflexivity. }
  assert (KT : alnumILBT k :: eLBT k ++ alnumIRBT k :: eRBT k ++ ciRBT k ++ ciRFT k ++ eRFT k ++ thumbIRFT k :: eLFT k ++ ciLFT k = j1 :: lb ++ j2 :: rb ++ irb ++ irf ++ rf ++ j3 :: lf ++ ilf').
  { rewrite <- EK. reflexivity. }
  assert (KL : ciLFT k = ilf') by (rewrite <- EK; reflexivity).
  rewrite EW in PW. unfold bodyWalls in PW. cbv zeta in PW. cbn [fst] in PW. rewrite KC, KT in PW.
  split; [eapply part_trans; [|exact PW]; apply part_in; cbn [In]; auto|]. split; [eapply part_trans; [|exact PW]; apply part_in; cbn [In]; auto 6|].
  assert (DT : vopp (pnormal (thumbOT a)) = down (thumbIT a)) by (unfold down; rewrite NT; reflexivity). assert (DI : vopp (pnormal (pinkyOT a)) = down (pinkyIT a)) by (unfold down; rewrite NI; reflexivity). assert (DA : vopp (pnormal (alnumOT a)) = down (alnumIT a)) by (unfold down; rewrite NA; reflexivity).
  rewrite DT in *. rewrite DI in *. rewrite DA in *.
  assert (UT : unit_vec (down (thumbIT a))) by (apply neg_unit; rewrite NT; exact WT). assert (UI : unit_vec (down (pinkyIT a))) by (apply neg_unit; rewrite NI; exact WI). assert (UA : unit_vec (down (alnumIT a))) by (apply neg_unit; rewrite NA; exact WA).
  assert (WI' : wf_plane (pinkyIT a)) by (unfold wf_plane; rewrite NI; exact WI). assert (WA' : wf_plane (alnumIT a)) by (unfold wf_plane; rewrite NA; exact WA).
  pose proof (run_made _ _ _ _ _ _ _ UA (or_intror eq_refl) U1 E1) as R1. pose proof (run_made _ _ _ _ _ _ _ UI (or_intror eq_refl) U2 E2) as R2. pose proof (run_made _ _ _ _ _ _ _ UI (or_intror eq_refl) U3 E3) as R3. pose proof (run_made _ _ _ _ _ _ _ UT (or_intror eq_refl) U4 E4) as R4.
  pose proof (run_made _ _ _ _ _ _ _ UI (or_intror eq_refl) T3 E5) as R5. pose proof (run_made _ _ _ _ _ _ _ UI (or_intror eq_refl) T2 E6) as R6. pose proof (run_made _ _ _ _ _ _ _ UT (or_intror eq_refl) T1 E7) as R7.
  assert (NE : forall (pl : @plane Rnum) n xx yy zz (e ch : list pt), chamfer_run pl n xx yy zz e ch -> ch <> [] -> e <> []).
  { intros pl n xx yy zz e ch (L & _) N Z0. subst e. destruct ch; [exact (N eq_refl)|discriminate]. }
  assert (N2 : irb <> []) by (intros Z0; rewrite Z0 in I0; discriminate). assert (N3 : irf <> []) by (intros Z0; rewrite Z0 in I1; discriminate). rewrite KL in NL.
  split; [exact (NE _ _ _ _ _ _ _ R5 N2)|]. split; [exact (NE _ _ _ _ _ _ _ R6 N3)|]. split; [exact (NE _ _ _ _ _ _ _ R7 NL)|].
  split; [exact R1|]. split; [exact R2|]. split; [exact R5|]. split; [exact R6|]. split; [exact R3|]. split; [exact R4|]. split; [exact R7|].
  assert (H0 : r0 = hd vzero irb). { apply first_is in I0. destruct I0 as (rr & I0). rewrite I0. reflexivity. }
  assert (H1 : r1 = last irf vzero) by (symmetry; exact (end_is _ _ vzero I1)).
  assert (O0 : on_plane (pinkyIT a) r0). { destruct R5 as (_ & O & _). rewrite Forall_forall in O. apply O. apply in_or_app. right. apply first_is in I0. destruct I0 as (rr & I0). rewrite I0. left. reflexivity. }
  assert (O1 : on_plane (pinkyIT a) r1). { destruct R6 as (_ & O & _). rewrite Forall_forall in O. apply O. apply in_or_app. right. rewrite H1. destruct (exists_last N3) as (l & z & ->). rewrite last_last. apply in_or_app. right. left. reflexivity. }
  assert (CS : chamfered (pnormal (alnumIT a)) (s * (5 / 4)) (ridgeIRF p) (alnumILFp p) (alnumIRFp p) ilf). { apply (chamfer_made _ _ _ _ _ _ WA'). rewrite NA. exact EI. }
  assert (OS : on_plane (alnumIT a) ilf).
  { destruct CS as (C & _). unfold on_plane in *. transitivity (inner (minus ilf (alnumILFp p)) (pnormal (alnumIT a)) + inner (minus (alnumILFp p) (ppos (alnumIT a))) (pnormal (alnumIT a))); [vr; ring|]. rewrite C, OLF. ring. }
  rewrite HTT, HPT in J2, J3. change (@neqb Rnum (thumbTentAngle pc) (pinkyTentAngle pc)) with (Reqb (thumbTentAngle pc) (pinkyTentAngle pc)) in J2, J3.
  destruct (Reqb (thumbTentAngle pc) (pinkyTentAngle pc)) eqn:EQ.
  - apply Reqb_true in EQ. specialize (ORF3 EQ).
    assert (K2 : chamfer_end (pinkyIT a) (pinkyIRBp p) (alnumIRBp p) (alnumIRFp p) r0 j2) by (apply end_made; assumption).
    split; [exists (alnumIRFp p); split; [left; reflexivity|]; rewrite <- H0; exact K2|].
    split; [exists (alnumIRFp p); split; [left; reflexivity|]; rewrite <- H1; apply end_made; assumption|].
    split; [exact CS|]. intros _.
    assert (OJ : on_plane (alnumIT a) j2).
    { destruct K2 as (_ & (kk & EK2) & _). unfold on_plane in *. rewrite EK2.
      transitivity ((1 - kk) * inner (minus (alnumIRBp p) (ppos (alnumIT a))) (pnormal (alnumIT a)) + kk * inner (minus (alnumIRFp p) (ppos (alnumIT a))) (pnormal (alnumIT a))); [vr; ring|]. rewrite ORB2, ORF2. ring. }
    apply end_made; assumption.
  - apply Reqb_false in EQ.
    split; [exists (thumbIRFp p); split; [right; reflexivity|]; rewrite <- H0; apply end_made; assumption|].
    split; [exists (alnumIRBp p); split; [right; reflexivity|]; rewrite <- H1; apply end_made; assumption|].
    split; [exact CS|]. intros E. contradiction.
Qed.
Print Assumptions C96_inner_chamfer.

(** * C97 *)
Lemma plane3 (a b d : pt) pl : planePoints a b d = Ok pl -> wf_plane pl /\ on_plane pl a /\ on_plane pl b /\ on_plane pl d.
Proof.
  intros H. unfold planePoints, newPlane in H. apply bind_ok in H. destruct H as (n & E & H). apply Ok_inj in H. subst pl.
  destruct (vnorm_ok _ _ E) as (N0 & EN). unfold wf_plane, on_plane. cbn [pnormal ppos]. split; [exact (vnorm_unit _ _ E)|]. rewrite EN.
  split; [|split]; rewrite scaled_inner.
  - match goal with |- ?k * ?x = 0 => assert (Q : x = 0) by (destruct a as [a1 a2 a3], b as [b1 b2 b3], d as [d1 d2 d3]; vr; ring); rewrite Q; ring end.
  - match goal with |- ?k * ?x = 0 => assert (Q : x = 0) by (destruct a as [a1 a2 a3], b as [b1 b2 b3], d as [d1 d2 d3]; vr; ring); rewrite Q; ring end.
  - match goal with |- ?k * ?x = 0 => assert (Q : x = 0) by (destruct a as [a1 a2 a3], b as [b1 b2 b3], d as [d1 d2 d3]; vr; ring); rewrite Q; ring end.
Qed.
Lemma lift_made (roof face : @plane Rnum) u d (ig it : list pt) : vnorm u = Ok d -> Forall (on_plane roof) ig ->
  mapM (fun v => l <- newLine v d ;; pintersectLine face l) ig = Ok it -> stepped roof face u ig it.
Proof.
  intros U F H. apply mapM_ok in H. unfold stepped. induction H as [|v w ig it E H IH]; constructor; [|apply IH; inversion F; assumption].
  inversion F as [|x y O _]. subst. apply bind_ok in E. destruct E as (l & EL & E). destruct (newLine_ok _ _ _ EL) as (WL & PL & DL & NL). destruct (pintersectLine_sound _ _ _ E) as (ON & (k & EK)).
  split; [exact O|]. split; [exact ON|]. destruct (vnorm_ok _ _ U) as (N0 & ED). exists (k * / len d * / len u). rewrite EK, PL, DL. generalize (/ len d). intros x. rewrite ED. apply pt_ext; vr; match goal with |- ?l = ?r => change ((l : R) = (r : R)) end; ring.
Qed.
Lemma stepped_ends roof face up a b bottom top : on_plane roof a -> on_plane face a -> on_plane roof b -> on_plane face b -> stepped roof face up bottom top -> stepped roof face up (a :: bottom ++ [b]) (a :: top ++ [b]).
Proof.
  intros RA FA RB FB S. assert (Q : forall v, v = plus v (scaled 0 up)) by (intros v; apply pt_ext; destruct v as [v1 v2 v3], up as [u1 u2 u3]; vr; match goal with |- ?l = ?r => change ((l : R) = (r : R)) end; ring). unfold stepped in *. constructor; [split; [exact RA|]; split; [exact FA|]; exists 0; apply Q|].
  apply Forall2_app; [exact S|]. constructor; [|constructor]. split; [exact RB|]. split; [exact FB|]. exists 0. apply Q.
Qed.
Lemma raised_over pl l l' : raised pl l = Ok l' -> over l' l.
Proof. intros H. apply raised_on in H. unfold over. induction H as [|g v l l' (_ & E) _ IH]; constructor; assumption. Qed.

(* the step between the alphanumeric roof and the thumb cluster, outside and inside: a bent strip that rises straight up from the thumb roof
   to a plane, and a fan of triangles in this plane around the chamfered corner of the alphanumeric roof *)
Theorem C97_step : forall q (taper : option R) pmod pasin (c : @body_cfg Rnum) (pc : @plan_cfg Rnum) fuel sd pn b,
  newPlan pc fuel sd = Ok pn -> 0 <= bossDiameter (bossCfg pc) -> newBody q taper pmod pasin c pn = Ok b ->
  let p := planPoints pn in let a := pA (planPlanes pn) in let up := minus (alnumOLFp p) (thumbOLBp p) in
  let r := by_outerCornerRadius c in
  exists cornerI cornerO faceI faceO arcI arcO igI igO itI itO,
    let botI := ridgeIRF p :: igI ++ [alnumIRFp p] in let topI := ridgeIRF p :: itI ++ [alnumIRFp p] in
    let botO := alnumORFp p :: igO ++ [ridgeORF p] in let topO := alnumORFp p :: itO ++ [ridgeORF p] in
    part_of (Strip topI botI false) (byMesh b) /\ part_of (Strip [cornerI] topI false) (byMesh b) /\
    part_of (Strip topO botO false) (byMesh b) /\ part_of (Strip [cornerO] topO false) (byMesh b) /\
    wf_plane faceI /\ on_plane faceI cornerI /\ stepped (thumbIT a) faceI up botI topI /\
    wf_plane faceO /\ on_plane faceO cornerO /\ stepped (thumbOT a) faceO up botO topO /\
    chamfered (pnormal (alnumIT a)) (by_innerChamfer c * (5 / 4)) (ridgeIRF p) (alnumILFp p) (alnumIRFp p) cornerI /\
    chamfered (pnormal (alnumOT a)) (by_outerChamfer c * (5 / 4)) (ridgeORF p) (alnumOLFp p) (alnumORFp p) cornerO /\
    cornerArc2D q (if Rlt_dec 0 (by_innerChamfer c) then r + by_wallThickness c else 0) (ridgeIRF p) (thumbILBp p) (alnumIRFp p) = Ok arcI /\ over igI arcI /\
    cornerArc2D q (if Rlt_dec 0 (by_outerChamfer c) then r else 0) (alnumORFp p) (thumbOLBp p) (ridgeORF p) = Ok arcO /\ over igO arcO.
Proof.
  intros q taper pmod pasin c pc fuel sd pn b HP HD HB p a up r.
  destruct (roof_facts pc fuel sd pn HP HD) as ((WA & WT & WI) & (NA & NT & NI)). fold a in WA, WT, WI, NA, NT, NI.
  destruct (C62_corners pc fuel sd pn HP HD) as (_ & _ & ((ORFI & _) & (ORFO & _)) & _ & _ & _ & _ & _ & _ & RO & RI & _). fold p a in ORFI, ORFO, RO, RI.
  destruct (body_steps _ _ _ _ _ _ _ HB) as (g & st & k & rr & ef & eb & w & _ & ES & _ & _ & _ & _ & PS). fold p a in ES.
  unfold bodyStep in ES. cbv zeta in ES. apply bind_ok in ES. destruct ES as (sdir & ED & ES). change (vsub (thumbOLBp p) (alnumOLFp p)) with (minus (thumbOLBp p) (alnumOLFp p)) in ED.
  apply bind_ok in ES. destruct ES as (ilf & EI & ES). apply bind_ok in ES. destruct ES as (olf & EO & ES). apply bind_ok in ES. destruct ES as (fI & FI & ES). apply bind_ok in ES. destruct ES as (fO & FO & ES).
  apply bind_ok in ES. destruct ES as (aI & AI & ES). apply bind_ok in ES. destruct ES as (aO & AO & ES). apply bind_ok in ES. destruct ES as (ig & IG & ES). apply bind_ok in ES. destruct ES as (og & OG & ES).
  apply bind_ok in ES. destruct ES as (it & IT & ES). apply bind_ok in ES. destruct ES as (ot & OT & ES). apply Ok_inj in ES.
  rewrite <- ES in PS. cbn [stMesh] in PS.
  destruct (plane3 _ _ _ _ FI) as (WFI & I1 & I2 & I3). destruct (plane3 _ _ _ _ FO) as (WFO & O1 & O2 & O3).
  assert (FLIP : forall roof face bo to, stepped roof face (minus (thumbOLBp p) (alnumOLFp p)) bo to -> stepped roof face up bo to).
  { intros roof face bo to S. unfold stepped in *. induction S as [|x y bo to (H1 & H2 & (kk & H3)) S IH]; constructor; [|exact IH]. split; [exact H1|]. split; [exact H2|]. exists (- kk). rewrite H3. unfold up. apply pt_ext; vr; match goal with |- ?l = ?r => change ((l : R) = (r : R)) end; ring. }
  exists ilf, olf, fI, fO, aI, aO, ig, og, it, ot. cbv zeta.
  split; [eapply part_trans; [|exact PS]; apply part_in; cbn [In]; auto|]. split; [eapply part_trans; [|exact PS]; apply part_in; cbn [In]; auto|]. split; [eapply part_trans; [|exact PS]; apply part_in; cbn [In]; auto|]. split; [eapply part_trans; [|exact PS]; apply part_in; cbn [In]; auto|].
  split; [exact WFI|]. split; [exact I2|]. split. { apply stepped_ends; try assumption. apply FLIP. eapply lift_made; [exact ED|exact (raised_all _ _ _ IG)|exact IT]. }
  split; [exact WFO|]. split; [exact O2|]. split. { apply stepped_ends; try assumption. apply FLIP. eapply lift_made; [exact ED|exact (raised_all _ _ _ OG)|exact OT]. }
  assert (UA : unit_vec (pnormal (alnumOT a))) by exact WA.
  split; [rewrite NA; exact (chamfer_made _ _ _ _ _ _ UA EI)|]. split; [exact (chamfer_made _ _ _ _ _ _ UA EO)|].
  assert (LT : forall x y z : R, (if @nltb Rnum (@nZ Rnum 0) x then y else z) = (if Rlt_dec 0 x then y else z)) by (intros; change (@nltb Rnum (@nZ Rnum 0) x) with (Rltb 0 x); unfold Rltb; destruct (Rlt_dec 0 x); reflexivity).
  rewrite (LT (by_innerChamfer c)) in AI. rewrite (LT (by_outerChamfer c)) in AO. change (@nZ Rnum 0) with 0 in AI, AO.
  split; [exact AI|]. split; [exact (raised_over _ _ _ IG)|]. split; [exact AO|]. exact (raised_over _ _ _ OG).
Qed.
Print Assumptions C97_step.

(* The hypotheses: C70_nonvacuous (P_Runs.v) makes such a body; its tents agree with the plan and are moderate.  A right corner and a straight one, cut by 2 *)
Open Scope Z_scope.
Definition at_ (v : @vec Calc) (x y z : BinNums.Z) : bool := (BinInt.Z.abs (vx v - dq x 1) <? 10) && (BinInt.Z.abs (vy v - dq y 1) <? 10) && (BinInt.Z.abs (vz v - dq z 1) <? 10).
Definition pt_ (x y z : BinNums.Z) : @vec Calc := @V Calc (dq x 1) (dq y 1) (dq z 1).
Definition plan96 := plan_wide boss_default.
Example C96_nonvacuous :
  (by_thumbTent body_full =? thumbTentAngle plan96) && (by_pinkyTent body_full =? pinkyTentAngle plan96) && (alnumTentAngle plan96 <? thumbTentAngle plan96 + dq 3 1) && (thumbTentAngle plan96 <? alnumTentAngle plan96)
  && (0 <? by_outerChamfer body_full) && (0 <? by_innerChamfer body_full) && (0 <? bossDiameter (bossCfg plan96)) &&
  match chamferPoint (pt_ 0 0 0) (pt_ 10 0 0) (pt_ 10 10 5) (pt_ 0 0 1) (dq 2 1), chamferPoint (pt_ 0 0 0) (pt_ 10 0 0) (pt_ 30 0 0) (pt_ 0 0 1) (dq 2 1) with
  | Ok u, Ok v => at_ u 8 2 0 && at_ v 10 2 0
  | _, _ => false end = true.
Proof. vm_cast_no_check (eq_refl true). Qed.
