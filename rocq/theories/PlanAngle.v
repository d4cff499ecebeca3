(** The angles of a finished plan: where the walls and roofs face. *)
From Coq Require Import Reals Lra Psatz List Bool ZArith Lia.
From Verif Require Import Num GeoModel GeoSpec GeoMat GeoRigid GeoPlane GeoIso EdgeModel ArcModel ArcSpec ArcProof
  KeyModel LayoutModel LayoutSpec LayoutProof BossModel PlanModel HullSpec PlanSpec WallProof BossFit BossFit2 BossKeys PlanMove PlanTent PlanWalls PlanFinal PlanSpec2.
Import ListNotations.
Open Scope R_scope.

Section Angle.
Variable c : @plan_cfg Rnum.
Local Notation turned := (turned c).
Definition unturned (v : pt) : pt := rotX_pt (- tiltAngle c) origin (rotZ_pt (- splitAngle c) origin v).
Lemma turn_back v : turned (unturned v) = v.
Proof.
  unfold turned, unturned. rewrite rotX_add. replace (- tiltAngle c + tiltAngle c) with 0 by ring. rewrite rotX_0, rotZ_add.
  replace (- splitAngle c + splitAngle c) with 0 by ring. apply rotZ_0.
Qed.
Lemma turned_matrix (v : pt) : transformed v (tiltSplitMatrix c) = turned v.
Proof.
  unfold tiltSplitMatrix, turned. rewrite app_rotZ by (apply affine_rot; [apply affine_mid|aff]). rewrite app_rotX by apply affine_mid. cbn [ctr]. rewrite transformed_mid. reflexivity.
Qed.
Lemma turned_lin v : lin (tiltSplitMatrix c) v = turned v.
Proof.
  unfold lin. rewrite !turned_matrix. unfold turned, rotZ_pt, rotX_pt, origin, minus, P, X, Y, Z. cbn [vx vy vz]. rn.
  apply pt_ext; unfold X, Y, Z; cbn [vx vy vz]; rn; ring.
Qed.
Lemma ptransformed_normal (pl pl' : @plane Rnum) A : wf_plane pl -> Built A -> ptransformed pl A = Ok pl' ->
  pnormal pl' = lin A (pnormal pl) /\ forall v, rise pl' (transformed v A) = rise pl v.
Proof.
  intros W H E. destruct (ptransformed_spec pl A W H) as (q & Eq & _ & R). rewrite E in Eq. apply Ok_inj in Eq. subst q. split; [|exact R].
  unfold ptransformed in E. rewrite tnormal_lin in E.
  assert (U : unit_vec (lin A (pnormal pl))) by (unfold unit_vec; rewrite lin_inner by exact H; exact W).
  rewrite vnorm_of_unit in E by exact U. cbn [bind] in E. unfold newPlane in E. rewrite vnorm_of_unit in E by exact U. cbn [bind] in E. apply Ok_inj in E. subst pl'. reflexivity.
Qed.
(* all planes of the first stage are turned and moved together *)
Lemma newPlan_planes fuel side p : 0 <= bossDiameter (bossCfg c) -> newPlan c fuel side = Ok p -> exists y ps s, planTent c side = Ok (y, ps) /\
  forall sel, In sel selA -> pnormal (sel (pA (planPlanes p))) = turned (pnormal (sel ps)) /\ forall v, rise (sel (pA (planPlanes p))) v = rise (sel ps) (unturned (minus v s)).
Proof.
  intros D0 H. unfold newPlan in H. apply bind_ok in H. destruct H as ([y1 ps1] & E1 & H). apply bind_ok in H. destruct H as ([y2 ps2] & E2 & H).
  apply bind_ok in H. destruct H as (w & E3 & H). cbn [fst] in H. apply bind_ok in H. destruct H as ([y3 w3] & E4 & H).
  apply bind_ok in H. destruct H as ([thumbLine tl] & E5 & H). cbn [fst snd] in H. apply bind_ok in H. destruct H as ([rI rO] & E6 & H). apply bind_ok in H. destruct H as (pts & E7 & H).
  apply bind_ok in H. destruct H as ([[[y ps] tl'] pts'] & E8 & H). apply bind_ok in H. destruct H as (bs & E9 & H). apply bind_ok in H. destruct H as (h & _ & H). apply Ok_inj in H. subst p.
  pose proof (planTent_ok c side y1 ps1 E1) as T1. pose proof (planTilt_ok c side y1 ps1 y2 ps2 T1 E2) as T2. destruct (planWalls_ok c fuel D0 side y2 ps2 w T2 E3) as (W & EW).
  destruct (planX_ok c side y2 w y3 w3 W E4) as (W3 & _).
  assert (WT : wf_plane tl).
  { unfold thumbCorner in E5. cbv zeta in E5. repeat (apply bind_ok in E5; destruct E5 as (? & ? & E5)). injection E5 as _ <-. eapply newPlane_ok; eauto. }
  destruct (planZ_ok c side y3 w3 tl pts y ps tl' pts' WT W3 E8) as (hz & _ & _ & SZ & _).
  assert (SX : exists v, forall sel, In sel selA -> sel (pA (wPlanes w3)) = shift_plane v (sel ps2)).
  { unfold planX in E4. cbv zeta in E4. apply bind_ok in E4. destruct E4 as (ilb & _ & E4). apply bind_ok in E4. destruct E4 as (olb & _ & E4). apply bind_ok in E4. destruct E4 as (mx & _ & E4).
    match type of E4 with context[V ?a ?b ?d] => exists (V a b d) end. apply bind_ok in E4. destruct E4 as (q & EP & E4). do 2 (apply bind_ok in E4; destruct E4 as (? & _ & E4)).
    destruct (wBoss w) as (((?, ?), ?), ?). injection E4 as _ <-. cbn [wPlanes]. destruct (mapPlanesB_ok _ _ _ EP) as (EA & _). intros sel Hs.
    pose proof (mapPlanesA_ok _ _ _ EA sel Hs) as Q. cbn beta in Q. rewrite EW in Q. rewrite ptranslated_form in Q by apply (t_wf _ _ _ _ T2 sel Hs). apply Ok_inj in Q. symmetry. exact Q. }
  destruct SX as (u & SX). exists y1, ps1, (plus u (P 0 0 hz)). split; [exact E1|]. cbn [planPlanes]. intros sel Hs. rewrite (SZ sel Hs), (SX sel Hs).
  unfold planTilt in E2. cbn [fst snd] in E2. apply bind_ok in E2. destruct E2 as (q & ET & E2). injection E2 as _ <-. pose proof (mapPlanesA_ok _ _ _ ET sel Hs) as Q. cbn beta in Q.
  assert (BM : Built (tiltSplitMatrix c)) by (unfold tiltSplitMatrix; apply B_rotZ, B_rotX, B_id).
  destruct (ptransformed_normal _ _ _ (t_wf _ _ _ _ T1 sel Hs) BM Q) as (N & RI). split.
  - cbn [shift_plane pnormal]. rewrite N. apply turned_lin.
  - intros v. set (rhs := rise (sel ps1) _). rewrite (plus_minus v (P 0 0 hz)), rise_shift. rewrite (plus_minus (minus v (P 0 0 hz)) u), rise_shift.
    replace (minus (minus v (P 0 0 hz)) u) with (minus v (plus u (P 0 0 hz))).
    2:{ assert (E : forall a b d : R, a - (b + d) = a - d - b) by (intros; ring). apply pt_ext; apply E. }
    rewrite <- (turn_back (minus v (plus u (P 0 0 hz)))) at 1. rewrite <- turned_matrix, RI. unfold rhs. reflexivity.
Qed.

(* the planes before tilting *)
Lemma rotY_back a (p v : pt) : v = rotY_pt a p (rotY_pt (- a) p v).
Proof. rewrite rotY_add. replace (- a + a) with 0 by ring. rewrite rotY_0. reflexivity. Qed.
Lemma tent_plane (pl q : @plane Rnum) a (pv : pt) : wf_plane pl -> ptransformed pl (mrotY mid a (Some pv)) = Ok q ->
  pnormal q = rotY_pt a origin (pnormal pl) /\ forall v, rise q v = rise pl (rotY_pt (- a) pv v).
Proof.
  intros W E. assert (B : Built (mrotY mid a (Some pv))) by apply B_rotY, B_id. destruct (ptransformed_normal _ _ _ W B E) as (N & R). split.
  - rewrite N. unfold lin. rewrite !app_rotY by apply affine_mid. cbn [ctr]. rewrite !transformed_mid. generalize (pnormal pl). intros n.
    unfold rotY_pt, origin, minus, P, X, Y, Z. cbn [vx vy vz]. rn. apply pt_ext; unfold X, Y, Z; cbn [vx vy vz]; rn; ring.
  - intros v. rewrite (rotY_back a pv v) at 1. rewrite <- R. f_equal. rewrite app_rotY by apply affine_mid. cbn [ctr]. rewrite transformed_mid. reflexivity.
Qed.
Lemma bisect (a b : R) (pv v : pt) : Z pv = 0 -> 
  Z (rotY_pt (- a) pv v) - Z (rotY_pt (- b) pv v) = 2 * sin ((a - b) / 2) * (X (rotY_pt (- ((a + b) / 2)) pv v) - X pv).
Proof.
  intros Z0. set (m := (a + b) / 2). set (u := (a - b) / 2).
  assert (Ea : rotY_pt (- a) pv v = rotY_pt (- u) pv (rotY_pt (- m) pv v)) by (rewrite rotY_add; f_equal; unfold m, u; field).
  assert (Eb : rotY_pt (- b) pv v = rotY_pt u pv (rotY_pt (- m) pv v)) by (rewrite rotY_add; f_equal; unfold m, u; field).
  rewrite Ea, Eb. generalize (rotY_pt (- m) pv v). intros w. unfold rotY_pt, P, X, Z in *. cbn [vx vz]. rewrite cos_neg, sin_neg. rn. ring.
Qed.
Lemma planTent_angles side y ps : planTent c side = Ok (y, ps) ->
  pnormal (alnumOT ps) = rotY_pt (alnumTentAngle c) origin (P 0 0 1) /\ pnormal (thumbOT ps) = rotY_pt (thumbTentAngle c) origin (P 0 0 1) /\ pnormal (pinkyOT ps) = rotY_pt (pinkyTentAngle c) origin (P 0 0 1) /\
  pnormal (alnumOL ps) = P 1 0 0 /\ pnormal (alnumOF ps) = wall_normal (alnumFrontAngle c) /\ pnormal (pinkyOR ps) = P (-1) 0 0 /\
  pnormal (pivotOB ps) = rotY_pt ((alnumTentAngle c + pinkyTentAngle c) / 2) origin (P 1 0 0) /\ pnormal (pivotOF ps) = rotY_pt ((thumbTentAngle c + pinkyTentAngle c) / 2) origin (P 1 0 0) /\
  (forall v, rise (alnumOT ps) v - rise (pinkyOT ps) v = 2 * sin ((alnumTentAngle c - pinkyTentAngle c) / 2) * rise (pivotOB ps) v) /\
  (forall v, rise (thumbOT ps) v - rise (pinkyOT ps) v = 2 * sin ((thumbTentAngle c - pinkyTentAngle c) / 2) * rise (pivotOF ps) v) /\
  pivotIB ps = pivotOB ps /\ pivotIF ps = pivotOF ps /\ thumbTentAngle c < alnumTentAngle c /\
  exists x : R, forall v, rise (alnumOT ps) v = sin (alnumTentAngle c) * (X v - x) + cos (alnumTentAngle c) * Z v /\
    rise (thumbOT ps) v = sin (thumbTentAngle c) * (X v - x) + cos (thumbTentAngle c) * Z v /\ rise (pinkyOT ps) v = sin (pinkyTentAngle c) * (X v - x) + cos (pinkyTentAngle c) * Z v.
Proof.
  unfold planTent. intros H.
  apply bind_ok in H. destruct H as (y0 & L0 & H). destruct (nleb (alnumTentAngle c) (thumbTentAngle c)) eqn:CT; [discriminate|]. change (Rleb (alnumTentAngle c) (thumbTentAngle c) = false) in CT. apply Rleb_false in CT.
  apply bind_ok in H. destruct H as (co & CO & H). cbv zeta in H.
  apply bind_ok in H. destruct H as (ka & EKA & H). apply bind_ok in H. destruct H as (kp & EKP & H).
  set (pivot := vhalf (vadd (kposition ka) (kposition kp))) in H.
  apply bind_ok in H. destruct H as (z & Ez & H). apply bind_ok in H. destruct H as (z0 & Ez0 & H). apply bind_ok in H. destruct H as (xp & Exp & H).
  apply bind_ok in H. destruct H as (aIT & EaIT & H). apply bind_ok in H. destruct H as (aOT & EaOT & H).
  apply bind_ok in H. destruct H as (pIB & EpIB & H). apply bind_ok in H. destruct H as (pOB & EpOB & H).
  apply bind_ok in H. destruct H as (tIT & EtIT & H). apply bind_ok in H. destruct H as (tOT & EtOT & H).
  apply bind_ok in H. destruct H as (pIF & EpIF & H). apply bind_ok in H. destruct H as (pOF & EpOF & H).
  apply bind_ok in H. destruct H as (iIT & EiIT & H). apply bind_ok in H. destruct H as (iOT & EiOT & H).
  apply bind_ok in H. destruct H as (minX & EminX & H). apply bind_ok in H. destruct H as (aIL & EaIL & H). apply bind_ok in H. destruct H as (aOL & EaOL & H).
  apply bind_ok in H. destruct H as ([fI fO] & EF & H). cbn [fst snd] in H.
  apply bind_ok in H. destruct H as (aIF & EaIF & H). apply bind_ok in H. destruct H as (aOF & EaOF & H).
  apply bind_ok in H. destruct H as (slope & Eslope & H). apply bind_ok in H. destruct H as (tint & Etint & H).
  apply bind_ok in H. destruct H as ([rI rO] & ER & H). cbn [fst snd] in H.
  apply bind_ok in H. destruct H as (iIR & EiIR & H). apply bind_ok in H. destruct H as (iOR & EiOR & H). injection H as _ <-.
  cbn [alnumOT thumbOT pinkyOT alnumOL alnumOF pinkyOR pivotOB pivotOF pivotIB pivotIF].
  assert (ZP : Z pivot = 0).
  { destruct (crease_form c co CO) as (Yco & Zco).
    assert (FR : forall k, In k (lall y0 SideBoth) -> fresh k) by (apply (newLayout_fresh (keyCfg c) (layoutCfg c)), L0).
    set (y1 := mapThumb (move co) (mapFingers 0 (move co) y0)) in EKA, EKP.
    assert (A1 : alnum y1 SideBoth = map (move co) (alnum y0 SideBoth)) by (unfold y1, alnum; rewrite lgroup_thumb, lgroup_map; reflexivity).
    assert (P1 : pinky y1 SideBoth = pinky y0 SideBoth) by (unfold y1, pinky; rewrite lgroup_thumb, lgroup_map; reflexivity).
    pose proof (bestKey_in _ _ _ EKA) as IA. pose proof (bestKey_in _ _ _ EKP) as IP.
    change (lgroup y1 0 SideBoth) with (alnum y1 SideBoth) in IA. change (lgroup y1 1 SideBoth) with (pinky y1 SideBoth) in IP. rewrite A1 in IA. rewrite P1 in IP.
    apply in_map_iff in IA. destruct IA as (k0 & <- & IA).
    assert (F1 : fresh (move co k0)) by (apply fresh_move; [exact Zco|apply FR, lall_in; auto]). assert (F2 : fresh kp) by (apply FR, lall_in; auto).
    destruct F1 as (_ & L1). destruct F2 as (_ & L2). unfold pivot, vhalf, vadd, kposition. unfold Z at 1. cbn [vz].
    pose proof (L1 origin) as Q1. pose proof (L2 origin) as Q2. unfold Z in Q1, Q2. change (@vzero Rnum) with origin. rewrite Q1, Q2. unfold origin, P. cbn [vz]. rn. lra. }
  destruct (planeX_ok _ _ Exp) as (Wx & Rx). destruct (planeZ_ok _ _ Ez0) as (Wz & Rz).
  assert (Nz : pnormal z0 = P 0 0 1).
  { unfold planeZ, newPlane in Ez0. change (@V Rnum (@nZ Rnum 0) (@nZ Rnum 0) (@nZ Rnum 1)) with (P 0 0 1) in Ez0.
    rewrite vnorm_of_unit in Ez0 by (unfold unit_vec, inner, P, X, Y, Z; cbn [vx vy vz]; rn; ring). cbn [bind] in Ez0. apply Ok_inj in Ez0. subst z0. reflexivity. }
  assert (NX : forall t pl, @planeX Rnum t = Ok pl -> pnormal pl = P 1 0 0).
  { intros t pl E. unfold planeX, newPlane in E. change (@V Rnum (@nZ Rnum 1) (@nZ Rnum 0) (@nZ Rnum 0)) with (P 1 0 0) in E.
    rewrite vnorm_of_unit in E by (unfold unit_vec, inner, P, X, Y, Z; cbn [vx vy vz]; rn; ring). cbn [bind] in E. apply Ok_inj in E. subst pl. reflexivity. }
  assert (NL : forall (l : @line Rnum) pl, ground_line l -> planeLine2D l = Ok pl -> pnormal pl = P (- Y (ldir l)) (X (ldir l)) 0).
  { intros l pl (U & Zd & _) E. unfold planeLine2D, newPlane in E.
    assert (U' : unit_vec (vortho2D (ldir l))) by (unfold unit_vec, inner, vortho2D, X, Y, Z in *; cbn [vx vy vz] in *; rn; rewrite Zd in U; rewrite <- U; ring).
    rewrite vnorm_of_unit in E by exact U'. cbn [bind] in E. apply Ok_inj in E. subst pl. reflexivity. }
  destruct (tent_plane _ _ _ _ Wz EaOT) as (N1 & R1). destruct (tent_plane _ _ _ _ Wz EtOT) as (N2 & R2). destruct (tent_plane _ _ _ _ Wz EiOT) as (N3 & R3).
  destruct (tent_plane _ _ _ _ Wx EpOB) as (N4 & R4). destruct (tent_plane _ _ _ _ Wx EpOF) as (N5 & R5).
  destruct (wallLines_ok _ _ _ _ _ EF) as (_ & DF & (DF' & GFO & _) & _). destruct (wallLines_ok _ _ _ _ _ ER) as (_ & DR & (DR' & GRO & _) & _).
  rewrite Nz in N1, N2, N3. rewrite (NX _ _ Exp) in N4, N5.
  assert (EA : forall a b : R, b + (a - b) / 2 = (a + b) / 2) by (intros; field).
  split; [exact N1|]. split; [exact N2|]. split; [exact N3|]. split; [exact (NX _ _ EaOL)|].
  split; [rewrite (NL _ _ GFO EaOF), DF', DF; reflexivity|].
  split. { rewrite (NL _ _ GRO EiOR), DR', DR. change (@ndiv Rnum (@tau Rnum) (@nZ Rnum 4)) with (2 * PI / 4). replace (2 * PI / 4) with (PI / 2) by field. unfold P, X, Y. cbn [vx vy]. rewrite cos_PI2, sin_PI2. reflexivity. }
  split; [rewrite <- EA; exact N4|]. split; [rewrite <- EA; exact N5|].
  split; [|split; [|split; [|split; [|split]]]].
  - intros v. rewrite R1, R3, R4, !Rz, Rx.
    match goal with |- context[X (rotY_pt (- ?a) pivot v)] => replace a with ((alnumTentAngle c + pinkyTentAngle c) / 2) by (symmetry; apply EA) end. change (vx pivot) with (X pivot). rewrite <- (bisect _ _ pivot v ZP). rn. ring.
  - intros v. rewrite R2, R3, R5, !Rz, Rx.
    match goal with |- context[X (rotY_pt (- ?a) pivot v)] => replace a with ((thumbTentAngle c + pinkyTentAngle c) / 2) by (symmetry; apply EA) end. change (vx pivot) with (X pivot). rewrite <- (bisect _ _ pivot v ZP). rn. ring.
  - rewrite EpIB in EpOB. exact (Ok_inj _ _ EpOB).
  - rewrite EpIF in EpOF. exact (Ok_inj _ _ EpOF).
  - exact CT.
  - exists (X pivot). intros v. rewrite R1, R2, R3, !Rz.
    assert (EZ : forall t, Z (rotY_pt (- t) pivot v) - 0 = sin t * (X v - X pivot) + cos t * Z v).
    { intros t. unfold rotY_pt, P. unfold Z at 1. cbn [vz]. rewrite ZP, cos_neg, sin_neg. ring. }
    split; [apply EZ|split; apply EZ].
Qed.
End Angle.
