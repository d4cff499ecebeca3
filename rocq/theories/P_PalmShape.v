(** Properties C93 to C95: size and surface of the palm rest, and room for the hitch.  Read with PalmSpec.v. *)
From Coq Require Import Reals Lra Psatz ZArith List Bool Arith Lia.
From Verif Require Import Num GeoModel EdgeModel GeoSpec GeoMat GeoRigid GeoPlane GeoCirc ArcModel ArcSpec ArcProof ArcCorner ArcShape PartProof CableProof FaceModel MeshModel MeshSpec MeshFace EdgeSpec LayoutModel BossModel PlanModel PlanSpec2 PlanRidge WallProof BracketModel
  BumperModel BossSpec BossProof PalmModel PalmSpec PalmShape PalmBox PalmNotch PalmGroove PalmAll HitchArc BodyModel.
Import ListNotations.
Open Scope R_scope.

Lemma meshes_in {N : Num} (l : list mesh) v : In v (mesh_points (meshes l)) <-> exists m, In m l /\ In v (mesh_points m).
Proof.
  induction l as [|m l IH]; cbn [meshes mesh_points]; [split; [intros []|intros (m & [] & _)]|]. rewrite in_app_iff, IH. split.
  - intros [I|(m' & I & J)]; [exists m; split; [left; reflexivity|exact I]|exists m'; split; [right; exact I|exact J]].
  - intros (m' & [<-|I] & J); [left; exact J|right; exists m'; auto].
Qed.
Lemma frame_xy (a b : pt) x y : frame (vxy a) (vxy b) x y = frame a b x y. Proof. reflexivity. Qed.
Lemma outset_is (thumb pinky : pt) : @ndiv Rnum (vmag (vsub (vxy pinky) (vxy thumb))) (nZ 2) = edist2 pinky thumb / 2.
Proof.
  change (sqrt ((X pinky - X thumb) * (X pinky - X thumb) + (Y pinky - Y thumb) * (Y pinky - Y thumb) + (0 - 0) * (0 - 0)) / 2 = edist2 pinky thumb / 2). unfold edist2, sqdist2, Rsqr. f_equal. f_equal. ring.
Qed.
Lemma place_is (thumb pinky v : pt) : edist2 pinky thumb <> 0 -> transformed v (placeMatrix (vxy thumb) (vxy pinky)) = placed pinky thumb v.
Proof.
  intros N. assert (LV : level (vsub (vxy pinky) (vxy thumb))).
  { unfold level. destruct (Req_dec (X (vsub (vxy pinky) (vxy thumb))) 0) as [E1|E1]; [|left; exact E1]. destruct (Req_dec (Y (vsub (vxy pinky) (vxy thumb))) 0) as [E2|E2]; [|right; exact E2].
    exfalso. apply N. change (X pinky - X thumb = 0) in E1. change (Y pinky - Y thumb = 0) in E2. unfold edist2, sqdist2, Rsqr. rewrite E1, E2. rewrite Rmult_0_l, Rplus_0_r. apply sqrt_0. }
  destruct (angle_cs _ LV) as [C1 C2]. unfold placeMatrix. set (an := vangle2D _) in *.
  assert (ES : sqrt (X (vsub (vxy pinky) (vxy thumb)) * X (vsub (vxy pinky) (vxy thumb)) + Y (vsub (vxy pinky) (vxy thumb)) * Y (vsub (vxy pinky) (vxy thumb))) = edist2 pinky thumb) by reflexivity.
  unfold ux in C1. unfold uy in C2. rewrite ES in C1, C2. change (X (vsub (vxy pinky) (vxy thumb))) with (X pinky - X thumb) in C1. change (Y (vsub (vxy pinky) (vxy thumb))) with (Y pinky - Y thumb) in C2. clear ES LV. clearbody an.
  assert (ET : transformed v (mtranslated (mrotZ mid an None) (vhalf (vadd (vxy thumb) (vxy pinky)))) = P (X v * cos an - Y v * sin an + (X thumb + X pinky) / 2) (X v * sin an + Y v * cos an + (Y thumb + Y pinky) / 2) (Z v)).
  { rewrite app_tra by (apply built_affine, B_rotZ, B_id). rewrite turned_pt. apply pt_ext; unfold plus, P, X, Y, Z; cbn [vx vy vz]; change (@vx Rnum (vhalf (vadd (vxy thumb) (vxy pinky)))) with ((X thumb + X pinky) / 2);
    change (@vy Rnum (vhalf (vadd (vxy thumb) (vxy pinky)))) with ((Y thumb + Y pinky) / 2); change (@vz Rnum (vhalf (vadd (vxy thumb) (vxy pinky)))) with ((0 + 0) / 2); unfold X, Y; try reflexivity. lra. }
  rewrite ET, C1, C2. unfold placed, frame. cbv zeta. apply pt_ext; unfold P, X, Y, Z; cbn [vx vy vz]; unfold X, Y; try reflexivity; field; exact N.
Qed.

Section Shape.
Variables (q : @quality Rnum) (c : @palm_cfg Rnum) (bumper : option (@bumper_cfg Rnum)) (plc : @plan_cfg Rnum) (h : @hitch_cfg Rnum) (pts : @points Rnum) (ht : @hitch Rnum) (p : @palmPart Rnum).
Let pinky := pinkyORFp pts.
Let thumb := thumbOLFp pts.
Let o : R := edist2 pinky thumb / 2.
Hypothesis HH : planHitch plc h pts = Ok ht.
Hypothesis HP : newPalm q c bumper pts ht = Ok p.
Hypothesis SP : sane_palm c o.
Hypothesis SF : match bumper with Some bc => sane_feet c bc | None => True end.
Hypothesis SG : match pa_groove c with Some g => sane_groove c o g | None => True end.

Lemma SP' : sane_palm c (@ndiv Rnum (vmag (vsub (vxy pinky) (vxy thumb))) (nZ 2)). Proof. rewrite outset_is. exact SP. Qed.
Definition thread_corner (v : pt) : Prop := exists b, (b = bossHitchL ht \/ b = bossHitchR ht) /\ (In v (mesh_points (bThread b)) \/ In v (threadHole b)).
Definition own (up : R) (v : pt) : Prop := palm_box c o v \/ exists g, pa_groove c = Some g /\ groove_corner c o up g v.
(* a point of the outline of a side: s = 1 right, s = -1 left *)
Definition side_corner (up s : R) (v : pt) : Prop := s * X v * cos (pa_taperAngle c) = half_width c o (Y v) /\
  (- pa_floorHeight c <= Z v <= pa_floorFillet c - pa_floorHeight c \/ (exists p0, profile c 0 p0 /\ on_ruling c up p0 v) \/
   exists g p0, pa_groove c = Some g /\ profile c (gr_roofMargin g) p0 /\ on_ruling c up p0 v).
(* all that is shown here *)
Lemma palm_facts : exists up, (forall v, In v (mesh_points (paMesh p)) -> thread_corner v \/ exists v0, v = placed pinky thumb v0 /\ own up v0) /\
  (forall v, In v (paSideR p) -> own up v /\ side_corner up 1 v) /\ (forall v, In v (paSideL p) -> own up v /\ side_corner up (-1) v) /\
  (exists v, In v (paSideL p) /\ Z v = pa_height c - pa_floorHeight c) /\ (exists v, In v (paSideL p) /\ Y v = - pa_bodyMargin c) /\
  (exists v, In v (paSideL p) /\ Y v = - (pa_bodyMargin c + pa_depth c)) /\ (exists v, In v (paSideL p) /\ Z v = - pa_floorHeight c) /\
  exists no, notch_facts c (vxy thumb) (vxy pinky) no /\ paNotch p = map (placed pinky thumb) (noEdgeT no) /\
    Y (noRFT no) < - (pa_hitchDepth c + pa_bodyMargin c) /\ vmag (vsub (hitchOLB ht) (hitchORB ht)) + pa_hitchRadius c < X (noRBT no) * 2 /\
    exists ms, paMesh p = meshes ms /\ In (Fill (paNotch p) [threadHole (bossHitchL ht); threadHole (bossHitchR ht)]) ms.
Proof.
  destruct (planHitch_ok plc h pts ht HH) as (NE & CT & _ & _ & _). fold pinky thumb in NE. pose proof HP as H. unfold newPalm in H. cbv zeta in H. fold pinky thumb in H.
  apply bind_ok in H. destruct H as (r & E1 & H). apply bind_ok in H. destruct H as (fl & E2 & H). apply bind_ok in H. destruct H as (aL & E3 & H). apply bind_ok in H. destruct H as (aR & E4 & H).
  apply bind_ok in H. destruct H as (fLB & E5 & H). apply bind_ok in H. destruct H as (fRB & E6 & H). apply bind_ok in H. destruct H as (no & E7 & H).
  apply bind_ok in H. destruct H as (lb1 & I1 & H). apply bind_ok in H. destruct H as (l0 & I2 & H). apply bind_ok in H. destruct H as (r0 & I3 & H). apply bind_ok in H. destruct H as (rb1 & I4 & H).
  apply bind_ok in H. destruct H as (g1 & I5 & H). apply bind_ok in H. destruct H as (g2 & I6 & H). apply bind_ok in H. destruct H as (g3 & I7 & H). apply bind_ok in H. destruct H as (g4 & I8 & H).
  destruct (_ || _) eqn:CK in H; [discriminate|]. apply orb_false_iff in CK. destruct CK as [CK1 CK2].
  apply bind_ok in H. destruct H as (gv & EG & H). apply bind_ok in H. destruct H as (bs & EB & H).
  apply bind_ok in H. destruct H as (rb0 & I9 & H). apply bind_ok in H. destruct H as (rl & I10 & H). apply bind_ok in H. destruct H as (ll & I11 & H). apply bind_ok in H. destruct H as (lb0 & I12 & H). apply Ok_inj in H.
  destruct (roofs_made q c (vxy thumb) (vxy pinky) SP' r E1) as (up & RF). destruct fl as [lf lb]. cbn [fst snd] in *.
  destruct (fillets_made q c _ _ SP' r up lf lb RF E2) as (LF & LB & LH). pose proof (notch_made q c _ _ SP' r up lb no RF LB LH E7) as NF.
  change (Rleb (X (noRBT no) * 2) (vmag (vsub (hitchOLB ht) (hitchORB ht)) + pa_hitchRadius c) = false) in CK1. apply Rleb_false in CK1.
  change (Rleb (- (pa_hitchDepth c + pa_bodyMargin c)) (Y (noRFT no)) = false) in CK2. apply Rleb_false in CK2. pose proof CK2 as CK3. rewrite (nf_rft _ _ _ _ NF) in CK2.
  assert (CHK : - (pa_bodyMargin c + pa_depth c) + pa_floorContact c + pa_floorHeight c < - (pa_hitchDepth c + pa_bodyMargin c)) by exact CK2. clear CK2.
  pose proof (facts c _ _ SP' no NF CHK) as (F1 & F2 & F3 & F4 & F5 & F6 & F7 & F8). pose proof eps_pos as EP.
  rewrite (rf_pl _ _ _ _ _ RF) in E3, E5. rewrite (rf_pr _ _ _ _ _ RF) in E4, E6.
  assert (ML : -1 = 1 \/ -1 = -1) by (right; reflexivity). assert (PL : 1 = 1 \/ 1 = -1) by (left; reflexivity).
  pose proof (fillet_side c (vxy thumb) (vxy pinky) _ (-1) lf aL _ _ (side_left c (vxy thumb) (vxy pinky) 0) ML LF E3) as QL. pose proof (fillet_side c (vxy thumb) (vxy pinky) _ 1 lf aR _ _ (side_right c (vxy thumb) (vxy pinky) 0) PL LF E4) as QR.
  pose proof (fillet_side c (vxy thumb) (vxy pinky) _ (-1) lb fLB _ _ (side_left c (vxy thumb) (vxy pinky) 0) ML LB E5) as QLB. pose proof (fillet_side c (vxy thumb) (vxy pinky) _ 1 lb fRB _ _ (side_right c (vxy thumb) (vxy pinky) 0) PL LB E6) as QRB.
  rewrite outset_is in QL, QR, QLB, QRB. fold o in QL, QR, QLB, QRB.
  assert (BOXO : palm_box c (@ndiv Rnum (vmag (vsub (vxy pinky) (vxy thumb))) (nZ 2)) = palm_box c o) by (rewrite outset_is; reflexivity).
  assert (SBX : forall s v, s = 1 \/ s = -1 -> s * X v * cos (pa_taperAngle c) = half_width c o (Y v) -> - (pa_bodyMargin c + pa_depth c) <= Y v <= - pa_bodyMargin c -> - pa_floorHeight c <= Z v <= pa_height c - pa_floorHeight c -> palm_box c o v).
  { intros s v HS HX HY HZ. rewrite <- BOXO. apply (side_box c _ _ SP' s v HS); [rewrite outset_is; exact HX|exact HY|exact HZ]. }
  assert (BL : forall v, In v aL -> palm_box c o v /\ side_corner up (-1) v). { intros v I. destruct (QL v I) as (Y1 & Z1 & X1). split; [apply (SBX (-1)); [exact ML|exact X1|lra|lra]|]. split; [exact X1|]. left. lra. }
  assert (BR : forall v, In v aR -> palm_box c o v /\ side_corner up 1 v). { intros v I. destruct (QR v I) as (Y1 & Z1 & X1). split; [apply (SBX 1); [exact PL|exact X1|lra|lra]|]. split; [exact X1|]. left. lra. }
  assert (BLB : forall v, In v fLB -> palm_box c o v /\ side_corner up (-1) v). { intros v I. destruct (QLB v I) as (Y1 & Z1 & X1). split; [apply (SBX (-1)); [exact ML|exact X1|lra|lra]|]. split; [exact X1|]. left. lra. }
  assert (BRB : forall v, In v fRB -> palm_box c o v /\ side_corner up 1 v). { intros v I. destruct (QRB v I) as (Y1 & Z1 & X1). split; [apply (SBX 1); [exact PL|exact X1|lra|lra]|]. split; [exact X1|]. left. lra. }
  assert (PE : forall p0, profile c 0 p0 -> - (pa_bodyMargin c + pa_depth c) <= X p0 <= - pa_bodyMargin c). { intros p0 PR. pose proof (sp_fillet c o SP) as SFI. pose proof (profile_ends c 0 p0 (sp_tilt c o SP) (sp_depth c o SP) ltac:(lra) PR). lra. }
  assert (BRL : forall v, In v (prL r) -> palm_box c o v /\ side_corner up (-1) v).
  { intros v I. destruct (rf_l _ _ _ _ _ RF v I) as (p0 & PR & [OY OZ] & X1 & Z1 & Z2). rewrite outset_is in X1. fold o in X1. pose proof (PE p0 PR). assert (X2 : -1 * X v * cos (pa_taperAngle c) = half_width c o (Y v)) by (rewrite <- X1; ring).
    split; [apply (SBX (-1)); [exact ML|exact X2|lra|lra]|]. split; [exact X2|]. right. left. exists p0. split; [exact PR|]. split; assumption. }
  assert (BRR : forall v, In v (prR r) -> palm_box c o v /\ side_corner up 1 v).
  { intros v I. destruct (rf_r _ _ _ _ _ RF v I) as (p0 & PR & [OY OZ] & X1 & Z1 & Z2). rewrite outset_is in X1. fold o in X1. pose proof (PE p0 PR). assert (X2 : 1 * X v * cos (pa_taperAngle c) = half_width c o (Y v)) by (rewrite <- X1; ring).
    split; [apply (SBX 1); [exact PL|exact X2|lra|lra]|]. split; [exact X2|]. right. left. exists p0. split; [exact PR|]. split; assumption. }
  assert (RL : forall v, In v (prL r ++ aL) -> palm_box c o v /\ side_corner up (-1) v) by (intros v I; apply in_app_or in I; destruct I; auto).
  assert (RR : forall v, In v (prR r ++ aR) -> palm_box c o v /\ side_corner up 1 v) by (intros v I; apply in_app_or in I; destruct I; auto).
  assert (NRG : forall v, In v (noFilletRG no) -> palm_box c o v) by (intros v I; rewrite <- BOXO; exact (fillet_rg c _ _ SP' no NF CHK v I)).
  assert (NRT : forall v, In v (noFilletRT no) -> palm_box c o v) by (intros v I; rewrite <- BOXO; exact (fillet_rt c _ _ SP' no NF CHK v I)).
  assert (MIR : forall l, (forall v, In v l -> palm_box c o v) -> forall v, In v (emirX l) -> palm_box c o v).
  { intros l HL v I. unfold emirX in I. apply in_map_iff in I. destruct I as (v0 & <- & I). rewrite <- BOXO. apply box_mirror. rewrite BOXO. exact (HL v0 I). }
  pose proof (MIR _ NRG) as NLG. pose proof (MIR _ NRT) as NLT.
  assert (NET : forall v, In v (noEdgeT no) -> palm_box c o v) by (intros v I; rewrite <- BOXO; exact (upper_box c _ _ SP' no NF CHK v I)).
  assert (NEG : forall v, In v (noEdgeG no) -> palm_box c o v) by (intros v I; rewrite <- BOXO; exact (lower_box c _ _ SP' no NF CHK v I)).
  assert (GV : (forall v, In v (mesh_points (gvMesh gv)) -> own up v) /\ (forall f v, In f (gvFaces gv) -> In v f -> own up v) /\ (forall v, In v (gvLT gv) -> own up v /\ side_corner up (-1) v) /\ (forall v, In v (gvRT gv) -> own up v /\ side_corner up 1 v) /\
     (forall v, In v (gvLG gv) -> own up v) /\ (forall v, In v (gvRG gv) -> own up v)).
  { destruct (pa_groove c) as [g|] eqn:EGC.
    - assert (SG' : sane_groove c (@ndiv Rnum (vmag (vsub (vxy pinky) (vxy thumb))) (nZ 2)) g) by (rewrite outset_is; exact SG).
      pose proof (groove_made q c _ _ SP' g up SG' r gv RF EG) as [K1 K2 K3 K4 K5 K6 K7].
      assert (GO : forall v, groove_corner c (@ndiv Rnum (vmag (vsub (vxy pinky) (vxy thumb))) (nZ 2)) up g v -> own up v). { intros v Q. rewrite outset_is in Q. right. exists g. split; [exact EGC|exact Q]. }
      assert (SR : forall s v, s = 1 \/ s = -1 -> rail_any c (vxy thumb) (vxy pinky) up (gr_roofMargin g) s 0 v -> own up v /\ side_corner up s v).
      { intros s v HS Q. split.
        - apply GO. apply (rail_corner c _ _ SP' g up SG' (gr_roofMargin g) s 0 v (or_introl eq_refl) K7 HS); [destruct SG as (_ & _ & W & _); lra|exact Q].
        - destruct Q as [(A1 & A2 & A3)|[(A1 & A2 & A3)|(p0 & A1 & A2 & A3)]]; rewrite outset_is in A3; fold o in A3; rewrite Rminus_0_r in A3.
          + split; [rewrite A1; exact A3|]. left. lra.
          + split; [rewrite A1; exact A3|]. left. lra.
          + split; [exact A3|]. right. right. exists g, p0. split; [exact EGC|]. split; assumption. }
      split; [intros v I; apply GO, K1, I|]. split; [intros f v I J; apply GO, (K2 f v I J)|]. split; [intros v I; exact (SR (-1) v ML (K3 v I))|]. split; [intros v I; exact (SR 1 v PL (K4 v I))|]. split; [intros v I; apply GO, K5, I|intros v I; apply GO, K6, I].
    - apply Ok_inj in EG. subst gv. cbn [gvMesh gvFaces gvLT gvLG gvRT gvRG mesh_points]. repeat split; intros; try contradiction. }
  destruct GV as (GM & GFA & GLT & GRT & GLG & GRG).
  assert (FEET : forall b v, In b bs -> In v (mesh_points (buMesh b)) \/ In v (buFloor b) -> palm_box c o v).
  { destruct bumper as [bc|]; [|cbn in EB; apply Ok_inj in EB; subst bs; intros b v []]. intros b v IB IV. rewrite <- BOXO. apply (feet_made q c _ _ SP' bc r up bs RF SF) with (b := b); [lra|exact EB|exact IB|exact IV]. }
  assert (PT : forall v, transformed v (placeMatrix (vxy thumb) (vxy pinky)) = placed pinky thumb v) by (intros v; apply place_is, NE).
  assert (OWN : forall v, palm_box c o v -> own up v) by (intros v Q; left; exact Q).
  assert (SIDR : forall v, In v (fRB ++ (prR r ++ aR) ++ gvRT gv) -> own up v /\ side_corner up 1 v). { intros v I. apply in_app_or in I. destruct I as [I|I]; [destruct (BRB v I); auto|]. apply in_app_or in I. destruct I as [I|I]; [destruct (RR v I); auto|auto]. }
  assert (SIDL : forall v, In v (fLB ++ (prL r ++ aL) ++ gvLT gv) -> own up v /\ side_corner up (-1) v). { intros v I. apply in_app_or in I. destruct I as [I|I]; [destruct (BLB v I); auto|]. apply in_app_or in I. destruct I as [I|I]; [destruct (RL v I); auto|auto]. }
  apply pyidx_in in I1. apply pyidx_in in I2. apply pyidx_in in I3. apply pyidx_in in I4. apply pyidx_in in I5. apply pyidx_in in I6. apply pyidx_in in I7. apply pyidx_in in I8. apply pyidx_in in I9. apply pyidx_in in I10. apply pyidx_in in I11.
  assert (LB0 : In lb0 fLB /\ Z lb0 = - pa_floorHeight c).
  { split; [exact (pyidx_in _ _ _ I12)|]. destruct (first_is _ _ I12) as (rest & ER). apply cut_lines in E5. rewrite ER in E5. destruct lb as [|l lb']; [inversion E5|]. assert (OL : on_line l lb0) by (inversion E5 as [|u1 u2 u3 u4 [_ OL] F]; exact OL).
    specialize (LH ltac:(discriminate)). cbn [hd] in LH. subst l. apply on_xline in OL. apply OL. }
  exists up. subst p. cbn [paMesh paSideR paSideL paNotch]. split; [|split; [|split; [|split; [|split; [|split; [|split]]]]]].
  - intros v I. apply meshes_in in I. destruct I as (ms & IM & I).
    assert (TR : forall l, (forall w, In w l -> own up w) -> In v (etransformed l (placeMatrix (vxy thumb) (vxy pinky))) -> thread_corner v \/ exists v0, v = placed pinky thumb v0 /\ own up v0).
    { intros l HL J. unfold etransformed in J. apply in_map_iff in J. destruct J as (w & <- & J). right. exists w. split; [apply PT|apply HL, J]. }
    destruct IM as [<-|[<-|[<-|IM]]].
    + cbn [mesh_points] in I. apply in_map_iff in I. destruct I as (w & <- & I). right. exists w. split; [apply PT|]. apply meshes_in in I. destruct I as (ms & IM & I). destruct IM as [<-|[<-|IM]].
      * apply OWN. apply meshes_in in I. destruct I as (ms & IM & I). destruct IM as [<-|[<-|[<-|[<-|[<-|[<-|[<-|[<-|[]]]]]]]]]; cbn [mesh_points] in I; apply in_app_or in I.
        { destruct I as [I|I]; [apply (RL w I)|apply (RR w I)]. }
        { destruct I as [[<-|[<-|[<-|[<-|[]]]]]|[<-|[<-|[<-|[<-|[]]]]]]; [apply (BLB _ I1)|apply (RL _ I2)|apply (RR _ I3)|apply (BRB _ I4)|apply NLG, I5|apply NLT, I6|apply NRT, I7|apply NRG, I8]. }
        { destruct I as [I|I]; [apply NEG, I|apply NET, I]. }
        { destruct I as [I|I]; [apply (BLB w I)|apply NLG, I]. }
        { destruct I as [I|I]; [apply NLG, I|apply NLT, I]. }
        { destruct I as [I|I]; [apply NLT, I|apply NRT, I]. }
        { destruct I as [I|I]; [apply NRT, I|apply NRG, I]. }
        { destruct I as [I|I]; [apply NRG, I|apply (BRB w I)]. }
      * apply GM, I.
      * apply in_map_iff in IM. destruct IM as (b & <- & IB). apply OWN. apply (FEET b w IB). left. exact I.
    + left. exists (bossHitchL ht). split; [left; reflexivity|left; exact I].
    + left. exists (bossHitchR ht). split; [right; reflexivity|left; exact I].
    + apply in_app_or in IM. destruct IM as [IM|IM].
      * apply in_map_iff in IM. destruct IM as (e & <- & IE). cbn [mesh_points concat] in I. rewrite app_nil_r in I. apply (TR e); [|exact I]. intros w J. exact (GFA e w IE J).
      * destruct IM as [<-|[<-|[<-|[<-|[]]]]]; cbn [mesh_points] in I; apply in_app_or in I.
        { destruct I as [I|I].
          - refine (TR _ _ I). intros w J. apply in_app_or in J. destruct J as [J|J]; [apply (proj2 (in_rev _ _)) in J; apply OWN, NEG, J|]. apply in_app_or in J. destruct J as [[<-|[]]|J]; [apply OWN, (BRB _ I9)|]. apply in_app_or in J. destruct J as [J|J]; [apply GRG, J|].
            apply in_app_or in J. destruct J as [[<-|[<-|[]]]|J]; [apply OWN, (RR _ I10)|apply OWN, (RL _ I11)|]. apply in_app_or in J. destruct J as [J|J]; [apply GLG, J|]. destruct J as [<-|[]]. apply OWN, (BLB _ (proj1 LB0)).
          - apply in_concat in I. destruct I as (e & IE & I). apply in_map_iff in IE. destruct IE as (b & <- & IB). refine (TR _ _ I). intros w J. apply OWN. apply (FEET b w IB). right. exact J. }
        { destruct I as [I|[]]. refine (TR _ _ I). intros w J. apply (collapsed_in _ _ _) in J. apply (SIDR w J). }
        { destruct I as [I|[]]. refine (TR _ _ I). intros w J. apply (proj2 (in_rev _ _)) in J. apply (collapsed_in _ _ _) in J. apply (SIDL w J). }
        { destruct I as [I|I]; [refine (TR _ _ I); intros w J; apply OWN, NET, J|]. left. cbn [concat] in I. apply in_app_or in I. rewrite app_nil_r in I. destruct I as [I|I]; [exists (bossHitchL ht); split; [left; reflexivity|right; exact I]|exists (bossHitchR ht); split; [right; reflexivity|right; exact I]]. }
  - exact SIDR.
  - exact SIDL.
  - destruct (rf_top _ _ _ _ _ RF) as (v & I & E). exists v. split; [apply in_or_app; right; apply in_or_app; left; apply in_or_app; left; exact I|exact E].
  - destruct (rf_back _ _ _ _ _ RF) as (v & I & E). exists v. split; [apply in_or_app; right; apply in_or_app; left; apply in_or_app; left; exact I|exact E].
  - destruct (rf_front _ _ _ _ _ RF) as (v & I & E). exists v. split; [apply in_or_app; right; apply in_or_app; left; apply in_or_app; left; exact I|exact E].
  - exists lb0. split; [apply in_or_app; left; apply LB0|apply LB0].
  - exists no. split; [exact NF|]. split; [unfold etransformed; apply map_ext; exact PT|]. split; [exact CK3|]. split; [exact CK1|]. eexists. split; [reflexivity|]. right. right. right. apply in_or_app. right. right. right. right. left. reflexivity.
Qed.
End Shape.

(** ** C93 the size of the palm rest *)
(* with sane settings every corner of every triangle belongs to a screw thread of the hitch, or is the place before the front wall (from pinky to thumb) of a point
   in the box: below the height, above the desk, between the tapered sides that start at the ends of the front wall, from the margin
   before the wall to the depth further on (or of a point of the groove in the ground view of that box); and the box is filled: the left side reaches its top,
   its bottom, its back and its front *)
Theorem C93_palm_size : forall lt_inf fuel sched q c bumper plc h pts ht p ts, planHitch plc h pts = Ok ht -> newPalm q c bumper pts ht = Ok p ->
  let pinky := pinkyORFp pts in let thumb := thumbOLFp pts in let o := edist2 pinky thumb / 2 in
  sane_palm c o -> match bumper with Some bc => sane_feet c bc | None => True end -> match pa_groove c with Some g => sane_groove c o g | None => True end ->
  eval (triangulate lt_inf fuel sched) (paMesh p) = Ok ts ->
  (exists up, forall t v, In t ts -> In v (corners t) ->
    (exists b, (b = bossHitchL ht \/ b = bossHitchR ht) /\ (In v (mesh_points (bThread b)) \/ In v (threadHole b))) \/
    exists v0, v = placed pinky thumb v0 /\ (palm_box c o v0 \/ exists g, pa_groove c = Some g /\ groove_corner c o up g v0)) /\
  (exists v, In v (paSideL p) /\ Z v = pa_height c - pa_floorHeight c) /\ (exists v, In v (paSideL p) /\ Z v = - pa_floorHeight c) /\
  (exists v, In v (paSideL p) /\ Y v = - pa_bodyMargin c) /\ (exists v, In v (paSideL p) /\ Y v = - (pa_bodyMargin c + pa_depth c)).
Proof.
  intros lt_inf fuel sched q c bumper plc h pts ht p ts HH HP pinky thumb o SP SF SG E.
  destruct (palm_facts q c bumper plc h pts ht p HH HP SP SF SG) as (up & A & _ & _ & B1 & B2 & B3 & B4 & _). split; [|auto].
  exists up. intros t v It Iv. apply A. eapply eval_corners; [|exact E|exact It|exact Iv]. intros e hs ts' t' v' F J K. eapply triangulate_corners; eassumption.
Qed.
Print Assumptions C93_palm_size.

(** ** C95 the surface of the palm rest *)
(* every point of the outline of a side lies exactly in that side, which starts at the end of the front wall with the taper angle, and is part of the fillet at the floor, or of the roof: on the straight line
   (sloped by the tent angle) through a point of the profile, the same for both sides; or it belongs to the groove, whose profile runs roofMargin below the surface *)
Theorem C95_palm_sides : forall q c bumper plc h pts ht p, planHitch plc h pts = Ok ht -> newPalm q c bumper pts ht = Ok p ->
  let o := edist2 (pinkyORFp pts) (thumbOLFp pts) / 2 in
  sane_palm c o -> match bumper with Some bc => sane_feet c bc | None => True end -> match pa_groove c with Some g => sane_groove c o g | None => True end ->
  exists up, forall s v, (s = 1 /\ In v (paSideR p)) \/ (s = -1 /\ In v (paSideL p)) ->
    s * X v * cos (pa_taperAngle c) = half_width c o (Y v) /\
    (- pa_floorHeight c <= Z v <= pa_floorFillet c - pa_floorHeight c \/ (exists p0, profile c 0 p0 /\ on_ruling c up p0 v) \/
     exists g p0, pa_groove c = Some g /\ profile c (gr_roofMargin g) p0 /\ on_ruling c up p0 v).
Proof.
  intros q c bumper plc h pts ht p HH HP o SP SF SG. destruct (palm_facts q c bumper plc h pts ht p HH HP SP SF SG) as (up & _ & A & B & _). exists up.
  intros s v [[-> I]|[-> I]]; [exact (proj2 (A v I))|exact (proj2 (B v I))].
Qed.
Print Assumptions C95_palm_sides.
(* the profile has no kinks: where two of its arcs meet, they have the same point and the same normal; and the profile i below the surface is parallel to it *)
Theorem C95_profile_smooth : forall (c : @palm_cfg Rnum) i, - (PI / 4) <= pa_tiltAngle c <= PI / 4 -> 0 < roof_turn c ->
  along (back_centre c) (pa_roofFillet c - i) (roof_start c) = along (roof_centre c) (roof_radius c - i) (roof_start c) /\
  along (front_centre c) (pa_roofFillet c - i) (roof_start c + roof_turn c) = along (roof_centre c) (roof_radius c - i) (roof_start c + roof_turn c).
Proof. intros c i T H. split; [apply meet_back; exact H|apply meet_front; assumption]. Qed.
Print Assumptions C95_profile_smooth.
Theorem C95_groove_parallel : forall (c : @palm_cfg Rnum) i p, 0 <= i -> profile c i p -> exists p0, profile c 0 p0 /\ edist2 p p0 = i.
Proof.
  intros c i p I0 H. assert (D : forall ce r t, edist2 (along ce (r - i) t) (along ce (r - 0) t) = i).
  { intros ce r t. unfold edist2, sqdist2, along, Rsqr, P, X, Y. cbn [vx vy]. pose proof (sin2_cos2 t) as U. unfold Rsqr in U. match goal with |- sqrt ?e = _ => replace e with (i * i * (sin t * sin t + cos t * cos t)) by ring end. rewrite U, Rmult_1_r. apply sqrt_square, I0. }
  destruct H as [(t & T & ->)|[(W & t & T & ->)|(t & T & ->)]]; eexists; (split; [|apply D]); [left|right; left; split; [exact W|]|right; right]; exists t; (split; [exact T|reflexivity]).
Qed.
Print Assumptions C95_groove_parallel.

(** ** C94 room for the hitch *)
Lemma in_disk (nx ny r : R) (w k : pt) : nx * nx + ny * ny = 1 -> 0 <= r -> sqdist2 w k <= r * r -> nx * X w + ny * Y w <= nx * X k + ny * Y k + r.
Proof.
  intros U R0 D. unfold sqdist2, Rsqr in D. set (dx := X w - X k) in *. set (dy := Y w - Y k) in *. assert (S : nx * dx + ny * dy <= r).
  { apply Rsqr_incr_0_var; [|exact R0]. unfold Rsqr. pose proof (Rle_0_sqr (nx * dy - ny * dx)) as Q. unfold Rsqr in Q. assert ((nx * nx + ny * ny) * (dx * dx + dy * dy) = dx * dx + dy * dy) by (rewrite U; ring). nra. }
  unfold dx, dy in S. lra.
Qed.
Section Room.
Variables (c : @palm_cfg Rnum) (h : @hitch_cfg Rnum) (o H0 : R) (ft : pt).
Let a : R := pa_taperAngle c.
Let m : R := pa_bodyMargin c.
Let hr : R := pa_hitchRadius c.
Let w0 : R := pa_floorContact c + pa_floorHeight c.
Hypothesis SAME : same_palm c h.
Hypothesis TA : 0 <= a < PI / 2.
Hypothesis HR : 0 < hr.
(* the hitch is narrower than the notch, and ends before it *)
Hypothesis GAP : hitch_half h 0 * cos a < o * cos a - w0.
Hypothesis END : Y ft < - (pa_hitchDepth c + m).
Hypothesis FT : X ft * cos a - Y ft * sin a = o * cos a - w0.
Lemma core_support (t : R) k : a <= t <= PI / 2 -> hitch_core h hr k -> cos t * X k - sin t * Y k <= cos t * X ft - sin t * (Y ft + hr) - cos t * (hr * (1 - sin a) / cos a) /\
   cos t * X k - sin t * Y k <> cos t * X ft - sin t * (Y ft + hr) - cos t * (hr * (1 - sin a) / cos a).
Proof.
  intros T (K1 & _ & K3). destruct SAME as (S1 & S2 & S3). pose proof PI_RGT_0 as PP. assert (CA : 0 < cos a) by (apply cos_gt_0; lra).
  rewrite <- S1 in K1. rewrite <- S2, <- S3 in K3. fold a in K1. fold m in K3.
  assert (HH : hitch_half h (Y k) * cos a = hitch_half h 0 * cos a + Y k * sin a). { unfold hitch_half. rewrite <- S1. fold a. field. lra. }
  set (la := cos t / cos a). set (mu0 := sin (t - a) / cos a).
  assert (L0 : 0 <= la) by (apply Rmult_le_pos; [apply cos_ge_0; lra|left; apply Rinv_0_lt_compat, CA]). assert (M0 : 0 <= mu0) by (apply Rmult_le_pos; [apply sin_ge_0; lra|left; apply Rinv_0_lt_compat, CA]).
  assert (C1 : cos t = la * cos a) by (unfold la; field; lra). assert (C2 : sin t = la * sin a + mu0). { unfold la, mu0. rewrite sin_minus. field. lra. }
  assert (NZ : 0 < la \/ 0 < mu0). { destruct (Req_dec la 0) as [E|E]; [|left; lra]. destruct (Req_dec mu0 0) as [E2|E2]; [|right; lra]. exfalso. pose proof (sin2_cos2 t) as Q. unfold Rsqr in Q. rewrite C1, C2, E, E2 in Q. lra. }
  assert (Q1 : X k * cos a - Y k * sin a <= hitch_half h 0 * cos a - hr) by lra.
  assert (E1 : cos t * X k - sin t * Y k = la * (X k * cos a - Y k * sin a) + mu0 * - Y k) by (rewrite C1, C2; ring).
  assert (E2 : cos t * X ft - sin t * (Y ft + hr) - cos t * (hr * (1 - sin a) / cos a) = la * (o * cos a - w0 - hr) + mu0 * - (Y ft + hr)). { rewrite <- FT, C1, C2. field. lra. }
  rewrite E1, E2. assert (B1 : la * (X k * cos a - Y k * sin a) <= la * (o * cos a - w0 - hr)) by (apply Rmult_le_compat_l; [exact L0|lra]). assert (B2 : mu0 * - Y k <= mu0 * - (Y ft + hr)) by (apply Rmult_le_compat_l; [exact M0|lra]).
  split; [lra|]. destruct NZ as [NZ|NZ].
  - assert (la * (X k * cos a - Y k * sin a) < la * (o * cos a - w0 - hr)) by (apply Rmult_lt_compat_l; [exact NZ|lra]). lra.
  - assert (mu0 * - Y k < mu0 * - (Y ft + hr)) by (apply Rmult_lt_compat_l; [exact NZ|lra]). lra.
Qed.
Lemma room_corner t w : a <= t <= PI / 2 -> hitch_round h hr w -> cos t * X w - sin t * Y w < cos t * (X ft - hr * (1 - sin a) / cos a + hr * cos t) - sin t * (Y ft + hr - hr * sin t).
Proof.
  intros T (k & K & D). destruct (core_support t k T K) as [Q1 Q2]. pose proof (in_disk (cos t) (- sin t) hr w k) as I. pose proof (sin2_cos2 t) as U. unfold Rsqr in U.
  specialize (I ltac:(lra) ltac:(lra) D). assert (W : hr * (sin t * sin t + cos t * cos t) = hr) by (rewrite U; ring). lra.
Qed.
Lemma room_side (v w : pt) : X v * cos a - Y v * sin a = o * cos a - w0 -> hitch_round h hr w -> cos a * X w - sin a * Y w < cos a * X v - sin a * Y v.
Proof.
  intros V (k & (K1 & _ & _) & D). destruct SAME as (S1 & _ & _). pose proof PI_RGT_0 as PP. assert (CA : 0 < cos a) by (apply cos_gt_0; lra). rewrite <- S1 in K1. fold a in K1.
  assert (HH : hitch_half h (Y k) * cos a = hitch_half h 0 * cos a + Y k * sin a). { unfold hitch_half. rewrite <- S1. fold a. field. lra. }
  pose proof (in_disk (cos a) (- sin a) hr w k) as I. pose proof (sin2_cos2 a) as U. unfold Rsqr in U. specialize (I ltac:(lra) ltac:(lra) D). lra.
Qed.
Lemma round_mirror w : hitch_round h hr w -> hitch_round h hr (vmirX w).
Proof.
  intros (k & (K1 & K2 & K3) & D). exists (vmirX k). destruct w as [w1 w2 w3], k as [k1 k2 k3]. unfold hitch_core, sqdist2, Rsqr, vmirX, X, Y in *. cbn [vx vy vz] in *. rn.
  rewrite Ropp_involutive. split; [auto|]. replace ((- w1 - - k1) * (- w1 - - k1)) with ((w1 - k1) * (w1 - k1)) by ring. exact D.
Qed.
End Room.
(* if the constructor accepts the settings, the ceiling of the notch is a face in the plane of the seam with the two thread holes of the hitch, and through each
   point of its outline there is a line that leaves the whole hitch (rounded at its front) on one side: the hitch lies inside, without touching the wall *)
Theorem C94_hitch_room : forall q c bumper plc h pts ht p, planHitch plc h pts = Ok ht -> newPalm q c bumper pts ht = Ok p ->
  let pinky := pinkyORFp pts in let thumb := thumbOLFp pts in let o := edist2 pinky thumb / 2 in
  sane_palm c o -> match bumper with Some bc => sane_feet c bc | None => True end -> match pa_groove c with Some g => sane_groove c o g | None => True end ->
  same_palm c h -> 0 <= pa_bodyMargin c ->
  (exists ms, paMesh p = meshes ms /\ In (Fill (paNotch p) [threadHole (bossHitchL ht); threadHole (bossHitchR ht)]) ms) /\
  forall v, In v (paNotch p) -> exists v0 nx ny, v = placed pinky thumb v0 /\ Z v0 = 0 /\ nx * nx + ny * ny = 1 /\
    forall w, hitch_round h (pa_hitchRadius c) w -> nx * X w + ny * Y w < nx * X v0 + ny * Y v0.
Proof.
  intros q c bumper plc h pts ht p HH HP pinky thumb o SP SF SG SAME M0.
  destruct (palm_facts q c bumper plc h pts ht p HH HP SP SF SG) as (up & _ & _ & _ & _ & _ & _ & _ & no & NF & EN & CK2 & CK1 & MS). split; [exact MS|].
  destruct (planHitch_ok plc h pts ht HH) as (NE & CT & _ & _ & OLB & ORB & _). fold pinky thumb in NE, OLB, ORB, NF, EN. fold o in SP, SG.
  pose proof eps_pos as EP. pose proof PI_RGT_0 as PP. pose proof (sp_taper c o SP) as TA. pose proof (sp_hitch c o SP) as HR. set (a := pa_taperAngle c) in *. assert (CA : 0 < cos a) by (apply cos_gt_0; lra). assert (SA : 0 <= sin a) by (apply sin_ge_0; lra).
  assert (OS : @ndiv Rnum (vmag (vsub (vxy pinky) (vxy thumb))) (nZ 2) = o) by apply outset_is.
  assert (W : forall d y z, X (side_pt c (vxy thumb) (vxy pinky) d y z) * cos a - y * sin a = o * cos a - d).
  { intros d y z. assert (SP2 : sane_palm c (@ndiv Rnum (vmag (vsub (vxy pinky) (vxy thumb))) (nZ 2))) by (rewrite OS; exact SP). pose proof (side_pt_x c _ _ SP2 d y z) as Q. rewrite OS in Q. unfold half_width in Q. fold a in Q. lra. }
  pose proof (nf_rbt _ _ _ _ NF) as RB. pose proof (nf_rft _ _ _ _ NF) as RT. rewrite RB in CK1. rewrite RT in CK2.
  pose proof (W (pa_floorContact c + pa_floorHeight c) (- pa_bodyMargin c) 0) as XB.
  pose proof (W (pa_floorContact c + pa_floorHeight c) (- (pa_bodyMargin c + pa_depth c) + pa_floorContact c + pa_floorHeight c) 0) as XF.
  set (ft := side_pt c (vxy thumb) (vxy pinky) (pa_floorContact c + pa_floorHeight c) (- (pa_bodyMargin c + pa_depth c) + pa_floorContact c + pa_floorHeight c) 0) in *.
  set (w0 := pa_floorContact c + pa_floorHeight c) in *.
  assert (HALF : 2 * hitch_half h 0 <= vmag (vsub (hitchOLB ht) (hitchORB ht))).
  { rewrite OLB, ORB. set (hh := _ + (_ + _ / 2 - 0) * _). assert (E : hh = hitch_half h 0). { unfold hh, hitch_half. f_equal. f_equal. ring. } rewrite E. clear E hh. set (hh := hitch_half h 0).
    change (2 * hh <= sqrt (inner (vsub (frame pinky thumb hh 0) (frame pinky thumb (- hh) 0)) (vsub (frame pinky thumb hh 0) (frame pinky thumb (- hh) 0)))).
    assert (E2 : inner (vsub (frame pinky thumb hh 0) (frame pinky thumb (- hh) 0)) (vsub (frame pinky thumb hh 0) (frame pinky thumb (- hh) 0)) = (2 * hh) * (2 * hh)).
    { assert (N2 : edist2 pinky thumb * edist2 pinky thumb = (X thumb - X pinky) * (X thumb - X pinky) + (Y thumb - Y pinky) * (Y thumb - Y pinky)).
      { unfold edist2. rewrite sqrt_sqrt; [unfold sqdist2, Rsqr; ring|]. unfold sqdist2. apply Rplus_le_le_0_compat; apply Rle_0_sqr. }
      unfold frame. cbv zeta. set (n := edist2 pinky thumb) in *. unfold inner, vsub, P, X, Y, Z. cbn [vx vy vz]. rn. fold (X thumb) (X pinky) (Y thumb) (Y pinky).
      transitivity ((2 * hh) * (2 * hh) * (((X thumb - X pinky) * (X thumb - X pinky) + (Y thumb - Y pinky) * (Y thumb - Y pinky)) / (n * n))); [field; exact NE|]. rewrite <- N2. field. exact NE. }
    rewrite E2. change ((2 * hh) * (2 * hh)) with (Rsqr (2 * hh)). rewrite sqrt_Rsqr_abs. apply Rle_abs. }
  assert (GAP : hitch_half h 0 * cos a < o * cos a - w0).
  { assert (0 <= pa_bodyMargin c * sin a) by (apply Rmult_le_pos; lra). assert (QQ : hitch_half h 0 * 2 < X (side_pt c (vxy thumb) (vxy pinky) w0 (- pa_bodyMargin c) 0) * 2) by lra. assert (hitch_half h 0 * cos a < X (side_pt c (vxy thumb) (vxy pinky) w0 (- pa_bodyMargin c) 0) * cos a) by (apply Rmult_lt_compat_r; lra). lra. }
  assert (FP : pa_floorContact c + pa_floorHeight c = w0) by reflexivity.
  pose proof (nf_fh _ _ _ _ NF) as FH. assert (FC : 0 <= pa_floorContact c). { pose proof (sp_floor c o SP). pose proof (sp_contact c o SP). lra. }
  assert (YF : Y ft = - (pa_bodyMargin c + pa_depth c) + pa_floorContact c + pa_floorHeight c) by reflexivity.
  assert (XPOS : 0 < X ft).
  { pose proof (sp_width c o SP) as WD. unfold half_width in WD. fold a w0 in WD. assert (WS : 0 <= w0 * sin a) by (apply Rmult_le_pos; [unfold w0; lra|exact SA]).
    assert (EX : X ft * cos a = o * cos a + - (pa_bodyMargin c + pa_depth c) * sin a - w0 + w0 * sin a) by (unfold w0 in XF |- *; lra). assert (0 < X ft * cos a) by lra.
    apply (Rmult_lt_reg_r (cos a)); [exact CA|]. lra. }
  assert (YM : Y ft < - pa_bodyMargin c) by lra.
  assert (UP : forall v, upper_pt c (vxy thumb) (vxy pinky) v -> Z v = 0 /\ exists nx ny, nx * nx + ny * ny = 1 /\ forall w, hitch_round h (pa_hitchRadius c) w -> nx * X w + ny * Y w < nx * X v + ny * Y v).
  { intros v [->|(t & T & ->)].
    - split; [reflexivity|]. exists (cos a), (- sin a). pose proof (sin2_cos2 a) as U. unfold Rsqr in U. split; [lra|]. intros w HW.
      pose proof (room_side c h o SAME TA ltac:(lra) GAP (side_pt c (vxy thumb) (vxy pinky) w0 (- pa_bodyMargin c - pa_floorFillet c) 0) w (W w0 _ 0) HW) as Q. fold a in Q. unfold w0 in Q at 1 2. lra.
    - split; [reflexivity|]. fold a in T. exists (cos t), (- sin t). pose proof (sin2_cos2 t) as U. unfold Rsqr in U. split; [lra|]. intros w HW.
      pose proof (room_corner c h o ft SAME TA ltac:(lra) GAP ltac:(lra) XF t w T HW) as Q. fold a in Q.
      assert (CX : X (corner_pt c (vxy thumb) (vxy pinky) t) = X ft - pa_hitchRadius c * (1 - sin a) / cos a + pa_hitchRadius c * cos t) by reflexivity.
      assert (CY : Y (corner_pt c (vxy thumb) (vxy pinky) t) = Y ft + pa_hitchRadius c - pa_hitchRadius c * sin t) by reflexivity. rewrite CX, CY. lra. }
  intros v I. rewrite EN in I. apply in_map_iff in I. destruct I as (v0 & <- & I). destruct (nf_t _ _ _ _ NF XPOS YM v0 I) as [Q|(u & Q & ->)].
  - destruct (UP v0 Q) as (Z0 & nx & ny & U & S). exists v0, nx, ny. auto.
  - destruct (UP u Q) as (Z0 & nx & ny & U & S). exists (vmirX u), (- nx), ny. split; [reflexivity|]. split; [destruct u; exact Z0|]. split; [lra|].
    intros w HW. specialize (S (vmirX w) (round_mirror c h w HW)). destruct w as [w1 w2 w3], u as [u1 u2 u3]. unfold vmirX, X, Y in *. cbn [vx vy vz] in *. rn. lra.
Qed.
Print Assumptions C94_hitch_room.

(* the hitch that the body draws: between the corners at the wall, its outline consists of the arcs of its two front corners, with the radius of the settings; all their points belong to the rounded hitch of
   C94_hitch_room (and so does the whole outline between them, as the rounded hitch is convex) *)
Theorem C94_hitch_front : forall (q : @quality Rnum) (c : @body_cfg Rnum) plc h pts ht g k outO outI, planHitch plc h pts = Ok ht -> let r := by_hitchRadius c in
  0 <= palmTaperAngle h < PI / 2 -> 0 < palmBodyMargin h + hitchDepth h -> eps <= r ->
  r * (1 - sin (palmTaperAngle h)) <= hitch_half h (- (palmBodyMargin h + hitchDepth h)) * cos (palmTaperAngle h) ->
  bodyOutlines q c pts g k (Some ht) = Ok (outO, outI) ->
  exists pre wallL front wallR post, outO = collapsed (exy (pre ++ wallL ++ front ++ wallR ++ post)) mu /\
    cornerArc2D q r (thumbOLFp pts) (hitchOLB ht) (hitchOLF ht) = Ok wallL /\ (exists rf, hd_error (oRFG g) = Some rf /\ cornerArc2D q r (hitchORF ht) (hitchORB ht) rf = Ok wallR) /\
    forall v, In v front -> exists w, v = placed (pinkyORFp pts) (thumbOLFp pts) w /\ hitch_round h r w.
Proof.
  intros q c plc h pts ht g k outO outI HH r TA D0 R0 FIT H. unfold bodyOutlines in H. cbv zeta in H. apply bind_ok in H. destruct H as (hs & E & H). apply Ok_inj in H. apply pair_inj in H. destruct H as [<- _].
  apply bind_ok in E. destruct E as (rf & E0 & E). apply bind_ok in E. destruct E as (h1 & E1 & E). apply bind_ok in E. destruct E as (h2 & E2 & E). apply bind_ok in E. destruct E as (h3 & E3 & E). apply bind_ok in E. destruct E as (h4 & E4 & E). apply Ok_inj in E. subst hs. fold r in E1, E2, E3, E4.
  exists (vyz (thumbOLFp pts) :: oLFG g), h1, (h2 ++ h3), h4, (oRFG g ++ oRBG g ++ [alnumOLBp pts; vyz (alnumOLBp pts)]). split; [|split; [exact E1|split]].
  - f_equal. f_equal. cbn [app]. rewrite <- !app_assoc. reflexivity.
  - exists rf. split; [|exact E4]. destruct (first_is _ _ E0) as (rest & ER). rewrite ER. reflexivity.
  - intros v I. exact (hitch_corners q plc h pts ht r h2 h3 HH TA D0 R0 FIT E2 E3 v I).
Qed.
Print Assumptions C94_hitch_front.
Theorem C94_hitch_convex : forall h r (u v : pt) (s : R), 0 <= r -> 0 <= s <= 1 -> hitch_round h r u -> hitch_round h r v -> hitch_round h r (P (X u + s * (X v - X u)) (Y u + s * (Y v - Y u)) 0).
Proof.
  intros h r u v s R0 T (k & (A1 & A2 & A3) & DU) (k' & (B1 & B2 & B3) & DV). exists (P (X k + s * (X k' - X k)) (Y k + s * (Y k' - Y k)) 0). split.
  - unfold hitch_core. change (X (P ?x _ _)) with x. change (Y (P _ ?y _)) with y. set (t := palmTaperAngle h) in *.
    assert (L : hitch_half h (Y k + s * (Y k' - Y k)) = hitch_half h (Y k) + s * (hitch_half h (Y k') - hitch_half h (Y k))) by (unfold hitch_half; ring). rewrite L.
    set (f := hitch_half h (Y k)) in *. set (f' := hitch_half h (Y k')) in *. assert (W : 0 <= 1 - s) by lra.
    pose proof (Rmult_le_compat_l _ _ _ W A1). pose proof (Rmult_le_compat_l _ _ _ (proj1 T) B1). pose proof (Rmult_le_compat_l _ _ _ W A2). pose proof (Rmult_le_compat_l _ _ _ (proj1 T) B2). pose proof (Rmult_le_compat_l _ _ _ W A3). pose proof (Rmult_le_compat_l _ _ _ (proj1 T) B3). split; [|split]; lra.
  - unfold sqdist2, Rsqr in *. change (X (P ?x _ _)) with x. change (Y (P _ ?y _)) with y. set (a := X u - X k) in *. set (b := Y u - Y k) in *. set (a' := X v - X k') in *. set (b' := Y v - Y k') in *.
    replace (X u + s * (X v - X u) - (X k + s * (X k' - X k))) with ((1 - s) * a + s * a') by (unfold a, a'; ring). replace (Y u + s * (Y v - Y u) - (Y k + s * (Y k' - Y k))) with ((1 - s) * b + s * b') by (unfold b, b'; ring).
    assert (C : a * a' + b * b' <= r * r). { pose proof (Rle_0_sqr (a - a')). pose proof (Rle_0_sqr (b - b')). unfold Rsqr in *. lra. }
    assert (S1 : 0 <= (1 - s) * (1 - s)) by (apply Rmult_le_pos; lra). assert (S2 : 0 <= s * s) by (apply Rmult_le_pos; lra). assert (S3 : 0 <= 2 * ((1 - s) * s)) by (apply Rmult_le_pos; [lra|apply Rmult_le_pos; lra]).
    pose proof (Rmult_le_compat_l _ _ _ S1 DU). pose proof (Rmult_le_compat_l _ _ _ S2 DV). pose proof (Rmult_le_compat_l _ _ _ S3 C). lra.
Qed.
Print Assumptions C94_hitch_convex.

(* the settings of the default palm rest, with half the length of its front wall; the constructor accepts them in P_Palm.v *)
Definition palm_R : @palm_cfg Rnum := @mkPalmCfg Rnum 3 (PI / 25) (3 / 2) 24 1 15 15 5 80 (PI / 60) (PI / 30) (1 / 5) 6 (Some (@mkGrooveCfg Rnum 10 (9 / 5) (5 / 2) (1 / 2))).
Example C93_nonvacuous : sane_palm palm_R 61 /\ sane_feet palm_R (@mkBumperCfg Rnum (42 / 5) 1 3) /\ match pa_groove palm_R with Some g => sane_groove palm_R 61 g | None => True end /\
  same_palm palm_R (@mkHitchCfg Rnum 15 50 (3 / 2) (PI / 25)) /\ 0 <= pa_bodyMargin palm_R /\ 5 * (1 - sin (PI / 25)) <= hitch_half (@mkHitchCfg Rnum 15 50 (3 / 2) (PI / 25)) (- (3 / 2 + 15)) * cos (PI / 25).
Proof.
  pose proof PI_RGT_0 as PP. pose proof PI_4 as P4. assert (S0 : 0 <= sin (PI / 25)) by (apply sin_ge_0; lra). assert (S1 : sin (PI / 25) < 4 / 25) by (eapply Rlt_le_trans; [apply sin_lt_x|]; lra).
  pose proof (sin2_cos2 (PI / 25)) as U. unfold Rsqr in U. assert (C0 : 0 < cos (PI / 25)) by (apply cos_gt_0; lra). assert (C1 : 19 / 20 <= cos (PI / 25)) by nra.
  assert (HW : half_width palm_R 61 (- (3 / 2 + 80)) = 61 * cos (PI / 25) + - (3 / 2 + 80) * sin (PI / 25)) by reflexivity. pose proof eps_pos as EP. assert (EP1 : eps < 1) by (unfold eps; lra).
  split; [|split; [|split; [|split; [|split]]]].
  - split; cbn [pa_tiltAngle pa_tentAngle pa_taperAngle pa_roofFillet pa_depth pa_floorFillet pa_floorContact pa_floorHeight pa_height pa_hitchRadius pa_hitchDepth pa_bodyMargin palm_R]; rn; try lra.
  - unfold sane_feet. cbn [bu_diameter bu_margin bu_height pa_floorContact pa_height pa_depth pa_groove palm_R gr_roofMargin gr_height]. rn. repeat split; lra.
  - unfold sane_groove. cbn [pa_groove palm_R gr_roofMargin gr_height gr_width gr_relClamp pa_roofFillet pa_height pa_taperAngle pa_bodyMargin pa_depth]. rn. rewrite HW. repeat split; lra.
  - repeat split.
  - cbn [pa_bodyMargin palm_R]. rn. lra.
  - unfold hitch_half. cbn [hitchScrewPitch hitchDepth palmTaperAngle palmBodyMargin]. rn. replace ((50 / 2 + 15 / 2 / cos (PI / 25) + (3 / 2 + 15 / 2 + - (3 / 2 + 15)) * (sin (PI / 25) / cos (PI / 25))) * cos (PI / 25)) with (25 * cos (PI / 25) + 15 / 2 - 15 / 2 * sin (PI / 25)) by (field; lra). lra.
Qed.
