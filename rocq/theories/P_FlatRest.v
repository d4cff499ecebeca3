(** Property C102: the faces of the knob, the bridge supports and the palm rest are flat.  Read with FlatSpec.v, PalmSpec.v and BrSpec.v. *)
From Coq Require Import Reals Lra Psatz ZArith List Bool Arith Lia.
From Verif Require Import Num GeoModel EdgeModel EdgeSpec GeoSpec GeoMat GeoRigid GeoPlane GeoCirc ArcModel ArcSpec ArcProof ArcCorner ArcShape PartProof CableProof FaceModel MeshModel MeshSpec MeshFace LayoutModel BossModel BossProof PlanModel PlanMove PlanSpec2 PlanRidge WallProof BracketModel
  BumperModel PalmModel PalmSpec PalmShape PalmBox PalmNotch PalmGroove PalmAll PalmProof SupportModel KnobModel KnobSpec BrSpec FlatSpec FlatProof FlatPlates FlatBody FlatRest P_PalmShape P_Knob P_Solid P_Palm Calc P_Layout.
Import ListNotations.
Open Scope R_scope.

(* whatever the settings: if the knob can be drawn, each of its faces is flat, with its holes *)
Theorem C102_knob_flat : forall q (c : @knob_cfg Rnum) m, knob q c = Ok m -> Forall flat_face (faces m).
Proof. exact knob_faces. Qed.
Print Assumptions C102_knob_flat.
Theorem C102_support_flat : forall q (c : @support_cfg Rnum) l r, supportEdges q c = Ok (l, r) -> Forall flat_face (faces (supportMesh l r)).
Proof. intros q c l r H. exact (support_faces q c (l, r) H). Qed.
Print Assumptions C102_support_flat.

Lemma Forall2_length' {A B} (Q : A -> B -> Prop) l l' : Forall2 Q l l' -> length l = length l'.
Proof. induction 1; cbn [length]; congruence. Qed.
Lemma last_cut pl ls vs (v : pt) : cut pl ls = Ok vs -> ls <> [] -> pyidx vs (-1)%Z = Ok v -> on_line (last ls (xline 0 0)) v.
Proof.
  intros H N E. apply cut_lines in H. destruct (forall2_last _ _ _ (xline 0 0) vzero H N) as [_ [_ K]]. rewrite (end_is _ _ vzero E) in K. exact K.
Qed.
Lemma front_last q c r lf lb : fst (lf, lb) = fst (lf, lb) -> (pa_floorFillet c = 0 \/ eps <= pa_floorFillet c) -> filletLines q c r = Ok (lf, lb) ->
  length lf = length lb /\ (lf <> [] -> exists y, last lf (xline 0 0) = xline y (- pa_floorHeight c)).
Proof.
  intros _ S6 H. unfold filletLines in H. cbv zeta in H. apply bind_ok in H. destruct H as (af & E1 & H). apply bind_ok in H. destruct H as (l1 & E2 & H).
  apply bind_ok in H. destruct H as (ab & E3 & H). apply bind_ok in H. destruct H as (l2 & E4 & H). apply Ok_inj in H. apply pair_inj in H. destruct H as [-> ->].
  apply mapM_ok in E2. apply mapM_ok in E4. split.
  - rewrite <- (Forall2_length' _ _ _ E2), <- (Forall2_length' _ _ _ E4). exact (arc_same_size _ _ _ _ _ _ _ _ _ E1 E3).
  - intros NE. pose proof PI_RGT_0 as PP. change (@arc2D Rnum q (pa_floorFillet c) (2 * PI / 2) (2 * PI / 4) vzero = Ok af) in E1. assert (HA : Rabs (2 * PI / 4) <= PI) by (rewrite Rabs_right; lra).
    assert (NA : af <> []) by (intros ->; inversion E2; subst; contradiction).
    destruct (arc_ends q _ _ _ vzero af S6 HA E1 eq_refl NA) as [_ LA].
    destruct (forall2_last _ _ _ vzero (xline 0 0) E2 NA) as [_ K]. rewrite LA in K. apply (newLine_unit _ _ _ unit_x) in K. rewrite K.
    replace (2 * PI / 2 + 2 * PI / 4) with (3 * (PI / 2)) by field. rewrite cos_3PI2, sin_3PI2. eexists. unfold xline. f_equal. unfold vadd, vzero, P, X, Y, Z. cbn [vx vy vz]. rn. f_equal; [apply Rplus_0_r|ring].
Qed.
Lemma faces_meshes l : Forall (fun m => faces m = []) l -> faces (meshes l) = [].
Proof. induction 1 as [|m l H _ IH]; [reflexivity|]. cbn [meshes faces]. rewrite H, IH. reflexivity. Qed.
Lemma groove_walls q c g r gv : newGroove q c g r = Ok gv -> faces (gvMesh gv) = [].
Proof.
  intros H. unfold newGroove in H. cbv zeta in H. destruct (nleb _ _) in H; [discriminate|]. do 22 (apply bind_ok in H; destruct H as (? & _ & H)). apply bind_ok in H. destruct H as (cl & CL & H). do 16 (apply bind_ok in H; destruct H as (? & _ & H)). apply Ok_inj in H. subst gv. cbn [gvMesh].
  assert (K : faces cl = []).
  { destruct (nltb _ _) in CL; [|apply Ok_inj in CL; subst cl; reflexivity].
    assert (AC : forall size a b cc d m, @addClamp Rnum size a b cc d = Ok m -> faces m = []). { intros size a b cc d m E. unfold addClamp in E. cbv zeta in E. apply bind_ok in E. destruct E as (? & _ & E). apply Ok_inj in E. subst m. reflexivity. }
    do 4 (do 4 (apply bind_ok in CL; destruct CL as (? & _ & CL)); let m := fresh "m" in let E := fresh "E" in apply bind_ok in CL; destruct CL as (m & E & CL); apply AC in E). apply Ok_inj in CL. subst cl. apply faces_meshes. repeat (constructor; [first [assumption|reflexivity]|]). constructor. }
  apply faces_meshes. repeat (constructor; [first [exact K|reflexivity]|]). constructor.
Qed.

(* with sane settings each face of the finished palm rest is flat, with its holes: the floor, the two sides, the seat of the hitch, and the walls of the groove *)
Theorem C102_palm_flat : forall q c bumper plc h pts ht p, planHitch plc h pts = Ok ht -> newPalm q c bumper pts ht = Ok p ->
  let o := edist2 (pinkyORFp pts) (thumbOLFp pts) / 2 in
  sane_palm c o -> match pa_groove c with Some g => sane_groove c o g | None => True end -> Forall flat_face (faces (paMesh p)).
Proof.
  intros q c bumper plc h pts ht p HH HP o SP0 SG0. set (thumb := vxy (thumbOLFp pts)). set (pinky := vxy (pinkyORFp pts)).
  assert (EO : o = @ndiv Rnum (vmag (vsub pinky thumb)) (nZ 2)) by (symmetry; exact (outset_is (thumbOLFp pts) (pinkyORFp pts))).
  assert (SP : sane_palm c (@ndiv Rnum (vmag (vsub pinky thumb)) (nZ 2))) by (rewrite <- EO; exact SP0).
  destruct (hitch_bosses _ _ _ _ HH) as (MB1 & MB2). destruct (boss_levels _ MB1) as (F1 & Z1). destruct (boss_levels _ MB2) as (F2 & Z2).
  pose proof HP as H. unfold newPalm in H. cbv zeta in H. fold pinky thumb in H.
  apply bind_ok in H. destruct H as (r & E1 & H). apply bind_ok in H. destruct H as (fl & E2 & H). apply bind_ok in H. destruct H as (aL & E3 & H). apply bind_ok in H. destruct H as (aR & E4 & H).
  apply bind_ok in H. destruct H as (fLB & E5 & H). apply bind_ok in H. destruct H as (fRB & E6 & H). apply bind_ok in H. destruct H as (no & E7 & H).
  apply bind_ok in H. destruct H as (lb1 & I1 & H). apply bind_ok in H. destruct H as (l0 & I2 & H). apply bind_ok in H. destruct H as (r0 & I3 & H). apply bind_ok in H. destruct H as (rb1 & I4 & H).
  apply bind_ok in H. destruct H as (g1 & I5 & H). apply bind_ok in H. destruct H as (g2 & I6 & H). apply bind_ok in H. destruct H as (g3 & I7 & H). apply bind_ok in H. destruct H as (g4 & I8 & H).
  destruct (_ || _) eqn:CK in H; [discriminate|]. apply orb_false_iff in CK. destruct CK as [CK1 CK2].
  apply bind_ok in H. destruct H as (gv & EG & H). apply bind_ok in H. destruct H as (bs & EB & H).
  apply bind_ok in H. destruct H as (rb0 & I9 & H). apply bind_ok in H. destruct H as (rl & I10 & H). apply bind_ok in H. destruct H as (ll & I11 & H). apply bind_ok in H. destruct H as (lb0 & I12 & H). apply Ok_inj in H.
  destruct (roofs_made q c thumb pinky SP r E1) as (up & RF). destruct fl as [lf lb]. cbn [fst snd] in *.
  destruct (fillets_made q c _ _ SP r up lf lb RF E2) as (LF & LB & LH). pose proof (notch_made q c _ _ SP r up lb no RF LB LH E7) as NF.
  destruct (front_last q c r lf lb eq_refl (sp_floor _ _ SP) E2) as (LEN & LL).
  change (Rleb (- (pa_hitchDepth c + pa_bodyMargin c)) (Y (noRFT no)) = false) in CK2. apply Rleb_false in CK2. rewrite (nf_rft _ _ _ _ NF) in CK2.
  assert (CHK : - (pa_bodyMargin c + pa_depth c) + pa_floorContact c + pa_floorHeight c < - (pa_hitchDepth c + pa_bodyMargin c)) by exact CK2. clear CK2.
  pose proof (facts c _ _ SP no NF CHK) as (K1 & K2 & K3 & K4 & K5 & K6 & K7 & K8). pose proof eps_pos as EP.
  rewrite (rf_pl _ _ _ _ _ RF) in E3, E5. rewrite (rf_pr _ _ _ _ _ RF) in E4, E6.
  assert (ML : -1 = 1 \/ -1 = -1) by (right; reflexivity). assert (PL : 1 = 1 \/ 1 = -1) by (left; reflexivity).
  pose proof (fillet_side c thumb pinky _ (-1) lf aL _ _ (side_left c thumb pinky 0) ML LF E3) as QL. pose proof (fillet_side c thumb pinky _ 1 lf aR _ _ (side_right c thumb pinky 0) PL LF E4) as QR.
  pose proof (fillet_side c thumb pinky _ (-1) lb fLB _ _ (side_left c thumb pinky 0) ML LB E5) as QLB. pose proof (fillet_side c thumb pinky _ 1 lb fRB _ _ (side_right c thumb pinky 0) PL LB E6) as QRB.
  assert (GV : Forall (side_list c thumb pinky) (gvFaces gv) /\ zs (- pa_floorHeight c) (gvLG gv) /\ zs (- pa_floorHeight c) (gvRG gv) /\ Forall (at_side c thumb pinky (-1) 0) (gvLT gv) /\ Forall (at_side c thumb pinky 1 0) (gvRT gv)).
  { destruct (pa_groove c) as [g|] eqn:EGC.
    - apply (groove_flat q c thumb pinky SP g up) with (r := r); [rewrite <- EO; exact SG0|exact RF|exact EG].
    - apply Ok_inj in EG. subst gv. cbn [gvFaces gvLT gvLG gvRT gvRG]. repeat split; constructor. }
  destruct GV as (GFA & GLG & GRG & GLT & GRT).
  assert (GW : faces (gvMesh gv) = []). { destruct (pa_groove c) as [g|]; [exact (groove_walls _ _ _ _ _ EG)|]. apply Ok_inj in EG. subst gv. reflexivity. }
  assert (YM : - (pa_bodyMargin c + pa_depth c) + pa_floorContact c + pa_floorHeight c < - pa_bodyMargin c) by lra.
  assert (NET : zs 0 (noEdgeT no)).
  { apply Forall_forall. intros v I. destruct (nf_t _ _ _ _ NF (rft_pos c _ _ SP no NF CHK) YM v I) as [[->|(t & _ & ->)]|(u & [->|(t & _ & ->)] & ->)]; reflexivity. }
  assert (NEG : zs (- pa_floorHeight c) (noEdgeG no)).
  { assert (LW : forall u, lower_pt c thumb pinky u -> Z u = - pa_floorHeight c) by (intros u [->|(t & _ & ->)]; [reflexivity|]; change (- pa_floorHeight c + (1 + pa_floorHeight c / pa_hitchRadius c) * (0 - 0) = - pa_floorHeight c); ring).
    apply Forall_forall. intros v I. destruct (nf_g _ _ _ _ NF (rft_pos c _ _ SP no NF CHK) YM v I) as [L|(u & L & ->)]; [exact (LW _ L)|exact (LW u L)]. }
  assert (FIRST : forall pl vs v, cut pl lb = Ok vs -> pyidx vs 0%Z = Ok v -> Z v = - pa_floorHeight c /\ lb <> []).
  { intros pl vs v E I. destruct (first_is _ _ I) as (rest & ER). apply cut_lines in E. rewrite ER in E. destruct lb as [|l lb']; [inversion E|]. assert (OL : on_line l v) by (inversion E as [|u1 u2 u3 u4 [_ OL] F]; exact OL).
    specialize (LH ltac:(discriminate)). cbn [hd] in LH. subst l. apply on_xline in OL. split; [apply OL|discriminate]. }
  destruct (FIRST _ _ _ E6 I9) as [ZRB NLB]. destruct (FIRST _ _ _ E5 I12) as [ZLB _].
  assert (NLF : lf <> []) by (intros ->; destruct lb; [contradiction|discriminate]). destruct (LL NLF) as (yl & ELL).
  assert (LASTZ : forall pl vs pre v, cut pl lf = Ok vs -> pyidx (pre ++ vs) (-1)%Z = Ok v -> Z v = - pa_floorHeight c).
  { intros pl vs pre v E I. assert (NV : vs <> []). { intros ->. apply cut_lines in E. inversion E. congruence. }
    pose proof E as E'. apply cut_lines in E'. destruct (forall2_last _ _ _ (xline 0 0) vzero E' NLF) as [_ [_ K]]. rewrite ELL in K. apply on_xline in K. pose proof (end_is _ _ vzero I) as EI. destruct (exists_last NV) as (vs' & w & EV). rewrite EV in EI, K. rewrite app_assoc, last_last in EI. rewrite last_last in K. rewrite <- EI. exact (proj2 K). }
  pose proof (LASTZ _ _ _ _ E4 I10) as ZRL. pose proof (LASTZ _ _ _ _ E3 I11) as ZLL.
  assert (SIDR : side_list c thumb pinky (fRB ++ (prR r ++ aR) ++ gvRT gv)).
  { exists 1, 0. split; [exact PL|]. repeat (apply Forall_app; split); try assumption; apply Forall_forall; intros v I; unfold at_side.
    - destruct (QRB v I) as (_ & _ & K). rewrite Rminus_0_r. exact K.
    - destruct (rf_r _ _ _ _ _ RF v I) as (_ & _ & _ & K & _). rewrite Rminus_0_r, Rmult_1_l. exact K.
    - destruct (QR v I) as (_ & _ & K). rewrite Rminus_0_r. exact K. }
  assert (SIDL : side_list c thumb pinky (fLB ++ (prL r ++ aL) ++ gvLT gv)).
  { exists (-1), 0. split; [exact ML|]. repeat (apply Forall_app; split); try assumption; apply Forall_forall; intros v I; unfold at_side.
    - destruct (QLB v I) as (_ & _ & K). rewrite Rminus_0_r. exact K.
    - destruct (rf_l _ _ _ _ _ RF v I) as (_ & _ & _ & K & _). rewrite Rminus_0_r, <- K. ring.
    - destruct (QL v I) as (_ & _ & K). rewrite Rminus_0_r. exact K. }
  assert (SUB : forall l l', side_list c thumb pinky l -> (forall v, In v l' -> In v l) -> side_list c thumb pinky l').
  { intros l l' (s & d & HS & A) I. exists s, d. split; [exact HS|]. exact (in_all _ _ _ I A). }
  assert (ONE : forall l, side_list c thumb pinky l -> flat_face (etransformed l (placeMatrix thumb pinky), [])).
  { intros l A. unfold flat_face. cbn [fst snd concat]. rewrite app_nil_r. apply placed_coplanar. exact (side_coplanar c thumb pinky l A). }
  assert (ZT : Z thumb = 0) by reflexivity. assert (ZP : Z pinky = 0) by reflexivity.
  assert (FEET : forall b, In b bs -> faces (buMesh b) = [] /\ zs (- pa_floorHeight c) (buFloor b)).
  { destruct bumper as [bc|]; [|cbn in EB; apply Ok_inj in EB; subst bs; intros b []]. intros b IB. unfold palmBumpers in EB. cbv zeta in EB. do 5 (apply bind_ok in EB; destruct EB as (? & _ & EB)). apply mapM_ok in EB. destruct (forall2_in_r _ _ _ b EB IB) as (pos & _ & NB).
    unfold newBumper in NB. cbv zeta in NB. apply bind_ok in NB. destruct NB as (arc & EA & NB). apply Ok_inj in NB. subst b. cbn [buMesh buFloor]. split; [reflexivity|]. apply arc_z in EA; [|reflexivity]. apply (zs_shift 0); [exact EA|]. change (0 + (0 - pa_floorHeight c) = - pa_floorHeight c). ring. }
  subst p. cbn [paMesh]. apply all_meshes. constructor; [|constructor; [rewrite F1; constructor|constructor; [rewrite F2; constructor|]]].
  - cbn [faces]. rewrite faces_meshes; [constructor|]. constructor; [apply faces_meshes; repeat (constructor; [reflexivity|]); constructor|]. constructor; [exact GW|]. apply Forall_map, Forall_forall. intros b IB. apply (FEET b IB).
  - apply Forall_app. split.
    + apply Forall_map. eapply Forall_impl; [|exact GFA]. intros e A. cbv beta. cbn [faces]. constructor; [apply ONE, A|constructor].
    + repeat (constructor; [cbn [faces]; constructor; [|constructor]|]); [| | | |constructor].
      * apply (in_face_z (- pa_floorHeight c)).
        { apply placed_z; [exact ZT|exact ZP|]. apply zs_app; [apply zs_rev, NEG|]. apply zs_app; [constructor; [exact ZRB|constructor]|]. apply zs_app; [exact GRG|]. apply zs_app; [constructor; [exact ZRL|constructor; [exact ZLL|constructor]]|]. apply zs_app; [exact GLG|constructor; [exact ZLB|constructor]]. }
        { apply Forall_map, Forall_forall. intros b IB. apply placed_z; [exact ZT|exact ZP|apply (FEET b IB)]. }
      * apply ONE. eapply SUB; [exact SIDR|]. intros v I. apply (collapsed_in _ _ _) in I. exact I.
      * apply ONE. eapply SUB; [exact SIDL|]. intros v I. apply (proj2 (in_rev _ _)) in I. apply (collapsed_in _ _ _) in I. exact I.
      * apply (in_face_z 0); [apply placed_z; [exact ZT|exact ZP|exact NET]|]. constructor; [exact Z1|constructor; [exact Z2|constructor]].
Qed.
Print Assumptions C102_palm_flat.
(* the default knob has three faces, its bridge support two; the settings of C93_nonvacuous are sane, and the palm rest with groove and feet is built with more than ten points
   on its right side *)
Example C102_nonvacuous : (exists m, knob (@mkQuality Rnum (1 / 100) (PI / 6)) (knob_default 7) = Ok m /\ length (faces m) = 3%nat) /\
  (exists c l r, supportEdges (@mkQuality Rnum (1 / 10) (PI / 6)) c = Ok (l, r) /\ length (faces (supportMesh l r)) = 2%nat /\ sw_width c = 141 / 10) /\
  sane_palm palm_R 61 /\ match pa_groove palm_R with Some g => sane_groove palm_R 61 g | None => True end.
Proof.
  split; [|split; [|split]].
  - destruct C90_nonvacuous as (m & E & _). exists m. split; [exact E|]. unfold knob in E. cbv zeta in E. repeat (apply bind_ok in E; destruct E as (? & _ & E)). apply Ok_inj in E. subst m. reflexivity.
  - destruct P_Solid.C59_nonvacuous as (c & EW & H). exists c. pose proof PI_RGT_0 as PP. destruct (P_Solid.C59_support_fits (1 / 10) (PI / 6) c) as (l & r & E & _); try tauto; [lra|].
    exists l, r. split; [exact E|]. split; [reflexivity|exact EW].
  - apply C93_nonvacuous.
  - apply C93_nonvacuous.
Qed.
Print Assumptions C102_nonvacuous.
Open Scope Z_scope.
Definition near0 (x : @num Calc) : bool := (Z.abs x <=? dq 1 1000000).
Definition cross0 (a b p : @vec Calc) : bool := near0 (fmul (vx b - vx a) (vy p - vy a) - fmul (vy b - vy a) (vx p - vx a)).
Example C102_palm_nonvacuous : match P_Palm.palm_case (Some P_Palm.palm_groove) (Some (@mkBumperCfg Calc (dq 84 10) (dq 1 1) (dq 3 1))) with
  | Ok p => (10 <? length (paSideR p))%nat && forallb (cross0 (nth 0 (paSideR p) vzero) (nth 9 (paSideR p) vzero)) (paSideR p)
  | Err _ => false end = true.
Proof. vm_cast_no_check (eq_refl true). Qed.
