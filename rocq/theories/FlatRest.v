(** The faces of the knob, the bridge supports and the palm rest lie in planes. *)
From Coq Require Import Reals Lra Psatz ZArith List Bool Arith Lia.
From Verif Require Import Num GeoModel EdgeModel EdgeSpec GeoSpec GeoMat GeoRigid GeoPlane GeoCirc ArcModel ArcSpec ArcProof ArcCorner ArcShape PartProof CableProof FaceModel MeshModel MeshSpec MeshFace LayoutModel BossModel BossProof PlanModel PlanMove PlanSpec2 PlanRidge WallProof BracketModel
  BumperModel PalmModel PalmSpec PalmShape PalmBox PalmNotch PalmGroove PalmAll PalmProof SupportModel KnobModel KnobSpec BrSpec FlatSpec FlatProof FlatPlates FlatBody.
Import ListNotations.
Open Scope R_scope.

(** ** at one height *)
Lemma arc_z q (r s sp : R) (ce : pt) l : Z ce = 0 -> @arc2D Rnum q r s sp ce = Ok l -> zs 0 l.
Proof.
  intros ZC H. unfold arc2D in H. destruct (nltb _ _); [apply Ok_inj in H; subst l; constructor; [exact ZC|constructor]|].
  do 2 (apply bind_ok in H; destruct H as (? & _ & H)). cbv zeta in H. do 2 (apply bind_ok in H; destruct H as (? & _ & H)). apply Ok_inj in H. subst l. apply Forall_map, Forall_forall. intros i _. reflexivity.
Qed.
Lemma zs_rev m l : zs m l -> zs m (rev l). Proof. apply Forall_rev. Qed.
Lemma zs_in m l p : zs m l -> In p l -> Z p = m. Proof. intros H. exact (proj1 (Forall_forall _ _) H p). Qed.
Lemma zs_mirX m l : zs m l -> zs m (emirX l).
Proof. intros H. apply Forall_map. eapply Forall_impl; [|exact H]. intros p E. exact E. Qed.
Lemma zs_shift m l (v : pt) k : zs m l -> m + Z v = k -> zs k (etranslated l v).
Proof. intros H E. apply Forall_map. eapply Forall_impl; [|exact H]. intros p Q. change (Z p + Z v = k). cbv beta in Q. rewrite Q. exact E. Qed.
Lemma zs_snapped l : zs 0 l -> zs 0 (esnapped l).
Proof.
  intros H. apply Forall_map. eapply Forall_impl; [|exact H]. intros p Q. cbv beta in Q. destruct p as [x y z]. change (z = 0) in Q. subst z. change (snap1 (N := Rnum) (0 : R) = 0). unfold snap1. destruct (isZero (N := Rnum) (0 : R)); reflexivity.
Qed.
Lemma zs_turned l a : zs 0 l -> zs 0 (etransformed l (mrotZ mid a None)).
Proof. intros H. apply Forall_map. eapply Forall_impl; [|exact H]. intros p Q. cbv beta in Q |- *. rewrite turned_pt. exact Q. Qed.
Lemma zs_collapsed m l t : zs m l -> zs m (collapsed l t). Proof. apply all_collapsed. Qed.
Lemma norm_z (d u : pt) : Z d = 0 -> vnorm d = Ok u -> Z u = 0.
Proof. intros E H. apply vnorm_ok in H. destruct H as [_ ->]. change (/ len d * Z d = 0) || change (1 / len d * Z d = 0). rewrite E. ring. Qed.
Definition low_line (l : @line Rnum) : Prop := Z (lpos l) = 0 /\ Z (ldir l) = 0.
Lemma line_z (p d : pt) l : Z p = 0 -> Z d = 0 -> newLine p d = Ok l -> low_line l.
Proof. intros P0 D0 H. unfold newLine in H. apply bind_ok in H. destruct H as (u & E & H). apply Ok_inj in H. subst l. split; [exact P0|exact (norm_z d u D0 E)]. Qed.
Lemma half_z (p w : pt) : Z p = 0 -> vdiv p (nZ 2 : @num Rnum) = Ok w -> Z w = 0.
Proof.
  intros E H. unfold vdiv in H. apply bind_ok in H. destruct H as (x & _ & H). apply bind_ok in H. destruct H as (y & _ & H). apply bind_ok in H. destruct H as (z & Ez & H). apply Ok_inj in H. subst w.
  apply pdiv_ok in Ez. destruct Ez as [_ ->]. change (Z p / 2 = 0). rewrite E. field.
Qed.
Lemma meet_z (a b : @line Rnum) p : low_line a -> low_line b -> lintersect a b = Ok p -> Z p = 0.
Proof.
  intros [P0 D0] [P1 D1] H. unfold lintersect in H. cbv zeta in H. destruct (isZero _) in H; [discriminate|]. apply bind_ok in H. destruct H as (ka & _ & H). apply bind_ok in H. destruct H as (kb & _ & H). apply half_z in H; [exact H|].
  change (Z (lpos a) + Z (ldir a) * ka + (Z (lpos b) + Z (ldir b) * kb) = 0). rewrite P0, D0, P1, D1. ring.
Qed.

(** ** the knob *)
Section K.
Variables (q : @quality Rnum) (c : @knob_cfg Rnum).
Lemma circles_z (a b : @circle Rnum) l : cintersectCircle2D a b = Ok l -> zs 0 l.
Proof.
  intros H. unfold cintersectCircle2D in H. cbv zeta in H. destruct (_ || _) in H; [apply Ok_inj in H; subst l; constructor|].
  apply bind_ok in H. destruct H as (md & E & H). apply bind_ok in H. destruct H as (dd & _ & H). apply bind_ok in H. destruct H as (ch & _ & H).
  assert (ZM : Z md = 0). { apply (norm_z _ _) in E; [exact E|]. change (0 - 0 = 0). ring. }
  assert (ZP : Z (vadd (vxy (ccenter a)) (vscale md dd)) = 0). { change (0 + Z md * dd = 0). rewrite ZM. ring. }
  set (mp := vadd _ _) in *. clearbody mp.
  destruct (isZero _) in H; apply Ok_inj in H; subst l; [constructor; [exact ZP|constructor]|]. constructor; [|constructor; [|constructor]].
  - change (Z mp + 0 * ch = 0). rewrite ZP. ring.
  - change (Z mp - 0 * ch = 0). rewrite ZP. ring.
Qed.
Lemma groove_z l : grooveSketch2D q c = Ok l -> zs 0 l.
Proof.
  intros H. unfold grooveSketch2D in H. cbv zeta in H. destruct (_ <=? _)%Z in H; [apply arc_z in H; [exact H|reflexivity]|].
  apply bind_ok in H. destruct H as (th & _ & H). destruct (nleb _ _) in H; [discriminate|]. destruct (nleb _ _) in H; [discriminate|].
  apply bind_ok in H. destruct H as (is & EI & H). apply circles_z in EI. apply bind_ok in H. destruct H as (cc & EC & H). assert (ZC : Z cc = 0).
  { destruct (nth_error is 1) as [p|] eqn:E in EC; [|discriminate]. apply Ok_inj in EC. subst p. exact (zs_in _ _ _ EI (nth_error_In _ _ E)). }
  apply bind_ok in H. destruct H as (a1 & E1 & H). apply bind_ok in H. destruct H as (a2 & E2 & H). apply bind_ok in H. destruct H as (a3 & E3 & H). apply Ok_inj in H. subst l.
  apply arc_z in E1; [|reflexivity]. apply arc_z in E2; [|exact ZC]. apply arc_z in E3; [|reflexivity].
  assert (SG : zs 0 ((a1 ++ a2 ++ a3) ++ rev (emirX (a1 ++ a2 ++ a3)))). { assert (A : zs 0 (a1 ++ a2 ++ a3)) by (apply zs_app; [exact E1|apply zs_app; [exact E2|exact E3]]). apply zs_app; [exact A|apply zs_rev, zs_mirX, A]. }
  apply zs_collapsed, zs_snapped, zs_app; [exact SG|]. apply Forall_forall. intros p I. apply in_flat_map in I. destruct I as (i & _ & I). exact (zs_in _ _ _ (zs_turned _ _ SG) I).
Qed.
Lemma shaft_z l : shaftSketch2D q c = Ok l -> zs 0 l.
Proof.
  intros H. unfold shaftSketch2D in H. cbv zeta in H. apply bind_ok in H. destruct H as (fx & _ & H). apply bind_ok in H. destruct H as (no & _ & H).
  apply bind_ok in H. destruct H as (fd & L1 & H). apply line_z in L1; [|reflexivity|reflexivity].
  apply bind_ok in H. destruct H as (stn & L2 & H). apply line_z in L2; [|reflexivity|reflexivity].
  apply bind_ok in H. destruct H as (pt_ & L3 & H). apply line_z in L3; [|match goal with |- Z (vsub _ (vscale _ ?k)) = 0 => change (0 - 0 * k = 0); ring end|reflexivity].
  apply bind_ok in H. destruct H as (bp & M1 & H). apply meet_z in M1; [|exact L2|exact L3].
  apply bind_ok in H. destruct H as (hb & L4 & H). apply line_z in L4; [|exact M1|match goal with |- Z (vadd ?u ?v) = 0 => change (Z u + Z v = 0) end; rewrite (proj2 L2), (proj2 L3); ring].
  apply bind_ok in H. destruct H as (hc & M2 & H). apply meet_z in M2; [|exact L1|exact L4].
  apply bind_ok in H. destruct H as (b1 & E1 & H). apply bind_ok in H. destruct H as (b2 & E2 & H). apply bind_ok in H. destruct H as (b3 & E3 & H). apply bind_ok in H. destruct H as (b4 & E4 & H). apply Ok_inj in H. subst l.
  apply arc_z in E1; [|reflexivity]. apply arc_z in E2; [|exact M2]. apply arc_z in E3; [|reflexivity]. apply arc_z in E4; [|reflexivity].
  assert (A : zs 0 (b1 ++ b2 ++ b3 ++ b4)) by (apply zs_app; [exact E1|apply zs_app; [exact E2|apply zs_app; [exact E3|exact E4]]]). apply zs_collapsed, zs_snapped, zs_app; [exact A|apply zs_rev, zs_mirX, A].
Qed.
Lemma in_face_z m e hs : zs m e -> Forall (zs m) hs -> flat_face (e, hs).
Proof. intros H K. apply (coplanar_z m). apply Forall_app. split; [exact H|]. apply Forall_concat. exact K. Qed.
Lemma knob_faces m : knob q c = Ok m -> Forall flat_face (faces m).
Proof.
  intros H. unfold knob in H. cbv zeta in H. apply bind_ok in H. destruct H as (gs & E1 & H). apply bind_ok in H. destruct H as (ch & _ & H). apply bind_ok in H. destruct H as (ss & E2 & H). apply bind_ok in H. destruct H as (sk & E3 & H). apply Ok_inj in H. subst m.
  apply groove_z in E1. apply shaft_z in E2. apply arc_z in E3; [|reflexivity].
  assert (SH : forall (l : list pt) (z : R), zs 0 l -> zs z (etranslated l (@V Rnum (nZ 0) (nZ 0) z))) by (intros l z Q; apply (zs_shift 0 _ _ _ Q); change (0 + z = z); ring).
  cbn [meshes faces app]. constructor; [|constructor; [|constructor; [|constructor]]].
  - eapply in_face_z; [apply SH, E2|constructor].
  - eapply in_face_z; [apply SH, E3|constructor; [apply zs_rev, SH, E2|constructor]].
  - eapply in_face_z; [apply SH, E1|constructor; [apply zs_rev, SH, E3|constructor]].
Qed.
End K.

(** ** the bridge supports *)
Lemma support_faces q (c : @support_cfg Rnum) e : supportEdges q c = Ok e -> Forall flat_face (faces (supportMesh (fst e) (snd e))).
Proof.
  intros H. unfold supportEdges in H. cbv zeta in H. apply bind_ok in H. destruct H as (bi & _ & H). apply bind_ok in H. destruct H as (ti & _ & H). apply bind_ok in H. destruct H as (xy & _ & H). apply bind_ok in H. destruct H as (sc & _ & H). apply Ok_inj in H. subst e. cbn [fst snd].
  set (arc := map _ xy). assert (A : xs 0 arc) by (apply Forall_map, Forall_forall; reflexivity). clearbody arc.
  assert (SH : forall (l : list pt) (v : pt) m k, xs m l -> m + X v = k -> xs k (etranslated l v)).
  { intros l v m k Q E. apply Forall_map. eapply Forall_impl; [|exact Q]. intros p Qp. change (X p + X v = k). cbv beta in Qp. rewrite Qp. exact E. }
  assert (MI : forall (l : list pt) m, xs m l -> xs m (l ++ rev (emirY l))).
  { intros l m Q. apply xs_app; [exact Q|]. apply xs_rev, Forall_map. eapply Forall_impl; [|exact Q]. intros p Qp. exact Qp. }
  assert (SC : xs 0 (escaled arc sc vzero)). { apply Forall_map. eapply Forall_impl; [|exact A]. intros p Qp. cbv beta in Qp. change ((X p - 0) * sc + 0 = 0). rewrite Qp. ring. }
  cbn [supportMesh meshes faces app]. constructor; [|constructor; [|constructor]].
  - eapply in_face_x; [apply xs_rev; eapply SH; [apply MI; eapply SH; [exact SC|reflexivity]|reflexivity]|constructor].
  - eapply in_face_x; [apply MI; eapply SH; [exact A|reflexivity]|constructor].
Qed.

(** ** the groove of the palm rest *)
Section Groove.
Variables (q : @quality Rnum) (c : @palm_cfg Rnum) (thumb pinky : pt).
Let o : R := @ndiv Rnum (vmag (vsub pinky thumb)) (nZ 2).
Hypothesis SP : sane_palm c o.
Variable g : @groove_cfg Rnum.
Variable up : R.
Hypothesis SG : sane_groove c o g.
Let rm : R := gr_roofMargin g.
Let gh : R := gr_height g.
Let w : R := gr_width g.
Let fh : R := pa_floorHeight c.
(* at the distance d inside a side *)
Definition at_side (s d : R) (v : pt) : Prop := s * X v * cos (pa_taperAngle c) = half_width c o (Y v) - d.
Definition side_list (l : list pt) : Prop := exists s d, (s = 1 \/ s = -1) /\ Forall (at_side s d) l.
Lemma rail_side i s d l : rail c thumb pinky up i s d l -> Forall (at_side s d) l.
Proof.
  intros H. apply Forall_forall. intros v I. destruct (rail_in _ _ _ _ _ _ _ _ _ H I) as [(EY & _ & E)|[(EY & _ & E)|(p0 & _ & _ & E)]]; unfold at_side; try rewrite EY; exact E.
Qed.
Lemma groove_flat r gv : roof_facts c thumb pinky r up -> newGroove q c g r = Ok gv ->
  Forall side_list (gvFaces gv) /\ zs (- fh) (gvLG gv) /\ zs (- fh) (gvRG gv) /\ Forall (at_side (-1) 0) (gvLT gv) /\ Forall (at_side 1 0) (gvRT gv).
Proof.
  intros RF H. pose proof SG as (G1 & G2 & G3 & G4 & G5 & G6 & G7). fold rm gh w in G1, G2, G3, G4, G5, G6, G7. pose proof eps_pos as EP. unfold newGroove in H. cbv zeta in H.
  destruct (nleb (gr_height g) (pa_floorFillet c)) eqn:CK; [discriminate|]. change (Rleb gh (pa_floorFillet c) = false) in CK. apply Rleb_false in CK. pose proof (sp_floor c o SP) as SF. assert (GH : 0 < gh) by lra.
  rewrite (rf_pr _ _ _ _ _ RF), (rf_pl _ _ _ _ _ RF), (rf_up _ _ _ _ _ RF) in H.
  apply bind_ok in H. destruct H as (st0 & ST0 & H). apply bind_ok in H. destruct H as (sg0 & SG0 & H). apply bind_ok in H. destruct H as (st & ST & H). apply bind_ok in H. destruct H as (sg & SGG & H).
  apply bind_ok in H. destruct H as (a1 & A1 & H). apply bind_ok in H. destruct H as (a2 & A2 & H). apply bind_ok in H. destruct H as (a3 & A3 & H). apply bind_ok in H. destruct H as (a4 & A4 & H).
  apply bind_ok in H. destruct H as (pli & PLI & H). apply bind_ok in H. destruct H as (pri & PRI & H). apply (left_inner c thumb pinky g) in PLI. apply (right_inner c thumb pinky g) in PRI. fold w in PLI, PRI. subst pli pri.
  apply bind_ok in H. destruct H as (a5 & A5 & H). apply bind_ok in H. destruct H as (a6 & A6 & H). apply bind_ok in H. destruct H as (a7 & A7 & H). apply bind_ok in H. destruct H as (a8 & A8 & H).
  apply bind_ok in H. destruct H as (lto & B1 & H). apply bind_ok in H. destruct H as (lgo & B2 & H). apply bind_ok in H. destruct H as (rto & B3 & H). apply bind_ok in H. destruct H as (rgo & B4 & H).
  apply bind_ok in H. destruct H as (lti & B5 & H). apply bind_ok in H. destruct H as (lgi & B6 & H). apply bind_ok in H. destruct H as (rti & B7 & H). apply bind_ok in H. destruct H as (rgi & B8 & H).
  assert (T0 : 0 <= rm) by lra. assert (T1 : rm <= pa_roofFillet c) by lra. assert (T2 : pa_roofFillet c - rm = 0 \/ eps <= pa_roofFillet c - rm) by lra.
  assert (U0 : 0 <= rm + gh) by lra. assert (U2 : rm + gh <= pa_roofFillet c) by lra. assert (U3 : pa_roofFillet c - (rm + gh) = 0 \/ eps <= pa_roofFillet c - (rm + gh)) by lra.
  pose proof (side_left c thumb pinky) as SL. pose proof (side_right c thumb pinky) as SR.
  assert (R1 := rail_made q c thumb pinky SP _ (-1) 0 rm up _ _ _ _ T0 T1 T2 (SL 0) ST0 ST A1 B1). assert (R2 := rail_made q c thumb pinky SP _ (-1) 0 (rm + gh) up _ _ _ _ U0 U2 U3 (SL 0) SG0 SGG A2 B2).
  assert (R3 := rail_made q c thumb pinky SP _ 1 0 rm up _ _ _ _ T0 T1 T2 (SR 0) ST0 ST A3 B3). assert (R4 := rail_made q c thumb pinky SP _ 1 0 (rm + gh) up _ _ _ _ U0 U2 U3 (SR 0) SG0 SGG A4 B4).
  assert (R5 := rail_made q c thumb pinky SP _ (-1) w rm up _ _ _ _ T0 T1 T2 (SL w) ST0 ST A5 B5). assert (R6 := rail_made q c thumb pinky SP _ (-1) w (rm + gh) up _ _ _ _ U0 U2 U3 (SL w) SG0 SGG A6 B6).
  assert (R7 := rail_made q c thumb pinky SP _ 1 w rm up _ _ _ _ T0 T1 T2 (SR w) ST0 ST A7 B7). assert (R8 := rail_made q c thumb pinky SP _ 1 w (rm + gh) up _ _ _ _ U0 U2 U3 (SR w) SG0 SGG A8 B8).
  clear A1 A2 A3 A4 A5 A6 A7 A8 B1 B2 B3 B4 B5 B6 B7 B8 ST ST0 SGG SG0.
  apply bind_ok in H. destruct H as (cl & _ & H).
  assert (FZ : forall i s d l v, rail c thumb pinky up i s d l -> pyidx l 0%Z = Ok v -> Z v = - fh) by (intros i s d l v RL E; exact (proj1 (proj2 (rail_first _ _ _ _ _ _ _ _ _ RL E)))).
  assert (LZ : forall i s d l v, rail c thumb pinky up i s d l -> pyidx l (-1)%Z = Ok v -> Z v = - fh) by (intros i s d l v RL E; exact (proj1 (proj2 (rail_last _ _ _ _ _ _ _ _ _ RL E)))).
  do 16 (let u := fresh "u" in let E := fresh "E" in apply bind_ok in H; destruct H as (u & E & H);
    first [apply (FZ _ _ _ _ _ R1) in E|apply (FZ _ _ _ _ _ R2) in E|apply (FZ _ _ _ _ _ R3) in E|apply (FZ _ _ _ _ _ R4) in E|apply (FZ _ _ _ _ _ R5) in E|apply (FZ _ _ _ _ _ R6) in E|apply (FZ _ _ _ _ _ R7) in E|apply (FZ _ _ _ _ _ R8) in E|
      apply (LZ _ _ _ _ _ R1) in E|apply (LZ _ _ _ _ _ R2) in E|apply (LZ _ _ _ _ _ R3) in E|apply (LZ _ _ _ _ _ R4) in E|apply (LZ _ _ _ _ _ R5) in E|apply (LZ _ _ _ _ _ R6) in E|apply (LZ _ _ _ _ _ R7) in E|apply (LZ _ _ _ _ _ R8) in E]).
  apply Ok_inj in H. subst gv. cbn [gvMesh gvFaces gvLT gvLG gvRT gvRG].
  apply rail_side in R1, R2, R3, R4, R5, R6, R7, R8.
  assert (ML : -1 = 1 \/ -1 = -1) by (right; reflexivity). assert (PL : 1 = 1 \/ 1 = -1) by (left; reflexivity).
  split; [|split; [|split; [|split]]].
  - constructor; [|constructor; [|constructor; [|constructor; [|constructor]]]].
    + exists (-1), w. split; [exact ML|]. apply Forall_app. split; [exact R6|apply Forall_rev; exact R5].
    + exists 1, w. split; [exact PL|]. apply Forall_app. split; [exact R7|apply Forall_rev; exact R8].
    + exists (-1), 0. split; [exact ML|]. apply Forall_rev. exact R2.
    + exists 1, 0. split; [exact PL|]. exact R4.
  - unfold zs. repeat (constructor; [assumption|]). constructor.
  - unfold zs. repeat (constructor; [assumption|]). constructor.
  - apply Forall_rev. exact R1.
  - apply Forall_rev. exact R3.
Qed.
Lemma side_coplanar l : side_list l -> coplanar l.
Proof.
  intros (s & d & HS & H). exists (P (s * cos (pa_taperAngle c)) (- sin (pa_taperAngle c)) 0), (o * cos (pa_taperAngle c) - d). split.
  - pose proof (sin2_cos2 (pa_taperAngle c)) as Q. unfold Rsqr in Q. unfold unit_vec, inner, P, X, Y, Z. cbn [vx vy vz]. assert (s * s = 1) by (destruct HS as [->| ->]; ring).
    transitivity ((s * s) * (cos (pa_taperAngle c) * cos (pa_taperAngle c)) + sin (pa_taperAngle c) * sin (pa_taperAngle c)); [ring|]. rewrite H0. lra.
  - intros v I. rewrite Forall_forall in H. specialize (H v I). unfold at_side, half_width in H. change (X v * (s * cos (pa_taperAngle c)) + Y v * - sin (pa_taperAngle c) + Z v * 0 = o * cos (pa_taperAngle c) - d). lra.
Qed.
End Groove.

(** ** placing *)
Lemma place_form (a b v : pt) : exists an, transformed v (placeMatrix a b) = P (X v * cos an - Y v * sin an + (X a + X b) / 2) (X v * sin an + Y v * cos an + (Y a + Y b) / 2) (Z v + (Z a + Z b) / 2) /\ an = @vangle2D Rnum (vsub b a).
Proof.
  exists (vangle2D (vsub b a)). split; [|reflexivity]. unfold placeMatrix. rewrite app_tra by (apply built_affine, B_rotZ, B_id). rewrite turned_pt. apply pt_ext; unfold plus, P, X, Y, Z; cbn [vx vy vz]; reflexivity.
Qed.
Lemma placed_z (a b : pt) m l : Z a = 0 -> Z b = 0 -> zs m l -> zs m (etransformed l (placeMatrix a b)).
Proof.
  intros ZA ZB H. apply Forall_map. eapply Forall_impl; [|exact H]. intros v E. cbv beta in E |- *. destruct (place_form a b v) as (an & -> & _). change (Z v + (Z a + Z b) / 2 = m). rewrite ZA, ZB, E. field.
Qed.
Lemma placed_coplanar (a b : pt) l : coplanar l -> coplanar (etransformed l (placeMatrix a b)).
Proof.
  intros (n & r & U & H). set (an := @vangle2D Rnum (vsub b a)). pose proof (sin2_cos2 an) as Q. unfold Rsqr in Q.
  exists (P (X n * cos an - Y n * sin an) (X n * sin an + Y n * cos an) (Z n)), (r + ((X a + X b) / 2 * (X n * cos an - Y n * sin an) + (Y a + Y b) / 2 * (X n * sin an + Y n * cos an) + (Z a + Z b) / 2 * Z n)). split.
  - unfold unit_vec in *. unfold inner, P, X, Y, Z in *. cbn [vx vy vz]. rewrite <- U. 
    transitivity ((vx n * vx n + vy n * vy n) * (sin an * sin an + cos an * cos an) + vz n * vz n); [ring|rewrite Q; ring].
  - intros v I. apply in_map_iff in I. destruct I as (v0 & <- & I). specialize (H v0 I). destruct (place_form a b v0) as (an' & -> & ->). fold an. rewrite <- H. unfold inner, P, X, Y, Z. cbn [vx vy vz].
    transitivity ((vx v0 * vx n + vy v0 * vy n) * (sin an * sin an + cos an * cos an) + vz v0 * vz n + ((vx a + vx b) / 2 * (vx n * cos an - vy n * sin an) + (vy a + vy b) / 2 * (vx n * sin an + vy n * cos an) + (vz a + vz b) / 2 * vz n)); [ring|rewrite Q; ring].
Qed.
Lemma arc_same_size q (r s s' sp : R) (ce ce' : pt) l l' : @arc2D Rnum q r s sp ce = Ok l -> @arc2D Rnum q r s' sp ce' = Ok l' -> length l = length l'.
Proof.
  unfold arc2D. intros H H'. destruct (nltb _ _); [apply Ok_inj in H, H'; subst; reflexivity|].
  apply bind_ok in H, H'. destruct H as (h & E & H), H' as (h' & E' & H'). rewrite E in E'. apply Ok_inj in E'. subst h'. clear E. apply bind_ok in H, H'. destruct H as (h2 & E & H), H' as (h2' & E' & H'). rewrite E in E'. apply Ok_inj in E'. subst h2'. clear E. cbv zeta in H, H'.
  apply bind_ok in H, H'. destruct H as (h3 & E & H), H' as (h3' & E' & H'). rewrite E in E'. apply Ok_inj in E'. subst h3'. clear E. apply bind_ok in H, H'. destruct H as (h4 & E & H), H' as (h4' & E' & H'). apply Ok_inj in H, H'. subst l l'. rewrite !map_length. reflexivity.
Qed.
