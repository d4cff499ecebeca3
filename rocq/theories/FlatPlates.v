(** The plates of the body, the ground and the encoder lie in planes. *)
From Coq Require Import Reals Lra Psatz ZArith List Bool Lia Arith.
From Verif Require Import Num GeoModel GeoSpec GeoMat GeoRigid GeoPlane GeoIso GeoCirc EdgeModel ArcModel ArcSpec ArcProof MeshModel KeyModel LayoutModel LayoutProof BossModel PlanModel BracketModel BumperModel BodyModel PartProof PlanMove EdgeReal BossProof PlanSpec BodyFlat BodyReal BodyMade PlanTent ChamSpec ChamProof BrSpec FlatSpec FlatProof.
From Verif Require Import P_Plan P_Plan2 P_Chamfer.
Import ListNotations.
Open Scope R_scope.

Lemma zs_app m l l' : zs m l -> zs m l' -> zs m (l ++ l'). Proof. intros. apply Forall_app. auto. Qed.
Lemma zs_map m m' (f : pt -> pt) l : (forall p, Z p = m -> Z (f p) = m') -> zs m l -> zs m' (map f l).
Proof. intros E H. apply Forall_map. eapply Forall_impl; [|exact H]. exact E. Qed.
Lemma key_levels (c : @key_cfg Rnum) fac : keyFactory c = Ok fac -> zs 0 (fHoleO fac) /\ zs (- holeHeight c) (fHoleI fac).
Proof.
  intros H. unfold keyFactory in H. apply bind_ok in H. destruct H as ((bm & ex) & EB & H). cbn [fst snd] in H.
  set (entry := collapsed (entryEdge c) _) in H. set (exit := rev (collapsed ex _)) in H.
  assert (ZO : zs 0 entry). { apply all_collapsed. repeat (constructor; [reflexivity|]). constructor. }
  assert (EE : zs (- holeHeight c) (exitEdge c)) by (repeat (constructor; [reflexivity|]); constructor).
  assert (ZX : zs (- holeHeight c) ex).
  { unfold backMesh in EB. destruct (hasClip c) as [k|].
    - apply bind_ok in EB. destruct EB as (g & EG & EB). apply Ok_inj in EB. apply pair_inj in EB. destruct EB as [_ <-]. apply zs_app; [exact EE|].
      unfold clipEdgeG in EG. apply bind_ok in EG. destruct EG as (t & _ & EG). apply Ok_inj in EG. rewrite <- EG. repeat (constructor; [reflexivity|]). constructor.
    - apply Ok_inj in EB. apply pair_inj in EB. destruct EB as [_ <-]. exact EE. }
  assert (ZI : zs (- holeHeight c) exit) by (apply Forall_rev, all_collapsed, ZX).
  assert (TA : forall m l, zs m l -> zs m (l ++ map turnAround l)) by (intros m l K; apply zs_app; [exact K|]; apply (zs_map m m); [intros p E; exact E|exact K]).
  assert (RO : forall m l, zs m l -> zs m (etransformed l (mrotZ mid (ndiv tau (nZ 4)) None))).
  { intros m l K. apply (zs_map m m); [|exact K]. intros p E. rewrite app_rotZ by apply affine_mid. rewrite app_id. unfold rotZ_pt. destruct p as [p1 p2 p3]. unfold Z, P in *. cbn [vz] in *. rewrite <- E. reflexivity. }
  clearbody entry exit. destruct (isSideways c); apply Ok_inj in H; subst fac; cbn [fHoleO fHoleI]; split; try apply RO; apply TA; assumption.
Qed.
Lemma key_faces (c : @key_cfg Rnum) fac : keyFactory c = Ok fac -> faces (fMesh fac) = [].
Proof.
  intros H. unfold keyFactory in H. cbv zeta in H. apply bind_ok in H. destruct H as ((bm & ex) & EB & H). cbn [fst snd] in H.
  assert (B : faces bm = []).
  { unfold backMesh in EB. destruct (hasClip c) as [k|].
    - apply bind_ok in EB. destruct EB as (g & _ & EB). apply Ok_inj in EB. apply pair_inj in EB. destruct EB as [<- _]. reflexivity.
    - apply Ok_inj in EB. apply pair_inj in EB. destruct EB as [<- _]. reflexivity. }
  destruct (isSideways c); apply Ok_inj in H; subst fac; cbn [fMesh faces leftMesh]; rewrite B; reflexivity.
Qed.
Lemma sits_rise pl k m l : sits_on pl k -> zs m l -> Forall (fun p => rise pl p = m) (etransformed l (kmatrix k)).
Proof. intros S H. apply Forall_map. eapply Forall_impl; [|exact H]. intros p E. cbn beta. rewrite (S p). exact E. Qed.
(* a plate with key holes *)
Lemma plate_flat pl (e : list pt) (hole : @key Rnum -> list pt) ks : wf_plane pl -> Forall (on_plane pl) e -> (forall k, In k ks -> Forall (on_plane pl) (hole k)) -> flat_face (e, map hole ks).
Proof.
  intros W E H. unfold flat_face. cbn [fst snd]. apply (coplanar_on pl _ W). apply Forall_app. split; [exact E|].
  apply Forall_forall. intros p I. apply in_concat in I. destruct I as (l & I & J). apply in_map_iff in I. destruct I as (k & <- & I). specialize (H k I). rewrite Forall_forall in H. exact (H p J).
Qed.
Lemma between pl (b d e : pt) k : on_plane pl b -> on_plane pl d -> e = plus b (scaled k (minus d b)) -> on_plane pl e.
Proof.
  intros B D ->. unfold on_plane in *. transitivity ((1 - k) * inner (minus b (ppos pl)) (pnormal pl) + k * inner (minus d (ppos pl)) (pnormal pl)); [vr; ring|]. rewrite B, D. ring.
Qed.
Section Plates.
Variable q : @quality Rnum.
Variable c : @body_cfg Rnum.
Variable pc : @plan_cfg Rnum.
Variables (fuel : nat) (sd : side) (pn : @plan Rnum).
Hypothesis HP : newPlan pc fuel sd = Ok pn.
Hypothesis HD : 0 <= bossDiameter (bossCfg pc).
Hypothesis HT : alnumTentAngle pc < thumbTentAngle pc + PI.
Hypothesis HTT : by_thumbTent c = thumbTentAngle pc.
Hypothesis HPT : by_pinkyTent c = pinkyTentAngle pc.
Let p := planPoints pn.
Let a := pA (planPlanes pn).
Variables (g : @cornersB Rnum) (st : @stepB Rnum) (k : @chamfersB Rnum).
Hypothesis EG : bodyCorners q c p a (planBoss pn) = Ok g.
Hypothesis ES : bodyStep q c p a = Ok st.
Hypothesis EK : bodyChamfers c p a g st = Ok k.

Lemma outer_plates :
  Forall (on_plane (alnumOT a)) [stOLF st; alnumORFp p; alnumORBT k; alnumOLBT k] /\
  Forall (on_plane (pinkyOT a)) (coRFT k ++ coRBT k ++ [alnumORBT k; alnumORFp p; thumbORFT k]) /\
  Forall (on_plane (thumbOT a)) (coLFT k ++ thumbORFT k :: alnumORFp p :: stOG st ++ [ridgeORF p]).
Proof.
  destruct (roof_facts pc fuel sd pn HP HD) as ((WA & WT & WI) & _). fold a in WA, WT, WI.
  destruct (C62_corners pc fuel sd pn HP HD) as ((_ & OLF) & (_ & OLB) & (_ & ORF) & (_ & ORB) & (_ & IRF) & (_ & IRB) & _ & _ & (_ & TRF) & RO & _). fold p a in OLF, OLB, ORF, ORB, IRF, IRB, TRF, RO.
  destruct (C65_plan_angles pc fuel sd pn HP HD) as (_ & _ & _ & _ & _ & _ & _ & _ & _ & _ & CB & CF). fold a in CB, CF.
  destruct (C65_creases pc fuel sd pn HP HD) as (_ & _ & _ & _ & CR). fold a in CR. specialize (CR HT).
  destruct OLF as (_ & _ & OLF). destruct OLB as (_ & _ & OLB). destruct ORF as (ORF1 & _ & ORF2). destruct ORB as (ORB1 & _ & ORB2). destruct IRF as (_ & _ & IRF). destruct IRB as (_ & _ & IRB). destruct TRF as (TRF1 & _ & TRF2).
  assert (ORF3 : on_plane (pinkyOT a) (alnumORFp p)) by (apply CR; assumption).
  assert (ORB3 : on_plane (pinkyOT a) (alnumORBp p)) by (change (rise (pinkyOT a) (alnumORBp p) = 0); rewrite <- (CB _ ORB1); exact ORB2).
  assert (TRF3 : on_plane (pinkyOT a) (thumbORFp p)) by (change (rise (pinkyOT a) (thumbORFp p) = 0); rewrite <- (CF _ TRF1); exact TRF2).
  unfold bodyStep in ES. cbv zeta in ES. apply bind_ok in ES. destruct ES as (sdir & _ & ES'). apply bind_ok in ES'. destruct ES' as (ilf & _ & ES'). apply bind_ok in ES'. destruct ES' as (olf & EO & ES').
  assert (SO : stOLF st = olf /\ Forall (on_plane (thumbOT a)) (stOG st)).
  { do 5 (apply bind_ok in ES'; destruct ES' as (? & _ & ES')). apply bind_ok in ES'. destruct ES' as (og & OG & ES'). do 2 (apply bind_ok in ES'; destruct ES' as (? & _ & ES')). apply Ok_inj in ES'. rewrite <- ES'. split; [reflexivity|exact (raised_all _ _ _ OG)]. }
  clear ES'. destruct SO as [SO FG].
  unfold bodyCorners in EG. cbv zeta in EG. pose proof EG as G. do 6 (apply bind_ok in G; destruct G as (? & _ & G)).
  apply bind_ok in G. destruct G as (t1 & _ & G). apply bind_ok in G. destruct G as (t2 & _ & G). apply bind_ok in G. destruct G as (t3 & _ & G).
  apply bind_ok in G. destruct G as (t4 & T4 & G). apply bind_ok in G. destruct G as (t5 & T5 & G). apply bind_ok in G. destruct G as (t6 & T6 & G).
  apply raised_all in T4. apply raised_all in T5. apply raised_all in T6.
  assert (Q : oLFT g = t4 /\ oRFT g = t5 /\ oRBT g = t6).
  { do 4 (apply bind_ok in G; destruct G as (? & _ & G)). apply bind_ok in G. destruct G as (? & _ & G). apply bind_ok in G. destruct G as (? & _ & G). match type of G with (if ?x then _ else _) = _ => destruct x; [discriminate|] end.
    apply bind_ok in G. destruct G as (? & _ & G). match type of G with (if ?x then _ else _) = _ => destruct x; [discriminate|] end.
    apply bind_ok in G. destruct G as (? & _ & G). apply bind_ok in G. destruct G as (? & _ & G). match type of G with (if ?x then _ else _) = _ => destruct x; [discriminate|] end.
    apply Ok_inj in G. rewrite <- G. split; [reflexivity|split; reflexivity]. }
  clear G. destruct Q as (Q4 & Q5 & Q6).
  pose proof EK as K. unfold bodyChamfers in K. cbv zeta in K. rewrite Q4, Q5, Q6 in K.
  apply bind_ok in K. destruct K as (lf' & E1 & K). apply bind_ok in K. destruct K as (rf' & E2 & K). apply bind_ok in K. destruct K as (rb' & E3 & K).
  apply bind_ok in K. destruct K as (r0 & I0 & K). apply bind_ok in K. destruct K as (j1 & J1 & K). apply bind_ok in K. destruct K as (r1 & I1 & K). apply bind_ok in K. destruct K as (j2 & J2 & K). apply bind_ok in K. destruct K as (j3 & J3 & K).
  do 7 (apply bind_ok in K; destruct K as (? & _ & K)). do 5 (apply bind_ok in K; destruct K as (? & _ & K)). apply Ok_inj in K.
  rewrite SO in J3. rewrite <- K. cbn [coLFT coRFT coRBT thumbORFT alnumORBT alnumOLBT]. rewrite SO.
  assert (UT : unit_vec (pnormal (thumbOT a))) by exact WT. assert (UI : unit_vec (pnormal (pinkyOT a))) by exact WI. assert (UA : unit_vec (pnormal (alnumOT a))) by exact WA.
  pose proof (run_made _ _ _ _ _ _ _ UT (or_introl eq_refl) T4 E1) as (_ & R1 & _). pose proof (run_made _ _ _ _ _ _ _ UI (or_introl eq_refl) T5 E2) as (_ & R2 & _). pose proof (run_made _ _ _ _ _ _ _ UI (or_introl eq_refl) T6 E3) as (_ & R3 & _).
  apply Forall_app in R1. apply Forall_app in R2. apply Forall_app in R3. destruct R1 as [_ R1]. destruct R2 as [_ R2]. destruct R3 as [_ R3].
  assert (O0 : on_plane (pinkyOT a) r0) by (rewrite Forall_forall in R2; exact (R2 _ (pyidx_in _ _ _ I0))).
  assert (O1 : on_plane (pinkyOT a) r1) by (rewrite Forall_forall in R3; exact (R3 _ (pyidx_in _ _ _ I1))).
  assert (K1 : chamfer_end (pinkyOT a) (pinkyORFp p) (thumbORFp p) (alnumORFp p) r0 j1) by (apply end_made; assumption).
  assert (K2 : chamfer_end (pinkyOT a) (pinkyORBp p) (alnumORBp p) (alnumORFp p) r1 j2) by (apply end_made; assumption).
  assert (CS : chamfered (pnormal (alnumOT a)) (by_outerChamfer c * (5 / 4)) (ridgeORF p) (alnumOLFp p) (alnumORFp p) olf) by exact (chamfer_made _ _ _ _ _ _ UA EO).
  assert (OS : on_plane (alnumOT a) olf).
  { destruct CS as (C & _). unfold on_plane in *. transitivity (inner (minus olf (alnumOLFp p)) (pnormal (alnumOT a)) + inner (minus (alnumOLFp p) (ppos (alnumOT a))) (pnormal (alnumOT a))); [vr; ring|]. rewrite C, OLF. ring. }
  destruct K1 as (K1p & (k1 & K1e) & _). destruct K2 as (K2p & (k2 & K2e) & _).
  assert (J1T : on_plane (thumbOT a) j1) by (eapply between; [exact TRF2|exact ORF1|exact K1e]).
  assert (J2A : on_plane (alnumOT a) j2) by (eapply between; [exact ORB2|exact ORF2|exact K2e]).
  assert (K3 : chamfer_end (alnumOT a) (alnumORBp p) (alnumOLBp p) olf j2 j3) by (apply end_made; assumption). destruct K3 as (K3p & _).
  split; [repeat (constructor; [assumption|]); constructor|]. split.
  - apply Forall_app. split; [exact R2|]. apply Forall_app. split; [exact R3|]. repeat (constructor; [assumption|]). constructor.
  - apply Forall_app. split; [exact R1|]. constructor; [exact J1T|]. constructor; [exact ORF1|]. apply Forall_app. split; [exact FG|]. constructor; [exact RO|constructor].
Qed.

Lemma inner_plates :
  Forall (on_plane (pinkyIT a)) (alnumIRBT k :: eRBT k ++ ciRBT k ++ ciRFT k ++ eRFT k ++ [thumbIRFT k]) /\
  (thumbTentAngle pc = pinkyTentAngle pc -> Forall (on_plane (alnumIT a)) (eLBT k ++ [alnumIRBT k; alnumIRFp p; stILF st; alnumILBT k])) /\
  (thumbTentAngle pc = pinkyTentAngle pc -> Forall (on_plane (thumbIT a)) (thumbIRFT k :: eLFT k ++ ciLFT k ++ ridgeIRF p :: stIG st ++ [alnumIRFp p])).
Proof.
  destruct (roof_facts pc fuel sd pn HP HD) as ((WA & WT & WI) & (NA & NT & NI)). fold a in WA, WT, WI, NA, NT, NI.
  destruct (C62_corners pc fuel sd pn HP HD) as ((OLF & _) & (OLB & _) & (ORF & _) & (ORB & _) & (IRF & _) & (IRB & _) & _ & _ & (TRF & _) & _ & RI & _). fold p a in OLF, OLB, ORF, ORB, IRF, IRB, TRF, RI.
  destruct (C65_creases pc fuel sd pn HP HD) as (CB & CF & SAME & _). fold a in CB, CF, SAME.
  destruct OLF as (_ & _ & OLF). destruct OLB as (_ & _ & OLB). destruct ORF as (ORF1 & _ & ORF2). destruct ORB as (ORB1 & _ & ORB2). destruct IRF as (_ & _ & IRF). destruct IRB as (_ & _ & IRB). destruct TRF as (TRF1 & _ & TRF2).
  assert (ORB3 : on_plane (pinkyIT a) (alnumIRBp p)) by (change (rise (pinkyIT a) (alnumIRBp p) = 0); rewrite <- (CB _ ORB1); exact ORB2).
  assert (TRF3 : on_plane (pinkyIT a) (thumbIRFp p)) by (change (rise (pinkyIT a) (thumbIRFp p) = 0); rewrite <- (CF _ TRF1); exact TRF2).
  assert (ORF3 : thumbTentAngle pc = pinkyTentAngle pc -> on_plane (pinkyIT a) (alnumIRFp p)).
  { intros EQ. destruct (SAME EQ (alnumIRFp p)) as (_ & ESM). change (rise (pinkyIT a) (alnumIRFp p) = 0). rewrite <- ESM. exact ORF1. }
  set (s := by_innerChamfer c).
  pose proof EG as XG. pose proof ES as XS. pose proof EK as XK.
  unfold bodyStep in XS. cbv zeta in XS. apply bind_ok in XS. destruct XS as (sdir & _ & XS). apply bind_ok in XS. destruct XS as (ilf & EI & XS). apply bind_ok in XS. destruct XS as (olf & _ & XS).
  assert (SI' : stILF st = ilf /\ Forall (on_plane (thumbIT a)) (stIG st)).
  { do 4 (apply bind_ok in XS; destruct XS as (? & _ & XS)). apply bind_ok in XS. destruct XS as (ig & IG & XS). do 3 (apply bind_ok in XS; destruct XS as (? & _ & XS)). apply Ok_inj in XS. rewrite <- XS. split; [reflexivity|exact (raised_all _ _ _ IG)]. }
  clear XS. destruct SI' as [SI FG].
  unfold bodyCorners in XG. cbv zeta in XG. do 6 (apply bind_ok in XG; destruct XG as (? & _ & XG)).
  apply bind_ok in XG. destruct XG as (t1 & T1 & XG). apply bind_ok in XG. destruct XG as (t2 & T2 & XG). apply bind_ok in XG. destruct XG as (t3 & T3 & XG). do 3 (apply bind_ok in XG; destruct XG as (? & _ & XG)).
  apply bind_ok in XG. destruct XG as (u1 & U1 & XG). apply bind_ok in XG. destruct XG as (u2 & U2 & XG). apply bind_ok in XG. destruct XG as (u3 & U3 & XG). apply bind_ok in XG. destruct XG as (u4 & U4 & XG).
  apply raised_all in T1. apply raised_all in T2. apply raised_all in T3. apply raised_all in U1. apply raised_all in U2. apply raised_all in U3. apply raised_all in U4.
  assert (Q : (iLFT g = t1 /\ iRFT g = t2 /\ iRBT g = t3) /\ (eLB g = u1 /\ eRB g = u2 /\ eRF g = u3 /\ eLF g = u4)).
  { apply bind_ok in XG. destruct XG as (? & _ & XG). apply bind_ok in XG. destruct XG as (? & _ & XG). match type of XG with (if ?x then _ else _) = _ => destruct x; [discriminate|] end.
    apply bind_ok in XG. destruct XG as (? & _ & XG). match type of XG with (if ?x then _ else _) = _ => destruct x; [discriminate|] end.
    apply bind_ok in XG. destruct XG as (? & _ & XG). apply bind_ok in XG. destruct XG as (? & _ & XG). match type of XG with (if ?x then _ else _) = _ => destruct x; [discriminate|] end.
    apply Ok_inj in XG. rewrite <- XG. repeat split. }
  clear XG. destruct Q as ((Q1 & Q2 & Q3) & (Q4 & Q5 & Q6 & Q7)).
  unfold bodyChamfers in XK. cbv zeta in XK. rewrite Q1, Q2, Q3, Q4, Q5, Q6, Q7 in XK. fold s in XK. rewrite SI in XK.
  do 3 (apply bind_ok in XK; destruct XK as (? & _ & XK)). apply bind_ok in XK. destruct XK as (? & _ & XK). apply bind_ok in XK. destruct XK as (? & _ & XK). apply bind_ok in XK. destruct XK as (? & _ & XK). apply bind_ok in XK. destruct XK as (? & _ & XK). apply bind_ok in XK. destruct XK as (? & _ & XK).
  apply bind_ok in XK. destruct XK as (lb & E1 & XK). apply bind_ok in XK. destruct XK as (rb & E2 & XK). apply bind_ok in XK. destruct XK as (rf & E3 & XK). apply bind_ok in XK. destruct XK as (lf & E4 & XK).
  apply bind_ok in XK. destruct XK as (irb & E5 & XK). apply bind_ok in XK. destruct XK as (irf & E6 & XK). apply bind_ok in XK. destruct XK as (ilf' & E7 & XK).
  apply bind_ok in XK. destruct XK as (r0 & I0 & XK). apply bind_ok in XK. destruct XK as (r1 & I1 & XK). apply bind_ok in XK. destruct XK as (j2 & J2 & XK). apply bind_ok in XK. destruct XK as (j1 & J1 & XK). apply bind_ok in XK. destruct XK as (j3 & J3 & XK). apply Ok_inj in XK.
  rewrite <- XK. cbn [alnumIRBT eRBT ciRBT ciRFT eRFT thumbIRFT eLBT alnumILBT eLFT ciLFT]. rewrite SI.
  set (down := fun pl : @plane Rnum => vopp (pnormal pl)).
  assert (DT : vopp (pnormal (thumbOT a)) = down (thumbIT a)) by (unfold down; rewrite NT; reflexivity). assert (DI : vopp (pnormal (pinkyOT a)) = down (pinkyIT a)) by (unfold down; rewrite NI; reflexivity). assert (DA : vopp (pnormal (alnumOT a)) = down (alnumIT a)) by (unfold down; rewrite NA; reflexivity).
  rewrite DT in *. rewrite DI in *. rewrite DA in *.
  assert (UT : unit_vec (down (thumbIT a))) by (apply neg_unit; rewrite NT; exact WT). assert (UI : unit_vec (down (pinkyIT a))) by (apply neg_unit; rewrite NI; exact WI). assert (UA : unit_vec (down (alnumIT a))) by (apply neg_unit; rewrite NA; exact WA).
  assert (WI' : wf_plane (pinkyIT a)) by (unfold wf_plane; rewrite NI; exact WI). assert (WA' : wf_plane (alnumIT a)) by (unfold wf_plane; rewrite NA; exact WA).
  pose proof (run_made _ _ _ _ _ _ _ UA (or_intror eq_refl) U1 E1) as R1. pose proof (run_made _ _ _ _ _ _ _ UI (or_intror eq_refl) U2 E2) as R2. pose proof (run_made _ _ _ _ _ _ _ UI (or_intror eq_refl) U3 E3) as R3. pose proof (run_made _ _ _ _ _ _ _ UT (or_intror eq_refl) U4 E4) as R4.
  pose proof (run_made _ _ _ _ _ _ _ UI (or_intror eq_refl) T3 E5) as R5. pose proof (run_made _ _ _ _ _ _ _ UI (or_intror eq_refl) T2 E6) as R6. pose proof (run_made _ _ _ _ _ _ _ UT (or_intror eq_refl) T1 E7) as R7.

  destruct R1 as (_ & R1 & _), R2 as (_ & R2 & _), R3 as (_ & R3 & _), R4 as (_ & R4 & _), R5 as (_ & R5 & _), R6 as (_ & R6 & _), R7 as (_ & R7 & _).
  apply Forall_app in R1, R2, R3, R4, R5, R6, R7. destruct R1 as [_ R1], R2 as [_ R2], R3 as [_ R3], R4 as [_ R4], R5 as [_ R5], R6 as [_ R6], R7 as [_ R7].
  assert (O0 : on_plane (pinkyIT a) r0) by (rewrite Forall_forall in R5; exact (R5 _ (pyidx_in _ _ _ I0))).
  assert (O1 : on_plane (pinkyIT a) r1) by (rewrite Forall_forall in R6; exact (R6 _ (pyidx_in _ _ _ I1))).
  assert (CS : chamfered (pnormal (alnumIT a)) (s * (5 / 4)) (ridgeIRF p) (alnumILFp p) (alnumIRFp p) ilf). { apply (chamfer_made _ _ _ _ _ _ WA'). rewrite NA. exact EI. }
  assert (OS : on_plane (alnumIT a) ilf).
  { destruct CS as (C & _). unfold on_plane in *. transitivity (inner (minus ilf (alnumILFp p)) (pnormal (alnumIT a)) + inner (minus (alnumILFp p) (ppos (alnumIT a))) (pnormal (alnumIT a))); [vr; ring|]. rewrite C, OLF. ring. }
  rewrite HTT, HPT in J2, J3. change (@neqb Rnum (thumbTentAngle pc) (pinkyTentAngle pc)) with (Reqb (thumbTentAngle pc) (pinkyTentAngle pc)) in J2, J3.
  destruct (Reqb (thumbTentAngle pc) (pinkyTentAngle pc)) eqn:EQ.
  - apply Reqb_true in EQ. specialize (ORF3 EQ).
    assert (K2 : chamfer_end (pinkyIT a) (pinkyIRBp p) (alnumIRBp p) (alnumIRFp p) r0 j2) by (apply end_made; assumption).
    assert (K3 : chamfer_end (pinkyIT a) (pinkyIRFp p) (thumbIRFp p) (alnumIRFp p) r1 j3) by (apply end_made; assumption).
    destruct K2 as (K2p & (k2 & K2e) & _). destruct K3 as (K3p & (k3 & K3e) & _).
    assert (J2A : on_plane (alnumIT a) j2) by (eapply between; [exact ORB2|exact ORF2|exact K2e]).
    assert (J3T : on_plane (thumbIT a) j3) by (eapply between; [exact TRF2|exact ORF1|exact K3e]).
    assert (K1 : chamfer_end (alnumIT a) (alnumIRBp p) (alnumILBp p) ilf j2 j1) by (apply end_made; assumption). destruct K1 as (K1p & _).
    split; [|split; intros _].
    + constructor; [exact K2p|]. repeat (apply Forall_app; split; [assumption|]). constructor; [exact K3p|constructor].
    + apply Forall_app. split; [exact R1|]. repeat (constructor; [assumption|]). constructor.
    + constructor; [exact J3T|]. repeat (apply Forall_app; split; [assumption|]). constructor; [exact RI|]. apply Forall_app. split; [exact FG|]. constructor; [exact ORF1|constructor].
  - apply Reqb_false in EQ. split; [|split; intros E; contradiction].
    assert (K2 : chamfer_end (pinkyIT a) (pinkyIRBp p) (alnumIRBp p) (thumbIRFp p) r0 j2) by (apply end_made; assumption).
    assert (K3 : chamfer_end (pinkyIT a) (pinkyIRFp p) (thumbIRFp p) (alnumIRBp p) r1 j3) by (apply end_made; assumption).
    destruct K2 as (K2p & _). destruct K3 as (K3p & _).
    constructor; [exact K2p|]. repeat (apply Forall_app; split; [assumption|]). constructor; [exact K3p|constructor].
Qed.
Lemma plates_flat fac : keyFactory (keyCfg pc) = Ok fac -> (forall s x, In x (lall (planLayout pn) s) -> kfactory x = fac) -> holeHeight (keyCfg pc) = p_roofThickness pc ->
  Forall (fun f => (thumbTentAngle pc = pinkyTentAngle pc \/ ~ In (alnumIRFp p) (fst f)) -> flat_face f)
    (faces (@bodyPlates Rnum p st k (alnum (planLayout pn) (planSide pn)) (pinky (planLayout pn) (planSide pn)) (lthumb (planLayout pn) (planSide pn)))).
Proof.
  intros EF SH HH. destruct (key_levels _ _ EF) as [ZO ZI]. destruct outer_plates as (O1 & O2 & O3). destruct inner_plates as (I1 & I2 & I3).
  destruct (roof_facts pc fuel sd pn HP HD) as ((WA & WT & WI) & (NA & NT & NI)). fold a in WA, WT, WI, NA, NT, NI.
  destruct (C62_roofs pc fuel sd pn HP HD) as (S1 & S2 & S3 & T1 & T2 & T3). fold a in S1, S2, S3, T1, T2, T3. cbv zeta in *.
  set (y := planLayout pn) in *. set (sn := planSide pn).
  assert (TS : forall x, In x (lthumb y sn) -> In x (lthumb y SideBoth)) by (intros x I; clear -I; unfold lthumb in *; rewrite in_app_iff; destruct sn; try apply in_app_iff in I; tauto).
  assert (KO : forall pl l l', (forall x, In x l -> In x l') -> (forall x, In x l -> In x (lall y sn)) -> (forall x, In x l' -> sits_on pl x) -> forall x, In x l -> Forall (on_plane pl) (roofHoleO x)).
  { intros pl l l' G IL S x I. unfold roofHoleO. rewrite (SH sn x) by (exact (IL _ I)). apply (sits_rise pl x 0); [apply S, G, I|exact ZO]. }
  assert (KI : forall pi po l l', (forall x, In x l -> In x l') -> (forall x, In x l -> In x (lall y sn)) -> thick (p_roofThickness pc) pi po -> (forall x, In x l' -> sits_on po x) -> forall x, In x l -> Forall (on_plane pi) (roofHoleI x)).
  { intros pi po l l' G IL T S x I. unfold roofHoleI. rewrite (SH sn x) by (exact (IL _ I)).
    pose proof (sits_rise po x _ _ (S x (G x I)) ZI) as Q. eapply Forall_impl; [|exact Q]. intros v E. change (rise pi v = 0). rewrite (T v), E, HH. ring. }
  assert (G0 : forall x, In x (alnum y sn) -> In x (alnum y SideBoth)) by (intros x I; exact (group_side _ _ _ _ I)). assert (G1 : forall x, In x (pinky y sn) -> In x (pinky y SideBoth)) by (intros x I; exact (group_side _ _ _ _ I)).
  assert (L0 : forall x, In x (alnum y sn) -> In x (lall y sn)) by (intros x I; apply lall_in; auto). assert (L1 : forall x, In x (pinky y sn) -> In x (lall y sn)) by (intros x I; apply lall_in; auto). assert (L2 : forall x, In x (lthumb y sn) -> In x (lall y sn)) by (intros x I; apply lall_in; auto).
  assert (WA' : wf_plane (alnumIT a)) by (unfold wf_plane; rewrite NA; exact WA). assert (WT' : wf_plane (thumbIT a)) by (unfold wf_plane; rewrite NT; exact WT). assert (WI' : wf_plane (pinkyIT a)) by (unfold wf_plane; rewrite NI; exact WI).
  unfold bodyPlates. cbv zeta. cbn [meshes app faces].
  constructor. { intros [E|E]; [apply (plate_flat _ _ _ _ WA' (I2 E)); exact (KI _ _ _ _ G0 L0 T1 S1)|exfalso; apply E; cbn [fst]; apply in_or_app; right; right; left; reflexivity]. }
  constructor. { intros _. apply (plate_flat _ _ _ _ WI' I1). exact (KI _ _ _ _ G1 L1 T2 S2). }
  constructor. { intros [E|E]; [apply (plate_flat _ _ _ _ WT' (I3 E)); exact (KI _ _ _ _ TS L2 T3 S3)|exfalso; apply E; cbn [fst]; right; apply in_or_app; right; apply in_or_app; right; right; apply in_or_app; right; left; reflexivity]. }
  constructor. { intros _. apply (plate_flat _ _ _ _ WA O1). exact (KO _ _ _ G0 L0 S1). }
  constructor. { intros _. apply (plate_flat _ _ _ _ WI O2). exact (KO _ _ _ G1 L1 S2). }
  constructor. { intros _. apply (plate_flat _ _ _ _ WT O3). exact (KO _ _ _ TS L2 S3). }
  apply all_meshes. apply Forall_forall. intros m I. apply in_map_iff in I. destruct I as (x & <- & I). unfold ktriangles. cbn [faces].
  assert (N : faces (fMesh (kfactory x)) = []) by (apply (key_faces (keyCfg pc)); rewrite EF; f_equal; symmetry; apply (SH sn); unfold lall; exact I). rewrite N. constructor.
Qed.
End Plates.
