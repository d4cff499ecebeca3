(** The planner's second stage: the walls around all keys and the screw bosses. *)
From Coq Require Import Reals Lra Psatz List Bool ZArith Lia.
From Verif Require Import Num GeoModel GeoSpec GeoMat GeoRigid GeoPlane GeoIso EdgeModel ArcModel
  KeyModel LayoutModel LayoutSpec LayoutProof BossModel PlanModel HullSpec PlanSpec WallProof BossFit BossFit2 BossKeys PlanMove PlanTent.
Import ListNotations.
Open Scope R_scope.

(* a pair of wall lines of the given thickness *)
Definition wall_pair (t : R) (w : @line Rnum * @line Rnum) : Prop := ground_line (fst w) /\ ground_line (snd w) /\ moved_out t (fst w) (snd w).
(* both lines moved outward by the same distance *)
Definition pair_out (d : R) (w w' : @line Rnum * @line Rnum) : Prop := moved_out d (fst w) (fst w') /\ moved_out d (snd w) (snd w').
Lemma pair_out_keeps t d w w' : wall_pair t w -> pair_out d w w' -> wall_pair t w'.
Proof.
  intros (G1 & G2 & (D & _ & M)) ((D1 & H1 & M1) & (D2 & H2 & M2)). split; [exact H1|]. split; [exact H2|]. split; [congruence|]. split; [exact H2|].
  intros v. rewrite M1, M2, M. ring.
Qed.
Lemma pair_out_trans a b w w' w'' : pair_out a w w' -> pair_out b w' w'' -> pair_out (a + b) w w''.
Proof. intros (A1 & A2) (B1 & B2). split; eapply moved_trans; eauto. Qed.

Section W.
Variable c : @plan_cfg Rnum.
Variable fuel : nat.
Hypothesis D0 : 0 <= bossDiameter (bossCfg c).
Let r := bossDiameter (bossCfg c) / 2.
Let margin := outerWallMargin (bossCfg c).
Definition keys_clear (ks : list (@key Rnum)) (pos : pt) : Prop := forall k, In k ks -> forall w, spanned (boundsI k) w -> r <= edist2 w pos.

Lemma fit_use t w k0 k1 pos w' : wall_pair t w -> bounded k0 -> bounded k1 -> fitBoss2D c fuel w k0 k1 = Ok (pos, w') ->
  exists d, 0 <= d /\ pair_out d w w' /\ wall_pair t w' /\ keys_clear [k0; k1] pos /\ beyond (snd w') pos = - (r + margin) /\ Z pos = 0.
Proof.
  intros W (B0 & N0 & _) (B1 & N1 & _) H. destruct w as (wi, wo), w' as (wi', wo'). pose proof W as (G1 & G2 & M). cbn [fst snd] in *.
  destruct (fit_sound c D0 k0 k1 B0 B1 N0 N1 wi wo G1 G2 (eq_sym (proj1 M)) fuel pos wi' wo' H) as (n & a0 & a1 & _ & _ & (M1 & M2 & S & F & _)).
  exists (INR n / 4). pose proof (pos_INR n). split; [lra|]. assert (PO : pair_out (INR n / 4) (wi, wo) (wi', wo')) by (split; assumption).
  split; [exact PO|]. split; [eapply pair_out_keeps; eauto|]. split.
  - intros k [<-|[<-|[]]] v Hv; apply F; auto.
  - destruct M2 as (_ & (U & Zd & _) & _). split; [cbn [snd]; eapply spot_beyond; eauto|]. destruct S as (a & b & j & _ & _ & _ & _ & _ & ->). reflexivity.
Qed.

(* the bosses of one side, between the keys chosen for them *)
Definition nearest_alnum (y : @layout Rnum) (ps : @planesA Rnum) (s : side) (back : @line Rnum) (a0 a1 : @key Rnum) : Prop :=
  exists cols x0 pB ks, perAlnumCol y 0 s = Ok cols /\ planeX (nZ 0) = Ok x0 /\ planeLine2D back = Ok pB /\
    alnumBossKeys cols x0 (pivotOF ps) pB (alnumOT ps) = Ok ks /\ pyidx ks 0 = Ok a0 /\ pyidx ks 1 = Ok a1.
Definition last_pinky (y : @layout Rnum) (i : BinNums.Z) (s : side) (k0 k1 : @key Rnum) : Prop :=
  exists ks, perPinkyCol y i s = Ok ks /\ pyidx ks (-1) = Ok k0 /\ pyidx ks (-2) = Ok k1.
Lemma nearest_in y ps s back a0 a1 : nearest_alnum y ps s back a0 a1 -> In a0 (alnum y s) /\ In a1 (alnum y s).
Proof.
  intros (cols & x0 & pB & ks & C & _ & _ & K & I0 & I1).
  assert (Q : forall k, In k ks -> In k cols).
  { intros k Hk. unfold alnumBossKeys in K. apply bind_ok in K. destruct K as (pL & _ & K). apply bind_ok in K. destruct K as (pR & _ & K).
    apply bind_ok in K. destruct K as (ds & _ & K). destruct (mapM_in _ _ _ _ K Hk) as (di & _ & E). eapply pyidx_in; eauto. }
  split; eapply (lperCol_in y 0 0 s cols); eauto; apply Q; eapply pyidx_in; eauto.
Qed.
Lemma nearest_cols y ps s back a0 a1 : (forall k, In k (alnum y s) -> Built (kmatrix k)) -> nearest_alnum y ps s back a0 a1 ->
  exists cols i j, perAlnumCol y 0 s = Ok cols /\ i <> j /\ nth_error cols i = Some a0 /\ nth_error cols j = Some a1.
Proof.
  intros B (cols & x0 & pB & ks & C & _ & _ & K & I0 & I1).
  assert (BK : forall k, In k cols -> Built (kmatrix k)) by (intros k Hk; apply B; eapply (lperCol_in y 0 0 s cols); eauto).
  destruct (alnumBossKeys_spec _ _ _ _ _ _ BK K) as (cl & cr & _ & _ & _ & _ & _ & _ & Q). cbv zeta in Q.
  rewrite pyidx_first in I0. destruct ks as [|x ks]; [discriminate|]. injection I0 as ->. destruct ks as [|x ks]; [discriminate|]. change (Ok x = Ok a1) in I1. injection I1 as ->.
  destruct (Q a0 a1 ks eq_refl) as (_ & i & j & _ & _ & N & E0 & E1 & _). exists cols, i, j. auto.
Qed.
Lemma pinky_in y i s k0 k1 : last_pinky y i s k0 k1 -> In k0 (pinky y s) /\ In k1 (pinky y s).
Proof. intros (ks & C & I0 & I1). split; eapply (lperCol_in y 1 i s ks); eauto; eapply pyidx_in; eauto. Qed.

Definition bosses_fit (y : @layout Rnum) (s : side) (lB lF : @line Rnum) (bs : pt * pt * pt * pt) (a0 a1 : @key Rnum) : Prop :=
  let '(b1, b2, b3, b4) := bs in
  exists p0 p1 f0 f1 t0 t1,
    last_pinky y 0 s p0 p1 /\ last_pinky y (-1) s f0 f1 /\ pyidx (lthumb y s) 0 = Ok t0 /\ pyidx (lthumb y s) 1 = Ok t1 /\
    keys_clear [a0; a1] b1 /\ keys_clear [p0; p1] b2 /\ keys_clear [f0; f1] b3 /\ keys_clear [t0; t1] b4 /\
    beyond lB b1 = - (r + margin) /\ beyond lB b2 <= - (r + margin) /\ beyond lF b3 <= - (r + margin) /\ beyond lF b4 = - (r + margin) /\
    Z b1 = 0 /\ Z b2 = 0 /\ Z b3 = 0 /\ Z b4 = 0.
Lemma fitBosses_ok t u y ps s wB wF bs wB' wF' : (forall k, In k (lall y SideBoth) -> bounded k) -> wall_pair t wB -> wall_pair u wF ->
  fitBosses c fuel y ps s (wB, wF) = Ok (bs, (wB', wF')) ->
  exists d e, 0 <= d /\ 0 <= e /\ pair_out d wB wB' /\ pair_out e wF wF' /\ wall_pair t wB' /\ wall_pair u wF' /\
  exists a0 a1, nearest_alnum y ps s (snd wB) a0 a1 /\ bosses_fit y s (snd wB') (snd wF') bs a0 a1.
Proof.
  intros B WB WF H. unfold fitBosses in H.
  apply bind_ok in H. destruct H as (pkB & EB & H). apply bind_ok in H. destruct H as (pkF & EF & H). cbv zeta in H.
  apply bind_ok in H. destruct H as (cols & EC & H). apply bind_ok in H. destruct H as (x0 & Ex & H). apply bind_ok in H. destruct H as (pB & EpB & H).
  apply bind_ok in H. destruct H as (ak & EA & H). apply bind_ok in H. destruct H as (a0 & E0 & H). apply bind_ok in H. destruct H as (a1 & E1 & H).
  apply bind_ok in H. destruct H as ([q1 w1] & R1 & H). apply bind_ok in H. destruct H as (b1 & Eb1 & H). apply bind_ok in H. destruct H as (b2 & Eb2 & H).
  apply bind_ok in H. destruct H as ([q2 w2] & R2 & H). apply bind_ok in H. destruct H as ([q3 w3] & R3 & H).
  apply bind_ok in H. destruct H as (t0 & T0 & H). apply bind_ok in H. destruct H as (t1 & T1 & H). apply bind_ok in H. destruct H as ([q4 w4] & R4 & H).
  apply bind_ok in H. destruct H as (f1 & F1 & H). apply bind_ok in H. destruct H as (f2 & F2 & H). apply bind_ok in H. destruct H as ([q5 w5] & R5 & H).
  apply bind_ok in H. destruct H as ([q6 w6] & R6 & H). cbn [fst snd] in *. injection H as <- <- <-.
  assert (NA : nearest_alnum y ps s (snd wB) a0 a1) by (exists cols, x0, pB, ak; auto 10).
  assert (LB : last_pinky y 0 s b1 b2) by (exists pkB; auto). assert (LF : last_pinky y (-1) s f1 f2) by (exists pkF; auto).
  assert (BI : forall g k, (g < 2)%nat -> In k (lgroup y g s) -> bounded k).
  { intros g k Hg Hk. apply B, (lall_side y s). apply lall_in. destruct g as [|[|g]]; [left; exact Hk|right; left; exact Hk|lia]. }
  assert (Ba0 : bounded a0) by (apply (BI 0%nat); [lia|apply (nearest_in _ _ _ _ _ _ NA)]). assert (Ba1 : bounded a1) by (apply (BI 0%nat); [lia|apply (nearest_in _ _ _ _ _ _ NA)]).
  assert (Bb1 : bounded b1) by (apply (BI 1%nat); [lia|apply (pinky_in _ _ _ _ _ LB)]). assert (Bb2 : bounded b2) by (apply (BI 1%nat); [lia|apply (pinky_in _ _ _ _ _ LB)]).
  assert (Bf1 : bounded f1) by (apply (BI 1%nat); [lia|apply (pinky_in _ _ _ _ _ LF)]). assert (Bf2 : bounded f2) by (apply (BI 1%nat); [lia|apply (pinky_in _ _ _ _ _ LF)]).
  assert (Bt0 : bounded t0) by (apply B, (lall_side y s), lall_in; right; right; eapply pyidx_in; eauto). assert (Bt1 : bounded t1) by (apply B, (lall_side y s), lall_in; right; right; eapply pyidx_in; eauto).
  destruct (fit_use t wB a0 a1 q1 w1 WB Ba0 Ba1 R1) as (d1 & P1 & O1 & W1 & _).
  destruct (fit_use t w1 b1 b2 q2 w2 W1 Bb1 Bb2 R2) as (d2 & P2 & O2 & W2 & C2 & Y2 & Z2).
  destruct (fit_use t w2 a0 a1 q3 w3 W2 Ba0 Ba1 R3) as (d3 & P3 & O3 & W3 & C3 & Y3 & Z3).
  destruct (fit_use u wF t0 t1 q4 w4 WF Bt0 Bt1 R4) as (d4 & P4 & O4 & W4 & _).
  destruct (fit_use u w4 f1 f2 q5 w5 W4 Bf1 Bf2 R5) as (d5 & P5 & O5 & W5 & C5 & Y5 & Z5).
  destruct (fit_use u w5 t0 t1 q6 w6 W5 Bt0 Bt1 R6) as (d6 & P6 & O6 & W6 & C6 & Y6 & Z6).
  exists (d1 + d2 + d3), (d4 + d5 + d6). split; [lra|]. split; [lra|].
  split; [eapply pair_out_trans; [eapply pair_out_trans; eauto|exact O3]|]. split; [eapply pair_out_trans; [eapply pair_out_trans; eauto|exact O6]|].
  split; [exact W3|]. split; [exact W6|]. exists a0, a1. split; [exact NA|].
  exists b1, b2, f1, f2, t0, t1. split; [exact LB|]. split; [exact LF|]. split; [exact T0|]. split; [exact T1|].
  split; [exact C3|]. split; [exact C2|]. split; [exact C5|]. split; [exact C6|]. split; [exact Y3|].
  split; [destruct O3 as (_ & (_ & _ & M)); rewrite M; lra|]. split; [destruct O6 as (_ & (_ & _ & M)); rewrite M; lra|]. split; [exact Y6|]. auto.
Qed.

(* planes, lines and boss positions after the second stage *)
Record walled (side : LayoutModel.side) (y : @layout Rnum) (w : @walls Rnum) : Prop := mkWalled {
  w_tented : tented c side y (pA (wPlanes w));
  w_back : wall_pair (wallThickness c) (wB w);
  w_front : wall_pair (wallThickness c) (wF w);
  w_dirB : ldir (fst (wB w)) = P (cos (alnumBackAngle c + splitAngle c + PI)) (sin (alnumBackAngle c + splitAngle c + PI)) 0;
  w_dirF : ldir (fst (wF w)) = P (cos (thumbFrontAngle c + splitAngle c)) (sin (thumbFrontAngle c + splitAngle c)) 0;
  w_planes : forall v, rise (alnumIB (wPlanes w)) v = - beyond (fst (wB w)) v /\ rise (alnumOB (wPlanes w)) v = - beyond (snd (wB w)) v /\
                       rise (pinkyIF (wPlanes w)) v = - beyond (fst (wF w)) v /\ rise (pinkyOF (wPlanes w)) v = - beyond (snd (wF w)) v;
  w_wf : wf_plane (alnumIB (wPlanes w)) /\ wf_plane (alnumOB (wPlanes w)) /\ wf_plane (pinkyIF (wPlanes w)) /\ wf_plane (pinkyOF (wPlanes w));
  w_inside : inside (alnumIB (wPlanes w)) (below (lall y SideBoth)) /\ inside (alnumOB (wPlanes w)) (above (lall y SideBoth)) /\
             inside (pinkyIF (wPlanes w)) (below (lall y SideBoth)) /\ inside (pinkyOF (wPlanes w)) (above (lall y SideBoth));
  w_bosses : exists cols i j a0 a1, perAlnumCol y 0 side = Ok cols /\ i <> j /\ nth_error cols i = Some a0 /\ nth_error cols j = Some a1 /\ bosses_fit y side (snd (wB w)) (snd (wF w)) (wBoss w) a0 a1 }.
Theorem planWalls_ok side y ps w : tented c side y ps -> planWalls c fuel side (y, ps) = Ok w -> walled side y w /\ pA (wPlanes w) = ps.
Proof.
  intros T H. unfold planWalls in H. apply bind_ok in H. destruct H as ([bI bO] & EB & H). apply bind_ok in H. destruct H as ([fI fO] & EF & H).
  apply bind_ok in H. destruct H as ([bs1 [wB1 wF1]] & R1 & H). apply bind_ok in H. destruct H as ([bs [wB2 wF2]] & R2 & H). cbn [fst snd] in *.
  apply bind_ok in H. destruct H as (iB & EiB & H). apply bind_ok in H. destruct H as (oB & EoB & H).
  apply bind_ok in H. destruct H as (iF & EiF & H). apply bind_ok in H. destruct H as (oF & EoF & H). apply Ok_inj in H.
  destruct (wallLines_ok _ _ _ _ _ EB) as (GB & DB & MB & IB & OB). destruct (wallLines_ok _ _ _ _ _ EF) as (GF & DF & MF & IF_ & OF_).
  assert (WB0 : wall_pair (wallThickness c) (bI, bO)) by (split; [exact GB|split; [apply MB|exact MB]]).
  assert (WF0 : wall_pair (wallThickness c) (fI, fO)) by (split; [exact GF|split; [apply MF|exact MF]]).
  pose proof (t_bounded _ _ _ _ T) as BK.
  destruct (fitBosses_ok _ _ _ _ _ _ _ _ _ _ BK WB0 WF0 R1) as (d1 & e1 & P1 & Q1 & O1 & O1' & WB1 & WF1 & _).
  destruct (fitBosses_ok _ _ _ _ _ _ _ _ _ _ BK WB1 WF1 R2) as (d2 & e2 & P2 & Q2 & O2 & O2' & WB2 & WF2 & a0 & a1 & NA & BF).
  pose proof (pair_out_trans _ _ _ _ _ O1 O2) as (M1 & M2). pose proof (pair_out_trans _ _ _ _ _ O1' O2') as (M3 & M4). cbn [fst snd] in *.
  destruct WB2 as (G1 & G2 & M5). destruct WF2 as (G3 & G4 & M6).
  destruct (planeLine_ok _ iB G1 EiB) as (V1 & _ & S1). destruct (planeLine_ok _ oB G2 EoB) as (V2 & _ & S2).
  destruct (planeLine_ok _ iF G3 EiF) as (V3 & _ & S3). destruct (planeLine_ok _ oF G4 EoF) as (V4 & _ & S4).
  subst w. split; [|reflexivity]. constructor; cbn [wPlanes pA wB wF wBoss alnumIB alnumOB pinkyIF pinkyOF].
  - exact T.
  - split; [exact G1|split; [exact G2|exact M5]].
  - split; [exact G3|split; [exact G4|exact M6]].
  - rewrite (proj1 M1). exact DB.
  - rewrite (proj1 M3). exact DF.
  - intros v. rewrite S1, S2, S3, S4. auto.
  - auto.
  - destruct M1 as (_ & _ & N1), M2 as (_ & _ & N2), M3 as (_ & _ & N3), M4 as (_ & _ & N4).
    split; [intros p Hp; rewrite S1, N1; specialize (IB p Hp); lra|]. split; [intros p Hp; rewrite S2, N2; specialize (OB p Hp); lra|].
    split; [intros p Hp; rewrite S3, N3; specialize (IF_ p Hp); lra|intros p Hp; rewrite S4, N4; specialize (OF_ p Hp); lra].
  - destruct (nearest_cols _ _ _ _ _ _ (fun k Hk => proj1 (BK k (proj2 (lall_in y SideBoth k) (or_introl (group_side y 0 side k Hk))))) NA) as (cols & i & j & C & N & E0 & E1).
    exists cols, i, j, a0, a1. auto.
Qed.
End W.
