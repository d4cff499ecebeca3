(** C100: what is checked before a body is built.  C101: where the boss for the circuit board stands. *)
From Coq Require Import Reals Lra Psatz ZArith List Bool Arith Lia.
From Verif Require Import Num Calc GeoModel EdgeModel GeoSpec GeoMat GeoRigid GeoPlane GeoCirc ArcModel ArcSpec ArcProof ArcCorner ArcShape MeshModel KeyModel LayoutModel LayoutProof BossModel PlanModel BracketModel BumperModel BodyModel EdgeReal PartProof PartSpec BodyFlat BodyReal BodyMade BossFit BossSpec BossProof PlanSpec PlanMove WallProof BrSpec BrProof CableProof.
From Verif Require Import LayoutSpec GeoIso PlanTent PlanPath P_Layout P_Solid P_Plan P_Palm P_Body P_Bracket P_Cable.
Import ListNotations.
Open Scope R_scope.

Lemma index_xy (l l' : list pt) i v : exy l = exy l' -> pyidx l i = Ok v -> exists v', pyidx l' i = Ok v' /\ X v' = X v /\ Y v' = Y v.
Proof.
  intros E H. unfold exy in E. assert (L : length l = length l') by (apply (f_equal (@length _)) in E; rewrite !map_length in E; exact E).
  assert (G : forall n w, nth_error l n = Some w -> exists w', nth_error l' n = Some w' /\ X w' = X w /\ Y w' = Y w).
  { intros n w N. pose proof (map_nth_error vxy n l N) as M1. rewrite E in M1. destruct (nth_error l' n) as [w'|] eqn:N'.
    - pose proof (map_nth_error vxy n l' N') as M2. pose proof (eq_trans (eq_sym M2) M1) as Q. assert (Q2 : vxy w' = vxy w) by (apply (f_equal (fun o => match o with Some u => u | None => vxy w end)) in Q; exact Q). exists w'. split; [reflexivity|]. split; [exact (f_equal X Q2)|exact (f_equal Y Q2)].
    - apply nth_error_None in N'. assert (K : nth_error (map vxy l') n = None) by (apply nth_error_None; rewrite map_length; exact N'). pose proof (eq_trans (eq_sym K) M1) as Q. discriminate. }
  unfold pyidx in *. cbv zeta in *. rewrite <- L. set (j := if (i <? 0)%Z then _ else _) in *. destruct (j <? 0)%Z; [discriminate|].
  destruct (nth_error l (Z.to_nat j)) as [w|] eqn:N; [|discriminate]. destruct (G _ w N) as (w' & N' & Q). rewrite N'.
  apply Ok_inj in H. subst w. exists w'. split; [reflexivity|exact Q].
Qed.

(* how far p is, seen from above, to the left of the line from a to b *)
Definition left_dist (a b p : pt) : R := ((X b - X a) * (Y a - Y p) - (Y b - Y a) * (X a - X p)) / sqrt ((X b - X a) * (X b - X a) + (Y b - Y a) * (Y b - Y a)).

(* C100: in the inner outline, the walls around the bosses and the rounded corners follow each other without overlap: the wall around the
   pinky's back boss ends left of the back corner, the wall around its front boss ends right of the thumb's right corner, and the wall around
   the thumb's boss ends right of the front left corner *)
Theorem C100_walls_in_order : forall q (taper : option R) pmod pasin (c : @body_cfg Rnum) pn b, newBody q taper pmod pasin c pn = Ok b ->
  let p := planPoints pn in let bs := planBoss pn in
  by_innerChamfer c < by_outerCornerRadius c - by_wallThickness c /\ by_innerChamfer c < by_innerWallFillet c /\ by_outerChamfer c < by_outerCornerRadius c /\
  exists frontL frontR backR,
    outlineI b = rev (collapsed (exy (vyz (alnumILBp p) :: alnumILBp p :: wallEdge (bossAlnumB bs) ++ wallEdge (bossPinkyB bs) ++ backR ++ frontR ++
                                      wallEdge (bossPinkyF bs) ++ wallEdge (bossThumbF bs) ++ frontL ++ [vyz (thumbILFp p)])) (1 / 1000)) /\
    wallEdge (bossPinkyB bs) <> [] /\ wallEdge (bossPinkyF bs) <> [] /\ wallEdge (bossThumbF bs) <> [] /\ backR <> [] /\ frontL <> [] /\
    X (last (wallEdge (bossPinkyB bs)) vzero) < X (hd vzero backR) /\
    X (thumbIRFp p) < X (last (wallEdge (bossPinkyF bs)) vzero) /\
    X (hd vzero frontL) < X (last (wallEdge (bossThumbF bs)) vzero).
Proof.
  intros q taper pmod pasin c pn b HB p bs.
  unfold newBody in HB. cbv zeta in HB.
  match type of HB with (if ?x then _ else _) = _ => destruct x eqn:G1; [discriminate|] end. match type of HB with (if ?x then _ else _) = _ => destruct x eqn:G2; [discriminate|] end. match type of HB with (if ?x then _ else _) = _ => destruct x eqn:G3; [discriminate|] end.
  change (Rleb (by_outerCornerRadius c - by_wallThickness c) (by_innerChamfer c) = false) in G1. apply Rleb_false in G1. change (Rleb (by_innerWallFillet c) (by_innerChamfer c) = false) in G2. apply Rleb_false in G2. change (Rleb (by_outerCornerRadius c) (by_outerChamfer c) = false) in G3. apply Rleb_false in G3.
  split; [exact G1|]. split; [exact G2|]. split; [exact G3|].
  fold p bs in HB. set (a := pA (planPlanes pn)) in *.
  apply bind_ok in HB. destruct HB as (g & EG & HB). apply bind_ok in HB. destruct HB as (st & _ & HB). apply bind_ok in HB. destruct HB as (k & EK & HB). apply bind_ok in HB. destruct HB as ((((em & ef) & eb) & eo) & _ & HB).
  apply bind_ok in HB. destruct HB as (rr & _ & HB). apply bind_ok in HB. destruct HB as (o & EO & HB). apply Ok_inj in HB. rewrite <- HB. cbn [outlineI]. clear HB.
  (* the walls around the bosses, lowered by the chamfer *)
  assert (LB : exy (eLBC k) = exy (eLB g) /\ exy (eRBC k) = exy (eRB g) /\ exy (eRFC k) = exy (eRF g) /\ exy (eLFC k) = exy (eLF g)).
  { unfold bodyChamfers in EK. cbv zeta in EK. repeat (apply bind_ok in EK; destruct EK as (? & _ & EK)). apply Ok_inj in EK. rewrite <- EK. cbn [eLBC eRBC eRFC eLFC].
    change (@nopp Rnum (by_innerChamfer c)) with (- by_innerChamfer c). split; [apply lowered_xy|]. split; [apply lowered_xy|]. split; apply lowered_xy. }
  clear EK. destruct LB as (L1 & L2 & L3 & L4).
  unfold bodyCorners in EG. cbv zeta in EG.
  apply bind_ok in EG. destruct EG as (a1 & A1 & EG). apply bind_ok in EG. destruct EG as (a2 & _ & EG). apply bind_ok in EG. destruct EG as (a3 & A3 & EG). apply bind_ok in EG. destruct EG as (a4 & _ & EG). apply bind_ok in EG. destruct EG as (a5 & _ & EG). apply bind_ok in EG. destruct EG as (a6 & _ & EG).
  apply bind_ok in EG. destruct EG as (t1 & T1 & EG). apply bind_ok in EG. destruct EG as (t2 & _ & EG). apply bind_ok in EG. destruct EG as (t3 & T3 & EG). apply bind_ok in EG. destruct EG as (t4 & _ & EG). apply bind_ok in EG. destruct EG as (t5 & _ & EG). apply bind_ok in EG. destruct EG as (t6 & _ & EG).
  apply bind_ok in EG. destruct EG as (e1 & E1 & EG). apply bind_ok in EG. destruct EG as (e2 & E2 & EG). apply bind_ok in EG. destruct EG as (e3 & E3 & EG). apply bind_ok in EG. destruct EG as (e4 & E4 & EG).
  apply bind_ok in EG. destruct EG as (x1 & X1 & EG). apply bind_ok in EG. destruct EG as (y1 & Y1 & EG). match type of EG with (if ?x then _ else _) = _ => destruct x eqn:C1; [discriminate|] end.
  apply bind_ok in EG. destruct EG as (x2 & X2 & EG). match type of EG with (if ?x then _ else _) = _ => destruct x eqn:C2; [discriminate|] end.
  apply bind_ok in EG. destruct EG as (x3 & X3 & EG). apply bind_ok in EG. destruct EG as (y3 & Y3 & EG). match type of EG with (if ?x then _ else _) = _ => destruct x eqn:C3; [discriminate|] end.
  apply Ok_inj in EG. subst g. cbn [eLB eRB eRF eLF] in L1, L2, L3, L4.
  change (Rleb (X y1) (X x1) = false) in C1. apply Rleb_false in C1. change (Rleb (X x2) (X (thumbIRFp p)) = false) in C2. apply Rleb_false in C2. change (Rleb (X x3) (X y3) = false) in C3. apply Rleb_false in C3.
  apply raised_xy in E1, E2, E3, E4, T1, T3.
  unfold bodyOutlines in EO. cbv zeta in EO. cbn [iLFG iRFG iRBG] in EO. apply bind_ok in EO. destruct EO as (hs & _ & EO). apply Ok_inj in EO. rewrite <- EO. cbn [snd]. clear EO.
  destruct (index_xy _ _ _ _ E2 X1) as (x1' & X1' & QX1 & _). destruct (index_xy _ _ _ _ E3 X2) as (x2' & X2' & QX2 & _). destruct (index_xy _ _ _ _ E4 X3) as (x3' & X3' & QX3 & _).
  destruct (index_xy _ _ _ _ T3 Y1) as (y1' & Y1' & QY1 & _). destruct (index_xy _ _ _ _ T1 Y3) as (y3' & Y3' & QY3 & _).
  assert (NE : forall (l : list pt) i v, pyidx l i = Ok v -> l <> []) by (intros l i v I; apply pyidx_in in I; intros ->; exact I).
  exists a1, a2, a3. split.
  - f_equal. f_equal. cbn [app]. unfold exy in *. cbn [map]. rewrite !map_app, L1, L2, L3, L4, E1, E2, E3, E4. reflexivity.
  - split; [exact (NE _ _ _ X1')|]. split; [exact (NE _ _ _ X2')|]. split; [exact (NE _ _ _ X3')|]. split; [exact (NE _ _ _ Y1')|]. split; [exact (NE _ _ _ Y3')|].
    rewrite (end_is _ _ vzero X1'), (end_is _ _ vzero X2'), (end_is _ _ vzero X3'), (hd_is _ _ vzero Y1'), (hd_is _ _ vzero Y3'). rewrite QX1, QX2, QX3, QY1, QY3. split; [exact C1|]. split; assumption.
Qed.
Print Assumptions C100_walls_in_order.

(* C100: the brackets keep clear: the front bracket ends before the front of the ridge and its edge under the roof is on the split's side of the
   roof's front edge, and the back bracket ends before the corner of the walls, each by at least the resolution *)
Theorem C100_brackets_clear : forall q (taper : option R) pmod pasin (c : @body_cfg Rnum) pn b bc, newBody q taper pmod pasin c pn = Ok b -> by_bracket c = Some bc ->
  exists front ridge back_ back bF bB, byLine b = [front; ridge; back_; back] /\ byBracketF b = Some bF /\ byBracketB b = Some bB /\
    (forall p, In p (cbSplit bF) -> Y p + 1 / 1000 <= Y ridge) /\
    (forall p, In p (cbRoof bF) -> 1 / 1000 <= left_dist ridge front p) /\
    cbWall bB <> [] /\ X (last (cbWall bB) vzero) + 1 / 1000 <= X (alnumILBp (planPoints pn)).
Proof.
  intros q taper pmod pasin c pn b bc H HBR. unfold newBody in H. cbv zeta in H. do 3 match type of H with (if ?b then _ else _) = _ => destruct b; [discriminate|] end.
  apply bind_ok in H. destruct H as (g & _ & H). apply bind_ok in H. destruct H as (s & _ & H). apply bind_ok in H. destruct H as (k & EK & H). apply bind_ok in H. destruct H as ((((em & ef) & eb) & eo) & _ & H).
  apply bind_ok in H. destruct H as (r & ER & H). apply bind_ok in H. destruct H as (o & _ & H). apply Ok_inj in H. rewrite <- H. cbn [byLine byBracketF byBracketB byMesh]. clear H.
  assert (AC : X (alnumILBC k) = X (alnumILBp (planPoints pn))).
  { unfold bodyChamfers in EK. cbv zeta in EK. repeat (apply bind_ok in EK; destruct EK as (? & _ & EK)). apply Ok_inj in EK. rewrite <- EK. cbn [alnumILBC]. change (X (alnumILBp (planPoints pn)) + 0 = X (alnumILBp (planPoints pn))). ring. }
  clear EK. unfold bodyRidge in ER. cbv zeta in ER. rewrite HBR in ER.
  apply bind_ok in ER. destruct ER as (og0 & _ & ER). apply bind_ok in ER. destruct ER as (oc0 & _ & ER). apply bind_ok in ER. destruct ER as (ot0 & _ & ER).
  apply bind_ok in ER. destruct ER as (ig1 & _ & ER). apply bind_ok in ER. destruct ER as (ic1 & _ & ER). apply bind_ok in ER. destruct ER as (it1 & _ & ER).
  apply bind_ok in ER. destruct ER as (bF & _ & ER). apply bind_ok in ER. destruct ER as (bB & _ & ER). apply bind_ok in ER. destruct ER as (ref & _ & ER). apply bind_ok in ER. destruct ER as (bT & _ & ER).
  apply bind_ok in ER. destruct ER as (tl & ETL & ER). apply bind_ok in ER. destruct ER as (my & EMY & ER). apply bind_ok in ER. destruct ER as (ds & EDS & ER). apply bind_ok in ER. destruct ER as (gap & EGAP & ER). apply bind_ok in ER. destruct ER as (mz & _ & ER).
  match type of ER with (if ?b || ?b2 || ?b3 then _ else _) = _ => destruct b eqn:C1; [discriminate|]; destruct b2 eqn:C2; [discriminate|]; destruct b3; [discriminate|] end. cbn [orb] in ER.
  apply bind_ok in ER. destruct ER as (wl & EWL & ER). apply bind_ok in ER. destruct ER as (mzB & _ & ER).
  match type of ER with (if ?b || ?b2 then _ else _) = _ => destruct b eqn:C3; [discriminate|]; destruct b2; [discriminate|] end. cbn [orb] in ER.
  apply bind_ok in ER. destruct ER as (w0 & _ & ER). apply bind_ok in ER. destruct ER as (rf0 & _ & ER). apply bind_ok in ER. destruct ER as (((((sc & wB) & wF) & cm) & op) & _ & ER). apply Ok_inj in ER.
  set (irf := ridgeIRF (planPoints pn)) in *.
  change (Rltb (Y irf - my) (1 / 1000) = false) in C1. apply Rltb_false in C1. change (Rltb gap (1 / 1000) = false) in C2. apply Rltb_false in C2. change (Rltb (X (alnumILBC k) - X wl) (1 / 1000) = false) in C3. apply Rltb_false in C3.
  exists it1, irf, (stILF s), (alnumILBT k), bF, bB.
  split; [rewrite <- ER; reflexivity|]. split; [rewrite <- ER; reflexivity|]. split; [rewrite <- ER; reflexivity|]. split; [|split; [|split]].
  - intros p I. destruct (maxList_spec _ _ EMY) as [_ M]. pose proof (M (Y p) (in_map Y _ _ I)). lra.
  - intros p I. apply mapM_ok in EDS.
    assert (D : exists d : R, ldistance2D tl p = Ok d /\ In d ds). { clear - EDS I. induction EDS as [|u v l l' E _ IH]; [destruct I|]. destruct I as [->|I]; [exists v; split; [exact E|left; reflexivity]|]. destruct (IH I) as (d & Q1 & Q2). exists d. split; [exact Q1|right; exact Q2]. }
    destruct D as (d & D1 & D2). pose proof (minList_le _ _ _ EGAP D2) as LE. replace (left_dist irf it1 p) with d; [lra|].
    destruct (newLine_ok _ _ _ ETL) as (_ & EP & ED & NZ). unfold ldistance2D in D1. apply bind_ok in D1. destruct D1 as (n & EN & D1). apply Ok_inj in D1. rewrite EP in D1.
    change (@vsub Rnum it1 irf) with (minus it1 irf) in ED, NZ. set (w := minus it1 irf) in *. pose proof (len_pos w NZ) as LW. assert (L : len w <> 0) by lra.
    assert (W0 : 0 < / len w) by (apply Rinv_0_lt_compat; exact LW).
    assert (N2 : X (ldir tl) <> 0 \/ Y (ldir tl) <> 0).
    { destruct (Req_EM_T (X (ldir tl)) 0) as [E1|]; [|left; assumption]. destruct (Req_EM_T (Y (ldir tl)) 0) as [E2|]; [|right; assumption]. rewrite (vnorm2D_err _ E1 E2) in EN. discriminate. }
    destruct (vnorm2D_ok _ N2) as (EN' & LN & LP). rewrite EN in EN'. apply Ok_inj in EN'. subst n.
    change (X (ldir tl) / len2 (ldir tl) * (Y irf - Y p) - Y (ldir tl) / len2 (ldir tl) * (X irf - X p) = d) in D1. rewrite <- D1.
    assert (E2 : len2 (ldir tl) = / len w * len2 w).
    { unfold len2. rewrite ED. change (X (scaled (/ len w) w)) with (/ len w * X w). change (Y (scaled (/ len w) w)) with (/ len w * Y w).
      replace (/ len w * X w * (/ len w * X w) + / len w * Y w * (/ len w * Y w)) with ((/ len w * / len w) * (X w * X w + Y w * Y w)) by ring.
      rewrite sqrt_mult_alt by (apply Rmult_le_pos; lra). rewrite sqrt_square by lra. reflexivity. }
    assert (L2 : len2 w <> 0) by (intros E0; rewrite E0, Rmult_0_r in E2; lra).
    rewrite E2, ED. change (X (scaled (/ len w) w)) with (/ len w * X w). change (Y (scaled (/ len w) w)) with (/ len w * Y w).
    change (/ len w * X w / (/ len w * len2 w) * (Y irf - Y p) - / len w * Y w / (/ len w * len2 w) * (X irf - X p) = (X w * (Y irf - Y p) - Y w * (X irf - X p)) / len2 w). field. split; assumption.
  - intros E. rewrite E in EWL. discriminate.
  - rewrite (end_is _ _ vzero EWL). rewrite <- AC. lra.
Qed.
Print Assumptions C100_brackets_clear.

(** C101: the boss that holds the circuit board stands at the configured place beside the first key of the pinky *)
(* a point of the drawing of the boss: seen along the axis it lies at p, height z above the board; the drawing is turned by a quarter and the split
   angle and placed in the coordinates of the key *)
Definition stand (m : @mount_cfg Rnum) (key : @key Rnum) (z : R) (p : pt) : pt :=
  transformed (plus (rotZ_pt (- (2 * PI) / 4 - mo_splitAngle m) origin (plus p (P 0 0 z))) (P (- mo_xDist m) (- mo_yDist m) (- mo_innerHeight m))) (kmatrix key).
Lemma in_face_mesh (m : @mesh Rnum) f l : In f (faces m) -> In m l -> In f (faces (meshes l)).
Proof.
  intros I J. induction l as [|m0 l IH]; [destruct J|]. cbn [meshes faces]. apply in_or_app. destruct J as [->|J]; [left; exact I|right; exact (IH J)].
Qed.
Lemma stand_body q (taper : option R) pmod bc m a b key s r : roofBracket q taper pmod bc (Some m) a b (kmatrix key) s = Ok r ->
  let rb := mo_bossDiameter m / 2 in let h := mo_bossHeight m in exists hole arc,
    uprightHole2D q taper (mo_threadDiameter m / 2 : R) = Ok hole /\ @arc2D Rnum q (rb : R) 0 PI vzero = Ok arc /\
    In (stand m key h (P rb (- (mo_nutDiameter m / 2)) 0) :: map (stand m key h) arc ++ [stand m key h (P (- rb) (- (mo_nutDiameter m / 2)) 0)], [rev (map (stand m key h) hole)]) (faces (rbMesh r)) /\
    In (rev (stand m key 0 (P rb (- rb) 0) :: map (stand m key 0) arc ++ [stand m key 0 (P (- rb) (- rb) 0)]), [map (stand m key 0) hole]) (faces (rbMesh r)).
Proof.
  intros H rb h. unfold roofBracket in H. cbv zeta in H. apply bind_ok in H. destruct H as (sk & _ & H). destruct sk as (((lf & lb) & pT) & pG).
  apply bind_ok in H. destruct H as (u & _ & H). apply bind_ok in H. destruct H as (hh & _ & H). destruct hh as ((hm & hl) & hr).
  apply bind_ok in H. destruct H as (x & EX & H). destruct x as (((((arm & align) & aL) & aR) & fR) & re). apply Ok_inj in H. rewrite <- H. cbn [rbMesh]. clear H.
  apply bind_ok in EX. destruct EX as (mb & EMB & EX). destruct mb as (bm & (((bFG & bFT) & bBG) & bBT)).
  assert (IN : forall f, In f (faces bm) -> In f (faces arm)).
  { intros f I. do 16 (apply bind_ok in EX; destruct EX as (? & _ & EX)). apply Ok_inj in EX. do 5 (apply pair_inj in EX; destruct EX as [EX _]). rewrite <- EX. cbn [meshes faces app]. rewrite app_nil_r. exact I. }
  clear EX. unfold mountBoss in EMB. cbv zeta in EMB. apply bind_ok in EMB. destruct EMB as (hole & EH & EMB). apply bind_ok in EMB. destruct EMB as (arc & EA & EMB). apply Ok_inj in EMB. apply pair_inj in EMB. destruct EMB as [EMB _].
  exists hole, arc. split; [exact EH|]. split; [exact EA|].
  assert (PL : forall (z : R) (p p' : pt), p' = plus p (P 0 0 z) -> transformed (vadd (transformed p' (mrotZ mid (nsub (ndiv (nopp tau) (nZ 4)) (mo_splitAngle m)) None)) (V (nopp (mo_xDist m)) (nopp (mo_yDist m)) (nopp (mo_innerHeight m)))) (kmatrix key) = stand m key z p).
  { intros z p p' ->. unfold stand. rewrite app_rotZ by apply affine_mid. rewrite app_id. reflexivity. }
  assert (TOP : forall l : list pt, map (fun p => transformed (vadd (transformed p (mrotZ mid (nsub (ndiv (nopp tau) (nZ 4)) (mo_splitAngle m)) None)) (V (nopp (mo_xDist m)) (nopp (mo_yDist m)) (nopp (mo_innerHeight m)))) (kmatrix key)) (etranslated l (V (nZ 0) (nZ 0) (mo_bossHeight m))) = map (stand m key h) l).
  { intros l. unfold etranslated. rewrite map_map. apply map_ext. intros p. apply PL. reflexivity. }
  assert (BOT : forall l : list pt, map (fun p => transformed (vadd (transformed p (mrotZ mid (nsub (ndiv (nopp tau) (nZ 4)) (mo_splitAngle m)) None)) (V (nopp (mo_xDist m)) (nopp (mo_yDist m)) (nopp (mo_innerHeight m)))) (kmatrix key)) l = map (stand m key 0) l).
  { intros l. apply map_ext. intros p. apply PL. destruct p as [a1 a2 a3]. apply pt_ext; symmetry; apply Rplus_0_r. }
  assert (FB : faces bm = [(stand m key h (P rb (- (mo_nutDiameter m / 2)) 0) :: map (stand m key h) arc ++ [stand m key h (P (- rb) (- (mo_nutDiameter m / 2)) 0)], [rev (map (stand m key h) hole)]);
                           (rev (stand m key 0 (P rb (- rb) 0) :: map (stand m key 0) arc ++ [stand m key 0 (P (- rb) (- rb) 0)]), [map (stand m key 0) hole])]).
  { rewrite <- EMB. cbn [meshes faces app]. rewrite !TOP, !BOT.
    assert (SP : forall (z : R) p p' w, p' = plus p (P 0 0 z) -> w = stand m key z p -> transformed (vadd (transformed p' (mrotZ mid (nsub (ndiv (nopp tau) (nZ 4)) (mo_splitAngle m)) None)) (V (nopp (mo_xDist m)) (nopp (mo_yDist m)) (nopp (mo_innerHeight m)))) (kmatrix key) = w) by (intros z p p' w E ->; apply PL, E).
    f_equal; [|f_equal].
    - f_equal. f_equal; [|f_equal; f_equal]; (eapply SP; [|reflexivity]); (apply pt_ext; [symmetry; apply Rplus_0_r|symmetry; apply Rplus_0_r|symmetry; apply Rplus_0_l]).
    - f_equal. f_equal. f_equal; [|f_equal; f_equal]; (eapply SP; [|reflexivity]); (apply pt_ext; symmetry; apply Rplus_0_r). }
  rewrite FB in IN. cbn [meshes faces]. split; apply in_or_app; left; apply IN; [left|right; left]; reflexivity.
Qed.

Theorem C101_board_boss : forall q (taper : option R) pmod pasin (c : @body_cfg Rnum) (pc : @plan_cfg Rnum) fuel sd pn b bc m,
  newPlan pc fuel sd = Ok pn -> newBody q taper pmod pasin c pn = Ok b -> by_bracket c = Some bc -> by_mount c = Some m ->
  let rb := mo_bossDiameter m / 2 in let h := mo_bossHeight m in exists key rest hole arc,
    pinky (planLayout pn) SideBoth = key :: rest /\
    uprightHole2D q taper (mo_threadDiameter m / 2 : R) = Ok hole /\ @arc2D Rnum q (rb : R) 0 PI vzero = Ok arc /\
    (* its upper end and the lower one, on which the board lies *)
    In (stand m key h (P rb (- (mo_nutDiameter m / 2)) 0) :: map (stand m key h) arc ++ [stand m key h (P (- rb) (- (mo_nutDiameter m / 2)) 0)], [rev (map (stand m key h) hole)]) (faces (byMesh b)) /\
    In (rev (stand m key 0 (P rb (- rb) 0) :: map (stand m key 0) arc ++ [stand m key 0 (P (- rb) (- rb) 0)]), [map (stand m key 0) hole]) (faces (byMesh b)) /\
    (* nothing is distorted: the boss is as high as configured, its axis has the configured distances from the position of the key *)
    (forall z z' p, edist (stand m key z p) (stand m key z' p) = Rabs (z - z')) /\
    edist (stand m key 0 origin) (kposition key) = sqrt (mo_xDist m * mo_xDist m + mo_yDist m * mo_yDist m + mo_innerHeight m * mo_innerHeight m).
Proof.
  intros q taper pmod pasin c pc fuel sd pn b bc m HP H HBR HM rb h. unfold newBody in H. cbv zeta in H. do 3 match type of H with (if ?b then _ else _) = _ => destruct b; [discriminate|] end.
  apply bind_ok in H. destruct H as (g & _ & H). apply bind_ok in H. destruct H as (s & _ & H). apply bind_ok in H. destruct H as (k & _ & H). apply bind_ok in H. destruct H as ((((em & ef) & eb) & eo) & _ & H).
  apply bind_ok in H. destruct H as (r & ER & H). apply bind_ok in H. destruct H as (o & _ & H). apply Ok_inj in H. rewrite <- H. cbn [byMesh]. clear H.
  set (m1 := stMesh s). set (m2 := bodyPlates _ _ _ _ _ _). set (w' := bodyWalls _ _ _ _ _). clearbody m1 m2 w'.
  assert (IM : forall f, In f (faces (rgMesh r)) -> In f (faces (meshes [m1; m2; em; rgMesh r; fst w']))).
  { intros f IF. cbn [meshes faces]. rewrite !in_app_iff. right. right. right. left. exact IF. }
  unfold bodyRidge in ER. cbv zeta in ER. rewrite HBR in ER.
  apply bind_ok in ER. destruct ER as (og0 & _ & ER). apply bind_ok in ER. destruct ER as (oc0 & _ & ER). apply bind_ok in ER. destruct ER as (ot0 & _ & ER).
  apply bind_ok in ER. destruct ER as (ig1 & _ & ER). apply bind_ok in ER. destruct ER as (ic1 & _ & ER). apply bind_ok in ER. destruct ER as (it1 & _ & ER).
  apply bind_ok in ER. destruct ER as (bF & _ & ER). apply bind_ok in ER. destruct ER as (bB & _ & ER). apply bind_ok in ER. destruct ER as (key & EKY & ER). apply bind_ok in ER. destruct ER as (bT & EBT & ER).
  apply bind_ok in ER. destruct ER as (tl & _ & ER). apply bind_ok in ER. destruct ER as (my & _ & ER). apply bind_ok in ER. destruct ER as (ds & _ & ER). apply bind_ok in ER. destruct ER as (gap & _ & ER). apply bind_ok in ER. destruct ER as (mz & _ & ER).
  match type of ER with (if ?b then _ else _) = _ => destruct b; [discriminate|] end.
  apply bind_ok in ER. destruct ER as (wl & _ & ER). apply bind_ok in ER. destruct ER as (mzB & _ & ER). match type of ER with (if ?b then _ else _) = _ => destruct b; [discriminate|] end.
  apply bind_ok in ER. destruct ER as (w0 & _ & ER). apply bind_ok in ER. destruct ER as (rf0 & _ & ER). apply bind_ok in ER. destruct ER as (((((sc & wB) & wF) & cm) & op) & _ & ER). apply Ok_inj in ER.
  assert (IR : forall f, In f (faces (rbMesh bT)) -> In f (faces (rgMesh r))).
  { intros f I. rewrite <- ER. cbn [rgMesh]. apply in_face_mesh with (m := rbMesh bT); [exact I|]. apply in_or_app. right. apply in_or_app. right. right. right. left. reflexivity. }
  rewrite HM in EBT. destruct (stand_body _ _ _ _ _ _ _ _ _ _ EBT) as (hole & arc & Q1 & Q2 & Q3 & Q4). fold rb h in Q2, Q3, Q4.
  destruct (first_is _ _ EKY) as (rest & EK). exists key, rest, hole, arc. split; [exact EK|]. split; [exact Q1|]. split; [exact Q2|]. split; [apply IM, IR, Q3|]. split; [apply IM, IR, Q4|].
  assert (BK : Built (kmatrix key)).
  { destruct (newPlan_path pc fuel sd pn HP) as (y0 & off & ka & kp & d & M & L0 & _ & _ & _ & MV). pose proof (newLayout_fresh _ _ _ L0) as FR. destruct MV as [_ _ _ _ (fp & CP & EP)].
    pose proof (pyidx_in _ _ _ EKY) as IK. rewrite EP in IK. apply in_map_iff in IK. destruct IK as (k0 & <- & IK). apply (CP k0). apply (FR k0 (lall_side y0 SideBoth k0 (proj2 (lall_in y0 SideBoth k0) ltac:(auto)))). }
  pose proof (built_iso _ BK) as IS. split.
  - intros z z' p. unfold stand, edist. rewrite IS. set (a := - (2 * PI) / 4 - mo_splitAngle m). unfold rotZ_pt. pose proof (sqrt_Rsqr_abs (z - z')) as E. rewrite <- E. f_equal. destruct p as [p1 p2 p3]. unfold sqdist, plus, P, X, Y, Z. cbn [vx vy vz]. unfold Rsqr. ring.
  - unfold kposition, stand, edist. change vzero with origin. rewrite IS. f_equal. set (a := - (2 * PI) / 4 - mo_splitAngle m). unfold rotZ_pt, sqdist, plus, origin, P, X, Y, Z. cbn [vx vy vz]. rn. unfold Rsqr. ring.
Qed.
Print Assumptions C101_board_boss.

(* the hypotheses: a right half with brackets, cable and the boss for the board, in fixed point arithmetic *)
Open Scope Z_scope.
Definition mount_default : @mount_cfg Calc := @mkMountCfg Calc (dq 5 1) (dq 7 1) (dq 21 10) (dq 55 10) (dq 12 1) (dq 95 10) (P_Plan.deg 12 1) (dq 5 1).
Definition body_mount : @body_cfg Calc := @mkBodyCfg Calc (dq 4 1) (dq 1 1) (dq 2 1) (dq 10 1) (dq 3 1) (dq 12 10) (dq 6 10) (P_Plan.deg 3 1) (P_Plan.deg 3 1) (dq 5 1)
  (Some bracket_default) (Some cable_default) (Some encoder_small) (Some mount_default).
Example C100_C101_nonvacuous : match newPlan (plan_wide boss_default) 20 SideRight with
  | Ok p => match newBody q_mid (Some (P_Plan.deg 45 1)) cmod casin body_mount p with
            | Ok b => match byBracketF b, byBracketB b with Some f, Some k => (4 <=? length (cbSplit f))%nat && (3 <=? length (cbWall k))%nat | _, _ => false end && (20 <? length (outlineI b))%nat
            | Err _ => false end
  | Err _ => false end = true.
Proof. vm_cast_no_check (eq_refl true). Qed.
