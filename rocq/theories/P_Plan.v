(** Properties C50 and C60 to C64: the planner.  Read with PlanSpec.v (wall lines, bosses,
    planes), HullSpec.v and LayoutSpec.v.  All over the reals. *)
From Coq Require Import Reals Lra ZArith List Bool Arith Lia.
From Verif Require Import Num Calc GeoModel GeoSpec GeoMat GeoRigid GeoIso EdgeModel ArcModel MeshModel KeyModel LayoutModel LayoutSpec LayoutProof BossModel PlanModel
  HullSpec HullDist PlanSpec WallProof BossFit BossFit2 BossKeys PlanMove PlanTent PlanWalls PlanFinal PlanPath PlanSym P_Layout.
Import ListNotations.
Open Scope R_scope.

(** * C50 *)
(* the distance to the hull of points, if positive, is the distance to the nearest point of the
   region they span *)
Theorem C50_hull_distance : forall (vs : list pt) (pos : pt), (2 <= length vs)%nat ->
  exists d, edistance2D (convexHull2D vs) pos = Ok d /\ 0 <= d /\
  (0 < d -> (forall w, spanned vs w -> d <= edist2 w pos) /\ exists w, spanned vs w /\ edist2 w pos = d).
Proof. exact hull_distance. Qed.
Print Assumptions C50_hull_distance.
(* a boss between two keys, next to a wall given by its inner and outer line: both lines are moved outward together by
   n quarter units, the boss has a proper place at the moved wall, it keeps its radius away from both keys,
   and no place at a wall moved by fewer steps is free *)
Theorem C50_boss_fit : forall (c : @plan_cfg Rnum) fuel (k0 k1 : @key Rnum) wi wo pos wi' wo',
  let r := bossDiameter (bossCfg c) / 2 in let margin := outerWallMargin (bossCfg c) in
  0 <= bossDiameter (bossCfg c) -> Built (kmatrix k0) -> Built (kmatrix k1) ->
  (2 <= length (boundsI k0))%nat -> (2 <= length (boundsI k1))%nat ->
  ground_line wi -> ground_line wo -> ldir wi = ldir wo ->
  fitBoss2D c fuel (wi, wo) k0 k1 = Ok (pos, (wi', wo')) ->
  exists n a0 a1, key_axis k0 a0 /\ key_axis k1 a1 /\
    moved_out (INR n / 4) wi wi' /\ moved_out (INR n / 4) wo wo' /\
    boss_spot r margin wo' a0 a1 pos /\
    (forall w, spanned (boundsI k0) w \/ spanned (boundsI k1) w -> r <= edist2 w pos) /\
    (forall k wk pos', (k < n)%nat -> moved_out (INR k / 4) wo wk -> boss_spot r margin wk a0 a1 pos' ->
       collides r (boundsI k0) pos' \/ collides r (boundsI k1) pos').
Proof. intros c fuel k0 k1 wi wo pos wi' wo' r margin D B0 B1 N0 N1 GI GO DD H. exact (fit_sound c D k0 k1 B0 B1 N0 N1 wi wo GI GO DD fuel pos wi' wo' H). Qed.
Print Assumptions C50_boss_fit.
(* the search ends, whatever the size of the boss, if neither key is parallel to the wall *)
Theorem C50_boss_fit_terminates : forall (c : @plan_cfg Rnum) (k0 k1 : @key Rnum) wi wo a0 a1,
  0 <= bossDiameter (bossCfg c) -> Built (kmatrix k0) -> Built (kmatrix k1) ->
  (2 <= length (boundsI k0))%nat -> (2 <= length (boundsI k1))%nat ->
  ground_line wi -> ground_line wo -> ldir wi = ldir wo ->
  key_axis k0 a0 -> key_axis k1 a1 ->
  eps <= 1 - inner (ldir wo) (ldir a0) * inner (ldir wo) (ldir a0) -> eps <= 1 - inner (ldir wo) (ldir a1) * inner (ldir wo) (ldir a1) ->
  exists n, forall fuel, (n <= fuel)%nat -> exists pos w, fitBoss2D c fuel (wi, wo) k0 k1 = Ok (pos, w).
Proof. intros c k0 k1 wi wo a0 a1 D B0 B1 N0 N1 GI GO DD. exact (fit_terminates c D k0 k1 B0 B1 N0 N1 wi wo GI GO DD a0 a1). Qed.
Print Assumptions C50_boss_fit_terminates.
(* in a finished plan: the bosses at the back stand between two alphanumeric columns and between the last two pinky columns, those at
   the front between the first two thumb keys and between the last two pinky columns; each keeps its radius away from
   both of its keys and stands at least its radius and the margin inside the outer wall *)
Theorem C50_plan_bosses : forall (c : @plan_cfg Rnum) fuel side p, newPlan c fuel side = Ok p -> 0 <= bossDiameter (bossCfg c) ->
  let r := bossDiameter (bossCfg c) / 2 in let margin := outerWallMargin (bossCfg c) in
  let y := planLayout p in let ps := planPlanes p in
  let clear k b := forall w, spanned (boundsI k) w -> r <= edist2 w (bossPos b) in
  (exists cols i j k0 k1, perAlnumCol y 0 side = Ok cols /\ i <> j /\ nth_error cols i = Some k0 /\ nth_error cols j = Some k1 /\
     clear k0 (bossAlnumB (planBoss p)) /\ clear k1 (bossAlnumB (planBoss p))) /\
  (exists cols k0 k1, perPinkyCol y 0 side = Ok cols /\ pyidx cols (-1) = Ok k0 /\ pyidx cols (-2) = Ok k1 /\
     clear k0 (bossPinkyB (planBoss p)) /\ clear k1 (bossPinkyB (planBoss p))) /\
  (exists cols k0 k1, perPinkyCol y (-1) side = Ok cols /\ pyidx cols (-1) = Ok k0 /\ pyidx cols (-2) = Ok k1 /\
     clear k0 (bossPinkyF (planBoss p)) /\ clear k1 (bossPinkyF (planBoss p))) /\
  (exists k0 k1, pyidx (lthumb y side) 0 = Ok k0 /\ pyidx (lthumb y side) 1 = Ok k1 /\
     clear k0 (bossThumbF (planBoss p)) /\ clear k1 (bossThumbF (planBoss p))) /\
  rise (alnumOB ps) (bossPos (bossAlnumB (planBoss p))) = r + margin /\ r + margin <= rise (alnumOB ps) (bossPos (bossPinkyB (planBoss p))) /\
  rise (pinkyOF ps) (bossPos (bossThumbF (planBoss p))) = r + margin /\ r + margin <= rise (pinkyOF ps) (bossPos (bossPinkyF (planBoss p))).
Proof.
  intros c fuel side p H D r margin y ps clear. destruct (n_walled _ _ _ (newPlan_ok c fuel side p D H)) as (lB & lF & W).
  destruct (w_bosses _ _ _ _ W) as (cols & i & j & a0 & a1 & C & NE & I & J & BF). cbn [wB wF wBoss bosses_fit] in BF.
  destruct BF as (p0 & p1 & f0 & f1 & t0 & t1 & (cp & LP1 & LP2 & LP3) & (cf & LF1 & LF2 & LF3) & T0 & T1 & C1 & C2 & C3 & C4 & Y1 & Y2 & Y3 & Y4 & _).
  split; [exists cols, i, j, a0, a1; repeat (split; [assumption|]); split; [exact (C1 a0 (or_introl eq_refl))|exact (C1 a1 (or_intror (or_introl eq_refl)))]|].
  split; [exists cp, p0, p1; repeat (split; [assumption|]); split; [exact (C2 p0 (or_introl eq_refl))|exact (C2 p1 (or_intror (or_introl eq_refl)))]|].
  split; [exists cf, f0, f1; repeat (split; [assumption|]); split; [exact (C3 f0 (or_introl eq_refl))|exact (C3 f1 (or_intror (or_introl eq_refl)))]|].
  split; [exists t0, t1; repeat (split; [assumption|]); split; [exact (C4 t0 (or_introl eq_refl))|exact (C4 t1 (or_intror (or_introl eq_refl)))]|].
  pose proof (w_planes _ _ _ _ W) as WP. cbn [wPlanes wB wF fst snd] in WP.
  destruct (WP (bossPos (bossAlnumB (planBoss p)))) as (_ & R1 & _). destruct (WP (bossPos (bossPinkyB (planBoss p)))) as (_ & R2 & _).
  destruct (WP (bossPos (bossThumbF (planBoss p)))) as (_ & _ & _ & R3). destruct (WP (bossPos (bossPinkyF (planBoss p)))) as (_ & _ & _ & R4).
  unfold ps, r, margin. rewrite R1, R2, R3, R4. split; [lra|]. split; [lra|]. split; lra.
Qed.
Print Assumptions C50_plan_bosses.

(** * C60: walls *)
Theorem C60_wall_lines : forall (keys : list (@key Rnum)) (t a : R), below keys <> [] -> above keys <> [] ->
  exists li lo, wallLines2D keys t a = Ok (li, lo) /\
  ground_line li /\ ldir li = P (cos a) (sin a) 0 /\ moved_out t li lo /\
  (forall p, In p (below keys) -> beyond li p <= 0) /\ (forall p, In p (above keys) -> beyond lo p <= 0) /\
  ((exists p, In p (below keys) /\ beyond li p = 0) \/ (exists p, In p (above keys) /\ beyond lo p = 0)).
Proof. exact wallLines_spec. Qed.
Print Assumptions C60_wall_lines.
(* in a finished plan, the keys of both halves are inside the walls and the walls have the configured thickness *)
Theorem C60_plan_walls : forall (c : @plan_cfg Rnum) fuel side p, newPlan c fuel side = Ok p -> 0 <= bossDiameter (bossCfg c) ->
  let y := planLayout p in let ps := planPlanes p in let a := pA ps in
  (* back and front: every key *)
  inside (alnumIB ps) (below (lall y SideBoth)) /\ inside (alnumOB ps) (above (lall y SideBoth)) /\ thick (wallThickness c) (alnumOB ps) (alnumIB ps) /\
  inside (pinkyIF ps) (below (lall y SideBoth)) /\ inside (pinkyOF ps) (above (lall y SideBoth)) /\ thick (wallThickness c) (pinkyOF ps) (pinkyIF ps) /\
  (* towards the middle, and in front of the alphanumeric keys *)
  inside (alnumIL a) (flat_map kbounds (alnum y SideBoth)) /\ alnumOL a = alnumIL a /\
  inside (alnumIF a) (below (alnum y SideBoth)) /\ inside (alnumOF a) (above (alnum y SideBoth)) /\ thick (alnumFrontThickness c) (alnumOF a) (alnumIF a) /\
  (0 < cos (alnumFrontAngle c) -> outside (alnumOF a) (above (lthumb y SideBoth))) /\
  (* the outer side of this half *)
  inside (pinkyIR a) (below (pinky y side)) /\ inside (pinkyOR a) (above (pinky y side)) /\ thick (wallThickness c) (pinkyOR a) (pinkyIR a).
Proof.
  intros c fuel side p H D y ps a. destruct (n_walled _ _ _ (newPlan_ok c fuel side p D H)) as (lB & lF & W). destruct (w_inside _ _ _ _ W) as (I1 & I2 & I3 & I4).
  destruct (w_tented _ _ _ _ W) as [TB TA TT TP TR TW (TL1 & TL2) (TF1 & TF2 & TF3) TO (TS1 & TS2 & TS3) TV]. cbn [wPlanes] in *.
  pose proof (w_planes _ _ _ _ W) as WP. cbn [wPlanes wB wF fst snd] in WP.
  assert (TB' : thick (wallThickness c) (alnumOB ps) (alnumIB ps)).
  { intros v. destruct (WP v) as (R1 & R2 & _). destruct (w_back _ _ _ _ W) as (_ & _ & _ & _ & M). cbn [wB fst snd] in M. unfold ps. rewrite R1, R2, M. ring. }
  assert (TF' : thick (wallThickness c) (pinkyOF ps) (pinkyIF ps)).
  { intros v. destruct (WP v) as (_ & _ & R1 & R2). destruct (w_front _ _ _ _ W) as (_ & _ & _ & _ & M). cbn [wF fst snd] in M. unfold ps. rewrite R1, R2, M. ring. }
  repeat (split; [assumption|]). assumption.
Qed.
Print Assumptions C60_plan_walls.

(** * C61: how the keys move *)
(* every group of keys keeps the arrangement of the flat layout: the distance of any two points, given in
   the coordinates of their keys, is the same before and after *)
Theorem C61_groups_rigid : forall (c : @plan_cfg Rnum) fuel side p, newPlan c fuel side = Ok p ->
  exists y0, newLayout (keyCfg c) (layoutCfg c) = Ok y0 /\
  forall group, In group [alnum; pinky; lthumb] -> forall s i j k k' k0 k0',
    nth_error (group y0 s) i = Some k0 -> nth_error (group y0 s) j = Some k0' ->
    nth_error (group (planLayout p) s) i = Some k -> nth_error (group (planLayout p) s) j = Some k' ->
    forall q q', edist (transformed q (kmatrix k)) (transformed q' (kmatrix k')) = edist (transformed q (kmatrix k0)) (transformed q' (kmatrix k0')).
Proof.
  intros c fuel side p H. destruct (newPlan_path c fuel side p H) as (y0 & off & ka & kp & d & M & L0 & CO & _ & _ & MV). exists y0. split; [exact L0|].
  pose proof (newLayout_fresh _ _ _ L0) as FR. destruct MV as [BM _ (fa & CA & EA) (ft & CT & ET) (fp & CP & EP)]. pose proof (built_iso M BM) as IM.
  assert (PI : forall v a b, sqdist (plus a v) (plus b v) = sqdist a b) by (intros v a b; unfold sqdist, plus, P, X, Y, Z; cbn [vx vy vz]; rn; unfold Rsqr; ring).
  assert (K : forall (g : pt -> pt) f (l0 l : list (@key Rnum)), carries g f -> isometry g -> (forall k, In k l0 -> Built (kmatrix k)) -> l = map f l0 -> forall i j k k' k0 k0',
    nth_error l0 i = Some k0 -> nth_error l0 j = Some k0' -> nth_error l i = Some k -> nth_error l j = Some k' ->
    forall q q', edist (transformed q (kmatrix k)) (transformed q' (kmatrix k')) = edist (transformed q (kmatrix k0)) (transformed q' (kmatrix k0'))).
  { intros g f l0 l CG IG BL -> i j k k' k0 k0' H1 H2 H3 H4 q q'. rewrite nth_error_map, H1 in H3. rewrite nth_error_map, H2 in H4. injection H3 as <-. injection H4 as <-.
    destruct (CG k0 (BL k0 (nth_error_In _ _ H1))) as (_ & T1 & _). destruct (CG k0' (BL k0' (nth_error_In _ _ H2))) as (_ & T2 & _). rewrite T1, T2. unfold edist. f_equal. apply IG. }
  assert (B0 : forall s k, In k (lall y0 s) -> Built (kmatrix k)) by (intros s k Hk; apply (FR k (lall_side y0 s k Hk))).
  intros group [<-|[<-|[<-|[]]]] s.
  - apply (K _ fa _ _ CA); [|intros k Hk; apply (B0 s), lall_in; auto|apply EA]. intros a b. rewrite IM, rotY_iso, PI. reflexivity.
  - apply (K _ fp _ _ CP); [|intros k Hk; apply (B0 s), lall_in; auto|apply EP]. intros a b. rewrite IM, rotY_iso. reflexivity.
  - apply (K _ ft _ _ CT); [|intros k Hk; apply (B0 s), lall_in; auto|apply ET]. intros a b. rewrite IM, PI, rotY_iso, PI. reflexivity.
Qed.
Print Assumptions C61_groups_rigid.
(* the crease between the alphanumeric and the pinky keys: the tops of the caps of the two adjacent columns stay one column
   pitch apart (measured across the crease) if the columns are one pitch apart in the flat layout *)
Lemma level_top (k : @key Rnum) h : Built (kmatrix k) -> level k -> transformed (P 0 0 h) (kmatrix k) = plus (kposition k) (P 0 0 h) /\ Z (kposition k) = 0.
Proof.
  intros B LV. pose proof (built_iso _ B (P 0 0 h) (P 0 0 0)) as I. cbn beta in I. pose proof (LV (P 0 0 h)) as Z1. pose proof (LV (P 0 0 0)) as Z0.
  unfold kposition. change (@vzero Rnum) with (P 0 0 0). set (a := transformed (P 0 0 h) (kmatrix k)) in *. set (b := transformed (P 0 0 0) (kmatrix k)) in *. clearbody a b.
  split; [|exact Z0]. destruct a as [ax ay az], b as [bx by_ bz]. unfold sqdist, Rsqr, P, X, Y, Z in *. cbn [vx vy vz] in *. rn. subst az bz.
  assert (Q : (ax - bx) * (ax - bx) + (ay - by_) * (ay - by_) = 0) by lra.
  pose proof (Rle_0_sqr (ax - bx)) as S1. pose proof (Rle_0_sqr (ay - by_)) as S2. unfold Rsqr in *.
  assert (Q1 : (ax - bx) * (ax - bx) = 0) by lra. assert (Q2 : (ay - by_) * (ay - by_) = 0) by lra.
  apply Rmult_integral in Q1, Q2. assert (ax = bx) by (destruct Q1; lra). assert (ay = by_) by (destruct Q2; lra).
  apply pt_ext; unfold plus, P, X, Y, Z; cbn [vx vy vz]; rn; lra.
Qed.
Theorem C61_crease : forall (c : @plan_cfg Rnum) fuel side p, newPlan c fuel side = Ok p ->
  exists y0, newLayout (keyCfg c) (layoutCfg c) = Ok y0 /\
  forall i j a0 b0 a b,
    nth_error (alnum y0 SideBoth) i = Some a0 -> (forall k, In k (alnum y0 SideBoth) -> X (kposition k) <= X (kposition a0)) ->
    nth_error (pinky y0 SideBoth) j = Some b0 -> (forall k, In k (pinky y0 SideBoth) -> X (kposition b0) <= X (kposition k)) ->
    nth_error (alnum (planLayout p) SideBoth) i = Some a -> nth_error (pinky (planLayout p) SideBoth) j = Some b ->
    let top k := transformed (P 0 0 (capTopToPlate c)) (kmatrix k) in
    let pitch := columnPitch (keyCfg c) in
    let across := pitch + (X (kposition b0) - X (kposition a0) - pitch) * cos ((alnumTentAngle c - pinkyTentAngle c) / 2) in
    let along := Y (kposition b0) - Y (kposition a0) in
    sqdist (top a) (top b) = across * across + along * along /\
    (X (kposition b0) - X (kposition a0) = pitch -> sqdist (top a) (top b) = pitch * pitch + along * along).
Proof.
  intros c fuel side p H. destruct (newPlan_path c fuel side p H) as (y0 & off & ka & kp & d & M & L0 & CO & (IA & MA) & (IP & MP) & MV). exists y0. split; [exact L0|].
  pose proof (newLayout_fresh _ _ _ L0) as FR. destruct MV as [BM _ (fa & CA & EA) _ (fp & CP & EP)]. pose proof (built_iso M BM) as IM.
  intros i j a0 b0 a b Ha Ma Hb Mb Ha' Hb' top pitch across along.
  rewrite EA, nth_error_map, Ha in Ha'. rewrite EP, nth_error_map, Hb in Hb'. injection Ha' as <-. injection Hb' as <-.
  apply nth_error_In in Ha. apply nth_error_In in Hb.
  assert (La : In a0 (lall y0 SideBoth)) by (apply lall_in; auto). assert (Lb : In b0 (lall y0 SideBoth)) by (apply lall_in; auto).
  destruct (FR _ La) as ((Ba & _) & LVa). destruct (FR _ Lb) as ((Bb & _) & LVb).
  destruct (CA a0 Ba) as (_ & Ta & _). destruct (CP b0 Bb) as (_ & Tb & _).
  destruct (level_top a0 (capTopToPlate c) Ba LVa) as (Ea & Za). destruct (level_top b0 (capTopToPlate c) Bb LVb) as (Eb & Zb).
  assert (Xa : X (kposition ka) = X (kposition a0)) by (apply Rle_antisym; [apply Ma, IA|apply MA, Ha]).
  assert (Xb : X (kposition kp) = X (kposition b0)) by (apply Rle_antisym; [apply MP, Hb|apply Mb, IP]).
  assert (Zka : Z (kposition ka) = 0) by (destruct (FR ka) as ((B & _) & LV); [apply lall_in; auto|apply (level_top ka 0 B LV)]).
  assert (Zkp : Z (kposition kp) = 0) by (destruct (FR kp) as ((B & _) & LV); [apply lall_in; auto|apply (level_top kp 0 B LV)]).
  destruct (crease_form c off CO) as (Yo & Zo).
  set (u := (alnumTentAngle c - pinkyTentAngle c) / 2) in *.
  assert (XO : cos u <> 0 /\ X off * cos u = - (pitch + 2 * capTopToPlate c * sin u - pitch * cos u)).
  { unfold tentCreaseOffset in CO. cbv zeta in CO. apply bind_ok in CO. destruct CO as (ph & E1 & CO). apply bind_ok in CO. destruct CO as (hh & E2 & CO). apply Ok_inj in CO.
    change (@ncos Rnum (@ndiv Rnum (@nsub Rnum (alnumTentAngle c) (pinkyTentAngle c)) (@nZ Rnum 2))) with (cos u) in *.
    change (@nsin Rnum (@ndiv Rnum (@nsub Rnum (alnumTentAngle c) (pinkyTentAngle c)) (@nZ Rnum 2))) with (sin u) in *.
    apply pdiv_ok in E1. destruct E1 as (N1 & E1). apply pdiv_ok in E2. destruct E2 as (_ & E2). split; [exact N1|]. rewrite <- CO. unfold X. cbn [vx]. rn. rewrite E1, E2. unfold pitch. field. exact N1. }
  destruct XO as (NU & XO).
  assert (G : sqdist (top (fa a0)) (top (fp b0)) = across * across + along * along).
  { unfold top. rewrite Ta, Tb, IM, Ea, Eb.
    (* turn both by the pinky angle back and half the difference *)
    set (pv := P ((X (kposition ka) + X off + X (kposition kp)) / 2) _ _).
    set (w := (alnumTentAngle c + pinkyTentAngle c) / 2).
    replace (alnumTentAngle c) with (u + w) by (unfold u, w; field). replace (pinkyTentAngle c) with (- u + w) by (unfold u, w; field).
    rewrite <- !rotY_add, rotY_iso.
    assert (EXa : X (plus (plus (kposition a0) (P 0 0 (capTopToPlate c))) off) - X pv = (X (kposition a0) - X (kposition b0) + X off) / 2).
    { unfold pv, plus, P, X in *. cbn [vx]. rn. rewrite Xa, Xb. field. }
    assert (EXb : X (plus (kposition b0) (P 0 0 (capTopToPlate c))) - X pv = (X (kposition b0) - X (kposition a0) - X off) / 2).
    { unfold pv, plus, P, X in *. cbn [vx]. rn. rewrite Xa, Xb. field. }
    assert (EZa : Z (plus (plus (kposition a0) (P 0 0 (capTopToPlate c))) off) - Z pv = capTopToPlate c).
    { unfold pv, plus, P, Z in *. cbn [vz]. rn. rewrite Zka, Zkp, Za, Zo. field. }
    assert (EZb : Z (plus (kposition b0) (P 0 0 (capTopToPlate c))) - Z pv = capTopToPlate c).
    { unfold pv, plus, P, Z in *. cbn [vz]. rn. rewrite Zka, Zkp, Zb. field. }
    assert (EYa : Y (plus (plus (kposition a0) (P 0 0 (capTopToPlate c))) off) = Y (kposition a0)).
    { unfold plus, P, Y in *. cbn [vy]. rn. rewrite Yo. ring. }
    assert (EYb : Y (plus (kposition b0) (P 0 0 (capTopToPlate c))) = Y (kposition b0)) by (unfold plus, P, Y; cbn [vy]; rn; ring).
    unfold sqdist, rotY_pt. rewrite EXa, EXb, EZa, EZb, EYa, EYb. unfold P, X, Y, Z. cbn [vx vy vz]. fold (X (kposition a0)) (X (kposition b0)) (Y (kposition a0)) (Y (kposition b0)) (X off) (X pv) (Z pv).
    rewrite cos_neg, sin_neg. rn.
    set (xa := X (kposition a0)) in *. set (xb := X (kposition b0)) in *. set (o := X off) in *. set (h := capTopToPlate c) in *.
    assert (AC : (X pv + (h * sin u + (xa - xb + o) / 2 * cos u)) - (X pv + (h * - sin u + (xb - xa - o) / 2 * cos u)) = - across).
    { unfold across. transitivity (2 * h * sin u + (xa - xb) * cos u + o * cos u); [field|]. rewrite XO. ring. }
    assert (ZZ : (Z pv + (h * cos u - (xa - xb + o) / 2 * sin u)) - (Z pv + (h * cos u - (xb - xa - o) / 2 * - sin u)) = 0) by field.
    unfold Rsqr. rewrite AC, ZZ. unfold along. ring. }
  split; [exact G|]. intros E. rewrite G. unfold across. rewrite E. ring.
Qed.
Print Assumptions C61_crease.

(** * C62: the finished plan *)
(* every key stands upright on the roof of its group; the roofs have the configured thickness *)
Theorem C62_roofs : forall (c : @plan_cfg Rnum) fuel side p, newPlan c fuel side = Ok p -> 0 <= bossDiameter (bossCfg c) ->
  let y := planLayout p in let a := pA (planPlanes p) in
  (forall k, In k (alnum y SideBoth) -> sits_on (alnumOT a) k) /\ (forall k, In k (pinky y SideBoth) -> sits_on (pinkyOT a) k) /\
  (forall k, In k (lthumb y SideBoth) -> sits_on (thumbOT a) k) /\
  thick (p_roofThickness c) (alnumIT a) (alnumOT a) /\ thick (p_roofThickness c) (pinkyIT a) (pinkyOT a) /\ thick (p_roofThickness c) (thumbIT a) (thumbOT a).
Proof.
  intros c fuel side p H D y a. destruct (n_walled _ _ _ (newPlan_ok c fuel side p D H)) as (lB & lF & W).
  destruct (w_tented _ _ _ _ W) as [TB TA TT TP (T1 & T2 & T3) _ _ _ _ _ _]. cbn [wPlanes] in *. repeat (split; [assumption|]). assumption.
Qed.
Print Assumptions C62_roofs.
(* the corners of the body are where its walls and roofs meet *)
Theorem C62_corners : forall (c : @plan_cfg Rnum) fuel side p, newPlan c fuel side = Ok p -> 0 <= bossDiameter (bossCfg c) ->
  let pts := planPoints p in let ps := planPlanes p in let a := pA ps in
  let meet x y z v := on_plane x v /\ on_plane y v /\ on_plane z v in
  (meet (alnumIL a) (alnumIF a) (alnumIT a) (alnumILFp pts) /\ meet (alnumOL a) (alnumOF a) (alnumOT a) (alnumOLFp pts)) /\
  (meet (alnumIL a) (alnumIB ps) (alnumIT a) (alnumILBp pts) /\ meet (alnumOL a) (alnumOB ps) (alnumOT a) (alnumOLBp pts)) /\
  (meet (thumbIT a) (alnumIF a) (alnumIT a) (alnumIRFp pts) /\ meet (thumbOT a) (alnumOF a) (alnumOT a) (alnumORFp pts)) /\
  (meet (pivotIB a) (alnumIB ps) (alnumIT a) (alnumIRBp pts) /\ meet (pivotOB a) (alnumOB ps) (alnumOT a) (alnumORBp pts)) /\
  (meet (pinkyIR a) (pinkyIF ps) (pinkyIT a) (pinkyIRFp pts) /\ meet (pinkyOR a) (pinkyOF ps) (pinkyOT a) (pinkyORFp pts)) /\
  (meet (pinkyIR a) (alnumIB ps) (pinkyIT a) (pinkyIRBp pts) /\ meet (pinkyOR a) (alnumOB ps) (pinkyOT a) (pinkyORBp pts)) /\
  (meet (planThumbL p) (pinkyIF ps) (thumbIT a) (thumbILFp pts) /\ meet (planThumbL p) (pinkyOF ps) (thumbOT a) (thumbOLFp pts)) /\
  (meet (alnumIL a) (alnumIF a) (thumbIT a) (thumbILBp pts) /\ meet (alnumOL a) (alnumOF a) (thumbOT a) (thumbOLBp pts)) /\
  (meet (pivotIF a) (pinkyIF ps) (thumbIT a) (thumbIRFp pts) /\ meet (pivotOF a) (pinkyOF ps) (thumbOT a) (thumbORFp pts)) /\
  on_plane (thumbOT a) (ridgeORF pts) /\ on_plane (thumbIT a) (ridgeIRF pts) /\
  minus (ridgeIRF pts) (ridgeORF pts) = minus (thumbILBp pts) (thumbOLBp pts).
Proof.
  intros c fuel side p H D. pose proof (newPlan_ok c fuel side p D H) as W. destruct (n_corners _ _ _ W) as (C1 & C2 & C3 & C4 & C5 & C6 & C7 & C8 & C9). destruct (n_ridge _ _ _ W) as (R1 & R2 & _ & _ & R3).
  cbv zeta. repeat (split; [assumption|]). assumption.
Qed.
Print Assumptions C62_corners.
(* nothing crosses the middle of the keyboard, the ridge has its width, and the body is as far left as that allows;
   the lowest key is at the minimal height; the roof stays above the lip, and the pins above the floor *)
Theorem C62_position : forall (c : @plan_cfg Rnum) fuel side p, newPlan c fuel side = Ok p -> 0 <= bossDiameter (bossCfg c) ->
  let y := planLayout p in let pts := planPoints p in
  (forall q, In q (flat_map kbounds (lall y SideBoth)) -> 0 <= X q) /\
  minRidgeWidth c / 2 <= X (alnumILBp pts) /\ minRidgeWidth c / 2 <= X (alnumOLBp pts) /\
  ((exists q, In q (flat_map kbounds (lall y SideBoth)) /\ X q = 0) \/ X (alnumILBp pts) = minRidgeWidth c / 2 \/ X (alnumOLBp pts) = minRidgeWidth c / 2) /\
  0 <= X (ridgeIRF pts) /\ 0 <= X (ridgeORF pts) /\
  (forall k, In k (lall y SideBoth) -> minRoofHeight c <= Z (kposition k)) /\ (exists k, In k (lall y SideBoth) /\ Z (kposition k) = minRoofHeight c) /\
  (forall q, In q (allPoints pts) -> lipHeight c + innerChamfer c <= Z q) /\
  (forall q, In q (below (lall y side)) -> floorInnerHeight c + floorMargin c - floorOuterHeight (bossCfg c) <= Z q).
Proof.
  intros c fuel side p H D y pts. pose proof (newPlan_ok c fuel side p D H) as W. destruct (n_corners _ _ _ W) as (_ & ((I1 & I2 & I3) & (O1 & O2 & O3)) & _). destruct (n_ridge _ _ _ W) as (_ & _ & R1 & R2 & _).
  destruct (n_left _ _ _ W) as (L1 & (LI & LO) & LT). destruct (n_height _ _ _ W) as (H1 & H2).
  split; [exact L1|]. split; [exact (LI _ I1 I2 I3)|]. split; [exact (LO _ O1 O2 O3)|].
  split; [|split; [exact R2|split; [exact R1|split; [exact H1|split; [exact H2|split; [exact (n_lip _ _ _ W)|exact (n_pins _ _ _ W)]]]]]].
  destruct (n_touch _ _ _ W) as [T|[T|T]]; [left; exact T|right; left; exact T|right; right; exact T].
Qed.
Print Assumptions C62_position.

(** * C63: both halves *)
(* settings whose left half mirrors the right half give equal plans for both halves *)
Theorem C63_symmetric_plans : forall (c : @plan_cfg Rnum) fuel, symmetric (layoutCfg c) ->
  (forall e, newPlan c fuel SideLeft = Err e <-> newPlan c fuel SideRight = Err e) /\
  forall pl pr, newPlan c fuel SideLeft = Ok pl -> newPlan c fuel SideRight = Ok pr ->
    planLayout pl = planLayout pr /\ planPlanes pl = planPlanes pr /\ planThumbL pl = planThumbL pr /\ planPoints pl = planPoints pr /\
    planBoss pl = planBoss pr /\ planHitch_ pl = planHitch_ pr.
Proof.
  intros c fuel S. assert (E : newPlan c fuel SideLeft = rmap otherHalf (newPlan c fuel SideRight)).
  { apply plan_same. intros y H. exact (symmetric_halves _ _ y H S). }
  split.
  - intros e. rewrite E. destruct (newPlan c fuel SideRight); cbn [rmap]; split; congruence.
  - intros pl pr Hl Hr. rewrite E, Hr in Hl. cbn [rmap] in Hl. apply Ok_inj in Hl. subst pl. repeat split; reflexivity.
Qed.
Print Assumptions C63_symmetric_plans.

(** * C64: which keys the back boss stands between *)
(* of the given keys, those two whose axes meet the back plane nearest to the middle between the corners *)
Theorem C64_nearest_keys : forall keys pL pR pB pT ks, (forall k, In k keys -> Built (kmatrix k)) -> alnumBossKeys keys pL pR pB pT = Ok ks ->
  exists cornerL cornerR,
    on_plane pL cornerL /\ on_plane pB cornerL /\ on_plane pT cornerL /\ on_plane pR cornerR /\ on_plane pB cornerR /\ on_plane pT cornerR /\
    let dist := back_dist pB (P ((X cornerL + X cornerR) / 2) ((Y cornerL + Y cornerR) / 2) ((Z cornerL + Z cornerR) / 2)) in
    forall k0 k1 rest, ks = k0 :: k1 :: rest -> rest = [] /\
    exists i j d0 d1, i <> j /\ nth_error keys i = Some k0 /\ nth_error keys j = Some k1 /\ dist k0 d0 /\ dist k1 d1 /\ d0 <= d1 /\
      forall m k, m <> i -> m <> j -> nth_error keys m = Some k -> exists d, dist k d /\ d1 <= d.
Proof. exact alnumBossKeys_spec. Qed.
Print Assumptions C64_nearest_keys.

(** * Concrete cases *)
(* the default settings of the repository, in fixed point arithmetic: both plans are found *)
Definition deg (p q : BinNums.Z) : @num Calc := Z.div (Z.mul fpi p) (Z.mul q 180).
Definition boss_default : @boss_cfg Calc := @mkBossCfg Calc (dq 4 1) (dq 92 10) (dq 3 1) (dq 4 10) (Some (deg 30 1, deg 45 1))
  (dq 3 1) (dq 64 10) (dq 4 1) (dq 13 10) (dq 42 10) (dq 65 10) (dq 8 1) (dq 17 10) (dq 1 1).
Definition plan_default : @plan_cfg Calc := @mkPlanCfg Calc key_default layout_default boss_default (@mkQuality Calc (dq 1 100) (deg 30 1))
  (deg 12 1) (deg (-3) 1) (deg 12 1) (deg 3 1) (deg 3 1) (deg (-48) 10) (deg 24 10) (deg 72 10) (dq 82 10) (dq 135 10) (dq 25 100)
  (dq 4 1) (dq 4 1) (dq 3 1) (dq 14 1) (dq 12 10) (dq 1 1) (dq 18 10) (dq 33 100)
  (Some (@mkHitchCfg Calc (dq 15 1) (dq 50 1) (dq 15 10) (deg 72 10))).
(* C62_nonvacuous: see P_Runs.v *)
(* two keys next to a wall, over the reals: the search ends with a place for the boss *)
Definition boss_small : @boss_cfg Rnum := @mkBossCfg Rnum 4 9 3 (4/10) None 3 6 4 1 4 6 8 2 1.
Definition plan_small : @plan_cfg Rnum := @mkPlanCfg Rnum kc_small sym_small boss_small (@mkQuality Rnum (1/100) (PI/6))
  (1/5) 0 (1/5) (1/20) (1/20) 0 0 0 8 13 (1/4) 4 4 3 14 1 1 2 (1/3) None.
Definition wall_small (y : R) : @line Rnum := mkLine (P 0 y 0) (P (-1) 0 0).
Definition key_small fac (x : R) : @key Rnum := ktranslate (newKey kc_small fac 1) (P x 0 0).
Example C50_nonvacuous : exists fac, keyFactory kc_small = Ok fac /\ exists fuel pos w, fitBoss2D plan_small fuel (wall_small 10, wall_small 14) (key_small fac 0) (key_small fac 19) = Ok (pos, w).
Proof.
  assert (F : exists fac, keyFactory kc_small = Ok fac) by (unfold keyFactory; cbn [bind backMesh hasClip clipNotch kc_small isSideways]; eexists; reflexivity).
  destruct F as (fac & F). exists fac. split; [exact F|]. destruct (factory_lengths _ _ F) as (L1 & L2).
  assert (GL : forall y, ground_line (wall_small y)) by (intros y; unfold ground_line, wall_small, unit_vec, inner, P, X, Y, Z; cbn [lpos ldir vx vy vz]; rn; split; [ring|split; reflexivity]).
  assert (B : forall x, Built (kmatrix (key_small fac x))) by (intros x; apply B_tra, B_id).
  assert (NB : forall x, (2 <= length (boundsI (key_small fac x)))%nat) by (intros x; unfold boundsI, etransformed; rewrite map_length; change (kfactory (key_small fac x)) with fac; rewrite L1; lia).
  assert (TR : forall x q, transformed q (kmatrix (key_small fac x)) = plus q (P x 0 0)) by (intros x q; unfold key_small, ktranslate, newKey; cbn [kmatrix]; apply moved_id).
  assert (AX : forall x, key_axis (key_small fac x) (mkLine (P x 0 0) (P 0 1 0))).
  { intros x. unfold key_axis. cbv zeta. rewrite !TR. unfold ground_line, unit_vec, inner, plus, P, X, Y, Z. cbn [lpos ldir vx vy vz]. rn.
    split; [split; [ring|split; reflexivity]|]. split; [ring|]. split; [ring|]. exists 1. split; [lra|]. split; ring. }
  assert (E1 : forall x, eps <= 1 - inner (ldir (wall_small 14)) (ldir (mkLine (P x 0 0) (P 0 1 0))) * inner (ldir (wall_small 14)) (ldir (mkLine (P x 0 0) (P 0 1 0)))).
  { intros x. unfold inner, wall_small, P, X, Y, Z, eps. cbn [ldir vx vy vz]. rn. lra. }
  assert (D : 0 <= bossDiameter (bossCfg plan_small)) by (cbn; lra).
  destruct (C50_boss_fit_terminates plan_small _ _ (wall_small 10) (wall_small 14) _ _ D (B 0) (B 19) (NB 0) (NB 19) (GL 10) (GL 14) eq_refl (AX 0) (AX 19) (E1 0) (E1 19)) as (n & T).
  destruct (T n (Nat.le_refl n)) as (pos & w & E). exists n, pos, w. exact E.
Qed.
(* points span a triangle *)
Example C50_hull_nonvacuous : (2 <= length [P 0 0 0; P 4 0 0; P 0 3 1])%nat. Proof. cbn; lia. Qed.
(* C60: a wall around two keys *)
Example C60_nonvacuous : exists fac, keyFactory kc_small = Ok fac /\ below [key_small fac 0; key_small fac 19] <> [] /\ above [key_small fac 0; key_small fac 19] <> [].
Proof.
  assert (F : exists fac, keyFactory kc_small = Ok fac) by (unfold keyFactory; cbn [bind backMesh hasClip clipNotch kc_small isSideways]; eexists; reflexivity).
  destruct F as (fac & F). exists fac. split; [exact F|]. destruct (factory_lengths _ _ F) as (L1 & L2).
  assert (NB : (length (boundsI (key_small fac 0)) = 8)%nat) by (unfold boundsI, etransformed; rewrite map_length; exact L1).
  assert (NO : (length (boundsO (key_small fac 0)) = 8)%nat) by (unfold boundsO, etransformed; rewrite map_length, app_length; change (kfactory (key_small fac 0)) with fac; rewrite L2; reflexivity).
  unfold below, above. cbn [flat_map]. split; intros E; apply app_eq_nil in E; destruct E as (E & _); [rewrite E in NB|rewrite E in NO]; discriminate.
Qed.
(* C61: the columns next to the crease of the default layout are one pitch apart *)
Example C61_nonvacuous : match newLayout key_default layout_default with
  | Ok y => match maxAlnum y SideBoth, minPinky y SideBoth with Ok a, Ok b => (vx (kposition b) - vx (kposition a) =? dq 19 1)%Z | _, _ => false end
  | Err _ => false end = true.
Proof. vm_compute. reflexivity. Qed.
(* C63: the symmetric settings of C49 *)
Example C63_nonvacuous : symmetric (layoutCfg plan_small). Proof. exact (proj2 C49_symmetric_nonvacuous). Qed.
(* C64: three columns, two are found *)
Example C64_nonvacuous : match newLayout key_default layout_default with
  | Ok y => match perAlnumCol y 0 SideRight, planeX (N := Calc) 0%Z, planeX (N := Calc) (dq 80 1), planeLine2D (N := Calc) (@mkLine Calc (@V Calc 0%Z (dq 12 1) 0%Z) (@V Calc (dq (-1) 1) 0%Z 0%Z)), planeZ (N := Calc) 0%Z with
            | Ok cols, Ok pL, Ok pR, Ok pB, Ok pT => match alnumBossKeys cols pL pR pB pT with Ok [k0; k1] => negb (vx (kposition k0) =? vx (kposition k1))%Z | _ => false end
            | _, _, _, _, _ => false end
  | Err _ => false end = true.
Proof. vm_compute. reflexivity. Qed.
