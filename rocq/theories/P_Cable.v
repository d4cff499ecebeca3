(** C88: the cable keeps its bend radius between the wall and the bracket, and the zip tie has its slot. *)
From Coq Require Import Reals Lra Psatz ZArith List Bool Arith Lia.
From Verif Require Import Num Calc GeoModel EdgeModel GeoSpec GeoMat GeoRigid GeoPlane GeoCirc ArcModel ArcSpec ArcProof ArcCorner ArcShape MeshModel LayoutModel LayoutProof BossModel PlanModel BracketModel BumperModel BodyModel EdgeReal PartProof BodyFlat BossFit BossSpec BossProof BrSpec BrProof CableProof.
From Verif Require Import P_Layout P_Solid P_Plan P_Palm P_Body.
Import ListNotations.
Open Scope R_scope.

Lemma Rabs_def2' x a : Rabs x <= a -> - a <= x <= a.
Proof. intros H. pose proof (Rle_abs x). pose proof (Rle_abs (- x)). rewrite Rabs_Ropp in *. lra. Qed.
Section One.
Variable q : @quality Rnum.
Variable taper : option R.
Variable pmod : R -> R -> R.
Variable pasin : R -> res R.
Variable bc : @bracket_cfg Rnum.
Variable k : @cable_cfg Rnum.
Let t : R := br_taperAngle bc.
Let bend : R := ca_minBendRadius k.
Let diam : R := ca_diameter k.
Hypothesis HT : 0 <= t < PI / 2.
Hypothesis HB : eps <= bend.
Hypothesis HZ : 2 * eps <= ca_zipHeight k <= ca_zipWidth k.
Hypothesis HA : 0 < maxChordAngle q.
Hypothesis HH : 0 < maxChordHeight q.

Lemma hump_form (a b d : pt) s r : ~ Y a < Y b -> cornerBracket q taper pmod pasin bc (Some k) a b d s = Ok r ->
  exists (w : pt) wall bolt slot T H C, cbWall r = w :: wall /\ cbHoles r = [bolt; slot] /\ nth_error (cbRoof r) 2 = Some T /\
    let F := P 0 (Y H - bend * cos t) (Z H - bend * sin t) in
    X w = 0 /\ X H = 0 /\ Z H = Z w + bend - ca_humpHeight k /\ 2 * bend + diam <= edist H (P 0 (Y w) (Z w - diam - bend)) /\
    depth (- cos t) (- sin t) F T = br_taperMargin bc + ca_zipHeight k /\
    (forall p, In p (cbSplit r) -> X p = 0 /\ (edist p H = bend \/ Z p = Z w \/ (left_of (vyz a) (vyz b) p = 0 /\ depth (- cos t) (- sin t) F p = 0))) /\
    X C = 0 /\ depth (- cos t) (- sin t) F C = br_taperMargin bc + ca_zipHeight k / 2 /\
    (forall p, In p slot -> exists u v : R, p = P 0 (Y C - u * sin t - v * cos t) (Z C + u * cos t - v * sin t) /\ Rabs u <= ca_zipWidth k / 2 /\ Rabs v <= ca_zipHeight k / 2) /\
    (forall u v : R, Rabs u = (ca_zipWidth k - ca_zipHeight k) / 2 -> Rabs v = ca_zipHeight k / 2 -> In (P 0 (Y C - u * sin t - v * cos t) (Z C + u * cos t - v * sin t)) slot).
Proof.
  intros NY H. unfold cornerBracket in H. destruct (nltb (vy (vyz a)) (vy (vyz b))) eqn:CY; [change (Rltb (Y a) (Y b) = true) in CY; apply Rltb_true in CY; contradiction|]. clear CY.
  unfold cornerFwd in H. apply bind_ok in H. destruct H as (cs & ECS & H). cbv zeta in H. apply bind_ok in H. destruct H as (((hm & hl) & hr) & _ & H).
  apply bind_ok in H. destruct H as (z & EZ & H). apply bind_ok in H. destruct H as (l1 & _ & H). apply bind_ok in H. destruct H as (r1 & _ & H). apply bind_ok in H. destruct H as (z0 & _ & H). apply bind_ok in H. destruct H as (z1 & _ & H).
  apply bind_ok in H. destruct H as (l0 & _ & H). apply bind_ok in H. destruct H as (r0 & _ & H). apply Ok_inj in H.
  pose proof (sketch_form q pmod bc HT (vyz a) (vyz b) (vyz d) _ _ cs eq_refl eq_refl eq_refl ECS) as SK.
  destruct (zip_form q pasin bc k HT HB ltac:(lra) ltac:(lra) HA HH cs (vyz a) (vyz b) z SK EZ) as (Hc & C & XH & ZH & DB & DF & ARCH & XC & DC & HO & CO). cbv zeta in *.
  destruct SK as (XW & SK). assert (ERBT : exists mh, zRBT z = vadd (csLFT cs) (P mh 0 0)).
  { unfold ziptie in EZ. cbv zeta in EZ. do 3 (apply bind_ok in EZ; destruct EZ as (? & _ & EZ)). match type of EZ with (if ?b then _ else _) = _ => destruct b end; [discriminate|].
    do 14 (apply bind_ok in EZ; destruct EZ as (? & _ & EZ)). apply Ok_inj in EZ. rewrite <- EZ. cbn [zRBT]. eexists. reflexivity. }
  destruct ERBT as (mh & ERBT).
  exists (csLBG cs). rewrite <- H. cbn [cbWall cbRoof cbHoles cbSplit nth_error]. do 3 eexists. exists (zRBT z), Hc, C. split; [reflexivity|]. split; [reflexivity|]. split; [reflexivity|].
  split; [exact XW|]. split; [exact XH|]. split; [exact ZH|]. split; [exact DB|]. split.
  { rewrite ERBT. unfold depth in *. change (Y (vadd (csLFT cs) (P mh 0 0))) with (Y (csLFT cs) + 0). change (Z (vadd (csLFT cs) (P mh 0 0))) with (Z (csLFT cs) + 0). rewrite !Rplus_0_r. exact DF. }
  split. { intros p IP. apply in_rev in IP. apply in_app_or in IP. destruct IP as [IP|[<-|[]]]; [exact (ARCH p IP)|]. split; [exact XW|right; left; reflexivity]. }
  split; [exact XC|]. split; [transitivity (br_taperMargin bc + ca_zipHeight k - ca_zipHeight k / 2); [exact DC|field]|]. split.
  - intros p IP. apply in_rev in IP. exact (HO p IP).
  - intros u v AU AV. apply in_rev. rewrite rev_involutive. exact (CO u v AU AV).
Qed.
End One.

(* the points of the body's split that are on the roof are given by the last line of the ridge *)
Lemma minList_le (l : list R) m x : minList (N := Rnum) l = Ok m -> In x l -> m <= x.
Proof.
  destruct l as [|a l]; [discriminate|]. cbn [minList]. intros H IX. apply Ok_inj in H. revert a m x H IX. induction l as [|y l IH]; intros a m x H IX; cbn [fold_left] in H.
  - destruct IX as [<-|[]]. subst. lra.
  - assert (PM : (@pmin Rnum a y : R) <= a /\ (@pmin Rnum a y : R) <= y) by (rewrite pmin_R; split; [apply Rmin_l|apply Rmin_r]).
    destruct IX as [<-|[<-|IX]].
    + pose proof (IH _ _ _ H (or_introl eq_refl)). lra.
    + pose proof (IH _ _ _ H (or_introl eq_refl)). lra.
    + apply (IH _ _ _ H (or_intror IX)).
Qed.

Theorem C88_ziptie_slot : forall q (taper : option R) pmod pasin (bc : @bracket_cfg Rnum) (k : @cable_cfg Rnum) (a b d : pt) s r,
  cornerBracket q taper pmod pasin bc (Some k) a b d s = Ok r -> ~ Y a < Y b ->
  0 <= br_taperAngle bc < PI / 2 -> eps <= ca_minBendRadius k -> 2 * eps <= ca_zipHeight k <= ca_zipWidth k -> 0 < maxChordAngle q -> 0 < maxChordHeight q ->
  let t := br_taperAngle bc in
  exists bolt slot T H C, cbHoles r = [bolt; slot] /\ nth_error (cbRoof r) 2 = Some T /\
    let F := P 0 (Y H - ca_minBendRadius k * cos t) (Z H - ca_minBendRadius k * sin t) in
    let at_ u v := P 0 (Y C - u * sin t - v * cos t) (Z C + u * cos t - v * sin t) in
    (forall p, In p (cbSplit r) -> edist p H = ca_minBendRadius k \/ Z p = Z (hd vzero (cbWall r)) \/ (left_of (vyz a) (vyz b) p = 0 /\ depth (- cos t) (- sin t) F p = 0)) /\
    Z H = Z (hd vzero (cbWall r)) + ca_minBendRadius k - ca_humpHeight k /\
    (forall p, In p slot -> exists u v, p = at_ u v /\ Rabs u <= ca_zipWidth k / 2 /\ Rabs v <= ca_zipHeight k / 2) /\
    (forall u v, Rabs u = (ca_zipWidth k - ca_zipHeight k) / 2 -> Rabs v = ca_zipHeight k / 2 -> In (at_ u v) slot) /\
    (forall p, In p slot -> br_taperMargin bc <= depth (- cos t) (- sin t) F p <= depth (- cos t) (- sin t) F T) /\
    depth (- cos t) (- sin t) F T = br_taperMargin bc + ca_zipHeight k.
Proof.
  intros q taper pmod pasin bc k a b d s r H NY HT HB HZ HA HH t. subst t. destruct (hump_form q taper pmod pasin bc k HT HB HZ HA HH a b d s r NY H) as (w & wall & bolt & slot & T & Hc & C & EW & EH & ET & XW & XH & ZH & DB & DT & SP & XC & DC & HO & CO). cbv zeta in *.
  exists bolt, slot, T, Hc, C. rewrite EW. cbn [hd]. split; [exact EH|]. split; [exact ET|]. split; [intros p IP; exact (proj2 (SP p IP))|]. split; [exact ZH|]. split; [exact HO|]. split; [exact CO|]. split; [|exact DT].
  intros p IP. destruct (HO p IP) as (u & v & -> & BU & BV). rewrite DT. apply Rabs_def2' in BV.
  set (t := br_taperAngle bc) in *. pose proof (sin2_cos2 t) as SC. unfold Rsqr in SC.
  assert (E : depth (- cos t) (- sin t) (P 0 (Y Hc - ca_minBendRadius k * cos t) (Z Hc - ca_minBendRadius k * sin t)) (P 0 (Y C - u * sin t - v * cos t) (Z C + u * cos t - v * sin t)) = br_taperMargin bc + ca_zipHeight k / 2 - v).
  { rewrite <- DC. unfold depth. repeat match goal with |- context [Z (P ?a ?b ?c)] => change (Z (P a b c)) with c | |- context [Y (P ?a ?b ?c)] => change (Y (P a b c)) with b end.
    transitivity ((Y C - (Y Hc - ca_minBendRadius k * cos t)) * cos t + (Z C - (Z Hc - ca_minBendRadius k * sin t)) * sin t - v * (sin t * sin t + cos t * cos t)); [ring|rewrite SC; ring]. }
  change (br_taperMargin bc <= depth (- cos t) (- sin t) (P 0 (Y Hc - ca_minBendRadius k * cos t) (Z Hc - ca_minBendRadius k * sin t)) (P 0 (Y C - u * sin t - v * cos t) (Z C + u * cos t - v * sin t)) <= br_taperMargin bc + ca_zipHeight k).
  rewrite E. lra.
Qed.
Print Assumptions C88_ziptie_slot.


Section Two.
Variable q : @quality Rnum.
Variable taper : option R.
Variable pmod : R -> R -> R.
Variable pasin : R -> res R.
Variable c : @body_cfg Rnum.
(* what newBody does with the bracket and the cable *)
Lemma body_ridge pn b bc : newBody q taper pmod pasin c pn = Ok b -> by_bracket c = Some bc ->
  exists it1 irf ilf back df d sd bF bB post holes,
    byLine b = [it1; irf; ilf; back] /\ byBracketF b = Some bF /\ byBracketB b = Some bB /\
    cornerBracket q taper pmod pasin bc (by_cable c) it1 irf df sd = Ok bF /\
    cornerBracket q taper pmod pasin bc (by_cable c) back ilf d sd = Ok bB /\
    (forall p, In p (cbSplit bF ++ cbSplit bB) -> by_lipHeight c + by_lipMargin c + 1 / 1000 <= Z p) /\
    forall k, by_cable c = Some k ->
      exists w pre o i cab, pyidx (cbWall bB) 0 = Ok w /\ newCable q taper bc k w (Y o - Y i) = Ok cab /\
        In (collapsed (map vyz (pre ++ caSplitT cab ++ cbSplit bB ++ post)) (1 / 1000), cbHoles bB ++ holes) (faces (byMesh b)) /\
        In (o :: i :: caSplitG cab, []) (faces (byMesh b)) /\
        exists g0 g1, pyidx (caSplitG cab) 0 = Ok g0 /\ pyidx (caSplitG cab) (-1)%Z = Ok g1 /\ by_lipHeight c + by_lipMargin c <= Z g0 /\ 1 / 1000 <= Z g1.
Proof.
  intros H HBR. unfold newBody in H. cbv zeta in H. do 3 match type of H with (if ?b then _ else _) = _ => destruct b; [discriminate|] end.
  apply bind_ok in H. destruct H as (g & _ & H). apply bind_ok in H. destruct H as (s & _ & H). apply bind_ok in H. destruct H as (k & _ & H). apply bind_ok in H. destruct H as ((((em & ef) & eb) & eo) & _ & H).
  apply bind_ok in H. destruct H as (r & ER & H). apply bind_ok in H. destruct H as (o & _ & H). apply Ok_inj in H. rewrite <- H. cbn [byLine byBracketF byBracketB byMesh]. clear H.
  set (m1 := stMesh s). set (m2 := bodyPlates _ _ _ _ _ _). set (w' := bodyWalls _ _ _ _ _). clearbody m1 m2 w'.
  assert (IM : forall f, In f (faces (rgMesh r)) -> In f (faces (meshes [m1; m2; em; rgMesh r; fst w']))).
  { intros f IF. cbn [meshes faces]. rewrite !in_app_iff. right. right. right. left. exact IF. }
  unfold bodyRidge in ER. cbv zeta in ER. rewrite HBR in ER.
  apply bind_ok in ER. destruct ER as (og0 & _ & ER). apply bind_ok in ER. destruct ER as (oc0 & _ & ER). apply bind_ok in ER. destruct ER as (ot0 & _ & ER).
  apply bind_ok in ER. destruct ER as (ig1 & _ & ER). apply bind_ok in ER. destruct ER as (ic1 & _ & ER). apply bind_ok in ER. destruct ER as (it1 & _ & ER).
  apply bind_ok in ER. destruct ER as (bF & EBF & ER). apply bind_ok in ER. destruct ER as (bB & EBB & ER). apply bind_ok in ER. destruct ER as (ref & _ & ER). apply bind_ok in ER. destruct ER as (bT & _ & ER).
  apply bind_ok in ER. destruct ER as (tl & _ & ER). apply bind_ok in ER. destruct ER as (my & _ & ER). apply bind_ok in ER. destruct ER as (ds & _ & ER). apply bind_ok in ER. destruct ER as (gap & _ & ER). apply bind_ok in ER. destruct ER as (mz & EMZ & ER).
  match type of ER with (if ?b || ?b2 || ?b3 then _ else _) = _ => destruct b; [discriminate|]; destruct b2; [discriminate|]; destruct b3 eqn:C1; [discriminate|] end. cbn [orb] in ER.
  apply bind_ok in ER. destruct ER as (wl & _ & ER). apply bind_ok in ER. destruct ER as (mzB & EMZB & ER).
  match type of ER with (if ?b || ?b2 then _ else _) = _ => destruct b; [discriminate|]; destruct b2 eqn:C2; [discriminate|] end. cbn [orb] in ER.
  apply bind_ok in ER. destruct ER as (w0 & EW0 & ER). apply bind_ok in ER. destruct ER as (rf0 & _ & ER). apply bind_ok in ER. destruct ER as (((((sc & wB) & wF) & cm) & op) & ECB & ER).
  apply Ok_inj in ER.
  change (Rltb (mz - (by_lipHeight c + by_lipMargin c)) (1 / 1000) = false) in C1. apply Rltb_false in C1. change (Rltb (mzB - (by_lipHeight c + by_lipMargin c)) (1 / 1000) = false) in C2. apply Rltb_false in C2.
  exists it1, (ridgeIRF (planPoints pn)), (stILF s), (alnumILBT k), ic1, (alnumILBC k), (planSide pn), bF, bB, (rbSplit bT), [rbHole bT].
  split; [rewrite <- ER; reflexivity|]. split; [rewrite <- ER; reflexivity|]. split; [rewrite <- ER; reflexivity|]. split; [exact EBF|]. split; [exact EBB|]. split.
  { intros p IP. apply in_app_or in IP. destruct IP as [IP|IP].
    - pose proof (minList_le _ _ (Z p) EMZ (in_map Z _ _ IP)). lra.
    - pose proof (minList_le _ _ (Z p) EMZB (in_map Z _ _ IP)). lra. }
  intros kc EKC. rewrite EKC in ECB. apply bind_ok in ECB. destruct ECB as (cab & ECAB & ECB). apply bind_ok in ECB. destruct ECB as (g1 & EG1 & ECB). apply bind_ok in ECB. destruct ECB as (g0 & EG0 & ECB).
  match type of ECB with (if ?b || ?b2 then _ else _) = _ => destruct b eqn:C3; [discriminate|]; destruct b2 eqn:C4; [discriminate|] end. cbn [orb] in ECB. apply Ok_inj in ECB.
  apply pair_inj in ECB. destruct ECB as [ECB _]. apply pair_inj in ECB. destruct ECB as [ECB E4]. apply pair_inj in ECB. destruct ECB as [ECB _]. apply pair_inj in ECB. destruct ECB as [E1 _]. subst sc cm.
  change (Rltb (Z g1) (1 / 1000) = false) in C3. apply Rltb_false in C3. change (Rltb (Z g0) (by_lipHeight c + by_lipMargin c) = false) in C4. apply Rltb_false in C4.
  exists w0, (stILF s :: (eb ++ [stOLF s; alnumOLBT k; alnumOLBC k])). exists (vyz (vxy (alnumOLBp (planPoints pn)))), (vyz (vxy (alnumILBp (planPoints pn)))), cab. split; [exact EW0|]. split; [exact ECAB|]. split; [|split].
  - apply IM. rewrite <- ER. cbn [rgMesh meshes faces app]. right. left. reflexivity.
  - apply IM. rewrite <- ER. cbn [rgMesh meshes faces app]. do 5 right. left. reflexivity.
  - exists g0, g1. split; [exact EG0|]. split; [exact EG1|]. split; lra.
Qed.
End Two.

(* The cable comes through the wall below w, bends down over the bump behind the wall (centre B) and up around the hump of the
   bracket (centre H); everywhere a cable of the given diameter has room and bends no tighter than the given radius. *)
Theorem C88_cable_channel : forall q (taper : option R) pmod pasin (c : @body_cfg Rnum) pn b bc k,
  newBody q taper pmod pasin c pn = Ok b -> by_bracket c = Some bc -> by_cable c = Some k ->
  0 < maxChordAngle q -> 0 < maxChordHeight q -> (match taper with Some al => al < PI | None => True end) ->
  0 <= br_taperAngle bc < PI / 2 -> 2 * eps <= ca_diameter k -> eps <= ca_minBendRadius k -> 2 * eps <= ca_zipHeight k <= ca_zipWidth k ->
  ca_bumpRadius k = 0 \/ eps <= ca_bumpRadius k <= ca_minBendRadius k -> 0 <= ca_bumpTaper k < PI / 2 -> ca_exitFillet k = 0 \/ eps <= ca_exitFillet k ->
  forall f0 f1 front back, byLine b = [f0; f1; front; back] -> Y front <= Y back ->
  exists bB w pre upper post holes o i lower (H : pt),
    let r := ca_minBendRadius k in let B := P 0 (Y w) (Z w - ca_diameter k - r) in
    byBracketB b = Some bB /\ hd_error (cbWall bB) = Some w /\
    In (collapsed (map vyz (pre ++ upper ++ cbSplit bB ++ post)) (1 / 1000), cbHoles bB ++ holes) (faces (byMesh b)) /\
    In (o :: i :: lower, []) (faces (byMesh b)) /\
    (forall p, In p (cbSplit bB) -> X p = 0 /\ (edist p H = r \/ Z p = Z w \/ left_of (vyz back) (vyz front) p = 0)) /\
    Z H = Z w + r - ca_humpHeight k /\
    (ca_exitFillet k <= Y o - Y i ->
      (forall p, In p upper -> X p = 0 /\ Y w <= Y p /\ Z w <= Z p) /\
      (forall p, In p lower -> X p = 0 /\ Z p <= Z w - ca_diameter k /\ (Y p < Y w -> edist p B <= r))) /\
    (forall p p', edist p H <= r -> edist p' B <= r -> ca_diameter k <= edist p p').
Proof.
  intros q taper pmod pasin c pn b bc k HN HBR HK HA HH HTP HT HD HB HZ HU HBT HF f0 f1 front back LINE FB. pose proof eps_pos as EP.
  destruct (body_ridge q taper pmod pasin c pn b bc HN HBR) as (it1 & irf & ilf & bk & df & d & sd & bF & bB & post & holes & LINE2 & _ & EBB & _ & CB & _ & REST).
  rewrite LINE in LINE2. injection LINE2 as -> -> -> ->. destruct (REST k HK) as (w & pre & o & i & cab & EW & ECAB & IN1 & IN2 & _). rewrite HK in CB.
  destruct (hump_form q taper pmod pasin bc k HT HB HZ HA HH bk ilf d sd bB ltac:(lra) CB) as (w2 & wall & bolt & slot & T & Hc & C & EW2 & _ & _ & XW & XH & ZH & DB & _ & SP & _). cbv zeta in *.
  rewrite EW2 in EW. apply Ok_inj in EW. subst w2.
  exists bB, w, pre, (caSplitT cab), post, holes, o, i, (caSplitG cab), Hc.
  split; [exact EBB|]. split; [rewrite EW2; reflexivity|]. split; [exact IN1|]. split; [exact IN2|]. split; [intros p IP; destruct (SP p IP) as [Q1 Q2]; split; [exact Q1|tauto]|]. split; [exact ZH|]. split.
  - intros TH. assert (HUB : ca_bumpRadius k = 0 \/ eps <= ca_bumpRadius k) by tauto. assert (HUC : ca_bumpRadius k <= ca_minBendRadius k) by lra.
    destruct (cable_form q taper bc k HA HH ltac:(lra) HB HUB HUC HF HTP HBT w (Y o - Y i) cab ECAB TH) as (Q1 & Q2 & Q3). cbv zeta in Q1.
    assert (E2 : forall x : R, 2 * (x / 2) = x) by (intros x; field). rewrite !(E2 (ca_diameter k)) in Q1. rewrite XW in Q1, Q2. split; [exact Q2|]. intros p IP. rewrite Q3 in IP. apply collapsed_in in IP. destruct (Q1 p IP) as [QX QD]. split; [exact QX|]. destruct QD as [QD|[QY QZ]].
    + split; [|intros _; exact QD]. apply edist_down in QD. change (Z (P 0 (Y w) (Z w - ca_diameter k - ca_minBendRadius k))) with (Z w - ca_diameter k - ca_minBendRadius k) in QD. lra.
    + split; [exact QZ|]. intros L. lra.
  - intros p p' D1 D2. pose proof (edist_tri Hc p (P 0 (Y w) (Z w - ca_diameter k - ca_minBendRadius k))) as T1. pose proof (edist_tri p p' (P 0 (Y w) (Z w - ca_diameter k - ca_minBendRadius k))) as T2. rewrite (edist_sym Hc p) in T1. lra.
Qed.
Print Assumptions C88_cable_channel.

(* Nothing of the brackets or of the cable's bump reaches down into the lip of the floor *)
Theorem C88_above_lip : forall q (taper : option R) pmod pasin (c : @body_cfg Rnum) pn b bc,
  newBody q taper pmod pasin c pn = Ok b -> by_bracket c = Some bc ->
  exists bF bB, byBracketF b = Some bF /\ byBracketB b = Some bB /\
    (forall p, In p (cbSplit bF ++ cbSplit bB) -> by_lipHeight c + by_lipMargin c + 1 / 1000 <= Z p) /\
    (by_cable c <> None -> exists o i p lower p', In (o :: i :: p :: lower, []) (faces (byMesh b)) /\ last (p :: lower) vzero = p' /\
       by_lipHeight c + by_lipMargin c <= Z p /\ 1 / 1000 <= Z p').
Proof.
  intros q taper pmod pasin c pn b bc HN HBR. destruct (body_ridge q taper pmod pasin c pn b bc HN HBR) as (it1 & irf & ilf & bk & df & d & sd & bF & bB & post & holes & _ & EBF & EBB & _ & _ & LIP & REST).
  exists bF, bB. split; [exact EBF|]. split; [exact EBB|]. split; [exact LIP|]. intros NK. destruct (by_cable c) as [k|] eqn:EK; [|contradiction]. destruct (REST k eq_refl) as (w & pre & o & i & cab & _ & _ & _ & IN2 & g0 & g1 & E0 & E1 & Z0 & Z1).
  apply (end_is _ _ vzero) in E1. apply first_is in E0. destruct E0 as (rr & E0). rewrite E0 in *. exists o, i, g0, rr, g1. split; [exact IN2|]. split; [exact E1|]. split; assumption.
Qed.
Print Assumptions C88_above_lip.

(* The hypotheses: C70_nonvacuous (P_Runs.v) makes a body with these brackets and this cable whose roof rises toward the back wall.
   Here the back bracket and the cable exit of that size, in fixed point arithmetic *)
Open Scope Z_scope.
Definition yz_ (y z : BinNums.Z) : @vec Calc := @V Calc 0 (dq y 10) (dq z 10).
Example C88_nonvacuous : match cornerBracket q_mid (Some (P_Plan.deg 45 1)) cmod casin bracket_default (Some cable_default) (yz_ 900 250) (yz_ 0 200) (yz_ 900 240) SideRight with
  | Ok bB => match pyidx (cbWall bB) 0 with
             | Ok w => match newCable q_mid (Some (P_Plan.deg 45 1)) bracket_default cable_default w (dq 4 1) with
                       | Ok cab => (length (cbHoles bB) =? 2)%nat && (4 <=? length (cbSplit bB))%nat && (4 <=? length (caSplitG cab))%nat &&
                           (ca_zipHeight cable_default <=? ca_zipWidth cable_default) && (ca_bumpRadius cable_default <=? ca_minBendRadius cable_default) && (ca_exitFillet cable_default <=? dq 4 1)
                       | Err _ => false end
             | Err _ => false end
  | Err _ => false end = true.
Proof. vm_cast_no_check (eq_refl true). Qed.
