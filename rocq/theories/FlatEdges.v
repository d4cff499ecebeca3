(** The edges of the corner brackets and of the cable outlet that become part of larger faces. *)
From Coq Require Import Reals Lra Psatz ZArith List Bool Lia Arith.
From Verif Require Import Num GeoModel EdgeModel GeoSpec GeoMat GeoRigid GeoPlane GeoCirc ArcModel ArcSpec ArcProof ArcCorner ArcShape P_Arc MeshModel LayoutModel LayoutProof BracketModel BumperModel EdgeReal PartProof PlanMove BodyFlat BossSpec BossProof BrSpec BrProof CableProof FlatSpec FlatProof FlatRoof.
Import ListNotations.
Open Scope R_scope.

Lemma beside_start a b : beside a b a. Proof. unfold beside. ring. Qed.
Lemma beside_end a b : beside a b b. Proof. unfold beside. ring. Qed.
Lemma on_beside a b u v : vnorm (vsub b a) = Ok u -> (Y v - Y a) * Z u = (Z v - Z a) * Y u -> beside a b v.
Proof.
  intros E H. destruct (vnorm_ok _ _ E) as (N & EU). pose proof (len_pos _ N) as L. set (l := len _) in *. unfold beside.
  assert (EY : Y b - Y a = l * Y u). { rewrite EU. change (Y (scaled (/ l) (vsub b a))) with (/ l * (Y b - Y a)). clearbody l. field. lra. }
  assert (EZ : Z b - Z a = l * Z u). { rewrite EU. change (Z (scaled (/ l) (vsub b a))) with (/ l * (Z b - Z a)). clearbody l. field. lra. }
  rewrite EY, EZ. transitivity (l * ((Z v - Z a) * Y u)); [ring|]. rewrite <- H. ring.
Qed.
Section Corner.
Variable q : @quality Rnum.
Variable taper : option R.
Variable pmod : R -> R -> R.
Variable pasin : R -> res R.
Variable c : @bracket_cfg Rnum.
Lemma sketch_edges (a b d : pt) extra inset k : flat a -> flat b -> flat d -> cornerLines q pmod c a b d extra inset = Ok k ->
  Y (csLBG k) = Y d /\ flat (csLBG k) /\ beside a b (csLFT k) /\ (Y a <> Y b \/ Z a <> Z b).
Proof.
  intros A B D H. unfold flat in A, B, D. destruct (unit_yz (br_taperAngle c)) as (U1 & U2 & U3 & U4).
  unfold cornerLines in H. cbv zeta in H. apply bind_ok in H. destruct H as (u & EU & H).
  pose proof (vnorm_unit _ _ EU) as UU. assert (Xu : X u = 0) by (apply (norm_flat _ _ EU), flat_sub; assumption).
  match type of H with context [nadd (pmax (boreRadius c) (@hexTangentDist Rnum pmod _ _)) (br_taperMargin c)] => idtac end.
  apply bind_ok in H. destruct H as (l1 & L1 & H). apply bind_ok in H. destruct H as (l2 & L2 & H). apply bind_ok in H. destruct H as (ce & E0 & H).
  apply bind_ok in H. destruct H as (l3 & L3 & H). apply bind_ok in H. destruct H as (l4 & L4 & H). apply bind_ok in H. destruct H as (l5 & L5 & H). apply bind_ok in H. destruct H as (l6 & L6 & H).
  apply bind_ok in H. destruct H as (LBG & E1 & H). apply bind_ok in H. destruct H as (LFG & E2 & H). apply bind_ok in H. destruct H as (LFT & E3 & H). apply bind_ok in H. destruct H as (arc & EA & H). apply Ok_inj in H.
  apply line_unit in L1; [|exact U4]. apply line_unit in L2; [|exact UU]. apply line_unit in L3; [|exact U4]. apply line_unit in L4; [|exact UU]. apply line_unit in L5; [|exact U3]. apply line_unit in L6; [|exact U2]. subst l1 l2 l3 l4 l5 l6 k.
  assert (FU : forall p : pt, flat p -> flat_line (mkLine p u)) by (intros p Q; split; [exact UU|split; [exact Q|exact Xu]]).
  assert (FW : forall p : pt, flat p -> flat_line (mkLine p (V (nZ 0) (nZ 0) (nZ 1)))) by (intros p Q; split; [exact U4|split; [exact Q|reflexivity]]).
  assert (FH : forall p : pt, flat p -> flat_line (mkLine p (V (nZ 0) (nZ 1) (nZ 0)))) by (intros p Q; split; [exact U3|split; [exact Q|reflexivity]]).
  assert (Xc : flat ce) by (apply (intersect_flat _ _ _ E0); [apply FU, flat_sub; [exact A|apply flat_scale; reflexivity]|apply FW, flat_sub; [exact D|apply flat_scale; reflexivity]]).
  apply crossing in E1; [|apply FW; exact D|apply FH, flat_sub; [exact Xc|reflexivity]].
  apply crossing in E3; [|split; [exact U2|split; [apply flat_add; [exact Xc|apply flat_scale; reflexivity]|reflexivity]]|apply FU; exact A].
  destruct E1 as (X1 & W1 & _). destruct E3 as (_ & _ & R3). cbn [csLBG csLFT]. cbn [lpos ldir] in W1, R3. split; [|split; [exact X1|split]].
  - change ((Y LBG - Y d) * 1 = (Z LBG - Z d) * 0) in W1. lra.
  - exact (on_beside a b u LFT EU R3).
  - destruct (vnorm_ok _ _ EU) as (N & _). destruct (Req_EM_T (Y a) (Y b)) as [QY|QY]; [|left; exact QY]. destruct (Req_EM_T (Z a) (Z b)) as [QZ|QZ]; [|right; exact QZ]. exfalso. apply N.
    destruct a as [a1 a2 a3], b as [b1 b2 b3]. unfold X, Y, Z in *. cbn [vx vy vz] in *. subst. apply pt_ext; [change ((0:R) - 0 = 0)|match goal with |- ?l = _ => change (b2 - b2 = 0) end|match goal with |- ?l = _ => change (b3 - b3 = 0) end]; ring.
Qed.
Lemma zip_edges kc k z : ziptie q pasin c kc k = Ok z -> exists m : R, zRBT z = vadd (csLFT k) (V m (nZ 0) (nZ 0)) /\ zArchR z = etranslated (zArchL z) (V m (nZ 0) (nZ 0)).
Proof.
  intros EZ. unfold ziptie in EZ. cbv zeta in EZ. do 3 (apply bind_ok in EZ; destruct EZ as (? & _ & EZ)). match type of EZ with (if ?b then _ else _) = _ => destruct b end; [discriminate|].
  do 14 (apply bind_ok in EZ; destruct EZ as (? & _ & EZ)). apply Ok_inj in EZ. rewrite <- EZ. cbn [zRBT zArchR zArchL]. exists (ca_humpWidth kc / 2). split; reflexivity.
Qed.
Lemma fwd_edges cable (a b d : pt) extra inset s r : flat a -> flat b -> flat d -> cornerFwd q taper pmod pasin c cable a b d extra inset s = Ok r ->
  ys (Y d) (cbWall r) /\ flat (hd vzero (cbWall r)) /\ (cable = None \/ beside a b (last (cbRoof r) vzero) -> Forall (beside a b) (cbRoof r)) /\ (Y a <> Y b \/ Z a <> Z b).
Proof.
  intros A B D H. unfold cornerFwd in H. apply bind_ok in H. destruct H as (k & EK & H). destruct (sketch_edges _ _ _ _ _ _ A B D EK) as (S1 & S2 & S3 & S4). cbv zeta in H.
  apply bind_ok in H. destruct H as (((hm & hl) & hr) & _ & H).
  assert (W : ys (Y d) [csLBG k; vadd (csLBG k) (V (nadd (br_holeLength c) (br_boreLength c)) (nZ 0) (nZ 0)); vadd d (V (nadd (br_holeLength c) (br_boreLength c)) (nZ 0) (nZ 0))]).
  { constructor; [exact S1|]. constructor; [change (Y (csLBG k) + 0 = Y d); rewrite S1; ring|]. constructor; [change (Y d + 0 = Y d); ring|constructor]. }
  destruct cable as [kc|].
  - apply bind_ok in H. destruct H as (z & EZ & H). destruct (zip_edges _ _ _ EZ) as (m & Z1 & Z2). do 4 (apply bind_ok in H; destruct H as (? & _ & H)). apply bind_ok in H. destruct H as (l0 & EL & H). apply bind_ok in H. destruct H as (r0 & ER & H). apply Ok_inj in H.
    rewrite <- H. cbn [cbWall cbRoof hd last]. split; [exact W|]. split; [exact S2|]. split; [|exact S4]. intros [Q|Q]; [discriminate|].
    assert (E0 : r0 = vadd l0 (V (m : @num Rnum) (nZ 0) (nZ 0))). { rewrite Z2 in ER. apply first_is in EL. destruct EL as (rr & EL). rewrite EL in ER. cbn [etranslated map] in ER. apply first_is in ER. destruct ER as (r2 & ER). apply (f_equal (hd vzero)) in ER. cbn [hd] in ER. symmetry. exact ER. }
    constructor; [apply beside_x, beside_start|]. constructor; [apply beside_x; exact S3|]. constructor; [rewrite Z1; apply beside_x; exact S3|]. constructor; [rewrite E0; apply beside_x; exact Q|]. constructor; [exact Q|constructor].
  - apply Ok_inj in H. rewrite <- H. cbn [cbWall cbRoof hd last]. split; [exact W|]. split; [exact S2|]. split; [|exact S4]. intros _. constructor; [apply beside_x, beside_start|]. constructor; [apply beside_x; exact S3|]. constructor; [exact S3|constructor].
Qed.
Lemma corner_edges cable (a b d : pt) s r : cornerBracket q taper pmod pasin c cable a b d s = Ok r ->
  ys (Y d) (cbWall r) /\ flat (hd vzero (cbWall r)) /\ (cable = None \/ beside a b (last (cbRoof r) vzero) -> Forall (beside a b) (cbRoof r)) /\ (Y a <> Y b \/ Z a <> Z b).
Proof.
  intros H. unfold cornerBracket in H. destruct (nltb _ _).
  - apply bind_ok in H. destruct H as (r' & H & E). apply Ok_inj in E. subst r. cbn [cbWall cbRoof].
    destruct (fwd_edges _ _ _ _ _ _ _ _ (flat_mirY _ (yz_flat a)) (flat_mirY _ (yz_flat b)) (flat_mirY _ (yz_flat d)) H) as (F1 & F2 & F3 & F4). split; [|split; [|split]].
    + unfold ys, emirY in *. apply Forall_map. eapply Forall_impl; [|exact F1]. intros p E. cbv beta in E |- *. change (- Y p = Y d). rewrite E. change (- - Y d = Y d). ring.
    + destruct (cbWall r') as [|w l]; [reflexivity|]. exact F2.
    + intros _. specialize (F3 (or_introl eq_refl)). unfold emirY. apply Forall_map. eapply Forall_impl; [|exact F3]. intros p E. cbv beta in E |- *. unfold beside in *. change (Y (vmirY p)) with (- Y p). change (Z (vmirY p)) with (Z p).
      change ((- Y b - - Y a) * (Z p - Z a) = (Z b - Z a) * (Y p - - Y a)) in E. lra.
    + change (- Y a <> - Y b \/ Z a <> Z b) in F4. destruct F4 as [F4|F4]; [left; intros Q; apply F4; rewrite Q; reflexivity|right; exact F4].
  - destruct (fwd_edges _ _ _ _ _ _ _ _ (yz_flat a) (yz_flat b) (yz_flat d) H) as (F1 & F2 & F3 & F4). split; [exact F1|]. split; [exact F2|]. split; [exact F3|exact F4].
Qed.
End Corner.

Section Cable.
Variable q : @quality Rnum.
Variable taper : option R.
Variable bc : @bracket_cfg Rnum.
Variable k : @cable_cfg Rnum.
Let bend : R := ca_minBendRadius k.
Let bump : R := ca_bumpRadius k.
Let r : R := ca_diameter k / 2.
Let fillet : R := ca_exitFillet k.
Hypothesis HA : 0 < maxChordAngle q.
Hypothesis HH : 0 < maxChordHeight q.
Hypothesis HR : eps <= r.
Hypothesis HB : eps <= bend.
Hypothesis HU : bump = 0 \/ eps <= bump.
Hypothesis HUB : bump <= bend.
Hypothesis HF : fillet = 0 \/ eps <= fillet.
Hypothesis HT : match taper with Some al => al < PI | None => True end.
Hypothesis HBT : 0 <= ca_bumpTaper k < PI / 2.
Lemma hole_levels (pos : pt) (th : R) first rest : cableHoleArcs q taper k pos th = Ok (first, rest) ->
  (first <> [] /\ last first vzero = P (X pos) (Y pos) (Z pos - 2 * r)) /\ ys (Y pos) first /\
  (forall a, In a (first :: rest) -> a <> [] /\ X (last a vzero) = X pos) /\ ys (Y pos + th) (last (first :: rest) []).
Proof.
  intros H. pose proof eps_pos as EP. pose proof PI_RGT_0 as PP. unfold cableHoleArcs in H. cbv zeta in H. apply bind_ok in H. destruct H as (fa & EF & H). apply bind_ok in H. destruct H as (ha & EH & H).
  apply bind_ok in H. destruct H as (rs & ER & H). apply Ok_inj in H. apply pair_inj in H. destruct H as [E1 E2].
  change (@uprightHalfHole2D Rnum q taper r = Ok ha) in EH. destruct (half_hole_ends q HA HH taper r ha HR HT EH) as (NE & HD & LA).
  match type of E1 with etranslated ?l _ = _ => set (hz := l) in * end. assert (NZ : hz <> []) by (apply map_some; exact NE).
  assert (LZ : last hz vzero = P 0 0 (- r)) by (unfold hz; rewrite (last_map _ ha vzero vzero NE), LA; reflexivity).
  assert (YZ : ys 0 hz) by (unfold hz, ys; apply Forall_forall; intros p I; apply in_map_iff in I; destruct I as (p0 & <- & _); reflexivity). clearbody hz.
  assert (NF : first <> []) by (rewrite <- E1; unfold etranslated; apply map_some; exact NZ).
  assert (L0 : last first vzero = P (X pos) (Y pos) (Z pos - 2 * r)).
  { rewrite <- E1. unfold etranslated. rewrite (last_map _ hz vzero vzero NZ), LZ. apply pt_ext; [match goal with |- _ = X (P ?a _ _) => change (0 + (X pos + 0) = a) end; ring|match goal with |- _ = Y (P _ ?a _) => change (0 + (Y pos + 0) = a) end; ring|].
    change (- r + (Z pos + - r) = Z pos - 2 * r). ring. }
  split; [split; assumption|]. split.
  { rewrite <- E1. unfold ys, etranslated in *. apply Forall_map. eapply Forall_impl; [|exact YZ]. intros p E. cbv beta in E |- *. change (Y p + (Y pos + 0) = Y pos). rewrite E. ring. }
  assert (ONE : forall p a, (s <- pdiv (ca_exitFillet k - vz p) (ndiv (ca_diameter k) (nZ 2)) ;;
     Ok (etranslated (escaled hz (nZ 1 + s) vzero) (vadd (vadd pos (V (nZ 0) (th - ca_exitFillet k) (- ndiv (ca_diameter k) (nZ 2)))) (V (nZ 0) (vy p) (nZ 0)))))%num = Ok a ->
     a <> [] /\ X (last a vzero) = X pos /\ ys (Y pos + (th - fillet) + Y p) a).
  { intros p a E. apply bind_ok in E. destruct E as (s & _ & E). apply Ok_inj in E. rewrite <- E. match goal with |- etranslated (escaled hz ?a vzero) ?b <> [] /\ _ => destruct (scaled_ends hz a b NZ) as (S1 & S2 & S3) end.
    change (@last pt hz vzero) with (@last (@vec Rnum) hz vzero) in S3. rewrite LZ in S3. split; [exact S1|]. split; [rewrite S3; change ((0 - 0) * (1 + s) + 0 + (X pos + 0 + 0) = X pos); ring|].
    unfold ys, etranslated, escaled in *. rewrite map_map. apply Forall_map. eapply Forall_impl; [|exact YZ]. intros p0 E0. cbv beta in E0 |- *. change ((Y p0 - 0) * (1 + s) + 0 + (Y pos + (th - fillet) + Y p) = Y pos + (th - fillet) + Y p). rewrite E0. ring. }
  split.
  - intros a [<-|IA]; [split; [exact NF|rewrite L0; reflexivity]|]. rewrite <- E2 in IA. destruct (made_by _ _ _ _ ER IA) as (p & IP & EA). destruct (ONE p a EA) as (A1 & A2 & _). split; assumption.
  - change (@arc2D Rnum q fillet 0 (2 * PI / 4) vzero = Ok fa) in EF. destruct (arc_some q HA HH fillet 0 (2 * PI / 4) vzero fa HF ltac:(lra) EF) as [NFA _].
    destruct (arc_ends q fillet 0 (2 * PI / 4) vzero fa HF ltac:(rewrite Rabs_right; lra) EF eq_refl NFA) as [_ LE].
    rewrite <- E2. apply mapM_ok in ER. destruct (exists_last NFA) as (fi & fl & EFL). rewrite EFL, last_last in LE. assert (YF : Y fl = fillet) by (rewrite LE; change (0 + fillet * sin (0 + 2 * PI / 4) = fillet); replace (0 + 2 * PI / 4) with (PI / 2) by field; rewrite sin_PI2; ring). clear LE. rewrite EFL, map_app in ER. cbn [map] in ER. apply Forall2_app_inv_l in ER. destruct ER as (r1 & r2 & _ & ER & ->). inversion ER as [|x y l l' EA EN]. subst. inversion EN. subst.
    rewrite app_comm_cons, last_last. destruct (ONE _ y EA) as (_ & _ & A3). unfold ys in *. eapply Forall_impl; [|exact A3]. intros v E. cbv beta in E |- *. rewrite E.
    match goal with |- _ + ?t = _ => change t with (Y fl) end. rewrite YF. ring.
Qed.

Lemma last_app_shift (a l : list pt) v : l <> [] -> Y (last (a ++ etranslated l v) vzero) = Y (last l vzero) + Y v.
Proof.
  intros N. destruct (exists_last N) as (i & e & ->). unfold etranslated. rewrite map_app. cbn [map]. rewrite app_assoc, !last_last. reflexivity.
Qed.
Lemma cable_planes (pos : pt) (th : R) cab : newCable q taper bc k pos th = Ok cab ->
  (forall p, In p (caSplitG cab) -> X p = X pos) /\ ys (Y pos) (caWallF cab) /\ ys (Y pos + th) (caWallB cab) /\ faces (cbMeshC cab) = [].
Proof.
  intros H. pose proof eps_pos as EP. pose proof PI_RGT_0 as PP. set (B := P (X pos) (Y pos) (Z pos - 2 * r - bend)). unfold newCable in H. cbv zeta in H.
  apply bind_ok in H. destruct H as ((first & rest) & EHA & H). destruct (hole_levels pos th first rest EHA) as ((NF & LF) & YFI & ARCS & YLA).
  apply bind_ok in H. destruct H as (dg & ED & H). apply diag_is in ED. subst dg.
  apply bind_ok in H. destruct H as (b1 & EB1 & H). apply bind_ok in H. destruct H as (b2 & EB2 & H). apply bind_ok in H. destruct H as (fe & EFE & H). apply bind_ok in H. destruct H as (s0 & ES0 & H).
  apply bind_ok in H. destruct H as (tf & _ & H). apply bind_ok in H. destruct H as (tx & ETX & H). apply bind_ok in H. destruct H as (te & ETE & H). apply bind_ok in H. destruct H as (s1 & ES1 & H).
  apply bind_ok in H. destruct H as (ge & EGE & H). apply bind_ok in H. destruct H as (gee & _ & H). apply bind_ok in H. destruct H as (g0 & EG0 & H). apply bind_ok in H. destruct H as (g0e & EG0E & H). apply bind_ok in H. destruct H as (t0 & ET0 & H).
  apply bind_ok in H. destruct H as (beb & _ & H). apply bind_ok in H. destruct H as (u0 & EU0 & H). apply bind_ok in H. destruct H as (ue & EUE & H). apply bind_ok in H. destruct H as (tle & ETLE & H).
  apply bind_ok in H. destruct H as (spt & _ & H). apply bind_ok in H. destruct H as (ends & EENDS & H). apply Ok_inj in H. rewrite <- H. cbn [caSplitG caWallF caWallB cbMeshC]. clear H.
  change (@arc2D Rnum q bend (2 * PI / 4) (- (2 * PI) / 8) origin = Ok b1) in EB1.
  assert (ETIP : vscale (P (cos (PI / 4)) (sin (PI / 4)) 0) (nsub (ca_minBendRadius k) (ca_bumpRadius k)) = P ((bend - bump) * cos (PI / 4)) ((bend - bump) * sin (PI / 4)) 0).
  { apply pt_ext; [change (cos (PI / 4) * (bend - bump) = (bend - bump) * cos (PI / 4)); ring|change (sin (PI / 4) * (bend - bump) = (bend - bump) * sin (PI / 4)); ring|change (0 * (bend - bump) = 0); ring]. }
  rewrite ETIP in EB2, ETX. clear ETIP. set (tip := P ((bend - bump) * cos (PI / 4)) ((bend - bump) * sin (PI / 4)) 0) in *. change (@arc2D Rnum q bump (2 * PI / 8) (- (2 * PI) / 8) tip = Ok b2) in EB2. change (@arc2D Rnum q bump 0 (- (2 * PI / 4 - ca_bumpTaper k)) tip = Ok tx) in ETX.
  destruct (bend_form q k HA HH HB HU HUB HBT b1 b2 EB1 EB2) as (NL & HL & LL & AL). cbv zeta in NL, HL, LL, AL. destruct (taper_form q k HA HH HU HUB HBT tx ETX) as (NT & HX & AT & _).
  fold bend in HL, LL, HX. fold bump in LL, HX. fold tip in LL, HX.
  set (l := b1 ++ skipn 1 b2) in *. clearbody l. apply (end_is _ _ vzero) in EFE. change (@last pt first vzero) with (@last (@vec Rnum) first vzero) in LF. rewrite LF in EFE. clear EB1 EB2.
  apply (hd_is _ _ vzero) in ES0. rewrite (hd_map _ l vzero vzero NL) in ES0. change (@hd pt vzero l) with (@hd (@vec Rnum) vzero l) in HL. rewrite HL in ES0.
  set (bd := @etranslated Rnum (map _ l) _) in *.
  assert (EBD : bd = map (drawn B) l).
  { unfold bd, etranslated. rewrite map_map. apply map_ext. intros p. rewrite <- EFE, <- ES0. apply pt_ext.
    - change (0 + (X pos - 0) = X pos). ring.
    - change (- X p + (Y pos - - 0) = Y pos - X p). ring.
    - change (Y p + (Z pos - 2 * r - bend) = Z pos - 2 * r - bend + Y p). ring. }
  clearbody bd. subst bd. apply (hd_is _ _ vzero) in ES1. assert (ES2 : s1 = drawn B (P 0 bend 0)) by (rewrite <- HL; transitivity (hd vzero (map (drawn B) l)); [symmetry; exact ES1|exact (hd_map (drawn B) l vzero vzero NL)]).
  assert (SF : s1 = fe). { rewrite ES2, <- EFE. apply pt_ext; [reflexivity|change (Y pos - 0 = Y pos); ring|change (Z pos - 2 * r - bend + bend = Z pos - 2 * r); ring]. }
  set (hg := rev (skipn (Nat.div (length first) 2) first)) in *.
  assert (YHG : ys (Y pos) hg) by (apply Forall_rev; unfold ys in YFI; rewrite Forall_forall in YFI; apply Forall_forall; intros p I; apply YFI; rewrite <- (firstn_skipn (Nat.div (length first) 2) first); apply in_or_app; right; exact I).
  assert (EG : exists rr, hg = fe :: rr).
  { destruct (exists_last NF) as (fi & fl & EFI). unfold hg. rewrite EFI in LF |- *. rewrite last_last in LF. assert (EFL : fl = fe) by (rewrite LF; exact EFE).
    assert (SK : exists sk, skipn (Nat.div (length (fi ++ [fl])) 2) (fi ++ [fl]) = sk ++ [fl]).
    { rewrite skipn_app. rewrite app_length. cbn [length]. replace (Nat.div (length fi + 1) 2 - length fi)%nat with 0%nat; [exists (skipn (Nat.div (length fi + 1) 2) fi); reflexivity|].
      pose proof (Nat.div_le_upper_bound (length fi + 1) 2 (length fi + 1) ltac:(lia) ltac:(lia)). destruct (length fi) as [|m]; [reflexivity|]. pose proof (Nat.div_lt (S m + 1) 2 ltac:(lia) ltac:(lia)). lia. }
    destruct SK as (sk & SK). rewrite SK, rev_app_distr. cbn [rev app]. rewrite EFL. eexists. reflexivity. }
  destruct EG as (rr & EHG). clearbody hg. subst hg.
  assert (EG : g0 = map (drawn B) l).
  { cbn [map app] in EG0. apply first_is in EG0. destruct EG0 as (r2 & EG0). apply (f_equal (hd [])) in EG0. cbn [hd] in EG0. rewrite <- EG0. unfold etranslated. rewrite map_map. apply map_ext. intros p. rewrite SF. apply pt_ext.
    - match goal with |- ?u = ?v => change (X (drawn B p) + (X fe - X fe) = X (drawn B p)) end. ring.
    - match goal with |- ?u = ?v => change (Y (drawn B p) + (Y fe - Y fe) = Y (drawn B p)) end. ring.
    - match goal with |- ?u = ?v => change (Z (drawn B p) + (Z fe - Z fe) = Z (drawn B p)) end. ring. }
  subst g0. apply (end_is _ _ vzero) in EG0E. assert (EG1 : g0e = drawn B (P (X tip + bump) (Y tip) 0)) by (rewrite <- LL; transitivity (last (map (drawn B) l) vzero); [symmetry; exact EG0E|exact (last_map (drawn B) l vzero vzero NL)]).
  set (tl := tx ++ [V (nZ 0) (nsub (vy te) (nmul (vx te) tf)) (nZ 0)]) in *.
  assert (NTL : tl <> []) by (unfold tl; destruct tx; discriminate).
  assert (HTL : hd vzero tl = P (X tip + bump) (Y tip) 0) by (rewrite <- HX; unfold tl; destruct tx; [contradiction|reflexivity]).
  apply (hd_is _ _ vzero) in ET0. rewrite (hd_map _ tl vzero vzero NTL) in ET0. change (@hd pt vzero tl) with (@hd (@vec Rnum) vzero tl) in HTL. rewrite HTL in ET0.
  set (tL := etranslated (map _ tl) _) in *.
  assert (ETL : tL = map (drawn B) tl).
  { unfold tL, etranslated. rewrite map_map. apply map_ext. intros p. rewrite EG1, <- ET0. apply pt_ext.
    - change (0 + (X pos - 0) = X pos). ring.
    - change (- X p + (Y pos - (X tip + bump) - - (X tip + bump)) = Y pos - X p). ring.
    - change (Y p + (Z pos - 2 * r - bend + Y tip - Y tip) = Z pos - 2 * r - bend + Y p). ring. }
  clearbody tL. subst tL.
  assert (LTL : Y (last (map (drawn B) tl) vzero) = Y pos).
  { rewrite (last_map (drawn B) tl vzero vzero NTL). unfold tl. rewrite last_last. change (Y pos - 0 = Y pos). ring. }
  assert (YLE : Y tle = Y pos) by (apply (end_is _ _ vzero) in ETLE; rewrite <- ETLE; exact LTL).
  assert (YUE : Y ue = Y pos).
  { apply (end_is _ _ vzero) in EUE. rewrite <- EUE. assert (NM : map (drawn B) tl <> []) by (apply map_some; exact NTL).
    rewrite (last_app_shift _ _ _ NM). rewrite LTL. apply Rplus_0_r. }
  assert (YU0 : Y u0 = Y pos).
  { apply (hd_is _ _ vzero) in EU0. pose proof (pyidx_in _ _ _ EGE) as IG. apply in_map_iff in IG. destruct IG as (p & EP0 & IP). unfold ys in YHG. rewrite Forall_forall in YHG. specialize (YHG p IP). rewrite <- EP0 in EU0.
    destruct l as [|l0 lr]; [contradiction|]. cbn [etranslated map app hd] in EU0. rewrite <- EU0. cbn [hd] in HL. rewrite HL, SF. rewrite <- EFE.
    match goal with |- Y ?v = _ => change (Y v) with (Y pos - 0 + (Y p - Y pos) + 0) end. rewrite YHG. ring. }
  split; [|split; [|split]].
  - intros p IP. apply collapsed_in in IP. apply in_app_or in IP. destruct IP as [IP|IP]; [|apply in_app_or in IP; destruct IP as [IP|IP]].
    + apply in_rev in IP. apply in_map_iff in IP. destruct IP as (p0 & <- & _). reflexivity.
    + apply in_rev in IP. apply in_map_iff in IP. destruct IP as (p0 & <- & _). reflexivity.
    + destruct (made_by _ _ _ _ EENDS IP) as (a & IA & EA). destruct (ARCS a IA) as (_ & Q1). apply (end_is _ _ vzero) in EA. change (@last pt a vzero) with (@last (@vec Rnum) a vzero) in Q1. rewrite EA in Q1. exact Q1.
  - unfold ys in *. apply Forall_app. split.
    + rewrite Forall_forall in YFI. apply Forall_forall. intros p I. apply YFI. rewrite <- (firstn_skipn (Nat.div (length first) 2 + 1) first). apply in_or_app. left. exact I.
    + repeat (constructor; [assumption|]). constructor.
  - unfold ys in *. apply Forall_rev. exact YLA.
  - assert (SC : forall f (ls : list (list pt)), (forall a b, faces (f a b) = []) -> faces (meshes (stripChain f ls)) = []).
    { intros f ls F. induction ls as [|a [|b ls] IH]; [reflexivity|reflexivity|]. cbn [stripChain meshes faces]. rewrite F. exact IH. }
    cbn [app meshes faces]. rewrite !SC by reflexivity. reflexivity.
Qed.
End Cable.
