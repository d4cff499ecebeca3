(** Faces of the bracket under the roof and of the cable outlet lie in planes. *)
From Coq Require Import Reals Lra Psatz ZArith List Bool Lia Arith.
From Verif Require Import Num GeoModel GeoSpec GeoMat GeoRigid GeoPlane GeoCirc EdgeModel ArcModel ArcSpec ArcProof ArcCorner ArcShape MeshModel KeyModel LayoutModel LayoutProof BossModel PlanModel BracketModel BumperModel PartProof PlanMove EdgeReal BossProof PlanSpec BodyFlat BodyReal BodyMade BrSpec BrProof CableProof FlatSpec FlatProof P_Bracket.
Import ListNotations.
Open Scope R_scope.

Lemma beside_x a b p (m : R) : beside a b p -> beside a b (vadd p (@V Rnum m (@nZ Rnum 0) (@nZ Rnum 0))).
Proof. unfold beside. intros H. change ((Y b - Y a) * (Z p + 0 - Z a) = (Z b - Z a) * (Y p + 0 - Y a)). rewrite !Rplus_0_r. exact H. Qed.
Lemma beside_hung a b h k p : Y a <> Y b \/ Z a <> Z b -> Z p = h -> beside a b (hung a b h k p).
Proof.
  intros N E. unfold beside, hung. rewrite E. change (Y (P ?x ?y ?z)) with y. change (Z (P ?x ?y ?z)) with z.
  unfold unit_y, unit_z. set (s := sqrt _). assert (S : 0 < s).
  { apply sqrt_lt_R0. assert (N' : Y b - Y a <> 0 \/ Z b - Z a <> 0) by (destruct N; [left|right]; lra). pose proof (Rle_0_sqr (Y b - Y a)) as Q1. pose proof (Rle_0_sqr (Z b - Z a)) as Q2. destruct N' as [N'|N']; apply Rlt_0_sqr in N'; unfold Rsqr in *; lra. }
  field. lra.
Qed.

Lemma beside_along a b p (x : R) : Y p = Y a + x * unit_y a b -> Z p = Z a + x * unit_z a b -> beside a b p.
Proof. intros E1 E2. unfold beside. rewrite E1, E2. unfold unit_y, unit_z, Rdiv. ring. Qed.
(* a rounded corner between a level line and another begins on the level line *)
Lemma arch_starts q r (x y z : pt) l : 0 < maxChordAngle q -> 0 < maxChordHeight q -> eps <= r -> archCorner q r x y z = Ok l -> Z x = Z y -> l <> [] /\ Z (hd vzero l) = Z y.
Proof.
  intros HA HH HR H E. unfold archCorner in H. apply bind_ok in H. destruct H as (l0 & EL & H). apply Ok_inj in H.
  destruct q as [qh qa]. destruct (corner_ends qh qa r _ _ _ _ HH HA HR EL) as (N & _ & S & _). subst l. destruct l0 as [|p l0]; [contradiction|]. split; [discriminate|]. cbn [map hd] in *. exact (S E).
Qed.
Section Roof.
Variable q : @quality Rnum.
Variable taper : option R.
Variable pmod : R -> R -> R.
Variable c : @bracket_cfg Rnum.
Let t : R := br_taperAngle c.
Hypothesis HA : 0 < maxChordAngle q.
Hypothesis HH : 0 < maxChordHeight q.
Hypothesis HR : eps <= br_cornerRadius c.
Let M : R := br_boreLength c + br_holeLength c.

Definition place_plane (pl : @plane Rnum) (m : @mtx Rnum) : Prop := wf_plane pl /\ forall p, rise pl (transformed p m) = Z p.
Lemma level_plane pl m (z : R) (l : list pt) : place_plane pl m -> zs z l -> Forall (fun p => rise pl p = z) (map (fun p => transformed p m) l).
Proof. intros (_ & E) H. apply Forall_forall. intros p I. apply in_map_iff in I. destruct I as (p0 & <- & I). rewrite E. unfold zs in H. rewrite Forall_forall in H. exact (H p0 I). Qed.
Lemma coplanar_rise pl (z : R) l : wf_plane pl -> Forall (fun p => rise pl p = z) l -> coplanar l.
Proof.
  intros W H. exists (pnormal pl), (inner (ppos pl) (pnormal pl) + z). split; [exact W|]. intros p I. rewrite Forall_forall in H. specialize (H p I). unfold rise in H. rewrite <- H.
  destruct (ppos pl) as [a1 a2 a3], (pnormal pl) as [n1 n2 n3], p as [p1 p2 p3]. unfold inner, minus, X, Y, Z, P. cbn [vx vy vz]. ring.
Qed.
Lemma mount_faces mo rm pl bm x : place_plane pl rm -> mountBoss q taper mo rm = Ok (bm, x) -> Forall flat_face (faces bm).
Proof.
  intros PP H. pose proof (proj1 PP) as W. unfold mountBoss in H. cbv zeta in H. apply bind_ok in H. destruct H as (hg & EH & H). apply bind_ok in H. destruct H as (eg & EE & H). apply Ok_inj in H. apply pair_inj in H. destruct H as [H _].
  match type of EH with uprightHole2D _ _ ?r = _ => change (@uprightHole2D Rnum q taper (r : R) = Ok hg) in EH end. pose proof (upright_flat q taper _ hg EH) as FH. pose proof (arc_flat q _ _ _ _ EE) as FE.
  set (h := mo_bossHeight mo) in *. set (u := mo_innerHeight mo : R) in *.
  set (rot := mrotZ mid _ None) in *. set (off := V (nopp (mo_xDist mo)) (nopp (mo_yDist mo)) _) in *.
  assert (PL : forall p : pt, rise pl (transformed (vadd (transformed p rot) off) rm) = Z p - u).
  { intros p. rewrite (proj2 PP). change (Z (transformed p rot) + - u = Z p - u). unfold rot. rewrite app_rotZ by (apply affine_mid). rewrite app_id. unfold rotZ_pt. destruct p as [p1 p2 p3]. unfold Z, P. cbn [vz]. ring. }
  clearbody rot off. rewrite <- H. cbn [meshes faces app].
  assert (TOP : forall l : list pt, zs 0 l -> Forall (fun p => rise pl p = h - u) (map (fun p => transformed (vadd (transformed p rot) off) rm) (etranslated l (V (nZ 0) (nZ 0) h)))).
  { intros l K. unfold etranslated. rewrite map_map. apply Forall_forall. intros p I. apply in_map_iff in I. destruct I as (p0 & <- & I). rewrite PL. unfold zs in K. rewrite Forall_forall in K. change (Z p0 + h - u = h - u). rewrite (K p0 I). ring. }
  assert (BOT : forall l : list pt, zs 0 l -> Forall (fun p => rise pl p = 0 - u) (map (fun p => transformed (vadd (transformed p rot) off) rm) l)).
  { intros l K. apply Forall_forall. intros p I. apply in_map_iff in I. destruct I as (p0 & <- & I). rewrite PL. unfold zs in K. rewrite Forall_forall in K. rewrite (K p0 I). reflexivity. }
  assert (ZH : zs 0 hg) by (apply Forall_forall; exact FH). assert (ZE : zs 0 eg) by (apply Forall_forall; exact FE).
  constructor; [|constructor; [|constructor]]; unfold flat_face; cbn [fst snd concat]; rewrite app_nil_r.
  - apply (coplanar_rise pl (h - u)); [exact W|]. apply Forall_app. split; [|apply Forall_rev; apply TOP; exact ZH].
    constructor; [rewrite PL; reflexivity|]. apply Forall_app. split; [apply TOP; exact ZE|]. constructor; [rewrite PL; reflexivity|constructor].
  - apply (coplanar_rise pl (0 - u)); [exact W|]. apply Forall_app. split; [|apply BOT; exact ZH]. apply Forall_rev.
    constructor; [rewrite PL; reflexivity|]. apply Forall_app. split; [apply BOT; exact ZE|]. constructor; [rewrite PL; reflexivity|constructor].
Qed.
Lemma roof_faces mount (a b : pt) rm s r : (match mount with Some _ => exists pl, place_plane pl rm | None => True end) -> roofBracket q taper pmod c mount a b rm s = Ok r ->
  flats (rbHole r) /\ Forall flat_face (faces (rbMesh r)) /\ Forall (beside a b) (rbRoof r).
Proof.
  intros HM H. unfold roofBracket in H. cbv zeta in H. apply bind_ok in H. destruct H as (sk & ES & H). destruct sk as (((lf & lb) & pT) & pG).
  destruct (sketch_flat _ _ _ _ _ _ _ ES) as (FLF & FLB & FPT & FPG & _).
  destruct (roof_sketch_form q pmod c lf lb pT pG ES) as (LFT & LFG & LBG & LBT & cf & cb & EF & EB & C1 & C2 & ET & EG & Z1 & Z2 & Z3 & Z4 & _). clear ES. set (m := Rmax (boreR c) _) in *.
  apply bind_ok in H. destruct H as (u & EU & H). apply bind_ok in H. destruct H as (hh & EH & H). destruct hh as ((hm & hl) & hr). apply bind_ok in H. destruct H as (x & EX & H). destruct x as (((((arm & align) & aL) & aR) & fR) & re). apply Ok_inj in H.
  destruct (screw_faces q taper c _ _ _ _ _ _ (eq_refl : flat vzero) EH) as (SL & SR & SF). clear EH.
  pose proof (vnorm_unit _ _ EU) as UU. assert (Xu : X u = 0) by (apply (norm_flat _ _ EU), flat_sub; reflexivity). apply vnorm_ok in EU. destruct EU as [NAB EU].
  set (th := vangle2D _) in EX. set (h := m + br_baseMargin c) in *.
  assert (NE : Y a <> Y b \/ Z a <> Z b). { destruct (Req_EM_T (Y a) (Y b)) as [E|E]; [|left; exact E]. right. intros E2. apply NAB. apply pt_ext; [change (0 - 0 = 0); ring|change (Y b - Y a = 0); lra|change (Z b - Z a = 0); lra]. }
  assert (LEN : sqrt ((Y b - Y a) * (Y b - Y a) + (Z b - Z a) * (Z b - Z a)) = len (vsub (vyz b) (vyz a))).
  { unfold len, inner. f_equal. change (X (vsub (vyz b) (vyz a))) with (0 - 0). change (Y (vsub (vyz b) (vyz a))) with (Y b - Y a). change (Z (vsub (vyz b) (vyz a))) with (Z b - Z a). ring. }
  assert (EUY : Y u = unit_y a b) by (rewrite EU; unfold unit_y; rewrite LEN; apply Rmult_comm). assert (EUZ : Z u = unit_z a b) by (rewrite EU; unfold unit_z; rewrite LEN; apply Rmult_comm).
  assert (UN : Y u * Y u + Z u * Z u = 1). { unfold unit_vec, inner in UU. rewrite Xu in UU. lra. }
  assert (CS : cos th = - Y u /\ sin th = - Z u).
  { destruct (angle_cs (V (nopp (vy (vsub (vyz b) (vyz a)))) (nopp (vz (vsub (vyz b) (vyz a)))) (nZ 0))) as [A1 A2].
    { destruct NE as [N|N]; [left; change (- (Y b - Y a) <> 0); lra|right; change (- (Z b - Z a) <> 0); lra]. }
    change (cos th = - (Y b - Y a) / sqrt (- (Y b - Y a) * - (Y b - Y a) + - (Z b - Z a) * - (Z b - Z a))) in A1. change (sin th = - (Z b - Z a) / sqrt (- (Y b - Y a) * - (Y b - Y a) + - (Z b - Z a) * - (Z b - Z a))) in A2.
    replace (- (Y b - Y a) * - (Y b - Y a) + - (Z b - Z a) * - (Z b - Z a)) with ((Y b - Y a) * (Y b - Y a) + (Z b - Z a) * (Z b - Z a)) in A1, A2 by ring. rewrite EUY, EUZ, A1, A2. unfold unit_y, unit_z, Rdiv. split; ring. }
  destruct CS as [CU SU].
  assert (PL : forall (rp : pt) k, X rp = 0 -> Y rp = Y a + k * Y u -> Z rp = Z a + k * Z u -> forall p, transformed p (mtranslated (mrotX (mtranslated mid (vopp pT)) th None) rp) = hung a b h k p).
  { intros rp k R1 R2 R3 p. rewrite app_tra; [|apply affine_rot; [apply affine_tra, affine_mid|aff]]. rewrite app_rotX; [|apply affine_tra, affine_mid]. rewrite app_tra; [|apply affine_mid]. rewrite app_id.
    unfold hung, rotX_pt. rewrite <- EUY, <- EUZ. cbv zeta. rewrite ET. cbn [ctr]. rewrite CU, SU. set (uy := Y u) in *. set (uz := Z u) in *. clearbody uy uz h. apply pt_ext.
    - change (X p + - 0 + X rp = X p). rewrite R1. ring.
    - change (0 + ((Y p + - 0 - 0) * - uy - (Z p + - h - 0) * - uz) + Y rp = Y a + (k - Y p) * uy - (h - Z p) * uz). rewrite R2. ring.
    - change (0 + ((Y p + - 0 - 0) * - uz + (Z p + - h - 0) * - uy) + Z rp = Z a + (k - Y p) * uz + (h - Z p) * uy). rewrite R3. ring. }
  assert (BH : forall k p, Z p = h -> beside a b (hung a b h k p)) by (intros k p; apply beside_hung; exact NE).
  assert (KEY : exists k, (forall p, transformed p align = hung a b h k p) /\ Forall flat_face (faces arm) /\ xs M fR /\ flats aL /\ Forall (beside a b) re).
  { destruct mount as [mo|].
    - destruct HM as (pl & HP). apply bind_ok in EX. destruct EX as (mb & EMB & EX). destruct mb as (bm & (((bFG & bFT) & bBG) & bBT)). pose proof (mount_faces _ _ _ _ _ HP EMB) as MF.
      apply bind_ok in EX. destruct EX as (bd & EBD & EX). apply bind_ok in EX. destruct EX as (rl & ERL & EX). apply bind_ok in EX. destruct EX as (al & EAL & EX).
      apply bind_ok in EX. destruct EX as (aF & EAF & EX). apply bind_ok in EX. destruct EX as (aB & EAB & EX). apply bind_ok in EX. destruct EX as (ao & EAO & EX). apply bind_ok in EX. destruct EX as (rp & ERP & EX).
      apply bind_ok in EX. destruct EX as (i0 & I0 & EX). apply bind_ok in EX. destruct EX as (i1 & I1 & EX). apply bind_ok in EX. destruct EX as (i2 & I2 & EX). apply bind_ok in EX. destruct EX as (i3 & I3 & EX).
      apply bind_ok in EX. destruct EX as (b0 & B0 & EX). apply bind_ok in EX. destruct EX as (f0 & F0 & EX). apply bind_ok in EX. destruct EX as (r0 & R0 & EX). apply bind_ok in EX. destruct EX as (re' & RE & EX). apply bind_ok in EX. destruct EX as (fe & FE & EX).
      apply Ok_inj in EX. do 5 (apply pair_inj in EX; destruct EX as [EX ?Q]).
      apply line_unit in ERL; [|exact UU]. apply line_unit in EAL; [|exact UU]. subst rl al. assert (FR : flat_line {| lpos := vyz a; ldir := u |}) by (split; [exact UU|split; [reflexivity|exact Xu]]).
      assert (FD : flat bd) by (apply (norm_flat _ _ EBD), flat_sub; reflexivity).
      assert (FA : flat_line ao) by (apply (newLine_flat _ _ _ EAO); [apply flat_add; [reflexivity|apply flat_scale; reflexivity]|exact FD]).
      assert (FAF : flat_line aF) by (apply (newLine_flat _ _ _ EAF); [reflexivity|exact FD]). assert (FAB : flat_line aB) by (apply (newLine_flat _ _ _ EAB); [reflexivity|exact FD]).
      match type of I1 with lintersect ?l _ = _ => set (ap := l) in * end.
      assert (FP : flat_line ap) by (split; [exact UU|split; [apply flat_add; [reflexivity|apply flat_scale; reflexivity]|exact Xu]]).
      destruct (flat_meet _ _ _ FR FA ERP) as [(k & EK) _]. pose proof (f_equal X EK) as K1. pose proof (f_equal Y EK) as K2. pose proof (f_equal Z EK) as K3.
      change (X rp = 0 + k * X u) in K1. change (Y rp = Y a + k * Y u) in K2. change (Z rp = Z a + k * Z u) in K3. rewrite Xu in K1.
      assert (PP : forall p, transformed p align = hung a b h k p) by (intros p; rewrite <- Q3; apply PL; [lra|exact K2|exact K3]). rewrite Q3 in *.
      assert (PX : forall p, X (transformed p align) = X p) by (intros p; rewrite PP; reflexivity).
      assert (FT : forall l : list pt, flats l -> flats (etransformed l align)) by (intros l FL; apply flats_map; intros p I; unfold flat; rewrite PX; exact (flats_in _ _ FL I)).
      pose proof (FT _ FLF) as F1. pose proof (FT _ FLB) as F2. assert (FB0 : flat b0) by (apply (flats_in _ _ F2), (pyidx_in _ _ _ B0)).
      assert (G0 : flat i0) by exact (intersect_flat _ _ _ I0 FR FAB). assert (G1 : flat i1) by exact (intersect_flat _ _ _ I1 FP FAB). assert (G2 : flat i2) by exact (intersect_flat _ _ _ I2 FP FAF). assert (G3 : flat i3) by exact (intersect_flat _ _ _ I3 FR FAF).
      assert (LR : forall p, on_line {| lpos := vyz a; ldir := u |} p -> beside a b p).
      { intros p (x & E). apply (beside_along a b p x); rewrite E; [change (Y a + x * Y u = Y a + x * unit_y a b); rewrite EUY; reflexivity|change (Z a + x * Z u = Z a + x * unit_z a b); rewrite EUZ; reflexivity]. }
      destruct (arch_starts _ _ _ _ _ _ HA HH HR C2) as (NC & ZC); [rewrite Z3, Z4; reflexivity|].
      assert (EB0 : b0 = hung a b h k (hd vzero cb)).
      { apply (hd_is _ _ vzero) in B0. rewrite <- B0, EB. destruct cb as [|c0 cb']; [contradiction|]. cbn [app etransformed map hd]. apply PP. }
      assert (BB : beside a b fe).
      { apply (end_is _ _ vzero) in FE. rewrite EB in FE. unfold etransformed, etranslated in FE. rewrite !map_app in FE. cbn [map] in FE. rewrite !app_comm_cons, !app_assoc in FE. rewrite last_last in FE. rewrite PP in FE.
        destruct (flat_meet _ _ _ FP FAB I1) as [(k1 & EK1) _]. unfold ap in EK1. cbn [lpos ldir] in EK1. pose proof (f_equal Y EK1) as J2. pose proof (f_equal Z EK1) as J3. rewrite ET, EG in J2, J3.
        change (Y i1 = Y a + - Z u * (h - - (m + br_apexMargin c)) + k1 * Y u) in J2. change (Z i1 = Z a + Y u * (h - - (m + br_apexMargin c)) + k1 * Z u) in J3.
        set (c0 := hd vzero cb) in *. change (@hd pt vzero cb) with c0 in ZC. rewrite Z4 in ZC.
        apply (beside_along a b fe (k - Y LBT + (k1 - k + Y c0))); rewrite <- FE.
        - change (Y a + (k - Y LBT) * unit_y a b - (h - Z LBT) * unit_z a b + (Y (vadd i1 (V (nadd (br_boreLength c) (br_holeLength c)) (nZ 0) (nZ 0))) - Y b0) = Y a + (k - Y LBT + (k1 - k + Y c0)) * unit_y a b).
          change (Y (vadd i1 (V (nadd (br_boreLength c) (br_holeLength c)) (nZ 0) (nZ 0)))) with (Y i1 + 0). rewrite EB0, J2, EUY, EUZ, Z2.
          change (Y (hung a b h k c0)) with (Y a + (k - Y c0) * unit_y a b - (h - Z c0) * unit_z a b). rewrite ZC. ring.
        - change (Z a + (k - Y LBT) * unit_z a b + (h - Z LBT) * unit_y a b + (Z (vadd i1 (V (nadd (br_boreLength c) (br_holeLength c)) (nZ 0) (nZ 0))) - Z b0) = Z a + (k - Y LBT + (k1 - k + Y c0)) * unit_z a b).
          change (Z (vadd i1 (V (nadd (br_boreLength c) (br_holeLength c)) (nZ 0) (nZ 0)))) with (Z i1 + 0). rewrite EB0, J3, EUY, EUZ, Z2.
          change (Z (hung a b h k c0)) with (Z a + (k - Y c0) * unit_z a b + (h - Z c0) * unit_y a b). rewrite ZC. ring. }
      exists k. split; [exact PP|]. split; [|split; [|split]].
      + rewrite <- EX. cbn [meshes faces app]. rewrite app_nil_r. exact MF.
      + rewrite <- Q0. apply xs_app; [apply (xs_shift M); exact F1|]. apply xs_cons; [apply (x_shift M); exact G2|]. apply xs_cons; [apply (x_shift M); exact G3|apply xs_nil].
      + rewrite <- Q2. apply flats_app; [exact F1|]. apply flats_cons; [reflexivity|]. apply flats_etranslated; [exact F2|]. apply flat_sub; [reflexivity|exact FB0].
      + apply (hd_is _ _ vzero) in F0. apply (hd_is _ _ vzero) in R0. rewrite EF in F0, R0. cbn [etransformed etranslated map app hd] in F0, R0.
        assert (B1 : beside a b f0) by (rewrite <- F0, PP; apply BH; exact Z1). assert (B2 : beside a b r0) by (rewrite <- R0; apply (beside_x a b _ M); rewrite PP; apply BH; exact Z1).
        assert (B3 : beside a b re').
        { apply (end_is _ _ vzero) in FE. apply (end_is _ _ vzero) in RE. rewrite EB in FE, RE. unfold etransformed, etranslated in FE, RE. rewrite !map_app in FE, RE. cbn [map] in FE, RE. rewrite !map_app in RE. cbn [map] in RE. rewrite !app_comm_cons, !app_assoc in FE, RE. rewrite last_last in FE, RE. rewrite FE in RE. rewrite <- RE. apply (beside_x a b _ M). exact BB. }
        assert (B4 : beside a b i3) by (apply LR; exact (proj1 (flat_meet _ _ _ FR FAF I3))). assert (B5 : beside a b i0) by (apply LR; exact (proj1 (flat_meet _ _ _ FR FAB I0))).
        rewrite <- Q. repeat (apply Forall_cons; [assumption || (apply (beside_x a b _ M); assumption)|]). constructor.
    - apply bind_ok in EX. destruct EX as (f0 & EF0 & EX). apply bind_ok in EX. destruct EX as (be & EBE & EX). apply bind_ok in EX. destruct EX as (f1 & F1 & EX). apply bind_ok in EX. destruct EX as (r0 & R0 & EX). apply bind_ok in EX. destruct EX as (re' & RE & EX). apply bind_ok in EX. destruct EX as (fe & FE & EX).
      apply Ok_inj in EX. do 5 (apply pair_inj in EX; destruct EX as [EX ?Q]).
      match type of Q3 with mtranslated _ (vadd _ (vscale _ ?kk)) = _ => set (k := kk) in * end. exists k.
      assert (PP : forall p, transformed p align = hung a b h k p). { intros p. rewrite <- Q3. apply PL; [change (0 + X u * k = 0); rewrite Xu; ring|change (Y a + Y u * k = Y a + k * Y u); ring|change (Z a + Z u * k = Z a + k * Z u); ring]. }
      rewrite Q3 in *. assert (PX : forall p, X (transformed p align) = X p) by (intros p; rewrite PP; reflexivity).
      assert (FT : flats (etransformed (lf ++ lb) align)) by (apply flats_map; intros p I; unfold flat; rewrite PX; exact (flats_in (lf ++ lb) _ (flats_app _ _ FLF FLB) I)).
      split; [exact PP|]. split; [|split; [|split]].
      + rewrite <- EX. constructor.
      + rewrite <- Q0. apply (xs_shift M). exact FT.
      + rewrite <- Q2. exact FT.
      + apply (hd_is _ _ vzero) in F1. apply (hd_is _ _ vzero) in R0. rewrite EF in F1, R0. cbn [etransformed etranslated map app hd] in F1, R0.
        apply (end_is _ _ vzero) in FE. apply (end_is _ _ vzero) in RE. rewrite EB in FE, RE. unfold etransformed, etranslated in FE, RE. rewrite !map_app in FE, RE. cbn [map] in FE, RE. rewrite ?map_app in RE. cbn [map] in RE. rewrite !app_assoc in FE, RE. rewrite last_last in FE, RE.
        assert (B1 : beside a b f1) by (rewrite <- F1, PP; apply BH; exact Z1). assert (B4 : beside a b fe) by (rewrite <- FE, PP; apply BH; exact Z2).
        assert (B2 : beside a b r0) by (rewrite <- R0; apply (beside_x a b _ M); rewrite PP; apply BH; exact Z1). assert (B3 : beside a b re') by (rewrite <- RE; apply (beside_x a b _ M); rewrite PP; apply BH; exact Z2).
        rewrite <- Q. repeat (apply Forall_cons; [assumption|]). constructor. }
  destruct KEY as (k & PP & FA & XR & FL & BS).
  assert (PX : forall p, X (transformed p align) = X p) by (intros p; rewrite PP; reflexivity). subst r. cbn [rbHole rbMesh rbRoof]. split; [|split; [|exact BS]].
  - apply flats_rev, flats_map. intros p I. unfold flat. rewrite PX. exact (flats_in _ _ SL I).
  - cbn [meshes faces]. repeat (apply Forall_app; split); try (constructor; fail).
    + exact FA.
    + apply Forall_forall. intros f I. apply in_map_iff in I. destruct I as (f0 & <- & I). rewrite Forall_forall in SF. destruct (SF f0 I) as (m0 & Q1 & Q2). apply face_x_flat. exists m0. cbn [fst snd]. split.
      * apply Forall_forall. intros p J. apply in_map_iff in J. destruct J as (p0 & <- & J). rewrite PX. unfold xs in Q1. rewrite Forall_forall in Q1. exact (Q1 p0 J).
      * apply Forall_forall. intros h1 J. apply in_map_iff in J. destruct J as (h0 & <- & J). rewrite Forall_forall in Q2. specialize (Q2 h0 J). apply Forall_forall. intros p K. apply in_map_iff in K. destruct K as (p0 & <- & K). rewrite PX. unfold xs in Q2. rewrite Forall_forall in Q2. exact (Q2 p0 K).
    + constructor; [|constructor]. apply face_x_flat. exists M. cbn [fst snd]. split; [exact XR|]. constructor; [|constructor].
      apply Forall_forall. intros p I. apply in_map_iff in I. destruct I as (p0 & <- & I). rewrite PX. unfold xs in SR. rewrite Forall_forall in SR. rewrite (SR p0 I). apply Rplus_comm.
Qed.
End Roof.
