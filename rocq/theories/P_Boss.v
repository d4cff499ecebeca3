(** C84, C85: the screw holes of a boss and its outline at the wall. *)
From Coq Require Import Reals Lra Psatz ZArith List Bool Arith Lia.
From Verif Require Import Num Calc GeoModel EdgeModel GeoSpec GeoMat GeoRigid GeoCirc ArcModel ArcSpec ArcProof ArcCorner ArcShape MeshModel LayoutModel LayoutProof BossModel EdgeReal PartProof BossSpec BossProof.
From Verif Require Import P_Layout P_Solid P_Plan P_Palm.
Import ListNotations.
Open Scope R_scope.

(** C84: the hole for the screw head in the floor.  A clearance hole of the configured diameter and length, then a countersink that
    widens by as much as it gets deeper (45 degrees), then a straight hole to the underside; the countersink ends where the
    configured diameter or the underside is reached *)
Theorem C84_head_hole : forall q (c : @boss_cfg Rnum) (pos dir : pt) wall roof b, newBoss q c pos dir wall roof = Ok b -> 2 * eps <= clearanceHoleDiameter c ->
  let cr := clearanceHoleDiameter c / 2 in let cl := clearanceHoleLength c in let sr := countersinkDiameter c / 2 in let oh := floorOuterHeight c in
  exists n (s l : R), s - cr = l - cl /\ s <= sr /\ l <= oh /\ (s = sr \/ l = oh) /\ (cr <= sr -> cl <= oh -> cr <= s /\ cl <= l) /\
    clearanceHole b = rev (ring n pos cr 0) /\ headHole b = ring n pos s (- oh) /\
    bHead b = meshes [Strip (ring n pos cr 0) (ring n pos cr (- cl)) true; Strip (ring n pos cr (- cl)) (ring n pos s (- l)) true;
                      Strip (ring n pos s (- l)) (ring n pos s (- oh)) true].
Proof.
  intros q c pos dir wall roof b H HD cr cl sr oh. unfold newBoss in H. apply bind_ok in H. destruct H as (w & _ & H). apply bind_ok in H. destruct H as (h & EH & H).
  apply bind_ok in H. destruct H as (tip & _ & H). apply bind_ok in H. destruct H as (t & _ & H).
  destruct (head_form q c pos h) as (n & EA); [fold cr; unfold cr; lra|exact EH|]. fold cr cl sr oh in EA. set (s := Rmin sr _) in EA. set (l := Rmin oh _) in EA. subst h. destruct t as (((t0 & t1) & t2) & t3). apply Ok_inj in H. subst b.
  exists n, s, l. cbn [clearanceHole headHole bHead headMesh].
  assert (E : (s = sr /\ l = cl + (sr - cr) /\ l <= oh) \/ (s = cr + (oh - cl) /\ l = oh /\ s <= sr)).
  { unfold s, l. destruct (Rle_dec (cl + (sr - cr)) oh); [left|right]; [rewrite Rmin_left, Rmin_right by lra; lra|rewrite Rmin_right, Rmin_left by lra; lra]. }
  clearbody s l. split; [lra|]. split; [lra|]. split; [lra|]. split; [lra|]. split; [lra|]. split; [reflexivity|]. split; reflexivity.
Qed.
(** C84: the thread hole in the body has the outline of an upright hole (C58) that is turned so that its top points along the print
    direction; it is widened at the mouth by the chamfer *)
Theorem C84_thread_hole : forall q (c : @boss_cfg Rnum) (pos dir : pt) wall roof b, newBoss q c pos dir wall roof = Ok b -> level dir -> threadDiameter c <> 0 ->
  let r := threadDiameter c / 2 in
  exists hole a2 tip, uprightHole2D q (match b_support c with Some (_, t) => Some t | None => None end) (r : R) = Ok hole /\
    let a0 := map (drawn_along dir pos ((r + threadChamfer c / 2) / r) 0) hole in
    let a1 := map (drawn_along dir pos 1 (threadChamfer c)) hole in
    threadHole b = a0 /\ bThread b = meshes [Strip a1 a0 true; Strip a2 a1 true; Strip [tip] a2 true].
Proof.
  intros q c pos dir wall roof b H LD NR r. unfold newBoss in H. apply bind_ok in H. destruct H as (w & _ & H). apply bind_ok in H. destruct H as (h & _ & H).
  apply bind_ok in H. destruct H as (tip & _ & H). apply bind_ok in H. destruct H as (t & ET & H). destruct h as (((h0 & h1) & h2) & h3). destruct t as (((t0 & t1) & t2) & t3). apply Ok_inj in H. subst b.
  destruct (thread_form q c pos dir tip t0 t1 t2 t3 LD NR ET) as (hole & EH & E0 & E1). exists hole, t2, (ppos tip). fold r in EH, E0, E1. split; [exact EH|]. cbv zeta. rewrite <- E0, <- E1. split; [reflexivity|].
  cbn [bThread threadMesh]. unfold threadArcs in ET. cbv zeta in ET. do 2 (apply bind_ok in ET; destruct ET as (? & _ & ET)). apply bind_ok in ET; destruct ET as (? & _ & ET). apply Ok_inj in ET. apply pair_inj in ET. destruct ET as [_ ET]. rewrite <- ET. reflexivity.
Qed.

(** C85: the outline of a boss at the inner side of the wall.  In a drawing whose x axis runs along the wall and whose origin is the
    axis of the boss, the outline consists of points of the boss circle and of fillets that touch the wall line; circle and fillet
    are joined by their common tangent, at an angle between 0 and 89 degrees that respects the overhang limit.  No point of the outline
    is closer to the axis than the radius of the boss. *)
Theorem C85_boss_outline : forall q (c : @boss_cfg Rnum) (pos dir wall : pt) roof b, newBoss q c pos dir (Some wall) roof = Ok b ->
  let r := bossDiameter c / 2 in let f := innerWallFillet c in let w := b_wallThickness c - outerWallMargin c - r in
  b_wallThickness c / 10 <= bossDiameter c + outerWallMargin c - b_wallThickness c -> eps <= r -> f = 0 \/ eps <= f -> level wall ->
  exists (a1 t1 a2 t2 : R) (l : list pt), wallEdge b = map (drawn_on wall pos) l /\
    tangent_joins r f w a1 t1 /\ tangent_joins r f w a2 t2 /\ 0 <= a1 <= 89 * (PI / 180) /\ 0 <= a2 <= 89 * (PI / 180) /\
    (forall p, In p l -> flank_point r f w a1 t1 p \/ flank_point r f w a2 t2 (mirrored p)) /\
    (forall overhang hole, b_support c = Some (overhang, hole) ->
       (X wall < 0 -> Rmin (overhang - Ratan2 (- Y wall) (- X wall)) (89 * (PI / 180)) <= a1) /\
       (0 <= X wall -> Rmin (overhang + Ratan2 (Y wall) (X wall)) (89 * (PI / 180)) <= a2)) /\
    (forall p, In p (wallEdge b) -> r * r <= sqdist2 p pos /\ Z p = Z pos).
Proof.
  intros q c pos dir wall roof b H r f w HW HR HF LW. pose proof eps_pos as EP. pose proof PI_RGT_0 as PP. assert (F0 : 0 <= f) by lra.
  unfold newBoss in H. apply bind_ok in H. destruct H as (we & EW & H). apply bind_ok in H. destruct H as (h & _ & H).
  apply bind_ok in H. destruct H as (tip & _ & H). apply bind_ok in H. destruct H as (t & _ & H). destruct h as (((h0 & h1) & h2) & h3). destruct t as (((t0 & t1') & t2') & t3). apply Ok_inj in H. subst b. cbn [wallEdge].
  unfold bossWall in EW. cbv zeta in EW. match type of EW with (if ?b then _ else _) = _ => destruct b eqn:CW end.
  { exfalso. change (Rltb (bossDiameter c / 2 * 2 + outerWallMargin c - b_wallThickness c) (b_wallThickness c / 10) = true) in CW. apply Rltb_true in CW. lra. }
  clear CW. set (pr := nsub (nadd (nmul (ndiv (bossDiameter c) (nZ 2)) (nZ 2)) (outerWallMargin c)) (b_wallThickness c)) in EW.
  assert (EP' : r - pr = w). { unfold r, pr, w. change (bossDiameter c / 2 - (bossDiameter c / 2 * 2 + outerWallMargin c - b_wallThickness c) = b_wallThickness c - outerWallMargin c - bossDiameter c / 2). field. }
  destruct (match b_support c with Some (o, _) => _ | None => _ end) as [tr tl] eqn:ES.
  apply bind_ok in EW. destruct EW as (lr & ER & EW). apply bind_ok in EW. destruct EW as (ll & EL & EW). apply Ok_inj in EW.
  destruct (flank_form q pr r f tr lr HR HF ER) as (a1 & t1 & A1 & J1 & P1). destruct (flank_form q pr r f tl ll HR HF EL) as (a2 & t2 & A2 & J2 & P2). rewrite EP' in J1, P1, J2, P2.
  set (col := collapsed (lr ++ rev (emirX ll)) b_microns) in EW. assert (PC : forall p, In p col -> flank_point r f w a1 t1 p \/ flank_point r f w a2 t2 (mirrored p)).
  { intros p IP. apply collapsed_in in IP. apply in_app_or in IP. destruct IP as [IP|IP]; [left; exact (P1 p IP)|right].
    apply in_rev in IP. unfold emirX in IP. apply in_map_iff in IP. destruct IP as (x & <- & IX). replace (mirrored (vmirX x)) with x; [exact (P2 x IX)|]. apply pt_ext; [change (X x = - - X x); ring|reflexivity|reflexivity]. }
  clearbody col. destruct (angle_cs wall LW) as [CA SA].
  assert (ZC : forall p, In p col -> Z p = 0). { intros p IP. destruct (PC p IP) as [[(s & _ & E)|(s & _ & E)]|[(s & _ & E)|(s & _ & E)]]; apply (f_equal Z) in E; exact E. }
  assert (EWE : we = map (drawn_on wall pos) col).
  { rewrite <- EW. unfold etransformed. apply map_ext_in. intros p IP. rewrite app_tra; [|apply affine_rot; [apply affine_mid|aff]]. rewrite turned_pt, CA, SA. unfold drawn_on. specialize (ZC p IP).
    set (u := ux wall). set (v := uy wall). clearbody u v. destruct p as [p1 p2 p3], pos as [o1 o2 o3]. apply pt_ext; unfold plus, X, Y, Z, P in *; cbn in *; rn; cbn; [ring|ring|rewrite ZC; ring]. }
  assert (M0 : forall t, 0 <= Rmin (Rmax 0 t) (89 * (PI / 180))) by (intros; apply Rmin_glb; [apply Rmax_l|lra]). pose proof (M0 tr). pose proof (M0 tl).
  assert (UU : ux wall * ux wall + uy wall * uy wall = 1). { rewrite <- CA, <- SA. pose proof (sin2_cos2 (vangle2D wall)) as Q. unfold Rsqr in Q. lra. }
  exists a1, t1, a2, t2, col. split; [exact EWE|]. split; [exact J1|]. split; [exact J2|]. split; [lra|]. split; [lra|]. split; [exact PC|]. split.
  - intros oh hole EO. rewrite EO in ES. assert (MM : forall t m, Rmin t m <= Rmin (Rmax 0 t) m) by (intros t m; apply Rle_min_compat_r, Rmax_r).
    destruct (nltb _ _) eqn:CX; apply pair_inj in ES; destruct ES as [E1 E2].
    + change (Rltb (X wall) 0 = true) in CX. apply Rltb_true in CX. split; [intros _|lra]. eapply Rle_trans; [|exact (proj1 A1)]. rewrite <- E1. apply MM.
    + change (Rltb (X wall) 0 = false) in CX. apply Rltb_false in CX. split; [lra|intros _]. eapply Rle_trans; [|exact (proj1 A2)]. rewrite <- E2. apply MM.
  - intros p IP. rewrite EWE in IP. apply in_map_iff in IP. destruct IP as (x & <- & IX). split; [|reflexivity].
    assert (OUT : r * r <= X x * X x + Y x * Y x).
    { destruct (PC x IX) as [Q|Q]; [exact (flank_out r f w a1 t1 x ltac:(lra) F0 J1 Q)|]. pose proof (flank_out r f w a2 t2 _ ltac:(lra) F0 J2 Q) as Q2. change (X (mirrored x)) with (- X x) in Q2. change (Y (mirrored x)) with (Y x) in Q2. lra. }
    eapply Rle_trans; [exact OUT|right]. set (u := ux wall) in *. set (v := uy wall) in *. transitivity ((X x * X x + Y x * Y x) * (u * u + v * v)); [rewrite UU; ring|].
    unfold sqdist2, Rsqr, drawn_on. fold u v. clearbody u v. destruct pos as [o1 o2 o3], x as [x1 x2 x3]. unfold X, Y, P. cbn. rn. ring.
Qed.
(* otherwise the boss does not reach out of the wall and has no outline of its own *)
Theorem C85_flush_boss : forall q (c : @boss_cfg Rnum) (pos dir : pt) wall roof b, newBoss q c pos dir wall roof = Ok b ->
  wall = None \/ bossDiameter c + outerWallMargin c - b_wallThickness c < b_wallThickness c / 10 -> wallEdge b = [].
Proof.
  intros q c pos dir wall roof b H HW. unfold newBoss in H. apply bind_ok in H. destruct H as (we & EW & H). apply bind_ok in H. destruct H as (h & _ & H).
  apply bind_ok in H. destruct H as (tip & _ & H). apply bind_ok in H. destruct H as (t & _ & H). destruct h as (((h0 & h1) & h2) & h3). destruct t as (((t0 & t1) & t2) & t3). apply Ok_inj in H. subst b. cbn [wallEdge].
  unfold bossWall in EW. destruct wall as [wl|]; [|apply Ok_inj in EW; symmetry; exact EW]. destruct HW as [HW|HW]; [discriminate|]. cbv zeta in EW. match type of EW with (if ?b then _ else _) = _ => destruct b eqn:CW end; [apply Ok_inj in EW; symmetry; exact EW|].
  exfalso. change (Rltb (bossDiameter c / 2 * 2 + outerWallMargin c - b_wallThickness c) (b_wallThickness c / 10) = false) in CW. apply Rltb_false in CW. lra.
Qed.

(* a boss of the default size in a wall that runs to the left, under a sloped roof *)
Open Scope Z_scope.
Example C84_C85_nonvacuous : match newBoss (@mkQuality Calc (dq 1 100) (P_Plan.deg 30 1)) boss_default vzero (@V Calc (dq 1 1) 0 0) (Some (@V Calc (dq (-1) 1) (dq 1 10) 0)) (Some (mkPlane (@V Calc 0 0 (dq 12 1)) (@V Calc 0 (dq 6 10) (dq 8 10)))) with
  | Ok b => (20 <? length (wallEdge b))%nat && (12 <? length (headHole b))%nat && (12 <? length (threadHole b))%nat | Err _ => false end = true.
Proof. vm_cast_no_check (eq_refl true). Qed.
