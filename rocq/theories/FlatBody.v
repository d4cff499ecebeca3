(** The faces of the encoder, of the split and of the ground lie in planes. *)
From Coq Require Import Reals Lra Psatz ZArith List Bool Lia Arith.
From Verif Require Import Num GeoModel GeoSpec GeoMat GeoRigid GeoPlane GeoIso GeoTri GeoCirc EdgeModel ArcModel ArcSpec ArcProof ArcShape MeshModel KeyModel LayoutModel LayoutProof BossModel PlanModel BracketModel BumperModel BodyModel PartProof PlanMove EdgeReal BossProof PlanSpec BodyFlat BodyReal BodyMade PlanTent CableProof EncProof PalmProof BrSpec FlatSpec FlatProof FlatRoof FlatPlates FlatEdges.
From Verif Require Import P_Geo P_Encoder.
Import ListNotations.
Open Scope R_scope.

Lemma iso_rise (g : pt -> pt) (pos n : pt) : isometry g -> unit_vec n -> g origin = pos -> g (P 0 0 1) = plus pos n -> forall p, inner (minus (g p) pos) n = Z p.
Proof.
  intros I U G0 G1 p. pose proof (I p origin) as A. pose proof (I p (P 0 0 1)) as B. rewrite G0 in A. rewrite G1 in B. unfold unit_vec in U.
  destruct (g p) as [v1 v2 v3], pos as [a1 a2 a3], n as [n1 n2 n3], p as [p1 p2 p3]. unfold sqdist, inner, plus, minus, origin, X, Y, Z, P, Rsqr in *. cbn [vx vy vz] in *. rn. cbn in *.
  nra.
Qed.
Lemma seat_normal (n a b : pt) : unit_vec n -> X n = 0 -> (Y b - Y a) * Y n + (Z b - Z a) * Z n = 0 -> 0 < Z n -> ridge_seat a b -> n = P 0 0 1 \/ ~ within_tol (P 0 0 1) n.
Proof.
  intros U N0 H ZP (S1 & S2). unfold unit_vec in U. set (dy := Y b - Y a) in *. set (dz := Z b - Z a) in *.
  assert (U' : Y n * Y n + Z n * Z n = 1) by (unfold inner in U; rewrite N0 in U; lra).
  assert (DY : dy <> 0) by (intros E; rewrite E in S1; lra).
  destruct S2 as [S2|S2].
  - left. assert (dz = 0) by (unfold dz; lra). assert (Y n = 0) by nra. assert (Z n = 1) by nra. apply pt_ext; [exact N0|change (Y n = 0); assumption|change (Z n = 1); assumption].
  - right. intros (_ & W & _). change (Rabs (0 - Y n) < eps) in W. pose proof eps_pos as EP. 
    assert (W2 : Y n * Y n < eps * eps). { replace (Y n * Y n) with (Rabs (0 - Y n) * Rabs (0 - Y n)); [pose proof (Rabs_pos (0 - Y n)); nra|]. rewrite <- Rabs_mult. rewrite Rabs_right; [ring|nra]. }
    assert (L : dz * dz = (dy * dy + dz * dz) * (Y n * Y n)).
    { assert (E0 : dz * Z n = - (dy * Y n)) by lra. assert (E2 : dz * dz * (Z n * Z n) = dy * dy * (Y n * Y n)) by (transitivity ((dz * Z n) * (dz * Z n)); [ring|rewrite E0; ring]). replace (Z n * Z n) with (1 - Y n * Y n) in E2 by lra. lra. }
    assert (0 < dy * dy + dz * dz) by nra. nra.
Qed.

Section Encoder.
Variable q : @quality Rnum.
Variable taper : option R.
Variable c : @body_cfg Rnum.
Hypothesis HA : 0 < maxChordAngle q.
Hypothesis HH : 0 < maxChordHeight q.
Hypothesis HT : match taper with Some al => al < PI | None => True end.

Lemma pair_flat (a b : pt) : coplanar [vyz a; a; b; vyz b].
Proof.
  apply (coplanar_beside a b).
  - constructor; [exact (beside_start a b)|]. constructor; [apply beside_start|]. constructor; [apply beside_end|]. constructor; [exact (beside_end a b)|constructor].
  - intros E _. apply (coplanar_y (Y a)). constructor; [reflexivity|]. constructor; [reflexivity|]. constructor; [symmetry; exact E|]. constructor; [symmetry; exact E|constructor].
Qed.
(* a plane through a, b and the point of the split beside a *)
Lemma side_plane (a b : pt) pl : planePoints a b (vyz a) = Ok pl ->
  wf_plane pl /\ X (pnormal pl) = 0 /\ X a <> 0 /\ on_plane pl a /\ on_plane pl b /\ on_plane pl (vyz a) /\ (forall v, on_plane pl v -> on_plane pl (vyz v)) /\
  (0 < X a * (Y b - Y a) -> 0 < Z (pnormal pl)) /\ (Y b - Y a) * Y (pnormal pl) + (Z b - Z a) * Z (pnormal pl) = 0.
Proof.
  intros E. pose proof E as E'. unfold planePoints in E'. destruct (newPlane_ok _ _ _ E') as (W & PO & NO & NZ).
  destruct C23_constructors as (_ & _ & PP & _). destruct (PP _ _ _ _ E) as (_ & I1 & I2 & I3). clear PP.
  set (nn := pnormal pl) in *.
  assert (X0 : X a <> 0). { intros E0. apply NZ. destruct a as [a1 a2 a3], b as [b1 b2 b3]. change (a1 = 0) in E0. subst a1. apply pt_ext; unfold vcross, vsub, vyz, origin, X, Y, Z, P; cbn [vx vy vz]; rn; ring. }
  assert (N0 : X nn = 0). { unfold on_plane in I1, I3. fold nn in I1, I3. assert (Q : X a * X nn = 0). { transitivity (inner (minus a (ppos pl)) nn - inner (minus (vyz a) (ppos pl)) nn); [|rewrite I1, I3; ring]. destruct a as [a1 a2 a3]. unfold inner, minus, vyz, X, Y, Z, P. cbn [vx vy vz]. rn. ring. }
    apply Rmult_integral in Q. tauto. }
  split; [exact W|]. split; [exact N0|]. split; [exact X0|]. split; [exact I1|]. split; [exact I2|]. split; [exact I3|]. split; [|split].
  - intros v. unfold on_plane. fold nn. intros <-. destruct v as [v1 v2 v3]. unfold inner. rewrite N0. unfold minus, vyz, X, Y, Z, P. cbn [vx vy vz]. rn. ring.
  - intros S. unfold dir_of in NO. assert (LP : 0 < len (vcross (vsub b a) (vsub (vyz a) a))) by (apply len_pos; exact NZ). rewrite NO.
    match goal with |- 0 < Z (scaled ?s ?v) => change (0 < s * Z v); assert (0 < s) by (apply Rinv_0_lt_compat; exact LP); replace (Z v) with (X a * (Y b - Y a)); [apply Rmult_lt_0_compat; assumption|] end.
    destruct a as [a1 a2 a3], b as [b1 b2 b3]. unfold vcross, vsub, vyz, X, Y, Z, P. cbn [vx vy vz]. rn. ring.
  - unfold on_plane in I1, I2. fold nn in I1, I2. transitivity (inner (minus b (ppos pl)) nn - inner (minus a (ppos pl)) nn - (X b - X a) * X nn); [unfold inner, minus, X, Y, Z, P; cbn [vx vy vz]; ring|]. rewrite I1, I2, N0. ring.
Qed.

Lemma encoder_faces p s m encF encB short : bodyEncoder q taper c p s = Ok (m, encF, encB, short) ->
  (forall ec, by_encoder c = Some ec -> encoder_size ec /\ ridge_seat (ridgeORF p) (stOLF s)) ->
  Forall flat_face (faces m).
Proof.
  intros H C. unfold bodyEncoder in H. cbv zeta in H. destruct (by_encoder c) as [ec|].
  - destruct (C ec eq_refl) as ((HR & HC) & SE). apply bind_ok in H. destruct H as (pI & EI & H). apply bind_ok in H. destruct H as (pO' & EO & H). apply bind_ok in H. destruct H as (pO & EP & H). apply bind_ok in H. destruct H as (e & EE & H).
    apply bind_ok in H. destruct H as (ins & _ & H). match type of H with (if ?b then _ else _) = _ => destruct b; [discriminate|] end. apply Ok_inj in H. do 3 (apply pair_inj in H; destruct H as [H _]). rewrite <- H.
    destruct (side_plane _ _ _ EI) as (WI & _ & _ & I1 & I2 & I3 & BI & _ & _). destruct (side_plane _ _ _ EO) as (WO' & N0 & X0 & O1 & O2 & O3 & BO & ZN & SL). specialize (ZN (proj1 SE)).
    destruct (newPlane_ok _ _ _ EP) as (WO & PO & NO & _). assert (NN : pnormal pO = pnormal pO') by (rewrite NO; exact (proj2 (dir_unit _ WO'))).
    pose proof (seat_normal _ _ _ WO' N0 SL ZN SE) as TOL.
    assert (SAME : forall v : pt, on_plane pO' v -> on_plane pO v).
    { intros v Hv. pose proof (BO _ O2) as Hb. unfold on_plane in *. set (nn := pnormal pO') in *. rewrite NN, PO. set (k := en_relPosition ec).
      transitivity (inner (minus v (ppos pO')) nn - ((1 - k) * inner (minus (vyz (ridgeORF p)) (ppos pO')) nn + k * inner (minus (vyz (stOLF s)) (ppos pO')) nn)); [|rewrite Hv, O3, Hb; ring].
      unfold k, inner, minus, vadd, vscale, vyz, X, Y, Z, P. cbn [vx vy vz]. rn. ring. }
    rewrite <- NN in N0, ZN, TOL. destruct (encoder_form q taper ec pO pI HA HH HR HT HC WO ZN TOL e EE) as (g & hT & hC & hG & zs & G1 & _ & G3 & G4 & F1 & _ & _ & F4 & _ & _ & _ & _ & D).
    cbv zeta in D. destruct D as (D1 & D2 & D3 & D4 & D5). pose proof (iso_rise g (ppos pO) (pnormal pO) G1 WO G3 G4) as RI.
    cbn [meshes faces app]. rewrite D5. cbn [meshes faces app]. constructor; [|constructor; [|constructor; [|constructor]]]; unfold flat_face; cbn [fst snd concat]; rewrite app_nil_r.
    + apply (coplanar_rise pO (- en_holeHeight ec)); [exact WO|]. assert (R1 : forall l : list pt, FlatProof.zs (- en_holeHeight ec) l -> Forall (fun v => PlanSpec.rise pO v = - en_holeHeight ec) (map g l)).
      { intros l K. apply Forall_map. eapply Forall_impl; [|exact K]. intros v E. cbv beta in E |- *. rewrite <- E. exact (RI v). }
      apply Forall_app. split; [|apply Forall_rev]; apply R1; [repeat (constructor; [reflexivity|]); constructor|]. eapply Forall_impl; [|exact F4]. cbv beta. tauto.
    + apply (coplanar_on pI _ WI). constructor; [apply BI; exact I2|]. constructor; [exact I2|]. constructor; [exact I1|]. constructor; [exact I3|]. rewrite D3. apply Forall_rev, all_collapsed. rewrite D2. apply Forall_map. exact D1.
    + apply (coplanar_on pO _ WO). constructor; [apply SAME; exact O3|]. constructor; [apply SAME; exact O1|]. constructor; [apply SAME; exact O2|]. constructor; [apply SAME, BO; exact O2|]. rewrite D4. apply Forall_map. eapply Forall_impl; [|exact F1]. intros v (Zv & _). unfold on_plane. rewrite RI. exact Zv.
  - apply Ok_inj in H. do 3 (apply pair_inj in H; destruct H as [H _]). rewrite <- H. cbn [meshes faces app]. constructor; [|constructor; [|constructor]]; unfold flat_face; cbn [fst snd concat]; rewrite app_nil_r; apply pair_flat.
Qed.
End Encoder.
Section Ridge.
Variable q : @quality Rnum.
Variable taper : option R.
Variable pmod : R -> R -> R.
Variable pasin : R -> res R.
Variable c : @body_cfg Rnum.
Hypothesis HA : 0 < maxChordAngle q.
Hypothesis HH : 0 < maxChordHeight q.
Hypothesis HT : match taper with Some al => al < PI | None => True end.
Hypothesis HB : forall bc, by_bracket c = Some bc -> eps <= br_cornerRadius bc /\ (forall cc, by_cable c = Some cc -> cable_size cc).

Lemma face_0 (l : list pt) (hs : list (list pt)) : Forall flats hs -> flat_face (collapsed (eyz l) (@ndiv Rnum (nZ 1) (nZ 1000)), hs).
Proof. intros H. apply (in_face_x 0); [apply all_collapsed; unfold eyz; apply Forall_map, Forall_forall; intros v _; reflexivity|exact H]. Qed.
Lemma face_y (l : list pt) m : ys m l -> flat_face (l, []).
Proof. intros H. unfold flat_face. cbn [fst snd concat]. rewrite app_nil_r. exact (coplanar_y m l H). Qed.

Lemma ridge_faces p y s st g k ef eb r : bodyRidge q taper pmod pasin c p y s st g k ef eb = Ok r ->
  Y (alnumOLBC k) = Y (alnumOLBp p) -> Y (alnumILBC k) = Y (alnumILBp p) ->
  (forall ref, In ref (pinky y SideBoth) -> exists pl, place_plane pl (kmatrix ref)) ->
  (forall b, rgBracketB r = Some b -> by_cable c = None \/ beside (alnumILBT k) (stILF st) (last (cbRoof b) vzero)) ->
  Forall flat_face (faces (rgMesh r)).
Proof.
  intros H YO YI HP HL. unfold bodyRidge in H. cbv zeta in H.
  apply bind_ok in H. destruct H as (og0 & _ & H). apply bind_ok in H. destruct H as (oc0 & _ & H). apply bind_ok in H. destruct H as (ot0 & _ & H). apply bind_ok in H. destruct H as (ig1 & _ & H). apply bind_ok in H. destruct H as (ic1 & _ & H). apply bind_ok in H. destruct H as (it1 & _ & H).
  assert (YOB : ys (Y (alnumOLBp p)) [vyz (alnumOLBC k); alnumOLBC k; vxy (alnumOLBp p); vyz (vxy (alnumOLBp p))]) by (repeat (constructor; [first [exact YO|reflexivity]|]); constructor).
  assert (YIB : ys (Y (alnumILBp p)) [vyz (vxy (alnumILBp p)); vxy (alnumILBp p); alnumILBC k]) by (repeat (constructor; [first [exact YI|reflexivity]|]); constructor).
  assert (BIT : Forall (beside (alnumILBT k) (stILF st)) [alnumILBT k; stILF st; vyz (stILF st)]) by (constructor; [apply beside_start|]; constructor; [apply beside_end|]; constructor; [exact (beside_end (alnumILBT k) (stILF st))|constructor]).
  destruct (by_bracket c) as [bc|] eqn:EBC.
  - destruct (HB bc eq_refl) as (HR & HCB).
    apply bind_ok in H. destruct H as (bF & EF & H). apply bind_ok in H. destruct H as (bB & EB & H). apply bind_ok in H. destruct H as (ref & ER & H). apply bind_ok in H. destruct H as (bT & ET & H).
    apply bind_ok in H. destruct H as (tl & _ & H). apply bind_ok in H. destruct H as (my & _ & H). apply bind_ok in H. destruct H as (ds & _ & H). apply bind_ok in H. destruct H as (gap & _ & H). apply bind_ok in H. destruct H as (mz & _ & H).
    match type of H with (if ?x then _ else _) = _ => destruct x; [discriminate|] end. apply bind_ok in H. destruct H as (wl & _ & H). apply bind_ok in H. destruct H as (mzB & _ & H). match type of H with (if ?x then _ else _) = _ => destruct x; [discriminate|] end.
    apply bind_ok in H. destruct H as (w0 & EW0 & H). apply bind_ok in H. destruct H as (rf0 & _ & H). apply bind_ok in H. destruct H as (((((spc & wB) & wF) & cm) & op) & EC & H). apply Ok_inj in H. rewrite <- H in HL |- *. cbn [rgBracketB rgMesh] in HL |- *. clear H. specialize (HL bB eq_refl).
    destruct (corner_faces _ _ _ _ _ _ _ _ _ _ _ EF) as (FHF & FMF). destruct (corner_faces _ _ _ _ _ _ _ _ _ _ _ EB) as (FHB & FMB). destruct (corner_edges _ _ _ _ _ _ _ _ _ _ _ EB) as (E1 & E2 & E3 & E4). specialize (E3 HL).
    assert (PM : match by_mount c with Some _ => exists pl, place_plane pl (kmatrix ref) | None => True end) by (destruct (by_mount c); [apply HP; exact (pyidx_in _ _ _ ER)|exact I]).
    destruct (roof_faces q taper pmod bc HA HH HR _ _ _ _ _ _ PM ET) as (FHT & FMT & FRT).
    assert (W0 : hd vzero (cbWall bB) = w0) by (apply hd_is; exact EW0). rewrite W0 in E2.
    assert (YW0 : Y w0 = Y (alnumILBp p)) by (rewrite <- YI; pose proof (pyidx_in _ _ _ EW0) as IW; unfold ys in E1; rewrite Forall_forall in E1; exact (E1 w0 IW)).
    assert (CB : ys (Y (alnumOLBp p)) wB /\ ys (Y (alnumILBp p)) wF /\ Forall flat_face (faces (meshes cm))).
    { destruct (by_cable c) as [cc|].
      - destruct (HCB cc eq_refl) as (K1 & K2 & K3 & K4 & K5 & K6). apply bind_ok in EC. destruct EC as (cab & ECAB & EC). apply bind_ok in EC. destruct EC as (g1 & _ & EC). apply bind_ok in EC. destruct EC as (g0 & _ & EC). match type of EC with (if ?x then _ else _) = _ => destruct x; [discriminate|] end.
        apply Ok_inj in EC. apply pair_inj in EC. destruct EC as [EC _]. apply pair_inj in EC. destruct EC as [EC QM]. apply pair_inj in EC. destruct EC as [EC QF]. apply pair_inj in EC. destruct EC as [_ QB]. rewrite <- QM, <- QF, <- QB.
        destruct (cable_planes q taper bc cc HA HH K1 K2 K3 K4 K5 HT K6 w0 _ cab ECAB) as (P1 & P2 & P3 & P4). split; [|split].
        + unfold ys in *. eapply Forall_impl; [|exact P3]. intros v E. cbv beta in E. rewrite E, YW0. change (Y (alnumILBp p) + (Y (alnumOLBp p) - Y (alnumILBp p)) = Y (alnumOLBp p)). ring.
        + rewrite <- YW0. exact P2.
        + cbn [meshes faces app]. rewrite P4. constructor; [|constructor]. apply (in_face_x 0); [|constructor]. constructor; [reflexivity|]. constructor; [reflexivity|]. apply Forall_forall. intros v I. rewrite (P1 v I). exact E2.
      - apply Ok_inj in EC. apply pair_inj in EC. destruct EC as [EC _]. apply pair_inj in EC. destruct EC as [EC QM]. apply pair_inj in EC. destruct EC as [EC QF]. apply pair_inj in EC. destruct EC as [_ QB]. rewrite <- QM, <- QF, <- QB. split; [constructor|]. split; [constructor|constructor]. }
    destruct CB as (CB1 & CB2 & CB3).
    apply all_meshes. apply Forall_app. split.
    + constructor; [|constructor; [|constructor; [|constructor; [|constructor; [|repeat (constructor; [constructor|]); constructor]]]]]; cbn [faces]; (constructor; [|constructor]).
      * apply face_0. exact FHF.
      * apply face_0. apply Forall_app. split; [exact FHB|constructor; [exact FHT|constructor]].
      * apply (face_y _ (Y (alnumOLBp p))). apply Forall_app. split; assumption.
      * unfold flat_face. cbn [fst snd concat]. rewrite app_nil_r. apply (coplanar_beside (alnumILBT k) (stILF st)); [|intros; tauto]. apply Forall_app. split; [exact BIT|]. apply Forall_app. split; [exact FRT|apply Forall_rev; exact E3].
      * apply (face_y _ (Y (alnumILBp p))). apply all_collapsed. apply Forall_app. split; [apply Forall_app; split; assumption|]. apply Forall_rev. rewrite <- YI. exact E1.
    + assert (UN : forall l, Forall flat_face (faces (meshes l)) -> Forall (fun m => Forall flat_face (faces m)) l).
      { intros l. induction l as [|m l IH]; [constructor|]. cbn [meshes faces]. intros Q. apply Forall_app in Q. destruct Q. constructor; auto. }
      apply Forall_app. split; [apply UN; exact CB3|]. constructor; [|constructor; [|constructor; [exact FMT|constructor]]]; (eapply Forall_impl; [|first [exact FMB|exact FMF]]); apply face_x_flat.
  - apply Ok_inj in H. rewrite <- H. cbn [rgMesh]. apply all_meshes. apply Forall_app. split; [|constructor].
    constructor; [|constructor; [|constructor; [|constructor; [|constructor; [|repeat (constructor; [constructor|]); constructor]]]]]; cbn [faces]; (constructor; [|constructor]).
    + apply face_0. constructor.
    + apply face_0. constructor.
    + apply (face_y _ (Y (alnumOLBp p))). exact YOB.
    + unfold flat_face. cbn [fst snd concat]. rewrite app_nil_r. apply (coplanar_beside (alnumILBT k) (stILF st)); [apply Forall_app; split; [exact BIT|constructor; [exact (beside_start (alnumILBT k) (stILF st))|constructor]]|].
      intros E _. apply (coplanar_y (Y (alnumILBT k))). constructor; [reflexivity|]. constructor; [symmetry; exact E|]. constructor; [symmetry; exact E|]. constructor; [reflexivity|constructor].
    + apply (face_y _ (Y (alnumILBp p))). apply all_collapsed. apply Forall_app. split; [exact YIB|]. constructor; [exact YI|constructor].
Qed.
End Ridge.

(* the ground *)
Lemma boss_levels (b : @boss Rnum) : made_boss b -> faces (bThread b) = [] /\ zs 0 (threadHole b).
Proof.
  intros (bq & bc & pos & d & wd & rp & H). unfold newBoss in H. apply bind_ok in H. destruct H as (w & _ & H). apply bind_ok in H. destruct H as (h & _ & H).
  apply bind_ok in H. destruct H as (tip & _ & H). apply bind_ok in H. destruct H as (t & ET & H). destruct h as (((h0 & h1) & h2) & h3). destruct t as (((t0 & t1) & t2) & t3). apply Ok_inj in H. subst b. cbn [bThread threadHole].
  split; [reflexivity|]. unfold threadArcs in ET. cbv zeta in ET. apply bind_ok in ET. destruct ET as (hole & EH & ET). apply bind_ok in ET. destruct ET as (k & _ & ET). apply bind_ok in ET. destruct ET as (a2 & _ & ET). apply Ok_inj in ET.
  do 3 (apply pair_inj in ET; destruct ET as [ET _]). rewrite <- ET. unfold etranslated, escaled, etransformed. rewrite !map_map. apply Forall_map, Forall_forall. intros p IP. assert (ZP : Z p = 0) by exact (upright_flat _ _ _ _ EH p IP).
  match goal with |- Z (vadd (vadd (vscale (vsub (transformed ?u _) _) ?s) _) _) = 0 => assert (Q : Z (transformed u (mrotZ mid (nsub (Num := Rnum) (vangle2D d) (ndiv (Num := Rnum) tau (nZ 4))) None)) = 0) end.
  { rewrite app_rotZ by apply affine_mid. rewrite app_id. unfold rotZ_pt. match goal with |- Z (let r := ?r in _) = 0 => idtac | _ => idtac end. destruct p as [p1 p2 p3]. change (p3 = 0) in ZP. subst p3. unfold vadd, vscale, vsub, vzero, Z, P. cbn [vx vy vz]. rn. ring. }
  match goal with |- Z (vadd (vadd (vscale (vsub ?v _) ?s) _) _) = 0 => change ((Z v - 0) * s + 0 + 0 = 0) end. rewrite Q. ring.
Qed.
Lemma ground_faces p g k r (bs : @bosses Rnum) : made_boss (bossAlnumB bs) -> made_boss (bossPinkyB bs) -> made_boss (bossPinkyF bs) -> made_boss (bossThumbF bs) ->
  Forall flat_face (faces (fst (@bodyWalls Rnum p g k r bs))).
Proof.
  intros M1 M2 M3 M4. destruct (boss_levels _ M1) as (F1 & Z1). destruct (boss_levels _ M2) as (F2 & Z2). destruct (boss_levels _ M3) as (F3 & Z3). destruct (boss_levels _ M4) as (F4 & Z4).
  unfold bodyWalls. cbv zeta. cbn [fst meshes faces app]. rewrite F1, F2, F3, F4. constructor; [|constructor]. unfold flat_face. cbn [fst snd concat]. apply (coplanar_z 0). apply zs_app.
  - apply Forall_rev, all_collapsed. unfold exy. apply Forall_map, Forall_forall. intros v _. reflexivity.
  - repeat (apply zs_app; [assumption|]). constructor.
Qed.
