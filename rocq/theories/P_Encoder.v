(** Property C89: the recess for the rotary encoder.  Read with GeoSpec.v and SwitchSpec.v (all3). *)
From Coq Require Import Reals Lra ZArith List Bool Arith Lia.
From Verif Require Import Num GeoModel EdgeModel EdgeSpec EdgeMesh GeoSpec GeoMat GeoRigid GeoTri GeoPlane GeoIso ArcModel ArcSpec ArcProof ArcShape MeshModel LayoutModel BossModel PlanModel BracketModel BumperModel BodyModel EdgeReal PartProof LayoutProof BossProof SwitchSpec SwitchProof CableProof EncProof P_Geo P_Arc.
Import ListNotations.
Open Scope R_scope.

Section One.
Variable fill : list pt -> list (list pt) -> res (list (@tri Rnum)).
Variable q : @quality Rnum.
Variable taper : option R.
Variable c : @encoder_cfg Rnum.
Variable pO pI : @plane Rnum.
Let r : R := en_holeDiameter c / 2.
Let h : R := en_holeHeight c.
Let ch : R := en_holeChamfer c.
Let w : R := en_width c / 2.
Let d : R := en_depth c / 2.
Let n : R := en_notchDepth c.
Hypothesis HA : 0 < maxChordAngle q.
Hypothesis HH : 0 < maxChordHeight q.
Hypothesis HR : eps <= r.
Hypothesis HT : match taper with Some al => al < PI | None => True end.
Hypothesis HC : 0 <= ch <= h.
Hypothesis HN : 0 <= n.
Hypothesis HW : 0 <= w.
Hypothesis HD : 0 <= d.
Hypothesis Un : unit_vec (pnormal pO).
Hypothesis Up : 0 < Z (pnormal pO).
Hypothesis Tol : pnormal pO = P 0 0 1 \/ ~ within_tol (P 0 0 1) (pnormal pO).

(* what an encoder is made of, in its own place *)
Definition hole_at (p : pt) : Prop := - h <= Z p <= 0 /\ 0 <= X p /\ r <= edist2 p origin.
Definition rim_at (p : pt) : Prop := Z p = 0 /\ 0 <= X p /\ r + ch <= edist2 p origin.
Definition box_xy : list (R * R) := [(0, d); (w, d); (w + n, d - n); (w + n, - (d - n)); (w, - d); (0, - d)].
Lemma encoder_form e : newEncoder q taper c pO pI = Ok e -> exists (g : pt -> pt) hT hC hG zs,
  isometry g /\ keeps_orientation g /\ g origin = ppos pO /\ g (P 0 0 1) = plus (ppos pO) (pnormal pO) /\
  Forall rim_at hT /\ Forall hole_at hT /\ Forall hole_at hC /\ Forall (fun p => hole_at p /\ Z p = - h) hG /\ length zs = 6%nat /\
  hT <> [] /\ hd origin hT = P 0 (r + ch) 0 /\ last hT origin = P 0 (- (r + ch)) 0 /\
  let low := map (fun s => P (fst (fst s)) (snd (fst s)) (snd s)) (combine box_xy zs) in
  let top := map (fun s => P (fst s) (snd s) (- h)) [(0, d); (w, d); (w, d); (w, - d); (w, - d); (0, - d)] in
  let face := map (fun s => P (fst s) (snd s) (- h)) [(0, d); (w, d); (w, - d); (0, - d)] in
  Forall (fun p => on_plane pI (g p)) low /\ enShort e = map g low /\ enRoofI e = rev (collapsed (enShort e) (1 / 1000)) /\ enRoofO e = map g hT /\
  enMesh e = meshes [Strip (map g hC) (map g hT) false; Strip (map g hG) (map g hC) false; Strip (map g low) (map g top) false; Fill (map g face ++ rev (map g hG)) []].
Proof.
  intros H. unfold newEncoder in H. cbv zeta in H. apply bind_ok in H. destruct H as (al & EA & H). apply bind_ok in H. destruct H as (hole & EH & H). apply bind_ok in H. destruct H as (k & EK & H).
  apply bind_ok in H. destruct H as (box & EB & H). apply bind_ok in H. destruct H as (sf & _ & H). apply bind_ok in H. destruct H as (sb & _ & H).
  pose proof eps_pos as EP. apply pdiv_ok in EK. destruct EK as [_ EK]. assert (EK' : k = ch / r) by exact EK. clear EK.
  destruct (place (pnormal pO) (ppos pO) Un Up Tol al EA) as (G1 & G2 & G3 & G4).
  set (A := mtranslated al (ppos pO)) in *. clearbody A. clear EA.
  set (g := fun p : pt => transformed p A) in *.
  change (@uprightHalfHole2D Rnum q taper r = Ok hole) in EH.
  pose proof (half_hole_out q taper r hole HR HT EH) as OUT. destruct (half_hole_ends q HA HH taper r hole HR HT EH) as (NE & E1 & E2).
  set (sw := fun p : pt => P (Y p) (X p) 0).
  assert (SW : forall p, In p hole -> 0 <= X (sw p) <= r /\ r <= edist2 (sw p) origin).
  { intros p Hp. destruct (OUT p Hp) as (Zp & Yp & Dp). split; [exact Yp|]. replace (edist2 (sw p) origin) with (edist2 p origin); [exact Dp|]. unfold edist2. f_equal. unfold sqdist2, sw, X, Y, origin, P. cbn [vx vy]. ring. }
  exists g, (map (fun p => scaled (1 + ch / r) (sw p)) hole), (map (fun p => plus (sw p) (P 0 0 (- ch))) hole), (map (fun p => plus (sw p) (P 0 0 (- h))) hole).

  assert (BOX : forall (x y : R) (v : pt), (l <- newLine (g (P x y (- h))) (pnormal pO) ;; pintersectLine pI l) = Ok v -> exists z, v = g (P x y z) /\ on_plane pI v).
  { intros x y v E. apply bind_ok in E. destruct E as (l & EL & E). apply pintersectLine_sound in E. destruct E as (OP & (t & OL)). apply newLine_ok in EL. destruct EL as (_ & EL1 & EL2 & _). rewrite EL1, EL2 in OL.
    exists (- h + t). split; [|exact OP]. unfold g in *. rewrite rise. cbv beta in G3, G4. rewrite G3, G4, OL.
    pose proof (proj2 (dir_unit _ Un)) as DU. unfold dir_of in DU. rewrite DU. f_equal. f_equal. assert (MP : forall a b : pt, b = minus (plus a b) a) by (intros [a1 a2 a3] [b1 b2 b3]; apply pt_ext; unfold minus, plus, X, Y, Z, P; cbn [vx vy vz]; rn; ring). apply MP. }
  assert (BX : forall (xy : list (R * R)) b, mapM (fun p : pt => l <- newLine p (pnormal pO) ;; pintersectLine pI l) (map (fun s => g (P (fst s) (snd s) (- h))) xy) = Ok b ->
    exists zs, length zs = length xy /\ b = map g (map (fun s => P (fst (fst s)) (snd (fst s)) (snd s)) (combine xy zs)) /\ Forall (fun p => on_plane pI (g p)) (map (fun s => P (fst (fst s)) (snd (fst s)) (snd s)) (combine xy zs))).
  { intros xy. induction xy as [|[x y] xy IH]; intros b E; apply mapM_ok in E; cbn [map] in E; inversion E as [|? v ? vs A1 A2 A3 A4]; subst.
    - exists []. split; [reflexivity|]. split; [reflexivity|apply Forall_nil].
    - apply mapM_ok in A2. destruct (IH vs A2) as (zs & L & -> & F). cbn [fst snd] in A1. destruct (BOX x y v A1) as (z & -> & OP). exists (z :: zs). split; [cbn [length]; f_equal; exact L|]. split; [reflexivity|]. cbn [combine map fst snd]. apply Forall_cons; assumption. }
  destruct (BX box_xy box EB) as (zs & LZ & EBX & FP). clear EB BX BOX.
  exists zs. split; [exact G1|]. split; [exact G2|]. split; [exact G3|]. split; [exact G4|].
  assert (RR : 1 <= 1 + ch / r). { assert (0 <= ch / r) by (apply Rmult_le_pos; [lra|left; apply Rinv_0_lt_compat; lra]). lra. }
  assert (RC : (1 + ch / r) * r = r + ch) by (field; lra).
  assert (SC : forall p, In p hole -> edist2 (scaled (1 + ch / r) (sw p)) origin = (1 + ch / r) * edist2 (sw p) origin).
  { intros p _. unfold edist2. rewrite <- (sqrt_square (1 + ch / r)) at 2 by lra. rewrite <- sqrt_mult by (try nra; unfold sqdist2; pose proof (Rle_0_sqr (X (sw p) - X origin)); pose proof (Rle_0_sqr (Y (sw p) - Y origin)); lra).
    f_equal. unfold sqdist2, scaled, X, Y, origin, P, Rsqr. cbn [vx vy]. ring. }
  assert (SD : forall (p : pt) z, edist2 (plus (sw p) (P 0 0 z)) origin = edist2 (sw p) origin).
  { intros p z. unfold edist2. f_equal. unfold sqdist2, plus, X, Y, origin, P, Rsqr. cbn [vx vy]. ring. }
  split; [|split; [|split; [|split; [|split; [exact LZ|]]]]].
  - apply Forall_map, Forall_forall. intros p Hp. destruct (SW p Hp) as (S1 & S2). unfold rim_at. rewrite (SC p Hp). split; [unfold scaled, sw, Z, P; cbn [vz]; ring|]. split; [change (0 <= (1 + ch / r) * X (sw p)); apply Rmult_le_pos; lra|]. rewrite <- RC. apply Rmult_le_compat_l; lra.
  - apply Forall_map, Forall_forall. intros p Hp. destruct (SW p Hp) as (S1 & S2). unfold hole_at. rewrite (SC p Hp). split; [unfold scaled, sw, Z, P; cbn [vz]; lra|]. split; [change (0 <= (1 + ch / r) * X (sw p)); apply Rmult_le_pos; lra|]. apply Rle_trans with ((1 + ch / r) * r); [rewrite RC; lra|]. apply Rmult_le_compat_l; lra.
  - apply Forall_map, Forall_forall. intros p Hp. destruct (SW p Hp) as (S1 & S2). unfold hole_at. rewrite SD. split; [unfold plus, sw, Z, P; cbn [vz]; lra|]. split; [change (0 <= X (sw p) + 0); lra|exact S2].
  - apply Forall_map, Forall_forall. intros p Hp. destruct (SW p Hp) as (S1 & S2). unfold hole_at. rewrite SD. split; [|unfold plus, sw, Z, P; cbn [vz]; lra]. split; [unfold plus, sw, Z, P; cbn [vz]; lra|]. split; [change (0 <= X (sw p) + 0); lra|exact S2].
  - split; [apply map_some; exact NE|]. split; [|split].
    + transitivity (scaled (1 + ch / r) (sw (hd vzero hole))); [exact (hd_map (fun p : pt => scaled (1 + ch / r) (sw p)) hole vzero origin NE)|]. rewrite E1. apply pt_ext; unfold scaled, sw, X, Y, Z, P; cbn [vx vy vz]; try ring. exact RC.
    + transitivity (scaled (1 + ch / r) (sw (last hole vzero))); [exact (last_map (fun p : pt => scaled (1 + ch / r) (sw p)) hole vzero origin NE)|]. rewrite E2. apply pt_ext; unfold scaled, sw, X, Y, Z, P; cbn [vx vy vz]; try ring. rewrite <- RC. ring.
    + cbv zeta. split; [exact FP|]. apply Ok_inj in H. subst e. cbn [enShort enRoofI enRoofO enMesh].
      assert (M1 : forall z : R, etransformed (etranslated (map (fun p : pt => V (vy p) (vx p) (nZ 0)) hole) (V (nZ 0) (nZ 0) (nopp z))) A = map g (map (fun p => plus (sw p) (P 0 0 (- z))) hole)).
      { intros z. unfold etransformed, etranslated. rewrite !map_map. reflexivity. }
      assert (M2 : etransformed (escaled (map (fun p : pt => V (vy p) (vx p) (nZ 0)) hole) (nadd (nZ 1) k) vzero) A = map g (map (fun p => scaled (1 + ch / r) (sw p)) hole)).
      { unfold etransformed, escaled. rewrite !map_map. apply map_ext. intros p. unfold g. f_equal. rewrite EK'. apply pt_ext; unfold scaled, sw, X, Y, Z, P, vadd, vscale, vsub, vzero; cbn [vx vy vz]; rn; ring. }
      split; [exact EBX|]. split; [reflexivity|]. split; [exact M2|]. rewrite !M1, EBX. do 3 f_equal. f_equal. exact M2.
Qed.

(* the box strip: wall by wall *)
Lemma box_walls (g : pt -> pt) zs ts : length zs = 6%nat ->
  meshPairwise (map g (map (fun s => P (fst (fst s)) (snd (fst s)) (snd s)) (combine box_xy zs)))
               (map g (map (fun s => P (fst s) (snd s) (- h)) [(0, d); (w, d); (w, d); (w, - d); (w, - d); (0, - d)])) false = Ok ts ->
  forall t, In t ts -> exists t0, t = tmap g t0 /\ (all3 (fun p => d <= Y p) t0 \/ all3 (fun p => Y p <= - d) t0 \/ all3 (fun p => w <= X p) t0).
Proof.
  intros L E t Ht. destruct zs as [|z0 [|z1 [|z2 [|z3 [|z4 [|z5 [|z6 zs]]]]]]]; try discriminate. clear L. unfold box_xy in E. cbn [combine map fst snd] in E.
  destruct (strip_quads _ _ _ _ E t Ht) as (i & Hi & Q). clear E Ht. unfold endIdx in Hi. cbn [length] in Hi.
  assert (K : forall A : pt -> Prop, (forall v, quad_pts [g (P 0 d z0); g (P w d z1); g (P (w + n) (d - n) z2); g (P (w + n) (- (d - n)) z3); g (P w (- d) z4); g (P 0 (- d) z5)]
     [g (P 0 d (- h)); g (P w d (- h)); g (P w d (- h)); g (P w (- d) (- h)); g (P w (- d) (- h)); g (P 0 (- d) (- h))] false i v -> exists u, v = g u /\ A u) -> exists t0, t = tmap g t0 /\ all3 A t0).
  { intros A F. destruct t as [t1 t2 t3], Q as (Q1 & Q2 & Q3). cbn [ta tb tc] in *. destruct (F _ Q1) as (u1 & -> & A1). destruct (F _ Q2) as (u2 & -> & A2). destruct (F _ Q3) as (u3 & -> & A3).
    exists (mkTri u1 u2 u3). split; [reflexivity|]. unfold all3. cbn [ta tb tc]. auto. }
  assert (W : forall A : pt -> Prop, (forall v, quad_pts [g (P 0 d z0); g (P w d z1); g (P (w + n) (d - n) z2); g (P (w + n) (- (d - n)) z3); g (P w (- d) z4); g (P 0 (- d) z5)]
     [g (P 0 d (- h)); g (P w d (- h)); g (P w d (- h)); g (P w (- d) (- h)); g (P w (- d) (- h)); g (P 0 (- d) (- h))] false i v -> exists u, v = g u /\ A u) -> exists t0, t = tmap g t0 /\ all3 A t0) by exact K. clear K Q.
  unfold quad_pts, ept, endIdx in W. cbn [length] in W.
  Ltac one := match goal with Q : Ok _ = Ok _ |- _ => apply Ok_inj in Q; subst; eexists; split; [reflexivity|]; match goal with |- _ <= Y (P _ ?y _) => change (Y (P _ y _)) with y | _ => idtac end; unfold X, Y, P; cbn [vx vy]; lra end.
  destruct i as [|[|[|[|[|i]]]]]; [| | | | |lia]; cbn [Nat.min Nat.add Nat.pred Nat.modulo Nat.divmod fst snd Nat.sub nth_error] in W.
  - destruct (W (fun p => d <= Y p)) as (t0 & T1 & T2); [|exists t0; split; [exact T1|left; exact T2]]. intros v [Q|[Q|[Q|Q]]]; one.
  - destruct (W (fun p => w <= X p)) as (t0 & T1 & T2); [|exists t0; split; [exact T1|right; right; exact T2]]. intros v [Q|[Q|[Q|Q]]]; one.
  - destruct (W (fun p => w <= X p)) as (t0 & T1 & T2); [|exists t0; split; [exact T1|right; right; exact T2]]. intros v [Q|[Q|[Q|Q]]]; one.
  - destruct (W (fun p => w <= X p)) as (t0 & T1 & T2); [|exists t0; split; [exact T1|right; right; exact T2]]. intros v [Q|[Q|[Q|Q]]]; one.
  - destruct (W (fun p => Y p <= - d)) as (t0 & T1 & T2); [|exists t0; split; [exact T1|right; left; exact T2]]. intros v [Q|[Q|[Q|Q]]]; one.
Qed.
(* the strips of the hole *)
Lemma pulled (g : pt -> pt) (A : pt -> Prop) t : all3 (fun v => exists u, v = g u /\ A u) t -> exists t0, t = tmap g t0 /\ all3 A t0.
Proof. destruct t as [t1 t2 t3]. intros ((u1 & E1 & A1) & (u2 & E2 & A2) & (u3 & E3 & A3)). cbn [ta tb tc] in *. subst. exists (mkTri u1 u2 u3). split; [reflexivity|]. unfold all3. cbn [ta tb tc]. auto. Qed.
Lemma image (g : pt -> pt) (A : pt -> Prop) l : Forall A l -> Forall (fun v => exists u, v = g u /\ A u) (map g l).
Proof. intros F. apply Forall_map. eapply Forall_impl; [|exact F]. cbv beta. intros a Aa. exists a. auto. Qed.
End One.

(* The recess is cut for an encoder that is set upright on the roof at the given place: there is a rigid motion that takes the
   z axis to the normal of the outer roof plane at its position, such that, in the frame of the encoder, every triangle either belongs to the wall of the
   hole for the shaft, of at least the configured radius, no deeper than the configured height; or to the plate at that depth;
   or keeps, as a whole, outside of one of the walls of the box below it: the encoder, of the configured width and depth, fits. *)
Theorem C89_encoder_fits : forall fill q (taper : option R) c pO pI e ts,
  0 < maxChordAngle q -> 0 < maxChordHeight q -> eps <= en_holeDiameter c / 2 -> (match taper with Some al => al < PI | None => True end) ->
  0 <= en_holeChamfer c <= en_holeHeight c -> 0 <= en_notchDepth c -> 0 <= en_width c -> 0 <= en_depth c ->
  unit_vec (pnormal pO) -> 0 < Z (pnormal pO) -> pnormal pO = P 0 0 1 \/ ~ within_tol (P 0 0 1) (pnormal pO) ->
  (forall o ts', fill o [] = Ok ts' -> forall t, In t ts' -> all3 (fun v => In v o) t) ->
  newEncoder q taper c pO pI = Ok e -> eval fill (enMesh e) = Ok ts ->
  exists g : pt -> pt, isometry g /\ keeps_orientation g /\ g origin = ppos pO /\ g (P 0 0 1) = plus (ppos pO) (pnormal pO) /\
  forall t, In t ts -> exists t0, t = tmap g t0 /\
    (all3 (fun p => - en_holeHeight c <= Z p <= 0 /\ en_holeDiameter c / 2 <= edist2 p origin) t0 \/
     all3 (fun p => Z p = - en_holeHeight c) t0 \/
     all3 (fun p => en_depth c / 2 <= Y p) t0 \/ all3 (fun p => Y p <= - (en_depth c / 2)) t0 \/ all3 (fun p => en_width c / 2 <= X p) t0).
Proof.
  intros fill q taper c pO pI e ts HA HH HR HT HC HN HW HD Un Up Tol HF H E.
  destruct (encoder_form q taper c pO pI HA HH HR HT HC Un Up Tol e H) as (g & hT & hC & hG & zs & G1 & G2 & G3 & G4 & F1 & F2 & F3 & F4 & LZ & _ & _ & _ & D).
  cbv zeta in D. destruct D as (_ & _ & _ & _ & D). rewrite D in E. clear D. exists g. split; [exact G1|]. split; [exact G2|]. split; [exact G3|]. split; [exact G4|].
  cbn [meshes eval] in E. apply bind_ok in E. destruct E as (s1 & E1 & E). apply bind_ok in E. destruct E as (r1 & R1 & E). apply Ok_inj in E. subst ts.
  apply bind_ok in R1. destruct R1 as (s2 & E2 & E). apply bind_ok in E. destruct E as (r2 & R2 & E). apply Ok_inj in E. subst r1.
  apply bind_ok in R2. destruct R2 as (s3 & E3 & E). apply bind_ok in E. destruct E as (r3 & R3 & E). apply Ok_inj in E. subst r2.
  apply bind_ok in R3. destruct R3 as (s4 & E4 & E). apply bind_ok in E. destruct E as (r4 & R4 & E). apply Ok_inj in E. apply Ok_inj in R4. subst r3 r4. rewrite app_nil_r.
  assert (F5 : Forall (hole_at c) hG) by (eapply Forall_impl; [|exact F4]; cbv beta; tauto).
  assert (HOLE : forall t, all3 (fun v => exists u, v = g u /\ hole_at c u) t -> exists t0, t = tmap g t0 /\
    (all3 (fun p => - en_holeHeight c <= Z p <= 0 /\ en_holeDiameter c / 2 <= edist2 p origin) t0 \/ all3 (fun p => Z p = - en_holeHeight c) t0 \/
     all3 (fun p => en_depth c / 2 <= Y p) t0 \/ all3 (fun p => Y p <= - (en_depth c / 2)) t0 \/ all3 (fun p => en_width c / 2 <= X p) t0)).
  { intros t Q. destruct (pulled g _ t Q) as (t0 & T1 & T2). exists t0. split; [exact T1|]. left. unfold all3, hole_at in *. tauto. }
  intros t Ht. apply in_app_or in Ht. destruct Ht as [Ht|Ht]; [|apply in_app_or in Ht; destruct Ht as [Ht|Ht]; [|apply in_app_or in Ht; destruct Ht as [Ht|Ht]]].
  - apply HOLE. pose proof (strip_all _ _ _ _ _ E1 (image g _ _ F3) (image g _ _ F2)) as Q. rewrite Forall_forall in Q. exact (Q t Ht).
  - apply HOLE. pose proof (strip_all _ _ _ _ _ E2 (image g _ _ F5) (image g _ _ F3)) as Q. rewrite Forall_forall in Q. exact (Q t Ht).
  - destruct (box_walls c HN g zs s3 LZ E3 t Ht) as (t0 & T1 & T2). exists t0. split; [exact T1|]. right. right. exact T2.
  - assert (Q : Forall (all3 (fun v => exists u, v = g u /\ Z u = - en_holeHeight c)) s4).
    { apply (face_all fill _ _ _ HF E4). apply Forall_app. split.
      - apply (image g (fun u => Z u = - en_holeHeight c)). repeat (apply Forall_cons; [reflexivity|]). apply Forall_nil.
      - apply Forall_rev, (image g (fun u => Z u = - en_holeHeight c)). eapply Forall_impl; [|exact F4]. cbv beta. tauto. }
    rewrite Forall_forall in Q. destruct (pulled g _ t (Q t Ht)) as (t0 & T1 & T2). exists t0. split; [exact T1|]. right. left. exact T2.
Qed.
Print Assumptions C89_encoder_fits.
(* The openings of the recess.  In the outer roof: half a round hole of the configured radius widened by the chamfer, from the back to
   the front of the split.  In the inner roof: the walls of the box, cut upright to the outer roof, with a notch of the configured depth;
   sides of 1 mm/1000 and more are kept. *)
Theorem C89_openings : forall q (taper : option R) c pO pI e,
  0 < maxChordAngle q -> 0 < maxChordHeight q -> eps <= en_holeDiameter c / 2 -> (match taper with Some al => al < PI | None => True end) ->
  0 <= en_holeChamfer c <= en_holeHeight c ->
  unit_vec (pnormal pO) -> 0 < Z (pnormal pO) -> pnormal pO = P 0 0 1 \/ ~ within_tol (P 0 0 1) (pnormal pO) ->
  newEncoder q taper c pO pI = Ok e ->
  let r := en_holeDiameter c / 2 + en_holeChamfer c in let w := en_width c / 2 in let d := en_depth c / 2 in let n := en_notchDepth c in
  exists (g : pt -> pt) rim z0 z1 z2 z3 z4 z5, isometry g /\ keeps_orientation g /\ g origin = ppos pO /\ g (P 0 0 1) = plus (ppos pO) (pnormal pO) /\
    enRoofO e = map g rim /\ rim <> [] /\ hd origin rim = P 0 r 0 /\ last rim origin = P 0 (- r) 0 /\
    (forall p, In p rim -> Z p = 0 /\ 0 <= X p /\ r <= edist2 p origin) /\
    let corners := map g [P 0 (- d) z5; P w (- d) z4; P (w + n) (- (d - n)) z3; P (w + n) (d - n) z2; P w d z1; P 0 d z0] in
    (forall v, In v corners -> on_plane pI v) /\ (forall v, In v (enRoofI e) -> In v corners) /\
    (1 / 1000 <= w -> 1 / 1000 <= n -> 1 / 1000 <= d - n -> enRoofI e = corners).
Proof.
  intros q taper c pO pI e HA HH HR HT HC Un Up Tol H r w d n.
  destruct (encoder_form q taper c pO pI HA HH HR HT HC Un Up Tol e H) as (g & hT & hC & hG & zs & G1 & G2 & G3 & G4 & F1 & _ & _ & _ & LZ & N1 & N2 & N3 & D).
  cbv zeta in D. destruct D as (D1 & D2 & D3 & D4 & _).
  destruct zs as [|z0 [|z1 [|z2 [|z3 [|z4 [|z5 [|z6 zs]]]]]]]; try discriminate. exists g, hT, z0, z1, z2, z3, z4, z5.
  split; [exact G1|]. split; [exact G2|]. split; [exact G3|]. split; [exact G4|]. split; [exact D4|]. split; [exact N1|]. split; [exact N2|]. split; [exact N3|].
  split; [rewrite Forall_forall in F1; exact F1|]. cbv zeta.
  assert (ES : enShort e = map g [P 0 d z0; P w d z1; P (w + n) (d - n) z2; P (w + n) (- (d - n)) z3; P w (- d) z4; P 0 (- d) z5]) by exact D2. clear D2.
  assert (ER : map g [P 0 (- d) z5; P w (- d) z4; P (w + n) (- (d - n)) z3; P (w + n) (d - n) z2; P w d z1; P 0 d z0] = rev (enShort e)) by (rewrite ES; reflexivity). rewrite ER.
  split; [|split].
  - intros v Hv. apply in_rev in Hv. rewrite ES in Hv. apply in_map_iff in Hv. destruct Hv as (p & <- & Hp). rewrite Forall_forall in D1. exact (D1 p Hp).
  - intros v Hv. rewrite D3 in Hv. apply in_rev in Hv. apply collapsed_in in Hv. apply -> in_rev. exact Hv.
  - intros W N D. rewrite D3. f_equal. rewrite ES. cbn [map].
    assert (FAR : forall a b : pt, 1 / 1000 <= Rabs (X a - X b) \/ 1 / 1000 <= Rabs (Y a - Y b) -> nleb (Num := Rnum) (1 / 1000) (smag (mkSeg (g a) (g b))) = true).
    { intros a b Q. change (nleb (Num := Rnum) (1 / 1000) (smag (mkSeg (g a) (g b)))) with (Rleb (1 / 1000) (vmag (vsub (g b) (g a)))). apply Rleb_true. rewrite mag_dist. unfold edist. rewrite (G1 b a).
      apply Rsqr_incr_0_var; [|apply sqrt_pos]. rewrite Rsqr_sqrt; [|unfold sqdist; pose proof (Rle_0_sqr (X b - X a)); pose proof (Rle_0_sqr (Y b - Y a)); pose proof (Rle_0_sqr (Z b - Z a)); lra].
      unfold sqdist. pose proof (Rle_0_sqr (X b - X a)) as Q1. pose proof (Rle_0_sqr (Y b - Y a)) as Q2. pose proof (Rle_0_sqr (Z b - Z a)) as Q3.
      destruct Q as [Q|Q]; (rewrite Rabs_minus_sym in Q; apply Rsqr_le_abs_1 in Q || (assert (Q' : Rabs (1 / 1000) <= Rabs (X b - X a)) by (rewrite (Rabs_right (1 / 1000)); lra); apply Rsqr_le_abs_1 in Q'; lra) || (assert (Q' : Rabs (1 / 1000) <= Rabs (Y b - Y a)) by (rewrite (Rabs_right (1 / 1000)); lra); apply Rsqr_le_abs_1 in Q'; lra)). }
    assert (AB : forall x y : R, 1 / 1000 <= x - y -> 1 / 1000 <= Rabs (x - y) /\ 1 / 1000 <= Rabs (y - x)) by (intros x y Q; rewrite (Rabs_minus_sym y x), Rabs_right; lra).
    unfold collapsed. cbn [toSegments segs_open last app filter].
    rewrite !FAR; [reflexivity|..]; repeat match goal with |- context [X (P ?a ?b ?c)] => change (X (P a b c)) with a | |- context [Y (P ?a ?b ?c)] => change (Y (P a b c)) with b end.
    all: first [left; apply (fun Q => proj1 (AB _ _ Q)); lra|left; apply (fun Q => proj2 (AB _ _ Q)); lra|right; apply (fun Q => proj1 (AB _ _ Q)); lra|right; apply (fun Q => proj2 (AB _ _ Q)); lra].
Qed.
Print Assumptions C89_openings.

(* In the body: the encoder stands on the outer roof of the ridge, on the split plane, at the relative position between its front and its back,
   and the opening of its recess lies within the inner roof of the ridge, or the program stops. *)
Theorem C89_on_ridge : forall q taper (c : @body_cfg Rnum) p s m encF encB short ec, by_encoder c = Some ec -> bodyEncoder q taper c p s = Ok (m, encF, encB, short) ->
  let front := vyz (ridgeORF p) in let back := vyz (stOLF s) in let k := en_relPosition ec in
  exists pO pI e, newEncoder q taper ec pO pI = Ok e /\
    ppos pO = plus (scaled (1 - k) front) (scaled k back) /\ wf_plane pO /\ wf_plane pI /\
    on_plane pO front /\ on_plane pO (ridgeORF p) /\ on_plane pO (stOLF s) /\
    on_plane pI (ridgeIRF p) /\ on_plane pI (vyz (ridgeIRF p)) /\ on_plane pI (stILF s) /\
    forall v, In v (enRoofI e) -> 0 < X v -> contains2D [vyz (stILF s); stILF s; ridgeIRF p; vyz (ridgeIRF p)] v = Ok true.
Proof.
  intros q taper c p s m encF encB short ec EC H front back k. unfold bodyEncoder in H. rewrite EC in H. cbv zeta in H.
  apply bind_ok in H. destruct H as (pI & EI & H). apply bind_ok in H. destruct H as (pO' & EO & H). apply bind_ok in H. destruct H as (pO & EP & H). apply bind_ok in H. destruct H as (e & EE & H).
  apply bind_ok in H. destruct H as (ins & EN & H). destruct (forallb (fun b => b) ins) eqn:AL; [|discriminate]. clear H.
  exists pO, pI, e. split; [exact EE|].
  destruct (newPlane_ok _ _ _ EP) as (WO & PO & NO & _). pose proof EO as EO'. unfold planePoints in EO'. destruct (newPlane_ok _ _ _ EO') as (WO' & PO' & NO' & NZ). pose proof EI as EI'. unfold planePoints in EI'. destruct (newPlane_ok _ _ _ EI') as (WI & _).
  destruct C23_constructors as (_ & _ & PP & _). destruct (PP _ _ _ _ EI) as (_ & I1 & I2 & I3). destruct (PP _ _ _ _ EO) as (_ & O1 & O2 & O3). clear PP.
  assert (NN : pnormal pO = pnormal pO') by (rewrite NO; exact (proj2 (dir_unit _ WO'))).
  split; [rewrite PO; unfold front, back, k; destruct (ridgeORF p) as [a1 a2 a3], (stOLF s) as [b1 b2 b3]; apply pt_ext; unfold plus, scaled, vadd, vscale, vyz, X, Y, Z, P; cbn [vx vy vz]; rn; ring|]. split; [exact WO|]. split; [exact WI|].
  set (nn := pnormal pO') in *.
  assert (X0 : X (ridgeORF p) <> 0). { intros E0. apply NZ. destruct (ridgeORF p) as [a1 a2 a3], (stOLF s) as [b1 b2 b3]. change (a1 = 0) in E0. subst a1. apply pt_ext; unfold vcross, vsub, vyz, origin, X, Y, Z, P; cbn [vx vy vz]; rn; ring. }
  assert (N0 : X nn = 0). { unfold on_plane in O1, O3. fold nn in O1, O3. assert (Q : X (ridgeORF p) * X nn = 0). { transitivity (inner (minus (ridgeORF p) (ppos pO')) nn - inner (minus (vyz (ridgeORF p)) (ppos pO')) nn); [|rewrite O1, O3; ring]. destruct (ridgeORF p) as [a1 a2 a3]. unfold inner, minus, vyz, X, Y, Z, P. cbn [vx vy vz]. rn. ring. }
    apply Rmult_integral in Q. tauto. }
  assert (BK : forall v : pt, on_plane pO' v -> on_plane pO' (vyz v)). { intros v. unfold on_plane. fold nn. intros <-. destruct v as [v1 v2 v3]. unfold inner. rewrite N0. unfold minus, vyz, X, Y, Z, P. cbn [vx vy vz]. rn. ring. }
  assert (SAME : forall v : pt, on_plane pO' v -> on_plane pO v).
  { intros v Hv. pose proof (BK _ O2) as Hb. unfold on_plane in *. fold nn in Hv, O3, Hb. rewrite NN, PO.
    transitivity (inner (minus v (ppos pO')) nn - ((1 - k) * inner (minus (vyz (ridgeORF p)) (ppos pO')) nn + k * inner (minus (vyz (stOLF s)) (ppos pO')) nn)); [|rewrite Hv, O3, Hb; ring].
    unfold k, inner, minus, vadd, vscale, vyz, X, Y, Z, P. cbn [vx vy vz]. rn. ring. }
  split; [apply SAME; exact O3|]. split; [apply SAME; exact O1|]. split; [apply SAME; exact O2|]. split; [exact I1|]. split; [exact I3|]. split; [exact I2|].
  intros v Hv XV. apply mapM_ok in EN. rewrite forallb_forall in AL. clear - EN AL Hv XV. induction EN as [|a b l l' Q _ IH]; [destruct Hv|]. destruct Hv as [->|Hv]; [|apply IH; [intros x Hx; apply AL; right; exact Hx|exact Hv]].
  change (nltb (nZ 0) (vx v)) with (Rltb 0 (X v)) in Q. apply Rltb_true in XV. rewrite XV in Q. rewrite Q. f_equal. apply AL. left. reflexivity.
Qed.
Print Assumptions C89_on_ridge.

(* the encoder of the default settings, on a level roof of 4 mm and on a roof that leans *)
Definition encoder_default : @encoder_cfg Rnum := @mkEncoderCfg Rnum (137 / 10) (128 / 10) (55 / 100) 8 (17 / 10) (4 / 10) 3.
Theorem C89_nonvacuous : forall n : pt, unit_vec n -> 0 < Z n -> exists e, newEncoder (@mkQuality Rnum (1 / 100) (PI / 6)) (Some (PI / 4) : option (@num Rnum)) encoder_default (mkPlane (P 0 0 4) n) (mkPlane origin n) = Ok e.
Proof.
  intros n U Up. unfold newEncoder. cbv zeta. cbn [pnormal ppos]. pose proof PI_RGT_0 as PP. pose proof PI2_1 as P2.
  destruct (dir_unit _ ez_unit) as (S1 & S2). destruct (dir_unit _ U) as (T1 & T2).
  assert (NW : ~ within_tol (dir_of (P 0 0 1)) (GeoTri.neg (dir_of n))).
  { rewrite S2, T2. intros (_ & _ & W). revert W. change (Rabs (1 - - Z n) < eps -> False). pose proof (Rle_abs (1 - - Z n)) as Q. unfold eps in *. lra. }
  destruct (C21_aligns_partial (P 0 0 1) n S1 T1 NW) as (A & EA & _). assert (EA' : fromAlignment (V (nZ 0) (nZ 0) (nZ 1)) n = Ok A) by exact EA. rewrite EA'. cbn [bind]. clear EA EA'.
  destruct (half_hole_form (1 / 100) (PI / 6) 4 (PI / 4)) as (pts & EH & NE & _); [unfold eps; lra|lra|lra|lra|].
  assert (E4 : ndiv (en_holeDiameter encoder_default) (nZ 2) = (4 : R)) by (change (8 / 2 = 4); field). rewrite E4. rewrite EH. cbn [bind].
  assert (NP : forall (x : R), @pdiv Rnum x 4 = Ok (x / 4)) by (intros x; apply pdiv_nz; lra). change (@pdiv Rnum (en_holeChamfer encoder_default) 4) with (@pdiv Rnum (4 / 10) 4). rewrite NP. cbn [bind]. clear EH.
  match goal with |- exists e, bind ?m _ = Ok e => assert (TB : exists b, m = Ok b) end.
  { apply mapM_total. intros x _. assert (EL : exists l, newLine x n = Ok l /\ ldir l = n) by (unfold newLine; rewrite vnorm_spec by exact T1; cbn [bind]; eexists; split; [reflexivity|exact T2]). destruct EL as (l & EL & LD). rewrite EL. cbn [bind].
    destruct (pintersectLine (mkPlane origin n) l) as [v|e] eqn:EI; [eexists; reflexivity|]. exfalso. assert (Q : exists e, pintersectLine (mkPlane origin n) l = Err e) by (eexists; exact EI). apply pintersectLine_err in Q. rewrite LD in Q. cbn [pnormal] in Q. rewrite U, Rabs_R1 in Q. unfold eps in Q. lra. }
  destruct TB as (box & EB). rewrite EB. cbn [bind]. assert (BN : box <> []) by (apply mapM_ok in EB; inversion EB; subst; discriminate). clear EB.
  assert (F0 : forall l : list pt, l <> [] -> exists x, pyidx l 0 = Ok x) by (intros [|a l] Q; [contradiction|]; rewrite pyidx_first; eexists; reflexivity).
  assert (F1 : forall l : list pt, l <> [] -> exists x, pyidx l (-1) = Ok x) by (intros l Q; destruct (exists_last Q) as (l' & a & ->); rewrite pyidx_last, rev_app_distr; eexists; reflexivity).
  match goal with |- context [mapM _ (rev ?l)] => set (edges := l) end.
  assert (EN : forall x, In x edges -> x <> []). { intros x [<-|[<-|[<-|[<-|[<-|[]]]]]]; [exact BN|discriminate|..]; unfold etransformed, etranslated, escaled; repeat apply map_some; destruct pts; discriminate. } clearbody edges.
  match goal with |- exists e, bind ?m _ = Ok e => assert (TB : exists b, m = Ok b) by (apply mapM_total; intros x Hx; apply F1, EN, in_rev; exact Hx) end. destruct TB as (sf & ES). rewrite ES. cbn [bind].
  match goal with |- exists e, bind ?m _ = Ok e => assert (TB : exists b, m = Ok b) by (apply mapM_total; intros x Hx; apply F0, EN; exact Hx) end. destruct TB as (sb & EB'). rewrite EB'. cbn [bind]. eexists. reflexivity.
Qed.
Print Assumptions C89_nonvacuous.
