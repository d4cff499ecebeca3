(** The flattened layout. *)
From Coq Require Import Reals Lra Psatz List Bool ZArith Lia String.
From Verif Require Import Num GeoModel GeoSpec GeoMat GeoRigid GeoPlane GeoIso EdgeModel ArcModel
  KeyModel LayoutModel LayoutSpec LayoutProof BossModel PlanModel HullSpec PlanSpec WallProof PlanMove PlanTent PlanPath PcbModel PcbSpec.
Import ListNotations.
Open Scope R_scope.

(* newPlan_path, with the last motion in full: tilt and split, then a translation *)
Lemma moved_shift2 c y0 y off pv d M v : moved c y0 y off pv d M -> exists M', moved c y0 (mapAll (move v) y) off pv d M' /\ forall q, transformed q M' = plus (transformed q M) v.
Proof.
  intros H. exists (mmul M (mtranslated mid v)). split.
  - apply moved_more; [apply B_tra, B_id| |exact H]. eapply carries_ext; [|exact (carries_move v)]. intros q. rewrite app_tra by apply affine_mid. rewrite transformed_mid. reflexivity.
  - intros q. destruct H as [B _ _ _ _]. rewrite transformed_mul by apply built_affine, B. rewrite app_tra by apply affine_mid. rewrite transformed_mid. reflexivity.
Qed.
Lemma plus_plus (a b e : pt) : plus (plus a b) e = plus a (plus b e).
Proof. apply pt_ext; unfold plus, P, X, Y, Z; cbn [vx vy vz]; rn; ring. Qed.
Theorem newPlan_path2 c fuel side p : newPlan c fuel side = Ok p -> exists y0 off ka kp d M v,
  newLayout (keyCfg c) (layoutCfg c) = Ok y0 /\ tentCreaseOffset c = Ok off /\
  (In ka (alnum y0 SideBoth) /\ forall k, In k (alnum y0 SideBoth) -> X (kposition k) <= X (kposition ka)) /\
  (In kp (pinky y0 SideBoth) /\ forall k, In k (pinky y0 SideBoth) -> X (kposition kp) <= X (kposition k)) /\
  moved c y0 (planLayout p) off (P ((X (kposition ka) + X off + X (kposition kp)) / 2) ((Y (kposition ka) + Y (kposition kp)) / 2) ((Z (kposition ka) + Z (kposition kp)) / 2)) d M /\
  forall q, transformed q M = plus (transformed q (tiltSplitMatrix c)) v.
Proof.
  intros H. unfold newPlan in H. apply bind_ok in H. destruct H as ([y1 ps1] & E1 & H). apply bind_ok in H. destruct H as ([y2 ps2] & E2 & H).
  apply bind_ok in H. destruct H as (w & E3 & H). cbn [fst] in H. apply bind_ok in H. destruct H as ([y3 w3] & E4 & H).
  apply bind_ok in H. destruct H as ([thumbLine tl] & E5 & H). cbn [fst snd] in H. apply bind_ok in H. destruct H as ([rI rO] & E6 & H). apply bind_ok in H. destruct H as (pts & E7 & H).
  apply bind_ok in H. destruct H as ([[[y ps] tl'] pts'] & E8 & H). apply bind_ok in H. destruct H as (bs & E9 & H). apply bind_ok in H. destruct H as (h & _ & H). apply Ok_inj in H. subst p. cbn [planLayout].
  destruct (planTent_path c side y1 ps1 E1) as (y0 & off & ka & kp & d & L0 & CO & KA & KP & M1). exists y0, off, ka, kp, d.
  assert (EY2 : y2 = mapAll (turnKey (tiltSplitMatrix c)) y1) by (unfold planTilt in E2; apply bind_ok in E2; destruct E2 as (? & _ & E2); injection E2 as <- _; reflexivity).
  assert (EY3 : exists v, y3 = mapAll (move v) y2).
  { unfold planX in E4. cbv zeta in E4. do 6 (apply bind_ok in E4; destruct E4 as (? & _ & E4)). destruct (wBoss w) as (((?, ?), ?), ?). injection E4 as <- _. eexists. reflexivity. }
  assert (EY : exists v, y = mapAll (move v) y3).
  { unfold planZ in E8. cbv zeta in E8. do 5 (apply bind_ok in E8; destruct E8 as (? & _ & E8)).
    destruct (nltb _ _) in E8; [discriminate|]. match type of E8 with (if ?b then _ else _) = _ => destruct b end; [discriminate|]. injection E8 as <- _ _ _. eexists. reflexivity. }
  assert (BM : Built (tiltSplitMatrix c)) by (unfold tiltSplitMatrix; apply B_rotZ, B_rotX, B_id).
  pose proof (moved_more c _ _ _ _ _ _ _ _ BM (carries_turn _ BM) M1) as M2. rewrite <- EY2 in M2.
  destruct EY3 as (v3 & ->). destruct EY as (v & ->). destruct (moved_shift2 c _ _ _ _ _ _ v3 M2) as (N3 & M3 & T3). destruct (moved_shift2 c _ _ _ _ _ _ v M3) as (N4 & M4 & T4).
  exists N4, (plus v3 v). do 5 (split; [assumption|]). intros q. rewrite T4, T3, plus_plus. f_equal. rewrite transformed_mul by apply affine_mid. rewrite transformed_mid. reflexivity.
Qed.

(** ** aligning the pinky keys *)
Lemma rot_plus : (forall a p v, rotX_pt a origin (plus p v) = plus (rotX_pt a origin p) (rotX_pt a origin v)) /\
  (forall a p v, rotY_pt a origin (plus p v) = plus (rotY_pt a origin p) (rotY_pt a origin v)) /\
  (forall a p v, rotZ_pt a origin (plus p v) = plus (rotZ_pt a origin p) (rotZ_pt a origin v)).
Proof. repeat split; intros; apply pt_ext; unfold rotX_pt, rotY_pt, rotZ_pt, plus, origin, P, X, Y, Z; cbn [vx vy vz]; rn; ring. Qed.
Section Flat.
Variable c : @plan_cfg Rnum.
Variable th : R.
Notation TA := (alnumTentAngle c).
Notation TP := (pinkyTentAngle c).
Lemma align_tilt q : transformed (transformed q (tiltSplitMatrix c)) (pinkyAlign c) = rotY_pt (- TP) origin q.
Proof.
  unfold pinkyAlign, tiltSplitMatrix. rewrite app_rotY by (apply built_affine, B_rotX, B_rotZ, B_id). rewrite app_rotX by (apply built_affine, B_rotZ, B_id). rewrite app_rotZ by apply affine_mid. rewrite transformed_mid.
  rewrite app_rotZ by (apply built_affine, B_rotX, B_id). rewrite app_rotX by apply affine_mid. rewrite transformed_mid. cbn [ctr]. cbn [nopp Rnum]. f_equal.
  rewrite rotZ_add. replace (splitAngle c + - splitAngle c)%R with 0 by ring.
  rewrite rotZ_0, rotX_add. replace (tiltAngle c + - tiltAngle c)%R with 0 by ring. apply rotX_0.
Qed.
Lemma align_plus p v : transformed (plus p v) (pinkyAlign c) = plus (transformed p (pinkyAlign c)) (transformed v (pinkyAlign c)).
Proof.
  assert (E : forall q, transformed q (pinkyAlign c) = rotY_pt (- TP) origin (rotX_pt (- tiltAngle c) origin (rotZ_pt (- splitAngle c) origin q))).
  { intros q. unfold pinkyAlign. rewrite app_rotY by (apply built_affine, B_rotX, B_rotZ, B_id). rewrite app_rotX by (apply built_affine, B_rotZ, B_id). rewrite app_rotZ by apply affine_mid. rewrite transformed_mid. reflexivity. }
  destruct rot_plus as (RX & RY & RZ). rewrite !E, RZ, RX, RY. reflexivity.
Qed.
(* a group with the tent angle a, after the alignment *)
Definition tau (pv : pt) (v : pt) : pt := plus (minus (rotY_pt (- TP) origin pv) pv) (transformed v (pinkyAlign c)).
Lemma aligned a pv v M s d : (forall q, transformed q M = plus (transformed q (tiltSplitMatrix c)) v) -> X d = 0 -> Z d = 0 ->
  transformed (transformed (plus (rotY_pt a pv s) d) M) (pinkyAlign c) = plus (plus (rotY_pt (a - TP) pv s) d) (tau pv v).
Proof.
  intros HM DX DZ. rewrite HM, align_plus, align_tilt. destruct rot_plus as (_ & RY & _). rewrite RY.
  assert (ED : rotY_pt (- TP) origin d = d) by (apply pt_ext; unfold rotY_pt, origin, P, X, Y, Z in *; cbn [vx vy vz] in *; rn; first [reflexivity | rewrite DX, DZ; match goal with |- ?x = ?y => change (@eq R x y) end; ring]).
  rewrite ED. change (a - TP) with (a + - TP). rewrite <- rotY_add. set (r := rotY_pt a pv s). clearbody r. set (w := transformed v (pinkyAlign c)). unfold tau. fold w. clearbody w.
  apply pt_ext; unfold rotY_pt, plus, minus, origin, P, X, Y, Z; cbn [vx vy vz]; rn; ring.
Qed.
(** ** unfolding the alphanumeric keys *)
Lemma half_angle a : cos a = cos (a / 2) * cos (a / 2) - sin (a / 2) * sin (a / 2) /\ sin a = 2 * sin (a / 2) * cos (a / 2).
Proof. assert (E : a = 2 * (a / 2)) by field. split; rewrite E at 1; [apply cos_2a|apply sin_2a]. Qed.
Lemma fold_point a (x0 z0 dl H ys ym xs : R) : 0 < cos a -> exists v,
  lintersect (mkLine (P xs ys (z0 - H)) (P 1 0 0)) (mkLine (P (x0 + (dl * cos a - dl) / 2) ym (z0 - dl * sin a / 2)) (P (sin (a / 2)) 0 (cos (a / 2)))) = Ok v /\
  Z v = z0 - H /\ X v = x0 - H * tan (a / 2).
Proof.
  intros C. destruct (half_angle a) as (Ec & Es). pose proof (sc1 (a / 2)) as S1. set (si := sin (a / 2)) in *. set (co := cos (a / 2)) in *.
  assert (NC : co <> 0) by (intros Z0; rewrite Z0 in *; nra).
  set (s := mkLine (P xs ys (z0 - H)) (P 1 0 0)). set (o := mkLine _ (P si 0 co)).
  assert (Ws : wf_line s) by (unfold wf_line, unit_vec, inner, s, P, X, Y, Z; cbn [ldir vx vy vz]; rn; lra).
  assert (Wo : wf_line o) by (unfold wf_line, unit_vec, inner, o, P, X, Y, Z; cbn [ldir vx vy vz]; rn; lra).
  destruct (lintersect s o) as [v|e] eqn:E.
  2:{ exfalso. assert (K : exists e, lintersect s o = Err e) by (exists e; exact E). apply (lintersect_err s o Ws Wo) in K.
      assert (I : inner (ldir s) (ldir o) = si) by (unfold inner, s, o, P, X, Y, Z; cbn [ldir vx vy vz]; rn; ring). rewrite I in K. unfold eps in K. rewrite Rabs_pos_eq in K by nra. nra. }
  exists v. split; [reflexivity|]. destruct (lintersect_spec s o v Ws Wo E) as (p & r & (k & Ep) & (j & Er) & Ev & Q1 & Q2).
  assert (PX : X p = xs + k) by (rewrite Ep; unfold s, plus, scaled, P, X; cbn [lpos ldir vx vy vz]; rn; ring). assert (PZ : Z p = z0 - H) by (rewrite Ep; unfold s, plus, scaled, P, Z; cbn [lpos ldir vx vy vz]; rn; ring).
  assert (RX : X r = x0 + (dl * cos a - dl) / 2 + j * si) by (rewrite Er; unfold o, plus, scaled, P, X; cbn [lpos ldir vx vy vz]; rn; ring).
  assert (RZ : Z r = z0 - dl * sin a / 2 + j * co) by (rewrite Er; unfold o, plus, scaled, P, Z; cbn [lpos ldir vx vy vz]; rn; ring).
  assert (D1 : X p = X r) by (unfold inner, minus, s, P, X, Y, Z in Q1; cbn [ldir vx vy vz] in Q1; rn; unfold X; lra).
  assert (D2 : Z p = Z r). { unfold inner, minus, o, P in Q2. unfold X, Y, Z in Q2, D1 |- *. cbn [ldir vx vy vz] in Q2. rn. rewrite D1 in Q2. apply Rminus_diag_uniq. apply (Rmult_eq_reg_r co); [|exact NC]. lra. }
  assert (VX : X v = X r) by (rewrite Ev; unfold scaled, plus, P, X in *; cbn [vx vy vz]; rn; lra). assert (VZ : Z v = Z p) by (rewrite Ev; unfold scaled, plus, P, Z in *; cbn [vx vy vz]; rn; lra).
  split; [rewrite VZ; exact PZ|]. rewrite VX, RX. assert (J : j * co = dl * si * co - H) by (rewrite <- D2, PZ, Es in RZ; lra).
  assert (EJ : j = dl * si - H / co) by (apply (Rmult_eq_reg_r co); [|exact NC]; rewrite J; field; exact NC).
  rewrite EJ. unfold tan. fold si co. rewrite Ec. assert (E1 : co * co = 1 - si * si) by lra. rewrite E1. field. exact NC.
Qed.
Lemma unfold_pt a (pv t v s : pt) H : 0 < cos a -> Z pv = 0 -> Z v = Z t - H -> X v = X pv + X t - H * tan (a / 2) ->
  rotY_pt (- a) v (plus (rotY_pt a pv s) t) = plus (plus s t) (P (- (2 * H * tan (a / 2))) 0 0).
Proof.
  intros C ZP ZV XV. destruct (half_angle a) as (Ec & Es). pose proof (sc1 (a / 2)) as S1. pose proof (sc1 a) as S2. assert (TN : tan (a / 2) = sin (a / 2) / cos (a / 2)) by reflexivity.
  set (si := sin (a / 2)) in *. set (co := cos (a / 2)) in *. assert (NC : co <> 0) by (intros Z0; rewrite Z0 in *; nra).
  assert (T1 : tan (a / 2) * sin a = 1 - cos a) by (rewrite TN, Es, Ec; field_simplify; [nra|exact NC]).
  assert (T2 : tan (a / 2) * (1 + cos a) = sin a). { rewrite TN, Es, Ec. assert (E1 : co * co = 1 - si * si) by lra. replace (1 + (co * co - si * si)) with (2 * (co * co)) by lra. field. exact NC. }
  clearbody si co. set (tn := tan (a / 2)) in *. clearbody tn.
  assert (G1 : forall u w x z : R, X pv + X t - H * tn + ((Z pv + (u * cos a - w * sin a) + Z t - (Z t - H)) * sin (- a) + (X pv + (u * sin a + w * cos a) + X t - (X pv + X t - H * tn)) * cos (- a)) = X pv + w + X t - 2 * H * tn).
  { intros. rewrite ZP, sin_neg, cos_neg. transitivity (X pv + w * (sin a * sin a + cos a * cos a) + X t - H * tn + H * tn * cos a - H * sin a); [ring|]. rewrite S2, <- T2. ring. }
  assert (G2 : forall u w : R, Z t - H + ((Z pv + (u * cos a - w * sin a) + Z t - (Z t - H)) * cos (- a) - (X pv + (u * sin a + w * cos a) + X t - (X pv + X t - H * tn)) * sin (- a)) = u + Z t).
  { intros. rewrite ZP, sin_neg, cos_neg. transitivity (Z t - H + u * (sin a * sin a + cos a * cos a) + H * cos a + H * (tn * sin a)); [ring|]. rewrite S2, T1. ring. }
  apply pt_ext.
  - assert (EX : X (rotY_pt (- a) v (plus (rotY_pt a pv s) t)) = X v + ((Z pv + ((Z s - Z pv) * cos a - (X s - X pv) * sin a) + Z t - Z v) * sin (- a) + (X pv + ((Z s - Z pv) * sin a + (X s - X pv) * cos a) + X t - X v) * cos (- a))) by reflexivity.
    rewrite EX, XV, ZV, G1; [|exact 0|exact 0]. unfold plus, P, X; cbn [vx vy vz]; rn; ring.
  - unfold rotY_pt, plus, P, Y. cbn [vx vy vz]. rn. ring.
  - assert (EX : Z (rotY_pt (- a) v (plus (rotY_pt a pv s) t)) = Z v + ((Z pv + ((Z s - Z pv) * cos a - (X s - X pv) * sin a) + Z t - Z v) * cos (- a) - (X pv + ((Z s - Z pv) * sin a + (X s - X pv) * cos a) + X t - X v) * sin (- a))) by reflexivity.
    rewrite EX, XV, ZV, G2, ZP. unfold plus, P, Z; cbn [vx vy vz]; rn; ring.
Qed.
(* the first rotation is about the line in which the planes of the two groups meet below the board *)
Definition depth : R := innerHeight (keyCfg c) + th.
Definition unfolded : R := - (2 * depth * tan ((TA - TP) / 2)).
Lemma best_ok better (l : list (@key Rnum)) k : In k l -> exists b, bestKey better l = Ok b.
Proof. destruct l as [|a l]; [intros []|]. intros _. eexists. reflexivity. Qed.
Lemma alnumAlign_ok (y : @layout Rnum) (pv t off : pt) la lp fa fp ka kp : 0 < cos (TA - TP) -> Z pv = 0 ->
  alnum y SideBoth = map fa la -> pinky y SideBoth = map fp lp ->
  (forall k, In k la -> kposition (fa k) = plus (rotY_pt (TA - TP) pv (plus (kposition k) off)) t) -> (forall k, In k lp -> kposition (fp k) = plus (kposition k) t) ->
  (forall k, In k la -> Z (kposition k) = 0) -> (forall k, In k lp -> Z (kposition k) = 0) -> Z off = 0 ->
  In ka la -> (forall k, In k la -> X (kposition k) <= X (kposition ka)) -> In kp lp -> (forall k, In k lp -> X (kposition kp) <= X (kposition k)) ->
  X pv = (X (kposition ka) + X off + X (kposition kp)) / 2 ->
  exists m, alnumAlign c th y = Ok m /\ Built m /\ forall s, transformed (plus (rotY_pt (TA - TP) pv s) t) m = plus (plus s t) (P unfolded 0 0).
Proof.
  intros C ZP EA EP PA PP ZA ZPk ZO IA MA IP MP XP. unfold alnumAlign. cbv zeta. unfold maxAlnum, minPinky. rewrite EA, EP.
  destruct (best_ok (fun b x => vltb b x) (map fa la) (fa ka) (in_map fa la ka IA)) as (ka' & Ka). destruct (best_ok (fun b x => vltb x b) (map fp lp) (fp kp) (in_map fp lp kp IP)) as (kp' & Kp).
  pose proof (bestKey_in _ _ _ Ka) as I1. pose proof (bestKey_max _ _ Ka (fa ka) (in_map fa la ka IA)) as M1. pose proof (bestKey_in _ _ _ Kp) as I2. pose proof (bestKey_min _ _ Kp (fp kp) (in_map fp lp kp IP)) as M2.
  rewrite Ka, Kp. cbn [bind]. clear Ka Kp. apply in_map_iff in I1. destruct I1 as (a0 & <- & I1). apply in_map_iff in I2. destruct I2 as (b0 & <- & I2).
  rewrite !PA in M1 by assumption. rewrite !PP in M2 by assumption. rewrite (PA a0 I1), (PP b0 I2).
  assert (XB : X (kposition b0) = X (kposition kp)). { specialize (MP b0 I2). unfold plus, P, X in *. cbn [vx vy vz] in *. rn. lra. }
  assert (XA : X (kposition a0) = X (kposition ka)).
  { specialize (MA a0 I1). pose proof (ZA a0 I1) as Z1. pose proof (ZA ka IA) as Z2. unfold rotY_pt, plus, P in M1. unfold X, Y, Z in *. cbn [vx vy vz] in M1. rn. rewrite Z1, Z2, ZP in M1. apply Rle_antisym; [exact MA|]. apply Rnot_lt_le. intros L. nra. }
  set (a := TA - TP) in *. set (dl := X (kposition ka) + X off - X pv).
  destruct (fold_point a (X pv + X t) (Z t) dl depth (Y (kposition b0) + Y t) (((Y (kposition a0) + Y off + Y t) + (Y (kposition b0) + Y t)) / 2) (X (kposition b0) + X t) C) as (v & EV & ZV & XV).
  assert (EL1 : newLine (vhalf (vadd (plus (rotY_pt a pv (plus (kposition a0) off)) t) (plus (kposition b0) t))) (V (nsin (ndiv (alnumTentAngle c - pinkyTentAngle c)%num (nZ 2))) (nZ 0) (ncos (ndiv (alnumTentAngle c - pinkyTentAngle c)%num (nZ 2)))) =
    Ok (mkLine (P (X pv + X t + (dl * cos a - dl) / 2) (((Y (kposition a0) + Y off + Y t) + (Y (kposition b0) + Y t)) / 2) (Z t - dl * sin a / 2)) (P (sin (a / 2)) 0 (cos (a / 2))))).
  { unfold newLine. change (V (nsin (ndiv (alnumTentAngle c - pinkyTentAngle c)%num (nZ 2))) (nZ 0) (ncos (ndiv (alnumTentAngle c - pinkyTentAngle c)%num (nZ 2)))) with (P (sin (a / 2)) 0 (cos (a / 2))).
    rewrite vnorm_of_unit by (unfold unit_vec, inner, P, X, Y, Z; cbn [vx vy vz]; pose proof (sc1 (a / 2)); lra). cbn [bind]. f_equal. f_equal.
    pose proof (ZA a0 I1) as Z1. pose proof (ZPk b0 I2) as Z2. unfold dl. rewrite <- XA. rewrite <- XB, <- XA in XP.
    apply pt_ext; unfold vhalf, vadd, rotY_pt, plus, P; unfold X, Y, Z in *; cbn [vx vy vz]; rn; rewrite ?Z1, ?Z2, ?ZP, ?ZO; try (rewrite XP; field); try field. }
  assert (EL2 : newLine (vsub (plus (kposition b0) t) (V (nZ 0) (nZ 0) (innerHeight (keyCfg c) + th)%num)) (V (nZ 1) (nZ 0) (nZ 0)) = Ok (mkLine (P (X (kposition b0) + X t) (Y (kposition b0) + Y t) (Z t - depth)) (P 1 0 0))).
  { unfold newLine. change (V (nZ 1) (nZ 0) (nZ 0)) with (P 1 0 0). rewrite vnorm_of_unit by (unfold unit_vec, inner, P, X, Y, Z; cbn [vx vy vz]; lra). cbn [bind]. f_equal. f_equal.
    pose proof (ZPk b0 I2) as Z2. unfold depth. apply pt_ext; unfold vsub, plus, P; unfold X, Y, Z in *; cbn [vx vy vz]; rn; rewrite ?Z2; ring. }
  rewrite EL1. cbn [bind]. rewrite EL2. cbn [bind]. rewrite EV. cbn [bind]. eexists. split; [reflexivity|]. split; [apply B_rotY, B_id|]. intros s. rewrite turnY_pt. change (- (alnumTentAngle c - pinkyTentAngle c))%num with (- a).
  rewrite (unfold_pt a pv t v s depth C ZP ZV XV). reflexivity.
Qed.
(** ** the flattened layout *)
Lemma shifted_map v l f : (forall k, In k l -> forall q, transformed q (kmatrix (f k)) = plus (transformed q (kmatrix k)) v) -> shifted v l (map f l).
Proof. unfold shifted. induction l as [|k l IH]; intros H; [constructor|]. cbn [map]. constructor; [intros q; apply H; left; reflexivity|]. apply IH. intros k' I. apply H. right. exact I. Qed.
Lemma Forall2_map_r {A B} (Q : A -> B -> Prop) f l : (forall k, In k l -> Q k (f k)) -> Forall2 Q l (map f l).
Proof. induction l as [|k l IH]; intros H; [constructor|]. cbn [map]. constructor; [apply H; left; reflexivity|]. apply IH. intros k' I. apply H. right. exact I. Qed.
Lemma turned_map (g : pt -> pt) l f : (forall k, In k l -> forall q, transformed q (kmatrix (f k)) = g (transformed q (kmatrix k))) -> Forall2 (fun k0 k => forall q, transformed q (kmatrix k) = g (transformed q (kmatrix k0))) l (map f l).
Proof. induction l as [|k l IH]; intros H; [constructor|]. cbn [map]. constructor; [intros q; apply H; left; reflexivity|]. apply IH. intros k' I. apply H. right. exact I. Qed.
Theorem flatten_spec fuel side p : newPlan c fuel side = Ok p -> 0 < cos (TA - TP) -> exists y0 first rest off pv d y,
  newLayout (keyCfg c) (layoutCfg c) = Ok y0 /\ tentCreaseOffset c = Ok off /\ pinky y0 SideBoth = first :: rest /\ flattenLayout c th (planLayout p) = Ok y /\
  (Z pv = 0 /\ X d = 0 /\ Z d = 0 /\ Y d <= 0) /\
  (exists G : pt -> pt, (forall a b, G a = G b -> a = b) /\ forall s, Forall2 (fun k0 k => level k0 /\ forall q, transformed q (kmatrix k) = G (rotY_pt TA pv (plus (transformed q (kmatrix k0)) off))) (alnum y0 s) (alnum (planLayout p) s) /\
     Forall2 (fun k0 k => level k0 /\ forall q, transformed q (kmatrix k) = G (rotY_pt TP pv (transformed q (kmatrix k0)))) (pinky y0 s) (pinky (planLayout p) s)) /\
  forall s, shifted (minus origin (kposition first)) (pinky y0 s) (pinky y s) /\
    shifted (minus (plus off (P unfolded 0 0)) (kposition first)) (alnum y0 s) (alnum y s) /\
    Forall2 (fun k0 k => forall q, transformed q (kmatrix k) = minus (plus (rotY_pt (thumbTentAngle c - TP) pv (plus (transformed q (kmatrix k0)) off)) d) (kposition first)) (lthumb y0 s) (lthumb y s).
Proof.
  intros H C. destruct (newPlan_path2 c fuel side p H) as (y0 & off & ka & kp & d & M & v & L0 & CO & (IA & MA) & (IP & MP) & MV & HM).
  set (pv := P _ _ _) in MV. pose proof (newLayout_fresh _ _ _ L0) as FR. destruct (crease_form c off CO) as (YO & ZO).
  destruct MV as [BM (DX & DZ & DY) (fa & CA & EA) (ft & CT & ET) (fp & CP & EP)].
  assert (ZK : forall k, In k (lall y0 SideBoth) -> Z (kposition k) = 0) by (intros k I; destruct (FR k I) as (_ & L); unfold kposition; rewrite (L vzero); reflexivity).
  assert (BK : forall k, In k (lall y0 SideBoth) -> Built (kmatrix k)) by (intros k I; destruct (FR k I) as ((B & _) & _); exact B).
  assert (ZP : Z pv = 0). { unfold pv. change (Z (P ?a ?b ?z)) with z. rewrite (ZK ka), (ZK kp) by (apply lall_in; auto). field. }
  set (t := tau pv v).
  assert (BA : Built (pinkyAlign c)) by apply B_rotY, B_rotX, B_rotZ, B_id.
  set (A := turnKey (pinkyAlign c)). set (y1 := mapAll A (planLayout p)).
  assert (IS : forall s k, (In k (alnum y0 s) \/ In k (pinky y0 s) \/ In k (lthumb y0 s)) -> In k (lall y0 SideBoth)).
  { intros s k I. apply (lall_side y0 s). unfold lall. rewrite !in_app_iff. exact I. }
  (* the three groups after the alignment *)
  assert (O0 : X (@origin) = 0 /\ Z (@origin) = 0) by (split; reflexivity).
  assert (PA : carries (fun q => plus (rotY_pt (TA - TP) pv (plus q off)) t) (fun k => A (fa k))).
  { eapply carries_ext; [|exact (carries_comp _ _ _ _ CA (carries_turn _ BA))]. intros q. cbn beta. pose proof (aligned TA pv v M (plus q off) origin HM (proj1 O0) (proj2 O0)) as E. rewrite !plus_0_r in E. exact E. }
  assert (PP : carries (fun q => plus q t) (fun k => A (fp k))).
  { eapply carries_ext; [|exact (carries_comp _ _ _ _ CP (carries_turn _ BA))]. intros q. cbn beta. pose proof (aligned TP pv v M q origin HM (proj1 O0) (proj2 O0)) as E. rewrite !plus_0_r in E.
    replace (TP - TP) with 0 in E by ring. rewrite rotY_0 in E. exact E. }
  assert (PT : carries (fun q => plus (plus (rotY_pt (thumbTentAngle c - TP) pv (plus q off)) d) t) (fun k => A (ft k))).
  { eapply carries_ext; [|exact (carries_comp _ _ _ _ CT (carries_turn _ BA))]. intros q. cbn beta. exact (aligned (thumbTentAngle c) pv v M (plus q off) d HM DX DZ). }
  assert (A1 : forall s, alnum y1 s = map (fun k => A (fa k)) (alnum y0 s)) by (intros s; unfold y1; rewrite alnum_all, EA, map_map; reflexivity).
  assert (P1 : forall s, pinky y1 s = map (fun k => A (fp k)) (pinky y0 s)) by (intros s; unfold y1; rewrite pinky_all, EP, map_map; reflexivity).
  assert (T1 : forall s, lthumb y1 s = map (fun k => A (ft k)) (lthumb y0 s)) by (intros s; unfold y1; rewrite thumb_all, ET, map_map; reflexivity).
  destruct (alnumAlign_ok y1 pv t off (alnum y0 SideBoth) (pinky y0 SideBoth) (fun k => A (fa k)) (fun k => A (fp k)) ka kp C ZP (A1 _) (P1 _)) as (m & EM & Bm & Hm); try assumption; try reflexivity.
  { intros k I. destruct (PA k) as (_ & Q & _); [apply BK, (IS SideBoth); auto|]. apply Q. }
  { intros k I. destruct (PP k) as (_ & Q & _); [apply BK, (IS SideBoth); auto|]. apply Q. }
  { intros k I. apply ZK, (IS SideBoth). auto. }
  { intros k I. apply ZK, (IS SideBoth). auto. }
  destruct (pinky y0 SideBoth) as [|first rest] eqn:EF; [destruct IP|].
  assert (IF : In first (lall y0 SideBoth)) by (apply (IS SideBoth); right; left; rewrite EF; left; reflexivity).
  set (y2 := mapFingers 0 (turnKey m) y1).
  assert (A2 : forall s, alnum y2 s = map (turnKey m) (alnum y1 s)) by (intros s; unfold y2, alnum; rewrite lgroup_map; reflexivity).
  assert (P2 : forall s, pinky y2 s = pinky y1 s) by (intros s; unfold y2, pinky; rewrite lgroup_map; reflexivity).
  assert (T2 : forall s, lthumb y2 s = lthumb y1 s) by (intros s; unfold y2; apply lthumb_fingers).
  assert (F2 : pyidx (pinky y2 SideBoth) 0 = Ok (A (fp first))) by (rewrite P2, P1, EF; reflexivity).
  assert (O2 : kposition (A (fp first)) = plus (kposition first) t) by (destruct (PP first (BK _ IF)) as (_ & Q & _); apply Q).
  exists y0, first, rest, off, pv, d, (mapAll (move (vopp (kposition (A (fp first))))) y2).
  split; [exact L0|]. split; [exact CO|]. split; [exact EF|]. split; [unfold flattenLayout; fold A; fold y1; rewrite EM; cbn [bind]; fold y2; rewrite F2; reflexivity|].
  split; [auto|]. split.
  { exists (fun q => transformed q M). split.
    - intros a b E. cbn beta in E. assert (SQ : sqdist (transformed a M) (transformed b M) = sqdist a b) by (apply (built_iso M BM)). rewrite E in SQ. assert (S0 : sqdist a b = 0) by (rewrite <- SQ; unfold sqdist, Rsqr; ring).
      unfold sqdist, Rsqr in S0. set (dx := X a - X b) in *. set (dy := Y a - Y b) in *. set (dz := Z a - Z b) in *.
      pose proof (Rle_0_sqr dx) as H1. pose proof (Rle_0_sqr dy) as H2. pose proof (Rle_0_sqr dz) as H3. unfold Rsqr in *.
      apply pt_ext; apply Rminus_diag_uniq; [fold dx|fold dy|fold dz]; apply Rsqr_0_uniq; unfold Rsqr; lra.
    - intros s. split; [rewrite EA|rewrite EP]; apply Forall2_map_r; intros k I.
      + assert (J : In k (lall y0 SideBoth)) by (apply (IS s); auto). split; [apply (FR k J)|]. destruct (CA k (BK k J)) as (_ & Q & _). exact Q.
      + assert (J : In k (lall y0 SideBoth)) by (apply (IS s); auto). split; [apply (FR k J)|]. destruct (CP k (BK k J)) as (_ & Q & _). exact Q. }
  rewrite O2. set (w := vopp (plus (kposition first) t)).
  assert (EW : forall a : pt, plus (plus a t) w = minus a (kposition first)) by (intros a; apply pt_ext; unfold w, vopp, plus, minus, P, X, Y, Z; cbn [vx vy vz]; rn; ring).
  intros s. split; [|split].
  - rewrite pinky_all, P2, P1, map_map. apply shifted_map. intros k I q. destruct (carries_comp _ _ _ _ PP (carries_move w) k (BK k (IS s k (or_intror (or_introl I))))) as (_ & Q & _). rewrite Q, EW.
    apply pt_ext; unfold plus, minus, origin, P, X, Y, Z; cbn [vx vy vz]; rn; ring.
  - rewrite alnum_all, A2, A1, !map_map. apply shifted_map. intros k I q. destruct (carries_comp _ _ _ _ (carries_comp _ _ _ _ PA (carries_turn m Bm)) (carries_move w) k (BK k (IS s k (or_introl I)))) as (_ & Q & _). rewrite Q, Hm.
    apply pt_ext; unfold w, vopp, plus, minus, P, X, Y, Z; cbn [vx vy vz]; rn; ring.
  - rewrite thumb_all, T2, T1, map_map. apply (turned_map (fun q => minus (plus (rotY_pt (thumbTentAngle c - TP) pv (plus q off)) d) (kposition first))). intros k I q. destruct (carries_comp _ _ _ _ PT (carries_move w) k (BK k (IS s k (or_intror (or_intror I))))) as (_ & Q & _). rewrite Q, EW. reflexivity.
Qed.
(** ** the crease of the board *)
Lemma crease_pt a (pv u w : pt) H : 0 < cos a -> Z u = - H -> Z w = - H -> Z pv = 0 -> rotY_pt a pv u = w -> w = plus u (P (- (2 * H * tan (a / 2))) 0 0).
Proof.
  intros C ZU ZW ZP E. destruct (half_angle a) as (Ec & Es). pose proof (sc1 (a / 2)) as S1. pose proof (sc1 a) as S2.
  assert (TN : tan (a / 2) = sin (a / 2) / cos (a / 2)) by reflexivity. set (si := sin (a / 2)) in *. set (co := cos (a / 2)) in *. assert (NC : co <> 0) by (intros Z0; rewrite Z0 in *; nra).
  assert (T1 : tan (a / 2) * sin a = 1 - cos a) by (rewrite TN, Es, Ec; field_simplify; [nra|exact NC]).
  assert (T2 : tan (a / 2) * (1 + cos a) = sin a). { rewrite TN, Es, Ec. assert (E1 : co * co = 1 - si * si) by lra. replace (1 + (co * co - si * si)) with (2 * (co * co)) by lra. field. exact NC. }
  clearbody si co. set (tn := tan (a / 2)) in *. clearbody tn.
  assert (EX : X w = X pv + ((Z u - Z pv) * sin a + (X u - X pv) * cos a)) by (rewrite <- E; reflexivity).
  assert (EZ : Z w = Z pv + ((Z u - Z pv) * cos a - (X u - X pv) * sin a)) by (rewrite <- E; reflexivity).
  assert (EY : Y w = Y u) by (rewrite <- E; reflexivity). rewrite ZU, ZW, ZP in *. set (x := X u - X pv) in *.
  assert (K : x * sin a = H * (1 - cos a)) by lra.
  assert (XX : x * (1 - cos a) = H * tn * (1 - cos a)). { transitivity (tn * (x * sin a)); [rewrite <- T1; ring|rewrite K; ring]. }
  assert (G : X w = X u - 2 * H * tn).
  { rewrite EX. assert (EU : X u = X pv + x) by (unfold x; ring). rewrite EU. replace ((- H - 0) * sin a) with (- H * (tn * (1 + cos a))) by (rewrite T2; ring). clearbody x.
    assert (D : (1 - cos a) * (x - H * tn) = 0) by lra. lra. }
  apply pt_ext; [change (X w = X u + - (2 * H * tn))|change (Y w = Y u + 0)|change (Z w = Z u + 0)]; lra.
Qed.
Theorem crease_kept fuel side p y : newPlan c fuel side = Ok p -> 0 < cos (TA - TP) -> flattenLayout c th (planLayout p) = Ok y ->
  forall s s' i j ka kp ka' kp', nth_error (alnum (planLayout p) s) i = Some ka -> nth_error (alnum y s) i = Some ka' -> nth_error (pinky (planLayout p) s') j = Some kp -> nth_error (pinky y s') j = Some kp' ->
  forall q q', Z q = - depth -> Z q' = - depth -> transformed q (kmatrix ka) = transformed q' (kmatrix kp) -> transformed q (kmatrix ka') = transformed q' (kmatrix kp').
Proof.
  intros H C F s s' i j ka kp ka' kp' Ha Ha' Hp Hp' q q' Zq Zq' E.
  destruct (flatten_spec fuel side p H C) as (y0 & first & rest & off & pv & d & y' & _ & CO & _ & F' & (ZP & _) & (G & IG & GS) & FS). rewrite F in F'. apply Ok_inj in F'. subst y'.
  destruct (crease_form c off CO) as (YO & ZO).
  assert (N2 : forall {A B} (Q : A -> B -> Prop) l m i b, Forall2 Q l m -> nth_error m i = Some b -> exists a, nth_error l i = Some a /\ Q a b).
  { clear. intros A B Q l m i b FF. revert i. induction FF as [|x z l m xz _ IH]; intros [|i] Hi; try discriminate; [injection Hi as <-; exists x; auto|exact (IH i Hi)]. }
  destruct (GS s) as (GA & _). destruct (GS s') as (_ & GP). destruct (FS s) as (_ & SA & _). destruct (FS s') as (SP & _).
  destruct (N2 _ _ _ _ _ _ _ GA Ha) as (a0 & A0 & LA & QA). destruct (N2 _ _ _ _ _ _ _ SA Ha') as (a1 & A1 & QA'). rewrite A0 in A1. injection A1 as <-.
  destruct (N2 _ _ _ _ _ _ _ GP Hp) as (p0 & P0 & LP & QP). destruct (N2 _ _ _ _ _ _ _ SP Hp') as (p1 & P1 & QP'). rewrite P0 in P1. injection P1 as <-.
  rewrite QA, QP in E. apply IG in E. rewrite QA', QP'. pose proof (LA q) as Z1. pose proof (LP q') as Z2. rewrite Zq in Z1. rewrite Zq' in Z2.
  set (u := transformed q (kmatrix a0)) in *. set (w := transformed q' (kmatrix p0)) in *. clearbody u w.
  assert (EW : rotY_pt (TA - TP) pv (plus u off) = w). { replace (TA - TP) with (TA + - TP) by ring. rewrite <- rotY_add, E, rotY_add. replace (TP + - TP) with 0 by ring. apply rotY_0. }
  apply (crease_pt _ _ _ _ depth) in EW; [|exact C|unfold plus, P, Z in *; cbn [vz]; rn; lra|exact Z2|exact ZP]. rewrite EW. fold unfolded.
  apply pt_ext; unfold plus, minus, origin, P, X, Y, Z; cbn [vx vy vz]; rn; ring.
Qed.
End Flat.
