(** C83: the rubber feet of the floor keep their margin. *)
From Coq Require Import Reals Lra Psatz ZArith List Bool Arith Lia.
From Verif Require Import Num GeoModel EdgeModel GeoSpec GeoMat GeoCirc ArcModel ArcSpec ArcProof ArcCorner MeshModel LayoutModel BossModel PlanModel BracketModel BumperModel BodyModel FloorModel LayoutProof PartProof EdgeSpecR BumpSpec BumpProof ArcShape.
From Verif Require Import Calc P_Layout P_Solid P_Plan P_Palm P_Body P_Floor.
Import ListNotations.
Open Scope R_scope.

Section Arcs.
Variable q : @quality Rnum.
(* the hole of a whole bumper *)
Lemma whole_points bc (z : R) (pos : pt) b : 2 * eps <= bu_diameter bc -> newBumper q bc z pos false = Ok b ->
  forall p, In p (buFloor b) -> edist2 p pos = bu_diameter bc / 2 /\ Z p = - z.
Proof.
  intros HD H p IP. unfold newBumper in H. cbv zeta in H. apply bind_ok in H. destruct H as (arc & EA & H). apply Ok_inj in H. subst b. cbn [buFloor] in IP.
  destruct (arc_shape q (bu_diameter bc / 2) _ _ _ _ ltac:(lra) EA) as (n & k & EL & _). unfold etranslated in IP. rewrite EL, map_map in IP. apply in_map_iff in IP. destruct IP as (i & <- & _).
  set (t := _ + INR i * _). set (r := bu_diameter bc / 2) in *. split.
  - unfold edist2. transitivity (sqrt (r * r)); [|apply sqrt_square; unfold r, eps in *; lra]. f_equal.
    transitivity (r * r * ((sin t)² + (cos t)²)); [|rewrite sin2_cos2; ring].
    clearbody t r. destruct pos as [p1 p2 p3]; unfold sqdist2, Rsqr, X, Y, P; cbn; rn; ring.
  - destruct pos as [p1 p2 p3]; unfold Z, P; cbn; rn; ring.
Qed.
Lemma snap1_cases (x : R) : @snap1 Rnum x = x \/ @snap1 Rnum x = 0.
Proof. unfold snap1. destruct (isZero _); [right|left]; reflexivity. Qed.
Lemma snap1_far (x : R) : eps <= Rabs x -> @snap1 Rnum x = x.
Proof. intros H. unfold snap1, isZero. destruct (nltb _ _) eqn:C; [|reflexivity]. change (Rltb (Rabs x) eps = true) in C. apply Rltb_true in C. lra. Qed.
Lemma snap1_0 : @snap1 Rnum (0 : R) = 0.
Proof. destruct (snap1_cases 0); assumption. Qed.
Lemma half_points (r : R) l : eps <= r -> l <> [] -> rmap esnapped (@arc2D Rnum q r (ndiv (Num := Rnum) (- npi)%num (nZ 2)) npi vzero) = Ok l ->
  hd vzero l = P 0 (- r) 0 /\ last l vzero = P 0 r 0 /\ forall p, In p l -> 0 <= X p <= r /\ - r <= Y p <= r /\ Z p = 0.
Proof.
  intros HR NE H. destruct (arc2D _ _ _ _) as [a|] eqn:EA; [|discriminate]. cbn [rmap] in H. apply Ok_inj in H. subst l. pose proof eps_pos as EP. pose proof PI_RGT_0 as PP.
  destruct (arc_shape q r _ _ _ _ HR EA) as (n & k & EL & NZ & K & KF). clear EA.
  assert (TL : turn_limited npi = PI). { apply turn_limited_id. change (Rabs PI <= 2 * PI). rewrite Rabs_right; lra. }
  rewrite TL in *. assert (K1 : k = 1%Z). { apply KF. rewrite (Rabs_right PI) by lra. rewrite Rabs_left by lra. pose proof PI_4. pose proof PI2_3_2 as Q3. unfold eps, PI2 in *. lra. } clear KF K. subst k.
  assert (N0 : (0 < n)%Z). { destruct (Z.lt_trichotomy n 0) as [L|[L|L]]; [|contradiction|exact L]. exfalso. apply NE. rewrite EL. replace (Z.to_nat (n + 1)) with 0%nat by lia. reflexivity. }
  set (m := Z.to_nat n) in *. assert (EN : Z.to_nat (n + 1) = S m) by (unfold m; lia). assert (IN : IZR n = INR m) by (unfold m; rewrite INR_IZR_INZ, Z2Nat.id by lia; reflexivity).
  assert (M0 : 0 < INR m) by (apply lt_0_INR; unfold m; lia). rewrite EN in EL.
  set (f := fun i : nat => P (r * cos (- (PI / 2) + INR i * (PI / INR m))) (r * sin (- (PI / 2) + INR i * (PI / INR m))) 0).
  assert (EL2 : a = map f (seq 0 (S m))).
  { rewrite EL. apply map_ext. intros i. unfold f. rewrite IN. change (@ndiv Rnum (@nopp Rnum npi) (nZ 2)) with (- PI / 2). replace (- PI / 2) with (- (PI / 2)) by field. apply pt_ext; unfold X, Y, Z, P; cbn; rn; ring. }
  assert (F0 : vsnapped (f 0%nat) = P 0 (- r) 0).
  { unfold f. replace (- (PI / 2) + INR 0 * (PI / INR m)) with (- (PI / 2)) by (cbn; ring). rewrite cos_neg, sin_neg, cos_PI2, sin_PI2. unfold vsnapped, P. cbn [vx vy vz].
    replace (r * - (1)) with (- r) by ring. replace (r * 0) with 0 by ring. rewrite snap1_0. rewrite (snap1_far (- r)) by (rewrite Rabs_Ropp, Rabs_right; lra). reflexivity. }
  assert (FM : vsnapped (f m) = P 0 r 0).
  { unfold f. replace (- (PI / 2) + INR m * (PI / INR m)) with (PI / 2) by (field; lra). rewrite cos_PI2, sin_PI2. unfold vsnapped, P. cbn [vx vy vz].
    replace (r * 0) with 0 by ring. replace (r * 1) with r by ring. rewrite snap1_0. rewrite snap1_far by (rewrite Rabs_right; lra). reflexivity. }
  unfold esnapped. rewrite EL2, map_map. split; [|split].
  - cbn [seq map hd]. exact F0.
  - rewrite seq_S, map_app. cbn [map]. rewrite last_last. exact FM.
  - intros p IP. apply in_map_iff in IP. destruct IP as (i & <- & IS). apply in_seq in IS. assert (I0 : 0 <= INR i) by apply pos_INR. assert (IM : INR i <= INR m) by (apply le_INR; lia).
    set (t := - (PI / 2) + INR i * (PI / INR m)). assert (T : - (PI / 2) <= t <= PI / 2).
    { assert (Q : 0 <= INR i / INR m <= 1). { split; [apply Rmult_le_pos; [exact I0|left; apply Rinv_0_lt_compat, M0]|]. apply Rmult_le_reg_r with (INR m); [exact M0|]. unfold Rdiv. rewrite Rmult_assoc, Rinv_l by lra. lra. }
      unfold t. replace (INR i * (PI / INR m)) with ((INR i / INR m) * PI) by (field; lra). nra. }
    assert (C0 : 0 <= cos t) by (apply cos_ge_0; lra). destruct (COS_bound t) as [C1 C2]. destruct (SIN_bound t) as [S1 S2].
    unfold f. fold t. change (X (vsnapped (P (r * cos t) (r * sin t) 0))) with (@snap1 Rnum (r * cos t)). change (Y (vsnapped (P (r * cos t) (r * sin t) 0))) with (@snap1 Rnum (r * sin t)). change (Z (vsnapped (P (r * cos t) (r * sin t) 0))) with (@snap1 Rnum (0 : R)).
    rewrite snap1_0. destruct (snap1_cases (r * cos t)) as [-> | ->], (snap1_cases (r * sin t)) as [-> | ->]; (split; [|split; [|reflexivity]]); nra.
Qed.
Lemma half_shape bc (z : R) (pos : pt) b : 2 * eps <= bu_diameter bc -> newBumper q bc z pos true = Ok b ->
  let r : R := bu_diameter bc / 2 in
  (forall p, In p (buFloor b) -> X pos <= X p <= X pos + r /\ Y pos - r <= Y p <= Y pos + r /\ Z p = - z) /\
  buSplit b = [P (X pos) (Y pos + r) (- z); P (X pos) (Y pos + r) (- z + bu_height bc); P (X pos) (Y pos - r) (- z + bu_height bc); P (X pos) (Y pos - r) (- z)].
Proof.
  intros HD H r. unfold newBumper in H. cbv zeta in H. apply bind_ok in H. destruct H as (arc & EA & H).
  apply bind_ok in H. destruct H as (g1 & G1 & H). apply bind_ok in H. destruct H as (t1 & T1 & H). apply bind_ok in H. destruct H as (t0 & T0 & H). apply bind_ok in H. destruct H as (g0 & G0 & H).
  apply Ok_inj in H. subst b. cbn [buFloor buSplit].
  assert (NE : arc <> []) by (intros E; rewrite E in G0; cbn in G0; discriminate).
  destruct (half_points r arc ltac:(unfold r; lra) NE EA) as (H0 & HL & HP).
  assert (HD0 : forall v a, pyidx (etranslated arc v) 0 = Ok a -> a = vadd (P 0 (- r) 0) v).
  { intros v a E. rewrite pyidx_first in E. destruct arc as [|x l]; [contradiction|]. cbn in E. cbn [hd] in H0. rewrite H0 in E. apply Ok_inj in E. symmetry. exact E. }
  assert (HDL : forall v a, pyidx (etranslated arc v) (-1) = Ok a -> a = vadd (P 0 r 0) v).
  { intros v a E. rewrite pyidx_last in E. unfold etranslated in E. rewrite <- map_rev in E. destruct (exists_last NE) as (l & x & EX). rewrite EX, last_last in HL. rewrite EX, rev_app_distr, HL in E. cbn in E. apply Ok_inj in E. symmetry. exact E. }
  apply HD0 in T0. apply HD0 in G0. apply HDL in T1. apply HDL in G1. subst g0 g1 t0 t1. split.
  - intros p IP. unfold etranslated in IP. apply in_map_iff in IP. destruct IP as (x & <- & IX). apply HP in IX. destruct IX as (A & B & C). destruct pos as [p1 p2 p3], x as [x1 x2 x3]. unfold X, Y, Z in *. cbn in *. rn. cbn in *. lra.
  - destruct pos as [p1 p2 p3]. repeat (apply f_equal2; [apply pt_ext; unfold X, Y, Z, P; cbn; rn; ring|]). reflexivity.
Qed.
End Arcs.

(** C83: the two whole feet of a floor half lie so deep in the rounded corners at the outer end that everything closer to them than the
    margin belongs to the corner too; they are open at the underside *)
Theorem C83_corner_feet : forall q taper pmod (c : @floor_cfg Rnum) fuel pn bd fl bc,
  newFloor q taper pmod c fuel pn bd = Ok fl -> fl_bumper c = Some bc ->
  0 <= bu_margin bc -> 2 * eps <= bu_diameter bc -> 0 <= fl_cornerRadius c ->
  let pts := planPoints pn in
  side (pinkyORBp pts) (alnumOLBp pts) (pinkyORFp pts) <> 0 -> side (pinkyORFp pts) (pinkyORBp pts) (thumbORFp pts) <> 0 ->
  exists back front, flFeet fl = [back; front] /\
    (forall p x, In p back -> edist2 x p <= bu_margin bc -> in_rounded (fl_cornerRadius c) (alnumOLBp pts) (pinkyORBp pts) (pinkyORFp pts) x) /\
    (forall p x, In p front -> edist2 x p <= bu_margin bc -> in_rounded (fl_cornerRadius c) (pinkyORBp pts) (pinkyORFp pts) (thumbORFp pts) x) /\
    (forall p, In p (back ++ front) -> Z p = - fl_outerHeight c).
Proof.
  intros q taper pmod c fuel pn bd fl bc H EB HM HD HR pts T1 T2. unfold newFloor in H.
  apply bind_ok in H. destruct H as (sk & _ & H). apply bind_ok in H. destruct H as (f & _ & H). apply bind_ok in H. destruct H as ([[h1 h2] h3] & _ & H). apply bind_ok in H. destruct H as ([[[b1 b2] b3] b4] & HB & H). cbv zeta in H.
  do 4 (apply bind_ok in H; destruct H as (? & _ & H)). apply Ok_inj in H. subst fl. cbn [flFeet]. fold pts in HB.
  unfold floorBumpers in HB. rewrite EB in HB. cbv zeta in HB. set (inset := nadd (bu_margin bc) (ndiv (bu_diameter bc) (nZ 2))) in *.
  apply bind_ok in HB. destruct HB as (rf & E1 & HB). apply bind_ok in HB. destruct HB as (bRF & E2 & HB). apply bind_ok in HB. destruct HB as (rb & E3 & HB). apply bind_ok in HB. destruct HB as (bRB & E4 & HB).
  do 4 (apply bind_ok in HB; destruct HB as (? & _ & HB)). apply Ok_inj in HB. apply pair_inj in HB. destruct HB as [HB _]. apply pair_inj in HB. destruct HB as [HB _]. apply pair_inj in HB. destruct HB as [HB _]. subst b1.
  pose proof eps_pos as EP. assert (EI : inset = bu_margin bc + bu_diameter bc / 2) by reflexivity.
  pose proof (whole_points q bc (fl_outerHeight c) rf bRF HD E2) as W1. pose proof (whole_points q bc (fl_outerHeight c) rb bRB HD E4) as W2.
  exists (buFloor bRF), (buFloor bRB). split; [reflexivity|]. split; [|split].
  - intros p y IP EX. apply (corner_room _ _ _ T1 c inset rf y); [rewrite EI; lra|exact HR|exact E1|]. eapply Rle_trans; [apply (edist2_triangle y p)|]. rewrite EI. destruct (W1 p IP) as [W _]. rewrite W. lra.
  - intros p y IP EX. apply (corner_room _ _ _ T2 c inset rb y); [rewrite EI; lra|exact HR|exact E3|]. eapply Rle_trans; [apply (edist2_triangle y p)|]. rewrite EI. destruct (W2 p IP) as [W _]. rewrite W. lra.
  - intros p IP. apply in_app_or in IP. destruct IP as [IP|IP]; [exact (proj2 (W1 p IP))|exact (proj2 (W2 p IP))].
Qed.
(** C83: the two half feet at the split plane: they begin at the margin from the front and from the back end of the outline, reach
    one diameter further, have their flat sides in the split plane, and the recess has the height of the feet *)
Theorem C83_split_feet : forall q taper pmod (c : @floor_cfg Rnum) fuel pn bd fl bc p0 rest,
  newFloor q taper pmod c fuel pn bd = Ok fl -> fl_bumper c = Some bc -> 2 * eps <= bu_diameter bc ->
  flProfile fl = p0 :: rest ->
  let d := bu_diameter bc in let m := bu_margin bc in let a := hd vzero p0 in let b := last p0 vzero in let z := - fl_outerHeight c in let zt := - fl_outerHeight c + bu_height bc in
  exists front back, flFeetEdge fl = front ++ back /\
    (forall p, In p front -> X a <= X p <= X a + d / 2 /\ Y a + m <= Y p <= Y a + m + d /\ Z p = z) /\
    (forall p, In p back -> X b <= X p <= X b + d / 2 /\ Y b - m - d <= Y p <= Y b - m /\ Z p = z) /\
    flFeetSplit fl = [P (X b) (Y b - m) z; P (X b) (Y b - m) zt; P (X b) (Y b - m - d) zt; P (X b) (Y b - m - d) z;
                      P (X a) (Y a + m + d) z; P (X a) (Y a + m + d) zt; P (X a) (Y a + m) zt; P (X a) (Y a + m) z].
Proof.
  intros q taper pmod c fuel pn bd fl bc p0 rest H EB HD HP d m a b z zt. unfold newFloor in H.
  apply bind_ok in H. destruct H as (sk & _ & H). apply bind_ok in H. destruct H as (f & HF & H). apply bind_ok in H. destruct H as ([[h1 h2] h3] & _ & H). apply bind_ok in H. destruct H as ([[[b1 b2] b3] b4] & HB & H). cbv zeta in H.
  do 4 (apply bind_ok in H; destruct H as (? & _ & H)). apply Ok_inj in H. subst fl. cbn [flFeetEdge flFeetSplit flProfile] in *. subst sk.
  assert (F0 : f0 f = p0).
  { unfold floorBrackets in HF. destruct rest as [|p1 [|p2 [|p3 [|p4 [|p5 [|p6 [|]]]]]]]; try discriminate. destruct (fl_bracket c) as [kc|].
    - repeat first [apply Ok_inj in HF | let v := fresh "v" in apply bind_ok in HF; destruct HF as (v & _ & HF)]. subst f. reflexivity.
    - repeat first [apply Ok_inj in HF | let v := fresh "v" in apply bind_ok in HF; destruct HF as (v & _ & HF)]. subst f. reflexivity. }
  rewrite F0 in HB. unfold floorBumpers in HB. rewrite EB in HB. cbv zeta in HB.
  do 4 (apply bind_ok in HB; destruct HB as (? & _ & HB)). apply bind_ok in HB. destruct HB as (a' & EA & HB). apply bind_ok in HB. destruct HB as (bLF & E1 & HB). apply bind_ok in HB. destruct HB as (b' & EBb & HB). apply bind_ok in HB. destruct HB as (bLB & E2 & HB).
  apply Ok_inj in HB. apply pair_inj in HB. destruct HB as [HB _]. apply pair_inj in HB. destruct HB as [HB H3]. apply pair_inj in HB. destruct HB as [_ H2]. subst b2 b3.
  assert (NE : p0 <> []) by (intros E; rewrite E in EA; discriminate).
  assert (AA : a' = a). { rewrite pyidx_first in EA. unfold a. destruct p0 as [|y l]; [contradiction|]. apply Ok_inj in EA. symmetry. exact EA. }
  assert (BB : b' = b). { rewrite pyidx_last in EBb. unfold b. destruct (exists_last NE) as (l & y & EX). rewrite EX, rev_app_distr in EBb. rewrite EX, last_last. cbn in EBb. apply Ok_inj in EBb. symmetry. exact EBb. }
  subst a' b'. clearbody a b. destruct (half_shape q bc _ _ _ HD E1) as [F1 S1]. destruct (half_shape q bc _ _ _ HD E2) as [F2 S2].
  exists (buFloor bLF), (buFloor bLB). split; [reflexivity|]. split; [|split].
  - intros p IP. specialize (F1 p IP). unfold d, m, z. destruct a as [a1 a2 a3], p as [y1 y2 y3]. unfold X, Y, Z in *. cbn in *. rn. cbn in *. lra.
  - intros p IP. specialize (F2 p IP). unfold d, m, z. destruct b as [a1 a2 a3], p as [y1 y2 y3]. unfold X, Y, Z in *. cbn in *. rn. cbn in *. lra.
  - rewrite S1, S2. unfold d, m, z, zt. destruct a as [a1 a2 a3], b as [b1' b2' b3']. unfold app. repeat (apply f_equal2; [apply pt_ext; unfold X, Y, Z, P; cbn; rn; field|]). reflexivity.
Qed.

(** The hypotheses hold for the layout, body and floor of the other examples of this development; the feet are really there *)
Open Scope Z_scope.
Definition turnb (b a c : @vec Calc) : bool := let s := nsub (nmul (nsub (vx a) (vx b)) (nsub (vy c) (vy b))) (nmul (nsub (vy a) (vy b)) (nsub (vx c) (vx b))) in
  (nltb (dq 1 1) (nabs s))%num.
Example C83_nonvacuous : match newPlan (plan_wide boss_default) 20 SideRight with
  | Ok p => match newBody q_mid (Some (P_Plan.deg 45 1)) cmod casin body_full p with
    | Ok b => match newFloor q_mid (Some (P_Plan.deg 45 1)) cmod floor_full 30 p b with
      | Ok fl => let pts := planPoints p in turnb (pinkyORBp pts) (alnumOLBp pts) (pinkyORFp pts) && turnb (pinkyORFp pts) (pinkyORBp pts) (thumbORFp pts) &&
          (length (flFeet fl) =? 2)%nat && forallb (fun h => (5 <? length h)%nat) (flFeet fl) && (length (flFeetSplit fl) =? 8)%nat && (5 <? length (flFeetEdge fl))%nat
      | Err _ => false end
    | Err _ => false end
  | Err _ => false end = true.
Proof. vm_cast_no_check (eq_refl true). Qed.
