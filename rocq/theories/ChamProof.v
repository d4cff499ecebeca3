(** Chamfers. *)
From Coq Require Import Reals Lra Psatz ZArith List Bool Arith Lia.
From Verif Require Import Num GeoModel EdgeModel GeoSpec GeoMat GeoRigid GeoPlane PartProof CableProof MeshModel LayoutModel BossModel PlanModel BracketModel BumperModel BodyModel PalmBox ChamSpec.
Import ListNotations.
Open Scope R_scope.

Ltac vr := unfold origin, triple, inner, minus, plus, scaled, vcross, vsub, vadd, vscale, vopp, P, X, Y, Z; cbn [vx vy vz]; rn.
Lemma gram (r n d : pt) : triple n d r * triple n d r = inner r r * (inner n n * inner d d - inner n d * inner n d) - inner r n * (inner r n * inner d d - inner n d * inner r d) + inner r d * (inner r n * inner n d - inner n n * inner r d).
Proof. destruct r as [r1 r2 r3], n as [n1 n2 n3], d as [d1 d2 d3]. vr. ring. Qed.
(* a vector in the plane, at a right angle to two directions of the plane that differ *)
Lemma plane_zero (r n d e : pt) : unit_vec n -> unit_vec d -> unit_vec e -> inner n d = 0 -> inner n e = 0 -> inner d e * inner d e <> 1 -> inner r n = 0 -> inner r d = 0 -> inner r e = 0 -> r = origin.
Proof.
  intros Un Ud Ue ND NE DE RN RD RE. unfold unit_vec in *. apply inner_zero.
  pose proof (gram e n d) as G1. pose proof (gram r n d) as G2. rewrite Un, Ud, Ue, ND, RN, RD in *. replace (inner e n) with (inner n e) in G1 by (vr; ring). rewrite NE in G1. replace (inner e d) with (inner d e) in G1 by (vr; ring).
  (* triple n d e and triple n d r: r . e expressed in the frame d, n x d *)
  assert (EX : inner r e = inner r d * inner d e + triple n d r * triple n d e + inner r n * inner n e + 0 -> True) by auto. clear EX.
  assert (L : (triple n d r * triple n d e) * (triple n d r * triple n d e) = (inner r r * 1) * (1 - inner d e * inner d e)).
  { transitivity ((triple n d r * triple n d r) * (triple n d e * triple n d e)); [ring|]. rewrite G1, G2. ring. }
  assert (GB : triple n d r * triple n d e = inner r e * (inner n n * inner d d - inner n d * inner n d) - inner r n * (inner n e * inner d d - inner n d * inner d e) + inner r d * (inner n e * inner n d - inner n n * inner d e)).
  { destruct r as [r1 r2 r3], n as [n1 n2 n3], d as [d1 d2 d3], e as [e1 e2 e3]. vr. ring. }
  rewrite RE, RN, RD in GB. assert (T : triple n d r * triple n d e = 0) by (rewrite GB; ring). rewrite T in L. assert (Q : inner r r * (1 - inner d e * inner d e) = 0) by lra.
  apply Rmult_integral in Q. destruct Q as [Q|Q]; [exact Q|]. exfalso. apply DE. lra.
Qed.
Lemma scaled_inner k (u v : pt) : inner u (scaled k v) = k * inner u v. Proof. vr. ring. Qed.
Lemma triple_scaled k (n u v : pt) : triple n (scaled k u) v = k * triple n u v. Proof. vr. ring. Qed.
Lemma cross_unit (n d : pt) : unit_vec n -> unit_vec d -> inner n d = 0 -> unit_vec (vcross n d).
Proof.
  intros Un Ud ND. unfold unit_vec in *. transitivity (inner n n * inner d d - inner n d * inner n d); [|rewrite Un, Ud, ND; ring].
  destruct n as [n1 n2 n3], d as [d1 d2 d3]. vr. ring.
Qed.
Lemma cross_triple (n d v : pt) : inner v (vcross n d) = triple n d v. Proof. destruct n as [n1 n2 n3], d as [d1 d2 d3], v as [v1 v2 v3]. vr. ring. Qed.
Lemma dropped_is pl (v w : pt) : wf_plane pl -> projectNormal pl v = Ok w -> w = dropped (pnormal pl) (ppos pl) v.
Proof.
  intros W H. destruct (projectNormal_spec pl v W) as (w' & E & ON & (k & EK) & _). rewrite E in H. apply Ok_inj in H. subst w'. rewrite EK. unfold dropped.
  assert (K : k = - inner (minus v (ppos pl)) (pnormal pl)).
  { unfold on_plane in ON. rewrite EK in ON. unfold wf_plane, unit_vec in W. assert (Q : inner (minus (plus v (scaled k (pnormal pl))) (ppos pl)) (pnormal pl) = inner (minus v (ppos pl)) (pnormal pl) + k * inner (pnormal pl) (pnormal pl)) by (vr; ring). rewrite Q, W in ON. lra. }
  rewrite K. apply pt_ext; vr; ring.
Qed.
Lemma dropped_flat n b a : unit_vec n -> inner (minus (dropped n b a) b) n = 0.
Proof. intros U. unfold unit_vec in U. unfold dropped. transitivity (inner (minus a b) n * (1 - inner n n)); [|rewrite U; ring]. destruct a as [a1 a2 a3], b as [b1 b2 b3], n as [n1 n2 n3]. vr. match goal with |- ?l = ?r => change ((l : R) = (r : R)) end. ring. Qed.
Lemma ne_minus (a b : pt) : minus a b <> origin -> a <> b. Proof. intros H E. apply H. subst a. apply pt_ext; vr; ring. Qed.

Lemma minus_zero (x y : pt) : minus x y = origin -> x = y.
Proof. intros H. pose proof (f_equal X H) as H1. pose proof (f_equal Y H) as H2. pose proof (f_equal Z H) as H3. destruct x as [x1 x2 x3], y as [y1 y2 y3]. unfold minus, origin, P, X, Y, Z in *. cbn [vx vy vz] in *. apply pt_ext; unfold X, Y, Z; cbn [vx vy vz]; lra. Qed.

(* the core: two offset lines in a plane *)
Lemma offsets_meet (n b du dw v : pt) (s : R) l1 l2 : unit_vec n -> unit_vec du -> unit_vec dw -> inner n du = 0 -> inner n dw = 0 ->
  l1 = mkLine (plus b (scaled s (vcross n du))) du -> l2 = mkLine (plus b (scaled s (vcross n dw))) dw ->
  match lintersect l1 l2 with Err ZeroDivision => Ok (lpos l1) | r => r end = Ok v ->
  inner (minus v b) n = 0 /\ triple n du (minus v b) = s /\ (triple n dw (minus v b) = s \/ (1 - eps < inner du dw * inner du dw /\ triple n dw (minus v b) = s * inner du dw)).
Proof.
  intros Un Uu Uw Nu Nw E1 E2 H. pose proof eps_pos as EP. pose proof (cross_unit n du Un Uu Nu) as Cu. pose proof (cross_unit n dw Un Uw Nw) as Cw.
  assert (ON : forall d k, unit_vec d -> inner n d = 0 -> inner (minus (plus (plus b (scaled s (vcross n d))) (scaled k d)) b) n = 0 /\ triple n d (minus (plus (plus b (scaled s (vcross n d))) (scaled k d)) b) = s).
  { intros d k Ud ND. pose proof (cross_unit n d Un Ud ND) as C. unfold unit_vec in C. split.
    - transitivity (k * inner n d); [|rewrite ND; ring]. destruct n as [n1 n2 n3], d as [d1 d2 d3], b as [b1 b2 b3]. vr. ring.
    - transitivity (s * inner (vcross n d) (vcross n d)); [|rewrite C; ring]. destruct n as [n1 n2 n3], d as [d1 d2 d3], b as [b1 b2 b3]. vr. ring. }
  destruct (lintersect l1 l2) as [v'|e] eqn:LI.
  - apply Ok_inj in H. subst v'. assert (W1 : wf_line l1) by (rewrite E1; exact Uu). assert (W2 : wf_line l2) by (rewrite E2; exact Uw).
    assert (NE : inner du dw * inner du dw <> 1).
    { intros Q. assert (EX : exists e, lintersect l1 l2 = Err e). { apply (lintersect_err l1 l2 W1 W2). rewrite E1, E2. cbn [ldir]. rewrite Q. rewrite Rminus_diag_eq by reflexivity. rewrite Rabs_R0. exact EP. } destruct EX as (e & EX). rewrite LI in EX. discriminate. }
    destruct (lintersect_spec l1 l2 v W1 W2 LI) as (x & y & (k1 & X1) & (k2 & X2) & -> & P1 & P2). rewrite E1, E2 in *. cbn [lpos ldir] in *.
    destruct (ON du k1 Uu Nu) as [A1 A2]. destruct (ON dw k2 Uw Nw) as [B1 B2]. rewrite <- X1 in A1, A2. rewrite <- X2 in B1, B2.
    assert (RZ : minus x y = origin). { apply (plane_zero (minus x y) n du dw); try assumption. transitivity (inner (minus x b) n - inner (minus y b) n); [vr; ring|lra]. }
    assert (XY : x = y) by (apply minus_zero, RZ).
    replace (scaled (1 / 2) (plus x y)) with x by (rewrite <- XY; apply pt_ext; vr; lra). rewrite <- XY in B2. split; [exact A1|]. split; [exact A2|]. left. exact B2.
  - destruct e; try discriminate. apply Ok_inj in H. subst v. rewrite E1. cbn [lpos]. destruct (ON du 0 Uu Nu) as [A1 A2].
    replace (plus (plus b (scaled s (vcross n du))) (scaled 0 du)) with (plus b (scaled s (vcross n du))) in A1, A2 by (apply pt_ext; vr; ring). split; [exact A1|]. split; [exact A2|]. right.
    assert (W1 : wf_line l1) by (rewrite E1; exact Uu). assert (W2 : wf_line l2) by (rewrite E2; exact Uw). pose proof (proj1 (lintersect_err l1 l2 W1 W2) (ex_intro _ _ LI)) as Q. rewrite E1, E2 in Q. cbn [ldir] in Q. apply Rabs_def2 in Q. split; [lra|].
    transitivity (s * (inner n n * inner du dw - inner n dw * inner n du)); [|unfold unit_vec in Un; rewrite Un, Nu; ring]. destruct n as [n1 n2 n3], du as [d1 d2 d3], dw as [w1 w2 w3], b as [b1 b2 b3]. vr. ring.
Qed.
Lemma unit_len (u : pt) : u <> origin -> 0 < len u. Proof. apply len_pos. Qed.
Lemma chamfer_made (a b d n : pt) s v : unit_vec n -> chamferPoint a b d n s = Ok v -> chamfered n s a b d v.
Proof.
  intros Un H. unfold chamferPoint in H. apply bind_ok in H. destruct H as (pl & E & H). apply (newPlane_unit _ _ _ Un) in E. subst pl.
  apply bind_ok in H. destruct H as (pa & EA & H). apply bind_ok in H. destruct H as (pd & ED & H). apply dropped_is in EA; [|exact Un]. apply dropped_is in ED; [|exact Un]. cbn [ppos pnormal] in EA, ED.
  apply bind_ok in H. destruct H as (ab & E1 & H). apply bind_ok in H. destruct H as (bc & E2 & H). destruct (newLine_ok _ _ _ E1) as (W1 & P1 & D1 & N1). destruct (newLine_ok _ _ _ E2) as (W2 & P2 & D2 & N2).
  change (vsub b pa) with (minus b pa) in *. change (vsub pd b) with (minus pd b) in *. pose proof (dropped_flat n b a Un) as FA. pose proof (dropped_flat n b d Un) as FD. rewrite <- EA in FA. rewrite <- ED in FD.
  pose proof (unit_len _ N1) as L1. pose proof (unit_len _ N2) as L2.
  assert (Nu : inner n (ldir ab) = 0). { rewrite D1, scaled_inner. replace (inner n (minus b pa)) with (- inner (minus pa b) n) by (vr; ring). rewrite FA. ring. }
  assert (Nw : inner n (ldir bc) = 0). { rewrite D2, scaled_inner. replace (inner n (minus pd b)) with (inner (minus pd b) n) by (vr; ring). rewrite FD. ring. }
  unfold wf_line in W1, W2. set (du := ldir ab) in *. set (dw := ldir bc) in *.
  apply bind_ok in H. destruct H as (na & EN & H). rewrite (vnorm_of_unit _ (cross_unit n du Un W1 Nu)) in EN. apply Ok_inj in EN. subst na.
  apply bind_ok in H. destruct H as (ab' & E1' & H). unfold ltranslated in E1'. apply (newLine_unit _ _ _ W1) in E1'. rewrite P1 in E1'.
  apply bind_ok in H. destruct H as (nc & EN & H). rewrite (vnorm_of_unit _ (cross_unit n dw Un W2 Nw)) in EN. apply Ok_inj in EN. subst nc.
  apply bind_ok in H. destruct H as (bc' & E2' & H). unfold ltranslated in E2'. apply (newLine_unit _ _ _ W2) in E2'. rewrite P2 in E2'.
  assert (G : forall u : pt, vadd b (vscale u s) = plus b (scaled s u)) by (intros u; apply pt_ext; vr; ring). rewrite G in E1', E2'.
  destruct (offsets_meet n b du dw v s ab' bc' Un W1 W2 Nu Nw E1' E2' H) as (A & B & C). unfold chamfered. cbv zeta. rewrite <- EA, <- ED.
  assert (LA : left_of n pa b v = triple n du (minus v b)). { unfold left_of. rewrite D1, triple_scaled. field. lra. }
  assert (LD : left_of n b pd v = triple n dw (minus v b)).
  { unfold left_of. rewrite D2, triple_scaled. replace (triple n (minus pd b) (minus v pd)) with (triple n (minus pd b) (minus v b)) by (destruct n as [n1 n2 n3], pd as [d1 d2 d3], v as [w1 w2 w3], b as [b1 b2 b3]; vr; ring). field. lra. }
  assert (TC : turn_cos pa b pd = inner du dw). { unfold turn_cos. rewrite D1, D2, scaled_inner. replace (inner (scaled (/ len (minus b pa)) (minus b pa)) (minus pd b)) with (/ len (minus b pa) * inner (minus b pa) (minus pd b)) by (vr; ring). field. split; lra. }
  rewrite LA, LD, TC. split; [exact A|]. split; [intros Q; apply N1; rewrite Q; apply pt_ext; vr; ring|]. split; [intros Q; apply N2; rewrite Q; apply pt_ext; vr; ring|]. split; [exact B|exact C].
Qed.
Lemma rim_made n s next : unit_vec n -> forall edge prev ch, cornerChamfer prev edge next n s = Ok ch -> rim n s next prev edge ch.
Proof.
  intros Un. induction edge as [|b r IH]; intros prev ch H; cbn [cornerChamfer] in H; [apply Ok_inj in H; subst ch; constructor|].
  apply bind_ok in H. destruct H as (v & E & H). apply bind_ok in H. destruct H as (vs & E2 & H). apply Ok_inj in H. subst ch. constructor; [|apply IH, E2].
  apply chamfer_made in E; [|exact Un]. destruct r; exact E.
Qed.
Lemma carried_made (a b d first v : pt) : parallelChamfer a b d first = Ok v -> carried a b d first v.
Proof.
  intros H pl WP OA OB OD OF. unfold parallelChamfer in H. apply bind_ok in H. destruct H as (l1 & E1 & H). apply bind_ok in H. destruct H as (l2 & E2 & H).
  destruct (newLine_ok _ _ _ E1) as (W1 & P1 & D1 & N1). destruct (newLine_ok _ _ _ E2) as (W2 & P2 & D2 & N2). change (vsub b a) with (minus b a) in *. change (vsub d b) with (minus d b) in *. pose proof (unit_len _ N1) as L1. pose proof (unit_len _ N2) as L2.
  assert (IN : forall x y : pt, on_plane pl x -> on_plane pl y -> inner (pnormal pl) (minus x y) = 0).
  { intros x y OX OY. unfold on_plane in OX, OY. transitivity (inner (minus x (ppos pl)) (pnormal pl) - inner (minus y (ppos pl)) (pnormal pl)); [vr; ring|lra]. }
  assert (W1' : wf_line l1) by exact W1. assert (W2' : wf_line l2) by exact W2.
  destruct (lintersect_spec l1 l2 v W1' W2' H) as (x & y & (k1 & X1) & (k2 & X2) & -> & Q1 & Q2). rewrite P1, D1 in X1. rewrite P2, D2 in X2. rewrite D1 in Q1. rewrite D2 in Q2.
  set (e1 := k1 * / len (minus b a)). set (e2 := k2 * / len (minus d b)).
  assert (X1' : x = plus first (scaled e1 (minus b a))) by (rewrite X1; apply pt_ext; unfold e1; vr; ring). assert (X2' : y = plus b (scaled e2 (minus d b))) by (rewrite X2; apply pt_ext; unfold e2; vr; ring). clear X1 X2.
  pose proof (IN b a OB OA) as I1. pose proof (IN d b OD OB) as I2. pose proof (IN first b OF OB) as I3.
  set (n := pnormal pl) in *.
  assert (OX : inner (minus x b) n = 0). { rewrite X1'. transitivity (inner n (minus first b) + e1 * inner n (minus b a)); [vr; ring|rewrite I1, I3; ring]. }
  assert (OY : inner (minus y b) n = 0). { rewrite X2'. transitivity (e2 * inner n (minus d b)); [vr; ring|rewrite I2; ring]. }
  assert (NE : inner (ldir l1) (ldir l2) * inner (ldir l1) (ldir l2) <> 1).
  { intros Q. assert (EX : exists e, lintersect l1 l2 = Err e). { apply (lintersect_err l1 l2 W1' W2'). rewrite Q. rewrite Rminus_diag_eq by reflexivity. rewrite Rabs_R0. exact eps_pos. } destruct EX as (e & EX). rewrite H in EX. discriminate. }
  assert (RZ : minus x y = origin).
  { apply (plane_zero (minus x y) n (ldir l1) (ldir l2)); try assumption.
    - rewrite D1, scaled_inner, I1. ring.
    - rewrite D2, scaled_inner, I2. ring.
    - transitivity (inner (minus x b) n - inner (minus y b) n); [vr; ring|lra].
    - rewrite D1. exact Q1.
    - rewrite D2. exact Q2. }
  assert (XY : x = y) by (apply minus_zero, RZ). replace (scaled (1 / 2) (plus x y)) with x by (rewrite <- XY; apply pt_ext; vr; lra).
  assert (ONX : on_plane pl x). { unfold on_plane in *. fold n in OB |- *. transitivity (inner (minus x b) n + inner (minus b (ppos pl)) n); [vr; ring|lra]. }
  split; [exact ONX|]. split; [exists e2; rewrite XY; exact X2'|]. unfold left_of. f_equal. rewrite X1'.
  destruct n as [n1 n2 n3], a as [a1 a2 a3], b as [b1 b2 b3], first as [f1 f2 f3]. vr. ring.
Qed.
