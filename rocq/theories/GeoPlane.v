(** Planes, lines, segments, circles and triangles over the reals. *)
From Coq Require Import Reals Lra Psatz List Bool.
From Verif Require Import Num GeoModel GeoSpec GeoMat GeoRigid.
Import ListNotations.
Open Scope R_scope.

(** ** constructors *)
Lemma newPlane_ok (pos n : pt) pl : newPlane pos n = Ok pl ->
  wf_plane pl /\ ppos pl = pos /\ pnormal pl = scaled (/ len n) n /\ n <> origin.
Proof.
  unfold newPlane. intros H. apply bind_ok in H. destruct H as (u & Hu & H). okinv H.
  unfold wf_plane. cbn. split; [eapply vnorm_unit; eauto|]. apply vnorm_ok in Hu. tauto.
Qed.
Lemma newLine_ok (pos d : pt) l : newLine pos d = Ok l ->
  wf_line l /\ lpos l = pos /\ ldir l = scaled (/ len d) d /\ d <> origin.
Proof.
  unfold newLine. intros H. apply bind_ok in H. destruct H as (u & Hu & H). okinv H.
  unfold wf_line. cbn. split; [eapply vnorm_unit; eauto|]. apply vnorm_ok in Hu. tauto.
Qed.
Lemma newPlane_err (pos n : pt) e : newPlane pos n = Err e <-> n = origin /\ e = ZeroDivision.
Proof.
  unfold newPlane. destruct (origin_dec n) as [->|E].
  - rewrite vnorm_zero. cbn. split; [intros H; injection H as <-; auto|]. intros [_ ->]; reflexivity.
  - rewrite vnorm_spec by exact E. cbn. split; [discriminate|]. tauto.
Qed.

Lemma len_pos p : p <> origin -> 0 < len p.
Proof. intros H. pose proof (len_nonneg p). destruct (Rle_lt_or_eq_dec _ _ H0) as [|E]; [assumption|]. symmetry in E. apply len_zero in E. contradiction. Qed.

(** ** plane / line *)
Lemma pintersectLine_sound (pl : @plane Rnum) (l : @line Rnum) v :
  pintersectLine pl l = Ok v -> on_plane pl v /\ on_line l v.
Proof.
  unfold pintersectLine. cbn zeta. destruct (isZero _) eqn:E; [discriminate|].
  apply not_isZero_neq in E. rewrite pdiv_nz by exact E. cbn [bind]. intros H. okinv H.
  split.
  - unfold on_plane. destruct pl as [[? ? ?] [? ? ?]], l as [[? ? ?] [? ? ?]]. revert E. alg. intros E. field. exact E.
  - eexists. apply pt_ext; un; gm; rn; try (rewrite Rmult_comm; reflexivity).
Qed.
Lemma on_plane_line_unique (pl : @plane Rnum) (l : @line Rnum) v w :
  inner (pnormal pl) (ldir l) <> 0 ->
  on_plane pl v -> on_line l v -> on_plane pl w -> on_line l w -> v = w.
Proof.
  intros D Hv (k & ->) Hw (j & ->). unfold on_plane in *.
  assert ((k - j) * inner (pnormal pl) (ldir l) = 0).
  { transitivity (inner (minus (plus (lpos l) (scaled k (ldir l))) (ppos pl)) (pnormal pl) -
      inner (minus (plus (lpos l) (scaled j (ldir l))) (ppos pl)) (pnormal pl)); [un; rn; ring|]. rewrite Hv, Hw. ring. }
  apply Rmult_integral in H. destruct H; [|contradiction]. replace k with j by lra. reflexivity.
Qed.
Lemma pintersectLine_err (pl : @plane Rnum) (l : @line Rnum) :
  (exists e, pintersectLine pl l = Err e) <-> Rabs (inner (pnormal pl) (ldir l)) < eps.
Proof.
  unfold pintersectLine. cbn zeta. change (vdot (pnormal pl) (ldir l)) with (inner (pnormal pl) (ldir l)).
  destruct (isZero _) eqn:E.
  - apply isZero_iff in E. split; eauto.
  - pose proof E as E'. apply not_isZero_neq in E. rewrite pdiv_nz by exact E. cbn [bind].
    apply isZero_false in E'. split; [intros (e & H); discriminate|lra].
Qed.

(** ** projections *)
Lemma projectNormal_spec (pl : @plane Rnum) v : wf_plane pl ->
  exists w, projectNormal pl v = Ok w /\ on_plane pl w /\ (exists k, w = plus v (scaled k (pnormal pl))) /\
  forall u, on_plane pl u -> edist v w <= edist v u.
Proof.
  intros W. unfold projectNormal, newLine. rewrite (vnorm_of_unit _ W). cbn [bind].
  unfold wf_plane, unit_vec in W.
  unfold pintersectLine. cbn zeta. rn.
  change (vdot (pnormal pl) (pnormal pl)) with (inner (pnormal pl) (pnormal pl)). rewrite W.
  destruct (@isZero Rnum 1) eqn:E. { apply isZero_iff in E. rewrite Rabs_R1 in E. unfold eps in E. lra. }
  rewrite pdiv_nz by lra. cbn [bind]. eexists. split; [reflexivity|].
  set (q := vdot (pnormal pl) (vsub (ppos pl) v) / 1).
  assert (Q : q = inner (pnormal pl) (minus (ppos pl) v)) by (unfold q; change (vdot (pnormal pl) (vsub (ppos pl) v)) with (inner (pnormal pl) (minus (ppos pl) v)); field).
  clearbody q. split.
  - unfold on_plane. transitivity (q * inner (pnormal pl) (pnormal pl) - inner (pnormal pl) (minus (ppos pl) v)).
    + un; gm; rn. ring.
    + rewrite W, Q. ring.
  - split; [exists q; apply pt_ext; un; gm; rn; ring|].
    intros u Hu. unfold edist. apply sqrt_le_1_alt. unfold on_plane in Hu.
    assert (S : sqdist v (vadd v (vscale (pnormal pl) q)) = q * q).
    { transitivity (q * q * inner (pnormal pl) (pnormal pl)); [un; gm; rn; ring|rewrite W; ring]. }
    rewrite S.
    assert (Q2 : q = inner (pnormal pl) (minus u v)).
    { rewrite Q. transitivity (inner (pnormal pl) (minus u v) - inner (minus u (ppos pl)) (pnormal pl)); [un; rn; ring|rewrite Hu; ring]. }
    rewrite Q2.
    replace (sqdist v u) with (inner (minus u v) (minus u v) * inner (pnormal pl) (pnormal pl)) by (rewrite W; un; rn; ring).
    generalize (minus u v). intros d. generalize (pnormal pl). intros n.
    assert (CS : 0 <= inner (vcross n d) (vcross n d)) by apply inner_nonneg.
    assert (LG : inner (vcross n d) (vcross n d) = inner d d * inner n n - inner n d * inner n d) by (un; gm; rn; ring).
    lra.
Qed.

Ltac proj_go := destruct (isZero _) eqn:E; [discriminate|];
  apply not_isZero_neq in E; rewrite pdiv_nz by exact E; cbn [bind]; intros H; okinv H;
  split; [|repeat split; reflexivity]; unfold on_plane; un; gm; rn; field; exact E.
Lemma projectX_sound (pl : @plane Rnum) v w : projectX pl v = Ok w -> on_plane pl w /\ Y w = Y v /\ Z w = Z v.
Proof. unfold projectX. proj_go. Qed.
Lemma projectY_sound (pl : @plane Rnum) v w : projectY pl v = Ok w -> on_plane pl w /\ X w = X v /\ Z w = Z v.
Proof. unfold projectY. proj_go. Qed.
Lemma projectZ_sound (pl : @plane Rnum) v w : projectZ pl v = Ok w -> on_plane pl w /\ X w = X v /\ Y w = Y v.
Proof. unfold projectZ. proj_go. Qed.
Ltac proj_err := destruct (isZero _) eqn:E;
  [apply isZero_iff in E; split; eauto |
   pose proof E as E'; apply not_isZero_neq in E; rewrite pdiv_nz by exact E; cbn [bind];
   apply isZero_false in E'; un; split; [intros (e & H); discriminate|lra]].
Lemma projectX_err (pl : @plane Rnum) v : (exists e, projectX pl v = Err e) <-> Rabs (X (pnormal pl)) < eps.
Proof. unfold projectX. proj_err. Qed.
Lemma projectY_err (pl : @plane Rnum) v : (exists e, projectY pl v = Err e) <-> Rabs (Y (pnormal pl)) < eps.
Proof. unfold projectY. proj_err. Qed.
Lemma projectZ_err (pl : @plane Rnum) v : (exists e, projectZ pl v = Err e) <-> Rabs (Z (pnormal pl)) < eps.
Proof. unfold projectZ. proj_err. Qed.

(** ** three planes *)
Lemma vdiv_nz (p : pt) (s : @num Rnum) : s <> (0:R) -> vdiv p s = Ok (scaled (/ s) p).
Proof. intros H. unfold vdiv. rewrite !pdiv_nz by exact H. cbn [bind]. f_equal; apply pt_ext; un; rn; unfold Rdiv; ring. Qed.

Lemma pintersectPlanes_sound (p a b : @plane Rnum) v :
  pintersectPlanes p a b = Ok v -> on_plane p v /\ on_plane a v /\ on_plane b v.
Proof.
  unfold pintersectPlanes. cbn zeta. destruct (isZero _) eqn:E; [discriminate|].
  apply not_isZero_neq in E. rewrite vdiv_nz by exact E. intros H. okinv H.
  unfold on_plane.
  set (D := vdot (pnormal a) (vcross (pnormal b) (pnormal p))) in *.
  match goal with |- context[scaled (/ D) ?n] => set (nm := n) end.
  assert (HP : forall n q, inner nm n = D * inner q n -> inner (minus (scaled (/ D) nm) q) n = 0).
  { intros n q He. transitivity (/ D * inner nm n - inner q n); [un; rn; ring|]. rewrite He. field. exact E. }
  split; [|split]; apply HP; unfold nm, D; destruct p as [pp pn], a as [ap an], b as [bp bn];
    un; gm; rn; ring.
Qed.
Lemma pintersectPlanes_err (p a b : @plane Rnum) :
  (exists e, pintersectPlanes p a b = Err e) <-> Rabs (triple (pnormal a) (pnormal b) (pnormal p)) < eps.
Proof.
  unfold pintersectPlanes. cbn zeta.
  replace (triple (pnormal a) (pnormal b) (pnormal p)) with (vdot (pnormal a) (vcross (pnormal b) (pnormal p))) by (un; gm; rn; ring).
  destruct (isZero _) eqn:E.
  - apply isZero_iff in E. split; eauto.
  - pose proof E as E'. apply not_isZero_neq in E. rewrite vdiv_nz by exact E. apply isZero_false in E'.
    split; [intros (e & H); discriminate|lra].
Qed.

(** ** two lines *)
Lemma lintersect_spec (s o : @line Rnum) v : wf_line s -> wf_line o -> lintersect s o = Ok v ->
  exists a b, on_line s a /\ on_line o b /\ v = scaled (1/2) (plus a b) /\
    inner (minus a b) (ldir s) = 0 /\ inner (minus a b) (ldir o) = 0.
Proof.
  intros Ws Wo. unfold wf_line, unit_vec in *. unfold lintersect. cbn zeta.
  change (@vdot Rnum) with inner. rewrite Ws, Wo.
  set (os := inner (ldir o) (ldir s)) in *. rn.
  destruct (isZero _) eqn:E; [discriminate|]. apply not_isZero_neq in E.
  rewrite pdiv_nz by exact E. cbn [bind]. rewrite pdiv_nz by lra. cbn [bind].
  set (dl := vsub (lpos s) (lpos o)) in *.
  set (muA := (inner dl (ldir o) * os - inner dl (ldir s) * 1) / (1 * 1 - os * os)).
  set (muB := (inner dl (ldir o) + muA * os) / 1).
  assert (A1 : muA * (1 - os * os) = inner dl (ldir o) * os - inner dl (ldir s)) by (unfold muA; field; lra).
  assert (B1 : muB = inner dl (ldir o) + muA * os) by (unfold muB; field).
  clearbody muA muB. rewrite vdiv_nz by lra. intros H. okinv H.
  exists (plus (lpos s) (scaled muA (ldir s))), (plus (lpos o) (scaled muB (ldir o))).
  split; [eexists; reflexivity|]. split; [eexists; reflexivity|]. split.
  { apply pt_ext; un; gm; rn; field. }
  assert (G : forall u, inner (minus (plus (lpos s) (scaled muA (ldir s))) (plus (lpos o) (scaled muB (ldir o)))) u =
     inner dl u + muA * inner (ldir s) u - muB * inner (ldir o) u) by (intros; unfold dl; un; gm; rn; ring).
  rewrite !G. replace (inner (ldir s) (ldir o)) with os by (unfold os; un; rn; ring).
  fold os. rewrite Ws, Wo, B1. split; [|ring].
  replace (inner dl (ldir s) + muA * 1 - (inner dl (ldir o) + muA * os) * os) with
    (inner dl (ldir s) + muA * (1 - os * os) - inner dl (ldir o) * os) by ring. rewrite A1. ring.
Qed.

(* both perpendicular: a and b are the closest points of the two lines *)
Lemma perp_closest (s o : @line Rnum) (a b : pt) : on_line s a -> on_line o b ->
  inner (minus a b) (ldir s) = 0 -> inner (minus a b) (ldir o) = 0 ->
  forall a' b', on_line s a' -> on_line o b' -> sqdist a b <= sqdist a' b'.
Proof.
  intros (k & Ea) (j & Eb) P1 P2 a' b' (k' & ->) (j' & ->).
  set (w := minus (scaled (k' - k) (ldir s)) (scaled (j' - j) (ldir o))).
  assert (E : minus (plus (lpos s) (scaled k' (ldir s))) (plus (lpos o) (scaled j' (ldir o))) = plus (minus a b) w).
  { rewrite Ea, Eb. unfold w. apply pt_ext; un; rn; ring. }
  assert (O : inner (minus a b) w = 0).
  { transitivity ((k'-k) * inner (minus a b) (ldir s) - (j'-j) * inner (minus a b) (ldir o)); [unfold w; un; rn; ring|]. rewrite P1, P2. ring. }
  change (sqdist a b) with (inner (minus a b) (minus a b)).
  change (sqdist (plus (lpos s) (scaled k' (ldir s))) (plus (lpos o) (scaled j' (ldir o)))) with
   (inner (minus (plus (lpos s) (scaled k' (ldir s))) (plus (lpos o) (scaled j' (ldir o)))) (minus (plus (lpos s) (scaled k' (ldir s))) (plus (lpos o) (scaled j' (ldir o))))).
  rewrite E.
  replace (inner (plus (minus a b) w) (plus (minus a b) w)) with
    (inner (minus a b) (minus a b) + 2 * inner (minus a b) w + inner w w) by (generalize (minus a b); intros; un; rn; ring).
  rewrite O. pose proof (inner_nonneg w). lra.
Qed.
Lemma lintersect_common (s o : @line Rnum) v p : wf_line s -> wf_line o -> lintersect s o = Ok v ->
  on_line s p -> on_line o p -> v = p.
Proof.
  intros Ws Wo H Hs Ho.
  assert (D : isZero (1 - inner (ldir o) (ldir s) * inner (ldir o) (ldir s)) = false).
  { unfold lintersect in H. cbn zeta in H. change (@vdot Rnum) with inner in H.
    unfold wf_line, unit_vec in *. rewrite Ws, Wo in H. rn. 
    replace (1 * 1) with 1 in H by ring. destruct (isZero _); [discriminate|reflexivity]. }
  apply not_isZero_neq in D.
  destruct (lintersect_spec s o v Ws Wo H) as (a & b & Ha & Hb & -> & P1 & P2).
  pose proof (perp_closest s o a b Ha Hb P1 P2 p p Hs Ho) as L.
  assert (S0 : sqdist p p = 0) by (un; ring). rewrite S0 in L.
  assert (AB : a = b).
  { assert (minus a b = origin) by (apply inner_zero; pose proof (inner_nonneg (minus a b)); change (sqdist a b) with (inner (minus a b) (minus a b)) in L; lra).
    pose proof (f_equal X H0). pose proof (f_equal Y H0). pose proof (f_equal Z H0).
    apply pt_ext; un; rn; lra. }
  subst b. destruct Ha as (k & Ea), Hb as (j & Eb), Hs as (k' & Es), Ho as (j' & Eo).
  assert (E1 : minus a p = scaled (k - k') (ldir s)) by (rewrite Ea, Es; apply pt_ext; un; rn; ring).
  assert (E2 : minus a p = scaled (j - j') (ldir o)) by (rewrite Eb, Eo; apply pt_ext; un; rn; ring).
  unfold wf_line, unit_vec in *.
  set (al := k - k') in *. set (be := j - j') in *.
  assert (Q1 : al = be * inner (ldir o) (ldir s)).
  { transitivity (inner (scaled al (ldir s)) (ldir s)); [transitivity (al * inner (ldir s) (ldir s)); [rewrite Ws; ring|un; rn; ring]|].
    rewrite <- E1, E2. un; rn; ring. }
  assert (Q2 : be = al * inner (ldir o) (ldir s)).
  { transitivity (inner (scaled be (ldir o)) (ldir o)); [transitivity (be * inner (ldir o) (ldir o)); [rewrite Wo; ring|un; rn; ring]|].
    rewrite <- E2, E1. un; rn; ring. }
  assert (al = 0).
  { assert (al * (1 - inner (ldir o) (ldir s) * inner (ldir o) (ldir s)) = 0).
    { rewrite Rmult_minus_distr_l. rewrite <- (Rmult_assoc al), <- Q2, <- Q1. ring. }
    apply Rmult_integral in H0. destruct H0; [assumption|contradiction]. }
  rewrite H0 in E1. clear - E1. pose proof (f_equal X E1). pose proof (f_equal Y E1). pose proof (f_equal Z E1).
  destruct a, p, (ldir s). un. rn. apply pt_ext; un; rn; lra.
Qed.
Lemma lintersect_err (s o : @line Rnum) : wf_line s -> wf_line o ->
  (exists e, lintersect s o = Err e) <-> Rabs (1 - inner (ldir s) (ldir o) * inner (ldir s) (ldir o)) < eps.
Proof.
  intros Ws Wo. unfold wf_line, unit_vec in *. unfold lintersect. cbn zeta.
  change (@vdot Rnum) with inner. rewrite Ws, Wo. rn.
  replace (1 * 1 - inner (ldir o) (ldir s) * inner (ldir o) (ldir s)) with (1 - inner (ldir s) (ldir o) * inner (ldir s) (ldir o)) by (un; ring).
  destruct (isZero _) eqn:E.
  - apply isZero_iff in E. split; eauto.
  - pose proof E as E'. apply not_isZero_neq in E. rewrite pdiv_nz by exact E. cbn [bind].
    rewrite pdiv_nz by lra. cbn [bind]. rewrite vdiv_nz by lra. apply isZero_false in E'.
    split; [intros (e & H); discriminate|lra].
Qed.
(* line distance *)
Lemma ldistance_spec (l : @line Rnum) v : wf_line l ->
  (exists w, on_line l w /\ ldistance l v = edist w v) /\ forall u, on_line l u -> ldistance l v <= edist u v.
Proof.
  intros W. unfold wf_line, unit_vec in W.
  assert (G : ldistance l v = edist (plus (lpos l) (scaled (inner (ldir l) (minus v (lpos l))) (ldir l))) v).
  { unfold ldistance, vmag, edist. apply (f_equal sqrt). un; gm; rn. ring. }
  split; [eexists; split; [eexists; reflexivity|exact G]|].
  intros u (k & ->). rewrite G. unfold edist. apply sqrt_le_1_alt.
  set (d := minus v (lpos l)). set (n := ldir l) in *.
  assert (S : forall k, sqdist (plus (lpos l) (scaled k n)) v = k * k * inner n n - 2 * k * inner n d + inner d d) by (intros; unfold d; un; rn; ring).
  rewrite !S, W. generalize (inner n d) (inner d d); intros e f; pose proof (Rle_0_sqr (k - e)) as HQ; unfold Rsqr in HQ; lra.
Qed.

Lemma pdistance_spec (pl : @plane Rnum) v : wf_plane pl ->
  exists w, on_plane pl w /\ v = plus w (scaled (pdistance pl v) (pnormal pl)).
Proof.
  intros W. unfold wf_plane, unit_vec in W.
  exists (plus v (scaled (- pdistance pl v) (pnormal pl))). split; [|apply pt_ext; un; rn; symmetry; ring].
  unfold on_plane. set (q := pdistance pl v).
  transitivity (inner (minus v (ppos pl)) (pnormal pl) - q * inner (pnormal pl) (pnormal pl)).
  - clearbody q. un; rn. ring.
  - rewrite W. unfold q, pdistance. un; gm; rn. ring.
Qed.
