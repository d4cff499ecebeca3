(** Properties C19-C27 and C51: the geometry kernel (body/chrumm/geo) over the
    real numbers.  Read together with GeoSpec.v; rounding is not modelled. *)
From Coq Require Import Reals Lra Psatz List Bool.
From Verif Require Import Num GeoModel GeoSpec GeoMat GeoRigid GeoPlane GeoFig GeoCirc GeoTri GeoIso.
Import ListNotations.
Open Scope R_scope.

(** ** C19 composition *)
Theorem C19_compose : forall A B (p : pt), Built A -> Built B ->
  transformed p (mmul A B) = transformed (transformed p A) B.
Proof. intros. apply transformed_mul, built_affine; assumption. Qed.
Print Assumptions C19_compose.

Theorem C19_affine : forall A, Built A -> m3 A = 0 /\ m7 A = 0 /\ m11 A = 0 /\ m15 A = 1.
Proof. exact built_affine. Qed.
Print Assumptions C19_affine.

Theorem C19_builders : forall A (p v : pt) (c : option pt) a, Built A ->
  let q := transformed p A in
  transformed p (mtranslated A v) = P (X q + X v) (Y q + Y v) (Z q + Z v) /\
  transformed p (mmirX A) = P (- X q) (Y q) (Z q) /\
  transformed p (mmirY A) = P (X q) (- Y q) (Z q) /\
  transformed p (mmirZ A) = P (X q) (Y q) (- Z q) /\
  transformed p (mrotX A a c) = rotX_pt a (match c with None => P 0 0 0 | Some c => c end) q /\
  transformed p (mrotY A a c) = rotY_pt a (match c with None => P 0 0 0 | Some c => c end) q /\
  transformed p (mrotZ A a c) = rotZ_pt a (match c with None => P 0 0 0 | Some c => c end) q.
Proof.
  intros A p v c a H. apply built_affine in H. cbn zeta.
  split; [apply app_tra, H|]. split; [apply app_mirX, H|]. split; [apply app_mirY, H|]. split; [apply app_mirZ, H|].
  split; [apply (app_rotX A a c p H)|]. split; [apply (app_rotY A a c p H)|apply (app_rotZ A a c p H)].
Qed.
Print Assumptions C19_builders.

Example C19_nonvacuous : Built (mtranslated (mmirX (mmul mid mid)) (P 1 2 3)) /\
  transformed (P 5 6 7) (mtranslated (mmirX (mmul mid mid)) (P 1 2 3)) = P (-4) 8 10.
Proof.
  assert (B : Built (mmirX (mmul mid mid))) by (apply B_mirX, B_mul; apply B_id).
  split; [apply B_tra; exact B|].
  rewrite (app_tra (mmirX (mmul mid mid)) (P 1 2 3) (P 5 6 7)) by (apply built_affine; exact B).
  rewrite app_mirX by (apply built_affine, B_mul; apply B_id). rewrite transformed_mul by (apply built_affine, B_id). rewrite !transformed_mid.
  apply pt_ext; un; rn; lra.
Qed.

(** ** C20 rigid motions *)
Theorem C20_every_matrix_rigid : forall A, Built A ->
  forall p q, edist (transformed p A) (transformed q A) = edist p q.
Proof. intros A H p q. unfold edist. rewrite (built_iso A H p q). reflexivity. Qed.
Print Assumptions C20_every_matrix_rigid.

(* rotations, as the user applies them: Matrix().rotatedX(a, c) etc. *)
Theorem C20_rotations : forall a (c : option pt),
  let center := match c with None => P 0 0 0 | Some c => c end in
  let RX p := transformed p (mrotX mid a c) in let RX' p := transformed p (mrotX mid (- a) c) in
  let RY p := transformed p (mrotY mid a c) in let RY' p := transformed p (mrotY mid (- a) c) in
  let RZ p := transformed p (mrotZ mid a c) in let RZ' p := transformed p (mrotZ mid (- a) c) in
  (keeps_orientation RX /\ keeps_orientation RY /\ keeps_orientation RZ) /\
  (forall p : pt, RX' (RX p) = p /\ RY' (RY p) = p /\ RZ' (RZ p) = p) /\
  (forall p : pt, X (RX p) = X p /\ Y (RY p) = Y p /\ Z (RZ p) = Z p) /\
  (forall k, RX (plus center (P k 0 0)) = plus center (P k 0 0) /\
             RY (plus center (P 0 k 0)) = plus center (P 0 k 0) /\
             RZ (plus center (P 0 0 k)) = plus center (P 0 0 k)) /\
  (* turning direction: x to y about z, y to z about x, z to x about y *)
  RZ (plus center (P 1 0 0)) = plus center (P (cos a) (sin a) 0) /\
  RX (plus center (P 0 1 0)) = plus center (P 0 (cos a) (sin a)) /\
  RY (plus center (P 0 0 1)) = plus center (P (sin a) 0 (cos a)).
Proof.
  intros a c. cbn zeta. change (match c with None => P 0 0 0 | Some c => c end) with (ctr c).
  assert (AM : affine mid) by aff.
  assert (EX : forall a (p : pt), transformed p (mrotX mid a c) = rotX_pt a (ctr c) p) by (intros; rewrite app_rotX, transformed_mid by exact AM; reflexivity).
  assert (EY : forall a (p : pt), transformed p (mrotY mid a c) = rotY_pt a (ctr c) p) by (intros; rewrite app_rotY, transformed_mid by exact AM; reflexivity).
  assert (EZ : forall a (p : pt), transformed p (mrotZ mid a c) = rotZ_pt a (ctr c) p) by (intros; rewrite app_rotZ, transformed_mid by exact AM; reflexivity).
  split; [|split; [|split; [|split]]].
  - split; [|split]; intros o p q r; rewrite ?EX, ?EY, ?EZ; [apply rotX_keeps|apply rotY_keeps|apply rotZ_keeps].
  - intros p. rewrite !EX, !EY, !EZ, rotX_add, rotY_add, rotZ_add. replace (a + - a) with 0 by ring.
    rewrite rotX_0, rotY_0, rotZ_0. auto.
  - intros p. rewrite EX, EY, EZ. unfold rotX_pt, rotY_pt, rotZ_pt. un. rn. auto.
  - intros k. rewrite EX, EY, EZ. split; [|split]; apply pt_ext; unfold rotX_pt, rotY_pt, rotZ_pt; un; rn; ring.
  - rewrite EX, EY, EZ. split; [|split]; apply pt_ext; unfold rotX_pt, rotY_pt, rotZ_pt; un; rn; ring.
Qed.
Print Assumptions C20_rotations.

Theorem C20_mirrors : 
  let MX p := transformed p (mmirX mid) in let MY p := transformed p (mmirY mid) in let MZ p := transformed p (mmirZ mid) in
  (flips_orientation MX /\ flips_orientation MY /\ flips_orientation MZ) /\
  (forall p : pt, MX (MX p) = p /\ MY (MY p) = p /\ MZ (MZ p) = p) /\
  (forall p : pt, MX p = vmirX p /\ MY p = vmirY p /\ MZ p = vmirZ p).
Proof.
  cbn zeta. assert (AM : affine mid) by aff.
  assert (EX : forall (p : pt), transformed p (mmirX mid) = P (- X p) (Y p) (Z p)) by (intros; rewrite app_mirX, transformed_mid by exact AM; reflexivity).
  assert (EY : forall (p : pt), transformed p (mmirY mid) = P (X p) (- Y p) (Z p)) by (intros; rewrite app_mirY, transformed_mid by exact AM; reflexivity).
  assert (EZ : forall (p : pt), transformed p (mmirZ mid) = P (X p) (Y p) (- Z p)) by (intros; rewrite app_mirZ, transformed_mid by exact AM; reflexivity).
  split; [|split].
  - split; [|split]; intros o p q r; rewrite ?EX, ?EY, ?EZ; un; rn; ring.
  - intros p. rewrite !EX, !EY, !EZ. split; [|split]; apply pt_ext; un; rn; try reflexivity; ring.
  - intros p. rewrite EX, EY, EZ. repeat split; reflexivity.
Qed.
Print Assumptions C20_mirrors.

(* planes and lines transformed along keep signed distances and incidence *)
Theorem C20_planes_and_lines : forall A, Built A ->
  (forall pl : @plane Rnum, wf_plane pl -> exists pl', ptransformed pl A = Ok pl' /\ wf_plane pl' /\
     forall v, pdistance pl' (transformed v A) = pdistance pl v) /\
  (forall l : @line Rnum, wf_line l -> exists l', ltransformed l A = Ok l' /\ wf_line l' /\
     forall v, on_line l v -> on_line l' (transformed v A)).
Proof. intros A H. split; intros; [apply (ptransformed_spec pl A)|apply (ltransformed_spec l A)]; assumption. Qed.
Print Assumptions C20_planes_and_lines.

Example C20_nonvacuous : forall a, Built (mrotZ (mtranslated mid (P 1 2 3)) a (Some (P 1 0 0))) /\
  exists pl, newPlane (P 0 0 1) (P 0 0 2) = Ok pl /\ wf_plane pl.
Proof.
  intros a. split; [apply B_rotZ, B_tra, B_id|]. unfold newPlane.
  assert (N : P 0 0 2 <> origin) by (intros E; apply (f_equal Z) in E; un; rn; lra).
  rewrite vnorm_spec by exact N. cbn. eexists. split; [reflexivity|]. apply (unit_scaled _ N).
Qed.

(** ** C21 alignment *)
Definition dir_of (v : pt) : pt := scaled (/ len v) v.
Definition within_tol (p q : pt) : Prop :=
  Rabs (X p - X q) < eps /\ Rabs (Y p - Y q) < eps /\ Rabs (Z p - Z q) < eps.

(* everything but the antiparallel configuration *)
Theorem C21_aligns_partial : forall s t : pt, s <> origin -> t <> origin ->
  ~ within_tol (dir_of s) (neg (dir_of t)) ->
  exists A, fromAlignment s t = Ok A /\
    isometry (fun p => transformed p A) /\ keeps_orientation (fun p => transformed p A) /\
    transformed origin A = origin /\
    (within_tol (dir_of s) (dir_of t) -> A = mid) /\
    (~ within_tol (dir_of s) (dir_of t) -> transformed (dir_of s) A = dir_of t).
Proof.
  intros s t Hs Ht HN. unfold fromAlignment. rewrite !vnorm_spec by assumption. cbn [bind].
  fold (dir_of s) (dir_of t). set (a := dir_of s) in *. set (b := dir_of t) in *.
  assert (Ua : unit_vec a) by (apply unit_scaled; exact Hs). assert (Ub : unit_vec b) by (apply unit_scaled; exact Ht).
  clearbody a b.
  destruct (visClose a b) eqn:E1.
  { exists mid. split; [reflexivity|]. split; [intros p q; rewrite !transformed_mid; reflexivity|].
    split; [intros o p q r; rewrite !transformed_mid; reflexivity|]. split; [apply transformed_mid|].
    apply visClose_iff in E1. split; [auto|]. intros K. exfalso. apply K, E1. }
  destruct (visClose a (vopp b)) eqn:E2.
  { exfalso. apply HN. apply visClose_iff in E2. exact E2. }
  assert (D : 1 + inner a b <> 0).
  { intros D0. assert (plus a b = origin).
    { apply inner_zero. unfold unit_vec in *. transitivity (inner a a + inner b b + 2 * inner a b); [un; rn; ring|]. rewrite Ua, Ub. lra. }
    assert (visClose a (vopp b) = true); [|congruence]. apply visClose_iff.
    pose proof (f_equal X H) as HX. pose proof (f_equal Y H) as HY. pose proof (f_equal Z H) as HZ.
    unfold plus, origin, vopp, P, X, Y, Z in *. rn. 
    replace (vx a - - vx b) with 0 by lra. replace (vy a - - vy b) with 0 by lra. replace (vz a - - vz b) with 0 by lra.
    rewrite Rabs_R0. pose proof eps_pos. auto. }
  change (vdot a b) with (inner a b). rewrite pdiv_nz by exact D. cbn [bind].
  eexists. split; [reflexivity|].
  split; [exact (align_isometry a b Ua Ub D)|]. split; [exact (align_orientation a b Ua Ub D)|].
  split.
  { change (transformed origin (alignm (vcross a b) (1 / (1 + inner a b))) = origin). rewrite alignm_map.
    apply pt_ext; un; gm; rn; ring. }
  split; [|intros _; exact (align_hits a b Ua Ub D)].
  intros K. exfalso. assert (visClose a b = true) by (apply visClose_iff; exact K). congruence.
Qed.
Print Assumptions C21_aligns_partial.

(* the full statement fails: antiparallel directions are answered with a mirror *)
Theorem C21_antiparallel_refuted : exists (s t : pt) A, s <> origin /\ t <> origin /\ fromAlignment s t = Ok A /\
  transformed (dir_of s) A <> dir_of t /\ flips_orientation (fun p => transformed p A).
Proof.
  exists (P 0 0 1), (P 0 0 (-1)), (mmirX mid).
  assert (N1 : P 0 0 1 <> origin) by (intros E; apply (f_equal Z) in E; un; rn; lra).
  assert (N2 : P 0 0 (-1) <> origin) by (intros E; apply (f_equal Z) in E; un; rn; lra).
  assert (U1 : unit_vec (P 0 0 1)) by (un; rn; ring). assert (U2 : unit_vec (P 0 0 (-1))) by (un; rn; ring).
  assert (D1 : dir_of (P 0 0 1) = P 0 0 1) by (unfold dir_of; rewrite (unit_len _ U1); apply pt_ext; un; rn; field).
  assert (D2 : dir_of (P 0 0 (-1)) = P 0 0 (-1)) by (unfold dir_of; rewrite (unit_len _ U2); apply pt_ext; un; rn; field).
  assert (AM : affine mid) by aff.
  split; [exact N1|]. split; [exact N2|]. split.
  - unfold fromAlignment. rewrite !vnorm_of_unit by assumption. cbn [bind].
    assert (visClose (P 0 0 1) (P 0 0 (-1)) = false) as ->.
    { destruct (visClose _ _) eqn:E; [|reflexivity]. apply visClose_iff in E. destruct E as (_ & _ & E).
      unfold P, Z in E. rn. replace (1 - -1) with 2 in E by ring. rewrite Rabs_right in E by lra. unfold eps in E. lra. }
    assert (visClose (P 0 0 1) (vopp (P 0 0 (-1))) = true) as ->.
    { apply visClose_iff. unfold vopp, P, X, Y, Z. rn. replace (0 - - 0) with 0 by ring. replace (1 - - -1) with 0 by ring.
      rewrite Rabs_R0. pose proof eps_pos. auto. }
    reflexivity.
  - rewrite D1, D2. split.
    + rewrite app_mirX, transformed_mid by exact AM. intros E. apply (f_equal Z) in E. un. rn. lra.
    + intros o p q r. rewrite !app_mirX, !transformed_mid by exact AM. un. rn. ring.
Qed.
Print Assumptions C21_antiparallel_refuted.

Example C21_nonvacuous : ~ within_tol (dir_of (P 1 0 0)) (neg (dir_of (P 0 1 0))) /\
  ~ within_tol (dir_of (P 1 0 0)) (dir_of (P 0 1 0)).
Proof.
  assert (U1 : unit_vec (P 1 0 0)) by (un; rn; ring). assert (U2 : unit_vec (P 0 1 0)) by (un; rn; ring).
  unfold dir_of. rewrite (unit_len _ U1), (unit_len _ U2).
  split; intros (H & _ & _); unfold neg, scaled, P, X, eps in H; rn; [replace (/ 1 * 1 - - (/ 1 * 0)) with 1 in H by field|replace (/ 1 * 1 - / 1 * 0) with 1 in H by field];
  rewrite Rabs_R1 in H; lra.
Qed.

(** ** C22 ordering *)
Theorem C22_order : 
  (forall p q : pt, vltb p q = true <->
     X p < X q \/ (X p = X q /\ (Y p < Y q \/ (Y p = Y q /\ Z p < Z q)))) /\
  (forall p : pt, vltb p p = false) /\
  (forall p q r : pt, vltb p q = true -> vltb q r = true -> vltb p r = true) /\
  (forall p q : pt, vltb p q = true \/ veqb p q = true \/ vltb q p = true) /\
  (forall p q : pt, veqb p q = true <-> p = q).
Proof.
  split; [exact vltb_lex|]. split.
  { intros p. destruct (vltb p p) eqn:E; [|reflexivity]. apply vltb_lex in E. exfalso. eapply lex_irrefl; eauto. }
  split; [intros p q r; rewrite !vltb_lex; apply lex_trans|]. split; [|exact veqb_iff].
  intros p q. rewrite !vltb_lex, veqb_iff. apply lex_total.
Qed.
Print Assumptions C22_order.
Example C22_nonvacuous : vltb (P 1 2 3) (P 1 2 4) = true /\ vltb (P 1 2 3) (P 1 1 4) = false.
Proof.
  split; [apply vltb_lex; unfold lexlt; un; rn; right; split; [reflexivity|right; split; [reflexivity|lra]]|].
  destruct (vltb (P 1 2 3) (P 1 1 4)) eqn:E; [|reflexivity]. apply vltb_lex in E. unfold lexlt in E. un. rn. lra.
Qed.

(** ** C23 planes and lines *)
Theorem C23_plane_line : forall (pl : @plane Rnum) (l : @line Rnum),
  (forall v, pintersectLine pl l = Ok v -> on_plane pl v /\ on_line l v /\
     forall w, on_plane pl w -> on_line l w -> w = v) /\
  ((exists e, pintersectLine pl l = Err e) <-> Rabs (inner (pnormal pl) (ldir l)) < eps).
Proof.
  intros pl l. split; [|apply pintersectLine_err].
  intros v H. destruct (pintersectLine_sound _ _ _ H) as [H1 H2]. split; [exact H1|]. split; [exact H2|].
  intros w W1 W2. eapply on_plane_line_unique; eauto.
  intros Z0. assert (exists e, pintersectLine pl l = Err e) as (e & He); [|congruence].
  apply pintersectLine_err. rewrite Z0, Rabs_R0. apply eps_pos.
Qed.
Print Assumptions C23_plane_line.

Theorem C23_three_planes : forall p a b : @plane Rnum,
  (forall v, pintersectPlanes p a b = Ok v -> on_plane p v /\ on_plane a v /\ on_plane b v) /\
  ((exists e, pintersectPlanes p a b = Err e) <-> Rabs (triple (pnormal a) (pnormal b) (pnormal p)) < eps).
Proof. intros. split; [apply pintersectPlanes_sound|apply pintersectPlanes_err]. Qed.
Print Assumptions C23_three_planes.

Theorem C23_axis_projections : forall (pl : @plane Rnum) (v w : pt),
  (projectX pl v = Ok w -> on_plane pl w /\ Y w = Y v /\ Z w = Z v) /\
  (projectY pl v = Ok w -> on_plane pl w /\ X w = X v /\ Z w = Z v) /\
  (projectZ pl v = Ok w -> on_plane pl w /\ X w = X v /\ Y w = Y v) /\
  ((exists e, projectX pl v = Err e) <-> Rabs (X (pnormal pl)) < eps) /\
  ((exists e, projectY pl v = Err e) <-> Rabs (Y (pnormal pl)) < eps) /\
  ((exists e, projectZ pl v = Err e) <-> Rabs (Z (pnormal pl)) < eps).
Proof.
  intros. split; [apply projectX_sound|]. split; [apply projectY_sound|]. split; [apply projectZ_sound|].
  split; [apply projectX_err|]. split; [apply projectY_err|apply projectZ_err].
Qed.
Print Assumptions C23_axis_projections.

Theorem C23_normal_projection : forall (pl : @plane Rnum) v, wf_plane pl ->
  exists w, projectNormal pl v = Ok w /\ on_plane pl w /\ (exists k, w = plus v (scaled k (pnormal pl))) /\
  forall u, on_plane pl u -> edist v w <= edist v u.
Proof. exact projectNormal_spec. Qed.
Print Assumptions C23_normal_projection.

Theorem C23_two_lines : forall s o : @line Rnum, wf_line s -> wf_line o ->
  (forall v p, lintersect s o = Ok v -> on_line s p -> on_line o p -> v = p) /\
  (forall v, lintersect s o = Ok v -> exists a b, on_line s a /\ on_line o b /\ v = scaled (1/2) (plus a b) /\
     forall a' b', on_line s a' -> on_line o b' -> edist a b <= edist a' b') /\
  ((exists e, lintersect s o = Err e) <-> Rabs (1 - inner (ldir s) (ldir o) * inner (ldir s) (ldir o)) < eps).
Proof.
  intros s o Ws Wo. split; [intros v p H H0 H1; exact (lintersect_common s o v p Ws Wo H H0 H1)|]. split; [|apply lintersect_err; assumption].
  intros v H. destruct (lintersect_spec s o v Ws Wo H) as (a & b & Ha & Hb & E & P1 & P2). exists a, b.
  split; [exact Ha|]. split; [exact Hb|]. split; [exact E|]. intros. unfold edist. apply sqrt_le_1_alt.
  eapply perp_closest; eauto.
Qed.
Print Assumptions C23_two_lines.

Theorem C23_distances : 
  (forall (l : @line Rnum) v, wf_line l ->
     (exists w, on_line l w /\ ldistance l v = edist w v) /\ forall u, on_line l u -> ldistance l v <= edist u v) /\
  (forall (pl : @plane Rnum) v, wf_plane pl ->
     exists w, on_plane pl w /\ v = plus w (scaled (pdistance pl v) (pnormal pl))).
Proof. split; [exact ldistance_spec|exact pdistance_spec]. Qed.
Print Assumptions C23_distances.

(* the constructors give well formed planes and lines, and planes through the given points *)
Theorem C23_constructors :
  (forall (pos n : pt) pl, newPlane pos n = Ok pl -> wf_plane pl /\ on_plane pl pos) /\
  (forall (pos d : pt) l, newLine pos d = Ok l -> wf_line l /\ on_line l pos) /\
  (forall (a b c : pt) pl, planePoints a b c = Ok pl -> wf_plane pl /\ on_plane pl a /\ on_plane pl b /\ on_plane pl c) /\
  (forall (pos n : pt) e, newPlane pos n = Err e <-> n = origin /\ e = ZeroDivision).
Proof.
  assert (SELF : forall pl : @plane Rnum, on_plane pl (ppos pl)) by (intros pl; unfold on_plane; un; rn; ring).
  split; [|split; [|split]].
  - intros pos n pl H. apply newPlane_ok in H. destruct H as (W & <- & _). split; [exact W|apply SELF].
  - intros pos d l H. apply newLine_ok in H. destruct H as (W & <- & _). split; [exact W|].
    exists 0. apply pt_ext; un; rn; symmetry; ring.
  - intros a b c pl H. unfold planePoints in H. apply newPlane_ok in H. destruct H as (W & E & N & _). split; [exact W|].
    split; [|split; [rewrite <- E; apply SELF|]]; unfold on_plane; rewrite N, E;
      generalize (/ len (vcross (vsub b a) (vsub c a))); intros; un; gm; rn; ring.
  - exact newPlane_err.
Qed.
Print Assumptions C23_constructors.

Example C23_nonvacuous : exists pl l, newPlane (P 0 0 2) (P 0 0 1) = Ok pl /\ newLine (P 1 1 0) (P 0 0 1) = Ok l /\
  pintersectLine pl l = Ok (P 1 1 2).
Proof.
  assert (U : unit_vec (P 0 0 1)) by (un; rn; ring).
  unfold newPlane, newLine. rewrite vnorm_of_unit by exact U. cbn [bind]. eexists. eexists.
  split; [reflexivity|]. split; [reflexivity|]. unfold pintersectLine. cbn zeta. rn.
  destruct (@isZero Rnum (vdot (P 0 0 1) (P 0 0 1))) eqn:E.
  - exfalso. apply isZero_iff in E. replace (vdot (P 0 0 1) (P 0 0 1)) with 1 in E by (unfold vdot, P; rn; ring). rewrite Rabs_R1 in E. unfold eps in E. lra.
  - apply not_isZero_neq in E. rewrite pdiv_nz by exact E. cbn [bind]. f_equal.
    apply pt_ext; unfold vadd, vscale, vdot, vsub, P, X, Y, Z; rn; field; lra.
Qed.

(** ** C24 segment intersection *)
(* asLine n: the first segment is a line when n = 2, the second when n >= 1 *)
Theorem C24_intersect2D : forall (s o : @segment Rnum) (n : nat),
  let parallel := Rabs ((X (sb s) - X (sa s)) * (Y (sb o) - Y (sa o)) - (Y (sb s) - Y (sa s)) * (X (sb o) - X (sa o))) < eps in
  let first v := if Nat.eqb n 2 then on_line2 (sa s) (sb s) v else on_seg2 (sa s) (sb s) v in
  let second v := if Nat.leb 1 n then on_line2 (sa o) (sb o) v else on_seg2 (sa o) (sb o) v in
  (parallel -> sintersect2D s o n = Ok None) /\
  (~ parallel -> forall v, sintersect2D s o n = Ok (Some v) <-> first v /\ second v /\ Z v = 0) /\
  (~ parallel -> (sintersect2D s o n = Ok None <-> forall v, ~ (first v /\ second v))).
Proof.
  intros s o n. cbn zeta.
  assert (SUB : forall il a b v, part2 il a b v -> on_line2 a b v).
  { intros il a b v H. destruct il; [exact H|]. destruct H as (t & _ & H). exists t. exact H. }
  destruct (sintersect2D_spec s o n) as [[Hp E]|[Hp H]]; unfold cross2 in Hp.
  - split; [auto|]. split; intros K; contradiction.
  - split; [intros K; exfalso; unfold Rminus in *; lra|].
    destruct H as [(v & E & Zv & F & S & U)|[E N]].
    + split; intros _.
      * intros w. rewrite E. split.
        -- intros K. injection K as <-. auto.
        -- intros (F' & S' & Zw). do 2 f_equal. destruct (U w (SUB _ _ _ _ F') (SUB _ _ _ _ S')) as [HX HY].
           apply pt_ext; [symmetry; exact HX|symmetry; exact HY|rewrite Zv, Zw; reflexivity].
      * rewrite E. split; [discriminate|]. intros K. exfalso. apply (K v). auto.
    + split; intros _.
      * intros w. rewrite E. split; [discriminate|]. intros (F & S & _). exfalso. eapply N; eauto.
      * rewrite E. split; [|reflexivity]. intros _ w [F S]. eapply N; eauto.
Qed.
Print Assumptions C24_intersect2D.
Example C24_nonvacuous : sintersect2D (mkSeg (P 0 0 0) (P 2 2 0)) (mkSeg (P 0 2 5) (P 2 0 9)) 0 = Ok (Some (P 1 1 0)) /\
  sintersect2D (mkSeg (P 0 0 0) (P 2 2 0)) (mkSeg (P 3 0 5) (P 3 1 9)) 0 = Ok None.
Proof.
  split.
  - apply (C24_intersect2D (mkSeg (P 0 0 0) (P 2 2 0)) (mkSeg (P 0 2 5) (P 2 0 9)) 0).
    + unfold eps, P, X, Y. rn. replace ((2 - 0) * (0 - 2) - (2 - 0) * (2 - 0)) with (-8) by ring. rewrite Rabs_left by lra. lra.
    + cbn. unfold on_seg2, at2. un. rn. split; [|split; [|reflexivity]]; exists (1/2); (split; [lra|split; field]).
  - apply (C24_intersect2D (mkSeg (P 0 0 0) (P 2 2 0)) (mkSeg (P 3 0 5) (P 3 1 9)) 0).
    + unfold eps, P, X, Y. rn. replace ((2 - 0) * (1 - 0) - (2 - 0) * (3 - 3)) with 2 by ring. rewrite Rabs_right by lra. lra.
    + cbn. unfold on_seg2, at2. un. rn. intros v [(t & Ht & Hx & _) (u & Hu & Hx' & _)]. rewrite Hx in Hx'. lra.
Qed.

(** ** C25 distance (segments; polylines in P_Edge) *)
Theorem C25_segment_distance : forall (s : @segment Rnum) v, exists d, sdistance2D s v = Ok d /\
  (exists w, on_seg2 (sa s) (sb s) w /\ d = edist2 w v) /\
  forall u, on_seg2 (sa s) (sb s) u -> d <= edist2 u v.
Proof. exact sdistance2D_spec. Qed.
Print Assumptions C25_segment_distance.

(** ** C26 circles *)
Theorem C26_circle_line : forall (c : @circle Rnum) (l : @line Rnum),
  X (ldir l) <> 0 \/ Y (ldir l) <> 0 ->
  exists pts, cintersectLine2D c l = Ok pts /\
  exists foot, on_line_xy l foot /\ Z foot = 0 /\
    (forall v, on_line_xy l v -> sqdist2 foot (ccenter c) <= sqdist2 v (ccenter c)) /\
    let gap := 4 * (cradius c * cradius c - sqdist2 foot (ccenter c)) in
    (Rabs gap < eps -> pts = [foot]) /\
    (gap <= - eps -> pts = [] /\ forall v, on_line_xy l v -> ~ on_circle c v) /\
    (eps <= gap -> exists p q, pts = [p; q] /\ (X p <> X q \/ Y p <> Y q) /\ Z p = 0 /\ Z q = 0 /\
        forall v, Z v = 0 -> (on_line_xy l v /\ on_circle c v <-> v = p \/ v = q)).
Proof. exact cintersectLine2D_spec. Qed.
Print Assumptions C26_circle_line.

Theorem C26_circle_circle : forall c o : @circle Rnum,
  let p := edist2 (ccenter c) (ccenter o) in
  let r1 := cradius c in let r2 := cradius o in
  exists pts, cintersectCircle2D c o = Ok pts /\
  (p < eps -> pts = []) /\
  (r1 + r2 < p \/ p < Rabs (r1 - r2) -> pts = []) /\
  (0 < p -> 0 <= r1 -> 0 <= r2 -> r1 + r2 < p \/ p < Rabs (r1 - r2) ->
     forall v, on_circle c v -> ~ on_circle o v) /\
  (eps <= p -> Rabs (r1 - r2) <= p <= r1 + r2 ->
     (exists q q', pts = [q; q'] /\ q <> q' /\ Z q = 0 /\ Z q' = 0 /\
        forall v, Z v = 0 -> (on_circle c v /\ on_circle o v <-> v = q \/ v = q')) \/
     (exists q, pts = [q] /\ Z q = 0 /\ Rabs (sqdist2 q (ccenter c) - r1 * r1) < eps * eps /\
         Rabs (sqdist2 q (ccenter o) - r2 * r2) < eps * eps)).
Proof. exact cintersectCircle2D_spec. Qed.
Print Assumptions C26_circle_circle.
Example C26_nonvacuous : 
  let c := @mkCircle Rnum (P 0 0 0) 5 in let o := @mkCircle Rnum (P 6 0 0) 5 in
  eps <= edist2 (ccenter c) (ccenter o) /\
  Rabs (cradius c - cradius o) <= edist2 (ccenter c) (ccenter o) <= cradius c + cradius o.
Proof.
  cbn zeta. assert (E : edist2 (P 0 0 0) (P 6 0 0) = 6).
  { unfold edist2, sqdist2, Rsqr, P, X, Y. rn. replace ((0 - 6) * (0 - 6) + (0 - 0) * (0 - 0)) with (6 * 6) by ring. apply sqrt_square. lra. }
  rn. rewrite E. replace (5 - 5) with 0 by ring. rewrite Rabs_R0. unfold eps. lra.
Qed.

(** ** C27 triangles *)
(* is_normal a b c n: n is the unit vector at right angles to the triangle from
   which a, b, c appear counter-clockwise (right-hand rule) *)
Theorem C27_normal : forall (t : @tri Rnum) n,
  tnormal t = Ok n <-> is_normal (ta t) (tb t) (tc t) n.
Proof. intros t n. split; [apply tnormal_is|apply tnormal_complete]. Qed.
Print Assumptions C27_normal.

Theorem C27_mirrored_reversed : forall (t : @tri Rnum) n, tnormal t = Ok n ->
  tnormal (treversed t) = Ok (P (- X n) (- Y n) (- Z n)) /\
  tnormal (treversed (tmirX t)) = Ok (P (- X n) (Y n) (Z n)) /\
  tnormal (treversed (tmirY t)) = Ok (P (X n) (- Y n) (Z n)) /\
  tnormal (treversed (tmirZ t)) = Ok (P (X n) (Y n) (- Z n)).
Proof.
  intros t n H. apply tnormal_is in H.
  split; [|split; [|split]]; apply tnormal_complete; cbn [treversed tmirX tmirY tmirZ ta tb tc].
  - apply (normal_reversed _ _ _ _ H). - apply (normal_mirX _ _ _ _ H).
  - apply (normal_mirY _ _ _ _ H). - apply (normal_mirZ _ _ _ _ H).
Qed.
Print Assumptions C27_mirrored_reversed.

Theorem C27_circumradius : forall t : @tri Rnum,
  let double_area := 2 * len (vcross (minus (ta t) (tc t)) (minus (tb t) (tc t))) in
  (double_area < eps -> tcircumradius t = Ok 0) /\
  (eps <= double_area ->
   exists r o, tcircumradius t = Ok r /\ orient o (ta t) (tb t) (tc t) = 0 /\
     edist o (ta t) = r /\ edist o (tb t) = r /\ edist o (tc t) = r).
Proof. exact tcircumradius_spec. Qed.
Print Assumptions C27_circumradius.

Theorem C27_area_heron : forall t : @tri Rnum, exists a, tarea t = Ok a /\ 0 <= a /\
  16 * (a * a) = 4 * sqdist (tb t) (ta t) * sqdist (tc t) (ta t) -
     Rsqr (sqdist (tb t) (ta t) + sqdist (tc t) (ta t) - sqdist (tb t) (tc t)).
Proof. exact tarea_spec. Qed.
Print Assumptions C27_area_heron.

Theorem C27_angle_between : forall p q : pt, p <> origin -> q <> origin ->
  exists a, vangle p q = Ok a /\ 0 <= a <= PI /\ len p * len q * cos a = inner p q.
Proof. exact vangle_spec. Qed.
Print Assumptions C27_angle_between.

Example C27_nonvacuous : tnormal (mkTri (P 0 0 0) (P 1 0 0) (P 0 1 0)) = Ok (P 0 0 1).
Proof. apply C27_normal. cbn. unfold is_normal. un. rn. repeat split; lra. Qed.

(** ** C51 tolerance *)
Theorem C51_tolerance :
  (forall x : R, @isZero Rnum x = true <-> Rabs x < 1 / 1000000) /\
  (forall x : R, @isZero Rnum (- x) = @isZero Rnum x) /\
  (forall p : pt, vsnapped (vsnapped p) = vsnapped p) /\
  (forall p : pt, within_tol (vsnapped p) p) /\
  (forall p : pt, (X (vsnapped p) = 0 \/ 1 / 1000000 <= Rabs (X (vsnapped p))) /\
                  (Y (vsnapped p) = 0 \/ 1 / 1000000 <= Rabs (Y (vsnapped p))) /\
                  (Z (vsnapped p) = 0 \/ 1 / 1000000 <= Rabs (Z (vsnapped p)))) /\
  (forall p q : pt, visClose p q = true <-> within_tol p q) /\
  (forall p q : pt, visClose p q = visClose q p).
Proof.
  split; [exact isZero_iff|]. split.
  { intros x. unfold isZero. rn. rewrite Rabs_Ropp. reflexivity. }
  split; [intros p; unfold vsnapped; cbn [vx vy vz]; rewrite (snap1_idem (vx p)), (snap1_idem (vy p)), (snap1_idem (vz p)); reflexivity|].
  assert (S : forall x : R, Rabs (@snap1 Rnum x - x) < eps).
  { intros x. destruct (snap1_spec x) as [[-> _]|[-> H]].
    - unfold Rminus. rewrite Rplus_opp_r, Rabs_R0. apply eps_pos.
    - replace (0 - x) with (- x) by ring. rewrite Rabs_Ropp. exact H. }
  split; [intros p; split; [|split]; apply S|]. split.
  { intros p. assert (G : forall x : R, @snap1 Rnum x = 0 \/ 1 / 1000000 <= Rabs (@snap1 Rnum x)).
    { intros x. destruct (snap1_spec x) as [[-> H]|[-> H]]; auto. }
    split; [|split]; apply G. }
  split; [exact visClose_iff|].
  intros p q. apply eq_true_iff_eq. rewrite !visClose_iff.
  rewrite (Rabs_minus_sym (X p)), (Rabs_minus_sym (Y p)), (Rabs_minus_sym (Z p)). tauto.
Qed.
Print Assumptions C51_tolerance.
