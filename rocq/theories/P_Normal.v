(** Surface normals, offsets, flattening of faces, areas and volumes of meshes
    (properties C23, C52, C53, C54, C55). *)
From Coq Require Import Reals Lra Lia ZArith List Bool.
From Verif Require Import Num GeoModel EdgeModel FaceModel GeoSpec GeoMat GeoRigid GeoPlane GeoFig EdgeSpec EdgeSpecR NormSpec GeoNormal GeoCirc FaceEar FaceNormal MeshReal P_Face.
Import ListNotations.
Open Scope R_scope.

(** ** C52 surface normal *)
(* a unit vector along the directed area; it raises exactly when the directed
   area vanishes (fewer than three points, collinear points, ...) *)
Theorem C52_normal : forall l : list pt,
  (forall n, surfaceNormal l = Ok n -> unit_vec n /\ exists k, 0 < k /\ area_vec l = scaled k n) /\
  ((exists e, surfaceNormal l = Err e) <-> area_vec l = origin).
Proof.
  intros l. split.
  - intros n H. destruct (area_normal _ _ H) as [E L]. rewrite surfaceNormal_area in H. split; [exact (vnorm_unit _ _ H)|]. eauto.
  - rewrite surfaceNormal_area. destruct (origin_dec (area_vec l)) as [E|NE].
    + rewrite E. split; [reflexivity|]. intros _. exists ZeroDivision. exact vnorm_zero.
    + rewrite vnorm_spec by exact NE. split; [intros [e H]; discriminate|contradiction].
Qed.
Print Assumptions C52_normal.
(* it does not depend on the start vertex or the position, and turns around when
   the polygon is reversed *)
Theorem C52_start_vertex : forall l : list pt, surfaceNormal (turn l) = surfaceNormal l.
Proof. intros l. rewrite !surfaceNormal_area, area_vec_turn. reflexivity. Qed.
Print Assumptions C52_start_vertex.
Theorem C52_translated : forall (l : list pt) v, surfaceNormal (map (fun p => plus p v) l) = surfaceNormal l.
Proof. intros l v. rewrite !surfaceNormal_area, area_vec_shift. reflexivity. Qed.
Print Assumptions C52_translated.
Theorem C52_reversed : forall (l : list pt) n, surfaceNormal l = Ok n -> surfaceNormal (rev l) = Ok (scaled (-1) n).
Proof.
  intros l n H. destruct (area_normal _ _ H) as [E L]. rewrite surfaceNormal_area, area_vec_rev.
  rewrite surfaceNormal_area in H. apply vnorm_ok in H. destruct H as [NE ->]. clear E. revert L NE. generalize (area_vec l). intros a L NE.
  assert (N2 : scaled (-1) a <> origin).
  { intros Q. apply NE. destruct a as [x y z]. apply pt_ext; [apply (f_equal X) in Q|apply (f_equal Y) in Q|apply (f_equal Z) in Q]; unfold X, Y, Z in *; cbn in *; lra. }
  rewrite vnorm_spec by exact N2. f_equal.
  replace (len (scaled (-1) a)) with (len a). 2:{ unfold len. f_equal. destruct a. alg. ring. }
  destruct a. apply pt_ext; unfold scaled, P, X, Y, Z; cbn; ring.
Qed.
Print Assumptions C52_reversed.
(* the normal of a flat polygon is one of the two unit normals of its plane *)
Theorem C52_planar : forall (l : list pt) n m, unit_vec n -> planar n l -> surfaceNormal l = Ok m -> m = n \/ m = scaled (-1) n.
Proof.
  intros l n m U PL H. destruct (area_normal _ _ H) as [E L]. destruct (planar_area n l (unit_norig _ U) PL) as [s Es].
  rewrite surfaceNormal_area in H. pose proof (vnorm_unit _ _ H) as Um. rewrite Es in E at 1. set (k := len (area_vec l)) in *. clearbody k.
  assert (M : m = scaled (s / k) n).
  { destruct n, m. apply pt_ext; [apply (f_equal X) in E|apply (f_equal Y) in E|apply (f_equal Z) in E]; unfold scaled, P, X, Y, Z in *; cbn in *; apply (Rmult_eq_reg_l k); try lra; rewrite <- E; field; lra. }
  assert (Q : (s / k) * (s / k) = 1).
  { unfold unit_vec in *. rewrite M in Um. transitivity (inner (scaled (s / k) n) (scaled (s / k) n)); [|exact Um].
    transitivity ((s / k) * (s / k) * inner n n); [rewrite U; ring|]. generalize (s / k). destruct n. intros r. alg. ring. }
  assert (Q2 : (s / k - 1) * (s / k + 1) = 0) by (transitivity (s / k * (s / k) - 1); [ring|lra]).
  apply Rmult_integral in Q2. destruct Q2 as [Q2|Q2]; [left|right].
  - rewrite M. replace (s / k) with 1 by lra. destruct n. apply pt_ext; unfold scaled, P, X, Y, Z; cbn; ring.
  - rewrite M. replace (s / k) with (-1) by lra. reflexivity.
Qed.
Print Assumptions C52_planar.
(* right-handed: seen from the normal's tip a triangle runs counter-clockwise *)
Theorem C52_triangle : forall a b c n : pt, surfaceNormal [a; b; c] = Ok n ->
  inner (minus b a) n = 0 /\ inner (minus c a) n = 0 /\ 0 < triple (minus b a) (minus c a) n.
Proof.
  intros a b c n H. destruct (area_normal _ _ H) as [E L]. rewrite surfaceNormal_area in H. pose proof (vnorm_unit _ _ H) as U.
  rewrite area_vec_tri in E at 1. set (k := len _) in *. clearbody k.
  assert (A : inner (minus b a) (cross (minus b a) (minus c a)) = 0) by (destruct a, b, c; unfold cross; alg; ring).
  assert (B : inner (minus c a) (cross (minus b a) (minus c a)) = 0) by (destruct a, b, c; unfold cross; alg; ring).
  assert (C : triple (minus b a) (minus c a) n = inner (cross (minus b a) (minus c a)) n) by (destruct a, b, c, n; unfold cross; alg; ring).
  assert (SC : forall v, inner v (scaled k n) = k * inner v n) by (intros []; destruct n; alg; ring).
  assert (SC2 : inner (scaled k n) n = k * inner n n) by (destruct n; alg; ring).
  rewrite E, SC in A, B. rewrite C, E, SC2, U.
  split; [apply Rmult_integral in A; lra|]. split; [apply Rmult_integral in B; lra|lra].
Qed.
Print Assumptions C52_triangle.
Example C52_nonvacuous : surfaceNormal [P 0 0 5; P 2 0 5; P 2 3 5; P 0 3 5] = Ok (P 0 0 1) /\ area_vec [P 0 0 5; P 2 0 5; P 2 3 5; P 0 3 5] = P 0 0 12.
Proof.
  assert (E : area_vec [P 0 0 5; P 2 0 5; P 2 3 5; P 0 3 5] = P 0 0 12) by (apply pt_ext; unfold area_vec, cyclic_pairs, cross, X, Y, Z; cbn; lra).
  split; [|exact E]. rewrite surfaceNormal_area, E.
  assert (NE : P 0 0 12 <> origin) by (intros Q; apply (f_equal Z) in Q; unfold Z in Q; cbn in Q; lra).
  rewrite vnorm_spec by exact NE. f_equal.
  assert (L : len (P 0 0 12) = 12). { unfold len. replace (inner (P 0 0 12) (P 0 0 12)) with (12 * 12) by (alg; ring). apply sqrt_square. lra. }
  rewrite L. apply pt_ext; unfold scaled, P, X, Y, Z; cbn; field.
Qed.

(** ** C53 faces keep their outside *)
(* the flattened face polygon runs counter-clockwise, and its area is the area of
   the face up to a relative error of 2e-12 *)
Theorem C53_flattened_counterclockwise : forall edge rest pts : list pt, uprightPoints edge (edge ++ rest) = Ok pts ->
  0 < area_xy (firstn (length edge) pts) /\
  (1 - 2 * (eps * eps)) * len (area_vec edge) <= area_xy (firstn (length edge) pts) <= len (area_vec edge).
Proof.
  intros edge rest pts H. destruct (upright_area _ _ _ H) as (L & A & B). split; [|split; assumption].
  eapply Rlt_le_trans; [|exact A]. apply Rmult_lt_0_compat; [|exact L]. unfold eps. lra.
Qed.
Print Assumptions C53_flattened_counterclockwise.
(* a flat face keeps its distances, up to a relative error of 3e-12 of the square *)
Theorem C53_flattened_distances : forall (edge real pts : list pt) n, surfaceNormal edge = Ok n -> planar n real ->
  uprightPoints edge real = Ok pts -> length pts = length real /\
  forall i j, (i < length real)%nat -> (j < length real)%nat ->
    let d := sqdist (nth i real origin) (nth j real origin) in
    (1 - 3 * (eps * eps)) * d <= sqdist2 (nth i pts origin) (nth j pts origin) <= d.
Proof.
  intros edge real pts n Hn PL H. apply flatten in H. destruct H as (n' & w & F & Hn' & Un & Uw & NR & -> & _ & D).
  rewrite Hn in Hn'. apply Ok_inj in Hn'. subst n'. split; [apply map_length|]. intros i j Hi Hj d.
  rewrite !(nth_indep (map F real) origin (F origin)) by (rewrite map_length; assumption). rewrite !map_nth, D. fold d.
  pose proof (flat_distance (nth i real origin) (nth j real origin) n w NR (PL _ _ (nth_In _ _ Hi) (nth_In _ _ Hj))) as K. fold d in K.
  pose proof (Rle_0_sqr (inner (minus (nth i real origin) (nth j real origin)) w)). lra.
Qed.
Print Assumptions C53_flattened_distances.
(* in a flat face with normal n, a triangle is counter-clockwise after flattening
   exactly when it faces the same side as the face *)
Theorem C53_triangles_face_outside : forall (edge real pts : list pt) n, surfaceNormal edge = Ok n -> planar n real ->
  uprightPoints edge real = Ok pts -> forall i j k, (i < length real)%nat -> (j < length real)%nat -> (k < length real)%nat ->
  exists s c, tri_area (mkTri (nth i real origin) (nth j real origin) (nth k real origin)) = scaled s n /\
    0 < c <= 1 /\ side (nth i pts origin) (nth j pts origin) (nth k pts origin) = s * c.
Proof.
  intros edge real pts n Hn PL H i j k Hi Hj Hk. apply flatten in H. destruct H as (n' & w & F & Hn' & Un & Uw & NR & -> & S & _).
  rewrite Hn in Hn'. apply Ok_inj in Hn'. subst n'.
  rewrite !(nth_indep (map F real) origin (F origin)) by (rewrite map_length; assumption). rewrite !map_nth, S.
  set (a := nth i real origin). set (b := nth j real origin). set (c := nth k real origin).
  assert (PT : planar n [a; b; c]).
  { intros p q Ip Iq. apply PL; [destruct Ip as [<-|[<-|[<-|[]]]]|destruct Iq as [<-|[<-|[<-|[]]]]]; unfold a, b, c; apply nth_In; assumption. }
  destruct (planar_area n _ (unit_norig _ Un) PT) as [s Es]. exists s, (inner n w). split; [exact Es|].
  pose proof (near_inner n w Un Uw NR). split; [unfold eps in *; lra|].
  rewrite <- area_vec_tri, Es. destruct n, w. alg. ring.
Qed.
Print Assumptions C53_triangles_face_outside.
(* the directed areas of a complete triangulation add up to those of the edge
   polygon and the holes *)
Theorem C53_total_area : forall lt_inf fuel sched (edge : list pt) holes ts, (3 <= length edge)%nat ->
  triangulate lt_inf fuel sched edge holes = Ok ts ->
  length ts = (length edge + fold_right (fun h n => match h with [] => n | _ => length h + 2 + n end) 0 holes - 2)%nat ->
  mesh_area ts = plus (area_vec edge) (vsum (map area_vec holes)).
Proof.
  intros lt_inf fuel sched edge holes ts L H F. destruct (C34_triangulate_boundary_real lt_inf fuel sched edge holes ts L H) as (_ & _ & B).
  specialize (B F veqb). apply (mesh_area_bounds ts (edge :: holes)). apply B.
  split; [intros; apply veqb_iff; reflexivity|]. split.
  { intros p q. apply eq_true_iff_eq. split; intros E; apply veqb_iff in E; subst; apply veqb_iff; reflexivity. }
  split; [intros p q r A C; apply veqb_iff in A, C; subst; apply veqb_iff; reflexivity|auto].
Qed.
Print Assumptions C53_total_area.

(* flattening raises exactly when the edge polygon has no directed area *)
Theorem C53_flattens_iff_area : forall edge real : list pt,
  (exists pts, uprightPoints edge real = Ok pts) <-> area_vec edge <> origin.
Proof.
  intros edge real. split.
  - intros [pts H]. unfold uprightPoints in H. apply bind_ok in H. destruct H as (n & Hn & _). rewrite surfaceNormal_area in Hn.
    apply vnorm_ok in Hn. tauto.
  - intros NE. unfold uprightPoints. rewrite surfaceNormal_area, vnorm_spec by exact NE. pose proof (unit_scaled _ NE) as U.
    set (n := scaled (/ len (area_vec edge)) (area_vec edge)) in *. clearbody n. cbn [bind]. change (V (nZ 0) (nZ 0) (nZ 1)) with ez.
    unfold fromAlignment. rewrite (vnorm_of_unit n U), (vnorm_of_unit ez ez_unit). cbn [bind].
    destruct (visClose n ez); [cbn [bind]; eauto|]. destruct (visClose n (vopp ez)) eqn:C; [cbn [bind]; eauto|].
    cbv zeta. rewrite pdiv_nz; [cbn [bind]; eauto|]. intros D.
    assert (ZN : Z n = -1). { destruct n as [x y z]. unfold ez, Z in *. cbn in *. rn. lra. }
    assert (XY : X n * X n + Y n * Y n = 0). { unfold unit_vec, inner in U. rewrite ZN in U. lra. }
    assert (X0 : X n = 0). { pose proof (Rle_0_sqr (Y n)) as A. pose proof (Rle_0_sqr (X n)) as B. unfold Rsqr in *. apply Rsqr_0_uniq. unfold Rsqr. lra. }
    assert (Y0 : Y n = 0). { rewrite X0 in XY. apply Rsqr_0_uniq. unfold Rsqr. lra. }
    assert (K : visClose n (vopp ez) = true); [|congruence]. apply visClose_iff. rewrite X0, Y0, ZN. unfold ez, X, Y, Z. cbn.
    pose proof eps_pos. split; [|split]; apply Rabs_def1; rn; lra.
Qed.
Print Assumptions C53_flattens_iff_area.
(* a vertical square *)
Example C53_nonvacuous : let sq := [P 0 0 0; P 1 0 0; P 1 0 1; P 0 0 1] in
  area_vec sq = P 0 (-2) 0 /\ planar (P 0 (-1) 0) sq /\ exists pts, uprightPoints sq sq = Ok pts.
Proof.
  cbv zeta. assert (E : area_vec [P 0 0 0; P 1 0 0; P 1 0 1; P 0 0 1] = P 0 (-2) 0) by (apply pt_ext; unfold area_vec, cyclic_pairs, cross, X, Y, Z; cbn; lra).
  split; [exact E|]. split.
  - intros p q Ip Iq. cbn in Ip, Iq. destruct Ip as [<-|[<-|[<-|[<-|[]]]]], Iq as [<-|[<-|[<-|[<-|[]]]]]; unfold inner, minus, P, X, Y, Z; cbn; lra.
  - apply C53_flattens_iff_area. rewrite E. intros Q. apply (f_equal Y) in Q. unfold Y in Q. cbn in Q. lra.
Qed.

(** ** C54 parallel offset *)
(* both ends move by the distance, to the right of the direction a -> b (to the left
   when negative), into the xy plane; it raises exactly when a and b have the
   same x and y *)
Theorem C54_offset : forall (s : @segment Rnum) (d : R),
  (forall t, soffset2D s d = Ok t ->
     Z (sa t) = 0 /\ Z (sb t) = 0 /\ X (sb t) - X (sa t) = X (sb s) - X (sa s) /\ Y (sb t) - Y (sa t) = Y (sb s) - Y (sa s) /\
     edist2 (sa s) (sa t) = Rabs d /\ edist2 (sb s) (sb t) = Rabs d /\
     (X (sa t) - X (sa s)) * (X (sb s) - X (sa s)) + (Y (sa t) - Y (sa s)) * (Y (sb s) - Y (sa s)) = 0 /\
     side (sa s) (sb s) (sa t) = - d * edist2 (sa s) (sb s)) /\
  ((exists e, soffset2D s d = Err e) <-> X (sa s) = X (sb s) /\ Y (sa s) = Y (sb s)).
Proof.
  intros [a b] d. cbn [sa sb]. unfold soffset2D. cbn [sa sb].
  set (u := vortho2D (vsub a b)).
  assert (UX : X u = Y b - Y a) by (destruct a, b; unfold u, X, Y; alg; ring).
  assert (UY : Y u = X a - X b) by (destruct a, b; unfold u, X, Y; alg; reflexivity).
  destruct (Req_EM_T (X a) (X b)) as [EX|NX]; [destruct (Req_EM_T (Y a) (Y b)) as [EY|NY]|].
  { rewrite vnorm2D_err by (rewrite ?UX, ?UY; lra). cbn [bind]. split; [discriminate|]. split; [auto|eauto]. }
  all: assert (NZ : X u <> 0 \/ Y u <> 0) by (rewrite UX, UY; lra); destruct (vnorm2D_ok u NZ) as (-> & _ & L); cbn [bind];
    assert (LE : len2 u = edist2 a b) by (unfold len2, edist2, sqdist2, Rsqr; rewrite UX, UY; f_equal; ring);
    pose proof (len2_sq u) as LS; rewrite UX, UY in *; rewrite LE in *; set (m := edist2 a b) in *; clearbody m; clear u UX UY LE NZ.
  all: split; [|split; [intros [e H]; discriminate|intros [E1 E2]; lra]].
  all: intros t H; apply Ok_inj in H; subst t; cbn [sa sb];
    assert (Q : ((Y b - Y a) / m * d) * ((Y b - Y a) / m * d) + ((X a - X b) / m * d) * ((X a - X b) / m * d) = d * d);
    [transitivity (((Y b - Y a) * (Y b - Y a) + (X a - X b) * (X a - X b)) / (m * m) * (d * d)); [field; lra|rewrite <- LS; field; lra]|].
  all: split; [destruct a; unfold Z; alg; ring|]; split; [destruct b; unfold Z; alg; ring|].
  all: split; [destruct a, b; unfold X; alg; ring|]; split; [destruct a, b; unfold Y; alg; ring|].
  all: split; [|split; [|split]].
  all: try (unfold edist2; rewrite <- sqrt_Rsqr_abs; f_equal; rewrite <- (Rsqr_mult 1 d) || idtac; unfold Rsqr; rewrite <- Q; destruct a, b; unfold sqdist2, Rsqr, X, Y; cbn; ring).
  all: try (destruct a, b; unfold X, Y, P in *; cbn in *; field; lra).
  all: unfold side; apply (Rmult_eq_reg_r m); try lra; replace (- d * m * m) with (- d * (m * m)) by ring; rewrite LS; destruct a, b; unfold X, Y, P in *; cbn in *; field; lra.
Qed.
Print Assumptions C54_offset.
Example C54_nonvacuous : exists t, soffset2D (mkSeg (P 0 0 7) (P 2 0 9)) 3 = Ok t /\ X (sa t) = 0 /\ Y (sa t) = -3 /\ X (sb t) = 2 /\ Y (sb t) = -3.
Proof.
  destruct (soffset2D (mkSeg (P 0 0 7) (P 2 0 9)) 3) as [t|e] eqn:E.
  - exists t. split; [reflexivity|]. destruct (proj1 (C54_offset _ _) t E) as (_ & _ & A & B & _ & _ & C & D).
    assert (L : edist2 (P 0 0 7) (P 2 0 9) = 2). { unfold edist2, sqdist2, Rsqr, X, Y. cbn. replace (_ + _) with (2 * 2) by ring. apply sqrt_square. lra. }
    cbn [sa sb] in *. rewrite L in D. unfold side in D. unfold X, Y in *. cbn in *. lra.
  - exfalso. destruct (proj1 (proj2 (C54_offset _ _)) (ex_intro _ e E)) as [A _]. unfold X in A. cbn in A. lra.
Qed.

(** ** C23 vertical plane along a line, axis planes *)
Theorem C23_vertical_plane : forall l : @line Rnum,
  (forall pl, planeLine2D l = Ok pl -> wf_plane pl /\ Z (pnormal pl) = 0 /\
     forall v, on_plane pl v <-> on_line2 (lpos l) (plus (lpos l) (ldir l)) v) /\
  ((exists e, planeLine2D l = Err e) <-> X (ldir l) = 0 /\ Y (ldir l) = 0).
Proof.
  intros [p u]. unfold planeLine2D. cbn [lpos ldir]. split.
  - intros pl H. unfold newPlane in H. apply bind_ok in H. destruct H as (n & Hn & H). apply Ok_inj in H. subst pl.
    pose proof (vnorm_unit _ _ Hn) as U. apply vnorm_ok in Hn. destruct Hn as [NE ->]. pose proof (len_pos _ NE) as L.
    set (m := len (vortho2D u)) in *. clearbody m. split; [exact U|]. unfold on_plane. cbn [ppos pnormal].
    assert (D : X u <> 0 \/ Y u <> 0).
    { destruct (Req_EM_T (X u) 0) as [A|A]; [|auto]. destruct (Req_EM_T (Y u) 0) as [B|B]; [|auto]. exfalso. apply NE.
      destruct u. apply pt_ext; unfold X, Y in *; cbn in *; lra. }
    clear NE U. split; [destruct u; unfold scaled, P, Z; cbn; ring|]. intros v.
    assert (E : inner (minus v (vxy p)) (scaled (/ m) (vortho2D u)) = / m * ((Y v - Y p) * X u - (X v - X p) * Y u)).
    { destruct v, p, u. unfold X, Y, P. alg. ring. }
    rewrite E. unfold on_line2. 
    assert (AX : forall t, X (at2 p (plus p u) t) = X p + t * X u) by (intros; destruct p, u; unfold X; alg; ring).
    assert (AY : forall t, Y (at2 p (plus p u) t) = Y p + t * Y u) by (intros; destruct p, u; unfold Y; alg; ring).
    split.
    + intros H. apply Rmult_integral in H. destruct H as [H|H]; [exfalso; pose proof (Rinv_0_lt_compat _ L); lra|].
      destruct D as [D|D]; [exists ((X v - X p) / X u)|exists ((Y v - Y p) / Y u)]; rewrite AX, AY; split.
      * field. exact D.
      * apply (Rmult_eq_reg_r (X u)); [|exact D]. transitivity (Y p * X u + (X v - X p) * Y u); [lra|field; exact D].
      * apply (Rmult_eq_reg_r (Y u)); [|exact D]. transitivity (X p * Y u + (Y v - Y p) * X u); [lra|field; exact D].
      * field. exact D.
    + intros (t & TX & TY). rewrite AX in TX. rewrite AY in TY. rewrite TX, TY. ring.
  - split.
    + intros [e H]. apply newPlane_err in H. destruct H as [H _]. split; [apply (f_equal Y) in H|apply (f_equal X) in H]; destruct u; unfold X, Y in *; cbn in *; lra.
    + intros [A B]. exists ZeroDivision. apply newPlane_err. split; [|reflexivity]. destruct u. apply pt_ext; unfold X, Y, Z in *; cbn in *; rn; lra.
Qed.
Print Assumptions C23_vertical_plane.
Theorem C23_axis_planes : forall c : R,
  (exists pl, planeX c = Ok pl /\ wf_plane pl /\ forall v, on_plane pl v <-> X v = c) /\
  (exists pl, planeY c = Ok pl /\ wf_plane pl /\ forall v, on_plane pl v <-> Y v = c) /\
  (exists pl, planeZ c = Ok pl /\ wf_plane pl /\ forall v, on_plane pl v <-> Z v = c).
Proof.
  intros c. unfold planeX, planeY, planeZ, newPlane.
  assert (UX : unit_vec (P 1 0 0)) by (alg; ring). assert (UY : unit_vec (P 0 1 0)) by (alg; ring). assert (UZ : unit_vec (P 0 0 1)) by (alg; ring).
  split; [|split].
  - exists (mkPlane (P c 0 0) (P 1 0 0)). split; [exact (f_equal (rmap (mkPlane (P c 0 0))) (vnorm_of_unit _ UX))|]. split; [exact UX|].
    intros [x y z]. unfold on_plane, inner, minus, P, X, Y, Z. cbn. lra.
  - exists (mkPlane (P 0 c 0) (P 0 1 0)). split; [exact (f_equal (rmap (mkPlane (P 0 c 0))) (vnorm_of_unit _ UY))|]. split; [exact UY|].
    intros [x y z]. unfold on_plane, inner, minus, P, X, Y, Z. cbn. lra.
  - exists (mkPlane (P 0 0 c) (P 0 0 1)). split; [exact (f_equal (rmap (mkPlane (P 0 0 c))) (vnorm_of_unit _ UZ))|]. split; [exact UZ|].
    intros [x y z]. unfold on_plane, inner, minus, P, X, Y, Z. cbn. lra.
Qed.
Print Assumptions C23_axis_planes.

(** ** C55 closed meshes enclose a volume *)
(* a closed mesh has no preferred direction, and its signed volume does not depend
   on the reference point, so it is a property of the shape *)
Theorem C55_closed_mesh : forall ts : list (@tri Rnum), watertight veqb ts ->
  mesh_area ts = origin /\ forall o o', mesh_volume o ts = mesh_volume o' ts.
Proof.
  intros ts W. split; [apply (mesh_area_bounds ts []); exact W|]. intros. apply volume_closed, W.
Qed.
Print Assumptions C55_closed_mesh.
(* for every quantity carried antisymmetrically along edges, the total around the
   triangles is the total along the bounding paths *)
Theorem C55_circulation : forall (f : pt -> pt -> R) (ts : list (@tri Rnum)) paths, (forall p q, f q p = - f p q) ->
  bounds veqb ts paths ->
  rsum (map (fun t => f (ta t) (tb t) + f (tb t) (tc t) + f (tc t) (ta t)) ts) =
  rsum (map (fun path => rsum (map (fun e => f (fst e) (snd e)) (combine path (tl path)))) paths).
Proof.
  intros f ts paths A B. etransitivity; [exact (stokes f ts paths A B)|]. f_equal. apply map_ext. intros l. rewrite psum_edges. unfold esum_r. f_equal. f_equal.
  induction l as [|a l IH]; [reflexivity|]. destruct l as [|b l]; [reflexivity|]. cbn [path_edges tl combine]. f_equal. exact IH.
Qed.
Print Assumptions C55_circulation.
(* the four faces of a tetrahedron *)
Example C55_nonvacuous : let a := P 0 0 0 in let b := P 1 0 0 in let c := P 0 1 0 in let d := P 0 0 1 in
  let ts := [mkTri a c b; mkTri a b d; mkTri b c d; mkTri c a d] in
  watertight veqb ts /\ mesh_volume (P 5 6 7) ts = 1.
Proof.
  cbv zeta. split.
  - intros u v. unfold mesh_uses, uses. cbn [fold_right ta tb tc]. repeat rewrite (andb_comm (veqb _ v) (veqb _ u)). lia.
  - unfold mesh_volume. cbn. alg. ring.
Qed.
