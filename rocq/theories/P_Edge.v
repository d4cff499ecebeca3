(** Properties C25 (polygon part) and C28-C32: Edge (body/chrumm/geo/edge.py).
    Read together with EdgeSpec.v (meshes as edge counts) and EdgeSpecR.v
    (polygons over the reals). *)
From Coq Require Import Reals Lra Psatz List Bool Arith Lia Sorting.Sorted.
From Verif Require Import Num Toy GeoModel EdgeModel EdgeSpec EdgeMesh GeoSpec GeoMat GeoPlane GeoFig GeoTri
  EdgeSpecR EdgeContains EdgeHull EdgeHull2 EdgeReal.
Import ListNotations.

(** ** C28 construction and collapse *)
(* the three equations determine the constructor: points in order, nested
   iterables spliced in place *)
Theorem C28_flatten : forall (N : Num),
  (forall l, newEdge (map AVec l) = l) /\
  (forall l, newEdge [AIter l] = newEdge l) /\
  (forall l1 l2, newEdge (l1 ++ l2) = newEdge l1 ++ newEdge l2).
Proof.
  intros N. assert (A : forall l1 l2, newEdge (l1 ++ l2) = newEdge l1 ++ newEdge l2).
  { intros l1 l2. unfold newEdge. cbn [eadd1]. induction l1 as [|x l1 IH]; [reflexivity|]. cbn [app]. rewrite IH. apply app_assoc. }
  split; [|split; [|exact A]].
  - induction l as [|v l IH]; [reflexivity|]. change (map AVec (v :: l)) with ([AVec v] ++ map AVec l). rewrite A, IH. reflexivity.
  - intros l. unfold newEdge. cbn [eadd1]. apply app_nil_r.
Qed.
Print Assumptions C28_flatten.

Open Scope R_scope.
(* collapsed keeps, in order, exactly the points whose outgoing segment is long enough *)
Theorem C28_collapse_subsequence : forall (l : list pt) (threshold : R), exists idx,
  StronglySorted lt idx /\
  (forall i, In i idx <-> (i < length l)%nat /\ threshold <= edist (cyc l i) (cyc l (S i))) /\
  @collapsed Rnum l threshold = map (cyc l) idx.
Proof. exact collapsed_index. Qed.
Print Assumptions C28_collapse_subsequence.

(* the part of "no short segment remains" that holds: dropping m short segments
   after a kept point shortens the kept segment by at most m thresholds *)
Theorem C28_collapse_gap_partial : forall (l : list pt) threshold i m,
  (forall k, (1 <= k <= m)%nat -> edist (cyc l (i + k)) (cyc l (S (i + k))) < threshold) ->
  edist (cyc l i) (cyc l (i + m + 1)) >= edist (cyc l i) (cyc l (i + 1)) - INR m * threshold.
Proof. exact collapse_gap. Qed.
Print Assumptions C28_collapse_gap_partial.

(* the full claim is false: a short segment can remain *)
Lemma edist_x (x y : R) : edist (P x 0 0) (P y 0 0) = Rabs (x - y).
Proof.
  unfold edist. rewrite <- sqrt_Rsqr_abs. f_equal. unfold sqdist. change (X (P x 0 0)) with x. change (X (P y 0 0)) with y.
  change (Y (P x 0 0)) with 0. change (Y (P y 0 0)) with 0. change (Z (P x 0 0)) with 0. change (Z (P y 0 0)) with 0. unfold Rsqr. ring.
Qed.
Theorem C28_collapse_keeps_short_segment_refuted :
  ~ (forall (l : list pt) (threshold : R) i, 0 < threshold ->
       let c := @collapsed Rnum l threshold in (2 <= length c)%nat -> (i < length c)%nat -> threshold <= edist (cyc c i) (cyc c (S i))).
Proof.
  intros H. set (p0 := P 0 0 0). set (p1 := P 2 0 0). set (p2 := P 1 0 0). set (p3 := P 9 0 0).
  assert (E : @collapsed Rnum [p0; p1; p2; p3] 2 = [p0; p2; p3]).
  { unfold collapsed. cbn [toSegments segs_open last app map filter].
    rewrite !smag_edist. unfold p0, p1, p2, p3. rewrite !edist_x. change (@nleb Rnum) with Rleb.
    assert (Rleb 2 (Rabs (2 - 0)) = true) as -> by (apply Rleb_true; rewrite Rabs_right; lra).
    assert (Rleb 2 (Rabs (1 - 2)) = false) as -> by (apply Rleb_false; rewrite Rabs_left; lra).
    assert (Rleb 2 (Rabs (9 - 1)) = true) as -> by (apply Rleb_true; rewrite Rabs_right; lra).
    assert (Rleb 2 (Rabs (0 - 9)) = true) as -> by (apply Rleb_true; rewrite Rabs_left; lra). reflexivity. }
  specialize (H [p0; p1; p2; p3] 2 0%nat ltac:(lra)). cbn zeta in H. rewrite E in H.
  specialize (H ltac:(cbn; lia) ltac:(cbn; lia)). change (cyc [p0; p2; p3] 0) with p0 in H. change (cyc [p0; p2; p3] 1) with p2 in H.
  unfold p0, p2 in H. rewrite edist_x in H. rewrite Rabs_left in H by lra. lra.
Qed.
Print Assumptions C28_collapse_keeps_short_segment_refuted.

(** ** C29 pairwise meshing *)
(* for every arithmetic: boundary of the strip = along self, back along other *)
Theorem C29_boundary : forall (N : Num) (s o : list vec) (isClosed : bool) d ts eqv,
  point_eq eqv -> s <> [] -> o <> [] -> clean_strip s o isClosed d -> meshPairwise s o isClosed = Ok ts ->
  bounds eqv ts [outline s isClosed ++ rev (outline o isClosed) ++ [hd d s]].
Proof.
  intros N s o cl d ts eqv E Hs Ho C H. revert eqv E. apply bounds_of_flux. intros f W.
  cbn [fold_right]. rewrite <- (loop_walk f s o cl d) by assumption. rewrite Z.add_0_r. apply pairwise_flux; assumption.
Qed.
Print Assumptions C29_boundary.
(* closed edges: the boundary is the two loops, the connectors cancel *)
Theorem C29_boundary_closed : forall (N : Num) (s o : list vec) d ts eqv,
  point_eq eqv -> s <> [] -> o <> [] -> clean_strip s o true d -> meshPairwise s o true = Ok ts ->
  bounds eqv ts [s ++ [hd d s]; rev (o ++ [hd d o])].
Proof.
  intros N s o d ts eqv E Hs Ho C H. revert eqv E. apply bounds_of_flux. intros f W.
  cbn [fold_right]. rewrite Z.add_0_r. rewrite <- (closed_walk f s o d) by assumption. apply pairwise_flux; assumption.
Qed.
Print Assumptions C29_boundary_closed.
(* only the given points are used; no degenerate triangle; at most two per pair *)
Theorem C29_triangles : forall (N : Num) (s o : list vec) isClosed ts, meshPairwise s o isClosed = Ok ts ->
  (forall t v, In t ts -> In v (corners t) -> In v s \/ In v o) /\
  (forall t, In t ts -> tbool t = Ok true) /\
  (length ts <= 2 * Nat.max (length (outline o isClosed) - 1) (length (outline s isClosed) - 1))%nat.
Proof.
  intros N s o cl ts H. split; [intros t v Ht Hv; eapply pairwise_vertices; eauto|].
  destruct (pairwise_valid s o cl ts H) as [V L]. split; [exact V|].
  assert (EL : forall l : list vec, endIdx l cl = (length (outline l cl) - 1)%nat).
  { intros l. unfold endIdx, outline. destruct cl; [|lia]. rewrite app_length. destruct l; cbn; lia. }
  rewrite !EL in L. exact L.
Qed.
Print Assumptions C29_triangles.
(* over the reals it never raises *)
Theorem C29_total : forall (s o : list pt) isClosed, s <> [] -> o <> [] -> exists ts, meshPairwise s o isClosed = Ok ts.
Proof. exact pairwise_total. Qed.
Print Assumptions C29_total.

(* the cleanliness hypothesis is needed: with other[0] == self[1] one triangle
   is emitted although the two rails enclose nothing *)
Lemma tbool_len (t : @tri Rnum) : tbool t = Ok (negb (isZero (len (vcross (vsub (tb t) (ta t)) (vsub (tc t) (ta t))) / 2 : R))).
Proof. unfold tbool, tarea. change (@vmag Rnum) with len. rewrite pdiv_nz by (cbn; lra). reflexivity. Qed.
Lemma len_z (z : R) : len (P 0 0 z) = Rabs z.
Proof. unfold len. rewrite <- sqrt_Rsqr_abs. f_equal. unfold inner, Rsqr. change (X (P 0 0 z)) with 0. change (Y (P 0 0 z)) with 0. change (Z (P 0 0 z)) with z. ring. Qed.
Lemma tbool_z (t : @tri Rnum) z : vcross (vsub (tb t) (ta t)) (vsub (tc t) (ta t)) = P 0 0 z -> 1 <= Rabs z -> tbool t = Ok true.
Proof.
  intros E H. rewrite tbool_len, E, len_z. assert (@isZero Rnum (Rabs z / 2) = false) as ->; [|reflexivity].
  apply isZero_false. unfold eps. rewrite Rabs_right by lra. lra.
Qed.
Lemma tbool_0 (t : @tri Rnum) : vcross (vsub (tb t) (ta t)) (vsub (tc t) (ta t)) = P 0 0 0 -> tbool t = Ok false.
Proof.
  intros E. rewrite tbool_len, E, len_z, Rabs_R0. replace (0 / 2) with 0 by field. rewrite isZero_0. reflexivity.
Qed.
Ltac crossz := unfold vcross, vsub, P; rn; f_equal; ring.
Theorem C29_crossed_pair_leaks :
  let a := P 0 0 0 in let b := P 2 0 0 in let c := P 0 2 0 in
  meshPairwise [a; b] [b; c] false = Ok [mkTri a b c] /\
  ~ bounds veqb [mkTri a b c] [[a; b] ++ rev [b; c] ++ [a]].
Proof.
  cbn zeta. set (a := P 0 0 0). set (b := P 2 0 0). set (c := P 0 2 0). split.
  - unfold meshPairwise. change (seq 0 (Nat.max (endIdx [b; c] false) (endIdx [a; b] false))) with [0%nat].
    cbn [mapM]. unfold quadAt. change (ept [a; b] false 0) with (Ok a). change (ept [a; b] false 1) with (Ok b).
    change (ept [b; c] false 0) with (Ok b). change (ept [b; c] false 1) with (Ok c). cbn [bind]. unfold meshQuad.
    rewrite (tbool_0 (mkTri b b c)) by (cbn [ta tb tc]; unfold a, b, c; crossz).
    rewrite (tbool_0 (mkTri a b b)) by (cbn [ta tb tc]; unfold a, b, c; crossz).
    rewrite (tbool_z (mkTri c b a) (-4)) by (try (rewrite Rabs_left; lra); cbn [ta tb tc]; unfold a, b, c; crossz).
    rewrite (tbool_z (mkTri a b c) 4) by (try (rewrite Rabs_right; lra); cbn [ta tb tc]; unfold a, b, c; crossz).
    reflexivity.
  - intros B. specialize (B a b). cbn [rev app] in B.
    assert (E : forall p q, veqb p q = if veqb p q then true else false) by (intros p q; destruct (veqb p q); reflexivity).
    assert (T : forall p : pt, veqb p p = true) by (intros p; apply veqb_iff; reflexivity).
    assert (AB : veqb a b = false) by (destruct (veqb a b) eqn:Q; [|reflexivity]; apply veqb_iff, (f_equal X) in Q; unfold a, b, X, P in Q; rn; lra).
    assert (AC : veqb a c = false) by (destruct (veqb a c) eqn:Q; [|reflexivity]; apply veqb_iff, (f_equal Y) in Q; unfold a, c, Y, P in Q; rn; lra).
    assert (BC : veqb b c = false) by (destruct (veqb b c) eqn:Q; [|reflexivity]; apply veqb_iff, (f_equal X) in Q; unfold b, c, X, P in Q; rn; lra).
    assert (SY : forall p q : pt, veqb p q = veqb q p) by (intros p q; apply eq_iff_eq_true; rewrite !veqb_iff; split; congruence).
    unfold mesh_uses, uses in B. cbn [fold_right path_uses ta tb tc] in B.
    rewrite ?T, ?(SY b a), ?(SY c a), ?(SY c b), ?AB, ?AC, ?BC in B. cbn in B. discriminate B.
Qed.
Print Assumptions C29_crossed_pair_leaks.

(* a strip with a shared corner, with computing arithmetic *)
Definition tv (x y : BinNums.Z) : @vec Toy := @V Toy x y 0%Z.
Definition strip1 := [tv 0 0; tv 4 0; tv 8 0]%Z.
Definition strip2 := [tv 0 0; tv 4 4; tv 8 4]%Z.
Example C29_computes : @meshPairwise Toy strip1 strip2 false =
  Ok [@mkTri Toy (tv 0 0) (tv 4 0) (tv 4 4); mkTri (tv 4 0) (tv 8 0) (tv 8 4); mkTri (tv 8 4) (tv 4 4) (tv 4 0)]%Z.
Proof. vm_cast_no_check (@eq_refl (res (list (@tri Toy))) (Ok [@mkTri Toy (tv 0 0) (tv 4 0) (tv 4 4); mkTri (tv 4 0) (tv 8 0) (tv 8 4); mkTri (tv 8 4) (tv 4 4) (tv 4 0)]%Z)). Qed.
Example C29_nonvacuous : @clean_strip Toy strip1 strip2 false (tv 0 0).
Proof.
  assert (G : forall i, (2 <= i)%nat -> @stop Toy strip1 false (tv 0 0) i = tv 8 0 /\ @stop Toy strip2 false (tv 0 0) i = tv 8 4).
  { intros i Hi. unfold stop. change (length (outline strip1 false) - 1)%nat with 2%nat. change (length (outline strip2 false) - 1)%nat with 2%nat.
    rewrite Nat.min_l by exact Hi. split; reflexivity. }
  intros i. destruct (Nat.le_gt_cases 2 i) as [Hi|Hi].
  - destruct (G i Hi) as [-> ->]. destruct (G (S i) ltac:(lia)) as [-> ->].
    right. right. split; [|split; [|split]]; right; try (left; left; reflexivity); right; left; reflexivity.
  - destruct i as [|[|i]]; [| |lia].
    + right. right. split; [|split; [|split]].
      * left. vm_cast_no_check (@eq_refl (res bool) (Ok true)).
      * right. right. left. reflexivity.
      * right. left. left. reflexivity.
      * left. vm_cast_no_check (@eq_refl (res bool) (Ok true)).
    + right. right. split; [|split; [|split]]; left; vm_cast_no_check (@eq_refl (res bool) (Ok true)).
Qed.
Example C29_point_eq : point_eq (@veqb Rnum).
Proof.
  split; [|split; [|split]].
  - intros p. apply veqb_iff. reflexivity.
  - intros p q. apply eq_iff_eq_true. rewrite !veqb_iff. split; congruence.
  - intros p q r. rewrite !veqb_iff. congruence.
  - auto.
Qed.

(** ** C30 parallel meshing *)
Theorem C30_boundary_and_count : forall (N : Num) (s o : list vec) (isClosed : bool) d ts eqv,
  point_eq eqv -> s <> [] -> o <> [] -> meshParallel s o isClosed = Ok ts ->
  bounds eqv ts [outline s isClosed ++ rev (outline o isClosed) ++ [hd d s]] /\
  length ts = (length (outline s isClosed) - 1 + (length (outline o isClosed) - 1))%nat.
Proof.
  intros N s o cl d ts eqv E Hs Ho H. split.
  - revert eqv E. apply bounds_of_flux. intros f W. cbn [fold_right]. rewrite <- (loop_walk f s o cl d) by assumption.
    rewrite Z.add_0_r. apply (parallel_flux f s o cl d ts); assumption.
  - destruct (parallel_flux (fun _ _ => 0%Z) s o cl d ts) as [_ L]; try assumption; [split; reflexivity|].
    rewrite L. rewrite !outline_len by assumption. reflexivity.
Qed.
Print Assumptions C30_boundary_and_count.
Theorem C30_boundary_closed : forall (N : Num) (s o : list vec) d ts eqv,
  point_eq eqv -> s <> [] -> o <> [] -> meshParallel s o true = Ok ts ->
  bounds eqv ts [s ++ [hd d s]; rev (o ++ [hd d o])].
Proof.
  intros N s o d ts eqv E Hs Ho H. revert eqv E. apply bounds_of_flux. intros f W.
  cbn [fold_right]. rewrite Z.add_0_r. rewrite <- (closed_walk f s o d) by assumption. apply (parallel_flux f s o true d ts); assumption.
Qed.
Print Assumptions C30_boundary_closed.
Theorem C30_vertices : forall (N : Num) (s o : list vec) isClosed ts, meshParallel s o isClosed = Ok ts ->
  forall t v, In t ts -> In v (corners t) -> In v s \/ In v o.
Proof. intros N s o cl ts H t v Ht Hv. eapply (parallel_vertices s o cl); [|exact H|exact Ht|exact Hv]. intros ? []. Qed.
Print Assumptions C30_vertices.
(* the loop ends for every arithmetic: the iteration budget |self| + |other| is
   never exhausted, the only failures are exceptions of normal()/angleBetween() *)
Theorem C30_terminates : forall (N : Num) (s o : list vec) isClosed e, s <> [] -> o <> [] ->
  meshParallel s o isClosed = Err e -> exists prev t1 t2, parallelChoice prev t1 t2 = Err e.
Proof. intros N s o cl e Hs Ho H. eapply (parallel_fuel s o cl Hs Ho); [| | |exact H]; lia. Qed.
Print Assumptions C30_terminates.
(* over the reals it returns whenever no candidate triangle is degenerate *)
Theorem C30_total : forall (s o : list pt) isClosed, s <> [] -> o <> [] -> proper_strip s o isClosed ->
  exists ts, meshParallel s o isClosed = Ok ts.
Proof. exact parallel_total. Qed.
Print Assumptions C30_total.
Example C30_nonvacuous : @meshParallel Toy strip1 [tv 0 4; tv 4 4; tv 8 4]%Z false =
  Ok [mkTri (tv 0 0) (tv 4 0) (tv 0 4); mkTri (tv 4 0) (tv 4 4) (tv 0 4); mkTri (tv 4 0) (tv 8 0) (tv 4 4); mkTri (tv 8 0) (tv 8 4) (tv 4 4)]%Z.
Proof. vm_cast_no_check (@eq_refl (res (list (@tri Toy))) (Ok [mkTri (tv 0 0) (tv 4 0) (tv 0 4); mkTri (tv 4 0) (tv 4 4) (tv 0 4); mkTri (tv 4 0) (tv 8 0) (tv 4 4); mkTri (tv 8 0) (tv 8 4) (tv 4 4)]%Z)). Qed.

(** ** C31 point in polygon *)
Theorem C31_even_odd : forall (l : list pt) v, exists idx, NoDup idx /\
  (forall i, In i idx <-> (i < length l)%nat /\ ray_hits v (cyc l i) (cyc l (S i))) /\
  contains2D l v = Ok (Nat.odd (length idx)).
Proof. exact contains_even_odd. Qed.
Print Assumptions C31_even_odd.
Theorem C31_outside : forall (l : list pt) v, separated l v -> contains2D l v = Ok false.
Proof. exact contains_separated. Qed.
Print Assumptions C31_outside.
Theorem C31_inside_convex : forall (l : list pt) v, strictly_convex l -> strictly_inside l v ->
  contains2D l v = Ok true /\ contains2D (rev l) v = Ok true.
Proof.
  intros l v C I. pose proof (contains_convex l v C I) as K. split; [exact K|].
  rewrite contains_x, xloop_rev by apply cb_sym. rewrite <- contains_x. exact K.
Qed.
Print Assumptions C31_inside_convex.
Theorem C31_start_and_orientation : forall (l1 l2 l : list pt) v,
  contains2D (l1 ++ l2) v = contains2D (l2 ++ l1) v /\ contains2D (rev l) v = contains2D l v.
Proof.
  intros l1 l2 l v. rewrite !contains_x. split; f_equal; [apply xloop_rot|apply xloop_rev, cb_sym].
Qed.
Print Assumptions C31_start_and_orientation.
Example C31_nonvacuous : let l := [P 0 0 0; P 2 0 0; P 2 2 0; P 0 2 0] in
  strictly_convex l /\ strictly_inside l (P 1 1 0) /\ separated l (P 3 1 0).
Proof.
  cbn zeta. set (l := [P 0 0 0; P 2 0 0; P 2 2 0; P 0 2 0]).
  assert (E : forall i, (i < 4)%nat -> cyc l i = nth i l origin) by (intros i Hi; apply cyc_small; exact Hi).
  assert (E4 : cyc l 4 = P 0 0 0) by reflexivity.
  split; [|split].
  - intros i j Hi Hj N1 N2. cbn [length l] in *.
    destruct i as [|[|[|[|i]]]]; try lia; destruct j as [|[|[|[|j]]]]; try lia; cbn in N2; try lia; rewrite ?E4, !E by lia;
      unfold l; cbn [nth]; unfold side, X, Y, P; rn; lra.
  - split; [discriminate|]. intros i Hi. cbn [length l] in Hi. destruct i as [|[|[|[|i]]]]; try lia; rewrite ?E4, !E by lia;
      unfold l; cbn [nth]; unfold side, X, Y, P; rn; lra.
  - exists 1, 0. intros p Hp. unfold l in Hp. cbn in Hp. repeat (destruct Hp as [<-|Hp]; [unfold X, Y, P; rn; lra|]). destruct Hp.
Qed.

(** ** C32 convex hull *)
Theorem C32_hull : forall vs : list pt, (2 <= length vs)%nat ->
  let h := convexHull2D vs in
  (2 <= length h)%nat /\
  (forall x, In x h -> exists v, In v vs /\ X x = X v /\ Y x = Y v /\ Z x = 0) /\
  (forall i v, (i < length h)%nat -> In v vs -> 0 <= side (cyc h i) (cyc h (S i)) v) /\
  strictly_convex h.
Proof.
  intros vs H h. destruct (hull_main vs H) as (A & B & C & D). split; [exact A|]. split; [|split; assumption].
  intros x Hx. destruct (B x Hx) as (v & Hv & ->). exists v. repeat split; auto.
Qed.
Print Assumptions C32_hull.
(* together with contains2D: a point strictly inside the hull is reported inside,
   a point beyond some side is reported outside *)
Theorem C32_hull_contains : forall (vs : list pt) v, (2 <= length vs)%nat ->
  let h := convexHull2D vs in
  ((forall i, (i < length h)%nat -> 0 < side (cyc h i) (cyc h (S i)) v) -> contains2D h v = Ok true) /\
  ((exists i, (i < length h)%nat /\ side (cyc h i) (cyc h (S i)) v < 0) -> contains2D h v = Ok false).
Proof.
  intros vs v H h. destruct (hull_main vs H) as (A & B & C & D). fold h in A, B, C, D. split.
  - intros I. apply contains_convex; [exact D|]. split; [|exact I]. intros E. rewrite E in A. cbn in A. lia.
  - intros (i & Hi & Hs). apply contains_separated.
    exists (Y (cyc h (S i)) - Y (cyc h i)), (- (X (cyc h (S i)) - X (cyc h i))). intros p Hp.
    destruct (B p Hp) as (w & Hw & Ew). pose proof (C i w Hi Hw) as K.
    assert (X p = X w /\ Y p = Y w) as [E1 E2] by (rewrite Ew; split; reflexivity). rewrite E1, E2. unfold side in *. lra.
Qed.
Print Assumptions C32_hull_contains.
(* fewer than two points have no hull *)
Theorem C32_small : forall v : pt, convexHull2D [] = ([] : list pt) /\ convexHull2D [v] = [].
Proof. intros v. split; reflexivity. Qed.
Print Assumptions C32_small.
Example C32_nonvacuous : (2 <= length [P 0 0 0; P 2 0 5; P 1 0 0; P 1 1 0; P 0 2 0])%nat. Proof. cbn; lia. Qed.
Example C32_computes :
  @convexHull2D Toy [tv 1 0; tv 0 0; tv 2 0; tv 1 1; tv 2 2; tv 0 2; tv 0 0]%Z = [tv 0 0; tv 2 0; tv 2 2; tv 0 2]%Z.
Proof. vm_cast_no_check (@eq_refl (list (@vec Toy)) [tv 0 0; tv 2 0; tv 2 2; tv 0 2]%Z). Qed.

(** ** C25 distance to a polygon *)
Theorem C25_edge_distance : forall (l : list pt) v, l <> [] -> exists d, edistance2D l v = Ok d /\
  (contains2D l v = Ok true -> d = 0) /\
  (contains2D l v = Ok false ->
     (exists i w, (i < length l)%nat /\ on_seg2 (cyc l i) (cyc l (S i)) w /\ d = edist2 w v) /\
     (forall i w, (i < length l)%nat -> on_seg2 (cyc l i) (cyc l (S i)) w -> d <= edist2 w v)).
Proof. exact edistance_spec. Qed.
Print Assumptions C25_edge_distance.
