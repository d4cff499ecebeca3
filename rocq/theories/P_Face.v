(** C33 - C37: triangulation of faces (body/chrumm/geo/face.py). *)
From Coq Require Import Reals Lra Psatz ZArith List Permutation Lia Arith Bool.
From Verif Require Import Num GeoModel EdgeModel EdgeSpec FaceModel GeoSpec GeoMat EdgeSpecR FaceSpec FaceSpecR FaceComb FaceCut FaceHole FaceFlip FaceCover FaceFlipR FaceDelaunay FaceHoleR FaceEar FaceAll FaceSum Toy.
Import ListNotations.
Open Scope nat_scope.

(* concrete faces for the examples *)
Definition fv (x y : BinNums.Z) : @vec Fixp := @V Fixp (x * one9)%Z (y * one9)%Z 0%Z.
Definition fsq : list (@vec Fixp) := [fv 0 0; fv 90 0; fv 90 90; fv 0 90]%Z.
Definition fho : list (@vec Fixp) := [fv 30 30; fv 30 60; fv 60 60; fv 60 30]%Z.
Definition rsq : list pt := [P 0 0 0; P 9 0 0; P 9 9 0; P 0 9 0; P 3 3 0; P 3 6 0; P 6 6 0; P 6 3 0].

(** ** C33 merging holes *)
(* for every arithmetic: two more vertices per hole, the same vertices, and the
   directed sides of the outer polygon and the holes, plus one bridge per hole
   that is used once in each direction *)
Theorem C33_merge_boundary : forall (N : Num) lt_inf (points : list vec) poly holes poly',
  mergeHoles lt_inf points poly holes = Ok poly' ->
  exists bridges, length bridges = length holes /\
    Permutation (sides poly') (sides poly ++ flat_map sides holes ++ both_ways bridges) /\
    length poly' = length poly + fold_right (fun h n => length h + 2 + n) 0 holes /\
    (forall v, In v poly' <-> In v poly \/ In v (concat holes)) /\
    (forall e, In e bridges -> In (fst e) (poly ++ concat holes) /\ In (snd e) (concat holes)).
Proof. intros N. exact mergeHoles_sides. Qed.
Print Assumptions C33_merge_boundary.
Example C33_computes : @mergeHoles Fixp (fun _ => true) (fsq ++ fho) [0; 1; 2; 3] [[4; 5; 6; 7]] = Ok [0; 1; 2; 6; 7; 4; 5; 6; 2; 3].
Proof. vm_cast_no_check (@eq_refl (res (list nat)) (Ok [0; 1; 2; 6; 7; 4; 5; 6; 2; 3])). Qed.
(* over the reals: each hole gets a bridge from its rightmost vertex to a vertex
   strictly to the right of the hole *)
Theorem C33_bridges_go_right : forall (points : list pt) poly holes poly',
  (forall i, Z (at_ points i) = 0%R) -> mergeHoles lt_oo points poly holes = Ok poly' ->
  exists bridges, length bridges = length holes /\
    Permutation (sides poly') (sides poly ++ flat_map sides holes ++ both_ways bridges) /\
    (forall h, In h holes -> exists e, In e bridges /\ In (snd e) h /\
       (forall v, In v h -> (X (at_ points v) <= X (at_ points (snd e)))%R) /\
       (X (at_ points (snd e)) < X (at_ points (fst e)))%R).
Proof. exact mergeHoles_right. Qed.
Print Assumptions C33_bridges_go_right.
(* and a bridge is always found, no exception is raised, when the outer polygon
   winds around every hole vertex and no hole winds around a vertex of another *)
Theorem C33_merge_succeeds : forall (points : list pt) poly holes,
  (forall i, Z (at_ points i) = 0%R) ->
  (forall h, In h holes -> h <> []) -> NoDup (concat holes) ->
  (forall h v, In h holes -> In v h -> (0 < winding points (sides poly) (at_ points v))%Z) ->
  (forall h g v, In h holes -> In g holes -> h <> g -> In v h -> winding points (sides g) (at_ points v) = 0%Z) ->
  exists poly', mergeHoles lt_oo points poly holes = Ok poly'.
Proof. intros points poly holes F A B C D. apply mergeHoles_total; [exact F|]. repeat split; assumption. Qed.
Print Assumptions C33_merge_succeeds.
(* without any upward side to the right the program raises TypeError *)
Theorem C33_outside_hole_raises : forall (points : list pt) poly hole, hole <> [] ->
  (forall i j, In i poly -> In j hole -> (X (at_ points i) <= X (at_ points j))%R) ->
  (forall i, Z (at_ points i) = 0%R) ->
  mergeHoles lt_oo points poly [hole] = Err TypeErr.
Proof.
  intros points poly hole NE H F. unfold mergeHoles. cbn [existsb map].
  assert (EB : match hole with [] => true | _ => false end = false) by (destruct hole; [contradiction|reflexivity]). rewrite EB. cbn [orb]. change (sortHoles points [rotateTo points hole]) with [rotateTo points hole]. cbn [foldM].
  destruct (mergeHole lt_oo points poly (rotateTo points hole)) as [poly'|e] eqn:E.
  - exfalso. unfold mergeHole in E. apply bind_ok in E. destruct E as (vis & EV & _).
    pose proof (findVisible_right points poly _ F vis EV) as R. apply findVisible_vis in EV.
    specialize (H (nth vis poly 0) (hd 0 (rotateTo points hole)) (nth_In _ _ EV)).
    rewrite rotateTo_hd in H by exact NE. specialize (H (nth_In _ _ (proj1 (argmax_spec points hole NE)))).
    unfold holeKey in R. rewrite rotateTo_hd in R by exact NE. lra.
  - cbn [bind]. unfold mergeHole in E. destruct (findVisible lt_oo points poly (holeKey points (rotateTo points hole))) as [v|e'] eqn:EV; cbn in E; [discriminate|].
    assert (e' = e) by congruence. subst e'. unfold findVisible in EV. destruct (castRay_total points poly (holeKey points (rotateTo points hole)) F) as (h & EC & OK & _).
    rewrite EC in EV. cbn [bind] in EV. destruct h as [[[b c] v]|]; [|congruence]. exfalso.
    destruct OK as (H1 & _ & _ & H4 & H5 & H6). specialize (H (nth v poly 0) (hd 0 (rotateTo points hole)) (nth_In _ _ H5)).
    rewrite rotateTo_hd in H by exact NE. specialize (H (nth_In _ _ (proj1 (argmax_spec points hole NE)))).
    unfold holeKey in H1. rewrite rotateTo_hd in H1 by exact NE. subst c. lra.
Qed.
Print Assumptions C33_outside_hole_raises.
Ltac wind := cbn [sides combine app tl]; unfold winding; cbn [fold_right fst snd];
  repeat match goal with |- context [at_ rsq ?i] => let v := eval cbn in (at_ rsq i) in change (at_ rsq i) with v end;
  unfold crossing, side, X, Y, P; cbn [vx vy];
  repeat (match goal with |- context [Rle_dec ?a ?b] => destruct (Rle_dec a b) | |- context [Rlt_dec ?a ?b] => destruct (Rlt_dec a b) end; try (exfalso; lra));
  try reflexivity; try lia.
Example C33_nonvacuous : (forall i, Z (at_ rsq i) = 0%R) /\ NoDup (concat [[4; 5; 6; 7]]) /\
  (forall v, In v [4; 5; 6; 7] -> winding rsq (sides [0; 1; 2; 3]) (at_ rsq v) = 1%Z).
Proof.
  split; [|split].
  - intros i. unfold at_, rsq. do 8 (destruct i as [|i]; [reflexivity|]). destruct i; reflexivity.
  - cbn. repeat constructor; cbn; lia.
  - intros v Hv. cbn in Hv. destruct Hv as [<-|[<-|[<-|[<-|[]]]]]; wind.
Qed.

(** ** C34 ear clipping *)
(* the cached values are those a fresh computation gives; the loop runs at most
   n - 2 rounds, so it terminates *)
Theorem C34_cache_transparent : forall (N : Num) (points : list vec) poly,
  cutEars points poly = cutFresh (length poly - 2) points poly.
Proof. intros N. exact cutEars_fresh. Qed.
Print Assumptions C34_cache_transparent.
(* the ears and what remains of the polygon have the sides of the polygon, plus
   one diagonal per ear, used once in each direction *)
Theorem C34_ears_boundary : forall (N : Num) (points : list vec) poly ears, 2 <= length poly ->
  cutEars points poly = Ok ears ->
  exists rest diagonals, length diagonals = length ears /\ length ears + length rest = length poly /\
    incl rest poly /\ incl (flat_map tri_verts ears) poly /\
    Permutation (mesh_sides ears ++ sides rest) (sides poly ++ both_ways diagonals).
Proof.
  intros N points poly ears L H. rewrite cutEars_fresh in H.
  destruct (cutFresh_sides points (length poly - 2) poly ears ltac:(lia) H) as (rest & ds & A1 & A2 & _ & A4 & A5).
  exists rest, ds. repeat split; auto. exact (cutFresh_incl _ _ _ _ H).
Qed.
Print Assumptions C34_ears_boundary.
(* n - 2 ears are boundary exact, with n - 3 diagonals *)
Theorem C34_complete_fills : forall (N : Num) (points : list vec) poly ears, 3 <= length poly ->
  cutEars points poly = Ok ears -> length ears = length poly - 2 -> fills ears (sides poly) (length poly - 3).
Proof.
  intros N points poly ears L H F. rewrite cutEars_fresh in H.
  pose proof (cutFresh_full points (length poly - 2) poly ears ltac:(lia) ltac:(lia) H F) as K. replace (length poly - 2 - 1) with (length poly - 3) in K by lia. exact K.
Qed.
Print Assumptions C34_complete_fills.
Example C34_computes : @cutEars Fixp (fsq ++ fho) [0; 1; 2; 6; 7; 4; 5; 6; 2; 3] =
  Ok [(1, 2, 6); (1, 6, 7); (0, 1, 7); (0, 7, 4); (3, 0, 4); (3, 4, 5); (3, 5, 6); (3, 6, 2)].
Proof. vm_cast_no_check (@eq_refl (res (list itri)) (Ok [(1, 2, 6); (1, 6, 7); (0, 1, 7); (0, 7, 4); (3, 0, 4); (3, 4, 5); (3, 5, 6); (3, 6, 2)])). Qed.
(* over the reals: an accepted ear turns left up to the tolerance, has three
   different corners, and every other vertex of the polygon that is still used
   by a later ear is at least the tolerance beyond one of its sides *)
Theorem C34_ears_empty : forall (points : list pt) poly ears, cutEars points poly = Ok ears ->
  forall before a b c after, ears = before ++ (a, b, c) :: after ->
  let A := at_ points a in let B := at_ points b in let C := at_ points c in
  (a <> b /\ b <> c /\ a <> c) /\ (- eps * edist2 C A <= side A B C)%R /\
  (forall j, In j (flat_map tri_verts after) -> ~ In j [a; b; c] ->
     (side C A (at_ points j) <= - eps * edist2 C A \/ side B C (at_ points j) <= - eps * edist2 B C \/
      side A B (at_ points j) <= - eps * edist2 A B)%R).
Proof.
  intros points poly ears H before a b c after E. rewrite cutEars_fresh in H. cbv zeta.
  destruct (cutFresh_good points _ poly _ H before (a, b, c) after E) as (pr & i & e & I1 & I2 & EA & ET & G & I3).
  pose proof (earAt_R points _ _ _ EA) as R. pose proof (ear_distinct points _ _ _ EA) as D. rewrite ET in R, D.
  destruct R as (_ & _ & _ & R1 & R2). unfold goodEar in G. apply andb_prop in G. destruct G as [G1 G2].
  split; [exact D|]. split; [apply R1, G1|]. intros j Hj NJ. apply I3 in Hj.
  apply negb_true_iff in G2.
  assert (K : blocks points e j = false).
  { destruct (blocks points e j) eqn:Q; [|reflexivity]. exfalso.
    assert (existsb (fun j => negb (inEar j (ear e)) && blocks points e j) pr = true); [|congruence].
    apply existsb_exists. exists j. split; [exact Hj|]. rewrite Q, ET, andb_true_r. cbn. cbn in NJ.
    destruct (Nat.eqb_spec j a); [subst; exfalso; apply NJ; auto|]. destruct (Nat.eqb_spec j b); [subst; exfalso; apply NJ; auto|].
    destruct (Nat.eqb_spec j c); [subst; exfalso; apply NJ; auto|]. reflexivity. }
  destruct (Rle_or_lt (side (at_ points c) (at_ points a) (at_ points j)) (- eps * edist2 (at_ points c) (at_ points a))) as [Z1|Z1]; [auto|].
  destruct (Rle_or_lt (side (at_ points b) (at_ points c) (at_ points j)) (- eps * edist2 (at_ points b) (at_ points c))) as [Z2|Z2]; [auto|].
  destruct (Rle_or_lt (side (at_ points a) (at_ points b) (at_ points j)) (- eps * edist2 (at_ points a) (at_ points b))) as [Z3|Z3]; [auto|].
  exfalso. assert (Q : blocks points e j = true) by (apply R2; auto). congruence.
Qed.
Print Assumptions C34_ears_empty.
(* over the reals: a complete clipping covers every point as often as the polygon
   winds around it (ears that turn right count negative) *)
Theorem C34_tiles : forall (points : list pt) poly ears x ws, 3 <= length poly ->
  cutEars points poly = Ok ears -> length ears = length poly - 2 ->
  Forall2 (wraps points x) ears ws -> zsum ws = winding points (sides poly) x.
Proof.
  intros points poly ears x ws L H F W. rewrite (signed_cover _ _ _ _ W).
  exact (winding_fills points ears (sides poly) _ x (C34_complete_fills _ points poly ears L H F)).
Qed.
Print Assumptions C34_tiles.

(** ** C35 completeness of ear clipping *)
(* false in general: a polygon smaller than the tolerance gets no ear at all *)
Theorem C35_tiny_polygon_gets_nothing_refuted : forall (points : list pt) poly, NoDup poly -> 4 <= length poly ->
  (forall i j, In i poly -> In j poly -> (edist2 (at_ points i) (at_ points j) < eps)%R) ->
  forall ears, cutEars points poly = Ok ears -> ears = [].
Proof. intros points poly A B C ears. apply tiny_no_ears; assumption. Qed.
Print Assumptions C35_tiny_polygon_gets_nothing_refuted.
(* such a polygon: a square of side 1e-7; clipping succeeds with an empty mesh *)
Theorem C35_tiny_square_refuted : let s := (1 / 10000000)%R in
  cutEars [P 0 0 0; P s 0 0; P s s 0; P 0 s 0] [0; 1; 2; 3] = Ok [].
Proof.
  cbv zeta. set (s := (1 / 10000000)%R). set (pts := [P 0 0 0; P s 0 0; P s s 0; P 0 s 0]).
  assert (AP : forall i j, i < 4 -> j < 4 -> i <> j -> apart (at_ pts i) (at_ pts j)).
  { intros i j Hi Hj NE. unfold apart, pts, at_, X, Y, P. destruct i as [|[|[|[|i]]]]; try lia; destruct j as [|[|[|[|j]]]]; try lia; cbn; unfold s; lra. }
  assert (SH : forall i j, i < 4 -> j < 4 -> (edist2 (at_ pts i) (at_ pts j) < eps)%R).
  { intros i j Hi Hj. unfold edist2. assert (E : eps = sqrt (eps * eps)) by (symmetry; apply sqrt_square; unfold eps; lra). rewrite E.
    apply sqrt_lt_1_alt. unfold sqdist2, Rsqr, pts, at_, X, Y, P, eps.
    destruct i as [|[|[|[|i]]]]; try lia; destruct j as [|[|[|[|j]]]]; try lia; cbn; unfold s; lra. }
  assert (OK : forall rounds, exists ts, cutFresh rounds pts [0; 1; 2; 3] = Ok ts).
  { assert (SF : searchFresh pts [0; 1; 2; 3] (seq 0 4) = Ok None).
    { assert (G : forall l, (forall i, In i l -> i < 4) -> exists r, searchFresh pts [0; 1; 2; 3] l = Ok r).
      { induction l as [|i l IH]; intros B; cbn [searchFresh]; [eauto|].
        assert (Hi : i < 4) by (apply B; left; reflexivity).
        assert (EE : exists e, earAt pts [0; 1; 2; 3] i = Ok e).
        { destruct i as [|[|[|[|i]]]]; try lia; apply earAt_ok; apply (AP _ _); cbn; lia. }
        destruct EE as (e & E).
        rewrite E. cbn [bind]. destruct (goodEar pts [0; 1; 2; 3] e); [eauto|]. apply IH. intros k Hk. apply B. right. exact Hk. }
      destruct (G (seq 0 4)) as (r & E); [intros i Hi; apply in_seq in Hi; lia|].
      rewrite E. f_equal. apply (tiny_search pts [0; 1; 2; 3] (seq 0 4)); [repeat constructor; cbn; lia|cbn; lia| |intros i Hi; apply in_seq in Hi; cbn; lia|exact E].
      intros i j Hi Hj. apply SH; cbn in Hi, Hj; lia. }
    induction rounds as [|rounds IH]; cbn [cutFresh]; [eauto|]. change (length [0; 1; 2; 3]) with 4. rewrite SF. cbn [bind]. exact IH. }
  rewrite cutEars_fresh. destruct (OK (length [0; 1; 2; 3] - 2)) as (ts & E). rewrite E. f_equal.
  apply (tiny_no_ears pts [0; 1; 2; 3]); [repeat constructor; cbn; lia|cbn; lia| |rewrite cutEars_fresh; exact E].
  intros i j Hi Hj. apply SH; cbn in Hi, Hj; lia.
Qed.
Print Assumptions C35_tiny_square_refuted.
(* what holds: a convex polygon none of whose vertices is within the tolerance
   of a line through two others is cut completely, without exception, into
   counter-clockwise triangles *)
Theorem C35_convex_complete_partial : forall (points : list pt) poly,
  (forall i j k, i < j < k -> k < length poly ->
     let A := at_ points (nth i poly 0) in let B := at_ points (nth j poly 0) in let C := at_ points (nth k poly 0) in
     (0 < side A B C /\ eps * edist2 A B <= side A B C /\ eps * edist2 B C <= side A B C /\ eps * edist2 A C <= side A B C)%R) ->
  exists ears, cutEars points poly = Ok ears /\ length ears = length poly - 2 /\
    forall a b c, In (a, b, c) ears -> (0 < side (at_ points a) (at_ points b) (at_ points c))%R.
Proof.
  intros points poly F. destruct (fat_complete points poly F) as (ts & E & L & A). exists ts. split; [exact E|]. split; [exact L|].
  intros a b c I. exact (A _ I).
Qed.
Print Assumptions C35_convex_complete_partial.
Example C35_nonvacuous : fat_convex rsq [0; 1; 2; 3].
Proof.
  intros i j k L K. cbn [length] in K.
  assert (B : forall u v : pt, (sqdist2 u v <= 20 * 20)%R -> (eps * edist2 u v <= 81)%R).
  { intros u v H. assert (E : (edist2 u v <= 20)%R). { unfold edist2. rewrite <- (sqrt_square 20) by lra. apply sqrt_le_1_alt, H. }
    unfold eps. lra. }
  assert (Q : (i = 0 /\ j = 1 /\ k = 2) \/ (i = 0 /\ j = 1 /\ k = 3) \/ (i = 0 /\ j = 2 /\ k = 3) \/ (i = 1 /\ j = 2 /\ k = 3)) by lia.
  destruct Q as [(-> & -> & ->)|[(-> & -> & ->)|[(-> & -> & ->)|(-> & -> & ->)]]]; cbn [nth]; unfold at_, rsq; cbn [nth];
    (match goal with |- (0 < ?s /\ _)%R => assert (S : s = 81%R) by (unfold side, X, Y, P; cbn; lra); rewrite S end);
    (split; [lra|]); repeat split; apply B; unfold sqdist2, Rsqr, X, Y, P; cbn; lra.
Qed.

(** ** C36 flipping *)
(* for every arithmetic and every order of the work set: same number of
   triangles, no new vertices, the same outline and number of inner edges *)
Theorem C36_flip_preserves : forall (N : Num) (points : list vec) fuel sched ts r,
  (forall a b d, isDelaunay points a b d d = true) ->
  (forall a b c, In (a, b, c) ts -> a <> b /\ b <> c /\ a <> c) ->
  flipTriangles fuel sched points ts = Ok r ->
  length r = length ts /\ incl (flat_map tri_verts r) (flat_map tri_verts ts) /\
  (forall outline k, oneway outline -> fills ts outline k -> fills r outline k) /\
  (forall g : nat -> nat -> BinNums.Z, (forall i j, g i j = (- g j i)%Z) -> esum g (mesh_sides r) = esum g (mesh_sides ts)).
Proof.
  intros N points fuel sched ts r SA D H.
  assert (D' : forall t, In t ts -> distinct3 t) by (intros [[a b] c] I; apply (D a b c I)).
  unfold flipTriangles in H.
  apply (flipLoop_inv points SA (fun st => length (ftris st) = length ts /\ incl (mesh_verts (ftris st)) (mesh_verts ts) /\
    (forall outline k, oneway outline -> fills ts outline k -> fills (ftris st) outline k) /\
    (forall g : nat -> nat -> BinNums.Z, (forall i j, g i j = (- g j i)%Z) -> esum g (mesh_sides (ftris st)) = esum g (mesh_sides ts)))) in H.
  - destruct H as (st & <- & _ & _ & K). exact K.
  - intros st k st' _ _ (K1 & K2 & K3 & K4) E. split; [|split; [|split]].
    + rewrite (effect_count _ _ _ _ E). exact K1.
    + intros v Hv. apply K2, (effect_verts _ _ _ _ E), Hv.
    + intros o n OW F. eapply effect_fills; eauto.
    + intros g A. rewrite <- (K4 g A). destruct E as [E1 E2 E3 _|a b c d i0 i1 t0 t1 -> L0 L1 NE B0 B1 N1 N2 N3 N4 N5 P0 P1 DE Q1 Q2 Q3 Q4 E1 E2 E3]; rewrite E1; [reflexivity|].
      pose proof (esum_perm g _ _ (flip_perm st a b c d i0 i1 t0 t1 NE B0 B1 P0 P1 Q1 Q3)) as F. rewrite !esum_app, !(esum_both g) in F by exact A. lia.
  - apply flipInit_sound, D'.
  - split; [reflexivity|]. split; [apply incl_refl|]. split; auto.
Qed.
Print Assumptions C36_flip_preserves.
(* no exception can occur during flipping *)
Theorem C36_flip_never_raises : forall (N : Num) (points : list vec) fuel sched ts e,
  (forall a b d, isDelaunay points a b d d = true) ->
  (forall a b c, In (a, b, c) ts -> a <> b /\ b <> c /\ a <> c) ->
  flipTriangles fuel sched points ts = Err e -> e = OutOfFuel.
Proof.
  intros N points fuel sched ts e SA D H. eapply flipLoop_no_raise; [exact SA| |exact H]. apply flipInit_sound. intros [[a b] c] I. apply (D a b c I).
Qed.
Print Assumptions C36_flip_never_raises.
(* over the reals the mesh still covers every point as often, keeps its
   orientation, and does not start to overlap *)
Theorem C36_flip_covers : forall (points : list pt) fuel sched ts r,
  (forall a b c, In (a, b, c) ts -> a <> b /\ b <> c /\ a <> c) ->
  (forall a b c, In (a, b, c) ts -> (0 <= side (at_ points a) (at_ points b) (at_ points c))%R) ->
  flipTriangles fuel sched points ts = Ok r ->
  (forall a b c, In (a, b, c) r -> (0 <= side (at_ points a) (at_ points b) (at_ points c))%R) /\
  (forall x ws ws', Forall2 (wraps points x) ts ws -> Forall2 (wraps points x) r ws' -> zsum ws' = zsum ws) /\
  (no_overlap points ts -> no_overlap points r).
Proof.
  intros points fuel sched ts r D C H.
  destruct (flip_run points fuel sched ts r) as (K1 & K2 & K3); auto.
  - intros [[a b] c] I. apply (D a b c I).
  - intros [[a b] c] I. apply (C a b c I).
  - split; [intros a b c I; apply (K1 _ I)|]. split; [|exact K3].
    intros x ws ws' W W'. rewrite (signed_cover _ _ _ _ W), (signed_cover _ _ _ _ W'). apply K2.
Qed.
Print Assumptions C36_flip_covers.
Definition fkite : list (@vec Fixp) := [fv 0 0; fv 10 (-2); fv 20 0; fv 10 2]%Z.
Example C36_computes : @flipTriangles Fixp 50 (fun n => n * 7) fkite [(0, 1, 2); (0, 2, 3)] = Ok [(3, 1, 2); (0, 1, 3)].
Proof. vm_cast_no_check (@eq_refl (res (list itri)) (Ok [(3, 1, 2); (0, 1, 3)])). Qed.
Example C36_nonvacuous : oneway (sides [0; 1; 2; 3]) /\ fills [(0, 1, 2); (0, 2, 3)] (sides [0; 1; 2; 3]) 1.
Proof.
  split.
  - intros e H K. cbn in H, K. unfold back in K. repeat (destruct H as [<-|H]; [cbn in K; repeat (destruct K as [K|K]; [discriminate|]); exact K|]). exact H.
  - exists [(2, 0)]. split; [reflexivity|]. cbn.
    apply (Permutation_trans (l' := (2, 0) :: [(0, 1); (1, 2)] ++ [(0, 2); (2, 3); (3, 0)])); [apply (Permutation_sym (Permutation_middle [(0, 1); (1, 2)] _ (2, 0)))|].
    apply Permutation_sym. apply (Permutation_trans (Permutation_app_comm [(0, 1); (1, 2); (2, 3); (3, 0)] [(2, 0); (0, 2)])). cbn. constructor.
    apply (Permutation_middle [(0, 1); (1, 2)] [(2, 3); (3, 0)] (0, 2)).
Qed.

(** ** C37 termination and the Delaunay property *)
Theorem C37_flip_terminates : forall (points : list pt) ts,
  (forall a b c, In (a, b, c) ts -> a <> b /\ b <> c /\ a <> c) ->
  exists K, forall fuel sched, K <= fuel -> exists r, flipTriangles fuel sched points ts = Ok r.
Proof. intros points ts D. apply flip_terminates. intros [[a b] c] I. apply (D a b c I). Qed.
Print Assumptions C37_flip_terminates.
Theorem C37_flip_delaunay : forall (points : list pt) fuel sched ts r,
  (forall a b c, In (a, b, c) ts -> a <> b /\ b <> c /\ a <> c) ->
  (forall a b c, In (a, b, c) ts -> (0 < side (at_ points a) (at_ points b) (at_ points c))%R) ->
  no_overlap points ts -> flipTriangles fuel sched points ts = Ok r ->
  (forall a b c, In (a, b, c) r -> (0 < side (at_ points a) (at_ points b) (at_ points c))%R) /\ no_overlap points r /\
  (forall t0 t1 a b c d, In t0 r -> In t1 r ->
     Permutation (tri_sides t0) [(a, b); (b, c); (c, a)] -> Permutation (tri_sides t1) [(b, a); (a, d); (d, b)] ->
     (incircle (at_ points a) (at_ points b) (at_ points c) (at_ points d) < eps)%R).
Proof.
  intros points fuel sched ts r D C NO H.
  destruct (flip_delaunay points fuel sched ts r) as (K1 & K2 & K3); auto.
  - intros [[a b] c] I. apply (D a b c I).
  - intros [[a b] c] I. apply (C a b c I).
  - split; [intros a b c I; apply (K1 _ I)|]. split; assumption.
Qed.
Print Assumptions C37_flip_delaunay.
(* the determinant of the specification is the circle test: it vanishes exactly
   for points at the same distance from the circumcentre *)
Theorem C37_incircle_meaning : forall (a b c d m : pt) r, (0 < side a b c)%R ->
  (sqdist2 a m = r /\ sqdist2 b m = r /\ sqdist2 c m = r)%R ->
  incircle a b c d = (side a b c * (r - sqdist2 d m))%R.
Proof.
  intros a b c d m r H (A & B & C). unfold sqdist2, Rsqr in *. unfold incircle, side, Rsqr in *.
  (* linear dependence: the rows |p|^2 differ from 2 m.p + r by a constant *)
  assert (EA : (X a * X a + Y a * Y a = 2 * (X m * X a + Y m * Y a) + (r - X m * X m - Y m * Y m))%R) by lra.
  assert (EB : (X b * X b + Y b * Y b = 2 * (X m * X b + Y m * Y b) + (r - X m * X m - Y m * Y m))%R) by lra.
  assert (EC : (X c * X c + Y c * Y c = 2 * (X m * X c + Y m * Y c) + (r - X m * X m - Y m * Y m))%R) by lra.
  replace ((X a - X d) * (X a - X d) + (Y a - Y d) * (Y a - Y d))%R with ((X a * X a + Y a * Y a) - 2 * X a * X d - 2 * Y a * Y d + X d * X d + Y d * Y d)%R by ring.
  replace ((X b - X d) * (X b - X d) + (Y b - Y d) * (Y b - Y d))%R with ((X b * X b + Y b * Y b) - 2 * X b * X d - 2 * Y b * Y d + X d * X d + Y d * Y d)%R by ring.
  replace ((X c - X d) * (X c - X d) + (Y c - Y d) * (Y c - Y d))%R with ((X c * X c + Y c * Y c) - 2 * X c * X d - 2 * Y c * Y d + X d * X d + Y d * Y d)%R by ring.
  rewrite EA, EB, EC. ring.
Qed.
Print Assumptions C37_incircle_meaning.
Example C37_nonvacuous : (forall a b c, In (a, b, c) [(0, 1, 2); (0, 2, 3)] -> (0 < side (at_ rsq a) (at_ rsq b) (at_ rsq c))%R) /\
  no_overlap rsq [(0, 1, 2); (0, 2, 3)].
Proof.
  split.
  - intros a b c [E|[E|[]]]; injection E as <- <- <-; unfold side, X, Y, P; cbn; lra.
  - intros i j x Li Lj NE. cbn [length] in Li, Lj.
    destruct i as [|[|i]]; try lia; destruct j as [|[|j]]; try lia; cbn; unfold inside3, side, X, Y, P; cbn; intros ((A1 & A2 & A3) & B1 & B2 & B3); lra.
Qed.

(** ** the whole of Face.triangulate *)
(* for every arithmetic in which no point has a direction to itself: at most
   n + 2h - 2 triangles on the given points; if all are there, the mesh is
   bounded exactly by the edge and the holes, so that faces sharing an edge
   polygon match vertex for vertex *)
Theorem C34_triangulate_boundary : forall (N : Num) lt_inf fuel sched (edge : list vec) holes pts ts, 3 <= length edge ->
  uprightPoints edge (edge ++ concat holes) = Ok pts ->
  (forall i t, vnorm2D (vsub (at_ pts i) (at_ pts i)) <> Ok t) -> (forall a b d, isDelaunay pts a b d d = true) ->
  triangulate lt_inf fuel sched edge holes = Ok ts ->
  let full := length edge + fold_right (fun h n => match h with [] => n | _ => length h + 2 + n end) 0 holes - 2 in
  length ts <= full /\
  (forall t v, In t ts -> In v (corners t) -> In v (edge ++ concat holes)) /\
  (length ts = full -> forall eqv, point_eq eqv -> bounds eqv ts (outline edge true :: map (fun h => outline h true) holes)).
Proof.
  intros N lt_inf fuel sched edge holes pts ts L U S1 S2 H full. exact (triangulate_boundary lt_inf fuel sched edge holes pts ts L U (conj S1 S2) H).
Qed.
Print Assumptions C34_triangulate_boundary.
(* over the reals the two side conditions hold *)
Theorem C34_triangulate_boundary_real : forall lt_inf fuel sched (edge : list pt) holes ts, 3 <= length edge ->
  triangulate lt_inf fuel sched edge holes = Ok ts ->
  let full := length edge + fold_right (fun h n => match h with [] => n | _ => length h + 2 + n end) 0 holes - 2 in
  length ts <= full /\
  (forall t v, In t ts -> In v (corners t) -> In v (edge ++ concat holes)) /\
  (length ts = full -> forall eqv, point_eq eqv -> bounds eqv ts (outline edge true :: map (fun h => outline h true) holes)).
Proof.
  intros lt_inf fuel sched edge holes ts L H full.
  assert (U : exists pts, uprightPoints edge (edge ++ concat holes) = Ok pts).
  { unfold triangulate in H. apply bind_ok in H. destruct H as (pts & U & _). eauto. }
  destruct U as (pts & U). exact (triangulate_boundary lt_inf fuel sched edge holes pts ts L U (sane_R pts) H).
Qed.
Print Assumptions C34_triangulate_boundary_real.
Example C34_triangulate_nonvacuous : match @triangulate Fixp (fun _ => true) 200 (fun n => n) fsq [fho] with Ok ts => length ts | Err _ => 0 end = 8.
Proof. vm_cast_no_check (@eq_refl nat 8). Qed.
