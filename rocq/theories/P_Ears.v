(** C80: every simple polygon that keeps the tolerance is triangulated completely (body/chrumm/geo/face.py). *)
From Coq Require Import Reals Lra Psatz ZArith List Permutation Lia Arith Bool.
From Verif Require Import Num GeoModel EdgeModel EdgeSpec FaceModel GeoSpec GeoMat EdgeSpecR FaceSpec FaceSpecR FaceComb FaceCut FaceEar FaceCover FaceAll FaceSum NormSpec GeoRigid GeoNormal PolySpec PolyCut PolyFace P_Face P_Normal.
Import ListNotations.
Open Scope nat_scope.

(* no convexity: any counter-clockwise simple polygon with each vertex farther
   than the tolerance from the lines through two others is cut into n - 2
   counter-clockwise triangles that do not overlap and are bounded by the polygon *)
Theorem C80_ears_complete : forall (points : list pt) poly, 3 <= length poly ->
  simple_polygon (map (at_ points) poly) -> keeps_tolerance (map (at_ points) poly) -> (0 < area_xy (map (at_ points) poly))%R ->
  exists ears, cutEars points poly = Ok ears /\ length ears = length poly - 2 /\
    (forall a b c, In (a, b, c) ears -> (0 < side (at_ points a) (at_ points b) (at_ points c))%R) /\
    no_overlap points ears /\ fills ears (sides poly) (length poly - 3).
Proof.
  intros points poly L SI KT AR. destruct (ears_complete points poly L SI KT AR) as (ears & E & LE & CC). exists ears. split; [exact E|]. split; [exact LE|]. split; [exact CC|].
  pose proof (C34_complete_fills _ points poly ears L E LE) as F. split; [|exact F]. apply (ears_apart points poly); assumption.
Qed.
Print Assumptions C80_ears_complete.
(* a point in general position is in exactly one triangle if the polygon winds
   around it, and in none otherwise *)
Theorem C80_covered_once : forall (points : list pt) poly ears x idx, 3 <= length poly ->
  simple_polygon (map (at_ points) poly) -> keeps_tolerance (map (at_ points) poly) -> (0 < area_xy (map (at_ points) poly))%R ->
  cutEars points poly = Ok ears -> in_exactly points ears x idx ->
  winding points (sides poly) x = Z.of_nat (length idx) /\ length idx <= 1.
Proof.
  intros points poly ears x idx L SI KT AR E IE. destruct (C80_ears_complete points poly L SI KT AR) as (ears' & E' & LE & CC & NO & F).
  rewrite E in E'. apply Ok_inj in E'. subst ears'.
  assert (PO : forall t, In t ears -> (0 <= area2 points t)%R) by (intros [[a b] c] I; apply Rlt_le, (CC a b c I)).
  split; [rewrite <- (winding_fills points ears (sides poly) _ x F); apply (cover_count points ears x idx PO IE)|].
  destruct IE as (ND & B & IO). destruct idx as [|i [|j idx]]; cbn; try lia. exfalso. inversion ND as [|? ? NI _]; subst.
  assert (Li : i < length ears) by (apply B; cbn; auto). assert (Lj : j < length ears) by (apply B; cbn; auto).
  apply (NO i j x Li Lj); [intros ->; apply NI; cbn; auto|]. split.
  - destruct (IO i Li) as [[_ T]|[N _]]; [exact T|exfalso; apply N; cbn; auto].
  - destruct (IO j Lj) as [[_ T]|[N _]]; [exact T|exfalso; apply N; cbn; auto].
Qed.
Print Assumptions C80_covered_once.
(* a whole face without holes, whatever its position in space and its direction:
   with enough steps triangulation succeeds, for every order of the edge flips, and
   gives n - 2 triangles bounded exactly by the edge *)
Theorem C80_face_complete : forall lt_inf (edge pts : list pt), 3 <= length edge ->
  uprightPoints edge edge = Ok pts -> simple_polygon pts -> keeps_tolerance pts ->
  exists enough, forall fuel sched, enough <= fuel -> exists ts, triangulate lt_inf fuel sched edge [] = Ok ts /\
    length ts = length edge - 2 /\ (forall eqv, point_eq eqv -> bounds eqv ts [outline edge true]) /\ mesh_area ts = area_vec edge.
Proof.
  intros lt_inf edge pts L U SI KT.
  assert (LP : length pts = length edge).
  { unfold uprightPoints in U. apply bind_ok in U. destruct U as (n & _ & U). apply bind_ok in U. destruct U as (m & _ & U). apply Ok_inj in U. subst pts. apply map_length. }
  assert (U' : uprightPoints edge (edge ++ concat []) = Ok pts) by (cbn; rewrite app_nil_r; exact U).
  assert (EP : map (at_ pts) (seq 0 (length edge)) = pts).
  { rewrite <- LP. unfold at_. change (@vzero Rnum) with origin. clear. induction pts as [|p pts IH]; [reflexivity|]. cbn [length seq map nth]. f_equal. rewrite <- seq_shift, map_map. exact IH. }
  assert (AR : (0 < area_xy pts)%R).
  { pose proof (proj1 (C53_flattened_counterclockwise edge [] pts ltac:(rewrite app_nil_r; exact U))) as A. rewrite <- LP, firstn_all in A. exact A. }
  destruct (C80_ears_complete pts (seq 0 (length edge))) as (ears & E & LE & CC & NO & F); rewrite ?seq_length, ?EP; try assumption.
  rewrite seq_length in LE.
  assert (DI : forall a b c, In (a, b, c) ears -> a <> b /\ b <> c /\ a <> c).
  { intros a b c I. apply CC in I. repeat split; intros ->; unfold side in I; lra. }
  destruct (C37_flip_terminates pts ears DI) as (K & HK). exists K. intros fuel sched HF. destruct (HK fuel sched HF) as (r & R0).
  assert (LR : length r = length ears).
  { apply (C36_flip_preserves _ pts fuel sched ears r); try assumption. apply sane_R. }
  set (ts := map (fun t : itri => let '(i, j, k) := t in mkTri (at_ (edge ++ concat []) i) (at_ (edge ++ concat []) j) (at_ (edge ++ concat []) k)) r).
  assert (TR : triangulate lt_inf fuel sched edge [] = Ok ts).
  { unfold triangulate. cbv zeta. apply bind_ok. exists pts. split; [exact U'|]. apply bind_ok. exists (seq 0 (length edge)). split; [reflexivity|]. apply bind_ok. exists ears. split; [exact E|]. apply bind_ok. exists r. split; [exact R0|]. reflexivity. }
  exists ts. split; [exact TR|].
  assert (LT : length ts = length edge - 2) by (unfold ts; rewrite map_length; lia).
  destruct (C34_triangulate_boundary_real lt_inf fuel sched edge [] ts L TR) as (_ & _ & B). cbn [fold_right] in B.
  split; [exact LT|]. split; [apply B; lia|].
  rewrite (C53_total_area lt_inf fuel sched edge [] ts L TR); [|cbn; lia]. cbn. unfold plus, origin, P. destruct (area_vec edge) as [x y z]. f_equal; unfold X, Y, Z; cbn; lra.
Qed.
Print Assumptions C80_face_complete.

(* a polygon with a notch *)
Definition notched : list pt := [P 0 0 0; P 8 1 0; P 7 9 0; P 4 3 0; P 1 10 0].
Ltac five i := destruct i as [|[|[|[|[|i]]]]]; [| | | | |exfalso; cbn in *; lia].
Example C80_nonvacuous : 3 <= length [0; 1; 2; 3; 4]%nat /\ simple_polygon (map (at_ notched) [0; 1; 2; 3; 4]%nat) /\ keeps_tolerance (map (at_ notched) [0; 1; 2; 3; 4]%nat) /\
  (0 < area_xy (map (at_ notched) [0; 1; 2; 3; 4]%nat))%R /\
  (side (at_ notched 2) (at_ notched 3) (at_ notched 4) < 0)%R.
Proof.
  split; [cbn; lia|]. change (map (at_ notched) [0; 1; 2; 3; 4]%nat) with notched. split; [|split; [|split]].
  - intros i j Hi Hj N1 N2 N3 x [(s & Bs & X1 & Y1) (t & Bt & X2 & Y2)]. cbn [length notched] in *.
    five i; five j; cbn in N2, N3; try lia; unfold cyc, X, Y, P in *; cbn in X1, Y1, X2, Y2; rewrite X1 in X2; rewrite Y1 in Y2; lra.
  - assert (B : forall p q r : pt, (sqdist2 p q <= 20 * 20)%R -> (1 <= side p q r \/ side p q r <= -1)%R -> (1 / 1000000 * edist2 p q < Rabs (side p q r))%R).
    { intros p q r H K. assert (E : (edist2 p q <= 20)%R). { unfold edist2. rewrite <- (sqrt_square 20) by lra. apply sqrt_le_1_alt, H. }
      unfold Rabs. destruct (Rcase_abs (side p q r)); lra. }
    intros i j k Hi Hj Hk N1 N2 N3. cbn [length notched] in *. five i; five j; try lia; five k; try lia; apply B; unfold cyc, sqdist2, side, Rsqr, X, Y, P; cbn; lra.
  - unfold area_xy, notched, X, Y, P. cbn. lra.
  - unfold side, notched, X, Y, P. cbn. lra.
Qed.
(* the same as a face: flattening leaves it as it is *)
Example C80_face_nonvacuous : uprightPoints notched notched = Ok notched.
Proof.
  unfold uprightPoints. rewrite surfaceNormal_area.
  assert (A : area_vec notched = P 0 0 87). { unfold area_vec, notched. cbn. unfold plus, cross, origin, P, X, Y, Z. cbn. f_equal; lra. }
  assert (U : vnorm (P 0 0 87) = Ok (P 0 0 1)).
  { rewrite vnorm_spec. 2:{ intros E. apply (f_equal Z) in E. unfold Z, P in E. cbn in E. lra. }
    assert (L : len (P 0 0 87) = 87%R). { unfold len. transitivity (sqrt (87 * 87)); [f_equal; unfold inner, X, Y, Z, P; cbn; lra|apply sqrt_square; lra]. }
    rewrite L. f_equal. unfold scaled, P, X, Y, Z. cbn. f_equal; field. }
  etransitivity; [apply (f_equal (fun r => bind r _)); transitivity (vnorm (P 0 0 87)); [f_equal; exact A|exact U]|]. cbn [bind].
  assert (L1 : inner (P 0 0 1) (P 0 0 1) = 1%R) by (unfold inner, X, Y, Z, P; cbn; lra).
  assert (AL : fromAlignment (P 0 0 1) (P 0 0 1) = Ok mid).
  { unfold fromAlignment. rewrite (vnorm_of_unit (P 0 0 1) L1). cbn [bind].
    replace (visClose (P 0 0 1) (P 0 0 1)) with true; [reflexivity|]. symmetry. apply visClose_iff. pose proof eps_pos. unfold P, X, Y, Z. cbn. split; [|split]; apply Rabs_def1; rn; lra. }
  etransitivity; [apply (f_equal (fun r => bind r _)); exact AL|]. cbn [bind]. f_equal.
  unfold notched, transformed, vxy, mid, P. cbn. repeat f_equal; lra.
Qed.
