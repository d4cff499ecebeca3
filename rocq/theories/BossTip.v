(** The tip of the screw thread, over the reals. *)
From Coq Require Import Reals Lra ZArith List Bool Arith Lia.
From Verif Require Import Num GeoModel EdgeModel EdgeSpec GeoSpec GeoMat GeoPlane ArcModel MeshModel LayoutModel BossModel PartProof.
Import ListNotations.
Open Scope R_scope.

Lemma unit_newPlane (p n : pt) : unit_vec n -> @newPlane Rnum p n = Ok (mkPlane p n).
Proof. intros U. unfold newPlane. rewrite (vnorm_of_unit n U). reflexivity. Qed.
Lemma pmin_R (a b : R) : (@pmin Rnum a b : R) = Rmin a b.
Proof. unfold pmin. rn. destruct (Rltb b a) eqn:C; [apply Rltb_true in C; rewrite Rmin_right by lra|apply Rltb_false in C; rewrite Rmin_left by lra]; reflexivity. Qed.
(* the plane of the tip: through a point on the axis, parallel to the roof *)
Lemma tipPlane_spec (c : @boss_cfg Rnum) pos roof tip : wf_plane roof -> 0 < GeoSpec.Z (pnormal roof) -> tipPlane c pos (Some roof) = Ok tip ->
  pnormal tip = pnormal roof /\ exists h : R, on_plane roof (P (X pos) (Y pos) h) /\
    ppos tip = P (X pos) (Y pos) (Rmin (maxThreadLength c) (h - threadRoofMargin c / GeoSpec.Z (pnormal roof))) /\
    (minThreadLength c : R) <= Rmin (maxThreadLength c) (h - threadRoofMargin c / GeoSpec.Z (pnormal roof)).
Proof.
  intros U NZ H. unfold tipPlane in H. unfold ptranslated in H. rewrite (unit_newPlane _ _ U) in H. cbn [bind] in H.
  apply bind_ok in H. destruct H as (w & Hw & H). destruct (projectZ_sound _ _ _ Hw) as (OP & XW & YW). cbn [ppos pnormal] in OP.
  match type of H with (if ?b then _ else _) = _ => destruct b eqn:C end; [discriminate|]. rewrite (unit_newPlane _ _ U) in H. apply Ok_inj in H. subst tip.
  cbn [pnormal ppos]. split; [reflexivity|]. apply Rltb_false in C. rewrite pmin_R in C |- *.
  exists (GeoSpec.Z w + threadRoofMargin c / GeoSpec.Z (pnormal roof)).
  replace (GeoSpec.Z w + threadRoofMargin c / GeoSpec.Z (pnormal roof) - threadRoofMargin c / GeoSpec.Z (pnormal roof)) with (GeoSpec.Z w) by ring.
  split; [|split; [reflexivity|exact C]].
  revert OP. unfold on_plane. cbn [ppos pnormal]. rewrite <- XW, <- YW. unfold wf_plane, unit_vec in U. revert U NZ.
  destruct roof as [[px py pz] [nx ny nz]], w as [wx wy wz]. cbn [ppos pnormal]. unfold vadd, vscale, inner, minus, P, X, Y, GeoSpec.Z. cbn [vx vy vz]. rn.
  intros U NZ OP. set (m := (threadRoofMargin c : R)) in *.
  assert (E : forall px py pz nx ny nz wx wy wz m : R, nz <> 0 -> nx * nx + ny * ny + nz * nz = 1 ->
    (wx - px) * nx + (wy - py) * ny + (wz + m / nz - pz) * nz = (wx - (px + nx * - m)) * nx + (wy - (py + ny * - m)) * ny + (wz - (pz + nz * - m)) * nz).
  { clear. intros. replace ((wz + m / nz - pz) * nz) with ((wz - pz) * nz + m) by (field; assumption).
    replace m with (m * (nx * nx + ny * ny + nz * nz)) at 1 by (rewrite H0; ring). ring. }
  rewrite (E px py pz nx ny nz wx wy wz m) by (lra || exact U). exact OP.
Qed.
(* the signed distance from the roof of everything in the tip plane *)
Lemma tip_distance (roof : @plane Rnum) (t p : pt) (m h : R) (x y z : R) : t = P x y z ->
  on_plane roof (P x y h) -> z <= h - m / GeoSpec.Z (pnormal roof) -> 0 < GeoSpec.Z (pnormal roof) ->
  inner (minus p t) (pnormal roof) = 0 -> inner (minus p (ppos roof)) (pnormal roof) <= - m.
Proof.
  intros -> OP L NZ IP. assert (L2 : z * GeoSpec.Z (pnormal roof) <= h * GeoSpec.Z (pnormal roof) - m).
  { apply (Rmult_le_compat_r (GeoSpec.Z (pnormal roof))) in L; [|lra]. replace ((h - m / GeoSpec.Z (pnormal roof)) * GeoSpec.Z (pnormal roof)) with (h * GeoSpec.Z (pnormal roof) - m) in L by (field; lra). exact L. }
  revert OP L2 IP. unfold on_plane. destruct roof as [[px py pz] [nx ny nz]], p as [a b d]. cbn [ppos pnormal]. unfold inner, minus, P, X, Y, GeoSpec.Z. cbn [vx vy vz]. rn. intros. lra.
Qed.
