(** Over the reals a complete triangulation is bounded by its face. *)
From Coq Require Import Reals ZArith List Bool Lia Arith.
From Verif Require Import Num GeoModel EdgeModel EdgeSpec EdgeMesh GeoSpec GeoMat GeoNormal NormSpec FaceModel FaceAll FaceSum MeshModel MeshSpec MeshProof.
Import ListNotations.

Lemma complete_exact lt_inf fuel sched (e : list pt) hs :
  @complete_face Rnum (triangulate lt_inf fuel sched) e hs -> @exact_face Rnum (triangulate lt_inf fuel sched) e hs.
Proof.
  intros (L & C) ts H f W. destruct (proj1 (bind_ok _ _ _) H) as (pts & U & _).
  destruct (triangulate_flux lt_inf fuel sched e hs pts ts L U (sane_R pts) H) as (_ & _ & K).
  apply K; [|exact W]. exact (C ts H).
Qed.
Lemma veqb_R (p q : @vec Rnum) : veqb p q = true -> p = q.
Proof.
  unfold veqb. destruct p as [a b c], q as [a' b' c']. cbn [vx vy vz]. intros H.
  apply andb_prop in H. destruct H as (H & H3). apply andb_prop in H. destruct H as (H1 & H2).
  apply Reqb_true in H1, H2, H3. subst. reflexivity.
Qed.
Lemma keeps_eq_R (g : @vec Rnum -> @vec Rnum) : keeps_eq g.
Proof. intros p q H. apply veqb_R in H. subst. unfold veqb. rewrite !(proj2 (Reqb_true _ _) eq_refl). reflexivity. Qed.
(* which corners a mesh has *)
Section Corners.
Context {N : Num}.
Variable fill : list vec -> list (list vec) -> res (list tri).
Fixpoint mesh_points (m : mesh) : list vec :=
  match m with
  | MEmpty => []
  | Strip s o _ => s ++ o
  | Fill e hs => e ++ concat hs
  | Tris l => flat_map corners l
  | Plus m1 m2 => mesh_points m1 ++ mesh_points m2
  | Moved g m | Flipped g m => map g (mesh_points m)
  end.
Lemma eval_corners m : (forall e hs ts t v, fill e hs = Ok ts -> In t ts -> In v (corners t) -> In v (e ++ concat hs)) ->
  forall ts t v, eval fill m = Ok ts -> In t ts -> In v (corners t) -> In v (mesh_points m).
Proof.
  intros F. induction m as [|s o cl|e hs|l|m1 IH1 m2 IH2|g m IH|g m IH]; intros ts t v H Ht Hv; cbn [eval mesh_points] in *.
  - injection H as <-. destruct Ht.
  - apply in_or_app. destruct (pairwise_vertices s o cl ts H t Ht v Hv); auto.
  - eapply F; eassumption.
  - injection H as <-. apply in_flat_map. eauto.
  - apply bind_ok in H. destruct H as (a & Ha & H). apply bind_ok in H. destruct H as (b & Hb & H). injection H as <-.
    apply in_or_app. apply in_app_or in Ht. destruct Ht; eauto.
  - apply bind_ok in H. destruct H as (a & Ha & H). injection H as <-. apply in_map_iff in Ht. destruct Ht as (u & <- & Hu).
    cbn in Hv. apply in_map_iff. destruct Hv as [<-|[<-|[<-|[]]]]; eexists; (split; [reflexivity|]); eapply IH; try eassumption; cbn; auto.
  - apply bind_ok in H. destruct H as (a & Ha & H). injection H as <-. apply in_map_iff in Ht. destruct Ht as (u & <- & Hu).
    cbn in Hv. apply in_map_iff. destruct Hv as [<-|[<-|[<-|[]]]]; eexists; (split; [reflexivity|]); eapply IH; try eassumption; cbn; auto.
Qed.
End Corners.
Lemma triangulate_three lt_inf fuel sched (e : list pt) hs ts : triangulate lt_inf fuel sched e hs = Ok ts -> (3 <= length e)%nat.
Proof.
  intros H. destruct (proj1 (bind_ok _ _ _) H) as (pts & U & _). unfold uprightPoints in U. apply bind_ok in U. destruct U as (n & E & _).
  rewrite surfaceNormal_area in E.
  apply vnorm_ok in E. destruct E as (NZ & _).
  destruct e as [|a [|b [|c e]]]; cbn [length]; try lia; exfalso; apply NZ.
  - reflexivity.
  - unfold area_vec. destruct a as [x y z]. cbn. unfold cross, plus, origin, X, Y, GeoSpec.Z, P. cbn. f_equal; ring.
  - unfold area_vec. destruct a as [x y z], b as [x' y' z']. cbn. unfold cross, plus, origin, X, Y, GeoSpec.Z, P. cbn. f_equal; ring.
Qed.
Lemma triangulate_corners lt_inf fuel sched (e : list pt) hs ts t v :
  triangulate lt_inf fuel sched e hs = Ok ts -> In t ts -> In v (corners t) -> In v (e ++ concat hs).
Proof.
  intros H Ht Hv. pose proof (triangulate_three lt_inf fuel sched e hs ts H) as L. destruct (proj1 (bind_ok _ _ _) H) as (pts & U & _).
  destruct (triangulate_flux lt_inf fuel sched e hs pts ts L U (sane_R pts) H) as (_ & K & _). eapply K; eassumption.
Qed.
