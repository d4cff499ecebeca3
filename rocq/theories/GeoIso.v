(** Every matrix a user can build is an isometry; planes and lines move along. *)
From Coq Require Import Reals Lra Psatz List Bool Lia.
From Verif Require Import Num GeoModel GeoSpec GeoMat GeoRigid GeoPlane.
Import ListNotations.
Open Scope R_scope.

Lemma iso_shift v : isometry (fun p => plus p v). Proof. intros p q. un; rn; ring. Qed.
Lemma iso_flipX : isometry (fun p => P (- X p) (Y p) (Z p)). Proof. intros p q. un; rn; ring. Qed.
Lemma iso_flipY : isometry (fun p => P (X p) (- Y p) (Z p)). Proof. intros p q. un; rn; ring. Qed.
Lemma iso_flipZ : isometry (fun p => P (X p) (Y p) (- Z p)). Proof. intros p q. un; rn; ring. Qed.
Lemma transformed_mid (p : pt) : transformed p mid = p.
Proof. destruct p. apply pt_ext; unfold transformed, mid, X, Y, Z; rn; ring. Qed.

Lemma built_iso A : Built A -> isometry (fun p => transformed p A).
Proof.
  induction 1.
  - intros p q. rewrite !transformed_mid. reflexivity.
  - apply iso_ext with (fun p => transformed (transformed p A) B); [intros; symmetry; apply transformed_mul, built_affine; assumption|].
    apply (iso_comp (fun p => transformed p A) (fun p => transformed p B)); assumption.
  - eapply iso_ext; [intros p; symmetry; apply app_mirX, built_affine; assumption|]. apply (iso_comp (fun p => transformed p A) _ IHBuilt iso_flipX).
  - eapply iso_ext; [intros p; symmetry; apply app_mirY, built_affine; assumption|]. apply (iso_comp (fun p => transformed p A) _ IHBuilt iso_flipY).
  - eapply iso_ext; [intros p; symmetry; apply app_mirZ, built_affine; assumption|]. apply (iso_comp (fun p => transformed p A) _ IHBuilt iso_flipZ).
  - eapply iso_ext; [intros p; symmetry; apply app_tra, built_affine; assumption|]. apply (iso_comp (fun p => transformed p A) _ IHBuilt (iso_shift v)).
  - eapply iso_ext; [intros p; symmetry; apply app_rotX, built_affine; assumption|]. apply (iso_comp (fun p => transformed p A) _ IHBuilt (rotX_iso a (ctr c))).
  - eapply iso_ext; [intros p; symmetry; apply app_rotY, built_affine; assumption|]. apply (iso_comp (fun p => transformed p A) _ IHBuilt (rotY_iso a (ctr c))).
  - eapply iso_ext; [intros p; symmetry; apply app_rotZ, built_affine; assumption|]. apply (iso_comp (fun p => transformed p A) _ IHBuilt (rotZ_iso a (ctr c))).
  - apply fromAlignment_cases in H. destruct H as (a & b & Ha & Hb & [[_ ->]|[[_ [_ ->]]|(_ & _ & N & E)]]).
    + intros p q. rewrite !transformed_mid. reflexivity.
    + eapply iso_ext; [intros p; symmetry; apply app_mirX; aff|]. 
      apply (iso_comp (fun p => transformed p mid) (fun p => P (- X p) (Y p) (Z p))); [intros p q; rewrite !transformed_mid; reflexivity|apply iso_flipX].
    + cbn zeta in E. rewrite E. apply (align_isometry a b); [eapply vnorm_unit; eauto|eapply vnorm_unit; eauto|exact N].
Qed.

Definition lin (A : @mtx Rnum) (v : pt) : pt := minus (transformed v A) (transformed origin A).
Lemma iso_inner f : isometry f -> forall p q r, inner (minus (f p) (f r)) (minus (f q) (f r)) = inner (minus p r) (minus q r).
Proof.
  intros H p q r. pose proof (H p q) as H1. pose proof (H p r) as H2. pose proof (H q r) as H3.
  assert (G : forall a b c, 2 * inner (minus a c) (minus b c) = sqdist a c + sqdist b c - sqdist a b) by (intros; un; rn; ring).
  pose proof (G (f p) (f q) (f r)). pose proof (G p q r). lra.
Qed.
Lemma lin_inner A : Built A -> forall p q, inner (lin A p) (lin A q) = inner p q.
Proof.
  intros H p q. unfold lin. rewrite (iso_inner _ (built_iso A H)). un; rn; ring.
Qed.
Lemma lin_minus A p q : minus (transformed p A) (transformed q A) = lin A (minus p q).
Proof. unfold lin. apply pt_ext; un; unfold transformed; rn; ring. Qed.
Lemma tnormal_lin A (v : pt) : transformedNormal v A = vnorm (lin A v).
Proof.
  unfold transformedNormal. f_equal. apply pt_ext; unfold lin; un; unfold transformed; rn; ring.
Qed.

Lemma ptransformed_spec (pl : @plane Rnum) A : wf_plane pl -> Built A ->
  exists pl', ptransformed pl A = Ok pl' /\ wf_plane pl' /\
  forall v, inner (minus (transformed v A) (ppos pl')) (pnormal pl') = inner (minus v (ppos pl)) (pnormal pl).
Proof.
  intros W H. unfold ptransformed. rewrite tnormal_lin.
  assert (U : unit_vec (lin A (pnormal pl))) by (unfold unit_vec; rewrite lin_inner by exact H; exact W).
  rewrite vnorm_of_unit by exact U. cbn [bind]. unfold newPlane. rewrite vnorm_of_unit by exact U. cbn [bind].
  eexists. split; [reflexivity|]. split; [exact U|]. intros v. cbn [ppos pnormal]. rewrite lin_minus, lin_inner by exact H. reflexivity.
Qed.
Lemma ltransformed_spec (l : @line Rnum) A : wf_line l -> Built A ->
  exists l', ltransformed l A = Ok l' /\ wf_line l' /\
  forall v, on_line l v -> on_line l' (transformed v A).
Proof.
  intros W H. unfold ltransformed. rewrite tnormal_lin.
  assert (U : unit_vec (lin A (ldir l))) by (unfold unit_vec; rewrite lin_inner by exact H; exact W).
  rewrite vnorm_of_unit by exact U. cbn [bind]. unfold newLine. rewrite vnorm_of_unit by exact U. cbn [bind].
  eexists. split; [reflexivity|]. split; [exact U|]. intros v (k & ->). exists k. cbn [lpos ldir].
  apply pt_ext; unfold lin; un; unfold transformed; rn; ring.
Qed.
