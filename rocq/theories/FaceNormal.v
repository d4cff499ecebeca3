(** The flattening of a face for triangulation; directed areas and volumes of meshes. *)
From Coq Require Import Reals Lra Lia ZArith List Bool.
From Verif Require Import Num GeoModel EdgeModel FaceModel GeoSpec GeoMat GeoRigid GeoPlane GeoFig EdgeSpec EdgeSpecR NormSpec GeoNormal.
Import ListNotations.
Open Scope R_scope.

Definition ez : pt := P 0 0 1.
Definition near (p q : pt) : Prop := Rabs (X p - X q) < eps /\ Rabs (Y p - Y q) < eps /\ Rabs (Z p - Z q) < eps.
Lemma ez_unit : unit_vec ez.
Proof. unfold ez. un. cbn. rn. ring. Qed.
Lemma unit_align (s t : pt) : unit_vec s -> unit_vec t -> 1 + inner s t <> 0 -> forall d, 
  inner (transformed d (alignm (vcross s t) (1 / (1 + inner s t)))) t = inner d s.
Proof.
  intros Hs Ht Hd d. pose proof (align_hits s t Hs Ht Hd) as H. pose proof (align_isometry s t Hs Ht Hd) as I.
  set (A := alignm (vcross s t) (1 / (1 + inner s t))) in *.
  assert (O : transformed origin A = origin).
  { unfold A. rewrite alignm_map. generalize (1 / (1 + inner s t)). destruct (vcross s t). intros k. apply pt_ext; alg; ring. }
  pose proof (I d s) as I1. pose proof (I d origin) as I2. pose proof (I s origin) as I3. cbv beta in *.
  rewrite H in *. rewrite O in *.
  assert (Q : forall p q, sqdist p q = inner p p - 2 * inner p q + inner q q) by (intros; un; cbn; rn; ring).
  rewrite !Q in *. assert (Z0 : forall p, inner p origin = 0) by (intros; un; cbn; rn; ring). rewrite !Z0 in *.
  unfold unit_vec in *. lra.
Qed.

Lemma flatten (edge real pts : list pt) : uprightPoints edge real = Ok pts -> exists (n w : pt) (F : pt -> pt),
  surfaceNormal edge = Ok n /\ unit_vec n /\ unit_vec w /\ near n w /\ pts = map F real /\
  (forall o p q, side (F o) (F p) (F q) = inner (cross (minus p o) (minus q o)) w) /\
  (forall p q, sqdist2 (F p) (F q) = sqdist p q - (inner (minus p q) w)²).
Proof.
  unfold uprightPoints. intros H. apply bind_ok in H. destruct H as (n & Hn & H). apply bind_ok in H. destruct H as (m & Hm & H). apply Ok_inj in H.
  pose proof Hn as Hu. rewrite surfaceNormal_area in Hu. apply vnorm_unit in Hu.
  change (V (nZ 0) (nZ 0) (nZ 1)) with ez in Hm.
  apply fromAlignment_cases in Hm. destruct Hm as (a & b & Ea & Eb & C).
  rewrite vnorm_of_unit in Ea by exact Hu. rewrite vnorm_of_unit in Eb by exact ez_unit. apply Ok_inj in Ea, Eb. subst a b.
  destruct C as [[C ->]|[(_ & C & ->)|(C1 & C2 & C3 & E)]].
  - exists n, ez, (fun p => vxy (transformed p mid)). split; [exact Hn|]. split; [exact Hu|]. split; [exact ez_unit|].
    split; [apply visClose_iff, C|]. split; [symmetry; exact H|]. split.
    + intros [ox oy oz] [px py pz] [qx qy qz]. unfold side, cross, ez. alg. ring.
    + intros [px py pz] [qx qy qz]. unfold sqdist2, sqdist, ez, Rsqr. alg. ring.
  - exists n, (scaled (-1) ez), (fun p => vxy (transformed p (mmirX mid))). split; [exact Hn|]. split; [exact Hu|].
    split; [unfold ez; un; cbn; rn; ring|]. split.
    { apply visClose_iff in C. destruct C as (C1 & C2 & C3). unfold near, ez in *. un. cbn in *. rn. 
      replace (-1 * 0) with (-0) by ring. replace (-1 * 1) with (-1) by ring. auto. }
    split; [symmetry; exact H|]. split.
    + intros [ox oy oz] [px py pz] [qx qy qz]. unfold side, cross, ez. alg. ring.
    + intros [px py pz] [qx qy qz]. unfold sqdist2, sqdist, ez, Rsqr. alg. ring.
  - exists n, n, (fun p => vxy (transformed p m)). split; [exact Hn|]. split; [exact Hu|]. split; [exact Hu|].
    split; [unfold near, Rminus; rewrite !Rplus_opp_r, Rabs_R0; pose proof eps_pos; auto|]. split; [symmetry; exact H|].
    cbv zeta in E. change (m = alignm (vcross n ez) (1 / (1 + inner n ez))) in E. subst m.
    pose proof (unit_align n ez Hu ez_unit C3) as U. pose proof (align_isometry n ez Hu ez_unit C3) as I.
    pose proof (align_orientation n ez Hu ez_unit C3) as K. pose proof (align_hits n ez Hu ez_unit C3) as T.
    set (A := alignm (vcross n ez) (1 / (1 + inner n ez))) in *.
    assert (L : forall p q, minus (transformed p A) (transformed q A) = transformed (minus p q) A) by (intros; apply alignm_minus).
    assert (O : transformed origin A = origin).
    { unfold A. rewrite alignm_map. generalize (1 / (1 + inner n ez)). destruct (vcross n ez). intros k. apply pt_ext; alg; ring. }
    split.
    + intros o p q. specialize (K origin (minus p o) (minus q o) n). cbv beta in K. unfold orient in K. rewrite T, O in K.
      rewrite <- !L in K.
      transitivity (triple (minus (minus (transformed p A) (transformed o A)) origin) (minus (minus (transformed q A) (transformed o A)) origin) (minus ez origin)).
      { generalize (transformed p A) (transformed q A) (transformed o A). intros [px py pz] [qx qy qz] [ox oy oz]. unfold side, ez. alg. ring. }
      rewrite K. unfold cross. un. cbn. rn. ring.
    + intros p q. pose proof (I p q) as I1. cbv beta in I1. rewrite <- I1. rewrite <- (U (minus p q)), <- L.
      generalize (transformed p A) (transformed q A). intros [px py pz] [qx qy qz]. unfold sqdist2, sqdist, ez, Rsqr. alg. ring.
Qed.

Lemma eps_val : eps = / 1000000. Proof. unfold eps. lra. Qed.
Lemma near_sq p q : near p q -> inner (minus p q) (minus p q) <= 3 * (eps * eps).
Proof.
  intros (A & B & C). assert (G : forall x, Rabs x < eps -> x * x <= eps * eps).
  { intros x H. rewrite <- (Rabs_pos_eq (x * x)) by apply Rle_0_sqr. rewrite Rabs_mult. pose proof (Rabs_pos x). apply Rmult_le_compat; lra. }
  apply G in A, B, C. unfold inner, minus. cbn [X Y Z P vx vy vz]. unfold X, Y, Z in *. cbn. rn. lra.
Qed.
Lemma near_inner n w : unit_vec n -> unit_vec w -> near n w -> 1 - 2 * (eps * eps) <= inner n w <= 1.
Proof.
  intros A B H. apply near_sq in H. assert (Q : inner (minus n w) (minus n w) = inner n n - 2 * inner n w + inner w w) by (un; cbn; rn; ring).
  unfold unit_vec in *. pose proof (inner_nonneg (minus n w)). assert (0 <= eps * eps) by (apply Rle_0_sqr). lra.
Qed.
Lemma csum_side F l o : (forall p q, side (F o) (F p) (F q) = side (F o) (F p) (F q)) ->
  area_xy (map F l) = csum (fun p q => side (F o) (F p) (F q)) l.
Proof.
  intros _. transitivity (inner (area_vec (map F l)) ez).
  { rewrite area_xy_csum, <- area_vec_Z. generalize (area_vec (map F l)). intros [x y z]. unfold ez. alg. symmetry. ring. }
  rewrite (area_vec_origin (F o)), csum_map. apply csum_ext. intros p q. unfold side, cross, ez. un. cbn. rn. ring.
Qed.
Lemma area_normal l n : surfaceNormal l = Ok n -> area_vec l = scaled (len (area_vec l)) n /\ 0 < len (area_vec l).
Proof.
  rewrite surfaceNormal_area. intros H. apply vnorm_ok in H. destruct H as [NE ->]. pose proof (len_pos _ NE). split; [|assumption].
  revert H. generalize (len (area_vec l)) (area_vec l). intros L [x y z] H.
  apply pt_ext; unfold scaled, P, X, Y, Z; cbn; symmetry; field; lra.
Qed.
Lemma upright_area (edge rest pts : list pt) : uprightPoints edge (edge ++ rest) = Ok pts ->
  0 < len (area_vec edge) /\ (1 - 2 * (eps * eps)) * len (area_vec edge) <= area_xy (firstn (length edge) pts) <= len (area_vec edge).
Proof.
  intros H. apply flatten in H. destruct H as (n & w & F & Hn & Un & Uw & NR & -> & S & _).
  destruct (area_normal _ _ Hn) as [E L]. split; [exact L|].
  assert (FE : firstn (length edge) (map F (edge ++ rest)) = map F edge).
  { rewrite map_app, firstn_app, map_length, Nat.sub_diag, firstn_O, app_nil_r. apply firstn_all2. rewrite map_length. lia. }
  rewrite FE.
  rewrite (csum_side F edge origin) by reflexivity. 
  rewrite (csum_ext _ (fun p q => inner (cross (minus p origin) (minus q origin)) w)) by (intros; apply S).
  rewrite <- area_vec_origin. rewrite E at 2. rewrite E at 3.
  assert (Q : inner (scaled (len (area_vec edge)) n) w = len (area_vec edge) * inner n w) by (un; cbn; rn; ring).
  rewrite Q. pose proof (near_inner _ _ Un Uw NR). split; [rewrite Rmult_comm; apply Rmult_le_compat_l; lra|].
  rewrite <- (Rmult_1_r (len (area_vec edge))) at 2. apply Rmult_le_compat_l; lra.
Qed.
Lemma cauchy (p q : pt) : (inner p q)² <= inner p p * inner q q.
Proof.
  assert (0 <= inner (cross p q) (cross p q)) by apply inner_nonneg.
  assert (inner (cross p q) (cross p q) = inner p p * inner q q - (inner p q)²) by (unfold cross; un; cbn; rn; ring). lra.
Qed.
Lemma flat_distance p q n w : near n w -> inner (minus p q) n = 0 -> (inner (minus p q) w)² <= 3 * (eps * eps) * sqdist p q.
Proof.
  intros NR H. replace (inner (minus p q) w) with (- inner (minus p q) (minus n w)).
  2:{ transitivity (inner (minus p q) w - inner (minus p q) n); [un; cbn; rn; ring|rewrite H; ring]. }
  rewrite <- Rsqr_neg. eapply Rle_trans; [apply cauchy|]. rewrite Rmult_comm. 
  change (sqdist p q) with (inner (minus p q) (minus p q)). apply Rmult_le_compat_r; [apply inner_nonneg|apply near_sq, NR].
Qed.
