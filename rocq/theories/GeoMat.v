(** Real-number facts about vectors and matrices. *)
From Coq Require Import Reals Lra Psatz List Bool.
From Verif Require Import Num GeoModel GeoSpec.
Import ListNotations.
Open Scope R_scope.

Ltac un := unfold unit_vec, isometry, keeps_orientation, flips_orientation, edist, edist2, sqdist, sqdist2, inner, orient, triple, minus, plus, scaled, origin, P, X, Y, Z, Rsqr, eps in *.
Ltac gm := unfold transformed, mmirX, mmirY, mmirZ, mrotX, mrotY, mrotZ, rotate_about, rotX, rotY, rotZ,
   mtranslated, mmul, mid, madd, mscale, vadd, vsub, vopp, vscale, vdot, vcross, vmirX, vmirY, vmirZ, vmag2, vxy, vortho2D in *.
Ltac rn := cbn [num nZ nQ nadd nsub nmul nopp nabs ndiv nsqrt nltb nleb neqb nsin ncos ntan nacos natan2 npi nceil Rnum
   vx vy vz m0 m1 m2 m3 m4 m5 m6 m7 m8 m9 m10 m11 m12 m13 m14 m15 lpos ldir ppos pnormal sa sb ccenter cradius ta tb tc] in *.
(* evaluate a purely algebraic goal down to real arithmetic on coordinates *)
Ltac alg := lazy -[Rplus Rmult Rminus Ropp Rinv Rdiv sin cos sqrt IZR Rabs PI Rlt Rle not].
Ltac veq := apply (f_equal3 (@V Rnum)).

Lemma pt_ext (p q : pt) : X p = X q -> Y p = Y q -> Z p = Z q -> p = q.
Proof. destruct p, q. un. rn. intros -> -> ->. reflexivity. Qed.

Lemma isZero_iff (x : R) : isZero x = true <-> Rabs x < eps.
Proof. unfold isZero, eps. rn. apply Rltb_true. Qed.
Lemma isZero_false (x : R) : isZero x = false <-> eps <= Rabs x.
Proof. unfold isZero, eps. rn. apply Rltb_false. Qed.
Lemma eps_pos : 0 < eps. Proof. unfold eps. lra. Qed.
Lemma not_isZero_neq x : isZero x = false -> x <> 0.
Proof. rewrite isZero_false. intros H E. subst. rewrite Rabs_R0 in H. pose proof eps_pos. lra. Qed.

Lemma pdiv_ok (x y q : R) : pdiv x y = Ok q <-> y <> 0 /\ q = x / y.
Proof.
  unfold pdiv. rn. destruct (Reqb y 0) eqn:E.
  - apply Reqb_true in E. split; [discriminate|]. tauto.
  - apply Reqb_false in E. split; [intros H; injection H as <-; auto|]. intros [_ ->]; reflexivity.
Qed.
Lemma pdiv_nz (x y : @num Rnum) : y <> (0:R) -> @pdiv Rnum x y = Ok (x / y : R).
Proof. intros. apply pdiv_ok; auto. Qed.

Lemma vmag_len p : vmag p = len p.
Proof. reflexivity. Qed.
Lemma inner_nonneg p : 0 <= inner p p.
Proof. un. nra. Qed.
Lemma inner_zero p : inner p p = 0 -> p = origin.
Proof. un. intros H. apply pt_ext; unfold X, Y, Z; rn; nra. Qed.
Lemma len_sq p : len p * len p = inner p p.
Proof. unfold len. apply sqrt_sqrt, inner_nonneg. Qed.
Lemma len_nonneg p : 0 <= len p. Proof. apply sqrt_pos. Qed.
Lemma len_zero p : len p = 0 <-> p = origin.
Proof.
  split.
  - intros H. apply inner_zero. rewrite <- len_sq, H. ring.
  - intros ->. unfold len, inner, origin, P, X, Y, Z. rn. replace (0*0+0*0+0*0) with 0 by ring. apply sqrt_0.
Qed.

Lemma vnorm_spec p : p <> origin -> vnorm p = Ok (scaled (/ len p) p).
Proof.
  intros H. assert (L : len p <> 0) by (rewrite len_zero; exact H).
  unfold vnorm, vdiv. change (vmag p) with (len p).
  rewrite !pdiv_nz by exact L. cbn [bind]. f_equal. apply pt_ext; un; rn; unfold Rdiv; ring.
Qed.
Lemma vnorm_zero : vnorm (origin : pt) = Err ZeroDivision.
Proof.
  unfold vnorm, vdiv. change (vmag origin) with (len origin).
  rewrite (proj2 (len_zero origin) eq_refl). unfold pdiv. rn.
  replace (Reqb 0 0) with true by (symmetry; apply Reqb_true; reflexivity). reflexivity.
Qed.
Lemma origin_dec (p : pt) : {p = origin} + {p <> origin}.
Proof.
  destruct (Req_EM_T (len p) 0) as [H|H]; [left|right]; rewrite <- len_zero; exact H.
Qed.
Lemma vnorm_ok p n : vnorm p = Ok n -> p <> origin /\ n = scaled (/ len p) p.
Proof.
  intros H. destruct (origin_dec p) as [->|E]; [rewrite vnorm_zero in H; discriminate|].
  rewrite vnorm_spec in H by exact E. injection H as <-. auto.
Qed.
Lemma unit_scaled p : p <> origin -> unit_vec (scaled (/ len p) p).
Proof.
  intros H. assert (L : len p <> 0) by (rewrite len_zero; exact H).
  pose proof (len_sq p) as S. unfold unit_vec.
  transitivity (/ len p * / len p * inner p p); [un; rn; ring|]. rewrite <- S. field. exact L.
Qed.
Lemma vnorm_unit p n : vnorm p = Ok n -> unit_vec n.
Proof. intros H. apply vnorm_ok in H. destruct H as [H ->]. apply unit_scaled, H. Qed.
Lemma unit_len p : unit_vec p -> len p = 1.
Proof. unfold unit_vec, len. intros ->. apply sqrt_1. Qed.
Lemma unit_norig p : unit_vec p -> p <> origin.
Proof. intros H E. apply unit_len in H. apply len_zero in E. lra. Qed.
Lemma vnorm_of_unit p : unit_vec p -> vnorm p = Ok p.
Proof.
  intros H. rewrite vnorm_spec by (apply unit_norig, H). rewrite (unit_len _ H). f_equal.
  apply pt_ext; un; rn; field.
Qed.

Definition affine (m : @mtx Rnum) : Prop := m3 m = 0 /\ m7 m = 0 /\ m11 m = 0 /\ m15 m = 1.
Lemma affine_mul A B : affine A -> affine B -> affine (mmul A B).
Proof.
  unfold affine, mmul. rn. intros (a&b&c&d) (e&f&g&h). rewrite a, b, c, d, e, f, g, h. repeat split; ring.
Qed.
Ltac aff := unfold affine, mid, rotX, rotY, rotZ; rn; repeat split; ring.
Lemma affine_tra A v : affine A -> affine (mtranslated A v).
Proof. intros. apply affine_mul; [assumption|aff]. Qed.
Lemma affine_rot A r c : affine A -> affine r -> affine (rotate_about A r c).
Proof.
  intros. destruct c; cbn; [|apply affine_mul; assumption].
  apply affine_tra, affine_mul; [apply affine_tra|]; assumption.
Qed.

Lemma fromAlignment_cases (s t : pt) A : fromAlignment s t = Ok A ->
  exists a b, vnorm s = Ok a /\ vnorm t = Ok b /\
  ((visClose a b = true /\ A = mid) \/
   (visClose a b = false /\ visClose a (vopp b) = true /\ A = mmirX mid) \/
   (visClose a b = false /\ visClose a (vopp b) = false /\ 1 + inner a b <> 0 /\
    let c := vcross a b in
    let skew := M 0 (vz c) (- vy c) 0  (- vz c) 0 (vx c) 0  (vy c) (- vx c) 0 0  0 0 0 0 in
    A = madd (madd mid skew) (mscale (mmul skew skew) (1 / (1 + inner a b))))).
Proof.
  unfold fromAlignment. intros H. apply bind_ok in H. destruct H as (a & Ea & H).
  apply bind_ok in H. destruct H as (b & Eb & H). exists a, b. split; [exact Ea|]. split; [exact Eb|].
  destruct (visClose a b); [left; injection H as <-; auto|right].
  destruct (visClose a (vopp b)); [left; injection H as <-; auto|right].
  apply bind_ok in H. destruct H as (k & Hk & H). apply pdiv_ok in Hk. destruct Hk as [Hn ->].
  injection H as <-. repeat split; auto.
Qed.

Lemma built_affine A : Built A -> affine A.
Proof.
  induction 1; try (apply affine_mul; [assumption|aff]); try (apply affine_rot; [assumption|aff]).
  - aff.
  - apply affine_mul; assumption.
  - apply fromAlignment_cases in H. destruct H as (a & b & _ & _ & [[_ ->]|[[_ [_ ->]]|(_ & _ & _ & E)]]).
    + aff.
    + apply affine_mul; aff.
    + cbn zeta in E. rewrite E. clear. generalize (1 / (1 + inner a b)) (vcross a b). intros k [cx cy cz]. unfold affine. split; [|split; [|split]]; alg; ring.
Qed.

Lemma transformed_mul A B (p : pt) : affine A -> transformed p (mmul A B) = transformed (transformed p A) B.
Proof.
  unfold affine. intros (a&b&c&d). apply pt_ext; un; gm; rn; rewrite a, b, c, d; ring.
Qed.
