(** Rotations, mirrors and the alignment matrix over the reals. *)
From Coq Require Import Reals Lra Psatz List Bool.
From Verif Require Import Num GeoModel GeoSpec GeoMat.
Import ListNotations.
Open Scope R_scope.

(* what applying each builder after the matrix A does to a point *)
Lemma app_tra A v (p : pt) : affine A -> transformed p (mtranslated A v) = plus (transformed p A) v.
Proof. intros (a&b&c&d). apply pt_ext; un; gm; rn; rewrite ?a, ?b, ?c, ?d; ring. Qed.
Lemma app_mirX A (p : pt) : affine A ->
  transformed p (mmirX A) = P (- X (transformed p A)) (Y (transformed p A)) (Z (transformed p A)).
Proof. intros (a&b&c&d). apply pt_ext; un; gm; rn; rewrite ?a, ?b, ?c, ?d; ring. Qed.
Lemma app_mirY A (p : pt) : affine A ->
  transformed p (mmirY A) = P (X (transformed p A)) (- Y (transformed p A)) (Z (transformed p A)).
Proof. intros (a&b&c&d). apply pt_ext; un; gm; rn; rewrite ?a, ?b, ?c, ?d; ring. Qed.
Lemma app_mirZ A (p : pt) : affine A ->
  transformed p (mmirZ A) = P (X (transformed p A)) (Y (transformed p A)) (- Z (transformed p A)).
Proof. intros (a&b&c&d). apply pt_ext; un; gm; rn; rewrite ?a, ?b, ?c, ?d; ring. Qed.

(* the three rotations about an axis through the center, as coordinate formulas *)
Definition ctr (c : option pt) : pt := match c with None => origin | Some c => c end.
Definition rotX_pt (a : R) (c p : pt) : pt :=
  let u := Y p - Y c in let v := Z p - Z c in
  P (X p) (Y c + (u * cos a - v * sin a)) (Z c + (u * sin a + v * cos a)).
Definition rotY_pt (a : R) (c p : pt) : pt :=
  let u := Z p - Z c in let v := X p - X c in
  P (X c + (u * sin a + v * cos a)) (Y p) (Z c + (u * cos a - v * sin a)).
Definition rotZ_pt (a : R) (c p : pt) : pt :=
  let u := X p - X c in let v := Y p - Y c in
  P (X c + (u * cos a - v * sin a)) (Y c + (u * sin a + v * cos a)) (Z p).

Lemma app_about A r c (p : pt) : affine A -> affine r -> transformed p (rotate_about A r c) =
  plus (transformed (minus (transformed p A) (ctr c)) r) (ctr c).
Proof.
  intros HA Hr. destruct c as [c|]; unfold rotate_about, ctr.
  - rewrite app_tra by (apply affine_mul; [apply affine_tra|]; assumption).
    rewrite transformed_mul by (apply affine_tra; assumption). rewrite app_tra by assumption.
    apply pt_ext; un; unfold transformed, vopp; rn; ring.
  - rewrite transformed_mul by assumption. generalize (transformed p A). intros q.
    apply pt_ext; un; unfold transformed; rn; ring.
Qed.
Lemma app_rotX A a c (p : pt) : affine A -> transformed p (mrotX A a c) = rotX_pt a (ctr c) (transformed p A).
Proof. intros HA; unfold mrotX; rewrite app_about by (assumption || aff).
  generalize (transformed p A) (ctr c); intros q o; apply pt_ext;
  unfold rotX_pt, rotX, transformed; un; rn; ring. Qed.
Lemma app_rotY A a c (p : pt) : affine A -> transformed p (mrotY A a c) = rotY_pt a (ctr c) (transformed p A).
Proof. intros HA; unfold mrotY; rewrite app_about by (assumption || aff).
  generalize (transformed p A) (ctr c); intros q o; apply pt_ext;
  unfold rotY_pt, rotY, transformed; un; rn; ring. Qed.
Lemma app_rotZ A a c (p : pt) : affine A -> transformed p (mrotZ A a c) = rotZ_pt a (ctr c) (transformed p A).
Proof. intros HA; unfold mrotZ; rewrite app_about by (assumption || aff).
  generalize (transformed p A) (ctr c); intros q o; apply pt_ext;
  unfold rotZ_pt, rotZ, transformed; un; rn; ring. Qed.

Lemma sc1 a : sin a * sin a + cos a * cos a = 1.
Proof. exact (sin2_cos2 a). Qed.

Ltac isoR a := pose proof (sc1 a) as SC; intros; unfold rotX_pt, rotY_pt, rotZ_pt; un; rn; 
   set (s := sin a) in *; set (c0 := cos a) in *.
Lemma rotX_iso a c : isometry (rotX_pt a c).
Proof.
  unfold isometry. isoR a.
  match goal with |- ?l = ?r => transitivity ((vx p - vx q) * (vx p - vx q) + (s*s+c0*c0) * ((vy p - vy q)*(vy p - vy q) + (vz p - vz q)*(vz p - vz q))) end; [ring|]. rewrite SC. ring.
Qed.
Lemma rotY_iso a c : isometry (rotY_pt a c).
Proof.
  unfold isometry. isoR a.
  match goal with |- ?l = ?r => transitivity ((vy p - vy q) * (vy p - vy q) + (s*s+c0*c0) * ((vx p - vx q)*(vx p - vx q) + (vz p - vz q)*(vz p - vz q))) end; [ring|]. rewrite SC. ring.
Qed.
Lemma rotZ_iso a c : isometry (rotZ_pt a c).
Proof.
  unfold isometry. isoR a.
  match goal with |- ?l = ?r => transitivity ((vz p - vz q) * (vz p - vz q) + (s*s+c0*c0) * ((vx p - vx q)*(vx p - vx q) + (vy p - vy q)*(vy p - vy q))) end; [ring|]. rewrite SC. ring.
Qed.
Ltac keepR a := unfold keeps_orientation; pose proof (sc1 a) as SC; intros o p q r;
   match goal with |- orient _ _ _ _ = ?R => transitivity ((sin a * sin a + cos a * cos a) * R) end;
   [unfold rotX_pt, rotY_pt, rotZ_pt; un; rn; ring | rewrite SC; ring].
Lemma rotX_keeps a c : keeps_orientation (rotX_pt a c). Proof. keepR a. Qed.
Lemma rotY_keeps a c : keeps_orientation (rotY_pt a c). Proof. keepR a. Qed.
Lemma rotZ_keeps a c : keeps_orientation (rotZ_pt a c). Proof. keepR a. Qed.

Lemma rotX_add a b c p : rotX_pt b c (rotX_pt a c p) = rotX_pt (a + b) c p.
Proof. apply pt_ext; unfold rotX_pt; un; rn; rewrite ?cos_plus, ?sin_plus; first [reflexivity | ring]. Qed.
Lemma rotY_add a b c p : rotY_pt b c (rotY_pt a c p) = rotY_pt (a + b) c p.
Proof. apply pt_ext; unfold rotY_pt; un; rn; rewrite ?cos_plus, ?sin_plus; first [reflexivity | ring]. Qed.
Lemma rotZ_add a b c p : rotZ_pt b c (rotZ_pt a c p) = rotZ_pt (a + b) c p.
Proof. apply pt_ext; unfold rotZ_pt; un; rn; rewrite ?cos_plus, ?sin_plus; first [reflexivity | ring]. Qed.
Lemma rotX_0 c p : rotX_pt 0 c p = p.
Proof. apply pt_ext; unfold rotX_pt; un; rn; rewrite ?cos_0, ?sin_0; first [reflexivity | ring]. Qed.
Lemma rotY_0 c p : rotY_pt 0 c p = p.
Proof. apply pt_ext; unfold rotY_pt; un; rn; rewrite ?cos_0, ?sin_0; first [reflexivity | ring]. Qed.
Lemma rotZ_0 c p : rotZ_pt 0 c p = p.
Proof. apply pt_ext; unfold rotZ_pt; un; rn; rewrite ?cos_0, ?sin_0; first [reflexivity | ring]. Qed.

(** ** isometry of all built matrices *)
Lemma iso_comp f g : isometry f -> isometry g -> isometry (fun p => g (f p)).
Proof. unfold isometry. intros Hf Hg p q. rewrite Hg. apply Hf. Qed.
Lemma iso_ext f g : (forall p, f p = g p) -> isometry f -> isometry g.
Proof. unfold isometry. intros E H p q. rewrite <- !E. apply H. Qed.

(** ** fromAlignment *)
Definition det3 (m : @mtx Rnum) : R :=
  m0 m * (m5 m * m10 m - m6 m * m9 m) - m1 m * (m4 m * m10 m - m6 m * m8 m) + m2 m * (m4 m * m9 m - m5 m * m8 m).
Lemma triple_linear (m : @mtx Rnum) (a b d : pt) : m12 m = 0 -> m13 m = 0 -> m14 m = 0 ->
  triple (transformed a m) (transformed b m) (transformed d m) = det3 m * triple a b d.
Proof. intros E1 E2 E3. unfold det3. un. unfold transformed. rn. rewrite E1, E2, E3. ring. Qed.

Definition skewm (c : pt) : @mtx Rnum := M 0 (Z c) (- Y c) 0  (- Z c) 0 (X c) 0  (Y c) (- X c) 0 0  0 0 0 0.
Definition alignm (c : pt) (k : R) : @mtx Rnum := madd (madd mid (skewm c)) (mscale (mmul (skewm c) (skewm c)) k).
Lemma alignm_map (c : pt) (k : R) (v : pt) : transformed v (alignm c k) =
  plus (plus v (vcross c v)) (scaled k (vcross c (vcross c v))).
Proof. destruct c, v. apply pt_ext; alg; ring. Qed.
Lemma alignm_minus (c : pt) k (p q : pt) :
  minus (transformed p (alignm c k)) (transformed q (alignm c k)) = transformed (minus p q) (alignm c k).
Proof. rewrite !alignm_map. destruct c, p, q. apply pt_ext; alg; ring. Qed.
Lemma alignm_tr (c : pt) k : m12 (alignm c k) = 0 /\ m13 (alignm c k) = 0 /\ m14 (alignm c k) = 0.
Proof. destruct c. split; [|split]; alg; ring. Qed.
Lemma alignm_det (c : pt) (k : R) : det3 (alignm c k) = (1 - k * inner c c) * (1 - k * inner c c) + inner c c.
Proof. destruct c. alg. ring. Qed.

Section Align.
Variables s t : pt.
Hypotheses (Hs : unit_vec s) (Ht : unit_vec t) (Hd : 1 + inner s t <> 0).
Let c : pt := vcross s t.
Let k := 1 / (1 + inner s t).
Let A := alignm c k.

Lemma align_kk : k * (1 + inner s t) = 1.
Proof. unfold k. field. exact Hd. Qed.
Lemma align_cc : inner c c = 1 - inner s t * inner s t.
Proof.
  unfold unit_vec in *. transitivity (inner s s * inner t t - inner s t * inner s t).
  - unfold c. un; gm; rn. ring.
  - rewrite Hs, Ht. ring.
Qed.
(* k·|c|² = 1 - d *)
Lemma align_kcc : k * inner c c = 1 - inner s t.
Proof.
  rewrite align_cc. replace (1 - inner s t * inner s t) with ((1 + inner s t) * (1 - inner s t)) by ring.
  rewrite <- Rmult_assoc, align_kk. ring.
Qed.

Lemma align_hits : transformed s A = t.
Proof.
  unfold A; rewrite alignm_map.
  assert (E1 : vcross c s = plus t (scaled (- inner s t) s)).
  { unfold unit_vec in Hs. transitivity (plus (scaled (inner s s) t) (scaled (- inner s t) s)).
    - apply pt_ext; unfold c; un; gm; rn; ring.
    - rewrite Hs. apply pt_ext; un; rn; ring. }
  assert (E2 : vcross c (vcross c s) = scaled (- inner c c) s).
  { assert (O : inner c s = 0) by (unfold c; un; gm; rn; ring).
    transitivity (plus (scaled (inner c s) c) (scaled (- inner c c) s)).
    - apply pt_ext; un; gm; rn; ring.
    - rewrite O. apply pt_ext; un; rn; ring. }
  rewrite E2, E1. 
  assert (E3 : scaled k (scaled (- inner c c) s) = scaled (- (1 - inner s t)) s).
  { rewrite <- align_kcc. apply pt_ext; un; rn; ring. }
  rewrite E3. apply pt_ext; un; rn; ring.
Qed.

Lemma align_isometry : isometry (fun v => transformed v A).
Proof.
  intros p q.
  assert (L : forall v, inner (transformed v A) (transformed v A) = inner v v).
  { intros v. unfold A; rewrite alignm_map.
    transitivity (inner v v + inner (vcross c v) (vcross c v) * (1 + k * (k * inner c c) - 2 * k)).
    - un; gm; rn. ring.
    - rewrite align_kcc. pose proof align_kk as K.
      replace (1 + k * (1 - inner s t) - 2 * k) with (1 - k * (1 + inner s t)) by ring.
      rewrite K. ring. }
  transitivity (inner (minus (transformed p A) (transformed q A)) (minus (transformed p A) (transformed q A))); [reflexivity|].
  unfold A. rewrite alignm_minus. fold A. rewrite L. reflexivity.
Qed.

Lemma align_orientation : keeps_orientation (fun v => transformed v A).
Proof.
  intros o p q r. unfold orient, A. rewrite !alignm_minus.
  destruct (alignm_tr c k) as (T1 & T2 & T3). rewrite triple_linear by assumption.
  rewrite alignm_det, align_kcc, align_cc. ring.
Qed.
End Align.

Lemma Rabs_eps x : Rabs x < eps -> - eps < x < eps.
Proof. intros. apply Rabs_def2 in H. lra. Qed.

Lemma visClose_iff (p q : pt) : visClose p q = true <->
  Rabs (X p - X q) < eps /\ Rabs (Y p - Y q) < eps /\ Rabs (Z p - Z q) < eps.
Proof.
  unfold visClose. rn. rewrite !andb_true_iff, !isZero_iff. un. tauto.
Qed.
