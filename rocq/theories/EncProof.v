(** Proofs for the encoder recess (C89). *)
From Coq Require Import Reals Lra ZArith List Bool Arith Lia.
From Verif Require Import Num GeoModel EdgeModel EdgeSpec EdgeMesh GeoSpec GeoMat GeoRigid GeoTri GeoPlane GeoIso ArcModel ArcSpec ArcProof ArcShape MeshModel LayoutModel BracketModel BumperModel EdgeReal PartProof LayoutProof BossProof SwitchSpec SwitchProof CableProof P_Geo.
Import ListNotations.
Open Scope R_scope.

(* the four corners of the i-th quad of a strip *)
Definition quad_pts (s o : list pt) (cl : bool) (i : nat) (v : pt) : Prop :=
  ept s cl i = Ok v \/ ept s cl (S i) = Ok v \/ ept o cl (S i) = Ok v \/ ept o cl i = Ok v.
Lemma strip_quads (s o : list pt) cl ts : meshPairwise s o cl = Ok ts ->
  forall t, In t ts -> exists i, (i < Nat.max (endIdx o cl) (endIdx s cl))%nat /\ all3 (quad_pts s o cl i) t.
Proof.
  intros H t Ht. unfold meshPairwise in H. apply bind_ok in H. destruct H as (ls & Hl & H). apply Ok_inj in H. subst ts.
  apply in_concat in Ht. destruct Ht as (l & Hl1 & Hl2). destruct (made_by _ _ _ _ Hl Hl1) as (i & Hi & Hq). apply in_seq in Hi. exists i. split; [lia|].
  unfold quadAt in Hq. apply bind_ok in Hq. destruct Hq as (a & A & Hq). apply bind_ok in Hq. destruct Hq as (b & B & Hq). apply bind_ok in Hq. destruct Hq as (c & C & Hq). apply bind_ok in Hq. destruct Hq as (d & D & Hq).
  unfold meshQuad in Hq. do 4 (apply bind_ok in Hq; destruct Hq as (? & _ & Hq)).
  apply bind_ok in Hq. destruct Hq as ([[[b1 b2] b3] b4] & _ & Hq). apply Ok_inj in Hq. subst l.
  rewrite !in_app_iff in Hl2. unfold all3, quad_pts.
  destruct Hl2 as [Hl2|[Hl2|[Hl2|Hl2]]]; [destruct b1|destruct b2|destruct b3|destruct b4]; cbn in Hl2; try contradiction; destruct Hl2 as [<-|[]]; cbn [ta tb tc]; tauto.
Qed.
Lemma face_all (fill : list pt -> list (list pt) -> res (list (@tri Rnum))) (A : pt -> Prop) o ts :
  (forall o' ts', fill o' [] = Ok ts' -> forall t, In t ts' -> all3 (fun v => In v o') t) -> fill o [] = Ok ts -> Forall A o -> Forall (all3 A) ts.
Proof. intros F E H. rewrite Forall_forall in H. apply Forall_forall. intros t Ht. destruct (F _ _ E t Ht) as (A1 & A2 & A3). unfold all3. auto. Qed.

(** ** the place of the recess *)
Section Place.
Variable n pos : pt.
Hypothesis Un : unit_vec n.
Hypothesis Up : 0 < Z n.
Hypothesis Tol : n = P 0 0 1 \/ ~ within_tol (P 0 0 1) n.
Lemma ez_unit : unit_vec (P 0 0 1).
Proof. unfold unit_vec, inner, X, Y, Z, P. cbn [vx vy vz]. ring. Qed.
Lemma dir_unit (v : pt) : unit_vec v -> v <> origin /\ dir_of v = v.
Proof.
  intros U. split; [intros ->; unfold unit_vec in U; revert U; unfold inner, X, Y, Z, origin, P; cbn [vx vy vz]; lra|].
  unfold dir_of, len. unfold unit_vec in U. rewrite U, sqrt_1. apply pt_ext; unfold scaled, X, Y, Z, P; cbn [vx vy vz]; field.
Qed.
Lemma place al : fromAlignment (V 0 0 1) n = Ok al ->
  let g (p : pt) := transformed p (mtranslated al pos) in
  isometry g /\ keeps_orientation g /\ g origin = pos /\ g (P 0 0 1) = plus pos n.
Proof.
  intros E g. destruct (dir_unit _ ez_unit) as (S1 & S2). destruct (dir_unit _ Un) as (T1 & T2).
  assert (NW : ~ within_tol (dir_of (P 0 0 1)) (GeoTri.neg (dir_of n))).
  { rewrite S2, T2. intros (_ & _ & W). revert W. unfold GeoTri.neg, Z, P. cbn [vz]. change (Rabs (1 - - Z n) < eps -> False). pose proof (Rle_abs (1 - - Z n)) as Q. unfold eps in *. lra. }
  destruct (C21_aligns_partial (P 0 0 1) n S1 T1 NW) as (A & EA & I & O & OO & W1 & W2). assert (E' : fromAlignment (P 0 0 1) n = Ok al) by exact E. rewrite EA in E'. clear E. rename E' into E. apply Ok_inj in E. subst al.
  rewrite S2, T2 in W1, W2.
  assert (AF : affine A) by (apply built_affine; econstructor; exact EA).
  assert (G : forall p, g p = plus (transformed p A) pos) by (intros p; apply app_tra; exact AF).
  assert (EZ : transformed (P 0 0 1) A = n).
  { destruct Tol as [->|T]; [|apply W2, T]. rewrite W1; [apply transformed_mid|]. unfold within_tol. pose proof eps_pos. replace (X (P 0 0 1) - X (P 0 0 1)) with 0 by ring. replace (Y (P 0 0 1) - Y (P 0 0 1)) with 0 by ring. replace (Z (P 0 0 1) - Z (P 0 0 1)) with 0 by ring. rewrite Rabs_R0. auto. }
  repeat split.
  - intros p q. rewrite !G. rewrite <- (I p q). unfold sqdist, plus, X, Y, Z, P. cbn [vx vy vz]. f_equal; [f_equal|]; f_equal; ring.
  - intros o a b c. rewrite !G. rewrite <- (O o a b c). unfold orient. f_equal; apply pt_ext; unfold minus, plus, X, Y, Z, P; cbn [vx vy vz]; ring.
  - rewrite G, OO. apply pt_ext; unfold plus, X, Y, Z, origin, P; cbn [vx vy vz]; ring.
  - rewrite G, EZ. apply pt_ext; unfold plus, X, Y, Z, P; cbn [vx vy vz]; ring.
Qed.
Lemma rise (A : @mtx Rnum) (x y z k : R) : transformed (P x y (z + k)) A = plus (transformed (P x y z) A) (scaled k (minus (transformed (P 0 0 1) A) (transformed origin A))).
Proof. destruct A. unfold transformed, origin, P. apply pt_ext; unfold minus, plus, scaled, X, Y, Z, P; cbn [vx vy vz]; rn; ring. Qed.
End Place.

(** ** the hole *)
Lemma half_hole_out (q : @quality Rnum) (taper : option R) (r : R) l : eps <= r -> (match taper with Some al => al < PI | None => True end) ->
  @uprightHalfHole2D Rnum q taper r = Ok l -> forall p, In p l -> Z p = 0 /\ 0 <= Y p <= r /\ r <= edist2 p origin.
Proof.
  intros HR HT H. pose proof eps_pos as EP. pose proof PI_RGT_0 as PP.
  assert (OUT : forall t, edist2 (P (X vzero + r * cos t) (Y vzero + r * sin t) 0) origin = r).
  { intros t. unfold edist2. transitivity (sqrt (r * r)); [|apply sqrt_square; lra]. f_equal. unfold sqdist2. pose proof (sin2_cos2 t) as E.
    replace (r * r) with (r * r * ((sin t)² + (cos t)²)) by (rewrite E; ring). change (X vzero) with 0. change (Y vzero) with 0. unfold X, Y, origin, P, Rsqr. cbn [vx vy]. ring. }
  assert (ARC : forall sp, 0 <= sp <= PI -> forall l', @arc2D Rnum q r 0 sp vzero = Ok l' -> forall p, In p l' -> Z p = 0 /\ 0 <= Y p <= r /\ r <= edist2 p origin).
  { intros sp SP l' E p Hp. destruct (arc_between q r 0 sp vzero l' (or_intror HR) ltac:(rewrite Rabs_right; lra) E eq_refl p Hp) as (t & B & ->). split; [reflexivity|]. split; [|rewrite OUT; lra].
    match goal with |- 0 <= Y (P _ ?y _) <= r => change (0 <= y <= r) end. change (Y vzero) with 0. pose proof (SIN_bound t) as SB. assert (0 <= sin t) by (unfold between in B; apply sin_ge_0; lra). split; [|nra]. rewrite Rplus_0_l. apply Rmult_le_pos; lra. }
  unfold uprightHalfHole2D in H. destruct taper as [al|]; [|exact (ARC PI ltac:(lra) l H)]. destruct (nltb (nZ 0) (al : @num Rnum)) eqn:C; [|exact (ARC PI ltac:(lra) l H)]. change (Rltb 0 al = true) in C. apply Rltb_true in C.
  apply bind_ok in H. destruct H as (e8 & E8 & H). apply pdiv_ok in E8. destruct E8 as [_ E8]. apply bind_ok in H. destruct H as (arc & EA & H). apply bind_ok in H. destruct H as (hf & _ & H). apply bind_ok in H. destruct H as (x & _ & H). cbv zeta in H. apply Ok_inj in H.
  assert (E8' : e8 = 2 * PI / 8) by exact E8. specialize (ARC e8 ltac:(rewrite E8'; lra) arc EA).
  assert (R0 : forall p, In p (arc ++ [V x r (nZ 0)]) -> Z p = 0 /\ 0 <= Y p <= r /\ r <= edist2 p origin).
  { intros p Hp. apply in_app_or in Hp. destruct Hp as [Hp|[<-|[]]]; [exact (ARC p Hp)|]. split; [reflexivity|]. split; [change (0 <= r <= r); lra|].
    unfold edist2. rewrite <- (sqrt_square r) at 1 by lra. apply sqrt_le_1_alt. unfold sqdist2. change (r * r <= (x - 0)² + (r - 0)²). pose proof (Rle_0_sqr (x - 0)). unfold Rsqr in *. lra. }
  subst l. intros p Hp. apply in_app_or in Hp. destruct Hp as [Hp|Hp]; [exact (R0 p Hp)|].
  apply in_rev in Hp. unfold emirX in Hp. apply in_map_iff in Hp. destruct Hp as (p' & <- & Hp). destruct (R0 p' Hp) as (A & B & D). split; [exact A|]. split; [exact B|].
  replace (edist2 (vmirX p') origin) with (edist2 p' origin); [exact D|]. unfold edist2. f_equal. unfold sqdist2. change (X (vmirX p')) with (- X p'). change (Y (vmirX p')) with (Y p'). change (X origin) with 0. unfold Rsqr. ring.
Qed.
