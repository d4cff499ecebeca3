(** Triangles, angles and transformed planes over the reals. *)
From Coq Require Import Reals Lra Psatz List Bool Lia.
From Verif Require Import Num GeoModel GeoSpec GeoMat GeoRigid GeoPlane.
Import ListNotations.
Open Scope R_scope.

Lemma inner_sym p q : inner p q = inner q p. Proof. un. ring. Qed.
Lemma len_sub_len k p : 0 < k -> len (scaled k p) = k * len p.
Proof.
  intros H. unfold len. replace (inner (scaled k p) (scaled k p)) with ((k * k) * inner p p) by (un; rn; ring).
  rewrite sqrt_mult_alt by nra. rewrite sqrt_square by lra. reflexivity.
Qed.

Definition is_normal (a b c n : pt) : Prop :=
  unit_vec n /\ inner n (minus b a) = 0 /\ inner n (minus c a) = 0 /\ 0 < triple (minus b a) (minus c a) n.

Lemma tnormal_is (t : @tri Rnum) n : tnormal t = Ok n -> is_normal (ta t) (tb t) (tc t) n.
Proof.
  unfold tnormal. intros H. pose proof (vnorm_unit _ _ H) as U. apply vnorm_ok in H. destruct H as [H0 ->].
  set (N := vcross (vsub (tb t) (ta t)) (vsub (tc t) (ta t))) in *.
  pose proof (len_pos _ H0) as L. split; [exact U|].
  assert (I1 : inner N (minus (tb t) (ta t)) = 0) by (unfold N; un; gm; rn; ring).
  assert (I2 : inner N (minus (tc t) (ta t)) = 0) by (unfold N; un; gm; rn; ring).
  assert (I3 : triple (minus (tb t) (ta t)) (minus (tc t) (ta t)) N = inner N N) by (unfold N; un; gm; rn; ring).
  assert (S : forall p, inner (scaled (/ len N) N) p = / len N * inner N p) by (intros; un; rn; ring).
  assert (T : forall p q, triple p q (scaled (/ len N) N) = / len N * triple p q N) by (intros; un; rn; ring).
  rewrite !S, T, I1, I2, I3. split; [ring|]. split; [ring|].
  apply Rmult_lt_0_compat; [apply Rinv_0_lt_compat, L|]. rewrite <- len_sq. apply Rmult_lt_0_compat; exact L.
Qed.
Lemma is_normal_unique a b c n m : is_normal a b c n -> is_normal a b c m -> n = m.
Proof.
  intros (U1 & A1 & B1 & T1) (U2 & A2 & B2 & T2). unfold unit_vec in *.
  set (N := vcross (minus b a) (minus c a)).
  assert (E : forall p, inner p (minus b a) = 0 -> inner p (minus c a) = 0 -> scaled (inner N N) p = scaled (triple (minus b a) (minus c a) p) N).
  { intros p H1 H2.
    (* N × p = 0 *)
    assert (C : vcross N p = origin).
    { transitivity (minus (scaled (inner p (minus b a)) (minus c a)) (scaled (inner p (minus c a)) (minus b a))).
      - unfold N. generalize (minus b a) (minus c a). intros. apply pt_ext; un; gm; rn; ring.
      - rewrite H1, H2. apply pt_ext; un; rn; ring. }
    assert (LG : scaled (inner N N) p = minus (scaled (inner N p) N) (vcross N (vcross N p))).
    { clear. generalize N. intros. apply pt_ext; un; gm; rn; ring. }
    rewrite LG, C. assert (TI : inner N p = triple (minus b a) (minus c a) p) by (unfold N; generalize (minus b a) (minus c a); intros; un; gm; rn; ring).
    rewrite TI. apply pt_ext; un; gm; rn; ring. }
  assert (N0 : inner N N <> 0).
  { intros Z0. apply inner_zero in Z0. replace (triple (minus b a) (minus c a) n) with (inner N n) in T1 by (unfold N; generalize (minus b a) (minus c a); intros; un; gm; rn; ring).
    rewrite Z0 in T1. un. rn. lra. }
  pose proof (E n A1 B1) as E1. pose proof (E m A2 B2) as E2.
  set (t1 := triple (minus b a) (minus c a) n) in *. set (t2 := triple (minus b a) (minus c a) m) in *.
  assert (Q1 : inner N N = t1 * t1).
  { apply Rmult_eq_reg_l with (inner N N); [|exact N0].
    transitivity (inner (scaled (inner N N) n) (scaled (inner N N) n)); [transitivity (inner N N * inner N N * inner n n); [rewrite U1; ring|generalize (inner N N); intros; un; rn; ring]|].
    rewrite E1. generalize t1. intros. un; rn; ring. }
  assert (Q2 : inner N N = t2 * t2).
  { apply Rmult_eq_reg_l with (inner N N); [|exact N0].
    transitivity (inner (scaled (inner N N) m) (scaled (inner N N) m)); [transitivity (inner N N * inner N N * inner m m); [rewrite U2; ring|generalize (inner N N); intros; un; rn; ring]|].
    rewrite E2. generalize t2. intros. un; rn; ring. }
  assert (t1 = t2) by nra. rewrite H in E1. rewrite <- E2 in E1.
  pose proof (f_equal X E1) as HX. pose proof (f_equal Y E1) as HY. pose proof (f_equal Z E1) as HZ.
  unfold scaled, P, X, Y, Z in HX, HY, HZ. rn. apply pt_ext; unfold X, Y, Z; eapply Rmult_eq_reg_l; eauto.
Qed.
Lemma tnormal_err (t : @tri Rnum) e : tnormal t = Err e ->
  forall n, ~ is_normal (ta t) (tb t) (tc t) n.
Proof.
  unfold tnormal. intros H n (U & A & B & T).
  set (N := vcross (vsub (tb t) (ta t)) (vsub (tc t) (ta t))) in *.
  destruct (origin_dec N) as [E|E].
  - replace (triple (minus (tb t) (ta t)) (minus (tc t) (ta t)) n) with (inner N n) in T by (unfold N; un; gm; rn; ring).
    rewrite E in T. un. rn. lra.
  - rewrite vnorm_spec in H by exact E. discriminate.
Qed.
Lemma tnormal_complete (t : @tri Rnum) n : is_normal (ta t) (tb t) (tc t) n -> tnormal t = Ok n.
Proof.
  intros H. destruct (tnormal t) as [m|e] eqn:E.
  - f_equal. eapply is_normal_unique; [apply tnormal_is; exact E|exact H].
  - exfalso. eapply tnormal_err; eauto.
Qed.

(* an orientation reversing isometry followed by reversal carries normals along *)
Definition neg (p : pt) : pt := P (- X p) (- Y p) (- Z p).
Lemma normal_reversed a b c n : is_normal a b c n -> is_normal c b a (neg n).
Proof.
  intros (U & A & B & T). split; [|split; [|split]].
  - unfold unit_vec in *. rewrite <- U. unfold neg. un; rn; ring.
  - transitivity (inner n (minus c a) - inner n (minus b a)); [unfold neg; un; rn; ring|rewrite A, B; ring].
  - transitivity (inner n (minus c a)); [unfold neg; un; rn; ring|exact B].
  - replace (triple (minus b c) (minus a c) (neg n)) with (triple (minus b a) (minus c a) n); [exact T|unfold neg; un; rn; ring].
Qed.
Lemma normal_cycle a b c n : is_normal a b c n -> is_normal b c a n.
Proof.
  intros (U & A & B & T). split; [exact U|]. split; [|split].
  - transitivity (inner n (minus c a) - inner n (minus b a)); [un; rn; ring|rewrite A, B; ring].
  - transitivity (- inner n (minus b a)); [un; rn; ring|rewrite A; ring].
  - replace (triple (minus c b) (minus a b) n) with (triple (minus b a) (minus c a) n); [exact T|un; rn; ring].
Qed.
Lemma normal_mirX a b c n : is_normal a b c n -> is_normal (vmirX c) (vmirX b) (vmirX a) (vmirX n).
Proof.
  intros (U & A & B & T). split; [|split; [|split]].
  - unfold unit_vec in *. rewrite <- U. un; gm; rn; ring.
  - transitivity (inner n (minus b a) - inner n (minus c a)); [un; gm; rn; ring|rewrite A, B; ring].
  - transitivity (- inner n (minus c a)); [un; gm; rn; ring|rewrite B; ring].
  - replace (triple (minus (vmirX b) (vmirX c)) (minus (vmirX a) (vmirX c)) (vmirX n)) with (triple (minus b a) (minus c a) n); [exact T|un; gm; rn; ring].
Qed.
Lemma normal_mirY a b c n : is_normal a b c n -> is_normal (vmirY c) (vmirY b) (vmirY a) (vmirY n).
Proof.
  intros (U & A & B & T). split; [|split; [|split]].
  - unfold unit_vec in *. rewrite <- U. un; gm; rn; ring.
  - transitivity (inner n (minus b a) - inner n (minus c a)); [un; gm; rn; ring|rewrite A, B; ring].
  - transitivity (- inner n (minus c a)); [un; gm; rn; ring|rewrite B; ring].
  - replace (triple (minus (vmirY b) (vmirY c)) (minus (vmirY a) (vmirY c)) (vmirY n)) with (triple (minus b a) (minus c a) n); [exact T|un; gm; rn; ring].
Qed.
Lemma normal_mirZ a b c n : is_normal a b c n -> is_normal (vmirZ c) (vmirZ b) (vmirZ a) (vmirZ n).
Proof.
  intros (U & A & B & T). split; [|split; [|split]].
  - unfold unit_vec in *. rewrite <- U. un; gm; rn; ring.
  - transitivity (inner n (minus b a) - inner n (minus c a)); [un; gm; rn; ring|rewrite A, B; ring].
  - transitivity (- inner n (minus c a)); [un; gm; rn; ring|rewrite B; ring].
  - replace (triple (minus (vmirZ b) (vmirZ c)) (minus (vmirZ a) (vmirZ c)) (vmirZ n)) with (triple (minus b a) (minus c a) n); [exact T|un; gm; rn; ring].
Qed.

(** ** circumradius *)
Lemma circum (u w : pt) : let N := vcross u w in inner N N <> 0 ->
  let o := scaled (/ (2 * inner N N)) (vcross (minus (scaled (inner u u) w) (scaled (inner w w) u)) N) in
  inner o N = 0 /\ inner o o = inner (minus o u) (minus o u) /\ inner o o = inner (minus o w) (minus o w) /\
  4 * inner N N * inner o o = inner u u * inner w w * inner (minus u w) (minus u w).
Proof.
  intros N N0. cbn zeta. set (q := minus (scaled (inner u u) w) (scaled (inner w w) u)).
  set (o := scaled (/ (2 * inner N N)) (vcross q N)).
  assert (ON : inner o N = 0) by (unfold o; generalize (/ (2 * inner N N)); intros; un; gm; rn; ring).
  assert (QN : inner q N = 0) by (unfold q, N; generalize (inner u u) (inner w w); intros; un; gm; rn; ring).
  assert (SC : forall k p r, inner (scaled k p) r = k * inner p r) by (intros; un; rn; ring).
  assert (OU : inner o u = inner u u / 2).
  { unfold o. rewrite SC. replace (inner (vcross q N) u) with (inner u u * inner N N).
    - field. exact N0.
    - unfold q. generalize (inner u u) (inner w w). intros a b. symmetry. transitivity (a * inner (vcross w N) u - b * inner (vcross u N) u); [un; gm; rn; ring|].
      replace (inner (vcross u N) u) with 0 by (un; gm; rn; ring). unfold N. un; gm; rn; ring. }
  assert (OW : inner o w = inner w w / 2).
  { unfold o. rewrite SC. replace (inner (vcross q N) w) with (inner w w * inner N N).
    - field. exact N0.
    - unfold q. generalize (inner u u) (inner w w). intros a b. symmetry. transitivity (a * inner (vcross w N) w - b * inner (vcross u N) w); [un; gm; rn; ring|].
      replace (inner (vcross w N) w) with 0 by (un; gm; rn; ring). unfold N. un; gm; rn; ring. }
  assert (EX : forall p r, inner (minus p r) (minus p r) = inner p p - 2 * inner p r + inner r r) by (intros; un; rn; ring).
  split; [exact ON|]. split; [rewrite EX, OU; field|]. split; [rewrite EX, OW; field|].
  assert (QQ : inner q q = inner u u * inner w w * inner (minus u w) (minus u w)).
  { rewrite EX. assert (G : forall a b, inner (minus (scaled a w) (scaled b u)) (minus (scaled a w) (scaled b u)) = a * a * inner w w - 2 * a * b * inner u w + b * b * inner u u) by (intros; un; rn; ring).
    unfold q. rewrite G. ring. }
  assert (OO : inner o o = / (2 * inner N N) * (/ (2 * inner N N) * (inner q q * inner N N))).
  { assert (LG : inner (vcross q N) (vcross q N) = inner q q * inner N N - inner q N * inner q N) by (clearbody q N; un; gm; rn; ring).
    unfold o. rewrite SC. rewrite (inner_sym (vcross q N) (scaled _ _)). rewrite SC, LG, QN. ring. }
  rewrite OO, QQ. field. exact N0.
Qed.

Lemma tcircumradius_spec (t : @tri Rnum) :
  (2 * len (vcross (vsub (ta t) (tc t)) (vsub (tb t) (tc t))) < eps -> tcircumradius t = Ok 0) /\
  (eps <= 2 * len (vcross (vsub (ta t) (tc t)) (vsub (tb t) (tc t))) ->
   exists r o, tcircumradius t = Ok r /\ orient o (ta t) (tb t) (tc t) = 0 /\
     edist o (ta t) = r /\ edist o (tb t) = r /\ edist o (tc t) = r).
Proof.
  unfold tcircumradius. cbn zeta. set (u := vsub (ta t) (tc t)). set (w := vsub (tb t) (tc t)).
  set (N := vcross u w). change (@vmag Rnum) with len. rn.
  pose proof (len_nonneg N) as LN. pose proof eps_pos as EP. split.
  - intros H. assert (@isZero Rnum (2 * len N) = true) as -> by (apply isZero_iff; rewrite Rabs_right; lra). reflexivity.
  - intros H. assert (@isZero Rnum (2 * len N) = false) as -> by (apply isZero_false; rewrite Rabs_right; lra).
    rewrite pdiv_nz by lra.
    assert (N0 : inner N N <> 0) by (rewrite <- len_sq; nra).
    destruct (circum u w N0) as (ON & OU & OW & OO). fold N in ON, OU, OW, OO.
    set (o := scaled (/ (2 * inner N N)) (vcross (minus (scaled (inner u u) w) (scaled (inner w w) u)) N)) in *.
    clearbody o. change (vsub u w) with (minus u w).
    exists (len u * len w * len (minus u w) / (2 * len N)), (plus o (tc t)). split; [reflexivity|].
    assert (R : len o = len u * len w * len (minus u w) / (2 * len N)).
    { apply Rsqr_inj; [apply len_nonneg| |].
      - apply Rmult_le_pos; [|left; apply Rinv_0_lt_compat; lra]. repeat apply Rmult_le_pos; apply len_nonneg.
      - unfold Rsqr. rewrite len_sq.
        transitivity ((len u * len u) * (len w * len w) * (len (minus u w) * len (minus u w)) / (4 * (len N * len N))); [|field; lra].
        rewrite !len_sq. rewrite <- OO. field. exact N0. }
    split.
    { unfold orient. unfold N in ON. transitivity (- inner o (vcross u w)); [unfold u, w; un; gm; rn; ring|rewrite ON; ring]. }
    rewrite <- R. unfold edist, len.
    split; [|split]; apply (f_equal sqrt).
    + rewrite OU. unfold u. un; gm; rn; ring.
    + rewrite OW. unfold w. un; gm; rn; ring.
    + un; rn; ring.
Qed.

(** ** area *)
Lemma tarea_spec (t : @tri Rnum) : exists a, tarea t = Ok a /\ 0 <= a /\
  16 * (a * a) = 4 * sqdist (tb t) (ta t) * sqdist (tc t) (ta t) -
     Rsqr (sqdist (tb t) (ta t) + sqdist (tc t) (ta t) - sqdist (tb t) (tc t)).
Proof.
  unfold tarea. change (@vmag Rnum) with len. set (N := vcross _ _). rewrite pdiv_nz by (cbn; lra).
  eexists. split; [reflexivity|]. cbn [nZ Rnum]. split; [pose proof (len_nonneg N); lra|].
  transitivity (4 * (len N * len N)); [field|]. rewrite len_sq. unfold N. un; gm; rn; ring.
Qed.

(** ** angle between two vectors *)
Lemma vangle_spec (p q : pt) : p <> origin -> q <> origin ->
  exists a, vangle p q = Ok a /\ 0 <= a <= PI /\ len p * len q * cos a = inner p q.
Proof.
  intros Hp Hq. unfold vangle. rewrite !vnorm_spec by assumption. cbn [bind]. eexists. split; [reflexivity|].
  pose proof (len_pos _ Hp) as Lp. pose proof (len_pos _ Hq) as Lq.
  set (d := vdot (scaled (/ len p) p) (scaled (/ len q) q)).
  assert (D : len p * len q * d = inner p q).
  { unfold d. transitivity ((len p * / len p) * (len q * / len q) * inner p q); [generalize (/ len p), (/ len q); intros; un; gm; rn; ring|].
    field. lra. }
  assert (B : -1 <= d <= 1).
  { assert (CS : inner p q * inner p q <= (len p * len q) * (len p * len q)).
    { replace ((len p * len q) * (len p * len q)) with ((len p * len p) * (len q * len q)) by ring. rewrite !len_sq.
      pose proof (inner_nonneg (vcross p q)).
      assert (inner (vcross p q) (vcross p q) = inner p p * inner q q - inner p q * inner p q) by (un; gm; rn; ring). lra. }
    rewrite <- D in CS. assert (0 < len p * len q) by (apply Rmult_lt_0_compat; assumption).
    assert (d * d <= 1). { apply Rmult_le_reg_l with ((len p * len q) * (len p * len q)); [nra|]. lra. }
    nra. }
  assert (M : @pmax Rnum (- (1)) (@pmin Rnum d 1) = d).
  { unfold pmax, pmin. rn. replace (Rltb 1 d) with false by (symmetry; apply Rltb_false; lra).
    destruct (Rltb (- (1)) d) eqn:E; [reflexivity|]. apply Rltb_false in E. lra. }
  rn. match goal with |- context[acos ?e] => replace (acos e) with (acos d) by (symmetry; f_equal; exact M) end.
  split; [apply acos_bound|]. rewrite cos_acos by lra. exact D.
Qed.
