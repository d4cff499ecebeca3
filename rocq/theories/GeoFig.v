(** Vector order, snapping, 2D segments, circles and triangles over the reals. *)
From Coq Require Import Reals Lra Psatz List Bool Lia.
From Verif Require Import Num GeoModel GeoSpec GeoMat GeoRigid GeoPlane.
Import ListNotations.
Open Scope R_scope.

(** ** Order on vectors *)
Definition lexlt (p q : pt) : Prop :=
  X p < X q \/ (X p = X q /\ (Y p < Y q \/ (Y p = Y q /\ Z p < Z q))).
Lemma vltb_lex (p q : pt) : vltb p q = true <-> lexlt p q.
Proof.
  unfold vltb, lexlt. un. rn.
  destruct (Reqb (vx p) (vx q)) eqn:E; cbn [negb].
  - apply Reqb_true in E. destruct (Reqb (vy p) (vy q)) eqn:F; cbn [negb].
    + apply Reqb_true in F. rewrite Rltb_true. split; [auto|]. intros [H|[_ [H|[_ H]]]]; lra || assumption.
    + apply Reqb_false in F. rewrite Rltb_true. split; [auto|]. intros [H|[_ [H|[H _]]]]; [lra|assumption|contradiction].
  - apply Reqb_false in E. rewrite Rltb_true. split; [auto|]. intros [H|[H _]]; [assumption|contradiction].
Qed.
Lemma lex_trans p q r : lexlt p q -> lexlt q r -> lexlt p r.
Proof. unfold lexlt. intros [?|[? [?|[? ?]]]] [?|[? [?|[? ?]]]]; try (left; lra); right; (split; [lra|]); (try (left; lra)); right; split; lra. Qed.
Lemma lex_irrefl p : ~ lexlt p p.
Proof. unfold lexlt. intros [?|[? [?|[? ?]]]]; lra. Qed.
Lemma lex_total (p q : pt) : lexlt p q \/ p = q \/ lexlt q p.
Proof.
  unfold lexlt. destruct (Rtotal_order (X p) (X q)) as [A|[A|A]]; [left; left; exact A| |right; right; left; lra].
  destruct (Rtotal_order (Y p) (Y q)) as [B|[B|B]]; [left; right; auto| |right; right; right; split; [auto|left; lra]].
  destruct (Rtotal_order (Z p) (Z q)) as [C|[C|C]]; [left; right; auto| |].
  - right; left. apply pt_ext; assumption.
  - right; right; right; split; [auto|right; split; [auto|lra]].
Qed.
Lemma veqb_iff (p q : pt) : veqb p q = true <-> p = q.
Proof.
  unfold veqb. rewrite !andb_true_iff. rn. rewrite !Reqb_true. split; [|intros ->; auto].
  intros [[A B] C]. apply pt_ext; assumption.
Qed.

(** ** snapping *)
Lemma snap1_spec (x : R) : @snap1 Rnum x = x /\ eps <= Rabs x \/ @snap1 Rnum x = 0 /\ Rabs x < eps.
Proof.
  unfold snap1. destruct (@isZero Rnum x) eqn:E.
  - right. apply isZero_iff in E. auto.
  - left. apply isZero_false in E. auto.
Qed.
Lemma isZero_0 : @isZero Rnum 0 = true.
Proof. apply isZero_iff. rewrite Rabs_R0. apply eps_pos. Qed.
Lemma snap1_idem (x : R) : @snap1 Rnum (@snap1 Rnum x) = @snap1 Rnum x.
Proof.
  unfold snap1 at 2 3. destruct (@isZero Rnum x) eqn:E; unfold snap1; [rn; rewrite isZero_0; reflexivity|rewrite E; reflexivity].
Qed.

(** ** segments *)
Lemma sdistance2D_spec (s : @segment Rnum) v : exists d, sdistance2D s v = Ok d /\
  (exists w, on_seg2 (sa s) (sb s) w /\ d = edist2 w v) /\
  forall u, on_seg2 (sa s) (sb s) u -> d <= edist2 u v.
Proof.
  destruct s as [[ax ay az] [bx by_ bz]], v as [px py pz].
  unfold sdistance2D. cbn zeta. rn.
  set (dx := bx - ax). set (dy := by_ - ay). set (den := dx * dx + dy * dy).
  set (nu := (px - ax) * dx + (py - ay) * dy).
  assert (K : exists u, (if negb (Reqb den 0) then bind (@pdiv Rnum nu den) (fun q => Ok (@pmax Rnum 0 (@pmin Rnum q 1))) else Ok 0) = Ok u /\
     0 <= u <= 1 /\ forall t, 0 <= t <= 1 -> u * u * den - 2 * u * nu <= t * t * den - 2 * t * nu).
  { assert (D0 : 0 <= den) by (unfold den; nra).
    destruct (Reqb den 0) eqn:E; cbn [negb].
    - apply Reqb_true in E. exists 0. split; [reflexivity|]. split; [lra|].
      assert (dx = 0 /\ dy = 0) as [-> ->] by (unfold den in E; nra). unfold nu. intros. nra.
    - apply Reqb_false in E. assert (0 < den) by lra.
      exists (@pmax Rnum 0 (@pmin Rnum (nu / den) 1)). split.
      { unfold pdiv. rn. apply Reqb_false in E. rewrite E. reflexivity. }
      set (q := nu / den). assert (Q : nu = q * den) by (unfold q; field; lra).
      unfold pmax, pmin. rn. destruct (Rltb 1 q) eqn:E1.
      + apply Rltb_true in E1. replace (Rltb 0 1) with true by (symmetry; apply Rltb_true; lra).
        split; [lra|]. intros t Ht. rewrite Q.
        assert (0 <= (1 - t) * (2 * q - 1 - t) * den). { apply Rmult_le_pos; [|lra]. apply Rmult_le_pos; lra. } lra.
      + apply Rltb_false in E1. destruct (Rltb 0 q) eqn:E2.
        * apply Rltb_true in E2. split; [lra|]. intros t Ht. rewrite Q.
          assert (0 <= (t - q) * (t - q) * den). { apply Rmult_le_pos; [exact (Rle_0_sqr (t - q))|lra]. } lra.
        * apply Rltb_false in E2. split; [lra|]. intros t Ht. rewrite Q.
          assert (0 <= t * (t - 2 * q) * den). { apply Rmult_le_pos; [|lra]. apply Rmult_le_pos; lra. } lra. }
  destruct K as (u & Ku & U01 & Umin).
  match goal with |- context[bind ?e _] => change e with (if negb (Reqb den 0) then bind (@pdiv Rnum nu den) (fun q => Ok (@pmax Rnum 0 (@pmin Rnum q 1))) else Ok 0) end.
  rewrite Ku. cbn [bind]. eexists. split; [reflexivity|].
  split.
  - exists (P (ax + u * dx) (ay + u * dy) 0). split; [|reflexivity].
    exists u. split; [exact U01|]. unfold at2. un. rn. auto.
  - intros w (t & Ht & Ex & Ey). unfold edist2. apply sqrt_le_1_alt. unfold sqdist2. rewrite Ex, Ey.
    unfold at2. un. rn. fold dx dy.
    specialize (Umin t Ht).
    replace ((ax + u * dx - px) * (ax + u * dx - px) + (ay + u * dy - py) * (ay + u * dy - py)) with
      (u * u * den - 2 * u * nu + ((px-ax)*(px-ax)+(py-ay)*(py-ay))) by (unfold den, nu; ring).
    replace ((ax + t * dx - px) * (ax + t * dx - px) + (ay + t * dy - py) * (ay + t * dy - py)) with
      (t * t * den - 2 * t * nu + ((px-ax)*(px-ax)+(py-ay)*(py-ay))) by (unfold den, nu; ring).
    lra.
Qed.

(* what the asLine argument asks for *)
Definition part2 (isline : bool) (a b v : pt) : Prop := if isline then on_line2 a b v else on_seg2 a b v.
Definition cross2 (a b c d : pt) : R := (X b - X a) * (Y d - Y c) - (Y b - Y a) * (X d - X c).

Lemma in01_iff (x : R) : @in01 Rnum x = true <-> 0 <= x <= 1.
Proof. unfold in01. rn. rewrite andb_true_iff, !Rleb_true. tauto. Qed.

Lemma sintersect2D_spec (s o : @segment Rnum) (n : nat) :
  (Rabs (cross2 (sa s) (sb s) (sa o) (sb o)) < eps /\ sintersect2D s o n = Ok None) \/
  (eps <= Rabs (cross2 (sa s) (sb s) (sa o) (sb o)) /\
   ((exists v, sintersect2D s o n = Ok (Some v) /\ Z v = 0 /\
      part2 (Nat.eqb n 2) (sa s) (sb s) v /\ part2 (Nat.leb 1 n) (sa o) (sb o) v /\
      forall w, on_line2 (sa s) (sb s) w -> on_line2 (sa o) (sb o) w -> X w = X v /\ Y w = Y v) \/
    (sintersect2D s o n = Ok None /\
     forall w, part2 (Nat.eqb n 2) (sa s) (sb s) w -> part2 (Nat.leb 1 n) (sa o) (sb o) w -> False))).
Proof.
  destruct s as [a b], o as [c d]. unfold sintersect2D. cbn zeta. rn.
  set (den := (vy d - vy c) * (vx b - vx a) - (vx d - vx c) * (vy b - vy a)).
  replace (cross2 a b c d) with den by (unfold cross2, den; un; ring).
  destruct (@isZero Rnum den) eqn:E; cbn [negb].
  { left. apply isZero_iff in E. auto. }
  right. pose proof E as E'. apply not_isZero_neq in E. apply isZero_false in E'. split; [exact E'|].
  rewrite pdiv_nz by exact E. cbn [bind]. rewrite pdiv_nz by exact E. cbn [bind].
  set (u := ((vx d - vx c) * (vy a - vy c) - (vy d - vy c) * (vx a - vx c)) / den).
  set (t := ((vx b - vx a) * (vy a - vy c) - (vy b - vy a) * (vx a - vx c)) / den).
  assert (Hx : vx a + (vx b - vx a) * u = vx c + t * (vx d - vx c)) by (unfold u, t, den; field; exact E).
  assert (Hy : vy a + (vy b - vy a) * u = vy c + t * (vy d - vy c)) by (unfold u, t, den; field; exact E).
  assert (UN : forall u' t', vx a + u' * (vx b - vx a) = vx c + t' * (vx d - vx c) ->
       vy a + u' * (vy b - vy a) = vy c + t' * (vy d - vy c) -> u' = u /\ t' = t).
  { intros u' t' H1 H2. split; apply Rmult_eq_reg_r with den; auto.
    - transitivity ((vx d - vx c) * (vy a - vy c) - (vy d - vy c) * (vx a - vx c)); [|unfold u; field; exact E].
      unfold den.
      transitivity ((vx d - vx c) * (vy a - vy c) - (vy d - vy c) * (vx a - vx c)
        + (vy d - vy c) * ((vx a + u' * (vx b - vx a)) - (vx c + t' * (vx d - vx c)))
        - (vx d - vx c) * ((vy a + u' * (vy b - vy a)) - (vy c + t' * (vy d - vy c)))); [ring|].
      rewrite H1, H2. ring.
    - transitivity ((vx b - vx a) * (vy a - vy c) - (vy b - vy a) * (vx a - vx c)); [|unfold t; field; exact E].
      unfold den.
      transitivity ((vx b - vx a) * (vy a - vy c) - (vy b - vy a) * (vx a - vx c)
        + (vy b - vy a) * ((vx a + u' * (vx b - vx a)) - (vx c + t' * (vx d - vx c)))
        - (vx b - vx a) * ((vy a + u' * (vy b - vy a)) - (vy c + t' * (vy d - vy c)))); [ring|].
      rewrite H1, H2. ring. }
  clearbody u t.
  assert (PU : forall w il jl, part2 il a b w -> part2 jl c d w ->
     (X w = vx a + u * (vx b - vx a) /\ Y w = vy a + u * (vy b - vy a)) /\ (il = false -> 0 <= u <= 1) /\ (jl = false -> 0 <= t <= 1)).
  { intros w il jl H1 H2.
    assert (exists u', (X w = X (at2 a b u') /\ Y w = Y (at2 a b u')) /\ (il = false -> 0 <= u' <= 1)) as (u' & (Xa & Ya) & U).
    { destruct il; cbn in H1; [destruct H1 as (u' & ? & ?)|destruct H1 as (u' & ? & ? & ?)]; exists u'; repeat split; auto; try discriminate; tauto. }
    assert (exists t', (X w = X (at2 c d t') /\ Y w = Y (at2 c d t')) /\ (jl = false -> 0 <= t' <= 1)) as (t' & (Xc & Yc) & T).
    { destruct jl; cbn in H2; [destruct H2 as (t' & ? & ?)|destruct H2 as (t' & ? & ? & ?)]; exists t'; repeat split; auto; try discriminate; tauto. }
    unfold at2 in *. un. rn.
    destruct (UN u' t') as [-> ->]; [rewrite <- Xa, <- Xc; reflexivity|rewrite <- Ya, <- Yc; reflexivity|]. auto. }
  assert (G : forall il jl, (orb il (@in01 Rnum u) = true -> orb jl (@in01 Rnum t) = true ->
     part2 il a b (P (vx a + (vx b - vx a) * u) (vy a + (vy b - vy a) * u) 0) /\
     part2 jl c d (P (vx a + (vx b - vx a) * u) (vy a + (vy b - vy a) * u) 0))).
  { intros il jl Hu Ht. split.
    - destruct il; cbn in *; [|apply in01_iff in Hu]; exists u; repeat split; try tauto; unfold at2; un; rn; ring.
    - destruct jl; cbn in *; [|apply in01_iff in Ht]; exists t; repeat split; try tauto; unfold at2; un; rn; rewrite ?Hx, ?Hy; ring. }
  destruct (orb (Nat.eqb n 2) (@in01 Rnum u)) eqn:E1; [destruct (orb (Nat.leb 1 n) (@in01 Rnum t)) eqn:E2|].
  - left. eexists. split; [reflexivity|]. split; [reflexivity|].
    destruct (G _ _ E1 E2) as [G1 G2]. split; [exact G1|]. split; [exact G2|].
    intros w W1 W2. destruct (PU w true true W1 W2) as ((-> & ->) & _). un. rn. split; ring.
  - right. split; [reflexivity|]. intros w W1 W2. destruct (PU w _ _ W1 W2) as (_ & _ & T).
    apply orb_false_iff in E2. destruct E2 as [E2 E3]. specialize (T E2). apply in01_iff in T. congruence.
  - right. split; [reflexivity|]. intros w W1 W2. destruct (PU w _ _ W1 W2) as (_ & U & _).
    apply orb_false_iff in E1. destruct E1 as [E2 E3]. specialize (U E2). apply in01_iff in U. congruence.
Qed.
