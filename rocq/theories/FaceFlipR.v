(** Edge flipping over the reals: orientation, coverage, termination, and the
    local Delaunay property at the end. *)
From Coq Require Import Reals Lra Psatz ZArith List Permutation Lia Arith Bool.
From Verif Require Import Num GeoModel EdgeModel FaceModel GeoSpec EdgeSpecR FaceSpec FaceSpecR FaceCut FaceFlip FaceCover.
Import ListNotations.
Open Scope R_scope.

Section FlipR.
Variable pts : list pt.
Notation p_ i := (at_ pts i).

Lemma isDelaunay_R a b c d : isDelaunay pts a b c d = true <-> incircle (p_ a) (p_ b) (p_ c) (p_ d) < eps.
Proof.
  unfold isDelaunay. destruct (p_ a) as [ax ay az], (p_ b) as [bx by_ bz], (p_ c) as [cx cy cz], (p_ d) as [dx dy dz].
  change (@nltb Rnum) with Rltb. rewrite Rltb_true. apply iff_refl.
Qed.
Lemma isDelaunay_F a b c d : isDelaunay pts a b c d = false <-> eps <= incircle (p_ a) (p_ b) (p_ c) (p_ d).
Proof.
  pose proof (isDelaunay_R a b c d) as H. destruct (isDelaunay pts a b c d); split; intros K; try discriminate; try reflexivity.
  - pose proof (proj1 H eq_refl). lra.
  - apply Rnot_lt_le. intros C. apply H in C. discriminate.
Qed.
Lemma incircle_apex a b d : incircle a b d d = 0. Proof. unfold incircle, Rsqr. ring. Qed.
Lemma incircle_sym a b c d : incircle b a d c = incircle a b c d. Proof. unfold incircle, Rsqr. ring. Qed.
Lemma incircle_flip a b c d : incircle d c a b = - incircle a b c d. Proof. unfold incircle, Rsqr. ring. Qed.
Lemma same_apex_R a b d : isDelaunay pts a b d d = true.
Proof. apply isDelaunay_R. rewrite incircle_apex. unfold eps. lra. Qed.

(** ** orientation *)
Lemma flip_orient a b c d : 0 < incircle a b c d -> 0 <= side a b c -> 0 <= side b a d -> 0 <= side a d c /\ 0 <= side b c d.
Proof.
  assert (G : forall a b c d, 0 < incircle a b c d -> 0 <= side a b c -> 0 <= side b a d -> 0 <= side a d c).
  { clear. intros a b c d I A D. apply Rnot_lt_le. intros A1.
    set (A' := side a b c) in *. set (D' := side b a d) in *. set (s1 := side a d c) in *. set (s2 := side b c d).
    set (da := (X a - X d)² + (Y a - Y d)²). set (db := (X b - X d)² + (Y b - Y d)²). set (dc := (X c - X d)² + (Y c - Y d)²).
    set (ab := (X a - X b)² + (Y a - Y b)²).
    assert (S : s1 + s2 = A' + D') by (unfold s1, s2, A', D', side; ring).
    assert (E1 : incircle a b c d = da * s2 + db * s1 - dc * D') by (unfold incircle, da, db, dc, s1, s2, D', side, Rsqr; ring).
    assert (E2 : incircle a b c d * D' = s1 * s2 * ab - A' * (s2 * da + s1 * db)) by (unfold incircle, da, db, ab, s1, s2, A', D', side, Rsqr; ring).
    assert (E3 : D' * D' * dc = s2 * s2 * da + s1 * s1 * db + 2 * (s1 * s2) * ((X a - X d) * (X b - X d) + (Y a - Y d) * (Y b - Y d))).
    { unfold dc, da, db, s1, s2, D', side, Rsqr. ring. }
    assert (Q1 : 0 <= da) by (unfold da; pose proof (Rle_0_sqr (X a - X d)); pose proof (Rle_0_sqr (Y a - Y d)); lra).
    assert (Q2 : 0 <= db) by (unfold db; pose proof (Rle_0_sqr (X b - X d)); pose proof (Rle_0_sqr (Y b - Y d)); lra).
    assert (Q3 : 0 <= dc) by (unfold dc; pose proof (Rle_0_sqr (X c - X d)); pose proof (Rle_0_sqr (Y c - Y d)); lra).
    assert (Q4 : 0 <= ab) by (unfold ab; pose proof (Rle_0_sqr (X a - X b)); pose proof (Rle_0_sqr (Y a - Y b)); lra).
    assert (S2 : 0 < s2) by lra.
    assert (K : 0 < s2 * da + s1 * db) by nra.
    destruct (Req_dec D' 0) as [D0|D0].
    - (* s2 da + s1 db = 0 as vectors *)
      assert (V1 : s2 * (X a - X d) + s1 * (X b - X d) = 0).
      { replace (s2 * (X a - X d) + s1 * (X b - X d)) with (D' * (X c - X d)) by (unfold s1, s2, D', side; ring). rewrite D0; ring. }
      assert (V2 : s2 * (Y a - Y d) + s1 * (Y b - Y d) = 0).
      { replace (s2 * (Y a - Y d) + s1 * (Y b - Y d)) with (D' * (Y c - Y d)) by (unfold s1, s2, D', side; ring). rewrite D0; ring. }
      assert (V3 : s2 * s2 * da = s1 * s1 * db).
      { unfold da, db, Rsqr. assert (T1 : s2 * (X a - X d) = - (s1 * (X b - X d))) by lra. assert (T2 : s2 * (Y a - Y d) = - (s1 * (Y b - Y d))) by lra.
        replace (s2 * s2 * ((X a - X d) * (X a - X d) + (Y a - Y d) * (Y a - Y d))) with ((s2 * (X a - X d)) * (s2 * (X a - X d)) + (s2 * (Y a - Y d)) * (s2 * (Y a - Y d))) by ring.
        rewrite T1, T2. ring. }
      (* s2 * (s2 da + s1 db) = s1 (s1 + s2) db <= 0 *)
      assert (V4 : s2 * (s2 * da + s1 * db) = s1 * (s1 + s2) * db) by (replace (s2 * (s2 * da + s1 * db)) with (s2 * s2 * da + s1 * s2 * db) by ring; rewrite V3; ring).
      assert (0 < s2 * (s2 * da + s1 * db)) by nra. assert (0 <= (s1 + s2) * db) by nra. nra.
    - assert (DP : 0 < D') by lra. assert (0 < incircle a b c d * D') by nra. rewrite E2 in H.
      assert (s1 * s2 <= 0) by nra. assert (s1 * s2 * ab <= 0) by nra. nra. }
  intros I A D. split; [eapply G; eauto|]. apply (G b a d c); [rewrite incircle_sym; exact I|exact D|exact A].
Qed.
Lemma flip_orient_strict a b c d : 0 < incircle a b c d -> 0 < side a b c -> 0 < side b a d -> 0 < side a d c /\ 0 < side b c d.
Proof.
  intros I A D. destruct (flip_orient a b c d I ltac:(lra) ltac:(lra)) as [H1 H2].
  assert (E2 : incircle a b c d * side b a d = side a d c * side b c d * ((X a - X b)² + (Y a - Y b)²) - side a b c * (side b c d * ((X a - X d)² + (Y a - Y d)²) + side a d c * ((X b - X d)² + (Y b - Y d)²)))
    by (unfold incircle, side, Rsqr; ring).
  assert (Q1 : 0 <= (X a - X d)² + (Y a - Y d)²) by (pose proof (Rle_0_sqr (X a - X d)); pose proof (Rle_0_sqr (Y a - Y d)); lra).
  assert (Q2 : 0 <= (X b - X d)² + (Y b - Y d)²) by (pose proof (Rle_0_sqr (X b - X d)); pose proof (Rle_0_sqr (Y b - Y d)); lra).
  assert (K : 0 < incircle a b c d * side b a d) by (apply Rmult_lt_0_compat; assumption).
  set (da := (X a - X d)² + (Y a - Y d)²) in *. set (db := (X b - X d)² + (Y b - Y d)²) in *. set (ab := (X a - X b)² + (Y a - Y b)²) in *.
  set (s1 := side a d c) in *. set (s2 := side b c d) in *. set (s := side a b c) in *.
  assert (M : 0 <= s2 * da + s1 * db) by nra.
  split; apply Rnot_le_lt; intros C.
  - assert (s1 = 0) by lra. rewrite H in *. rewrite E2 in K. nra.
  - assert (s2 = 0) by lra. rewrite H in *. rewrite E2 in K. nra.
Qed.

(** ** potential: volume under the lifted triangles *)
Definition nrm (p : pt) : R := (X p)² + (Y p)².
Definition vol (a b c : pt) : R := side a b c * (nrm a + nrm b + nrm c).
Lemma vol_flip a b c d : vol a b c + vol b a d - vol a d c - vol b c d = incircle a b c d.
Proof. unfold vol, incircle, nrm, side, Rsqr. ring. Qed.
Lemma vol_rot a b c : vol b c a = vol a b c. Proof. unfold vol, nrm, side, Rsqr. ring. Qed.
Definition volt (t : itri) : R := let '(a, b, c) := t in vol (p_ a) (p_ b) (p_ c).
Definition pot (ts : list itri) : R := fold_right (fun t s => volt t + s) 0 ts.

(* a triangle is determined up to rotation by its sides *)
Lemma sides_rot3 t a b c : a <> b -> b <> c -> a <> c -> Permutation (tri_sides t) [(a, b); (b, c); (c, a)] ->
  t = (a, b, c) \/ t = (b, c, a) \/ t = (c, a, b).
Proof.
  intros N1 N2 N3 H. destruct t as [[x y] z].
  pose proof (Permutation_in _ H (or_introl eq_refl)) as I1.
  pose proof (Permutation_in _ H (or_intror (or_introl eq_refl))) as I2. cbn in I1, I2.
  destruct I1 as [I|[I|[I|[]]]]; destruct I2 as [J|[J|[J|[]]]]; assert (K1 := f_equal fst I); assert (K2 := f_equal snd I); assert (K3 := f_equal fst J); assert (K4 := f_equal snd J); cbn in K1, K2, K3, K4; subst; try congruence; auto.
Qed.
Lemma volt_sides (t : itri) a b c : a <> b -> b <> c -> a <> c -> Permutation (tri_sides t) [(a, b); (b, c); (c, a)] -> volt t = vol (p_ a) (p_ b) (p_ c).
Proof.
  intros N1 N2 N3 H. destruct (sides_rot3 t a b c N1 N2 N3 H) as [->|[->| ->]]; cbn; [reflexivity|rewrite vol_rot; reflexivity|rewrite <- vol_rot; reflexivity].
Qed.
Lemma area_sides (t : itri) a b c : a <> b -> b <> c -> a <> c -> Permutation (tri_sides t) [(a, b); (b, c); (c, a)] -> area2 pts t = side (p_ a) (p_ b) (p_ c).
Proof.
  intros N1 N2 N3 H. destruct (sides_rot3 t a b c N1 N2 N3 H) as [->|[->| ->]]; cbn; unfold side; ring.
Qed.
Lemma pot_upd (ts : list itri) i (t : itri) : (i < length ts)%nat -> pot (upd ts i t) = pot ts - volt (nth i ts NT) + volt t.
Proof.
  revert i; induction ts as [|u ts IH]; intros i L; [cbn in L; lia|]. destruct i as [|i]; cbn [upd nth]; unfold pot in *; cbn [fold_right]; [lra|].
  rewrite IH by (cbn in L; lia). lra.
Qed.

(* a flip decreases the potential by the circle determinant *)
Lemma effect_pot st k st' : sound st -> effect pts k st st' -> (ftris st' = ftris st /\ (length (frem st') <= length (frem st))%nat /\ (In k (frem st) -> (length (frem st') < length (frem st))%nat)) \/
  (pot (ftris st') <= pot (ftris st) - eps /\ (length (frem st') <= length (frem st) + 4)%nat).
Proof.
  assert (RL : forall l, (length (sremove k l) <= length l)%nat /\ (In k l -> (length (sremove k l) < length l)%nat)).
  { intros l. unfold sremove. induction l as [|e l [IH1 IH2]]; [cbn; split; [lia|tauto]|]. cbn [filter length In].
    destruct (keqb_spec k e) as [<-|NE]; cbn; [split; intros; lia|]. split; [lia|]. intros [E|E]; [congruence|]. specialize (IH2 E). lia. }
  assert (SL : forall e l, (length (sadd e l) <= S (length l))%nat).
  { intros e l. unfold sadd. destruct (existsb _ _); [lia|]. rewrite app_length. cbn. lia. }
  intros [DT LS] E. destruct E as [E1 E2 E3 _|a b c d i0 i1 t0 t1 -> L0 L1 NE B0 B1 N1 N2 N3 N4 N5 P0 P1 DE Q1 Q2 Q3 Q4 E1 E2 E3].
  - left. rewrite E1, E3. split; [reflexivity|]. apply RL.
  - right. assert (CD : c <> d) by (intros <-; rewrite same_apex_R in DE; discriminate). pose proof (not_eq_sym N1); pose proof (not_eq_sym CD); pose proof (not_eq_sym N5); pose proof (not_eq_sym N4).
    apply isDelaunay_F in DE. split.
    + rewrite E1, pot_upd by (rewrite upd_length; exact B1). rewrite pot_upd by exact B0.
      rewrite nth_upd, (proj2 (Nat.eqb_neq i1 i0)) by auto. cbn [andb].
      rewrite (volt_sides (nth i0 (ftris st) NT) a b c), (volt_sides (nth i1 (ftris st) NT) b a d), (volt_sides t0 a d c), (volt_sides t1 b c d) by auto.
      rewrite <- (vol_flip (p_ a) (p_ b) (p_ c) (p_ d)) in DE. lra.
    + rewrite E3. pose proof (RL (frem st)) as [R1 _].
      pose proof (SL (b, c) (sadd (d, b) (sadd (a, d) (sadd (c, a) (sremove (a, b) (frem st)))))).
      pose proof (SL (d, b) (sadd (a, d) (sadd (c, a) (sremove (a, b) (frem st))))).
      pose proof (SL (a, d) (sadd (c, a) (sremove (a, b) (frem st)))). pose proof (SL (c, a) (sremove (a, b) (frem st))). lia.
Qed.
(* the potential is bounded below *)
Lemma pts_bound : exists M, 0 <= M /\ forall i, Rabs (X (p_ i)) <= M /\ Rabs (Y (p_ i)) <= M.
Proof.
  unfold at_. induction pts as [|p l (M & M0 & HM)].
  - exists 0. split; [lra|]. intros i. destruct i; cbn; rewrite Rabs_R0; lra.
  - exists (Rmax M (Rmax (Rabs (X p)) (Rabs (Y p)))). split; [pose proof (Rmax_l M (Rmax (Rabs (X p)) (Rabs (Y p)))); lra|].
    intros [|i]; cbn [nth].
    + pose proof (Rmax_r M (Rmax (Rabs (X p)) (Rabs (Y p)))). pose proof (Rmax_l (Rabs (X p)) (Rabs (Y p))). pose proof (Rmax_r (Rabs (X p)) (Rabs (Y p))). lra.
    + destruct (HM i). pose proof (Rmax_l M (Rmax (Rabs (X p)) (Rabs (Y p)))). lra.
Qed.
Lemma vol_bound : exists B, 0 <= B /\ forall t, - B <= volt t.
Proof.
  destruct pts_bound as (M & M0 & HM).
  exists ((2 * M * (2 * M) + 2 * M * (2 * M)) * (6 * (M * M))). split; [nra|]. intros [[a b] c]. cbn [volt]. unfold vol.
  assert (AB : forall i, - M <= X (p_ i) <= M /\ - M <= Y (p_ i) <= M).
  { intros i. destruct (HM i) as [H1 H2]. pose proof (Rle_abs (X (p_ i))) as T1; pose proof (Rle_abs (- X (p_ i))) as T2; pose proof (Rle_abs (Y (p_ i))) as T3; pose proof (Rle_abs (- Y (p_ i))) as T4. rewrite Rabs_Ropp in T2, T4. lra. }
  assert (NB : forall i, 0 <= nrm (p_ i) <= 2 * (M * M)).
  { intros i. destruct (AB i) as [H1 H2]. unfold nrm. split; [pose proof (Rle_0_sqr (X (p_ i))); pose proof (Rle_0_sqr (Y (p_ i))); lra|].
    assert ((X (p_ i))² <= M * M) by (unfold Rsqr; nra). assert ((Y (p_ i))² <= M * M) by (unfold Rsqr; nra). lra. }
  assert (PB : forall u v, - (2 * M) <= u <= 2 * M -> - (2 * M) <= v <= 2 * M -> - (2 * M * (2 * M)) <= u * v <= 2 * M * (2 * M)).
  { intros u v Hu Hv. split; nra. }
  assert (SB : - (2 * M * (2 * M) + 2 * M * (2 * M)) <= side (p_ a) (p_ b) (p_ c)).
  { unfold side. destruct (AB a), (AB b), (AB c).
    pose proof (PB (X (p_ b) - X (p_ a)) (Y (p_ c) - Y (p_ a)) ltac:(lra) ltac:(lra)).
    pose proof (PB (Y (p_ b) - Y (p_ a)) (X (p_ c) - X (p_ a)) ltac:(lra) ltac:(lra)). lra. }
  set (S := 2 * M * (2 * M) + 2 * M * (2 * M)) in *. assert (S0 : 0 <= S) by (unfold S; nra).
  destruct (NB a), (NB b), (NB c). set (n := nrm (p_ a) + nrm (p_ b) + nrm (p_ c)). assert (Hn : 0 <= n <= 6 * (M * M)) by (unfold n; lra).
  set (s := side (p_ a) (p_ b) (p_ c)) in *. nra.
Qed.
Lemma pot_bound ts B : (forall t, - B <= volt t) -> - (INR (length ts) * B) <= pot ts.
Proof.
  intros H. induction ts as [|t ts IH]; [unfold pot; cbn; lra|]. unfold pot in *. cbn [fold_right]. change (length (t :: ts)) with (S (length ts)). rewrite S_INR. specialize (H t). lra.
Qed.
Lemma flipLoop_terminates B : (forall t, - B <= volt t) -> forall fuel f sched st, sound st ->
  pot (ftris st) + INR (length (ftris st)) * B < eps * INR f -> (5 * f + length (frem st) <= fuel)%nat ->
  exists r, flipLoop fuel pts sched st = Ok r.
Proof.
  intros HB. induction fuel as [|fuel IH]; intros f sched st V HP HF; cbn [flipLoop]; (destruct (frem st) as [|k0 rem] eqn:E; [eexists; reflexivity|]).
  - cbn in HF. lia.
  - set (k := nth (sched fuel mod length (k0 :: rem)) (k0 :: rem) k0) in *.
    destruct (flipStep_effect pts st k V) as (st' & ES & EF). rewrite ES. cbn [bind].
    assert (V' : sound st') by (eapply flip_sound; eauto; intros; apply same_apex_R).
    assert (CT : length (ftris st') = length (ftris st)) by (eapply effect_count; eauto).
    destruct (effect_pot st k st' V EF) as [(K1 & K2 & K3)|(K1 & K2)].
    + apply (IH f); [exact V'|rewrite K1; exact HP|]. assert (I : In k (frem st)) by (rewrite E; apply nth_In, Nat.mod_upper_bound; discriminate).
      specialize (K3 I). rewrite E in *. cbn [length] in *. lia.
    + pose proof (pot_bound (ftris st') B HB) as PB. rewrite CT in PB.
      destruct f as [|f]; [exfalso; cbn [INR] in HP; unfold eps in *; lra|].
      apply (IH f); [exact V'| |].
      * rewrite CT. rewrite S_INR in HP. unfold eps in *. lra.
      * rewrite E in *. cbn [length] in *. lia.
Qed.
Lemma nat_above r : exists n, r < INR n.
Proof.
  exists (Z.to_nat (up r)). destruct (archimed r) as [A _]. destruct (Z_le_gt_dec 0 (up r)) as [L|L].
  - rewrite INR_IZR_INZ, Z2Nat.id by exact L. lra.
  - assert (IZR (up r) <= IZR 0) by (apply IZR_le; lia). pose proof (pos_INR (Z.to_nat (up r))). lra.
Qed.
Theorem flip_terminates ts : (forall t, In t ts -> distinct3 t) ->
  exists K, forall fuel sched, (K <= fuel)%nat -> exists r, flipTriangles fuel sched pts ts = Ok r.
Proof.
  intros D. destruct vol_bound as (B & B0 & HB).
  destruct (nat_above ((pot ts + INR (length ts) * B) / eps)) as (f & Hf).
  exists (5 * f + length (frem (flipInit ts)))%nat. intros fuel sched L. unfold flipTriangles.
  apply (flipLoop_terminates B HB fuel f); [apply flipInit_sound, D| |exact L]. cbn [ftris flipInit].
  apply (Rmult_lt_compat_l eps) in Hf; [|unfold eps; lra]. replace (eps * ((pot ts + INR (length ts) * B) / eps)) with (pot ts + INR (length ts) * B) in Hf by (unfold eps; field). exact Hf.
Qed.

(** ** orientation along a run *)
Lemma upd_nth_In {A} (l : list A) i x : (i < length l)%nat -> In x (upd l i x).
Proof. revert i; induction l as [|y l IH]; intros [|i] L; cbn in *; try lia; auto. right. apply IH. lia. Qed.
Lemma effect_ccw st k st' : effect pts k st st' -> (forall t, In t (ftris st) -> 0 <= area2 pts t) -> forall t, In t (ftris st') -> 0 <= area2 pts t.
Proof.
  intros E H. destruct E as [E1 E2 E3 _|a b c d i0 i1 t0 t1 -> L0 L1 NE B0 B1 N1 N2 N3 N4 N5 P0 P1 DE Q1 Q2 Q3 Q4 E1 E2 E3].
  - rewrite E1. exact H.
  - assert (CD : c <> d) by (intros <-; rewrite same_apex_R in DE; discriminate). pose proof (not_eq_sym N1); pose proof (not_eq_sym CD); pose proof (not_eq_sym N5); pose proof (not_eq_sym N4). apply isDelaunay_F in DE.
    pose proof (H _ (nth_In _ NT B0)) as A0. rewrite (area_sides _ a b c) in A0 by auto.
    pose proof (H _ (nth_In _ NT B1)) as A1. rewrite (area_sides _ b a d) in A1 by auto.
    destruct (flip_orient (p_ a) (p_ b) (p_ c) (p_ d) ltac:(unfold eps in DE; lra) A0 A1) as [R0 R1].
    intros t Ht. rewrite E1 in Ht. apply upd_In in Ht. destruct Ht as [->|Ht]; [rewrite (area_sides t1 b c d); auto|].
    apply upd_In in Ht. destruct Ht as [->|Ht]; [rewrite (area_sides t0 a d c); auto|]. apply H, Ht.
Qed.
Lemma effect_ccw_strict st k st' : effect pts k st st' -> (forall t, In t (ftris st) -> 0 < area2 pts t) -> forall t, In t (ftris st') -> 0 < area2 pts t.
Proof.
  intros E H. destruct E as [E1 E2 E3 _|a b c d i0 i1 t0 t1 -> L0 L1 NE B0 B1 N1 N2 N3 N4 N5 P0 P1 DE Q1 Q2 Q3 Q4 E1 E2 E3].
  - rewrite E1. exact H.
  - assert (CD : c <> d) by (intros <-; rewrite same_apex_R in DE; discriminate). pose proof (not_eq_sym N1); pose proof (not_eq_sym CD); pose proof (not_eq_sym N5); pose proof (not_eq_sym N4). apply isDelaunay_F in DE.
    pose proof (H _ (nth_In _ NT B0)) as A0. rewrite (area_sides _ a b c) in A0 by auto.
    pose proof (H _ (nth_In _ NT B1)) as A1. rewrite (area_sides _ b a d) in A1 by auto.
    destruct (flip_orient_strict (p_ a) (p_ b) (p_ c) (p_ d) ltac:(unfold eps in DE; lra) A0 A1) as [R0 R1].
    intros t Ht. rewrite E1 in Ht. apply upd_In in Ht. destruct Ht as [->|Ht]; [rewrite (area_sides t1 b c d); auto|].
    apply upd_In in Ht. destruct Ht as [->|Ht]; [rewrite (area_sides t0 a d c); auto|]. apply H, Ht.
Qed.
(* and the winding number of the mesh *)
Lemma effect_winding st k st' x : effect pts k st st' -> winding pts (mesh_sides (ftris st')) x = winding pts (mesh_sides (ftris st)) x.
Proof.
  intros E. destruct E as [E1 E2 E3 _|a b c d i0 i1 t0 t1 -> L0 L1 NE B0 B1 N1 N2 N3 N4 N5 P0 P1 DE Q1 Q2 Q3 Q4 E1 E2 E3].
  - rewrite E1. reflexivity.
  - pose proof (flip_perm st a b c d i0 i1 t0 t1 NE B0 B1 P0 P1 Q1 Q3) as PP. apply (winding_perm pts _ _ x) in PP.
    rewrite !winding_app, !winding_both in PP. rewrite E1. lia.
Qed.
End FlipR.
