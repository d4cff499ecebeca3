(** The grooved outline of the knob as it is drawn. *)
From Coq Require Import Reals Lra Psatz ZArith List Bool Arith Lia.
From Verif Require Import Num GeoModel EdgeModel GeoSpec GeoMat GeoRigid GeoCirc ArcModel ArcSpec ArcProof ArcCorner ArcShape MeshModel BossSpec BossProof PartProof KnobModel KnobSpec KnobGroove KnobTurn.
Import ListNotations.
Open Scope R_scope.

Section Outline.
Variable q : @quality Rnum.
Variable c : @knob_cfg Rnum.
Let Rk : R := outerDiameter c / 2.
Let gr : R := grooveDiameter c / 2.
Let ro : R := grooveCornerRadius c.
Let g : R := Rk + gr - grooveInset c.
Let n : nat := Z.to_nat (grooveCount c).
Let span : R := 2 * PI / INR n.
Let s0 : R := PI / 2 - PI / INR n.
Hypothesis Count : (0 < grooveCount c)%Z.
Hypothesis R0 : eps <= Rk.
Hypothesis Gr0 : eps <= gr.
Hypothesis Ro0 : ro = 0 \/ eps <= ro.
Hypothesis Ro1 : ro < Rk.
Definition turned_copy (s : list pt) (i : nat) : list pt := etransformed s (mrotZ mid (span * INR i) None).
Definition copies (half : list pt) : list pt :=
  let s := half ++ rev (emirX half) in s ++ flat_map (turned_copy s) (seq 1 (n - 1)).
Lemma n0 : 0 < INR n. Proof. apply lt_0_INR. unfold n. lia. Qed.
Lemma sketch_form l : grooveSketch2D q c = Ok l ->
  grooveInset c < outerChamfer c /\ Rk * Rk + gr * gr < g * g /\ 0 < g - gr /\
  exists (cc : pt) (a1 a2 a3 : list pt), 0 < X cc /\ X cc * X cc + Y cc * Y cc = (Rk - ro) * (Rk - ro) /\ X cc * X cc + (g - Y cc) * (g - Y cc) = (gr + ro) * (gr + ro) /\ Z cc = 0 /\
    (Rk - ro) * sin (vangle2D cc) = ((Rk - ro) * (Rk - ro) - (gr + ro) * (gr + ro) + g * g) / (2 * g) /\
    @arc2D Rnum q Rk s0 (vangle2D cc - s0) vzero = Ok a1 /\
    @arc2D Rnum q ro (vangle2D cc) (vangle2D (P (- X cc) (g - Y cc) 0) - vangle2D cc) cc = Ok a2 /\
    @arc2D Rnum q gr (vangle2D (P (X cc) (Y cc - g) 0)) (- (PI / 2) - vangle2D (P (X cc) (Y cc - g) 0)) (P 0 g 0) = Ok a3 /\
    l = collapsed (esnapped (copies (a1 ++ a2 ++ a3))) (1 / 1000).
Proof.
  intros H. pose proof eps_pos as EP. unfold grooveSketch2D in H. cbv zeta in H.
  change (half (outerDiameter c)) with Rk in H. change (half (grooveDiameter c)) with gr in H. change (grooveCornerRadius c) with ro in H.
  destruct (grooveCount c <=? 0)%Z eqn:CC; [apply Z.leb_le in CC; lia|]. clear CC.
  apply bind_ok in H. destruct H as (hy & EH & H). apply psqrt_ok in EH. destruct EH as [HY0 EH].
  destruct (nleb (Num := Rnum) (nsub (Num := Rnum) gr (nsub (Num := Rnum) hy Rk)) (grooveInset c)) eqn:C1; [discriminate|]. destruct (nleb (Num := Rnum) (outerChamfer c) (grooveInset c)) eqn:C2; [discriminate|].
  change (Rleb (gr - (hy - Rk)) (grooveInset c) = false) in C1. change (Rleb (outerChamfer c) (grooveInset c) = false) in C2.
  assert (L1 : grooveInset c < gr - (hy - Rk)). { unfold Rleb in C1. destruct (Rle_dec (gr - (hy - Rk)) (grooveInset c)); [discriminate|]. rn. lra. }
  assert (L2 : grooveInset c < outerChamfer c). { unfold Rleb in C2. destruct (Rle_dec (outerChamfer c) (grooveInset c)); [discriminate|]. rn. lra. }
  clear C1 C2. split; [exact L2|].
  assert (HS : hy * hy = Rk * Rk + gr * gr) by (rewrite EH; apply sqrt_sqrt; exact HY0). assert (HP : 0 <= hy) by (rewrite EH; apply sqrt_pos). clear EH HY0.
  assert (HG : hy < g) by (unfold g; lra). assert (GP : 0 < g) by lra.
  assert (TG : Rk * Rk + gr * gr < g * g) by (rewrite <- HS; apply Rmult_le_0_lt_compat; lra). split; [exact TG|].
  assert (GG : 0 < g - gr). { assert (gr * gr < g * g) by (pose proof (Rle_0_sqr Rk) as Q; unfold Rsqr in Q; lra). destruct (Rlt_dec gr g) as [L|L]; [lra|]. exfalso. assert (g * g <= gr * gr) by (apply Rmult_le_compat; lra). lra. }
  split; [exact GG|].
  apply bind_ok in H. destruct H as (is & EI & H). apply bind_ok in H. destruct H as (cc & EC & H). cbv zeta in H.
  destruct (nth_error is 1) as [cc'|] eqn:NE; [|discriminate]. apply Ok_inj in EC. subst cc'.
  assert (EI' : @cintersectCircle2D Rnum (mkCircle vzero (Rk - ro)) (mkCircle (P 0 g 0) (gr + ro)) = Ok is) by exact EI. clear EI.
  destruct (right_crossing (Rk - ro) (gr + ro) g is cc GP EI' NE) as (X2 & XP & YM & ZC).
  apply bind_ok in H. destruct H as (a1 & E1 & H). apply bind_ok in H. destruct H as (a2 & E2 & H). apply bind_ok in H. destruct H as (a3 & E3 & H). cbv zeta in H.
  assert (M2 : Y cc * (2 * g) = (Rk - ro) * (Rk - ro) - (gr + ro) * (gr + ro) + g * g) by (rewrite YM; field; lra).
  assert (CA : X cc * X cc + Y cc * Y cc = (Rk - ro) * (Rk - ro)) by (rewrite X2, YM; ring).
  assert (CB : X cc * X cc + (g - Y cc) * (g - Y cc) = (gr + ro) * (gr + ro)).
  { transitivity (X cc * X cc + Y cc * Y cc - Y cc * (2 * g) + g * g); [ring|]. rewrite CA, M2. ring. }
  pose proof n0 as N0. assert (NN : IZR (grooveCount c) = INR n) by (unfold n; rewrite INR_IZR_INZ, Z2Nat.id by lia; reflexivity).
  exists cc, a1, a2, a3. split; [exact XP|]. split; [exact CA|]. split; [exact CB|]. split; [exact ZC|]. split.
  { destruct (polar cc (Rk - ro) ltac:(lra) CA) as (_ & PY). rewrite <- PY. exact YM. }
  assert (S0 : nsub (Num := Rnum) (ndiv (Num := Rnum) tau (nZ 4)) (half (ndiv (Num := Rnum) tau (nZ (grooveCount c)))) = s0).
  { change (2 * PI / 4 - 2 * PI / IZR (grooveCount c) / 2 = s0). rewrite NN. unfold s0. field. lra. }
  rewrite S0 in E1. split; [|split; [|split]].
  - transitivity (@arc2D Rnum q Rk s0 (- (s0 - vangle2D cc)) vzero); [f_equal; rn; ring|exact E1].
  - transitivity (@arc2D Rnum q ro (vangle2D cc) (vangle2D (vsub (P 0 g 0) cc) - vangle2D cc) cc); [|exact E2].
    assert (EV : P (- X cc) (g - Y cc) 0 = vsub (P 0 g 0) cc) by (apply pt_ext; [change (- X cc = 0 - X cc); ring|reflexivity|change (0 = 0 - Z cc); rewrite ZC; ring]). rewrite EV. reflexivity.
  - transitivity (@arc2D Rnum q gr (vangle2D (vsub cc (P 0 g 0))) (- (2 * PI / 4 + vangle2D (vsub cc (P 0 g 0)))) (P 0 g 0)); [|exact E3].
    assert (EV : P (X cc) (Y cc - g) 0 = vsub cc (P 0 g 0)) by (apply pt_ext; [change (X cc = X cc - 0); ring|reflexivity|change (0 = Z cc - 0); rewrite ZC; ring]). rewrite EV. f_equal. rn. field.
  - apply Ok_inj in H. rewrite <- H. unfold copies. cbv zeta. unfold microns. f_equal. f_equal. f_equal. apply flat_map_ext. intros i. unfold turned_copy, etransformed. apply map_ext. intros p. f_equal. f_equal.
    change (2 * PI / IZR (grooveCount c) * IZR (Z.of_nat i) = span * INR i). rewrite NN, (INR_IZR_INZ i). reflexivity.
Qed.

(* the arcs lie on their circles *)
Lemma s0_range : - (PI / 2) <= s0 < PI / 2.
Proof.
  pose proof PI_RGT_0 as PP. pose proof n0 as N0. assert (1 <= INR n) by (change 1 with (INR 1); apply le_INR; unfold n; lia).
  assert (0 < PI / INR n) by (apply Rdiv_lt_0_compat; lra). assert (PI / INR n <= PI) by (apply (Rmult_le_reg_r (INR n)); [exact N0|]; unfold Rdiv; rewrite Rmult_assoc, Rinv_l by lra; nra). unfold s0. lra.
Qed.
Section Half.
Variable cc : pt.
Variables a1 a2 a3 : list pt.
Hypothesis TG : Rk * Rk + gr * gr < g * g.
Hypothesis GG : 0 < g - gr.
Hypothesis CX : 0 < X cc.
Hypothesis CA : X cc * X cc + Y cc * Y cc = (Rk - ro) * (Rk - ro).
Hypothesis CB : X cc * X cc + (g - Y cc) * (g - Y cc) = (gr + ro) * (gr + ro).
Hypothesis ZC : Z cc = 0.
Hypothesis E1 : @arc2D Rnum q Rk s0 (vangle2D cc - s0) vzero = Ok a1.
Hypothesis E2 : @arc2D Rnum q ro (vangle2D cc) (vangle2D (P (- X cc) (g - Y cc) 0) - vangle2D cc) cc = Ok a2.
Hypothesis E3 : @arc2D Rnum q gr (vangle2D (P (X cc) (Y cc - g) 0)) (- (PI / 2) - vangle2D (P (X cc) (Y cc - g) 0)) (P 0 g 0) = Ok a3.
Lemma rk0 : 0 < Rk. Proof. pose proof eps_pos. lra. Qed.
Lemma gr0 : 0 < gr. Proof. pose proof eps_pos. lra. Qed.
Lemma g0 : 0 < g. Proof. pose proof gr0. lra. Qed.
Lemma ro0 : 0 <= ro < Rk. Proof. pose proof eps_pos. destruct Ro0; lra. Qed.
Definition T0 : - (PI / 2) < vangle2D cc < PI / 2 := t0_range cc CX.
Definition U1 := u1_range Rk ro gr (grooveInset c) ro0 gr0 TG g0 cc CX CA.
Definition GS := gs_range Rk ro gr (grooveInset c) ro0 gr0 TG g0 cc CX CA.
Lemma half_points p : In p (a1 ++ a2 ++ a3) -> (X p * X p + Y p * Y p = Rk * Rk \/ on_corner Rk ro gr (grooveInset c) cc p \/ on_groove Rk gr (grooveInset c) cc p) /\ Z p = 0.
Proof.
  pose proof T0 as T. pose proof U1 as U. pose proof GS as G. pose proof s0_range as S. fold g in U, G. intros I. apply in_app_or in I. destruct I as [I|I]; [|apply in_app_or in I; destruct I as [I|I]].
  - assert (SB : Rabs (vangle2D cc - s0) <= PI) by (apply Rabs_le; lra). destruct (arc_between q Rk s0 (vangle2D cc - s0) vzero a1 (or_intror R0) SB E1 eq_refl p I) as (t & _ & ->). split; [left|reflexivity].
    change ((0 + Rk * cos t) * (0 + Rk * cos t) + (0 + Rk * sin t) * (0 + Rk * sin t) = Rk * Rk). pose proof (sin2_cos2 t) as Q. unfold Rsqr in Q. transitivity (Rk * Rk * (sin t * sin t + cos t * cos t)); [ring|rewrite Q; ring].
  - pose proof (corner_turn Rk ro gr (grooveInset c) ro0 gr0 TG g0 cc CX CA CB) as TT. fold g in TT.
    assert (SB : Rabs (vangle2D (P (- X cc) (g - Y cc) 0) - vangle2D cc) <= PI) by (apply Rabs_le; lra). destruct (arc_between q ro _ _ cc a2 Ro0 SB E2 ZC p I) as (t & B & ->). split; [right; left|reflexivity].
    exists t. split; [unfold between in B; fold g; lra|split; reflexivity].
  - assert (SB : Rabs (- (PI / 2) - vangle2D (P (X cc) (Y cc - g) 0)) <= PI) by (apply Rabs_le; lra). destruct (arc_between q gr _ _ (P 0 g 0) a3 (or_intror Gr0) SB E3 eq_refl p I) as (t & B & ->). split; [right; right|reflexivity].
    exists t. split; [unfold between in B; fold g; lra|]. split; [change (0 + gr * cos t = gr * cos t); ring|reflexivity].
Qed.
Lemma half_radii p : In p (a1 ++ a2 ++ a3) -> (g - gr) * (g - gr) <= X p * X p + Y p * Y p <= Rk * Rk.
Proof.
  intros I. destruct (half_points p I) as ([E|O] & _).
  - rewrite E. pose proof ro0. pose proof rk0. split; [|lra]. pose proof (groove_radii Rk ro gr (grooveInset c) ro0 gr0 TG g0 cc CX CA CB) as GRD. fold g in GRD.
    pose proof GS as G. fold g in G. destruct (GRD (P (gr * cos (vangle2D (P (X cc) (Y cc - g) 0))) (g + gr * sin (vangle2D (P (X cc) (Y cc - g) 0))) 0)) as (A & B); [|lra].
    right. eexists. split; [|split; reflexivity]. fold g. lra.
  - apply (groove_radii Rk ro gr (grooveInset c) ro0 gr0 TG g0 cc CX CA CB). exact O.
Qed.

Variables h amax : R.
Hypothesis QQ : q = @mkQuality Rnum h amax.
Hypothesis H0 : 0 < h.
Hypothesis A0 : 0 < amax < PI.
(* the grooves leave room for each other *)
Hypothesis Room : s0 <= vangle2D cc.
Let t0 : R := vangle2D cc.
Let u1 : R := vangle2D (P (- X cc) (g - Y cc) 0).
Let gs : R := vangle2D (P (X cc) (Y cc - g) 0).
Lemma step_small sp m : (1 <= m)%nat -> 0 < sp -> sp <= INR m * amax -> 0 < sp / INR m < PI.
Proof.
  intros M S L. assert (M0 : 0 < INR m) by (apply lt_0_INR; lia). split; [apply Rdiv_lt_0_compat; lra|].
  apply (Rmult_lt_reg_r (INR m)); [exact M0|]. unfold Rdiv. rewrite Rmult_assoc, Rinv_l by lra. assert (INR m * amax < INR m * PI) by (apply Rmult_lt_compat_l; lra). lra.
Qed.
Lemma step_in sp m i : (i < m)%nat -> 0 < sp -> 0 <= INR i * (sp / INR m) /\ INR i * (sp / INR m) + sp / INR m <= sp.
Proof.
  intros I SP. assert (M0 : 0 < INR m) by (apply lt_0_INR; lia). assert (Q : 0 < sp / INR m) by (apply Rdiv_lt_0_compat; lra). split; [apply Rmult_le_pos; [apply pos_INR|lra]|].
  replace (INR i * (sp / INR m) + sp / INR m) with (INR (S i) * (sp / INR m)) by (rewrite S_INR; ring). assert (INR (S i) <= INR m) by (apply le_INR; lia).
  assert (INR (S i) * (sp / INR m) <= INR m * (sp / INR m)) by (apply Rmult_le_compat_r; lra). replace (INR m * (sp / INR m)) with sp in * by (field; lra). lra.
Qed.
Lemma outer_steps : a1 <> [] /\ steps ahead a1 /\ hd vzero a1 = P (Rk * cos s0) (Rk * sin s0) 0 /\ last a1 vzero = P (Rk * cos t0) (Rk * sin t0) 0 /\ (forall p, In p a1 -> 0 <= X p).
Proof.
  pose proof T0 as T. pose proof s0_range as SR. fold t0 in T, Room. assert (SB : Rabs (t0 - s0) <= PI) by (apply Rabs_le; lra). pose proof E1 as E. fold t0 in E. rewrite QQ in E.
  destruct (arc_steps h amax Rk s0 (t0 - s0) vzero a1 R0 H0 (proj1 A0) SB E) as (NZ & m & M1 & M2 & EL). assert (SP : 0 < t0 - s0) by lra. rewrite Rabs_right in M2 by lra.
  assert (NE : a1 <> []) by (rewrite EL; discriminate). split; [exact NE|]. destruct (step_small _ m M1 SP M2) as (D0 & D1). pose proof rk0 as K0.
  split; [|].
  { rewrite EL. apply steps_seq. intros i I. right. destruct (step_in (t0 - s0) m i ltac:(lia) SP) as (_ & _).
    set (d := (t0 - s0) / INR m) in *. rewrite S_INR. replace (s0 + (INR i + 1) * d) with ((s0 + INR i * d) + d) by ring. set (u := s0 + INR i * d).
    unfold crossz, circle_at, vzero. change (0 < (0 + Rk * cos u) * (0 + Rk * sin (u + d)) - (0 + Rk * cos (u + d)) * (0 + Rk * sin u)).
    replace ((0 + Rk * cos u) * (0 + Rk * sin (u + d)) - (0 + Rk * cos (u + d)) * (0 + Rk * sin u)) with (Rk * Rk * sin (u + d - u)) by (rewrite sin_minus; ring). replace (u + d - u) with d by ring.
    apply Rmult_lt_0_compat; [apply Rmult_lt_0_compat; lra|apply sin_gt_0; lra]. }
  destruct (arc_ends q Rk s0 (t0 - s0) vzero a1 (or_intror R0) SB E1 eq_refl NE) as (F1 & F2). replace (s0 + (t0 - s0)) with t0 in F2 by ring.
  split; [eapply eq_trans; [exact F1|]; apply pt_ext; [change (0 + Rk * cos s0 = Rk * cos s0); ring|change (0 + Rk * sin s0 = Rk * sin s0); ring|reflexivity]|].
  split; [eapply eq_trans; [exact F2|]; apply pt_ext; [change (0 + Rk * cos t0 = Rk * cos t0); ring|change (0 + Rk * sin t0 = Rk * sin t0); ring|reflexivity]|].
  intros p I. destruct (arc_between q Rk s0 (t0 - s0) vzero a1 (or_intror R0) SB E1 eq_refl p I) as (t & B & ->). change (0 <= 0 + Rk * cos t). unfold between in B.
  assert (0 <= cos t) by (apply cos_ge_0; lra). assert (0 <= Rk * cos t) by (apply Rmult_le_pos; lra). lra.
Qed.
Lemma corner_steps : a2 <> [] /\ steps ahead a2 /\ hd vzero a2 = P (Rk * cos t0) (Rk * sin t0) 0 /\ last a2 vzero = P (gr * cos gs) (g + gr * sin gs) 0.
Proof.
  pose proof T0 as T. pose proof U1 as U. pose proof (corner_turn Rk ro gr (grooveInset c) ro0 gr0 TG g0 cc CX CA CB) as TT. fold g in U, TT. fold t0 u1 in U, TT, T.
  assert (SB : Rabs (u1 - t0) <= PI) by (apply Rabs_le; lra). pose proof E2 as E. fold t0 u1 in E.
  destruct (cc_polar Rk ro ro0 cc CA) as (P1 & P2). fold t0 in P1, P2. destruct (contact Rk ro gr (grooveInset c) ro0 gr0 cc CB) as (K1 & K2). fold g in K1, K2. fold u1 gs in K1, K2.
  assert (NE : a2 <> []).
  { destruct Ro0 as [Z0|RE]; [intros ->|].
    - unfold arc2D in E. destruct (nltb (Num := Rnum) ro (nQ 1 1000000)) eqn:C; [discriminate|]. change (Rltb ro eps = false) in C. apply Rltb_false in C. pose proof eps_pos. lra.
    - rewrite QQ in E. destruct (arc_steps h amax ro t0 (u1 - t0) cc a2 RE H0 (proj1 A0) SB E) as (_ & m & _ & _ & EL). rewrite EL. discriminate. }
  split; [exact NE|]. destruct (arc_ends q ro t0 (u1 - t0) cc a2 Ro0 SB E ZC NE) as (F1 & F2). replace (t0 + (u1 - t0)) with u1 in F2 by ring.
  split; [|split].
  - destruct Ro0 as [Z0|RE].
    + unfold arc2D in E. destruct (nltb (Num := Rnum) ro (nQ 1 1000000)) eqn:C; [apply Ok_inj in E; rewrite <- E; exact Coq.Init.Logic.I|]. change (Rltb ro eps = false) in C. apply Rltb_false in C. pose proof eps_pos. lra.
    + rewrite QQ in E. destruct (arc_steps h amax ro t0 (u1 - t0) cc a2 RE H0 (proj1 A0) SB E) as (_ & m & M1 & M2 & EL). rewrite Rabs_right in M2 by lra. destruct (step_small _ m M1 (proj1 TT) M2) as (D0 & D1).
      rewrite EL. apply steps_seq. intros i I. right. destruct (step_in (u1 - t0) m i ltac:(lia) (proj1 TT)) as (S1 & S2). set (d := (u1 - t0) / INR m) in *.
      rewrite S_INR. replace (t0 + (INR i + 1) * d) with ((t0 + INR i * d) + 2 * (d / 2)) by field. pose proof eps_pos as EP.
      apply (corner_turns Rk ro gr (grooveInset c) ro0 gr0 TG g0 cc CX CA CB (t0 + INR i * d) (d / 2)); try reflexivity; fold g; fold t0; fold u1; lra.
  - eapply eq_trans; [exact F1|]. apply pt_ext; [change (X cc + ro * cos t0 = Rk * cos t0); rewrite P1; ring|change (Y cc + ro * sin t0 = Rk * sin t0); rewrite P2; ring|reflexivity].
  - eapply eq_trans; [exact F2|]. apply pt_ext; [exact K1|exact K2|reflexivity].
Qed.
Lemma groove_steps : a3 <> [] /\ steps ahead a3 /\ hd vzero a3 = P (gr * cos gs) (g + gr * sin gs) 0 /\ last a3 vzero = P 0 (g - gr) 0.
Proof.
  pose proof GS as G. fold g in G. fold gs in G. assert (SB : Rabs (- (PI / 2) - gs) <= PI) by (apply Rabs_le; lra). pose proof E3 as E. fold gs in E. rewrite QQ in E.
  destruct (arc_steps h amax gr gs (- (PI / 2) - gs) (P 0 g 0) a3 Gr0 H0 (proj1 A0) SB E) as (_ & m & M1 & M2 & EL). assert (SP : 0 < PI / 2 + gs) by lra. rewrite Rabs_left in M2 by lra. replace (- (- (PI / 2) - gs)) with (PI / 2 + gs) in M2 by ring.
  destruct (step_small _ m M1 SP M2) as (D0 & D1). assert (NE : a3 <> []) by (rewrite EL; discriminate). split; [exact NE|]. split.
  { rewrite EL. apply steps_seq. intros i I. right. destruct (step_in (PI / 2 + gs) m i ltac:(lia) SP) as (S1 & S2). set (d := (PI / 2 + gs) / INR m) in *.
    replace ((- (PI / 2) - gs) / INR m) with (- d) by (unfold d; field; assert (0 < INR m) by (apply lt_0_INR; lia); lra). rewrite S_INR.
    replace (gs + (INR i + 1) * - d) with ((gs + INR i * - d) - 2 * (d / 2)) by field.
    apply (groove_turns Rk ro gr (grooveInset c) ro0 gr0 TG g0 cc CX CA CB (gs + INR i * - d) (d / 2)); try reflexivity; fold g; fold gs; try lra.
    - change (0 + gr * cos (gs + INR i * - d) = gr * cos (gs + INR i * - d)). ring.
    - match goal with |- X (circle_at (P 0 g 0) gr ?t) = _ => change (0 + gr * cos t = gr * cos t) end. ring. }
  destruct (arc_ends q gr gs (- (PI / 2) - gs) (P 0 g 0) a3 (or_intror Gr0) SB E3 eq_refl NE) as (F1 & F2). replace (gs + (- (PI / 2) - gs)) with (- (PI / 2)) in F2 by ring. split.
  - eapply eq_trans; [exact F1|]. apply pt_ext; [change (0 + gr * cos gs = gr * cos gs); ring|reflexivity|reflexivity].
  - eapply eq_trans; [exact F2|]. rewrite cos_neg, sin_neg, cos_PI2, sin_PI2. apply pt_ext; [change (0 + gr * 0 = 0); ring|change (g + gr * - (1) = g - gr); ring|reflexivity].
Qed.

Lemma half_right p : In p (a1 ++ a2 ++ a3) -> 0 <= X p.
Proof.
  intros I. apply in_app_or in I. destruct I as [I|I]; [apply outer_steps; exact I|]. pose proof T0 as T. pose proof U1 as U. pose proof GS as G. fold g in U, G.
  apply (groove_right Rk ro gr (grooveInset c) ro0 gr0 TG g0 cc CX CA CB). apply in_app_or in I. destruct I as [I|I].
  - left. pose proof (corner_turn Rk ro gr (grooveInset c) ro0 gr0 TG g0 cc CX CA CB) as TT. fold g in TT.
    assert (SB : Rabs (vangle2D (P (- X cc) (g - Y cc) 0) - vangle2D cc) <= PI) by (apply Rabs_le; lra). destruct (arc_between q ro _ _ cc a2 Ro0 SB E2 ZC p I) as (t & B & ->).
    exists t. split; [unfold between in B; fold g; lra|split; reflexivity].
  - right. assert (SB : Rabs (- (PI / 2) - vangle2D (P (X cc) (Y cc - g) 0)) <= PI) by (apply Rabs_le; lra). destruct (arc_between q gr _ _ (P 0 g 0) a3 (or_intror Gr0) SB E3 eq_refl p I) as (t & B & ->).
    exists t. split; [unfold between in B; fold g; lra|]. split; [change (0 + gr * cos t = gr * cos t); ring|reflexivity].
Qed.
Lemma hd_app {A} (d : A) l1 l2 : l1 <> [] -> hd d (l1 ++ l2) = hd d l1.
Proof. destruct l1; [contradiction|reflexivity]. Qed.
Lemma last_app {A} (d : A) l1 l2 : l2 <> [] -> last (l1 ++ l2) d = last l2 d.
Proof. intros N. induction l1 as [|x l1 IH]; [reflexivity|]. cbn [app]. destruct (l1 ++ l2) eqn:E; [apply app_eq_nil in E; destruct E; contradiction|]. cbn [last]. exact IH. Qed.
Lemma half_steps : steps ahead (a1 ++ a2 ++ a3) /\ hd vzero (a1 ++ a2 ++ a3) = P (Rk * cos s0) (Rk * sin s0) 0 /\ last (a1 ++ a2 ++ a3) vzero = P 0 (g - gr) 0 /\ a1 ++ a2 ++ a3 <> [].
Proof.
  destruct outer_steps as (N1 & S1 & B1 & L1 & _). destruct corner_steps as (N2 & S2 & B2 & L2). destruct groove_steps as (N3 & S3 & B3 & L3).
  assert (N23 : a2 ++ a3 <> []) by (intros F; apply app_eq_nil in F; destruct F; contradiction).
  split; [|split; [|split]].
  - apply (steps_app ahead vzero); [exact S1| |].
    + apply (steps_app ahead vzero); [exact S2|exact S3|]. intros _ _. left. eapply eq_trans; [exact L2|]. symmetry. exact B3.
    + intros _ _. left. eapply eq_trans; [exact L1|]. symmetry. rewrite hd_app by exact N2. exact B2.
  - rewrite hd_app by exact N1. exact B1.
  - rewrite !last_app by assumption. exact L3.
  - intros F. apply app_eq_nil in F. destruct F. contradiction.
Qed.
(* the marked outline *)
Let hm : list (pt * R) := map mark (a1 ++ a2 ++ a3).
Let sm : list (pt * R) := hm ++ rev (map mirrored_mark hm).
Definition zero_mark : pt * R := (vzero, 0).
Definition marked (k : nat) : list (pt * R) := sm ++ flat_map (fun i => map (turned_mark (span * INR i)) sm) (seq 1 k).
Lemma last_map {A B} (f : A -> B) d l : last (map f l) (f d) = f (last l d).
Proof. induction l as [|x [|y l] IH]; [reflexivity|reflexivity|exact IH]. Qed.
Lemma last_indep {A} (d d' : A) l : l <> [] -> last l d = last l d'.
Proof. induction l as [|x [|y l] IH]; intros N; [contradiction|reflexivity|apply IH; discriminate]. Qed.
Lemma hd_indep {A} (d d' : A) l : l <> [] -> hd d l = hd d' l.
Proof. destruct l; [contradiction|reflexivity]. Qed.
Lemma last_rev {A} (d : A) l : last (rev l) d = hd d l.
Proof. destruct l as [|x l]; [reflexivity|]. cbn [rev hd]. apply last_last. Qed.
Lemma hd_rev {A} (d : A) l : hd d (rev l) = last l d.
Proof. rewrite <- (rev_involutive l) at 2. rewrite last_rev. reflexivity. Qed.
Lemma hm_ends : hm <> [] /\ hd zero_mark hm = (P (Rk * cos s0) (Rk * sin s0) 0, s0) /\ last hm zero_mark = (P 0 (g - gr) 0, PI / 2) /\ steps climb hm /\ Forall good hm.
Proof.
  destruct half_steps as (S & B & L & NE). pose proof s0_range as SR. pose proof rk0 as RK. assert (NH : hm <> []) by (unfold hm; intros F; apply map_eq_nil in F; contradiction). split; [exact NH|].
  split; [|split; [|split]].
  - rewrite (hd_indep zero_mark (mark vzero)) by exact NH. unfold hm. replace (hd (mark vzero) (map mark (a1 ++ a2 ++ a3))) with (mark (hd vzero (a1 ++ a2 ++ a3))) by (destruct (a1 ++ a2 ++ a3); reflexivity).
    transitivity (mark (P (Rk * cos s0) (Rk * sin s0) 0)); [f_equal; exact B|]. unfold mark. f_equal. apply angle_of; lra.
  - rewrite (last_indep zero_mark (mark vzero)) by exact NH. unfold hm. rewrite last_map. transitivity (mark (P 0 (g - gr) 0)); [f_equal; exact L|]. unfold mark. f_equal.
    transitivity (vangle2D (P ((g - gr) * cos (PI / 2)) ((g - gr) * sin (PI / 2)) 0)); [f_equal; rewrite cos_PI2, sin_PI2; apply pt_ext; [change (0 = (g - gr) * 0); ring|change (g - gr = (g - gr) * 1); ring|reflexivity]|]. apply angle_of; [exact GG|pose proof PI_RGT_0; lra].
  - apply ahead_climb; [apply Forall_forall; exact half_right|exact S].
  - unfold hm. apply Forall_forall. intros x I. apply in_map_iff in I. destruct I as (p & <- & I). unfold good, mark. cbn [fst snd]. apply in_dir. destruct (half_radii p I) as (A & _).
    assert (0 < (g - gr) * (g - gr)) by (apply Rmult_lt_0_compat; exact GG). lra.
Qed.
Lemma vmirX_P (x y z : R) : vmirX (P x y z) = P (- x) y z.
Proof. reflexivity. Qed.
Lemma sm_ends : sm <> [] /\ hd zero_mark sm = (P (Rk * cos s0) (Rk * sin s0) 0, s0) /\ last sm zero_mark = (P (Rk * cos (s0 + span)) (Rk * sin (s0 + span)) 0, s0 + span) /\ steps climb sm /\ Forall good sm.
Proof.
  destruct hm_ends as (NE & B & L & S & G). assert (SS : s0 + span = PI - s0) by (unfold s0, span; field; pose proof n0; lra).
  assert (NR : rev (map mirrored_mark hm) <> []) by (intros F; apply (f_equal (@length _)) in F; rewrite rev_length, map_length in F; destruct hm; [contradiction|discriminate]).
  split; [intros F; apply app_eq_nil in F; destruct F; contradiction|]. split; [|split; [|split]].
  - unfold sm. rewrite hd_app by exact NE. exact B.
  - unfold sm. rewrite last_app by exact NR. rewrite last_rev. transitivity (mirrored_mark (hd zero_mark hm)); [destruct hm; [contradiction|reflexivity]|]. rewrite B. unfold mirrored_mark. cbn [fst snd]. rewrite vmirX_P, SS.
    rewrite Rtrigo_facts.cos_pi_minus, Rtrigo_facts.sin_pi_minus. f_equal. apply pt_ext; [change (- (Rk * cos s0) = Rk * - cos s0); ring|reflexivity|reflexivity].
  - unfold sm. apply (steps_app climb zero_mark); [exact S| |].
    + apply (steps_rev (fun x y => climb y x)); [auto|]. apply (steps_map mirrored_mark climb); [|exact S]. intros x y _ _. apply mirrored_climb.
    + intros _ _. rewrite L, hd_rev. rewrite (last_indep zero_mark (mirrored_mark zero_mark)) by (intros F; apply map_eq_nil in F; contradiction). rewrite last_map, L. right. unfold mirrored_mark. cbn [fst snd]. rewrite vmirX_P.
      split; [lra|apply pt_ext; [change (0 = - 0); ring|reflexivity|reflexivity]].
  - unfold sm. apply Forall_app. split; [exact G|]. apply Forall_rev. apply Forall_forall. intros x I. apply in_map_iff in I. destruct I as (y & <- & I). apply mirrored_good. rewrite Forall_forall in G. exact (G y I).
Qed.
Lemma turned_circle (b t : R) : transformed (P (Rk * cos t) (Rk * sin t) 0) (mrotZ mid b None) = P (Rk * cos (t + b)) (Rk * sin (t + b)) 0.
Proof. rewrite turned_pt, cos_plus, sin_plus. apply pt_ext; [change (Rk * cos t * cos b - Rk * sin t * sin b = Rk * (cos t * cos b - sin t * sin b)); ring|change (Rk * cos t * sin b + Rk * sin t * cos b = Rk * (sin t * cos b + cos t * sin b)); ring|reflexivity]. Qed.
Lemma marked_ends k : marked k <> [] /\ hd zero_mark (marked k) = (P (Rk * cos s0) (Rk * sin s0) 0, s0) /\
  (let e := s0 + span * INR (S k) in last (marked k) zero_mark = (P (Rk * cos e) (Rk * sin e) 0, e)) /\ steps climb (marked k) /\ Forall good (marked k).
Proof.
  destruct sm_ends as (NE & B & L & SS & G). induction k as [|k (IN & IB & IL & IS & IG)].
  - unfold marked. cbn [seq flat_map]. rewrite app_nil_r. cbv zeta. change (INR 1) with 1. rewrite Rmult_1_r. auto.
  - unfold marked in *. rewrite seq_S, flat_map_app, app_assoc. cbn [flat_map]. rewrite app_nil_r. set (w := sm ++ flat_map (fun i => map (turned_mark (span * INR i)) sm) (seq 1 k)) in *. change (1 + k)%nat with (S k). set (b := span * INR (S k)) in *.
    assert (NM : map (turned_mark b) sm <> []) by (intros F; apply map_eq_nil in F; contradiction).
    assert (HM : hd zero_mark (map (turned_mark b) sm) = (P (Rk * cos (s0 + b)) (Rk * sin (s0 + b)) 0, s0 + b)).
    { transitivity (turned_mark b (hd zero_mark sm)); [destruct sm; [contradiction|reflexivity]|]. rewrite B. unfold turned_mark. cbn [fst snd]. rewrite turned_circle. reflexivity. }
    split; [intros F; apply app_eq_nil in F; destruct F; contradiction|]. split; [rewrite hd_app by exact IN; exact IB|]. split; [|split].
    + cbv zeta. rewrite last_app by exact NM. rewrite (last_indep zero_mark (turned_mark b zero_mark)) by exact NM. rewrite last_map, L. unfold turned_mark. cbn [fst snd]. rewrite turned_circle.
      replace (s0 + span + b) with (s0 + span * INR (S (S k))) by (unfold b; rewrite (S_INR (S k)); ring). reflexivity.
    + apply (steps_app climb zero_mark); [exact IS| |].
      * apply (steps_map (turned_mark b) climb climb); [|exact SS]. intros x y _ _. apply turned_climb.
      * intros _ _. rewrite HM. cbv zeta in IL. rewrite IL. right. split; reflexivity.
    + apply Forall_app. split; [exact IG|]. apply Forall_forall. intros x I. apply in_map_iff in I. destruct I as (y & <- & I). apply turned_good. rewrite Forall_forall in G. exact (G y I).
Qed.
Lemma marked_copies : map fst (marked (n - 1)) = copies (a1 ++ a2 ++ a3).
Proof.
  assert (E0 : map fst hm = a1 ++ a2 ++ a3) by (unfold hm; rewrite map_map; apply map_id).
  assert (E : map fst sm = (a1 ++ a2 ++ a3) ++ rev (emirX (a1 ++ a2 ++ a3))).
  { unfold sm. rewrite map_app, E0, map_rev. f_equal. f_equal. unfold emirX. rewrite map_map. transitivity (map vmirX (map fst hm)); [rewrite map_map; reflexivity|rewrite E0; reflexivity]. }
  unfold marked, copies. cbv zeta. rewrite map_app, E. f_equal. rewrite !flat_map_concat_map, concat_map, map_map. f_equal. apply map_ext. intros i. unfold turned_copy, etransformed. rewrite <- E, !map_map. apply map_ext. reflexivity.
Qed.
Lemma one_turn : sweeps (copies (a1 ++ a2 ++ a3)) s0 (s0 + 2 * PI).
Proof.
  destruct (marked_ends (n - 1)) as (NE & B & L & S & G). rewrite <- marked_copies. set (w := marked (n - 1)) in *. exists (map snd w). split; [|split; [|split]].
  - clear - G. induction G as [|x l Gx G IH]; [constructor|]. cbn [map]. constructor; [exact Gx|exact IH].
  - destruct w as [|x w']; [contradiction|]. cbn [map hd] in *. rewrite B. reflexivity.
  - change 0 with (snd zero_mark). rewrite last_map, L. cbn [snd]. replace (Datatypes.S (n - 1)) with n by (unfold n; lia). unfold span. field. pose proof n0. lra.
  - intros i I. rewrite map_length in I. pose proof (steps_nth climb zero_mark w i S I) as C. change 0 with (snd zero_mark). change origin with (fst zero_mark). rewrite !map_nth. exact C.
Qed.
End Half.
End Outline.
