(** Brackets over the reals: support of the nut, crossings of the sketch lines. *)
From Coq Require Import Reals Lra Psatz ZArith List Bool Arith Lia.
From Verif Require Import Num GeoModel EdgeModel GeoSpec GeoMat GeoRigid GeoPlane GeoCirc ArcModel ArcSpec ArcProof ArcCorner ArcShape MeshModel LayoutModel LayoutProof BracketModel EdgeSpecR EdgeReal PartProof BodyFlat BossFit BrSpec.
Import ListNotations.
Open Scope R_scope.

(** ** the hexagon *)
Lemma hex_cos (m : BinNums.Z) psi : - (PI / 6) <= psi <= PI / 6 -> cos (IZR m * (PI / 3) + psi) <= cos psi.
Proof.
  intros H. pose proof PI_RGT_0 as PP. set (k := (m / 6)%Z). set (j := (m mod 6)%Z).
  assert (E : cos (IZR m * (PI / 3) + psi) = cos (IZR j * (PI / 3) + psi)).
  { assert (EM : m = (6 * k + j)%Z) by (unfold k, j; apply Z.div_mod; lia). rewrite EM, plus_IZR, mult_IZR.
    replace ((6 * IZR k + IZR j) * (PI / 3) + psi) with (IZR j * (PI / 3) + psi + 2 * IZR k * PI) by field.
    destruct (Z_le_gt_dec 0 k) as [K|K].
    - replace (IZR k) with (INR (Z.to_nat k)) by (rewrite INR_IZR_INZ, Z2Nat.id by lia; reflexivity). apply cos_period.
    - rewrite <- (cos_period _ (Z.to_nat (- k))). f_equal. rewrite INR_IZR_INZ, Z2Nat.id by lia. rewrite opp_IZR. ring. }
  rewrite E. assert (J : (0 <= j < 6)%Z) by (apply Z.mod_pos_bound; lia). clearbody j k.
  assert (C0 : 0 <= cos psi) by (apply cos_ge_0; lra).
  assert (NEG : forall x, PI / 2 <= x <= 3 * (PI / 2) -> cos x <= cos psi) by (intros x Hx; apply Rle_trans with 0; [apply cos_le_0; lra|exact C0]).
  assert (C1 : forall x, PI / 6 <= x <= PI -> cos x <= cos psi).
  { intros x Hx. destruct (Rle_dec 0 psi); [apply cos_decr_1; lra|]. rewrite <- (cos_neg psi). apply cos_decr_1; lra. }
  assert (J6 : (j = 0 \/ j = 1 \/ j = 2 \/ j = 3 \/ j = 4 \/ j = 5)%Z) by lia. destruct J6 as [->|[->|[->|[->|[->| ->]]]]].
  - right. f_equal. ring.
  - apply C1; lra.
  - apply C1; lra.
  - apply NEG; lra.
  - apply NEG; lra.
  - replace (5 * (PI / 3) + psi) with (- (PI / 3 - psi) + 2 * INR 1 * PI) by (cbn [INR]; field). rewrite cos_period, cos_neg. apply C1; lra.
Qed.

Lemma hex_corner across p : In p (hexagon across) -> exists j : BinNums.Z, X p = across / sqrt 3 * cos (IZR j * (PI / 3)) /\ Y p = across / sqrt 3 * sin (IZR j * (PI / 3)).
Proof.
  assert (S3 : sqrt 3 <> 0) by (apply Rgt_not_eq, sqrt_lt_R0; lra). assert (SS : sqrt 3 * sqrt 3 = 3) by (apply sqrt_sqrt; lra).
  assert (C1 : cos (PI / 3) = 1 / 2) by apply cos_PI3. assert (S1 : sin (PI / 3) = sqrt 3 / 2) by apply sin_PI3.
  assert (C2 : cos (2 * (PI / 3)) = -1 / 2) by apply cos_2PI3. assert (S2 : sin (2 * (PI / 3)) = sqrt 3 / 2) by apply sin_2PI3.
  assert (A : across / sqrt 3 * (sqrt 3 / 2) = across / 2) by (field; exact S3).
  intros H. cbn [hexagon In] in H. destruct H as [<-|[<-|[<-|[<-|[<-|[<-|[]]]]]]].
  - exists 2%Z. change (X (P (- (across / sqrt 3) / 2) (across / 2) 0)) with (- (across / sqrt 3) / 2). change (Y (P (- (across / sqrt 3) / 2) (across / 2) 0)) with (across / 2). rewrite C2, S2. lra.
  - exists 3%Z. match goal with |- X (P ?a ?b ?c) = _ /\ _ => change (a = across / sqrt 3 * cos (3 * (PI / 3)) /\ b = across / sqrt 3 * sin (3 * (PI / 3))) end. replace (3 * (PI / 3)) with PI by field. rewrite cos_PI, sin_PI. lra.
  - exists (-2)%Z. match goal with |- X (P ?a ?b ?c) = _ /\ _ => change (a = across / sqrt 3 * cos (-2 * (PI / 3)) /\ b = across / sqrt 3 * sin (-2 * (PI / 3))) end. replace (-2 * (PI / 3)) with (- (2 * (PI / 3))) by field. rewrite cos_neg, sin_neg, C2, S2. lra.
  - exists (-1)%Z. match goal with |- X (P ?a ?b ?c) = _ /\ _ => change (a = across / sqrt 3 * cos (-1 * (PI / 3)) /\ b = across / sqrt 3 * sin (-1 * (PI / 3))) end. replace (-1 * (PI / 3)) with (- (PI / 3)) by field. rewrite cos_neg, sin_neg, C1, S1. lra.
  - exists 0%Z. match goal with |- X (P ?a ?b ?c) = _ /\ _ => change (a = across / sqrt 3 * cos (0 * (PI / 3)) /\ b = across / sqrt 3 * sin (0 * (PI / 3))) end. rewrite Rmult_0_l, cos_0, sin_0. lra.
  - exists 1%Z. match goal with |- X (P ?a ?b ?c) = _ /\ _ => change (a = across / sqrt 3 * cos (1 * (PI / 3)) /\ b = across / sqrt 3 * sin (1 * (PI / 3))) end. rewrite Rmult_1_l, C1, S1. lra.
Qed.
Lemma hex_mirror across p : In p (hexagon across) -> exists p', In p' (hexagon across) /\ X p' = - X p /\ Y p' = Y p.
Proof.
  intros H. cbn [hexagon In] in H. set (r := across / sqrt 3) in *. set (a := across / 2) in *. set (b := - across / 2) in *.
  assert (G : forall x y, In (P x y 0) (hexagon across) -> p = P (- x) y 0 -> exists p', In p' (hexagon across) /\ X p' = - X p /\ Y p' = Y p).
  { intros x y I ->. exists (P x y 0). split; [exact I|]. split; [change (x = - - x); ring|reflexivity]. }
  destruct H as [<-|[<-|[<-|[<-|[<-|[<-|[]]]]]]].
  - apply (G (r / 2) a); [cbn [hexagon In]; tauto|f_equal; field].
  - apply (G r 0); [cbn [hexagon In]; tauto|reflexivity].
  - apply (G (r / 2) b); [cbn [hexagon In]; tauto|f_equal; field].
  - apply (G (- r / 2) b); [cbn [hexagon In]; tauto|f_equal; field].
  - apply (G (- r) 0); [cbn [hexagon In]; tauto|f_equal; field].
  - apply (G (- r / 2) a); [cbn [hexagon In]; tauto|f_equal; field].
Qed.
Lemma hex_opposite across p : In p (hexagon across) -> exists p', In p' (hexagon across) /\ X p' = - X p /\ Y p' = - Y p.
Proof.
  intros H. cbn [hexagon In] in H. set (r := across / sqrt 3) in *. set (a := across / 2) in *. set (b := - across / 2) in *. assert (AB : b = - a) by (unfold a, b; field).
  assert (G : forall x y, In (P x y 0) (hexagon across) -> p = P (- x) (- y) 0 -> exists p', In p' (hexagon across) /\ X p' = - X p /\ Y p' = - Y p).
  { intros x y I ->. exists (P x y 0). split; [exact I|]. split; [change (x = - - x); ring|change (y = - - y); ring]. }
  destruct H as [<-|[<-|[<-|[<-|[<-|[<-|[]]]]]]].
  - apply (G (r / 2) b); [cbn [hexagon In]; tauto|rewrite AB; f_equal; field].
  - apply (G r 0); [cbn [hexagon In]; tauto|f_equal; ring].
  - apply (G (r / 2) a); [cbn [hexagon In]; tauto|rewrite AB; f_equal; field].
  - apply (G (- r / 2) a); [cbn [hexagon In]; tauto|rewrite AB; f_equal; field].
  - apply (G (- r) 0); [cbn [hexagon In]; tauto|f_equal; ring].
  - apply (G (- r / 2) b); [cbn [hexagon In]; tauto|rewrite AB; f_equal; field].
Qed.
(* the distance of the tangent at the angle t *)
Lemma hex_tangent pmod across (t : R) p : remainder pmod -> 0 <= across -> In p (hexagon across) ->
  Y p * cos t - X p * sin t <= @hexTangentDist Rnum pmod (across / sqrt 3) t.
Proof.
  intros HM HA IP. pose proof PI_RGT_0 as PP. assert (R0 : 0 <= across / sqrt 3) by (apply Rmult_le_pos; [exact HA|left; apply Rinv_0_lt_compat, sqrt_lt_R0; lra]).
  destruct (hex_corner across p IP) as (j & EX & EY). rewrite EX, EY. set (r := across / sqrt 3) in *. set (a := IZR j * (PI / 3)).
  change (r * sin a * cos t - r * cos a * sin t <= r * cos (pmod (Rabs t) (PI / 3) - PI / 6)).
  destruct (HM (Rabs t) (PI / 3) ltac:(lra)) as (B & k & EK). set (ph := pmod (Rabs t) (PI / 3)) in *.
  replace (r * sin a * cos t - r * cos a * sin t) with (r * sin (a - t)) by (rewrite sin_minus; ring). apply Rmult_le_compat_l; [exact R0|].
  assert (E : sin (a - t) = cos (a - t - PI / 2)). { rewrite <- (cos_neg (a - t - PI / 2)). replace (- (a - t - PI / 2)) with (PI / 2 - (a - t)) by ring. symmetry. apply cos_shift. }
  rewrite E. destruct (Rcase_abs t) as [L|L].
  - rewrite Rabs_left in EK by exact L. replace (a - t - PI / 2) with (IZR (j + k - 1) * (PI / 3) + (ph - PI / 6)) by (rewrite minus_IZR, plus_IZR; unfold a; replace t with (- (ph + IZR k * (PI / 3))) by lra; field).
    apply hex_cos. lra.
  - rewrite Rabs_right in EK by exact L. replace (a - t - PI / 2) with (IZR (j - k - 2) * (PI / 3) + - (ph - PI / 6)) by (rewrite !minus_IZR; unfold a; replace t with (ph + IZR k * (PI / 3)) by lra; field).
    rewrite <- (cos_neg (ph - PI / 6)). apply hex_cos. lra.
Qed.
Lemma hex_flat across p : 0 <= across -> In p (hexagon across) -> Rabs (X p) <= across / sqrt 3 /\ Rabs (Y p) <= across / 2.
Proof.
  intros HA H. assert (R0 : 0 <= across / sqrt 3) by (apply Rmult_le_pos; [exact HA|left; apply Rinv_0_lt_compat, sqrt_lt_R0; lra]). set (r := across / sqrt 3) in *.
  cbn [hexagon In] in H. fold r in H. destruct H as [<-|[<-|[<-|[<-|[<-|[<-|[]]]]]]]; match goal with |- Rabs (X (P ?a ?b ?c)) <= _ /\ _ => change (Rabs a <= r /\ Rabs b <= across / 2) end; split; apply Rabs_le; lra.
Qed.

(** ** crossings *)
Lemma flat_on l (v : pt) : flat_line l -> on_line l v -> X v = 0 /\ (Y v - Y (lpos l)) * Z (ldir l) = (Z v - Z (lpos l)) * Y (ldir l).
Proof.
  intros (U & FP & FD) (k & ->). destruct l as [[px py pz] [dx dy dz]]. unfold flat, plus, scaled, P, X, Y, Z in *. cbn [lpos ldir vx vy vz] in *. rn. subst px dx. split; ring.
Qed.
Lemma flat_meet s o (v : pt) : flat_line s -> flat_line o -> lintersect s o = Ok v -> on_line s v /\ on_line o v.
Proof.
  intros Gs Go H. pose proof Gs as (Us & Zps & Zds). pose proof Go as (Uo & Zpo & Zdo).
  destruct (lintersect_spec s o v Us Uo H) as (a & b & Ha & Hb & Ev & P1 & P2).
  assert (D : 1 - inner (ldir o) (ldir s) * inner (ldir o) (ldir s) <> 0).
  { unfold lintersect in H. cbn zeta in H. change (@vdot Rnum) with inner in H. unfold unit_vec, wf_line in *. rewrite Us, Uo in H. rn.
    replace (1 * 1) with 1 in H by ring. destruct (isZero _) eqn:E; [discriminate|]. apply not_isZero_neq in E. exact E. }
  destruct (flat_on s a Gs Ha) as (Za & _). destruct (flat_on o b Go Hb) as (Zb & _).
  assert (AB : a = b).
  { unfold flat, wf_line, unit_vec, inner, minus, P, X, Y, Z in *. rn.
    set (sx := vy (ldir s)) in *. set (sy := vz (ldir s)) in *. set (ox := vy (ldir o)) in *. set (oy := vz (ldir o)) in *.
    rewrite Zds in *. rewrite Zdo in *. rewrite Za, Zb in *.
    assert (DD : sx * oy - sy * ox <> 0).
    { intros E. apply D. replace (0 * 0 + ox * sx + oy * sy) with (ox * sx + oy * sy) by ring.
      assert (Q : (sx * oy - sy * ox) * (sx * oy - sy * ox) + (ox * sx + oy * sy) * (ox * sx + oy * sy) = (sx * sx + sy * sy) * (ox * ox + oy * oy)) by ring.
      rewrite E in Q. replace (sx * sx + sy * sy) with 1 in Q by lra. replace (ox * ox + oy * oy) with 1 in Q by lra. lra. }
    destruct (two_zero sx sy ox oy (vy a - vy b) (vz a - vz b) DD) as (E1 & E2); [lra|lra|].
    destruct a as [a1 a2 a3], b as [b1 b2 b3]. rn. cbn [vx vy vz] in *. f_equal; cbn [num Rnum] in *; lra. }
  subst b. assert (v = a) as ->; [|split; assumption]. rewrite Ev. apply pt_ext; unfold scaled, plus, P, X, Y, Z; rn; field.
Qed.
Lemma crossing s o (v : pt) : flat_line s -> flat_line o -> lintersect s o = Ok v ->
  X v = 0 /\ (Y v - Y (lpos s)) * Z (ldir s) = (Z v - Z (lpos s)) * Y (ldir s) /\ (Y v - Y (lpos o)) * Z (ldir o) = (Z v - Z (lpos o)) * Y (ldir o).
Proof.
  intros S O H. destruct (flat_meet s o v S O H) as [A B]. destruct (flat_on s v S A) as [X0 E1]. destruct (flat_on o v O B) as [_ E2]. auto.
Qed.
Lemma line_unit (p d : pt) l : newLine p d = Ok l -> unit_vec d -> l = mkLine p d.
Proof. intros H U. unfold newLine in H. rewrite vnorm_of_unit in H by exact U. cbn [bind] in H. apply Ok_inj in H. symmetry. exact H. Qed.
Lemma unit_yz (a : R) : unit_vec (P 0 (sin a) (cos a)) /\ unit_vec (P 0 (- sin a) (cos a)) /\ unit_vec (P 0 1 0) /\ unit_vec (P 0 0 1).
Proof.
  pose proof (sin2_cos2 a) as E. unfold Rsqr in E. unfold unit_vec, inner, P, X, Y, Z. cbn [vx vy vz]. rn. repeat split; lra.
Qed.

(** ** the screw *)
Lemma side_eqb s t : sideEqb s t = true <-> s = t.
Proof. destruct s, t; cbn; split; intros; try discriminate; reflexivity. Qed.
Section Screw.
Variable q : @quality Rnum.
Variable taper : option R.
Variable pmod : R -> R -> R.
Variable c : @bracket_cfg Rnum.
(* the outline of the bore, as a sketch: the nut on its side, otherwise the head of the screw *)
Definition bore_sketch (s : LayoutModel.side) (up : bool) (l : list pt) : Prop :=
  (br_nutSide c = Some s -> l = hexagon (br_nutAcross c)) /\
  (br_nutSide c <> Some s -> (if up then uprightHole2D q taper (br_boreDiameter c / 2 : R) else @arc2D Rnum q (br_boreDiameter c / 2) 0 (2 * PI) origin) = Ok l).
Lemma hole_form (ce : pt) s up m hl hr : screwHole q taper c ce s up = Ok (m, hl, hr) ->
  exists hole bore, (if up then uprightHole2D q taper (br_holeDiameter c / 2 : R) else @arc2D Rnum q (br_holeDiameter c / 2) 0 (2 * PI) origin) = Ok hole /\
    bore_sketch s up bore /\ hl = map (moved ce) (map upright hole) /\
    hr = map (moved (P (X ce + (br_holeLength c + br_boreLength c)) (Y ce) (Z ce))) (map upright bore).
Proof.
  intros H. unfold screwHole in H. cbv zeta in H. apply bind_ok in H. destruct H as (hole & EH & H). apply bind_ok in H. destruct H as (bore & EB & H).
  apply Ok_inj in H. apply pair_inj in H. destruct H as [H E3]. apply pair_inj in H. destruct H as [_ E2]. exists hole, bore. split; [exact EH|]. split; [|split].
  - unfold bore_sketch. destruct (br_nutSide c) as [n|] eqn:EN.
    + destruct (sideEqb s n) eqn:ES.
      * apply side_eqb in ES. subst n. split; [intros _|intros K; contradiction]. apply Ok_inj in EB. symmetry. exact EB.
      * split; [intros K; apply f_equal with (f := fun o => match o with Some x => x | None => s end) in K; cbv beta iota in K; subst n; rewrite (proj2 (side_eqb s s) eq_refl) in ES; discriminate|intros _; exact EB].
    + split; [discriminate|intros _; exact EB].
  - subst hl. unfold etranslated. rewrite !map_map. apply map_ext. intros p. destruct p as [p1 p2 p3], ce as [c1 c2 c3]. apply pt_ext; unfold moved, upright, X, Y, Z, P; cbn; rn; ring.
  - subst hr. unfold etranslated. rewrite !map_map. apply map_ext. intros p. destruct p as [p1 p2 p3], ce as [c1 c2 c3]. apply pt_ext; unfold moved, upright, X, Y, Z, P; cbn; rn; ring.
Qed.

Definition boreR : R := br_boreDiameter c / 2.
Definition nutR : R := br_nutAcross c / sqrt 3.
Hypothesis HM : remainder pmod.
Hypothesis HB : eps <= boreR.
Hypothesis HN : 0 <= br_nutAcross c.
Lemma circ_bounds r a u : 0 <= r -> Rabs (r * cos a) <= r /\ Rabs (r * sin a) <= r /\ r * sin a * cos u - r * cos a * sin u <= r /\ r * sin a * cos u + r * cos a * sin u <= r.
Proof.
  intros R0. pose proof (COS_bound a). pose proof (SIN_bound a). replace (r * sin a * cos u - r * cos a * sin u) with (r * sin (a - u)) by (rewrite sin_minus; ring). replace (r * sin a * cos u + r * cos a * sin u) with (r * sin (a + u)) by (rewrite sin_plus; ring).
  pose proof (SIN_bound (a - u)). pose proof (SIN_bound (a + u)). split; [apply Rabs_le; nra|]. split; [apply Rabs_le; nra|]. split; nra.
Qed.
Lemma round_sketch l : @arc2D Rnum q boreR 0 (2 * PI) origin = Ok l -> forall p, In p l -> exists a, X p = boreR * cos a /\ Y p = boreR * sin a.
Proof.
  intros H p IP. destruct (arc_circle q boreR origin l HB H) as (n & ->). apply in_map_iff in IP. destruct IP as (i & <- & _). set (t := INR i * (2 * PI / INR n)). exists t.
  split; [change (0 + boreR * cos t = boreR * cos t)|change (0 + boreR * sin t = boreR * sin t)]; ring.
Qed.
Lemma upright_sketch l : uprightHole2D q taper (boreR : R) = Ok l -> forall p, In p l -> (exists a, X p = boreR * cos a /\ Y p = boreR * sin a) \/
  exists al, taper = Some al /\ 0 < al /\ Rabs (X p) = Rabs (boreR * sin (al / 2) / cos (al / 2)) /\ Y p = boreR.
Proof.
  intros H p IP. pose proof PI_RGT_0 as PP. unfold uprightHole2D in H. destruct taper as [al|]; [|left; exact (round_sketch l H p IP)].
  destruct (nltb _ _) eqn:C; [|left; exact (round_sketch l H p IP)]. change (Rltb 0 al = true) in C. apply Rltb_true in C.
  apply bind_ok in H. destruct H as (qu & _ & H). apply bind_ok in H. destruct H as (arc & EA & H). apply bind_ok in H. destruct H as (ha & EH & H). apply bind_ok in H. destruct H as (w & EW & H). cbv zeta in H. apply Ok_inj in H. subst l.
  apply pdiv_ok in EH. destruct EH as [_ EH]. change (ha = al / 2) in EH. subst ha. apply pdiv_ok in EW. destruct EW as [_ EW].
  assert (W : Rabs w = Rabs (boreR * sin (al / 2) / cos (al / 2))). { rewrite EW. transitivity (Rabs (- (boreR * sin (al / 2) / cos (al / 2)))); [|apply Rabs_Ropp]. f_equal. change ((- boreR * sin (al / 2)) / cos (al / 2) = - (boreR * sin (al / 2) / cos (al / 2))). unfold Rdiv. ring. }
  destruct IP as [<-|IP]; [right; exists al; split; [reflexivity|]; split; [exact C|]; split; [exact W|reflexivity]|].
  apply in_app_or in IP. destruct IP as [IP|[<-|[]]].
  - left. destruct (arc_shape q boreR _ _ vzero arc HB EA) as (n & k & EL & _). rewrite EL in IP. apply in_map_iff in IP. destruct IP as (i & <- & _). match goal with |- context [cos ?u] => set (t := u) end. exists t.
    split; [change (0 + boreR * cos t = boreR * cos t)|change (0 + boreR * sin t = boreR * sin t)]; ring.
  - right. exists al. split; [reflexivity|]. split; [exact C|]. split; [|reflexivity]. change (Rabs (- w) = Rabs (boreR * sin (al / 2) / cos (al / 2))). rewrite Rabs_Ropp. exact W.
Qed.
Definition tangentR (t : R) : R := Rmax boreR (@hexTangentDist Rnum pmod nutR t).
(* a round or hexagonal bore keeps behind its tangent in each direction *)
Lemma bore_tangent s l u : bore_sketch s false l -> forall p, In p l ->
  Y p * cos u - X p * sin u <= tangentR u /\ Y p * cos u + X p * sin u <= tangentR u /\ - Y p * cos u - X p * sin u <= tangentR u /\ - Y p * cos u + X p * sin u <= tangentR u.
Proof.
  intros [BN BR] p IP. pose proof eps_pos as EP. unfold tangentR. pose proof (Rmax_l boreR (@hexTangentDist Rnum pmod nutR u)) as M1. pose proof (Rmax_r boreR (@hexTangentDist Rnum pmod nutR u)) as M2.
  assert (DEC : br_nutSide c = Some s \/ br_nutSide c <> Some s). { destruct (br_nutSide c) as [n|]; [|right; discriminate]. destruct s, n; try (left; reflexivity); right; discriminate. }
  destruct DEC as [D|D].
  - rewrite (BN D) in IP. pose proof (hex_tangent pmod _ u p HM HN IP) as H1. destruct (hex_mirror _ p IP) as (p2 & I2 & X2 & Y2). pose proof (hex_tangent pmod _ u p2 HM HN I2) as H2.
    destruct (hex_opposite _ p IP) as (p3 & I3 & X3 & Y3). pose proof (hex_tangent pmod _ u p3 HM HN I3) as H3. destruct (hex_opposite _ p2 I2) as (p4 & I4 & X4 & Y4). pose proof (hex_tangent pmod _ u p4 HM HN I4) as H4.
    fold nutR in H1, H2, H3, H4. rewrite X4, Y4, X2, Y2 in H4. rewrite X3, Y3 in H3. rewrite X2, Y2 in H2. repeat split; lra.
  - destruct (round_sketch l (BR D) p IP) as (a & -> & ->). destruct (circ_bounds boreR a u ltac:(lra)) as (_ & _ & H1 & H2). destruct (circ_bounds boreR (a + PI) u ltac:(lra)) as (_ & _ & H3 & H4).
    rewrite neg_cos, neg_sin in H3, H4. repeat split; lra.
Qed.
Lemma bore_box s up l : bore_sketch s up l -> (up = true -> match taper with Some al => al <= PI / 2 | None => True end) -> forall p, In p l ->
  Rabs (X p) <= Rmax boreR nutR /\ Rabs (Y p) <= Rmax boreR (br_nutAcross c / 2).
Proof.
  intros [BN BR] HT p IP. pose proof eps_pos as EP. pose proof PI_RGT_0 as PP. pose proof (Rmax_l boreR nutR) as M1. pose proof (Rmax_r boreR nutR) as M2. pose proof (Rmax_l boreR (br_nutAcross c / 2)) as M3. pose proof (Rmax_r boreR (br_nutAcross c / 2)) as M4.
  assert (DEC : br_nutSide c = Some s \/ br_nutSide c <> Some s). { destruct (br_nutSide c) as [n|]; [|right; discriminate]. destruct s, n; try (left; reflexivity); right; discriminate. }
  destruct DEC as [D|D].
  - rewrite (BN D) in IP. destruct (hex_flat _ p HN IP) as [H1 H2]. fold nutR in H1. lra.
  - assert (Q : (exists a, X p = boreR * cos a /\ Y p = boreR * sin a) \/ exists al, up = true /\ taper = Some al /\ 0 < al /\ Rabs (X p) = Rabs (boreR * sin (al / 2) / cos (al / 2)) /\ Y p = boreR).
    { specialize (BR D). destruct up; [|left; exact (round_sketch l BR p IP)]. destruct (upright_sketch l BR p IP) as [Q|(al & Q)]; [left; exact Q|right; exists al; split; [reflexivity|exact Q]]. }
    destruct Q as [(a & EX & EY)|(al & EU & ET & A0 & EX & EY)].
    + destruct (circ_bounds boreR a 0 ltac:(lra)) as (H1 & H2 & _). rewrite EX, EY. lra.
    + specialize (HT EU). rewrite ET in HT. rewrite EX, EY. split; [|rewrite Rabs_right; lra]. eapply Rle_trans; [|exact M1].
      assert (C0 : 0 < cos (al / 2)) by (apply cos_gt_0; lra). assert (S0 : 0 < sin (al / 2)) by (apply sin_gt_0; lra).
      assert (SC : sin (al / 2) <= cos (al / 2)). { rewrite <- (cos_shift (al / 2)). apply cos_decr_1; lra. }
      rewrite Rabs_right; [|apply Rle_ge; apply Rmult_le_pos; [nra|left; apply Rinv_0_lt_compat, C0]]. apply Rmult_le_reg_r with (cos (al / 2)); [exact C0|]. unfold Rdiv. rewrite Rmult_assoc, Rinv_l by lra. nra.
Qed.
(* an upright bore, behind a side that leans away by t *)
Lemma bore_leaning s up l t : bore_sketch s up l -> 0 <= t < PI / 2 -> (up = true -> match taper with Some al => al + t <= PI / 2 | None => True end) -> forall p, In p l ->
  Rabs (X p) * cos t + Y p * sin t <= tangentR (t - PI / 2).
Proof.
  intros B T HT p IP. pose proof eps_pos as EP. pose proof PI_RGT_0 as PP. assert (CU : cos (t - PI / 2) = sin t). { rewrite <- cos_neg. replace (- (t - PI / 2)) with (PI / 2 - t) by ring. apply cos_shift. }
  assert (SU : sin (t - PI / 2) = - cos t). { replace (t - PI / 2) with (- (PI / 2 - t)) by ring. rewrite sin_neg, sin_shift. reflexivity. }
  assert (TWO : Y p * sin t + X p * cos t <= tangentR (t - PI / 2) -> Y p * sin t - X p * cos t <= tangentR (t - PI / 2) -> Rabs (X p) * cos t + Y p * sin t <= tangentR (t - PI / 2)) by (intros; unfold Rabs; destruct (Rcase_abs (X p)); lra).
  assert (RB : boreR <= tangentR (t - PI / 2)) by apply Rmax_l.
  assert (DEC : br_nutSide c = Some s \/ br_nutSide c <> Some s). { destruct (br_nutSide c) as [n|]; [|right; discriminate]. destruct s, n; try (left; reflexivity); right; discriminate. }
  destruct DEC as [D|D].
  - assert (B' : bore_sketch s false l) by (split; [exact (proj1 B)|intros K; contradiction]). destruct (bore_tangent s l (t - PI / 2) B' p IP) as (H1 & H2 & _). rewrite CU, SU in H1, H2. apply TWO; lra.
  - assert (Q : (exists a, X p = boreR * cos a /\ Y p = boreR * sin a) \/ exists al, up = true /\ taper = Some al /\ 0 < al /\ Rabs (X p) = Rabs (boreR * sin (al / 2) / cos (al / 2)) /\ Y p = boreR).
    { pose proof (proj2 B D) as BR. destruct up; [|left; exact (round_sketch l BR p IP)]. destruct (upright_sketch l BR p IP) as [Q|(al & Q)]; [left; exact Q|right; exists al; split; [reflexivity|exact Q]]. }
    destruct Q as [(a & EX & EY)|(al & EU & ET & A0 & EX & EY)].
    + destruct (circ_bounds boreR a (t - PI / 2) ltac:(lra)) as (_ & _ & H1 & H2). rewrite CU, SU in H1, H2. apply TWO; rewrite EX, EY; lra.
    + specialize (HT EU). rewrite ET in HT. rewrite EX, EY. eapply Rle_trans; [|exact RB].
      assert (C0 : 0 < cos (al / 2)) by (apply cos_gt_0; lra). assert (S0 : 0 < sin (al / 2)) by (apply sin_gt_0; lra).
      rewrite Rabs_right; [|apply Rle_ge; apply Rmult_le_pos; [nra|left; apply Rinv_0_lt_compat, C0]].
      assert (SC : sin (al / 2 + t) <= cos (al / 2)). { rewrite <- (cos_shift (al / 2 + t)). apply cos_decr_1; lra. }
      rewrite sin_plus in SC. apply Rmult_le_reg_r with (cos (al / 2)); [exact C0|].
      replace ((boreR * sin (al / 2) / cos (al / 2) * cos t + boreR * sin t) * cos (al / 2)) with (boreR * (sin (al / 2) * cos t + cos (al / 2) * sin t)) by (field; lra). apply Rmult_le_compat_l; lra.
Qed.
End Screw.
