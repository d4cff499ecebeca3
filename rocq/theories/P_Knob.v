(** Properties C90, C91 and C92: the size of the knob, the grooves of its outline and its socket. *)
From Coq Require Import Reals Lra Psatz ZArith List Bool Arith Lia.
From Verif Require Import Num GeoModel EdgeModel EdgeSpec GeoSpec GeoMat GeoRigid GeoPlane GeoCirc ArcModel ArcSpec ArcProof ArcCorner ArcShape FaceModel MeshModel MeshSpec MeshFace BossSpec BossProof PartProof CableProof KnobModel KnobSpec KnobGroove KnobTurn KnobOutline KnobShaft KnobDrawn.
Import ListNotations.
Open Scope R_scope.

(** ** snapping moves little *)
Lemma snap_sq (x : R) : snap1 (N := Rnum) x * snap1 (N := Rnum) x <= x * x <= snap1 (N := Rnum) x * snap1 (N := Rnum) x + eps * eps.
Proof.
  unfold snap1. destruct (isZero (N := Rnum) x) eqn:C.
  - apply isZero_iff in C. change (0 * 0 <= x * x <= 0 * 0 + eps * eps). assert (x * x <= eps * eps) by (apply Rsqr_le_abs_1; rewrite (Rabs_right eps) by (pose proof eps_pos; lra); lra). pose proof (Rle_0_sqr x) as Q. unfold Rsqr in Q. lra.
  - pose proof (Rle_0_sqr eps) as Q. unfold Rsqr in Q. lra.
Qed.
Lemma snap_axial (p : pt) : axial (vsnapped p) <= axial p <= axial (vsnapped p) + 2 * eps.
Proof.
  destruct p as [x y z]. pose proof eps_pos as EP. pose proof (snap_sq x) as A. pose proof (snap_sq y) as B.
  assert (N0 : 0 <= axial (vsnapped (V x y z))) by apply sqrt_pos. pose proof (axial_sq (vsnapped (V x y z))) as Q.
  change (X (vsnapped (V x y z))) with (snap1 (N := Rnum) x) in Q. change (Y (vsnapped (V x y z))) with (snap1 (N := Rnum) y) in Q. set (u := snap1 (N := Rnum) x) in *. set (v := snap1 (N := Rnum) y) in *. split.
  - unfold axial. apply sqrt_le_1_alt. change (u * u + v * v <= x * x + y * y). lra.
  - apply axial_le; [lra|]. change (x * x + y * y <= (axial (vsnapped (V x y z)) + 2 * eps) * (axial (vsnapped (V x y z)) + 2 * eps)). set (s := axial (vsnapped (V x y z))) in *. assert (0 <= s * eps) by (apply Rmult_le_pos; lra). pose proof (Rle_0_sqr eps) as Q2. unfold Rsqr in Q2. lra.
Qed.
Lemma snap_flat (p : pt) : Z p = 0 -> Z (vsnapped p) = 0.
Proof. destruct p as [x y z]. intros H. change (z = 0) in H. subst z. change (snap1 (N := Rnum) (0 : R) = 0). unfold snap1. destruct (isZero (N := Rnum) (0 : R)); reflexivity. Qed.
Lemma snap_Y (p : pt) : Y p - eps <= Y (vsnapped p).
Proof.
  destruct p as [x y z]. change (y - eps <= snap1 (N := Rnum) y). pose proof eps_pos as EP. unfold snap1. destruct (isZero (N := Rnum) y) eqn:C; [|lra]. apply isZero_iff in C. change (y - eps <= 0). apply Rabs_def2 in C. lra.
Qed.
Lemma cleaned_in (l : list pt) t p : In p (collapsed (esnapped l) t) -> exists p0, In p0 l /\ p = vsnapped p0.
Proof. intros H. apply collapsed_in in H. apply in_map_iff in H. destruct H as (p0 & E & I). exists p0. split; [exact I|symmetry; exact E]. Qed.

(** ** the outline *)
Lemma in_copies c half (P0 : pt -> Prop) : (forall p, P0 p -> P0 (vmirX p)) -> (forall b p, P0 p -> P0 (transformed p (mrotZ mid b None))) -> (forall p, In p half -> P0 p) -> forall p, In p (copies c half) -> P0 p.
Proof.
  intros M T H p I. unfold copies in I. cbv zeta in I. assert (HS : forall p, In p (half ++ rev (emirX half)) -> P0 p).
  { intros x J. apply in_app_or in J. destruct J as [J|J]; [apply H; exact J|]. apply in_rev in J. apply in_map_iff in J. destruct J as (y & <- & J). apply M, H, J. }
  apply in_app_or in I. destruct I as [I|I]; [apply HS; exact I|]. apply in_flat_map in I. destruct I as (i & _ & I). apply in_map_iff in I. destruct I as (y & <- & I). apply T, HS, I.
Qed.
Lemma mir_axial (p : pt) : axial (vmirX p) = axial p.
Proof. destruct p as [x y z]. unfold axial. f_equal. change (- x * - x + y * y = x * x + y * y). ring. Qed.
Definition sane_outline (c : @knob_cfg Rnum) : Prop := eps <= outerDiameter c / 2 /\ 0 <= grooveInset c /\
  ((0 < grooveCount c)%Z -> eps <= grooveDiameter c / 2 /\ (grooveCornerRadius c = 0 \/ eps <= grooveCornerRadius c) /\ grooveCornerRadius c < outerDiameter c / 2).
Lemma outline_radii q (c : @knob_cfg Rnum) l : sane_outline c -> grooveSketch2D q c = Ok l -> forall p, In p l ->
  Z p = 0 /\ outerDiameter c / 2 - grooveInset c - 2 * eps <= axial p <= outerDiameter c / 2.
Proof.
  intros (R0 & I0 & G) H p I. pose proof eps_pos as EP. destruct (Z.leb_spec (grooveCount c) 0) as [L|L].
  - unfold grooveSketch2D in H. cbv zeta in H. rewrite (proj2 (Z.leb_le _ _) L) in H. change (half (outerDiameter c)) with (outerDiameter c / 2) in H. destruct (arc_circle q (outerDiameter c / 2) vzero l R0 H) as (n & ->).
    apply in_map_iff in I. destruct I as (i & <- & _). set (a := INR i * (2 * PI / INR n)). split; [reflexivity|]. set (Rk := outerDiameter c / 2) in *.
    assert (E : axial (P (X vzero + Rk * cos a) (Y vzero + Rk * sin a) 0) = Rk).
    { apply axial_eq; [lra|]. change ((0 + Rk * cos a) * (0 + Rk * cos a) + (0 + Rk * sin a) * (0 + Rk * sin a) = Rk * Rk). pose proof (sin2_cos2 a) as Q. unfold Rsqr in Q. transitivity (Rk * Rk * (sin a * sin a + cos a * cos a)); [ring|rewrite Q; ring]. }
    rewrite E. lra.
  - destruct (G L) as (G1 & G2 & G3). destruct (sketch_form q c L G3 l H) as (_ & TG & GG & cc & a1 & a2 & a3 & CX & CA & CB & ZC & _ & E1 & E2 & E3 & ->).
    apply cleaned_in in I. destruct I as (p0 & I & ->). set (Rk := outerDiameter c / 2) in *. set (gr := grooveDiameter c / 2) in *. set (i0 := grooveInset c) in *.
    assert (A : Z p0 = 0 /\ Rk - i0 <= axial p0 <= Rk).
    { revert p0 I. apply in_copies.
      - intros p (A & B). rewrite mir_axial. split; [destruct p; exact A|exact B].
      - intros b p (A & B). rewrite turned_axial, turned_pt. split; [exact A|exact B].
      - intros p I. destruct (half_points q c L R0 G1 G2 G3 cc a1 a2 a3 TG GG CX CA CB ZC E1 E2 E3 p I) as (_ & ZP). split; [exact ZP|].
        destruct (half_radii q c L R0 G1 G2 G3 cc a1 a2 a3 TG GG CX CA CB ZC E1 E2 E3 p I) as (A & B). fold Rk gr i0 in A, B, GG. replace (Rk + gr - i0 - gr) with (Rk - i0) in * by ring.
        split; [|apply axial_le; [lra|exact B]]. unfold axial. rewrite <- (sqrt_square (Rk - i0)) by lra. apply sqrt_le_1_alt. exact A. }
    destruct A as (ZP & A). split; [apply snap_flat, ZP|]. pose proof (snap_axial p0). lra.
Qed.

(** ** the socket *)
Definition sane_socket (h amax : R) (c : @knob_cfg Rnum) : Prop :=
  let rs := shaftDiameter c / 2 in let r := prongDiameter c / 2 in let flat := shaftAcrossFlat c - rs in
  0 < h /\ 0 < amax /\ eps <= rs /\ 3 * eps <= r /\ 0 <= flat /\ flat + prongDiameter c <= rs /\ flat <= rs * cos (PI / 12).
(* a is directly followed by b *)
Definition consecutive (l : list pt) (a b : pt) : Prop := exists l1 l2, l = l1 ++ a :: b :: l2.
Theorem C92_shaft_socket : forall h amax c sk, sane_socket h amax c -> shaftSketch2D (@mkQuality Rnum h amax) c = Ok sk ->
  let rs := shaftDiameter c / 2 in let r := prongDiameter c / 2 in let flat := shaftAcrossFlat c - rs in
  exists l : list pt, sk = collapsed (esnapped l) (1 / 1000) /\
    (* the same on both sides *)
    rev (map vmirX l) = l /\
    (* nothing reaches into the round or the flat of the shaft *)
    (forall p, In p l -> Z p = 0 /\ (axial p = rs \/ flat - eps <= Y p) /\ axial p <= shaftAcrossFlat c + prongDiameter c) /\
    In (P 0 (- rs) 0) l /\
    exists fx, 0 < fx /\ fx * fx + flat * flat = rs * rs /\ In (P fx flat 0) l /\
    (* a prong presses on the flat *)
    (exists p, In p l /\ fx / 3 - r <= X p <= fx / 3 + r /\ flat <= Y p <= flat + h) /\
    (* and its ramp rises by 15 degrees *)
    exists a b, consecutive l a b /\ b = P (fx / 3 + r * sin (PI / 12)) (flat + r * (1 - cos (PI / 12))) 0 /\ axial a <= rs /\
      Rabs ((X b - X a) * sin (PI / 12) - (Y b - Y a) * cos (PI / 12)) <= eps.
Proof.
  intros h amax c sk (H0 & A0 & S1 & S2 & S3 & S4 & S5) H rs r flat. assert (S4' : shaftAcrossFlat c - shaftDiameter c / 2 + 2 * (prongDiameter c / 2) <= shaftDiameter c / 2) by lra.
  destruct (shaft_form h amax c S1 S2 S3 S4' sk H) as (l & EL & D). exists l. split; [exact EL|].
  destruct (socket h amax c H0 A0 S1 S2 S3 S4' S5 l D) as (M & PT & LOW & fx & F0 & FF & FI & PR & a & b & l1 & l2 & CL & EB & AX & RM).
  split; [exact M|]. split; [|split; [exact LOW|]].
  - intros p I. destruct (PT p I) as (A & B & C). split; [exact A|]. split; [exact B|]. replace (shaftAcrossFlat c + prongDiameter c) with (shaftDiameter c / 2 + (shaftAcrossFlat c - shaftDiameter c / 2) + 2 * (prongDiameter c / 2)) by field. exact C.
  - exists fx. split; [exact F0|]. split; [exact FF|]. split; [exact FI|]. split; [exact PR|]. exists a, b. split; [exists l1, l2; exact CL|]. split; [|split; [exact AX|exact RM]]. rewrite EB. f_equal. unfold flat, r, rs. ring.
Qed.
Print Assumptions C92_shaft_socket.
(* the finished socket leaves the shaft free, up to the tolerance of the cleaning *)
Theorem C92_socket_clears_shaft : forall h amax c sk, sane_socket h amax c -> shaftSketch2D (@mkQuality Rnum h amax) c = Ok sk ->
  forall p, In p sk -> Z p = 0 /\ (shaftDiameter c / 2 - 2 * eps <= axial p \/ shaftAcrossFlat c - shaftDiameter c / 2 - 2 * eps <= Y p) /\ axial p <= shaftAcrossFlat c + prongDiameter c.
Proof.
  intros h amax c sk SS H p I. destruct (C92_shaft_socket h amax c sk SS H) as (l & -> & _ & A & _). apply cleaned_in in I. destruct I as (p0 & I & ->). destruct (A p0 I) as (Z0 & B & C). pose proof (snap_axial p0). pose proof (snap_Y p0). pose proof eps_pos.
  split; [apply snap_flat, Z0|]. split; [destruct B as [B|B]; [left; lra|right; lra]|lra].
Qed.
Print Assumptions C92_socket_clears_shaft.

(** ** C91: the grooves *)
Lemma turn0 (x y : R) : x = x * 1 - y * 0. Proof. ring. Qed.
Lemma turn1 (x y : R) : y = x * 0 + y * 1. Proof. ring. Qed.
Lemma sub_back (a b d : R) : a - d = a + b - d - b. Proof. ring. Qed.
(* the grooves and their rounded corners fit beside each other around the knob: a corner circle of radius rho that touches the outer
   circle and the groove lies, seen from the axis, within half a sector of the middle of its groove (law of cosines) *)
Definition grooves_fit (rk gr rho inset : R) (n : nat) : Prop :=
  let g := rk + gr - inset in 2 * (rk - rho) * g * cos (PI / INR n) <= (rk - rho) * (rk - rho) + g * g - (gr + rho) * (gr + rho).
Theorem C91_grooves : forall h amax (c : @knob_cfg Rnum) sk, 0 < h -> 0 < amax < PI -> (0 < grooveCount c)%Z -> sane_outline c ->
  let rk := outerDiameter c / 2 in let n := Z.to_nat (grooveCount c) in
  grooves_fit rk (grooveDiameter c / 2) (grooveCornerRadius c) (grooveInset c) n ->
  grooveSketch2D (@mkQuality Rnum h amax) c = Ok sk ->
  exists l : list pt, sk = collapsed (esnapped l) (1 / 1000) /\
    (* one turn around the axis, without ever turning back *)
    sweeps l (PI / 2 - PI / INR n) (PI / 2 - PI / INR n + 2 * PI) /\
    (forall p, In p l -> Z p = 0 /\ rk - grooveInset c <= axial p <= rk) /\
    (* n equal sectors *)
    (exists s, l = concat (map (fun i => map (fun p => P (X p * cos (2 * PI / INR n * INR i) - Y p * sin (2 * PI / INR n * INR i)) (X p * sin (2 * PI / INR n * INR i) + Y p * cos (2 * PI / INR n * INR i)) (Z p)) s) (seq 0 n)) /\
      (* each the same on both sides, reaching from the full radius to the bottom of the groove *)
      rev (map vmirX s) = s /\ hd origin s = P (rk * cos (PI / 2 - PI / INR n)) (rk * sin (PI / 2 - PI / INR n)) 0 /\ In (P 0 (rk - grooveInset c) 0) s).
Proof.
  intros h amax c sk H0 A0 CT (R0 & I0 & G) rk n FIT H. pose proof eps_pos as EP. pose proof PI_RGT_0 as PP. destruct (G CT) as (G1 & G2 & G3). 
  destruct (sketch_form _ c CT G3 sk H) as (_ & TG & GG & cc & a1 & a2 & a3 & CX & CA & CB & ZC & SN & E1 & E2 & E3 & EL).
  exists (copies c (a1 ++ a2 ++ a3)). split; [exact EL|].
  assert (N0 : 0 < INR n) by (apply lt_0_INR; unfold n; lia). assert (N1 : 1 <= INR n) by (change 1 with (INR 1); apply le_INR; unfold n; lia).
  assert (PN : 0 < PI / INR n <= PI) by (split; [apply Rdiv_lt_0_compat; lra|apply (Rmult_le_reg_r (INR n)); [exact N0|]; unfold Rdiv; rewrite Rmult_assoc, Rinv_l by lra; rewrite Rmult_1_r; rewrite <- (Rmult_1_r PI) at 1; apply Rmult_le_compat_l; lra]).
  assert (ROOM : PI / 2 - PI / INR n <= vangle2D cc).
  { pose proof (atan2_right cc CX) as AR. destruct (Rle_dec (PI / 2 - PI / INR n) (vangle2D cc)) as [L|L]; [exact L|]. exfalso. assert (LT : sin (vangle2D cc) < sin (PI / 2 - PI / INR n)) by (apply sin_increasing_1; lra). rewrite sin_shift in LT.
    unfold grooves_fit in FIT. cbv zeta in FIT. fold rk in SN, CA, GG, G3, R0. set (g := rk + grooveDiameter c / 2 - grooveInset c) in *. set (a := rk - grooveCornerRadius c) in *. set (b := grooveDiameter c / 2 + grooveCornerRadius c) in *.
    assert (g0 : 0 < g) by lra. assert (a0 : 0 < a) by (unfold a; lra). assert (SN' : 2 * a * g * sin (vangle2D cc) = a * a + g * g - b * b). { transitivity (2 * g * (a * sin (vangle2D cc))); [ring|rewrite SN; field; lra]. }
    assert (2 * a * g * sin (vangle2D cc) < 2 * a * g * cos (PI / INR n)); [|lra]. apply Rmult_lt_compat_l; [|exact LT]. apply Rmult_lt_0_compat; lra. }
  split; [exact (one_turn _ c CT R0 G1 G2 G3 cc a1 a2 a3 TG GG CX CA CB ZC E1 E2 E3 h amax eq_refl H0 A0 ROOM)|]. split; [|].
  - apply in_copies.
    + intros p (A & B). rewrite mir_axial. split; [destruct p; exact A|exact B].
    + intros b p (A & B). rewrite turned_axial, turned_pt. split; [exact A|exact B].
    + intros p I. destruct (half_points _ c CT R0 G1 G2 G3 cc a1 a2 a3 TG GG CX CA CB ZC E1 E2 E3 p I) as (_ & ZP). split; [exact ZP|].
      destruct (half_radii _ c CT R0 G1 G2 G3 cc a1 a2 a3 TG GG CX CA CB ZC E1 E2 E3 p I) as (A & B). fold rk in A, B, GG, R0. set (gr := grooveDiameter c / 2) in *. set (i0 := grooveInset c) in *. replace (rk + gr - i0 - gr) with (rk - i0) in * by ring.
      split; [|apply axial_le; [lra|exact B]]. unfold axial. rewrite <- (sqrt_square (rk - i0)) by lra. apply sqrt_le_1_alt. exact A.
  - set (half := a1 ++ a2 ++ a3) in *. exists (half ++ rev (emirX half)). destruct (half_steps _ c CT R0 G1 G2 G3 cc a1 a2 a3 TG GG CX CA CB ZC E1 E2 E3 h amax eq_refl H0 A0 ROOM) as (_ & HH & HL & NE). fold half in HH, HL, NE. split; [|split; [|split]].
    + unfold copies. cbv zeta. fold n. replace (seq 0 n) with (0%nat :: seq 1 (n - 1)) by (change (0%nat :: seq 1 (n - 1)) with (seq 0 (S (n - 1))); f_equal; unfold n; lia). cbn [map concat]. f_equal.
      * rewrite <- (map_id (half ++ rev (emirX half))) at 1. apply map_ext. intros [x y z]. change (INR 0) with 0. rewrite Rmult_0_r, cos_0, sin_0. apply pt_ext; [exact (turn0 x y)|exact (turn1 x y)|reflexivity].
      * rewrite flat_map_concat_map. f_equal. apply map_ext. intros i. unfold turned_copy, etransformed. apply map_ext. intros p. exact (turned_pt _ p).
    + apply mir_sym.
    + rewrite hd_app by exact NE. exact HH.
    + apply in_or_app. left. fold rk in HL. rewrite (sub_back rk (grooveDiameter c / 2) (grooveInset c)). rewrite <- HL. clear - NE. destruct (exists_last NE) as (w & x & E). rewrite E, last_last. apply in_or_app. right. left. reflexivity.
Qed.
Print Assumptions C91_grooves.
(* with more grooves than fit the outline is still drawn, but it turns back on itself: the number of grooves is not checked *)
Theorem C91_crowded_turns_back : forall h amax (c : @knob_cfg Rnum) sk, 0 < h -> 0 < amax < PI -> (0 < grooveCount c)%Z -> sane_outline c ->
  let rk := outerDiameter c / 2 in let n := Z.to_nat (grooveCount c) in
  ~ grooves_fit rk (grooveDiameter c / 2) (grooveCornerRadius c) (grooveInset c) n ->
  grooveSketch2D (@mkQuality Rnum h amax) c = Ok sk ->
  exists l : list pt, sk = collapsed (esnapped l) (1 / 1000) /\
    exists a b, consecutive l a b /\ axial a = rk /\ axial b = rk /\ X a * Y b - Y a * X b < 0.
Proof.
  intros h amax c sk H0 A0 CT (R0 & I0 & G) rk n FIT H. pose proof eps_pos as EP. pose proof PI_RGT_0 as PP. destruct (G CT) as (G1 & G2 & G3). 
  destruct (sketch_form _ c CT G3 sk H) as (_ & TG & GG & cc & a1 & a2 & a3 & CX & CA & CB & ZC & SN & E1 & E2 & E3 & EL).
  exists (copies c (a1 ++ a2 ++ a3)). split; [exact EL|]. fold rk in SN, CA, GG, G3, R0, E1.
  assert (N0 : 0 < INR n) by (apply lt_0_INR; unfold n; lia). assert (N1 : 1 <= INR n) by (change 1 with (INR 1); apply le_INR; unfold n; lia).
  assert (PN : 0 < PI / INR n <= PI) by (split; [apply Rdiv_lt_0_compat; lra|apply (Rmult_le_reg_r (INR n)); [exact N0|]; unfold Rdiv; rewrite Rmult_assoc, Rinv_l by lra; rewrite Rmult_1_r; rewrite <- (Rmult_1_r PI) at 1; apply Rmult_le_compat_l; lra]).
  fold n in E1. set (s0 := PI / 2 - PI / INR n) in *. pose proof (atan2_right cc CX) as AR.
  assert (BACK : vangle2D cc < s0).
  { destruct (Rlt_dec (vangle2D cc) s0) as [L|L]; [exact L|]. exfalso. apply FIT. assert (LE : sin s0 <= sin (vangle2D cc)) by (apply sin_incr_1; unfold s0 in *; lra). unfold s0 in LE. rewrite sin_shift in LE.
    unfold grooves_fit. cbv zeta. set (g := rk + grooveDiameter c / 2 - grooveInset c) in *. set (a := rk - grooveCornerRadius c) in *. set (b := grooveDiameter c / 2 + grooveCornerRadius c) in *.
    assert (g0 : 0 < g) by lra. assert (a0 : 0 < a) by (unfold a; lra). assert (SN' : 2 * a * g * sin (vangle2D cc) = a * a + g * g - b * b). { transitivity (2 * g * (a * sin (vangle2D cc))); [ring|rewrite SN; field; lra]. }
    rewrite <- SN'. apply Rmult_le_compat_l; [|exact LE]. left. apply Rmult_lt_0_compat; lra. }
  assert (SB : Rabs (vangle2D cc - s0) <= PI) by (apply Rabs_le; unfold s0 in *; lra).
  destruct (arc_steps h amax rk s0 (vangle2D cc - s0) vzero a1 R0 H0 (proj1 A0) SB E1) as (_ & m & M1 & MB & EA). assert (M0 : 0 < INR m) by (apply lt_0_INR; lia).
  set (d := (vangle2D cc - s0) / INR m) in *. assert (D : - PI < d < 0).
  { rewrite Rabs_left in MB by lra. split.
    - apply (Rmult_lt_reg_r (INR m)); [exact M0|]. unfold d. replace ((vangle2D cc - s0) / INR m * INR m) with (vangle2D cc - s0) by (field; lra). assert (INR m * amax < INR m * PI) by (apply Rmult_lt_compat_l; lra). lra.
    - unfold d. apply (Rmult_lt_reg_r (INR m)); [exact M0|]. replace ((vangle2D cc - s0) / INR m * INR m) with (vangle2D cc - s0) by (field; lra). lra. }
  destruct m as [|m]; [lia|]. cbn [seq map] in EA. change (INR 0) with 0 in EA. change (INR 1) with 1 in EA. rewrite Rmult_0_l, Rplus_0_r, Rmult_1_l in EA.
  assert (ON : forall t, axial (circle_at vzero rk t) = rk).
  { intros t. apply axial_eq; [lra|]. change ((0 + rk * cos t) * (0 + rk * cos t) + (0 + rk * sin t) * (0 + rk * sin t) = rk * rk). pose proof (sin2_cos2 t) as Q. unfold Rsqr in Q. transitivity (rk * rk * (sin t * sin t + cos t * cos t)); [ring|rewrite Q; ring]. }
  exists (circle_at vzero rk s0), (circle_at vzero rk (s0 + d)). split; [|split; [apply ON|split; [apply ON|]]].
  - unfold consecutive, copies. cbv zeta. rewrite EA. exists []. eexists. cbn [app]. reflexivity.
  - change ((0 + rk * cos s0) * (0 + rk * sin (s0 + d)) - (0 + rk * sin s0) * (0 + rk * cos (s0 + d)) < 0). rewrite sin_plus, cos_plus. pose proof (sin2_cos2 s0) as Q. unfold Rsqr in Q.
    match goal with |- ?e < 0 => replace e with (rk * rk * sin d * (sin s0 * sin s0 + cos s0 * cos s0)) by ring end. rewrite Q, Rmult_1_r. assert (0 < sin (- d)) by (apply sin_gt_0; lra). rewrite sin_neg in *. assert (0 < rk * rk) by (apply Rmult_lt_0_compat; lra). assert (0 < rk * rk * - sin d) by (apply Rmult_lt_0_compat; lra). lra.
Qed.
Print Assumptions C91_crowded_turns_back.
(* and no exception is raised when the sizes admit the circles *)
Theorem C91_drawn : forall h amax (c : @knob_cfg Rnum), 0 < h -> 0 < amax -> (0 < grooveCount c)%Z -> sane_outline c ->
  let rk := outerDiameter c / 2 in let gr := grooveDiameter c / 2 in let rho := grooveCornerRadius c in let g := rk + gr - grooveInset c in
  (* the arcs are larger than the chord height *)
  h <= 2 * rk -> h <= 2 * gr -> rho = 0 \/ h <= 2 * rho ->
  (* the checks of the code *)
  sqrt (rk * rk + gr * gr) < g -> grooveInset c < outerChamfer c ->
  (* the circles of the corner really cross, and the corners of neighbours do not coincide *)
  let m := ((rk - rho) * (rk - rho) - (gr + rho) * (gr + rho) + g * g) / (2 * g) in
  eps * eps <= (rk - rho) * (rk - rho) - m * m -> (rk - rho) * cos (PI / INR (Z.to_nat (grooveCount c))) <> m ->
  exists sk, grooveSketch2D (@mkQuality Rnum h amax) c = Ok sk.
Proof.
  intros h amax c H0 A0 CT (R0 & I0 & G) rk gr rho g HR HG HO In1 In2 m CR RM. destruct (G CT) as (G1 & G2 & G3). 
  exact (groove_drawn h amax c CT R0 G1 G2 G3 H0 A0 HR HG HO I0 In1 In2 CR RM).
Qed.
Print Assumptions C91_drawn.
(* the default knob of chrumm.json, with n grooves *)
Definition knob_default (n : BinNums.Z) : @knob_cfg Rnum := @mkKnobCfg Rnum (199 / 10) (18 / 10) (12 / 10) (78 / 10) (26 / 10) (42 / 10) n 7 1 1 (435 / 100) (62 / 10) (87 / 100).
Lemma cos_12 : cos (PI / 12) * cos (PI / 12) = (1 + sqrt 3 / 2) / 2.
Proof.
  assert (E : cos (PI / 6) = 2 * cos (PI / 12) * cos (PI / 12) - 1) by (replace (PI / 6) with (2 * (PI / 12)) by field; apply cos_2a_cos). rewrite cos_PI6 in E. lra.
Qed.
Lemma sqrt3_range : 17 / 10 < sqrt 3 < 18 / 10.
Proof.
  split; [rewrite <- (sqrt_square (17 / 10)) by lra|rewrite <- (sqrt_square (18 / 10)) by lra]; apply sqrt_lt_1_alt; lra.
Qed.
Lemma default_sane n : sane_outline (knob_default n).
Proof. unfold sane_outline, knob_default, eps. cbn [outerDiameter grooveInset grooveDiameter grooveCornerRadius grooveCount]. split; [lra|]. split; [lra|]. intros _. split; [lra|]. split; [right; lra|lra]. Qed.
(* seven grooves fit and are drawn; twelve do not fit and are drawn nevertheless *)
Lemma default_fit k : INR (Z.to_nat k) = IZR k -> grooves_fit (outerDiameter (knob_default k) / 2) (grooveDiameter (knob_default k) / 2) (grooveCornerRadius (knob_default k)) (grooveInset (knob_default k)) (Z.to_nat k) <-> 2 * (895 / 100) * (1245 / 100) * cos (PI / IZR k) <= 2148550 / 10000.
Proof.
  intros E. unfold grooves_fit, knob_default. cbn [outerDiameter grooveInset grooveDiameter grooveCornerRadius grooveCount]. rewrite E. set (x := cos (PI / IZR k)). clearbody x.
  change (2 * (199 / 10 / 2 - 1) * (199 / 10 / 2 + 7 / 2 - 1) * x <= (199 / 10 / 2 - 1) * (199 / 10 / 2 - 1) + (199 / 10 / 2 + 7 / 2 - 1) * (199 / 10 / 2 + 7 / 2 - 1) - (7 / 2 + 1) * (7 / 2 + 1) <-> 2 * (895 / 100) * (1245 / 100) * x <= 2148550 / 10000). lra.
Qed.
Lemma default_drawn k : (0 < k)%Z -> INR (Z.to_nat k) = IZR k -> 2 * (895 / 100) * (1245 / 100) * cos (PI / IZR k) <> 2148550 / 10000 -> exists sk, grooveSketch2D (@mkQuality Rnum (1 / 100) (PI / 6)) (knob_default k) = Ok sk.
Proof.
  intros K E NE. pose proof PI_RGT_0 as PP. apply C91_drawn; try exact K; try apply default_sane; try lra; unfold knob_default; cbn [outerDiameter grooveInset grooveDiameter grooveCornerRadius grooveCount outerChamfer]; try lra.
  - change (sqrt (199 / 10 / 2 * (199 / 10 / 2) + 7 / 2 * (7 / 2)) < 199 / 10 / 2 + 7 / 2 - 1). rewrite <- (sqrt_square (199 / 10 / 2 + 7 / 2 - 1)) by lra. apply sqrt_lt_1_alt. lra.
  - unfold eps. match goal with |- _ <= _ - ?m * ?m => change (1 / 1000000 * (1 / 1000000) <= (199 / 10 / 2 - 1) * (199 / 10 / 2 - 1) - m * m); replace m with (2148550 / 10000 / (2 * (1245 / 100))) by (rn; field) end. lra.
  - rewrite E. set (x := cos (PI / IZR k)) in *. clearbody x. intros F. apply NE. change ((199 / 10 / 2 - 1) * x = ((199 / 10 / 2 - 1) * (199 / 10 / 2 - 1) - (7 / 2 + 1) * (7 / 2 + 1) + (199 / 10 / 2 + 7 / 2 - 1) * (199 / 10 / 2 + 7 / 2 - 1)) / (2 * (199 / 10 / 2 + 7 / 2 - 1))) in F.
    assert (F2 : (199 / 10 / 2 - 1) * x * (2 * (1245 / 100)) = 2148550 / 10000) by (rewrite F; field). lra.
Qed.
Lemma cos_7 : cos (PI / 7) < 95 / 100.
Proof.
  pose proof PI_RGT_0 as PP. apply Rle_lt_trans with (cos (PI / 8)); [left; apply cos_decreasing_1; lra|].
  assert (E : cos (PI / 4) = 2 * cos (PI / 8) * cos (PI / 8) - 1) by (replace (PI / 4) with (2 * (PI / 8)) by field; apply cos_2a_cos). rewrite cos_PI4 in E.
  assert (S2 : 14 / 10 < sqrt 2) by (rewrite <- (sqrt_square (14 / 10)) by lra; apply sqrt_lt_1_alt; lra). assert (I2 : 1 / sqrt 2 < 10 / 14). { apply (Rmult_lt_reg_r (sqrt 2)); [lra|]. unfold Rdiv. rewrite Rmult_assoc, Rinv_l by lra. lra. }
  assert (C0 : 0 < cos (PI / 8)) by (apply cos_gt_0; lra). destruct (Rlt_dec (cos (PI / 8)) (95 / 100)) as [L|L]; [exact L|]. exfalso. assert (95 / 100 * (95 / 100) <= cos (PI / 8) * cos (PI / 8)) by (apply Rmult_le_compat; lra). lra.
Qed.
Example C91_nonvacuous :
  (grooves_fit (199 / 10 / 2) (7 / 2) 1 1 7 /\ exists sk, grooveSketch2D (@mkQuality Rnum (1 / 100) (PI / 6)) (knob_default 7) = Ok sk) /\
  (~ grooves_fit (199 / 10 / 2) (7 / 2) 1 1 12 /\ exists sk, grooveSketch2D (@mkQuality Rnum (1 / 100) (PI / 6)) (knob_default 12) = Ok sk).
Proof.
  pose proof PI_RGT_0 as PP. assert (E7 : INR (Z.to_nat 7) = IZR 7) by (rewrite INR_IZR_INZ; reflexivity). assert (E12 : INR (Z.to_nat 12) = IZR 12) by (rewrite INR_IZR_INZ; reflexivity). pose proof cos_7 as C7. pose proof cos_12 as C12. pose proof sqrt3_range as S3.
  assert (C12' : 965 / 1000 < cos (PI / 12)). { assert (0 < cos (PI / 12)) by (apply cos_gt_0; lra). destruct (Rlt_dec (965 / 1000) (cos (PI / 12))) as [L|L]; [exact L|]. exfalso. assert (cos (PI / 12) * cos (PI / 12) <= 965 / 1000 * (965 / 1000)) by (apply Rmult_le_compat; lra). assert (1731 / 1000 < sqrt 3) by (rewrite <- (sqrt_square (1731 / 1000)) by lra; apply sqrt_lt_1_alt; lra). lra. }
  split; (split; [|apply default_drawn; [lia|assumption|lra]]).
  - apply (proj2 (default_fit 7 E7)). lra.
  - intros F. apply (proj1 (default_fit 12 E12)) in F. lra.
Qed.
Print Assumptions C91_nonvacuous.

(** ** C90: the size of the knob *)
(* what the corners of the knob can be; top of the knob at z = 0, open side at z = height *)
Definition knob_corner (c : @knob_cfg Rnum) (v : pt) : Prop :=
  let rk := outerDiameter c / 2 in let roof := k_roofThickness c in let inner := (roof + shaftHeight c)%R in let height := (skirtHeight c + shaftHeight c + roof)%R in
  let outline := rk - grooveInset c - 2 * eps <= axial v <= rk in
  (* the flat top *)
  v = origin \/ (Z v = 0 /\ axial v = rk - outerChamfer c) \/
  (* the end of the chamfer, which rises by 45 degrees *)
  (outline /\ Z v = axial v - (rk - outerChamfer c)) \/
  (* the outside and the inside of the rim *)
  (outline /\ Z v = height) \/ (axial v = rk - skirtThickness c /\ (Z v = height \/ Z v = inner)) \/
  (* the socket, closed by the roof *)
  (axial v <= shaftAcrossFlat c + prongDiameter c /\ (Z v = inner \/ Z v = roof)).
Lemma level_axial (p : pt) (z : R) : Z p = 0 -> axial (P (X p) (Y p) z) = axial p.
Proof. reflexivity. Qed.
Lemma vmag_axial (p : pt) : Z p = 0 -> vmag p = axial p.
Proof. destruct p as [x y z]. intros H. change (z = 0) in H. subst z. change (sqrt (x * x + y * y + 0 * 0) = sqrt (x * x + y * y)). f_equal. lra. Qed.
Lemma lifted (l : list pt) (z : R) (A : pt -> Prop) : (forall p, In p l -> Z p = 0 /\ A p) -> forall v, In v (etranslated l (V (0 : R) (0 : R) z)) -> exists p, In p l /\ A p /\ axial v = axial p /\ Z v = z.
Proof.
  intros H v I. apply in_map_iff in I. destruct I as ([x y w] & <- & I). destruct (H _ I) as (Z0 & HA). exists (V x y w). split; [exact I|]. split; [exact HA|]. change (w = 0) in Z0. subst w. split.
  - unfold axial. f_equal. change ((x + 0) * (x + 0) + (y + 0) * (y + 0) = x * x + y * y). ring.
  - change (0 + z = z). ring.
Qed.
Lemma knob_corners h amax (c : @knob_cfg Rnum) m : sane_outline c -> sane_socket h amax c -> eps <= outerDiameter c / 2 - skirtThickness c -> outerChamfer c <= outerDiameter c / 2 ->
  knob (@mkQuality Rnum h amax) c = Ok m -> forall v, In v (mesh_points m) -> knob_corner c v.
Proof.
  intros SO SS SK CH H. unfold knob in H. cbv zeta in H. change (half (outerDiameter c)) with (outerDiameter c / 2) in H. change (nsub (Num := Rnum) (outerDiameter c / 2) (outerChamfer c)) with (outerDiameter c / 2 - outerChamfer c) in H.
  apply bind_ok in H. destruct H as (gs & EG & H). apply bind_ok in H. destruct H as (ce & EC & H). apply bind_ok in H. destruct H as (ss & ES & H). apply bind_ok in H. destruct H as (sk & EK & H). apply Ok_inj in H. subst m.
  pose proof (outline_radii _ c gs SO EG) as OG. pose proof (C92_socket_clears_shaft h amax c ss SS ES) as OS.
  destruct (arc_circle _ (outerDiameter c / 2 - skirtThickness c) vzero sk SK EK) as (n & EN). set (rk := outerDiameter c / 2) in *.
  assert (OK : forall p, In p sk -> Z p = 0 /\ axial p = rk - skirtThickness c).
  { intros p I. rewrite EN in I. apply in_map_iff in I. destruct I as (i & <- & _). split; [reflexivity|]. set (a := INR i * (2 * PI / INR n)). set (k := rk - skirtThickness c) in *. pose proof eps_pos. apply axial_eq; [lra|].
    change ((0 + k * cos a) * (0 + k * cos a) + (0 + k * sin a) * (0 + k * sin a) = k * k). pose proof (sin2_cos2 a) as Q. unfold Rsqr in Q. transitivity (k * k * (sin a * sin a + cos a * cos a)); [ring|rewrite Q; ring]. }
  assert (OC : forall v, In v ce -> Z v = 0 /\ axial v = rk - outerChamfer c).
  { intros v I. destruct (made_by _ _ _ _ EC I) as (p & IP & E). apply bind_ok in E. destruct E as (d & ED & E). apply Ok_inj in E. subst v. destruct (OG p IP) as (ZP & _). apply vnorm_ok in ED. destruct ED as (NZ & ED).
    assert (ZD : Z d = 0) by (rewrite ED; change (/ len p * Z p = 0); rewrite ZP; ring). set (k := rk - outerChamfer c) in *.
    assert (UD : X d * X d + Y d * Y d = 1). { assert (U : unit_vec d) by (rewrite ED; apply unit_scaled; exact NZ). unfold unit_vec, inner in U. rewrite ZD in U. lra. }
    split; [destruct d as [x y z]; change (z * k = 0); change (z = 0) in ZD; rewrite ZD; apply Rmult_0_l|]. destruct d as [x y z]. apply axial_eq; [unfold k; lra|]. change (x * x + y * y = 1) in UD. change (x * k * (x * k) + y * k * (y * k) = k * k). transitivity (k * k * (x * x + y * y)); [ring|rewrite UD; ring]. }
  assert (OT : forall v, In v (map (fun p => dist_back p (rk - outerChamfer c)) gs) -> (rk - grooveInset c - 2 * eps <= axial v <= rk) /\ Z v = axial v - (rk - outerChamfer c)).
  { intros v I. apply in_map_iff in I. destruct I as (p & <- & I). destruct (OG p I) as (ZP & RP). assert (EA : axial (dist_back p (rk - outerChamfer c)) = axial p) by reflexivity. rewrite EA. split; [exact RP|]. change (vmag p - (rk - outerChamfer c) = axial p - (rk - outerChamfer c)). rewrite (vmag_axial p ZP). reflexivity. }
  set (zH := nadd (Num := Rnum) (nadd (Num := Rnum) (skirtHeight c) (shaftHeight c)) (k_roofThickness c)) in *. set (zI := nadd (Num := Rnum) (k_roofThickness c) (shaftHeight c)) in *.
  assert (OG1 : forall v, In v (etranslated gs (V (0 : R) (0 : R) (zH : R))) -> (rk - grooveInset c - 2 * eps <= axial v <= rk) /\ Z v = zH) by (intros v I; destruct (lifted gs zH _ OG v I) as (p & _ & A & E & Z1); rewrite E; split; [exact A|exact Z1]).
  assert (OK1 : forall z v, In v (etranslated sk (V (0 : R) (0 : R) (z : R))) -> axial v = rk - skirtThickness c /\ Z v = z) by (intros z v I; destruct (lifted sk z _ OK v I) as (p & _ & A & E & Z1); rewrite E; split; [exact A|exact Z1]).
  assert (OS1 : forall z v, In v (etranslated ss (V (0 : R) (0 : R) (z : R))) -> axial v <= shaftAcrossFlat c + prongDiameter c /\ Z v = z) by (intros z v I; destruct (lifted ss z _ OS v I) as (p & _ & (_ & A) & E & Z1); rewrite E; split; [exact A|exact Z1]).
  assert (CG : forall v, In v (etranslated gs (V (0 : R) (0 : R) (zH : R))) -> knob_corner c v) by (intros v I; right; right; right; left; exact (OG1 v I)).
  assert (CT : forall v, In v (map (fun p => dist_back p (rk - outerChamfer c)) gs) -> knob_corner c v) by (intros v I; right; right; left; exact (OT v I)).
  assert (CC : forall v, In v ce -> knob_corner c v) by (intros v I; right; left; exact (OC v I)).
  assert (CK1 : forall v, In v (etranslated sk (V (0 : R) (0 : R) (zH : R))) -> knob_corner c v) by (intros v I; destruct (OK1 _ v I) as [A B]; do 4 right; left; split; [exact A|left; exact B]).
  assert (CK2 : forall v, In v (etranslated sk (V (0 : R) (0 : R) (zI : R))) -> knob_corner c v) by (intros v I; destruct (OK1 _ v I) as [A B]; do 4 right; left; split; [exact A|right; exact B]).
  assert (CS1 : forall v, In v (etranslated ss (V (0 : R) (0 : R) (zI : R))) -> knob_corner c v) by (intros v I; destruct (OS1 _ v I) as [A B]; do 5 right; split; [exact A|left; exact B]).
  assert (CS2 : forall v, In v (etranslated ss (V (0 : R) (0 : R) (k_roofThickness c : R))) -> knob_corner c v) by (intros v I; destruct (OS1 _ v I) as [A B]; do 5 right; split; [exact A|right; exact B]).
  intros v I. cbn [meshes mesh_points concat app] in I. rewrite !app_nil_r in I. destruct I as [<-|I]; [left; reflexivity|].
  repeat match goal with J : In _ (_ ++ _) |- _ => apply in_app_or in J; destruct J as [J|J] end; try (apply (proj2 (in_rev _ _)) in I); first [apply CG; exact I|apply CT; exact I|apply CC; exact I|apply CK1; exact I|apply CK2; exact I|apply CS1; exact I|apply CS2; exact I].
Qed.
Theorem C90_knob_corners : forall lt_inf fuel sched h amax (c : @knob_cfg Rnum) m ts, sane_outline c -> sane_socket h amax c ->
  eps <= outerDiameter c / 2 - skirtThickness c -> outerChamfer c <= outerDiameter c / 2 ->
  knob (@mkQuality Rnum h amax) c = Ok m -> eval (triangulate lt_inf fuel sched) m = Ok ts ->
  forall t v, In t ts -> In v (corners t) -> knob_corner c v.
Proof.
  intros lt_inf fuel sched h amax c m ts SO SS SK CH H E t v It Iv. apply (knob_corners h amax c m SO SS SK CH H).
  eapply eval_corners; [|exact E|exact It|exact Iv]. intros e hs ts' t' v' F J K. eapply triangulate_corners; eassumption.
Qed.
Print Assumptions C90_knob_corners.
(* the box of the knob, and the material around its hollows *)
Theorem C90_knob_size : forall lt_inf fuel sched h amax (c : @knob_cfg Rnum) m ts, sane_outline c -> sane_socket h amax c ->
  let rk := outerDiameter c / 2 in let height := (skirtHeight c + shaftHeight c + k_roofThickness c)%R in
  eps <= rk - skirtThickness c -> 0 <= skirtThickness c -> 0 <= k_roofThickness c -> 0 <= shaftHeight c -> 0 <= skirtHeight c ->
  grooveInset c + 2 * eps <= outerChamfer c <= rk -> outerChamfer c <= height -> shaftAcrossFlat c + prongDiameter c <= rk ->
  knob (@mkQuality Rnum h amax) c = Ok m -> eval (triangulate lt_inf fuel sched) m = Ok ts ->
  forall t v, In t ts -> In v (corners t) -> axial v <= rk /\ 0 <= Z v <= height.
Proof.
  intros lt_inf fuel sched h amax c m ts SO SS rk height K0 K1 K2 K3 K4 (K5 & K6) K7 K8 H E t v It Iv. pose proof eps_pos as EP.
  assert (I0 : 0 <= grooveInset c) by apply SO. assert (RK : eps <= rk) by apply SO.
  destruct (C90_knob_corners lt_inf fuel sched h amax c m ts SO SS K0 K6 H E t v It Iv) as [->|[(A & B)|[(A & B)|[(A & B)|[(A & B)|(A & B)]]]]].
  - split; [|change (0 <= 0 <= height); unfold height; lra]. replace (axial origin) with 0; [lra|]. unfold axial. change (0 = sqrt (0 * 0 + 0 * 0)). rewrite Rmult_0_l, Rplus_0_r, sqrt_0. reflexivity.
  - rewrite A, B. fold rk. unfold height. lra.
  - fold rk in A, B. rewrite B. lra.
  - fold rk in A. rewrite B. unfold height. lra.
  - fold rk in A. rewrite A. destruct B as [B|B]; rewrite B; unfold height; lra.
  - destruct B as [B|B]; rewrite B; unfold height; split; lra.
Qed.
Print Assumptions C90_knob_size.

(** ** the socket is drawn *)
Theorem C92_drawn : forall h amax (c : @knob_cfg Rnum), sane_socket h amax c ->
  let rs := shaftDiameter c / 2 in let r := prongDiameter c / 2 in let flat := shaftAcrossFlat c - rs in let fx := sqrt (rs * rs - flat * flat) in
  (* the distance of the hinge of the prong from the axis *)
  let s := (rs + r + sin (PI / 12) * (fx / 3) - cos (PI / 12) * (flat + r)) / (1 + (sin (PI / 12) * (fx / rs) - cos (PI / 12) * (flat / rs))) in
  4 * eps <= fx / rs * (fx / rs) -> h <= 2 * rs -> h <= 2 * r -> h <= 2 * (fx / 3 - r / 3) -> h <= 2 * (rs - s) ->
  exists sk, shaftSketch2D (@mkQuality Rnum h amax) c = Ok sk.
Proof.
  intros h amax c (H0 & A0 & S1 & S2 & S3 & S4 & S5) rs r flat fx s K1 K2 K3 K4 K5. assert (S4' : shaftAcrossFlat c - shaftDiameter c / 2 + 2 * (prongDiameter c / 2) <= shaftDiameter c / 2) by lra.
  exact (shaft_drawn h amax c H0 A0 S3 S4' S5 K1 K2 K3 K4 K5).
Qed.
Print Assumptions C92_drawn.
Lemma cs_12 : 96 / 100 <= cos (PI / 12) /\ 22 / 100 <= sin (PI / 12).
Proof.
  pose proof PI_RGT_0 as PP. pose proof cos_12 as C. pose proof sqrt3_range as S. pose proof (sin2_cos2 (PI / 12)) as Q. unfold Rsqr in Q. assert (0 < cos (PI / 12)) by (apply cos_gt_0; lra). assert (0 < sin (PI / 12)) by (apply sin_gt_0; lra). split.
  - destruct (Rle_dec (96 / 100) (cos (PI / 12))) as [L|L]; [exact L|]. exfalso. assert (cos (PI / 12) * cos (PI / 12) <= 96 / 100 * (96 / 100)) by (apply Rmult_le_compat; lra). lra.
  - destruct (Rle_dec (22 / 100) (sin (PI / 12))) as [L|L]; [exact L|]. exfalso. assert (sin (PI / 12) * sin (PI / 12) <= 22 / 100 * (22 / 100)) by (apply Rmult_le_compat; lra). lra.
Qed.
Lemma default_socket n : sane_socket (1 / 100) (PI / 6) (knob_default n).
Proof.
  pose proof PI_RGT_0 as PP. pose proof cs_12 as (C & S). unfold sane_socket, knob_default, eps. cbv zeta. cbn [shaftDiameter prongDiameter shaftAcrossFlat].
  change (0 < 1 / 100 /\ 0 < PI / 6 /\ 1 / 1000000 <= 62 / 10 / 2 /\ 3 * (1 / 1000000) <= 87 / 100 / 2 /\ 0 <= 435 / 100 - 62 / 10 / 2 /\ 435 / 100 - 62 / 10 / 2 + 87 / 100 <= 62 / 10 / 2 /\ 435 / 100 - 62 / 10 / 2 <= 62 / 10 / 2 * cos (PI / 12)). lra.
Qed.
Example C92_nonvacuous : sane_socket (1 / 100) (PI / 6) (knob_default 7) /\ exists sk, shaftSketch2D (@mkQuality Rnum (1 / 100) (PI / 6)) (knob_default 7) = Ok sk.
Proof.
  split; [apply default_socket|]. pose proof cs_12 as (C & S). assert (C1 : cos (PI / 12) <= 1) by apply COS_bound. assert (S1 : sin (PI / 12) <= 1) by apply SIN_bound.
  apply C92_drawn; [apply default_socket|..]; unfold knob_default, eps; cbn [shaftDiameter prongDiameter shaftAcrossFlat];
  change (62 / 10 / 2) with (62 / 10 / 2); set (k := 62 / 10 / 2 * (62 / 10 / 2) - (435 / 100 - 62 / 10 / 2) * (435 / 100 - 62 / 10 / 2));
  assert (K : k = 80475 / 10000) by (unfold k; field); clearbody k; subst k;
  assert (F1 : 28 / 10 <= sqrt (80475 / 10000)) by (rewrite <- (sqrt_square (28 / 10)) by lra; apply sqrt_le_1_alt; lra);
  assert (F2 : sqrt (80475 / 10000) <= 29 / 10) by (rewrite <- (sqrt_square (29 / 10)) by lra; apply sqrt_le_1_alt; lra); set (f := sqrt (80475 / 10000)) in *; clearbody f; set (sa := sin (PI / 12)) in *; set (ca := cos (PI / 12)) in *; clearbody sa ca.
  - change (4 * (1 / 1000000) <= f / (62 / 10 / 2) * (f / (62 / 10 / 2))). assert (1 / 10 <= f / (62 / 10 / 2)) by lra. assert (1 / 10 * (1 / 10) <= f / (62 / 10 / 2) * (f / (62 / 10 / 2))) by (apply Rmult_le_compat; lra). lra.
  - change (1 / 100 <= 2 * (62 / 10 / 2)). lra.
  - change (1 / 100 <= 2 * (87 / 100 / 2)). lra.
  - change (1 / 100 <= 2 * (f / 3 - 87 / 100 / 2 / 3)). lra.
  - match goal with |- 1 / 100 <= 2 * (_ - ?s) => change (1 / 100 <= 2 * (62 / 10 / 2 - s)); assert (s <= 3); [|lra] end.
    change ((62 / 10 / 2 + 87 / 100 / 2 + sa * (f / 3) - ca * (435 / 100 - 62 / 10 / 2 + 87 / 100 / 2)) / (1 + (sa * (f / (62 / 10 / 2)) - ca * ((435 / 100 - 62 / 10 / 2) / (62 / 10 / 2)))) <= 3).
    assert (SF : 22 / 100 * (28 / 10) <= sa * f) by (apply Rmult_le_compat; lra).
    assert (D : 0 < 1 + (sa * (f / (62 / 10 / 2)) - ca * ((435 / 100 - 62 / 10 / 2) / (62 / 10 / 2)))) by lra.
    apply (Rmult_le_reg_r (1 + (sa * (f / (62 / 10 / 2)) - ca * ((435 / 100 - 62 / 10 / 2) / (62 / 10 / 2))))); [exact D|]. unfold Rdiv at 1. rewrite Rmult_assoc, Rinv_l by lra. lra.
Qed.
Print Assumptions C92_nonvacuous.
(* the whole default knob is built over the reals *)
Lemma mapM_some {A B} (f : A -> res B) l : (forall x, In x l -> exists y, f x = Ok y) -> exists l', mapM f l = Ok l'.
Proof.
  induction l as [|x l IH]; intros H; [exists []; reflexivity|]. destruct (H x (or_introl eq_refl)) as (y & E). destruct IH as (l' & E'); [intros z I; apply H; right; exact I|]. exists (y :: l'). cbn [mapM]. rewrite E. cbn [bind]. rewrite E'. reflexivity.
Qed.
Lemma knob_built h amax (c : @knob_cfg Rnum) gs ss : 0 < h -> 0 < amax -> sane_outline c -> 2 * eps < outerDiameter c / 2 - grooveInset c -> h <= 2 * (outerDiameter c / 2 - skirtThickness c) ->
  grooveSketch2D (@mkQuality Rnum h amax) c = Ok gs -> shaftSketch2D (@mkQuality Rnum h amax) c = Ok ss -> exists m, knob (@mkQuality Rnum h amax) c = Ok m.
Proof.
  intros H0 A0 SO RI HS EG ES. unfold knob. cbv zeta. rewrite EG. cbn [bind]. rewrite ES. pose proof (outline_radii _ c gs SO EG) as OG. pose proof PI_RGT_0 as PP.
  match goal with |- exists m, bind (mapM ?f ?l) _ = _ => destruct (mapM_some f l) as (ce & EC) end.
  { intros p I. destruct (OG p I) as (Z0 & A & _). assert (NZ : p <> origin). { intros F. rewrite F in A. replace (axial origin) with 0 in A; [lra|]. unfold axial. change (0 = sqrt (0 * 0 + 0 * 0)). rewrite Rmult_0_l, Rplus_0_r, sqrt_0. reflexivity. }
    rewrite (vnorm_spec p NZ). cbn [bind]. eexists. reflexivity. }
  rewrite EC. cbn [bind]. match goal with |- exists m, bind (arc2D ?q ?r ?s ?sp ?ce) _ = _ => destruct (arc_total_any h amax r s sp ce) as (sk & EK); [right; exact HS|exact H0|exact A0|change (2 * PI <> 0); lra|] end.
  rewrite EK. cbn [bind]. eexists. reflexivity.
Qed.
Example C90_nonvacuous : exists m, knob (@mkQuality Rnum (1 / 100) (PI / 6)) (knob_default 7) = Ok m /\ sane_outline (knob_default 7) /\ sane_socket (1 / 100) (PI / 6) (knob_default 7) /\
  eps <= outerDiameter (knob_default 7) / 2 - skirtThickness (knob_default 7) /\ grooveInset (knob_default 7) + 2 * eps <= outerChamfer (knob_default 7) <= outerDiameter (knob_default 7) / 2 /\
  outerChamfer (knob_default 7) <= skirtHeight (knob_default 7) + shaftHeight (knob_default 7) + k_roofThickness (knob_default 7) /\ shaftAcrossFlat (knob_default 7) + prongDiameter (knob_default 7) <= outerDiameter (knob_default 7) / 2.
Proof.
  destruct C91_nonvacuous as ((_ & gs & EG) & _). destruct C92_nonvacuous as (SS & ss & ES). pose proof PI_RGT_0 as PP.
  destruct (knob_built (1 / 100) (PI / 6) (knob_default 7) gs ss) as (m & EM); [lra|lra|apply default_sane| | |exact EG|exact ES|].
  - change (2 * (1 / 1000000) < 199 / 10 / 2 - 1). lra.
  - change (1 / 100 <= 2 * (199 / 10 / 2 - 26 / 10)). lra.
  - exists m. split; [exact EM|]. split; [apply default_sane|]. split; [exact SS|].
    change (1 / 1000000 <= 199 / 10 / 2 - 26 / 10 /\ 1 + 2 * (1 / 1000000) <= 18 / 10 <= 199 / 10 / 2 /\ 18 / 10 <= 42 / 10 + 78 / 10 + 12 / 10 /\ 435 / 100 + 87 / 100 <= 199 / 10 / 2). lra.
Qed.
Print Assumptions C90_nonvacuous.
