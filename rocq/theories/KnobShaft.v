(** The socket of the knob, over the reals. *)
From Coq Require Import Reals Lra Psatz ZArith List Bool Arith Lia.
From Verif Require Import Num GeoModel EdgeModel GeoSpec GeoMat GeoRigid GeoPlane GeoCirc ArcModel ArcSpec ArcProof ArcCorner ArcShape MeshModel BossSpec BossProof PartProof KnobModel KnobSpec KnobGroove KnobTurn.
Import ListNotations.
Open Scope R_scope.

(* two level lines that are intersected meet *)
Lemma lintersect_flat (s o : @line Rnum) v : wf_line s -> wf_line o -> Z (lpos s) = 0 -> Z (lpos o) = 0 -> Z (ldir s) = 0 -> Z (ldir o) = 0 -> lintersect s o = Ok v ->
  on_line s v /\ on_line o v.
Proof.
  intros Ws Wo Z1 Z2 Z3 Z4 H. destruct (lintersect_spec s o v Ws Wo H) as (a & b & (k1 & A) & (k2 & B) & E & P1 & P2).
  assert (NP : ~ Rabs (1 - inner (ldir s) (ldir o) * inner (ldir s) (ldir o)) < eps). { intros C. apply (lintersect_err s o Ws Wo) in C. destruct C as (e & C). rewrite C in H. discriminate. }
  assert (AB : a = b).
  { assert (ZA : Z a = 0) by (rewrite A; change (Z (lpos s) + k1 * Z (ldir s) = 0); rewrite Z1, Z3; ring). assert (ZB : Z b = 0) by (rewrite B; change (Z (lpos o) + k2 * Z (ldir o) = 0); rewrite Z2, Z4; ring).
    unfold inner, minus, wf_line, unit_vec in *. unfold inner in *. rewrite Z3, Z4 in *. set (x := X (ldir s)) in *. set (y := Y (ldir s)) in *. set (x' := X (ldir o)) in *. set (y' := Y (ldir o)) in *.
    change (X (P (X a - X b) (Y a - Y b) (Z a - Z b))) with (X a - X b) in *. change (Y (P (X a - X b) (Y a - Y b) (Z a - Z b))) with (Y a - Y b) in *. change (Z (P (X a - X b) (Y a - Y b) (Z a - Z b))) with (Z a - Z b) in *.
    set (dx := X a - X b) in *. set (dy := Y a - Y b) in *. assert (D : (x * y' - x' * y) * (x * y' - x' * y) = 1 - (x * x' + y * y') * (x * x' + y * y')).
    { transitivity ((x * x + y * y + 0 * 0) * (x' * x' + y' * y' + 0 * 0) - (x * x' + y * y') * (x * x' + y * y')); [ring|rewrite Ws, Wo; ring]. }
    assert (D0 : x * y' - x' * y <> 0). { intros F. apply NP. rewrite F in D. replace (1 - (x * x' + y * y' + 0 * 0) * (x * x' + y * y' + 0 * 0)) with 0 by (rewrite !Rmult_0_l, !Rplus_0_r; rewrite <- D; ring). rewrite Rabs_R0. exact eps_pos. }
    assert (DX : dx = 0). { apply (Rmult_eq_reg_l (x * y' - x' * y)); [|exact D0]. transitivity (y' * (dx * x + dy * y + (Z a - Z b) * 0) - y * (dx * x' + dy * y' + (Z a - Z b) * 0)); [ring|rewrite P1, P2; ring]. }
    assert (DY : dy = 0). { apply (Rmult_eq_reg_l (x * y' - x' * y)); [|exact D0]. transitivity (x * (dx * x' + dy * y' + (Z a - Z b) * 0) - x' * (dx * x + dy * y + (Z a - Z b) * 0)); [ring|rewrite P1, P2; ring]. }
    apply pt_ext; [unfold dx in DX; lra|unfold dy in DY; lra|lra]. }
  assert (V1 : v = a). { rewrite E, <- AB. apply pt_ext; unfold scaled, plus; [change (1 / 2 * (X a + X a) = X a)|change (1 / 2 * (Y a + Y a) = Y a)|change (1 / 2 * (Z a + Z a) = Z a)]; field. }
  rewrite V1. split; [exists k1; exact A|rewrite AB; exists k2; exact B].
Qed.

Section Shaft.
Variables h amax : R.
Let q := @mkQuality Rnum h amax.
Variable c : @knob_cfg Rnum.
Let Rs : R := shaftDiameter c / 2.
Let r : R := prongDiameter c / 2.
Let fy : R := shaftAcrossFlat c - Rs.
Let al : R := PI / 12.
Hypothesis H0 : 0 < h.
Hypothesis A0 : 0 < amax.
Hypothesis Rs0 : eps <= Rs.
Hypothesis r0 : 3 * eps <= r.
Hypothesis Fy0 : 0 <= fy.
Hypothesis Fy1 : fy + 2 * r <= Rs.
Hypothesis Fy2 : fy <= Rs * cos al.
Lemma al_range : 0 < al < PI / 6. Proof. unfold al. pose proof PI_RGT_0. lra. Qed.
Lemma cos_al : 1 / 2 < cos al < 1.
Proof.
  pose proof al_range as A. pose proof PI_RGT_0 as PP. split.
  - rewrite <- cos_PI3. apply cos_decreasing_1; lra.
  - rewrite <- cos_0. apply cos_decreasing_1; lra.
Qed.
Lemma sin_al : 0 < sin al. Proof. apply sin_gt_0; pose proof al_range; pose proof PI_RGT_0; lra. Qed.
Lemma versine : 1 - cos al <= 2 / 3 * sin al.
Proof.
  pose proof al_range as A. pose proof PI_RGT_0 as PP. set (b := al / 2). assert (E1 : cos al = 1 - 2 * sin b * sin b) by (replace al with (2 * b) by (unfold b; field); apply cos_2a_sin). assert (E2 : sin al = 2 * sin b * cos b) by (replace al with (2 * b) by (unfold b; field); apply sin_2a).
  rewrite E1, E2. assert (S0 : 0 < sin b) by (apply sin_gt_0; unfold b; lra). assert (S1 : sin b < 1 / 2) by (rewrite <- sin_PI6; apply sin_increasing_1; unfold b; lra).
  assert (C1 : 3 / 4 <= cos b). { pose proof (sin2_cos2 b) as Q. unfold Rsqr in Q. assert (C0 : 0 < cos b) by (apply cos_gt_0; unfold b; lra). destruct (Rle_dec (3 / 4) (cos b)) as [L|L]; [exact L|]. exfalso. assert (sin b * sin b < 1 / 2 * (1 / 2)) by (apply Rmult_le_0_lt_compat; lra). assert (cos b * cos b < 3 / 4 * (3 / 4)) by (apply Rmult_le_0_lt_compat; lra). lra. }
  assert (sin b * (2 / 3 * cos b - sin b) >= 0) by (apply Rle_ge, Rmult_le_pos; lra). lra.
Qed.
Definition drawn (l : list pt) : Prop := exists fx hx hy hr nr ny ns s b1 b2 b3 b4, fx * fx + fy * fy = Rs * Rs /\ 0 < fx /\
  hx = s * (fx / Rs) /\ hy = s * (fy / Rs) /\ 0 < s /\ hr = Rabs (Rs - s) /\ nr = fx / 3 - r / 3 /\
  - sin al * (fx / 3 + r * sin al - hx) + cos al * (fy + r - r * cos al - hy) = Rs - s /\
  (ny - (fy + r)) * (ny - (fy + r)) = (r + nr) * (r + nr) - fx / 3 * (fx / 3) /\ 0 <= ny - (fy + r) /\ 
  fx / 3 = sqrt (fx / 3 * (fx / 3) + (fy + r - ny) * (fy + r - ny)) * cos ns /\ fy + r - ny = sqrt (fx / 3 * (fx / 3) + (fy + r - ny) * (fy + r - ny)) * sin ns /\ - (PI / 2) < ns < PI / 2 /\
  @arc2D Rnum q Rs (3 * PI / 2) (PI / 2 + vangle2D (P hx hy 0)) vzero = Ok b1 /\
  @arc2D Rnum q hr (vangle2D (P hx hy 0)) (PI / 2 + al - vangle2D (P hx hy 0)) (P hx hy 0) = Ok b2 /\
  @arc2D Rnum q r (3 * PI / 2 + al) (ns - PI / 2 - al) (P (fx / 3) (fy + r) 0) = Ok b3 /\
  @arc2D Rnum q nr ns (PI / 2 - ns) (P 0 ny 0) = Ok b4 /\
  l = (b1 ++ b2 ++ b3 ++ b4) ++ rev (emirX (b1 ++ b2 ++ b3 ++ b4)).
Lemma fx_pos (fx : R) : fx * fx = Rs * Rs - fy * fy -> 0 <= fx -> 0 < fx.
Proof.
  intros E F. pose proof cos_al as C. pose proof eps_pos as EP. destruct F as [F|F]; [exact F|]. exfalso. subst fx. assert (fy < Rs) by (assert (Rs * cos al < Rs * 1) by (apply Rmult_lt_compat_l; lra); lra). assert (fy * fy < Rs * Rs) by (apply Rmult_le_0_lt_compat; lra). lra.
Qed.
Lemma unit_id (p : pt) d : inner p p = 1 -> vnorm p = Ok d -> d = p.
Proof. intros U H. rewrite (vnorm_of_unit p U) in H. apply Ok_inj in H. symmetry. exact H. Qed.
Lemma shaft_form sk : shaftSketch2D q c = Ok sk -> exists l, sk = collapsed (esnapped l) (1 / 1000) /\ drawn l.
Proof.
  intros H. pose proof eps_pos as EP. pose proof cos_al as CA. pose proof sin_al as SA. pose proof al_range as AL. pose proof PI_RGT_0 as PP. pose proof (sin2_cos2 al) as SC. unfold Rsqr in SC.
  unfold shaftSketch2D in H. cbv zeta in H. change (half (shaftDiameter c)) with Rs in H. change (half (prongDiameter c)) with r in H. change (nsub (Num := Rnum) (shaftAcrossFlat c) Rs) with fy in H.
  assert (EAL : @radians15 Rnum = al) by (change (15 * (PI / 180) = al); unfold al; field). rewrite !EAL in H.
  apply bind_ok in H. destruct H as (fx0 & EF & H). assert (exists fx : R, fx = fx0) as (fx & RF) by eauto. subst fx0. apply psqrt_ok in EF. destruct EF as [F0 EF]. change (0 <= Rs * Rs - fy * fy) in F0. change (fx = sqrt (Rs * Rs - fy * fy)) in EF.
  assert (FX : fx * fx = Rs * Rs - fy * fy) by (rewrite EF; apply sqrt_sqrt; exact F0). assert (FXP : 0 < fx) by (apply fx_pos; [exact FX|rewrite EF; apply sqrt_pos]). clear EF F0.
  assert (EPX : nmul (Num := Rnum) fx (ndiv (Num := Rnum) (nZ 1) (nZ 3)) = fx / 3) by (change (fx * (1 / 3) = fx / 3); field). rewrite !EPX in H.
  assert (ENR : nsub (Num := Rnum) (fx / 3) (nmul (Num := Rnum) r (nsub (Num := Rnum) (nZ 1) (ndiv (Num := Rnum) (nZ 2) (nZ 3)))) = fx / 3 - r / 3) by (change (fx / 3 - r * (1 - 2 / 3) = fx / 3 - r / 3); field). rewrite !ENR in H.
  set (nr := fx / 3 - r / 3) in *. apply bind_ok in H. destruct H as (no0 & EN & H). assert (exists no : R, no = no0) as (no & RN) by eauto. subst no0. apply psqrt_ok in EN. destruct EN as [N0 EN].
  assert (NO : no * no = (r + nr) * (r + nr) - fx / 3 * (fx / 3)) by (rewrite EN; apply sqrt_sqrt; exact N0). assert (NOP : 0 <= no) by (rewrite EN; apply sqrt_pos). clear EN N0.
  apply bind_ok in H. destruct H as (fd & EFD & H). apply bind_ok in H. destruct H as (st & EST & H). apply bind_ok in H. destruct H as (pt_ & EPT & H). apply bind_ok in H. destruct H as (bp & EBP & H).
  apply bind_ok in H. destruct H as (hb & EHB & H). apply bind_ok in H. destruct H as (hc & EHC & H).
  apply bind_ok in H. destruct H as (b1 & E1 & H). apply bind_ok in H. destruct H as (b2 & E2 & H). apply bind_ok in H. destruct H as (b3 & E3 & H). apply bind_ok in H. destruct H as (b4 & E4 & H). apply Ok_inj in H.
  set (u := P (fx / Rs) (fy / Rs) 0).
  assert (UU : fx / Rs * (fx / Rs) + fy / Rs * (fy / Rs) = 1) by (transitivity ((fx * fx + fy * fy) / (Rs * Rs)); [field; lra|rewrite FX; field; lra]).
  (* the lines *)
  assert (FD : fd = mkLine vzero u).
  { unfold newLine in EFD. apply bind_ok in EFD. destruct EFD as (d & ED & EFD). apply Ok_inj in EFD. subst fd. f_equal.
    assert (L : len (P fx fy 0) = Rs) by (unfold len, inner; change (sqrt (fx * fx + fy * fy + 0 * 0) = Rs); replace (fx * fx + fy * fy + 0 * 0) with (Rs * Rs) by (rewrite FX; ring); apply sqrt_square; lra).
    change (vnorm (P fx fy 0) = Ok d) in ED. rewrite vnorm_spec in ED by (intros F; apply (f_equal X) in F; change (fx = 0) in F; lra). apply Ok_inj in ED. subst d. rewrite L. apply pt_ext; [change (/ Rs * fx = fx / Rs); field; lra|change (/ Rs * fy = fy / Rs); field; lra|change (/ Rs * 0 = 0); ring]. }
  subst fd. set (w := P (- (fy / Rs)) (fx / Rs) 0).
  assert (ST : st = mkLine (P fx fy 0) w).
  { unfold newLine in EST. apply bind_ok in EST. destruct EST as (d & ED & EST). apply Ok_inj in EST. subst st. change (@mkLine Rnum (P fx fy 0) d = mkLine (P fx fy 0) w). f_equal. apply unit_id in ED; [exact ED|]. change (- (fy / Rs) * - (fy / Rs) + fx / Rs * (fx / Rs) + 0 * 0 = 1). lra. }
  subst st. set (e := P (cos al) (sin al) 0). set (T := P (fx / 3 + r * sin al) (fy + r - r * cos al) 0).
  assert (PT : pt_ = mkLine T e).
  { unfold newLine in EPT. apply bind_ok in EPT. destruct EPT as (d & ED & EPT). apply Ok_inj in EPT. subst pt_. apply unit_id in ED; [|change (cos al * cos al + sin al * sin al + 0 * 0 = 1); lra]. subst d.
    f_equal. unfold T. apply pt_ext; [change (fx / 3 - - sin al * r = fx / 3 + r * sin al); ring|change (fy + r - cos al * r = fy + r - r * cos al); ring|change (0 - 0 * r = 0); ring]. }
  subst pt_. assert (WU : unit_vec u) by (unfold unit_vec; change (fx / Rs * (fx / Rs) + fy / Rs * (fy / Rs) + 0 * 0 = 1); lra).
  assert (WW : unit_vec w) by (unfold unit_vec; change (- (fy / Rs) * - (fy / Rs) + fx / Rs * (fx / Rs) + 0 * 0 = 1); lra).
  assert (WE : unit_vec e) by (unfold unit_vec; change (cos al * cos al + sin al * sin al + 0 * 0 = 1); lra).
  destruct (lintersect_flat (mkLine (P fx fy 0) w) (mkLine T e) bp WW WE eq_refl eq_refl eq_refl eq_refl EBP) as ((k1 & B1) & (k2 & B2)). cbn [lpos ldir] in B1, B2.
  destruct (newLine_ok _ _ _ EHB) as (HBW & HBP & HBD & _).
  assert (exists lam, ldir hb = scaled lam (vadd w e)) as (lam & HL). { exact HBD || (unfold newLine in EHB; apply bind_ok in EHB; destruct EHB as (d & ED & EHB); apply Ok_inj in EHB; subst hb; apply vnorm_ok in ED; destruct ED as (_ & ED); eexists; exact ED). }
  assert (ZB : Z bp = 0) by (rewrite B1; change (0 + k1 * 0 = 0); ring).
  assert (ZH : Z (ldir hb) = 0) by (rewrite HL; change (lam * (0 + 0) = 0); ring).
  destruct (lintersect_flat (mkLine vzero u) hb hc WU HBW eq_refl ltac:(rewrite HBP; exact ZB) eq_refl ZH EHC) as ((s & S1) & (k3 & S2)). cbn [lpos ldir] in S1. rewrite HBP, HL in S2.
  assert (HC : hc = P (s * (fx / Rs)) (s * (fy / Rs)) 0) by (rewrite S1; apply pt_ext; [change (0 + s * (fx / Rs) = s * (fx / Rs)); ring|change (0 + s * (fy / Rs) = s * (fy / Rs)); ring|change (0 + s * 0 = 0); ring]).
  (* coordinates *)
  assert (BX : X bp = fx + k1 * - (fy / Rs)) by (rewrite B1; reflexivity). assert (BY : Y bp = fy + k1 * (fx / Rs)) by (rewrite B1; reflexivity).
  assert (BX' : X bp = fx / 3 + r * sin al + k2 * cos al) by (rewrite B2; reflexivity). assert (BY' : Y bp = fy + r - r * cos al + k2 * sin al) by (rewrite B2; reflexivity).
  set (k := k3 * lam). assert (HX : s * (fx / Rs) = X bp + k * (- (fy / Rs) + cos al)).
  { transitivity (X hc); [rewrite HC; reflexivity|]. rewrite S2. change (X bp + k3 * (lam * (- (fy / Rs) + cos al)) = X bp + k * (- (fy / Rs) + cos al)). unfold k. ring. }
  assert (HY : s * (fy / Rs) = Y bp + k * (fx / Rs + sin al)).
  { transitivity (Y hc); [rewrite HC; reflexivity|]. rewrite S2. change (Y bp + k3 * (lam * (fx / Rs + sin al)) = Y bp + k * (fx / Rs + sin al)). unfold k. ring. }
  set (ux := fx / Rs) in *. set (uy := fy / Rs) in *. assert (FU : fx = Rs * ux) by (unfold ux; field; lra). assert (FV : fy = Rs * uy) by (unfold uy; field; lra).
  assert (SK : s - Rs = k * (ux * cos al + uy * sin al)).
  { assert (M1 : ux * (s * ux) = ux * (Rs * ux + k1 * - uy + k * (- uy + cos al))) by (rewrite HX, BX, <- FU; reflexivity).
    assert (M2 : uy * (s * uy) = uy * (Rs * uy + k1 * ux + k * (ux + sin al))) by (rewrite HY, BY, <- FV; reflexivity).
    assert (M3 : s * (ux * ux + uy * uy) = s) by (rewrite UU; ring). assert (M4 : Rs * (ux * ux + uy * uy) = Rs) by (rewrite UU; ring). lra. }
  assert (NK : - sin al * (s * ux - (fx / 3 + r * sin al)) + cos al * (s * uy - (fy + r - r * cos al)) = k * (ux * cos al + uy * sin al)).
  { rewrite HX, HY, BX', BY'. ring. }
  assert (TAN : - sin al * (fx / 3 + r * sin al - s * ux) + cos al * (fy + r - r * cos al - s * uy) = Rs - s) by lra.
  assert (UX : 0 < ux) by (unfold ux; apply Rdiv_lt_0_compat; lra). assert (UY : 0 <= uy) by (unfold uy, Rdiv; apply Rmult_le_pos; [exact Fy0|left; apply Rinv_0_lt_compat; lra]). assert (UY1 : uy <= 1) by nra.
  assert (SP : 0 < s).
  { assert (E : s * (1 + sin al * ux - cos al * uy) = Rs + r + sin al * (fx / 3) - cos al * (fy + r)) by (replace r with (r * (sin al * sin al + cos al * cos al)) at 1 by (rewrite SC; ring); lra).
    assert (D : 0 < 1 + sin al * ux - cos al * uy). { assert (0 < sin al * ux) by (apply Rmult_lt_0_compat; lra). assert (cos al * uy <= 1 * 1) by (apply Rmult_le_compat; lra). lra. }
    assert (0 <= sin al * (fx / 3)) by (apply Rmult_le_pos; lra). assert (cos al * (fy + r) <= 1 * (fy + r)) by (apply Rmult_le_compat_r; lra). apply (Rmult_lt_reg_r (1 + sin al * ux - cos al * uy)); [exact D|]. lra. }
  set (ny := fy + r + no) in *.
  assert (NSE : exists ns, ns = vangle2D (P (fx / 3) (fy + r - ny) 0)) by eauto. destruct NSE as (ns & NSE).
  assert (E0 : vsub (V (fx / 3 : R) (fy + r : R) (0 : R)) (V (0 : R) (ny : R) (0 : R)) = P (fx / 3) (fy + r - ny) 0) by (apply pt_ext; [change (fx / 3 - 0 = fx / 3); ring|reflexivity|change (0 - 0 = 0); ring]).
  assert (E0a : vangle2D (vsub (V (fx / 3 : R) (fy + r : R) (0 : R)) (V (0 : R) (ny : R) (0 : R))) = ns) by (rewrite E0; symmetry; exact NSE).
  exists ((b1 ++ b2 ++ b3 ++ b4) ++ rev (emirX (b1 ++ b2 ++ b3 ++ b4))). split; [symmetry; exact H|].
  exists fx, (s * ux), (s * uy), (Rabs (Rs - s)), nr, ny, ns, s, b1, b2, b3, b4.
  split; [rewrite FX; ring|]. split; [exact FXP|]. split; [reflexivity|]. split; [reflexivity|]. split; [exact SP|]. split; [reflexivity|]. split; [reflexivity|]. split; [exact TAN|].
  replace (ny - (fy + r)) with no by (unfold ny; ring). split; [exact NO|]. split; [exact NOP|].
  assert (QP : 0 < fx / 3 * (fx / 3) + (fy + r - ny) * (fy + r - ny)). { assert (0 < fx / 3 * (fx / 3)) by (apply Rmult_lt_0_compat; lra). pose proof (Rle_0_sqr (fy + r - ny)) as Q. unfold Rsqr in Q. lra. }
  destruct (polar (P (fx / 3) (fy + r - ny) 0) (sqrt (fx / 3 * (fx / 3) + (fy + r - ny) * (fy + r - ny))) (sqrt_lt_R0 _ QP)) as (PX & PY); [change (fx / 3 * (fx / 3) + (fy + r - ny) * (fy + r - ny) = sqrt (fx / 3 * (fx / 3) + (fy + r - ny) * (fy + r - ny)) * sqrt (fx / 3 * (fx / 3) + (fy + r - ny) * (fy + r - ny))); symmetry; apply sqrt_sqrt; lra|].
  rewrite <- NSE in PX, PY. split; [exact PX|]. split; [exact PY|]. split; [rewrite NSE; apply atan2_right; change (0 < fx / 3); lra|].
  rewrite HC in E1, E2. split; [|split; [|split; [|split; [|reflexivity]]]].
  - eapply eq_trans; [|exact E1]. f_equal. change (3 * PI / 2 = PI / 2 * 3). field.
  - eapply eq_trans; [|exact E2]. change (vangle2D (P (s * ux) (s * uy) 0)) with (vangle2D (P (s * ux) (s * uy) 0)).
    assert (HR : vmag2D (vsub (P (s * ux) (s * uy) 0) (V (fx : R) (fy : R) (0 : R))) = Rabs (Rs - s)).
    { unfold vmag2D. change (sqrt ((s * ux - fx) * (s * ux - fx) + (s * uy - fy) * (s * uy - fy)) = Rabs (Rs - s)). rewrite FU, FV.
      replace ((s * ux - Rs * ux) * (s * ux - Rs * ux) + (s * uy - Rs * uy) * (s * uy - Rs * uy)) with ((Rs - s)² * (ux * ux + uy * uy)) by (unfold Rsqr; ring). rewrite UU, Rmult_1_r. apply sqrt_Rsqr_abs. }
    rewrite <- HR. reflexivity.
  - eapply eq_trans; [|exact E3]. f_equal; [change (3 * PI / 2 + al = PI / 2 * 3 + al); field|]. eapply eq_trans; [|exact (f_equal (fun t : R => PI + t - (PI / 2 * 3 + al)) (eq_sym E0a))]. field.
  - eapply eq_trans; [|exact E4]. f_equal; [exact (eq_sym E0a)|]. exact (f_equal (fun t : R => PI / 2 - t) (eq_sym E0a)).
Qed.

Lemma mirX_twice (l : list pt) : rev (emirX (rev (emirX l))) = l.
Proof.
  change (rev (map vmirX (rev (map vmirX l))) = l). rewrite map_rev, rev_involutive, map_map. rewrite <- (map_id l) at 2. apply map_ext. intros [x y z]. apply pt_ext; [change (- - x = x); ring|reflexivity|reflexivity].
Qed.
Lemma mir_sym (l : list pt) : rev (emirX (l ++ rev (emirX l))) = l ++ rev (emirX l).
Proof. change (rev (map vmirX (l ++ rev (emirX l))) = l ++ rev (emirX l)). rewrite map_app, rev_app_distr. f_equal. exact (mirX_twice l). Qed.
Lemma axial_le (p : pt) (m : R) : 0 <= m -> X p * X p + Y p * Y p <= m * m -> axial p <= m.
Proof. intros M H. unfold axial. rewrite <- (sqrt_square m M). apply sqrt_le_1_alt. exact H. Qed.
Lemma axial_eq (p : pt) (m : R) : 0 <= m -> X p * X p + Y p * Y p = m * m -> axial p = m.
Proof. intros M H. unfold axial. rewrite H. apply sqrt_square. exact M. Qed.
(* a point of a circle whose centre lies at distance at most d *)
Lemma circle_far (x y d m t : R) : 0 <= d -> 0 <= m -> x * x + y * y <= d * d -> axial (P (x + m * cos t) (y + m * sin t) 0) <= d + m.
Proof.
  intros D M H. apply axial_le; [lra|]. change ((x + m * cos t) * (x + m * cos t) + (y + m * sin t) * (y + m * sin t) <= (d + m) * (d + m)).
  pose proof (sin2_cos2 t) as Q. unfold Rsqr in Q. assert (IP : x * cos t + y * sin t <= d).
  { destruct (Rle_dec (x * cos t + y * sin t) 0) as [L|L]; [lra|]. apply Rsqr_incr_0_var; [|exact D]. unfold Rsqr.
    pose proof (Rle_0_sqr (x * sin t - y * cos t)) as W. unfold Rsqr in W.
    assert (E : (x * cos t + y * sin t) * (x * cos t + y * sin t) + (x * sin t - y * cos t) * (x * sin t - y * cos t) = (x * x + y * y) * (sin t * sin t + cos t * cos t)) by ring. rewrite Q in E. lra. }
  assert (E : (x + m * cos t) * (x + m * cos t) + (y + m * sin t) * (y + m * sin t) = x * x + y * y + m * m * (sin t * sin t + cos t * cos t) + 2 * (m * (x * cos t + y * sin t))) by ring. rewrite E, Q.
  assert (m * (x * cos t + y * sin t) <= m * d) by (apply Rmult_le_compat_l; lra). lra.
Qed.
(* sines between two directions of the upper half *)
Lemma sin_between a b t : - (PI / 2) <= a -> a <= t <= b -> b <= 3 * PI / 2 -> Rmin (sin a) (sin b) <= sin t.
Proof.
  intros A T B. pose proof PI_RGT_0 as PP. destruct (Rle_dec t (PI / 2)) as [L|L].
  - eapply Rle_trans; [apply Rmin_l|]. apply sin_incr_1; lra.
  - eapply Rle_trans; [apply Rmin_r|]. apply sin_decr_1; lra.
Qed.
Definition ramp (a b : pt) : Prop := (Y b - Y a) * cos al = (X b - X a) * sin al.
Lemma socket l : drawn l -> rev (emirX l) = l /\
  (forall p, In p l -> Z p = 0 /\ (axial p = Rs \/ fy - eps <= Y p) /\ axial p <= Rs + fy + 2 * r) /\
  In (P 0 (- Rs) 0) l /\
  exists fx, 0 < fx /\ fx * fx + fy * fy = Rs * Rs /\ In (P fx fy 0) l /\
  (exists p, In p l /\ fx / 3 - r <= X p <= fx / 3 + r /\ fy <= Y p <= fy + h) /\
  exists a b l1 l2, l = l1 ++ a :: b :: l2 /\ b = P (fx / 3 + r * sin al) (fy + r - r * cos al) 0 /\ axial a <= Rs /\ Rabs ((X b - X a) * sin al - (Y b - Y a) * cos al) <= eps.
Proof.
  intros (fx & hx & hy & hr & nr & ny & ns & s & b1 & b2 & b3 & b4 & FF & FX & HX & HY & S0 & HR & NR & TAN & NY & NY0 & NC & NS & NSR & E1 & E2 & E3 & E4 & EL).
  pose proof eps_pos as EP. pose proof cos_al as CA. pose proof sin_al as SA. pose proof al_range as AL. pose proof PI_RGT_0 as PP. pose proof (sin2_cos2 al) as SC. unfold Rsqr in SC.
  set (ux := fx / Rs) in *. set (uy := fy / Rs) in *. assert (FU : fx = Rs * ux) by (unfold ux; field; lra). assert (FV : fy = Rs * uy) by (unfold uy; field; lra).
  assert (UX : 0 < ux) by (unfold ux; apply Rdiv_lt_0_compat; lra). assert (UY : 0 <= uy) by (unfold uy, Rdiv; apply Rmult_le_pos; [exact Fy0|left; apply Rinv_0_lt_compat; lra]).
  assert (UU : ux * ux + uy * uy = 1). { unfold ux, uy. transitivity ((fx * fx + fy * fy) / (Rs * Rs)); [field; lra|rewrite FF; field; lra]. }
  assert (UC : uy <= cos al). { apply (Rmult_le_reg_l Rs); [lra|]. rewrite <- FV. exact Fy2. }
  assert (R2 : 2 * r <= fx). { apply Rsqr_incr_0_var; [|lra]. unfold Rsqr. assert ((fy + 2 * r) * (fy + 2 * r) <= Rs * Rs) by (apply Rmult_le_compat; lra). assert (0 <= fy * (2 * r)) by (apply Rmult_le_pos; lra). lra. }
  assert (FXR : fx <= Rs). { apply Rsqr_incr_0_var; [|lra]. unfold Rsqr. assert (0 <= fy * fy) by apply Rle_0_sqr. lra. }
  assert (NR0 : eps <= nr) by (rewrite NR; lra).
  assert (SR : s <= Rs).
  { pose proof TAN as TN. rewrite HX, HY in TN. assert (E : s * (1 + sin al * ux - cos al * uy) = Rs + r + sin al * (fx / 3) - cos al * (fy + r)) by (replace r with (r * (sin al * sin al + cos al * cos al)) at 1 by (rewrite SC; ring); lra).
    assert (D : 0 < 1 + sin al * ux - cos al * uy). { assert (0 < sin al * ux) by (apply Rmult_lt_0_compat; lra). assert (cos al * uy <= cos al * cos al) by (apply Rmult_le_compat_l; lra). assert (cos al * cos al <= 1 * 1) by (apply Rmult_le_compat; lra). lra. }
    apply (Rmult_le_reg_r (1 + sin al * ux - cos al * uy)); [exact D|]. rewrite E.
    assert (E2' : Rs * (1 + sin al * ux - cos al * uy) = Rs + sin al * fx - cos al * fy) by (rewrite FU, FV; ring). rewrite E2'.
    pose proof versine as VS. assert (r * (1 - cos al) <= fx * (2 / 3 * sin al)) by (apply Rmult_le_compat; lra). lra. }
  assert (HRE : hr = Rs - s) by (rewrite HR; apply Rabs_right; lra).
  assert (AH : vangle2D (P hx hy 0) = vangle2D (P fx fy 0)).
  { change (Ratan2 hy hx = Ratan2 fy fx). rewrite HX, HY. replace fx with (Rs * ux) by (symmetry; exact FU). replace fy with (Rs * uy) by (symmetry; exact FV). rewrite !Ratan2_scale by lra. reflexivity. }
  set (aH := vangle2D (P hx hy 0)) in *.
  assert (POL : fx = Rs * cos aH /\ fy = Rs * sin aH). { rewrite AH. apply (polar (P fx fy 0) Rs); [lra|exact FF]. } destruct POL as [PX PY].
  assert (CU : cos aH = ux) by (apply (Rmult_eq_reg_l Rs); lra). assert (SU : sin aH = uy) by (apply (Rmult_eq_reg_l Rs); lra).
  assert (AR : - (PI / 2) < aH < PI / 2) by (rewrite AH; apply atan2_right; exact FX).
  assert (A1 : 0 <= aH). { destruct (Rle_dec 0 aH) as [L|L]; [exact L|]. exfalso. assert (sin aH < sin 0) by (apply sin_increasing_1; lra). rewrite sin_0 in *. lra. }
  assert (A2 : aH <= PI / 2 + al) by lra.
  (* the four arcs *)
  assert (B1 : forall p, In p b1 -> Z p = 0 /\ axial p = Rs).
  { intros p I. assert (SB : Rabs (PI / 2 + aH) <= PI) by (apply Rabs_le; lra). assert (Rs1 : Rs = 0 \/ eps <= Rs) by (right; exact Rs0). destruct (arc_between q Rs _ _ vzero b1 Rs1 SB E1 eq_refl p I) as (t & _ & ->). split; [reflexivity|]. apply axial_eq; [lra|].
    change ((0 + Rs * cos t) * (0 + Rs * cos t) + (0 + Rs * sin t) * (0 + Rs * sin t) = Rs * Rs). pose proof (sin2_cos2 t) as Q. unfold Rsqr in Q. transitivity (Rs * Rs * (sin t * sin t + cos t * cos t)); [ring|rewrite Q; ring]. }
  assert (HD : hx * hx + hy * hy = s * s). { rewrite HX, HY. transitivity (s * s * (ux * ux + uy * uy)); [ring|rewrite UU; ring]. }
  assert (B2 : b2 = [P hx hy 0] /\ hr < eps \/ eps <= hr).
  { destruct (Rlt_dec hr eps) as [L|L]; [left|right; lra]. split; [|exact L]. unfold arc2D in E2. destruct (nltb (Num := Rnum) hr (nQ 1 1000000)) eqn:C; [apply Ok_inj in E2; symmetry; exact E2|]. change (Rltb hr (1 / 1000000) = false) in C. apply Rltb_false in C. unfold eps in L. lra. }
  assert (SP2 : Rabs (PI / 2 + al - aH) <= PI) by (apply Rabs_le; lra).
  assert (B2P : forall p, In p b2 -> Z p = 0 /\ fy - eps <= Y p /\ axial p <= Rs).
  { intros p I. destruct B2 as [(-> & L)|L].
    - destruct I as [<-|[]]. split; [reflexivity|]. split; [|].
      + change (fy - eps <= hy). rewrite HY, FV. assert (Rs * uy - s * uy <= eps); [|lra]. assert ((Rs - s) * uy <= (Rs - s) * 1) by (apply Rmult_le_compat_l; lra). lra.
      + apply axial_le; [lra|]. change (hx * hx + hy * hy <= Rs * Rs). rewrite HD. apply Rmult_le_compat; lra.
    - destruct (arc_between q hr _ _ (P hx hy 0) b2 (or_intror L) SP2 E2 eq_refl p I) as (t & B & ->). split; [reflexivity|]. change (X (P hx hy 0)) with hx. change (Y (P hx hy 0)) with hy. split.
      + change (fy - eps <= hy + hr * sin t). assert (BB : aH <= t <= PI / 2 + al) by (unfold between in B; lra). assert (SB : Rmin (sin aH) (sin (PI / 2 + al)) <= sin t) by (apply sin_between; lra).
        assert (CS : sin (PI / 2 + al) = cos al) by (symmetry; apply cos_sin). rewrite SU, CS, Rmin_left in SB by lra. assert (hr * uy <= hr * sin t) by (apply Rmult_le_compat_l; lra). rewrite HRE in *. rewrite HY. rewrite FV. lra.
      + eapply Rle_trans; [apply (circle_far hx hy s hr t); lra|]. lra. }
  assert (RR : eps <= r) by lra.
  assert (SP3 : Rabs (ns - PI / 2 - al) <= 3 * PI / 2) by (apply Rabs_le; lra).
  destruct (arc_steps_wide h amax r _ _ (P (fx / 3) (fy + r) 0) b3 RR H0 A0 SP3 E3) as (_ & n & N1 & NB & NH & EB3).
  assert (B3P : forall p, In p b3 -> exists t, p = P (fx / 3 + r * cos t) (fy + r + r * sin t) 0). { intros p I. rewrite EB3 in I. apply in_map_iff in I. destruct I as (i & <- & _). eexists. reflexivity. }
  assert (B3Q : forall p, In p b3 -> Z p = 0 /\ fy <= Y p /\ axial p <= Rs + fy + 2 * r).
  { intros p I. destruct (B3P p I) as (t & ->). split; [reflexivity|]. pose proof (SIN_bound t). split; [change (fy <= fy + r + r * sin t); assert (r * -1 <= r * sin t) by (apply Rmult_le_compat_l; lra); lra|].
    eapply Rle_trans; [apply (circle_far (fx / 3) (fy + r) (fx / 3 + (fy + r)) r t)|]; try lra. assert (0 <= fx / 3 * (fy + r)) by (apply Rmult_le_pos; lra). lra. }
  assert (DD : sqrt (fx / 3 * (fx / 3) + (fy + r - ny) * (fy + r - ny)) = r + nr).
  { replace ((fy + r - ny) * (fy + r - ny)) with ((ny - (fy + r)) * (ny - (fy + r))) by ring. rewrite NY. replace (fx / 3 * (fx / 3) + ((r + nr) * (r + nr) - fx / 3 * (fx / 3))) with ((r + nr) * (r + nr)) by ring. apply sqrt_square. lra. }
  rewrite DD in NC, NS.
  assert (SP4 : Rabs (PI / 2 - ns) <= PI) by (apply Rabs_le; lra).
  assert (NYB : ny - (fy + r) <= r + nr). { apply Rsqr_incr_0_var; [|lra]. unfold Rsqr. rewrite NY. assert (0 <= fx / 3 * (fx / 3)) by apply Rle_0_sqr. lra. }
  assert (B4P : forall p, In p b4 -> Z p = 0 /\ fy <= Y p /\ axial p <= Rs + fy + 2 * r).
  { intros p I. destruct (arc_between q nr _ _ (P 0 ny 0) b4 (or_intror NR0) SP4 E4 eq_refl p I) as (t & B & ->). split; [reflexivity|]. assert (BB : ns <= t <= PI / 2) by (unfold between in B; lra). split.
    - change (fy <= ny + nr * sin t). assert (sin ns <= sin t) by (apply sin_incr_1; lra). assert (nr * sin ns <= nr * sin t) by (apply Rmult_le_compat_l; lra). pose proof (SIN_bound ns). assert (r * sin ns <= r * 1) by (apply Rmult_le_compat_l; lra). lra.
    - change (axial (P (0 + nr * cos t) (ny + nr * sin t) 0) <= Rs + fy + 2 * r). eapply Rle_trans; [apply (circle_far 0 ny ny nr t); lra|]. rewrite NR in *. lra. }
  assert (HALF : forall p, In p (b1 ++ b2 ++ b3 ++ b4) -> Z p = 0 /\ (axial p = Rs \/ fy - eps <= Y p) /\ axial p <= Rs + fy + 2 * r).
  { intros p I. apply in_app_or in I. destruct I as [I|I]; [destruct (B1 p I) as (? & ->); split; [assumption|split; [left; reflexivity|lra]]|]. apply in_app_or in I. destruct I as [I|I]; [destruct (B2P p I) as (? & ? & ?); split; [assumption|split; [right; lra|lra]]|].
    apply in_app_or in I. destruct I as [I|I]; [destruct (B3Q p I) as (? & ? & ?); split; [assumption|split; [right; lra|lra]]|]. destruct (B4P p I) as (? & ? & ?); split; [assumption|split; [right; lra|lra]]. }
  assert (SP1 : Rabs (PI / 2 + aH) <= 3 * PI / 2) by (apply Rabs_le; lra).
  destruct (arc_steps_wide h amax Rs _ _ vzero b1 Rs0 H0 A0 SP1 E1) as (_ & m & M1 & _ & _ & EB1).
  split; [rewrite EL; apply mir_sym|]. split; [|split].
  - intros p I. rewrite EL in I. apply in_app_or in I. destruct I as [I|I]; [apply HALF; exact I|]. apply in_rev in I. rewrite rev_involutive in I || idtac. apply in_map_iff in I. destruct I as ([x y z] & <- & I). destruct (HALF _ I) as (Z1 & Y1 & X1).
    assert (AX : axial (vmirX (V x y z)) = axial (V x y z)) by (unfold axial; f_equal; change (- x * - x + y * y = x * x + y * y); ring). rewrite AX. split; [exact Z1|split; [exact Y1|exact X1]].
  - rewrite EL. apply in_or_app. left. apply in_or_app. left. rewrite EB1. apply in_map_iff. exists 0%nat. split; [|apply in_seq; lia]. cbn [INR]. unfold circle_at.
    replace (3 * PI / 2 + 0 * ((PI / 2 + aH) / INR m)) with (3 * (PI / 2)) by (unfold Rdiv; ring). rewrite cos_3PI2, sin_3PI2. apply pt_ext; [change (0 + Rs * 0 = 0); ring|change (0 + Rs * -1 = - Rs); ring|reflexivity].
  - exists fx. split; [exact FX|]. split; [exact FF|]. split; [|split].
    + rewrite EL. apply in_or_app. left. apply in_or_app. left. rewrite EB1. apply in_map_iff. exists m. split; [|apply in_seq; lia]. unfold circle_at. assert (M0 : 0 < INR m) by (apply lt_0_INR; lia).
      replace (3 * PI / 2 + INR m * ((PI / 2 + aH) / INR m)) with (aH + 2 * PI) by (field; lra). rewrite cos_plus, sin_plus, cos_2PI, sin_2PI. apply pt_ext; [change (0 + Rs * (cos aH * 1 - sin aH * 0) = fx); lra|change (0 + Rs * (sin aH * 1 + cos aH * 0) = fy); lra|reflexivity].
    + (* a corner of the prong within half a step of its lowest direction *)
      set (sp := ns - PI / 2 - al) in *. assert (SPN : sp < 0) by (unfold sp; lra). assert (N0 : 0 < INR n) by (apply lt_0_INR; lia). set (d := - sp / INR n). assert (D0 : 0 < d) by (apply Rdiv_lt_0_compat; lra).
      assert (DC : d <= chord_limit h amax r). { apply (Rmult_le_reg_r (INR n)); [exact N0|]. unfold d. replace (- sp / INR n * INR n) with (- sp) by (field; lra). rewrite Rabs_left in NB by exact SPN. lra. }
      assert (KK : exists k, (k <= n)%nat /\ Rabs (al - INR k * d) <= d / 2).
      { assert (GEN : forall j, (j <= n)%nat -> (exists k, (k <= n)%nat /\ Rabs (al - INR k * d) <= d / 2) \/ INR j * d + d / 2 < al).
        { induction j as [|j IH]; intros J.
          - destruct (Rle_dec al (d / 2)) as [L|L]; [left; exists 0%nat; split; [lia|]; cbn [INR]; apply Rabs_le; lra|right; cbn [INR]; lra].
          - destruct IH as [IH|IH]; [lia|left; exact IH|]. rewrite S_INR. destruct (Rle_dec al ((INR j + 1) * d + d / 2)) as [L|L]; [left; exists (S j); split; [exact J|]; rewrite S_INR; apply Rabs_le; lra|right; lra]. }
        destruct (GEN n (le_n n)) as [G|G]; [exact G|]. exfalso. unfold d in G at 1. replace (INR n * (- sp / INR n)) with (- sp) in G by (field; lra). unfold sp in G. lra. }
      destruct KK as (k & KN & KD). exists (circle_at (P (fx / 3) (fy + r) 0) r (3 * PI / 2 + al + INR k * (sp / INR n))). split.
      * rewrite EL. apply in_or_app. left. apply in_or_app. right. apply in_or_app. right. apply in_or_app. left. rewrite EB3. apply in_map_iff. exists k. split; [reflexivity|apply in_seq; lia].
      * replace (3 * PI / 2 + al + INR k * (sp / INR n)) with ((al - INR k * d) + 3 * (PI / 2)) by (unfold d; field; lra). set (e := al - INR k * d) in *. unfold circle_at. change (X (P (fx / 3) (fy + r) 0)) with (fx / 3). change (Y (P (fx / 3) (fy + r) 0)) with (fy + r).
        assert (SE : sin (e + 3 * (PI / 2)) = - cos e) by (rewrite sin_plus, cos_3PI2, sin_3PI2; ring). pose proof (COS_bound (e + 3 * (PI / 2))) as CB. pose proof (COS_bound e) as CE.
        split; [change (fx / 3 - r <= fx / 3 + r * cos (e + 3 * (PI / 2)) <= fx / 3 + r); assert (r * -1 <= r * cos (e + 3 * (PI / 2))) by (apply Rmult_le_compat_l; lra); assert (r * cos (e + 3 * (PI / 2)) <= r * 1) by (apply Rmult_le_compat_l; lra); lra|].
        change (fy <= fy + r + r * sin (e + 3 * (PI / 2)) <= fy + h). rewrite SE. assert (r * cos e <= r * 1) by (apply Rmult_le_compat_l; lra).
        assert (SG : r * (1 - cos e) <= h); [|lra].
        assert (HC : -1 <= 1 - h / r < 1). { assert (0 < h / r) by (apply Rdiv_lt_0_compat; lra). assert (h / r <= 2) by (apply (Rmult_le_reg_r r); [lra|unfold Rdiv; rewrite Rmult_assoc, Rinv_l; lra]). lra. }
        assert (DA : d / 2 <= acos (1 - h / r)). { unfold chord_limit in DC. pose proof (Rmin_r amax (2 * acos (1 - h / r))). lra. }
        pose proof (acos_bound (1 - h / r)) as AB. assert (CC : 1 - h / r <= cos e).
        { rewrite <- (cos_acos (1 - h / r)) by lra. assert (EE : cos e = cos (Rabs e)) by (unfold Rabs; destruct (Rcase_abs e); [rewrite cos_neg; reflexivity|reflexivity]). rewrite EE. pose proof (Rabs_pos e). apply cos_decr_1; lra. }
        assert (r * (1 - h / r) <= r * cos e) by (apply Rmult_le_compat_l; lra). replace (r * (1 - h / r)) with (r - h) in * by (field; lra). lra.
    + assert (E3L : b3 = P (fx / 3 + r * sin al) (fy + r - r * cos al) 0 :: tl b3).
      { rewrite EB3 at 1. destruct n as [|n']; [lia|]. cbn [seq map]. rewrite EB3. cbn [seq map tl]. f_equal. change (INR 0) with 0. unfold circle_at. replace (3 * PI / 2 + al + 0 * ((ns - PI / 2 - al) / INR (S n'))) with (al + 3 * (PI / 2)) by (unfold Rdiv; ring).
        rewrite cos_plus, sin_plus, cos_3PI2, sin_3PI2. apply pt_ext; [change (fx / 3 + r * (cos al * 0 - sin al * -1) = fx / 3 + r * sin al); ring|change (fy + r + r * (sin al * 0 + cos al * -1) = fy + r - r * cos al); ring|reflexivity]. }
      assert (NE2 : exists l0 a, b2 = l0 ++ [a] /\ axial a <= Rs /\ Rabs ((fx / 3 + r * sin al - X a) * sin al - (fy + r - r * cos al - Y a) * cos al) <= eps).
      { destruct B2 as [(-> & L)|L].
        - exists [], (P hx hy 0). split; [reflexivity|]. split; [apply B2P; left; reflexivity|]. change (Rabs ((fx / 3 + r * sin al - hx) * sin al - (fy + r - r * cos al - hy) * cos al) <= eps).
          replace ((fx / 3 + r * sin al - hx) * sin al - (fy + r - r * cos al - hy) * cos al) with (- (Rs - s)) by (rewrite <- TAN; ring). rewrite Rabs_Ropp, <- HR. lra.
        - assert (SP2' : Rabs (PI / 2 + al - aH) <= 3 * PI / 2) by (apply Rabs_le; lra). destruct (arc_steps_wide h amax hr _ _ (P hx hy 0) b2 L H0 A0 SP2' E2) as (_ & k & K1 & _ & _ & EB2). assert (K0 : 0 < INR k) by (apply lt_0_INR; lia).
          rewrite seq_S, map_app in EB2. cbn [map Nat.add] in EB2. eexists. eexists. split; [exact EB2|]. replace (aH + INR k * ((PI / 2 + al - aH) / INR k)) with (PI / 2 + al) by (field; lra). split.
          + apply B2P. rewrite EB2. apply in_or_app. right. left. f_equal. field. lra.
          + unfold circle_at. assert (CS : sin (PI / 2 + al) = cos al) by (symmetry; apply cos_sin). assert (CC : cos (PI / 2 + al) = - sin al) by (rewrite sin_cos; ring). rewrite CS, CC.
            change (Rabs ((fx / 3 + r * sin al - (hx + hr * - sin al)) * sin al - (fy + r - r * cos al - (hy + hr * cos al)) * cos al) <= eps).
            replace ((fx / 3 + r * sin al - (hx + hr * - sin al)) * sin al - (fy + r - r * cos al - (hy + hr * cos al)) * cos al) with (hr * (sin al * sin al + cos al * cos al) - (- sin al * (fx / 3 + r * sin al - hx) + cos al * (fy + r - r * cos al - hy))) by ring.
            rewrite SC, TAN, HRE. replace ((Rs - s) * 1 - (Rs - s)) with 0 by ring. rewrite Rabs_R0. lra. }
      destruct NE2 as (l0 & a & EB2 & AX & RP). exists a, (P (fx / 3 + r * sin al) (fy + r - r * cos al) 0), (b1 ++ l0), (tl b3 ++ b4 ++ rev (emirX (b1 ++ b2 ++ b3 ++ b4))). split.
      * rewrite EL. set (M := rev (emirX (b1 ++ b2 ++ b3 ++ b4))). rewrite EB2, E3L at 1. cbn [tl]. rewrite <- !app_assoc. cbn [app]. rewrite <- ?app_assoc. reflexivity.
      * split; [reflexivity|]. split; [exact AX|exact RP].
Qed.
End Shaft.
