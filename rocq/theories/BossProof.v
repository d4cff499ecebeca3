(** Screw bosses, over the reals. *)
From Coq Require Import Reals Lra Psatz ZArith List Bool Arith Lia.
From Verif Require Import Num GeoModel EdgeModel GeoSpec GeoMat GeoRigid GeoCirc ArcModel ArcSpec ArcProof ArcCorner ArcShape MeshModel LayoutModel LayoutProof BossModel EdgeSpecR EdgeReal PartProof BossSpec.
Import ListNotations.
Open Scope R_scope.

Lemma Ratan2_scale k x y : 0 < k -> Ratan2 (k * y) (k * x) = Ratan2 y x.
Proof.
  intros K. assert (E : x <> 0 -> k * y / (k * x) = y / x) by (intros; field; lra). unfold Ratan2.
  assert (S : forall u, (0 < k * u <-> 0 < u) /\ (k * u < 0 <-> u < 0) /\ (0 <= k * u <-> 0 <= u)) by (intros; repeat split; intros; nra).
  destruct (S x) as (A1 & A2 & _). destruct (S y) as (B1 & B2 & B3).
  destruct (Rlt_dec 0 (k * x)), (Rlt_dec 0 x); try tauto; [rewrite E by lra; reflexivity|].
  destruct (Rlt_dec (k * x) 0), (Rlt_dec x 0); try tauto; [rewrite E by lra; destruct (Rle_dec 0 (k * y)), (Rle_dec 0 y); tauto|].
  destruct (Rlt_dec 0 (k * y)), (Rlt_dec 0 y); try tauto. destruct (Rlt_dec (k * y) 0), (Rlt_dec y 0); tauto.
Qed.
Lemma level_len d : level d -> 0 < sqrt (X d * X d + Y d * Y d).
Proof. intros [H|H]; apply sqrt_lt_R0; nra. Qed.
Lemma angle_cs d : level d -> cos (vangle2D d) = ux d /\ sin (vangle2D d) = uy d.
Proof.
  intros H. pose proof (level_len d H) as L. set (s := sqrt _) in *. unfold ux, uy. fold s.
  assert (E : vangle2D d = Ratan2 (Y d / s) (X d / s)). { change (Ratan2 (Y d) (X d) = Ratan2 (Y d / s) (X d / s)). rewrite <- (Ratan2_scale s (X d / s) (Y d / s) L). f_equal; field; lra. }
  rewrite E. apply atan2_unit. assert (SS : s * s = X d * X d + Y d * Y d) by (apply sqrt_sqrt; apply Rplus_le_le_0_compat; apply Rle_0_sqr).
  transitivity ((X d * X d + Y d * Y d) / (s * s)); [field; lra|rewrite SS; field; rewrite <- SS; nra].
Qed.
Lemma turned_pt a (p : pt) : transformed p (mrotZ mid a None) = P (X p * cos a - Y p * sin a) (X p * sin a + Y p * cos a) (Z p).
Proof. apply pt_ext; unfold mrotZ, rotate_about, rotZ, transformed, mmul, mid, X, Y, Z, P; cbn; rn; ring. Qed.

Section B.
Variable q : @quality Rnum.
Variable c : @boss_cfg Rnum.
(* scaling a unit drawing *)
Lemma ring_scaled (r s z : R) (pos : pt) l k : eps <= r -> @arc2D Rnum q r (nZ 0) tau vzero = Ok l -> @pdiv Rnum (nZ 1) r = Ok k ->
  exists n, forall (s z : R), etranslated (escaled (escaled l k vzero) s vzero) (V (vx pos) (vy pos) z) = ring n pos s z.
Proof.
  intros HR HA HK. pose proof eps_pos as EP. destruct (arc_circle q r vzero l HR HA) as (n & EL). exists n. intros s' z'.
  assert (EK : k = 1 / r). { rewrite pdiv_nz in HK by lra. apply Ok_inj in HK. symmetry. exact HK. }
  rewrite EL. unfold etranslated, escaled, ring. rewrite !map_map. apply map_ext. intros i. rewrite EK. set (t := INR i * _). clearbody t. destruct pos as [p1 p2 p3].
  apply pt_ext; unfold X, Y, Z, P; cbn; rn; field; lra.
Qed.
Lemma head_form pos a : eps <= clearanceHoleDiameter c / 2 -> headArcs q c pos = Ok a ->
  let cr := clearanceHoleDiameter c / 2 in let sr := Rmin (countersinkDiameter c / 2) (cr + (floorOuterHeight c - clearanceHoleLength c)) in
  let L := Rmin (floorOuterHeight c) (clearanceHoleLength c + (countersinkDiameter c / 2 - cr)) in
  exists n, a = (ring n pos cr 0, ring n pos cr (- clearanceHoleLength c), ring n pos sr (- L), ring n pos sr (- floorOuterHeight c)).
Proof.
  intros HR H cr sr L. unfold headArcs in H. cbv zeta in H. apply bind_ok in H. destruct H as (l & EA & H). apply bind_ok in H. destruct H as (k & EK & H). apply Ok_inj in H.
  destruct (ring_scaled cr cr 0 pos l k HR EA EK) as (n & E). exists n. rewrite <- H, !pmin_R. rewrite <- !E. reflexivity.
Qed.
Lemma arc_flat (r s sp : R) l : @arc2D Rnum q r s sp vzero = Ok l -> forall p, In p l -> Z p = 0.
Proof.
  intros H p IP. unfold arc2D in H. destruct (nltb _ _); [apply Ok_inj in H; subst l; destruct IP as [<-|[]]; reflexivity|].
  do 2 (apply bind_ok in H; destruct H as (? & _ & H)). cbv zeta in H. do 2 (apply bind_ok in H; destruct H as (? & _ & H)). apply Ok_inj in H. subst l. apply in_map_iff in IP. destruct IP as (i & <- & _). reflexivity.
Qed.
Lemma upright_flat taper (r : R) l : @uprightHole2D Rnum q taper r = Ok l -> forall p, In p l -> Z p = 0.
Proof.
  intros H p IP. unfold uprightHole2D in H. destruct taper as [al|]; [|exact (arc_flat _ _ _ _ H p IP)]. destruct (nltb _ _); [|exact (arc_flat _ _ _ _ H p IP)].
  apply bind_ok in H; destruct H as (qu & _ & H). apply bind_ok in H; destruct H as (arc & EA & H). do 2 (apply bind_ok in H; destruct H as (? & _ & H)). cbv zeta in H. apply Ok_inj in H. subst l.
  destruct IP as [<-|IP]; [reflexivity|]. apply in_app_or in IP. destruct IP as [IP|[<-|[]]]; [exact (arc_flat _ _ _ _ EA p IP)|reflexivity].
Qed.
Lemma thread_form (pos dir : pt) tip a0 a1 a2 a3 : level dir -> threadDiameter c <> 0 -> threadArcs q c pos dir tip = Ok (a0, a1, a2, a3) ->
  exists hole, uprightHole2D q (match b_support c with Some (_, t) => Some t | None => None end) (threadDiameter c / 2 : R) = Ok hole /\
    let r := threadDiameter c / 2 in
    a0 = map (drawn_along dir pos ((r + threadChamfer c / 2) / r) 0) hole /\ a1 = map (drawn_along dir pos 1 (threadChamfer c)) hole.
Proof.
  intros LD NR H. unfold threadArcs in H. cbv zeta in H. apply bind_ok in H. destruct H as (hole & EH & H). apply bind_ok in H. destruct H as (k & EK & H).
  apply bind_ok in H. destruct H as (a2' & _ & H). apply Ok_inj in H. set (r := threadDiameter c / 2) in *. assert (RN : r <> 0) by (unfold r; lra).
  exists hole. split; [exact EH|]. cbv zeta.
  assert (EK2 : k = 1 / r). { rewrite pdiv_nz in EK by exact RN. apply Ok_inj in EK. symmetry. exact EK. }
  assert (HZ : forall p, In p hole -> Z p = 0).
  { intros p IP. apply (upright_flat _ _ _ EH p IP). }
  assert (G : forall s z : R, etranslated (escaled (etransformed (escaled hole k vzero) (mrotZ mid (nsub (Num := Rnum) (vangle2D dir) (ndiv (Num := Rnum) tau (nZ 4))) None)) s vzero) (V (vx pos) (vy pos) z) = map (drawn_along dir pos (s / r) z) hole).
  { intros s z. unfold etranslated, escaled, etransformed. rewrite !map_map. apply map_ext_in. intros p IP. specialize (HZ p IP).
    rewrite turned_pt. destruct (angle_cs dir LD) as [CA SA]. change (nsub (Num := Rnum) (vangle2D dir) (ndiv (Num := Rnum) tau (nZ 4))) with (vangle2D dir - 2 * PI / 4).
    replace (2 * PI / 4) with (PI / 2) by field. rewrite cos_minus, sin_minus, cos_PI2, sin_PI2, CA, SA, EK2. unfold drawn_along. set (u := ux dir). set (v := uy dir). clearbody u v.
    clear H CA SA. apply pt_ext; destruct p as [p1 p2 p3], pos as [o1 o2 o3]; unfold X, Y, Z, P in *; cbn in *; rn; cbn; [field; exact RN|field; exact RN|rewrite HZ; field; exact RN]. }
  apply pair_inj in H. destruct H as [H _]. apply pair_inj in H. destruct H as [H _]. apply pair_inj in H. destruct H as [H0 H1]. split.
  - rewrite <- H0. apply G.
  - rewrite <- H1. replace 1 with (r / r) by (field; exact RN). apply G.
Qed.
Lemma collapsed_in (l : list pt) (t : R) p : In p (collapsed l t) -> In p l.
Proof.
  intros H. destruct (collapsed_index l t) as (idx & _ & EI & E). rewrite E in H. apply in_map_iff in H. destruct H as (i & <- & HI). apply EI in HI. unfold cyc. apply nth_In, Nat.mod_upper_bound. lia.
Qed.

(* the flank of a boss *)
Lemma flank_form (pr r f taper : R) l : eps <= r -> f = 0 \/ eps <= f -> @smoothTransition Rnum q pr r f taper = Ok l ->
  exists a t, Rmin (Rmax 0 taper) (89 * (PI / 180)) <= a <= 89 * (PI / 180) /\ tangent_joins r f (r - pr) a t /\ forall p, In p l -> flank_point r f (r - pr) a t p.
Proof.
  intros HR HF H. pose proof eps_pos as EP. pose proof PI_RGT_0 as PP. unfold smoothTransition in H. cbv zeta in H.
  set (fy := @nadd Rnum (@nsub Rnum r pr) f) in *. set (fx := nsqrt _) in *.
  set (a := pmin _ _) in H. assert (EA : a = Rmin (Rmax (Rmax 0 taper) (vangle2D (V fx fy (nZ 0)))) (89 * (PI / 180))) by (unfold a; rewrite !pmax_R, pmin_R; reflexivity).
  clearbody a. change (@ndiv Rnum tau (nZ 4)) with (2 * PI / 4) in H.
  assert (A : Rmin (Rmax 0 taper) (89 * (PI / 180)) <= a <= 89 * (PI / 180)).
  { rewrite EA. split; [|apply Rmin_r]. apply Rmin_glb; [eapply Rle_trans; [apply Rmin_l|apply Rmax_l]|apply Rmin_r]. }
  assert (A0 : 0 <= a). { destruct A as [A _]. eapply Rle_trans; [|exact A]. apply Rmin_glb; [apply Rmax_l|lra]. }
  apply bind_ok in H. destruct H as (fa & EF & H). apply bind_ok in H. destruct H as (ba & EB & H). apply bind_ok in H. destruct H as (b0 & B0 & H). apply bind_ok in H. destruct H as (fl & FL & H).
  apply bind_ok in H. destruct H as (tt & ET & H). apply Ok_inj in H.
  assert (NB : ba <> []) by (intros E; rewrite E in B0; discriminate). assert (NF : fa <> []) by (intros E; rewrite E in FL; discriminate).
  assert (SB : Rabs (2 * PI / 4 - a) <= PI) by (rewrite Rabs_right; lra). assert (SF : Rabs (- (2 * PI / 4 - a)) <= PI) by (rewrite Rabs_Ropp; exact SB).
  destruct (arc_ends q f _ _ _ fa HF SF EF eq_refl NF) as [_ LF]. pose proof (arc_between q f _ _ _ fa HF SF EF eq_refl) as PF.
  destruct (arc_ends q r _ _ _ ba (or_intror HR) SB EB eq_refl NB) as [HB _]. pose proof (arc_between q r _ _ _ ba (or_intror HR) SB EB eq_refl) as PB.
  assert (SA : - (2 * PI / 4) + - (2 * PI / 4 - a) = - PI + a) by lra.
  assert (CM : cos (- PI + a) = - cos a) by (replace (- PI + a) with (- (PI - a)) by ring; rewrite cos_neg; apply Rtrigo_facts.cos_pi_minus).
  assert (SM : sin (- PI + a) = - sin a) by (replace (- PI + a) with (- (PI - a)) by ring; rewrite sin_neg; f_equal; apply Rtrigo_facts.sin_pi_minus).
  change (@nadd Rnum) with Rplus in *. change (@nsub Rnum) with Rminus in *. change (@nopp Rnum) with Ropp in *.
  rewrite SA, CM, SM in LF.
  assert (EB0 : b0 = P (r * cos a) (r * sin a) 0).
  { rewrite pyidx_first in B0. destruct ba as [|x bl]; [contradiction|]. apply Ok_inj in B0. cbn [hd] in HB. rewrite <- B0, HB. apply pt_ext; unfold X, Y, Z, P; cbn; rn; ring. }
  assert (EFL : fl = P (fx - f * cos a) (fy - f * sin a) 0).
  { rewrite pyidx_last in FL. destruct (exists_last NF) as (m & x & EX). rewrite EX, last_last in LF. rewrite EX, rev_app_distr in FL. cbn in FL. apply Ok_inj in FL. rewrite <- FL, LF. apply pt_ext; unfold X, Y, Z, P; cbn; rn; ring. }
  assert (C0 : 0 < cos a) by (apply cos_gt_0; lra). rewrite pdiv_nz in ET by (change (cos a <> 0); lra). apply Ok_inj in ET.
  assert (ET2 : tt = ((r + f) * sin a - fy) / cos a). { rewrite <- ET, EB0, EFL. unfold P. cbn [vx vy vz]. change (@ndiv Rnum) with Rdiv. change (@ncos Rnum) with cos. change (@nsub Rnum) with Rminus. f_equal. ring. }
  exists a, tt. split; [exact A|]. split.
  - unfold tangent_joins. rewrite ET2. unfold fy. field. lra.
  - intros p IP. subst l. apply collapsed_in in IP. apply in_app_or in IP. destruct IP as [IP|IP].
    + left. unfold etranslated in IP. apply in_map_iff in IP. destruct IP as (x & <- & IX). destruct (PF x IX) as (s & BS & ->). exists s. split; [unfold between in BS; lra|].
      rewrite EB0, EFL. apply pt_ext; unfold X, Y, Z, P; cbn; rn; unfold fy; ring.
    + right. destruct (PB p IP) as (s & BS & ->). exists s. split; [unfold between in BS; lra|]. apply pt_ext; unfold X, Y, Z, P; cbn; rn; ring.
Qed.
(* the flank does not enter the circle *)
Lemma flank_out r f w a t p : 0 <= r -> 0 <= f -> tangent_joins r f w a t -> flank_point r f w a t p -> r * r <= X p * X p + Y p * Y p.
Proof.
  intros HR HF J [(s & _ & ->)|(s & _ & ->)].
  - set (x := (r + f) * cos a + t * sin a) in *. unfold tangent_joins in J. rewrite J. set (y := (r + f) * sin a - t * cos a). change (X (P (x + f * cos s) (y + f * sin s) 0)) with (x + f * cos s). change (Y (P (x + f * cos s) (y + f * sin s) 0)) with (y + f * sin s).
    pose proof (sin2_cos2 a) as QA. pose proof (sin2_cos2 s) as QS. unfold Rsqr in *.
    assert (N : x * x + y * y = (r + f) * (r + f) + t * t) by (transitivity (((r + f) * (r + f) + t * t) * (sin a * sin a + cos a * cos a)); [unfold x, y; ring|rewrite QA; ring]).
    set (k := x * cos s + y * sin s). replace ((x + f * cos s) * (x + f * cos s) + (y + f * sin s) * (y + f * sin s)) with (x * x + y * y + 2 * f * k + f * f * (sin s * sin s + cos s * cos s)) by (unfold k; ring). rewrite QS.
    assert (K : k * k <= x * x + y * y). { pose proof (Rle_0_sqr (x * sin s - y * cos s)) as Q. unfold Rsqr in Q. replace (x * x + y * y) with ((x * x + y * y) * (sin s * sin s + cos s * cos s)) by (rewrite QS; ring). unfold k. lra. }
    set (d := sqrt (x * x + y * y)). assert (D0 : 0 <= d) by apply sqrt_pos. assert (DD : d * d = x * x + y * y) by (apply sqrt_sqrt; apply Rplus_le_le_0_compat; apply Rle_0_sqr).
    rewrite <- DD in K. assert (KD : - d <= k) by (clear - K D0; nra). assert (DR : r + f <= d) by (pose proof (Rle_0_sqr t) as T; unfold Rsqr in T; clear - DD N T D0 HR HF; nra).
    rewrite <- DD. assert (f * - d <= f * k) by (apply Rmult_le_compat_l; assumption). assert (r * r <= (d - f) * (d - f)) by (apply Rmult_le_compat; lra). lra.
  - change (r * r <= r * cos s * (r * cos s) + r * sin s * (r * sin s)). right. pose proof (sin2_cos2 s) as QS. unfold Rsqr in QS. transitivity (r * r * (sin s * sin s + cos s * cos s)); [rewrite QS; ring|ring].
Qed.
End B.
