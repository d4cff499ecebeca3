(** Corners between two vertical planes. *)
From Coq Require Import Reals Lra Psatz ZArith List Bool Arith Lia.
From Verif Require Import Num GeoModel GeoSpec GeoMat GeoRigid GeoPlane GeoCirc EdgeModel ArcModel ArcSpec ArcProof ArcCorner ArcShape MeshModel KeyModel LayoutModel BossModel PlanModel PlanSpec PartProof CableProof.
Import ListNotations.
Open Scope R_scope.

Definition upright (pl : @plane Rnum) : Prop := wf_plane pl /\ Z (pnormal pl) = 0.
Lemma upright_rise pl v : upright pl -> rise pl v = X (pnormal pl) * (X v - X (ppos pl)) + Y (pnormal pl) * (Y v - Y (ppos pl)).
Proof.
  intros (_ & H). transitivity ((X v - X (ppos pl)) * X (pnormal pl) + (Y v - Y (ppos pl)) * Y (pnormal pl) + (Z v - Z (ppos pl)) * Z (pnormal pl)); [reflexivity|]. rewrite H. ring.
Qed.
(* the direction from b to a, where a is above the plane g through b *)
Lemma dir_unit (a b : pt) : X a <> X b \/ Y a <> Y b -> exists l, 0 < l /\ X a - X b = l * dirx a b /\ Y a - Y b = l * diry a b /\ dirx a b * dirx a b + diry a b * diry a b = 1.
Proof.
  intros N. unfold dirx, diry. set (l := len2 (minus a b)).
  assert (LL : l * l = (X a - X b) * (X a - X b) + (Y a - Y b) * (Y a - Y b)).
  { unfold l, len2. rewrite sqrt_sqrt; [reflexivity|]. unfold minus, P, X, Y. cbn [vx vy]. rn. apply Rplus_le_le_0_compat; apply Rle_0_sqr. }
  assert (L0 : 0 <= l) by (apply sqrt_pos).
  assert (LP : 0 < l). { destruct (Rle_lt_or_eq_dec 0 l L0) as [?|E]; [assumption|]. rewrite <- E in LL. assert (Q1 := Rle_0_sqr (X a - X b)). assert (Q2 := Rle_0_sqr (Y a - Y b)). unfold Rsqr in *.
    assert (Z1 : (X a - X b) * (X a - X b) = 0) by lra. assert (Z2 : (Y a - Y b) * (Y a - Y b) = 0) by lra. apply Rmult_integral in Z1. apply Rmult_integral in Z2. destruct N as [N|N]; exfalso; apply N; lra. }
  exists l. split; [exact LP|]. split; [field; lra|]. split; [field; lra|].
  transitivity (((X a - X b) * (X a - X b) + (Y a - Y b) * (Y a - Y b)) / (l * l)); [field; lra|]. rewrite <- LL. field. lra.
Qed.
Lemma corner_centre q (f g : @plane Rnum) (a b d : pt) r l : upright f -> upright g -> eps <= r -> on_plane f a -> on_plane f b -> on_plane g b -> on_plane g d -> 0 < rise f d -> 0 < rise g a ->
  cornerArc2D q r a b d = Ok l -> X (pnormal f) * Y (pnormal g) - Y (pnormal f) * X (pnormal g) <> 0 /\ exists m, rise f m = r /\ rise g m = r /\ forall p, In p l -> Z p = 0 /\ edist2 p m = r.
Proof.
  intros UF UG HR FA FB GB GD FD GA H. pose proof eps_pos as EP.
  change (rise f a = 0) in FA. change (rise f b = 0) in FB. change (rise g b = 0) in GB. change (rise g d = 0) in GD.
  rewrite (upright_rise f _ UF) in FA. rewrite (upright_rise f _ UF) in FB. rewrite (upright_rise f _ UF) in FD. rewrite (upright_rise g _ UG) in GB. rewrite (upright_rise g _ UG) in GD. rewrite (upright_rise g _ UG) in GA.
  destruct UF as (WF & ZF). destruct UG as (WG & ZG). unfold wf_plane, unit_vec, inner in WF, WG. rewrite ZF in WF. rewrite ZG in WG.
  set (fx := X (pnormal f)) in *. set (fy := Y (pnormal f)) in *. set (gx := X (pnormal g)) in *. set (gy := Y (pnormal g)) in *.
  assert (NA : X a <> X b \/ Y a <> Y b). { destruct (Req_EM_T (X a) (X b)) as [E1|]; [|left; assumption]. right. intros E2. rewrite E1, E2 in GA. lra. }
  assert (ND : X d <> X b \/ Y d <> Y b). { destruct (Req_EM_T (X d) (X b)) as [E1|]; [|left; assumption]. right. intros E2. rewrite E1, E2 in FD. lra. }
  destruct (dir_unit a b NA) as (la & LA & A1 & A2 & UA). destruct (dir_unit d b ND) as (ld & LD & D1 & D2 & UD).
  pose proof (corner_reduces) as CRD. destruct q as [h amax]. pose proof (CRD h amax r a b d HR NA ND) as K. clear CRD. cbv zeta in K.
  set (ax := dirx a b) in *. set (ay := diry a b) in *. set (cx := dirx d b) in *. set (cy := diry d b) in *. clearbody ax ay cx cy.
  assert (FA' : fx * ax + fy * ay = 0). { assert (Q : la * (fx * ax + fy * ay) = 0). { transitivity (fx * (X a - X b) + fy * (Y a - Y b)); [rewrite A1, A2; ring|lra]. } apply Rmult_integral in Q. destruct Q; [lra|assumption]. }
  assert (GD' : gx * cx + gy * cy = 0). { assert (Q : ld * (gx * cx + gy * cy) = 0). { transitivity (gx * (X d - X b) + gy * (Y d - Y b)); [rewrite D1, D2; ring|lra]. } apply Rmult_integral in Q. destruct Q; [lra|assumption]. }
  assert (FD' : 0 < fx * cx + fy * cy). { assert (Q : 0 < ld * (fx * cx + fy * cy)). { replace (ld * (fx * cx + fy * cy)) with (fx * (X d - X b) + fy * (Y d - Y b)) by (rewrite D1, D2; ring). lra. } apply Rmult_lt_reg_l with ld; [exact LD|lra]. }
  assert (GA' : 0 < gx * ax + gy * ay). { assert (Q : 0 < la * (gx * ax + gy * ay)). { replace (la * (gx * ax + gy * ay)) with (gx * (X a - X b) + gy * (Y a - Y b)) by (rewrite A1, A2; ring). lra. } apply Rmult_lt_reg_l with la; [exact LA|lra]. }
  set (s := cx * ay - cy * ax) in *.
  assert (FS : (fx * cx + fy * cy) * (fx * cx + fy * cy) = s * s).
  { (* f = k (-ay, ax), k = fy ax - fx ay *)
    assert (Q1 : fx = - (fy * ax - fx * ay) * ay) by (transitivity (fx * (ax * ax + ay * ay) - ax * (fx * ax + fy * ay)); [rewrite UA, FA'; ring|ring]).
    assert (Q2 : fy = (fy * ax - fx * ay) * ax) by (transitivity (fy * (ax * ax + ay * ay) - ay * (fx * ax + fy * ay)); [rewrite UA, FA'; ring|ring]).
    assert (QK : (fy * ax - fx * ay) * (fy * ax - fx * ay) = 1) by (transitivity ((fx * fx + fy * fy) * (ax * ax + ay * ay) - (fx * ax + fy * ay) * (fx * ax + fy * ay)); [ring|rewrite FA', UA; lra]).
    set (k := fy * ax - fx * ay) in *. clearbody k. transitivity ((k * k) * (s * s)); [|rewrite QK; ring]. rewrite Q1, Q2. unfold s. ring. }
  assert (GS : (gx * ax + gy * ay) * (gx * ax + gy * ay) = s * s).
  { assert (Q1 : gx = - (gy * cx - gx * cy) * cy) by (transitivity (gx * (cx * cx + cy * cy) - cx * (gx * cx + gy * cy)); [rewrite UD, GD'; ring|ring]).
    assert (Q2 : gy = (gy * cx - gx * cy) * cx) by (transitivity (gy * (cx * cx + cy * cy) - cy * (gx * cx + gy * cy)); [rewrite UD, GD'; ring|ring]).
    assert (QK : (gy * cx - gx * cy) * (gy * cx - gx * cy) = 1) by (transitivity ((gx * gx + gy * gy) * (cx * cx + cy * cy) - (gx * cx + gy * cy) * (gx * cx + gy * cy)); [ring|rewrite GD', UD; lra]).
    set (k := gy * cx - gx * cy) in *. clearbody k. transitivity ((k * k) * (s * s)); [|rewrite QK; ring]. rewrite Q1, Q2. unfold s. ring. }
  assert (NS : s <> 0). { intros E. rewrite E, Rmult_0_l in FS. apply Rmult_integral in FS. lra. }
  assert (FR : fx * cx + fy * cy = Rabs s). { apply Rsqr_inj; [lra|apply Rabs_pos|]. rewrite <- Rsqr_abs. unfold Rsqr. exact FS. }
  assert (GR : gx * ax + gy * ay = Rabs s). { apply Rsqr_inj; [lra|apply Rabs_pos|]. rewrite <- Rsqr_abs. unfold Rsqr. exact GS. }
  assert (NP : fx * gy - fy * gx <> 0).
  { intros E0.
    assert (Q2 : fy * (gx * ax + gy * ay) = - (ax * (fx * gy - fy * gx)) + gy * (fx * ax + fy * ay)) by ring. rewrite E0, FA' in Q2.
    assert (Q3 : fx * (gx * ax + gy * ay) = ay * (fx * gy - fy * gx) + gx * (fx * ax + fy * ay)) by ring. rewrite E0, FA' in Q3.
    assert (Z2 : fy = 0) by (assert (T : fy * (gx * ax + gy * ay) = 0) by lra; apply Rmult_integral in T; destruct T; [assumption|lra]).
    assert (Z3 : fx = 0) by (assert (T : fx * (gx * ax + gy * ay) = 0) by lra; apply Rmult_integral in T; destruct T; [assumption|lra]).
    rewrite Z2, Z3 in WF. lra. }
  split; [exact NP|].
  destruct (K NS) as (st & sp & _ & _ & SPN & E). rewrite E in H. clear E K.
  set (as_ := Rabs s) in *. assert (S0 : 0 < as_) by (apply Rabs_pos_lt; exact NS). clearbody as_.
  set (m := P (X b + (ax + cx) * r / as_) (Y b + (ay + cy) * r / as_) 0) in *. exists m.
  assert (HS : Rabs sp <= PI).
  { rewrite SPN, Rabs_mult. pose proof (acos_bound (ax * cx + ay * cy)) as AB. rewrite Rabs_right by lra. destruct (Rlt_dec 0 s); [rewrite Rabs_right by lra|rewrite Rabs_left by lra]; lra. }
  split; [|split].
  - rewrite (upright_rise f m) by (split; [unfold wf_plane, unit_vec, inner; fold fx fy; rewrite ZF; exact WF|exact ZF]). fold fx fy. unfold m. change (X (P ?u _ _)) with u. change (Y (P _ ?u _)) with u.
    transitivity ((fx * (X b - X (ppos f)) + fy * (Y b - Y (ppos f))) + ((fx * ax + fy * ay) + (fx * cx + fy * cy)) * r / as_); [field; lra|]. rewrite FB, FA', FR. field. lra.
  - rewrite (upright_rise g m) by (split; [unfold wf_plane, unit_vec, inner; fold gx gy; rewrite ZG; exact WG|exact ZG]). fold gx gy. unfold m. change (X (P ?u _ _)) with u. change (Y (P _ ?u _)) with u.
    transitivity ((gx * (X b - X (ppos g)) + gy * (Y b - Y (ppos g))) + ((gx * ax + gy * ay) + (gx * cx + gy * cy)) * r / as_); [field; lra|]. rewrite GB, GD', GR. field. lra.
  - intros p I. destruct (arc_between _ r st sp m l (or_intror HR) HS H eq_refl p I) as (t & _ & ->). split; [reflexivity|]. unfold edist2, sqdist2. change (X (P ?u _ _)) with u. change (Y (P _ ?u _)) with u.
    pose proof (sin2_cos2 t) as SC. unfold Rsqr in *.
    match goal with |- sqrt ?z = _ => replace z with (r * r) end; [apply sqrt_square; lra|].
    transitivity (r * r * (sin t * sin t + cos t * cos t)); [rewrite SC; ring|ring].
Qed.
(* a point is determined by how far it is above two upright planes that are not parallel *)
Lemma same_place (f g : @plane Rnum) (u v : pt) : upright f -> upright g -> X (pnormal f) * Y (pnormal g) - Y (pnormal f) * X (pnormal g) <> 0 -> rise f u = rise f v -> rise g u = rise g v -> X u = X v /\ Y u = Y v.
Proof.
  intros UF UG N EF EG. rewrite !(upright_rise _ _ UF) in EF. rewrite !(upright_rise _ _ UG) in EG.
  set (fx := X (pnormal f)) in *. set (fy := Y (pnormal f)) in *. set (gx := X (pnormal g)) in *. set (gy := Y (pnormal g)) in *.
  assert (Q1 : (fx * gy - fy * gx) * (X u - X v) = 0).
  { transitivity (gy * ((fx * (X u - X (ppos f)) + fy * (Y u - Y (ppos f))) - (fx * (X v - X (ppos f)) + fy * (Y v - Y (ppos f)))) - fy * ((gx * (X u - X (ppos g)) + gy * (Y u - Y (ppos g))) - (gx * (X v - X (ppos g)) + gy * (Y v - Y (ppos g))))); [ring|]. rewrite EF, EG. ring. }
  assert (Q2 : (fx * gy - fy * gx) * (Y u - Y v) = 0).
  { transitivity (fx * ((gx * (X u - X (ppos g)) + gy * (Y u - Y (ppos g))) - (gx * (X v - X (ppos g)) + gy * (Y v - Y (ppos g)))) - gx * ((fx * (X u - X (ppos f)) + fy * (Y u - Y (ppos f))) - (fx * (X v - X (ppos f)) + fy * (Y v - Y (ppos f))))); [ring|]. rewrite EF, EG. ring. }
  apply Rmult_integral in Q1. apply Rmult_integral in Q2. destruct Q1; [contradiction|]. destruct Q2; [contradiction|]. split; lra.
Qed.
