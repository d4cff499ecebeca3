(** The key hole support over the reals: where its points lie. *)
From Coq Require Import Reals Lra List Bool Arith Lia.
From Verif Require Import Num GeoModel EdgeModel EdgeSpec GeoSpec GeoMat ArcModel ArcSpec ArcProof MeshModel SupportModel.
Import ListNotations.
Open Scope R_scope.

Section Geometry.
Variables (h amax : R).
Notation q := (@mkQuality Rnum h amax).
Variable c : @support_cfg Rnum.

Definition xL : R := - (sw_width c / 2) + baseGap c.
Definition xR : R := sw_width c / 2 - topGap c.
Definition topW : R := sw_depth c - 2 * sideGap c.
Definition rel (o : option R) (depth : R) : R := match o with Some x => x | None => 1 - sideGap c / (roofThickness c - depth) end.
Definition inset (depth : R) (o : option R) : R := depth / 2 + (roofThickness c - depth) * rel o depth.
Definition moveY : R := (topW - baseWidth c) / 2 - (topW - baseWidth c) * match relBasePosition c with Some x => x | None => 0 end.

Lemma inset_ok (depth : R) (o : option R) : roofThickness c <> depth -> @supportInset Rnum c depth o = Ok (inset depth o).
Proof.
  intros NE. unfold supportInset. rewrite pdiv_nz by (rn; lra). cbn [bind]. rewrite pdiv_nz by (cbn; lra). cbn [bind].
  unfold inset, rel, getattr. rn. destruct o; reflexivity.
Qed.

(* a point on the outline of one end: t runs along the half circle, s = 1 or -1 *)
Definition end_point (x y0 r z0 dy s t : R) : pt := P x (s * (y0 + r * sin t) + dy) (z0 - r * cos t).
Definition on_end (x y0 r z0 dy : R) (p : pt) : Prop := exists s t, (s = 1 \/ s = -1) /\ 0 <= t <= PI /\ p = end_point x y0 r z0 dy s t.

Lemma edges_form : roofThickness c <> baseDepth c -> roofThickness c <> topDepth c -> 2 * eps <= topDepth c -> 0 < h <= topDepth c -> 0 < amax ->
  exists L R, @supportEdges Rnum q c = Ok (L, R) /\ L <> [] /\ R <> [] /\
    (forall p, In p L -> on_end xL (baseWidth c / 2 - baseDepth c / 2) (baseDepth c / 2) (- inset (baseDepth c) (relBaseInset c)) moveY p) /\
    (forall p, In p R -> on_end xR (topW / 2 - topDepth c / 2) (topDepth c / 2) (- inset (topDepth c) (relTopInset c)) 0 p).
Proof.
  intros N1 N2 T H A. pose proof eps_pos. pose proof PI_RGT_0 as PP.
  assert (TL : turn_limited PI = PI) by (apply turn_limited_id; rewrite Rabs_right; lra).
  destruct (arc_form h amax (topDepth c / 2) 0 PI origin ltac:(lra) ltac:(lra) A ltac:(lra)) as (n & Hn & _ & _ & F).
  rewrite TL in F. assert (N0 : 0 < INR n) by (apply lt_0_INR; lia).
  assert (NF : ~ full_turn PI). { unfold full_turn. rewrite (Rabs_right PI) by lra. pose proof PI2_1. replace (PI - 2 * PI) with (- PI) by ring. rewrite Rabs_Ropp, Rabs_right by lra. unfold eps. lra. }
  specialize (F NF). set (pts := map _ _) in F.
  assert (IN : forall p, In p pts -> exists t, 0 <= t <= PI /\ p = circle_at origin (topDepth c / 2) t).
  { intros p Hp. unfold pts in Hp. apply in_map_iff in Hp. destruct Hp as (i & <- & Hi). apply in_seq in Hi.
    assert (I1 : 0 <= INR i) by (apply pos_INR). assert (I2 : INR i <= INR n) by (apply le_INR; lia).
    exists (INR i * (PI / INR n)). assert (PN : 0 < PI / INR n) by (apply Rdiv_lt_0_compat; lra).
    split; [|f_equal; ring]. split; [apply Rmult_le_pos; lra|].
    apply Rle_trans with (INR n * (PI / INR n)); [apply Rmult_le_compat_r; lra|]. right. field. lra. }
  assert (NE : pts <> []) by (unfold pts; cbn; discriminate). clearbody pts.
  unfold supportEdges. rewrite (inset_ok _ _ N1), (inset_ok _ _ N2). cbn [bind].
  change (@ndiv Rnum) with Rdiv. change (@nZ Rnum 2) with 2. change (@npi Rnum) with PI. change (@nZ Rnum 0) with 0. change (@vzero Rnum) with origin.
  rewrite F. cbn [bind]. rewrite pdiv_nz by lra. cbn [bind].
  eexists. eexists. split; [reflexivity|].
  assert (MN : forall (g : pt -> pt), map g pts <> []) by (intros g K; apply map_eq_nil in K; contradiction).
  split; [|split; [|split]].
  - unfold etranslated, escaled, emirY. rewrite map_app. intros K. apply app_eq_nil in K. destruct K as (K & _). rewrite !map_map in K. exact (MN _ K).
  - unfold etranslated. intros K. apply app_eq_nil in K. destruct K as (K & _). rewrite !map_map in K. exact (MN _ K).
  - intros p Hp. unfold etranslated in Hp. apply in_map_iff in Hp. destruct Hp as (p1 & <- & Hp). apply in_app_or in Hp. destruct Hp as [Hp|Hp].
    + unfold escaled in Hp. rewrite !map_map in Hp. apply in_map_iff in Hp. destruct Hp as (a & <- & Ha). destruct (IN a Ha) as (t & Ht & ->).
      exists 1, t. split; [left; reflexivity|]. split; [exact Ht|].
      unfold end_point, circle_at, origin, P, X, Y, vadd, vscale, vsub. cbn. unfold moveY, topW, xL, getattr. f_equal; cbn.
      * field; lra.
      * destruct (relBasePosition c); field; lra.
      * field. lra.
    + apply in_rev in Hp. unfold emirY, escaled in Hp. rewrite !map_map in Hp. apply in_map_iff in Hp. destruct Hp as (a & <- & Ha). destruct (IN a Ha) as (t & Ht & ->).
      exists (-1), t. split; [right; reflexivity|]. split; [exact Ht|].
      unfold end_point, circle_at, origin, P, X, Y, vadd, vscale, vsub, vmirY. cbn. unfold moveY, topW, xL, getattr. f_equal; cbn.
      * field; lra.
      * destruct (relBasePosition c); field; lra.
      * field. lra.
  - intros p Hp. unfold etranslated in Hp. apply in_app_or in Hp. destruct Hp as [Hp|Hp].
    + rewrite !map_map in Hp. apply in_map_iff in Hp. destruct Hp as (a & <- & Ha). destruct (IN a Ha) as (t & Ht & ->).
      exists 1, t. split; [left; reflexivity|]. split; [exact Ht|].
      unfold end_point, circle_at, origin, P, X, Y, vadd. cbn. unfold topW, xR. f_equal; cbn; field.
    + apply in_rev in Hp. unfold emirY in Hp. rewrite !map_map in Hp. apply in_map_iff in Hp. destruct Hp as (a & <- & Ha). destruct (IN a Ha) as (t & Ht & ->).
      exists (-1), t. split; [right; reflexivity|]. split; [exact Ht|].
      unfold end_point, circle_at, origin, P, X, Y, vadd, vmirY. cbn. unfold topW, xR. f_equal; cbn; field.
Qed.

Lemma on_end_bounds x y0 r z0 dy p : 0 <= y0 -> 0 <= r -> on_end x y0 r z0 dy p ->
  X p = x /\ Rabs (Y p - dy) <= y0 + r /\ z0 - r <= Z p <= z0 + r.
Proof.
  intros Hy Hr (s & t & Hs & Ht & ->). unfold end_point, P, X, Y, Z. cbn.
  pose proof (sin_ge_0 t ltac:(lra) ltac:(lra)) as S0. pose proof (SIN_bound t) as S1. pose proof (COS_bound t) as C1.
  assert (A : 0 <= r * sin t <= r). { split; [apply Rmult_le_pos; lra|]. rewrite <- (Rmult_1_r r) at 2. apply Rmult_le_compat_l; lra. }
  assert (B : - r <= r * cos t <= r). { split; [replace (- r) with (r * (-1)) by ring|rewrite <- (Rmult_1_r r) at 2]; apply Rmult_le_compat_l; lra. }
  split; [reflexivity|]. split; [|split; lra]. replace (s * (y0 + r * sin t) + dy - dy) with (s * (y0 + r * sin t)) by ring.
  rewrite Rabs_mult. assert (Rabs s = 1) as -> by (destruct Hs as [->| ->]; [rewrite Rabs_right|rewrite Rabs_left]; lra).
  rewrite Rabs_right; lra.
Qed.
End Geometry.
