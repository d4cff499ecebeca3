(** Wall lines and boss positions. *)
From Coq Require Import Reals Lra Psatz List Bool ZArith Lia.
From Verif Require Import Num GeoModel GeoSpec GeoMat GeoRigid GeoPlane GeoIso EdgeModel EdgeSpecR EdgeReal EdgeContains ArcModel
  KeyModel LayoutModel LayoutProof BossModel PlanModel HullSpec HullDist PlanSpec.
Import ListNotations.
Open Scope R_scope.

Lemma vxy_flat (p : pt) : vxy p = P (X p) (Y p) 0. Proof. reflexivity. Qed.
Lemma beyond_xy l (v : pt) : beyond l (vxy v) = beyond l v. Proof. reflexivity. Qed.
Lemma beyond_ext l (v w : pt) : X v = X w -> Y v = Y w -> beyond l v = beyond l w.
Proof. unfold beyond. intros -> ->. reflexivity. Qed.

Lemma ldistance2D_ground l (v : pt) : ground_line l -> ldistance2D l v = Ok (beyond l v).
Proof.
  intros (U & Zd & Zp). destruct l as [[px py pz] [dx dy dz]]. unfold unit_vec, inner, Z, X, Y in *. rn. subst dz pz.
  unfold ldistance2D, vnorm2D, vmag2D. rn. replace (dx * dx + dy * dy) with 1 by lra. rewrite sqrt_1.
  rewrite !pdiv_nz by lra. cbn [bind]. f_equal. unfold beyond, X, Y. rn. field.
Qed.
Lemma ltranslated_wf (l : @line Rnum) (v : pt) : wf_line l -> ltranslated l v = Ok (mkLine (plus (lpos l) v) (ldir l)).
Proof. intros W. unfold ltranslated, newLine. rewrite vnorm_of_unit by exact W. reflexivity. Qed.
Lemma beyond_moved l (d : R) : unit_vec (ldir l) -> Z (ldir l) = 0 ->
  forall v, beyond (mkLine (plus (lpos l) (vscale (vopp (vortho2D (ldir l))) d)) (ldir l)) v = beyond l v - d.
Proof.
  intros U Zd v. destruct l as [[px py pz] [dx dy dz]]. unfold unit_vec, inner, Z, X, Y in *. rn. subst dz.
  unfold beyond, plus, vscale, vopp, vortho2D, P, X, Y. rn.
  transitivity ((vx v - px) * dy - (vy v - py) * dx - d * (dx * dx + dy * dy)); [ring|]. replace (dx * dx + dy * dy) with 1 by lra. ring.
Qed.
Lemma move_out l (d : R) : ground_line l -> exists l', ltranslated l (vscale (vopp (vortho2D (ldir l))) d) = Ok l' /\ moved_out d l l'.
Proof.
  intros (U & Zd & Zp). eexists. split; [apply ltranslated_wf; exact U|]. split; [reflexivity|]. split.
  - split; [exact U|]. split; [exact Zd|]. cbn [lpos]. unfold Z, plus, vscale, vopp, vortho2D, P, X, Y. unfold Z in *. rn. lra.
  - apply beyond_moved; assumption.
Qed.

Lemma maxBy_spec (l : list (@num Rnum * @vec Rnum)) v : @maxBy Rnum l = Ok v -> exists d : @num Rnum, In (d, v) l /\ forall (d' : @num Rnum) w, In (d', w) l -> (d' : R) <= d.
Proof.
  destruct l as [|x l]; [discriminate|]. cbn [maxBy]. intros H. apply Ok_inj in H. subst v. revert x.
  induction l as [|y l IH]; intros x.
  - exists (fst x). cbn [fold_left]. split; [left; destruct x; reflexivity|]. intros d' w [E|[]]. subst x. cbn. lra.
  - cbn [fold_left]. destruct (@nltb Rnum (fst x) (fst y)) eqn:E.
    + apply Rltb_true in E.
      destruct (IH y) as (d & Hd & M). exists d. split; [right; exact Hd|]. intros d' w [Q|Q]; [|apply (M d' w Q)].
      subst x. cbn [fst] in E. pose proof (M (fst y) (snd y)) as K. rewrite <- surjective_pairing in K. specialize (K (or_introl eq_refl)). lra.
    + apply Rltb_false in E.
      destruct (IH x) as (d & Hd & M). exists d. split; [destruct Hd as [Hd|Hd]; [left; exact Hd|right; right; exact Hd]|].
      intros d' w [Q|[Q|Q]]; [apply (M d' w); left; exact Q| |apply (M d' w); right; exact Q].
      subst y. cbn [fst] in E. pose proof (M (fst x) (snd x)) as K. rewrite <- surjective_pairing in K. specialize (K (or_introl eq_refl)). lra.
Qed.
Lemma maxList_spec (l : list R) d : @maxList Rnum l = Ok d -> In d l /\ forall x, In x l -> x <= d.
Proof.
  destruct l as [|x l]; [discriminate|]. cbn [maxList]. intros H. apply Ok_inj in H. subst d. revert x.
  induction l as [|y l IH]; intros x; cbn [fold_left].
  - split; [left; reflexivity|]. intros z [->|[]]. lra.
  - destruct (IH (@pmax Rnum x y)) as (A & B). assert (M : @pmax Rnum x y = x /\ y <= x \/ @pmax Rnum x y = y /\ x <= y).
    { unfold pmax. destruct (@nltb Rnum x y) eqn:E; [apply Rltb_true in E; right|apply Rltb_false in E; left]; split; try reflexivity; lra. }
    pose proof (B (@pmax Rnum x y) (or_introl eq_refl)) as B0. split.
    + destruct A as [A|A]; [|right; right; exact A]. cbn [num Rnum] in *. destruct M as [[M _]|[M _]]; rewrite <- A, M; [left|right; left]; reflexivity.
    + intros z [->|[->|Hz]]; [| |apply B; right; exact Hz]; cbn [num Rnum] in *; lra.
Qed.
Lemma minList_spec (l : list R) d : @minList Rnum l = Ok d -> In d l /\ forall x, In x l -> d <= x.
Proof.
  destruct l as [|x l]; [discriminate|]. cbn [minList]. intros H. apply Ok_inj in H. subst d. revert x.
  induction l as [|y l IH]; intros x; cbn [fold_left].
  - split; [left; reflexivity|]. intros z [->|[]]. lra.
  - destruct (IH (@pmin Rnum x y)) as (A & B). assert (M : @pmin Rnum x y = x /\ x <= y \/ @pmin Rnum x y = y /\ y <= x).
    { unfold pmin. destruct (@nltb Rnum y x) eqn:E; [apply Rltb_true in E; right|apply Rltb_false in E; left]; split; try reflexivity; lra. }
    pose proof (B (@pmin Rnum x y) (or_introl eq_refl)) as B0. split.
    + destruct A as [A|A]; [|right; right; exact A]. cbn [num Rnum] in *. destruct M as [[M _]|[M _]]; rewrite <- A, M; [left|right; left]; reflexivity.
    + intros z [->|[->|Hz]]; [| |apply B; right; exact Hz]; cbn [num Rnum] in *; lra.
Qed.
Lemma mapM_total_fun {A B} (f : A -> res B) (g : A -> B) l : (forall x, In x l -> f x = Ok (g x)) -> mapM f l = Ok (map g l).
Proof. apply mapM_ok_map. Qed.

Lemma dir_ground a : unit_vec (P (cos a) (sin a) 0).
Proof. unfold unit_vec, inner, P, X, Y, Z. rn. pose proof (sin2_cos2 a) as H. unfold Rsqr in H. lra. Qed.

Lemma in_flat_xy (f : @key Rnum -> list pt) keys p : In p (flat_map (fun k => map vxy (f k)) keys) <-> exists v, In v (flat_map f keys) /\ p = vxy v.
Proof.
  rewrite in_flat_map. split.
  - intros (k & Hk & Hp). apply in_map_iff in Hp. destruct Hp as (v & <- & Hv). exists v. split; [apply in_flat_map; eauto|reflexivity].
  - intros (v & Hv & ->). apply in_flat_map in Hv. destruct Hv as (k & Hk & Hv). exists k. split; [exact Hk|]. apply in_map, Hv.
Qed.

Lemma wallLines_spec keys (t a : R) : below keys <> [] -> above keys <> [] ->
  exists li lo, wallLines2D keys t a = Ok (li, lo) /\
  ground_line li /\ ldir li = P (cos a) (sin a) 0 /\ moved_out t li lo /\
  (forall p, In p (below keys) -> beyond li p <= 0) /\ (forall p, In p (above keys) -> beyond lo p <= 0) /\
  ((exists p, In p (below keys) /\ beyond li p = 0) \/ (exists p, In p (above keys) /\ beyond lo p = 0)).
Proof.
  intros NI NO. unfold wallLines2D.
  set (bI := flat_map (fun k => map vxy (boundsI k)) keys). set (bO := flat_map (fun k => map vxy (boundsO k)) keys).
  assert (II : forall p, In p bI <-> exists v, In v (below keys) /\ p = vxy v) by (intros p; apply in_flat_xy).
  assert (IO : forall p, In p bO <-> exists v, In v (above keys) /\ p = vxy v) by (intros p; apply in_flat_xy).
  assert (NI' : bI <> []).
  { destruct (below keys) as [|v ?] eqn:E; [contradiction|]. intros Q. assert (In (vxy v) bI) by (apply II; exists v; split; [left; reflexivity|reflexivity]). rewrite Q in H. exact H. }
  assert (NO' : bO <> []).
  { destruct (above keys) as [|v ?] eqn:E; [contradiction|]. intros Q. assert (In (vxy v) bO) by (apply IO; exists v; split; [left; reflexivity|reflexivity]). rewrite Q in H. exact H. }
  clearbody bI bO. unfold newLine at 1. change (@V Rnum (@ncos Rnum a) (@nsin Rnum a) (@nZ Rnum 0)) with (P (cos a) (sin a) 0). rewrite vnorm_of_unit by apply dir_ground. cbn [bind ldir].
  set (dir := P (cos a) (sin a) 0). set (base := {| lpos := vzero; ldir := dir |}).
  assert (U : unit_vec dir) by apply dir_ground. assert (Zd : Z dir = 0) by reflexivity.
  assert (GB : ground_line base) by (split; [exact U|split; reflexivity]).
  rewrite (mapM_total_fun _ (fun p => (beyond base p, p))) by (intros p _; rewrite ldistance2D_ground by exact GB; reflexivity). cbn [bind].
  assert (MB : exists m, maxBy (map (fun p => (beyond base p, p)) bI) = Ok m) by (destruct bI; [contradiction|]; eexists; reflexivity).
  destruct MB as (m & MB). pose proof (maxBy_spec _ _ MB) as (dm & Hm & MX). unfold pt in MB |- *. rewrite MB. cbn [bind].
  apply in_map_iff in Hm. destruct Hm as (m' & Em & Hm). injection Em as <- ->. 
  unfold newLine. rewrite vnorm_of_unit by exact U. cbn [bind]. set (li := {| lpos := m; ldir := dir |}).
  apply II in Hm. destruct Hm as (mv & Hmv & ->).
  assert (GI : ground_line li) by (split; [exact U|split; reflexivity]).
  assert (MI : forall p, In p (below keys) -> beyond li p <= 0).
  { intros p Hp. specialize (MX (beyond base (vxy p)) (vxy p)).
    assert (IN : In (beyond base (vxy p), vxy p) (map (fun q => (beyond base q, q)) bI)) by (apply in_map_iff; exists (vxy p); split; [reflexivity|apply II; eauto]).
    specialize (MX IN). rewrite !beyond_xy in MX. unfold beyond, li, base in *. cbn [lpos ldir] in *. unfold vxy, vzero, X, Y in *. rn. lra. }
  assert (M0 : beyond li mv = 0) by (unfold beyond, li; cbn [lpos ldir]; unfold vxy, X, Y; rn; ring).
  assert (DI : ldir li = dir) by reflexivity.
  clearbody li. clear MB MX.
  destruct (move_out li t GI) as (lo & El & MO). rewrite DI in El. unfold pt in *. rewrite El. cbn [bind].
  assert (GO : ground_line lo) by apply MO. assert (DO : ldir lo = dir) by (rewrite <- DI; apply MO).
  rewrite (mapM_total_fun _ (beyond lo)) by (intros p _; apply ldistance2D_ground, GO). cbn [bind].
  assert (MB : exists m, @maxList Rnum (map (beyond lo) bO) = Ok m) by (destruct bO; [contradiction|]; eexists; reflexivity).
  destruct MB as (m & MB). pose proof (maxList_spec _ _ MB) as (Hm & MX). rewrite MB. cbn [bind].
  apply in_map_iff in Hm. destruct Hm as (w & Ew & Hw). apply IO in Hw. destruct Hw as (wv & Hwv & ->). rewrite beyond_xy in Ew.
  assert (MXO : forall p, In p (above keys) -> beyond lo p <= m).
  { intros p Hp. rewrite <- beyond_xy. apply MX. apply in_map. apply IO. eauto. }
  destruct (@nltb Rnum (nZ 0) m) eqn:E.
  - apply Rltb_true in E. destruct (move_out li m GI) as (li' & Eli & MLI). destruct (move_out lo m GO) as (lo' & Elo & MLO).
    rewrite DI in Eli. rewrite DO in Elo. rewrite Eli, Elo. cbn [bind]. exists li', lo'. split; [reflexivity|].
    destruct MLI as (D1 & G1 & B1), MLO as (D2 & G2 & B2), MO as (D3 & G3 & B3).
    split; [exact G1|]. split; [rewrite D1; exact DI|]. split; [split; [congruence|]; split; [exact G2|]; intros v; rewrite B1, B2, B3; ring|].
    split; [intros p Hp; rewrite B1; specialize (MI p Hp); rn; lra|]. split; [intros p Hp; rewrite B2; specialize (MXO p Hp); lra|].
    right. exists wv. split; [exact Hwv|]. rewrite B2. lra.
  - apply Rltb_false in E. exists li, lo. split; [reflexivity|]. split; [exact GI|]. split; [exact DI|]. split; [exact MO|]. split; [exact MI|].
    split; [intros p Hp; specialize (MXO p Hp); rn; lra|]. left. eauto.
Qed.
