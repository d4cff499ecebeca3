(** Circles and triangles over the reals. *)
From Coq Require Import Reals Lra Psatz List Bool Lia.
From Verif Require Import Num GeoModel GeoSpec GeoMat GeoRigid GeoPlane GeoFig.
Import ListNotations.
Open Scope R_scope.

Definition len2 (p : pt) : R := sqrt (X p * X p + Y p * Y p).
Lemma len2_sq p : len2 p * len2 p = X p * X p + Y p * Y p.
Proof. unfold len2. apply sqrt_sqrt. nra. Qed.

Lemma sqrt_pos_nz x : 0 < x -> sqrt x <> 0.
Proof. intros H E. apply sqrt_eq_0 in E; lra. Qed.

Lemma vnorm2D_ok (p : pt) : X p <> 0 \/ Y p <> 0 ->
  vnorm2D p = Ok (P (X p / len2 p) (Y p / len2 p) 0) /\ len2 p <> 0 /\ 0 < len2 p.
Proof.
  intros H. assert (S : 0 < X p * X p + Y p * Y p) by (destruct H; nra).
  assert (L : len2 p <> 0) by (apply sqrt_pos_nz, S).
  split; [|split; [exact L|apply sqrt_lt_R0, S]].
  unfold vnorm2D. change (vmag2D p) with (len2 p). rewrite !pdiv_nz by exact L. reflexivity.
Qed.
Lemma vnorm2D_err (p : pt) : X p = 0 -> Y p = 0 -> vnorm2D p = Err ZeroDivision.
Proof.
  intros HX HY. unfold vnorm2D. change (vmag2D p) with (len2 p).
  assert (L : len2 p = 0) by (unfold len2; rewrite HX, HY; replace (0*0+0*0) with 0 by ring; apply sqrt_0).
  rewrite L. unfold pdiv. rn. replace (Reqb 0 0) with true by (symmetry; apply Reqb_true; reflexivity). reflexivity.
Qed.
Lemma unit2 (p : pt) : 0 < len2 p -> (X p / len2 p) * (X p / len2 p) + (Y p / len2 p) * (Y p / len2 p) = 1.
Proof.
  intros L. pose proof (len2_sq p) as S. transitivity ((X p * X p + Y p * Y p) / (len2 p * len2 p)); [field; lra|].
  rewrite <- S. field. lra.
Qed.

(* points of a line, seen from above *)
Definition on_line_xy (l : @line Rnum) (v : pt) : Prop :=
  exists k, X v = X (lpos l) + k * X (ldir l) /\ Y v = Y (lpos l) + k * Y (ldir l).
Definition on_circle (c : @circle Rnum) (v : pt) : Prop := sqdist2 v (ccenter c) = cradius c * cradius c.

Lemma cintersectLine2D_spec (c : @circle Rnum) (l : @line Rnum) :
  X (ldir l) <> 0 \/ Y (ldir l) <> 0 ->
  exists pts, cintersectLine2D c l = Ok pts /\
  (* the foot of the perpendicular from the centre, at squared distance h *)
  exists foot, on_line_xy l foot /\ Z foot = 0 /\
    (forall v, on_line_xy l v -> sqdist2 foot (ccenter c) <= sqdist2 v (ccenter c)) /\
    let gap := 4 * (cradius c * cradius c - sqdist2 foot (ccenter c)) in
    (Rabs gap < eps -> pts = [foot]) /\
    (gap <= - eps -> pts = [] /\ forall v, on_line_xy l v -> ~ on_circle c v) /\
    (eps <= gap -> exists p q, pts = [p; q] /\ (X p <> X q \/ Y p <> Y q) /\ Z p = 0 /\ Z q = 0 /\
        forall v, Z v = 0 -> (on_line_xy l v /\ on_circle c v <-> v = p \/ v = q)).
Proof.
  intros HD. destruct c as [[cx cy cz] r], l as [[lx ly lz] d]. rn.
  destruct (vnorm2D_ok d HD) as (EN & L0 & LP). pose proof (unit2 d LP) as U.
  set (L := len2 d) in *. set (dx := X d / L) in *. set (dy := Y d / L) in *.
  assert (DX : X d = dx * L) by (unfold dx; field; lra).
  assert (DY : Y d = dy * L) by (unfold dy; field; lra).
  unfold cintersectLine2D. cbn zeta. rn. rewrite EN. cbn [bind].
  (* geometry in scalars *)
  set (ux := lx - cx). set (uy := ly - cy).
  set (m := dx * ux + dy * uy).
  set (h := (ux * ux + uy * uy) - m * m).
  set (foot := P (lx - m * dx) (ly - m * dy) 0).
  assert (LX : forall v, on_line_xy (mkLine (V lx ly lz) d) v <-> exists k, X v = lx + k * dx /\ Y v = ly + k * dy).
  { intros v. unfold on_line_xy. rn. rewrite DX, DY. split; intros (k & H1 & H2).
    - exists (k * L). rewrite H1, H2. un. rn. split; ring.
    - exists (k / L). rewrite H1, H2. un. rn. split; field; lra. }
  assert (SQ : forall v k, X v = lx + k * dx -> Y v = ly + k * dy -> sqdist2 v (V cx cy cz) = (k + m) * (k + m) + h).
  { intros v k H1 H2. unfold sqdist2, Rsqr. rewrite H1, H2. unfold h, m, X, Y. rn. fold ux uy.
    transitivity (ux * ux + uy * uy + 2 * k * (dx * ux + dy * uy) + k * k * (dx * dx + dy * dy)); [unfold ux, uy; ring|].
    rewrite U. ring. }
  assert (FH : sqdist2 foot (V cx cy cz) = h).
  { rewrite (SQ foot (- m)); [ring| |]; unfold foot, X, Y, P; rn; ring. }
  (* the code's quantities *)
  match goal with |- context[isZero ?e] => set (ex := e) end.
  assert (EX : ex = 4 * (r * r - h)).
  { unfold ex, h. unfold vdot, vmagSq2D, vsub, vxy, P. rn. fold ux uy. 
    replace (dx * ux + dy * uy + 0 * (0 - 0)) with m by (unfold m; ring).
    unfold ux, uy. ring. }
  match goal with |- context[pdiv (Ropp ?e) _] => set (b := e) end.
  assert (BB : b = 2 * m).
  { unfold b, vdot, vsub, vxy, P. rn. fold ux uy. unfold m. ring. }
  clearbody ex b.
  exists (if @isZero Rnum ex then [foot] else if Rltb ex 0 then [] else
     [P (lx + (- m - sqrt ex / 2) * dx) (ly + (- m - sqrt ex / 2) * dy) 0; P (lx + (- m + sqrt ex / 2) * dx) (ly + (- m + sqrt ex / 2) * dy) 0]).
  split.
  { destruct (@isZero Rnum ex) eqn:E.
    - rewrite pdiv_nz by lra. cbn [bind]. do 2 f_equal. unfold foot. apply pt_ext; unfold vadd, vscale, vxy, P, X, Y, Z; rn; rewrite ?BB; field.
    - rn. destruct (Rltb ex 0) eqn:E2; [reflexivity|].
      unfold psqrt. rn. rewrite E2. cbn [bind]. rewrite !pdiv_nz by lra. cbn [bind]. f_equal.
      f_equal; [|f_equal]; apply pt_ext; unfold vadd, vscale, vxy, P, X, Y, Z; rn; rewrite ?BB; field. }
  exists foot. split; [apply LX; exists (- m); unfold foot, P, X, Y; rn; split; ring|].
  split; [reflexivity|]. split.
  { intros v Hv. apply LX in Hv. destruct Hv as (k & H1 & H2). rewrite FH, (SQ v k H1 H2).
    pose proof (Rle_0_sqr (k + m)) as Q. unfold Rsqr in Q. lra. }
  cbn zeta. rewrite FH, <- EX. split; [|split].
  - intros H. apply isZero_iff in H. rewrite H. reflexivity.
  - intros H. pose proof eps_pos. assert (@isZero Rnum ex = false) as ->.
    { apply isZero_false. rewrite Rabs_left by lra. lra. }
    replace (Rltb ex 0) with true by (symmetry; apply Rltb_true; lra). split; [reflexivity|].
    intros v Hv Hc. apply LX in Hv. destruct Hv as (k & H1 & H2). unfold on_circle in Hc. rn. rewrite (SQ v k H1 H2) in Hc.
    pose proof (Rle_0_sqr (k + m)) as Q. unfold Rsqr in Q. lra.
  - intros H. pose proof eps_pos. assert (@isZero Rnum ex = false) as ->.
    { apply isZero_false. rewrite Rabs_right by lra. lra. }
    replace (Rltb ex 0) with false by (symmetry; apply Rltb_false; lra).
    set (w := sqrt ex / 2). assert (W2 : w * w = r * r - h).
    { unfold w. transitivity (sqrt ex * sqrt ex / 4); [field|]. rewrite sqrt_sqrt by lra. lra. }
    assert (W0 : 0 < w). { unfold w. pose proof (sqrt_lt_R0 ex). lra. }
    eexists. eexists. split; [reflexivity|]. split.
    { unfold P, X, Y. rn. destruct (Req_EM_T dx 0) as [D0|D0].
      - right. assert (dy <> 0) by (intros D1; rewrite D0, D1 in U; lra).
        intros Q. assert (2 * w * dy = 0) by lra. apply Rmult_integral in H2. destruct H2; lra.
      - left. intros Q. assert (2 * w * dx = 0) by lra. apply Rmult_integral in H1. destruct H1; lra. }
    split; [reflexivity|]. split; [reflexivity|].
    intros v Zv. unfold on_circle. rn. split.
    + intros [Hv Hc]. apply LX in Hv. destruct Hv as (k & H1 & H2). rewrite (SQ v k H1 H2) in Hc.
      assert (K : (k + m - w) * (k + m + w) = 0) by (transitivity ((k+m)*(k+m) - w * w); [ring|rewrite W2; lra]).
      apply Rmult_integral in K. destruct K as [K|K]; [right; replace k with (- m + w) in * by lra|left; replace k with (- m - w) in * by lra];
        apply pt_ext; try exact H1; try exact H2; exact Zv.
    + intros [->| ->].
      * split; [apply LX; eexists; split; reflexivity|]. rewrite (SQ _ (- m - w)) by reflexivity.
        replace ((- m - w + m) * (- m - w + m)) with (w * w) by ring. rewrite W2. ring.
      * split; [apply LX; eexists; split; reflexivity|]. rewrite (SQ _ (- m + w)) by reflexivity.
        replace ((- m + w + m) * (- m + w + m)) with (w * w) by ring. rewrite W2. ring.
Qed.

Lemma prod_sign r1 r2 p m : p <> 0 -> m = (r1 * r1 - r2 * r2 + p * p) / (2 * p) ->
  4 * (p * p) * (r1 * r1 - m * m) = (r2 * r2 - (p - r1) * (p - r1)) * ((p + r1) * (p + r1) - r2 * r2).
Proof. intros Hp ->. field. exact Hp. Qed.

Lemma chord_nonneg r1 r2 p m : 0 < p -> Rabs (r1 - r2) <= p -> p <= r1 + r2 ->
  m = (r1 * r1 - r2 * r2 + p * p) / (2 * p) -> 0 <= r1 * r1 - m * m.
Proof.
  intros Hp Ha Hs Hm. pose proof (prod_sign r1 r2 p m ltac:(lra) Hm) as E.
  assert (A : - p <= r1 - r2 <= p) by (split; [pose proof (Rle_abs (-(r1-r2))); rewrite Rabs_Ropp in *; lra|pose proof (Rle_abs (r1-r2)); lra]).
  assert (0 <= r2 * r2 - (p - r1) * (p - r1)).
  { replace (r2 * r2 - (p - r1) * (p - r1)) with ((r2 - p + r1) * (r2 + p - r1)) by ring. apply Rmult_le_pos; lra. }
  assert (0 <= (p + r1) * (p + r1) - r2 * r2).
  { replace ((p + r1) * (p + r1) - r2 * r2) with ((p + r1 - r2) * (p + r1 + r2)) by ring. apply Rmult_le_pos; lra. }
  assert (0 <= 4 * (p * p) * (r1 * r1 - m * m)) by (rewrite E; apply Rmult_le_pos; assumption).
  assert (0 < 4 * (p * p)) by nra.
  apply Rmult_le_reg_l with (4 * (p * p)); [assumption|]. lra.
Qed.

Lemma no_common r1 r2 p m : 0 <= r1 -> 0 <= r2 -> 0 < p -> (r1 + r2 < p \/ p < Rabs (r1 - r2)) ->
  m = (r1 * r1 - r2 * r2 + p * p) / (2 * p) -> r1 * r1 - m * m < 0.
Proof.
  intros H1 H2 Hp Hc Hm. pose proof (prod_sign r1 r2 p m ltac:(lra) Hm) as E.
  assert (N : (r2 * r2 - (p - r1) * (p - r1)) * ((p + r1) * (p + r1) - r2 * r2) < 0).
  { replace (r2 * r2 - (p - r1) * (p - r1)) with ((r2 - p + r1) * (r2 + p - r1)) by ring.
    replace ((p + r1) * (p + r1) - r2 * r2) with ((p + r1 - r2) * (p + r1 + r2)) by ring.
    destruct Hc as [Hc|Hc].
    - assert ((p - r2 - r1) * (r2 + p - r1) * ((p + r1 - r2) * (p + r1 + r2)) > 0); [|lra].
      apply Rmult_gt_0_compat; apply Rmult_gt_0_compat; lra.
    - unfold Rabs in Hc. destruct (Rcase_abs (r1 - r2)).
      + assert ((r2 - p + r1) * (r2 + p - r1) * ((r2 - p - r1) * (p + r1 + r2)) > 0); [|lra].
        apply Rmult_gt_0_compat; apply Rmult_gt_0_compat; lra.
      + assert ((r2 - p + r1) * (r1 - p - r2) * ((p + r1 - r2) * (p + r1 + r2)) > 0); [|lra].
        apply Rmult_gt_0_compat; apply Rmult_gt_0_compat; lra. }
  rewrite <- E in N. assert (0 < 4 * (p * p)) by nra. nra.
Qed.

Lemma cintersectCircle2D_spec (c o : @circle Rnum) :
  let p := edist2 (ccenter c) (ccenter o) in
  let r1 := cradius c in let r2 := cradius o in
  exists pts, cintersectCircle2D c o = Ok pts /\
  (p < eps -> pts = []) /\
  (r1 + r2 < p \/ p < Rabs (r1 - r2) -> pts = []) /\
  (0 < p -> 0 <= r1 -> 0 <= r2 -> r1 + r2 < p \/ p < Rabs (r1 - r2) ->
     forall v, on_circle c v -> ~ on_circle o v) /\
  (eps <= p -> Rabs (r1 - r2) <= p <= r1 + r2 ->
     (exists q q', pts = [q; q'] /\ q <> q' /\ Z q = 0 /\ Z q' = 0 /\
        forall v, Z v = 0 -> (on_circle c v /\ on_circle o v <-> v = q \/ v = q')) \/
     (exists q, pts = [q] /\ Z q = 0 /\ Rabs (sqdist2 q (ccenter c) - r1 * r1) < eps * eps /\
         Rabs (sqdist2 q (ccenter o) - r2 * r2) < eps * eps)).
Proof.
  destruct c as [[ax ay az] r1], o as [[bx by_ bz] r2]. cbn zeta. rn.
  set (dx := bx - ax). set (dy := by_ - ay).
  set (p := sqrt (dx * dx + dy * dy)).
  assert (Ep : edist2 (V ax ay az) (V bx by_ bz) = p).
  { unfold edist2, p. apply (f_equal sqrt). unfold sqdist2, Rsqr, X, Y. rn. unfold dx, dy. ring. }
  rewrite Ep.
  assert (P2 : p * p = dx * dx + dy * dy) by (apply sqrt_sqrt; nra).
  assert (P0 : 0 <= p) by apply sqrt_pos.
  pose proof eps_pos as EP.
  set (ex := dx / p). set (ey := dy / p). set (m := (r1 * r1 - r2 * r2 + p * p) / (2 * p)).
  assert (UE : 0 < p -> ex * ex + ey * ey = 1).
  { intros H. unfold ex, ey. transitivity ((dx * dx + dy * dy) / (p * p)); [field; lra|]. rewrite <- P2. field. lra. }
  (* the relation between a point and its coordinates along and across the centre line *)
  assert (CO : forall v, 0 < p -> let x := (X v - ax) * ex + (Y v - ay) * ey in let y := (Y v - ay) * ex - (X v - ax) * ey in
     sqdist2 v (V ax ay az) = x * x + y * y /\ sqdist2 v (V bx by_ bz) = (x - p) * (x - p) + y * y /\
     X v = ax + x * ex - y * ey /\ Y v = ay + x * ey + y * ex).
  { intros v Hp. cbn zeta. pose proof (UE Hp) as U. unfold sqdist2, Rsqr. unfold X at 1 2 3 4 5 6 13, Y at 1 2 3 4 5 6 13. 
    unfold X, Y. rn.
    assert (DX : dx = p * ex) by (unfold ex; field; lra). assert (DY : dy = p * ey) by (unfold ey; field; lra).
    set (x := vx v). set (y := vy v).
    split; [|split; [|split]].
    - transitivity (((x - ax)*(x-ax) + (y-ay)*(y-ay)) * (ex * ex + ey * ey)); [rewrite U; ring|ring].
    - replace bx with (ax + p * ex) by (rewrite <- DX; unfold dx; ring).
      replace by_ with (ay + p * ey) by (rewrite <- DY; unfold dy; ring).
      transitivity (((x - ax)*(x-ax) + (y-ay)*(y-ay)) * 1 - 2 * p * ((x-ax)*ex+(y-ay)*ey) + p * p * (ex * ex + ey * ey)); [ring|].
      transitivity (((x - ax)*(x-ax) + (y-ay)*(y-ay)) * (ex * ex + ey * ey) - 2 * p * ((x-ax)*ex+(y-ay)*ey) + p * p * 1); [rewrite U; ring|ring].
    - transitivity (ax + (x - ax) * (ex * ex + ey * ey)); [rewrite U; symmetry; ring|ring].
    - transitivity (ay + (y - ay) * (ex * ex + ey * ey)); [rewrite U; symmetry; ring|ring]. }
  assert (BOTH : forall v, 0 < p -> let x := (X v - ax) * ex + (Y v - ay) * ey in let y := (Y v - ay) * ex - (X v - ax) * ey in
     (on_circle (mkCircle (V ax ay az) r1) v /\ on_circle (mkCircle (V bx by_ bz) r2) v) <-> x = m /\ y * y = r1 * r1 - m * m).
  { intros v Hp. cbn zeta. destruct (CO v Hp) as (S1 & S2 & _). cbn zeta in S1, S2.
    unfold on_circle. rn. rewrite S1, S2.
    set (x := (X v - ax) * ex + (Y v - ay) * ey). set (y := (Y v - ay) * ex - (X v - ax) * ey).
    assert (M2 : 2 * p * m = r1 * r1 - r2 * r2 + p * p) by (unfold m; field; lra).
    split.
    - intros [A B]. assert (Hx : x = m).
      { apply Rmult_eq_reg_l with (2 * p); [|lra]. rewrite M2. replace ((x-p)*(x-p)) with (x*x - 2*p*x + p*p) in B by ring. lra. }
      split; [exact Hx|]. rewrite <- Hx. lra.
    - intros [-> B]. replace ((m-p)*(m-p)) with (m*m - 2*p*m + p*p) by ring. rewrite B, M2. split; ring. }
  unfold cintersectCircle2D. cbn zeta. rn.
  match goal with |- context[vmag2D ?e] => change (vmag2D e) with p end.
  destruct (orb (orb (@isZero Rnum p) (Rltb (r1 + r2) p)) (Rltb p (Rabs (r1 - r2)))) eqn:C.
  { exists []. split; [reflexivity|]. split; [reflexivity|]. split; [reflexivity|]. split.
    - intros Hp H1 H2 Hc v A B. destruct (proj1 (BOTH v Hp) (conj A B)) as [_ Y2].
      pose proof (no_common r1 r2 p m H1 H2 Hp Hc eq_refl) as N.
      pose proof (Rle_0_sqr ((Y v - ay) * ex - (X v - ax) * ey)) as Q. unfold Rsqr in Q. lra.
    - intros He Hr. exfalso. apply orb_true_iff in C. destruct C as [C|C]; [apply orb_true_iff in C; destruct C as [C|C]|].
      + apply isZero_iff in C. rewrite Rabs_right in C; lra.
      + apply Rltb_true in C. lra.
      + apply Rltb_true in C. lra. }
  apply orb_false_iff in C. destruct C as [C C3]. apply orb_false_iff in C. destruct C as [C1 C2].
  apply isZero_false in C1. rewrite Rabs_right in C1 by lra. apply Rltb_false in C2. apply Rltb_false in C3.
  assert (Hp : 0 < p) by lra. specialize (UE Hp).
  pose proof (chord_nonneg r1 r2 p m Hp C3 C2 eq_refl) as CN.
  assert (ND : vsub (vxy (V bx by_ bz)) (vxy (V ax ay az)) = P dx dy 0).
  { apply pt_ext; unfold vsub, vxy, P, X, Y, Z; rn; try reflexivity. ring. }
  rewrite ND.
  assert (LD : len (P dx dy 0) = p).
  { unfold len, p. apply (f_equal sqrt). unfold inner, P, X, Y, Z. rn. ring. }
  rewrite vnorm_spec by (rewrite <- len_zero, LD; lra). rewrite LD. cbn [bind].
  rewrite pdiv_nz by lra. cbn [bind]. fold m.
  unfold psqrt. rn. replace (Rltb (r1 * r1 - m * m) 0) with false by (symmetry; apply Rltb_false; lra). cbn [bind].
  set (ch := sqrt (r1 * r1 - m * m)). assert (CH : ch * ch = r1 * r1 - m * m) by (apply sqrt_sqrt; lra).
  assert (CH0 : 0 <= ch) by apply sqrt_pos.
  assert (EMPTY : forall pts : list pt, (p < eps -> pts = []) /\ (r1 + r2 < p \/ p < Rabs (r1 - r2) -> pts = []) /\
     (0 < p -> 0 <= r1 -> 0 <= r2 -> r1 + r2 < p \/ p < Rabs (r1 - r2) ->
     forall v, on_circle (mkCircle (V ax ay az) r1) v -> ~ on_circle (mkCircle (V bx by_ bz) r2) v)).
  { intros pts. split; [lra|]. split; [intros [?|?]; lra|]. intros _ _ _ [?|?]; lra. }
  assert (SE : scaled (/ p) (P dx dy 0) = P ex ey 0) by (apply pt_ext; unfold scaled, P, X, Y, Z, ex, ey; rn; field; lra).
  rewrite SE.
  destruct (@isZero Rnum ch) eqn:EC.
  - eexists. split; [reflexivity|]. apply isZero_iff in EC. rewrite Rabs_right in EC by lra.
    destruct (EMPTY [vadd (vxy (P ax ay az)) (@vscale Rnum (P ex ey 0) m)]) as (E1 & E2 & E3).
    split; [exact E1|]. split; [exact E2|]. split; [exact E3|]. intros _ _. right.
    eexists. split; [reflexivity|]. split; [unfold vadd, vxy, vscale, P, Z; rn; ring|].
    match goal with |- context[sqdist2 ?e _] => set (q := e) end.
    destruct (CO q Hp) as (S1 & S2 & _). cbn zeta in S1, S2. rewrite S1, S2.
    assert (QX : (X q - ax) * ex + (Y q - ay) * ey = m).
    { unfold q, vadd, vxy, vscale, P, X, Y. rn. transitivity (m * (ex * ex + ey * ey)); [ring|rewrite UE; ring]. }
    assert (QY : (Y q - ay) * ex - (X q - ax) * ey = 0).
    { unfold q, vadd, vxy, vscale, P, X, Y. rn. ring. }
    rewrite QX, QY. assert (M2 : 2 * p * m = r1 * r1 - r2 * r2 + p * p) by (unfold m; field; lra).
    replace (m * m + 0 * 0 - r1 * r1) with (- (ch * ch)) by (rewrite CH; ring).
    replace ((m - p) * (m - p) + 0 * 0 - r2 * r2) with (- (ch * ch)) by (rewrite CH; replace ((m - p) * (m - p)) with (m * m - 2 * p * m + p * p) by ring; rewrite M2; ring).
    rewrite !Rabs_Ropp. assert (0 <= ch * ch) by nra. rewrite !Rabs_right by lra.
    split; apply Rmult_le_0_lt_compat; lra.
  - eexists. split; [reflexivity|]. apply isZero_false in EC. rewrite Rabs_right in EC by lra.
    set (q := vadd (vadd (vxy (P ax ay az)) (@vscale Rnum (P ex ey 0) m)) (@vscale Rnum (vortho2D (P ex ey 0)) ch)).
    set (q' := vsub (vadd (vxy (P ax ay az)) (@vscale Rnum (P ex ey 0) m)) (@vscale Rnum (vortho2D (P ex ey 0)) ch)).
    destruct (EMPTY [q; q']) as (E1 & E2 & E3).
    split; [exact E1|]. split; [exact E2|]. split; [exact E3|]. intros _ _. left.
    exists q, q'. split; [reflexivity|].
    assert (XQ : X q = ax + m * ex - ch * ey /\ Y q = ay + m * ey + ch * ex /\ Z q = 0).
    { unfold q, vadd, vxy, vscale, vortho2D, P, X, Y, Z. rn. split; [|split]; ring. }
    assert (XQ' : X q' = ax + m * ex + ch * ey /\ Y q' = ay + m * ey - ch * ex /\ Z q' = 0).
    { unfold q', vadd, vsub, vxy, vscale, vortho2D, P, X, Y, Z. rn. split; [|split]; ring. }
    clearbody q q'. destruct XQ as (X1 & Y1 & Z1), XQ' as (X2 & Y2 & Z2).
    split.
    { intros ->. assert (ch * ex = 0) by lra. assert (ch * ey = 0) by lra.
      apply Rmult_integral in H. apply Rmult_integral in H0. destruct H as [H|H]; [lra|]. destruct H0 as [H0|H0]; [lra|].
      rewrite H, H0 in UE. lra. }
    split; [exact Z1|]. split; [exact Z2|]. intros v Zv.
    pose proof (BOTH v Hp) as BV. cbn zeta in BV. rewrite BV. destruct (CO v Hp) as (_ & _ & VX & VY). cbn zeta in VX, VY.
    split.
    + intros [Hx Hy]. rewrite Hx in VX, VY. set (y := (Y v - ay) * ex - (X v - ax) * ey) in *.
      assert (K : (y - ch) * (y + ch) = 0) by (transitivity (y * y - ch * ch); [ring|rewrite Hy, CH; ring]).
      apply Rmult_integral in K. destruct K as [K|K]; [left; replace y with ch in * by lra|right; replace y with (- ch) in * by lra];
        apply pt_ext; lra.
    + intros [->| ->]; [rewrite X1, Y1|rewrite X2, Y2]; split.
      * transitivity (m * (ex * ex + ey * ey)); [ring|rewrite UE; ring].
      * rewrite <- CH. transitivity (ch * ch * (ex * ex + ey * ey) * (ex * ex + ey * ey)); [ring|rewrite UE; ring].
      * transitivity (m * (ex * ex + ey * ey)); [ring|rewrite UE; ring].
      * rewrite <- CH. transitivity (ch * ch * (ex * ex + ey * ey) * (ex * ex + ey * ey)); [ring|rewrite UE; ring].
Qed.
