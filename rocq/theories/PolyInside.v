(** A simple polygon with a left turn at its highest corner runs around every point once or not at all. *)
From Coq Require Import Reals Lra Psatz ZArith List Lia Permutation.
From Verif Require Import Num GeoModel GeoSpec EdgeSpecR FaceModel FaceSpec FaceSpecR FaceCover PolyEv PolySides PolyCross PolyWind PolyJordan.
Import ListNotations.
Open Scope R_scope.

Lemma argmin {A} (f : A -> R) (l : list A) : l <> [] -> exists x, In x l /\ forall y, In y l -> f x <= f y.
Proof.
  induction l as [|a l IH]; intros N; [congruence|]. destruct l as [|b l].
  - exists a. split; [left; reflexivity|]. intros y [<-|[]]. lra.
  - destruct IH as (x & I & M); [discriminate|]. destruct (Rle_dec (f a) (f x)) as [L|L].
    + exists a. split; [left; reflexivity|]. intros y [<-|Hy]; [lra|]. pose proof (M y Hy). lra.
    + exists x. split; [right; exact I|]. intros y [<-|Hy]; [lra|apply M, Hy].
Qed.
Lemma argmin_in {A} (f : A -> R) (Q : A -> Prop) (D : forall x, Q x \/ ~ Q x) (l : list A) :
  (forall x, In x l -> ~ Q x) \/ exists x, In x l /\ Q x /\ forall y, In y l -> Q y -> f x <= f y.
Proof.
  induction l as [|a l IH]; [left; intros x []|]. destruct IH as [IH|(x & I & Qx & M)], (D a) as [Qa|Na].
  - right. exists a. split; [left; reflexivity|]. split; [exact Qa|]. intros y [<-|Hy] Qy; [lra|]. exfalso. apply (IH y Hy Qy).
  - left. intros x [<-|I]; auto.
  - right. destruct (Rle_dec (f a) (f x)) as [L|L].
    + exists a. split; [left; reflexivity|]. split; [exact Qa|]. intros y [<-|Hy] Qy; [lra|]. pose proof (M y Hy Qy). lra.
    + exists x. split; [right; exact I|]. split; [exact Qx|]. intros y [<-|Hy] Qy; [lra|apply M; assumption].
  - right. exists x. split; [right; exact I|]. split; [exact Qx|]. intros y [<-|Hy] Qy; [contradiction|apply M; assumption].
Qed.

(* the highest corner turns left *)
Definition good (l : list pt) : Prop := tame l /\ exists a b c, In (a, b) (psides l) /\ In (b, c) (psides l) /\ top l b /\ 0 < side a b c.
Lemma good_rot l1 l2 : good (l1 ++ l2) -> good (l2 ++ l1).
Proof.
  intros (T & a & b & c & H & K & TB & L). split; [apply tame_rot, T|]. exists a, b, c.
  split; [apply (Permutation_in _ (psides_rot l1 l2)), H|]. split; [apply (Permutation_in _ (psides_rot l1 l2)), K|]. split; [|exact L].
  intros v I. apply TB. apply (Permutation_in _ (rot_perm l2 l1)), I.
Qed.
Lemma top_ex (l : list pt) : l <> [] -> exists b, In b l /\ top l b.
Proof. intros N. destruct (argmin (fun p => - Y p) l N) as (b & I & M). exists b. split; [exact I|]. intros v Hv. pose proof (M v Hv). lra. Qed.
Lemma good_or l : tame l -> good l \/ good (rev l).
Proof.
  intros T. destruct (top_ex l) as (b & I & TB); [destruct T as [A _ _ _ _]; destruct l; [cbn in A; lia|discriminate]|].
  destruct (prev_ex _ _ I) as (a & H), (next_ex _ _ I) as (c & K). pose proof (turn_neq l T _ _ _ H K) as N.
  destruct (Rlt_dec 0 (side a b c)) as [L|L]; [left|right].
  - split; [exact T|]. exists a, b, c. auto.
  - split; [apply tame_rev, T|]. exists c, b, a. split; [apply in_psides_rev, K|]. split; [apply in_psides_rev, H|]. split.
    + intros v Hv. apply TB. apply in_rev, Hv.
    + assert (side c b a = - side a b c) by (unfold side; ring). lra.
Qed.

Section Good.
Variable l : list pt.
Hypothesis G : good l.
Local Notation S := (psides l).
Lemma tm : tame l. Proof. apply G. Qed.
Lemma left_one u v k : In (u, v) S -> 0 < k < 1 -> Ev (fun t => wind l (lp u v k t) = 1%Z).
Proof.
  destruct G as (T & a & b & c & H & K & TB & L).
  set (Q := fun v => forall u, In (u, v) S -> forall k, 0 < k < 1 -> Ev (fun t => wind l (lp u v k t) = 1%Z)).
  assert (AR : forall v, In v l -> Q v).
  { apply (around l Q) with (x := b).
    - intros u0 v0 I Qu u1 I1 k0 B. rewrite (prev_unique _ _ _ _ (t_nd l T) I1 I) in *. clear u1 I1.
      destruct (prev_ex l u0) as (p & Hp); [apply (psides_in _ _ _ I)|]. specialize (Qu p Hp k0 B).
      pose proof (step_in l T p u0 v0 k0 Hp I B) as A1. pose proof (step_out l T p u0 v0 k0 Hp I B) as A2.
      destruct (Rlt_dec 0 (side p u0 v0)).
      + refine (Ev_mono _ _ _ (Ev_and _ _ Qu (Ev_and _ _ A1 A2))). intros t _ (E1 & E2 & E3). congruence.
      + refine (Ev_mono _ _ _ (Ev_and _ _ (Ev_and _ _ (jump l T p u0 k0 Hp B) (jump l T u0 v0 k0 I B)) (Ev_and _ _ Qu (Ev_and _ _ A1 A2)))). intros t _ ((J1 & J2) & E1 & E2 & E3). lia.
    - apply (psides_in _ _ _ H).
    - intros u0 I k0 B. rewrite (prev_unique _ _ _ _ (t_nd l T) I H) in *. clear u0 I.
      pose proof (step_in l T a b c k0 H K B) as A1. pose proof (top_wind l T a b c H K TB) as A2. destruct (Rlt_dec 0 (side a b c)); [|lra].
      refine (Ev_mono _ _ _ (Ev_and _ _ A1 A2)). intros t _ (E1 & E2). congruence. }
  intros I B. apply (AR v); [apply (psides_in _ _ _ I)|exact I|exact B].
Qed.
Lemma right_zero u v k : In (u, v) S -> 0 < k < 1 -> Ev (fun t => wind l (rp u v k t) = 0%Z).
Proof.
  intros I B. refine (Ev_mono _ _ _ (Ev_and _ _ (jump l tm u v k I B) (left_one u v k I B))). intros t _ (J1 & J2). lia.
Qed.
(* at a height without corner *)
Definition hit (u v q : pt) : R := X u + (Y q - Y u) / (Y v - Y u) * (X v - X u).
Lemma side_hit u v q : Y u <> Y v -> side u v q = (Y v - Y u) * (hit u v q - X q).
Proof. intros N. unfold side, hit. field. lra. Qed.
Lemma crossing_hit u v q : Y u <> Y v -> hit u v q <= X q -> crossing q u v = 0%Z.
Proof.
  intros N L. pose proof (side_hit u v q N) as E. unfold crossing.
  destruct (Rle_dec (Y u) (Y q)).
  - destruct (Rlt_dec (Y q) (Y v)); [|reflexivity]. destruct (Rlt_dec 0 (side u v q)); [|reflexivity]. exfalso. nra.
  - destruct (Rle_dec (Y v) (Y q)); [|reflexivity]. rewrite (side_sym u v). destruct (Rlt_dec 0 (- side u v q)); [|reflexivity]. exfalso. nra.
Qed.
Definition between (q u v : pt) : Prop := 0 < (Y q - Y u) * (Y v - Y q).
Lemma inside_generic q : (forall v, In v l -> Y v <> Y q) -> (0 <= wind l q <= 1)%Z.
Proof.
  intros NV. pose proof tm as T.
  assert (HD : forall u v, In (u, v) S -> Y u <> Y v). { intros u v I. destruct (psides_in _ _ _ I). apply (t_hd l T); auto. apply (s_neq l T), I. }
  destruct (argmin_in (fun e => hit (fst e) (snd e) q) (fun e => between q (fst e) (snd e) /\ X q < hit (fst e) (snd e) q)) with (l := S) as [N|([u v] & I & (B & R0) & M)].
  { intros e. unfold between. destruct (Rlt_dec 0 ((Y q - Y (fst e)) * (Y (snd e) - Y q))); [|tauto]. destruct (Rlt_dec (X q) (hit (fst e) (snd e) q)); tauto. }
  - unfold wind. rewrite ssum_zero; [lia|]. intros x y I. destruct (psides_in _ _ _ I) as [Ix Iy]. specialize (N (x, y) I). cbn [fst snd] in N. unfold between in N.
    pose proof (NV x Ix). pose proof (NV y Iy).
    destruct (Rlt_dec 0 ((Y q - Y x) * (Y y - Y q))) as [P|P].
    + apply crossing_hit; [apply HD, I|]. apply Rnot_lt_le. intros C. apply N. split; assumption.
    + apply crossing_none. destruct (Rlt_dec (Y x) (Y q)), (Rlt_dec (Y y) (Y q)); [left; lra|exfalso; nra|exfalso; nra|right; lra].
  - cbn [fst snd] in *. destruct (psides_in _ _ _ I) as [Iu Iv]. pose proof (HD u v I) as Nuv.
    set (k := (Y q - Y u) / (Y v - Y u)).
    assert (KB : 0 < k < 1).
    { unfold between in B. destruct (Rlt_dec (Y u) (Y v)).
      - assert (0 < Y q - Y u) by nra. assert (0 < Y v - Y q) by nra. unfold k. split; [apply Rdiv_lt_0_compat; lra|]. apply (Rmult_lt_reg_r (Y v - Y u)); [lra|]. unfold Rdiv. rewrite Rmult_assoc, Rinv_l by lra. lra.
      - assert (0 < Y u - Y q) by nra. assert (0 < Y q - Y v) by nra.
        replace k with ((Y u - Y q) / (Y u - Y v)) by (unfold k; field; lra). split; [apply Rdiv_lt_0_compat; lra|]. apply (Rmult_lt_reg_r (Y u - Y v)); [lra|]. unfold Rdiv. rewrite Rmult_assoc, Rinv_l by lra. lra. }
    assert (YM : Y (on u v k) = Y q) by (unfold on; rewrite Y_P; unfold k; field; lra).
    assert (XM : X (on u v k) = hit u v q) by reflexivity.
    (* a point just left of the hit *)
    assert (ST : forall p, Y p = Y q -> X q <= X p < hit u v q -> wind l p = wind l q).
    { intros p EP BP. unfold wind. apply ssum_ext. intros x y J. destruct (psides_in _ _ _ J) as [Ix Iy]. pose proof (HD x y J) as Nxy. pose proof (NV x Ix). pose proof (NV y Iy).
      assert (EH : hit x y p = hit x y q) by (unfold hit; rewrite EP; reflexivity).
      destruct (Rle_dec (hit x y q) (X q)) as [L|L].
      - rewrite (crossing_hit x y q Nxy L). apply crossing_hit; [exact Nxy|lra].
      - destruct (Rlt_dec 0 ((Y q - Y x) * (Y y - Y q))) as [P|P].
        + pose proof (M (x, y) J (conj P (Rnot_le_lt _ _ L))) as M1. cbn [fst snd] in M1. apply same_level; [exact EP|]. left. rewrite !side_hit, EH by exact Nxy.
          replace ((Y y - Y x) * (hit x y q - X p) * ((Y y - Y x) * (hit x y q - X q))) with (((Y y - Y x) * (Y y - Y x)) * ((hit x y q - X p) * (hit x y q - X q))) by ring.
          assert (0 < (Y y - Y x) * (Y y - Y x)) by (destruct (Rlt_dec (Y x) (Y y)); nra). apply Rmult_lt_0_compat; [assumption|]. apply Rmult_lt_0_compat; lra.
        + rewrite !crossing_none; [reflexivity| |]; rewrite ?EP; destruct (Rlt_dec (Y x) (Y q)), (Rlt_dec (Y y) (Y q)); first [left; lra|right; lra|exfalso; nra]. }
    destruct (Rlt_dec (Y u) (Y v)) as [U|U].
    + destruct (Ev_ex _ (Ev_and _ _ (left_one u v k I KB) (Ev_lin (hit u v q - X q) (Y u - Y v) ltac:(lra)))) as (t & Ht & E1 & E2).
      rewrite <- (ST (lp u v k t)); [rewrite E1; lia|rewrite Y_lp; exact YM|]. rewrite X_lp, XM. split; [lra|]. assert (t * (Y u - Y v) < 0) by nra. lra.
    + destruct (Ev_ex _ (Ev_and _ _ (right_zero u v k I KB) (Ev_lin (hit u v q - X q) (Y v - Y u) ltac:(lra)))) as (t & Ht & E1 & E2).
      rewrite <- (ST (rp u v k t)); [rewrite E1; lia|rewrite Y_rp; exact YM|]. rewrite X_rp, XM. split; [lra|]. assert (t * (Y v - Y u) < 0) by nra. lra.
Qed.
(* any point: move it a little *)
Definition nudge (q : pt) (t : R) : pt := P (X q + t) (Y q + t * t) 0.
Lemma nudge_level q v : Ev (fun t => (Y v <= Y q -> Y v < Y (nudge q t)) /\ (Y q < Y v -> Y (nudge q t) < Y v)).
Proof.
  unfold nudge. destruct (Rle_dec (Y v) (Y q)) as [L|L].
  - apply Ev_true. intros t Ht. rewrite Y_P. split; [intros; nra|lra].
  - refine (Ev_mono _ _ _ (Ev_fun (fun t => Y v - Y q - t * t) (Y v - Y q) 0 (-1) _ _)); [|intros; ring|lra]. intros t Ht E. rewrite Y_P. split; [lra|]. intros. lra.
Qed.
Lemma side_nudge u v q t : side u v (nudge q t) = side u v q + - (Y v - Y u) * t + (X v - X u) * (t * t).
Proof. unfold nudge, side. rewrite X_P, Y_P. ring. Qed.
Lemma nudge_side u v q : Y u < Y v -> Ev (fun t => 0 < side u v (nudge q t) <-> 0 < side u v q).
Proof.
  intros L. destruct (Rlt_dec 0 (side u v q)) as [P|P].
  - refine (Ev_mono _ _ _ (Ev_fun _ _ _ _ (side_nudge u v q) P)). intros t _ E. tauto.
  - destruct (Req_EM_T (side u v q) 0) as [E|N].
    + refine (Ev_mono _ _ _ (Ev_fun1 (fun t => - side u v (nudge q t)) (Y v - Y u) (- (X v - X u)) _ _)); [|intros t; rewrite side_nudge, E; ring|lra]. intros t _ F. lra.
    + refine (Ev_mono _ _ _ (Ev_fun (fun t => - side u v (nudge q t)) (- side u v q) (Y v - Y u) (- (X v - X u)) _ _)); [|intros t; rewrite side_nudge; ring|lra]. intros t _ F. lra.
Qed.
Lemma nudge_crossing_up u v q : Y u < Y v -> Ev (fun t => crossing (nudge q t) u v = crossing q u v).
Proof.
  intros L. refine (Ev_mono _ _ _ (Ev_and _ _ (nudge_side u v q L) (Ev_and _ _ (nudge_level q u) (nudge_level q v)))). intros t _ (E & (A1 & A2) & (B1 & B2)).
  destruct (Rle_dec (Y u) (Y q)) as [C|C].
  - specialize (A1 C). destruct (Rlt_dec (Y q) (Y v)) as [D|D].
    + specialize (B2 D). rewrite !crossing_up by lra. destruct (Rlt_dec 0 (side u v (nudge q t))), (Rlt_dec 0 (side u v q)); tauto.
    + assert (Y v < Y (nudge q t)) by (apply B1; lra). rewrite !crossing_none by lra. reflexivity.
  - assert (Y (nudge q t) < Y u) by (apply A2; lra). rewrite !crossing_none by lra. reflexivity.
Qed.
Lemma nudge_crossing u v q : Y u <> Y v -> Ev (fun t => crossing (nudge q t) u v = crossing q u v).
Proof.
  intros N. destruct (Rlt_dec (Y u) (Y v)) as [L|L]; [apply nudge_crossing_up, L|].
  refine (Ev_mono _ _ _ (nudge_crossing_up v u q _)); [|lra]. intros t _ E. rewrite (crossing_anti _ u v), (crossing_anti q u v). lia.
Qed.
Theorem inside_all q : (0 <= wind l q <= 1)%Z.
Proof.
  pose proof tm as T.
  assert (A : Ev (fun t => forall e, In e S -> crossing (nudge q t) (fst e) (snd e) = crossing q (fst e) (snd e))).
  { apply Ev_all. intros [u v] I. apply nudge_crossing. destruct (psides_in _ _ _ I). apply (t_hd l T); auto. apply (s_neq l T), I. }
  assert (B : Ev (fun t => forall v, In v l -> Y v <> Y (nudge q t))).
  { apply Ev_all. intros v I. refine (Ev_mono _ _ _ (nudge_level q v)). intros t _ [E1 E2]. destruct (Rle_dec (Y v) (Y q)); [specialize (E1 r); lra|]. specialize (E2 (Rnot_le_lt _ _ n)). lra. }
  destruct (Ev_ex _ (Ev_and _ _ A B)) as (t & _ & E & F). pose proof (inside_generic (nudge q t) F) as K.
  replace (wind l q) with (wind l (nudge q t)); [exact K|]. apply ssum_ext. intros x y I. apply (E (x, y) I).
Qed.
(* next to every corner there is a point inside *)
Theorem inside_near v (es : list (pt * pt)) : In v l -> (forall x y, In (x, y) es -> 0 < side x y v) ->
  exists q, (forall x y, In (x, y) es -> 0 < side x y q) /\ wind l q = 1%Z.
Proof.
  intros I H. destruct (next_ex _ _ I) as (w & K).
  assert (A : Ev (fun k => forall e, In e es -> 0 < side (fst e) (snd e) (on v w k))).
  { apply Ev_all. intros [x y] J. refine (Ev_mono _ _ _ (Ev_lin (side x y v) (side x y w - side x y v) (H x y J))). intros k _ L. cbn [fst snd]. rewrite side_on. lra. }
  destruct (Ev_ex _ (Ev_and _ _ (Ev_lt 1 ltac:(lra)) A)) as (k & Hk & K1 & E).
  assert (B : Ev (fun t => forall e, In e es -> 0 < side (fst e) (snd e) (lp v w k t))).
  { apply Ev_all. intros [x y] J. apply Ev_ssm, (E (x, y) J). }
  destruct (Ev_ex _ (Ev_and _ _ B (left_one v w k K ltac:(lra)))) as (t & Ht & E1 & E2).
  exists (lp v w k t). split; [|exact E2]. intros x y J. apply (E1 (x, y) J).
Qed.
End Good.
