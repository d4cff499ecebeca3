(** A simple polygon runs around every point once or not at all. *)
From Coq Require Import Reals Lra Psatz ZArith List Lia Permutation.
From Verif Require Import Num GeoModel GeoSpec EdgeSpecR FaceModel FaceSpec FaceSpecR FaceCover PolyEv PolySides PolyCross PolyWind.
Import ListNotations.
Open Scope R_scope.

(* a simple polygon in general position *)
Record tame (l : list pt) : Prop := mkTame {
  t_len : (3 <= length l)%nat;
  t_nd : NoDup l;
  t_gp : forall p q r, In p l -> In q l -> In r l -> p <> q -> q <> r -> p <> r -> side p q r <> 0;
  t_hd : forall p q, In p l -> In q l -> p <> q -> Y p <> Y q;
  t_simple : forall p p' q q', In (p, p') (psides l) -> In (q, q') (psides l) -> p <> q -> p <> q' -> p' <> q -> p' <> q' -> disj p p' q q' }.

Lemma tame_rot l1 l2 : tame (l1 ++ l2) -> tame (l2 ++ l1).
Proof.
  assert (PI : forall x, In x (l2 ++ l1) -> In x (l1 ++ l2)) by (intros x; apply Permutation_in, rot_perm).
  assert (PS : forall x, In x (psides (l2 ++ l1)) -> In x (psides (l1 ++ l2))) by (intros x; apply Permutation_in, psides_rot).
  intros [A B C D E]. constructor.
  - rewrite (Permutation_length (rot_perm l2 l1)). exact A.
  - apply (Permutation_NoDup (rot_perm l1 l2)), B.
  - intros; apply C; auto.
  - intros; apply D; auto.
  - intros; apply E; auto.
Qed.
Lemma tame_rev l : tame l -> tame (rev l).
Proof.
  intros [A B C D E]. constructor.
  - rewrite rev_length. exact A.
  - apply NoDup_rev, B.
  - intros p q r Hp Hq Hr. apply in_rev in Hp, Hq, Hr. apply C; assumption.
  - intros p q Hp Hq. apply in_rev in Hp, Hq. apply D; assumption.
  - intros p p' q q' H K N1 N2 N3 N4. apply (proj1 (in_psides_rev _ _ _)) in H, K. apply disj_swap, disj_swap2. apply (E _ _ _ _ H K); auto.
Qed.

(* a point of the side u-v moved to the left, to the right *)
Definition lft (u v : pt) : pt := P (Y u - Y v) 0 0.
Definition lp (u v : pt) (k t : R) : pt := mv (on u v k) (lft u v) t.
Definition rp (u v : pt) (k t : R) : pt := mv (on u v k) (lft v u) t.
Lemma on_flip u v k : on u v k = on v u (1 - k).
Proof. unfold on, P. f_equal; unfold X, Y; cbn; ring. Qed.
Lemma into_sym v a c : into v a c = into v c a.
Proof. unfold into, P. f_equal; unfold X, Y; cbn; ring. Qed.

Lemma classic_eq (x y : pt) : x = y \/ x <> y.
Proof.
  destruct x as [a b c], y as [a' b' c']. destruct (Req_EM_T a a') as [->|N]; [|right; congruence].
  destruct (Req_EM_T b b') as [->|N]; [|right; congruence]. destruct (Req_EM_T c c') as [->|N]; [|right; congruence]. left; reflexivity.
Qed.

Section Tame.
Variable l : list pt.
Hypothesis T : tame l.
Local Notation S := (psides l).
Lemma s_in u v : In (u, v) S -> In u l /\ In v l. Proof. apply psides_in. Qed.
Lemma s_neq u v : In (u, v) S -> u <> v. Proof. apply side_neq; [apply T|destruct T; lia]. Qed.
Lemma s_ends a v c : In (a, v) S -> In (v, c) S -> a <> c. Proof. apply ends_neq; apply T. Qed.
Lemma turn_neq a v c : In (a, v) S -> In (v, c) S -> side a v c <> 0.
Proof.
  intros H K. destruct (s_in _ _ H), (s_in _ _ K). apply (t_gp l T); auto; [apply s_neq, H|apply s_neq, K|apply (s_ends _ _ _ H K)].
Qed.
Lemma corner_in a v c x y : In (a, v) S -> In (v, c) S -> In (x, y) S -> corner_ok v a c x y.
Proof.
  intros H K I. unfold corner_ok. pose proof (t_nd l T) as ND. destruct (s_in _ _ H) as [Ia Iv], (s_in _ _ K) as [_ Ic], (s_in _ _ I) as [Ix Iy].
  pose proof (s_neq _ _ H). pose proof (s_neq _ _ K). pose proof (s_neq _ _ I).
  destruct (classic_eq x v) as [->|Nxv].
  { right; left; left. rewrite (next_unique _ _ _ _ ND I K). reflexivity. }
  destruct (classic_eq y v) as [->|Nyv].
  { left; left. rewrite (prev_unique _ _ _ _ ND I H). reflexivity. }
  destruct (classic_eq x a) as [->|Nxa].
  { left; left. rewrite (next_unique _ _ _ _ ND I H). reflexivity. }
  destruct (classic_eq y a) as [->|Nya].
  { right; right; left. split; [reflexivity|]. apply (t_gp l T); auto. }
  right; right; right; right. apply (t_simple l T); auto.
Qed.
Lemma corner_out a v c x y : In (a, v) S -> In (v, c) S -> In (x, y) S -> corner_ok v c a x y.
Proof.
  intros H K I. unfold corner_ok. pose proof (t_nd l T) as ND. destruct (s_in _ _ H) as [Ia Iv], (s_in _ _ K) as [_ Ic], (s_in _ _ I) as [Ix Iy].
  pose proof (s_neq _ _ H). pose proof (s_neq _ _ K). pose proof (s_neq _ _ I).
  destruct (classic_eq x v) as [->|Nxv].
  { left; right. rewrite (next_unique _ _ _ _ ND I K). reflexivity. }
  destruct (classic_eq y v) as [->|Nyv].
  { right; left; right. rewrite (prev_unique _ _ _ _ ND I H). reflexivity. }
  destruct (classic_eq y c) as [->|Nyc].
  { left; right. rewrite (prev_unique _ _ _ _ ND I K). reflexivity. }
  destruct (classic_eq x c) as [->|Nxc].
  { right; right; right; left. split; [reflexivity|]. apply (t_gp l T); auto. }
  right; right; right; right. apply disj_swap2. apply (t_simple l T); auto.
Qed.
Lemma Ev_wind (p q : R -> pt) : (forall x y, In (x, y) S -> Ev (fun t => disj x y (p t) (q t))) -> Ev (fun t => wind l (p t) = wind l (q t)).
Proof.
  intros H. refine (Ev_mono _ _ _ (Ev_all S (fun e t => disj (fst e) (snd e) (p t) (q t)) _)).
  - intros t _ K. apply wind_const. intros u v I. apply (K (u, v) I).
  - intros [x y] I. apply H, I.
Qed.
Lemma X_P x y z : X (P x y z) = x. Proof. reflexivity. Qed.
Lemma Y_P x y z : Y (P x y z) = y. Proof. reflexivity. Qed.
Lemma sq_pos u v : In (u, v) S -> 0 < (Y v - Y u) * (Y v - Y u).
Proof. intros H. destruct (s_in _ _ H). assert (Y u <> Y v) by (apply (t_hd l T); auto; apply s_neq, H). destruct (Rlt_dec 0 (Y v - Y u)); nra. Qed.
(* around a corner *)
Lemma step_in a v c k : In (a, v) S -> In (v, c) S -> 0 < k < 1 ->
  Ev (fun t => wind l ((if Rlt_dec 0 (side a v c) then lp else rp) a v k t) = wind l (mv v (into v a c) t)).
Proof.
  intros H K B. pose proof (turn_neq _ _ _ H K) as N. pose proof (sq_pos _ _ H) as Q.
  destruct (Rlt_dec 0 (side a v c)) as [L|L]; unfold lp, rp; rewrite (on_flip a v k);
    apply Ev_wind; intros x y I; apply corner_disj; try lra; try (apply corner_in; assumption); unfold lft; rewrite X_P, Y_P.
  - replace ((X v - X a) * 0 - (Y v - Y a) * (Y a - Y v)) with ((Y v - Y a) * (Y v - Y a)) by ring. apply Rmult_lt_0_compat; assumption.
  - replace (((X v - X a) * 0 - (Y v - Y a) * (Y v - Y a)) * side a v c) with (((Y v - Y a) * (Y v - Y a)) * (- side a v c)) by ring. apply Rmult_lt_0_compat; [assumption|lra].
Qed.
Lemma step_out a v c k : In (a, v) S -> In (v, c) S -> 0 < k < 1 ->
  Ev (fun t => wind l ((if Rlt_dec 0 (side a v c) then lp else rp) v c k t) = wind l (mv v (into v a c) t)).
Proof.
  intros H K B. pose proof (turn_neq _ _ _ H K) as N. pose proof (sq_pos _ _ K) as Q.
  assert (E : side c v a = - side a v c) by (unfold side; ring). rewrite (into_sym v a c).
  destruct (Rlt_dec 0 (side a v c)) as [L|L]; unfold lp, rp;
    apply Ev_wind; intros x y I; apply corner_disj; try lra; try (apply corner_out; assumption); unfold lft; rewrite X_P, Y_P, E.
  - replace (((X v - X c) * 0 - (Y v - Y c) * (Y v - Y c)) * - side a v c) with (((Y c - Y v) * (Y c - Y v)) * side a v c) by ring. apply Rmult_lt_0_compat; assumption.
  - replace (((X v - X c) * 0 - (Y v - Y c) * (Y c - Y v)) * - side a v c) with (((Y c - Y v) * (Y c - Y v)) * (- side a v c)) by ring. apply Rmult_lt_0_compat; [assumption|lra].
Qed.
(* across a side *)
Lemma Y_lp u v k t : Y (lp u v k t) = Y (on u v k). Proof. unfold lp. rewrite Y_mv. unfold lft. rewrite Y_P. ring. Qed.
Lemma Y_rp u v k t : Y (rp u v k t) = Y (on u v k). Proof. unfold rp. rewrite Y_mv. unfold lft. rewrite Y_P. ring. Qed.
Lemma X_lp u v k t : X (lp u v k t) = X (on u v k) + t * (Y u - Y v). Proof. reflexivity. Qed.
Lemma X_rp u v k t : X (rp u v k t) = X (on u v k) + t * (Y v - Y u). Proof. reflexivity. Qed.
Lemma same_level x y p q : Y p = Y q -> disj x y p q -> crossing p x y = crossing q x y.
Proof.
  intros E D. assert (F : (crossing p x y - crossing q x y = strip p q y - strip p q x)%Z) by (apply four_points; [lra|exact D]).
  rewrite !strip_out in F by lra. lia.
Qed.
Lemma off_side u v x y k : In (u, v) S -> In (x, y) S -> (x, y) <> (u, v) -> 0 < k < 1 ->
  side x y (on u v k) <> 0 \/ 0 < (Y x - Y (on u v k)) * (Y y - Y (on u v k)).
Proof.
  intros H I N B. pose proof (t_nd l T) as ND. destruct (s_in _ _ H) as [Iu Iv], (s_in _ _ I) as [Ix Iy]. pose proof (s_neq _ _ H). pose proof (s_neq _ _ I).
  destruct (classic_eq x u) as [->|N1]; [exfalso; apply N; rewrite (next_unique _ _ _ _ ND I H); reflexivity|].
  destruct (classic_eq y v) as [->|N2]; [exfalso; apply N; rewrite (prev_unique _ _ _ _ ND I H); reflexivity|].
  destruct (classic_eq y u) as [->|N3].
  { left. rewrite side_on. replace (side x u u) with 0 by (unfold side; ring). assert (side x u v <> 0) by (apply (turn_neq _ _ _ I H)).
    intros E. apply H2. apply (Rmult_eq_reg_l k); lra. }
  destruct (classic_eq x v) as [->|N4].
  { left. rewrite side_on. replace (side v y v) with 0 by (unfold side; ring). assert (G : side u v y <> 0) by (apply (turn_neq _ _ _ H I)).
    intros E. apply G. replace (side u v y) with (side v y u) by (unfold side; ring). apply (Rmult_eq_reg_l (1 - k)); lra. }
  destruct (Req_EM_T (side x y (on u v k)) 0) as [E|]; [|left; assumption]. right.
  assert (HY : Y x <> Y y) by (apply (t_hd l T); assumption).
  destruct (t_simple l T _ _ _ _ I H N1 N4 N3 N2) as [D|D].
  - exfalso. rewrite side_on in E. apply pp_nn in D. destruct D as [[D1 D2]|[D1 D2]]; nra.
  - assert (G : (Y y - Y (on u v k)) * side u v x = (Y x - Y (on u v k)) * side u v y).
    { assert (Z0 : side u v (on u v k) = 0) by (unfold side, on; rewrite X_P, Y_P; ring).
      assert (F : (Y y - Y x) * side u v (on u v k) = (Y y - Y (on u v k)) * side u v x + (Y (on u v k) - Y x) * side u v y + (Y v - Y u) * side x y (on u v k)) by (unfold side; ring).
      rewrite Z0, E in F. lra. }
    set (al := Y y - Y (on u v k)) in *. set (be := Y x - Y (on u v k)) in *. assert (AB : al <> be) by (unfold al, be; lra).
    clearbody al be. destruct (Rlt_dec 0 (be * al)) as [|L]; [assumption|]. exfalso.
    set (sx := side u v x) in *. set (sy := side u v y) in *. clearbody sx sy.
    assert (Q : (al * sx) * (al * sx) = (be * al) * (sx * sy)) by (replace ((al * sx) * (al * sx)) with ((al * sx) * al * sx) by ring; rewrite G; ring).
    assert (al * sx = 0) by nra. assert (sx <> 0) by (intros Z; rewrite Z in D; lra). assert (sy <> 0) by (intros Z; rewrite Z in D; lra).
    assert (al = 0) by (apply (Rmult_eq_reg_r sx); lra). assert (be = 0) by (apply (Rmult_eq_reg_r sy); lra). lra.
Qed.
Lemma jump_other u v x y k : In (u, v) S -> In (x, y) S -> (x, y) <> (u, v) -> 0 < k < 1 -> Ev (fun t => crossing (lp u v k t) x y = crossing (rp u v k t) x y).
Proof.
  intros H I N B. pose proof (sq_pos _ _ H) as Q.
  assert (D : Ev (fun t => disj x y (lp u v k t) (rp u v k t))).
  { destruct (off_side u v x y k H I N B) as [E|E].
    - apply Ev_disj. left. destruct (Rlt_dec 0 (side x y (on u v k))); nra.
    - apply Ev_true. intros t Ht. right.
      assert (F : forall w, side (lp u v k t) (rp u v k t) w = (2 * t * (Y v - Y u)) * (Y w - Y (on u v k))).
      { intros w. unfold side. rewrite Y_lp, Y_rp, X_lp, X_rp. ring. }
      rewrite !F. replace (2 * t * (Y v - Y u) * (Y x - Y (on u v k)) * (2 * t * (Y v - Y u) * (Y y - Y (on u v k)))) with
        ((4 * (t * t)) * ((Y v - Y u) * (Y v - Y u)) * ((Y x - Y (on u v k)) * (Y y - Y (on u v k)))) by ring.
      apply Rmult_lt_0_compat; [apply Rmult_lt_0_compat; [nra|exact Q]|exact E]. }
  refine (Ev_mono _ _ _ D). intros t _. apply same_level. rewrite Y_lp, Y_rp. reflexivity.
Qed.
Lemma jump_own u v k t : In (u, v) S -> 0 < k < 1 -> 0 < t -> (crossing (lp u v k t) u v = crossing (rp u v k t) u v + 1)%Z.
Proof.
  intros H B Ht. pose proof (sq_pos _ _ H) as Q. assert (HY : Y u <> Y v) by (destruct (s_in _ _ H); apply (t_hd l T); auto; apply s_neq, H).
  assert (SL : side u v (lp u v k t) = t * ((Y v - Y u) * (Y v - Y u))) by (unfold side; rewrite X_lp, Y_lp; unfold on; rewrite X_P, Y_P; ring).
  assert (SR : side u v (rp u v k t) = - (t * ((Y v - Y u) * (Y v - Y u)))) by (unfold side; rewrite X_rp, Y_rp; unfold on; rewrite X_P, Y_P; ring).
  assert (0 < t * ((Y v - Y u) * (Y v - Y u))) by (apply Rmult_lt_0_compat; assumption).
  assert (YM : Y (on u v k) = Y u + k * (Y v - Y u)) by reflexivity.
  destruct (Rlt_dec (Y u) (Y v)).
  - assert (0 < k * (Y v - Y u) < Y v - Y u) by nra. rewrite !crossing_up by (rewrite ?Y_lp, ?Y_rp; lra). rewrite SL, SR.
    destruct (Rlt_dec 0 _); [|lra]. destruct (Rlt_dec 0 _); [lra|]. reflexivity.
  - assert (Y v - Y u < k * (Y v - Y u) < 0) by nra. rewrite (crossing_anti _ u v), (crossing_anti (rp u v k t) u v). rewrite !crossing_up by (rewrite ?Y_lp, ?Y_rp; lra). rewrite !(side_sym u v), SL, SR.
    destruct (Rlt_dec 0 _); [lra|]. destruct (Rlt_dec 0 _); [|lra]. reflexivity.
Qed.
Lemma jump u v k : In (u, v) S -> 0 < k < 1 -> Ev (fun t => wind l (lp u v k t) = (wind l (rp u v k t) + 1)%Z).
Proof.
  intros H B.
  assert (A : Ev (fun t => forall e, In e S -> e <> (u, v) -> crossing (lp u v k t) (fst e) (snd e) = crossing (rp u v k t) (fst e) (snd e))).
  { apply Ev_all. intros [x y] I. destruct (classic_eq x u) as [Ex|Nx]; [destruct (classic_eq y v) as [Ey|Ny]|].
    - apply Ev_true. intros t _ C. exfalso. apply C. subst. reflexivity.
    - refine (Ev_mono _ _ _ (jump_other u v x y k H I _ B)); [auto|]. congruence.
    - refine (Ev_mono _ _ _ (jump_other u v x y k H I _ B)); [auto|]. congruence. }
  refine (Ev_mono _ _ _ A). intros t Ht E. unfold wind.
  assert (G : (ssum (crossing (lp u v k t)) S + - ssum (crossing (rp u v k t)) S = 1)%Z); [|lia].
  rewrite <- ssum_opp, <- ssum_plus. rewrite (ssum_one _ S (u, v)).
  - cbn [fst snd]. rewrite (jump_own u v k t H B Ht). lia.
  - apply psides_nodup, T.
  - exact H.
  - intros x y I C. specialize (E (x, y) I C). cbn [fst snd] in E. rewrite E. lia.
Qed.
(* at the highest corner *)
Definition top (b : pt) : Prop := forall v, In v l -> Y v <= Y b.
Lemma top_wind a b c : In (a, b) S -> In (b, c) S -> top b -> Ev (fun t => wind l (mv b (into b a c) t) = if Rlt_dec 0 (side a b c) then 1%Z else (-1)%Z).
Proof.
  intros H K TB. pose proof (turn_neq _ _ _ H K) as N. destruct (s_in _ _ H) as [Ia Ib], (s_in _ _ K) as [_ Ic]. pose proof (s_neq _ _ H) as Nab. pose proof (s_neq _ _ K) as Nbc.
  assert (LT : forall v, In v l -> v <> b -> Y v < Y b). { intros v I C. pose proof (TB v I). pose proof (t_hd l T v b I Ib C). lra. }
  pose proof (LT a Ia Nab) as La. pose proof (LT c Ic (fun e => Nbc (eq_sym e))) as Lc.
  assert (YQ : forall t, Y (mv b (into b a c) t) = Y b + t * (Y a - Y b + (Y c - Y b))) by reflexivity.
  assert (HI : Ev (fun t => forall v, In v l -> v <> b -> Y v < Y (mv b (into b a c) t))).
  { apply Ev_all. intros v I. destruct (classic_eq v b) as [E|C]; [apply Ev_true; intros; contradiction|].
    refine (Ev_mono _ _ _ (Ev_lin (Y b - Y v) (Y a - Y b + (Y c - Y b)) _)); [|pose proof (LT v I C); lra]. intros t _ G _. rewrite YQ. lra. }
  refine (Ev_mono _ _ _ HI). intros t Ht G. unfold wind. pose proof (G a Ia Nab) as Ga. pose proof (G c Ic (fun e => Nbc (eq_sym e))) as Gc.
  assert (LQ : Y (mv b (into b a c) t) < Y b) by (rewrite YQ; nra).
  set (q := mv b (into b a c) t) in *.
  assert (SA : side a b q = t * side a b c) by (unfold q, side; rewrite X_mv, Y_mv; unfold into; rewrite X_P, Y_P; ring).
  assert (SC : side c b q = - (t * side a b c)) by (unfold q, side; rewrite X_mv, Y_mv; unfold into; rewrite X_P, Y_P; ring).
  assert (CA : crossing q a b = if Rlt_dec 0 (side a b c) then 1%Z else 0%Z).
  { rewrite crossing_up by lra. rewrite SA. destruct (Rlt_dec 0 (t * side a b c)), (Rlt_dec 0 (side a b c)); try reflexivity; nra. }
  assert (CC : crossing q b c = if Rlt_dec 0 (side a b c) then 0%Z else (-1)%Z).
  { rewrite crossing_anti. rewrite crossing_up by lra. rewrite SC. destruct (Rlt_dec 0 (- (t * side a b c))), (Rlt_dec 0 (side a b c)); try reflexivity; nra. }
  assert (OTH : forall x y, In (x, y) S -> (x, y) <> (a, b) -> (x, y) <> (b, c) -> crossing q x y = 0%Z).
  { intros x y I N1 N2. destruct (s_in _ _ I) as [Ix Iy]. apply crossing_none. left. split; left; apply G; auto.
    - intros ->. apply N2. rewrite (next_unique _ _ _ _ (t_nd l T) I K). reflexivity.
    - intros ->. apply N1. rewrite (prev_unique _ _ _ _ (t_nd l T) I H). reflexivity. }
  destruct (Rlt_dec 0 (side a b c)).
  - rewrite (ssum_one _ S (a, b)); [exact CA|apply psides_nodup, T|exact H|]. intros x y I C.
    destruct (classic_eq x b) as [->|Nx]; [|apply OTH; auto; congruence]. rewrite (next_unique _ _ _ _ (t_nd l T) I K). exact CC.
  - rewrite (ssum_one _ S (b, c)); [exact CC|apply psides_nodup, T|exact K|]. intros x y I C.
    destruct (classic_eq y b) as [->|Nx]; [|apply OTH; auto; congruence]. rewrite (prev_unique _ _ _ _ (t_nd l T) I H). exact CA.
Qed.
End Tame.
