(** The winding number of a polygon is the same at both ends of a segment that meets no side. *)
From Coq Require Import Reals Lra Psatz ZArith List Lia Permutation.
From Verif Require Import Num GeoModel GeoSpec EdgeSpecR FaceModel FaceSpec FaceSpecR FaceCover PolyEv PolySides PolyCross.
Import ListNotations.
Open Scope R_scope.

Definition wind (l : list pt) (x : pt) : BinNums.Z := ssum (crossing x) (psides l).
Lemma wind_rot l1 l2 x : wind (l1 ++ l2) x = wind (l2 ++ l1) x.
Proof. apply ssum_perm, psides_rot. Qed.
Lemma wind_split l1 u m w l2 x : wind (l1 ++ u :: m ++ w :: l2) x = (wind (u :: m ++ [w])%list x + wind (l1 ++ u :: w :: l2)%list x)%Z.
Proof. apply ssum_split. apply crossing_anti. Qed.
Lemma wind_rev l x : wind (rev l) x = (- wind l x)%Z.
Proof.
  unfold wind. rewrite (ssum_perm _ _ _ (psides_rev l)). generalize (psides l) as es. induction es as [|[u v] es IH]; [reflexivity|].
  cbn [map ssum fold_right fst snd]. fold (ssum (crossing x) es). fold (ssum (crossing x) (map (fun e => (snd e, fst e)) es)). rewrite IH, (crossing_anti x v u). lia.
Qed.
Lemma wind_tri a b c x : wind [a; b; c] x = tsum a b c x.
Proof. unfold wind, tsum, psides, ssum. cbn. lia. Qed.
Theorem wind_const l p q : (forall u v, In (u, v) (psides l) -> disj u v p q) -> wind l p = wind l q.
Proof.
  assert (G : forall p q, Y p <= Y q -> (forall u v, In (u, v) (psides l) -> disj u v p q) -> wind l p = wind l q).
  { intros a b L H.
    assert (E : (wind l a - wind l b = 0)%Z); [|lia]. unfold wind.
    replace (ssum (crossing a) (psides l) - ssum (crossing b) (psides l))%Z with (ssum (crossing a) (psides l) + - ssum (crossing b) (psides l))%Z by lia.
    rewrite <- ssum_opp, <- ssum_plus. rewrite <- (ssum_tele (strip a b) l). apply ssum_ext. intros u v I.
    pose proof (four_points u v a b L (H u v I)). lia. }
  intros H. destruct (Rle_dec (Y p) (Y q)) as [L|L]; [apply G; assumption|]. symmetry. apply G; [lra|]. intros u v I. apply disj_swap2, H, I.
Qed.

(** ** points that move along a straight line *)
Definition mv (p d : pt) (t : R) : pt := P (X p + t * X d) (Y p + t * Y d) 0.
Lemma X_mv p d t : X (mv p d t) = X p + t * X d. Proof. reflexivity. Qed.
Lemma Y_mv p d t : Y (mv p d t) = Y p + t * Y d. Proof. reflexivity. Qed.
Lemma side_ssm x y p d t : side x y (mv p d t) = side x y p + ((X y - X x) * Y d - (Y y - Y x) * X d) * t.
Proof. unfold side. rewrite X_mv, Y_mv. ring. Qed.
Lemma Ev_ssm x y p d : 0 < side x y p -> Ev (fun t => 0 < side x y (mv p d t)).
Proof. intros H. apply (Ev_fun _ (side x y p) ((X y - X x) * Y d - (Y y - Y x) * X d) 0); [|exact H]. intros t. rewrite side_ssm. ring. Qed.
Lemma Ev_ssm_neg x y p d : side x y p < 0 -> Ev (fun t => side x y (mv p d t) < 0).
Proof. intros H. apply (Ev_mono (fun t => 0 < side y x (mv p d t))); [intros t _; rewrite (side_sym x y); lra|]. apply Ev_ssm. rewrite (side_sym x y). lra. Qed.
Lemma side_mms p d q e x t : side (mv p d t) (mv q e t) x = side p q x
  + ((X e - X d) * (Y x - Y p) - (X q - X p) * Y d - (Y e - Y d) * (X x - X p) + (Y q - Y p) * X d) * t + ((Y e - Y d) * X d - (X e - X d) * Y d) * (t * t).
Proof. unfold side. rewrite !X_mv, !Y_mv. ring. Qed.
Lemma Ev_mms p d q e x : 0 < side p q x -> Ev (fun t => 0 < side (mv p d t) (mv q e t) x).
Proof. intros H. eapply Ev_fun; [|exact H]. intros t. apply side_mms. Qed.
Lemma Ev_mms_neg p d q e x : side p q x < 0 -> Ev (fun t => side (mv p d t) (mv q e t) x < 0).
Proof. intros H. apply (Ev_mono (fun t => 0 < side (mv q e t) (mv p d t) x)); [intros t _; rewrite (side_sym (mv p d t)); lra|]. apply Ev_mms. rewrite (side_sym p q). lra. Qed.
(* nearly the segment p-q *)
Lemma Ev_disj u v p q d e : disj u v p q -> Ev (fun t => disj u v (mv p d t) (mv q e t)).
Proof.
  intros [H|H]; apply pp_nn in H; destruct H as [[A B]|[A B]].
  - refine (Ev_mono _ _ _ (Ev_and _ _ (Ev_ssm u v p d A) (Ev_ssm u v q e B))). intros t _ [C D]. left. nra.
  - refine (Ev_mono _ _ _ (Ev_and _ _ (Ev_ssm_neg u v p d A) (Ev_ssm_neg u v q e B))). intros t _ [C D]. left. nra.
  - refine (Ev_mono _ _ _ (Ev_and _ _ (Ev_mms p d q e u A) (Ev_mms p d q e v B))). intros t _ [C D]. right. nra.
  - refine (Ev_mono _ _ _ (Ev_and _ _ (Ev_mms_neg p d q e u A) (Ev_mms_neg p d q e v B))). intros t _ [C D]. right. nra.
Qed.

(** ** the corner at v between v-a and v-c *)
(* the point on v-a at the fraction k; the direction into the corner *)
Definition on (v a : pt) (k : R) : pt := P (X v + k * (X a - X v)) (Y v + k * (Y a - Y v)) 0.
Definition into (v a c : pt) : pt := P ((X a - X v) + (X c - X v)) ((Y a - Y v) + (Y c - Y v)) 0.
Lemma side_on x y v a k : side x y (on v a k) = (1 - k) * side x y v + k * side x y a.
Proof. unfold side, on, X, Y, P; cbn. ring. Qed.
Lemma side_on2 v a k x : side (on v a k) v x = k * side a v x.
Proof. unfold side, on, X, Y, P; cbn. ring. Qed.
Definition corner_ok (v a c : pt) (x y : pt) : Prop :=
  ((x, y) = (a, v) \/ (x, y) = (v, a)) \/ ((x, y) = (v, c) \/ (x, y) = (c, v)) \/ (y = a /\ side x a v <> 0) \/ (x = a /\ side y a v <> 0) \/ disj x y a v.
Lemma corner_disj v a c k e x y : 0 < k < 1 -> 0 < ((X v - X a) * Y e - (Y v - Y a) * X e) * side a v c ->
  corner_ok v a c x y -> Ev (fun t => disj x y (mv (on v a k) e t) (mv v (into v a c) t)).
Proof.
  intros K H C.
  assert (T0 : side a v c <> 0) by (intros E; rewrite E in H; lra).
  assert (C1 : Ev (fun t => disj a v (mv (on v a k) e t) (mv v (into v a c) t))).
  { apply Ev_true. intros t T. left. rewrite !side_ssm, side_on.
    replace (side a v v) with 0 by (unfold side; ring). replace (side a v a) with 0 by (unfold side; ring).
    replace ((X v - X a) * Y (into v a c) - (Y v - Y a) * X (into v a c)) with (side a v c) by (unfold side, into, X, Y, P; cbn; ring).
    set (z := (X v - X a) * Y e - (Y v - Y a) * X e) in *.
    replace (((1 - k) * 0 + k * 0 + z * t) * (0 + side a v c * t)) with ((t * t) * (z * side a v c)) by ring. apply Rmult_lt_0_compat; [nra|exact H]. }
  assert (C2 : Ev (fun t => disj v c (mv (on v a k) e t) (mv v (into v a c) t))).
  { assert (S0 : side v c a = side a v c) by (unfold side; ring).
    assert (E : forall t, side v c (mv v (into v a c) t) = side a v c * t).
    { intros t. rewrite side_ssm. replace ((X c - X v) * Y (into v a c) - (Y c - Y v) * X (into v a c)) with (side a v c) by (unfold side, into, X, Y, P; cbn; ring).
      replace (side v c v) with 0 by (unfold side; ring). ring. }
    assert (F : side v c (on v a k) = k * side a v c) by (rewrite side_on, S0; replace (side v c v) with 0 by (unfold side; ring); ring).
    destruct (Rlt_dec 0 (side a v c)) as [P|P].
    - refine (Ev_mono _ _ _ (Ev_ssm v c (on v a k) e _)); [|rewrite F; nra]. intros t T A. left. rewrite E. apply Rmult_lt_0_compat; [exact A|nra].
    - refine (Ev_mono _ _ _ (Ev_ssm_neg v c (on v a k) e _)); [|rewrite F; nra]. intros t T A. left. rewrite E. assert (side a v c * t < 0) by nra. nra. }
  assert (C3 : forall z, side z a v <> 0 -> Ev (fun t => disj z a (mv (on v a k) e t) (mv v (into v a c) t))).
  { intros z N. apply Ev_disj. left. rewrite side_on. replace (side z a a) with 0 by (unfold side; ring).
    assert (0 < side z a v * side z a v) by (destruct (Rlt_dec 0 (side z a v)); nra). nra. }
  destruct C as [[C|C]|[[C|C]|[[-> N]|[[-> N]|D]]]].
  - injection C as -> ->. exact C1.
  - injection C as -> ->. refine (Ev_mono _ _ _ C1). intros t _. apply disj_swap.
  - injection C as -> ->. exact C2.
  - injection C as -> ->. refine (Ev_mono _ _ _ C2). intros t _. apply disj_swap.
  - apply C3, N.
  - refine (Ev_mono _ _ _ (C3 y N)). intros t _. apply disj_swap.
  - apply Ev_disj. destruct D as [D|D].
    + left. rewrite side_on. set (f := side x y a) in *. set (g := side x y v) in *.
      replace (((1 - k) * g + k * f) * g) with ((1 - k) * (g * g) + k * (f * g)) by ring.
      assert (0 < g * g) by (apply pp_nn in D; destruct D as [[A B]|[A B]]; nra). assert (0 < (1 - k) * (g * g)) by (apply Rmult_lt_0_compat; lra). assert (0 < k * (f * g)) by (apply Rmult_lt_0_compat; lra). lra.
    + right. rewrite !side_on2. replace (k * side a v x * (k * side a v y)) with ((k * k) * (side a v x * side a v y)) by ring. apply Rmult_lt_0_compat; [nra|exact D].
Qed.
