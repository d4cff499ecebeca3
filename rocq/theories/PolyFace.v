(** From the vocabulary of simple polygons to the proof of completeness; the ears do not overlap. *)
From Coq Require Import Reals Lra Psatz ZArith List Lia Permutation Bool.
From Verif Require Import Num GeoModel GeoSpec EdgeModel EdgeSpecR FaceModel FaceSpec FaceSpecR FaceComb FaceCut FaceEar FaceCover NormSpec PolySpec PolyEv PolySides PolyCross PolyWind PolyJordan PolyInside PolySplit PolyDiag PolyEars PolyPlain PolyCut.
Import ListNotations.
Open Scope R_scope.

Lemma cross_point u v p q : side u v p * side u v q < 0 -> side p q u * side p q v < 0 -> exists x, on_segment x u v /\ on_segment x p q.
Proof.
  intros A B. pose proof (four_lin u v p q) as E. set (a := side u v p) in *. set (b := side u v q) in *. set (c := side p q u) in *. set (d := side p q v) in *.
  assert (D1 : c - d <> 0) by (destruct (neg_cases _ _ B); lra). assert (D2 : a - b <> 0) by (destruct (neg_cases _ _ A); lra).
  assert (FR : forall m k, m * k < 0 -> 0 <= m / (m - k) <= 1).
  { intros m k H. apply neg_cases in H. destruct H as [[H1 H2]|[H1 H2]].
    - split; [apply Rlt_le, Rdiv_lt_0_compat; lra|]. apply (Rmult_le_reg_r (m - k)); [lra|]. unfold Rdiv. rewrite Rmult_assoc, Rinv_l by lra. lra.
    - replace (m / (m - k)) with ((- m) / (k - m)) by (field; lra). split; [apply Rlt_le, Rdiv_lt_0_compat; lra|]. apply (Rmult_le_reg_r (k - m)); [lra|]. unfold Rdiv. rewrite Rmult_assoc, Rinv_l by lra. lra. }
  exists (P (X u + c / (c - d) * (X v - X u)) (Y u + c / (c - d) * (Y v - Y u)) 0). split.
  - exists (c / (c - d)). split; [apply FR, B|]. rewrite X_P, Y_P. auto.
  - exists (a / (a - b)). split; [apply FR, A|]. rewrite X_P, Y_P. assert (CD : a - b = d - c) by lra.
    split.
    + assert (K : (X v - X u) * c + (X q - X p) * a = (X p - X u) * (c - d)) by (unfold a, c, d, side; ring).
      replace (a - b) with (- (c - d)) by lra. set (D := c - d) in *. clearbody D. transitivity ((X u * D + (X v - X u) * c) / D); [field; exact D1|]. transitivity ((X p * D - (X q - X p) * a) / D); [f_equal; lra|field; lra].
    + assert (K : (Y v - Y u) * c + (Y q - Y p) * a = (Y p - Y u) * (c - d)) by (unfold a, c, d, side; ring).
      replace (a - b) with (- (c - d)) by lra. set (D := c - d) in *. clearbody D. transitivity ((Y u * D + (Y v - Y u) * c) / D); [field; exact D1|]. transitivity ((Y p * D - (Y q - Y p) * a) / D); [f_equal; lra|field; lra].
Qed.
Lemma cyc_lt l i : (i < length l)%nat -> cyc l i = nth i l origin.
Proof. intros H. unfold cyc. rewrite Nat.mod_small by exact H. reflexivity. Qed.
Lemma side_same p q : side p q p = 0 /\ side p q q = 0 /\ side p p q = 0.
Proof. unfold side. repeat split; ring. Qed.
Section Spec.
Variable l : list pt.
Hypothesis L3 : (3 <= length l)%nat.
Hypothesis SI : simple_polygon l.
Hypothesis KT : keeps_tolerance l.
Lemma kt_pos i j k : (i < length l)%nat -> (j < length l)%nat -> (k < length l)%nat -> i <> j -> j <> k -> i <> k -> side (nth i l origin) (nth j l origin) (nth k l origin) <> 0.
Proof.
  intros A B C N1 N2 N3 E. pose proof (KT i j k A B C N1 N2 N3) as H. rewrite !cyc_lt in H by assumption. rewrite E, Rabs_R0 in H.
  pose proof (edist2_nonneg (nth i l origin) (nth j l origin)). lra.
Qed.
Lemma spec_nd : NoDup l.
Proof.
  apply (NoDup_nth l origin). intros i j A B E. destruct (Nat.eq_dec i j) as [|N]; [assumption|]. exfalso.
  assert (exists k, (k < length l)%nat /\ k <> i /\ k <> j) as (k & C & N1 & N2).
  { destruct (Nat.eq_dec i 0), (Nat.eq_dec j 0); subst.
    - exists 1%nat. lia.
    - destruct (Nat.eq_dec j 1); [exists 2%nat|exists 1%nat]; lia.
    - destruct (Nat.eq_dec i 1); [exists 2%nat|exists 1%nat]; lia.
    - exists 0%nat. lia. }
  apply (kt_pos i j k); auto. rewrite E. apply side_same.
Qed.
Lemma spec_wide : wide l.
Proof.
  intros p q r Hp Hq Hr N1 N2 N3. destruct (In_nth _ _ origin Hp) as (i & Li & <-), (In_nth _ _ origin Hq) as (j & Lj & <-), (In_nth _ _ origin Hr) as (k & Lk & <-).
  pose proof (KT i j k Li Lj Lk ltac:(congruence) ltac:(congruence) ltac:(congruence)) as H. rewrite !cyc_lt in H by assumption. exact H.
Qed.
Lemma spec_plain : plain l.
Proof.
  assert (GP : forall p q r, In p l -> In q l -> In r l -> p <> q -> q <> r -> p <> r -> side p q r <> 0).
  { intros p q r Hp Hq Hr N1 N2 N3 E. pose proof (spec_wide p q r Hp Hq Hr N1 N2 N3) as H. rewrite E, Rabs_R0 in H. pose proof (edist2_nonneg p q). unfold eps in H. lra. }
  constructor; [exact L3|exact spec_nd|exact GP|].
  intros p p' q q' H K N1 N2 N3 N4. destruct (psides_in _ _ _ H) as [Ip Ip'], (psides_in _ _ _ K) as [Iq Iq'].
  assert (M1 : p <> p') by (apply (side_neq l _ _ spec_nd); [lia|exact H]). assert (M2 : q <> q') by (apply (side_neq l _ _ spec_nd); [lia|exact K]).
  assert (EX : forall x y, In (x, y) (psides l) -> exists i, (i < length l)%nat /\ x = cyc l i /\ y = cyc l (S i)).
  { intros x y I. destruct (In_nth _ _ (origin, origin) I) as (i & Li & E). rewrite psides_length in Li. exists i. rewrite psides_nth in E by exact Li. apply pair_inj in E. destruct E as [<- <-]. rewrite cyc_lt by exact Li. auto. }
  destruct (EX p p' H) as (i & Li & Ep & Ep'), (EX q q' K) as (j & Lj & Eq & Eq').
  destruct (Rlt_dec 0 (side p p' q * side p p' q')) as [P|P]; [left; exact P|]. destruct (Rlt_dec 0 (side q q' p * side q q' p')) as [Q|Q]; [right; exact Q|]. exfalso.
  apply neg_pp in P; [|apply GP; auto|apply GP; auto]. apply neg_pp in Q; [|apply GP; auto|apply GP; auto].
  destruct (cross_point p p' q q') as (x & O1 & O2); [destruct P as [[? ?]|[? ?]]; nra|destruct Q as [[? ?]|[? ?]]; nra|].
  assert (C1 : i <> j) by (intros ->; congruence).
  assert (MB : forall k, (S k mod length l < length l)%nat) by (intros k; apply Nat.mod_upper_bound; lia).
  assert (CM : forall k, cyc l (S k) = cyc l (S k mod length l)) by (intros k; unfold cyc; rewrite Nat.mod_mod by lia; reflexivity).
  apply (SI i j Li Lj C1) with (x := x).
  - intros E. apply N3. rewrite Ep', Eq, CM, <- E. reflexivity.
  - intros E. apply N2. rewrite Ep, Eq', CM, <- E. reflexivity.
  - rewrite <- Ep, <- Ep', <- Eq, <- Eq'. auto.
Qed.
End Spec.

Section Ears.
Variables (points : list pt) (poly : list nat).
Local Notation l := (map (at_ points) poly).
Hypothesis L3 : (3 <= length poly)%nat.
Hypothesis SI : simple_polygon l.
Hypothesis KT : keeps_tolerance l.
Hypothesis AR : 0 < area_xy l.
Lemma l3 : (3 <= length l)%nat. Proof. rewrite map_length. exact L3. Qed.
Theorem ears_complete : exists ears, cutEars points poly = Ok ears /\ length ears = (length poly - 2)%nat /\
  forall a b c, In (a, b, c) ears -> 0 < side (at_ points a) (at_ points b) (at_ points c).
Proof.
  rewrite cutEars_fresh. apply cut_complete; [lia|lia|apply spec_plain; auto using l3|apply spec_wide; assumption|exact AR].
Qed.
(* in the sheared plane the polygon runs around every point at most once *)
Lemma at_sh e i : at_ (map (sh e) points) i = sh e (at_ points i).
Proof.
  unfold at_. change (@vzero Rnum) with origin. assert (E : origin = sh e origin). { unfold sh, origin, P. f_equal; unfold X, Y, Z; cbn; ring. }
  rewrite E at 1. apply map_nth.
Qed.
Lemma winding_wind pts rem x : winding pts (sides rem) x = wind (map (at_ pts) rem) x.
Proof.
  unfold winding, wind. change (sides rem) with (psides rem). rewrite psides_map. generalize (psides rem) as es. induction es as [|[i j] es IH]; [reflexivity|].
  cbn [map ssum fold_right fst snd]. rewrite IH. reflexivity.
Qed.
Theorem ears_apart ears : (forall a b c, In (a, b, c) ears -> 0 < side (at_ points a) (at_ points b) (at_ points c)) ->
  fills ears (sides poly) (length poly - 3) -> no_overlap points ears.
Proof.
  intros CC FL. destruct (plain_shear l) as (e & T); [apply spec_plain; auto using l3|].
  assert (G : good (map (sh e) l)) by (apply area_good; [exact T|rewrite sh_area; exact AR]).
  intros i j x Li Lj N [H K]. set (pts := map (sh e) points).
  assert (EQ : map (sh e) l = map (at_ pts) poly) by (rewrite map_map; apply map_ext; intros a; symmetry; apply at_sh).
  assert (B : (0 <= winding pts (sides poly) (sh e x) <= 1)%Z) by (rewrite winding_wind, <- EQ; apply inside_all, G).
  rewrite <- (winding_fills pts ears (sides poly) _ (sh e x) FL), winding_mesh in B.
  assert (PO : forall t, In t ears -> 0 <= area2 pts t).
  { intros [[a b] c] I. cbn. unfold pts. rewrite !at_sh, sh_side. apply Rlt_le, (CC a b c I). }
  assert (IN : forall k, in_tri points (nth k ears (0, 0, 0)%nat) x -> (k < length ears)%nat -> wtri pts (nth k ears (0, 0, 0)%nat) (sh e x) = 1%Z).
  { intros k I Lk. apply (wtri_claim pts); [apply PO, nth_In, Lk|]. destruct (nth k ears (0, 0, 0)%nat) as [[a b] c]. cbn in *. unfold pts. rewrite !at_sh. unfold inside3 in *. rewrite !sh_side. exact I. }
  pose proof (IN i H Li) as W1. pose proof (IN j K Lj) as W2.
  assert (SUM : forall ts, (forall t, In t ts -> 0 <= area2 pts t) -> (0 <= fold_right (fun t s => (wtri pts t (sh e x) + s)%Z) 0%Z ts)%Z).
  { induction ts as [|t ts IH]; intros Q; cbn [fold_right]; [lia|]. pose proof (wtri_claim pts t (sh e x) (Q t (or_introl eq_refl))) as (K1 & _). specialize (IH (fun u Hu => Q u (or_intror Hu))). lia. }
  assert (ONE : forall ts k, (forall t, In t ts -> 0 <= area2 pts t) -> (k < length ts)%nat -> wtri pts (nth k ts (0, 0, 0)%nat) (sh e x) = 1%Z -> (1 <= fold_right (fun t s => (wtri pts t (sh e x) + s)%Z) 0%Z ts)%Z).
  { induction ts as [|t ts IH]; intros k Q Lk W; [cbn in Lk; lia|]. cbn [fold_right]. pose proof (wtri_claim pts t (sh e x) (Q t (or_introl eq_refl))) as (K1 & _).
    destruct k as [|k]; cbn [nth] in W.
    - pose proof (SUM ts (fun u Hu => Q u (or_intror Hu))). lia.
    - specialize (IH k (fun u Hu => Q u (or_intror Hu)) ltac:(cbn in Lk; lia) W). lia. }
  assert (TWO : forall ts i j, (forall t, In t ts -> 0 <= area2 pts t) -> (i < length ts)%nat -> (j < length ts)%nat -> i <> j -> wtri pts (nth i ts (0, 0, 0)%nat) (sh e x) = 1%Z -> wtri pts (nth j ts (0, 0, 0)%nat) (sh e x) = 1%Z ->
     (2 <= fold_right (fun t s => (wtri pts t (sh e x) + s)%Z) 0%Z ts)%Z).
  { clear i j Li Lj N H K W1 W2. induction ts as [|t ts IH]; intros i j Q Li Lj N W1 W2; [cbn in Li; lia|]. cbn [fold_right]. pose proof (wtri_claim pts t (sh e x) (Q t (or_introl eq_refl))) as (K1 & _).
    pose proof (fun u Hu => Q u (or_intror Hu)) as Q'. cbn in Li, Lj. destruct i as [|i], j as [|j]; cbn [nth] in W1, W2; try lia.
    - pose proof (ONE ts j Q' ltac:(lia) W2). lia.
    - pose proof (ONE ts i Q' ltac:(lia) W1). lia.
    - specialize (IH i j Q' ltac:(lia) ltac:(lia) ltac:(lia) W1 W2). lia. }
  pose proof (TWO ears i j PO Li Lj N W1 W2). lia.
Qed.
End Ears.
