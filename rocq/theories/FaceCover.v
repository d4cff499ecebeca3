(** Coverage: how often a point is covered by counter-clockwise triangles is the
    winding number of their outline. *)
From Coq Require Import Reals Lra Psatz ZArith List Permutation Lia Arith.
From Verif Require Import Num GeoModel EdgeModel FaceModel GeoSpec EdgeSpecR FaceSpec FaceSpecR FaceFlip.
Import ListNotations.
Open Scope R_scope.

Lemma crossing_anti x u v : crossing x u v = (- crossing x v u)%Z.
Proof.
  unfold crossing. destruct (Rle_dec (Y u) (Y x)), (Rle_dec (Y v) (Y x)), (Rlt_dec (Y x) (Y v)), (Rlt_dec (Y x) (Y u)); try lra; try reflexivity.
  - destruct (Rlt_dec 0 (side u v x)); reflexivity.
  - destruct (Rlt_dec 0 (side v u x)); reflexivity.
Qed.

(* the key facts, with one corner below and two above the level of x, and vice versa *)
Section Tri.
Variables a b c x : pt.
Hypothesis CCW : 0 <= side a b c.
Let sab := side a b x. Let sbc := side b c x. Let sca := side c a x.
Lemma bary_sum : sab + sbc + sca = side a b c.
Proof. unfold sab, sbc, sca, side. ring. Qed.
Lemma bary_y : sbc * (Y a - Y x) + sca * (Y b - Y x) + sab * (Y c - Y x) = 0.
Proof. unfold sab, sbc, sca, side. ring. Qed.
Lemma one_below : Y a <= Y x -> Y x < Y b -> Y x < Y c -> sab <= 0 -> 0 <= sca.
Proof.
  intros A B C H. assert (E : (Y b - Y a) * sca = - sab * (Y c - Y a) + (Y x - Y a) * side a b c) by (unfold sab, sca, side; ring).
  assert (0 <= (Y b - Y a) * sca) by (rewrite E; nra). nra.
Qed.
Lemma one_above : Y x < Y a -> Y b <= Y x -> Y c <= Y x -> sca <= 0 -> 0 <= sab.
Proof.
  intros A B C H. assert (E : (Y a - Y c) * sab = - sca * (Y a - Y b) + (Y a - Y x) * side a b c) by (unfold sab, sca, side; ring).
  assert (0 <= (Y a - Y c) * sab) by (rewrite E; nra). nra.
Qed.
End Tri.
Lemma side_sym a b x : side b a x = - side a b x.
Proof. unfold side. ring. Qed.
Definition tsum (a b c x : pt) : BinNums.Z := (crossing x a b + crossing x b c + crossing x c a)%Z.
Definition tclaim (a b c x : pt) : Prop :=
  (0 <= tsum a b c x <= 1)%Z /\ (inside3 a b c x -> tsum a b c x = 1%Z) /\ (outside3 a b c x -> tsum a b c x = 0%Z).
Lemma tclaim_rot a b c x : tclaim b c a x -> tclaim a b c x.
Proof.
  unfold tclaim, tsum, inside3, outside3. intros (A & B & C).
  replace (crossing x a b + crossing x b c + crossing x c a)%Z with (crossing x b c + crossing x c a + crossing x a b)%Z by lia.
  split; [exact A|]. split; [intros; apply B; tauto|intros; apply C; tauto].
Qed.
Lemma side_rot a b c : side b c a = side a b c.
Proof. unfold side; ring. Qed.
(* no corner on one side of the level *)
Lemma level_none a b c x : (Y a <= Y x /\ Y b <= Y x /\ Y c <= Y x) \/ (Y x < Y a /\ Y x < Y b /\ Y x < Y c) -> tclaim a b c x.
Proof.
  intros L. assert (S : tsum a b c x = 0%Z).
  { unfold tsum, crossing. destruct L as [(A & B & C)|(A & B & C)];
    repeat match goal with |- context [Rle_dec ?u ?v] => destruct (Rle_dec u v); try lra | |- context [Rlt_dec (Y ?u) ?v] => destruct (Rlt_dec (Y u) v); try lra end; reflexivity. }
  unfold tclaim. rewrite S. split; [lia|]. split; [|reflexivity].
  intros (I1 & I2 & I3). exfalso. pose proof (bary_y a b c x) as BY.
  destruct L as [(A & B & C)|(A & B & C)]; [|nra].
  assert (E1 : Y a = Y x) by nra. assert (E2 : Y b = Y x) by nra. assert (E3 : Y c = Y x) by nra.
  unfold side in I1. rewrite E1, E2 in I1. lra.
Qed.
Lemma level_below a b c x : 0 <= side a b c -> Y a <= Y x -> Y x < Y b -> Y x < Y c -> tclaim a b c x.
Proof.
  intros H A B C. pose proof (bary_y a b c x) as BY. pose proof (one_below a b c x H A B C) as L. cbn zeta in BY, L.
  unfold tclaim, tsum, crossing, inside3, outside3. rewrite (side_sym c a x).
  set (p := side a b x) in *. set (q := side b c x) in *. set (r := side c a x) in *.
  destruct (Rle_dec (Y a) (Y x)); [|lra]. destruct (Rle_dec (Y b) (Y x)); [lra|]. destruct (Rle_dec (Y c) (Y x)); [lra|].
  destruct (Rlt_dec (Y x) (Y b)); [|lra].
  destruct (Rlt_dec 0 p), (Rlt_dec 0 (- r)); cbn; (split; [try lia|split; intros K; try reflexivity; exfalso]); try lra.
  all: try (specialize (L ltac:(lra)); lra). all: destruct K as [K|[K|K]]; try lra; nra.
Qed.
Lemma level_above a b c x : 0 <= side a b c -> Y x < Y a -> Y b <= Y x -> Y c <= Y x -> tclaim a b c x.
Proof.
  intros H A B C. pose proof (bary_y a b c x) as BY. pose proof (one_above a b c x H A B C) as L. cbn zeta in BY, L.
  unfold tclaim, tsum, crossing, inside3, outside3. rewrite (side_sym a b x).
  set (p := side a b x) in *. set (q := side b c x) in *. set (r := side c a x) in *.
  destruct (Rle_dec (Y a) (Y x)); [lra|]. destruct (Rle_dec (Y b) (Y x)); [|lra]. destruct (Rle_dec (Y c) (Y x)); [|lra].
  destruct (Rlt_dec (Y x) (Y c)); [lra|]. destruct (Rlt_dec (Y x) (Y a)); [|lra].
  destruct (Rlt_dec 0 r), (Rlt_dec 0 (- p)); cbn; (split; [try lia|split; intros K; try reflexivity; exfalso]); try lra.
  all: try (specialize (L ltac:(lra)); lra). all: destruct K as [K|[K|K]]; try lra; nra.
Qed.
Lemma tri_crossing a b c x : 0 <= side a b c -> tclaim a b c x.
Proof.
  intros H. assert (Hb : 0 <= side b c a) by (rewrite side_rot; exact H). assert (Hc : 0 <= side c a b) by (rewrite <- side_rot; exact H).
  destruct (Rle_dec (Y a) (Y x)) as [A|A], (Rle_dec (Y b) (Y x)) as [B|B], (Rle_dec (Y c) (Y x)) as [C|C]; apply Rnot_le_lt in A || idtac; apply Rnot_le_lt in B || idtac; apply Rnot_le_lt in C || idtac.
  - apply level_none; auto.
  - apply tclaim_rot, tclaim_rot, level_above; auto.
  - apply tclaim_rot, level_above; auto.
  - apply level_below; auto.
  - apply level_above; auto.
  - apply tclaim_rot, level_below; auto.
  - apply tclaim_rot, tclaim_rot, level_below; auto.
  - apply level_none; auto.
Qed.

(** ** sums over lists of sides *)
Section Sum.
Variable pts : list pt.
Notation W := (winding pts).
Lemma winding_app l1 l2 x : W (l1 ++ l2) x = (W l1 x + W l2 x)%Z.
Proof. unfold winding. induction l1 as [|e l1 IH]; cbn [app fold_right]; [reflexivity|]. rewrite IH. lia. Qed.
Lemma winding_perm l1 l2 x : Permutation l1 l2 -> W l1 x = W l2 x.
Proof. unfold winding. induction 1; cbn [fold_right]; lia. Qed.
Lemma winding_both l x : W (both_ways l) x = 0%Z.
Proof.
  induction l as [|e l IH]; [reflexivity|]. change (both_ways (e :: l)) with ([e; back e] ++ both_ways l). rewrite winding_app, IH.
  unfold winding. cbn [fold_right back fst snd]. rewrite (crossing_anti x (at_ pts (fst e))). lia.
Qed.
Lemma winding_fills ts outline k x : fills ts outline k -> W (mesh_sides ts) x = W outline x.
Proof. intros (ds & _ & P). rewrite (winding_perm _ _ x P), winding_app, winding_both. lia. Qed.
Definition wtri (t : nat * nat * nat) (x : pt) : BinNums.Z := W (tri_sides t) x.
Lemma wtri_claim t x : 0 <= area2 pts t -> (0 <= wtri t x <= 1)%Z /\ (in_tri pts t x -> wtri t x = 1%Z) /\ (out_tri pts t x -> wtri t x = 0%Z).
Proof.
  destruct t as [[a b] c]. cbn [area2 in_tri out_tri]. intros H. apply (tri_crossing _ _ _ x) in H. unfold tclaim, tsum in H.
  unfold wtri, winding. cbn [tri_sides fold_right fst snd]. rewrite Z.add_0_r, Z.add_assoc. exact H.
Qed.
Lemma winding_mesh ts x : W (mesh_sides ts) x = fold_right (fun t s => wtri t x + s)%Z 0%Z ts.
Proof. induction ts as [|t ts IH]; [reflexivity|]. change (mesh_sides (t :: ts)) with (tri_sides t ++ mesh_sides ts). rewrite winding_app, IH. reflexivity. Qed.
Lemma winding_nonneg ts x : (forall t, In t ts -> 0 <= area2 pts t) -> (0 <= W (mesh_sides ts) x)%Z.
Proof.
  rewrite winding_mesh. induction ts as [|t ts IH]; intros H; cbn [fold_right]; [lia|].
  pose proof (wtri_claim t x (H t (or_introl eq_refl))) as (K & _). specialize (IH (fun u Hu => H u (or_intror Hu))). lia.
Qed.
(* the number of triangles around x is the winding number *)
Lemma cover_count ts x idx : (forall t, In t ts -> 0 <= area2 pts t) -> in_exactly pts ts x idx ->
  W (mesh_sides ts) x = Z.of_nat (length idx).
Proof.
  intros H (ND & B & E). rewrite winding_mesh.
  assert (G : forall ts off idx, (forall t, In t ts -> 0 <= area2 pts t) -> NoDup idx -> (forall i, In i idx -> (off <= i < off + length ts)%nat) ->
     (forall i, (i < length ts)%nat -> (In (off + i)%nat idx /\ in_tri pts (nth i ts (0, 0, 0)%nat) x) \/ (~ In (off + i)%nat idx /\ out_tri pts (nth i ts (0, 0, 0)%nat) x)) ->
     fold_right (fun t s => wtri t x + s)%Z 0%Z ts = Z.of_nat (length idx)).
  { clear. induction ts as [|t ts IH]; intros off idx H ND B E.
    - destruct idx as [|i idx]; [reflexivity|]. specialize (B i (or_introl eq_refl)). cbn in B. lia.
    - cbn [fold_right]. pose proof (wtri_claim t x (H t (or_introl eq_refl))) as (_ & KI & KO).
      assert (E0 := E 0%nat ltac:(cbn; lia)). cbn [nth] in E0. rewrite Nat.add_0_r in E0.
      assert (E' : forall i, (i < length ts)%nat -> (In (S off + i)%nat idx /\ in_tri pts (nth i ts (0, 0, 0)%nat) x) \/ (~ In (S off + i)%nat idx /\ out_tri pts (nth i ts (0, 0, 0)%nat) x)).
      { intros i Hi. specialize (E (S i) ltac:(cbn; lia)). cbn [nth] in E. replace (S off + i)%nat with (off + S i)%nat by lia. exact E. }
      destruct E0 as [(I0 & IN)|(I0 & OUT)].
      + rewrite (KI IN). apply in_split in I0. destruct I0 as (l1 & l2 & ->).
        pose proof (NoDup_remove_1 _ _ _ ND) as ND'. pose proof (NoDup_remove_2 _ _ _ ND) as NI.
        rewrite (IH (S off) (l1 ++ l2)).
        * rewrite !app_length. cbn [length]. lia.
        * intros u Hu. apply H. right. exact Hu.
        * exact ND'.
        * intros i Hi. assert (K : (off <= i < off + length (t :: ts))%nat). { apply B. apply in_app_or in Hi. apply in_or_app. cbn. tauto. }
          assert (i <> off) by (intros ->; contradiction). cbn in K. lia.
        * intros i Hi. destruct (E' i Hi) as [(J1 & J2)|(J1 & J2)]; [left|right]; (split; [|exact J2]).
          -- apply in_app_or in J1. apply in_or_app. destruct J1 as [J1|[J1|J1]]; [auto|lia|auto].
          -- intros C. apply J1. apply in_app_or in C. apply in_or_app. cbn. tauto.
      + rewrite (KO OUT). rewrite (IH (S off) idx); [lia| | | |exact E'].
        * intros u Hu. apply H. right. exact Hu.
        * exact ND.
        * intros i Hi. specialize (B i Hi). assert (i <> off) by (intros ->; contradiction). cbn in B. lia. }
  apply (G ts 0%nat idx); auto. intros i Hi. specialize (B i Hi). lia.
Qed.
End Sum.
