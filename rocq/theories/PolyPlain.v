(** The same without the condition that all corners have different heights: the polygon is sheared. *)
From Coq Require Import Reals Lra Psatz ZArith List Lia Permutation.
From Verif Require Import Num GeoModel GeoSpec EdgeSpecR FaceModel FaceSpec FaceSpecR FaceCover NormSpec PolyEv PolySides PolyCross PolyWind PolyJordan PolyInside PolySplit PolyDiag PolyEars.
Import ListNotations.
Open Scope R_scope.

(** ** area *)
Definition term (e : pt * pt) : R := X (fst e) * Y (snd e) - Y (fst e) * X (snd e).
Lemma area_term l : area_xy l = rsum (map term (psides l)).
Proof. destruct l; reflexivity. Qed.
Lemma rsum_app l1 l2 : rsum (l1 ++ l2) = rsum l1 + rsum l2.
Proof. induction l1 as [|x l1 IH]; [symmetry; apply Rplus_0_l|]. change (rsum ((x :: l1) ++ l2)) with (x + rsum (l1 ++ l2)). change (rsum (x :: l1)) with (x + rsum l1). lra. Qed.
Lemma rsum_perm l1 l2 : Permutation l1 l2 -> rsum l1 = rsum l2.
Proof. induction 1; unfold rsum in *; cbn [fold_right] in *; try lra. Qed.
Lemma area_rot l1 l2 : area_xy (l1 ++ l2) = area_xy (l2 ++ l1).
Proof. rewrite !area_term. apply rsum_perm, Permutation_map, psides_rot. Qed.
Lemma area_rev l : area_xy (rev l) = - area_xy l.
Proof.
  rewrite !area_term. rewrite (rsum_perm _ _ (Permutation_map term (psides_rev l))). rewrite map_map. generalize (psides l) as es.
  induction es as [|[u v] es IH]; unfold rsum in *; cbn [map fold_right]; [lra|]. rewrite IH. unfold term. cbn [fst snd]. ring.
Qed.
Lemma area_corner a b c R0 : area_xy (a :: b :: c :: R0) = side a b c + area_xy (c :: R0 ++ [a]).
Proof.
  rewrite !area_term. change (a :: b :: c :: R0) with (a :: [b] ++ c :: R0). rewrite sides_whole, sides_half, !map_app, !rsum_app. cbn. unfold term, side. cbn. ring.
Qed.
Lemma area_tri a b c : area_xy [a; b; c] = side a b c.
Proof. rewrite area_term. cbn. unfold term, side. cbn. ring. Qed.

(** ** polygons in general position *)
Record plain (l : list pt) : Prop := mkPlain {
  p_len : (3 <= length l)%nat;
  p_nd : NoDup l;
  p_gp : forall p q r, In p l -> In q l -> In r l -> p <> q -> q <> r -> p <> r -> side p q r <> 0;
  p_simple : forall p p' q q', In (p, p') (psides l) -> In (q, q') (psides l) -> p <> q -> p <> q' -> p' <> q -> p' <> q' -> disj p p' q q' }.
Lemma plain_of_tame l : tame l -> plain l. Proof. intros [A B C D E]. constructor; assumption. Qed.
Lemma plain_rot l1 l2 : plain (l1 ++ l2) -> plain (l2 ++ l1).
Proof.
  assert (PI : forall x, In x (l2 ++ l1) -> In x (l1 ++ l2)) by (intros x; apply Permutation_in, rot_perm).
  assert (PS : forall x, In x (psides (l2 ++ l1)) -> In x (psides (l1 ++ l2))) by (intros x; apply Permutation_in, psides_rot).
  intros [A B C D]. constructor.
  - rewrite (Permutation_length (rot_perm l2 l1)). exact A.
  - apply (Permutation_NoDup (rot_perm l1 l2)), B.
  - intros; apply C; auto.
  - intros; apply D; auto.
Qed.
Definition sh (e : R) (p : pt) : pt := P (X p) (Y p + e * X p) (Z p).
Lemma sh_side e a b c : side (sh e a) (sh e b) (sh e c) = side a b c.
Proof. unfold side, sh. rewrite !X_P, !Y_P. ring. Qed.
Lemma sh_inj e p q : sh e p = sh e q -> p = q.
Proof.
  intros H. assert (HX : X p = X q) by (apply (f_equal X) in H; exact H). assert (HY : Y p + e * X p = Y q + e * X q) by (apply (f_equal Y) in H; exact H).
  assert (HZ : Z p = Z q) by (apply (f_equal Z) in H; exact H). destruct p as [a b c], q as [a' b' c']. unfold X, Y, Z in *. cbn in *. f_equal; try assumption. rewrite HX in HY. lra.
Qed.
Lemma psides_map {A B} (f : A -> B) l : psides (map f l) = map (fun e => (f (fst e), f (snd e))) (psides l).
Proof.
  destruct l as [|a r]; [reflexivity|]. unfold psides. cbn [map]. change [f a] with (map f [a]). rewrite <- map_app. change (f a :: map f r) with (map f (a :: r)).
  generalize (r ++ [a]) as m. generalize (a :: r) as k. induction k as [|x k IH]; intros [|y m]; cbn; try reflexivity. f_equal. apply IH.
Qed.
Lemma in_psides_map {A B} (f : A -> B) l x y : In (x, y) (psides (map f l)) -> exists u v, x = f u /\ y = f v /\ In (u, v) (psides l).
Proof. rewrite psides_map. intros H. apply in_map_iff in H. destruct H as ((u & v) & E & I). cbn in E. injection E as <- <-. exists u, v. auto. Qed.
Lemma psides_map_in {A B} (f : A -> B) l u v : In (u, v) (psides l) -> In (f u, f v) (psides (map f l)).
Proof. intros I. rewrite psides_map. apply in_map_iff. exists (u, v). auto. Qed.
Lemma sh_disj e u v p q : disj (sh e u) (sh e v) (sh e p) (sh e q) <-> disj u v p q.
Proof. unfold disj. rewrite !sh_side. tauto. Qed.
Lemma sh_plain e l : plain l <-> plain (map (sh e) l).
Proof.
  split; intros [A B C D]; constructor.
  - rewrite map_length. exact A.
  - apply FinFun.Injective_map_NoDup; [intros p q; apply sh_inj|exact B].
  - intros p q r Hp Hq Hr N1 N2 N3. apply in_map_iff in Hp, Hq, Hr. destruct Hp as (p0 & <- & Hp), Hq as (q0 & <- & Hq), Hr as (r0 & <- & Hr). rewrite sh_side. apply C; congruence.
  - intros p p' q q' H K N1 N2 N3 N4. apply in_psides_map in H, K. destruct H as (u & v & -> & -> & H), K as (x & y & -> & -> & K). apply sh_disj, D; congruence.
  - rewrite map_length in A. exact A.
  - apply NoDup_map_inv in B. exact B.
  - intros p q r Hp Hq Hr N1 N2 N3. rewrite <- (sh_side e). apply C; try (apply in_map; assumption); intros E; apply sh_inj in E; auto.
  - intros p p' q q' H K N1 N2 N3 N4. apply (sh_disj e). apply D; try (apply psides_map_in; assumption); intros E; apply sh_inj in E; auto.
Qed.
Lemma sh_area e l : area_xy (map (sh e) l) = area_xy l.
Proof.
  rewrite !area_term, psides_map, map_map. f_equal. apply map_ext. intros [u v]. unfold term, sh. cbn [fst snd]. rewrite !X_P, !Y_P. ring.
Qed.
Lemma sh_out e a b c v : outside3 (sh e a) (sh e b) (sh e c) (sh e v) <-> outside3 a b c v.
Proof. unfold outside3. rewrite !sh_side. tauto. Qed.
Lemma third (l : list pt) p q : NoDup l -> (3 <= length l)%nat -> exists r, In r l /\ r <> p /\ r <> q.
Proof.
  intros D L. destruct l as [|x [|y [|z l]]]; cbn in L; try lia. inversion D as [|? ? N1 D1]; subst. inversion D1 as [|? ? N2 D2]; subst. cbn in N1, N2.
  destruct (classic_eq x p) as [E1|E1]; [|destruct (classic_eq x q) as [E2|E2]; [|exists x; cbn; auto]].
  - destruct (classic_eq y q) as [E3|E3]; [exists z|exists y]; cbn; intuition congruence.
  - destruct (classic_eq y p) as [E3|E3]; [exists z|exists y]; cbn; intuition congruence.
Qed.
Lemma plain_apart l p q : plain l -> In p l -> In q l -> p <> q -> X p <> X q \/ Y p <> Y q.
Proof.
  intros T Ip Iq N. destruct (third l p q (p_nd _ T) (p_len _ T)) as (r & Ir & N1 & N2).
  assert (S : side p q r <> 0) by (apply (p_gp _ T); auto). destruct (Req_EM_T (X p) (X q)) as [E1|]; [|auto]. destruct (Req_EM_T (Y p) (Y q)) as [E2|]; [|auto].
  exfalso. apply S. unfold side. rewrite E1, E2. ring.
Qed.
Lemma plain_shear l : plain l -> exists e, tame (map (sh e) l).
Proof.
  intros T. set (bad := map (fun pq => - (Y (fst pq) - Y (snd pq)) / (X (fst pq) - X (snd pq))) (list_prod l l)).
  destruct (avoid bad 0 1 ltac:(lra)) as (e & _ & NB). exists e. pose proof (proj1 (sh_plain e l) T) as [A B C D]. constructor; try assumption.
  intros p q Hp Hq N. apply in_map_iff in Hp, Hq. destruct Hp as (p0 & <- & Hp), Hq as (q0 & <- & Hq). unfold sh. rewrite !Y_P. intros E.
  assert (N0 : p0 <> q0) by congruence. destruct (Req_EM_T (X p0) (X q0)) as [EX|NX].
  - destruct (plain_apart l p0 q0 T Hp Hq N0) as [F|F]; [auto|]. rewrite EX in E. lra.
  - apply NB. unfold bad. apply in_map_iff. exists (p0, q0). split; [|apply in_prod; assumption]. cbn [fst snd]. apply (Rmult_eq_reg_r (X p0 - X q0)); [|lra]. unfold Rdiv. rewrite Rmult_assoc, Rinv_l by lra. lra.
Qed.

(** ** orientation *)
Lemma ear_front l a b c : NoDup l -> (3 <= length l)%nat -> isear l a b c -> exists l1 l2 R0, l = l1 ++ l2 /\ l2 ++ l1 = b :: c :: R0 ++ [a] /\ forall v, In v R0 -> outside3 a b c v.
Proof.
  intros D L (H & K & _ & O). destruct (corner_front l a b c D L H K) as (l1 & l2 & R0 & E & F). exists l1, l2, R0. split; [exact E|]. split; [exact F|].
  assert (ND : NoDup (b :: c :: R0 ++ [a])) by (rewrite <- F; apply (Permutation_NoDup (rot_perm l1 l2)); rewrite <- E; exact D).
  intros v I. inversion ND as [|? ? N1 D1]; subst. inversion D1 as [|? ? N2 D2]; subst. apply O.
  - apply (Permutation_in _ (rot_perm l2 l1)). rewrite F. right. right. apply in_app_iff. auto.
  - intros ->. apply NoDup_remove_2 in D2. apply D2. rewrite app_nil_r. exact I.
  - intros ->. apply N1. right. apply in_app_iff. auto.
  - intros ->. apply N2. apply in_app_iff. auto.
Qed.
Lemma good_area n : forall l, length l = n -> good l -> 0 < area_xy l.
Proof.
  induction n as [n IH] using lt_wf_ind. intros l LN G. pose proof (tm _ G) as T. destruct (ear_ex l G) as (a & b & c & E).
  destruct (ear_front l a b c (t_nd _ T) (t_len _ T) E) as (l1 & l2 & R0 & E1 & E2 & O). destruct E as (_ & _ & L & _).
  assert (E3 : area_xy l = area_xy (a :: b :: c :: R0)).
  { rewrite E1, area_rot, E2. apply (area_rot (b :: c :: R0) [a]). }
  assert (G3 : good (a :: b :: c :: R0)).
  { apply (good_rot (b :: c :: R0) [a]). change ((b :: c :: R0) ++ [a]) with (b :: c :: R0 ++ [a]). rewrite <- E2. apply good_rot. rewrite <- E1. exact G. }
  rewrite E3. destruct R0 as [|v R0]; [rewrite area_tri; exact L|].
  rewrite area_corner. enough (0 < area_xy (c :: (v :: R0) ++ [a])) by lra.
  apply (IH (length (c :: (v :: R0) ++ [a]))); [|reflexivity|].
  - assert (length l = length (b :: c :: (v :: R0) ++ [a])) by (rewrite E1, <- E2; apply Permutation_length, rot_perm). cbn in *. lia.
  - apply (corner_good a b c (v :: R0)); [exact G3|exact L|exact O|discriminate].
Qed.
Lemma area_good l : tame l -> 0 < area_xy l -> good l.
Proof. intros T A. destruct (good_or l T) as [|G]; [assumption|]. pose proof (good_area _ _ eq_refl G) as B. rewrite area_rev in B. lra. Qed.

(** ** the two facts about ears *)
Theorem plain_ear l : plain l -> 0 < area_xy l -> exists a b c, isear l a b c.
Proof.
  intros T A. destruct (plain_shear l T) as (e & T'). assert (G : good (map (sh e) l)) by (apply area_good; [exact T'|rewrite sh_area; exact A]).
  destruct (ear_ex _ G) as (a' & b' & c' & H & K & L & O). apply in_psides_map in H. destruct H as (a & b & -> & -> & H). apply in_psides_map in K. destruct K as (b0 & c & E & -> & K).
  apply sh_inj in E. subst b0. exists a, b, c. split; [exact H|]. split; [exact K|]. rewrite sh_side in L. split; [exact L|].
  intros v I N1 N2 N3. apply (sh_out e). apply O; [apply in_map, I|intros E; apply sh_inj in E; auto..].
Qed.
Theorem plain_cut a b c R0 : plain (a :: b :: c :: R0) -> 0 < area_xy (a :: b :: c :: R0) -> 0 < side a b c -> (forall v, In v R0 -> outside3 a b c v) -> R0 <> [] ->
  plain (c :: R0 ++ [a]) /\ 0 < area_xy (c :: R0 ++ [a]).
Proof.
  intros T A L O N. destruct (plain_shear _ T) as (e & T'). assert (G : good (map (sh e) (a :: b :: c :: R0))) by (apply area_good; [exact T'|rewrite sh_area; exact A]).
  assert (G2 : good (map (sh e) (c :: R0 ++ [a]))).
  { cbn [map]. rewrite map_app. cbn [map]. apply (corner_good (sh e a) (sh e b) (sh e c) (map (sh e) R0)); [exact G|rewrite sh_side; exact L| |destruct R0; [congruence|discriminate]].
    intros v I. apply in_map_iff in I. destruct I as (v0 & <- & I). apply sh_out, O, I. }
  split; [apply (sh_plain e), plain_of_tame, G2|]. rewrite <- (sh_area e). apply (good_area _ _ eq_refl G2).
Qed.
