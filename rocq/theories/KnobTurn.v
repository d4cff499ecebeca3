(** The outline of the knob turns around its axis once. *)
From Coq Require Import Reals Lra Psatz ZArith List Bool Arith Lia.
From Verif Require Import Num GeoModel EdgeModel GeoSpec GeoMat GeoRigid GeoCirc ArcModel ArcSpec ArcProof ArcCorner ArcShape MeshModel BossSpec BossProof PartProof KnobModel KnobSpec KnobGroove.
Import ListNotations.
Open Scope R_scope.

Fixpoint steps {A : Type} (Rel : A -> A -> Prop) (l : list A) : Prop :=
  match l with
  | x :: (y :: _) as r => Rel x y /\ steps Rel r
  | _ => True
  end.
Lemma steps_app {A} (Rel : A -> A -> Prop) d l1 l2 : steps Rel l1 -> steps Rel l2 -> (l1 <> [] -> l2 <> [] -> Rel (last l1 d) (hd d l2)) -> steps Rel (l1 ++ l2).
Proof.
  intros H1 H2 H. induction l1 as [|x [|y l1] IH]; [exact H2| |].
  - cbn [app]. destruct l2 as [|z l2]; [exact Coq.Init.Logic.I|]. split; [apply H; discriminate|exact H2].
  - destruct H1 as [S1 H1]. cbn [app]. split; [exact S1|]. apply IH; [exact H1|]. intros _ N2. apply H; [discriminate|exact N2].
Qed.
Lemma steps_map {A B} (f : A -> B) (RA : A -> A -> Prop) (RB : B -> B -> Prop) l : (forall x y, In x l -> In y l -> RA x y -> RB (f x) (f y)) -> steps RA l -> steps RB (map f l).
Proof.
  intros H. induction l as [|x [|y l] IH]; intros S; [exact Coq.Init.Logic.I|exact Coq.Init.Logic.I|]. destruct S as [S1 S]. split; [apply H; cbn; auto|]. apply IH; [|exact S]. intros u v Iu Iv. apply H; right; assumption.
Qed.
Lemma steps_rev {A} (RA RB : A -> A -> Prop) l : (forall x y, RA x y -> RB y x) -> steps RA l -> steps RB (rev l).
Proof.
  intros H. induction l as [|x [|y l] IH]; intros S; [exact Coq.Init.Logic.I|exact Coq.Init.Logic.I|]. destruct S as [S1 S]. change (rev (x :: y :: l)) with (rev (y :: l) ++ [x]).
  apply (steps_app RB x); [exact (IH S)|exact Coq.Init.Logic.I|]. intros _ _. cbn [hd]. cbn [rev]. rewrite last_last. apply H, S1.
Qed.
Lemma steps_nth {A} (Rel : A -> A -> Prop) d l i : steps Rel l -> (S i < length l)%nat -> Rel (nth i l d) (nth (S i) l d).
Proof.
  revert i. induction l as [|x [|y l] IH]; intros i S L; [cbn in L; lia|cbn in L; lia|]. destruct S as [S1 S]. destruct i as [|i]; [exact S1|]. apply (IH i S). cbn in L |- *. lia.
Qed.
Lemma steps_seq {A} (Rel : A -> A -> Prop) (f : nat -> A) n k : (forall i, (k <= i < k + n)%nat -> Rel (f i) (f (S i))) -> steps Rel (map f (seq k (S n))).
Proof.
  revert k. induction n as [|n IH]; intros k H; [exact Coq.Init.Logic.I|]. change (seq k (S (S n))) with (k :: seq (S k) (S n)). cbn [map]. change (map f (seq (S k) (S n))) with (f (S k) :: map f (seq (S (S k)) n)).
  split; [apply H; lia|]. apply (IH (S k)). intros i I. apply H. lia.
Qed.

Section Arcs.
Variables h amax : R.
Let q := @mkQuality Rnum h amax.
(* an arc that was made, with the size of its steps *)
Lemma arc_steps_wide (r s sp : R) (ce : pt) l : eps <= r -> 0 < h -> 0 < amax -> Rabs sp <= 3 * PI / 2 -> @arc2D Rnum q r s sp ce = Ok l ->
  sp <> 0 /\ exists n : nat, (1 <= n)%nat /\ Rabs sp <= INR n * chord_limit h amax r /\ h <= 2 * r /\ l = map (fun i => circle_at ce r (s + INR i * (sp / INR n))) (seq 0 (S n)).
Proof.
  intros HR Hh Ha HS H. pose proof eps_pos as EP. pose proof PI_RGT_0 as PP. pose proof PI2_3_2 as P3. unfold PI2 in P3.
  assert (NZ : sp <> 0).
  { intros ->. unfold arc2D in H. destruct (nltb (Num := Rnum) r (nQ 1 1000000)) eqn:C; [change (Rltb r (1 / 1000000) = true) in C; apply Rltb_true in C; unfold eps in HR; lra|].
    apply bind_ok in H. destruct H as (k & _ & H). apply bind_ok in H. destruct H as (ac & _ & H). cbv zeta in H. apply bind_ok in H. destruct H as (cc & EC & H). apply pdiv_ok in EC. destruct EC as [_ EC].
    rewrite pmin_R, pmax_R in EC. change (@tau Rnum) with (2 * PI) in EC. assert (Z0 : Rmax (- (2 * PI)) (Rmin 0 (2 * PI)) = 0) by (rewrite Rmin_left by lra; apply Rmax_right; lra).
    change (cc = Rabs (Rmax (- (2 * PI)) (Rmin 0 (2 * PI))) / @pmin Rnum (maxChordAngle q) (ac * 2)) in EC. rewrite Z0, Rabs_R0 in EC. unfold Rdiv in EC. rewrite Rmult_0_l in EC. subst cc.
    assert (N0 : nceil (Num := Rnum) (0 : R) = 0%Z). { change (Rceil 0 = 0%Z). pose proof (Rceil_spec 0) as [C1 C2]. assert (0 <= Rceil 0)%Z by (apply le_IZR; lra). assert (Rceil 0 < 1)%Z by (apply lt_IZR; lra). lia. }
    rewrite N0 in H. cbn in H. discriminate. }
  split; [exact NZ|].
  assert (H2 : h <= 2 * r).
  { destruct (Rle_dec h (2 * r)) as [L|L]; [exact L|]. exfalso. unfold arc2D in H. destruct (nltb (Num := Rnum) r (nQ 1 1000000)) eqn:C; [change (Rltb r (1 / 1000000) = true) in C; apply Rltb_true in C; unfold eps in HR; lra|].
    change (maxChordHeight q) with h in H. rewrite pdiv_nz in H by lra. cbn [bind] in H. apply bind_ok in H. destruct H as (ac & EA & _).
    assert (L2 : 1 - h / r < -1). { assert (2 < h / r); [|lra]. apply (Rmult_lt_reg_r r); [lra|]. unfold Rdiv. rewrite Rmult_assoc, Rinv_l by lra. lra. }
    pose proof (pacos_err (1 - h / r) (or_introl L2)) as E. rewrite E in EA || (change (@pacos Rnum (1 - h / r) = Ok ac) in EA; rewrite E in EA). discriminate. }
  destruct (arc_form h amax r s sp ce HR (conj Hh H2) Ha NZ) as (n & N1 & [_ B2] & _ & F). rewrite turn_limited_id in * by lra.
  exists n. split; [exact N1|]. split.
  { exact B2. }
  split; [exact H2|].
  assert (NF : ~ full_turn sp). { unfold full_turn. rewrite Rabs_left1 by lra. unfold eps. lra. }
  fold q in F. rewrite (F NF) in H. apply Ok_inj in H. symmetry. exact H.
Qed.
Lemma arc_steps (r s sp : R) (ce : pt) l : eps <= r -> 0 < h -> 0 < amax -> Rabs sp <= PI -> @arc2D Rnum q r s sp ce = Ok l ->
  sp <> 0 /\ exists n : nat, (1 <= n)%nat /\ Rabs sp <= INR n * amax /\ l = map (fun i => circle_at ce r (s + INR i * (sp / INR n))) (seq 0 (S n)).
Proof.
  intros HR Hh Ha HS H. pose proof PI_RGT_0 as PP. assert (HS' : Rabs sp <= 3 * PI / 2) by lra. destruct (arc_steps_wide r s sp ce l HR Hh Ha HS' H) as (NZ & n & N1 & B & _ & E).
  split; [exact NZ|]. exists n. split; [exact N1|]. split; [|exact E]. eapply Rle_trans; [exact B|]. apply Rmult_le_compat_l; [apply pos_INR|]. unfold chord_limit. apply Rmin_l.
Qed.
End Arcs.

(** ** directions on the right side of the axis *)
Lemma angle_up (p p' : pt) : 0 <= X p -> 0 <= X p' -> 0 < crossz p p' -> vangle2D p < vangle2D p'.
Proof.
  unfold crossz. intros A B C. change (Ratan2 (Y p) (X p) < Ratan2 (Y p') (X p')). unfold Ratan2. pose proof PI_RGT_0 as PP.
  pose proof (atan_bound (Y p / X p)) as T1. pose proof (atan_bound (Y p' / X p')) as T2.
  destruct (Rlt_dec 0 (X p)) as [A1|A1]; destruct (Rlt_dec 0 (X p')) as [B1|B1].
  - apply atan_increasing. apply (Rmult_lt_reg_r (X p * X p')); [nra|]. replace (Y p / X p * (X p * X p')) with (Y p * X p') by (field; lra). replace (Y p' / X p' * (X p * X p')) with (X p * Y p') by (field; lra). nra.
  - assert (X p' = 0) by lra. rewrite H in *. destruct (Rlt_dec 0 0); [lra|]. destruct (Rlt_dec 0 (Y p')) as [D|D]; [lra|nra].
  - assert (X p = 0) by lra. rewrite H in *. destruct (Rlt_dec 0 0); [lra|]. destruct (Rlt_dec 0 (Y p)) as [D|D]; [nra|]. destruct (Rlt_dec (Y p) 0) as [D2|D2]; [lra|nra].
  - exfalso. assert (E1 : X p = 0) by lra. assert (E2 : X p' = 0) by lra. rewrite E1, E2 in C. lra.
Qed.
Lemma angle_of (r t z : R) : 0 < r -> - (PI / 2) <= t <= PI / 2 -> vangle2D (P (r * cos t) (r * sin t) z) = t.
Proof.
  intros R0 H. change (Ratan2 (r * sin t) (r * cos t) = t). rewrite (Ratan2_scale r) by exact R0. pose proof PI_RGT_0 as PP. unfold Ratan2.
  destruct (Rlt_dec 0 (cos t)) as [C|C].
  - assert (- (PI / 2) < t < PI / 2). { split; [destruct (proj1 H) as [L|L]; [exact L|subst t; rewrite cos_neg, cos_PI2 in C; lra]|destruct (proj2 H) as [L|L]; [exact L|subst t; rewrite cos_PI2 in C; lra]]. }
    apply atan_tan. exact H0.
  - assert (E : t = PI / 2 \/ t = - (PI / 2)). { destruct (Req_dec t (PI / 2)); [left; assumption|]. destruct (Req_dec t (- (PI / 2))); [right; assumption|]. exfalso. apply C, cos_gt_0; lra. }
    destruct E as [->| ->].
    + rewrite cos_PI2, sin_PI2. destruct (Rlt_dec 0 0); [lra|]. destruct (Rlt_dec 0 1); lra.
    + rewrite cos_neg, sin_neg, cos_PI2, sin_PI2. destruct (Rlt_dec 0 0); [lra|]. destruct (Rlt_dec 0 (- (1))); [lra|]. destruct (Rlt_dec (- (1)) 0); lra.
Qed.
Lemma axial_sq p : axial p * axial p = X p * X p + Y p * Y p.
Proof. unfold axial. apply sqrt_sqrt. apply Rplus_le_le_0_compat; apply Rle_0_sqr. Qed.
Lemma in_dir (p : pt) : 0 < X p * X p + Y p * Y p -> in_direction p (vangle2D p).
Proof. intros H. apply polar; [apply sqrt_lt_R0, H|rewrite axial_sq; reflexivity]. Qed.
Definition mark (p : pt) : pt * R := (p, vangle2D p).
Definition climb (x y : pt * R) : Prop := snd x < snd y \/ (snd x = snd y /\ fst x = fst y).
Definition ahead (p p' : pt) : Prop := p = p' \/ 0 < crossz p p'.
Lemma ahead_climb l : Forall (fun p => 0 <= X p) l -> steps ahead l -> steps climb (map mark l).
Proof.
  intros F. apply steps_map. intros x y Ix Iy [->|C]; [right; split; reflexivity|left]. rewrite Forall_forall in F. apply angle_up; auto.
Qed.
Definition mirrored_mark (x : pt * R) : pt * R := (vmirX (fst x), PI - snd x).
Definition turned_mark (b : R) (x : pt * R) : pt * R := (transformed (fst x) (mrotZ mid b None), snd x + b).
Lemma mirrored_climb x y : climb x y -> climb (mirrored_mark y) (mirrored_mark x).
Proof. intros [H|[H1 H2]]; [left|right]; unfold mirrored_mark; cbn [fst snd]; [lra|rewrite H1, H2; split; reflexivity]. Qed.
Lemma turned_climb b x y : climb x y -> climb (turned_mark b x) (turned_mark b y).
Proof. intros [H|[H1 H2]]; [left|right]; unfold turned_mark; cbn [fst snd]; [lra|rewrite H1, H2; split; reflexivity]. Qed.
Definition good (x : pt * R) : Prop := in_direction (fst x) (snd x).
Lemma mirrored_good x : good x -> good (mirrored_mark x).
Proof.
  destruct x as [[x y z] t]. unfold good, in_direction, mirrored_mark. cbn [fst snd]. intros [A B].
  assert (E : axial (vmirX (P x y z)) = axial (P x y z)) by (unfold axial; f_equal; unfold vmirX, X, Y, P; cbn; rn; ring). change (@V Rnum x y z) with (P x y z) in *. rewrite E.
  rewrite Rtrigo_facts.cos_pi_minus, Rtrigo_facts.sin_pi_minus. split; [|exact B]. change (X (vmirX (P x y z))) with (- X (P x y z)). rewrite A at 1. ring.
Qed.
Lemma turned_axial b p : axial (transformed p (mrotZ mid b None)) = axial p.
Proof.
  rewrite turned_pt. unfold axial. f_equal. pose proof (sin2_cos2 b) as S. unfold Rsqr in S. destruct p as [x y z]. unfold X, Y, P. cbn [vx vy vz].
  change ((x * cos b - y * sin b) * (x * cos b - y * sin b) + (x * sin b + y * cos b) * (x * sin b + y * cos b) = x * x + y * y).
  transitivity ((x * x + y * y) * (sin b * sin b + cos b * cos b)); [ring|rewrite S; ring].
Qed.
Lemma turned_good b x : good x -> good (turned_mark b x).
Proof.
  unfold good, in_direction, turned_mark. cbn [fst snd]. rewrite turned_axial, turned_pt. destruct x as [p t]. cbn [fst snd]. intros [A B]. rewrite cos_plus, sin_plus.
  set (r := axial p) in *. clearbody r. change (X p * cos b - Y p * sin b = r * (cos t * cos b - sin t * sin b) /\ X p * sin b + Y p * cos b = r * (sin t * cos b + cos t * sin b)). rewrite A, B. split; ring.
Qed.
