(** The steps of _naiveOffset2D over the reals. *)
From Coq Require Import Reals Lra Psatz ZArith List Bool Arith Lia.
From Verif Require Import Num GeoModel EdgeModel GeoSpec GeoMat GeoFig GeoCirc EdgeSpecR EdgeReal ArcModel FloorModel PolySpec OffSpec P_Normal.
Import ListNotations.
Open Scope R_scope.
Notation seg := (@segment Rnum).

Lemma update_length {A} (f : A -> A) l : forall i, length (update i f l) = length l.
Proof. induction l as [|x l IH]; intros [|i]; cbn; auto. Qed.
Lemma update_nth {A} (f : A -> A) d l : forall i j, nth j (update i f l) d = if (i =? j)%nat && (j <? length l)%nat then f (nth j l d) else nth j l d.
Proof.
  induction l as [|x l IH]; intros [|i] [|j]; cbn; try reflexivity; try (rewrite andb_false_r; reflexivity).
  rewrite IH. reflexivity.
Qed.
Lemma foldM_app {A B} (f : A -> B -> res A) l1 l2 : forall a, foldM f a (l1 ++ l2) = bind (foldM f a l1) (fun a' => foldM f a' l2).
Proof. induction l1 as [|x l1 IH]; intros a; cbn; [reflexivity|]. destruct (f a x); cbn; auto. Qed.
Lemma foldM_snoc {A B} (f : A -> B -> res A) l x a r : foldM f a (l ++ [x]) = Ok r <-> exists a', foldM f a l = Ok a' /\ f a' x = Ok r.
Proof.
  rewrite foldM_app. split; intros H.
  - apply bind_ok in H. destruct H as (a' & H1 & H2). cbn in H2. apply bind_ok in H2. destruct H2 as (b & H2 & H3). apply Ok_inj in H3. subst b. eauto.
  - destruct H as (a' & -> & H). cbn. rewrite H. reflexivity.
Qed.

(** ** connect *)
(* the start of every segment is the end of the one before *)
Definition prevn (n i : nat) : nat := match i with O => (n - 1)%nat | S j => j end.
Definition chain (l : list seg) : Prop := forall i, (i < length l)%nat -> sa (nth i l seg0) = sb (nth (prevn (length l) i) l seg0).
Definition mid2 (p q : pt) : pt := V (ndiv (vx (vadd p q)) (nZ 2)) (ndiv (vy (vadd p q)) (nZ 2)) (ndiv (vz (vadd p q)) (nZ 2)).
Lemma connectStep_ok n l i : exists m, sintersect2D (nth (prevn n i) l seg0) (nth i l seg0) 2 = Ok m /\
  connectStep n l i = Ok (update i (fun s => mkSeg (match m with Some p => p | None => mid2 (sb (nth (prevn n i) l seg0)) (sa (nth i l seg0)) end) (sb s))
     (update (prevn n i) (fun s => mkSeg (sa s) (match m with Some p => p | None => mid2 (sb (nth (prevn n i) l seg0)) (sa (nth i l seg0)) end)) l)).
Proof.
  unfold connectStep. fold (prevn n i). cbv zeta.
  destruct (sintersect2D_spec (nth (prevn n i) l seg0) (nth i l seg0) 2) as [[_ E]|[_ [(v & E & _)|[E _]]]]; rewrite E; cbn [bind]; eexists; (split; [reflexivity|]); reflexivity.
Qed.
Lemma connect_prefix (l : list seg) : forall k, (k <= length l)%nat -> exists l', foldM (connectStep (length l)) l (seq 0 k) = Ok l' /\ length l' = length l /\
  forall i, (i < k)%nat -> sa (nth i l' seg0) = sb (nth (prevn (length l) i) l' seg0).
Proof.
  induction k as [|k IH]; intros Hk; [exists l; repeat split; intros; lia|].
  destruct (IH ltac:(lia)) as (l' & E & L & C). rewrite seq_S. cbn [Nat.add].
  destruct (connectStep_ok (length l) l' k) as (m & _ & E2). set (mm := match m with Some p => p | None => _ end) in E2. clearbody mm.
  eexists. split; [apply foldM_snoc; exists l'; split; [exact E|exact E2]|]. split; [rewrite !update_length; exact L|].
  intros i Hi. rewrite !update_nth, !update_length, L.
  assert (PL : (prevn (length l) i < length l)%nat) by (unfold prevn; destruct i; lia).
  assert (PK : (prevn (length l) k < length l)%nat) by (unfold prevn; destruct k; lia).
  destruct (Nat.ltb_spec i (length l)); [|lia]. destruct (Nat.ltb_spec (prevn (length l) i) (length l)); [|lia]. rewrite !andb_true_r.
  destruct (Nat.eqb_spec k i) as [<-|NE].
  - rewrite Nat.eqb_refl. cbn [sa]. destruct (Nat.eqb_spec k (prevn (length l) k)) as [E3|N3]; cbn [sb]; [|reflexivity].
    destruct (Nat.eqb_spec (prevn (length l) k) k); [reflexivity|congruence].
  - assert (N2 : prevn (length l) k <> prevn (length l) i) by (unfold prevn; destruct k, i; lia).
    destruct (Nat.eqb_spec (prevn (length l) k) (prevn (length l) i)); [contradiction|].
    assert (Ci : sa (nth i l' seg0) = sb (nth (prevn (length l) i) l' seg0)) by (apply C; lia).
    destruct (Nat.eqb_spec (prevn (length l) k) i); destruct (Nat.eqb_spec k (prevn (length l) i)); cbn [sa sb]; exact Ci.
Qed.
Lemma connect_chain (l : list seg) : exists l', connect l = Ok l' /\ length l' = length l /\ chain l'.
Proof.
  destruct (connect_prefix l (length l) (le_n _)) as (l' & E & L & C). exists l'. split; [exact E|]. split; [exact L|]. unfold chain. rewrite L. exact C.
Qed.
(** ** the moved sides *)
Lemma soffset_shift (a b : pt) d : ~ (X a = X b /\ Y a = Y b) -> soffset2D (mkSeg a b) d = Ok (mkSeg (shift a b d a) (shift a b d b)).
Proof.
  intros N. unfold soffset2D. cbn [sa sb]. set (u := vortho2D (vsub a b)).
  assert (UX : X u = Y b - Y a) by (destruct a, b; unfold u, X, Y; alg; ring).
  assert (UY : Y u = X a - X b) by (destruct a, b; unfold u, X, Y; alg; reflexivity).
  assert (NZ : X u <> 0 \/ Y u <> 0).
  { destruct (Req_EM_T (X a) (X b)) as [EX|NX]; [destruct (Req_EM_T (Y a) (Y b)) as [EY|NY]|]; [tauto| |]; rewrite UX, UY; lra. }
  destruct (vnorm2D_ok u NZ) as (-> & _ & L). cbn [bind].
  assert (LE : len2 u = edist2 a b) by (unfold len2, edist2, sqdist2, Rsqr; rewrite UX, UY; f_equal; ring).
  unfold shift. rewrite UX, UY, LE in *. set (m := edist2 a b) in *. clearbody m. clear u UX UY LE NZ.
  assert (K : forall p : pt, vadd (vxy p) (vscale (P ((Y b - Y a) / m) ((X a - X b) / m) 0) d) = P (X p + d * ((Y b - Y a) / m)) (Y p - d * ((X b - X a) / m)) 0).
  { intros [px py pz]. destruct a as [a1 a2 a3], b as [b1 b2 b3]. apply pt_ext; unfold X, Y, Z, P; cbn; unfold Rdiv; ring. }
  rewrite !K. reflexivity.
Qed.
Lemma sq2_zero (x y : R) : x * x + y * y = 0 -> x = 0 /\ y = 0.
Proof. intros H. split; [apply (Rplus_sqr_eq_0_l x y)|apply (Rplus_sqr_eq_0_l y x)]; unfold Rsqr; lra. Qed.
Lemma shift_on (a b : pt) d p : ~ (X a = X b /\ Y a = Y b) -> side a b p = 0 -> on_parallel a b d (shift a b d p).
Proof.
  intros N H. unfold on_parallel, shift. unfold side in *. set (m := edist2 a b).
  assert (M : m * m = (X b - X a) * (X b - X a) + (Y b - Y a) * (Y b - Y a)).
  { unfold m, edist2. rewrite sqrt_sqrt; unfold sqdist2; [unfold Rsqr; ring|apply Rplus_le_le_0_compat; apply Rle_0_sqr]. }
  assert (M0 : m <> 0). { intros E. rewrite E, Rmult_0_l in M. symmetry in M. apply sq2_zero in M. apply N. lra. }
  clearbody m. unfold P, X at 3 6, Y at 3 6. cbn [vx vy].
  transitivity (((X b - X a) * (Y p - Y a) - (Y b - Y a) * (X p - X a)) - d * ((X b - X a) * (X b - X a) + (Y b - Y a) * (Y b - Y a)) / m).
  - unfold X, Y. cbn. field. exact M0.
  - rewrite H, <- M. field. exact M0.
Qed.
Lemma parallel_line (a b p q v : pt) d : ~ (X a = X b /\ Y a = Y b) -> ~ (X p = X q /\ Y p = Y q) ->
  on_parallel a b d p -> on_parallel a b d q -> on_parallel a b d v -> on_line2 p q v.
Proof.
  unfold on_parallel, side. intros N M Hp Hq Hv. set (c := - d * edist2 a b) in *. clearbody c.
  assert (K : forall u w e : R, (X b - X a) * w = (Y b - Y a) * u -> e = (X b - X a) * (X b - X a) + (Y b - Y a) * (Y b - Y a) ->
    u * e = ((X b - X a) * u + (Y b - Y a) * w) * (X b - X a) /\ w * e = ((X b - X a) * u + (Y b - Y a) * w) * (Y b - Y a)).
  { intros u w e E ->. split; [transitivity ((X b - X a) * (X b - X a) * u + (Y b - Y a) * ((Y b - Y a) * u)); [ring|rewrite <- E; ring]|transitivity ((X b - X a) * ((X b - X a) * w) + (Y b - Y a) * (Y b - Y a) * w); [ring|rewrite E; ring]]. }
  set (e := (X b - X a) * (X b - X a) + (Y b - Y a) * (Y b - Y a)) in *.
  assert (E0 : e <> 0). { unfold e. intros E. apply sq2_zero in E. apply N. lra. }
  destruct (K (X q - X p) (Y q - Y p) e ltac:(lra) eq_refl) as [Q1 Q2]. destruct (K (X v - X p) (Y v - Y p) e ltac:(lra) eq_refl) as [V1 V2].
  set (s := (X b - X a) * (X q - X p) + (Y b - Y a) * (Y q - Y p)) in *. set (r := (X b - X a) * (X v - X p) + (Y b - Y a) * (Y v - Y p)) in *.
  assert (S0 : s <> 0). { intros E. rewrite E in Q1, Q2. apply M. split; [assert (X q - X p = 0)|assert (Y q - Y p = 0)]; try lra; apply Rmult_eq_reg_r with e; lra. }
  exists (r / s). unfold at2, P. unfold X at 2, Y at 3. cbn [vx vy]. change (X v = X p + r / s * (X q - X p) /\ Y v = Y p + r / s * (Y q - Y p)).
  clearbody s r. split; apply Rmult_eq_reg_r with (s * e); try (apply Rmult_integral_contrapositive; auto).
  - transitivity (X p * (s * e) + r * ((X q - X p) * e)); [|field; exact S0]. rewrite Q1. replace (X v * (s * e)) with (X p * (s * e) + s * ((X v - X p) * e)) by ring. rewrite V1. ring.
  - transitivity (Y p * (s * e) + r * ((Y q - Y p) * e)); [|field; exact S0]. rewrite Q2. replace (Y v * (s * e)) with (Y p * (s * e) + s * ((Y v - Y p) * e)) by ring. rewrite V2. ring.
Qed.
(* two segments on the parallels of two sides, not nearly parallel, are connected at the common point of the parallels *)
Lemma meet_exact (s0 s1 : seg) (a b a' b' v : pt) d d' : ~ (X a = X b /\ Y a = Y b) -> ~ (X a' = X b' /\ Y a' = Y b') ->
  on_parallel a b d (sa s0) -> on_parallel a b d (sb s0) -> on_parallel a' b' d' (sa s1) -> on_parallel a' b' d' (sb s1) ->
  1 / 1000000 <= spans (sa s0) (sb s0) (sa s1) (sb s1) -> Z v = 0 -> on_parallel a b d v -> on_parallel a' b' d' v ->
  sintersect2D s0 s1 2 = Ok (Some v).
Proof.
  intros N N' H1 H2 H3 H4 SP ZV V1 V2.
  assert (M : ~ (X (sa s0) = X (sb s0) /\ Y (sa s0) = Y (sb s0))).
  { intros [E1 E2]. unfold spans in SP. rewrite E1, E2 in SP. replace (_ - _) with 0 in SP by ring. rewrite Rabs_R0 in SP. lra. }
  assert (M' : ~ (X (sa s1) = X (sb s1) /\ Y (sa s1) = Y (sb s1))).
  { intros [E1 E2]. unfold spans in SP. rewrite E1, E2 in SP. replace (_ - _) with 0 in SP by ring. rewrite Rabs_R0 in SP. lra. }
  pose proof (parallel_line _ _ _ _ _ _ N M H1 H2 V1) as L0. pose proof (parallel_line _ _ _ _ _ _ N' M' H3 H4 V2) as L1.
  destruct (sintersect2D_spec s0 s1 2) as [[SM _]|[_ [(w & E & Zw & _ & _ & U)|[_ NO]]]].
  - exfalso. unfold spans, cross2, eps in *. lra.
  - destruct (U v L0 L1) as [EX EY]. rewrite E. do 2 f_equal. apply pt_ext; congruence.
  - exfalso. apply (NO v); assumption.
Qed.
