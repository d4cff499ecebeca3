(** Which vertex a hole is connected to, over the reals. *)
From Coq Require Import Reals Lra Psatz ZArith List Permutation Lia Arith Bool.
From Verif Require Import Num GeoModel EdgeModel FaceModel GeoSpec GeoMat GeoCirc EdgeSpecR FaceSpec FaceSpecR FaceComb FaceCut FaceHole FaceCover FaceHoleR FaceEar BridgeSpec.
Import ListNotations.
Open Scope R_scope.

Section Bridge.
Variables (pts : list pt) (poly : list nat) (a : pt).
Hypothesis FL : flat pts.
Notation n := (length poly).
Notation q_ i := (at_ pts (nth i poly 0%nat)).
Notation next i := (S i mod length poly)%nat.

Definition best (P : nat -> Prop) (h : @hit Rnum) : Prop := match h with
  | None => forall i x, P i -> ~ ray_meets pts poly a i x
  | Some (b, c, w) => Y b = Y a /\ Z b = 0 /\ c = q_ w /\ (w < n)%nat /\ X a < X b /\
      (exists i, (i < n)%nat /\ ray_meets pts poly a i (X b) /\ far_end pts poly a b i w) /\
      (forall i x, P i -> ray_meets pts poly a i x -> X b <= x)
  end.
Lemma meet_x p q x : Y p < Y q -> (x - X p) * (Y q - Y p) = (Y a - Y p) * (X q - X p) -> 
  x = X p - (Y p - Y a) * (X q - X p) / (Y q - Y p).
Proof.
  intros L E. apply Rmult_eq_reg_r with (Y q - Y p); [|lra].
  replace ((X p - (Y p - Y a) * (X q - X p) / (Y q - Y p)) * (Y q - Y p)) with (X p * (Y q - Y p) + (Y a - Y p) * (X q - X p)) by (field; lra). lra.
Qed.
Lemma rayStep_best (Q : nat -> Prop) h i h' : (i < n)%nat -> best Q h -> rayStep lt_oo pts poly a h i = Ok h' ->
  best (fun k => Q k \/ k = i) h'.
Proof.
  intros Hi Hh. assert (Hj : (next i < n)%nat) by (apply Nat.mod_upper_bound; lia).
  unfold rayStep. set (p := q_ i). set (q := q_ (next i)). rn. fold (X p) (Y p) (X q) (Y q) (X a) (Y a).
  (* keeping the hit is right when side i gives no nearer one *)
  assert (KEEP : (forall x, ray_meets pts poly a i x -> h <> None /\ @lt_bx Rnum lt_oo x h = false) -> best (fun k => Q k \/ k = i) h).
  { intros K. destruct h as [[[b c] w]|]; cbn [best] in *.
    - destruct Hh as (H1 & H2 & H3 & H4 & H5 & H6 & H7). do 6 (split; [assumption|]). intros k x [HQ| ->] M; [eapply H7; eauto|].
      destruct (K x M) as [_ K2]. cbn [lt_bx] in K2. rn. apply Rltb_false in K2. exact K2.
    - intros k x [HQ| ->] M; [eapply Hh; eauto|]. destruct (K x M) as [K1 _]. congruence. }
  assert (NEW : forall (b c : pt) w x, ray_meets pts poly a i x -> @lt_bx Rnum lt_oo x h = true -> X b = x -> Y b = Y a -> Z b = 0 -> c = q_ w -> (w < n)%nat ->
     far_end pts poly a b i w -> best (fun k => Q k \/ k = i) (Some (b, c, w))).
  { intros b c w x M LB EX EY EZ EC LW FE. cbn [best]. do 4 (split; [assumption|]). split; [rewrite EX; apply M|]. split; [exists i; rewrite EX; auto|].
    intros k y [HQ| ->] My.
    - destruct h as [[[b0 c0] w0]|]; cbn [best lt_bx] in *; [|destruct (Hh k y HQ My)]. rn. apply Rltb_true in LB.
      destruct Hh as (_ & _ & _ & _ & _ & _ & H7). specialize (H7 k y HQ My). unfold X in *. lra.
    - destruct M as (M1 & M2), My as (N1 & N2). fold p q in M2, N2. rewrite EX. destruct M2 as [(A1 & A2 & A3 & A4)|(A1 & A2 & A3 & A4 & A5)], N2 as [(B1 & B2 & B3 & B4)|(B1 & B2 & B3 & B4 & B5)]; try lra.
      apply meet_x in A4; [|lra]. apply meet_x in B4; [|lra]. lra. }
  destruct (Reqb (Y p) (Y a) && Reqb (Y a) (Y q)) eqn:E1.
  - apply andb_prop in E1. destruct E1 as [E1 E2]. apply Reqb_true in E1. apply Reqb_true in E2.
    destruct (Rltb (X a) (X p) && Rltb (X a) (X q)) eqn:E3.
    2:{ intros H. okinv H. apply KEEP. intros x M'; unfold ray_meets in M'; cbv zeta in M'; fold p q in M'; destruct M' as (M0 & [M|(_ & _ & M3 & M4 & _)]); [lra|]. apply andb_false_iff in E3. destruct E3 as [E3|E3]; apply Rltb_false in E3; lra. }
    apply andb_prop in E3. destruct E3 as [E3 E4]. apply Rltb_true in E3. apply Rltb_true in E4.
    assert (MM : ray_meets pts poly a i (Rmin (X p) (X q))).
    { split; [apply Rmin_glb_lt; assumption|]. right. fold p q. auto with real. }
    assert (FE : forall v, (v = i \/ v = next i) -> X (q_ v) = Rmin (X p) (X q) -> far_end pts poly a (q_ v) i v).
    { intros v Hv EX. right. fold p q. auto with real. }
    destruct (Rltb (X p) (X q) && @lt_bx Rnum lt_oo (X p) h) eqn:E5.
    + intros H. okinv H. apply andb_prop in E5. destruct E5 as [E5 E6]. apply Rltb_true in E5.
      apply (NEW p p i (Rmin (X p) (X q)) MM); auto; rewrite ?Rmin_left by lra; auto. apply FL. apply (FE i); auto. fold p. rewrite Rmin_left; lra.
    + destruct (@lt_bx Rnum lt_oo (X q) h) eqn:E6; intros H; okinv H.
      * assert (QP : X q <= X p).
        { apply andb_false_iff in E5. destruct E5 as [E5|E5]; [apply Rltb_false in E5; lra|].
          destruct h as [[[b c] w]|]; cbn [lt_bx] in *; [|discriminate]. rn. apply Rltb_false in E5. apply Rltb_true in E6. lra. }
        apply (NEW q q (next i) (Rmin (X p) (X q)) MM); auto; rewrite ?Rmin_right by lra; auto. apply FL. apply (FE (next i)); auto. fold q. rewrite Rmin_right; lra.
      * apply KEEP. intros x M'; unfold ray_meets in M'; cbv zeta in M'; fold p q in M'; destruct M' as (M0 & [M|(_ & _ & M3 & M4 & M5)]); [lra|].
        destruct h as [[[b c] w]|]; cbn [lt_bx] in *; [|discriminate]. split; [discriminate|]. rn. apply Rltb_false. apply Rltb_false in E6. rewrite M5. unfold Rmin. destruct (Rle_dec (X p) (X q)); [|exact E6].
        apply andb_false_iff in E5. destruct E5 as [E5|E5]; apply Rltb_false in E5; [|exact E5]. lra.
  - destruct (Rleb (Y p) (Y a) && Rleb (Y a) (Y q)) eqn:E2.
    2:{ intros H. okinv H. apply KEEP. intros x (M0 & M). fold p q in M. exfalso. apply andb_false_iff in E1. apply andb_false_iff in E2.
        destruct E2 as [E2|E2]; apply Rleb_false in E2; lra. }
    apply andb_prop in E2. destruct E2 as [E2 E3]. apply Rleb_true in E2. apply Rleb_true in E3.
    assert (D : Y p < Y q).
    { apply andb_false_iff in E1. destruct E1 as [E1|E1]; apply Reqb_false in E1; lra. }
    rewrite (pdiv_nz _ (Y q - Y p)) by lra. cbn [bind]. rn. set (x := X p - (Y p - Y a) * (X q - X p) / (Y q - Y p)) in *.
    assert (UX : forall y, ray_meets pts poly a i y -> y = x).
    { intros y M'; unfold ray_meets in M'; cbv zeta in M'; fold p q in M'; destruct M' as (M0 & [(M1 & M2 & M3 & M4)|M]); [apply meet_x in M4; auto|lra]. }
    destruct (Rltb (X a) x && @lt_bx Rnum lt_oo x h) eqn:E4; intros H; okinv H.
    + apply andb_prop in E4. destruct E4 as [E4 E5]. apply Rltb_true in E4.
      assert (MM : ray_meets pts poly a i x).
      { split; [exact E4|]. left. fold p q. do 3 (split; [assumption|]). unfold x. field. lra. }
      destruct (Rltb (X q) (X p)) eqn:E6; [apply Rltb_true in E6|apply Rltb_false in E6].
      * apply (NEW (P x (Y a) 0) p i x MM E5); auto. left. fold p q. split; [lra|]. left. auto.
      * apply (NEW (P x (Y a) 0) q (next i) x MM E5); auto. left. fold p q. split; [lra|]. right. split; [reflexivity|lra].
    + apply KEEP. intros y M. rewrite (UX y M). assert (XA : X a < x) by (rewrite <- (UX y M); apply M). apply Rltb_true in XA. rewrite XA in E4. cbn [andb] in E4.
      split; [|exact E4]. intros ->. discriminate E4.
Qed.
Lemma foldM_best l : (forall i, In i l -> (i < n)%nat) -> forall (Q : nat -> Prop) h h', best Q h -> foldM (rayStep lt_oo pts poly a) h l = Ok h' ->
  best (fun k => Q k \/ In k l) h'.
Proof.
  assert (EXT : forall (P Q : nat -> Prop) h, (forall k, Q k -> P k) -> best P h -> best Q h).
  { intros P Q h E. destruct h as [[[b c] w]|]; cbn [best]; [intros (A & B & C & D & F & G & H); do 6 (split; [assumption|]); eauto|eauto]. }
  induction l as [|i l IH]; intros HL Q h h' Hh H; cbn [foldM] in H.
  - okinv H. eapply EXT; [|exact Hh]. intros k [K|[]]; exact K.
  - apply bind_ok in H. destruct H as (h1 & E1 & H). apply rayStep_best with (Q := Q) in E1; [|apply HL; left; reflexivity|exact Hh].
    specialize (IH (fun k Hk => HL k (or_intror Hk)) _ _ _ E1 H). eapply EXT; [|exact IH]. cbn. intros k [K|[K|K]]; auto.
Qed.
Lemma castRay_best h : castRay lt_oo pts poly a = Ok h -> best (fun k => (k < n)%nat) h.
Proof.
  intros H. unfold castRay in H. assert (K : best (fun k => False \/ In k (seq 0 n)) h).
  { apply (foldM_best (seq 0 n)) with (Q := fun _ => False) (h := @None (pt * pt * nat)); [|intros i x []|exact H]. intros i Hi. apply in_seq in Hi. lia. }
  destruct h as [[[b c] w]|]; cbn [best] in *.
  - destruct K as (A & B & C & D & F & G & H'). do 6 (split; [assumption|]). intros i x Hi. apply H'. right. apply in_seq. lia.
  - intros i x Hi. apply K. right. apply in_seq. lia.
Qed.
(* the tests of the search *)
Lemma dir_inside (u v d w : pt) : vnorm2D (vsub v u) = Ok d ->
  Rltb (vx d * (vy u - vy w) - vy d * (vx u - vx w)) (- (1 / 1000000)) = true <-> eps * edist2 u v < side u v w.
Proof.
  intros H. rewrite Rltb_true. destruct (norm_dir u v d H) as (_ & L & E1 & E2). unfold side. rewrite <- E1, <- E2. set (m := edist2 u v) in *. clearbody m.
  unfold eps. fold (X d) (Y d) (X u) (Y u) (X w) (Y w). replace (X d * m * (Y w - Y u) - Y d * m * (X w - X u)) with (m * - (X d * (Y u - Y w) - Y d * (X u - X w))) by ring.
  split; intros K.
  - rewrite (Rmult_comm _ m). apply Rmult_lt_compat_l; [exact L|lra].
  - rewrite (Rmult_comm _ m) in K. apply Rmult_lt_reg_l in K; [lra|exact L].
Qed.
Lemma insideSearch_R b c ad bd cd p : vnorm2D (vsub b a) = Ok ad -> vnorm2D (vsub c b) = Ok bd -> vnorm2D (vsub a c) = Ok cd ->
  insideSearch a b c ad bd cd p = true <-> deep_inside a b c p.
Proof.
  intros EA EB EC. unfold insideSearch, deep_inside. rn. rewrite !andb_true_iff.
  pose proof (dir_inside a b ad p EA). pose proof (dir_inside b c bd p EB). pose proof (dir_inside c a cd p EC). tauto.
Qed.
Lemma isReflex_R o p q : isReflex o p q = true <-> side o p q < 0.
Proof.
  unfold isReflex. rn. rewrite Rltb_true. fold (X o) (Y o) (X p) (Y p) (X q) (Y q).
  replace ((X p - X o) * (Y q - Y p) - (X q - X p) * (Y p - Y o)) with (side o p q) by (unfold side; ring). tauto.
Qed.
Definition cand b c (i : nat) : Prop := deep_inside a b c (q_ i) /\ side (q_ ((i + n - 1) mod n)) (q_ i) (q_ ((i + 1) mod n)) < 0.
Definition good_state b c w (Q : nat -> Prop) (st : option (@num Rnum) * nat) : Prop := match fst st with
  | None => snd st = w /\ forall i, Q i -> ~ cand b c i
  | Some m => m = sqdist2 a (q_ (snd st)) /\ Q (snd st) /\ cand b c (snd st) /\ forall i, Q i -> cand b c i -> m <= sqdist2 a (q_ i)
  end.
Lemma better_good b c ad bd cd w l : vnorm2D (vsub b a) = Ok ad -> vnorm2D (vsub c b) = Ok bd -> vnorm2D (vsub a c) = Ok cd ->
  forall (Q : nat -> Prop) st, good_state b c w Q st -> good_state b c w (fun k => Q k \/ In k l) (fold_left (betterStep lt_oo pts poly a b c ad bd cd) l st).
Proof.
  intros EA EB EC.
  assert (EXT : forall (P Q : nat -> Prop) st, (forall k, Q k <-> P k) -> good_state b c w P st -> good_state b c w Q st).
  { intros P Q [[m|] v] E; unfold good_state; cbn [fst snd].
    - intros (A & B & C & D). split; [exact A|]. split; [apply E, B|]. split; [exact C|]. intros i Hi. apply D, E, Hi.
    - intros (A & B). split; [exact A|]. intros i Hi. apply B, E, Hi. }
  induction l as [|i l IH]; intros Q st Hs; cbn [fold_left]; [eapply EXT; [|exact Hs]; cbn; tauto|].
  eapply EXT; [|apply (IH (fun k => Q k \/ k = i))]; [cbn; intros k; intuition auto|].
  assert (C : cand b c i \/ ~ cand b c i) by (unfold cand, deep_inside; destruct (Rlt_dec (eps * edist2 a b) (side a b (q_ i))); [|tauto]; destruct (Rlt_dec (eps * edist2 b c) (side b c (q_ i))); [|tauto]; destruct (Rlt_dec (eps * edist2 c a) (side c a (q_ i))); [|tauto]; destruct (Rlt_dec (side (q_ ((i + n - 1) mod n)) (q_ i) (q_ ((i + 1) mod n))) 0); tauto).
  assert (KEEP : ~ cand b c i -> good_state b c w (fun k => Q k \/ k = i) st).
  { intros NC. destruct st as [[m|] v]; unfold good_state in *; cbn [fst snd] in *.
    - destruct Hs as (A & B & D & E). split; [exact A|]. split; [auto|]. split; [exact D|]. intros k [K| ->] CK; [auto|contradiction].
    - destruct Hs as (A & B). split; [exact A|]. intros k [K| ->]; auto. }
  unfold betterStep. pose proof (insideSearch_R b c ad bd cd (q_ i) EA EB EC) as IS.
  destruct (insideSearch a b c ad bd cd (q_ i)); [|apply KEEP; intros [K _]; apply IS in K; discriminate].
  pose proof (isReflex_R (q_ ((i + n - 1) mod n)) (q_ i) (q_ ((i + 1) mod n))) as RS.
  destruct (isReflex _ _ _); [|apply KEEP; intros [_ K]; apply RS in K; discriminate].
  assert (CI : cand b c i) by (split; [apply IS|apply RS]; reflexivity). cbv zeta. rn.
  set (d := (vx (q_ i) - vx a) * (vx (q_ i) - vx a) + (vy (q_ i) - vy a) * (vy (q_ i) - vy a)).
  assert (ED : d = sqdist2 a (q_ i)) by (unfold d, sqdist2, Rsqr, X, Y; ring). clearbody d.
  destruct st as [[m|] v]; unfold good_state in *; cbn [fst snd] in *.
  - destruct Hs as (A & B & D & E). destruct (Rltb d m) eqn:L; cbn [fst snd].
    + apply Rltb_true in L. split; [exact ED|]. split; [auto|]. split; [exact CI|]. intros k [K| ->] CK; [specialize (E k K CK); lra|lra].
    + apply Rltb_false in L. split; [exact A|]. split; [auto|]. split; [exact D|]. intros k [K| ->] CK; [auto|lra].
  - cbn. split; [exact ED|]. split; [auto|]. split; [exact CI|]. destruct Hs as (_ & B). intros k [K| ->] CK; [destruct (B k K CK)|lra].
Qed.
Lemma deep_orient b c p : deep_inside a b c p -> 0 < side a b c.
Proof.
  intros (H1 & H2 & H3). assert (eps > 0) by (unfold eps; lra).
  assert (side a b c = side a b p + side b c p + side c a p) by (unfold side; ring).
  assert (0 <= eps * edist2 a b /\ 0 <= eps * edist2 b c /\ 0 <= eps * edist2 c a) as (? & ? & ?) by (repeat split; apply Rmult_le_pos; try lra; apply edist2_nonneg). lra.
Qed.
Theorem findVisible_choice v : findVisible lt_oo pts poly a = Ok v -> exists b w,
  first_hit pts poly a b w /\ nearest_corner pts poly a b w v.
Proof.
  unfold findVisible. intros H. apply bind_ok in H. destruct H as (h & EH & H). apply castRay_best in EH.
  destruct h as [[[b c] w]|]; [|discriminate]. cbn [best] in EH. destruct EH as (H1 & H2 & H3 & H4 & H5 & H6 & H7).
  exists b, w. split; [unfold first_hit; auto 12|].
  assert (VE : veqb b c = true <-> b = c).
  { unfold veqb. rn. rewrite !andb_true_iff, !Reqb_true. destruct b, c; cbn. split; [intros [[-> ->] ->]; reflexivity|intros E; inversion E; auto]. }
  assert (G : forall b' c' : pt, (forall p, deep_inside a b' c' p <-> deep_inside a b c p \/ deep_inside a c b p) ->
    (aDir <- vnorm2D (vsub b' a) ;; bDir <- vnorm2D (vsub c' b') ;; cDir <- vnorm2D (vsub a c') ;;
      Ok (snd (fold_left (betterStep lt_oo pts poly a b' c' aDir bDir cDir) (seq 0 n) (None, w)))) = Ok v ->
    nearest_corner pts poly a b w v \/ b = c).
  { intros b' c' E H'. apply bind_ok in H'. destruct H' as (ad & EA & H'). apply bind_ok in H'. destruct H' as (bd & EB & H').
    apply bind_ok in H'. destruct H' as (cd & EC & H'). apply Ok_inj in H'.
    pose proof (better_good b' c' ad bd cd w (seq 0 n) EA EB EC (fun _ => False) (None, w)) as B. 
    specialize (B (conj eq_refl (fun _ F => False_ind _ F))).
    set (st := fold_left (betterStep lt_oo pts poly a b' c' ad bd cd) (seq 0 n) (None, w)) in *. clearbody st. cbn [snd] in *.
    destruct (Req_dec (X b) (X c)) as [KX|KX]; [destruct (Req_dec (Y b) (Y c)) as [KY|KY]|].
    1:{ right. assert (KZ : Z b = Z c) by (rewrite H2, H3; symmetry; apply FL). destruct b, c. unfold X, Y, Z in *. cbn in *. subst. reflexivity. }
    all: left; unfold nearest_corner; right; (split; [rewrite <- H3; intros ->; lra|]).
    all: destruct st as [[m|] u]; unfold good_state in B; cbn [fst snd] in *; subst u.
    1,3: right; destruct B as (B1 & B2 & (B3 & B4) & B5); rewrite <- H3; (split; [destruct B2 as [[]|B2]; apply in_seq in B2; split; [lia|]; split; [apply E, B3|exact B4]|]);
         intros i (Hi & Ci & Ri); rewrite <- B1; (apply B5; [right; apply in_seq; lia|split; [apply E, Ci|exact Ri]]).
    all: left; destruct B as (B1 & B2); (split; [exact B1|]); rewrite <- H3; intros i (Hi & Ci & Ri); (apply (B2 i); [right; apply in_seq; lia|split; [apply E, Ci|exact Ri]]). }
  assert (O1 : side a b c = (X b - X a) * (Y c - Y b)) by (unfold side; rewrite H1; ring).
  assert (O2 : side a c b = (X b - X a) * (Y b - Y c)) by (unfold side; rewrite H1; ring).
  destruct (veqb b c) eqn:V.
  - left. apply Ok_inj in H. subst v. split; [rewrite <- H3; apply VE; reflexivity|reflexivity].
  - assert (NB : b <> c) by (intros K; apply VE in K; discriminate).
    destruct ((vy c <? vy b)%num) eqn:S; rn; [apply Rltb_true in S|apply Rltb_false in S]; fold (Y b) (Y c) in S.
    + destruct (G c b) as [K|K]; [|exact H|exact K|contradiction]. intros p. split; [auto|]. intros [D|D]; [|exact D]. apply deep_orient in D. rewrite O1 in D. exfalso. nra.
    + destruct (G b c) as [K|K]; [|exact H|exact K|contradiction]. intros p. split; [auto|]. intros [D|D]; [exact D|]. apply deep_orient in D. rewrite O2 in D. exfalso. nra.
Qed.
End Bridge.
