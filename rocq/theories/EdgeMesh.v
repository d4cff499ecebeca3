(** Boundary laws of Edge.meshPairwise and Edge.meshParallel, for arbitrary
    number operations. *)
From Coq Require Import ZArith List Bool Arith Lia.
From Verif Require Import Num GeoModel EdgeModel EdgeSpec.
Import ListNotations.

Section Mesh.
Context {N : Num}.

Notation tip := stop.

Lemma outline_len l cl : l <> [] -> (length (outline l cl) = length l + (if cl then 1 else 0))%nat.
Proof. intros H. destruct l as [|a l]; [contradiction|]. destruct cl; cbn; rewrite ?app_length; cbn; lia. Qed.

Lemma ept_tip l cl d i : l <> [] -> ept l cl i = Ok (tip l cl d i).
Proof.
  intros H. unfold ept, stop. rewrite outline_len by exact H. unfold endIdx.
  destruct l as [|a l]; [contradiction|]. cbn [length]. set (n := S (length l)).
  assert (L : length (a :: l) = n) by reflexivity.
  set (k := Nat.min (n + (if cl then 1 else 0) - 1) i).
  assert (K : (k <= n + (if cl then 1 else 0) - 1)%nat) by (unfold k; lia).
  destruct cl; cbn [outline].
  - destruct (Nat.eq_dec k n) as [E|E].
    + rewrite E. rewrite Nat.mod_same by (unfold n; lia). cbn [nth_error].
      rewrite app_nth2 by (rewrite L; lia). rewrite L, Nat.sub_diag. reflexivity.
    + rewrite Nat.mod_small by lia. rewrite app_nth1 by (rewrite L; lia).
      destruct (nth_error (a :: l) k) eqn:F.
      * f_equal. symmetry. apply nth_error_nth. exact F.
      * apply nth_error_None in F. rewrite L in F. lia.
  - rewrite Nat.mod_small by lia. destruct (nth_error (a :: l) k) eqn:F.
    + f_equal. symmetry. apply nth_error_nth. exact F.
    + apply nth_error_None in F. rewrite L in F. lia.
Qed.

Open Scope Z_scope.
(* walking along the clamped indices 0..n-1 *)
Definition wsum (f : weight) (g : nat -> vec) (n : nat) : Z := fold_right (fun i s => f (g i) (g (S i)) + s) 0 (seq 0 n).
Lemma wsum_S f g n : wsum f g (S n) = wsum f g n + f (g n) (g (S n)).
Proof.
  unfold wsum. rewrite seq_S. cbn [Nat.add]. rewrite fold_right_app. cbn.
  generalize (f (g n) (g (S n))). induction (seq 0 n) as [|x l IH]; intros z; cbn; [lia|]. rewrite IH. lia.
Qed.
Lemma walk_nth f d l n : (n + 1 <= length l)%nat -> wsum f (fun i => nth i l d) n = walk f (firstn (S n) l).
Proof.
  induction n as [|n IH]; intros H.
  - destruct l as [|a l]; [cbn in H; lia|]. reflexivity.
  - rewrite wsum_S, IH by lia.
    assert (E : firstn (S (S n)) l = firstn n l ++ [nth n l d; nth (S n) l d]).
    { clear IH. revert l H. induction n as [|n IH]; intros l H.
      - destruct l as [|a [|b l]]; cbn in *; try lia. reflexivity.
      - destruct l as [|a l]; [cbn in H; lia|]. cbn [firstn app nth].
        f_equal. apply IH. cbn in H. lia. }
    assert (E' : firstn (S n) l = firstn n l ++ [nth n l d]).
    { clear IH E. revert l H. induction n as [|n IH]; intros l H.
      - destruct l as [|a [|b l]]; cbn in *; try lia. reflexivity.
      - destruct l as [|a l]; [cbn in H; lia|]. cbn [firstn app nth].
        f_equal. apply IH. cbn in H. lia. }
    rewrite E, E'. rewrite (walk_app f (firstn n l) (nth n l d) [nth (S n) l d]). cbn. lia.
Qed.
Lemma wsum_tip f l cl d n : is_weight f -> l <> [] -> (endIdx l cl <= n)%nat ->
  wsum f (tip l cl d) n = walk f (outline l cl).
Proof.
  intros W H Hn. pose proof (outline_len l cl H) as OL.
  assert (E0 : endIdx l cl = (length (outline l cl) - 1)%nat) by (rewrite OL; reflexivity).
  assert (NZ : (1 <= length (outline l cl))%nat) by (rewrite OL; destruct l; [contradiction|cbn; lia]).
  rewrite E0 in Hn. induction n as [|n IH].
  - assert (length (outline l cl) = 1)%nat by lia.
    destruct (outline l cl) as [|x [|y r]]; cbn in *; try lia.
  - destruct (Nat.eq_dec (S n) (length (outline l cl) - 1)) as [E|E].
    + rewrite <- (firstn_all2 (n := S (S n)) (outline l cl)) by lia.
      rewrite <- (walk_nth f d) by lia. unfold wsum.
      assert (G : forall k, (k <= S n)%nat -> tip l cl d k = nth k (outline l cl) d).
      { intros k Hk. unfold stop. rewrite Nat.min_r by lia. reflexivity. }
      assert (GG : forall ll, (forall x, In x ll -> (x < S n)%nat) ->
         fold_right (fun i s => f (tip l cl d i) (tip l cl d (S i)) + s) 0 ll =
         fold_right (fun i s => f (nth i (outline l cl) d) (nth (S i) (outline l cl) d) + s) 0 ll).
      { induction ll as [|x ll IHl]; intros Hx; cbn; [reflexivity|].
        rewrite IHl by (intros; apply Hx; right; assumption).
        specialize (Hx x (or_introl eq_refl)). rewrite (G x), (G (S x)) by lia. reflexivity. }
      apply GG. intros x Hx. apply in_seq in Hx. lia.
    + rewrite wsum_S, IH by lia. 
      replace (tip l cl d (S n)) with (tip l cl d n) by (unfold stop; rewrite !Nat.min_l by lia; reflexivity).
      rewrite weight_diag by exact W. lia.
Qed.

(** ** one quad *)
Lemma same_w f p q : is_weight f -> same p q -> forall u, f p u = f q u.
Proof. intros [A B] [->|E] u; [reflexivity|apply B; exact E]. Qed.

Ltac use_same W := repeat match goal with
  | H : same ?p ?q |- _ => pose proof (same_w _ _ _ W H); clear H end.

Lemma meshQuad_flux f a b c d ts : is_weight f -> clean_quad a b c d -> meshQuad a b c d = Ok ts ->
  flux f ts = f a b + f b c + f c d + f d a.
Proof.
  intros W C H. unfold meshQuad in H.
  apply bind_ok in H. destruct H as (v8 & E8 & H). apply bind_ok in H. destruct H as (v4 & E4 & H).
  apply bind_ok in H. destruct H as (v2 & E2 & H). apply bind_ok in H. destruct H as (v1 & E1 & H).
  unfold clean_quad, solid_quad, flat_quad in C. cbv zeta in C. rewrite E8, E4, E2, E1 in C.
  apply bind_ok in H. destruct H as (bits & Hb & H).
  pose proof (proj1 W) as A.
  pose proof (A a b); pose proof (A a c); pose proof (A a d); pose proof (A b c); pose proof (A b d); pose proof (A c d).
  pose proof (weight_diag f a W); pose proof (weight_diag f b W); pose proof (weight_diag f c W); pose proof (weight_diag f d W).
  destruct (all_valid v8 v4 v2 v1) eqn:AV.
  { apply bind_ok in Hb. destruct Hb as (x & _ & Hb). apply bind_ok in Hb. destruct Hb as (y & _ & Hb). injection Hb as <-.
    unfold all_valid in AV. destruct v8, v4, v2, v1; try discriminate AV. clear C.
    destruct (nltb _ _); injection H as <-; cbn; unfold circ; cbn; lia. }
  injection Hb as <-.
  assert (SP : forall p q, same p q -> f p a = f q a /\ f p b = f q b /\ f p c = f q c /\ f p d = f q d)
    by (intros p q Hs; repeat split; apply (same_w f p q W Hs)).
  assert (NT : forall r : Prop, (Ok false = Ok true \/ r) -> r) by (intros r [K|K]; [discriminate|exact K]).
  destruct C as [C|[(F8 & F4 & F2 & F1 & C)|(C1 & C2 & C3 & C4)]].
  all: cycle 1.
  { injection F8 as ->. injection F4 as ->. injection F2 as ->. injection F1 as ->. cbn in H. injection H as <-. cbn.
    destruct C as [C|C]; apply SP in C; lia. }
  all: cycle 1.
  { destruct v8, v4, v2, v1; try discriminate AV; cbn in H; injection H as <-; cbn; unfold circ; cbn; try lia;
      exfalso; clear -C; intuition discriminate. }
  destruct v8, v4, v2, v1; try discriminate AV; cbn in H; injection H as <-; cbn; unfold circ; cbn;
    try (apply NT in C1); try (apply NT in C2); try (apply NT in C3); try (apply NT in C4); try lia;
    repeat match goal with
    | K : Ok true = Ok true \/ _ |- _ => clear K
    | K : same _ _ \/ same _ _ |- _ => destruct K as [K|K]; apply SP in K
    end; lia.
Qed.

(** ** meshPairwise *)
Lemma mapM_seq_flux f (g : nat -> res (list tri)) (h : nat -> Z) n ls :
  mapM g (seq 0 n) = Ok ls -> (forall i ts, (i < n)%nat -> g i = Ok ts -> flux f ts = h i) ->
  flux f (concat ls) = fold_right (fun i s => h i + s) 0 (seq 0 n).
Proof.
  intros H Hg. apply mapM_ok in H. rewrite flux_concat.
  assert (Hs : forall x, In x (seq 0 n) -> (x < n)%nat) by (intros x Hx; apply in_seq in Hx; lia).
  revert Hs. induction H as [|x y l l' Hxy Hl IH]; intros Hs; cbn; [reflexivity|].
  rewrite IH by (intros; apply Hs; right; assumption).
  rewrite (Hg x y) by (auto; apply Hs; left; reflexivity). reflexivity.
Qed.

Lemma quads_telescope f p q n : is_weight f ->
  fold_right (fun i s => (f (p i) (p (S i)) + f (p (S i)) (q (S i)) + f (q (S i)) (q i) + f (q i) (p i)) + s) 0 (seq 0 n) =
  wsum f p n - wsum f q n + f (p n) (q n) - f (p O) (q O).
Proof.
  intros [A _]. assert (G : forall (h : nat -> Z) n, fold_right (fun i s => h i + s) 0 (seq 0 (S n)) = fold_right (fun i s => h i + s) 0 (seq 0 n) + h n).
  { intros h m. rewrite seq_S. cbn [Nat.add]. rewrite fold_right_app. cbn. generalize (h m).
    induction (seq 0 m) as [|x l IH]; intros z; cbn; [lia|]. rewrite IH. lia. }
  induction n as [|n IH]; [cbn; lia|].
  rewrite (G (fun i => f (p i) (p (S i)) + f (p (S i)) (q (S i)) + f (q (S i)) (q i) + f (q i) (p i))), IH, !wsum_S.
  rewrite (A (q (S n)) (q n)), (A (q n) (p n)). lia.
Qed.

Lemma tip_end l cl d n : l <> [] -> (endIdx l cl <= n)%nat -> tip l cl d n = last (outline l cl) d.
Proof.
  intros H Hn. unfold stop. pose proof (outline_len l cl H) as OL. unfold endIdx in Hn. rewrite Nat.min_l by lia.
  generalize (outline l cl). intros x. clear. induction x as [|a x IH]; [reflexivity|].
  destruct x as [|b x]; [reflexivity|]. cbn [length]. replace (S (S (length x)) - 1)%nat with (S (S (length x) - 1)) by lia.
  cbn [nth]. exact IH.
Qed.
Lemma tip_0 l cl d : l <> [] -> tip l cl d 0 = hd d l.
Proof. intros H. unfold stop. rewrite Nat.min_0_r. destruct l; [contradiction|]. destruct cl; reflexivity. Qed.

Theorem pairwise_flux f s o cl d ts : is_weight f -> s <> [] -> o <> [] -> clean_strip s o cl d ->
  meshPairwise s o cl = Ok ts ->
  flux f ts = walk f (outline s cl) - walk f (outline o cl)
              + f (last (outline s cl) d) (last (outline o cl) d) - f (hd d s) (hd d o).
Proof.
  intros W Hs Ho C H. unfold meshPairwise in H. apply bind_ok in H. destruct H as (ls & Hl & H). injection H as <-.
  set (n := Nat.max (endIdx o cl) (endIdx s cl)) in *.
  rewrite (mapM_seq_flux f _ (fun i => f (tip s cl d i) (tip s cl d (S i)) + f (tip s cl d (S i)) (tip o cl d (S i)) +
      f (tip o cl d (S i)) (tip o cl d i) + f (tip o cl d i) (tip s cl d i)) n ls Hl).
  - rewrite quads_telescope by exact W. rewrite !wsum_tip by (auto; unfold n; lia).
    rewrite (tip_end s cl d n), (tip_end o cl d n) by (auto; unfold n; lia). rewrite !tip_0 by assumption. reflexivity.
  - intros i t Hi Hq. unfold quadAt in Hq. rewrite !(ept_tip s cl d), !(ept_tip o cl d) in Hq by assumption.
    cbn [bind] in Hq. apply meshQuad_flux; auto.
Qed.

(** ** meshParallel *)
Lemma parallel_inv f s o cl d : is_weight f -> s <> [] -> o <> [] -> forall fuel i j out ts,
  (i <= endIdx s cl)%nat -> (j <= endIdx o cl)%nat ->
  flux f out = wsum f (tip s cl d) i - wsum f (tip o cl d) j + f (tip s cl d i) (tip o cl d j) - f (hd d s) (hd d o) ->
  length out = (i + j)%nat ->
  parallelLoop fuel s o cl i j out = Ok ts ->
  flux f ts = wsum f (tip s cl d) (endIdx s cl) - wsum f (tip o cl d) (endIdx o cl) +
     f (tip s cl d (endIdx s cl)) (tip o cl d (endIdx o cl)) - f (hd d s) (hd d o) /\
  length ts = (endIdx s cl + endIdx o cl)%nat.
Proof.
  intros W Hs Ho. pose proof (proj1 W) as A. induction fuel as [|fuel IH]; intros i j out ts Hi Hj F L H; cbn [parallelLoop] in H;
  (destruct ((i <? endIdx s cl)%nat || (j <? endIdx o cl)%nat) eqn:E;
   [|injection H as <-; apply orb_false_iff in E; destruct E as [E1 E2]; apply Nat.ltb_ge in E1; apply Nat.ltb_ge in E2;
     assert (i = endIdx s cl) by lia; assert (j = endIdx o cl) by lia; subst i j; rewrite flux_rev, rev_length; auto]).
  - discriminate.
  - rewrite !(ept_tip s cl d), !(ept_tip o cl d) in H by assumption. cbn [bind] in H.
    assert (ADV1 : (i < endIdx s cl)%nat -> flux f (mkTri (tip s cl d i) (tip s cl d (S i)) (tip o cl d j) :: out) =
        wsum f (tip s cl d) (S i) - wsum f (tip o cl d) j + f (tip s cl d (S i)) (tip o cl d j) - f (hd d s) (hd d o)).
    { intros _. cbn [flux fold_right]. fold (flux f out). rewrite F, wsum_S. unfold circ. cbn [ta tb tc].
      rewrite (A (tip o cl d j) (tip s cl d i)). lia. }
    assert (ADV2 : (j < endIdx o cl)%nat -> flux f (mkTri (tip s cl d i) (tip o cl d (S j)) (tip o cl d j) :: out) =
        wsum f (tip s cl d) i - wsum f (tip o cl d) (S j) + f (tip s cl d i) (tip o cl d (S j)) - f (hd d s) (hd d o)).
    { intros _. cbn [flux fold_right]. fold (flux f out). rewrite F, wsum_S. unfold circ. cbn [ta tb tc].
      rewrite (A (tip o cl d j) (tip s cl d i)), (A (tip o cl d (S j)) (tip o cl d j)). lia. }
    destruct (endIdx s cl <=? i)%nat eqn:E1.
    { apply Nat.leb_le in E1. apply orb_true_iff in E. destruct E as [E|E]; apply Nat.ltb_lt in E; [lia|].
      eapply IH; [| | |  |exact H]; [lia|lia|apply ADV2; lia|cbn; lia]. }
    apply Nat.leb_gt in E1. destruct (endIdx o cl <=? j)%nat eqn:E2.
    { apply Nat.leb_le in E2. eapply IH; [| | |  |exact H]; [lia|lia|apply ADV1; lia|cbn; lia]. }
    apply Nat.leb_gt in E2. apply bind_ok in H. destruct H as (ch & _ & H). destruct ch.
    + eapply IH; [| | |  |exact H]; [lia|lia|apply ADV1; lia|cbn; lia].
    + eapply IH; [| | |  |exact H]; [lia|lia|apply ADV2; lia|cbn; lia].
Qed.

(* the loop never runs out of fuel: the only way to fail is an exception of the choice *)
Lemma parallel_fuel s o cl : s <> [] -> o <> [] -> forall fuel i j out e,
  (i <= endIdx s cl)%nat -> (j <= endIdx o cl)%nat -> (endIdx s cl - i + (endIdx o cl - j) <= fuel)%nat ->
  parallelLoop fuel s o cl i j out = Err e ->
  exists prev t1 t2, parallelChoice prev t1 t2 = Err e.
Proof.
  intros Hs Ho. destruct s as [|d s0]; [contradiction|]. set (s := d :: s0) in *.
  induction fuel as [|fuel IH]; intros i j out e Hi Hj Hf H; cbn [parallelLoop] in H;
  (destruct ((i <? endIdx s cl)%nat || (j <? endIdx o cl)%nat) eqn:E; [|discriminate]).
  - exfalso. apply orb_true_iff in E. destruct E as [E|E]; apply Nat.ltb_lt in E; lia.
  - rewrite !(ept_tip s cl d), !(ept_tip o cl d) in H by assumption. cbn [bind] in H.
    destruct (endIdx s cl <=? i)%nat eqn:E1.
    { apply Nat.leb_le in E1. apply orb_true_iff in E. destruct E as [E|E]; apply Nat.ltb_lt in E; [lia|].
      eapply IH; [| | |exact H]; lia. }
    apply Nat.leb_gt in E1. destruct (endIdx o cl <=? j)%nat eqn:E2.
    { apply Nat.leb_le in E2. eapply IH; [| | |exact H]; lia. }
    apply Nat.leb_gt in E2. unfold bind at 1 in H.
    destruct (parallelChoice _ _ _) as [ch|e'] eqn:EC.
    + destruct ch; (eapply IH; [| | |exact H]; lia).
    + injection H as <-. eauto.
Qed.

Theorem parallel_flux f s o cl d ts : is_weight f -> s <> [] -> o <> [] -> meshParallel s o cl = Ok ts ->
  flux f ts = walk f (outline s cl) - walk f (outline o cl)
              + f (last (outline s cl) d) (last (outline o cl) d) - f (hd d s) (hd d o) /\
  length ts = (endIdx s cl + endIdx o cl)%nat.
Proof.
  intros W Hs Ho H. unfold meshParallel in H.
  pose proof (parallel_inv f s o cl d W Hs Ho (endIdx s cl + endIdx o cl)%nat 0%nat 0%nat [] ts (Nat.le_0_l _) (Nat.le_0_l _)) as K.
  destruct K as [F L].
  - unfold flux, wsum. cbn [fold_right seq]. rewrite !tip_0 by assumption. lia.
  - reflexivity.
  - exact H.
  - rewrite F, L. rewrite !wsum_tip, !tip_end by (auto; lia). auto.
Qed.

(** ** vertices *)
Lemma ept_in l cl i v : ept l cl i = Ok v -> In v l.
Proof.
  unfold ept. destruct (length l); [discriminate|]. destruct (nth_error l _) eqn:E; [|discriminate].
  intros H. injection H as <-. eapply nth_error_In; eauto.
Qed.
Lemma pairwise_vertices s o cl ts : meshPairwise s o cl = Ok ts ->
  forall t, In t ts -> forall v, In v (corners t) -> In v s \/ In v o.
Proof.
  intros H t Ht v Hv. unfold meshPairwise in H. apply bind_ok in H. destruct H as (ls & Hl & H). injection H as <-.
  apply mapM_ok in Hl. apply in_concat in Ht. destruct Ht as (l & Hl1 & Hl2).
  assert (exists i, quadAt s o cl i = Ok l) as (i & Hq).
  { clear - Hl Hl1. induction Hl as [|x y a b Hxy _ IH]; [destruct Hl1|]. destruct Hl1 as [->|Hl1]; eauto. }
  unfold quadAt in Hq. do 4 (apply bind_ok in Hq; destruct Hq as (? & ? & Hq)).
  unfold meshQuad in Hq. do 4 (apply bind_ok in Hq; destruct Hq as (? & _ & Hq)).
  apply bind_ok in Hq. destruct Hq as ([[[b1 b2] b3] b4] & _ & Hq). injection Hq as <-.
  repeat match goal with K : ept _ _ _ = Ok _ |- _ => apply ept_in in K end.
  rewrite !in_app_iff in Hl2.
  destruct Hl2 as [Hl2|[Hl2|[Hl2|Hl2]]]; [destruct b1|destruct b2|destruct b3|destruct b4];
    cbn in Hl2; try contradiction; destruct Hl2 as [<-|[]]; cbn in Hv; intuition (subst; auto).
Qed.
Lemma parallel_vertices s o cl : forall fuel i j out ts,
  (forall t, In t out -> forall v, In v (corners t) -> In v s \/ In v o) ->
  parallelLoop fuel s o cl i j out = Ok ts ->
  forall t, In t ts -> forall v, In v (corners t) -> In v s \/ In v o.
Proof.
  induction fuel as [|fuel IH]; intros i j out ts HO H; cbn [parallelLoop] in H;
  (destruct ((i <? endIdx s cl)%nat || (j <? endIdx o cl)%nat) eqn:E;
   [|injection H as <-; intros t Ht; apply in_rev in Ht; apply HO; exact Ht]).
  - discriminate.
  - apply bind_ok in H. destruct H as (a & Ha & H). apply bind_ok in H. destruct H as (b & Hb & H).
    apply bind_ok in H. destruct H as (c & Hc & H). apply bind_ok in H. destruct H as (d & Hd & H).
    apply ept_in in Ha. apply ept_in in Hb. apply ept_in in Hc. apply ept_in in Hd.
    assert (O1 : forall t, In t (mkTri a b d :: out) -> forall v, In v (corners t) -> In v s \/ In v o).
    { intros t [<-|Ht]; [|apply HO; exact Ht]. cbn. intuition (subst; auto). }
    assert (O2 : forall t, In t (mkTri a c d :: out) -> forall v, In v (corners t) -> In v s \/ In v o).
    { intros t [<-|Ht]; [|apply HO; exact Ht]. cbn. intuition (subst; auto). }
    destruct (endIdx s cl <=? i)%nat; [eapply IH; [exact O2|exact H]|].
    destruct (endIdx o cl <=? j)%nat; [eapply IH; [exact O1|exact H]|].
    apply bind_ok in H. destruct H as (ch & _ & H). destruct ch; eapply IH; [exact O1|exact H|exact O2|exact H].
Qed.
(** ** boundary as paths *)
Lemma outline_nil l cl : l <> [] -> outline l cl <> [].
Proof. intros H E. apply H. destruct l; [reflexivity|]. destruct cl; discriminate E. Qed.
Lemma outline_hd (d : vec) l cl : l <> [] -> hd d (outline l cl) = hd d l.
Proof. destruct l; [contradiction|]. destruct cl; reflexivity. Qed.
Lemma loop_walk f s o cl d : is_weight f -> s <> [] -> o <> [] ->
  walk f (outline s cl) - walk f (outline o cl)
    + f (last (outline s cl) d) (last (outline o cl) d) - f (hd d s) (hd d o) =
  walk f (outline s cl ++ rev (outline o cl) ++ [hd d s]).
Proof.
  intros W Hs Ho. pose proof (outline_nil s cl Hs) as Ns. pose proof (outline_nil o cl Ho) as No.
  assert (Nr : rev (outline o cl) <> []).
  { intros E. apply (f_equal (@length vec)) in E. rewrite rev_length in E. destruct (outline o cl); [contradiction|discriminate]. }
  rewrite (walk_join f d (outline s cl)) by (auto; destruct (rev (outline o cl)); discriminate).
  rewrite (walk_join f d (rev (outline o cl)) [hd d s]) by (auto; discriminate).
  rewrite walk_rev by exact W. rewrite last_rev.
  replace (hd d (rev (outline o cl) ++ [hd d s])) with (hd d (rev (outline o cl))) by (destruct (rev (outline o cl)); [contradiction|reflexivity]).
  rewrite hd_rev, outline_hd by exact Ho. cbn [hd walk]. rewrite (proj1 W (hd d o) (hd d s)). lia.
Qed.
Lemma closed_walk f s o d : is_weight f -> s <> [] -> o <> [] ->
  walk f (outline s true) - walk f (outline o true)
    + f (last (outline s true) d) (last (outline o true) d) - f (hd d s) (hd d o) =
  walk f (s ++ [hd d s]) + walk f (rev (o ++ [hd d o])).
Proof.
  intros W Hs Ho. rewrite walk_rev by exact W.
  assert (E : forall l, l <> [] -> outline l true = l ++ [hd d l]) by (intros [|a l] H; [contradiction|reflexivity]).
  rewrite !E by assumption. rewrite !last_last. lia.
Qed.

(** ** no degenerate triangles *)
Lemma meshQuad_valid a b c d ts : meshQuad a b c d = Ok ts ->
  (forall t, In t ts -> tbool t = Ok true) /\ (length ts <= 2)%nat.
Proof.
  intros H. unfold meshQuad in H.
  apply bind_ok in H. destruct H as (v8 & E8 & H). apply bind_ok in H. destruct H as (v4 & E4 & H).
  apply bind_ok in H. destruct H as (v2 & E2 & H). apply bind_ok in H. destruct H as (v1 & E1 & H).
  apply bind_ok in H. destruct H as (bits & Hb & H).
  assert (K : bits = quad_table v8 v4 v2 v1 \/ bits = (false, false, true, true) /\ v8 = true /\ v4 = true).
  { unfold all_valid in Hb. destruct v8, v4, v2, v1; cbn [andb] in Hb; try (injection Hb as <-; auto; fail).
    apply bind_ok in Hb. destruct Hb as (x & _ & Hb). apply bind_ok in Hb. destruct Hb as (y & _ & Hb). injection Hb as <-.
    destruct (nltb _ _); auto. }
  destruct K as [->|(-> & -> & ->)].
  - destruct v8, v4, v2, v1; cbn in H; injection H as <-; cbn; (split; [|lia]); intros t Ht;
      repeat (destruct Ht as [<-|Ht]; [assumption|]); contradiction.
  - cbn in H. injection H as <-. cbn. split; [|lia]. intros t [<-|[<-|[]]]; assumption.
Qed.
Lemma concat_bound (ls : list (list tri)) : (forall l, In l ls -> (length l <= 2)%nat) -> (length (concat ls) <= 2 * length ls)%nat.
Proof.
  induction ls as [|l ls IH]; intros H; cbn; [lia|]. rewrite app_length.
  specialize (IH (fun x Hx => H x (or_intror Hx))). specialize (H l (or_introl eq_refl)). lia.
Qed.
Lemma pairwise_valid s o cl ts : meshPairwise s o cl = Ok ts ->
  (forall t, In t ts -> tbool t = Ok true) /\ (length ts <= 2 * Nat.max (endIdx o cl) (endIdx s cl))%nat.
Proof.
  intros H. unfold meshPairwise in H. apply bind_ok in H. destruct H as (ls & Hl & H). injection H as <-.
  apply mapM_ok in Hl.
  assert (Q : forall l, In l ls -> exists i, quadAt s o cl i = Ok l).
  { clear - Hl. induction Hl as [|x y a b Hxy _ IH]; [intros l []|]. intros l [<-|Hl]; eauto. }
  assert (G : forall l, In l ls -> (forall t, In t l -> tbool t = Ok true) /\ (length l <= 2)%nat).
  { intros l Hin. destruct (Q l Hin) as (i & Hq). unfold quadAt in Hq.
    do 4 (apply bind_ok in Hq; destruct Hq as (? & _ & Hq)). eapply meshQuad_valid. exact Hq. }
  split.
  - intros t Ht. apply in_concat in Ht. destruct Ht as (l & H1 & H2). exact (proj1 (G l H1) t H2).
  - assert (L : length (seq 0 (Nat.max (endIdx o cl) (endIdx s cl))) = length ls) by (clear - Hl; induction Hl; cbn; congruence).
    rewrite seq_length in L. rewrite L. apply concat_bound. intros l Hin. apply (G l Hin).
Qed.
End Mesh.
