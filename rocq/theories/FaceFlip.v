(** Edge flipping: invariants that hold for every arithmetic and every order of
    the work set. *)
From Coq Require Import List Arith Permutation Lia Bool.
From Verif Require Import Num GeoModel EdgeModel FaceModel FaceSpec FaceComb FaceCut.
Import ListNotations.
Open Scope nat_scope.

Definition distinct3 (t : nat * nat * nat) : Prop := let '(a, b, c) := t in a <> b /\ b <> c /\ a <> c.

Section Flip.
Context {N : Num}.
Variable points : list vec.
Definition NT : itri := (0, 0, 0).

Lemma keqb_spec k l : reflect (k = l) (keqb k l).
Proof.
  unfold keqb. destruct k as [a b], l as [c d]. cbn. destruct (Nat.eqb_spec a c), (Nat.eqb_spec b d); cbn; constructor; congruence.
Qed.
Lemma dset_get d k t l : dset d k t l = if keqb k l then Some t else d l.
Proof. reflexivity. Qed.
Lemma ddel_get d k l : ddel d k l = if keqb k l then None else d l.
Proof. reflexivity. Qed.

(* one triangle seen from its side (a, b) *)
Lemma tri_view t a b : distinct3 t -> In (a, b) (tri_sides t) -> exists c i j,
  a <> b /\ b <> c /\ a <> c /\
  t3index t a = Ok i /\ t3prev t i = c /\ t3index t b = Ok j /\
  Permutation (tri_sides t) [(a, b); (b, c); (c, a)] /\ Permutation (tri_verts t) [a; b; c] /\
  (forall d, Permutation (tri_sides (t3set t j d)) [(a, d); (d, c); (c, a)] /\ Permutation (tri_verts (t3set t j d)) [a; d; c]).
Proof.
  assert (R3 : forall (T : Type) (x y z : T), Permutation [x; y; z] [y; z; x]).
  { intros T x y z. apply (Permutation_app_comm [x] [y; z]). }
  destruct t as [[x y] z]. intros (D1 & D2 & D3) H. cbn in H.
  destruct H as [H|[H|[H|[]]]]; injection H as <- <-.
  - exists z, 0, 1. cbn. rewrite Nat.eqb_refl. rewrite (proj2 (Nat.eqb_neq x y) D1), Nat.eqb_refl. do 6 (split; [auto|]). 
    split; [reflexivity|]. split; [reflexivity|]. intros d; split; reflexivity.
  - exists x, 1, 2. cbn. rewrite (proj2 (Nat.eqb_neq x y) D1), Nat.eqb_refl, (proj2 (Nat.eqb_neq x z) D3), (proj2 (Nat.eqb_neq y z) D2), Nat.eqb_refl.
    do 6 (split; [auto|]). split; [apply R3|]. split; [apply R3|]. intros d; split; apply R3.
  - exists y, 2, 0. cbn. rewrite (proj2 (Nat.eqb_neq x z) D3), (proj2 (Nat.eqb_neq y z) D2), !Nat.eqb_refl.
    do 6 (split; [auto|]). split; [symmetry; apply R3|]. split; [symmetry; apply R3|]. intros d; split; symmetry; apply R3.
Qed.

Definition sound (st : fstate) : Prop :=
  (forall t, In t (ftris st) -> distinct3 t) /\
  (forall k i, flookup st k = Some i -> i < length (ftris st) /\ In k (tri_sides (nth i (ftris st) NT))).

Lemma distinct_perm t a b c : Permutation (tri_verts t) [a; b; c] -> a <> b -> b <> c -> a <> c -> distinct3 t.
Proof.
  intros H A B C. destruct t as [[x y] z]. assert (ND : NoDup [x; y; z]).
  { apply (Permutation_NoDup (l := [a; b; c])); [symmetry; exact H|]. repeat constructor; cbn; intuition. }
  inversion ND as [|? ? N1 ND1]; subst. inversion ND1 as [|? ? N2 ND2]; subst. cbn in N1, N2. cbn. intuition.
Qed.
Lemma mesh_upd ts i t : i < length ts -> Permutation (mesh_sides (upd ts i t) ++ tri_sides (nth i ts NT)) (mesh_sides ts ++ tri_sides t).
Proof.
  revert i; induction ts as [|u ts IH]; intros i L; [cbn in L; lia|]. destruct i as [|i].
  - cbn [upd nth]. change (mesh_sides (t :: ts)) with (tri_sides t ++ mesh_sides ts). change (mesh_sides (u :: ts)) with (tri_sides u ++ mesh_sides ts).
    rewrite (Permutation_app_comm (tri_sides t ++ mesh_sides ts)), (Permutation_app_comm (tri_sides u ++ mesh_sides ts)).
    rewrite !app_assoc. apply Permutation_app_tail, Permutation_app_comm.
  - cbn [upd nth]. change (mesh_sides (u :: upd ts i t)) with (tri_sides u ++ mesh_sides (upd ts i t)). change (mesh_sides (u :: ts)) with (tri_sides u ++ mesh_sides ts).
    rewrite <- !app_assoc. apply Permutation_app_head, IH. cbn in L. lia.
Qed.

(* what one step does *)
Inductive effect (k : key) (st st' : fstate) : Prop :=
| EKeep : ftris st' = ftris st -> (forall l, flookup st' l = flookup st l) -> frem st' = sremove k (frem st) ->
    (forall i0 i1, flookup st k = Some i0 -> flookup st (back k) = Some i1 ->
       exists c d, In (snd k, c) (tri_sides (nth i0 (ftris st) NT)) /\ In (c, fst k) (tri_sides (nth i0 (ftris st) NT)) /\
         In (d, snd k) (tri_sides (nth i1 (ftris st) NT)) /\ In (fst k, d) (tri_sides (nth i1 (ftris st) NT)) /\
         isDelaunay points (fst k) (snd k) c d = true) -> effect k st st'
| EFlip a b c d i0 i1 t0 t1 : k = (a, b) -> flookup st (a, b) = Some i0 -> flookup st (b, a) = Some i1 -> i0 <> i1 ->
    i0 < length (ftris st) -> i1 < length (ftris st) ->
    a <> b -> b <> c -> a <> c -> a <> d -> b <> d ->
    Permutation (tri_sides (nth i0 (ftris st) NT)) [(a, b); (b, c); (c, a)] ->
    Permutation (tri_sides (nth i1 (ftris st) NT)) [(b, a); (a, d); (d, b)] ->
    isDelaunay points a b c d = false ->
    Permutation (tri_sides t0) [(a, d); (d, c); (c, a)] -> Permutation (tri_verts t0) [a; d; c] ->
    Permutation (tri_sides t1) [(b, c); (c, d); (d, b)] -> Permutation (tri_verts t1) [b; c; d] ->
    ftris st' = upd (upd (ftris st) i0 t0) i1 t1 ->
    (forall l, flookup st' l =
      if keqb (b, c) l then Some i1 else if keqb (d, b) l then Some i1 else if keqb (c, d) l then Some i1 else
      if keqb (a, d) l then Some i0 else if keqb (c, a) l then Some i0 else if keqb (d, c) l then Some i0 else
      if keqb (b, a) l then None else if keqb (a, b) l then None else flookup st l) ->
    frem st' = sadd (b, c) (sadd (d, b) (sadd (a, d) (sadd (c, a) (sremove k (frem st))))) -> effect k st st'.

Lemma flipStep_effect st k : sound st -> exists st', flipStep points k st = Ok st' /\ effect k st st'.
Proof.
  intros [DT LS]. destruct k as [a b]. unfold flipStep.
  destruct (flookup st (a, b)) as [i0|] eqn:L0.
  2:{ eexists. split; [reflexivity|]. apply EKeep; cbn; auto. rewrite L0. discriminate. }
  destruct (flookup st (b, a)) as [i1|] eqn:L1.
  2:{ eexists. split; [reflexivity|]. apply EKeep; cbn; auto. intros i0' i1'. unfold back. cbn. rewrite L1. discriminate. }
  destruct (LS _ _ L0) as [B0 S0]. destruct (LS _ _ L1) as [B1 S1].
  assert (D0 : distinct3 (nth i0 (ftris st) NT)) by (apply DT, nth_In, B0).
  assert (D1 : distinct3 (nth i1 (ftris st) NT)) by (apply DT, nth_In, B1).
  destruct (tri_view _ _ _ D0 S0) as (c & ia0 & ib0 & N1 & N2 & N3 & IA & PC & IB & P0 & _ & SET0).
  destruct (tri_view _ _ _ D1 S1) as (d & ib1 & ia1 & N4 & N5 & N6 & IB1 & PD & IA1 & P1 & _ & SET1).
  fold NT. rewrite IA. cbn [bind]. rewrite PC, IB1. cbn [bind]. rewrite PD.
  destruct (isDelaunay points a b c d) eqn:DE.
  { eexists. split; [reflexivity|]. apply EKeep; cbn; auto. intros j0 j1 J0 J1. rewrite L0 in J0. injection J0 as <-. unfold back in J1. cbn in J1. rewrite L1 in J1. injection J1 as <-.
    exists c, d. split; [apply (Permutation_in _ (Permutation_sym P0)); cbn; auto|]. split; [apply (Permutation_in _ (Permutation_sym P0)); cbn; auto|].
    split; [apply (Permutation_in _ (Permutation_sym P1)); cbn; auto|]. split; [apply (Permutation_in _ (Permutation_sym P1)); cbn; auto|exact DE]. }
  rewrite IB. cbn [bind]. fold NT.
  assert (NE : i0 <> i1).
  { intros <-. apply (Permutation_in _ P0) in S1. cbn in S1. destruct S1 as [E|[E|[E|[]]]]; injection E; intros; congruence. }
  assert (G : nth i1 (upd (ftris st) i0 (t3set (nth i0 (ftris st) NT) ib0 d)) NT = nth i1 (ftris st) NT).
  { rewrite nth_upd. rewrite (proj2 (Nat.eqb_neq i1 i0)) by auto. reflexivity. }
  rewrite G, IA1. cbn [bind]. eexists. split; [reflexivity|].
  destruct (SET0 d) as [Q1 Q2]. destruct (SET1 c) as [Q3 Q4].
  eapply EFlip with (a := a) (b := b) (c := c) (d := d); cbn [ftris flookup frem]; eauto;
    intros l; rewrite !dset_get, !ddel_get; reflexivity.
Qed.

Hypothesis same_apex : forall a b d, isDelaunay points a b d d = true.

Lemma upd_In {A} (l : list A) i x y : In y (upd l i x) -> y = x \/ In y l.
Proof.
  revert i; induction l as [|z l IH]; intros [|i] H; cbn in *; auto; [destruct H; auto|]. destruct H as [H|H]; [auto|]. destruct (IH _ H); auto.
Qed.
Lemma flip_sound st k st' : sound st -> effect k st st' -> sound st'.
Proof.
  intros [DT LS] E. destruct E as [E1 E2 E3 _|a b c d i0 i1 t0 t1 -> L0 L1 NE B0 B1 N1 N2 N3 N4 N5 P0 P1 DE Q1 Q2 Q3 Q4 E1 E2 E3].
  - split; [rewrite E1; exact DT|]. intros l i. rewrite E2, E1. apply LS.
  - assert (CD : c <> d) by (intros <-; rewrite same_apex in DE; discriminate).
    split.
    + intros t Ht. rewrite E1 in Ht. apply upd_In in Ht. destruct Ht as [->|Ht]; [eapply distinct_perm; eauto|].
      apply upd_In in Ht. destruct Ht as [->|Ht]; [eapply distinct_perm; eauto|]. apply DT, Ht.
    + intros l i. rewrite E2, E1, !upd_length. intros H.
      assert (T0 : nth i0 (upd (upd (ftris st) i0 t0) i1 t1) NT = t0).
      { rewrite nth_upd, (proj2 (Nat.eqb_neq i0 i1)) by auto. cbn. rewrite nth_upd, Nat.eqb_refl, (proj2 (Nat.ltb_lt _ _)) by auto. reflexivity. }
      assert (T1 : nth i1 (upd (upd (ftris st) i0 t0) i1 t1) NT = t1).
      { rewrite nth_upd, Nat.eqb_refl, (proj2 (Nat.ltb_lt _ _)) by (rewrite upd_length; auto). reflexivity. }
      destruct (keqb_spec (b, c) l) as [<-|K1]; [injection H as <-; split; [auto|]; rewrite T1; apply (Permutation_in _ (Permutation_sym Q3)); cbn; auto|].
      destruct (keqb_spec (d, b) l) as [<-|K2]; [injection H as <-; split; [auto|]; rewrite T1; apply (Permutation_in _ (Permutation_sym Q3)); cbn; auto|].
      destruct (keqb_spec (c, d) l) as [<-|K3]; [injection H as <-; split; [auto|]; rewrite T1; apply (Permutation_in _ (Permutation_sym Q3)); cbn; auto|].
      destruct (keqb_spec (a, d) l) as [<-|K4]; [injection H as <-; split; [auto|]; rewrite T0; apply (Permutation_in _ (Permutation_sym Q1)); cbn; auto|].
      destruct (keqb_spec (c, a) l) as [<-|K5]; [injection H as <-; split; [auto|]; rewrite T0; apply (Permutation_in _ (Permutation_sym Q1)); cbn; auto|].
      destruct (keqb_spec (d, c) l) as [<-|K6]; [injection H as <-; split; [auto|]; rewrite T0; apply (Permutation_in _ (Permutation_sym Q1)); cbn; auto|].
      destruct (keqb_spec (b, a) l) as [<-|K7]; [discriminate|].
      destruct (keqb_spec (a, b) l) as [<-|K8]; [discriminate|].
      destruct (LS _ _ H) as [B S]. split; [exact B|]. rewrite nth_upd.
      destruct (Nat.eqb_spec i i1) as [->|Z1].
      { exfalso. apply (Permutation_in _ P1) in S. cbn in S. destruct S as [S|[S|[S|[]]]]; congruence. }
      cbn. rewrite nth_upd. destruct (Nat.eqb_spec i i0) as [->|Z0].
      { exfalso. apply (Permutation_in _ P0) in S. cbn in S. destruct S as [S|[S|[S|[]]]]; congruence. }
      cbn. exact S.
Qed.

(* sides before and after a flip *)
Lemma flip_perm st a b c d i0 i1 t0 t1 : i0 <> i1 -> i0 < length (ftris st) -> i1 < length (ftris st) ->
  Permutation (tri_sides (nth i0 (ftris st) NT)) [(a, b); (b, c); (c, a)] ->
  Permutation (tri_sides (nth i1 (ftris st) NT)) [(b, a); (a, d); (d, b)] ->
  Permutation (tri_sides t0) [(a, d); (d, c); (c, a)] -> Permutation (tri_sides t1) [(b, c); (c, d); (d, b)] ->
  Permutation (mesh_sides (upd (upd (ftris st) i0 t0) i1 t1) ++ both_ways [(a, b)]) (mesh_sides (ftris st) ++ both_ways [(c, d)]).
Proof.
  intros NE B0 B1 P0 P1 Q0 Q1.
  pose proof (mesh_upd (ftris st) i0 t0 B0) as U0. rewrite P0, Q0 in U0.
  pose proof (mesh_upd (upd (ftris st) i0 t0) i1 t1 ltac:(rewrite upd_length; exact B1)) as U1.
  rewrite nth_upd, (proj2 (Nat.eqb_neq i1 i0)) in U1 by auto. cbn [andb] in U1. rewrite P1, Q1 in U1.
  set (M2 := mesh_sides (upd (upd (ftris st) i0 t0) i1 t1)) in *. set (M1 := mesh_sides (upd (ftris st) i0 t0)) in *. set (M0 := mesh_sides (ftris st)) in *.
  apply (Permutation_app_inv_r [(b, c); (c, a); (a, d); (d, b)]).
  transitivity ((M2 ++ [(b, a); (a, d); (d, b)]) ++ [(a, b); (b, c); (c, a)]).
  { rewrite <- !app_assoc. apply Permutation_app_head. cbn.
    transitivity ((b, a) :: (a, b) :: [(b, c); (c, a); (a, d); (d, b)]); [apply perm_swap|]. constructor.
    change [(a, b); (b, c); (c, a); (a, d); (d, b)] with ([(a, b); (b, c); (c, a)] ++ [(a, d); (d, b)]). apply Permutation_app_comm. }
  etransitivity; [apply Permutation_app_tail; exact U1|].
  transitivity ((M1 ++ [(a, b); (b, c); (c, a)]) ++ [(b, c); (c, d); (d, b)]).
  { rewrite <- !app_assoc. apply Permutation_app_head, Permutation_app_comm. }
  etransitivity; [apply Permutation_app_tail; exact U0|]. rewrite <- !app_assoc. apply Permutation_app_head. cbn.
  set (w := (a, d)); set (x := (d, c)); set (y := (c, a)); set (z := (b, c)); set (u := (c, d)); set (v := (d, b)).
  (* w x y z u v  ~  u x z y w v *)
  clear. 
  transitivity (u :: w :: x :: y :: z :: [v]). { apply Permutation_sym. apply (Permutation_middle [w; x; y; z] [v] u). }
  constructor. transitivity (x :: w :: y :: z :: [v]); [apply perm_swap|]. constructor.
  transitivity (z :: w :: y :: [v]). { symmetry. apply (Permutation_middle [w; y] [v] z). } constructor. apply perm_swap.
Qed.

(* the outline has no side in both directions *)
Definition oneway (outline : list dedge) : Prop := forall e, In e outline -> ~ In (back e) outline.
Lemma back_back e : back (back e) = e. Proof. destruct e; reflexivity. Qed.
Lemma both_in e ds : In e (both_ways ds) <-> In e ds \/ In (back e) ds.
Proof.
  unfold both_ways. rewrite in_flat_map. split.
  - intros (f & F & [<-|[<-|[]]]); [auto|]. rewrite back_back. auto.
  - intros [H|H]; [exists e; cbn; auto|]. exists (back e). cbn. rewrite back_back. auto.
Qed.
Lemma both_app l1 l2 : both_ways (l1 ++ l2) = both_ways l1 ++ both_ways l2.
Proof. apply flat_map_app. Qed.
Lemma both_perm l1 l2 : Permutation l1 l2 -> Permutation (both_ways l1) (both_ways l2).
Proof. apply Permutation_flat_map. Qed.
Lemma fills_flip ts ts' outline k e f : oneway outline -> fills ts outline k -> In e (mesh_sides ts) -> In (back e) (mesh_sides ts) ->
  Permutation (mesh_sides ts' ++ both_ways [e]) (mesh_sides ts ++ both_ways [f]) -> fills ts' outline k.
Proof.
  intros OW (ds & DL & DP) I1 I2 H.
  assert (K : In e ds \/ In (back e) ds).
  { apply (Permutation_in _ DP) in I1. apply (Permutation_in _ DP) in I2. apply in_app_or in I1. apply in_app_or in I2.
    destruct I1 as [I1|I1]; [|apply both_in, I1]. destruct I2 as [I2|I2]; [destruct (OW _ I1 I2)|].
    apply both_in in I2. rewrite back_back in I2. tauto. }
  assert (K' : exists ds', Permutation (both_ways ds) (both_ways [e] ++ both_ways ds') /\ length ds = S (length ds')).
  { destruct K as [K|K]; apply in_split in K; destruct K as (l1 & l2 & ->); exists (l1 ++ l2).
    - split; [|rewrite !app_length; cbn; lia]. transitivity (both_ways (e :: l1 ++ l2)); [apply both_perm; symmetry; apply Permutation_middle|reflexivity].
    - split; [|rewrite !app_length; cbn; lia]. transitivity (both_ways (back e :: l1 ++ l2)); [apply both_perm; symmetry; apply Permutation_middle|].
      change (both_ways (back e :: l1 ++ l2)) with (back e :: back (back e) :: both_ways (l1 ++ l2)). rewrite back_back.
      change (both_ways [e]) with [e; back e]. apply perm_swap. }
  destruct K' as (ds' & P1 & L1). exists (f :: ds'). split; [cbn; lia|].
  apply (Permutation_app_inv_r (both_ways [e])). rewrite H, DP, P1. change (both_ways (f :: ds')) with (both_ways [f] ++ both_ways ds').
  rewrite <- !app_assoc. apply Permutation_app_head.
  rewrite (Permutation_app_comm (both_ways [e])), <- app_assoc. rewrite (Permutation_app_comm (both_ways [f]) (both_ways ds' ++ both_ways [e])), <- app_assoc.
  apply Permutation_app_head, Permutation_app_comm.
Qed.
Lemma in_mesh ts i e : i < length ts -> In e (tri_sides (nth i ts NT)) -> In e (mesh_sides ts).
Proof. intros L H. apply in_flat_map. exists (nth i ts NT). split; [apply nth_In, L|exact H]. Qed.
Lemma verts_sides t v : In v (tri_verts t) <-> exists w, In (v, w) (tri_sides t).
Proof.
  destruct t as [[x y] z]. cbn. split.
  - intros [<-|[<-|[<-|[]]]]; eauto.
  - intros (w & [E|[E|[E|[]]]]); injection E; intros; subst; auto.
Qed.
Definition mesh_verts (ts : list itri) := flat_map tri_verts ts.
Lemma verts_upd ts i t : incl (tri_verts t) (mesh_verts ts) -> incl (mesh_verts (upd ts i t)) (mesh_verts ts).
Proof.
  intros H v Hv. apply in_flat_map in Hv. destruct Hv as (u & Hu & Hv). apply upd_In in Hu. destruct Hu as [->|Hu]; [apply H, Hv|].
  apply in_flat_map. eauto.
Qed.

Lemma effect_fills st k st' outline n : oneway outline -> effect k st st' ->
  fills (ftris st) outline n -> fills (ftris st') outline n.
Proof.
  intros OW E F. destruct E as [E1 E2 E3 _|a b c d i0 i1 t0 t1 -> L0 L1 NE B0 B1 N1 N2 N3 N4 N5 P0 P1 DE Q1 Q2 Q3 Q4 E1 E2 E3].
  - rewrite E1. exact F.
  - rewrite E1. apply (fills_flip (ftris st) _ outline n (a, b) (c, d)); auto.
    + apply (in_mesh _ i0); [exact B0|]. apply (Permutation_in _ (Permutation_sym P0)). cbn; auto.
    + apply (in_mesh _ i1); [exact B1|]. apply (Permutation_in _ (Permutation_sym P1)). cbn; auto.
    + apply flip_perm; assumption.
Qed.
Lemma effect_count st k st' : effect k st st' -> length (ftris st') = length (ftris st).
Proof. intros E. destruct E as [E1 E2 E3|a b c d i0 i1 t0 t1 -> L0 L1 NE B0 B1 N1 N2 N3 N4 N5 P0 P1 DE Q1 Q2 Q3 Q4 E1 E2 E3]; rewrite E1, ?upd_length; reflexivity. Qed.
Lemma effect_verts st k st' : effect k st st' -> incl (mesh_verts (ftris st')) (mesh_verts (ftris st)).
Proof.
  intros E. destruct E as [E1 E2 E3|a b c d i0 i1 t0 t1 -> L0 L1 NE B0 B1 N1 N2 N3 N4 N5 P0 P1 DE Q1 Q2 Q3 Q4 E1 E2 E3].
  - rewrite E1. apply incl_refl.
  - rewrite E1. assert (V : forall v, In v [a; b; c; d] -> In v (mesh_verts (ftris st))).
    { assert (V0 : forall v, In v [a; b; c] -> In v (tri_verts (nth i0 (ftris st) NT))).
      { intros v Hv. apply verts_sides. cbn in Hv. destruct Hv as [<-|[<-|[<-|[]]]]; eexists; apply (Permutation_in _ (Permutation_sym P0)); cbn; eauto. }
      assert (V1 : In d (tri_verts (nth i1 (ftris st) NT))).
      { apply verts_sides. eexists. apply (Permutation_in _ (Permutation_sym P1)); cbn; eauto. }
      intros v Hv. apply in_flat_map. destruct Hv as [<-|[<-|[<-|[<-|[]]]]].
      - exists (nth i0 (ftris st) NT). split; [apply nth_In, B0|apply V0; cbn; auto].
      - exists (nth i0 (ftris st) NT). split; [apply nth_In, B0|apply V0; cbn; auto].
      - exists (nth i0 (ftris st) NT). split; [apply nth_In, B0|apply V0; cbn; auto].
      - exists (nth i1 (ftris st) NT). split; [apply nth_In, B1|exact V1]. }
    assert (S0 : incl (mesh_verts (upd (ftris st) i0 t0)) (mesh_verts (ftris st))).
    { apply verts_upd. intros v Hv. apply (Permutation_in _ Q2) in Hv. apply V. cbn in *. tauto. }
    intros v Hv. apply in_flat_map in Hv. destruct Hv as (u & Hu & Hv). apply upd_In in Hu. destruct Hu as [->|Hu].
    + apply V. apply (Permutation_in _ Q4) in Hv. cbn in *. tauto.
    + apply S0. apply in_flat_map. eauto.
Qed.

(* the initial state *)
Lemma t3keys_sides t : Permutation (t3keys t) (tri_sides t).
Proof. destruct t as [[x y] z]. apply (Permutation_app_comm [(z, x)] [(x, y); (y, z)]). Qed.
Lemma initLookup_spec ts : forall n d k i, initLookup ts n d k = Some i ->
  d k = Some i \/ (n <= i < n + length ts /\ In k (tri_sides (nth (i - n) ts NT))).
Proof.
  induction ts as [|t ts IH]; intros n d k i H; cbn [initLookup] in H; [auto|].
  destruct (IH _ _ _ _ H) as [K|[K1 K2]].
  - assert (G : forall ks d, fold_left (fun d k => dset d k n) ks d k = Some i -> d k = Some i \/ (i = n /\ In k ks)).
    { clear. induction ks as [|l ks IH]; intros d H; [auto|]. cbn in H. destruct (IH _ H) as [K|[-> K]]; [|right; cbn; auto].
      unfold dset in K. destruct (keqb_spec l k) as [->|]; [injection K as <-; right; cbn; auto|auto]. }
    destruct (G _ _ K) as [K'|[-> K']]; [auto|]. right. split; [cbn; lia|]. rewrite Nat.sub_diag. cbn [nth].
    apply (Permutation_in _ (t3keys_sides t)), K'.
  - right. split; [cbn; lia|]. replace (i - n) with (S (i - S n)) by lia. exact K2.
Qed.
Lemma flipInit_sound ts : (forall t, In t ts -> distinct3 t) -> sound (flipInit ts).
Proof.
  intros D. split; [exact D|]. intros k i H. cbn in *. apply initLookup_spec in H. destruct H as [H|[H1 H2]]; [discriminate|].
  rewrite Nat.sub_0_r in H2. split; [lia|exact H2].
Qed.

(* every run: any invariant of steps holds at the end *)
Lemma flipLoop_inv (Q : fstate -> Prop) :
  (forall st k st', In k (frem st) -> sound st -> Q st -> effect k st st' -> Q st') ->
  forall fuel sched st r, sound st -> Q st -> flipLoop fuel points sched st = Ok r ->
  exists st', ftris st' = r /\ frem st' = [] /\ sound st' /\ Q st'.
Proof.
  intros S. induction fuel as [|fuel IH]; intros sched st r V Qs H; cbn [flipLoop] in H;
    (destruct (frem st) as [|k0 rem] eqn:E; [okinv H; exists st; auto|]).
  - discriminate.
  - apply bind_ok in H. destruct H as (st1 & E1 & H).
    set (k := nth (sched fuel mod length (k0 :: rem)) (k0 :: rem) k0) in *.
    destruct (flipStep_effect st k V) as (st2 & E2 & EF). rewrite E1 in E2. okinv E2.
    apply (IH sched st1 r); [eapply flip_sound; eauto| |exact H]. eapply S; eauto.
    rewrite E. apply nth_In. apply Nat.mod_upper_bound. discriminate.
Qed.
(* no exception is ever raised *)
Lemma flipLoop_no_raise : forall fuel sched st e, sound st -> flipLoop fuel points sched st = Err e -> e = OutOfFuel.
Proof.
  induction fuel as [|fuel IH]; intros sched st e V H; cbn [flipLoop] in H; (destruct (frem st) as [|k0 rem] eqn:E; [discriminate|]).
  - congruence.
  - set (k := nth (sched fuel mod length (k0 :: rem)) (k0 :: rem) k0) in *.
    destruct (flipStep_effect st k V) as (st2 & E2 & EF). rewrite E2 in H. cbn [bind] in H.
    eapply IH; [eapply flip_sound; eauto|exact H].
Qed.
End Flip.
