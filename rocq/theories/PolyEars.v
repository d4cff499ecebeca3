(** Every simple polygon has an ear. *)
From Coq Require Import Reals Lra Psatz ZArith List Lia Permutation.
From Verif Require Import Num GeoModel GeoSpec EdgeSpecR FaceModel FaceSpec FaceSpecR FaceCover PolyEv PolySides PolyCross PolyWind PolyJordan PolyInside PolySplit PolyDiag.
Import ListNotations.
Open Scope R_scope.

(* next to every corner there is a point outside *)
Theorem outside_near l (G : good l) v (es : list (pt * pt)) : In v l -> (forall x y, In (x, y) es -> 0 < side x y v) ->
  exists q, (forall x y, In (x, y) es -> 0 < side x y q) /\ wind l q = 0%Z.
Proof.
  intros I H. destruct (next_ex _ _ I) as (w & K).
  assert (A : Ev (fun k => forall e, In e es -> 0 < side (fst e) (snd e) (on v w k))).
  { apply Ev_all. intros [x y] J. refine (Ev_mono _ _ _ (Ev_lin (side x y v) (side x y w - side x y v) (H x y J))). intros k _ L. cbn [fst snd]. rewrite side_on. lra. }
  destruct (Ev_ex _ (Ev_and _ _ (Ev_lt 1 ltac:(lra)) A)) as (k & Hk & K1 & E).
  assert (B : Ev (fun t => forall e, In e es -> 0 < side (fst e) (snd e) (rp v w k t))).
  { apply Ev_all. intros [x y] J. apply Ev_ssm, (E (x, y) J). }
  destruct (Ev_ex _ (Ev_and _ _ B (right_zero l G v w k K ltac:(lra)))) as (t & Ht & E1 & E2).
  exists (rp v w k t). split; [|exact E2]. intros x y J. apply (E1 (x, y) J).
Qed.
(* an ear that the polygon runs around *)
Definition full (l : list pt) (a b c : pt) : Prop :=
  In (a, b) (psides l) /\ In (b, c) (psides l) /\ 0 < side a b c /\ forall q, inside3 a b c q -> wind l q = 1%Z.
Lemma full_half u w M N a b c : good (u :: M ++ w :: N) -> good (u :: M ++ [w]) -> good (w :: N ++ [u]) ->
  full (u :: M ++ [w]) a b c -> b <> u -> b <> w -> full (u :: M ++ w :: N) a b c /\ In b M.
Proof.
  intros G G1 G2 (H & K & L & F) Nu Nw. split.
  - rewrite sides_half in H, K. apply in_app_iff in H, K. cbn [In] in H, K.
    split; [rewrite sides_whole; apply in_app_iff; left; destruct H as [H|[H|[]]]; [exact H|congruence]|].
    split; [rewrite sides_whole; apply in_app_iff; left; destruct K as [K|[K|[]]]; [exact K|congruence]|].
    split; [exact L|]. intros q I. pose proof (F q I) as W. pose proof (wind_halves u w M N q) as E. pose proof (inside_all _ G q). pose proof (inside_all _ G2 q). lia.
  - destruct (psides_in _ _ _ H) as [_ I]. cbn in I. rewrite in_app_iff in I. cbn in I. intuition congruence.
Qed.
Lemma full_rot l1 l2 a b c : full (l2 ++ l1) a b c -> full (l1 ++ l2) a b c.
Proof.
  intros (H & K & L & F). split; [apply (Permutation_in _ (psides_rot l2 l1)), H|]. split; [apply (Permutation_in _ (psides_rot l2 l1)), K|]. split; [exact L|].
  intros q I. rewrite wind_rot. apply F, I.
Qed.
Lemma in_consec_ends {A} (x y : A) l : In (x, y) (consec l) -> In x l /\ In y l.
Proof.
  induction l as [|a [|b l] IH]; intros H; [destruct H|destruct H|]. cbn [consec In] in H. destruct H as [H|H].
  - injection H as <- <-. cbn. auto.
  - apply IH in H. cbn in *. tauto.
Qed.
Lemma full_ex n : forall l, length l = n -> good l -> forall x y, In (x, y) (psides l) -> exists a b c, full l a b c /\ b <> x /\ b <> y.
Proof.
  induction n as [n IH] using lt_wf_ind. intros l LN G x y I.
  destruct (Nat.le_gt_cases 4 n) as [L4|L4].
  - destruct (good_divides l G ltac:(lia)) as (u & w & M & N & l1 & l2 & E & F & HM & HN & G1 & G2).
    assert (GW : good (u :: M ++ w :: N)) by (rewrite <- F; apply good_rot; rewrite <- E; exact G).
    assert (LW : length (u :: M ++ w :: N) = n) by (rewrite <- F, (Permutation_length (rot_perm l2 l1)), <- E; assumption).
    pose proof (t_nd _ (tm _ GW)) as ND.
    assert (I' : In (x, y) (psides (u :: M ++ w :: N))) by (rewrite <- F; apply (Permutation_in _ (psides_rot l1 l2)); rewrite <- E; exact I).
    cbn in LW. rewrite app_length in LW. cbn in LW.
    assert (DJ : forall v, In v M -> ~ In v (w :: N ++ [u])).
    { intros v Iv Jv. inversion ND as [|? ? NU ND1]; subst. destruct Jv as [<-|Jv].
      - apply NoDup_remove_2 in ND1. apply ND1, in_app_iff. auto.
      - apply in_app_iff in Jv. destruct Jv as [Jv|[<-|[]]].
        + apply in_split in Iv. destruct Iv as (m1 & m2 & ->). rewrite <- app_assoc in ND1. cbn in ND1. apply NoDup_remove_2 in ND1. apply ND1. rewrite !in_app_iff. right. right. right. exact Jv.
        + apply NU, in_app_iff. auto. }
    assert (DJ2 : forall v, In v N -> ~ In v (u :: M ++ [w])).
    { intros v Iv [<-|Jv].
      - inversion ND as [|? ? NU ND1]; subst. apply NU, in_app_iff. right. right. exact Iv.
      - apply in_app_iff in Jv. destruct Jv as [Jv|[<-|[]]].
        + apply (DJ v Jv). right. apply in_app_iff. auto.
        + inversion ND as [|? ? NU ND1]; subst. apply NoDup_remove_2 in ND1. apply ND1, in_app_iff. auto. }
    rewrite sides_whole in I'. apply in_app_iff in I'. destruct I' as [I'|I'].
    + (* the ear of the second half *)
      destruct (IH (length (w :: N ++ [u]))) with (l := w :: N ++ [u]) (x := u) (y := w) as (a & b & c & FU & N1 & N2); [cbn; rewrite app_length; cbn; destruct M; [congruence|cbn in *; lia]|reflexivity|exact G2|rewrite sides_half; apply in_app_iff; right; left; reflexivity|].
      assert (GW2 : good (w :: N ++ u :: M)) by (apply (good_rot (u :: M) (w :: N)), GW).
      destruct (full_half w u N M a b c GW2 G2 G1 FU N2 N1) as [FW IB].
      exists a, b, c. split.
      * rewrite E. apply full_rot. rewrite F. apply (full_rot (u :: M) (w :: N)). exact FW.
      * apply in_consec_ends in I'. destruct I' as [Ix Iy]. split; intros ->; apply (DJ2 _ IB); assumption.
    + destruct (IH (length (u :: M ++ [w]))) with (l := u :: M ++ [w]) (x := w) (y := u) as (a & b & c & FU & N1 & N2); [cbn; rewrite app_length; cbn; destruct N; [congruence|cbn in *; lia]|reflexivity|exact G1|rewrite sides_half; apply in_app_iff; right; left; reflexivity|].
      destruct (full_half u w M N a b c GW G1 G2 FU N2 N1) as [FW IB].
      exists a, b, c. split.
      * rewrite E. apply full_rot. rewrite F. exact FW.
      * apply in_consec_ends in I'. destruct I' as [Ix Iy]. split; intros ->; apply (DJ _ IB); assumption.
  - (* a triangle *)
    pose proof (t_len _ (tm _ G)) as L3. assert (LN3 : length l = 3%nat) by lia.
    pose proof (t_nd _ (tm _ G)) as ND.
    destruct (psides_in _ _ _ I) as [Ix Iy]. destruct (next_ex _ _ Iy) as (z & K). destruct (psides_in _ _ _ K) as [_ Iz].
    pose proof (s_neq _ (tm _ G) _ _ I). pose proof (s_neq _ (tm _ G) _ _ K). pose proof (s_ends _ (tm _ G) _ _ _ I K) as Nxz.
    destruct (corner_front l x y z ND ltac:(lia) I K) as (l1 & l2 & R0 & E & F).
    assert (LW : length (y :: z :: R0 ++ [x]) = 3%nat) by (rewrite <- F, (Permutation_length (rot_perm l2 l1)), <- E; assumption).
    destruct R0; [|cbn in LW; rewrite app_length in LW; cbn in LW; lia]. cbn [app] in F.
    assert (GR : good [y; z; x]) by (rewrite <- F; apply good_rot; rewrite <- E; exact G).
    assert (AR : 0 < side y z x).
    { destruct GR as (T & p & q & r & H1 & H2 & _ & LF). cbn in H1, H2. assert (R1 : side z x y = side y z x) by (unfold side; ring). assert (R2 : side x y z = side y z x) by (unfold side; ring).
      destruct H1 as [H1|[H1|[H1|[]]]]; injection H1 as <- <-; destruct H2 as [H2|[H2|[H2|[]]]]; pose proof (f_equal fst H2) as Q1; pose proof (f_equal snd H2) as Q2; cbn in Q1, Q2; subst; try congruence; lra. }
    exists y, z, x. split; [|split; [congruence|congruence]].
    rewrite E. apply full_rot. rewrite F. split; [left; reflexivity|]. split; [right; left; reflexivity|]. split; [exact AR|].
    intros q IQ. rewrite wind_tri. apply in_tsum; assumption.
Qed.
(* an ear: a left turn with all other corners outside of the triangle *)
Definition isear (l : list pt) (a b c : pt) : Prop :=
  In (a, b) (psides l) /\ In (b, c) (psides l) /\ 0 < side a b c /\ forall v, In v l -> v <> a -> v <> b -> v <> c -> outside3 a b c v.
Theorem ear_ex l : good l -> exists a b c, isear l a b c.
Proof.
  intros G. pose proof (tm _ G) as T. pose proof (t_len _ T) as LN. destruct l as [|h l0]; [cbn in LN; lia|].
  destruct (next_ex (h :: l0) h) as (y & I); [left; reflexivity|].
  destruct (full_ex _ _ eq_refl G _ _ I) as (a & b & c & (H & K & L & F) & _). exists a, b, c. split; [exact H|]. split; [exact K|]. split; [exact L|].
  intros v Iv N1 N2 N3. destruct (psides_in _ _ _ H) as [Ia Ib], (psides_in _ _ _ K) as [_ Ic].
  pose proof (s_neq _ T _ _ H). pose proof (s_neq _ T _ _ K). pose proof (s_ends _ T _ _ _ H K).
  assert (side a b v <> 0) by (apply (t_gp _ T); auto). assert (side b c v <> 0) by (apply (t_gp _ T); auto). assert (side c a v <> 0) by (apply (t_gp _ T); auto).
  unfold outside3. destruct (Rlt_dec 0 (side a b v)) as [P1|]; [|left; lra]. destruct (Rlt_dec 0 (side b c v)) as [P2|]; [|right; left; lra]. destruct (Rlt_dec 0 (side c a v)) as [P3|]; [|right; right; lra].
  exfalso. destruct (outside_near _ G v [(a, b); (b, c); (c, a)] Iv) as (q & E & W).
  - intros x0 y0 [E|[E|[E|[]]]]; injection E as <- <-; assumption.
  - assert (IQ : inside3 a b c q) by (split; [apply E; left; reflexivity|split; [apply E; right; left; reflexivity|apply E; right; right; left; reflexivity]]).
    rewrite (F q IQ) in W. discriminate.
Qed.
