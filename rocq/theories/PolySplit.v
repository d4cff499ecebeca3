(** A chord divides a simple polygon into two. *)
From Coq Require Import Reals Lra Psatz ZArith List Lia Permutation.
From Verif Require Import Num GeoModel GeoSpec EdgeSpecR FaceModel FaceSpec FaceSpecR FaceCover PolyEv PolySides PolyCross PolyWind PolyJordan PolyInside.
Import ListNotations.
Open Scope R_scope.

(** ** the two halves *)
Section Half.
Context {A : Type}.
Lemma sides_whole (u w : A) (M N : list A) : psides (u :: M ++ w :: N) = consec (u :: M ++ [w]) ++ consec (w :: N ++ [u]).
Proof.
  rewrite psides_consec. replace (u :: (M ++ w :: N) ++ [u]) with ((u :: M) ++ w :: N ++ [u]) by (cbn; rewrite <- app_assoc; reflexivity).
  rewrite consec_join. reflexivity.
Qed.
Lemma sides_half (u w : A) (M : list A) : psides (u :: M ++ [w]) = consec (u :: M ++ [w]) ++ [(w, u)].
Proof.
  rewrite psides_consec. replace (u :: (M ++ [w]) ++ [u]) with ((u :: M) ++ w :: [u]) by (cbn; rewrite <- app_assoc; reflexivity).
  rewrite consec_join. reflexivity.
Qed.
End Half.
Lemma nd_app {A} (l1 l2 : list A) : NoDup (l1 ++ l2) -> NoDup l1.
Proof.
  induction l1 as [|x l1 IH]; intros H; [constructor|]. inversion H as [|? ? N D]; subst. constructor; [|apply IH, D]. intros I. apply N, in_app_iff. auto.
Qed.
Lemma wind_halves u w M N x : wind (u :: M ++ w :: N) x = (wind (u :: M ++ [w]) x + wind (w :: N ++ [u]) x)%Z.
Proof. unfold wind. rewrite sides_whole, !sides_half, !ssum_app. cbn. rewrite (crossing_anti x w u). lia. Qed.
Definition clear (l : list pt) (u w : pt) : Prop := forall x y, In (x, y) (psides l) -> x <> u -> x <> w -> y <> u -> y <> w -> disj x y u w.
Lemma clear_sym l u w : clear l u w -> clear l w u.
Proof. intros C x y I N1 N2 N3 N4. apply disj_swap2, C; assumption. Qed.
Lemma clear_rot l1 l2 u w : clear (l1 ++ l2) u w -> clear (l2 ++ l1) u w.
Proof. intros C x y I. apply C. apply (Permutation_in _ (psides_rot l2 l1)), I. Qed.
Lemma half_tame u w M N : tame (u :: M ++ w :: N) -> M <> [] -> clear (u :: M ++ w :: N) u w -> tame (u :: M ++ [w]).
Proof.
  intros [A B C D E] NM CL.
  assert (IN : forall x, In x (u :: M ++ [w]) -> In x (u :: M ++ w :: N)).
  { intros x [<-|I]; [left; reflexivity|]. right. apply in_app_iff in I. apply in_app_iff. cbn in *. tauto. }
  constructor.
  - destruct M as [|m M]; [congruence|]. cbn. rewrite app_length. cbn. lia.
  - replace (u :: M ++ w :: N) with ((u :: M ++ [w]) ++ N) in B by (cbn; rewrite <- app_assoc; reflexivity). apply nd_app in B. exact B.
  - intros; apply C; auto.
  - intros; apply D; auto.
  - intros p p' q q' H K N1 N2 N3 N4. rewrite sides_half in H, K. apply in_app_iff in H, K. cbn [In] in H, K.
    assert (IS : forall e, In e (consec (u :: M ++ [w])) -> In e (psides (u :: M ++ w :: N))) by (intros e I; rewrite sides_whole; apply in_app_iff; auto).
    destruct H as [H|[H|[]]], K as [K|[K|[]]].
    + apply E; auto.
    + injection K as <- <-. apply disj_swap2. apply CL; auto.
    + injection H as <- <-. apply disj_sym, disj_swap2. apply CL; auto.
    + exfalso. congruence.
Qed.
Lemma whole_rot (u w : pt) M N : (w :: N) ++ (u :: M) = w :: N ++ u :: M. Proof. reflexivity. Qed.
Lemma other_tame u w M N : tame (u :: M ++ w :: N) -> N <> [] -> clear (u :: M ++ w :: N) u w -> tame (w :: N ++ [u]).
Proof.
  intros T NN CL. apply (half_tame w u N M); [apply (tame_rot (u :: M) (w :: N)), T|exact NN|].
  apply clear_sym. apply (clear_rot (u :: M) (w :: N)), CL.
Qed.

(** ** cutting a corner off *)
Lemma bary a b c x y u : side a b c * side x y u = side b c u * side x y a + side c a u * side x y b + side a b u * side x y c.
Proof. unfold side. ring. Qed.
Lemma pasch a b c x y : 0 < side a b c -> outside3 a b c x -> side c a x <> 0 -> side a b x <> 0 -> side b c x <> 0 -> side x y b <> 0 ->
  0 < side c a x -> side c a y < 0 -> disj x y a b -> disj x y b c -> 0 < side x y c * side x y a \/ side x y c * side x y a = 0 \/ False.
Proof.
  intros AR O N1 N2 N3 N4 PX PY D1 D2.
  pose proof (bary a b c x y x) as BX. pose proof (bary a b c x y y) as BY.
  assert (Z1 : side x y x = 0) by (unfold side; ring). assert (Z2 : side x y y = 0) by (unfold side; ring). rewrite Z1, Rmult_0_r in BX. rewrite Z2, Rmult_0_r in BY. clear Z1 Z2.
  assert (SY : side a b y + side b c y + side c a y = side a b c) by (unfold side; ring).
  unfold disj, outside3 in *.
  set (fa := side x y a) in *. set (fb := side x y b) in *. set (fc := side x y c) in *.
  set (px := side a b x) in *. set (qx := side b c x) in *. set (rx := side c a x) in *.
  set (py := side a b y) in *. set (qy := side b c y) in *. set (ry := side c a y) in *. set (ar := side a b c) in *.
  clearbody fa fb fc px qx rx py qy ry ar.
  destruct (Rlt_dec 0 (fc * fa)) as [|L]; [left; assumption|]. right. destruct (Req_EM_T (fc * fa) 0) as [|N]; [left; assumption|]. right.
  assert (OPP : fc * fa < 0) by lra. clear L N.
  assert (CASE : (0 < fa /\ fc < 0) \/ (fa < 0 /\ 0 < fc)) by (destruct (Rtotal_order fa 0) as [F|[F|F]]; [right; split; nra|exfalso; rewrite F in OPP; lra|left; split; nra]).
  destruct CASE as [[Fa Fc]|[Fa Fc]], (Rlt_dec 0 fb) as [Fb|Fb]; try (assert (Fb' : fb < 0) by lra); clear N4.
  - (* b with a *) assert (fb * fc < 0) by nra. assert (PP : 0 < qx * qy) by (destruct D2; [lra|assumption]). clear D1 D2. destruct (Rlt_dec qx 0) as [L|L].
    + assert (qy < 0) by nra. assert (qy * fa < 0) by nra. assert (ry * fb < 0) by nra. assert (py < 0) by (destruct (Rlt_dec py 0); [assumption|exfalso; nra]). lra.
    + assert (0 < qx) by lra. assert (px < 0) by lra. assert (0 < qx * fa) by nra. assert (0 < rx * fb) by nra. assert (0 < px * fc) by nra. lra.
  - (* b with c *) assert (fa * fb < 0) by nra. assert (PP : 0 < px * py) by (destruct D1; [lra|assumption]). clear D1 D2. destruct (Rlt_dec px 0) as [L|L].
    + assert (py < 0) by nra. assert (0 < py * fc) by nra. assert (0 < ry * fb) by nra. assert (qy < 0) by (destruct (Rlt_dec qy 0); [assumption|exfalso; nra]). lra.
    + assert (0 < px) by lra. assert (qx < 0) by lra. assert (qx * fa < 0) by nra. assert (rx * fb < 0) by nra. assert (px * fc < 0) by nra. lra.
  - (* b with c *) assert (fa * fb < 0) by nra. assert (PP : 0 < px * py) by (destruct D1; [lra|assumption]). clear D1 D2. destruct (Rlt_dec px 0) as [L|L].
    + assert (py < 0) by nra. assert (py * fc < 0) by nra. assert (ry * fb < 0) by nra. assert (qy < 0) by (destruct (Rlt_dec qy 0); [assumption|exfalso; nra]). lra.
    + assert (0 < px) by lra. assert (qx < 0) by lra. assert (0 < qx * fa) by nra. assert (0 < rx * fb) by nra. assert (0 < px * fc) by nra. lra.
  - (* b with a *) assert (fb * fc < 0) by nra. assert (PP : 0 < qx * qy) by (destruct D2; [lra|assumption]). clear D1 D2. destruct (Rlt_dec qx 0) as [L|L].
    + assert (qy < 0) by nra. assert (0 < qy * fa) by nra. assert (0 < ry * fb) by nra. assert (py < 0) by (destruct (Rlt_dec py 0); [assumption|exfalso; nra]). lra.
    + assert (0 < qx) by lra. assert (px < 0) by lra. assert (qx * fa < 0) by nra. assert (rx * fb < 0) by nra. assert (px * fc < 0) by nra. lra.
Qed.
Lemma neg_pp a b : a <> 0 -> b <> 0 -> ~ 0 < a * b -> (0 < a /\ b < 0) \/ (a < 0 /\ 0 < b).
Proof. intros A B N. destruct (Rlt_dec 0 a), (Rlt_dec 0 b); [exfalso; nra|left; split; nra|right; split; nra|exfalso; nra]. Qed.

Section Corner.
Variables (a b c : pt) (R0 : list pt).
Local Notation PP := (a :: b :: c :: R0).
Hypothesis T : tame PP.
Hypothesis L : 0 < side a b c.
Hypothesis O : forall v, In v R0 -> outside3 a b c v.
Lemma corner_clear : clear PP a c.
Proof.
  pose proof (t_nd _ T) as ND. inversion ND as [|? ? NA ND1 E1]; subst. inversion ND1 as [|? ? NB ND2 E2]; subst. inversion ND2 as [|? ? NC ND3 E3]; subst.
  assert (Nab : a <> b) by (intros ->; apply NA; left; reflexivity). assert (Nac : a <> c) by (intros ->; apply NA; right; left; reflexivity). assert (Nbc : b <> c) by (intros ->; apply NB; left; reflexivity).
  assert (Sab : In (a, b) (psides PP)) by (rewrite psides_consec; left; reflexivity). assert (Sbc : In (b, c) (psides PP)) by (rewrite psides_consec; right; left; reflexivity).
  assert (Ia : In a PP) by (left; reflexivity). assert (Ib : In b PP) by (right; left; reflexivity). assert (Ic : In c PP) by (right; right; left; reflexivity).
  intros x y I N1 N2 N3 N4. destruct (psides_in _ _ _ I) as [Ix Iy].
  assert (Nxb : x <> b). { intros ->. apply N4. apply (next_unique _ _ _ _ ND I Sbc). }
  assert (Nyb : y <> b). { intros ->. apply N1. apply (prev_unique _ _ _ _ ND I Sab). }
  assert (Nxy : x <> y) by (apply (s_neq _ T), I).
  assert (Ox : outside3 a b c x) by (apply O; cbn in Ix; intuition congruence). assert (Oy : outside3 a b c y) by (apply O; cbn in Iy; intuition congruence).
  pose proof (t_simple _ T _ _ _ _ I Sab N1 Nxb N3 Nyb) as D1. pose proof (t_simple _ T _ _ _ _ I Sbc Nxb N2 Nyb N4) as D2.
  assert (GP : forall p q r, In p PP -> In q PP -> In r PP -> p <> q -> q <> r -> p <> r -> side p q r <> 0) by apply (t_gp _ T).
  destruct (Rlt_dec 0 (side c a x * side c a y)) as [P|P].
  { right. rewrite !(side_sym c a). lra. }
  apply neg_pp in P; [|apply GP; auto|apply GP; auto].
  left. rewrite Rmult_comm. destruct P as [[P1 P2]|[P1 P2]].
  - destruct (pasch a b c x y) as [Q|[Q|[]]]; auto; exfalso.
    assert (side x y c <> 0) by (apply GP; auto). assert (side x y a <> 0) by (apply GP; auto). apply Rmult_integral in Q. tauto.
  - apply disj_swap in D1, D2. destruct (pasch a b c y x) as [Q|[Q|[]]]; auto; [rewrite !(side_sym x y) in Q; lra|]; exfalso.
    assert (side y x c <> 0) by (apply GP; auto). assert (side y x a <> 0) by (apply GP; auto). apply Rmult_integral in Q. tauto.
Qed.
Lemma corner_tame : R0 <> [] -> tame (c :: R0 ++ [a]).
Proof. intros N. apply (other_tame a c [b] R0); [exact T|exact N|exact corner_clear]. Qed.
Lemma corner_wind x : wind PP x = (tsum a b c x + wind (c :: R0 ++ [a]) x)%Z.
Proof. rewrite <- wind_tri. apply (wind_halves a c [b] R0). Qed.
End Corner.
Lemma out_tsum a b c x : 0 < side a b c -> outside3 a b c x -> tsum a b c x = 0%Z.
Proof. intros H. apply (tri_crossing a b c x). lra. Qed.
Lemma in_tsum a b c x : 0 < side a b c -> inside3 a b c x -> tsum a b c x = 1%Z.
Proof. intros H. apply (tri_crossing a b c x). lra. Qed.
(* an ear is cut off, the rest is a simple polygon of the same orientation *)
Theorem corner_good a b c R0 : good (a :: b :: c :: R0) -> 0 < side a b c -> (forall v, In v R0 -> outside3 a b c v) -> R0 <> [] -> good (c :: R0 ++ [a]).
Proof.
  intros G L O N. pose proof (corner_tame a b c R0 (tm _ G) L O N) as T2. destruct (good_or _ T2) as [|GR]; [assumption|]. exfalso.
  destruct R0 as [|v R0]; [congruence|]. assert (Ov : outside3 a b c v) by (apply O; left; reflexivity).
  assert (Iv : In v (rev (c :: (v :: R0) ++ [a]))) by (apply in_rev; rewrite rev_involutive; right; left; reflexivity).
  assert (NEAR : exists q, outside3 a b c q /\ wind (rev (c :: (v :: R0) ++ [a])) q = 1%Z).
  { destruct Ov as [Ov|[Ov|Ov]].
    - destruct (inside_near _ GR v [(b, a)] Iv) as (q & E & W); [intros x y [E|[]]; injection E as <- <-; rewrite (side_sym a b); lra|]. exists q. split; [|exact W]. left. specialize (E b a (or_introl eq_refl)). rewrite (side_sym a b) in E. lra.
    - destruct (inside_near _ GR v [(c, b)] Iv) as (q & E & W); [intros x y [E|[]]; injection E as <- <-; rewrite (side_sym b c); lra|]. exists q. split; [|exact W]. right; left. specialize (E c b (or_introl eq_refl)). rewrite (side_sym b c) in E. lra.
    - destruct (inside_near _ GR v [(a, c)] Iv) as (q & E & W); [intros x y [E|[]]; injection E as <- <-; rewrite (side_sym c a); lra|]. exists q. split; [|exact W]. right; right. specialize (E a c (or_introl eq_refl)). rewrite (side_sym c a) in E. lra. }
  destruct NEAR as (q & Oq & W). rewrite wind_rev in W. pose proof (inside_all _ G q) as B. rewrite (corner_wind a b c (v :: R0)) in B. rewrite (out_tsum a b c q L Oq) in B. lia.
Qed.
