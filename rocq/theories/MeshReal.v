(** A mesh that is bounded by given paths has their circulation, for every
    real-valued antisymmetric weight; areas and volumes of closed meshes. *)
From Coq Require Import Reals Lra Lia ZArith List Bool.
From Verif Require Import Num GeoModel GeoSpec GeoMat GeoFig EdgeSpec NormSpec GeoNormal.
Import ListNotations.
Open Scope R_scope.

Definition swp (e : pt * pt) : pt * pt := (snd e, fst e).
Fixpoint cnt (eqv : pt -> pt -> bool) (u v : pt) (es : list (pt * pt)) : BinNums.Z :=
  match es with [] => 0%Z | e :: r => ((if eqv (fst e) u && eqv (snd e) v then 1 else 0) + cnt eqv u v r)%Z end.
Lemma cnt_app eqv u v a b : cnt eqv u v (a ++ b) = (cnt eqv u v a + cnt eqv u v b)%Z.
Proof. induction a as [|e a IH]; cbn [app cnt]; [reflexivity|]. rewrite IH. lia. Qed.
Lemma cnt_swp eqv u v es : cnt eqv u v (map swp es) = cnt eqv v u es.
Proof. induction es as [|e es IH]; [reflexivity|]. cbn [map cnt swp fst snd]. rewrite IH, andb_comm. reflexivity. Qed.
Lemma cnt_nonneg eqv u v es : (0 <= cnt eqv u v es)%Z.
Proof. induction es as [|e es IH]; cbn [cnt]; [lia|]. destruct (_ && _); lia. Qed.
Lemma cnt_in (eqv : pt -> pt -> bool) u v es : (forall p q, eqv p q = true <-> p = q) -> (0 < cnt eqv u v es)%Z -> In (u, v) es.
Proof.
  intros E. induction es as [|[a b] es IH]; cbn [cnt fst snd]; [lia|].
  destruct (eqv a u && eqv b v) eqn:Q; [|intros; right; apply IH; lia].
  intros _. apply andb_prop in Q. destruct Q as [Q1 Q2]. apply E in Q1, Q2. subst. left. reflexivity.
Qed.
Definition esum_r (f : pt -> pt -> R) (es : list (pt * pt)) : R := rsum (map (fun e => f (fst e) (snd e)) es).
Lemma esum_r_app f a b : esum_r f (a ++ b) = esum_r f a + esum_r f b.
Proof.
  induction a as [|e a IH]; [change (esum_r f b = 0 + esum_r f b); lra|].
  change (f (fst e) (snd e) + esum_r f (a ++ b) = f (fst e) (snd e) + esum_r f a + esum_r f b). rewrite IH. lra.
Qed.
Lemma cancel eqv f es : (forall p q, eqv p q = true <-> p = q) -> (forall p q, f q p = - f p q) ->
  (forall u v, cnt eqv u v es = cnt eqv v u es) -> esum_r f es = 0.
Proof.
  intros E A. remember (length es) as n eqn:Hn. revert es Hn. induction n as [n IH] using lt_wf_ind. intros es Hn B.
  destruct es as [|[u v] r]; [reflexivity|]. cbn [length] in Hn.
  change (esum_r f ((u, v) :: r)) with (f u v + esum_r f r).
  destruct (eqv u v) eqn:Q.
  - apply E in Q. subst v. pose proof (A u u) as A0.
    rewrite (IH (length r) ltac:(lia) r eq_refl); [lra|]. intros a b. specialize (B a b). cbn [cnt fst snd] in B.
    rewrite (andb_comm (eqv u b)) in B. lia.
  - assert (NE : u <> v) by (intros ->; assert (eqv v v = true) by (apply E; reflexivity); congruence).
    assert (I : In (v, u) r).
    { pose proof (B u v) as B1. cbn [cnt fst snd] in B1. rewrite Q in B1. cbn [andb] in B1.
      replace (eqv u u && eqv v v) with true in B1 by (symmetry; apply andb_true_intro; split; apply E; reflexivity).
      apply (cnt_in eqv); [exact E|]. pose proof (cnt_nonneg eqv u v r). lia. }
    apply in_split in I. destruct I as (r1 & r2 & ->).
    rewrite esum_r_app. change (esum_r f ((v, u) :: r2)) with (f v u + esum_r f r2). rewrite A.
    assert (K : esum_r f (r1 ++ r2) = 0).
    { apply (IH (length (r1 ++ r2))); [rewrite app_length in *; cbn [length] in Hn; lia|reflexivity|].
      intros a b. specialize (B a b). cbn [cnt fst snd] in B. rewrite !cnt_app in *. cbn [cnt fst snd] in B.
      rewrite (andb_comm (eqv u b)), (andb_comm (eqv v b)) in B. lia. }
    rewrite esum_r_app in K. lra.
Qed.

Definition tri_edges (t : @tri Rnum) : list (pt * pt) := [(ta t, tb t); (tb t, tc t); (tc t, ta t)].
Fixpoint path_edges (l : list pt) : list (pt * pt) :=
  match l with a :: ((b :: _) as r) => (a, b) :: path_edges r | _ => [] end.
Lemma mesh_uses_cnt eqv u v ts : mesh_uses eqv u v ts = cnt eqv u v (flat_map tri_edges ts).
Proof.
  unfold mesh_uses. induction ts as [|t ts IH]; [reflexivity|]. cbn [fold_right flat_map]. rewrite IH, cnt_app. unfold uses, tri_edges. cbn [cnt fst snd]. lia.
Qed.
Lemma path_uses_cnt eqv u v (l : list pt) : path_uses eqv u v l = cnt eqv u v (path_edges l).
Proof.
  induction l as [|a l IH]; [reflexivity|]. destruct l as [|b l]; [reflexivity|].
  change (path_uses eqv u v (a :: b :: l)) with ((if eqv a u && eqv b v then 1 else 0) + path_uses eqv u v (b :: l))%Z.
  rewrite IH. reflexivity.
Qed.
Lemma psum_edges f l : psum f l = esum_r f (path_edges l).
Proof.
  induction l as [|a l IH]; [reflexivity|]. destruct l as [|b l]; [reflexivity|]. rewrite psum_cons2, IH. reflexivity.
Qed.
Definition circ_r (f : pt -> pt -> R) (t : @tri Rnum) : R := f (ta t) (tb t) + f (tb t) (tc t) + f (tc t) (ta t).
Lemma stokes f (ts : list (@tri Rnum)) paths : (forall p q, f q p = - f p q) -> bounds veqb ts paths ->
  rsum (map (circ_r f) ts) = rsum (map (psum f) paths).
Proof.
  intros A B.
  assert (Z1 : esum_r f (flat_map tri_edges ts ++ map swp (flat_map path_edges paths)) = 0).
  { apply (cancel veqb); [intros; apply veqb_iff|exact A|]. intros u v. rewrite !cnt_app, !cnt_swp. specialize (B u v).
    rewrite !mesh_uses_cnt in B.
    assert (Q : fold_right (fun l s => path_uses veqb u v l - path_uses veqb v u l + s)%Z 0%Z paths =
      (cnt veqb u v (flat_map path_edges paths) - cnt veqb v u (flat_map path_edges paths))%Z).
    { clear. induction paths as [|p paths IH]; [reflexivity|]. cbn [fold_right flat_map]. rewrite IH, !cnt_app, !path_uses_cnt. lia. }
    rewrite Q in B. lia. }
  rewrite esum_r_app in Z1.
  assert (S1 : esum_r f (flat_map tri_edges ts) = rsum (map (circ_r f) ts)).
  { clear. induction ts as [|t ts IH]; [reflexivity|]. cbn [flat_map]. rewrite esum_r_app, IH.
    change (rsum (map (circ_r f) (t :: ts))) with (circ_r f t + rsum (map (circ_r f) ts)). unfold esum_r, tri_edges, circ_r. cbn. lra. }
  assert (S2 : esum_r f (map swp (flat_map path_edges paths)) = - rsum (map (psum f) paths)).
  { clear - A. induction paths as [|p paths IH]; [cbn; lra|]. cbn [flat_map]. rewrite map_app, esum_r_app, IH.
    change (rsum (map (psum f) (p :: paths))) with (psum f p + rsum (map (psum f) paths)). rewrite psum_edges.
    assert (G : forall es, esum_r f (map swp es) = - esum_r f es).
    { induction es as [|e es IH2]; [cbn; lra|]. change (f (snd e) (fst e) + esum_r f (map swp es) = - (f (fst e) (snd e) + esum_r f es)). rewrite IH2, A. lra. }
    rewrite G. lra. }
  lra.
Qed.
Lemma psum_outline f (l : list pt) : psum f (outline l true) = csum f l.
Proof. destruct l as [|p r]; [reflexivity|]. rewrite csum_psum. reflexivity. Qed.
Lemma inner_origin_l n : inner origin n = 0.
Proof. destruct n. alg. ring. Qed.
Lemma inner_plus_l a b n : inner (plus a b) n = inner a n + inner b n.
Proof. destruct a, b, n. alg. ring. Qed.
Lemma mesh_area_inner n ts : inner (mesh_area ts) n = rsum (map (circ_r (fun p q => inner (cross p q) n)) ts).
Proof.
  unfold mesh_area. induction ts as [|t ts IH]; [apply inner_origin_l|].
  change (rsum (map (circ_r (fun p q => inner (cross p q) n)) (t :: ts))) with (circ_r (fun p q => inner (cross p q) n) t + rsum (map (circ_r (fun p q => inner (cross p q) n)) ts)).
  rewrite <- IH. change (vsum (map tri_area (t :: ts))) with (plus (tri_area t) (vsum (map tri_area ts))).
  rewrite inner_plus_l. f_equal.
  unfold tri_area. rewrite inner_area, csum_psum. cbn [app psum]. unfold circ_r. ring.
Qed.
Lemma mesh_area_bounds (ts : list (@tri Rnum)) polys : bounds veqb ts (map (fun l => outline l true) polys) ->
  mesh_area ts = vsum (map area_vec polys).
Proof.
  intros B. apply inner_e. intros n. rewrite mesh_area_inner.
  assert (A : forall p q, inner (cross q p) n = - inner (cross p q) n) by (intros [px py pz] [qx qy qz]; destruct n; unfold cross; alg; ring).
  rewrite (stokes (fun p q => inner (cross p q) n) ts _ A B), map_map.
  clear A B. revert polys.
  assert (G : forall polys, rsum (map (fun x => psum (fun p q => inner (cross p q) n) (outline x true)) polys) = inner (vsum (map area_vec polys)) n).
  { induction polys as [|l polys IH]; [symmetry; apply inner_origin_l|].
    change (psum (fun p q => inner (cross p q) n) (outline l true) + rsum (map (fun x => psum (fun p q => inner (cross p q) n) (outline x true)) polys) =
      inner (plus (area_vec l) (vsum (map area_vec polys))) n).
    rewrite IH, psum_outline, <- inner_area, inner_plus_l. reflexivity. }
  exact G.
Qed.
Lemma volume_shift o o' (ts : list (@tri Rnum)) :
  mesh_volume o ts - mesh_volume o' ts = rsum (map (circ_r (fun p q => triple o' p q - triple o p q)) ts).
Proof.
  unfold mesh_volume. induction ts as [|t ts IH]; [cbn; lra|].
  change (orient o (ta t) (tb t) (tc t) + rsum (map (fun t => orient o (ta t) (tb t) (tc t)) ts) - (orient o' (ta t) (tb t) (tc t) + rsum (map (fun t => orient o' (ta t) (tb t) (tc t)) ts)) =
    circ_r (fun p q => triple o' p q - triple o p q) t + rsum (map (circ_r (fun p q => triple o' p q - triple o p q)) ts)).
  rewrite <- IH. unfold circ_r. 
  assert (orient o (ta t) (tb t) (tc t) - orient o' (ta t) (tb t) (tc t) = 
    triple o' (ta t) (tb t) - triple o (ta t) (tb t) + (triple o' (tb t) (tc t) - triple o (tb t) (tc t)) + (triple o' (tc t) (ta t) - triple o (tc t) (ta t))); [|lra].
  un; cbn; rn; ring.
Qed.
Lemma volume_closed o o' (ts : list (@tri Rnum)) : watertight veqb ts -> mesh_volume o ts = mesh_volume o' ts.
Proof.
  intros W. apply Rminus_diag_uniq. rewrite volume_shift.
  assert (A : forall p q, triple o' q p - triple o q p = - (triple o' p q - triple o p q)) by (intros [px py pz] [qx qy qz]; destruct o, o'; alg; ring).
  rewrite (stokes (fun p q => triple o' p q - triple o p q) ts [] A W). reflexivity.
Qed.
