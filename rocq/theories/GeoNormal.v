(** Surface normals, areas and the flattening used for triangulation. *)
From Coq Require Import Reals Lra Lia List Bool.
From Verif Require Import Num GeoModel GeoSpec GeoMat GeoRigid GeoPlane NormSpec.
Import ListNotations.
Open Scope R_scope.

(* sums along a path and around a cycle *)
Fixpoint psum (f : pt -> pt -> R) (l : list pt) : R :=
  match l with a :: ((b :: _) as r) => f a b + psum f r | _ => 0 end.
Definition csum (f : pt -> pt -> R) (l : list pt) : R := rsum (map (fun e => f (fst e) (snd e)) (cyclic_pairs l)).

Lemma psum_cons2 f a b r : psum f (a :: b :: r) = f a b + psum f (b :: r).
Proof. reflexivity. Qed.
Lemma psum_app f l a r : psum f (l ++ a :: r) = psum f (l ++ [a]) + psum f (a :: r).
Proof.
  induction l as [|b l IH]; [cbn; destruct r; lra|].
  destruct l as [|c l].
  - cbn [app]. rewrite psum_cons2. cbn [psum]. lra.
  - cbn [app] in *. rewrite !psum_cons2, IH. lra.
Qed.
Lemma psum_rev f l : psum f (rev l) = psum (fun p q => f q p) l.
Proof.
  induction l as [|a l IH]; [reflexivity|]. destruct l as [|b l]; [reflexivity|].
  rewrite psum_cons2, <- IH. cbn [rev]. rewrite <- app_assoc. cbn [app]. rewrite psum_app. cbn [psum]. lra.
Qed.
Lemma csum_psum f p r : csum f (p :: r) = psum f (p :: r ++ [p]).
Proof.
  unfold csum, cyclic_pairs, turn. 
  assert (G : forall x l, rsum (map (fun e => f (fst e) (snd e)) (combine (x :: l) (l ++ [p]))) = psum f (x :: l ++ [p])).
  { intros x l. revert x. induction l as [|y l IH]; intros x; [cbn; lra|].
    change (f x y + rsum (map (fun e => f (fst e) (snd e)) (combine (y :: l) (l ++ [p]))) = psum f (x :: (y :: l) ++ [p])).
    rewrite IH. reflexivity. }
  apply G.
Qed.
Lemma csum_turn f l : csum f (turn l) = csum f l.
Proof.
  destruct l as [|p r]; [reflexivity|]. cbn [turn]. destruct r as [|q r]; [reflexivity|].
  cbn [app]. rewrite !csum_psum. cbn [app]. rewrite psum_cons2, <- app_assoc. cbn [app].
  change (q :: r ++ [p; q]) with ((q :: r) ++ p :: [q]). rewrite psum_app. cbn [app psum]. lra.
Qed.
Lemma csum_rev f l : csum f (rev l) = csum (fun p q => f q p) l.
Proof.
  destruct l as [|p r]; [reflexivity|]. cbn [rev]. change (rev r ++ [p]) with (turn (p :: rev r)).
  rewrite csum_turn, !csum_psum, <- (psum_rev f (p :: r ++ [p])). cbn [rev]. rewrite rev_app_distr. reflexivity.
Qed.
Lemma csum_ext f g l : (forall p q, f p q = g p q) -> csum f l = csum g l.
Proof. intros H. unfold csum. f_equal. apply map_ext. intros [p q]. apply H. Qed.
Lemma rsum_map_add {A} (f g : A -> R) l : rsum (map (fun e => f e + g e) l) = rsum (map f l) + rsum (map g l).
Proof. induction l as [|x l IH]; cbn; [lra|]. unfold rsum in IH. rewrite IH. lra. Qed.
Lemma rsum_map_scal {A} (f : A -> R) k l : rsum (map (fun e => k * f e) l) = k * rsum (map f l).
Proof. induction l as [|x l IH]; cbn; [lra|]. unfold rsum in IH. rewrite IH. lra. Qed.
Lemma csum_add f g l : csum (fun p q => f p q + g p q) l = csum f l + csum g l.
Proof. unfold csum. apply (rsum_map_add (fun e => f (fst e) (snd e)) (fun e => g (fst e) (snd e))). Qed.
Lemma csum_scal f k l : csum (fun p q => k * f p q) l = k * csum f l.
Proof. unfold csum. apply (rsum_map_scal (fun e => f (fst e) (snd e))). Qed.
Lemma csum_tele g l : csum (fun p q => g p - g q) l = 0.
Proof.
  destruct l as [|p r]; [reflexivity|]. rewrite csum_psum.
  assert (G : forall x l, psum (fun p q => g p - g q) (x :: l ++ [p]) = g x - g p).
  { intros x l. revert x. induction l as [|y l IH]; intros x; [cbn; lra|]. cbn [app]. rewrite psum_cons2, IH. lra. }
  rewrite G. lra.
Qed.
Lemma combine_map {A B} (h : A -> B) (l l' : list A) : combine (map h l) (map h l') = map (fun e => (h (fst e), h (snd e))) (combine l l').
Proof. revert l'. induction l as [|x l IH]; intros l'; [reflexivity|]. destruct l'; [reflexivity|]. cbn. rewrite IH. reflexivity. Qed.
Lemma turn_map {A B} (h : A -> B) (l : list A) : turn (map h l) = map h (turn l).
Proof. destruct l; [reflexivity|]. cbn. rewrite map_app. reflexivity. Qed.
Lemma csum_map f h l : csum f (map h l) = csum (fun p q => f (h p) (h q)) l.
Proof. unfold csum, cyclic_pairs. rewrite turn_map, combine_map, map_map. reflexivity. Qed.

Lemma vsum_X {A} (g : A -> pt) es : X (vsum (map g es)) = rsum (map (fun e => X (g e)) es).
Proof.
  induction es as [|e r IH]; [reflexivity|].
  change (X (g e) + X (vsum (map g r)) = X (g e) + rsum (map (fun e => X (g e)) r)). rewrite IH. reflexivity.
Qed.
Lemma area_vec_X l : X (area_vec l) = csum (fun p q => X (cross p q)) l.
Proof. unfold area_vec, csum. apply vsum_X. Qed.
Lemma vsum_Y {A} (g : A -> pt) es : Y (vsum (map g es)) = rsum (map (fun e => Y (g e)) es).
Proof.
  induction es as [|e r IH]; [reflexivity|].
  change (Y (g e) + Y (vsum (map g r)) = Y (g e) + rsum (map (fun e => Y (g e)) r)). rewrite IH. reflexivity.
Qed.
Lemma area_vec_Y l : Y (area_vec l) = csum (fun p q => Y (cross p q)) l.
Proof. unfold area_vec, csum. apply vsum_Y. Qed.
Lemma vsum_Z {A} (g : A -> pt) es : Z (vsum (map g es)) = rsum (map (fun e => Z (g e)) es).
Proof.
  induction es as [|e r IH]; [reflexivity|].
  change (Z (g e) + Z (vsum (map g r)) = Z (g e) + rsum (map (fun e => Z (g e)) r)). rewrite IH. reflexivity.
Qed.
Lemma area_vec_Z l : Z (area_vec l) = csum (fun p q => Z (cross p q)) l.
Proof. unfold area_vec, csum. apply vsum_Z. Qed.
Lemma area_xy_csum l : area_xy l = csum (fun p q => Z (cross p q)) l.
Proof. reflexivity. Qed.

(* Newell's sums are the directed area *)
Lemma newell_sum first l acc : l <> [] ->
  newell first l acc = P (X acc + psum (fun p q => (Y p - Y q) * (Z p + Z q)) (l ++ [first]))
    (Y acc + psum (fun p q => (Z p - Z q) * (X p + X q)) (l ++ [first]))
    (Z acc + psum (fun p q => (X p - X q) * (Y p + Y q)) (l ++ [first])).
Proof.
  revert acc. induction l as [|p l IH]; intros acc NE; [contradiction|]. destruct l as [|q l].
  - cbn. apply pt_ext; cbn; rn; unfold X, Y, Z; lra.
  - change (newell first (p :: q :: l) acc) with (newell first (q :: l) (newell_term p q acc)).
    rewrite IH by discriminate. cbn [app]. rewrite !psum_cons2. apply pt_ext; cbn [X Y Z P vx vy vz newell_term]; unfold X, Y, Z; cbn; rn; lra.
Qed.
Lemma newell_area p r : newell p (p :: r) (vzero : pt) = area_vec (p :: r).
Proof.
  rewrite newell_sum by discriminate. cbn [app]. rewrite <- !csum_psum. apply pt_ext.
  - rewrite area_vec_X. change (0 + csum (fun p q => (Y p - Y q) * (Z p + Z q)) (p :: r) = csum (fun p q => X (cross p q)) (p :: r)).
    rewrite (csum_ext _ (fun p q => X (cross p q) + (Y p * Z p - Y q * Z q)) (p :: r)) by (intros; unfold cross; un; cbn; rn; ring).
    rewrite csum_add, (csum_tele (fun p => Y p * Z p)). lra.
  - rewrite area_vec_Y. change (0 + csum (fun p q => (Z p - Z q) * (X p + X q)) (p :: r) = csum (fun p q => Y (cross p q)) (p :: r)).
    rewrite (csum_ext _ (fun p q => Y (cross p q) + (Z p * X p - Z q * X q)) (p :: r)) by (intros; unfold cross; un; cbn; rn; ring).
    rewrite csum_add, (csum_tele (fun p => Z p * X p)). lra.
  - rewrite area_vec_Z. change (0 + csum (fun p q => (X p - X q) * (Y p + Y q)) (p :: r) = csum (fun p q => Z (cross p q)) (p :: r)).
    rewrite (csum_ext _ (fun p q => Z (cross p q) + (X p * Y p - X q * Y q)) (p :: r)) by (intros; unfold cross; un; cbn; rn; ring).
    rewrite csum_add, (csum_tele (fun p => X p * Y p)). lra.
Qed.
Lemma surfaceNormal_area l : surfaceNormal l = vnorm (area_vec l).
Proof. unfold surfaceNormal. destruct l as [|p r]; [reflexivity|]. rewrite newell_area. reflexivity. Qed.

Lemma area_vec_turn l : area_vec (turn l) = area_vec l.
Proof. apply pt_ext; [rewrite !area_vec_X|rewrite !area_vec_Y|rewrite !area_vec_Z]; apply csum_turn. Qed.
Lemma csum_anti f l : (forall p q, f q p = - f p q) -> csum (fun p q => f q p) l = - csum f l.
Proof. intros H. rewrite (csum_ext _ (fun p q => (-1) * f p q)) by (intros; rewrite H; ring). rewrite csum_scal. ring. Qed.
Lemma area_vec_rev l : area_vec (rev l) = scaled (-1) (area_vec l).
Proof.
  apply pt_ext; [rewrite area_vec_X|rewrite area_vec_Y|rewrite area_vec_Z]; rewrite csum_rev, csum_anti by (intros; unfold cross; un; cbn; rn; ring);
    [rewrite <- area_vec_X|rewrite <- area_vec_Y|rewrite <- area_vec_Z]; un; cbn; rn; ring.
Qed.
Lemma inner_area n l : inner (area_vec l) n = csum (fun p q => inner (cross p q) n) l.
Proof.
  unfold inner. rewrite area_vec_X, area_vec_Y, area_vec_Z.
  rewrite (csum_ext (fun p q => X (cross p q) * X n + Y (cross p q) * Y n + Z (cross p q) * Z n)
    (fun p q => X n * X (cross p q) + Y n * Y (cross p q) + Z n * Z (cross p q))) by (intros; ring).
  rewrite !csum_add, !csum_scal. ring.
Qed.
(* measured from any origin *)
Lemma area_vec_origin o l n : inner (area_vec l) n = csum (fun p q => inner (cross (minus p o) (minus q o)) n) l.
Proof.
  rewrite inner_area.
  rewrite (csum_ext (fun p q => inner (cross (minus p o) (minus q o)) n)
    (fun p q => inner (cross p q) n + (inner (cross o p) n - inner (cross o q) n))) by (intros; unfold cross; un; cbn; rn; ring).
  rewrite csum_add, (csum_tele (fun p => inner (cross o p) n)). lra.
Qed.
Lemma inner_e (v w : pt) : (forall n, inner v n = inner w n) -> v = w.
Proof.
  intros H. apply pt_ext; [specialize (H (P 1 0 0))|specialize (H (P 0 1 0))|specialize (H (P 0 0 1))]; un; cbn in *; rn; lra.
Qed.
Lemma area_vec_shift o l : area_vec (map (fun p => plus p o) l) = area_vec l.
Proof.
  apply inner_e. intros n. rewrite (area_vec_origin o), csum_map, inner_area. apply csum_ext. intros p q.
  f_equal. f_equal; apply pt_ext; un; cbn; rn; ring.
Qed.
(* a flat polygon: the directed area is along the normal *)
Lemma csum_zero_in f l : (forall p q, In p l -> In q l -> f p q = 0) -> csum f l = 0.
Proof.
  intros H. unfold csum. assert (G : forall es, (forall e, In e es -> f (fst e) (snd e) = 0) -> rsum (map (fun e => f (fst e) (snd e)) es) = 0).
  { induction es as [|e es IH]; intros K; [reflexivity|]. cbn. rewrite K by (left; reflexivity). unfold rsum in IH. rewrite IH; [lra|]. intros e' I. apply K. right. exact I. }
  apply G. intros [p q] I. unfold cyclic_pairs in I. pose proof (in_combine_l _ _ _ _ I) as A. pose proof (in_combine_r _ _ _ _ I) as B.
  apply H; [exact A|]. destruct l as [|x l]; [destruct B|]. cbn [turn] in B. apply in_app_iff in B. cbn in B. cbn. tauto.
Qed.
Lemma cross_perp u v n w : inner u n = 0 -> inner v n = 0 -> inner w n = 0 -> n <> origin -> inner (cross u v) w = 0.
Proof.
  intros A B C NE.
  (* (u x v).w * |n|^2 = det... : n is parallel to u x v up to scale *)
  assert (K : inner n n * inner (cross u v) w = inner (cross u v) n * inner w n).
  { assert (Q : inner n n * inner (cross u v) w - inner (cross u v) n * inner w n
      = inner (cross (cross u v) n) (cross w n)).
    { unfold cross. un. cbn. rn. ring. }
    assert (Q2 : cross (cross u v) n = minus (scaled (inner u n) v) (scaled (inner v n) u)).
    { apply pt_ext; unfold cross; un; cbn; rn; ring. }
    rewrite Q2, A, B in Q. assert (inner (minus (scaled 0 v) (scaled 0 u)) (cross w n) = 0) by (un; cbn; rn; ring). lra. }
  rewrite C, Rmult_0_r in K. apply Rmult_integral in K. destruct K as [K|K]; [|exact K]. exfalso. apply NE, inner_zero, K.
Qed.
Lemma parallel_of_perp (v n : pt) : n <> origin -> (forall w, inner w n = 0 -> inner v w = 0) -> exists s, v = scaled s n.
Proof.
  intros NE H. exists (inner v n / inner n n).
  assert (NN : inner n n <> 0) by (intros E; apply NE, inner_zero, E).
  assert (K : inner (minus v (scaled (inner v n / inner n n) n)) n = 0).
  { transitivity (inner v n - inner v n / inner n n * inner n n); [un; cbn; rn; ring|field; exact NN]. }
  pose proof (H _ K) as K2. set (w := minus v (scaled (inner v n / inner n n) n)) in *.
  assert (W : inner w w = 0).
  { transitivity (inner v w - (inner v n / inner n n) * inner w n); [unfold w; un; cbn; rn; ring|]. rewrite K, K2. ring. }
  apply inner_zero in W. apply pt_ext; [apply (f_equal X) in W|apply (f_equal Y) in W|apply (f_equal Z) in W]; unfold w in W; un; cbn in *; rn; lra.
Qed.
Lemma planar_area n l : n <> origin -> planar n l -> exists s, area_vec l = scaled s n.
Proof.
  intros NE PL. apply parallel_of_perp; [exact NE|]. intros w W. destruct l as [|o r]; [unfold area_vec; cbn; un; cbn; rn; ring|].
  rewrite (area_vec_origin o). apply csum_zero_in. intros p q Ip Iq. apply (cross_perp _ _ n); auto.
  - apply PL; [exact Ip|left; reflexivity].
  - apply PL; [exact Iq|left; reflexivity].
Qed.
Lemma area_vec_tri a b c : area_vec [a; b; c] = cross (minus b a) (minus c a).
Proof. apply pt_ext; unfold area_vec, cyclic_pairs; unfold cross; un; cbn; rn; ring. Qed.
