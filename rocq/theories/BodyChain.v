(** More about chains: gaps that may be empty, rotated loops, collapsed parts of edges over the reals. *)
From Coq Require Import Reals Lra.
From Coq Require Import ZArith List Bool Lia Arith.
From Verif Require Import Num GeoModel EdgeModel EdgeSpec EdgeMesh MeshModel MeshSpec MeshProof LayoutModel LayoutProof PartSpec ChainProof GeoSpec GeoMat GeoPlane GeoFig.
Import ListNotations.

Section Gap.
Context {N : Num}.
Open Scope Z_scope.
Implicit Types f : @weight N.
(* marks a list that may be empty *)
Definition may_be_empty (l : list (@vec N)) : Prop := True.
Lemma chain_gap f x l r a b w : chain f r a b w -> chain f (x :: l ++ r) x b (walk f (x :: l ++ [a]) + w).
Proof.
  revert x. induction l as [|y l IH]; intros x H; cbn [app].
  - replace (walk f [x; a] + w) with (f x a + w) by (cbn [walk]; lia). apply chain_cons. exact H.
  - change (walk f (x :: y :: l ++ [a])) with (f x y + walk f (y :: l ++ [a])). rewrite <- Z.add_assoc. apply chain_cons. apply IH. exact H.
Qed.
Lemma walk_gap f x l a r : walk f (x :: l ++ a :: r) = walk f (x :: l ++ [a]) + walk f (a :: r).
Proof.
  revert x. induction l as [|y l IH]; intros x; cbn [app].
  - cbn [walk]. lia.
  - change (walk f (x :: y :: l ++ a :: r)) with (f x y + walk f (y :: l ++ a :: r)). change (walk f (x :: y :: l ++ [a])) with (f x y + walk f (y :: l ++ [a])).
    rewrite IH. lia.
Qed.
Lemma loop_cons f a l : loop f (a :: l) = walk f (a :: l ++ [a]).
Proof. reflexivity. Qed.
Lemma loop_rot f l a r : loop f (l ++ a :: r) = loop f (a :: r ++ l).
Proof.
  destruct l as [|b l]; cbn [app]; [rewrite app_nil_r; reflexivity|]. rewrite !loop_cons. rewrite <- !app_assoc. cbn [app].
  rewrite (walk_gap f b l a (r ++ [b])), (walk_gap f a r b (l ++ [a])). lia.
Qed.
Lemma gap_rev f a l b : is_weight f -> walk f (b :: rev l ++ [a]) = - walk f (a :: l ++ [b]).
Proof. intros W. rewrite <- walk_rev by exact W. cbn [rev]. rewrite rev_app_distr. reflexivity. Qed.
End Gap.

Ltac chain2 := lazymatch goal with
  | |- chain _ [?a] _ _ _ => apply chain_one
  | M : may_be_empty ?l |- chain _ (?x :: ?l ++ _) _ _ _ => eapply chain_gap; chain2
  | |- chain _ (_ ++ _) _ _ _ => eapply chain_app; [chain2|chain2]
  | |- chain _ (_ :: _) _ _ _ => eapply chain_cons; chain2
  | |- chain _ (rev _) _ _ _ => eapply chain_rev; [eassumption|chain2]
  | |- chain _ (map _ _) _ _ _ => eapply chain_map; chain2
  | |- _ => eassumption
  end.

Open Scope Z_scope.
Lemma hd_dropped (t : R) : forall (l : list pt) e, l <> [] ->
  (forall s, In s (segs_open (l ++ [e])) -> @nleb Rnum t (smag s) = false -> veqb (sa s) (sb s) = true) ->
  hd vzero (map sa (filter (fun s => @nleb Rnum t (smag s)) (segs_open (l ++ [e]))) ++ [e]) = hd vzero l.
Proof.
  induction l as [|a l IH]; intros e NE H; [contradiction|]. destruct l as [|b l].
  - cbn [app segs_open filter]. destruct (@nleb Rnum t (smag (mkSeg a e))) eqn:C; [reflexivity|]. cbn [map app hd].
    pose proof (H _ (or_introl eq_refl) C) as E. apply veqb_iff in E. cbn [sa sb] in E. auto.
  - cbn [app] in H |- *. change (@segs_open Rnum (a :: b :: l ++ [e])) with (mkSeg a b :: segs_open (b :: l ++ [e])) in H |- *. cbn [filter]. destruct (@nleb Rnum t (smag (mkSeg a b))) eqn:C; [reflexivity|].
    pose proof (H (mkSeg a b) (or_introl eq_refl) C) as E. apply veqb_iff in E. cbn [sa sb] in E. subst b.
    change (a :: l ++ [e]) with ((a :: l) ++ [e]). rewrite IH; [reflexivity|discriminate|]. intros s I. apply H. right. exact I.
Qed.
Lemma segs_last (l : list pt) (z e : pt) : segs_open (l ++ [z; e]) = segs_open (l ++ [z]) ++ [mkSeg z e].
Proof.
  induction l as [|a [|b l] IH]; [reflexivity|reflexivity|]. cbn [app] in *.
  change (@segs_open Rnum (a :: b :: l ++ [z; e])) with (mkSeg a b :: segs_open (b :: l ++ [z; e])). rewrite IH. reflexivity.
Qed.
Lemma collapsed_chain (f : @weight Rnum) t l a b w : is_weight f -> chain f l a b w -> no_short_open t l -> chain f (collapsed l t) a b w.
Proof.
  intros W C (H & E). destruct C as (NE & H1 & H2 & H3). subst a b w. destruct l as [|a l]; [contradiction|]. unfold collapsed. unfold no_short in H.
  rewrite closed_segs in H |- *.
  pose proof (dropped_walk f t a W (a :: l) ltac:(discriminate) H) as D. cbv zeta in D. destruct D as (DW & _).
  pose proof (hd_dropped t (a :: l) a ltac:(discriminate) H) as DH.
  destruct (exists_last NE) as (r & z & EL). rewrite EL in *. rewrite last_last in *. rewrite <- app_assoc in *. cbn [app hd] in *.
  rewrite segs_last in *. rewrite filter_app in *. cbn [filter] in *.
  assert (EH : hd vzero (r ++ [z]) = a) by (rewrite <- EL; reflexivity). rewrite EH in *. rewrite E in *. rewrite map_app in *. cbn [map sa] in *.
  set (k := map sa _) in *. clearbody k.
  split; [destruct k; discriminate|]. split; [destruct k; [|]; exact DH|]. split; [apply last_last|].
  rewrite <- app_assoc in DW. cbn [app] in DW.
  assert (T : forall m : list pt, walk f (m ++ [z; a]) = walk f (m ++ [z]) + f z a).
  { intros m. destruct m as [|y m]; [cbn [app walk]; lia|]. exact (eq_trans (walk_gap f y m z [a]) (f_equal (Z.add _) (Z.add_0_r _))). }
  pose proof (T k) as T1. pose proof (T r) as T2. change (walk f (k ++ [z]) = walk f (r ++ [z])). apply (Z.add_cancel_r _ _ (f z a)). exact (eq_trans (eq_sym T1) (eq_trans DW T2)).
Qed.
