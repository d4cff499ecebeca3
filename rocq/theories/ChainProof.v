(** Boundaries of meshes made of chains of points: each chain is known by its first and last point and its weight. *)
From Coq Require Import ZArith List Bool Lia Arith.
From Verif Require Import Num GeoModel EdgeModel EdgeSpec EdgeMesh MeshModel MeshSpec MeshProof LayoutModel LayoutProof PartSpec.
Import ListNotations.

Section Chain.
Context {N : Num}.
Open Scope Z_scope.
Implicit Types f : @weight N.

(* l is not empty, starts at a, ends at b, and its walk weighs w *)
Definition chain f (l : list vec) (a b : vec) (w : Z) : Prop := l <> [] /\ hd vzero l = a /\ last l vzero = b /\ walk f l = w.
Lemma chain_one f a : chain f [a] a a 0.
Proof. split; [discriminate|]. split; [reflexivity|]. split; reflexivity. Qed.
Lemma chain_self f l a b : pyidx l 0 = Ok a -> pyidx l (-1) = Ok b -> chain f l a b (walk f l).
Proof.
  rewrite pyidx_first, pyidx_last. intros H1 H2. destruct l as [|x l]; [discriminate|]. injection H1 as <-.
  destruct (rev (x :: l)) as [|y r] eqn:E; [discriminate|]. injection H2 as <-.
  split; [discriminate|]. split; [reflexivity|]. split; [|reflexivity].
  rewrite <- (rev_involutive (x :: l)), E. cbn [rev]. apply last_last.
Qed.
Lemma chain_app f l1 l2 a b c d w v : chain f l1 a b w -> chain f l2 c d v -> chain f (l1 ++ l2) a d (w + f b c + v).
Proof.
  intros (N1 & H1 & L1 & W1) (N2 & H2 & L2 & W2). split; [destruct l1; [contradiction|discriminate]|].
  split; [destruct l1; [contradiction|exact H1]|]. split.
  - destruct (exists_last N2) as (r & y & ->). rewrite app_assoc, last_last. rewrite last_last in L2. exact L2.
  - rewrite walk_app2 by assumption. unfold link. rewrite H2, L1, W1, W2. reflexivity.
Qed.
Lemma chain_cons f x l a b w : chain f l a b w -> chain f (x :: l) x b (f x a + w).
Proof. intros H. replace (f x a + w) with (0 + f x a + w) by lia. exact (chain_app f [x] l x x a b 0 w (chain_one f x) H). Qed.
Lemma chain_rev f l a b w : is_weight f -> chain f l a b w -> chain f (rev l) b a (- w).
Proof.
  intros W (H1 & H2 & H3 & H4). split; [intros K; apply (f_equal (@length _)) in K; rewrite rev_length in K; destruct l; [contradiction|discriminate]|].
  split; [rewrite hd_rev; exact H3|]. split; [rewrite last_rev; exact H2|]. rewrite walk_rev, H4 by exact W. reflexivity.
Qed.
Lemma chain_map f (g : vec -> vec) l a b w : chain (fun x y => f (g x) (g y)) l a b w -> chain f (map g l) (g a) (g b) w.
Proof.
  intros (H1 & H2 & H3 & H4). split; [destruct l; [contradiction|discriminate]|]. split; [destruct l; [contradiction|cbn in *; subst; reflexivity]|].
  split; [|rewrite walk_map; exact H4]. destruct (exists_last H1) as (r & y & ->). rewrite map_app. cbn [map]. rewrite last_last in *. subst. reflexivity.
Qed.
Lemma chain_walk f l a b w : chain f l a b w -> walk f l = w.
Proof. intros H. apply H. Qed.
Lemma chain_loop f l a b w : chain f l a b w -> loop f l = w + f b a.
Proof. intros (H1 & H2 & H3 & H4). rewrite loop_walk1 by exact H1. unfold link. rewrite H2, H3, H4. reflexivity. Qed.
Lemma chain_strip f s o a b w a' b' w' : chain f s a b w -> chain f o a' b' w' -> bd f (Strip s o false) = w - w' + f b b' - f a a'.
Proof. intros (_ & H2 & H3 & H4) (_ & K2 & K3 & K4). cbn [bd]. unfold open_strip. rewrite H2, H3, H4, K2, K3, K4. reflexivity. Qed.

(* dropping a point that equals its successor changes no loop *)
Lemma segs_two (a b : vec) l : segs_open (a :: b :: l) = mkSeg a b :: segs_open (b :: l).
Proof. reflexivity. Qed.
Lemma dropped_walk f t e : is_weight f -> forall l, l <> [] ->
  (forall s, In s (segs_open (l ++ [e])) -> nleb t (smag s) = false -> veqb (sa s) (sb s) = true) ->
  let k := map sa (filter (fun s => nleb t (smag s)) (segs_open (l ++ [e]))) in
  walk f (k ++ [e]) = walk f (l ++ [e]) /\ forall w, f (hd vzero (k ++ [e])) w = f (hd vzero l) w.
Proof.
  intros W. induction l as [|a l IH]; intros NE H; [contradiction|]. cbn [app]. destruct l as [|b l].
  - cbn [app segs_open filter map] in *. destruct (nleb t (smag (mkSeg a e))) eqn:C; cbn [map app hd walk sa].
    + split; [reflexivity|]. reflexivity.
    + pose proof (H _ (or_introl eq_refl) C) as E. cbn [sa sb] in E. split.
      * rewrite (proj2 W a e e E), (weight_diag f e W). reflexivity.
      * intros w. symmetry. exact (proj2 W a e w E).
  - assert (H' : forall s, In s (segs_open ((b :: l) ++ [e])) -> nleb t (smag s) = false -> veqb (sa s) (sb s) = true).
    { intros s I. apply H. cbn [app]. rewrite segs_two. right. exact I. }
    specialize (IH ltac:(discriminate) H'). cbv zeta in IH. destruct IH as (IW & IH). cbn [app] in *. rewrite segs_two. cbn [filter].
    set (k := map sa (filter (fun s => nleb t (smag s)) (segs_open (b :: l ++ [e])))) in *.
    destruct (nleb t (smag (mkSeg a b))) eqn:C.
    + cbn [map sa]. fold k. split; [|reflexivity]. destruct k as [|x k'] eqn:K.
      * pose proof (IH a) as Q. cbn [app hd] in Q. cbn [app] in *. change (walk f [a; e]) with (f a e + 0). change (walk f (a :: b :: l ++ [e])) with (f a b + walk f (b :: l ++ [e])). rewrite <- IW, (proj1 W a e), Q, <- (proj1 W a b). reflexivity.
      * cbn [app] in *. change (walk f (a :: x :: k' ++ [e])) with (f a x + walk f (x :: k' ++ [e])). change (walk f (a :: b :: l ++ [e])) with (f a b + walk f (b :: l ++ [e])). rewrite IW.
        rewrite (proj1 W a x). pose proof (IH a) as Q. cbn [hd] in Q. rewrite Q, <- (proj1 W a b). reflexivity.
    + fold k. pose proof (H (mkSeg a b) ltac:(rewrite segs_two; left; reflexivity) C) as E. cbn [sa sb] in E. split.
      * rewrite IW. change (walk f (a :: b :: l ++ [e])) with (f a b + walk f (b :: l ++ [e])). rewrite (proj2 W a b b E), (weight_diag f b W). reflexivity.
      * intros w. rewrite (IH w). cbn [hd]. symmetry. exact (proj2 W a b w E).
Qed.
Lemma last_any (A : Type) (l : list A) d d' : l <> [] -> last l d = last l d'.
Proof. intros H. destruct (exists_last H) as (r & y & ->). rewrite !last_last. reflexivity. Qed.
Lemma closed_segs (a : vec) l : toSegments (a :: l) true = segs_open ((a :: l) ++ [a]).
Proof.
  unfold toSegments. revert a. assert (G : forall l a e, segs_open (a :: l) ++ [mkSeg (last (a :: l) a) e] = segs_open ((a :: l) ++ [e])).
  { clear l. induction l as [|b l IH]; intros a e; [reflexivity|]. cbn [app]. rewrite !segs_two. cbn [app]. f_equal. change (b :: l ++ [e]) with ((b :: l) ++ [e]). rewrite <- (IH b e). f_equal. f_equal. f_equal.
    change (last (a :: b :: l) a) with (last (b :: l) a). apply last_any. discriminate. }
  intros a. apply G.
Qed.
Lemma collapsed_loop f t l : is_weight f -> no_short t l -> loop f (collapsed l t) = loop f l.
Proof.
  intros W H. destruct l as [|a l]; [reflexivity|]. unfold collapsed. unfold no_short in H. rewrite closed_segs in H |- *.
  pose proof (dropped_walk f t a W (a :: l) ltac:(discriminate) H) as D. cbv zeta in D. destruct D as (DW & DH).
  set (k := map sa (filter (fun s => nleb t (smag s)) (segs_open ((a :: l) ++ [a])))) in *.
  transitivity (walk f (k ++ [a])).
  - destruct k as [|x k]; [reflexivity|]. rewrite loop_walk1 by discriminate. rewrite walk_app2 by discriminate. unfold link. cbn [app hd] in *.
    rewrite (proj1 W _ x), (DH (last (x :: k) vzero)), <- (proj1 W _ a). cbn [walk]. lia.
  - rewrite DW. reflexivity.
Qed.
End Chain.

(* build the chain of a concatenation; chains of opaque lists are hypotheses *)
Ltac chain := lazymatch goal with
  | |- chain _ [?a] _ _ _ => apply chain_one
  | |- chain _ (_ ++ _) _ _ _ => eapply chain_app; [chain|chain]
  | |- chain _ (_ :: _) _ _ _ => eapply chain_cons; chain
  | |- chain _ (rev _) _ _ _ => eapply chain_rev; [eassumption|chain]
  | |- chain _ (map _ _) _ _ _ => eapply chain_map; chain
  | |- _ => eassumption
  end.
(* replace the weights of all steps by numbers, both directions together *)
Ltac steps f W := repeat match goal with |- context[f ?x ?y] =>
  let E := fresh "E" in pose proof (proj1 W x y) as E;
  let u := fresh "u" in let v := fresh "v" in
  set (u := f x y) in *; try (set (v := f y x) in *); clearbody u; try clearbody v end.
