(** The boundary of a recorded mesh. *)
From Coq Require Import ZArith List Bool Lia Arith.
From Verif Require Import Num GeoModel EdgeModel EdgeSpec EdgeMesh MeshModel MeshSpec.
Import ListNotations.

Section Proof.
Context {N : Num}.
Open Scope Z_scope.

(* walk around a closed polygon *)
Definition loop (f : weight) (l : list vec) : Z := walk f (outline l true).
Definition loops (f : weight) (ls : list (list vec)) : Z := fold_right (fun l s => loop f l + s) 0 ls.
(* the jump from the end of l1 to the start of l2 *)
Definition link (f : weight) (l1 l2 : list vec) : Z := f (last l1 vzero) (hd vzero l2).
Definition open_strip (f : weight) (s o : list vec) : Z :=
  walk f s - walk f o + f (last s vzero) (last o vzero) - f (hd vzero s) (hd vzero o).

Fixpoint bd (f : weight) (m : mesh) : Z :=
  match m with
  | MEmpty => 0
  | Strip s o true => loop f s - loop f o
  | Strip s o false => open_strip f s o
  | Fill e hs => loop f e + loops f hs
  | Tris l => flux f l
  | Plus m1 m2 => bd f m1 + bd f m2
  | Moved g m => bd (fun a b => f (g a) (g b)) m
  | Flipped g m => - bd (fun a b => f (g a) (g b)) m
  end.

Lemma weight_map f g : is_weight f -> keeps_eq g -> is_weight (fun a b => f (g a) (g b)).
Proof. intros [A B] K. split; [intros; apply A|]. intros u v w E. apply B, K, E. Qed.
Lemma last_outline (d : vec) l : l <> [] -> last (outline l true) d = hd d l.
Proof. intros H. destruct l as [|a l]; [contradiction|]. apply (last_last (a :: l)). Qed.

Lemma pairwise_nil_l o cl ts : meshPairwise [] o cl = Ok ts -> ts = [] /\ (endIdx o cl = 0)%nat.
Proof.
  unfold meshPairwise. intros H. apply bind_ok in H. destruct H as (ls & Hl & H). injection H as <-.
  destruct (Nat.max (endIdx o cl) (endIdx [] cl)) as [|n] eqn:E.
  - cbn in Hl. injection Hl as <-. split; [reflexivity|lia].
  - cbn [seq mapM] in Hl. apply bind_ok in Hl. destruct Hl as (q & Hq & _). unfold quadAt in Hq. cbn in Hq. discriminate.
Qed.
Lemma pairwise_nil_r s cl ts : meshPairwise s [] cl = Ok ts -> ts = [] /\ (endIdx s cl = 0)%nat.
Proof.
  unfold meshPairwise. intros H. apply bind_ok in H. destruct H as (ls & Hl & H). injection H as <-.
  destruct (Nat.max (endIdx [] cl) (endIdx s cl)) as [|n] eqn:E.
  - cbn in Hl. injection Hl as <-. split; [reflexivity|lia].
  - cbn [seq mapM] in Hl. apply bind_ok in Hl. destruct Hl as (q & Hq & _). unfold quadAt in Hq.
    destruct s as [|a s]; [cbn in Hq; discriminate|]. rewrite !(ept_tip (a :: s) cl vzero) in Hq by discriminate. cbn in Hq. discriminate.
Qed.

Lemma strip_flux f s o cl ts : is_weight f -> clean_strip s o cl vzero -> meshPairwise s o cl = Ok ts ->
  flux f ts = bd f (Strip s o cl).
Proof.
  intros W C H. destruct s as [|a s].
  { apply pairwise_nil_l in H. destruct H as (-> & E). unfold endIdx in E.
    destruct o as [|b [|c o]]; destruct cl; cbn in E |- *; try lia; unfold open_strip; cbn; unfold loop; cbn; lia. }
  destruct o as [|b o].
  { apply pairwise_nil_r in H. destruct H as (-> & E). unfold endIdx in E.
    destruct s as [|c s]; destruct cl; cbn in E |- *; try lia; unfold open_strip; cbn; unfold loop; cbn; lia. }
  assert (Hs : a :: s <> []) by discriminate. assert (Ho : b :: o <> []) by discriminate.
  rewrite (pairwise_flux f _ _ cl vzero ts W Hs Ho C H). destruct cl; cbn [bd].
  - rewrite !last_outline by assumption. unfold loop. lia.
  - cbn [outline]. unfold open_strip. reflexivity.
Qed.

Lemma flux_tmap f g ts : flux f (map (tmap g) ts) = flux (fun a b => f (g a) (g b)) ts.
Proof. induction ts as [|t ts IH]; [reflexivity|]. unfold flux in *. cbn [map fold_right]. rewrite IH. reflexivity. Qed.
Lemma flux_flip f g ts : is_weight f -> flux f (map (fun t => treversed (tmap g t)) ts) = - flux (fun a b => f (g a) (g b)) ts.
Proof.
  intros [A _]. induction ts as [|t ts IH]; [reflexivity|]. unfold flux in *. cbn [map fold_right]. rewrite IH.
  unfold circ, treversed, tmap. cbn [ta tb tc]. rewrite (A (g (tc t)) (g (tb t))), (A (g (tb t)) (g (ta t))), (A (g (ta t)) (g (tc t))). lia.
Qed.

(* the boundary law for a whole mesh *)
Theorem eval_flux fill m : forall f ts, is_weight f -> sound_mesh (exact_face fill) m -> eval fill m = Ok ts ->
  flux f ts = bd f m.
Proof.
  induction m as [|s o cl|e hs|l|m1 IH1 m2 IH2|g m IH|g m IH]; intros f ts W S H; cbn [eval bd sound_mesh] in *.
  - injection H as <-. reflexivity.
  - exact (strip_flux f s o cl ts W S H).
  - rewrite (S ts H f W). cbn [fold_right]. unfold loop, loops. f_equal.
    clear. induction hs as [|h hs IH]; [reflexivity|]. cbn [map fold_right]. rewrite IH. reflexivity.
  - injection H as <-. reflexivity.
  - apply bind_ok in H. destruct H as (a & Ha & H). apply bind_ok in H. destruct H as (b & Hb & H). injection H as <-.
    rewrite flux_app. rewrite (IH1 f a W (proj1 S) Ha), (IH2 f b W (proj2 S) Hb). reflexivity.
  - apply bind_ok in H. destruct H as (a & Ha & H). injection H as <-. rewrite flux_tmap.
    apply IH; [apply weight_map; [exact W|apply S]|apply S|exact Ha].
  - apply bind_ok in H. destruct H as (a & Ha & H). injection H as <-. rewrite flux_flip by exact W. f_equal.
    apply IH; [apply weight_map; [exact W|apply S]|apply S|exact Ha].
Qed.

Corollary eval_bounds fill m paths ts : sound_mesh (exact_face fill) m -> eval fill m = Ok ts ->
  (forall f, is_weight f -> bd f m = fold_right (fun l s => walk f l + s) 0 paths) ->
  forall eqv, point_eq eqv -> bounds eqv ts paths.
Proof. intros S H B. apply bounds_of_flux. intros f W. rewrite <- (B f W). apply (eval_flux fill m f ts W S H). Qed.
Corollary eval_watertight fill m ts : sound_mesh (exact_face fill) m -> eval fill m = Ok ts ->
  (forall f, is_weight f -> bd f m = 0) -> forall eqv, point_eq eqv -> watertight eqv ts.
Proof. intros S H B. unfold watertight. apply (eval_bounds fill m [] ts S H). exact B. Qed.

Lemma sound_mono (ok1 ok2 : list vec -> list (list vec) -> Prop) m : (forall e hs, ok1 e hs -> ok2 e hs) -> sound_mesh ok1 m -> sound_mesh ok2 m.
Proof. intros K. induction m; cbn; intuition. Qed.
Lemma bd_meshes f l : bd f (meshes l) = fold_right (fun m s => bd f m + s) 0 l.
Proof. induction l as [|m l IH]; [reflexivity|]. cbn [meshes bd fold_right]. rewrite IH. reflexivity. Qed.

(** ** walking along concatenations *)
Lemma loop_nil f : loop f [] = 0. Proof. reflexivity. Qed.
Lemma loop_walk1 f l : l <> [] -> loop f l = walk f l + link f l l.
Proof.
  intros H. unfold loop, outline. rewrite (walk_join f vzero l (firstn 1 l)) by (auto; destruct l; discriminate || contradiction).
  unfold link. destruct l as [|a l]; [contradiction|]. cbn [firstn hd walk]. lia.
Qed.
Lemma walk_app2 f l1 l2 : l1 <> [] -> l2 <> [] -> walk f (l1 ++ l2) = walk f l1 + link f l1 l2 + walk f l2.
Proof. intros. apply walk_join; assumption. Qed.
Lemma loop_rev f l : is_weight f -> loop f (rev l) = - loop f l.
Proof.
  intros W. destruct l as [|a l]; [reflexivity|].
  assert (H : rev (a :: l) <> []) by (intros K; apply (f_equal (@length _)) in K; rewrite rev_length in K; discriminate).
  rewrite !loop_walk1 by (assumption || discriminate). rewrite walk_rev by exact W. unfold link. rewrite last_rev, hd_rev.
  rewrite (proj1 W (hd vzero (a :: l))). lia.
Qed.
Lemma walk_map f (g : vec -> vec) l : walk f (map g l) = walk (fun a b => f (g a) (g b)) l.
Proof. induction l as [|a [|b l] IH]; [reflexivity|reflexivity|]. cbn [map walk] in *. rewrite IH. reflexivity. Qed.
Lemma loop_map f (g : vec -> vec) l : loop f (map g l) = loop (fun a b => f (g a) (g b)) l.
Proof.
  unfold loop, outline. assert (E : firstn 1 (map g l) = map g (firstn 1 l)) by (destruct l; reflexivity).
  rewrite E, <- map_app. apply walk_map.
Qed.
End Proof.
