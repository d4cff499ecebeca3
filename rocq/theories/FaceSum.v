(** Signed cover of the plane by a mesh. *)
From Coq Require Import Reals Lra ZArith List Permutation Lia Arith Bool.
From Verif Require Import Num GeoModel EdgeModel FaceModel GeoSpec GeoMat GeoCirc EdgeSpecR FaceSpec FaceSpecR FaceCover FaceFlipR FaceAll FaceHoleR.
Import ListNotations.
Open Scope R_scope.
Section Sum.
Variable pts : list pt.
Lemma wtri_turned t x : wtri pts (turned t) x = (- wtri pts t x)%Z.
Proof.
  destruct t as [[a b] c]. unfold wtri, winding. cbn [turned tri_sides fold_right fst snd].
  rewrite (crossing_anti x (at_ pts a) (at_ pts c)), (crossing_anti x (at_ pts c) (at_ pts b)), (crossing_anti x (at_ pts b) (at_ pts a)). lia.
Qed.
Lemma area_turned t : area2 pts (turned t) = - area2 pts t.
Proof. destruct t as [[a b] c]. cbn. unfold side. ring. Qed.
Lemma in_area t x : in_tri pts t x -> 0 < area2 pts t.
Proof. destruct t as [[a b] c]. cbn. unfold inside3, side. intros (A & B & C). lra. Qed.
Lemma wraps_wtri t x w : wraps pts x t w -> wtri pts t x = w.
Proof.
  intros [(-> & H)|[(-> & H)|(-> & [(A & H)|(A & H)])]].
  - apply (wtri_claim pts t x); [apply Rlt_le, (in_area _ _ H)|exact H].
  - pose proof (in_area _ _ H) as A. assert (K : wtri pts (turned t) x = 1%Z) by (apply (wtri_claim pts (turned t) x); [lra|exact H]).
    rewrite wtri_turned in K. lia.
  - apply (wtri_claim pts t x A), H.
  - assert (K : wtri pts (turned t) x = 0%Z) by (apply (wtri_claim pts (turned t) x); [rewrite area_turned; lra|exact H]).
    rewrite wtri_turned in K. lia.
Qed.
Theorem signed_cover ts x ws : Forall2 (wraps pts x) ts ws -> zsum ws = winding pts (mesh_sides ts) x.
Proof.
  intros F. rewrite winding_mesh. induction F as [|t w ts ws H F IH]; [reflexivity|]. cbn [zsum fold_right].
  change (fold_right BinIntDef.Z.add 0%Z ws) with (zsum ws). rewrite IH, (wraps_wtri _ _ _ H). reflexivity.
Qed.
Lemma sane_R : sane pts.
Proof.
  split; [|apply same_apex_R]. intros i t H. rewrite vnorm2D_err in H; [discriminate| |]; unfold X, Y; cbn; rn; lra.
Qed.
End Sum.
Lemma upright_flat edge real pts : uprightPoints edge real = Ok pts -> flat pts.
Proof.
  unfold uprightPoints. intros H. apply bind_ok in H. destruct H as (n & _ & H). apply bind_ok in H. destruct H as (m & _ & H). apply Ok_inj in H. subst pts.
  intros i. unfold at_. destruct (nth_in_or_default i (map (fun p => vxy (transformed p m)) real) vzero) as [K|K].
  - apply in_map_iff in K. destruct K as (p & <- & _). reflexivity.
  - rewrite K. reflexivity.
Qed.
