(** The support and the knob have no boundary. *)
From Coq Require Import ZArith List Bool Lia Arith.
From Verif Require Import Num GeoModel EdgeModel EdgeSpec EdgeMesh ArcModel MeshModel MeshSpec MeshProof SupportModel KnobModel.
Import ListNotations.

Section Solid.
Context {N : Num}.
Open Scope Z_scope.

Lemma bd_supportMesh f l r : is_weight f -> bd f (supportMesh l r) = 0.
Proof. intros W. unfold supportMesh. cbn [meshes bd]. unfold loops. cbn [fold_right]. rewrite loop_rev by exact W. lia. Qed.
Lemma support_form c fill keys ts l r q : supportEdges q c = Ok (l, r) -> support q c fill keys = Ok ts ->
  exists base, eval fill (supportMesh l r) = Ok base /\
    exists parts, Forall2 (fun k part => exists n, transformedNormal (V (nZ 1) (nZ 0) (nZ 0)) k = Ok n /\
        part = if nleb (nabs (vangle2D n)) (minOverhangAngle c) then map (tmap (fun p => transformed p k)) base else []) keys parts /\
      ts = concat parts.
Proof.
  intros E H. unfold support in H. rewrite E in H. cbn [bind fst snd] in H.
  apply bind_ok in H. destruct H as (base & Eb & H). exists base. split; [exact Eb|].
  apply bind_ok in H. destruct H as (parts & Hp & H). exists parts. split; [|injection H as <-; reflexivity]. clear -Hp.
  revert parts Hp. induction keys as [|k keys IH]; intros parts Hp; cbn [mapM] in Hp.
  - injection Hp as <-. constructor.
  - apply bind_ok in Hp. destruct Hp as (m & Em & Hp). apply bind_ok in Hp. destruct Hp as (ms & Es & Hp). injection Hp as <-.
    constructor; [|apply IH; exact Es]. unfold supportMake in Em. apply bind_ok in Em. destruct Em as (n & En & Em).
    exists n. split; [exact En|]. destruct (nleb _ _); injection Em as <-; reflexivity.
Qed.
Lemma support_flux c fill keys ts l r q f : supportEdges q c = Ok (l, r) -> support q c fill keys = Ok ts -> is_weight f ->
  sound_mesh (exact_face fill) (supportMesh l r) -> (forall k, In k keys -> keeps_eq (fun p => transformed p k)) -> flux f ts = 0.
Proof.
  intros E H W S K. destruct (support_form c fill keys ts l r q E H) as (base & Eb & parts & F & ->). clear H.
  induction F as [|k part keys parts (n & _ & ->) F IH]; [reflexivity|]. cbn [concat]. rewrite flux_app, IH by (intros; apply K; right; assumption).
  destruct (nleb _ _); [|reflexivity]. rewrite flux_tmap.
  assert (W' : is_weight (fun a b => f (transformed a k) (transformed b k))).
  { apply (weight_map f (fun p => transformed p k)); [exact W|]. apply K. left. reflexivity. }
  rewrite (eval_flux fill (supportMesh l r) _ base W' S Eb). rewrite bd_supportMesh by exact W'. reflexivity.
Qed.
Lemma knob_bd q c m f : knob q c = Ok m -> is_weight f -> bd f m = 0.
Proof.
  intros H W. unfold knob in H. apply bind_ok in H. destruct H as (gs & _ & H). apply bind_ok in H. destruct H as (ch & _ & H).
  apply bind_ok in H. destruct H as (ss & _ & H). apply bind_ok in H. destruct H as (sk & _ & H). injection H as <-.
  cbn [meshes bd]. unfold loops. cbn [fold_right]. rewrite !loop_rev by exact W.
  assert (E : loop f [vzero] = 0) by (unfold loop; cbn; rewrite (weight_diag f) by exact W; reflexivity).
  rewrite E. lia.
Qed.
End Solid.
