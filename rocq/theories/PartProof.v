(** Boundaries of the smaller parts: bosses, bumpers, screw holes. *)
From Coq Require Import ZArith List Bool Lia Arith.
From Verif Require Import Num GeoModel EdgeModel EdgeSpec EdgeMesh ArcModel MeshModel MeshSpec MeshProof LayoutModel LayoutProof BossModel BracketModel BumperModel
  PartSpec ChainProof.
Import ListNotations.

Ltac grab H := let x := fresh "x" in let E := fresh "Q" in apply bind_ok in H; destruct H as (x & E & H).
Ltac grabs H := repeat grab H.

Lemma pair_inj {A B} (a a' : A) (b b' : B) : (a, b) = (a', b') -> a = a' /\ b = b'.
Proof. intros H. injection H. auto. Qed.

Section Part.
Context {N : Num}.
Open Scope Z_scope.
Implicit Types f : @weight N.

Lemma loop_point f p : is_weight f -> loop f [p] = 0.
Proof. intros W. unfold loop. cbn. rewrite (weight_diag f p W). reflexivity. Qed.
Lemma boss_bd q c pos dir wd rp b f : newBoss q c pos dir wd rp = Ok b -> is_weight f ->
  bd f (bHead b) = - loop f (clearanceHole b) - loop f (headHole b) /\ bd f (bThread b) = - loop f (threadHole b).
Proof.
  intros H W. unfold newBoss in H. grab H. grab H. grab H. grab H.
  destruct x0 as (((h0 & h1) & h2) & h3). destruct x2 as (((t0 & t1) & t2) & t3). injection H as <-. cbn [bHead bThread clearanceHole headHole threadHole].
  unfold headMesh, threadMesh. cbn [meshes bd]. rewrite loop_rev by exact W. split; [lia|].
  assert (E : loop f t3 = 0); [|lia]. unfold threadArcs in Q2. grabs Q2. apply Ok_inj in Q2. injection Q2 as _ _ _ <-. apply loop_point. exact W.
Qed.
Lemma loop_walk0 f l : is_weight f -> loop f l = walk f l + f (last l vzero) (hd vzero l).
Proof.
  intros W. destruct l as [|a l]; [|apply loop_walk1; discriminate]. cbn [last hd]. rewrite (weight_diag f vzero W). reflexivity.
Qed.
Lemma fan_bd f l : is_weight f -> bd f (Strip (firstn 1 l) l false) = - loop f l.
Proof.
  intros W. destruct l as [|a l]; [cbn [firstn bd]; unfold open_strip; rewrite loop_nil; cbn [walk hd last]; lia|]. cbn [bd firstn]. unfold open_strip.
  rewrite loop_walk0 by exact W. cbn [hd]. change (last [a] vzero) with a. rewrite (weight_diag f a W), (proj1 W a (last (a :: l) vzero)).
  change (walk f [a]) with 0. lia.
Qed.
Lemma bumper_bd q c h pos b f : newBumper q c h pos false = Ok b -> is_weight f -> bd f (buMesh b) = - loop f (buFloor b).
Proof.
  intros H W. unfold newBumper in H. grab H. apply Ok_inj in H. subst b. cbn [buMesh buFloor negb bd].
  set (g := etranslated x (vsub (vxy pos) (V _ _ h))). set (t := etranslated x _). change (bd f (Strip (firstn 1 t) t false) + (loop f t - loop f g) = - loop f g).
  rewrite fan_bd by exact W. lia.
Qed.
Lemma halfBumper_bd q c h pos b f : newBumper q c h pos true = Ok b -> is_weight f ->
  bd f (buMesh b) = - walk f (buFloor b) - walk f (buSplit b) /\ hd vzero (buSplit b) = last (buFloor b) vzero /\ last (buSplit b) vzero = hd vzero (buFloor b).
Proof.
  intros H W. unfold newBumper in H. grab H. cbv zeta in H. grabs H. apply Ok_inj in H. subst b. cbn [buMesh buFloor buSplit negb bd].
  set (g := etranslated x _) in *. set (t := etranslated x (vsub (vxy pos) (V _ _ (h - bu_height c)%num))) in *.
  pose proof (chain_self f t x2 x1 Q2 Q1) as (NT & HT & LT & WT). pose proof (chain_self f g x3 x0 Q3 Q0) as (NG & HG & LG & WG).
  change (bd f (Strip (firstn 1 t) t false) + open_strip f t g = - walk f g - walk f [x0; x1; x2; x3] /\ x0 = last g vzero /\ x3 = hd vzero g).
  rewrite fan_bd by exact W. split; [|auto]. rewrite loop_walk0 by exact W. unfold open_strip. rewrite HT, LT, HG, LG. cbn [walk].
  rewrite (proj1 W x0 x1), (proj1 W x2 x3), (proj1 W x1 x2). lia.
Qed.
Lemma screw_bd q taper c center s up m hl br f : screwHole q taper c center s up = Ok (m, hl, br) -> is_weight f -> bd f m = loop f hl - loop f br.
Proof.
  intros H W. unfold screwHole in H. grab H. cbv zeta in H. grab H. injection H as <- <- <-.
  cbn [meshes bd]. unfold loops. cbn [fold_right]. rewrite loop_rev by exact W. lia.
Qed.
End Part.
