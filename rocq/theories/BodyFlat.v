(** Points of the split plane x = 0. *)
From Coq Require Import Reals Lra.
From Coq Require Import ZArith List Bool Lia Arith.
From Verif Require Import Num GeoModel EdgeModel ArcModel MeshModel LayoutModel LayoutProof BracketModel BumperModel
  PartProof PalmProof PlanMove GeoSpec GeoMat GeoRigid GeoPlane GeoFig ArcProof P_Arc.
Import ListNotations.
Open Scope R_scope.

Definition flat (p : pt) : Prop := X p = 0.
Definition flats (l : list pt) : Prop := Forall flat l.
Definition flat_line (l : @line Rnum) : Prop := wf_line l /\ flat (lpos l) /\ flat (ldir l).
Lemma flat_yz (p : pt) : flat p -> vyz p = p.
Proof. destruct p as [x y z]. unfold flat, X, vyz. cbn [vx vy vz]. intros ->. reflexivity. Qed.
Lemma yz_flat (p : pt) : flat (vyz p).
Proof. reflexivity. Qed.
Lemma flats_yz l : flats l -> eyz l = l.
Proof. intros H. unfold eyz. induction H as [|p l E F IH]; [reflexivity|]. cbn [map]. rewrite IH, (flat_yz p E). reflexivity. Qed.
Lemma flat_V y z : flat (V 0 y z). Proof. reflexivity. Qed.
Lemma flat_add p r : flat p -> flat r -> flat (vadd p r).
Proof. destruct p as [p1 p2 p3], r as [r1 r2 r3]. unfold flat, X, vadd. cbn [vx]. rn. lra. Qed.
Lemma flat_sub p r : flat p -> flat r -> flat (vsub p r).
Proof. destruct p as [p1 p2 p3], r as [r1 r2 r3]. unfold flat, X, vsub. cbn [vx]. rn. lra. Qed.
Lemma flat_scale p s : flat p -> flat (vscale p s).
Proof. destruct p as [p1 p2 p3]. unfold flat, X, vscale. cbn [vx]. rn. intros ->. ring. Qed.
Lemma flat_mirY p : flat p -> flat (vmirY p).
Proof. destruct p as [p1 p2 p3]. exact (fun H => H). Qed.
Lemma flat_scaled k p : flat p -> flat (scaled k p).
Proof. intros H. change (k * X p = 0). rewrite H. apply Rmult_0_r. Qed.
Lemma flat_plus p r : flat p -> flat r -> flat (plus p r).
Proof. intros H K. change (X p + X r = 0). rewrite H, K. apply Rplus_0_r. Qed.
Lemma newLine_flat p d l : newLine p d = Ok l -> flat p -> flat d -> flat_line l.
Proof.
  intros H P D. destruct (newLine_ok p d l H) as (W & EP & E & _). split; [exact W|]. split; [rewrite EP; exact P|]. rewrite E.
  apply flat_scaled, D.
Qed.
Lemma on_flat_line l p : flat_line l -> on_line l p -> flat p.
Proof.
  intros (W & P & D) (k & ->). apply flat_plus; [exact P|apply flat_scaled, D].
Qed.
Lemma intersect_flat s o v : lintersect s o = Ok v -> flat_line s -> flat_line o -> flat v.
Proof.
  intros H S O. destruct (lintersect_spec s o v (proj1 S) (proj1 O) H) as (a & b & A & B & -> & _).
  pose proof (on_flat_line _ _ S A) as FA. pose proof (on_flat_line _ _ O B) as FB.
  apply flat_scaled, flat_plus; assumption.
Qed.
Lemma norm_flat p u : vnorm p = Ok u -> flat p -> flat u.
Proof.
  intros H F. apply vnorm_ok in H. destruct H as (_ & ->). apply flat_scaled, F.
Qed.
Lemma translated_flat l v m : ltranslated l v = Ok m -> flat_line l -> flat v -> flat_line m.
Proof.
  intros H (W & P & D) V. unfold ltranslated in H. apply newLine_flat in H; [exact H|apply flat_add; assumption|exact D].
Qed.
Lemma flats_map {A} (g : A -> pt) l : (forall p, In p l -> flat (g p)) -> flats (map g l).
Proof. intros H. apply Forall_forall. intros p I. apply in_map_iff in I. destruct I as (r & <- & J). auto. Qed.
Lemma flats_etranslated l v : flats l -> flat v -> flats (etranslated l v).
Proof. intros H V. apply flats_map. intros p I. apply flat_add; [|exact V]. exact (proj1 (Forall_forall _ _) H p I). Qed.
Lemma flats_app l r : flats l -> flats r -> flats (l ++ r).
Proof. intros. apply Forall_app. auto. Qed.
Lemma flats_rev l : flats l -> flats (rev l).
Proof. apply Forall_rev. Qed.
Lemma flats_collapsed l t : flats l -> flats (collapsed l t).
Proof.
  intros H. apply Forall_forall. intros p I. unfold collapsed in I. apply in_map_iff in I. destruct I as (s & <- & I).
  apply filter_In in I. destruct I as (I & _).
  assert (G : forall (m : list pt) s, In s (segs_open m) -> In (sa s) m).
  { induction m as [|a [|b m] IH]; [intros ? []|intros ? []|]. intros s' [<-|J]; [left; reflexivity|right; exact (IH s' J)]. }
  destruct l as [|a l]; [destruct I|].
  pose proof (eq_ind _ (fun k => In s k) I _ (ChainProof.closed_segs (N := Rnum) a l)) as I'. clear I. rename I' into I.
  apply G in I. apply in_app_iff in I. destruct I as [I|[<-|[]]]; [|exact (Forall_inv H)]. exact (proj1 (Forall_forall _ _) H _ I).
Qed.
Lemma archCorner_flat q r a b d l : archCorner q r a b d = Ok l -> flats l.
Proof. intros H. unfold archCorner in H. grab H. apply Ok_inj in H. subst l. apply flats_map. reflexivity. Qed.
Lemma flats_in l p : flats l -> In p l -> flat p.
Proof. intros H. exact (proj1 (Forall_forall _ _) H p). Qed.
Lemma flats_cons p l : flat p -> flats l -> flats (p :: l).
Proof. apply Forall_cons. Qed.
Lemma flats_nil : flats []. Proof. apply Forall_nil. Qed.
Ltac fl := repeat first [assumption | reflexivity | apply flats_nil | apply flats_cons | apply flats_app | apply flats_rev | apply flats_etranslated | apply flats_collapsed
  | match goal with |- flat (vadd _ _) => apply flat_add | |- flat (vsub _ _) => apply flat_sub | |- flat (vscale _ _) => apply flat_scale | |- flat (vmirY _) => apply flat_mirY
    | H : newLine _ _ = Ok ?l |- flat_line ?l => apply (newLine_flat _ _ _ H)
    | H : ltranslated _ _ = Ok ?l |- flat_line ?l => apply (translated_flat _ _ _ H)
    | H : lintersect _ _ = Ok ?p |- flat ?p => apply (intersect_flat _ _ _ H)
    | H : vnorm _ = Ok ?p |- flat ?p => apply (norm_flat _ _ H)
    | H : archCorner _ _ _ _ _ = Ok ?l |- flats ?l => apply (archCorner_flat _ _ _ _ _ _ H)
    | H : flat_line ?l |- flat (lpos ?l) => apply H
    | H : flat_line ?l |- flat (ldir ?l) => apply H
    end].
Definition flat_sketch (k : @cornerSketch Rnum) : Prop :=
  flat (csCenter k) /\ flat_line (csRoofLine k) /\ flat_line (csApexLine k) /\ flat_line (csTaperLine k) /\ flat (csTaperDir k) /\ flat (csTaperOrtho k) /\
  flat (csLBG k) /\ flat (csLFT k) /\ flats (csArc k).
Section Flat.
Variable q : @quality Rnum.
Variable taper : option R.
Lemma cornerLines_flat pmod c a b d em ci k : cornerLines q pmod c a b d em ci = Ok k -> flat a -> flat b -> flat d -> flat_sketch k.
Proof.
  intros H A B D. unfold cornerLines in H. cbv zeta in H.
  apply bind_ok in H; destruct H as (rd & H1 & H). assert (F1 : flat rd) by fl.
  apply bind_ok in H; destruct H as (l1 & H2 & H). assert (F2 : flat_line l1) by fl.
  apply bind_ok in H; destruct H as (l2 & H3 & H). assert (F3 : flat_line l2) by fl.
  apply bind_ok in H; destruct H as (sc & H4 & H). assert (F4 : flat sc) by fl.
  apply bind_ok in H; destruct H as (l3 & H5 & H). assert (F5 : flat_line l3) by fl.
  apply bind_ok in H; destruct H as (l4 & H6 & H). assert (F6 : flat_line l4) by fl.
  apply bind_ok in H; destruct H as (l5 & H7 & H). assert (F7 : flat_line l5) by fl.
  apply bind_ok in H; destruct H as (l6 & H8 & H). assert (F8 : flat_line l6) by fl.
  apply bind_ok in H; destruct H as (p1 & H9 & H). assert (F9 : flat p1) by fl.
  apply bind_ok in H; destruct H as (p2 & H10 & H). assert (F10 : flat p2) by fl.
  apply bind_ok in H; destruct H as (p3 & H11 & H). assert (F11 : flat p3) by fl.
  apply bind_ok in H; destruct H as (al & H12 & H). assert (F12 : flats al) by fl.
  apply Ok_inj in H. subst k. unfold flat_sketch. cbn [csCenter csRoofLine csApexLine csTaperLine csTaperDir csTaperOrtho csLBG csLFT csArc].
  repeat (split; [fl|]). fl.
Qed.
Lemma ziptie_flat pasin c k s z : ziptie q pasin c k s = Ok z -> flat_sketch s -> flats (zArchL z).
Proof.
  intros H (S1 & S2 & S3 & S4 & S5 & S6 & S7 & S8 & S9). unfold ziptie in H. cbv zeta in H.
  apply bind_ok in H; destruct H as (l1 & H1 & H). assert (F1 : flat_line l1) by fl.
  apply bind_ok in H; destruct H as (l2 & H2 & H). assert (F2 : flat_line l2) by fl.
  apply bind_ok in H; destruct H as (hc & H3 & H). assert (F3 : flat hc) by fl.
  destruct (nltb _ _); [discriminate|].
  apply bind_ok in H; destruct H as (r & _ & H). apply bind_ok in H; destruct H as (mh & _ & H).
  apply bind_ok in H; destruct H as (ha & H4 & H). set (arc := map _ ha) in *. assert (F4 : flats arc) by (apply flats_map; intros p _; fl).
  clearbody arc.
  apply bind_ok in H; destruct H as (h0 & H5 & H). assert (F5 : flat h0) by (apply (flats_in arc); [exact F4|exact (pyidx_in _ _ _ H5)]).
  apply bind_ok in H; destruct H as (h1 & H6 & H). assert (F6 : flat h1) by (apply (flats_in arc); [exact F4|exact (pyidx_in _ _ _ H6)]).
  apply bind_ok in H; destruct H as (l3 & H7 & H). assert (F7 : flat_line l3) by fl.
  apply bind_ok in H; destruct H as (l4 & H8 & H). assert (F8 : flat_line l4) by fl.
  apply bind_ok in H; destruct H as (l5 & H9 & H). assert (F9 : flat_line l5) by fl.
  apply bind_ok in H; destruct H as (p1 & H10 & H). assert (F10 : flat p1) by fl.
  apply bind_ok in H; destruct H as (p2 & H11 & H). assert (F11 : flat p2) by fl.
  apply bind_ok in H; destruct H as (p3 & H12 & H). do 3 grab H. apply Ok_inj in H. subst z. cbn [zArchL]. fl.
Qed.
Lemma cornerFwd_flat pmod pasin c cable a b d em ci s r : cornerFwd q taper pmod pasin c cable a b d em ci s = Ok r -> flat a -> flat b -> flat d -> flats (cbSplit r).
Proof.
  intros H A B D. unfold cornerFwd in H. cbv zeta in H. apply bind_ok in H; destruct H as (k & Hk & H).
  pose proof (cornerLines_flat _ _ _ _ _ _ _ _ Hk A B D) as F. apply bind_ok in H; destruct H as (((hm & hl) & hr) & _ & H).
  pose proof F as (S1 & S2 & S3 & S4 & S5 & S6 & S7 & S8 & S9).
  destruct cable as [kc|].
  - apply bind_ok in H; destruct H as (z & Hz & H). pose proof (ziptie_flat _ _ _ _ _ Hz F) as Fz. grabs H. apply Ok_inj in H. subst r. cbn [cbSplit]. fl.
  - apply Ok_inj in H. subst r. cbn [cbSplit]. fl.
Qed.
Lemma corner_flat pmod pasin c cable a b d s r : cornerBracket q taper pmod pasin c cable a b d s = Ok r -> flats (cbSplit r).
Proof.
  intros H. unfold cornerBracket in H. destruct (nltb _ _).
  - grab H. apply Ok_inj in H. subst r. cbn [cbSplit]. apply flats_rev, flats_map. intros p I. apply flat_mirY.
    refine (flats_in _ _ (cornerFwd_flat _ _ _ _ _ _ _ _ _ _ _ Q _ _ _) I); fl.
  - refine (cornerFwd_flat _ _ _ _ _ _ _ _ _ _ _ H _ _ _); fl.
Qed.
End Flat.
