(** The text of the footprint is one list of an s-expression, and contains the markers. *)
From Coq Require Import Ascii String ZArith List Bool.
From Verif Require Import Num GeoModel EdgeModel KeyModel LayoutModel PlanModel PcbModel SexpSpec.
Import ListNotations.
Open Scope string_scope.

Lemma scan_app a b : forall d q, scan (a ++ b) d q = match scan a d q with Some (d', q') => scan b d' q' | None => None end.
Proof.
  induction a as [|ch a IH]; intros d q; [reflexivity|]. cbn [append scan].
  destruct (Ascii.eqb ch (ascii_of_nat 92)); [reflexivity|]. destruct (Ascii.eqb ch (ascii_of_nat 34)); [apply IH|]. destruct q; [apply IH|].
  destruct (Ascii.eqb ch "("); [apply IH|]. destruct (Ascii.eqb ch ")"); [|apply IH]. destruct d as [|[|d]]; [reflexivity|reflexivity|apply IH].
Qed.
Lemma scan_plain s : plain s -> forall d q, scan s d q = Some (d, q).
Proof.
  induction s as [|ch s IH]; intros P d q; [reflexivity|]. cbn [plain] in P. destruct P as ((P1 & P2 & P3 & P4) & P). cbn [scan].
  destruct (Ascii.eqb_spec ch (ascii_of_nat 92)); [contradiction|]. destruct (Ascii.eqb_spec ch (ascii_of_nat 34)); [contradiction|]. destruct q; [apply IH, P|].
  destruct (Ascii.eqb_spec ch "("); [contradiction|]. destruct (Ascii.eqb_spec ch ")"); [contradiction|]. apply IH, P.
Qed.
Definition neutral (s : string) : Prop := forall d, scan s (S d) false = Some (S d, false).
Lemma neutral_app a b : neutral a -> neutral b -> neutral (a ++ b).
Proof. intros A B d. rewrite scan_app, A. apply B. Qed.
Lemma neutral_concat l : (forall s, In s l -> neutral s) -> neutral (String.concat "" l).
Proof.
  induction l as [|s l IH]; intros H; [intros d; reflexivity|]. destruct l as [|t l]; [apply H; left; reflexivity|].
  change (String.concat "" (s :: t :: l)) with (s ++ "" ++ String.concat "" (t :: l)). apply neutral_app; [apply H; left; reflexivity|]. apply IH. intros u I. apply H. right. exact I.
Qed.
Lemma append_assoc (a b d : string) : (a ++ b) ++ d = a ++ b ++ d.
Proof. induction a as [|ch a IH]; [reflexivity|]. cbn [append]. f_equal. exact IH. Qed.
Lemma append_nil (a : string) : a ++ "" = a.
Proof. induction a as [|ch a IH]; [reflexivity|]. cbn [append]. f_equal. exact IH. Qed.
Lemma within_l t s u : within t s -> within t (s ++ u).
Proof. intros (pre & post & ->). exists pre, (post ++ u). rewrite !append_assoc. reflexivity. Qed.
Lemma within_r t s u : within t s -> within t (u ++ s).
Proof. intros (pre & post & ->). exists (u ++ pre), post. rewrite !append_assoc. reflexivity. Qed.
Lemma within_refl t : within t t.
Proof. exists "", "". rewrite append_nil. reflexivity. Qed.
Lemma within_concat t l : In t l -> within t (String.concat "" l).
Proof.
  induction l as [|s l IH]; intros I; [destruct I|]. destruct l as [|u l]; [destruct I as [->|[]]; apply within_refl|].
  change (String.concat "" (s :: u :: l)) with (s ++ "" ++ String.concat "" (u :: l)). destruct I as [->|I]; [apply within_l, within_refl|apply within_r, within_r, IH, I].
Qed.

Section Text.
Context {N : Num}.
Variable pretty : num -> string.
Hypothesis PP : forall x, plain (pretty x).
Lemma coord_plain p : plain (coord pretty p).
Proof. unfold coord. set (a := pretty _). set (b := pretty _). assert (Ha : plain a) by apply PP. assert (Hb : plain b) by apply PP. clearbody a b.
  induction a as [|ch a IH]; [cbn; repeat split; try discriminate; exact Hb|]. cbn [append plain] in *. destruct Ha as (H1 & H2). split; [exact H1|]. apply IH, H2. Qed.
Lemma layer_case : forall layer, layer = "F" \/ layer = "B" -> plain layer.
Proof. intros layer [-> | ->]; cbn; repeat split; discriminate. Qed.
Ltac lit := match goal with |- match scan ?l (S ?d) ?q with _ => _ end = _ => let r := eval vm_compute in (scan l (S d) q) in change (scan l (S d) q) with r; cbv beta iota end.
Ltac piece := rewrite scan_app; first [rewrite scan_plain by assumption; cbv beta iota | lit].
Lemma fpLine_neutral layer a b : plain layer -> plain a -> plain b -> neutral (fpLine layer a b).
Proof. intros L A B d. unfold fpLine. repeat piece. reflexivity. Qed.
Lemma fpText_neutral layer a b : plain layer -> plain a -> plain b -> neutral (fpText layer a b).
Proof. intros L A B d. unfold fpText. repeat piece. reflexivity. Qed.
Lemma marker_neutral m w h layer : plain layer -> neutral (writeMarker pretty m w h layer).
Proof.
  intros L. unfold writeMarker. cbv zeta. set (a := pretty (degrees _)). assert (A : plain a) by apply PP. clearbody a.
  repeat (apply neutral_app; [apply fpLine_neutral; [exact L|apply coord_plain|apply coord_plain]|]).
  destruct (String.eqb a "0"); [intros d; reflexivity|]. apply fpText_neutral; [exact L|exact A|apply coord_plain].
Qed.
Variable c : @plan_cfg N.
Lemma keys_neutral ks layer : plain layer -> neutral (writeKeys pretty c ks layer).
Proof. intros L. apply neutral_concat. intros s I. apply in_map_iff in I. destruct I as (k & <- & _). apply marker_neutral, L. Qed.
Lemma mounts_neutral mt y layer s : plain layer -> writeMounts pretty mt y layer = Ok s -> neutral s.
Proof. intros L H. unfold writeMounts in H. apply bind_ok in H. destruct H as (k & _ & H). apply Ok_inj in H. subst s. apply marker_neutral, L. Qed.
Variable th : num.
Variable mount : option (@mount_cfg N).
Lemma footprint_one_list yr yl s : footprint pretty c th mount yr yl = Ok s -> s <> "" -> one_list s.
Proof.
  intros H NE. unfold footprint in H. apply bind_ok in H. destruct H as (fr & _ & H). apply bind_ok in H. destruct H as (fl & _ & H).
  destruct (existsb _ _); [apply Ok_inj in H; subst s; contradiction|]. cbv zeta in H. apply bind_ok in H. destruct H as (ms & EM & H). apply Ok_inj in H. subst s.
  assert (F : plain "F") by (cbn; repeat split; discriminate). assert (B : plain "B") by (cbn; repeat split; discriminate).
  set (kr := writeKeys pretty c (lall fr SideRight) "F"). set (kl := writeKeys pretty c (lall fl SideLeft) "B").
  assert (KR : neutral kr) by apply keys_neutral, F. assert (KL : neutral kl) by apply keys_neutral, B.
  assert (MS : neutral ms).
  { destruct mount as [mt|]; [|apply Ok_inj in EM; subst ms; intros d; reflexivity]. apply bind_ok in EM. destruct EM as (r & ER & EM). apply bind_ok in EM. destruct EM as (l & EL & EM). apply Ok_inj in EM. subst ms.
    apply neutral_app; [eapply mounts_neutral; [exact F|exact ER]|eapply mounts_neutral; [exact B|exact EL]]. }
  clearbody kr kl. destruct fpHead as [|ch hd] eqn:EH; [discriminate|]. assert (EC : ch = "("%char) by (injection EH; intros _ <-; reflexivity). subst ch.
  exists (hd ++ (kr ++ kl) ++ ms). split; [cbn [append]; f_equal; rewrite !append_assoc; reflexivity|].
  rewrite scan_app. assert (SH : scan hd 1 false = Some (1%nat, false)) by (injection EH; intros <-; vm_compute; reflexivity). rewrite SH. apply neutral_app; [apply neutral_app; assumption|exact MS].
Qed.
End Text.
