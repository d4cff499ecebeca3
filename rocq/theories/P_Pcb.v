(** Properties C77 and C78: the footprint with the switch positions.  Read with PcbSpec.v and SexpSpec.v. *)
From Coq Require Import Ascii String Reals Lra ZArith List Bool Arith Lia.
From Flocq Require Import IEEE754.BinarySingleNaN.
From Verif Require Import Num Calc GeoModel GeoSpec GeoMat EdgeModel ArcModel KeyModel LayoutModel LayoutSpec BossModel PlanModel P_Layout P_Plan
  PcbModel PcbSpec PcbProof PcbMore SexpSpec PcbText PrettyModel PrettySpec P_Pretty.
Import ListNotations.
Open Scope R_scope.

(** * C77 *)
(* if the thumb cluster has the tent angle of the pinky keys, then flattening the layout of a plan gives the
   configured flat layout y0 again, with every key in its configured orientation: the first pinky key at the
   origin, the alphanumeric keys and the thumb keys moved apart by the crease and, for the alphanumeric keys, the
   bend of the board; the thumb cluster keeps the distance dy by which the plan moved it to the front *)
Theorem C77_flat : forall (c : @plan_cfg Rnum) th fuel side p, newPlan c fuel side = Ok p -> 0 < cos (alnumTentAngle c - pinkyTentAngle c) -> thumbTentAngle c = pinkyTentAngle c ->
  exists y0 first rest y dy, newLayout (keyCfg c) (layoutCfg c) = Ok y0 /\ pinky y0 SideBoth = (first :: rest)%list /\ flattenLayout c th (planLayout p) = Ok y /\ dy <= 0 /\
  let u := (alnumTentAngle c - pinkyTentAngle c) / 2 in let o := kposition first in
  let gap := 2 * (columnPitch (keyCfg c) / 2 / cos u + capTopToPlate c * tan u - columnPitch (keyCfg c) / 2) in
  Z o = 0 /\
  forall s, shifted (P (- X o) (- Y o) 0) (pinky y0 s) (pinky y s) /\
    shifted (P (- gap - 2 * (innerHeight (keyCfg c) + th) * tan u - X o) (- Y o) 0) (alnum y0 s) (alnum y s) /\
    shifted (P (- gap - X o) (dy - Y o) 0) (lthumb y0 s) (lthumb y s).
Proof. intros c th fuel side p H C T. exact (flat_groups c th fuel side p H C T). Qed.
Print Assumptions C77_flat.
(* the board is bent, not cut or stretched: the boards of the two groups run at the same depth below their keys, and
   a point of the plan that lies on both boards is also one point of the flat layout *)
Theorem C77_bend : forall (c : @plan_cfg Rnum) th fuel side p y, newPlan c fuel side = Ok p -> 0 < cos (alnumTentAngle c - pinkyTentAngle c) -> flattenLayout c th (planLayout p) = Ok y ->
  forall s s' i j ka kp ka' kp', nth_error (alnum (planLayout p) s) i = Some ka -> nth_error (alnum y s) i = Some ka' -> nth_error (pinky (planLayout p) s') j = Some kp -> nth_error (pinky y s') j = Some kp' ->
  forall q q', Z q = - (innerHeight (keyCfg c) + th) -> Z q' = - (innerHeight (keyCfg c) + th) -> transformed q (kmatrix ka) = transformed q' (kmatrix kp) -> transformed q (kmatrix ka') = transformed q' (kmatrix kp').
Proof. intros c th fuel side p y H C F. exact (crease_kept c th fuel side p y H C F). Qed.
Print Assumptions C77_bend.
(* then the footprint of both halves is written *)
Theorem C77_written : forall pretty (c : @plan_cfg Rnum) th mount fuel fuel' pr pl, newPlan c fuel SideRight = Ok pr -> newPlan c fuel' SideLeft = Ok pl ->
  0 < cos (alnumTentAngle c - pinkyTentAngle c) -> thumbTentAngle c = pinkyTentAngle c ->
  exists s, footprint pretty c th mount (planLayout pr) (planLayout pl) = Ok s /\ s <> ""%string.
Proof. intros pretty c th mount fuel fuel' pr pl HR HL C T. exact (footprint_written c th pretty mount fuel fuel' pr pl HR HL C T). Qed.
Print Assumptions C77_written.
(* otherwise the file is empty, as soon as two thumb keys are far enough apart *)
Theorem C77_tented_thumbs_empty : forall pretty (c : @plan_cfg Rnum) th mount fuel fuel' pr pl y0 i j k k', newPlan c fuel SideRight = Ok pr -> newPlan c fuel' SideLeft = Ok pl ->
  0 < cos (alnumTentAngle c - pinkyTentAngle c) ->
  newLayout (keyCfg c) (layoutCfg c) = Ok y0 -> nth_error (lthumb y0 SideBoth) i = Some k -> nth_error (lthumb y0 SideBoth) j = Some k' ->
  2 / 1000000 < Rabs ((X (kposition k) - X (kposition k')) * sin (thumbTentAngle c - pinkyTentAngle c)) ->
  footprint pretty c th mount (planLayout pr) (planLayout pl) = Ok ""%string.
Proof. intros pretty c th mount fuel fuel' pr pl y0 i j k k' HR HL C L0 Hi Hj G. exact (footprint_tented c th pretty mount fuel fuel' pr pl y0 i j k k' HR HL C L0 Hi Hj G). Qed.
Print Assumptions C77_tented_thumbs_empty.

(** * C78 *)
Open Scope string_scope.
(* a footprint that is written is a single list: every bracket outside of a quoted string has its partner, and
   every quoted string ends, whatever the numbers are *)
Theorem C78_one_list : forall (N : Num) pretty (c : @plan_cfg N) th mount yr yl s, (forall x, plain (pretty x)) ->
  footprint pretty c th mount yr yl = Ok s -> s <> "" -> one_list s.
Proof. intros N pretty c th mount yr yl s PP H NE. exact (footprint_one_list pretty PP c th mount yr yl s H NE). Qed.
Print Assumptions C78_one_list.
(* the text of a finite float fits *)
Theorem C78_numbers_plain : forall x : float, is_finite x = true -> plain (PrettyModel.pretty x).
Proof.
  intros x F. destruct (C43_pretty x F) as (ip & fp & q & E & _ & (i & f & RI & RF & _) & _). rewrite E.
  assert (D : forall s a v, read_digits a s = Some v -> plain s).
  { induction s as [|ch s IH]; intros a v H; [exact I|]. cbn [read_digits] in H. destruct (digit_of ch) as [d|] eqn:ED; [|discriminate]. cbn [plain]. split; [|exact (IH _ _ H)].
    repeat split; intros ->; discriminate ED. }
  assert (A : forall a b, plain a -> plain b -> plain (a ++ b)). { induction a as [|ch a IH]; intros b PA PB; [exact PB|]. cbn [append plain] in *. destruct PA as (P1 & P2). split; [exact P1|]. apply IH; assumption. }
  unfold number_text. apply A; [destruct (Bsign x); cbn; repeat split; discriminate|]. apply A; [exact (D _ _ _ RI)|].
  destruct fp as [|ch fp]; [exact I|]. apply (A "."); [cbn; repeat split; discriminate|exact (D _ _ _ RF)].
Qed.
Print Assumptions C78_numbers_plain.
(* each key of the right half has a triangle on the front, each key of the left half one on the back: from the
   centre of the switch to its two front corners, with both coordinates negated *)
Section Marker.
Context {N : Num}.
Variable pretty : num -> string.
Definition place_text (k : @key N) (x y : num) : string :=
  let p := transformed (V x y (nZ 0)) (kmatrix k) in pretty (- vx p)%num ++ " " ++ pretty (- vy p)%num.
Definition copper_line (layer from to : string) : string :=
  let q := String (ascii_of_nat 34) "" in
  "  (fp_line (start " ++ from ++ ") (end " ++ to ++ ") (layer " ++ q ++ layer ++ ".Cu" ++ q ++ ") (width 0.05))" ++ String (ascii_of_nat 10) "".
Definition triangle (w h : num) (layer : string) (k : @key N) : string :=
  let a := place_text k (nZ 0) (nZ 0) in let b := place_text k (ndiv (- w)%num (nZ 2)) (ndiv (- h)%num (nZ 2)) in let d := place_text k (ndiv w (nZ 2)) (ndiv (- h)%num (nZ 2)) in
  copper_line layer a b ++ copper_line layer b d ++ copper_line layer d a.
End Marker.
Theorem C78_switches : forall (N : Num) pretty (c : @plan_cfg N) th mount yr yl s, footprint pretty c th mount yr yl = Ok s -> s <> "" ->
  exists fr fl, flattenLayout c th yr = Ok fr /\ flattenLayout c th yl = Ok fl /\
  let w := switchWidth (keyCfg c) in let h := switchDepth (keyCfg c) in
  (forall k, In k (lall fr SideRight) -> within (triangle pretty w h "F" k) s) /\ (forall k, In k (lall fl SideLeft) -> within (triangle pretty w h "B" k) s) /\
  (* and the two screws next to the first pinky keys *)
  forall mt, mount = Some mt -> exists kr kl, hd_error (pinky fr SideBoth) = Some kr /\ hd_error (pinky fl SideBoth) = Some kl /\
    forall layer k, (layer, k) = ("F", kr) \/ (layer, k) = ("B", kl) ->
      within (triangle pretty (mt_diameter mt) (mt_diameter mt) layer (ktranslate k (V (- mt_xDist mt)%num (- mt_yDist mt)%num (nZ 0)))) s.
Proof.
  intros N pretty c th mount yr yl s H NE. unfold footprint in H. apply bind_ok in H. destruct H as (fr & FR & H). apply bind_ok in H. destruct H as (fl & FL & H).
  destruct (existsb _ _); [apply Ok_inj in H; subst s; contradiction|]. cbv zeta in H. apply bind_ok in H. destruct H as (ms & EM & H). apply Ok_inj in H. subst s.
  exists fr, fl. split; [exact FR|]. split; [exact FL|]. cbv zeta.
  assert (T : forall w h layer k, within (triangle pretty w h layer k) (writeMarker pretty (kmatrix k) w h layer)).
  { intros w h layer k. exists "". unfold writeMarker. cbv zeta. eexists. cbn [append]. unfold triangle. cbv zeta. rewrite !append_assoc. reflexivity. }
  assert (TR : forall t a b, within t a -> within a b -> within t b). { intros t a b (p & q & ->) (p' & q' & ->). exists (p' ++ p), (q ++ q'). rewrite !append_assoc. reflexivity. }
  assert (K : forall ks layer k, In k ks -> within (triangle pretty (switchWidth (keyCfg c)) (switchDepth (keyCfg c)) layer k) (writeKeys pretty c ks layer)).
  { intros ks layer k I. eapply TR; [apply T|]. unfold writeKeys. apply within_concat. apply in_map_iff. exists k. auto. }
  split; [intros k I; apply within_r, within_l, within_l, K, I|]. split; [intros k I; apply within_r, within_l, within_r, K, I|].
  intros mt ->. apply bind_ok in EM. destruct EM as (r & ER & EM). apply bind_ok in EM. destruct EM as (l & EL & EM). apply Ok_inj in EM. subst ms.
  unfold writeMounts in ER, EL. apply bind_ok in ER. destruct ER as (kr & IR & ER). apply bind_ok in EL. destruct EL as (kl & IL & EL). apply Ok_inj in ER. apply Ok_inj in EL.
  assert (HD : forall A (x : list A) k, pyidx x 0 = Ok k -> hd_error x = Some k) by (intros A [|a x] k E; [discriminate|]; cbn in E |- *; congruence).
  exists kr, kl. split; [apply HD, IR|]. split; [apply HD, IL|]. intros layer k [E|E]; injection E as -> ->.
  - apply within_r, within_r, within_l, within_l. rewrite <- ER. exact (T _ _ "F" (ktranslate kr _)).
  - apply within_r, within_r, within_l, within_r. rewrite <- EL. exact (T _ _ "B" (ktranslate kl _)).
Qed.
Print Assumptions C78_switches.
Close Scope string_scope.

(** ** a concrete keyboard: the default settings in fixed point numbers *)
Definition text_small (x : @num Calc) : string := if (x =? 0)%Z then "0"%string else "1"%string.
Lemma text_small_plain x : plain (text_small x).
Proof. unfold text_small. destruct (x =? 0)%Z; cbn; repeat split; discriminate. Qed.
Definition foot_len (c : @plan_cfg Calc) (r l : res (@plan Calc)) : option nat :=
  match r, l with
  | Ok pr, Ok pl => match footprint text_small c (dq 16 10) (Some (@mkMountCfg Calc (dq 2 1) (dq 3 1) (dq 4 1))) (planLayout pr) (planLayout pl) with Ok s => Some (String.length s) | Err _ => None end
  | _, _ => None
  end.
(* C77_nonvacuous, C77_steep_nonvacuous: see P_Runs.v *)

Example C77_angles_nonvacuous : 0 < cos (12 * PI / 180 - 3 * PI / 180).
Proof. apply cos_gt_0; pose proof PI_RGT_0; lra. Qed.
Example C77_tented_nonvacuous : 2 / 1000000 < Rabs ((100 - 80) * sin (PI / 6)).
Proof. rewrite sin_PI6, Rabs_pos_eq; lra. Qed.
