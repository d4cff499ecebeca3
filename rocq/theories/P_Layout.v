(** Property C49: the arrangement of the keys.  Read with LayoutSpec.v. *)
From Coq Require Import Reals Lra ZArith List Bool Arith Lia Permutation.
From Verif Require Import Num Calc GeoModel GeoSpec GeoMat KeyModel LayoutModel LayoutSpec LayoutProof.
Import ListNotations.

(* malformed settings are rejected with a ValueError, before any key is placed *)
Theorem C49_malformed_rejected : forall (N : Num) (kc : @key_cfg N) c fac, keyFactory kc = Ok fac -> ~ well_formed c -> newLayout kc c = Err ValueErr.
Proof.
  intros N kc c fac F W. unfold newLayout. rewrite F. cbn [bind]. destruct (staggersOk c) eqn:S; [|reflexivity]. destruct (thumbsOk c) eqn:T; [|reflexivity].
  exfalso. apply W, ok_well_formed. auto.
Qed.
Print Assumptions C49_malformed_rejected.
Theorem C49_accepted_well_formed : forall (N : Num) (kc : @key_cfg N) c y, newLayout kc c = Ok y -> well_formed c.
Proof. intros N kc c y H. exact (proj1 (newLayout_form kc c y H)). Qed.
Print Assumptions C49_accepted_well_formed.

(* the finger keys of each half, in order, are exactly at the configured places:
   one key for every entry that is not an empty list *)
Theorem C49_finger_places : forall (kc : @key_cfg Rnum) c y, newLayout kc c = Ok y ->
  forall left : bool, let s := if left then SideLeft else SideRight in
  map kposition (alnum y s) = places left (columnPitch kc) (rowPitch kc) (fingerStaggers c) 0 /\
  map kposition (pinky y s) = places left (columnPitch kc) (rowPitch kc) (fingerStaggers c) 1.
Proof.
  intros kc c y H left. destruct (newLayout_form kc c y H) as (W & fac & _ & EL & ER & _).
  assert (L4 : forall row, In row (fingerStaggers c) -> length row = 4%nat) by (intros row Hr; apply (proj1 W row Hr)).
  split; apply (group_places kc c fac left); auto; try lia; destruct left; assumption.
Qed.
Print Assumptions C49_finger_places.
(* the thumb keys of each half form a chain, starting below the last key of the
   outermost alphanumeric column *)
Theorem C49_thumb_chain : forall (kc : @key_cfg Rnum) c y, newLayout kc c = Ok y ->
  forall left : bool, let i := if left then 0%nat else 1%nat in
  let order {A} (l : list A) := if left then l else rev l in
  exists units angles ox oy rest start, nth_error (thumbUnits c) i = Some units /\ nth_error (thumbAngles c) i = Some angles /\
    nth_error (thumbOffsets c) i = Some (ox :: oy :: rest) /\
    hd_error (rev (present (map (fun row => last (nth 0 row []) None) (if left then fingersL y else fingersR y)))) = Some start /\
    thumb_chain (columnPitch kc) (P (X (capPivotR start) - ox) (Y (capPivotR start) - (rowPitch kc + oy)) (GeoSpec.Z (capPivotR start)))
      (combine (order units) (order angles)) (rev (if left then thumbL y else thumbR y)).
Proof.
  intros kc c y H left. destruct (newLayout_form kc c y H) as (W & fac & _ & EL & ER & TL & TR). cbn zeta in TL, TR.
  set (y0 := mkLayout (initFingers kc c fac true) (initFingers kc c fac false) [] []) in *.
  assert (T : @initThumb Rnum kc c fac y0 (sideOf left) (if left then 0 else 1) (negb left) = Ok (if left then thumbL y else thumbR y)) by (destruct left; assumption).
  apply initThumb_form in T. destruct T as (u & a & o & col & st & ox & oy & Hu & Ha & Ho & Hc & Hs & Hx & Hy & E).
  destruct o as [|ox' [|oy' rest]]; try discriminate Hx; try discriminate Hy. cbn in Hx, Hy. injection Hx as ->. injection Hy as ->.
  exists u, a, ox, oy, rest, st. split; [exact Hu|]. split; [exact Ha|]. split; [exact Ho|]. split.
  - rewrite <- Hs. do 2 f_equal. unfold alnumCol, lcol in Hc. rewrite halves_side in Hc. apply bind_ok in Hc. destruct Hc as (hs & Hh & E'). okinv E'.
    cbn [mapM] in Hh. apply bind_ok in Hh. destruct Hh as (h & Hh & E'). injection E' as <-. cbn [concat]. rewrite app_nil_r.
    apply bind_ok in Hh. destruct Hh as (os & Hos & E'). okinv E'. f_equal.
    replace (if left then fingersL y else fingersR y) with (sideFingers y0 left) by (destruct left; cbn; congruence).
    apply mapM_ok in Hos. clear - Hos. induction Hos as [|row x rows os Hr _ IH]; [reflexivity|]. cbn [map]. f_equal; [|exact IH].
    rewrite pyidx_last in Hr. destruct (nth 0 row []) as [|b l _] using rev_ind; [discriminate|]. rewrite rev_app_distr in Hr. cbn in Hr. injection Hr as <-. apply last_last.
  - rewrite E. replace (P (X (capPivotR st) - ox) (Y (capPivotR st) - (rowPitch kc + oy)) (GeoSpec.Z (capPivotR st))) with (vsub (capPivotR st) (V ox (nadd (rowPitch kc) oy) (nZ 0))).
    2:{ apply pt_ext; [reflexivity|reflexivity|]. assert (E0 : forall z : R, (z - 0 = z)%R) by (intros; ring). apply E0. }
    replace (dirList (negb left) u) with (if left then u else rev u) by (destruct left; reflexivity).
    replace (dirList (negb left) a) with (if left then a else rev a) by (destruct left; reflexivity). apply thumbLoop_chain.
Qed.
Print Assumptions C49_thumb_chain.
(* all() of both sides lists the keys of the right and of the left half *)
Theorem C49_both_sides : forall (N : Num) (y : @layout N), Permutation (lall y SideBoth) (lall y SideRight ++ lall y SideLeft).
Proof. intros N y. apply all_both. Qed.
Print Assumptions C49_both_sides.
(* settings whose left half mirrors the right half give two equal halves (the left
   one is mirrored when the file is written) *)
Theorem C49_symmetric : forall (kc : @key_cfg Rnum) c y, newLayout kc c = Ok y -> symmetric c -> lall y SideLeft = lall y SideRight.
Proof.
  intros kc c y H S. destruct (symmetric_halves kc c y H S) as (FL & TT).
  unfold lall, alnum, pinky, lgroup. cbn [halves lthumb]. rewrite FL, TT. reflexivity.
Qed.
Print Assumptions C49_symmetric.
(* the back (index 0) or front (index -1) key of every column *)
Theorem C49_per_column : forall (N : Num) (y : @layout N) (left : bool) g ks, let column j := present (map (fun row => nth j (nth g row []) None) (if left then fingersL y else fingersR y)) in
  let s := if left then SideLeft else SideRight in
  (lperCol y g 0 s = Ok ks -> forall j k, nth_error ks j = Some k -> hd_error (column j) = Some k) /\
  (lperCol y g (-1) s = Ok ks -> forall j k, nth_error ks j = Some k -> hd_error (rev (column j)) = Some k) /\
  (forall i, lperCol y g i s = Ok ks -> length ks = length (nth g (hd [] (if left then fingersL y else fingersR y)) [])).
Proof.
  intros N y left g ks column s.
  assert (SN : forall (Q : nat -> key -> Prop) n o (l : list key), Forall2 Q (seq o n) l -> forall j k, nth_error l j = Some k -> Q (o + j)%nat k).
  { intros Q. induction n as [|n IH]; intros o l F j k Hj; inversion F; subst; [destruct j; discriminate|].
    destruct j as [|j]; [injection Hj as <-; rewrite Nat.add_0_r; assumption|]. rewrite Nat.add_succ_r. apply (IH (S o) l'); assumption. }
  assert (LE : forall (Q : nat -> key -> Prop) a (l : list key), Forall2 Q a l -> length l = length a) by (intros Q a l F; induction F; cbn; congruence).
  split; [|split].
  - intros H j k Hj. destruct (lperCol_form y left g _ ks H) as (row & rows & _ & F). pose proof (SN _ _ _ _ F j k Hj) as K. cbn [Nat.add] in K.
    rewrite pyidx_first in K. change (LayoutProof.column y left g j) with (column j) in K. destruct (column j); [discriminate|]. injection K as <-. reflexivity.
  - intros H j k Hj. destruct (lperCol_form y left g _ ks H) as (row & rows & _ & F). pose proof (SN _ _ _ _ F j k Hj) as K. cbn [Nat.add] in K.
    rewrite pyidx_last in K. change (LayoutProof.column y left g j) with (column j) in K. destruct (rev (column j)); [discriminate|]. injection K as <-. reflexivity.
  - intros i H. destruct (lperCol_form y left g _ ks H) as (row & rows & E & F). apply LE in F. rewrite seq_length in F. rewrite F.
    change (if left then fingersL y else fingersR y) with (sideFingers y left). rewrite E. reflexivity.
Qed.
Print Assumptions C49_per_column.
(* maxAlnum and minPinky: the keys next to the tent crease *)
Theorem C49_extreme_keys : forall (y : @layout Rnum) s,
  (forall k, maxAlnum y s = Ok k -> In k (alnum y s) /\ forall k', In k' (alnum y s) -> (X (kposition k') <= X (kposition k))%R) /\
  (forall k, minPinky y s = Ok k -> In k (pinky y s) /\ forall k', In k' (pinky y s) -> (X (kposition k) <= X (kposition k'))%R).
Proof.
  intros y s. split; intros k H; split; try exact (bestKey_in _ _ _ H); [apply (bestKey_max _ _ H)|apply (bestKey_min _ _ H)].
Qed.
Print Assumptions C49_extreme_keys.

(* the default layout of the repository, evaluated in fixed point arithmetic:
   16 alphanumeric, 9 pinky and 4 thumb keys on the left, 35 keys on the right *)
Definition dq (p q : BinNums.Z) : @num Calc := Z.div (Z.mul p fone) q.
Definition key_default : @key_cfg Calc := @mkKeyCfg Calc (dq 141 10) (dq 139 10) (dq 4 1) (dq 33 10) (dq 5 1) (dq 2 1) (dq 4 1) (dq 4 10)
  (Some (@mkClip Calc (dq 8 1) (dq 9 10) (dq 14 10) (Z.div fpi 3) false)) (dq 19 1) (dq 19 1) (dq 18 1) (dq 18 1).
Definition n_ (p q : BinNums.Z) : @stagger Calc := @SNum Calc (dq p q).
Definition e_ : @stagger Calc := @SList Calc [].
Definition row_default : list (list (@stagger Calc)) :=
  [[n_ 0 1; n_ 0 1]; [n_ 48 10; n_ 72 10; n_ 48 10; n_ 24 10]; [n_ 24 10; n_ 48 10; n_ 72 10; n_ 48 10]; [n_ 0 1; n_ 0 1; n_ 0 1]].
Definition layout_default : @layout_cfg Calc := @mkLayoutCfg Calc
  [row_default; row_default; row_default; row_default;
   [[@SList Calc [dq 2375 1000; dq 0 1]; e_]; [e_; e_; e_; e_]; [e_; e_; e_; e_]; [n_ 0 1; n_ 0 1; n_ 0 1]]]
  [[dq 1 1; dq 125 100; dq 125 100; dq 125 100]; [dq 125 100; dq 125 100; dq 125 100; dq 1 1]]
  [[dq 0 1; dq 3 1; dq 18 1; dq 36 1]; [dq 36 1; dq 18 1; dq 3 1; dq 0 1]]
  [[dq 0 1; dq 48 10]; [dq 0 1; dq 48 10]].
Example C49_nonvacuous : match newLayout key_default layout_default with
  | Ok y => (length (alnum y SideLeft), length (pinky y SideLeft), length (lthumb y SideLeft), length (lall y SideRight), length (lall y SideBoth)) = (16, 9, 4, 35, 64)%nat
  | Err _ => False end.
Proof. vm_compute. reflexivity. Qed.
(* symmetric settings, over the reals *)
Definition kc_small : @key_cfg Rnum := @mkKeyCfg Rnum 14%R 14%R 4%R 3%R 5%R 2%R 4%R (4/10)%R None 19%R 19%R 18%R 18%R.
Definition sym_small : @layout_cfg Rnum := @mkLayoutCfg Rnum
  [[[@SNum Rnum 0%R; @SList Rnum [(-2)%R; 1%R]]; [@SNum Rnum 3%R]; [@SNum Rnum 3%R]; [@SList Rnum [2%R; 1%R]; @SNum Rnum 0%R]]]
  [[1%R; (5/4)%R]; [(5/4)%R; 1%R]] [[0%R; 18%R]; [18%R; 0%R]] [[0%R; 5%R]; [0%R; 5%R]].
Example C49_symmetric_nonvacuous : (exists y, newLayout kc_small sym_small = Ok y /\ length (lall y SideBoth) = 10%nat) /\ symmetric sym_small.
Proof.
  split.
  - unfold newLayout, keyFactory. cbn [bind backMesh hasClip clipNotch kc_small isSideways]. eexists. split; reflexivity.
  - split; [|split; [reflexivity|split; reflexivity]]. intros row [<-|[]]. cbn. split; reflexivity.
Qed.
