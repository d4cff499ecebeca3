(** Proofs about LayoutModel. *)
From Coq Require Import Reals Lra ZArith List Bool Arith Lia Permutation.
From Verif Require Import Num GeoModel GeoSpec GeoMat GeoRigid EdgeModel KeyModel LayoutModel LayoutSpec.
Import ListNotations.

Section Any.
Context {N : Num}.
Variable kc : @key_cfg N.
Variable c : @layout_cfg N.

Lemma staggersOk_spec : staggersOk c = true <->
  forall row, In row (fingerStaggers c) -> length row = 4%nat /\
     forall i, (i < 4)%nat -> length (nth i row []) = length (nth i (hd [] (fingerStaggers c)) []).
Proof.
  unfold staggersOk. rewrite forallb_forall. split; intros H row Hr; specialize (H row Hr).
  - unfold rowOk in H. apply andb_prop in H. destruct H as (H1 & H2). apply Nat.eqb_eq in H1. split; [exact H1|].
    intros i Hi. rewrite forallb_forall in H2. apply Nat.eqb_eq. apply H2. apply in_seq. lia.
  - destruct H as (H1 & H2). unfold rowOk. rewrite H1. cbn [Nat.eqb andb]. apply forallb_forall. intros i Hi. apply in_seq in Hi.
    apply Nat.eqb_eq, H2. lia.
Qed.
Lemma thumbsOk_spec : thumbsOk c = true <-> length (thumbUnits c) = 2%nat /\ length (thumbAngles c) = 2%nat /\
  (forall i, (i < 2)%nat -> length (nth i (thumbUnits c) []) = length (nth i (thumbAngles c) [])).
Proof.
  unfold thumbsOk. rewrite !andb_true_iff, !Nat.eqb_eq. split.
  - intros (((A & B) & C) & D). split; [exact A|]. split; [exact B|]. intros [|[|i]] Hi; [exact C|exact D|lia].
  - intros (A & B & C). repeat split; auto.
Qed.
Lemma ok_well_formed : staggersOk c = true /\ thumbsOk c = true <-> well_formed c.
Proof. unfold well_formed. rewrite staggersOk_spec, thumbsOk_spec. tauto. Qed.

Lemma newLayout_form y : newLayout kc c = Ok y -> well_formed c /\ exists fac, keyFactory kc = Ok fac /\
  let y0 := mkLayout (initFingers kc c fac true) (initFingers kc c fac false) [] [] in
  fingersL y = initFingers kc c fac true /\ fingersR y = initFingers kc c fac false /\
  initThumb kc c fac y0 SideLeft 0 false = Ok (thumbL y) /\ initThumb kc c fac y0 SideRight 1 true = Ok (thumbR y).
Proof.
  unfold newLayout. intros H. apply bind_ok in H. destruct H as (fac & F & H).
  destruct (staggersOk c) eqn:S; [|discriminate]. destruct (thumbsOk c) eqn:T; [|discriminate]. cbn [negb] in H.
  apply bind_ok in H. destruct H as (tl & L & H). apply bind_ok in H. destruct H as (tr & R & H). injection H as <-.
  split; [apply ok_well_formed; auto|]. exists fac. cbn. auto.
Qed.

Lemma present_app {A} (l1 l2 : list (option A)) : present (l1 ++ l2) = present l1 ++ present l2.
Proof. unfold present. apply flat_map_app. Qed.
Lemma lgroup_both (y : @layout N) g : lgroup y g SideBoth = lgroup y g SideRight ++ lgroup y g SideLeft.
Proof. unfold lgroup. cbn [halves flat_map]. rewrite !app_nil_r. reflexivity. Qed.
Lemma perm_swap {A} (a a' b b' : list A) : Permutation ((a ++ a') ++ (b ++ b')) ((a ++ b) ++ (a' ++ b')).
Proof. rewrite <- !app_assoc. apply Permutation_app_head. rewrite !app_assoc. apply Permutation_app_tail, Permutation_app_comm. Qed.
Lemma all_both (y : @layout N) : Permutation (lall y SideBoth) (lall y SideRight ++ lall y SideLeft).
Proof.
  unfold lall, alnum, pinky. rewrite !lgroup_both. cbn [lthumb].
  eapply Permutation_trans; [apply Permutation_app_head, perm_swap|]. apply perm_swap.
Qed.

(* columns: what perAlnumCol and perPinkyCol return for one half *)
Lemma mapM_ok_map {A B} (f : A -> res B) (g : A -> B) l : (forall x, In x l -> f x = Ok (g x)) -> mapM f l = Ok (map g l).
Proof.
  induction l as [|x l IH]; intros H; [reflexivity|]. cbn [mapM map]. rewrite H by (left; reflexivity). cbn [bind].
  rewrite IH by (intros; apply H; right; assumption). reflexivity.
Qed.
Lemma pyidx_nat {A} (l : list A) n x : nth_error l n = Some x -> pyidx l (Z.of_nat n) = Ok x.
Proof.
  intros H. unfold pyidx. destruct (Z.of_nat n <? 0)%Z eqn:E; [apply Z.ltb_lt in E; lia|]. cbv zeta. rewrite E, Nat2Z.id, H. reflexivity.
Qed.
Lemma pyidx_last {A} (l : list A) : pyidx l (-1) = match rev l with [] => Err IndexErr | x :: _ => Ok x end.
Proof.
  unfold pyidx. cbn [Z.ltb Z.compare]. destruct l as [|a l] using rev_ind; [reflexivity|]. rewrite rev_app_distr. cbn [rev app].
  rewrite app_length. cbn [length]. replace (Z.of_nat (length l + 1) + -1)%Z with (Z.of_nat (length l)) by lia.
  destruct (Z.of_nat (length l) <? 0)%Z eqn:E; [apply Z.ltb_lt in E; lia|]. rewrite Nat2Z.id, nth_error_app2, Nat.sub_diag by lia. reflexivity.
Qed.
Lemma pyidx_first {A} (l : list A) : pyidx l 0 = match l with [] => Err IndexErr | x :: _ => Ok x end.
Proof. destruct l; reflexivity. Qed.
(* best: no other key is better, for a strict order *)
Lemma bestKey_in better l (k : key) : bestKey better l = Ok k -> In k l.
Proof.
  destruct l as [|a l]; [discriminate|]. cbn [bestKey]. intros H. okinv H. revert a. induction l as [|b l IH]; intros a; [left; reflexivity|].
  cbn [fold_left]. destruct (better (kposition a) (kposition b)).
  - destruct (IH b) as [E|E]; [right; left; exact E|right; right; exact E].
  - destruct (IH a) as [E|E]; [left; exact E|right; right; exact E].
Qed.
End Any.

Open Scope R_scope.
Lemma affine_mid : affine mid. Proof. aff. Qed.
Lemma id1 (x y z : R) : x * 1 + y * 0 + z * 0 + 0 = x. Proof. ring. Qed.
Lemma id2 (x y z : R) : x * 0 + y * 1 + z * 0 + 0 = y. Proof. ring. Qed.
Lemma id3 (x y z : R) : x * 0 + y * 0 + z * 1 + 0 = z. Proof. ring. Qed.
Lemma app_id (p : pt) : transformed p mid = p.
Proof. apply pt_ext; [apply id1|apply id2|apply id3]. Qed.
Lemma moved_id (v p : pt) : transformed p (mtranslated mid v) = plus p v.
Proof. rewrite app_tra by apply affine_mid. rewrite app_id. reflexivity. Qed.
Lemma plus_0_l (v : pt) : plus origin v = v.
Proof. assert (E : forall x : R, 0 + x = x) by (intros; ring). apply pt_ext; apply E. Qed.
Lemma plus_0_r (v : pt) : plus v origin = v.
Proof. assert (E : forall x : R, x + 0 = x) by (intros; ring). apply pt_ext; apply E. Qed.
Lemma newKey_position kc fac (v : pt) u : kposition (ktranslate (newKey kc fac u) v) = v.
Proof. unfold kposition, ktranslate, newKey. cbn [kmatrix]. rewrite moved_id. apply plus_0_l. Qed.

Section Real.
Variable kc : @key_cfg Rnum.
Variable c : @layout_cfg Rnum.

Lemma fingerKey_place fac left row col (s : @stagger Rnum) :
  map kposition (present [fingerKey kc fac left row col s]) = place left (columnPitch kc) (rowPitch kc) row col s.
Proof.
  assert (E : forall n : nat, (IZR (Z.of_nat n)) = INR n) by (intros; symmetry; apply INR_IZR_INZ).
  assert (E' : forall n : nat, (IZR (- Z.of_nat n)) = - INR n) by (intros; rewrite opp_IZR, E; reflexivity).
  unfold place. destruct s as [y|[|x [|y r]]]; cbn [displacement fingerKey present flat_map app map];
    rewrite ?newKey_position; try reflexivity; f_equal; apply pt_ext; un; rn; rewrite ?E, ?E'; destruct left; cbn [signZ]; ring.
Qed.
Lemma fingerGroup_places fac left row g : forall col,
  map kposition (present (fingerGroup kc fac left row col g)) =
  flat_map (fun js : nat * stagger => place left (columnPitch kc) (rowPitch kc) row (fst js) (snd js)) (combine (seq col (length g)) g).
Proof.
  induction g as [|s g IH]; intros col; [reflexivity|]. cbn [fingerGroup length seq combine flat_map fst snd].
  rewrite <- fingerKey_place with (fac := fac), <- IH. change (fingerKey kc fac left row col s :: ?r) with ([fingerKey kc fac left row col s] ++ r).
  rewrite present_app, map_app. reflexivity.
Qed.
Lemma shift_seq {A} (f : nat -> A -> list pt) g : forall a b,
  flat_map (fun js => f (fst js) (snd js)) (combine (seq (a + b) (length g)) g) =
  flat_map (fun js => f (a + fst js)%nat (snd js)) (combine (seq b (length g)) g).
Proof.
  induction g as [|s g IH]; intros a b; [reflexivity|]. cbn [length seq combine flat_map fst snd]. rewrite <- IH, Nat.add_succ_r. reflexivity.
Qed.
Lemma fingerRow_nth fac left i (r : list (list stagger)) g : length r = 4%nat -> (g < 2)%nat ->
  nth g (fingerRow kc fac left i 0 (skipn 2 (dirList left r))) [] =
  fingerGroup kc fac left i (match g with O => O | _ => length (nth 0 (half_row left r) []) end) (nth g (half_row left r) []).
Proof.
  intros L Hg. destruct r as [|r0 [|r1 [|r2 [|r3 [|]]]]]; try discriminate L.
  destruct left; cbn [dirList rev app skipn fingerRow half_row nth]; destruct g as [|[|g]]; try lia; cbn [nth]; rewrite ?rev_length; reflexivity.
Qed.
Lemma group_places fac (left : bool) g (y : layout) : (forall row, In row (fingerStaggers c) -> length row = 4%nat) -> (g < 2)%nat ->
  (if left then fingersL y else fingersR y) = initFingers kc c fac left ->
  map kposition (lgroup y g (if left then SideLeft else SideRight)) = places left (columnPitch kc) (rowPitch kc) (fingerStaggers c) g.
Proof.
  intros W Hg E. assert (EL : lgroup y g (if left then SideLeft else SideRight) = flat_map (fun row => present (nth g row [])) (initFingers kc c fac left)).
  { rewrite <- E. unfold lgroup. destruct left; cbn [halves flat_map]; rewrite app_nil_r; reflexivity. }
  rewrite EL. clear E EL. unfold initFingers, places. revert W. generalize (fingerStaggers c). intros rows.
  cut (forall i, (forall row, In row rows -> length row = 4%nat) ->
    map kposition (flat_map (fun row => present (nth g row [])) (map (fun ir : nat * list (list stagger) => fingerRow kc fac left (fst ir) 0 (skipn 2 (dirList left (snd ir)))) (combine (seq i (length rows)) rows))) =
    flat_map (fun ir : nat * list (list stagger) =>
      let hr := half_row left (snd ir) in let first := match g with O => O | _ => length (nth 0 hr []) end in let grp := nth g hr [] in
      flat_map (fun js : nat * stagger => place left (columnPitch kc) (rowPitch kc) (fst ir) (first + fst js) (snd js)) (combine (seq 0 (length grp)) grp))
      (combine (seq i (length rows)) rows)); [intros K; apply K|].
  induction rows as [|r rows IH]; intros i W; [reflexivity|].
  cbn [length seq combine map flat_map fst snd]. rewrite map_app, IH by (intros; apply W; right; assumption). f_equal.
  rewrite fingerRow_nth by (auto; apply W; left; reflexivity). rewrite fingerGroup_places.
  set (o := match g with O => O | _ => _ end). rewrite <- (Nat.add_0_r o) at 1.
  rewrite (shift_seq (fun n s => place left (columnPitch kc) (rowPitch kc) i n s)). reflexivity.
Qed.

(** ** thumb keys *)
Lemma newKey_pivots (k : @key_cfg Rnum) fac (u : R) :
  kPivotL (@newKey Rnum k fac u) = P (- (columnPitch k * u) / 2) (- capDepth k / 2) 0 /\ kPivotR (@newKey Rnum k fac u) = P (columnPitch k * u / 2) (- capDepth k / 2) 0.
Proof.
  assert (E1 : forall w p c : R, - (p * w - (p - c)) / 2 - (p - c) / 2 = - (p * w) / 2) by (intros; field).
  assert (E2 : forall w p c : R, (p * w - (p - c)) / 2 + (p - c) / 2 = p * w / 2) by (intros; field).
  assert (E3 : forall p c : R, - (p - (p - c)) / 2 = - c / 2) by (intros; field).
  split; (apply pt_ext; [apply E1 || apply E2|apply E3|reflexivity]).
Qed.
Lemma radians_deg (a : R) : @radians Rnum a = a * PI / 180.
Proof. unfold radians. rn. field. Qed.
Lemma thumb_key_map fac (u a : R) (v p : pt) : let k := ktranslate (ktransform (newKey kc fac u) (mrotZ mid (radians a) None)) v in
  transformed p (kmatrix k) = plus (P (X p * cos (a * PI / 180) - Y p * sin (a * PI / 180)) (X p * sin (a * PI / 180) + Y p * cos (a * PI / 180)) (Z p)) v.
Proof.
  cbn zeta. unfold ktranslate, ktransform, newKey. cbn [kmatrix].
  assert (AR : affine (@mrotZ Rnum mid (@radians Rnum a) None)) by (apply affine_rot; aff).
  rewrite app_tra by (apply affine_mul; [apply affine_mid|exact AR]). rewrite transformed_mul by apply affine_mid.
  rewrite app_rotZ by apply affine_mid. rewrite radians_deg, !app_id. f_equal. unfold rotZ_pt. cbn [ctr].
  generalize (a * PI / 180). intros t.
  assert (E1 : forall x y cc ss : R, 0 + ((x - 0) * cc - (y - 0) * ss) = x * cc - y * ss) by (intros; ring).
  assert (E2 : forall x y cc ss : R, 0 + ((x - 0) * ss + (y - 0) * cc) = x * ss + y * cc) by (intros; ring).
  apply pt_ext; [apply E1|apply E2|reflexivity].
Qed.
Lemma thumbLoop_app fac ua : forall pivot target, thumbLoop kc fac ua pivot target = thumbLoop kc fac ua pivot [] ++ target.
Proof.
  induction ua as [|[u a] r IH]; intros pivot target; [reflexivity|]. cbn [thumbLoop].
  rewrite IH. rewrite (IH _ [_]). rewrite <- app_assoc. reflexivity.
Qed.
Lemma thumbLoop_chain fac ua : forall pivot, thumb_chain (columnPitch kc) pivot ua (rev (thumbLoop kc fac ua pivot [])).
Proof.
  induction ua as [|[u a] r IH]; intros pivot; [exact I|]. cbn [thumbLoop].
  rewrite thumbLoop_app, rev_app_distr. cbn [rev app thumb_chain].
  set (k0 := @ktransform Rnum (@newKey Rnum kc fac u) (@mrotZ Rnum (@mid Rnum) (@radians Rnum a) None)).
  set (v := vsub pivot (capPivotR k0)). set (k := ktranslate k0 v).
  assert (M : forall w p, transformed p (kmatrix (ktranslate k0 w)) = plus (P (X p * cos (a * PI / 180) - Y p * sin (a * PI / 180)) (X p * sin (a * PI / 180) + Y p * cos (a * PI / 180)) (Z p)) w).
  { intros w p. apply thumb_key_map. }
  assert (M0 : forall p, transformed p (kmatrix k0) = P (X p * cos (a * PI / 180) - Y p * sin (a * PI / 180)) (X p * sin (a * PI / 180) + Y p * cos (a * PI / 180)) (Z p)).
  { intros p. assert (E : plus (transformed p (kmatrix k0)) (P 0 0 0) = plus (P (X p * cos (a * PI / 180) - Y p * sin (a * PI / 180)) (X p * sin (a * PI / 180) + Y p * cos (a * PI / 180)) (Z p)) (P 0 0 0)).
    { rewrite <- (M (P 0 0 0) p). unfold ktranslate. cbn [kmatrix]. symmetry. apply app_tra. unfold k0, ktransform, newKey. cbn [kmatrix].
      apply affine_mul; [apply affine_mid|apply affine_rot; aff]. }
    change (P 0 0 0) with origin in E. rewrite !plus_0_r in E. exact E. }
  assert (R1 : capPivotR k = pivot).
  { unfold capPivotR, k. rewrite M. unfold v, capPivotR. rewrite M0. unfold k0. cbn [kPivotR ktranslate ktransform newKey].
    assert (E : forall x y : R, x + (y - x) = y) by (intros; ring). apply pt_ext; apply E. }
  assert (L1 : capPivotL k = P (X pivot - columnPitch kc * u * cos (a * PI / 180)) (Y pivot - columnPitch kc * u * sin (a * PI / 180)) (Z pivot)).
  { clear R1. unfold capPivotL, k. rewrite M. unfold v, capPivotR. rewrite M0. unfold k0, ktranslate. cbn [kPivotR kPivotL].
    change (kPivotL (@ktransform Rnum (@newKey Rnum kc fac u) (@mrotZ Rnum (@mid Rnum) (@radians Rnum a) None))) with (kPivotL (@newKey Rnum kc fac u)).
    change (kPivotR (@ktransform Rnum (@newKey Rnum kc fac u) (@mrotZ Rnum (@mid Rnum) (@radians Rnum a) None))) with (kPivotR (@newKey Rnum kc fac u)).
    destruct (newKey_pivots kc fac u) as (EL & ER). rewrite EL, ER. generalize (cos (a * PI / 180)) (sin (a * PI / 180)). intros cc ss.
    assert (E : forall w d p q r : R, - w / 2 * q - d * r + (p - (w / 2 * q - d * r)) = p - w * q) by (intros; field).
    assert (E' : forall w d p q r : R, - w / 2 * q + d * r + (p - (w / 2 * q + d * r)) = p - w * q) by (intros; field).
    assert (E3 : forall z : R, 0 + (z - 0) = z) by (intros; ring).
    apply pt_ext; [apply E|apply E'|apply E3]. }
  split; [exact R1|]. split; [exact L1|]. split; [exists v; intros p; apply M|apply IH].
Qed.
Lemma initThumb_form fac y (s : side) i back ks : @initThumb Rnum kc c fac y s i back = Ok ks ->
  exists u a o col start ox oy, nth_error (thumbUnits c) i = Some u /\ nth_error (thumbAngles c) i = Some a /\ nth_error (thumbOffsets c) i = Some o /\
    alnumCol y (-1) s = Ok col /\ hd_error (rev col) = Some start /\ nth_error o 0 = Some ox /\ nth_error o 1 = Some oy /\
    ks = thumbLoop kc fac (combine (dirList back u) (dirList back a)) (vsub (capPivotR start) (V ox (nadd (rowPitch kc) oy) (nZ 0))) [].
Proof.
  assert (K : forall A (l : list A) n x, pyidx l (Z.of_nat n) = Ok x -> nth_error l n = Some x).
  { intros A l n x. unfold pyidx. destruct (Z.of_nat n <? 0)%Z eqn:E; [apply Z.ltb_lt in E; lia|]. cbv zeta. rewrite E, Nat2Z.id.
    destruct (nth_error l n); congruence. }
  unfold initThumb. intros H. apply bind_ok in H. destruct H as (u & Hu & H). apply bind_ok in H. destruct H as (a & Ha & H).
  apply bind_ok in H. destruct H as (o & Ho & H). apply bind_ok in H. destruct H as (col & Hc & H).
  apply bind_ok in H. destruct H as (st & Hs & H). apply bind_ok in H. destruct H as (ox & Hx & H). apply bind_ok in H. destruct H as (oy & Hy & H).
  okinv H. exists u, a, o, col, st, ox, oy. split; [apply K, Hu|]. split; [apply K, Ha|]. split; [apply K, Ho|]. split; [exact Hc|]. split; [|split; [|split]].
  - rewrite pyidx_last in Hs. destruct (rev col); [discriminate|]. injection Hs as <-. reflexivity.
  - exact (K _ o 0%nat ox Hx).
  - exact (K _ o 1%nat oy Hy).
  - reflexivity.
Qed.

(** ** symmetric settings *)
Lemma fingerKey_mirror fac row col (s : @stagger Rnum) : fingerKey kc fac true row col (mirror_stagger s) = fingerKey kc fac false row col s.
Proof.
  destruct s as [y|[|x [|y r]]]; try reflexivity. cbn [mirror_stagger fingerKey signZ]. do 2 f_equal. f_equal; rn; ring.
Qed.
Lemma fingerGroup_mirror fac row g : forall col, fingerGroup kc fac true row col (map mirror_stagger g) = fingerGroup kc fac false row col g.
Proof. induction g as [|s g IH]; intros col; [reflexivity|]. cbn [map fingerGroup]. rewrite fingerKey_mirror, IH. reflexivity. Qed.
Lemma fingers_mirror fac : (forall row, In row (fingerStaggers c) -> length row = 4%nat) ->
  (forall row, In row (fingerStaggers c) -> nth 0 row [] = rev (map mirror_stagger (nth 3 row [])) /\ nth 1 row [] = rev (map mirror_stagger (nth 2 row []))) ->
  initFingers kc c fac true = initFingers kc c fac false.
Proof.
  unfold initFingers. intros W S. apply map_ext_in. intros [i r] H. apply in_combine_r in H. specialize (W r H). destruct (S r H) as (S0 & S1). clear S H.
  destruct r as [|r0 [|r1 [|r2 [|r3 [|]]]]]; try discriminate W. cbn [nth] in S0, S1. subst r0 r1.
  cbn [fst snd dirList rev app skipn fingerRow]. rewrite !rev_involutive, !rev_length, !map_length, !fingerGroup_mirror. reflexivity.
Qed.
End Real.

(** ** columns and extreme keys *)
Section Columns.
Context {N : Num}.
Definition sideFingers (y : @layout N) (left : bool) := if left then fingersL y else fingersR y.
Definition sideOf (left : bool) : side := if left then SideLeft else SideRight.
Lemma halves_side (y : @layout N) left : halves y (sideOf left) = [sideFingers y left].
Proof. destruct left; reflexivity. Qed.
(* the keys of column j of group g, from back to front *)
Definition column (y : @layout N) (left : bool) (g j : nat) : list key := present (map (fun row => nth j (nth g row []) None) (sideFingers y left)).
Lemma pyidx_nth {A} (l : list A) n x d : pyidx l (Z.of_nat n) = Ok x -> nth n l d = x.
Proof.
  unfold pyidx. destruct (Z.of_nat n <? 0)%Z eqn:E; [apply Z.ltb_lt in E; lia|]. cbv zeta. rewrite E, Nat2Z.id.
  destruct (nth_error l n) eqn:H; [|discriminate]. intros K. injection K as <-. apply nth_error_nth, H.
Qed.
Lemma lcol_column (y : @layout N) left g j ks : lcol y g (Z.of_nat j) (sideOf left) = Ok ks -> ks = column y left g j.
Proof.
  unfold lcol. rewrite halves_side. intros H. apply bind_ok in H. destruct H as (hs & H & E). okinv E.
  cbn [mapM] in H. apply bind_ok in H. destruct H as (h & Hh & H). injection H as <-. cbn [concat]. rewrite app_nil_r.
  apply bind_ok in Hh. destruct Hh as (os & Ho & E). okinv E. unfold column. f_equal.
  apply mapM_ok in Ho. induction Ho as [|row o rows os Hr Ho IH]; [reflexivity|]. cbn [map]. f_equal; [|exact IH].
  symmetry. apply pyidx_nth. exact Hr.
Qed.
Lemma lperCol_form (y : @layout N) left g index ks : lperCol y g index (sideOf left) = Ok ks ->
  exists row rows, sideFingers y left = row :: rows /\
  Forall2 (fun j k => pyidx (column y left g j) index = Ok k) (seq 0 (length (nth g row []))) ks.
Proof.
  unfold lperCol. rewrite halves_side. intros H. apply bind_ok in H. destruct H as (hs & H & E). okinv E.
  cbn [mapM] in H. apply bind_ok in H. destruct H as (h & Hh & H). injection H as <-. cbn [concat]. rewrite app_nil_r.
  apply bind_ok in Hh. destruct Hh as (row & Hr & H). rewrite pyidx_first in Hr. destruct (sideFingers y left) as [|r rows] eqn:E; [discriminate|]. okinv Hr.
  exists r, rows. split; [reflexivity|]. apply mapM_ok in H. revert H. generalize (seq 0 (length (nth g r []))). intros l H.
  induction H as [|j k js ks' Hj _ IH]; constructor; [|exact IH]. apply bind_ok in Hj. destruct Hj as (cs & Hc & Hj).
  apply lcol_column in Hc. rewrite <- Hc. exact Hj.
Qed.
End Columns.
Lemma bestKey_max (l : list (@key Rnum)) k : bestKey (fun b x => vltb b x) l = Ok k -> forall k', In k' l -> X (kposition k') <= X (kposition k).
Proof.
  assert (T : forall p q : pt, vltb p q = true -> X p <= X q).
  { intros p q. unfold vltb, X. destruct (neqb (vx p) (vx q)) eqn:E; cbn [negb]; [apply Reqb_true in E; intros _; right; exact E|intros H; apply Rltb_true in H; left; exact H]. }
  assert (F : forall p q : pt, vltb p q = false -> X q <= X p).
  { intros p q. unfold vltb, X. destruct (neqb (vx p) (vx q)) eqn:E; cbn [negb]; [apply Reqb_true in E; intros _; right; symmetry; exact E|intros H; apply Rltb_false in H; exact H]. }
  destruct l as [|a l]; [discriminate|]. cbn [bestKey]. intros H. okinv H.
  assert (G : forall l a, X (kposition a) <= X (kposition (fold_left (fun best x : @key Rnum => if vltb (kposition best) (kposition x) then x else best) l a)) /\
    forall k', In k' l -> X (kposition k') <= X (kposition (fold_left (fun best x : @key Rnum => if vltb (kposition best) (kposition x) then x else best) l a))).
  { clear - T F. induction l as [|b l IH]; intros a; cbn [fold_left]; [split; [lra|intros k' []]|].
    destruct (vltb (kposition a) (kposition b)) eqn:E.
    - destruct (IH b) as (I1 & I2). apply T in E. split; [lra|]. intros k' [<-|K]; [exact I1|apply I2, K].
    - destruct (IH a) as (I1 & I2). apply F in E. split; [exact I1|]. intros k' [<-|K]; [lra|apply I2, K]. }
  destruct (G l a) as (G1 & G2). intros k' [<-|K]; [exact G1|apply G2, K].
Qed.
Lemma bestKey_min (l : list (@key Rnum)) k : bestKey (fun b x => vltb x b) l = Ok k -> forall k', In k' l -> X (kposition k) <= X (kposition k').
Proof.
  assert (T : forall p q : pt, vltb p q = true -> X p <= X q).
  { intros p q. unfold vltb, X. destruct (neqb (vx p) (vx q)) eqn:E; cbn [negb]; [apply Reqb_true in E; intros _; right; exact E|intros H; apply Rltb_true in H; left; exact H]. }
  assert (F : forall p q : pt, vltb p q = false -> X q <= X p).
  { intros p q. unfold vltb, X. destruct (neqb (vx p) (vx q)) eqn:E; cbn [negb]; [apply Reqb_true in E; intros _; right; symmetry; exact E|intros H; apply Rltb_false in H; exact H]. }
  destruct l as [|a l]; [discriminate|]. cbn [bestKey]. intros H. okinv H.
  assert (G : forall l a, X (kposition (fold_left (fun best x : @key Rnum => if vltb (kposition x) (kposition best) then x else best) l a)) <= X (kposition a) /\
    forall k', In k' l -> X (kposition (fold_left (fun best x : @key Rnum => if vltb (kposition x) (kposition best) then x else best) l a)) <= X (kposition k')).
  { clear - T F. induction l as [|b l IH]; intros a; cbn [fold_left]; [split; [lra|intros k' []]|].
    destruct (vltb (kposition b) (kposition a)) eqn:E.
    - destruct (IH b) as (I1 & I2). apply T in E. split; [lra|]. intros k' [<-|K]; [exact I1|apply I2, K].
    - destruct (IH a) as (I1 & I2). apply F in E. split; [exact I1|]. intros k' [<-|K]; [lra|apply I2, K]. }
  destruct (G l a) as (G1 & G2). intros k' [<-|K]; [exact G1|apply G2, K].
Qed.

Lemma symmetric_halves : forall (kc : @key_cfg Rnum) c y, newLayout kc c = Ok y -> symmetric c -> fingersL y = fingersR y /\ thumbL y = thumbR y.
Proof.
  intros kc c y H (S1 & S2 & S3 & S4). destruct (newLayout_form kc c y H) as (W & fac & _ & EL & ER & TL & TR). cbn zeta in TL, TR.
  assert (F : initFingers kc c fac true = initFingers kc c fac false) by (apply fingers_mirror; [intros row Hr; apply (proj1 W row Hr)|exact S1]).
  assert (FL : fingersL y = fingersR y) by congruence.
  assert (TT : thumbL y = thumbR y).
  { apply Ok_inj. rewrite <- TL, <- TR. rewrite F. unfold initThumb, alnumCol, lcol. cbn [halves fingersL fingersR].
    destruct W as (_ & U2 & A2 & _).
    destruct (thumbUnits c) as [|u0 [|u1 [|]]] eqn:EU; try discriminate U2. destruct (thumbAngles c) as [|a0 [|a1 [|]]] eqn:EA; try discriminate A2.
    cbn [nth] in S2, S3. subst u0 a0.
    assert (P4 : @pyidx (list (@num Rnum)) (thumbOffsets c) (Z.of_nat 0) = pyidx (thumbOffsets c) (Z.of_nat 1)).
    { change (match nth_error (thumbOffsets c) 0 with Some x => Ok x | None => Err IndexErr end = match nth_error (thumbOffsets c) 1 with Some x => Ok x | None => Err IndexErr end). rewrite S4. reflexivity. }
    rewrite P4. cbn. reflexivity. }
  split; assumption.
Qed.
