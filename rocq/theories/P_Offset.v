(** C81: the parallel polygon (_naiveOffset2D, body/chrumm/part/floor.py).  Read with OffSpec.v and PolySpec.v. *)
From Coq Require Import Reals Lra Psatz ZArith List Bool Arith Lia.
From Verif Require Import Num Calc GeoModel EdgeModel GeoSpec GeoMat GeoFig GeoCirc EdgeSpecR EdgeReal ArcModel LayoutModel BossModel PlanModel BracketModel BumperModel BodyModel FloorModel EdgeSpecR PolySpec OffSpec OffProof OffExact OffCut OffLoop OffAll P_Layout P_Solid P_Plan P_Palm P_Body P_Floor.
Import ListNotations.
Open Scope R_scope.

Lemma mseg_nth (m : list pt) n k : (k < n)%nat -> nth k (map (mseg m) (seq 0 n)) seg0 = mseg m k.
Proof. intros H. rewrite (nth_indep _ seg0 (mseg m 0)) by (rewrite map_length, seq_length; exact H). rewrite map_nth, seq_nth by exact H. reflexivity. Qed.
Lemma cyc_lt (m : list pt) k : (k < length m)%nat -> cyc m k = nth k m origin.
Proof. intros H. unfold cyc. rewrite Nat.mod_small by exact H. reflexivity. Qed.
Lemma mseg_chain (m : list pt) : chain (map (mseg m) (seq 0 (length m))).
Proof.
  intros i Hi. rewrite map_length, seq_length in *. assert (PI : (prevn (length m) i < length m)%nat) by (unfold prevn; destruct i; lia).
  rewrite !mseg_nth by assumption. unfold mseg, prevn. cbn [sa sb]. destruct i; [|reflexivity]. destruct (length m) as [|n] eqn:L; [lia|]. replace (S n - 1)%nat with n by lia. symmetry. apply cyc_S_last. exact L.
Qed.
Lemma mseg_free (m : list pt) i : (i <= length m)%nat -> simple_polygon m -> free (rotate i (map (mseg m) (seq 0 (length m)))).
Proof.
  intros Hi SI a b v Hab Hb NE T. rewrite rotate_length, map_length, seq_length in *. set (n := length m) in *.
  rewrite !rotate_nth, !map_length, !seq_length in T by (rewrite map_length, seq_length; lia). rewrite !mseg_nth in T by (apply around_lt; lia).
  destruct T as (_ & A & B). unfold mseg in A, B. cbn [sa sb] in A, B.
  assert (MS : forall x, (x < n)%nat -> (S x mod n = if (S x =? n)%nat then 0 else S x)%nat).
  { intros x Hx. destruct (Nat.eqb_spec (S x) n) as [->|]; [apply Nat.mod_same; lia|apply Nat.mod_small; lia]. }
  assert (KA : (around n i a < n)%nat) by (apply around_lt; lia). assert (KB : (around n i b < n)%nat) by (apply around_lt; lia).
  apply (SI (around n i a) (around n i b)) with v; fold n; try assumption; [| | |split; assumption]; rewrite ?MS by assumption; unfold around in *.
  - destruct (Nat.ltb_spec (i + a) n), (Nat.ltb_spec (i + b) n); lia.
  - destruct (Nat.ltb_spec (i + a) n), (Nat.ltb_spec (i + b) n); match goal with |- context [Nat.eqb ?x ?y] => destruct (Nat.eqb_spec x y) end; lia.
  - destruct (Nat.ltb_spec (i + a) n), (Nat.ltb_spec (i + b) n); match goal with |- context [Nat.eqb ?x ?y] => destruct (Nat.eqb_spec x y) end; lia.
Qed.
Lemma filter_all {A} (f : A -> bool) l : (forall x, In x l -> f x = true) -> filter f l = l.
Proof. induction l as [|x l IH]; intros H; cbn; [reflexivity|]. rewrite H by (cbn; auto). f_equal. apply IH. intros y Hy. apply H. cbn. auto. Qed.
Lemma smag2D_edist (s : seg) : smag2D s = edist2 (sa s) (sb s).
Proof. destruct s as [[ax ay az] [bx b0 bz]]. unfold smag2D, vmag2D, edist2, sqdist2, Rsqr, X, Y. cbn. reflexivity. Qed.
Lemma offsets_ok (l : list pt) d (closed : bool) : (3 <= length l)%nat ->
  (forall k, (k < length l)%nat -> ~ (X (cyc l k) = X (cyc l (S k)) /\ Y (cyc l k) = Y (cyc l (S k)))) ->
  exists o1 o, mapM (fun s => soffset2D s d) (toSegments l true) = Ok o1 /\
    (if closed then Ok o1 else match toSegments l true with [] => Err IndexErr | s0 :: _ => s <- soffset2D (last (toSegments l true) s0) 0 ;; Ok (removelast o1 ++ [s]) end) = Ok o /\
    length o = length l /\ forall k, (k < length l)%nat -> nth k o seg0 = mkSeg (st closed l d k) (sp closed l d k).
Proof.
  intros N3 ND. set (n := length l) in *. set (f := fun k => mkSeg (shift (cyc l k) (cyc l (S k)) d (cyc l k)) (shift (cyc l k) (cyc l (S k)) d (cyc l (S k)))).
  assert (EM : mapM (fun s => soffset2D s d) (toSegments l true) = Ok (map f (seq 0 n))).
  { rewrite segs_index. fold n. assert (K : forall js, (forall j, In j js -> (j < n)%nat) -> mapM (fun s => soffset2D s d) (map (fun i => mkSeg (cyc l i) (cyc l (S i))) js) = Ok (map f js)).
    { induction js as [|j js IH]; intros H; [reflexivity|]. cbn [map mapM]. rewrite soffset_shift by (apply ND, H; cbn; auto). cbn [bind]. rewrite IH by (intros x Hx; apply H; cbn; auto). reflexivity. }
    apply K. intros j Hj. apply in_seq in Hj. lia. }
  assert (NF : forall k, (k < n)%nat -> nth k (map f (seq 0 n)) seg0 = f k).
  { intros k Hk. rewrite (nth_indep _ seg0 (f 0%nat)) by (rewrite map_length, seq_length; exact Hk). rewrite map_nth, seq_nth by exact Hk. reflexivity. }
  exists (map f (seq 0 n)). destruct closed.
  - exists (map f (seq 0 n)). split; [exact EM|]. split; [reflexivity|]. split; [rewrite map_length; apply seq_length|]. intros k Hk. rewrite NF by exact Hk. reflexivity.
  - rewrite segs_index. fold n. destruct n as [|n'] eqn:En; [lia|].
    set (g := fun i => mkSeg (cyc l i) (cyc l (S i))).
    assert (EL : forall x, last (map g (seq 0 (S n'))) x = g n').
    { intros x. rewrite seq_S, map_app. cbn [map Nat.add]. apply last_last. }
    assert (ER : removelast (map f (seq 0 (S n'))) = map f (seq 0 n')).
    { rewrite seq_S, map_app. cbn [map Nat.add]. apply removelast_last. }
    set (s' := mkSeg (shift (cyc l n') (cyc l (S n')) 0 (cyc l n')) (shift (cyc l n') (cyc l (S n')) 0 (cyc l (S n')))).
    exists (map f (seq 0 n') ++ [s']). split; [rewrite segs_index in EM; fold g in EM; rewrite <- En in *; exact EM|]. split.
    + change (map g (seq 0 (S n'))) with (g 0%nat :: map g (seq 1 n')). cbv iota. change (g 0%nat :: map g (seq 1 n')) with (map g (seq 0 (S n'))). rewrite EL. unfold g. rewrite soffset_shift by (apply ND; lia). cbn [bind]. rewrite ER. reflexivity.
    + rewrite app_length, map_length, seq_length. cbn [length]. split; [lia|]. intros k Hk. unfold st, sp, dk, moved. replace (length l) with (S n') by exact (eq_sym En).
      destruct (Nat.eq_dec k n') as [->|NE].
      * rewrite app_nth2; rewrite map_length, seq_length; [|lia]. rewrite Nat.sub_diag, Nat.eqb_refl. reflexivity.
      * rewrite app_nth1 by (rewrite map_length, seq_length; lia). destruct (Nat.eqb_spec (S k) (S n')); [lia|].
        rewrite (nth_indep _ seg0 (f 0%nat)) by (rewrite map_length, seq_length; lia). rewrite map_nth, seq_nth by lia. reflexivity.
Qed.

(* if the parallel polygon has no crossings, no tiny sides and its corners are firm, the result is exactly this
   polygon, starting at the vertex that is nearest to the start of the edge.  (d < 0 moves to the left; the
   closing side of an open edge stays.) *)
Theorem C81_exact : forall (closed : bool) (l m : list pt) (d : R), clean_offset closed l d m ->
  exists k, (k < length m)%nat /\ naiveOffset2D l d closed = Ok (turned k m) /\
    forall p, In p m -> edist2 (cyc m k) (cyc l 0) <= edist2 p (cyc l 0).
Proof.
  intros closed l m d (HD & N3 & ND & PP & FC & SI & LG). pose proof PP as (LM & FM & _). set (n := length l) in *.
  assert (CD : nltb (Num := Rnum) (nabs d) (nQ 1 1000000) = false). { change (Rltb (Rabs d) (1 / 1000000) = false). apply Rltb_false. exact HD. }
  destruct (offsets_ok l d closed N3 ND) as (o1 & o & E1 & E2 & LO & HO). fold n in LO, HO.
  pose proof (connect_exact closed l m d N3 ND PP FC o LO HO) as E3. fold n in E3. rewrite <- LM in E3. set (ms := map (mseg m) (seq 0 (length m))) in *.
  assert (LMS : length ms = length m) by (unfold ms; rewrite map_length; apply seq_length).
  destruct (startIndex_ok (toSegments l true) (nsub (Num := Rnum) (nabs (Num := Rnum) d) (nQ (Num := Rnum) 1 1000000)) ms 0) as (i & E4 & HI). rewrite LMS in HI. assert (Hi : (i < length m)%nat) by lia.
  assert (FLM : flats ms).
  { intros k Hk. rewrite LMS in Hk. unfold ms. rewrite mseg_nth by exact Hk. split; cbn [mseg sa sb]; apply FM; unfold cyc; apply nth_In, Nat.mod_upper_bound; lia. }
  assert (CHM : chain ms) by apply mseg_chain.
  set (ro := rotate i ms) in *. assert (LRO : length ro = length m) by (unfold ro; rewrite rotate_length; exact LMS).
  assert (E5 : cutLoops (length ro) true [] ro = Ok ro).
  { apply (cutLoops_free (length ro) [] ro (le_n _)). cbn [rev app]. apply mseg_free; [lia|exact SI]. }
  assert (NRO : forall j, (j < length m)%nat -> nth j ro seg0 = mseg m (around (length m) i j)).
  { intros j Hj. unfold ro. rewrite rotate_nth by lia. rewrite LMS. unfold ms. apply mseg_nth, around_lt; lia. }
  assert (E6 : filter (fun s : seg => nleb (nQ 1 1000) (smag2D s)) ro = ro).
  { apply filter_all. intros x Hx. apply (In_nth _ _ seg0) in Hx. destruct Hx as (j & Hj & <-). rewrite LRO in Hj. rewrite NRO by exact Hj. rewrite smag2D_edist. change (Rleb (1 / 1000) (edist2 (sa (mseg m (around (length m) i j))) (sb (mseg m (around (length m) i j)))) = true).
    apply Rleb_true. apply LG, around_lt; lia. }
  assert (E7 : connect ro = Ok ro) by (apply connect_id; [apply rotate_chain; [lia|exact CHM]|apply rotate_flats; [lia|exact FLM]]).
  assert (NE : ro <> []) by (intros Q; rewrite Q in LRO; cbn in LRO; lia).
  destruct l as [|e0 l0] eqn:El; [cbn in n; lia|]. rewrite <- El in *.
  destruct (last_steps ro e0 NE) as (k & mm & E8 & E9 & Hk & MN). rewrite LRO in Hk.
  exists (around (length m) i k). split; [apply around_lt; lia|]. split.
  - unfold naiveOffset2D. rewrite CD. cbv zeta.
    etransitivity; [apply (f_equal (fun r => bind r _)); exact E1|]. cbn [bind].
    etransitivity; [apply (f_equal (fun r => bind r _)); exact E2|]. cbn [bind].
    etransitivity; [apply (f_equal (fun r => bind r _)); exact E3|]. cbn [bind].
    etransitivity; [apply (f_equal (fun r => bind r _)); exact E4|]. cbn [bind]. fold ro.
    etransitivity; [apply (f_equal (fun r => bind r _)); exact E5|]. cbn [bind].
    etransitivity; [apply (f_equal (fun r => bind r _)); etransitivity; [apply (f_equal connect); exact E6|exact E7]|]. cbn [bind].
    assert (E0 : match ro, l with [], _ => Ok vzero | _, [] => Err IndexErr | _, p :: _ => Ok p end = Ok e0) by (rewrite El; destruct ro; [contradiction|reflexivity]).
    etransitivity; [apply (f_equal (fun r => bind r _)); exact E0|]. cbn [bind].
    etransitivity; [apply (f_equal (fun r => bind r _)); exact E8|]. cbn [bind].
    etransitivity; [apply (f_equal (fun r => bind r _)); exact E9|]. cbn [bind]. f_equal.
    apply (nth_ext _ _ origin origin).
    { rewrite map_length, rotate_length, LRO. change (turned (around (length m) i k) m) with (rotate (around (length m) i k) m). symmetry. apply rotate_length. }
    intros j Hj. rewrite map_length, rotate_length, LRO in Hj. change (turned (around (length m) i k) m) with (rotate (around (length m) i k) m).
    rewrite (rotate_nth origin (around (length m) i k) m j) by (try exact Hj; apply Nat.lt_le_incl, around_lt; lia).
    transitivity (sa (nth j (rotate k ro) seg0)); [apply (map_nth (@sa Rnum) (rotate k ro) seg0 j)|].
    rewrite rotate_nth by lia. rewrite LRO, NRO by (apply around_lt; lia). cbn [mseg sa].
    rewrite cyc_lt by (apply around_lt; [lia|apply around_lt; lia]). f_equal. unfold around.
    destruct (Nat.ltb_spec (k + j) (length m)); destruct (Nat.ltb_spec (i + k) (length m)); repeat match goal with |- context [Nat.ltb ?x ?y] => destruct (Nat.ltb_spec x y) end; lia.
  - intros p Hp. assert (C0 : cyc l 0 = e0). { rewrite El. apply (cyc_lt (e0 :: l0) 0). cbn. lia. } rewrite C0.
    assert (IP : In p (map sa ro)).
    { apply (In_nth _ _ origin) in Hp. destruct Hp as (j & Hj & <-). apply in_map_iff. exists (mseg m j). split; [cbn [mseg sa]; apply cyc_lt, Hj|].
      assert (I0 : In (mseg m j) ms) by (unfold ms; apply in_map, in_seq; lia). unfold ro, rotate. apply in_or_app. rewrite <- (firstn_skipn i ms) in I0. apply in_app_or in I0. tauto. }
    specialize (MN p IP). rewrite NRO in MN by exact Hk. cbn [mseg sa] in MN.
    assert (FC0 : Z (cyc m (around (length m) i k)) = 0) by (apply FM; unfold cyc; apply nth_In, Nat.mod_upper_bound; lia).
    unfold edist2. apply sqrt_le_1_alt. revert MN FC0. pose proof (FM p Hp) as FP. revert FP. generalize (cyc m (around (length m) i k)). clear. intros [qx qy qz] A B C. destruct p as [px py pz], e0 as [ex ey ez].
    unfold sq, sqdist2, Rsqr in *. unfold X, Y, Z in *. cbn in *. subst. rn. lra.
Qed.
Print Assumptions C81_exact.

Lemma chain_sides (L : list seg) : chain L -> L = outline_sides (map sa L).
Proof.
  intros CH. apply (nth_ext _ _ seg0 seg0); [unfold outline_sides; rewrite !map_length, seq_length; reflexivity|]. intros i Hi.
  change (outline_sides (map sa L)) with (map (mseg (map sa L)) (seq 0 (length (map sa L)))). rewrite map_length, mseg_nth by exact Hi.
  assert (CN : forall k, (k < length L)%nat -> cyc (map sa L) k = sa (nth k L seg0)).
  { intros k Hk. rewrite cyc_lt by (rewrite map_length; exact Hk). apply (map_nth (@sa Rnum) L seg0 k). }
  assert (ES : sb (nth i L seg0) = cyc (map sa L) (S i)).
  { destruct (Nat.eq_dec (S i) (length L)) as [E|N].
    - assert (E0 : cyc (map sa L) (S i) = cyc (map sa L) 0) by (apply cyc_S_last; rewrite map_length; auto). rewrite E0, CN by lia. rewrite (CH 0%nat) by lia. cbn [prevn]. do 2 f_equal. lia.
    - rewrite CN by lia. rewrite (CH (S i)) by lia. reflexivity. }
  unfold mseg. rewrite <- ES, (CN i Hi). destruct (nth i L seg0); reflexivity.
Qed.
Lemma part_ends s' s : part s' s -> on_segment (sa s') (sa s) (sb s) /\ on_segment (sb s') (sa s) (sb s).
Proof. intros (t & u & Ht & Hu & A1 & A2 & B1 & B2). split; [exists t|exists u]; auto. Qed.
(* the loop cutting stage: whatever polygon it is given, it ends with a polygon without crossings that is cut out of
   the sides of the given one and begins at the same point *)
Theorem C81_cut_loops : forall q : list pt, (forall p, In p q -> Z p = 0) ->
  exists q', cutLoops (length q) true [] (outline_sides q) = Ok (outline_sides q') /\
    no_crossings q' /\ cut_from q q' /\ (q <> [] -> cyc q' 0 = cyc q 0).
Proof.
  intros q FQ. set (n := length q) in *. assert (LS : length (outline_sides q) = n) by (unfold outline_sides; rewrite map_length; apply seq_length).
  assert (NS : forall k, (k < n)%nat -> nth k (outline_sides q) seg0 = mseg q k) by (intros k Hk; apply mseg_nth, Hk).
  destruct (cutLoops_left n [] (outline_sides q)) as (L & E & FL & CH & NI & HD & LL & PT).
  - rewrite LS. apply le_n.
  - intros k Hk. cbn [rev app] in *. rewrite LS in Hk. rewrite NS by exact Hk. split; cbn [mseg sa sb]; apply FQ; unfold cyc; apply nth_In, Nat.mod_upper_bound; unfold n in Hk; lia.
  - apply (mseg_chain q).
  - intros i j v Hi. cbn in Hi. lia.
  - cbn [rev app] in *. pose proof (chain_sides L CH) as EL. exists (map sa L). rewrite <- EL.
    assert (CN : forall k, (k < length L)%nat -> mseg (map sa L) k = nth k L seg0).
    { intros k Hk. transitivity (nth k (outline_sides (map sa L)) seg0); [|rewrite <- EL; reflexivity]. symmetry. apply mseg_nth. rewrite map_length. exact Hk. }
    split; [exact E|]. split; [|split].
    + intros i j x Hij Hj NE T. rewrite map_length in *. pose proof (CN i ltac:(lia)) as Ci. pose proof (CN j Hj) as Cj.
      change (X x = X (sb (mseg (map sa L) i)) /\ Y x = Y (sb (mseg (map sa L) i))). rewrite Ci. apply (NI i j x); try assumption; try lia. rewrite <- Ci, <- Cj. exact T.
    + split; [rewrite map_length; rewrite LS in LL; exact LL|]. intros j Hj. rewrite map_length in Hj. destruct (PT j Hj) as (i & [Hi Hn] & PA). rewrite LS in Hn. exists i. split; [split; assumption|].
      rewrite NS in PA by exact Hn. rewrite <- (CN j Hj) in PA. exact (part_ends _ _ PA).
    + intros NE. assert (N0 : (0 < n)%nat) by (unfold n; destruct q; [contradiction|cbn; lia]).
      assert (NO : outline_sides q <> []) by (intros Q; rewrite Q in LS; cbn in LS; lia). specialize (HD NO). rewrite NS in HD by exact N0. cbn [mseg sa] in HD.
      destruct L as [|s L]; [|rewrite cyc_lt by (cbn; lia); exact HD].
      exfalso. clear - E NO. destruct (outline_sides q) as [|s r]; [contradiction|].
      assert (K : forall fuel fst0 done rest, cutLoops fuel fst0 done rest = Ok [] -> done = [] /\ rest = []).
      { clear. induction fuel as [|fuel IH]; intros fst0 done rest H; cbn [cutLoops] in H.
        - apply Ok_inj in H. apply app_eq_nil in H. destruct H as [H1 H2]. split; [|exact H2]. apply (f_equal (@rev _)) in H1. rewrite rev_involutive in H1. exact H1.
        - destruct rest as [|s r]; [apply Ok_inj in H; apply app_eq_nil in H; destruct H as [H1 _]; split; [|reflexivity]; apply (f_equal (@rev _)) in H1; rewrite rev_involutive in H1; exact H1|].
          exfalso. apply bind_ok in H. destruct H as (c & _ & H). destruct (snd c) as [[[pos x] k]|]; [destruct (skipn (S k) r); [discriminate|]|]; apply IH in H; destruct H; discriminate. }
      apply K in E. destruct E; discriminate.
Qed.
Print Assumptions C81_cut_loops.

(* a square of 10 mm with an open side at x = 0, moved inward by 1 mm: the open side stays *)
Definition sq10 : list pt := [P 0 0 0; P 10 0 0; P 10 10 0; P 0 10 0].
Definition sq10i : list pt := [P 0 1 0; P 9 1 0; P 9 9 0; P 0 9 0].
Ltac four i := destruct i as [|[|[|[|i]]]]; [| | | |exfalso; cbn in *; lia].
Lemma edist2_axis (a b : pt) r : 0 <= r -> sqdist2 a b = r * r -> edist2 a b = r.
Proof. intros H E. unfold edist2. rewrite E. apply sqrt_square, H. Qed.
Example C81_nonvacuous : clean_offset false sq10 (-1) sq10i.
Proof.
  assert (E : forall k, (k < 4)%nat -> edist2 (cyc sq10 k) (cyc sq10 (S k)) = 10).
  { intros k Hk. apply edist2_axis; [lra|]. four k; unfold sqdist2, Rsqr, cyc, sq10, X, Y, P; cbn; lra. }
  split; [rewrite Rabs_left; lra|]. split; [cbn; lia|]. split; [|split; [|split; [|split]]].
  - intros k Hk. cbn in Hk. four k; unfold cyc, sq10, X, Y, P; cbn; lra.
  - split; [reflexivity|]. split; [intros p [<-|[<-|[<-|[<-|[]]]]]; reflexivity|]. intros k Hk. cbn [length sq10] in Hk. unfold on_parallel. rewrite E by exact Hk.
    four k; unfold side, moved, cyc, sq10, sq10i, X, Y, P; cbn; lra.
  - split.
    + unfold spans, cyc, sq10, X, Y, P. cbn. rewrite Rabs_right; lra.
    + intros k Hk. cbn [length sq10] in Hk. cbv zeta. unfold shift. destruct k as [|[|[|k]]]; [| | |exfalso; lia]; rewrite !E by lia; unfold spans, moved, cyc, sq10, sq10i, X, Y, P; cbn; rewrite Rabs_right; lra.
  - intros i j Hi Hj N1 N2 N3 x [(s & Bs & X1 & Y1) (t & Bt & X2 & Y2)]. cbn [length sq10i] in *.
    four i; four j; cbn in N2, N3; try lia; unfold cyc, X, Y, P in *; cbn in X1, Y1, X2, Y2; rewrite X1 in X2; rewrite Y1 in Y2; lra.
  - intros k Hk. cbn [length sq10i] in Hk. unfold edist2. replace (1 / 1000) with (sqrt ((1 / 1000) * (1 / 1000))) by (apply sqrt_square; lra). apply sqrt_le_1_alt.
    four k; unfold sqdist2, Rsqr, cyc, sq10i, X, Y, P; cbn; lra.
Qed.

(** ** C82 the wall profile of the floor *)
Lemma translated_raised (l : list pt) (h : R) : etranslated l (P 0 0 h) = raised h l.
Proof. unfold etranslated, raised. apply map_ext. intros [x y z]. apply pt_ext; unfold X, Y, Z, P; cbn; rn; lra. Qed.
(* the lip of the floor stays inside the inner outline of the body by the margin, it is as thick and as high as the settings say,
   and the chamfer leads from the lip to the inner floor; the closing side in the split plane stays where it is *)
Theorem C82_profile : forall q taper pmod (c : @floor_cfg Rnum) fuel pn bd fl mO mI mC,
  newFloor q taper pmod c fuel pn bd = Ok fl ->
  clean_offset false (outlineI bd) (- fl_lipMargin c) mO ->
  clean_offset false (outlineI bd) (- fl_lipMargin c - fl_lipThickness c) mI ->
  clean_offset false (outlineI bd) (- fl_lipMargin c - fl_lipThickness c - fl_innerChamfer c) mC ->
  exists kO kI kC, flProfile fl = [raised (- fl_outerHeight c) (outlineO bd); outlineO bd; turned kO mO; raised (fl_lipHeight c) (turned kO mO);
    raised (fl_lipHeight c) (turned kI mI); raised (- fl_outerHeight c + fl_innerHeight c + fl_innerChamfer c) (turned kI mI);
    raised (- fl_outerHeight c + fl_innerHeight c) (turned kC mC)].
Proof.
  intros q taper pmod c fuel pn bd fl mO mI mC H GO GI GC.
  destruct (C81_exact _ _ _ _ GO) as (kO & _ & EO & _). destruct (C81_exact _ _ _ _ GI) as (kI & _ & EI & _). destruct (C81_exact _ _ _ _ GC) as (kC & _ & EC & _).
  exists kO, kI, kC. unfold newFloor in H. apply bind_ok in H. destruct H as (sk & HS & H).
  assert (EP : flProfile fl = sk).
  { apply bind_ok in H. destruct H as (f & _ & H). apply bind_ok in H. destruct H as ([[h1 h2] h3] & _ & H). apply bind_ok in H. destruct H as ([[[b1 b2] b3] b4] & _ & H). cbv zeta in H.
    do 4 (apply bind_ok in H; destruct H as (? & _ & H)). apply Ok_inj in H. subst fl. reflexivity. }
  rewrite EP. clear EP H. unfold floorSketch in HS. cbv zeta in HS.
  apply bind_ok in HS. destruct HS as (lipI & HI & HS). apply bind_ok in HS. destruct HS as (lipO & HO & HS). apply bind_ok in HS. destruct HS as (ch & HC & HS). apply Ok_inj in HS. subst sk.
  assert (QI : lipI = turned kI mI) by (apply Ok_inj; rewrite <- HI; exact EI). assert (QO : lipO = turned kO mO) by (apply Ok_inj; rewrite <- HO; exact EO). assert (QC : ch = turned kC mC) by (apply Ok_inj; rewrite <- HC; exact EC).
  rewrite QI, QO, QC. clear. repeat (apply f_equal2; [first [reflexivity|apply translated_raised]|]). reflexivity.
Qed.
Print Assumptions C82_profile.
(* the lip of the keyboard of C72, in fixed point arithmetic: 47 corners, each on the parallels of its two sides of the inner outline (to 1e-6),
   no crossings and no short sides *)
Open Scope Z_scope.
Definition parallelb (l m : list (@vec Calc)) (d : @num Calc) : bool :=
  let n := length l in
  forallb (fun i =>
    let a := nth i l vzero in let b := nth (S i mod n) l vzero in
    let dist := if (S i =? n)%nat then nZ 0 else d in
    let on p := nltb (nabs (nadd (nsub (nmul (nsub (vx b) (vx a)) (nsub (vy p) (vy a))) (nmul (nsub (vy b) (vy a)) (nsub (vx p) (vx a))))
                               (nmul dist (nsqrt (nadd (nmul (nsub (vx b) (vx a)) (nsub (vx b) (vx a))) (nmul (nsub (vy b) (vy a)) (nsub (vy b) (vy a)))))))) (nQ 1 1000000) in
    on (nth i m vzero) && on (nth (S i mod n) m vzero)) (seq 0 n).
Definition uncrossedb (m : list (@vec Calc)) : bool :=
  let n := length m in
  forallb (fun i => forallb (fun j =>
    (j <=? S i)%nat || ((i =? 0)%nat && (S j =? n)%nat) ||
    match sintersect2D (mkSeg (nth i m vzero) (nth (S i mod n) m vzero)) (mkSeg (nth j m vzero) (nth (S j mod n) m vzero)) 0 with Ok None => true | _ => false end) (seq 0 n)) (seq 0 n) &&
  forallb (fun i => nleb (nQ 1 1000) (smag2D (mkSeg (nth i m vzero) (nth (S i mod n) m vzero)))) (seq 0 n).
(* C82_nonvacuous: see P_Runs.v *)
