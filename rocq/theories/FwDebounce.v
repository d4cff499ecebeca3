From Coq Require Import List ZArith Bool Lia.
From Verif Require Import FwModel FwSpec.
Import ListNotations.
Open Scope Z_scope.

(* largest lead of b over all suffixes *)
Definition upd (b x : bool) (c : Z) : Z := Z.max 0 (c + (if Bool.eqb x b then 1 else -1)).
Definition ms (b : bool) (w : list bool) : Z := fold_left (fun c x => upd b x c) w 0.

Lemma ms_snoc b w x : ms b (w ++ [x]) = upd b x (ms b w).
Proof. unfold ms. rewrite fold_left_app. reflexivity. Qed.

Lemma lead_app b u v : lead b (u ++ v) = lead b u + lead b v.
Proof. induction u as [|x u IH]; simpl; [lia|]. rewrite IH. lia. Qed.

Lemma ms_nonneg b w : 0 <= ms b w.
Proof. destruct w as [|x w] using rev_ind; [cbn; lia|]. rewrite ms_snoc. unfold upd. lia. Qed.

Lemma ms_upper b w : forall u v, w = u ++ v -> lead b v <= ms b w.
Proof.
  induction w as [|x w IH] using rev_ind; intros u v E.
  - symmetry in E. apply app_eq_nil in E. destruct E as [-> ->]. cbn. lia.
  - destruct v as [|y v _] using rev_ind.
    + cbn [lead]. apply ms_nonneg.
    + rewrite app_assoc in E. apply app_inj_tail in E. destruct E as [E ->].
      rewrite lead_app, ms_snoc. cbn [lead]. specialize (IH _ _ E). unfold upd. lia.
Qed.

Lemma ms_attained b w : exists u v, w = u ++ v /\ lead b v = ms b w.
Proof.
  induction w as [|x w IH] using rev_ind.
  - exists [], []. split; reflexivity.
  - destruct IH as (u & v & E & Hl). rewrite ms_snoc. unfold upd.
    destruct (Z_le_gt_dec 0 (ms b w + (if Bool.eqb x b then 1 else -1))).
    + exists u, (v ++ [x]). split; [rewrite E, app_assoc; reflexivity|].
      rewrite lead_app, Hl. cbn [lead]. lia.
    + exists (w ++ [x]), []. split; [rewrite app_nil_r; reflexivity|]. cbn [lead]. lia.
Qed.

Lemma ms_window b w T : 1 <= T -> (T <= ms b w <-> exists u v, w = u ++ v /\ T <= lead b v).
Proof.
  intros HT; split.
  - intros H. destruct (ms_attained b w) as (u & v & E & Hl). exists u, v. split; [exact E|lia].
  - intros (u & v & E & Hl). pose proof (ms_upper b w u v E). lia.
Qed.

Lemma deb_run_app T st xs ys :
  deb_run T st (xs ++ ys) =
  let '(st1, o1) := deb_run T st xs in
  let '(st2, o2) := deb_run T st1 ys in (st2, o1 ++ o2).
Proof.
  revert st; induction xs as [|x xs IH]; intros st; cbn [deb_run app].
  - destruct (deb_run T st ys); reflexivity.
  - destruct (debounce T st x) as [st1 o]. rewrite IH.
    destruct (deb_run T st1 xs) as [st2 o1]. destruct (deb_run T st2 ys). reflexivity.
Qed.

Lemma deb_run_length T st xs : length (snd (deb_run T st xs)) = length xs.
Proof.
  revert st; induction xs as [|x xs IH]; intros st; cbn [deb_run]; [reflexivity|].
  destruct (debounce T st x) as [st1 o]. specialize (IH st1).
  destruct (deb_run T st1 xs). cbn in *. lia.
Qed.

Lemma deb_outs_snoc T xs x :
  deb_outs T (xs ++ [x]) = deb_outs T xs ++ [snd (debounce T (fst (deb_run T 0 xs)) x)].
Proof.
  unfold deb_outs. rewrite deb_run_app. destruct (deb_run T 0 xs) as [st1 o1]. cbn [deb_run fst snd].
  destruct (debounce T st1 x). reflexivity.
Qed.

Lemma deb_state_snoc T xs x :
  fst (deb_run T 0 (xs ++ [x])) = fst (debounce T (fst (deb_run T 0 xs)) x).
Proof.
  rewrite deb_run_app. destruct (deb_run T 0 xs) as [st1 o1]. cbn [deb_run fst snd].
  destruct (debounce T st1 x). reflexivity.
Qed.

Lemma deb_next_eq T xs x : deb_next T xs x = snd (debounce T (fst (deb_run T 0 xs)) x).
Proof. unfold deb_next. rewrite deb_outs_snoc. apply last_last. Qed.

Lemma deb_outs_length T xs : length (deb_outs T xs) = length xs.
Proof. apply deb_run_length. Qed.

Lemma reported_level_snoc o x :
  reported_level (o ++ [x]) = match x with Some b => b | None => reported_level o end.
Proof. unfold reported_level. rewrite fold_left_app. reflexivity. Qed.

Lemma combine_snoc {A B} (xs : list A) (ys : list B) x y :
  length xs = length ys -> combine (xs ++ [x]) (ys ++ [y]) = combine xs ys ++ [(x, y)].
Proof.
  revert ys; induction xs as [|a xs IH]; intros [|b ys] H; cbn in *; try discriminate; [reflexivity|].
  rewrite IH by lia. reflexivity.
Qed.

Lemma since_snoc xs os x o :
  length xs = length os ->
  since_report (xs ++ [x]) (os ++ [o]) =
  match o with Some _ => [] | None => since_report xs os ++ [x] end.
Proof.
  intros H. unfold since_report. rewrite combine_snoc by exact H.
  rewrite fold_left_app. reflexivity.
Qed.

(** The state byte encodes the reported level and the best window lead. *)
Definition deb_inv (T : Z) (r : bool) (ys : list bool) (st : Z) : Prop :=
  st = 2 * ms (negb r) ys + Z.b2z (negb r) /\ ms (negb r) ys < T.

Lemma debounce_step T r ys st x :
  1 <= T <= 127 -> deb_inv T r ys st ->
  let c' := ms (negb r) (ys ++ [x]) in
  if T <=? c' then debounce T st x = (Z.b2z (negb x), Some x) /\ x = negb r
  else debounce T st x = (2 * c' + Z.b2z (negb r), None).
Proof.
  intros HT [Est Hlt] c'. subst c'. rewrite ms_snoc. pose proof (ms_nonneg (negb r) ys) as Hnn.
  set (c := ms (negb r) ys) in *. unfold debounce, u8, upd.
  assert (Hm : st mod 2 = Z.b2z (negb r)).
  { rewrite Est. rewrite Z.add_comm, Z.mul_comm, Z.mod_add by lia. destruct r; reflexivity. }
  rewrite Hm.
  assert (E : (Z.b2z x =? Z.b2z (negb r)) = Bool.eqb x (negb r)) by (destruct x, r; reflexivity).
  rewrite E. destruct (Bool.eqb x (negb r)) eqn:Ex.
  - apply eqb_prop in Ex. subst x. rewrite Est.
    assert (0 <= Z.b2z (negb r) <= 1) by (destruct r; cbn; lia).
    rewrite (Z.mod_small (2 * c + Z.b2z (negb r) + 2)) by lia.
    rewrite Z.max_r by lia.
    destruct (T <=? c + 1) eqn:H1.
    + apply Z.leb_le in H1. replace (T * 2 <=? _) with true by (symmetry; apply Z.leb_le; lia).
      split; reflexivity.
    + apply Z.leb_gt in H1. replace (T * 2 <=? _) with false by (symmetry; apply Z.leb_gt; lia).
      f_equal. lia.
  - rewrite Est. assert (0 <= Z.b2z (negb r) <= 1) by (destruct r; cbn; lia).
    destruct (2 <=? 2 * c + Z.b2z (negb r)) eqn:H2.
    + apply Z.leb_le in H2. rewrite Z.mod_small by lia.
      rewrite Z.max_r by lia.
      replace (T <=? c + -1) with false by (symmetry; apply Z.leb_gt; lia).
      replace (T * 2 <=? _) with false by (symmetry; apply Z.leb_gt; lia).
      f_equal. lia.
    + apply Z.leb_gt in H2. rewrite Z.max_l by lia.
      replace (T <=? 0) with false by (symmetry; apply Z.leb_gt; lia).
      replace (T * 2 <=? _) with false by (symmetry; apply Z.leb_gt; lia).
      f_equal. lia.
Qed.

Lemma deb_reach T xs :
  1 <= T <= 127 ->
  deb_inv T (reported_level (deb_outs T xs)) (since_report xs (deb_outs T xs))
          (fst (deb_run T 0 xs)).
Proof.
  intros HT. induction xs as [|x xs IH] using rev_ind.
  - split; cbn; lia.
  - pose proof (debounce_step T _ _ _ x HT IH) as Hs. cbv zeta in Hs.
    rewrite deb_state_snoc, deb_outs_snoc, reported_level_snoc,
      since_snoc by (rewrite deb_outs_length; reflexivity).
    destruct (T <=? _) eqn:E in Hs.
    + destruct Hs as [-> Hx]. cbn [fst snd]. split; cbn; lia.
    + rewrite Hs. cbn [fst snd]. split; [reflexivity|]. apply Z.leb_gt in E. exact E.
Qed.

(** Exact characterisation of when a report happens. *)
Lemma deb_exact T xs x s :
  1 <= T <= 127 ->
  (deb_next T xs x = Some s <->
   s = x /\ x = negb (reported_level (deb_outs T xs)) /\
   exists u v, since_report xs (deb_outs T xs) ++ [x] = u ++ v /\ T <= lead x v).
Proof.
  intros HT. rewrite deb_next_eq.
  pose proof (deb_reach T xs HT) as Hi.
  pose proof (debounce_step T _ _ _ x HT Hi) as Hs. cbv zeta in Hs.
  destruct (T <=? _) eqn:E in Hs.
  - destruct Hs as [-> Hx]. cbn [snd]. apply Z.leb_le in E.
    apply (ms_window _ _ T) in E; [|lia]. rewrite <- Hx in E. split.
    + intros [= <-]. auto.
    + intros (-> & _). reflexivity.
  - rewrite Hs. cbn [snd]. split; [discriminate|].
    intros (-> & Hx & Hw). apply Z.leb_gt in E.
    apply (ms_window _ _ T) in Hw; [|lia].
    assert (Hb : ms x (since_report xs (deb_outs T xs) ++ [x]) < T)
      by (rewrite Hx at 1; exact E).
    lia.
Qed.

Lemma lead_count b w : lead b w <= count_level b w.
Proof.
  unfold count_level. induction w as [|x w IH]; cbn [lead filter length]; [lia|].
  destruct x, b; cbn [Bool.eqb length]; lia.
Qed.

Lemma count_app b u v : count_level b (u ++ v) = count_level b u + count_level b v.
Proof. unfold count_level. rewrite filter_app, app_length. lia. Qed.

Lemma deb_needs_samples T xs x s :
  1 <= T <= 127 -> deb_next T xs x = Some s ->
  T <= count_level s (since_report xs (deb_outs T xs) ++ [x]).
Proof.
  intros HT H. apply deb_exact in H; [|exact HT]. destruct H as (-> & _ & u & v & E & Hl).
  rewrite E, count_app. pose proof (lead_count x v). unfold count_level at 1. lia.
Qed.

(** Latency: T consecutive samples of the other level always report. *)
Lemma reported_level_none os os' :
  (forall o, In o os' -> o = None) -> reported_level (os ++ os') = reported_level os.
Proof.
  induction os' as [|o os' IH] using rev_ind; intros H; [rewrite app_nil_r; reflexivity|].
  rewrite app_assoc, reported_level_snoc, (H o) by (apply in_or_app; cbn; auto).
  apply IH. intros o' Ho. apply H. apply in_or_app; auto.
Qed.

Lemma lead_repeat b n : lead b (repeat b n) = Z.of_nat n.
Proof. induction n as [|n IH]; cbn [repeat lead]; [reflexivity|]. rewrite IH.
  destruct b; cbn [Bool.eqb]; lia. Qed.

Lemma repeat_snoc {A} (a : A) n : repeat a (S n) = repeat a n ++ [a].
Proof. induction n as [|n IH]; [reflexivity|]. cbn [repeat app] in *. rewrite <- IH. reflexivity. Qed.

Lemma deb_latency_aux T xs n :
  1 <= T <= 127 ->
  let b := negb (reported_level (deb_outs T xs)) in
  (exists k, (k < n)%nat /\ deb_next T (xs ++ repeat b k) b = Some b) \/
  (reported_level (deb_outs T (xs ++ repeat b n)) = negb b /\
   since_report (xs ++ repeat b n) (deb_outs T (xs ++ repeat b n)) =
   since_report xs (deb_outs T xs) ++ repeat b n).
Proof.
  intros HT b. induction n as [|n IH].
  - right. cbn [repeat]. rewrite !app_nil_r. unfold b. rewrite negb_involutive. auto.
  - destruct IH as [(k & Hk & H)|[Hr Hs]].
    + left. exists k. split; [lia|exact H].
    + destruct (deb_next T (xs ++ repeat b n) b) as [s|] eqn:E.
      * left. exists n. split; [lia|]. pose proof E as E'.
        apply deb_exact in E'; [|exact HT]. destruct E' as (-> & _). exact E.
      * right. rewrite repeat_snoc, app_assoc, deb_outs_snoc.
        rewrite deb_next_eq in E. rewrite E, reported_level_snoc.
        rewrite since_snoc by (rewrite deb_outs_length; reflexivity).
        split; [exact Hr|]. rewrite Hs, app_assoc. reflexivity.
Qed.

Lemma deb_latency T xs :
  1 <= T <= 127 ->
  let b := negb (reported_level (deb_outs T xs)) in
  exists k, (k < Z.to_nat T)%nat /\ deb_next T (xs ++ repeat b k) b = Some b.
Proof.
  intros HT b.
  destruct (deb_latency_aux T xs (Z.to_nat T) HT) as [H|[Hr Hs]]; [exact H|exfalso].
  fold b in Hr, Hs.
  pose proof (deb_reach T (xs ++ repeat b (Z.to_nat T)) HT) as [_ Hlt].
  rewrite Hr, Hs, negb_involutive in Hlt.
  pose proof (ms_upper b _ _ _ (eq_refl (since_report xs (deb_outs T xs) ++ repeat b (Z.to_nat T)))).
  rewrite lead_repeat in H. lia.
Qed.

(** Alternation. *)
Lemma somes_snoc {A} (l : list (option A)) o :
  somes (l ++ [o]) = somes l ++ match o with Some a => [a] | None => [] end.
Proof. unfold somes. rewrite flat_map_app. cbn. rewrite app_nil_r. reflexivity. Qed.

Lemma alternates_snoc e l x :
  alternates e l -> x = (if Nat.even (length l) then e else negb e) -> alternates e (l ++ [x]).
Proof.
  revert e; induction l as [|y l IH]; intros e H E; cbn [app alternates length] in *.
  - cbn in E. auto.
  - destruct H as [-> H]. split; [reflexivity|]. apply IH; [exact H|].
    rewrite E. change (Nat.even (S (length l))) with (Nat.even (1 + length l)).
    rewrite Nat.even_add. cbn [Nat.even]. destruct (Nat.even (length l)); cbn; rewrite ?negb_involutive; reflexivity.
Qed.

Lemma deb_alternates T xs :
  1 <= T <= 127 -> alternates false (somes (deb_outs T xs)).
Proof.
  intros HT.
  cut (alternates false (somes (deb_outs T xs)) /\
       reported_level (deb_outs T xs) = Nat.even (length (somes (deb_outs T xs)))).
  { intros [H _]; exact H. }
  induction xs as [|x xs [IHa IHl]] using rev_ind; [cbn; auto|].
  rewrite deb_outs_snoc, somes_snoc, reported_level_snoc, <- deb_next_eq.
  destruct (deb_next T xs x) as [s|] eqn:E.
  - apply deb_exact in E; [|exact HT]. destruct E as (-> & Hx & _). rewrite IHl in Hx.
    rewrite app_length. cbn [length]. split.
    + apply alternates_snoc; [exact IHa|]. rewrite Hx. destruct (Nat.even _); reflexivity.
    + rewrite Nat.even_add, Hx. destruct (Nat.even _); reflexivity.
  - rewrite app_nil_r. auto.
Qed.

Lemma deb_reports_sample T xs x s :
  1 <= T <= 127 -> deb_next T xs x = Some s -> s = x.
Proof. intros HT H. apply deb_exact in H; [|exact HT]. tauto. Qed.

(** No wrap of the uint8_t. *)
Lemma debounce_no_overflow T xs x :
  1 <= T <= 127 ->
  let st := fst (deb_run T 0 xs) in
  0 <= st /\ st + 2 <= 255 /\ debounce T st x = debounce_nowrap T st x.
Proof.
  intros HT st. pose proof (deb_reach T xs HT) as [Est Hlt]. fold st in Est.
  pose proof (ms_nonneg (negb (reported_level (deb_outs T xs)))
                        (since_report xs (deb_outs T xs))) as Hn.
  assert (0 <= Z.b2z (negb (reported_level (deb_outs T xs))) <= 1)
    by (destruct (reported_level _); cbn; lia).
  split; [lia|]. split; [lia|].
  unfold debounce, debounce_nowrap, u8.
  rewrite (Z.mod_small (st + 2)) by lia.
  destruct (2 <=? st) eqn:E; [|reflexivity].
  apply Z.leb_le in E. rewrite (Z.mod_small (st - 2)) by lia. reflexivity.
Qed.

(** With a tick count above the asserted bound nothing is ever reported. *)
Lemma debounce_dead T xs :
  128 <= T -> somes (deb_outs T xs) = [].
Proof.
  intros HT. cut (somes (deb_outs T xs) = [] /\ 0 <= fst (deb_run T 0 xs) < 256).
  { intros [H _]; exact H. }
  induction xs as [|x xs [IHs IHb]] using rev_ind; [cbn; split; [reflexivity|lia]|].
  rewrite deb_outs_snoc, somes_snoc, deb_state_snoc, IHs.
  set (st := fst (deb_run T 0 xs)) in *. unfold debounce, u8.
  assert (forall z, 0 <= z < 256 -> (T * 2 <=? z) = false) as Hf
      by (intros z Hz; apply Z.leb_gt; lia).
  destruct (Z.b2z x =? st mod 2).
  - pose proof (Z.mod_pos_bound (st + 2) 256 ltac:(lia)). rewrite Hf by lia. cbn. split; [reflexivity|lia].
  - destruct (2 <=? st).
    + pose proof (Z.mod_pos_bound (st - 2) 256 ltac:(lia)). rewrite Hf by lia. cbn. split; [reflexivity|lia].
    + rewrite Hf by lia. cbn. split; [reflexivity|lia].
Qed.
