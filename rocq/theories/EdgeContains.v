(** Edge.contains2D over the reals. *)
From Coq Require Import Reals Lra Psatz List Bool Arith Lia.
From Verif Require Import Num GeoModel EdgeModel GeoSpec GeoMat EdgeSpecR.
Import ListNotations.
Open Scope R_scope.

Definition above (v p : pt) : bool := Rltb (Y v) (Y p).
Definition cb (v a b : pt) : bool :=
  xorb (above v a) (above v b) && (if above v b then Rltb 0 (side a b v) else Rltb (side a b v) 0).

Lemma above_iff v p : above v p = true <-> Y v < Y p.
Proof. apply Rltb_true. Qed.
Lemma above_false v p : above v p = false <-> Y p <= Y v.
Proof. apply Rltb_false. Qed.

Lemma crosses_cb v a b : crosses v a b = Ok (cb v a b).
Proof.
  unfold crosses, cb. rn. change (Rltb (vy v) (vy a)) with (above v a). change (Rltb (vy v) (vy b)) with (above v b).
  destruct (xorb (above v a) (above v b)) eqn:E; [|reflexivity]. cbn [andb].
  assert (D : vy b - vy a <> 0).
  { destruct (above v a) eqn:A, (above v b) eqn:B; try discriminate E;
    rewrite ?above_iff, ?above_false in *; unfold Y in *; rn; lra. }
  rewrite (pdiv_nz _ (vy b - vy a)) by exact D. cbn [bind]. f_equal. rn.
  destruct (above v b) eqn:B.
  - destruct (above v a) eqn:A; [discriminate E|]. rewrite above_iff, above_false in *.
    unfold side, X, Y in *.
    assert (K : (vx v < (vx b - vx a) * (vy v - vy a) / (vy b - vy a) + vx a) <->
                0 < (vx b - vx a) * (vy v - vy a) - (vy b - vy a) * (vx v - vx a)).
    { rn. set (h := vy b - vy a) in *. assert (0 < h) by (unfold h; lra).
      split; intros Hh.
      - apply (Rmult_lt_compat_r h) in Hh; [|lra]. rewrite Rmult_plus_distr_r in Hh.
        unfold Rdiv in Hh. rewrite Rmult_assoc, Rinv_l, Rmult_1_r in Hh by exact D. lra.
      - apply (Rmult_lt_reg_r h); [lra|]. rewrite Rmult_plus_distr_r.
        unfold Rdiv. rewrite Rmult_assoc, Rinv_l, Rmult_1_r by exact D. lra. }
    destruct (Rltb 0 _) eqn:S; [apply Rltb_true; rewrite K; apply Rltb_true; exact S|].
    apply Rltb_false. apply Rltb_false in S. apply Rnot_lt_le. rewrite K. lra.
  - destruct (above v a) eqn:A; [|discriminate E]. rewrite above_iff, above_false in *.
    unfold side, X, Y in *.
    assert (K : (vx v < (vx b - vx a) * (vy v - vy a) / (vy b - vy a) + vx a) <->
                (vx b - vx a) * (vy v - vy a) - (vy b - vy a) * (vx v - vx a) < 0).
    { rn. set (h := vy b - vy a) in *. assert (h < 0) by (unfold h; lra).
      assert (Q : (vx b - vx a) * (vy v - vy a) / h * h = (vx b - vx a) * (vy v - vy a)) by (field; exact D).
      split; intros Hh; nra. }
    destruct (Rltb _ 0) eqn:S; [apply Rltb_true; rewrite K; apply Rltb_true; exact S|].
    apply Rltb_false. apply Rltb_false in S. apply Rnot_lt_le. rewrite K. lra.
Qed.

Lemma cb_true v a b : cb v a b = true <->
  (Y a <= Y v < Y b /\ 0 < side a b v) \/ (Y b <= Y v < Y a /\ side a b v < 0).
Proof.
  unfold cb. rewrite andb_true_iff.
  destruct (above v a) eqn:A, (above v b) eqn:B; cbn [xorb]; rewrite ?above_iff, ?above_false, ?Rltb_true in *; split;
    intros; intuition (try discriminate; try lra).
Qed.
Lemma cb_ray v a b : cb v a b = true <-> ray_hits v a b.
Proof.
  rewrite cb_true. unfold ray_hits, at2, side. cbn [X Y P vx vy].
  change (Y (P ?x ?y ?z)) with y. change (X (P ?x ?y ?z)) with x.
  split.
  - intros [[H S]|[H S]].
    + split; [left; exact H|]. exists ((Y v - Y a) / (Y b - Y a)).
      assert (D : 0 < Y b - Y a) by lra.
      assert (Q : (Y v - Y a) / (Y b - Y a) * (Y b - Y a) = Y v - Y a) by (field; lra).
      set (t := (Y v - Y a) / (Y b - Y a)) in *. unfold X, Y, P in *. cbn [vx vy] in *. rn. split; [nra|]. split; nra.
    + split; [right; exact H|]. exists ((Y v - Y a) / (Y b - Y a)).
      assert (D : Y b - Y a < 0) by lra.
      assert (Q : (Y v - Y a) / (Y b - Y a) * (Y b - Y a) = Y v - Y a) by (field; lra).
      set (t := (Y v - Y a) / (Y b - Y a)) in *. unfold X, Y, P in *. cbn [vx vy] in *. rn. split; [nra|]. split; nra.
  - intros (S & t & T & E & L). unfold X, Y, P in *. cbn [vx vy] in *. rn.
    destruct S as [S|S]; [left|right]; (split; [exact S|]); nra.
Qed.
Lemma cb_sym v a b : cb v a b = cb v b a.
Proof.
  apply eq_iff_eq_true. rewrite !cb_true. unfold side.
  assert (E : (X b - X a) * (Y v - Y a) - (Y b - Y a) * (X v - X a) = - ((X a - X b) * (Y v - Y b) - (Y a - Y b) * (X v - X b))) by ring.
  rewrite E. intuition lra.
Qed.

(** ** parity along the outline *)
Fixpoint xwalk (g : pt -> pt -> bool) (l : list pt) : bool :=
  match l with
  | a :: ((b :: _) as r) => xorb (g a b) (xwalk g r)
  | _ => false
  end.
Definition xloop (g : pt -> pt -> bool) (l : list pt) : bool :=
  match l with [] => false | a :: _ => xorb (g (last l a) a) (xwalk g l) end.

Lemma containsLoop_x v l : forall prev acc, containsLoop v prev l acc = Ok (xorb acc (xwalk (cb v) (prev :: l))).
Proof.
  induction l as [|b l IH]; intros prev acc.
  - cbn. destruct acc; reflexivity.
  - cbn [containsLoop]. rewrite crosses_cb. cbn [bind]. rewrite IH.
    change (xwalk (cb v) (prev :: b :: l)) with (xorb (cb v prev b) (xwalk (cb v) (b :: l))).
    rewrite xorb_assoc. reflexivity.
Qed.
Lemma contains_x l v : contains2D l v = Ok (xloop (cb v) l).
Proof.
  destruct l as [|a l]; [reflexivity|]. cbn [contains2D xloop]. rewrite containsLoop_x.
  change (xwalk (cb v) (last (a :: l) a :: a :: l)) with (xorb (cb v (last (a :: l) a) a) (xwalk (cb v) (a :: l))).
  rewrite xorb_false_l. reflexivity.
Qed.

Lemma xwalk_join g d l1 l2 : l1 <> [] -> l2 <> [] ->
  xwalk g (l1 ++ l2) = xorb (xwalk g l1) (xorb (g (last l1 d) (hd d l2)) (xwalk g l2)).
Proof.
  intros H1 H2. destruct l2 as [|b l2]; [contradiction|]. clear H2. cbn [hd].
  induction l1 as [|a [|c l1] IH]; [contradiction| |].
  - change (xwalk g ([a] ++ b :: l2)) with (xorb (g a b) (xwalk g (b :: l2))).
    change (xwalk g [a]) with false. rewrite xorb_false_l. reflexivity.
  - cbn [app]. assert (NE : c :: l1 <> []) by discriminate. specialize (IH NE). cbn [app] in IH.
    change (xwalk g (a :: c :: l1 ++ b :: l2)) with (xorb (g a c) (xwalk g (c :: l1 ++ b :: l2))).
    change (xwalk g (a :: c :: l1)) with (xorb (g a c) (xwalk g (c :: l1))).
    change (last (a :: c :: l1) d) with (last (c :: l1) d). rewrite IH.
    rewrite xorb_assoc. reflexivity.
Qed.
Lemma last_indep (l : list pt) d d' : l <> [] -> last l d = last l d'.
Proof. induction l as [|a [|b l] IH]; [contradiction|reflexivity|]. intros _. change (last (a :: b :: l) d) with (last (b :: l) d).
  change (last (a :: b :: l) d') with (last (b :: l) d'). apply IH. discriminate. Qed.
Lemma last_app_ne (l1 l2 : list pt) d : l2 <> [] -> last (l1 ++ l2) d = last l2 d.
Proof.
  intros H. induction l1 as [|a l1 IH]; [reflexivity|]. cbn [app]. destruct (l1 ++ l2) eqn:E.
  - exfalso. apply app_eq_nil in E. tauto.
  - change (last (a :: p :: l) d) with (last (p :: l) d). exact IH.
Qed.
Lemma xloop_hd g d l : l <> [] -> xloop g l = xorb (g (last l d) (hd d l)) (xwalk g l).
Proof. destruct l as [|a l]; [contradiction|]. intros _. unfold xloop. rewrite (last_indep (a :: l) a d) by discriminate. reflexivity. Qed.
Lemma xloop_rot g l1 l2 : xloop g (l1 ++ l2) = xloop g (l2 ++ l1).
Proof.
  destruct l1 as [|a l1]; [rewrite app_nil_r; reflexivity|]. destruct l2 as [|b l2]; [rewrite app_nil_r; reflexivity|].
  set (s := a :: l1). set (o := b :: l2). assert (Hs : s <> []) by discriminate. assert (Ho : o <> []) by discriminate.
  rewrite !(xloop_hd g a) by (unfold s, o; discriminate).
  rewrite !(xwalk_join g a) by assumption. rewrite !last_app_ne by assumption.
  assert (HD : forall x y : list pt, x <> [] -> hd a (x ++ y) = hd a x) by (intros [|? ?] y H; [contradiction|reflexivity]).
  rewrite !HD by assumption.
  destruct (g (last o a) (hd a s)), (xwalk g s), (g (last s a) (hd a o)), (xwalk g o); reflexivity.
Qed.
Lemma xwalk_rev g l : (forall a b, g a b = g b a) -> xwalk g (rev l) = xwalk g l.
Proof.
  intros S. induction l as [|a l IH]; [reflexivity|]. destruct l as [|b l]; [reflexivity|].
  cbn [rev] in *. rewrite (xwalk_join g b) by (try discriminate; destruct (rev l); discriminate).
  rewrite IH, last_last. cbn [hd]. change (xwalk g [a]) with false.
  change (xwalk g (a :: b :: l)) with (xorb (g a b) (xwalk g (b :: l))). rewrite (S b a).
  destruct (xwalk g (b :: l)), (g a b); reflexivity.
Qed.
Lemma xloop_rev g l : (forall a b, g a b = g b a) -> xloop g (rev l) = xloop g l.
Proof.
  intros S. destruct l as [|a l]; [reflexivity|]. assert (Hr : rev (a :: l) <> []).
  { cbn. destruct (rev l); discriminate. }
  rewrite !(xloop_hd g a) by (auto; discriminate). rewrite xwalk_rev by exact S. cbn [rev]. rewrite last_last.
  replace (hd a (rev l ++ [a])) with (last (a :: l) a); [apply (f_equal (fun x => xorb x _)), S|].
  clear. destruct l as [|b l] using rev_ind; [reflexivity|]. rewrite rev_app_distr. cbn [rev app hd].
  change (a :: l ++ [b]) with ((a :: l) ++ [b]). apply last_last.
Qed.

(** ** straddling sides come in pairs *)
Lemma xwalk_telescope (h : pt -> bool) d l : l <> [] -> xwalk (fun a b => xorb (h a) (h b)) l = xorb (h (hd d l)) (h (last l d)).
Proof.
  induction l as [|a [|b l] IH]; [contradiction| |].
  - intros _. cbn. destruct (h a); reflexivity.
  - intros _. change (xwalk (fun x y => xorb (h x) (h y)) (a :: b :: l)) with
      (xorb (xorb (h a) (h b)) (xwalk (fun x y => xorb (h x) (h y)) (b :: l))).
    rewrite IH by discriminate. cbn [hd]. change (last (a :: b :: l) d) with (last (b :: l) d).
    destruct (h a), (h b), (h (last (b :: l) d)); reflexivity.
Qed.
Lemma xloop_telescope (h : pt -> bool) l : xloop (fun a b => xorb (h a) (h b)) l = false.
Proof.
  destruct l as [|a l]; [reflexivity|]. rewrite (xloop_hd _ a), (xwalk_telescope h a) by discriminate.
  destruct (h (hd a (a :: l))), (h (last (a :: l) a)); reflexivity.
Qed.
Lemma xwalk_ext (g g' : pt -> pt -> bool) l : (forall a b, In a l -> In b l -> g a b = g' a b) -> xwalk g l = xwalk g' l.
Proof.
  induction l as [|a [|b l] IH]; intros H; [reflexivity|reflexivity|].
  change (xwalk g (a :: b :: l)) with (xorb (g a b) (xwalk g (b :: l))).
  change (xwalk g' (a :: b :: l)) with (xorb (g' a b) (xwalk g' (b :: l))).
  rewrite (H a b) by (cbn; auto). f_equal. apply IH. intros x y Hx Hy. apply H; right; assumption.
Qed.
Lemma last_in (l : list pt) d : l <> [] -> In (last l d) l.
Proof.
  induction l as [|a [|b l] IH]; [contradiction|cbn; auto|]. intros _.
  change (last (a :: b :: l) d) with (last (b :: l) d). right. apply IH. discriminate.
Qed.
Lemma xloop_ext (g g' : pt -> pt -> bool) l : (forall a b, In a l -> In b l -> g a b = g' a b) -> xloop g l = xloop g' l.
Proof.
  intros H. destruct l as [|a l]; [reflexivity|]. rewrite !(xloop_hd _ a) by discriminate.
  rewrite (xwalk_ext g g') by exact H. f_equal. apply H; [apply last_in; discriminate|left; reflexivity].
Qed.
Lemma xwalk_false l : xwalk (fun _ _ => false) l = false.
Proof. induction l as [|a [|b l] IH]; [reflexivity|reflexivity|].
  change (xorb false (xwalk (fun _ _ => false) (b :: l)) = false). rewrite IH. reflexivity. Qed.

Lemma contains_separated l v : separated l v -> contains2D l v = Ok false.
Proof.
  intros (nx & ny & H). rewrite contains_x. f_equal.
  destruct (Rle_dec 0 nx) as [N|N].
  - rewrite (xloop_ext _ (fun _ _ => false)).
    + destruct l; [reflexivity|]. rewrite (xloop_hd _ p), xwalk_false by discriminate. reflexivity.
    + intros a b Ha Hb. specialize (H a Ha) as H1. specialize (H b Hb) as H2.
      destruct (cb v a b) eqn:E; [|reflexivity]. exfalso. apply cb_ray in E.
      destruct E as (_ & t & T & EY & L). unfold at2, X, Y, P in *. cbn [vx vy] in *. rn.
      set (qx := vx a + t * (vx b - vx a)) in *.
      assert (nx * qx + ny * vy v < nx * vx v + ny * vy v).
      { rewrite <- EY at 1. unfold qx.
        replace (nx * (vx a + t * (vx b - vx a)) + ny * (vy a + t * (vy b - vy a)))
          with ((1 - t) * (nx * vx a + ny * vy a) + t * (nx * vx b + ny * vy b)) by ring.
        destruct (Req_dec t 0) as [->|Ht]; [lra|].
        assert (0 < t) by lra. nra. }
      nra.
  - rewrite (xloop_ext _ (fun a b => xorb (above v a) (above v b))); [apply xloop_telescope|].
    intros a b Ha Hb. specialize (H a Ha) as H1. specialize (H b Hb) as H2.
    destruct (xorb (above v a) (above v b)) eqn:E; [|unfold cb; rewrite E; reflexivity].
    apply cb_true. unfold side.
    destruct (above v a) eqn:A, (above v b) eqn:B; try discriminate E; rewrite ?above_iff, ?above_false in *.
    + right. split; [lra|]. 
      assert (K : nx * ((X b - X a) * (Y v - Y a) - (Y b - Y a) * (X v - X a)) =
                  - (Y a - Y v) * (nx * X b + ny * Y b - (nx * X v + ny * Y v)) - (Y v - Y b) * (nx * X a + ny * Y a - (nx * X v + ny * Y v))) by ring.
      assert (0 < nx * ((X b - X a) * (Y v - Y a) - (Y b - Y a) * (X v - X a))) by (rewrite K; nra). nra.
    + left. split; [lra|].
      assert (K : nx * ((X b - X a) * (Y v - Y a) - (Y b - Y a) * (X v - X a)) =
                  - (Y a - Y v) * (nx * X b + ny * Y b - (nx * X v + ny * Y v)) - (Y v - Y b) * (nx * X a + ny * Y a - (nx * X v + ny * Y v))) by ring.
      assert (nx * ((X b - X a) * (Y v - Y a) - (Y b - Y a) * (X v - X a)) < 0) by (rewrite K; nra). nra.
Qed.

(** ** parity as a count over the cyclic sides *)
Definition xorl (l : list bool) : bool := fold_right xorb false l.
Lemma xorl_odd (f : nat -> bool) l : xorl (map f l) = Nat.odd (length (filter f l)).
Proof.
  induction l as [|i l IH]; [reflexivity|]. cbn [map filter xorl fold_right]. fold (xorl (map f l)). rewrite IH.
  destruct (f i); [|apply xorb_false_l]. cbn [length]. rewrite Nat.odd_succ, <- Nat.negb_odd. reflexivity.
Qed.
Lemma xorl_app l1 l2 : xorl (l1 ++ l2) = xorb (xorl l1) (xorl l2).
Proof. induction l1 as [|b l1 IH]; cbn; [unfold xorl; destruct (fold_right xorb false l2); reflexivity|]. unfold xorl in *. rewrite IH, xorb_assoc. reflexivity. Qed.
Lemma xwalk_index g d l : xwalk g l = xorl (map (fun i => g (nth i l d) (nth (S i) l d)) (seq 0 (length l - 1))).
Proof.
  induction l as [|a [|b l] IH]; [reflexivity|reflexivity|].
  change (xwalk g (a :: b :: l)) with (xorb (g a b) (xwalk g (b :: l))). rewrite IH.
  cbn [length]. replace (S (S (length l)) - 1)%nat with (S (S (length l) - 1)) by lia.
  cbn [seq map]. rewrite <- seq_shift, map_map. reflexivity.
Qed.
Lemma last_nth (d : pt) l : last l d = nth (length l - 1) l d.
Proof.
  induction l as [|a [|b l] IH]; [reflexivity|reflexivity|]. change (last (a :: b :: l) d) with (last (b :: l) d). rewrite IH.
  cbn [length]. replace (S (S (length l)) - 1)%nat with (S (S (length l) - 1)) by lia. reflexivity.
Qed.
Lemma cyc_small l i : (i < length l)%nat -> cyc l i = nth i l origin.
Proof. intros H. unfold cyc. rewrite Nat.mod_small by exact H. reflexivity. Qed.
Lemma cyc_len l : l <> [] -> cyc l (length l) = hd origin l.
Proof. intros H. unfold cyc. rewrite Nat.mod_same by (destruct l; [contradiction|discriminate]). destruct l; reflexivity. Qed.
Lemma xloop_index g l : xloop g l = xorl (map (fun i => g (cyc l i) (cyc l (S i))) (seq 0 (length l))).
Proof.
  destruct l as [|a l0]; [reflexivity|]. set (l := a :: l0). assert (NE : l <> []) by discriminate.
  rewrite (xloop_hd g origin) by exact NE. rewrite (xwalk_index g origin).
  assert (L : length l = S (length l - 1)) by (cbn; lia).
  rewrite L at 2. rewrite seq_S, map_app, xorl_app. cbn [Nat.add].
  rewrite xorb_comm. f_equal.
  - f_equal. apply map_ext_in. intros i Hi. apply in_seq in Hi. rewrite !cyc_small by lia. reflexivity.
  - cbn [map xorl fold_right]. rewrite xorb_false_r, <- L, cyc_len, cyc_small, last_nth by (auto; lia). reflexivity.
Qed.

Lemma contains_even_odd l v : exists idx, NoDup idx /\
  (forall i, In i idx <-> (i < length l)%nat /\ ray_hits v (cyc l i) (cyc l (S i))) /\
  contains2D l v = Ok (Nat.odd (length idx)).
Proof.
  exists (filter (fun i => cb v (cyc l i) (cyc l (S i))) (seq 0 (length l))).
  split; [apply NoDup_filter, seq_NoDup|]. split.
  - intros i. rewrite filter_In, in_seq, cb_ray. intuition lia.
  - rewrite contains_x, xloop_index, xorl_odd. reflexivity.
Qed.

(** ** strictly convex polygons *)
Lemma cyc_per l i : cyc l (i + length l) = cyc l i.
Proof.
  unfold cyc. destruct l as [|a l]; [destruct i; reflexivity|].
  replace (i + length (a :: l))%nat with (i + 1 * length (a :: l))%nat by lia. rewrite Nat.mod_add by discriminate. reflexivity.
Qed.
Lemma cyc_mod l i : l <> [] -> cyc l (i mod length l) = cyc l i.
Proof. intros H. unfold cyc. rewrite Nat.mod_mod by (destruct l; [contradiction|discriminate]). reflexivity. Qed.
Lemma cyc_S_mod l i : l <> [] -> cyc l (S (i mod length l)) = cyc l (S i).
Proof.
  intros H. unfold cyc. f_equal. assert (N : (length l <> 0)%nat) by (destruct l; [contradiction|discriminate]).
  rewrite <- (Nat.add_1_r (i mod length l)), <- (Nat.add_1_r i). rewrite Nat.add_mod_idemp_l by exact N. reflexivity.
Qed.
Lemma inside_all l v : strictly_inside l v -> forall i, 0 < side (cyc l i) (cyc l (S i)) v.
Proof.
  intros [NE H] i. rewrite <- (cyc_mod l i NE), <- (cyc_S_mod l i NE). apply H. apply Nat.mod_upper_bound.
  destruct l; [contradiction|discriminate].
Qed.
(* position as seen from v *)
Definition spin (v a b : pt) : R := (X a - X v) * (Y b - Y v) - (Y a - Y v) * (X b - X v).
Lemma spin_side v a b : spin v a b = side a b v.
Proof. unfold spin, side. ring. Qed.
Lemma spin_trans_pos v a b c : 0 < Y a - Y v -> 0 < Y b - Y v -> 0 < Y c - Y v ->
  0 < spin v a b -> 0 < spin v b c -> 0 < spin v a c.
Proof.
  intros Ha Hb Hc H1 H2.
  assert (K : (Y b - Y v) * spin v a c = (Y a - Y v) * spin v b c + (Y c - Y v) * spin v a b) by (unfold spin; ring).
  assert (0 < (Y b - Y v) * spin v a c) by (rewrite K; nra). nra.
Qed.
Lemma spin_trans_neg v a b c : Y a - Y v < 0 -> Y b - Y v < 0 -> Y c - Y v < 0 ->
  0 < spin v a b -> 0 < spin v b c -> 0 < spin v a c.
Proof.
  intros Ha Hb Hc H1 H2.
  assert (K : (Y b - Y v) * spin v a c = (Y a - Y v) * spin v b c + (Y c - Y v) * spin v a b) by (unfold spin; ring).
  assert ((Y b - Y v) * spin v a c < 0) by (rewrite K; nra). nra.
Qed.
Lemma inside_straddles l v : strictly_inside l v ->
  (exists i, above v (cyc l i) = true) /\ (exists i, above v (cyc l i) = false).
Proof.
  intros H. pose proof (inside_all l v H) as A. destruct H as [NE _].
  assert (LN : length l <> O) by (destruct l; [contradiction|discriminate]).
  assert (NEG : (forall i, above v (cyc l i) = false) -> False).
  { intros F. assert (F' : forall i, Y (cyc l i) - Y v <= 0) by (intros i; specialize (F i); apply above_false in F; lra).
    assert (SG : forall i, Y (cyc l i) - Y v < 0).
    { intros i. destruct (Rle_lt_or_eq_dec _ _ (F' i)) as [L|E]; [exact L|exfalso].
      pose proof (A i) as A1. pose proof (A (i + (length l - 1))%nat) as A2.
      replace (S (i + (length l - 1))) with (i + length l)%nat in A2 by lia. rewrite cyc_per in A2.
      rewrite <- spin_side in A1, A2. unfold spin in A1, A2. rewrite E in A1, A2.
      pose proof (F' (S i)) as F1. pose proof (F' (i + (length l - 1))%nat) as F2.
      (* next: X*Y' > 0, so X < 0; previous: - Y0 * X > 0 with X < 0 gives Y0 > 0 *)
      assert (X (cyc l i) - X v < 0) by nra. nra. }
    assert (T : forall m, 0 < spin v (cyc l 0) (cyc l (S m))).
    { induction m as [|m IH]; [rewrite spin_side; apply A|].
      apply (spin_trans_neg v _ (cyc l (S m))); auto. rewrite spin_side. apply A. }
    specialize (T (length l - 1)%nat). replace (S (length l - 1)) with (0 + length l)%nat in T by lia.
    rewrite cyc_per in T. unfold spin in T. lra. }
  assert (POS : (forall i, above v (cyc l i) = true) -> False).
  { intros F. assert (SG : forall i, 0 < Y (cyc l i) - Y v) by (intros i; specialize (F i); apply above_iff in F; lra).
    assert (T : forall m, 0 < spin v (cyc l 0) (cyc l (S m))).
    { induction m as [|m IH]; [rewrite spin_side; apply A|].
      apply (spin_trans_pos v _ (cyc l (S m))); auto. rewrite spin_side. apply A. }
    specialize (T (length l - 1)%nat). replace (S (length l - 1)) with (0 + length l)%nat in T by lia.
    rewrite cyc_per in T. unfold spin in T. lra. }
  assert (DEC : forall b, (exists i, above v (cyc l i) = b) \/ (forall i, above v (cyc l i) = negb b)).
  { intros b. destruct (existsb (fun i => Bool.eqb (above v (cyc l i)) b) (seq 0 (length l))) eqn:E.
    - left. apply existsb_exists in E. destruct E as (i & _ & E). apply eqb_prop in E. eauto.
    - right. intros i. rewrite <- (cyc_mod l i NE). set (k := (i mod length l)%nat).
      assert (K : (k < length l)%nat) by (apply Nat.mod_upper_bound; exact LN).
      destruct (Bool.eqb (above v (cyc l k)) b) eqn:Q.
      + exfalso. assert (existsb (fun i => Bool.eqb (above v (cyc l i)) b) (seq 0 (length l)) = true); [|congruence].
        apply existsb_exists. exists k. split; [apply in_seq; lia|exact Q].
      + destruct (above v (cyc l k)), b; try discriminate Q; reflexivity. }
  split.
  - destruct (DEC true) as [E|F]; [exact E|]. exfalso. apply NEG. exact F.
  - destruct (DEC false) as [E|F]; [exact E|]. exfalso. apply POS. exact F.
Qed.
Lemma rise (f : nat -> bool) i m : f i = false -> f (i + m)%nat = true -> exists k, f k = false /\ f (S k) = true.
Proof.
  revert i. induction m as [|m IH]; intros i Hi Hm.
  - rewrite Nat.add_0_r in Hm. congruence.
  - destruct (f (S i)) eqn:E; [eauto|]. apply (IH (S i)); [exact E|]. replace (S i + m)%nat with (i + S m)%nat by lia. exact Hm.
Qed.
(* two rising sides on the same level cannot each see the other on their left *)
Lemma two_rising h (a b c d : pt) : Y a <= h < Y b -> Y c <= h < Y d ->
  0 < side a b c -> 0 < side a b d -> 0 < side c d a -> 0 < side c d b -> False.
Proof.
  intros H1 H2 S1 S2 S3 S4. unfold side in *.
  set (t := (h - Y c) / (Y d - Y c)). set (u := (h - Y a) / (Y b - Y a)).
  assert (T : t * (Y d - Y c) = h - Y c) by (unfold t; field; lra).
  assert (U : u * (Y b - Y a) = h - Y a) by (unfold u; field; lra).
  assert (T01 : 0 <= t < 1) by (split; nra). assert (U01 : 0 <= u < 1) by (split; nra).
  clearbody t u.
  set (q := X c + t * (X d - X c)). set (p := X a + u * (X b - X a)).
  assert (K1 : 0 < (X b - X a) * (h - Y a) - (Y b - Y a) * (q - X a)).
  { replace ((X b - X a) * (h - Y a) - (Y b - Y a) * (q - X a)) with
      ((1 - t) * ((X b - X a) * (Y c - Y a) - (Y b - Y a) * (X c - X a)) + t * ((X b - X a) * (Y d - Y a) - (Y b - Y a) * (X d - X a))).
    - assert (0 < (1 - t) * ((X b - X a) * (Y c - Y a) - (Y b - Y a) * (X c - X a))) by (apply Rmult_lt_0_compat; lra).
      assert (0 <= t * ((X b - X a) * (Y d - Y a) - (Y b - Y a) * (X d - X a))) by (apply Rmult_le_pos; lra). lra.
    - unfold q. replace h with (Y c + t * (Y d - Y c)) by lra. ring. }
  assert (K2 : 0 < (X d - X c) * (h - Y c) - (Y d - Y c) * (p - X c)).
  { replace ((X d - X c) * (h - Y c) - (Y d - Y c) * (p - X c)) with
      ((1 - u) * ((X d - X c) * (Y a - Y c) - (Y d - Y c) * (X a - X c)) + u * ((X d - X c) * (Y b - Y c) - (Y d - Y c) * (X b - X c))).
    - assert (0 < (1 - u) * ((X d - X c) * (Y a - Y c) - (Y d - Y c) * (X a - X c))) by (apply Rmult_lt_0_compat; lra).
      assert (0 <= u * ((X d - X c) * (Y b - Y c) - (Y d - Y c) * (X b - X c))) by (apply Rmult_le_pos; lra). lra.
    - unfold p. replace h with (Y a + u * (Y b - Y a)) by lra. ring. }
  assert (E1 : (X b - X a) * (h - Y a) = (Y b - Y a) * (p - X a)) by (unfold p; rewrite <- U; ring).
  assert (E2 : (X d - X c) * (h - Y c) = (Y d - Y c) * (q - X c)) by (unfold q; rewrite <- T; ring).
  rewrite E1 in K1. rewrite E2 in K2. assert (p > q) by nra. assert (q > p) by nra. lra.
Qed.

Lemma xorl_one (f : nat -> bool) l k : NoDup l -> In k l -> f k = true -> (forall i, In i l -> f i = true -> i = k) -> xorl (map f l) = true.
Proof.
  induction l as [|a l IH]; intros ND HI Hk U; [destruct HI|]. inversion ND as [|? ? NI ND']; subst.
  cbn [map xorl fold_right]. fold (xorl (map f l)).
  destruct (Nat.eq_dec a k) as [->|N].
  - rewrite Hk. assert (xorl (map f l) = false) as ->; [|reflexivity].
    assert (Z0 : forall i, In i l -> f i = false).
    { intros i Hi. destruct (f i) eqn:E; [|reflexivity]. exfalso. apply NI. rewrite <- (U i) by (auto; right; exact Hi). exact Hi. }
    clear - Z0. induction l as [|x l IH]; [reflexivity|]. cbn. rewrite (Z0 x) by (left; reflexivity).
    rewrite xorb_false_l. apply IH. intros; apply Z0; right; assumption.
  - destruct HI as [->|HI]; [contradiction|].
    destruct (f a) eqn:E; [exfalso; apply N, U; [left; reflexivity|exact E]|].
    rewrite xorb_false_l. apply IH; auto. intros; apply U; [right; assumption|assumption].
Qed.

Lemma contains_convex l v : strictly_convex l -> strictly_inside l v -> contains2D l v = Ok true.
Proof.
  intros C H. pose proof (inside_all l v H) as A. destruct (inside_straddles l v H) as [(i1 & E1) (i0 & E0)].
  destruct H as [NE _]. assert (LN : length l <> O) by (destruct l; [contradiction|discriminate]).
  rewrite contains_x, xloop_index. f_equal.
  assert (UP : forall i, cb v (cyc l i) (cyc l (S i)) = true <-> Y (cyc l i) <= Y v < Y (cyc l (S i))).
  { intros i. rewrite cb_true. specialize (A i). intuition lra. }
  assert (exists k, above v (cyc l k) = false /\ above v (cyc l (S k)) = true) as (k & K0 & K1).
  { (* go forward from i0 to a later copy of i1 *)
    apply (rise (fun i => above v (cyc l i)) i0 (i0 * (length l - 1) + i1)); [exact E0|].
    rewrite <- E1. f_equal. unfold cyc. f_equal.
    replace (i0 + (i0 * (length l - 1) + i1))%nat with (i1 + i0 * length l)%nat by nia.
    apply Nat.mod_add. exact LN. }
  apply above_false in K0. apply above_iff in K1.
  assert (KB : (k mod length l < length l)%nat) by (apply Nat.mod_upper_bound; exact LN).
  apply (xorl_one _ _ (k mod length l)); [apply seq_NoDup|apply in_seq; lia| |].
  - apply UP. rewrite cyc_mod, cyc_S_mod by exact NE. lra.
  - intros i Hi Ei. apply in_seq in Hi. apply UP in Ei. set (j := (k mod length l)%nat) in *.
    assert (Ej : Y (cyc l j) <= Y v < Y (cyc l (S j))) by (unfold j; rewrite cyc_mod, cyc_S_mod by exact NE; lra).
    destruct (Nat.eq_dec i j) as [E|N]; [exact E|exfalso].
    assert (SM : forall x, cyc l (S x mod length l) = cyc l (S x)) by (intros x; apply cyc_mod; exact NE).
    assert (N1 : j <> (S i mod length l)%nat) by (intros Q; rewrite Q, SM in Ej; lra).
    assert (N2 : i <> (S j mod length l)%nat) by (intros Q; rewrite Q, SM in Ei; lra).
    assert (N3 : (S j mod length l <> S i mod length l)%nat).
    { intros Q. apply N. assert (Si : (S i mod length l = if Nat.eq_dec (S i) (length l) then 0 else S i)%nat).
      { destruct (Nat.eq_dec (S i) (length l)) as [->|?]; [apply Nat.mod_same; exact LN|apply Nat.mod_small; lia]. }
      assert (Sj : (S j mod length l = if Nat.eq_dec (S j) (length l) then 0 else S j)%nat).
      { destruct (Nat.eq_dec (S j) (length l)) as [->|?]; [apply Nat.mod_same; exact LN|apply Nat.mod_small; lia]. }
      rewrite Si, Sj in Q. destruct (Nat.eq_dec (S i) (length l)), (Nat.eq_dec (S j) (length l)); lia. }
    assert (B : forall x, (S x mod length l < length l)%nat) by (intros x; apply Nat.mod_upper_bound; exact LN).
    apply (two_rising (Y v) (cyc l i) (cyc l (S i)) (cyc l j) (cyc l (S j)) Ei Ej).
    + apply C; auto; lia.
    + rewrite <- (SM j). apply C; auto; lia.
    + apply C; auto; lia.
    + rewrite <- (SM i). apply C; auto; lia.
Qed.
