(** Hole merging over the reals: where bridges start and end, and when a bridge
    is found. *)
From Coq Require Import Reals Lra Psatz ZArith List Permutation Lia Arith Bool.
From Verif Require Import Num GeoModel EdgeModel FaceModel GeoSpec GeoMat GeoCirc EdgeSpecR FaceSpec FaceSpecR FaceComb FaceCut FaceHole FaceCover.
Import ListNotations.
Open Scope R_scope.

(* every real is below infinity *)
Definition lt_oo : @num Rnum -> bool := fun _ => true.

Section HoleR.
Variable pts : list pt.
Notation p_ i := (at_ pts i).
Definition flat : Prop := forall i, Z (p_ i) = 0.

(** ** the start of a hole *)
Lemma vltb_false_x (p q : pt) : vltb p q = false -> X q <= X p.
Proof.
  unfold vltb, X. rn. destruct (Reqb (vx p) (vx q)) eqn:E; cbn [negb]; intros H.
  - apply Reqb_true in E. rewrite E. apply Rle_refl.
  - apply Rltb_false. exact H.
Qed.
Lemma vltb_true_x (p q : pt) : vltb p q = true -> X p <= X q.
Proof.
  unfold vltb, X. rn. destruct (Reqb (vx p) (vx q)) eqn:E; cbn [negb]; intros H.
  - apply Reqb_true in E. rewrite E. apply Rle_refl.
  - apply Rltb_true in H. apply Rlt_le. exact H.
Qed.
Lemma argmaxFrom_spec l : forall best i h pre, nth best (pre ++ l) 0%nat = h -> (best < i)%nat -> length pre = i ->
  (forall v, In v pre -> X (p_ v) <= X (p_ h)) ->
  (argmaxFrom pts best i h l < length (pre ++ l))%nat /\
  forall v, In v (pre ++ l) -> X (p_ v) <= X (p_ (nth (argmaxFrom pts best i h l) (pre ++ l) 0%nat)).
Proof.
  induction l as [|g l IH]; intros best i h pre E L LP H; cbn [argmaxFrom].
  - rewrite app_nil_r in *. split; [lia|]. rewrite E. exact H.
  - assert (EQ : pre ++ g :: l = (pre ++ [g]) ++ l) by (rewrite <- app_assoc; reflexivity). rewrite EQ in *.
    destruct (vltb (p_ h) (p_ g)) eqn:V; [apply vltb_true_x in V|apply vltb_false_x in V]; apply IH; try (rewrite app_length; cbn; lia); try lia; auto.
    + rewrite app_nth1 by (rewrite app_length; cbn; lia). rewrite app_nth2 by lia. rewrite LP, Nat.sub_diag. reflexivity.
    + intros v Hv. apply in_app_or in Hv. destruct Hv as [Hv|[<-|[]]]; [|apply Rle_refl]. eapply Rle_trans; [apply H, Hv|exact V].
    + intros v Hv. apply in_app_or in Hv. destruct Hv as [Hv|[<-|[]]]; [apply H, Hv|exact V].
Qed.
Lemma argmax_spec hole : hole <> [] -> (argmax pts hole < length hole)%nat /\
  forall v, In v hole -> X (p_ v) <= X (p_ (nth (argmax pts hole) hole 0%nat)).
Proof.
  intros NE. destruct hole as [|h l]; [contradiction|]. apply (argmaxFrom_spec l 0 1 h [h]); auto.
  intros v [<-|[]]. apply Rle_refl.
Qed.
Lemma rotateTo_hd hole : hole <> [] -> hd 0%nat (rotateTo pts hole) = nth (argmax pts hole) hole 0%nat.
Proof.
  intros NE. destruct (argmax_spec hole NE) as [L _]. unfold rotateTo.
  destruct (hd_skip hole (argmax pts hole) 0%nat) as [H|[H|H]]; [|contradiction|lia]. rewrite H, Nat.mod_small by lia. reflexivity.
Qed.
Lemma rotateTo_right hole v : hole <> [] -> In v hole -> X (p_ v) <= X (p_ (hd 0%nat (rotateTo pts hole))).
Proof. intros NE. rewrite rotateTo_hd by exact NE. apply argmax_spec, NE. Qed.

(** ** the ray *)
Lemma sides_nth l e : In e (sides l) -> exists i, (i < length l)%nat /\ fst e = nth i l 0%nat /\ snd e = nth (S i mod length l) l 0%nat.
Proof.
  destruct l as [|a r]; [intros []|]. cbn [sides]. intros H. apply (In_nth _ _ (0%nat, 0%nat)) in H. destruct H as (i & L & E).
  rewrite combine_length, app_length in L. cbn [length] in L. rewrite combine_nth in E by (rewrite app_length; cbn; lia).
  exists i. split; [cbn; lia|]. rewrite <- E. cbn [fst snd]. split; [reflexivity|]. cbn [length].
  destruct (Nat.eq_dec i (length r)) as [->|NE].
  - rewrite Nat.mod_same by lia. rewrite app_nth2, Nat.sub_diag by lia. reflexivity.
  - rewrite Nat.mod_small by lia. rewrite app_nth1 by lia. reflexivity.
Qed.

Section Ray.
Variables (poly : list nat) (a : pt).
Hypothesis FL : flat.
Notation n := (length poly).
Notation q_ i := (p_ (nth i poly 0%nat)).
Notation next i := (S i mod length poly)%nat.
(* segment i goes up and passes right of a *)
Definition up_right (i : nat) : Prop := Y (q_ i) <= Y a /\ Y a < Y (q_ (next i)) /\ 0 < side (q_ i) (q_ (next i)) a.
Definition hit_ok (h : @hit Rnum) : Prop := match h with
  | None => True
  | Some (b, c, v) => X a < X b /\ Y b = Y a /\ Z b = 0 /\ X b <= X c /\ (v < n)%nat /\ c = q_ v
  end.
Lemma cut_x p q : Y p < Y q -> Y p <= Y a <= Y q ->
  let x := X p - (Y p - Y a) * (X q - X p) / (Y q - Y p) in
  (X a < x <-> 0 < side p q a) /\ x <= Rmax (X p) (X q).
Proof.
  intros D B x. assert (K : (x - X a) * (Y q - Y p) = side p q a) by (unfold x, side; field; lra).
  split.
  - rewrite <- K. split; intros H; nra.
  - assert (K2 : x * (Y q - Y p) = X p * (Y q - Y a) + X q * (Y a - Y p)) by (unfold x; field; lra).
    pose proof (Rmax_l (X p) (X q)) as M1. pose proof (Rmax_r (X p) (X q)) as M2. set (M := Rmax (X p) (X q)) in *. clearbody M.
    assert (x * (Y q - Y p) <= M * (Y q - Y p)).
    { rewrite K2. assert (X p * (Y q - Y a) <= M * (Y q - Y a)) by (apply Rmult_le_compat_r; lra).
      assert (X q * (Y a - Y p) <= M * (Y a - Y p)) by (apply Rmult_le_compat_r; lra). lra. }
    apply Rmult_le_reg_r with (Y q - Y p); lra.
Qed.
Lemma rayStep_ok h i : (i < n)%nat -> hit_ok h -> exists h', rayStep lt_oo pts poly a h i = Ok h' /\ hit_ok h' /\
  (h <> None -> h' <> None) /\ (up_right i -> h' <> None).
Proof.
  intros Hi Hh. assert (Hj : (next i < n)%nat) by (apply Nat.mod_upper_bound; lia).
  unfold rayStep. set (p := q_ i). set (q := q_ (next i)). rn. fold (X p) (Y p) (X q) (Y q) (X a) (Y a).
  assert (UR : up_right i -> Y p <= Y a /\ Y a < Y q /\ 0 < side p q a) by auto.
  destruct (Reqb (Y p) (Y a) && Reqb (Y a) (Y q)) eqn:E1.
  - apply andb_prop in E1. destruct E1 as [E1 E2]. apply Reqb_true in E1. apply Reqb_true in E2.
    assert (NU : up_right i -> False) by (intros U; destruct (UR U) as (_ & U2 & _); lra).
    assert (KEEP : exists h', Ok h = Ok h' /\ hit_ok h' /\ (h <> None -> h' <> None) /\ (up_right i -> h' <> None)).
    { exists h. split; [reflexivity|]. split; [exact Hh|]. split; [auto|]. intros U. destruct (NU U). }
    assert (SET : forall v, (v < n)%nat -> X a < X (q_ v) -> Y (q_ v) = Y a -> exists h', Ok (Some (q_ v, q_ v, v)) = Ok h' /\ hit_ok h' /\ (h <> None -> h' <> None) /\ (up_right i -> h' <> None)).
    { intros v Lv HX HY. exists (Some (q_ v, q_ v, v)). split; [reflexivity|]. split; [|split; discriminate].
      split; [exact HX|]. split; [exact HY|]. split; [apply FL|]. split; [apply Rle_refl|]. split; [exact Lv|reflexivity]. }
    destruct (Rltb (X a) (X p) && Rltb (X a) (X q)) eqn:E3; [|exact KEEP].
    apply andb_prop in E3. destruct E3 as [E3 E4]. apply Rltb_true in E3. apply Rltb_true in E4.
    destruct (Rltb (X p) (X q) && @lt_bx Rnum lt_oo (X p) h); [apply (SET i); auto|].
    destruct (@lt_bx Rnum lt_oo (X q) h); [apply (SET (next i)); auto; unfold q in E2; lra|exact KEEP].
  - destruct (Rleb (Y p) (Y a) && Rleb (Y a) (Y q)) eqn:E2.
    2:{ exists h. split; [reflexivity|]. split; [exact Hh|]. split; [auto|]. intros U. exfalso. destruct (UR U) as (U1 & U2 & U3).
        apply andb_false_iff in E2. destruct E2 as [E2|E2]; apply Rleb_false in E2; lra. }
    apply andb_prop in E2. destruct E2 as [E2 E3]. apply Rleb_true in E2. apply Rleb_true in E3.
    assert (D : Y p < Y q).
    { apply andb_false_iff in E1. destruct E1 as [E1|E1]; apply Reqb_false in E1; lra. }
    rewrite (pdiv_nz _ (Y q - Y p)) by lra. cbn [bind]. rn.
    destruct (cut_x p q D (conj E2 E3)) as [C1 C2]. set (x := X p - (Y p - Y a) * (X q - X p) / (Y q - Y p)) in *.
    destruct (Rltb (X a) x && @lt_bx Rnum lt_oo x h) eqn:E4.
    + apply andb_prop in E4. destruct E4 as [E4 E5]. apply Rltb_true in E4.
      eexists. split; [reflexivity|]. split; [|split; discriminate].
      split; [exact E4|]. split; [reflexivity|]. split; [reflexivity|].
      destruct (Rltb (X q) (X p)) eqn:E6; [apply Rltb_true in E6|apply Rltb_false in E6].
      * split; [|split; [exact Hi|reflexivity]]. change (x <= X p). rewrite Rmax_left in C2 by lra. exact C2.
      * split; [|split; [exact Hj|reflexivity]]. change (x <= X q). rewrite Rmax_right in C2 by lra. exact C2.
    + exists h. split; [reflexivity|]. split; [exact Hh|]. split; [auto|]. intros U HN. destruct (UR U) as (_ & _ & U3).
      apply C1 in U3. apply Rltb_true in U3. rewrite U3 in E4. cbn [andb] in E4. subst h. discriminate E4.
Qed.
Lemma ray_fold l : (forall i, In i l -> (i < n)%nat) -> forall h, hit_ok h -> exists h', foldM (rayStep lt_oo pts poly a) h l = Ok h' /\ hit_ok h' /\
  (h <> None -> h' <> None) /\ ((exists i, In i l /\ up_right i) -> h' <> None).
Proof.
  induction l as [|i l IH]; intros HL h Hh; cbn [foldM].
  - exists h. split; [reflexivity|]. split; [exact Hh|]. split; [auto|]. intros (i & [] & _).
  - destruct (rayStep_ok h i (HL i (or_introl eq_refl)) Hh) as (h1 & E1 & O1 & S1 & U1). rewrite E1. cbn [bind].
    destruct (IH (fun k Hk => HL k (or_intror Hk)) h1 O1) as (h2 & E2 & O2 & S2 & U2). exists h2. split; [exact E2|]. split; [exact O2|].
    split; [auto|]. intros (k & [->|Hk] & U); [auto|]. apply U2. exists k. auto.
Qed.
Lemma castRay_total : exists h, castRay lt_oo pts poly a = Ok h /\ hit_ok h /\ ((exists i, (i < n)%nat /\ up_right i) -> h <> None).
Proof.
  destruct (ray_fold (seq 0 n)) with (h := @None (pt * pt * nat)) as (h & E & O & _ & U).
  - intros i Hi. apply in_seq in Hi. lia.
  - exact I.
  - exists h. split; [exact E|]. split; [exact O|]. intros (i & Hi & Ui). apply U. exists i. split; [apply in_seq; lia|exact Ui].
Qed.
(* a positive winding number needs an upward side on the right *)
Lemma winding_up : (0 < winding pts (sides poly) a)%Z -> exists i, (i < n)%nat /\ up_right i.
Proof.
  intros W. assert (G : forall es, (0 < winding pts es a)%Z -> exists e, In e es /\ crossing a (p_ (fst e)) (p_ (snd e)) = 1%Z).
  { induction es as [|e es IH]; unfold winding; cbn [fold_right]; [lia|]. change (fold_right _ 0%Z es) with (winding pts es a). intros H.
    assert (V : crossing a (p_ (fst e)) (p_ (snd e)) = 1%Z \/ (crossing a (p_ (fst e)) (p_ (snd e)) <= 0)%Z).
    { unfold crossing. destruct (Rle_dec _ _), (Rlt_dec _ _); try destruct (Rlt_dec _ _); try destruct (Rle_dec _ _); try destruct (Rlt_dec _ _); lia. }
    destruct V as [V|V]; [exists e; cbn; auto|]. destruct (IH ltac:(lia)) as (f & Hf & Ef). exists f. cbn. auto. }
  destruct (G _ W) as (e & He & Ee). destruct (sides_nth _ _ He) as (i & Hi & E1 & E2). exists i. split; [exact Hi|].
  unfold up_right. rewrite <- E1, <- E2. unfold crossing in Ee.
  destruct (Rle_dec _ _) as [K1|K1].
  - destruct (Rlt_dec _ _) as [K2|K2]; [|discriminate]. destruct (Rlt_dec _ _) as [K3|K3]; [auto|discriminate].
  - destruct (Rle_dec _ _); [|discriminate]. destruct (Rlt_dec _ _); discriminate.
Qed.

(** ** the better vertex lies right of the hole *)
Lemma search_right b c ad bd cd p : X a < X b -> X a < X c -> (X b <> X c \/ Y b <> Y c) ->
  vnorm2D (vsub b a) = Ok ad -> vnorm2D (vsub c b) = Ok bd -> vnorm2D (vsub a c) = Ok cd ->
  insideSearch a b c ad bd cd p = true -> X a < X p.
Proof.
  intros HB HC NE EA EB EC H.
  assert (T : forall u v d w, vnorm2D (vsub v u) = Ok d -> (X u <> X v \/ Y u <> Y v) ->
     Rltb (vx d * (vy u - vy w) - vy d * (vx u - vx w)) (- (1 / 1000000)) = true -> 0 < side u v w).
  { intros u v d w E N T. apply Rltb_true in T.
    destruct (vnorm2D_ok (vsub v u)) as (E' & _ & L); [destruct u, v; cbn in *; unfold X, Y in *; cbn in *; rn; lra|].
    rewrite E' in E. apply Ok_inj in E. rewrite <- E in T. cbn [vx vy P] in T.
    set (m := len2 (vsub v u)) in *. clearbody m. unfold side. change (vx u) with (X u) in T. change (vy u) with (Y u) in T. change (vx w) with (X w) in T. change (vy w) with (Y w) in T.
    assert (XE : X (vsub v u) = X v - X u) by reflexivity. assert (YE : Y (vsub v u) = Y v - Y u) by reflexivity. rewrite XE, YE in T.
    assert (K : ((X v - X u) / m * (Y u - Y w) - (Y v - Y u) / m * (X u - X w)) * m = - ((X v - X u) * (Y w - Y u) - (Y v - Y u) * (X w - X u))) by (field; lra).
    nra. }
  unfold insideSearch in H. rn. apply andb_prop in H. destruct H as [H H3]. apply andb_prop in H. destruct H as [H1 H2].
  apply (T a b) in H1; [|exact EA|left; lra]. apply (T b c) in H2; [|exact EB|exact NE]. apply (T c a) in H3; [|exact EC|left; lra].
  assert (BA : (side a b p + side b c p + side c a p) * (X p - X a) = side c a p * (X b - X a) + side a b p * (X c - X a)) by (unfold side; ring).
  assert (0 < side c a p * (X b - X a)) by (apply Rmult_lt_0_compat; lra).
  assert (0 < side a b p * (X c - X a)) by (apply Rmult_lt_0_compat; lra).
  destruct (Rle_or_lt (X p) (X a)) as [L|L]; [|exact L]. exfalso.
  assert (0 <= (side a b p + side b c p + side c a p) * (X a - X p)) by (apply Rmult_le_pos; lra). lra.
Qed.
Lemma better_right b c ad bd cd l : X a < X b -> X a < X c -> (X b <> X c \/ Y b <> Y c) ->
  vnorm2D (vsub b a) = Ok ad -> vnorm2D (vsub c b) = Ok bd -> vnorm2D (vsub a c) = Ok cd ->
  forall st, X a < X (q_ (snd st)) -> X a < X (q_ (snd (fold_left (betterStep lt_oo pts poly a b c ad bd cd) l st))).
Proof.
  intros HB HC NE EA EB EC. induction l as [|i l IH]; intros st Hs; cbn [fold_left]; [exact Hs|]. apply IH.
  unfold betterStep. destruct (insideSearch _ _ _ _ _ _ _) eqn:I; [|exact Hs].
  destruct (isReflex _ _ _); [|exact Hs]. destruct (match fst st with None => _ | Some m => _ end); [|exact Hs].
  cbn [snd]. exact (search_right b c ad bd cd _ HB HC NE EA EB EC I).
Qed.
Lemma findVisible_R : (exists i, (i < n)%nat /\ up_right i) -> exists v, findVisible lt_oo pts poly a = Ok v.
Proof.
  intros U. unfold findVisible. destruct castRay_total as (h & E & O & NN). rewrite E. cbn [bind].
  destruct h as [[[b c] v]|]; [|destruct (NN U eq_refl)]. destruct O as (H1 & H2 & H3 & H4 & H5 & H6).
  destruct (veqb b c) eqn:V; [eauto|].
  assert (NE : X b <> X c \/ Y b <> Y c).
  { destruct (Req_dec (X b) (X c)) as [K1|]; [|auto]. destruct (Req_dec (Y b) (Y c)) as [K2|]; [|auto]. exfalso.
    assert (K3 : Z b = Z c) by (rewrite H3, H6; symmetry; apply FL). unfold veqb in V. unfold X, Y, Z in K1, K2, K3. rn.
    rewrite K1, K2, K3 in V. rewrite !(proj2 (Reqb_true _ _) eq_refl) in V. discriminate. }
  assert (G : forall b c : pt, X a < X b -> X a < X c -> (X b <> X c \/ Y b <> Y c) -> exists r,
    (aDir <- vnorm2D (vsub b a) ;; bDir <- vnorm2D (vsub c b) ;; cDir <- vnorm2D (vsub a c) ;;
      Ok (snd (fold_left (betterStep lt_oo pts poly a b c aDir bDir cDir) (seq 0 n) (None, v)))) = Ok r).
  { clear. intros b c HB HC NE.
    destruct (vnorm2D_ok (vsub b a)) as (-> & _); [unfold X, Y in *; cbn; rn; lra|].
    destruct (vnorm2D_ok (vsub c b)) as (-> & _); [unfold X, Y in *; cbn; rn; lra|].
    destruct (vnorm2D_ok (vsub a c)) as (-> & _); [unfold X, Y in *; cbn; rn; lra|]. cbn [bind]. eauto. }
  destruct (vy c <? vy b)%num; apply G; try lra; tauto.
Qed.
Lemma findVisible_right v : findVisible lt_oo pts poly a = Ok v -> X a < X (q_ v).
Proof.
  unfold findVisible. destruct castRay_total as (h & E & O & _). rewrite E. cbn [bind].
  destruct h as [[[b c] w]|]; [|discriminate]. destruct O as (H1 & H2 & H3 & H4 & H5 & H6).
  destruct (veqb b c) eqn:V; [intros H; okinv H; rewrite <- H6; lra|].
  assert (NE : X b <> X c \/ Y b <> Y c).
  { destruct (Req_dec (X b) (X c)) as [K1|]; [|auto]. destruct (Req_dec (Y b) (Y c)) as [K2|]; [|auto]. exfalso.
    assert (K3 : Z b = Z c) by (rewrite H3, H6; symmetry; apply FL). unfold veqb in V. unfold X, Y, Z in K1, K2, K3. rn.
    rewrite K1, K2, K3 in V. rewrite !(proj2 (Reqb_true _ _) eq_refl) in V. discriminate. }
  assert (G : forall b c : pt, X a < X b -> X a < X c -> (X b <> X c \/ Y b <> Y c) -> 
    (aDir <- vnorm2D (vsub b a) ;; bDir <- vnorm2D (vsub c b) ;; cDir <- vnorm2D (vsub a c) ;;
      Ok (snd (fold_left (betterStep lt_oo pts poly a b c aDir bDir cDir) (seq 0 n) (None, w)))) = Ok v -> X a < X (q_ v)).
  { intros b' c' HB HC NE' H. apply bind_ok in H. destruct H as (ad & EA & H). apply bind_ok in H. destruct H as (bd & EB & H).
    apply bind_ok in H. destruct H as (cd & EC & H). apply Ok_inj in H. rewrite <- H.
    eapply better_right; eauto. cbn [snd]. rewrite <- H6. lra. }
  destruct (vy c <? vy b)%num; apply G; try lra; tauto.
Qed.
End Ray.

(** ** all holes *)
Definition valid_holes (poly : list nat) (holes : list (list nat)) : Prop :=
  (forall h, In h holes -> h <> []) /\ NoDup (concat holes) /\
  (forall h v, In h holes -> In v h -> (0 < winding pts (sides poly) (p_ v))%Z) /\
  (forall h g v, In h holes -> In g holes -> h <> g -> In v h -> winding pts (sides g) (p_ v) = 0%Z).
Lemma merge_fold_R hs : flat -> forall poly, valid_holes poly hs -> exists poly', foldM (mergeHole lt_oo pts) poly hs = Ok poly'.
Proof.
  intros FL. induction hs as [|h hs IH]; intros poly (NE & ND & W1 & W2); cbn [foldM]; [eauto|].
  assert (Hh : h <> []) by (apply NE; left; reflexivity).
  assert (Hd : In (hd 0%nat h) h) by (destruct h; [contradiction|left; reflexivity]).
  destruct (findVisible_R poly (holeKey pts h) FL) as (v & Ev).
  { apply winding_up. apply (W1 h); [left; reflexivity|exact Hd]. }
  unfold mergeHole at 1. rewrite Ev. cbn [bind]. apply IH.
  assert (DIS : forall g, In g hs -> h <> g).
  { intros g Hg <-. cbn [concat] in ND. destruct h as [|x h]; [contradiction|]. cbn in ND. inversion ND as [|? ? K _]; subst. apply K, in_or_app. right.
    apply in_concat. exists (x :: h). cbn. auto. }
  split; [|split; [|split]].
  - intros g Hg. apply NE. right. exact Hg.
  - cbn [concat] in ND. clear -ND. induction h as [|x h IHh]; [exact ND|]. cbn in ND. inversion ND; auto.
  - intros g u Hg Hu. rewrite (winding_perm pts _ _ _ (splice_sides poly v h (findVisible_vis _ _ _ _ _ Ev) Hh)), !winding_app, winding_both.
    pose proof (W1 g u (or_intror Hg) Hu). rewrite (W2 g h u); [lia|right; exact Hg|left; reflexivity| |exact Hu]. intros ->. apply (DIS h Hg eq_refl).
  - intros g f u Hg Hf. apply W2; right; assumption.
Qed.
Theorem mergeHoles_total poly holes : flat -> valid_holes poly holes -> exists poly', mergeHoles lt_oo pts poly holes = Ok poly'.
Proof.
  intros FL (NE & ND & W1 & W2). unfold mergeHoles.
  destruct (existsb _ holes) eqn:Q.
  { exfalso. apply existsb_exists in Q. destruct Q as (h & Hh & K). destruct h; [apply (NE [] Hh eq_refl)|discriminate]. }
  apply merge_fold_R; [exact FL|].
  pose proof (sortHoles_perm pts (map (rotateTo pts) holes)) as PS.
  assert (PC : Permutation (concat (sortHoles pts (map (rotateTo pts) holes))) (concat holes)).
  { rewrite (concat_perm _ _ PS). clear. induction holes as [|h holes IH]; [reflexivity|]. cbn [map concat]. rewrite (rotateTo_perm pts h). apply Permutation_app_head, IH. }
  assert (IN : forall h, In h (sortHoles pts (map (rotateTo pts) holes)) -> exists h0, In h0 holes /\ h = rotateTo pts h0).
  { intros h Hh. apply (Permutation_in _ PS) in Hh. apply in_map_iff in Hh. destruct Hh as (h0 & <- & Hh). eauto. }
  split; [|split; [|split]].
  - intros h Hh E. destruct (IN h Hh) as (h0 & K & ->). apply (NE h0 K). pose proof (rotateTo_perm pts h0) as PR. rewrite E in PR. apply Permutation_nil in PR. exact PR.
  - apply (Permutation_NoDup (Permutation_sym PC)), ND.
  - intros h v Hh Hv. destruct (IN h Hh) as (h0 & K & ->). apply (W1 h0 v K). apply (Permutation_in _ (rotateTo_perm pts h0)), Hv.
  - intros h g v Hh Hg D Hv. destruct (IN h Hh) as (h0 & K & ->). destruct (IN g Hg) as (g0 & L & ->).
    rewrite (winding_perm pts _ _ _ (rotateTo_sides pts g0)). apply (W2 h0 g0 v K L); [congruence|].
    apply (Permutation_in _ (rotateTo_perm pts h0)), Hv.
Qed.
(* every bridge leads from the rightmost vertex of a hole to a vertex further right *)
Lemma merge_fold_right hs : flat -> (forall h, In h hs -> h <> []) -> forall poly poly',
  foldM (mergeHole lt_oo pts) poly hs = Ok poly' ->
  exists bridges, length bridges = length hs /\ Permutation (sides poly') (sides poly ++ flat_map sides hs ++ both_ways bridges) /\
    Forall2 (fun e h => X (p_ (snd e)) < X (p_ (fst e)) /\ snd e = hd 0%nat h) bridges hs.
Proof.
  intros FL. induction hs as [|h hs IH]; intros NE poly poly' H; cbn [foldM] in H.
  - okinv H. exists []. split; [reflexivity|]. cbn. rewrite !app_nil_r. split; [reflexivity|constructor].
  - apply bind_ok in H. destruct H as (p1 & E & H). unfold mergeHole in E. apply bind_ok in E. destruct E as (vis & Ev & E). okinv E.
    destruct (IH (fun g Hg => NE g (or_intror Hg)) _ _ H) as (br & B1 & B2 & B3). assert (Hh : h <> []) by (apply NE; left; reflexivity).
    pose proof (splice_sides poly vis h (findVisible_vis _ _ _ _ _ Ev) Hh) as S.
    exists ((nth vis poly 0%nat, hd 0%nat h) :: br). split; [cbn; lia|]. split.
    + rewrite B2, S. cbn [flat_map]. change (both_ways (?b :: br)) with (both_ways [b] ++ both_ways br).
      rewrite <- !app_assoc. apply Permutation_app_head, Permutation_app_head.
      rewrite !app_assoc. apply Permutation_app_tail, Permutation_app_comm.
    + constructor; [|exact B3]. split; [|reflexivity]. cbn [fst snd]. apply (findVisible_right poly (holeKey pts h) FL vis Ev).
Qed.
Theorem mergeHoles_right poly holes poly' : flat -> mergeHoles lt_oo pts poly holes = Ok poly' ->
  exists bridges, length bridges = length holes /\ Permutation (sides poly') (sides poly ++ flat_map sides holes ++ both_ways bridges) /\
    (forall h, In h holes -> exists e, In e bridges /\ In (snd e) h /\ (forall v, In v h -> X (p_ v) <= X (p_ (snd e))) /\ X (p_ (snd e)) < X (p_ (fst e))).
Proof.
  intros FL. unfold mergeHoles. destruct (existsb _ holes) eqn:Q; [discriminate|]. intros H.
  assert (NE : forall h, In h holes -> h <> []).
  { intros h Hh ->. assert (K : existsb (fun h : list nat => match h with [] => true | _ => false end) holes = true).
    { apply existsb_exists. exists []. auto. } congruence. }
  pose proof (sortHoles_perm pts (map (rotateTo pts) holes)) as PS. set (hs := sortHoles pts (map (rotateTo pts) holes)) in *.
  assert (NE' : forall h, In h hs -> h <> []).
  { intros h Hh E. apply (Permutation_in _ PS) in Hh. apply in_map_iff in Hh. destruct Hh as (h0 & <- & Hh). apply (NE h0 Hh).
    pose proof (rotateTo_perm pts h0) as PR. rewrite E in PR. apply Permutation_nil in PR. exact PR. }
  destruct (merge_fold_right hs FL NE' _ _ H) as (br & B1 & B2 & B3). exists br. split; [|split].
  - rewrite B1. rewrite (Permutation_length PS). apply map_length.
  - rewrite B2. apply Permutation_app_head, Permutation_app_tail. rewrite (flat_sides_perm _ _ PS). clear.
    induction holes as [|h holes IH]; [reflexivity|]. cbn [map flat_map]. rewrite (rotateTo_sides pts h). apply Permutation_app_head, IH.
  - intros h Hh. assert (K : In (rotateTo pts h) hs) by (apply (Permutation_in _ (Permutation_sym PS)), in_map, Hh).
    assert (G : forall l1 l2 (R : dedge -> list nat -> Prop) x, Forall2 R l1 l2 -> In x l2 -> exists e, In e l1 /\ R e x).
    { clear. intros l1 l2 R x F. induction F; intros []; [subst; eexists; split; [left; reflexivity|assumption]|]. destruct (IHF H0) as (e & ? & ?). exists e. cbn. auto. }
    destruct (G _ _ _ _ B3 K) as (e & He & E1 & E2). exists e. split; [exact He|]. assert (NH := NE h Hh). split; [|split; [|exact E1]].
    + rewrite E2, rotateTo_hd by exact NH. apply nth_In, argmax_spec, NH.
    + intros v Hv. rewrite E2. apply rotateTo_right; assumption.
Qed.
End HoleR.
