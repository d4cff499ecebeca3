(** Proofs about seam cleaning. *)
From Coq Require Import Ascii String ZArith NArith List Bool Lia.
From Verif Require Import Num SeamModel SeamSpec.
Import ListNotations.
Open Scope string_scope.

Lemma sapp_assoc a b c : (a ++ b) ++ c = a ++ (b ++ c).
Proof. induction a as [|x a IH]; cbn; [reflexivity|rewrite IH; reflexivity]. Qed.
Lemma sapp_nil a : a ++ "" = a.
Proof. induction a as [|x a IH]; cbn; [reflexivity|rewrite IH; reflexivity]. Qed.
Lemma slen_app a b : String.length (a ++ b) = (String.length a + String.length b)%nat.
Proof. induction a as [|x a IH]; cbn; [reflexivity|rewrite IH; reflexivity]. Qed.
Lemma sapp_inv_head a b c : a ++ b = a ++ c -> b = c.
Proof. induction a as [|x a IH]; cbn; intros H; [exact H|]. injection H as H. apply IH. exact H. Qed.
Lemma sapp_eq_app a : forall b u v, a ++ b = u ++ v -> (exists x, a = u ++ x /\ v = x ++ b) \/ (exists x, x <> "" /\ u = a ++ x /\ b = x ++ v).
Proof.
  induction a as [|c a IH]; intros b u v H.
  - destruct u as [|d u]; [left; exists ""; auto|right; exists (String d u); split; [discriminate|auto]].
  - destruct u as [|d u]; [left; exists (String c a); split; [reflexivity|symmetry; exact H]|].
    cbn in H. injection H as <- H. destruct (IH _ _ _ H) as [(x & -> & ->)|(x & N & -> & ->)]; [left; exists x; auto|right; exists x; auto].
Qed.
Lemma hexDigit_in c : hexDigit c = true <-> In c hex_chars.
Proof.
  split.
  - destruct c as [[] [] [] [] [] [] [] []]; intros H; try discriminate H; cbn; repeat (first [left; reflexivity|right]).
  - intros H. cbn in H. repeat (destruct H as [<-|H]; [reflexivity|]). destruct H.
Qed.
Lemma seam_unfold h post : seam_attr h ++ post = attrStart ++ h ++ String (ascii_of_nat 34) post.
Proof. unfold seam_attr, attrStart, dq, quote. rewrite !sapp_assoc. reflexivity. Qed.
Lemma hexRun_inv s : forall n rest, hexRun s = (n, rest) -> exists h, s = h ++ rest /\ String.length h = n /\ forall c, In c (list_ascii_of_string h) -> In c hex_chars.
Proof.
  induction s as [|c s IH]; intros n rest H; cbn in H; [injection H as <- <-; exists ""; repeat split; intros c []|].
  destruct (hexDigit c) eqn:HD; [|injection H as <- <-; exists ""; repeat split; intros d []].
  destruct (hexRun s) as [m r]. injection H as <- <-. destruct (IH m r eq_refl) as (h & -> & L & F). exists (String c h). split; [reflexivity|]. split; [cbn; rewrite L; reflexivity|].
  intros d [<-|Hd]; [apply hexDigit_in; exact HD|apply F; exact Hd].
Qed.
Lemma hexRun_app h q r : (forall c, In c (list_ascii_of_string h) -> In c hex_chars) -> hexDigit q = false -> hexRun (h ++ String q r) = (String.length h, String q r).
Proof.
  intros F Q. induction h as [|c h IH]; cbn; [rewrite Q; reflexivity|]. rewrite (proj2 (hexDigit_in c)) by (apply F; left; reflexivity). rewrite IH; [reflexivity|]. intros d Hd. apply F. right. exact Hd.
Qed.
Lemma sdrop_app a b : sdrop (String.length a) (a ++ b) = b.
Proof. induction a as [|c a IH]; [destruct b; reflexivity|exact IH]. Qed.
Lemma prefix_app p r : String.prefix p (p ++ r) = true.
Proof. induction p as [|c p IH]; cbn; [destruct r; reflexivity|]. destruct (ascii_dec c c); [exact IH|congruence]. Qed.
Lemma prefix_split p : forall s, String.prefix p s = true -> exists r, s = p ++ r.
Proof.
  induction p as [|c p IH]; intros s H; [exists s; reflexivity|]. destruct s as [|d s]; [discriminate|]. cbn in H. destruct (ascii_dec c d) as [<-|]; [|discriminate].
  destruct (IH s H) as (r & ->). exists r. reflexivity.
Qed.
Lemma matchAt_spec s r : matchAt s = Some r <-> exists h, partial_digits h /\ s = seam_attr h ++ r.
Proof.
  unfold matchAt. split.
  - destruct (String.prefix attrStart s) eqn:P; [|discriminate]. apply prefix_split in P. destruct P as (t & ->). rewrite sdrop_app. destruct (hexRun t) as [n rest] eqn:HR.
    destruct (hexRun_inv _ _ _ HR) as (h & -> & L & F). destruct (Nat.leb_spec 2 n); [|discriminate]. destruct rest as [|c rest]; [discriminate|]. unfold isQuote. destruct (Ascii.eqb_spec c (ascii_of_nat 34)) as [->|]; [|discriminate].
    intros E. injection E as <-. exists h. split; [split; [lia|exact F]|]. rewrite seam_unfold. reflexivity.
  - intros (h & (L & F) & ->). rewrite seam_unfold, prefix_app, sdrop_app. rewrite hexRun_app by (auto; reflexivity). destruct (Nat.leb_spec 2 (String.length h)); [|lia]. reflexivity.
Qed.
Lemma matchAt_none s : matchAt s = None <-> ~ starts_painted s.
Proof.
  split.
  - intros H (h & post & PD & E). assert (C : matchAt s = Some post) by (apply matchAt_spec; eauto). congruence.
  - intros H. destruct (matchAt s) as [r|] eqn:E; [|reflexivity]. exfalso. apply H. apply matchAt_spec in E. destruct E as (h & PD & E). exists h, r. auto.
Qed.

Lemma seam_len h post : (String.length post < String.length (seam_attr h ++ post))%nat.
Proof. rewrite seam_unfold, !slen_app. cbn [String.length]. lia. Qed.
Lemma subLoop_sound rep fuel : forall s, (String.length s < fuel)%nat -> replaced rep s (subLoop fuel rep s).
Proof.
  induction fuel as [|fuel IH]; intros s L; [lia|]. cbn [subLoop]. destruct (matchAt s) as [r|] eqn:M.
  - apply matchAt_spec in M. destruct M as (h & PD & ->). apply (replaced_first rep "" h r); [exact PD| |apply IH; assert (Q := seam_len h r); lia].
    intros u v E NE. destruct u; [|discriminate]. destruct v; [congruence|discriminate].
  - apply matchAt_none in M. destruct s as [|c s].
    + constructor. intros u v E. destruct u; [|discriminate]. destruct v; [exact M|discriminate].
    + assert (R := IH s ltac:(cbn in L; lia)). clear IH L. revert R. generalize (subLoop fuel rep s). intros s' R. inversion R as [s0 CT E1 E2|pre h post post' PD NB RP E1 E2].
      * subst s0 s'. constructor. intros u v E. destruct u as [|d u]; [cbn in E; subst v; exact M|]. cbn in E. injection E as <- E. exact (CT u v E).
      * subst s'. assert (G : replaced rep (String c pre ++ seam_attr h ++ post) (String c pre ++ rep ++ post')); [|exact G].
        apply (replaced_first rep (String c pre) h post post'); [exact PD| |exact RP]. intros u v E NE. destruct u as [|d u]; [cbn in E; subst v; change (String c pre ++ seam_attr h ++ post) with (String c (pre ++ seam_attr h ++ post)); rewrite E1; exact M|]. cbn in E. injection E as <- E. exact (NB u v E NE).
Qed.
Lemma subLoop_complete rep s s' : replaced rep s s' -> forall fuel, (String.length s < fuel)%nat -> subLoop fuel rep s = s'.
Proof.
  induction 1 as [s CT|pre h post post' PD NB RP IH].
  - induction s as [|c s IHs]; intros fuel L; destruct fuel as [|fuel]; try lia; cbn [subLoop].
    + assert (M : matchAt "" = None) by reflexivity. rewrite M. reflexivity.
    + rewrite (proj2 (matchAt_none (String c s)) (CT "" _ eq_refl)). f_equal. apply IHs; [|cbn in L; lia]. intros u v E. apply (CT (String c u) v). cbn. rewrite E. reflexivity.
  - induction pre as [|c pre IHp]; intros fuel L; destruct fuel as [|fuel]; try lia; cbn [subLoop].
    + cbn [append] in *. assert (M : matchAt (seam_attr h ++ post) = Some post) by (apply matchAt_spec; eauto). rewrite M. f_equal. apply IH. assert (Q := seam_len h post). eapply Nat.lt_le_trans; [exact Q|]. apply le_S_n. exact L.
    + rewrite (proj2 (matchAt_none (String c pre ++ seam_attr h ++ post)) (NB "" (String c pre) eq_refl ltac:(discriminate))). cbn [append]. f_equal. apply IHp; [|apply le_S_n; exact L].
      intros u v E NE. apply (NB (String c u) v); [cbn; rewrite E; reflexivity|exact NE].
Qed.
Theorem sub_spec rep s s' : sub rep s = s' <-> replaced rep s s'.
Proof. unfold sub. split; [intros <-; apply subLoop_sound; lia|intros H; apply (subLoop_complete _ _ _ H); lia]. Qed.

(* no character of an attribute but the first is a blank, a slash or a bracket *)
Definition sharp : list ascii := list_ascii_of_string " />".
Lemma tail_chars h x y c r : partial_digits h \/ h = "4" \/ h = "8" -> seam_attr h = x ++ y -> x <> "" -> y = String c r -> ~ In c sharp.
Proof.
  intros PD E NE ->. destruct x as [|d x]; [congruence|]. unfold seam_attr in E. cbn [append] in E. injection E as _ E.
  assert (IN : In c (list_ascii_of_string (x ++ String c r))) by (clear; induction x as [|e x IH]; cbn; auto). rewrite <- E in IN. clear E.
  assert (LA : forall a b, list_ascii_of_string (a ++ b) = (list_ascii_of_string a ++ list_ascii_of_string b)%list) by (intros a b; induction a as [|e a IH]; cbn; [reflexivity|rewrite IH; reflexivity]).
  assert (HX : In c (list_ascii_of_string h) -> ~ In c sharp).
  { intros Hc HS. assert (HH : In c hex_chars) by (destruct PD as [[_ F]|[->| ->]]; [apply F; exact Hc|cbn in *; tauto|cbn in *; tauto]).
    cbn in HS. destruct HS as [<-|[<-|[<-|[]]]]; cbn in HH; repeat (destruct HH as [HH|HH]; [discriminate HH|]); destruct HH. }
  cbn [list_ascii_of_string] in IN. rewrite LA in IN.
  repeat (destruct IN as [<-|IN]; [intros HS; cbn in HS; repeat (destruct HS as [HS|HS]; [discriminate HS|]); destruct HS|]).
  apply in_app_or in IN. destruct IN as [IN|[<-|[]]]; [exact (HX IN)|]. intros HS; cbn in HS; repeat (destruct HS as [HS|HS]; [discriminate HS|]); destruct HS.
Qed.
Lemma seam_first h : exists r, seam_attr h = String " " r.
Proof. eexists. reflexivity. Qed.
(* text after a replacement cannot complete an attribute that begins before it *)
Lemma crossing h' x w z : partial_digits h' -> x <> "" -> x ++ z = seam_attr h' ++ w ->
  (exists y, x = seam_attr h' ++ y) \/ (exists c r, z = String c r /\ ~ In c sharp).
Proof.
  intros PD NE E. destruct (sapp_eq_app _ _ _ _ E) as [(y & -> & _)|(y & NY & E1 & E2)]; [left; eauto|].
  destruct y as [|c y]; [congruence|]. right. exists c, (y ++ w). split; [exact E2|]. eapply tail_chars; [left; exact PD|exact E1|exact NE|reflexivity].
Qed.
Lemma digit_not_quote h : partial_digits h -> forall a b, h = a ++ String (ascii_of_nat 34) b -> False.
Proof.
  intros [_ F] a b ->. assert (I : In (ascii_of_nat 34) hex_chars) by (apply F; clear; induction a as [|e a IH]; cbn; auto). apply hexDigit_in in I. discriminate.
Qed.
Lemma filled_clean d s s' : d = "4" \/ d = "8" -> replaced (seam_attr d) s s' -> clean_text s'.
Proof.
  intros D. induction 1 as [s CT|pre h post post' PD NB RP IH]; [exact CT|]. intros u v E (h' & w & PD' & ->).
  destruct (sapp_eq_app _ _ _ _ E) as [(x & E1 & E2)|(x & NX & E1 & E2)].
  - destruct x as [|c x].
    + (* at the replacement *) cbn [append] in E2. rewrite !seam_unfold in E2. apply sapp_inv_head in E2. destruct PD' as [L F].
      destruct h' as [|c1 [|c2 h']]; cbn in L; try lia. cbn [append] in E2. apply (f_equal (fun s => match s with String _ (String c _) => c | _ => " "%char end)) in E2.
      assert (E3 : c2 = ascii_of_nat 34) by (destruct D as [->| ->]; exact E2). clear E2. subst c2.
      apply (digit_not_quote (String c1 (String (ascii_of_nat 34) h')) (conj L F) (String c1 "") h'); reflexivity.
    + symmetry in E2. destruct (crossing h' (String c x) w _ PD' ltac:(discriminate) E2) as [(y & Q)|(c' & r & Q & NS)].
      * apply (NB u (String c x) E1 ltac:(discriminate)). rewrite Q. exists h', (y ++ seam_attr h ++ post). split; [exact PD'|]. rewrite !sapp_assoc. reflexivity.
      * destruct (seam_first d) as (q & SF). rewrite SF in Q. cbn [append] in Q. injection Q as <- _. apply NS. left. reflexivity.
  - destruct (sapp_eq_app _ _ _ _ E2) as [(y & E3 & E4)|(y & NY & E3 & E4)].
    + destruct y as [|c y].
      * cbn [append] in E4. apply (IH "" post' eq_refl). exists h', w. split; [exact PD'|]. symmetry. exact E4.
      * destruct (seam_first h') as (q & SF). rewrite SF in E4. cbn [append] in E4. injection E4 as <- _.
        refine (tail_chars d x (String " " y) " " y _ E3 NX eq_refl _); [right; exact D|left; reflexivity].
    + subst x. apply (IH y (seam_attr h' ++ w) E4). exists h', w. auto.
Qed.
Definition follows (post : string) : Prop := post = "" \/ exists c r, post = String c r /\ In c sharp.
Lemma follows_kept s s' : replaced "" s s' -> xml_after s -> follows s -> follows s'.
Proof.
  induction 1 as [s CT|pre h post post' PD NB RP IH]; intros XA F; [exact F|]. assert (XP : xml_after post).
  { intros u h2 post2 PD2 ->. apply (XA (pre ++ seam_attr h ++ u) h2 post2 PD2). rewrite !sapp_assoc. reflexivity. }
  destruct pre as [|c pre].
  - cbn [append]. apply IH; [exact XP|]. apply (XA "" h post PD eq_refl).
  - cbn [append] in *. destruct F as [F|(c' & r & F & I)]; [discriminate|]. injection F as <- _. right. eauto.
Qed.
Lemma cleared_clean s s' : replaced "" s s' -> xml_after s -> clean_text s'.
Proof.
  induction 1 as [s CT|pre h post post' PD NB RP IH]; intros XA; [exact CT|]. assert (XP : xml_after post).
  { intros u h2 post2 PD2 ->. apply (XA (pre ++ seam_attr h ++ u) h2 post2 PD2). rewrite !sapp_assoc. reflexivity. }
  assert (FP : follows post') by (apply (follows_kept post); [exact RP|exact XP|apply (XA pre h post PD eq_refl)]).
  cbn [append]. intros u v E (h' & w & PD' & ->). destruct (sapp_eq_app _ _ _ _ E) as [(x & E1 & E2)|(x & NX & E1 & E2)].
  - destruct x as [|c x].
    + cbn [append] in E2. apply (IH XP "" post' eq_refl). exists h', w. auto.
    + symmetry in E2. destruct (crossing h' (String c x) w _ PD' ltac:(discriminate) E2) as [(y & Q)|(c' & r & Q & NS)].
      * apply (NB u (String c x) E1 ltac:(discriminate)). rewrite Q. exists h', (y ++ seam_attr h ++ post). split; [exact PD'|]. rewrite !sapp_assoc. reflexivity.
      * destruct FP as [FP|(c2 & r2 & FP & I)]; [congruence|]. rewrite FP in Q. injection Q as -> _. contradiction.
  - apply (IH XP x (seam_attr h' ++ w) E2). exists h', w. auto.
Qed.
