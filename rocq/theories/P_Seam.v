(** C45: cleaning seams in 3MF files (body/prusa/clean-3mf-seam.py). *)
From Coq Require Import Ascii String ZArith NArith List Bool Lia.
From Verif Require Import Num SeamModel SeamSpec SeamProof.
Import ListNotations.
Open Scope string_scope.

(* what a command writes instead of an attribute *)
Definition replacement (command rep : string) : Prop :=
  (command = "e" /\ rep = seam_attr "4") \/ (command = "b" /\ rep = seam_attr "8") \/ (command = "c" /\ rep = "").
Lemma REPLACE_spec command rep : REPLACE command = Some rep <-> replacement command rep.
Proof.
  unfold REPLACE, replacement. destruct (String.eqb_spec command "e") as [->|NE]; [split; [intros H; injection H as <-; left; auto|intros [[_ ->]|[[C _]|[C _]]]; [reflexivity|discriminate|discriminate]]|].
  destruct (String.eqb_spec command "b") as [->|NB]; [split; [intros H; injection H as <-; right; left; auto|intros [[C _]|[[_ ->]|[C _]]]; [discriminate|reflexivity|discriminate]]|].
  destruct (String.eqb_spec command "c") as [->|NC]; [split; [intros H; injection H as <-; right; right; auto|intros [[C _]|[[C _]|[_ ->]]]; [discriminate|discriminate|reflexivity]]|].
  split; [discriminate|]. intros [[-> _]|[[-> _]|[-> _]]]; congruence.
Qed.
(* an archive as the program sees it: member names, and what a name contains *)
Definition has (z : archive) (n : string) : Prop := In n (map fst z).
(* the content of the last member of that name *)
Definition content (z : archive) (n d : string) : Prop := exists before after, z = (before ++ (n, d) :: after)%list /\ ~ has after n.
Lemma zread_content z n : has z n -> content z n (zread z n).
Proof.
  unfold zread, has. induction z as [|m z IH] using rev_ind; [intros []|]. intros H. rewrite rev_app_distr. cbn [rev app find].
  destruct (String.eqb_spec n (fst m)) as [->|NE].
  - exists z, []. split; [destruct m; reflexivity|intros []].
  - assert (HZ : In n (map fst z)) by (rewrite map_app in H; apply in_app_or in H; destruct H as [H|[H|[]]]; [exact H|congruence]).
    destruct (IH HZ) as (b & a & E & NA). exists b, (a ++ [m])%list. split; [rewrite E at 1; rewrite <- app_assoc; reflexivity|].
    unfold has. rewrite map_app. intros C. apply in_app_or in C. destruct C as [C|[C|[]]]; [exact (NA C)|congruence].
Qed.
Lemma content_unique z n d d' : content z n d -> content z n d' -> d = d'.
Proof.
  intros (b & a & -> & N) (b' & a' & E & N'). revert b' E. induction b as [|m b IH]; intros [|m' b'] E.
  - injection E as <- _. reflexivity.
  - exfalso. apply N. injection E as <- ->. unfold has. rewrite map_app. apply in_or_app. right. left. reflexivity.
  - exfalso. apply N'. injection E as -> <-. unfold has. rewrite map_app. apply in_or_app. right. left. reflexivity.
  - injection E as -> E. exact (IH _ E).
Qed.
Lemma names_spec z : forall seen, NoDup (names seen z) /\ forall n, In n (names seen z) <-> In n (map fst z) /\ ~ In n seen.
Proof.
  induction z as [|[n d] z IH]; intros seen; [split; [constructor|cbn; tauto]|]. cbn [names map fst]. destruct (existsb (String.eqb n) seen) eqn:E.
  - destruct (IH seen) as [ND IN]. split; [exact ND|]. intros m. rewrite IN. cbn. apply existsb_exists in E. destruct E as (x & Hx & E). apply String.eqb_eq in E. subst x. split; [tauto|].
    intros [[->|H] NS]; [contradiction|tauto].
  - destruct (IH (n :: seen)) as [ND IN]. assert (NS : ~ In n seen) by (intros C; assert (existsb (String.eqb n) seen = true) by (apply existsb_exists; exists n; split; [exact C|apply String.eqb_refl]); congruence). split.
    + constructor; [|exact ND]. rewrite IN. cbn. tauto.
    + intros m. cbn [In]. rewrite IN. cbn [In]. split.
      * intros [<-|[H1 H2]]; [split; [left; reflexivity|exact NS]|split; [right; exact H1|tauto]].
      * intros [[<-|H1] H2]; [left; reflexivity|]. destruct (String.eqb_spec n m) as [<-|NE]; [left; reflexivity|right]. split; [exact H1|]. intros [C|C]; [congruence|contradiction].
Qed.
Lemma names_nodup z : forall seen, NoDup (map fst z) -> (forall n, In n (map fst z) -> ~ In n seen) -> names seen z = map fst z.
Proof.
  induction z as [|[n d] z IH]; intros seen ND F; [reflexivity|]. cbn [names map fst] in *. inversion ND as [|? ? N1 N2]. subst.
  replace (existsb (String.eqb n) seen) with false. 2:{ symmetry. apply not_true_is_false. intros C. apply existsb_exists in C. destruct C as (x & Hx & E). apply String.eqb_eq in E. subst x. apply (F n); [left; reflexivity|exact Hx]. }
  f_equal. apply IH; [exact N2|]. intros m Hm [C|C]; [subst m; contradiction|]. apply (F m); [right; exact Hm|exact C].
Qed.

(* the text: exactly the painted attributes, found from the left, are replaced *)
Theorem C45_text : forall rep s s', sub rep s = s' <-> replaced rep s s'.
Proof. exact sub_spec. Qed.
Print Assumptions C45_text.
(* a run on an archive with a model: the file is truncated, grows, and ends as
   an archive with the same names in which only the model has changed *)
Theorem C45_archive : forall script path command more z rep, replacement command rep -> has z "3D/3dmodel.model" ->
  exists writing z' model model', clean (script :: path :: command :: more) (Archive z) = ((writing ++ [Archive z'])%list, None) /\
    (forall d, In d writing -> exists part rest, d = Unfinished part /\ z' = (part ++ rest)%list) /\
    NoDup (map fst z') /\ (forall n, has z' n <-> has z n) /\ (NoDup (map fst z) -> map fst z' = map fst z) /\
    content z "3D/3dmodel.model" model /\ replaced rep model model' /\ content z' "3D/3dmodel.model" model' /\
    (forall n d, n <> "3D/3dmodel.model" -> content z n d -> content z' n d).
Proof.
  intros script path command more z rep R H. apply REPLACE_spec in R. unfold clean. rewrite R. fold MODEL in *.
  destruct (names_spec z []) as [ND IN]. assert (HM : In MODEL (names [] z)) by (apply IN; split; [exact H|intros []]).
  assert (FR : find (fun m => String.eqb MODEL (fst m)) (readZip z) = Some (MODEL, zread z MODEL)).
  { unfold readZip. revert HM. generalize (names [] z). clear. induction l as [|n l IH]; [intros []|]. intros HM. cbn [map find fst].
    destruct (String.eqb_spec MODEL n) as [<-|NE]; [reflexivity|]. apply IH. destruct HM; [congruence|assumption]. }
  rewrite FR. cbn [snd]. set (model' := sub rep (zread z MODEL)). set (z' := setFile (readZip z) MODEL model').
  assert (ZE : z' = map (fun n => (n, if String.eqb n MODEL then model' else zread z n)) (names [] z)).
  { unfold z', setFile, readZip. rewrite map_map. apply map_ext. intros n. cbn [fst]. destruct (String.eqb_spec n MODEL) as [->|]; reflexivity. }
  assert (ZN : map fst z' = names [] z) by (rewrite ZE, map_map; cbn [fst]; apply map_id).
  assert (CI : forall n d, In (n, d) z' -> content z' n d).
  { intros n d Hin. assert (ND' : NoDup (map fst z')) by (rewrite ZN; exact ND). apply in_split in Hin. destruct Hin as (b & a & E). exists b, a. split; [exact E|].
    rewrite E, map_app in ND'. cbn [map fst] in ND'. apply NoDup_remove_2 in ND'. intros C. apply ND'. apply in_or_app. right. exact C. }
  exists (map (fun k => Unfinished (firstn k z')) (seq 0 (S (length z')))), z', (zread z MODEL), model'.
  split; [reflexivity|]. split.
  { intros d Hd. apply in_map_iff in Hd. destruct Hd as (k & <- & _). exists (firstn k z'), (skipn k z'). split; [reflexivity|]. symmetry. apply firstn_skipn. }
  split; [rewrite ZN; exact ND|]. split; [intros n; unfold has; rewrite ZN, IN; cbn; tauto|]. split; [intros NZ; rewrite ZN; apply names_nodup; [exact NZ|intros n _ []]|].
  split; [apply zread_content; exact H|]. split; [apply sub_spec; reflexivity|]. split.
  - apply CI. rewrite ZE. apply in_map_iff. exists MODEL. split; [rewrite String.eqb_refl; reflexivity|exact HM].
  - intros n d NM C. assert (HN : has z n) by (destruct C as (b & a & -> & _); unfold has; rewrite map_app; apply in_or_app; right; left; reflexivity).
    rewrite (content_unique _ _ _ _ C (zread_content z n HN)). apply CI. rewrite ZE. apply in_map_iff. exists n. split; [destruct (String.eqb_spec n MODEL); [contradiction|reflexivity]|]. apply IN. split; [exact HN|intros []].
Qed.
Print Assumptions C45_archive.
(* otherwise the file is not touched: arguments missing, no archive, unknown
   command or no model *)
Theorem C45_failure_untouched : forall argv d states e, clean argv d = (states, Some e) -> states = [].
Proof.
  intros [|a [|b [|c r]]] d states e H; cbn in H; try (injection H as <- _; reflexivity). destruct d as [z| |]; try (injection H as <- _; reflexivity).
  destruct (REPLACE c); [|injection H as <- _; reflexivity]. destruct (find _ _); [discriminate|injection H as <- _; reflexivity].
Qed.
Print Assumptions C45_failure_untouched.
Theorem C45_fails : forall script path command more z,
  (forall rep, ~ replacement command rep) \/ ~ has z "3D/3dmodel.model" ->
  clean (script :: path :: command :: more) (Archive z) = ([], Some KeyErr).
Proof.
  intros script path command more z H. unfold clean. destruct (REPLACE command) as [rep|] eqn:R; [|reflexivity]. destruct H as [H|H]; [exfalso; apply (H rep); apply REPLACE_spec; exact R|].
  destruct (find _ (readZip z)) as [m|] eqn:F; [|reflexivity]. exfalso. apply H. apply find_some in F. destruct F as [F1 F2]. apply String.eqb_eq in F2. unfold readZip in F1. apply in_map_iff in F1. destruct F1 as (n & <- & F1).
  cbn in F2. subst n. apply (names_spec z []) in F1. exact (proj1 F1).
Qed.
Print Assumptions C45_fails.
(* after filling no painted attribute is left, so filling again changes nothing *)
Theorem C45_fill_complete : forall command rep s s', replacement command rep -> command <> "c" -> replaced rep s s' ->
  clean_text s' /\ replaced rep s' s'.
Proof.
  intros command rep s s' [[-> ->]|[[-> ->]|[-> ->]]] NC R; [| |congruence].
  - assert (C := filled_clean "4" s s' (or_introl eq_refl) R). split; [exact C|constructor; exact C].
  - assert (C := filled_clean "8" s s' (or_intror eq_refl) R). split; [exact C|constructor; exact C].
Qed.
Print Assumptions C45_fill_complete.
(* the same for clearing, in texts where an attribute is followed by white
   space, a slash or a bracket, as in XML *)
Theorem C45_clear_complete_partial : forall s s', xml_after s -> replaced "" s s' -> clean_text s' /\ replaced "" s' s'.
Proof. intros s s' X R. assert (C := cleared_clean s s' R X). split; [exact C|constructor; exact C]. Qed.
Print Assumptions C45_clear_complete_partial.
(* but not in every text: removing one attribute can put the parts of another together *)
Theorem C45_clear_again_refuted : exists s s' s'', replaced "" s s' /\ replaced "" s' s'' /\ s'' <> s'.
Proof.
  set (s := " slic3rpe:custom_seam=" ++ dq ++ seam_attr "AB" ++ "CD" ++ dq). exists s, (sub "" s), (sub "" (sub "" s)).
  split; [apply sub_spec; reflexivity|]. split; [apply sub_spec; reflexivity|]. vm_compute. discriminate.
Qed.
Print Assumptions C45_clear_again_refuted.

(* a model with three triangles *)
Definition demoModel : string := "<t" ++ seam_attr "4" ++ "/><t v1=" ++ dq ++ "7" ++ dq ++ seam_attr "0F8" ++ "/><t" ++ seam_attr "ab" ++ seam_attr "AB" ++ seam_attr "ABC" ++ "/>".
Example C45_computes :
  sub (seam_attr "4") demoModel = "<t" ++ seam_attr "4" ++ "/><t v1=" ++ dq ++ "7" ++ dq ++ seam_attr "4" ++ "/><t" ++ seam_attr "ab" ++ seam_attr "4" ++ seam_attr "4" ++ "/>" /\
  sub "" demoModel = "<t" ++ seam_attr "4" ++ "/><t v1=" ++ dq ++ "7" ++ dq ++ "/><t" ++ seam_attr "ab" ++ "/>" /\
  snd (clean ["clean"; "f.3mf"; "b"] (Archive [("x", "1"); ("3D/3dmodel.model", demoModel); ("x", "2")])) = None /\
  last (fst (clean ["clean"; "f.3mf"; "b"] (Archive [("x", "1"); ("3D/3dmodel.model", demoModel); ("x", "2")]))) Unreadable =
    Archive [("x", "2"); ("3D/3dmodel.model", sub (seam_attr "8") demoModel)].
Proof. vm_compute. repeat split. Qed.
Example C45_nonvacuous : replacement "e" (seam_attr "4") /\ has [("3D/3dmodel.model", demoModel)] "3D/3dmodel.model" /\
  xml_after ("<t" ++ seam_attr "ABC" ++ "/>").
Proof.
  split; [left; auto|]. split; [left; reflexivity|]. intros u h post PD E.
  (* an attribute starts with a blank, and the text has only one *)
  assert (U : u = "<t").
  { destruct u as [|c1 [|c2 [|c3 u]]]; try discriminate E; [cbn in E; injection E as <- <- _; reflexivity|]. exfalso. unfold seam_attr, dq in E. cbn [append] in E. injection E as _ _ _ E.
    assert (NB : forall s t, s = t -> In " "%char (list_ascii_of_string t) -> In " "%char (list_ascii_of_string s)) by (intros ? ? ->; auto).
    assert (B : In " "%char (list_ascii_of_string (u ++ String " " (String "s" "")))).
    { clear. induction u as [|c u IH]; [left; reflexivity|right; exact IH]. }
    clear B. assert (B : forall r, In " "%char (list_ascii_of_string (u ++ String " " r))) by (intros r; clear; induction u as [|c u IH]; [left; reflexivity|right; exact IH]).
    specialize (NB _ _ E (B _)). cbn in NB. repeat (destruct NB as [NB|NB]; [discriminate NB|]). destruct NB. }
  subst u. apply (sapp_inv_head "<t") in E. rewrite !seam_unfold in E. apply sapp_inv_head in E. destruct PD as [L F].
  assert (H : forall a b p q, (forall c, In c (list_ascii_of_string a) -> In c hex_chars) -> (forall c, In c (list_ascii_of_string b) -> In c hex_chars) ->
    a ++ String (ascii_of_nat 34) p = b ++ String (ascii_of_nat 34) q -> p = q).
  { clear. assert (NQ : ~ In (ascii_of_nat 34) hex_chars) by (intros C; apply hexDigit_in in C; discriminate).
    induction a as [|x a IH]; intros [|y b] p q FA FB E; cbn [append] in E.
    - apply (f_equal (fun s => match s with String _ r => r | _ => "" end)) in E. exact E.
    - assert (E1 := f_equal (fun s => match s with String c _ => c | _ => " "%char end) E). exfalso. apply NQ. cbv beta iota in E1. rewrite E1. apply FB. left. reflexivity.
    - assert (E1 := f_equal (fun s => match s with String c _ => c | _ => " "%char end) E). exfalso. apply NQ. cbv beta iota in E1. rewrite <- E1. apply FA. left. reflexivity.
    - apply (f_equal (fun s => match s with String _ r => r | _ => "" end)) in E. apply (IH b p q); [intros c Hc; apply FA; right; exact Hc|intros c Hc; apply FB; right; exact Hc|exact E]. }
  right. exists "/"%char, ">". split; [|cbn; auto]. symmetry. apply (H "ABC" h); [|exact F|exact E]. intros c Hc. cbn in Hc. apply hexDigit_in. destruct Hc as [<-|[<-|[<-|[]]]]; reflexivity.
Qed.
