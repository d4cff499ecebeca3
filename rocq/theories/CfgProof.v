(** Proofs about configuration merging. *)
From Coq Require Import Ascii String Arith List Bool Lia.
From Verif Require Import Num FaceModel FaceComb CfgModel CfgSpec.
Import ListNotations.
Open Scope string_scope.
Open Scope list_scope.

(* the model's name tests are those of the specification *)
Lemma private_ok k : underscored k = private k.
Proof. destruct k as [|c r]; [reflexivity|]. cbn. rewrite orb_false_r. reflexivity. Qed.
Lemma public_ok k : isidentifier k && negb (underscored k) = public k.
Proof.
  assert (A : forall c, letter c && negb (Ascii.eqb c "_") = one_of "ABCDEFGHIJKLMNOPQRSTUVWXYZabcdefghijklmnopqrstuvwxyz" c) by (intros [[] [] [] [] [] [] [] []]; reflexivity).
  assert (B : forall c, letter c || digit c = one_of "ABCDEFGHIJKLMNOPQRSTUVWXYZabcdefghijklmnopqrstuvwxyz0123456789_" c) by (intros [[] [] [] [] [] [] [] []]; reflexivity).
  destruct k as [|c r]; [reflexivity|]. cbn [isidentifier underscored]. unfold public. cbn [list_ascii_of_string]. rewrite <- A.
  rewrite <- !andb_assoc, (andb_comm (all_chars _ _)). f_equal. f_equal.
  induction r as [|d r IH]; [reflexivity|]. cbn [all_chars list_ascii_of_string forallb]. rewrite B, IH. reflexivity.
Qed.
Lemma lower_length s : String.length (lower s) = String.length s.
Proof. induction s; cbn; congruence. Qed.
Lemma angle_ok k : endswith (lower k) "angle" = angle_name k.
Proof.
  assert (LA : forall c, Ascii.eqb (lower_char c) "a" = one_of "aA" c) by (intros [[] [] [] [] [] [] [] []]; reflexivity).
  assert (LN : forall c, Ascii.eqb (lower_char c) "n" = one_of "nN" c) by (intros [[] [] [] [] [] [] [] []]; reflexivity).
  assert (LG : forall c, Ascii.eqb (lower_char c) "g" = one_of "gG" c) by (intros [[] [] [] [] [] [] [] []]; reflexivity).
  assert (LL : forall c, Ascii.eqb (lower_char c) "l" = one_of "lL" c) by (intros [[] [] [] [] [] [] [] []]; reflexivity).
  assert (LE : forall c, Ascii.eqb (lower_char c) "e" = one_of "eE" c) by (intros [[] [] [] [] [] [] [] []]; reflexivity).
  assert (NE : forall s : string, String.length s <> 5%nat -> String.eqb (lower s) "angle" = false).
  { intros s H. apply String.eqb_neq. intros E. apply H. rewrite <- lower_length, E. reflexivity. }
  induction k as [|c r IH]; [reflexivity|].
  cbn [lower endswith]. change (String (lower_char c) (lower r)) with (lower (String c r)). rewrite IH.
  destruct (Nat.lt_trichotomy (String.length r) 4) as [L|[L|L]].
  - rewrite NE by (cbn; lia). unfold angle_name. destruct r as [|c1 [|c2 [|c3 [|c4 r]]]]; try reflexivity. cbn in L. lia.
  - destruct r as [|c1 [|c2 [|c3 [|c4 [|c5 r]]]]]; try discriminate. unfold angle_name. cbn [list_ascii_of_string rev app lower String.eqb].
    rewrite LA, LN, LG, LL, LE. destruct (one_of "aA" c), (one_of "nN" c1), (one_of "gG" c2), (one_of "lL" c3), (one_of "eE" c4); reflexivity.
  - rewrite NE by (cbn; lia). unfold angle_name. cbn [list_ascii_of_string rev]. destruct (rev (list_ascii_of_string r)) as [|d1 [|d2 [|d3 [|d4 [|d5 l]]]]] eqn:E; try reflexivity; exfalso;
    assert (M : List.length (rev (list_ascii_of_string r)) = String.length r) by (rewrite rev_length; clear; induction r; cbn; congruence); rewrite E in M; cbn in M; lia.
Qed.

Section Proofs.
Context {N : Num}.
Variable radians : num -> num.
Notation mergeDicts := (mergeDicts radians).
Notation says := (says radians).
Notation meaning := (meaning radians).

(* induction over nested objects *)
Lemma json_rect' (P : json -> Prop) : (forall j, match j with JObj _ => False | _ => True end -> P j) ->
  (forall items, (forall k v, In (k, v) items -> P v) -> P (JObj items)) -> forall j, P j.
Proof.
  intros H1 H2. fix IH 1. intros j. destruct j as [| | | | |items]; try (apply H1; exact I). apply H2.
  induction items as [|[k v] items IHl]; intros l w []; [|apply (IHl _ _ H)].
  injection H as E1 E2. rewrite <- E2. apply IH.
Qed.

Lemma dget_put d k v l : dget (dput d k v) l = if String.eqb l k then Some v else dget d l.
Proof.
  induction d as [|[a b] d IH]; cbn.
  - reflexivity.
  - destruct (String.eqb_spec k a) as [->|NE]; cbn.
    + destruct (String.eqb_spec l a); reflexivity.
    + rewrite IH. destruct (String.eqb_spec l a) as [->|]; [|reflexivity]. destruct (String.eqb_spec a k); [congruence|reflexivity].
Qed.

(* the step for one item *)
Definition step (t : dict) (kv : string * json) : res dict :=
  if public (fst kv) then
    match snd kv with
    | JObj items => match dget t (fst kv) with
        | None => d <- mergeDicts (JObj items) [] ;; Ok (dput t (fst kv) (CNs d))
        | Some (CNs d) => d <- mergeDicts (JObj items) d ;; Ok (dput t (fst kv) (CNs d))
        | Some (CLeaf _) => Err AttrErr
        end
    | v => w <- leafValue radians (fst kv) v ;; Ok (dput t (fst kv) (CLeaf w))
    end
  else Ok t.
Lemma merge_obj items : forall t, mergeDicts (JObj items) t = foldM step t items.
Proof.
  induction items as [|[k v] items IH]; intros t; [reflexivity|]. cbn [foldM].
  transitivity (t' <- step t (k, v) ;; mergeDicts (JObj items) t'); [|destruct (step t (k, v)); [apply IH|reflexivity]].
  cbn [CfgModel.mergeDicts]. unfold step. cbn [fst snd]. rewrite public_ok.
  match goal with |- bind ?a _ = bind ?b _ => assert (E : a = b) end; [|rewrite E; reflexivity].
  destruct (public k); [|reflexivity]. destruct v; reflexivity.
Qed.
Lemma leafValue_ok k v w : leafValue radians k v = Ok w -> w = meaning k v.
Proof. unfold leafValue, CfgSpec.meaning. rewrite angle_ok. destruct (angle_name _); [destruct v; try discriminate|]; intros H; okinv H; reflexivity. Qed.

(* what one item does to a path *)
Definition item_says (kv : string * json) (path : list string) : option (option found) :=
  match path with
  | [] => None
  | k :: r => if String.eqb k (fst kv) then says (JObj [kv]) path else None
  end.
Lemma says_obj items k r : NoDup (map fst items) ->
  says (JObj items) (k :: r) = fold_left (fun acc kv => match item_says kv (k :: r) with Some x => Some x | None => acc end) items None.
Proof.
  assert (G : forall items acc, NoDup (map fst items) ->
    fold_left (fun acc kv => match item_says kv (k :: r) with Some x => Some x | None => acc end) items acc =
    match says (JObj items) (k :: r) with Some x => Some x | None => acc end).
  { clear. induction items as [|kv items IH]; intros acc ND; cbn [fold_left].
    - cbn [CfgSpec.says member find option_map]. destruct (public k); reflexivity.
    - inversion ND as [|? ? NI ND']; subst. rewrite IH by exact ND'. cbn [item_says]. 
      cbn [CfgSpec.says]. destruct (public k); cbn [member find]; [|destruct (String.eqb k (fst kv)); reflexivity].
      destruct (String.eqb_spec k (fst kv)) as [E|NE]; [|reflexivity]. subst k.
      assert (F : find (fun kv' => String.eqb (fst kv) (fst kv')) items = None).
      { destruct (find _ items) as [x|] eqn:F; [|reflexivity]. apply find_some in F. destruct F as [F1 F2]. apply String.eqb_eq in F2.
        exfalso. apply NI. rewrite F2. apply in_map, F1. }
      rewrite F. cbn [option_map]. reflexivity. }
  intros ND. rewrite G by exact ND. destruct (says _ _); reflexivity.
Qed.
Lemma says_group kv k r : fst kv = k -> public k = true -> says (JObj [kv]) (k :: r) =
  match snd kv with
  | JObj items => match r with [] => Some (Some Group) | _ => says (JObj items) r end
  | v => match r with [] => Some (Some (Value (meaning k v))) | _ => Some None end
  end.
Proof. intros E PB. cbn [CfgSpec.says member find]. rewrite PB, E, String.eqb_refl. cbn [option_map]. destruct (snd kv); reflexivity. Qed.
Lemma wf_obj items : wf_json (JObj items) -> NoDup (map fst items) /\ forall k v, In (k, v) items -> wf_json v.
Proof.
  cbn. intros [ND A]. split; [exact ND|]. clear ND. induction items as [|kv items IH]; intros k v []; destruct A as [A1 A2].
  - subst kv. exact A1.
  - eapply IH; eauto.
Qed.
Lemma attr_put d k v path : path <> [] -> attr (dput d k v) path =
  if String.eqb (hd EmptyString path) k then attr [(k, v)] path else attr d path.
Proof.
  destruct path as [|l r]; [congruence|]. intros _. cbn [attr hd dget]. rewrite dget_put. destruct (String.eqb_spec l k); reflexivity.
Qed.

Theorem merge_attr j : wf_json j -> forall t t', mergeDicts j t = Ok t' -> forall path,
  attr t' path = match says j path with Some r => r | None => attr t path end.
Proof.
  induction j as [j NO|items IH] using json_rect'; intros W t t' H path.
  { destruct j; try discriminate; destruct NO. }
  rewrite merge_obj in H. destruct (wf_obj _ W) as [ND WI]. clear W.
  destruct path as [|k r]; [reflexivity|]. rewrite says_obj by exact ND.
  assert (ST : forall kv t t', In kv items -> step t kv = Ok t' -> attr t' (k :: r) = match item_says kv (k :: r) with Some x => x | None => attr t (k :: r) end).
  { clear t t' H. intros [l v] t t' Hin H. unfold step in H. cbn [fst snd item_says] in *. destruct (public l) eqn:PB.
    2:{ okinv H. destruct (String.eqb_spec k l); [|reflexivity]. subst. cbn [CfgSpec.says]. rewrite PB. reflexivity. }
    destruct (String.eqb_spec k l) as [E|NE].
    - subst l. rewrite says_group by auto. cbn [snd].
      assert (LF : (w <- leafValue radians k v ;; Ok (dput t k (CLeaf w))) = Ok t' -> attr t' (k :: r) = match r with [] => Some (Value (meaning k v)) | _ => None end).
      { intros H'. apply bind_ok in H'. destruct H' as (w & Ew & H'). apply Ok_inj in H'. subst t'. apply leafValue_ok in Ew. subst w.
        cbn [attr]. rewrite dget_put, String.eqb_refl. reflexivity. }
      destruct v as [|b|x|s|vs|its]; try (destruct r; exact (LF H)). clear LF.
      assert (OB : forall d0, mergeDicts (JObj its) d0 = Ok d0 -> True) by auto. clear OB.
      assert (OB : forall d0 d1, mergeDicts (JObj its) d0 = Ok d1 -> attr (dput t k (CNs d1)) (k :: r) = match r with [] => Some Group | _ => match says (JObj its) r with Some x => x | None => attr d0 r end end).
      { intros d0 d1 E. cbn [attr]. rewrite dget_put, String.eqb_refl. destruct r as [|k' r']; [reflexivity|]. apply (IH k (JObj its) Hin (WI _ _ Hin) _ _ E). }
      destruct (dget t k) as [[w|d]|] eqn:G; [discriminate| |]; apply bind_ok in H; destruct H as (d1 & E & H); apply Ok_inj in H; subst t'; rewrite (OB _ _ E).
      + destruct r as [|k' r']; [reflexivity|]. cbn [attr]. rewrite G. destruct (says (JObj its) (k' :: r')); reflexivity.
      + destruct r as [|k' r']; [reflexivity|]. cbn [attr]. rewrite G. destruct (says (JObj its) (k' :: r')); reflexivity.
    - assert (PU : forall w, attr (dput t l w) (k :: r) = attr t (k :: r)).
      { intros w. cbn [attr]. rewrite dget_put. destruct (String.eqb_spec k l); [contradiction|reflexivity]. }
      destruct v; try (apply bind_ok in H; destruct H as (w & _ & H); apply Ok_inj in H; subst t'; apply PU).
      destruct (dget t l) as [[w|d]|]; [discriminate| |]; apply bind_ok in H; destruct H as (d1 & _ & H); apply Ok_inj in H; subst t'; apply PU. }
  clear ND WI IH.
  assert (G : forall its t, incl its items -> forall acc, (forall d, match acc with Some x => x | None => attr d (k :: r) end = match acc with Some x => x | None => attr d (k :: r) end) ->
    foldM step t its = Ok t' -> forall t0, attr t (k :: r) = match acc with Some x => x | None => attr t0 (k :: r) end ->
    attr t' (k :: r) = match fold_left (fun acc kv => match item_says kv (k :: r) with Some x => Some x | None => acc end) its acc with Some x => x | None => attr t0 (k :: r) end).
  { clear t H. induction its as [|kv its IH]; intros t INC acc _ H t0 E; cbn [foldM fold_left] in *.
    - apply Ok_inj in H. subst t'. exact E.
    - apply bind_ok in H. destruct H as (t1 & E1 & H). apply (IH t1); [intros x Hx; apply INC; right; exact Hx|auto|exact H|].
      rewrite (ST kv t t1 (INC kv (or_introl eq_refl)) E1). destruct (item_says kv (k :: r)); [reflexivity|exact E]. }
  apply (G items t (incl_refl _) None); auto.
Qed.

Lemma dget_filter (f : string -> bool) d k : dget (filter (fun kv => f (fst kv)) d) k = if f k then dget d k else None.
Proof.
  induction d as [|[l v] d IH]; cbn; [destruct (f k); reflexivity|]. destruct (f l) eqn:F; cbn [dget]; rewrite IH.
  - destruct (String.eqb_spec k l) as [->|]; [rewrite F; reflexivity|reflexivity].
  - destruct (String.eqb_spec k l) as [->|]; [rewrite F; reflexivity|reflexivity].
Qed.
Theorem cfgInit_attr parse globals strings g : (forall s j, parse s = Ok j -> wf_json j) -> cfgInit radians parse globals strings = Ok g ->
  exists files, mapM parse strings = Ok files /\ forall path,
    attr g path = last_says radians files path (if private (hd EmptyString path) then attr globals path else None).
Proof.
  intros W H. unfold cfgInit in H. set (g0 := filter _ globals) in H.
  assert (A0 : forall path, attr g0 path = if private (hd EmptyString path) then attr globals path else None).
  { intros [|k r]; [reflexivity|]. cbn [attr hd]. unfold g0. rewrite (dget_filter underscored), private_ok. destruct (private k); reflexivity. }
  assert (G : forall strings g0, foldM (fun g s => j <- parse s ;; mergeDicts j g) g0 strings = Ok g -> exists files, mapM parse strings = Ok files /\ forall path, attr g path = last_says radians files path (attr g0 path)).
  { clear -W. induction strings as [|s strings IH]; intros g0 H; cbn [foldM mapM] in *.
    - okinv H. exists []. split; reflexivity.
    - apply bind_ok in H. destruct H as (g1 & E1 & H). apply bind_ok in E1. destruct E1 as (j & Ej & E1). destruct (IH _ H) as (files & F1 & F2).
      exists (j :: files). rewrite Ej, F1. split; [reflexivity|]. intros path. rewrite F2. unfold last_says. cbn [fold_left]. rewrite (merge_attr j (W _ _ Ej) _ _ E1 path). reflexivity. }
  destruct (G _ _ H) as (files & F1 & F2). exists files. split; [exact F1|]. intros path. rewrite F2, A0. reflexivity.
Qed.

(** ** when merging succeeds *)
Definition good (j : json) : Prop := match j with JObj _ => True | _ => False end.
Lemma angles_obj items : angles_ok (JObj items) -> forall k v, In (k, v) items -> public k = true ->
  match v with JObj _ => angles_ok v | JNum _ | JBool _ => True | _ => angle_name k = false end.
Proof.
  cbn. induction items as [|kv items IH]; intros A k v []; destruct A as [A1 A2].
  - subst kv. exact A1.
  - apply IH; assumption.
Qed.
Lemma angles_obj' items : (forall k v, In (k, v) items -> public k = true ->
  match v with JObj _ => angles_ok v | JNum _ | JBool _ => True | _ => angle_name k = false end) -> angles_ok (JObj items).
Proof.
  cbn. induction items as [|[k v] items IH]; intros A; [exact I|]. split; [apply (A k v); left; reflexivity|]. apply IH. intros l w Hw. apply A. right. exact Hw.
Qed.
Lemma leafValue_total k v : (match v with JObj _ => True | JNum _ | JBool _ => True | _ => angle_name k = false end) -> match v with JObj _ => True | _ => exists w, leafValue radians k v = Ok w end.
Proof. unfold leafValue. rewrite angle_ok. destruct v; intros H; try rewrite H; try (destruct (angle_name _)); eauto. Qed.
(* raising: exactly a value that is not an object, an angle that is not a number, or a clash *)
Theorem merge_total j : wf_json j -> forall t, (exists t', mergeDicts j t = Ok t') <-> good j /\ angles_ok j /\ ~ clash radians j t.
Proof.
  induction j as [j NO|items IH] using json_rect'; intros W t.
  { destruct j; try (destruct NO; fail); (split; [intros (t' & H); cbn in H; discriminate|intros ([] & _)]). }
  rewrite (merge_obj items t). destruct (wf_obj _ W) as [ND WI]. clear W.
  (* items are independent: run the fold from any t that agrees with t on the remaining keys *)
  assert (SG : forall k its r, In (k, JObj its) items -> public k = true -> says (JObj items) (k :: r) = match r with [] => Some (Some Group) | _ => says (JObj its) r end).
  { intros k its r Hin PB. cbn [CfgSpec.says member]. rewrite PB.
    assert (F : find (fun kv => String.eqb k (fst kv)) items = Some (k, JObj its)).
    { clear -ND Hin. induction items as [|kv items IHi]; [destruct Hin|]. cbn [find]. inversion ND as [|? ? NI ND']; subst. destruct Hin as [->|Hin].
      - cbn. rewrite String.eqb_refl. reflexivity.
      - destruct (String.eqb_spec k (fst kv)) as [E|]; [|auto]. exfalso. apply NI. rewrite <- E. apply (in_map fst) in Hin. exact Hin. }
    rewrite F. reflexivity. }
  assert (ST : forall kv s, In kv items -> (forall x, dget s (fst kv) = x <-> dget t (fst kv) = x) ->
     ((exists s', step s kv = Ok s') <-> (public (fst kv) = true -> match snd kv with JObj _ => angles_ok (snd kv) | JNum _ | JBool _ => True | _ => angle_name (fst kv) = false end) /\
        (forall path v, hd EmptyString path = fst kv -> says (JObj items) path = Some (Some Group) -> attr t path = Some (Value v) -> False))).
  { intros [k v] s Hin AG. cbn [fst snd] in *. assert (AG' : dget s k = dget t k) by (apply AG; reflexivity). unfold step. cbn [fst snd].
    destruct (public k) eqn:PB.
    2:{ split; [intros _; split; [discriminate|]|eauto]. intros path w E S _. destruct path as [|k' r]; [discriminate|]. cbn [hd] in E. subst k'. cbn [CfgSpec.says] in S. rewrite PB in S. discriminate. }
    assert (LF : (match v with JObj _ => False | _ => True end) -> ((exists s', (w <- leafValue radians k v ;; Ok (dput s k (CLeaf w))) = Ok s') <-> match v with JNum _ | JBool _ => True | _ => angle_name k = false end)).
    { intros NO. split.
      - intros (s' & H). apply bind_ok in H. destruct H as (w & Ew & _). unfold leafValue in Ew. rewrite angle_ok in Ew. destruct v; auto; destruct (angle_name k); auto; discriminate.
      - intros H. pose proof (leafValue_total k v) as L. destruct v; try destruct NO; destruct (L H) as (w & ->); cbn; eauto. }
    assert (NG : (match v with JObj _ => False | _ => True end) -> forall path w, hd EmptyString path = k -> says (JObj items) path = Some (Some Group) -> attr t path = Some (Value w) -> False).
    { intros NO path w E S _. destruct path as [|k' r]; [discriminate|]. cbn [hd] in E. subst k'. cbn [CfgSpec.says member] in S. rewrite PB in S.
      assert (F : find (fun kv => String.eqb k (fst kv)) items = Some (k, v)).
      { clear -ND Hin. induction items as [|kv items IHi]; [destruct Hin|]. cbn [find]. inversion ND as [|? ? NI ND']; subst. destruct Hin as [->|Hin].
        - cbn. rewrite String.eqb_refl. reflexivity.
        - destruct (String.eqb_spec k (fst kv)) as [E|]; [|auto]. exfalso. apply NI. rewrite <- E. apply (in_map fst) in Hin. exact Hin. }
      rewrite F in S. cbn in S. destruct v; try destruct NO; destruct r; discriminate. }
    destruct v as [|b|x|z|vs|its]; try (specialize (LF I); specialize (NG I); split; [intros H; split; [intros _; apply LF, H|exact NG]|intros [H _]; apply LF, H; reflexivity]).
    clear LF NG. rewrite AG'. specialize (IH k (JObj its) Hin (WI _ _ Hin)).
    assert (K : forall d0, (exists d1, (d <- mergeDicts (JObj its) d0 ;; Ok (dput s k (CNs d))) = Ok d1) <-> angles_ok (JObj its) /\ ~ clash radians (JObj its) d0).
    { intros d0. specialize (IH d0). split.
      - intros (d1 & H). apply bind_ok in H. destruct H as (d2 & E & _). destruct IH as [IH _]. destruct (IH (ex_intro _ _ E)) as (_ & A & B). auto.
      - intros (A & B). destruct IH as [_ IH]. destruct (IH (conj I (conj A B))) as (d1 & E). rewrite E. cbn. eauto. }
    destruct (dget t k) as [[w|d]|] eqn:G.
    - split; [intros (s' & H); discriminate|]. intros [_ C]. exfalso. apply (C [k] w); [reflexivity| |].
      + rewrite (SG k its [] Hin PB). reflexivity.
      + cbn. rewrite G. reflexivity.
    - rewrite K. split.
      + intros [A C]. split; [intros _; exact A|]. intros path w E S AT. destruct path as [|k' r]; [discriminate|]. cbn [hd] in E. subst k'.
        rewrite (SG k its r Hin PB) in S. cbn [attr] in AT. rewrite G in AT. destruct r as [|k' r']; [discriminate|]. apply C. exists (k' :: r'), w. auto.
      + intros [A C]. split; [apply A; reflexivity|]. intros (path & w & S & AT). apply (C (k :: path) w); [reflexivity| |].
        * rewrite (SG k its path Hin PB). destruct path; [discriminate|exact S].
        * cbn [attr]. rewrite G. destruct path; [discriminate|exact AT].
    - rewrite K. split.
      + intros [A C]. split; [intros _; exact A|]. intros path w E S AT. destruct path as [|k' r]; [discriminate|]. cbn [hd] in E. subst k'.
        cbn [attr] in AT. rewrite G in AT. discriminate.
      + intros [A C]. split; [apply A; reflexivity|]. intros (path & w & S & AT). destruct path; discriminate. }
  assert (EQ : good (JObj items) /\ angles_ok (JObj items) /\ ~ clash radians (JObj items) t <->
    forall kv, In kv items -> (public (fst kv) = true -> match snd kv with JObj _ => angles_ok (snd kv) | JNum _ | JBool _ => True | _ => angle_name (fst kv) = false end) /\
        (forall path v, hd EmptyString path = fst kv -> says (JObj items) path = Some (Some Group) -> attr t path = Some (Value v) -> False)).
  { split.
    - intros (_ & A & C) [k v] Hin. split; [apply (angles_obj items A k v Hin)|]. intros path w _ S AT. apply C. exists path, w. auto.
    - intros H. split; [exact I|]. split; [apply angles_obj'; intros k v Hin; apply (H (k, v) Hin)|].
      intros (path & w & S & AT). destruct path as [|k r]; [discriminate|]. cbn [CfgSpec.says member] in S. destruct (public k) eqn:PB; [|discriminate].
      destruct (find (fun kv => String.eqb k (fst kv)) items) as [kv|] eqn:F; [|discriminate]. apply find_some in F. destruct F as [F1 F2]. apply String.eqb_eq in F2.
      apply (proj2 (H kv F1) (k :: r) w); auto. cbn [CfgSpec.says member]. rewrite PB.
      assert (F : find (fun kv => String.eqb k (fst kv)) items = Some kv).
      { clear -ND F1 F2. induction items as [|x items IHi]; [destruct F1|]. cbn [find]. inversion ND as [|? ? NI ND']; subst. destruct F1 as [->|F1].
        - rewrite String.eqb_refl. reflexivity.
        - destruct (String.eqb_spec (fst kv) (fst x)) as [E|]; [|auto]. exfalso. apply NI. rewrite <- E. apply in_map, F1. }
      rewrite F. exact S. }
  rewrite EQ. clear EQ SG IH WI.
  (* the fold *)
  assert (FD : forall its s, NoDup (map fst its) -> incl its items -> (forall kv x, In kv its -> dget s (fst kv) = x <-> dget t (fst kv) = x) ->
     ((exists s', foldM step s its = Ok s') <-> forall kv, In kv its -> (public (fst kv) = true -> match snd kv with JObj _ => angles_ok (snd kv) | JNum _ | JBool _ => True | _ => angle_name (fst kv) = false end) /\
        (forall path v, hd EmptyString path = fst kv -> says (JObj items) path = Some (Some Group) -> attr t path = Some (Value v) -> False))).
  { induction its as [|kv its IHs]; intros s NDs INC AG; cbn [foldM]; [split; [intros _ kv []|eauto]|].
    inversion NDs as [|? ? NI NDs']; subst. pose proof (ST kv s (INC kv (or_introl eq_refl)) (fun x => AG kv x (or_introl eq_refl))) as S1.
    assert (KEEP : forall s1, step s kv = Ok s1 -> forall k, k <> fst kv -> dget s1 k = dget s k).
    { clear. intros s1 H k NE. unfold step in H. destruct (public (fst kv)); [|okinv H; reflexivity].
      assert (PU : forall w, dget (dput s (fst kv) w) k = dget s k) by (intros w; rewrite dget_put; destruct (String.eqb_spec k (fst kv)); [contradiction|reflexivity]).
      destruct (snd kv); try (apply bind_ok in H; destruct H as (w & _ & H); apply Ok_inj in H; subst s1; apply PU).
      destruct (dget s (fst kv)) as [[w|d]|]; [discriminate| |]; apply bind_ok in H; destruct H as (d1 & _ & H); apply Ok_inj in H; subst s1; apply PU. }
    assert (AG' : forall s1, step s kv = Ok s1 -> forall kv' x, In kv' its -> dget s1 (fst kv') = x <-> dget t (fst kv') = x).
    { intros s1 E kv' x Hin. rewrite (KEEP s1 E); [apply AG; right; exact Hin|]. intros K. apply NI. rewrite <- K. apply in_map, Hin. }
    split.
    - intros (s' & H). apply bind_ok in H. destruct H as (s1 & E & H). intros kv' [<-|Hin].
      + apply S1. eauto.
      + apply (IHs s1 NDs' (fun x Hx => INC x (or_intror Hx)) (AG' s1 E)); eauto.
    - intros H. destruct S1 as [_ S1]. destruct (S1 (H kv (or_introl eq_refl))) as (s1 & E). rewrite E. cbn [bind].
      apply (IHs s1 NDs' (fun x Hx => INC x (or_intror Hx)) (AG' s1 E)). intros kv' Hin. apply H. right. exact Hin. }
  apply FD; [exact ND|apply incl_refl|tauto].
Qed.
End Proofs.
