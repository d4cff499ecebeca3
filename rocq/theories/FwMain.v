From Coq Require Import List ZArith Bool Lia.
From Verif Require Import FwModel FwSpec FwDebounce FwHid FwMatrix FwEncoder FwLed.
Import ListNotations.
Open Scope Z_scope.

(** ** The main loop never faults and factors into its parts *)

Lemma fw_run_app L is js f :
  fw_run L (is ++ js) f =
  match fw_run L is f with
  | None => None
  | Some (f1, o1) => match fw_run L js f1 with
                     | None => None
                     | Some (f2, o2) => Some (f2, o1 ++ o2)
                     end
  end.
Proof.
  revert f; induction is as [|i is IH]; intros f; cbn [fw_run app].
  - destruct (fw_run L js f) as [[f2 o2]|]; reflexivity.
  - destruct (fw_tick L i f) as [[f1 o]|]; [|reflexivity]. rewrite IH.
    destruct (fw_run L is f1) as [[f2 o2]|]; [|reflexivity].
    destruct (fw_run L js f2) as [[f3 o3]|]; reflexivity.
Qed.

(* the relation between a run and the histories of its parts *)
Record fw_rel (L : layers_t) (is : list input) (f : fw) (outs : list output) : Prop := {
  rel_len : length outs = length is;
  rel_enc : enc_state (rev (map (fun i => (i_a i, i_b i)) is)) = Some (e_state (f_enc f));
  rel_deb : f_deb f = fst (scan_run 8 (repeat 0 KEYS) (map i_samples is));
  rel_reports : map o_reports outs = snd (scan_run 8 (repeat 0 KEYS) (map i_samples is));
  rel_ost : ostate L (fw_ops is outs) =
            mkOst (f_mat f) (f_hid f) (e_current (f_enc f)) (e_timeout (f_enc f))
}.

Lemma scan_run_snoc T deb rows row :
  scan_run T deb (rows ++ [row]) =
  let '(d1, e1) := scan_run T deb rows in
  let '(d2, e2) := scan T 0 d1 row in (d2, e1 ++ [e2]).
Proof.
  revert deb; induction rows as [|r rows IH]; intros deb; cbn [scan_run app].
  - destruct (scan T 0 deb row); reflexivity.
  - destruct (scan T 0 deb r) as [d e]. rewrite IH. destruct (scan_run T d rows) as [d1 e1].
    destruct (scan T 0 d1 row); reflexivity.
Qed.

Lemma mreports_ops L susp evs ops m h c t :
  ostate L ops = mkOst m h c t ->
  ostate L (rev (map OpKey (map (fun e => mkKev (fst e) (snd e) susp) evs)) ++ ops) =
  mkOst (fst (fst (mreports L susp evs (m, h)))) (snd (fst (mreports L susp evs (m, h)))) c t.
Proof.
  revert ops m h; induction evs as [|[k b] evs IH]; intros ops m h E; cbn [map rev mreports app fst snd].
  - exact E.
  - rewrite <- app_assoc. cbn [app].
    destruct (mreport L susp k b (m, h)) as [[m1 h1] e1] eqn:Er.
    rewrite (IH _ m1 h1).
    + destruct (mreports L susp evs (m1, h1)) as [s2 e2]. reflexivity.
    + cbn [ostate]. rewrite E. cbn [apply_op o_mat o_hid o_cur o_tmo].
      unfold apply_kev. cbn [esusp ek es]. rewrite Er. reflexivity.
Qed.

Lemma fw_ops_snoc is outs i o :
  length outs = length is ->
  fw_ops (is ++ [i]) (outs ++ [o]) =
  OpTick (i_bus i) :: OpEnc (o_usage o) (i_susp i) ::
  rev (map OpKey (tick_keys (i, o))) ++ fw_ops is outs.
Proof.
  intros Hl. unfold fw_ops. rewrite combine_snoc by lia. rewrite flat_map_app, rev_app_distr.
  cbn [flat_map]. rewrite app_nil_r. unfold tick_ops. rewrite rev_app_distr. reflexivity.
Qed.

Lemma fw_rel_step L is f outs i :
  fw_rel L is f outs ->
  exists f' o, fw_tick L i f = Some (f', o) /\ fw_rel L (is ++ [i]) f' (outs ++ [o]).
Proof.
  intros [Hl He Hd Hr Ho]. unfold fw_tick.
  destruct (scan MATRIX_DEBOUNCE_TICKS 0 (f_deb f) (i_samples i)) as [deb' evs] eqn:Es.
  destruct (mreports L (i_susp i) evs (f_mat f, f_hid f)) as [[m1 h1] e1] eqn:Em.
  destruct (enc_state_range (rev (map (fun i => (i_a i, i_b i)) is))) as (s & Es' & Hs).
  rewrite He in Es'. injection Es' as Es'. rewrite Es'.
  destruct (enc_step_range s (i_a i) (i_b i) Hs) as (s2 & Hs2 & Hs2r).
  destruct (enc_step s (i_a i) (i_b i)) as [st usage] eqn:Est. cbn [fst] in Hs2. subst st.
  destruct (ereport (i_susp i) usage (e_current (f_enc f)) (e_timeout (f_enc f)) h1)
    as [[[cur tmo] h2] e2] eqn:Ee.
  destruct (hid_tick (i_bus i) h2) as [h3 snt] eqn:Et.
  eexists _, _. split; [reflexivity|]. split; cbn [f_enc f_deb f_mat f_hid e_state e_current e_timeout].
  - rewrite !app_length. cbn. lia.
  - rewrite map_app, rev_app_distr. cbn [map rev app enc_state]. rewrite He, Es', Est. reflexivity.
  - rewrite map_app. cbn [map]. rewrite scan_run_snoc.
    destruct (scan_run 8 _ _) as [d1 ee] eqn:Er'. cbn [fst] in Hd. rewrite Hd in Es.
    unfold MATRIX_DEBOUNCE_TICKS in Es. rewrite Es. reflexivity.
  - rewrite !map_app. cbn [map]. rewrite scan_run_snoc.
    destruct (scan_run 8 _ _) as [d1 ee] eqn:Er'. cbn [fst snd] in *. rewrite Hd in Es.
    unfold MATRIX_DEBOUNCE_TICKS in Es. rewrite Es. cbn [snd o_reports]. rewrite Hr. reflexivity.
  - rewrite fw_ops_snoc by exact Hl. cbn [ostate o_usage]. unfold tick_keys. cbn [fst snd o_reports].
    rewrite (mreports_ops _ _ _ _ _ _ _ _ Ho), Em. cbn [fst snd apply_op o_mat o_hid o_cur o_tmo].
    rewrite Ee. cbn [fst apply_op o_mat o_hid o_cur o_tmo]. rewrite Et. reflexivity.
Qed.

Lemma fw_total L is :
  exists f outs, fw_run L is fw_init = Some (f, outs) /\ fw_rel L is f outs.
Proof.
  induction is as [|i is (f & outs & Hrun & Hrel)] using rev_ind.
  - exists fw_init, []. split; [reflexivity|]. split; reflexivity.
  - destruct (fw_rel_step L is f outs i Hrel) as (f' & o & Ht & Hr').
    exists f', (outs ++ [o]). split; [|exact Hr'].
    rewrite fw_run_app, Hrun. cbn [fw_run]. rewrite Ht. reflexivity.
Qed.

Lemma fw_rel_run L is f outs : fw_run L is fw_init = Some (f, outs) -> fw_rel L is f outs.
Proof.
  intros H. destruct (fw_total L is) as (f' & outs' & H' & Hr). rewrite H in H'.
  injection H' as -> ->. exact Hr.
Qed.

(** ** Switches at the level of the main loop *)

Lemma switch_stream L is f outs k :
  fw_run L is fw_init = Some (f, outs) -> Forall wf_input is -> (k < KEYS)%nat ->
  map (switch_reports k) outs = map option_list (deb_outs 8 (column k is)).
Proof.
  intros H Hwf Hk. apply fw_rel_run in H. destruct H as [Hl _ _ Hr _].
  pose proof (scan_independent 8 (repeat 0 KEYS) (map i_samples is) k) as Hi.
  rewrite repeat_length in Hi.
  assert (Hrows : forall row, In row (map i_samples is) -> length row = KEYS).
  { intros row Hin. apply in_map_iff in Hin. destruct Hin as (i & <- & Hin).
    rewrite Forall_forall in Hwf. apply Hwf. exact Hin. }
  specialize (Hi Hrows Hk). rewrite <- Hr in Hi. rewrite nth_repeat, map_map in Hi.
  unfold deb_outs, column. rewrite map_map in Hi.
  unfold switch_reports.
  transitivity (map (map snd) (map (fun x => filter (fun e => Nat.eqb (fst e) k) (o_reports x)) outs)).
  { rewrite map_map. reflexivity. }
  rewrite Hi, map_map. apply map_ext. intros [b|]; reflexivity.
Qed.

Lemma somes_flat_map {A} (l : list (option A)) : somes l = flat_map option_list l.
Proof. reflexivity. Qed.

Lemma flat_map_map {A B C} (g : A -> B) (f : B -> list C) l : flat_map f (map g l) = flat_map (fun x => f (g x)) l.
Proof. induction l; cbn; [reflexivity|]. rewrite IHl. reflexivity. Qed.

(* the events of one switch over the whole run are its debounced stream *)
Lemma switch_events L is f outs k :
  fw_run L is fw_init = Some (f, outs) -> Forall wf_input is -> (k < KEYS)%nat ->
  flat_map (switch_reports k) outs = somes (deb_outs 8 (column k is)).
Proof.
  intros H Hwf Hk. pose proof (switch_stream L is f outs k H Hwf Hk) as Hs.
  rewrite somes_flat_map. rewrite <- (flat_map_map option_list (fun x => x)).
  rewrite <- Hs. rewrite flat_map_map. reflexivity.
Qed.

Lemma flat_map_filter {A B} (f : A -> list B) p l :
  filter p (flat_map f l) = flat_map (fun x => filter p (f x)) l.
Proof. induction l; cbn; [reflexivity|]. rewrite filter_app, IHl. reflexivity. Qed.
Lemma map_flat_map {A B C} (f : A -> list B) (g : B -> C) l :
  map g (flat_map f l) = flat_map (fun x => map g (f x)) l.
Proof. induction l; cbn; [reflexivity|]. rewrite map_app, IHl. reflexivity. Qed.
Lemma flat_map_combine_snd {A B C} (f : B -> list C) (xs : list A) (ys : list B) :
  length ys = length xs -> flat_map (fun p => f (snd p)) (combine xs ys) = flat_map f ys.
Proof.
  revert ys; induction xs as [|x xs IH]; intros [|y ys] H; cbn in *; try reflexivity; try discriminate.
  rewrite IH by lia. reflexivity.
Qed.

Lemma keys_of_switch is outs k :
  length outs = length is ->
  map es (filter (fun e => Nat.eqb (ek e) k) (rev (fw_keys is outs))) = flat_map (switch_reports k) outs.
Proof.
  intros Hl. unfold fw_keys. rewrite rev_involutive, flat_map_filter, map_flat_map.
  rewrite <- (flat_map_combine_snd (switch_reports k) is outs Hl).
  apply flat_map_ext. intros [i o]. unfold tick_keys, switch_reports. cbn [fst snd].
  induction (o_reports o) as [|[k' b] r IH]; cbn [map filter fst snd ek]; [reflexivity|].
  destruct (Nat.eqb k' k); cbn [map es]; rewrite IH; reflexivity.
Qed.

(* with a single Fn switch the Fn events alternate *)
Lemma keys_in_range L is f outs e :
  fw_run L is fw_init = Some (f, outs) -> In e (fw_keys is outs) -> (ek e < KEYS)%nat.
Proof.
  intros H He. apply fw_rel_run in H. destruct H as [Hl _ _ Hr _].
  unfold fw_keys in He. rewrite <- in_rev in He. apply in_flat_map in He.
  destruct He as ([i o] & Hio & He). unfold tick_keys in He. apply in_map_iff in He.
  destruct He as ([k b] & <- & Hin). cbn [ek fst].
  apply in_combine_r in Hio.
  assert (Hx : In (o_reports o) (map o_reports outs)) by (apply in_map; exact Hio).
  rewrite Hr in Hx. clear -Hx Hin.
  assert (Hg : forall rows deb, length deb = KEYS -> In (o_reports o) (snd (scan_run 8 deb rows)) -> (k < KEYS)%nat).
  { induction rows as [|row rows IH]; intros deb Hd Hx'; cbn [scan_run snd] in *; [contradiction|].
    destruct (scan 8 0 deb row) as [d1 evs] eqn:Es.
    pose proof (scan_length 8 0 deb row) as Hsl. rewrite Es in Hsl. cbn [fst] in Hsl.
    destruct (scan_run 8 d1 rows) as [d2 ee] eqn:Er. cbn [snd In] in Hx'. destruct Hx' as [Hx'|Hx'].
    - pose proof (scan_keys 8 0 deb row) as [Hk _]. rewrite Es in Hk. cbn [snd] in Hk. rewrite Hx' in Hk.
      specialize (Hk _ Hin). cbn [fst] in Hk. lia.
    - apply (IH d1); [lia|]. rewrite Er. exact Hx'. }
  apply (Hg _ (repeat 0 KEYS) (repeat_length _ _) Hx).
Qed.

Lemma filter_ext_in' {A} (p q : A -> bool) l : (forall x, In x l -> p x = q x) -> filter p l = filter q l.
Proof. apply filter_ext_in. Qed.

Lemma filter_rev' {A} (p : A -> bool) l : filter p (rev l) = rev (filter p l).
Proof.
  induction l as [|x l IH]; [reflexivity|]. cbn [rev filter]. rewrite filter_app, IH. cbn [filter].
  destruct (p x); cbn [rev]; [reflexivity|apply app_nil_r].
Qed.

Lemma fw_fn_alternates L kf is f outs :
  single_fn L kf -> Forall wf_input is -> fw_run L is fw_init = Some (f, outs) ->
  fn_alternates L (fw_keys is outs).
Proof.
  intros [Hkf Hfn] Hwf H. unfold fn_alternates.
  rewrite (filter_ext_in _ (fun e => Nat.eqb (ek e) kf)).
  - rewrite <- map_rev, <- filter_rev'. rewrite keys_of_switch by (apply (rel_len _ _ _ _ (fw_rel_run _ _ _ _ H))).
    rewrite (switch_events L is f outs kf H Hwf Hkf). apply deb_alternates. lia.
  - intros e He. apply Hfn. apply (keys_in_range L is f outs e H He).
Qed.

(* the matrix state only depends on the key events *)
Lemma ostate_mat L is outs :
  length outs = length is ->
  o_mat (ostate L (fw_ops is outs)) = fst (kstate L (fw_keys is outs)).
Proof.
  intros Hl. unfold fw_ops, fw_keys.
  assert (Hg : forall l l', o_mat (ostate L l) = fst (kstate L l') ->
     forall evs, o_mat (ostate L (rev (map OpKey evs) ++ l)) = fst (kstate L (rev evs ++ l'))).
  { intros l l' Hll evs. revert l l' Hll. induction evs as [|e evs IH]; intros l l' Hll; [exact Hll|].
    cbn [map rev]. rewrite <- !app_assoc. apply IH. cbn [app ostate kstate apply_op].
    destruct (ostate L l) as [m h c t]. cbn [o_mat o_hid] in *.
    destruct (kstate L l') as [m' h']. cbn [fst] in Hll. subst m'.
    unfold apply_kev.
    assert (Hm : forall h1 h2, fst (fst (mreport L (esusp e) (ek e) (es e) (m, h1))) =
                               fst (fst (mreport L (esusp e) (ek e) (es e) (m, h2)))).
    { intros h1 h2. cbn [mreport]. destruct (_ || _); [destruct (es e); reflexivity|].
      destruct (es e); [reflexivity|]. destruct (_ =? kBOOT); [reflexivity|].
      destruct (hid_add _ _ h1), (hid_add _ _ h2). reflexivity. }
    specialize (Hm h h'). destruct (mreport L _ _ _ (m, h)) as [[m1 h1] e1].
    destruct (mreport L _ _ _ (m, h')) as [[m2 h2] e2]. cbn in *. exact Hm. }
  assert (Hall : forall ps, o_mat (ostate L (rev (flat_map tick_ops ps))) =
                            fst (kstate L (rev (flat_map tick_keys ps)))).
  { intros ps. induction ps as [|p ps IH] using rev_ind; [reflexivity|].
    rewrite !flat_map_app, !rev_app_distr. cbn [flat_map]. rewrite !app_nil_r.
    unfold tick_ops at 1. rewrite rev_app_distr. cbn [rev app ostate].
    cbn [apply_op]. specialize (Hg _ _ IH (tick_keys p)).
    destruct (ostate L (rev (map OpKey (tick_keys p)) ++ _)) as [m h c t]. cbn [o_mat o_hid o_cur o_tmo] in *.
    destruct (ereport _ _ _ _ _) as [[[cc tt] hh] ee]. cbn. exact Hg. }
  apply Hall.
Qed.

Lemma fw_layer L kf is f outs :
  single_fn L kf -> Forall wf_input is -> fw_run L is fw_init = Some (f, outs) ->
  layer (f_mat f) = layer_spec L (fw_keys is outs).
Proof.
  intros Hs Hwf H. pose proof (fw_fn_alternates L kf is f outs Hs Hwf H) as Ha.
  destruct (layer_refines L _ Ha) as [Hl _]. rewrite <- Hl.
  pose proof (fw_rel_run _ _ _ _ H) as [Hlen _ _ _ Ho].
  rewrite <- (ostate_mat L is outs Hlen), Ho. reflexivity.
Qed.

(** ** Bootloader *)

Lemma boot_hid_irrelevant L susp k b m h1 h2 :
  In EffBoot (snd (mreport L susp k b (m, h1))) <-> In EffBoot (snd (mreport L susp k b (m, h2))).
Proof.
  cbn [mreport]. destruct (_ || _); [destruct b; reflexivity|]. destruct b; [reflexivity|].
  destruct (_ =? kBOOT); [reflexivity|].
  destruct (hid_add susp _ h1) as [x w], (hid_add susp _ h2) as [x' w'].
  destruct w, w'; cbn; intuition discriminate.
Qed.

Lemma mat_hid_irrelevant L susp k b m h1 h2 :
  fst (fst (mreport L susp k b (m, h1))) = fst (fst (mreport L susp k b (m, h2))).
Proof.
  cbn [mreport]. destruct (_ || _); [destruct b; reflexivity|]. destruct b; [reflexivity|].
  destruct (_ =? kBOOT); [reflexivity|].
  destruct (hid_add susp _ h1), (hid_add susp _ h2). reflexivity.
Qed.

Definition evs_keys (susp : bool) (evs : list (nat * bool)) : list kev :=
  map (fun e => mkKev (fst e) (snd e) susp) evs.

Lemma mreports_boot L susp evs m h hist :
  m = fst (kstate L hist) ->
  (In EffBoot (snd (mreports L susp evs (m, h))) <->
   exists pre e post, evs_keys susp evs = pre ++ e :: post /\
     In EffBoot (snd (apply_kev L e (kstate L (rev pre ++ hist))))).
Proof.
  revert m h hist; induction evs as [|[k b] evs IH]; intros m h hist Hm; cbn [mreports evs_keys map].
  - cbn. split; [intros []|]. intros (pre & e & post & H & _). destruct pre; discriminate.
  - destruct (mreport L susp k b (m, h)) as [[m1 h1] e1] eqn:Er.
    assert (Hm1 : m1 = fst (kstate L (mkKev k b susp :: hist))).
    { cbn [kstate]. unfold apply_kev. cbn [ek es esusp]. destruct (kstate L hist) as [m' h'].
      cbn [fst] in Hm. subst m'. pose proof (mat_hid_irrelevant L susp k b m h h') as Hx.
      rewrite Er in Hx. exact Hx. }
    assert (He1 : In EffBoot e1 <-> In EffBoot (snd (apply_kev L (mkKev k b susp) (kstate L hist)))).
    { unfold apply_kev. cbn [ek es esusp]. destruct (kstate L hist) as [m' h'].
      cbn [fst] in Hm. subst m'. pose proof (boot_hid_irrelevant L susp k b m h h') as Hx.
      rewrite Er in Hx. exact Hx. }
    specialize (IH m1 h1 _ Hm1). destruct (mreports L susp evs (m1, h1)) as [s2 e2]. cbn [snd] in *.
    rewrite in_app_iff, IH, He1. cbn [fst snd]. split.
    + intros [H|(pre & e & post & Hev & H)].
      * exists [], (mkKev k b susp), (evs_keys susp evs). split; [reflexivity|exact H].
      * exists (mkKev k b susp :: pre), e, post. split; [cbn; f_equal; exact Hev|].
        cbn [rev]. rewrite <- app_assoc. exact H.
    + intros (pre & e & post & Hev & H). destruct pre as [|p pre].
      * inversion Hev; subst. left. exact H.
      * inversion Hev; subst. right. exists pre, e, post. split; [assumption|].
        cbn [rev] in H. rewrite <- app_assoc in H. exact H.
Qed.

Lemma fw_keys_snoc is outs i o :
  length outs = length is ->
  fw_keys (is ++ [i]) (outs ++ [o]) = rev (tick_keys (i, o)) ++ fw_keys is outs.
Proof.
  intros Hl. unfold fw_keys. rewrite combine_snoc by lia. rewrite flat_map_app, rev_app_distr.
  cbn [flat_map]. rewrite app_nil_r. reflexivity.
Qed.

Lemma fn_alternates_suffix L u v : fn_alternates L (u ++ v) -> fn_alternates L v.
Proof.
  induction u as [|e u IH]; [auto|]. intros H. apply IH. apply fn_alternates_cons in H. tauto.
Qed.

Lemma fw_run_snoc L is i f outs :
  fw_run L (is ++ [i]) fw_init = Some (f, outs) ->
  exists f0 outs0 o, fw_run L is fw_init = Some (f0, outs0) /\ fw_tick L i f0 = Some (f, o) /\
                     outs = outs0 ++ [o].
Proof.
  rewrite fw_run_app. destruct (fw_run L is fw_init) as [[f0 o0]|]; [|discriminate].
  cbn [fw_run]. destruct (fw_tick L i f0) as [[f1 o]|] eqn:E; [|discriminate].
  intros H. injection H as <- <-. exists f0, o0, o. auto.
Qed.

(* decompose one tick *)
Lemma fw_tick_inv L i f f' o :
  fw_tick L i f = Some (f', o) ->
  exists m1 h1 e1 h2 e2,
    scan 8 0 (f_deb f) (i_samples i) = (f_deb f', o_reports o) /\
    mreports L (i_susp i) (o_reports o) (f_mat f, f_hid f) = ((m1, h1), e1) /\
    enc_step (e_state (f_enc f)) (i_a i) (i_b i) = (Some (e_state (f_enc f')), o_usage o) /\
    ereport (i_susp i) (o_usage o) (e_current (f_enc f)) (e_timeout (f_enc f)) h1 =
      ((e_current (f_enc f'), e_timeout (f_enc f'), h2), e2) /\
    hid_tick (i_bus i) h2 = (f_hid f', o_sent o) /\
    f_mat f' = m1 /\ o_eff o = e1 ++ e2 /\
    f_led f' = fold_left (fun l e => usb_callback e l) (i_events i) (led_tick (f_led f)).
Proof.
  unfold fw_tick, MATRIX_DEBOUNCE_TICKS.
  destruct (scan 8 0 (f_deb f) (i_samples i)) as [deb' evs] eqn:Es.
  destruct (mreports L (i_susp i) evs (f_mat f, f_hid f)) as [[m1 h1] e1] eqn:Em.
  destruct (enc_step _ _ _) as [[st|] usage] eqn:Est; [|discriminate].
  destruct (ereport _ _ _ _ h1) as [[[cur tmo] h2] e2] eqn:Ee.
  destruct (hid_tick (i_bus i) h2) as [h3 snt] eqn:Et.
  intros H. injection H as <- <-. cbn.
  exists m1, h1, e1, h2, e2. auto 10.
Qed.

Lemma ereport_no_boot susp u c t h : ~ In EffBoot (snd (ereport susp u c t h)).
Proof.
  unfold ereport. destruct (negb (t =? 0)); [intros []|].
  destruct (if negb (c =? kNONE) then _ else _) as [c1 h1].
  destruct (negb (u =? kNONE)); [|intros []].
  destruct (hid_add susp u h1) as [h2 w]. destruct w; cbn; intuition discriminate.
Qed.

Lemma fw_boot L kf is i f outs o :
  single_fn L kf -> Forall wf_input (is ++ [i]) ->
  fw_run L (is ++ [i]) fw_init = Some (f, outs ++ [o]) ->
  (In EffBoot (o_eff o) <->
   exists pre e post, fw_keys (is ++ [i]) (outs ++ [o]) = post ++ e :: pre ++ fw_keys is outs /\
     es e = false /\ is_fn L (ek e) = false /\
     L (layer_spec L (pre ++ fw_keys is outs)) (ek e) = kBOOT /\
     (3 <= boot_taps_spec L (e :: pre ++ fw_keys is outs))%nat).
Proof.
  intros Hs Hwf Hrun. pose proof (fw_fn_alternates L kf _ _ _ Hs Hwf Hrun) as Ha.
  pose proof (fw_run_snoc L is i f _ Hrun) as (f0 & outs0 & o' & Hrun0 & Ht & Eo).
  apply app_inj_tail in Eo. destruct Eo as [<- <-].
  pose proof (fw_rel_run _ _ _ _ Hrun0) as [Hlen _ _ _ Ho].
  pose proof (ostate_mat L is outs Hlen) as Hm. rewrite Ho in Hm. cbn [o_mat] in Hm.
  apply fw_tick_inv in Ht. destruct Ht as (m1 & h1 & e1 & h2 & e2 & _ & Hmr & _ & He & _ & _ & Heff & _).
  rewrite fw_keys_snoc in * by exact Hlen.
  pose proof (mreports_boot L (i_susp i) (o_reports o) (f_mat f0) (f_hid f0) _ Hm) as Hb.
  rewrite Hmr in Hb. cbn [snd] in Hb.
  assert (Heq : In EffBoot (o_eff o) <-> In EffBoot e1).
  { rewrite Heff, in_app_iff. split; [intros [H|H]; [exact H|exfalso]|auto].
    pose proof (ereport_no_boot (i_susp i) (o_usage o) (e_current (f_enc f0)) (e_timeout (f_enc f0)) h1) as Hn.
    rewrite He in Hn. apply Hn. exact H. }
  rewrite Heq, Hb. change (evs_keys (i_susp i) (o_reports o)) with (tick_keys (i, o)).
  split.
  - intros (pre & e & post & Hev & Hin). rewrite Hev in Ha. rewrite Hev.
    assert (Hspl : rev (pre ++ e :: post) ++ fw_keys is outs = rev post ++ e :: rev pre ++ fw_keys is outs).
    { rewrite rev_app_distr. cbn [rev]. rewrite <- !app_assoc. reflexivity. }
    rewrite Hspl in *. apply boot_exact in Hin.
    + exists (rev pre), e, (rev post). split; [reflexivity|exact Hin].
    + apply (fn_alternates_suffix L (rev post)). exact Ha.
  - intros (pre & e & post & Hev & Hspec). rewrite Hev in Ha.
    assert (Htk : rev (tick_keys (i, o)) = post ++ e :: pre).
    { apply (app_inv_tail (fw_keys is outs)). rewrite <- app_assoc. cbn [app]. exact Hev. }
    exists (rev pre), e, (rev post). split.
    + rewrite <- (rev_involutive (tick_keys (i, o))), Htk, rev_app_distr. cbn [rev].
      rewrite <- app_assoc. reflexivity.
    + rewrite rev_involutive. apply boot_exact; [|exact Hspec].
      apply (fn_alternates_suffix L post). exact Ha.
Qed.

(** ** No stuck keys at the level of the main loop *)

Lemma held_ops is outs k :
  length outs = length is ->
  held (fw_ops is outs) k = negb (last (flat_map (switch_reports k) outs) true).
Proof.
  intros Hl. unfold fw_ops. rewrite <- (flat_map_combine_snd (switch_reports k) is outs Hl).
  induction (combine is outs) as [|p ps IH] using rev_ind; [reflexivity|].
  rewrite !flat_map_app, rev_app_distr. cbn [flat_map]. rewrite !app_nil_r.
  unfold tick_ops at 1. rewrite rev_app_distr. cbn [rev app held]. unfold tick_keys, switch_reports at 2.
  induction (o_reports (snd p)) as [|[k' b] r IHr] using rev_ind.
  - cbn. rewrite app_nil_r. exact IH.
  - rewrite !map_app, filter_app, map_app, rev_app_distr. cbn [map rev app held ek es fst snd filter].
    destruct (Nat.eqb k' k); cbn [map app].
    + rewrite app_assoc, last_last. reflexivity.
    + rewrite app_nil_r. exact IHr.
Qed.

Lemma reported_level_somes outs : reported_level outs = last (somes outs) true.
Proof.
  induction outs as [|o outs IH] using rev_ind; [reflexivity|].
  rewrite reported_level_snoc, somes_snoc. destruct o as [b|]; cbn.
  - rewrite last_last. reflexivity.
  - rewrite app_nil_r. exact IH.
Qed.

Lemma held_level L is f outs k :
  fw_run L is fw_init = Some (f, outs) -> Forall wf_input is -> (k < KEYS)%nat ->
  held (fw_ops is outs) k = negb (reported_level (deb_outs 8 (column k is))).
Proof.
  intros H Hwf Hk. rewrite held_ops by apply (rel_len _ _ _ _ (fw_rel_run _ _ _ _ H)).
  rewrite (switch_events L is f outs k H Hwf Hk), reported_level_somes. reflexivity.
Qed.

Lemma last_in {A} (l : list A) d : l <> [] -> In (last l d) l.
Proof.
  intros H. destruct l as [|x l] using rev_ind; [contradiction|].
  rewrite last_last, in_app_iff. cbn. auto.
Qed.

Lemma held_out_of_range L is f outs k :
  fw_run L is fw_init = Some (f, outs) -> (KEYS <= k)%nat -> held (fw_ops is outs) k = false.
Proof.
  intros H Hk. pose proof (rel_len _ _ _ _ (fw_rel_run _ _ _ _ H)) as Hlen.
  rewrite held_ops by exact Hlen.
  rewrite <- (keys_of_switch is outs k Hlen).
  assert (E : filter (fun e => Nat.eqb (ek e) k) (rev (fw_keys is outs)) = []).
  { destruct (filter _ _) as [|e l] eqn:E; [reflexivity|exfalso].
    assert (Hin : In e (filter (fun e => Nat.eqb (ek e) k) (rev (fw_keys is outs)))) by (rewrite E; left; reflexivity).
    apply filter_In in Hin. destruct Hin as [Hin Hke]. rewrite <- in_rev in Hin.
    pose proof (keys_in_range L is f outs e H Hin). apply Nat.eqb_eq in Hke. lia. }
  rewrite E. reflexivity.
Qed.

Lemma fw_no_stuck L is f outs :
  fw_run L is fw_init = Some (f, outs) -> Forall wf_input is ->
  (forall k, (k < KEYS)%nat -> reported_level (deb_outs 8 (column k is)) = true) ->
  e_current (f_enc f) = kNONE ->
  report_empty (f_hid f).
Proof.
  intros H Hwf Hall Hc. pose proof (fw_rel_run _ _ _ _ H) as [Hlen _ _ _ Ho].
  pose proof (no_stuck L (fw_ops is outs)) as Hn. rewrite Ho in Hn. cbn [o_cur o_hid] in Hn.
  apply Hn; [|exact Hc]. intros k. destruct (Nat.lt_ge_cases k KEYS) as [Hk|Hk].
  - rewrite (held_level L is f outs k H Hwf Hk), Hall by exact Hk. reflexivity.
  - apply (held_out_of_range L is f outs k H Hk).
Qed.

(* released samples settle the reported level *)
Lemma settle T xs n :
  1 <= T <= 127 -> (Z.to_nat T <= n)%nat ->
  reported_level (deb_outs T (xs ++ repeat true n)) = true.
Proof.
  intros HT Hn.
  assert (Hkeep : forall ys m, reported_level (deb_outs T ys) = true ->
            reported_level (deb_outs T (ys ++ repeat true m)) = true).
  { intros ys m. revert ys. induction m as [|m IH]; intros ys Hy; cbn [repeat].
    - rewrite app_nil_r. exact Hy.
    - change (true :: repeat true m) with ([true] ++ repeat true m). rewrite app_assoc. apply IH.
      rewrite deb_outs_snoc, reported_level_snoc, <- deb_next_eq.
      destruct (deb_next T ys true) as [s|] eqn:E; [|exact Hy].
      apply deb_exact in E; [|exact HT]. destruct E as (-> & _). reflexivity. }
  destruct (reported_level (deb_outs T xs)) eqn:E; [apply Hkeep; exact E|].
  destruct (deb_latency T xs HT) as (k & Hk & Hr). cbv zeta in *. rewrite E in Hr. cbn [negb] in Hr.
  replace n with (S k + (n - S k))%nat by lia. rewrite repeat_app, app_assoc. apply Hkeep.
  replace (S k) with (k + 1)%nat by lia. rewrite repeat_app, app_assoc. cbn [repeat].
  rewrite deb_outs_snoc, reported_level_snoc, <- deb_next_eq, Hr. reflexivity.
Qed.

(* the idle encoder *)
Lemma idle_states s : 0 <= s <= 6 ->
  exists s' u, enc_step s true true = (Some s', u) /\
    (s' = 0 \/ s' = 3 \/ s' = 4) /\ ((s = 0 \/ s = 3 \/ s = 4) -> u = kNONE).
Proof.
  intros H. apply seven in H.
  destruct H as [->|[->|[->|[->|[->|[->| ->]]]]]]; eexists _, _; (split; [reflexivity|]);
    (split; [cbn; lia|]); intros H; try reflexivity; exfalso; lia.
Qed.

Lemma timeout_range L is f outs :
  fw_run L is fw_init = Some (f, outs) -> 0 <= e_timeout (f_enc f) <= 30.
Proof.
  revert f outs; induction is as [|i is IH] using rev_ind; intros f outs H.
  - injection H as <- <-. cbn. lia.
  - apply fw_run_snoc in H. destruct H as (f0 & outs0 & o & H0 & Ht & _). specialize (IH _ _ H0).
    apply fw_tick_inv in Ht. destruct Ht as (m1 & h1 & e1 & h2 & e2 & _ & _ & _ & He & _).
    unfold ereport in He. destruct (negb (e_timeout (f_enc f0) =? 0)) eqn:E.
    + apply negb_true_iff, Z.eqb_neq in E. injection He as _ <- _ _. lia.
    + apply negb_false_iff, Z.eqb_eq in E.
      destruct (if negb (e_current (f_enc f0) =? kNONE) then _ else _) as [c1 h1'].
      destruct (negb (o_usage o =? kNONE)).
      * destruct (hid_add _ _ _). injection He as _ <- _ _. unfold ENCODER_KEYPRESS_TICKS. lia.
      * injection He as _ <- _ _. lia.
Qed.

(* after n+1 idle ticks the pulse timer has run down by n, and there is no pulse
   once it had time to end *)
Lemma idle_pulse L is js f outs :
  Forall idle_input js -> fw_run L (is ++ js) fw_init = Some (f, outs) -> js <> [] ->
  let s := e_state (f_enc f) in
  (s = 0 \/ s = 3 \/ s = 4) /\
  0 <= e_timeout (f_enc f) <= Z.max 0 (31 - Z.of_nat (length js)) /\
  (e_current (f_enc f) = kNONE \/ Z.of_nat (length js) <= 31).
Proof.
  revert f outs. induction js as [|i js IH] using rev_ind; intros f outs Hj H Hne; [contradiction|].
  rewrite app_assoc in H. pose proof (timeout_range _ _ _ _ H) as Htr0.
  apply fw_run_snoc in H. destruct H as (f0 & outs0 & o & H0 & Ht & _).
  apply Forall_app in Hj. destruct Hj as [Hj Hi]. inversion Hi as [|? ? (_ & Ha & Hb) _]; subst.
  pose proof (timeout_range _ _ _ _ H0) as Htr.
  pose proof (fw_rel_run _ _ _ _ H0) as [_ Hes _ _ _].
  destruct (enc_state_range (rev (map (fun i => (i_a i, i_b i)) (is ++ js)))) as (s0 & Es0 & Hs0).
  rewrite Hes in Es0. injection Es0 as Es0.
  apply fw_tick_inv in Ht. destruct Ht as (m1 & h1 & e1 & h2 & e2 & _ & _ & Hst & He & _).
  rewrite Ha, Hb, Es0 in Hst. destruct (idle_states s0 Hs0) as (s' & u & Hst' & Hs' & Hu).
  rewrite Hst in Hst'. injection Hst' as E1 E2. cbv zeta. rewrite E1. split; [exact Hs'|].
  rewrite app_length. cbn [length].
  destruct js as [|j js].
  - cbn [length]. split; [lia|right; lia].
  - destruct (IH _ _ Hj H0 ltac:(discriminate)) as (Hs0' & Hto & Hcur). rewrite Es0 in Hs0'.
    specialize (Hu Hs0'). rewrite E2, Hu in He. unfold ereport in He.
    destruct (negb (e_timeout (f_enc f0) =? 0)) eqn:E.
    + apply negb_true_iff, Z.eqb_neq in E. injection He as <- <- _ _.
      split; [lia|]. destruct Hcur as [Hcur|Hcur]; [left; exact Hcur|]. right. lia.
    + apply negb_false_iff, Z.eqb_eq in E. cbn [Z.eqb negb] in He. change (kNONE =? kNONE) with true in He.
      destruct (e_current (f_enc f0) =? kNONE) eqn:Ec; cbn [negb] in He; injection He as <- <- _ _.
      * apply Z.eqb_eq in Ec. split; [lia|left; exact Ec].
      * split; [lia|left; reflexivity].
Qed.

Lemma column_app k is js : column k (is ++ js) = column k is ++ column k js.
Proof. apply map_app. Qed.

Lemma column_idle k js : Forall idle_input js -> column k js = repeat true (length js).
Proof.
  induction js as [|j js IH]; intros H; [reflexivity|]. inversion H as [|? ? (Hs & _) Hr]; subst.
  unfold column in *. cbn [map length repeat]. rewrite (IH Hr), Hs. f_equal.
  apply nth_repeat.
Qed.

Lemma idle_wf i : idle_input i -> wf_input i.
Proof. intros (H & _). unfold wf_input. rewrite H. apply repeat_length. Qed.

Lemma fw_quiet L is js f outs :
  Forall wf_input is -> Forall idle_input js -> (32 <= length js)%nat ->
  fw_run L (is ++ js) fw_init = Some (f, outs) ->
  report_empty (f_hid f).
Proof.
  intros Hwf Hj Hn H. apply (fw_no_stuck L (is ++ js) f outs H).
  - apply Forall_app. split; [exact Hwf|]. eapply Forall_impl; [|exact Hj]. apply idle_wf.
  - intros k Hk. rewrite column_app, (column_idle k js) by exact Hj. apply settle; [lia|].
    change (Z.to_nat 8) with 8%nat. lia.
  - destruct (idle_pulse L is js f outs Hj H) as (_ & _ & [Hc|Hc]); [destruct js; [cbn in Hn; lia|discriminate]|exact Hc|lia].
Qed.

(** ** Every sent keyboard report is the current report and is well formed *)

Lemma fw_report_ok L is f outs : fw_run L is fw_init = Some (f, outs) -> report_ok (f_hid f).
Proof.
  intros H. pose proof (fw_rel_run _ _ _ _ H) as [_ _ _ _ Ho].
  destruct (src_all L (fw_ops is outs)) as [Hok _]. rewrite Ho in Hok. exact Hok.
Qed.

Lemma hid_tick_sent b h h' snt s :
  hid_tick b h = (h', snt) -> In s snt ->
  s = SentKeyboard (modifiers h') (keycodes h') \/ s = SentConsumer (consumer h').
Proof.
  unfold hid_tick. destruct (kstale h && k_ready b), (k_accept b); cbn;
  destruct (cstale h && c_ready b), (c_accept b); cbn; intros H; injection H as <- <-; cbn; intuition.
Qed.

Lemma fw_sent L is i f outs o s :
  fw_run L (is ++ [i]) fw_init = Some (f, outs ++ [o]) -> In s (o_sent o) ->
  s = SentKeyboard (modifiers (f_hid f)) (keycodes (f_hid f)) \/ s = SentConsumer (consumer (f_hid f)).
Proof.
  intros H Hs. apply fw_run_snoc in H. destruct H as (f0 & outs0 & o' & _ & Ht & Eo).
  apply app_inj_tail in Eo. destruct Eo as [<- <-].
  apply fw_tick_inv in Ht. destruct Ht as (m1 & h1 & e1 & h2 & e2 & _ & _ & _ & _ & Ht & _).
  apply (hid_tick_sent _ _ _ _ _ Ht Hs).
Qed.

(** ** Delivery *)

Definition cons_inv (h : hid) (v : host) : Prop := cstale h = false -> host_consumer v = consumer h.

Lemma cons_add s u h v : cons_inv h v -> cons_inv (fst (hid_add s u h)) v.
Proof.
  unfold hid_add, cons_inv. destruct s; [auto|]. destruct (page u =? PAGE_KEYBOARD); cbn [fst].
  - unfold addKeycode. destruct (is_modifier _); [auto|]. destruct (existsb _ _); [auto|].
    destruct (fill_slot _ _); auto.
  - destruct (page u =? PAGE_CONSUMER); cbn [fst]; [|auto]. unfold addConsumer.
    destruct (_ =? _); [auto|]. discriminate.
Qed.

Lemma cons_remove u h v : cons_inv h v -> cons_inv (hid_remove u h) v.
Proof.
  unfold hid_remove, cons_inv. destruct (page u =? PAGE_KEYBOARD).
  - unfold removeKeycode. destruct (_ =? 0); [auto|]. destruct (is_modifier _); [auto|].
    destruct (clear_slot _ _); auto.
  - destruct (page u =? PAGE_CONSUMER); [|auto]. unfold addConsumer.
    destruct (_ =? _); [auto|]. discriminate.
Qed.

Lemma cons_mreport L susp k b m h v : cons_inv h v -> cons_inv (snd (fst (mreport L susp k b (m, h)))) v.
Proof.
  intros H. cbn [mreport]. destruct (_ || _); [destruct b; exact H|]. destruct b.
  - cbn. apply cons_remove, cons_remove, H.
  - destruct (_ =? kBOOT); [exact H|]. pose proof (cons_add susp (L (layer m) k) h v H) as Ha.
    destruct (hid_add susp (L (layer m) k) h) as [h' w]. exact Ha.
Qed.

Lemma cons_mreports L susp evs m h v : cons_inv h v -> cons_inv (snd (fst (mreports L susp evs (m, h)))) v.
Proof.
  revert m h; induction evs as [|[k b] evs IH]; intros m h H; cbn [mreports]; [exact H|].
  pose proof (cons_mreport L susp k b m h v H) as H1.
  destruct (mreport L susp k b (m, h)) as [[m1 h1] e1]. cbn in H1. specialize (IH m1 h1 H1).
  destruct (mreports L susp evs (m1, h1)). exact IH.
Qed.

Lemma cons_ereport susp u c t h v : cons_inv h v -> cons_inv (snd (fst (ereport susp u c t h))) v.
Proof.
  intros H. unfold ereport. destruct (negb (t =? 0)); [exact H|].
  destruct (negb (c =? kNONE)); destruct (negb (u =? kNONE)); try exact H; try (apply cons_remove, H).
  - pose proof (cons_add susp u _ v (cons_remove c h v H)) as Ha. destruct (hid_add susp u _). exact Ha.
  - pose proof (cons_add susp u _ v H) as Ha. destruct (hid_add susp u _). exact Ha.
Qed.

Definition see_all (snt : list sent) (v : host) : host := fold_left (fun v s => host_see s v) snt v.

Lemma cons_tick b h v :
  cons_inv h v -> cons_inv (fst (hid_tick b h)) (see_all (snd (hid_tick b h)) v).
Proof.
  unfold cons_inv, hid_tick, see_all. destruct (kstale h && k_ready b), (k_accept b); cbn;
  destruct (cstale h) eqn:Ec, (c_ready b), (c_accept b); cbn; rewrite ?Ec; auto; try discriminate.
Qed.

Lemma fw_host_snoc outs o : fw_host (outs ++ [o]) = see_all (o_sent o) (fw_host outs).
Proof.
  unfold fw_host, see_all. rewrite flat_map_app, fold_left_app. cbn [flat_map]. rewrite app_nil_r. reflexivity.
Qed.

Lemma fw_cons_inv L is f outs : fw_run L is fw_init = Some (f, outs) -> cons_inv (f_hid f) (fw_host outs).
Proof.
  revert f outs; induction is as [|i is IH] using rev_ind; intros f outs H.
  - injection H as <- <-. intros _. reflexivity.
  - apply fw_run_snoc in H. destruct H as (f0 & outs0 & o & H0 & Ht & ->). specialize (IH _ _ H0).
    apply fw_tick_inv in Ht. destruct Ht as (m1 & h1 & e1 & h2 & e2 & _ & Hm & _ & He & Hh & _).
    apply (cons_mreports L (i_susp i) (o_reports o) (f_mat f0)) in IH. rewrite Hm in IH. cbn in IH.
    apply (cons_ereport (i_susp i) (o_usage o) (e_current (f_enc f0)) (e_timeout (f_enc f0))) in IH.
    rewrite He in IH. cbn in IH. apply (cons_tick (i_bus i)) in IH. rewrite Hh in IH. cbn in IH.
    rewrite fw_host_snoc. exact IH.
Qed.

Lemma fw_consumer_delivered L is i f outs :
  fw_run L (is ++ [i]) fw_init = Some (f, outs) ->
  c_ready (i_bus i) = true -> c_accept (i_bus i) = true ->
  host_consumer (fw_host outs) = consumer (f_hid f).
Proof.
  intros H Hr Ha. apply (fw_cons_inv _ _ _ _ H).
  apply fw_run_snoc in H. destruct H as (f0 & outs0 & o & _ & Ht & _).
  apply fw_tick_inv in Ht. destruct Ht as (m1 & h1 & e1 & h2 & e2 & _ & _ & _ & _ & Hh & _).
  unfold hid_tick in Hh. rewrite Hr, Ha in Hh.
  destruct (kstale h2 && k_ready (i_bus i)); cbn in Hh; destruct (cstale h2) eqn:Ec; cbn in Hh;
    injection Hh as <- _; cbn; auto.
Qed.

(** keyboard interface: guaranteed unless a modifier call was redundant *)

Definition kb_inv (h : hid) (v : host) : Prop :=
  kstale h = false -> host_mods v = modifiers h /\ host_codes v = keycodes h.

Lemma lor_new m n : 0 <= n -> Z.testbit m n = false -> (Z.lor m (Z.shiftl 1 n) =? m) = false.
Proof.
  intros Hn Hb. apply Z.eqb_neq. intros E.
  assert (Ht : Z.testbit (Z.lor m (Z.shiftl 1 n)) n = true).
  { rewrite Z.lor_spec, pow2_bit by lia. rewrite Z.eqb_refl. apply orb_true_r. }
  rewrite E, Hb in Ht. discriminate.
Qed.

Lemma land_old m n : 0 <= n <= 7 -> Z.testbit m n = true -> (Z.land m (255 - Z.shiftl 1 n) =? m) = false.
Proof.
  intros Hn Hb. apply Z.eqb_neq. intros E.
  assert (Ht : Z.testbit (Z.land m (255 - Z.shiftl 1 n)) n = false).
  { rewrite Z.land_spec, mask_bit by lia. rewrite Z.eqb_refl. apply andb_false_r. }
  rewrite E, Hb in Ht. discriminate.
Qed.

Lemma kb_step o h v :
  redundant o h = false -> kb_inv h v ->
  kb_inv (fst (apply_hop o h)) (see_all (snd (apply_hop o h)) v).
Proof.
  intros Hr H. destruct o as [s u|u|b]; cbn [apply_hop fst snd see_all fold_left].
  - unfold hid_add. destruct s; [exact H|]. cbn [redundant] in Hr.
    destruct (page u =? PAGE_KEYBOARD); cbn [fst andb] in *.
    + unfold addKeycode. destruct (is_modifier (code8 u)) eqn:Em; cbn [andb] in Hr.
      * unfold pressed in Hr. rewrite Em in Hr. apply is_modifier_range in Em.
        unfold kb_inv; cbn. rewrite lor_new by (try exact Hr; lia). discriminate.
      * destruct (existsb _ _); [exact H|]. destruct (fill_slot _ _); [|exact H]. discriminate.
    + destruct (page u =? PAGE_CONSUMER); cbn [fst]; [|exact H]. unfold addConsumer.
      destruct (_ =? _); exact H.
  - unfold hid_remove. cbn [redundant] in Hr. destruct (page u =? PAGE_KEYBOARD); cbn [andb] in Hr.
    + unfold removeKeycode. destruct (_ =? 0); [exact H|].
      destruct (is_modifier (code8 u)) eqn:Em; cbn [andb] in Hr.
      * unfold pressed in Hr. rewrite Em in Hr. apply negb_false_iff in Hr. apply is_modifier_range in Em.
        unfold kb_inv; cbn [kstale]. rewrite land_old by (try exact Hr; lia). discriminate.
      * destruct (clear_slot _ _); [|exact H]. discriminate.
    + destruct (page u =? PAGE_CONSUMER); [|exact H]. unfold addConsumer.
      destruct (_ =? _); exact H.
  - unfold kb_inv in *. unfold hid_tick. destruct (kstale h) eqn:Ek, (k_ready b), (k_accept b); cbn;
    destruct (cstale h && c_ready b), (c_accept b); cbn; rewrite ?Ek; auto; discriminate.
Qed.

Lemma kb_delivery ops :
  none_redundant ops -> kb_inv (hstate ops) (hhost ops).
Proof.
  induction ops as [|o ops IH]; intros H.
  - intros _. split; reflexivity.
  - destruct H as [Hr Hn]. cbn [hstate hhost]. apply kb_step; [exact Hr|apply IH; exact Hn].
Qed.

Lemma kb_delivered ops b :
  none_redundant ops -> k_ready b = true -> k_accept b = true ->
  host_mods (hhost (HTick b :: ops)) = modifiers (hstate (HTick b :: ops)) /\
  host_codes (hhost (HTick b :: ops)) = keycodes (hstate (HTick b :: ops)).
Proof.
  intros H Hr Ha. apply kb_delivery; [split; [reflexivity|exact H]|].
  cbn [hstate apply_hop]. unfold hid_tick. rewrite Hr, Ha.
  destruct (kstale (hstate ops)) eqn:Ek; cbn; destruct (_ && _); cbn; auto.
Qed.

(* any call that changes the report makes the next ready tick deliver all of it,
   whatever was lost before *)
Lemma kb_resync o ops b :
  keycodes (hstate (o :: ops)) <> keycodes (hstate ops) \/
  modifiers (hstate (o :: ops)) <> modifiers (hstate ops) ->
  k_ready b = true -> k_accept b = true ->
  host_mods (hhost (HTick b :: o :: ops)) = modifiers (hstate (HTick b :: o :: ops)) /\
  host_codes (hhost (HTick b :: o :: ops)) = keycodes (hstate (HTick b :: o :: ops)).
Proof.
  intros Hch Hr Ha.
  assert (Hst : kstale (hstate (o :: ops)) = true).
  { cbn [hstate] in *. set (h := hstate ops) in *. clearbody h. destruct o as [s u|u|b']; cbn [apply_hop fst] in *.
    - unfold hid_add in *. destruct s; [cbn in Hch; tauto|].
      destruct (page u =? PAGE_KEYBOARD); cbn [fst] in *.
      + unfold addKeycode in *. destruct (is_modifier _).
        * cbn [keycodes modifiers kstale] in *. apply negb_true_iff, Z.eqb_neq. tauto.
        * destruct (existsb _ _); [tauto|]. destruct (fill_slot _ _); [reflexivity|tauto].
      + destruct (page u =? PAGE_CONSUMER); cbn [fst] in *; [|tauto].
        unfold addConsumer in *. destruct (_ =? _); cbn in Hch; tauto.
    - unfold hid_remove in *. destruct (page u =? PAGE_KEYBOARD).
      + unfold removeKeycode in *. destruct (_ =? 0); [tauto|]. destruct (is_modifier _).
        * cbn [keycodes modifiers kstale] in *. apply negb_true_iff, Z.eqb_neq. tauto.
        * destruct (clear_slot _ _); [reflexivity|tauto].
      + destruct (page u =? PAGE_CONSUMER); [|tauto].
        unfold addConsumer in *. destruct (_ =? _); cbn in Hch; tauto.
    - destruct (hid_tick_data b' h) as (E1 & E2 & _). rewrite E1, E2 in Hch. tauto. }
  cbn [hhost hstate apply_hop] in *. set (h := fst (apply_hop o (hstate ops))) in *.
  unfold hid_tick. rewrite Hst, Hr, Ha. cbn. destruct (cstale h && c_ready b); cbn; [destruct (c_accept b)|]; cbn; auto.
Qed.
