(** Faces of brackets and the cable lie in planes. *)
From Coq Require Import Reals Lra Psatz ZArith List Bool Lia Arith.
From Verif Require Import Num GeoModel GeoSpec GeoMat GeoRigid GeoPlane EdgeModel ArcModel ArcSpec ArcProof MeshModel KeyModel LayoutModel LayoutProof BracketModel BumperModel PartProof PlanMove EdgeReal BossProof PlanSpec BodyFlat BodyReal BrSpec BrProof CableProof FlatSpec.
Import ListNotations.
Open Scope R_scope.

Lemma coplanar_incl l l' : (forall p, In p l -> In p l') -> coplanar l' -> coplanar l.
Proof. intros I (n & r & U & H). exists n, r. split; [exact U|]. intros p Hp. apply H, I, Hp. Qed.
Lemma coplanar_on pl l : wf_plane pl -> Forall (on_plane pl) l -> coplanar l.
Proof.
  intros W H. exists (pnormal pl), (inner (ppos pl) (pnormal pl)). split; [exact W|]. intros p I. rewrite Forall_forall in H. specialize (H p I). unfold on_plane in H.
  destruct (ppos pl) as [a1 a2 a3], (pnormal pl) as [n1 n2 n3], p as [p1 p2 p3]. unfold inner, minus, X, Y, Z, P in *. cbn [vx vy vz] in *. lra.
Qed.
Definition xs (m : R) (l : list pt) : Prop := Forall (fun p => X p = m) l.
Definition ys (m : R) (l : list pt) : Prop := Forall (fun p => Y p = m) l.
Definition zs (m : R) (l : list pt) : Prop := Forall (fun p => Z p = m) l.
Lemma coplanar_x m l : xs m l -> coplanar l.
Proof. intros H. exists (P 1 0 0), m. split; [unfold unit_vec, inner, P, X, Y, Z; cbn [vx vy vz]; ring|]. intros p I. unfold xs in H. rewrite Forall_forall in H. specialize (H p I). rewrite <- H. unfold inner, P, X, Y, Z. cbn [vx vy vz]. ring. Qed.
Lemma coplanar_y m l : ys m l -> coplanar l.
Proof. intros H. exists (P 0 1 0), m. split; [unfold unit_vec, inner, P, X, Y, Z; cbn [vx vy vz]; ring|]. intros p I. unfold ys in H. rewrite Forall_forall in H. specialize (H p I). rewrite <- H. unfold inner, P, X, Y, Z. cbn [vx vy vz]. ring. Qed.
Lemma coplanar_z m l : zs m l -> coplanar l.
Proof. intros H. exists (P 0 0 1), m. split; [unfold unit_vec, inner, P, X, Y, Z; cbn [vx vy vz]; ring|]. intros p I. unfold zs in H. rewrite Forall_forall in H. specialize (H p I). rewrite <- H. unfold inner, P, X, Y, Z. cbn [vx vy vz]. ring. Qed.
Lemma coplanar_beside a b l : Forall (beside a b) l -> (Y a = Y b -> Z a = Z b -> coplanar l) -> coplanar l.
Proof.
  intros H D. set (y := Y b - Y a). set (z := Z b - Z a).
  destruct (Req_EM_T (y * y + z * z) 0) as [E|N].
  { apply D; [assert (y = 0) by nra; unfold y in *; lra|assert (z = 0) by nra; unfold z in *; lra]. }
  assert (Q : 0 < y * y + z * z) by nra. pose proof (sqrt_lt_R0 _ Q) as S. pose proof (sqrt_sqrt _ (Rlt_le _ _ Q)) as SS. set (s := sqrt (y * y + z * z)) in *.
  exists (P 0 (- z / s) (y / s)), ((- z * Y a + y * Z a) / s). split.
  - unfold unit_vec, inner, P, X, Y, Z. cbn [vx vy vz]. transitivity ((y * y + z * z) / (s * s)); [field; lra|]. rewrite SS. field. lra.
  - intros p I. rewrite Forall_forall in H. specialize (H p I). unfold beside in H. fold y z in H.
    replace (inner p (P 0 (- z / s) (y / s))) with ((- z * Y p + y * Z p) / s) by (destruct p as [p1 p2 p3]; unfold inner, P, X, Y, Z; cbn [vx vy vz]; field; lra). unfold Rdiv. f_equal. lra.
Qed.
(* every face of a mesh *)
Definition all_flat (m : @mesh Rnum) : Prop := Forall flat_face (faces m).
Lemma all_meshes (Q : list pt * list (list pt) -> Prop) l : Forall (fun m => Forall Q (faces m)) l -> Forall Q (faces (meshes l)).
Proof. induction 1 as [|m l H _ IH]; [constructor|]. cbn [meshes faces]. apply Forall_app. split; assumption. Qed.
Lemma in_face_x m e hs : xs m e -> Forall (xs m) hs -> flat_face (e, hs).
Proof. intros H K. apply (coplanar_x m). apply Forall_app. split; [exact H|]. apply Forall_concat. exact K. Qed.
Lemma xs_app m l l' : xs m l -> xs m l' -> xs m (l ++ l'). Proof. intros. apply Forall_app. auto. Qed.
Lemma xs_cons m p l : X p = m -> xs m l -> xs m (p :: l). Proof. intros; unfold xs; constructor; assumption. Qed.
Lemma xs_rev m l : xs m l -> xs m (rev l). Proof. apply Forall_rev. Qed.
Lemma xs_nil m : xs m []. Proof. constructor. Qed.
Lemma in_all (Q : pt -> Prop) l l' : (forall p, In p l' -> In p l) -> Forall Q l -> Forall Q l'.
Proof. intros I H. rewrite Forall_forall in *. auto. Qed.
Lemma all_collapsed (Q : pt -> Prop) l t : Forall Q l -> Forall Q (collapsed l t).
Proof. apply in_all. intros p. apply collapsed_in. Qed.
Lemma xs_shift m l : flats l -> xs m (etranslated l (V m (nZ 0) (nZ 0))).
Proof. intros H. unfold etranslated, xs. apply Forall_forall. intros p I. apply in_map_iff in I. destruct I as (p0 & <- & I). pose proof (flats_in _ _ H I) as F. change (X p0 + m = m). unfold flat in F. rewrite F. ring. Qed.
Lemma x_shift m p : flat p -> X (vadd p (V m (nZ 0) (nZ 0))) = m.
Proof. intros F. change (X p + m = m). unfold flat in F. rewrite F. ring. Qed.
Lemma mirrored_x (f : list pt * list (list pt)) m : xs m (fst f) -> Forall (xs m) (snd f) -> xs m (map vmirY (fst f)) /\ Forall (xs m) (map (map vmirY) (snd f)).
Proof.
  intros A B. split.
  - apply Forall_forall. intros p I. apply in_map_iff in I. destruct I as (p0 & <- & I). unfold xs in A. rewrite Forall_forall in A. exact (A p0 I).
  - apply Forall_forall. intros h I. apply in_map_iff in I. destruct I as (h0 & <- & I). rewrite Forall_forall in B. specialize (B h0 I). apply Forall_forall. intros p J. apply in_map_iff in J. destruct J as (p0 & <- & J). unfold xs in B. rewrite Forall_forall in B. exact (B p0 J).
Qed.
(* at one x *)
Definition face_x (f : list pt * list (list pt)) : Prop := exists m, xs m (fst f) /\ Forall (xs m) (snd f).
Lemma face_x_flat f : face_x f -> flat_face f.
Proof. destruct f as [e hs]. intros (m & A & B). exact (in_face_x m e hs A B). Qed.
Ltac xf := repeat first [assumption | apply xs_nil | apply xs_cons | apply xs_app | apply xs_rev | apply xs_shift | apply all_collapsed | apply x_shift | fl].

Section Br.
Variable q : @quality Rnum.
Variable taper : option R.
Variable pmod : R -> R -> R.
Variable pasin : R -> res R.
Variable c : @bracket_cfg Rnum.
Let M : R := br_holeLength c + br_boreLength c.
Lemma screw_faces (ce : pt) s up m hl hr : flat ce -> screwHole q taper c ce s up = Ok (m, hl, hr) -> flats hl /\ xs M hr /\ Forall face_x (faces m).
Proof.
  intros F H. unfold screwHole in H. cbv zeta in H. apply bind_ok in H. destruct H as (hole & EH & H). apply bind_ok in H. destruct H as (bore & EB & H). apply Ok_inj in H.
  apply pair_inj in H. destruct H as [H E3]. apply pair_inj in H. destruct H as [E1 E2]. unfold flat in F.
  assert (SH : forall (l : list pt) (cx : pt) m0, X cx = m0 -> xs m0 (etranslated (map (fun p => V (nZ 0) (nopp (vx p)) (vy p)) l) cx)).
  { intros l cx m0 E. unfold etranslated. rewrite map_map. apply Forall_forall. intros p I. apply in_map_iff in I. destruct I as (p0 & <- & _). change (0 + X cx = m0). rewrite E. ring. }
  assert (HR : xs (br_holeLength c) (etranslated (map (fun p => V (nZ 0) (nopp (vx p)) (vy p)) hole) (vadd ce (V (br_holeLength c) (nZ 0) (nZ 0))))) by (apply SH; apply x_shift; exact F).
  assert (BL : xs (br_holeLength c) (map (fun p => vadd (V (nZ 0) (nopp (vx p)) (vy p)) (vadd ce (V (br_holeLength c) (nZ 0) (nZ 0)))) bore)).
  { apply Forall_forall. intros p I. apply in_map_iff in I. destruct I as (p0 & <- & _). change (0 + (X ce + br_holeLength c) = br_holeLength c). rewrite F. ring. }
  split; [|split].
  - rewrite <- E2. exact (SH hole ce 0 F).
  - rewrite <- E3. unfold etranslated at 1. apply Forall_forall. intros p I. apply in_map_iff in I. destruct I as (p0 & <- & I). unfold xs in BL. rewrite Forall_forall in BL. specialize (BL p0 I). change (X p0 + br_boreLength c = M). rewrite BL. reflexivity.
  - rewrite <- E1. cbn [meshes faces app]. constructor; [|constructor]. exists (br_holeLength c). cbn [fst snd]. split; [apply xs_rev; exact BL|]. constructor; [exact HR|constructor].
Qed.
Lemma zip_faces kc k z : ziptie q pasin c kc k = Ok z -> flat_sketch k -> flats (zHole z) /\ Forall face_x (faces (zMesh z)).
Proof.
  intros H (S1 & S2 & S3 & S4 & S5 & S6 & S7 & S8 & S9). unfold ziptie in H. cbv zeta in H.
  apply bind_ok in H; destruct H as (l1 & H1 & H). assert (F1 : flat_line l1) by fl.
  apply bind_ok in H; destruct H as (l2 & H2 & H). assert (F2 : flat_line l2) by fl.
  apply bind_ok in H; destruct H as (hc & H3 & H). assert (F3 : flat hc) by fl.
  destruct (nltb _ _); [discriminate|].
  apply bind_ok in H; destruct H as (r & _ & H). apply bind_ok in H; destruct H as (mh & _ & H).
  apply bind_ok in H; destruct H as (ha & H4 & H). set (arc := map _ ha) in *. assert (F4 : flats arc) by (apply flats_map; intros p _; fl).
  clearbody arc.
  apply bind_ok in H; destruct H as (h0 & H5 & H). assert (F5 : flat h0) by (apply (flats_in arc); [exact F4|exact (pyidx_in _ _ _ H5)]).
  apply bind_ok in H; destruct H as (h1 & H6 & H). assert (F6 : flat h1) by (apply (flats_in arc); [exact F4|exact (pyidx_in _ _ _ H6)]).
  apply bind_ok in H; destruct H as (l3 & H7 & H). assert (F7 : flat_line l3) by fl.
  apply bind_ok in H; destruct H as (l4 & H8 & H). assert (F8 : flat_line l4) by fl.
  apply bind_ok in H; destruct H as (l5 & H9 & H). assert (F9 : flat_line l5) by fl.
  apply bind_ok in H; destruct H as (p1 & H10 & H). assert (F10 : flat p1) by fl.
  apply bind_ok in H; destruct H as (p2 & H11 & H). assert (F11 : flat p2) by fl.
  apply bind_ok in H; destruct H as (p3 & H12 & H). assert (F12 : flat p3) by fl.
  apply bind_ok in H; destruct H as (za & H13 & H). apply bind_ok in H; destruct H as (z0 & H14 & H). apply bind_ok in H; destruct H as (al & H15 & H).
  set (hl := map _ (_ ++ _)) in *. assert (F13 : flats hl) by (apply flats_map; intros p _; fl). clearbody hl.
  assert (F14 : flats (if nleb (vz z0) (vz al) then etranslated hl (vscale (csTaperDir k) (vmag (vsub z0 al))) else hl)) by (destruct (nleb _ _); fl).
  set (hl' := if nleb _ _ then _ else _) in *. clearbody hl'. apply Ok_inj in H. subst z. cbn [zHole zMesh]. split; [exact F14|].
  cbn [meshes faces app]. constructor; [|constructor]. exists (ca_humpWidth kc / 2). cbn [fst snd]. split; [|constructor].
  apply all_collapsed. xf.
Qed.
Lemma corner_fwd_faces cable (a b d : pt) extra inset s r : flat a -> flat b -> flat d -> cornerFwd q taper pmod pasin c cable a b d extra inset s = Ok r ->
  Forall flats (cbHoles r) /\ Forall face_x (faces (cbMesh r)).
Proof.
  intros A B D H. unfold cornerFwd in H. cbv zeta in H. apply bind_ok in H; destruct H as (k & Hk & H).
  pose proof (cornerLines_flat _ _ _ _ _ _ _ _ _ Hk A B D) as F. apply bind_ok in H; destruct H as (((hm & hl) & hr) & HS & H).
  pose proof F as (S1 & S2 & S3 & S4 & S5 & S6 & S7 & S8 & S9). destruct (screw_faces _ _ _ _ _ _ S1 HS) as (F1 & F2 & F3).
  assert (E : xs M (etranslated (csLBG k :: csArc k ++ [csLFT k]) (V (nadd (br_holeLength c) (br_boreLength c)) (nZ 0) (nZ 0)))).
  { apply xs_shift. fl. }
  set (ar := etranslated _ _) in *. clearbody ar.
  assert (BASE : face_x (rev (collapsed (ar ++ [vadd a (V (nadd (br_holeLength c) (br_boreLength c)) (nZ 0) (nZ 0)); vadd d (V (nadd (br_holeLength c) (br_boreLength c)) (nZ 0) (nZ 0))]) mu), [hr])).
  { exists M. cbn [fst snd]. split; [|constructor; [exact F2|constructor]]. apply xs_rev, all_collapsed, xs_app; [exact E|]. repeat (apply xs_cons; [apply x_shift; assumption|]). apply xs_nil. }
  destruct cable as [kc|].
  - apply bind_ok in H; destruct H as (z & Hz & H). destruct (zip_faces _ _ _ Hz F) as (Z1 & Z2). do 6 (apply bind_ok in H; destruct H as (? & _ & H)). apply Ok_inj in H. subst r. cbn [cbHoles cbMesh].
    split; [repeat constructor; fl|]. cbn [faces]. repeat (apply Forall_app; split); try assumption; try constructor; [exact BASE|constructor].
  - apply Ok_inj in H. subst r. cbn [cbHoles cbMesh]. split; [repeat constructor; fl|]. cbn [faces]. repeat (apply Forall_app; split); try assumption; try constructor; [exact BASE|constructor].
Qed.
Lemma corner_faces cable (a b d : pt) s r : cornerBracket q taper pmod pasin c cable a b d s = Ok r -> Forall flats (cbHoles r) /\ Forall face_x (faces (cbMesh r)).
Proof.
  intros H. unfold cornerBracket in H. destruct (nltb _ _).
  - apply bind_ok in H. destruct H as (r' & H & E). apply Ok_inj in E. subst r. cbn [cbHoles cbMesh]. destruct (corner_fwd_faces _ _ _ _ _ _ _ _ (flat_mirY _ (yz_flat a)) (flat_mirY _ (yz_flat b)) (flat_mirY _ (yz_flat d)) H) as (A & B). split.
    + apply Forall_forall. intros h I. apply in_map_iff in I. destruct I as (h0 & <- & I). rewrite Forall_forall in A. apply flats_rev, flats_map. intros p J. apply flat_mirY. exact (flats_in _ _ (A h0 I) J).
    + cbn [faces]. apply Forall_forall. intros f I. apply in_map_iff in I. destruct I as (f0 & <- & I). rewrite Forall_forall in B. destruct (B f0 I) as (m & Q1 & Q2). exists m. exact (mirrored_x f0 m Q1 Q2).
  - exact (corner_fwd_faces _ _ _ _ _ _ _ _ (yz_flat a) (yz_flat b) (yz_flat d) H).
Qed.
End Br.
