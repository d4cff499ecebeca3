(** Boolean checks of the hypotheses of the closed-mesh theorems, used in Examples
    to run them on concrete settings. *)
From Coq Require Import ZArith List Bool Lia Arith.
From Verif Require Import Num GeoModel EdgeModel EdgeSpec EdgeMesh MeshModel MeshSpec MeshProof.
Import ListNotations.

Section Check.
Context {N : Num}.
(* directed edges *)
Definition dedge := (vec * vec)%type.
Definition dedges (ts : list tri) : list dedge := flat_map (fun t => [(ta t, tb t); (tb t, tc t); (tc t, ta t)]) ts.
Fixpoint steps (l : list vec) : list dedge := match l with a :: ((b :: _) as r) => (a, b) :: steps r | _ => [] end.
Definition flip (e : dedge) : dedge := (snd e, fst e).
Definition deq (e e' : dedge) : bool := veqb (fst e) (fst e') && veqb (snd e) (snd e').
(* remove one edge equal to e *)
Fixpoint take (e : dedge) (l : list dedge) : option (list dedge) :=
  match l with
  | [] => None
  | x :: r => if deq e x then Some r else match take e r with Some r' => Some (x :: r') | None => None end
  end.
(* cancel opposite edges; keep the rest *)
Fixpoint cancel (l kept : list dedge) : list dedge :=
  match l with
  | [] => kept
  | e :: r => match take (flip e) kept with Some k => cancel r k | None => cancel r (e :: kept) end
  end.
Definition exactb (ts : list tri) (paths : list (list vec)) : bool :=
  match cancel (dedges ts ++ map flip (flat_map steps paths)) [] with [] => true | _ => false end.

Definition sameb (p q : vec) : bool := veqb p q.
Definition solidb (t : tri) : bool := match tbool t with Ok b => b | Err _ => false end.
Definition flatb (t : tri) : bool := match tbool t with Ok b => negb b | Err _ => false end.
Definition clean_quadb (a b c d : vec) : bool :=
  let abc := solidb (mkTri a b c) in let cda := solidb (mkTri c d a) in
  let abd := solidb (mkTri a b d) in let dbc := solidb (mkTri d b c) in
  (abc && cda && abd) || (abc && cda && dbc) || (abc && abd && dbc) || (cda && abd && dbc) ||
  (flatb (mkTri a b c) && flatb (mkTri c d a) && flatb (mkTri a b d) && flatb (mkTri d b c) && (sameb a c || sameb b d)) ||
  ((abc || sameb a b || sameb b c) && (cda || sameb c d || sameb d a) &&
   (abd || sameb d a || sameb a b) && (dbc || sameb b c || sameb c d)).
Definition clean_stripb (s o : list vec) (cl : bool) : bool :=
  forallb (fun i => clean_quadb (stop s cl vzero i) (stop s cl vzero (S i)) (stop o cl vzero (S i)) (stop o cl vzero i))
    (seq 0 (Nat.max (length (outline s cl)) (length (outline o cl)))).
Variable fill : list vec -> list (list vec) -> res (list tri).
Definition exact_faceb (e : list vec) (hs : list (list vec)) : bool :=
  match fill e hs with Ok ts => exactb ts (outline e true :: map (fun h => outline h true) hs) | Err _ => true end.
Fixpoint sound_meshb (m : mesh) : bool :=
  match m with
  | MEmpty | Tris _ => true
  | Strip s o cl => clean_stripb s o cl
  | Fill e hs => exact_faceb e hs
  | Plus m1 m2 => sound_meshb m1 && sound_meshb m2
  | Moved g m | Flipped g m => sound_meshb m
  end.

(** ** the checks are sound *)
Definition wsum (f : weight) (l : list dedge) : Z := fold_right (fun e s => (f (fst e) (snd e) + s)%Z) 0%Z l.
Lemma wsum_app f l1 l2 : wsum f (l1 ++ l2) = (wsum f l1 + wsum f l2)%Z.
Proof. induction l1 as [|e l IH]; cbn; [reflexivity|]. fold (wsum f (l ++ l2)). rewrite IH. fold (wsum f l). lia. Qed.
Lemma w_deq f e e' : is_weight f -> deq e e' = true -> f (fst e) (snd e) = f (fst e') (snd e').
Proof.
  intros [A B] H. apply andb_prop in H. destruct H as (H1 & H2).
  rewrite (B _ _ (snd e) H1), (A (fst e')), (B _ _ (fst e') H2). rewrite (A (snd e')). lia.
Qed.
Lemma take_sum f e l r : is_weight f -> take e l = Some r -> wsum f l = (f (fst e) (snd e) + wsum f r)%Z.
Proof.
  intros W. revert r. induction l as [|x l IH]; intros r H; cbn in H; [discriminate|].
  destruct (deq e x) eqn:E.
  - injection H as <-. cbn. rewrite (w_deq f e x W E). reflexivity.
  - destruct (take e l) as [r'|] eqn:T; [|discriminate]. injection H as <-. cbn. fold (wsum f l). rewrite (IH r' eq_refl).
    fold (wsum f r'). lia.
Qed.
Lemma cancel_sum f l : is_weight f -> forall kept, wsum f (cancel l kept) = (wsum f l + wsum f kept)%Z.
Proof.
  intros W. induction l as [|e l IH]; intros kept; cbn [cancel]; [reflexivity|].
  destruct (take (flip e) kept) as [k|] eqn:T; rewrite IH.
  - rewrite (take_sum f _ _ _ W T). cbn. fold (wsum f l). rewrite (proj1 W (snd e)). lia.
  - cbn. fold (wsum f l) (wsum f kept). lia.
Qed.
Lemma wsum_dedges f ts : wsum f (dedges ts) = flux f ts.
Proof.
  induction ts as [|t ts IH]; [reflexivity|]. unfold flux in *. cbn [fold_right]. unfold dedges in *. cbn [flat_map].
  rewrite wsum_app, IH. unfold circ. cbn. lia.
Qed.
Lemma wsum_steps f l : wsum f (steps l) = walk f l.
Proof. induction l as [|a [|b l] IH]; [reflexivity|reflexivity|]. cbn [steps walk wsum fold_right fst snd] in *. unfold wsum in *. rewrite IH. reflexivity. Qed.
Lemma wsum_flip f l : is_weight f -> wsum f (map flip l) = (- wsum f l)%Z.
Proof. intros W. induction l as [|e l IH]; [reflexivity|]. cbn. fold (wsum f (map flip l)) (wsum f l). rewrite IH, (proj1 W (snd e)). lia. Qed.
Lemma exactb_sound ts paths : exactb ts paths = true -> forall f, is_weight f ->
  flux f ts = fold_right (fun l s => (walk f l + s)%Z) 0%Z paths.
Proof.
  intros H f W. unfold exactb in H. destruct (cancel _ _) eqn:C; [|discriminate]. clear H.
  pose proof (cancel_sum f (dedges ts ++ map flip (flat_map steps paths)) W []) as K. rewrite C in K.
  rewrite wsum_app, wsum_dedges, wsum_flip in K by exact W. cbn in K.
  assert (E : wsum f (flat_map steps paths) = fold_right (fun l s => (walk f l + s)%Z) 0%Z paths).
  { clear. induction paths as [|l ls IH]; [reflexivity|]. cbn [flat_map fold_right]. rewrite wsum_app, IH, wsum_steps. reflexivity. }
  rewrite <- E. lia.
Qed.

Lemma solidb_true t : solidb t = true -> tbool t = Ok true.
Proof. unfold solidb. destruct (tbool t) as [b|]; [intros ->; reflexivity|discriminate]. Qed.
Lemma flatb_true t : flatb t = true -> tbool t = Ok false.
Proof. unfold flatb. destruct (tbool t) as [[|]|]; (discriminate || reflexivity). Qed.
Lemma clean_quadb_sound a b c d : clean_quadb a b c d = true -> clean_quad a b c d.
Proof.
  unfold clean_quadb. intros H. rewrite (orb_comm _ ((flatb _ && _ && _ && _) && _)), <- orb_assoc in H. apply orb_prop in H.
  destruct H as [H|H].
  { right. left. apply andb_prop in H. destruct H as (H & H5). apply andb_prop in H. destruct H as (H & H4). apply andb_prop in H. destruct H as (H & H3).
    apply andb_prop in H. destruct H as (H1 & H2). unfold flat_quad. rewrite !flatb_true by assumption.
    split; [reflexivity|]. split; [reflexivity|]. split; [reflexivity|]. split; [reflexivity|]. apply orb_prop in H5. unfold same, sameb in *. tauto. }
  unfold clean_quad, solid_quad, sameb in *.
  pose proof (solidb_true (mkTri a b c)) as A1. pose proof (solidb_true (mkTri c d a)) as A2.
  pose proof (solidb_true (mkTri a b d)) as A3. pose proof (solidb_true (mkTri d b c)) as A4.
  destruct (solidb (mkTri a b c)), (solidb (mkTri c d a)), (solidb (mkTri a b d)), (solidb (mkTri d b c));
    cbn in H; try (left; intuition; fail); right; right; unfold same;
    (destruct (veqb a b) eqn:E1; destruct (veqb b c) eqn:E2; destruct (veqb c d) eqn:E3; destruct (veqb d a) eqn:E4; cbn in H; try discriminate H; intuition).
Qed.
Hypothesis veqb_refl : forall p, veqb p p = true.
Lemma clean_stripb_sound s o cl : clean_stripb s o cl = true -> clean_strip s o cl vzero.
Proof.
  intros H i. unfold clean_stripb in H. rewrite forallb_forall in H.
  destruct (le_lt_dec (Nat.max (length (outline s cl)) (length (outline o cl))) i) as [L|L].
  - assert (E1 : stop s cl vzero i = stop s cl vzero (S i)) by (unfold stop; rewrite !Nat.min_l by lia; reflexivity).
    assert (E2 : stop o cl vzero i = stop o cl vzero (S i)) by (unfold stop; rewrite !Nat.min_l by lia; reflexivity).
    right. right. rewrite <- E1, <- E2. unfold same. intuition.
  - apply clean_quadb_sound, H, in_seq. lia.
Qed.
Hypothesis veqb_eq : forall p q, veqb p q = true -> p = q.
Theorem sound_meshb_sound m : sound_meshb m = true -> sound_mesh (exact_face fill) m.
Proof.
  induction m as [|s o cl|e hs|l|m1 IH1 m2 IH2|g m IH|g m IH]; cbn; intros H; try exact I.
  - apply clean_stripb_sound, H.
  - intros ts E. unfold exact_faceb in H. rewrite E in H. apply exactb_sound, H.
  - apply andb_prop in H. destruct H. split; auto.
  - split; [|auto]. intros p r K. apply veqb_eq in K. subst. apply veqb_refl.
  - split; [|auto]. intros p r K. apply veqb_eq in K. subst. apply veqb_refl.
Qed.
End Check.
