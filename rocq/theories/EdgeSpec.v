(** Vocabulary for the meshing theorems: weights of directed edges.

    A mesh is closed when every directed edge u->v is used as often as its
    reverse v->u.  We state boundary laws for every antisymmetric weight f on
    directed edges that does not distinguish points that compare equal; taking
    f = (count of u->v) - (count of v->u) gives the statement about counts. *)
From Coq Require Import ZArith List Bool Lia.
From Verif Require Import Num GeoModel.
Import ListNotations.

Section Spec.
Context {N : Num}.
Open Scope Z_scope.

Definition weight := vec -> vec -> Z.
Definition is_weight (f : weight) : Prop :=
  (forall u v, f u v = - f v u) /\ (forall u v w, veqb u v = true -> f u w = f v w).

(* circulation around one triangle, and over a mesh *)
Definition circ (f : weight) (t : tri) : Z := f (ta t) (tb t) + f (tb t) (tc t) + f (tc t) (ta t).
Definition flux (f : weight) (ts : list tri) : Z := fold_right (fun t s => circ f t + s) 0 ts.

(* weight of a walk along consecutive points *)
Fixpoint walk (f : weight) (l : list vec) : Z :=
  match l with
  | a :: ((b :: _) as r) => f a b + walk f r
  | _ => 0
  end.
(* the points visited when running along an edge, back to the start if closed *)
Definition outline (l : list vec) (isClosed : bool) : list vec :=
  if isClosed then l ++ firstn 1 l else l.
(* the i-th point visited, staying at the last one *)
Definition stop (l : list vec) (isClosed : bool) (d : vec) (i : nat) : vec :=
  nth (Nat.min (length (outline l isClosed) - 1) i) (outline l isClosed) d.

(* how often the directed edge u -> v is used *)
Definition uses (eqv : vec -> vec -> bool) (u v : vec) (t : tri) : Z :=
  (if eqv (ta t) u && eqv (tb t) v then 1 else 0) +
  (if eqv (tb t) u && eqv (tc t) v then 1 else 0) +
  (if eqv (tc t) u && eqv (ta t) v then 1 else 0).
Definition mesh_uses (eqv : vec -> vec -> bool) (u v : vec) (ts : list tri) : Z :=
  fold_right (fun t s => uses eqv u v t + s) 0 ts.

(* how often a path steps from u to v *)
Fixpoint path_uses (eqv : vec -> vec -> bool) (u v : vec) (l : list vec) : Z :=
  match l with
  | a :: ((b :: _) as r) => (if eqv a u && eqv b v then 1 else 0) + path_uses eqv u v r
  | _ => 0
  end.
(* a notion of "same point" at least as coarse as Python's == *)
Definition point_eq (eqv : vec -> vec -> bool) : Prop :=
  (forall p, eqv p p = true) /\ (forall p q, eqv p q = eqv q p) /\
  (forall p q r, eqv p q = true -> eqv q r = true -> eqv p r = true) /\
  (forall p q, veqb p q = true -> eqv p q = true).
(* the mesh ts is bounded by the given directed paths: for every two points the
   uses of u->v minus the uses of v->u by triangles equal those by the paths;
   inner edges cancel *)
Definition bounds (eqv : vec -> vec -> bool) (ts : list tri) (paths : list (list vec)) : Prop :=
  forall u v, mesh_uses eqv u v ts - mesh_uses eqv v u ts =
    fold_right (fun l s => path_uses eqv u v l - path_uses eqv v u l + s) 0 paths.
(* a closed mesh *)
Definition watertight (eqv : vec -> vec -> bool) (ts : list tri) : Prop := bounds eqv ts [].

(* the same point: identical, or == *)
Definition same (p q : vec) : Prop := p = q \/ veqb p q = true.
(* at least three of the four possible triangles of the quad a b c d are
   non-degenerate (Triangle.__bool__) *)
Definition solid_quad (a b c d : vec) : Prop :=
  let solid t := tbool t = Ok true in
  let abc := mkTri a b c in let cda := mkTri c d a in let abd := mkTri a b d in let dbc := mkTri d b c in
  (solid abc /\ solid cda /\ solid abd) \/ (solid abc /\ solid cda /\ solid dbc) \/
  (solid abc /\ solid abd /\ solid dbc) \/ (solid cda /\ solid abd /\ solid dbc).
(* or none of the four is, and the outline of the quad runs there and back *)
Definition flat_quad (a b c d : vec) : Prop :=
  tbool (mkTri a b c) = Ok false /\ tbool (mkTri c d a) = Ok false /\ tbool (mkTri a b d) = Ok false /\ tbool (mkTri d b c) = Ok false /\ (same a c \/ same b d).
(* or each of the four is non-degenerate or has a side of the quad outline that
   is a single point *)
Definition clean_quad (a b c d : vec) : Prop :=
  solid_quad a b c d \/ flat_quad a b c d \/
  (tbool (mkTri a b c) = Ok true \/ same a b \/ same b c) /\
  (tbool (mkTri c d a) = Ok true \/ same c d \/ same d a) /\
  (tbool (mkTri a b d) = Ok true \/ same d a \/ same a b) /\
  (tbool (mkTri d b c) = Ok true \/ same b c \/ same c d).
(* all quads between two edges are clean *)
Definition clean_strip (s o : list vec) (cl : bool) (d : vec) : Prop :=
  forall i, clean_quad (stop s cl d i) (stop s cl d (S i)) (stop o cl d (S i)) (stop o cl d i).

Definition corners (t : tri) : list vec := [ta t; tb t; tc t].

Lemma flux_app f l1 l2 : flux f (l1 ++ l2) = flux f l1 + flux f l2.
Proof. unfold flux. induction l1 as [|t l1 IH]; cbn; [reflexivity|]. rewrite IH. lia. Qed.
Lemma flux_rev f l : flux f (rev l) = flux f l.
Proof. induction l as [|t l IH]; [reflexivity|]. cbn [rev]. rewrite flux_app, IH. cbn. unfold flux. cbn. lia. Qed.
Lemma flux_concat f ls : flux f (concat ls) = fold_right (fun l s => flux f l + s) 0 ls.
Proof. induction ls as [|l ls IH]; [reflexivity|]. cbn [concat fold_right]. rewrite flux_app, IH. reflexivity. Qed.
Lemma walk_app f l1 a l2 : walk f (l1 ++ a :: l2) = walk f (l1 ++ [a]) + walk f (a :: l2).
Proof.
  induction l1 as [|b l1 IH]; [cbn; destruct l2; lia|].
  destruct l1 as [|c l1]; cbn in *; [destruct l2; lia|]. rewrite IH. lia.
Qed.
Lemma weight_diag f u : is_weight f -> f u u = 0.
Proof. intros [A _]. specialize (A u u). lia. Qed.

Definition count_weight (eqv : vec -> vec -> bool) (u v : vec) : weight :=
  fun p q => (if eqv p u && eqv q v then 1 else 0) - (if eqv p v && eqv q u then 1 else 0).
Lemma count_is_weight eqv u v : point_eq eqv -> is_weight (count_weight eqv u v).
Proof.
  intros (R & S & T & E). split.
  - intros p q. unfold count_weight. rewrite (andb_comm (eqv q u)), (andb_comm (eqv q v)). lia.
  - intros p q w H. apply E in H. unfold count_weight.
    assert (K : forall x, eqv p x = eqv q x).
    { intros x. destruct (eqv q x) eqn:Q; [eapply T; eauto|]. destruct (eqv p x) eqn:Px; [|reflexivity].
      rewrite S in H. rewrite <- Q. symmetry. eapply T; eauto. }
    rewrite !K. reflexivity.
Qed.
Lemma flux_count eqv u v ts : flux (count_weight eqv u v) ts = mesh_uses eqv u v ts - mesh_uses eqv v u ts.
Proof.
  unfold flux, mesh_uses. induction ts as [|t ts IH]; cbn [fold_right]; [reflexivity|]. rewrite IH.
  unfold circ, uses, count_weight. lia.
Qed.
Lemma walk_count eqv u v l : walk (count_weight eqv u v) l = path_uses eqv u v l - path_uses eqv v u l.
Proof.
  induction l as [|a [|b l] IH]; cbn [walk path_uses] in *; [reflexivity|reflexivity|]. rewrite IH.
  unfold count_weight. lia.
Qed.
(* a boundary law for all weights gives the law for counts *)
Lemma bounds_of_flux ts paths :
  (forall f, is_weight f -> flux f ts = fold_right (fun l s => walk f l + s) 0 paths) ->
  forall eqv, point_eq eqv -> bounds eqv ts paths.
Proof.
  intros H eqv E u v. rewrite <- flux_count, H by (apply count_is_weight; exact E).
  clear. induction paths as [|l ls IH]; cbn; [reflexivity|]. rewrite IH, walk_count. reflexivity.
Qed.
Lemma walk_rev f l : is_weight f -> walk f (rev l) = - walk f l.
Proof.
  intros [A _]. induction l as [|a [|b l] IH]; [reflexivity|reflexivity|].
  cbn [rev] in *. rewrite <- app_assoc. cbn [app]. rewrite (walk_app f (rev l) b [a]). rewrite IH. cbn [walk].
  rewrite (A b a). lia.
Qed.
Lemma walk_join f d l1 l2 : l1 <> [] -> l2 <> [] ->
  walk f (l1 ++ l2) = walk f l1 + f (last l1 d) (hd d l2) + walk f l2.
Proof.
  intros H1 H2. destruct l2 as [|b l2]; [contradiction|]. clear H2. cbn [hd].
  induction l1 as [|a [|c l1] IH]; [contradiction| |].
  - cbn. destruct l2; lia.
  - cbn [app]. assert (NE : c :: l1 <> []) by discriminate. specialize (IH NE). cbn [app] in IH.
    change (walk f (a :: c :: l1 ++ b :: l2)) with (f a c + walk f (c :: l1 ++ b :: l2)).
    change (walk f (a :: c :: l1)) with (f a c + walk f (c :: l1)).
    change (last (a :: c :: l1) d) with (last (c :: l1) d). rewrite IH. lia.
Qed.
Lemma last_rev (d : vec) l : last (rev l) d = hd d l.
Proof. destruct l as [|a l]; [reflexivity|]. cbn. apply last_last. Qed.
Lemma hd_rev (d : vec) l : hd d (rev l) = last l d.
Proof. rewrite <- (rev_involutive l) at 2. rewrite last_rev. reflexivity. Qed.
End Spec.
