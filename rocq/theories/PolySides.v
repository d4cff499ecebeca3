(** The sides of a closed polygon. *)
From Coq Require Import List Arith Lia Permutation ZArith.
Import ListNotations.
Open Scope nat_scope.

Section Sides.
Context {A : Type}.
(* the directed sides of the closed polygon a b c ... z: (a,b) (b,c) ... (z,a) *)
Definition psides (l : list A) : list (A * A) := match l with [] => [] | a :: r => combine l (r ++ [a]) end.
(* the sides of an open path *)
Fixpoint consec (l : list A) : list (A * A) :=
  match l with
  | a :: ((b :: _) as r) => (a, b) :: consec r
  | _ => []
  end.
Lemma consec_join l x r : consec (l ++ x :: r) = consec (l ++ [x]) ++ consec (x :: r).
Proof.
  induction l as [|a l IH]; [reflexivity|]. destruct l as [|b l]; [reflexivity|].
  change ((a :: b :: l) ++ x :: r) with (a :: ((b :: l) ++ x :: r)). change ((a :: b :: l) ++ [x]) with (a :: ((b :: l) ++ [x])).
  change (consec (a :: (b :: l) ++ x :: r)) with ((a, b) :: consec ((b :: l) ++ x :: r)).
  change (consec (a :: (b :: l) ++ [x])) with ((a, b) :: consec ((b :: l) ++ [x])). rewrite IH. reflexivity.
Qed.
Lemma combine_consec a r x : combine (a :: r) (r ++ [x]) = consec (a :: r ++ [x]).
Proof. revert a. induction r as [|b r IH]; intros a; [reflexivity|]. change (combine (a :: b :: r) ((b :: r) ++ [x])) with ((a, b) :: combine (b :: r) (r ++ [x])). rewrite IH. reflexivity. Qed.
Lemma psides_consec a r : psides (a :: r) = consec (a :: r ++ [a]).
Proof. apply combine_consec. Qed.
Lemma psides_rot l1 l2 : Permutation (psides (l1 ++ l2)) (psides (l2 ++ l1)).
Proof.
  destruct l1 as [|x l1]; [rewrite app_nil_r; apply Permutation_refl|]. destruct l2 as [|y l2]; [rewrite app_nil_r; apply Permutation_refl|].
  rewrite <- !app_comm_cons, !psides_consec.
  replace (x :: (l1 ++ y :: l2) ++ [x]) with ((x :: l1) ++ y :: (l2 ++ [x])) by (cbn; rewrite <- app_assoc; reflexivity).
  replace (y :: (l2 ++ x :: l1) ++ [y]) with ((y :: l2) ++ x :: (l1 ++ [y])) by (cbn; rewrite <- app_assoc; reflexivity).
  rewrite (consec_join (x :: l1) y), (consec_join (y :: l2) x). apply Permutation_app_comm.
Qed.
Lemma map_fst_psides l : map fst (psides l) = l.
Proof.
  destruct l as [|a r]; [reflexivity|]. unfold psides.
  assert (G : forall (l m : list A), length l = length m -> map fst (combine l m) = l).
  { induction l as [|x l IH]; intros [|y m] E; cbn in *; try reflexivity; try discriminate. f_equal. apply IH. lia. }
  apply G. rewrite app_length. cbn. lia.
Qed.
Lemma map_snd_psides a r : map snd (psides (a :: r)) = r ++ [a].
Proof.
  unfold psides.
  assert (G : forall (l m : list A), length l = length m -> map snd (combine l m) = m).
  { induction l as [|x l IH]; intros [|y m] E; cbn in *; try reflexivity; try discriminate. f_equal. apply IH. lia. }
  apply G. rewrite app_length. cbn. lia.
Qed.
Lemma psides_length l : length (psides l) = length l.
Proof. rewrite <- (map_length fst), map_fst_psides. reflexivity. Qed.
Lemma psides_in l x y : In (x, y) (psides l) -> In x l /\ In y l.
Proof.
  intros H. split.
  - rewrite <- (map_fst_psides l). apply (in_map fst) in H. exact H.
  - destruct l as [|a r]; [destruct H|]. apply (in_map snd) in H. rewrite map_snd_psides in H. cbn in H. apply in_app_iff in H. cbn in *. tauto.
Qed.
Lemma NoDup_inj {B} (f : B -> A) l x y : NoDup (map f l) -> In x l -> In y l -> f x = f y -> x = y.
Proof.
  induction l as [|z l IH]; intros D Hx Hy E; [destruct Hx|]. inversion D as [|? ? N D']; subst. destruct Hx as [<-|Hx], Hy as [<-|Hy]; auto.
  - exfalso. apply N. rewrite E. apply in_map, Hy.
  - exfalso. apply N. rewrite <- E. apply in_map, Hx.
Qed.
Lemma NoDup_snd l : NoDup l -> NoDup (map snd (psides l)).
Proof. destruct l as [|a r]; [constructor|]. rewrite map_snd_psides. intros H. apply (Permutation_NoDup (Permutation_cons_append r a)), H. Qed.
Lemma psides_nodup l : NoDup l -> NoDup (psides l).
Proof. intros H. apply (NoDup_map_inv fst). rewrite map_fst_psides. exact H. Qed.
Lemma next_unique l x y z : NoDup l -> In (x, y) (psides l) -> In (x, z) (psides l) -> y = z.
Proof. intros D H K. rewrite <- (map_fst_psides l) in D. pose proof (NoDup_inj fst _ _ _ D H K eq_refl) as E. injection E as E. exact E. Qed.
Lemma prev_unique l x y z : NoDup l -> In (x, z) (psides l) -> In (y, z) (psides l) -> x = y.
Proof. intros D H K. pose proof (NoDup_inj snd _ _ _ (NoDup_snd l D) H K eq_refl) as E. injection E as E. exact E. Qed.
Lemma next_ex l x : In x l -> exists y, In (x, y) (psides l).
Proof. intros H. rewrite <- (map_fst_psides l) in H. apply in_map_iff in H. destruct H as ((a & b) & <- & H). exists b. exact H. Qed.
Lemma prev_ex l x : In x l -> exists y, In (y, x) (psides l).
Proof.
  intros H. assert (K : In x (map snd (psides l))).
  { destruct l as [|a r]; [destruct H|]. rewrite map_snd_psides. apply in_app_iff. cbn in *. tauto. }
  apply in_map_iff in K. destruct K as ((a & b) & <- & K). exists a. exact K.
Qed.
Lemma rot_perm (l1 l2 : list A) : Permutation (l1 ++ l2) (l2 ++ l1).
Proof. apply Permutation_app_comm. Qed.
(* every vertex can be made the first one *)
Lemma rot_to (l : list A) x : In x l -> exists l1 l2 r, l = l1 ++ l2 /\ l2 ++ l1 = x :: r.
Proof. intros H. apply in_split in H. destruct H as (l1 & l2 & ->). exists l1, (x :: l2), (l2 ++ l1). split; reflexivity. Qed.
Lemma side_neq l x y : NoDup l -> 2 <= length l -> In (x, y) (psides l) -> x <> y.
Proof.
  intros D L H E. subst y. destruct (psides_in _ _ _ H) as [I _]. destruct (rot_to l x I) as (l1 & l2 & r & -> & Er).
  pose proof (Permutation_in _ (psides_rot l1 l2) H) as K. apply (Permutation_NoDup (rot_perm l1 l2)) in D.
  rewrite (Permutation_length (rot_perm l1 l2)) in L. rewrite Er in *. destruct r as [|y r]; [cbn in L; lia|].
  assert (K2 : In (x, y) (psides (x :: y :: r))) by (rewrite psides_consec; cbn; auto).
  pose proof (next_unique _ _ _ _ D K K2) as ->. inversion D as [|? ? N _]. apply N. cbn. auto.
Qed.
Lemma ends_neq l x y z : NoDup l -> 3 <= length l -> In (x, y) (psides l) -> In (y, z) (psides l) -> x <> z.
Proof.
  intros D L H K E. subst z. destruct (psides_in _ _ _ H) as [I _]. destruct (rot_to l x I) as (l1 & l2 & r & -> & Er).
  apply (Permutation_in _ (psides_rot l1 l2)) in H. apply (Permutation_in _ (psides_rot l1 l2)) in K. apply (Permutation_NoDup (rot_perm l1 l2)) in D.
  rewrite (Permutation_length (rot_perm l1 l2)) in L. rewrite Er in *. destruct r as [|b [|c r]]; [cbn in L; lia|cbn in L; lia|].
  assert (K2 : In (x, b) (psides (x :: b :: c :: r))) by (rewrite psides_consec; cbn; auto).
  assert (K3 : In (b, c) (psides (x :: b :: c :: r))) by (rewrite psides_consec; cbn; auto).
  pose proof (next_unique _ _ _ _ D H K2) as ->. pose proof (next_unique _ _ _ _ D K K3) as ->. inversion D as [|? ? N _]. apply N. cbn. auto.
Qed.
Lemma along (Q : A -> Prop) e r : forall x, (forall a b, In (a, b) (consec (x :: r ++ [e])) -> Q a -> Q b) -> Q x -> forall y, In y (x :: r) -> Q y.
Proof.
  induction r as [|b r IH]; intros x H' Q0 y Hy.
  - destruct Hy as [<-|[]]. exact Q0.
  - destruct Hy as [<-|Hy]; [exact Q0|]. apply (IH b); [|apply (H' x b); [left; reflexivity|exact Q0]|exact Hy].
    intros a c I. apply H'. right. exact I.
Qed.
(* what passes from each vertex to the next one holds for all *)
Lemma around l (Q : A -> Prop) : (forall a b, In (a, b) (psides l) -> Q a -> Q b) -> forall x, In x l -> Q x -> forall y, In y l -> Q y.
Proof.
  intros H x Hx Q0. destruct (rot_to l x Hx) as (l1 & l2 & r & -> & Er).
  assert (H' : forall a b, In (a, b) (psides (x :: r)) -> Q a -> Q b).
  { intros a b I. apply H. apply (Permutation_in _ (Permutation_sym (psides_rot l1 l2))). rewrite Er. exact I. }
  assert (G : forall y, In y (x :: r) -> Q y).
  { rewrite psides_consec in H'. apply (along Q x r x H' Q0). }
  intros y Hy. apply G. rewrite <- Er. apply (Permutation_in _ (rot_perm l1 l2)), Hy.
Qed.
(* the sides of the reversed polygon *)
Lemma consec_rev l : consec (rev l) = rev (map (fun e => (snd e, fst e)) (consec l)).
Proof.
  induction l as [|a l IH]; [reflexivity|]. destruct l as [|b l]; [reflexivity|].
  change (consec (a :: b :: l)) with ((a, b) :: consec (b :: l)). cbn [map rev]. rewrite <- IH. cbn [rev]. rewrite <- !app_assoc. cbn [app].
  rewrite (consec_join (rev l) b [a]). reflexivity.
Qed.
Lemma psides_rev l : Permutation (psides (rev l)) (map (fun e => (snd e, fst e)) (psides l)).
Proof.
  destruct l as [|a r]; [apply Permutation_refl|]. rewrite psides_consec.
  apply (Permutation_trans (psides_rot (rev r) [a])). change ([a] ++ rev r) with (a :: rev r). rewrite psides_consec.
  replace (a :: rev r ++ [a]) with (rev (a :: r ++ [a])) by (cbn; rewrite rev_app_distr; reflexivity).
  rewrite consec_rev. apply Permutation_sym, Permutation_rev.
Qed.
Lemma in_psides_rev l x y : In (x, y) (psides (rev l)) <-> In (y, x) (psides l).
Proof.
  assert (G : forall l x y, In (x, y) (psides (rev l)) -> In (y, x) (psides l)).
  { clear. intros l x y H. apply (Permutation_in _ (psides_rev l)) in H. apply in_map_iff in H. destruct H as ((a & b) & E & H). cbn in E. injection E as -> ->. exact H. }
  split; [apply G|]. intros H. apply G. rewrite rev_involutive. exact H.
Qed.

(** ** sums over the sides *)
Definition ssum (g : A -> A -> Z) (es : list (A * A)) : Z := fold_right (fun e s => (g (fst e) (snd e) + s)%Z) 0%Z es.
Lemma ssum_app g l1 l2 : ssum g (l1 ++ l2) = (ssum g l1 + ssum g l2)%Z.
Proof. unfold ssum. induction l1 as [|e l1 IH]; cbn [app fold_right]; [reflexivity|]. rewrite IH. lia. Qed.
Lemma ssum_perm g l1 l2 : Permutation l1 l2 -> ssum g l1 = ssum g l2.
Proof. intros P. induction P; cbn; unfold ssum in *; cbn; lia. Qed.
Lemma ssum_ext g h l : (forall x y, In (x, y) l -> g x y = h x y) -> ssum g l = ssum h l.
Proof. intros H. induction l as [|[x y] l IH]; [reflexivity|]. cbn. unfold ssum in *. cbn. rewrite (H x y) by (left; reflexivity). rewrite IH; [reflexivity|]. intros; apply H; right; assumption. Qed.
Lemma ssum_zero g l : (forall x y, In (x, y) l -> g x y = 0%Z) -> ssum g l = 0%Z.
Proof. intros H. rewrite (ssum_ext g (fun _ _ => 0%Z)) by exact H. clear H. induction l as [|e l IH]; [reflexivity|]. unfold ssum in *. cbn. exact IH. Qed.
Lemma ssum_plus g h l : ssum (fun x y => (g x y + h x y)%Z) l = (ssum g l + ssum h l)%Z.
Proof. unfold ssum. induction l as [|e l IH]; cbn; [reflexivity|]. rewrite IH. lia. Qed.
Lemma ssum_opp g l : ssum (fun x y => (- g x y)%Z) l = (- ssum g l)%Z.
Proof. unfold ssum. induction l as [|e l IH]; cbn; [reflexivity|]. rewrite IH. lia. Qed.
Lemma ssum_consec_tele (h : A -> Z) l x y : ssum (fun a b => (h b - h a)%Z) (consec (x :: l ++ [y])) = (h y - h x)%Z.
Proof. revert x. induction l as [|a l IH]; intros x; [cbn; lia|]. cbn [app]. change (consec (x :: a :: l ++ [y])) with ((x, a) :: consec (a :: l ++ [y])). unfold ssum in *. cbn [fold_right fst snd]. rewrite IH. lia. Qed.
Lemma ssum_tele (h : A -> Z) l : ssum (fun a b => (h b - h a)%Z) (psides l) = 0%Z.
Proof. destruct l as [|a r]; [reflexivity|]. rewrite psides_consec, ssum_consec_tele. lia. Qed.
Lemma ssum_one g l e : NoDup l -> In e l -> (forall x y, In (x, y) l -> (x, y) <> e -> g x y = 0%Z) -> ssum g l = g (fst e) (snd e).
Proof.
  intros D H Z. apply in_split in H. destruct H as (l1 & l2 & ->). apply NoDup_remove_2 in D.
  rewrite ssum_app. cbn [ssum fold_right]. fold (ssum g l2). rewrite !ssum_zero; [cbn; lia| |].
  - intros x y I. apply Z; [apply in_app_iff; right; right; exact I|]. intros <-. apply D, in_app_iff. right. exact I.
  - intros x y I. apply Z; [apply in_app_iff; left; exact I|]. intros <-. apply D, in_app_iff. left. exact I.
Qed.
(* a polygon split along the line between two of its vertices *)
Lemma ssum_split g l1 u m w l2 : (forall a b, g a b = (- g b a)%Z) ->
  ssum g (psides (l1 ++ u :: m ++ w :: l2)) = (ssum g (psides (u :: m ++ [w])) + ssum g (psides (l1 ++ u :: w :: l2)))%Z.
Proof.
  intros AS. rewrite (ssum_perm g _ _ (psides_rot l1 (u :: m ++ w :: l2))). rewrite (ssum_perm g _ _ (psides_rot l1 (u :: w :: l2))).
  rewrite <- !app_comm_cons, !psides_consec.
  replace (u :: ((m ++ w :: l2) ++ l1) ++ [u]) with ((u :: m) ++ w :: (l2 ++ l1 ++ [u])) by (cbn; rewrite <- !app_assoc; reflexivity).
  rewrite (consec_join (u :: m) w (l2 ++ l1 ++ [u])), ssum_app.
  replace (u :: (m ++ [w]) ++ [u]) with ((u :: m) ++ w :: [u]) by (cbn; rewrite <- !app_assoc; reflexivity).
  rewrite (consec_join (u :: m) w [u]), ssum_app.
  replace (u :: (w :: l2 ++ l1) ++ [u]) with (u :: w :: l2 ++ l1 ++ [u]) by (cbn; rewrite <- !app_assoc; reflexivity).
  change (consec (u :: w :: l2 ++ l1 ++ [u])) with ((u, w) :: consec (w :: l2 ++ l1 ++ [u])). change (consec [w; u]) with [(w, u)].
  change (ssum g [(w, u)]) with (g w u + 0)%Z. change (ssum g ((u, w) :: consec (w :: l2 ++ l1 ++ [u]))) with (g u w + ssum g (consec (w :: l2 ++ l1 ++ [u])))%Z.
  rewrite (AS w u). lia.
Qed.
End Sides.
