(** When does a recorded mesh behave: its strips contain no degenerate quads that
    meshPairwise cannot mesh, and its faces are triangulated completely. *)
From Coq Require Import ZArith List Bool Lia.
From Verif Require Import Num GeoModel EdgeModel EdgeSpec MeshModel.
Import ListNotations.

Section Spec.
Context {N : Num}.
Variable fill : list vec -> list (list vec) -> res (list tri).

(* number of triangles of a polygon with holes: each hole adds its points and
   a bridge with two sides *)
Definition corner_count (edge : list vec) (holes : list (list vec)) : nat :=
  (length edge + fold_right (fun h n => match h with [] => n | _ => length h + 2 + n end) 0 holes)%nat.
(* the triangulation of this face is complete *)
Definition complete_face (e : list vec) (hs : list (list vec)) : Prop :=
  (3 <= length e)%nat /\ forall ts, fill e hs = Ok ts -> length ts = (corner_count e hs - 2)%nat.
(* the triangles of the face are bounded by its edge and its holes (in terms of
   antisymmetric weights of directed edges, see EdgeSpec.v) *)
Definition exact_face (e : list vec) (hs : list (list vec)) : Prop :=
  forall ts, fill e hs = Ok ts -> forall f, is_weight f ->
    flux f ts = fold_right (fun l s => (walk f l + s)%Z) 0%Z (outline e true :: map (fun h => outline h true) hs).
(* g maps points that compare equal to points that compare equal *)
Definition keeps_eq (g : vec -> vec) : Prop := forall p q, veqb p q = true -> veqb (g p) (g q) = true.

(* every strip is clean and every face satisfies ok *)
Fixpoint sound_mesh (ok : list vec -> list (list vec) -> Prop) (m : mesh) : Prop :=
  match m with
  | MEmpty | Tris _ => True
  | Strip s o cl => clean_strip s o cl vzero
  | Fill e hs => ok e hs
  | Plus m1 m2 => sound_mesh ok m1 /\ sound_mesh ok m2
  | Moved g m | Flipped g m => keeps_eq g /\ sound_mesh ok m
  end.
End Spec.
