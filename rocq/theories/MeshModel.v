(** Meshes as the part constructors of /repo/body/chrumm/part build them.

    Every constructor fills self.triangles by extending it with the results of
    Edge.meshPairwise and Face.triangulate and with the triangles of smaller parts,
    possibly moved or mirrored, and appends Faces to self.faces, which make.py
    triangulates later.  A value of type mesh records these calls in order, so
    that a theorem can say which edges and faces were meshed. *)
From Coq Require Import ZArith List Bool.
From Verif Require Import Num GeoModel EdgeModel.
Import ListNotations.

Section Mesh.
Context {N : Num}.

Inductive mesh :=
| MEmpty                                               (* self.triangles = [] *)
| Strip (s o : list vec) (isClosed : bool)             (* s.meshPairwise(o, isClosed) *)
| Fill (edge : list vec) (holes : list (list vec))     (* Face(edge, holes).triangulate() *)
| Tris (l : list tri)                                  (* single Triangles *)
| Plus (m1 m2 : mesh)                                  (* m1, extended by m2 *)
| Moved (g : vec -> vec) (m : mesh)                    (* [t.transformed(..) for t in m] *)
| Flipped (g : vec -> vec) (m : mesh).                 (* [t.mirroredY().reversed() for t in m] *)

Fixpoint meshes (l : list mesh) : mesh := match l with [] => MEmpty | m :: r => Plus m (meshes r) end.

(* triangle.py:16-53: mirrored and transformed triangles map each corner *)
Definition tmap (g : vec -> vec) (t : tri) : tri := mkTri (g (ta t)) (g (tb t)) (g (tc t)).

(* the triangles; fill is Face.triangulate *)
Variable fill : list vec -> list (list vec) -> res (list tri).
Fixpoint eval (m : mesh) : res (list tri) :=
  match m with
  | MEmpty => Ok []
  | Strip s o cl => meshPairwise s o cl
  | Fill e hs => fill e hs
  | Tris l => Ok l
  | Plus m1 m2 => a <- eval m1 ;; b <- eval m2 ;; Ok (a ++ b)
  | Moved g m => a <- eval m ;; Ok (map (tmap g) a)
  | Flipped g m => a <- eval m ;; Ok (map (fun t => treversed (tmap g t)) a)
  end.
End Mesh.
