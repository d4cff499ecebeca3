(** Vocabulary for the triangulation theorems: directed edges between vertex
    indexes. *)
From Coq Require Import List Arith Permutation.
From Verif Require Import Num GeoModel EdgeModel FaceModel.
Import ListNotations.
Open Scope nat_scope.

Definition dedge : Type := nat * nat.
Definition back (e : dedge) : dedge := (snd e, fst e).
(* every listed edge once in each direction *)
Definition both_ways (ds : list dedge) : list dedge := flat_map (fun e => [e; back e]) ds.

(* the directed sides of a closed polygon a b c ...: (a,b) (b,c) ... (z,a) *)
Definition sides (l : list nat) : list dedge :=
  match l with [] => [] | a :: r => combine l (r ++ [a]) end.
(* the three directed sides of a triangle *)
Definition tri_sides (t : nat * nat * nat) : list dedge := let '(a, b, c) := t in [(a, b); (b, c); (c, a)].
Definition mesh_sides (ts : list (nat * nat * nat)) : list dedge := flat_map tri_sides ts.
Definition tri_verts (t : nat * nat * nat) : list nat := let '(a, b, c) := t in [a; b; c].

(* the mesh has exactly the outline: its directed sides are those of the
   outline, plus k inner edges, each used once in each direction *)
Definition fills (ts : list (nat * nat * nat)) (outline : list dedge) (k : nat) : Prop :=
  exists ds, length ds = k /\ Permutation (mesh_sides ts) (outline ++ both_ways ds).
