(** Vocabulary for the printed parts: edges that collapsed() does not change. *)
From Coq Require Import ZArith List Bool.
From Verif Require Import Num GeoModel EdgeModel.
Import ListNotations.

Section PartSpec.
Context {N : Num}.
(* neighbouring points of the closed edge are equal, or at least t apart *)
Definition no_short (t : num) (l : list vec) : Prop :=
  forall s, In s (toSegments l true) -> nleb t (smag s) = false -> veqb (sa s) (sb s) = true.
Definition no_shortb (t : num) (l : list vec) : bool := forallb (fun s => nleb t (smag s) || veqb (sa s) (sb s)) (toSegments l true).
Lemma no_shortb_ok t l : no_shortb t l = true -> no_short t l.
Proof.
  unfold no_shortb, no_short. rewrite forallb_forall. intros H s I E. specialize (H s I). rewrite E in H. exact H.
Qed.
(* the same for an edge whose last point is also kept: it is not near the first one *)
Definition no_short_open (t : num) (l : list vec) : Prop :=
  no_short t l /\ nleb t (smag (mkSeg (last l vzero) (hd vzero l))) = true.
Definition no_short_openb (t : num) (l : list vec) : bool := no_shortb t l && nleb t (smag (mkSeg (last l vzero) (hd vzero l))).
Lemma no_short_openb_ok t l : no_short_openb t l = true -> no_short_open t l.
Proof. unfold no_short_openb. intros H. apply andb_prop in H. split; [apply no_shortb_ok|]; apply H. Qed.
End PartSpec.
