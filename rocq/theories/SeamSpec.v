(** Specification of seam cleaning, independent of the scanner. *)
From Coq Require Import Ascii String ZArith List Bool.
Import ListNotations.
Open Scope string_scope.

Definition hex_chars : list ascii := list_ascii_of_string "0123456789ABCDEF".
Definition dq : string := String (ascii_of_nat 34) "".
(* a seam attribute whose value is [digits] *)
Definition seam_attr (digits : string) : string := " slic3rpe:custom_seam=" ++ dq ++ digits ++ dq.
(* a partially painted triangle: two or more hex digits *)
Definition partial_digits (h : string) : Prop := (2 <= String.length h)%nat /\ forall c, In c (list_ascii_of_string h) -> In c hex_chars.
Definition starts_painted (s : string) : Prop := exists h post, partial_digits h /\ s = seam_attr h ++ post.
(* no painted attribute anywhere *)
Definition clean_text (s : string) : Prop := forall u v, s = u ++ v -> ~ starts_painted v.
(* every painted attribute, from left to right, is replaced; nothing else changes *)
Inductive replaced (rep : string) : string -> string -> Prop :=
| replaced_none s : clean_text s -> replaced rep s s
| replaced_first pre h post post' : partial_digits h ->
    (forall u v, pre = u ++ v -> v <> "" -> ~ starts_painted (v ++ seam_attr h ++ post)) ->
    replaced rep post post' ->
    replaced rep (pre ++ seam_attr h ++ post) (pre ++ rep ++ post').
(* in XML an attribute is followed by white space, a slash or the end of the tag *)
Definition xml_after (s : string) : Prop := forall u h post, partial_digits h -> s = u ++ seam_attr h ++ post ->
  post = "" \/ exists c r, post = String c r /\ In c (list_ascii_of_string " />").
