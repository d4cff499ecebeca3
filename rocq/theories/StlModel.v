(** Model of /repo/body/chrumm/stl.py. *)
From Coq Require Import Ascii String ZArith NArith List Bool.
From Verif Require Import Num GeoModel.
Import ListNotations.
Open Scope Z_scope.

(* a byte string is a list of integers 0..255 *)
Definition bytes := list Z.
(* str.encode for ASCII text *)
Definition ascii_bytes (s : string) : bytes := map (fun c => Z.of_N (N_of_ascii c)) (list_ascii_of_string s).
(* struct.pack little endian: n bytes of z *)
Fixpoint le_bytes (n : nat) (z : Z) : bytes :=
  match n with O => [] | S n => z mod 256 :: le_bytes n (z / 256) end.

Section Stl.
Context {N : Num}.
(* struct.pack("<f", x): the four bytes of x as an IEEE single, or OverflowError *)
Variable f32 : num -> res bytes.

(* stl.py:17-20: normal, a, b, c as three floats each, two zero bytes *)
Definition triangleBytes (t : tri) : res bytes :=
  n <- tnormal t ;;
  ws <- mapM f32 [vx n; vy n; vz n; vx (ta t); vy (ta t); vz (ta t);
                  vx (tb t); vy (tb t); vz (tb t); vx (tc t); vy (tc t); vz (tc t)] ;;
  Ok (concat ws ++ [0; 0]).
(* stl.py:7-22; bytes.rjust never shortens; struct.pack("<I") raises struct.error
   (tagged ValueErr here) when the count does not fit *)
Definition toBytes (version : string) (ts : list tri) : res bytes :=
  let header := ascii_bytes " Made with chrumm " ++ ascii_bytes version ++ ascii_bytes " " in
  let n := Z.of_nat (length ts) in
  count <- (if n <? 4294967296 then Ok (le_bytes 4 n) else Err ValueErr) ;;
  body <- mapM triangleBytes ts ;;
  Ok ((repeat 0 (80 - length header) ++ header) ++ count ++ concat body).
End Stl.
