(** STL files (property C38). *)
From Flocq Require Import Core.Core IEEE754.Binary IEEE754.Bits.
From Flocq Require Import Relative.
From Coq Require Import Ascii String Reals Lra Lia ZArith NArith List Bool.
From Verif Require Import Num Toy GeoModel GeoSpec GeoMat GeoTri StlModel StlProof NormSpec GeoNormal.
Import ListNotations.
Open Scope Z_scope.

(* [slice o n bs] are the n bytes at offset o, [le_value] reads them as a little
   endian number.  f32 is the encoding of one number by struct.pack("<f"). *)
(* the file has 84 + 50 n bytes: an 80 byte header with the text at its end, the
   count n, and for the i-th triangle at 84 + 50 i twelve 4-byte numbers (normal, then
   the corners in order) and two zero bytes *)
Theorem C38_layout : forall (N : Num) (f32 : num -> res bytes) version (ts : list tri) bs,
  (forall x w, f32 x = Ok w -> length w = 4%nat) -> (length (list_ascii_of_string version) <= 61)%nat ->
  toBytes f32 version ts = Ok bs ->
  length bs = (84 + 50 * length ts)%nat /\
  (exists k, slice 0 80 bs = repeat 0 k ++ ascii_bytes " Made with chrumm " ++ ascii_bytes version ++ ascii_bytes " ") /\
  le_value (slice 80 4 bs) = Z.of_nat (length ts) /\
  forall i d, (i < length ts)%nat -> let t := nth i ts d in
    exists n, tnormal t = Ok n /\ slice (84 + 50 * i + 48) 2 bs = [0; 0] /\
    (forall k v, nth_error [n; ta t; tb t; tc t] k = Some v ->
       f32 (vx v) = Ok (slice (84 + 50 * i + 12 * k) 4 bs) /\
       f32 (vy v) = Ok (slice (84 + 50 * i + 12 * k + 4) 4 bs) /\
       f32 (vz v) = Ok (slice (84 + 50 * i + 12 * k + 8) 4 bs)).
Proof.
  intros N f32 v ts bs F4 LV H. destruct (toBytes_ok f32 F4 v ts bs LV H) as (L & HD & C & B).
  split; [exact L|]. split; [eauto|]. split; [exact C|]. intros i d Hi t. specialize (B i d Hi). fold t in B.
  destruct (triangleBytes_ok f32 F4 _ _ B) as (_ & Z2 & n & Hn & K). exists n. split; [exact Hn|].
  rewrite slice_slice in Z2 by lia. split; [exact Z2|]. intros k w Hk.
  assert (G : forall j, (j < 12)%nat -> f32 (nth j (stored t n) (nZ 0)) = Ok (slice (84 + 50 * i + 4 * j) 4 bs)).
  { intros j Hj. rewrite <- slice_slice with (n := 50%nat) by lia. apply K, Hj. }
  destruct k as [|[|[|[|k]]]]; cbn [nth_error] in Hk; [| | | |destruct k; discriminate]; injection Hk as <-.
  - split; [replace (84 + 50 * i + 12 * 0)%nat with (84 + 50 * i + 4 * 0)%nat by lia; exact (G 0%nat ltac:(lia))|]. split; [replace (84 + 50 * i + 12 * 0 + 4)%nat with (84 + 50 * i + 4 * 1)%nat by lia; exact (G 1%nat ltac:(lia))|replace (84 + 50 * i + 12 * 0 + 8)%nat with (84 + 50 * i + 4 * 2)%nat by lia; exact (G 2%nat ltac:(lia))].
  - split; [replace (84 + 50 * i + 12 * 1)%nat with (84 + 50 * i + 4 * 3)%nat by lia; exact (G 3%nat ltac:(lia))|]. split; [replace (84 + 50 * i + 12 * 1 + 4)%nat with (84 + 50 * i + 4 * 4)%nat by lia; exact (G 4%nat ltac:(lia))|replace (84 + 50 * i + 12 * 1 + 8)%nat with (84 + 50 * i + 4 * 5)%nat by lia; exact (G 5%nat ltac:(lia))].
  - split; [replace (84 + 50 * i + 12 * 2)%nat with (84 + 50 * i + 4 * 6)%nat by lia; exact (G 6%nat ltac:(lia))|]. split; [replace (84 + 50 * i + 12 * 2 + 4)%nat with (84 + 50 * i + 4 * 7)%nat by lia; exact (G 7%nat ltac:(lia))|replace (84 + 50 * i + 12 * 2 + 8)%nat with (84 + 50 * i + 4 * 8)%nat by lia; exact (G 8%nat ltac:(lia))].
  - split; [replace (84 + 50 * i + 12 * 3)%nat with (84 + 50 * i + 4 * 9)%nat by lia; exact (G 9%nat ltac:(lia))|]. split; [replace (84 + 50 * i + 12 * 3 + 4)%nat with (84 + 50 * i + 4 * 10)%nat by lia; exact (G 10%nat ltac:(lia))|replace (84 + 50 * i + 12 * 3 + 8)%nat with (84 + 50 * i + 4 * 11)%nat by lia; exact (G 11%nat ltac:(lia))].
Qed.
Print Assumptions C38_layout.
(* two triangle lists with the same bytes have the same stored numbers *)
Theorem C38_injective : forall (N : Num) (f32 : num -> res bytes) version (ts us : list tri) bs,
  (forall x w, f32 x = Ok w -> length w = 4%nat) -> (forall x y w, f32 x = Ok w -> f32 y = Ok w -> x = y) ->
  (length (list_ascii_of_string version) <= 61)%nat ->
  toBytes f32 version ts = Ok bs -> toBytes f32 version us = Ok bs -> ts = us.
Proof.
  intros N f32 v ts us bs F4 INJ LV H1 H2.
  destruct (C38_layout N f32 v ts bs F4 LV H1) as (L1 & _ & _ & B1). destruct (C38_layout N f32 v us bs F4 LV H2) as (L2 & _ & _ & B2).
  set (d := mkTri vzero vzero vzero).
  apply (nth_ext ts us d d); [lia|]. intros i Hi.
  destruct (B1 i d Hi) as (n1 & _ & _ & K1). destruct (B2 i d ltac:(lia)) as (n2 & _ & _ & K2).
  assert (G : forall k v w, nth_error [n1; ta (nth i ts d); tb (nth i ts d); tc (nth i ts d)] k = Some v ->
     nth_error [n2; ta (nth i us d); tb (nth i us d); tc (nth i us d)] k = Some w -> v = w).
  { intros k x y E1 E2. destruct (K1 k x E1) as (X1 & Y1 & Z1). destruct (K2 k y E2) as (X2 & Y2 & Z2).
    destruct x as [x1 x2 x3], y as [y1 y2 y3]. cbn in *. f_equal; eapply INJ; eauto. }
  pose proof (G 1%nat _ _ eq_refl eq_refl) as EA. pose proof (G 2%nat _ _ eq_refl eq_refl) as EB. pose proof (G 3%nat _ _ eq_refl eq_refl) as EC.
  destruct (nth i ts d), (nth i us d). cbn in *. congruence.
Qed.
Print Assumptions C38_injective.
(* over the reals, when every number can be encoded, writing raises exactly when
   there are 2^32 triangles or more, or a triangle without area *)
Theorem C38_raises : forall (f32 : R -> res bytes) version (ts : list (@tri Rnum)),
  (forall x, exists w, f32 x = Ok w) ->
  ((exists bs, @toBytes Rnum f32 version ts = Ok bs) <->
   Z.of_nat (length ts) < 4294967296 /\ forall t, In t ts -> tri_area t <> origin).
Proof.
  intros f32 v ts T. unfold toBytes.
  assert (TB : forall t : @tri Rnum, (exists b, @triangleBytes Rnum f32 t = Ok b) <-> tri_area t <> origin).
  { intros t. unfold triangleBytes, tri_area. rewrite area_vec_tri.
    assert (E : tnormal t = vnorm (cross (minus (tb t) (ta t)) (minus (tc t) (ta t)))).
    { unfold tnormal. reflexivity. }
    rewrite E. split.
    - intros [b H]. apply bind_ok in H. destruct H as (n & Hn & _). apply vnorm_ok in Hn. tauto.
    - intros NE. rewrite vnorm_spec by exact NE. cbn [bind].
      set (n := scaled _ _).
      assert (W : exists ws, @mapM (@num Rnum) bytes f32 (stored t n) = Ok ws) by (apply mapM_Ok; intros; apply T).
      destruct W as [ws Ws]. exists (concat ws ++ [0; 0]). change (ws <- @mapM (@num Rnum) bytes f32 (stored t n) ;; Ok (concat ws ++ [0; 0]) = Ok (concat ws ++ [0; 0])).
      rewrite Ws. reflexivity. }
  split.
  - intros [bs H]. apply bind_ok in H. destruct H as (c & Hc & H). apply bind_ok in H. destruct H as (body & Hb & _).
    destruct (Z.ltb_spec (Z.of_nat (length ts)) 4294967296) as [LT|]; [|discriminate]. split; [exact LT|].
    intros t It. apply TB. apply mapM_ok in Hb. clear - Hb It. induction Hb; [destruct It|]. destruct It as [->|It]; eauto.
  - intros [LT A]. destruct (Z.ltb_spec (Z.of_nat (length ts)) 4294967296); [|lia]. cbn [bind].
    destruct (mapM_Ok (@triangleBytes Rnum f32) ts) as [body Hb]; [intros t It; apply TB, A, It|]. rewrite Hb. cbn [bind]. eauto.
Qed.
Print Assumptions C38_raises.
(* with IEEE singles rounded to nearest, a reader that decodes the singles gets
   every coordinate up to a relative error of 2^-24 (or an absolute one of 2^-150) *)
Theorem C38_precision : forall (f32 : R -> res bytes) version (ts : list (@tri Rnum)) bs,
  (forall x w, f32 x = Ok w -> exists b : binary32, w = le_bytes 4 (bits_of_b32 b) /\
     B2R 24 128 b = round radix2 (FLT_exp (-149) 24) ZnearestE x) ->
  (length (list_ascii_of_string version) <= 61)%nat ->
  @toBytes Rnum f32 version ts = Ok bs ->
  let read o := B2R 24 128 (b32_of_bits (le_value (slice o 4 bs))) in
  let close x y := (Rabs (y - x) <= / 2 * bpow radix2 (-23) * Rabs x + / 2 * bpow radix2 (-149))%R in
  forall i d, (i < length ts)%nat -> let t := nth i ts d in
  forall k v, nth_error [ta t; tb t; tc t] k = Some v ->
    close (X v) (read (84 + 50 * i + 12 + 12 * k)%nat) /\ close (Y v) (read (84 + 50 * i + 12 + 12 * k + 4)%nat) /\
    close (Z v) (read (84 + 50 * i + 12 + 12 * k + 8)%nat).
Proof.
  intros f32 v ts bs IE LV H read close i d Hi t k w Hk.
  assert (F4 : forall x w, f32 x = Ok w -> length w = 4%nat) by (intros x b Hx; destruct (IE x b Hx) as (b' & -> & _); apply le_bytes_length).
  destruct (C38_layout Rnum f32 v ts bs F4 LV H) as (_ & _ & _ & B). destruct (B i d Hi) as (n & _ & _ & K). fold t in K.
  assert (G : forall x o, f32 x = Ok (slice o 4 bs) -> close x (read o)).
  { intros x o Hx. destruct (IE _ _ Hx) as (b & Eb & RB). unfold close, read. rewrite Eb, le_value_bytes.
    2:{ pose proof (bits_of_binary_float_range 23 8 eq_refl eq_refl b) as R0. unfold bits_of_b32. change (256 ^ Z.of_nat 4) with (2 ^ (23 + 8 + 1)). lia. }
    unfold b32_of_bits, bits_of_b32. rewrite binary_float_of_bits_of_binary_float.
    change (23 + 1) with 24. change (2 ^ (8 - 1)) with 128. rewrite RB.
    destruct (error_N_FLT radix2 (-149) 24 eq_refl (fun x => negb (Z.even x)) x) as (e1 & e2 & E1 & E2 & _ & ->).
    replace (x * (1 + e1) + e2 - x)%R with (x * e1 + e2)%R by ring.
    eapply Rle_trans; [apply Rabs_triang|]. apply Rplus_le_compat; [|exact E2].
    rewrite Rabs_mult, Rmult_comm. apply Rmult_le_compat_r; [apply Rabs_pos|exact E1]. }
  destruct (K (S k) w Hk) as (A1 & A2 & A3).
  replace (84 + 50 * i + 12 + 12 * k)%nat with (84 + 50 * i + 12 * S k)%nat by lia.
  split; [apply G, A1|]. split; [apply G, A2|apply G, A3].
Qed.
Print Assumptions C38_precision.
(* the actual version; a one-triangle file, with a stand-in number encoding *)
Example C38_nonvacuous : let t := @mkTri Toy (@V Toy 0 0 0) (@V Toy 1 0 0) (@V Toy 0 1 0) in
  exists bs, @toBytes Toy (fun x => Ok (le_bytes 4 x)) "1.0.2" [t] = Ok bs /\ length bs = 134%nat /\
  slice 80 4 bs = [1; 0; 0; 0] /\ slice 92 4 bs = [1; 0; 0; 0].
Proof. cbv zeta. eexists. split; [vm_compute; reflexivity|]. split; [reflexivity|]. split; reflexivity. Qed.
