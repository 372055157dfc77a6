(** Property theorems C12 and C13. *)
From Coq Require Import NArith ZArith Reals Lra Lia.
From Verif Require Import Base Morton_Model Morton_Spec Morton_Proofs.
Local Open Scope N_scope.

(** C12. Encoding in-range coordinates succeeds, yields the interleaving of their
    bits (a code of 2*16, 2*32, 3*10, 3*21 bits), and decoding gives the coordinates back. *)
Theorem C12_roundtrip2_32 : forall x y, x <= max_2d 32 -> y <= max_2d 32 ->
  exists m, encode2_32 x y = Ret m /\ m < 2 ^ 32 /\ interleaves2 m x y /\ decode2_32 m = (x, y).
Proof. exact roundtrip2_32. Qed.
Print Assumptions C12_roundtrip2_32.
Theorem C12_roundtrip2_64 : forall x y, x <= max_2d 64 -> y <= max_2d 64 ->
  exists m, encode2_64 x y = Ret m /\ m < 2 ^ 64 /\ interleaves2 m x y /\ decode2_64 m = (x, y).
Proof. exact roundtrip2_64. Qed.
Print Assumptions C12_roundtrip2_64.
Theorem C12_roundtrip3_32 : forall x y z, x <= max_3d 32 -> y <= max_3d 32 -> z <= max_3d 32 ->
  exists m, encode3_32 x y z = Ret m /\ m < 2 ^ 30 /\ interleaves3 m x y z /\
    decode3_32 m = (x, y, z).
Proof. exact roundtrip3_32. Qed.
Print Assumptions C12_roundtrip3_32.
Theorem C12_roundtrip3_64 : forall x y z, x <= max_3d 64 -> y <= max_3d 64 -> z <= max_3d 64 ->
  exists m, encode3_64 x y z = Ret m /\ m < 2 ^ 63 /\ interleaves3 m x y z /\
    decode3_64 m = (x, y, z).
Proof. exact roundtrip3_64. Qed.
Print Assumptions C12_roundtrip3_64.

(** The range limits are the ones documented: X/N bits per coordinate. *)
Theorem C12_limits :
  max_2d 32 = 65535 /\ max_2d 64 = 4294967295 /\ max_3d 32 = 1023 /\ max_3d 64 = 2097151.
Proof. repeat split; reflexivity. Qed.

(** Every code is the code of the coordinates it decodes to. *)
Theorem C12_codes2_32 : forall m, m < 2 ^ 32 ->
  exists x y, decode2_32 m = (x, y) /\ x <= max_2d 32 /\ y <= max_2d 32 /\ encode2_32 x y = Ret m.
Proof. exact codes2_32. Qed.
Print Assumptions C12_codes2_32.
Theorem C12_codes2_64 : forall m, m < 2 ^ 64 ->
  exists x y, decode2_64 m = (x, y) /\ x <= max_2d 64 /\ y <= max_2d 64 /\ encode2_64 x y = Ret m.
Proof. exact codes2_64. Qed.
Print Assumptions C12_codes2_64.
Theorem C12_codes3_32 : forall m, m < 2 ^ 30 ->
  exists x y z, decode3_32 m = (x, y, z) /\ x <= max_3d 32 /\ y <= max_3d 32 /\ z <= max_3d 32 /\
    encode3_32 x y z = Ret m.
Proof. exact codes3_32. Qed.
Print Assumptions C12_codes3_32.
Theorem C12_codes3_64 : forall m, m < 2 ^ 63 ->
  exists x y z, decode3_64 m = (x, y, z) /\ x <= max_3d 64 /\ y <= max_3d 64 /\ z <= max_3d 64 /\
    encode3_64 x y z = Ret m.
Proof. exact codes3_64. Qed.
Print Assumptions C12_codes3_64.

Example C12_example : encode2_32 5 65535 = Ret 2863311547 /\ decode2_32 2863311547 = (5, 65535)
  /\ encode3_64 2097151 0 1 = Ret 1317624576693539405.
Proof. repeat split; vm_compute; reflexivity. Qed.

(** C13. The BMI2 branch is the portable branch, including which inputs are
    outside the precondition. *)
Theorem C13_bmi_encode :
  (forall x y, bmi_encode2 32 x y = encode2_32 x y) /\
  (forall x y, bmi_encode2 64 x y = encode2_64 x y) /\
  (forall x y z, bmi_encode3 32 x y z = encode3_32 x y z) /\
  (forall x y z, bmi_encode3 64 x y z = encode3_64 x y z).
Proof. exact (conj bmi_encode2_32 (conj bmi_encode2_64 (conj bmi_encode3_32 bmi_encode3_64))). Qed.
Print Assumptions C13_bmi_encode.

Theorem C13_bmi_decode :
  (forall m, m < 2 ^ 32 -> bmi_decode2 32 m = decode2_32 m) /\
  (forall m, m < 2 ^ 64 -> bmi_decode2 64 m = decode2_64 m) /\
  (forall m, m < 2 ^ 30 -> bmi_decode3 32 m = decode3_32 m) /\
  (forall m, m < 2 ^ 63 -> bmi_decode3 64 m = decode3_64 m).
Proof. exact (conj bmi_decode2_32 (conj bmi_decode2_64 (conj bmi_decode3_32 bmi_decode3_64))). Qed.
Print Assumptions C13_bmi_decode.

(** The bounds 2^30 and 2^63 cannot be dropped: on the bits that encoding never
    sets the two branches decode differently. *)
Theorem C13_bmi_decode3_unused_bits_refuted :
  (exists m, m < 2 ^ 32 /\ bmi_decode3 32 m <> decode3_32 m) /\
  (exists m, m < 2 ^ 64 /\ bmi_decode3 64 m <> decode3_64 m).
Proof.
  split; [exists (2 ^ 30)|exists (2 ^ 63)]; (split; [reflexivity|vm_compute; discriminate]).
Qed.
Print Assumptions C13_bmi_decode3_unused_bits_refuted.

Theorem C13_dominance2_32 : forall x y x' y',
  x <= x' -> y <= y' -> x' <= max_2d 32 -> y' <= max_2d 32 ->
  exists m m', encode2_32 x y = Ret m /\ encode2_32 x' y' = Ret m' /\ m <= m'.
Proof. exact dominance2_32. Qed.
Print Assumptions C13_dominance2_32.
Theorem C13_dominance2_64 : forall x y x' y',
  x <= x' -> y <= y' -> x' <= max_2d 64 -> y' <= max_2d 64 ->
  exists m m', encode2_64 x y = Ret m /\ encode2_64 x' y' = Ret m' /\ m <= m'.
Proof. exact dominance2_64. Qed.
Print Assumptions C13_dominance2_64.
Theorem C13_dominance3_32 : forall x y z x' y' z',
  x <= x' -> y <= y' -> z <= z' -> x' <= max_3d 32 -> y' <= max_3d 32 -> z' <= max_3d 32 ->
  exists m m', encode3_32 x y z = Ret m /\ encode3_32 x' y' z' = Ret m' /\ m <= m'.
Proof. exact dominance3_32. Qed.
Print Assumptions C13_dominance3_32.
Theorem C13_dominance3_64 : forall x y z x' y' z',
  x <= x' -> y <= y' -> z <= z' -> x' <= max_3d 64 -> y' <= max_3d 64 -> z' <= max_3d 64 ->
  exists m m', encode3_64 x y z = Ret m /\ encode3_64 x' y' z' = Ret m' /\ m <= m'.
Proof. exact dominance3_64. Qed.
Print Assumptions C13_dominance3_64.
Example C13_dominance_example : 3 <= 7 /\ 9 <= 9 /\ 7 <= max_2d 32 /\ 9 <= max_2d 32.
Proof. change (max_2d 32) with 65535. lia. Qed.

(** Float coordinates in the unit square/cube: no undefined behaviour, codes in
    range, dominance respected - for every monotone rounding of the product that
    is exact on 0 and on the scale factor (all the IEEE rounding modes are). *)
Theorem C13_float2_32 : forall rnd x y x' y', rounding (max_2d 32) rnd ->
  (0 <= x)%R -> (x <= x')%R -> (x' <= 1)%R -> (0 <= y)%R -> (y <= y')%R -> (y' <= 1)%R ->
  exists m m', encode2_32_float rnd x y = Ret m /\ encode2_32_float rnd x' y' = Ret m' /\
    m <= m' /\ m' < 2 ^ 32.
Proof. exact encode2_32_float_mono. Qed.
Print Assumptions C13_float2_32.
Theorem C13_float2_64 : forall rnd x y x' y', rounding (max_2d 64) rnd ->
  (0 <= x)%R -> (x <= x')%R -> (x' <= 1)%R -> (0 <= y)%R -> (y <= y')%R -> (y' <= 1)%R ->
  exists m m', encode2_64_float rnd x y = Ret m /\ encode2_64_float rnd x' y' = Ret m' /\
    m <= m' /\ m' < 2 ^ 64.
Proof. exact encode2_64_float_mono. Qed.
Print Assumptions C13_float2_64.
Theorem C13_float3_32 : forall rnd x y z x' y' z', rounding (max_3d 32) rnd ->
  (0 <= x)%R -> (x <= x')%R -> (x' <= 1)%R -> (0 <= y)%R -> (y <= y')%R -> (y' <= 1)%R ->
  (0 <= z)%R -> (z <= z')%R -> (z' <= 1)%R ->
  exists m m', encode3_32_float rnd x y z = Ret m /\ encode3_32_float rnd x' y' z' = Ret m' /\
    m <= m' /\ m' < 2 ^ 30.
Proof. exact encode3_32_float_mono. Qed.
Print Assumptions C13_float3_32.
(** Every code interleaves the integer parts of the scaled coordinates. *)
Theorem C13_float_cells : forall rnd, (forall x y, rounding (max_2d 32) rnd -> (0 <= x <= 1)%R -> (0 <= y <= 1)%R ->
    exists m i j, encode2_32_float rnd x y = Ret m /\ interleaves2 m i j /\ scaled (max_2d 32) rnd x i /\ scaled (max_2d 32) rnd y j) /\
  (forall x y, rounding (max_2d 64) rnd -> (0 <= x <= 1)%R -> (0 <= y <= 1)%R ->
    exists m i j, encode2_64_float rnd x y = Ret m /\ interleaves2 m i j /\ scaled (max_2d 64) rnd x i /\ scaled (max_2d 64) rnd y j) /\
  (forall x y z, rounding (max_3d 32) rnd -> (0 <= x <= 1)%R -> (0 <= y <= 1)%R -> (0 <= z <= 1)%R ->
    exists m i j k, encode3_32_float rnd x y z = Ret m /\ interleaves3 m i j k /\
      scaled (max_3d 32) rnd x i /\ scaled (max_3d 32) rnd y j /\ scaled (max_3d 32) rnd z k).
Proof. exact float_cells. Qed.
Print Assumptions C13_float_cells.
Example C13_rounding_exact : rounding (max_2d 32) (fun r => r).
Proof. repeat split; auto. Qed.

(** mortonLess never puts a dominated point after the point dominating it. *)
Theorem C13_mortonLess : forall rnd p q, rounding (max_2d 32) rnd ->
  (0 <= fst p)%R -> (fst p <= fst q)%R -> (fst q <= 1)%R ->
  (0 <= snd p)%R -> (snd p <= snd q)%R -> (snd q <= 1)%R ->
  mortonLess2 rnd q p = Ret false.
Proof. exact mortonLess2_dominance. Qed.
Print Assumptions C13_mortonLess.

(** Decoding an encoded point gives the lower corner of its grid cell. *)
Theorem C13_float_roundtrip : forall x y, (0 <= x <= 1)%R -> (0 <= y <= 1)%R ->
  exists m, encode2_32_float (fun r => r) x y = Ret m /\
    let '(x', y') := decode2_32_float m in
    (x' <= x < x' + 1 / 65535)%R /\ (y' <= y < y' + 1 / 65535)%R.
Proof. exact decode_encode_float. Qed.
Print Assumptions C13_float_roundtrip.
Example C13_float_hyp : (0 <= 1/3 <= 1)%R /\ (0 <= 1 <= 1)%R.
Proof. lra. Qed.
