(** C63: colours. *)
From Coq Require Import ZArith Reals Lra Lia Floats.SpecFloat.
From Verif Require Import Base Color_Model Color_Spec Color_Proofs.
Local Open Scope Z_scope.

Theorem C63_equality : forall x y, (eqb x y = true <-> x = y) /\ (neqb x y = true <-> x <> y).
Proof. exact (fun x y => conj (eqb_ok x y) (neqb_ok x y)). Qed.
Print Assumptions C63_equality.

(** Integral components in 0..255 are kept exactly, others are still reduced to a byte. *)
Theorem C63_integral : forall r0 g0 b0 a0, is_color (of_ints r0 g0 b0 a0) /\
  (0 <= r0 < 256 -> r (of_ints r0 g0 b0 a0) = r0) /\ (0 <= g0 < 256 -> g (of_ints r0 g0 b0 a0) = g0) /\
  (0 <= b0 < 256 -> b (of_ints r0 g0 b0 a0) = b0) /\ (0 <= a0 < 256 -> a (of_ints r0 g0 b0 a0) = a0).
Proof. exact of_ints_ok. Qed.
Print Assumptions C63_integral.

(** A colour made of three components is opaque, and one made of none is opaque black. *)
Theorem C63_opaque :
  default = mk 0 0 0 255 /\
  (forall r0 g0 b0, 0 <= r0 < 256 -> 0 <= g0 < 256 -> 0 <= b0 < 256 -> of_ints3 r0 g0 b0 = mk r0 g0 b0 255) /\
  (forall rnd r0 g0 b0, sane_rounding rnd -> (0 <= r0 <= 1)%R -> (0 <= g0 <= 1)%R -> (0 <= b0 <= 1)%R ->
    exists c, of_floats3 rnd r0 g0 b0 = Ret c /\ channel rnd r0 = Ret (r c) /\ channel rnd g0 = Ret (g c) /\
      channel rnd b0 = Ret (b c) /\ a c = 255).
Proof. exact (conj eq_refl (conj of_ints3_ok of_floats3_ok)). Qed.
Print Assumptions C63_opaque.

(** Floating point components in [0, 1]: defined, in range, each from its own argument... *)
Theorem C63_floating : forall rnd r0 g0 b0 a0, sane_rounding rnd ->
  (0 <= r0 <= 1)%R -> (0 <= g0 <= 1)%R -> (0 <= b0 <= 1)%R -> (0 <= a0 <= 1)%R ->
  exists c, of_floats rnd r0 g0 b0 a0 = Ret c /\ is_color c /\
    channel rnd r0 = Ret (r c) /\ channel rnd g0 = Ret (g c) /\
    channel rnd b0 = Ret (b c) /\ channel rnd a0 = Ret (a c).
Proof. exact of_floats_ok. Qed.
Print Assumptions C63_floating.

(** ... monotone, with 0 and 1 mapped to the ends. *)
Theorem C63_monotone : forall rnd, sane_rounding rnd ->
  (forall v w j k, (0 <= v <= w)%R -> (w <= 1)%R ->
     channel rnd v = Ret j -> channel rnd w = Ret k -> j <= k) /\
  channel rnd 0 = Ret 0 /\ channel rnd 1 = Ret 255.
Proof. exact (fun rnd H => conj (fun v w j k => channel_mono rnd v w j k H) (channel_ends rnd H)). Qed.
Print Assumptions C63_monotone.
(** The byte is the integer part of 255 times the component. *)
Theorem C63_value : forall rnd v, sane_rounding rnd -> (0 <= v <= 1)%R -> exists k, channel rnd v = Ret k /\ (IZR k <= rnd (v * 255) < IZR k + 1)%R.
Proof. exact channel_value. Qed.
Print Assumptions C63_value.

(** The fractions k/255, computed in double or float, give back k (so the map is onto). *)
Theorem C63_fractions : forall k, 0 <= k <= 255 ->
  channel_sf 53 1024 (fraction 53 1024 k) = Ret k /\ channel_sf 24 128 (fraction 24 128 k) = Ret k.
Proof. exact (fun k H => conj (fractions_double k H) (fractions_float k H)). Qed.
Print Assumptions C63_fractions.

(** Components outside of [0, 1] (here: exact arithmetic) make the conversion undefined. *)
Theorem C63_out_of_range : forall v, (v <= -1 \/ 256 / 255 <= v)%R -> channel (fun x => x) v = Ub.
Proof. exact channel_bad. Qed.
Print Assumptions C63_out_of_range.

Example C63_example :
  sane_rounding (fun x => x) /\ of_ints 300 255 0 (-1) = mk 44 255 0 255 /\
  channel_sf 53 1024 (fraction 53 1024 77) = Ret 77 /\ (0 <= 77 / 255 <= 1)%R.
Proof. split; [repeat split; intros; lra|]. split; [reflexivity|]. split; [vm_compute; reflexivity|lra]. Qed.
