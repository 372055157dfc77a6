(** What is promised of the sources and the spectrum taken from the flux in an FSR output. *)
From Coq Require Import String Ascii.
From Coq Require Import Reals.
From Coq Require Import List Arith ZArith.
From Verif Require Import Base Elem_Model Soup_Model Soup_Spec Powers_Model Fvm_Model XSec_Model.
Import ListNotations.
Local Open Scope R_scope.

(** the characters of a text *)
Fixpoint chars (t : string) : list Z :=
  match t with EmptyString => [] | String c t' => Z.of_N (N_of_ascii c) :: chars t' end.
(** the name of group g, counted from 1: flux_ and three digits *)
Definition flux_name (g : nat) : list Z :=
  (chars "flux_" ++ [48 + Z.of_nat (g / 100); 48 + Z.of_nat (g / 10 mod 10); 48 + Z.of_nat (g mod 10)])%Z.

(** f 0 + ... + f (n - 1) *)
Fixpoint sum (f : nat -> R) (n : nat) : R := match n with O => 0 | S n' => sum f n' + f n' end.

Notation content := (asoup (R * R * R) R).
(** the output has a value for each face, listed in the order of the faces *)
Definition gives (a : content) (n : list Z) (v : list R) : Prop :=
  In (mkElset n (map Z.of_nat (seq 0 (length (a_elems a)))) v) (a_elsets a) /\ length v = length (a_elems a).

(** An output on faces of one kind in a plane, with at least one face. *)
Record faces_of (s : soup (R * R * R) R) (a : content) (k : kind) : Prop := {
  fo_stores : stores s a;
  fo_content : content_ok a;
  fo_some : a_elems a <> [] /\ a_verts a <> [];
  fo_kind : forall t c, In (t, c) (a_elems a) -> t = elem_type k /\ length c = nverts k;
  fo_flat : forall p q, In p (a_verts a) -> In q (a_verts a) -> snd p = snd q }.

(** The faces have the materials [ids] (from 0); the flux of group [g] (from 0) is [nth g flux], [nth i] of that
    for face [i]. *)
Record output (a : content) (ids : list nat) (flux : list (list R)) : Prop := {
  ou_materials : exists d, gives a (chars "material") d /\
    Forall2 (fun id x => INR (S id) <= x < INR (S id) + 1) ids d;
  ou_flux : forall g v, nth_error flux g = Some v -> gives a (flux_name (S g)) v;
  ou_count : (length flux <= 999)%nat }.

(** The cross sections of the materials: all have as many groups as there are fluxes. *)
Definition grouped (materials : list xsec) (ids : list nat) (n : nat) : Prop :=
  (exists x0, nth_error materials 0 = Some x0 /\ numGroups x0 = n) /\ (Z.of_nat (length materials) < 2147483647)%Z /\
  forall id, In id ids -> exists x, nth_error materials id = Some x /\ length (xs x) = n /\ length (xnuf x) = n.

(** the sum over the groups of the flux in face [i] times a cross section of its material *)
Definition rate (sigma : xsec -> list R) (materials : list xsec) (ids : list nat) (flux : list (list R)) (i : nat) (q : R) : Prop :=
  exists id x, nth_error ids i = Some id /\ nth_error materials id = Some x /\
    q = sum (fun g => nth i (nth g flux []) 0 * nth g (sigma x) 0) (length flux).

(** face [i] of the content has area [w] *)
Definition area_is (a : content) (k : kind) (i : nat) (w : R) : Prop :=
  exists t c f, nth_error (a_elems a) i = Some (t, c) /\
    Forall2 (fun v p => (0 <= v)%Z /\ exists z, nth_error (a_verts a) (Z.to_nat v) = Some (p, z)) c f /\
    face_area (elem_type k) f = Ret w.

(** the element sets that the program adds for sources [src]: the fission source is divided by k *)
Definition new_sets (k_eff : R) (n : nat) (src : list (R * R)) : list (elset R) :=
  map (fun x => mkElset (chars (fst x)) (map Z.of_nat (seq 0 n)) (map (snd x) src))
    [("scattering_source"%string, fun q : R * R => fst q); ("fission_source"%string, fun q => snd q / k_eff);
     ("total_source"%string, fun q => fst q + snd q / k_eff)].
