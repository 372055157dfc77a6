(** Model of src/mpact/source.cpp, of getSpectrum (post-process/extract_spectrum.cpp) and of the program
    models/c5g7/2d/c5g7_extract_source.cpp: what is made of the flux in an FSR output.

    Float is the exact real numbers.  The soup is the state of Soup_Model: reading it from its file and writing
    it are in Xdmf_Model.  A material is its cross section (Material::xsec).  LOG_ERROR ends the program by
    default and is [Fail]; LOG_WARN and LOG_INFO are not modelled.  The ASSERTs have no effect in a release build.
    Building the mesh of the faces does not validate it. *)
From Coq Require Import String.
From Coq Require Import Reals.
From Coq Require Import List Arith ZArith Bool.
From Verif Require Import Base Loops Arith Elem_Model Soup_Model Color_Model Ascii_Model Powers_Model Fvm_Model XSec_Model TextIo_Model.
Import ListNotations.
Local Open Scope R_scope.

Definition fsr : Type := soup (R * R * R) R.

(** source.cpp:92-121 and extract_spectrum.cpp:52-80: the type of the faces *)
Definition face_kind (s : fsr) : outcome kind :=
  match getElemTypes (etypes s) with
  | [V_Triangle] => Ret Tri
  | [V_Quad] => Ret Quad
  | [V_QuadraticTriangle] => Ret Tri6
  | [V_QuadraticQuad] => Ret Quad8
  | _ => Fail
  end.
(** FaceVertexMesh<P, N>(soup, false); epsDistance is 1e-7 *)
Definition face_mesh (k : kind) (s : fsr) : outcome (@mesh R) :=
  from_soup (fun a b => Rltb (1 / 10000000) (Rabs (a - b))) (0, 0) (fun m => Ret m) k s.
(** soup.getElset(name, ids, data): both vectors stay as they are if there is no such element set *)
Definition fetch (s : fsr) (n : list Z) (st : list Z * list R) : outcome (list Z * list R) :=
  let* r := getElsetByName s n (snd st) in
  Ret (match r with Some x => x | None => st end).

(** source.cpp:42-45: static_cast<Int>(mat_data[i]) - 1 *)
Definition material_id (mat_data : list R) (i : nat) : outcome Z :=
  let* x := rd mat_data i in
  let* z := i32 (trunc x) in
  i32 (z - 1).
(** source.cpp:68-79: one group, one face *)
Definition add_face (materials : list xsec) (mat_ids : list Z) (flux : list R) (ig i : nat) (source : list (R * R))
  : outcome (list (R * R)) :=
  let* id := rd mat_ids i in
  let* x := rdz materials id in
  let* sigma_s := rd (xs x) ig in
  let* nu_sigma_f := rd (xnuf x) ig in
  let* f := rd flux i in
  let* q := rd source i in
  wr source i (fst q + f * sigma_s, snd q + f * nu_sigma_f).
(** source.cpp:61-83: one group; the state is the ids, the flux, the source and the name *)
Definition add_energy (s : fsr) (materials : list xsec) (mat_ids : list Z) (num_faces ig : nat)
  (st : (list Z * list R) * list (R * R) * list Z) : outcome ((list Z * list R) * list (R * R) * list Z) :=
  let '(out, source, elset_name) := st in
  let* out := fetch s elset_name out in
  let* source := for_ num_faces 0 (add_face materials mat_ids (snd out) ig) source in
  let* elset_name := incrementASCIINumber elset_name in
  Ret (out, source, elset_name).
(** source.cpp:22-88; the new vectors of ids and flux hold values that are not specified, here zero *)
Definition sources_of (k : kind) (s : fsr) (materials : list xsec) : outcome (list (R * R)) :=
  let* fvm := face_mesh k s in
  let num_faces := length (fv fvm) in
  let* m := fetch s (lit "material") (repeat 0%Z num_faces, []) in
  let* mat_ids := mapo (material_id (snd m)) (seq 0 num_faces) in
  let* x0 := rd materials 0 in
  let* st := for_ (numGroups x0) 0 (add_energy s materials mat_ids num_faces)
               ((fst m, repeat 0 num_faces), repeat (0, 0) num_faces, lit "flux_001") in
  Ret (snd (fst st)).
(** source.cpp:92-122 *)
Definition getSource (s : fsr) (materials : list xsec) : outcome (list (R * R)) :=
  let* k := face_kind s in sources_of k s materials.

(** soup.addElset(name, ids, data); a refused element set is a LOG_ERROR *)
Definition add_set (s : fsr) (n : list Z) (ids : list Z) (data : list R) : outcome fsr :=
  let '(s, _, error) := addElset s n ids data in
  if (error : bool) then Fail else Ret s.
(** c5g7_extract_source.cpp:29-49; [k_eff] is the constant of the program *)
Definition extract_source (k_eff : R) (s : fsr) (materials : list xsec) : outcome fsr :=
  let* source := getSource s materials in
  let lambda := 1 / k_eff in
  let scattering_source := map fst source in
  let fission_source := map (fun q => lambda * snd q) source in
  let total_source := map (fun q => fst q + lambda * snd q) source in
  let ids := map Z.of_nat (seq 0 (length source)) in
  let* s := add_set s (lit "scattering_source") ids scattering_source in
  let* s := add_set s (lit "fission_source") ids fission_source in
  add_set s (lit "total_source") ids total_source.

(** extract_spectrum.cpp:106-115: the state is the flux of the group and of the last faces *)
Definition add_flux (face_areas flux : list R) (i : nat) (st : R * R) : outcome (R * R) :=
  let '(group_flux, local_accum) := st in
  let* f := rd flux i in
  let* a := rd face_areas i in
  let local_accum := local_accum + f * a in
  if (i mod 128 =? 127)%nat then Ret (group_flux + local_accum, 0) else Ret (group_flux, local_accum).
(** extract_spectrum.cpp:96-120: while (true) *)
Fixpoint spectrum_loop (fuel : nat) (s : fsr) (face_areas : list R) (ids : list Z) (spectrum : list R) (elset_name : list Z)
  : outcome (list R) :=
  match fuel with
  | O => OutOfFuel
  | S fuel' =>
      let* out := fetch s elset_name (ids, []) in
      match snd out with
      | [] => Ret spectrum
      | _ =>
          let* st := for_ (length (fst out)) 0 (add_flux face_areas (snd out)) (0, 0) in
          let* elset_name := incrementASCIINumber elset_name in
          spectrum_loop fuel' s face_areas (fst out) (spectrum ++ [fst st + snd st]) elset_name
      end
  end.
(** extract_spectrum.cpp:83-122 *)
Definition spectrum_of (fuel : nat) (k : kind) (s : fsr) : outcome (list R) :=
  let* fvm := face_mesh k s in
  let* face_areas := mapo (fun c => let* f := mapo (rdz (mv fvm)) c in face_area (elem_type k) f) (fv fvm) in
  spectrum_loop fuel s face_areas [] [] (lit "flux_001").
(** extract_spectrum.cpp:52-80 *)
Definition getSpectrum (fuel : nat) (s : fsr) : outcome (list R) :=
  let* k := face_kind s in spectrum_of fuel k s.
