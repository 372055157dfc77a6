(** Model of the cross section code: src/physics/cross_section.cpp, src/physics/nuclide.cpp
    (interpXS, validate), Material::populateXSec of src/physics/material.cpp and
    computeCellHomogenizedXSec of src/mpact/model.cpp.

    Float is the exact real numbers.  A number of groups is a natural number (a negative one has
    no meaning in Vector's constructor).  LOG_ERROR ends the program by default (settings.hpp:29)
    and is [Fail]; the number of LOG_WARN messages is counted. *)
From Coq Require Import List Arith ZArith Bool Reals.
From Verif Require Import Base Loops Arith Matrix_Model Stats_Model.
Import ListNotations.
Local Open Scope R_scope.

(** cross_section.hpp:20-34 *)
Record xsec := mkX {
  isMacro : bool; isFissile : bool; numGroups : nat;
  xa : list R; xf : list R; xnuf : list R; xtr : list R; xs : list R;
  xss : @matrix R
}.

(** cross_section.hpp:39-50 *)
Definition XSec (ng : nat) : outcome xsec :=
  let* m := make ng ng 0 in
  Ret (mkX false false ng (repeat 0 ng) (repeat 0 ng) (repeat 0 ng) (repeat 0 ng) (repeat 0 ng) m).

(** the assignments of xs.isMacro() and xs.isFissile() *)
Definition set_macro (b : bool) (x : xsec) : xsec :=
  mkX b (isFissile x) (numGroups x) (xa x) (xf x) (xnuf x) (xtr x) (xs x) (xss x).
Definition set_fissile (b : bool) (x : xsec) : xsec :=
  mkX (isMacro x) b (numGroups x) (xa x) (xf x) (xnuf x) (xtr x) (xs x) (xss x).

Definition Rleb (x y : R) : bool := negb (Rltb y x).
Definition warns (b : bool) : nat := if b then 1%nat else 0%nat.

(** a loop over a vector's first n values that counts warnings *)
Definition warn_loop (n : nat) (v : list R) (bad : R -> nat) (w : nat) : outcome nat :=
  for_ n 0 (fun i w => let* x := rd v i in Ret (w + bad x)%nat) w.
(** a loop over a vector's first n values that reports an error *)
Definition error_loop (n : nat) (v : list R) (bad : R -> bool) : outcome unit :=
  for_ n 0 (fun i _ => let* x := rd v i in if bad x then Fail else Ret tt) tt.

(** cross_section.cpp:17-120: the number of warnings, or Fail *)
Definition validate (x : xsec) : outcome nat :=
  let ng := numGroups x in
  if (ng =? 0)%nat then Fail else
  if negb (length (xa x) =? ng)%nat then Fail else
  if negb (length (xf x) =? ng)%nat then Fail else
  if negb (length (xnuf x) =? ng)%nat then Fail else
  if negb (length (xtr x) =? ng)%nat then Fail else
  if negb (length (xs x) =? ng)%nat then Fail else
  if negb (rows (xss x) =? ng)%nat || negb (cols (xss x) =? ng)%nat then Fail else
  if isMacro x then
    let* w := warn_loop ng (xa x) (fun v => warns (Rltb v 0)) 0%nat in
    let* w := warn_loop ng (xf x) (fun v => (warns (Rltb v 0) + warns (Rltb 0 v && negb (isFissile x)))%nat) w in
    let* w := warn_loop ng (xnuf x) (fun v => (warns (Rltb v 0) + warns (Rltb 0 v && negb (isFissile x)))%nat) w in
    let* w := warn_loop ng (xtr x) (fun v => warns (Rltb v 0)) w in
    let* w := warn_loop ng (xs x) (fun v => warns (Rltb v 0)) w in
    let* n := i32 (Z.of_nat ng * Z.of_nat ng) in
    warn_loop (Z.to_nat n) (data (xss x)) (fun v => warns (Rltb v 0)) w
  else
    let* _ := error_loop ng (xf x) (fun v => Rltb 0 v && negb (isFissile x)) in
    let* _ := error_loop ng (xnuf x) (fun v => Rltb 0 v && negb (isFissile x)) in
    Ret 0%nat.

(** cross_section.cpp:122-141 *)
Definition collapseTo1GroupAvg (x : xsec) : outcome xsec :=
  let* r := XSec 1 in
  let* a := mean (xa x) in
  let* va := wr (xa r) 0 a in
  let* f := mean (xf x) in
  let* vf := wr (xf r) 0 f in
  let* nuf := mean (xnuf x) in
  let* vnuf := wr (xnuf r) 0 nuf in
  let* tr := mean (xtr x) in
  let* vtr := wr (xtr r) 0 tr in
  let* s := mean (xs x) in
  let* vs := wr (xs r) 0 s in
  let* q := mean (data (xss x)) in
  let* d := wr (data (xss r)) 0 (INR (numGroups x) * q) in
  let r := mkX (isMacro x) (isFissile x) (numGroups r) va vf vnuf vtr vs
             (mkM (rows (xss r)) (cols (xss r)) d) in
  let* _ := validate r in
  Ret r.

(** ** Nuclides *)

(** nuclide.hpp:17-30 (the mass number does not matter here) *)
Record nuclide := mkNuc { zaid : Z; mass : R; fissile : bool; temps : list R; tables : list xsec }.

(** nuclide.cpp:106-109, 114-116 *)
Definition lerp_at (d : R) (v v0 v1 : list R) (g : nat) : outcome (list R) :=
  let* x0 := rd v0 g in
  let* x1 := rd v1 g in
  let* x0' := rd v0 g in
  wr v g (x0 + d * (x1 - x0')).

(** nuclide.cpp:84-87: the first position from [i] on with temperature < t *)
Fixpoint upper (fuel : nat) (ts : list R) (T : R) (i : nat) : outcome nat :=
  match fuel with
  | O => OutOfFuel
  | S fuel' => let* t := rd ts i in if Rleb t T then upper fuel' ts T (S i) else Ret i
  end.

(** nuclide.cpp:66-122 *)
Definition interpXS (n : nuclide) (T : R) : outcome xsec :=
  if (length (temps n) =? 1)%nat then rd (tables n) 0 else
  let* tmin := rd (temps n) 0 in
  if Rleb T tmin then rd (tables n) 0 else
  let* tmax := rdz (temps n) (Z.of_nat (length (temps n)) - 1) in
  if Rleb tmax T then rdz (tables n) (Z.of_nat (length (tables n)) - 1) else
  let* i := upper (S (length (temps n))) (temps n) T 0 in
  let i0 := (Z.of_nat i - 1)%Z in
  let* t0 := rdz (temps n) i0 in
  let* t1 := rd (temps n) i in
  let d := (sqrt T - sqrt t0) / (sqrt t1 - sqrt t0) in
  let* xs0 := rdz (tables n) i0 in
  let* xs1 := rd (tables n) i in
  let ng := numGroups xs0 in
  let* x := XSec ng in
  let x := set_macro (isMacro xs0) x in
  let x := set_fissile (isFissile xs0) x in
  for_ ng 0 (fun g x =>
    let* va := lerp_at d (xa x) (xa xs0) (xa xs1) g in
    let* vf := lerp_at d (xf x) (xf xs0) (xf xs1) g in
    let* vnuf := lerp_at d (xnuf x) (xnuf xs0) (xnuf xs1) g in
    let* vtr := lerp_at d (xtr x) (xtr xs0) (xtr xs1) g in
    let* vs := lerp_at d (xs x) (xs xs0) (xs xs1) g in
    let* m := for_ ng 0 (fun gg m =>
      let* x0 := get (xss xs0) gg g in
      let* x1 := get (xss xs1) gg g in
      set m gg g (x0 + d * (x1 - x0))) (xss x) in
    Ret (mkX (isMacro x) (isFissile x) (numGroups x) va vf vnuf vtr vs m)) x.

(** algorithm/is_sorted.hpp, on the temperatures *)
Fixpoint is_sorted (l : list R) : bool :=
  match l with
  | a :: ((b :: _) as l') => if Rltb b a then false else is_sorted l'
  | _ => true
  end.

(** nuclide.cpp:31-64 *)
Definition nuc_validate (n : nuclide) : outcome unit :=
  if (zaid n <=? 0)%Z then Fail else
  if Rleb (mass n) 0 then Fail else
  let* any := for_ (length (tables n)) 0 (fun i any =>
    let* x := rd (tables n) i in
    let any := if isFissile x then true else any in
    let* _ := validate x in
    if isMacro x then Fail else Ret any) false in
  if negb (Bool.eqb any (fissile n)) then Fail else
  if negb (length (temps n) =? length (tables n))%nat then Fail else
  let* _ := error_loop (length (temps n)) (temps n) (fun t => Rleb t 0) in
  if negb (is_sorted (temps n)) then Fail else Ret tt.

(** ** Materials *)

(** cross_section_library.hpp: the group structure and the nuclides *)
Record library := mkLib { groups : nat; nuclides : list nuclide }.

(** cross_section_library.cpp:457-467 *)
Fixpoint find_nuclide (l : list nuclide) (z : Z) : outcome nuclide :=
  match l with
  | [] => Fail
  | n :: l' => if (zaid n =? z)%Z then Ret n else find_nuclide l' z
  end.
Definition getNuclide (lib : library) (z : Z) : outcome nuclide := find_nuclide (nuclides lib) z.

(** material.hpp:22-36, without colour; of the name only its length matters *)
Record material := mkMat {
  name_len : nat; temperature : R; density : R;
  num_density : list R; zaids : list Z; mxsec : xsec
}.

(** material.cpp:324-355 *)
Definition validateProperties (m : material) : outcome unit :=
  if (name_len m =? 0)%nat then Fail else
  if Rleb (temperature m) 0 then Fail else
  if Rleb (density m) 0 then Fail else
  if (length (num_density m) =? 0)%nat then Fail else
  if (length (zaids m) =? 0)%nat then Fail else
  if negb (length (num_density m) =? length (zaids m))%nat then Fail else
  let* _ := error_loop (length (num_density m)) (num_density m) (fun n => Rltb n 0) in
  for_ (length (zaids m)) 0 (fun i _ => let* z := rd (zaids m) i in if (z <=? 0)%Z then Fail else Ret tt) tt.

(** material.cpp:482-486: v[g] += w[g] * c *)
Definition madd (c : R) (v w : list R) (g : nat) : outcome (list R) :=
  let* x := rd w g in let* y := rd v g in wr v g (y + x * c).

(** material.cpp:459-495.  numNuclides() is the length of the zaids. *)
Definition populateXSec (m : material) (lib : library) : outcome material :=
  let ng := groups lib in
  let* x := XSec ng in
  let* _ := validateProperties m in
  let x := set_macro true x in
  let* x := for_ (length (zaids m)) 0 (fun inuc x =>
    let* z := rd (zaids m) inuc in
    let* nuc := getNuclide lib z in
    let* n := interpXS nuc (temperature m) in
    let* c := rd (num_density m) inuc in
    let x := if isFissile n then set_fissile true x else x in
    for_ ng 0 (fun ig x =>
      let* va := madd c (xa x) (xa n) ig in
      let* vf := madd c (xf x) (xf n) ig in
      let* vnuf := madd c (xnuf x) (xnuf n) ig in
      let* vtr := madd c (xtr x) (xtr n) ig in
      let* vs := madd c (xs x) (xs n) ig in
      let* mt := for_ ng 0 (fun jg mt =>
        let* y := get (xss n) jg ig in
        let* z := get mt jg ig in
        set mt jg ig (z + y * c)) (xss x) in
      Ret (mkX (isMacro x) (isFissile x) (numGroups x) va vf vnuf vtr vs mt)) x) x in
  let* _ := validate x in
  Ret (mkMat (name_len m) (temperature m) (density m) (num_density m) (zaids m) x).

(** ** Homogenisation *)

(** model.cpp:3105-3109: v[g] += c * w[g] *)
Definition wadd (c : R) (v w : list R) (g : nat) : outcome (list R) :=
  let* x := rd w g in let* y := rd v g in wr v g (y + c * x).
(** model.cpp:3121-3128: v[g] *= c *)
Definition smul (c : R) (v : list R) (g : nat) : outcome (list R) :=
  let* y := rd v g in wr v g (y * c).

(** model.cpp:3072-3133.  The mesh is the list of the areas of its faces (the area functions are
    modelled in Poly_Model and QPoly_Model), a material is its cross section.  A material id is an
    int8_t.  Division by a total area of zero has no meaning in the exact numbers: callers of this
    model are told by the theorems' hypotheses. *)
Definition homogenize (face_areas : list R) (material_ids : list Z) (materials : list xsec) : outcome xsec :=
  let* m0 := rd materials 0 in
  let ng := numGroups m0 in
  let areas := repeat 0 (length materials) in
  let* areas := for_ (length face_areas) 0 (fun i areas =>
    let* a := rd face_areas i in
    let* id := rd material_ids i in
    let* b := rdz areas id in
    wr areas (Z.to_nat id) (b + a)) areas in
  let* x := XSec ng in
  let* x := for_ (length materials) 0 (fun imat x =>
    let* c := rd areas imat in
    if Reqb c 0 then Ret x else
    let* n := rd materials imat in
    for_ ng 0 (fun ig x =>
      let* va := wadd c (xa x) (xa n) ig in
      let* vf := wadd c (xf x) (xf n) ig in
      let* vnuf := wadd c (xnuf x) (xnuf n) ig in
      let* vtr := wadd c (xtr x) (xtr n) ig in
      let* vs := wadd c (xs x) (xs n) ig in
      let* mt := for_ ng 0 (fun jg mt =>
        let* y := get (xss n) jg ig in
        let* z := get mt jg ig in
        set mt jg ig (z + c * y)) (xss x) in
      Ret (mkX (isMacro x) (isFissile x) (numGroups x) va vf vnuf vtr vs mt)) x) x in
  let* total := sum areas in
  let inv := 1 / total in
  let* x := for_ ng 0 (fun ig x =>
    let* va := smul inv (xa x) ig in
    let* vf := smul inv (xf x) ig in
    let* f := rd vf ig in
    let fis := if Rltb 0 f then true else isFissile x in
    let* vnuf := smul inv (xnuf x) ig in
    let* vtr := smul inv (xtr x) ig in
    let* vs := smul inv (xs x) ig in
    let* mt := for_ ng 0 (fun jg mt =>
      let* z := get mt jg ig in
      set mt jg ig (z * inv)) (xss x) in
    Ret (mkX (isMacro x) fis (numGroups x) va vf vnuf vtr vs mt)) x in
  let x := set_macro true x in
  let* _ := validate x in
  Ret x.
