(** C15: fixed-size vectors and matrices. *)
From Coq Require Import List Arith ZArith Reals Lia Lra.
From Verif Require Import Base Loops Arith Vec_Model Vec_Spec Vec_Proofs.
Import ListNotations.

(** matrix * vector, every shape and every arithmetic (also rounded): entry i is
    ((0 + a_i0 x_0) + a_i1 x_1) + ... *)
Theorem C15_mat_vec : forall (T : Type) (o : arith T) M N a x, shape M N a -> length x = N ->
  exists y, mat_vec o M N a x = Ret y /\ length y = M /\
    forall i, i < M -> comp o y i = prod_vec o N a x i.
Proof. exact @mat_vec_ok. Qed.
Print Assumptions C15_mat_vec.

(** matrix * matrix, every arithmetic, when the right operand is square (P = N) *)
Theorem C15_mat_mat_partial : forall (T : Type) (o : arith T) M N a b, shape M N a -> shape N N b ->
  exists c, mat_mat o M N N a b = Ret (map Some c) /\ shape M N c /\
    forall i j, i < M -> j < N -> entry o c i j = prod_mat o N a b i j.
Proof. exact @mat_mat_ok. Qed.
Print Assumptions C15_mat_mat_partial.

(** For every other shape the product is wrong: with P < N the loop writes past the result, with
    P > N the columns N .. P - 1 are never written. *)
Theorem C15_mat_mat_refuted : forall (T : Type) (o : arith T) M N P a b, shape M N a -> shape N P b ->
  (P < N -> mat_mat o M N P a b = Ub) /\
  (N < P -> forall r, mat_mat o M N P a b = Ret r -> forall j, N <= j < P -> nth_error r j = Some None).
Proof.
  exact (fun T o M N P a b Ha Hb => conj (mat_mat_oob o M N P a b Ha Hb)
    (fun H r E => mat_mat_uninit o M N P a b r H E)).
Qed.
Print Assumptions C15_mat_mat_refuted.

Theorem C15_mat_entrywise : forall (T : Type) (o : arith T) M N a b, shape M N a -> shape M N b ->
  (exists c, madd o N a b = Ret (map Some c) /\ shape M N c /\
    forall i j, i < M -> j < N -> entry o c i j = oadd o (entry o a i j) (entry o b i j)) /\
  (exists c, msub o N a b = Ret (map Some c) /\ shape M N c /\
    forall i j, i < M -> j < N -> entry o c i j = osub o (entry o a i j) (entry o b i j)).
Proof.
  exact (fun T o M N a b Ha Hb => conj (madd_ok o N a b (oadd o) M Ha Hb) (madd_ok o N a b (osub o) M Ha Hb)).
Qed.
Print Assumptions C15_mat_entrywise.

(** vector operations act component by component, every arithmetic *)
Theorem C15_vec_entrywise : forall (T : Type) (o : arith T) u v, length u = length v ->
  (length (vadd o u v) = length u /\
     forall i, i < length u -> comp o (vadd o u v) i = oadd o (comp o u i) (comp o v i)) /\
  (length (vsub o u v) = length u /\
     forall i, i < length u -> comp o (vsub o u v) i = osub o (comp o u i) (comp o v i)) /\
  (length (vmul o u v) = length u /\
     forall i, i < length u -> comp o (vmul o u v) i = omul o (comp o u i) (comp o v i)) /\
  (length (vdiv o u v) = length u /\
     forall i, i < length u -> comp o (vdiv o u v) i = odiv o (comp o u i) (comp o v i)).
Proof.
  exact (fun T o u v H => conj (vops_ok o (oadd o) u v H) (conj (vops_ok o (osub o) u v H)
    (conj (vops_ok o (omul o) u v H) (vops_ok o (odiv o) u v H)))).
Qed.
Print Assumptions C15_vec_entrywise.

Theorem C15_vec_scalar : forall (T : Type) (o : arith T) u s,
  let compwise w f := length w = length u /\ forall i, i < length u -> comp o w i = f (comp o u i) in
  compwise (vneg o u) (oopp o) /\
  compwise (vscale o s u) (fun x => omul o x s) /\ compwise (vdivs o u s) (fun x => odiv o x s) /\
  compwise (vadds o u s) (fun x => oadd o x s) /\ compwise (vsubs o u s) (fun x => osub o x s) /\
  compwise (ssubv o s u) (fun x => osub o s x) /\ compwise (sdivv o s u) (fun x => odiv o s x).
Proof.
  exact (fun T o u s => conj (vscalar_ok o _ u) (conj (vscalar_ok o _ u) (conj (vscalar_ok o _ u)
    (conj (vscalar_ok o _ u) (conj (vscalar_ok o _ u) (conj (vscalar_ok o _ u) (vscalar_ok o _ u))))))).
Qed.
Print Assumptions C15_vec_scalar.

Local Open Scope R_scope.

(** (A B) v = A (B v), and the identity is neutral, over the reals *)
Theorem C15_associative : forall M N a b v, shape M N a -> shape N N b -> length v = N ->
  exists c bv r, mat_mat Rarith M N N a b = Ret (map Some c) /\ mat_vec Rarith N N b v = Ret bv /\
    mat_vec Rarith M N c v = Ret r /\ mat_vec Rarith M N a bv = Ret r.
Proof. exact assoc_ok. Qed.
Print Assumptions C15_associative.

Theorem C15_identity : forall N, exists m, mident Rarith N = Ret m /\ shape N N m /\
  (forall v, length v = N -> mat_vec Rarith N N m v = Ret v) /\
  (forall a, shape N N a ->
     mat_mat Rarith N N N m a = Ret (map Some a) /\ mat_mat Rarith N N N a m = Ret (map Some a)).
Proof. exact ident_ok. Qed.
Print Assumptions C15_identity.

(** inv is a two-sided inverse whenever the determinant is not zero *)
Theorem C15_inv : forall a b c d,
  (a * d - b * c <> 0 ->
   exists m, inv Rarith (mat22 a b c d) = Ret m /\
     mat_mat Rarith 2 2 2 m (mat22 a b c d) = Ret (map Some ident22) /\
     mat_mat Rarith 2 2 2 (mat22 a b c d) m = Ret (map Some ident22)) /\
  (a * d - b * c = 0 -> inv Rarith (mat22 a b c d) = Fail).
Proof. exact (fun a b c d => conj (inv_ok a b c d) (inv_singular a b c d)). Qed.
Print Assumptions C15_inv.

(** the rotation by t: determinant 1, its transpose is its inverse, it rotates counterclockwise, and
    rotations compose by adding angles *)
Theorem C15_rotation : forall t, exists a b c d, rotation t = mat22 a b c d /\
  a * d - b * c = 1 /\
  mat_mat Rarith 2 2 2 (mat22 a c b d) (rotation t) = Ret (map Some ident22) /\
  forall x y, mat_vec Rarith 2 2 (rotation t) [x; y] = Ret [x * cos t - y * sin t; x * sin t + y * cos t].
Proof. exact rotation_ok. Qed.
Print Assumptions C15_rotation.
Theorem C15_rotation_add : forall s t,
  mat_mat Rarith 2 2 2 (rotation s) (rotation t) = Ret (map Some (rotation (s + t))).
Proof. exact rotation_add. Qed.
Print Assumptions C15_rotation_add.

Theorem C15_det : forall a b c d, det2x2 Rarith a b c d = a * d - b * c.
Proof. exact det_R. Qed.
Print Assumptions C15_det.
Theorem C15_cross2 : forall u v, cross2 Rarith u v = - cross2 Rarith v u /\ cross2 Rarith u u = 0 /\
  cross2 Rarith u v = fst u * snd v - snd u * fst v.
Proof. exact cross2_ok. Qed.
Print Assumptions C15_cross2.
(** antisymmetric, orthogonal to both arguments, with the squared length |u|^2 |v|^2 - (u.v)^2 *)
Theorem C15_cross3 : forall u v, cross3 Rarith u v = opp3 (cross3 Rarith v u) /\
  dot3 u (cross3 Rarith u v) = 0 /\ dot3 v (cross3 Rarith u v) = 0 /\
  dot3 (cross3 Rarith u v) (cross3 Rarith u v) = dot3 u u * dot3 v v - dot3 u v * dot3 u v.
Proof. exact cross3_ok. Qed.
Print Assumptions C15_cross3.
(** right-handed *)
Theorem C15_cross3_formula : forall u0 u1 u2 v0 v1 v2,
  cross3 Rarith (u0, u1, u2) (v0, v1, v2) = (u1 * v2 - u2 * v1, u2 * v0 - u0 * v2, u0 * v1 - u1 * v0).
Proof. exact cross3_full. Qed.
Print Assumptions C15_cross3_formula.

Theorem C15_dot : forall u v, u <> [] -> length u = length v ->
  dot Rarith u v = Ret (sum_left Rarith (length u) (fun k => comp Rarith u k * comp Rarith v k)).
Proof. exact dot_R. Qed.
Print Assumptions C15_dot.

(** the squared norm is the sum of the squares, and the norm its non-negative root, zero only for the zero vector *)
Theorem C15_norm : forall u, u <> [] -> exists s n, squaredNorm Rarith u = Ret s /\ s = sum_left Rarith (length u) (fun k => comp Rarith u k * comp Rarith u k) /\ norm Rarith u = Ret n /\
  0 <= n /\ n * n = s /\ (n = 0 <-> forall i, (i < length u)%nat -> comp Rarith u i = 0).
Proof. exact norm_full. Qed.
Print Assumptions C15_norm.

(** normalized has norm 1 and the direction of its argument, unless all components are zero *)
Theorem C15_normalized : forall u i0, (i0 < length u)%nat -> comp Rarith u i0 <> 0 ->
  exists w n, normalized Rarith u = Ret w /\ norm Rarith u = Ret n /\ norm Rarith w = Ret 1 /\
    length w = length u /\ 0 < n /\ forall i, (i < length u)%nat -> comp Rarith u i = n * comp Rarith w i.
Proof. exact normalized_ok. Qed.
Print Assumptions C15_normalized.

(** the distance is the non-negative root of the sum of the squared differences, symmetric and zero only between equal points; isApprox
    compares its square with eps2 *)
Theorem C15_distance : forall u v, u <> [] -> length u = length v ->
  exists d, distanceTo Rarith u v = Ret d /\ distanceTo Rarith v u = Ret d /\ 0 <= d /\
    d * d = sum_left Rarith (length u) (fun k => (comp Rarith u k - comp Rarith v k) * (comp Rarith u k - comp Rarith v k)) /\ squaredDistanceTo Rarith u v = Ret (d * d) /\ (d = 0 <-> u = v) /\
    forall eps2, isApprox Rarith eps2 u v = Ret (Rltb (d * d) eps2).
Proof. exact distance_full. Qed.
Print Assumptions C15_distance.

(** == is equality, < the lexicographic order, and the others follow *)
Theorem C15_compare : forall u v, length u = length v ->
  (veqb Rarith u v = true <-> u = v) /\ (vltb Rarith u v = true <-> lex_lt u v) /\
  (vneqb Rarith u v = true <-> u <> v) /\ (vgtb Rarith u v = true <-> lex_lt v u) /\
  (vleb Rarith u v = true <-> lex_lt u v \/ u = v) /\ (vgeb Rarith u v = true <-> lex_lt v u \/ u = v).
Proof. exact (fun u v H => conj (veqb_ok u v H) (conj (vltb_ok u v H) (cmp_ok u v H))). Qed.
Print Assumptions C15_compare.

Theorem C15_order : (forall u, vltb Rarith u u = false) /\
  (forall u v w, length u = length v -> length v = length w ->
     vltb Rarith u v = true -> vltb Rarith v w = true -> vltb Rarith u w = true) /\
  (forall u v, length u = length v -> vltb Rarith u v = true \/ u = v \/ vltb Rarith v u = true).
Proof. exact (conj vltb_irr (conj vltb_trans vltb_total)). Qed.
Print Assumptions C15_order.

Theorem C15_minmax : forall u v, length u = length v ->
  length (vmin Rarith u v) = length u /\ length (vmax Rarith u v) = length u /\
  forall i, (i < length u)%nat ->
    comp Rarith (vmin Rarith u v) i = Rmin (comp Rarith u i) (comp Rarith v i) /\
    comp Rarith (vmax Rarith u v) i = Rmax (comp Rarith u i) (comp Rarith v i).
Proof. exact minmax_ok. Qed.
Print Assumptions C15_minmax.

(** Concrete cases (over the integers, to be able to compute): a 2 by 3 matrix times a vector, a
    2 by 2 product, and a 2 by 3 times 3 by 2 product, which the code gets wrong. *)
Example C15_example :
  shape 2 3 [[1; 4]; [2; 5]; [3; 6]]%Z /\
  mat_vec Zarith 2 3 [[1; 4]; [2; 5]; [3; 6]]%Z [1; 10; 100]%Z = Ret [321; 654]%Z /\
  mat_mat Zarith 2 2 2 [[1; 3]; [2; 4]]%Z [[0; 1]; [1; 0]]%Z = Ret [Some [2; 4]; Some [1; 3]]%Z /\
  mat_mat Zarith 2 3 2 [[1; 4]; [2; 5]; [3; 6]]%Z [[1; 0; 0]; [0; 1; 0]]%Z = Ub /\
  mat_mat Zarith 2 1 2 [[1; 4]]%Z [[1]; [7]]%Z = Ret [Some [1; 4]%Z; None].
Proof.
  repeat split. intros c [<-|[<-|[<-|[]]]]; reflexivity.
Qed.
Example C15_example_inv : (1 * 4 - 2 * 3 <> 0)%R /\ comp Rarith [0; 3]%R 1 <> 0%R.
Proof. split; [lra|cbn; lra]. Qed.
