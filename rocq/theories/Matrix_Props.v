(** C16: the dynamic Matrix. *)
From Coq Require Import List Arith ZArith Reals Lia Lra.
From Verif Require Import Base Loops Arith Matrix_Model Matrix_Spec Matrix_Proofs.
Import ListNotations.
Local Open Scope bool_scope.

(** operator()(i, j): distinct (i, j) address distinct elements and every element is addressed;
    a write changes this element only. *)
Theorem C16_addressing : forall (T : Type) (o : arith T) (m : matrix), wf m ->
  (forall i j, i < rows m -> j < cols m ->
     index m i j = Ret (Z.of_nat (j * rows m + i)) /\ j * rows m + i < length (data m) /\
     get m i j = Ret (ent o m i j)) /\
  (forall i j i' j', i < rows m -> i' < rows m ->
     j * rows m + i = j' * rows m + i' -> i = i' /\ j = j') /\
  (forall k, k < length (data m) -> exists i j, i < rows m /\ j < cols m /\ k = j * rows m + i) /\
  (forall i j x, i < rows m -> j < cols m ->
     exists m', set m i j x = Ret m' /\ wf m' /\ rows m' = rows m /\ cols m' = cols m /\
       forall i' j', i' < rows m -> j' < cols m ->
         ent o m' i' j' = if (i' =? i) && (j' =? j) then x else ent o m i' j').
Proof.
  exact (fun T o m H => conj
    (fun i j Hi Hj => conj (index_ok m i j H Hi Hj)
       (conj (eq_ind_r (fun n => j * rows m + i < n) (index_bound _ _ i j Hi Hj) (proj1 H)) (get_ok o m i j H Hi Hj)))
    (conj (fun i j i' j' => index_inj (rows m) i j i' j')
    (conj (fun k Hk => index_surj (rows m) (cols m) k (eq_ind _ (fun n => k < n) Hk _ (proj1 H)))
          (fun i j x => set_ok o m i j x H)))).
Qed.
Print Assumptions C16_addressing.

(** transpose of a square matrix: entry (i, j) becomes the (conjugated, for complex types) entry
    (j, i); applied twice it restores the matrix exactly. *)
Theorem C16_transpose : forall (T : Type) (o : arith T) (conj : T -> T) n m f, is_mat o m n n f ->
  exists m', transpose conj m = Ret m' /\ is_mat o m' n n (fun i j => conj (f j i)).
Proof. exact @transpose_ok. Qed.
Print Assumptions C16_transpose.
Theorem C16_transpose_involution : forall (T : Type) (o : arith T) (conj : T -> T) m n,
  (forall x, conj (conj x) = x) -> wf m -> rows m = n -> cols m = n ->
  exists m', transpose conj m = Ret m' /\ transpose conj m' = Ret m.
Proof. exact @transpose_invol. Qed.
Print Assumptions C16_transpose_involution.

(** the products are the textbook sums, summed from k = 0 upward starting with 0, every arithmetic *)
Theorem C16_mat_vec : forall (T : Type) (o : arith T) a x r c f, is_mat o a r c f -> length x = c ->
  exists y, mat_vec o a x = Ret y /\ length y = r /\ forall i, i < r ->
    nth i y (o0 o) = sum_left o c (fun k => omul o (f i k) (nth k x (o0 o))).
Proof. exact @mat_vec_ok. Qed.
Print Assumptions C16_mat_vec.
Theorem C16_mat_mat : forall (T : Type) (o : arith T) a b r n p fa fb,
  is_mat o a r n fa -> is_mat o b n p fb -> (Z.of_nat r * Z.of_nat p <= intMax)%Z ->
  exists c, mat_mat o a b = Ret c /\
    is_mat o c r p (fun i j => sum_left o n (fun k => omul o (fa i k) (fb k j))).
Proof. exact @mat_mat_ok. Qed.
Print Assumptions C16_mat_mat.

(** +, -, +=, -=, *= act entry by entry; zero() clears every entry *)
Theorem C16_entrywise : forall (T : Type) (o : arith T) a b x0, wf a -> wf b ->
  rows a = rows b -> cols a = cols b ->
  (exists m, add o x0 a b = Ret m /\ is_mat o m (rows a) (cols a) (fun i j => oadd o (ent o a i j) (ent o b i j))) /\
  (exists m, sub o x0 a b = Ret m /\ is_mat o m (rows a) (cols a) (fun i j => osub o (ent o a i j) (ent o b i j))) /\
  (exists m, add_assign o a b = Ret m /\ is_mat o m (rows a) (cols a) (fun i j => oadd o (ent o a i j) (ent o b i j))) /\
  (exists m, sub_assign o a b = Ret m /\ is_mat o m (rows a) (cols a) (fun i j => osub o (ent o a i j) (ent o b i j))) /\
  (forall s, exists m, scale o a s = Ret m /\ is_mat o m (rows a) (cols a) (fun i j => omul o (ent o a i j) s)) /\
  is_mat o (zero o a) (rows a) (cols a) (fun _ _ => o0 o).
Proof.
  exact (fun T o a b x0 Ha Hb Hr Hc =>
    conj (combine_ok o (oadd o) x0 a b Ha Hb Hr Hc) (conj (combine_ok o (osub o) x0 a b Ha Hb Hr Hc)
   (conj (add_to_ok o (oadd o) a b Ha Hb Hr Hc) (conj (add_to_ok o (osub o) a b Ha Hb Hr Hc)
   (conj (fun s => scale_ok o a s Ha) (zero_ok o a Ha)))))).
Qed.
Print Assumptions C16_entrywise.

Local Open Scope R_scope.
Theorem C16_identity : forall n p f a, (Z.of_nat n * Z.of_nat n <= intMax)%Z ->
  (is_mat Rarith a n p f ->
   exists e c, identity Rarith n = Ret e /\ mat_mat Rarith e a = Ret c /\ is_mat Rarith c n p f) /\
  (is_mat Rarith a p n f ->
   exists e c, identity Rarith n = Ret e /\ mat_mat Rarith a e = Ret c /\ is_mat Rarith c p n f).
Proof.
  exact (fun n p f a H => conj (fun Ha => identity_neutral n p a f Ha H)
                               (fun Ha => identity_neutral_r n p a f Ha H)).
Qed.
Print Assumptions C16_identity.

(** matmul(C, A, B), documented as C = A * B: it adds A * B to the previous contents of C, so it
    stores the product exactly when C was zero. *)
Theorem C16_matmul_partial : forall c a b r n p fa fb fc,
  is_mat Rarith a r n fa -> is_mat Rarith b n p fb -> is_mat Rarith c r p fc ->
  exists c', matmul Rarith c a b = Ret c' /\
    is_mat Rarith c' r p (fun i j => fc i j + sum_left Rarith n (fun k => fa i k * fb k j)).
Proof. exact matmul_adds. Qed.
Print Assumptions C16_matmul_partial.

(** Concrete cases over the integers: a 2 by 3 times 3 by 1 product, a transpose, and the matmul
    that does not store the product. *)
Definition m23 : @matrix Z := mkM 2 3 [1; 4; 2; 5; 3; 6]%Z.
Definition m31 : @matrix Z := mkM 3 1 [1; 10; 100]%Z.
Example C16_example :
  wf m23 /\ ent Zarith m23 1 2 = 6%Z /\
  mat_mat Zarith m23 m31 = Ret (mkM 2 1 [321; 654]%Z) /\
  mat_vec Zarith m23 [1; 10; 100]%Z = Ret [321; 654]%Z /\
  transpose (fun x => x) (mkM 2 2 [1; 3; 2; 4]%Z) = Ret (mkM 2 2 [1; 2; 3; 4]%Z).
Proof. repeat split. unfold intMax; cbn; lia. Qed.
Theorem C16_matmul_refuted : exists c a b : @matrix Z, wf c /\ wf a /\ wf b /\
  rows c = rows a /\ cols c = cols b /\ cols a = rows b /\
  exists c' ab, matmul Zarith c a b = Ret c' /\ mat_mat Zarith a b = Ret ab /\ c' <> ab.
Proof.
  exists (mkM 1 1 [7]%Z), (mkM 1 1 [2]%Z), (mkM 1 1 [3]%Z).
  repeat split; try (unfold intMax; cbn; lia).
  exists (mkM 1 1 [13]%Z), (mkM 1 1 [6]%Z). repeat split. discriminate.
Qed.
Print Assumptions C16_matmul_refuted.
