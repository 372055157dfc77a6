(** Properties of face-vertex meshes (C42-C46). *)
From Coq Require Import List Arith ZArith Lia Bool Reals Lra Sorting.Permutation Sorting.Sorted.
From Verif Require Import Base Loops Elem_Model Sort_Spec Soup_Model Soup_Spec Soup_Final_Proofs Fvm_Model Fvm_Spec
  Fvm_Proofs Fvm_History_Proofs Fvm_Sort_Proofs Fvm_Query_Proofs FvmMorton_Model FvmMorton_Spec FvmMorton_Proofs.
Import ListNotations.

(** * C42 *)
(** Mesh to soup and back: same vertices and faces.  [valid] is what follows the construction:
    validate(), or nothing. *)
Theorem C42_round_trip : forall (F G : Type) far junk valid (zero : F) k (m : mesh F),
  mesh_ok k m -> mv m <> [] -> fv m <> [] -> far zero zero = false ->
  exists s, to_soup (G := G) zero k m = Ret s /\
    from_soup far junk valid k s = valid (mkMesh false false (mv m) (fv m) [] []).
Proof. exact @round_trip. Qed.
Print Assumptions C42_round_trip.
(** The soup a mesh is converted to *)
Theorem C42_to_soup : forall (F G : Type) (zero : F) k (m : mesh F),
  exists s, to_soup (G := G) zero k m = Ret s /\
  stores s (mkA (map (fun p => (p, zero)) (mv m)) (map (fun c => (elem_type k, c)) (fv m)) []).
Proof. exact @to_soup_ok. Qed.
Print Assumptions C42_to_soup.
(** A planar soup whose elements all have the mesh's type and number of vertices gives a mesh with
    the soup's vertices and connectivity. *)
Theorem C42_from_soup : forall (F G : Type) far junk valid k (s : soup (F * F * F) G) a v0,
  stores s a -> a_elems a <> [] ->
  (forall t c, In (t, c) (a_elems a) -> t = elem_type k /\ length c = nverts k) ->
  nth_error (a_verts a) 0 = Some v0 -> (forall p, In p (a_verts a) -> far (snd p) (snd v0) = false) ->
  from_soup far junk valid k s = valid (mkMesh false false (map fst (a_verts a)) (map snd (a_elems a)) [] []).
Proof. exact @from_soup_ok. Qed.
Print Assumptions C42_from_soup.
(** Soups without elements, or with an element of another type, are refused. *)
Theorem C42_rejected : forall (F G : Type) far junk valid k (s : soup (F * F * F) G) a,
  stores s a -> a_elems a = [] \/ (exists t c, In (t, c) (a_elems a) /\ t <> elem_type k) ->
  from_soup far junk valid k s = Fail.
Proof. exact @from_soup_rejected. Qed.
Print Assumptions C42_rejected.
(** In a soup that is not planar the vertices after the first one out of the plane are lost: they
    keep whatever value the new vector's elements have. *)
Theorem C42_nonplanar_refuted : forall junk, exists (s : soup (Z * Z * Z) Z) a m,
  stores s a /\ (forall t c, In (t, c) (a_elems a) -> t = V_Triangle /\ length c = 3) /\
  from_soup (fun a b => 0 <? Z.abs (a - b))%Z junk (fun m => Ret m) Tri s = Ret m /\
  nth_error (a_verts a) 2 = Some (0, 1, 0)%Z /\ nth_error (mv m) 2 = Some junk.
Proof.
  intros junk. exists (mkSoup [(0, 0, 0); (1, 0, 5); (0, 1, 0)]%Z [V_Triangle] [0; 3] [0; 1; 2]%Z [] [] [] []).
  exists (mkA [(0, 0, 0); (1, 0, 5); (0, 1, 0)]%Z [(V_Triangle, [0; 1; 2]%Z)] []).
  eexists. split; [repeat split|]. split; [|repeat split].
  intros t c [H|[]]. now injection H as <- <-.
Qed.
Print Assumptions C42_nonplanar_refuted.

(** two triangles sharing an edge *)
Definition ex_mesh : mesh Z :=
  mkMesh false false [(0, 0); (2, 0); (2, 2); (0, 2)]%Z [[0; 1; 2]; [0; 2; 3]]%Z [] [].
Example C42_hypotheses : mesh_ok Tri ex_mesh /\ mv ex_mesh <> [] /\ fv ex_mesh <> [].
Proof.
  split; [|split; discriminate]. intros c [<-|[<-|[]]]; (split; [reflexivity|]); cbn; intuition lia.
Qed.
Example C42_example :
  (let* s := to_soup (G := Z) 0%Z Tri ex_mesh in from_soup (fun a b => 0 <? Z.abs (a - b))%Z (7, 7)%Z (fun m => Ret m) Tri s)
  = Ret ex_mesh.
Proof. reflexivity. Qed.

(** * C43 *)
Theorem C43_populateVF : forall (F : Type) (m : mesh F),
  (forall c v, In c (fv m) -> In v c -> (0 <= v < Z.of_nat (length (mv m)))%Z) ->
  exists offs f, populateVF m = Ret (mkMesh (is_morton m) true (mv m) (fv m) offs f) /\
    is_incidence (length (mv m)) (fv m) offs f.
Proof. exact @populateVF_ok. Qed.
Print Assumptions C43_populateVF.
(** What the list of a vertex contains: exactly the faces that contain it, each as often as the
    vertex occurs in it, in ascending order. *)
Theorem C43_incident_faces : forall v fs f,
  In f (incident v 0 fs) <-> exists c, nth_error fs f = Some c /\ In v c.
Proof.
  intros v fs f. rewrite incident_in, Nat.sub_0_r. split; intros (c & H); exists c; intuition lia.
Qed.
Print Assumptions C43_incident_faces.
Theorem C43_incident_count : forall v fs f c, nth_error fs f = Some c ->
  count_occ Nat.eq_dec (incident v 0 fs) f = count_occ Z.eq_dec c v.
Proof. intros v fs f c H. apply incident_count; [lia|]. now rewrite Nat.sub_0_r. Qed.
Print Assumptions C43_incident_count.
Theorem C43_incident_ascending : forall v fs, StronglySorted le (incident v 0 fs).
Proof. intros. apply incident_sorted. Qed.
Print Assumptions C43_incident_ascending.
(** An id that refers to no vertex is not detected: out of bounds access. *)
Theorem C43_bad_id_ub : forall (F : Type) (m : mesh F) c v, In c (fv m) -> In v c ->
  ~ (0 <= v < Z.of_nat (length (mv m)))%Z -> populateVF m = Ub.
Proof. exact @populateVF_bad. Qed.
Print Assumptions C43_bad_id_ub.
(** Whatever modifiers have been called, with whatever arguments: if the mesh says that it has
    vertex-face connectivity, that connectivity is the one of its present faces. *)
Theorem C43_never_stale : forall (F : Type) stdsort vcode fcode k (os : list (fvm_op F)) m,
  run_ops stdsort vcode fcode k empty_mesh os = Ret m -> has_vf m = true ->
  is_incidence (length (mv m)) (fv m) (vf_offs m) (vf m).
Proof. intros F stdsort vcode fcode k os m. apply (run_ops_inv stdsort vcode fcode k os). discriminate. Qed.
Print Assumptions C43_never_stale.
Example C43_never_stale_example : exists m,
  run_ops (isort_poly nat) (fun _ p => Ret (fst p)) (fun _ _ => Ret 0%Z) Tri empty_mesh
    [OpAddVertex (5, 0)%Z; OpAddVertex (2, 0)%Z; OpAddVertex (2, 2)%Z; OpAddFace [0; 1; 2]%Z; OpPopulateVF;
     OpAddVertex (0, 2)%Z; OpAddFace [0; 2; 3]%Z; OpPopulateVF; OpSort] = Ret m /\ has_vf m = true.
Proof. eexists. split; [vm_compute; reflexivity|reflexivity]. Qed.
Example C43_example : populateVF ex_mesh =
  Ret (mkMesh false true (mv ex_mesh) (fv ex_mesh) [0; 2; 3; 5; 6] [0; 1; 0; 0; 1; 1]).
Proof. reflexivity. Qed.

(** * C44 *)
(** For every code of vertices and faces that is defined on the mesh, and every std::sort *)
Theorem C44_mortonSort : forall (F : Type) stdsort, std_sort_contract stdsort ->
  forall vcode fcode k (m : mesh F), mesh_ok k m ->
  (forall p, In p (mv m) -> exists z, vcode m p = Ret z) ->
  (forall m1 ps poly, mortonSortVertices stdsort vcode m = Ret m1 -> polygons m1 ps -> In poly ps ->
     exists z, fcode m1 poly = Ret z) ->
  exists m', mortonSort stdsort vcode fcode m = Ret m' /\ mesh_ok k m' /\ same_geometry m m' /\
    sorted (code_lt (vcode m)) (mv m') /\
    (exists m1, mortonSortVertices stdsort vcode m = Ret m1 /\
       forall ps, polygons m' ps -> sorted (code_lt (fcode m1)) ps) /\
    is_morton m' = true /\ has_vf m' = has_vf m /\
    (has_vf m = true -> is_incidence (length (mv m')) (fv m') (vf_offs m') (vf m')).
Proof. exact @mortonSort_ok. Qed.
Print Assumptions C44_mortonSort.
(** The two steps, which can also be called on their own *)
Theorem C44_mortonSortVertices : forall (F : Type) stdsort, std_sort_contract stdsort ->
  forall vcode k (m : mesh F), mesh_ok k m ->
  (forall p, In p (mv m) -> exists z, vcode m p = Ret z) ->
  exists m', mortonSortVertices stdsort vcode m = Ret m' /\ mesh_ok k m' /\
    Permutation (mv m) (mv m') /\
    map (corners (mv m')) (fv m') = map (corners (mv m)) (fv m) /\
    sorted (code_lt (vcode m)) (mv m') /\ has_vf m' = false /\ is_morton m' = is_morton m /\
    length (mv m') = length (mv m).
Proof. exact @sortVertices_ok. Qed.
Print Assumptions C44_mortonSortVertices.
Theorem C44_mortonSortFaces : forall (F : Type) stdsort, std_sort_contract stdsort ->
  forall fcode k (m : mesh F), mesh_ok k m ->
  (forall ps poly, polygons m ps -> In poly ps -> exists z, fcode m poly = Ret z) ->
  exists m', mortonSortFaces stdsort fcode m = Ret m' /\ mesh_ok k m' /\
    mv m' = mv m /\ Permutation (fv m) (fv m') /\
    (forall ps, polygons m' ps -> sorted (code_lt (fcode m)) ps) /\
    has_vf m' = false /\ is_morton m' = is_morton m.
Proof. exact @sortFaces_ok. Qed.
Print Assumptions C44_mortonSortFaces.
(** A triangle mesh whose bounding box starts at the origin is put in the order of the cells its
    vertices, and the means of the corners of its triangles, are in (exact arithmetic) ... *)
Theorem C44_triangles : forall stdsort (m : mesh R) w h, std_sort_contract stdsort -> mesh_ok Tri m ->
  spans (mv m) w h -> (0 < w)%R -> (0 < h)%R ->
  exists m', mortonSort stdsort linear_vcode tri_fcode m = Ret m' /\ mesh_ok Tri m' /\ same_geometry m m' /\
    in_order (cell_code w h) (mv m') /\ (forall ps, polygons m' ps -> in_order (triangle_code w h) ps) /\
    is_morton m' = true.
Proof. exact tri_mortonSort_ok. Qed.
Print Assumptions C44_triangles.
Theorem C44_code_unique : forall w h p y z, cell_code w h p y -> cell_code w h p z -> y = z.
Proof. exact cell_code_unique. Qed.
Print Assumptions C44_code_unique.
(** ... but not for the same mesh moved elsewhere: the scaled vertices leave the unit square the
    encoding assumes. *)
Theorem C44_translated_refuted : exists m : mesh R, mesh_ok Tri m /\
  forall stdsort, mortonSort stdsort linear_vcode tri_fcode m = Ub.
Proof.
  exists (mkMesh false false [(3, 3); (4, 3); (3, 4)]%R [[0; 1; 2]%Z] [] []). split.
  - intros c [<-|[]]. split; [reflexivity|]. cbn. intuition lia.
  - intros stdsort. destruct (bbox_ok [(3, 3); (4, 3); (3, 4)]%R) as (b & E & Hb); [discriminate|].
    assert (Hb' : b = ((3, 3), (4, 4))%R).
    { apply (is_bbox_unique [(3, 3); (4, 3); (3, 4)]%R); auto. split.
      - intros p [<-|[<-|[<-|[]]]]; cbn; lra.
      - cbn. repeat split; [exists (3, 3)%R|exists (3, 3)%R|exists (4, 3)%R|exists (3, 4)%R]; cbn; tauto. }
    subst b. eapply (vertices_bad _ _ _ (3, 3)%R); [exact E|cbn; auto|cbn; lia|]. cbn. right. left. lra.
Qed.
Print Assumptions C44_translated_refuted.
Example C44_sort_exists : std_sort_contract (isort_poly nat).
Proof. exact (isort_poly_contract nat). Qed.
(** code: 10 x + y, and the sum of the codes of the corners *)
Example C44_example :
  mortonSort (isort_poly nat) (fun _ p => Ret (10 * fst p + snd p)%Z)
    (fun _ ps => Ret (fold_right (fun p z => (10 * fst p + snd p + z)%Z) 0%Z ps))
    (mkMesh false true (mv ex_mesh) (fv ex_mesh) [] [])
  = Ret (mkMesh true true [(0, 0); (0, 2); (2, 0); (2, 2)]%Z [[0; 3; 1]; [0; 2; 3]]%Z [0; 2; 3; 4; 6] [0; 1; 0; 1; 0; 1]).
Proof. vm_compute. reflexivity. Qed.
Example C44_triangles_hypotheses : spans [(0, 0); (2, 0); (0, 3)]%R 2 3.
Proof.
  split; [intros p [<-|[<-|[<-|[]]]]; cbn; lra|].
  repeat split; [exists (0, 0)%R|exists (0, 0)%R|exists (2, 0)%R|exists (0, 3)%R]; cbn; auto.
Qed.

(** * C45 *)
(** flipFace reverses every edge together with its mid-edge vertex, for triangles, quads and
    quadratic triangles; it is an involution and changes nothing else (but forgets the vertex-face
    connectivity).  Not proved for quadratic quads: see the refutation below. *)
Theorem C45_flipFace_partial : forall (F : Type) k (m : mesh F) i, mesh_ok k m -> i < length (fv m) ->
  exists m' c c', flipFace k m i = Ret m' /\ nth_error (fv m) i = Some c /\ nth_error (fv m') i = Some c' /\
    mv m' = mv m /\ length (fv m') = length (fv m) /\
    (forall j, j <> i -> nth_error (fv m') j = nth_error (fv m) j) /\
    Permutation c c' /\ (k <> Quad8 -> reversed k c c') /\
    has_vf m' = false /\ is_morton m' = is_morton m /\
    mesh_ok k m' /\
    exists m'', flipFace k m' i = Ret m'' /\ fv m'' = fv m /\ mv m'' = mv m.
Proof. exact @flipFace_ok. Qed.
Print Assumptions C45_flipFace_partial.
(** A quadratic quad: the corners are reversed, but unless its mid-edge vertices 5 and 6 coincide
    they end up on the wrong edges. *)
Theorem C45_quad8_refuted : forall c c', length c = 8 -> flip_conn Quad8 c = Ret c' ->
  reversed Quad (firstn 4 c) (firstn 4 c') /\
  (reversed Quad8 c c' -> NoDup (firstn 4 c) -> nth_error c 5 = nth_error c 6).
Proof. exact flip_quad8. Qed.
Print Assumptions C45_quad8_refuted.
(** getEdgeConn and getEdge return the edges the specification lists. *)
Theorem C45_edges : forall (A : Type) k (c : list A) i, length c = nverts k ->
  edge_at k c i = rd (edges_of k c) i.
Proof. exact @edge_at_ok. Qed.
Print Assumptions C45_edges.
Example C45_example : (let* m := flipFace Tri6 (mkMesh false true (@nil (Z * Z)) [[0; 1; 2; 3; 4; 5]; [6; 7; 8; 9; 10; 11]]%Z [] []) 1 in Ret (fv m))
  = Ret [[0; 1; 2; 3; 4; 5]; [6; 8; 7; 11; 10; 9]]%Z.
Proof. reflexivity. Qed.
Example C45_quad8_example : flip_conn Quad8 [0; 1; 2; 3; 4; 5; 6; 7]%Z = Ret [0; 3; 2; 1; 7; 5; 6; 4]%Z.
Proof. reflexivity. Qed.

(** * C46 *)
Theorem C46_faceContaining : forall (F : Type) contains k (m : mesh F) ps, mesh_ok k m -> polygons m ps ->
  exists r, faceContaining contains m = Ret r /\
    ((r = -1)%Z /\ (forall p, In p ps -> contains p = false) \/
     exists i p, r = Z.of_nat i /\ nth_error ps i = Some p /\ contains p = true /\
       forall j q, j < i -> nth_error ps j = Some q -> contains q = false).
Proof. exact @faceContaining_ok. Qed.
Print Assumptions C46_faceContaining.
(** intersect: the array starts with the reported intersections of all edges of all faces, in order.
    The array needs room for one value more than are reported. *)
Theorem C46_intersect : forall (F : Type) edge_hits, hits_ok edge_hits ->
  forall k (m : mesh F) ps coords, mesh_ok k m -> polygons m ps ->
  let rs := concat (map (face_reports edge_hits k) ps) in
  length rs + 1 <= length coords ->
  exists coords', intersect edge_hits k m coords = Ret (length rs, coords') /\
    length coords' = length coords /\ firstn (length rs) coords' = rs /\
    skipn (length rs + 1) coords' = skipn (length rs + 1) coords.
Proof. exact @intersect_ok. Qed.
Print Assumptions C46_intersect.
(** with offsets: the same intersections, attributed to the faces that have any *)
Theorem C46_intersect_offsets : forall (F : Type) edge_hits, hits_ok edge_hits ->
  forall k (m : mesh F) ps coords offs faces, mesh_ok k m -> polygons m ps ->
  let hs := hit_faces edge_hits k ps in
  let rs := concat (map snd hs) in
  length rs + 1 <= length coords -> length hs + 1 <= length offs -> length hs <= length faces ->
  exists coords' offs' faces',
    intersect_offsets edge_hits k m coords offs faces = Ret (length rs, length hs, coords', offs', faces') /\
    firstn (length rs) coords' = rs /\
    firstn (length hs + 1) offs' = sums 0 (map (fun p => length (snd p)) hs) /\
    firstn (length hs) faces' = map fst hs /\
    length coords' = length coords /\ skipn (length rs + 1) coords' = skipn (length rs + 1) coords /\
    length offs' = length offs /\ skipn (length hs + 1) offs' = skipn (length hs + 1) offs /\
    length faces' = length faces /\ skipn (length hs) faces' = skipn (length hs) faces.
Proof. intros F. exact (intersect_offsets_ok (fun _ => true)). Qed.
Print Assumptions C46_intersect_offsets.
(** every valid mesh has polygons *)
Theorem C46_polygons : forall (F : Type) k (m : mesh F), mesh_ok k m -> exists ps, polygons m ps.
Proof. intros F k m H. destruct (polygons_ex k m H) as (ps & _ & Hp). eauto. Qed.
Print Assumptions C46_polygons.
(** a buffer with room for exactly the reported intersections is overrun: one edge that writes a
    value without reporting it *)
Theorem C46_exact_buffer_refuted : exists (edge_hits : list (Z * Z) -> list Z * nat) m,
  hits_ok edge_hits /\ mesh_ok Tri m /\ intersect edge_hits Tri m [] = Ub /\
  exists c, intersect edge_hits Tri m [0%Z] = Ret (0, c).
Proof.
  exists (fun _ => ([5%Z], 0)), ex_mesh. split; [intros e; cbn; lia|]. split; [apply C42_hypotheses|].
  split; [reflexivity|]. eexists. reflexivity.
Qed.
Print Assumptions C46_exact_buffer_refuted.
(** hits of an edge: the x of its first point if it is not 0 *)
Definition ex_hits (e : list (Z * Z)) : list Z * nat :=
  match e with (x, _) :: _ => ([x], if (x =? 0)%Z then 0 else 1) | [] => ([], 0) end.
Example C46_example : hits_ok ex_hits /\
  intersect ex_hits Tri ex_mesh [9; 9; 9; 9; 9]%Z = Ret (3, [2; 2; 2; 0; 9]%Z) /\
  intersect_offsets ex_hits Tri ex_mesh [9; 9; 9; 9]%Z [7; 7; 7; 7] [8; 8; 8]
    = Ret (3, 2, [2; 2; 2; 0]%Z, [0; 2; 3; 7], [0; 1; 8]).
Proof.
  split; [|split; reflexivity]. intros [|(x, y) e]; cbn; [lia|]. destruct (x =? 0)%Z; cbn; lia.
Qed.
Example C46_contains_example :
  faceContaining (fun p => match p with [_; b; _] => (fst b =? 2)%Z && (snd b =? 2)%Z | _ => false end) ex_mesh = Ret 1%Z.
Proof. reflexivity. Qed.
