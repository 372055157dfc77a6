(** C69: intersections of quadratic segments and self-intersection checks *)
From Coq Require Import List Arith ZArith Reals Lia Lra Bool Floats.SpecFloat.
From Verif Require Import Base Arith Vec_Model Box_Model Sort_Spec Seg_Spec QSeg_Model QSeg_Spec QPoly_Model Soup_Model Soup_Spec Fvm_Model Fvm_Spec
  Manifold_Model Manifold_Spec QInt_Model QInt_Spec QInt_Proofs QInt_Real_Proofs QInt_Final_Proofs QInt_Example_Proofs.
Import ListNotations.

(** * in every arithmetic *)
(** What a call reports does not depend on the content of the buffer, on where in it the call starts
    or on the build; no slot before the start or [slots] beyond it is written; a debug build reports
    at most two points; intersects answers whether there is any. *)
Theorem C69_pure : forall T (o : arith T) eps dbg dbg' q1 q2 buf b buf' n buf2 b2 buf2' n2,
  b <= length buf -> b2 <= length buf2 ->
  intersect o eps dbg levels q1 q2 buf b = Ret (buf', n) ->
  intersect o eps dbg' levels q1 q2 buf2 b2 = Ret (buf2', n2) ->
  n2 = n /\ (forall i, i < n -> nth_error buf2' (b2 + i) = nth_error buf' (b + i)) /\
  length buf' = length buf /\ (forall i, i < b \/ b + slots dbg <= i -> nth_error buf' i = nth_error buf i) /\
  (dbg = true -> n <= 2) /\ intersects o eps levels q1 q2 = (0 <? n).
Proof. exact @int_pure. Qed.
Print Assumptions C69_pure.
(** With 28 slots (debug) or 1024 (release) a call stays inside the buffer and returns; a debug build
    may end with the assertion on the number of points. *)
Theorem C69_room : forall T (o : arith T) eps dbg q1 q2 buf b, b + slots dbg <= length buf ->
  (exists r, intersect o eps dbg levels q1 q2 buf b = Ret r) \/ dbg = true /\ intersect o eps dbg levels q1 q2 buf b = Fail.
Proof. exact @int_returns. Qed.
Print Assumptions C69_room.
(** A polygon with 3 or 4 quadratic edges is said to cross itself iff more than one point is reported
    for one of the pairs of edges that are compared. *)
Theorem C69_self : forall T (o : arith T) eps dbg p m buf buf' r, length p = 2 * m -> m = 3 \/ m = 4 ->
  hasSelfIntersection o eps dbg p buf = Ret (buf', r) ->
  length buf' = length buf /\
  (r = true <-> exists i j ei ej pts n, compared m i j /\ edge_of p m i ei /\ edge_of p m j ej /\
     intersect o eps false levels ei ej (repeat (o0 o, o0 o) (slots false)) 0 = Ret (pts, n) /\ 1 < n).
Proof. exact @self_api. Qed.
Print Assumptions C69_self.
Theorem C69_self_room : forall T (o : arith T) eps dbg p m buf, length p = 2 * m -> m = 3 \/ m = 4 -> slots dbg <= length buf ->
  (exists r, hasSelfIntersection o eps dbg p buf = Ret r) \/ dbg = true /\ hasSelfIntersection o eps dbg p buf = Fail.
Proof. exact @self_returns. Qed.
Print Assumptions C69_self_room.
(** A repair moves one mid node, by the vector left in the first slot of the buffer, of an edge for
    which more than one crossing with another edge was reported; after it at most one is. *)
Theorem C69_fix : forall T (o : arith T) eps dbg p p' m buf buf' vid, length p = 2 * m -> m = 3 \/ m = 4 ->
  fixSelfIntersection o eps dbg p buf = Ret (buf', Some (p', vid)) ->
  length buf' = length buf /\ length p' = length p /\ (forall i, i <> vid -> nth_error p' i = nth_error p i) /\
  exists a b ea eb d x, (compared m a b \/ compared m b a) /\ edge_of p m a ea /\ edge_of p m b eb /\
    (1 < length (hits o eps levels ea eb) \/ 1 < length (hits o eps levels eb ea)) /\
    vid = m + a /\ nth_error buf' 0 = Some d /\ nth_error p vid = Some x /\
    nth_error p' vid = Some (oadd o (fst x) (fst d), oadd o (snd x) (snd d)) /\
    length (hits o eps levels (fst ea, (oadd o (fst (snd ea)) (fst d), oadd o (snd (snd ea)) (snd d))) eb) <= 1.
Proof. exact @fix_api. Qed.
Print Assumptions C69_fix.
(** [hits] is what a call reports *)
Theorem C69_hits : forall T (o : arith T) eps dbg q1 q2 buf b buf' n, b <= length buf ->
  intersect o eps dbg levels q1 q2 buf b = Ret (buf', n) ->
  n = length (hits o eps levels q1 q2) /\ forall i, i < n -> nth_error buf' (b + i) = nth_error (hits o eps levels q1 q2) i.
Proof. exact @hits_are. Qed.
Print Assumptions C69_hits.
(** One turn of checkSelfIntersections: the face becomes what fixSelfIntersection made of it (a face
    that does not repeat a vertex), no other vertex moves and the bounding box stays the same up to
    epsDistance. *)
Theorem C69_turn : forall T (o : arith T) eps dbg k (m m' : mesh T) i buf buf',
  (forall c, In c (fv m) -> length c = nverts k) -> quadratic k = true ->
  repair o eps dbg m i buf = Ret (buf', m') ->
  same_but_mids k m m' /\
  exists c p p' vid, nth_error (fv m) i = Some c /\ getFace m i = Ret p /\
    fixSelfIntersection o eps dbg p buf = Ret (buf', Some (p', vid)) /\
    (NoDup c -> getFace m' i = Ret p') /\
    (forall v, nth_error c vid <> Some (Z.of_nat v) -> nth_error (mv m') v = nth_error (mv m) v) /\
    exists b b', mesh_box o m = Ret b /\ mesh_box o m' = Ret b' /\
      Vec_Model.isApprox o (omul o eps eps) (bmin b) (bmin b') = Ret true /\ Vec_Model.isApprox o (omul o eps eps) (bmax b) (bmax b') = Ret true.
Proof.
  intros T o eps dbg k m m' i buf buf' Hk Hq E. destruct (repair_api o eps dbg k m m' i buf buf' Hk Hq E) as (A & c & p & p' & vid & H1 & H2 & H3 & H4 & H5 & b & b' & B1 & B2 & B3).
  split; [exact A|]. exists c, p, p', vid. split; [exact H1|]. split; [exact H2|]. split; [exact H3|]. split; [exact H4|]. split; [exact H5|]. exists b, b'. split; [exact B1|]. split; [exact B2|].
  unfold box_approx in B3. apply bind_Ret in B3 as (x & Ex & B3). apply bind_Ret in B3 as (y & Ey & B3). injection B3 as B3. apply andb_true_iff in B3 as (-> & ->). now split.
Qed.
Print Assumptions C69_turn.
(** checkSelfIntersections changes nothing but mid nodes of faces; no face it leaves is said to cross
    itself, in any build and with any buffer; without a face that is, it changes nothing. *)
Theorem C69_check : forall T (o : arith T) eps dbg fuel k buf (m m' : mesh T), quadratic k = true ->
  (forall c, In c (fv m) -> length c = nverts k) ->
  checkSelfIntersections o eps dbg fuel buf m = Ret m' ->
  same_but_mids k m m' /\
  (forall i p dbg' buf2 buf3 r, getFace m' i = Ret p -> hasSelfIntersection o eps dbg' p buf2 = Ret (buf3, r) -> r = false) /\
  ((forall i p buf2 buf3 r, getFace m i = Ret p -> hasSelfIntersection o eps dbg p buf2 = Ret (buf3, r) -> r = false) -> m' = m).
Proof. exact @check_api. Qed.
Print Assumptions C69_check.
Theorem C69_check_clean : forall T (o : arith T) eps dbg fuel k buf (m : mesh T), quadratic k = true ->
  (forall c, In c (fv m) -> length c = nverts k) -> slots dbg <= length buf -> 0 < fuel ->
  (forall i, i < length (fv m) -> exists p buf2 buf3, getFace m i = Ret p /\ hasSelfIntersection o eps dbg p buf2 = Ret (buf3, false)) ->
  checkSelfIntersections o eps dbg fuel buf m = Ret m \/ dbg = true /\ checkSelfIntersections o eps dbg fuel buf m = Fail.
Proof. exact @check_api_clean. Qed.
Print Assumptions C69_check_clean.
(** validate of a quadratic mesh: faces are oriented, the edges are watertight, and the rest as above *)
Theorem C69_validate : forall T (o : arith T) eps stdsort, sort_contract stdsort ->
  forall isCCW dbg sfuel buf fuel k (m m' : mesh T), mesh_ok k m -> quadratic k = true ->
  length (all_edges k (fv m)) <= fuel ->
  validate stdsort isCCW (checkSelfIntersections o eps dbg sfuel buf) fuel k m = Ret m' ->
  exists m1, checkCCWFaces isCCW k m = Ret m1 /\ mv m1 = mv m /\ mesh_ok k m1 /\ same_but_mids k m1 m' /\
    watertight (all_edges k (fv m')) /\
    (forall i p dbg' buf2 buf3 r, getFace m' i = Ret p -> hasSelfIntersection o eps dbg' p buf2 = Ret (buf3, r) -> r = false).
Proof. exact @validate_quad. Qed.
Print Assumptions C69_validate.

(** * in exact arithmetic *)
Local Open Scope R_scope.
(** Every point reported is a point of the first segment at a squared distance of less than
    100 epsDistance from a point of the second; any two are at least epsDistance apart. *)
Theorem C69_sound : forall eps dbg q1 q2 buf b buf' n, 0 < eps -> (b <= length buf)%nat ->
  intersect Rarith eps dbg levels q1 q2 buf b = Ret (buf', n) ->
  (forall i, (i < n)%nat -> exists p, nth_error buf' (b + i) = Some p /\ near_hit (100 * eps) (100 * eps / 32) q1 q2 p) /\
  (forall i j p p', (i < j < n)%nat -> nth_error buf' (b + i) = Some p -> nth_error buf' (b + j) = Some p' -> eps * eps <= dsq p p').
Proof. exact int_sound. Qed.
Print Assumptions C69_sound.
(** A common point is never cut off by the bounding boxes: it lies on one of the 32 x 32 pairs of
    pieces, and if the Newton iteration finds a point for that pair, a point within 5 epsDistance of
    it is reported.  Missing: that the iteration converges, which is false, see C69_missed_refuted. *)
Theorem C69_search_partial : forall eps q1 q2 r s dbg buf b buf' n, 0 < eps -> (b <= length buf)%nat ->
  0 <= r <= 1 -> 0 <= s <= 1 -> on_curve q1 r = on_curve q2 s ->
  intersect Rarith eps dbg levels q1 q2 buf b = Ret (buf', n) ->
  exists i j s1 s2, (i < 32)%nat /\ (j < 32)%nat /\
    (forall t, on_curve s1 t = on_curve q1 ((INR i + t) / 32)) /\ (forall t, on_curve s2 t = on_curve q2 ((INR j + t) / 32)) /\
    INR i <= r * 32 <= INR i + 1 /\ INR j <= s * 32 <= INR j + 1 /\
    forall p z, intersect Rarith eps dbg 0 s1 s2 [z] 0 = Ret ([p], 1%nat) ->
      exists c p', (c < n)%nat /\ nth_error buf' (b + c) = Some p' /\ dsq p' p <= (5 * eps) * (5 * eps).
Proof. exact search_api. Qed.
Print Assumptions C69_search_partial.
(** Straight segments with their mid node in the middle: if they are parallel nothing is reported; if
    not, exactly the common point is reported when there is one, and otherwise nothing, unless the
    lines cross within the tolerance of the ends. *)
Theorem C69_straight : forall eps dbg q1 q2 buf b buf' n, 0 < eps -> (b <= length buf)%nat -> centred q1 -> centred q2 ->
  intersect Rarith eps dbg levels q1 q2 buf b = Ret (buf', n) ->
  (~ across q1 q2 -> n = 0%nat) /\
  (forall r s, across q1 q2 -> on_curve q1 r = on_curve q2 s ->
     (n = 0%nat \/ n = 1%nat /\ nth_error buf' b = Some (on_curve q1 r)) /\
     (0 <= r <= 1 -> 0 <= s <= 1 -> n = 1%nat) /\
     (n = 1%nat -> - (100 * eps / 32) <= r <= 1 + 100 * eps / 32 /\ - (100 * eps / 32) <= s <= 1 + 100 * eps / 32)).
Proof. exact straight_api. Qed.
Print Assumptions C69_straight.
(** A report of a self-intersection has two points, at least epsDistance apart, of one edge and near
    to another one. *)
Theorem C69_self_sound : forall eps dbg p m buf buf', 0 < eps -> length p = (2 * m)%nat -> m = 3%nat \/ m = 4%nat ->
  hasSelfIntersection Rarith eps dbg p buf = Ret (buf', true) ->
  exists i j ei ej P P', (i < m)%nat /\ (j < m)%nat /\ i <> j /\ edge_of p m i ei /\ edge_of p m j ej /\ eps * eps <= dsq P P' /\
    near_hit (100 * eps) (100 * eps / 32) ei ej P /\ near_hit (100 * eps) (100 * eps / 32) ei ej P'.
Proof. exact self_sound. Qed.
Print Assumptions C69_self_sound.
(** With straight edges nothing is reported. *)
Theorem C69_self_straight : forall eps dbg p m buf, 0 < eps -> length p = (2 * m)%nat -> m = 3%nat \/ m = 4%nat ->
  (forall i e, (i < m)%nat -> edge_of p m i e -> centred e) ->
  forall buf' r, hasSelfIntersection Rarith eps dbg p buf = Ret (buf', r) -> r = false.
Proof. exact self_straight. Qed.
Print Assumptions C69_self_straight.
(** The mid node a repair moves is no farther from its chord than the one of the other edge, and it
    is moved by the vector from the chord to that other mid node. *)
Theorem C69_fix_moves : forall eps dbg p p' m buf buf' vid, length p = (2 * m)%nat -> m = 3%nat \/ m = 4%nat ->
  (forall i e, (i < m)%nat -> edge_of p m i e -> fst (fst e) <> snd (fst e)) ->
  fixSelfIntersection Rarith eps dbg p buf = Ret (buf', Some (p', vid)) ->
  exists a b ea eb x y, (compared m a b \/ compared m b a) /\ edge_of p m a ea /\ edge_of p m b eb /\ vid = (m + a)%nat /\
    foot ea y /\ foot eb x /\ dsq (snd ea) y <= dsq (snd eb) x /\
    nth_error p' vid = Some (fst (snd ea) + (fst (snd eb) - fst x), snd (snd ea) + (snd (snd eb) - snd x)).
Proof. exact fix_R. Qed.
Print Assumptions C69_fix_moves.

(** * what does not hold *)
(** Opposite edges of a quadrilateral that cross once are not reported. *)
Theorem C69_bowtie_refuted : forall eps, 0 < eps ->
  exists p e f buf', edge_of p 4 1 e /\ edge_of p 4 3 f /\ on_curve e (1/2) = on_curve f (1/2) /\
    hasSelfIntersection Rarith eps false p (repeat (0, 0) (slots false)) = Ret (buf', false).
Proof. exact bowtie. Qed.
Print Assumptions C69_bowtie_refuted.
(** Doubles, where only powers of two and a few sums are used, so that all inputs are exact. *)
(** Three common points end a debug build. *)
Theorem C69_assert_refuted : exists q1 q2,
  (exists r1 r2 r3 s1 s2 s3, (0 < r1 < r2 /\ r2 < r3 < 1) /\ (0 <= s1 <= 1 /\ 0 <= s2 <= 1 /\ 0 <= s3 <= 1) /\
    on_curve (seg_val q1) r1 = on_curve (seg_val q2) s1 /\ on_curve (seg_val q1) r2 = on_curve (seg_val q2) s2 /\
    on_curve (seg_val q1) r3 = on_curve (seg_val q2) s3) /\
  intersect F64 eps64 true levels q1 q2 (repeat (o0 F64, o0 F64) 28) 0 = Fail.
Proof. exact assert_ex. Qed.
Print Assumptions C69_assert_refuted.
(** Of two crossings 1/64 apart, one is reported. *)
Theorem C69_missed_refuted : exists q1 q2 buf,
  (exists r1 r2 s1 s2, 0 < r1 < 1 /\ 0 < r2 < 1 /\ 0 < s1 < 1 /\ 0 < s2 < 1 /\
    on_curve (seg_val q1) r1 = on_curve (seg_val q2) s1 /\ on_curve (seg_val q1) r2 = on_curve (seg_val q2) s2 /\
    dsq (on_curve (seg_val q1) r1) (on_curve (seg_val q1) r2) = 1 / 4096) /\
  intersect F64 eps64 false levels q1 q2 (repeat (o0 F64, o0 F64) 4) 0 = Ret (buf, 1%nat).
Proof. exact missed_ex. Qed.
Print Assumptions C69_missed_refuted.
(** Two segments with the same first vertex and the same tangent there are said not to meet. *)
Theorem C69_contact_refuted : exists q1 q2,
  on_curve (seg_val q1) 0 = on_curve (seg_val q2) 0 /\
  intersects F64 eps64 levels q1 q2 = false.
Proof. exact contact_ex. Qed.
Print Assumptions C69_contact_refuted.
(** Two segments at a distance of at least 1.9e-6 = 19 epsDistance are said to meet in two points. *)
Theorem C69_false_hit_refuted : exists q1 q2 buf,
  (forall r s, 19 / 10000000 * (19 / 10000000) <= dsq (on_curve (seg_val q1) r) (on_curve (seg_val q2) s)) /\
  intersect F64 eps64 false levels q1 q2 (repeat (o0 F64, o0 F64) 4) 0 = Ret (buf, 2%nat).
Proof. exact false_hit_ex. Qed.
Print Assumptions C69_false_hit_refuted.
(** The buffer of 2 N points of checkSelfIntersections is too small in a release build: for this
    (degenerate) triangle with N = 6 it is written out of bounds. *)
Theorem C69_overflow_refuted : exists m : mesh spec_float,
  mesh_ok Tri6 m /\ length (fv m) = 1%nat /\
  checkSelfIntersections F64 eps64 false 1 (repeat (o0 F64, o0 F64) 12) m = Ub.
Proof. exact overflow_ex. Qed.
Print Assumptions C69_overflow_refuted.

(** * examples *)
(** two arcs of a parabola and its mirror image cross in two points *)
Example C69_two_points : exists buf, intersect F64 eps64 true levels ex_up ex_down (repeat (o0 F64, o0 F64) 28) 0 = Ret (buf, 2%nat).
Proof. eexists. vm_compute. reflexivity. Qed.
(** a triangle whose first edge bulges through the second; the repair moves the mid node of one *)
Example C69_self_example : exists buf, hasSelfIntersection F64 eps64 false ex_tri (repeat (o0 F64, o0 F64) 12) = Ret (buf, true).
Proof. eexists. vm_compute. reflexivity. Qed.
Example C69_fix_example : exists buf p', fixSelfIntersection F64 eps64 false ex_tri (repeat (o0 F64, o0 F64) 12) = Ret (buf, Some (p', ex_vid)).
Proof. eexists. eexists. vm_compute. reflexivity. Qed.
Example C69_check_example : exists m', checkSelfIntersections F64 eps64 false 2 (repeat (o0 F64, o0 F64) 12) ex_mesh = Ret m' /\ m' <> ex_mesh.
Proof. eexists. split; [vm_compute; reflexivity|]. discriminate. Qed.
(** exact arithmetic: the two diagonals of the unit square *)
Example C69_straight_example : centred ((0, 0), (1, 1), (1/2, 1/2)) /\ centred ((0, 1), (1, 0), (1/2, 1/2)) /\
  across ((0, 0), (1, 1), (1/2, 1/2)) ((0, 1), (1, 0), (1/2, 1/2)) /\
  on_curve ((0, 0), (1, 1), (1/2, 1/2)) (1/2) = on_curve ((0, 1), (1, 0), (1/2, 1/2)) (1/2).
Proof.
  unfold centred, across, direction, on_curve, curve2, lag. cbn. split; [f_equal; lra|]. split; [f_equal; lra|].
  split; [lra|]. f_equal; lra.
Qed.
