(** Model of the info files of gmsh models, src/gmsh/io.cpp: um2::gmsh::write and um2::gmsh::open with
    extra_info.  gmsh is the state of Groups_Model; what gmsh::write and gmsh::open do with the geometry
    is not modelled.

    - A file is its characters.  A position in a string is a natural number; std::string::npos is [None],
      and adding to npos wraps around, as size_t does.  Strings are shorter than 2^64.
    - A colour is the four numbers r, g, b and a as one number in base 256. *)
From Coq Require Import String.
From Coq Require Import List Arith ZArith Bool.
From Verif Require Import Base Loops StringView_Model TextIo_Model Logger_Model ModelIo_Model Groups_Model Overlay_Model.
Import ListNotations.
Open Scope Z_scope.

Definition BLANK : char := 32.
Definition QUOTE : char := 34.

(** ** The standard library *)
(** std::string::find *)
Fixpoint index_in (l : text) (c : char) : option nat :=
  match l with
  | [] => None
  | a :: l' => if a =? c then Some O else option_map S (index_in l' c)
  end.
Definition find_from (l : text) (c : char) (pos : nat) : option nat :=
  option_map (Nat.add pos) (index_in (skipn pos l) c).
(** std::string::find_last_of *)
Fixpoint last_index (l : text) (c : char) : option nat :=
  match l with
  | [] => None
  | a :: l' => match last_index l' c with
               | Some i => Some (S i)
               | None => if a =? c then Some O else None
               end
  end.
(** [p + n] in size_t, for a small n that is not 0 *)
Definition plus (p : option nat) (n : nat) : nat := match p with Some p => (p + n)%nat | None => (n - 1)%nat end.
(** std::string::substr, [None] for npos *)
Definition substr (l : text) (pos : nat) (n : option nat) : outcome text :=
  if (length l <? pos)%nat then Fail
  else Ret (match n with Some n => firstn n (skipn pos l) | None => skipn pos l end).
(** substr(start, stop - start) *)
Definition cut (l : text) (start : nat) (stop : option nat) : outcome text :=
  substr l start (option_map (fun e => (e - start)%nat) stop).
(** std::string::starts_with *)
Fixpoint begins (p l : text) : bool :=
  match p, l with
  | [], _ => true
  | a :: p', b :: l' => (a =? b) && begins p' l'
  | _, [] => false
  end.
(** std::stoi and std::stoul, which throw if there is no number or one out of range; stoul takes a negative
    number modulo 2^64 *)
Fixpoint value_of (l : text) (acc : Z) : Z :=
  match l with
  | c :: l' => if isdigit c then value_of l' (10 * acc + (c - 48)) else acc
  | [] => acc
  end.
Definition starts_digit (l : text) : bool := match l with c :: _ => isdigit c | [] => false end.
Definition unsigned (l : text) : option Z := if starts_digit l then Some (value_of l 0) else None.
Definition number (l : text) : option Z :=
  match skip_space l with
  | c :: l' => if c =? 45 then option_map Z.opp (unsigned l') else if c =? 43 then unsigned l' else unsigned (c :: l')
  | [] => None
  end.
Definition stoi (l : text) : outcome Z :=
  match number l with
  | Some z => if (intMin <=? z) && (z <=? intMax) then Ret z else Fail
  | None => Fail
  end.
Definition stoul (l : text) : outcome Z :=
  match number l with
  | Some z => if Z.abs z <? 18446744073709551616 then Ret (z mod 18446744073709551616) else Fail
  | None => Fail
  end.
(** std::vector::resize; a length above [max], max_size, is an exception.  Memory does not run out. *)
Definition resize {A} (max : Z) (d : A) (l : list A) (n : Z) : outcome (list A) :=
  if max <? n then Fail
  else let n := Z.to_nat n in Ret (firstn n l ++ repeat d (n - length l)).
(** std::getline into a line with old contents *)
Record stream : Type := mkStream { rest : text; eof : bool }.
Definition getline (s : stream) (line : text) : text * stream :=
  if eof s then (line, s)
  else match index_in (rest s) NEWLINE with
       | Some n => (firstn n (rest s), mkStream (skipn (S n) (rest s)) false)
       | None => (rest s, mkStream [] true)
       end.
(** std::sort of pairs *)
Fixpoint insert_pair (d : dimtag) (l : list dimtag) : list dimtag :=
  match l with
  | [] => [d]
  | a :: r => if pair_lt a d then a :: insert_pair d r else d :: l
  end.
Definition sort_pairs (l : list dimtag) : list dimtag := fold_right insert_pair [] l.

(** ** Colours *)
Definition red (c : colour) : Z := c / 16777216 mod 256.
Definition green (c : colour) : Z := c / 65536 mod 256.
Definition blue (c : colour) : Z := c / 256 mod 256.
Definition alpha (c : colour) : Z := c mod 256.
Definition colour_of_rgba (r g b a : Z) : colour := ((r * 256 + g) * 256 + b) * 256 + a.

Section Io.
(** are assertions enabled? does an error end the program? *)
Variables checks exit_on_error : bool.

(** ** write, io.cpp:31-188 *)
(** io.cpp:40-41 and 275-276 *)
Definition info_name (filename : text) : outcome text :=
  let* base := substr filename 0 (last_index filename 46) in Ret (base ++ lit ".info").
(** io.cpp:49-61, for entities of dimension 0 to 3 *)
Definition tag_maps (ge : geometry) : list (list Z) :=
  map (fun d => sort_tags (map snd (entities ge d))) [0; 1; 2; 3].
(** io.cpp:86-92, 97-101, 104-108 and 163-182: the position in the map, counted from 1, as it is printed *)
Definition new_tag_text (maps : list (list Z)) (dim tag : Z) : outcome text :=
  let* m := rdz maps dim in
  let* i := lower_bound Z.ltb m tag in
  let* _ := ASSERT checks (i <? length m)%nat in
  let* _ := ASSERT checks (match nth_error m i with Some t => t =? tag | None => false end) in
  Ret (decimal (Z.of_nat i + 1)).
(** io.cpp:81-109 and 154-183: eight on a line *)
Definition write_eight {A} (show : A -> outcome text) (l : list A) : outcome text :=
  let full := (length l / 8)%nat in
  let rem := (length l mod 8)%nat in
  let* a := mapo (fun i =>
    let* ts := mapo (fun j => let* x := rd l (8 * i + j) in let* t := show x in Ret (t ++ [BLANK])) (seq 0 8) in
    Ret (concat ts ++ [NEWLINE])) (seq 0 full) in
  let* b := mapo (fun i => let* x := rd l (full * 8 + i) in let* t := show x in Ret (t ++ [BLANK])) (seq 0 (rem - 1)) in
  let* c := if (0 <? rem)%nat then let* x := rd l (full * 8 + rem - 1) in let* t := show x in Ret (t ++ [NEWLINE]) else Ret [] in
  Ret (concat a ++ concat b ++ c).
(** io.cpp:70-109 *)
Definition write_group (maps : list (list Z)) (x : group) : outcome text :=
  let* body := write_eight (new_tag_text maps (g_dim x)) (g_ents x) in
  Ret (lit "PHYSICAL_GROUP " ++ [QUOTE] ++ lit (g_name x) ++ [QUOTE; BLANK] ++ decimal (g_dim x) ++ [BLANK] ++
       decimal (Z.of_nat (length (g_ents x))) ++ [NEWLINE] ++ body).
(** io.cpp:132-141: the entities by colour, colours as they occur *)
Fixpoint add_colour (c : colour) (d : dimtag) (l : list (colour * list dimtag)) : list (colour * list dimtag) :=
  match l with
  | [] => [(c, [d])]
  | (c', ds) :: l' => if c' =? c then (c', ds ++ [d]) :: l' else (c', ds) :: add_colour c d l'
  end.
(** io.cpp:114-145: only of surfaces and volumes, and not the default colour *)
Definition colours (ge : geometry) : list (colour * list dimtag) :=
  let l := fold_left (fun acc d =>
    if fst d <? 2 then acc
    else
      let c := paint ge d in
      if (red c =? 0) && (green c =? 0) && (blue c =? 255) && (alpha c =? 0) then acc else add_colour c d acc) (ents ge) [] in
  map (fun x => (fst x, sort_pairs (snd x))) l.
(** io.cpp:148-184 *)
Definition write_colour (maps : list (list Z)) (x : colour * list dimtag) : outcome text :=
  let c := fst x in
  let* body := write_eight (fun d => let* t := new_tag_text maps (fst d) (snd d) in Ret (decimal (fst d) ++ [BLANK] ++ t)) (snd x) in
  Ret (lit "ENTITY_COLOR " ++ decimal (red c) ++ [BLANK] ++ decimal (green c) ++ [BLANK] ++ decimal (blue c) ++ [BLANK] ++
       decimal (alpha c) ++ [BLANK] ++ decimal (Z.of_nat (length (snd x))) ++ [NEWLINE] ++ body).
(** io.cpp:42-187: the contents of the info file *)
Definition write_info (g : gm) : outcome text :=
  let maps := tag_maps (geo g) in
  let* gs := mapo (write_group maps) (groups g) in
  let cols := colours (geo g) in
  let* cs := mapo (write_colour maps) cols in
  Ret (lit "PHYSICAL_GROUPS " ++ decimal (Z.of_nat (length (groups g))) ++ [NEWLINE] ++ concat gs ++
       lit "ENTITY_COLORS " ++ decimal (Z.of_nat (length cols)) ++ [NEWLINE] ++ concat cs).

(** ** open, io.cpp:190-370 *)
(** LOG_ERROR, then return *)
Definition give_up {A} (a : A) : outcome A := if exit_on_error then Fail else Ret a.

(** io.cpp:226-235: line [j] of eight tags *)
Definition read_tag_line (j : nat) (st : list Z * (text * stream)) : outcome (list Z * (text * stream)) :=
  let '(tags, (line, s)) := st in
  let '(line, s) := getline s line in
  let* r := for_ 7 0 (fun k '(tags, (ts, te)) =>
    let* t := cut line ts te in
    let* v := stoi t in
    let* tags := wr tags (8 * j + k) v in
    let ts := plus te 1 in
    Ret (tags, (ts, find_from line BLANK ts))) (tags, (O, find_from line BLANK 0)) in
  let '(tags, (ts, _)) := r in
  let* t := substr line ts None in
  let* v := stoi t in
  let* tags := wr tags (8 * j + 7) v in
  Ret (tags, (line, s)).
(** io.cpp:237-248: the last line *)
Definition read_last_tags (full rem : nat) (st : list Z * (text * stream)) : outcome (list Z * (text * stream)) :=
  let '(tags, (line, s)) := st in
  if (rem =? 0)%nat then Ret st
  else
    let '(line, s) := getline s line in
    let* r := for_ (rem - 1) 0 (fun k '(tags, ts) =>
      let te := find_from line BLANK ts in
      let* t := cut line ts te in
      let* v := stoi t in
      let* tags := wr tags (full * 8 + k) v in
      Ret (tags, plus te 1)) (tags, O) in
    let '(tags, ts) := r in
    let* t := substr line ts None in
    let* v := stoi t in
    let* tags := wr tags (full * 8 + rem - 1) v in
    Ret (tags, (line, s)).
(** io.cpp:212-249: a group, whose first line has been read *)
Definition read_group (g : gm) (tags : list Z) (line : text) (s : stream) : outcome (gm * (list Z * (text * stream))) :=
  let name_start := plus (find_from line QUOTE 0) 1 in
  let name_end := find_from line QUOTE name_start in
  let* name := cut line name_start name_end in
  let dim_start := plus name_end 2 in
  let* t := substr line dim_start (Some 1%nat) in
  let* dim := stoi t in
  let* _ := ASSERT checks (0 <? dim) in
  let* _ := ASSERT checks (dim <? 4) in
  let* t := substr line (dim_start + 2) None in
  let* num_tags := stoul t in
  let* tags := resize 2305843009213693951 0 tags num_tags in
  let n := Z.to_nat num_tags in
  let full := (n / 8)%nat in
  let rem := (n mod 8)%nat in
  let* st := for_ full 0 read_tag_line (tags, (line, s)) in
  let* st := read_last_tags full rem st in
  let* g := add_group g dim (fst st) (-1) (string_of name) in
  Ret (g, st).
(** io.cpp:206-250 *)
Fixpoint read_groups_loop (n : nat) (g : gm) (tags : list Z) (line : text) (s : stream) : outcome (gm * stream) :=
  match n with
  | O => Ret (g, s)
  | S n' =>
      let '(line, s) := getline s line in
      if negb (begins (lit "PHYSICAL_GROUP") line) then give_up (g, s)
      else
        let* r := read_group g tags line s in
        let '(g, (tags, (line, s))) := r in
        read_groups_loop n' g tags line s
  end.
(** io.cpp:193-251 *)
Definition read_groups (g : gm) (s : stream) : outcome (gm * stream) :=
  let '(line, s) := getline s [] in
  if negb (begins (lit "PHYSICAL_GROUPS") line) then give_up (g, s)
  else
    let* t := substr line 16 None in
    let* num_groups := stoul t in
    read_groups_loop (Z.to_nat num_groups) g [] line s.

(** io.cpp:325-334 and 346-355: a dimension and a tag that are not the last of the line; where the next begins *)
Definition read_pair (line : text) (ts : nat) : outcome (dimtag * nat) :=
  let te := find_from line BLANK ts in
  let* t := cut line ts te in
  let* d := stoi t in
  let ts := plus te 1 in
  let te := find_from line BLANK ts in
  let* t := cut line ts te in
  let* v := stoi t in
  Ret ((d, v), plus te 1).
(** io.cpp:336-340 and 357-362: the last of the line *)
Definition read_last_pair (line : text) (ts : nat) : outcome dimtag :=
  let te := find_from line BLANK ts in
  let* t := cut line ts te in
  let* d := stoi t in
  let* t := substr line (plus te 1) None in
  let* v := stoi t in
  Ret (d, v).
(** io.cpp:322-340 and 343-362: [n] pairs on a line, stored from [from] on *)
Definition read_pair_line (from n : nat) (st : list dimtag * (text * stream)) : outcome (list dimtag * (text * stream)) :=
  let '(ds, (line, s)) := st in
  let '(line, s) := getline s line in
  let* r := for_ (n - 1) 0 (fun k '(ds, ts) =>
    let* p := read_pair line ts in
    let* ds := wr ds (from + k) (fst p) in
    Ret (ds, snd p)) (ds, O) in
  let '(ds, ts) := r in
  let* p := read_last_pair line ts in
  let* ds := wr ds (from + n - 1) p in
  Ret (ds, (line, s)).
(** gmsh::model::setColor(dimtags, r, g, b, a), not recursive *)
Definition set_colour_of (g : gm) (l : list dimtag) (c : colour) : gm :=
  mkGm (groups g) (mkGeo (ents (geo g)) (down (geo g)) (fun d => if existsb (pair_eq d) l then c else paint (geo g) d)).
(** io.cpp:304-364: a colour, whose first line has been read *)
Definition read_colour (g : gm) (line : text) (s : stream) : outcome (gm * (text * stream)) :=
  let next ts := let te := find_from line BLANK ts in
    let* t := cut line ts te in let* v := stoi t in Ret (v, plus te 1) in
  let* r := next 13%nat in
  let* gr := next (snd r) in
  let* b := next (snd gr) in
  let* a := next (snd b) in
  let* t := substr line (snd a) None in
  let* num := stoul t in
  let* ds := resize 1152921504606846975 (0, 0) [] num in
  let n := Z.to_nat num in
  let full := (n / 8)%nat in
  let rem := (n mod 8)%nat in
  let* st := for_ full 0 (fun j st => read_pair_line (8 * j) 8 st) (ds, (line, s)) in
  let* st := if (rem =? 0)%nat then Ret st else read_pair_line (full * 8) rem st in
  Ret (set_colour_of g (fst st) (colour_of_rgba (fst r) (fst gr) (fst b) (fst a)), snd st).
(** io.cpp:298-365 *)
Fixpoint read_colours_loop (n : nat) (g : gm) (line : text) (s : stream) : outcome gm :=
  match n with
  | O => Ret g
  | S n' =>
      let '(line, s) := getline s line in
      if negb (begins (lit "ENTITY_COLOR") line) then give_up g
      else
        let* r := read_colour g line s in
        let '(g, (line, s)) := r in
        read_colours_loop n' g line s
  end.
(** io.cpp:285-369: groups and colours are added to the model that gmsh::open has read *)
Definition open_info (t : text) (g : gm) : outcome gm :=
  let* r := read_groups g (mkStream t false) in
  let '(g, s) := r in
  let '(line, s) := getline s [] in
  if negb (begins (lit "ENTITY_COLORS") line) then give_up g
  else
    let* t := substr line 14 None in
    let* num_colors := stoul t in
    read_colours_loop (Z.to_nat num_colors) g line s.
End Io.
