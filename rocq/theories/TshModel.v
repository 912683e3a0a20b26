(** Model of the text format of meshes (.tsh), anuga/load_mesh/loadASCII.py:
    characters, lines and fields as Python's str methods see them.  An
    exception is [None]; [import_mesh_file] (lines 85-104) turns it into
    IOError. *)
From Coq Require Import Ascii String ZArith Arith Bool List.
Import ListNotations.
Local Open Scope list_scope.

Definition text := list ascii.
Definition lit (s : string) : text := list_ascii_of_string s.
Definition space : ascii := " "%char.
Definition newline : ascii := "010"%char.
(** [str.isspace] for ASCII characters *)
Definition is_space (c : ascii) : bool :=
  let n := nat_of_ascii c in (Nat.leb 9 n && Nat.leb n 13) || (Nat.leb 28 n && Nat.leb n 32).

(** [fd.readline()]: the line with its newline, and what follows it *)
Fixpoint readline (s : text) : text * text :=
  match s with
  | [] => ([], [])
  | c :: s => if Ascii.eqb c newline then ([c], s) else let '(l, rest) := readline s in (c :: l, rest)
  end.
(** [line.split()] *)
Fixpoint split_from (word s : text) : list text :=
  match s with
  | [] => match word with [] => [] | _ => [word] end
  | c :: s =>
      if is_space c then match word with [] => split_from [] s | _ => word :: split_from [] s end
      else split_from (word ++ [c]) s
  end.
Definition split (s : text) : list text := split_from [] s.
(** [line.lstrip()] and [line.strip()] *)
Fixpoint lstrip (s : text) : text := match s with c :: s' => if is_space c then lstrip s' else s | [] => [] end.
Definition strip (s : text) : text := rev (lstrip (rev (lstrip s))).
(** [line[line.find(" "):]]: without a blank, find gives -1, and the last
    character is left. *)
Fixpoint find_space (s : text) : option text :=
  match s with [] => None | c :: s' => if Ascii.eqb c space then Some s else find_space s' end.
Definition from_space (s : text) : text :=
  match find_space s with Some s' => s' | None => match rev s with [] => [] | c :: _ => [c] end end.
Definition drop_field (s : text) : text := lstrip (from_space s).

(** How numbers are printed ([str]) and read ([float], [int]). *)
Record format := Format {
  number : Type; show : number -> text; parse : text -> option number;
  show_int : Z -> text; parse_int : text -> option Z }.

Section Tsh.
Variable P : format.
Let num := number P.

(** The mesh dictionary, lines 14-36.  Neighbours may be None, as may the
    vertex attributes, maximum areas and the georeference (zone, hemisphere,
    corners). *)
Record mesh := Mesh {
  vertices : list (num * num); vertex_attributes : option (list (list num)); titles : list text;
  triangles : list (Z * Z * Z); triangle_neighbors : list (option Z * option Z * option Z); triangle_tags : list text;
  segments : list (Z * Z); segment_tags : list text;
  points : list (num * num); point_attributes : list (list num);
  outline_segments : list (Z * Z); outline_tags : list text;
  holes : list (num * num);
  regions : list (num * num); region_tags : list text; region_areas : list (option num);
  reference : option (Z * nat * num * num) }.

(** ** Writing *)

(** Fields, each followed by a blank *)
Definition field (w : text) : text := w ++ [space].
Definition endl (s : text) : text := s ++ [newline].
Definition integer (z : Z) : text := field (show_int P z).
Definition real (x : num) : text := field (show P x).
Definition reals (l : list num) : text := concat (map real l).
(** [for i, x in enumerate(l)] *)
Definition numbered {A} (f : text -> A -> text) (l : list A) : text :=
  concat (map (fun ix => f (integer (Z.of_nat (fst ix))) (snd ix)) (combine (seq 0 (length l)) l)).
Definition count {A} (l : list A) : text := show_int P (Z.of_nat (length l)).

(** Lines 399-412 *)
Definition num_attributes (M : mesh) : nat :=
  match vertices M, vertex_attributes M with _ :: _, Some (row :: _) => length row | _, _ => 0 end.
(** [vertices_attributes[index]] for each vertex, lines 420-428 *)
Definition attribute_rows (M : mesh) : option (list (list num)) :=
  match vertex_attributes M with
  | None | Some [] => Some (repeat [] (length (vertices M)))
  | Some rows => if Nat.leb (length (vertices M)) (length rows) then Some (firstn (length (vertices M)) rows) else None
  end.
(** Lines 448-460 *)
Definition neighbour (n : option Z) : Z := match n with Some z => z | None => (-1)%Z end.
Definition neighbour_rows (M : mesh) : option (list (Z * Z * Z)) :=
  match triangle_neighbors M with
  | [] => Some (repeat (-1, -1, -1)%Z (length (triangles M)))
  | rows => if Nat.leb (length (triangles M)) (length rows)
            then Some (map (fun n => (neighbour (fst (fst n)), neighbour (snd (fst n)), neighbour (snd n))) (firstn (length (triangles M)) rows))
            else None
  end.
(** Lines 467-472 *)
Definition tag_rows (M : mesh) : option (list text) :=
  match triangle_tags M with
  | [] => Some (repeat [] (length (triangles M)))
  | rows => if Nat.leb (length (triangles M)) (length rows) then Some (firstn (length (triangles M)) rows) else None
  end.

Definition vertex_line (i : text) (v : (num * num) * list num) : text :=
  endl (i ++ real (fst (fst v)) ++ real (snd (fst v)) ++ reals (snd v)).
Definition triple (t : Z * Z * Z) : text := integer (fst (fst t)) ++ integer (snd (fst t)) ++ integer (snd t).
Definition triangle_line (i : text) (t : (Z * Z * Z) * (Z * Z * Z) * text) : text :=
  endl (i ++ triple (fst (fst t)) ++ triple (snd (fst t)) ++ [space] ++ snd t).
Definition segment_line (i : text) (s : (Z * Z) * text) : text :=
  endl (i ++ integer (fst (fst s)) ++ integer (snd (fst s)) ++ snd s).
Definition hole_line (i : text) (h : num * num) : text := endl (i ++ real (fst h) ++ show P (snd h)).
Definition region_line (i : text) (r : (num * num) * text) : text := endl (i ++ real (fst (fst r)) ++ real (snd (fst r)) ++ snd r).
(** [str(None)] is 'None' *)
Definition area_text (a : option num) : text := match a with Some x => show P x | None => lit "None" end.
Definition area_line (i : text) (a : option num) : text := endl (i ++ area_text a).

Definition vertex_comment := lit " # <# of verts> <# of vert attributes>, next lines <vertex #> <x> <y> [attributes] ...Triangulation Vertices...".
Definition title_comment := lit "# attribute column titles ...Triangulation Vertex Titles...".
Definition triangle_comment := lit " # <# of triangles>, next lines <triangle #> [<vertex #>] [<neigbouring triangle #>] [attribute of region] ...Triangulation Triangles...".
Definition segment_comment := lit " # <# of segments>, next lines <segment #> <vertex #>  <vertex #> [boundary tag] ...Triangulation Segments...".
Definition point_comment := lit " # <# of verts> <# of vert attributes>, next lines <vertex #> <x> <y> [attributes] ...Mesh Vertices...".
Definition outline_comment := lit " # <# of segments>, next lines <segment #> <vertex #>  <vertex #> [boundary tag] ...Mesh Segments...".
Definition hole_comment := lit " # <# of holes>, next lines <Hole #> <x> <y> ...Mesh Holes...".
Definition region_comment := lit " # <# of regions>, next lines <Region #> <x> <y> <tag>...Mesh Regions...".
Definition area_comment := lit " # <# of regions>, next lines <Region #> [Max Area] ...Mesh Regions...".
(** TITLE, geo_reference.py line 34 *)
Definition geo_title := lit "#geo reference".

(** [_write_ASCII_triangulation], lines 379-491 (attributes are rows of
    numbers, tags are strings) *)
Definition write_triangulation (M : mesh) : option text :=
  match attribute_rows M, neighbour_rows M, tag_rows M with
  | Some atts, Some neighbours, Some tags =>
      if Nat.leb (length (segments M)) (length (segment_tags M)) then
        Some (endl (count (vertices M) ++ [space] ++ show_int P (Z.of_nat (num_attributes M)) ++ vertex_comment)
              ++ numbered vertex_line (combine (vertices M) atts)
              ++ endl title_comment
              ++ concat (map endl (titles M))
              ++ endl (count (triangles M) ++ triangle_comment)
              ++ numbered triangle_line (combine (combine (triangles M) neighbours) tags)
              ++ endl (count (segments M) ++ segment_comment)
              ++ numbered segment_line (combine (segments M) (segment_tags M)))
      else None
  | _, _, _ => None
  end.

(** [_write_ASCII_outline], lines 501-570, and [write_ASCII],
    geo_reference.py lines 250-259 *)
Definition write_reference (g : option (Z * nat * num * num)) : text :=
  match g with
  | None => []
  | Some (z, _, x, y) => endl geo_title ++ endl (show_int P z) ++ endl (show P x) ++ endl (show P y)
  end.
Definition write_outline (M : mesh) : option text :=
  match points M, point_attributes M with
  | _ :: _, [] => None
  | _, _ =>
      if Nat.leb (length (points M)) (length (point_attributes M)) && Nat.leb (length (outline_segments M)) (length (outline_tags M))
         && Nat.leb (length (regions M)) (length (region_tags M)) && Nat.leb (length (regions M)) (length (region_areas M)) then
        Some (endl (count (points M) ++ [space]
                    ++ show_int P (match points M with [] => 0%Z | _ => Z.of_nat (length (hd [] (point_attributes M))) end) ++ point_comment)
              ++ numbered vertex_line (combine (points M) (point_attributes M))
              ++ endl (count (outline_segments M) ++ outline_comment)
              ++ numbered segment_line (combine (outline_segments M) (outline_tags M))
              ++ endl (count (holes M) ++ hole_comment)
              ++ numbered hole_line (holes M)
              ++ endl (count (regions M) ++ region_comment)
              ++ numbered region_line (combine (regions M) (region_tags M))
              ++ endl (count (regions M) ++ area_comment)
              ++ numbered area_line (firstn (length (regions M)) (region_areas M))
              ++ write_reference (reference M))
      else None
  end.
(** [_write_tsh_file], lines 494-498 *)
Definition write_tsh (M : mesh) : option text :=
  match write_triangulation M, write_outline M with Some a, Some b => Some (a ++ b) | _, _ => None end.

(** ** Reading *)

Definition reader (A : Type) := text -> option (A * text).
Definition bind {A B} (m : option A) (f : A -> option B) : option B := match m with Some a => f a | None => None end.
(** [for index in range(int(n))] *)
Fixpoint repeat_read {A} (n : nat) (f : reader A) (s : text) : option (list A * text) :=
  match n with
  | O => Some ([], s)
  | S n => bind (f s) (fun '(a, s) => bind (repeat_read n f s) (fun '(l, s) => Some (a :: l, s)))
  end.
Definition times (z : Z) : nat := Z.to_nat z.
Fixpoint all_numbers (l : list text) : option (list num) :=
  match l with [] => Some [] | w :: l => bind (parse P w) (fun x => bind (all_numbers l) (fun l => Some (x :: l))) end.

(** A header whose first field is a number; [blank]: what an empty line
    stands for (None: IndexError) *)
Definition read_count (blank : option Z) : reader Z := fun s =>
  let '(line, s) := readline s in
  match split line with
  | [] => option_map (fun z => (z, s)) blank
  | w :: _ => option_map (fun z => (z, s)) (parse_int P w)
  end.
(** Lines 161-169 and 261-269: the second field is converted when needed,
    by [read_titles] only, so that [None] stands for no number. *)
Definition read_counts : reader (Z * option Z) := fun s =>
  let '(line, s) := readline s in
  match split line with
  | [] => Some ((0%Z, Some 0%Z), s)
  | w :: w' :: _ => option_map (fun z => ((z, parse_int P w'), s)) (parse_int P w)
  | _ => None
  end.
(** Lines 172-183 and 272-282 *)
Definition read_vertex : reader ((num * num) * list num) := fun s =>
  let '(line, s) := readline s in
  match split line with
  | _ :: x :: y :: l =>
      bind (parse P x) (fun x => bind (parse P y) (fun y => bind (all_numbers l) (fun l => Some (((x, y), l), s))))
  | _ => None
  end.
(** Lines 188-190 *)
Definition read_title : reader text := fun s => let '(line, s) := readline s in Some (strip line, s).
(** Lines 199-213 *)
Definition read_triangle : reader ((Z * Z * Z) * (Z * Z * Z) * text) := fun s =>
  let '(line, s) := readline s in
  match split line with
  | _ :: a :: b :: c :: n0 :: n1 :: n2 :: _ =>
      bind (parse_int P a) (fun a => bind (parse_int P b) (fun b => bind (parse_int P c) (fun c =>
      bind (parse_int P n0) (fun n0 => bind (parse_int P n1) (fun n1 => bind (parse_int P n2) (fun n2 =>
      Some (((a, b, c), (n0, n1, n2), strip (Nat.iter 7 drop_field line)), s)))))))
  | _ => None
  end.
(** Lines 221-234 and 292-304: the tag follows the third field. *)
Definition third (line : text) : text := strip (from_space (drop_field (drop_field line))).
Definition read_segment : reader ((Z * Z) * text) := fun s =>
  let '(line, s) := readline s in
  match split line with
  | _ :: a :: b :: _ => bind (parse_int P a) (fun a => bind (parse_int P b) (fun b => Some (((a, b), third line), s)))
  | _ => None
  end.
(** Lines 314-318 *)
Definition read_hole : reader (num * num) := fun s =>
  let '(line, s) := readline s in
  match split line with
  | _ :: x :: y :: _ => bind (parse P x) (fun x => bind (parse P y) (fun y => Some ((x, y), s)))
  | _ => None
  end.
(** Lines 329-342 *)
Definition read_region : reader ((num * num) * text) := fun s =>
  let '(line, s) := readline s in
  match split line with
  | _ :: x :: y :: _ => bind (parse P x) (fun x => bind (parse P y) (fun y => Some (((x, y), third line), s)))
  | _ => None
  end.
(** Lines 346-357 *)
Definition read_area : reader (option num) := fun s =>
  let '(line, s) := readline s in
  match split line with
  | _ :: w :: _ => Some (parse P w, s)
  | _ => Some (None, s)
  end.
Definition upper_two (s : text) : text := firstn 2 s.
(** [Geo_reference(ASCIIFile=fd)], geo_reference.py lines 261-293, and lines
    359-363: any failure leaves None.  (The two characters compared have no
    upper case.) *)
Definition text_eqb (a b : text) : bool := if list_eq_dec ascii_dec a b then true else false.
Definition read_reference (s : text) : option (Z * nat * num * num) :=
  let '(title, s) := readline s in
  if text_eqb (upper_two title) (upper_two geo_title) then
    let '(z, s) := readline s in let '(x, s) := readline s in let '(y, _) := readline s in
    bind (parse_int P (strip z)) (fun z => bind (parse P (strip x)) (fun x => bind (parse P (strip y)) (fun y => Some (z, 0, x, y))))
  else None.

(** [_read_triangulation], lines 156-249, and [_read_outline], lines
    252-376, one after the other as in [_read_tsh_file], lines 143-153 *)
Definition some_rows (l : list (list num)) : option (list (list num)) :=
  match filter (fun row => match row with [] => false | _ => true end) l with [] => None | l => Some l end.
Definition some3 (n : Z * Z * Z) : option Z * option Z * option Z := (Some (fst (fst n)), Some (snd (fst n)), Some (snd n)).
Definition read_tsh (s : text) : option mesh :=
  bind (read_counts s) (fun '((nv, na), s) =>
  bind (repeat_read (times nv) read_vertex s) (fun '(vs, s) =>
  bind na (fun na =>
  bind (repeat_read (times na) read_title (snd (readline s))) (fun '(ts, s) =>
  bind (read_count None s) (fun '(nt, s) =>
  bind (repeat_read (times nt) read_triangle s) (fun '(trs, s) =>
  bind (read_count None s) (fun '(ns, s) =>
  bind (repeat_read (times ns) read_segment s) (fun '(segs, s) =>
  bind (read_counts s) (fun '((np, _), s) =>
  bind (repeat_read (times np) read_vertex s) (fun '(ps, s) =>
  bind (read_count (Some 0%Z) s) (fun '(no, s) =>
  bind (repeat_read (times no) read_segment s) (fun '(osegs, s) =>
  bind (read_count (Some 0%Z) s) (fun '(nh, s) =>
  bind (repeat_read (times nh) read_hole s) (fun '(hs, s) =>
  bind (read_count (Some 0%Z) s) (fun '(nr, s) =>
  bind (repeat_read (times nr) read_region s) (fun '(rs, s) =>
  bind (repeat_read (times nr) read_area (snd (readline s))) (fun '(areas, s) =>
  Some (Mesh (map fst vs) (some_rows (map snd vs)) ts
    (map (fun t => fst (fst t)) trs) (map (fun t => some3 (snd (fst t))) trs) (map snd trs)
    (map fst segs) (map snd segs) (map fst ps) (map snd ps) (map fst osegs) (map snd osegs) hs
    (map fst rs) (map snd rs) areas (read_reference s))))))))))))))))))).
End Tsh.
