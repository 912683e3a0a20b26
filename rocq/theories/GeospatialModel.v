(** Model of anuga/geospatial_data/geospatial_data.py: points with attributes
    and a georeference, their subsets and sums, and the points files (.pts and
    .csv), read at once or in blocks.  An exception is [None] unless a
    definition says otherwise.  Latitudes and longitudes are left out. *)
From Coq Require Import Reals List ZArith Arith Bool.
From Verif Require Import RealLib GeoRefModel PolygonModel.
Import ListNotations.
Local Open Scope R_scope.

(** A dictionary of attributes: names are numbers, keys in order of insertion. *)
Definition attributes := list (nat * list R).

(** A Geospatial_data; the constructor leaves an N x 2 array in
    [data_points]. *)
Record geospatial := Geospatial { data_points : list (R * R); atts : option attributes; geo_reference : georef }.

(** [Geo_reference(zone, x, y)], geo_reference.py lines 53-109: a new object,
    [k], with undefined hemisphere. *)
Definition new_reference (k : nat) (z : Z) (x y : R) : georef := Geo k z Undefined x y.
Definition default_reference (k : nat) : georef := new_reference k default_zone 0 0.

(** ** Construction *)

Inductive reference_argument := NoReference | Reference (g : georef) | Tuple (z : Z) (x y : R).
Inductive attribute_argument := NoAttributes | Values (v : list R) | Dictionary (d : attributes).
(** DEFAULT_ATTRIBUTE, line 38 *)
Definition elevation : nat := 0.

(** [set_attributes], lines 213-233 *)
Definition set_attributes (a : attribute_argument) : option attributes :=
  match a with NoAttributes => None | Values v => Some [(elevation, v)] | Dictionary d => Some d end.

(** [check_data_points], lines 200-211 *)
Definition check_data_points (p : points) : bool :=
  match p with Table _ | Single [] => true | _ => false end.

(** [set_geo_reference], lines 235-262, and [get_data_points] with a
    georeference (lines 372-374), for points relative to [self_reference].
    [k] is the object created for a tuple or None. *)
Definition argument_reference (k : nat) (r : reference_argument) : georef :=
  match r with NoReference => default_reference k | Reference g => g | Tuple z x y => new_reference k z x y end.
Definition moved_points (p : points) (self_reference target : georef) : option (list (R * R)) :=
  match change_points_geo_ref target p (Some self_reference) with Some (Table rows) => Some rows | _ => None end.

(** [__init__] without a file, lines 132-161: with a tuple
    [self.geo_reference] is the tuple when the points are converted, and a
    tuple has no attribute xllcorner.  [k] and [S k] are the default
    georeferences made in lines 140 and 244. *)
Definition construct (k : nat) (p : points) (a : attribute_argument) (r : reference_argument) : option geospatial :=
  if check_data_points p then
    match r with
    | Tuple _ _ _ => None
    | _ =>
        let target := argument_reference (S k) r in
        match moved_points p (argument_reference k r) target with
        | Some rows => Some (Geospatial rows (set_attributes a) target)
        | None => None
        end
    end
  else None.

(** [set_geo_reference] of an object, lines 235-262 *)
Definition set_geo_reference (k : nat) (G : geospatial) (r : reference_argument) : option geospatial :=
  let target := argument_reference k r in
  match moved_points (Table (data_points G)) (geo_reference G) target with
  | Some rows => Some (Geospatial rows (atts G) target)
  | None => None
  end.

(** [get_data_points(absolute=True)], lines 370-371 *)
Definition absolute_points (G : geospatial) : list (R * R) :=
  match get_absolute (geo_reference G) (Table (data_points G)) with Some (Table rows) => rows | _ => [] end.

(** ** Subsets *)

(** [num.take(values, indices, axis=0)] for non-negative integers *)
Definition take {A} (default : A) (l : list A) (indices : list nat) : option (list A) :=
  if forallb (fun i => Nat.ltb i (length l)) indices then Some (map (fun i => nth i l default) indices) else None.
Fixpoint take_all (d : attributes) (indices : list nat) : option attributes :=
  match d with
  | [] => Some []
  | (key, v) :: d =>
      match take 0 v indices, take_all d indices with
      | Some v, Some d => Some ((key, v) :: d)
      | _, _ => None
      end
  end.
Definition dictionary (G : geospatial) : attributes := match atts G with Some d => d | None => [] end.

(** [get_sample], lines 573-596 *)
Definition get_sample (k : nat) (G : geospatial) (indices : list nat) : option geospatial :=
  match take (0, 0) (absolute_points G) indices, take_all (dictionary G) indices with
  | Some rows, Some d => construct k (Table rows) (Dictionary d) NoReference
  | _, _ => None
  end.

(** [clip], lines 274-304 (the polygon in absolute coordinates) *)
Definition clip (k : nat) (G : geospatial) (polygon : list point) (closed : bool) : option geospatial :=
  get_sample k G (inside_polygon (absolute_points G) polygon closed).
(** [clip_outside], lines 306-331.  If no point is outside,
    [outside_polygon] returns [num.array([])], an array of floats, which
    [num.take] refuses. *)
Definition clip_outside (k : nat) (G : geospatial) (polygon : list point) (closed : bool) : option geospatial :=
  match outside_polygon (absolute_points G) polygon closed with
  | [] => None
  | indices => get_sample k G indices
  end.

(** [remainder_list.pop(i)] *)
Fixpoint pop (l : list nat) (i : nat) : option (nat * list nat) :=
  match l, i with
  | [], _ => None
  | x :: l, O => Some (x, l)
  | x :: l, S i => match pop l i with Some (y, l) => Some (y, x :: l) | None => None end
  end.
(** Lines 667-668 *)
Fixpoint pop_all (random_num remainder random_list : list nat) : option (list nat * list nat) :=
  match random_num with
  | [] => Some (random_list, remainder)
  | i :: random_num =>
      match pop remainder i with
      | Some (x, remainder) => pop_all random_num remainder (random_list ++ [x])
      | None => None
      end
  end.
(** [random_num.sort()], [random_num.reverse()] and [test_total.sort()] *)
Fixpoint insert_nat (x : nat) (l : list nat) : list nat :=
  match l with [] => [x] | y :: l' => if Nat.leb x y then x :: l else y :: insert_nat x l' end.
Definition sort_nat (l : list nat) : list nat := fold_right insert_nat [] l.
Definition list_eqb (a b : list nat) : bool := if list_eq_dec Nat.eq_dec a b then true else false.

(** [split], lines 598-695, for the numbers [randint] drew.  [SplitFailed]:
    the assertion of line 684. *)
Inductive split_result := Parts (G1 G2 : geospatial) | SplitFailed | SplitError.
Definition split (k : nat) (G : geospatial) (draws : list nat) : split_result :=
  let total_list := seq 0 (length (data_points G)) in
  match pop_all (rev (sort_nat draws)) total_list [] with
  | None => SplitError
  | Some (random_list, remainder_list) =>
      if list_eqb total_list (sort_nat (random_list ++ remainder_list)) then
        match get_sample k G random_list, get_sample (S (S k)) G remainder_list with
        | Some G1, Some G2 => Parts G1 G2
        | _, _ => SplitError
        end
      else SplitFailed
  end.
(** What [randint(0, self_size-1, (new_size,))] can draw: [high] is not
    included. *)
Definition drawn (size new_size : nat) (draws : list nat) : Prop :=
  length draws = new_size /\ forall i, In i draws -> (i < size - 1)%nat.

(** ** Sums *)

Fixpoint lookup (d : attributes) (key : nat) : option (list R) :=
  match d with [] => None | (x, v) :: d => if Nat.eqb x key then Some v else lookup d key end.
(** Lines 446-457: an attribute of [self] that [other] lacks raises. *)
Fixpoint join (d1 d2 : attributes) : option attributes :=
  match d1 with
  | [] => Some []
  | (key, v) :: d1 =>
      match lookup d2 key, join d1 d2 with
      | Some w, Some d => Some ((key, v ++ w) :: d)
      | _, _ => None
      end
  end.

(** [__add__], lines 410-468; the new georeference, [k], has the zone of the
    first after [reconcile_zones].  [x in None] raises unless there is no x. *)
Definition add (k : nat) (G : geospatial) (other : option geospatial) : option geospatial :=
  match other with
  | None =>
      construct (S k) (Table (absolute_points G))
        (match atts G with Some d => Dictionary d | None => NoAttributes end)
        (Reference (new_reference k (zone (geo_reference G)) 0 0))
  | Some H =>
      let '(g1, g2, ok) := reconcile_zones (geo_reference G) (geo_reference H) in
      if ok then
        let rows := absolute_points G ++ absolute_points H in
        match match atts G with
              | None => match atts H with None => Some NoAttributes | Some _ => None end
              | Some [] => Some (Dictionary [])
              | Some d => match atts H with
                          | None => None
                          | Some e => option_map Dictionary (join d e)
                          end
              end with
        | Some a => construct (S k) (Table rows) a (Reference (new_reference k (zone g1) 0 0))
        | None => None
        end
      else None
  end.

(** ** Points files *)

(** A .pts file: the variable 'points', the others, and the georeference. *)
Record pts_file := Pts { f_points : list (R * R); f_atts : attributes; f_zone : Z; f_hemi : hemisphere; f_x : R; f_y : R }.
(** The name 'points' *)
Definition points_name : nat := 1.

(** [_write_pts_file], lines 1110-1159: variables of the given length only,
    and none called 'points' (one of length 1, which would be repeated, is left out) *)
Definition write_pts (rows : list (R * R)) (a : option attributes) (g : georef) : option pts_file :=
  let d := match a with Some d => d | None => [] end in
  if forallb (fun kv : nat * list R => negb (Nat.eqb (fst kv) points_name) && Nat.eqb (length (snd kv)) (length rows)) d
  then Some (Pts rows d (zone g) (hemi g) (xllcorner g) (yllcorner g)) else None.

(** [export_points_file] for .pts, lines 540-552 *)
Definition export_pts (G : geospatial) (absolute : bool) : option pts_file :=
  let g := geo_reference G in
  if absolute then write_pts (absolute_points G) (atts G) (Geo (ident g) (zone g) (hemi g) 0 0)
  else write_pts (data_points G) (atts G) g.

Definition file_reference (k : nat) (f : pts_file) : georef := Geo k (f_zone f) (f_hemi f) (f_x f) (f_y f).
(** [Geospatial_data(file_name)], lines 162-175, with [_read_pts_file], lines
    889-940; [k] is the georeference made from the file. *)
Definition import_pts (k : nat) (f : pts_file) : option geospatial :=
  construct (S k) (Table (f_points f)) (Dictionary (f_atts f)) (Reference (file_reference k f)).

(** [values[a:b]] *)
Definition slice {A} (a b : nat) (l : list A) : list A := firstn (b - a) (skipn a l).
(** One call of [__next__], lines 748-791: rows [start_row] to [fin_row] *)
Definition pts_block (k : nat) (f : pts_file) (start_row fin_row : nat) : option geospatial :=
  construct (S k) (Table (slice start_row fin_row (f_points f)))
    (Dictionary (map (fun kv : nat * list R => (fst kv, slice start_row fin_row (snd kv))) (f_atts f)))
    (Reference (file_reference k f)).
(** Iteration over a .pts file, lines 697-734 and 748-791: [fuel] bounds the
    number of blocks; [None]: not finished, or an exception. *)
Fixpoint pts_blocks (fuel : nat) (k : nat) (f : pts_file) (max_read_lines start_row : nat) : option (list geospatial) :=
  let last_row := length (f_points f) in
  if Nat.eqb start_row last_row then Some []
  else match fuel with
       | O => None
       | S fuel =>
           let fin_row := if Nat.ltb last_row (start_row + max_read_lines) then last_row else (start_row + max_read_lines)%nat in
           match pts_block k f start_row fin_row, pts_blocks fuel k f max_read_lines fin_row with
           | Some G, Some l => Some (G :: l)
           | _, _ => None
           end
       end.

(** A line of a .csv file after [clean_line] (system_tools.py lines 225-237):
    empty fields are gone, but a field of blanks is [Blank].  [newline]: the
    line is '\n'; [hash]: its first character is '#'. *)
Inductive field := Number (r : R) | Blank | Word.
Record line := Line { newline : bool; hash : bool; fields : list field }.

(** [att_dict.setdefault(name, []).append(value)] *)
Fixpoint append_value (name : nat) (v : R) (d : attributes) : attributes :=
  match d with
  | [] => [(name, [v])]
  | (x, l) :: d => if Nat.eqb x name then (x, l ++ [v]) :: d else (x, l) :: append_value name v d
  end.
(** Lines 1035-1038 *)
Fixpoint add_values (names : list nat) (values : list field) (d : attributes) : option attributes :=
  match names, values with
  | name :: names, value :: values =>
      match value with
      | Number v => add_values names values (append_value name v d)
      | Blank => add_values names values d
      | Word => None
      end
  | _, _ => Some d
  end.
(** The loop of lines 1011-1040; [todo] is max_read_lines - read_lines, or
    [None] for the 1e30 of [_read_csv_file].  [None]: SyntaxError. *)
Fixpoint read_lines (names : list nat) (todo : option nat) (lines : list line) (pts : list (R * R)) (d : attributes)
  : option (list (R * R) * attributes * list line) :=
  match lines with
  | [] => Some (pts, d, [])
  | l :: rest =>
      match todo with
      | Some O => Some (pts, d, lines)
      | _ =>
          if newline l then read_lines names todo rest pts d
          else if Nat.leb (length (fields l)) 1 then Some (pts, d, rest)
          else if hash l then read_lines names todo rest pts d
          else match fields l with
               | Number x :: Number y :: values =>
                   if Nat.eqb (length names) (length values) then
                     match add_values names values d with
                     | Some d => read_lines names (option_map pred todo) rest (pts ++ [(x, y)]) d
                     | None => None
                     end
                   else None
               | _ => None
               end
      end
  end.

(** [_read_csv_file_blocking], lines 988-1068, for a header whose first two
    names are not those of latitudes and longitudes. *)
Inductive csv_read := Block (pts : list (R * R)) (d : attributes) (rest : list line) | Stop | Syntax.
Definition read_csv_blocking (header : list nat) (todo : option nat) (lines : list line) : csv_read :=
  match header with
  | _ :: _ :: names =>
      match read_lines names todo lines [] [] with
      | None => Syntax
      | Some ([], _, _) => Stop
      | Some (pts, d, rest) => Block pts d rest
      end
  | _ => Syntax
  end.
(** A whole .csv file, lines 943-969 and 162-175 *)
Record csv_file := Csv { header : list nat; body : list line }.
Definition import_csv (k : nat) (f : csv_file) : option geospatial :=
  match read_csv_blocking (header f) None (body f) with
  | Block pts d _ => construct k (Table pts) (Dictionary d) NoReference
  | _ => None
  end.
(** Iteration over a .csv file, lines 735-744 and 792-827 *)
Fixpoint csv_blocks (fuel : nat) (k : nat) (hd : list nat) (max_read_lines : nat) (lines : list line) : option (list geospatial) :=
  match fuel with
  | O => None
  | S fuel =>
      match read_csv_blocking hd (Some max_read_lines) lines with
      | Syntax => None
      | Stop => Some []
      | Block pts d rest =>
          match construct k (Table pts) (Dictionary d) NoReference, csv_blocks fuel k hd max_read_lines rest with
          | Some G, Some l => Some (G :: l)
          | _, _ => None
          end
      end
  end.

(** [_write_csv_file], lines 1162-1199: 'x', 'y' (their names are [x_name],
    [y_name]) and the attributes; a missing value raises. *)
Definition x_name : nat := 2.
Definition y_name : nat := 3.
Definition write_csv (rows : list (R * R)) (a : option attributes) : option csv_file :=
  let d := match a with Some d => d | None => [] end in
  if forallb (fun kv : nat * list R => Nat.leb (length rows) (length (snd kv))) d
  then Some (Csv (x_name :: y_name :: map fst d)
              (map (fun i => let p := nth i rows (0, 0) in
                     Line false false (Number (fst p) :: Number (snd p) :: map (fun kv : nat * list R => Number (nth i (snd kv) 0)) d))
                   (seq 0 (length rows))))
  else None.
Definition export_csv (G : geospatial) : option csv_file := write_csv (absolute_points G) (atts G).
