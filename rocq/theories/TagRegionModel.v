(** Model of quantities set by regional tag: [set_tag_region] and
    [_set_tag_region], anuga/abstract_2d_finite_volumes/generic_domain.py lines
    1061-1092; [Set_tag_region], [Add_value_to_region] and [Add_quantities],
    anuga/abstract_2d_finite_volumes/tag_region.py; [get_unique_vertices],
    general_mesh.py lines 675-688; [build_tagged_elements_dictionary],
    neighbour_mesh.py lines 373-392.  Real arithmetic; [None] is an exception. *)
From Coq Require Import String Reals List Arith Bool.
From Verif Require Import RealLib ArrayLib PolygonModel InvertedModel SetValuesModel.
Import ListNotations.
Local Open Scope R_scope.

(** The dictionary of tagged triangles, in its order *)
Definition tags := list (string * list nat).
(** neighbour_mesh.py lines 383-392: [max] of an empty array raises. *)
Definition build_tags (m : mesh) (given : option tags) : option tags :=
  match given with
  | None => Some []
  | Some l => if forallb (fun e => match snd e with [] => false | ids => forallb (fun k => (k <? m_triangles m)%nat) ids end) l then Some l else None
  end.

(** The quantities of the domain by name *)
Definition quantities := string -> option quantity.
Definition put (qs : quantities) (name : string) (q : quantity) : quantities := fun n => if String.eqb n name then Some q else qs n.

(** general_mesh.py lines 675-688: the nodes of the triangles, sorted *)
Definition get_unique_vertices (m : mesh) (elements : list nat) : list nat :=
  filter (fun n => existsb (fun k => existsb (fun i => (node_at (m_flat m) (3 * k + i) =? n)%nat) [0; 1; 2]%nat) elements) (seq 0 (m_nodes m)).
(** [build_indices], tag_region.py lines 26-33 *)
Definition build_indices (m : mesh) (loc : location) (elements : list nat) : list nat :=
  match loc with Unique_vertices => get_unique_vertices m elements | _ => elements end.

(** [Q.get_values(indices, location)]: rows of vertex values, or one value per
    triangle or node.  Values of edges can not be set. *)
Inductive values := By_row (A : list (list R)) | By_number (A : list R).
Definition get_values (m : mesh) (discontinuous : bool) (loc : location) (ids : list nat) (q : quantity) : option values :=
  match loc with
  | Vertices => match get_vertices m (Some ids) q with None => None | Some A => Some (By_row A) end
  | Centroids => match get_centroids m (Some ids) q with None => None | Some A => Some (By_number A) end
  | Unique_vertices => match get_nodes m discontinuous (Some ids) q with None => None | Some A => Some (By_number A) end
  | Edges => None
  end.
(** numpy: the sum with a constant, the sum of two, the mean *)
Definition plus_constant (x : R) (v : values) : source :=
  match v with
  | By_row A => Rows (map (fun r i => nth i r 0 + x) A)
  | By_number A => Array (map (fun a => a + x) A)
  end.
Definition plus_values (v w : values) : source :=
  match v, w with
  | By_row A, By_row B => Rows (map (fun rs i => nth i (fst rs) 0 + nth i (snd rs) 0) (combine A B))
  | By_number A, By_number B => Array (map (fun ab => fst ab + snd ab) (combine A B))
  | _, _ => Array []
  end.
Definition flatten (v : values) : list R := match v with By_row A => concat A | By_number A => A end.
Definition average (v : values) : R := Rsum (flatten v) / INR (length (flatten v)).

Inductive region :=
| Set_tag_region (tag name : string) (x : source) (loc : location)
| Add_value_to_region (tag answer initial : string) (x : R) (loc : location) (mean : bool)
| Add_quantities (tag answer adding : string) (loc : location).
Definition own_tag (f : region) : string :=
  match f with Set_tag_region t _ _ _ | Add_value_to_region t _ _ _ _ _ | Add_quantities t _ _ _ => t end.

(** [domain.set_quantity] with indices, which are an array, or a list for the
    nodes *)
Definition set_named (m : mesh) (qs : quantities) (name : string) (x : source) (loc : location) (ids : list nat) : option quantities :=
  match qs name with
  | None => None
  | Some q =>
      match set_values m x loc (match loc with Unique_vertices => false | _ => true end) (Some ids) q with
      | None => None
      | Some q => Some (put qs name q)
      end
  end.
(** The calls, tag_region.py lines 54-61, 94-115 and 133-157 *)
Definition call (m : mesh) (discontinuous : bool) (f : region) (tag : string) (elements : list nat) (qs : quantities) : option quantities :=
  if String.eqb tag (own_tag f) then
    match f with
    | Set_tag_region _ name x loc => set_named m qs name x loc (build_indices m loc elements)
    | Add_value_to_region _ answer initial x loc mean =>
        match qs initial with
        | None => None
        | Some q =>
            match get_values m discontinuous loc (build_indices m loc elements) q with
            | None => None
            | Some v => set_named m qs answer (if mean then Constant (average v + x) else plus_constant x v) loc (build_indices m loc elements)
            end
        end
    | Add_quantities _ answer adding loc =>
        match qs answer, qs adding with
        | Some q1, Some q2 =>
            match get_values m discontinuous loc (build_indices m loc elements) q1, get_values m discontinuous loc (build_indices m loc elements) q2 with
            | Some v, Some w => set_named m qs answer (plus_values v w) loc (build_indices m loc elements)
            | _, _ => None
            end
        | _, _ => None
        end
    end
  else Some qs.
(** [_set_tag_region], lines 1083-1092 *)
Fixpoint each_tag (m : mesh) (discontinuous : bool) (f : region) (l : tags) (qs : quantities) : option quantities :=
  match l with
  | [] => Some qs
  | (tag, elements) :: l => match call m discontinuous f tag elements qs with None => None | Some qs => each_tag m discontinuous f l qs end
  end.
Fixpoint set_tag_region (m : mesh) (discontinuous : bool) (fs : list region) (l : tags) (qs : quantities) : option quantities :=
  match fs with
  | [] => Some qs
  | f :: fs => match each_tag m discontinuous f l qs with None => None | Some qs => set_tag_region m discontinuous fs l qs end
  end.
