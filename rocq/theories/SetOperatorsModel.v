(** Model of the operators that set values in a region of the domain:
    anuga/operators/set_quantity.py, set_stage.py, set_quantity_operator.py,
    set_stage_operator.py, set_w_uh_vh_operator.py, set_friction_operators.py,
    and of mannings_operator.py.  Real arithmetic; [None] is an exception that
    leaves the call. *)
From Coq Require Import Reals List Arith Bool.
From Verif Require Import RealLib ArrayLib PolygonModel GridModel.
Import ListNotations.
Local Open Scope R_scope.

(** Centroid values, and the rest of the domain that is read *)
Record cells := { stage : nat -> R; elevation : nat -> R; xmom : nat -> R; ymom : nat -> R; friction : nat -> R }.
Record domain := { count : nat; centre : nat -> point; time : R; values : cells }.
Inductive quantity := Stage | Xmom | Ymom | Friction.
Definition get (q : quantity) (c : cells) : nat -> R :=
  match q with Stage => stage c | Xmom => xmom c | Ymom => ymom c | Friction => friction c end.
Definition put (q : quantity) (c : cells) (a : nat -> R) : cells :=
  match q with
  | Stage => {| stage := a; elevation := elevation c; xmom := xmom c; ymom := ymom c; friction := friction c |}
  | Xmom => {| stage := stage c; elevation := elevation c; xmom := a; ymom := ymom c; friction := friction c |}
  | Ymom => {| stage := stage c; elevation := elevation c; xmom := xmom c; ymom := a; friction := friction c |}
  | Friction => {| stage := stage c; elevation := elevation c; xmom := xmom c; ymom := ymom c; friction := a |}
  end.

(** What a user function returns: a number, an array, or it raises
    ValueError *)
Inductive outcome := One (v : R) | Many (l : list R) | Value_error.
(** The value given, by determine_function_type, function_utils.py lines
    12-77; [Nothing] is None, or an array of several numbers. *)
Inductive source :=
  | Nothing | Scalar (c : R) | Temporal (f : R -> outcome) | Spatial (f : list point -> outcome) | Both (f : list point -> R -> outcome).

(** [Set_quantity.get_value], set_quantity.py lines 146-178: float of [Nothing] is a
    TypeError. *)
Definition get_value (s : source) (places : list point) (t : R) : option outcome :=
  match s with
  | Nothing => None
  | Scalar c => Some (One c)
  | Temporal f => Some (f t)
  | Spatial f => Some (f places)
  | Both f => Some (f places t)
  end.
(** numpy broadcasting to [n] values; [None] is a ValueError. *)
Definition spread (n : nat) (v : outcome) : option (list R) :=
  match v with
  | One v => Some (repeat v n)
  | Many [v] => Some (repeat v n)
  | Many l => if (length l =? n)%nat then Some l else None
  | Value_error => None
  end.
(** [a[ids] = vs] *)
Definition assign (a : nat -> R) (ids : list nat) (vs : list R) : nat -> R :=
  fold_left (fun a kv => upd a (fst kv) (snd kv)) (combine ids vs) a.
(** The triangles of the region: all of them for None *)
Definition triangles (d : domain) (indices : option (list nat)) : list nat :=
  match indices with None => seq 0 (count d) | Some ids => ids end.

(** [Set_quantity.__call__], set_quantity.py lines 89-135: a ValueError is
    ignored.  The test [is []] is never true; an empty list assigns nothing. *)
Definition set_quantity (q : quantity) (s : source) (indices : option (list nat)) (d : domain) : option cells :=
  let ids := triangles d indices in
  match get_value s (map (centre d) ids) (time d) with
  | None => None
  | Some v =>
      match spread (length ids) v with
      | None => Some (values d)
      | Some vs => Some (put q (values d) (assign (get q (values d)) ids vs))
      end
  end.
(** [Set_stage.__call__], set_stage.py lines 91-142 *)
Definition set_stage (s : source) (indices : option (list nat)) (d : domain) : option cells :=
  match indices with
  | Some [] => Some (values d)
  | _ =>
      let ids := triangles d indices in
      match get_value s (map (centre d) ids) (time d) with
      | None => None
      | Some v =>
          match spread (length ids) v with
          | None => Some (values d)
          | Some vs => Some (put Stage (values d) (assign (stage (values d)) ids
                         (map (fun ev => Rmax (fst ev) (snd ev)) (combine (map (elevation (values d)) ids) vs))))
          end
      end
  end.
(** The operators, set_quantity_operator.py line 34 ([__call__ =
    Set_quantity.__call__]) and set_stage_operator.py lines 25-61, which
    inherits this method. *)
Definition set_quantity_operator (q : quantity) (s : source) (indices : option (list nat)) (d : domain) : option cells :=
  match q with Stage => None | _ => set_quantity q s indices d end.
Definition set_stage_operator (s : source) (indices : option (list nat)) (d : domain) : option cells := set_quantity Stage s indices d.
(** [Polygonal_set_quantity_operator.__init__], set_quantity_operator.py lines
    141-153: the name Set_elevation_operator is not defined there. *)
Definition polygonal_set_quantity_operator (q : quantity) (s : source) (polygon : list point) : option unit := None.

(** [Set_w_uh_vh_operator], set_w_uh_vh_operator.py lines 71-144: functions of
    place are called with None for the coordinates ([Of_place], [Of_both]: what
    they do then); a number has no components. *)
Inductive triple := No_triple | Number (c : R) | Three (l : list outcome) | Of_time (f : R -> option (list outcome))
  | Of_place (f : option (list point) -> option (list outcome)) | Of_both (f : option (list point) -> R -> option (list outcome)).
Definition set_component (q : quantity) (i : nat) (ids : list nat) (l : list outcome) (c : cells) : option cells :=
  match nth_error l i with
  | None => None
  | Some v => match spread (length ids) v with None => None | Some vs => Some (put q c (assign (get q c) ids vs)) end
  end.
Definition set_w_uh_vh (s : triple) (indices : option (list nat)) (d : domain) : option cells :=
  let ids := triangles d indices in
  let apply (l : list outcome) :=
    match set_component Stage 0 ids l (values d) with
    | None => None
    | Some c => match set_component Xmom 1 ids l c with None => None | Some c => set_component Ymom 2 ids l c end
    end in
  match s with
  | No_triple => Some (values d)
  | Number _ => None
  | Three l => apply l
  | Of_time f => match f (time d) with Some l => apply l | None => None end
  | Of_place f => match f None with Some l => apply l | None => None end
  | Of_both f => match f None (time d) with Some l => apply l | None => None end
  end.

(** [Set_depth_friction_operator.__call__], set_friction_operators.py lines
    86-112.  The function is made to act on arrays by numpy's vectorize: the
    type of the first result is the type of all, and no arguments are a
    ValueError. *)
Inductive num := Int (z : Z) | Float (r : R).
Definition to_real (v : num) : R := match v with Int z => IZR z | Float r => r end.
Definition vectorize (f : R -> num) (l : list R) : option (list R) :=
  match l with
  | [] => None
  | a :: _ =>
      Some (match f a with
            | Int _ => map (fun x => IZR (trunc (to_real (f x)))) l
            | Float _ => map (fun x => to_real (f x)) l
            end)
  end.
Definition set_depth_friction (f : R -> num) (indices : option (list nat)) (d : domain) : option cells :=
  let ids := triangles d indices in
  match vectorize f (map (fun k => stage (values d) k - elevation (values d) k) ids) with
  | None => None
  | Some vs => Some (put Friction (values d) (assign (friction (values d)) ids vs))
  end.

(** [Mannings_operator.__call__], mannings_operator.py lines 40-58, with
    gravity [g] and time step [dt]; also the largest and the smallest factor so
    far *)
Definition gamma (g : R) (c : cells) (k : nat) : R :=
  let height := stage c k - elevation c k in
  if Rltb 0 height
  then - g * (friction c k) ^ 2 * sqrt ((xmom c k) ^ 2 + (ymom c k) ^ 2) / Rpower height (7 / 3)
  else -100.
Definition mannings (g dt : R) (n : nat) (c : cells) (extremes : R * R) : cells * (R * R) :=
  let exp_gamma k := exp (gamma g c k * dt) in
  (put Ymom (put Xmom c (fun k => if (k <? n)%nat then exp_gamma k * xmom c k else xmom c k))
     (fun k => if (k <? n)%nat then exp_gamma k * ymom c k else ymom c k),
   (fold_left Rmax (map exp_gamma (seq 0 n)) (fst extremes), fold_left Rmin (map exp_gamma (seq 0 n)) (snd extremes))).
