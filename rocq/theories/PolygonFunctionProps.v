(** C105: polygon functions take the value of the last polygon that contains
    the point (anuga/geometry/polygon_function.py). *)
From Coq Require Import Reals List Arith Bool Lra Lia ZArith.
From Verif Require Import RealLib ArrayLib PolygonModel PolygonProofs PolygonProps RegionProofs GeoRefModel GridModel GridProofs PolygonFunctionModel PolygonFunctionProofs.
Import ListNotations.
Local Open Scope R_scope.

(** The default at a point. *)
Definition default_at (d : default) (p : point) : R :=
  match d with Plain c => c | Floats f => f p | Integers f => IZR (f p) | First => px p | Second => py p end.
(** An array of integers cuts off what is stored in it. *)
Definition kept (d : default) (v : R) : R := match d with Integers _ => IZR (trunc v) | _ => v end.

(** What a point should get, in the array that the default makes. *)
Definition expected (g : georef) (d : default) (regions : list (list point * value)) (p : point) (v : R) : Prop :=
  let inside polygon := point_inside polygon true (px p + xllcorner g, py p + yllcorner g) in
  (exists j polygon w, nth_error regions j = Some (polygon, w) /\ inside polygon = true /\
     (forall j' polygon' w', (j < j')%nat -> nth_error regions j' = Some (polygon', w') -> inside polygon' = false) /\
     v = kept d (match w with Number c => c | Callable f => f p end)) \/
  ((forall polygon w, In (polygon, w) regions -> inside polygon = false) /\ v = default_at d p).

Lemma call_spec g d regions points : regions <> [] -> points <> [] ->
  (d <> First /\ d <> Second) \/ all_numbers regions ->
  exists made r, make g regions = Some made /\ call d made points = Some r /\ length r = length points /\
    forall k, (k < length points)%nat -> expected g d regions (nth k points (0, 0)) (nth k r 0).
Proof.
  intros NR NP H. exists (map (fun r => (relative g (fst r), snd r)) regions).
  unfold make. destruct regions as [|r0 rs] eqn:ER; [easy|]. rewrite <- ER in *. clear r0 rs ER.
  unfold call. destruct (begin d points) as [t a] eqn:EB. set (made := map (fun r => (relative g (fst r), snd r)) regions).
  destruct points as [|p0 ps] eqn:EP; [easy|]. rewrite <- EP in *. clear p0 ps EP.
  eexists. split; [reflexivity|]. split; [reflexivity|]. split; [now rewrite map_length, seq_length|]. intros k K.
  assert (T : own_target t \/ all_numbers made).
  { destruct H as [(H1 & H2)|H].
    - left. unfold own_target. destruct d; cbn in EB; injection EB as <- <-; tauto || congruence.
    - right. intros polygon v I. apply in_map_iff in I. destruct I as ((q & w) & E & I). cbn in E. injection E as _ <-. now apply (H q w). }
  pose proof (regions_spec t points a made k K T) as R1. cbv zeta in R1. destruct R1 as (_ & R1).
  rewrite (nth_indep _ 0 (fetch t (fold_left (set_region t points) made a) 0%nat)) by now rewrite map_length, seq_length.
  rewrite (map_nth (fetch t (fold_left (set_region t points) made a))). rewrite seq_nth by exact K. cbn [Nat.add].
  assert (PL : place_of a k = nth k points (0, 0)).
  { destruct d; cbn in EB; injection EB as <- <-; unfold place_of; cbn; unfold px, py; destruct (nth k points (0, 0)); reflexivity. }
  assert (ST : forall v, stored t v = kept d v) by (intros v; destruct d; cbn in EB; injection EB as <- <-; reflexivity).
  assert (FE : fetch t a k = default_at d (nth k points (0, 0))).
  { destruct d; cbn in EB; injection EB as <- <-; cbn; unfold px, py; destruct (nth k points (0, 0)); cbn; try reflexivity; lra. }
  unfold expected. cbv zeta. destruct R1 as [(j & r & N & I & M & V)|(M & V)].
  - left. unfold made in N. rewrite nth_error_map in N. destruct (nth_error regions j) as [[polygon w]|] eqn:E; [|discriminate].
    cbn in N. injection N as <-. cbn [fst snd] in *. exists j, polygon, w. split; [exact E|]. split; [now rewrite <- relative_inside|]. split.
    + intros j' polygon' w' J N'. rewrite <- relative_inside. apply (M j' (relative g polygon', w') J). unfold made. rewrite nth_error_map, N'. reflexivity.
    + rewrite V, ST, PL. reflexivity.
  - right. split; [|now rewrite V]. intros polygon w I. rewrite <- relative_inside. apply (M (relative g polygon, w)).
    unfold made. apply in_map_iff. exists (polygon, w). auto.
Qed.

(** Every point gets the value of the last polygon that contains it, or the
    default, if the default is a number or makes an array of floats. *)
Theorem C105_values_partial g d regions points : regions <> [] -> points <> [] ->
  match d with Plain _ | Floats _ => True | _ => False end ->
  exists made r, make g regions = Some made /\ call d made points = Some r /\ length r = length points /\
    forall k, (k < length points)%nat ->
      let p := nth k points (0, 0) in
      let inside polygon := point_inside polygon true (px p + xllcorner g, py p + yllcorner g) in
      (exists j polygon w, nth_error regions j = Some (polygon, w) /\ inside polygon = true /\
         (forall j' polygon' w', (j < j')%nat -> nth_error regions j' = Some (polygon', w') -> inside polygon' = false) /\
         nth k r 0 = match w with Number c => c | Callable f => f p end) \/
      ((forall polygon w, In (polygon, w) regions -> inside polygon = false) /\ nth k r 0 = match d with Floats f => f p | Plain c => c | _ => 0 end).
Proof.
  intros NR NP D. destruct (call_spec g d regions points NR NP) as (made & r & A & B & C & E); [left; destruct d; easy|].
  exists made, r. repeat (split; [assumption|]). intros k K p inside. specialize (E k K). destruct d; try contradiction; exact E.
Qed.
Print Assumptions C105_values_partial.

(** A default function that returns one of its arguments does no harm if all
    regions have constants. *)
Theorem C105_constants_partial g d regions points : regions <> [] -> points <> [] -> all_numbers regions ->
  exists made r, make g regions = Some made /\ call d made points = Some r /\ length r = length points /\
    forall k, (k < length points)%nat -> expected g d regions (nth k points (0, 0)) (nth k r 0).
Proof. intros NR NP D. apply call_spec; auto. Qed.
Print Assumptions C105_constants_partial.

Definition unit_square : list point := [(0, 0); (4, 0); (4, 4); (0, 4)].
Lemma square_inside x y : 0 < x < 4 -> 0 < y < 4 -> point_inside unit_square true (x, y) = true.
Proof.
  intros X Y. rewrite C19_decision.
  - unfold unit_square. rewrite edges_combine. cbn [app combine existsb filter fst snd px py].
    rewrite !not_on_line by nra. cbn [orb]. unfold crosses_left. cbn [px py fst snd].
    replace (4 + (y - 0) / (4 - 0) * (4 - 4)) with 4 by lra.
    replace (0 + (y - 4) / (0 - 4) * (0 - 0)) with 0 by lra. rdecide. reflexivity.
  - exists (0, 0). split; [cbn; auto 10|cbn; lra].
  - exists (4, 0). split; [cbn; auto 10|cbn; lra].
  - exists (0, 0). split; [cbn; auto 10|cbn; lra].
  - exists (0, 4). split; [cbn; auto 10|cbn; lra].
Qed.
Lemma one_inside x y : 0 < x < 4 -> 0 < y < 4 -> inside_polygon [(x, y)] unit_square true = [0%nat].
Proof. intros X Y. unfold inside_polygon, separate_points_by_polygon. cbn [map]. rewrite square_inside by assumption. reflexivity. Qed.

(** Refuted: the default is x itself, a first region sets 3, and a second one
    adds one to x: the point (1, 1) gets 4 instead of 2. *)
Theorem C105_alias_refuted : exists regions points r, call First regions points = Some r /\
  regions = [(unit_square, Number 3); (unit_square, Callable (fun p => px p + 1))] /\ points = [(1, 1)] /\ r = [4] /\
  ~ expected (Geo 0 default_zone Undefined 0 0) First regions (1, 1) (nth 0 r 0).
Proof.
  exists [(unit_square, Number 3); (unit_square, Callable (fun p => px p + 1))], [(1, 1)], [4].
  split; [|split; [reflexivity|split; [reflexivity|split; [reflexivity|]]]].
  { unfold call. cbn [begin fold_left length seq map]. unfold set_region. cbn [fst snd]. rewrite !one_inside by lra. cbn. unfold upd. cbn. do 2 f_equal. lra. }
  cbn [nth].
  intros [(j & polygon & w & N & I & M & V)|(M & _)].
  - destruct j as [|[|j]]; cbn in N.
    + specialize (M 1%nat _ _ ltac:(lia) eq_refl). cbn [px py fst snd xllcorner yllcorner] in M. rewrite square_inside in M by lra. discriminate.
    + injection N as <- <-. cbn in V. lra.
    + destruct j; discriminate N.
  - specialize (M _ _ (or_introl eq_refl)). cbn [px py fst snd xllcorner yllcorner] in M. rewrite square_inside in M by lra. discriminate.
Qed.
Print Assumptions C105_alias_refuted.

(** Refuted: a default function that makes an array of integers, such as
    zeros, lets the friction 3/100 of a region become 0. *)
Theorem C105_integers_refuted : call (Integers (fun _ => 0%Z)) [(unit_square, Number (3 / 100))] [(1, 1)] = Some [0].
Proof.
  unfold call. cbn [begin fold_left length seq map]. unfold set_region. cbn [fst snd]. rewrite one_inside by lra. cbn. unfold upd. cbn. do 2 f_equal.
  assert (T : trunc (3 / 100) = 0%Z); [|now rewrite T].
  pose proof (trunc_nonneg (3 / 100) ltac:(lra)) as (A & B). pose proof (trunc_nonneg_pos (3 / 100) ltac:(lra)) as C.
  assert (D : (trunc (3 / 100) < 1)%Z) by (apply lt_IZR; lra). lia.
Qed.
Print Assumptions C105_integers_refuted.

(** Refuted: no points are an error, as are no regions. *)
Theorem C105_empty_refuted g d regions : call d regions [] = None /\ make g [] = None.
Proof. split; [|reflexivity]. unfold call. now destruct (begin d []). Qed.
Print Assumptions C105_empty_refuted.

(** Overlapping squares, the last one has a function. *)
Example C105_case : call (Plain 5) [(unit_square, Number 3); (unit_square, Callable (fun p => px p + 1))] [(1, 1); (9, 9)] = Some [2; 5].
Proof.
  assert (I : inside_polygon [(1, 1); (9, 9)] unit_square true = [0%nat]).
  { unfold inside_polygon, separate_points_by_polygon. cbn [map]. rewrite square_inside by lra.
    assert (E : point_inside unit_square true (9, 9) = false); [|now rewrite E].
    unfold point_inside, box, unit_square. cbn [nth fold_left px py fst snd]. rdecide. reflexivity. }
  unfold call. cbn [begin fold_left length seq map]. unfold set_region. cbn [fst snd]. rewrite !I. cbn. unfold upd. cbn. repeat f_equal; lra.
Qed.
