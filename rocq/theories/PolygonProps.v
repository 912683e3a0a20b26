(** Properties C19, C20, C21 and C22: points, triangles, polygons and
    segments in the plane. *)
From Coq Require Import Reals List Arith Bool Permutation Sorted Lia Lra Psatz.
From Verif Require Import RealLib ArrayLib PolygonModel PolygonProofs.
From Verif Require InvertedProofs.
Import ListNotations.

(** * C19 *)

(** Every index once: the points inside first, in increasing order, the
    others at the end in decreasing order. *)
Theorem C19_partition :
  forall points polygon closed,
  let '(count, indices) := separate_points_by_polygon points polygon closed in
  let inside k := point_inside polygon closed (nth k points (0, 0)%R) in
  let ins := filter inside (seq 0 (length points)) in
  let outs := filter (fun k => negb (inside k)) (seq 0 (length points)) in
  count = length ins /\ indices = ins ++ rev outs /\
  Permutation indices (seq 0 (length points)) /\
  inside_polygon points polygon closed = ins /\ outside_polygon points polygon closed = outs.
Proof.
  intros points polygon closed. unfold inside_polygon, outside_polygon, separate_points_by_polygon.
  rewrite separate_flags_spec. cbv zeta. set (flags := map (point_inside polygon closed) points).
  set (inside k := point_inside polygon closed (nth k points (0, 0)%R)).
  assert (Hl : length flags = length points) by apply map_length.
  assert (Hn : forall k, In k (seq 0 (length points)) -> nth k flags false = inside k).
  { intros k Hk. apply in_seq in Hk. unfold flags.
    rewrite (nth_indep _ false (point_inside polygon closed (0, 0)%R)) by (rewrite map_length; lia). apply map_nth. }
  assert (E1 : trues flags = filter inside (seq 0 (length points))).
  { unfold trues. rewrite Hl. apply filter_ext_in, Hn. }
  assert (E2 : falses flags = filter (fun k => negb (inside k)) (seq 0 (length points))).
  { unfold falses. rewrite Hl. apply filter_ext_in. intros k Hk. f_equal. apply Hn, Hk. }
  rewrite E1, E2. set (ins := filter inside _). set (outs := filter _ _).
  split; [reflexivity|]. split; [reflexivity|]. split; [|split].
  - apply Permutation_trans with (ins ++ outs).
    + apply Permutation_app_head, Permutation_sym, Permutation_rev.
    + unfold ins, outs. generalize (seq 0 (length points)). intros l. induction l as [|k l IH]; [reflexivity|].
      cbn [filter]. destruct (inside k); cbn [negb app].
      * constructor. exact IH.
      * apply Permutation_sym, Permutation_cons_app, Permutation_sym, IH.
  - rewrite firstn_app, firstn_all, Nat.sub_diag. cbn [firstn]. apply app_nil_r.
  - rewrite skipn_app, skipn_all, Nat.sub_diag. cbn [skipn app]. rewrite rev_involutive, app_length, rev_length.
    destruct (Nat.eqb_spec (length ins) (length ins + length outs)) as [E|]; auto.
    destruct outs; [reflexivity|cbn in E; lia].
Qed.
Print Assumptions C19_partition.

(** The decision for one point inside the bounding box: on an edge, the
    closed flag; otherwise whether an odd number of edges is crossed to its
    left. *)
Theorem C19_decision :
  forall polygon closed x y,
  (exists p, In p polygon /\ (px p <= x)%R) -> (exists p, In p polygon /\ (x <= px p)%R) ->
  (exists p, In p polygon /\ (py p <= y)%R) -> (exists p, In p polygon /\ (y <= py p)%R) ->
  point_inside polygon closed (x, y) =
  if existsb (fun e => point_on_line x y (px (fst e)) (py (fst e)) (px (snd e)) (py (snd e)) 0 0) (edges_of polygon)
  then closed
  else Nat.odd (length (filter (fun e => crosses_left x y (fst e) (snd e)) (edges_of polygon))).
Proof.
  intros polygon closed x y (p1 & I1 & H1) (p2 & I2 & H2) (p3 & I3 & H3) (p4 & I4 & H4).
  unfold point_inside. pose proof (box_spec polygon) as B. destruct (box polygon) as [[[a b] c] d].
  apply B in I1, I2, I3, I4.
  assert (E : Rltb b x || Rltb x a || Rltb d y || Rltb y c = false) by (rdestruct; auto; lra).
  rewrite E, check_edges_spec. cbn [xorb]. fold (crossings (edges_of polygon) x y). unfold on_edge.
  destruct (existsb _ _); [reflexivity|]. now destruct (Nat.odd _).
Qed.
Print Assumptions C19_decision.

(** Outside the bounding box the answer is "outside", and the edge loop would
    have given the same answer unless the tolerances of [point_on_line] let
    it accept the point. *)
Theorem C19_bounding_box :
  forall polygon closed x y,
  (forall p, In p polygon -> (px p < x)%R) \/ (forall p, In p polygon -> (x < px p)%R) \/
  (forall p, In p polygon -> (py p < y)%R) \/ (forall p, In p polygon -> (y < py p)%R) ->
  polygon <> [] ->
  point_inside polygon closed (x, y) = false /\
  (existsb (fun e => point_on_line x y (px (fst e)) (py (fst e)) (px (snd e)) (py (snd e)) 0 0) (edges_of polygon) = false ->
   check_edges (edges_of polygon) x y closed false = false).
Proof.
  intros polygon closed x y H Hne.
  pose proof (outside_box_even polygon x y) as O. pose proof (box_attained polygon Hne) as T.
  unfold point_inside. destruct (box polygon) as [[[a b] c] d].
  destruct T as ((p1 & I1 & T1) & (p2 & I2 & T2) & (p3 & I3 & T3) & (p4 & I4 & T4)).
  assert (H' : (b < x \/ x < a \/ d < y \/ y < c)%R).
  { destruct H as [H|[H|[H|H]]]; [left|right; left|right; right; left|right; right; right]; subst; auto. }
  specialize (O H'). split.
  - assert (E : Rltb b x || Rltb x a || Rltb d y || Rltb y c = true) by (rdestruct; auto; lra). now rewrite E.
  - intros E. rewrite check_edges_spec. unfold on_edge. rewrite E, O. reflexivity.
Qed.
Print Assumptions C19_bounding_box.

(** The decision does not depend on the vertex the polygon starts with. *)
Theorem C19_start_vertex :
  forall p0 rest closed p, point_inside (p0 :: rest) closed p = point_inside (rest ++ [p0]) closed p.
Proof.
  intros p0 rest closed (x, y). unfold point_inside.
  assert (Pm : Permutation (edges_of (p0 :: rest)) (edges_of (rest ++ [p0]))).
  { rewrite edges_combine. destruct rest as [|p1 rest]; [reflexivity|].
    assert (E : edges_of ((p1 :: rest) ++ [p0]) = combine (p1 :: rest) (rest ++ [p0]) ++ [(p0, p1)]).
    { transitivity (combine ((p1 :: rest) ++ [p0]) ((rest ++ [p0]) ++ [p1])); [exact (edges_combine p1 (rest ++ [p0]))|].
      apply combine_app_last. rewrite app_length. cbn [length]. lia. }
    rewrite E. change (combine (p0 :: p1 :: rest) ((p1 :: rest) ++ [p0])) with ((p0, p1) :: combine (p1 :: rest) (rest ++ [p0])).
    apply Permutation_cons_append. }
  assert (Hb : box (p0 :: rest) = box (rest ++ [p0])) by (apply box_perm; [discriminate|apply Permutation_cons_append]).
  rewrite <- Hb.
  destruct (box (p0 :: rest)) as [[[a b] c] d]. destruct (Rltb b x || Rltb x a || Rltb d y || Rltb y c); [reflexivity|].
  rewrite !check_edges_spec.
  assert (E1 : existsb (on_edge x y) (edges_of (p0 :: rest)) = existsb (on_edge x y) (edges_of (rest ++ [p0]))).
  { apply eq_true_iff_eq. rewrite !existsb_exists. split; intros (e & I & E); exists e; (split; [|exact E]);
      [exact (Permutation_in _ Pm I)|exact (Permutation_in _ (Permutation_sym Pm) I)]. }
  rewrite E1. unfold crossings. rewrite (Permutation_length (InvertedProofs.filter_perm _ _ _ Pm)). reflexivity.
Qed.
Print Assumptions C19_start_vertex.

Lemma not_on_line x y x0 y0 x1 y1 : ((y - y0) * (x1 - x0) <> (x - x0) * (y1 - y0))%R -> point_on_line x y x0 y0 x1 y1 0 0 = false.
Proof.
  intros H. destruct (point_on_line x y x0 y0 x1 y1 0 0) eqn:E; auto. exfalso. apply H. exact (proj1 (point_on_line_sound _ _ _ _ _ _ E)).
Qed.

(** The shortcut does change an answer within the tolerances: half of 1e-15
    beyond a corner, the edge loop accepts the point. *)
Definition unit_square : list point := [(0, 0); (1, 0); (1, 1); (0, 1)]%R.
Theorem C19_bounding_box_refuted :
  let x := (1 + tiny_len / 2)%R in
  check_edges (edges_of unit_square) x 0 true false = true /\ point_inside unit_square true (x, 0%R) = false.
Proof.
  cbv zeta. assert (P2 : (0 < tiny_len)%R) by (apply Rinv_0_lt_compat, pow_lt; lra).
  assert (P1 : (0 < tiny_dot)%R) by (apply Rinv_0_lt_compat, pow_lt; lra). split.
  - unfold unit_square. rewrite edges_combine. cbn [app combine check_edges px py fst snd].
    assert (E : point_on_line (1 + tiny_len / 2) 0 0 0 1 0 0 0 = true); [|rewrite E; reflexivity].
    unfold point_on_line.
    replace ((0 - 0) * (1 - 0) + - (1 + tiny_len / 2 - 0) * (0 - 0))%R with 0%R by ring. rewrite Rabs_R0.
    replace (dist (1 + tiny_len / 2 - 0) (0 - 0)) with (1 + tiny_len / 2)%R.
    2: { unfold dist. replace ((1 + tiny_len / 2 - 0) * (1 + tiny_len / 2 - 0) + (0 - 0) * (0 - 0))%R with ((1 + tiny_len / 2) * (1 + tiny_len / 2))%R by ring.
         symmetry. apply sqrt_square. lra. }
    replace (dist (1 - 0) (0 - 0)) with 1%R.
    2: { unfold dist. replace ((1 - 0) * (1 - 0) + (0 - 0) * (0 - 0))%R with (1 * 1)%R by ring. symmetry. apply sqrt_square. lra. }
    generalize dependent tiny_dot. generalize dependent tiny_len. intros tl P2 td P1. rdecide. reflexivity.
  - apply C19_bounding_box; [|discriminate]. left. unfold unit_square. intros p [<-|[<-|[<-|[<-|[]]]]]; cbn [px fst]; lra.
Qed.
Print Assumptions C19_bounding_box_refuted.

(** Non-vacuity: the unit square and three points. *)
Example C19_example : separate_points_by_polygon [(1/2, 1/2); (3, 0); (1/4, 1/2)]%R unit_square true = (2, [0; 2; 1]).
Proof.
  assert (In_sq : forall x, (0 < x < 1)%R -> point_inside unit_square true (x, (1/2)%R) = true).
  { intros x Hx. rewrite C19_decision.
    - unfold unit_square. rewrite edges_combine. cbn [app combine existsb filter fst snd px py].
      rewrite !not_on_line by lra. cbn [orb].
      unfold crosses_left. cbn [px py fst snd].
      replace (1 + (1 / 2 - 0) / (1 - 0) * (1 - 1))%R with 1%R by lra.
      replace (0 + (1 / 2 - 1) / (0 - 1) * (0 - 0))%R with 0%R by lra. rdecide. reflexivity.
    - exists (0, 0)%R. split; [cbn; auto 10|cbn; lra].
    - exists (1, 0)%R. split; [cbn; auto 10|cbn; lra].
    - exists (0, 0)%R. split; [cbn; auto 10|cbn; lra].
    - exists (1, 1)%R. split; [cbn; auto 10|cbn; lra]. }
  unfold separate_points_by_polygon. cbn [map]. rewrite !In_sq by lra.
  rewrite (proj1 (C19_bounding_box unit_square true 3 0 ltac:(left; unfold unit_square; intros p [<-|[<-|[<-|[<-|[]]]]]; cbn [px fst]; lra) ltac:(discriminate))).
  reflexivity.
Qed.

(** * C20 *)

(** [closed=False]: exactly the strict convex combinations of the vertices of
    a triangle that is not degenerate. *)
Theorem C20_open :
  forall p t rtol atol,
  is_inside_triangle p t false rtol atol = true <-> tri_cross t <> 0%R /\ convex_combination true p t.
Proof. exact (inside_open_with point_on_line). Qed.
Print Assumptions C20_open.

(** [closed=True]: every point of the closed triangle is accepted, and an
    accepted point is inside or accepted as a point of an edge. *)
Theorem C20_closed :
  forall p t rtol atol, (0 <= rtol)%R -> (0 <= atol)%R ->
  (tri_cross t <> 0%R -> convex_combination false p t -> is_inside_triangle p t true rtol atol = true) /\
  (is_inside_triangle p t true rtol atol = true ->
   (tri_cross t <> 0%R /\ convex_combination true p t) \/
   exists e, In e (tri_edges t) /\ point_on_line (px p) (py p) (px (fst e)) (py (fst e)) (px (snd e)) (py (snd e)) rtol atol = true).
Proof.
  intros p t rtol atol Hr Ha. split.
  - apply inside_closed_with; auto. intros. eapply point_on_line_exact; eauto.
  - apply inside_closed_sound.
Qed.
Print Assumptions C20_closed.

Example C20_example : let t := ((0, 0), (1, 0), (0, 1))%R : triangle in
  tri_cross t <> 0%R /\ is_inside_triangle (1/4, 1/4)%R t false 0 0 = true /\ is_inside_triangle (1, 1)%R t false 0 0 = false.
Proof.
  cbv zeta. assert (H : tri_cross ((0, 0), (1, 0), (0, 1))%R <> 0%R) by (cbn; lra). split; [exact H|]. split.
  - apply C20_open. split; [exact H|]. exists (1/2)%R, (1/4)%R, (1/4)%R. cbn. lra.
  - destruct (is_inside_triangle _ _ _ _ _) eqn:E; auto. apply C20_open in E as (_ & l & m & n & E). cbn in E. lra.
Qed.
