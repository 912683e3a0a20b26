(** Lemmas about regions. *)
From Coq Require Import Reals List Arith Bool Lia Lra Sorted.
From Verif Require Import RealLib PolygonModel PolygonProofs PolygonProps InsideTriangleProps LineIntersectProps RegionModel.
Import ListNotations.
Open Scope R_scope.

Lemma insert_in k x : forall l, In x (insert k l) <-> x = k \/ In x l.
Proof.
  induction l as [|y l IH]; cbn [insert]; [cbn; intuition|].
  destruct (Nat.ltb_spec k y); [cbn; intuition|]. destruct (Nat.eqb_spec k y) as [->|]; [cbn; intuition|].
  cbn [In]. rewrite IH. intuition.
Qed.

Lemma insert_sorted k : forall l, StronglySorted lt l -> StronglySorted lt (insert k l).
Proof.
  induction l as [|y l IH]; intros H; cbn [insert]; [repeat constructor|].
  inversion H as [|? ? Hs Hf]; subst. destruct (Nat.ltb_spec k y).
  - constructor; [exact H|]. constructor; [auto|]. rewrite Forall_forall in *. intros z Hz. specialize (Hf z Hz). lia.
  - destruct (Nat.eqb_spec k y); [exact H|]. constructor; [auto|]. rewrite Forall_forall in *. intros z Hz.
    apply insert_in in Hz as [->|Hz]; [lia|auto].
Qed.

Lemma union_in a b x : In x (union1d a b) <-> In x a \/ In x b.
Proof.
  unfold union1d. rewrite <- in_app_iff. induction (a ++ b) as [|y l IH]; [cbn; tauto|].
  cbn [fold_right]. rewrite insert_in, IH. cbn. intuition.
Qed.

Lemma union_sorted a b : StronglySorted lt (union1d a b).
Proof. unfold union1d. induction (a ++ b); cbn [fold_right]; [constructor|]. apply insert_sorted; assumption. Qed.

Lemma seq_sorted : forall n s, StronglySorted lt (seq s n).
Proof. induction n; intros s; cbn; constructor; [auto|]. apply Forall_forall. intros x Hx. apply in_seq in Hx. lia. Qed.

Lemma filter_sorted f : forall l, StronglySorted lt l -> StronglySorted lt (filter f l).
Proof.
  induction l as [|x l IH]; intros H; cbn; [constructor|]. inversion H as [|? ? Hs Hf]; subst.
  destruct (f x); [|auto]. constructor; [auto|]. rewrite Forall_forall in *. intros y Hy. apply filter_In in Hy as (Hy & _). auto.
Qed.

Lemma nth_flag {A : Type} (f : A -> bool) l k d : (k < length l)%nat -> nth k (map f l) false = f (nth k l d).
Proof. intros H. rewrite (nth_indep _ false (f d)) by (rewrite map_length; lia). apply map_nth. Qed.

Lemma circle_in d c r k : In k (circle_indices d c r) <-> (k < length (centroids d))%nat /\ in_circle c r (nth k (centroids d) (0, 0)) = true.
Proof.
  unfold circle_indices. rewrite filter_In, in_seq. split; intros (H & K); (split; [lia|]).
  - rewrite <- K. symmetry. apply nth_flag. lia.
  - rewrite <- K. apply nth_flag. lia.
Qed.

Lemma inside_in points polygon k : In k (inside_polygon points polygon true) <-> (k < length points)%nat /\ point_inside polygon true (nth k points (0, 0)) = true.
Proof.
  pose proof (C19_partition points polygon true) as P. destruct (separate_points_by_polygon points polygon true) as [count ind].
  cbv zeta in P. destruct P as (_ & _ & _ & P & _). rewrite P, filter_In, in_seq. split; intros (H & K); (split; [lia|auto]).
Qed.

Lemma inside_sorted points polygon : StronglySorted lt (inside_polygon points polygon true).
Proof.
  pose proof (C19_partition points polygon true) as P. destruct (separate_points_by_polygon points polygon true) as [count ind].
  cbv zeta in P. destruct P as (_ & _ & _ & P & _). rewrite P. apply filter_sorted, seq_sorted.
Qed.

Definition no_triangle : triangle := ((0, 0), (0, 0), (0, 0)).

Lemma line_list ts p0 p1 : line_intersect ts p0 p1 = filter (fun k => nth k (map (triangle_line_intersect p0 p1) ts) false) (seq 0 (length ts)).
Proof.
  unfold line_intersect. rewrite separate_flags_spec, firstn_app, Nat.sub_diag, firstn_O, app_nil_r, firstn_all.
  unfold trues. rewrite map_length. reflexivity.
Qed.

Lemma line_in ts p0 p1 k : In k (line_intersect ts p0 p1) <-> (k < length ts)%nat /\ triangle_line_intersect p0 p1 (nth k ts no_triangle) = true.
Proof.
  rewrite line_list, filter_In, in_seq. split; intros (H & K); (split; [lia|]).
  - rewrite <- K. symmetry. apply nth_flag. lia.
  - rewrite <- K. apply nth_flag. lia.
Qed.

Lemma edges_nth polygon e : In e (edges_of polygon) <->
  exists j, (j < length polygon)%nat /\ e = (nth j polygon (0, 0), nth ((j + 1) mod length polygon) polygon (0, 0)).
Proof.
  unfold edges_of. rewrite in_map_iff. split.
  - intros (j & <- & H). apply in_seq in H. exists j. split; [lia|]. rewrite Nat.add_1_r. reflexivity.
  - intros (j & H & ->). exists j. split; [rewrite Nat.add_1_r; reflexivity|]. apply in_seq. lia.
Qed.

Lemma polygon_in d polygon expand k : length (centroids d) = length (triangles d) ->
  (In k (polygon_indices d polygon expand) <->
   (k < length (triangles d))%nat /\ (point_inside polygon true (nth k (centroids d) (0, 0)) = true \/
     expand = true /\ exists e, In e (edges_of polygon) /\ triangle_line_intersect (fst e) (snd e) (nth k (triangles d) no_triangle) = true)).
Proof.
  intros L. unfold polygon_indices. destruct expand.
  2:{ rewrite inside_in, L. split; [intros (H & K); auto|]. intros (H & [K|(K & _)]); [auto|discriminate]. }
  assert (G : forall js l, In k (fold_left (fun l j => union1d (line_intersect (triangles d) (nth j polygon (0, 0)) (nth ((j + 1) mod length polygon) polygon (0, 0))) l) js l) <->
    In k l \/ exists j, In j js /\ In k (line_intersect (triangles d) (nth j polygon (0, 0)) (nth ((j + 1) mod length polygon) polygon (0, 0)))).
  { induction js as [|j js IH]; intros l; cbn [fold_left].
    - split; [auto|]. intros [?|(? & [] & _)]; auto.
    - rewrite IH, union_in. split.
      + intros [[K|K]|(i & Hi & K)]; [right; exists j; split; [left; reflexivity|exact K]|auto|right; exists i; split; [right; exact Hi|exact K]].
      + intros [K|(i & [<-|Hi] & K)]; [auto|auto|right; exists i; auto]. }
  rewrite G, inside_in, L. split.
  - intros [(H & K)|(j & Hj & K)]; [auto|]. apply line_in in K as (H & K). split; [exact H|]. right. split; [reflexivity|].
    exists (nth j polygon (0, 0), nth ((j + 1) mod length polygon) polygon (0, 0)). split; [|exact K].
    apply edges_nth. apply in_seq in Hj. exists j. split; [lia|reflexivity].
  - intros (H & [K|(_ & e & He & K)]); [auto|]. right. apply edges_nth in He as (j & Hj & ->). exists j. split; [apply in_seq; lia|].
    apply line_in. auto.
Qed.

Lemma polygon_sorted d polygon expand : StronglySorted lt (polygon_indices d polygon expand).
Proof.
  unfold polygon_indices. destruct expand; [|apply inside_sorted].
  assert (G : forall js l, StronglySorted lt l -> StronglySorted lt (fold_left (fun l j => union1d (line_intersect (triangles d) (nth j polygon (0, 0)) (nth ((j + 1) mod length polygon) polygon (0, 0))) l) js l)).
  { induction js as [|j js IH]; intros l H; cbn [fold_left]; [auto|]. apply IH, union_sorted. }
  apply G, inside_sorted.
Qed.

(** Which triangles the arguments choose, by the centroid and the corners alone. *)
Definition chosen (a : arguments) (c : point) (t : triangle) : bool :=
  let by_polygon polygon := point_inside polygon true c || expand_polygon a && existsb (fun e => triangle_line_intersect (fst e) (snd e) t) (edges_of polygon) in
  let by_line line := match line with p0 :: p1 :: _ => triangle_line_intersect p0 p1 t | _ => false end in
  match arg_center a, arg_radius a with
  | Some m, Some r => in_circle m r c
  | _, _ =>
      match arg_polygon a with
      | Some polygon => by_polygon polygon
      | None =>
          match arg_line a with
          | Some line => by_line line
          | None =>
              match arg_poly a with
              | Some poly => if (2 <? length poly)%nat then by_polygon poly else by_line poly
              | None => true
              end
          end
      end
  end.

(** The triangles of a region. *)
Definition members (d : domain) (r : region) : list nat :=
  match indices r with Some l => l | None => seq 0 (length (triangles d)) end.

Lemma finish_members d k l r : finish d k l = inr r -> kind_of r = k /\ indices r = l /\ full_indices r = filter (is_full d) (members d r).
Proof.
  unfold finish. destruct l as [l|].
  - destruct (forallb _ l); [|discriminate]. intros E; injection E as <-. auto.
  - intros E; injection E as <-. auto.
Qed.

Lemma finish_total d k l : (forall i, In i l -> (i < length (triangles d))%nat) -> exists r, finish d k (Some l) = inr r /\ indices r = Some l.
Proof.
  intros H. unfold finish. rewrite (proj2 (forallb_forall _ l)); [eexists; split; reflexivity|].
  intros i Hi. apply Nat.ltb_lt. auto.
Qed.

(** A description by geometry never depends on anything but the triangles. *)
Lemma members_chosen d a r : length (centroids d) = length (triangles d) -> arg_indices a = None -> make_region d a = inr r ->
  StronglySorted lt (members d r) /\
  forall k, In k (members d r) <-> (k < length (triangles d))%nat /\ chosen a (nth k (centroids d) (0, 0)) (nth k (triangles d) no_triangle) = true.
Proof.
  intros L N. unfold make_region, chosen. rewrite N.
  assert (Poly : forall polygon, finish_with d Polygon (setup_polygon d polygon (expand_polygon a)) = inr r ->
    StronglySorted lt (members d r) /\ forall k, In k (members d r) <-> (k < length (triangles d))%nat /\
      point_inside polygon true (nth k (centroids d) (0, 0)) || expand_polygon a && existsb (fun e => triangle_line_intersect (fst e) (snd e) (nth k (triangles d) no_triangle)) (edges_of polygon) = true).
  { intros polygon. unfold finish_with, setup_polygon. destruct polygon as [|p0 ps]; [discriminate|]. intros E.
    apply finish_members in E as (_ & E & _). unfold members. rewrite E. split; [apply polygon_sorted|]. intros k.
    rewrite (polygon_in d _ _ k L). rewrite orb_true_iff, andb_true_iff, existsb_exists. reflexivity. }
  assert (Ln : forall line, finish_with d Line (setup_line d line) = inr r ->
    StronglySorted lt (members d r) /\ forall k, In k (members d r) <-> (k < length (triangles d))%nat /\
      match line with p0 :: p1 :: _ => triangle_line_intersect p0 p1 (nth k (triangles d) no_triangle) | _ => false end = true).
  { intros line. unfold finish_with, setup_line. destruct line as [|p0 [|p1 line]]; try discriminate.
    match goal with |- context [if ?b then inl NothingFound else _] => destruct b; [discriminate|] end. intros E.
    apply finish_members in E as (_ & E & _). unfold members. rewrite E. split; [rewrite line_list; apply filter_sorted, seq_sorted|].
    intros k. apply line_in. }
  assert (Full : finish d FullRegion None = inr r -> StronglySorted lt (members d r) /\ forall k, In k (members d r) <-> (k < length (triangles d))%nat /\ true = true).
  { intros E. apply finish_members in E as (_ & E & _). unfold members. rewrite E. split; [apply seq_sorted|]. intros k. rewrite in_seq. intuition lia. }
  destruct (arg_center a) as [m|] eqn:Ec, (arg_radius a) as [rd|] eqn:Er; cbn [given orb].
  - destruct (given (arg_polygon a) || given (arg_line a)); [discriminate|]. unfold finish_with, setup_circle.
    match goal with |- context [if ?b then inl NothingFound else _] => destruct b; [discriminate|] end. intros E.
    apply finish_members in E as (_ & E & _). unfold members. rewrite E. split; [apply filter_sorted, seq_sorted|].
    intros k. rewrite <- L. apply circle_in.
  - destruct (arg_polygon a); [discriminate|]. destruct (arg_line a); [discriminate|]. destruct (arg_poly a); [discriminate|exact Full].
  - destruct (arg_polygon a); [discriminate|]. destruct (arg_line a); [discriminate|]. destruct (arg_poly a); [discriminate|exact Full].
  - destruct (arg_polygon a) as [polygon|]; [destruct (arg_line a); [discriminate|apply Poly]|].
    destruct (arg_line a) as [line|]; [apply Ln|]. destruct (arg_poly a) as [poly|]; [|exact Full].
    destruct (2 <? length poly)%nat; [apply Poly|apply Ln].
Qed.

(** ** Polygons that are triangles *)

Lemma first_exit (l0 m0 n0 l1 m1 n1 : R) : 0 <= l0 -> 0 <= m0 -> 0 <= n0 -> ~ (0 < l1 /\ 0 < m1 /\ 0 < n1) ->
  exists s, 0 <= s <= 1 /\ 0 <= l0 + s * (l1 - l0) /\ 0 <= m0 + s * (m1 - m0) /\ 0 <= n0 + s * (n1 - n0) /\
    (l0 + s * (l1 - l0) = 0 \/ m0 + s * (m1 - m0) = 0 \/ n0 + s * (n1 - n0) = 0).
Proof.
  intros Hl Hm Hn Out.
  assert (One : forall a0 a1, 0 <= a0 -> exists s, 0 <= s <= 1 /\ (forall s', 0 <= s' <= s -> 0 <= a0 + s' * (a1 - a0)) /\ ((s = 1 /\ 0 < a1) \/ a0 + s * (a1 - a0) = 0)).
  { intros a0 a1 H0. destruct (Rlt_le_dec 0 a1) as [H1|H1].
    - exists 1. split; [lra|]. split; [|left; split; [reflexivity|exact H1]]. intros s' Hs. replace (a0 + s' * (a1 - a0)) with ((1 - s') * a0 + s' * a1) by ring.
      assert (0 <= (1 - s') * a0) by (apply Rmult_le_pos; lra). assert (0 <= s' * a1) by (apply Rmult_le_pos; lra). lra.
    - destruct (Req_dec a0 a1) as [E|E].
      + exists 0. split; [lra|]. split; [intros s' Hs; rewrite E; lra|right; lra].
      + assert (D : 0 < a0 - a1) by lra. exists (a0 / (a0 - a1)).
        assert (Hs : a0 / (a0 - a1) * (a0 - a1) = a0) by (field; lra).
        split; [split; [apply Rmult_le_pos; [lra|left; apply Rinv_0_lt_compat; lra]|apply (Rmult_le_reg_r (a0 - a1)); [lra|]; rewrite Hs; lra]|].
        split; [|right; lra]. intros s' Hs'. assert (s' * (a0 - a1) <= a0 / (a0 - a1) * (a0 - a1)) by (apply Rmult_le_compat_r; lra). lra. }
  destruct (One l0 l1 Hl) as (sl & Bl & Pl & Ql), (One m0 m1 Hm) as (sm & Bm & Pm & Qm), (One n0 n1 Hn) as (sn & Bn & Pn & Qn).
  assert (M : exists s, s <= sl /\ s <= sm /\ s <= sn /\ (s = sl \/ s = sm \/ s = sn)).
  { destruct (Rle_dec sl sm) as [A|A].
    - destruct (Rle_dec sl sn); [exists sl|exists sn]; lra.
    - destruct (Rle_dec sm sn); [exists sm|exists sn]; lra. }
  destruct M as (s & M1 & M2 & M3 & M). exists s.
  assert (0 <= s) by (destruct M as [K|[K|K]]; lra).
  split; [lra|]. split; [apply Pl; lra|]. split; [apply Pm; lra|]. split; [apply Pn; lra|].
  destruct (Req_dec s 1) as [E|E].
  - assert (sl = 1 /\ sm = 1 /\ sn = 1) as (-> & -> & ->) by lra. rewrite E.
    destruct Ql as [(_ & Ql)|Ql]; [|auto]. destruct Qm as [(_ & Qm)|Qm]; [|auto]. destruct Qn as [(_ & Qn)|Qn]; [|auto]. tauto.
  - destruct M as [K|[K|K]]; rewrite <- K in *.
    + destruct Ql as [(? & _)|Ql]; [lra|auto].
    + destruct Qm as [(? & _)|Qm]; [lra|auto].
    + destruct Qn as [(? & _)|Qn]; [lra|auto].
Qed.

Lemma open_closed polygon p : point_inside polygon false p = true -> point_inside polygon true p = true.
Proof.
  unfold point_inside. destruct (box polygon) as [[[a b] c] e], p as [x y]. destruct (_ || _); [auto|].
  assert (G : forall es ins, check_edges es x y false ins = true -> check_edges es x y true ins = true); [|apply G].
  induction es as [|[pi pj] es IH]; intros ins; cbn [check_edges]; [auto|].
  destruct (point_on_line _ _ _ _ _ _ _ _); [discriminate|apply IH].
Qed.

(** A triangle that has a point in common with a triangular polygon is met by
    an edge of the polygon or has each of its points inside it. *)
Lemma meets_or_inside a b c t q z : tri_cross (a, b, c) <> 0 -> convex_combination false q (a, b, c) -> convex_combination false q t ->
  convex_combination false z t -> point_inside [a; b; c] true z = true \/
  exists p0 p1 s, In (p0, p1) (edges_of [a; b; c]) /\ 0 <= s <= 1 /\ convex_combination false (along p0 p1 s) t.
Proof.
  intros D Q T Z. pose proof (barycentric (a, b, c) z D) as (l1 & m1 & n1 & S1 & X1 & Y1).
  destruct Q as (l0 & m0 & n0 & (H1 & H2 & H3) & S0 & X0 & Y0).
  destruct (Rlt_dec 0 l1) as [P1|P1]; [destruct (Rlt_dec 0 m1) as [P2|P2]; [destruct (Rlt_dec 0 n1) as [P3|P3]|]|].
  1:{ left. apply open_closed, C19_triangle; [exact D|]. exists l1, m1, n1. auto. }
  all: right; destruct (first_exit l0 m0 n0 l1 m1 n1 H1 H2 H3) as (s & Hs & E1 & E2 & E3 & E); [tauto|];
    set (l := l0 + s * (l1 - l0)) in *; set (m := m0 + s * (m1 - m0)) in *; set (n := n0 + s * (n1 - n0)) in *;
    assert (Sum : l + m + n = 1) by (unfold l, m, n; replace 1 with ((1 - s) * (l0 + m0 + n0) + s * (l1 + m1 + n1)) by (rewrite S0, S1; ring); ring);
    assert (W : forall w, px w = l * px a + m * px b + n * px c -> py w = l * py a + m * py b + n * py c -> convex_combination false w t)
      by (intros w Wx Wy; apply (triangle_convex t q z w s T Z Hs);
          [rewrite Wx, X0, X1; unfold l, m, n; ring | rewrite Wy, Y0, Y1; unfold l, m, n; ring]);
    destruct E as [E|[E|E]];
    [exists b, c, n | exists c, a, l | exists a, b, m]; (split; [cbn; auto|]); (split; [lra|]);
    apply W; unfold along; cbn [px py fst snd]; rewrite E.
  all: first [replace m with (1 - n) by lra; ring | replace n with (1 - l) by lra; ring | replace l with (1 - m) by lra; ring].
Qed.
