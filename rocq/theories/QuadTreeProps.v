(** C18 (the C quad tree) and C54 (barycentric weights). *)
From Coq Require Import Reals List Arith Bool Permutation Lia Lra Psatz.
From Verif Require Import RealLib PolygonModel PolygonProofs QuadTreeModel.
Import ListNotations.
Local Open Scope R_scope.

(** ** The point test *)

Lemma qt_on_line_exact x y x0 y0 x1 y1 t : 0 <= t <= 1 -> x = x0 + t * (x1 - x0) -> y = y0 + t * (y1 - y0) ->
  qt_point_on_line x y x0 y0 x1 y1 tol tol = true.
Proof.
  intros Ht -> ->. unfold qt_point_on_line.
  replace (x0 + t * (x1 - x0) - x0) with (t * (x1 - x0)) by ring. replace (y0 + t * (y1 - y0) - y0) with (t * (y1 - y0)) by ring.
  set (b0 := x1 - x0). set (b1 := y1 - y0).
  replace (t * b1 * b0 + - (t * b0) * b1) with 0 by ring. rewrite Rabs_R0.
  replace (0 / (b0 * b0 + b1 * b1)) with 0 by (unfold Rdiv; ring).
  assert (Ht' : 0 <= tol) by (unfold tol; left; apply Rinv_0_lt_compat, pow_lt; lra).
  rewrite (proj2 (Rleb_true 0 tol) Ht').
  assert (B : 0 <= b0 * b0 + b1 * b1) by nra.
  replace (t * b0 * b0 + t * b1 * b1) with (t * (b0 * b0 + b1 * b1)) by ring.
  replace (t * b0 * (t * b0) + t * b1 * (t * b1)) with (t * t * (b0 * b0 + b1 * b1)) by ring.
  rewrite (proj2 (Rleb_true 0 (t * (b0 * b0 + b1 * b1)))) by (apply Rmult_le_pos; lra).
  rewrite (proj2 (Rleb_true (t * t * (b0 * b0 + b1 * b1)) (b0 * b0 + b1 * b1))).
  - destruct (Reqb _ _); reflexivity.
  - rewrite <- (Rmult_1_l (b0 * b0 + b1 * b1)) at 2. apply Rmult_le_compat_r; [exact B|nra].
Qed.

Lemma contains_geometric T p : tri_cross (corners T) <> 0 -> convex_combination false p (corners T) -> triangle_contains_point T p = true.
Proof. intros HD Hc. apply inside_closed_with; auto. intros. eapply qt_on_line_exact; eauto. Qed.

(** ** Quadrants *)

(** Quadrants of the plane about the midpoint of an extent. *)
Definition quadrant (e : extent) (k : nat) (p : point) : Prop :=
  let midx := (exmin e + exmax e) / 2 in let midy := (eymin e + eymax e) / 2 in
  match k with
  | 1%nat => midx < px p /\ midy < py p
  | 2%nat => px p < midx /\ midy < py p
  | 3%nat => px p < midx /\ py p < midy
  | 4%nat => midx < px p /\ py p < midy
  | _ => False
  end.

Lemma split_point_spec e p k : (k <> 0)%nat -> (split_point e p = k <-> quadrant e k p).
Proof.
  intros Hk. unfold split_point, quadrant. set (mx := (exmin e + exmax e) / 2). set (my := (eymin e + eymax e) / 2).
  destruct (Rltb_spec mx (px p)), (Rltb_spec (px p) mx), (Rltb_spec my (py p)), (Rltb_spec (py p) my); try (exfalso; lra);
  (split; [intros <-; cbn; try lra; congruence|]); destruct k as [|[|[|[|[|k]]]]]; intros; try congruence; try tauto; try (exfalso; lra).
Qed.

Lemma split_point_range e p : (split_point e p <= 4)%nat.
Proof. unfold split_point. repeat match goal with |- context [Rltb ?a ?b] => destruct (Rltb a b) end; lia. Qed.

Lemma split_triangle_spec e T k : (k <> 0)%nat ->
  (split_triangle e T = k <-> let '(a, b, c) := corners T in quadrant e k a /\ quadrant e k b /\ quadrant e k c).
Proof.
  intros Hk. unfold split_triangle. destruct (corners T) as ((a, b), c).
  pose proof (split_point_spec e a k Hk) as Sa. pose proof (split_point_spec e b k Hk) as Sb. pose proof (split_point_spec e c k Hk) as Sc.
  rewrite <- Sa, <- Sb, <- Sc. destruct (Nat.eqb_spec (split_point e a) (split_point e b)), (Nat.eqb_spec (split_point e b) (split_point e c)); cbn [andb]; split; intros; try congruence; intuition congruence.
Qed.

Lemma convex_strict l m n x a b c : 0 <= l -> 0 <= m -> 0 <= n -> l + m + n = 1 -> x = l * a + m * b + n * c ->
  forall mid, (mid < a -> mid < b -> mid < c -> mid < x) /\ (a < mid -> b < mid -> c < mid -> x < mid).
Proof.
  intros Hl Hm Hn Hs Hx mid.
  assert (E : x - mid = l * (a - mid) + m * (b - mid) + n * (c - mid)).
  { rewrite Hx. replace mid with ((l + m + n) * mid) at 1 by (rewrite Hs; ring). ring. }
  split; intros Ka Kb Kc.
  - assert (0 <= l * (a - mid) /\ 0 <= m * (b - mid) /\ 0 <= n * (c - mid)) by (repeat split; apply Rmult_le_pos; lra).
    assert (0 < l \/ 0 < m \/ 0 < n) as [K|[K|K]] by lra.
    + assert (0 < l * (a - mid)) by (apply Rmult_lt_0_compat; lra). lra.
    + assert (0 < m * (b - mid)) by (apply Rmult_lt_0_compat; lra). lra.
    + assert (0 < n * (c - mid)) by (apply Rmult_lt_0_compat; lra). lra.
  - assert (0 <= l * (mid - a) /\ 0 <= m * (mid - b) /\ 0 <= n * (mid - c)) by (repeat split; apply Rmult_le_pos; lra).
    assert (0 < l \/ 0 < m \/ 0 < n) as [K|[K|K]] by lra.
    + assert (0 < l * (mid - a)) by (apply Rmult_lt_0_compat; lra). lra.
    + assert (0 < m * (mid - b)) by (apply Rmult_lt_0_compat; lra). lra.
    + assert (0 < n * (mid - c)) by (apply Rmult_lt_0_compat; lra). lra.
Qed.

(** A point of a triangle lying in one quadrant is in that quadrant. *)
Lemma quadrant_convex e k T p : (k <> 0)%nat -> split_triangle e T = k -> convex_combination false p (corners T) -> split_point e p = k.
Proof.
  intros Hk. rewrite split_triangle_spec, split_point_spec by exact Hk. destruct (corners T) as ((a, b), c).
  intros (Qa & Qb & Qc) (l & m & n & (Hl & Hm & Hn) & Hs & Hx & Hy).
  pose proof (convex_strict l m n (px p) _ _ _ Hl Hm Hn Hs Hx ((exmin e + exmax e) / 2)) as (X1 & X2).
  pose proof (convex_strict l m n (py p) _ _ _ Hl Hm Hn Hs Hy ((eymin e + eymax e) / 2)) as (Y1 & Y2).
  destruct k as [|[|[|[|[|k]]]]]; cbn [quadrant] in *; tauto.
Qed.

(** ** The tree *)

Lemma tree_ind4 (P : tree -> Prop) :
  (forall e l n, P (Tree e l None n)) ->
  (forall e l q0 q1 q2 q3 n, P q0 -> P q1 -> P q2 -> P q3 -> P (Tree e l (Some (q0, q1, q2, q3)) n)) -> forall t, P t.
Proof.
  intros H0 H1. fix IH 1. intros [e l [(((q0, q1), q2), q3)|] n]; [apply H1; apply IH|apply H0].
Qed.

Fixpoint stored (t : tree) : list ctriangle :=
  let '(Tree _ leaves children _) := t in
  match children with
  | None => leaves
  | Some (q0, q1, q2, q3) => leaves ++ stored q0 ++ stored q1 ++ stored q2 ++ stored q3
  end.

(** Triangles below quadrant [k] lie in quadrant [k]; the count of a node is
    the number of triangles below it. *)
Fixpoint placed (t : tree) : Prop :=
  let '(Tree e _ children n) := t in
  n = length (stored t) /\
  match children with
  | None => True
  | Some (q0, q1, q2, q3) =>
      (forall T, In T (stored q0) -> split_triangle e T = 1%nat) /\ (forall T, In T (stored q1) -> split_triangle e T = 2%nat) /\
      (forall T, In T (stored q2) -> split_triangle e T = 3%nat) /\ (forall T, In T (stored q3) -> split_triangle e T = 4%nat) /\
      placed q0 /\ placed q1 /\ placed q2 /\ placed q3
  end.

Lemma placed_new e : placed (new_tree e).
Proof. cbn. auto. Qed.

Lemma split_triangle_range e T : (split_triangle e T <= 4)%nat.
Proof. unfold split_triangle. destruct (corners T) as ((a, b), c). destruct (_ && _); [apply split_point_range|lia]. Qed.

Lemma insert_spec : forall fuel t t' T, insert_triangle fuel t T = Some t' -> placed t ->
  placed t' /\ Permutation (stored t') (T :: stored t).
Proof.
  induction fuel as [|fuel IH]; intros [e l ch n] t' T H P; [discriminate|]. cbn [insert_triangle] in H.
  destruct (Nat.eqb_spec (split_triangle e T) 0) as [E0|E0]; cbn [negb] in H.
  - injection H as <-. assert (Q : Permutation (stored (Tree e (l ++ [T]) ch (S n))) (T :: stored (Tree e l ch n))).
    { cbn [stored]. destruct ch as [(((q0, q1), q2), q3)|]; [rewrite <- app_assoc; apply Permutation_sym, Permutation_middle|apply Permutation_sym, Permutation_cons_append]. }
    split; [|exact Q]. destruct P as (P1 & P2). split; [|exact P2]. rewrite (Permutation_length Q). cbn [length]. lia.
  - set (q := match ch with Some q => q | None => make_children e end) in H.
    assert (Pq : let '(q0, q1, q2, q3) := q in
      (forall T, In T (stored q0) -> split_triangle e T = 1%nat) /\ (forall T, In T (stored q1) -> split_triangle e T = 2%nat) /\
      (forall T, In T (stored q2) -> split_triangle e T = 3%nat) /\ (forall T, In T (stored q3) -> split_triangle e T = 4%nat) /\
      placed q0 /\ placed q1 /\ placed q2 /\ placed q3).
    { unfold q. destruct ch as [(((q0, q1), q2), q3)|]; [exact (proj2 P)|]. unfold make_children.
      destruct (child_extents e) as (((e1, e2), e3), e4). cbn. intuition. }
    assert (Sq : stored (Tree e l ch n) = l ++ let '(q0, q1, q2, q3) := q in stored q0 ++ stored q1 ++ stored q2 ++ stored q3).
    { unfold q. destruct ch as [(((q0, q1), q2), q3)|]; [reflexivity|]. unfold make_children.
      destruct (child_extents e) as (((e1, e2), e3), e4). cbn. now rewrite app_nil_r. }
    pose proof (proj1 P) as Pn. clear P. clearbody q. destruct q as (((q0, q1), q2), q3).
    destruct Pq as (A1 & A2 & A3 & A4 & B1 & B2 & B3 & B4).
    destruct (insert_triangle fuel (child (q0, q1, q2, q3) (split_triangle e T)) T) as [c|] eqn:E; [|discriminate]. injection H as <-.
    assert (Rg := split_triangle_range e T).
    remember (split_triangle e T) as k eqn:Ek. symmetry in Ek.
    destruct k as [|[|[|[|[|k]]]]]; [congruence| | | | |lia]; cbn [child set_child] in *.
    + destruct (IH _ _ _ E B1) as (G1 & G2).
      assert (Q : Permutation (stored (Tree e l (Some (c, q1, q2, q3)) (S n))) (T :: stored (Tree e l ch n))).
      { rewrite Sq. cbn [stored]. rewrite G2. apply Permutation_sym, Permutation_middle. }
      split; [|exact Q]. split; [rewrite (Permutation_length Q); cbn [length]; lia|]. repeat (split; auto).
      intros T' HT. apply (Permutation_in _ G2) in HT as [<-|HT]; auto.
    + destruct (IH _ _ _ E B2) as (G1 & G2).
      assert (Q : Permutation (stored (Tree e l (Some (q0, c, q2, q3)) (S n))) (T :: stored (Tree e l ch n))).
      { rewrite Sq. cbn [stored]. rewrite G2, !app_assoc, <- (app_assoc (l ++ stored q0)), <- (app_assoc (l ++ stored q0)).
        rewrite <- !app_comm_cons. rewrite <- !(app_assoc (l ++ stored q0)). apply Permutation_sym, Permutation_middle. }
      split; [|exact Q]. split; [rewrite (Permutation_length Q); cbn [length]; lia|]. repeat (split; auto).
      intros T' HT. apply (Permutation_in _ G2) in HT as [<-|HT]; auto.
    + destruct (IH _ _ _ E B3) as (G1 & G2).
      assert (Q : Permutation (stored (Tree e l (Some (q0, q1, c, q3)) (S n))) (T :: stored (Tree e l ch n))).
      { rewrite Sq. cbn [stored]. rewrite G2. rewrite !(app_assoc l), !(app_assoc (l ++ stored q0)). apply Permutation_sym, Permutation_middle. }
      split; [|exact Q]. split; [rewrite (Permutation_length Q); cbn [length]; lia|]. repeat (split; auto).
      intros T' HT. apply (Permutation_in _ G2) in HT as [<-|HT]; auto.
    + destruct (IH _ _ _ E B4) as (G1 & G2).
      assert (Q : Permutation (stored (Tree e l (Some (q0, q1, q2, c)) (S n))) (T :: stored (Tree e l ch n))).
      { rewrite Sq. cbn [stored]. rewrite G2. rewrite !(app_assoc l), !(app_assoc (l ++ stored q0)), !(app_assoc ((l ++ stored q0) ++ stored q1)).
        apply Permutation_sym, Permutation_middle. }
      split; [|exact Q]. split; [rewrite (Permutation_length Q); cbn [length]; lia|]. repeat (split; auto).
      intros T' HT. apply (Permutation_in _ G2) in HT as [<-|HT]; auto.
Qed.

Lemma insert_all_spec fuel : forall Ts t t', insert_all fuel t Ts = Some t' -> placed t ->
  placed t' /\ Permutation (stored t') (stored t ++ Ts).
Proof.
  induction Ts as [|T Ts IH]; intros t t' H P; cbn [insert_all] in H.
  - injection H as <-. rewrite app_nil_r. auto.
  - destruct (insert_triangle fuel t T) as [t1|] eqn:E; [|discriminate].
    destruct (insert_spec _ _ _ _ E P) as (P1 & Q1). destruct (IH _ _ H P1) as (P2 & Q2). split; [exact P2|].
    rewrite Q2, Q1. cbn [app]. apply Permutation_middle.
Qed.

Lemma search_sound t p T : search t p = Some T -> In T (stored t) /\ triangle_contains_point T p = true.
Proof.
  induction t as [e l n|e l q0 q1 q2 q3 n I0 I1 I2 I3] using tree_ind4; cbn [search stored]; intros H.
  - destruct (find _ l) eqn:E; [|discriminate]. injection H as <-. apply find_some in E. exact E.
  - destruct (find _ l) eqn:E.
    + injection H as <-. apply find_some in E as (E1 & E2). split; [apply in_or_app; auto|exact E2].
    + rewrite !in_app_iff. destruct (split_point e p) as [|[|[|[|k]]]]; [discriminate|apply I0 in H|apply I1 in H|apply I2 in H|apply I3 in H]; tauto.
Qed.

Lemma search_complete t p T : placed t -> In T (stored t) -> tri_cross (corners T) <> 0 -> convex_combination false p (corners T) ->
  search t p <> None.
Proof.
  intros P HT HD Hc.
  assert (L : forall l, In T l -> find (fun T => triangle_contains_point T p) l <> None).
  { intros l Hl K. pose proof (find_none _ _ K T Hl) as N. cbn beta in N. rewrite contains_geometric in N by assumption. discriminate. }
  revert P HT. induction t as [e l n|e l q0 q1 q2 q3 n I0 I1 I2 I3] using tree_ind4; cbn [search stored]; intros P HT.
  - specialize (L l HT). destruct (find _ l); congruence.
  - destruct P as (_ & A1 & A2 & A3 & A4 & B1 & B2 & B3 & B4). rewrite !in_app_iff in HT.
    destruct (find (fun T0 => triangle_contains_point T0 p) l) eqn:E; [congruence|].
    destruct HT as [HT|[HT|[HT|[HT|HT]]]].
    + specialize (L l HT). congruence.
    + rewrite (quadrant_convex e 1 T p) by auto. auto.
    + rewrite (quadrant_convex e 2 T p) by auto. auto.
    + rewrite (quadrant_convex e 3 T p) by auto. auto.
    + rewrite (quadrant_convex e 4 T p) by auto. auto.
Qed.

(** A tree built from any list of triangles and any extent: the count is the
    number of triangles; a search returns one of them that passes the closed
    point test; if the point lies in any of them that is not degenerate, the
    search returns something, so if it returns nothing then no triangle
    contains the point. *)
Theorem C18_search : forall fuel e triangles t, build_quad_tree fuel e triangles = Some t ->
  items_in_tree t = length triangles /\
  (forall p T, search t p = Some T -> exists tri, nth_error triangles (index T) = Some tri /\ corners T = tri /\
     is_inside_triangle_with qt_point_on_line p tri true tol tol = true) /\
  (forall p k tri, nth_error triangles k = Some tri -> tri_cross tri <> 0 -> convex_combination false p tri -> search t p <> None).
Proof.
  intros fuel e triangles t H. unfold build_quad_tree in H.
  destruct (insert_all_spec _ _ _ _ H (placed_new e)) as (P & Q). cbn [stored new_tree app] in Q.
  assert (In_num : forall T, In T (number_triangles triangles) -> nth_error triangles (index T) = Some (corners T)).
  { intros T HT. unfold number_triangles in HT. apply in_map_iff in HT as ((k & ((a, b), c)) & <- & HT).
    assert (K : nth_error triangles k = Some (a, b, c)).
    { apply In_nth with (d := (0%nat, ((0, 0), (0, 0), (0, 0)))) in HT as (i & Hi & Ei). rewrite combine_length, seq_length, Nat.min_id in Hi.
      rewrite combine_nth, seq_nth in Ei by (rewrite ?seq_length; auto). injection Ei as <- Ei.
      rewrite (nth_error_nth' triangles ((0, 0), (0, 0), (0, 0)) Hi). cbn [Nat.add]. exact (f_equal Some Ei). }
    unfold new_triangle. destruct (side_normal a b c), (side_normal b c a), (side_normal c a b). exact K. }
  assert (Num_in : forall k tri, nth_error triangles k = Some tri -> exists T, In T (number_triangles triangles) /\ corners T = tri).
  { intros k ((a, b), c) Hk. exists (new_triangle k a b c). split.
    - unfold number_triangles. apply in_map_iff. exists (k, (a, b, c)). split; [reflexivity|].
      assert (Hl : (k < length triangles)%nat) by (apply nth_error_Some; congruence).
      assert (E : nth k (combine (seq 0 (length triangles)) triangles) (0%nat, (a, b, c)) = (k, (a, b, c))).
      { rewrite combine_nth, seq_nth by (rewrite ?seq_length; auto). rewrite (nth_error_nth triangles k _ Hk). reflexivity. }
      rewrite <- E. apply nth_In. rewrite combine_length, seq_length, Nat.min_id. exact Hl.
    - unfold new_triangle. destruct (side_normal a b c), (side_normal b c a), (side_normal c a b). reflexivity. }
  split; [|split].
  - destruct t as [e' l ch n]. destruct P as (Pn & _). cbn [items_in_tree]. rewrite Pn, (Permutation_length Q). unfold number_triangles.
    rewrite map_length, combine_length, seq_length, Nat.min_id. reflexivity.
  - intros p T K. apply search_sound in K as (K1 & K2). exists (corners T). split; [|split; [reflexivity|exact K2]].
    apply In_num, (Permutation_in _ Q K1).
  - intros p k tri Hk HD Hc. destruct (Num_in k tri Hk) as (T & HT & <-).
    apply (search_complete t p T P); auto. apply (Permutation_in _ (Permutation_sym Q) HT).
Qed.
Print Assumptions C18_search.

(** The tolerant test accepts exactly: interior points, and points within
    [tol] (relative to the side) of a side and between its ends. *)
Theorem C18_accepted : forall T p, triangle_contains_point T p = true ->
  (tri_cross (corners T) <> 0 /\ convex_combination true p (corners T)) \/
  exists e, In e (tri_edges (corners T)) /\ qt_point_on_line (px p) (py p) (px (fst e)) (py (fst e)) (px (snd e)) (py (snd e)) tol tol = true.
Proof. intros T p H. apply inside_closed_sound in H. exact H. Qed.
Print Assumptions C18_accepted.

(** ** Termination of the insertion *)

Definition within (p : point) (e : extent) : Prop := exmin e <= px p <= exmax e /\ eymin e <= py p <= eymax e.
Definition tri_within (T : ctriangle) (e : extent) : Prop := let '(a, b, c) := corners T in within a e /\ within b e /\ within c e.
Definition ewidth (e : extent) : R := exmax e - exmin e.
Definition eheight (e : extent) : R := eymax e - eymin e.

Definition extent_of (t : tree) : extent := let '(Tree e _ _ _) := t in e.

Fixpoint regular (t : tree) : Prop :=
  let '(Tree e _ children _) := t in
  match children with
  | None => True
  | Some (q0, q1, q2, q3) =>
      (extent_of q0, extent_of q1, extent_of q2, extent_of q3) = child_extents e /\
      regular q0 /\ regular q1 /\ regular q2 /\ regular q3
  end.

Lemma child_extents_spec e k : (1 <= k <= 4)%nat ->
  ewidth (child (child_extents e) k) = border * ewidth e /\ eheight (child (child_extents e) k) = border * eheight e /\
  (forall p, within p e -> quadrant e k p -> within p (child (child_extents e) k)).
Proof.
  intros Hk. destruct k as [|[|[|[|[|k]]]]]; try lia; unfold child_extents, child, ewidth, eheight, within, quadrant, border;
  cbn [exmin exmax eymin eymax]; (split; [field|split; [field|intros p Hp Hq; lra]]).
Qed.

Lemma insert_extent fuel t t' T : insert_triangle fuel t T = Some t' -> extent_of t' = extent_of t.
Proof.
  destruct fuel as [|fuel], t as [e l ch n]; [discriminate|]. cbn [insert_triangle].
  destruct (negb _); [|intros H; injection H as <-; reflexivity].
  destruct (insert_triangle fuel _ T); [|discriminate]. intros H; injection H as <-; reflexivity.
Qed.

(** Two of the corners differ by [sx] in x or by [sy] in y. *)
Definition spread_x (T : ctriangle) (s : R) : Prop := let '(a, b, c) := corners T in
  s <= Rabs (px a - px b) \/ s <= Rabs (px b - px c) \/ s <= Rabs (px c - px a).
Definition spread_y (T : ctriangle) (s : R) : Prop := let '(a, b, c) := corners T in
  s <= Rabs (py a - py b) \/ s <= Rabs (py b - py c) \/ s <= Rabs (py c - py a).

Lemma spread_width T e s : tri_within T e -> spread_x T s -> s <= ewidth e.
Proof.
  unfold tri_within, spread_x, within, ewidth. destruct (corners T) as ((a, b), c). intros (A & B & C) H.
  assert (G : forall u v, exmin e <= u <= exmax e -> exmin e <= v <= exmax e -> Rabs (u - v) <= exmax e - exmin e) by (intros; apply Rabs_le; lra).
  destruct H as [H|[H|H]]; eapply Rle_trans; try exact H; apply G; lra.
Qed.
Lemma spread_height T e s : tri_within T e -> spread_y T s -> s <= eheight e.
Proof.
  unfold tri_within, spread_y, within, eheight. destruct (corners T) as ((a, b), c). intros (A & B & C) H.
  assert (G : forall u v, eymin e <= u <= eymax e -> eymin e <= v <= eymax e -> Rabs (u - v) <= eymax e - eymin e) by (intros; apply Rabs_le; lra).
  destruct H as [H|[H|H]]; eapply Rle_trans; try exact H; apply G; lra.
Qed.

Lemma insert_total T s : 0 < s -> spread_x T s \/ spread_y T s ->
  forall n t, regular t -> tri_within T (extent_of t) ->
  Rmax (ewidth (extent_of t)) (eheight (extent_of t)) * border ^ n < s -> exists t', insert_triangle n t T = Some t' /\ regular t'.
Proof.
  intros Hs Sp. induction n as [|n IH]; intros [e l ch num] Hr Hw Hb; cbn [extent_of] in *.
  - exfalso. rewrite pow_O, Rmult_1_r in Hb. pose proof (Rmax_l (ewidth e) (eheight e)). pose proof (Rmax_r (ewidth e) (eheight e)).
    destruct Sp as [Sp|Sp]; [pose proof (spread_width _ _ _ Hw Sp)|pose proof (spread_height _ _ _ Hw Sp)]; lra.
  - cbn [insert_triangle]. destruct (Nat.eqb_spec (split_triangle e T) 0) as [E0|E0]; cbn [negb].
    { eexists. split; [reflexivity|exact Hr]. }
    set (k := split_triangle e T) in *. assert (Hk : (1 <= k <= 4)%nat) by (pose proof (split_triangle_range e T); unfold k in *; lia).
    set (q := match ch with Some q => q | None => make_children e end).
    assert (Rq : let '(q0, q1, q2, q3) := q in (extent_of q0, extent_of q1, extent_of q2, extent_of q3) = child_extents e /\ regular q0 /\ regular q1 /\ regular q2 /\ regular q3).
    { unfold q. destruct ch as [(((q0, q1), q2), q3)|]; [exact Hr|]. unfold make_children. destruct (child_extents e) as (((e1, e2), e3), e4). cbn. auto. }
    assert (Ek : extent_of (child q k) = child (child_extents e) k /\ regular (child q k)).
    { clearbody q. destruct q as (((q0, q1), q2), q3). destruct Rq as (<- & R0 & R1 & R2 & R3).
      destruct k as [|[|[|[|[|k]]]]]; cbn; auto; lia. }
    destruct Ek as (Ek & Rk). destruct (child_extents_spec e k Hk) as (W & H & C).
    destruct (IH (child q k) Rk) as (t' & Et & Rt').
    + rewrite Ek. assert (Q := proj1 (split_triangle_spec e T k E0) eq_refl). unfold tri_within in *. destruct (corners T) as ((a, b), c).
      destruct Hw as (Wa & Wb & Wc), Q as (Qa & Qb & Qc). auto.
    + rewrite Ek, W, H. rewrite RmaxRmult by (unfold border; lra).
      replace (border * Rmax (ewidth e) (eheight e) * border ^ n) with (Rmax (ewidth e) (eheight e) * border ^ S n) by (cbn [pow]; ring). exact Hb.
    + rewrite Et. eexists. split; [reflexivity|].
      pose proof (insert_extent _ _ _ _ Et) as Ex. clearbody q. destruct q as (((q0, q1), q2), q3). cbn [regular].
      destruct Rq as (Eq & R0 & R1 & R2 & R3). rewrite <- Eq.
      destruct k as [|[|[|[|[|k']]]]]; try lia; cbn [set_child child] in *; rewrite Ex; auto.
Qed.

(** If the triangles lie within the extent of the root and the corners of
    each are spread by at least [s] > 0 in x or in y, the tree is built with
    a recursion depth [n] such that max(W, H) * 0.55^n < s. *)
Theorem C18_terminates : forall n e triangles s, 0 < s ->
  (forall a b c, In (a, b, c) triangles -> within a e /\ within b e /\ within c e /\
     (s <= Rabs (px a - px b) \/ s <= Rabs (px b - px c) \/ s <= Rabs (px c - px a) \/
      s <= Rabs (py a - py b) \/ s <= Rabs (py b - py c) \/ s <= Rabs (py c - py a))) ->
  Rmax (ewidth e) (eheight e) * border ^ n < s -> exists t, build_quad_tree n e triangles = Some t.
Proof.
  intros n e triangles s Hs Ht Hn. unfold build_quad_tree.
  assert (K : forall T, In T (number_triangles triangles) -> tri_within T e /\ (spread_x T s \/ spread_y T s)).
  { intros T HT. unfold number_triangles in HT. apply in_map_iff in HT as ((k & ((a, b), c)) & <- & HT). apply in_combine_r in HT.
    destruct (Ht a b c HT) as (A & B & C & D). unfold tri_within, spread_x, spread_y, new_triangle.
    destruct (side_normal a b c), (side_normal b c a), (side_normal c a b). cbn [corners]. tauto. }
  assert (G : forall Ts t, (forall T, In T Ts -> tri_within T e /\ (spread_x T s \/ spread_y T s)) -> regular t -> extent_of t = e ->
     exists t', insert_all n t Ts = Some t').
  { induction Ts as [|T Ts IH]; intros t KT Rt Et; cbn [insert_all]; [eauto|]. destruct (KT T (or_introl eq_refl)) as (K1 & K2).
    destruct (insert_total T s Hs K2 n t Rt) as (t' & E & R'); [rewrite Et; exact K1|rewrite Et; exact Hn|]. rewrite E.
    apply IH; [intros; apply KT; now right|exact R'|rewrite (insert_extent _ _ _ _ E); exact Et]. }
  apply G; [exact K|exact I|reflexivity].
Qed.
Print Assumptions C18_terminates.

(** A triangle above and to the right of the root's extent is passed down for
    ever (the extents given to build_quad_tree are not checked). *)
Theorem C18_outside_refuted : forall k a b c e,
  exmin e <= exmax e -> eymin e <= eymax e ->
  exmax e < px a -> exmax e < px b -> exmax e < px c -> eymax e < py a -> eymax e < py b -> eymax e < py c ->
  forall fuel, insert_triangle fuel (new_tree e) (new_triangle k a b c) = None.
Proof.
  intros k a b c e H1 H2 A1 B1 C1 A2 B2 C2 fuel. revert e H1 H2 A1 B1 C1 A2 B2 C2.
  induction fuel as [|fuel IH]; intros e H1 H2 A1 B1 C1 A2 B2 C2; [reflexivity|]. cbn [insert_triangle new_tree].
  assert (Q : split_triangle e (new_triangle k a b c) = 1%nat).
  { apply split_triangle_spec; [lia|]. unfold new_triangle. destruct (side_normal a b c), (side_normal b c a), (side_normal c a b). cbn [corners quadrant]. lra. }
  rewrite Q. cbn [Nat.eqb negb]. unfold make_children, child_extents, child.
  rewrite IH; [reflexivity|..]; cbn [exmin exmax eymin eymax]; unfold border; lra.
Qed.
Print Assumptions C18_outside_refuted.

(** ** C54: the weights *)

Lemma side_normal_spec p q r : p <> q -> exists s, s <> 0 /\ side_normal p q r = (s * - (py q - py p), s * (px q - px p)).
Proof.
  intros Hne. unfold side_normal. set (d := dot_points (- (py q - py p)) (px q - px p) (- (py q - py p)) (px q - px p)).
  assert (Hd : 0 < d).
  { replace d with (Rsqr (px q - px p) + Rsqr (py q - py p)) by (unfold d, dot_points, Rsqr; ring).
    pose proof (Rle_0_sqr (px q - px p)). pose proof (Rle_0_sqr (py q - py p)).
    destruct (Req_dec (px q) (px p)) as [E1|E1].
    - destruct (Req_dec (py q) (py p)) as [E2|E2]; [exfalso; apply Hne; destruct p, q; cbn in *; congruence|].
      assert (K := Rsqr_pos_lt (py q - py p) ltac:(lra)). lra.
    - assert (K := Rsqr_pos_lt (px q - px p) ltac:(lra)). lra. }
  pose proof (sqrt_lt_R0 _ Hd) as Hs. pose proof (Rinv_0_lt_compat _ Hs).
  destruct (Rltb _ _); [exists (- / sqrt d)|exists (/ sqrt d)]; (split; [lra|]); f_equal; unfold Rdiv; ring.
Qed.

(** The three weights sum to one, reproduce the point, and are its unique
    barycentric coordinates; so a weighted mean of values at the corners is
    exact for linear functions and, for a point of the triangle, between the
    least and the greatest of the three. *)
Theorem C54_sigma : forall k a b c x y, tri_cross (a, b, c) <> 0 ->
  let '(s1, s2, s3) := calculate_sigma (new_triangle k a b c) x y in
  s1 + s2 + s3 = 1 /\
  s1 * px a + s2 * px b + s3 * px c = x /\ s1 * py a + s2 * py b + s3 * py c = y /\
  (forall l m n, l + m + n = 1 -> l * px a + m * px b + n * px c = x -> l * py a + m * py b + n * py c = y -> l = s1 /\ m = s2 /\ n = s3) /\
  (convex_combination false (x, y) (a, b, c) <-> 0 <= s1 /\ 0 <= s2 /\ 0 <= s3) /\
  (forall f0 fx fy, s1 * (f0 + fx * px a + fy * py a) + s2 * (f0 + fx * px b + fy * py b) + s3 * (f0 + fx * px c + fy * py c) = f0 + fx * x + fy * y) /\
  (convex_combination false (x, y) (a, b, c) -> forall va vb vc lo hi, lo <= va <= hi -> lo <= vb <= hi -> lo <= vc <= hi ->
     lo <= s1 * va + s2 * vb + s3 * vc <= hi).
Proof.
  intros k a b c x y HD. unfold tri_cross in HD.
  assert (Nab : a <> b) by (intros ->; apply HD; ring). assert (Nbc : b <> c) by (intros ->; apply HD; ring). assert (Nca : c <> a) by (intros ->; apply HD; ring).
  destruct (side_normal_spec a b c Nab) as (u3 & U3 & E3). destruct (side_normal_spec b c a Nbc) as (u1 & U1 & E1). destruct (side_normal_spec c a b Nca) as (u2 & U2 & E2).
  unfold new_triangle. rewrite E1, E2, E3. unfold calculate_sigma. cbn [corners nx1 ny1 nx2 ny2 nx3 ny3].
  destruct a as (ax, ay), b as (bx, by_), c as (cx, cy). cbn [px py fst snd] in *. unfold dot_points.
  set (D := (bx - ax) * (cy - ay) - (cx - ax) * (by_ - ay)) in *.
  (* the three quotients *)
  replace (((x - bx) * (u1 * - (cy - by_)) + (y - by_) * (u1 * (cx - bx))) / ((ax - bx) * (u1 * - (cy - by_)) + (ay - by_) * (u1 * (cx - bx))))
    with (((bx - x) * (cy - y) - (cx - x) * (by_ - y)) / D)
    by (unfold D; field; split; [replace ((ax - bx) * (u1 * - (cy - by_)) + (ay - by_) * (u1 * (cx - bx))) with (u1 * D) by (unfold D; ring); apply Rmult_integral_contrapositive; auto|exact HD]).
  replace (((x - cx) * (u2 * - (ay - cy)) + (y - cy) * (u2 * (ax - cx))) / ((bx - cx) * (u2 * - (ay - cy)) + (by_ - cy) * (u2 * (ax - cx))))
    with (((cx - x) * (ay - y) - (ax - x) * (cy - y)) / D)
    by (unfold D; field; split; [replace ((bx - cx) * (u2 * - (ay - cy)) + (by_ - cy) * (u2 * (ax - cx))) with (u2 * D) by (unfold D; ring); apply Rmult_integral_contrapositive; auto|exact HD]).
  replace (((x - ax) * (u3 * - (by_ - ay)) + (y - ay) * (u3 * (bx - ax))) / ((cx - ax) * (u3 * - (by_ - ay)) + (cy - ay) * (u3 * (bx - ax))))
    with (((ax - x) * (by_ - y) - (bx - x) * (ay - y)) / D)
    by (unfold D; field; split; [replace ((cx - ax) * (u3 * - (by_ - ay)) + (cy - ay) * (u3 * (bx - ax))) with (u3 * D) by (unfold D; ring); apply Rmult_integral_contrapositive; auto|exact HD]).
  set (s1 := ((bx - x) * (cy - y) - (cx - x) * (by_ - y)) / D). set (s2 := ((cx - x) * (ay - y) - (ax - x) * (cy - y)) / D). set (s3 := ((ax - x) * (by_ - y) - (bx - x) * (ay - y)) / D).
  assert (S0 : s1 + s2 + s3 = 1) by (unfold s1, s2, s3, D; field; exact HD).
  assert (Sx : s1 * ax + s2 * bx + s3 * cx = x) by (unfold s1, s2, s3, D; field; exact HD).
  assert (Sy : s1 * ay + s2 * by_ + s3 * cy = y) by (unfold s1, s2, s3, D; field; exact HD).
  assert (Un : forall l m n, l + m + n = 1 -> l * ax + m * bx + n * cx = x -> l * ay + m * by_ + n * cy = y -> l = s1 /\ m = s2 /\ n = s3).
  { intros l m n K0 Kx Ky. unfold s1, s2, s3. rewrite <- Kx, <- Ky. replace l with (1 - m - n) by lra. unfold D. repeat split; field; exact HD. }
  clearbody s1 s2 s3.
  assert (Cv : convex_combination false (x, y) (ax, ay, (bx, by_), (cx, cy)) <-> 0 <= s1 /\ 0 <= s2 /\ 0 <= s3).
  { cbn [convex_combination px py fst snd]. split.
    - intros (l & m & n & Hp & K0 & Kx & Ky). destruct (Un l m n K0 (eq_sym Kx) (eq_sym Ky)) as (-> & -> & ->). exact Hp.
    - intros H. exists s1, s2, s3. repeat split; auto; tauto. }
  refine (conj S0 (conj Sx (conj Sy (conj Un (conj Cv (conj _ _)))))).
  - intros f0 fx fy. replace (s1 * (f0 + fx * ax + fy * ay) + s2 * (f0 + fx * bx + fy * by_) + s3 * (f0 + fx * cx + fy * cy)) with
      (f0 * (s1 + s2 + s3) + fx * (s1 * ax + s2 * bx + s3 * cx) + fy * (s1 * ay + s2 * by_ + s3 * cy)) by ring. rewrite S0, Sx, Sy. ring.
  - intros H va vb vc lo hi Ha Hb Hc. apply Cv in H. split.
    + assert (0 <= s1 * (va - lo)) by (apply Rmult_le_pos; lra). assert (0 <= s2 * (vb - lo)) by (apply Rmult_le_pos; lra). assert (0 <= s3 * (vc - lo)) by (apply Rmult_le_pos; lra).
    replace lo with (lo * (s1 + s2 + s3)) by (rewrite S0; ring). lra.
    + assert (0 <= s1 * (hi - va)) by (apply Rmult_le_pos; lra). assert (0 <= s2 * (hi - vb)) by (apply Rmult_le_pos; lra). assert (0 <= s3 * (hi - vc)) by (apply Rmult_le_pos; lra).
    replace hi with (hi * (s1 + s2 + s3)) by (rewrite S0; ring). lra.
Qed.
Print Assumptions C54_sigma.

(** Non-vacuity: two triangles of a unit square; both are found. *)
Definition square_extent : extent := {| exmin := -1; exmax := 2; eymin := -1; eymax := 2 |}.
Definition square_triangles : list triangle := [((0, 0), (1, 0), (1, 1)); ((0, 0), (1, 1), (0, 1))].
Example C18_example : exists t, build_quad_tree 20 square_extent square_triangles = Some t /\
  items_in_tree t = 2%nat /\ search t (1 / 4, 1 / 2) <> None.
Proof.
  destruct (C18_terminates 20 square_extent square_triangles 1) as (t & Ht).
  - lra.
  - intros a b c [H|[H|[]]]; injection H as <- <- <-; unfold within, square_extent; cbn [px py fst snd exmin exmax eymin eymax];
    (repeat split; try lra).
    + left. rewrite Rabs_left by lra. lra.
    + left. rewrite Rabs_left by lra. lra.
  - unfold ewidth, eheight, square_extent, border. cbn [exmin exmax eymin eymax]. rewrite Rmax_left by lra. lra.
  - destruct (C18_search _ _ _ _ Ht) as (S1 & S2 & S3). exists t. split; [exact Ht|]. split; [exact S1|].
    apply (S3 _ 1%nat ((0, 0), (1, 1), (0, 1))); [reflexivity|cbn; lra|].
    exists (1 / 2), (1 / 4), (1 / 4). cbn. lra.
Qed.

Example C54_example : tri_cross ((0, 0), (4, 0), (0, 4)) <> 0 /\ convex_combination false (1, 1) ((0, 0), (4, 0), (0, 4)).
Proof. split; [cbn; lra|]. exists (1 / 2), (1 / 4), (1 / 4). cbn. lra. Qed.
