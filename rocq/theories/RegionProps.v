(** C92: a region holds exactly the triangles of the place described. *)
From Coq Require Import Reals List Arith Bool Lia Lra Sorted.
From Verif Require Import RealLib PolygonModel PolygonProofs PolygonProps InsideTriangleProps LineIntersectProps RegionModel RegionProofs.
Import ListNotations.
Open Scope R_scope.

(** A mesh: one centroid for every triangle, inside it, and no flat triangle. *)
Definition mesh (d : domain) : Prop :=
  length (centroids d) = length (triangles d) /\
  forall k, (k < length (triangles d))%nat ->
    tri_cross (nth k (triangles d) no_triangle) <> 0 /\ convex_combination false (nth k (centroids d) (0, 0)) (nth k (triangles d) no_triangle).

Definition nothing : arguments := {| arg_indices := None; arg_center := None; arg_radius := None; arg_polygon := None; arg_line := None; arg_poly := None; expand_polygon := false |}.
Definition circle (c : point) (r : R) : arguments := {| arg_indices := None; arg_center := Some c; arg_radius := Some r; arg_polygon := None; arg_line := None; arg_poly := None; expand_polygon := false |}.
Definition by_polygon (l : list point) (expand : bool) : arguments := {| arg_indices := None; arg_center := None; arg_radius := None; arg_polygon := Some l; arg_line := None; arg_poly := None; expand_polygon := expand |}.
Definition by_line (l : list point) : arguments := {| arg_indices := None; arg_center := None; arg_radius := None; arg_polygon := None; arg_line := Some l; arg_poly := None; expand_polygon := false |}.
Definition by_poly (l : list point) (expand : bool) : arguments := {| arg_indices := None; arg_center := None; arg_radius := None; arg_polygon := None; arg_line := None; arg_poly := Some l; expand_polygon := expand |}.
Definition by_indices (l : list nat) : arguments := {| arg_indices := Some l; arg_center := None; arg_radius := None; arg_polygon := None; arg_line := None; arg_poly := None; expand_polygon := false |}.

(** A circle: the triangles with the centroid in the open disc, in increasing
    order; an error exactly when there is none and the domain is not part of a
    parallel run. *)
Theorem C92_circle :
  forall d c r, mesh d ->
  let inside k := (k < length (triangles d))%nat /\
    (px (nth k (centroids d) (0%R, 0%R)) - px c) ^ 2 + (py (nth k (centroids d) (0%R, 0%R)) - py c) ^ 2 < r ^ 2 in
  (make_region d (circle c r) = inl NothingFound <-> parallel d = false /\ forall k, ~ inside k) /\
  (forall e, make_region d (circle c r) = inl e -> e = NothingFound) /\
  (forall g, make_region d (circle c r) = inr g ->
     exists l, indices g = Some l /\ StronglySorted lt l /\ forall k, In k l <-> inside k).
Proof.
  intros d c r (L & _) inside.
  assert (In_ : forall k, In k (circle_indices d c r) <-> inside k).
  { intros k. rewrite circle_in, L. unfold inside, in_circle. rewrite Rltb_true. cbn [pow]. rewrite !Rmult_1_r. reflexivity. }
  assert (F : exists g, finish d Circle (Some (circle_indices d c r)) = inr g /\ indices g = Some (circle_indices d c r)).
  { apply finish_total. intros i Hi. apply In_ in Hi. apply Hi. }
  destruct F as (g & Fg & Ig).
  unfold make_region, circle. cbn [arg_indices arg_center arg_radius arg_polygon arg_line given orb]. unfold finish_with, setup_circle.
  destruct (circle_indices d c r) as [|k0 l0] eqn:El.
  - destruct (parallel d) eqn:Ep; cbn [negb andb].
    + rewrite Fg. split; [split; [discriminate|intros (? & _); discriminate]|]. split; [discriminate|].
      intros g' E; injection E as <-. exists []. split; [exact Ig|]. split; [constructor|exact In_].
    + split; [|split; [congruence|discriminate]]. split; [|reflexivity]. intros _. split; [reflexivity|]. intros k Hk. apply In_ in Hk. exact Hk.
  - rewrite andb_false_r, Fg. split; [split; [discriminate|intros (_ & H); exfalso; apply (H k0), In_; left; reflexivity]|].
    split; [discriminate|]. intros g' E; injection E as <-.
    exists (k0 :: l0). split; [exact Ig|]. split; [rewrite <- El; apply filter_sorted, seq_sorted|]. exact In_.
Qed.
Print Assumptions C92_circle.

(** A polygon: the triangles with the centroid inside (the test of C19); with
    [expand_polygon] also those that an edge of the polygon meets.  It never
    fails. *)
Theorem C92_polygon :
  forall d polygon expand, mesh d -> polygon <> [] ->
  exists g l, make_region d (by_polygon polygon expand) = inr g /\ indices g = Some l /\ StronglySorted lt l /\
  forall k, In k l <-> (k < length (triangles d))%nat /\
    (point_inside polygon true (nth k (centroids d) (0, 0)) = true \/
     expand = true /\ exists p0 p1 s, In (p0, p1) (edges_of polygon) /\ p0 <> p1 /\ 0 <= s <= 1 /\
       convex_combination false (along p0 p1 s) (nth k (triangles d) no_triangle)).
Proof.
  intros d polygon expand (L & M) Ne.
  assert (In_ : forall k, In k (polygon_indices d polygon expand) <-> (k < length (triangles d))%nat /\
    (point_inside polygon true (nth k (centroids d) (0, 0)) = true \/
     expand = true /\ exists p0 p1 s, In (p0, p1) (edges_of polygon) /\ p0 <> p1 /\ 0 <= s <= 1 /\
       convex_combination false (along p0 p1 s) (nth k (triangles d) no_triangle))).
  { intros k. rewrite (polygon_in d polygon expand k L). split; intros (Hk & H); (split; [exact Hk|]); (destruct H as [H|(He & H)]; [auto|]);
      right; (split; [exact He|]); destruct (M k Hk) as (Nd & _).
    - destruct H as ((p0, p1) & Hin & H). cbn [fst snd] in H.
      assert (Hp : p0 <> p1) by (intros ->; rewrite (proj1 C51_point_refuted) in H; discriminate).
      apply C51_line_triangle in H; [|exact Hp|exact Nd]. destruct H as (s & Hs & H). exists p0, p1, s. auto.
    - destruct H as (p0 & p1 & s & Hin & Hp & Hs & H). exists (p0, p1). split; [exact Hin|]. cbn [fst snd].
      apply C51_line_triangle; [exact Hp|exact Nd|]. exists s. auto. }
  assert (F : exists g, finish d Polygon (Some (polygon_indices d polygon expand)) = inr g /\ indices g = Some (polygon_indices d polygon expand)).
  { apply finish_total. intros i Hi. apply In_ in Hi. apply Hi. }
  destruct F as (g & Fg & Ig). exists g, (polygon_indices d polygon expand).
  split; [|split; [exact Ig|split; [apply polygon_sorted|exact In_]]].
  unfold make_region, by_polygon. cbn [arg_indices arg_center arg_radius arg_polygon arg_line given orb expand_polygon].
  destruct polygon; [contradiction|]. exact Fg.
Qed.
Print Assumptions C92_polygon.

(** With [expand_polygon], a triangular polygon takes every triangle of the mesh
    that has a point in common with it. *)
Theorem C92_expand_covers :
  forall d a b c, mesh d -> tri_cross (a, b, c) <> 0 ->
  exists g l, make_region d (by_polygon [a; b; c] true) = inr g /\ indices g = Some l /\
  forall k q, (k < length (triangles d))%nat -> convex_combination false q (a, b, c) ->
    convex_combination false q (nth k (triangles d) no_triangle) -> In k l.
Proof.
  intros d a b c Md D. destruct (C92_polygon d [a; b; c] true Md ltac:(discriminate)) as (g & l & E & Ig & _ & H).
  exists g, l. split; [exact E|]. split; [exact Ig|]. intros k q Hk Q T. apply H. split; [exact Hk|].
  destruct Md as (_ & M). destruct (M k Hk) as (_ & Z).
  destruct (meets_or_inside a b c _ q _ D Q T Z) as [K|(p0 & p1 & s & He & Hs & K)]; [auto|]. right. split; [reflexivity|].
  exists p0, p1, s. split; [exact He|]. split; [|auto]. destruct a as [ax ay], b as [bx by_], c as [cx cy].
  cbn in He. unfold tri_cross in D. cbn [px py fst snd] in D. intros ->.
  destruct He as [He|[He|[He|[]]]]; injection He as <- E2; injection E2 as -> ->; apply D; ring.
Qed.
Print Assumptions C92_expand_covers.

(** A line of two points: the triangles the segment meets. *)
Theorem C92_line :
  forall d p0 p1, mesh d -> p0 <> p1 ->
  let meets k := (k < length (triangles d))%nat /\ exists s, 0 <= s <= 1 /\ convex_combination false (along p0 p1 s) (nth k (triangles d) no_triangle) in
  (make_region d (by_line [p0; p1]) = inl NothingFound <-> parallel d = false /\ forall k, ~ meets k) /\
  (forall e, make_region d (by_line [p0; p1]) = inl e -> e = NothingFound) /\
  (forall g, make_region d (by_line [p0; p1]) = inr g ->
     exists l, indices g = Some l /\ StronglySorted lt l /\ forall k, In k l <-> meets k).
Proof.
  intros d p0 p1 (L & M) Ne meets.
  assert (In_ : forall k, In k (line_intersect (triangles d) p0 p1) <-> meets k).
  { intros k. rewrite line_in. unfold meets. split; intros (Hk & H); (split; [exact Hk|]); destruct (M k Hk) as (Nd & _).
    - apply C51_line_triangle in H; auto.
    - apply C51_line_triangle; auto. }
  assert (F : exists g, finish d Line (Some (line_intersect (triangles d) p0 p1)) = inr g /\ indices g = Some (line_intersect (triangles d) p0 p1)).
  { apply finish_total. intros i Hi. apply In_ in Hi. apply Hi. }
  destruct F as (g & Fg & Ig).
  unfold make_region, by_line. cbn [arg_indices arg_center arg_radius arg_polygon arg_line given orb]. unfold finish_with, setup_line.
  assert (Sd : StronglySorted lt (line_intersect (triangles d) p0 p1)) by (rewrite line_list; apply filter_sorted, seq_sorted).
  destruct (line_intersect (triangles d) p0 p1) as [|k0 l0].
  - destruct (parallel d) eqn:Ep; cbn [negb andb].
    + rewrite Fg. split; [split; [discriminate|intros (? & _); discriminate]|]. split; [discriminate|].
      intros g' E; injection E as <-. exists []. split; [exact Ig|]. split; [constructor|exact In_].
    + split; [|split; [congruence|discriminate]]. split; [|reflexivity]. intros _. split; [reflexivity|]. intros k Hk. apply In_ in Hk. exact Hk.
  - rewrite andb_false_r, Fg. split; [split; [discriminate|intros (_ & H); exfalso; apply (H k0), In_; left; reflexivity]|].
    split; [discriminate|]. intros g' E; injection E as <-. exists (k0 :: l0). auto.
Qed.
Print Assumptions C92_line.

(** Numbers given: exactly these, in the order given; nothing given: all
    triangles; [poly]: a line with two points, a polygon with more. *)
Theorem C92_other :
  forall d,
  (forall l, (forall k, In k l -> (k < length (triangles d))%nat) -> exists g, make_region d (by_indices l) = inr g /\ indices g = Some l) /\
  (forall l, (exists k, In k l /\ (length (triangles d) <= k)%nat) -> make_region d (by_indices l) = inl IndexError) /\
  (exists g, make_region d nothing = inr g /\ indices g = None) /\
  (forall l expand, (2 < length l)%nat -> make_region d (by_poly l expand) = make_region d (by_polygon l expand)) /\
  (forall p0 p1 expand, make_region d (by_poly [p0; p1] expand) = make_region d (by_line [p0; p1])).
Proof.
  intros d. repeat split.
  - intros l H. unfold make_region, by_indices. cbn [arg_indices arg_center arg_radius arg_polygon arg_line given orb].
    destruct (finish_total d Empty l H) as (g & E & I). destruct (finish_total d IndicesSpecified l H) as (g' & E' & I').
    destruct l; [exists g|exists g']; auto.
  - intros l (k & Hk & Hl). unfold make_region, by_indices. cbn [arg_indices arg_center arg_radius arg_polygon arg_line given orb].
    assert (E : forallb (fun i => (i <? length (triangles d))%nat) l = false).
    { destruct (forallb _ l) eqn:E; [|reflexivity]. rewrite forallb_forall in E. specialize (E k Hk). apply Nat.ltb_lt in E. lia. }
    destruct l; [destruct Hk|]. unfold finish. rewrite E. reflexivity.
  - eexists. split; reflexivity.
  - intros l expand H. unfold make_region, by_poly, by_polygon. cbn [arg_indices arg_center arg_radius arg_polygon arg_line arg_poly given orb expand_polygon].
    apply Nat.ltb_lt in H. rewrite H. reflexivity.
Qed.
Print Assumptions C92_other.

(** [get_indices()] leaves out exactly the ghost triangles. *)
Theorem C92_full :
  forall d a g, make_region d a = inr g ->
  get_indices g true = Some (filter (is_full d) (match indices g with Some l => l | None => seq 0 (length (triangles d)) end)) /\
  get_indices g false = indices g.
Proof.
  intros d a g E. split; [|reflexivity]. unfold get_indices.
  assert (F : forall k l, finish d k l = inr g -> full_indices g = filter (is_full d) (members d g)).
  { intros k l H. apply finish_members in H. apply H. }
  assert (F' : forall k x, finish_with d k x = inr g -> full_indices g = filter (is_full d) (members d g)).
  { intros k [e|l] H; [discriminate|]. exact (F _ _ H). }
  fold (members d g). f_equal. unfold make_region in E.
  repeat match type of E with
  | context [match ?x with _ => _ end] => destruct x; try discriminate
  end; first [exact (F _ _ E)|exact (F' _ _ E)|idtac].
Qed.
Print Assumptions C92_full.

(** On several processes, each with the triangles [l2g] of the mesh: a triangle
    that a process owns is in its region exactly when it is in the region of the
    undivided domain; and the description that serves the undivided domain
    serves every process. *)
Theorem C92_parallel :
  forall g d l2g a, length (centroids g) = length (triangles g) -> length (centroids d) = length (triangles d) -> parallel d = true ->
  (forall k, (k < length (triangles d))%nat -> (l2g k < length (triangles g))%nat /\
     nth k (triangles d) no_triangle = nth (l2g k) (triangles g) no_triangle /\ nth k (centroids d) (0, 0) = nth (l2g k) (centroids g) (0, 0)) ->
  arg_indices a = None -> (forall k, is_full g k = true) ->
  forall whole, make_region g a = inr whole ->
  exists part, make_region d a = inr part /\
  forall k, (k < length (triangles d))%nat -> is_full d k = true ->
    (In k (full_indices part) <-> In (l2g k) (full_indices whole)).
Proof.
  intros g d l2g a Lg Ld P Map N Fg whole Ew.
  assert (Ex : exists part, make_region d a = inr part).
  { assert (Pl : forall polygon expand w, finish_with g Polygon (setup_polygon g polygon expand) = inr w -> exists part, finish_with d Polygon (setup_polygon d polygon expand) = inr part).
    { intros polygon expand w. unfold setup_polygon. destruct polygon as [|p ps]; [discriminate|]. intros _. cbn [finish_with].
      destruct (finish_total d Polygon (polygon_indices d (p :: ps) expand)) as (x & Ex & _); [|exists x; exact Ex].
      intros i Hi. apply (polygon_in d _ _ i Ld) in Hi. apply Hi. }
    assert (Ll : forall line w, finish_with g Line (setup_line g line) = inr w -> exists part, finish_with d Line (setup_line d line) = inr part).
    { intros line w. unfold setup_line. destruct line as [|p0 [|p1 ps]]; try discriminate. intros _. rewrite P. cbn [negb andb finish_with].
      destruct (finish_total d Line (line_intersect (triangles d) p0 p1)) as (x & Ex & _); [|exists x; exact Ex].
      intros i Hi. apply line_in in Hi. apply Hi. }
    unfold make_region in Ew |- *. rewrite N in *.
    assert (Fl : exists part, finish d FullRegion None = inr part) by (eexists; reflexivity).
    destruct (arg_center a) as [m|], (arg_radius a) as [rd|]; cbn [given orb] in *.
    - destruct (given (arg_polygon a) || given (arg_line a)); [discriminate|]. unfold setup_circle. rewrite P. cbn [negb andb finish_with].
      destruct (finish_total d Circle (circle_indices d m rd)) as (x & Ex & _); [|exists x; exact Ex].
      intros i Hi. apply circle_in in Hi. rewrite <- Ld. apply Hi.
    - destruct (arg_polygon a); [discriminate|]. destruct (arg_line a); [discriminate|]. destruct (arg_poly a); [discriminate|exact Fl].
    - destruct (arg_polygon a); [discriminate|]. destruct (arg_line a); [discriminate|]. destruct (arg_poly a); [discriminate|exact Fl].
    - destruct (arg_polygon a) as [polygon|]; [destruct (arg_line a); [discriminate|exact (Pl _ _ _ Ew)]|].
      destruct (arg_line a) as [line|]; [exact (Ll _ _ Ew)|]. destruct (arg_poly a) as [poly|]; [|exact Fl].
      destruct (2 <? length poly)%nat; [exact (Pl _ _ _ Ew)|exact (Ll _ _ Ew)]. }
  destruct Ex as (part & Ep). exists part. split; [exact Ep|]. intros k Hk Fk.
  assert (Full : forall d g, get_indices g true = Some (filter (is_full d) (members d g)) -> full_indices g = filter (is_full d) (members d g)).
  { intros ? ? H. injection H as H. exact H. }
  rewrite (Full d part (proj1 (C92_full d a part Ep))), (Full g whole (proj1 (C92_full g a whole Ew))).
  rewrite !filter_In. destruct (members_chosen d a part Ld N Ep) as (_ & Cd), (members_chosen g a whole Lg N Ew) as (_ & Cg).
  rewrite Cd, Cg. destruct (Map k Hk) as (H1 & H2 & H3). rewrite H2, H3. rewrite Fk, Fg. tauto.
Qed.
Print Assumptions C92_parallel.

(** ** What goes wrong *)

Definition corner_triangle (x : R) : triangle := ((x, 0), (x + 3, 0), (x, 3)).
Definition three : domain := {| centroids := [(1, 1); (11, 1); (21, 1)]; triangles := [corner_triangle 0; corner_triangle 10; corner_triangle 20];
  is_full := fun _ => true; parallel := false |}.

Lemma three_mesh : mesh three.
Proof.
  split; [reflexivity|]. intros k Hk. cbn in Hk.
  destruct k as [|[|[|k]]]; [| | |lia]; cbn -[Rplus]; (split; [lra|]); exists (1/3), (1/3), (1/3); lra.
Qed.

(** The centre without the radius (or the radius without the centre) is no
    error: the region is the whole domain. *)
Theorem C92_radius_refuted :
  forall d c, make_region d {| arg_indices := None; arg_center := Some c; arg_radius := None; arg_polygon := None; arg_line := None; arg_poly := None; expand_polygon := false |}
    = make_region d nothing /\
  forall r, make_region d {| arg_indices := None; arg_center := None; arg_radius := Some r; arg_polygon := None; arg_line := None; arg_poly := None; expand_polygon := false |}
    = make_region d nothing.
Proof. intros. split; reflexivity. Qed.
Print Assumptions C92_radius_refuted.

(** Of a polyline, only the first segment is used. *)
Theorem C92_polyline_refuted :
  (forall d p0 p1 rest, make_region d (by_line (p0 :: p1 :: rest)) = make_region d (by_line [p0; p1])) /\
  mesh three /\
  (exists g, make_region three (by_line [(0, 1); (12, 1); (22, 1)]) = inr g /\ ~ In 2%nat (full_indices g)) /\
  convex_combination false (along (12, 1) (22, 1) (9 / 10)) (nth 2 (triangles three) no_triangle).
Proof.
  split; [reflexivity|]. split; [exact three_mesh|]. split.
  - destruct (C92_line three (0, 1) (12, 1) three_mesh ltac:(intros E; injection E; lra)) as (F & En & S).
    change (make_region three (by_line [(0, 1); (12, 1); (22, 1)])) with (make_region three (by_line [(0, 1); (12, 1)])).
    destruct (make_region three (by_line [(0, 1); (12, 1)])) as [e|g] eqn:E.
    + exfalso. specialize (En e E). subst e. destruct (proj1 F E) as (_ & K). apply (K 0%nat). split; [cbn; lia|].
      exists 0. split; [lra|]. exists (2/3), 0, (1/3). cbn -[Rplus]. unfold along, px, py. cbn [fst snd]. lra.
    + exists g. split; [reflexivity|]. destruct (S g E) as (l & Il & _ & Hl). intros K.
      pose proof (proj1 (C92_full three _ g E)) as Fu. unfold get_indices in Fu. rewrite Il in Fu. injection Fu as Fu. rewrite Fu in K.
      apply filter_In in K as (K & _). apply Hl in K as (_ & s & Hs & l1 & m1 & n1 & (P1 & P2 & P3) & Sm & X & _).
      cbn -[Rplus] in X. unfold along, px in X. cbn [fst snd] in X. nra.
  - exists (1/3), (1/3), (1/3). unfold along, px, py. cbn -[Rplus]. lra.
Qed.
Print Assumptions C92_polyline_refuted.

(** A [poly] of one point is taken for a line and read beyond its end; an
    argument [poly] beside [indices] is ignored. *)
Theorem C92_poly_refuted :
  (forall d p expand, make_region d (by_poly [p] expand) = inl ReadsOutside) /\
  (forall d l poly, make_region d {| arg_indices := Some l; arg_center := None; arg_radius := None; arg_polygon := None; arg_line := None; arg_poly := Some poly; expand_polygon := false |}
    = make_region d (by_indices l)).
Proof. split; reflexivity. Qed.
Print Assumptions C92_poly_refuted.

(** The hypotheses above hold of a mesh of three triangles, and the regions are
    neither empty nor everything. *)
Example C92_case : mesh three /\
  (exists g, make_region three (circle (0, 0) 2) = inr g /\ full_indices g = [0%nat]) /\
  (exists g l, make_region three (by_polygon [(2, 0); (12, 0); (2, 5)] true) = inr g /\ indices g = Some l /\ In 0%nat l /\ In 1%nat l /\ ~ In 2%nat l).
Proof.
  split; [exact three_mesh|]. split.
  - unfold make_region, circle, finish_with, setup_circle, circle_indices. cbn [arg_indices arg_center arg_radius arg_polygon arg_line given orb three centroids length seq filter map nth parallel negb].
    unfold in_circle. cbn [px py fst snd]. rewrite (proj2 (Rltb_true ((1 - 0) * (1 - 0) + (1 - 0) * (1 - 0)) (2 * 2))) by lra.
    rewrite (proj2 (Rltb_false ((11 - 0) * (11 - 0) + (1 - 0) * (1 - 0)) (2 * 2))) by lra. rewrite (proj2 (Rltb_false ((21 - 0) * (21 - 0) + (1 - 0) * (1 - 0)) (2 * 2))) by lra.
    cbn. eexists. split; reflexivity.
  - destruct (C92_expand_covers three (2, 0) (12, 0) (2, 5) three_mesh ltac:(cbn; lra)) as (g & l & E & I & H). exists g, l.
    split; [exact E|]. split; [exact I|].
    split; [apply (H 0%nat (2, 0)); [cbn; lia|exists 1, 0, 0; cbn; lra|exists (1/3), (2/3), 0; cbn -[Rplus]; lra]|].
    split; [apply (H 1%nat (11, 0)); [cbn; lia|exists (1/10), (9/10), 0; cbn; lra|exists (2/3), (1/3), 0; cbn -[Rplus]; lra]|].
    destruct (C92_polygon three [(2, 0); (12, 0); (2, 5)] true three_mesh ltac:(discriminate)) as (g' & l' & E' & I' & _ & H').
    pose proof (eq_trans (eq_sym E) E') as Q. injection Q as <-. rewrite I in I'. injection I' as <-. rewrite H'. intros (_ & [K|(_ & p0 & p1 & s & He & _ & Hs & l1 & m1 & n1 & (P1 & P2 & P3) & Sm & X & _)]).
    + cbn [three centroids nth] in K. pose proof (C19_bounding_box [(2, 0); (12, 0); (2, 5)] true 21 1) as B.
      destruct B as (B & _); [left; intros p [<-|[<-|[<-|[]]]]; cbn; lra|discriminate|]. pose proof (eq_trans (eq_sym B) K). discriminate.
    + cbn -[Rplus] in He, X. unfold along, px in X. cbn [fst snd] in X. destruct He as [He|[He|[He|[]]]]; injection He as <- <-; cbn [fst snd] in X; nra.
Qed.
