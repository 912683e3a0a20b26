(** * C99: Polygons, tags and resolutions given by the user reach the mesh
    generator, and its tags reach the domain *)
From Coq Require Import Reals Lra List Arith ZArith Bool Lia.
From Verif Require Import RealLib ArrayLib PolygonModel PolygonProofs PolygonProps NeighbourModel NeighbourProofs NeighbourProps MeshInputModel MeshInputProofs.
Import ListNotations.
Local Open Scope nat_scope.

(** Vocabulary, from MeshInputProofs.v:
    - [outline m]: the segments of the mesh as pairs of absolute points, each
      with its tag;
    - [path l]: the pieces of an open line, [cycle l]: the sides of a polygon;
    - [plain l]: the segments [l] with the tag '';
    - [wanted d default n i]: the tag of the last entry of the dictionary [d]
      that lists the number [i] (or [i - n]), otherwise [default];
    - [tagged d default polygon]: the sides of the polygon, side [i] with
      [wanted d default (length polygon) i].
    The next lemmas show them on small cases. *)
Example path_case a b c : path [a; b; c] = [(a, b); (b, c)]. Proof. reflexivity. Qed.
Example cycle_case a b c : cycle [a; b; c] = [(a, b); (b, c); (c, a)]. Proof. reflexivity. Qed.
Example wanted_case : map (wanted [(7, [0; 2]%Z); (8, [-2; 2]%Z)] no_tag 4) [0; 1; 2; 3] = [7; no_tag; 8; no_tag]. Proof. reflexivity. Qed.

(** ** What is given to the mesh generator *)

(** The segments are the breaklines, the sides of the bounding polygon with the
    tags of [boundary_tags] (otherwise ''), the sides of the interior polygons
    and the sides of the holes with the tags of [hole_tags] (otherwise
    'interior'), in absolute coordinates whatever the two georeferences are. *)
Theorem C99_outline :
  forall fuel q m, create_mesh fuel q = inr m ->
  let abs := map (absolute (poly_ref q)) in
  let kept := filter (fun r => within (bounding q) (fst r)) (or_nil (interior_regions q)) in
  let hs := or_nil (interior_holes q) in
  outline m = plain (flat_map path (or_nil (breaklines q))) ++ tagged (or_nil (MeshInputModel.boundary_tags q)) no_tag (abs (bounding q)) ++
              flat_map (fun r => plain (cycle (abs (fst r)))) kept ++
              flat_map (fun h => tagged (hole_dict (hole_tags q) (fst h)) interior (abs (snd h))) (numbered 0 hs) /\
  map (unshift (corner m)) (vertices m) = concat (or_nil (breaklines q)) ++ abs (bounding q) ++ flat_map (fun r => abs (fst r)) kept ++ flat_map abs hs /\
  (fail_if_outside q = true -> kept = or_nil (interior_regions q)) /\
  Forall (fun poly => 3 <= length poly /\ within (bounding q) poly = true) hs.
Proof. intros fuel q m H. pose proof (create_spec fuel q m H) as S0. cbn zeta in *. tauto. Qed.
Print Assumptions C99_outline.

(** The regions are, in this order: a point inside the bounding polygon with the
    maximum area asked for; for each interior polygon a point inside it, with
    the resolution of that polygon; the points given by the user.  Each hole has
    one point, inside its polygon. *)
Theorem C99_regions :
  forall fuel q m, create_mesh fuel q = inr m ->
  let inside poly p := point_inside (map (absolute (poly_ref q)) poly) false (unshift (corner m) p) = true in
  let kept := filter (fun r => within (bounding q) (fst r)) (or_nil (interior_regions q)) in
  (exists p ps, inside (bounding q) p /\ Forall2 (fun r p => inside (fst r) p) kept ps /\
    regions m = (p, no_tag, max_area q) :: map (fun x => (snd x, no_tag, Some (snd (fst x)))) (combine kept ps)
                ++ map (fun r => (shift (corner m) (fst r), no_tag, Some (snd r))) (or_nil (region_points q))) /\
  Forall2 inside (or_nil (interior_holes q)) (holes m).
Proof.
  intros fuel q m H inside kept. pose proof (create_spec fuel q m H) as S0. cbn zeta in S0. fold kept in S0.
  destruct S0 as (_ & _ & _ & _ & _ & _ & HH & p & rs & I & F & R). split; [|exact HH].
  exists p, (map (fun r => fst (fst r)) rs). split; [exact I|]. rewrite R. clear R HH I. split.
  - induction F as [|r x kept' rs' M F IH]; cbn [map]; constructor; auto. apply M.
  - f_equal. f_equal. induction F as [|r [[x t] a] kept' rs' M F IH]; cbn [map combine fst snd]; [reflexivity|].
    destruct M as (_ & M1 & M2). cbn [fst snd] in M1, M2. rewrite M1, M2. now f_equal.
Qed.
Print Assumptions C99_regions.

(** A number that is not the number of a segment is refused: at the upper end by
    the check, at the lower end (below [-N]) by the list. *)
Theorem C99_out_of_range :
  forall fuel q d key is x, MeshInputModel.boundary_tags q = Some d -> In (key, is) d -> In x is ->
  ((Z.of_nat (length (bounding q)) <= x)%Z -> create_mesh fuel q = inl SegmentError) /\
  ((x < - Z.of_nat (length (bounding q)))%Z -> forall m, create_mesh fuel q <> inr m).
Proof.
  intros fuel q d key is x D I J. split.
  - intros L. unfold create_mesh. rewrite D.
    assert (E : out_of_bounds (length (bounding q)) d = true); [|now rewrite E].
    apply existsb_exists. exists (key, is). split; [assumption|]. apply existsb_exists. exists x. split; [assumption|]. apply Z.ltb_lt. lia.
  - intros L m H. unfold create_mesh in H. rewrite D in H.
    destruct (out_of_bounds _ _); [discriminate|]. destruct (keep_inside _ _ _) as [|k]; [discriminate|]. cbn [bind] in H.
    destruct (check_holes _ _) as [|u]; [discriminate|]. cbn [bind] in H.
    match type of H with bind ?t _ = _ => destruct t as [|m0] end; [discriminate|]. cbn [bind] in H.
    assert (E : exists e, tag_dict2list (Some d) (length (map (absolute (poly_ref q)) (bounding q))) false = inl e).
    { rewrite map_length. unfold tag_dict2list.
      assert (Q : forall d l, length l = length (bounding q) -> In (key, is) d -> exists e, set_tags l d = inl e).
      { clear - J L. induction d as [|[k2 is2] d IH]; intros l LL I; [easy|]. cbn [set_tags].
        destruct I as [I|I].
        - injection I as -> ->. rewrite set_items_out; [eexists; reflexivity|]. exists x. split; [assumption|]. lia.
        - destruct (set_items l is2 k2) as [e|l1] eqn:E; [eexists; reflexivity|]. cbn [bind]. apply IH; [|assumption].
          destruct l as [|t l].
          + destruct is2 as [|y is2]; [cbn in E; now injection E as <-|]. rewrite set_items_out in E; [discriminate|].
            exists y. split; [now left|]. cbn. lia.
          + destruct (set_items_nth _ _ _ _ 0 E) as (Q & _); [cbn; lia|]. congruence. }
      apply Q; [apply repeat_length|assumption]. }
    destruct E as (e & E). unfold add_polygon in H. cbn [is_hole] in H. rewrite E in H. discriminate.
Qed.
Print Assumptions C99_out_of_range.

(** Before the generator is called, repeated points are merged: no point is
    repeated afterwards, no point is lost, and every segment still runs between
    the same places. *)
Theorem C99_points :
  forall points segs ps ss, Forall (fun s => fst s < length points /\ snd s < length points) segs ->
  generate_input points segs = (ps, ss) ->
  NoDup ps /\ (forall p, In p ps <-> In p points) /\ Forall (fun s => fst s < length ps /\ snd s < length ps) ss /\
  map (fun s => (nth (fst s) ps (0, 0)%R, nth (snd s) ps (0, 0)%R)) ss =
  map (fun s => (nth (fst s) points (0, 0)%R, nth (snd s) points (0, 0)%R)) segs.
Proof.
  intros points segs ps ss F H. unfold generate_input in H. apply merge_spec in H; auto; [lia|].
  destruct points as [|p points]; [constructor|]. cbn. repeat constructor. easy.
Qed.
Print Assumptions C99_points.

(** Tags become integers for the generator and strings again afterwards: the
    round trip is the identity for every list of tags; 0 stands for '' and 1 for
    'exterior' and for nothing else; the list of initial conversions, reversed
    in place, reads the same afterwards; the number of region [i] is the number
    of its tag in the table. *)
Theorem C99_markers :
  forall l, let '(ints, table, preset) := segment_strings2ints l initialconversions in
  preset = initialconversions /\ length ints = length l /\
  forall i x, nth_error l i = Some x -> exists j, nth_error ints i = Some (Some j) /\ nth_error table j = Some x /\
    (j = 0 <-> x = no_tag) /\ (j = 1 <-> x = exterior).
Proof.
  intros l. destruct (segment_strings2ints l initialconversions) as [[ints table] preset] eqn:E.
  assert (E1 : ints = map (marker l) l) by (change ints with (fst (fst (ints, table, preset))); rewrite <- E; apply markers_form).
  assert (E2 : table = snd (fst (segment_strings2ints l initialconversions))) by now rewrite E.
  assert (E3 : preset = snd (segment_strings2ints l initialconversions)) by now rewrite E.
  split; [rewrite E3; reflexivity|]. split; [rewrite E1; apply map_length|]. intros i x N.
  destruct (marker_spec l x) as (j & M & T & A & B); [left; now apply nth_error_In in N|]. exists j. rewrite E1, (map_nth_error _ _ _ N), M, E2.
  repeat split; try assumption; try reflexivity; tauto.
Qed.
Print Assumptions C99_markers.
Theorem C99_region_markers :
  forall rs i r, nth_error rs i = Some r -> exists j, nth_error (region_ints rs) i = Some j /\ nth_error (region_table rs) j = Some (snd (fst r)).
Proof.
  intros rs i r N. exists (S i). unfold region_ints, region_table. split.
  - assert (L : i < length rs) by (apply nth_error_Some; congruence). rewrite (nth_error_nth' _ 0) by (now rewrite seq_length). now rewrite seq_nth.
  - cbn [nth_error]. now apply (map_nth_error (fun r : region => snd (fst r))).
Qed.
Print Assumptions C99_region_markers.

(** ** From the output of the generator to the domain *)

(** The dictionary is refused exactly for meshes with a repeated edge, and
    otherwise an edge has the tag of the last segment with a tag that joins its
    ends, in either direction. *)
Theorem C99_dictionary :
  forall ts segs, (pmesh_tags ts segs <> None <-> edges_unique ts) /\
  forall d, pmesh_tags ts segs = Some d ->
  (forall v e a b, has_edge ts v e a b ->
   lookup d (v, e) = option_map snd (find (fun s => negb (snd s =? no_tag) && (key_eqb (fst s) (a, b) || key_eqb (fst s) (b, a))) (rev segs))) /\
  (forall v e, In (v, e) (map fst d) -> v < length ts /\ e < 3).
Proof.
  intros ts segs. split; [rewrite pmesh_tags_iff; symmetry; apply edges_unique_key|]. intros d D. split.
  - intros v e a b E. apply has_edge_key in E as (t & N & L & K). rewrite (pmesh_tags_lookup _ _ _ _ _ _ D N L), K. f_equal.
    assert (Q : forall s, gives (a, b) s = negb (snd s =? no_tag) && (key_eqb (fst s) (a, b) || key_eqb (fst s) (b, a))).
    { intros [[x y] t']. unfold gives, key_eqb, swap. cbn [fst snd]. now rewrite (andb_comm (y =? a)). }
    induction (rev segs) as [|s l IH]; cbn [find]; [reflexivity|]. now rewrite Q, IH.
  - apply (pmesh_tags_keys _ _ _ D).
Qed.
Print Assumptions C99_dictionary.

(** A point of a segment. *)
Definition on (s : point * point) (p : point) : Prop :=
  exists t, (0 <= t <= 1 /\ px p = px (fst s) + t * (px (snd s) - px (fst s)) /\ py p = py (fst s) + t * (py (snd s) - py (fst s)))%R.
Definition boundary_edge (ts : list tri) (v e a b : nat) : Prop := has_edge ts v e a b /\ forall l j, ~ has_edge ts l j b a.

(** What is assumed of Triangle: no directed edge twice; every segment of the
    output lies on a segment of the input and has its marker, except that the
    marker 0 becomes 1 on the boundary; every edge of the boundary is a segment
    of the output. *)
Definition triangulation (input : list ((point * point) * nat)) (nodes : list point) (ts : list tri) (osegs : list ((nat * nat) * nat)) : Prop :=
  edges_unique ts /\
  (forall a b k, In ((a, b), k) osegs -> exists s j, In (s, j) input /\ on s (nth a nodes (0, 0)%R) /\ on s (nth b nodes (0, 0)%R) /\
    (k = j \/ (j = 0 /\ k = 1 /\ exists v e, boundary_edge ts v e a b \/ boundary_edge ts v e b a))) /\
  (forall v e a b, boundary_edge ts v e a b -> exists k, In ((a, b), k) osegs \/ In ((b, a), k) osegs).

Lemma on_unshift c s p : on s p -> on (unshift c (fst s), unshift c (snd s)) (unshift c p).
Proof. intros (t & T & X & Y). exists t. unfold unshift, px, py in *. cbn [fst snd] in *. split; [assumption|]. rewrite X, Y. split; ring. Qed.

Lemma combine_map2 {A B C D} (f : A -> C) (g : B -> D) (l : list (A * B)) : combine (map f (map fst l)) (map g (map snd l)) = map (fun s => (f (fst s), g (snd s))) l.
Proof. induction l as [|[a b] l IH]; cbn; congruence. Qed.
Lemma boundary_swap ts v e a b l j : boundary_edge ts v e a b -> has_edge ts l j b a -> False.
Proof. intros (_ & N) H. exact (N _ _ H). Qed.

(** From the request to the domain: whatever triangulation is returned, the tags
    are found without an error, and every edge of the boundary of the domain gets
    the tag of a segment of the user on which it lies, where '' gives 'exterior'.
    An edge that is not on the boundary has an entry only if it lies on a segment
    with a tag, and then this tag. *)
Theorem C99_tags :
  forall fuel q m ps ss, create_mesh fuel q = inr m -> generate_input (vertices m) (map fst (segments m)) = (ps, ss) ->
  let '(ints, table, _) := segment_strings2ints (map snd (segments m)) initialconversions in
  exists markers, ints = map Some markers /\
  forall nodes ts osegs, triangulation (combine (located ps ss) markers) nodes ts osegs ->
  exists strings d rows bd,
    segment_ints2strings (map snd osegs) table = map Some strings /\
    pmesh_tags ts (combine (map fst osegs) strings) = Some d /\
    build_neighbour_structure ts = Some rows /\ boundary_dictionary rows exterior d = Some bd /\
    let place i := unshift (corner m) (nth i nodes (0, 0)%R) in
    (forall v e a b, boundary_edge ts v e a b -> exists s t, In (s, t) (outline m) /\ on s (place a) /\ on s (place b) /\
       lookup bd (v, e) = Some (if t =? no_tag then exterior else t)) /\
    (forall v e a b t, has_edge ts v e a b -> ~ boundary_edge ts v e a b -> lookup bd (v, e) = Some t ->
       t <> no_tag /\ exists s, In (s, t) (outline m) /\ on s (place a) /\ on s (place b)).
Proof.
  intros fuel q m ps ss H G.
  assert (W : well m) by (pose proof (create_spec fuel q m H) as S0; cbn zeta in S0; tauto).
  apply C99_points in G. 2:{ rewrite Forall_map. eapply Forall_impl; [|exact W]. cbn. auto. }
  destruct G as (_ & _ & _ & LOC). fold (located ps ss) in LOC.
  set (tl := map snd (segments m)) in *. pose proof (marker_spec tl) as MS. pose proof (markers_form tl) as MF.
  destruct (segment_strings2ints tl initialconversions) as [[ints table] preset]. cbn [fst snd] in MS, MF. 
  set (f := fun t => match marker tl t with Some j => j | None => 0 end).
  exists (map f tl). split.
  { rewrite MF, map_map. apply map_ext_in. intros t I. destruct (MS t) as (j & M & _); [now left|]. unfold f. now rewrite M. }
  assert (FS : forall t, In t tl -> nth_error table (f t) = Some t /\ (t = no_tag <-> f t = 0)).
  { intros t I. destruct (MS t) as (j & M & N & Z0 & _); [now left|]. unfold f. rewrite M. auto. }
  assert (T1 : nth_error table 1 = Some exterior).
  { destruct (MS exterior) as (j & _ & N & _ & O1); [auto|]. now rewrite <- (proj1 O1 eq_refl). }
  clear MS MF. intros nodes ts osegs (EU & SRC & ALL).
  set (g := fun s : nat * nat => (nth (fst s) (vertices m) (0%R, 0%R), nth (snd s) (vertices m) (0%R, 0%R))).
  assert (IN : combine (located ps ss) (map f tl) = map (fun s => (g (fst s), f (snd s))) (segments m)).
  { rewrite LOC. fold g. unfold tl. apply combine_map2. }
  set (place := fun i => unshift (corner m) (nth i nodes (0%R, 0%R))).
  assert (SRC2 : forall a b k, In ((a, b), k) osegs -> exists s t, In (s, t) (outline m) /\ on s (place a) /\ on s (place b) /\
    ((nth_error table k = Some t) \/ (t = no_tag /\ nth_error table k = Some exterior /\ exists v e, boundary_edge ts v e a b \/ boundary_edge ts v e b a))).
  { intros a b k I. destruct (SRC a b k I) as (s & j & I2 & O1 & O2 & K). rewrite IN in I2. apply in_map_iff in I2 as (sg & E & I2). injection E as <- <-.
    exists (unshift (corner m) (fst (g (fst sg))), unshift (corner m) (snd (g (fst sg)))), (snd sg).
    split; [|split; [now apply on_unshift|split; [now apply on_unshift|]]].
    - unfold outline. apply in_map_iff. exists sg. split; [reflexivity|assumption].
    - destruct (FS (snd sg)) as (F1 & F2); [now apply in_map|]. destruct K as [->|(K1 & -> & K2)]; [now left|]. right. split; [now apply F2|]. auto. }
  set (h := fun k => nth k table no_tag).
  assert (HS : forall a b k, In ((a, b), k) osegs -> nth_error table k = Some (h k)).
  { intros a b k I. destruct (SRC2 a b k I) as (s & t & _ & _ & _ & [K|(_ & K & _)]); rewrite K; f_equal; symmetry; now apply nth_error_nth. }
  exists (map h (map snd osegs)).
  assert (D : pmesh_tags ts (combine (map fst osegs) (map h (map snd osegs))) <> None) by (apply C99_dictionary; exact EU).
  destruct (pmesh_tags _ _) as [d|] eqn:ED; [clear D|congruence]. exists d.
  assert (B : build_neighbour_structure ts <> None) by (apply C06_rejected_iff_duplicate_edge; exact EU).
  destruct (build_neighbour_structure ts) as [rows|] eqn:EB; [clear B|congruence]. exists rows.
  assert (LR : length rows = length ts /\ forall v e a b, boundary_edge ts v e a b -> (nb rows v e <? 0)%Z = true).
  { unfold build_neighbour_structure in EB. destruct (build_table [] 0 ts) as [tbl|] eqn:ET; [|discriminate]. injection EB as <-. split; [apply map_length|].
    intros v e a b (E & N). apply has_edge_key in E as (t & NT & L & K). destruct (nb_row ts _ tbl v e t ET eq_refl NT L) as (-> & _).
    destruct (lookup tbl (swap (edge_key t e))) as [[v' e']|] eqn:EL; [|reflexivity]. exfalso. apply (table_lookup _ _ _ _ _ ET) in EL as (t' & NT' & L' & K').
    apply (N v' e'). apply has_edge_key. exists t'. rewrite K', K. auto. }
  destruct LR as (LR & NB). destruct (pmesh_tags_keys _ _ _ ED) as (ND & KEYS).
  assert (BD : exists bd, boundary_dictionary rows exterior d = Some bd).
  { unfold boundary_dictionary. destruct (keys_ok (length rows) d) eqn:EK; [eexists; reflexivity|]. exfalso.
    assert (keys_ok (length rows) d = true); [|congruence]. apply forallb_forall. intros [[v e] t] I. cbn [fst snd].
    destruct (KEYS v e) as (K1 & K2); [now apply (in_map fst) in I|]. rewrite LR. apply andb_true_intro. split; now apply Nat.ltb_lt. }
  destruct BD as (bd & BD). exists bd. split.
  { unfold segment_ints2strings. rewrite !map_map. apply map_ext_in. intros [[a b] k] I. cbn [snd]. eapply HS. exact I. }
  split; [reflexivity|]. split; [reflexivity|]. split; [exact BD|]. cbn zeta. fold place.
  destruct (boundary_dictionary_spec rows exterior d bd ND BD) as (_ & LB & _). rewrite LR in LB.
  assert (LD : forall v e a b, has_edge ts v e a b -> v < length ts /\ e < 3 /\
    ((exists t, lookup d (v, e) = Some t /\ t <> no_tag /\ exists k, h k = t /\ (In ((a, b), k) osegs \/ In ((b, a), k) osegs)) \/
     (lookup d (v, e) = None /\ forall k, In ((a, b), k) osegs \/ In ((b, a), k) osegs -> h k = no_tag))).
  { intros v e a b E. pose proof E as E'. apply has_edge_key in E' as (t & NT & L & K).
    split; [apply nth_error_Some; congruence|]. split; [assumption|].
    rewrite (pmesh_tags_lookup _ _ _ _ _ _ ED NT L), K.
    assert (CB : combine (map fst osegs) (map h (map snd osegs)) = map (fun s => (fst s, h (snd s))) osegs).
    { rewrite <- (map_id (map fst osegs)). apply (combine_map2 (fun x => x) h). }
    rewrite CB. clear CB.
    destruct (find (gives (a, b)) (rev (map (fun s => (fst s, h (snd s))) osegs))) as [s|] eqn:EF; cbn [option_map].
    - left. apply find_some in EF as (I & GV). apply in_rev in I. apply in_map_iff in I as ([[x y] k] & <- & I). unfold gives in GV. cbn [fst snd] in GV |- *.
      exists (h k). split; [reflexivity|]. apply andb_prop in GV as (G1 & G2). split; [intros E0; rewrite E0 in G1; discriminate|]. exists k. split; [reflexivity|].
      apply orb_prop in G2 as [G2|G2]; [destruct (key_eqb_spec (x, y) (a, b)) as [Q|]|destruct (key_eqb_spec (swap (x, y)) (a, b)) as [Q|]]; try discriminate;
        unfold swap in Q; cbn [fst snd] in Q; injection Q as -> ->; auto.
    - right. split; [reflexivity|]. intros k I.
      assert (X : exists x y, In ((x, y), k) osegs /\ (key_eqb (x, y) (a, b) || key_eqb (swap (x, y)) (a, b)) = true).
      { destruct I as [I|I]; [exists a, b | exists b, a]; (split; [assumption|]); unfold swap, key_eqb; cbn [fst snd]; rewrite !Nat.eqb_refl; [reflexivity | apply orb_true_r]. }
      destruct X as (x & y & I2 & X). assert (I3 : In ((x, y), h k) (rev (map (fun s => (fst s, h (snd s))) osegs))).
      { rewrite <- in_rev. apply in_map_iff. exists ((x, y), k). auto. }
      pose proof (find_none _ _ EF _ I3) as GV. unfold gives in GV. cbn [fst snd] in GV. rewrite X, andb_true_r in GV. destruct (Nat.eqb_spec (h k) no_tag); [assumption|discriminate]. }
  assert (PLACE : forall a b k, In ((a, b), k) osegs \/ In ((b, a), k) osegs -> exists s t, In (s, t) (outline m) /\ on s (place a) /\ on s (place b) /\
     (h k = t \/ (t = no_tag /\ h k = exterior /\ exists v e, boundary_edge ts v e a b \/ boundary_edge ts v e b a))).
  { intros a b k [I|I]; destruct (SRC2 _ _ _ I) as (s & t & I2 & O1 & O2 & K); exists s, t; (split; [assumption|]); (split; [assumption|]); (split; [assumption|]);
      rewrite (HS _ _ _ I) in K; destruct K as [K|(K1 & K2 & v & e & K3)]; [left; congruence | right | left; congruence | right];
      (split; [assumption|]; split; [congruence|]; exists v, e; tauto). }
  split.
  - intros v e a b BE. destruct (LD v e a b (proj1 BE)) as (Lv & Le & [(t & LT & NT & k & HK & I)|(LN & Q)]); rewrite (LB v e Lv Le).
    + rewrite LT. destruct (PLACE a b k I) as (s & t' & I2 & O1 & O2 & K). exists s, t'. repeat (split; [assumption|]).
      destruct K as [K|(-> & K & _)].
      * assert (t' = t) as -> by congruence. destruct (Nat.eqb_spec t no_tag); [contradiction|reflexivity].
      * rewrite Nat.eqb_refl. cbv beta iota. rewrite <- HK, K. reflexivity.
    + rewrite LN, (NB v e a b BE). destruct (ALL v e a b BE) as (k & I). destruct (PLACE a b k I) as (s & t' & I2 & O1 & O2 & K). exists s, t'. repeat (split; [assumption|]).
      rewrite (Q k I) in K. destruct K as [<-|(_ & K & _)]; [reflexivity|discriminate].
  - intros v e a b t E NBE LT. destruct (LD v e a b E) as (Lv & Le & [(t0 & LT0 & NT & k & HK & I)|(LN & Q)]); rewrite (LB v e Lv Le) in LT.
    + rewrite LT0 in LT. injection LT as ->. split; [assumption|]. destruct (PLACE a b k I) as (s & t' & I2 & O1 & O2 & K).
      destruct K as [K|(_ & _ & v' & e' & [K|K])].
      * exists s. replace t with t' by congruence. auto.
      * exfalso. apply NBE. split; [assumption|]. apply K.
      * exfalso. exact (boundary_swap _ _ _ _ _ _ _ K E).
    + rewrite LN in LT. destruct (Z.ltb_spec (nb rows v e) 0) as [NG|]; [|discriminate]. exfalso. apply NBE. split; [assumption|].
      intros l j HE. pose proof (proj2 (C06_neighbour_is_opposite_edge ts rows v e a b EB E l j) HE) as (N1 & _). lia.
Qed.
Print Assumptions C99_tags.

(** ** Cases, and statements of the documentation that do not hold *)

Lemma find_exists {A} (f : A -> bool) l x : In x l -> f x = true -> exists y, find f l = Some y.
Proof. intros I E. destruct (find f l) as [y|] eqn:F; [eauto|]. rewrite (find_none _ _ F _ I) in E. discriminate. Qed.
Lemma delta_bounds : (0 < default_delta < / 1000)%R.
Proof.
  unfold default_delta. split; [apply Rinv_0_lt_compat; apply pow_lt; lra|]. apply Rinv_lt_contravar; [|cbn; lra].
  apply Rmult_lt_0_compat; [lra|apply pow_lt; lra].
Qed.
Definition corner_triangle : list point := [(0, 0); (1, 0); (0, 1)]%R.
Lemma inside_corner d : (0 < d < / 1000)%R -> point_inside corner_triangle false (d, d) = true.
Proof.
  intros D. rewrite C19_decision.
  - unfold corner_triangle. rewrite edges_combine. cbn [app combine existsb filter fst snd px py].
    rewrite !not_on_line by nra. cbn [orb]. unfold crosses_left. cbn [px py fst snd].
    replace (1 + (d - 0) / (1 - 0) * (0 - 1))%R with (1 - d)%R by lra.
    replace (0 + (d - 1) / (0 - 1) * (0 - 0))%R with 0%R by lra. rdecide. reflexivity.
  - exists (0, 0)%R. split; [cbn; auto 10|cbn; lra].
  - exists (1, 0)%R. split; [cbn; auto 10|cbn; lra].
  - exists (0, 0)%R. split; [cbn; auto 10|cbn; lra].
  - exists (0, 1)%R. split; [cbn; auto 10|cbn; lra].
Qed.
Lemma found_corner : exists p, point_in_polygon 1 default_delta corner_triangle = inr p.
Proof.
  destruct (find_exists (point_inside corner_triangle false) (nearby default_delta corner_triangle) (default_delta, default_delta)) as (p & E).
  - unfold nearby, corner_triangle. cbn [flat_map map px py fst snd app]. unfold nudged. replace (Reqb 0 0) with true by (destruct (Reqb_spec 0 0); [reflexivity|congruence]).
    rewrite !Rmult_1_l. cbn [In]. tauto.
  - apply inside_corner, delta_bounds.
  - exists p. cbn [point_in_polygon]. now rewrite E.
Qed.

(** A request with one tag on the segments 0 and -1: segment 1 is left out. *)
Definition small_request : request :=
  {| bounding := corner_triangle; MeshInputModel.boundary_tags := Some [(7, [0; -1]%Z)]; max_area := Some 5%R;
     interior_regions := None; interior_holes := None; hole_tags := None; poly_ref := None; mesh_ref := Some (100, 200)%R;
     breaklines := Some [[(1/8, 1/8); (1/4, 1/8); (1/4, 1/4)]]%R; fail_if_outside := true; region_points := Some [((1/2, 1/4), 3)]%R |}.
Lemma small_mesh : exists m, create_mesh 1 small_request = inr m.
Proof.
  destruct found_corner as (p & E). unfold create_mesh, small_request. cbn [bounding MeshInputModel.boundary_tags interior_regions interior_holes breaklines or_nil keep_inside check_holes bind].
  replace (out_of_bounds (length corner_triangle) [(7, [0; -1]%Z)]) with false by reflexivity.
  replace (map (absolute None) corner_triangle) with corner_triangle by reflexivity. cbn [poly_ref max_area region_points hole_tags].
  replace (map (absolute None) corner_triangle) with corner_triangle by reflexivity. rewrite E.
  cbn. eexists. reflexivity.
Qed.
Example C99_case : exists m, create_mesh 1 small_request = inr m /\
  map snd (outline m) = [no_tag; no_tag; 7; no_tag; 7] /\
  map fst (outline m) = [((1/8, 1/8), (1/4, 1/8)); ((1/4, 1/8), (1/4, 1/4)); ((0, 0), (1, 0)); ((1, 0), (0, 1)); ((0, 1), (0, 0))]%R.
Proof.
  destruct small_mesh as (m & H). exists m. split; [exact H|]. destruct (C99_outline _ _ _ H) as (O & _). rewrite O.
  split; reflexivity.
Qed.

(** "If a segment is omitted an Exception will be raised": the request leaves
    out segment 1, and the mesh is made; the only reaction is a warning.  The
    warning is also given for segment 2, which has a tag (it was named -1). *)
Theorem C99_omitted_refuted :
  exists q m, create_mesh 1 q = inr m /\ wanted (or_nil (MeshInputModel.boundary_tags q)) no_tag (length (bounding q)) 1 = no_tag /\
  In 2 (untagged (length (bounding q)) (or_nil (MeshInputModel.boundary_tags q))) /\
  wanted (or_nil (MeshInputModel.boundary_tags q)) no_tag (length (bounding q)) 2 = 7.
Proof. destruct small_mesh as (m & H). exists small_request, m. split; [exact H|]. cbn. auto. Qed.
Print Assumptions C99_omitted_refuted.

(** Only the vertices of an interior polygon are compared with the bounding
    polygon: a polygon that leaves it is taken to be inside. *)
Definition bent : list point := [(0, 0); (4, 0); (4, 4); (3, 1)]%R.
Definition across : list point := [(0, 0); (4, 0); (4, 4)]%R.
Theorem C99_inside_refuted :
  within bent across = true /\ point_inside across false (2, 3/2)%R = true /\ point_inside bent true (2, 3/2)%R = false.
Proof.
  split; [|split].
  - assert (V : forall x y, In (x, y) across -> point_inside bent true (x, y) = true).
    { intros x y I. rewrite C19_decision.
      - assert (E : existsb (fun e => point_on_line x y (px (fst e)) (py (fst e)) (px (snd e)) (py (snd e)) 0 0) (edges_of bent) = true); [|now rewrite E].
        apply existsb_exists. unfold bent. rewrite edges_combine. cbn [app combine].
        destruct I as [I|[I|[I|[]]]]; injection I as <- <-.
        + exists ((0, 0), (4, 0))%R. split; [cbn; tauto|]. apply (point_on_line_exact _ _ _ _ _ _ _ _ 0); cbn; lra.
        + exists ((0, 0), (4, 0))%R. split; [cbn; tauto|]. apply (point_on_line_exact _ _ _ _ _ _ _ _ 1); cbn; lra.
        + exists ((4, 0), (4, 4))%R. split; [cbn; tauto|]. apply (point_on_line_exact _ _ _ _ _ _ _ _ 1); cbn; lra.
      - exists (0, 0)%R. split; [cbn; auto 10|]. destruct I as [I|[I|[I|[]]]]; injection I as <- <-; cbn; lra.
      - exists (4, 0)%R. split; [cbn; auto 10|]. destruct I as [I|[I|[I|[]]]]; injection I as <- <-; cbn; lra.
      - exists (0, 0)%R. split; [cbn; auto 10|]. destruct I as [I|[I|[I|[]]]]; injection I as <- <-; cbn; lra.
      - exists (4, 4)%R. split; [cbn; auto 10|]. destruct I as [I|[I|[I|[]]]]; injection I as <- <-; cbn; lra. }
    unfold within, inside_polygon, separate_points_by_polygon, across in *. cbn [map]. rewrite !V by (cbn; auto). reflexivity.
  - rewrite C19_decision.
    + unfold across. rewrite edges_combine. cbn [app combine existsb filter fst snd px py]. rewrite !not_on_line by lra. cbn [orb].
      unfold crosses_left. cbn [px py fst snd].
      replace (4 + (3 / 2 - 0) / (4 - 0) * (4 - 4))%R with 4%R by lra.
      replace (4 + (3 / 2 - 4) / (0 - 4) * (0 - 4))%R with (3/2)%R by lra. rdecide. reflexivity.
    + exists (0, 0)%R. split; [cbn; auto 10|cbn; lra].
    + exists (4, 0)%R. split; [cbn; auto 10|cbn; lra].
    + exists (0, 0)%R. split; [cbn; auto 10|cbn; lra].
    + exists (4, 4)%R. split; [cbn; auto 10|cbn; lra].
  - rewrite C19_decision.
    + unfold bent. rewrite edges_combine. cbn [app combine existsb filter fst snd px py]. rewrite !not_on_line by lra. cbn [orb].
      unfold crosses_left. cbn [px py fst snd].
      replace (4 + (3 / 2 - 0) / (4 - 0) * (4 - 4))%R with 4%R by lra.
      replace (4 + (3 / 2 - 4) / (1 - 4) * (3 - 4))%R with (19/6)%R by lra. rdecide. reflexivity.
    + exists (0, 0)%R. split; [cbn; auto 10|cbn; lra].
    + exists (4, 0)%R. split; [cbn; auto 10|cbn; lra].
    + exists (0, 0)%R. split; [cbn; auto 10|cbn; lra].
    + exists (4, 4)%R. split; [cbn; auto 10|cbn; lra].
Qed.
Print Assumptions C99_inside_refuted.

(** "the square root of 2 * delta is the maximum distance": the step is relative
    to the coordinate, and the point returned for this triangle is a thousand
    times farther away. *)
Definition far_triangle : list point := [(1000, 1000); (0, 1000); (1000, 0)]%R.
Theorem C99_distance_refuted :
  exists p, point_in_polygon 1 default_delta far_triangle = inr p /\
  Forall (fun v => (Rabs (px p - px v) > 500 * default_delta \/ Rabs (py p - py v) > 500 * default_delta)%R) far_triangle.
Proof.
  pose proof delta_bounds as D. set (d := default_delta) in *. exists (1000 - 1000 * d, 1000 - 1000 * d)%R. split.
  - cbn [point_in_polygon]. unfold nearby, far_triangle at 2. cbn [flat_map map px py fst snd app find].
    assert (NU : nudged 1000 (-1) d = (1000 - 1000 * d)%R).
    { unfold nudged. replace (Reqb 1000 0) with false by (destruct (Reqb_spec 1000 0); [lra|reflexivity]). ring. }
    rewrite !NU.
    assert (E : point_inside far_triangle false (1000 - 1000 * d, 1000 - 1000 * d)%R = true); [|now rewrite E].
    set (x := (1000 - 1000 * d)%R). assert (X : (999 - 1 <= x < 1000)%R) by (unfold x; lra). clearbody x. rewrite C19_decision.
    + unfold far_triangle. rewrite edges_combine. cbn [app combine existsb filter fst snd px py]. rewrite !not_on_line by lra. cbn [orb].
      unfold crosses_left. cbn [px py fst snd].
      replace (0 + (x - 1000) / (0 - 1000) * (1000 - 0))%R with (1000 - x)%R by lra.
      replace (1000 + (x - 0) / (1000 - 0) * (1000 - 1000))%R with 1000%R by lra. rdecide. reflexivity.
    + exists (0, 1000)%R. split; [cbn; auto 10|cbn; lra].
    + exists (1000, 1000)%R. split; [cbn; auto 10|cbn; lra].
    + exists (1000, 0)%R. split; [cbn; auto 10|cbn; lra].
    + exists (1000, 1000)%R. split; [cbn; auto 10|cbn; lra].
  - apply Forall_forall. intros v [<-|[<-|[<-|[]]]]; cbn [px py fst snd].
    + left. rewrite Rabs_left; lra.
    + left. rewrite Rabs_right; lra.
    + right. rewrite Rabs_right; lra.
Qed.
Print Assumptions C99_distance_refuted.

(** The search for a point inside has no end for a polygon without an inside. *)
Theorem C99_endless_refuted :
  forall fuel delta a b, point_in_polygon fuel delta [a; b] = inl Endless.
Proof.
  induction fuel as [|fuel IH]; intros delta a b; [reflexivity|]. cbn [point_in_polygon].
  assert (N : forall p, point_inside [a; b] false p = false).
  { intros [x y]. unfold point_inside. destruct (box [a; b]) as [[[u v] w] z]. destruct (_ || _); [reflexivity|].
    rewrite check_edges_spec. destruct (existsb _ _); [reflexivity|].
    rewrite edges_combine. destruct a as [ax ay], b as [bx by_]. unfold crossings. cbn [app combine filter fst snd]. unfold crosses_left. cbn [px py fst snd].
    destruct (Req_dec by_ ay) as [->|NE].
    - replace (Rltb ay y && Rleb y ay) with false by (rdestruct; try reflexivity; lra). reflexivity.
    - replace (bx + (y - by_) / (ay - by_) * (ax - bx))%R with (ax + (y - ay) / (by_ - ay) * (bx - ax))%R by (field; lra).
      rewrite (orb_comm (Rltb by_ y && _)). destruct (_ && _); reflexivity. }
  destruct (find _ _) as [p|] eqn:F; [apply find_some in F as (_ & F); rewrite N in F; discriminate | apply IH].
Qed.
Print Assumptions C99_endless_refuted.

(** A bounding polygon that repeats its first point at the end: the mesh
    generator is given a segment from a point to itself. *)
Theorem C99_closed_refuted :
  forall fuel q m p l ps ss, create_mesh fuel q = inr m -> bounding q = p :: l ++ [p] ->
  generate_input (vertices m) (map fst (segments m)) = (ps, ss) -> exists i, In (i, i) ss.
Proof.
  intros fuel q m p l ps ss H B G. pose proof (create_spec fuel q m H) as S0. cbn zeta in S0. destruct S0 as (_ & _ & W & _ & _ & O & _).
  apply C99_points in G. 2:{ rewrite Forall_map. eapply Forall_impl; [|exact W]. cbn. auto. }
  destruct G as (ND & _ & IN & LOC).
  assert (S1 : exists t, In ((absolute (poly_ref q) p, absolute (poly_ref q) p), t) (outline m)).
  { rewrite O, B. set (P := map (absolute (poly_ref q)) (p :: l ++ [p])). set (x := absolute (poly_ref q) p).
    assert (I : In (x, x) (cycle P)).
    { unfold P. rewrite map_cons, map_app. cbn [map]. fold x. unfold cycle. cbn [tl firstn].
      replace ((x :: map (absolute (poly_ref q)) l ++ [x])) with ((x :: map (absolute (poly_ref q)) l) ++ [x]) by reflexivity.
      rewrite combine_app_last by (rewrite app_length; cbn; lia). apply in_or_app. right. now left. }
    assert (LEN : length (map (wanted (or_nil (MeshInputModel.boundary_tags q)) no_tag (length P)) (seq 0 (length P))) = length (cycle P)) by (now rewrite map_length, seq_length, cycle_length).
    apply (In_nth _ _ (x, x)) in I as (n & Ln & E).
    exists (nth n (map (wanted (or_nil (MeshInputModel.boundary_tags q)) no_tag (length P)) (seq 0 (length P))) no_tag).
    apply in_or_app. right. apply in_or_app. left. unfold tagged. rewrite <- E at 1. rewrite <- combine_nth by (symmetry; exact LEN). apply nth_In. rewrite combine_length. lia. }
  destruct S1 as (t & S1). unfold outline in S1. apply in_map_iff in S1 as (s & E & I). injection E as E1 E2 _.
  assert (EQ : nth (fst (fst s)) (vertices m) (0, 0)%R = nth (snd (fst s)) (vertices m) (0, 0)%R).
  { unfold at_ in E1, E2. rewrite <- E2 in E1. unfold unshift, px, py in E1. injection E1 as X Y. apply injective_projections; lra. }
  assert (J : In (nth (fst (fst s)) (vertices m) (0, 0)%R, nth (snd (fst s)) (vertices m) (0, 0)%R)
    (map (fun s => (nth (fst s) (vertices m) (0, 0)%R, nth (snd s) (vertices m) (0, 0)%R)) (map fst (segments m)))).
  { rewrite map_map. apply in_map_iff. exists s. auto. }
  rewrite <- LOC in J. apply in_map_iff in J as ([i j] & EJ & J). injection EJ as A1 A2. cbn [fst snd] in A1, A2. rewrite <- EQ in A2.
  rewrite Forall_forall in IN. destruct (IN _ J) as (L1 & L2). cbn [fst snd] in L1, L2.
  exists i. replace j with i in J; [assumption|]. apply (proj1 (NoDup_nth ps (0, 0)%R) ND); auto. congruence.
Qed.
Print Assumptions C99_closed_refuted.

(** Non-vacuity of the merge: the closed triangle, whose last point is its first. *)
Example C99_merge_case :
  generate_input [(0, 0); (1, 0); (0, 1); (0, 0)]%R [(0, 1); (1, 2); (2, 3); (3, 0)] = ([(0, 0); (1, 0); (0, 1)]%R, [(0, 1); (1, 2); (2, 0); (0, 0)]).
Proof.
  assert (T : Reqb 0 0 = true) by (destruct (Reqb_spec 0 0); [reflexivity|congruence]).
  assert (F1 : Reqb 1 0 = false) by (destruct (Reqb_spec 1 0); [lra|reflexivity]).
  assert (F2 : Reqb 0 1 = false) by (destruct (Reqb_spec 0 1); [lra|reflexivity]).
  unfold generate_input. cbn [length merge Nat.ltb Nat.leb Nat.sub Nat.add nth firstn first_equal]. unfold same_point. cbn [px py fst snd]. rewrite T, F1. cbn [andb option_map].
  rewrite F2. cbn [andb option_map]. reflexivity.
Qed.

(** Non-vacuity of the assumption about the mesh generator, and the dictionary
    for it: one triangle, whose sides are the three segments. *)
Example C99_triangulation_case :
  let input := [(((0, 0), (1, 0))%R, 3); (((1, 0), (0, 1))%R, 0); (((0, 1), (0, 0))%R, 3)] in
  triangulation input [(0, 0); (1, 0); (0, 1)]%R [(0, 1, 2)] [((0, 1), 3); ((1, 2), 1); ((2, 0), 3)] /\
  pmesh_tags [(0, 1, 2)] [((0, 1), 7); ((1, 2), exterior); ((2, 0), 7)] = Some [((0, 2), 7); ((0, 0), exterior); ((0, 1), 7)] /\
  pmesh_tags [(0, 1, 2); (0, 1, 3)] [] = None.
Proof.
  assert (HE : forall v e a b, has_edge [(0, 1, 2)] v e a b -> v = 0 /\ ((e = 0 /\ a = 1 /\ b = 2) \/ (e = 1 /\ a = 2 /\ b = 0) \/ (e = 2 /\ a = 0 /\ b = 1))).
  { intros v e a b (n0 & n1 & n2 & N & C). destruct v as [|v]; [|destruct v; discriminate]. injection N as <- <- <-. auto. }
  split; [|split; reflexivity]. split; [|split].
  - intros k i l j a b H1 H2. apply HE in H1, H2. lia.
  - assert (ON : forall s, on s (fst s) /\ on s (snd s)).
    { intros [[x y] [z w]]. split; [exists 0%R | exists 1%R]; cbn; lra. }
    intros a b k [I|[I|[I|[]]]]; injection I as <- <- <-.
    + exists ((0, 0), (1, 0))%R, 3. split; [cbn; auto|]. split; [apply (ON ((0, 0), (1, 0))%R)|]. split; [apply (ON ((0, 0), (1, 0))%R)|]. now left.
    + exists ((1, 0), (0, 1))%R, 0. split; [cbn; auto|]. split; [apply (ON ((1, 0), (0, 1))%R)|]. split; [apply (ON ((1, 0), (0, 1))%R)|]. right.
      split; [reflexivity|]. split; [reflexivity|]. exists 0, 0. left. split; [exists 0, 1, 2; cbn; auto|]. intros l j H. apply HE in H. lia.
    + exists ((0, 1), (0, 0))%R, 3. split; [cbn; auto|]. split; [apply (ON ((0, 1), (0, 0))%R)|]. split; [apply (ON ((0, 1), (0, 0))%R)|]. now left.
  - intros v e a b (H & _). apply HE in H as (-> & [(-> & -> & ->)|[(-> & -> & ->)|(-> & -> & ->)]]); eexists; left; cbn; eauto.
Qed.
Example C99_markers_case : segment_strings2ints [7; no_tag; exterior; 8; 7] initialconversions = ([Some 4; Some 0; Some 1; Some 3; Some 4], [no_tag; exterior; no_tag; 8; 7], initialconversions).
Proof. reflexivity. Qed.
