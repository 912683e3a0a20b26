(** Lemmas about [MeshInputModel]. *)
From Coq Require Import Reals Lra List Arith ZArith Bool Lia Permutation.
From Verif Require Import RealLib ArrayLib PolygonModel NeighbourModel NeighbourProofs MeshInputModel.
Import ListNotations.
Local Open Scope nat_scope.

(** ** The tag dictionary *)
Definition names (n : nat) (i : nat) (x : Z) : bool := (x =? Z.of_nat i)%Z || (x =? Z.of_nat i - Z.of_nat n)%Z.
Definition wanted (d : tags) (default : tag) (n i : nat) : tag :=
  match find (fun e => existsb (names n i) (snd e)) (rev d) with Some e => fst e | None => default end.

Lemma set_item_nth l x v l' i : set_item l x v = inr l' -> i < length l ->
  length l' = length l /\ nth i l' no_tag = if names (length l) i x then v else nth i l no_tag.
Proof.
  unfold set_item, names. intros H Hi.
  assert (LT : (i <? length l) = true) by (now apply Nat.ltb_lt).
  destruct (Z.leb_spec 0 x), (Z.ltb_spec x (Z.of_nat (length l))), (Z.leb_spec (- Z.of_nat (length l)) x), (Z.ltb_spec x 0); cbn [andb] in H; try discriminate; try lia;
    injection H as <-; (split; [apply set_nth_length|]); rewrite nth_set_nth, LT, andb_true_r;
    match goal with |- context [Nat.eqb ?a ?b] => destruct (Nat.eqb_spec a b) end;
    destruct (Z.eqb_spec x (Z.of_nat i)), (Z.eqb_spec x (Z.of_nat i - Z.of_nat (length l))); cbn [orb]; try reflexivity; lia.
Qed.

Lemma set_items_nth is : forall l v l' i, set_items l is v = inr l' -> i < length l ->
  length l' = length l /\ nth i l' no_tag = if existsb (names (length l) i) is then v else nth i l no_tag.
Proof.
  induction is as [|x is IH]; intros l v l' i H Hi; cbn [set_items bind existsb] in *; [injection H as <-; auto|].
  destruct (set_item l x v) as [|l1] eqn:E; [discriminate|]. cbn [bind] in H. destruct (set_item_nth _ _ _ _ i E Hi) as (L1 & N1).
  destruct (IH l1 v l' i H) as (L2 & N2); [lia|]. rewrite L1 in L2, N2. split; [congruence|]. rewrite N2, N1.
  destruct (names (length l) i x), (existsb (names (length l) i) is); reflexivity.
Qed.
Lemma find_app {A} (f : A -> bool) l1 l2 : find f (l1 ++ l2) = match find f l1 with Some x => Some x | None => find f l2 end.
Proof. induction l1 as [|a l1 IH]; cbn; [reflexivity|]. destruct (f a); auto. Qed.
Lemma set_tags_nth d : forall l l' i, set_tags l d = inr l' -> i < length l ->
  length l' = length l /\ nth i l' no_tag = wanted d (nth i l no_tag) (length l) i.
Proof.
  unfold wanted. induction d as [|[key is] d IH]; intros l l' i H Hi; cbn [set_tags bind rev] in *; [injection H as <-; auto|].
  destruct (set_items l is key) as [|l1] eqn:E; [discriminate|]. cbn [bind] in H. destruct (set_items_nth _ _ _ _ i E Hi) as (L1 & N1).
  destruct (IH l1 l' i H) as (L2 & N2); [lia|]. rewrite L1 in L2, N2. split; [congruence|]. rewrite N2, find_app.
  destruct (find _ (rev d)) as [e|]; [reflexivity|]. cbn [find snd]. rewrite N1. destruct (existsb _ is); reflexivity.
Qed.
Lemma nth_repeat_lt {A} (x d : A) n i : i < n -> nth i (repeat x n) d = x.
Proof. intros H. revert i H. induction n as [|n IH]; intros [|i] H; cbn; try lia; auto. apply IH. lia. Qed.
Lemma tag_list_spec d n hole ts : tag_dict2list d n hole = inr ts ->
  ts = map (wanted (or_nil d) (if hole then interior else no_tag) n) (seq 0 n).
Proof.
  unfold tag_dict2list. intros H. set (def := if hole then interior else no_tag) in *.
  assert (E : match d with Some d => d | None => [] end = or_nil d) by reflexivity. rewrite E in H. clear E.
  destruct n as [|n].
  - cbn [repeat seq map] in *. destruct ts as [|t ts]; [reflexivity|]. exfalso.
    assert (Q : forall d l, set_tags [] d = inr l -> l = []).
    { clear. induction d as [|[k is] d IH]; intros l H; cbn in H; [now injection H as <-|].
      destruct (set_items [] is k) as [|l1] eqn:E; [discriminate|]. cbn [bind] in H.
      assert (l1 = []) as ->; [|now apply IH].
      destruct is as [|x is]; cbn in E; [now injection E as <-|]. unfold set_item in E. cbn [length Z.of_nat] in E.
      destruct (Z.leb_spec 0 x), (Z.ltb_spec x 0), (Z.leb_spec (-0) x); cbn [andb bind] in E; try discriminate; lia. }
    apply Q in H. discriminate.
  - assert (L : length ts = S n /\ forall i, i < S n -> nth i ts no_tag = wanted (or_nil d) def (S n) i).
    { split.
      - destruct (set_tags_nth _ _ _ 0 H) as (L & _); [rewrite repeat_length; lia|]. now rewrite repeat_length in L.
      - intros i Hi. destruct (set_tags_nth _ _ _ i H) as (_ & N); [now rewrite repeat_length|]. now rewrite N, repeat_length, nth_repeat_lt. }
    destruct L as (L & N). apply (nth_ext _ _ no_tag no_tag); [now rewrite map_length, seq_length|]. intros i Hi. rewrite L in Hi.
    rewrite N by assumption. set (f := wanted (or_nil d) def (S n)). rewrite (nth_indep _ no_tag (f 0)) by (now rewrite map_length, seq_length).
    rewrite map_nth, seq_nth by assumption. reflexivity.
Qed.

(** ** The outline in absolute coordinates *)
Definition at_ (m : pmesh) (i : nat) : point := unshift (corner m) (nth i (vertices m) (0%R, 0%R)).
Definition outline (m : pmesh) : list ((point * point) * tag) :=
  map (fun s => ((at_ m (fst (fst s)), at_ m (snd (fst s))), snd s)) (segments m).
Definition well (m : pmesh) : Prop := Forall (fun s => fst (fst s) < length (vertices m) /\ snd (fst s) < length (vertices m)) (segments m).
Definition path (l : list point) : list (point * point) := combine l (tl l).
Definition cycle (l : list point) : list (point * point) := combine l (tl l ++ firstn 1 l).

Lemma unshift_shift c p : unshift c (shift c p) = p.
Proof. destruct p, c. unfold unshift, shift, px, py. cbn [fst snd]. f_equal; lra. Qed.

Lemma add_segments_spec n off segs : forall old ss, add_segments n off old segs = inr ss ->
  ss = old ++ map (fun s => (fst (fst s) + off, snd (fst s) + off, snd s)) segs /\
  Forall (fun s => fst (fst s) + off < n /\ snd (fst s) + off < n) segs.
Proof.
  induction segs as [|[[a b] t] segs IH]; intros old ss H; cbn [add_segments] in H.
  - injection H as <-. cbn. rewrite app_nil_r. auto.
  - destruct (Nat.leb_spec n (a + off)), (Nat.leb_spec n (b + off)); cbn [orb] in H; try discriminate.
    destruct (a =? b); [discriminate|]. apply IH in H as (-> & F). split.
    + cbn [map fst snd]. rewrite <- app_assoc. cbn [app]. do 3 f_equal. destruct (Nat.eqb_spec t no_tag); congruence.
    + constructor; auto.
Qed.
Lemma verts_segs m points segs ts m' : well m -> length ts = length segs ->
  Forall (fun s => fst s < length points /\ snd s < length points) segs ->
  addVertsSegs m points segs ts = inr m' ->
  well m' /\ corner m' = corner m /\ holes m' = holes m /\ regions m' = regions m /\
  map (unshift (corner m')) (vertices m') = map (unshift (corner m)) (vertices m) ++ points /\
  outline m' = outline m ++ map (fun s => ((nth (fst (fst s)) points (0%R, 0%R), nth (snd (fst s)) points (0%R, 0%R)), snd s)) (combine segs ts).
Proof.
  intros W LT IN H. unfold addVertsSegs in H.
  destruct (add_segments _ _ _ _) as [|ss] eqn:E; [discriminate|]. cbn [bind] in H. injection H as <-.
  apply add_segments_spec in E as (-> & F). split; [|split; [reflexivity|split; [reflexivity|split; [reflexivity|split]]]].
  - unfold well in *. cbn [vertices segments]. rewrite app_length. apply Forall_app. split.
    + eapply Forall_impl; [|exact W]. cbn. lia.
    + rewrite Forall_map. eapply Forall_impl; [|exact F]. cbn [fst snd]. rewrite app_length. auto.
  - cbn [vertices corner]. rewrite map_app. f_equal. rewrite map_map. rewrite <- (map_id points) at 2. apply map_ext. intros. apply unshift_shift.
  - unfold outline, at_. cbn [vertices segments corner]. rewrite map_app. f_equal.
    + apply map_ext_in. intros s I. unfold well in W. rewrite Forall_forall in W. destruct (W s I). now rewrite !app_nth1 by assumption.
    + rewrite map_map. apply map_ext_in. intros [[a b] t] I. cbn [fst snd]. apply in_combine_l in I. rewrite Forall_forall in IN. destruct (IN _ I) as (I1 & I2). cbn [fst snd] in *.
      assert (Q : forall a, a < length points -> unshift (corner m) (nth (a + length (vertices m)) (vertices m ++ map (shift (corner m)) points) (0%R, 0%R)) = nth a points (0%R, 0%R)).
      { intros a' Ha. rewrite app_nth2 by lia. replace (a' + length (vertices m) - length (vertices m)) with a' by lia.
        rewrite (nth_indep _ (0%R, 0%R) (shift (corner m) (0%R, 0%R))) by (now rewrite map_length). rewrite map_nth. apply unshift_shift. }
      now rewrite !Q.
Qed.

Lemma ring_in n : Forall (fun s => fst s < n /\ snd s < n) (ring n).
Proof.
  unfold ring. rewrite Forall_map. apply Forall_forall. intros i I. apply in_seq in I. cbn [fst snd]. split; [lia|]. apply Nat.mod_upper_bound. lia.
Qed.
Lemma ring_length n : length (ring n) = n.
Proof. unfold ring. now rewrite map_length, seq_length. Qed.
Lemma cycle_length l : length (cycle l) = length l.
Proof. unfold cycle. rewrite combine_length, app_length. destruct l; cbn [tl firstn length]; lia. Qed.
Lemma ring_cycle l d : map (fun s => (nth (fst s) l d, nth (snd s) l d)) (ring (length l)) = cycle l.
Proof.
  apply (nth_ext _ _ (d, d) (d, d)); [now rewrite map_length, ring_length, cycle_length|]. rewrite map_length, ring_length. intros i Hi.
  unfold ring. rewrite map_map.
  set (f := fun x => (nth (fst (x, (x + 1) mod length l)) l d, nth (snd (x, (x + 1) mod length l)) l d)).
  rewrite (nth_indep _ (d, d) (f 0)) by (now rewrite map_length, seq_length). rewrite map_nth, seq_nth by assumption. unfold f. cbn [fst snd plus].
  destruct l as [|p r]; [cbn in Hi; lia|]. unfold cycle. cbn [tl firstn]. rewrite combine_nth by (rewrite app_length; cbn; lia). f_equal.
  cbn [length] in *. destruct (Nat.eq_dec i (length r)) as [-> | N].
  - replace (length r + 1) with (S (length r)) by lia. rewrite Nat.mod_same by lia. rewrite app_nth2 by lia. now rewrite Nat.sub_diag.
  - rewrite Nat.mod_small by lia. rewrite app_nth1 by lia. now rewrite Nat.add_1_r.
Qed.
Lemma map_combine {A B C} (f : A -> C) (l : list A) (ts : list B) : map (fun s => (f (fst s), snd s)) (combine l ts) = combine (map f l) ts.
Proof. revert ts. induction l as [|a l IH]; intros [|t ts]; cbn; auto. now rewrite IH. Qed.

Lemma find_point fuel : forall delta polygon p, point_in_polygon fuel delta polygon = inr p -> point_inside polygon false p = true.
Proof.
  induction fuel as [|fuel IH]; intros delta polygon p H; cbn [point_in_polygon] in H; [discriminate|].
  destruct (find _ _) as [p'|] eqn:E; [injection H as <-; now apply find_some in E | eauto].
Qed.

Definition tagged (d : tags) (default : tag) (polygon : list point) : list ((point * point) * tag) :=
  combine (cycle polygon) (map (wanted d default (length polygon)) (seq 0 (length polygon))).

Lemma add_polygon_spec fuel m polygon d geo k m' : well m -> add_polygon fuel m polygon d geo k = inr m' ->
  let P := map (absolute geo) polygon in
  well m' /\ corner m' = corner m /\
  map (unshift (corner m')) (vertices m') = map (unshift (corner m)) (vertices m) ++ P /\
  outline m' = outline m ++ tagged (or_nil d) (if is_hole k then interior else no_tag) P /\
  match k with
  | Outline => holes m' = holes m /\ regions m' = regions m
  | Hole => regions m' = regions m /\ exists p, point_inside P false p = true /\ holes m' = holes m ++ [shift (corner m) p]
  | Area a => holes m' = holes m /\ exists p, point_inside P false p = true /\ regions m' = regions m ++ [(shift (corner m) p, no_tag, Some a)]
  end.
Proof.
  intros W H P. unfold add_polygon in H. fold P in H.
  destruct (tag_dict2list d (length P) (is_hole k)) as [|ts] eqn:ET; [discriminate|]. cbn [bind] in H. apply tag_list_spec in ET.
  destruct (addVertsSegs m P (ring (length P)) ts) as [|m1] eqn:EV; [discriminate|]. cbn [bind] in H.
  apply verts_segs in EV; [|assumption | now rewrite ET, map_length, seq_length, ring_length | apply ring_in].
  destruct EV as (W1 & C1 & H1 & R1 & V1 & O1).
  assert (O2 : outline m1 = outline m ++ tagged (or_nil d) (if is_hole k then interior else no_tag) P).
  { rewrite O1. f_equal. unfold tagged. rewrite <- ET, <- (ring_cycle P (0%R, 0%R)). now rewrite <- map_combine. }
  destruct k; cbn [is_hole] in *.
  - injection H as <-. auto 10.
  - destruct (point_in_polygon fuel default_delta P) as [|p] eqn:EP; [discriminate|]. cbn [bind] in H. injection H as <-. apply find_point in EP.
    cbn [add_hole corner vertices holes regions]. rewrite H1. repeat (split; [first [assumption | exact O2]|]). exists p. rewrite C1. auto.
  - destruct (point_in_polygon fuel default_delta P) as [|p] eqn:EP; [discriminate|]. cbn [bind] in H. injection H as <-. apply find_point in EP.
    cbn [add_region corner vertices holes regions]. rewrite R1. repeat (split; [first [assumption | exact O2]|]). exists p. rewrite C1. auto.
Qed.

(** ** Breaklines *)
Lemma lines_of_in polys : forall o, Forall (fun s => fst s < o + length (concat polys) /\ snd s < o + length (concat polys)) (lines_of o polys).
Proof.
  induction polys as [|p polys IH]; intros o; cbn [lines_of concat]; [constructor|]. rewrite app_length. apply Forall_app. split.
  - rewrite Forall_map. apply Forall_forall. intros i I. apply in_seq in I. cbn [fst snd]. lia.
  - eapply Forall_impl; [|apply IH]. cbn. lia.
Qed.
Lemma lines_path d (p : list point) : forall pre post,
  map (fun i => (nth i (pre ++ p ++ post) d, nth (i + 1) (pre ++ p ++ post) d)) (seq (length pre) (length p - 1)) = path p.
Proof.
  induction p as [|a p IH]; intros pre post; [reflexivity|]. destruct p as [|b p]; [reflexivity|].
  cbn [length Nat.sub]. rewrite ?Nat.sub_0_r. cbn [seq map]. unfold path. cbn [tl combine]. f_equal.
  - f_equal.
    + rewrite app_nth2 by lia. now rewrite Nat.sub_diag.
    + rewrite app_nth2 by lia. now replace (length pre + 1 - length pre) with 1 by lia.
  - specialize (IH (pre ++ [a]) post). rewrite <- app_assoc in IH. cbn [app] in IH. rewrite app_length in IH. cbn [length] in IH.
    rewrite Nat.add_1_r in IH. cbn [length Nat.sub] in IH. rewrite ?Nat.sub_0_r in IH. exact IH.
Qed.
Lemma lines_spec d polys : forall pre, map (fun s => (nth (fst s) (pre ++ concat polys) d, nth (snd s) (pre ++ concat polys) d)) (lines_of (length pre) polys) = flat_map path polys.
Proof.
  induction polys as [|p polys IH]; intros pre; [reflexivity|]. cbn [lines_of concat flat_map]. rewrite map_app, map_map. f_equal.
  - cbn [fst snd]. apply lines_path.
  - specialize (IH (pre ++ p)). rewrite app_length, <- app_assoc in IH. exact IH.
Qed.
Lemma untagged_list d n hole : or_nil d = [] -> tag_dict2list d n hole = inr (repeat (if hole then interior else no_tag) n).
Proof. unfold tag_dict2list. destruct d as [[|]|]; cbn; intros; try discriminate; reflexivity. Qed.

Definition plain (l : list (point * point)) : list ((point * point) * tag) := map (fun s => (s, no_tag)) l.
Lemma combine_repeat {A B} (l : list A) (b : B) : combine l (repeat b (length l)) = map (fun s => (s, b)) l.
Proof. induction l as [|a l IH]; cbn; congruence. Qed.

Lemma tagged_nil def p : tagged [] def p = map (fun s => (s, def)) (cycle p).
Proof.
  unfold tagged, wanted. cbn [rev find].
  assert (E : map (fun _ : nat => def) (seq 0 (length p)) = repeat def (length p)).
  { generalize 0. induction (length p) as [|n IH]; intros s; cbn; [reflexivity|]. f_equal. apply IH. }
  rewrite E, <- (cycle_length p) at 1. apply combine_repeat.
Qed.

(** ** The parts of the mesh one after the other *)
Definition inside_of (geo : option point) (m : pmesh) (polygon : list point) (p : point) : Prop :=
  point_inside (map (absolute geo) polygon) false (unshift (corner m) p) = true.
Definition made_for (geo : option point) (c : point) (q : list point * R) (r : region) : Prop :=
  point_inside (map (absolute geo) (fst q)) false (unshift c (fst (fst r))) = true /\ snd (fst r) = no_tag /\ snd r = Some (snd q).

Lemma areas_spec fuel geo l : forall m m', well m -> add_areas fuel geo m l = inr m' ->
  well m' /\ corner m' = corner m /\ holes m' = holes m /\
  map (unshift (corner m')) (vertices m') = map (unshift (corner m)) (vertices m) ++ flat_map (fun q => map (absolute geo) (fst q)) l /\
  outline m' = outline m ++ flat_map (fun q => plain (cycle (map (absolute geo) (fst q)))) l /\
  exists rs, regions m' = regions m ++ rs /\ Forall2 (made_for geo (corner m)) l rs.
Proof.
  induction l as [|[poly res] l IH]; intros m m' W H; cbn [add_areas] in H.
  - injection H as <-. cbn. rewrite !app_nil_r. repeat (split; [auto|]). exists []. rewrite app_nil_r. auto.
  - destruct (add_polygon _ _ _ _ _ _) as [|m1] eqn:E; [discriminate|]. cbn [bind] in H.
    apply add_polygon_spec in E; [|assumption]. cbn zeta in E. destruct E as (W1 & C1 & V1 & O1 & H1 & p & I1 & R1).
    apply IH in H; [|assumption]. destruct H as (W2 & C2 & H2 & V2 & O2 & rs & R2 & F2). rewrite C1 in *.
    split; [assumption|]. split; [congruence|]. split; [congruence|]. split; [|split].
    + rewrite V2, V1. cbn [flat_map fst]. now rewrite app_assoc.
    + rewrite O2, O1. cbn [or_nil is_hole flat_map fst]. rewrite tagged_nil. unfold plain at 2. now rewrite app_assoc.
    + exists ((shift (corner m) p, no_tag, Some res) :: rs). rewrite R2, R1, <- app_assoc. split; [reflexivity|]. constructor; [|assumption].
      unfold made_for. cbn [fst snd]. rewrite unshift_shift. auto.
Qed.
Definition hole_dict (d : option (list tags)) (i : nat) : tags := match d with Some d => nth i d [] | None => [] end.
Definition numbered {A} (k : nat) (l : list A) : list (nat * A) := combine (seq k (length l)) l.
Lemma holes_spec fuel geo d l : forall k m m', well m -> add_holes fuel geo k d m l = inr m' ->
  well m' /\ corner m' = corner m /\ regions m' = regions m /\
  map (unshift (corner m')) (vertices m') = map (unshift (corner m)) (vertices m) ++ flat_map (map (absolute geo)) l /\
  outline m' = outline m ++ flat_map (fun q => tagged (hole_dict d (fst q)) interior (map (absolute geo) (snd q))) (numbered k l) /\
  exists hs, holes m' = holes m ++ hs /\ Forall2 (fun poly h => point_inside (map (absolute geo) poly) false (unshift (corner m) h) = true) l hs.
Proof.
  induction l as [|poly l IH]; intros k m m' W H; cbn [add_holes] in H.
  - injection H as <-. cbn. rewrite !app_nil_r. repeat (split; [auto|]). exists []. rewrite app_nil_r. auto.
  - destruct (add_polygon _ _ _ _ _ _) as [|m1] eqn:E; [discriminate|]. cbn [bind] in H.
    apply add_polygon_spec in E; [|assumption]. cbn zeta in E. destruct E as (W1 & C1 & V1 & O1 & R1 & p & I1 & H1).
    apply IH in H; [|assumption]. destruct H as (W2 & C2 & R2 & V2 & O2 & hs & H2 & F2). rewrite C1 in *.
    split; [assumption|]. split; [congruence|]. split; [congruence|]. split; [|split].
    + rewrite V2, V1. cbn [flat_map]. now rewrite app_assoc.
    + rewrite O2, O1. unfold numbered. cbn [or_nil is_hole length seq combine flat_map fst snd]. now rewrite app_assoc.
    + exists (shift (corner m) p :: hs). rewrite H2, H1, <- app_assoc. split; [reflexivity|]. constructor; [|assumption]. now rewrite unshift_shift.
Qed.
Lemma points_spec l : forall m, let m' := fold_left (fun m r => add_region m (fst r) (Some (snd r))) l m in
  corner m' = corner m /\ vertices m' = vertices m /\ segments m' = segments m /\ holes m' = holes m /\
  regions m' = regions m ++ map (fun r : point * R => (shift (corner m) (fst r), no_tag, Some (snd r))) l.
Proof.
  induction l as [|[p a] l IH]; intros m; cbn [fold_left map]; [now rewrite app_nil_r|].
  specialize (IH (add_region m p (Some a))). cbn zeta in *. cbn [add_region corner vertices segments holes regions] in IH.
  cbn [fst snd]. destruct IH as (A1 & A2 & A3 & A4 & A5). rewrite A5, <- app_assoc. auto.
Qed.
Lemma keep_spec bounding fail l : forall kept, keep_inside bounding fail l = inr kept ->
  kept = filter (fun q => within bounding (fst q)) l /\ (fail = true -> kept = l).
Proof.
  induction l as [|[poly res] l IH]; intros kept H; cbn [keep_inside filter fst] in *; [injection H as <-; auto|].
  destruct (within bounding poly).
  - destruct (keep_inside _ _ l) as [|k] eqn:E; [discriminate|]. cbn [bind] in H. injection H as <-. destruct (IH k eq_refl) as (-> & Q). split; [reflexivity|].
    intros F. f_equal. auto.
  - destruct fail; [discriminate|]. destruct (IH kept H) as (-> & _). split; [reflexivity|discriminate].
Qed.
Lemma check_spec bounding l u : check_holes bounding l = inr u -> Forall (fun poly => 3 <= length poly /\ within bounding poly = true) l.
Proof.
  induction l as [|poly l IH]; intros H; cbn [check_holes] in H; [constructor|].
  destruct (Nat.ltb_spec (length poly) 3); [discriminate|]. destruct (within bounding poly) eqn:E; [|discriminate]. constructor; auto.
Qed.

Lemma create_spec fuel q m : create_mesh fuel q = inr m ->
  let abs := map (absolute (poly_ref q)) in
  let kept := filter (fun r => within (bounding q) (fst r)) (or_nil (interior_regions q)) in
  let hs := or_nil (interior_holes q) in
  (fail_if_outside q = true -> kept = or_nil (interior_regions q)) /\
  Forall (fun poly => 3 <= length poly /\ within (bounding q) poly = true) hs /\
  well m /\ corner m = mesh_corner q /\
  map (unshift (corner m)) (vertices m) = concat (or_nil (breaklines q)) ++ abs (bounding q) ++ flat_map (fun r => abs (fst r)) kept ++ flat_map abs hs /\
  outline m = plain (flat_map path (or_nil (breaklines q))) ++ tagged (or_nil (boundary_tags q)) no_tag (abs (bounding q)) ++
              flat_map (fun r => plain (cycle (abs (fst r)))) kept ++
              flat_map (fun h => tagged (hole_dict (hole_tags q) (fst h)) interior (abs (snd h))) (numbered 0 hs) /\
  Forall2 (fun poly h => point_inside (abs poly) false (unshift (corner m) h) = true) hs (holes m) /\
  exists p rs, point_inside (abs (bounding q)) false (unshift (corner m) p) = true /\
    Forall2 (made_for (poly_ref q) (corner m)) kept rs /\
    regions m = (p, no_tag, max_area q) :: rs ++ map (fun r => (shift (corner m) (fst r), no_tag, Some (snd r))) (or_nil (region_points q)).
Proof.
  intros H abs kept hs. unfold create_mesh in H.
  destruct (match boundary_tags q with Some d => out_of_bounds (length (bounding q)) d | None => false end); [discriminate|].
  destruct (keep_inside _ _ _) as [|k] eqn:EK; [discriminate|]. cbn [bind] in H. apply keep_spec in EK as (-> & FULL). fold kept in H, FULL.
  destruct (check_holes _ _) as [|u] eqn:EH; [discriminate|]. cbn [bind] in H. apply check_spec in EH. fold hs in H, EH.
  match type of H with bind ?t _ = _ => destruct t as [|m0] eqn:E0 end; [discriminate|]. cbn [bind] in H.
  assert (B : well m0 /\ corner m0 = mesh_corner q /\ holes m0 = [] /\ regions m0 = [] /\
          map (unshift (corner m0)) (vertices m0) = concat (or_nil (breaklines q)) /\ outline m0 = plain (flat_map path (or_nil (breaklines q)))).
  { clear H. destruct (breaklines q) as [l|]; cbn [or_nil].
    - rewrite untagged_list in E0 by reflexivity. cbn [bind] in E0. apply verts_segs in E0; [|constructor | apply repeat_length | apply (lines_of_in l 0)].
      destruct E0 as (W & C & Hh & Rr & V & O). repeat (split; [assumption|]). rewrite O. cbn [new_mesh outline segments app map].
      rewrite combine_repeat, map_map. cbn [fst snd]. unfold plain. rewrite <- (lines_spec (0%R, 0%R) l []), map_map. cbn [app length]. reflexivity.
    - injection E0 as <-. cbn. repeat (split; [first [reflexivity | constructor]|]). reflexivity. }
  destruct B as (W0 & C0 & H0 & R0 & V0 & O0).
  destruct (add_polygon _ _ _ _ _ _) as [|m1] eqn:E1; [discriminate|]. cbn [bind] in H. apply add_polygon_spec in E1; [|assumption].
  cbn zeta in E1. destruct E1 as (W1 & C1 & V1 & O1 & H1 & R1). fold abs in V1, O1.
  destruct (point_in_polygon _ _ _) as [|p] eqn:EP; [discriminate|]. cbn [bind] in H. apply find_point in EP. fold abs in EP.
  set (m2 := add_region m1 p (max_area q)) in *.
  destruct (add_areas _ _ _ _) as [|m3] eqn:E3; [discriminate|]. cbn [bind] in H. apply areas_spec in E3; [|exact W1].
  destruct E3 as (W3 & C3 & H3 & V3 & O3 & rs & R3 & F3).
  destruct (add_holes _ _ _ _ _ _) as [|m4] eqn:E4; [discriminate|]. cbn [bind] in H. apply holes_spec in E4; [|assumption].
  destruct E4 as (W4 & C4 & R4 & V4 & O4 & hl & H4 & F4). injection H as <-.
  destruct (points_spec (or_nil (region_points q)) m4) as (C5 & V5 & S5 & H5 & R5).
  set (m5 := fold_left _ _ m4) in *.
  assert (CC : corner m5 = mesh_corner q) by (cbn [m2 add_region corner] in C3; congruence).
  assert (CC4 : corner m4 = mesh_corner q) by congruence. assert (CC3 : corner m3 = mesh_corner q) by congruence. assert (CC1 : corner m1 = mesh_corner q) by congruence.
  split; [exact FULL|]. split; [exact EH|]. split; [unfold well; rewrite S5, V5; exact W4|]. split; [exact CC|]. split; [|split; [|split]].
  - rewrite V5, C5, V4, V3. unfold m2 at 1 2. cbn [add_region corner vertices]. rewrite V1, V0. now rewrite <- !app_assoc.
  - assert (E : outline m5 = outline m4) by (unfold outline, at_; now rewrite C5, V5, S5). rewrite E, O4, O3.
    assert (E2 : outline m2 = outline m1) by reflexivity. rewrite E2, O1, O0. cbn [is_hole]. now rewrite <- !app_assoc.
  - rewrite H5, H4, H3. unfold m2. cbn [add_region holes]. rewrite H1, H0. cbn [app]. rewrite CC, <- CC3. exact F4.
  - exists (shift (mesh_corner q) p), rs. rewrite CC, unshift_shift. split; [exact EP|]. split.
    + unfold m2 in F3. cbn [add_region corner] in F3. now rewrite CC1 in F3.
    + rewrite R5, R4, R3. unfold m2. cbn [add_region regions]. rewrite R1, R0, CC4, CC1. cbn [app]. reflexivity.
Qed.

(** ** Repeated points *)
Lemma same_point_spec p q : reflect (p = q) (same_point p q).
Proof.
  destruct p as [a b], q as [c d]. unfold same_point, px, py. cbn [fst snd]. destruct (Reqb_spec a c) as [->|N]; cbn [andb].
  - destruct (Reqb_spec b d) as [->|N]; constructor; congruence.
  - constructor. congruence.
Qed.
Lemma first_equal_some x l e d : first_equal x l = Some e -> e < length l /\ nth e l d = x.
Proof.
  revert e. induction l as [|y l IH]; intros e H; cbn [first_equal] in H; [discriminate|].
  destruct (same_point_spec x y) as [<-|N]; [injection H as <-; cbn; split; [lia|reflexivity]|].
  destruct (first_equal x l) as [e'|]; [|discriminate]. injection H as <-. destruct (IH e' eq_refl). cbn. split; [lia|assumption].
Qed.
Lemma first_equal_none x l : first_equal x l = None -> ~ In x l.
Proof.
  induction l as [|y l IH]; intros H; cbn [first_equal] in H; [easy|].
  destruct (same_point_spec x y) as [<-|N]; [discriminate|]. destruct (first_equal x l) as [e'|]; [discriminate|]. intros [->|I]; [easy|]. now apply IH.
Qed.
Lemma nth_firstn_lt {A} (l : list A) n i d : i < n -> nth i (firstn n l) d = nth i l d.
Proof. revert n i. induction l as [|a l IH]; intros [|n] [|i] H; cbn; try lia; auto. apply IH. lia. Qed.
Lemma nth_skipn_plus {A} (l : list A) n i d : nth i (skipn n l) d = nth (n + i) l d.
Proof. revert n. induction l as [|a l IH]; intros [|n]; cbn; auto. destruct i; reflexivity. Qed.
Lemma delete_split {A} (l : list A) i d : i < length l -> l = firstn i l ++ nth i l d :: skipn (S i) l.
Proof. revert i. induction l as [|a l IH]; intros [|i] H; cbn [length] in H; try lia; [reflexivity|]. cbn [firstn nth skipn app]. f_equal. apply IH. lia. Qed.
Lemma delete_length {A} (l : list A) i : i < length l -> length (delete i l) = length l - 1.
Proof. intros H. unfold delete. rewrite app_length, firstn_length, skipn_length. lia. Qed.
Lemma redirect_nth (l : list point) i e s d : e < i -> i < length l -> nth e l d = nth i l d -> s < length l ->
  redirect i e s < length l - 1 /\ nth (redirect i e s) (delete i l) d = nth s l d.
Proof.
  intros Hei Hi E Hs. unfold redirect, delete.
  destruct (Nat.eqb_spec s i) as [-> | N].
  - destruct (Nat.ltb_spec i e); [lia|]. split; [lia|]. rewrite app_nth1 by (rewrite firstn_length; lia). now rewrite nth_firstn_lt.
  - destruct (Nat.ltb_spec i s).
    + split; [lia|]. rewrite app_nth2 by (rewrite firstn_length; lia). rewrite firstn_length, nth_skipn_plus. f_equal. lia.
    + split; [lia|]. rewrite app_nth1 by (rewrite firstn_length; lia). now rewrite nth_firstn_lt by lia.
Qed.
Definition located (points : list point) (segs : list (nat * nat)) : list (point * point) :=
  map (fun s => (nth (fst s) points (0%R, 0%R), nth (snd s) points (0%R, 0%R))) segs.
Lemma firstn_nodup_snoc (l : list point) i d : i < length l -> NoDup (firstn i l) -> ~ In (nth i l d) (firstn i l) -> NoDup (firstn (S i) l).
Proof.
  intros H N I. assert (E : firstn (S i) l = firstn i l ++ [nth i l d]).
  { clear - H. revert i H. induction l as [|a l IH]; intros [|i] H; cbn [length] in H; try lia; [reflexivity|]. cbn [firstn nth app]. f_equal. rewrite <- IH by lia. reflexivity. }
  rewrite E. now apply NoDup_snoc.
Qed.
Lemma merge_spec fuel : forall i points segs ps ss, length points <= fuel + i + 1 ->
  Forall (fun s => fst s < length points /\ snd s < length points) segs -> NoDup (firstn (i + 1) points) ->
  merge fuel i points segs = (ps, ss) ->
  NoDup ps /\ (forall p, In p ps <-> In p points) /\ Forall (fun s => fst s < length ps /\ snd s < length ps) ss /\ located ps ss = located points segs.
Proof.
  assert (STOP : forall i (points : list point), length points <= i + 1 -> NoDup (firstn (i + 1) points) -> NoDup points).
  { intros i points L N. now rewrite firstn_all2 in N. }
  induction fuel as [|fuel IH]; intros i points segs ps ss L IN ND H; cbn [merge] in H.
  - injection H as <- <-. split; [eapply STOP; eauto; lia|]. tauto.
  - destruct (Nat.ltb_spec i (length points - 1)).
    2:{ injection H as <- <-. split; [apply (STOP i); auto; lia|]. tauto. }
    set (x := nth (i + 1) points (0%R, 0%R)) in *.
    destruct (first_equal x (firstn (i + 1) points)) as [e|] eqn:E.
    + apply (first_equal_some _ _ _ (0%R, 0%R)) in E as (E1 & E2). rewrite firstn_length in E1. rewrite nth_firstn_lt in E2 by lia.
      assert (RD : forall s, s < length points -> redirect (i + 1) e s < length points - 1 /\ nth (redirect (i + 1) e s) (delete (i + 1) points) (0%R, 0%R) = nth s points (0%R, 0%R)).
      { intros s Hs. apply redirect_nth; auto; lia. }
      apply IH in H.
      * destruct H as (A1 & A2 & A3 & A4). split; [assumption|]. split; [|split; [assumption|]].
        -- intros p. rewrite A2. rewrite (delete_split points (i + 1) (0%R, 0%R)) at 2 by lia. unfold delete. rewrite !in_app_iff. cbn [In]. fold x.
           split; [tauto|]. intros [?|[<-|?]]; auto. left. rewrite <- E2, <- (nth_firstn_lt points (i + 1) e) by lia. apply nth_In. rewrite firstn_length. lia.
        -- rewrite A4. unfold located. rewrite map_map. apply map_ext_in. intros s I. rewrite Forall_forall in IN. destruct (IN s I) as (I1 & I2). cbn [fst snd].
           now rewrite (proj2 (RD _ I1)), (proj2 (RD _ I2)).
      * rewrite delete_length by lia. lia.
      * rewrite delete_length by lia. rewrite Forall_map. eapply Forall_impl; [|exact IN]. intros s (I1 & I2). cbn [fst snd]. split; now apply RD.
      * replace (i + 1 - 1 + 1) with (i + 1) by lia. unfold delete.
        assert (Q : length (firstn (i + 1) points) = i + 1) by (rewrite firstn_length; lia).
        replace (i + 1) with (length (firstn (i + 1) points) + 0) at 1 by lia. rewrite firstn_app_2. cbn [firstn]. rewrite app_nil_r. assumption.
    + apply IH in H; auto; [lia|]. replace (i + 1 + 1) with (S (i + 1)) by lia. apply (firstn_nodup_snoc _ _ (0%R, 0%R)); [lia | assumption|]. now apply first_equal_none.
Qed.

(** ** Tags as integers *)
Lemma last_index_spec x table : forall i found, 
  (exists j, last_index table x i found = Some (i + j) /\ nth_error table j = Some x) \/ (last_index table x i found = found /\ ~ In x table).
Proof.
  induction table as [|y l IH]; intros i found; cbn [last_index]; [auto|].
  destruct (IH (S i) (if x =? y then Some i else found)) as [(j & E & N) | (E & N)].
  - left. exists (S j). rewrite E. split; [f_equal; lia | exact N].
  - rewrite E. destruct (Nat.eqb_spec x y) as [->|Q]; [left; exists 0; rewrite Nat.add_0_r; auto|]. right. split; [reflexivity|]. intros [->|I]; auto.
Qed.
Lemma last_index_in x table : In x table -> exists j, last_index table x 0 None = Some j /\ nth_error table j = Some x.
Proof. intros I. destruct (last_index_spec x table 0 None) as [(j & E & N)|(_ & N)]; [|contradiction]. exists j. auto. Qed.
Lemma unique_in l : forall seen x, In x (unique l seen) <-> In x l /\ ~ In x seen.
Proof.
  induction l as [|y l IH]; intros seen x; cbn [unique]; [tauto|].
  destruct (existsb (Nat.eqb y) seen) eqn:E.
  - rewrite IH. apply existsb_exists in E as (z & Iz & Ez). apply Nat.eqb_eq in Ez as <-. cbn [In]. split; [tauto|]. intros ([->|?] & N); tauto.
  - cbn [In]. rewrite IH, in_app_iff. cbn [In].
    assert (NI : ~ In y seen).
    { intros I. assert (existsb (Nat.eqb y) seen = true); [|congruence]. apply existsb_exists. exists y. split; [assumption|apply Nat.eqb_refl]. }
    destruct (Nat.eq_dec y x) as [->|Q]; tauto.
Qed.
Lemma unique_nodup l : forall seen, NoDup (unique l seen).
Proof.
  induction l as [|y l IH]; intros seen; cbn [unique]; [constructor|]. destruct (existsb (Nat.eqb y) seen); [auto|]. constructor; [|auto].
  rewrite unique_in, in_app_iff. cbn [In]. tauto.
Qed.
Definition new_tags (l : list tag) : list tag := filter (fun x => negb (x =? no_tag)) (filter (fun x => negb (existsb (Nat.eqb x) initialconversions)) (unique l [])).
Lemma new_tags_in l x : In x (new_tags l) <-> In x l /\ x <> no_tag /\ x <> exterior.
Proof.
  unfold new_tags, initialconversions. rewrite !filter_In, unique_in. cbn [existsb]. destruct (Nat.eqb_spec x no_tag), (Nat.eqb_spec x exterior); cbn [orb negb In]; intuition (try congruence; try discriminate).
Qed.
Lemma table_form l : snd (fst (segment_strings2ints l initialconversions)) = [no_tag; exterior; no_tag] ++ rev (new_tags l).
Proof. unfold segment_strings2ints. cbn [fst snd]. fold (new_tags l). rewrite rev_app_distr, rev_involutive. reflexivity. Qed.

(** the integer given to a tag *)
Definition marker (l : list tag) (x : tag) : option nat := string2int (snd (fst (segment_strings2ints l initialconversions))) x.
Lemma marker_spec l x : In x l \/ x = no_tag \/ x = exterior ->
  exists j, marker l x = Some j /\ nth_error (snd (fst (segment_strings2ints l initialconversions))) j = Some x /\ (x = no_tag <-> j = 0) /\ (x = exterior <-> j = 1).
Proof.
  intros I. unfold marker, string2int. rewrite table_form. destruct (Nat.eqb_spec x no_tag) as [->|N0].
  - exists 0. cbn. repeat split; auto; discriminate.
  - assert (J : In x ([no_tag; exterior; no_tag] ++ rev (new_tags l))).
    { destruct (Nat.eq_dec x exterior) as [->|N1]; [cbn; tauto|]. apply in_or_app. right. rewrite <- in_rev, new_tags_in. intuition congruence. }
    destruct (last_index_in _ _ J) as (j & E & NE). exists j. split; [exact E|]. split; [exact NE|].
    split; [split; [congruence|] | split].
    + intros ->. cbn in NE. congruence.
    + intros ->. cbn [app last_index] in E. change (exterior =? no_tag) with false in E. change (exterior =? exterior) with true in E. cbn iota in E.
      destruct (last_index_spec exterior (rev (new_tags l)) 3 (Some 1)) as [(j' & _ & Q)|(Q & _)].
      * apply nth_error_In in Q. rewrite <- in_rev, new_tags_in in Q. tauto.
      * rewrite Q in E. congruence.
    + intros ->. cbn in NE. injection NE as <-. reflexivity.
Qed.

(** ** The dictionary of boundary tags *)
Fixpoint side_list (k : nat) (ts : list tri) : table :=
  match ts with
  | [] => []
  | t :: r => (edge_key t 2, (k, 2)) :: (edge_key t 0, (k, 0)) :: (edge_key t 1, (k, 1)) :: side_list (S k) r
  end.
Lemma side_list_perm ts : forall k, Permutation (side_list k ts) (edge_list k ts).
Proof.
  induction ts as [|t r IH]; intros k; cbn [side_list edge_list]; [constructor|].
  eapply perm_trans; [apply perm_swap|]. constructor. eapply perm_trans; [apply perm_swap|]. constructor. constructor. apply IH.
Qed.
Lemma add_sides_Some tbl k t r : add_triangle_sides tbl k t = Some r -> r = rev (side_list k [t]) ++ tbl /\ (NoDup (map fst tbl) -> NoDup (map fst r)).
Proof.
  unfold add_triangle_sides.
  destruct (add_edge tbl (edge_key t 2) k 2) as [t1|] eqn:E1; [|discriminate].
  destruct (add_edge t1 (edge_key t 0) k 0) as [t2|] eqn:E2; [|discriminate].
  intros E3. apply add_edge_Some in E1, E2, E3.
  destruct E1 as (A1 & ->), E2 as (A2 & ->), E3 as (A3 & ->). split; [reflexivity|].
  intros ND. cbn [map fst] in *. repeat constructor; auto.
Qed.
Lemma add_sides_ok tbl k t : NoDup (map fst (rev (side_list k [t]) ++ tbl)) -> add_triangle_sides tbl k t <> None.
Proof.
  simpl. intros ND. inversion ND as [|? ? N1 ND1]; subst. inversion ND1 as [|? ? N2 ND2]; subst.
  inversion ND2 as [|? ? N3 ND3]; subst. cbn [map fst] in *. unfold add_triangle_sides, add_edge.
  rewrite (proj2 (lookup_None tbl _) N3).
  rewrite (proj2 (lookup_None ((edge_key t 2, (k, 2)) :: tbl) _) N2).
  rewrite (proj2 (lookup_None ((edge_key t 0, (k, 0)) :: (edge_key t 2, (k, 2)) :: tbl) _) N1). discriminate.
Qed.
Lemma side_list_cons k t ts : rev (side_list k (t :: ts)) = rev (side_list (S k) ts) ++ rev (side_list k [t]).
Proof. simpl. rewrite <- !app_assoc. reflexivity. Qed.
Lemma all_sides_Some : forall ts tbl k r, add_all_sides tbl k ts = Some r -> r = rev (side_list k ts) ++ tbl /\ (NoDup (map fst tbl) -> NoDup (map fst r)).
Proof.
  induction ts as [|t ts IH]; intros tbl k r H; [injection H as <-; simpl; auto|].
  cbn [add_all_sides] in H. destruct (add_triangle_sides tbl k t) as [tbl'|] eqn:E; [|discriminate].
  destruct (add_sides_Some _ _ _ _ E) as (-> & ND). destruct (IH _ _ _ H) as (-> & ND'). split; [|auto].
  rewrite (side_list_cons k t ts), <- app_assoc. reflexivity.
Qed.
Lemma all_sides_ok : forall ts tbl k, NoDup (map fst (rev (side_list k ts) ++ tbl)) -> add_all_sides tbl k ts <> None.
Proof.
  induction ts as [|t ts IH]; intros tbl k ND; [discriminate|].
  rewrite (side_list_cons k t ts), <- app_assoc in ND. cbn [add_all_sides].
  destruct (add_triangle_sides tbl k t) as [tbl'|] eqn:E.
  - apply add_sides_Some in E as (-> & _). apply IH. exact ND.
  - exfalso. revert E. apply add_sides_ok. rewrite map_app in ND. eapply NoDup_app_r. exact ND.
Qed.
Lemma sides_nodup ts k : NoDup (map fst (side_list k ts)) <-> NoDup (map fst (edge_list k ts)).
Proof. split; apply Permutation_NoDup; apply Permutation_map; [|apply Permutation_sym]; apply side_list_perm. Qed.
Lemma pmesh_tags_iff ts segs : pmesh_tags ts segs <> None <-> NoDup (map fst (edge_list 0 ts)).
Proof.
  rewrite <- sides_nodup. unfold pmesh_tags. split.
  - intros H. destruct (add_all_sides [] 0 ts) as [r|] eqn:E; [|congruence].
    apply all_sides_Some in E as (-> & ND). rewrite app_nil_r in ND. apply map_rev_NoDup. apply ND. constructor.
  - intros H. destruct (add_all_sides [] 0 ts) as [r|] eqn:E; [discriminate|]. exfalso. revert E. apply all_sides_ok. rewrite app_nil_r. now apply map_rev_NoDup.
Qed.
Lemma sides_lookup ts tbl key v e : add_all_sides [] 0 ts = Some tbl ->
  (lookup tbl key = Some (v, e) <-> exists t, nth_error ts v = Some t /\ e < 3 /\ edge_key t e = key).
Proof.
  intros H. apply all_sides_Some in H as (-> & ND). rewrite app_nil_r in *. specialize (ND (NoDup_nil _)).
  assert (Q : In (key, (v, e)) (side_list 0 ts) <-> In (key, (v, e)) (edge_list 0 ts)).
  { split; apply Permutation_in; [|apply Permutation_sym]; apply side_list_perm. }
  split.
  - intros H. apply lookup_In in H. apply in_rev in H. apply Q, edge_list_In in H.
    destruct H as (t & _ & H). rewrite Nat.sub_0_r in H. eauto.
  - intros (t & H). apply In_lookup; auto. apply in_rev. rewrite rev_involutive. apply Q.
    apply edge_list_In. exists t. rewrite Nat.sub_0_r. split; [lia|]. tauto.
Qed.
Lemma lookup_set d k v k' : lookup (set_dict d k v) k' = if key_eqb k k' then Some v else lookup d k'.
Proof.
  induction d as [|[k0 v0] d IH]; cbn [set_dict lookup]; [destruct (key_eqb k k'); reflexivity|].
  destruct (key_eqb_spec k0 k) as [->|N]; cbn [lookup].
  - destruct (key_eqb k k'); reflexivity.
  - rewrite IH. destruct (key_eqb_spec k0 k') as [->|N2]; [|reflexivity]. destruct (key_eqb_spec k k'); congruence.
Qed.
Lemma set_dict_keys d k v x : In x (map fst (set_dict d k v)) <-> x = k \/ In x (map fst d).
Proof.
  induction d as [|[k0 v0] d IH]; cbn [set_dict map fst In]; [intuition auto|].
  destruct (key_eqb_spec k0 k) as [->|N]; cbn [map fst In]; [|rewrite IH]; intuition (subst; auto).
Qed.
Lemma set_dict_nodup d k v : NoDup (map fst d) -> NoDup (map fst (set_dict d k v)).
Proof.
  induction d as [|[k0 v0] d IH]; intros N; cbn [set_dict map fst]; [repeat constructor; easy|].
  inversion N as [|? ? N1 N2]; subst. destruct (key_eqb_spec k0 k) as [->|Q]; cbn [map fst]; [now constructor|].
  constructor; [|auto]. rewrite set_dict_keys. intros [E|I]; [now apply Q | now apply N1].
Qed.

(** does this segment give its tag to the side [key]? *)
Definition gives (key : nat * nat) (s : (nat * nat) * tag) : bool :=
  negb (snd s =? no_tag) && (key_eqb (fst s) key || key_eqb (swap (fst s)) key).
Lemma tag_side_lookup tbl d k t ve key : (forall k, lookup tbl k = Some ve <-> k = key) ->
  lookup (tag_side tbl d k t) ve = if negb (t =? no_tag) && key_eqb k key then Some t else lookup d ve.
Proof.
  intros Q. unfold tag_side. destruct (lookup tbl k) as [ve'|] eqn:E.
  - destruct (t =? no_tag); [reflexivity|]. cbn [negb andb]. rewrite lookup_set.
    destruct (key_eqb_spec ve' ve) as [->|N], (key_eqb_spec k key) as [->|N2]; try reflexivity.
    + apply Q in E. contradiction.
    + assert (lookup tbl key = Some ve) by now apply Q. congruence.
  - destruct (key_eqb_spec k key) as [->|N2]; [|now rewrite andb_false_r]. assert (lookup tbl key = Some ve) by now apply Q. congruence.
Qed.
Lemma tag_segment_lookup tbl d s ve key : (forall k, lookup tbl k = Some ve <-> k = key) ->
  lookup (tag_segment tbl d s) ve = if gives key s then Some (snd s) else lookup d ve.
Proof.
  intros Q. unfold tag_segment, gives. rewrite !(tag_side_lookup _ _ _ _ _ _ Q).
  destruct (snd s =? no_tag), (key_eqb (fst s) key), (key_eqb (swap (fst s)) key); reflexivity.
Qed.
Lemma pmesh_tags_lookup ts segs d v e t : pmesh_tags ts segs = Some d -> nth_error ts v = Some t -> e < 3 ->
  lookup d (v, e) = option_map snd (find (gives (edge_key t e)) (rev segs)).
Proof.
  intros H N E. unfold pmesh_tags in H. destruct (add_all_sides [] 0 ts) as [tbl|] eqn:ET; [|discriminate]. injection H as <-.
  assert (Q : forall k, lookup tbl k = Some (v, e) <-> k = edge_key t e).
  { intros k. rewrite (sides_lookup _ _ _ _ _ ET). split; [intros (t' & N' & _ & K); congruence|]. intros ->. eauto. }
  assert (G : forall segs d, lookup (fold_left (tag_segment tbl) segs d) (v, e) =
    match find (gives (edge_key t e)) (rev segs) with Some s => Some (snd s) | None => lookup d (v, e) end).
  { clear segs. induction segs as [|s segs IH]; intros d; cbn [fold_left rev]; [reflexivity|]. rewrite IH, find_app.
    destruct (find _ (rev segs)); [reflexivity|]. cbn [find]. rewrite (tag_segment_lookup _ _ _ _ _ Q). destruct (gives (edge_key t e) s); reflexivity. }
  rewrite G. cbn [lookup]. destruct (find _ _); reflexivity.
Qed.
Lemma pmesh_tags_keys ts segs d : pmesh_tags ts segs = Some d -> NoDup (map fst d) /\ forall v e, In (v, e) (map fst d) -> v < length ts /\ e < 3.
Proof.
  intros H. unfold pmesh_tags in H. destruct (add_all_sides [] 0 ts) as [tbl|] eqn:ET; [|discriminate]. injection H as <-.
  assert (SIDE : forall d k t, (NoDup (map fst d) /\ forall v e, In (v, e) (map fst d) -> v < length ts /\ e < 3) ->
    NoDup (map fst (tag_side tbl d k t)) /\ forall v e, In (v, e) (map fst (tag_side tbl d k t)) -> v < length ts /\ e < 3).
  { intros d k t (A & B). unfold tag_side. destruct (lookup tbl k) as [[v0 e0]|] eqn:E; [|auto]. destruct (t =? no_tag); [auto|].
    split; [now apply set_dict_nodup|]. intros v e I. apply set_dict_keys in I as [I|I]; [|auto]. injection I as -> ->.
    apply (sides_lookup _ _ _ _ _ ET) in E as (t0 & N & L & _). split; [|assumption]. apply nth_error_Some. congruence. }
  assert (G : forall segs d, (NoDup (map fst d) /\ forall v e, In (v, e) (map fst d) -> v < length ts /\ e < 3) ->
    NoDup (map fst (fold_left (tag_segment tbl) segs d)) /\ forall v e, In (v, e) (map fst (fold_left (tag_segment tbl) segs d)) -> v < length ts /\ e < 3).
  { clear segs. induction segs as [|s segs IH]; intros d A; cbn [fold_left]; [exact A|]. apply IH. unfold tag_segment. cbn zeta. auto. }
  apply G. split; [constructor | easy].
Qed.

Lemma markers_form l : fst (fst (segment_strings2ints l initialconversions)) = map (marker l) l.
Proof. reflexivity. Qed.
Lemma set_items_out l is v : (exists x, In x is /\ (Z.of_nat (length l) <= x \/ x < - Z.of_nat (length l))%Z) -> set_items l is v = inl IndexError.
Proof.
  revert l. induction is as [|y is IH]; intros l (x & I & B); [easy|]. cbn [set_items]. unfold set_item.
  destruct (Z.leb_spec 0 y), (Z.ltb_spec y (Z.of_nat (length l))), (Z.leb_spec (- Z.of_nat (length l)) y), (Z.ltb_spec y 0); cbn [andb bind]; try lia; try reflexivity;
    apply IH; exists x; rewrite set_nth_length; destruct I as [->|I]; auto; lia.
Qed.
