(** C95: the bounding polygon of a mesh encloses it. *)
From Coq Require Import Reals List Arith Bool Lra Lia Permutation.
From Verif Require Import RealLib PolygonModel BoundaryPolygonModel BoundaryPolygonProofs.
Import ListNotations.
Local Open Scope R_scope.

(** The sides of a closed polygon, from point to point and back. *)
Definition sides (l : list point) : list segment := match l with [] => [] | p :: _ => pairs (l ++ [p]) end.
(** How often a polygon goes around a point, counter-clockwise; twice its area. *)
Definition winding (p : point) (l : list point) : R := Rsum (map (crossing p) (sides l)).
Definition cross (s : segment) : R := px (fst s) * py (snd s) - px (snd s) * py (fst s).
Definition area2 (l : list point) : R := Rsum (map cross (sides l)).

(** A mesh of counter-clockwise triangles; the edges that are not boundary edges
    come in pairs of opposite direction. *)
Definition all_edges (m : mesh) : list (nat * nat) := flat_map (fun i => [(i, 0); (i, 1); (i, 2)]%nat) (seq 0 (triangles m)).
Definition good_mesh (m : mesh) : Prop :=
  boundary m <> [] /\
  (forall i, (i < triangles m)%nat -> ccw (corner_of m i 0) (corner_of m i 1) (corner_of m i 2)) /\
  exists inner, Permutation (all_edges m) (boundary m ++ inner) /\
    Permutation (map (segment_of m) inner) (map swap (map (segment_of m) inner)).
(** Every boundary point has one segment before and one behind it. *)
Definition simple_boundary (m : mesh) : Prop :=
  NoDup (map fst (segments m)) /\ NoDup (map snd (segments m)) /\ incl (map snd (segments m)) (map fst (segments m)).
(** The boundary is connected (no holes). *)
Definition one_boundary (m : mesh) : Prop :=
  forall part, part <> [] -> incl part (segments m) -> (forall a b c, In (a, b) part -> In (b, c) (segments m) -> In (b, c) part) -> incl (segments m) part.
Definition boundary_point (m : mesh) (p : point) : Prop := exists s, In s (segments m) /\ (p = fst s \/ p = snd s).

(** * The start *)
Lemma least_le f l p : In p l -> least f l <= f p.
Proof.
  destruct l as [|q l]; [intros []|]. cbn [least].
  assert (M : forall l a, fold_left (fun a q => Rmin a (f q)) l a <= a /\ forall p, In p l -> fold_left (fun a q => Rmin a (f q)) l a <= f p).
  { clear. induction l as [|x l IH]; intros a; cbn [fold_left]; [split; [lra|intros p []]|]. destruct (IH (Rmin a (f x))) as (I1 & I2).
    pose proof (Rmin_l a (f x)). pose proof (Rmin_r a (f x)). split; [lra|]. intros p [<-|Hp]; [lra|apply I2; exact Hp]. }
  destruct (M l (f q)) as (M1 & M2). intros [<-|H]; [exact M1|apply M2; exact H].
Qed.

Lemma edge_in m : good_mesh m -> forall key, In key (boundary m) -> (fst key < triangles m)%nat /\ (snd key < 3)%nat.
Proof.
  intros (_ & _ & inner & P & _) key H. assert (I : In key (all_edges m)).
  { apply (Permutation_in key (Permutation_sym P)). apply in_or_app. left. exact H. }
  unfold all_edges in I. apply in_flat_map in I. destruct I as (i & Hi & I). apply in_seq in Hi. destruct I as [<-|[<-|[<-|[]]]]; cbn; lia.
Qed.
Lemma corner_in m i j : (i < triangles m)%nat -> (j < 3)%nat -> In (corner_of m i j) (all_corners m).
Proof.
  intros Hi Hj. apply in_flat_map. exists i. split; [apply in_seq; lia|]. destruct j as [|[|[|j]]]; cbn; auto. lia.
Qed.
Lemma segment_ends m s : good_mesh m -> In s (segments m) -> In (fst s) (all_corners m) /\ In (snd s) (all_corners m) /\ fst s <> snd s.
Proof.
  intros G H. unfold segments in H. apply in_map_iff in H. destruct H as ((i, e) & <- & H). destruct (edge_in m G _ H) as (Hi & He). cbn in Hi, He.
  destruct G as (_ & O & _). specialize (O i Hi). unfold segment_of.
  destruct e as [|[|[|e]]]; [| | |lia]; cbn [fst snd]; (split; [apply corner_in; lia|split; [apply corner_in; lia|]]);
    intros E; unfold ccw, side in O; rewrite E in O; lra.
Qed.

Lemma dist_corner m q : In q (all_corners m) -> q <> pmax m -> dist q (pmin m) < dist (pmax m) (pmin m).
Proof.
  intros H N. pose proof (least_le px _ _ H) as X0. pose proof (least_le py _ _ H) as Y0.
  pose proof (least_le (fun p => - px p) _ _ H) as X1. pose proof (least_le (fun p => - py p) _ _ H) as Y1. cbn in X1, Y1.
  unfold dist. set (x0 := px (pmin m)). set (y0 := py (pmin m)). set (x1 := px (pmax m)). set (y1 := py (pmax m)).
  assert (A1 : x0 <= px q) by exact X0. assert (A2 : y0 <= py q) by exact Y0.
  assert (A3 : px q <= x1) by (unfold x1, pmax, px at 2; cbn [fst]; lra). assert (A4 : py q <= y1) by (unfold y1, pmax, py at 2; cbn [snd]; lra).
  assert (B : px q < x1 \/ py q < y1).
  { destruct (Rlt_le_dec (px q) x1) as [|B1]; [left; assumption|]. destruct (Rlt_le_dec (py q) y1) as [|B2]; [right; assumption|]. exfalso. apply N.
    assert (E1 : px q = x1) by lra. assert (E2 : py q = y1) by lra. rewrite (surjective_pairing q), (surjective_pairing (pmax m)).
    unfold x1, y1, px, py in E1, E2. rewrite E1, E2. reflexivity. }
  apply sqrt_lt_1; [nra|nra|]. clearbody x0 y0 x1 y1. set (u := px q) in *. set (v := py q) in *. clearbody u v.
  assert ((u - x0) * (u - x0) <= (x1 - x0) * (x1 - x0)) by (apply Rmult_le_compat; lra).
  assert ((v - y0) * (v - y0) <= (y1 - y0) * (y1 - y0)) by (apply Rmult_le_compat; lra).
  destruct B as [B|B].
  - assert ((u - x0) * (u - x0) < (x1 - x0) * (x1 - x0)) by (apply Rmult_le_0_lt_compat; lra). lra.
  - assert ((v - y0) * (v - y0) < (y1 - y0) * (y1 - y0)) by (apply Rmult_le_0_lt_compat; lra). lra.
Qed.

Lemma choose_start_some low : forall segs d p0, dist p0 low = d ->
  exists p, choose_start low (d, Some p0) segs = ((dist p low, Some p), true) /\ dist p low <= d /\
    (p = p0 \/ exists s, In s segs /\ (p = fst s \/ p = snd s)) /\
    forall s, In s segs -> dist p low <= dist (fst s) low /\ dist p low <= dist (snd s) low.
Proof.
  induction segs as [|(A, B) segs IH]; intros d p0 E.
  - exists p0. cbn. rewrite E. split; [reflexivity|]. split; [lra|]. split; [left; reflexivity|]. intros s [].
  - cbn [choose_start]. set (st := try low (try low (d, Some p0) A) B).
    assert (K : exists p, st = (dist p low, Some p) /\ (p = p0 \/ p = A \/ p = B) /\ dist p low <= d /\ dist p low <= dist A low /\ dist p low <= dist B low).
    { unfold st, try at 2. cbn [fst]. destruct (Rltb_spec (dist A low) d) as [HA|HA]; unfold try; cbn [fst].
      - destruct (Rltb_spec (dist B low) (dist A low)); [exists B|exists A]; (split; [reflexivity|]); (split; [tauto|lra]).
      - destruct (Rltb_spec (dist B low) d); [exists B|exists p0]; (split; [rewrite ?E; reflexivity|]); (split; [tauto|lra]). }
    destruct K as (p & -> & Hp & L1 & L2 & L3). cbn [snd]. destruct (IH (dist p low) p eq_refl) as (r & Er & Lr & Hr & Mr). exists r.
    split; [exact Er|]. split; [lra|]. split.
    + destruct Hr as [-> |(s & Hs & Hr)].
      * destruct Hp as [-> | [-> | ->]]; [left; reflexivity|right; exists (A, B); split; [left; reflexivity|left; reflexivity]|
          right; exists (A, B); split; [left; reflexivity|right; reflexivity]].
      * right. exists s. split; [right; exact Hs|exact Hr].
    + intros s [<-|Hs]; [cbn; lra|exact (Mr s Hs)].
Qed.

(** The polygon starts in a boundary point that is closest to the lower left
    corner of the extent. *)
Theorem C95_start :
  forall m, good_mesh m ->
  exists p, start_of (pmin m) (pmax m) (segments m) = Some p /\ boundary_point m p /\
    forall q, boundary_point m q -> dist p (pmin m) <= dist q (pmin m).
Proof.
  intros m G. unfold start_of. destruct (segments m) as [|(A, B) segs] eqn:E.
  - exfalso. destruct G as (N & _). apply N. unfold segments in E. apply map_eq_nil in E. exact E.
  - assert (HS : In (A, B) (segments m)) by (rewrite E; left; reflexivity). destruct (segment_ends m _ G HS) as (CA & CB & NE). cbn [fst snd] in CA, CB, NE.
    cbn [choose_start]. set (st := try _ _ B). set (low := pmin m) in *. set (D := dist (pmax m) low) in *.
    assert (K : exists p, st = (dist p low, Some p) /\ (p = A \/ p = B) /\ dist p low <= dist A low /\ dist p low <= dist B low).
    { unfold st, try at 2. cbn [fst]. destruct (Rltb_spec (dist A low) D) as [HA|HA]; unfold try; cbn [fst].
      - destruct (Rltb_spec (dist B low) (dist A low)); [exists B|exists A]; (split; [reflexivity|]); (split; [tauto|lra]).
      - assert (EA : A = pmax m).
        { destruct (point_dec A (pmax m)) as [|N]; [assumption|]. pose proof (dist_corner m A CA N) as Hd. fold low D in Hd. lra. }
        assert (NB : B <> pmax m) by congruence. pose proof (dist_corner m B CB NB) as Hd. fold low D in Hd.
        rewrite (proj2 (Rltb_true _ _) Hd). exists B. split; [reflexivity|]. split; [right; reflexivity|lra]. }
    destruct K as (p & -> & Hp & L1 & L2). cbn [snd]. destruct (choose_start_some low segs _ p eq_refl) as (r & -> & Lr & Hr & Mr).
    exists r. split; [reflexivity|]. unfold boundary_point. rewrite E. split.
    + destruct Hr as [-> |(s & Hs & Hr)].
      * exists (A, B). split; [left; reflexivity|exact Hp].
      * exists s. split; [right; exact Hs|exact Hr].
    + intros q (s & [<-|Hs] & Hq); [cbn in Hq; destruct Hq as [-> | ->]; lra|]. destruct (Mr s Hs) as (M1 & M2). destruct Hq as [-> | ->]; assumption.
Qed.
Print Assumptions C95_start.

(** * Closed *)
Lemma sides_walk segs p0 p t : walk segs p0 (p :: t) -> sides (rev (p :: t)) = rev (edges_of (p0 :: p :: t)).
Proof.
  intros W. destruct (walk_ends _ _ _ W) as (l' & E). rewrite E. rewrite rev_app_distr. cbn [rev app sides].
  change (p0 :: rev l') with ([p0] ++ rev l'). rewrite <- pairs_rev. cbn [rev]. rewrite rev_app_distr. reflexivity.
Qed.

Lemma closed_sides segs p0 p t : deterministic segs -> walk segs p0 (p :: t) -> next_point segs (hd_error t) p = Some p0 ->
  NoDup (sides (rev (p :: t))) /\ incl (sides (rev (p :: t))) segs.
Proof.
  intros D W N. rewrite (sides_walk segs p0 p t W). change (edges_of (p0 :: p :: t)) with ((p, p0) :: edges_of (p :: t)). split.
  - apply NoDup_rev. constructor; [|exact (walk_nodup _ _ _ D W)]. intros H. apply edge_position in H. destruct H as (l1 & t' & E).
    assert (W2 : walk segs p0 (p0 :: p :: t')) by (apply (walk_suffix _ _ l1); [discriminate|rewrite <- E; exact W]).
    apply walk_not_start in W2. congruence.
  - intros s H. apply in_rev in H. destruct H as [<-|H]; [exact (next_in _ _ _ _ N)|exact (walk_edges _ _ _ W s H)].
Qed.

Lemma source m p : continued (segments m) -> boundary_point m p -> exists c, In (p, c) (segments m).
Proof. intros C ((a, b) & Hs & [-> | ->]); [exists b; exact Hs|exact (C a b Hs)]. Qed.

(** In points where several parts of the boundary meet: if no two segments into a
    point are continued in the same way, and no other boundary point is taken for
    the start by [allclose], the result is a closed chain of boundary segments,
    none of them twice. *)
Theorem C95_closed :
  forall m fuel, good_mesh m -> (length (boundary m) < fuel)%nat -> continued (segments m) -> deterministic (segments m) ->
  (forall p q, boundary_point m p -> boundary_point m q -> allclose p q = true -> p = q) ->
  exists p l, get_boundary_polygon fuel m = Polygon (p :: l) /\ start_of (pmin m) (pmax m) (segments m) = Some p /\
    NoDup (sides (p :: l)) /\ incl (sides (p :: l)) (segments m).
Proof.
  intros m fuel G Hf C D NC. destruct (C95_start m G) as (p0 & Es & Hp & _). unfold get_boundary_polygon. rewrite Es.
  destruct (follow_ok (segments m) p0 D C (source m p0 C Hp)) with (fuel := fuel) (trail := [p0]) (reg := [p0]) as (p & t & -> & W & N).
  - intros p t q W Eq Hq Hc. apply NC; [|exact Hp|exact Hc]. apply next_in in Eq. exists (p, q). split; [exact Eq|right; reflexivity].
  - constructor.
  - constructor; [intros []|constructor].
  - intros x. reflexivity.
  - unfold segments. rewrite map_length. cbn. lia.
  - destruct (closed_sides _ p0 p t D W N) as (S1 & S2). destruct (walk_ends _ _ _ W) as (l' & E). rewrite E, rev_app_distr in S1, S2 |- *.
    exists p0, (rev l'). split; [reflexivity|]. split; [reflexivity|]. split; [exact S1|exact S2].
Qed.
Print Assumptions C95_closed.

(** * The whole boundary *)
Lemma simple_deterministic m : simple_boundary m -> deterministic (segments m).
Proof.
  intros (_ & N & _) a a' p q H H' _ _. assert (U : forall l : list segment, NoDup (map snd l) -> forall a b c, In (a, c) l -> In (b, c) l -> a = b).
  { clear. induction l as [|(x, y) l IH]; intros N a b c Ha Hb; [destruct Ha|]. cbn in N. inversion N as [|? ? Ni N']. subst.
    assert (F : forall z, In (z, y) l -> False) by (intros z Hz; apply Ni, in_map_iff; exists (z, y); split; [reflexivity|exact Hz]).
    destruct Ha as [Ea|Ha], Hb as [Eb|Hb].
    - congruence.
    - injection Ea as -> ->. destruct (F _ Hb).
    - injection Eb as -> ->. destruct (F _ Ha).
    - exact (IH N' a b c Ha Hb). }
  exact (U _ N a a' p H H').
Qed.
Lemma simple_continued m : simple_boundary m -> continued (segments m).
Proof.
  intros (_ & _ & I) a b H. assert (Hb : In b (map fst (segments m))) by (apply I, in_map_iff; exists (a, b); split; [reflexivity|exact H]).
  apply in_map_iff in Hb. destruct Hb as ((x, c) & <- & Hc). exists c. exact Hc.
Qed.
Lemma unique_next (segs : list segment) a b c : NoDup (map fst segs) -> In (a, b) segs -> In (a, c) segs -> b = c.
Proof.
  intros N. induction segs as [|(x, y) l IH]; intros Ha Hb; [destruct Ha|]. cbn in N. inversion N as [|? ? Ni N']. subst.
  assert (F : forall z, In (x, z) l -> False) by (intros z Hz; apply Ni, in_map_iff; exists (x, z); split; [reflexivity|exact Hz]).
  destruct Ha as [Ea|Ha], Hb as [Eb|Hb]; [congruence|injection Ea as -> ->; destruct (F _ Hb)|injection Eb as -> ->; destruct (F _ Ha)|exact (IH N' Ha Hb)].
Qed.

Lemma simple_revisit m p0 p t q : simple_boundary m -> walk (segments m) p0 (p :: t) -> next_point (segments m) (hd_error t) p = Some q -> In q (p :: t) -> q = p0.
Proof.
  intros S W E H. destruct (point_dec q p0) as [|Hn]; [assumption|exfalso]. pose proof (simple_deterministic m S) as D.
  destruct (visited_position _ p0 _ q W H Hn) as (l1 & a & t' & El).
  assert (W2 : walk (segments m) p0 (q :: a :: t')) by (apply (walk_suffix _ _ l1); [discriminate|rewrite <- El; exact W]).
  assert (Ha : In (a, q) (segments m)) by (apply (walk_edges _ _ _ W2); left; reflexivity). pose proof (next_in _ _ _ _ E) as Hp.
  destruct (simple_continued m S _ _ Hp) as (d & Hd). destruct (next_some _ (Some a) q d Hd) as (r & Er).
  assert (Ea : a = p).
  { apply (D a p q r Ha Hp Er). destruct S as (N & _). rewrite (next_same _ (Some p) (Some a) q N). exact Er. }
  subst a. apply (no_repeat _ p0 D t' t p q); [constructor; assumption|exact W2|]. assert (L := f_equal (@length _) El). rewrite app_length in L. cbn in L. lia.
Qed.

Lemma walk_points m p0 l : simple_boundary m -> walk (segments m) p0 l -> NoDup l.
Proof.
  intros S W. induction W as [|t p q W IH N Hq]; [constructor; [intros []|constructor]|]. constructor; [|exact IH].
  intros H. apply Hq. exact (simple_revisit m p0 p t q S W N H).
Qed.

(** A mesh without holes whose boundary does not touch itself: the polygon runs
    through all boundary segments once, and through no point twice. *)
Theorem C95_whole :
  forall m fuel, good_mesh m -> simple_boundary m -> one_boundary m -> (length (boundary m) < fuel)%nat ->
  exists p l, get_boundary_polygon fuel m = Polygon (p :: l) /\ start_of (pmin m) (pmax m) (segments m) = Some p /\
    NoDup (p :: l) /\ Permutation (sides (p :: l)) (segments m).
Proof.
  intros m fuel G S O Hf. destruct (C95_start m G) as (p0 & Es & Hp & _). unfold get_boundary_polygon. rewrite Es.
  pose proof (simple_continued m S) as C. pose proof (simple_deterministic m S) as D.
  destruct (follow_ok (segments m) p0 D C (source m p0 C Hp)) with (fuel := fuel) (trail := [p0]) (reg := [p0]) as (p & t & -> & W & N).
  - intros p t q W Eq Hq _. exact (simple_revisit m p0 p t q S W Eq Hq).
  - constructor.
  - constructor; [intros []|constructor].
  - intros x. reflexivity.
  - unfold segments. rewrite map_length. cbn. lia.
  - destruct (closed_sides _ p0 p t D W N) as (S1 & S2). pose proof (walk_points m p0 _ S W) as Np. pose proof (sides_walk _ _ _ _ W) as Sw.
    assert (P : Permutation (sides (rev (p :: t))) (segments m)).
    { apply NoDup_Permutation; [exact S1|apply (NoDup_map_inv fst); apply S|]. intros s. split; [apply S2|].
      intros Hs. assert (Hi : incl (segments m) (sides (rev (p :: t)))); [|exact (Hi s Hs)].
      apply O; [|exact S2|].
      - rewrite Sw. intros Z. assert (L := f_equal (@length _) Z). rewrite rev_length in L. cbn in L. lia.
      - intros a b c Hab Hbc. rewrite Sw in Hab |- *. apply in_rev in Hab. apply -> in_rev.
        assert (K : forall l, walk (segments m) p0 l -> forall b c, In b l -> In (b, c) (segments m) -> (forall q, hd_error l = Some q -> b <> q) -> In (b, c) (edges_of l)).
        { clear - S. intros l W. induction W as [|t p q W IH N Hq]; intros b c Hb Hc Hn.
          - destruct Hb as [<-|[]]. destruct (Hn p0 eq_refl). reflexivity.
          - change (edges_of (q :: p :: t)) with ((p, q) :: edges_of (p :: t)). destruct Hb as [<-|Hb]; [destruct (Hn q eq_refl); reflexivity|].
            destruct (point_dec b p) as [-> |Hbp].
            + left. f_equal. destruct S as (Nf & _). exact (unique_next _ _ _ _ Nf (next_in _ _ _ _ N) Hc).
            + right. apply IH; [exact Hb|exact Hc|]. intros x Hx. cbn in Hx. injection Hx as <-. exact Hbp. }
        change (edges_of (p0 :: p :: t)) with ((p, p0) :: edges_of (p :: t)) in *.
        assert (Hb : In b (p :: t)).
        { assert (In p0 (p :: t)) by (destruct (walk_ends _ _ _ W) as (l' & ->); apply in_or_app; right; left; reflexivity).
          destruct Hab as [E|Hab]; [injection E as _ <-; assumption|]. apply edge_position in Hab. destruct Hab as (l1 & t' & ->). apply in_or_app. right. left. reflexivity. }
        destruct (point_dec b p) as [-> |Hbp].
        + left. f_equal. destruct S as (Nf & _). exact (unique_next _ _ _ _ Nf (next_in _ _ _ _ N) Hbc).
        + right. apply K; [exact W|exact Hb|exact Hbc|]. intros q Hq. cbn in Hq. injection Hq as <-. exact Hbp. }
    apply NoDup_rev in Np. destruct (walk_ends _ _ _ W) as (l' & E). rewrite E, rev_app_distr in P, Np |- *.
    exists p0, (rev l'). split; [reflexivity|]. split; [reflexivity|]. split; [exact Np|exact P].
Qed.
Print Assumptions C95_whole.

(** * Enclosing *)
Lemma sum_boundary m (f : segment -> R) : good_mesh m -> (forall s, f (swap s) = - f s) ->
  Rsum (map f (segments m)) =
  Rsum (map (fun i => f (corner_of m i 0, corner_of m i 1) + f (corner_of m i 1, corner_of m i 2) + f (corner_of m i 2, corner_of m i 0)) (seq 0 (triangles m))).
Proof.
  intros (_ & _ & inner & P & Q) A. unfold segments.
  assert (E1 : Rsum (map f (map (segment_of m) (all_edges m))) =
    Rsum (map (fun i => f (corner_of m i 0, corner_of m i 1) + f (corner_of m i 1, corner_of m i 2) + f (corner_of m i 2, corner_of m i 0)) (seq 0 (triangles m)))).
  { unfold all_edges. generalize (seq 0 (triangles m)) as l. induction l as [|i l IH]; [reflexivity|].
    cbn [flat_map app map]. cbn [Rsum fold_right segment_of] in *. rewrite IH. ring. }
  assert (E2 : Rsum (map f (map (segment_of m) (all_edges m))) = Rsum (map f (map (segment_of m) (boundary m))) + Rsum (map f (map (segment_of m) inner))).
  { rewrite <- Rsum_app', <- !map_app. apply Rsum_perm, Permutation_map, Permutation_map, P. }
  assert (E3 : Rsum (map f (map (segment_of m) inner)) = - Rsum (map f (map (segment_of m) inner))).
  { rewrite <- (sum_opposite f _ A). apply Rsum_perm, Permutation_map, Q. }
  lra.
Qed.

Definition in_triangle (m : mesh) (i : nat) (p : point) : Prop := within p (corner_of m i 0) (corner_of m i 1) (corner_of m i 2).
Definition off_triangle (m : mesh) (i : nat) (p : point) : Prop := beyond p (corner_of m i 0) (corner_of m i 1) (corner_of m i 2).

(** For such meshes the polygon runs counter-clockwise, its area is that of all
    triangles, it goes around every point of a triangle and around no point
    outside of all triangles; around a point of one triangle only, it goes once. *)
Theorem C95_encloses :
  forall m fuel, good_mesh m -> simple_boundary m -> one_boundary m -> (length (boundary m) < fuel)%nat ->
  exists l, get_boundary_polygon fuel m = Polygon l /\
    area2 l = Rsum (map (fun i => side (corner_of m i 2) (corner_of m i 0) (corner_of m i 1)) (seq 0 (triangles m))) /\ 0 < area2 l /\
    (forall p i, (i < triangles m)%nat -> in_triangle m i p -> 1 <= winding p l) /\
    (forall p i, (i < triangles m)%nat -> in_triangle m i p -> (forall j, (j < triangles m)%nat -> j <> i -> off_triangle m j p) -> winding p l = 1) /\
    (forall p, (forall i, (i < triangles m)%nat -> off_triangle m i p) -> winding p l = 0).
Proof.
  intros m fuel G S O Hf. destruct (C95_whole m fuel G S O Hf) as (p0 & l0 & E & _ & _ & P). exists (p0 :: l0). set (l := p0 :: l0) in *.
  assert (Ar : area2 l = Rsum (map (fun i => side (corner_of m i 2) (corner_of m i 0) (corner_of m i 1)) (seq 0 (triangles m)))).
  { unfold area2. rewrite (Rsum_perm _ _ (Permutation_map cross P)), (sum_boundary m cross G) by (intros (a, b); unfold cross, swap; cbn; ring).
    f_equal. apply map_ext. intros i. unfold cross, side. cbn [fst snd]. ring. }
  assert (Wi : forall p, winding p l = Rsum (map (fun i => crossings p (corner_of m i 0) (corner_of m i 1) (corner_of m i 2)) (seq 0 (triangles m)))).
  { intros p. unfold winding. rewrite (Rsum_perm _ _ (Permutation_map _ P)), (sum_boundary m _ G (crossing_swap p)). reflexivity. }
  assert (Ge : forall (f : nat -> R) L, (forall i, In i L -> 0 <= f i) -> 0 <= Rsum (map f L) /\ forall i, In i L -> f i <= Rsum (map f L)).
  { clear. intros f. induction L as [|x L IH]; intros H; [split; [cbn; lra|intros i []]|].
    destruct (IH (fun i Hi => H i (or_intror Hi))) as (I1 & I2). pose proof (H x (or_introl eq_refl)) as Hx. cbn in *. split; [lra|].
    intros i [<-|Hi]; [lra|]. specialize (I2 i Hi). lra. }
  pose proof G as (Nb & Cc & _).
  assert (T : forall p i, (i < triangles m)%nat -> 0 <= crossings p (corner_of m i 0) (corner_of m i 1) (corner_of m i 2)).
  { intros p i Hi. destruct (triangle_crossings p _ _ _ (Cc i Hi)) as ([H|H] & _); lra. }
  split; [exact E|]. split; [exact Ar|]. split; [|split; [|split]].
  - assert (Hm : exists i, (i < triangles m)%nat).
    { destruct (boundary m) as [|k b] eqn:Eb; [congruence|]. exists (fst k). apply (edge_in m G). rewrite Eb. left. reflexivity. }
    destruct Hm as (i & Hi). rewrite Ar.
    destruct (Ge (fun i => side (corner_of m i 2) (corner_of m i 0) (corner_of m i 1)) (seq 0 (triangles m))) as (_ & L).
    { intros j Hj. apply in_seq in Hj. specialize (Cc j ltac:(lia)). unfold ccw in Cc. lra. }
    specialize (L i ltac:(apply in_seq; lia)). specialize (Cc i Hi). unfold ccw in Cc. cbn beta in L. lra.
  - intros p i Hi Hp. rewrite Wi.
    destruct (Ge (fun i => crossings p (corner_of m i 0) (corner_of m i 1) (corner_of m i 2)) (seq 0 (triangles m))) as (_ & L).
    { intros j Hj. apply in_seq in Hj. apply T. lia. }
    specialize (L i ltac:(apply in_seq; lia)). cbn beta in L. destruct (triangle_crossings p _ _ _ (Cc i Hi)) as (_ & H & _). rewrite (H Hp) in L. exact L.
  - intros p i Hi Hp Hj. rewrite Wi.
    assert (Z : forall L, NoDup L -> (forall j, In j L -> (j < triangles m)%nat) ->
      Rsum (map (fun i => crossings p (corner_of m i 0) (corner_of m i 1) (corner_of m i 2)) L) = if in_dec Nat.eq_dec i L then 1 else 0).
    { induction L as [|x L IH]; intros Nd Hl; [reflexivity|]. inversion Nd as [|? ? Nx Nd']. subst. cbn [map Rsum fold_right].
      cbn [Rsum] in IH. unfold Rsum in IH |- *. cbn [fold_right]. rewrite (IH Nd' (fun j H => Hl j (or_intror H))).
      destruct (Nat.eq_dec x i) as [-> |Hx].
      - destruct (triangle_crossings p _ _ _ (Cc i Hi)) as (_ & H & _). rewrite (H Hp).
        destruct (in_dec Nat.eq_dec i L) as [|_]; [contradiction|]. destruct (in_dec Nat.eq_dec i (i :: L)) as [_|N]; [lra|]. destruct N. left. reflexivity.
      - destruct (triangle_crossings p _ _ _ (Cc x (Hl x (or_introl eq_refl)))) as (_ & _ & H). rewrite (H (Hj x (Hl x (or_introl eq_refl)) Hx)).
        destruct (in_dec Nat.eq_dec i L) as [HL|HL], (in_dec Nat.eq_dec i (x :: L)) as [HL'|HL']; try lra.
        + destruct HL'. right. exact HL.
        + destruct HL' as [E'|HL']; [congruence|contradiction]. }
    rewrite Z; [|apply seq_NoDup|intros j H; apply in_seq in H; lia]. destruct (in_dec _ _ _) as [|N]; [reflexivity|]. destruct N. apply in_seq. lia.
  - intros p Hp. rewrite Wi. assert (Z : forall L, (forall j, In j L -> (j < triangles m)%nat) ->
      Rsum (map (fun i => crossings p (corner_of m i 0) (corner_of m i 1) (corner_of m i 2)) L) = 0).
    { induction L as [|x L IH]; intros Hl; [reflexivity|]. unfold Rsum in *. cbn [map fold_right]. rewrite (IH (fun j H => Hl j (or_intror H))).
      destruct (triangle_crossings p _ _ _ (Cc x (Hl x (or_introl eq_refl)))) as (_ & _ & H). rewrite (H (Hp x (Hl x (or_introl eq_refl)))). lra. }
    apply Z. intros j H. apply in_seq in H. lia.
Qed.
Print Assumptions C95_encloses.

(** * What goes wrong *)
Lemma step_new fuel segs s p t reg q : (length reg < length segs)%nat -> next_point segs (hd_error t) p = Some q -> ~ In q reg ->
  follow (S fuel) segs s (p :: t) reg = follow fuel segs s (q :: p :: t) (q :: reg).
Proof.
  intros L E N. cbn [follow]. rewrite (proj2 (Nat.ltb_lt _ _) L), E. destruct (in_dec point_dec q reg); [contradiction|reflexivity].
Qed.
Lemma step_end fuel segs s p t reg q : (length reg < length segs)%nat -> next_point segs (hd_error t) p = Some q -> In q reg -> allclose q s = true ->
  follow (S fuel) segs s (p :: t) reg = Polygon (rev (p :: t)).
Proof.
  intros L E I C. cbn [follow]. rewrite (proj2 (Nat.ltb_lt _ _) L), E. destruct (in_dec point_dec q reg); [|contradiction]. rewrite C. reflexivity.
Qed.
Lemma next_one segs b p q : candidates segs p = [q] -> next_point segs b p = Some q.
Proof. unfold next_point. intros ->. reflexivity. Qed.
Lemma same_refl p : same p p = true.
Proof. apply same_true. reflexivity. Qed.
Lemma same_neq p q : p <> q -> same p q = false.
Proof. intros N. destruct (same p q) eqn:E; [|reflexivity]. apply same_true in E. contradiction. Qed.
Lemma dist_le p q r : dist p q <= dist r q ->
  (px p - px q) * (px p - px q) + (py p - py q) * (py p - py q) <= (px r - px q) * (px r - px q) + (py r - py q) * (py r - py q).
Proof. assert (Z : forall u v : R, 0 <= u * u + v * v) by (intros; nra). unfold dist. intros H. apply sqrt_le_0 in H; [exact H|apply Z|apply Z]. Qed.

Ltac points_differ := let E := fresh in intros E; injection E; intros; lra.
Ltac list_candidates := unfold candidates, segments; cbn -[same]; repeat (first [rewrite same_refl | rewrite same_neq by points_differ]; cbn -[same]); reflexivity.
Ltac pairs_of_edges := repeat (eapply perm_trans; [apply perm_swap|apply perm_skip, perm_skip]); apply perm_nil.
Ltac different_points := repeat constructor; cbn; intros H; repeat (destruct H as [H|H]; [injection H; intros; lra|]); exact H.
Ltac minima := repeat match goal with |- context [Rmin (IZR ?a) (IZR ?b)] => first [rewrite (Rmin_left (IZR a) (IZR b)) by lra | rewrite (Rmin_right (IZR a) (IZR b)) by lra] end.

Lemma turn_ahead k : 0 < k -> turn_angle (k, 0) (1, 0) = 0.
Proof.
  intros Hk. assert (N1 : norm (k, 0) = k) by (unfold norm; cbn; replace (k * k + 0 * 0) with (k * k) by ring; apply sqrt_square; lra).
  assert (N2 : norm (1, 0) = 1) by (unfold norm; cbn; replace (1 * 1 + 0 * 0) with 1 by ring; apply sqrt_1).
  unfold turn_angle, angle. rewrite N1, N2. cbv zeta. cbn [px py fst snd].
  replace (k / k * (1 / 1) + 0 / k * (0 / 1)) with 1 by (field; lra). replace (k / k * - (0 / 1) + 0 / k * (1 / 1)) with 0 by (field; lra).
  rewrite (proj2 (Rltb_false 0 0)), acos_1 by lra. pose proof PI_RGT_0. rewrite (proj2 (Rltb_false PI 0)) by lra. reflexivity.
Qed.
Lemma turn_left k : 0 < k -> turn_angle (0, k) (1, 0) = PI / 2.
Proof.
  intros Hk. assert (N1 : norm (0, k) = k) by (unfold norm; cbn; replace (0 * 0 + k * k) with (k * k) by ring; apply sqrt_square; lra).
  assert (N2 : norm (1, 0) = 1) by (unfold norm; cbn; replace (1 * 1 + 0 * 0) with 1 by ring; apply sqrt_1).
  unfold turn_angle, angle. rewrite N1, N2. cbv zeta. cbn [px py fst snd].
  replace (0 / k * (1 / 1) + k / k * (0 / 1)) with 0 by (field; lra). replace (0 / k * - (0 / 1) + k / k * (1 / 1)) with 1 by (field; lra).
  rewrite (proj2 (Rltb_false 1 0)), acos_0 by lra. pose proof PI_RGT_0. rewrite (proj2 (Rltb_false PI (PI / 2))) by lra. reflexivity.
Qed.

(** A mesh with the corners in a list, three for each triangle. *)
Definition list_mesh (corners : list point) (keys : list (nat * nat)) : mesh :=
  {| triangles := length corners / 3; corner_of := fun i j => nth (3 * i + j) corners (0, 0); boundary := keys |}.

(** A hole with a corner closer to the lower left of the extent than any outer
    point: the polygon is the hole, clockwise, and encloses no triangle. *)
Definition ring : mesh :=
  let P := (12, 0) in let Q := (12, 12) in let R := (0, 12) in let a := (7, 7) in let b := (9, 8) in let c := (8, 9) in
  list_mesh [R; P; a; P; b; a; P; Q; b; Q; c; b; Q; R; c; R; a; c] [(0, 2); (1, 0); (2, 2); (3, 0); (4, 2); (5, 0)]%nat.

Lemma ring_good : good_mesh ring /\ simple_boundary ring.
Proof.
  split.
  - split; [discriminate|]. split.
    + intros i Hi. change (triangles ring) with 6%nat in Hi. destruct i as [|[|[|[|[|[|i]]]]]]; [..|lia]; unfold ccw, side; cbn; lra.
    + exists [(0, 0); (1, 1); (0, 1); (5, 2); (1, 2); (2, 1); (2, 0); (3, 1); (3, 2); (4, 1); (4, 0); (5, 1)]%nat. split.
      * apply NoDup_Permutation; [unfold all_edges; cbn; repeat constructor; cbn; intuition congruence|cbn; repeat constructor; cbn; intuition congruence|].
        intros k. unfold all_edges. cbn. tauto.
      * cbn. unfold swap. cbn. pairs_of_edges.
  - unfold simple_boundary, segments. cbn. repeat split; [different_points..|]. intros p Hp. cbn in *. tauto.
Qed.

Theorem C95_hole_refuted :
  forall fuel, (6 < fuel)%nat ->
  good_mesh ring /\ simple_boundary ring /\ get_boundary_polygon fuel ring = Polygon [(7, 7); (8, 9); (9, 8)] /\
  area2 [(7, 7); (8, 9); (9, 8)] < 0 /\ in_triangle ring 0 (19 / 3, 19 / 3) /\ winding (19 / 3, 19 / 3) [(7, 7); (8, 9); (9, 8)] = 0.
Proof.
  intros fuel Hf. destruct ring_good as (G & S). split; [exact G|]. split; [exact S|]. split; [|split; [|split]].
  - destruct (C95_start ring G) as (p & Es & Hp & Mp). unfold get_boundary_polygon. rewrite Es.
    assert (Lo : pmin ring = (0, 0)) by (unfold pmin; cbn -[Rmin]; unfold px, py; cbn -[Rmin]; minima; reflexivity). rewrite Lo in Mp.
    assert (Ha : boundary_point ring (7, 7)) by (exists ((9, 8), (7, 7)); split; [cbn; tauto|right; reflexivity]).
    specialize (Mp _ Ha). apply dist_le in Mp.
    assert (Ep : p = (7, 7)).
    { destruct Hp as (s & Hs & Hp). cbn in Hs. repeat (destruct Hs as [<-|Hs]; [cbn in Hp; destruct Hp as [-> | ->]; try reflexivity; cbn in Mp; exfalso; lra|]). destruct Hs. }
    subst p. do 3 (destruct fuel as [|fuel]; [lia|]).
    rewrite (step_new _ _ _ _ _ _ (8, 9)); [|cbn; lia|apply next_one; list_candidates|cbn; intros [E|[]]; revert E; points_differ].
    rewrite (step_new _ _ _ _ _ _ (9, 8)); [|cbn; lia|apply next_one; list_candidates|cbn; intros [E|[E|[]]]; revert E; points_differ].
    rewrite (step_end _ _ _ _ _ _ (7, 7)); [reflexivity|cbn; lia|apply next_one; list_candidates|cbn; tauto|apply allclose_refl].
  - unfold area2, cross. cbn. lra.
  - unfold in_triangle, within, side. cbn. lra.
  - unfold winding, crossing. cbn -[Rleb Rltb]. rewrite !(proj2 (Rleb_false _ _)) by lra. cbn. lra.
Qed.
Print Assumptions C95_hole_refuted.

(** Two triangles that touch in the point closest to the lower left: the polygon
    goes around one of them only. *)
Definition bowtie : mesh :=
  list_mesh [(1, 1); (1, 5); (0, 5); (1, 1); (5, 1); (5, 2)] [(0, 0); (0, 1); (0, 2); (1, 0); (1, 1); (1, 2)]%nat.

Lemma two_alone a b c d e f : ccw a b c -> ccw d e f -> good_mesh (list_mesh [a; b; c; d; e; f] [(0, 0); (0, 1); (0, 2); (1, 0); (1, 1); (1, 2)]%nat).
Proof.
  intros H1 H2. split; [discriminate|]. split.
  - intros i Hi. change (triangles _) with 2%nat in Hi. destruct i as [|[|i]]; [exact H1|exact H2|lia].
  - exists []. split; [apply Permutation_refl|apply perm_nil].
Qed.

Theorem C95_touch_refuted :
  forall fuel, (6 < fuel)%nat ->
  good_mesh bowtie /\ get_boundary_polygon fuel bowtie = Polygon [(1, 1); (5, 1); (5, 2)] /\
  in_triangle bowtie 0 (3 / 4, 4) /\ winding (3 / 4, 4) [(1, 1); (5, 1); (5, 2)] = 0.
Proof.
  intros fuel Hf. assert (G : good_mesh bowtie) by (apply two_alone; unfold ccw, side; cbn; lra). split; [exact G|]. split; [|split].
  - destruct (C95_start bowtie G) as (p & Es & Hp & Mp). unfold get_boundary_polygon. rewrite Es.
    assert (Lo : pmin bowtie = (0, 1)) by (unfold pmin; cbn -[Rmin]; unfold px, py; cbn -[Rmin]; minima; reflexivity). rewrite Lo in Mp.
    assert (Ha : boundary_point bowtie (1, 1)) by (exists ((1, 1), (1, 5)); split; [cbn; tauto|left; reflexivity]).
    specialize (Mp _ Ha). apply dist_le in Mp.
    assert (Ep : p = (1, 1)).
    { destruct Hp as (s & Hs & Hp). cbn in Hs. repeat (destruct Hs as [<-|Hs]; [cbn in Hp; destruct Hp as [-> | ->]; try reflexivity; cbn in Mp; exfalso; lra|]). destruct Hs. }
    subst p. do 3 (destruct fuel as [|fuel]; [lia|]).
    assert (N1 : next_point (segments bowtie) (@hd_error point []) (1, 1) = Some (5, 1)).
    { unfold next_point. assert (Ec : candidates (segments bowtie) (1, 1) = [(1, 5); (5, 1)]) by list_candidates. rewrite Ec. f_equal.
      unfold rightmost. cbn [hd_error fold_left fst snd]. unfold minus. cbn [px py fst snd].
      replace (1 - 1, 5 - 1) with (0, 4) by (f_equal; lra). replace (5 - 1, 1 - 1) with (4, 0) by (f_equal; lra).
      rewrite turn_left, turn_ahead by lra. pose proof PI_RGT_0. rewrite (proj2 (Rltb_true (PI / 2) (2 * PI))) by lra. cbn [fst].
      rewrite (proj2 (Rltb_true 0 (PI / 2))) by lra. reflexivity. }
    rewrite (step_new _ _ _ _ _ _ (5, 1)); [|cbn; lia|exact N1|cbn; intros [E|[]]; revert E; points_differ].
    rewrite (step_new _ _ _ _ _ _ (5, 2)); [|cbn; lia|apply next_one; list_candidates|cbn; intros [E|[E|[]]]; revert E; points_differ].
    rewrite (step_end _ _ _ _ _ _ (1, 1)); [reflexivity|cbn; lia|apply next_one; list_candidates|cbn; tauto|apply allclose_refl].
  - unfold in_triangle, within, side. cbn. lra.
  - unfold winding, crossing. cbn -[Rleb Rltb]. rewrite !(proj2 (Rleb_true _ _)) by lra. cbn. lra.
Qed.
Print Assumptions C95_touch_refuted.

(** In absolute coordinates [allclose] takes points that are metres apart for the
    same: a point where the boundary touches itself, next to the start, ends the
    walk; the last side of the polygon is no boundary segment. *)
Definition tail : mesh :=
  list_mesh [(500000, 6000000); (500001, 6000000); (500001, 6000010); (500001, 6000000); (500003, 6000000); (500003, 6000001)]
    [(0, 0); (0, 1); (0, 2); (1, 0); (1, 1); (1, 2)]%nat.

Theorem C95_close_refuted :
  forall fuel, (6 < fuel)%nat ->
  let l := [(500000, 6000000); (500001, 6000000); (500003, 6000000); (500003, 6000001)] in
  good_mesh tail /\ get_boundary_polygon fuel tail = Polygon l /\
  (exists s, In s (sides l) /\ ~ In s (segments tail)) /\
  in_triangle tail 0 (500000 + 9 / 10, 6000005) /\ winding (500000 + 9 / 10, 6000005) l = 0.
Proof.
  intros fuel Hf l. assert (G : good_mesh tail) by (apply two_alone; unfold ccw, side; cbn; lra). split; [exact G|]. split; [|split; [|split]].
  - destruct (C95_start tail G) as (p & Es & Hp & Mp). unfold get_boundary_polygon. rewrite Es.
    assert (Lo : pmin tail = (500000, 6000000)) by (unfold pmin; cbn -[Rmin IZR]; unfold px, py; cbn -[Rmin IZR]; minima; reflexivity). rewrite Lo in Mp.
    assert (Ha : boundary_point tail (500000, 6000000)) by (exists ((500000, 6000000), (500001, 6000000)); split; [cbn -[IZR]; tauto|left; reflexivity]).
    specialize (Mp _ Ha). apply dist_le in Mp.
    assert (Ep : p = (500000, 6000000)).
    { destruct Hp as (s & Hs & Hp). cbn -[IZR] in Hs. repeat (destruct Hs as [<-|Hs]; [cbn [fst snd] in Hp; destruct Hp as [-> | ->]; try reflexivity; cbn [px py fst snd] in Mp; exfalso; lra|]). destruct Hs. }
    subst p. do 4 (destruct fuel as [|fuel]; [lia|]).
    assert (N1 : next_point (segments tail) (hd_error [(500000, 6000000)]) (500001, 6000000) = Some (500003, 6000000)).
    { unfold next_point. assert (Ec : candidates (segments tail) (500001, 6000000) = [(500001, 6000010); (500003, 6000000)]) by list_candidates. rewrite Ec. f_equal.
      unfold rightmost. cbn [hd_error fold_left fst snd]. unfold minus. cbn [px py fst snd].
      replace (500001 - 500001, 6000010 - 6000000) with (0, 10) by (f_equal; lra). replace (500003 - 500001, 6000000 - 6000000) with (2, 0) by (f_equal; lra).
      replace (500001 - 500000, 6000000 - 6000000) with (1, 0) by (f_equal; lra).
      rewrite turn_left, turn_ahead by lra. pose proof PI_RGT_0. rewrite (proj2 (Rltb_true (PI / 2) (2 * PI))) by lra. cbn [fst].
      rewrite (proj2 (Rltb_true 0 (PI / 2))) by lra. reflexivity. }
    rewrite (step_new _ _ _ _ _ _ (500001, 6000000)); [|cbn -[IZR]; lia|apply next_one; list_candidates|cbn -[IZR]; intros [E|[]]; revert E; points_differ].
    rewrite (step_new _ _ _ _ _ _ (500003, 6000000)); [|cbn -[IZR]; lia|exact N1|cbn -[IZR]; intros [E|[E|[]]]; revert E; points_differ].
    rewrite (step_new _ _ _ _ _ _ (500003, 6000001)); [|cbn -[IZR]; lia|apply next_one; list_candidates|cbn -[IZR]; intros [E|[E|[E|[]]]]; revert E; points_differ].
    rewrite (step_end _ _ _ _ _ _ (500001, 6000000)); [reflexivity|cbn -[IZR]; lia|apply next_one; list_candidates|cbn -[IZR]; tauto|].
    unfold allclose. cbn [px py fst snd]. assert (A : 0 < atol) by (unfold atol; apply Rinv_0_lt_compat, pow_lt; lra).
    apply andb_true_intro. split; apply Rleb_true; rewrite !Rabs_right by lra; unfold rtol; lra.
  - exists ((500003, 6000001), (500000, 6000000)). split; [cbn -[IZR]; tauto|]. cbn -[IZR]. intros H.
    repeat (destruct H as [H|H]; [injection H; intros; lra|]). exact H.
  - unfold in_triangle, within, side. cbn -[IZR]. lra.
  - unfold winding, crossing, l. cbn -[Rleb Rltb IZR]. rewrite !(proj2 (Rleb_true _ _)) by lra. cbn. lra.
Qed.
Print Assumptions C95_close_refuted.

(** A square of two triangles. *)
Definition square : mesh :=
  list_mesh [(0, 0); (1, 0); (0, 1); (1, 1); (0, 1); (1, 0)] [(0, 1); (0, 2); (1, 1); (1, 2)]%nat.
Example C95_case : good_mesh square /\ simple_boundary square /\ one_boundary square.
Proof.
  split; [|split].
  - split; [discriminate|]. split.
    + intros i Hi. change (triangles square) with 2%nat in Hi. destruct i as [|[|i]]; [..|lia]; unfold ccw, side; cbn; lra.
    + exists [(0, 0); (1, 0)]%nat. split.
      * apply NoDup_Permutation; [unfold all_edges; cbn; repeat constructor; cbn; intuition congruence|cbn; repeat constructor; cbn; intuition congruence|].
        intros k. unfold all_edges. cbn. tauto.
      * cbn. unfold swap. cbn. pairs_of_edges.
  - unfold simple_boundary, segments. cbn. repeat split; [different_points..|]. intros p Hp. cbn in *. tauto.
  - intros part Np I C. unfold segments in *. cbn in *.
    set (s1 := ((0, 1), (0, 0))) in *. set (s2 := ((0, 0), (1, 0))) in *. set (s3 := ((1, 0), (1, 1))) in *. set (s4 := ((1, 1), (0, 1))) in *.
    assert (C1 : In s1 part -> In s2 part) by (intros H; apply (C _ _ _ H); tauto). assert (C2 : In s2 part -> In s3 part) by (intros H; apply (C _ _ _ H); tauto).
    assert (C3 : In s3 part -> In s4 part) by (intros H; apply (C _ _ _ H); tauto). assert (C4 : In s4 part -> In s1 part) by (intros H; apply (C _ _ _ H); tauto).
    destruct part as [|s part]; [congruence|]. assert (Hs : In s (s :: part)) by (left; reflexivity). pose proof (I s Hs) as Hi. cbn in Hi.
    assert (H1 : In s1 (s :: part)) by (destruct Hi as [E|[E|[E|[E|[]]]]]; rewrite <- E in Hs at 1; auto).
    intros x [<-|[<-|[<-|[<-|[]]]]]; auto.
Qed.
