(** Proofs about CrossSectionModel: all the triangles of a mesh. *)
From Coq Require Import Reals List Arith Bool Lia Lra Permutation.
From Verif Require Import RealLib ArrayLib PolygonModel PolygonProofs PolygonProps SegmentProps InsideTriangleProps CrossSectionModel CrossSectionProofs.
Import ListNotations.
Local Open Scope R_scope.

Lemma Rsum_app_C l m : Rsum (l ++ m) = Rsum l + Rsum m.
Proof. induction l as [|x l IH]; cbn [app Rsum]; [ring|rewrite IH; ring]. Qed.

(** ** Intervals that cover an interval *)
Lemma below_all (l : list R) a b : a < b -> (forall x, In x l -> a < x) -> exists m, a < m <= b /\ forall x, In x l -> m <= x.
Proof.
  intros Hab. induction l as [|x l IH]; intros H.
  - exists b. split; [lra|intros x []].
  - destruct IH as (m & Hm & Hl); [intros y Hy; apply H; right; auto|]. assert (a < x) by (apply H; left; auto).
    exists (Rmin m x). split.
    + unfold Rmin. destruct (Rle_dec m x); lra.
    + intros y [<-|Iy]; [apply Rmin_r|]. eapply Rle_trans; [apply Rmin_l|auto].
Qed.

Lemma cover (G : R -> R) : forall n (L : list (R * R)) E a b, length L = n -> NoDup L -> a <= b ->
  (forall I, In I L -> a <= fst I /\ fst I < snd I /\ snd I <= b) ->
  (forall I J, In I L -> In J L -> I <> J -> snd I <= fst J \/ snd J <= fst I) ->
  (forall s, a <= s <= b -> In s E \/ exists I, In I L /\ fst I <= s <= snd I) ->
  Rsum (map (fun I => G (snd I) - G (fst I)) L) = G b - G a.
Proof.
  induction n as [|n IH]; intros L E a b Hn Nd Hab Hin Hdis Hcov.
  - destruct L; [|discriminate]. cbn [map Rsum]. destruct (Req_dec a b) as [->|Nab]; [ring|]. exfalso.
    destruct (below_all (filter (fun x => Rltb a x) E) a b) as (m & Hm & Hl); [lra|intros x Ix; apply filter_In in Ix as (_ & Ix); apply Rltb_true; auto|].
    destruct (Hcov ((a + m) / 2)) as [I|(I & [] & _)]; [lra|].
    assert (m <= (a + m) / 2); [|lra]. apply Hl. apply filter_In. split; [auto|]. apply Rltb_true. lra.
  - destruct (Req_dec a b) as [->|Nab].
    { destruct L as [|I L]; [discriminate|]. exfalso. specialize (Hin I (or_introl eq_refl)). lra. }
    assert (First : exists I, In I L /\ fst I = a).
    { destruct (in_dec Req_EM_T a (map fst L)) as [K|K]; [apply in_map_iff in K as (I & E1 & E2); exists I; auto|]. exfalso.
      destruct (below_all (filter (fun x => Rltb a x) E ++ map fst L) a b) as (m & Hm & Hl); [lra| |].
      { intros x Ix. apply in_app_iff in Ix as [Ix|Ix]; [apply filter_In in Ix as (_ & Ix); apply Rltb_true; auto|].
        pose proof Ix as Ix'. apply in_map_iff in Ix as (I & <- & II). destruct (Hin I II) as (K1 & _). destruct K1 as [K1|K1]; [auto|]. exfalso. apply K. rewrite K1. auto. }
      destruct (Hcov ((a + m) / 2)) as [I|(I & II & HI)]; [lra| |].
      - assert (m <= (a + m) / 2); [|lra]. apply Hl, in_app_iff. left. apply filter_In. split; [auto|]. apply Rltb_true. lra.
      - assert (m <= fst I); [|lra]. apply Hl, in_app_iff. right. apply in_map. auto. }
    destruct First as (I & II & EI). destruct (in_split _ _ II) as (l1 & l2 & EL). subst L.
    destruct (Hin I II) as (_ & K2 & K3).
    assert (Nd' : NoDup (l1 ++ l2) /\ ~ In I (l1 ++ l2)) by (split; [eapply NoDup_remove_1; eauto|eapply NoDup_remove_2; eauto]). destruct Nd' as (Nd' & NI).
    assert (Inc : forall J, In J (l1 ++ l2) -> In J (l1 ++ I :: l2)) by (intros J; rewrite !in_app_iff; cbn; tauto).
    assert (Sub : forall J, In J (l1 ++ l2) -> snd I <= fst J).
    { intros J IJ. destruct (Hdis I J) as [K|K]; auto; [intros <-; contradiction|]. destruct (Hin J (Inc J IJ)). lra. }
    rewrite map_app. cbn [map]. rewrite Rsum_app_C. cbn [Rsum].
    assert (Rest : Rsum (map (fun I => G (snd I) - G (fst I)) (l1 ++ l2)) = G b - G (snd I)).
    { apply (IH (l1 ++ l2) (snd I :: E) (snd I) b); auto.
      - rewrite app_length in *. cbn in Hn. lia.
      - intros J IJ. split; [auto|]. apply Hin; auto.
      - intros s Hs. destruct (Req_dec s (snd I)) as [->|Ns]; [left; left; auto|].
        destruct (Hcov s) as [K|(J & IJ & HJ)]; [lra|left; right; auto|]. right. exists J. split; [|auto].
        apply in_app_iff in IJ as [IJ|[<-|IJ]]; [apply in_app_iff; auto|lra|apply in_app_iff; auto]. }
    rewrite map_app, Rsum_app_C in Rest. rewrite EI. lra.
Qed.

(** ** Two triangles of a mesh *)
Definition vertices (t : triangle) : list point := let '(a, b, c) := t in [a; b; c].

(** The intersection of two triangles is empty, a point, or part of a
    common edge. *)
Definition conforming (t t' : triangle) : Prop :=
  (exists v, forall p, in_triangle t p -> in_triangle t' p -> p = v) \/
  (exists u v, u <> v /\ In u (vertices t) /\ In v (vertices t) /\ In u (vertices t') /\ In v (vertices t') /\
   forall p, in_triangle t p -> in_triangle t' p -> on_segment p u v).

Lemma on_segment_sym p u v : on_segment p u v <-> on_segment p v u.
Proof.
  assert (G : forall u v, on_segment p u v -> on_segment p v u).
  { intros x y (t & Ht & X & Y). exists (1 - t). split; [lra|]. rewrite X, Y. split; ring. }
  split; apply G.
Qed.
Lemma opp_sym u v p : opp v u p = - opp u v p.
Proof. unfold opp. ring. Qed.

Lemma seg_flat t u v p : tri_cross t <> 0 -> In u (vertices t) -> In v (vertices t) -> u <> v ->
  (on_segment p u v <-> opp u v p = 0 /\ in_triangle t p).
Proof.
  destruct t as [[a b] c]. intros D Iu Iv Ne.
  assert (Dbc : tri_cross (b, c, a) <> 0) by (rewrite tri_cross_rot; auto). assert (Dca : tri_cross (c, a, b) <> 0) by (rewrite tri_cross_rot; auto).
  assert (Tbc : tri_cross (b, c, a) = tri_cross (a, b, c)) by apply tri_cross_rot.
  assert (Tca : tri_cross (c, a, b) = tri_cross (a, b, c)) by (rewrite tri_cross_rot; apply Tbc).
  assert (Z0 : 0 / tri_cross (a, b, c) = 0) by (unfold Rdiv; ring).
  assert (I1 : on_segment p a b <-> opp a b p = 0 /\ in_triangle (a, b, c) p).
  { rewrite (on_edge a b c p D), (in_triangle_opp a b c p D). split; [intros (K & K1 & K2); rewrite K, Z0; split; [auto|lra]|tauto]. }
  assert (I2 : on_segment p b c <-> opp b c p = 0 /\ in_triangle (a, b, c) p).
  { rewrite (on_edge b c a p Dbc), (in_triangle_opp a b c p D), Tbc. split; [intros (K & K1 & K2); rewrite K, Z0; split; [auto|lra]|tauto]. }
  assert (I3 : on_segment p c a <-> opp c a p = 0 /\ in_triangle (a, b, c) p).
  { rewrite (on_edge c a b p Dca), (in_triangle_opp a b c p D), Tca. split; [intros (K & K1 & K2); rewrite K, Z0; split; [auto|lra]|tauto]. }
  assert (Op : forall x, - x = 0 <-> x = 0) by (intros x; split; lra).
  cbn [vertices In] in Iu, Iv. clear D Dbc Dca Tbc Tca Z0.
  destruct Iu as [<-|[<-|[<-|[]]]], Iv as [<-|[<-|[<-|[]]]]; try (exfalso; apply Ne; reflexivity); auto.
  - rewrite on_segment_sym, (opp_sym c a), Op. exact I3.
  - rewrite on_segment_sym, (opp_sym a b), Op. exact I1.
  - rewrite on_segment_sym, (opp_sym b c), Op. exact I2.
Qed.

(** The part of the line in a triangle. *)
Definition part (p0 p1 : point) (t : triangle) (lo hi : R) : Prop :=
  0 <= lo /\ lo < hi /\ hi <= 1 /\ forall s, 0 <= s <= 1 -> (in_triangle t (on_way p0 p1 s) <-> lo <= s <= hi).

Lemma parts_apart p0 p1 t t' lo hi lo' hi' : p0 <> p1 -> tri_cross t <> 0 -> tri_cross t' <> 0 -> conforming t t' ->
  part p0 p1 t lo hi -> part p0 p1 t' lo' hi' -> hi <= lo' \/ hi' <= lo \/ (lo = lo' /\ hi = hi').
Proof.
  intros Ne D D' Cf (A1 & A2 & A3 & A4) (B1 & B2 & B3 & B4).
  destruct (Rle_lt_dec hi lo') as [K1|K1]; [auto|]. destruct (Rle_lt_dec hi' lo) as [K2|K2]; [auto|]. right. right.
  set (x := Rmax lo lo'). set (y := Rmin hi hi').
  assert (Hx : lo <= x /\ lo' <= x) by (split; [apply Rmax_l|apply Rmax_r]). assert (Hy : y <= hi /\ y <= hi') by (split; [apply Rmin_l|apply Rmin_r]).
  assert (Hxy : x < y). { unfold x, y, Rmax, Rmin. destruct (Rle_dec lo lo'), (Rle_dec hi hi'); lra. }
  assert (Both : forall s, x <= s <= y -> in_triangle t (on_way p0 p1 s) /\ in_triangle t' (on_way p0 p1 s)).
  { intros s Hs. split; [apply A4|apply B4]; lra. }
  destruct Cf as [(v & Cf)|(u & v & Nuv & U1 & V1 & U2 & V2 & Cf)].
  - exfalso. assert (on_way p0 p1 x = on_way p0 p1 y).
    { transitivity v; [|symmetry]; apply Cf; apply Both; lra. } apply on_way_inj in H; [lra|auto].
  - assert (Zx : opp u v (on_way p0 p1 x) = 0).
    { assert (K : on_segment (on_way p0 p1 x) u v) by (apply Cf; apply Both; lra). apply (seg_flat t u v) in K; tauto. }
    assert (Zy : opp u v (on_way p0 p1 y) = 0).
    { assert (K : on_segment (on_way p0 p1 y) u v) by (apply Cf; apply Both; lra). apply (seg_flat t u v) in K; tauto. }
    rewrite opp_on_way in Zx, Zy.
    assert (Cr : cross_dirs p0 p1 u v = 0) by (apply (Rmult_eq_reg_l (y - x)); lra).
    assert (Fl : forall s, opp u v (on_way p0 p1 s) = 0) by (intros s; rewrite opp_on_way, Cr in *; lra).
    assert (Same : forall s, in_triangle t (on_way p0 p1 s) <-> in_triangle t' (on_way p0 p1 s)).
    { intros s. pose proof (seg_flat t u v (on_way p0 p1 s) D U1 V1 Nuv). pose proof (seg_flat t' u v (on_way p0 p1 s) D' U2 V2 Nuv). specialize (Fl s). tauto. }
    assert (Eq : forall s, 0 <= s <= 1 -> (lo <= s <= hi <-> lo' <= s <= hi')).
    { intros s Hs. rewrite <- (A4 s Hs), <- (B4 s Hs). apply Same. }
    assert (E1 : lo' <= lo <= hi') by (apply Eq; lra). assert (E2 : lo <= lo' <= hi) by (apply Eq; lra).
    assert (E3 : lo' <= hi <= hi') by (apply Eq; lra). assert (E4 : lo <= hi' <= hi) by (apply Eq; lra). lra.
Qed.

(** ** The dictionary of segments *)
Definition item := (nat * (R * R))%type.
Definition crossing_item (p0 p1 : point) (it : item) : crossing := crossing_of p0 p1 (fst it) (fst (snd it)) (snd (snd it)).

Definition touches (p0 p1 : point) (t : triangle) : Prop := exists x, forall s, 0 <= s <= 1 -> in_triangle t (on_way p0 p1 s) -> s = x.

Definition items_for (p0 p1 : point) (ts : list triangle) (items : list item) : Prop :=
  NoDup (map snd items) /\
  (forall it, In it items -> exists t, nth_error ts (fst it) = Some t /\ part p0 p1 t (fst (snd it)) (snd (snd it))) /\
  (forall t, In t ts -> touches p0 p1 t \/ exists it, In it items /\ part p0 p1 t (fst (snd it)) (snd (snd it))).

Definition good (p0 p1 : point) (t : triangle) : Prop :=
  tri_cross t <> 0 /\ (forall e, In e (tri_edges t) -> clear_edge p0 p1 e) /\
  ~ (convex_combination true p0 t /\ convex_combination true p1 t).

Lemma same_segment p0 p1 it items : p0 <> p1 ->
  (existsb (fun T' => segment_eqb (segment (crossing_item p0 p1 it)) (segment T')) (map (crossing_item p0 p1) items) = true <->
   In (snd it) (map snd items)).
Proof.
  intros Ne. rewrite existsb_exists. split.
  - intros (T & I & E). apply in_map_iff in I as (it' & <- & I). apply in_map_iff. exists it'. split; [|auto].
    unfold segment_eqb in E. apply andb_true_iff in E as (E1 & E2). cbn [crossing_item crossing_of segment fst snd] in E1, E2.
    rewrite point_eqb_way in E1, E2 by auto. apply Reqb_true in E1, E2. destruct it as [i [x y]], it' as [i' [x' y']]. cbn in *. congruence.
  - intros I. apply in_map_iff in I as (it' & E & I). exists (crossing_item p0 p1 it'). split; [apply in_map; auto|].
    unfold segment_eqb, crossing_item, crossing_of. cbn [segment fst snd]. rewrite E. apply andb_true_iff. split; apply point_eqb_true; reflexivity.
Qed.

Lemma line_items p0 p1 ts : p0 <> p1 -> (forall t, In t ts -> good p0 p1 t) -> forall pre items, items_for p0 p1 pre items ->
  exists items', line_crossings_from p0 p1 (length pre) ts (map (crossing_item p0 p1) items) = Some (map (crossing_item p0 p1) items') /\
  items_for p0 p1 (pre ++ ts) items'.
Proof.
  intros Ne. induction ts as [|t ts IH]; intros Gd pre items Hi.
  - exists items. rewrite app_nil_r. auto.
  - cbn [line_crossings_from]. destruct (Gd t (or_introl eq_refl)) as (D & Cl & Nb).
    assert (Pre : length (pre ++ [t]) = S (length pre)) by (rewrite app_length; cbn; lia).
    assert (App : pre ++ t :: ts = (pre ++ [t]) ++ ts) by (rewrite <- app_assoc; reflexivity).
    assert (Old : forall i t', nth_error pre i = Some t' -> nth_error (pre ++ [t]) i = Some t').
    { intros i t' K. rewrite nth_error_app1; [auto|]. apply nth_error_Some. congruence. }
    assert (New : nth_error (pre ++ [t]) (length pre) = Some t) by (rewrite nth_error_app2, Nat.sub_diag by lia; reflexivity).
    destruct Hi as (Nd & H1 & H2).
    destruct (triangle_spec p0 p1 (length pre) t Ne D Cl Nb) as [(E & Tch)|(lo & hi & E & Pt)]; rewrite E.
    + rewrite <- Pre, App. apply IH; [intros; apply Gd; right; auto|]. split; [auto|]. split.
      * intros it I. destruct (H1 it I) as (t' & K & K'). exists t'. auto.
      * intros t' I. apply in_app_iff in I as [I|[<-|[]]]; [auto|left; exact Tch].
    + change (crossing_of p0 p1 (length pre) lo hi) with (crossing_item p0 p1 (length pre, (lo, hi))).
      unfold record_crossing. destruct (existsb _ _) eqn:Ex.
      * apply same_segment in Ex; [|auto]. cbn [snd] in Ex.
        rewrite <- Pre, App. apply IH; [intros; apply Gd; right; auto|]. split; [auto|]. split.
        -- intros it I. destruct (H1 it I) as (t' & K & K'). exists t'. auto.
        -- intros t' I. apply in_app_iff in I as [I|[<-|[]]]; [auto|]. right. apply in_map_iff in Ex as (it & Ei & I). exists it. rewrite Ei. auto.
      * assert (Nx : ~ In (lo, hi) (map snd items)).
        { intros K. pose proof (proj2 (same_segment p0 p1 (length pre, (lo, hi)) items Ne) K) as K'. rewrite Ex in K'. discriminate. }
        change ([crossing_item p0 p1 (length pre, (lo, hi))]) with (map (crossing_item p0 p1) [(length pre, (lo, hi))]). rewrite <- map_app.
        rewrite <- Pre, App. apply IH; [intros; apply Gd; right; auto|]. split; [|split].
        -- rewrite map_app. cbn [map snd]. apply (Permutation_NoDup (Permutation_cons_append _ _)). constructor; auto.
        -- intros it I. apply in_app_iff in I as [I|[<-|[]]]; [destruct (H1 it I) as (t' & K & K'); exists t'; auto|]. cbn [fst snd]. exists t. auto.
        -- intros t' I. apply in_app_iff in I as [I|[<-|[]]].
           ++ destruct (H2 t' I) as [K|(it & K & K')]; [auto|]. right. exists it. split; [apply in_app_iff; auto|auto].
           ++ right. exists (length pre, (lo, hi)). split; [apply in_app_iff; right; cbn; auto|exact Pt].
Qed.

(** The mesh around a piece of the polyline. *)
Definition crossed_by (ts : list triangle) (p0 p1 : point) : Prop :=
  p0 <> p1 /\ (forall t, In t ts -> good p0 p1 t) /\ forall s, 0 <= s <= 1 -> exists t, In t ts /\ in_triangle t (on_way p0 p1 s).

Definition conforming_mesh (ts : list triangle) : Prop :=
  forall i j t t', i <> j -> nth_error ts i = Some t -> nth_error ts j = Some t' -> conforming t t'.

Lemma touch_points p0 p1 (ts : list triangle) : exists E : list R,
  forall t, In t ts -> touches p0 p1 t -> forall s, 0 <= s <= 1 -> in_triangle t (on_way p0 p1 s) -> In s E.
Proof.
  induction ts as [|t ts (E & IH)]; [exists []; intros t []|].
  destruct (Classical_Prop.classic (touches p0 p1 t)) as [(x & Hx)|No].
  - exists (x :: E). intros t' [<-|I] T s Hs K; [left; symmetry; apply Hx; auto|right; eapply IH; eauto].
  - exists E. intros t' [<-|I] T s Hs K; [contradiction|eapply IH; eauto].
Qed.

(** The segments of one piece, as intervals that make up the whole piece. *)
Lemma line_total p0 p1 ts : conforming_mesh ts -> crossed_by ts p0 p1 ->
  exists items, line_crossings p0 p1 ts = Some (map (crossing_item p0 p1) items) /\ items_for p0 p1 ts items /\
  forall G : R -> R, Rsum (map (fun it => G (snd (snd it)) - G (fst (snd it))) items) = G 1 - G 0.
Proof.
  intros Cf (Ne & Gd & Cv).
  destruct (line_items p0 p1 ts Ne Gd [] []) as (items & E & It).
  { split; [constructor|]. split; [intros it []|intros t []]. }
  cbn [app length map] in *. exists items. split; [exact E|]. split; [exact It|]. intros G.
  destruct It as (Nd & H1 & H2). destruct (touch_points p0 p1 ts) as (Ex & HE).
  rewrite <- (map_map snd (fun I => G (snd I) - G (fst I))).
  apply (cover G (length (map snd items)) (map snd items) Ex 0 1); auto; [lra| | |].
  - intros I K. apply in_map_iff in K as (it & <- & K). destruct (H1 it K) as (t & _ & P1 & P2 & P3 & _). auto.
  - intros I J KI KJ Nij. apply in_map_iff in KI as (it & <- & KI). apply in_map_iff in KJ as (jt & <- & KJ).
    destruct (H1 it KI) as (t & Et & Pt). destruct (H1 jt KJ) as (t' & Et' & Pt').
    assert (Dt : tri_cross t <> 0) by (apply Gd; eapply nth_error_In; eauto). assert (Dt' : tri_cross t' <> 0) by (apply Gd; eapply nth_error_In; eauto).
    destruct (Nat.eq_dec (fst it) (fst jt)) as [Eq|Nq].
    + exfalso. apply Nij. rewrite Eq, Et' in Et. injection Et as <-.
      destruct Pt as (A1 & A2 & A3 & A4), Pt' as (B1 & B2 & B3 & B4).
      assert (Eqv : forall s, 0 <= s <= 1 -> (fst (snd it) <= s <= snd (snd it) <-> fst (snd jt) <= s <= snd (snd jt))).
      { intros s Hs. rewrite <- (A4 s Hs), <- (B4 s Hs). reflexivity. }
      destruct (snd it) as [x y], (snd jt) as [x' y']. cbn [fst snd] in *.
      assert (E1 : x' <= x <= y') by (apply Eqv; lra). assert (E2 : x <= x' <= y) by (apply Eqv; lra).
      assert (E3 : x' <= y <= y') by (apply Eqv; lra). assert (E4 : x <= y' <= y) by (apply Eqv; lra). f_equal; lra.
    + destruct (parts_apart p0 p1 t t' _ _ _ _ Ne Dt Dt' (Cf _ _ _ _ Nq Et Et') Pt Pt') as [K|[K|(K1 & K2)]]; auto.
      exfalso. apply Nij. destruct (snd it), (snd jt). cbn in *. congruence.
  - intros s Hs. destruct (Cv s Hs) as (t & It & Int). destruct (H2 t It) as [K|(it & K & Pt)]; [left; eapply HE; eauto|].
    right. exists (snd it). split; [apply in_map; auto|]. destruct Pt as (_ & _ & _ & P4). apply P4; auto.
Qed.
