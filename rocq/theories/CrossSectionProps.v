(** C88: cross-sections. *)
From Coq Require Import Reals List Arith ZArith Bool Lia Lra Floats.SpecFloat.
From Verif Require Import RealLib ArrayLib PolygonModel PolygonProofs SegmentProps InsideTriangleProps CrossSectionModel CrossSectionProofs CrossSectionLineProofs.
Import ListNotations.
Local Open Scope R_scope.

(** The pieces of a polyline. *)
Definition pieces (polyline : list point) : list (point * point) := combine polyline (tl polyline).

(** ** The segments *)

(** For one piece of the polyline crossing a conforming mesh, the function
    returns, without an exception, one segment for each part of the piece in
    a triangle: a segment joins the first and the last point of the piece in
    the triangle it names, in the direction of the piece, with its length and
    its unit normal to the right; no segment appears twice; and for every
    triangle the points of the piece in it are at most one point or exactly
    those of one of the segments (that of the first triangle, when the piece
    runs along an edge shared by two). *)
Theorem C88_segments :
  forall ts p0 p1, conforming_mesh ts -> crossed_by ts p0 p1 ->
  exists Ts, line_crossings p0 p1 ts = Some Ts /\ NoDup (map segment Ts) /\
  (forall T, In T Ts -> exists t lo hi,
     nth_error ts (triangle_id T) = Some t /\ 0 <= lo /\ lo < hi /\ hi <= 1 /\
     segment T = (on_way p0 p1 lo, on_way p0 p1 hi) /\
     (forall s, 0 <= s <= 1 -> (in_triangle t (on_way p0 p1 s) <-> lo <= s <= hi)) /\
     length_of T = distance (fst (segment T)) (snd (segment T)) /\
     px (normal T) * length_of T = py (snd (segment T)) - py (fst (segment T)) /\
     py (normal T) * length_of T = - (px (snd (segment T)) - px (fst (segment T))) /\
     px (normal T) * px (normal T) + py (normal T) * py (normal T) = 1) /\
  (forall t, In t ts -> (exists x, forall s, 0 <= s <= 1 -> in_triangle t (on_way p0 p1 s) -> s = x) \/
     exists T, In T Ts /\ forall s, 0 <= s <= 1 -> (in_triangle t (on_way p0 p1 s) <-> on_segment (on_way p0 p1 s) (fst (segment T)) (snd (segment T)))).
Proof.
  intros ts p0 p1 Cf Cb. destruct (line_total p0 p1 ts Cf Cb) as (items & E & (Nd & H1 & H2) & _).
  destruct Cb as (Ne & _ & _). pose proof (distance_pos p0 p1 Ne) as LP.
  exists (map (crossing_item p0 p1) items). split; [exact E|]. split; [|split].
  - assert (G : forall l : list item, NoDup (map snd l) -> NoDup (map segment (map (crossing_item p0 p1) l))).
    { induction l as [|it l IH]; intros N; [constructor|]. cbn [map] in *. inversion N as [|? ? K1 K2]; subst. constructor; [|auto].
      intros K. apply K1. rewrite map_map in K. apply in_map_iff in K as (it' & Es & I). apply in_map_iff. exists it'. split; [|auto].
      cbn [crossing_item crossing_of segment] in Es. injection Es as E1 E2.
      assert (fst (snd it') = fst (snd it)) by (apply (on_way_inj p0 p1); [auto|apply point_eq; [exact E1|exact E2]]).
      destruct it as [i [x y]], it' as [i' [x' y']]. cbn [fst snd] in *. f_equal; [auto|].
      apply (on_way_inj p0 p1); [auto|]. unfold on_way. f_equal; auto. }
    apply G, Nd.
  - intros T I. apply in_map_iff in I as (it & <- & I). destruct (H1 it I) as (t & Et & P1 & P2 & P3 & P4).
    exists t, (fst (snd it)), (snd (snd it)). cbn [crossing_item crossing_of triangle_id segment length_of normal fst snd].
    split; [auto|]. split; [auto|]. split; [auto|]. split; [auto|]. split; [auto|]. split; [auto|]. split; [|split; [|split]].
    + pose proof (distance_on_way p0 p1 (fst (snd it)) (snd (snd it))) as K. rewrite Rabs_right in K by lra. symmetry. exact K.
    + unfold on_way. cbn [px py fst snd]. field. lra.
    + unfold on_way. cbn [px py fst snd]. field. lra.
    + assert (LL : distance p0 p1 * distance p0 p1 = (px p1 - px p0) * (px p1 - px p0) + (py p1 - py p0) * (py p1 - py p0)).
      { unfold distance, dist. apply sqrt_sqrt. pose proof (Rle_0_sqr (px p1 - px p0)). pose proof (Rle_0_sqr (py p1 - py p0)). unfold Rsqr in *. lra. }
      set (L := distance p0 p1) in *. apply (Rmult_eq_reg_r (L * L)); [|apply Rmult_integral_contrapositive; lra].
      rewrite LL at 2. unfold px, py. cbn [fst snd]. field. lra.
  - intros t It. destruct (H2 t It) as [K|(it & I & P1 & P2 & P3 & P4)]; [left; exact K|right].
    exists (crossing_item p0 p1 it). split; [apply in_map; auto|]. intros s Hs. cbn [crossing_item crossing_of segment fst snd].
    rewrite on_segment_way by (auto; lra). rewrite (P4 s Hs). unfold between. lra.
Qed.
Print Assumptions C88_segments.

(** ** Sums over the segments *)
Lemma fold_sum {A} (f : A -> R) l : forall a, fold_left (fun s T => s + f T) l a = a + Rsum (map f l).
Proof. induction l as [|x l IH]; intros a; cbn [fold_left map Rsum]; [ring|rewrite IH; ring]. Qed.

Definition segment_flow (momentum : point -> R * R) (T : crossing) : R :=
  (fst (momentum (midpoint T)) * px (normal T) + snd (momentum (midpoint T)) * py (normal T)) * length_of T.

Lemma flow_sum momentum Ts : flow momentum Ts = Rsum (map (segment_flow momentum) Ts).
Proof.
  unfold flow. rewrite <- (Rplus_0_l (Rsum _)), <- fold_sum. generalize 0. induction Ts as [|T Ts IH]; intros a; [reflexivity|].
  cbn [fold_left]. rewrite IH. f_equal. unfold segment_flow. destruct (momentum (midpoint T)) as [uh vh]. reflexivity.
Qed.

(** The normal flux at the point of parameter [s]. *)
Definition through (momentum : point -> R * R) (p0 p1 : point) (s : R) : R :=
  fst (momentum (on_way p0 p1 s)) * (py p1 - py p0) - snd (momentum (on_way p0 p1 s)) * (px p1 - px p0).

Lemma item_flow momentum p0 p1 it : p0 <> p1 ->
  segment_flow momentum (crossing_item p0 p1 it) = through momentum p0 p1 ((fst (snd it) + snd (snd it)) / 2) * (snd (snd it) - fst (snd it)).
Proof.
  intros Ne. pose proof (distance_pos p0 p1 Ne) as LP.
  assert (M : midpoint (crossing_item p0 p1 it) = on_way p0 p1 ((fst (snd it) + snd (snd it)) / 2)).
  { unfold midpoint. cbn [crossing_item crossing_of segment]. unfold on_way. cbn [px py fst snd]. f_equal; field. }
  unfold segment_flow, through. rewrite M. set (m := momentum _). cbn [crossing_item crossing_of normal length_of px py fst snd]. unfold px, py. field. lra.
Qed.

(** The lengths add up to the length of the piece. *)
Theorem C88_length :
  forall ts p0 p1, conforming_mesh ts -> crossed_by ts p0 p1 ->
  exists Ts, line_crossings p0 p1 ts = Some Ts /\ Rsum (map length_of Ts) = distance p0 p1.
Proof.
  intros ts p0 p1 Cf Cb. destruct (line_total p0 p1 ts Cf Cb) as (items & E & _ & Tot).
  exists (map (crossing_item p0 p1) items). split; [exact E|]. specialize (Tot (fun s => s * distance p0 p1)).
  rewrite map_map. transitivity (1 * distance p0 p1 - 0 * distance p0 p1); [|ring]. rewrite <- Tot.
  clear. induction items as [|it items IH]; [reflexivity|]. cbn [map Rsum]. rewrite IH. cbn [crossing_item crossing_of length_of]. ring.
Qed.
Print Assumptions C88_length.

Lemma flow_total ts p0 p1 momentum (Q : R -> R) : conforming_mesh ts -> crossed_by ts p0 p1 ->
  (forall t lo hi, In t ts -> part p0 p1 t lo hi -> through momentum p0 p1 ((lo + hi) / 2) * (hi - lo) = Q hi - Q lo) ->
  exists Ts, line_crossings p0 p1 ts = Some Ts /\ flow momentum Ts = Q 1 - Q 0.
Proof.
  intros Cf Cb H. destruct (line_total p0 p1 ts Cf Cb) as (items & E & (_ & H1 & _) & Tot). destruct Cb as (Ne & _ & _).
  exists (map (crossing_item p0 p1) items). split; [exact E|]. rewrite flow_sum, map_map, <- (Tot Q). f_equal. apply map_ext_in.
  intros it I. rewrite item_flow by auto. destruct (H1 it I) as (t & Et & Pt). eapply H; [eapply nth_error_In; eauto|exact Pt].
Qed.

(** The flow of a momentum that is linear in each triangle is the exact
    integral of its normal component along the piece: [Q] is any
    antiderivative of the normal flux along the piece. *)
Theorem C88_flow_exact :
  forall ts p0 p1 momentum (Q : R -> R), conforming_mesh ts -> crossed_by ts p0 p1 ->
  (forall t, In t ts -> exists u0 u1 u2 v0 v1 v2, forall p, in_triangle t p ->
     momentum p = (u0 + u1 * px p + u2 * py p, v0 + v1 * px p + v2 * py p)) ->
  (forall s, 0 <= s <= 1 -> derivable_pt_lim Q s (through momentum p0 p1 s)) ->
  exists Ts, line_crossings p0 p1 ts = Some Ts /\ flow momentum Ts = Q 1 - Q 0.
Proof.
  intros ts p0 p1 momentum Q Cf Cb Lin Der. apply flow_total; auto.
  intros t lo hi It (P1 & P2 & P3 & P4). destruct (Lin t It) as (u0 & u1 & u2 & v0 & v1 & v2 & Mo).
  set (dx := px p1 - px p0). set (dy := py p1 - py p0).
  set (al := (u0 + u1 * px p0 + u2 * py p0) * dy - (v0 + v1 * px p0 + v2 * py p0) * dx).
  set (be := (u1 * dx + u2 * dy) * dy - (v1 * dx + v2 * dy) * dx).
  assert (Th : forall s, lo <= s <= hi -> through momentum p0 p1 s = al + be * s).
  { intros s Hs. unfold through. rewrite Mo by (apply P4; lra). unfold on_way, al, be, dx, dy. cbn [px py fst snd]. ring. }
  set (R0 := fun s => Q s - (al * s + be / 2 * (s * s))).
  destruct (MVT_cor2 R0 (fun s => through momentum p0 p1 s - (al + be * s)) lo hi P2) as (c & E & Hc).
  { intros s Hs. unfold R0. apply derivable_pt_lim_minus; [apply Der; lra|].
    replace (al + be * s) with (al * 1 + be / 2 * (1 * s + s * 1)) by field.
    apply derivable_pt_lim_plus.
    - apply (derivable_pt_lim_scal (fun s => s)). apply derivable_pt_lim_id.
    - apply (derivable_pt_lim_scal (fun s => s * s)). apply (derivable_pt_lim_mult (fun s => s) (fun s => s)); apply derivable_pt_lim_id. }
  rewrite Th in E by lra. rewrite Th by lra. unfold R0 in E.
  replace (al + be * c - (al + be * c)) with 0 in E by ring. rewrite Rmult_0_l in E.
  replace ((al + be * ((lo + hi) / 2)) * (hi - lo)) with (al * hi + be / 2 * (hi * hi) - (al * lo + be / 2 * (lo * lo))) by field. lra.
Qed.
Print Assumptions C88_flow_exact.

(** ** Polylines *)
Lemma polyline_spec ts (P : crossing -> Prop) (f : crossing -> R) (g : point -> point -> R) : forall polyline,
  (forall p0 p1, In (p0, p1) (pieces polyline) -> exists Ts, line_crossings p0 p1 ts = Some Ts /\ Ts <> [] /\ (forall T, In T Ts -> P T) /\ Rsum (map f Ts) = g p0 p1) ->
  exists Ts, polyline_crossings_loop polyline ts = Some Ts /\ ((2 <= length polyline)%nat -> Ts <> []) /\ (forall T, In T Ts -> P T) /\
  Rsum (map f Ts) = Rsum (map (fun e => g (fst e) (snd e)) (pieces polyline)).
Proof.
  induction polyline as [|p0 polyline IH]; intros H.
  - exists []. repeat split; auto; [cbn; lia|intros T []].
  - destruct polyline as [|p1 polyline].
    + exists []. repeat split; auto; [cbn; lia|intros T []].
    + destruct (H p0 p1) as (Ts & E & N & HP & S1); [left; reflexivity|].
      destruct IH as (Ts' & E' & _ & HP' & S2); [intros q0 q1 I; apply H; right; exact I|].
      cbn [polyline_crossings_loop] in *. rewrite E, E'. exists (Ts ++ Ts'). split; [reflexivity|].
      split; [intros _ K; apply app_eq_nil in K; tauto|]. split; [intros T I; apply in_app_iff in I as [I|I]; auto|].
      change (pieces (p0 :: p1 :: polyline)) with ((p0, p1) :: pieces (p1 :: polyline)). cbn [map Rsum fst snd].
      rewrite map_app, Rsum_app_C, S1, S2. reflexivity.
Qed.

Lemma piece_nonempty ts p0 p1 Ts : conforming_mesh ts -> crossed_by ts p0 p1 -> line_crossings p0 p1 ts = Some Ts ->
  Ts <> [] /\ forall T, In T Ts -> 0 < length_of T.
Proof.
  intros Cf Cb E. destruct (C88_length ts p0 p1 Cf Cb) as (Ts' & E' & S1). rewrite E in E'. injection E' as <-.
  pose proof (distance_pos p0 p1 (proj1 Cb)) as LP. split; [intros ->; cbn in S1; lra|].
  destruct (C88_segments ts p0 p1 Cf Cb) as (Ts' & E' & _ & H & _). rewrite E in E'. injection E' as <-.
  intros T I. destruct (H T I) as (t & lo & hi & _ & P1 & P2 & P3 & Sg & _ & Ln & _). rewrite Ln, Sg. cbn [fst snd].
  rewrite distance_on_way, Rabs_right by lra. apply Rmult_lt_0_compat; lra.
Qed.

(** A uniform momentum: the flow depends on the two ends of the polyline
    only. *)
Theorem C88_uniform_flow :
  forall ts polyline uh vh first last mid, conforming_mesh ts -> polyline = first :: mid ++ [last] ->
  (forall p0 p1, In (p0, p1) (pieces polyline) -> crossed_by ts p0 p1) ->
  flow_through_cross_section (fun _ => (uh, vh)) polyline ts = Some (uh * (py last - py first) - vh * (px last - px first)).
Proof.
  intros ts polyline uh vh first last mid Cf Ep Cb.
  destruct (polyline_spec ts (fun _ => True) (segment_flow (fun _ => (uh, vh))) (fun p0 p1 => uh * (py p1 - py p0) - vh * (px p1 - px p0)) polyline) as (Ts & E & N & _ & S1).
  { intros p0 p1 I. specialize (Cb p0 p1 I).
    destruct (flow_total ts p0 p1 (fun _ => (uh, vh)) (fun s => s * (uh * (py p1 - py p0) - vh * (px p1 - px p0))) Cf Cb) as (Ts & E & F).
    { intros t lo hi _ _. unfold through. cbn [fst snd]. ring. }
    exists Ts. split; [exact E|]. destruct (piece_nonempty ts p0 p1 Ts Cf Cb E) as (N & _). split; [exact N|]. split; [auto|].
    rewrite <- flow_sum, F. ring. }
  assert (Ln : (2 <= length polyline)%nat) by (rewrite Ep; cbn [length]; rewrite app_length; cbn; lia).
  unfold flow_through_cross_section, polyline_crossings. assert ((length polyline <? 2)%nat = false) as -> by (apply Nat.ltb_ge; exact Ln).
  rewrite E. specialize (N Ln). destruct Ts as [|T Ts]; [contradiction|]. f_equal. rewrite flow_sum, S1, Ep. clear.
  revert first. induction mid as [|q mid IH]; intros p; [cbn [app pieces tl combine map Rsum fst snd]; ring|].
  cbn [app]. change (pieces (p :: q :: mid ++ [last])) with ((p, q) :: pieces (q :: mid ++ [last])). cbn [map Rsum fst snd]. rewrite IH. ring.
Qed.
Print Assumptions C88_uniform_flow.

(** Around a closed polyline it vanishes. *)
Corollary C88_closed :
  forall ts first mid uh vh, conforming_mesh ts ->
  (forall p0 p1, In (p0, p1) (pieces (first :: mid ++ [first])) -> crossed_by ts p0 p1) ->
  flow_through_cross_section (fun _ => (uh, vh)) (first :: mid ++ [first]) ts = Some 0.
Proof. intros ts first mid uh vh Cf Cb. rewrite (C88_uniform_flow ts _ uh vh first first mid Cf eq_refl Cb). f_equal. ring. Qed.
Print Assumptions C88_closed.

(** ** Energy *)

(** The energy is a weighted average: it lies between any bounds on the
    energies of the segments. *)
Theorem C88_energy :
  forall ts polyline g epsilon h0 total water_at emin emax, conforming_mesh ts -> (2 <= length polyline)%nat ->
  (forall p0 p1, In (p0, p1) (pieces polyline) -> crossed_by ts p0 p1) ->
  (forall p, emin <= segment_energy g epsilon h0 total (water_at p) <= emax) ->
  exists Ts, polyline_crossings polyline ts = Some Ts /\ emin <= energy g epsilon h0 total water_at Ts <= emax.
Proof.
  intros ts polyline g epsilon h0 total water_at emin emax Cf Ln Cb He.
  destruct (polyline_spec ts (fun T => 0 < length_of T) length_of distance polyline) as (Ts & E & N & HP & _).
  { intros p0 p1 I. specialize (Cb p0 p1 I). destruct (C88_length ts p0 p1 Cf Cb) as (Ts & E & S1). exists Ts. split; [exact E|].
    destruct (piece_nonempty ts p0 p1 Ts Cf Cb E) as (N & HP). auto. }
  specialize (N Ln). exists Ts. unfold polyline_crossings. assert ((length polyline <? 2)%nat = false) as -> by (apply Nat.ltb_ge; exact Ln).
  rewrite E. destruct Ts as [|T0 Ts0]; [contradiction|]. split; [reflexivity|]. set (Ts := T0 :: Ts0) in *.
  unfold energy. rewrite !fold_sum, !Rplus_0_l. set (L := Rsum (map (fun T => length_of T) Ts)).
  assert (LP : 0 < L).
  { unfold L, Ts. cbn [map Rsum]. assert (0 < length_of T0) by (apply HP; left; auto).
    assert (K : 0 <= Rsum (map (fun T => length_of T) Ts0)).
    { assert (G : forall l, (forall T, In T l -> 0 < length_of T) -> 0 <= Rsum (map (fun T => length_of T) l)).
      { induction l as [|T l IH]; intros H'; cbn [map Rsum]; [lra|]. assert (0 < length_of T) by (apply H'; left; auto).
        assert (0 <= Rsum (map (fun T => length_of T) l)) by (apply IH; intros T' I'; apply H'; right; auto). lra. }
      apply G. intros T I. apply HP. right. auto. } lra. }
  assert (G : forall l, (forall T, In T l -> 0 < length_of T) ->
     emin * (Rsum (map (fun T => length_of T) l) / L) <=
     Rsum (map (fun T => segment_energy g epsilon h0 total (water_at (midpoint T)) * (length_of T / L)) l) <=
     emax * (Rsum (map (fun T => length_of T) l) / L)).
  { induction l as [|T l IH]; intros H'; cbn [map Rsum]; [unfold Rdiv; lra|].
    assert (W : 0 <= length_of T / L) by (apply Rmult_le_pos; [left; apply H'; left; auto|left; apply Rinv_0_lt_compat; auto]).
    destruct (He (midpoint T)) as (E1 & E2). destruct IH as (I1 & I2); [intros T' I'; apply H'; right; auto|].
    set (w := length_of T / L) in *. set (en := segment_energy _ _ _ _ _) in *.
    replace ((length_of T + Rsum (map (fun T => length_of T) l)) / L) with (w + Rsum (map (fun T => length_of T) l) / L) by (unfold w; field; lra).
    assert (emin * w <= en * w) by (apply Rmult_le_compat_r; auto). assert (en * w <= emax * w) by (apply Rmult_le_compat_r; auto). lra. }
  specialize (G Ts HP). fold L in G. replace (L / L) with 1 in G by (field; lra). lra.
Qed.
Print Assumptions C88_energy.

(** ** Where it fails *)

(** A piece with both ends strictly inside one triangle gives no segment for
    that triangle. *)
Theorem C88_inside_refuted :
  forall p0 p1 i t, p0 <> p1 -> tri_cross t <> 0 -> (forall e, In e (tri_edges t) -> clear_edge p0 p1 e) ->
  convex_combination true p0 t -> convex_combination true p1 t ->
  triangle_crossing p0 p1 i t = Some None /\ forall s, 0 <= s <= 1 -> in_triangle t (on_way p0 p1 s).
Proof.
  intros p0 p1 i t Ne D Cl S0 S1.
  assert (Sub : forall q, convex_combination true q t -> in_triangle t q).
  { destruct t as [[a b] c]. intros q (l & m & n & (Q1 & Q2 & Q3) & R0). exists l, m, n. split; [lra|exact R0]. }
  destruct (recorded p0 p1 t Ne D Cl) as (P & E & Nd & Ns & H). destruct H as [(_ & No)|(lo & hi & H1 & H2 & H3 & H4 & H5 & _ & _)].
  - exfalso. apply (No 0); [lra|]. rewrite on_way_0. auto.
  - assert (L0 : lo <= 0 <= hi) by (apply H4; [lra|rewrite on_way_0; auto]). assert (L1 : lo <= 1 <= hi) by (apply H4; [lra|rewrite on_way_1; auto]).
    assert (lo = 0) by lra. assert (hi = 1) by lra. subst lo hi. split; [|intros s Hs; apply H4; auto].
    assert (P = []) as ->.
    { destruct P as [|x P]; [reflexivity|]. exfalso. apply (Ns x); [left; auto|]. destruct (H5 x) as [-> | ->]; [left; auto|rewrite on_way_0; auto|rewrite on_way_1; auto]. }
    unfold triangle_crossing. rewrite E. destruct t as [[a b] c]. reflexivity.
Qed.
Print Assumptions C88_inside_refuted.

Definition tri4 : triangle := ((0, 0), (4, 0), (0, 4)).

Lemma tri4_cross : tri_cross tri4 <> 0.
Proof. unfold tri_cross, tri4. cbn. lra. Qed.
Lemma tri4_mesh : conforming_mesh [tri4].
Proof. intros [|i] [|j] t t' N H H'; try lia; [destruct j; discriminate H'|destruct i; discriminate H|destruct i; discriminate H]. Qed.
Lemma small_atol : 0 < atol_default < 1.
Proof. unfold atol_default. split; [apply Rinv_0_lt_compat, pow_lt; lra|]. lra. Qed.
Lemma tri4_clear x0 x1 : 1 <= x1 - x0 -> forall e, In e (tri_edges tri4) -> clear_edge (x0, 1) (x1, 1) e.
Proof.
  intros H e. pose proof small_atol as SA. cbn [tri_edges tri4 In]. intros [<-|[<-|[<-|[]]]]; unfold clear_edge, cross_dirs; cbn [px py fst snd].
  - right. left. split; [ring|]. left. rewrite Rabs_right; lra.
  - left. rewrite Rabs_right; lra.
  - left. rewrite Rabs_left; lra.
Qed.
Lemma tri4_strict x : 0 < x < 3 -> convex_combination true (x, 1) tri4.
Proof. intros H. unfold convex_combination, tri4. exists ((3 - x) / 4), (x / 4), (1 / 4). cbn [px py fst snd]. lra. Qed.
Lemma tri4_crossed x0 x1 : 0 <= x0 -> x1 <= 3 -> x0 = 0 \/ x1 = 3 -> 1 <= x1 - x0 -> crossed_by [tri4] (x0, 1) (x1, 1).
Proof.
  intros H0 H1 End Ln. split; [intros E; injection E; lra|]. split.
  - intros t [<-|[]]. split; [apply tri4_cross|]. split; [apply tri4_clear; auto|].
    intros ((l & m & n & P & S1 & X & Y) & (l' & m' & n' & P' & S1' & X' & Y')). cbn [px py fst snd] in *. destruct End; lra.
  - intros s Hs. exists tri4. split; [left; auto|]. unfold in_triangle, convex_combination, tri4, on_way. cbn [px py fst snd].
    assert (K1 : 0 <= s * (x1 - x0)) by (apply Rmult_le_pos; lra).
    assert (K2 : s * (x1 - x0) <= 1 * (x1 - x0)) by (apply Rmult_le_compat_r; lra).
    exists ((3 - (x0 + s * (x1 - x0))) / 4), ((x0 + s * (x1 - x0)) / 4), (1 / 4). lra.
Qed.

(** So adding points to a straight polyline changes the flow, and a polyline
    inside one triangle raises an exception. *)
Theorem C88_refinement_refuted :
  let momentum := fun _ : point => (0, 1) in
  flow_through_cross_section momentum [(0, 1); (3, 1)] [tri4] = Some (-3) /\
  flow_through_cross_section momentum [(0, 1); (1, 1); (2, 1); (3, 1)] [tri4] = Some (-2) /\
  flow_through_cross_section momentum [(1, 1); (2, 1)] [tri4] = None.
Proof.
  cbv zeta.
  assert (Inner : line_crossings (1, 1) (2, 1) [tri4] = Some []).
  { unfold line_crossings. cbn [line_crossings_from]. destruct (C88_inside_refuted (1, 1) (2, 1) 0 tri4) as (E & _); [intros E; injection E; lra|apply tri4_cross|apply tri4_clear; lra|apply tri4_strict; lra|apply tri4_strict; lra|].
    rewrite E. reflexivity. }
  assert (Outer : forall x0 x1, 0 <= x0 -> x1 <= 3 -> x0 = 0 \/ x1 = 3 -> 1 <= x1 - x0 ->
     exists T Ts, line_crossings (x0, 1) (x1, 1) [tri4] = Some (T :: Ts) /\ flow (fun _ => (0, 1)) (T :: Ts) = - (x1 - x0)).
  { intros x0 x1 H0 H1 En Ln. pose proof (tri4_crossed x0 x1 H0 H1 En Ln) as Cb.
    destruct (flow_total [tri4] (x0, 1) (x1, 1) (fun _ => (0, 1)) (fun s => s * - (x1 - x0)) tri4_mesh Cb) as (Ts & E & F).
    { intros t lo hi _ _. unfold through. cbn [px py fst snd]. ring. }
    destruct (piece_nonempty _ _ _ _ tri4_mesh Cb E) as (N & _). destruct Ts as [|T Ts]; [contradiction|]. exists T, Ts. split; [exact E|]. rewrite F. ring. }
  split; [|split].
  - destruct (Outer 0 3) as (T & Ts & E & F); try lra. unfold flow_through_cross_section, polyline_crossings. cbn [length Nat.ltb Nat.leb polyline_crossings_loop].
    rewrite E. cbn [app]. rewrite app_nil_r. rewrite F. f_equal. ring.
  - destruct (Outer 0 1) as (T & Ts & E & F); try lra. destruct (Outer 2 3) as (T' & Ts' & E' & F'); try lra.
    unfold flow_through_cross_section, polyline_crossings. cbn [length Nat.ltb Nat.leb polyline_crossings_loop].
    rewrite E, Inner, E'. cbn [app]. rewrite app_nil_r. rewrite flow_sum in *. f_equal.
    change (T :: Ts ++ T' :: Ts') with ((T :: Ts) ++ (T' :: Ts')). rewrite map_app, Rsum_app_C, F, F'. ring.
  - unfold flow_through_cross_section, polyline_crossings. cbn [length Nat.ltb Nat.leb polyline_crossings_loop]. rewrite Inner. reflexivity.
Qed.
Print Assumptions C88_refinement_refuted.

(** [crossing_point] is [intersection] for lines that are not parallel. *)
Definition real_arith : arith :=
  {| num := R; zero := 0; one := 1; add := Rplus; sub := Rminus; mul := Rmult; div := Rdiv; absv := Rabs; leb := Rleb |}.

Lemma crossing_point_real p0 p1 p2 p3 rtol atol p :
  crossing_point real_arith rtol atol p0 p1 p2 p3 = Some (Some p) -> intersection p0 p1 p2 p3 rtol atol = Some (1%nat, PointValue p).
Proof.
  destruct p0 as [x0 y0], p1 as [x1 y1], p2 as [x2 y2], p3 as [x3 y3]. unfold crossing_point, intersection, close0, allclose.
  cbn [num zero one add sub mul div absv leb real_arith].
  destruct (Rleb _ _); [discriminate|]. destruct (negb _); [discriminate|]. destruct (negb _); [discriminate|].
  destruct (_ && _); [intros E; injection E as <-; reflexivity|discriminate].
Qed.

(** binary64 *)
Definition float_arith : arith :=
  {| num := spec_float; zero := S754_zero false; one := S754_finite false 4503599627370496 (-52);
     add := SFadd 53 1024; sub := SFsub 53 1024; mul := SFmul 53 1024; div := SFdiv 53 1024; absv := SFabs; leb := SFleb |}.
Definition fl (m : positive) (e : Z) : spec_float := S754_finite false m e.
Definition fl01 := fl 7205759403792794 (-56).  (* 0.1 *)
Definition fl02 := fl 7205759403792794 (-55).  (* 0.2 *)
Definition fl03 := fl 5404319552844596 (-54).  (* 3 * 0.1 = 0.30000000000000004 *)
Definition fl_rtol := fl 5902958103587057 (-69).  (* 1e-5 *)
Definition fl_atol := fl 6044629098073146 (-79).  (* 1e-8 *)
Definition same_key (p q : spec_float * spec_float) : bool := SFeqb (fst p) (fst q) && SFeqb (snd p) (snd q).

(** In binary64 the line from (0.3, 0) to (0.1, 0.2), through the vertex
    (0.2, 0.1) of a triangle with corners (0.2, 0.1), (0.2, 0.2) and
    (0.1, 0.1), meets its edges in three different points: the assertion
    "There can be only two or no intersections" fails. *)
Theorem C88_vertex_refuted :
  let p0 := (fl03, S754_zero false) in let p1 := (fl01, fl02) in
  let a := (fl02, fl01) in let b := (fl02, fl02) in let c := (fl01, fl01) in
  let meet := crossing_point float_arith fl_rtol fl_atol p0 p1 in
  exists p q r, meet a b = Some (Some p) /\ meet b c = Some (Some q) /\ meet c a = Some (Some r) /\
  same_key p q = false /\ same_key p r = false /\ same_key q r = false.
Proof.
  cbv zeta. set (p0 := (fl03, S754_zero false)). set (p1 := (fl01, fl02)).
  set (x := crossing_point float_arith fl_rtol fl_atol p0 p1 (fl02, fl01) (fl02, fl02)).
  set (y := crossing_point float_arith fl_rtol fl_atol p0 p1 (fl02, fl02) (fl01, fl01)).
  set (z := crossing_point float_arith fl_rtol fl_atol p0 p1 (fl01, fl01) (fl02, fl01)).
  assert (H : match x, y, z with
              | Some (Some p), Some (Some q), Some (Some r) => negb (same_key p q) && negb (same_key p r) && negb (same_key q r)
              | _, _, _ => false end = true) by (unfold x, y, z; vm_compute; reflexivity).
  clearbody x y z. destruct x as [[p|]|], y as [[q|]|], z as [[r|]|]; try discriminate H.
  exists p, q, r. apply andb_true_iff in H as (H & H3). apply andb_true_iff in H as (H1 & H2). apply negb_true_iff in H1, H2, H3. auto 10.
Qed.
Print Assumptions C88_vertex_refuted.

(** Non-vacuity: a mesh of two triangles crossed by a line along their common
    edge; the edge is used once. *)
Definition tri4' : triangle := ((4, 0), (4, 4), (0, 4)).
Lemma tri4'_cross : tri_cross tri4' <> 0.
Proof. unfold tri_cross, tri4'. cbn. lra. Qed.

Example C88_example :
  conforming_mesh [tri4; tri4'] /\ crossed_by [tri4; tri4'] (3, 1) (1, 3) /\
  (exists Ts, line_crossings (3, 1) (1, 3) [tri4; tri4'] = Some Ts /\ Rsum (map length_of Ts) = distance (3, 1) (1, 3)) /\
  flow_through_cross_section (fun _ => (1, 0)) [(3, 1); (1, 3)] [tri4; tri4'] = Some 2.
Proof.
  assert (CM : conforming tri4 tri4').
  { right. exists (4, 0), (0, 4). split; [intros E; injection E; lra|]. cbn [vertices tri4 tri4' In].
    split; [auto|]. split; [auto|]. split; [auto|]. split; [auto|].
    intros [x y] (l & m & n & (P1 & P2 & P3) & S1 & X & Y) (l' & m' & n' & (P1' & P2' & P3') & S1' & X' & Y'). cbn [px py fst snd] in *.
    assert (x + y = 4) by lra. exists (y / 4). cbn [px py fst snd]. lra. }
  assert (CM' : conforming tri4' tri4).
  { destruct CM as [(v & CM)|(u & v & N & U1 & V1 & U2 & V2 & CM)]; [left; exists v; auto|right; exists u, v; repeat (split; [auto|]); auto]. }
  assert (A : conforming_mesh [tri4; tri4']).
  { intros [|[|i]] [|[|j]] t t' N H H'; cbn in H, H'; try lia; try (destruct i; discriminate H); try (destruct j; discriminate H'); injection H as <-; injection H' as <-; auto. }
  assert (Tl : 0 < tiny_len < 1) by (unfold tiny_len; split; [apply Rinv_0_lt_compat, pow_lt; lra|lra]).
  pose proof small_atol as SA.
  assert (Ds : forall p q, 1 <= Rabs (px q - px p) -> apart p q).
  { intros p q H. right. apply Rlt_le_trans with 1; [lra|]. unfold distance, dist. rewrite <- sqrt_1. apply sqrt_le_1_alt.
    pose proof (Rle_0_sqr (py q - py p)) as K. unfold Rsqr in K. assert (1 * 1 <= Rabs (px q - px p) * Rabs (px q - px p)) by (apply Rmult_le_compat; lra).
    rewrite <- Rabs_mult, Rabs_right in H0; [lra|]. apply Rle_ge, Rle_0_sqr. }
  assert (B : crossed_by [tri4; tri4'] (3, 1) (1, 3)).
  { split; [intros E; injection E; lra|]. split.
    - intros t [<-|[<-|[]]]; split; try apply tri4_cross; try apply tri4'_cross; split.
      + cbn [tri_edges tri4 In]. intros e [<-|[<-|[<-|[]]]]; unfold clear_edge, cross_dirs, opp; cbn [px py fst snd].
        * left. rewrite Rabs_left; lra.
        * right. right. split; [ring|]. split; [ring|]. repeat split; apply Ds; cbn [px fst]; first [rewrite Rabs_right; lra|rewrite Rabs_left; lra].
        * left. rewrite Rabs_right; lra.
      + intros ((l & m & n & P & S1 & X & Y) & _). cbn [px py fst snd] in *. lra.
      + cbn [tri_edges tri4' In]. intros e [<-|[<-|[<-|[]]]]; unfold clear_edge, cross_dirs, opp; cbn [px py fst snd].
        * left. rewrite Rabs_left; lra.
        * left. rewrite Rabs_right; lra.
        * right. right. split; [ring|]. split; [ring|]. repeat split; apply Ds; cbn [px fst]; first [rewrite Rabs_right; lra|rewrite Rabs_left; lra].
      + intros ((l & m & n & P & S1 & X & Y) & _). cbn [px py fst snd] in *. lra.
    - intros s Hs. exists tri4. split; [left; auto|]. unfold in_triangle, convex_combination, tri4, on_way. cbn [px py fst snd].
      exists 0, ((3 - 2 * s) / 4), ((1 + 2 * s) / 4). lra. }
  split; [exact A|]. split; [exact B|]. split; [apply C88_length; auto|].
  pose proof (C88_uniform_flow [tri4; tri4'] [(3, 1); (1, 3)] 1 0 (3, 1) (1, 3) [] A eq_refl) as U. rewrite U.
  - f_equal. cbn [px py fst snd]. ring.
  - intros p0 p1 [E|[]]. injection E as <- <-. exact B.
Qed.
