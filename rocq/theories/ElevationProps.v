(** C87: the operators that change the bed. *)
From Coq Require Import Reals List Arith Bool Permutation Sorting.Sorted Lia Lra.
From Verif Require Import RealLib ArrayLib InvertedModel InvertedProofs InvertedProps ElevationModel ElevationProofs.
Import ListNotations.
Local Open Scope R_scope.

(** The update methods of the four erosion operators. *)
Inductive eroding : (bool -> list nat -> bed -> option bed) -> Prop :=
| Eroding_plain F threshold base dt : eroding (erosion_update F threshold base dt)
| Eroding_shear F slope threshold base shear_factor dt : eroding (shear_update F slope threshold base shear_factor dt)
| Eroding_slice elevation : eroding (slice_update elevation)
| Eroding_fill elevation : eroding (fill_update elevation).

(** What any update does: with discontinuous elevation it sets centroids of
    the region and keeps the depth, otherwise it sets vertices of the region. *)
Lemma eroding_shape update disc ids s s' : eroding update -> update disc ids s = Some s' ->
  s' = s \/ (if disc then exists values, s' = set_centroids s ids values else exists rows, s' = set_vertices s ids rows).
Proof.
  intros Er. destruct Er.
  - unfold erosion_update. destruct (negb (broadcasts (length ids))); [discriminate|].
    destruct disc; intros E; injection E as <-; right; eexists; reflexivity.
  - unfold shear_update. destruct disc; intros E; injection E as <-; right; eexists; reflexivity.
  - unfold slice_update. destruct elevation as [v|]; [|intros E; injection E as <-; auto].
    destruct disc; intros E; injection E as <-; right; eexists; reflexivity.
  - unfold fill_update. destruct elevation as [v|]; [|intros E; injection E as <-; auto].
    destruct ids as [|i rest]; [intros E; injection E as <-; auto|].
    destruct disc; intros E; injection E as <-; right; eexists; reflexivity.
Qed.

(** Writing back the old rows changes nothing. *)
Lemma put_self {A} (a : nat -> A) : forall ids i, put a ids (map a ids) i = a i.
Proof. intros ids i. rewrite put_map. destruct (in_dec Nat.eq_dec i ids); reflexivity. Qed.

Section Mesh.
Variables (n M : nat) (T : flat) (p : list nat) (I : inverted).
Hypothesis AS : is_argsort T p.
Hypothesis B : build_inverted n T p = Some I.
Hypothesis L : length T = (3 * M)%nat.

(** The clean-up after an update that changed nothing. *)
Lemma unchanged_region ids nodes vols s : region M T I ids nodes vols ->
  let s' := clean_region I nodes vols s in
  (continuous M T (elev_v s) -> continuous M T (elev_v s')) /\
  (consistent M s -> consistent M s') /\
  (forall t, depth s' t = depth s t) /\
  (forall t, (t < M)%nat -> ~ touches T nodes t -> (forall k, (k < 3)%nat -> elev_v s' t k = elev_v s t k) /\
     (forall k, elev_e s' t k = elev_e s t k) /\ elev_c s' t = elev_c s t /\ stage_c s' t = stage_c s t).
Proof.
  intros R s'. destruct (changed_region n M T p I AS B L ids nodes vols s [] R) as (H1 & H2 & H3 & H4).
  assert (E : set_vertices s ids [] = s) by (unfold set_vertices; destruct s, ids; reflexivity).
  rewrite E in H1, H2, H3, H4. auto.
Qed.
End Mesh.

(** ** Water is kept *)

(** Every operator keeps the depth of water at every centroid, whatever the
    mesh, the region, the mode, the values and the flow; so the volume over
    any triangles is kept too. *)
Theorem C87_depth_kept :
  (forall I disc ids nodes vols update s s' t, eroding update ->
     erosion_call I disc ids nodes vols update s = Some s' -> depth s' t = depth s t) /\
  (forall T I disc ca M ids nodes vols cv vv s s' t,
     set_elevation T I disc ca M ids nodes vols cv vv s = Some s' -> depth s' t = depth s t) /\
  (forall F C nb base repose dt ids s s' t, dune F C nb base repose dt ids s = Some s' -> depth s' t = depth s t).
Proof.
  split; [|split].
  - intros I disc ids nodes vols update s s' t Er. unfold erosion_call. destruct ids as [ids|].
    + destruct (update disc ids s) as [s1|] eqn:U; [|discriminate].
      assert (D : depth s1 t = depth s t).
      { destruct (eroding_shape _ _ _ _ _ Er U) as [->|X]; [reflexivity|].
        destruct disc; destruct X as (v & ->); [apply set_centroids_depth|reflexivity]. }
      destruct disc; intros E; injection E as <-; [exact D|]. rewrite clean_region_depth. exact D.
    + destruct disc; [|discriminate]. intros E; injection E as <-; reflexivity.
  - intros T I disc ca M ids nodes vols cv vv s s' t. unfold set_elevation. destruct disc.
    + destruct cv; intros E; injection E as <-; [apply set_centroids_depth|reflexivity].
    + destruct vv as [rows|]; [|intros E; injection E as <-; reflexivity].
      destruct ids as [ids|]; [intros E; injection E as <-; rewrite clean_region_depth; reflexivity|].
      unfold clean_all. destruct (if ca then _ else _) as [A|]; [|discriminate]. intros E.
      apply (f_equal (fun o => match o with Some b => depth b t | None => 0 end)) in E. rewrite <- E. clear E.
      unfold depth. cbn [stage_c elev_c set_vertices]. rewrite heights_map, sums_map, !put_map.
      destruct (in_dec Nat.eq_dec t (seq 0 M)); lra.
  - intros F C nb base repose dt ids s s' t. unfold dune. destruct base as [b|b]; [discriminate|].
    intros E. apply (f_equal (fun o => match o with Some b => depth b t | None => 0 end)) in E. rewrite <- E. clear E.
    unfold depth. cbn [stage_c elev_c]. rewrite heights_map, sums_map, !put_map.
    destruct (in_dec Nat.eq_dec t ids); lra.
Qed.
Print Assumptions C87_depth_kept.

Corollary C87_volume_kept :
  forall I disc ids nodes vols update s s' (areas : nat -> R) triangles, eroding update ->
  erosion_call I disc ids nodes vols update s = Some s' ->
  Rsum (map (fun t => areas t * (stage_c s' t - elev_c s' t)) triangles) =
  Rsum (map (fun t => areas t * (stage_c s t - elev_c s t)) triangles).
Proof.
  intros I disc ids nodes vols update s s' areas triangles Er E. apply Rsum_map_ext_in. intros t _.
  pose proof (proj1 C87_depth_kept I disc ids nodes vols update s s' t Er E) as D. unfold depth in D. rewrite D. reflexivity.
Qed.
Print Assumptions C87_volume_kept.

(** ** Nothing outside the region changes *)

Theorem C87_outside_untouched :
  forall n M T p I ids nodes vols update s s' t, is_argsort T p -> build_inverted n T p = Some I -> length T = (3 * M)%nat ->
  region M T I ids nodes vols -> eroding update -> (t < M)%nat ->
  (** discontinuous elevation: triangles not in the region *)
  (erosion_call I true (Some ids) nodes vols update s = Some s' -> ~ In t ids ->
     elev_v s' = elev_v s /\ elev_e s' = elev_e s /\ elev_c s' t = elev_c s t /\ stage_c s' t = stage_c s t) /\
  (** continuous elevation: triangles with no corner in common with the region *)
  (erosion_call I false (Some ids) nodes vols update s = Some s' ->
     (forall t' k k', In t' ids -> (k < 3)%nat -> (k' < 3)%nat -> node_at T (3 * t + k) <> node_at T (3 * t' + k')) ->
     (forall k, (k < 3)%nat -> elev_v s' t k = elev_v s t k) /\ (forall k, elev_e s' t k = elev_e s t k) /\
     elev_c s' t = elev_c s t /\ stage_c s' t = stage_c s t).
Proof.
  intros n M T p I ids nodes vols update s s' t AS B L R Er Ht. split.
  - unfold erosion_call. destruct (update true ids s) as [s1|] eqn:U; [|discriminate]. intros E Nt. injection E as <-.
    destruct (eroding_shape _ _ _ _ _ Er U) as [->|(v & ->)]; [auto|].
    destruct (set_centroids_frame s ids v t Nt). auto.
  - unfold erosion_call. destruct (update false ids s) as [s1|] eqn:U; [|discriminate]. intros E Nt. injection E as <-.
    assert (Tt : ~ touches T nodes t).
    { intros (k & Hk & X). destruct R as (_ & (_ & Hn) & _). apply Hn, region_nodes_in in X.
      destruct X as (t' & k' & Ht' & Hk' & E). exact (Nt t' k k' Ht' Hk Hk' E). }
    destruct (eroding_shape _ _ _ _ _ Er U) as [->|(v & ->)].
    + apply (unchanged_region n M T p I AS B L ids nodes vols s R); auto.
    + apply (changed_region n M T p I AS B L ids nodes vols s v R); auto.
Qed.
Print Assumptions C87_outside_untouched.

(** ** The elevation stays continuous *)

(** With continuous elevation, an elevation that has one value per node and
    whose centroid and edge values are means of vertex values still has both
    properties after any of the operators. *)
Theorem C87_continuity_kept :
  forall n M T p I ids nodes vols s s', is_argsort T p -> build_inverted n T p = Some I -> length T = (3 * M)%nat ->
  region M T I ids nodes vols -> continuous M T (elev_v s) -> consistent M s ->
  ((exists update, eroding update /\ erosion_call I false (Some ids) nodes vols update s = Some s') \/
   (exists ca cv vv, set_elevation T I false ca M (Some ids) nodes vols cv vv s = Some s')) ->
  continuous M T (elev_v s') /\ consistent M s'.
Proof.
  intros n M T p I ids nodes vols s s' AS B L R Cn Cs [(update & Er & E)|(ca & cv & vv & E)].
  - unfold erosion_call in E. destruct (update false ids s) as [s1|] eqn:U; [|discriminate]. injection E as <-.
    destruct (eroding_shape _ _ _ _ _ Er U) as [->|(v & ->)].
    + destruct (unchanged_region n M T p I AS B L ids nodes vols s R) as (H1 & H2 & _). auto.
    + destruct (changed_region n M T p I AS B L ids nodes vols s v R) as (H1 & H2 & _). auto.
  - unfold set_elevation in E. destruct vv as [rows|]; injection E as <-; [|auto].
    destruct (changed_region n M T p I AS B L ids nodes vols s rows R) as (H1 & H2 & _). auto.
Qed.
Print Assumptions C87_continuity_kept.

(** [consistent] in full: the edge [i] is opposite the vertex [i]. *)
Theorem C87_consistent : forall M s, consistent M s -> forall t, (t < M)%nat ->
  elev_c s t = (elev_v s t 0%nat + elev_v s t 1%nat + elev_v s t 2%nat) / 3 /\
  elev_e s t 0%nat = (elev_v s t 1%nat + elev_v s t 2%nat) / 2 /\
  elev_e s t 1%nat = (elev_v s t 0%nat + elev_v s t 2%nat) / 2 /\
  elev_e s t 2%nat = (elev_v s t 0%nat + elev_v s t 1%nat) / 2.
Proof. intros M s H t Ht. destruct (H t Ht) as (C & E). rewrite C, !E. unfold mean3, edge_row. repeat split; field. Qed.
Print Assumptions C87_consistent.

(** ** Set_elevation sets what it is given *)

Theorem C87_values_set :
  (** discontinuous elevation: each centroid of the region gets its value *)
  (forall T I ca M ids nodes vols values vv s s' q, NoDup ids -> length values = length ids -> (q < length ids)%nat ->
     set_elevation T I true ca M (Some ids) nodes vols (Some values) vv s = Some s' ->
     elev_c s' (nth q ids 0%nat) = nth q values 0) /\
  (** continuous elevation: values [z] of the nodes are taken at every node
      used by triangles of the region only, and the triangles with three such
      nodes get their means *)
  (forall n M T p I ca ids nodes vols cv (z : nat -> R) s s', is_argsort T p -> build_inverted n T p = Some I -> length T = (3 * M)%nat ->
     region M T I ids nodes vols ->
     set_elevation T I false ca M (Some ids) nodes vols cv (Some (map (fun t k => z (node_at T (3 * t + k))) ids)) s = Some s' ->
     forall t, In t ids ->
     (forall k, (k < 3)%nat ->
        (forall t' k', (t' < M)%nat -> (k' < 3)%nat -> node_at T (3 * t' + k') = node_at T (3 * t + k) -> In t' ids) ->
        elev_v s' t k = z (node_at T (3 * t + k))) /\
     elev_c s' t = mean3 (elev_v s' t)).
Proof.
  split.
  - intros T I ca M ids nodes vols values vv s s' q N Lv Hq E. cbn in E. injection E as <-. cbn [elev_c set_centroids].
    apply put_nth; auto.
  - intros n M T p I ca ids nodes vols cv z s s' AS B L R E t Ht. cbn in E. injection E as <-.
    pose proof R as (Hi & (_ & Hn) & _).
    destruct (clean_region_spec n M T p I AS B L ids nodes vols
      (set_vertices s ids (map (fun t k => z (node_at T (3 * t + k))) ids)) R) as (V & C & _).
    assert (Hm : forall k, (k < 3)%nat -> In (node_at T (3 * t + k)) nodes).
    { intros k Hk. apply Hn, region_nodes_in. exists t, k. auto. }
    split.
    + intros k Hk Own. rewrite V by auto.
      destruct (in_dec Nat.eq_dec (node_at T (3 * t + k)) nodes) as [_|X]; [|exfalso; auto].
      apply (node_mean_eq M T L); auto. intros t' k' Ht' Hk' E. cbn [set_vertices elev_v].
      rewrite put_in; [rewrite E; reflexivity|]. apply (Own t' k' Ht' Hk' E).
    + apply C; [auto|]. exists 0%nat. split; [lia|]. apply Hm. lia.
Qed.
Print Assumptions C87_values_set.

(** ** Erosion by bed shear only lowers, and not below the base *)

Definition sound_flow (slope : nat -> R) (shear_factor dt : R) (s : bed) : Prop :=
  (forall t, 0 <= slope t) /\ 0 < shear_factor /\ 0 <= dt /\ (forall t, 0 <= depth s t).

Lemma shear_erosion_nonneg F slope threshold shear_factor dt s i :
  sound_flow slope shear_factor dt s -> 0 <= shear_erosion F slope threshold shear_factor dt s i.
Proof.
  intros (Sl & Sf & Dt & Dp). unfold shear_erosion. destruct (Rltb _ _); [|lra].
  specialize (Sl i). specialize (Dp i). unfold depth in Dp.
  apply Rmult_le_pos; [|lra]. apply Rmult_le_pos; [|left; apply Rinv_0_lt_compat; lra].
  apply Rmult_le_pos; [|lra]. apply Rmult_le_pos; [lra|lra].
Qed.

Lemma lowered e de base : 0 <= de -> base <= e -> base <= Rmax (e - de) base <= e.
Proof. intros. split; [apply Rmax_r|]. apply Rmax_lub; lra. Qed.

Theorem C87_shear_lowers :
  forall n M T p I F slope threshold base shear_factor dt ids nodes vols s s',
  is_argsort T p -> build_inverted n T p = Some I -> length T = (3 * M)%nat ->
  region M T I ids nodes vols -> sound_flow slope shear_factor dt s ->
  (erosion_call I true (Some ids) nodes vols (shear_update F slope threshold base shear_factor dt) s = Some s' ->
   (forall t, base <= elev_c s t) -> forall t, base <= elev_c s' t <= elev_c s t) /\
  (erosion_call I false (Some ids) nodes vols (shear_update F slope threshold base shear_factor dt) s = Some s' ->
   continuous M T (elev_v s) -> consistent M s -> (forall t k, (t < M)%nat -> (k < 3)%nat -> base <= elev_v s t k) ->
   forall t, (t < M)%nat -> (forall k, (k < 3)%nat -> base <= elev_v s' t k <= elev_v s t k) /\ base <= elev_c s' t <= elev_c s t).
Proof.
  intros n M T p I F slope threshold base shear_factor dt ids nodes vols s s' AS B L R Sf. split.
  - intros E Hb t. cbn in E. injection E as <-. cbn [elev_c set_centroids]. rewrite put_map.
    destruct (in_dec Nat.eq_dec t ids); [|specialize (Hb t); lra].
    apply lowered; [apply shear_erosion_nonneg; auto|auto].
  - intros E Cn Cs Hb.
    destruct (C87_continuity_kept n M T p I ids nodes vols s s' AS B L R Cn Cs) as (_ & Cs').
    { left. eexists. split; [apply Eroding_shear|exact E]. }
    cbn in E.
    match type of E with Some (clean_region _ _ _ ?x) = _ => set (s1 := x) in E end.
    destruct (clean_region_spec n M T p I AS B L ids nodes vols s1 R) as (V & _ & _).
    apply (f_equal (fun o => match o with Some b => b | None => s end)) in E. rewrite E in V.
    assert (S1 : forall t k, (t < M)%nat -> (k < 3)%nat -> base <= elev_v s1 t k <= elev_v s t k).
    { intros t k Ht Hk. unfold s1. cbn [set_vertices elev_v]. rewrite put_map.
      destruct (in_dec Nat.eq_dec t ids); [|specialize (Hb t k Ht Hk); lra].
      apply lowered; [apply shear_erosion_nonneg; auto|auto]. }
    assert (Vt : forall t, (t < M)%nat -> forall k, (k < 3)%nat -> base <= elev_v s' t k <= elev_v s t k).
    { intros t Ht k Hk. rewrite V by auto. destruct (in_dec Nat.eq_dec _ nodes); [|apply S1; auto]. split.
      - apply (node_mean_ge M T L); auto. intros. apply S1; auto.
      - apply (node_mean_le M T L); auto. intros t' k' Ht' Hk' E'. rewrite <- (Cn t' k' t k Ht' Hk' Ht Hk E'). apply S1; auto. }
    intros t Ht. split; [auto|]. rewrite (proj1 (Cs t Ht)), (proj1 (Cs' t Ht)). unfold mean3.
    pose proof (Vt t Ht 0%nat ltac:(lia)). pose proof (Vt t Ht 1%nat ltac:(lia)). pose proof (Vt t Ht 2%nat ltac:(lia)). lra.
Qed.
Print Assumptions C87_shear_lowers.

(** Water at rest does not erode. *)
Theorem C87_no_flow_no_erosion :
  forall I F slope threshold base shear_factor dt ids nodes vols s s', 0 <= threshold ->
  (forall t, xmom F t = 0) -> (forall t, ymom F t = 0) -> (forall t, base <= elev_c s t) ->
  erosion_call I true (Some ids) nodes vols (shear_update F slope threshold base shear_factor dt) s = Some s' ->
  forall t, elev_c s' t = elev_c s t /\ stage_c s' t = stage_c s t.
Proof.
  intros I F slope threshold base shear_factor dt ids nodes vols s s' Th Hx Hy Hb E t.
  assert (Z : forall i, shear_erosion F slope threshold shear_factor dt s i = 0).
  { intros i. unfold shear_erosion, momentum. rewrite Hx, Hy. replace (0 * 0 + 0 * 0) with 0 by ring. rewrite sqrt_0.
    unfold Rdiv at 1. rewrite Rmult_0_l. destruct (Rltb threshold 0) eqn:Q; [|reflexivity]. apply Rltb_true in Q. lra. }
  pose proof (proj1 C87_depth_kept I true (Some ids) nodes vols _ s s' t (Eroding_shear F slope threshold base shear_factor dt) E) as D.
  cbn in E. injection E as <-.
  assert (Ec : elev_c (set_centroids s ids (map (fun i => Rmax (elev_c s i - shear_erosion F slope threshold shear_factor dt s i) base) ids)) t = elev_c s t).
  { cbn [elev_c set_centroids]. rewrite put_map. destruct (in_dec Nat.eq_dec t ids); [|reflexivity].
    rewrite Z, Rminus_0_r. apply Rmax_left. auto. }
  split; [exact Ec|]. unfold depth in D. lra.
Qed.
Print Assumptions C87_no_flow_no_erosion.

(** ** Slicing and filling *)

Theorem C87_slice :
  forall I value ids nodes vols s s',
  erosion_call I true (Some ids) nodes vols (slice_update (Some value)) s = Some s' ->
  forall t, elev_c s' t = if in_dec Nat.eq_dec t ids then Rmin (elev_c s t) value else elev_c s t.
Proof.
  intros I value ids nodes vols s s' E t. cbn in E. injection E as <-. cbn [elev_c set_centroids]. rewrite put_map.
  destruct (in_dec Nat.eq_dec t ids); [|reflexivity]. unfold cut.
  destruct (Rltb value (elev_c s t)) eqn:Q; [apply Rltb_true in Q; rewrite Rmin_right|apply Rltb_false in Q; rewrite Rmin_left]; lra.
Qed.
Print Assumptions C87_slice.

(** A target above the whole region fills it to the target; any other target
    slices. *)
Theorem C87_fill :
  forall I value ids nodes vols s s', ids <> [] ->
  erosion_call I true (Some ids) nodes vols (fill_update (Some value)) s = Some s' ->
  ((forall t, In t ids -> elev_c s t < value) -> forall t, In t ids -> elev_c s' t = value) /\
  ((exists t, In t ids /\ value <= elev_c s t) -> forall t, In t ids -> elev_c s' t = Rmin (elev_c s t) value).
Proof.
  intros I value ids nodes vols s s' Ne E. destruct ids as [|i rest]; [congruence|]. cbn [erosion_call fill_update] in E.
  assert (Top : forall l a, (forall t, In t l -> elev_c s t <= fold_left (fun m t => Rmax m (elev_c s t)) l a) /\
                a <= fold_left (fun m t => Rmax m (elev_c s t)) l a /\
                (a < value -> (forall t, In t l -> elev_c s t < value) -> fold_left (fun m t => Rmax m (elev_c s t)) l a < value)).
  { induction l as [|x l IH]; intros a; cbn [fold_left]; [split; [intros t []|split; [lra|auto]]|].
    destruct (IH (Rmax a (elev_c s x))) as (H1 & H2 & H3). split; [|split].
    - intros t [<-|Ht]; [|auto]. pose proof (Rmax_r a (elev_c s x)). lra.
    - pose proof (Rmax_l a (elev_c s x)). lra.
    - intros Ha Hl. apply H3; [apply Rmax_lub_lt; [auto|apply Hl; left; auto]|intros; apply Hl; right; auto]. }
  destruct (Top rest (elev_c s i)) as (H1 & H2 & H3). set (top := fold_left _ rest (elev_c s i)) in *.
  apply (f_equal (fun o => match o with Some b => b | None => s end)) in E. subst s'. split.
  - intros Hl t Ht. cbn [elev_c set_centroids]. rewrite put_in by auto.
    assert (Q : Rltb top value = true) by (apply Rltb_true, H3; [apply Hl; left; auto|intros; apply Hl; right; auto]).
    rewrite Q. unfold raise. replace (Rltb (elev_c s t) value) with true by (symmetry; apply Rltb_true, Hl; auto). reflexivity.
  - intros (t0 & Ht0 & Hv) t Ht. cbn [elev_c set_centroids]. rewrite put_in by auto.
    assert (Q : Rltb top value = false).
    { apply Rltb_false. destruct Ht0 as [<-|Ht0]; [lra|]. specialize (H1 t0 Ht0). lra. }
    rewrite Q. unfold cut. destruct (Rltb value (elev_c s t)) eqn:Q'; [apply Rltb_true in Q'; rewrite Rmin_right|apply Rltb_false in Q'; rewrite Rmin_left]; lra.
Qed.
Print Assumptions C87_fill.

(** ** The sand dune operator *)

Lemma scour_nonneg F dt s i : 0 <= scour F dt s i.
Proof.
  unfold scour. destruct (Rltb (stage_c s i - elev_c s i) 0); [lra|].
  destruct (Rltb 0 _) eqn:Q; [apply Rltb_true in Q; lra|lra].
Qed.

Theorem C87_dune :
  forall F C nb base repose dt ids s s', dune F C nb (BaseArray base) repose dt ids s = Some s' ->
  (forall t, base t <= elev_c s t) -> 0 <= repose ->
  (forall t, base t <= elev_c s' t <= elev_c s t) /\
  (forall t, ~ In t ids -> elev_c s' t = elev_c s t /\ stage_c s' t = stage_c s t) /\
  (** there is a level [e] between the old and the new ones (the bed after
      scour) such that no triangle of the region is left steeper than the
      angle of repose towards its lowest neighbour at that level, unless it is
      at its base *)
  exists e, (forall t, elev_c s' t <= e t <= elev_c s t) /\
    (forall t, In t ids -> let low := lowest e (nb t) in 0 < distance C t low ->
       elev_c s' t <= e low + repose * distance C t low \/ elev_c s' t = base t).
Proof.
  intros F C nb base repose dt ids s s' E Hb Hr. unfold dune in E.
  set (e1 := put (elev_c s) ids (map (fun i => Rmax (elev_c s i - scour F dt s i) (base i)) ids)) in *.
  match type of E with Some (Bed _ _ (put _ _ (map ?c _)) _) = _ => set (collapse := c) in E end.
  apply (f_equal (fun o => match o with Some b => b | None => s end)) in E. subst s'. cbn [elev_c stage_c].
  assert (E1 : forall t, base t <= e1 t <= elev_c s t).
  { intros t. unfold e1. rewrite put_map. destruct (in_dec Nat.eq_dec t ids); [|specialize (Hb t); lra].
    apply lowered; [apply scour_nonneg|auto]. }
  assert (Co : forall t, base t <= collapse t <= e1 t /\
     (0 < distance C t (lowest e1 (nb t)) -> collapse t <= e1 (lowest e1 (nb t)) + repose * distance C t (lowest e1 (nb t)) \/ collapse t = base t)).
  { intros t. unfold collapse. set (low := lowest e1 (nb t)). set (l := distance C t low).
    specialize (E1 t). destruct (Rltb 0 l) eqn:Q.
    - apply Rltb_true in Q. destruct (Rltb repose ((e1 t - e1 low) / l)) eqn:Q2.
      + apply Rltb_true in Q2.
        assert (St : repose * l < e1 t - e1 low).
        { apply (Rmult_lt_compat_r l) in Q2; [|lra]. unfold Rdiv in Q2. rewrite Rmult_assoc, Rinv_l, Rmult_1_r in Q2; lra. }
        split; [split; [apply Rmax_r|apply Rmax_lub; lra]|]. intros _.
        unfold Rmax. destruct (Rle_dec (e1 low + repose * l) (base t)); [right; reflexivity|left; lra].
      + apply Rltb_false in Q2. split; [lra|]. intros _. left.
        apply (Rmult_le_compat_r l) in Q2; [|lra]. unfold Rdiv in Q2. rewrite Rmult_assoc, Rinv_l, Rmult_1_r in Q2; lra.
    - apply Rltb_false in Q. split; [|lra]. destruct (Rltb repose 0) eqn:Q2; [|lra]. apply Rltb_true in Q2. lra. }
  assert (E2 : forall t, base t <= put e1 ids (map collapse ids) t <= e1 t).
  { intros t. rewrite put_map. destruct (in_dec Nat.eq_dec t ids); [apply Co|]. specialize (E1 t). lra. }
  split; [|split].
  - intros t. specialize (E1 t). specialize (E2 t). lra.
  - intros t Ht. rewrite !put_notin by auto. split; [|reflexivity]. unfold e1. apply put_notin. auto.
  - exists e1. split; [intros t; specialize (E1 t); specialize (E2 t); lra|].
    intros t Ht Hd. rewrite put_in by auto. apply Co. exact Hd.
Qed.
Print Assumptions C87_dune.

(** The default base level, a number, makes every call fail. *)
Theorem C87_dune_default_refuted :
  forall F C nb b repose dt ids s, dune F C nb (BaseNumber b) repose dt ids s = None.
Proof. reflexivity. Qed.
Print Assumptions C87_dune_default_refuted.

(** ** What fails *)

(** Erosion_operator works on regions of one or three triangles only. *)
Theorem C87_region_size_refuted :
  forall I F threshold base dt disc ids nodes vols s, length ids <> 1%nat -> length ids <> 3%nat ->
  erosion_call I disc (Some ids) nodes vols (erosion_update F threshold base dt) s = None.
Proof.
  intros I F threshold base dt disc ids nodes vols s H1 H3. unfold erosion_call, erosion_update, broadcasts.
  apply Nat.eqb_neq in H1, H3. rewrite H1, H3. reflexivity.
Qed.
Print Assumptions C87_region_size_refuted.

(** On a single triangle it lifts the bed of still water to the highest
    vertex. *)
Theorem C87_bed_lifted_refuted :
  forall I threshold base dt t nodes vols s, 0 <= threshold -> base <= elev_v s t 0%nat ->
  elev_c s t = mean3 (elev_v s t) -> elev_v s t 1%nat < elev_v s t 0%nat -> elev_v s t 2%nat < elev_v s t 0%nat ->
  exists s', erosion_call I true (Some [t]) nodes vols (erosion_update (Flow (fun _ => 0) (fun _ => 0)) threshold base dt) s = Some s' /\
  elev_c s' t = elev_v s t 0%nat /\ elev_c s t < elev_c s' t.
Proof.
  intros I threshold base dt t nodes vols s Th Hb Hc H1 H2. eexists. split; [reflexivity|].
  assert (Z : forall i, (if Rltb threshold (momentum (Flow (fun _ => 0) (fun _ => 0)) i) then momentum (Flow (fun _ => 0) (fun _ => 0)) i else 0) = 0).
  { intros i. unfold momentum. cbn [xmom ymom]. replace (0 * 0 + 0 * 0) with 0 by ring. rewrite sqrt_0. destruct (Rltb threshold 0); reflexivity. }
  cbn [elev_c set_centroids put map]. rewrite upd_same. cbn [broadcast length Nat.eqb nth]. rewrite Z, Rmult_0_l.
  unfold max3. rewrite !Rminus_0_r. rewrite (Rmax_left (elev_v s t 0%nat) base) by lra.
  rewrite (Rmax_left (elev_v s t 0%nat) (Rmax (elev_v s t 1%nat) base)) by (apply Rmax_lub; lra).
  rewrite (Rmax_left (elev_v s t 0%nat) (Rmax (elev_v s t 2%nat) base)) by (apply Rmax_lub; lra).
  split; [reflexivity|]. rewrite Hc. unfold mean3. lra.
Qed.
Print Assumptions C87_bed_lifted_refuted.

(** On three triangles the erosion of each is applied to one vertex of all of
    them: with flow over the first triangle only, no triangle is eroded if
    they are level, and a still one is if its first vertex is the highest. *)
Theorem C87_triangles_mixed_refuted :
  forall I threshold base dt a b c nodes vols F s, NoDup [a; b; c] -> 0 <= threshold -> threshold < momentum F a -> 0 <= dt ->
  momentum F b = 0 -> momentum F c = 0 ->
  exists s', erosion_call I true (Some [a; b; c]) nodes vols (erosion_update F threshold base dt) s = Some s' /\
  (forall z, base <= z -> (forall k, (k < 3)%nat -> elev_v s a k = z) -> elev_c s' a = z) /\
  (base <= elev_v s b 0%nat - momentum F a * dt ->
   elev_v s b 1%nat <= elev_v s b 0%nat - momentum F a * dt -> elev_v s b 2%nat <= elev_v s b 0%nat - momentum F a * dt ->
   elev_c s' b = elev_v s b 0%nat - momentum F a * dt).
Proof.
  intros I threshold base dt a b c nodes vols F s N Th Ha Dt Fb Fc.
  inversion N as [|? ? N1 N2]; subst. inversion N2 as [|? ? N3 N4]; subst.
  assert (Nab : a <> b) by (intros ->; apply N1; left; auto). assert (Nac : a <> c) by (intros ->; apply N1; right; left; auto).
  assert (Nbc : b <> c) by (intros ->; apply N3; left; auto).
  assert (Za : (if Rltb threshold (momentum F a) then momentum F a else 0) = momentum F a).
  { replace (Rltb threshold (momentum F a)) with true by (symmetry; apply Rltb_true; auto). reflexivity. }
  assert (Zb : (if Rltb threshold (momentum F b) then momentum F b else 0) = 0) by (rewrite Fb; destruct (Rltb threshold 0); reflexivity).
  assert (Zc : (if Rltb threshold (momentum F c) then momentum F c else 0) = 0) by (rewrite Fc; destruct (Rltb threshold 0); reflexivity).
  assert (Pm : 0 <= momentum F a * dt) by (apply Rmult_le_pos; lra).
  eexists. split; [reflexivity|]. cbn [elev_c set_centroids put map broadcast length Nat.eqb nth max3].
  rewrite Za, Zb, Zc, Rmult_0_l. split.
  - intros z Hz Hl. rewrite !upd_other by auto. rewrite upd_same. unfold max3. cbn [nth]. rewrite !Hl by lia. rewrite Rminus_0_r.
    rewrite (Rmax_left z base) by lra. rewrite (Rmax_right (Rmax (z - momentum F a * dt) base) z) by (apply Rmax_lub; lra).
    apply Rmax_left. lra.
  - intros H0 H1 H2. rewrite upd_other by auto. rewrite upd_same. unfold max3. cbn [nth]. rewrite !Rminus_0_r.
    rewrite (Rmax_left (elev_v s b 0%nat - momentum F a * dt) base) by lra.
    rewrite (Rmax_left _ (Rmax (elev_v s b 1%nat) base)) by (apply Rmax_lub; lra).
    apply Rmax_left. apply Rmax_lub; lra.
Qed.
Print Assumptions C87_triangles_mixed_refuted.

(** Asked to erode the whole domain, no operator changes anything, and with
    continuous elevation none can be created. *)
Theorem C87_whole_domain_refuted :
  forall I nodes vols update s,
  erosion_call I true None nodes vols update s = Some s /\ erosion_call I false None nodes vols update s = None.
Proof. split; reflexivity. Qed.
Print Assumptions C87_whole_domain_refuted.

(** Slicing ignores the base level. *)
Theorem C87_slice_below_base_refuted :
  forall (base : R) I t nodes vols s, base <= elev_c s t ->
  exists value s', erosion_call I true (Some [t]) nodes vols (slice_update (Some value)) s = Some s' /\ elev_c s' t < base.
Proof.
  intros base I t nodes vols s H. exists (base - 1). eexists. split; [reflexivity|].
  cbn [elev_c set_centroids put map]. rewrite upd_same. unfold cut.
  replace (Rltb (base - 1) (elev_c s t)) with true by (symmetry; apply Rltb_true; lra). lra.
Qed.
Print Assumptions C87_slice_below_base_refuted.

(** Set_elevation on the whole domain, with continuous elevation and centroid
    averaging, forgets the values it was given: the outcome is the same for
    any two. *)
Theorem C87_value_forgotten_refuted :
  forall T I M nodes vols cv rows rows' s s1 s2,
  set_elevation T I false true M None nodes vols cv (Some rows) s = Some s1 ->
  set_elevation T I false true M None nodes vols cv (Some rows') s = Some s2 ->
  forall t, (t < M)%nat -> elev_c s1 t = elev_c s2 t /\ stage_c s1 t = stage_c s2 t /\ forall k, elev_v s1 t k = elev_v s2 t k.
Proof.
  intros T I M nodes vols cv rows rows' s s1 s2 E1 E2 t Ht. cbn [set_elevation] in E1, E2. unfold clean_all in E1, E2.
  cbn [set_vertices elev_c elev_v stage_c elev_e] in E1, E2.
  destruct (average_centroid_values I (elev_c s) (fun _ => 0)) as [A|]; [|discriminate].
  apply (f_equal (fun o => match o with Some b => b | None => s end)) in E1, E2. subst s1 s2. cbn [elev_c stage_c elev_v].
  assert (Ht' : In t (seq 0 M)) by (apply in_seq; lia).
  rewrite !heights_map, !sums_map, !put_in by auto. split; [reflexivity|]. split; [|reflexivity]. f_equal.
Qed.
Print Assumptions C87_value_forgotten_refuted.

(** Without centroid averaging, and with no node unused, the whole domain takes
    values given per node. *)
Theorem C87_whole_domain_values :
  forall n M T p I nodes vols cv (z : nat -> R) s, is_argsort T p -> build_inverted n T p = Some I -> length T = (3 * M)%nat ->
  (forall m, (m < n)%nat -> In m T) ->
  exists s', set_elevation T I false false M None nodes vols cv (Some (map (fun t k => z (node_at T (3 * t + k))) (seq 0 M))) s = Some s' /\
  forall t, (t < M)%nat -> (forall k, (k < 3)%nat -> elev_v s' t k = z (node_at T (3 * t + k))) /\ elev_c s' t = mean3 (elev_v s' t) /\
    depth s' t = depth s t.
Proof.
  intros n M T p I nodes vols cv z s AS B L Used. cbn [set_elevation]. unfold clean_all.
  set (s1 := set_vertices s (seq 0 M) _).
  destruct (C15_average_vertex_values n T p I (fun index => elev_v s1 (index / 3)%nat (index mod 3)) (fun _ => 0) AS B) as (A & EA & GA & _).
  rewrite EA. eexists. split; [reflexivity|]. intros t Ht.
  assert (Ht' : In t (seq 0 M)) by (apply in_seq; lia).
  assert (An : forall k, (k < 3)%nat -> A (node_at T (3 * t + k)) = z (node_at T (3 * t + k))).
  { intros k Hk. assert (Hm : (node_at T (3 * t + k) < n)%nat) by (apply (node_bounded n M T p I AS B L); lia).
    rewrite GA; [|auto|apply nth_In; lia|intros; apply Used; lia].
    rewrite count_uses. fold (node_mean T (elev_v s1) (node_at T (3 * t + k))).
    apply (node_mean_eq M T L); auto. intros t' k' Ht2 Hk2 E. unfold s1. cbn [set_vertices elev_v].
    rewrite put_in by (apply in_seq; lia). rewrite E. reflexivity. }
  cbn [elev_v elev_c]. split; [|split].
  - intros k Hk. rewrite put_in by auto. auto.
  - rewrite put_in by auto. reflexivity.
  - unfold depth. cbn [elev_c stage_c]. rewrite heights_map, sums_map, !put_in by auto. cbn [s1 set_vertices stage_c elev_c]. lra.
Qed.
Print Assumptions C87_whole_domain_values.

(** A square of two triangles; the second is eroded by bed shear with
    continuous elevation, and the shared corners pull the first one down. *)
Example C87_example :
  let T := [0; 1; 2; 2; 1; 3]%nat in let p := [0; 1; 4; 2; 3; 5]%nat in
  exists I, is_argsort T p /\ build_inverted 4 T p = Some I /\
  region 2 T I [1%nat] [1; 2; 3]%nat [0; 1]%nat /\
  let s := Bed (fun _ _ => 1) (fun _ _ => 1) (fun _ => 1) (fun _ => 2) in
  exists s', erosion_call I false (Some [1%nat]) [1; 2; 3]%nat [0; 1]%nat
    (shear_update (Flow (fun _ => 3) (fun _ => 4)) (fun _ => 1) 0 0 9810 (1/2)) s = Some s' /\
  elev_v s' 0%nat 0%nat = 1 /\ elev_v s' 0%nat 1%nat = 75/100 /\ elev_v s' 1%nat 1%nat = 75/100 /\ elev_v s' 1%nat 2%nat = 50/100.
Proof.
  cbv zeta. exists (Inverted [0; 1; 3; 5; 6]%nat [1; 2; 2; 1]%nat [0; 1; 4; 2; 3; 5]%nat).
  assert (AS : is_argsort [0; 1; 2; 2; 1; 3]%nat [0; 1; 4; 2; 3; 5]%nat).
  { split.
    - apply NoDup_Permutation; [repeat constructor; cbn; intuition lia|apply seq_NoDup|]. intros x. cbn. intuition lia.
    - repeat constructor; cbn; lia. }
  split; [exact AS|]. split; [reflexivity|]. split.
  { split; [|split].
    - intros t [<-|[]]. lia.
    - split; [repeat constructor; cbn; intuition lia|]. intros x. cbn. intuition lia.
    - split; [repeat constructor; cbn; intuition lia|]. intros x. cbn. intuition lia. }
  eexists. split; [reflexivity|].
  cbn [erosion_call shear_update set_vertices clean_region elev_v elev_c stage_c put map].
  set (F := Flow (fun _ => 3) (fun _ => 4)).
  set (s := Bed (fun _ _ => 1) (fun _ _ => 1) (fun _ => 1) (fun _ => 2)).
  assert (De : shear_erosion F (fun _ => 1) 0 9810 (1/2) s 1 = 1/2).
  { unfold shear_erosion. cbn [stage_c elev_c s].
    assert (Mo : momentum F 1 = 5). { unfold momentum. cbn [xmom ymom F]. replace (3 * 3 + 4 * 4) with (5 * 5) by ring. apply sqrt_square. lra. }
    rewrite Mo. replace (Rltb 0 (5 / (2 - 1 + 1 / 10000000000))) with true; [lra|].
    symmetry. apply Rltb_true. apply Rmult_lt_0_compat; [lra|]. apply Rinv_0_lt_compat. lra. }
  rewrite De. cbn -[Rmax Rminus Rdiv Rmult Rplus INR]. unfold upd2, upd. cbn -[Rmax Rminus Rdiv Rmult Rplus INR].
  replace (Rmax (1 - 1/2) 0) with (1/2) by (rewrite Rmax_left; lra). cbn [INR].
  repeat split; try field; lra.
Qed.
