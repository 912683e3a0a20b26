(** C101: points and their attributes stay together through changes of
    georeference, subsets, sums and points files. *)
From Coq Require Import Reals List ZArith Arith Bool Lia Lra Permutation.
From Verif Require Import RealLib GeoRefModel GeoRefProps PolygonModel GeospatialModel GeospatialProofs.
Import ListNotations.
Local Open Scope R_scope.

(** A change of georeference leaves every point where it is, with its
    attributes (objects with the same identity have the same corners). *)
Theorem C101_georeference : forall k G r,
  (ident (geo_reference G) = ident (argument_reference k r) ->
     xllcorner (geo_reference G) = xllcorner (argument_reference k r) /\ yllcorner (geo_reference G) = yllcorner (argument_reference k r)) ->
  exists S, set_geo_reference k G r = Some S /\ geo_reference S = argument_reference k r /\ located S = located G /\ records S = records G.
Proof.
  intros k G r Hi. unfold set_geo_reference.
  destruct (moved_points (Table (data_points G)) (geo_reference G) (argument_reference k r)) as [rows|] eqn:E.
  2: { unfold moved_points, change_points_geo_ref in E. destruct (negb _) in E; discriminate. }
  pose proof (moved_located _ _ _ _ Hi E) as M. eexists. split; [reflexivity|]. split; [reflexivity|].
  assert (L : located (Geospatial rows (atts G) (argument_reference k r)) = located G) by exact M. split; [exact L|].
  unfold records. cbn [data_points]. pose proof (f_equal (@length _) M) as Q. rewrite !map_length in Q. rewrite Q. apply map_ext. intros i.
  unfold record_at. rewrite L. reflexivity.
Qed.
Print Assumptions C101_georeference.

(** A sample is the chosen points with their attributes, in the chosen order. *)
Theorem C101_sample : forall k G indices, honest (geo_reference G) -> aligned G -> (forall i, In i indices -> (i < length (data_points G))%nat) ->
  exists S, get_sample k G indices = Some S /\ aligned S /\ records S = map (record_at G) indices.
Proof. intros k G indices H1 H2 H3. destruct (sample_spec k G indices H1 H2 H3) as (S & A & B & C & _). exists S. auto. Qed.
Print Assumptions C101_sample.

(** Clipping keeps exactly the points inside, each with its attributes and in
    the same order; clipping outside the others, if there are any. *)
Theorem C101_clip : forall k k' G polygon closed, honest (geo_reference G) -> aligned G ->
  (exists S, clip k G polygon closed = Some S /\ aligned S /\
     records S = filter (fun r => point_inside polygon closed (fst r)) (records G)) /\
  ((exists p, In p (located G) /\ point_inside polygon closed p = false) ->
   exists S T, clip k G polygon closed = Some S /\ clip_outside k' G polygon closed = Some T /\ aligned T /\
     records T = filter (fun r => negb (point_inside polygon closed (fst r))) (records G) /\
     Permutation (records S ++ records T) (records G)).
Proof.
  intros k k' G polygon closed Hh Ha.
  pose proof (inside_filter (located G) polygon closed) as (Ein & Eout). rewrite located_length in Ein, Eout.
  assert (F : forall f : R * R -> bool, filter (fun r => f (fst r)) (records G) = map (record_at G) (filter (fun i => f (nth i (located G) (0, 0))) (seq 0 (length (data_points G))))).
  { intros f. unfold records. rewrite filter_map_comm. reflexivity. }
  assert (B : forall (f : nat -> bool) i, In i (filter f (seq 0 (length (data_points G)))) -> (i < length (data_points G))%nat).
  { intros f i Hi. apply filter_In in Hi as [Hi _]. apply in_seq in Hi. lia. }
  assert (C : exists S, clip k G polygon closed = Some S /\ aligned S /\ records S = filter (fun r => point_inside polygon closed (fst r)) (records G)).
  { unfold clip. rewrite absolute_located by exact Hh. rewrite Ein.
    destruct (C101_sample k G (filter (fun i => point_inside polygon closed (nth i (located G) (0, 0))) (seq 0 (length (data_points G))))) as (S & E & A & Q); auto; [apply B|].
    exists S. split; [exact E|]. split; [exact A|]. rewrite Q. symmetry. apply (F (point_inside polygon closed)). }
  split; [exact C|]. intros (p & Hp & Op). destruct C as (S & E & A & Q).
  destruct (C101_sample k' G (filter (fun i => negb (point_inside polygon closed (nth i (located G) (0, 0)))) (seq 0 (length (data_points G))))) as (T & ET & AT & QT); auto; [apply B|].
  exists S, T. split; [exact E|]. split.
  - unfold clip_outside. rewrite absolute_located by exact Hh. destruct (outside_polygon (located G) polygon closed) as [|i l]; [|rewrite Eout; exact ET].
    exfalso. apply (In_nth _ _ (0, 0)) in Hp as (i & Hi & Ei). rewrite located_length in Hi.
    assert (I : In i (filter (fun i => negb (point_inside polygon closed (nth i (located G) (0, 0)))) (seq 0 (length (data_points G))))).
    { apply filter_In. split; [apply in_seq; lia|]. rewrite Ei, Op. reflexivity. }
    pose proof (eq_ind_r (fun l => In i l) I Eout) as I'. exact I'.
  - split; [exact AT|]. split; [rewrite QT; symmetry; apply (F (fun p => negb (point_inside polygon closed p)))|].
    rewrite Q, QT, <- (F (fun p => negb (point_inside polygon closed p))). exact (filter_partition (fun r => point_inside polygon closed (fst r)) (records G)).
Qed.
Print Assumptions C101_clip.

(** If every point is inside, [clip_outside] raises, and every sample has
    lost the zone and the hemisphere. *)
Theorem C101_outside_refuted : forall k G polygon closed, honest (geo_reference G) ->
  (forall p, In p (located G) -> point_inside polygon closed p = true) -> clip_outside k G polygon closed = None.
Proof.
  intros k G polygon closed Hh Hin. unfold clip_outside. rewrite absolute_located by exact Hh. destruct (inside_filter (located G) polygon closed) as [_ ->].
  assert (E : forall l, (forall i, In i l -> (i < length (located G))%nat) -> filter (fun i => negb (point_inside polygon closed (nth i (located G) (0, 0)))) l = []).
  { induction l as [|i l IH]; intros H; [reflexivity|]. cbn [filter]. rewrite Hin by (apply nth_In, H; left; reflexivity). apply IH. intros; apply H; right; assumption. }
  rewrite E; [reflexivity|]. intros i Hi. apply in_seq in Hi as [_ Hi]. exact Hi.
Qed.
Print Assumptions C101_outside_refuted.
Theorem C101_zone_refuted : forall k G indices S, get_sample k G indices = Some S ->
  zone (geo_reference S) = default_zone /\ hemi (geo_reference S) = Undefined.
Proof.
  intros k G indices S. unfold get_sample. destruct (take (0, 0) (absolute_points G) indices); [|discriminate].
  destruct (take_all (dictionary G) indices); [|discriminate]. rewrite construct_none. intros E. injection E as <-. split; reflexivity.
Qed.
Print Assumptions C101_zone_refuted.

(** A split, whatever is drawn, never breaks its assertion: it gives a
    partition with as many points drawn as asked, or it raises; it returns
    if no draw is among the last positions. *)
Theorem C101_split : forall k G draws, honest (geo_reference G) -> aligned G ->
  match split k G draws with
  | Parts G1 G2 => Permutation (records G1 ++ records G2) (records G) /\ aligned G1 /\ aligned G2 /\
      length (data_points G1) = length draws /\ (length (data_points G1) + length (data_points G2) = length (data_points G))%nat
  | SplitFailed => False
  | SplitError => exists i, In i draws /\ (length (data_points G) < i + length draws)%nat
  end.
Proof.
  intros k G draws Hh Ha. unfold split. set (N := length (data_points G)).
  assert (Pd : Permutation draws (rev (sort_nat draws))) by (eapply Permutation_trans; [apply sort_nat_perm|apply Permutation_rev]).
  pose proof (pop_all_spec (rev (sort_nat draws)) (seq 0 N) []) as P. destruct (pop_all _ _ _) as [[a b]|].
  - destruct P as (Pm & La & _). cbn [app length Nat.add] in Pm, La. rewrite (sort_seq _ _ (Permutation_sym Pm)).
    unfold list_eqb. destruct (list_eq_dec Nat.eq_dec (seq 0 N) (seq 0 N)) as [_|C]; [|congruence].
    assert (B : forall i, In i (a ++ b) -> (i < N)%nat) by (intros i Hi; apply (Permutation_in _ (Permutation_sym Pm)), in_seq in Hi; lia).
    destruct (sample_spec k G a Hh Ha) as (S1 & E1 & R1 & A1 & _ & _ & L1); [intros i Hi; apply B, in_or_app; auto|].
    destruct (sample_spec (S (S k)) G b Hh Ha) as (S2 & E2 & R2 & A2 & _ & _ & L2); [intros i Hi; apply B, in_or_app; auto|].
    rewrite E1, E2. split; [rewrite R1, R2, <- map_app; apply Permutation_map, Permutation_sym, Pm|]. split; [exact A1|]. split; [exact A2|].
    split; [rewrite L1, La; symmetry; apply Permutation_length, Pd|]. rewrite L1, L2, <- app_length, <- (Permutation_length Pm), seq_length. reflexivity.
  - destruct P as (j & i & E & L). rewrite seq_length in L. exists i. split; [eapply Permutation_in; [apply Permutation_sym, Pd|eapply nth_error_In, E]|].
    assert (j < length (rev (sort_nat draws)))%nat by (apply nth_error_Some; congruence). rewrite <- (Permutation_length Pd) in H. lia.
Qed.
Print Assumptions C101_split.

(** The call to [randint] can draw numbers for which it raises, and cannot
    draw the last point alone. *)
Theorem C101_split_refuted : exists k G draws, honest (geo_reference G) /\ aligned G /\ drawn 6 3 draws /\ length (data_points G) = 6%nat /\ split k G draws = SplitError.
Proof.
  exists O, (Geospatial (repeat (0, 0) 6) None (default_reference 0)), [4; 4; 4]%nat. split; [apply default_honest|].
  split; [intros key v []|]. split; [split; [reflexivity|]|split; [reflexivity|vm_compute; reflexivity]].
  intros i [<-|[<-|[<-|[]]]]; lia.
Qed.
Print Assumptions C101_split_refuted.
Theorem C101_last_point_refuted : forall n draws a b, drawn n 1 draws -> pop_all (rev (sort_nat draws)) (seq 0 n) [] = Some (a, b) -> ~ In (n - 1)%nat a.
Proof.
  intros n draws a b (L & B) E. destruct draws as [|i [|j draws]]; try discriminate. specialize (B i (or_introl eq_refl)). cbn in E.
  assert (Q : forall l i x r, pop l i = Some (x, r) -> x = nth i l O).
  { induction l as [|y l IH]; intros [|m] x r H; try discriminate; cbn in H; [injection H as <- _; reflexivity|]. destruct (pop l m) as [[z t]|] eqn:F; [|discriminate]. injection H as <- _. cbn. eapply IH, F. }
  destruct (pop (seq 0 n) i) as [[x r]|] eqn:F; [|discriminate]. injection E as <- _. apply Q in F. rewrite seq_nth in F by lia.
  cbn. intros [H|[]]. lia.
Qed.
Print Assumptions C101_last_point_refuted.

(** A sum has the points of both, and the attributes of the first
    continued by those of the second; one zone, that of an operand which
    specifies it. *)
Theorem C101_sum : forall k G H S, honest (geo_reference G) -> honest (geo_reference H) -> add k G (Some H) = Some S ->
  located S = located G ++ located H /\
  map fst (dictionary S) = map fst (dictionary G) /\
  (forall key v, lookup (dictionary G) key = Some v -> exists w, lookup (dictionary H) key = Some w /\ lookup (dictionary S) key = Some (v ++ w)) /\
  (aligned G -> aligned H -> aligned S) /\
  compatible (geo_reference G) (geo_reference H) /\
  (specified_zone (geo_reference G) -> zone (geo_reference S) = zone (geo_reference G)) /\
  (specified_zone (geo_reference H) -> zone (geo_reference S) = zone (geo_reference H)).
Proof.
  intros k G H S HG HH. unfold add. pose proof (C57_reconcile (geo_reference G) (geo_reference H)) as Rc.
  destruct (reconcile_zones (geo_reference G) (geo_reference H)) as [[g1 g2] ok]. destruct Rc as (Rok & Rz & _). destruct ok; [|discriminate].
  destruct (Rz eq_refl) as (Z1 & _ & Z2 & Z3 & _). rewrite !absolute_located by assumption.
  assert (Tail : forall a, construct (Datatypes.S k) (Table (located G ++ located H)) a (Reference (new_reference k (zone g1) 0 0)) = Some S ->
    located S = located G ++ located H /\ dictionary S = match set_attributes a with Some d => d | None => [] end /\
    length (data_points S) = (length (data_points G) + length (data_points H))%nat /\ zone (geo_reference S) = zone g1).
  { intros a E. rewrite construct_ref in E. injection E as <-. split; [apply absolute_ref_located|]. split; [reflexivity|]. cbn [data_points geo_reference zone new_reference].
    rewrite app_length, !located_length. split; reflexivity. }
  assert (Zones : zone (geo_reference S) = zone g1 -> compatible (geo_reference G) (geo_reference H) /\
    (specified_zone (geo_reference G) -> zone (geo_reference S) = zone (geo_reference G)) /\
    (specified_zone (geo_reference H) -> zone (geo_reference S) = zone (geo_reference H))).
  { intros ->. split; [apply Rok; reflexivity|]. split; [exact Z2|]. rewrite Z1. exact Z3. }
  destruct (atts G) as [d|] eqn:EG.
  - destruct d as [|p d].
    + intros E. destruct (Tail _ E) as (T1 & T2 & T3 & T4). unfold dictionary at 2 3. rewrite EG, T2. cbn [set_attributes]. split; [exact T1|]. split; [reflexivity|].
      split; [intros key v; discriminate|]. split; [intros _ _ key v Hin; rewrite T2 in Hin; contradiction|]. apply Zones, T4.
    + destruct (atts H) as [e|] eqn:EH; [|discriminate]. pose proof (join_spec (p :: d) e) as J. destruct (join (p :: d) e) as [s|]; [|discriminate]. cbn [option_map].
      intros E. destruct (Tail _ E) as (T1 & T2 & T3 & T4). cbn [set_attributes] in T2. destruct J as (J1 & J2 & J3). split; [exact T1|].
      unfold dictionary at 2 3 4. rewrite EG, EH, T2. split; [exact J1|]. split; [exact J2|]. split; [|apply Zones, T4].
      intros AG AH key u Hu. rewrite T2 in Hu. rewrite T3. destruct (J3 key u Hu) as (v & w & Hv & Hw & ->). rewrite app_length. f_equal.
      * eapply AG. unfold dictionary. rewrite EG. exact Hv.
      * eapply AH. unfold dictionary. rewrite EH. exact Hw.
  - destruct (atts H) as [e|] eqn:EH; [discriminate|]. intros E. destruct (Tail _ E) as (T1 & T2 & T3 & T4). unfold dictionary at 2 3. rewrite EG, T2. cbn [set_attributes].
    split; [exact T1|]. split; [reflexivity|]. split; [intros key v; discriminate|]. split; [intros _ _ key v Hin; rewrite T2 in Hin; contradiction|]. apply Zones, T4.
Qed.
Print Assumptions C101_sum.
(** It exists for compatible georeferences and equal names of attributes. *)
Theorem C101_sum_defined : forall k G H, compatible (geo_reference G) (geo_reference H) -> atts G <> None -> atts H <> None ->
  (forall key, In key (map fst (dictionary G)) -> In key (map fst (dictionary H))) -> exists S, add k G (Some H) = Some S.
Proof.
  intros k G H C NG NH K. unfold add. pose proof (C57_reconcile (geo_reference G) (geo_reference H)) as Rc.
  destruct (reconcile_zones (geo_reference G) (geo_reference H)) as [[g1 g2] ok]. destruct Rc as (Rok & _). rewrite (proj2 Rok C). unfold dictionary in K.
  destruct (atts G) as [d|]; [|congruence]. destruct (atts H) as [e|]; [|congruence]. pose proof (join_spec d e) as J.
  destruct d as [|p d]; [rewrite construct_ref; eauto|]. destruct (join (p :: d) e) as [s|]; [cbn [option_map]; rewrite construct_ref; eauto|]. exfalso.
  destruct J as (key & Hk & Hn). specialize (K key Hk). clear - K Hn. induction e as [|[x v] e IH]; [contradiction|]. cbn [lookup map fst] in *.
  destruct (Nat.eqb_spec x key) as [->|N]; [discriminate|]. destruct K as [->|K]; [congruence|auto].
Qed.
Print Assumptions C101_sum_defined.
(** The sum with nothing is a copy at absolute coordinates. *)
Theorem C101_sum_none : forall k G, honest (geo_reference G) ->
  exists S, add k G None = Some S /\ located S = located G /\ atts S = atts G /\ zone (geo_reference S) = zone (geo_reference G).
Proof.
  intros k G Hh. unfold add. rewrite construct_ref, absolute_located by exact Hh. eexists. split; [reflexivity|]. split; [apply absolute_ref_located|].
  split; [cbn [atts]; destruct (atts G); reflexivity|reflexivity].
Qed.
Print Assumptions C101_sum_none.
(** Refuted: the sum does not depend on the order; an attribute of the second
    operand only is dropped without an error, and the hemisphere always is. *)
Theorem C101_sum_refuted : forall k g h p q v, compatible g h ->
  let G := Geospatial p (Some []) g in let H := Geospatial q (Some [(elevation, v)]) h in
  add k H (Some G) = None /\ exists S, add k G (Some H) = Some S /\ atts S = Some [] /\ hemi (geo_reference S) = Undefined.
Proof.
  intros k g h p q v C. cbv zeta. unfold add. cbn [geo_reference atts]. pose proof (C57_reconcile g h) as Rc.
  destruct (reconcile_zones g h) as [[g1 g2] ok]. destruct Rc as (Rok & _ & _ & Sym). rewrite Sym. rewrite (proj2 Rok C). cbn [join lookup option_map].
  split; [reflexivity|]. rewrite construct_ref. eexists. split; [reflexivity|split; reflexivity].
Qed.
Print Assumptions C101_sum_refuted.

(** ** Files *)

(** A .pts file, with absolute coordinates or not, gives back the points, the
    attributes, the zone and the hemisphere. *)
Theorem C101_pts : forall k G absolute, honest (geo_reference G) -> aligned G -> ~ In points_name (map fst (dictionary G)) ->
  exists f S, export_pts G absolute = Some f /\ import_pts k f = Some S /\ located S = located G /\ dictionary S = dictionary G /\ records S = records G /\
    zone (geo_reference S) = zone (geo_reference G) /\ hemi (geo_reference S) = hemi (geo_reference G) /\
    aligned_file f /\ file_records f 0 (length (f_points f)) = records G.
Proof.
  intros k G absolute Hh Ha Hn.
  assert (W : forall rows g, length rows = length (data_points G) -> map (fun p => (fst p + xllcorner g, snd p + yllcorner g)) rows = located G ->
    zone g = zone (geo_reference G) -> hemi g = hemi (geo_reference G) ->
    exists f S, write_pts rows (atts G) g = Some f /\ import_pts k f = Some S /\ located S = located G /\ dictionary S = dictionary G /\ records S = records G /\
    zone (geo_reference S) = zone (geo_reference G) /\ hemi (geo_reference S) = hemi (geo_reference G) /\
    aligned_file f /\ file_records f 0 (length (f_points f)) = records G).
  { intros rows g L M Z1 H1. unfold write_pts. fold (dictionary G). replace (forallb _ (dictionary G)) with true; cycle 1.
    { symmetry. apply forallb_forall. intros [key v] Hin. cbn [fst snd]. rewrite (Ha key v Hin), L, Nat.eqb_refl, andb_true_r. apply negb_true_iff, Nat.eqb_neq.
      intros ->. apply Hn, in_map_iff. exists (points_name, v). auto. }
    unfold import_pts. eexists _, _. split; [reflexivity|]. rewrite construct_ref. split; [reflexivity|].
    match goal with |- located ?S = _ /\ _ => assert (Q : located S = located G) by exact M end. split; [exact Q|]. split; [reflexivity|].
    match goal with |- records ?S = _ /\ _ => assert (Qr : records S = records G) end.
    { apply records_same; [exact L|exact Q|reflexivity]. }
    split; [exact Qr|]. split; [exact Z1|]. split; [exact H1|].
    match goal with |- aligned_file ?f /\ _ => assert (Qa : aligned_file f) end. { intros key v Hin. cbn [f_points f_atts] in *. rewrite L. eapply Ha, Hin. }
    split; [exact Qa|]. rewrite <- Qr. unfold file_records, records. cbn [data_points f_points]. rewrite Nat.sub_0_r. apply map_ext_in. intros i Hi. apply in_seq in Hi.
    unfold record_at. rewrite located_nth by (cbn [data_points f_points]; lia). reflexivity. }
  unfold export_pts. destruct absolute.
  - apply W; [rewrite absolute_located by exact Hh; apply located_length| |reflexivity|reflexivity]. cbn [xllcorner yllcorner].
    rewrite absolute_located by exact Hh. apply map_id_pair. intros [x y]. cbn. f_equal; ring.
  - apply W; reflexivity.
Qed.
Print Assumptions C101_pts.

(** Blocks of at least one line, together, are the file: each row once and in
    order, in blocks of the size asked for but the last. *)
Theorem C101_pts_blocks : forall k f max fuel, aligned_file f -> (1 <= max)%nat -> (length (f_points f) <= fuel)%nat ->
  exists whole l, import_pts k f = Some whole /\ pts_blocks fuel k f max 0 = Some l /\ concat (map records l) = records whole /\
    (forall j G, nth_error l j = Some G -> length (data_points G) = Nat.min max (length (f_points f) - j * max) /\ aligned G /\
       zone (geo_reference G) = f_zone f /\ hemi (geo_reference G) = f_hemi f).
Proof.
  intros k f max fuel Ha Hm Hf. destruct (pts_blocks_spec k f max Ha Hm fuel 0 ltac:(lia) ltac:(lia)) as (l & E & C & B & _).
  unfold import_pts. rewrite construct_ref. eexists _, l. split; [reflexivity|]. split; [exact E|]. split.
  - rewrite C. unfold file_records, records. cbn [data_points]. rewrite Nat.sub_0_r. apply map_ext_in. intros i Hi. apply in_seq in Hi.
    unfold record_at. rewrite located_nth by (cbn [data_points]; lia). reflexivity.
  - intros j G Ej. specialize (B j G Ej). rewrite Nat.sub_0_r in B. exact B.
Qed.
Print Assumptions C101_pts_blocks.
(** With blocks of no lines the iteration has no end. *)
Theorem C101_no_end_refuted : forall k f fuel, f_points f <> [] -> pts_blocks fuel k f 0 0 = None.
Proof.
  intros k f fuel Hf. induction fuel as [|fuel IH]; cbn [pts_blocks]; destruct (f_points f) as [|p l] eqn:E; try congruence; cbn [length Nat.eqb]; [reflexivity|].
  cbn [Nat.add]. change (S (length l) <? 0)%nat with false. cbn iota. rewrite IH. destruct (pts_block k f 0 0); reflexivity.
Qed.
Print Assumptions C101_no_end_refuted.

(** A text file of rows, blank lines and comments is read row by row, at once
    or in blocks of at least one line. *)
Theorem C101_csv_blocks : forall k names c1 c2 ls rows max fuel, NoDup names -> reads names ls rows -> rows <> [] -> (1 <= max)%nat -> (length rows < fuel)%nat ->
  exists whole l, import_csv k (Csv (c1 :: c2 :: names) ls) = Some whole /\ csv_blocks fuel k (c1 :: c2 :: names) max ls = Some l /\
    records whole = map (fun r : row => (fst r, combine names (snd r))) rows /\ aligned whole /\ concat (map records l) = records whole /\
    (forall j G, nth_error l j = Some G -> length (data_points G) = Nat.min max (length rows - j * max) /\ aligned G).
Proof.
  intros k names c1 c2 ls rows max fuel N H Ne Hm Hf. destruct (csv_blocks_spec k names c1 c2 max N Hm fuel ls rows H Hf) as (l & E & C & B & _).
  unfold import_csv. cbn [header body]. pose proof (read_csv_spec names c1 c2 ls rows None N H) as Q. cbn [taken] in Q.
  destruct (columns_records names rows (S k) (reads_shaped _ _ _ H)) as (C1 & C2). revert C1 C2.
  destruct rows as [|r rows]; [congruence|]. destruct Q as (rest & -> & _). rewrite construct_none. intros C1 C2. eexists _, l. split; [reflexivity|]. split; [exact E|].
  split; [exact C1|]. split; [exact C2|]. split; [rewrite C; symmetry; exact C1|exact B].
Qed.
Print Assumptions C101_csv_blocks.
(** An exported text file gives back the points and their attributes. *)
Theorem C101_csv : forall k G, honest (geo_reference G) -> aligned G -> NoDup (map fst (dictionary G)) -> data_points G <> [] ->
  exists f S, export_csv G = Some f /\ import_csv k f = Some S /\ records S = records G /\ aligned S.
Proof.
  intros k G Hh Ha N Ne. unfold export_csv. rewrite absolute_located by exact Hh.
  assert (W : write_csv (located G) (atts G) = write_csv (located G) (Some (dictionary G))) by (unfold dictionary; destruct (atts G); reflexivity). rewrite W.
  destruct (write_csv_reads (located G) (dictionary G)) as (f & E & Hd & Rd); [intros key v Hin; rewrite located_length; eapply Ha, Hin|].
  rewrite located_length in Rd. set (rows := map _ (seq 0 (length (data_points G)))) in Rd.
  assert (Nr : rows <> []) by (unfold rows; destruct (data_points G); [congruence|discriminate]).
  destruct (C101_csv_blocks k _ x_name y_name _ _ 1 (S (length rows)) N Rd Nr (le_n 1) (Nat.lt_succ_diag_r _)) as (S & _ & Ei & _ & Rs & As & _).
  exists f, S. split; [exact E|]. split; [destruct f as [h b]; cbn [header body] in *; rewrite Hd; exact Ei|]. split; [|exact As]. rewrite Rs. unfold rows, records. rewrite map_map. apply map_ext.
  intros i. unfold record_at. cbn [fst snd]. f_equal. clear. induction (dictionary G) as [|[key v] d IH]; [reflexivity|]. cbn. rewrite IH. reflexivity.
Qed.
Print Assumptions C101_csv.
(** A field of blanks shortens its column, so that later values belong to
    other points; a comment without a comma, or any line with one field, ends
    the reading of the whole file silently, but not that of the blocks. *)
Theorem C101_blank_refuted : exists ls whole, import_csv 0 (Csv [x_name; y_name; 7]%nat ls) = Some whole /\
  data_points whole = [(0, 0); (1, 0); (2, 0)] /\ dictionary whole = [(7%nat, [5; 6])].
Proof.
  exists [Line false false [Number 0; Number 0; Blank]; Line false false [Number 1; Number 0; Number 5]; Line false false [Number 2; Number 0; Number 6]].
  unfold import_csv, read_csv_blocking. cbn [header body read_lines newline hash fields length Nat.leb Nat.eqb add_values append_value app option_map].
  rewrite construct_none. eexists. split; [reflexivity|split; reflexivity].
Qed.
Print Assumptions C101_blank_refuted.
Theorem C101_comment_refuted : exists ls whole l, import_csv 0 (Csv [x_name; y_name]%nat ls) = Some whole /\ csv_blocks 4 0 [x_name; y_name] 2 ls = Some l /\
  data_points whole = [(0, 0)] /\ map data_points l = [[(0, 0)]; [(1, 0)]].
Proof.
  exists [Line false false [Number 0; Number 0]; Line false true [Word]; Line false false [Number 1; Number 0]].
  unfold import_csv. cbn [csv_blocks]. unfold read_csv_blocking. cbn [header body read_lines newline hash fields length Nat.leb Nat.eqb add_values app option_map pred].
  rewrite !construct_none. eexists _, _. split; [reflexivity|]. split; [reflexivity|split; reflexivity].
Qed.
Print Assumptions C101_comment_refuted.
(** The constructor does not compare the numbers of points and values, and a
    tuple is no georeference in spite of its description. *)
Theorem C101_construct_refuted : forall k g rows v z x y, length v <> length rows ->
  (exists G, construct k (Table rows) (Values v) (Reference g) = Some G /\ ~ aligned G) /\
  construct k (Table rows) (Values v) (Tuple z x y) = None.
Proof.
  intros k g rows v z x y H. split; [|reflexivity]. rewrite construct_ref. eexists. split; [reflexivity|]. intros A.
  apply H, (A elevation v). left. reflexivity.
Qed.
Print Assumptions C101_construct_refuted.

(** An instance: two points with one attribute, relative to (100, 200). *)
Definition ex_data : geospatial := Geospatial [(1, 2); (3, 4)] (Some [(elevation, [5; 6])]) (Geo 0 56 Southern 100 200).
Lemma ex_honest : honest (geo_reference ex_data).
Proof.
  intros H. exfalso. unfold is_absolute in H. cbn [geo_reference ex_data xllcorner yllcorner] in H. apply andb_prop in H as [H _]. apply Rleb_true in H.
  rewrite Rminus_0_r, Rabs_R0, Rabs_right in H by lra. assert (/ 10 ^ 8 <= 1) by (rewrite <- Rinv_1; apply Rinv_le_contravar; lra). lra.
Qed.
Lemma ex_aligned : aligned ex_data.
Proof. intros key v [H|[]]. injection H as _ <-. reflexivity. Qed.
Example C101_case :
  located ex_data = [(101, 202); (103, 204)] /\
  (exists f S, export_csv ex_data = Some f /\ import_csv 1 f = Some S /\ records S = [((101, 202), [(elevation, 5)]); ((103, 204), [(elevation, 6)])]) /\
  (exists G1 G2, split 1 ex_data [0%nat] = Parts G1 G2 /\ records G1 = [((101, 202), [(elevation, 5)])] /\ records G2 = [((103, 204), [(elevation, 6)])]) /\
  (exists S, add 1 ex_data (Some ex_data) = Some S /\ lookup (dictionary S) elevation = Some [5; 6; 5; 6]).
Proof.
  assert (L : located ex_data = [(101, 202); (103, 204)]) by (unfold located; cbn; repeat (f_equal; try lra)).
  assert (R0 : record_at ex_data 0 = ((101, 202), [(elevation, 5)])) by (unfold record_at; rewrite L; reflexivity).
  assert (R1 : record_at ex_data 1 = ((103, 204), [(elevation, 6)])) by (unfold record_at; rewrite L; reflexivity).
  split; [exact L|]. split; [|split].
  - destruct (C101_csv 1 ex_data ex_honest ex_aligned) as (f & S & A & B & C & _); [repeat constructor; intros []|discriminate|]. exists f, S.
    split; [exact A|]. split; [exact B|]. rewrite C. unfold records. cbn [data_points ex_data length seq map]. fold ex_data. rewrite R0, R1. reflexivity.
  - unfold split. cbn [data_points ex_data length seq sort_nat fold_right insert_nat rev app pop_all pop Nat.leb].
    unfold list_eqb. destruct (list_eq_dec Nat.eq_dec [0; 1]%nat [0; 1]%nat) as [_|N]; [|congruence]. fold ex_data.
    destruct (C101_sample 1 ex_data [0%nat] ex_honest ex_aligned) as (S1 & E1 & _ & Q1); [intros i [<-|[]]; cbn; lia|].
    destruct (C101_sample 3 ex_data [1%nat] ex_honest ex_aligned) as (S2 & E2 & _ & Q2); [intros i [<-|[]]; cbn; lia|].
    rewrite E1, E2. exists S1, S2. split; [reflexivity|]. rewrite Q1, Q2. cbn [map]. rewrite R0, R1. split; reflexivity.
  - destruct (C101_sum_defined 1 ex_data ex_data) as (S & E); [unfold compatible; cbn; tauto|discriminate|discriminate|auto|]. exists S. split; [exact E|].
    destruct (C101_sum _ _ _ _ ex_honest ex_honest E) as (_ & _ & K & _). destruct (K elevation [5; 6] eq_refl) as (w & W & V). injection W as <-. exact V.
Qed.
