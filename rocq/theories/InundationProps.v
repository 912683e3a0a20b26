(** C107: the highest inundated point of a run *)
From Coq Require Import Reals List Arith Bool Lia Lra Sorted.
From Verif Require Import RealLib PolygonModel RegionProofs ExtremaModel ExtremaProofs InundationModel InundationProofs.
Import ListNotations.
Local Open Scope R_scope.

(** At each time looked at, if some point is inundated, then one that is not
    the first point in the polygon is. *)
Definition not_only_first (f : sww) (centroids : bool) (polygon : option (list point)) (interval : option (R * R)) : Prop :=
  forall i, selected f interval i -> (exists k, inundated f centroids polygon i k) ->
  exists k k0, inundated f centroids polygon i k /\ chosen f centroids polygon k0 /\ (k0 < k)%nat.

Lemma clear_steps f centroids polygon interval ids steps : consistent f centroids -> StronglySorted lt ids ->
  (forall k, In k ids <-> chosen f centroids polygon k) -> (forall i, In i steps <-> selected f interval i) ->
  not_only_first f centroids polygon interval ->
  forall i, In i steps -> clear (map (at_ (fst (read_values f centroids))) ids) (map (fun row => map (at_ row) ids) (snd (read_values f centroids))) i.
Proof.
  intros C So I St H i Ii [j W]. apply St in Ii. pose proof (proj1 Ii) as L.
  apply (wet_inundated f centroids polygon ids i j C I L) in W as [J W].
  destruct (H i Ii (ex_intro _ _ W)) as (k & k0 & K & K0 & Lt).
  apply I in K0. destruct (In_nth ids k0 0%nat K0) as (j0 & J0 & E0).
  pose proof (proj1 K) as K1. apply I in K1. destruct (In_nth ids k 0%nat K1) as (j1 & J1 & E1).
  exists j1. split; [apply (wet_inundated f centroids polygon ids i j1 C I L); split; [exact J1|rewrite E1; exact K]|].
  intros ->. destruct (Nat.eq_dec j0 0) as [->|N]; [lia|]. pose proof (sorted_first ids So j0 J0 N). lia.
Qed.

(** The result: the highest elevation over all inundated points in the polygon
    at times in the interval, with its place, and the first time that it is
    reached *)
Theorem C107_runup_partial f polygon interval centroids r p t :
  consistent f centroids -> polygon <> Some [] -> not_only_first f centroids polygon interval ->
  maximum_inundation f polygon interval centroids = Some (Some (r, p, t)) ->
  exists i k, selected f interval i /\ inundated f centroids polygon i k /\
    r = at_ (fst (read_values f centroids)) k /\ p = nth k (places f centroids) (0, 0) /\ t = at_ (times f) i /\
    (forall i' k', selected f interval i' -> inundated f centroids polygon i' k' -> at_ (fst (read_values f centroids)) k' <= r) /\
    (forall i' k', selected f interval i' -> (i' < i)%nat -> inundated f centroids polygon i' k' -> at_ (fst (read_values f centroids)) k' < r).
Proof.
  intros C P H E. unfold maximum_inundation in E.
  destruct (restrict_some f centroids polygon C P) as (ids & So & I & Er). rewrite Er in E.
  destruct (select_times (times f) interval) as [steps|] eqn:Es; [|discriminate].
  destruct (select_some f interval steps Es) as [St Sel].
  pose proof (clear_steps f centroids polygon interval ids steps C So I Sel H) as Cl.
  assert (L : length (map (fun k => nth k (places f centroids) (0, 0)) ids) = length (map (at_ (fst (read_values f centroids))) ids)) by (rewrite !map_length; reflexivity).
  pose proof (loop_known _ _ _ (times f) L steps [] None (Some (r, p, t)) Cl (fun i k F _ => F) E) as K.
  destruct K as (before & i & after & j & Ed & W & E1 & E2 & E3 & All & Bef). simpl in Ed.
  assert (Ii : In i steps) by (rewrite Ed; apply in_app_iff; right; left; reflexivity).
  pose proof (proj1 (Sel i) Ii) as Si.
  apply (wet_inundated f centroids polygon ids i j C I (proj1 Si)) in W as [J W].
  assert (T : forall i' k', selected f interval i' -> inundated f centroids polygon i' k' ->
            exists j', wet (map (at_ (fst (read_values f centroids))) ids) (map (fun row => map (at_ row) ids) (snd (read_values f centroids))) i' j' /\
              at_ (map (at_ (fst (read_values f centroids))) ids) j' = at_ (fst (read_values f centroids)) k').
  { intros i' k' S' W'. pose proof (proj1 W') as K'. apply I in K'. destruct (In_nth ids k' 0%nat K') as (j' & J' & E').
    exists j'. split; [apply (wet_inundated f centroids polygon ids i' j' C I (proj1 S')); split; [exact J'|rewrite E'; exact W']|].
    rewrite <- E'. exact (nth_map_in (at_ (fst (read_values f centroids))) ids j' 0%nat 0 J'). }
  exists i, (nth j ids 0%nat). split; [exact Si|]. split; [exact W|].
  split; [rewrite E1; exact (nth_map_in (at_ (fst (read_values f centroids))) ids j 0%nat 0 J)|].
  split; [rewrite E2; exact (nth_map_in (fun k => nth k (places f centroids) (0, 0)) ids j 0%nat (0, 0) J)|].
  split; [exact E3|]. split.
  - intros i' k' S' W'. destruct (T i' k' S' W') as (j' & Wj & Ej). rewrite <- Ej. apply (All i' j'); [apply Sel; exact S'|exact Wj].
  - intros i' k' S' Lt W'. destruct (T i' k' S' W') as (j' & Wj & Ej). rewrite <- Ej. apply (Bef i' j'); [|exact Wj].
    apply (before_less steps St before i after i' Ed); [apply Sel; exact S'|exact Lt].
Qed.
Print Assumptions C107_runup_partial.

(** No result: nothing is inundated. *)
Theorem C107_dry_partial f polygon interval centroids :
  consistent f centroids -> polygon <> Some [] -> not_only_first f centroids polygon interval ->
  maximum_inundation f polygon interval centroids = Some None ->
  forall i k, selected f interval i -> ~ inundated f centroids polygon i k.
Proof.
  intros C P H E. unfold maximum_inundation in E.
  destruct (restrict_some f centroids polygon C P) as (ids & So & I & Er). rewrite Er in E.
  destruct (select_times (times f) interval) as [steps|] eqn:Es; [|discriminate].
  destruct (select_some f interval steps Es) as [St Sel].
  pose proof (clear_steps f centroids polygon interval ids steps C So I Sel H) as Cl.
  assert (L : length (map (fun k => nth k (places f centroids) (0, 0)) ids) = length (map (at_ (fst (read_values f centroids))) ids)) by (rewrite !map_length; reflexivity).
  pose proof (loop_known _ _ _ (times f) L steps [] None None Cl (fun i k F _ => F) E) as K. cbn in K.
  intros i k Si W. pose proof (proj1 W) as K'. apply I in K'. destruct (In_nth ids k 0%nat K') as (j & J & Ej).
  apply (K i j); [apply Sel; exact Si|]. apply (wet_inundated f centroids polygon ids i j C I (proj1 Si)). split; [exact J|rewrite Ej; exact W].
Qed.
Print Assumptions C107_dry_partial.

(** The search ends with a result if the region, once wet, stays wet. *)
Theorem C107_ends_partial f polygon interval centroids n :
  consistent f centroids -> polygon <> Some [] -> not_only_first f centroids polygon interval ->
  select_times (times f) interval <> None ->
  (forall i, selected f interval i -> (i < n)%nat -> forall k, ~ inundated f centroids polygon i k) ->
  (forall i, selected f interval i -> (n <= i)%nat -> exists k, inundated f centroids polygon i k) ->
  maximum_inundation f polygon interval centroids <> None.
Proof.
  intros C P H Ne Dry Wet. unfold maximum_inundation.
  destruct (restrict_some f centroids polygon C P) as (ids & So & I & Er). rewrite Er.
  destruct (select_times (times f) interval) as [steps|] eqn:Es; [|congruence].
  destruct (select_some f interval steps Es) as [St Sel].
  pose proof (clear_steps f centroids polygon interval ids steps C So I Sel H) as Cl.
  assert (L : length (map (fun k => nth k (places f centroids) (0, 0)) ids) = length (map (at_ (fst (read_values f centroids))) ids)) by (rewrite !map_length; reflexivity).
  assert (D : exists l1 l2, steps = l1 ++ l2 /\ (forall i, In i l1 -> (i < n)%nat) /\ (forall i, In i l2 -> (n <= i)%nat)).
  { clear -St. induction St as [|a l St IH F]; [exists [], []; repeat split; intros i []|].
    destruct (le_lt_dec n a) as [G|G].
    - exists [], (a :: l). split; [reflexivity|]. split; [intros i []|]. intros i [<-|K]; [exact G|]. rewrite Forall_forall in F. specialize (F i K). lia.
    - destruct IH as (l1 & l2 & -> & A & B). exists (a :: l1), l2. split; [reflexivity|]. split; [|exact B]. intros i [<-|K]; [exact G|exact (A i K)]. }
  destruct D as (l1 & l2 & Ed & A & B). rewrite Ed, fold_left_app. rewrite loop_dry.
  - destruct (loop_wet _ _ (map (fun row => map (at_ row) ids) (snd (read_values f centroids))) (times f) L l2 None) as (b & Eb & _).
    + intros i K. assert (Ii : In i steps) by (rewrite Ed; apply in_app_iff; right; exact K). apply (Cl i Ii).
      pose proof (proj1 (Sel i) Ii) as Si. destruct (Wet i Si (B i K)) as [k W].
      pose proof (proj1 W) as K'. apply I in K'. destruct (In_nth ids k 0%nat K') as (j & J & Ej).
      exists j. apply (wet_inundated f centroids polygon ids i j C I (proj1 Si)). split; [exact J|rewrite Ej; exact W].
    + intros X. assert (Y : Some b = None) by (rewrite <- Eb; exact X). discriminate.
  - intros i j K W. assert (Ii : In i steps) by (rewrite Ed; apply in_app_iff; left; exact K). pose proof (proj1 (Sel i) Ii) as Si.
    apply (wet_inundated f centroids polygon ids i j C I (proj1 Si)) in W as [J W]. exact (Dry i Si (A i K) _ W).
Qed.
Print Assumptions C107_ends_partial.

(** Wet at one time and dry at a later one: None is compared with a number. *)
Theorem C107_dries_refuted f polygon interval centroids i1 i2 :
  consistent f centroids -> polygon <> Some [] -> not_only_first f centroids polygon interval ->
  selected f interval i1 -> selected f interval i2 -> (i1 < i2)%nat ->
  (exists k, inundated f centroids polygon i1 k) -> (forall k, ~ inundated f centroids polygon i2 k) ->
  maximum_inundation f polygon interval centroids = None.
Proof.
  intros C P H S1 S2 Lt [k1 W1] D2. unfold maximum_inundation.
  destruct (restrict_some f centroids polygon C P) as (ids & So & I & Er). rewrite Er.
  destruct (select_times (times f) interval) as [steps|] eqn:Es; [|reflexivity].
  destruct (select_some f interval steps Es) as [St Sel].
  pose proof (clear_steps f centroids polygon interval ids steps C So I Sel H) as Cl.
  assert (L : length (map (fun k => nth k (places f centroids) (0, 0)) ids) = length (map (at_ (fst (read_values f centroids))) ids)) by (rewrite !map_length; reflexivity).
  pose proof (proj2 (Sel i2) S2) as I2. destruct (in_split i2 steps I2) as (l1 & l2 & Ed).
  pose proof (before_less steps St l1 i2 l2 i1 Ed (proj2 (Sel i1) S1) Lt) as I1.
  rewrite Ed, fold_left_app. cbn [fold_left].
  match goal with |- context [fold_left ?g l1 ?a] => destruct (fold_left g l1 a) as [b|] eqn:E1 end; [|apply fold_none].
  assert (N : b <> None).
  { intros ->. assert (Cl1 : forall i, In i l1 -> clear (map (at_ (fst (read_values f centroids))) ids) (map (fun row => map (at_ row) ids) (snd (read_values f centroids))) i) by (intros i K; apply Cl; rewrite Ed; apply in_app_iff; left; exact K).
    pose proof (loop_known _ _ _ (times f) L l1 [] None None Cl1 (fun i k F _ => F) E1) as K. cbn in K.
    pose proof (proj1 W1) as K'. apply I in K'. destruct (In_nth ids k1 0%nat K') as (j & J & Ej).
    apply (K i1 j I1). apply (wet_inundated f centroids polygon ids i1 j C I (proj1 S1)). split; [exact J|rewrite Ej; exact W1]. }
  destruct b as [b|]; [|congruence]. rewrite step_dry; [apply fold_none|].
  destruct (wet_nodes _ _) as [|j l] eqn:E; [reflexivity|]. exfalso.
  assert (W : wet (map (at_ (fst (read_values f centroids))) ids) (map (fun row => map (at_ row) ids) (snd (read_values f centroids))) i2 j) by (unfold wet; rewrite E; left; reflexivity).
  apply (wet_inundated f centroids polygon ids i2 j C I (proj1 S2)) in W as [_ W]. exact (D2 _ W).
Qed.
Print Assumptions C107_dries_refuted.

(** If only the first point is inundated, then the run is called dry. *)
Theorem C107_first_point_refuted f polygon interval centroids :
  consistent f centroids -> polygon <> Some [] -> select_times (times f) interval <> None ->
  (forall i k, selected f interval i -> inundated f centroids polygon i k -> forall k0, chosen f centroids polygon k0 -> (k <= k0)%nat) ->
  maximum_inundation f polygon interval centroids = Some None.
Proof.
  intros C P Ne H. unfold maximum_inundation.
  destruct (restrict_some f centroids polygon C P) as (ids & So & I & Er). rewrite Er.
  destruct (select_times (times f) interval) as [steps|] eqn:Es; [|congruence].
  destruct (select_some f interval steps Es) as [_ Sel].
  assert (Z : forall i, In i steps -> forallb (fun k => (k =? 0)%nat) (wet_nodes (map (at_ (fst (read_values f centroids))) ids) (nth i (map (fun row => map (at_ row) ids) (snd (read_values f centroids))) [])) = true).
  { intros i Ii. apply Sel in Ii. apply all_zero. intros j W.
    apply (wet_inundated f centroids polygon ids i j C I (proj1 Ii)) in W as [J W].
    destruct (Nat.eq_dec j 0) as [->|N]; [reflexivity|]. pose proof (sorted_first ids So j J N) as Lt.
    assert (K0 : chosen f centroids polygon (nth 0 ids 0%nat)) by (apply I, nth_In; lia).
    specialize (H i _ Ii W _ K0). lia. }
  clear Sel Es Ne. induction steps as [|i steps IH]; [reflexivity|]. cbn [fold_left].
  unfold step at 2. rewrite (Z i (or_introl eq_refl)). apply IH. intros i' K. apply Z. right; exact K.
Qed.
Print Assumptions C107_first_point_refuted.

(** An interval that holds only the first time is refused. *)
Theorem C107_first_time_refuted f polygon t0 t1 centroids :
  (forall i, selected f (Some (t0, t1)) i -> i = 0%nat) -> maximum_inundation f polygon (Some (t0, t1)) centroids = None.
Proof.
  intros H. unfold maximum_inundation. destruct (select_times (times f) (Some (t0, t1))) as [steps|] eqn:Es.
  - exfalso. pose proof (proj2 (select_some f (Some (t0, t1)) steps Es)) as Sel. unfold select_times in Es.
    destruct (Rltb t1 t0); [discriminate|]. destruct (times f) as [|first rest] eqn:Et; [discriminate|].
    destruct (Rltb t1 first || _); [discriminate|].
    destruct (forallb _ _) eqn:F; [discriminate|]. 
    assert (G : steps = filter (fun i => Rleb t0 (at_ (first :: rest) i) && Rleb (at_ (first :: rest) i) t1) (seq 0 (length (first :: rest)))) by congruence.
    rewrite <- G in F. assert (T : forallb (fun i => (i =? 0)%nat) steps = true) by (apply all_zero; intros i K; apply H, Sel; exact K).
    congruence.
  - destruct (restrict f centroids polygon) as [[[a b] c]|]; reflexivity.
Qed.
Print Assumptions C107_first_time_refuted.

(** A case: three nodes on a slope; the second is reached at the second time,
    the third never. *)
Definition slope (s : list (list R)) : sww :=
  {| nodes := [(0, 0); (1, 0); (2, 0)]; corner := (10, 20); volumes := []; times := [0; 5; 7];
     elevation_v := [0; 1; 2]; stage_v := s; centroid_values := None |}.
Definition rising : sww := slope [[0; 1; 2]; [3 / 2; 3 / 2; 2]; [3 / 2; 3 / 2; 2]].
Example C107_case : maximum_inundation rising None None false = Some (Some (1, (1 + 10, 0 + 20), 5)).
Proof.
  unfold maximum_inundation. cbn [restrict rising slope read_values centroid_values places nodes corner map combine times select_times length seq fold_left elevation_v stage_v].
  unfold step at 3, wet_nodes. cbn [nth seq length filter at_]. unfold at_. cbn [nth]. rdecide. cbn [forallb].
  unfold step at 2, wet_nodes. cbn [nth seq length filter]. unfold at_. cbn [nth]. rdecide. cbn [forallb Nat.eqb andb map argbest argbest_from].
  unfold greater. cbn [nth]. rdecide. cbn [nth take_all forallb length Nat.ltb Nat.leb andb map].
  unfold step at 1, wet_nodes. cbn [nth seq length filter]. unfold at_. cbn [nth]. rdecide. cbn [forallb Nat.eqb andb map argbest argbest_from].
  unfold greater. cbn [nth]. rdecide. reflexivity.
Qed.
Lemma slope_consistent a b c : length a = 3%nat -> length b = 3%nat -> length c = 3%nat -> consistent (slope [a; b; c]) false.
Proof. intros A B C. split; [reflexivity|]. split; [reflexivity|]. intros row [<-|[<-|[<-|[]]]]; assumption. Qed.
Example C107_case_conditions : consistent rising false /\ not_only_first rising false None None.
Proof.
  split; [apply slope_consistent; reflexivity|].
  intros i Si [k [K W]]. exists 1%nat, 0%nat. split; [|split; [split; [simpl; lia|exact I]|lia]].
  split; [split; [simpl; lia|exact I]|].
  destruct Si as [Si _]. simpl in Si, W. destruct K as [K _]. simpl in K.
  destruct i as [|[|[|i]]]; [|unfold at_; simpl; lra|unfold at_; simpl; lra|lia].
  exfalso. destruct k as [|[|[|k]]]; unfold at_ in W; simpl in W; try lra; lia.
Qed.
(** Falling water: wet at the first time, dry at the second *)
Example C107_dries_case : maximum_inundation (slope [[3; 3; 3]; [0; 1; 2]; [0; 1; 2]]) None None false = None.
Proof.
  apply (C107_dries_refuted _ None None false 0%nat 1%nat).
  - apply slope_consistent; reflexivity.
  - discriminate.
  - intros i Si [k [K W]]. exists 1%nat, 0%nat. split; [|split; [split; [simpl; lia|exact I]|lia]].
    split; [split; [simpl; lia|exact I]|].
    destruct Si as [Si _]. simpl in Si, W. destruct K as [K _]. simpl in K.
    destruct i as [|[|[|i]]]; [unfold at_; simpl; lra| | |lia]; exfalso; destruct k as [|[|[|k]]]; unfold at_ in W; simpl in W; try lra; lia.
  - split; [simpl; lia|exact I].
  - split; [simpl; lia|exact I].
  - lia.
  - exists 1%nat. split; [split; [simpl; lia|exact I]|unfold at_; simpl; lra].
  - intros k [[K _] W]. simpl in K, W. destruct k as [|[|[|k]]]; unfold at_ in W; simpl in W; try lra; lia.
Qed.
(** Water at the first node only *)
Example C107_first_point_case : exists f, inundated f false None 1%nat 0%nat /\ maximum_inundation f None None false = Some None.
Proof.
  exists (slope [[0; 0; 0]; [1; 0; 0]; [1; 0; 0]]). split; [split; [split; [simpl; lia|exact I]|unfold at_; simpl; lra]|].
  apply C107_first_point_refuted; [apply slope_consistent; reflexivity|discriminate|discriminate|].
  intros i k Si [[K _] W] k0 _. simpl in K, W. destruct Si as [Si _]. simpl in Si.
  destruct k as [|k]; [lia|]. exfalso.
  destruct i as [|[|[|i]]]; [| | |lia]; destruct k as [|[|k]]; unfold at_ in W; simpl in W; try lra; lia.
Qed.
Example C107_first_time_case : maximum_inundation rising None (Some (-1, 1)) false = None /\ selected rising (Some (-1, 1)) 0%nat.
Proof.
  split; [apply C107_first_time_refuted|split; [simpl; lia|unfold at_; simpl; lra]].
  intros i [Si T]. simpl in Si. destruct i as [|[|[|i]]]; [reflexivity| | |lia]; unfold at_ in T; simpl in T; lra.
Qed.

(** With values at centroids in the file, the search at nodes mixes them with
    the places of nodes. *)
Definition mixed : sww :=
  {| nodes := [(0, 0); (3, 0); (0, 3); (3, 3)]; corner := (0, 0); volumes := [(0, 1, 2); (1, 3, 2)]%nat; times := [0];
     elevation_v := [0; 0; 0; 0]; stage_v := [[1; 1; 1; 1]]; centroid_values := Some ([0; 0], [[0; 1]]) |}.
Theorem C107_nodes_refuted : exists r p t, maximum_inundation mixed None None false = Some (Some (r, p, t)) /\
  nth 1 (places mixed true) (0, 0) = (2, 2) /\ p = (3, 0).
Proof.
  exists 0, (3 + 0, 0 + 0), 0. split; [|split; [unfold places, mean3, at_; simpl; f_equal; field|f_equal; ring]].
  unfold maximum_inundation. cbn [restrict mixed read_values centroid_values places nodes corner map combine times select_times length seq fold_left].
  unfold step, wet_nodes. cbn [nth seq length filter]. unfold at_. cbn [nth]. rdecide. cbn [forallb Nat.eqb andb map argbest argbest_from nth take_all length Nat.ltb Nat.leb].
  reflexivity.
Qed.
Print Assumptions C107_nodes_refuted.

(** The methods of the domain: the highest triangle that is deeper than the
    minimum height *)
Theorem C107_domain_partial coords elevation stage h :
  length coords = length elevation -> (exists k, (k < length elevation)%nat /\ h < at_ stage k - at_ elevation k) ->
  exists k, (k < length elevation)%nat /\ h < at_ stage k - at_ elevation k /\
    get_maximum_inundation_elevation elevation stage None h = Some (at_ elevation k) /\
    get_maximum_inundation_location coords elevation stage None h = Some (nth k coords (0, 0)) /\
    forall k', (k' < length elevation)%nat -> h < at_ stage k' - at_ elevation k' -> at_ elevation k' <= at_ elevation k.
Proof.
  intros Lc [k0 [K0 W0]].
  assert (In_wet : forall k, In k (get_wet_elements elevation stage None h) <-> (k < length elevation)%nat /\ h < at_ stage k - at_ elevation k).
  { intros k. unfold get_wet_elements. rewrite map_length, seq_length, filter_In, in_seq, Rltb_true.
    assert (Z : (k < length elevation)%nat -> at_ (map (fun k => at_ stage k - at_ elevation k) (seq 0 (length elevation))) k = at_ stage k - at_ elevation k).
    { intros K. rewrite at_map by (rewrite seq_length; exact K). rewrite seq_nth by exact K. reflexivity. }
    split; intros [A B]; [rewrite Z in B by lia; split; [lia|exact B]|rewrite Z by exact A; split; [lia|exact B]]. }
  assert (Ok : indices_ok (Some (get_wet_elements elevation stage None h)) (length elevation)).
  { split; [|intros i K; apply In_wet in K; exact (proj1 K)]. intros E. assert (K : In k0 []) by (rewrite <- E; apply In_wet; split; assumption). destruct K. }
  destruct (extremum_index_spec greater elevation _ greater_strict Ok) as (k & v & E & M & V & Best). cbn [monitored] in M, Best.
  apply In_wet in M as [K W]. exists k. split; [exact K|]. split; [exact W|].
  assert (A : at_ elevation k = v) by (unfold at_; apply nth_error_nth; exact V).
  split; [unfold get_maximum_inundation_elevation, get_extremum_value; rewrite E, A; exact V|].
  split; [unfold get_maximum_inundation_location, get_extremum_location; rewrite E; apply nth_error_nth'; unfold point in *; lia|].
  intros k' K' W'. rewrite A.
  assert (N : nth_error elevation k' = Some (at_ elevation k')) by (apply nth_error_nth'; exact K').
  specialize (Best k' _ (proj2 (In_wet k') (conj K' W')) N). unfold greater in Best. apply Rltb_false in Best. lra.
Qed.
Print Assumptions C107_domain_partial.
Example C107_domain_case : exists k, get_maximum_inundation_elevation [0; 1; 2] [2; 2; 2] None (/ 1000) = Some (at_ [0; 1; 2] k) /\ k = 1%nat.
Proof.
  destruct (C107_domain_partial [(0, 0); (1, 0); (2, 0)] [0; 1; 2] [2; 2; 2] (/ 1000) eq_refl) as (k & K & W & E & _ & M).
  { exists 0%nat. split; [simpl; lia|unfold at_; simpl; lra]. }
  exists k. split; [exact E|]. simpl in K. specialize (M 1%nat ltac:(simpl; lia) ltac:(unfold at_; simpl; lra)).
  destruct k as [|[|[|k]]]; unfold at_ in *; simpl in *; [lra|reflexivity|lra|lia].
Qed.
(** With a list of triangles, positions in the list are taken for numbers of
    triangles: the elevation of the dry triangle 0 is returned for the list of
    triangle 2 only. *)
Theorem C107_domain_indices_refuted : get_maximum_inundation_elevation [9; 1; 2] [0; 1; 3] (Some [2]%nat) (/ 1000) = Some 9.
Proof.
  unfold get_maximum_inundation_elevation, get_wet_elements. cbn [map length seq filter]. unfold at_. cbn [nth]. rdecide. reflexivity.
Qed.
Print Assumptions C107_domain_indices_refuted.

(** A polygon without points is refused, whatever the file and the interval. *)
Theorem C107_empty_polygon f interval centroids : maximum_inundation f (Some []) interval centroids = None.
Proof. unfold maximum_inundation, restrict. destruct (read_values f centroids). reflexivity. Qed.
Print Assumptions C107_empty_polygon.
