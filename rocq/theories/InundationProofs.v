(** Lemmas about the search for the highest inundated point *)
From Coq Require Import Reals List Arith Bool Lia Lra Sorted.
From Verif Require Import RealLib PolygonModel RegionProofs ExtremaModel ExtremaProofs InundationModel.
Import ListNotations.
Local Open Scope R_scope.

Lemma in_wet e row k : In k (wet_nodes e row) <-> (k < length e)%nat /\ at_ e k < at_ row k.
Proof.
  unfold wet_nodes. rewrite filter_In, in_seq, Rltb_true.
  split; intros [H K]; (split; [lia|lra]).
Qed.
Lemma all_zero l : forallb (fun k => (k =? 0)%nat) l = true <-> forall k, In k l -> k = 0%nat.
Proof. rewrite forallb_forall. split; intros H k K; specialize (H k K); apply Nat.eqb_eq; exact H. Qed.
Lemma take_some {A} (d : A) l ids : (forall k, In k ids -> (k < length l)%nat) -> take_all d l ids = Some (map (fun k => nth k l d) ids).
Proof.
  intros H. unfold take_all. replace (forallb (fun k => (k <? length l)%nat) ids) with true; [reflexivity|].
  symmetry. apply forallb_forall. intros k K. apply Nat.ltb_lt. apply H. exact K.
Qed.
Lemma nth_map_in {A B} (g : A -> B) l j a b : (j < length l)%nat -> nth j (map g l) b = g (nth j l a).
Proof. intros H. rewrite (nth_indep _ b (g a)) by (rewrite map_length; exact H). apply map_nth. Qed.

(** One time, for as many places as values *)
Lemma step_dry points e s ts b i : wet_nodes e (nth i s []) = [] ->
  step points e s ts (Some b) i = match b with None => Some None | Some _ => None end.
Proof. intros H. unfold step. rewrite H. reflexivity. Qed.
Lemma step_wet points e s ts b i : length points = length e ->
  (exists k, In k (wet_nodes e (nth i s [])) /\ k <> 0%nat) ->
  exists k, In k (wet_nodes e (nth i s [])) /\ (forall k', In k' (wet_nodes e (nth i s [])) -> at_ e k' <= at_ e k) /\
    step points e s ts (Some b) i =
      if match b with None => true | Some (m, _, _) => Rltb m (at_ e k) end then Some (Some (at_ e k, nth k points (0, 0), at_ ts i)) else Some b.
Proof.
  intros L [k0 [K0 Z0]]. remember (wet_nodes e (nth i s [])) as wet eqn:Ew.
  assert (F : forallb (fun k => (k =? 0)%nat) wet = false).
  { destruct (forallb _ wet) eqn:F; [|reflexivity]. exfalso. apply Z0. exact (proj1 (all_zero wet) F k0 K0). }
  assert (N : map (at_ e) wet <> []) by (destruct wet; [destruct K0|discriminate]).
  destruct (argbest_spec greater (map (at_ e) wet) greater_strict N) as (j & v & Ej & Vj & M).
  assert (J : (j < length wet)%nat).
  { rewrite <- (map_length (at_ e) wet). apply nth_error_Some. rewrite Vj. discriminate. }
  assert (V : v = at_ e (nth j wet 0%nat)).
  { rewrite <- (nth_map_in (at_ e) wet j 0%nat 0 J). symmetry. apply nth_error_nth. exact Vj. }
  exists (nth j wet 0%nat). split; [apply nth_In; exact J|]. split.
  - intros k' K'. specialize (M (at_ e k') (in_map (at_ e) wet k' K')). unfold greater in M. apply Rltb_false in M. lra.
  - unfold step. rewrite <- Ew, F, Ej.
    assert (A : at_ (map (at_ e) wet) j = at_ e (nth j wet 0%nat)) by exact (nth_map_in (at_ e) wet j 0%nat 0 J). rewrite A.
    destruct (match b with None => true | Some (m, _, _) => Rltb m (at_ e (nth j wet 0%nat)) end); [|reflexivity].
    rewrite take_some; [|intros k K; rewrite Ew in K; pose proof (proj1 (proj1 (in_wet _ _ _) K)); unfold point in *; lia].
    f_equal. f_equal. f_equal. f_equal. exact (nth_map_in (fun k => nth k points (0, 0)) wet j 0%nat (0, 0) J).
Qed.

Section Loop.
Variables (points : list point) (e : list R) (s : list (list R)) (ts : list R).
Definition wet (i k : nat) : Prop := In k (wet_nodes e (nth i s [])).
(** What is known of the best after the times [done] *)
Definition known (b : best) (done : list nat) : Prop :=
  match b with
  | None => forall i k, In i done -> ~ wet i k
  | Some (r, p, t) =>
      exists before i after k, done = before ++ i :: after /\ wet i k /\ r = at_ e k /\ p = nth k points (0, 0) /\ t = at_ ts i /\
        (forall i' k', In i' done -> wet i' k' -> at_ e k' <= r) /\
        (forall i' k', In i' before -> wet i' k' -> at_ e k' < r)
  end.
Definition clear (i : nat) : Prop := (exists k, wet i k) -> exists k, wet i k /\ k <> 0%nat.

Lemma step_none i : step points e s ts None i = None.
Proof. reflexivity. Qed.
Lemma fold_none steps : fold_left (step points e s ts) steps None = None.
Proof. induction steps as [|i steps IH]; [reflexivity|exact IH]. Qed.

Lemma step_known b done i b' : length points = length e -> clear i -> known b done ->
  step points e s ts (Some b) i = Some b' -> known b' (done ++ [i]).
Proof.
  intros L C Kn E.
  destruct (wet_nodes e (nth i s [])) as [|w0 l] eqn:Ew.
  - rewrite (step_dry points e s ts b i Ew) in E. destruct b as [b|]; [discriminate|]. injection E; intros <-.
    intros i' k I W. apply in_app_iff in I as [I|[<-|[]]]; [exact (Kn i' k I W)|]. unfold wet in W. rewrite Ew in W. destruct W.
  - assert (X : exists k, In k (wet_nodes e (nth i s [])) /\ k <> 0%nat).
    { apply C. exists w0. unfold wet. rewrite Ew. left; reflexivity. }
    destruct (step_wet points e s ts b i L X) as (k & K & M & Es). rewrite Es in E.
    destruct b as [[[m p] t]|].
    + destruct (Rltb m (at_ e k)) eqn:D.
      * apply Rltb_true in D. injection E; intros <-. cbn.
        destruct Kn as (before & i0 & after & k0 & _ & _ & _ & _ & _ & All & _).
        exists done, i, [], k. repeat split; try reflexivity; [exact K| |].
        -- intros i' k' I W. apply in_app_iff in I as [I|[<-|[]]]; [specialize (All i' k' I W); lra|exact (M k' W)].
        -- intros i' k' I W. specialize (All i' k' I W). lra.
      * apply Rltb_false in D. injection E; intros <-. cbn.
        destruct Kn as (before & i0 & after & k0 & Ed & W0 & E1 & E2 & E3 & All & Bef).
        exists before, i0, (after ++ [i]), k0. split; [rewrite Ed, <- app_assoc; reflexivity|]. repeat split; try assumption.
        intros i' k' I W. apply in_app_iff in I as [I|[<-|[]]]; [exact (All i' k' I W)|]. specialize (M k' W). lra.
    + injection E; intros <-. cbn. exists done, i, [], k. repeat split; try reflexivity; [exact K| |].
      * intros i' k' I W. apply in_app_iff in I as [I|[<-|[]]]; [exfalso; exact (Kn i' k' I W)|exact (M k' W)].
      * intros i' k' I W. exfalso. exact (Kn i' k' I W).
Qed.
Lemma loop_known : length points = length e -> forall steps done b b', (forall i, In i steps -> clear i) -> known b done ->
  fold_left (step points e s ts) steps (Some b) = Some b' -> known b' (done ++ steps).
Proof.
  intros L. induction steps as [|i steps IH]; intros done b b' C Kn E.
  - injection E; intros <-. rewrite app_nil_r. exact Kn.
  - cbn [fold_left] in E. destruct (step points e s ts (Some b) i) as [b1|] eqn:E1; [|rewrite fold_none in E; discriminate].
    replace (done ++ i :: steps) with ((done ++ [i]) ++ steps) by (rewrite <- app_assoc; reflexivity).
    apply (IH (done ++ [i]) b1 b'); [intros i' I; apply C; right; exact I| |exact E].
    apply (step_known b done i b1 L); [apply C; left; reflexivity|exact Kn|exact E1].
Qed.
Lemma loop_dry steps : (forall i k, In i steps -> ~ wet i k) -> fold_left (step points e s ts) steps (Some None) = Some None.
Proof.
  induction steps as [|i steps IH]; intros H; [reflexivity|]. cbn [fold_left]. rewrite step_dry.
  - apply IH. intros i' k I. apply H. right; exact I.
  - destruct (wet_nodes e (nth i s [])) as [|k l] eqn:E; [reflexivity|]. exfalso. apply (H i k); [left; reflexivity|]. unfold wet. rewrite E. left; reflexivity.
Qed.
Lemma loop_wet : length points = length e -> forall steps b, (forall i, In i steps -> exists k, wet i k /\ k <> 0%nat) ->
  exists b', fold_left (step points e s ts) steps (Some b) = Some b' /\ (steps <> [] -> b' <> None).
Proof.
  intros L. induction steps as [|i steps IH]; intros b H; [exists b; split; [reflexivity|congruence]|].
  cbn [fold_left]. destruct (step_wet points e s ts b i L (H i (or_introl eq_refl))) as (k & K & M & Es).
  assert (H' : forall i', In i' steps -> exists k, wet i' k /\ k <> 0%nat) by (intros i' I; apply H; right; exact I).
  assert (Z : exists b1, step points e s ts (Some b) i = Some (Some b1)).
  { rewrite Es. destruct b as [[[m p] t]|]; [|eexists; reflexivity]. destruct (Rltb m (at_ e k)); eexists; reflexivity. }
  destruct Z as [b1 Z]. rewrite Z. destruct (IH (Some b1) H') as [b' [E1 E2]]. exists b'. split; [exact E1|]. intros _.
  destruct steps as [|i2 steps]; [injection E1; intros <-; discriminate|apply E2; discriminate].
Qed.
End Loop.

(** The restriction to a polygon *)
Definition chosen (f : sww) (centroids : bool) (polygon : option (list point)) (k : nat) : Prop :=
  (k < length (places f centroids))%nat /\
  match polygon with None => True | Some polygon => point_inside polygon true (nth k (places f centroids) (0, 0)) = true end.
Definition consistent (f : sww) (centroids : bool) : Prop :=
  length (fst (read_values f centroids)) = length (places f centroids) /\
  length (snd (read_values f centroids)) = length (times f) /\
  forall row, In row (snd (read_values f centroids)) -> length row = length (places f centroids).
Lemma all_rows_some rows ids : (forall row k, In row rows -> In k ids -> (k < length row)%nat) ->
  all_rows rows ids = Some (map (fun row => map (at_ row) ids) rows).
Proof.
  induction rows as [|row rows IH]; intros H; [reflexivity|]. cbn [all_rows]. rewrite take_some; [|intros k K; apply H; [left; reflexivity|exact K]].
  rewrite IH; [reflexivity|]. intros r k I K. apply H; [right; exact I|exact K].
Qed.
Lemma map_nth_all {A} (l : list A) d : map (fun k => nth k l d) (seq 0 (length l)) = l.
Proof.
  induction l as [|a l IH]; [reflexivity|]. cbn [length seq map nth]. f_equal. rewrite <- seq_shift, map_map. exact IH.
Qed.
Lemma restrict_some f centroids polygon : consistent f centroids -> polygon <> Some [] ->
  exists ids, StronglySorted lt ids /\ (forall k, In k ids <-> chosen f centroids polygon k) /\
    restrict f centroids polygon =
      Some (map (fun k => nth k (places f centroids) (0, 0)) ids, map (at_ (fst (read_values f centroids))) ids,
            map (fun row => map (at_ row) ids) (snd (read_values f centroids))).
Proof.
  intros (C1 & C2 & C3) P. unfold restrict. destruct (read_values f centroids) as [e s] eqn:Er. cbn [fst snd] in *.
  destruct polygon as [[|p polygon]|]; [exfalso; apply P; reflexivity| |].
  - exists (inside_polygon (places f centroids) (p :: polygon) true). split; [apply inside_sorted|].
    split; [intros k; apply inside_in|].
    assert (B : forall k, In k (inside_polygon (places f centroids) (p :: polygon) true) -> (k < length (places f centroids))%nat) by (intros k K; apply inside_in in K; exact (proj1 K)).
    rewrite take_some by (rewrite C1; exact B). rewrite all_rows_some; [|intros row k I K; rewrite (C3 row I); exact (B k K)].
    rewrite take_some by exact B. reflexivity.
  - exists (seq 0 (length (places f centroids))). split; [apply seq_sorted|].
    split; [intros k; rewrite in_seq; unfold chosen; intuition lia|].
    rewrite map_nth_all. f_equal. f_equal; [f_equal|].
    + rewrite <- C1. symmetry. exact (map_nth_all e 0).
    + rewrite <- (map_id s) at 1. apply map_ext_in. intros row I. rewrite <- (C3 row I). symmetry. exact (map_nth_all row 0).
Qed.
Lemma sorted_first ids : StronglySorted lt ids -> forall j, (j < length ids)%nat -> j <> 0%nat -> (nth 0 ids 0 < nth j ids 0)%nat.
Proof.
  intros H j J Z. destruct ids as [|a ids]; [simpl in J; lia|]. destruct j as [|j]; [congruence|].
  apply StronglySorted_inv in H as [_ H]. rewrite Forall_forall in H. cbn [nth]. apply H. apply nth_In. simpl in J. lia.
Qed.

(** The times that are looked at *)
Definition selected (f : sww) (interval : option (R * R)) (i : nat) : Prop :=
  (i < length (times f))%nat /\ match interval with None => True | Some (t0, t1) => t0 <= at_ (times f) i <= t1 end.
Lemma select_some f interval steps : select_times (times f) interval = Some steps ->
  StronglySorted lt steps /\ forall i, In i steps <-> selected f interval i.
Proof.
  unfold select_times, selected. destruct interval as [[t0 t1]|].
  - destruct (Rltb t1 t0); [discriminate|]. destruct (times f) as [|first rest]; [discriminate|]. remember (first :: rest) as ts eqn:Et. clear Et.
    destruct (Rltb t1 first || _); [discriminate|].
    destruct (forallb _ _); [discriminate|]. intros E. injection E; intros <-. split.
    + apply filter_sorted, seq_sorted.
    + intros i. rewrite filter_In, in_seq, andb_true_iff, !Rleb_true. intuition lia.
  - intros E. injection E; intros <-. split; [apply seq_sorted|]. intros i. rewrite in_seq. intuition lia.
Qed.

Lemma at_map (g : nat -> R) ids j : (j < length ids)%nat -> at_ (map g ids) j = g (nth j ids 0%nat).
Proof. intros J. exact (nth_map_in g ids j 0%nat 0 J). Qed.
(** The point [k] is inundated at the time [i] *)
Definition inundated (f : sww) (centroids : bool) (polygon : option (list point)) (i k : nat) : Prop :=
  chosen f centroids polygon k /\ at_ (fst (read_values f centroids)) k < at_ (nth i (snd (read_values f centroids)) []) k.
Lemma wet_inundated f centroids polygon ids i j : consistent f centroids -> (forall k, In k ids <-> chosen f centroids polygon k) -> (i < length (times f))%nat ->
  wet (map (at_ (fst (read_values f centroids))) ids) (map (fun row => map (at_ row) ids) (snd (read_values f centroids))) i j <->
  (j < length ids)%nat /\ inundated f centroids polygon i (nth j ids 0%nat).
Proof.
  intros (C1 & C2 & C3) I L. unfold wet, inundated. rewrite in_wet, map_length.
  rewrite (nth_map_in (fun row => map (at_ row) ids) (snd (read_values f centroids)) i [] []) by lia.
  split; intros [J H].
  - rewrite !at_map in H by exact J. split; [exact J|]. split; [apply I, nth_In; exact J|exact H].
  - split; [exact J|]. rewrite !at_map by exact J. exact (proj2 H).
Qed.
Lemma before_less l : StronglySorted lt l -> forall before i after i', l = before ++ i :: after -> In i' l -> (i' < i)%nat -> In i' before.
Proof.
  intros H before i after i' -> I L. apply in_app_iff in I as [I|[E|I]]; [exact I|lia|]. exfalso.
  clear -H I L. induction before as [|a before IH].
  - apply StronglySorted_inv in H as [_ H]. rewrite Forall_forall in H. specialize (H i' I). lia.
  - apply StronglySorted_inv in H as [H _]. exact (IH H).
Qed.
