(** C104: composite quantity functions give every point the value of the pair
    that has priority (anuga/utilities/quantity_setting_functions.py). *)
From Coq Require Import Reals List Arith Bool Lra Lia Sorted Permutation.
From Verif Require Import RealLib ArrayLib PolygonModel PolygonProofs PolygonProps RegionProofs Interp2dModel CompositeModel CompositeProofs.
Import ListNotations.
Local Open Scope R_scope.

(** * Nearest neighbours *)

(** What cKDTree promises: [k] different points, the nearest first, no other
    point nearer. *)
Definition is_query (query : list point -> nat -> point -> list nat) : Prop :=
  forall points k z, (k <= length points)%nat ->
    let d i := distance z (nth i points (0, 0)) in
    let l := query points k z in
    length l = k /\ NoDup l /\ (forall i, In i l -> (i < length points)%nat) /\
    StronglySorted (fun i j => d i <= d j) l /\
    (forall i j, In i l -> (j < length points)%nat -> ~ In j l -> d i <= d j).

Definition total {A} (f : A -> R) (l : list A) : R := fold_right (fun a s => f a + s) 0 l.

Lemma fold_average l : forall a b,
  fold_left (fun '(numerator, denominator) dv => let inverse_distance := 1 / (fst dv + tiny) in
      (numerator + snd dv * inverse_distance, denominator + inverse_distance)) l (a, b) =
  (a + total (fun dv : R * R => snd dv * (1 / (fst dv + tiny))) l, b + total (fun dv : R * R => 1 / (fst dv + tiny)) l).
Proof.
  induction l as [|dv l IH]; intros a b; cbn [fold_left total fold_right]; [f_equal; ring|]. cbv zeta in *. rewrite IH.
  unfold total. f_equal; ring.
Qed.
Lemma fold_min (l : list (R * R)) : forall a,
  let m := fold_left (fun n dv => Rmin n (snd dv)) l a in
  m <= a /\ (forall dv, In dv l -> m <= snd dv) /\ (m = a \/ exists dv, In dv l /\ m = snd dv).
Proof.
  induction l as [|dv l IH]; intros a; cbn [fold_left].
  - split; [lra|]. split; [intros ? []|now left].
  - specialize (IH (Rmin a (snd dv))). cbv zeta in *. destruct IH as (A & B & C).
    pose proof (Rmin_l a (snd dv)). pose proof (Rmin_r a (snd dv)). split; [lra|]. split.
    + intros q [<-|I]; [lra|now apply B].
    + destruct C as [C|(q & I & C)]; [|right; exists q; cbn; auto]. rewrite C.
      destruct (Rle_dec a (snd dv)); [left; now apply Rmin_left|right; exists dv; split; [cbn; auto|apply Rmin_right; lra]].
Qed.
Lemma fold_max (l : list (R * R)) : forall a,
  let m := fold_left (fun n dv => Rmax n (snd dv)) l a in
  a <= m /\ (forall dv, In dv l -> snd dv <= m) /\ (m = a \/ exists dv, In dv l /\ m = snd dv).
Proof.
  induction l as [|dv l IH]; intros a; cbn [fold_left].
  - split; [lra|]. split; [intros ? []|now left].
  - specialize (IH (Rmax a (snd dv))). cbv zeta in *. destruct IH as (A & B & C).
    pose proof (Rmax_l a (snd dv)). pose proof (Rmax_r a (snd dv)). split; [lra|]. split.
    + intros q [<-|I]; [lra|now apply B].
    + destruct C as [C|(q & I & C)]; [|right; exists q; cbn; auto]. rewrite C.
      destruct (Rle_dec (snd dv) a); [left; now apply Rmax_left|right; exists dv; split; [cbn; auto|apply Rmax_right; lra]].
Qed.

Lemma distance_nonneg p q : 0 <= distance p q.
Proof. apply sqrt_pos. Qed.
Lemma tiny_pos : 0 < tiny.
Proof. apply Rinv_0_lt_compat, pow_lt. lra. Qed.

Lemma total_bounds (l : list (R * R)) lo hi : (forall dv, In dv l -> 0 <= fst dv) -> (forall dv, In dv l -> lo <= snd dv <= hi) ->
  lo * total (fun dv => 1 / (fst dv + tiny)) l <= total (fun dv => snd dv * (1 / (fst dv + tiny))) l <=
  hi * total (fun dv => 1 / (fst dv + tiny)) l.
Proof.
  induction l as [|dv l IH]; intros D B; cbn [total fold_right]; [lra|].
  destruct IH as (I1 & I2); [intros; apply D; cbn; auto|intros; apply B; cbn; auto|]. unfold total in I1, I2.
  assert (0 < 1 / (fst dv + tiny)).
  { apply Rdiv_lt_0_compat; [lra|]. specialize (D dv (or_introl eq_refl)). pose proof tiny_pos. lra. }
  specialize (B dv (or_introl eq_refl)). nra.
Qed.
Lemma total_pos (l : list (R * R)) : l <> [] -> (forall dv, In dv l -> 0 <= fst dv) -> 0 < total (fun dv => 1 / (fst dv + tiny)) l.
Proof.
  intros N D. destruct l as [|dv l]; [easy|]. cbn [total fold_right]. pose proof tiny_pos.
  assert (0 < 1 / (fst dv + tiny)) by (apply Rdiv_lt_0_compat; [lra|specialize (D dv (or_introl eq_refl)); lra]).
  assert (0 <= fold_right (fun dv s => 1 / (fst dv + tiny) + s) 0 l); [|lra].
  assert (DD : forall dv, In dv l -> 0 <= fst dv) by (intros; apply D; cbn; auto). clear -DD H. induction l as [|e l IH]; cbn; [lra|].
  assert (0 < 1 / (fst e + tiny)) by (apply Rdiv_lt_0_compat; [lra|specialize (DD e (or_introl eq_refl)); lra]).
  assert (0 <= fold_right (fun dv s => 1 / (fst dv + tiny) + s) 0 l); [|lra]. apply IH. intros; apply DD; cbn; auto.
Qed.

(** The value at a point: the background value if no data point is nearer than
    the threshold; otherwise, from the [k] nearest data points, the mean with
    weights 1/(distance + 1e-100), the minimum or the maximum; with fewer data
    points than neighbours an error. *)
Theorem C104_nearest query rows threshold background k m origin p : is_query query -> (1 <= k)%nat ->
  let z := (px p + px origin, py p + py origin) in
  let d i := distance z (fst (nth i rows ((0, 0), 0))) in
  let v i := snd (nth i rows ((0, 0), 0)) in
  ((forall i, (i < length rows)%nat -> threshold <= d i) -> nearest query rows threshold background k m origin p = Some background) /\
  ((exists i, (i < length rows)%nat /\ d i < threshold) -> (length rows < k)%nat -> nearest query rows threshold background k m origin p = None) /\
  ((exists i, (i < length rows)%nat /\ d i < threshold) -> (k <= length rows)%nat ->
     exists l r, nearest query rows threshold background k m origin p = Some r /\
       length l = k /\ NoDup l /\ (forall i, In i l -> (i < length rows)%nat) /\
       (forall i j, In i l -> (j < length rows)%nat -> ~ In j l -> d i <= d j) /\
       match m with
       | Average => r * total (fun i => 1 / (d i + tiny)) l = total (fun i => v i * (1 / (d i + tiny))) l /\
                    (forall lo hi, (forall i, In i l -> lo <= v i <= hi) -> lo <= r <= hi) /\
                    (k = 1%nat -> exists i, l = [i] /\ r = v i)
       | Min => r <= huge /\ (forall i, In i l -> r <= v i) /\ (r = huge \/ exists i, In i l /\ r = v i)
       | Max => - huge <= r /\ (forall i, In i l -> v i <= r) /\ (r = - huge \/ exists i, In i l /\ r = v i)
       end).
Proof.
  intros HQ K z d v. set (k' := Nat.min k (length rows)). set (l := query (map fst rows) k' z).
  assert (X : length l = k' /\ NoDup l /\ (forall i, In i l -> (i < length rows)%nat) /\
    StronglySorted (fun i j => d i <= d j) l /\ (forall i j, In i l -> (j < length rows)%nat -> ~ In j l -> d i <= d j)).
  { pose proof (HQ (map fst rows) k' z) as H. rewrite map_length in H. specialize (H ltac:(unfold k'; lia)). cbv zeta in H. fold l in H.
    assert (E : forall i, distance z (nth i (map fst rows) (0, 0)) = d i).
    { intros i. unfold d. f_equal. exact (map_nth fst rows ((0, 0), 0) i). }
    destruct H as (A & B & C & D & F). repeat split; auto.
    - clear -D E. induction D as [|i l D IH G]; constructor; [exact IH|]. rewrite Forall_forall in *. intros j J. rewrite <- !E. now apply G.
    - intros i j I J N. rewrite <- !E. now apply F. }
  destruct X as (L1 & L2 & L3 & L4 & L5).
  assert (EN : nearest query rows threshold background k m origin p =
    match map (fun i => (d i, v i)) l with
    | [] => Some background
    | (d0, _) :: _ => if Rltb d0 threshold then if (k <=? length rows)%nat then Some (neighbour_value m (map (fun i => (d i, v i)) l)) else None else Some background
    end) by reflexivity.
  assert (HD : forall i0 rest, l = i0 :: rest -> forall j, (j < length rows)%nat -> d i0 <= d j).
  { intros i0 rest E j J. destruct (in_dec Nat.eq_dec j l) as [I|I].
    - rewrite E in I, L4. destruct I as [<-|I]; [lra|]. inversion L4 as [|? ? ? G]. subst. rewrite Forall_forall in G. now apply G.
    - apply L5; auto. rewrite E. now left. }
  split; [|split].
  - intros F. rewrite EN. destruct l as [|i0 rest] eqn:El; [reflexivity|]. cbn [map].
    destruct (Rltb_spec (d i0) threshold); [|reflexivity]. exfalso. specialize (F i0 (L3 i0 (or_introl eq_refl))). lra.
  - intros (i & I & Di) Lk. rewrite EN. destruct l as [|i0 rest] eqn:El.
    { cbn in L1. unfold k' in L1. lia. }
    cbn [map]. specialize (HD i0 rest eq_refl i I). destruct (Rltb_spec (d i0) threshold); [|lra]. destruct (Nat.leb_spec k (length rows)); [lia|reflexivity].
  - intros (i & I & Di) Lk. assert (Ek : k' = k) by (unfold k'; lia). rewrite Ek in L1.
    exists l, (neighbour_value m (map (fun i => (d i, v i)) l)). split.
    { rewrite EN. destruct l as [|i0 rest] eqn:El; [cbn in L1; lia|]. cbn [map]. specialize (HD i0 rest eq_refl i I).
      destruct (Rltb_spec (d i0) threshold); [|lra]. destruct (Nat.leb_spec k (length rows)); [reflexivity|lia]. }
    do 4 (split; [assumption|]).
    assert (T : forall (f : R * R -> R) s, total f (map (fun i => (d i, v i)) s) = total (fun i => f (d i, v i)) s).
    { intros f s. induction s as [|a s IH]; [reflexivity|]. cbn. unfold total in IH. now rewrite IH. }
    assert (NE : map (fun i => (d i, v i)) l <> []) by (destruct l; [cbn in L1; lia|discriminate]).
    assert (DN : forall dv, In dv (map (fun i => (d i, v i)) l) -> 0 <= fst dv).
    { intros dv J. apply in_map_iff in J. destruct J as (j & <- & _). apply distance_nonneg. }
    pose proof (total_pos _ NE DN) as TP. destruct m; cbn [neighbour_value].
    + rewrite fold_average. rewrite !Rplus_0_l. cbn [fst snd]. split; [|split].
      * pose proof (T (fun dv => 1 / (fst dv + tiny)) l) as T1. pose proof (T (fun dv => snd dv * (1 / (fst dv + tiny))) l) as T2.
        cbn [fst snd] in T1, T2. rewrite T2. rewrite <- T1. field. lra.
      * intros lo hi B. pose proof (total_bounds (map (fun i => (d i, v i)) l) lo hi DN) as TB.
        destruct TB as (B1 & B2). { intros dv J. apply in_map_iff in J. destruct J as (j & <- & J). now apply B. }
        split; (apply Rmult_le_reg_r with (1 := TP));
          (replace (total (fun dv => snd dv * (1 / (fst dv + tiny))) (map (fun i => (d i, v i)) l) /
                    total (fun dv => 1 / (fst dv + tiny)) (map (fun i => (d i, v i)) l) *
                    total (fun dv => 1 / (fst dv + tiny)) (map (fun i => (d i, v i)) l))
           with (total (fun dv => snd dv * (1 / (fst dv + tiny))) (map (fun i => (d i, v i)) l)) by (field; lra)); assumption.
      * intros ->. destruct l as [|i0 [|]]; try discriminate L1. exists i0. split; [reflexivity|]. cbn [map total fold_right fst snd] in *. field.
        pose proof tiny_pos. pose proof (distance_nonneg z (fst (nth i0 rows (0, 0, 0)))) as Q. fold (d i0) in Q. lra.
    + pose proof (fold_min (map (fun i => (d i, v i)) l) huge) as F. cbv zeta in F. destruct F as (F1 & F2 & F3). split; [exact F1|]. split.
      * intros j J. apply (F2 (d j, v j)). apply in_map_iff. now exists j.
      * destruct F3 as [F3|(dv & J & F3)]; [now left|right]. apply in_map_iff in J. destruct J as (j & <- & J). now exists j.
    + pose proof (fold_max (map (fun i => (d i, v i)) l) (- huge)) as F. cbv zeta in F. destruct F as (F1 & F2 & F3). split; [exact F1|]. split.
      * intros j J. apply (F2 (d j, v j)). apply in_map_iff. now exists j.
      * destruct F3 as [F3|(dv & J & F3)]; [now left|right]. apply in_map_iff in J. destruct J as (j & <- & J). now exists j.
Qed.
Print Assumptions C104_nearest.

(** A query by sorting *)
Fixpoint insert (d : nat -> R) (i : nat) (l : list nat) : list nat :=
  match l with
  | [] => [i]
  | j :: rest => if Rltb (d j) (d i) then j :: insert d i rest else i :: l
  end.
Definition by_distance (d : nat -> R) (l : list nat) : list nat := fold_right (insert d) [] l.
Definition sort_query (points : list point) (k : nat) (z : point) : list nat :=
  firstn k (by_distance (fun i => distance z (nth i points (0, 0))) (seq 0 (length points))).

Lemma insert_perm d i l : Permutation (insert d i l) (i :: l).
Proof.
  induction l as [|j l IH]; cbn; [reflexivity|]. destruct Rltb; [|reflexivity]. rewrite IH. apply perm_swap.
Qed.
Lemma by_distance_perm d l : Permutation (by_distance d l) l.
Proof. induction l as [|i l IH]; cbn; [reflexivity|]. rewrite insert_perm. now apply perm_skip. Qed.
Lemma insert_sorted d i l : StronglySorted (fun i j => d i <= d j) l -> StronglySorted (fun i j => d i <= d j) (insert d i l).
Proof.
  induction 1 as [|j l H IH F]; cbn; [repeat constructor|]. destruct (Rltb_spec (d j) (d i)).
  - constructor; [exact IH|]. rewrite Forall_forall in *. intros x I. apply (Permutation_in _ (insert_perm d i l)) in I.
    destruct I as [<-|I]; [lra|now apply F].
  - constructor; [constructor; assumption|]. rewrite Forall_forall in *. intros x [<-|I]; [lra|]. specialize (F x I). lra.
Qed.
Lemma by_distance_sorted d l : StronglySorted (fun i j => d i <= d j) (by_distance d l).
Proof. induction l; cbn; [constructor|now apply insert_sorted]. Qed.

Lemma sort_query_is_query : is_query sort_query.
Proof.
  intros points k z K d l. set (s := by_distance d (seq 0 (length points))). change l with (firstn k s). clear l.
  assert (P : Permutation s (seq 0 (length points))) by apply by_distance_perm.
  assert (Hs : StronglySorted (fun i j => d i <= d j) s) by apply by_distance_sorted.
  pose proof (Permutation_length P) as L. rewrite seq_length in L.
  assert (N : NoDup s) by (apply (Permutation_NoDup (l := seq 0 (length points))); [now symmetry|apply seq_NoDup]).
  rewrite <- (firstn_skipn k s) in Hs, N, P.
  assert (SA : forall a b, StronglySorted (fun i j => d i <= d j) (a ++ b) ->
     StronglySorted (fun i j => d i <= d j) a /\ forall i j, In i a -> In j b -> d i <= d j).
  { clear. intros a b. induction a as [|x a IH]; cbn; intros H; [split; [constructor|intros ? ? []]|].
    inversion H as [|? ? H1 H2]. subst. destruct (IH H1) as (A & B). rewrite Forall_forall in H2. split.
    - constructor; [exact A|]. apply Forall_forall. intros y I. apply H2, in_or_app. now left.
    - intros i j [<-|I] J; [apply H2, in_or_app; now right|now apply B]. }
  destruct (SA _ _ Hs) as (S1 & S2). split; [apply firstn_length_le; rewrite L; exact K|]. split.
  { clear -N. revert N. generalize (firstn k s) (skipn k s). intros a b. induction a as [|x a IH]; cbn; intros N; [constructor|].
    inversion N as [|? ? N1 N2]. subst. constructor; [|now apply IH]. intros I. apply N1, in_or_app. now left. }
  split.
  { intros i I. assert (J : In i (seq 0 (length points))) by (apply (Permutation_in _ P), in_or_app; now left). apply in_seq in J. apply J. }
  split; [exact S1|]. intros i j I J NJ. apply S2; [exact I|].
  assert (Q : In j (firstn k s ++ skipn k s)) by (apply (Permutation_in _ (Permutation_sym P)), in_seq; split; [apply Nat.le_0_l|exact J]).
  apply in_app_or in Q. destruct Q as [Q|Q]; [contradiction|exact Q].
Qed.

(** * Composite functions *)

Lemma all_last_true l : all_last l = true <->
  forall i j s pf, nth_error l i = Some (All, s) -> (i < j)%nat -> nth_error l j = Some pf -> fst pf = Skip.
Proof.
  induction l as [|[r s0] l IH]; [split; [intros _ [|i] j s pf H; discriminate H|reflexivity]|]. cbn [all_last].
  assert (T : (forall i j s pf, nth_error ((r, s0) :: l) i = Some (All, s) -> (i < j)%nat -> nth_error ((r, s0) :: l) j = Some pf -> fst pf = Skip) <->
     (r = All -> forall pf, In pf l -> fst pf = Skip) /\ (forall i j s pf, nth_error l i = Some (All, s) -> (i < j)%nat -> nth_error l j = Some pf -> fst pf = Skip)).
  { split.
    - intros H. split.
      + intros -> pf I. apply In_nth_error in I. destruct I as (j & E). apply (H 0%nat (S j) s0); [reflexivity|lia|exact E].
      + intros i j s pf A L B. apply (H (S i) (S j) s); [exact A|lia|exact B].
    - intros (H1 & H2) [|i] [|j] s pf A L B; try lia; cbn in A, B.
      + injection A as -> ->. apply (H1 eq_refl). now apply nth_error_In in B.
      + apply (H2 i j s); [exact A|lia|exact B]. }
  rewrite T. destruct r.
  - rewrite IH. split; [intros H; split; [discriminate|exact H]|tauto].
  - rewrite forallb_forall. split.
    + intros H. assert (H1 : forall pf, In pf l -> fst pf = Skip) by (intros pf I; specialize (H pf I); destruct (fst pf); congruence).
      split; [auto|]. intros i j s pf _ _ B. apply H1. now apply nth_error_In in B.
    + intros (H & _) pf I. now rewrite (H eq_refl pf I).
  - rewrite IH. split; [intros H; split; [discriminate|exact H]|tauto].
Qed.

Section Composite.
Variable query : list point -> nat -> point -> list nat.
Variable o : options.
Variable pairs : list (region * source).

(** The first pair that covers the point and does not give NaN there sets it. *)
Definition winner (p : point) (j : nat) (x : R) : Prop :=
  exists pf, nth_error pairs j = Some pf /\ covers o (fst pf) p = true /\ value_of query o (snd pf) p = Some (Some x) /\
    forall j' pf', (j' < j)%nat -> nth_error pairs j' = Some pf' -> covers o (fst pf') p = true -> value_of query o (snd pf') p = Some None.
(** Points to interpolate again: NaN in the first pair that covers them, and in
    the region for this. *)
Definition reinterpolated (p : point) : Prop := first_nan query o pairs p /\ in_region o p.

Definition start : state := {| is_set := fun _ => false; val := fun _ => None; ever_nan := fun _ => false |}.

Lemma composite_inv points r : composite query o pairs points = Some r ->
  exists st st', rounds query o (length points) (fun k => nth k points (0, 0)) start 0 pairs = Some st /\
    reinterpolate query o (length points) (fun k => nth k points (0, 0)) st = Some st' /\
    clip_ok (o_clip o) pairs = true /\ pairs <> [] /\ all_last pairs = true /\ points <> [] /\
    (forall k, (k < length points)%nat -> is_set st' k = true) /\ r = map (val st') (seq 0 (length points)).
Proof.
  unfold composite. destruct (clip_ok (o_clip o) pairs); [|discriminate]. cbn [negb]. destruct pairs as [|q qs] eqn:Eq; [discriminate|]. rewrite <- Eq in *.
  destruct (all_last pairs); [|discriminate]. cbn [negb]. fold start.
  destruct (rounds query o (length points) _ start 0 pairs) as [st|]; [|discriminate].
  destruct (reinterpolate query o (length points) _ st) as [st'|] eqn:Er; [|discriminate].
  destruct (Nat.eqb_spec (length points) 0) as [|N]; [discriminate|]. cbn [orb].
  destruct (forallb (is_set st') (seq 0 (length points))) eqn:F; [|discriminate]. cbn [negb]. intros H. injection H as <-.
  exists st, st'. rewrite forallb_forall in F. repeat split; auto.
  - rewrite Eq. discriminate.
  - intros ->. now apply N.
  - intros k K. apply F, in_seq. lia.
Qed.

Lemma clip_ok_true : clip_ok (o_clip o) pairs = true <->
  forall ranges, o_clip o = Some ranges -> length ranges = length pairs /\ forall r, In r ranges -> fst r <= snd r.
Proof.
  unfold clip_ok. destruct (o_clip o) as [l|]; [|split; [discriminate|reflexivity]]. rewrite andb_true_iff, Nat.eqb_eq, forallb_forall. split.
  - intros (A & B) ranges E. injection E as <-. split; [exact A|]. intros r I. specialize (B r I). destruct (Rltb_spec (snd r) (fst r)); [discriminate|lra].
  - intros H. destruct (H l eq_refl) as (A & B). split; [exact A|]. intros r I. specialize (B r I). destruct (Rltb_spec (snd r) (fst r)); [lra|reflexivity].
Qed.

Lemma again_iff points st k : rounds query o (length points) (fun k => nth k points (0, 0)) start 0 pairs = Some st ->
  (again o (length points) (fun k => nth k points (0, 0)) st k <-> (k < length points)%nat /\ reinterpolated (nth k points (0, 0))).
Proof.
  intros E. pose proof (rounds_spec query o (length points) (fun k => nth k points (0, 0)) pairs start 0) as H. rewrite E in H.
  unfold again, reinterpolated. split.
  - intros (K & A & B). split; [exact K|]. destruct (H k K) as (_ & X). destruct (X eq_refl) as (_ & _ & _ & _ & Y). apply Y in A.
    destruct A as [A|A]; [discriminate|]. auto.
  - intros (K & A & B). split; [exact K|]. destruct (H k K) as (_ & X). destruct (X eq_refl) as (_ & _ & _ & _ & Y). split; [apply Y; auto|exact B].
Qed.

(** Every point gets the value of its first pair that covers it with a number,
    clipped to the range of this pair; points to interpolate again get a value
    from the nearest other points. *)
Theorem C104_values points r : composite query o pairs points = Some r ->
  length r = length points /\
  forall k, (k < length points)%nat -> exists v, nth k r None = Some v /\
    (~ reinterpolated (nth k points (0, 0)) -> exists j x, winner (nth k points (0, 0)) j x /\
       match o_clip o with
       | None => v = x
       | Some ranges => let lo := fst (nth j ranges (0, 0)) in let hi := snd (nth j ranges (0, 0)) in
                        lo <= v <= hi /\ (lo <= x <= hi -> v = x) /\ (x < lo -> v = lo) /\ (hi < x -> v = hi)
       end) /\
    (reinterpolated (nth k points (0, 0)) -> exists others, StronglySorted lt others /\
       (forall i, In i others <-> (i < length points)%nat /\ ~ reinterpolated (nth i points (0, 0))) /\
       nearest query (map (fun i => (absolute (o_origin o) (nth i points (0, 0)), match nth i r None with Some v => v | None => 0 end)) others)
         huge huge (o_k o) Average (o_origin o) (nth k points (0, 0)) = Some v).
Proof.
  intros E. destruct (composite_inv _ _ E) as (st & st' & E1 & E2 & C & _ & _ & _ & F & ->). split; [now rewrite map_length, seq_length|].
  pose proof (fun k => again_iff points st k E1) as AI.
  pose proof (rounds_spec query o (length points) (fun k => nth k points (0, 0)) pairs start 0) as H. rewrite E1 in H.
  pose proof (reinterpolate_spec query o (length points) (fun k => nth k points (0, 0)) st) as Q. rewrite E2 in Q.
  destruct Q as (ip & Q1 & Q2 & Q3 & Q4 & Q5).
  assert (NTH : forall k, (k < length points)%nat -> nth k (map (val st') (seq 0 (length points))) None = val st' k).
  { intros k K. rewrite (nth_indep _ None (val st' 0%nat)) by now rewrite map_length, seq_length.
    rewrite (map_nth (val st')). now rewrite seq_nth. }
  intros k K. rewrite NTH by exact K.
  assert (Dec : reinterpolated (nth k points (0, 0)) \/ ~ reinterpolated (nth k points (0, 0))).
  { destruct (in_dec Nat.eq_dec k ip) as [I|I].
    - right. apply Q2 in I. destruct I as (_ & I). intros A. apply I, AI. auto.
    - destruct (Classical_Prop.classic (reinterpolated (nth k points (0, 0)))); auto. }
  destruct Dec as [A|A].
  - assert (AG : again o (length points) (fun k => nth k points (0, 0)) st k) by (apply AI; auto).
    destruct (Q4 k AG) as (_ & v & N & V). exists v. split; [exact V|]. split; [contradiction|]. intros _. exists ip. split; [exact Q1|]. split.
    + intros i. rewrite Q2, AI. split; intros (I & B); (split; [exact I|tauto]).
    + rewrite <- N. f_equal. apply map_ext_in. intros i I. f_equal. apply Q2 in I. destruct I as (I & B). rewrite NTH by exact I.
      now rewrite (proj2 (Q3 i I B)).
  - assert (AG : ~ again o (length points) (fun k => nth k points (0, 0)) st k) by (rewrite AI; tauto).
    destruct (Q3 k K AG) as (B1 & B2). specialize (F k K). rewrite B1 in F. destruct (H k K) as (_ & X). destruct (X eq_refl) as (_ & X2 & _).
    destruct (X2 F) as (j & pf & x & (T1 & T2 & T3) & V & W). cbn [Nat.add] in W. rewrite B2, W. unfold enforce.
    rewrite clip_ok_true in C. destruct (o_clip o) as [ranges|].
    + eexists. split; [reflexivity|]. split; [|contradiction]. intros _. exists j, x. split; [exists pf; auto|]. cbn zeta.
      destruct (C ranges eq_refl) as (C1 & C2).
      assert (J : (j < length ranges)%nat) by (rewrite C1; apply nth_error_Some; rewrite T1; discriminate).
      specialize (C2 _ (nth_In ranges (0, 0) J)). unfold Rmin, Rmax. destruct (nth j ranges (0, 0)) as [lo hi]. cbn [fst snd] in *.
      destruct (Rle_dec x lo); [destruct (Rle_dec lo hi)|destruct (Rle_dec x hi)]; repeat split; intros; try lra.
    + exists x. split; [reflexivity|]. split; [|contradiction]. intros _. exists j, x. split; [exists pf; auto|reflexivity].
Qed.

(** Whether there is a result *)
Definition well_formed (points : list point) : Prop :=
  (forall ranges, o_clip o = Some ranges -> length ranges = length pairs /\ forall r, In r ranges -> fst r <= snd r) /\
  pairs <> [] /\ points <> [] /\
  (forall i j s pf, nth_error pairs i = Some (All, s) -> (i < j)%nat -> nth_error pairs j = Some pf -> fst pf = Skip).
(** No pair raises or gives a NaN that is not allowed, at the points where its
    value is asked for. *)
Definition accepted (p : point) : Prop :=
  forall j pf, nth_error pairs j = Some pf -> covers o (fst pf) p = true ->
    (forall j' pf', (j' < j)%nat -> nth_error pairs j' = Some pf' -> covers o (fst pf') p = true -> value_of query o (snd pf') p = Some None) ->
    exists v, value_of query o (snd pf) p = Some v /\ (v = None -> o_treatment o = Fall_through).

Lemma well_formed_iff points : well_formed points <->
  clip_ok (o_clip o) pairs = true /\ pairs <> [] /\ all_last pairs = true /\ points <> [].
Proof. unfold well_formed. rewrite clip_ok_true, all_last_true. tauto. Qed.

Lemma composite_ok points st st' : well_formed points ->
  rounds query o (length points) (fun k => nth k points (0, 0)) start 0 pairs = Some st ->
  reinterpolate query o (length points) (fun k => nth k points (0, 0)) st = Some st' ->
  (forall k, (k < length points)%nat -> is_set st' k = true) ->
  composite query o pairs points = Some (map (val st') (seq 0 (length points))).
Proof.
  rewrite well_formed_iff. intros (A & B & C & D) E1 E2 F. unfold composite. rewrite A, C. cbn [negb]. destruct pairs as [|q qs] eqn:Eq; [easy|]. rewrite <- Eq in *.
  fold start. rewrite E1, E2. destruct points as [|p ps] eqn:Ep; [easy|]. rewrite <- Ep in *.
  replace (length points =? 0)%nat with false by (rewrite Ep; reflexivity). cbn [orb].
  replace (forallb (is_set st') (seq 0 (length points))) with true; [reflexivity|]. symmetry. apply forallb_forall. intros k K. apply in_seq in K. apply F. lia.
Qed.

Lemma accepted_rounds points : (forall p, In p points -> accepted p) ->
  exists st, rounds query o (length points) (fun k => nth k points (0, 0)) start 0 pairs = Some st.
Proof.
  intros A. pose proof (rounds_spec query o (length points) (fun k => nth k points (0, 0)) pairs start 0) as H.
  destruct rounds as [st|]; [eauto|]. exfalso. destruct H as (k & j & pf & K & _ & (T1 & T2 & T3) & V).
  destruct (A (nth k points (0, 0)) (nth_In _ _ K) j pf T1 T2 T3) as (v & E & F). rewrite E in V.
  destruct V as [V|(V & G)]; [discriminate|]. injection V as ->. now apply G, F.
Qed.

(** With no region to interpolate again, there is a result exactly if the
    arguments fit, and every point has a pair that sets it and is accepted by
    those before. *)
Theorem C104_defined points : o_region o = No_region ->
  ((exists r, composite query o pairs points = Some r) <->
   well_formed points /\ forall p, In p points -> accepted p /\ exists j x, winner p j x).
Proof.
  intros NR. assert (NA : forall p, ~ reinterpolated p) by (intros p (_ & A); unfold in_region in A; now rewrite NR in A). split.
  - intros (r & E). destruct (C104_values points r E) as (_ & V). destruct (composite_inv _ _ E) as (st & st' & E1 & E2 & W1 & W2 & W3 & W4 & _ & _).
    split; [apply well_formed_iff; auto|]. intros p I. apply (In_nth _ _ (0, 0)) in I. destruct I as (k & K & <-). split.
    + pose proof (rounds_spec query o (length points) (fun k => nth k points (0, 0)) pairs start 0) as H. rewrite E1 in H.
      destruct (H k K) as (_ & X). destruct (X eq_refl) as (X1 & _). intros j pf A B C. apply (X1 j pf). split; [exact A|]. split; [exact B|exact C].
    + destruct (V k K) as (v & _ & Z & _). destruct (Z (NA _)) as (j & x & W & _). eauto.
  - intros (W & P). destruct (accepted_rounds points) as (st & E1); [intros p I; now apply P|].
    eexists. apply (composite_ok points st st W E1); [unfold reinterpolate; now rewrite NR|].
    intros k K. pose proof (rounds_spec query o (length points) (fun k => nth k points (0, 0)) pairs start 0) as H. rewrite E1 in H.
    destruct (H k K) as (_ & X). destruct (X eq_refl) as (_ & _ & X3 & _). destruct (is_set st k); [reflexivity|].
    destruct (P _ (nth_In points (0, 0) K)) as (_ & j & x & pf & A & B & C & _). specialize (X3 eq_refl j pf A B). congruence.
Qed.

(** With such a region, points in it may be left without a number, as long as
    at least [k] points are not interpolated again. *)
Theorem C104_defined_region points some : is_query query -> (1 <= o_k o)%nat -> well_formed points ->
  (forall p, In p points -> accepted p) ->
  (forall p, In p points -> reinterpolated p \/ exists j x, winner p j x) ->
  NoDup some -> (o_k o <= length some)%nat ->
  (forall i, In i some -> (i < length points)%nat /\ ~ reinterpolated (nth i points (0, 0))) ->
  exists r, composite query o pairs points = Some r.
Proof.
  intros IQ K1 W A P ND L HS. destruct (accepted_rounds points A) as (st & E1).
  pose proof (fun k => again_iff points st k E1) as AI.
  pose proof (rounds_spec query o (length points) (fun k => nth k points (0, 0)) pairs start 0) as H. rewrite E1 in H.
  pose proof (reinterpolate_spec query o (length points) (fun k => nth k points (0, 0)) st) as Q.
  assert (SET : forall k, (k < length points)%nat -> ~ reinterpolated (nth k points (0, 0)) -> is_set st k = true /\ val st k <> None).
  { intros k K NR. destruct (H k K) as (_ & X). destruct (X eq_refl) as (_ & X2 & X3 & _). destruct (is_set st k).
    - split; [reflexivity|]. destruct (X2 eq_refl) as (j & pf & x & _ & _ & V). rewrite V. unfold enforce. destruct (o_clip o); discriminate.
    - destruct (P _ (nth_In points (0, 0) K)) as [N|(j & x & pf & B & C & D & _)]; [contradiction|]. specialize (X3 eq_refl j pf B C). congruence. }
  destruct (reinterpolate query o (length points) (fun k => nth k points (0, 0)) st) as [st'|] eqn:E2.
  - eexists. apply (composite_ok points st st' W E1 E2). destruct Q as (ip & _ & _ & Q3 & Q4 & _). intros k K.
    destruct (Classical_Prop.classic (again o (length points) (fun k => nth k points (0, 0)) st k)) as [G|G].
    + now apply Q4.
    + rewrite (proj1 (Q3 k K G)). apply SET; [exact K|]. intros B. apply G, AI. auto.
  - exfalso. destruct Q as [(k & K & G & V)|(ip & S1 & S2 & Q)].
    + apply (SET k K); [|exact V]. intros B. apply G, AI. auto.
    + assert (LL : (length some <= length ip)%nat).
      { apply NoDup_incl_length; [exact ND|]. intros i I. destruct (HS i I) as (B & C). apply S2. split; [exact B|]. rewrite AI. tauto. }
      destruct Q as [Q|(k & _ & Q)]; [lia|].
      pose proof (C104_nearest query (map (fun k => (absolute (o_origin o) (nth k points (0, 0)), match val st k with Some v => v | None => 0 end)) ip)
        huge huge (o_k o) Average (o_origin o) (nth k points (0, 0)) IQ K1) as (N1 & _ & N3).
      rewrite map_length in N1, N3.
      destruct (Classical_Prop.classic (exists i, (i < length ip)%nat /\
         distance (px (nth k points (0, 0)) + px (o_origin o), py (nth k points (0, 0)) + py (o_origin o))
           (fst (nth i (map (fun k => (absolute (o_origin o) (nth k points (0, 0)), match val st k with Some v => v | None => 0 end)) ip) (0, 0, 0))) < huge)) as [B|B].
      * destruct (N3 B) as (l & r & N & _); [lia|]. congruence.
      * rewrite N1 in Q; [discriminate|]. intros i I. apply Rnot_lt_le. intros C. apply B. exists i. auto.
Qed.
End Composite.
Print Assumptions C104_values.
Print Assumptions C104_defined.
Print Assumptions C104_defined_region.

(** Three points: the first is NaN in the square's own function, the second is
    set there, the third is outside.  The pair without a polygon is ignored. *)
Definition case_square : list point := [(0, 0); (4, 0); (4, 4); (0, 4)].
Definition case_points : list point := [(1, 1); (3, 1); (9, 9)].
Definition case_pairs : list (region * source) :=
  [(Skip, Constant 9); (Inside case_square, Callable (fun p => if Rltb (px p) 2 then None else Some 7)); (All, Constant 1)].
Definition case_options (clip : option (list (R * R))) (t : treatment) (r : nan_region) : options :=
  {| o_origin := (0, 0); o_clip := clip; o_treatment := t; o_region := r; o_k := 1 |}.

Lemma case_inside x y : 0 < x < 4 -> 0 < y < 4 -> point_inside case_square true (x, y) = true.
Proof.
  intros X Y. rewrite C19_decision.
  - unfold case_square. rewrite edges_combine. cbn [app combine existsb filter fst snd px py].
    rewrite !not_on_line by nra. cbn [orb]. unfold crosses_left. cbn [px py fst snd].
    replace (4 + (y - 0) / (4 - 0) * (4 - 4)) with 4 by lra.
    replace (0 + (y - 4) / (0 - 4) * (0 - 0)) with 0 by lra. rdecide. reflexivity.
  - exists (0, 0). split; [cbn; auto 10|cbn; lra].
  - exists (4, 0). split; [cbn; auto 10|cbn; lra].
  - exists (0, 0). split; [cbn; auto 10|cbn; lra].
  - exists (0, 4). split; [cbn; auto 10|cbn; lra].
Qed.
Lemma case_outside x y : 4 < x -> point_inside case_square true (x, y) = false.
Proof.
  intros X. unfold point_inside, box, case_square. cbn [nth fold_left px py fst snd]. rdecide. reflexivity.
Qed.
Lemma case_rounds query clip r : (clip = None \/ clip = Some [(0, 9); (2, 5); (0, 9)]) ->
  exists st, rounds query (case_options clip Fall_through r) 3 (fun k => nth k case_points (0, 0)) start 0 case_pairs = Some st /\
    map (is_set st) [0; 1; 2]%nat = [true; true; true] /\
    map (val st) [0; 1; 2]%nat = [Some 1; Some (match clip with None => 7 | Some _ => 5 end); Some 1] /\
    map (ever_nan st) [0; 1; 2]%nat = [true; false; false].
Proof.
  intros C. unfold case_pairs. cbn [rounds]. unfold round at 1. cbn [fst].
  unfold round at 1. cbn [fst snd filter seq start is_set negb]. unfold inside_polygon, separate_points_by_polygon. cbn [map].
  unfold absolute, case_points. cbn [nth o_origin case_options px py fst snd].
  rewrite !case_inside by lra. rewrite case_outside by lra. cbn [separate_flags length seq combine fold_left place map fst snd firstn upd Nat.eqb pred nth].
  unfold apply_source. cbn [evaluate map nth px fst]. rdecide. cbn.
  destruct C as [-> | ->]; cbn; eexists; (split; [reflexivity|]); cbn; repeat split; repeat f_equal; try lra; unfold Rmin, Rmax;
    repeat (destruct Rle_dec; try lra); reflexivity.
Qed.
Lemma case_well_formed clip t r : (clip = None \/ clip = Some [(0, 9); (2, 5); (0, 9)]) ->
  well_formed (case_options clip t r) case_pairs case_points.
Proof.
  intros C. unfold well_formed. rewrite <- clip_ok_true, <- all_last_true. split; [|split; [discriminate|split; [discriminate|reflexivity]]]. destruct C as [-> | ->]; cbn; rdecide; reflexivity.
Qed.
Lemma below_3 (P : nat -> Prop) : P 0%nat -> P 1%nat -> P 2%nat -> forall k, (k < length case_points)%nat -> P k.
Proof. intros A B C [|[|[|k]]] K; auto. cbn in K. lia. Qed.

Example C104_case query :
  composite query (case_options None Fall_through No_region) case_pairs case_points = Some [Some 1; Some 7; Some 1] /\
  composite query (case_options (Some [(0, 9); (2, 5); (0, 9)]) Fall_through No_region) case_pairs case_points = Some [Some 1; Some 5; Some 1] /\
  composite query (case_options None Exception_ No_region) case_pairs case_points = None.
Proof.
  split; [|split].
  - destruct (case_rounds query None No_region) as (st & E & A & B & _); [auto|].
    rewrite (composite_ok _ _ _ case_points st st (case_well_formed _ _ _ (or_introl eq_refl)) E eq_refl); [now rewrite <- B|].
    injection A as A0 A1 A2. now apply below_3.
  - destruct (case_rounds query (Some [(0, 9); (2, 5); (0, 9)]) No_region) as (st & E & A & B & _); [auto|].
    rewrite (composite_ok _ _ _ case_points st st (case_well_formed _ _ _ (or_intror eq_refl)) E eq_refl); [now rewrite <- B|].
    injection A as A0 A1 A2. now apply below_3.
  - destruct composite as [r|] eqn:E; [|reflexivity]. exfalso.
    assert (X : exists r, composite query (case_options None Exception_ No_region) case_pairs case_points = Some r) by eauto.
    apply C104_defined in X; [|reflexivity]. destruct X as (_ & X). destruct (X (1, 1)) as (Y & _); [cbn; auto|].
    destruct (Y 1%nat _ eq_refl) as (v & V & T).
    + cbn [covers fst case_options o_origin]. unfold absolute. cbn [px py fst snd]. apply case_inside; lra.
    + intros [|[|j]] pf L N C; [|lia|lia]. cbn in N. injection N as <-. discriminate C.
    + cbn [value_of snd px fst] in V. revert V. rdecide. intros V. injection V as <-. discriminate (T eq_refl).
Qed.

(** The first point is interpolated again: its nearest other point is the
    second. *)
Example C104_case_region :
  composite sort_query (case_options None Fall_through Everywhere) case_pairs case_points = Some [Some 7; Some 7; Some 1].
Proof.
  destruct (case_rounds sort_query None Everywhere) as (st & E & A & B & C); [auto|].
  cbn [map] in A, B, C. injection A as A0 A1 A2. injection B as B0 B1 B2. injection C as C0 C1 C2.
  assert (E2 : reinterpolate sort_query (case_options None Fall_through Everywhere) (length case_points) (fun k => nth k case_points (0, 0)) st =
    Some {| is_set := upd (is_set st) 0 true; val := upd (val st) 0%nat (Some 7); ever_nan := ever_nan st |}).
  2:{ rewrite (composite_ok _ _ _ case_points st _ (case_well_formed _ _ _ (or_introl eq_refl)) E E2).
      - cbn. unfold upd. cbn. now rewrite B1, B2.
      - apply below_3; cbn; unfold upd; cbn; auto. }
  change (length case_points) with 3%nat.
  unfold reinterpolate. change (seq 0 3) with [0; 1; 2]%nat. cbn [filter]. rewrite C0, C1, C2. cbn [o_region case_options].
  unfold interpolate_again. change (seq 0 3) with [0; 1; 2]%nat. cbn [filter existsb Nat.eqb orb negb]. rewrite B1, B2. cbn [is_nan orb length].
  change (2 <? o_k _)%nat with false. cbn [map evaluate]. rewrite B1, B2.
  unfold nearest. cbn [map fst length o_k Nat.min o_origin case_options]. unfold absolute, case_points. cbn [nth px py fst snd].
  assert (Q : sort_query [(3 + 0, 1 + 0); (9 + 0, 9 + 0)] 1 (1 + 0, 1 + 0) = [0%nat]).
  { unfold sort_query, by_distance. cbn [length seq fold_right insert nth]. unfold distance. cbn [px py fst snd].
    match goal with |- context [Rltb ?a ?b] => assert (W : b < a); [|destruct (Rltb_spec a b); [lra|reflexivity]] end.
    apply sqrt_lt_1; lra. }
  unfold point in *. rewrite Q. cbn [map nth fst snd]. unfold distance. cbn [px py fst snd].
  replace ((1 + 0 - (3 + 0)) * (1 + 0 - (3 + 0)) + (1 + 0 - (1 + 0)) * (1 + 0 - (1 + 0))) with (2 * 2) by lra.
  rewrite sqrt_square by lra.
  assert (H2 : Rltb 2 huge = true).
  { apply Rltb_true. unfold huge. assert (1 <= 10 ^ 100) by (apply pow_R1_Rle; lra). lra. }
  rewrite H2. change (1 <=? 2)%nat with true. cbn [neighbour_value fold_left fst snd all_some option_map map].
  replace ((0 + 7 * (1 / (2 + tiny))) / (0 + 1 / (2 + tiny))) with 7; [reflexivity|].
  field. pose proof tiny_pos. lra.
Qed.
