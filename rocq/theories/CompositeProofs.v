(** Lemmas about composite functions for quantities. *)
From Coq Require Import Reals List Arith Bool Lra Lia Sorted.
From Verif Require Import RealLib ArrayLib PolygonModel PolygonProps RegionProofs Interp2dModel CompositeModel.
Import ListNotations.
Local Open Scope R_scope.

(** ** Arrays *)
Lemma existsb_eqb k l : existsb (Nat.eqb k) l = true <-> In k l.
Proof.
  rewrite existsb_exists. split; [intros (x & I & E); apply Nat.eqb_eq in E; now subst|intros I; exists k; now rewrite Nat.eqb_refl].
Qed.
Lemma existsb_eqb_false k l : existsb (Nat.eqb k) l = false <-> ~ In k l.
Proof. rewrite <- existsb_eqb. destruct existsb; split; congruence. Qed.

Lemma assign_map {A} (g : nat -> A) : forall inds a k,
  assign a inds (map g inds) k = if existsb (Nat.eqb k) inds then g k else a k.
Proof.
  induction inds as [|i inds IH]; intros a k; [reflexivity|]. cbn [map]. unfold assign. cbn [combine fold_left fst snd].
  fold (assign (upd a i (g i)) inds (map g inds)). rewrite IH. cbn [existsb].
  destruct (existsb (Nat.eqb k) inds); [now rewrite orb_true_r|]. rewrite orb_false_r.
  unfold upd. destruct (Nat.eqb_spec k i); [now subst|reflexivity].
Qed.
Lemma assign_all_spec {A} (v : A) : forall inds a k, assign_all a inds v k = if existsb (Nat.eqb k) inds then v else a k.
Proof.
  induction inds as [|i inds IH]; intros a k; [reflexivity|]. unfold assign_all. cbn [fold_left]. fold (assign_all (upd a i v) inds v).
  rewrite IH. cbn [existsb]. destruct (existsb (Nat.eqb k) inds); [now rewrite orb_true_r|]. rewrite orb_false_r.
  unfold upd. now destruct (Nat.eqb k i).
Qed.

Lemma all_some_map {A B} (f : A -> option B) : forall l,
  match all_some (map f l) with
  | Some r => map f l = map Some r
  | None => exists a, In a l /\ f a = None
  end.
Proof.
  induction l as [|a l IH]; [reflexivity|]. cbn [map all_some]. destruct (f a) as [b|] eqn:E; [|exists a; cbn; auto].
  destruct (all_some (map f l)); cbn [option_map].
  - cbn [map]. now rewrite IH.
  - destruct IH as (x & I & H). exists x. cbn; auto.
Qed.

Section Rounds.
Variable query : list point -> nat -> point -> list nat.
Variable o : options.

(** The value of one source at one point: [None] is an exception, [Some None]
    is NaN. *)
Definition value_of (s : source) (p : point) : option flt :=
  match s with
  | Callable f => Some (f p)
  | Constant c => Some (Some c)
  | Points rows => option_map Some (nearest query rows huge huge (o_k o) Average (o_origin o) p)
  end.
Definition covers (r : region) (p : point) : bool :=
  match r with Skip => false | All => true | Inside polygon => point_inside polygon true (absolute (o_origin o) p) end.

Lemma evaluate_spec s points :
  match evaluate query o s points with
  | Some vs => map (value_of s) points = map Some vs
  | None => exists p, In p points /\ value_of s p = None
  end.
Proof.
  destruct s as [f|c|rows]; cbn [evaluate].
  - now rewrite map_map.
  - rewrite map_map. apply map_ext. intros p. cbn. do 2 f_equal. ring.
  - pose proof (all_some_map (nearest query rows huge huge (o_k o) Average (o_origin o)) points) as H.
    destruct all_some as [r|]; cbn [option_map].
    + cbn [value_of]. rewrite <- (map_map (nearest query rows huge huge (o_k o) Average (o_origin o)) (option_map Some)), H, !map_map. reflexivity.
    + destruct H as (a & I & E). exists a. split; [exact I|]. cbn. now rewrite E.
Qed.

(** The values written are the values of the source. *)
Definition plain (s : source) (p : point) : flt := match value_of s p with Some v => v | None => None end.
Lemma evaluate_plain s points vs : evaluate query o s points = Some vs ->
  vs = map (plain s) points /\ forall p, In p points -> value_of s p = Some (plain s p).
Proof.
  intros E. pose proof (evaluate_spec s points) as H. rewrite E in H. clear E. revert vs H.
  induction points as [|p points IH]; intros vs H; destruct vs as [|v vs]; try discriminate H; [split; [reflexivity|intros p []]|].
  cbn [map] in H. injection H as Hp H. destruct (IH vs H) as (A & B). split.
  - cbn [map]. f_equal; [unfold plain; now rewrite Hp|exact A].
  - intros q [<-|I]; [unfold plain; now rewrite Hp|now apply B].
Qed.

Variable n : nat.
Variable xy : nat -> point.

Definition active (st : state) (r : region) (k : nat) : Prop := (k < n)%nat /\ is_set st k = false /\ covers r (xy k) = true.

Lemma enforce_none i : enforce o i None = None.
Proof. unfold enforce. now destruct (o_clip o). Qed.

Lemma round_spec st i pf :
  match round query o n xy st i pf with
  | Some st' =>
      (forall k, active st (fst pf) k -> exists v, value_of (snd pf) (xy k) = Some v /\ (v = None -> o_treatment o = Fall_through) /\
         is_set st' k = negb (is_nan v) /\ val st' k = enforce o i v /\ ever_nan st' k = ever_nan st k || is_nan v) /\
      (forall k, ~ active st (fst pf) k -> (k < n)%nat -> is_set st' k = is_set st k /\ val st' k = val st k /\ ever_nan st' k = ever_nan st k)
  | None => exists k, active st (fst pf) k /\
      (value_of (snd pf) (xy k) = None \/ value_of (snd pf) (xy k) = Some None /\ o_treatment o <> Fall_through)
  end.
Proof.
  unfold round. set (not_set := filter (fun k => negb (is_set st k)) (seq 0 n)).
  assert (NS : forall k, In k not_set <-> (k < n)%nat /\ is_set st k = false).
  { intros k. unfold not_set. rewrite filter_In, in_seq, negb_true_iff. split; intros (A & B); (split; [lia|exact B]). }
  set (run := apply_source query o xy st i (snd pf)).
  assert (R : forall inds, (forall k, In k inds <-> active st (fst pf) k) ->
    match run inds with
    | Some st' =>
      (forall k, active st (fst pf) k -> exists v, value_of (snd pf) (xy k) = Some v /\ (v = None -> o_treatment o = Fall_through) /\
         is_set st' k = negb (is_nan v) /\ val st' k = enforce o i v /\ ever_nan st' k = ever_nan st k || is_nan v) /\
      (forall k, ~ active st (fst pf) k -> (k < n)%nat -> is_set st' k = is_set st k /\ val st' k = val st k /\ ever_nan st' k = ever_nan st k)
    | None => exists k, active st (fst pf) k /\
      (value_of (snd pf) (xy k) = None \/ value_of (snd pf) (xy k) = Some None /\ o_treatment o <> Fall_through)
    end).
  { intros inds HI. unfold run, apply_source. destruct inds as [|i0 rest] eqn:Ei.
    { split; [intros k A; apply HI in A; destruct A|tauto]. }
    rewrite <- Ei in *. clear i0 rest Ei.
    destruct (evaluate query o (snd pf) (map xy inds)) as [vs|] eqn:Ev.
    2:{ pose proof (evaluate_spec (snd pf) (map xy inds)) as H. rewrite Ev in H. destruct H as (p & I & E).
        apply in_map_iff in I. destruct I as (k & <- & I). exists k. split; [now apply HI|now left]. }
    destruct (evaluate_plain _ _ _ Ev) as (Evs & Hval).
    set (g := fun k => plain (snd pf) (xy k)).
    assert (Ga : forall k, active st (fst pf) k -> value_of (snd pf) (xy k) = Some (g k)).
    { intros k A. apply Hval, in_map, HI, A. }
    rewrite map_map in Evs. fold g in Evs. subst vs.
    set (v := assign (val st) inds (map g inds)).
    assert (Hv : forall k, v k = if existsb (Nat.eqb k) inds then g k else val st k) by (intros k; apply assign_map).
    assert (Hin : forall k, active st (fst pf) k -> v k = g k).
    { intros k A. rewrite Hv, (proj2 (existsb_eqb k inds)); [reflexivity|]. now apply HI. }
    assert (Hout : forall k, ~ active st (fst pf) k -> v k = val st k).
    { intros k A. rewrite Hv, (proj2 (existsb_eqb_false k inds)); [reflexivity|]. now rewrite HI. }
    set (nan_inds := filter (fun k => is_nan (v k)) inds).
    assert (HN : forall k, In k nan_inds <-> active st (fst pf) k /\ g k = None).
    { intros k. unfold nan_inds. rewrite filter_In, HI. split; intros (A & B); (split; [exact A|]); rewrite (Hin k A) in *; destruct (g k); cbn in *; congruence. }
    set (good := filter (fun k => negb (is_nan (v k))) inds).
    assert (HG : forall k, In k good <-> active st (fst pf) k /\ g k <> None).
    { intros k. unfold good. rewrite filter_In, HI. split; intros (A & B); (split; [exact A|]); rewrite (Hin k A) in *; destruct (g k); cbn in *; congruence. }
    assert (FIN : forall js, (forall k, In k js <-> active st (fst pf) k /\ g k <> None) ->
       (forall k, active st (fst pf) k -> g k = None -> o_treatment o = Fall_through) ->
       let st' := {| is_set := assign_all (is_set st) js true; val := assign v js (map (fun k => enforce o i (v k)) js);
                     ever_nan := assign_all (ever_nan st) nan_inds true |} in
       (forall k, active st (fst pf) k -> exists v, value_of (snd pf) (xy k) = Some v /\ (v = None -> o_treatment o = Fall_through) /\
         is_set st' k = negb (is_nan v) /\ val st' k = enforce o i v /\ ever_nan st' k = ever_nan st k || is_nan v) /\
       (forall k, ~ active st (fst pf) k -> (k < n)%nat -> is_set st' k = is_set st k /\ val st' k = val st k /\ ever_nan st' k = ever_nan st k)).
    { intros js HJ HT st'. unfold st'. cbn [is_set val ever_nan]. split.
      - intros k A. exists (g k). split; [now apply Ga|]. split; [now apply HT|].
        rewrite assign_map, !assign_all_spec, (Hin k A). destruct (g k) as [x|] eqn:Eg.
        + rewrite (proj2 (existsb_eqb k js)) by (apply HJ; split; [exact A|congruence]).
          rewrite (proj2 (existsb_eqb_false k nan_inds)) by (rewrite HN; intros (_ & B); congruence).
          cbn. now rewrite orb_false_r.
        + rewrite (proj2 (existsb_eqb_false k js)) by (rewrite HJ; intros (_ & B); congruence).
          rewrite (proj2 (existsb_eqb k nan_inds)) by (apply HN; auto).
          cbn. rewrite orb_true_r, enforce_none. destruct A as (_ & A & _). auto.
      - intros k A _. rewrite assign_map, !assign_all_spec.
        rewrite (proj2 (existsb_eqb_false k js)) by (rewrite HJ; tauto).
        rewrite (proj2 (existsb_eqb_false k nan_inds)) by (rewrite HN; tauto). now rewrite (Hout k A). }
    destruct nan_inds as [|n0 nrest] eqn:En.
    { apply FIN.
      - intros k. rewrite HI. split; [|tauto]. intros A. split; [exact A|]. intros B. apply (proj2 (HN k)). tauto.
      - intros k A B. exfalso. apply (proj2 (HN k)). tauto. }
    assert (X : active st (fst pf) n0 /\ g n0 = None) by (apply HN; left; reflexivity). destruct X as (X1 & X2).
    destruct (o_treatment o) eqn:ET.
    - exists n0. split; [exact X1|]. right. rewrite (Ga n0 X1), X2. split; [reflexivity|discriminate].
    - destruct good as [|g0 grest] eqn:EG.
      + cbn [is_set val ever_nan]. split.
        * intros k A. exists (g k). split; [now apply Ga|]. split; [reflexivity|].
          assert (Z : g k = None). { destruct (g k) eqn:Z; [|reflexivity]. exfalso. apply (proj2 (HG k)). split; [exact A|congruence]. }
          rewrite assign_all_spec, (Hin k A), Z. rewrite (proj2 (existsb_eqb k (n0 :: nrest))) by (apply HN; auto).
          cbn. rewrite orb_true_r, enforce_none. destruct A as (_ & A & _). auto.
        * intros k A _. rewrite assign_all_spec. rewrite (proj2 (existsb_eqb_false k (n0 :: nrest))) by (rewrite HN; tauto).
          now rewrite (Hout k A).
      + apply FIN; [exact HG|reflexivity].
    - exists n0. split; [exact X1|]. right. rewrite (Ga n0 X1), X2. split; [reflexivity|discriminate]. }
  unfold active in *. destruct pf as [[| |polygon] s]; cbn [fst snd covers] in *.
  - split; [intros k (_ & _ & A); discriminate|tauto].
  - apply R. intros k. rewrite NS. tauto.
  - apply R. intros k. rewrite in_map_iff. split.
    + intros (j & E & I). apply inside_in in I. rewrite map_length in I. destruct I as (L & I).
      assert (K : In k not_set) by (rewrite <- E; apply nth_In, L). apply NS in K. split; [tauto|]. split; [tauto|].
      rewrite (nth_indep _ (0, 0) (absolute (o_origin o) (xy 0%nat))) in I by now rewrite map_length.
      rewrite (map_nth (fun k => absolute (o_origin o) (xy k)) not_set 0%nat) in I. rewrite E in I. exact I.
    + intros (K & S & C). assert (Q : In k not_set) by (apply NS; tauto). apply (In_nth _ _ 0%nat) in Q. destruct Q as (j & L & E).
      exists j. split; [exact E|]. apply inside_in. rewrite map_length. split; [exact L|].
      rewrite (nth_indep _ (0, 0) (absolute (o_origin o) (xy 0%nat))) by now rewrite map_length.
      rewrite (map_nth (fun k => absolute (o_origin o) (xy k)) not_set 0%nat), E. exact C.
Qed.

(** Pair [j] is tried for [p]: it covers the point, and all pairs before it
    that do so gave NaN. *)
Definition tried (pairs : list (region * source)) (p : point) (j : nat) (pf : region * source) : Prop :=
  nth_error pairs j = Some pf /\ covers (fst pf) p = true /\
  forall j' pf', (j' < j)%nat -> nth_error pairs j' = Some pf' -> covers (fst pf') p = true -> value_of (snd pf') p = Some None.
(** The first pair that covers [p] gives NaN. *)
Definition first_nan (pairs : list (region * source)) (p : point) : Prop :=
  exists j pf, nth_error pairs j = Some pf /\ covers (fst pf) p = true /\ value_of (snd pf) p = Some None /\
    forall j' pf', (j' < j)%nat -> nth_error pairs j' = Some pf' -> covers (fst pf') p = false.

Lemma tried_cons pf pairs p j qf : covers (fst pf) p = false \/ value_of (snd pf) p = Some None ->
  (tried pairs p j qf <-> tried (pf :: pairs) p (S j) qf).
Proof.
  intros H. unfold tried. cbn [nth_error]. split; intros (A & B & C); (split; [exact A|]); (split; [exact B|]).
  - intros [|j'] pf' L N V; cbn in N; [injection N as <-; destruct H; congruence|]. apply (C j' pf'); [lia|exact N|exact V].
  - intros j' pf' L N V. apply (C (S j') pf'); [lia|exact N|exact V].
Qed.
Lemma tried_head pf pairs p : covers (fst pf) p = true -> tried (pf :: pairs) p 0 pf.
Proof. intros H. split; [reflexivity|]. split; [exact H|]. intros j' pf' L. lia. Qed.
Lemma tried_stop pf pairs p x j qf : covers (fst pf) p = true -> value_of (snd pf) p = Some (Some x) ->
  tried (pf :: pairs) p j qf -> j = 0%nat /\ qf = pf.
Proof.
  intros C V (A & B & D). destruct j as [|j]; [cbn in A; injection A as <-; auto|].
  specialize (D 0%nat pf ltac:(lia) eq_refl C). congruence.
Qed.
Lemma first_nan_cons pf pairs p : covers (fst pf) p = false -> (first_nan (pf :: pairs) p <-> first_nan pairs p).
Proof.
  intros H. split; intros (j & qf & A & B & C & D).
  - destruct j as [|j]; cbn in A; [injection A as ->; congruence|]. exists j, qf. repeat split; auto.
    intros j' pf' L N. apply (D (S j') pf'); [lia|exact N].
  - exists (S j), qf. repeat split; auto. intros [|j'] pf' L N; cbn in N; [injection N as <-; exact H|]. apply (D j' pf'); [lia|exact N].
Qed.
Lemma first_nan_head pf pairs p : covers (fst pf) p = true -> (first_nan (pf :: pairs) p <-> value_of (snd pf) p = Some None).
Proof.
  intros H. split.
  - intros (j & qf & A & B & C & D). destruct j as [|j]; cbn in A; [injection A as ->; exact C|].
    specialize (D 0%nat pf ltac:(lia) eq_refl). congruence.
  - intros V. exists 0%nat, pf. repeat split; auto. intros j' pf' L. lia.
Qed.

Lemma rounds_spec : forall pairs st i,
  match rounds query o n xy st i pairs with
  | Some st' => forall k, (k < n)%nat ->
      (is_set st k = true -> is_set st' k = true /\ val st' k = val st k /\ ever_nan st' k = ever_nan st k) /\
      (is_set st k = false ->
        (forall j pf, tried pairs (xy k) j pf -> exists v, value_of (snd pf) (xy k) = Some v /\ (v = None -> o_treatment o = Fall_through)) /\
        (is_set st' k = true -> exists j pf x, tried pairs (xy k) j pf /\ value_of (snd pf) (xy k) = Some (Some x) /\
             val st' k = enforce o (i + j) (Some x)) /\
        (is_set st' k = false -> forall j pf, nth_error pairs j = Some pf -> covers (fst pf) (xy k) = true -> value_of (snd pf) (xy k) = Some None) /\
        (is_set st' k = false -> val st k = None -> val st' k = None) /\
        (ever_nan st' k = true <-> ever_nan st k = true \/ first_nan pairs (xy k)))
  | None => exists k j pf, (k < n)%nat /\ is_set st k = false /\ tried pairs (xy k) j pf /\
      (value_of (snd pf) (xy k) = None \/ value_of (snd pf) (xy k) = Some None /\ o_treatment o <> Fall_through)
  end.
Proof.
  induction pairs as [|pf pairs IH]; intros st i; cbn [rounds].
  - intros k K. split; [auto|]. intros Us. split; [|split; [|split; [|split]]].
    + intros [|j] pf (A & _); discriminate A.
    + congruence.
    + intros _ [|j] pf A; discriminate A.
    + auto.
    + split; [auto|]. intros [A|([|j] & pf & A & _)]; [exact A|discriminate|discriminate].
  - pose proof (round_spec st i pf) as R. destruct (round query o n xy st i pf) as [st1|].
    + destruct R as (R1 & R2). specialize (IH st1 (S i)). destruct (rounds query o n xy st1 (S i) pairs) as [st'|].
      * intros k K. destruct (IH k K) as (I1 & I2). split.
        { intros Us. destruct (R2 k) as (A & B & C); [intros (_ & X & _); congruence|exact K|].
          rewrite A in I1. destruct (I1 Us) as (D & E & F). rewrite E, F. auto. }
        intros Us. destruct (covers (fst pf) (xy k)) eqn:C.
        -- destruct (R1 k) as (v & V1 & V2 & V3 & V4 & V5); [split; [exact K|auto]|]. destruct v as [x|].
           ++ cbn in V3, V5. rewrite orb_false_r in V5. destruct (I1 V3) as (A & B & D). split; [|split; [|split; [|split]]].
              ** intros j qf T. destruct (tried_stop _ _ _ _ _ _ C V1 T) as (-> & ->). exists (Some x). split; [exact V1|discriminate].
              ** intros _. exists 0%nat, pf, x. split; [now apply tried_head|]. split; [exact V1|].
                 rewrite B, V4. now rewrite Nat.add_0_r.
              ** congruence.
              ** congruence.
              ** rewrite D, V5, first_nan_head by exact C. rewrite V1. split; [auto|]. intros [Q|Q]; [exact Q|discriminate].
           ++ cbn in V3, V5. rewrite orb_true_r in V5. destruct (I2 V3) as (J1 & J2 & J3 & J4 & J5).
              assert (TC : forall j qf, tried pairs (xy k) j qf <-> tried (pf :: pairs) (xy k) (S j) qf) by (intros; apply tried_cons; auto).
              split; [|split; [|split; [|split]]].
              ** intros [|j] qf T; [|apply (J1 j), TC, T]. destruct T as (T & _). cbn in T. injection T as <-. exists None. auto.
              ** intros S'. destruct (J2 S') as (j & qf & x & T & V & W). exists (S j), qf, x. split; [now apply TC|]. split; [exact V|].
                 rewrite W. f_equal. lia.
              ** intros S' [|j] qf N Cv; [cbn in N; injection N as <-; exact V1|]. now apply (J3 S' j).
              ** intros S' _. apply J4; [exact S'|]. rewrite V4. apply enforce_none.
              ** rewrite J5, first_nan_head by exact C. rewrite V5, V1. tauto.
        -- destruct (R2 k) as (A & B & D); [intros (_ & _ & X); congruence|exact K|]. rewrite A in I2. destruct (I2 Us) as (J1 & J2 & J3 & J4 & J5).
           assert (TC : forall j qf, tried pairs (xy k) j qf <-> tried (pf :: pairs) (xy k) (S j) qf) by (intros; apply tried_cons; auto).
           split; [|split; [|split; [|split]]].
           ++ intros [|j] qf T; [|apply (J1 j), TC, T]. destruct T as (T & T' & _). cbn in T. injection T as <-. congruence.
           ++ intros S'. destruct (J2 S') as (j & qf & x & T & V & W). exists (S j), qf, x. split; [now apply TC|]. split; [exact V|].
              rewrite W. f_equal. lia.
           ++ intros S' [|j] qf N Cv; [cbn in N; injection N as <-; congruence|]. now apply (J3 S' j).
           ++ rewrite B in J4. exact J4.
           ++ rewrite J5, D, first_nan_cons by exact C. tauto.
      * destruct IH as (k & j & qf & K & Us & T & V). exists k, (S j), qf. split; [exact K|].
        destruct (is_set st k) eqn:S0.
        { destruct (R2 k) as (A & _); [intros (_ & X & _); congruence|exact K|]. congruence. }
        split; [reflexivity|]. split; [|exact V]. apply tried_cons; [|exact T].
        destruct (covers (fst pf) (xy k)) eqn:C; [right|left; reflexivity].
        destruct (R1 k) as (v & V1 & V2 & V3 & _); [split; [exact K|auto]|]. destruct v; [cbn in V3; congruence|exact V1].
    + destruct R as (k & (K & Us & C) & V). exists k, 0%nat, pf. split; [exact K|]. split; [exact Us|]. split; [now apply tried_head|exact V].
Qed.
End Rounds.

(** ** Reinterpolation *)
Lemma filter_sorted_lt (f : nat -> bool) : forall m a, StronglySorted lt (filter f (seq a m)).
Proof.
  induction m as [|m IH]; intros a; cbn [seq filter]; [constructor|]. destruct (f a); [|apply IH].
  constructor; [apply IH|]. apply Forall_forall. intros x I. apply filter_In in I. destruct I as (I & _). apply in_seq in I. lia.
Qed.

Section Again.
Variable query : list point -> nat -> point -> list nat.
Variable o : options.
Variable n : nat.
Variable xy : nat -> point.

(** The point lies where values may be interpolated again. *)
Definition in_region (p : point) : Prop :=
  match o_region o with
  | No_region => False
  | Everywhere => True
  | Polygons l => exists polygon, In polygon l /\ point_inside polygon true (absolute (o_origin o) p) = true
  end.

Definition again (st : state) (k : nat) : Prop := (k < n)%nat /\ ever_nan st k = true /\ in_region (xy k).

Lemma reinterpolate_spec st :
  match reinterpolate query o n xy st with
  | Some st' => exists ip, StronglySorted lt ip /\ (forall k, In k ip <-> (k < n)%nat /\ ~ again st k) /\
      (forall k, (k < n)%nat -> ~ again st k -> is_set st' k = is_set st k /\ val st' k = val st k) /\
      (forall k, again st k -> is_set st' k = true /\
         exists v, nearest query (map (fun k => (absolute (o_origin o) (xy k), match val st k with Some v => v | None => 0 end)) ip)
                     huge huge (o_k o) Average (o_origin o) (xy k) = Some v /\ val st' k = Some v) /\
      ((exists k, again st k) -> forall k, (k < n)%nat -> ~ again st k -> val st k <> None)
  | None => (exists k, (k < n)%nat /\ ~ again st k /\ val st k = None) \/
      (exists ip, StronglySorted lt ip /\ (forall k, In k ip <-> (k < n)%nat /\ ~ again st k) /\
         ((length ip < o_k o)%nat \/ exists k, again st k /\
          nearest query (map (fun k => (absolute (o_origin o) (xy k), match val st k with Some v => v | None => 0 end)) ip)
                     huge huge (o_k o) Average (o_origin o) (xy k) = None))
  end.
Proof.
  unfold reinterpolate. set (ever := filter (ever_nan st) (seq 0 n)).
  assert (HE : forall k, In k ever <-> (k < n)%nat /\ ever_nan st k = true).
  { intros k. unfold ever. rewrite filter_In, in_seq. split; intros (A & B); (split; [lia|exact B]). }
  assert (TRIV : (forall k, ~ again st k) -> exists ip, StronglySorted lt ip /\ (forall k, In k ip <-> (k < n)%nat /\ ~ again st k) /\
      (forall k, (k < n)%nat -> ~ again st k -> is_set st k = is_set st k /\ val st k = val st k) /\
      (forall k, again st k -> is_set st k = true /\
         exists v, nearest query (map (fun k => (absolute (o_origin o) (xy k), match val st k with Some v => v | None => 0 end)) ip)
                     huge huge (o_k o) Average (o_origin o) (xy k) = Some v /\ val st k = Some v) /\
      ((exists k, again st k) -> forall k, (k < n)%nat -> ~ again st k -> val st k <> None)).
  { intros N. exists (seq 0 n). split.
    { replace (seq 0 n) with (filter (fun _ => true) (seq 0 n)); [apply filter_sorted_lt|]. clear. induction (seq 0 n) as [|a l IH]; cbn; [reflexivity|now rewrite IH]. }
    split; [intros k; rewrite in_seq; split; [intros; split; [lia|apply N]|intros; lia]|].
    split; [auto|]. split; [intros k A; now apply N in A|]. intros (k & A). now apply N in A. }
  assert (GO : forall inds, (forall k, In k inds <-> again st k) ->
    match interpolate_again query o n xy st inds with
    | Some st' => exists ip, StronglySorted lt ip /\ (forall k, In k ip <-> (k < n)%nat /\ ~ again st k) /\
      (forall k, (k < n)%nat -> ~ again st k -> is_set st' k = is_set st k /\ val st' k = val st k) /\
      (forall k, again st k -> is_set st' k = true /\
         exists v, nearest query (map (fun k => (absolute (o_origin o) (xy k), match val st k with Some v => v | None => 0 end)) ip)
                     huge huge (o_k o) Average (o_origin o) (xy k) = Some v /\ val st' k = Some v) /\
      ((exists k, again st k) -> forall k, (k < n)%nat -> ~ again st k -> val st k <> None)
    | None => (exists k, (k < n)%nat /\ ~ again st k /\ val st k = None) \/
      (exists ip, StronglySorted lt ip /\ (forall k, In k ip <-> (k < n)%nat /\ ~ again st k) /\
         ((length ip < o_k o)%nat \/ exists k, again st k /\
          nearest query (map (fun k => (absolute (o_origin o) (xy k), match val st k with Some v => v | None => 0 end)) ip)
                     huge huge (o_k o) Average (o_origin o) (xy k) = None))
    end).
  { intros inds HI. unfold interpolate_again. set (ip := filter (fun k => negb (existsb (Nat.eqb k) inds)) (seq 0 n)).
    assert (HS : StronglySorted lt ip) by apply filter_sorted_lt.
    assert (HP : forall k, In k ip <-> (k < n)%nat /\ ~ again st k).
    { intros k. unfold ip. rewrite filter_In, in_seq, negb_true_iff, existsb_eqb_false, HI. split; intros (A & B); (split; [lia|exact B]). }
    set (rows := map (fun k => (absolute (o_origin o) (xy k), match val st k with Some v => v | None => 0 end)) ip).
    destruct (existsb (fun k => is_nan (val st k)) ip) eqn:EN.
    { left. apply existsb_exists in EN. destruct EN as (k & I & E). apply HP in I. exists k. destruct (val st k); [discriminate|tauto]. }
    assert (NN : forall k, (k < n)%nat -> ~ again st k -> val st k <> None).
    { intros k K A E. assert (X : existsb (fun k => is_nan (val st k)) ip = true); [|congruence].
      apply existsb_exists. exists k. split; [now apply HP|]. now rewrite E. }
    destruct (length ip <? o_k o)%nat eqn:EL.
    { right. exists ip. split; [exact HS|]. split; [exact HP|]. left. now apply Nat.ltb_lt. }
    destruct (evaluate query o (Points rows) (map xy inds)) as [vs|] eqn:Ev.
    - destruct (evaluate_plain _ _ _ _ _ Ev) as (Evs & Hval). rewrite map_map in Evs. subst vs.
      exists ip. split; [exact HS|]. split; [exact HP|]. cbn [is_set val]. split; [|split].
      + intros k K A. rewrite assign_all_spec, assign_map.
        rewrite (proj2 (existsb_eqb_false k inds)) by now rewrite HI. auto.
      + intros k A. rewrite assign_all_spec, assign_map. rewrite (proj2 (existsb_eqb k inds)) by now apply HI. split; [reflexivity|].
        specialize (Hval (xy k) (in_map xy _ _ (proj2 (HI k) A))). cbn [value_of] in Hval. fold rows.
        destruct (nearest query rows huge huge (o_k o) Average (o_origin o) (xy k)) as [v|]; [|discriminate].
        cbn in Hval. exists v. split; [reflexivity|]. now injection Hval.
      + intros _. exact NN.
    - right. exists ip. split; [exact HS|]. split; [exact HP|]. right. pose proof (evaluate_spec query o (Points rows) (map xy inds)) as H.
      rewrite Ev in H. destruct H as (p & I & E). apply in_map_iff in I. destruct I as (k & <- & I). exists k. split; [now apply HI|].
      cbn [value_of] in E. fold rows. destruct nearest; [discriminate|reflexivity]. }
  assert (EE : ever = [] -> forall k, ~ again st k).
  { intros E k (A & B & _). assert (X : In k ever) by (apply HE; auto). rewrite E in X. destruct X. }
  destruct (o_region o) as [| |l] eqn:ER.
  - apply TRIV. intros k (_ & _ & A). unfold in_region in A. now rewrite ER in A.
  - destruct ever as [|e0 rest] eqn:Ee; [apply TRIV, EE, eq_refl|]. rewrite <- Ee in *. apply GO. intros k. rewrite HE. unfold again, in_region. rewrite ER. tauto.
  - destruct ever as [|e0 rest] eqn:Ee; [apply TRIV, EE, eq_refl|]. rewrite <- Ee in *. apply GO. intros k. rewrite in_concat. unfold again, in_region. rewrite ER. split.
    + intros (q & Q & I). apply in_map_iff in Q. destruct Q as (polygon & <- & Ip). apply in_map_iff in I. destruct I as (j & E & I).
      apply inside_in in I. rewrite map_length in I. destruct I as (L & I).
      assert (K : In k ever) by (rewrite <- E; apply nth_In, L). apply HE in K. split; [tauto|]. split; [tauto|]. exists polygon. split; [exact Ip|].
      rewrite (nth_indep _ (0, 0) (absolute (o_origin o) (xy 0%nat))) in I by now rewrite map_length.
      rewrite (map_nth (fun k => absolute (o_origin o) (xy k)) ever 0%nat) in I. rewrite E in I. exact I.
    + intros (K & Us & polygon & Ip & C). assert (Q : In k ever) by (apply HE; tauto). apply (In_nth _ _ 0%nat) in Q. destruct Q as (j & L & E).
      eexists. split; [apply in_map, Ip|]. apply in_map_iff.
      exists j. split; [exact E|]. apply inside_in. rewrite map_length. split; [exact L|].
      rewrite (nth_indep _ (0, 0) (absolute (o_origin o) (xy 0%nat))) by now rewrite map_length.
      rewrite (map_nth (fun k => absolute (o_origin o) (xy k)) ever 0%nat), E. exact C.
Qed.
End Again.
