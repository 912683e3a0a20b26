(** C37: reordering a mesh by partition. *)
From Coq Require Import List Arith Lia Bool Permutation.
From Verif Require Import ArrayLib DivideModel DivideProofs.
Import ListNotations.

Section C37.
Variables (tri row tag : Type).
Variables (n : nat) (epart : list nat) (triangles : list tri) (boundary : bdict tag) (quantities : list (list row)).
Let N := length epart.
Hypothesis Htri : length triangles = N.
Hypothesis Hq : forall q, In q quantities -> length q = N.
Hypothesis Hb : forall k t, In (k, t) boundary -> fst k < N.
Hypothesis Hbd : NoDup (map fst boundary).

(** The number of triangles in the parts before [p]. *)
Let before (p : nat) : nat := length (filter (fun x => x <? p) epart).

Lemma offset_before p : offset epart p = before p.
Proof.
  unfold before. induction p as [|p IH].
  - unfold offset. simpl. symmetry.
    assert (G : forall l : list nat, length (filter (fun x => x <? 0) l) = 0) by (induction l; [reflexivity|assumption]).
    apply G.
  - rewrite offset_S, IH, <- count_part.
    assert (G : forall l, length (filter (fun x => x <? p) l) + length (filter (fun x => x =? p) l)
                        = length (filter (fun x => x <? S p) l)).
    { induction l as [|x l IHl]; [reflexivity|]. cbn [filter].
      destruct (Nat.ltb_spec x p), (Nat.eqb_spec x p), (Nat.ltb_spec x (S p)); try lia; cbn [length]; lia. }
    apply G.
Qed.

Lemma succeeds_only d : n <> 1 -> divide tri row tag n epart triangles boundary quantities = Some d ->
  (forall x, In x epart -> x < n) /\ length (bincount epart) = n /\ (forall p, p < n -> part epart p <> []).
Proof.
  intros Hn H. unfold divide in H. destruct (Nat.eqb_spec n 1); [lia|].
  destruct (length epart =? 0) eqn:E0; [discriminate|].
  destruct (forallb _ _) eqn:E1; [|discriminate]. cbn [negb] in H.
  destruct (Nat.eqb_spec (length (bincount epart)) n) as [E2|]; [|discriminate].
  refine (conj _ (conj E2 _)).
  - intros x Hx. rewrite <- E2, bincount_length. apply list_max_lt, Hx.
  - intros p Hp C. rewrite forallb_forall in E1. specialize (E1 (nth p (bincount epart) 0)).
    assert (Y : nth p (bincount epart) 0 = 0) by (rewrite bincount_nth by lia; rewrite C; reflexivity).
    rewrite Y in E1. assert (X : (0 <? 0) = true); [|discriminate]. apply E1. rewrite <- Y. apply nth_In. lia.
Qed.

Lemma index_of i : (forall x, In x epart -> x < n) -> i < N ->
  exists k, k < length (part epart (nth i epart 0)) /\ nth k (part epart (nth i epart 0)) 0 = i.
Proof.
  intros Hlt Hi. apply In_nth. apply part_In. auto.
Qed.

Lemma moved_key d : n <> 1 -> divide tri row tag n epart triangles boundary quantities = Some d ->
  forall i, i < N -> exists k,
    nth_error (tri_index _ _ _ d) i = Some (nth i epart 0, k) /\
    nth_error (epart_order _ _ _ d) (before (nth i epart 0) + k) = Some i /\
    k < length (part epart (nth i epart 0)).
Proof.
  intros Hn H i Hi. destruct (succeeds_only d Hn H) as (Hlt & Hlen & _).
  unfold divide in H. destruct (Nat.eqb_spec n 1); [lia|].
  destruct (length epart =? 0); [discriminate|]. destruct (forallb _ _); [|discriminate].
  destruct (length (bincount epart) =? n); [|discriminate]. cbn [negb] in H.
  destruct (take triangles _) as [tris|]; [|discriminate].
  destruct (sequence _) as [qs|]; [|discriminate]. destruct (move_boundary _ _ _ _) as [b|]; [|discriminate].
  injection H as <-. cbn [tri_index epart_order].
  destruct (index_of i Hlt Hi) as (k & Hk & Ek). exists k.
  assert (Hp : nth i epart 0 < n) by (apply Hlt, nth_In, Hi).
  refine (conj _ (conj _ Hk)).
  - rewrite Htri. rewrite <- Ek at 1.
    apply set_index_get; auto. rewrite Ek. exact Hi.
  - rewrite <- offset_before, (argsort_parts epart n Hlt), (flat_map_nth epart n) by assumption.
    rewrite (nth_error_nth' _ 0 Hk), Ek. reflexivity.
Qed.

(** Successful division: the triangles of each part form one block in their
    original order, the blocks follow each other in the order of the parts, the
    order is a permutation, and for every triangle [i] the inverse index gives
    the new position at which its vertices, quantity rows and boundary tags
    stand; there are no other boundary tags. *)
Theorem C37_reordering d : n <> 1 -> divide tri row tag n epart triangles boundary quantities = Some d ->
  epart_order _ _ _ d = flat_map (fun p => filter (fun i => nth i epart 0 =? p) (seq 0 N)) (seq 0 n) /\
  Permutation (seq 0 N) (epart_order _ _ _ d) /\
  (forall p, p < n -> nth_error (triangles_per_proc _ _ _ d) p = Some (length (filter (fun x => x =? p) epart))) /\
  length (new_triangles _ _ _ d) = N /\
  (forall i, i < N -> exists k,
    let j := before (nth i epart 0) + k in
    j < N /\
    nth_error (tri_index _ _ _ d) i = Some (nth i epart 0, k) /\
    nth_error (epart_order _ _ _ d) j = Some i /\
    nth_error (new_triangles _ _ _ d) j = nth_error triangles i /\
    (forall m q, nth_error quantities m = Some q ->
       exists q', nth_error (new_quantities _ _ _ d) m = Some q' /\ length q' = N /\ nth_error q' j = nth_error q i) /\
    (forall e, bget (new_boundary _ _ _ d) (j, e) = bget boundary (i, e))) /\
  (forall j e, N <= j -> bget (new_boundary _ _ _ d) (j, e) = None).
Proof.
  intros Hn H. pose proof (moved_key d Hn H) as MK.
  destruct (succeeds_only d Hn H) as (Hlt & Hlen & _).
  unfold divide in H. destruct (Nat.eqb_spec n 1); [lia|].
  destruct (length epart =? 0); [discriminate|]. destruct (forallb _ _); [|discriminate].
  destruct (length (bincount epart) =? n); [|discriminate]. cbn [negb] in H.
  destruct (take triangles _) as [tris|] eqn:Et; [|discriminate].
  destruct (sequence _) as [qs|] eqn:Eq; [|discriminate]. destruct (move_boundary _ _ _ _) as [b|] eqn:Eb; [|discriminate].
  match type of H with Some ?x = Some d => assert (Ed : x = d) by congruence; clear H; subst d end.
  cbn [tri_index epart_order new_triangles new_quantities new_boundary triangles_per_proc] in *.
  assert (LO : length (argsort epart) = N).
  { rewrite <- (Permutation_length (argsort_perm epart)), seq_length. reflexivity. }
  destruct (take_nth _ _ _ Et) as [Lt Nt]. destruct (sequence_nth _ _ Eq) as [Lq Nq].
  destruct (sequence_nth _ _ Eb) as [Lb Nb].
  set (psum := 0 :: cumsum 0 (bincount epart)) in *.
  set (idx := set_index (argsort epart) psum (bincount epart) n (length triangles)) in *.
  set (newpos := fun i => match nth_error idx i with Some t => nth (fst t) psum 0 + snd t | None => 0 end).
  assert (NP : forall i, i < N -> newpos i < N /\ nth_error (argsort epart) (newpos i) = Some i).
  { intros i Hi. destruct (MK i Hi) as (k & E1 & E2 & Hk). unfold newpos. rewrite E1. cbn [fst snd].
    assert (Hp : nth i epart 0 < n) by (apply Hlt, nth_In, Hi).
    unfold psum. rewrite psum_nth by lia. rewrite offset_before. split; [|exact E2].
    rewrite <- LO. apply nth_error_Some. congruence. }
  assert (BM : b = map (fun e => ((newpos (fst (fst e)), snd (fst e)), snd e)) boundary).
  { unfold move_boundary in Eb.
    rewrite (sequence_map _ (fun e => ((newpos (fst (fst e)), snd (fst e)), snd e))) in Eb; [congruence|].
    intros [k t] Hin. cbn [fst snd]. pose proof (Hb k t Hin) as Hk. destruct (MK _ Hk) as (k' & E1 & _).
    unfold newpos, get. rewrite E1. reflexivity. }
  assert (Inj : forall i i', i < N -> i' < N -> newpos i = newpos i' -> i = i').
  { intros i i' Hi Hi' E. destruct (NP i Hi) as [_ A], (NP i' Hi') as [_ B]. rewrite E, B in A. congruence. }
  refine (conj (argsort_parts epart n Hlt) (conj (argsort_perm epart) (conj _ (conj _ (conj _ _))))).
  - intros p Hp. rewrite (nth_error_nth' _ 0) by lia. rewrite bincount_nth by lia. rewrite count_part. reflexivity.
  - lia.
  - intros i Hi. destruct (MK i Hi) as (k & E1 & E2 & Hk). exists k. cbv zeta.
    assert (Hp : nth i epart 0 < n) by (apply Hlt, nth_In, Hi).
    assert (Ej : newpos i = before (nth i epart 0) + k).
    { unfold newpos. rewrite E1. cbn [fst snd]. unfold psum. rewrite psum_nth by lia. rewrite offset_before. reflexivity. }
    destruct (NP i Hi) as [Hj _]. rewrite Ej in Hj.
    refine (conj Hj (conj E1 (conj E2 (conj _ (conj _ _))))).
    + rewrite Nt, E2. reflexivity.
    + intros m q Hm. specialize (Nq m). rewrite nth_error_map, Hm in Nq. cbn [option_map] in Nq.
      assert (Hml : m < length qs).
      { rewrite Lq, map_length. apply nth_error_Some. congruence. }
      apply nth_error_Some in Hml. rewrite Nq in Hml. destruct (take q (argsort epart)) as [q'|] eqn:Tq; [|congruence].
      exists q'. destruct (take_nth _ _ _ Tq) as [Lq' Nq']. refine (conj Nq (conj _ _)); [lia|]. rewrite Nq', E2. reflexivity.
    + intros e. rewrite <- Ej, BM. apply bget_rename. intros k0 t Hin E. apply Inj; [apply (Hb _ _ Hin)|exact Hi|exact E].
  - intros j e Hj. apply bget_notin. rewrite BM, map_map. cbn [fst]. intros Hin. apply in_map_iff in Hin as ([k t] & E & Hin).
    cbn [fst snd] in E. injection E as E _. destruct (NP (fst k) (Hb _ _ Hin)) as [L _]. lia.
Qed.

(** The division raises exactly when some part is empty or out of range. *)
Theorem C37_raises_iff : 2 <= n ->
  divide tri row tag n epart triangles boundary quantities = None <->
  (exists p, p < n /\ ~ In p epart) \/ (exists x, In x epart /\ n <= x).
Proof.
  intros Hn. split.
  - intros H. destruct (existsb (fun p => negb (existsb (Nat.eqb p) epart)) (seq 0 n)) eqn:E.
    + apply existsb_exists in E as (p & Hp & Ep). left. exists p. apply in_seq in Hp. split; [lia|].
      intros Hin. apply negb_true_iff in Ep. assert (existsb (Nat.eqb p) epart = true); [|congruence].
      apply existsb_exists. exists p. split; [exact Hin|apply Nat.eqb_refl].
    + assert (All : forall p, p < n -> In p epart).
      { intros p Hp. destruct (in_dec Nat.eq_dec p epart) as [|Np]; [assumption|]. exfalso.
        assert (existsb (fun p => negb (existsb (Nat.eqb p) epart)) (seq 0 n) = true); [|congruence].
        apply existsb_exists. exists p. split; [apply in_seq; lia|]. apply negb_true_iff.
        destruct (existsb (Nat.eqb p) epart) eqn:X; [|reflexivity]. apply existsb_exists in X as (y & Hy & Ey).
        apply Nat.eqb_eq in Ey. subst. tauto. }
      destruct (le_lt_dec n (list_max epart)) as [L|L].
      { right. exists (list_max epart). split; [|exact L].
        assert (epart <> []) by (intros ->; exact (All 0 ltac:(lia))).
        assert (G : forall l, l <> [] -> In (list_max l) l).
        { induction l as [|x l IHl]; intros Hl; [congruence|]. destruct l as [|y l]; [left; simpl; lia|].
          change (list_max (x :: y :: l)) with (Nat.max x (list_max (y :: l))).
          destruct (Nat.max_spec x (list_max (y :: l))) as [[_ ->]|[_ ->]]; [right; apply IHl; discriminate|left; reflexivity]. }
        apply G. assumption. }
      exfalso.
      assert (Hm : list_max epart = n - 1).
      { pose proof (list_max_lt epart (n - 1) (All (n - 1) ltac:(lia))). lia. }
      assert (Hlt : forall x, In x epart -> x < n) by (intros x Hx; pose proof (list_max_lt epart x Hx); lia).
      assert (Hlen : length (bincount epart) = n) by (rewrite bincount_length; lia).
      assert (HO : forall i, In i (argsort epart) -> i < N).
      { intros i Hi. apply (Permutation_in _ (Permutation_sym (argsort_perm epart))) in Hi. apply in_seq in Hi. unfold N. lia. }
      assert (HT : forall A (l : list A), length l = N -> exists r, take l (argsort epart) = Some r).
      { intros A l Hl. apply sequence_some. intros x Hx. apply in_map_iff in Hx as (i & <- & Hi).
        apply nth_error_Some. rewrite Hl. apply HO, Hi. }
      unfold divide in H. destruct (Nat.eqb_spec n 1); [lia|].
      destruct (Nat.eqb_spec (length epart) 0) as [E0|_].
      { pose proof (All 0 ltac:(lia)) as A0. apply length_zero_iff_nil in E0. rewrite E0 in A0. destruct A0. }
      replace (forallb _ _) with true in H.
      2:{ symmetry. apply forallb_forall. intros c Hc. apply (In_nth _ _ 0) in Hc as (p & Hp & <-).
          rewrite bincount_nth by exact Hp. apply Nat.ltb_lt. rewrite <- count_part.
          destruct (filter (fun x => x =? p) epart) eqn:F; [|simpl; lia]. exfalso.
          assert (X : In p (filter (fun x => x =? p) epart)).
          { apply filter_In. split; [apply All; lia|apply Nat.eqb_refl]. }
          rewrite F in X. destruct X. }
      rewrite Hlen, Nat.eqb_refl in H. cbn [negb] in H.
      destruct (HT tri triangles Htri) as (tris & Et). rewrite Et in H.
      destruct (sequence_some (map (fun q => take q (argsort epart)) quantities)) as (qs & Eq).
      { intros x Hx. apply in_map_iff in Hx as (q & <- & Hin). destruct (HT row q (Hq q Hin)) as (r & ->). discriminate. }
      rewrite Eq in H.
      destruct (sequence_some (map (fun e : nat * nat * tag => match get (set_index (argsort epart) (0 :: cumsum 0 (bincount epart)) (bincount epart) n (length triangles)) (fst (fst e)) with
        | Some t => Some ((nth (fst t) (0 :: cumsum 0 (bincount epart)) 0 + snd t, snd (fst e)), snd e)
        | None => None
        end) boundary)) as (b & Eb).
      { intros x Hx. apply in_map_iff in Hx as ([k t] & <- & Hin). cbn [fst snd].
        destruct (get _ (fst k)) eqn:G; [discriminate|]. exfalso. unfold get in G. apply nth_error_None in G.
        unfold set_index in G. rewrite map_length, seq_length, Htri in G. pose proof (Hb _ _ Hin). cbn in *. lia. }
      unfold move_boundary in H. rewrite Eb in H. discriminate.
  - intros Hex. destruct (divide tri row tag n epart triangles boundary quantities) as [d|] eqn:E; [|reflexivity].
    exfalso. destruct (succeeds_only d ltac:(lia) E) as (Hlt & _ & Hne).
    destruct Hex as [(p & Hp & Np)|(x & Hx & Lx)]; [|specialize (Hlt x Hx); lia].
    apply (Hne p Hp). destruct (part epart p) as [|i l] eqn:F; [reflexivity|]. exfalso.
    assert (Hi : In i (part epart p)) by (rewrite F; left; reflexivity). apply part_In in Hi as [Hi <-].
    apply Np, nth_In, Hi.
Qed.

(** The older scatter form of the reordering gives the same rows as the gather
    form. *)
Theorem C37_reorder_agrees d dflt m q q' : n <> 1 ->
  divide tri row tag n epart triangles boundary quantities = Some d ->
  nth_error quantities m = Some q -> nth_error (new_quantities _ _ _ d) m = Some q' ->
  reorder row q dflt (tri_index _ _ _ d) (0 :: cumsum 0 (triangles_per_proc _ _ _ d)) = q'.
Proof.
  intros Hn H Hm Hm'. pose proof (C37_reordering d Hn H) as (_ & HP & _ & _ & HR & _).
  pose proof (moved_key d Hn H) as MK. destruct (succeeds_only d Hn H) as (Hlt & Hlen & _).
  assert (Htp : triangles_per_proc _ _ _ d = bincount epart /\ length (tri_index _ _ _ d) = N).
  { unfold divide in H. destruct (Nat.eqb_spec n 1); [lia|].
    destruct (length epart =? 0); [discriminate|]. destruct (forallb _ _); [|discriminate].
    destruct (length (bincount epart) =? n); [|discriminate]. cbn [negb] in H.
    destruct (take triangles _) as [tris|]; [|discriminate].
    destruct (sequence _) as [qs|]; [|discriminate]. destruct (move_boundary _ _ _ _) as [b|]; [|discriminate].
    injection H as <-. cbn [triangles_per_proc tri_index]. split; [reflexivity|].
    unfold set_index. rewrite map_length, seq_length. exact Htri. }
  destruct Htp as [-> Lidx]. unfold reorder. rewrite Lidx.
  set (index := map _ (tri_index _ _ _ d)).
  assert (Ix : forall i, i < N -> exists k, nth i index 0 = before (nth i epart 0) + k /\
     nth_error (epart_order _ _ _ d) (nth i index 0) = Some i /\
     nth i index 0 < N /\ nth_error q' (nth i index 0) = nth_error q i /\ length q' = N).
  { intros i Hi. destruct (HR i Hi) as (k & Hj & E1 & E2 & _ & E4 & _). exists k.
    assert (E : nth i index 0 = before (nth i epart 0) + k).
    { apply nth_error_nth. unfold index. rewrite nth_error_map, E1. cbn [option_map fst snd]. f_equal.
      rewrite psum_nth, offset_before; [reflexivity|]. assert (nth i epart 0 < n) by (apply Hlt, nth_In, Hi). lia. }
    rewrite E. destruct (E4 m q Hm) as (q2 & A & B & C). rewrite A in Hm'. injection Hm' as ->. auto. }
  assert (Hq' : N = 0 \/ length q' = N).
  { destruct (Nat.eq_dec N 0) as [|Hp]; [auto|]. right. destruct (Ix 0 ltac:(lia)) as (k & _ & _ & _ & _ & L). exact L. }
  destruct Hq' as [N0|Hq'].
  { exfalso. assert (X : part epart 0 = []).
    { unfold part. fold N. rewrite N0. reflexivity. }
    destruct (succeeds_only d Hn H) as (_ & HL & Hne). assert (0 < n) by (rewrite <- HL, bincount_length; lia).
    exact (Hne 0 ltac:(lia) X). }
  apply nth_ext with (d := dflt) (d' := dflt); [rewrite map_length, seq_length; lia|].
  intros j Hj. rewrite map_length, seq_length in Hj.
  set (f := fold_left _ (seq 0 N) _).
  rewrite nth_indep with (d' := f 0) by (rewrite map_length, seq_length; exact Hj).
  rewrite (map_nth f), seq_nth by exact Hj. cbn [Nat.add].
  (* the triangle at position j *)
  assert (Hex : exists i, i < N /\ nth i index 0 = j).
  { assert (LO : length (epart_order _ _ _ d) = N) by (rewrite <- (Permutation_length HP), seq_length; reflexivity).
    destruct (nth_error (epart_order _ _ _ d) j) as [i|] eqn:Ej; [|apply nth_error_None in Ej; lia].
    assert (Hi : In i (epart_order _ _ _ d)) by (eapply nth_error_In; exact Ej).
    apply (Permutation_in _ (Permutation_sym HP)) in Hi. apply in_seq in Hi. exists i. split; [lia|].
    destruct (Ix i ltac:(lia)) as (k & _ & E & L & _).
    assert (ND : NoDup (epart_order _ _ _ d)) by (eapply Permutation_NoDup; [exact HP|apply seq_NoDup]).
    rewrite NoDup_nth_error in ND. apply ND; [lia|congruence]. }
  destruct Hex as (i & Hi & <-).
  unfold f. rewrite (fold_upd_in (fun i => nth i index 0) (fun i => nth i q dflt)).
  - destruct (Ix i Hi) as (k & _ & _ & L & E & _). 
    assert (Li : i < length q) by (rewrite (Hq q); [exact Hi|eapply nth_error_In; exact Hm]).
    rewrite (nth_error_nth' q dflt Li) in E. symmetry. exact (nth_error_nth _ _ dflt E).
  - apply seq_NoDup.
  - apply in_seq. lia.
  - intros i' Hi' E. apply in_seq in Hi'. destruct (Ix i Hi) as (_ & _ & A & _), (Ix i' ltac:(lia)) as (_ & _ & B & _).
    rewrite E, A in B. congruence.
Qed.
End C37.
Print Assumptions C37_reordering.
Print Assumptions C37_raises_iff.
Print Assumptions C37_reorder_agrees.

(** Five triangles on two processes. *)
Example divide_example :
  divide nat nat nat 2 [1; 0; 1; 0; 0] [10; 11; 12; 13; 14] [((0, 2), 7); ((3, 1), 8)] [[20; 21; 22; 23; 24]]
  = Some (Divided nat nat nat [11; 13; 14; 10; 12] [((3, 2), 7); ((1, 1), 8)] [3; 2] [[21; 23; 24; 20; 22]]
      [(1, 0); (0, 0); (1, 1); (0, 1); (0, 2)] [1; 3; 4; 0; 2]).
Proof. reflexivity. Qed.
Example reorder_example :
  reorder nat [20; 21; 22; 23; 24] 0 [(1, 0); (0, 0); (1, 1); (0, 1); (0, 2)] [0; 3; 5] = [21; 23; 24; 20; 22].
Proof. reflexivity. Qed.
Example divide_empty_part : divide nat nat nat 2 [0; 0] [10; 11] [] [] = None.
Proof. reflexivity. Qed.

(** On one process everything stays in place, but the returned tri_index and
    order are empty instead of the identity. *)
Theorem C37_one_process tri row tag epart triangles (boundary : bdict tag) (quantities : list (list row)) :
  divide tri row tag 1 epart triangles boundary quantities
  = Some (Divided tri row tag triangles boundary [length triangles] quantities [] []).
Proof. reflexivity. Qed.
Print Assumptions C37_one_process.

Theorem C37_one_process_index_refuted :
  ~ (forall (epart : list nat) (triangles : list nat) d,
      divide nat nat nat 1 epart triangles [] [] = Some d ->
      forall i, i < length triangles -> exists t, nth_error (tri_index _ _ _ d) i = Some t).
Proof.
  intros H. destruct (H [0] [10] _ eq_refl 0) as (t & E); [simpl; lia|]. discriminate.
Qed.
Print Assumptions C37_one_process_index_refuted.
