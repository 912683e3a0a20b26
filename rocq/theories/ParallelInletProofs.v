(** Lemmas for [ParallelInletProps]. *)
From Coq Require Import Reals List Arith Bool Lia Lra Permutation.
From Verif Require Import RealLib ListLib ArrayLib KahnLib SyncLib InletModel InletProofs ParallelInletModel.
Import ListNotations.
Local Open Scope R_scope.

(** ** The loop of the master *)
Section Merge.
Variable big : R.
Variable procs : list nat.
Variable dat : nat -> share.
Notation A i := (sh_areas (dat i)).
Notation SS i := (sh_stages (dat i)).
Notation O i := (sh_order (dat i)).
Notation len i := (length (SS i)).

Hypothesis ND : NoDup procs.
Hypothesis HO : forall i, In i procs -> is_argsort (O i) (SS i).
Hypothesis HA : forall i k, In i procs -> (k < len i)%nat -> 0 < get (A i) k.
Hypothesis HB : forall i k, In i procs -> (k < len i)%nat -> get (SS i) k < big.

Lemma order_perm i : In i procs -> Permutation (O i) (seq 0 (len i)).
Proof using HO.
  intros Hi. destruct (HO i Hi) as (N & M & _). apply NoDup_Permutation; [assumption | apply seq_NoDup |].
  intros k. rewrite M, in_seq. lia.
Qed.
Lemma order_length i : In i procs -> length (O i) = len i.
Proof using HO. intros Hi. rewrite (Permutation_length (order_perm i Hi)). apply seq_length. Qed.
Lemma order_in i k : In i procs -> In k (O i) -> (k < len i)%nat.
Proof using HO. intros Hi Hk. destruct (HO i Hi) as (_ & M & _). now apply M. Qed.

(** Entries from position [p] on are at least the one at [p]. *)
Lemma skipn_ge i p k : In i procs -> (p < len i)%nat -> In k (skipn p (O i)) ->
  get (SS i) (nth p (O i) 0%nat) <= get (SS i) k.
Proof using HO.
  intros Hi Hp Hk. pose proof (order_length i Hi) as L. destruct (HO i Hi) as (_ & _ & S0).
  apply (In_nth _ _ 0%nat) in Hk as (j & Hj & E). rewrite skipn_length in Hj.
  assert (N : nth j (skipn p (O i)) 0%nat = nth (p + j) (O i) 0%nat).
  { rewrite <- (firstn_skipn p (O i)) at 2. rewrite app_nth2; rewrite firstn_length; [| lia]. f_equal. lia. }
  rewrite <- E, N. apply S0. lia.
Qed.

Lemma smallest_aux pos : forall l c0 i0, (c0, i0) = fold_left (fun (c : R * option nat) i =>
    if Nat.leb (length (sh_stages (dat i))) (pos i) then c
    else if Rltb (next_stage dat pos i) (fst c) then (next_stage dat pos i, Some i) else c) l (big, None) ->
  (forall i, In i l -> In i procs) ->
  (forall j, In j l -> (pos j < len j)%nat -> c0 <= next_stage dat pos j) /\
  (match i0 with
   | None => c0 = big
   | Some i => In i l /\ (pos i < len i)%nat /\ c0 = next_stage dat pos i
   end).
Proof using HO HA HB ND.
  induction l as [| a l IH] using rev_ind; intros c0 i0 E HI.
  - cbn in E. injection E as -> ->. split; [intros j [] | reflexivity].
  - rewrite fold_left_app in E. cbn [fold_left] in E.
    destruct (fold_left _ l (big, None)) as [c1 i1] eqn:F. symmetry in F.
    destruct (IH c1 i1 eq_refl) as [I1 I2]; [intros; apply HI; apply in_or_app; now left |].
    destruct (Nat.leb_spec (len a) (pos a)) as [L | L].
    + injection E as -> ->. split.
      * intros j Hj Lj. apply in_app_or in Hj as [Hj | [<- | []]]; [now apply I1 | lia].
      * destruct i1 as [i |]; [| exact I2]. destruct I2 as (? & ? & ?). split; [apply in_or_app; now left | auto].
    + cbn [fst] in E. destruct (Rltb_spec (next_stage dat pos a) c1) as [Lt | Ge].
      * injection E as -> ->. split.
        -- intros j Hj Lj. apply in_app_or in Hj as [Hj | [<- | []]]; [| lra]. specialize (I1 j Hj Lj). lra.
        -- split; [apply in_or_app; right; now left | auto].
      * injection E as -> ->. split.
        -- intros j Hj Lj. apply in_app_or in Hj as [Hj | [<- | []]]; [now apply I1 | lra].
        -- destruct i1 as [i |]; [| exact I2]. destruct I2 as (? & ? & ?). split; [apply in_or_app; now left | auto].
Qed.

Lemma smallest_spec pos : (exists j, In j procs /\ (pos j < len j)%nat) ->
  exists i, smallest big procs dat pos = (next_stage dat pos i, Some i) /\ In i procs /\ (pos i < len i)%nat /\
    forall j, In j procs -> (pos j < len j)%nat -> next_stage dat pos i <= next_stage dat pos j.
Proof using HO HA HB ND.
  intros (j & Hj & Lj). destruct (smallest big procs dat pos) as [c o] eqn:E. unfold smallest in E.
  destruct (smallest_aux pos procs c o (eq_sym E) (fun i H => H)) as [I1 I2].
  destruct o as [i |].
  - destruct I2 as (Hi & Li & ->). exists i. auto.
  - exfalso. specialize (I1 j Hj Lj). rewrite I2 in I1. unfold next_stage in I1.
    assert (H : (nth (pos j) (O j) 0 < len j)%nat).
    { apply (order_in j _ Hj). apply nth_In. rewrite order_length; assumption. }
    specialize (HB j _ Hj H). lra.
Qed.

(** Sums over the entries before the positions. *)
Definition tsum (f : nat -> nat -> R) (pos : nat -> nat) : R :=
  Rsum (map (fun i => Rsum (map (f i) (firstn (pos i) (O i)))) procs).

Lemma firstn_S_nth (l : list nat) k : (k < length l)%nat -> firstn (S k) l = firstn k l ++ [nth k l 0%nat].
Proof.
  revert k. induction l as [| a l IH]; intros k H; simpl in H; [lia |].
  destruct k as [| k]; [reflexivity |]. cbn [firstn nth app]. f_equal. apply IH. lia.
Qed.
Lemma skipn_S_nth (l : list nat) k : (k < length l)%nat -> skipn k l = nth k l 0%nat :: skipn (S k) l.
Proof.
  revert k. induction l as [| a l IH]; intros k H; simpl in H; [lia |].
  destruct k as [| k]; [reflexivity |]. change (skipn k l = nth k l 0%nat :: skipn (S k) l). apply IH. lia.
Qed.

Lemma Rsum_upd_one (g h : nat -> R) i l : NoDup l -> In i l -> (forall j, j <> i -> h j = g j) ->
  Rsum (map h l) = Rsum (map g l) + (h i - g i).
Proof.
  induction l as [| a l IH]; intros N Hi E; [contradiction |]. inversion N; subst. cbn [map Rsum].
  destruct Hi as [-> | Hi].
  - rewrite (Rsum_map_ext_in h g l); [lra |]. intros j Hj. apply E. intros ->. contradiction.
  - rewrite IH by assumption. rewrite (E a); [lra |]. intros ->. contradiction.
Qed.

Lemma tsum_advance f pos i : In i procs -> (pos i < len i)%nat ->
  tsum f (upd pos i (S (pos i))) = tsum f pos + f i (nth (pos i) (O i) 0%nat).
Proof using ND HO.
  intros Hi Li. unfold tsum.
  rewrite (Rsum_upd_one (fun i => Rsum (map (f i) (firstn (pos i) (O i)))) _ i procs ND Hi).
  - rewrite upd_same, firstn_S_nth by (rewrite order_length; assumption).
    rewrite map_app, Rsum_app. cbn [map Rsum]. lra.
  - intros j Hj. now rewrite upd_other.
Qed.

Definition remaining (pos : nat -> nat) : nat := list_sum (map (fun i => len i - pos i)%nat procs).
Lemma list_sum_upd (g h : nat -> nat) i l : NoDup l -> In i l -> (forall j, j <> i -> h j = g j) -> (g i = S (h i)) ->
  list_sum (map g l) = S (list_sum (map h l)).
Proof.
  induction l as [| a l IH]; intros N Hi E F; [contradiction |]. inversion N; subst. cbn [map list_sum fold_right].
  change (fold_right Nat.add 0%nat (map g l)) with (list_sum (map g l)).
  change (fold_right Nat.add 0%nat (map h l)) with (list_sum (map h l)).
  destruct Hi as [-> | Hi].
  - rewrite F. rewrite (map_ext_in g h l); [lia |]. intros j Hj. symmetry. apply E. intros ->. contradiction.
  - rewrite IH by assumption. rewrite (E a); [lia |]. intros ->. contradiction.
Qed.
Lemma remaining_advance pos i : In i procs -> (pos i < len i)%nat ->
  remaining pos = S (remaining (upd pos i (S (pos i)))).
Proof using ND.
  intros Hi Li. unfold remaining. apply (list_sum_upd _ _ i); [assumption | assumption | |].
  - intros j Hj. now rewrite upd_other.
  - rewrite upd_same. lia.
Qed.
Lemma list_sum_pos (f : nat -> nat) l : (0 < list_sum (map f l))%nat -> exists j, In j l /\ (0 < f j)%nat.
Proof.
  induction l as [| a l IH]; cbn [map]; [simpl; lia |]. intros H.
  change (list_sum (f a :: map f l)) with (f a + list_sum (map f l))%nat in H.
  destruct (f a) eqn:E; [| exists a; split; [now left | lia]].
  destruct (IH H) as (j & Hj & Lj). exists j. split; [now right | assumption].
Qed.
Lemma list_sum_zero (f : nat -> nat) l j : list_sum (map f l) = 0%nat -> In j l -> f j = 0%nat.
Proof.
  induction l as [| a l IH]; cbn [map]; [contradiction |]. intros H.
  change (list_sum (f a :: map f l)) with (f a + list_sum (map f l))%nat in H.
  intros [<- | Hj]; [lia |]. apply IH; [lia | assumption].
Qed.
Lemma remaining_pos pos : (0 < remaining pos)%nat -> exists j, In j procs /\ (pos j < len j)%nat.
Proof using. intros H. destruct (list_sum_pos _ _ H) as (j & Hj & L). exists j. split; [assumption | lia]. Qed.
Lemma remaining_zero pos i : remaining pos = 0%nat -> In i procs -> (len i <= pos i)%nat.
Proof using. intros H Hi. pose proof (list_sum_zero _ _ i H Hi). cbn beta in *. lia. Qed.

Definition sg (i k : nat) : R := get (SS i) k.
Definition ag (i k : nat) : R := get (A i) k.

Record minv (volume : R) (st : mstate) : Prop := {
  mi_low : forall i k, In i procs -> In k (firstn (m_pos st i) (O i)) -> sg i k <= m_prev st;
  mi_high : forall i k, In i procs -> In k (skipn (m_pos st i) (O i)) -> m_prev st <= sg i k;
  mi_areas : m_areas st = tsum ag (m_pos st);
  mi_pos : 0 < m_areas st;
  mi_vol : m_volume st = tsum (fun i k => ag i k * (m_prev st - sg i k)) (m_pos st);
  mi_le : m_volume st <= volume }.

Lemma tsum_shift pos c d : tsum (fun i k => ag i k * (d - sg i k)) pos =
  tsum (fun i k => ag i k * (c - sg i k)) pos + tsum ag pos * (d - c).
Proof using.
  unfold tsum. rewrite Rmult_comm, <- Rsum_map_scal, <- Rsum_map_plus. apply Rsum_map_ext_in. intros i _.
  rewrite <- Rsum_map_scal, <- Rsum_map_plus. apply Rsum_map_ext_in. intros k _. ring.
Qed.

(** What the master's loop achieves. *)
Definition filled (volume : R) (pos : nat -> nat) (level : R) : Prop :=
  (forall i k, In i procs -> In k (firstn (pos i) (O i)) -> sg i k <= level) /\
  (forall i k, In i procs -> In k (skipn (pos i) (O i)) -> level <= sg i k) /\
  tsum (fun i k => ag i k * (level - sg i k)) pos = volume.

Lemma finish volume st : minv volume st ->
  (forall i k, In i procs -> In k (skipn (m_pos st i) (O i)) ->
     m_prev st + (volume - m_volume st) / m_areas st <= sg i k) ->
  exists level, new_stage volume st = Some level /\ filled volume (m_pos st) level.
Proof using.
  intros I H. pose proof (mi_pos _ _ I) as P. pose proof (mi_le _ _ I) as L.
  exists (m_prev st + (volume - m_volume st) / m_areas st). split.
  - unfold new_stage. now rewrite (proj2 (Reqb_false _ _)) by lra.
  - assert (D : 0 <= (volume - m_volume st) / m_areas st).
    { apply Rmult_le_pos; [lra |]. now apply Rlt_le, Rinv_0_lt_compat. }
    split; [| split; [exact H |]].
    + intros i k Hi Hk. pose proof (mi_low _ _ I i k Hi Hk). lra.
    + rewrite (tsum_shift _ (m_prev st)), <- (mi_vol _ _ I), <- (mi_areas _ _ I).
      set (c := (volume - m_volume st) / m_areas st).
      replace (m_prev st + c - m_prev st) with c by ring. unfold c. field. lra.
Qed.

Lemma merge_later volume : 0 <= volume -> forall fuel st, minv volume st -> fuel = remaining (m_pos st) ->
  exists st' level, merge big procs dat volume fuel false st = Some st' /\
    new_stage volume st' = Some level /\ filled volume (m_pos st') level.
Proof using HO HA HB ND.
  intros Hv. induction fuel as [| fuel IH]; intros st I F; cbn [merge].
  - exists st. destruct (finish volume st I) as (level & E & L).
    + intros i k Hi Hk. rewrite skipn_all2 in Hk; [contradiction |].
      rewrite (order_length i Hi). now apply remaining_zero.
    + exists level. auto.
  - destruct (smallest_spec (m_pos st)) as (i & -> & Hi & Li & Min); [apply remaining_pos; lia |].
    set (cur := next_stage dat (m_pos st) i) in *.
    assert (Hsk : In (nth (m_pos st i) (O i) 0%nat) (skipn (m_pos st i) (O i))).
    { rewrite skipn_S_nth by (rewrite order_length; assumption). now left. }
    assert (Hc : m_prev st <= cur) by exact (mi_high _ _ I i _ Hi Hsk).
    assert (Hn : (nth (m_pos st i) (O i) 0 < len i)%nat).
    { apply (order_in i _ Hi). apply nth_In. rewrite order_length; assumption. }
    assert (Hall : forall j k, In j procs -> In k (skipn (m_pos st j) (O j)) -> cur <= sg j k).
    { intros j k Hj Hk.
      assert (Lj : (m_pos st j < len j)%nat).
      { destruct (Nat.lt_ge_cases (m_pos st j) (len j)); [assumption |].
        rewrite skipn_all2 in Hk by (rewrite order_length; assumption). contradiction. }
      specialize (Min j Hj Lj). pose proof (skipn_ge j (m_pos st j) k Hj Lj Hk) as G. unfold next_stage in Min. unfold sg. lra. }
    pose proof (mi_pos _ _ I) as P.
    destruct (Rleb_spec volume (m_volume st + m_areas st * (cur - m_prev st))) as [B | B].
    + exists st. destruct (finish volume st I) as (level & E & L); [| exists level; auto].
      intros j k Hj Hk. specialize (Hall j k Hj Hk).
      assert ((volume - m_volume st) / m_areas st <= cur - m_prev st); [| lra].
      apply Rmult_le_reg_r with (m_areas st); [assumption |]. unfold Rdiv. rewrite Rmult_assoc, Rinv_l by lra. lra.
    + apply IH; [constructor; cbn [m_pos m_volume m_areas m_prev] |].
      * intros j k Hj Hk. destruct (Nat.eq_dec j i) as [-> | Nj].
        -- rewrite upd_same, firstn_S_nth in Hk by (rewrite order_length; assumption).
           apply in_app_or in Hk as [Hk | [<- | []]]; [| apply Rle_refl].
           pose proof (mi_low _ _ I i k Hi Hk). lra.
        -- rewrite upd_other in Hk by assumption. pose proof (mi_low _ _ I j k Hj Hk). lra.
      * intros j k Hj Hk. apply Hall; [assumption |]. destruct (Nat.eq_dec j i) as [-> | Nj].
        -- rewrite upd_same in Hk. rewrite skipn_S_nth by (rewrite order_length; assumption). now right.
        -- now rewrite upd_other in Hk.
      * rewrite tsum_advance, <- (mi_areas _ _ I) by assumption. reflexivity.
      * specialize (HA i _ Hi Hn). unfold next_area. lra.
      * rewrite tsum_advance by assumption. rewrite (tsum_shift _ (m_prev st)), <- (mi_vol _ _ I), <- (mi_areas _ _ I).
        change (sg i (nth (m_pos st i) (O i) 0%nat)) with cur. ring.
      * lra.
      * cbn [m_pos]. rewrite (remaining_advance (m_pos st) i Hi Li) in F. now injection F.
Qed.

Lemma tsum_zero f : tsum f (fun _ => 0%nat) = 0.
Proof using. unfold tsum. apply Rsum_map_zero. reflexivity. Qed.

Lemma merge_spec volume fuel : 0 <= volume -> (exists i, In i procs /\ (0 < len i)%nat) ->
  fuel = remaining (fun _ => 0%nat) ->
  exists st level, merge big procs dat volume fuel true (MState (fun _ => 0%nat) 0 0 0) = Some st /\
    new_stage volume st = Some level /\ filled volume (m_pos st) level.
Proof using HO HA HB ND.
  intros Hv Ne F. destruct (smallest_spec (fun _ => 0%nat) Ne) as (i & E & Hi & Li & Min).
  rewrite (remaining_advance (fun _ => 0%nat) i Hi Li) in F. subst fuel. cbn [merge m_pos]. rewrite E.
  set (pos := fun _ : nat => 0%nat) in *. set (cur := next_stage dat pos i) in *.
  assert (Hn : (nth 0 (O i) 0 < len i)%nat).
  { apply (order_in i _ Hi). apply nth_In. rewrite order_length; assumption. }
  assert (Hall : forall j k, In j procs -> In k (O j) -> cur <= sg j k).
  { intros j k Hj Hk.
    assert (Lj : (0 < len j)%nat) by (pose proof (order_in j k Hj Hk); lia).
    specialize (Min j Hj Lj). pose proof (skipn_ge j 0 k Hj Lj Hk) as G. unfold next_stage, pos in Min. unfold sg. lra. }
  apply merge_later; [assumption | constructor; cbn [m_pos m_volume m_areas m_prev] | reflexivity].
  - intros j k Hj Hk. destruct (Nat.eq_dec j i) as [-> | Nj].
    + rewrite upd_same in Hk. unfold pos in Hk. rewrite firstn_S_nth in Hk by (rewrite order_length; assumption).
      destruct Hk as [<- | []]. apply Rle_refl.
    + rewrite upd_other in Hk by assumption. destruct Hk.
  - intros j k Hj Hk. apply Hall; [assumption |].
    rewrite <- (firstn_skipn (upd pos i (S (pos i)) j) (O j)). apply in_or_app. now right.
  - rewrite tsum_advance by assumption. unfold pos at 2. rewrite tsum_zero. unfold next_area, ag, pos. lra.
  - unfold next_area, pos. now apply HA.
  - rewrite tsum_advance by assumption. unfold pos at 1. rewrite tsum_zero.
    change (sg i (nth (pos i) (O i) 0%nat)) with cur. lra.
  - assumption.
Qed.

(** In terms of all entries. *)
Lemma filled_max volume pos level i k : filled volume pos level -> In i procs -> (k < len i)%nat ->
  (if in_dec Nat.eq_dec k (firstn (pos i) (O i)) then level else sg i k) = Rmax (sg i k) level.
Proof using HO.
  intros (F1 & F2 & _) Hi Hk. destruct (in_dec _ _ _) as [Y | N].
  - specialize (F1 i k Hi Y). now rewrite Rmax_right by lra.
  - assert (In k (skipn (pos i) (O i))).
    { assert (H : In k (O i)) by (destruct (HO i Hi) as (_ & M & _); now apply M).
      rewrite <- (firstn_skipn (pos i) (O i)) in H. apply in_app_or in H as [H | H]; [contradiction | assumption]. }
    specialize (F2 i k Hi H). now rewrite Rmax_left by lra.
Qed.

Lemma filled_volume volume pos level : filled volume pos level ->
  Rsum (map (fun i => Rsum (map (fun k => ag i k * (Rmax (sg i k) level - sg i k)) (seq 0 (len i)))) procs) = volume.
Proof using HO.
  intros F. pose proof F as (F1 & F2 & F3). rewrite <- F3. unfold tsum. apply Rsum_map_ext_in. intros i Hi.
  rewrite <- (Rsum_perm _ _ (Permutation_map (fun k => ag i k * (Rmax (sg i k) level - sg i k)) (order_perm i Hi))).
  rewrite <- (firstn_skipn (pos i) (O i)) at 1. rewrite map_app, Rsum_app.
  rewrite (Rsum_map_zero (skipn (pos i) (O i))).
  - rewrite Rplus_0_r. apply Rsum_map_ext_in. intros k Hk. specialize (F1 i k Hi Hk). rewrite Rmax_right by lra. reflexivity.
  - intros k Hk. specialize (F2 i k Hi Hk). rewrite Rmax_left by lra. ring.
Qed.
End Merge.

(** ** The exchanges *)
Lemma numbers_map (f : nat -> R) l : numbers (map (fun i => [MNum (f i)]) l) = Some (map f l).
Proof. induction l as [| a l IH]; [reflexivity |]. cbn [map numbers]. now rewrite IH. Qed.
Lemma shares_map (a s : nat -> list R) (o : nat -> list nat) l :
  shares (map (fun i => [MNums (a i); MNums (s i); MIdx (o i)]) l) = Some (map (fun i => (a i, s i, o i)) l).
Proof. induction l as [| x l IH]; [reflexivity |]. cbn [map shares]. now rewrite IH. Qed.
Lemma lookup_combine (f : nat -> share) l i : In i l -> lookup (combine l (map f l)) i = f i.
Proof.
  induction l as [| a l IH]; [contradiction |]. intros H. cbn [map combine lookup].
  destruct (Nat.eqb_spec i a) as [-> | N]; [reflexivity |]. destruct H as [-> | H]; [congruence | now apply IH].
Qed.
Lemma fold_plus l : forall x, fold_left Rplus l x = x + Rsum l.
Proof. induction l as [| a l IH]; intros x; cbn [fold_left Rsum]; [lra |]. rewrite IH. lra. Qed.
Lemma fold_plus_nat (f : nat -> nat) l : forall x, fold_left (fun t i => t + f i)%nat l x = (x + list_sum (map f l))%nat.
Proof.
  induction l as [| a l IH]; intros x; cbn [fold_left map]; [simpl; lia |]. rewrite IH.
  change (list_sum (f a :: map f l)) with (f a + list_sum (map f l))%nat. lia.
Qed.

Lemma list_sum_perm l l' : Permutation l l' -> list_sum l = list_sum l'.
Proof. intros P. induction P; unfold list_sum in *; cbn [fold_right]; lia. Qed.

Section Run.
Variable n : nat.
Variables vp big : R.
Variable velocity : option (R * R).
Variable zv : bool.
Variable procs : list nat.
Variable master : nat.
Variables idx order : nat -> list nat.
Variables dt Q1 Q2 : R.
Variable st : nat -> opstate.
Hypothesis ND : NoDup procs.
Hypothesis HM : In master procs.
Hypothesis HN : forall p, In p procs -> (p < n)%nat.
Notation oth := (others procs master).
Notation D p := (odom (st p)).

Lemma others_in i : In i oth <-> In i procs /\ i <> master.
Proof using.
  unfold others. rewrite filter_In. destruct (Nat.eqb_spec i master) as [E | E]; cbn [negb]; split; intros [H1 H2];
    (split; [exact H1 |]); try discriminate; try contradiction; auto.
Qed.
Lemma others_nodup : NoDup oth.
Proof using ND. now apply NoDup_filter. Qed.
Lemma others_ok i : In i oth -> (i < n)%nat /\ i <> master.
Proof using HN. intros H. apply others_in in H as [H1 H2]. auto. Qed.
Lemma procs_perm : Permutation procs (master :: oth).
Proof using ND HM.
  apply NoDup_Permutation; [assumption | constructor; [| apply others_nodup] |].
  - intros H. apply others_in in H as [_ H]. congruence.
  - intros i. split.
    + intros H. destruct (Nat.eq_dec i master) as [-> | N]; [now left | right; apply others_in; auto].
    + intros [<- | H]; [assumption | now apply others_in in H].
Qed.
Lemma procs_cases p : In p procs -> p = master \/ In p oth.
Proof using. intros H. destruct (Nat.eq_dec p master); [now left | right; now apply others_in]. Qed.
Lemma not_procs p : ~ In p procs -> p <> master /\ ~ In p oth.
Proof using HM. intros H. split; [intros ->; contradiction | intros X; apply others_in in X as [X _]; contradiction]. Qed.
Lemma master_sum (f : nat -> R) : fold_left Rplus (map f oth) (f master) = Rsum (map f procs).
Proof using ND HM.
  rewrite fold_plus. now rewrite (Rsum_perm _ _ (Permutation_map f procs_perm)).
Qed.

Lemma global_sum_run (x : nat -> R) (K : nat -> R -> prog) s :
  (forall p, In p procs -> s p = global_sum procs master p (x p) (K p)) ->
  exists c t, syncs n c s t /\ t master = K master (Rsum (map x procs)) /\
    (forall i, In i oth -> t i = K i (x i)) /\ forall p, ~ In p procs -> t p = s p.
Proof using ND HM HN.
  intros H.
  destruct (gather_run n master (fun i => [MNum (x i)]) 1 oth s (fun i => K i (x i)) []
              (fun vs => match numbers vs with Some l => K master (fold_left Rplus l (x master)) | None => Fail end))
    as (c & t & T1 & T2 & T3 & T4).
  - now apply HN.
  - apply others_nodup.
  - intros i Hi. destruct (others_ok i Hi). auto.
  - intros i Hi. pose proof (proj1 (others_in i) Hi) as [Hi1 Hi2]. rewrite (H i Hi1). unfold global_sum.
    now rewrite (proj2 (Nat.eqb_neq i master) Hi2).
  - rewrite (H master HM). unfold global_sum. now rewrite Nat.eqb_refl.
  - exists c, t. split; [exact T1 |]. split; [| split; [exact T3 |]].
    + rewrite T2. cbn [app]. rewrite numbers_map, master_sum. reflexivity.
    + intros p Hp. destruct (not_procs p Hp). now apply T4.
Qed.

(** The stages of all processes, and the state of the filling. *)
Definition share_of (p : nat) : share := (inlet_areas (D p) (idx p), take (stage (D p)) (idx p), order p).
Definition all_shares : nat -> share := lookup ((master, share_of master) :: combine oth (map share_of oth)).
Lemma all_shares_at p : In p procs -> all_shares p = share_of p.
Proof using.
  intros H. unfold all_shares. cbn [lookup]. destruct (Nat.eqb_spec p master) as [-> | N]; [reflexivity |].
  apply lookup_combine, others_in. auto.
Qed.

Section Fill.
Hypothesis HO : forall p, In p procs -> is_argsort (order p) (take (stage (D p)) (idx p)).
Hypothesis HA : forall p i, In p procs -> In i (idx p) -> 0 < areas (D p) i.
Hypothesis HB : forall p i, In p procs -> In i (idx p) -> stage (D p) i < big.
Hypothesis NE : exists p, In p procs /\ idx p <> [].

Lemma fill_run volume (K : nat -> dom -> prog) s : 0 <= volume ->
  (forall p, In p procs -> s p = stages_evenly big procs master p (order p) (D p) (idx p) volume (K p)) ->
  exists c t pos level, syncs n c s t /\
    (forall p, In p procs -> t p = K p (apply_level (order p) (D p) (idx p) (pos p) level)) /\
    (forall p, ~ In p procs -> t p = s p) /\ filled procs all_shares volume pos level.
Proof using ND HM HN HO HA HB NE.
  intros Hv H.
  assert (LEN : forall p, In p procs -> length (sh_stages (all_shares p)) = length (idx p)).
  { intros p Hp. rewrite (all_shares_at p Hp). unfold share_of, sh_stages. cbn [fst snd]. unfold take. apply map_length. }
  destruct (merge_spec big procs all_shares ND) with (volume := volume) (fuel := remaining procs all_shares (fun _ => 0%nat))
    as (ms & level & M1 & M2 & M3); [| | | assumption | | reflexivity |].
  - intros i Hi. rewrite (all_shares_at i Hi). now apply HO.
  - intros i k Hi Hk. rewrite (LEN i Hi) in Hk. rewrite (all_shares_at i Hi). unfold share_of, sh_areas. cbn [fst snd].
    unfold inlet_areas, take. rewrite get_map_nat by assumption. apply HA; [assumption | now apply nth_In].
  - intros i k Hi Hk. rewrite (LEN i Hi) in Hk. rewrite (all_shares_at i Hi). unfold share_of, sh_stages. cbn [fst snd].
    unfold take. rewrite get_map_nat by assumption. apply HB; [assumption | now apply nth_In].
  - destruct NE as (p & Hp & Np). exists p. split; [assumption |]. rewrite (LEN p Hp). destruct (idx p); [congruence | cbn; lia].
  - set (K3 := fun p (vs : list msg) => match vs with
        | [MPos q; MNum level] => K p (apply_level (order p) (D p) (idx p) q level)
        | _ => Fail
        end).
    destruct (gather_run n master (fun i => [MNums (inlet_areas (D i) (idx i)); MNums (take (stage (D i)) (idx i)); MIdx (order i)]) 3
      oth s (fun i => recv_list master 2 [] (K3 i)) []
      (fun vs =>
        match shares vs with
        | None => Fail
        | Some l =>
            let dat := lookup ((master, share_of master) :: combine oth l) in
            let total := fold_left (fun t i => t + length (sh_stages (dat i)))%nat oth (length (take (stage (D master)) (idx master))) in
            match merge big procs dat volume total true (MState (fun _ => 0%nat) 0 0 0) with
            | None => Fail
            | Some st0 =>
                match new_stage volume st0 with
                | None => Fail
                | Some level =>
                    scatter oth (fun i => [MPos (m_pos st0 i); MNum level])
                      (K master (apply_level (order master) (D master) (idx master) (m_pos st0 master) level))
                end
            end
        end)) as (c & t & T1 & T2 & T3 & T4).
    + now apply HN.
    + apply others_nodup.
    + intros i Hi. destruct (others_ok i Hi). auto.
    + intros i Hi. pose proof (proj1 (others_in i) Hi) as [Hi1 Hi2]. rewrite (H i Hi1). unfold stages_evenly.
      now rewrite (proj2 (Nat.eqb_neq i master) Hi2).
    + rewrite (H master HM). unfold stages_evenly. now rewrite Nat.eqb_refl.
    + cbn [app] in T2. rewrite shares_map in T2. 
      change (map (fun i => (inlet_areas (D i) (idx i), take (stage (D i)) (idx i), order i)) oth) with (map share_of oth) in T2.
      cbv zeta in T2.
      change (lookup ((master, share_of master) :: combine oth (map share_of oth))) with all_shares in T2.
      assert (TOT : fold_left (fun t i => t + length (sh_stages (all_shares i)))%nat oth (length (take (stage (D master)) (idx master)))
                    = remaining procs all_shares (fun _ => 0%nat)).
      { rewrite (fold_plus_nat (fun i => length (sh_stages (all_shares i)))). unfold remaining.
        rewrite (map_ext (fun i => length (sh_stages (all_shares i)) - 0)%nat (fun i => length (sh_stages (all_shares i))))
          by (intros; lia).
        assert (P : list_sum (map (fun i => length (sh_stages (all_shares i))) procs) =
                    list_sum (map (fun i => length (sh_stages (all_shares i))) (master :: oth))).
        { apply list_sum_perm, Permutation_map, procs_perm. }
        rewrite P. cbn [map]. unfold list_sum at 2. cbn [fold_right].
        rewrite (all_shares_at master HM). reflexivity. }
      rewrite TOT, M1, M2 in T2.
      destruct (scatter_run n master (fun i => [MPos (m_pos ms i); MNum level]) oth t
                  (K master (apply_level (order master) (D master) (idx master) (m_pos ms master) level)) K3)
        as (c2 & t2 & U1 & U2 & U3 & U4).
      * now apply HN.
      * apply others_nodup.
      * intros i Hi. now apply others_ok.
      * intros i Hi. rewrite (T3 i Hi). reflexivity.
      * exact T2.
      * exists (c + c2)%nat, t2, (m_pos ms), level. split; [eapply syncs_trans; eassumption |]. split; [| split; [| exact M3]].
        -- intros p Hp. destruct (procs_cases p Hp) as [-> | Hq]; [exact U2 |]. now rewrite (U3 p Hq).
        -- intros p Hp. destruct (not_procs p Hp) as [N1 N2]. rewrite U4, T4 by assumption. reflexivity.
Qed.
End Fill.

Definition V (p : nat) : R := total_water_volume (D p) (idx p).
Definition AR (p : nat) : R := inlet_area (D p) (idx p).
Definition current : R := Rsum (map V procs).
Definition total : R := Rsum (map AR procs).
Definition volume : R := (1/2) * (Q1 + Q2) * dt.

(** Up to the exchange of the volume. *)
Lemma prologue s :
  (forall p, In p procs -> s p = call vp big velocity zv procs master p (idx p) (order p) dt Q1 Q2 (st p)) ->
  exists c t, syncs n c s t /\ (forall p, ~ In p procs -> t p = s p) /\
    if Rltb current 0 then t master = Fail /\
      forall i, In i oth -> exists k, t i = Recv master k
    else forall p, In p procs ->
      t p = update_inlet vp big velocity zv procs master p (idx p) (order p) (st p) volume current total dt.
Proof using ND HM HN.
  intros H.
  set (K2 := fun p (current_volume total_area : R) =>
    if Nat.eqb p master then
      if Rltb current_volume 0 then Fail
      else scatter oth (fun _ => [MUpdate volume current_volume total_area dt])
             (update_inlet vp big velocity zv procs master p (idx p) (order p) (st p) volume current_volume total_area dt)
    else
      recv_list master 1 [] (fun vs =>
        match vs with
        | [MUpdate volume current total timestep] =>
            update_inlet vp big velocity zv procs master p (idx p) (order p) (st p) volume current total timestep
        | _ => Fail
        end)).
  destruct (global_sum_run V (fun p cv => global_sum procs master p (AR p) (K2 p cv)) s) as (c1 & t1 & S1 & S2 & S3 & S4).
  { intros p Hp. rewrite (H p Hp). reflexivity. }
  destruct (global_sum_run AR (fun p => K2 p (if Nat.eqb p master then current else V p)) t1) as (c2 & t2 & U1 & U2 & U3 & U4).
  { intros p Hp. destruct (procs_cases p Hp) as [-> | Hq].
    - rewrite S2, Nat.eqb_refl. reflexivity.
    - rewrite (S3 p Hq). destruct (others_ok p Hq) as [_ Np]. now rewrite (proj2 (Nat.eqb_neq p master) Np). }
  rewrite Nat.eqb_refl in U2. unfold K2 in U2 at 1. rewrite Nat.eqb_refl in U2. fold total in U2.
  destruct (Rltb current 0) eqn:E.
  - exists (c1 + c2)%nat, t2. split; [eapply syncs_trans; eassumption |]. split; [intros; now rewrite U4, S4 by assumption |].
    split; [exact U2 |]. intros i Hi. rewrite (U3 i Hi). unfold K2.
    destruct (others_ok i Hi) as [_ Np]. rewrite (proj2 (Nat.eqb_neq i master) Np). cbn [recv_list]. eexists. reflexivity.
  - destruct (scatter_run n master (fun _ => [MUpdate volume current total dt]) oth t2
      (update_inlet vp big velocity zv procs master master (idx master) (order master) (st master) volume current total dt)
      (fun p vs => match vs with
        | [MUpdate volume current total timestep] =>
            update_inlet vp big velocity zv procs master p (idx p) (order p) (st p) volume current total timestep
        | _ => Fail
        end)) as (c3 & t3 & W1 & W2 & W3 & W4).
    + now apply HN.
    + apply others_nodup.
    + intros i Hi. now apply others_ok.
    + intros i Hi. rewrite (U3 i Hi). unfold K2. destruct (others_ok i Hi) as [_ Np].
      now rewrite (proj2 (Nat.eqb_neq i master) Np).
    + exact U2.
    + exists (c1 + c2 + c3)%nat, t3. split; [eapply syncs_trans; [eapply syncs_trans |]; eassumption |]. split.
      * intros p Hp. destruct (not_procs p Hp) as [N1 N2]. rewrite W4, U4, S4 by assumption. reflexivity.
      * intros p Hp. destruct (procs_cases p Hp) as [-> | Hq]; [exact W2 | exact (W3 p Hq)].
Qed.
End Run.
