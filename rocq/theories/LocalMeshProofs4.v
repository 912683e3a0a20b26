(** Lemmas about [LocalMeshModel]: the reordering of the mesh. *)
From Coq Require Import List ZArith Arith Lia Bool Permutation Sorted.
From Verif Require Import NeighbourModel NeighbourProofs NeighbourProps DistributeModel DistributeProofs
  LocalMeshModel LocalMeshProofs LocalMeshProofs2 LocalMeshProofs3.
Import ListNotations.

Lemma flat_map_split {A} (L : nat -> list A) m p : p < m ->
  flat_map L (seq 0 m) = flat_map L (seq 0 p) ++ L p ++ flat_map L (seq (S p) (m - S p)).
Proof.
  intros H. replace m with (p + (1 + (m - S p))) at 1 by lia. rewrite !seq_app, !flat_map_app. cbn [seq flat_map].
  rewrite app_nil_r. replace (0 + p + 1) with (S p) by lia. reflexivity.
Qed.
Lemma flat_map_sum {A} (L : nat -> list A) l : length (flat_map L l) = fold_right plus 0 (map (fun c => length (L c)) l).
Proof. induction l as [|x l IH]; [reflexivity|]. cbn. rewrite app_length, IH. reflexivity. Qed.
Lemma firstn_seq : forall p s m, p <= m -> firstn p (seq s m) = seq s p.
Proof. induction p as [|p IH]; intros s [|m] H; cbn; try reflexivity; try lia. rewrite IH by lia. reflexivity. Qed.
Lemma NoDup_flat_map {A} (L : nat -> list A) l : NoDup l -> (forall c, In c l -> NoDup (L c)) ->
  (forall c c' x, In c l -> In c' l -> In x (L c) -> In x (L c') -> c = c') -> NoDup (flat_map L l).
Proof.
  induction 1 as [|c l Hc Hl IH]; intros H1 H2; cbn [flat_map]; [constructor|].
  apply NoDup_app_intro; [apply H1; left; reflexivity| |].
  - apply IH; [intros; apply H1; right; assumption|]. intros a b x Ha Hb. apply H2; right; assumption.
  - intros x Hx H. apply in_flat_map in H as (c' & Hc' & Hx').
    assert (c = c') by (eapply H2; [left; reflexivity|right; exact Hc'|exact Hx|exact Hx']). subst c'. contradiction.
Qed.
Lemma max_ge l x : In x l -> x <= fold_right Nat.max 0 l.
Proof. induction l as [|y l IH]; intros H; [destruct H|]. cbn. destruct H as [->|H]; [lia|]. specialize (IH H). lia. Qed.
Lemma filter_map_length {A B} (f : A -> B) (pr : B -> bool) l : length (filter pr (map f l)) = length (filter (fun x => pr (f x)) l).
Proof. induction l as [|x l IH]; [reflexivity|]. cbn. destruct (pr (f x)); cbn; rewrite IH; reflexivity. Qed.
Lemma seq_map_nth {A} (d : A) l : map (fun i => nth i l d) (seq 0 (length l)) = l.
Proof.
  induction l as [|x l IH]; [reflexivity|]. cbn [length seq map]. cbn [nth]. f_equal.
  rewrite <- seq_shift, map_map. exact IH.
Qed.

Section Divide.
Variable epart : list nat.
Hypothesis NE : epart <> [].
Let n := length epart.
Let m := S (fold_right Nat.max 0 epart).
Let tpp := bincount epart.
Let order := argsort epart.
(** The triangles of process [c]. *)
Definition class (c : nat) : list nat := filter (fun i => Nat.eqb (nth i epart 0) c) (seq 0 (length epart)).

Lemma class_In c x : In x (class c) <-> x < n /\ nth x epart 0 = c.
Proof. unfold class. rewrite filter_In, in_seq, Nat.eqb_eq. unfold n. intuition lia. Qed.
Lemma class_NoDup c : NoDup (class c).
Proof. apply NoDup_filter, seq_NoDup. Qed.
Lemma tpp_class : tpp = map (fun c => length (class c)) (seq 0 m).
Proof.
  unfold tpp, bincount. replace (match epart with [] => 0 | _ => S (fold_right Nat.max 0 epart) end) with m.
  2:{ unfold m. destruct epart; [congruence|reflexivity]. }
  apply map_ext. intros c.
  rewrite <- (seq_map_nth 0 epart) at 1. rewrite filter_map_length. unfold class. f_equal. apply filter_ext.
  intros i. apply Nat.eqb_sym.
Qed.
Lemma tpp_length : length tpp = m.
Proof. rewrite tpp_class, map_length, seq_length. reflexivity. Qed.
Lemma tpp_nth c : c < m -> nth c tpp 0 = length (class c).
Proof.
  intros H. rewrite tpp_class. rewrite (nth_indep _ 0 (length (class 0))) by (rewrite map_length, seq_length; exact H).
  rewrite (map_nth (fun c => length (class c))). rewrite seq_nth by exact H. reflexivity.
Qed.
Lemma order_def : order = flat_map class (seq 0 m).
Proof. reflexivity. Qed.
Lemma order_In x : In x order <-> x < n.
Proof.
  rewrite order_def, in_flat_map. split.
  - intros (c & _ & H). apply class_In in H. tauto.
  - intros H. exists (nth x epart 0). split; [|apply class_In; auto]. apply in_seq. split; [lia|].
    assert (In (nth x epart 0) epart) by (apply nth_In; exact H). apply max_ge in H0. unfold m. lia.
Qed.
Lemma order_NoDup : NoDup order.
Proof.
  rewrite order_def. apply NoDup_flat_map; [apply seq_NoDup|intros; apply class_NoDup|].
  intros c c' x _ _ H1 H2. apply class_In in H1, H2. destruct H1, H2. congruence.
Qed.
Lemma order_length : length order = n.
Proof.
  rewrite <- (seq_length n 0). apply Permutation_length, NoDup_Permutation; [apply order_NoDup|apply seq_NoDup|].
  intros x. rewrite order_In, in_seq. lia.
Qed.
Lemma sum_split c : c <= m -> proc_sum tpp c = length (flat_map class (seq 0 c)).
Proof.
  intros H. unfold proc_sum. rewrite tpp_class, firstn_map, firstn_seq by exact H. rewrite flat_map_sum. reflexivity.
Qed.
Lemma total_tpp : total tpp = Z.of_nat n.
Proof. unfold total. rewrite tpp_class, <- flat_map_sum, <- order_def, order_length. reflexivity. Qed.
Lemma ranges_nth : forall t lo p, p < length t ->
  nth p (ranges lo t) (0, 0)%Z = ((lo + Z.of_nat (proc_sum t p))%Z, (lo + Z.of_nat (proc_sum t p) + Z.of_nat (nth p t 0%nat))%Z).
Proof.
  induction t as [|c t IH]; intros lo [|p] H; cbn [length] in H; try lia; cbn [ranges nth].
  - unfold proc_sum. cbn. f_equal; lia.
  - rewrite IH by lia. unfold proc_sum. cbn [firstn fold_right]. f_equal; lia.
Qed.
Lemma rng_tpp p : p < m -> rng tpp p = (Z.of_nat (proc_sum tpp p), (Z.of_nat (proc_sum tpp p) + Z.of_nat (length (class p)))%Z).
Proof.
  intros H. unfold rng. rewrite ranges_nth by (rewrite tpp_length; exact H). rewrite tpp_nth by exact H. f_equal; lia.
Qed.
Lemma order_pos c k : c < m -> k < length (class c) -> nth_error order (proc_sum tpp c + k) = nth_error (class c) k.
Proof.
  intros Hc Hk. rewrite order_def, (flat_map_split class m c Hc), sum_split by lia.
  rewrite nth_error_app2 by lia. rewrite nth_error_app1 by lia. f_equal. lia.
Qed.
Lemma order_slice p : p < m -> firstn (length (class p)) (skipn (proc_sum tpp p) order) = class p.
Proof.
  intros H. rewrite order_def, (flat_map_split class m p H), sum_split by lia.
  rewrite skipn_app, skipn_all, Nat.sub_diag. cbn [app skipn].
  rewrite firstn_app, firstn_all, Nat.sub_diag. cbn [firstn]. apply app_nil_r.
Qed.
(** Position [j] belongs to process [p] exactly if the triangle there does. *)
Lemma order_range p j k : p < m -> nth_error order j = Some k ->
  ((fst (rng tpp p) <= Z.of_nat j < snd (rng tpp p))%Z <-> nth k epart 0 = p).
Proof.
  intros Hp Hj. rewrite (rng_tpp p Hp). cbn [fst snd]. split.
  - intros H. assert (E : nth_error order (proc_sum tpp p + (j - proc_sum tpp p)) = nth_error (class p) (j - proc_sum tpp p))
      by (apply order_pos; [exact Hp|lia]).
    replace (proc_sum tpp p + (j - proc_sum tpp p)) with j in E by lia. rewrite Hj in E. symmetry in E.
    apply nth_error_In, class_In in E. tauto.
  - intros E. assert (Hk : In k (class p)).
    { apply class_In. split; [|exact E]. apply order_In. eapply nth_error_In. exact Hj. }
    apply In_nth_error in Hk as [i Hi]. assert (Li : i < length (class p)) by (apply nth_error_Some; congruence).
    pose proof (order_pos p i Hp Li) as E2. rewrite Hi in E2.
    assert (j = proc_sum tpp p + i).
    { apply (proj1 (NoDup_nth_error order) order_NoDup); [apply nth_error_Some; congruence|congruence]. }
    lia.
Qed.

(** ** The new numbers of the triangles *)
Definition position (x : nat) : nat := let t := new_tri_index tpp order x in proc_sum tpp (fst t) + snd t.
Lemma position_ok x : x < n -> nth_error order (position x) = Some x.
Proof.
  intros Hx. unfold position, new_tri_index.
  set (E := flat_map (fun i => map (fun k => (nth (proc_sum tpp i + k) order 0, (i, k))) (seq 0 (nth i tpp 0))) (seq 0 (length tpp))).
  assert (HE : forall y i k, In (y, (i, k)) E -> nth_error order (proc_sum tpp i + k) = Some y).
  { intros y i k H. unfold E in H. apply in_flat_map in H as (i' & Hi & H). apply in_map_iff in H as (k' & Eq & Hk).
    injection Eq as <- <- <-. apply in_seq in Hi, Hk. rewrite tpp_length in Hi. rewrite tpp_nth in Hk by lia.
    apply nth_error_nth'. assert (nth_error order (proc_sum tpp i' + k') <> None); [|apply nth_error_Some; assumption].
    rewrite order_pos by lia. apply nth_error_Some. lia. }
  destruct (override_spec Nat.eqb Nat.eqb_eq E (fun _ => (0, 0)) x) as [A _].
  destruct A as ([i k] & Hv & Ev).
  { assert (Hc : In x (class (nth x epart 0))) by (apply class_In; auto).
    assert (Hm : nth x epart 0 < m).
    { assert (In (nth x epart 0) epart) by (apply nth_In; exact Hx). apply max_ge in H. unfold m. lia. }
    apply In_nth_error in Hc as [k Hk]. assert (Lk : k < length (class (nth x epart 0))) by (apply nth_error_Some; congruence).
    apply in_map_iff. exists (nth (proc_sum tpp (nth x epart 0) + k) order 0, (nth x epart 0, k)). split.
    - cbn [fst]. apply nth_error_nth. rewrite order_pos by assumption. exact Hk.
    - unfold E. apply in_flat_map. exists (nth x epart 0). split; [apply in_seq; rewrite tpp_length; lia|].
      apply in_map_iff. exists k. split; [reflexivity|]. apply in_seq. rewrite tpp_nth by exact Hm. lia. }
  rewrite Ev. cbn [fst snd]. apply HE. exact Hv.
Qed.
Lemma position_iff x j : x < n -> (position x = j <-> nth_error order j = Some x).
Proof.
  intros Hx. split; [intros <-; apply position_ok; exact Hx|]. intros H.
  apply (proj1 (NoDup_nth_error order) order_NoDup).
  - apply nth_error_Some. rewrite (position_ok x Hx). discriminate.
  - rewrite (position_ok x Hx). congruence.
Qed.

(** ** Boundary *)
Variable bd : bdict.
Hypothesis NDbd : NoDup (map fst bd).
Hypothesis Hbd : forall k i, In (k, i) (map fst bd) -> k < n.
Let newb := new_boundary tpp order bd.
Lemma newb_run : newb = map (fun e => ((position (fst (fst e)), snd (fst e)), snd e)) bd.
Proof.
  unfold newb, new_boundary.
  assert (S : forall b d : bdict, fold_left (fun d e => let t := new_tri_index tpp order (fst (fst e)) in
     dset key_eqb d (proc_sum tpp (fst t) + snd t, snd (fst e)) (snd e)) b d =
     fold_left (fun d x => dset key_eqb d (fst x) (snd x)) (map (fun e => ((position (fst (fst e)), snd (fst e)), snd e)) b) d).
  { induction b as [|e b IH]; intros d; [reflexivity|]. cbn [fold_left map]. apply IH. }
  rewrite S. apply (dset_fold key_eqb key_eqb_iff _ []). cbn [app]. rewrite map_map. cbn [fst].
  rewrite <- (map_map fst (fun k => (position (fst k), snd k)) bd). apply NoDup_map_inj; [exact NDbd|].
  intros [k i] [k' i'] H1 H2 E. cbn [fst snd] in E. injection E as E <-. apply Hbd in H1, H2.
  apply position_iff in E; [|exact H1]. rewrite (position_ok k' H2) in E. injection E as ->. reflexivity.
Qed.
Lemma newb_NoDup : NoDup (map fst newb).
Proof.
  rewrite newb_run, map_map. cbn [fst].
  rewrite <- (map_map fst (fun k => (position (fst k), snd k)) bd). apply NoDup_map_inj; [exact NDbd|].
  intros [k i] [k' i'] H1 H2 E. cbn [fst snd] in E. injection E as E <-. apply Hbd in H1, H2.
  apply position_iff in E; [|exact H1]. rewrite (position_ok k' H2) in E. injection E as ->. reflexivity.
Qed.
Lemma newb_lookup j k i : nth_error order j = Some k -> lookup newb (j, i) = lookup bd (k, i).
Proof.
  intros Hj. assert (Hk : k < n) by (apply order_In; eapply nth_error_In; exact Hj).
  rewrite newb_run. set (g := fun key : nat * nat => (position (fst key), snd key)).
  change (map (fun e : (nat * nat) * nat => ((position (fst (fst e)), snd (fst e)), snd e)) bd)
    with (map (fun e : (nat * nat) * nat => (g (fst e), snd e)) bd).
  replace (j, i) with (g (k, i)).
  2:{ unfold g. cbn [fst snd]. rewrite (proj2 (position_iff k j Hk) Hj). reflexivity. }
  apply lookup_map. intros [k' i'] H E. unfold g in E. cbn [fst snd] in E. injection E as E ->.
  apply Hbd in H. apply position_iff in E; [|exact H]. rewrite (position_ok k Hk) in E. injection E as ->. reflexivity.
Qed.
Lemma newb_keys j i : In (j, i) (map fst newb) -> exists k, nth_error order j = Some k /\ In (k, i) (map fst bd).
Proof.
  rewrite newb_run, map_map. cbn [fst]. intros H. apply in_map_iff in H as ([[k i'] t] & E & H). cbn [fst snd] in E.
  injection E as <- ->. assert (Hk : In (k, i) (map fst bd)) by (change (k, i) with (fst ((k, i), t)); apply in_map; exact H).
  exists k. split; [|exact Hk]. apply position_ok. eapply Hbd. exact Hk.
Qed.
End Divide.
