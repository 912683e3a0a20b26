(** C118: the slices that cover an extent *)
From Coq Require Import Reals List Arith Bool Lra Lia.
From Verif Require Import RealLib ExtentIndexModel.
Import ListNotations.
Local Open Scope R_scope.

Lemma sorted_cons x l : sorted (x :: l) = true -> sorted l = true /\ forall y, In y l -> x <= y.
Proof.
  revert x. induction l as [|y l IH]; intros x H; [split; [reflexivity|intros y []]|].
  cbn [sorted] in H. apply andb_true_iff in H. destruct H as [H S1]. apply Rleb_true in H. split; [exact S1|].
  destruct (IH y S1) as [_ U]. intros z [<-|I]; [exact H|]. specialize (U z I). lra.
Qed.
Lemma search_spec l v : sorted l = true -> forall i, (i < length l)%nat -> (nth i l 0 < v <-> (i < searchsorted l v)%nat).
Proof.
  unfold searchsorted. induction l as [|x l IH]; intros H i Hi; [cbn in Hi; lia|]. destruct (sorted_cons x l H) as [S1 U].
  cbn [filter]. destruct (Rltb_spec x v) as [L|L].
  - cbn [length]. destruct i as [|i]; [cbn; split; [lia|intros _; exact L]|]. cbn [nth]. rewrite (IH S1 i) by (cbn in Hi; lia). lia.
  - assert (F : filter (fun x => Rltb x v) l = []).
    { destruct (filter (fun x => Rltb x v) l) as [|y t] eqn:E; [reflexivity|]. assert (I : In y (filter (fun x => Rltb x v) l)) by (rewrite E; left; reflexivity).
      apply filter_In in I. destruct I as [I P]. apply Rltb_true in P. specialize (U y I). lra. }
    rewrite F. cbn [length]. split; [|intros Z; exfalso; lia]. intros P. exfalso. destruct i as [|i]; cbn in P; [lra|].
    assert (Hi' : (i < length l)%nat) by (cbn in Hi; lia). specialize (U (nth i l 0) (nth_In l 0 Hi')). lra.
Qed.
Lemma search_le l v : (searchsorted l v <= length l)%nat.
Proof. unfold searchsorted. induction l as [|x l IH]; cbn; [lia|]. destruct (Rltb x v); cbn; lia. Qed.
Lemma search_mono l v w : v <= w -> (searchsorted l v <= searchsorted l w)%nat.
Proof. intros H. unfold searchsorted. induction l as [|x l IH]; cbn; [lia|]. destruct (Rltb_spec x v), (Rltb_spec x w); cbn; try lia; exfalso; lra. Qed.

(** The slice from [a] to [b] of an ascending list covers the extent: it has all
    entries within it, it reaches an entry below the lower bound if there is
    one, and one not below the upper bound if there is one; and it is the
    smallest such slice. *)
Definition covers (l : list R) (a b : nat) (lo hi : option R) : Prop :=
  (forall i, (i < length l)%nat -> (forall v, lo = Some v -> v <= nth i l 0) -> (forall v, hi = Some v -> nth i l 0 < v) -> (a <= i < b)%nat) /\
  (forall v, lo = Some v -> nth 0 l 0 < v -> nth a l 0 < v) /\
  (forall v, lo = Some v -> forall i, (a < i < length l)%nat -> v <= nth i l 0) /\
  (forall v, hi = Some v -> v <= nth (length l - 1) l 0 -> (0 < b <= length l)%nat /\ v <= nth (b - 1) l 0) /\
  (forall v, hi = Some v -> forall i, (i + 1 < b)%nat -> (i < length l)%nat -> nth i l 0 < v).
Lemma covers_gen l lo hi b : sorted l = true -> l <> [] ->
  match hi with None => (length l <= b)%nat | Some v => b = S (searchsorted l v) \/ (b = length l /\ searchsorted l v = length l) end ->
  covers l (min_index l lo) b lo hi.
Proof.
  intros So N B. assert (P : (0 < length l)%nat) by (destruct l; [congruence|cbn; lia]). unfold covers, min_index. split; [|split; [|split; [|split]]].
  - intros i Hi L H. split.
    + destruct lo as [v|]; [|lia]. specialize (L v eq_refl). pose proof (search_spec l v So i Hi) as Q. destruct (Nat.lt_ge_cases i (searchsorted l v)) as [K|K]; [apply Q in K; lra|lia].
    + destruct hi as [v|]; [|lia]. specialize (H v eq_refl). apply (search_spec l v So i Hi) in H. lia.
  - intros v -> H. apply (search_spec l v So 0 P) in H. apply (search_spec l v So); pose proof (search_le l v); lia.
  - intros v -> i Hi. destruct (Rlt_le_dec (nth i l 0) v) as [K|K]; [|exact K]. apply (search_spec l v So) in K; lia.
  - intros v -> H. assert (Q : ~ (length l - 1 < searchsorted l v)%nat) by (intros Q; apply (search_spec l v So) in Q; [lra|lia]).
    destruct B as [->|B]; [|lia]. split; [lia|]. replace (S (searchsorted l v) - 1)%nat with (searchsorted l v) by lia.
    destruct (Rlt_le_dec (nth (searchsorted l v) l 0) v) as [K|K]; [|exact K]. apply (search_spec l v So) in K; lia.
  - intros v -> i Hi Hl. apply (search_spec l v So i Hl). lia.
Qed.
Definition slice (a b : nat) (l : list R) : list R := firstn (b - a) (skipn a l).
Lemma slice_rev l a b : (a <= b)%nat -> (b <= length l)%nat -> slice (length l - b) (length l - a) l = rev (slice a b (rev l)).
Proof.
  intros A B. unfold slice. rewrite skipn_rev, firstn_rev, rev_involutive, firstn_length.
  replace (Nat.min (length l - a) (length l) - (b - a))%nat with (length l - b)%nat by lia. rewrite skipn_firstn_comm. reflexivity.
Qed.

(** Ascending latitudes and longitudes *)
Theorem C118_longitudes l lo hi a b : l <> [] -> longitudes_slice l lo hi = Some (a, b) -> covers l a b lo hi.
Proof.
  intros N. unfold longitudes_slice. destruct (sorted l) eqn:So; [|discriminate]. intros H. injection H; intros <- <-. apply covers_gen; [exact So|exact N|].
  destruct hi; [left|]; lia.
Qed.
Print Assumptions C118_longitudes.
Theorem C118_latitudes l lo hi a b : l <> [] -> sorted l = true -> latitudes_slice l lo hi = Some (a, b) -> covers l a b lo hi /\ (a < b <= length l \/ b <= a)%nat.
Proof.
  intros N So. unfold latitudes_slice. rewrite So. intros H. injection H; intros <- <-. assert (P : (0 < length l)%nat) by (destruct l; [congruence|cbn; lia]). split.
  - apply covers_gen; [exact So|exact N|]. unfold max_index, largest. destruct hi as [v|]; [|lia]. pose proof (search_le l v). lia.
  - unfold max_index, largest. destruct hi; lia.
Qed.
Print Assumptions C118_latitudes.
(** Descending latitudes: the slice is the mirror image of one that covers the
    extent in the ascending list. *)
Theorem C118_descending l lo hi a b : sorted l = false -> (forall v w, lo = Some v -> hi = Some w -> v <= w) ->
  latitudes_slice l lo hi = Some (a, b) ->
  exists a' b', covers (rev l) a' b' lo hi /\ slice a b l = rev (slice a' b' (rev l)) /\ a = (length l - b')%nat /\ b = (length l - a')%nat.
Proof.
  intros So O. unfold latitudes_slice. rewrite So. destruct (sorted (rev l)) eqn:Sr; [|discriminate]. intros H.
  assert (N : l <> []) by (intros ->; discriminate). assert (P : (0 < length l)%nat) by (destruct l; [congruence|cbn; lia]).
  assert (N' : rev l <> []) by (intros E; apply N; rewrite <- (rev_involutive l), E; reflexivity).
  assert (M : (min_index (rev l) lo <= max_index (rev l) hi <= length l - 1)%nat).
  { unfold min_index, max_index, largest. rewrite rev_length. destruct lo as [v|], hi as [w|]; try lia.
    - pose proof (search_mono (rev l) v w (O v w eq_refl eq_refl)). pose proof (search_le (rev l) v) as S1. rewrite rev_length in S1. lia.
    - pose proof (search_le (rev l) v) as S1. rewrite rev_length in S1. lia. }
  injection H; intros <- <-. exists (min_index (rev l) lo), (max_index (rev l) hi + 1)%nat. split; [|split; [|unfold largest; lia]].
  - apply covers_gen; [exact Sr|exact N'|]. unfold max_index, largest. destruct hi as [v|]; [|lia]. pose proof (search_le (rev l) v) as S1. rewrite rev_length in *. lia.
  - rewrite <- slice_rev by lia. f_equal; unfold largest; lia.
Qed.
Print Assumptions C118_descending.

(** Lists in no order are refused; without bounds the slices are the whole
    lists. *)
Theorem C118_whole lat lon a b c d : lat <> [] -> get_min_max_indices lat lon None None None None = Some (c, d, a, b) ->
  slice c d lat = lat /\ slice a b lon = lon.
Proof.
  intros N. assert (P : (0 < length lat)%nat) by (destruct lat; [congruence|cbn; lia]).
  unfold get_min_max_indices, longitudes_slice, latitudes_slice. destruct (sorted lon); [|discriminate].
  assert (W : forall (l : list R) n, (length l <= n)%nat -> slice 0 n l = l) by (intros l n H; unfold slice; cbn [skipn]; apply firstn_all2; lia).
  destruct (sorted lat); [|destruct (sorted (rev lat)); [|discriminate]]; intros H; injection H; intros <- <- <- <-; unfold largest, min_index, max_index, largest;
    try rewrite rev_length; (split; [|apply W; lia]).
  - apply W. lia.
  - replace (length lat - 1 - (length lat - 1))%nat with 0%nat by lia. apply W. lia.
Qed.
Print Assumptions C118_whole.
Theorem C118_order lat lon minlat maxlat minlon maxlon :
  get_min_max_indices lat lon minlat maxlat minlon maxlon = None <-> sorted lon = false \/ (sorted lat = false /\ sorted (rev lat) = false).
Proof.
  unfold get_min_max_indices, longitudes_slice, latitudes_slice. destruct (sorted lon), (sorted lat), (sorted (rev lat)); split; intros H; try discriminate; auto;
    destruct H as [H|[H H']]; discriminate.
Qed.
Print Assumptions C118_order.
(** The upper index of the longitudes may lie two beyond the last, which slicing
    permits. *)
Theorem C118_beyond l : l <> [] -> sorted l = true -> longitudes_slice l None None = Some (0%nat, S (length l)).
Proof. intros _ So. unfold longitudes_slice. rewrite So. cbn [min_index]. do 2 f_equal. lia. Qed.
Print Assumptions C118_beyond.

(** Cases *)
Lemma up : sorted [1; 2; 3] = true.
Proof. cbn. rewrite !(proj2 (Rleb_true _ _)) by lra. reflexivity. Qed.
Example C118_longitudes_case : exists a b, longitudes_slice [1; 2; 3] (Some 2) (Some 3) = Some (a, b) /\ covers [1; 2; 3] a b (Some 2) (Some 3).
Proof.
  destruct (longitudes_slice [1; 2; 3] (Some 2) (Some 3)) as [[a b]|] eqn:E; [|unfold longitudes_slice in E; rewrite up in E; discriminate].
  exists a, b. split; [reflexivity|]. apply C118_longitudes; [discriminate|exact E].
Qed.
Example C118_latitudes_case : exists a b, latitudes_slice [1; 2; 3] (Some 2) (Some 3) = Some (a, b) /\ covers [1; 2; 3] a b (Some 2) (Some 3).
Proof.
  destruct (latitudes_slice [1; 2; 3] (Some 2) (Some 3)) as [[a b]|] eqn:E; [|unfold latitudes_slice in E; rewrite up in E; discriminate].
  exists a, b. split; [reflexivity|]. apply C118_latitudes; [discriminate|exact up|exact E].
Qed.
Lemma down : sorted [3; 2; 1] = false.
Proof. cbn. rewrite (proj2 (Rleb_false 3 2)) by lra. reflexivity. Qed.
Example C118_descending_case : exists a b a' b', latitudes_slice [3; 2; 1] (Some 2) (Some 3) = Some (a, b) /\ slice a b [3; 2; 1] = rev (slice a' b' [1; 2; 3]).
Proof.
  destruct (latitudes_slice [3; 2; 1] (Some 2) (Some 3)) as [[a b]|] eqn:E.
  - destruct (C118_descending [3; 2; 1] (Some 2) (Some 3) a b down) as (a' & b' & _ & F & _); [intros v w A B; injection A; injection B; intros; subst; lra|exact E|].
    exists a, b, a', b'. split; [reflexivity|exact F].
  - unfold latitudes_slice in E. rewrite down in E. change (rev [3; 2; 1]) with [1; 2; 3] in E. rewrite up in E. discriminate.
Qed.
Example C118_whole_case : exists r, get_min_max_indices [3; 2; 1] [1; 2; 3] None None None None = Some r.
Proof.
  destruct (get_min_max_indices [3; 2; 1] [1; 2; 3] None None None None) as [r|] eqn:E; [exists r; reflexivity|]. apply C118_order in E.
  rewrite up in E. change (rev [3; 2; 1]) with [1; 2; 3] in E. rewrite up in E. destruct E as [E|[_ E]]; discriminate.
Qed.
