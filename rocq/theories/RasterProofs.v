(** Lemmas about the readers of elevation grids. *)
From Coq Require Import Reals List ZArith Arith Bool Lra Lia Psatz.
From Verif Require Import RealLib ArrayLib GridModel GridProofs Interp2dModel Interp2dProps RasterModel.
Import ListNotations.
Local Open Scope R_scope.

Lemma linspace_length a b n : length (linspace a b n) = n.
Proof. unfold linspace. now rewrite map_length, seq_length. Qed.

Lemma nth_map_seq {A} (f : nat -> A) (d : A) n k : (k < n)%nat -> nth k (map f (seq 0 n)) d = f k.
Proof.
  intros H. rewrite (nth_indep _ d (f 0%nat)) by now rewrite map_length, seq_length.
  rewrite (map_nth f (seq 0 n) 0%nat). now rewrite seq_nth.
Qed.

Lemma linspace_at a s n k : (k < n)%nat -> at_ (linspace a (a + (INR n - 1) * s) n) k = a + INR k * s.
Proof.
  intros H. unfold at_, linspace. rewrite nth_map_seq by exact H.
  destruct (Nat.eq_dec n 1) as [->|N]; [assert (k = 0)%nat as -> by lia; cbn; ring|].
  rewrite minus_INR by lia. change (INR 1) with 1.
  assert (2 <= INR n) by (change 2 with (INR 2); apply le_INR; lia). field. lra.
Qed.
Lemma linspace_at_swap a s n k : (k < n)%nat -> at_ (linspace a (a + s * (INR n - 1)) n) k = a + INR k * s.
Proof. intros H. rewrite (Rmult_comm s). now apply linspace_at. Qed.
(** Upwards from the far end. *)
Lemma linspace_down a s n k : (k < n)%nat ->
  at_ (linspace (a + (INR n - 1) * s) a n) (n - 1 - k) = a + INR k * s.
Proof.
  intros H. unfold at_, linspace. rewrite nth_map_seq by lia.
  destruct (Nat.eq_dec n 1) as [->|N]; [assert (k = 0)%nat as -> by lia; cbn; ring|].
  replace (n - 1 - k)%nat with (n - (1 + k))%nat by lia. rewrite !minus_INR by lia. rewrite plus_INR. change (INR 1) with 1.
  assert (2 <= INR n) by (change 2 with (INR 2); apply le_INR; lia). field. lra.
Qed.

Lemma even_axis (x : list R) n a s : (1 < n)%nat -> 0 < s -> length x = n ->
  (forall k, (k < n)%nat -> at_ x k = a + INR k * s) -> good_axis x.
Proof.
  intros N S L H. apply strictly_increasing_good; [lia|]. intros i j I.
  rewrite !H by lia. assert (INR i < INR j) by (apply lt_INR; lia). nra.
Qed.

(** Only values inside the grid matter. *)
Lemma value_ext x y (z z' : nat -> nat -> flt) u v :
  good_axis x -> good_axis y -> at_ x 0 <= u <= last_ x -> at_ y 0 <= v <= last_ y ->
  (forall i j, (i < length x)%nat -> (j < length y)%nat -> z i j = z' i j) ->
  value Linear x y z u v = value Linear x y z' u v.
Proof.
  intros Gx Gy Hu Hv H.
  assert (Lx := searchsorted_lt x u (proj2 Hu) ltac:(destruct Gx; lia)).
  assert (Ly := searchsorted_lt y v (proj2 Hv) ltac:(destruct Gy; lia)).
  assert (B : forall n i, (i < n)%nat -> (before n i < n)%nat) by (intros n [|i] ?; cbn; lia).
  unfold value. rewrite !H by auto. reflexivity.
Qed.

Lemma data_ext (l : list (list R)) m n f : length l = m -> Forall (fun r => length r = n) l ->
  (forall i k, (i < m)%nat -> (k < n)%nat -> f i k = cell_of l i k) ->
  map (fun i => map (f i) (seq 0 n)) (seq 0 m) = l.
Proof.
  intros L F H. apply nth_ext with (d := []) (d' := []); [now rewrite map_length, seq_length|].
  rewrite map_length, seq_length. intros i I. rewrite nth_map_seq by exact I.
  rewrite Forall_forall in F.
  assert (N : length (nth i l []) = n) by (apply F, nth_In; lia).
  apply nth_ext with (d := 0) (d' := 0); [now rewrite map_length, seq_length|].
  rewrite map_length, seq_length. intros k K. rewrite nth_map_seq by exact K. now apply H.
Qed.

Lemma well_formed_spec d : well_formed d = true <->
  length (r_data d) = r_rows d /\ Forall (fun row => length row = r_cols d) (r_data d).
Proof.
  unfold well_formed. rewrite andb_true_iff, Nat.eqb_eq, forallb_forall, Forall_forall.
  split; intros (A & B); (split; [exact A|]); intros r I; specialize (B r I); now apply Nat.eqb_eq.
Qed.

Lemma loadtxt_matrix data m n : length data = m -> Forall (fun row => length row = n) data -> (1 < m)%nat -> (1 < n)%nat ->
  loadtxt data = Some (Matrix m n (fun i k => Some (cell_of data i k))).
Proof.
  intros L F M N. destruct data as [|row rest]; [cbn in L; lia|].
  inversion F as [|? ? E F']; subst. unfold loadtxt.
  assert (A : forallb (fun r => (length r =? length row)%nat) rest = true).
  { apply forallb_forall. intros r I. apply Nat.eqb_eq. rewrite Forall_forall in F'. now apply F'. }
  rewrite A. cbn [negb]. rewrite (proj2 (Nat.eqb_neq (length row) 1)) by lia.
  rewrite (proj2 (Nat.eqb_neq (length (row :: rest)) 1)) by lia. reflexivity.
Qed.

(** Sums *)
Lemma total_ext n f g : (forall k, (k < n)%nat -> f k = g k) -> total n f = total n g.
Proof.
  intros H. unfold total. f_equal. apply map_ext_in. intros k K. apply in_seq in K. apply H. lia.
Qed.
Lemma total_plus n f g : total n (fun k => f k + g k) = total n f + total n g.
Proof.
  unfold total. induction (seq 0 n) as [|k l IH]; cbn; [ring|]. rewrite IH. ring.
Qed.
Lemma total_scal n c f : total n (fun k => c * f k) = c * total n f.
Proof.
  unfold total. induction (seq 0 n) as [|k l IH]; cbn; [ring|]. rewrite IH. ring.
Qed.

(** The ratio of the cell sizes. *)
Lemma trunc_ratio x n : (1 <= n)%nat -> INR n <= x < INR n + 1 -> trunc x = Z.of_nat n.
Proof.
  intros N H. assert (P : 0 <= x) by (pose proof (pos_INR n); lra).
  pose proof (trunc_nonneg x P) as T. rewrite INR_IZR_INZ in H.
  assert (Z.of_nat n < trunc x + 1 /\ trunc x < Z.of_nat n + 1)%Z; [|lia].
  split; apply lt_IZR; rewrite plus_IZR; lra.
Qed.
Lemma trunc_fraction x : 0 <= x < 1 -> trunc x = 0%Z.
Proof.
  intros H. pose proof (trunc_nonneg x (proj1 H)) as T.
  assert (0 < trunc x + 1 /\ trunc x < 0 + 1)%Z; [|lia].
  split; apply lt_IZR; rewrite plus_IZR; lra.
Qed.

(** The rows that the blocks use. *)
Lemma new_count n s rho : (1 <= rho)%nat -> (s <= n)%nat ->
  let m := (1 + (Z.of_nat n - Z.of_nat s) / Z.of_nat rho)%Z in
  (1 <= m)%Z /\ Z.to_nat m = (1 + (n - s) / rho)%nat /\
  (rho * (Z.to_nat m - 1) + s + (n - s) mod rho = n)%nat.
Proof.
  intros R1 S1 m. unfold m. rewrite <- Nat2Z.inj_sub by exact S1. rewrite <- Nat2Z.inj_div.
  split; [lia|]. split; [lia|].
  replace (Z.to_nat (1 + Z.of_nat ((n - s) / rho))) with (S ((n - s) / rho)) by lia.
  pose proof (Nat.div_mod (n - s) rho ltac:(lia)). cbn [Nat.sub]. rewrite Nat.sub_0_r. lia.
Qed.

Lemma decimated_hole st nodata data r c a b : (a < s_rows st)%nat -> (b < s_cols st)%nat ->
  cell_of data (r + a) (c + b) = nodata -> decimated st nodata data r c = nodata.
Proof.
  intros A B E. unfold decimated.
  match goal with |- (if ?e then _ else _) = _ => assert (X : e = true) end.
  { apply existsb_exists. exists a. split; [apply in_seq; lia|].
    apply existsb_exists. exists b. split; [apply in_seq; lia|]. now apply Reqb_true. }
  now rewrite X.
Qed.
Lemma decimated_full st nodata data r c :
  (forall a b, (a < s_rows st)%nat -> (b < s_cols st)%nat -> cell_of data (r + a) (c + b) <> nodata) ->
  decimated st nodata data r c =
  total (s_rows st) (fun a => total (s_cols st) (fun b => cell_of data (r + a) (c + b) * s_at st a b)).
Proof.
  intros H. unfold decimated.
  match goal with |- (if ?e then _ else _) = _ => destruct e eqn:E end; [|reflexivity].
  apply existsb_exists in E. destruct E as (a & A & E). apply existsb_exists in E. destruct E as (b & B & E).
  apply in_seq in A, B. apply Reqb_true in E. exfalso. apply (H a b); [lia|lia|exact E].
Qed.
