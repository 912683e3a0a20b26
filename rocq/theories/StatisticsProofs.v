(** Proofs about the covariance, correlation, norm and error of vectors *)
From Coq Require Import Reals List Arith Bool Lra Lia.
From Verif Require Import RealLib StatisticsModel.
Import ListNotations.
Local Open Scope R_scope.

Lemma inner_comm x : forall y, inner x y = inner y x.
Proof. induction x as [|a x IH]; intros [|b y]; cbn; try reflexivity. rewrite IH. ring. Qed.
Lemma inner_combine x : forall y, inner x y = Rsum (map (fun ab => fst ab * snd ab) (combine x y)).
Proof. induction x as [|a x IH]; intros [|b y]; cbn; try reflexivity. rewrite IH. reflexivity. Qed.
Definition affine (p q : R) (x : list R) : list R := map (fun a => p * a + q) x.
Lemma affine_length p q x : length (affine p q x) = length x.
Proof. apply map_length. Qed.
Lemma affine_sum p q x : Rsum (affine p q x) = p * Rsum x + q * INR (length x).
Proof. induction x as [|a x IH]; [cbn; ring|]. cbn [affine map Rsum length]. fold (affine p q x). rewrite IH, S_INR. ring. Qed.
Lemma affine_inner p q x : forall y, length x = length y -> inner (affine p q x) y = p * inner x y + q * Rsum y.
Proof.
  induction x as [|a x IH]; intros [|b y] L; try discriminate; [cbn; ring|]. cbn [affine map inner Rsum]. fold (affine p q x).
  rewrite IH by (injection L; auto). ring.
Qed.
Lemma centre_affine m x : centre m x = affine 1 (- m) x.
Proof. apply map_ext. intros a. ring. Qed.

Definition Cv (x y : list R) : R := inner x y / INR (length x) - Rsum x * Rsum y / (INR (length x) * INR (length x)).
Lemma size_pos (x : list R) : x <> [] -> 0 < INR (length x).
Proof. destruct x; [congruence|]. intros _. apply lt_0_INR. cbn. lia. Qed.
Lemma mean_some x : x <> [] -> mean x = Some (Rsum x / INR (length x)).
Proof. destruct x; [congruence|reflexivity]. Qed.
Lemma cov_some x y : length x = length y -> x <> [] -> cov x y = Some (Cv x y).
Proof.
  intros L N. assert (N' : y <> []) by (intros ->; destruct x; [congruence|discriminate]).
  unfold cov. rewrite L, Nat.eqb_refl, (mean_some x N), (mean_some y N'). f_equal. rewrite !centre_affine.
  rewrite affine_inner by (rewrite affine_length; exact L). rewrite inner_comm, affine_inner by (symmetry; exact L). rewrite affine_sum, (inner_comm y x).
  unfold Cv. rewrite L. pose proof (size_pos y N'). field. lra.
Qed.
Lemma Cv_comm x y : length x = length y -> Cv y x = Cv x y.
Proof. intros L. unfold Cv. rewrite inner_comm, L, (Rmult_comm (Rsum y)). reflexivity. Qed.
Lemma Cv_affine p q x y : length x = length y -> x <> [] -> Cv (affine p q x) y = p * Cv x y.
Proof. intros L N. unfold Cv. rewrite affine_length, affine_inner, affine_sum by exact L. pose proof (size_pos x N). field. lra. Qed.
Lemma affine_nil p q x : x <> [] -> affine p q x <> [].
Proof. destruct x; [congruence|discriminate]. Qed.

Lemma inner_nonneg x : 0 <= inner x x.
Proof. induction x as [|a x IH]; cbn; [lra|]. pose proof (Rle_0_sqr a) as H. unfold Rsqr in H. lra. Qed.
Lemma inner_zero x : inner x x = 0 -> forall a, In a x -> a = 0.
Proof.
  induction x as [|b x IH]; cbn; [tauto|]. intros H a. pose proof (Rle_0_sqr b) as B. pose proof (inner_nonneg x). unfold Rsqr in B.
  assert (B0 : b * b = 0) by lra. intros [<-|I]; [apply Rsqr_0_uniq; exact B0|apply IH; [lra|exact I]].
Qed.
Lemma zero_inner x : forall y, (forall a, In a x -> a = 0) -> inner x y = 0.
Proof. induction x as [|a x IH]; intros [|b y] H; cbn; try reflexivity. rewrite (H a (or_introl eq_refl)), IH; [ring|]. intros c I. apply H. right. exact I. Qed.
Lemma mix x : forall y s t, length x = length y ->
  s * s * inner x x - 2 * s * t * inner x y + t * t * inner y y = inner (minus (map (Rmult s) x) (map (Rmult t) y)) (minus (map (Rmult s) x) (map (Rmult t) y)).
Proof.
  induction x as [|a x IH]; intros [|b y] s t L; try discriminate; [cbn; ring|]. cbn [inner minus map].
  rewrite <- IH by (injection L; auto). ring.
Qed.
Lemma schwarz x y : length x = length y -> inner x y * inner x y <= inner x x * inner y y.
Proof.
  intros L. destruct (Rle_lt_or_eq_dec _ _ (inner_nonneg y)) as [P|Z].
  - pose proof (mix x y (inner y y) (inner x y) L) as M.
    pose proof (inner_nonneg (minus (map (Rmult (inner y y)) x) (map (Rmult (inner x y)) y))) as G. rewrite <- M in G.
    apply (Rmult_le_reg_l (inner y y)); [exact P|]. lra.
  - rewrite (inner_comm x y), (zero_inner y x (inner_zero y (eq_sym Z))). pose proof (inner_nonneg x). pose proof (inner_nonneg y). nra.
Qed.

(** The covariance by the centred vectors *)
Lemma Cv_centre x y : length x = length y -> x <> [] ->
  Cv x y = inner (centre (Rsum x / INR (length x)) x) (centre (Rsum y / INR (length y)) y) / INR (length x).
Proof.
  intros L N. assert (N' : y <> []) by (intros ->; destruct x; [congruence|discriminate]).
  pose proof (cov_some x y L N) as C. unfold cov in C. rewrite L, Nat.eqb_refl, (mean_some x N), (mean_some y N') in C. rewrite L in *.
  injection C; intros <-. reflexivity.
Qed.
Lemma Cv_nonneg x : x <> [] -> 0 <= Cv x x.
Proof. intros N. rewrite Cv_centre by auto. apply Rmult_le_pos; [apply inner_nonneg|]. left. apply Rinv_0_lt_compat, size_pos, N. Qed.
Lemma all_same_sum x a : (forall b, In b x -> b = a) -> Rsum x = INR (length x) * a.
Proof. induction x as [|c x IH]; intros H; [cbn; ring|]. cbn [Rsum length]. rewrite S_INR, IH, (H c (or_introl eq_refl)); [ring|]. intros b I. apply H. right. exact I. Qed.
Lemma Cv_zero x : x <> [] -> (Cv x x = 0 <-> forall a b, In a x -> In b x -> a = b).
Proof.
  intros N. pose proof (size_pos x N) as P. rewrite Cv_centre by auto. set (m := Rsum x / INR (length x)). split.
  - intros Z. assert (Z' : inner (centre m x) (centre m x) = 0).
    { apply (Rmult_eq_reg_r (/ INR (length x))); [unfold Rdiv in Z; lra|]. apply Rinv_neq_0_compat. lra. }
    assert (K : forall a, In a x -> a = m).
    { intros a I. assert (a - m = 0); [|lra]. apply (inner_zero _ Z'). apply in_map_iff. exists a. auto. }
    intros a b A B. rewrite (K a A), (K b B). reflexivity.
  - intros H. destruct x as [|a x]; [congruence|]. assert (M : m = a).
    { unfold m. rewrite (all_same_sum (a :: x) a); [field; lra|]. intros b I. apply H; [exact I|left; reflexivity]. }
    rewrite zero_inner; [unfold Rdiv; ring|]. intros b I. apply in_map_iff in I. destruct I as (c & <- & I). rewrite M, (H c a I (or_introl eq_refl)). ring.
Qed.
Lemma Cv_schwarz x y : length x = length y -> x <> [] -> Cv x y * Cv x y <= Cv x x * Cv y y.
Proof.
  intros L N. assert (N' : y <> []) by (intros ->; destruct x; [congruence|discriminate]).
  rewrite !Cv_centre by auto. rewrite <- L. set (u := centre _ x). set (v := centre _ y). set (n := INR (length x)).
  assert (P : 0 < n) by (apply size_pos; exact N).
  assert (LL : length u = length v) by (unfold u, v, centre; rewrite !map_length; exact L).
  pose proof (schwarz u v LL) as S1. replace (inner u v / n * (inner u v / n)) with (inner u v * inner u v * (/ n * / n)) by (unfold Rdiv; ring).
  replace (inner u u / n * (inner v v / n)) with (inner u u * inner v v * (/ n * / n)) by (unfold Rdiv; ring).
  apply Rmult_le_compat_r; [|exact S1]. assert (0 < / n) by (apply Rinv_0_lt_compat; exact P). nra.
Qed.
Lemma bounded_quotient c v : c * c <= v -> 0 < v -> -1 <= c / sqrt v <= 1.
Proof.
  intros H P. assert (Q : 0 < sqrt v) by (apply sqrt_lt_R0; exact P). assert (A : Rabs c <= sqrt v).
  { rewrite <- sqrt_Rsqr_abs. apply sqrt_le_1_alt. exact H. }
  pose proof (Rle_abs c). pose proof (Rle_abs (- c)) as B. rewrite Rabs_Ropp in B.
  split; apply (Rmult_le_reg_r (sqrt v)); try exact Q; unfold Rdiv; rewrite Rmult_assoc, Rinv_l by lra; lra.
Qed.

Lemma corr_some x y : length x = length y -> x <> [] ->
  corr x y = Some (if Reqb (Cv x x) 0 || Reqb (Cv y y) 0 then 0 else Cv x y / sqrt (Cv x x * Cv y y)).
Proof.
  intros L N. assert (N' : y <> []) by (intros ->; destruct x; [congruence|discriminate]).
  unfold corr. rewrite !cov_some by auto. destruct (_ || _); reflexivity.
Qed.

(** Differences *)
Lemma minus_length x : forall y, length x = length y -> length (minus x y) = length x.
Proof. induction x as [|a x IH]; intros [|b y] L; try discriminate; [reflexivity|]. cbn. rewrite IH; [reflexivity|injection L; auto]. Qed.
Lemma minus_anti x : forall y, inner (minus x y) (minus x y) = inner (minus y x) (minus y x).
Proof. induction x as [|a x IH]; intros [|b y]; cbn; try reflexivity. rewrite IH. ring. Qed.
Lemma minus_zero x : forall y, length x = length y -> (forall d, In d (minus x y) -> d = 0) -> x = y.
Proof.
  induction x as [|a x IH]; intros [|b y] L H; try discriminate; [reflexivity|]. cbn in H. f_equal.
  - specialize (H (a - b) (or_introl eq_refl)). lra.
  - apply IH; [injection L; auto|]. intros d I. apply H. right. exact I.
Qed.
Lemma minus_self x d : In d (minus x x) -> d = 0.
Proof. induction x as [|a x IH]; cbn; [tauto|]. intros [<-|I]; [ring|auto]. Qed.
Lemma minus_chain x : forall y z, length x = length y -> length y = length z ->
  inner (minus x z) (minus x z) = inner (minus x y) (minus x y) + 2 * inner (minus x y) (minus y z) + inner (minus y z) (minus y z).
Proof.
  induction x as [|a x IH]; intros [|b y] [|c z] L L'; try discriminate; [cbn; ring|]. cbn [minus inner].
  rewrite (IH y z) by (injection L; injection L'; auto). ring.
Qed.
Lemma norm_nonneg x : 0 <= norm x.
Proof. apply sqrt_pos. Qed.
Lemma norm_sqr x : norm x * norm x = inner x x.
Proof. apply sqrt_sqrt, inner_nonneg. Qed.
Lemma norm_triangle x y z : length x = length y -> length y = length z -> norm (minus x z) <= norm (minus x y) + norm (minus y z).
Proof.
  intros L L'. set (u := minus x y). set (v := minus y z). pose proof (norm_nonneg u). pose proof (norm_nonneg v).
  assert (LL : length u = length v) by (unfold u, v; rewrite !minus_length by congruence; exact L).
  assert (K : inner u v <= norm u * norm v).
  { pose proof (schwarz u v LL) as S1. rewrite <- !norm_sqr in S1. destruct (Rle_or_lt (inner u v) 0); [nra|].
    apply Rsqr_incr_0_var; [unfold Rsqr; lra|nra]. }
  apply Rsqr_incr_0_var; [|lra]. unfold Rsqr. rewrite norm_sqr, (minus_chain x y z L L'). fold u v. rewrite <- (norm_sqr u), <- (norm_sqr v). lra.
Qed.
Lemma fold_max l : forall a, (forall b, In b (a :: l) -> b <= fold_left Rmax l a) /\ In (fold_left Rmax l a) (a :: l).
Proof.
  induction l as [|c l IH]; intros a.
  - cbn. split; [intros b [<-|[]]; lra|auto].
  - cbn [fold_left]. destruct (IH (Rmax a c)) as [U I]. split.
    + pose proof (U _ (or_introl eq_refl)) as M. pose proof (Rmax_l a c). pose proof (Rmax_r a c). intros b [<-|[<-|B]]; [lra|lra|apply U; right; exact B].
    + destruct I as [<-|I]; [|right; right; exact I]. unfold Rmax. destruct (Rle_dec a c); cbn; auto.
Qed.
Lemma max_abs_spec x e : max_abs x = Some e -> (forall a, In a x -> Rabs a <= e) /\ exists a, In a x /\ e = Rabs a.
Proof.
  destruct x as [|a x]; [discriminate|]. cbn [max_abs]. intros H. injection H; intros <-. clear H.
  destruct (fold_max (map Rabs x) (Rabs a)) as [U I]. split.
  - intros b [<-|B]; [apply U; left; reflexivity|apply U; right; apply in_map; exact B].
  - destruct I as [I|I]; [exists a; split; [left; reflexivity|auto]|]. apply in_map_iff in I. destruct I as (b & E & B). exists b. split; [right; exact B|auto].
Qed.
Lemma max_abs_some x : x <> [] -> exists e, max_abs x = Some e /\ 0 <= e.
Proof.
  intros N. destruct (max_abs x) as [e|] eqn:E; [|destruct x; [congruence|discriminate]]. exists e. split; [reflexivity|].
  destruct (max_abs_spec x e E) as [_ (a & _ & ->)]. apply Rabs_pos.
Qed.
Lemma difference_same x y : length x = length y -> difference x y = Some (minus x y).
Proof. intros L. unfold difference. rewrite L, Nat.eqb_refl. reflexivity. Qed.
Lemma minus_combine x : forall y, minus x y = map (fun ab => fst ab - snd ab) (combine x y).
Proof. induction x as [|a x IH]; intros [|b y]; cbn; try reflexivity. rewrite IH. reflexivity. Qed.
