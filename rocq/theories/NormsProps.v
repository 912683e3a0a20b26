(** C117: the three norms *)
From Coq Require Import Reals List Arith Lra Lia.
From Verif Require Import RealLib StatisticsModel StatisticsProofs NormsModel.
Import ListNotations.
Local Open Scope R_scope.

Lemma fold_sum l : forall a, fold_left Rplus l a = a + Rsum l.
Proof. induction l as [|x l IH]; intros a; cbn; [ring|]. rewrite IH. ring. Qed.
Lemma l1_sum v : l1_norm v = Rsum (map Rabs v).
Proof. unfold l1_norm. rewrite fold_sum. ring. Qed.
Lemma l2_inner v : l2_norm v = norm v.
Proof. unfold l2_norm, norm. rewrite fold_sum, Rplus_0_l. f_equal. induction v as [|a v IH]; cbn; [reflexivity|]. rewrite IH. reflexivity. Qed.
Lemma linf_spec v : (forall a, In a v -> Rabs a <= linf_norm v) /\ 0 <= linf_norm v /\ (linf_norm v = 0 \/ exists a, In a v /\ linf_norm v = Rabs a).
Proof.
  unfold linf_norm, list_max. destruct (map Rabs (v ++ [0])) as [|x l] eqn:E; [destruct v; discriminate|].
  destruct (fold_max l x) as [U I]. rewrite <- E in U, I. split; [|split].
  - intros a A. apply U. apply in_map. apply in_or_app. left. exact A.
  - rewrite <- Rabs_R0. apply U. apply in_map. apply in_or_app. right. left. reflexivity.
  - apply in_map_iff in I. destruct I as (a & A & I). apply in_app_or in I. destruct I as [I|[<-|[]]]; [right; exists a; auto|left]. rewrite <- A. apply Rabs_R0.
Qed.
Lemma linf_least v c : 0 <= c -> (forall a, In a v -> Rabs a <= c) -> linf_norm v <= c.
Proof. intros C H. destruct (linf_spec v) as (_ & _ & [->|(a & I & ->)]); [exact C|apply H, I]. Qed.

Fixpoint add (x y : list R) : list R := match x, y with a :: x, b :: y => (a + b) :: add x y | _, _ => [] end.
Lemma add_inner x : forall y, length x = length y -> inner (add x y) (add x y) = inner x x + 2 * inner x y + inner y y.
Proof. induction x as [|a x IH]; intros [|b y] L; try discriminate; cbn; [ring|]. rewrite IH by (injection L; auto). ring. Qed.
Lemma add_in x : forall y c, In c (add x y) -> exists a b, In a x /\ In b y /\ c = a + b.
Proof.
  induction x as [|a x IH]; intros [|b y] c; cbn; try tauto. intros [<-|H]; [exists a, b; auto|]. destruct (IH y c H) as (a' & b' & A & B & E). exists a', b'. auto.
Qed.

(** Each of them is a norm: not negative, 0 for vectors of zeros only,
    homogeneous, and with the triangle inequality. *)
Definition is_norm (N : list R -> R) : Prop :=
  (forall v, 0 <= N v) /\ (forall v, N v = 0 <-> forall a, In a v -> a = 0) /\ (forall c v, N (map (Rmult c) v) = Rabs c * N v) /\
  (forall x y, length x = length y -> N (add x y) <= N x + N y).
Theorem C117_l1 : is_norm l1_norm.
Proof.
  assert (P : forall v, 0 <= Rsum (map Rabs v)) by (induction v as [|a v IH]; cbn; [lra|]; pose proof (Rabs_pos a); lra).
  split; [|split; [|split]].
  - intros v. rewrite l1_sum. apply P.
  - intros v. rewrite l1_sum. split.
    + induction v as [|b v IH]; cbn; [tauto|]. intros H a. pose proof (Rabs_pos b). pose proof (P v).
      intros [<-|I]; [|apply IH; [lra|exact I]]. destruct (Req_dec b 0); [assumption|]. pose proof (Rabs_pos_lt b H2). lra.
    + intros H. apply Rsum_map_zero. intros a I. rewrite (H a I). apply Rabs_R0.
  - intros c v. rewrite !l1_sum, map_map. rewrite <- Rsum_map_scal. f_equal. apply map_ext. intros a. apply Rabs_mult.
  - intros x y L. rewrite !l1_sum. revert y L. induction x as [|a x IH]; intros [|b y] L; try discriminate; cbn; [lra|].
    pose proof (IH y ltac:(injection L; auto)). pose proof (Rabs_triang a b). lra.
Qed.
Print Assumptions C117_l1.
Theorem C117_l2 : is_norm l2_norm.
Proof.
  split; [|split; [|split]].
  - intros v. rewrite l2_inner. apply norm_nonneg.
  - intros v. rewrite l2_inner. split.
    + intros H. apply inner_zero. rewrite <- norm_sqr, H. ring.
    + intros H. unfold norm. rewrite zero_inner by exact H. apply sqrt_0.
  - intros c v. rewrite !l2_inner. unfold norm. assert (E : inner (map (Rmult c) v) (map (Rmult c) v) = (c * c) * inner v v).
    { induction v as [|a v IH]; cbn; [ring|]. rewrite IH. ring. }
    rewrite E, sqrt_mult_alt by (pose proof (Rle_0_sqr c) as H; unfold Rsqr in H; exact H). f_equal. apply sqrt_Rsqr_abs.
  - intros x y L. rewrite !l2_inner. pose proof (norm_nonneg x). pose proof (norm_nonneg y).
    assert (K : inner x y <= norm x * norm y).
    { pose proof (schwarz x y L) as S1. rewrite <- !norm_sqr in S1. destruct (Rle_or_lt (inner x y) 0); [nra|]. apply Rsqr_incr_0_var; [unfold Rsqr; lra|nra]. }
    apply Rsqr_incr_0_var; [|lra]. unfold Rsqr. rewrite norm_sqr, (add_inner x y L), <- (norm_sqr x), <- (norm_sqr y). lra.
Qed.
Print Assumptions C117_l2.
Theorem C117_linf : is_norm linf_norm.
Proof.
  split; [|split; [|split]].
  - intros v. apply linf_spec.
  - intros v. destruct (linf_spec v) as (U & P & A). split.
    + intros H a I. specialize (U a I). rewrite H in U. destruct (Req_dec a 0) as [|N]; [assumption|]. pose proof (Rabs_pos_lt a N). lra.
    + intros H. destruct A as [A|(a & I & ->)]; [exact A|]. rewrite (H a I). apply Rabs_R0.
  - intros c v. pose proof (Rabs_pos c) as C. destruct (linf_spec v) as (U & P & A). apply Rle_antisym.
    + apply linf_least; [apply Rmult_le_pos; assumption|]. intros a I. apply in_map_iff in I. destruct I as (b & <- & I). rewrite Rabs_mult. apply Rmult_le_compat_l; [exact C|apply U, I].
    + destruct (linf_spec (map (Rmult c) v)) as (U' & P' & _). destruct A as [->|(a & I & ->)]; [lra|]. rewrite <- Rabs_mult. apply U'. apply in_map. exact I.
  - intros x y _. destruct (linf_spec x) as (U & P & _). destruct (linf_spec y) as (U' & P' & _). apply linf_least; [lra|].
    intros c I. apply add_in in I. destruct I as (a & b & A & B & ->). pose proof (Rabs_triang a b). pose proof (U a A). pose proof (U' b B). lra.
Qed.
Print Assumptions C117_linf.

(** Their values, and their order *)
Theorem C117_values v : l1_norm v = Rsum (map Rabs v) /\ l2_norm v * l2_norm v = Rsum (map (fun a => a * a) v) /\
  (forall a, In a v -> Rabs a <= linf_norm v) /\ (v <> [] -> exists a, In a v /\ linf_norm v = Rabs a).
Proof.
  split; [apply l1_sum|]. split.
  - rewrite l2_inner, norm_sqr. induction v as [|a v IH]; cbn; [reflexivity|]. rewrite IH. reflexivity.
  - destruct (linf_spec v) as (U & P & A). split; [exact U|]. intros N. destruct A as [A|A]; [|exact A].
    destruct v as [|a v]; [congruence|]. exists a. split; [left; reflexivity|]. pose proof (U a (or_introl eq_refl)). pose proof (Rabs_pos a). lra.
Qed.
Print Assumptions C117_values.
Theorem C117_order v : linf_norm v <= l2_norm v <= l1_norm v /\ l1_norm v <= INR (length v) * linf_norm v.
Proof.
  assert (P : forall v, 0 <= Rsum (map Rabs v)) by (clear; induction v as [|a v IH]; cbn; [lra|]; pose proof (Rabs_pos a); lra).
  assert (Q : forall a, Rabs a * Rabs a = a * a) by (intros a; rewrite <- Rabs_mult; apply Rabs_right; pose proof (Rle_0_sqr a) as H; unfold Rsqr in H; lra).
  rewrite l2_inner, l1_sum. split; [split|].
  - apply linf_least; [apply norm_nonneg|]. intros a I. apply Rsqr_incr_0_var; [|apply norm_nonneg]. unfold Rsqr. rewrite norm_sqr, Q.
    induction v as [|b v IH]; [destruct I|]. cbn. pose proof (inner_nonneg v). pose proof (Rle_0_sqr b) as B. unfold Rsqr in B. destruct I as [<-|I]; [lra|]. pose proof (IH I). lra.
  - apply Rsqr_incr_0_var; [|apply P]. unfold Rsqr. rewrite norm_sqr. induction v as [|b v IH]; cbn; [lra|]. pose proof (Q b). pose proof (Rabs_pos b). pose proof (P v). nra.
  - destruct (linf_spec v) as (U & _). set (m := linf_norm v) in *. clearbody m. induction v as [|b v IH]; [cbn; lra|]. cbn [map Rsum length]. rewrite S_INR.
    pose proof (U b (or_introl eq_refl)). pose proof (IH (fun a I => U a (or_intror I))). lra.
Qed.
Print Assumptions C117_order.

(** Cases *)
Example C117_case : l1_norm [3; -4] = 7 /\ l2_norm [3; -4] = 5 /\ linf_norm [3; -4] = 4 /\ linf_norm [] = 0.
Proof.
  split; [|split; [|split]].
  - rewrite l1_sum. cbn. rewrite Rabs_right, Rabs_left by lra. lra.
  - unfold l2_norm. cbn. replace (0 + 3 * 3 + -4 * -4) with (5 * 5) by lra. apply sqrt_square. lra.
  - unfold linf_norm. cbn. rewrite Rabs_R0, (Rabs_right 3), (Rabs_left (-4)) by lra. unfold Rmax. repeat destruct Rle_dec; lra.
  - unfold linf_norm. cbn. apply Rabs_R0.
Qed.
Example C117_order_case : linf_norm [3; -4] <= l2_norm [3; -4] <= l1_norm [3; -4].
Proof. apply C117_order. Qed.
