(** C113: covariance, correlation and errors of vectors *)
From Coq Require Import Reals List Arith Bool Lra Lia.
From Verif Require Import RealLib StatisticsModel StatisticsProofs.
Import ListNotations.
Local Open Scope R_scope.

Definition constant (x : list R) : Prop := forall a b, In a x -> In b x -> a = b.

(** The covariance is the mean of the products less the product of the means;
    it is symmetric and follows a change of scale and origin. *)
Theorem C113_cov x y : length x = length y -> x <> [] ->
  exists c, cov x y = Some c /\ cov y x = Some c /\
    c = Rsum (map (fun ab => fst ab * snd ab) (combine x y)) / INR (length x) - (Rsum x / INR (length x)) * (Rsum y / INR (length y)) /\
    forall p q, cov (map (fun a => p * a + q) x) y = Some (p * c).
Proof.
  intros L N. assert (N' : y <> []) by (intros ->; destruct x; [congruence|discriminate]). pose proof (size_pos x N).
  exists (Cv x y). split; [apply cov_some; auto|]. split; [rewrite cov_some by auto; rewrite Cv_comm; auto|]. split.
  - unfold Cv. rewrite inner_combine, <- L. field. lra.
  - intros p q. fold (affine p q x). rewrite cov_some; [|rewrite affine_length; exact L|apply affine_nil; exact N]. rewrite Cv_affine; auto.
Qed.
Print Assumptions C113_cov.

(** The variance is not negative, and 0 for constant vectors only. *)
Theorem C113_variance x : x <> [] -> exists v, cov x x = Some v /\ 0 <= v /\ (v = 0 <-> constant x).
Proof. intros N. exists (Cv x x). split; [apply cov_some; auto|]. split; [apply Cv_nonneg; exact N|apply Cv_zero; exact N]. Qed.
Print Assumptions C113_variance.

(** The correlation is between -1 and 1, symmetric, and unchanged by scale and
    origin but for the sign. *)
Theorem C113_corr x y : length x = length y -> x <> [] ->
  exists r, corr x y = Some r /\ -1 <= r <= 1 /\ corr y x = Some r /\
    (forall p q, 0 < p -> corr (map (fun a => p * a + q) x) y = Some r) /\
    (forall p q, p < 0 -> corr (map (fun a => p * a + q) x) y = Some (- r)).
Proof.
  intros L N. assert (N' : y <> []) by (intros ->; destruct x; [congruence|discriminate]).
  assert (V : forall p q, Cv (affine p q x) (affine p q x) = p * p * Cv x x).
  { intros p q. rewrite Cv_affine; [|rewrite affine_length; reflexivity|exact N]. rewrite Cv_comm by apply affine_length. rewrite Cv_affine by auto. ring. }
  pose proof (Cv_nonneg x N) as VX. pose proof (Cv_nonneg y N') as VY.
  assert (G : forall p q, p <> 0 -> corr (affine p q x) y =
    Some (if Reqb (Cv x x) 0 || Reqb (Cv y y) 0 then 0 else (if Rltb 0 p then 1 else -1) * (Cv x y / sqrt (Cv x x * Cv y y)))).
  { intros p q P. rewrite corr_some; [|rewrite affine_length; exact L|apply affine_nil; exact N]. rewrite V, Cv_affine by auto. f_equal.
    assert (E : Reqb (p * p * Cv x x) 0 = Reqb (Cv x x) 0).
    { destruct (Reqb_spec (p * p * Cv x x) 0) as [e|e], (Reqb_spec (Cv x x) 0) as [e'|e']; try reflexivity; [|rewrite e' in e; lra].
      destruct (Rmult_integral _ _ e) as [F|F]; [|contradiction]. destruct (Rmult_integral _ _ F); contradiction. }
    rewrite E. destruct (Reqb_spec (Cv x x) 0) as [e|e]; [reflexivity|]. destruct (Reqb_spec (Cv y y) 0) as [e'|e']; [reflexivity|]. cbn [orb].
    assert (Q : 0 < sqrt (Cv x x * Cv y y)) by (apply sqrt_lt_R0, Rmult_lt_0_compat; lra).
    assert (S1 : sqrt (p * p * Cv x x * Cv y y) = Rabs p * sqrt (Cv x x * Cv y y)).
    { rewrite Rmult_assoc, sqrt_mult_alt by (pose proof (Rle_0_sqr p) as H; unfold Rsqr in H; lra). f_equal. apply sqrt_Rsqr_abs. }
    rewrite S1. destruct (Rltb_spec 0 p); [rewrite Rabs_right by lra|rewrite Rabs_left by lra]; field; split; lra. }
  eexists. split; [apply corr_some; assumption|]. split; [|split; [|split]].
  - destruct (Reqb_spec (Cv x x) 0); cbn [orb]; [lra|]. destruct (Reqb_spec (Cv y y) 0); [lra|].
    apply bounded_quotient; [apply Cv_schwarz; assumption|apply Rmult_lt_0_compat; lra].
  - rewrite corr_some by auto. rewrite orb_comm, (Cv_comm x y L), (Rmult_comm (Cv y y)). reflexivity.
  - intros p q P. fold (affine p q x). rewrite G by lra. rewrite (proj2 (Rltb_true 0 p) P). f_equal. destruct (_ || _); ring.
  - intros p q P. fold (affine p q x). rewrite G by lra. rewrite (proj2 (Rltb_false 0 p)) by lra. f_equal. destruct (_ || _); ring.
Qed.
Print Assumptions C113_corr.

(** Vectors on a line have correlation 1 or -1; a constant vector has
    correlation 0. *)
Theorem C113_line x p q : x <> [] -> ~ constant x ->
  (0 < p -> corr (map (fun a => p * a + q) x) x = Some 1) /\ (p < 0 -> corr (map (fun a => p * a + q) x) x = Some (-1)).
Proof.
  intros N C. assert (S1 : corr x x = Some 1).
  { rewrite corr_some by auto. pose proof (Cv_nonneg x N) as V. destruct (Reqb_spec (Cv x x) 0) as [e|e]; [exfalso; apply C; exact (proj1 (Cv_zero x N) e)|]. cbn [orb].
    f_equal. rewrite sqrt_square by exact V. field. exact e. }
  destruct (C113_corr x x eq_refl N) as (r & R & _ & _ & P & M). rewrite S1 in R. injection R; intros <-. split; [apply P|].
  intros H. rewrite (M p q H). f_equal.
Qed.
Print Assumptions C113_line.

(** Vectors of different lengths have no covariance, but constant ones pass as
    uncorrelated. *)
Theorem C113_lengths x y : length x <> length y -> x <> [] -> y <> [] ->
  cov x y = None /\ (~ constant x -> ~ constant y -> corr x y = None) /\ (constant x \/ constant y -> corr x y = Some 0).
Proof.
  intros L N N'. assert (C : cov x y = None) by (unfold cov; rewrite (proj2 (Nat.eqb_neq _ _) L); reflexivity). split; [exact C|].
  unfold corr. rewrite C, !cov_some by auto. split.
  - intros A B. destruct (Reqb_spec (Cv x x) 0) as [e|]; [exfalso; apply A; exact (proj1 (Cv_zero x N) e)|].
    destruct (Reqb_spec (Cv y y) 0) as [e|]; [exfalso; apply B; exact (proj1 (Cv_zero y N') e)|reflexivity].
  - intros [A|A]; first [apply (proj2 (Cv_zero x N)) in A|apply (proj2 (Cv_zero y N')) in A]; rewrite (proj2 (Reqb_true _ 0) A); [|rewrite orb_true_r]; reflexivity.
Qed.
Print Assumptions C113_lengths.

(** The absolute error is a distance: the root of the sum of squares ... *)
Theorem C113_error x y : length x = length y ->
  exists e, err x (Some y) true false = Some (Num e) /\ 0 <= e /\
    e * e = Rsum (map (fun ab => (fst ab - snd ab) * (fst ab - snd ab)) (combine x y)) /\
    (e = 0 <-> x = y) /\ err y (Some x) true false = Some (Num e) /\
    forall z f g, length z = length y -> err x (Some z) true false = Some (Num f) -> err z (Some y) true false = Some (Num g) -> e <= f + g.
Proof.
  intros L. exists (norm (minus x y)). unfold err. rewrite (difference_same x y L), (difference_same y x (eq_sym L)).
  split; [reflexivity|]. split; [apply norm_nonneg|]. split; [|split; [|split]].
  - rewrite norm_sqr. clear L. revert y. induction x as [|a x IH]; intros [|b y]; cbn; try reflexivity. rewrite IH. reflexivity.
  - split; intros H.
    + apply minus_zero; [exact L|]. apply inner_zero. rewrite <- norm_sqr, H. ring.
    + subst y. unfold norm. rewrite zero_inner; [apply sqrt_0|]. intros a. apply minus_self.
  - unfold norm. rewrite minus_anti. reflexivity.
  - intros z f g Lz. rewrite !difference_same by congruence. intros F G. injection F; injection G; intros <- <-. apply norm_triangle; congruence.
Qed.
Print Assumptions C113_error.
(** ... or the greatest difference. *)
Theorem C113_max_error x y : length x = length y -> x <> [] ->
  exists e, err x (Some y) false false = Some (Num e) /\ (forall a b, In (a, b) (combine x y) -> Rabs (a - b) <= e) /\
    exists a b, In (a, b) (combine x y) /\ e = Rabs (a - b).
Proof.
  intros L N. unfold err. rewrite difference_same by exact L. assert (M : minus x y <> []) by (destruct x, y; congruence || discriminate).
  destruct (max_abs_some _ M) as (e & E & _). rewrite E. exists e. split; [reflexivity|]. destruct (max_abs_spec _ e E) as [U (d & I & D)].
  rewrite minus_combine in U, I. split.
  - intros a b H. apply U. apply in_map_iff. exists (a, b). auto.
  - apply in_map_iff in I. destruct I as ([a b] & <- & I). exists a, b. auto.
Qed.
Print Assumptions C113_max_error.

(** The relative error is the absolute one by the size of [y], unless [y] is 0. *)
Theorem C113_relative_partial x y two e : length x = length y -> (exists b, In b y /\ b <> 0) -> err x (Some y) two false = Some (Num e) ->
  exists n, 0 < n /\ err x (Some y) two true = Some (Num (e / n)) /\ err y (Some (map (fun _ => 0) y)) two false = Some (Num n).
Proof.
  intros L (b & I & B). assert (Z : minus y (map (fun _ => 0) y) = y).
  { clear. induction y as [|a y IH]; [reflexivity|]. cbn. rewrite IH. f_equal. ring. }
  assert (LZ : length y = length (map (fun _ : R => 0) y)) by (rewrite map_length; reflexivity).
  unfold err. rewrite (difference_same x y L), (difference_same y _ LZ), Z. destruct two.
  - intros E. injection E; intros <-. exists (norm y). assert (P : norm y <> 0).
    { intros H. apply B. apply (inner_zero y); [|exact I]. rewrite <- norm_sqr, H. ring. }
    pose proof (norm_nonneg y). split; [lra|]. split; [|reflexivity]. unfold divide. destruct (Reqb_spec (norm y) 0); [contradiction|reflexivity].
  - destruct (max_abs (minus x y)) as [d|] eqn:D; [|discriminate]. intros E. injection E; intros <-.
    assert (N : y <> []) by (intros ->; exact I). destruct (max_abs_some y N) as (n & Y & P). rewrite Y. exists n.
    destruct (max_abs_spec y n Y) as [U _]. pose proof (U b I) as Q. pose proof (Rabs_pos_lt b B). split; [lra|]. split; [|reflexivity].
    unfold divide. destruct (Reqb_spec n 0); [lra|reflexivity].
Qed.
Print Assumptions C113_relative_partial.

(** Against 0, and in the two norm without [y], the relative error is infinite
    or not a number, not the absolute error; in the maximum norm without [y] it
    is the absolute error. *)
Theorem C113_relative_refuted x y two e : length x = length y -> x <> [] -> (forall b, In b y -> b = 0) -> err x (Some y) two false = Some (Num e) ->
  err x (Some y) two true = Some (if Reqb e 0 then Nan else Inf) /\
  err x None true true = Some (if Reqb (norm x) 0 then Nan else Inf) /\
  err x None false true = err x None false false.
Proof.
  intros L N Z. assert (D0 : forall d, divide d 0 = if Reqb d 0 then Nan else Inf).
  { intros d. unfold divide. rewrite (proj2 (Reqb_true 0 0) eq_refl). reflexivity. }
  intros E. split; [|split].
  - revert E. unfold err. rewrite difference_same by exact L. destruct two.
    + intros E. injection E; intros <-. assert (norm y = 0) as -> by (unfold norm; rewrite zero_inner by exact Z; apply sqrt_0). rewrite D0. reflexivity.
    + destruct (max_abs (minus x y)) as [d|]; [|discriminate]. intros E. injection E; intros <-.
      assert (N' : y <> []) by (intros ->; destruct x; [congruence|discriminate]). destruct (max_abs_some y N') as (n & Y & _). rewrite Y.
      destruct (max_abs_spec y n Y) as [_ (b & I & ->)]. rewrite (Z b I), Rabs_R0, D0. reflexivity.
  - unfold err. rewrite D0. reflexivity.
  - unfold err. destruct (max_abs x); reflexivity.
Qed.
Print Assumptions C113_relative_refuted.

(** Cases *)
Example C113_cov_case : exists c, cov [1; 3] [2; 6] = Some c /\ c = 2.
Proof. destruct (C113_cov [1; 3] [2; 6] eq_refl ltac:(discriminate)) as (c & A & _ & B & _). exists c. split; [exact A|]. rewrite B. cbn. lra. Qed.
Example C113_variance_case : exists v, cov [1; 3] [1; 3] = Some v /\ 0 < v.
Proof.
  destruct (C113_variance [1; 3] ltac:(discriminate)) as (v & A & B & C). exists v. split; [exact A|]. destruct B as [|B]; [assumption|].
  symmetry in B. apply C in B. specialize (B 1 3 ltac:(cbn; auto) ltac:(cbn; auto)). lra.
Qed.
Example not_constant : ~ constant [1; 3].
Proof. intros H. specialize (H 1 3 ltac:(cbn; auto) ltac:(cbn; auto)). lra. Qed.
Example C113_corr_case : exists r, corr [1; 3] [2; 0] = Some r /\ -1 <= r <= 1.
Proof. destruct (C113_corr [1; 3] [2; 0] eq_refl ltac:(discriminate)) as (r & A & B & _). exists r. auto. Qed.
Example C113_line_case : corr [2 * 1 + 1; 2 * 3 + 1] [1; 3] = Some 1.
Proof. apply (C113_line [1; 3] 2 1); [discriminate|exact not_constant|lra]. Qed.
Example C113_lengths_case : cov [1; 3] [5] = None /\ corr [1; 3] [5] = Some 0.
Proof.
  destruct (C113_lengths [1; 3] [5] ltac:(discriminate) ltac:(discriminate) ltac:(discriminate)) as (A & _ & B). split; [exact A|]. apply B. right.
  intros a b [<-|[]] [<-|[]]. reflexivity.
Qed.
Example C113_error_case : exists e, err [2; 5] (Some [6; 7]) true false = Some (Num e) /\ e * e = 20.
Proof. destruct (C113_error [2; 5] [6; 7] eq_refl) as (e & A & _ & B & _). exists e. split; [exact A|]. rewrite B. cbn. lra. Qed.
Example C113_max_error_case : exists e, err [2; 5] (Some [6; 7]) false false = Some (Num e) /\ Rabs (2 - 6) <= e.
Proof. destruct (C113_max_error [2; 5] [6; 7] eq_refl ltac:(discriminate)) as (e & A & B & _). exists e. split; [exact A|]. apply B. cbn. auto. Qed.
Example C113_relative_case : exists e n, err [2; 5] (Some [6; 7]) true false = Some (Num e) /\ 0 < n /\ err [2; 5] (Some [6; 7]) true true = Some (Num (e / n)).
Proof.
  destruct (C113_error [2; 5] [6; 7] eq_refl) as (e & A & _). destruct (C113_relative_partial [2; 5] [6; 7] true e eq_refl) as (n & P & Q & _); [|exact A|].
  - exists 6. split; [cbn; auto|lra].
  - exists e, n. auto.
Qed.
Example C113_relative_refuted_case : err [3] (Some [0]) false true = Some Inf.
Proof.
  destruct (C113_max_error [3] [0] eq_refl ltac:(discriminate)) as (e & A & B & _).
  destruct (C113_relative_refuted [3] [0] false e eq_refl ltac:(discriminate)) as (C & _); [intros b [<-|[]]; reflexivity|exact A|].
  rewrite C. destruct (Reqb_spec e 0) as [Z|]; [|reflexivity]. specialize (B 3 0 ltac:(cbn; auto)). rewrite Rabs_right in B by lra. lra.
Qed.
