(** Proofs about the parsing of times *)
From Coq Require Import Ascii List ZArith Bool Lia.
From Verif Require Import ParseTimeModel.
Import ListNotations.
Local Open Scope Z_scope.

(** The decimal digits of a number *)
Definition digit (n : Z) : ascii := ascii_of_nat (Z.to_nat (48 + n)).
Definition two (n : Z) : list ascii := [digit (n / 10); digit (n mod 10)].
Definition four (n : Z) : list ascii := two (n / 100) ++ two (n mod 100).
Definition all_digits : list Z := [0; 1; 2; 3; 4; 5; 6; 7; 8; 9].
Lemma in_digits n : 0 <= n < 10 -> In n all_digits.
Proof. intros H. unfold all_digits. cbn [In]. lia. Qed.
Definition is_int (s : list ascii) (v : Z) : bool := match py_int s with Some w => w =? v | None => false end.
Lemma is_int_some s v : is_int s v = true -> py_int s = Some v.
Proof. unfold is_int. destruct (py_int s); [|discriminate]. intros H. apply Z.eqb_eq in H. congruence. Qed.
Lemma check_two : forallb (fun a => forallb (fun b => is_int [digit a; digit b] (10 * a + b)) all_digits) all_digits = true.
Proof. vm_compute. reflexivity. Qed.
Lemma check_four : forallb (fun a => forallb (fun b => forallb (fun c => forallb (fun d =>
  is_int [digit a; digit b; digit c; digit d] (1000 * a + 100 * b + 10 * c + d)) all_digits) all_digits) all_digits) all_digits = true.
Proof. vm_compute. reflexivity. Qed.
Lemma two_int n : 0 <= n < 100 -> py_int (two n) = Some n.
Proof.
  intros H. assert (A : 0 <= n / 10 < 10) by (split; [apply Z.div_pos; lia|apply Z.div_lt_upper_bound; lia]).
  pose proof (Z.mod_pos_bound n 10 ltac:(lia)) as B. pose proof (Z.div_mod n 10 ltac:(lia)) as E.
  pose proof check_two as C. rewrite forallb_forall in C. specialize (C _ (in_digits _ A)). cbv beta in C. rewrite forallb_forall in C. specialize (C _ (in_digits _ B)).
  rewrite <- E in C. apply is_int_some, C.
Qed.
Lemma four_int n : 0 <= n < 10000 -> py_int (four n) = Some n.
Proof.
  intros H. set (u := n / 100). set (v := n mod 100).
  assert (U : 0 <= u < 100) by (unfold u; split; [apply Z.div_pos; lia|apply Z.div_lt_upper_bound; lia]).
  pose proof (Z.mod_pos_bound n 100 ltac:(lia)) as V. fold v in V. pose proof (Z.div_mod n 100 ltac:(lia)) as E. fold u v in E.
  assert (A : 0 <= u / 10 < 10) by (split; [apply Z.div_pos; lia|apply Z.div_lt_upper_bound; lia]).
  pose proof (Z.mod_pos_bound u 10 ltac:(lia)) as B. pose proof (Z.div_mod u 10 ltac:(lia)) as E1.
  assert (C : 0 <= v / 10 < 10) by (split; [apply Z.div_pos; lia|apply Z.div_lt_upper_bound; lia]).
  pose proof (Z.mod_pos_bound v 10 ltac:(lia)) as D. pose proof (Z.div_mod v 10 ltac:(lia)) as E2.
  pose proof check_four as K. rewrite forallb_forall in K. specialize (K _ (in_digits _ A)). cbv beta in K. rewrite forallb_forall in K. specialize (K _ (in_digits _ B)).
  cbv beta in K. rewrite forallb_forall in K. specialize (K _ (in_digits _ C)). cbv beta in K. rewrite forallb_forall in K. specialize (K _ (in_digits _ D)).
  replace (1000 * (u / 10) + 100 * (u mod 10) + 10 * (v / 10) + v mod 10) with n in K by lia. apply is_int_some, K.
Qed.
Lemma check_dash : forallb (fun a => forallb (fun c => negb (Ascii.eqb (digit a) c)) ["_"; ":"; "/"; " "]%char) all_digits = true.
Proof. vm_compute. reflexivity. Qed.
Lemma digit_dash a c : 0 <= a < 10 -> In c ["_"; ":"; "/"; " "]%char -> Ascii.eqb (digit a) c = false.
Proof.
  intros A C. pose proof check_dash as K. rewrite forallb_forall in K. specialize (K _ (in_digits _ A)). cbv beta in K. rewrite forallb_forall in K.
  specialize (K _ C). apply negb_true_iff in K. exact K.
Qed.

(** The calendar *)
Lemma year_step y : days_before_year (y + 1) = days_before_year y + (if is_leap y then 366 else 365).
Proof.
  unfold days_before_year, is_leap. replace (y + 1 - 1) with y by lia.
  destruct (Z.eqb_spec (y mod 4) 0), (Z.eqb_spec (y mod 100) 0), (Z.eqb_spec (y mod 400) 0); cbn [andb orb negb]; Z.to_euclidean_division_equations; lia.
Qed.
Lemma year_mono y k : 0 <= k -> days_before_year y + 365 * k <= days_before_year (y + k).
Proof.
  intros K. revert k K. apply natlike_ind; [replace (y + 0) with y by lia; lia|]. intros k K IH. replace (y + Z.succ k) with (y + k + 1) by lia.
  rewrite year_step. destruct (is_leap (y + k)); lia.
Qed.
Lemma year_next y y' : y < y' -> days_before_year y + (if is_leap y then 366 else 365) <= days_before_year y'.
Proof. intros H. rewrite <- year_step. pose proof (year_mono (y + 1) (y' - (y + 1)) ltac:(lia)) as M. replace (y + 1 + (y' - (y + 1))) with y' in M by lia. lia. Qed.
Lemma month_cases m : 1 <= m <= 12 -> In m [1; 2; 3; 4; 5; 6; 7; 8; 9; 10; 11; 12].
Proof. intros H. cbn [In]. lia. Qed.
Lemma month_step y m : 1 <= m <= 12 ->
  days_before_month y m + month_length y m = (if m =? 12 then if is_leap y then 366 else 365 else days_before_month y (m + 1)).
Proof. intros H. apply month_cases in H. cbn [In] in H. unfold days_before_month, month_length. destruct (is_leap y); repeat (destruct H as [<-|H]; [reflexivity|]); destruct H. Qed.
Lemma month_next y m m' : 1 <= m -> m < m' -> m' <= 12 -> days_before_month y m + month_length y m <= days_before_month y m'.
Proof.
  intros A B C. assert (H : 1 <= m <= 12) by lia. assert (H' : 1 <= m' <= 12) by lia. apply month_cases in H. apply month_cases in H'. cbn [In] in H, H'.
  unfold days_before_month, month_length. generalize (is_leap y). intros b.
  repeat (destruct H as [H|H]; [repeat (destruct H' as [H'|H']; [subst m m'; first [exfalso; clear -B; lia|destruct b; vm_compute; discriminate]|]); destruct H'|]). destruct H.
Qed.
Lemma month_first y m : 1 <= m <= 12 -> 0 <= days_before_month y m /\ days_before_month y m + month_length y m <= (if is_leap y then 366 else 365).
Proof. intros H. apply month_cases in H. cbn [In] in H. unfold days_before_month, month_length. destruct (is_leap y); repeat (destruct H as [<-|H]; [split; vm_compute; discriminate|]); destruct H. Qed.
Lemma valid_spec y m d h mi s : valid y m d h mi s = true <->
  (1 <= y <= 9999 /\ 1 <= m <= 12 /\ 1 <= d <= month_length y m /\ 0 <= h <= 23 /\ 0 <= mi <= 59 /\ 0 <= s <= 59).
Proof. unfold valid. rewrite !andb_true_iff, !Z.leb_le. lia. Qed.

(** Strings without digits *)
Lemma skip_in c s : In c (skip s) -> In c s.
Proof. induction s as [|d s IH]; cbn; [tauto|]. destruct (is_blank d); cbn; tauto. Qed.
Lemma strip_in c s : In c (strip s) -> In c s.
Proof. unfold strip. intros H. apply in_rev, skip_in, in_rev, skip_in in H. exact H. Qed.
Lemma no_digit_int s : (forall c, In c s -> is_digit c = false) -> py_int s = None.
Proof.
  intros H. assert (K : forall c, In c (strip s) -> is_digit c = false) by (intros c I; apply H, strip_in, I). unfold py_int.
  destruct (strip s) as [|c t]; [reflexivity|]. assert (N : natural t = None).
  { destruct t as [|d t]; [reflexivity|]. cbn. rewrite (K d (or_intror (or_introl eq_refl))). reflexivity. }
  rewrite N. cbn [natural]. rewrite (K c (or_introl eq_refl)). destruct (Ascii.eqb c "-"), (Ascii.eqb c "+"); reflexivity.
Qed.
Lemma slice_in i j c s : In c (slice i j s) -> In c s.
Proof.
  unfold slice. intros H. rewrite <- (firstn_skipn i s). apply in_or_app. right. rewrite <- (firstn_skipn (j - i) (skipn i s)). apply in_or_app. left. exact H.
Qed.
