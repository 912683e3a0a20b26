(** C114: the times of strings *)
From Coq Require Import Ascii List ZArith Bool Lia.
From Verif Require Import ParseTimeModel ParseTimeProofs.
Import ListNotations.
Local Open Scope Z_scope.

(** The calendar: 1970 starts at 0, and each day starts 86400 seconds after the
    day before it. *)
Definition next_day (y m d : Z) : Z * Z * Z :=
  if d <? month_length y m then (y, m, d + 1) else if m <? 12 then (y, m + 1, 1) else (y + 1, 1, 1).
Theorem C114_calendar y m d h mi s : valid y m d h mi s = true ->
  seconds 1970 1 1 0 0 0 = 0 /\
  (let '(y', m', d') := next_day y m d in seconds y' m' d' h mi s = seconds y m d h mi s + 86400) /\
  seconds y m d h mi s = seconds y m d 0 0 0 + (h * 60 + mi) * 60 + s.
Proof.
  intros V. apply valid_spec in V. destruct V as (Y & M & D & _). split; [reflexivity|]. split; [|unfold seconds; lia].
  unfold next_day. pose proof (month_step y m M) as P. destruct (Z.ltb_spec d (month_length y m)); [unfold seconds; lia|].
  destruct (Z.ltb_spec m 12).
  - rewrite (proj2 (Z.eqb_neq m 12)) in P by lia. unfold seconds. lia.
  - assert (m = 12) as -> by lia. cbn [Z.eqb Pos.eqb] in P. pose proof (year_step y) as Q. unfold seconds.
    replace (days_before_month (y + 1) 1) with 0 by reflexivity. lia.
Qed.
Print Assumptions C114_calendar.

(** Every valid time is read in all its formats, with the missing parts 0. *)
Definition date (y m d : Z) : list ascii := four y ++ two m ++ two d.
Definition separator (sep : list ascii) : Prop := sep = [] \/ exists c, sep = [c] /\ In c ["_"; ":"; "/"; " "]%char.
Theorem C114_formats y m d h mi s sep : valid y m d h mi s = true -> separator sep ->
  parse_time (date y m d ++ sep ++ two h ++ two mi ++ two s) = Some (seconds y m d h mi s) /\
  parse_time (date y m d ++ sep ++ two h ++ two mi) = Some (seconds y m d h mi 0) /\
  parse_time (date y m d ++ sep ++ two h) = Some (seconds y m d h 0 0) /\
  parse_time (date y m d) = Some (seconds y m d 0 0 0).
Proof.
  intros V S. assert (V' := V). apply valid_spec in V'. destruct V' as (Y & M & D & H & MI & SS).
  assert (DD : month_length y m <= 31) by (unfold month_length; repeat destruct (_ =? _); destruct (is_leap y); cbn; lia).
  pose proof (four_int y ltac:(lia)) as PY. pose proof (two_int m ltac:(lia)) as PM. pose proof (two_int d ltac:(lia)) as PD.
  pose proof (two_int h ltac:(lia)) as PH. pose proof (two_int mi ltac:(lia)) as PMI. pose proof (two_int s ltac:(lia)) as PS.
  assert (E : py_int [] = None) by reflexivity.
  assert (V2 : valid y m d h mi 0 = true) by (apply valid_spec; lia). assert (V3 : valid y m d h 0 0 = true) by (apply valid_spec; lia).
  assert (V4 : valid y m d 0 0 0 = true) by (apply valid_spec; lia).
  assert (HD : 0 <= h / 10 < 10) by (split; [apply Z.div_pos; lia|apply Z.div_lt_upper_bound; lia]).
  unfold four, two in *. cbn [app] in PY. unfold date, four, two.
  destruct S as [->|(c & -> & C)]; cbn [app]; unfold parse_time, field, dash, slice; cbn [Nat.sub firstn skipn].
  - rewrite !(digit_dash (h / 10)) by (first [exact HD|cbn; tauto]). cbn [orb]. rewrite PY, PM, PD, PH, PMI, PS, E, V, V2, V3, V4. auto.
  - assert (K : (Ascii.eqb c "_" || Ascii.eqb c ":" || Ascii.eqb c "/" || Ascii.eqb c " ")%bool = true).
    { cbn [In] in C. repeat (destruct C as [<-|C]; [reflexivity|]). destruct C. }
    rewrite K, PY, PM, PD, PH, PMI, PS, E, V, V2, V3, V4. auto.
Qed.
Print Assumptions C114_formats.

(** Later times have greater numbers. *)
Definition earlier (y m d h mi s y' m' d' h' mi' s' : Z) : Prop :=
  y < y' \/ (y = y' /\ (m < m' \/ (m = m' /\ (d < d' \/ (d = d' /\ (h < h' \/ (h = h' /\ (mi < mi' \/ (mi = mi' /\ s < s'))))))))).
Theorem C114_order y m d h mi s y' m' d' h' mi' s' : valid y m d h mi s = true -> valid y' m' d' h' mi' s' = true ->
  earlier y m d h mi s y' m' d' h' mi' s' -> seconds y m d h mi s < seconds y' m' d' h' mi' s'.
Proof.
  intros V V' E. apply valid_spec in V. apply valid_spec in V'. destruct V as (Y & M & D & H & MI & SS). destruct V' as (Y' & M' & D' & H' & MI' & SS').
  unfold seconds. destruct E as [E|(<- & [E|(<- & E)])]; [| |lia].
  - pose proof (year_next y y' E). pose proof (month_first y m M). pose proof (month_first y' m' M'). lia.
  - pose proof (month_next y m m' ltac:(lia) E ltac:(lia)). lia.
Qed.
Print Assumptions C114_order.

(** What is not a time is not refused: a string without digits is 1970, and
    after another separator the minutes are read in the wrong place. *)
Theorem C114_no_time_refuted s : (forall c, In c s -> is_digit c = false) -> parse_time s = Some 0.
Proof.
  intros H. assert (F : forall i j v, field i j v s = v).
  { intros i j v. unfold field. rewrite no_digit_int; [reflexivity|]. intros c I. apply H, (slice_in i j c s I). }
  unfold parse_time. rewrite !F. destruct (dash s); reflexivity.
Qed.
Print Assumptions C114_no_time_refuted.
Theorem C114_separator_refuted :
  parse_time ["2"; "0"; "1"; "2"; "0"; "2"; "2"; "9"; "T"; "1"; "2"; "1"; "0"]%char = Some (seconds 2012 2 29 0 21 0) /\
  seconds 2012 2 29 0 21 0 <> seconds 2012 2 29 12 10 0.
Proof. split; [reflexivity|]. vm_compute. discriminate. Qed.
Print Assumptions C114_separator_refuted.

(** Dates that do not exist are refused. *)
Theorem C114_dates y m d : 0 <= y < 10000 -> 0 <= m < 100 -> 0 <= d < 100 ->
  (parse_time (date y m d) = None <-> ~ (1 <= y /\ 1 <= m <= 12 /\ 1 <= d <= month_length y m)).
Proof.
  intros Y M D. pose proof (four_int y Y) as PY. pose proof (two_int m M) as PM. pose proof (two_int d D) as PD.
  unfold four, two in *. cbn [app] in PY. unfold date, four, two. cbn [app]. unfold parse_time, field, dash, slice. cbn [Nat.sub firstn skipn].
  assert (E : py_int [] = None) by reflexivity. rewrite PY, PM, PD, E. destruct (valid y m d 0 0 0) eqn:V.
  - apply valid_spec in V. split; [discriminate|]. intros H. exfalso. apply H. lia.
  - split; [|reflexivity]. intros _ H. assert (valid y m d 0 0 0 = true) by (apply valid_spec; lia). congruence.
Qed.
Print Assumptions C114_dates.

(** Cases *)
Example C114_calendar_case : valid 2012 2 29 12 10 0 = true /\ next_day 2012 2 29 = (2012, 3, 1) /\ seconds 2012 2 29 12 10 0 = 1330517400.
Proof. vm_compute. auto. Qed.
Example C114_formats_case : parse_time (date 2012 2 29 ++ ["_"]%char ++ two 12 ++ two 10) = Some 1330517400.
Proof. apply (C114_formats 2012 2 29 12 10 0 ["_"%char] eq_refl). right. exists "_"%char. split; [reflexivity|cbn; auto]. Qed.
Example C114_order_case : seconds 1999 12 31 23 59 59 < seconds 2000 1 1 0 0 0.
Proof. apply C114_order; [reflexivity|reflexivity|left; lia]. Qed.
Example C114_no_time_case : parse_time ["t"; "o"; "d"; "a"; "y"]%char = Some 0.
Proof. apply C114_no_time_refuted. intros c H. cbn [In] in H. repeat (destruct H as [<-|H]; [reflexivity|]). destruct H. Qed.
Example C114_dates_case : parse_time (date 2013 2 29) = None.
Proof. apply C114_dates; [lia|lia|lia|]. cbn. lia. Qed.
