(** C71: the time axis of functions read from files. *)
From Coq Require Import Reals List Arith Bool Lia Lra.
From Verif Require Import RealLib TimeSeriesModel TimeSeriesProofs TimeSeriesProps.
Import ListNotations.
Open Scope R_scope.

(** A file with finite data: start time, times since then, values. *)
Definition file (st : R) (T : list R) (Qs : list (list R)) (spatial : bool) : ncfile := NcFile st T (finite Qs) spatial.

(** The data of the file at an absolute time: the times in the file count from its
    start time. *)
Definition file_data (st : R) (T : list R) (Qs : list (list R)) (t : R) (q : list val) : Prop :=
  exists xs, q = map Fin xs /\ Forall2 (fun Q x => interpolant (map (fun s => st + s) T) Q t x) Qs xs.

Lemma reads_data : forall st T Qs t c q, Forall2 (reads (map (fun x => x + c) T) (t + c)) (finite Qs) q ->
  file_data st T Qs (st + t) q.
Proof.
  intros st T Qs t c q H.
  assert (H' : Forall2 (reads (map (fun s => st + s) T) (st + t)) (finite Qs) q).
  { eapply forall2_impl; [| exact H]. intros Q v R.
    apply (reads_shift _ _ _ _ (st - c)) in R. rewrite map_map in R.
    replace (t + c + (st - c)) with (st + t) in R by ring.
    erewrite map_ext in R; [exact R |]. intros a. cbn. ring. }
  apply reads_interpolants. exact H'.
Qed.

Lemma built : forall st T Qs spatial relative ds s start, data_ok T Qs ->
  file_function (file st T Qs spatial) relative 1 None (Some ds) = Some (s, start) ->
  start = Some (Rmax ds st) /\ well_formed s /\ values s = finite Qs /\
  times s = map (fun x => x + ((if relative then 0 else st) + (if Rltb st ds then st - ds else 0))) T.
Proof.
  intros st T Qs spatial relative ds s start D E. unfold file_function, file_times, file in E.
  cbn [f_start f_time f_values f_spatial] in E.
  set (T1 := if relative then T else map (fun t => t + st) T) in *.
  assert (E1 : T1 = map (fun x => x + (if relative then 0 else st)) T).
  { subst T1. destruct relative; [| reflexivity]. rewrite <- (map_id T) at 1. apply map_ext. intros a. ring. }
  destruct D as (N & M & L).
  assert (LT : length T1 = length T) by (rewrite E1; apply map_length).
  assert (L0 : length T1 <> 0%nat) by (rewrite LT; destruct T; [congruence | discriminate]).
  apply Nat.eqb_neq in L0. rewrite L0 in E. rewrite firstn_all in E.
  set (T2 := if Rltb st ds then map (fun t => t - ds + st) T1 else T1) in *.
  assert (E2 : T2 = map (fun x => x + ((if relative then 0 else st) + (if Rltb st ds then st - ds else 0))) T).
  { subst T2. rewrite E1. destruct (Rltb st ds); [rewrite map_map |]; apply map_ext; intros a; ring. }
  unfold init in E. destruct (monotone T2) eqn:MT; [| discriminate]. injection E as <- <-.
  rewrite thin_one. assert (V : (if spatial then map (thin 1) (finite Qs) else finite Qs) = finite Qs).
  { destruct spatial; [| reflexivity]. rewrite <- (map_id (finite Qs)) at 2. apply map_ext. intros Q. apply thin_one. }
  rewrite V. refine (conj _ (conj _ (conj eq_refl E2))).
  - f_equal. destruct (Rltb ds st) eqn:B; [apply Rltb_true in B; rewrite Rmax_right; lra | apply Rltb_false in B; rewrite Rmax_left; lra].
  - rewrite E2. refine (conj _ (conj _ (conj _ _))); cbn [times values index].
    + destruct T; [congruence | discriminate].
    + apply shift_nondecreasing. exact M.
    + rewrite map_length. destruct T; [congruence | cbn; lia].
    + rewrite map_length. rewrite Forall_forall in *. intros Q HQ. unfold finite in HQ. apply in_map_iff in HQ.
      destruct HQ as (Q' & <- & HQ'). rewrite map_length. auto.
Qed.

Lemma call_reads : forall s history t q, well_formed s -> snd (call (calls s history) t) = Value q -> Forall2 (reads (times s) t) (values s) q.
Proof.
  intros s history t q W E. destruct (calls_keep history s W) as (W' & K1 & K2).
  destruct (nth_error (times s) 0) as [first|] eqn:E0.
  2:{ destruct W as (N & _). destruct (times s); [congruence | discriminate]. }
  rewrite <- K1 in E0. pose proof (outcome_cases _ t first W' E0) as H. rewrite E in H.
  destruct (call_inside _ t first W' E0 (proj1 H) (proj2 H)) as (k & q' & C & _ & R). rewrite C in E. injection E as ->.
  rewrite K1, K2 in R. exact R.
Qed.

(** The domain starts no earlier than the file. *)
Theorem C71_start : forall st T Qs spatial relative ds s start, data_ok T Qs ->
  file_function (file st T Qs spatial) relative 1 None (Some ds) = Some (s, start) -> start = Some (Rmax ds st).
Proof. intros. eapply built; eassumption. Qed.
Print Assumptions C71_start.

(** By default the function takes times relative to the domain's start. *)
Theorem C71_relative : forall st T Qs spatial ds s start, data_ok T Qs ->
  file_function (file st T Qs spatial) true 1 None (Some ds) = Some (s, Some start) ->
  forall history t q, snd (call (calls s history) t) = Value q -> file_data st T Qs (start + t) q.
Proof.
  intros st T Qs spatial ds s start D E history t q C. destruct (built _ _ _ _ _ _ _ _ D E) as (S1 & W & V & TT). injection S1 as ->.
  apply call_reads in C; [| exact W]. rewrite TT, V in C.
  set (c := 0 + (if Rltb st ds then st - ds else 0)) in C.
  replace (Rmax ds st + t) with (st + (t - c)).
  - apply reads_data with (c := c). replace (t - c + c) with t by ring. exact C.
  - subst c. destruct (Rltb st ds) eqn:B; [apply Rltb_true in B; rewrite Rmax_left | apply Rltb_false in B; rewrite Rmax_right]; lra.
Qed.
Print Assumptions C71_relative.

(** With absolute times it is right when the file starts no earlier than the
    domain, and otherwise off by the difference. *)
Theorem C71_absolute : forall st T Qs spatial ds s start, data_ok T Qs ->
  file_function (file st T Qs spatial) false 1 None (Some ds) = Some (s, start) ->
  forall history t q, snd (call (calls s history) t) = Value q ->
  (ds <= st -> file_data st T Qs t q) /\ (st <= ds -> file_data st T Qs (t + (ds - st)) q).
Proof.
  intros st T Qs spatial ds s start D E history t q C. destruct (built _ _ _ _ _ _ _ _ D E) as (_ & W & V & TT).
  apply call_reads in C; [| exact W]. rewrite TT, V in C.
  set (c := st + (if Rltb st ds then st - ds else 0)) in C.
  assert (G : file_data st T Qs (st + (t - c)) q).
  { apply reads_data with (c := c). replace (t - c + c) with t by ring. exact C. }
  split; intros L; [replace t with (st + (t - c)) | replace (t + (ds - st)) with (st + (t - c))]; try exact G;
    subst c; (destruct (Rltb st ds) eqn:B; [apply Rltb_true in B | apply Rltb_false in B]; lra).
Qed.
Print Assumptions C71_absolute.

(** Which times are served. *)
Theorem C71_served : forall st T Qs spatial ds s start first, data_ok T Qs -> nth_error T 0 = Some first ->
  file_function (file st T Qs spatial) true 1 None (Some ds) = Some (s, Some start) ->
  forall history t, (exists q, snd (call (calls s history) t) = Value q) <-> st + first <= start + t <= st + last T first.
Proof.
  intros st T Qs spatial ds s start first D E0 E history t.
  destruct (built _ _ _ _ _ _ _ _ D E) as (S1 & W & V & TT). injection S1 as ->.
  destruct (calls_keep history s W) as (W' & K1 & K2).
  set (c := 0 + (if Rltb st ds then st - ds else 0)) in TT.
  assert (EC : Rmax ds st = st - c).
  { subst c. destruct (Rltb st ds) eqn:B; [apply Rltb_true in B; rewrite Rmax_left | apply Rltb_false in B; rewrite Rmax_right]; lra. }
  assert (F0 : nth_error (times (calls s history)) 0 = Some (first + c)).
  { rewrite K1, TT. rewrite nth_error_map, E0. reflexivity. }
  assert (FL : last (times (calls s history)) (first + c) = last T first + c) by (rewrite K1, TT; apply last_map_shift).
  pose proof (outcome_cases _ t _ W' F0) as H. rewrite FL in H. split.
  - intros (q & Eq). rewrite Eq in H. rewrite EC. lra.
  - intros H'. rewrite EC in H'. destruct (call_inside _ t _ W' F0) as (k & q & C & _); [lra | rewrite FL; lra |].
    exists q. rewrite C. reflexivity.
Qed.
Print Assumptions C71_served.

(** ** [File_boundary] *)

(** It is evaluated at the absolute time, so the start time is added twice. *)
Theorem C71_boundary : forall st T Qs spatial ds s start, data_ok T Qs ->
  file_boundary (file st T Qs spatial) ds = Some (s, start) ->
  forall history r q, snd (file_boundary_evaluate (calls s history) start r) = Value q -> file_data st T Qs (start + (start + r)) q.
Proof.
  intros st T Qs spatial ds s start D E history r q C. unfold file_boundary in E.
  destruct (file_function (file st T Qs spatial) true 1 None (Some ds)) as [[s' [start'|]]|] eqn:EF; [| discriminate | discriminate].
  injection E as -> ->. unfold file_boundary_evaluate, domain_time in C.
  eapply C71_relative; [exact D | exact EF | exact C].
Qed.
Print Assumptions C71_boundary.

(** It is right when the domain starts at time zero. *)
Theorem C71_boundary_partial : forall st T Qs spatial ds s, data_ok T Qs ->
  file_boundary (file st T Qs spatial) ds = Some (s, 0) ->
  forall history r q, snd (file_boundary_evaluate (calls s history) 0 r) = Value q -> file_data st T Qs (0 + r) q.
Proof.
  intros st T Qs spatial ds s D E history r q C.
  pose proof (C71_boundary st T Qs spatial ds s 0 D E history r q C) as H. replace (0 + (0 + r)) with (0 + r) in H by ring. exact H.
Qed.
Print Assumptions C71_boundary_partial.

(** With any other start it is wrong at every time, for a file that stores the time
    itself. *)
Lemma interpolant_time : forall T t x, nondecreasing T -> interpolant T T t x -> x = t.
Proof.
  intros T t x M [(k & A & B) | (k & a & b & qa & qb & A & B & C & A' & B' & E)]; [congruence |].
  rewrite A in A'. rewrite B in B'. injection A' as <-. injection B' as <-.
  apply Rmult_eq_reg_r with (b - a); [rewrite E; ring | lra].
Qed.

Theorem C71_boundary_start_refuted : forall st T spatial ds s start, T <> [] -> nondecreasing T -> start <> 0 ->
  file_boundary (file st T [map (fun x => st + x) T] spatial) ds = Some (s, start) ->
  forall history r q, snd (file_boundary_evaluate (calls s history) start r) = Value q ->
  ~ file_data st T [map (fun x => st + x) T] (start + r) q.
Proof.
  intros st T spatial ds s start N M Z E history r q C (xs & -> & X).
  assert (D : data_ok T [map (fun x => st + x) T]).
  { refine (conj N (conj M _)). constructor; [rewrite map_length; lia | constructor]. }
  destruct (C71_boundary st T _ spatial ds s start D E history r _ C) as (ys & EY & Y).
  assert (M' : nondecreasing (map (fun x => st + x) T)).
  { intros i a b E1 E2. rewrite nth_error_map in *.
    destruct (nth_error T i) as [x|] eqn:Ex; [| discriminate]. destruct (nth_error T (S i)) as [y|] eqn:Ey; [| discriminate].
    injection E1 as <-. injection E2 as <-. pose proof (M i x y Ex Ey). lra. }
  inversion X as [| Q x ? xs' HX _]; subst. inversion Y as [| Q' y ? ys' HY _]; subst.
  apply interpolant_time in HX; [| exact M']. apply interpolant_time in HY; [| exact M'].
  injection EY as EY _. lra.
Qed.
Print Assumptions C71_boundary_start_refuted.

(** A file that covers the whole run is rejected as too short. *)
Theorem C71_boundary_covered_refuted : exists st T Qs ds s start r, data_ok T Qs /\
  file_boundary (file st T Qs true) ds = Some (s, start) /\ 0 <= r /\ st + 0 <= start + r <= st + last T 0 /\ nth_error T 0 = Some 0 /\
  snd (file_boundary_evaluate s start r) = Too_late.
Proof.
  assert (D : data_ok [0; 10] [[1; 2]]).
  { refine (conj _ (conj _ _)); [discriminate | | repeat constructor].
    intros i a b. do 2 (destruct i as [| i]; [cbn; intros A B; try discriminate; injection A as <-; injection B as <-; lra |]).
    cbn. destruct i; discriminate. }
  exists 100, [0; 10], [[1; 2]], 0, (Series [0; 10] (finite [[1; 2]]) 0), 100, 0.
  refine (conj D (conj _ (conj _ (conj _ (conj eq_refl _))))).
  - unfold file_boundary, file_function, file_times, file. cbn -[Rltb Rplus Rminus init].
    rewrite (proj2 (Rltb_false 100 0)) by lra. unfold init. rewrite (proj2 (monotone_spec _) (proj1 (proj2 D))).
    rewrite (proj2 (Rltb_true 0 100)) by lra. reflexivity.
  - lra.
  - cbn. lra.
  - unfold file_boundary_evaluate, domain_time, call. cbn -[Rltb Rplus].
    rewrite (proj2 (Rltb_false (100 + 0) 0)) by lra. rewrite (proj2 (Rltb_true 10 (100 + 0))) by lra. reflexivity.
Qed.
Print Assumptions C71_boundary_covered_refuted.

(** ** The time limit *)

Lemma upper_index_spec : forall l limit, nondecreasing l ->
  forall i t, nth_error l i = Some t -> ((i < upper_index l limit)%nat <-> t <= limit).
Proof.
  intros l limit M. assert (U : forall l', (forall i a, nth_error l' i = Some a -> True) -> nondecreasing l' ->
    forall i t, nth_error l' i = Some t -> ((i < upper_index l' limit)%nat <-> t <= limit)).
  { clear. intros l' _. induction l' as [| a l IH]; intros M i t E; [destruct i; discriminate |]. cbn [upper_index].
    assert (M' : nondecreasing l) by (intros j x y E1 E2; exact (M (S j) x y E1 E2)).
    destruct (Rltb limit a) eqn:B.
    - apply Rltb_true in B. pose proof (nondecreasing_le _ M 0 i a t (Nat.le_0_l i) eq_refl E). split; [lia | lra].
    - apply Rltb_false in B. destruct i as [| i]; cbn [nth_error] in E.
      + injection E as <-. split; [intros _; exact B | lia].
      + rewrite <- (IH M' i t E). lia. }
  apply U; auto.
Qed.

Lemma firstn_keeps : forall {A} (l : list A) n i, (i < n)%nat -> nth_error (firstn n l) i = nth_error l i.
Proof.
  intros A l. induction l as [| a l IH]; intros [| n] i L; [lia | destruct i; reflexivity | lia |].
  destruct i as [| i]; cbn; [reflexivity |]. apply IH. lia.
Qed.

(** By default exactly the times up to the limit are kept. *)
Theorem C71_limit : forall st T Qs spatial limit T', nondecreasing T ->
  file_times (file st T Qs spatial) true (Some limit) None = Some T' ->
  forall i t, nth_error T i = Some t -> (nth_error T' i = Some t <-> st + t <= limit).
Proof.
  intros st T Qs spatial limit T' M E i t Et. unfold file_times, file in E. cbn [f_start f_time] in E.
  destruct (Nat.eqb (length T) 0); [discriminate |].
  destruct (Nat.eqb (upper_index T (limit - st)) 0); [discriminate |]. injection E as <-.
  pose proof (upper_index_spec T (limit - st) M i t Et) as U. split.
  - intros H. assert ((i < length (firstn (upper_index T (limit - st)) T))%nat) by (apply nth_error_Some; congruence).
    rewrite firstn_length in *. assert (i < upper_index T (limit - st))%nat by lia. apply U in H1. lra.
  - intros H. rewrite firstn_keeps; [exact Et |]. apply U. lra.
Qed.
Print Assumptions C71_limit.

(** With absolute times the start time is taken off the limit but not the times. *)
Theorem C71_limit_refuted : exists st T limit T' i t, nondecreasing T /\
  file_times (file st T [T] true) false (Some limit) None = Some T' /\ nth_error T i = Some t /\ st + t <= limit /\ nth_error T' i = None.
Proof.
  exists 5, [-5; 0; 5], 10, [-5 + 5; 0 + 5], 2%nat, 5.
  refine (conj _ (conj _ (conj eq_refl (conj _ eq_refl)))); [| | lra].
  - intros i a b. do 3 (destruct i as [| i]; [cbn; intros A B; try discriminate; injection A as <-; injection B as <-; lra |]).
    cbn. destruct i; discriminate.
  - unfold file_times, file. cbn -[Rltb Rplus Rminus firstn].
    rewrite (proj2 (Rltb_false (10 - 5) (-5 + 5))) by lra. rewrite (proj2 (Rltb_false (10 - 5) (0 + 5))) by lra.
    rewrite (proj2 (Rltb_true (10 - 5) (5 + 5))) by lra. reflexivity.
Qed.
Print Assumptions C71_limit_refuted.

(** ** Non-vacuity *)
Example C71_example : exists s, file_boundary (file 0 [0; 10] [[1; 3]] true) 0 = Some (s, 0) /\
  snd (file_boundary_evaluate s 0 5) = Value [Fin 2].
Proof.
  exists (Series [0; 10] (finite [[1; 3]]) 0). split.
  - unfold file_boundary, file_function, file_times, file. cbn -[Rltb Rplus Rminus init].
    rewrite (proj2 (Rltb_false 0 0)) by lra. unfold init.
    rewrite (proj2 (monotone_spec [0; 10])); [reflexivity |].
    intros i a b. do 2 (destruct i as [| i]; [cbn; intros A B; try discriminate; injection A as <-; injection B as <-; lra |]).
    cbn. destruct i; discriminate.
  - unfold file_boundary_evaluate, domain_time, call, snd, finite; cbn -[Rltb Reqb Rdiv Rminus Rmult Rplus].
    repeat (go; cbn -[Rltb Reqb Rdiv Rminus Rmult Rplus]).
    assert (NE : Reqb (0 + 5) 0 = false) by (destruct (Reqb (0 + 5) 0) eqn:B; [apply Reqb_true in B; lra | reflexivity]).
    rewrite ?NE. cbn -[Rltb Reqb Rdiv Rminus Rmult Rplus]. unfold read_value. cbn -[Rltb Reqb Rdiv Rminus Rmult Rplus].
    assert (P : Rltb 0 ((0 + 5 - 0) / (10 - 0)) = true) by (apply Rltb_true; lra). rewrite P.
    cbn [all_some lerp]. do 2 f_equal. f_equal. lra.
Qed.
