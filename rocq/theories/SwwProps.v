(** C72: what is in the output file. *)
From Coq Require Import Reals List Arith Bool ZArith Lia Lra.
From Verif Require Import RealLib SwwModel SwwProofs TimeSeriesModel TimeSeriesProofs TimeSeriesProps FileFunctionProps.
Import ListNotations.
Open Scope R_scope.

(** ** One frame *)

(** Where the depth reaches the threshold the values are stored as they are;
    elsewhere the stage is the bed and the momentum zero. *)
Theorem C72_values : forall h w z m i wi zi mi, nth_error w i = Some wi -> nth_error z i = Some zi -> nth_error m i = Some mi ->
  nth_error (stored_stage h w z) i = Some (if Rle_dec h (wi - zi) then wi else zi) /\
  nth_error (stored_momentum h w z m) i = Some (if Rle_dec h (wi - zi) then mi else 0).
Proof.
  intros h w z m i wi zi mi E1 E2 E3. unfold stored_stage, stored_momentum. rewrite !choose_nth, storable_nth, E1, E2, E3, repeat_nth.
  assert (L : Nat.ltb i (length m) = true) by (apply Nat.ltb_lt, nth_error_Some; congruence). rewrite L.
  destruct (Rle_dec h (wi - zi)) as [D | D].
  - rewrite (proj2 (Rleb_true _ _) D). split; reflexivity.
  - rewrite (proj2 (Rleb_false _ _)) by lra. split; reflexivity.
Qed.
Print Assumptions C72_values.

(** So the stored depth is zero or at least the threshold, and there is no momentum
    without depth. *)
Theorem C72_depth : forall h w z m i s zi mi, 0 < h -> length w = length z -> length m = length z ->
  nth_error (stored_stage h w z) i = Some s -> nth_error z i = Some zi -> nth_error (stored_momentum h w z m) i = Some mi ->
  (s - zi = 0 /\ mi = 0) \/ h <= s - zi.
Proof.
  intros h w z m i s zi mi P L1 L2 E1 E2 E3.
  assert (Lz : (i < length z)%nat) by (apply nth_error_Some; congruence).
  destruct (nth_error w i) as [wi|] eqn:Ew; [| apply nth_error_None in Ew; lia].
  destruct (nth_error m i) as [m'|] eqn:Em; [| apply nth_error_None in Em; lia].
  destruct (C72_values h w z m i wi zi m' Ew E2 Em) as (A & B). rewrite A in E1. rewrite B in E3.
  injection E1 as <-. injection E3 as <-. destruct (Rle_dec h (wi - zi)); [right; assumption | left; split; lra].
Qed.
Print Assumptions C72_depth.

(** ** Where a frame goes *)

Theorem C72_append : forall f t q g, length (sw_frames f) = length (sw_time f) -> (forall a, In a (sw_time f) -> a < t) ->
  store_quantities f t q = Some g ->
  sw_start g = sw_start f /\ sw_time g = sw_time f ++ [t] /\ sw_frames g = sw_frames f ++ [q].
Proof.
  intros f t q g L H E. assert (N : q <> []) by (intros ->; unfold store_quantities in E; rewrite slice_new in E by exact H; discriminate).
  destruct (store_new f t q H L N) as (r & _ & E'). rewrite E' in E. injection E as <-. repeat split.
Qed.
Print Assumptions C72_append.

(** A time already in the file, as when a run is restarted: only that frame changes. *)
Theorem C72_overwrite : forall f k t q g, length (sw_frames f) = length (sw_time f) ->
  (forall i a b, nth_error (sw_time f) i = Some a -> nth_error (sw_time f) (S i) = Some b -> a + / 10 ^ 14 <= b) ->
  nth_error (sw_time f) k = Some t -> store_quantities f t q = Some g ->
  sw_start g = sw_start f /\ sw_time g = sw_time f /\ length (sw_frames g) = length (sw_frames f) /\
  nth_error (sw_frames g) k = Some q /\ (forall j, j <> k -> nth_error (sw_frames g) j = nth_error (sw_frames f) j).
Proof.
  intros f k t q g L M Ek E. unfold store_quantities in E. rewrite (slice_old _ k t M Ek) in E.
  destruct (update_range (sw_range f) q) as [r|]; [| discriminate]. injection E as <-. cbn [sw_start sw_time sw_frames].
  assert (LK : (k < length (sw_frames f))%nat) by (rewrite L; apply nth_error_Some; congruence).
  refine (conj eq_refl (conj (put_same _ _ _ Ek) (conj (put_length _ _ _ LK) (conj _ _)))).
  - rewrite put_nth by exact LK. rewrite Nat.eqb_refl. reflexivity.
  - intros j NJ. rewrite put_nth by exact LK. rewrite (proj2 (Nat.eqb_neq j k) NJ). reflexivity.
Qed.
Print Assumptions C72_overwrite.

(** Any other time in the past is refused. *)
Theorem C72_past : forall f t q, (exists a, In a (sw_time f) /\ t <= a) ->
  (forall i j a b, (i < j)%nat -> nth_error (sw_time f) i = Some a -> nth_error (sw_time f) j = Some b -> a < b) ->
  (forall a, In a (sw_time f) -> / 10 ^ 14 <= Rabs (a - t)) -> store_quantities f t q = None.
Proof.
  intros f t q (a & Ha & La) M H. unfold store_quantities.
  assert (E : slice_index (sw_time f) t = None); [| rewrite E; reflexivity].
  unfold slice_index. destruct (rev (sw_time f)) as [| l T'] eqn:ER.
  - assert (X : sw_time f = []) by (rewrite <- (rev_involutive (sw_time f)), ER; reflexivity). rewrite X in Ha. contradiction.
  - destruct (Rleb t l) eqn:B; [apply find_time_none; exact H |]. exfalso. apply Rleb_false in B.
    assert (a < t); [| lra]. apply (sorted_last (sw_time f) t M); [| exact Ha]. unfold last_time. rewrite ER. exact B.
Qed.
Print Assumptions C72_past.

(** A run that stores at increasing times. *)
Theorem C72_run : forall start steps, increasing_from None steps ->
  exists g, store_all (new_file start) steps = Some g /\ sw_start g = start /\
    sw_time g = map fst steps /\ sw_frames g = map snd steps.
Proof.
  intros start steps I. destruct (store_all_new steps (new_file start)) as (g & G1 & G2 & G3 & G4 & _).
  - intros i j a b _ E. destruct i; discriminate.
  - reflexivity.
  - exact I.
  - exists g. refine (conj G1 (conj G2 (conj G3 G4))).
Qed.
Print Assumptions C72_run.

(** A run stopped and taken up again at a stored time leaves the frames of the
    second run from there on. *)
Lemma restore_all : forall later f done old new', length (sw_frames f) = length (sw_time f) -> spaced (sw_time f) ->
  sw_time f = done ++ map fst later -> length old = length done -> sw_frames f = old ++ new' ->
  Forall (fun p => snd p <> []) later ->
  exists g, store_all f later = Some g /\ sw_start g = sw_start f /\ sw_time g = sw_time f /\ sw_frames g = old ++ map snd later.
Proof.
  induction later as [| (t, q) later IH]; intros f done old new' L M ET LO EF N.
  - exists f. refine (conj eq_refl (conj eq_refl (conj eq_refl _))). cbn in *. rewrite EF, ET, !app_length in L. cbn in L.
    assert (new' = []) as -> by (destruct new'; [reflexivity | cbn in L; lia]). exact EF.
  - inversion N as [| ? ? N1 N2]; subst. cbn [snd] in N1. cbn [map fst] in ET.
    assert (EK : nth_error (sw_time f) (length done) = Some t) by (rewrite ET, nth_error_app2, Nat.sub_diag by lia; reflexivity).
    cbn [store_all]. unfold store_quantities. rewrite (slice_old _ _ t M EK).
    destruct (update_range (sw_range f) q) as [r|] eqn:ER; [| destruct q; [congruence | discriminate]].
    rewrite (put_same _ _ _ EK).
    destruct new' as [| o new'].
    { exfalso. rewrite EF, ET, !app_length in L. cbn in L. lia. }
    assert (EP : put (sw_frames f) (length done) q = (old ++ [q]) ++ new').
    { rewrite EF, <- LO, <- app_assoc. clear. induction old as [| b old IH]; [reflexivity |]. cbn. rewrite IH. reflexivity. }
    rewrite EP.
    destruct (IH (Sww (sw_start f) (sw_time f) ((old ++ [q]) ++ new') r) (done ++ [t]) (old ++ [q]) new') as (g & G1 & G2 & G3 & G4); cbn [sw_time sw_frames sw_start] in *.
    + rewrite <- L, EF, !app_length. cbn. lia.
    + exact M.
    + rewrite <- app_assoc. exact ET.
    + rewrite !app_length. cbn. lia.
    + reflexivity.
    + exact N2.
    + exists g. rewrite <- app_assoc in G4. refine (conj G1 (conj G2 (conj G3 G4))).
Qed.

Theorem C72_restart : forall start before after again beyond f, increasing_from None (before ++ after) ->
  store_all (new_file start) (before ++ after) = Some f -> spaced (sw_time f) ->
  map fst again = map fst after -> Forall (fun p => snd p <> []) again ->
  increasing_from (last_time (sw_time f)) beyond ->
  exists g, store_all f (again ++ beyond) = Some g /\ sw_start g = start /\
    sw_time g = map fst before ++ map fst again ++ map fst beyond /\
    sw_frames g = map snd before ++ map snd again ++ map snd beyond.
Proof.
  intros start before after again beyond f I E SP EA NE IB.
  destruct (C72_run start _ I) as (f' & E' & S1 & S2 & S3). rewrite E in E'. injection E' as <-.
  rewrite map_app in S2, S3.
  destruct (restore_all again f (map fst before) (map snd before) (map snd after)) as (g & G1 & G2 & G3 & G4).
  - rewrite S2, S3, !app_length, !map_length. reflexivity.
  - exact SP.
  - rewrite EA. exact S2.
  - rewrite !map_length. reflexivity.
  - exact S3.
  - exact NE.
  - destruct (store_all_new beyond g) as (g' & A1 & A2 & A3 & A4 & _).
    + rewrite G3. intros i j a b L E1 E2. pose proof (spaced_later _ SP i j a b L E1 E2). pose proof gap_pos. lra.
    + assert (LA : length again = length after) by (rewrite <- (map_length fst again), EA, map_length; reflexivity).
      rewrite G3, G4, S2, !app_length, !map_length, LA. reflexivity.
    + rewrite G3. exact IB.
    + exists g'. assert (SA : forall a b f0, store_all f0 (a ++ b) = match store_all f0 a with None => None | Some f1 => store_all f1 b end).
      { clear. induction a as [| (t, q) a IH]; intros b f0; [reflexivity |]. cbn. destruct (store_quantities f0 t q); [apply IH | reflexivity]. }
      rewrite SA, G1. refine (conj A1 (conj _ (conj _ _))).
      * congruence.
      * rewrite A3, G3, S2, EA, <- app_assoc. reflexivity.
      * rewrite A4, G4, <- app_assoc. reflexivity.
Qed.
Print Assumptions C72_restart.

(** ** The stored range *)

Definition within (r : R * R) (x : R) : Prop := fst r <= x <= snd r.

Lemma update_within : forall r q r', update_range r q = Some r' ->
  (forall x, In x q -> within r' x) /\ (forall x, within r x -> within r' x).
Proof.
  intros r [| y q] r' E; [discriminate |]. injection E as <-. unfold within. cbn [fst snd]. split.
  - intros x Hx. pose proof (minimum_le q y x Hx). pose proof (maximum_ge q y x Hx). split.
    + destruct (Rltb _ _) eqn:B; [lra | apply Rltb_false in B; lra].
    + destruct (Rltb _ _) eqn:B; [lra | apply Rltb_false in B; lra].
  - intros x [H1 H2]. split.
    + destruct (Rltb _ _) eqn:B; [apply Rltb_true in B; lra | lra].
    + destruct (Rltb _ _) eqn:B; [apply Rltb_true in B; lra | lra].
Qed.

Lemma put_in : forall {A} (l : list A) i a x, In x (put l i a) -> x = a \/ In x l.
Proof.
  intros A l. induction l as [| b l IH]; intros [| i] a x H; cbn in H.
  - destruct H as [H | []]; auto.
  - destruct H as [H | []]; auto.
  - destruct H as [H | H]; [auto | right; right; exact H].
  - destruct H as [H | H]; [right; left; exact H |]. destruct (IH i a x H) as [-> | H']; [auto | right; right; exact H'].
Qed.

(** Whatever is stored, in whatever order, the range contains every value in the
    file. *)
Theorem C72_range : forall steps f g, store_all f steps = Some g ->
  (forall q x, In q (sw_frames f) -> In x q -> within (sw_range f) x) ->
  forall q x, In q (sw_frames g) -> In x q -> within (sw_range g) x.
Proof.
  induction steps as [| (t, q0) steps IH]; intros f g E H; cbn [store_all] in E; [injection E as <-; exact H |].
  destruct (store_quantities f t q0) as [f'|] eqn:ES; [| discriminate]. apply (IH f' g E). clear E g IH.
  unfold store_quantities in ES. destruct (slice_index (sw_time f) t) as [i|]; [| discriminate].
  destruct (update_range (sw_range f) q0) as [r|] eqn:ER; [| discriminate]. injection ES as <-. cbn [sw_frames sw_range].
  destruct (update_within _ _ _ ER) as (U1 & U2). intros q x Hq Hx.
  apply put_in in Hq. destruct Hq as [-> | Hq]; [apply U1; exact Hx | apply U2; eapply H; eassumption].
Qed.
Print Assumptions C72_range.

(** It is not the range of what is in the file once a frame has been replaced. *)
Theorem C72_range_refuted : exists steps g, store_all (new_file 0) steps = Some g /\
  (exists q, In q (sw_frames g) /\ q <> []) /\ forall q x, In q (sw_frames g) -> In x q -> x < snd (sw_range g).
Proof.
  assert (P : 100 < max_float).
  { unfold max_float. replace 36%nat with (2 + 34)%nat by reflexivity. rewrite pow_add.
    assert (1 < 10 ^ 34) by (apply Rlt_pow_R1; [lra | lia]). replace (10 ^ 2) with 100 by ring. nra. }
  exists [(0, [9]); (0, [1])].
  assert (R1 : update_range (max_float, - max_float) [9] = Some (9, 9)).
  { unfold update_range. cbn [minimum maximum fst snd]. rewrite (proj2 (Rltb_true 9 max_float)) by lra. rewrite (proj2 (Rltb_true (- max_float) 9)) by lra. reflexivity. }
  assert (R2 : update_range (9, 9) [1] = Some (1, 9)).
  { unfold update_range. cbn [minimum maximum fst snd]. rewrite (proj2 (Rltb_true 1 9)) by lra. rewrite (proj2 (Rltb_false 9 1)) by lra. reflexivity. }
  exists (Sww 0 [0] [[1]] (1, 9)). refine (conj _ (conj _ _)).
  - cbn [store_all]. unfold store_quantities at 1. cbn [new_file sw_time sw_range sw_frames sw_start slice_index rev]. rewrite R1. cbn [put].
    unfold store_quantities. cbn [sw_time sw_range sw_frames sw_start]. rewrite (slice_old [0] 0 0); [| | reflexivity].
    + rewrite R2. reflexivity.
    + intros [| i] a b E1 E2; [discriminate | destruct i; discriminate].
  - exists [1]. split; [left; reflexivity | discriminate].
  - intros q x [<- | []] [<- | []]. cbn. lra.
Qed.
Print Assumptions C72_range_refuted.

(** ** Splitting large files *)

(** No frame is lost, repeated or put out of order, whatever the sizes are. *)
Theorem C72_split_frames : forall fuel size max_size start steps files, increasing_from None steps ->
  run fuel size max_size start [] (new_file start) steps = Some files ->
  concat (map sw_time files) = map fst steps /\ concat (map sw_frames files) = map snd steps.
Proof.
  intros fuel size max_size start steps files I E.
  apply (run_frames steps fuel size max_size start [] (new_file start) files); [| reflexivity | exact I | exact E].
  intros i j a b _ E1. destruct i; discriminate.
Qed.
Print Assumptions C72_split_frames.

(** A step ends, because each attempt doubles the size allowed. *)
Theorem C72_split_ends : forall size max_size B start f r q, (0 < max_size)%Z -> (forall s, 0 <= size (new_file s) <= B)%Z ->
  q <> [] -> sorted (sw_time f) -> length (sw_frames f) = length (sw_time f) ->
  (match last_time (sw_time f) with None => True | Some l => l < r end) ->
  exists fuel res, store_timestep fuel size max_size 0 start f r q = Some res.
Proof.
  intros size max_size B start f r q P HB N M L I.
  exists (S (Z.to_nat (2 * B))). cbn [store_timestep]. destruct (too_big size max_size 0 f).
  - destruct (step_terminates size max_size B P HB (Z.to_nat (2 * B)) 1 (start + r) r q N) as ((c & g) & E).
    + assert (0 <= B)%Z by (pose proof (HB 0); lia).
      rewrite Nat2Z.inj_add, Z2Nat.id by lia.
      assert (X : (2 * B < 2 ^ (2 * B))%Z) by (apply Z.pow_gt_lin_r; lia).
      assert (Y : (2 ^ (2 * B) <= 2 ^ (2 * B + Z.of_nat 1))%Z) by (apply Z.pow_le_mono_r; lia). nia.
    + rewrite E. eauto.
  - destruct (store_new f r q) as (ra & _ & X); [apply sorted_last; assumption | exact L | exact N |]. rewrite X. eauto.
Qed.
Print Assumptions C72_split_ends.

(** A frame belongs to the absolute time [sw_start + time]. A file made by
    splitting places its frames later than they were, by at least the time of the
    split. *)
Theorem C72_split_origin_refuted : forall fuel size max_size start f r q c g, q <> [] -> sorted (sw_time f) ->
  length (sw_frames f) = length (sw_time f) -> (match last_time (sw_time f) with None => True | Some l => l < r end) ->
  too_big size max_size 0 f = true -> 0 < r ->
  store_timestep fuel size max_size 0 start f r q = Some (c, g) ->
  sw_time g = [r] /\ sw_frames g = [q] /\ start + r + r <= sw_start g + r.
Proof.
  intros fuel size max_size start f r q c g N M L I B P E.
  destruct (step_cases _ _ _ _ _ _ _ _ _ N M L I E) as [(X & _) | (_ & _ & A2 & A3 & n & A4)]; [congruence |].
  refine (conj A2 (conj A3 _)). rewrite A4, S_INR. pose proof (pos_INR n). nra.
Qed.
Print Assumptions C72_split_origin_refuted.

(** Without splitting the times are right. *)
Theorem C72_origin_partial : forall fuel size max_size start steps files, increasing_from None steps ->
  (forall f, too_big size max_size 0 f = false) ->
  run fuel size max_size start [] (new_file start) steps = Some files ->
  exists f, files = [f] /\ map (fun t => sw_start f + t) (sw_time f) = map (fun p => start + fst p) steps /\ sw_frames f = map snd steps.
Proof.
  intros fuel size max_size start steps files I NB E.
  assert (G : forall steps f files, sorted (sw_time f) -> length (sw_frames f) = length (sw_time f) -> increasing_from (last_time (sw_time f)) steps ->
    run fuel size max_size start [] f steps = Some files ->
    exists g, files = [g] /\ sw_start g = sw_start f /\ sw_time g = sw_time f ++ map fst steps /\ sw_frames g = sw_frames f ++ map snd steps).
  { clear steps files I E. induction steps as [| (r, q) steps IH]; intros f files M L I E; cbn [run] in E.
    - injection E as <-. exists f. rewrite !app_nil_r. repeat split.
    - destruct I as (I1 & I2 & I3). destruct (store_timestep fuel size max_size 0 start f r q) as [[c g]|] eqn:ES; [| discriminate].
      destruct (step_cases _ _ _ _ _ _ _ _ _ I2 M L I1 ES) as [(_ & -> & A2 & A3 & A4) | (X & _)]; [| rewrite NB in X; discriminate].
      destruct (IH g files) as (h & H1 & H2 & H3 & H4).
      + rewrite A3. apply sorted_snoc; [exact M | apply sorted_last; assumption].
      + rewrite A3, A4, !app_length. cbn. lia.
      + rewrite A3, last_snoc. exact I3.
      + exact E.
      + exists h. rewrite A3, <- app_assoc in H3. rewrite A4, <- app_assoc in H4.
        refine (conj H1 (conj _ (conj H3 H4))). congruence. }
  destruct (G steps (new_file start) files) as (f & F1 & F2 & F3 & F4); [| reflexivity | exact I | exact E |].
  - intros i j a b _ E1. destruct i; discriminate.
  - exists f. refine (conj F1 (conj _ F4)). cbn in F2, F3. rewrite F2, F3, map_map. reflexivity.
Qed.
Print Assumptions C72_origin_partial.

(** ** Reading back *)

Lemma time_index_spec : forall T t i j, time_index T t i = Some j -> (i <= j)%nat /\ exists a, nth_error T (j - i) = Some a /\ t <= a /\
  forall k b, (k < j - i)%nat -> nth_error T k = Some b -> b < t.
Proof.
  induction T as [| a T IH]; intros t i j E; [discriminate |]. cbn [time_index] in E. destruct (Rltb a t) eqn:B.
  - apply Rltb_true in B. destruct (IH t (S i) j E) as (L & x & E1 & E2 & E3). split; [lia |]. exists x.
    replace (j - i)%nat with (S (j - S i)) by lia. refine (conj E1 (conj E2 _)).
    intros [| k] b Lk Ek; cbn in Ek; [injection Ek as <-; exact B | apply (E3 k b); [lia | exact Ek]].
  - apply Rltb_false in B. injection E as <-. split; [lia |]. exists a. rewrite Nat.sub_diag. refine (conj eq_refl (conj B _)). intros; lia.
Qed.

Lemma time_index_some : forall T t i, (exists a, In a T /\ t <= a) -> exists j, time_index T t i = Some j.
Proof.
  induction T as [| a T IH]; intros t i (x & Hx & Lx); [contradiction |]. cbn [time_index]. destruct (Rltb a t) eqn:B; [| eauto].
  apply Rltb_true in B. apply IH. destruct Hx as [<- | Hx]; [lra | eauto].
Qed.

Lemma time_back_spec : forall T t, (exists m, nth_error T 0 = Some m /\ m <= t) ->
  forall j x, nth_error T j = Some x -> t <= x ->
  exists k y, time_back T t j = Some k /\ (k <= j)%nat /\ nth_error T k = Some y /\
    (y = t \/ y < t /\ exists z, nth_error T (S k) = Some z /\ t < z).
Proof.
  intros T t H j x E L. destruct (descend_spec T t H j x E L) as (k & y & D & rest). exists k, y. split; [| exact rest].
  rewrite <- D. clear. induction j as [| j IH]; cbn [time_back descend]; [reflexivity |]. destruct (nth_error T (S j)) as [r|]; [| reflexivity]. destruct (Rltb t r); [apply IH | reflexivity].
Qed.

(** The index and ratio found for a time. *)
Theorem C72_time_interp : forall T t first, sorted T -> nth_error T 0 = Some first -> first <= t <= last T first ->
  exists i ratio a, get_time_interp T t = Some (i, ratio) /\ nth_error T i = Some a /\
    ((a = t /\ ratio = 0) \/ exists b, nth_error T (S i) = Some b /\ a < t < b /\ 0 < ratio < 1 /\ ratio * (b - a) = t - a).
Proof.
  intros T t first M E0 (Lo & Hi). unfold get_time_interp. destruct T as [| t0 T'] eqn:ET; [discriminate |]. rewrite <- ET in *.
  assert (t0 = first) as -> by (rewrite ET in E0; injection E0; auto).
  rewrite (proj2 (Rltb_false t first) Lo), (proj2 (Rltb_false _ t) Hi).
  assert (N : T <> []) by (rewrite ET; discriminate).
  destruct (time_index_some T t 0) as (j & J). { exists (last T first). split; [eapply nth_error_In; apply nth_error_last; exact N | exact Hi]. }
  rewrite J. destruct (time_index_spec T t 0 j J) as (_ & x & X1 & X2 & _). rewrite Nat.sub_0_r in X1.
  destruct (time_back_spec T t (ex_intro _ first (conj E0 Lo)) j x X1 X2) as (k & y & B & _ & Ey & C).
  rewrite B, Ey. destruct C as [-> | (C1 & z & Ez & C2)].
  - rewrite (proj2 (Reqb_true t t) eq_refl). exists k, 0, t. refine (conj _ (conj Ey (or_introl (conj eq_refl eq_refl)))).
    destruct (nth_error T (S k)); reflexivity.
  - rewrite Ez. assert (NE : Reqb t y = false) by (destruct (Reqb t y) eqn:Q; [apply Reqb_true in Q; lra | reflexivity]).
    rewrite NE. exists k, ((t - y) / (z - y)), y. refine (conj eq_refl (conj Ey (or_intror _))). exists z.
    refine (conj Ez (conj (conj C1 C2) (conj (conj _ _) _))).
    + apply Rdiv_lt_0_compat; lra.
    + apply Rmult_lt_reg_r with (z - y); [lra |]. unfold Rdiv. rewrite Rmult_assoc, Rinv_l by lra. lra.
    + field. lra.
Qed.
Print Assumptions C72_time_interp.

(** Between stored times every point gets its piecewise linear interpolant. *)
Theorem C72_between : forall T F t first, sorted T -> length F = length T -> nth_error T 0 = Some first -> first <= t <= last T first ->
  exists p v, get_time_interp T t = Some p /\ interpolated_quantity F p = Some v /\
    forall c Q, Forall2 (fun q x => nth_error q c = Some x) F Q -> exists x, nth_error v c = Some x /\ interpolant T Q t x.
Proof.
  intros T F t first M L E0 H. destruct (C72_time_interp T t first M E0 H) as (i & ratio & a & G & A & C).
  assert (HF : forall c l m k q, Forall2 (fun (q : list R) (x : R) => nth_error q c = Some x) l m -> nth_error l k = Some q -> exists x, nth_error m k = Some x /\ nth_error q c = Some x).
  { clear. intros c l m k q F. revert k. induction F as [| u b l m H F IH]; intros [| k] A; try discriminate; cbn in *; [injection A as ->; eauto | exact (IH k A)]. }
  assert (LI : (i < length F)%nat) by (rewrite L; apply nth_error_Some; congruence).
  destruct (nth_error F i) as [q|] eqn:EQ; [| apply nth_error_None in EQ; lia].
  destruct C as [(-> & ->) | (b & B & AB & RR & RE)].
  - exists (i, 0), q. refine (conj G (conj _ _)).
    + cbn [interpolated_quantity]. rewrite (proj2 (Rltb_false 0 0)) by lra. exact EQ.
    + intros c Q FQ. destruct (HF c F Q i q FQ EQ) as (x & X1 & X2). exists x. split; [exact X2 | left; exists i; split; assumption].
  - assert (LI' : (S i < length F)%nat) by (rewrite L; apply nth_error_Some; congruence).
    destruct (nth_error F (S i)) as [q'|] eqn:EQ'; [| apply nth_error_None in EQ'; lia].
    exists (i, ratio), (map (fun x : R * R => (1 - ratio) * fst x + ratio * snd x) (combine q q')). refine (conj G (conj _ _)).
    + cbn [interpolated_quantity]. rewrite (proj2 (Rltb_true 0 ratio)) by lra. rewrite EQ, EQ'. reflexivity.
    + intros c Q FQ. destruct (HF c F Q i q FQ EQ) as (x & X1 & X2). destruct (HF c F Q (S i) q' FQ EQ') as (y & Y1 & Y2).
      exists ((1 - ratio) * x + ratio * y). split.
      * clear - X2 Y2. revert q q' X2 Y2. induction c as [| c IH]; intros [| u q] [| v q'] X Y; try discriminate; cbn in *; [injection X as ->; injection Y as ->; reflexivity | exact (IH q q' X Y)].
      * right. exists i, a, b, x, y. refine (conj A (conj B (conj AB (conj X1 (conj Y1 _))))).
        replace (((1 - ratio) * x + ratio * y) * (b - a)) with (x * (b - a - ratio * (b - a)) + y * (ratio * (b - a))) by ring. rewrite RE. ring.
Qed.
Print Assumptions C72_between.

Lemma sorted_unique : forall T i j a, sorted T -> nth_error T i = Some a -> nth_error T j = Some a -> i = j.
Proof.
  intros T i j a M E1 E2. destruct (lt_eq_lt_dec i j) as [[L | L] | L]; [| exact L |].
  - pose proof (M i j a a L E1 E2). lra.
  - pose proof (M j i a a L E2 E1). lra.
Qed.

Lemma sorted_interp : forall T k t, sorted T -> nth_error T k = Some t -> get_time_interp T t = Some (k, 0).
Proof.
  intros T k t M E. destruct (nth_error T 0) as [first|] eqn:E0.
  2:{ apply nth_error_None in E0. assert (k < length T)%nat by (apply nth_error_Some; congruence). lia. }
  assert (LK : (k < length T)%nat) by (apply nth_error_Some; congruence).
  assert (N : T <> []) by (destruct T; [discriminate | discriminate]).
  assert (LE : forall i j a b, (i <= j)%nat -> nth_error T i = Some a -> nth_error T j = Some b -> a <= b).
  { intros i j a b L A B. destruct (Nat.eq_dec i j) as [Q | Q]; [subst j; rewrite A in B; injection B as ->; lra |].
    pose proof (M i j a b ltac:(lia) A B). lra. }
  destruct (C72_time_interp T t first M E0) as (i & ratio & a & G & A & C).
  { split; [apply (LE 0%nat k); [lia | exact E0 | exact E] | apply (LE k (length T - 1)%nat); [lia | exact E | apply nth_error_last; exact N]]. }
  rewrite G. destruct C as [(-> & ->) | (b & B & C & _)].
  - rewrite (sorted_unique T i k t M A E). reflexivity.
  - exfalso. destruct (le_lt_dec k i) as [L | L].
    + pose proof (LE k i t a L E A). lra.
    + pose proof (LE (S i) k b t L B E). lra.
Qed.

(** Each stored frame is read back at its time. *)
Theorem C72_readback : forall start steps g, increasing_from None steps -> store_all (new_file start) steps = Some g ->
  forall k t q, nth_error steps k = Some (t, q) ->
  exists p, get_time_interp (sw_time g) t = Some p /\ interpolated_quantity (sw_frames g) p = Some q.
Proof.
  intros start steps g I E k t q Ek. destruct (store_all_new steps (new_file start)) as (g' & G1 & _ & G3 & G4 & G5).
  - intros i j a b _ X. destruct i; discriminate.
  - reflexivity.
  - exact I.
  - rewrite E in G1. injection G1 as <-. cbn in G3, G4. exists (k, 0).
    split; [apply sorted_interp; [exact G5 |] |].
    + rewrite G3, nth_error_map, Ek. reflexivity.
    + cbn [interpolated_quantity]. rewrite (proj2 (Rltb_false 0 0)) by lra. rewrite G4, nth_error_map, Ek. reflexivity.
Qed.
Print Assumptions C72_readback.

(** A later model that reads the file through [file_function], with the same start
    time, gets the value stored at a point at the relative time it was stored. *)
Theorem C72_roundtrip : forall start steps g p Q s, increasing_from None steps -> steps <> [] -> store_all (new_file start) steps = Some g ->
  Forall2 (fun q x => nth_error q p = Some x) (sw_frames g) Q ->
  file_function (file (sw_start g) (sw_time g) [Q] true) true 1 None (Some start) = Some (s, Some start) ->
  forall history k t q, nth_error steps k = Some (t, q) ->
  exists x, nth_error q p = Some x /\ snd (call (calls s history) t) = Value [Fin x].
Proof.
  intros start steps g p Q s I N E FQ FF history k t q Ek.
  destruct (store_all_new steps (new_file start)) as (g' & G1 & G2 & G3 & G4 & G5).
  { intros i j a b _ X. destruct i; discriminate. } { reflexivity. } { exact I. }
  rewrite E in G1. injection G1 as <-. cbn in G2, G3, G4.
  assert (LQ : length Q = length (sw_time g)).
  { assert (LF : forall (l : list (list R)) m, Forall2 (fun q x => nth_error q p = Some x) l m -> length l = length m) by (clear; intros l m F; induction F; cbn; congruence).
    rewrite <- (LF _ _ FQ), G4, G3, !map_length. reflexivity. }
  assert (ND : nondecreasing (sw_time g)).
  { intros i a b E1 E2. pose proof (G5 i (S i) a b (Nat.lt_succ_diag_r i) E1 E2). lra. }
  assert (D : data_ok (sw_time g) [Q]).
  { refine (conj _ (conj ND _)); [rewrite G3; destruct steps; [congruence | discriminate] | constructor; [lia | constructor]]. }
  assert (ET : nth_error (sw_time g) k = Some t) by (rewrite G3, nth_error_map, Ek; reflexivity).
  destruct (nth_error (sw_time g) 0) as [first|] eqn:E0.
  2:{ apply nth_error_None in E0. assert (k < length (sw_time g))%nat by (apply nth_error_Some; congruence). lia. }
  destruct (proj2 (C71_served _ _ _ _ _ _ _ first D E0 FF history t)) as (v & V).
  { rewrite G2. assert (LK : (k < length (sw_time g))%nat) by (apply nth_error_Some; congruence). split.
    - pose proof (nondecreasing_le _ ND 0 k first t (Nat.le_0_l k) E0 ET). lra.
    - pose proof (nondecreasing_le _ ND k (length (sw_time g) - 1) t _ ltac:(lia) ET (nth_error_last _ first (proj1 D))). lra. }
  destruct (C71_relative _ _ _ _ _ _ _ D FF history t v V) as (xs & -> & X). rewrite G2 in X.
  inversion X as [| Q' x ? xs' HX HN]; subst. inversion HN; subst.
  assert (HQ : nth_error Q k = Some x).
  { destruct HX as [(j & A & B) | (j & a & b & qa & qb & A & B & C & _)]; rewrite nth_error_map in A.
    - destruct (nth_error (sw_time g) j) as [u|] eqn:U; [| discriminate]. injection A as A. assert (u = t) by lra. subst u.
      rewrite (sorted_unique _ j k t G5 U ET) in B. exact B.
    - exfalso. destruct (nth_error (sw_time g) j) as [u|] eqn:U; [| discriminate]. injection A as <-.
      rewrite nth_error_map in B. destruct (nth_error (sw_time g) (S j)) as [v|] eqn:U'; [| discriminate]. injection B as <-.
      destruct (le_lt_dec k j) as [L | L].
      + pose proof (nondecreasing_le _ ND k j t u L ET U). lra.
      + pose proof (nondecreasing_le _ ND (S j) k v t L U' ET). lra. }
  assert (HF : forall l m k q x, Forall2 (fun (q : list R) (x : R) => nth_error q p = Some x) l m -> nth_error l k = Some q -> nth_error m k = Some x -> nth_error q p = Some x).
  { clear. intros l m k q x F. revert k. induction F as [| a b l m H F IH]; intros [| k] A B; try discriminate; cbn in *; [congruence | exact (IH k A B)]. }
  exists x. split; [| exact V]. apply (HF _ _ k q x FQ); [rewrite G4, nth_error_map, Ek; reflexivity | exact HQ].
Qed.
Print Assumptions C72_roundtrip.

(** ** Non-vacuity *)
Example C72_steps : increasing_from None [(0, [1; 2]); (10, [3; 4]); (20, [5; 6])].
Proof. cbn. repeat split; try discriminate; lra. Qed.

Example C72_split_example : exists files,
  run 1 (fun f => (10 * Z.of_nat (length (sw_time f)) + 1)%Z) 20 100 [] (new_file 100) [(0, [1]); (10, [2]); (20, [3])] = Some files /\
  map sw_start files = [100; 100 + 20] /\ map sw_time files = [[0; 10]; [20]].
Proof.
  assert (S1 : forall st r q, exists ra, store_quantities (new_file st) r [q] = Some (Sww st [r] [[q]] ra)).
  { intros st r q. destruct (store_new (new_file st) r [q]) as (ra & _ & X); [intros a [] | reflexivity | discriminate | exists ra; exact X]. }
  destruct (S1 100 0 1) as (r1 & E1). destruct (S1 (100 + 20) 20 3) as (r3 & E3).
  destruct (store_new (Sww 100 [0] [[1]] r1) 10 [2]) as (r2 & _ & E2); [intros a [<- | []]; lra | reflexivity | discriminate |].
  cbn [sw_start sw_time sw_frames app] in E2.
  cbn [run store_timestep]. change (too_big _ 20 0 (new_file 100)) with false. cbv iota. rewrite E1.
  cbn [app]. match goal with |- context [too_big ?s 20 0 (Sww 100 [0] [[1]] r1)] => change (too_big s 20 0 (Sww 100 [0] [[1]] r1)) with false end. cbv iota. rewrite E2.
  cbn [app]. match goal with |- context [too_big ?s 20 0 ?f] => change (too_big s 20 0 f) with true end. cbv iota.
  change (too_big _ 20 1 (new_file (100 + 20))) with false. cbv iota. rewrite E3.
  cbn [Nat.eqb app]. eexists. split; [reflexivity |]. split; reflexivity.
Qed.
