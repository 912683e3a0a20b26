(** Lemmas on [SwwModel]. *)
From Coq Require Import Reals List Arith Bool ZArith Lia Lra.
From Verif Require Import RealLib SwwModel.
Import ListNotations.
Open Scope R_scope.

Lemma put_end : forall {A} (l : list A) a, put l (length l) a = l ++ [a].
Proof. intros A l a. induction l as [| b l IH]; [reflexivity |]. cbn. rewrite IH. reflexivity. Qed.

Lemma put_length : forall {A} (l : list A) i a, (i < length l)%nat -> length (put l i a) = length l.
Proof. intros A l. induction l as [| b l IH]; intros [| i] a L; cbn in *; try lia. rewrite IH; lia. Qed.

Lemma put_nth : forall {A} (l : list A) i a j, (i < length l)%nat -> nth_error (put l i a) j = if Nat.eqb j i then Some a else nth_error l j.
Proof.
  intros A l. induction l as [| b l IH]; intros [| i] a [| j] L; cbn in *; try lia; try reflexivity. apply IH. lia.
Qed.

Lemma put_app : forall {A} (l m : list A) i a, (i < length l)%nat -> put (l ++ m) i a = put l i a ++ m.
Proof. intros A l. induction l as [| b l IH]; intros m [| i] a L; cbn in *; try lia; [reflexivity |]. rewrite IH by lia. reflexivity. Qed.

Lemma put_same : forall {A} (l : list A) i a, nth_error l i = Some a -> put l i a = l.
Proof. intros A l. induction l as [| b l IH]; intros [| i] a E; cbn in *; try discriminate; [injection E as ->; reflexivity |]. rewrite IH; [reflexivity | exact E]. Qed.

(** Times at least [1e-14] apart. *)
Definition gap : R := / 10 ^ 14.
Lemma gap_pos : 0 < gap.
Proof. unfold gap. apply Rinv_0_lt_compat. apply pow_lt. lra. Qed.

Definition spaced (T : list R) : Prop :=
  forall i a b, nth_error T i = Some a -> nth_error T (S i) = Some b -> a + gap <= b.

Lemma spaced_tail : forall a T, spaced (a :: T) -> spaced T.
Proof. intros a T H i x y E1 E2. exact (H (S i) x y E1 E2). Qed.

Lemma spaced_later : forall T, spaced T -> forall i j a b, (i < j)%nat -> nth_error T i = Some a -> nth_error T j = Some b -> a + gap <= b.
Proof.
  intros T M i j a b L. revert b. induction L as [| j L IH]; intros b E1 E2.
  - exact (M i a b E1 E2).
  - destruct (nth_error T j) as [c|] eqn:Ec.
    + pose proof (IH c E1 eq_refl). pose proof (M j c b Ec E2). pose proof gap_pos. lra.
    + apply nth_error_None in Ec. assert (nth_error T (S j) = None) by (apply nth_error_None; lia). congruence.
Qed.

Lemma find_time_some : forall T t i, find_time T t = Some i -> exists a, nth_error T i = Some a /\ Rabs (a - t) < gap /\
  forall j b, (j < i)%nat -> nth_error T j = Some b -> gap <= Rabs (b - t).
Proof.
  intros T t. induction T as [| a T IH]; intros i E; [discriminate |]. cbn [find_time] in E. fold gap in E.
  destruct (Rltb (Rabs (a - t)) gap) eqn:B.
  - injection E as <-. apply Rltb_true in B. exists a. refine (conj eq_refl (conj B _)). intros; lia.
  - apply Rltb_false in B. destruct (find_time T t) as [k|]; [| discriminate]. injection E as <-.
    destruct (IH k eq_refl) as (x & E1 & E2 & E3). exists x. refine (conj E1 (conj E2 _)).
    intros [| j] b L Eb; cbn in Eb; [injection Eb as <-; exact B | apply (E3 j b); [lia | exact Eb]].
Qed.

Lemma find_time_none : forall T t, find_time T t = None <-> forall a, In a T -> gap <= Rabs (a - t).
Proof.
  intros T t. induction T as [| a T IH]; [split; [intros _ a [] | reflexivity] |]. cbn [find_time]. fold gap.
  destruct (Rltb (Rabs (a - t)) gap) eqn:B.
  - apply Rltb_true in B. split; [discriminate | intros H; pose proof (H a (or_introl eq_refl)); lra].
  - apply Rltb_false in B. destruct (find_time T t) as [k|].
    + split; [discriminate |]. intros H. assert (None = Some k) by (symmetry; apply IH; intros x Hx; apply H; right; exact Hx). discriminate.
    + split; [intros _ x [<- | Hx]; [exact B | apply IH; auto] | reflexivity].
Qed.

Lemma find_time_exact : forall T k t, spaced T -> nth_error T k = Some t -> find_time T t = Some k.
Proof.
  intros T k t M E. destruct (find_time T t) as [i|] eqn:F.
  - destruct (find_time_some _ _ _ F) as (a & E1 & E2 & E3). f_equal. pose proof gap_pos as G.
    destruct (lt_eq_lt_dec i k) as [[L | L] | L]; [| exact L |].
    + pose proof (spaced_later T M i k a t L E1 E). rewrite Rabs_left in E2; lra.
    + pose proof (spaced_later T M k i t a L E E1). rewrite Rabs_right in E2; lra.
  - pose proof (proj1 (find_time_none T t) F t (nth_error_In _ _ E)) as H. replace (t - t) with 0 in H by ring.
    rewrite Rabs_R0 in H. pose proof gap_pos. lra.
Qed.

Lemma rev_last : forall (T : list R) l T', rev T = l :: T' -> nth_error T (length T - 1) = Some l /\ (0 < length T)%nat.
Proof.
  intros T l T' E. assert (ET : T = rev T' ++ [l]) by (rewrite <- (rev_involutive T), E; reflexivity).
  rewrite ET, app_length. cbn [length]. split; [| lia].
  rewrite nth_error_app2 by lia. replace (length (rev T') + 1 - 1 - length (rev T'))%nat with 0%nat by lia. reflexivity.
Qed.

Lemma slice_new : forall T t, (forall a, In a T -> a < t) -> slice_index T t = Some (length T).
Proof.
  intros T t H. unfold slice_index. destruct (rev T) as [| l T'] eqn:E.
  - assert (T = []) as -> by (rewrite <- (rev_involutive T), E; reflexivity). reflexivity.
  - pose proof (rev_last _ _ _ E) as (E1 & _). apply nth_error_In in E1. apply H in E1.
    assert (B : Rleb t l = false) by (apply Rleb_false; exact E1). rewrite B. reflexivity.
Qed.

Lemma slice_old : forall T k t, spaced T -> nth_error T k = Some t -> slice_index T t = Some k.
Proof.
  intros T k t M E. unfold slice_index. destruct (rev T) as [| l T'] eqn:EL.
  - assert (T = []) as -> by (rewrite <- (rev_involutive T), EL; reflexivity). destruct k; discriminate.
  - pose proof (rev_last _ _ _ EL) as (E1 & _).
    assert (t <= l).
    { assert (k < length T)%nat by (apply nth_error_Some; congruence).
      destruct (Nat.eq_dec k (length T - 1)) as [Q | Q]; [subst k; rewrite E1 in E; injection E as ->; lra |].
      pose proof (spaced_later T M k (length T - 1) t l ltac:(lia) E E1). pose proof gap_pos. lra. }
    rewrite (proj2 (Rleb_true t l) H). apply find_time_exact; assumption.
Qed.

Lemma minimum_le : forall l x y, In y (x :: l) -> minimum x l <= y.
Proof.
  induction l as [| z l IH]; intros x y H; [destruct H as [<- | []]; cbn; lra |]. cbn [minimum].
  destruct H as [<- | H]; [apply Rmin_l |]. eapply Rle_trans; [apply Rmin_r | apply IH; exact H].
Qed.
Lemma maximum_ge : forall l x y, In y (x :: l) -> y <= maximum x l.
Proof.
  induction l as [| z l IH]; intros x y H; [destruct H as [<- | []]; cbn; lra |]. cbn [maximum].
  destruct H as [<- | H]; [apply Rmax_l |]. eapply Rle_trans; [apply IH; exact H | apply Rmax_r].
Qed.
Lemma minimum_in : forall l x, In (minimum x l) (x :: l).
Proof.
  induction l as [| z l IH]; intros x; [left; reflexivity |]. cbn [minimum]. unfold Rmin. destruct (Rle_dec _ _); [left; reflexivity | right; apply IH].
Qed.
Lemma maximum_in : forall l x, In (maximum x l) (x :: l).
Proof.
  induction l as [| z l IH]; intros x; [left; reflexivity |]. cbn [maximum]. unfold Rmax. destruct (Rle_dec _ _); [right; apply IH | left; reflexivity].
Qed.

Lemma choose_nth : forall s o a i, nth_error (choose s o a) i =
  match nth_error s i, nth_error o i, nth_error a i with
  | Some b, Some x, Some y => Some (if b : bool then y else x)
  | _, _, _ => None
  end.
Proof.
  unfold choose. induction s as [| b s IH]; intros o a i; [destruct i; reflexivity |].
  destruct o as [| x o]; [destruct i; cbn; [reflexivity | destruct (nth_error s i); reflexivity] |].
  destruct a as [| y a]; [destruct i; cbn; [reflexivity | destruct (nth_error s i), (nth_error o i); reflexivity] |].
  destruct i as [| i]; [reflexivity |]. cbn [combine map nth_error]. apply IH.
Qed.

Lemma storable_nth : forall h w z i, nth_error (storable h w z) i =
  match nth_error w i, nth_error z i with Some a, Some b => Some (Rleb h (a - b)) | _, _ => None end.
Proof.
  unfold storable. induction w as [| a w IH]; intros z i; [destruct i; reflexivity |].
  destruct z as [| b z]; [destruct i; cbn; [reflexivity | destruct (nth_error w i); reflexivity] |].
  destruct i as [| i]; [reflexivity |]. cbn [combine map nth_error]. apply IH.
Qed.

Lemma repeat_nth : forall {A} (a : A) n i, nth_error (repeat a n) i = if Nat.ltb i n then Some a else None.
Proof. intros A a n. induction n as [| n IH]; intros [| i]; try reflexivity. cbn [repeat nth_error]. rewrite IH. reflexivity. Qed.

(** Increasing relative times. *)
Fixpoint increasing_from (lo : option R) (steps : list (R * list R)) : Prop :=
  match steps with
  | [] => True
  | (t, q) :: steps => (match lo with None => True | Some l => l < t end) /\ q <> [] /\ increasing_from (Some t) steps
  end.

Definition last_time (T : list R) : option R := match rev T with [] => None | l :: _ => Some l end.

Definition sorted (T : list R) : Prop := forall i j a b, (i < j)%nat -> nth_error T i = Some a -> nth_error T j = Some b -> a < b.

Lemma sorted_snoc : forall T t, sorted T -> (forall a, In a T -> a < t) -> sorted (T ++ [t]).
Proof.
  intros T t M H i j a b L E1 E2. assert (LI : (j < length (T ++ [t]))%nat) by (apply nth_error_Some; congruence).
  rewrite app_length in LI. cbn in LI. assert (i < length T)%nat by lia. rewrite nth_error_app1 in E1 by lia.
  destruct (Nat.eq_dec j (length T)) as [-> | Q].
  - rewrite nth_error_app2, Nat.sub_diag in E2 by lia. injection E2 as <-. apply H. eapply nth_error_In. exact E1.
  - rewrite nth_error_app1 in E2 by lia. exact (M i j a b L E1 E2).
Qed.

Lemma sorted_last : forall T t, sorted T -> (match last_time T with None => True | Some l => l < t end) -> forall a, In a T -> a < t.
Proof.
  intros T t M H a Ha. unfold last_time in H. destruct (rev T) as [| l T'] eqn:E.
  - assert (T = []) as -> by (rewrite <- (rev_involutive T), E; reflexivity). contradiction.
  - pose proof (rev_last _ _ _ E) as (E1 & LP). apply In_nth_error in Ha. destruct Ha as (i & Ei).
    assert (i < length T)%nat by (apply nth_error_Some; congruence).
    destruct (Nat.eq_dec i (length T - 1)) as [Q | Q]; [subst i; congruence |].
    pose proof (M i (length T - 1)%nat a l ltac:(lia) Ei E1). lra.
Qed.

Lemma last_snoc : forall T t, last_time (T ++ [t]) = Some t.
Proof. intros T t. unfold last_time. rewrite rev_app_distr. reflexivity. Qed.

Lemma store_new : forall f t q, (forall a, In a (sw_time f) -> a < t) -> length (sw_frames f) = length (sw_time f) -> q <> [] ->
  exists r, update_range (sw_range f) q = Some r /\
    store_quantities f t q = Some (Sww (sw_start f) (sw_time f ++ [t]) (sw_frames f ++ [q]) r).
Proof.
  intros f t q H L N. destruct q as [| x q]; [congruence |]. eexists. split; [reflexivity |].
  unfold store_quantities. rewrite slice_new by exact H. cbn [update_range]. rewrite <- L at 2. rewrite !put_end. reflexivity.
Qed.

Lemma store_all_new : forall steps f, sorted (sw_time f) -> length (sw_frames f) = length (sw_time f) ->
  increasing_from (last_time (sw_time f)) steps ->
  exists g, store_all f steps = Some g /\ sw_start g = sw_start f /\
    sw_time g = sw_time f ++ map fst steps /\ sw_frames g = sw_frames f ++ map snd steps /\ sorted (sw_time g).
Proof.
  induction steps as [| (t, q) steps IH]; intros f M L I.
  - exists f. rewrite !app_nil_r. refine (conj eq_refl (conj eq_refl (conj eq_refl (conj eq_refl M)))).
  - destruct I as (I1 & I2 & I3).
    assert (LT := sorted_last _ t M I1).
    destruct (store_new f t q LT L I2) as (r & _ & E).
    cbn [store_all]. rewrite E. destruct (IH (Sww (sw_start f) (sw_time f ++ [t]) (sw_frames f ++ [q]) r)) as (g & G1 & G2 & G3 & G4 & G5); cbn [sw_time sw_frames sw_start] in *.
    + apply sorted_snoc; assumption.
    + rewrite !app_length. cbn. lia.
    + rewrite last_snoc. exact I3.
    + exists g. rewrite <- app_assoc in G3, G4. refine (conj G1 (conj G2 (conj G3 (conj G4 G5)))).
Qed.

(** ** Splitting *)

Lemma nested : forall fuel size max_size rec s r q c g, q <> [] ->
  store_timestep fuel size max_size (S rec) s (new_file s) r q = Some (c, g) ->
  c = [] /\ sw_time g = [r] /\ sw_frames g = [q] /\ exists n, sw_start g = s + INR n * r.
Proof.
  induction fuel as [| fuel IH]; intros size max_size rec s r q c g N E; cbn [store_timestep] in E;
    destruct (too_big size max_size (S rec) (new_file s)); try discriminate.
  - destruct (store_new (new_file s) r q) as (ra & _ & X); [intros a [] | reflexivity | exact N |].
    rewrite X in E. injection E as <- <-. cbn. refine (conj eq_refl (conj eq_refl (conj eq_refl _))). exists 0%nat. cbn. ring.
  - destruct (store_timestep fuel size max_size (S (S rec)) (s + r) (new_file (s + r)) r q) as [[c' g']|] eqn:E'; [| discriminate].
    injection E as <- <-. destruct (IH _ _ _ _ _ _ _ _ N E') as (A1 & A2 & A3 & n & A4). cbn [Nat.eqb].
    refine (conj A1 (conj A2 (conj A3 _))). exists (S n). rewrite A4, S_INR. ring.
  - destruct (store_new (new_file s) r q) as (ra & _ & X); [intros a [] | reflexivity | exact N |].
    rewrite X in E. injection E as <- <-. cbn. refine (conj eq_refl (conj eq_refl (conj eq_refl _))). exists 0%nat. cbn. ring.
Qed.

Lemma step_cases : forall fuel size max_size start f r q c g, q <> [] -> sorted (sw_time f) ->
  length (sw_frames f) = length (sw_time f) -> (match last_time (sw_time f) with None => True | Some l => l < r end) ->
  store_timestep fuel size max_size 0 start f r q = Some (c, g) ->
  (too_big size max_size 0 f = false /\ c = [] /\ sw_start g = sw_start f /\ sw_time g = sw_time f ++ [r] /\ sw_frames g = sw_frames f ++ [q]) \/
  (too_big size max_size 0 f = true /\ c = [f] /\ sw_time g = [r] /\ sw_frames g = [q] /\ exists n, sw_start g = start + INR (S n) * r).
Proof.
  intros fuel size max_size start f r q c g N M L I E.
  assert (ST : forall x, (match store_quantities f r q with None => None | Some f => Some ([], f) end = Some (c, g)) -> too_big size max_size 0 f = x -> x = false ->
     too_big size max_size 0 f = false /\ c = [] /\ sw_start g = sw_start f /\ sw_time g = sw_time f ++ [r] /\ sw_frames g = sw_frames f ++ [q]).
  { intros x E' B ->. destruct (store_new f r q) as (ra & _ & X); [apply sorted_last; assumption | exact L | exact N |].
    rewrite X in E'. injection E' as <- <-. repeat split. exact B. }
  destruct fuel as [| fuel]; cbn [store_timestep] in E; destruct (too_big size max_size 0 f) eqn:B; try discriminate.
  - left. eapply ST; [exact E | reflexivity | reflexivity].
  - right. destruct (store_timestep fuel size max_size 1 (start + r) (new_file (start + r)) r q) as [[c' g']|] eqn:E'; [| discriminate].
    cbn [Nat.eqb] in E. injection E as <- <-. destruct (nested _ _ _ _ _ _ _ _ _ N E') as (A1 & A2 & A3 & n & A4). subst c'.
    refine (conj eq_refl (conj eq_refl (conj A2 (conj A3 _)))). exists n. rewrite A4, S_INR. ring.
  - left. eapply ST; [exact E | reflexivity | reflexivity].
Qed.

Lemma step_terminates : forall size max_size B, (0 < max_size)%Z -> (forall s, 0 <= size (new_file s) <= B)%Z ->
  forall fuel rec s r q, q <> [] -> (2 * B <= max_size * 2 ^ Z.of_nat (fuel + rec))%Z ->
  exists res, store_timestep fuel size max_size rec s (new_file s) r q = Some res.
Proof.
  intros size max_size B P HB fuel. induction fuel as [| fuel IH]; intros rec s r q N L; cbn [store_timestep].
  - assert (TB : too_big size max_size rec (new_file s) = false).
    { unfold too_big. apply Z.ltb_ge. cbn [new_file sw_time length]. change (Z.of_nat 0 + 1)%Z with 1%Z. rewrite Z.div_1_r.
      specialize (HB s). cbn [Nat.add] in L. lia. }
    rewrite TB. destruct (store_new (new_file s) r q) as (ra & _ & X); [intros a [] | reflexivity | exact N |]. rewrite X. eauto.
  - destruct (too_big size max_size rec (new_file s)).
    + destruct (IH (S rec) (s + r) r q N) as ((c & g) & E); [replace (fuel + S rec)%nat with (S fuel + rec)%nat by lia; exact L |].
      rewrite E. eauto.
    + destruct (store_new (new_file s) r q) as (ra & _ & X); [intros a [] | reflexivity | exact N |]. rewrite X. eauto.
Qed.

Lemma run_frames : forall steps fuel size max_size start closed f files, sorted (sw_time f) -> length (sw_frames f) = length (sw_time f) ->
  increasing_from (last_time (sw_time f)) steps ->
  run fuel size max_size start closed f steps = Some files ->
  concat (map sw_time files) = concat (map sw_time closed) ++ sw_time f ++ map fst steps /\
  concat (map sw_frames files) = concat (map sw_frames closed) ++ sw_frames f ++ map snd steps.
Proof.
  induction steps as [| (r, q) steps IH]; intros fuel size max_size start closed f files M L I E; cbn [run] in E.
  - injection E as <-. rewrite !map_app, !concat_app. cbn. rewrite !app_nil_r. split; reflexivity.
  - destruct I as (I1 & I2 & I3). destruct (store_timestep fuel size max_size 0 start f r q) as [[c g]|] eqn:ES; [| discriminate].
    destruct (step_cases _ _ _ _ _ _ _ _ _ I2 M L I1 ES) as [(_ & -> & A2 & A3 & A4) | (_ & -> & A2 & A3 & _)].
    + destruct (IH fuel size max_size start (closed ++ []) g files) as (B1 & B2).
      * rewrite A3. apply sorted_snoc; [exact M | apply sorted_last; assumption].
      * rewrite A3, A4, !app_length. cbn. lia.
      * rewrite A3, last_snoc. exact I3.
      * exact E.
      * rewrite app_nil_r in B1, B2. rewrite B1, B2, A3, A4, <- !app_assoc. split; reflexivity.
    + destruct (IH fuel size max_size start (closed ++ [f]) g files) as (B1 & B2).
      * rewrite A2. intros i j a b LL E1 E2. destruct j as [| [| j]]; [lia | discriminate | discriminate].
      * rewrite A2, A3. reflexivity.
      * rewrite A2. exact I3.
      * exact E.
      * rewrite B1, B2, A2, A3, !map_app, !concat_app. cbn. rewrite !app_nil_r, <- !app_assoc. split; reflexivity.
Qed.
