(** Lemmas about the operators that set values in a region *)
From Coq Require Import Reals List Arith Bool Lia Lra.
From Verif Require Import RealLib ArrayLib PolygonModel GridModel SetOperatorsModel.
Import ListNotations.
Local Open Scope R_scope.

Lemma assign_cons a i ids v vs : assign a (i :: ids) (v :: vs) = assign (upd a i v) ids vs.
Proof. reflexivity. Qed.
Lemma upd_here (a : nat -> R) i v : upd a i v i = v.
Proof. unfold upd. rewrite Nat.eqb_refl. reflexivity. Qed.
Lemma upd_there (a : nat -> R) i v k : k <> i -> upd a i v k = a k.
Proof. intros H. unfold upd. destruct (k =? i)%nat eqn:E; [apply Nat.eqb_eq in E; congruence|reflexivity]. Qed.

Lemma assign_out ids : forall a vs k, ~ In k ids -> assign a ids vs k = a k.
Proof.
  induction ids as [|i ids IH]; intros a vs k H; [reflexivity|].
  destruct vs as [|v vs]; [reflexivity|].
  rewrite assign_cons, IH; [|intros K; apply H; right; exact K].
  apply upd_there. intros ->. apply H. left; reflexivity.
Qed.
Lemma assign_in ids : forall a vs k, length vs = length ids -> In k ids -> In (k, assign a ids vs k) (combine ids vs).
Proof.
  induction ids as [|i ids IH]; intros a vs k L H; [destruct H|].
  destruct vs as [|v vs]; [discriminate|]. rewrite assign_cons.
  destruct (in_dec Nat.eq_dec k ids) as [K|K].
  - right. apply IH; [now injection L|exact K].
  - destruct H as [->|H]; [|contradiction]. left. rewrite (assign_out ids _ vs k K), upd_here. reflexivity.
Qed.
Lemma assign_map (g : nat -> R) ids a k : In k ids -> assign a ids (map g ids) k = g k.
Proof.
  intros H. pose proof (assign_in ids a (map g ids) k (map_length g ids) H) as K.
  remember (assign a ids (map g ids) k) as v. clear Heqv H.
  induction ids as [|i ids IH]; [destruct K|].
  destruct K as [E|K]; [injection E; intros; subst; reflexivity|exact (IH K)].
Qed.

Lemma spread_length n v vs : spread n v = Some vs -> length vs = n.
Proof.
  destruct v as [v|l|]; simpl; intros H.
  - injection H; intros <-. apply repeat_length.
  - destruct l as [|a [|b l]].
    + destruct (length (@nil R) =? n)%nat eqn:E; [|discriminate]. injection H; intros <-. apply Nat.eqb_eq. exact E.
    + injection H; intros <-. apply repeat_length.
    + destruct (length (a :: b :: l) =? n)%nat eqn:E; [|discriminate]. injection H; intros <-. apply Nat.eqb_eq. exact E.
  - discriminate.
Qed.
Lemma repeat_map {A} (v : R) (l : list A) : repeat v (length l) = map (fun _ => v) l.
Proof. induction l as [|a l IH]; [reflexivity|]. simpl. f_equal. exact IH. Qed.
Lemma spread_map {A} (g : A -> R) (l : list A) : spread (length l) (Many (map g l)) = Some (map g l).
Proof.
  destruct l as [|a [|b l]]; [reflexivity|reflexivity|].
  unfold spread. cbn [map]. change (g a :: g b :: map g l) with (map g (a :: b :: l)).
  rewrite map_length, Nat.eqb_refl. reflexivity.
Qed.
Lemma spread_wrong n l : length l <> n -> length l <> 1%nat -> spread n (Many l) = None.
Proof.
  intros H K. destruct l as [|a [|b l]]; [|exfalso; apply K; reflexivity|].
  - simpl. destruct n; [exfalso; apply H; reflexivity|reflexivity].
  - unfold spread. destruct (length (a :: b :: l) =? n)%nat eqn:E; [apply Nat.eqb_eq in E; contradiction|reflexivity].
Qed.

(** The triangles that an operator acts on *)
Definition covered (d : domain) (indices : option (list nat)) (k : nat) : Prop :=
  match indices with None => (k < count d)%nat | Some ids => In k ids end.
Lemma covered_triangles d indices k : covered d indices k <-> In k (triangles d indices).
Proof. destruct indices as [ids|]; simpl; [tauto|]. rewrite in_seq. split; intros H; [split; [apply Nat.le_0_l|exact H]|destruct H; assumption]. Qed.

(** The source gives the value [h p t] at the place [p] and the time [t] *)
Definition follows (s : source) (h : point -> R -> R) : Prop :=
  match s with
  | Nothing => False
  | Scalar c => forall p t, h p t = c
  | Temporal f => forall p t, f t = One (h p t)
  | Spatial f => forall t l, f l = Many (map (fun p => h p t) l)
  | Both f => forall t l, f l t = Many (map (fun p => h p t) l)
  end.
Lemma follows_value s h (d : domain) ids : follows s h ->
  exists v, get_value s (map (centre d) ids) (time d) = Some v /\ spread (length ids) v = Some (map (fun k => h (centre d k) (time d)) ids).
Proof.
  assert (M : forall g : point -> R, spread (length ids) (Many (map g (map (centre d) ids))) = Some (map (fun k => g (centre d k)) ids)).
  { intros g. rewrite <- (map_length (centre d) ids), spread_map, map_map. reflexivity. }
  destruct s as [|c|f|f|f]; simpl; intros H.
  - destruct H.
  - exists (One c). split; [reflexivity|]. simpl. rewrite repeat_map. f_equal. apply map_ext. intros k. symmetry. apply H.
  - destruct ids as [|i ids].
    + exists (f (time d)). split; [reflexivity|]. rewrite (H (0, 0) (time d)). reflexivity.
    + exists (f (time d)). split; [reflexivity|]. rewrite (H (centre d i) (time d)). unfold spread. rewrite repeat_map. f_equal.
      apply map_ext. intros k. assert (E : One (h (centre d i) (time d)) = One (h (centre d k) (time d))) by (rewrite <- !H; reflexivity).
      injection E; intros E'. exact E'.
  - exists (f (map (centre d) ids)). split; [reflexivity|]. rewrite (H (time d)). exact (M (fun p => h p (time d))).
  - exists (f (map (centre d) ids) (time d)). split; [reflexivity|]. rewrite H. exact (M (fun p => h p (time d))).
Qed.

Lemma put_get q c a : get q (put q c a) = a.
Proof. destruct q; reflexivity. Qed.
Lemma put_other q q' c a : q' <> q -> get q' (put q c a) = get q' c.
Proof. destruct q, q'; intros H; try reflexivity; exfalso; apply H; reflexivity. Qed.
Lemma put_elevation q c a : elevation (put q c a) = elevation c.
Proof. destruct q; reflexivity. Qed.

Lemma max_map (e g : nat -> R) ids : map (fun ev => Rmax (fst ev) (snd ev)) (combine (map e ids) (map g ids)) = map (fun k => Rmax (e k) (g k)) ids.
Proof. induction ids as [|i ids IH]; [reflexivity|]. simpl. f_equal. exact IH. Qed.
Lemma max_above (e : nat -> R) ids : forall vs k v, In (k, v) (combine ids (map (fun ev => Rmax (fst ev) (snd ev)) (combine (map e ids) vs))) -> e k <= v.
Proof.
  induction ids as [|i ids IH]; intros vs k v H; [destruct H|].
  destruct vs as [|w vs]; [destruct H|]. simpl in H. destruct H as [E|H].
  - injection E; intros; subst. apply Rmax_l.
  - exact (IH vs k v H).
Qed.
Lemma set_stage_some s indices d : triangles d indices <> [] \/ indices = None ->
  set_stage s indices d =
  match get_value s (map (centre d) (triangles d indices)) (time d) with
  | None => None
  | Some v =>
      match spread (length (triangles d indices)) v with
      | None => Some (values d)
      | Some vs => Some (put Stage (values d) (assign (stage (values d)) (triangles d indices)
                     (map (fun ev => Rmax (fst ev) (snd ev)) (combine (map (elevation (values d)) (triangles d indices)) vs))))
      end
  end.
Proof. intros H. destruct indices as [[|i ids]|]; [destruct H as [H|H]; [exfalso; apply H; reflexivity|discriminate]|reflexivity|reflexivity]. Qed.

Lemma fold_max l : forall a, (a <= fold_left Rmax l a) /\ (forall x, In x l -> x <= fold_left Rmax l a).
Proof.
  induction l as [|b l IH]; intros a; simpl; [split; [lra|intros x []]|].
  destruct (IH (Rmax a b)) as [H1 H2]. pose proof (Rmax_l a b). pose proof (Rmax_r a b).
  split; [lra|]. intros x [->|K]; [lra|exact (H2 x K)].
Qed.
Lemma fold_min l : forall a, (fold_left Rmin l a <= a) /\ (forall x, In x l -> fold_left Rmin l a <= x).
Proof.
  induction l as [|b l IH]; intros a; simpl; [split; [lra|intros x []]|].
  destruct (IH (Rmin a b)) as [H1 H2]. pose proof (Rmin_l a b). pose proof (Rmin_r a b).
  split; [lra|]. intros x [->|K]; [lra|exact (H2 x K)].
Qed.
Lemma gamma_sign g c k : 0 <= g -> gamma g c k <= 0.
Proof.
  intros G. unfold gamma. destruct (Rltb 0 (stage c k - elevation c k)); [|lra].
  pose proof (pow2_ge_0 (friction c k)) as F. pose proof (sqrt_pos ((xmom c k) ^ 2 + (ymom c k) ^ 2)) as Q.
  assert (P : 0 < Rpower (stage c k - elevation c k) (7 / 3)) by apply exp_pos.
  assert (N : 0 <= g * (friction c k) ^ 2 * sqrt ((xmom c k) ^ 2 + (ymom c k) ^ 2)) by (apply Rmult_le_pos; [apply Rmult_le_pos|]; assumption).
  pose proof (Rinv_0_lt_compat _ P) as I. unfold Rdiv.
  assert (0 <= g * (friction c k) ^ 2 * sqrt ((xmom c k) ^ 2 + (ymom c k) ^ 2) * / Rpower (stage c k - elevation c k) (7 / 3)) by (apply Rmult_le_pos; lra).
  replace (- g * friction c k ^ 2 * sqrt (xmom c k ^ 2 + ymom c k ^ 2) * / Rpower (stage c k - elevation c k) (7 / 3))
    with (- (g * friction c k ^ 2 * sqrt (xmom c k ^ 2 + ymom c k ^ 2) * / Rpower (stage c k - elevation c k) (7 / 3))) by ring.
  lra.
Qed.
Lemma exp_le1 x : x <= 0 -> 0 < exp x <= 1.
Proof.
  intros H. split; [apply exp_pos|]. destruct (Rle_lt_or_eq_dec _ _ H) as [K|K].
  - left. rewrite <- exp_0. apply exp_increasing. exact K.
  - rewrite K, exp_0. lra.
Qed.
Lemma speed_scale e a b : 0 <= e -> sqrt ((e * a) ^ 2 + (e * b) ^ 2) = e * sqrt (a ^ 2 + b ^ 2).
Proof.
  intros H. replace ((e * a) ^ 2 + (e * b) ^ 2) with (e ^ 2 * (a ^ 2 + b ^ 2)) by ring.
  pose proof (pow2_ge_0 a). pose proof (pow2_ge_0 b). rewrite sqrt_mult; [|apply pow2_ge_0|lra]. rewrite sqrt_pow2; [reflexivity|exact H].
Qed.
