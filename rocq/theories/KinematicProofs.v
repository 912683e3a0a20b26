From Coq Require Import Reals Lra Lia ZArith Arith List Bool Permutation FunctionalExtensionality.
From Verif Require Import RealLib ListLib ArrayLib SparseModel CGModel CGProofs FluxProofs KinematicModel.
Import ListNotations.
Open Scope Z_scope.

(** ** Rearrangements of an array between two positions *)

Definition rearranged (m n : Z) (l l' : Z -> Z) : Prop :=
  exists s t : Z -> Z, (forall x, s (t x) = x) /\ (forall x, t (s x) = x) /\
    (forall x, x < m \/ n < x -> s x = x) /\ (forall x, l' x = l (s x)).

Lemma rearranged_refl m n l : rearranged m n l l.
Proof. exists (fun x => x), (fun x => x). repeat split; auto. Qed.

Lemma rearranged_trans m n l1 l2 l3 : rearranged m n l1 l2 -> rearranged m n l2 l3 -> rearranged m n l1 l3.
Proof.
  intros (s1 & t1 & A1 & B1 & C1 & D1) (s2 & t2 & A2 & B2 & C2 & D2).
  exists (fun x => s1 (s2 x)), (fun x => t2 (t1 x)). repeat split; intros x.
  - now rewrite A2, A1.
  - now rewrite B1, B2.
  - intros H. rewrite C2, C1; auto.
  - now rewrite D2, D1.
Qed.

Lemma rearranged_wider m n m' n' l l' : m' <= m -> n <= n' -> rearranged m n l l' -> rearranged m' n' l l'.
Proof. intros H1 H2 (s & t & A & B & C & D). exists s, t. repeat split; auto. intros x Hx. apply C. lia. Qed.

Lemma rearranged_outside m n l l' x : rearranged m n l l' -> x < m \/ n < x -> l' x = l x.
Proof. intros (s & t & A & B & C & D) H. rewrite D, C; auto. Qed.

(** The value at a place inside comes from a place inside. *)
Lemma rearranged_inside m n l l' x : rearranged m n l l' -> m <= x <= n -> exists y, m <= y <= n /\ l' x = l y.
Proof.
  intros (s & t & A & B & C & D) H. exists (s x). split; [|apply D].
  destruct (Z_lt_le_dec (s x) m) as [L|L].
  { pose proof (C (s x) (or_introl L)) as E. apply (f_equal t) in E. rewrite !B in E. lia. }
  destruct (Z_lt_le_dec n (s x)) as [L'|L']; [|lia].
  pose proof (C (s x) (or_intror L')) as E. apply (f_equal t) in E. rewrite !B in E. lia.
Qed.

Lemma swap_spec len l x y : 0 <= x < len -> 0 <= y < len ->
  exists l', swap len l x y = Some l' /\ l' x = l y /\ l' y = l x /\ (forall z, z <> x -> z <> y -> l' z = l z) /\
    (forall m n, m <= x <= n -> m <= y <= n -> rearranged m n l l').
Proof.
  intros Hx Hy. unfold swap, get.
  replace ((0 <=? x) && (x <? len)) with true by (symmetry; apply andb_true_intro; split; [apply Z.leb_le|apply Z.ltb_lt]; lia).
  replace ((0 <=? y) && (y <? len)) with true by (symmetry; apply andb_true_intro; split; [apply Z.leb_le|apply Z.ltb_lt]; lia).
  eexists; split; [reflexivity|]. unfold updZ. refine (conj _ (conj _ (conj _ _))).
  - destruct (Z.eqb_spec x y); [congruence|]. now rewrite Z.eqb_refl.
  - now rewrite Z.eqb_refl.
  - intros z H1 H2. destruct (Z.eqb_spec z y); [lia|]. destruct (Z.eqb_spec z x); [lia|]. reflexivity.
  - intros m n H1 H2. set (s := fun z => if z =? y then x else if z =? x then y else z).
    assert (S2 : forall z, s (s z) = z).
    { intros z. unfold s. destruct (Z.eqb_spec z y).
      - destruct (Z.eqb_spec x y); [lia|]. rewrite Z.eqb_refl. lia.
      - destruct (Z.eqb_spec z x).
        + rewrite Z.eqb_refl. lia.
        + destruct (Z.eqb_spec z y); [lia|]. destruct (Z.eqb_spec z x); lia. }
    exists s, s. refine (conj S2 (conj S2 (conj _ _))).
    + intros z Hz. unfold s. destruct (Z.eqb_spec z y); [lia|]. destruct (Z.eqb_spec z x); lia.
    + intros z. unfold s. destruct (Z.eqb_spec z y); [reflexivity|]. destruct (Z.eqb_spec z x); reflexivity.
Qed.

Lemma scan_up_spec len l n key : forall fuel i, 0 <= i -> n < len -> (Z.to_nat (n - i + 1) < fuel)%nat -> i <= n + 1 ->
  exists i', scan_up fuel len l n key i = Some i' /\ i <= i' <= n + 1 /\ (forall x, i <= x < i' -> l x <= key) /\ (i' <= n -> key < l i').
Proof.
  induction fuel as [|fuel IH]; intros i H0 Hl Hf Hi; [lia|]. cbn [scan_up].
  destruct (Z.leb_spec i n) as [L|L].
  - unfold get at 1. replace ((0 <=? i) && (i <? len)) with true by (symmetry; apply andb_true_intro; split; [apply Z.leb_le|apply Z.ltb_lt]; lia).
    destruct (Z.leb_spec (l i) key) as [K|K].
    + destruct (IH (i + 1)) as (i' & E & R1 & R2 & R3); try lia.
      exists i'. refine (conj E (conj _ (conj _ R3))); [lia|]. intros x Hx. destruct (Z.eq_dec x i); [subst; lia|apply R2; lia].
    + exists i. refine (conj eq_refl (conj _ (conj _ _))); intros; lia.
  - exists i. refine (conj eq_refl (conj _ (conj _ _))); intros; lia.
Qed.

Lemma scan_down_spec len l m key : forall fuel j, 0 <= m -> j < len -> (Z.to_nat (j - m + 1) < fuel)%nat -> m <= j -> l m <= key ->
  exists j', scan_down fuel len l m key j = Some j' /\ m <= j' <= j /\ (forall x, j' < x <= j -> key < l x) /\ l j' <= key.
Proof.
  induction fuel as [|fuel IH]; intros j H0 Hl Hf Hj Hm; [lia|]. cbn [scan_down].
  destruct (Z.leb_spec m j) as [L|L]; [|lia].
  unfold get at 1. replace ((0 <=? j) && (j <? len)) with true by (symmetry; apply andb_true_intro; split; [apply Z.leb_le|apply Z.ltb_lt]; lia).
  destruct (Z.ltb_spec key (l j)) as [K|K].
  - assert (j <> m) by (intros ->; lia).
    destruct (IH (j - 1)) as (j' & E & R1 & R2 & R3); try lia.
    exists j'. refine (conj E (conj _ (conj _ R3))); [lia|]. intros x Hx. destruct (Z.eq_dec x j); [subst; lia|apply R2; lia].
  - exists j. refine (conj eq_refl (conj _ (conj _ _))); intros; lia.
Qed.

(** The partition loop, with [swapped] telling that the last round exchanged. *)
Lemma partition_spec len m n key : 0 <= m -> n < len -> forall fuel l i j (swapped : bool),
  m + 1 <= i -> i <= n + 1 -> m <= j <= n -> i <= j + 1 ->
  l m = key -> (forall x, m <= x < i -> l x <= key) -> (forall x, j < x <= n -> key < l x) ->
  (if swapped then l i <= key /\ key < l j /\ i < j /\ (Z.to_nat (j - i + 1) < fuel)%nat else (Z.to_nat (j - i + 2) < fuel)%nat) ->
  exists l' j', partition fuel len l m n key i j = Some (l', j') /\ m <= j' <= n /\ l' m = key /\
    (forall x, m <= x <= j' -> l' x <= key) /\ (forall x, j' < x <= n -> key < l' x) /\ rearranged (m + 1) n l l'.
Proof.
  intros Hm Hn. induction fuel as [|fuel IH]; intros l i j sw Hi1 Hi2 Hj Hij Hk Hlo Hhi Hf; [destruct sw; lia|].
  cbn [partition]. destruct (Z.leb_spec i j) as [L|L].
  - destruct (scan_up_spec len l n key (Z.to_nat (n - i + 2)) i) as (i' & -> & U1 & U2 & U3); try lia.
    destruct (scan_down_spec len l m key (Z.to_nat (j - m + 2)) j) as (j' & -> & D1 & D2 & D3); try lia.
    assert (Lo' : forall x, m <= x < i' -> l x <= key) by (intros x Hx; destruct (Z_lt_le_dec x i); [apply Hlo|apply U2]; lia).
    assert (Hi' : forall x, j' < x <= n -> key < l x) by (intros x Hx; destruct (Z_lt_le_dec j x); [apply Hhi|apply D2]; lia).
    assert (Ne : i' <= j' + 1). { destruct (Z_le_gt_dec i' (j' + 1)); auto. specialize (Lo' (j' + 1)). specialize (Hi' (j' + 1)). lia. }
    destruct (Z.ltb_spec i' j') as [Q|Q].
    + destruct (swap_spec len l i' j') as (l2 & -> & S1 & S2 & S3 & S4); [lia|lia|].
      destruct (IH l2 i' j' true) as (l' & jj & E & E1 & E2 & E3 & E4 & E5); try lia.
      * rewrite S3; lia.
      * intros x Hx. rewrite S3 by lia. apply Lo'; lia.
      * intros x Hx. rewrite S3 by lia. apply Hi'; lia.
      * cbn. rewrite S1, S2. specialize (U3 ltac:(lia)).
        destruct sw; [|repeat split; lia]. destruct Hf as (F1 & F2 & F3 & F4).
        assert (i < i'). { destruct (Z_lt_le_dec i i'); auto. assert (i = i') by lia. subst i'. lia. }
        repeat split; lia.
      * exists l', jj. refine (conj E (conj E1 (conj E2 (conj E3 (conj E4 _))))).
        eapply rearranged_trans; [|exact E5]. apply S4; lia.
    + assert (i' <> j'). { intros <-. specialize (U3 ltac:(lia)). lia. }
      assert (i' = j' + 1) by lia. subst i'.
      destruct fuel as [|fuel]. { destruct sw; lia. }
      cbn [partition]. destruct (Z.leb_spec (j' + 1) j') as [Z1|Z1]; [lia|].
      exists l, j'. refine (conj eq_refl (conj _ (conj Hk (conj _ (conj Hi' _))))); [lia| |apply rearranged_refl].
      intros x Hx. apply Lo'; lia.
  - exists l, j. refine (conj eq_refl (conj _ (conj Hk (conj _ (conj Hhi _))))); [lia| |apply rearranged_refl].
    intros x Hx. apply Hlo; lia.
Qed.

Lemma quicksort_spec len : forall fuel l m n, 0 <= m -> n < len -> (Z.to_nat (n - m + 1) < fuel)%nat ->
  exists l', quicksort fuel len l m n = Some l' /\ rearranged m n l l' /\ forall x y, m <= x <= y -> y <= n -> l' x <= l' y.
Proof.
  induction fuel as [|fuel IH]; intros l m n Hm Hn Hf; [lia|]. cbn [quicksort].
  destruct (Z.ltb_spec m n) as [L|L].
  - assert (P : m <= choose_pivot m n <= n).
    { unfold choose_pivot. rewrite Z.quot_div_nonneg by lia. split; [apply Z.div_le_lower_bound|apply Z.div_le_upper_bound]; lia. }
    destruct (swap_spec len l m (choose_pivot m n)) as (l1 & -> & _ & _ & _ & S1); [lia|lia|]. specialize (S1 m n ltac:(lia) ltac:(lia)).
    unfold get at 1. replace ((0 <=? m) && (m <? len)) with true by (symmetry; apply andb_true_intro; split; [apply Z.leb_le|apply Z.ltb_lt]; lia).
    destruct (partition_spec len m n (l1 m) Hm Hn (Z.to_nat (n - m + 3)) l1 (m + 1) n false) as (l2 & j & -> & J1 & J2 & J3 & J4 & J5); try lia.
    { intros x Hx. assert (x = m) by lia. subst; lia. }
    destruct (swap_spec len l2 m j) as (l3 & -> & T1 & T2 & T3 & T4); [lia|lia|]. specialize (T4 m n ltac:(lia) ltac:(lia)).
    destruct (IH l3 m (j - 1)) as (l4 & -> & A1 & A2); try lia.
    destruct (IH l4 (j + 1) n) as (l5 & -> & B1 & B2); try lia.
    exists l5. split; [reflexivity|].
    assert (Lo3 : forall x, m <= x <= j -> l3 x <= l1 m).
    { intros x Hx. destruct (Z.eq_dec x m); [subst; rewrite T1; apply J3; lia|]. destruct (Z.eq_dec x j); [subst; rewrite T2; lia|]. rewrite T3 by lia. apply J3; lia. }
    assert (Hi3 : forall x, j < x <= n -> l1 m < l3 x) by (intros x Hx; rewrite T3 by lia; apply J4; lia).
    assert (Lo5 : forall x, m <= x <= j -> l5 x <= l1 m).
    { intros x Hx. rewrite (rearranged_outside _ _ _ _ _ B1) by lia. destruct (Z.eq_dec x j); [subst; rewrite (rearranged_outside _ _ _ _ _ A1) by lia; apply Lo3; lia|].
      destruct (rearranged_inside _ _ _ _ x A1) as (y & Hy & ->); [lia|]. apply Lo3; lia. }
    assert (K5 : l5 j = l1 m) by (rewrite (rearranged_outside _ _ _ _ _ B1), (rearranged_outside _ _ _ _ _ A1), T2 by lia; exact J2).
    assert (Hi5 : forall x, j < x <= n -> l1 m < l5 x).
    { intros x Hx. destruct (rearranged_inside _ _ _ _ x B1) as (y & Hy & ->); [lia|]. rewrite (rearranged_outside _ _ _ _ _ A1) by lia. apply Hi3; lia. }
    split.
    + eapply rearranged_trans; [exact S1|]. eapply rearranged_trans; [eapply rearranged_wider; [| |exact J5]; lia|].
      eapply rearranged_trans; [exact T4|]. eapply rearranged_trans; [eapply rearranged_wider; [| |exact A1]; lia|eapply rearranged_wider; [| |exact B1]; lia].
    + intros x y Hx Hy. destruct (Z_lt_le_dec y j) as [Y|Y].
      * rewrite !(rearranged_outside _ _ _ _ _ B1) by lia. apply A2; lia.
      * destruct (Z_lt_le_dec j x) as [X|X]; [apply B2; lia|].
        specialize (Lo5 x ltac:(lia)). destruct (Z.eq_dec y j); [subst; lia|]. specialize (Hi5 y ltac:(lia)). lia.
  - exists l. split; [reflexivity|]. split; [apply rearranged_refl|]. intros x y Hx Hy. assert (x = y) by lia. subst; lia.
Qed.

(** A rearrangement as a permutation of the list of values. *)
Definition zlist (m : Z) (k : nat) : list Z := map (fun x => m + Z.of_nat x) (seq 0 k).
Lemma in_zlist m k x : In x (zlist m k) <-> m <= x < m + Z.of_nat k.
Proof.
  unfold zlist. rewrite in_map_iff. split.
  - intros (y & <- & H). apply in_seq in H. lia.
  - intros H. exists (Z.to_nat (x - m)). split; [lia|apply in_seq; lia].
Qed.
Lemma rearranged_perm m n l l' k : rearranged m n l l' -> n + 1 = m + Z.of_nat k -> Permutation (map l (zlist m k)) (map l' (zlist m k)).
Proof.
  intros H En. pose proof H as (s & t & A & B & C & D).
  assert (Nd : NoDup (zlist m k)) by (apply FinFun.Injective_map_NoDup; [intros x y E; lia|apply seq_NoDup]).
  replace (map l' (zlist m k)) with (map l (map s (zlist m k))) by (rewrite map_map; apply map_ext; intros; symmetry; apply D).
  apply Permutation_map. apply NoDup_Permutation; auto.
  - apply FinFun.Injective_map_NoDup; auto. intros x y E. apply (f_equal t) in E. now rewrite !B in E.
  - intros x. rewrite in_map_iff. split.
    + intros I. exists (t x). split; [apply A|]. apply in_zlist. apply in_zlist in I.
      destruct (Z_lt_le_dec (t x) m) as [L|L]. { pose proof (C (t x) (or_introl L)) as E. rewrite A in E. lia. }
      destruct (Z_lt_le_dec n (t x)) as [L'|L']; [|lia]. pose proof (C (t x) (or_intror L')) as E. rewrite A in E. lia.
    + intros (y & <- & I). apply in_zlist. apply in_zlist in I.
      destruct (Z_lt_le_dec (s y) m) as [L|L]. { pose proof (C (s y) (or_introl L)) as E. apply (f_equal t) in E. rewrite !B in E. lia. }
      destruct (Z_lt_le_dec n (s y)) as [L'|L']; [|lia]. pose proof (C (s y) (or_intror L')) as E. apply (f_equal t) in E. rewrite !B in E. lia.
Qed.

(** ** The rows of the matrix *)

(** What [build_geo_structure] needs of a mesh: neighbours and boundary numbers
    are in range, the three columns of a row are distinct and not the row, edges
    have positive length and the points joined are distinct. *)
Record sound (M : mesh) : Prop := {
  s_range : forall i e, (i < ntri M)%nat -> (e < 3)%nat -> - Z.of_nat (nbdry M) <= neighbour M i e < Z.of_nat (ntri M);
  s_self : forall i e, (i < ntri M)%nat -> (e < 3)%nat -> neighbour M i e <> Z.of_nat i;
  s_distinct : forall i e e', (i < ntri M)%nat -> (e < 3)%nat -> (e' < 3)%nat -> neighbour M i e = neighbour M i e' -> e = e';
  s_length : forall i e, (i < ntri M)%nat -> (e < 3)%nat -> (0 < edgelength M i e)%R;
  s_apart : forall i e, (i < ntri M)%nat -> (e < 3)%nat ->
    centroid M i <> (if neighbour M i e <? 0 then midpoint M i e else centroid M (Z.to_nat (neighbour M i e))) }.

(** Neighbours are mutual and share the edge. *)
Definition mutual (M : mesh) : Prop :=
  exists twin : nat -> nat -> nat, forall i e, (i < ntri M)%nat -> (e < 3)%nat -> 0 <= neighbour M i e ->
    let j := Z.to_nat (neighbour M i e) in
    (twin i e < 3)%nat /\ neighbour M j (twin i e) = Z.of_nat i /\ edgelength M j (twin i e) = edgelength M i e.

Lemma quick4 f : exists s, quicksort 5 4 f 0 3 = Some s /\ Permutation [f 0; f 1; f 2; f 3] [s 0; s 1; s 2; s 3] /\ s 0 <= s 1 <= s 2 /\ s 2 <= s 3.
Proof.
  destruct (quicksort_spec 4 5 f 0 3) as (s & E & P & S); try (cbn; lia).
  exists s. split; [exact E|]. split.
  - apply (rearranged_perm 0 3 f s 4) in P; [exact P|reflexivity].
  - pose proof (S 0 1); pose proof (S 1 2); pose proof (S 2 3). lia.
Qed.

Lemma row_spec M c b i : exists r, row M c b i = Some r /\
  Permutation (map (stored M c b i) [geo_index M i 0; geo_index M i 1; geo_index M i 2; Z.of_nat i]) r.
Proof.
  unfold row. destruct (quick4 (cols M i)) as (s & -> & P & _). eexists; split; [reflexivity|].
  cbn [map]. apply (Permutation_map (stored M c b i)) in P. cbn in P. exact P.
Qed.

Lemma collect_blocks {A} (f : nat -> option (list A)) d : forall n s, (forall i, exists r, f i = Some r /\ length r = 4%nat) ->
  exists es, collect (map f (seq s n)) = Some es /\ length es = (4 * n)%nat /\
    forall i r, (i < n)%nat -> f (s + i)%nat = Some r -> map (fun k => nth k es d) (seq (4 * i) 4) = r.
Proof.
  induction n as [|n IH]; intros s H.
  - exists []. cbn. repeat split; auto. intros; lia.
  - destruct (H s) as (r0 & E0 & L0). destruct (IH (S s) H) as (es & E & L & N).
    exists (r0 ++ es). cbn [seq map collect]. rewrite E0, E. split; [reflexivity|]. split; [rewrite app_length; lia|].
    intros i r Hi Er. destruct i as [|i].
    + replace (s + 0)%nat with s in Er by lia. assert (r0 = r) by congruence. subst r0.
      destruct r as [|a [|b [|c [|e [|? ?]]]]]; cbn in L0; try lia. reflexivity.
    + rewrite <- (N i r); [|lia|replace (S s + i)%nat with (s + S i)%nat by lia; exact Er].
      cbn [seq map]. rewrite !app_nth2 by lia. rewrite L0.
      replace (4 * S i - 4)%nat with (4 * i)%nat by lia. replace (S (4 * S i) - 4)%nat with (S (4 * i)) by lia.
      replace (S (S (4 * S i)) - 4)%nat with (S (S (4 * i))) by lia. replace (S (S (S (4 * S i))) - 4)%nat with (S (S (S (4 * i)))) by lia. reflexivity.
Qed.

Lemma matrix_exists M c b : exists A, elliptic_matrix M c b = Some A /\ forall i, (i < ntri M)%nat -> row M c b i = Some (row_entries A i).
Proof.
  unfold elliptic_matrix.
  destruct (collect_blocks (row M c b) (0%nat, 0%R) (ntri M) 0) as (es & -> & L & N).
  { intros i. destruct (row_spec M c b i) as (r & E & P). exists r. split; [exact E|]. apply Permutation_length in P. rewrite <- P. reflexivity. }
  eexists; split; [reflexivity|]. intros i Hi.
  destruct (row_spec M c b i) as (r & E & P). rewrite E. f_equal. rewrite <- (N i r Hi E).
  unfold row_entries. cbn [row_ptr entries]. replace (4 * S i - 4 * i)%nat with 4%nat by lia. reflexivity.
Qed.

Lemma fold_entries (x : nat -> R) es y : fold_left (fun y (e : nat * R) => y + snd e * x (fst e))%R es y = (y + Rsum (map (fun e : nat * R => snd e * x (fst e)) es))%R.
Proof. revert y. induction es as [|e es IH]; intros y; cbn [fold_left map Rsum]; [lra|]. rewrite IH. lra. Qed.

Open Scope R_scope.

(** The weight of edge [e] of triangle [i]. *)
Definition weight (M : mesh) (c b : nat -> R) (i e : nat) : R :=
  if Rleb (c i) 0 then 0
  else 1 / 2 * (c i + h_other M c b i e) * (edgelength M i e / distance (centroid M i) (other_point M i e)).
Definition col (M : mesh) (i e : nat) : nat := Z.to_nat (geo_index M i e).

Lemma geo_distinct M i e : sound M -> (i < ntri M)%nat -> (e < 3)%nat ->
  (0 <= geo_index M i e)%Z /\ geo_index M i e <> Z.of_nat i /\ (forall e', (e' < 3)%nat -> geo_index M i e' = geo_index M i e -> e' = e).
Proof.
  intros Sd Hi He. pose proof (s_range M Sd i e Hi He). pose proof (s_self M Sd i e Hi He).
  unfold geo_index. split; [destruct (Z.ltb_spec (neighbour M i e) 0); lia|]. split; [destruct (Z.ltb_spec (neighbour M i e) 0); lia|].
  intros e' He' E. apply (s_distinct M Sd i); auto. pose proof (s_range M Sd i e' Hi He').
  destruct (Z.ltb_spec (neighbour M i e) 0); destruct (Z.ltb_spec (neighbour M i e') 0); lia.
Qed.

Lemma mv_spec M c b A x i : sound M -> elliptic_matrix M c b = Some A -> (i < ntri M)%nat ->
  csr_mv A x i = Rsum (map (fun e => weight M c b i e * (x (col M i e) - x i)) [0; 1; 2]%nat).
Proof.
  intros Sd EA Hi. destruct (matrix_exists M c b) as (A' & EA' & HA). assert (A' = A) by congruence. subst A'.
  destruct (row_spec M c b i) as (r & Er & P). rewrite (HA i Hi) in Er. injection Er as Er.
  unfold csr_mv. rewrite fold_entries, Rplus_0_l, Er.
  rewrite <- (Rsum_perm _ _ (Permutation_map (fun e : nat * R => snd e * x (fst e)) P)). cbn [map].
  destruct (geo_distinct M i 0 Sd Hi) as (N0 & S0 & D0); [lia|].
  destruct (geo_distinct M i 1 Sd Hi) as (N1 & S1 & D1); [lia|].
  destruct (geo_distinct M i 2 Sd Hi) as (N2 & S2 & D2); [lia|].
  assert (geo_index M i 1 <> geo_index M i 0) by (intros E; specialize (D0 1%nat ltac:(lia) E); lia).
  assert (geo_index M i 2 <> geo_index M i 0) by (intros E; specialize (D0 2%nat ltac:(lia) E); lia).
  assert (geo_index M i 2 <> geo_index M i 1) by (intros E; specialize (D1 2%nat ltac:(lia) E); lia).
  unfold stored. rewrite !Z.eqb_refl.
  repeat match goal with |- context [Z.eqb ?a ?b] => replace (Z.eqb a b) with false by (symmetry; apply Z.eqb_neq; assumption) end.
  cbn [fst snd Rsum]. unfold value, diagonal, weight, col, geo_value. cbn [fold_left].
  destruct (Rleb (c i) 0); unfold Rdiv; ring.
Qed.

Lemma distance_pos p q : p <> q -> 0 < distance p q.
Proof.
  intros H. unfold distance. apply sqrt_lt_R0. destruct p as [a b], q as [x y]. cbn [fst snd].
  destruct (Req_dec a x) as [->|N].
  - assert (b <> y) by congruence. assert (0 < (b - y) * (b - y)) by (apply Rlt_0_sqr; lra). lra.
  - assert (0 < (a - x) * (a - x)) by (apply Rlt_0_sqr; lra). pose proof (Rle_0_sqr (b - y)) as Q. unfold Rsqr in Q. lra.
Qed.
Lemma distance_sym p q : distance p q = distance q p.
Proof. unfold distance. f_equal. ring. Qed.

Lemma weight_nonneg M c b i e : sound M -> (i < ntri M)%nat -> (e < 3)%nat ->
  (forall k, (k < ntri M)%nat -> 0 <= c k) -> (forall k, (k < nbdry M)%nat -> 0 <= b k) -> 0 <= weight M c b i e.
Proof.
  intros Sd Hi He Hc Hb. unfold weight. destruct (Rleb_spec (c i) 0) as [|Hp]; [lra|].
  pose proof (s_apart M Sd i e Hi He) as Ap. pose proof (distance_pos _ _ Ap) as Dp. pose proof (s_length M Sd i e Hi He) as Lp.
  pose proof (s_range M Sd i e Hi He) as Rg.
  assert (Ho : 0 <= h_other M c b i e).
  { unfold h_other, geo_index. destruct (Z.ltb_spec (neighbour M i e) 0) as [L|L].
    - destruct (Z.ltb_spec (Z.of_nat (ntri M) + (- neighbour M i e - 1)) (Z.of_nat (ntri M))); [lia|]. apply Hb. lia.
    - destruct (Z.ltb_spec (neighbour M i e) (Z.of_nat (ntri M))); [|lia]. apply Hc. lia. }
  apply Rmult_le_pos; [lra|]. unfold Rdiv. apply Rmult_le_pos; [lra|]. apply Rlt_le, Rinv_0_lt_compat. exact Dp.
Qed.

(** Both sides of an interior edge between wet triangles have the same weight. *)
Lemma weight_twin M c b i e j e' : sound M -> (i < ntri M)%nat -> (e < 3)%nat -> neighbour M i e = Z.of_nat j ->
  (j < ntri M)%nat -> (e' < 3)%nat -> neighbour M j e' = Z.of_nat i -> edgelength M j e' = edgelength M i e ->
  0 < c i -> 0 < c j -> weight M c b j e' = weight M c b i e.
Proof.
  intros Sd Hi He Ej Hj He' Ei El Ci Cj. unfold weight.
  destruct (Rleb_spec (c i) 0); [lra|]. destruct (Rleb_spec (c j) 0); [lra|].
  assert (H1 : h_other M c b i e = c j).
  { unfold h_other, geo_index. rewrite Ej. destruct (Z.ltb_spec (Z.of_nat j) 0); [lia|]. destruct (Z.ltb_spec (Z.of_nat j) (Z.of_nat (ntri M))); [|lia]. now rewrite Nat2Z.id. }
  assert (H2 : h_other M c b j e' = c i).
  { unfold h_other, geo_index. rewrite Ei. destruct (Z.ltb_spec (Z.of_nat i) 0); [lia|]. destruct (Z.ltb_spec (Z.of_nat i) (Z.of_nat (ntri M))); [|lia]. now rewrite Nat2Z.id. }
  assert (H3 : other_point M i e = centroid M j) by (unfold other_point; rewrite Ej; destruct (Z.ltb_spec (Z.of_nat j) 0); [lia|now rewrite Nat2Z.id]).
  assert (H4 : other_point M j e' = centroid M i) by (unfold other_point; rewrite Ei; destruct (Z.ltb_spec (Z.of_nat i) 0); [lia|now rewrite Nat2Z.id]).
  rewrite H1, H2, H3, H4, El, (distance_sym (centroid M j)). ring.
Qed.

Lemma col_interior M i e j : (j < ntri M)%nat -> neighbour M i e = Z.of_nat j -> col M i e = j.
Proof. intros Hj E. unfold col, geo_index. rewrite E. destruct (Z.ltb_spec (Z.of_nat j) 0); [lia|]. apply Nat2Z.id. Qed.
Lemma col_boundary M i e : (neighbour M i e < 0)%Z -> (ntri M <= col M i e)%nat.
Proof. intros E. unfold col, geo_index. destruct (Z.ltb_spec (neighbour M i e) 0); lia. Qed.

(** The quadratic form of the interior part is not positive. *)
Lemma dissipation M c b A u : sound M -> mutual M -> elliptic_matrix M c b = Some A ->
  (forall k, (k < ntri M)%nat -> 0 <= c k) -> (forall k, (k < nbdry M)%nat -> 0 <= b k) ->
  (forall k, (k < ntri M)%nat -> c k <= 0 -> u k = 0) ->
  Rsum (map (fun i => u i * csr_mv A (extend (ntri M) u (fun _ => 0)) i) (seq 0 (ntri M))) <= 0.
Proof.
  intros Sd (twin & Mu) EA Hc Hb Hu. set (n := ntri M) in *. set (x := extend n u (fun _ => 0)).
  set (f := fun k => let i := (k / 3)%nat in let e := (k mod 3)%nat in u i * (weight M c b i e * (x (col M i e) - x i))).
  set (wet := fun k => let i := (k / 3)%nat in let e := (k mod 3)%nat in (0 <=? neighbour M i e)%Z && negb (Rleb (c i) 0) && negb (Rleb (c (Z.to_nat (neighbour M i e))) 0)).
  set (g := fun k => let i := (k / 3)%nat in let e := (k mod 3)%nat in let j := Z.to_nat (neighbour M i e) in
               if wet k then 1 / 2 * weight M c b i e * (u j * u j - u i * u i) else 0).
  set (s := fun k => let i := (k / 3)%nat in let e := (k mod 3)%nat in if wet k then (3 * Z.to_nat (neighbour M i e) + twin i e)%nat else k).
  assert (E1 : Rsum (map (fun i => u i * csr_mv A x i) (seq 0 n)) = Rsum (map f (seq 0 (3 * n)))).
  { rewrite Rsum_triples. apply Rsum_map_ext_in. intros i Hi. apply in_seq in Hi.
    rewrite (mv_spec M c b A x i Sd EA) by (unfold n in Hi; lia). unfold f. cbn zeta.
    replace (3 * i / 3)%nat with i by (rewrite Nat.mul_comm, Nat.div_mul; lia).
    replace ((3 * i) mod 3)%nat with 0%nat by (rewrite Nat.mul_comm, Nat.mod_mul; lia).
    replace ((3 * i + 1) / 3)%nat with i by (apply (Nat.div_unique _ 3 i 1); lia).
    replace ((3 * i + 1) mod 3)%nat with 1%nat by (apply (Nat.mod_unique _ 3 i 1); lia).
    replace ((3 * i + 2) / 3)%nat with i by (apply (Nat.div_unique _ 3 i 2); lia).
    replace ((3 * i + 2) mod 3)%nat with 2%nat by (apply (Nat.mod_unique _ 3 i 2); lia).
    cbn [map Rsum]. ring. }
  assert (Dm : forall i e, (e < 3)%nat -> ((3 * i + e) / 3 = i)%nat /\ ((3 * i + e) mod 3 = e)%nat).
  { intros i e He. split; [symmetry; apply (Nat.div_unique _ 3 i e); lia|symmetry; apply (Nat.mod_unique _ 3 i e); lia]. }
  assert (E2 : Rsum (map g (seq 0 (3 * n))) = 0).
  { apply (Rsum_involution g s); [apply seq_NoDup|]. intros k Hk. apply in_seq in Hk.
    unfold s. cbn zeta. destruct (wet k) eqn:W.
    2: { refine (conj _ (conj _ _)); [apply in_seq; lia|rewrite W; reflexivity|]. unfold g. rewrite W. ring. }
    set (i := (k / 3)%nat) in *. set (e := (k mod 3)%nat) in *. set (j := Z.to_nat (neighbour M i e)) in *.
    assert (Hi : (i < n)%nat) by (unfold i; apply Nat.div_lt_upper_bound; lia).
    assert (He : (e < 3)%nat) by (apply Nat.mod_upper_bound; lia).
    pose proof W as W'. unfold wet in W'. cbn zeta in W'. fold i e j in W'. apply andb_prop in W' as (W1 & W3). apply andb_prop in W1 as (W1 & W2).
    apply Z.leb_le in W1. apply negb_true_iff in W2, W3. apply Rleb_false in W2, W3.
    pose proof (s_range M Sd i e Hi He) as Rg. assert (Hj : (j < n)%nat) by (unfold j; lia).
    assert (Ej : neighbour M i e = Z.of_nat j) by (unfold j; lia).
    destruct (Mu i e Hi He W1) as (T1 & T2 & T3). fold j in T2, T3.
    destruct (Mu j (twin i e) Hj T1) as (U1 & U2 & U3); [lia|]. rewrite T2, Nat2Z.id in U2, U3.
    assert (Ue : twin j (twin i e) = e) by (apply (s_distinct M Sd i); auto; congruence).
    destruct (Dm j (twin i e) T1) as (D1 & D2).
    assert (Ws : wet (3 * j + twin i e)%nat = true).
    { unfold wet. cbn zeta. rewrite D1, D2, T2, Nat2Z.id. apply andb_true_intro. split; [apply andb_true_intro; split|]; [apply Z.leb_le; lia| |];
      apply negb_true_iff, Rleb_false; auto. }
    refine (conj _ (conj _ _)).
    - apply in_seq. lia.
    - rewrite Ws, D1, D2, T2, Nat2Z.id, Ue. unfold i, e. symmetry. rewrite <- Nat.div_mod; lia.
    - unfold g. rewrite W, Ws. cbn zeta. rewrite D1, D2, T2, Nat2Z.id. fold i e j.
      rewrite (weight_twin M c b i e j (twin i e) Sd Hi He Ej Hj T1 T2 T3 W2 W3). ring. }
  rewrite E1. rewrite <- E2. apply Rminus_le. rewrite <- Rsum_map_minus.
  apply Ropp_le_cancel. rewrite Ropp_0.
  replace (- Rsum (map (fun k => f k - g k) (seq 0 (3 * n)))) with (Rsum (map (fun k => -1 * (f k - g k)) (seq 0 (3 * n)))) by (rewrite Rsum_map_scal; ring).
  apply Rsum_nonneg. intros r Hr. apply in_map_iff in Hr as (k & <- & Hk). apply in_seq in Hk.
  unfold f, g. cbn zeta. set (i := (k / 3)%nat). set (e := (k mod 3)%nat). set (j := Z.to_nat (neighbour M i e)).
  assert (Hi : (i < n)%nat) by (unfold i; apply Nat.div_lt_upper_bound; lia).
  assert (He : (e < 3)%nat) by (apply Nat.mod_upper_bound; lia).
  pose proof (weight_nonneg M c b i e Sd Hi He Hc Hb) as Wn.
  assert (Xi : x i = u i) by (unfold x, extend; destruct (Nat.ltb_spec i n); [reflexivity|lia]).
  pose proof (s_range M Sd i e Hi He) as Rg.
  destruct (wet k) eqn:W; unfold wet in W; cbn zeta in W; fold i e j in W.
  - apply andb_prop in W as (W1 & W3). apply andb_prop in W1 as (W1 & W2). apply Z.leb_le in W1.
    assert (Hj : (j < n)%nat) by (unfold j; lia).
    rewrite (col_interior M i e j Hj) by (unfold j; lia). rewrite Xi.
    replace (x j) with (u j) by (unfold x, extend; destruct (Nat.ltb_spec j n); [reflexivity|lia]).
    replace (-1 * (u i * (weight M c b i e * (u j - u i)) - 1 / 2 * weight M c b i e * (u j * u j - u i * u i)))
      with (1 / 2 * weight M c b i e * ((u i - u j) * (u i - u j))) by field.
    apply Rmult_le_pos; [lra|]. apply Rle_0_sqr.
  - rewrite Xi. destruct (Z_lt_le_dec (neighbour M i e) 0) as [Q|Q].
    + pose proof (col_boundary M i e Q) as Cb. replace (x (col M i e)) with 0 by (unfold x, extend; destruct (Nat.ltb_spec (col M i e) n); [unfold n in *; lia|reflexivity]).
      replace (-1 * (u i * (weight M c b i e * (0 - u i)) - 0)) with (weight M c b i e * (u i * u i)) by ring.
      apply Rmult_le_pos; [exact Wn|apply Rle_0_sqr].
    + assert (Hj : (j < n)%nat) by (unfold j; lia). rewrite (col_interior M i e j Hj) by (unfold j; lia).
      replace (x j) with (u j) by (unfold x, extend; destruct (Nat.ltb_spec j n); [reflexivity|lia]).
      replace (0 <=? neighbour M i e)%Z with true in W by (symmetry; apply Z.leb_le; lia). cbn [andb] in W.
      apply andb_false_iff in W. destruct W as [W|W]; apply negb_false_iff, Rleb_true in W.
      * rewrite (Hu i Hi W). lra.
      * rewrite (Hu j Hj W). replace (-1 * (u i * (weight M c b i e * (0 - u i)) - 0)) with (weight M c b i e * (u i * u i)) by ring.
        apply Rmult_le_pos; [exact Wn|apply Rle_0_sqr].
Qed.
