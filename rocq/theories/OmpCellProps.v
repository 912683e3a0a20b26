(** Properties C63 and C64: the cell-wise kernels of sw_domain_openmp.c in
    every interleaving of their parallel loops. *)
From Coq Require Import Reals List ZArith Arith Bool Lia Lra Permutation.
From Verif Require Import RealLib ListLib ArrayLib ParLib FluxModel ReconModel CentroidModel CentroidProofs OmpModel OmpProofs.
Import ListNotations.
Local Open Scope R_scope.

(** The entries of triangle [k] in a memory. *)
Definition cell_of (bed areas : nat -> R) (full : nat -> Z) (m : loc -> R) (k : nat) : cell :=
  Cell (m (Stage, k)) (bed k) (m (XMom, k)) (m (YMom, k)) (areas k) (full k)
    (m (StageV 0, k), m (StageV 1, k), m (StageV 2, k)).
Definition with_ymom (c : cell) (y : R) : cell :=
  Cell (c_stage c) (c_bed c) (c_xmom c) y (c_area c) (c_full c) (c_wv c).

Lemma loc_refl l : loc_eqb l l = true.
Proof. destruct (loc_eqb_spec l l); congruence. Qed.
Lemma loc_array a b k : array_eqb a b = false -> loc_eqb (a, k) (b, k) = false.
Proof. intros E. unfold loc_eqb. cbn [fst snd]. rewrite E. reflexivity. Qed.
Lemma put_here (m : loc -> R) l v : put loc_eqb m l v l = v.
Proof. rewrite put_eq, loc_refl. reflexivity. Qed.
Lemma put_array (m : loc -> R) a b k v : array_eqb a b = false -> put loc_eqb m (b, k) v (a, k) = m (a, k).
Proof. intros E. rewrite put_eq, (loc_array a b k E). reflexivity. Qed.
Lemma put_index (m : loc -> R) a b i j v : i <> j -> put loc_eqb m (b, j) v (a, i) = m (a, i).
Proof.
  intros E. rewrite put_eq. unfold loc_eqb. cbn [fst snd]. destruct (Nat.eqb_spec i j); [congruence|].
  rewrite andb_false_r. reflexivity.
Qed.
Ltac putall := repeat (rewrite put_here || (rewrite put_array by reflexivity) || (rewrite put_index by lia)).

(** ** C63 *)
Lemma protect_local mah bed areas k : local k (omp_protect_iteration mah bed areas k).
Proof.
  unfold omp_protect_iteration. constructor. intros w. cbv zeta.
  destruct (Rltb _ _); [|constructor]. do 2 constructor.
  destruct (Rleb _ _); [|constructor]. constructor. intros w1.
  destruct (Rltb _ _); [|constructor]. constructor. intros w2. repeat constructor.
Qed.

Lemma protect_alone mah bed areas full k m :
  let o := alone loc_eqb (omp_protect_iteration mah bed areas k) m in
  cell_of bed areas full (fst o) k =
    with_ymom (protected mah (cell_of bed areas full m k)) (m (YMom, k)) /\
  Rsum (snd o) = added mah (cell_of bed areas full m k).
Proof.
  cbv zeta. unfold omp_protect_iteration, protected, added, protect_cell, cell_of, with_ymom.
  cbn [alone c_stage c_bed c_xmom c_ymom c_area c_full c_wv].
  destruct (Rltb (m (Stage, k) - bed k) (mah * 1)); cbn [alone fst snd Rsum fold_right c_stage c_bed c_xmom c_ymom c_area c_full c_wv]; [|auto].
  destruct (Rleb (m (Stage, k) - bed k) 0); cbn [alone fst snd Rsum fold_right c_stage c_bed c_xmom c_ymom c_area c_full c_wv]; putall; [|auto].
  destruct (Rltb (m (Stage, k)) (bed k)); cbn [alone fst snd Rsum fold_right c_stage c_bed c_xmom c_ymom c_area c_full c_wv]; putall; [|auto].
  split; [reflexivity|]. cbn. lra.
Qed.

(** In every interleaving the protection kernel computes what the sequential
    one does, except that no y momentum is ever changed. *)
Theorem C63_protect_partial :
  forall mah bed areas full K m m' e,
  omp_protect mah bed areas K m m' e ->
  let before := map (cell_of bed areas full m) (seq 0 K) in
  let after := map (cell_of bed areas full m') (seq 0 K) in
  e = snd (protect_new mah before) /\
  map (fun c => with_ymom c 0) after = map (fun c => with_ymom c 0) (fst (protect_new mah before)) /\
  map c_ymom after = map c_ymom before.
Proof.
  intros mah bed areas full K m m' e (c & ps' & threads & St & Fi & P & ->) before after.
  destruct (local_result K _ m c m' ps' (fun i _ => protect_local mah bed areas i) St Fi) as (L1 & _ & L3).
  unfold protect_new. rewrite protect_loop_eq. cbn [fst snd].
  assert (E : forall k, (k < K)%nat -> cell_of bed areas full m' k =
     with_ymom (protected mah (cell_of bed areas full m k)) (m (YMom, k))).
  { intros k Hk. destruct (protect_alone mah bed areas full k m) as [<- _].
    unfold cell_of. rewrite !L1 by exact Hk. reflexivity. }
  refine (conj _ (conj _ _)).
  - rewrite (reduce_plus _ _ _ P). f_equal. unfold before. rewrite map_map.
    rewrite Rsum_flat_map. apply Rsum_map_ext_in. intros k Hk. apply in_seq in Hk. rewrite L3 by lia. cbn [result_of].
      apply (proj2 (protect_alone mah bed areas full k m)).
  - unfold after, before. rewrite !map_map. apply map_ext_in. intros k Hk. apply in_seq in Hk.
    rewrite E by lia. reflexivity.
  - unfold after, before. rewrite !map_map. apply map_ext_in. intros k Hk. apply in_seq in Hk.
    rewrite E by lia. reflexivity.
Qed.
Print Assumptions C63_protect_partial.

(** The sequential kernel leaves no momentum in a dry cell; the OpenMP kernel
    leaves the y momentum, in every execution. *)
Theorem C63_protect_refuted :
  exists mah bed areas full K m,
  (exists m' e, omp_protect mah bed areas K m m' e) /\
  forall m' e, omp_protect mah bed areas K m m' e ->
  map (cell_of bed areas full m') (seq 0 K) <> fst (protect_new mah (map (cell_of bed areas full m) (seq 0 K))) /\
  m' (Stage, 0%nat) - bed 0%nat = 0 /\ m' (YMom, 0%nat) = 1.
Proof.
  exists 1, (fun _ => 0), (fun _ => 1), (fun _ => 1%Z), 1%nat, (fun l => if loc_eqb l (YMom, 0%nat) then 1 else 0).
  set (m := fun l : loc => if loc_eqb l (YMom, 0%nat) then 1 else 0). split.
  - destruct (sequential_reachable _ _ _ loc_eqb 1 1 0 m (omp_protect_iteration 1 (fun _ => 0) (fun _ => 1)) (le_n _))
      as (c & ps' & S1 & S2 & _).
    eexists _, _, c, ps', [flat_map (fun k => result_of [] (ps' k)) (seq 0 1)]. 
    refine (conj S1 (conj _ (conj _ eq_refl))).
    + intros i Hi. exists (nth i (snd (sequential loc_eqb (map (omp_protect_iteration 1 (fun _ => 0) (fun _ => 1)) (seq 0 1)) m)) []).
      rewrite S2 by lia. rewrite Nat.sub_0_r.
      replace i with 0%nat by lia. cbn [map seq sequential]. destruct (alone _ _ _). reflexivity.
    + cbn [concat]. rewrite app_nil_r. reflexivity.
  - intros m' e H. pose proof H as H0.
    destruct (C63_protect_partial 1 (fun _ => 0) (fun _ => 1) (fun _ => 1%Z) 1 m m' e H) as (_ & A & B).
    cbn [seq map cell_of c_ymom] in B. injection B as B.
    assert (Em : m (YMom, 0%nat) = 1) by reflexivity. assert (Es : m (Stage, 0%nat) = 0) by reflexivity.
    unfold protect_new in *. rewrite protect_loop_eq in *. cbn [fst seq map] in *. injection A as A1 A2 A3.
    assert (P : protected 1 (cell_of (fun _ => 0) (fun _ => 1) (fun _ => 1%Z) m 0) =
                with_ymom (cell_of (fun _ => 0) (fun _ => 1) (fun _ => 1%Z) m 0) 0).
    { unfold protected, protect_cell, cell_of, with_ymom. cbn [c_stage c_bed c_xmom c_ymom c_area c_full c_wv].
      rewrite Es. rewrite (proj2 (Rltb_true (0 - 0) (1 * 1))) by lra. rewrite (proj2 (Rleb_true (0 - 0) 0)) by lra.
      rewrite (proj2 (Rltb_false 0 0)) by lra. cbn [fst]. reflexivity. }
    rewrite P in *. cbn [with_ymom cell_of c_stage c_bed c_xmom c_ymom c_area c_full c_wv] in *.
    refine (conj _ (conj _ _)).
    + intros C. injection C as C1 C2 C3. rewrite B, Em in C3. lra.
    + rewrite A1, Es. lra.
    + rewrite B. exact Em.
Qed.
Print Assumptions C63_protect_refuted.

Lemma fix_negative_local bed full k : local k (omp_fix_negative_iteration bed full k).
Proof. unfold omp_fix_negative_iteration. constructor. intros w. destruct (_ && _); repeat constructor. Qed.

Lemma reduce_zplus l threads init : Permutation (concat threads) l ->
  omp_reduce Z.add 0%Z init threads = (init + fold_right Z.add 0 l)%Z.
Proof.
  intros P. assert (E : forall l x, fold_left Z.add l x = (x + fold_right Z.add 0 l)%Z).
  { clear. induction l as [|a l IH]; intros x; cbn [fold_left fold_right]; [lia|]. rewrite IH. lia. }
  assert (App : forall a b, fold_right Z.add 0%Z (a ++ b) = (fold_right Z.add 0 a + fold_right Z.add 0 b)%Z).
  { clear. induction a as [|x a IH]; intros b; cbn [app fold_right]; [lia|]. rewrite IH. lia. }
  assert (Q : fold_right Z.add 0%Z (concat threads) = fold_right Z.add 0%Z l).
  { clear E App. induction P; cbn [fold_right]; lia. }
  rewrite <- Q. clear P Q. unfold omp_reduce. revert init.
  induction threads as [|t threads IH]; intros init; cbn [concat map fold_left fold_right]; [lia|].
  rewrite IH, App, E. lia.
Qed.

(** The kernel for negative cells agrees with the sequential one. *)
Theorem C63_fix_negative_cells :
  forall bed areas full K m m' n,
  omp_fix_negative_cells bed full K m m' n ->
  let before := map (cell_of bed areas full m) (seq 0 K) in
  let after := map (cell_of bed areas full m') (seq 0 K) in
  after = fst (fix_negative_cells before) /\ n = snd (fix_negative_cells before).
Proof.
  intros bed areas full K m m' n (c & ps' & threads & St & Fi & P & ->) before after.
  destruct (local_result K _ m c m' ps' (fun i _ => fix_negative_local bed full i) St Fi) as (L1 & _ & L3).
  unfold fix_negative_cells. rewrite fix_negative_loop_eq. cbn [fst snd].
  assert (A : forall k, let o := alone loc_eqb (omp_fix_negative_iteration bed full k) m in
     cell_of bed areas full (fst o) k = fixed (cell_of bed areas full m k) /\
     snd o = if is_negative (cell_of bed areas full m k) then 1%Z else 0%Z).
  { intros k. cbv zeta. pose proof (fix_negative_cell_eq (cell_of bed areas full m k)) as E.
    unfold omp_fix_negative_iteration, fix_negative_cell in *. cbn [alone] in *.
    cbn [cell_of c_stage c_bed c_full c_xmom c_ymom c_area c_wv] in E.
    destruct (Rltb (m (Stage, k) - bed k) 0 && (0 <? full k)%Z); injection E as E1 E2.
    - rewrite <- E1. cbn [alone fst snd]. split; [|exact E2]. unfold cell_of. putall. reflexivity.
    - rewrite <- E1. cbn [alone fst snd]. split; [|exact E2]. reflexivity. }
  split.
  - unfold after, before. rewrite !map_map. apply map_ext_in. intros k Hk. apply in_seq in Hk.
    rewrite <- (proj1 (A k)). unfold cell_of. rewrite !L1 by lia. reflexivity.
  - rewrite (reduce_zplus _ _ _ P). rewrite !Z.add_0_l. unfold before.
    assert (Ex : map (fun k => result_of 0%Z (ps' k)) (seq 0 K) =
                map (fun k => if is_negative (cell_of bed areas full m k) then 1%Z else 0%Z) (seq 0 K)).
    { apply map_ext_in. intros k Hk. apply in_seq in Hk. rewrite L3 by lia. apply (proj2 (A k)). }
    rewrite Ex. clear. induction (seq 0 K) as [|k l IH]; cbn [map filter fold_right]; [reflexivity|].
    rewrite IH. destruct (is_negative _); cbn [length]; lia.
Qed.
Print Assumptions C63_fix_negative_cells.

(** *** The first loop of the reconstruction removes the momentum left by the
    protection kernel. *)
Lemma velocity_local I k : local k (omp_velocity_iteration I k).
Proof.
  unfold omp_velocity_iteration. cbv zeta. do 2 constructor.
  assert (Q : local k (if (r_velocity I =? 1)%Z
    then if Rltb (r_minimum_allowed_height I) (omp_height I k)
         then Rd (XMom, k) (fun x => Wr (XWork, k) x (modify (XMom, k) (fun x0 => x0 * (1 / omp_height I k))
           (Rd (YMom, k) (fun y => Wr (YWork, k) y (modify (YMom, k) (fun y0 => y0 * (1 / omp_height I k)) (Ret tt))))))
         else Ret tt else Ret tt)).
  { destruct (_ =? _)%Z; [|constructor]. destruct (Rltb _ _); [|constructor].
    constructor. intros x. constructor. apply local_modify. constructor. intros y. constructor. apply local_modify.
    constructor. }
  destruct (Rleb _ _); [do 4 constructor|]; exact Q.
Qed.

Theorem C63_dry_momentum_removed :
  forall bed areas K m m' e I m'',
  omp_protect (r_minimum_allowed_height I) bed areas K m m' e ->
  0 <= r_minimum_allowed_height I ->
  (forall k, (k < K)%nat -> r_stage I k = m' (Stage, k)) -> (forall k, (k < K)%nat -> r_bed I k = bed k) ->
  omp_loop K (omp_velocity_iteration I) m' m'' ->
  forall k, (k < K)%nat -> m (Stage, k) - bed k < r_minimum_allowed_height I ->
  m'' (XMom, k) = 0 /\ m'' (YMom, k) = 0 /\ m'' (XWork, k) = 0 /\ m'' (YWork, k) = 0.
Proof.
  intros bed areas K m m' e I m'' H Hm Es Eb (c & ps' & St & Fi) k Hk Hd.
  destruct (local_result K _ m' c m'' ps' (fun i _ => velocity_local I i) St Fi) as (L1 & _ & _).
  destruct (C63_protect_partial (r_minimum_allowed_height I) bed areas (fun _ => 0%Z) K m m' e H) as (_ & A & _).
  assert (Sk : m' (Stage, k) = Rmax (m (Stage, k)) (bed k)).
  { unfold protect_new in A. rewrite protect_loop_eq in A. cbn [fst] in A. rewrite !map_map in A.
    apply (f_equal (fun l => nth_error l k)) in A. rewrite !nth_error_map in A.
    assert (Hs : nth_error (seq 0 K) k = Some k).
    { rewrite nth_error_nth' with (d := 0%nat) by (rewrite seq_length; exact Hk). rewrite seq_nth by exact Hk. reflexivity. }
    rewrite Hs in A. cbn [option_map] in A. injection A as A1 _ _ _.
    destruct (protect_cell_spec (r_minimum_allowed_height I) (cell_of bed areas (fun _ => 0%Z) m k) Hm) as (_ & _ & _ & B & _).
    rewrite A1, B. reflexivity. }
  assert (D : Rleb (omp_height I k) (r_minimum_allowed_height I) = true).
  { apply Rleb_true. unfold omp_height. rewrite Es, Eb, Sk by exact Hk. unfold Rmax. repeat destruct (Rle_dec _ _); lra. }
  assert (D2 : Rltb (r_minimum_allowed_height I) (omp_height I k) = false).
  { apply Rltb_false. apply Rleb_true. exact D. }
  rewrite !L1 by exact Hk. unfold omp_velocity_iteration. cbv zeta. cbn [alone]. rewrite D, D2. cbn [alone].
  destruct (_ =? _)%Z; cbn [alone fst]; putall; auto.
Qed.
Print Assumptions C63_dry_momentum_removed.

(** ** C64 *)
Definition speed (c : friction_cell) : R := sqrt (f_uh c * f_uh c + f_vh c * f_vh c).
(** The factor [S] of the flat kernel if [abs_mom] is [a]. *)
Definition flat_rate (g eps : R) (c : friction_cell) (a : R) : R :=
  if Rltb eps (f_eta c) then
    if Rleb eps (f_w c - f_z c) then - g * f_eta c * f_eta c * a / pow73 (f_w c - f_z c) else 0
  else 0.
(** The factor of the sloped kernel if the slope term is [zs] and the bed [z]. *)
Definition sloped_rate (g eps : R) (c : friction_cell) (zs z : R) : R :=
  if Rltb eps (f_eta c) then
    if Rleb eps (f_w c - z) then - g * f_eta c * f_eta c * zs * speed c / pow73 (f_w c - z) else 0
  else 0.
Definition mean_bed (c : friction_cell) : R := let '(z0, z1, z2) := f_zv c in (z0 + z1 + z2) * (1 / 3).

(** The last part of both loop bodies. *)
Definition finish (c : friction_cell) (k : nat) (S : R) : prog loc R unit :=
  modify (XU, k) (fun v => v + S * f_uh c) (modify (YU, k) (fun v => v + S * f_vh c) (Ret tt)).

Section Friction.
Variable N : nat.
Variable cells : nat -> friction_cell.
Variable shared : loc -> Prop.
Variable ok : loc -> R -> Prop.           (* values written to the shared scalars *)
Variable good : nat -> R -> Prop.         (* possible factors *)
Hypothesis shared_not : forall l, shared l -> fst l <> XU /\ fst l <> YU.
Variable m0 : loc -> R.

(** Programs that access shared scalars and go on with [finish]; [W] holds
    of the scalars already written by the iteration. *)
Inductive pre (k : nat) : (loc -> Prop) -> prog loc R unit -> Prop :=
| pre_finish W S : good k S -> pre k W (finish (cells k) k S)
| pre_rd (W : loc -> Prop) l f : W l -> (forall v, ok l v -> pre k W (f v)) -> pre k W (Rd l f)
| pre_wr W l v p : shared l -> ok l v -> pre k (fun x => x = l \/ W x) p -> pre k W (Wr l v p).

Inductive phase (k : nat) (m : loc -> R) : prog loc R unit -> Prop :=
| ph_pre W p : pre k W p -> (forall l, W l -> shared l /\ ok l (m l)) ->
    m (XU, k) = m0 (XU, k) -> m (YU, k) = m0 (YU, k) -> phase k m p
| ph_wx S : good k S -> m (XU, k) = m0 (XU, k) -> m (YU, k) = m0 (YU, k) ->
    phase k m (Wr (XU, k) (m0 (XU, k) + S * f_uh (cells k)) (modify (YU, k) (fun v => v + S * f_vh (cells k)) (Ret tt)))
| ph_ry S : good k S -> m (XU, k) = m0 (XU, k) + S * f_uh (cells k) -> m (YU, k) = m0 (YU, k) ->
    phase k m (modify (YU, k) (fun v => v + S * f_vh (cells k)) (Ret tt))
| ph_wy S : good k S -> m (XU, k) = m0 (XU, k) + S * f_uh (cells k) -> m (YU, k) = m0 (YU, k) ->
    phase k m (Wr (YU, k) (m0 (YU, k) + S * f_vh (cells k)) (Ret tt))
| ph_end S : good k S -> m (XU, k) = m0 (XU, k) + S * f_uh (cells k) ->
    m (YU, k) = m0 (YU, k) + S * f_vh (cells k) -> phase k m (Ret tt).

(** Writes that do not concern iteration [k]. *)
Definition harmless (k : nat) (l : loc) (v : R) : Prop :=
  (shared l /\ ok l v) \/ (snd l <> k /\ (fst l = XU \/ fst l = YU)).

Lemma harmless_phase k m l v p : harmless k l v -> phase k m p -> phase k (put loc_eqb m l v) p.
Proof.
  intros H P.
  assert (X : put loc_eqb m l v (XU, k) = m (XU, k) /\ put loc_eqb m l v (YU, k) = m (YU, k)).
  { destruct H as [[H _]|[H _]]; destruct l as [a j]; cbn [fst snd] in *.
    - destruct (shared_not _ H) as [N1 N2]. cbn [fst] in *. rewrite !put_eq.
      destruct (loc_eqb_spec (XU, k) (a, j)); [congruence|]. destruct (loc_eqb_spec (YU, k) (a, j)); [congruence|]. auto.
    - rewrite !put_index by auto. auto. }
  destruct X as [X Y]. destruct P as [W p P HW A B|S G A B|S G A B|S G A B|S G A B].
  - apply (ph_pre _ _ W); auto; [|congruence|congruence].
    intros x Hx. destruct (HW x Hx) as [Sx Ox]. split; auto. rewrite put_eq. destruct (loc_eqb_spec x l) as [->|]; auto.
    destruct H as [[_ H]|[_ H]]; auto. destruct (shared_not _ Sx). tauto.
  - apply ph_wx; congruence.
  - apply ph_ry; congruence.
  - apply ph_wy; congruence.
  - apply (ph_end _ _ S); congruence.
Qed.

Lemma phase_step k s u : phase k (fst s) (snd s k) -> step loc_eqb k s u ->
  phase k (fst u) (snd u k) /\
  (fst u = fst s \/ exists l v, fst u = put loc_eqb (fst s) l v /\ forall j, j <> k -> harmless j l v).
Proof.
  intros P St. inversion St as [m ps l f Ep|m ps l v q Ep]; subst; cbn [fst snd] in *; rewrite Ep in P; rewrite upd_same.
  - split; [|auto]. inversion P as [W p Q HW A B E|S G A B E|S G A B E|S G A B E|S G A B E]; subst.
    + inversion Q as [W' S G E1 E2|W' l' f' Wl Hf E1 E2|]; subst.
      * rewrite A. apply ph_wx; auto.
      * apply (ph_pre _ _ W); auto. apply Hf. apply HW. exact Wl.
    + rewrite B. apply ph_wy; auto.
  - inversion P as [W p Q HW A B E|S G A B E|S G A B E|S G A B E|S G A B E]; subst.
    + inversion Q as [| |W' l' v' p' Sl Ol Q' E1 E2]; subst. split.
      * destruct (shared_not _ Sl) as [N1 N2]. destruct l as [a i]. cbn [fst] in *.
        apply (ph_pre _ _ (fun x => x = (a, i) \/ W x)); auto.
        -- intros x [->|Hx]; [split; auto; rewrite put_here; auto|]. destruct (HW x Hx) as [Sx Ox]. split; auto.
           rewrite put_eq. destruct (loc_eqb_spec x (a, i)) as [->|]; auto.
        -- rewrite put_eq. destruct (loc_eqb_spec (XU, k) (a, i)); [congruence|auto].
        -- rewrite put_eq. destruct (loc_eqb_spec (YU, k) (a, i)); [congruence|auto].
      * right. exists l, v. split; auto. intros j _. left. auto.
    + split; [apply ph_ry; auto; putall; auto|]. right. eexists _, _. split; [reflexivity|]. intros j Hj. right. cbn. auto.
    + split; [apply (ph_end _ _ S); auto; putall; auto|]. right. eexists _, _. split; [reflexivity|]. intros j Hj. right. cbn. auto.
Qed.

Lemma friction_any its m' : (forall k, (k < N)%nat -> pre k (fun _ => False) (its k)) ->
  omp_loop N its m0 m' ->
  forall k, (k < N)%nat -> exists S, good k S /\
    m' (XU, k) = m0 (XU, k) + S * f_uh (cells k) /\ m' (YU, k) = m0 (YU, k) + S * f_vh (cells k).
Proof.
  intros H (c & ps' & St & Fi).
  assert (Inv : forall c s, steps loc_eqb N c (m0, its) s -> forall k, (k < N)%nat -> phase k (fst s) (snd s k)).
  { clear St Fi. intros n s St. remember (m0, its) as s0 eqn:E0. induction St as [s|i n s t u St IH Hi Si]; subst.
    - intros k Hk. cbn [fst snd]. apply (ph_pre _ _ (fun _ => False)); auto. tauto.
    - specialize (IH eq_refl). intros k Hk. destruct (phase_step i t u (IH i Hi) Si) as [P Q].
      destruct (Nat.eq_dec k i) as [->|Nk]; auto.
      assert (E : snd u k = snd t k) by (inversion Si; subst; cbn [snd]; apply upd_other; auto).
      rewrite E. destruct Q as [->|(l & v & -> & Hl)]; auto. apply harmless_phase; auto. }
  intros k Hk. specialize (Inv _ _ St k Hk). cbn [fst snd] in Inv. destruct (Fi k Hk) as [a Ea]. rewrite Ea in Inv.
  inversion Inv as [W p Q HW A B E|S G A B E|S G A B E|S G A B E|S G A B E]; subst; [|eauto].
  inversion Q.
Qed.
End Friction.

(** In every interleaving the flat kernel uses, in each triangle, the momentum
    of some triangle. *)
Theorem C64_flat_any_interleaving_partial :
  forall g eps N cells m m',
  omp_loop N (omp_friction_flat_iteration g eps cells) m m' ->
  forall k, (k < N)%nat -> exists j, (j < N)%nat /\
    let S := flat_rate g eps (cells k) (speed (cells j)) in
    m' (XU, k) = m (XU, k) + S * f_uh (cells k) /\ m' (YU, k) = m (YU, k) + S * f_vh (cells k).
Proof.
  intros g eps N cells m m' H k Hk.
  destruct (friction_any N cells (fun l => l = (AbsMom, 0%nat)) (fun _ v => exists j, (j < N)%nat /\ v = speed (cells j))
    (fun k S => exists j, (j < N)%nat /\ S = flat_rate g eps (cells k) (speed (cells j)))
    ltac:(intros l ->; cbn; split; congruence) m (omp_friction_flat_iteration g eps cells) m') with (3 := Hk) as (S & (j & Hj & ->) & A & B); [|exact H|eauto].
  clear k Hk. intros k Hk. unfold omp_friction_flat_iteration. cbv zeta.
  apply pre_wr; [reflexivity|eauto|].
  destruct (Rltb eps (f_eta (cells k))) eqn:E1.
  - destruct (Rleb eps (f_w (cells k) - f_z (cells k))) eqn:E2.
    + apply pre_rd; [auto|]. intros v (j & Hj & ->). apply pre_finish. exists j. split; auto.
      unfold flat_rate. rewrite E1, E2. reflexivity.
    + apply pre_finish. exists k. split; auto. unfold flat_rate. rewrite E1, E2. reflexivity.
  - apply pre_finish. exists k. split; auto. unfold flat_rate. rewrite E1. reflexivity.
Qed.
Print Assumptions C64_flat_any_interleaving_partial.

(** Likewise the sloped kernel uses the mean bed of some triangle, and vertex
    coordinates of some triangles. *)
Theorem C64_sloped_any_interleaving_partial :
  forall g eps triangle_at N cells m m',
  (forall k, triangle_at (INR (6 * k)) = k) ->
  omp_loop N (omp_friction_sloped_iteration g eps triangle_at cells) m m' ->
  forall k, (k < N)%nat -> exists zs j, 1 <= zs /\ (j < N)%nat /\
    let S := sloped_rate g eps (cells k) zs (mean_bed (cells j)) in
    m' (XU, k) = m (XU, k) + S * f_uh (cells k) /\ m' (YU, k) = m (YU, k) + S * f_vh (cells k).
Proof.
  intros g eps tri N cells m m' Ht H k Hk.
  assert (One : forall x y, 1 <= sqrt (1 + x * x + y * y)).
  { intros x y. rewrite <- sqrt_1 at 1. apply sqrt_le_1_alt. nra. }
  destruct (friction_any N cells (fun l => l = (SharedK6, 0%nat) \/ l = (SharedZ, 0%nat))
    (fun l v => (l = (SharedK6, 0%nat) /\ exists j, (j < N)%nat /\ v = INR (6 * j)) \/
                (l = (SharedZ, 0%nat) /\ exists j, (j < N)%nat /\ v = mean_bed (cells j)))
    (fun k S => exists zs j, 1 <= zs /\ (j < N)%nat /\ S = sloped_rate g eps (cells k) zs (mean_bed (cells j)))
    ltac:(intros l [-> | ->]; cbn; split; congruence) m (omp_friction_sloped_iteration g eps tri cells) m') with (3 := Hk) as (S & (zs & j & H1 & Hj & ->) & A & B);
    [|exact H|exists zs, j; auto].
  clear k Hk. intros k Hk. unfold omp_friction_sloped_iteration. cbv zeta.
  assert (Z : mean_bed (cells k) = let '(z0, z1, z2) := f_zv (cells k) in (z0 + z1 + z2) * (1 / 3)) by reflexivity.
  destruct (f_zv (cells k)) as [[z0 z1] z2] eqn:Ez.
  apply pre_wr; [auto|left; eauto|].
  do 6 (apply pre_rd; [auto|]; intros ? _).
  destruct (Rltb eps (f_eta (cells k))) eqn:E1.
  - destruct (gradient _ _ _ _ _ _ _ _ _) as [zx zy].
    apply pre_wr; [auto| |].
    { right. split; auto. exists k. split; auto. }
    apply pre_rd; [auto|]. intros z [[E _]|[_ (j & Hj & ->)]]; [discriminate|].
    destruct (Rleb eps (f_w (cells k) - mean_bed (cells j))) eqn:E2; apply pre_finish;
      exists (sqrt (1 + zx * zx + zy * zy)), j; (split; [apply One|split; [exact Hj|]]);
      unfold sloped_rate; rewrite E1, E2; reflexivity.
  - apply pre_finish. exists 1, k. split; [lra|split; [exact Hk|]]. unfold sloped_rate. rewrite E1. reflexivity.
Qed.
Print Assumptions C64_sloped_any_interleaving_partial.

(** So friction decelerates whatever the interleaving. *)
Theorem C64_friction_decelerates :
  forall g eps triangle_at N cells m m' it,
  0 <= g -> (forall k, triangle_at (INR (6 * k)) = k) ->
  it = omp_friction_flat_iteration g eps cells \/ it = omp_friction_sloped_iteration g eps triangle_at cells ->
  omp_loop N it m m' ->
  forall k, (k < N)%nat -> exists f, 0 <= f /\
    m' (XU, k) = m (XU, k) - f * f_uh (cells k) /\ m' (YU, k) = m (YU, k) - f * f_vh (cells k).
Proof.
  intros g eps tri N cells m m' it Hg Ht Hit H k Hk.
  assert (P : forall h, 0 < / pow73 h) by (intros; apply Rinv_0_lt_compat; unfold pow73, Rpower; apply exp_pos).
  assert (Sp : forall c, 0 <= speed c) by (intros; apply sqrt_pos).
  assert (E2 : forall e, 0 <= e * e) by (intros; nra).
  destruct Hit as [-> | ->].
  - destruct (C64_flat_any_interleaving_partial _ _ _ _ _ _ H k Hk) as (j & _ & A & B).
    exists (- flat_rate g eps (cells k) (speed (cells j))). rewrite A, B.
    refine (conj _ (conj _ _)); [|ring|ring]. unfold flat_rate. destruct (Rltb _ _); [|lra]. destruct (Rleb _ _); [|lra].
    replace (- (- g * f_eta (cells k) * f_eta (cells k) * speed (cells j) / pow73 (f_w (cells k) - f_z (cells k))))
      with (g * (f_eta (cells k) * f_eta (cells k)) * speed (cells j) * / pow73 (f_w (cells k) - f_z (cells k)))
      by (unfold Rdiv; ring).
    apply Rmult_le_pos; [|left; apply P]. apply Rmult_le_pos; [|auto]. apply Rmult_le_pos; auto.
  - destruct (C64_sloped_any_interleaving_partial _ _ _ _ _ _ _ Ht H k Hk) as (zs & j & Hz & _ & A & B).
    exists (- sloped_rate g eps (cells k) zs (mean_bed (cells j))). rewrite A, B.
    refine (conj _ (conj _ _)); [|ring|ring]. unfold sloped_rate. destruct (Rltb _ _); [|lra]. destruct (Rleb _ _); [|lra].
    replace (- (- g * f_eta (cells k) * f_eta (cells k) * zs * speed (cells k) / pow73 (f_w (cells k) - mean_bed (cells j))))
      with (g * (f_eta (cells k) * f_eta (cells k)) * zs * speed (cells k) * / pow73 (f_w (cells k) - mean_bed (cells j)))
      by (unfold Rdiv; ring).
    apply Rmult_le_pos; [|left; apply P]. apply Rmult_le_pos; [|auto]. apply Rmult_le_pos; [|lra]. apply Rmult_le_pos; auto.
Qed.
Print Assumptions C64_friction_decelerates.

(** *** One thread: the loop run in order *)
Lemma sequential_cells (it : nat -> prog loc R unit) (F : nat -> R * R -> R * R) :
  (forall k m, let m' := fst (alone loc_eqb (it k) m) in
     (m' (XU, k), m' (YU, k)) = F k (m (XU, k), m (YU, k)) /\
     forall j, j <> k -> m' (XU, j) = m (XU, j) /\ m' (YU, j) = m (YU, j)) ->
  forall len a m, let m' := fst (sequential loc_eqb (map it (seq a len)) m) in
    (forall k, (a <= k < a + len)%nat -> (m' (XU, k), m' (YU, k)) = F k (m (XU, k), m (YU, k))) /\
    forall k, ~ (a <= k < a + len)%nat -> m' (XU, k) = m (XU, k) /\ m' (YU, k) = m (YU, k).
Proof.
  intros H. induction len as [|len IH]; intros a m; cbv zeta; cbn [seq map sequential].
  - split; intros k Hk; [lia|]. cbn [fst]. auto.
  - destruct (H a m) as [A B]. cbv zeta in A, B. destruct (alone loc_eqb (it a) m) as [m1 r1]. cbn [fst] in *.
    destruct (IH (S a) m1) as [C D]. cbv zeta in C, D.
    destruct (sequential loc_eqb (map it (seq (S a) len)) m1) as [m2 r2]. cbn [fst] in *. split.
    + intros k Hk. destruct (Nat.eq_dec k a) as [->|N].
      * destruct (D a ltac:(lia)) as [-> ->]. exact A.
      * rewrite C by lia. destruct (B k N) as [-> ->]. reflexivity.
    + intros k Hk. destruct (D k ltac:(lia)) as [-> ->]. apply B. lia.
Qed.

Lemma map2_seq {A B C} (f : A -> B -> C) (g : nat -> A) (h : nat -> B) l :
  map2 f (map g l) (map h l) = map (fun k => f (g k) (h k)) l.
Proof. induction l; cbn; congruence. Qed.

Lemma finish_alone c k S m : let m' := fst (alone loc_eqb (finish c k S) m) in
  m' (XU, k) = m (XU, k) + S * f_uh c /\ m' (YU, k) = m (YU, k) + S * f_vh c /\
  forall j, j <> k -> m' (XU, j) = m (XU, j) /\ m' (YU, j) = m (YU, j).
Proof.
  cbv zeta. unfold finish. rewrite !alone_modify. cbn [alone fst].
  refine (conj _ (conj _ _)); [putall; reflexivity|putall; reflexivity|]. intros j N. rewrite !put_index by auto. auto.
Qed.

Theorem C64_one_thread :
  forall (sloped : bool) g eps triangle_at N cells m,
  (forall k, triangle_at (INR (6 * k)) = k) ->
  let it := if sloped then omp_friction_sloped_iteration g eps triangle_at cells
            else omp_friction_flat_iteration g eps cells in
  let updates (m : loc -> R) := map (fun k => (m (XU, k), m (YU, k))) (seq 0 N) in
  let m' := fst (sequential loc_eqb (map it (seq 0 N)) m) in
  omp_loop N it m m' /\
  updates m' = manning_friction_implicit sloped g eps (map cells (seq 0 N)) (updates m).
Proof.
  intros sloped g eps tri N cells m Ht it updates m'. split.
  - destruct (sequential_execution _ _ _ loc_eqb N it m) as (c & ps' & S1 & S2). exists c, ps'. auto.
  - unfold updates, manning_friction_implicit. rewrite map2_seq. apply map_ext_in. intros k Hk. apply in_seq in Hk.
    refine (proj1 (sequential_cells it (fun k u => add_update (if sloped then friction_sloped_cell g eps (cells k)
      else friction_flat_cell g eps (cells k)) u) _ N 0 m) k ltac:(lia)).
    clear - Ht. intros k m. cbv zeta.
    assert (Fin : forall S d mm, (forall a, mm (XU, a) = m (XU, a) /\ mm (YU, a) = m (YU, a)) ->
      (S = 0 /\ d = None) \/ d = Some (S * f_uh (cells k), S * f_vh (cells k)) ->
      let m' := fst (alone loc_eqb (finish (cells k) k S) mm) in
      (m' (XU, k), m' (YU, k)) = add_update d (m (XU, k), m (YU, k)) /\
      forall j, j <> k -> m' (XU, j) = m (XU, j) /\ m' (YU, j) = m (YU, j)).
    { intros S d mm Hm Hd. destruct (finish_alone (cells k) k S mm) as (A & B & C). cbv zeta in *. rewrite A, B. split.
      - destruct (Hm k) as [-> ->]. destruct Hd as [[-> ->]| ->]; cbn [add_update fst snd]; f_equal; ring.
      - intros j Hj. destruct (C j Hj) as [-> ->]. apply Hm. }
    unfold it. destruct sloped.
    + unfold omp_friction_sloped_iteration, friction_sloped_cell. cbv zeta.
      destruct (f_zv (cells k)) as [[z0 z1] z2]. cbn [alone]. rewrite !put_here, !Ht.
      destruct (f_x (cells k)) as [[[x0 y0] [x1 y1]] [x2 y2]]. cbn [fst snd].
      destruct (Rltb _ _).
      * destruct (gradient _ _ _ _ _ _ _ _ _) as [zx zy]. cbn [alone]. rewrite !put_here.
        destruct (Rleb _ _); apply Fin; auto; intros a; rewrite !put_eq; cbn; auto.
      * apply Fin; auto.
    + unfold omp_friction_flat_iteration, friction_flat_cell. cbv zeta. cbn [alone].
      destruct (Rltb _ _).
      * destruct (Rleb _ _); cbn [alone]; rewrite ?put_here; apply Fin; auto.
      * apply Fin; auto.
Qed.
Print Assumptions C64_one_thread.

(** *** Two threads: the result depends on the interleaving *)
Lemma pow73_1 : pow73 1 = 1.
Proof. unfold pow73, Rpower. rewrite ln_1, Rmult_0_r. apply exp_0. Qed.

(** The triangle whose coordinates start at a given index. *)
Definition triangle_at (r : R) : nat := Z.to_nat ((up r - 1) / 6).
Lemma triangle_at_spec k : triangle_at (INR (6 * k)) = k.
Proof.
  unfold triangle_at. rewrite INR_IZR_INZ.
  replace (up (IZR (Z.of_nat (6 * k)))) with (Z.of_nat (6 * k) + 1)%Z.
  - replace (Z.of_nat (6 * k) + 1 - 1)%Z with (Z.of_nat k * 6)%Z by lia. rewrite Z.div_mul by lia. apply Nat2Z.id.
  - apply tech_up; rewrite plus_IZR; lra.
Qed.

(** A run in which iteration 0 and then iteration 1 make some accesses first,
    and then both end in turn. *)
Lemma resume n c m ps m1 ps1 : steps loc_eqb n c (m, ps) (m1, ps1) ->
  omp_loop n ps m (fst (sequential loc_eqb (map ps1 (seq 0 n)) m1)).
Proof.
  intros H. destruct (sequential_execution _ _ _ loc_eqb n ps1 m1) as (d & ps' & S1 & S2).
  exists (c + d)%nat, ps'. split; [|exact S2]. eapply steps_trans; eauto.
Qed.

Definition cell_moving : friction_cell := FrictionCell 1 0 (0, 0, 0) ((0, 0), (1, 0), (0, 1)) 1 0 1.
Definition cell_still : friction_cell := FrictionCell 1 0 (0, 0, 0) ((0, 0), (1, 0), (0, 1)) 0 0 1.
Definition cell_high : friction_cell := FrictionCell 1 1 (1, 1, 1) ((0, 0), (1, 0), (0, 1)) 0 0 1.

(** [abs_mom] is shared: a moving triangle loses its friction to a still one. *)
Theorem C64_flat_refuted :
  exists g eps N cells m m1 m2,
  omp_loop N (omp_friction_flat_iteration g eps cells) m m1 /\
  omp_loop N (omp_friction_flat_iteration g eps cells) m m2 /\
  m1 (XU, 0%nat) = -1 /\ m2 (XU, 0%nat) = 0.
Proof.
  set (cells := fun k : nat => if Nat.eqb k 0 then cell_moving else cell_still).
  set (it := omp_friction_flat_iteration 1 (1 / 2) cells).
  exists 1, (1 / 2), 2%nat, cells, (fun _ => 0).
  assert (Q1 : Rltb (1 / 2) 1 = true) by (apply Rltb_true; lra).
  assert (Q2 : Rleb (1 / 2) (1 - 0) = true) by (apply Rleb_true; lra).
  assert (H0 : exists f, it 0%nat = Wr (AbsMom, 0%nat) (sqrt (1 * 1 + 0 * 0)) (Rd (AbsMom, 0%nat) f) /\
                         forall v, f v = finish cell_moving 0 (- (1) * 1 * 1 * v / pow73 (1 - 0))).
  { eexists. unfold it, omp_friction_flat_iteration. cbn [cells Nat.eqb cell_moving f_uh f_vh f_eta f_w f_z].
    rewrite Q1, Q2. split; reflexivity. }
  assert (H1 : exists p, it 1%nat = Wr (AbsMom, 0%nat) (sqrt (0 * 0 + 0 * 0)) p).
  { eexists. reflexivity. }
  destruct H0 as (f & E0 & Ef). destruct H1 as (p & E1).
  exists (fst (sequential loc_eqb (map it (seq 0 2)) (fun _ => 0))).
  exists (fst (sequential loc_eqb (map (upd (upd it 0 (Rd (AbsMom, 0%nat) f)) 1 p) (seq 0 2))
    (put loc_eqb (put loc_eqb (fun _ => 0) (AbsMom, 0%nat) (sqrt (1 * 1 + 0 * 0))) (AbsMom, 0%nat) (sqrt (0 * 0 + 0 * 0))))).
  refine (conj _ (conj _ (conj _ _))).
  - apply (resume 2 0 _ it _ it). constructor.
  - apply (resume 2 2). apply (steps_snoc _ _ _ _ _ 1 _ _ (put loc_eqb (fun _ => 0) (AbsMom, 0%nat) (sqrt (1 * 1 + 0 * 0)), upd it 0 (Rd (AbsMom, 0%nat) f))).
    + apply (steps_snoc _ _ _ _ _ 0 _ _ (fun _ => 0, it)); [constructor|lia|]. constructor. exact E0.
    + lia.
    + constructor. rewrite upd_other by lia. exact E1.
  - destruct (C64_one_thread false 1 (1 / 2) triangle_at 2 cells (fun _ => 0) triangle_at_spec) as [_ U].
    cbv zeta in U. fold it in U.  apply (f_equal (fun l => fst (hd (0, 0) l))) in U.
    refine (eq_trans U _). unfold manning_friction_implicit. cbn [seq map map2 hd].
    unfold friction_flat_cell. cbn [cells Nat.eqb cell_moving f_uh f_vh f_eta f_w f_z].
    rewrite Q1, Q2. cbn [add_update fst snd]. rewrite Rminus_0_r, pow73_1.
    replace (1 * 1 + 0 * 0) with 1 by ring. rewrite sqrt_1. lra.
  - cbn [seq map]. rewrite upd_other, upd_same by lia. rewrite upd_same.
    cbn [sequential alone]. rewrite put_here. replace (0 * 0 + 0 * 0) with 0 by ring. rewrite sqrt_0, Ef.
    pose proof (finish_alone cell_moving 0 (- (1) * 1 * 1 * 0 / pow73 (1 - 0))
       (put loc_eqb (put loc_eqb (fun _ => 0) (AbsMom, 0%nat) (sqrt (1 * 1 + 0 * 0))) (AbsMom, 0%nat) 0)) as (F1 & _ & _).
    destruct (alone loc_eqb (finish _ _ _) _) as [mm a]. cbn [fst] in F1.
    assert (P : forall mm, fst (alone loc_eqb p mm) (XU, 0%nat) = mm (XU, 0%nat)).
    { intros mm'. pose proof (f_equal (fun q => match q with Wr _ _ q => q | q => q end) E1) as Ep. cbn in Ep. rewrite <- Ep.
      destruct (Rltb _ _); [destruct (Rleb _ _)|]; cbn [alone];
      match goal with |- fst (alone _ (modify _ (fun v => v + ?S * _) _) ?m3) _ = _ =>
        destruct (finish_alone cell_still 1 S m3) as (_ & _ & F); apply (F 0%nat); lia end. }
    specialize (P mm). destruct (alone loc_eqb p mm) as [m3 a3]. cbn [fst] in *. rewrite P, F1.
    rewrite !put_eq. cbn. lra.
Qed.
Print Assumptions C64_flat_refuted.

(** [z] is shared: a triangle with water uses the bed of a dry one. *)
Theorem C64_sloped_refuted :
  exists g eps N cells m m1 m2,
  let it := omp_friction_sloped_iteration g eps triangle_at cells in
  omp_loop N it m m1 /\ omp_loop N it m m2 /\ m1 (XU, 1%nat) = -1 /\ m2 (XU, 1%nat) = 0.
Proof.
  set (cells := fun k : nat => if Nat.eqb k 0 then cell_high else cell_moving).
  set (it := omp_friction_sloped_iteration 1 (1 / 2) triangle_at cells).
  set (m := fun _ : loc => 0).
  exists 1, (1 / 2), 2%nat, cells, m.
  assert (Q1 : Rltb (1 / 2) 1 = true) by (apply Rltb_true; lra).
  assert (Q2 : Rleb (1 / 2) (1 - (0 + 0 + 0) * (1 / 3)) = true) by (apply Rleb_true; lra).
  assert (Q3 : Rleb (1 / 2) (1 - (1 + 1 + 1) * (1 / 3)) = false) by (apply Rleb_false; lra).
  assert (G0 : gradient 0 0 1 0 0 1 0 0 0 = (0, 0)) by (unfold gradient; f_equal; field).
  assert (G1 : gradient 0 0 1 0 0 1 1 1 1 = (0, 0)) by (unfold gradient; f_equal; field).
  assert (S1 : sqrt (1 + 0 * 0 + 0 * 0) = 1) by (replace (1 + 0 * 0 + 0 * 0) with 1 by ring; apply sqrt_1).
  exists (fst (sequential loc_eqb (map it (seq 0 2)) m)).
  destruct (run_advance _ _ _ loc_eqb 2 1 8 (it 1%nat) m it ltac:(lia) eq_refl) as (c & ps1 & St & E1 & E0).
  exists (fst (sequential loc_eqb (map ps1 (seq 0 2)) (fst (advance loc_eqb 8 (it 1%nat) m)))). cbv zeta.
  refine (conj _ (conj _ (conj _ _))).
  - apply (resume 2 0 _ it _ it). constructor.
  - apply (resume 2 c). exact St.
  - destruct (C64_one_thread true 1 (1 / 2) triangle_at 2 cells m triangle_at_spec) as [_ U].
    cbv zeta in U. fold it in U. apply (f_equal (fun l => fst (nth 1 l (0, 0)))) in U.
    refine (eq_trans U _). unfold manning_friction_implicit. cbn [seq map map2 nth].
    unfold friction_sloped_cell. cbn [cells Nat.eqb cell_moving f_uh f_vh f_eta f_w f_zv f_x].
    rewrite Q1, G0, Q2. cbn [add_update fst snd]. replace (1 - (0 + 0 + 0) * (1 / 3)) with 1 by field. rewrite pow73_1, S1.
    replace (1 * 1 + 0 * 0) with 1 by ring. rewrite sqrt_1. unfold m. lra.
  - cbn [seq map]. rewrite E1, (E0 0%nat) by lia.
    assert (A : exists mm f, advance loc_eqb 8 (it 1%nat) m = (mm, Rd (SharedZ, 0%nat) f) /\ mm (XU, 1%nat) = 0 /\
       f ((1 + 1 + 1) * (1 / 3)) = finish cell_moving 1 0).
    { unfold it, omp_friction_sloped_iteration. cbn [cells Nat.eqb cell_moving f_zv f_x f_uh f_vh f_eta f_w].
      cbn [advance]. rewrite !put_here, !triangle_at_spec. cbn [cells Nat.eqb cell_moving f_zv f_x f_uh f_vh f_eta f_w fst snd].
      rewrite Q1, G0. eexists _, _. refine (conj eq_refl (conj _ _)); [reflexivity|]. cbv beta. rewrite Q3. reflexivity. }
    destruct A as (mm & f & -> & A1 & A2). cbn [fst snd sequential].
    assert (B : fst (alone loc_eqb (it 0%nat) mm) (XU, 1%nat) = 0 /\
                fst (alone loc_eqb (it 0%nat) mm) (SharedZ, 0%nat) = (1 + 1 + 1) * (1 / 3)).
    { unfold it, omp_friction_sloped_iteration. cbn [cells Nat.eqb cell_high f_zv f_x f_uh f_vh f_eta f_w alone].
      rewrite !put_here, !triangle_at_spec. cbn [cells Nat.eqb cell_high f_zv f_x f_uh f_vh f_eta f_w fst snd].
      rewrite Q1, G1. cbn [alone]. rewrite put_here, Q3. rewrite !alone_modify. cbn [alone fst].
      rewrite !put_eq. cbn. auto. }
    destruct (alone loc_eqb (it 0%nat) mm) as [m3 a3]. cbn [fst] in B. destruct B as [B1 B2].
    cbn [alone]. rewrite B2, A2. destruct (finish_alone cell_moving 1 0 m3) as (F & _ & _).
    destruct (alone loc_eqb (finish cell_moving 1 0) m3) as [m4 a4]. cbn [fst] in *. rewrite F, B1. lra.
Qed.
Print Assumptions C64_sloped_refuted.

(** Every call has executions. *)
Theorem C63_calls_end :
  forall mah bed areas full K m,
  (exists m' e, omp_protect mah bed areas K m m' e) /\
  (exists m' n, omp_fix_negative_cells bed full K m m' n) /\
  (forall it, exists m', omp_loop K it m m').
Proof.
  intros mah bed areas full K m. refine (conj _ (conj _ _)).
  - destruct (sequential_execution _ _ _ loc_eqb K (omp_protect_iteration mah bed areas) m) as (c & ps' & S1 & S2).
    eexists _, _, c, ps', [flat_map (fun k => result_of [] (ps' k)) (seq 0 K)].
    refine (conj S1 (conj S2 (conj _ eq_refl))). cbn [concat]. rewrite app_nil_r. reflexivity.
  - destruct (sequential_execution _ _ _ loc_eqb K (omp_fix_negative_iteration bed full) m) as (c & ps' & S1 & S2).
    eexists _, _, c, ps', [map (fun k => result_of 0%Z (ps' k)) (seq 0 K)].
    refine (conj S1 (conj S2 (conj _ eq_refl))). cbn [concat]. rewrite app_nil_r. reflexivity.
  - intros it. destruct (sequential_execution _ _ _ loc_eqb K it m) as (c & ps' & S1 & S2). eexists. exists c, ps'. eauto.
Qed.
Print Assumptions C63_calls_end.

(** A negative cell is raised to the bed. *)
Example C63_fix_negative_example :
  exists m m' n, omp_fix_negative_cells (fun _ => 1) (fun _ => 1%Z) 2 m m' n /\
  m (Stage, 0%nat) < 1 /\ m' (Stage, 0%nat) = 1 /\ m' (YMom, 0%nat) = 0 /\ m (YMom, 0%nat) = 5 /\ n = 1%Z.
Proof.
  set (m := fun l : loc => if loc_eqb l (YMom, 0%nat) then 5 else if loc_eqb l (Stage, 1%nat) then 2 else 0).
  destruct (C63_calls_end 1 (fun _ => 1) (fun _ => 1) (fun _ => 1%Z) 2 m) as (_ & (m' & n & H) & _).
  exists m, m', n. pose proof (C63_fix_negative_cells _ (fun _ => 1) _ _ _ _ _ H) as [A B]. cbv zeta in A, B.
  unfold fix_negative_cells in A, B. cbn [seq map fix_negative_loop] in A, B.
  assert (S0 : m (Stage, 0%nat) = 0) by reflexivity. assert (S1 : m (Stage, 1%nat) = 2) by reflexivity.
  assert (F0 : fix_negative_cell (cell_of (fun _ => 1) (fun _ => 1) (fun _ => 1%Z) m 0) =
    (Cell 1 1 0 0 1 1%Z (0, 0, 0), 1%Z)).
  { unfold fix_negative_cell, cell_of. cbn [c_stage c_bed c_full c_area c_wv]. rewrite S0.
    rewrite (proj2 (Rltb_true (0 - 1) 0)) by lra. reflexivity. }
  assert (F1 : fix_negative_cell (cell_of (fun _ => 1) (fun _ => 1) (fun _ => 1%Z) m 1) =
    (cell_of (fun _ => 1) (fun _ => 1) (fun _ => 1%Z) m 1, 0%Z)).
  { unfold fix_negative_cell. cbn [cell_of c_stage c_bed c_full c_area c_wv]. rewrite S1.
    rewrite (proj2 (Rltb_false (2 - 1) 0)) by lra. reflexivity. }
  rewrite F0, F1 in A, B. cbn [fst snd] in A, B. injection A as A1 A2 A3 _ _.
  refine (conj H (conj _ (conj A1 (conj A3 (conj eq_refl _))))); [rewrite S0; lra|exact B].
Qed.
