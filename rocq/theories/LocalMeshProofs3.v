(** Lemmas about [LocalMeshModel]: the part of one process. *)
From Coq Require Import List ZArith Arith Lia Bool Permutation Sorted.
From Verif Require Import NeighbourModel NeighbourProofs NeighbourProps DistributeModel DistributeProofs DistributeProofs2
  DistributeProps LocalMeshModel LocalMeshProofs LocalMeshProofs2.
Import ListNotations.

(** The rows [ids] of the array [a]. *)
Definition rows_of {A} (a : list A) (ids : list Z) (l : list A) : Prop :=
  Forall2 (fun i x => nth_error a (Z.to_nat i) = Some x) ids l.
Lemma take_rows {A} (a : list A) (ids : list Z) :
  (forall i, In i ids -> (0 <= i < Z.of_nat (length a))%Z) -> exists l, take a ids = Some l /\ rows_of a ids l.
Proof.
  unfold take, rows_of. induction ids as [|i ids IH]; intros H; cbn [map osequence].
  - exists []. split; [reflexivity|constructor].
  - destruct IH as (l & E & F). { intros j Hj. apply H. right. exact Hj. }
    specialize (H i (or_introl eq_refl)).
    destruct (nth_error a (Z.to_nat i)) as [x|] eqn:X; [|apply nth_error_None in X; lia].
    exists (x :: l). replace i with (Z.of_nat (Z.to_nat i)) at 1 by lia.
    rewrite zget_nat by lia. rewrite X, E. split; [reflexivity|]. constructor; assumption.
Qed.
Lemma slice_rows {A} (a : list A) (lo hi : Z) : (0 <= lo)%Z -> (lo <= hi)%Z -> (hi <= Z.of_nat (length a))%Z ->
  rows_of a (arange lo hi) (slice a lo hi).
Proof.
  intros H0 H1 H2. destruct a as [|d a'].
  - cbn [length] in H2. replace lo with 0%Z by lia. replace hi with 0%Z by lia. constructor.
  - rewrite (slice_arange (d :: a') lo hi d) by assumption. unfold rows_of.
    assert (F : forall l, (forall i, In i l -> (0 <= i < Z.of_nat (length (d :: a')))%Z) ->
      Forall2 (fun i x => nth_error (d :: a') (Z.to_nat i) = Some x) l (map (fun i => nth (Z.to_nat i) (d :: a') d) l)).
    { induction l as [|i l IH]; intros H; cbn [map]; constructor.
      - apply nth_error_nth'. specialize (H i (or_introl eq_refl)). lia.
      - apply IH. intros j Hj. apply H. right. exact Hj. }
    apply F. intros i Hi. apply arange_In in Hi. lia.
Qed.
Lemma rows_of_nth {A} (a : list A) ids l : rows_of a ids l -> length l = length ids /\
  forall j i, nth_error ids j = Some i -> nth_error l j = nth_error a (Z.to_nat i).
Proof.
  induction 1 as [|i x ids l H F [L IH]]; split.
  - reflexivity.
  - intros [|j] i H; discriminate.
  - cbn. rewrite L. reflexivity.
  - intros [|j] k Hk; cbn in Hk |- *; [injection Hk as <-; symmetry; exact H|]. apply IH. exact Hk.
Qed.
Lemma rows_of_app {A} (a : list A) i1 l1 i2 l2 : rows_of a i1 l1 -> rows_of a i2 l2 -> rows_of a (i1 ++ i2) (l1 ++ l2).
Proof. intros H1 H2. unfold rows_of. apply Forall2_app; assumption. Qed.
Lemma combine_fst {A B} (l : list A) (m : list B) : length l = length m -> map fst (combine l m) = l /\ map snd (combine l m) = m.
Proof.
  revert m. induction l as [|x l IH]; intros [|y m] H; try discriminate; [split; reflexivity|].
  cbn. destruct (IH m) as [-> ->]; [injection H; auto|]. split; reflexivity.
Qed.
Lemma rows_of_map {A} (a : list A) d ids l : rows_of a ids l -> l = map (fun i => nth (Z.to_nat i) a d) ids.
Proof.
  induction 1 as [|i x ids l H F IH]; [reflexivity|]. cbn [map]. rewrite <- IH. f_equal.
  symmetry. apply nth_error_nth. exact H.
Qed.

Lemma zflat_In l x : In x (zflat l) <-> exists t v, In t l /\ v < 3 /\ x = Z.of_nat (node t v).
Proof.
  unfold zflat. rewrite in_flat_map. split.
  - intros ([[a b] c] & H & Hx). cbn in Hx. destruct Hx as [<-|[<-|[<-|[]]]].
    + exists (a, b, c), 0. split; [exact H|]. split; [lia|reflexivity].
    + exists (a, b, c), 1. split; [exact H|]. split; [lia|reflexivity].
    + exists (a, b, c), 2. split; [exact H|]. split; [lia|reflexivity].
  - intros ([[a b] c] & v & H & Hv & ->). exists (a, b, c). split; [exact H|].
    destruct v as [|[|[|v]]]; cbn; auto.
Qed.

Lemma NoDup_app_intro {A} (a b : list A) : NoDup a -> NoDup b -> (forall x, In x a -> In x b -> False) -> NoDup (a ++ b).
Proof.
  induction 1 as [|x a Hx Ha IH]; intros Hb D; [exact Hb|]. cbn [app]. constructor.
  - rewrite in_app_iff. intros [I|I]; [exact (Hx I)|]. apply (D x); [left; reflexivity|exact I].
  - apply IH; [exact Hb|]. intros y Hy. apply D. right. exact Hy.
Qed.
Lemma NoDup_map_inj {A B} (f : A -> B) l : NoDup l -> (forall x y, In x l -> In y l -> f x = f y -> x = y) -> NoDup (map f l).
Proof.
  induction 1 as [|x l Hx Hl IH]; intros I; cbn [map]; constructor.
  - intros H. apply in_map_iff in H as (y & E & Hy). apply I in E; [|right; exact Hy|left; reflexivity].
    subst y. exact (Hx Hy).
  - apply IH. intros y z Hy Hz. apply I; right; assumption.
Qed.
Lemma lookup_map {V} (g : nat * nat -> nat * nat) (b : list ((nat * nat) * V)) k :
  (forall k', In k' (map fst b) -> g k' = g k -> k' = k) ->
  lookup (map (fun e => (g (fst e), snd e)) b) (g k) = lookup b k.
Proof.
  induction b as [|[k' v] b IH]; intros H; [reflexivity|]. cbn [map lookup fst snd].
  destruct (key_eqb_spec (g k') (g k)) as [E|N], (key_eqb_spec k' k) as [E'|N']; try reflexivity.
  - exfalso. apply N', H; [left; reflexivity|exact E].
  - subst. congruence.
  - apply IH. intros k2 Hk2. apply H. right. exact Hk2.
Qed.

(** tri_map is -1 outside the part. *)
Lemma tri_map_out lo hi ghosts x : ~ (lo <= x < hi)%Z -> ~ In x ghosts -> tri_map lo hi ghosts x = (-1)%Z.
Proof.
  intros H1 H2. unfold tri_map.
  etransitivity; [apply (override_map Z.eqb (fun ig : nat * Z => (snd ig, (Z.of_nat (fst ig) + hi - lo)%Z)))|].
  destruct (override_spec Z.eqb Z.eqb_eq (map (fun ig : nat * Z => (snd ig, (Z.of_nat (fst ig) + hi - lo)%Z))
              (combine (seq 0 (length ghosts)) ghosts))
              (fun x => if (lo <=? x)%Z && (x <? hi)%Z then (x - lo)%Z else (-1)%Z) x) as [_ B].
  rewrite B.
  - destruct (Z.leb_spec lo x), (Z.ltb_spec x hi); cbn [andb]; try reflexivity. exfalso. lia.
  - rewrite map_map. cbn [fst]. rewrite combine_seq_keys. exact H2.
Qed.

Section Cell.
Context {P Q : Type}.
Variable nodes : list P.
Variable ts : list tri.
Variable rows brows : list row.
Variable bd : bdict.
Variable ghost_tag default : nat.
Variable qs : list (nat * list Q).
Variable tpp : list nat.
Variable w p : nat.
Let n := length ts.

Hypothesis Hrows : build_neighbour_structure ts = Some rows.
(** After the boundary segments have been numbered. *)
Hypothesis Hbrows : forall k i, k < n -> i < 3 ->
  ((0 <= nb rows k i)%Z -> nb brows k i = nb rows k i) /\ ((nb rows k i < 0)%Z -> (nb brows k i < 0)%Z).
Hypothesis NDbd : NoDup (map fst bd).
Hypothesis Hbd : forall k i, In (k, i) (map fst bd) <-> k < n /\ i < 3 /\ (nb rows k i < 0)%Z.
Hypothesis Hnodes : forall t v, In t ts -> node t v < length nodes.
Hypothesis Hqs : forall q, In q qs -> length (snd q) = n.
Hypothesis NDqs : NoDup (map fst qs).
Hypothesis Htpp : total tpp = Z.of_nat n.
Hypothesis Hp : p < length tpp.

Let lo := fst (rng tpp p).
Let hi := snd (rng tpp p).
Let G := ghosts_of (mesh_neighbours brows) tpp w p.
Let U := arange lo hi ++ G.
Let UN := map Z.to_nat U.

Lemma nb_in_range k i : k < n -> i < 3 -> (nb rows k i < Z.of_nat n)%Z.
Proof.
  intros Hk Hi. destruct (Z.lt_ge_cases (nb rows k i) 0) as [|H]; [lia|].
  set (t := nth k ts d3).
  assert (E : nth_error ts k = Some t) by (apply nth_error_nth'; exact Hk).
  assert (He : has_edge ts k i (node t (match i with 0 => 1 | 1 => 2 | _ => 0 end)) (node t (match i with 0 => 2 | 1 => 0 | _ => 1 end)))
    by (apply has_edge_node; exists t; auto).
  destruct (C06_boundary_iff_no_opposite_edge ts rows k i _ _ Hrows He) as [_ B].
  destruct (B H) as (l & j & N). pose proof N as [-> _].
  apply (C06_neighbour_is_opposite_edge ts rows k i _ _ Hrows He) in N.
  apply has_edge_node in N as (t' & N & _). assert (l < length ts) by (apply nth_error_Some; congruence). unfold n. lia.
Qed.
Lemma neigh_range t m : (0 <= t < total tpp)%Z -> In m (mesh_neighbours brows t) -> (m < total tpp)%Z.
Proof.
  rewrite Htpp. intros Ht Hm. unfold mesh_neighbours in Hm. apply in_map_iff in Hm as (i & <- & Hi).
  assert (Hi3 : i < 3) by (cbn in Hi; lia).
  assert (Hk : Z.to_nat t < n) by lia.
  destruct (Hbrows _ i Hk Hi3) as [A B]. pose proof (nb_in_range _ i Hk Hi3).
  destruct (Z.lt_ge_cases (nb rows (Z.to_nat t) i) 0) as [L|L].
  - specialize (B L). lia.
  - rewrite (A L). assumption.
Qed.

Lemma rng_ok : (0 <= lo)%Z /\ (lo <= hi)%Z /\ (hi <= Z.of_nat n)%Z.
Proof. destruct (rng_bounds tpp p Hp) as (A & B & C & _). fold lo hi in A, B, C. rewrite Htpp in C. auto. Qed.
Lemma G_ok g : In g G -> (0 <= g < Z.of_nat n)%Z /\ ~ (lo <= g < hi)%Z.
Proof.
  intros H. destruct (ghost_spec (mesh_neighbours brows) tpp w neigh_range p g Hp H) as (A & B & _).
  rewrite Htpp in A. split; [exact A|exact B].
Qed.
Lemma G_NoDup : NoDup G.
Proof. apply sorted_NoDup, ghosts_sorted. Qed.
Lemma U_ok x : In x U -> (0 <= x < Z.of_nat n)%Z.
Proof.
  unfold U. rewrite in_app_iff, arange_In. pose proof rng_ok. intros [H1|H1]; [lia|]. apply G_ok, H1.
Qed.
Lemma U_NoDup : NoDup U.
Proof.
  apply NoDup_app_intro; [apply sorted_NoDup, arange_sorted|apply G_NoDup|].
  intros x H1 H2. apply arange_In in H1. apply G_ok in H2. tauto.
Qed.
Lemma UN_In k : In k UN <-> In (Z.of_nat k) U.
Proof.
  unfold UN. rewrite in_map_iff. split.
  - intros (x & <- & H). rewrite Z2Nat.id; [exact H|]. apply U_ok in H. lia.
  - intros H. exists (Z.of_nat k). split; [apply Nat2Z.id|exact H].
Qed.
Lemma UN_ok k : In k UN -> k < length ts.
Proof. rewrite UN_In. intros H. apply U_ok in H. unfold n in H. lia. Qed.
Lemma UN_NoDup : NoDup UN.
Proof.
  apply NoDup_map_inj; [apply U_NoDup|]. intros x y Hx Hy E. apply U_ok in Hx, Hy. lia.
Qed.
Lemma UN_nth j k : nth_error UN j = Some k <-> nth_error U j = Some (Z.of_nat k).
Proof.
  unfold UN. rewrite nth_error_map. destruct (nth_error U j) as [x|] eqn:E; cbn [option_map]; [|split; discriminate].
  apply nth_error_In in E. apply U_ok in E. split; intros H; injection H as H; f_equal; lia.
Qed.

(** The local number of a triangle. *)
Let tm := tri_map lo hi G.
Lemma tm_pos j k : nth_error UN j = Some k -> tm (Z.of_nat k) = Z.of_nat j /\
  tget (tri_map_len hi G) tm (Z.of_nat k) = Some (Z.of_nat j).
Proof.
  intros H. apply UN_nth in H. pose proof rng_ok as (R0 & R1 & R2).
  assert (Gout : forall g, In g G -> (0 <= g)%Z /\ ~ (lo <= g < hi)%Z) by (intros g Hg; apply G_ok in Hg; split; [lia|tauto]).
  assert (Hin : (lo <= Z.of_nat k < hi)%Z \/ In (Z.of_nat k) G).
  { apply nth_error_In in H. unfold U in H. rewrite in_app_iff, arange_In in H. exact H. }
  destruct (local_position lo hi G (conj R0 R1) G_NoDup Gout (Z.of_nat k) Hin) as [A B].
  assert (E : tri_map lo hi G (Z.of_nat k) = Z.of_nat j).
  { assert (J : Z.to_nat (tri_map lo hi G (Z.of_nat k)) = j).
    { apply (proj1 (NoDup_nth_error U) U_NoDup); [apply nth_error_Some; unfold U; rewrite B; discriminate|].
      unfold U in *. rewrite B, H. reflexivity. }
    lia. }
  unfold tm. split; [exact E|]. rewrite <- E. apply tget_ok; [split; assumption|assumption|assumption].
Qed.

(** ** Nodes *)
Let full_ids := full_node_ids ts lo hi.
Let tri_at := fun k => nth k ts d3.
Lemma slice_tri : slice ts lo hi = map (fun i => tri_at (Z.to_nat i)) (arange lo hi).
Proof. destruct rng_ok as (A & B & C). apply slice_arange; [exact A|unfold n in C; exact C]. Qed.

Let gts := combine G (map (fun i => tri_at (Z.to_nat i)) G).
Lemma gts_run : ghost_triangles ts G = Some gts.
Proof.
  unfold ghost_triangles. rewrite (take_spec ts G d3); [reflexivity|]. intros i Hi. apply G_ok in Hi. unfold n in Hi. lia.
Qed.
Lemma gts_parts : map fst gts = G /\ map snd gts = map (fun i => tri_at (Z.to_nat i)) G.
Proof. apply combine_fst. rewrite map_length. reflexivity. Qed.

Let ids := full_ids ++ ghost_node_ids full_ids gts.
Lemma ids_In x : In x ids <-> exists k v, In k UN /\ v < 3 /\ x = Z.of_nat (node (tri_at k) v).
Proof.
  unfold ids, ghost_node_ids. rewrite in_app_iff, setdiff_In. unfold full_ids at 1 2, full_node_ids. rewrite !unique_In.
  rewrite (proj2 gts_parts), slice_tri, !zflat_In.
  assert (UNsplit : forall k, In k UN <-> (exists i, In i (arange lo hi) /\ Z.to_nat i = k) \/ (exists i, In i G /\ Z.to_nat i = k)).
  { intros k. unfold UN, U. rewrite map_app, in_app_iff, !in_map_iff. split; intros [(i & A & B)|(i & A & B)]; eauto. }
  split.
  - intros [(t & v & Ht & Hv & ->)|[(t & v & Ht & Hv & ->) _]]; apply in_map_iff in Ht as (i & <- & Hi);
      exists (Z.to_nat i), v; (split; [|auto]); apply UNsplit; eauto.
  - intros (k & v & Hk & Hv & ->). apply UNsplit in Hk as [(i & Hi & <-)|(i & Hi & <-)].
    + left. exists (tri_at (Z.to_nat i)), v. split; [|auto]. apply in_map_iff. eauto.
    + destruct (in_dec Z.eq_dec (Z.of_nat (node (tri_at (Z.to_nat i)) v)) full_ids) as [I|I].
      * left. unfold full_ids, full_node_ids in I. rewrite unique_In, slice_tri, zflat_In in I. exact I.
      * right. split; [|intros X; apply I; unfold full_ids, full_node_ids; rewrite unique_In, slice_tri, zflat_In; exact X]. exists (tri_at (Z.to_nat i)), v. split; [|auto]. apply in_map_iff. eauto.
Qed.
Lemma ids_NoDup : NoDup ids.
Proof.
  apply NoDup_app_intro.
  - apply sorted_NoDup, unique_sorted.
  - apply NoDup_filter, sorted_NoDup, unique_sorted.
  - intros x H1 H2. apply setdiff_In in H2. tauto.
Qed.
Lemma tri_at_In k : k < length ts -> In (tri_at k) ts.
Proof. intros H. apply nth_In. exact H. Qed.
Lemma ids_ok x : In x ids -> (0 <= x < Z.of_nat (length nodes))%Z.
Proof.
  rewrite ids_In. intros (k & v & Hk & Hv & ->). pose proof (Hnodes (tri_at k) v (tri_at_In k (UN_ok k Hk))). lia.
Qed.

(** The new number of a node. *)
Let f (m : nat) : nat := Z.to_nat (node_map ids (Z.of_nat m)).
Lemma f_spec k v : In k UN -> v < 3 ->
  nth_error ids (f (node (tri_at k) v)) = Some (Z.of_nat (node (tri_at k) v)) /\
  tget (node_map_len ids) (node_map ids) (Z.of_nat (node (tri_at k) v)) = Some (Z.of_nat (f (node (tri_at k) v))).
Proof.
  intros Hk Hv.
  assert (Hin : In (Z.of_nat (node (tri_at k) v)) ids) by (apply ids_In; eauto).
  pose proof Hin as Hi. apply In_nth_error in Hi as [i Hi].
  unfold f. rewrite (node_map_in ids i _ ids_NoDup Hi), Nat2Z.id. split; [exact Hi|].
  unfold tget. rewrite (node_map_in ids i _ ids_NoDup Hi).
  pose proof (node_map_len_gt ids _ Hin).
  destruct (Z.leb_spec 0 (Z.of_nat (node (tri_at k) v))); [|lia].
  destruct (Z.ltb_spec (Z.of_nat (node (tri_at k) v)) (node_map_len ids)); [reflexivity|lia].
Qed.
Lemma node3 t v : exists u, u < 3 /\ node t v = node t u.
Proof.
  destruct t as [[a b] c], v as [|[|v]]; [exists 0|exists 1|exists 2]; (split; [lia|reflexivity]).
Qed.
Lemma f_injective k l u v : In k UN -> In l UN ->
  f (node (nth k ts d3) u) = f (node (nth l ts d3) v) -> node (nth k ts d3) u = node (nth l ts d3) v.
Proof.
  intros Hk Hl E. destruct (node3 (nth k ts d3) u) as (u' & Hu & Eu). destruct (node3 (nth l ts d3) v) as (v' & Hv & Ev).
  rewrite Eu, Ev in *. destruct (f_spec k u' Hk Hu) as [A _]. destruct (f_spec l v' Hl Hv) as [B _].
  unfold tri_at in A, B. rewrite E in A. rewrite A in B. injection B. lia.
Qed.

Let lts := map (fun k => rename f (tri_at k)) UN.

(** ** Boundary *)
Let fb := full_boundary bd lo hi.
Let gb := ghost_boundary bd brows ghost_tag G lo hi.

Lemma fb_lookup k i : lookup fb (k, i) =
  if (lo <=? Z.of_nat k)%Z && (Z.of_nat k <? hi)%Z then lookup bd (k, i) else None.
Proof.
  unfold fb, full_boundary. clear NDbd Hbd. induction bd as [|[[k' i'] t] b IH]; cbn [filter lookup fst snd].
  - destruct (_ && _); reflexivity.
  - destruct ((lo <=? Z.of_nat k')%Z && (Z.of_nat k' <? hi)%Z) eqn:E; cbn [lookup].
    + destruct (key_eqb_spec (k', i') (k, i)) as [X|X]; [|exact IH]. injection X as -> ->. rewrite E. reflexivity.
    + rewrite IH. destruct (key_eqb_spec (k', i') (k, i)) as [X|X]; [|reflexivity]. injection X as -> ->. rewrite E. reflexivity.
Qed.
Lemma fb_NoDup : NoDup (map fst fb).
Proof.
  unfold fb, full_boundary. clear Hbd. induction bd as [|e b IH]; [constructor|]. cbn [map] in NDbd. inversion NDbd; subst.
  cbn [filter]. destruct (_ && _); [|apply IH; assumption]. cbn [map]. constructor; [|apply IH; assumption].
  intros I. apply H1. apply in_map_iff in I as (x & <- & Hx). apply filter_In in Hx. apply in_map. tauto.
Qed.

(** The edges of ghosts that lead out of the part. *)
Definition open (k i : nat) : bool :=
  zmem (Z.of_nat k) G && Nat.ltb i 3 && negb (zmem (nb brows k i) U).
Lemma gb_spec : NoDup (map fst gb) /\ forall k i, lookup gb (k, i) =
  if open k i then Some (match lookup bd (k, i) with Some t => t | None => ghost_tag end) else None.
Proof.
  unfold gb, ghost_boundary.
  set (keys := flat_map (fun i => map (fun g => (Z.to_nat g, i)) (open_ghosts brows G lo hi i)) [0; 1; 2]).
  assert (Og : forall i g, In g (open_ghosts brows G lo hi i) <-> In g G /\ ~ In (nb brows (Z.to_nat g) i) U).
  { intros i g. unfold open_ghosts. rewrite !filter_In, negb_true_iff, zmem_false, orb_true_iff, Z.ltb_lt, Z.leb_le.
    unfold U. rewrite in_app_iff, arange_In. split.
    - intros [[A B] C]. split; [exact A|]. intros [D|D]; [lia|exact (C D)].
    - intros [A B]. split; [split; [exact A|]|].
      + destruct (Z.lt_ge_cases (nb brows (Z.to_nat g) i) lo); [left; assumption|].
        destruct (Z.lt_ge_cases (nb brows (Z.to_nat g) i) hi); [|right; assumption]. exfalso. apply B. left. lia.
      + intros C. apply B. right. exact C. }
  assert (Keys : forall k i, In (k, i) keys <-> open k i = true).
  { intros k i. unfold keys, open. rewrite in_flat_map, !andb_true_iff, zmem_In, Nat.ltb_lt, negb_true_iff, zmem_false. split.
    - intros (i' & Hi & H). apply in_map_iff in H as (g & E & Hg). injection E as <- <-. apply Og in Hg as [A B].
      rewrite Z2Nat.id by (apply G_ok in A; lia). split; [split; [exact A|]|exact B]. cbn in Hi. lia.
    - intros [[A Hi] B]. exists i. split; [cbn; lia|]. apply in_map_iff. exists (Z.of_nat k). rewrite Nat2Z.id. split; [reflexivity|].
      apply Og. rewrite Nat2Z.id. split; assumption. }
  assert (D : forall ks d, NoDup (map fst d) -> let r := fold_left (fun d k => dset key_eqb d k ghost_tag) ks d in
    NoDup (map fst r) /\ (forall q, In q (map fst r) <-> In q ks \/ In q (map fst d)) /\
    ((forall q v, lookup d q = Some v -> v = ghost_tag) -> forall q v, lookup r q = Some v -> v = ghost_tag)).
  { induction ks as [|k ks IH]; intros d ND; cbv zeta; cbn [fold_left].
    - split; [exact ND|]. split; [intros q; cbn; tauto|auto].
    - destruct (IH (dset key_eqb d k ghost_tag)) as (A & B & C); [apply dset_NoDup; [exact key_eqb_iff|exact ND]|].
      split; [exact A|]. split.
      + intros q. rewrite B, (dset_In_keys key_eqb key_eqb_iff). cbn. intuition.
      + intros H. apply C. intros q v. rewrite lookup_dset. destruct (key_eqb k q); [congruence|apply H]. }
  destruct (D keys []) as (A & B & C); [constructor|]. cbv zeta in A, B, C.
  set (sub := fold_left (fun d k => dset key_eqb d k ghost_tag) keys []) in *.
  assert (MF : map fst (map (fun e => match lookup bd (fst e) with Some t => (fst e, t) | None => e end) sub) = map fst sub).
  { rewrite map_map. apply map_ext. intros e. destruct (lookup bd (fst e)); reflexivity. }
  split; [rewrite MF; exact A|].
  intros k i.
  assert (Lm : forall (s : bdict) q, lookup (map (fun e => match lookup bd (fst e) with Some t => (fst e, t) | None => e end) s) q
    = match lookup s q with Some v => Some (match lookup bd q with Some t => t | None => v end) | None => None end).
  { induction s as [|[k' v] s IH]; intros q; [reflexivity|]. cbn [map lookup fst].
    destruct (lookup bd k') as [t|] eqn:E; cbn [lookup]; destruct (key_eqb_spec k' q) as [->|]; try apply IH; rewrite E; reflexivity. }
  rewrite Lm. destruct (open k i) eqn:O.
  - apply Keys in O. destruct (lookup sub (k, i)) as [v|] eqn:E.
    + rewrite (C ltac:(discriminate) _ _ E). reflexivity.
    + apply lookup_None in E. exfalso. apply E, B. left. exact O.
  - destruct (lookup sub (k, i)) as [v|] eqn:E; [|reflexivity]. apply lookup_Some_In in E. apply B in E as [E|[]].
    apply Keys in E. congruence.
Qed.
Let boundaries := fb ++ gb.
Lemma fb_keys k i : In (k, i) (map fst fb) -> (lo <= Z.of_nat k < hi)%Z /\ In (k, i) (map fst bd).
Proof.
  intros H. unfold fb, full_boundary in H. apply in_map_iff in H as (e & E & H). apply filter_In in H as [H C].
  apply andb_true_iff in C as [C1 C2]. apply Z.leb_le in C1. apply Z.ltb_lt in C2. rewrite E in C1, C2. cbn [fst] in C1, C2.
  split; [lia|]. rewrite <- E. apply in_map. exact H.
Qed.
Lemma gb_keys k i : In (k, i) (map fst gb) -> In (Z.of_nat k) G /\ i < 3.
Proof.
  intros H. destruct gb_spec as [_ L].
  destruct (lookup gb (k, i)) as [v|] eqn:E; [|apply lookup_None in E; contradiction].
  rewrite L in E. destruct (open k i) eqn:O; [|discriminate]. unfold open in O.
  apply andb_true_iff in O as [O _]. apply andb_true_iff in O as [O1 O2]. split; [apply zmem_In, O1|apply Nat.ltb_lt, O2].
Qed.
Lemma boundaries_NoDup : NoDup (map fst boundaries).
Proof.
  unfold boundaries. rewrite map_app. apply NoDup_app_intro; [apply fb_NoDup|apply gb_spec|].
  intros [k i] H1 H2. apply fb_keys in H1 as [H1 _]. apply gb_keys in H2 as [H2 _]. apply G_ok in H2. tauto.
Qed.
Lemma boundaries_keys k i : In (k, i) (map fst boundaries) -> In k UN /\ i < 3.
Proof.
  unfold boundaries. rewrite map_app, in_app_iff. rewrite UN_In. unfold U. rewrite in_app_iff, arange_In. intros [H|H].
  - apply fb_keys in H as [H1 H2]. apply Hbd in H2. tauto.
  - apply gb_keys in H. tauto.
Qed.
Lemma boundaries_run : fold_left (fun d e => dset key_eqb d (fst e) (snd e)) gb fb = boundaries.
Proof. apply (dset_fold key_eqb key_eqb_iff). exact boundaries_NoDup. Qed.

(** ** The local mesh *)
Let lb : bdict := map (fun e => ((Z.to_nat (tm (Z.of_nat (fst (fst e)))), snd (fst e)), snd e)) boundaries.

Lemma opair {A B} (x : A) (o : option B) : option_map (pair x) o = match o with Some y => Some (x, y) | None => None end.
Proof. destruct o; reflexivity. Qed.

Lemma quan_run : exists gq, osequence (map (fun q => option_map (pair (fst q)) (take (snd q) G)) qs) = Some gq /\
  Forall2 (fun q g => fst q = fst g /\ rows_of (snd q) G (snd g)) qs gq.
Proof.
  clear NDqs. induction qs as [|q l IH]; cbn [map osequence].
  - exists []. split; [reflexivity|constructor].
  - destruct IH as (gq & E & F). { intros x Hx. apply Hqs. right. exact Hx. }
    destruct (take_rows (snd q) G) as (g & Eg & Fg).
    { intros i Hi. rewrite (Hqs q (or_introl eq_refl)). apply G_ok in Hi. lia. }
    rewrite Eg. cbn [option_map]. rewrite E. exists ((fst q, g) :: gq). split; [reflexivity|]. constructor; auto.
Qed.

Lemma Forall2_In_l {A B} (R : A -> B -> Prop) l m x : Forall2 R l m -> In x l -> exists y, In y m /\ R x y.
Proof.
  induction 1 as [|a b l m H F IH]; intros Hx; [destruct Hx|]. destruct Hx as [->|Hx].
  - exists b. split; [left; reflexivity|exact H].
  - destruct (IH Hx) as (y & Hy & R1). exists y. split; [right; exact Hy|exact R1].
Qed.

Lemma cell_run : exists c l, build_cell nodes ts bd brows ghost_tag qs tpp w p = Some c /\
  transmit c = Some c /\ build_local c lo hi = Some l /\
  l_nfull l = Z.to_nat (hi - lo) /\ l_tri_l2g l = U /\ l_node_l2g l = ids /\ rows_of nodes ids (l_nodes l) /\
  osequence (map nat3 (l_triangles l)) = Some lts /\
  osequence (map (fun e => if (0 <=? fst (fst e))%Z then Some ((Z.to_nat (fst (fst e)), snd (fst e)), snd e) else None)
     (l_boundary l)) = Some lb /\
  Forall2 (fun q lq => fst q = fst lq /\ rows_of (snd q) U (snd lq)) qs (l_quan l).
Proof.
  destruct rng_ok as (R0 & R1 & R2).
  destruct (take_rows nodes full_ids) as (fl & Efl & Ffl).
  { intros i Hi. apply ids_ok. unfold ids. apply in_or_app. left. exact Hi. }
  destruct (take_rows nodes (ghost_node_ids full_ids gts)) as (gl & Egl & Fgl).
  { intros i Hi. apply ids_ok. unfold ids. apply in_or_app. right. exact Hi. }
  destruct quan_run as (gq & Egq & Fgq).
  pose proof (rows_of_nth _ _ _ Ffl) as [Lfl _]. pose proof (rows_of_nth _ _ _ Fgl) as [Lgl _].
  destruct (combine_fst full_ids fl (eq_sym Lfl)) as [C1 C2].
  destruct (combine_fst (ghost_node_ids full_ids gts) gl (eq_sym Lgl)) as [C3 C4].
  set (c := {| f_nodes := combine full_ids fl; g_nodes := combine (ghost_node_ids full_ids gts) gl;
               f_triangles := slice ts lo hi; g_triangles := gts; f_boundary := fb; g_boundary := gb;
               f_quan := map (fun q => (fst q, slice (snd q) lo hi)) qs; g_quan := gq |}).
  assert (EC : build_cell nodes ts bd brows ghost_tag qs tpp w p = Some c).
  { unfold build_cell. fold lo hi. fold G. rewrite gts_run. unfold with_ids. fold full_ids. rewrite Efl, Egl, Egq. reflexivity. }
  assert (Ids : map fst (f_nodes c ++ g_nodes c) = ids).
  { cbn [c f_nodes g_nodes]. rewrite map_app, C1, C3. reflexivity. }
  destruct gts_parts as [P1 P2].
  assert (Tri : f_triangles c ++ map snd (g_triangles c) = map tri_at UN).
  { cbn [c f_triangles g_triangles]. rewrite P2, slice_tri, <- map_app. unfold UN. rewrite map_map. reflexivity. }
  set (lq := map (fun q => (fst q, slice (snd q) lo hi ++ match dget Nat.eqb gq (fst q) with Some g => g | None => [] end)) qs).
  set (zt := map (fun k => let '(a, b, c) := tri_at k in (Z.of_nat (f a), Z.of_nat (f b), Z.of_nat (f c))) UN).
  set (zb := map (fun e : (nat * nat) * nat => ((tm (Z.of_nat (fst (fst e))), snd (fst e)), snd e)) boundaries).
  set (l := {| l_nodes := fl ++ gl; l_triangles := zt; l_boundary := zb; l_quan := lq; l_tri_l2g := U; l_node_l2g := ids;
               l_nfull := length (slice ts lo hi) |}).
  assert (NDgq : NoDup (map fst gq)).
  { clear - Fgq NDqs. assert (E : map fst gq = map fst qs); [|rewrite E; exact NDqs].
    clear NDqs. induction Fgq as [|q g l m [H _] F IH]; [reflexivity|]. cbn [map]. rewrite IH, H. reflexivity. }
  assert (Qs : forall q, In q qs -> exists g, dget Nat.eqb gq (fst q) = Some g /\ rows_of (snd q) G g).
  { intros q Hq. destruct (Forall2_In_l _ _ _ q Fgq Hq) as ([x g] & Hg & E & R). cbn [fst snd] in E, R. subst x.
    exists g. split; [|exact R]. apply dget_In; assumption. }
  assert (PosB : forall e, In e boundaries -> exists j, tm (Z.of_nat (fst (fst e))) = Z.of_nat j /\
     nth_error UN j = Some (fst (fst e)) /\ tget (tri_map_len hi G) tm (Z.of_nat (fst (fst e))) = Some (Z.of_nat j)).
  { intros [[k i] t] He. cbn [fst]. assert (Hk : In k UN).
    { apply (boundaries_keys k i). change (k, i) with (fst ((k, i), t)). apply in_map. exact He. }
    apply In_nth_error in Hk as [j Hj]. exists j. destruct (tm_pos j k Hj) as [A B]. auto. }
  assert (EL : build_local c lo hi = Some l).
  { unfold build_local. cbv zeta. rewrite Ids, Tri. rewrite map_map.
    change (map fst (g_triangles c)) with (map fst gts). rewrite P1. fold tm.
    rewrite (osequence_map _ (fun k => let '(a, b, c) := tri_at k in (Z.of_nat (f a), Z.of_nat (f b), Z.of_nat (f c)))).
    2:{ intros k Hk. destruct (tri_at k) as [[a b] d] eqn:E.
        pose proof (f_spec k 0 Hk ltac:(lia)) as [_ F0]. pose proof (f_spec k 1 Hk ltac:(lia)) as [_ F1].
        pose proof (f_spec k 2 Hk ltac:(lia)) as [_ F2]. rewrite E in F0, F1, F2. cbn [node] in F0, F1, F2.
        rewrite F0, F1, F2. reflexivity. }
    change (f_boundary c) with fb. change (g_boundary c) with gb. rewrite boundaries_run.
    assert (EB : ofold (fun d e => match tget (tri_map_len hi G) tm (Z.of_nat (fst (fst e))) with
                          | Some k => Some (dset zkey_eqb d (k, snd (fst e)) (snd e))
                          | None => None
                          end) boundaries [] = Some zb).
    { assert (Go : forall b d, (forall e, In e b -> In e boundaries) ->
         ofold (fun d e => match tget (tri_map_len hi G) tm (Z.of_nat (fst (fst e))) with
                          | Some k => Some (dset zkey_eqb d (k, snd (fst e)) (snd e))
                          | None => None
                          end) b d =
         Some (fold_left (fun d x => dset zkey_eqb d (fst x) (snd x))
                 (map (fun e : (nat * nat) * nat => ((tm (Z.of_nat (fst (fst e))), snd (fst e)), snd e)) b) d)).
      { induction b as [|e b IH]; intros d Hb; [reflexivity|]. cbn [ofold map fold_left fst snd].
        destruct (PosB e (Hb e (or_introl eq_refl))) as (j & A & _ & B). rewrite B, A. apply IH.
        intros x Hx. apply Hb. right. exact Hx. }
      rewrite (Go boundaries []) by auto. f_equal. apply (dset_fold zkey_eqb zkey_eqb_iff _ []). cbn [app].
      rewrite map_map. cbn [fst].
      rewrite <- (map_map fst (fun k => (tm (Z.of_nat (fst k)), snd k)) boundaries).
      apply NoDup_map_inj; [exact boundaries_NoDup|].
      intros [k i] [k' i'] H1 H2 E. cbn [fst snd] in E. injection E as E <-.
      apply in_map_iff in H1 as (e & E1 & H1). apply in_map_iff in H2 as (e' & E2 & H2).
      destruct (PosB e H1) as (j & A & B & _). destruct (PosB e' H2) as (j' & A' & B' & _).
      rewrite E1 in A, B. rewrite E2 in A', B'. cbn [fst] in A, B, A', B'. assert (j = j') by lia. subst j'.
      congruence. }
    rewrite EB.
    change (f_quan c) with (map (fun q => (fst q, slice (snd q) lo hi)) qs). rewrite map_map. cbn [fst snd].
    change (g_quan c) with gq.
    rewrite (osequence_map _ (fun q => (fst q, slice (snd q) lo hi ++ match dget Nat.eqb gq (fst q) with Some g => g | None => [] end))).
    2:{ intros q Hq. destruct (Qs q Hq) as (g & -> & _). reflexivity. }
    rewrite (extract_l2g_spec (tri_map_len hi G) tm U U_NoDup).
    2:{ intros i x Hx. assert (Hx0 : (0 <= x)%Z) by (apply nth_error_In, U_ok in Hx; lia).
        replace x with (Z.of_nat (Z.to_nat x)) in Hx |- * by lia. apply UN_nth in Hx. destruct (tm_pos i _ Hx) as [A B].
        split; [|exact A]. unfold tget in B.
        destruct (Z.leb_spec 0 (Z.of_nat (Z.to_nat x))), (Z.ltb_spec (Z.of_nat (Z.to_nat x)) (tri_map_len hi G)); try discriminate.
        split; assumption. }
    2:{ intros x Hx. unfold U in Hx. rewrite in_app_iff, arange_In in Hx. apply tri_map_out; tauto. }
    rewrite (extract_l2g_spec (node_map_len ids) (node_map ids) ids ids_NoDup).
    2:{ intros i x Hx. split; [|apply node_map_in; [apply ids_NoDup|exact Hx]]. apply nth_error_In in Hx.
        pose proof (node_map_len_gt ids x Hx). apply ids_ok in Hx. lia. }
    2:{ intros x Hx. apply node_map_out. exact Hx. }
    change (f_nodes c ++ g_nodes c) with (combine full_ids fl ++ combine (ghost_node_ids full_ids gts) gl).
    rewrite map_app, C2, C4. reflexivity. }
  exists c, l. split; [exact EC|]. split; [apply transmit_id; [exact fb_NoDup|apply gb_spec]|]. split; [exact EL|].
  split. { cbn [l l_nfull]. rewrite slice_tri, map_length, arange_length. reflexivity. }
  split; [reflexivity|]. split; [reflexivity|].
  split. { cbn [l l_nodes]. apply rows_of_app; assumption. }
  split. { cbn [l l_triangles]. unfold zt. rewrite map_map. unfold lts.
    apply osequence_map. intros k _. destruct (tri_at k) as [[a b] d]. unfold nat3, rename.
    destruct (Z.leb_spec 0 (Z.of_nat (f a))); [|lia]. destruct (Z.leb_spec 0 (Z.of_nat (f b))); [|lia].
    destruct (Z.leb_spec 0 (Z.of_nat (f d))); [|lia]. cbn [andb]. rewrite !Nat2Z.id. reflexivity. }
  split. { cbn [l l_boundary]. unfold zb, lb. rewrite map_map. apply osequence_map. intros e He. cbn [fst snd].
    destruct (PosB e He) as (j & -> & _). destruct (Z.leb_spec 0 (Z.of_nat j)); [reflexivity|lia]. }
  cbn [l l_quan]. unfold lq. clear - Qs Hqs R0 R1 R2. induction qs as [|q m IH]; cbn [map]; constructor.
  - cbn [fst snd]. split; [reflexivity|]. destruct (Qs q (or_introl eq_refl)) as (g & -> & R).
    unfold U. apply rows_of_app; [|exact R]. apply slice_rows; [exact R0|exact R1|].
    rewrite (Hqs q (or_introl eq_refl)). exact R2.
  - apply IH; intros x Hx; [apply Hqs|apply Qs]; right; exact Hx.
Qed.

(** The tag of an edge of the local mesh. *)
Lemma lb_lookup j k i : nth_error UN j = Some k -> i < 3 -> lookup lb (j, i) = lookup boundaries (k, i).
Proof.
  intros Hj Hi. unfold lb. destruct (tm_pos j k Hj) as [A _].
  set (g := fun key : nat * nat => (Z.to_nat (tm (Z.of_nat (fst key))), snd key)).
  change (map (fun e : (nat * nat) * nat => ((Z.to_nat (tm (Z.of_nat (fst (fst e)))), snd (fst e)), snd e)) boundaries)
    with (map (fun e : (nat * nat) * nat => (g (fst e), snd e)) boundaries).
  replace (j, i) with (g (k, i)) by (unfold g; cbn [fst snd]; rewrite A, Nat2Z.id; reflexivity).
  apply lookup_map. intros [k' i'] Hk' E. unfold g in E. cbn [fst snd] in E. injection E as E ->.
  apply boundaries_keys in Hk' as [Hk' _]. apply In_nth_error in Hk' as [j' Hj']. destruct (tm_pos j' k' Hj') as [A' _].
  rewrite A, A', !Nat2Z.id in E. subst j'. congruence.
Qed.
Lemma lb_NoDup : NoDup (map fst lb).
Proof.
  unfold lb. rewrite map_map. cbn [fst].
  rewrite <- (map_map fst (fun k => (Z.to_nat (tm (Z.of_nat (fst k))), snd k)) boundaries).
  apply NoDup_map_inj; [exact boundaries_NoDup|].
  intros [k i] [k' i'] H1 H2 E. cbn [fst snd] in E. injection E as E <-.
  apply boundaries_keys in H1 as [H1 _]. apply boundaries_keys in H2 as [H2 _].
  apply In_nth_error in H1 as [j Hj]. apply In_nth_error in H2 as [j' Hj'].
  destruct (tm_pos j k Hj) as [A _]. destruct (tm_pos j' k' Hj') as [A' _]. rewrite A, A', !Nat2Z.id in E. subst j'. congruence.
Qed.
Lemma lb_keys j i : In (j, i) (map fst lb) -> exists k, nth_error UN j = Some k /\ i < 3 /\ In (k, i) (map fst boundaries).
Proof.
  unfold lb. rewrite map_map. cbn [fst]. intros H. apply in_map_iff in H as ([[k i'] t] & E & H). cbn [fst snd] in E.
  injection E as E ->.
  assert (Hk : In (k, i) (map fst boundaries)) by (change (k, i) with (fst ((k, i), t)); apply in_map; exact H).
  destruct (boundaries_keys k i Hk) as [Hu Hi]. apply In_nth_error in Hu as [j' Hj']. destruct (tm_pos j' k Hj') as [A _].
  rewrite A, Nat2Z.id in E. subst j'. eauto.
Qed.

(** A full triangle has all its neighbours in the part. *)
Lemma full_closed k i k' : (lo <= Z.of_nat k < hi)%Z -> i < 3 -> nb rows k i = Z.of_nat k' -> In k' UN.
Proof.
  intros Hk Hi E. rewrite UN_In. unfold U. rewrite in_app_iff, arange_In.
  destruct rng_ok as (R0 & R1 & R2). assert (Kn : k < n) by lia.
  destruct (Hbrows k i Kn Hi) as [A _]. rewrite E in A. specialize (A ltac:(lia)).
  assert (W : within (mesh_neighbours brows) lo hi (Nat.max w 1) (Z.of_nat k')).
  { replace (Nat.max w 1) with (S (Nat.max w 1 - 1)) by lia. apply (within_step _ _ _ _ (Z.of_nat k)).
    - apply within_full. exact Hk.
    - unfold mesh_neighbours. rewrite Nat2Z.id. apply in_map_iff. exists i. split; [exact A|]. cbn. lia.
    - lia. }
  apply (C34_layer_width (mesh_neighbours brows) tpp w neigh_range p (Z.of_nat k') Hp) in W. exact W.
Qed.

(** An edge has an entry exactly if its neighbour is not in the part. *)
Lemma boundaries_lookup k i : In k UN -> i < 3 -> lookup boundaries (k, i) =
  if zmem (nb brows k i) U then None
  else Some (match lookup bd (k, i) with Some t => t | None => ghost_tag end).
Proof.
  intros Hk Hi. unfold boundaries. rewrite lookup_app, fb_lookup. rewrite (proj2 gb_spec).
  pose proof (UN_ok k Hk) as Kn. fold n in Kn. destruct (Hbrows k i Kn Hi) as [B1 B2].
  rewrite UN_In in Hk. unfold U in Hk. rewrite in_app_iff, arange_In in Hk. unfold open. destruct Hk as [Hk|Hk].
  - destruct (Z.leb_spec lo (Z.of_nat k)); [|lia]. destruct (Z.ltb_spec (Z.of_nat k) hi); [|lia]. cbn [andb].
    assert (NG : zmem (Z.of_nat k) G = false) by (apply zmem_false; intros X; apply G_ok in X; lia).
    rewrite NG. cbn [andb].
    destruct (Z.lt_ge_cases (nb rows k i) 0) as [L|L].
    + assert (X : In (k, i) (map fst bd)) by (apply Hbd; auto).
      destruct (lookup bd (k, i)) as [t|] eqn:E; [|apply lookup_None in E; contradiction].
      destruct (zmem (nb brows k i) U) eqn:Z; [|reflexivity]. apply zmem_In, U_ok in Z. specialize (B2 L). lia.
    + destruct (lookup bd (k, i)) as [t|] eqn:E; [apply lookup_Some_In, Hbd in E; lia|].
      assert (I : In (nb brows k i) U).
      { rewrite (B1 L). replace (nb rows k i) with (Z.of_nat (Z.to_nat (nb rows k i))) by lia. apply UN_In.
        apply (full_closed k i); [lia|exact Hi|lia]. }
      apply zmem_In in I. rewrite I. reflexivity.
  - pose proof (G_ok _ Hk) as [_ Gk].
    destruct ((lo <=? Z.of_nat k)%Z && (Z.of_nat k <? hi)%Z) eqn:E.
    { apply andb_true_iff in E as [E1 E2]. apply Z.leb_le in E1. apply Z.ltb_lt in E2. exfalso. apply Gk. lia. }
    apply zmem_In in Hk. rewrite Hk. destruct (Nat.ltb_spec i 3); [|lia]. cbn [andb].
    destruct (zmem (nb brows k i) U); reflexivity.
Qed.

Lemma local_run l : osequence (map nat3 (l_triangles l)) = Some lts ->
  osequence (map (fun e => if (0 <=? fst (fst e))%Z then Some ((Z.to_nat (fst (fst e)), snd (fst e)), snd e) else None)
     (@l_boundary P Q l)) = Some lb ->
  exists lrows lbd lbs, local_mesh l default = Some (lts, (lrows, lbd, lbs)) /\
    build_neighbour_structure lts = Some lrows /\
    NoDup (map fst lbd) /\
    (forall j i, In (j, i) (map fst lbd) -> j < length UN /\ i < 3) /\
    (forall j k i, nth_error UN j = Some k -> i < 3 ->
      (forall m k' e, nth_error UN m = Some k' -> (neighbour_is lrows j i m e <-> neighbour_is rows k i k' e)) /\
      (forall m e, neighbour_is lrows j i m e -> m < length UN) /\
      ((nb lrows j i < 0)%Z <-> (forall k', nb rows k i = Z.of_nat k' -> ~ In k' UN)) /\
      lookup lbd (j, i) = if (nb lrows j i <? 0)%Z
                          then Some (match lookup bd (k, i) with Some t => t | None => ghost_tag end) else None).
Proof.
  intros E1 E2.
  destruct (part_neighbours ts rows Hrows UN UN_ok UN_NoDup f f_injective) as (lrows & EL & LL & HL).
  fold tri_at in EL. change (map (fun k : nat => rename f (nth k ts d3)) UN) with lts in EL.
  assert (Llts : length lts = length UN) by (unfold lts; apply map_length).
  assert (Bneg : forall j k i, nth_error UN j = Some k -> i < 3 -> ((nb lrows j i < 0)%Z <-> zmem (nb brows k i) U = false)).
  { intros j k i Hj Hi. destruct (HL j k i Hj Hi) as (_ & _ & ->). rewrite zmem_false.
    assert (Kn : k < n) by (apply UN_ok; eapply nth_error_In; exact Hj).
    destruct (Hbrows k i Kn Hi) as [B1 B2]. split.
    - intros H X. destruct (Z.lt_ge_cases (nb rows k i) 0) as [L|L].
      + apply U_ok in X. specialize (B2 L). lia.
      + rewrite (B1 L) in X. apply (H (Z.to_nat (nb rows k i))); [lia|]. apply UN_In. rewrite Z2Nat.id by lia. exact X.
    - intros H k' E X. apply H. rewrite (B1 ltac:(lia)), E. apply UN_In. exact X. }
  assert (TB : tags_boundary_edges lrows lb).
  { intros [j i] t H. cbn [fst snd].
    assert (Hk : In (j, i) (map fst lb)) by (change (j, i) with (fst ((j, i), t)); apply in_map; exact H).
    apply lb_keys in Hk as (k & Hj & Hi & Hb).
    apply (Bneg j k i Hj Hi).
    pose proof (boundaries_lookup k i ltac:(eapply nth_error_In; exact Hj) Hi) as BL.
    destruct (zmem (nb brows k i) U); [|reflexivity]. apply lookup_None in BL. contradiction. }
  unfold local_mesh. rewrite E1, E2. unfold mesh_boundary. rewrite EL.
  assert (KO : keys_ok (length lrows) lb = true).
  { unfold keys_ok. apply forallb_forall. intros [[j i] t] H. cbn [fst snd].
    assert (Hk : In (j, i) (map fst lb)) by (change (j, i) with (fst ((j, i), t)); apply in_map; exact H).
    apply lb_keys in Hk as (k & Hj & Hi & _). apply andb_true_iff. rewrite !Nat.ltb_lt. split; [|exact Hi].
    rewrite LL. apply nth_error_Some. congruence. }
  destruct (boundary_dictionary lrows default lb) as [lbd|] eqn:EB.
  2:{ unfold boundary_dictionary in EB. rewrite KO in EB. discriminate. }
  destruct (C44_boundary_enumeration lts default lb lrows lbd (build_boundary_neighbours lrows lbd) lb_NoDup EL TB)
    as (N & LK & KR & _).
  { unfold mesh_boundary. rewrite EL, EB. reflexivity. }
  eexists lrows, lbd, _. split; [reflexivity|]. split; [reflexivity|]. split; [exact N|]. split.
  { intros j i H. rewrite <- Llts. apply KR. exact H. }
  intros j k i Hj Hi. destruct (HL j k i Hj Hi) as (A & B & C). split; [exact A|]. split; [exact B|]. split; [exact C|].
  assert (Jl : j < length lts) by (rewrite Llts; apply nth_error_Some; congruence).
  rewrite (LK j i Jl Hi). rewrite (lb_lookup j k i Hj Hi), (boundaries_lookup k i ltac:(eapply nth_error_In; exact Hj) Hi).
  destruct (Z.ltb_spec (nb lrows j i) 0) as [L|L]; [|reflexivity].
  apply (Bneg j k i Hj Hi) in L. rewrite L. reflexivity.
Qed.
End Cell.
