(** Lemmas for C80: the processes of a distributed domain are parts of the domain in
    the sense of C78, and messages come from the owners of ghost triangles. *)
From Coq Require Import Reals List ZArith Arith Lia Lra Bool Permutation Sorted FunctionalExtensionality.
From Verif Require Import NeighbourModel NeighbourProofs NeighbourProps SetBoundaryProps DistributeModel DistributeProofs DistributeProofs2
  DistributeProps LocalMeshModel LocalMeshProofs LocalMeshProofs2 LocalMeshProofs3 LocalMeshProofs4 LocalMeshProps
  RealLib ArrayLib GeometryModel BoundaryModel FluxModel FluxProofs FluxProps FluxMeshProps ReconModel RKModel StepModel ParallelStepModel
  ParallelStepProofs ParallelStepProps DistributedRunModel DistributedRunProofs.
Import ListNotations.

(** * Communication patterns *)
Lemma recv_keys_aux (tm : Z -> option Z) (f : nat -> list Z) : forall cs r, NoDup cs ->
  osequence (flat_map (fun c => match f c with
    | [] => []
    | _ => [match osequence (map tm (f c)) with Some l => Some (c, (l, f c)) | None => None end]
    end) cs) = Some r ->
  NoDup (map fst r) /\ forall c, In c (map fst r) -> In c cs.
Proof.
  induction cs as [|c cs IH]; intros r ND E.
  - injection E as <-. split; [constructor|auto].
  - inversion ND as [|? ? N1 N2]; subst. cbn [flat_map] in E. destruct (f c) as [|g d] eqn:F.
    + destruct (IH r N2 E) as [A B]. split; [exact A|]. intros x Hx. right. auto.
    + destruct (osequence (map tm (g :: d))) as [l|]; [|discriminate]. cbn [app osequence] in E.
      destruct (osequence (flat_map _ cs)) as [r'|] eqn:E'; [|discriminate]. injection E as <-.
      destruct (IH r' N2 eq_refl) as [A B]. split.
      * cbn. constructor; [|exact A]. intros H. apply N1. auto.
      * cbn. intros x [->|Hx]; auto.
Qed.
Lemma recv_keys neighbours b tpp w p r s : local_commun neighbours b tpp w p = Some (r, s) ->
  NoDup (map fst r) /\ forall c, In c (map fst r) -> c < length tpp.
Proof.
  unfold local_commun. destruct (full_commun _ _); [|discriminate]. destruct (ghost_recv _ _ _) as [r'|] eqn:E; [|discriminate].
  destruct (full_send _ _); [|discriminate]. intros H. injection H as <- _. unfold ghost_recv in E.
  apply recv_keys_aux in E; [|apply seq_NoDup]. destruct E as [A B]. split; [exact A|].
  intros c Hc. apply B in Hc. apply in_seq in Hc. lia.
Qed.
Lemma dget_entry {V} : forall (r : list (nat * V)) c v, NoDup (map fst r) -> In (c, v) r -> dget Nat.eqb r c = Some v.
Proof.
  induction r as [|[c0 v0] r IH]; intros c v ND H; [destruct H|]. inversion ND as [|? ? N1 N2]; subst. cbn [dget].
  destruct H as [H|H].
  - injection H as -> ->. rewrite Nat.eqb_refl. reflexivity.
  - destruct (Nat.eqb_spec c c0) as [->|_]; [|apply IH; assumption]. exfalso. apply N1. apply (in_map fst) in H. exact H.
Qed.
Lemma entry_dget {V} : forall (r : list (nat * V)) c v, dget Nat.eqb r c = Some v -> In (c, v) r.
Proof.
  induction r as [|[c0 v0] r IH]; intros c v H; [discriminate|]. cbn [dget] in H.
  destruct (Nat.eqb_spec c c0) as [->|_]; [injection H as ->; left; reflexivity|right; auto].
Qed.

Lemma full_flags_spec recv j : full_flags recv j =
  if existsb (fun e => existsb (fun id => Nat.eqb (Z.to_nat id) j) (fst (snd e))) recv then 0%Z else 1%Z.
Proof.
  assert (A : forall l (f : nat -> Z), fold_left (fun f id => upd f (Z.to_nat id) 0%Z) l f j =
     if existsb (fun id => Nat.eqb (Z.to_nat id) j) l then 0%Z else f j).
  { induction l as [|id l IH]; intros f; [reflexivity|]. cbn [fold_left existsb]. rewrite IH. unfold upd.
    destruct (Nat.eqb_spec (Z.to_nat id) j) as [E|E]; destruct (Nat.eqb_spec j (Z.to_nat id)) as [E'|E']; try congruence; cbn [orb];
      [destruct (existsb _ l); reflexivity|reflexivity]. }
  unfold full_flags.
  enough (G : forall f : nat -> Z, fold_left (fun f e => fold_left (fun f id => upd f (Z.to_nat id) 0%Z) (fst (snd e)) f) recv f j =
    if existsb (fun e => existsb (fun id => Nat.eqb (Z.to_nat id) j) (fst (snd e))) recv then 0%Z else f j).
  { rewrite G. reflexivity. }
  induction recv as [|e r IH]; intros f; [reflexivity|]. cbn [fold_left existsb]. rewrite IH, A.
  destruct (existsb _ (fst (snd e))), (existsb _ r); reflexivity.
Qed.

Lemma index_of_spec x : forall l, In x l -> exists i, index_of x l = Some i /\ nth_error l i = Some x.
Proof.
  induction l as [|y l IH]; intros H; [destruct H|]. cbn [index_of]. destruct (Z.eqb_spec y x) as [->|N].
  - exists 0. split; reflexivity.
  - destruct H as [H|H]; [contradiction|]. destruct (IH H) as (i & -> & E). exists (S i). split; [reflexivity|exact E].
Qed.
Lemma Forall2_nth {A B} (R : A -> B -> Prop) : forall l m i x, Forall2 R l m -> nth_error l i = Some x ->
  exists y, nth_error m i = Some y /\ R x y.
Proof.
  intros l m i x F. revert i. induction F as [|a b l m H F IH]; intros [|i] E; try discriminate.
  - injection E as <-. exists b. split; [reflexivity|exact H].
  - apply IH. exact E.
Qed.
Lemma Forall2_nth' {A B} (R : A -> B -> Prop) : forall l m i y, Forall2 R l m -> nth_error m i = Some y ->
  exists x, nth_error l i = Some x /\ R x y.
Proof.
  intros l m i x F. revert i. induction F as [|a b l m H F IH]; intros [|i] E; try discriminate.
  - injection E as <-. exists a. split; [reflexivity|exact H].
  - apply IH. exact E.
Qed.

Lemma nth_error_nth'' {A} (l m : list A) i j d : nth_error l i = nth_error m j -> nth i l d = nth j m d.
Proof. intros E. rewrite <- !nth_default_eq. unfold nth_default. rewrite E. reflexivity. Qed.
Lemma near_mono rows part d k : LocalMeshProps.near rows part d k -> forall d', d <= d' -> LocalMeshProps.near rows part d' k.
Proof.
  induction 1 as [d k H|d k i k' H IH Hi E]; intros d' Hd; [apply near_part; exact H|].
  destruct d' as [|d']; [lia|]. apply (near_step _ _ d' k i k'); [apply IH; lia|exact Hi|exact E].
Qed.

(** * The processes *)
Section Dist.
Variable D : LocalMeshProps.domain (R * R)%type (R * R * R)%type.
Hypothesis VD : valid D.
Variables (T : config) (bmap : nat -> boundary_object).
Variables (nproc : nat) (epart : list nat) (ghost_tag w : nat).
Hypothesis Hnproc : 2 <= nproc.
Hypothesis Hpart : partition (length (d_ts D)) nproc epart.
Hypothesis Hw : 2 <= w.
Hypothesis HT : template_ok T.
Hypothesis HA : forall t, In t (d_ts D) -> (0 < geo area (d_nodes D) t)%R.
Hypothesis Htag : forall key, ~ In (key, ghost_tag) (d_bd D).
Hypothesis Hmap : forall key tag, In (key, tag) (d_bd D) -> bmap tag <> NoBoundary.
Let ts := d_ts D.
Let rows := d_rows D.
Let bd := d_bd D.
Let n := length ts.
Let order := argsort epart.
Let tpp := bincount epart.
Let ts' := map (fun k => nth k ts d3) order.
Definition whole : config := mesh_config T (d_nodes D) ts rows (build_boundary_neighbours rows bd) (fun _ => 1%Z) (d_quan D) bmap.
Definition bmap' (tag : nat) : boundary_object := if Nat.eqb tag ghost_tag then NoBoundary else bmap tag.

(** What process [p] holds. *)
Definition holds (p : nat) (pr : process) : Prop := exists U l lts lrows lbd V,
  start_process T (d_nodes D) ts bd (d_quan D) (d_default D) ghost_tag nproc epart w bmap p = Some pr /\
  is_part D ghost_tag epart w p U l lts lrows lbd /\
  pr_config pr = mesh_config T (l_nodes l) lts lrows (build_boundary_neighbours lrows lbd) (full_flags (pr_recv pr)) (l_quan l) bmap' /\
  pr_l2g pr = map Z.of_nat U /\ pr_quan pr = l_quan l /\
  (forall j, nth_error U j = match nth_error V j with Some g => nth_error order (Z.to_nat g) | None => None end) /\
  exists brows, patterns false ts bd (d_quan D) (d_default D) nproc epart w p = Some (pr_recv pr, pr_send pr) /\
    (exists b bs, mesh_boundary ts' (d_default D) (new_boundary tpp order bd) = Some (b, bs) /\ brows = b_rows bs) /\
    local_commun (mesh_neighbours brows) false tpp w p = Some (pr_recv pr, pr_send pr) /\
    V = arange (fst (rng tpp p)) (snd (rng tpp p)) ++ ghosts_of (mesh_neighbours brows) tpp w p /\
    (forall t m, (0 <= t < total tpp)%Z -> In m (mesh_neighbours brows t) -> (m < total tpp)%Z).

Lemma process_holds p : p < nproc -> exists pr, holds p pr.
Proof.
  intros Hp. destruct (distribute_spec D VD nproc epart Hnproc Hpart ghost_tag w p Hp false)
    as (U & l & lts & lrows & lbd & lbs & E1 & E2 & IP & E3 & V & brows & HV & EV & _ & (b & bs & EB & EBr) & HB).
  destruct (divide_run D VD nproc epart Hnproc Hpart p Hp) as (v & Ev & V1 & V2 & V3 & _).
  destruct (C34_succeeds (mesh_neighbours brows) tpp w HB false p) as (r & s & Ec).
  { unfold tpp. rewrite (tpp_len D nproc epart Hnproc Hpart p Hp). exact Hp. }
  assert (EP : patterns false ts bd (d_quan D) (d_default D) nproc epart w p = Some (r, s)).
  { unfold patterns, ts, bd. rewrite Ev, V1, V2, V3. rewrite EB. destruct b as [r0 b0]. rewrite <- EBr. exact Ec. }
  assert (El : lbs = build_boundary_neighbours lrows lbd).
  { unfold local_mesh in E2. destruct (osequence (map nat3 _)) as [x|]; [|discriminate].
    destruct (osequence _) as [y|]; [|discriminate].
    destruct (mesh_boundary x _ _) as [m|] eqn:EM; [|discriminate]. injection E2 as -> ->.
    unfold mesh_boundary in EM. destruct (build_neighbour_structure lts) as [r1|]; [|discriminate].
    destruct (boundary_dictionary r1 _ _) as [b1|]; [|discriminate]. injection EM as <- <- <-. reflexivity. }
  eexists. exists U, l, lts, lrows, lbd, V. split.
  { unfold start_process, ts, bd. rewrite E1. fold ts bd. rewrite EP, E2. reflexivity. }
  cbn [pr_config pr_recv pr_send pr_l2g pr_quan]. split; [exact IP|]. split; [rewrite El; reflexivity|].
  split; [apply E3; reflexivity|]. split; [reflexivity|]. split; [exact HV|].
  exists brows. split; [exact EP|]. split; [exists b, bs; auto|]. auto.
Qed.

(** ** Triangles of a process *)
Definition nf (p : nat) : nat := length (class epart p).

Section Proc.
Variables (p : nat) (pr : process) (U : list nat) (l : local (R * R)%type (R * R * R)%type) (lts : list tri) (lrows : list row) (lbd : bdict).
Hypothesis IP : is_part D ghost_tag epart w p U l lts lrows lbd.
Let L := mesh_config T (l_nodes l) lts lrows (build_boundary_neighbours lrows lbd) (full_flags (pr_recv pr)) (l_quan l) bmap'.
Let up (j : nat) := nth j U 0.

Lemma part_split : nf p <= length U /\ nf p <= l_nfull l /\ firstn (nf p) U = class epart p /\ skipn (nf p) U = skipn (l_nfull l) U.
Proof.
  pose proof (ip_full _ _ _ _ _ _ _ _ _ _ IP) as F. assert (E : length epart = n) by (apply Hpart).
  change (firstn (l_nfull l) U = filter (fun k => Nat.eqb (nth k epart 0) p) (seq 0 n)) in F. rewrite <- E in F. fold (class epart p) in F.
  assert (Ln : length (firstn (l_nfull l) U) = nf p) by (rewrite F; reflexivity).
  rewrite firstn_length in Ln. split; [lia|]. split; [lia|].
  destruct (Nat.le_gt_cases (l_nfull l) (length U)) as [A|A].
  - replace (nf p) with (l_nfull l) by lia. auto.
  - replace (nf p) with (length U) by lia. rewrite firstn_all. rewrite firstn_all2 in F by lia. split; [exact F|].
    rewrite skipn_all, skipn_all2 by lia. reflexivity.
Qed.

Lemma U_error j : j < length U -> nth_error U j = Some (up j).
Proof. intros H. apply nth_error_nth'. exact H. Qed.
Lemma U_full j : j < nf p -> up j < n /\ nth (up j) epart 0 = p.
Proof.
  intros H. destruct part_split as (A & _ & B & _). assert (I : In (up j) (class epart p)).
  { rewrite <- B. unfold up. rewrite <- (nth_firstn_lt 0 (nf p) U j) by exact H. apply nth_In. rewrite firstn_length. lia. }
  apply class_In in I. destruct I as [I1 I2]. split; [|exact I2]. destruct Hpart as [E _]. rewrite E in I1. exact I1.
Qed.
Lemma U_range j : j < length U -> up j < n.
Proof.
  intros H. destruct (Nat.lt_ge_cases j (nf p)) as [A|A]; [apply U_full; exact A|].
  destruct part_split as (_ & _ & _ & S). assert (I : In (up j) (skipn (nf p) U)).
  { unfold up. replace j with (nf p + (j - nf p)) by lia. rewrite <- nth_skipn_add. apply nth_In. rewrite skipn_length. lia. }
  rewrite S in I. apply (ip_ghost _ _ _ _ _ _ _ _ _ _ IP) in I. apply I.
Qed.

(** A triangle at most [w] edges from the own triangles is there. *)
Lemma U_near d k : LocalMeshProps.near rows (fun k => k < n /\ nth k epart 0 = p) d k -> k < n -> d <= w -> In k U.
Proof.
  intros H Hk Hd. destruct part_split as (A & _ & B & S). destruct (Nat.eq_dec (nth k epart 0) p) as [E|E].
  - rewrite <- (firstn_skipn (nf p) U). apply in_or_app. left. rewrite B. apply class_In. split; [|exact E].
    destruct Hpart as [-> _]. exact Hk.
  - rewrite <- (firstn_skipn (l_nfull l) U). apply in_or_app. right.
    apply (ip_ghost _ _ _ _ _ _ _ _ _ _ IP). split; [exact Hk|]. split; [exact E|].
    apply (near_mono _ _ d); [exact H|lia].
Qed.

Lemma lts_error j : j < length U -> nth_error lts j = Some (nth j lts d3).
Proof. intros H. apply nth_error_nth'. rewrite (ip_number _ _ _ _ _ _ _ _ _ _ IP). exact H. Qed.
Lemma vertex_up j v : j < length U -> v < 3 -> vertex (l_nodes l) (nth j lts d3) v = vertex (d_nodes D) (nth (up j) ts d3) v.
Proof.
  intros H Hv. destruct (ip_corners _ _ _ _ _ _ _ _ _ _ IP j (up j) (nth j lts d3) v (U_error j H) (lts_error j H) Hv) as [E _].
  rewrite !vertex_node. apply nth_error_nth''. exact E.
Qed.
Lemma geo_up {A} (f : R -> R -> R -> R -> R -> R -> A) j : j < length U ->
  geo f (l_nodes l) (nth j lts d3) = geo f (d_nodes D) (nth (up j) ts d3).
Proof. intros H. unfold geo. rewrite !(vertex_up j) by (assumption || lia). reflexivity. Qed.
Lemma midpoint_up j i : j < length U -> midpoint (l_nodes l) (nth j lts d3) i = midpoint (d_nodes D) (nth (up j) ts d3) i.
Proof. intros H. unfold midpoint. rewrite !(vertex_up j) by (assumption || lia). reflexivity. Qed.
Lemma centroid_up name j : j < length U -> centroid_values (l_quan l) name j = centroid_values (d_quan D) name (up j).
Proof.
  intros H. unfold centroid_values. replace (vertex_values (l_quan l) name j) with (vertex_values (d_quan D) name (up j)); [reflexivity|].
  pose proof (ip_quan _ _ _ _ _ _ _ _ _ _ IP) as F. unfold vertex_values.
  induction F as [|q lq qs lqs (E1 & E2 & E3) F IH]; [reflexivity|]. cbn [find]. rewrite <- E1. destruct (Nat.eqb (fst q) name); [|exact IH].
  symmetry. apply nth_error_nth''. apply E3. apply U_error. exact H.
Qed.

Lemma local_area j : j < length lts -> (0 < geo area (l_nodes l) (nth j lts d3))%R.
Proof.
  intros H. rewrite (ip_number _ _ _ _ _ _ _ _ _ _ IP) in H. rewrite geo_up by exact H. apply HA. apply nth_In. apply U_range. exact H.
Qed.
Lemma whole_area k : k < n -> (0 < geo area (d_nodes D) (nth k ts d3))%R.
Proof. intros H. apply HA. apply nth_In. exact H. Qed.

Lemma local_keys : NoDup (map fst lbd) /\ (forall k i, In (k, i) (map fst lbd) <-> k < length lts /\ i < 3 /\ (nb lrows k i < 0)%Z).
Proof.
  destruct (ip_tag_keys _ _ _ _ _ _ _ _ _ _ IP) as [A B]. split; [exact A|]. intros j i. rewrite (ip_number _ _ _ _ _ _ _ _ _ _ IP). split.
  - intros H. destruct (B j i H) as [Hj Hi]. split; [exact Hj|]. split; [exact Hi|].
    pose proof (ip_tags _ _ _ _ _ _ _ _ _ _ IP j (up j) i (U_error j Hj) Hi) as E.
    destruct (Z.ltb_spec (nb lrows j i) 0) as [|G]; [assumption|]. apply lookup_None in E. contradiction.
  - intros (Hj & Hi & Hn). pose proof (ip_tags _ _ _ _ _ _ _ _ _ _ IP j (up j) i (U_error j Hj) Hi) as E.
    apply Z.ltb_lt in Hn. rewrite Hn in E. eapply lookup_Some_In. exact E.
Qed.

Lemma whole_facts : build_neighbour_structure ts = Some rows /\ NoDup (map fst bd) /\
  (forall k i, In (k, i) (map fst bd) <-> k < n /\ i < 3 /\ (nb rows k i < 0)%Z).
Proof. apply (domain_facts D VD). Qed.

Lemma IntC k i : k < n -> i < 3 -> (interior (cf_dom whole) (3 * k + i) = true <-> (0 <= nb rows k i)%Z).
Proof. exact (int_iff T (d_nodes D) ts rows bd (fun _ => 1%Z) (d_quan D) bmap (proj1 whole_facts) (proj1 (proj2 whole_facts)) (proj2 (proj2 whole_facts)) k i). Qed.
Lemma IntL k i : k < length lts -> i < 3 -> (interior (cf_dom L) (3 * k + i) = true <-> (0 <= nb lrows k i)%Z).
Proof. exact (int_iff T (l_nodes l) lts lrows lbd (full_flags (pr_recv pr)) (l_quan l) bmap' (ip_built _ _ _ _ _ _ _ _ _ _ IP) (proj1 local_keys) (proj2 local_keys) k i). Qed.
Lemma NbC k i : k < n -> i < 3 -> (0 <= nb rows k i)%Z -> FluxModel.neighbours (cf_dom whole) (3 * k + i) = nb rows k i /\
  FluxModel.neighbour_edges (cf_dom whole) (3 * k + i) = Z.to_nat (nbe rows k i).
Proof. exact (nb_C T (d_nodes D) ts rows bd (fun _ => 1%Z) (d_quan D) bmap (proj1 whole_facts) (proj1 (proj2 whole_facts)) (proj2 (proj2 whole_facts)) k i). Qed.
Lemma NbL k i : k < length lts -> i < 3 -> (0 <= nb lrows k i)%Z -> FluxModel.neighbours (cf_dom L) (3 * k + i) = nb lrows k i /\
  FluxModel.neighbour_edges (cf_dom L) (3 * k + i) = Z.to_nat (nbe lrows k i).
Proof. exact (nb_C T (l_nodes l) lts lrows lbd (full_flags (pr_recv pr)) (l_quan l) bmap' (ip_built _ _ _ _ _ _ _ _ _ _ IP) (proj1 local_keys) (proj2 local_keys) k i). Qed.

(** An edge of a local triangle whose neighbour is in the part is an interior edge. *)
Lemma open_edge j i k' : j < length U -> i < 3 -> nb rows (up j) i = Z.of_nat k' -> In k' U -> (0 <= nb lrows j i)%Z.
Proof.
  intros Hj Hi E I. destruct (Z.lt_ge_cases (nb lrows j i) 0) as [H|H]; [|exact H].
  exfalso. apply (ip_open _ _ _ _ _ _ _ _ _ _ IP j (up j) i (U_error j Hj) Hi) with (k' := k') in H; [contradiction|exact E].
Qed.
Lemma whole_interior k i : k < n -> i < 3 -> (0 <= nb rows k i)%Z -> exists k', nb rows k i = Z.of_nat k' /\ k' < n.
Proof.
  intros Hk Hi H. destruct (mesh_interior (d_nodes D) ts rows (proj1 whole_facts) whole_area k i Hk Hi H) as (k' & e & (E & _) & Hk' & _).
  exists k'. auto.
Qed.

Lemma local_neighbour j i : j < length U -> i < 3 -> (0 <= nb lrows j i)%Z ->
  exists m e, m < length U /\ nb lrows j i = Z.of_nat m /\ nbe lrows j i = Z.of_nat e /\
    nb rows (up j) i = Z.of_nat (up m) /\ nbe rows (up j) i = Z.of_nat e.
Proof.
  intros Hj Hi H. assert (Hj' : j < length lts) by (rewrite (ip_number _ _ _ _ _ _ _ _ _ _ IP); exact Hj).
  destruct (mesh_interior (l_nodes l) lts lrows (ip_built _ _ _ _ _ _ _ _ _ _ IP) local_area j i Hj' Hi H) as (m & e & Hn & Hm & _).
  rewrite (ip_number _ _ _ _ _ _ _ _ _ _ IP) in Hm. exists m, e. split; [exact Hm|]. split; [apply Hn|]. split; [apply Hn|].
  apply (ip_neighbour _ _ _ _ _ _ _ _ _ _ IP j (up j) i m (up m) e (U_error j Hj) Hi (U_error m Hm)). exact Hn.
Qed.

(** Flags; see [source_spec] for the hypothesis. *)
Hypothesis Flag : forall j, j < length U -> full_flags (pr_recv pr) j = if Nat.ltb j (nf p) then 1%Z else 0%Z.

Lemma NL : N L = length U.
Proof. apply (ip_number _ _ _ _ _ _ _ _ _ _ IP). Qed.

Lemma local_ok : mesh_ok L.
Proof. apply config_ok; [exact HT|apply IP|apply local_keys|apply local_keys|apply local_area]. Qed.
Lemma whole_ok : mesh_ok whole.
Proof. apply config_ok; [exact HT|apply whole_facts|apply whole_facts|apply whole_facts|exact whole_area]. Qed.

Lemma part_submesh : submesh whole L up (nf p).
Proof.
  pose proof NL as NL. destruct part_split as (P1 & P2 & _ & _).
  split; try (rewrite NL); try (split; reflexivity); try reflexivity.
  - exact P1.
  - intros j Hj. apply U_range. exact Hj.
  - intros j j' Hj Hj' E. apply (proj1 (NoDup_nth U 0) (ip_distinct _ _ _ _ _ _ _ _ _ _ IP)); assumption.
  - exact Flag.
  - intros j Hj. apply geo_up. exact Hj.
  - intros j Hj. apply geo_up. exact Hj.
  - intros j Hj. apply centroid_up. exact Hj.
  - intros j Hj. unfold L, whole, mesh_config. cbn [cf_rec r_cx r_cy]. fold d3. rewrite geo_up by exact Hj. auto.
  - intros j Hj. apply centroid_up. exact Hj.
  - intros j Hj. unfold L, whole, mesh_config. cbn [cf_x]. fold d3. rewrite !(vertex_up j) by (assumption || lia). reflexivity.
  - intros j i Hj Hi. unfold L, whole, mesh_config. cbn [cf_dom normal_x normal_y]. rewrite !edge_div, !edge_mod by exact Hi. fold d3.
    rewrite geo_up by exact Hj. auto.
  - intros j i Hj Hi. unfold L, whole, mesh_config. cbn [cf_dom edgelengths]. rewrite !edge_div, !edge_mod by exact Hi. fold d3.
    rewrite geo_up by exact Hj. auto.
  - intros j i Hj Hi. unfold L, whole, mesh_config. cbn [cf_rec r_ex r_ey]. rewrite !edge_div, !edge_mod by exact Hi. fold d3.
    rewrite midpoint_up by exact Hj. auto.
  - intros j i Hj Hi H. assert (Hj' : j < length lts) by (rewrite (ip_number _ _ _ _ _ _ _ _ _ _ IP); exact Hj).
    apply (IntL j i Hj' Hi) in H. destruct (NbL j i Hj' Hi H) as [-> ->].
    destruct (local_neighbour j i Hj Hi H) as (m & e & Hm & E1 & E2 & E3 & E4).
    destruct (NbC (up j) i (U_range j Hj) Hi ltac:(rewrite E3; lia)) as [-> ->]. rewrite E1, E2, E3, E4, Nat2Z.id. auto.
  - intros j i Hj Hi H. assert (Hj1 : j < length U) by lia. assert (Hj' : j < length lts) by (rewrite (ip_number _ _ _ _ _ _ _ _ _ _ IP); exact Hj1).
    apply (IntL j i Hj' Hi). apply (IntC (up j) i (U_range j Hj1) Hi) in H.
    destruct (whole_interior (up j) i (U_range j Hj1) Hi H) as (k' & E & Hk').
    apply (open_edge j i k' Hj1 Hi E). apply (U_near 1); [|exact Hk'|lia].
    apply (near_step _ _ 0 (up j) i k'); [|exact Hi|exact E]. apply near_part. apply U_full. exact Hj.
  - intros j i i' Hj Hi Hi' H. assert (Hj1 : j < length U) by lia. assert (Hj' : j < length lts) by (rewrite (ip_number _ _ _ _ _ _ _ _ _ _ IP); exact Hj1).
    apply (IntL j i Hj' Hi) in H. destruct (NbL j i Hj' Hi H) as [-> _].
    destruct (local_neighbour j i Hj1 Hi H) as (m & e & Hm & -> & _ & E3 & _). rewrite Nat2Z.id. cbv zeta. intros H2.
    assert (Hm' : m < length lts) by (rewrite (ip_number _ _ _ _ _ _ _ _ _ _ IP); exact Hm).
    apply (IntL m i' Hm' Hi'). apply (IntC (up m) i' (U_range m Hm) Hi') in H2.
    destruct (whole_interior (up m) i' (U_range m Hm) Hi' H2) as (k' & E & Hk').
    apply (open_edge m i' k' Hm Hi' E). apply (U_near 2); [|exact Hk'|lia].
    apply (near_step _ _ 1 (up m) i' k'); [|exact Hi'|exact E].
    apply (near_step _ _ 0 (up j) i (up m)); [|exact Hi|exact E3]. apply near_part. apply U_full. exact Hj.
  - intros j i Hj Hi H. assert (Hj1 : j < length U) by lia. assert (Hj' : j < length lts) by (rewrite (ip_number _ _ _ _ _ _ _ _ _ _ IP); exact Hj1).
    assert (Hn : (nb rows (up j) i < 0)%Z).
    { destruct (Z.lt_ge_cases (nb rows (up j) i) 0) as [G|G]; [exact G|]. apply (IntC (up j) i (U_range j Hj1) Hi) in G. congruence. }
    assert (Hn' : (nb lrows j i < 0)%Z).
    { apply (ip_open _ _ _ _ _ _ _ _ _ _ IP j (up j) i (U_error j Hj1) Hi). intros k' E. fold rows in E. lia. }
    destruct (config_boundary T (d_nodes D) ts rows bd (fun _ => 1%Z) (d_quan D) bmap (proj1 whole_facts) (proj1 (proj2 whole_facts))
      (proj2 (proj2 whole_facts)) (up j) i (U_range j Hj1) Hi Hn) as (tag & ET & C1 & C2 & C3 & C4).
    destruct (config_boundary T (l_nodes l) lts lrows lbd (full_flags (pr_recv pr)) (l_quan l) bmap' (ip_built _ _ _ _ _ _ _ _ _ _ IP)
      (proj1 local_keys) (proj2 local_keys) j i Hj' Hi Hn') as (tag' & ET' & C1' & C2' & C3' & C4').
    assert (tag' = tag).
    { rewrite (ip_tags _ _ _ _ _ _ _ _ _ _ IP j (up j) i (U_error j Hj1) Hi) in ET'. fold bd in ET'. rewrite ET in ET'.
      apply Z.ltb_lt in Hn'. rewrite Hn' in ET'. congruence. }
    subst tag'. assert (Hin : In ((up j, i), tag) bd) by (apply NeighbourProofs.lookup_In; exact ET).
    assert (Eo : bmap' tag = bmap tag).
    { unfold bmap'. destruct (Nat.eqb_spec tag ghost_tag) as [E|_]; [|reflexivity]. subst tag. exfalso. eapply Htag. exact Hin. }
    rewrite Eo in C3', C4'. cbv zeta. split; [exact C1'|]. split; [exact C2'|]. split; [exact C1|]. split; [exact C2|].
    exists (bmap tag). split; [eapply Hmap; exact Hin|]. auto.
Qed.
End Proc.

(** ** Messages *)
Lemma rng_nf p : p < nproc -> (snd (rng tpp p) - fst (rng tpp p) = Z.of_nat (nf p))%Z.
Proof.
  intros Hp. unfold tpp. rewrite (rng_tpp epart (epart_ne D nproc epart Hnproc Hpart p Hp) p); [cbn [fst snd]; unfold nf; lia|].
  rewrite (epart_max D nproc epart Hnproc Hpart p Hp). exact Hp.
Qed.

Section Messages.
Variables (p : nat) (brows : list row) (U : list nat) (r s : commun).
Hypothesis Hp : p < nproc.
Hypothesis Hnb : forall t m, (0 <= t < total tpp)%Z -> In m (mesh_neighbours brows t) -> (m < total tpp)%Z.
Hypothesis HL : local_commun (mesh_neighbours brows) false tpp w p = Some (r, s).
Hypothesis NDU : NoDup U.
Let V := arange (fst (rng tpp p)) (snd (rng tpp p)) ++ ghosts_of (mesh_neighbours brows) tpp w p.
Hypothesis HV : forall j, nth_error U j = match nth_error V j with Some g => nth_error order (Z.to_nat g) | None => None end.

Lemma p_tpp : p < length tpp.
Proof. unfold tpp. rewrite (tpp_len D nproc epart Hnproc Hpart p Hp). exact Hp. Qed.

(** Everything received is the value of a ghost. *)
Lemma received_ghost c locals globals i id : In (c, (locals, globals)) r -> nth_error locals i = Some id ->
  c < nproc /\ dget Nat.eqb r c = Some (locals, globals) /\
  exists g, nth_error globals i = Some g /\ (Z.of_nat (nf p) <= id)%Z /\ nth_error V (Z.to_nat id) = Some g.
Proof.
  intros Hin Hid. destruct (recv_keys _ _ _ _ _ _ _ HL) as [ND K].
  assert (Hc : c < length tpp) by (apply K; apply (in_map fst) in Hin; exact Hin).
  pose proof (dget_entry _ _ _ ND Hin) as E.
  destruct (C34_local_ids _ _ _ Hnb false p r s p_tpp HL) as [A _]. specialize (A c locals globals Hc E).
  destruct (Forall2_nth _ _ _ _ _ A Hid) as (g & Hg & G1 & G2). rewrite (rng_nf p Hp) in G1.
  split; [unfold tpp in Hc; rewrite (tpp_len D nproc epart Hnproc Hpart p Hp) in Hc; exact Hc|]. split; [exact E|]. exists g. auto.
Qed.
(** Every ghost is received. *)
Lemma ghost_received j : nf p <= j < length U -> exists c locals globals, In (c, (locals, globals)) r /\ In (Z.of_nat j) locals.
Proof.
  intros [H1 H2]. destruct (nth_error U j) as [k|] eqn:Ek; [|apply nth_error_None in Ek; lia].
  pose proof Ek as Ev. rewrite HV in Ev. destruct (nth_error V j) as [g|] eqn:Eg; [|discriminate].
  assert (Hg : In g (ghosts_of (mesh_neighbours brows) tpp w p)).
  { unfold V in Eg. rewrite nth_error_app2 in Eg by (rewrite arange_length, (rng_nf p Hp); lia). eapply nth_error_In. exact Eg. }
  destruct (C34_ghosts_owned _ _ _ Hnb false p r s p_tpp HL) as [A _]. destruct (A g Hg) as (c & Hc & _ & _ & locals & globals & E & I & _).
  exists c, locals, globals. split; [apply entry_dget; exact E|]. apply In_nth_error in I as [i Hi].
  destruct (C34_local_ids _ _ _ Hnb false p r s p_tpp HL) as [B _]. specialize (B c locals globals (proj1 Hc) E).
  destruct (Forall2_nth' _ _ _ _ _ B Hi) as (id & Hid & G1 & G2). rewrite (rng_nf p Hp) in G1. fold V in G2.
  assert (EU : nth_error U (Z.to_nat id) = nth_error U j) by (rewrite !HV, G2, Eg; reflexivity).
  assert (Z.to_nat id = j).
  { apply (proj1 (NoDup_nth_error U) NDU); [apply nth_error_Some; rewrite EU, Ek; discriminate|exact EU]. }
  replace (Z.of_nat j) with id by lia. eapply nth_error_In. exact Hid.
Qed.

Lemma flags j : j < length U -> full_flags r j = if Nat.ltb j (nf p) then 1%Z else 0%Z.
Proof.
  intros Hj. rewrite full_flags_spec. destruct (Nat.ltb_spec j (nf p)) as [H|H].
  - destruct (existsb _ r) eqn:E; [|reflexivity]. exfalso. apply existsb_exists in E as ((c & locals & globals) & Hin & E).
    cbn [fst snd] in E. apply existsb_exists in E as (id & Hid & E). apply Nat.eqb_eq in E. apply In_nth_error in Hid as [i Hi].
    destruct (received_ghost c locals globals i id Hin Hi) as (_ & _ & g & _ & G & _). lia.
  - destruct (ghost_received j (conj H Hj)) as (c & locals & globals & Hin & Hid).
    replace (existsb _ r) with true; [reflexivity|]. symmetry. apply existsb_exists. exists (c, (locals, globals)). split; [exact Hin|].
    cbn [fst snd]. apply existsb_exists. exists (Z.of_nat j). split; [exact Hid|]. rewrite Nat2Z.id. apply Nat.eqb_refl.
Qed.
End Messages.

Lemma message_spec procs p j : (forall p, p < nproc -> holds p (procs p)) -> p < nproc -> nf p <= j < length (pr_l2g (procs p)) ->
  let c := fst (message_source procs p j) in let j' := snd (message_source procs p j) in
  c < nproc /\ j' < nf c /\ nth_error (pr_l2g (procs c)) j' = nth_error (pr_l2g (procs p)) j.
Proof.
  intros HP Hp Hj. destruct (HP p Hp) as (U & l & lts & lrows & lbd & V & _ & IP & _ & E1 & _ & HV & brows & _ & (b & bs & EB & EBr) & HL & -> & Hnb).
  assert (LU : length (pr_l2g (procs p)) = length U) by (rewrite E1; apply map_length). rewrite LU in Hj.
  pose proof (ip_distinct _ _ _ _ _ _ _ _ _ _ IP) as ND.
  destruct (ghost_received p brows U _ _ Hp Hnb HL ND HV j Hj) as (c0 & locals0 & globals0 & Hin0 & Hid0).
  unfold message_source. destruct (find _ (pr_recv (procs p))) as [[c [locals globals]]|] eqn:F.
  2:{ exfalso. apply find_none with (x := (c0, (locals0, globals0))) in F; [|exact Hin0]. cbn [fst snd] in F.
      apply zmem_In in Hid0. congruence. }
  apply find_some in F as [Hin Hid]. cbn [fst snd] in Hid. apply zmem_In in Hid.
  destruct (index_of_spec _ _ Hid) as (i & -> & Hi).
  destruct (received_ghost p brows _ _ Hp Hnb HL c locals globals i _ Hin Hi) as (Hc & ED & g & Hg & _ & EV).
  rewrite Nat2Z.id in EV. cbn [fst snd]. cbv zeta.
  destruct (HP c Hc) as (U' & l' & lts' & lrows' & lbd' & V' & _ & IP' & _ & E1' & _ & HV' & brows' & _ & (b' & bs' & EB' & EBr') & HL' & -> & _).
  assert (brows' = brows) by (rewrite EB in EB'; injection EB' as _ X; congruence). rewrite H in HV', HL'.
  pose proof (C34_patterns_match _ _ _ Hnb false false c p _ _ _ _ (p_tpp c Hc) (p_tpp p Hp) HL' HL) as PM.
  rewrite ED in PM. cbn [option_map snd] in PM. destruct (dget Nat.eqb (pr_send (procs c)) p) as [[sent globals']|] eqn:ES; [|discriminate].
  cbn [option_map snd] in PM. injection PM as ->.
  destruct (C34_local_ids _ _ _ Hnb false c _ _ (p_tpp c Hc) HL') as [_ B]. specialize (B p sent globals (p_tpp p Hp) ES).
  destruct (Forall2_nth' _ _ _ _ _ B Hg) as (sd & Hs & S1 & S2). rewrite (rng_nf c Hc) in S1. rewrite (nth_error_nth _ _ 0%Z Hs).
  split; [exact Hc|]. split; [lia|]. rewrite E1, E1', !nth_error_map, HV, HV', EV, S2. reflexivity.
Qed.

(** ** The whole distribution *)
Definition up_of (pr : process) (j : nat) : nat := Z.to_nat (nth j (pr_l2g pr) 0%Z).

Lemma up_nth pr U : pr_l2g pr = map Z.of_nat U -> up_of pr = fun j => nth j U 0.
Proof.
  intros E. apply functional_extensionality. intros j. unfold up_of. rewrite E. change 0%Z with (Z.of_nat 0). rewrite map_nth. apply Nat2Z.id.
Qed.

Lemma is_distribution procs : (forall p, p < nproc -> holds p (procs p)) ->
  distribution whole nproc (fun p => pr_config (procs p)) (fun p => up_of (procs p)) nf (message_source procs).
Proof.
  intros HP. split.
  - lia.
  - apply whole_ok.
  - reflexivity.
  - intros p Hp. destruct (HP p Hp) as (U & l & lts & lrows & lbd & V & _ & IP & -> & _).
    apply (local_ok p (procs p) U l lts lrows lbd IP).
  - intros p Hp. destruct (HP p Hp) as (U & l & lts & lrows & lbd & V & _ & IP & -> & E1 & _ & HV & brows & _ & _ & HL & -> & Hnb).
    rewrite (up_nth _ U E1). apply (part_submesh p (procs p) U l lts lrows lbd IP).
    intros j Hj. apply (flags p brows U _ _ Hp Hnb HL (ip_distinct _ _ _ _ _ _ _ _ _ _ IP) HV j Hj).
  - intros k Hk. change (N whole) with n in Hk. set (p := nth k epart 0).
    assert (Lk : k < length epart) by (destruct Hpart as [-> _]; exact Hk).
    assert (Hp : p < nproc) by (apply Hpart; apply nth_In; exact Lk).
    destruct (HP p Hp) as (U & l & lts & lrows & lbd & V & _ & IP & _ & E1 & _).
    destruct (part_split p U l lts lrows lbd IP) as (A & _ & B & _).
    assert (I : In k (firstn (nf p) U)) by (rewrite B; apply class_In; auto).
    apply (In_nth _ _ 0) in I as (j & Hj & E). rewrite firstn_length in Hj.
    exists p, j. split; [exact Hp|]. split; [lia|]. rewrite (up_nth _ U E1). rewrite nth_firstn_lt in E by lia. exact E.
  - intros p j Hp Hj. destruct (HP p Hp) as (U & l & lts & lrows & lbd & V & _ & IP & EC & E1 & _).
    assert (LN : N (pr_config (procs p)) = length (pr_l2g (procs p))).
    { rewrite EC, E1, map_length. apply (NL p (procs p) U l lts lrows lbd IP). }
    rewrite LN in Hj. destruct (message_spec procs p j HP Hp Hj) as (A & B & E). split; [exact A|]. split; [exact B|].
    unfold up_of. rewrite <- !nth_default_eq. unfold nth_default. rewrite E. reflexivity.
Qed.

(** The initial states agree. *)
Lemma is_start procs X0 X0' t0 : (forall p, p < nproc -> holds p (procs p)) ->
  same_start whole nproc (fun p => pr_config (procs p)) (fun p => up_of (procs p))
    (fun p => start_state (X0 p) t0 (pr_quan (procs p))) (start_state X0' t0 (d_quan D)).
Proof.
  intros HP. split.
  - intros p Hp. destruct (HP p Hp) as (U & l & lts & lrows & lbd & V & _ & IP & EC & E1 & E2 & _).
    eexists. eexists. split; [reflexivity|]. split; [reflexivity|]. split; [|split; [|split; [|reflexivity]]].
    + intros j Hj. rewrite EC in Hj. rewrite (NL p (procs p) U l lts lrows lbd IP) in Hj. rewrite (up_nth _ U E1), E2.
      cbn [RKModel.q start_state x_xmom x_ymom]. rewrite !(centroid_up p (procs p) U l lts lrows lbd IP) by exact Hj. auto.
    + intros j _. split; reflexivity.
    + intros k _. split; reflexivity.
  - intros p Hp. repeat split; reflexivity.
  - intros p Hp. apply C08_invariant_initial; cbn; [lia|reflexivity|reflexivity].
  - apply C08_invariant_initial; cbn; [lia|reflexivity|reflexivity].
  - change (minimum nproc (fun _ => t0) = t0). unfold minimum. generalize (seq 1 (nproc - 1)) as m.
    induction m as [|x m IH]; [reflexivity|]. cbn [fold_left]. rewrite Rmin_left by lra. exact IH.
  - reflexivity.
Qed.
End Dist.
