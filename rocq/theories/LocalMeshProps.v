(** C79: the mesh every process gets is a part of the mesh of the domain. *)
From Coq Require Import List ZArith Arith Lia Bool Permutation Sorted.
From Verif Require Import NeighbourModel NeighbourProofs NeighbourProps DistributeModel DistributeProofs DistributeProofs2
  DistributeProps LocalMeshModel LocalMeshProofs LocalMeshProofs2 LocalMeshProofs3 LocalMeshProofs4.
Import ListNotations.

(** * Specification *)

(** The domain that is distributed: triangles, nodes, what [Mesh] computed from
    them and from the tags [b0] of the user, and quantities by vertices. *)
Record domain {P Q : Type} := {
  d_nodes : list P;
  d_ts : list tri;
  d_rows : list row;
  d_bd : bdict;
  d_quan : list (nat * list Q);
  d_default : nat
}.
Arguments domain : clear implicits.

Record valid {P Q} (D : domain P Q) : Prop := {
  va_mesh : exists b0 bs, NoDup (map fst b0) /\ tags_boundary_edges (d_rows D) b0 /\
              mesh_boundary (d_ts D) (d_default D) b0 = Some (d_rows D, d_bd D, bs);
  va_nodes : forall t v, In t (d_ts D) -> node t v < length (d_nodes D);
  va_quan : forall q, In q (d_quan D) -> length (snd q) = length (d_ts D);
  va_names : NoDup (map fst (d_quan D))
}.

(** What metis has to return: a process for every triangle and a triangle for
    every process. *)
Definition partition (nt nproc : nat) (epart : list nat) : Prop :=
  length epart = nt /\ (forall c, In c epart -> c < nproc) /\ (forall c, c < nproc -> In c epart).

(** Triangles at most [d] edges away. *)
Inductive near (rows : list row) (part : nat -> Prop) : nat -> nat -> Prop :=
| near_part : forall d k, part k -> near rows part d k
| near_step : forall d k i k', near rows part d k -> i < 3 -> nb rows k i = Z.of_nat k' -> near rows part (S d) k'.

(** Process [p] of a partition, with ghost layers of width [w], holds the
    triangles [U] of the domain as the mesh [lts], [lrows], [lbd] and the data
    [l]. *)
Record is_part {P Q} (D : domain P Q) (ghost_tag : nat) (epart : list nat) (w p : nat)
  (U : list nat) (l : local P Q) (lts : list tri) (lrows : list row) (lbd : bdict) : Prop := {
  (* first its own triangles in their order, then exactly the others that are at
     most w edges away *)
  ip_full : firstn (l_nfull l) U = filter (fun k => Nat.eqb (nth k epart 0) p) (seq 0 (length (d_ts D)));
  ip_ghost : forall k, In k (skipn (l_nfull l) U) <->
     k < length (d_ts D) /\ nth k epart 0 <> p /\
     near (d_rows D) (fun k => k < length (d_ts D) /\ nth k epart 0 = p) (Nat.max w 1) k;
  ip_distinct : NoDup U;
  ip_number : length lts = length U;
  (* the corners of triangle j are those of triangle U[j] of the domain *)
  ip_corners : forall j k t v, nth_error U j = Some k -> nth_error lts j = Some t -> v < 3 ->
     nth_error (l_nodes l) (node t v) = nth_error (d_nodes D) (node (nth k (d_ts D) d3) v) /\
     nth_error (l_node_l2g l) (node t v) = Some (Z.of_nat (node (nth k (d_ts D) d3) v));
  ip_nodes : NoDup (l_node_l2g l) /\ length (l_nodes l) = length (l_node_l2g l) /\
     forall m g, nth_error (l_node_l2g l) m = Some g ->
       exists k, g = Z.of_nat k /\ k < length (d_nodes D) /\ nth_error (l_nodes l) m = nth_error (d_nodes D) k;
  (* neighbours *)
  ip_built : build_neighbour_structure lts = Some lrows;
  ip_neighbour : forall j k i m k' e, nth_error U j = Some k -> i < 3 -> nth_error U m = Some k' ->
     (neighbour_is lrows j i m e <-> neighbour_is (d_rows D) k i k' e);
  ip_inside : forall j k i m e, nth_error U j = Some k -> i < 3 -> neighbour_is lrows j i m e -> m < length U;
  ip_open : forall j k i, nth_error U j = Some k -> i < 3 ->
     ((nb lrows j i < 0)%Z <-> forall k', nb (d_rows D) k i = Z.of_nat k' -> ~ In k' U);
  (* the neighbours of its own triangles are all there *)
  ip_closed : forall j k i k', nth_error U j = Some k -> j < l_nfull l -> i < 3 ->
     nb (d_rows D) k i = Z.of_nat k' -> In k' U;
  (* boundary tags: those of the domain; 'ghost' where the part is cut off *)
  ip_tags : forall j k i, nth_error U j = Some k -> i < 3 ->
     lookup lbd (j, i) = if (nb lrows j i <? 0)%Z
       then Some (match lookup (d_bd D) (k, i) with Some t => t | None => ghost_tag end) else None;
  ip_tag_keys : NoDup (map fst lbd) /\ forall j i, In (j, i) (map fst lbd) -> j < length U /\ i < 3;
  (* quantities *)
  ip_quan : Forall2 (fun q lq => fst q = fst lq /\ length (snd lq) = length U /\
     forall j k, nth_error U j = Some k -> nth_error (snd lq) j = nth_error (snd q) k) (d_quan D) (l_quan l)
}.

(** * Proof *)

Lemma rename_id t : rename (fun x => x) t = t.
Proof. destruct t as [[a b] c]. reflexivity. Qed.

(** What the constructor of [Mesh] guarantees, from C44. *)
Lemma mesh_facts ts default b rows bd bs : NoDup (map fst b) -> build_neighbour_structure ts = Some rows ->
  tags_boundary_edges rows b -> mesh_boundary ts default b = Some (rows, bd, bs) ->
  NoDup (map fst bd) /\
  (forall k i, In (k, i) (map fst bd) <-> k < length ts /\ i < 3 /\ (nb rows k i < 0)%Z) /\
  (forall k i, k < length ts -> i < 3 ->
    ((0 <= nb rows k i)%Z -> nb (b_rows bs) k i = nb rows k i) /\ ((nb rows k i < 0)%Z -> (nb (b_rows bs) k i < 0)%Z)) /\
  (forall k i, k < length ts -> i < 3 -> (nb rows k i < 0)%Z ->
    lookup bd (k, i) = Some (match lookup b (k, i) with Some t => t | None => default end)).
Proof.
  intros ND HB HT HM. destruct (C44_boundary_enumeration ts default b rows bd bs ND HB HT HM) as (N & L & K & X & PX & _ & _ & _ & M1 & M2 & _).
  assert (Keys : forall k i, In (k, i) (map fst bd) <-> k < length ts /\ i < 3 /\ (nb rows k i < 0)%Z).
  { intros k i. split.
    - intros H. destruct (K k i H) as [A B]. split; [exact A|]. split; [exact B|].
      specialize (L k i A B). destruct (Z.ltb_spec (nb rows k i) 0) as [|G]; [assumption|].
      apply lookup_None in L. contradiction.
    - intros (A & B & C). specialize (L k i A B). apply Z.ltb_lt in C. rewrite C in L. eapply lookup_Some_In. exact L. }
  split; [exact N|]. split; [exact Keys|]. split.
  - intros k i A B. split.
    + intros H. apply M2. intros I. apply (Permutation_in _ PX) in I. apply Keys in I. lia.
    + intros H. assert (I : In (k, i) (map fst bd)) by (apply Keys; auto).
      apply (Permutation_in _ (Permutation_sym PX)) in I. apply In_nth_error in I as [m Hm].
      destruct (M1 m k i Hm) as [-> _]. lia.
  - intros k i A B C. rewrite (L k i A B). apply Z.ltb_lt in C. rewrite C. reflexivity.
Qed.

Section C79.
Context {P Q : Type}.
Variable D : domain P Q.
Hypothesis VD : valid D.
Variable nproc : nat.
Variable epart : list nat.
Hypothesis Hnproc : 2 <= nproc.
Hypothesis Hpart : partition (length (d_ts D)) nproc epart.
Variable ghost_tag w p : nat.
Hypothesis Hp : p < nproc.
Let ts := d_ts D.
Let rows := d_rows D.
Let bd := d_bd D.
Let n := length ts.
Let order := argsort epart.
Let tpp := bincount epart.
Let ts' := map (fun k => nth k ts d3) order.

Lemma epart_ne : epart <> [].
Proof. intros E. destruct Hpart as (_ & _ & H). specialize (H 0 ltac:(lia)). rewrite E in H. destruct H. Qed.
Lemma epart_len : length epart = n.
Proof. apply Hpart. Qed.
Lemma epart_max : S (fold_right Nat.max 0 epart) = nproc.
Proof.
  destruct Hpart as (_ & A & B). assert (L : nproc - 1 <= fold_right Nat.max 0 epart) by (apply max_ge, B; lia).
  assert (G : forall l, (forall c, In c l -> c < nproc) -> fold_right Nat.max 0 l < nproc).
  { induction l as [|c l IH]; intros H; cbn; [lia|]. pose proof (H c (or_introl eq_refl)).
    specialize (IH (fun c Hc => H c (or_intror Hc))). lia. }
  specialize (G epart A). lia.
Qed.
Lemma tpp_len : length tpp = nproc.
Proof. unfold tpp. rewrite (tpp_length epart epart_ne). apply epart_max. Qed.
Lemma tpp_pos : forallb (fun c => Nat.ltb 0 c) tpp = true.
Proof.
  apply forallb_forall. intros c Hc. unfold tpp in Hc. rewrite (tpp_class epart epart_ne) in Hc.
  apply in_map_iff in Hc as (x & <- & Hx). apply in_seq in Hx. apply Nat.ltb_lt.
  destruct Hpart as (_ & _ & B). assert (I : In x epart) by (apply B; rewrite <- epart_max; lia).
  apply (In_nth epart x 0) in I as (i & Hi & Ei).
  assert (C : In i (class epart x)) by (apply class_In; auto). destruct (class epart x); [destruct C|]. cbn. lia.
Qed.
Lemma order_lt k : In k order <-> k < n.
Proof. unfold order. rewrite (order_In epart). rewrite epart_len. reflexivity. Qed.

Lemma divide_run : exists v, pmesh_divide ts bd (d_quan D) nproc epart = Some v /\
  v_triangles v = ts' /\ v_boundary v = new_boundary tpp order bd /\ v_tpp v = tpp /\ v_p2s v = order /\
  Forall2 (fun q vq => fst q = fst vq /\ rows_of (snd q) (map Z.of_nat order) (snd vq)) (d_quan D) (v_quantities v).
Proof.
  unfold pmesh_divide. destruct (Nat.eqb_spec nproc 1) as [|_]; [lia|]. fold tpp order.
  rewrite tpp_pos, tpp_len, Nat.eqb_refl. cbn [andb].
  rewrite (take_nat ts order d3) by (intros i Hi; apply order_lt in Hi; exact Hi). fold ts'.
  assert (HQ : forall q, In q (d_quan D) -> length (snd q) = n) by (apply VD).
  assert (E : exists qs', osequence (map (fun q => option_map (pair (fst q)) (take (snd q) (map Z.of_nat order))) (d_quan D)) = Some qs' /\
    Forall2 (fun q vq => fst q = fst vq /\ rows_of (snd q) (map Z.of_nat order) (snd vq)) (d_quan D) qs').
  { clear - HQ Hpart. induction (d_quan D) as [|q m IH]; cbn [map osequence].
    - exists []. split; [reflexivity|constructor].
    - destruct IH as (qs' & E & F). { intros x Hx. apply HQ. right. exact Hx. }
      destruct (take_rows (snd q) (map Z.of_nat order)) as (g & Eg & Fg).
      { intros i Hi. apply in_map_iff in Hi as (k & <- & Hk). rewrite (HQ q (or_introl eq_refl)).
        unfold order in Hk. apply (order_In epart) in Hk. destruct Hpart as [L _]. unfold n, ts. lia. }
      rewrite Eg. cbn [option_map]. rewrite E. eexists. split; [reflexivity|]. constructor; [|exact F]. auto. }
  destruct E as (qs' & -> & F). eexists. split; [reflexivity|]. cbn. auto 10.
Qed.

Lemma domain_facts : build_neighbour_structure ts = Some rows /\ NoDup (map fst bd) /\
  (forall k i, In (k, i) (map fst bd) <-> k < n /\ i < 3 /\ (nb rows k i < 0)%Z).
Proof.
  destruct (va_mesh D VD) as (b0 & bs & H1 & H2 & H3).
  assert (HB : build_neighbour_structure ts = Some rows).
  { unfold mesh_boundary in H3. fold ts rows in H3. destruct (build_neighbour_structure ts) as [r|]; [|discriminate].
    destruct (boundary_dictionary r (d_default D) b0); [|discriminate]. injection H3 as <- _ _. reflexivity. }
  destruct (mesh_facts ts (d_default D) b0 rows bd bs H1 HB H2 H3) as (A & B & _). auto.
Qed.

Lemma distribute_spec received : exists U l lts lrows lbd lbs,
  distribute received (d_nodes D) ts bd (d_quan D) (d_default D) ghost_tag nproc epart w p = Some l /\
  local_mesh l (d_default D) = Some (lts, (lrows, lbd, lbs)) /\
  is_part D ghost_tag epart w p U l lts lrows lbd /\
  (received = false -> l_tri_l2g l = map Z.of_nat U) /\
  (* the numbers used by the communication patterns *)
  (exists V brows, (forall j, nth_error U j = match nth_error V j with Some g => nth_error order (Z.to_nat g) | None => None end) /\
    V = arange (fst (rng tpp p)) (snd (rng tpp p)) ++ ghosts_of (mesh_neighbours brows) tpp w p /\
    (received = true -> l_tri_l2g l = V) /\
    (exists b bs, mesh_boundary ts' (d_default D) (new_boundary tpp order bd) = Some (b, bs) /\ brows = b_rows bs) /\
    (forall t m, (0 <= t < total tpp)%Z -> In m (mesh_neighbours brows t) -> (m < total tpp)%Z)).
Proof.
  destruct domain_facts as (HB & NDbd & Hbd).
  pose proof epart_ne as NE. pose proof epart_len as EL. pose proof epart_max as EM.
  assert (Hp' : p < length tpp) by (rewrite tpp_len; exact Hp).
  (* the reordered mesh *)
  destruct (part_neighbours ts rows HB order) with (f := fun x : nat => x) as (rows' & HB' & L' & HN').
  { intros k Hk. apply order_lt in Hk. exact Hk. }
  { apply order_NoDup. }
  { auto. }
  assert (Ets : map (fun k => rename (fun x => x) (nth k ts d3)) order = ts').
  { unfold ts'. apply map_ext. intros k. apply rename_id. }
  rewrite Ets in HB'.
  assert (Lts' : length ts' = n) by (unfold ts'; rewrite map_length; unfold order; rewrite order_length, EL; reflexivity).
  assert (Hbdn : forall k i, In (k, i) (map fst bd) -> k < length epart) by (intros k i H; apply Hbd in H; rewrite EL; tauto).
  set (nb' := new_boundary tpp order bd).
  assert (NDnb : NoDup (map fst nb')) by (apply (newb_NoDup epart NE bd NDbd Hbdn)).
  assert (Onth : forall j, j < n -> exists k, nth_error order j = Some k /\ k < n).
  { intros j Hj. destruct (nth_error order j) as [k|] eqn:E.
    - exists k. split; [reflexivity|]. apply order_lt. eapply nth_error_In. exact E.
    - apply nth_error_None in E. unfold order in E. rewrite order_length, EL in E. lia. }
  (* neighbours in the new numbering *)
  assert (NbT : forall j k i, nth_error order j = Some k -> i < 3 ->
     (forall j' k', nth_error order j' = Some k' -> (nb rows' j i = Z.of_nat j' <-> nb rows k i = Z.of_nat k')) /\
     ((nb rows' j i < 0)%Z <-> (nb rows k i < 0)%Z)).
  { intros j k i Hj Hi. destruct (HN' j k i Hj Hi) as (A & B & C).
    assert (Kn : k < n) by (apply order_lt; eapply nth_error_In; exact Hj).
    assert (He : forall X rr jj, build_neighbour_structure X = Some rr -> jj < length X -> (0 <= nb rr jj i)%Z ->
       exists m e, neighbour_is rr jj i m e).
    { intros X rr jj HX Lj H0.
      set (t := nth jj X d3). assert (E : nth_error X jj = Some t) by (apply nth_error_nth'; exact Lj).
      destruct (C06_boundary_iff_no_opposite_edge X rr jj i (node t (match i with 0 => 1 | 1 => 2 | _ => 0 end))
        (node t (match i with 0 => 2 | 1 => 0 | _ => 1 end)) HX) as [_ G]; [apply has_edge_node; exists t; auto|].
      apply G. exact H0. }
    assert (Jn : j < length ts') by (rewrite Lts'; rewrite <- EL, <- (order_length epart); apply nth_error_Some; fold order; congruence).
    split.
    - intros j' k' Hj'. split; intros H.
      + destruct (He ts' rows' j HB' Jn ltac:(lia)) as (m & e & Hm). assert (m = j') by (destruct Hm; lia). subst m.
        apply (A j' k' e Hj') in Hm. apply Hm.
      + destruct (He ts rows k HB Kn ltac:(lia)) as (m & e & Hm). assert (m = k') by (destruct Hm; lia). subst m.
        apply (A j' k' e Hj') in Hm. apply Hm.
    - rewrite C. split.
      + intros H. destruct (Z.lt_ge_cases (nb rows k i) 0) as [|G]; [assumption|]. exfalso.
        apply (H (Z.to_nat (nb rows k i))); [lia|]. apply order_lt.
        pose proof (nb_in_range ts rows tpp p HB Hp' k i Kn Hi). unfold n. lia.
      + intros H k' E. lia. }
  assert (TB : tags_boundary_edges rows' nb').
  { intros [j i] t H. cbn [fst snd].
    assert (Hk : In (j, i) (map fst nb')) by (change (j, i) with (fst ((j, i), t)); apply in_map; exact H).
    apply (newb_keys epart NE bd NDbd Hbdn) in Hk as (k & Hj & Hk). apply Hbd in Hk as (_ & Hi & Hk).
    apply (NbT j k i Hj Hi). exact Hk. }
  assert (MB : exists bd' bs', mesh_boundary ts' (d_default D) nb' = Some (rows', bd', bs')).
  { unfold mesh_boundary. rewrite HB'. unfold boundary_dictionary.
    replace (keys_ok (length rows') nb') with true; [eauto|]. symmetry. unfold keys_ok. apply forallb_forall.
    intros [[j i] t] H. cbn [fst snd].
    assert (Hk : In (j, i) (map fst nb')) by (change (j, i) with (fst ((j, i), t)); apply in_map; exact H).
    apply (newb_keys epart NE bd NDbd Hbdn) in Hk as (k & Hj & Hk). apply Hbd in Hk as (_ & Hi & _).
    apply andb_true_iff. rewrite !Nat.ltb_lt. split; [|exact Hi]. rewrite (proj2 (rows_shape ts' rows' HB')), Lts', <- EL, <- (order_length epart).
    apply nth_error_Some. fold order in Hj |- *. congruence. }
  destruct MB as (bd' & bs' & MB).
  destruct (mesh_facts ts' (d_default D) nb' rows' bd' bs' NDnb HB' TB MB) as (NDbd' & Hbd' & Hbr' & Hlk').
  destruct divide_run as (v & EV & V1 & V2 & V3 & V4 & V5).
  (* the part of the process *)
  assert (Htpp : total tpp = Z.of_nat (length ts')).
  { unfold tpp. rewrite (total_tpp epart NE), EL, Lts'. reflexivity. }
  assert (Hnodes' : forall t v, In t ts' -> node t v < length (d_nodes D)).
  { intros t u Ht. unfold ts' in Ht. apply in_map_iff in Ht as (k & <- & Hk). apply (va_nodes D VD). apply nth_In.
    apply order_lt. exact Hk. }
  assert (Hq' : forall q, In q (v_quantities v) -> length (snd q) = length ts').
  { intros q Hq. clear - V5 Hq Lts' EL. induction V5 as [|a b la lb [E R] F IH]; [destruct Hq|].
    destruct Hq as [<-|Hq]; [|apply IH; exact Hq].
    destruct (rows_of_nth _ _ _ R) as [L _]. rewrite L, map_length. unfold order. rewrite order_length, EL, Lts'. reflexivity. }
  assert (Nq' : map fst (v_quantities v) = map fst (d_quan D)).
  { clear - V5. induction V5 as [|a b la lb [E R] F IH]; [reflexivity|]. cbn [map]. rewrite IH, E. reflexivity. }
  assert (NDq' : NoDup (map fst (v_quantities v))) by (rewrite Nq'; apply VD).
  pose proof (cell_run (d_nodes D) ts' rows' (b_rows bs') bd' ghost_tag (v_quantities v) tpp w p HB' Hbr' NDbd' Hbd'
    Hnodes' Hq' NDq' Htpp Hp') as CR.
  set (lo := fst (rng tpp p)) in *. set (hi := snd (rng tpp p)) in *.
  set (G := ghosts_of (mesh_neighbours (b_rows bs')) tpp w p) in *. set (V := arange lo hi ++ G) in *.
  set (VN := map Z.to_nat V) in *.
  destruct CR as (c & l & C1 & C2 & C3 & C4 & C5 & C6 & C7 & C8 & C9 & C10).
  match type of C8 with _ = Some ?x => set (lts := x) in * end.
  destruct (local_run ts' rows' (b_rows bs') bd' ghost_tag (d_default D) tpp w p HB' Hbr' NDbd' Hbd' Htpp Hp' l C8 C9)
    as (lrows & lbd & lbs & LM & LB & LND & LK & LN).
  fold lo hi in LN, LK. fold G in LN, LK. fold V in LN, LK. fold VN in LN, LK.
  assert (VNlt : forall j, In j VN -> j < n).
  { intros j Hj. rewrite <- Lts'. apply (UN_ok ts' rows' (b_rows bs') tpp w p HB' Hbr' Htpp Hp'). exact Hj. }
  assert (VNnd : NoDup VN) by (apply (UN_NoDup ts' rows' (b_rows bs') tpp w p HB' Hbr' Htpp Hp')).
  assert (VNIn : forall k, In k VN <-> In (Z.of_nat k) V) by (intros k; apply (UN_In ts' rows' (b_rows bs') tpp w p HB' Hbr' Htpp Hp')).
  assert (VNn : forall j k, nth_error VN j = Some k <-> nth_error V j = Some (Z.of_nat k))
    by (intros j k; apply (UN_nth ts' rows' (b_rows bs') tpp w p HB' Hbr' Htpp Hp')).
  set (U := map (fun j => nth j order 0) VN).
  assert (Un : forall j k, nth_error U j = Some k <-> exists g, nth_error VN j = Some g /\ nth_error order g = Some k).
  { intros j k. unfold U. rewrite nth_error_map. split.
    - intros H. destruct (nth_error VN j) as [g|] eqn:E; [|discriminate]. injection H as <-. exists g. split; [reflexivity|].
      apply nth_error_nth'. unfold order. rewrite order_length, EL. apply VNlt. eapply nth_error_In. exact E.
    - intros (g & -> & Hg). cbn. f_equal. apply nth_error_nth. exact Hg. }
  assert (UIn : forall k, In k U <-> exists g, In g VN /\ nth_error order g = Some k).
  { intros k. split.
    - intros H. apply In_nth_error in H as [j H]. apply Un in H as (g & Hg & Hk). exists g. split; [|exact Hk]. eapply nth_error_In. exact Hg.
    - intros (g & Hg & Hk). apply In_nth_error in Hg as [j Hg]. apply (nth_error_In U j). apply Un. eauto. }
  assert (Ond : NoDup order) by apply order_NoDup.
  assert (Oinj : forall a b k, nth_error order a = Some k -> nth_error order b = Some k -> a = b).
  { intros a b k Ha Hb. apply (proj1 (NoDup_nth_error order) Ond); [apply nth_error_Some; congruence|congruence]. }
  assert (LU : length U = length VN) by (unfold U; apply map_length).
  assert (LV : length VN = length V) by (unfold VN; apply map_length).
  assert (Und : NoDup U).
  { unfold U. apply NoDup_map_inj; [exact VNnd|]. intros x y Hx Hy E. apply VNlt in Hx, Hy.
    destruct (Onth x Hx) as (k & Ek & _). destruct (Onth y Hy) as (k' & Ek' & _).
    rewrite (nth_error_nth _ _ 0 Ek), (nth_error_nth _ _ 0 Ek') in E. subst k'. eapply Oinj; eassumption. }
  assert (pm : p < S (fold_right Nat.max 0 epart)) by (rewrite EM; exact Hp).
  assert (Rng : rng tpp p = (Z.of_nat (proc_sum tpp p), (Z.of_nat (proc_sum tpp p) + Z.of_nat (length (class epart p)))%Z))
    by (apply (rng_tpp epart NE p pm)).
  assert (Elo : lo = Z.of_nat (proc_sum tpp p)) by (unfold lo; rewrite Rng; reflexivity).
  assert (Ehi : hi = (lo + Z.of_nat (length (class epart p)))%Z) by (unfold hi, lo; rewrite Rng; reflexivity).
  assert (Nf : l_nfull l = length (class epart p)) by (rewrite C4; lia).
  assert (VNsplit : VN = seq (proc_sum tpp p) (length (class epart p)) ++ map Z.to_nat G).
  { unfold VN, V. rewrite map_app. f_equal. unfold arange. rewrite map_map.
    replace (Z.to_nat (hi - lo)) with (length (class epart p)) by lia.
    rewrite Elo. clear. generalize (length (class epart p)) as m. intros m.
    assert (X : forall s, map (fun x => Z.to_nat (Z.of_nat (proc_sum tpp p) + Z.of_nat x)) (seq s m) = seq (proc_sum tpp p + s) m).
    { induction m as [|m IH]; intros s; [reflexivity|]. cbn [seq map]. f_equal; [lia|]. rewrite IH. f_equal. lia. }
    rewrite X. f_equal. lia. }
  assert (Ufull : firstn (l_nfull l) U = class epart p).
  { rewrite Nf. unfold U. rewrite VNsplit, map_app. rewrite firstn_app, firstn_all2 by (rewrite map_length, seq_length; lia).
    rewrite map_length, seq_length, Nat.sub_diag. cbn [firstn]. rewrite app_nil_r.
    rewrite <- (order_slice epart NE p pm) at 2. fold tpp order. apply (nth_ext _ _ 0 0).
    - rewrite map_length, seq_length, firstn_length, skipn_length. unfold order. rewrite order_length.
      pose proof (rng_ok ts' tpp p Htpp Hp') as (_ & _ & X). fold hi in X. rewrite Ehi, Elo in X. rewrite Lts', <- EL in X. lia.
    - intros i Hi. rewrite map_length, seq_length in Hi. rewrite nth_firstn_lt by exact Hi. rewrite nth_skipn_add.
      rewrite (nth_indep _ 0 (nth 0 order 0)) by (rewrite map_length, seq_length; exact Hi).
      rewrite (map_nth (fun j => nth j order 0)), seq_nth by exact Hi. reflexivity. }
  assert (Uskip : skipn (l_nfull l) U = map (fun j => nth j order 0) (map Z.to_nat G)).
  { rewrite Nf. unfold U. rewrite VNsplit, map_app. rewrite skipn_app, skipn_all2 by (rewrite map_length, seq_length; lia).
    rewrite map_length, seq_length, Nat.sub_diag. reflexivity. }
  assert (Range : forall g k, nth_error order g = Some k -> ((lo <= Z.of_nat g < hi)%Z <-> nth k epart 0 = p)).
  { intros g k Hg. apply (order_range epart NE p g k pm Hg). }
  assert (Hnr : forall t m, (0 <= t < total tpp)%Z -> In m (mesh_neighbours (b_rows bs') t) -> (m < total tpp)%Z)
    by (intros t m; apply (neigh_range ts' rows' (b_rows bs') tpp p HB' Hbr' Htpp Hp')).
  (* ghost layers in both numberings *)
  set (part := fun k => k < length (d_ts D) /\ nth k epart 0 = p).
  assert (Nr1 : forall d g, within (mesh_neighbours (b_rows bs')) lo hi d g -> forall j k, g = Z.of_nat j -> nth_error order j = Some k ->
     near rows part d k).
  { induction 1 as [d t Ht|d t m Ht IH Hm H0]; intros j k -> Hk.
    - apply near_part. split; [|apply (Range j k Hk); exact Ht]. apply order_lt. eapply nth_error_In. exact Hk.
    - assert (Tn : (0 <= t < Z.of_nat n)%Z).
      { rewrite <- Lts', <- Htpp. eapply (within_range (mesh_neighbours (b_rows bs')) tpp Hnr p d t Hp'). exact Ht. }
      destruct (Onth (Z.to_nat t) ltac:(lia)) as (kt & Hkt & Ktn).
      unfold mesh_neighbours in Hm. apply in_map_iff in Hm as (i & Ei & Hi).
      assert (Hi3 : i < 3) by (cbn in Hi; lia).
      destruct (Hbr' (Z.to_nat t) i ltac:(lia) Hi3) as [B1 B2].
      apply (near_step _ _ d kt i k).
      + apply (IH (Z.to_nat t)); [lia|exact Hkt].
      + exact Hi3.
      + apply (proj1 (NbT (Z.to_nat t) kt i Hkt Hi3) j k Hk). rewrite <- B1; [exact Ei|].
        destruct (Z.lt_ge_cases (nb rows' (Z.to_nat t) i) 0) as [L|L]; [specialize (B2 L); lia|exact L]. }
  assert (Nr2 : forall d k, near rows part d k -> forall j, nth_error order j = Some k ->
     within (mesh_neighbours (b_rows bs')) lo hi d (Z.of_nat j)).
  { induction 1 as [d k Hk|d k i k' Hk IH Hi E]; intros j Hj.
    - apply within_full. apply (Range j k Hj). apply Hk.
    - assert (Kn : k < n).
      { destruct (Nat.lt_ge_cases k n) as [|GE]; [assumption|]. exfalso. unfold nb in E.
        rewrite (proj2 (nth_error_None rows k)) in E; [lia|]. rewrite (proj2 (rows_shape ts rows HB)). exact GE. }
      assert (Io : In k order) by (apply order_lt; exact Kn). apply In_nth_error in Io as [jk Hjk].
      apply (within_step _ _ _ d (Z.of_nat jk)).
      + apply IH. exact Hjk.
      + unfold mesh_neighbours. rewrite Nat2Z.id. apply in_map_iff. exists i. split; [|cbn; lia].
        assert (Jn : jk < length ts') by (rewrite Lts', <- EL, <- (order_length epart); apply nth_error_Some; fold order; congruence).
        destruct (Hbr' jk i Jn Hi) as [B1 _].
        assert (X : nb rows' jk i = Z.of_nat j) by (apply (proj1 (NbT jk k i Hjk Hi) j k' Hj); exact E).
        rewrite B1; [exact X|lia].
      + lia. }
  assert (Gin : forall g k, nth_error order g = Some k -> (In g (map Z.to_nat G) <->
     k < length (d_ts D) /\ nth k epart 0 <> p /\ near rows part (Nat.max w 1) k)).
  { intros g k Hk. assert (Kn : k < n) by (apply order_lt; eapply nth_error_In; exact Hk).
    assert (X : In g (map Z.to_nat G) <-> In (Z.of_nat g) G).
    { rewrite in_map_iff. split.
      - intros (x & <- & Hx). rewrite Z2Nat.id; [exact Hx|].
        apply (G_ok ts' rows' (b_rows bs') tpp w p HB' Hbr' Htpp Hp') in Hx. lia.
      - intros H. exists (Z.of_nat g). split; [apply Nat2Z.id|exact H]. }
    rewrite X. pose proof (C34_layer_width (mesh_neighbours (b_rows bs')) tpp w Hnr p (Z.of_nat g) Hp') as LW.
    fold lo hi in LW. fold G in LW. split.
    - intros HG. split; [exact Kn|]. split.
      + intros E. apply (Range g k Hk) in E. apply (G_ok ts' rows' (b_rows bs') tpp w p HB' Hbr' Htpp Hp') in HG. fold lo hi in HG. tauto.
      + apply (Nr1 (Nat.max w 1) (Z.of_nat g)) with (j := g); [|reflexivity|exact Hk]. apply LW. right. exact HG.
    - intros (_ & NP & NR). apply (Nr2 _ _ NR g) in Hk as W. apply LW in W as [W|W]; [|exact W].
      exfalso. apply NP. apply (Range g k Hk). exact W. }
  set (lR := if received then l else
                            {| l_nodes := l_nodes l; l_triangles := l_triangles l; l_boundary := l_boundary l;
                               l_quan := l_quan l; l_tri_l2g := to_original (v_p2s v) (l_tri_l2g l);
                               l_node_l2g := l_node_l2g l; l_nfull := l_nfull l |}).
  assert (ER : distribute received (d_nodes D) ts bd (d_quan D) (d_default D) ghost_tag nproc epart w p = Some lR).
  { unfold distribute. rewrite EV, V1, V2. fold nb'. rewrite MB. rewrite V3, C1.
    replace (if received then transmit c else Some c) with (Some c) by (destruct received; [symmetry; exact C2|reflexivity]).
    fold lo hi. rewrite C3. reflexivity. }
  assert (EM' : local_mesh lR (d_default D) = Some (lts, (lrows, lbd, lbs))).
  { unfold lR. destruct received; [exact LM|]. exact LM. }
  exists U, lR, lts, lrows, lbd, lbs. split; [exact ER|]. split; [exact EM'|].
  assert (F1 : l_nfull lR = l_nfull l) by (unfold lR; destruct received; reflexivity).
  assert (F2 : l_nodes lR = l_nodes l) by (unfold lR; destruct received; reflexivity).
  assert (F3 : l_node_l2g lR = l_node_l2g l) by (unfold lR; destruct received; reflexivity).
  assert (F4 : l_quan lR = l_quan l) by (unfold lR; destruct received; reflexivity).
  assert (Llts : length lts = length U) by (unfold lts; rewrite map_length, LU; reflexivity).
  assert (Tsn : forall g k, nth_error order g = Some k -> nth g ts' d3 = nth k ts d3).
  { intros g k Hg. apply nth_error_nth. unfold ts'. rewrite nth_error_map, Hg. reflexivity. }
  destruct (rows_of_nth _ _ _ C7) as [LC7 RC7].
  split.
  { split.
    - (* ip_full *) rewrite F1, Ufull. unfold class. rewrite EL. reflexivity.
    - (* ip_ghost *) intros k. rewrite F1, Uskip, in_map_iff. split.
      + intros (g & <- & Hg).
        assert (In g VN) as Hv by (rewrite VNsplit; apply in_or_app; right; exact Hg).
        destruct (Onth g (VNlt g Hv)) as (k & Ek & _). rewrite (nth_error_nth _ _ 0 Ek). apply (Gin g k Ek). exact Hg.
      + intros H. assert (Io : In k order) by (apply order_lt; apply H). apply In_nth_error in Io as [g Hg].
        exists g. split; [apply nth_error_nth; exact Hg|]. apply (Gin g k Hg). exact H.
    - exact Und.
    - exact Llts.
    - (* ip_corners *) intros j k t u Hj Ht Hu. rewrite F2, F3, C6. apply Un in Hj as (g & Hg & Hk).
      unfold lts in Ht. rewrite nth_error_map, Hg in Ht. cbn [option_map] in Ht. injection Ht as <-.
      rewrite node_rename.
      pose proof (f_spec ts' (b_rows bs') tpp w p Htpp Hp' g u ltac:(eapply nth_error_In; exact Hg) Hu) as [A _].
      rewrite (Tsn g k Hk) in A |- *.
      fold lo hi G in A. split; [|exact A]. etransitivity; [exact (RC7 _ _ A)|]. rewrite Nat2Z.id. reflexivity.
    - (* ip_nodes *) rewrite F2, F3, C6. split; [apply (ids_NoDup ts')|]. split; [exact LC7|].
      intros m g Hm. pose proof (nth_error_In _ _ Hm) as Hin.
      apply (ids_ok (d_nodes D) ts' rows' (b_rows bs') tpp w p HB' Hbr' Hnodes' Htpp Hp') in Hin.
      exists (Z.to_nat g). split; [lia|]. split; [lia|]. apply (RC7 m g Hm).
    - exact LB.
    - (* ip_neighbour *) intros j k i m k' e Hj Hi Hm. apply Un in Hj as (g & Hg & Hk). apply Un in Hm as (g' & Hg' & Hk').
      destruct (LN j g i Hg Hi) as (A & _). rewrite (A m g' e Hg'). destruct (HN' g k i Hk Hi) as (B & _). apply (B g' k' e Hk').
    - (* ip_inside *) intros j k i m e Hj Hi H. apply Un in Hj as (g & Hg & Hk). destruct (LN j g i Hg Hi) as (_ & A & _).
      rewrite LU. apply (A m e H).
    - (* ip_open *) intros j k i Hj Hi. apply Un in Hj as (g & Hg & Hk). destruct (LN j g i Hg Hi) as (_ & _ & -> & _). split.
      + intros H k' E I. apply UIn in I as (g' & Hg' & Hk'). apply (H g'); [|exact Hg'].
        apply (proj1 (NbT g k i Hk Hi) g' k' Hk'). exact E.
      + intros H g' E I. destruct (Onth g' (VNlt g' I)) as (k' & Hk' & _). apply (H k').
        * apply (proj1 (NbT g k i Hk Hi) g' k' Hk'). exact E.
        * apply UIn. eauto.
    - (* ip_closed *) intros j k i k' Hj Lj Hi E. apply Un in Hj as (g & Hg & Hk).
      assert (Kn' : k' < n).
      { assert (Kn : k < n) by (apply order_lt; eapply nth_error_In; exact Hk).
        pose proof (nb_in_range ts rows tpp p HB Hp' k i Kn Hi). unfold n. fold rows in E. rewrite E in H. fold ts. lia. }
      assert (Io : In k' order) by (apply order_lt; exact Kn'). apply In_nth_error in Io as [g' Hg'].
      apply UIn. exists g'. split; [|exact Hg'].
      apply (full_closed ts' rows' (b_rows bs') tpp w p HB' Hbr' Htpp Hp' g i g').
      + rewrite F1, Nf in Lj. rewrite VNsplit in Hg. rewrite nth_error_app1 in Hg by (rewrite seq_length; exact Lj).
        rewrite (nth_error_nth' _ 0) in Hg by (rewrite seq_length; exact Lj). rewrite seq_nth in Hg by exact Lj.
        injection Hg as <-. fold lo hi. lia.
      + exact Hi.
      + apply (proj1 (NbT g k i Hk Hi) g' k' Hg'). exact E.
    - (* ip_tags *) intros j k i Hj Hi. apply Un in Hj as (g & Hg & Hk). destruct (LN j g i Hg Hi) as (_ & _ & _ & ->).
      destruct (nb lrows j i <? 0)%Z; [|reflexivity]. f_equal.
      assert (Gn : g < length ts') by (rewrite Lts'; apply VNlt; eapply nth_error_In; exact Hg).
      destruct (Z.lt_ge_cases (nb rows' g i) 0) as [L|L].
      + rewrite (Hlk' g i Gn Hi L). replace (lookup nb' (g, i)) with (lookup bd (k, i)) by (symmetry; exact (newb_lookup epart NE bd NDbd Hbdn g k i Hk)).
        assert (I : In (k, i) (map fst bd)).
        { apply Hbd. split; [apply order_lt; eapply nth_error_In; exact Hk|]. split; [exact Hi|].
          apply (NbT g k i Hk Hi). exact L. }
        fold bd. destruct (lookup bd (k, i)) eqn:E; [reflexivity|]. apply lookup_None in E. contradiction.
      + assert (X : lookup bd' (g, i) = None).
        { apply lookup_None. intros I. apply Hbd' in I. lia. }
        assert (Y : lookup bd (k, i) = None).
        { apply lookup_None. intros I. apply Hbd in I as (_ & _ & I). apply (NbT g k i Hk Hi) in I. lia. }
        fold bd. rewrite X, Y. reflexivity.
    - split; [exact LND|]. intros j i H. rewrite LU. apply (LK j i H).
    - (* ip_quan *) rewrite F4. clear - V5 C10 LU Un VNn LV. revert C10. generalize (l_quan l) as lq. revert V5.
      generalize (v_quantities v) as vq. generalize (d_quan D) as q.
      induction q as [|a q IH]; intros vq V5 lq C10; inversion V5 as [|? ? ? ? X1 X2]; subst; inversion C10 as [|? ? ? ? Y1 Y2]; subst; constructor.
      + destruct X1 as [E1 R1]. destruct Y1 as [E2 R2]. split; [congruence|].
        destruct (rows_of_nth _ _ _ R1) as [L1 N1]. destruct (rows_of_nth _ _ _ R2) as [L2 N2].
        split; [rewrite L2, LU, LV; reflexivity|]. intros j k Hj. apply Un in Hj as (g & Hg & Hk).
        apply VNn in Hg. rewrite (N2 j _ Hg), Nat2Z.id.
        rewrite (N1 g (Z.of_nat k)); [rewrite Nat2Z.id; reflexivity|]. rewrite nth_error_map, Hk. reflexivity.
      + eapply IH; eassumption. }
  split.
  { (* the map back to the domain *) intros ->. unfold lR. cbn [l_tri_l2g]. rewrite V4, C5. unfold to_original.
    assert (T : take order V = Some U).
    { unfold U. unfold VN. rewrite map_map. apply (take_spec order V 0). intros i Hi. unfold order. rewrite order_length, EL, <- Lts'.
      apply (U_ok ts' rows' (b_rows bs') tpp w p HB' Hbr' Htpp Hp'). exact Hi. }
    rewrite T. destruct order eqn:Eo; [|reflexivity]. exfalso.
    destruct (Onth 0) as (k & X & _); [|discriminate]. rewrite <- EL. destruct epart; [congruence|cbn; lia]. }
  exists V, (b_rows bs'). split.
  { intros j. destruct (nth_error V j) as [g|] eqn:E.
    - assert (G0 : (0 <= g)%Z) by (apply nth_error_In in E; apply (U_ok ts' rows' (b_rows bs') tpp w p HB' Hbr' Htpp Hp') in E; lia).
      assert (E' : nth_error VN j = Some (Z.to_nat g)) by (apply VNn; rewrite Z2Nat.id by lia; exact E).
      assert (Gn : Z.to_nat g < n) by (apply VNlt; eapply nth_error_In; exact E').
      destruct (Onth _ Gn) as (k & Ek & _). rewrite Ek. apply Un. eauto.
    - apply nth_error_None in E. apply nth_error_None. lia. }
  split; [reflexivity|]. split; [intros ->; exact C5|]. split; [|exact Hnr].
  exists (rows', bd'), bs'. split; [exact MB|reflexivity].
Qed.
End C79.

(** * Theorems *)

(** Every process gets a part of the mesh of the domain, however metis divides
    it, and [tri_l2g] gives the numbers of its triangles in the domain. *)
Theorem C79_local_meshes_are_parts : forall (P Q : Type) (D : domain P Q) nproc epart ghost_tag w p received,
  valid D -> 2 <= nproc -> partition (length (d_ts D)) nproc epart -> p < nproc ->
  exists U l lts lrows lbd lbs,
    distribute received (d_nodes D) (d_ts D) (d_bd D) (d_quan D) (d_default D) ghost_tag nproc epart w p = Some l /\
    local_mesh l (d_default D) = Some (lts, (lrows, lbd, lbs)) /\
    is_part D ghost_tag epart w p U l lts lrows lbd /\
    (received = false -> l_tri_l2g l = map Z.of_nat U).
Proof.
  intros P Q D nproc epart ghost_tag w p received VD Hn HP Hp.
  destruct (distribute_spec D VD nproc epart Hn HP ghost_tag w p Hp received) as (U & l & lts & lrows & lbd & lbs & A & B & C & E & _).
  exists U, l, lts, lrows, lbd, lbs. auto.
Qed.
Print Assumptions C79_local_meshes_are_parts.

(** The parts together: every triangle is a full triangle of exactly one
    process, at exactly one place. *)
Theorem C79_every_triangle_once : forall (P Q : Type) (D : domain P Q) nproc epart ghost_tag w,
  valid D -> 2 <= nproc -> partition (length (d_ts D)) nproc epart ->
  exists l : nat -> local P Q,
    (forall p, p < nproc ->
       distribute false (d_nodes D) (d_ts D) (d_bd D) (d_quan D) (d_default D) ghost_tag nproc epart w p = Some (l p)) /\
    forall k, k < length (d_ts D) -> exists p j, p < nproc /\ j < l_nfull (l p) /\
       nth_error (l_tri_l2g (l p)) j = Some (Z.of_nat k) /\
       forall p' j', p' < nproc -> j' < l_nfull (l p') -> nth_error (l_tri_l2g (l p')) j' = Some (Z.of_nat k) -> p' = p /\ j' = j.
Proof.
  intros P Q D nproc epart ghost_tag w VD Hn HP.
  set (run p := distribute false (d_nodes D) (d_ts D) (d_bd D) (d_quan D) (d_default D) ghost_tag nproc epart w p).
  assert (R : forall p, p < nproc -> exists U l, run p = Some l /\ l_tri_l2g l = map Z.of_nat U /\ NoDup U /\
     firstn (l_nfull l) U = filter (fun k => Nat.eqb (nth k epart 0) p) (seq 0 (length (d_ts D)))).
  { intros p Hp. destruct (C79_local_meshes_are_parts P Q D nproc epart ghost_tag w p false VD Hn HP Hp)
      as (U & l & lts & lrows & lbd & lbs & A & _ & C & E).
    exists U, l. split; [exact A|]. split; [auto|]. split; apply C. }
  destruct (R 0 ltac:(lia)) as (_ & l0 & _ & _).
  exists (fun p => match run p with Some l => l | None => l0 end). split.
  { intros p Hp. destruct (R p Hp) as (U & l & A & _). fold (run p). rewrite A. reflexivity. }
  assert (Own : forall p j k, p < nproc -> j < l_nfull (match run p with Some l => l | None => l0 end) ->
     nth_error (l_tri_l2g (match run p with Some l => l | None => l0 end)) j = Some (Z.of_nat k) -> nth k epart 0 = p).
  { intros p j k Hp Hj E. destruct (R p Hp) as (U & l & A & B & ND & F). rewrite A in Hj, E. rewrite B, nth_error_map in E.
    destruct (nth_error U j) as [x|] eqn:Ex; [|discriminate]. cbn in E. assert (x = k) by (injection E; lia). subst x.
    assert (I : In k (firstn (l_nfull l) U)).
    { rewrite <- (firstn_skipn (l_nfull l) U) in Ex. rewrite nth_error_app1 in Ex; [eapply nth_error_In; exact Ex|].
      rewrite firstn_length. apply Nat.min_glb_lt; [exact Hj|]. apply nth_error_Some. rewrite <- (firstn_skipn (l_nfull l) U). congruence. }
    rewrite F in I. apply filter_In in I as [_ I]. apply Nat.eqb_eq in I. exact I. }
  intros k Hk. destruct HP as (L & HP1 & HP2).
  assert (Hp : nth k epart 0 < nproc) by (apply HP1, nth_In; rewrite L; exact Hk).
  destruct (R _ Hp) as (U & l & A & B & ND & F).
  assert (I : In k (firstn (l_nfull l) U)).
  { rewrite F. apply filter_In. split; [apply in_seq; lia|apply Nat.eqb_refl]. }
  apply In_nth_error in I as [j Ej].
  assert (Lj : j < length (firstn (l_nfull l) U)) by (apply nth_error_Some; congruence). rewrite firstn_length in Lj.
  assert (EU : nth_error U j = Some k).
  { rewrite <- (firstn_skipn (l_nfull l) U). rewrite nth_error_app1 by (rewrite firstn_length; lia). exact Ej. }
  exists (nth k epart 0), j. split; [exact Hp|]. rewrite A. split; [lia|]. split; [rewrite B, nth_error_map, EU; reflexivity|].
  intros p' j' Hp' Hj' E. assert (p' = nth k epart 0) by (symmetry; eapply Own; eassumption). subst p'. split; [reflexivity|].
  rewrite A in Hj', E. rewrite B, nth_error_map in E. destruct (nth_error U j') as [x|] eqn:Ex; [|discriminate].
  cbn in E. assert (x = k) by (injection E; lia). subst x.
  apply (proj1 (NoDup_nth_error U) ND); [apply nth_error_Some; congruence|congruence].
Qed.
Print Assumptions C79_every_triangle_once.

(** ** Example: a strip of six triangles on two processes *)
Definition strip_ts : list tri := [(0, 2, 1); (2, 3, 1); (2, 4, 3); (4, 5, 3); (4, 6, 5); (6, 7, 5)].
Definition strip_epart : list nat := [1; 0; 1; 0; 0; 1].
Definition strip_rows := Eval vm_compute in match build_neighbour_structure strip_ts with Some r => r | None => [] end.
Definition strip_bd := Eval vm_compute in match mesh_boundary strip_ts 9 [((0, 1), 5); ((5, 0), 6)] with Some (_, b, _) => b | None => [] end.
Definition strip_domain : domain (nat * nat) nat :=
  {| d_nodes := [(0, 0); (0, 1); (1, 0); (1, 1); (2, 0); (2, 1); (3, 0); (3, 1)]; d_ts := strip_ts; d_rows := strip_rows;
     d_bd := strip_bd; d_quan := [(0, [10; 11; 12; 13; 14; 15])]; d_default := 9 |}.
Example strip_valid : valid strip_domain.
Proof.
  split.
  - exists [((0, 1), 5); ((5, 0), 6)]. eexists. split; [|split].
    + repeat constructor; cbn; intuition discriminate.
    + intros key tag [E|[E|[]]]; injection E as <- <-; reflexivity.
    + vm_compute. reflexivity.
  - intros t v Ht. cbn in Ht. repeat (destruct Ht as [<-|Ht]; [destruct v as [|[|v]]; cbn; lia|]). destruct Ht.
  - intros q [<-|[]]. reflexivity.
  - repeat constructor. intros [].
Qed.
Example strip_partition : partition 6 2 strip_epart.
Proof.
  split; [reflexivity|]. split; intros c Hc.
  - cbn in Hc. intuition lia.
  - assert (E : c = 0 \/ c = 1) by lia. destruct E as [-> | ->]; cbn; auto.
Qed.
Example C79_strip : exists l,
  distribute false (d_nodes strip_domain) strip_ts strip_bd (d_quan strip_domain) 9 8 2 strip_epart 1 0 = Some l /\
  l_tri_l2g l = [1; 3; 4; 0; 2; 5]%Z /\ l_nfull l = 3 /\ l_quan l = [(0, [11; 13; 14; 10; 12; 15])].
Proof. eexists. split; [vm_compute; reflexivity|]. vm_compute. auto. Qed.

(** Finding: with one process the map back to the domain is empty (p2s_map is an
    empty list, and indexing it raises the exception that is caught). *)
Theorem C79_one_process_map_refuted : exists (D : domain (nat * nat) nat) epart l lts rest,
  valid D /\ partition (length (d_ts D)) 1 epart /\
  distribute false (d_nodes D) (d_ts D) (d_bd D) (d_quan D) (d_default D) 8 1 epart 2 0 = Some l /\
  local_mesh l (d_default D) = Some (lts, rest) /\ length lts = 6 /\ l_tri_l2g l = [].
Proof.
  exists strip_domain, (repeat 0 6). eexists. eexists. eexists. split; [apply strip_valid|]. split.
  { split; [reflexivity|]. split; intros c Hc; [apply repeat_spec in Hc; lia|]. assert (c = 0) by lia. subst c. left. reflexivity. }
  split; [vm_compute; reflexivity|]. split; [vm_compute; reflexivity|]. split; reflexivity.
Qed.
Print Assumptions C79_one_process_map_refuted.

(** Finding: [rec_submesh] does not map [tri_l2g] back, so processes that receive
    their mesh number triangles as they were after the division. *)
Theorem C79_received_map_refuted : exists (D : domain (nat * nat) nat) epart l lts lrows lbd lbs,
  valid D /\ partition (length (d_ts D)) 2 epart /\
  distribute true (d_nodes D) (d_ts D) (d_bd D) (d_quan D) (d_default D) 8 2 epart 1 1 = Some l /\
  local_mesh l (d_default D) = Some (lts, (lrows, lbd, lbs)) /\
  forall U, is_part D 8 epart 1 1 U l lts lrows lbd -> l_tri_l2g l <> map Z.of_nat U.
Proof.
  exists strip_domain, strip_epart. eexists. eexists. eexists. eexists. eexists.
  split; [apply strip_valid|]. split; [apply strip_partition|]. split; [vm_compute; reflexivity|].
  split; [vm_compute; reflexivity|]. intros U H E. destruct H as [F _ _ _ _ _ _ _ _ _ _ _ _ _].
  cbn [l_nfull l_tri_l2g] in F, E. vm_compute in F. destruct U as [|a U]; [discriminate F|]. injection F as -> _.
  vm_compute in E. discriminate E.
Qed.
Print Assumptions C79_received_map_refuted.
