(** Proofs for C90. *)
From Coq Require Import Reals List Arith Bool Lra Lia.
From Verif Require Import RealLib ArrayLib PolygonModel GradientModel InvertedModel InvertedProofs InvertedProps SetValuesModel.
Import ListNotations.
Local Open Scope R_scope.

(** The index of the mesh is the one that general_mesh.py builds. *)
Definition mesh_ok (m : mesh) : Prop :=
  length (m_flat m) = (3 * m_triangles m)%nat /\
  exists p, is_argsort (m_flat m) p /\ build_inverted (m_nodes m) (m_flat m) p = Some (m_index m).

(** ** Assignments *)
Lemma assign_some b l : forall a, (forall i v, In (i, v) l -> (i < b)%nat) <-> assign b a l <> None.
Proof.
  induction l as [|(i, v) l IH]; intros a; cbn [assign]; [split; [discriminate|intros _ ? ? []]|].
  destruct (Nat.ltb_spec i b) as [H|H].
  - rewrite <- IH. split; [intros K j w I; apply (K j w); now right|intros K j w [E|I]; [injection E as <- <-; exact H|eauto]].
  - split; [intros K; specialize (K i v (or_introl eq_refl)); lia|intros K; now contradiction K].
Qed.

Lemma assign_spec b l : forall a a', assign b a l = Some a' ->
  (forall i, In i (map fst l) -> In (i, a' i) l) /\ (forall i, ~ In i (map fst l) -> a' i = a i).
Proof.
  induction l as [|(i, v) l IH]; intros a a' H; cbn [assign] in H.
  - injection H as <-. split; [intros i []|reflexivity].
  - destruct (Nat.ltb_spec i b) as [Hb|Hb]; [|discriminate]. destruct (IH _ _ H) as (P & N). split.
    + intros j Hj. destruct (in_dec Nat.eq_dec j (map fst l)) as [I|O]; [right; now apply P|].
      destruct Hj as [E|I]; [|contradiction]. cbn in E. subst j. left. rewrite N by exact O. now rewrite upd_same.
    + intros j Hj. cbn in Hj. rewrite N by tauto. apply upd_other. intuition.
Qed.

(** ** Rows *)
Lemma in_row k f j v : In (j, v) (row k f) <-> exists i, (i < 3)%nat /\ j = (3 * k + i)%nat /\ v = f i.
Proof.
  unfold row. cbn [In]. split.
  - intros [E|[E|[E|[]]]]; injection E as <- <-; [exists 0%nat|exists 1%nat|exists 2%nat]; repeat split; lia.
  - intros (i & Hi & -> & ->). destruct i as [|[|[|]]]; [| | |lia]; rewrite ?Nat.add_0_r; auto.
Qed.
Lemma row_split k i k' i' : (i < 3)%nat -> (i' < 3)%nat -> (3 * k + i = 3 * k' + i')%nat -> k = k' /\ i = i'.
Proof. lia. Qed.

(** Rows [g k] for the triangles of a list. *)
Lemma in_rows (l : list (nat * (nat -> R))) j v :
  In (j, v) (flat_map (fun kf => row (fst kf) (snd kf)) l) <-> exists k f i, In (k, f) l /\ (i < 3)%nat /\ j = (3 * k + i)%nat /\ v = f i.
Proof.
  rewrite in_flat_map. split.
  - intros ((k, f) & I & R). apply in_row in R as (i & Hi & E & V). exists k, f, i. auto.
  - intros (k & f & i & I & Hi & E & V). exists (k, f). split; [exact I|]. apply in_row. exists i. auto.
Qed.

Lemma assign_rows M a a' (l : list (nat * (nat -> R))) :
  assign (3 * M) a (flat_map (fun kf => row (fst kf) (snd kf)) l) = Some a' ->
  forall k i, (i < 3)%nat ->
    (In k (map fst l) -> exists f, In (k, f) l /\ a' (3 * k + i)%nat = f i) /\
    (~ In k (map fst l) -> a' (3 * k + i)%nat = a (3 * k + i)%nat).
Proof.
  intros H k i Hi. destruct (assign_spec _ _ _ _ H) as (P & N). split.
  - intros I. apply in_map_iff in I as ((k', f) & E & I). cbn in E. subst k'.
    specialize (P (3 * k + i)%nat). destruct (proj1 (in_rows _ _ _) (P ltac:(apply in_map_iff; exists ((3 * k + i)%nat, f i); split; [reflexivity|apply in_rows; exists k, f, i; auto])))
      as (k' & f' & i' & I' & Hi' & E & V).
    apply row_split in E as (<- & <-); auto. exists f'. auto.
  - intros O. apply N. intros I. apply in_map_iff in I as ((j, v) & E & I). cbn in E. subst j.
    apply in_rows in I as (k' & f & i' & I & Hi' & E & _). apply row_split in E as (<- & <-); auto. apply O. apply in_map_iff. exists (k, f). auto.
Qed.

Lemma assign_rows_some M a (l : list (nat * (nat -> R))) :
  assign (3 * M) a (flat_map (fun kf => row (fst kf) (snd kf)) l) <> None <-> (forall k, In k (map fst l) -> (k < M)%nat).
Proof.
  rewrite <- assign_some. split.
  - intros H k I. apply in_map_iff in I as ((k', f) & E & I). cbn in E. subst k'.
    specialize (H (3 * k)%nat (f 0%nat)). cut (3 * k < 3 * M)%nat; [lia|]. apply H. apply in_rows. exists k, f, 0%nat. repeat split; auto; lia.
  - intros H j v I. apply in_rows in I as (k & f & i & I & Hi & -> & _). enough (k < M)%nat by lia. apply H. apply in_map_iff. exists (k, f). auto.
Qed.

Lemma flat_rows {A} (l : list A) (g : A -> nat * (nat -> R)) :
  flat_map (fun kf => row (fst kf) (snd kf)) (map g l) = flat_map (fun k => row (fst (g k)) (snd (g k))) l.
Proof. induction l as [|x l IH]; cbn [map flat_map]; [reflexivity|now rewrite IH]. Qed.

(** ** Nodes *)
Lemma at_node_spec m a node x : mesh_ok m ->
  ((m_nodes m <= node)%nat -> at_node m a node x = None) /\
  ((node < m_nodes m)%nat -> exists a', at_node m a node x = Some a' /\
     forall j, a' j = if (j <? 3 * m_triangles m)%nat && (node_at (m_flat m) j =? node)%nat then x else a j).
Proof.
  intros (L & p & AS & B). destruct (C45_inverse_index _ _ _ _ _ node L AS B) as (H1 & H2). unfold at_node. split.
  - intros H. now rewrite H1.
  - intros H. destruct (H2 H) as (tv & E & ND & S). rewrite E. eexists. split; [reflexivity|]. intros j.
    assert (G : forall l a, (fold_left (fun a tv => upd a (3 * fst tv + snd tv)%nat x) l a) j =
      if existsb (fun tv => (j =? 3 * fst tv + snd tv)%nat) l then x else a j).
    { clear. induction l as [|y l IH]; intros a; cbn [fold_left existsb]; [reflexivity|]. rewrite IH.
      destruct (existsb _ l); [now rewrite orb_true_r|]. rewrite orb_false_r. unfold upd. reflexivity. }
    rewrite G. match goal with |- (if ?c then _ else _) = (if ?d then _ else _) => replace d with c; [reflexivity|] end.
    apply eq_true_iff_eq. rewrite existsb_exists, andb_true_iff, Nat.ltb_lt, Nat.eqb_eq. split.
    + intros ((t, v) & I & Q). apply Nat.eqb_eq in Q. cbn in Q. apply S in I as (Ht & Hv & N). subst j. split; [lia|exact N].
    + intros (Hj & N). exists ((j / 3)%nat, (j mod 3)%nat). cbn [fst snd]. pose proof (Nat.div_mod j 3 ltac:(lia)) as D. pose proof (Nat.mod_upper_bound j 3 ltac:(lia)).
      split; [|apply Nat.eqb_eq; exact D]. apply S. split; [lia|]. split; [lia|]. rewrite <- D. exact N.
Qed.

Lemma at_nodes_some m l : mesh_ok m -> forall a, (forall n x, In (n, x) l -> (n < m_nodes m)%nat) <-> at_nodes m a l <> None.
Proof.
  intros Hm. induction l as [|(n, x) l IH]; intros a; cbn [at_nodes]; [split; [discriminate|intros _ ? ? []]|].
  destruct (at_node_spec m a n x Hm) as (H1 & H2). destruct (Nat.lt_ge_cases n (m_nodes m)) as [H|H].
  - destruct (H2 H) as (a' & E & _). rewrite E. rewrite <- IH. split; [intros K j w I; apply (K j w); now right|intros K j w [Q|I]; [injection Q as <- <-; exact H|eauto]].
  - rewrite (H1 H). split; [intros K; specialize (K n x (or_introl eq_refl)); lia|intros K; now contradiction K].
Qed.

Lemma at_nodes_spec m l : mesh_ok m -> forall a a', at_nodes m a l = Some a' ->
  forall j, (In (node_at (m_flat m) j) (map fst l) -> (j < 3 * m_triangles m)%nat -> In (node_at (m_flat m) j, a' j) l) /\
            (~ In (node_at (m_flat m) j) (map fst l) -> a' j = a j).
Proof.
  intros Hm. induction l as [|(n, x) l IH]; intros a a' H j; cbn [at_nodes] in H.
  - injection H as <-. split; [intros []|reflexivity].
  - destruct (at_node_spec m a n x Hm) as (H1 & H2). destruct (Nat.lt_ge_cases n (m_nodes m)) as [Hn|Hn]; [|rewrite (H1 Hn) in H; discriminate].
    destruct (H2 Hn) as (a1 & E & S). rewrite E in H. destruct (IH _ _ H j) as (P & N). split.
    + intros I Hj. destruct (in_dec Nat.eq_dec (node_at (m_flat m) j) (map fst l)) as [I'|O]; [right; auto|].
      destruct I as [Q|I]; [|contradiction]. cbn in Q. left. rewrite N, S by exact O.
      rewrite (proj2 (Nat.ltb_lt _ _) Hj), (proj2 (Nat.eqb_eq _ _)) by (now symmetry). cbn. now rewrite Q.
    + intros O. cbn in O. rewrite N, S by tauto. rewrite (proj2 (Nat.eqb_neq _ _)), andb_false_r by intuition. reflexivity.
Qed.

(** ** Lists *)
Lemma in_combine_nth {A B} (l : list A) (r : list B) x y : In (x, y) (combine l r) <-> exists j, nth_error l j = Some x /\ nth_error r j = Some y.
Proof.
  revert r. induction l as [|a l IH]; intros [|b r]; cbn [combine In].
  - split; [intros []|intros ([|] & H & _); discriminate].
  - split; [intros []|intros ([|] & H & _); discriminate].
  - split; [intros []|intros ([|] & _ & H); discriminate].
  - rewrite IH. split.
    + intros [E|(j & H & K)]; [injection E as <- <-; exists 0%nat; auto|exists (S j); auto].
    + intros ([|j] & H & K); cbn in H, K; [left; congruence|right; eauto].
Qed.

Lemma map_fst_combine {A B} (l : list A) (r : list B) : length l = length r -> map fst (combine l r) = l.
Proof. revert r. induction l as [|a l IH]; intros [|b r] H; try discriminate; cbn; [reflexivity|]. f_equal. apply IH. cbn in H. lia. Qed.

Lemma combine_map_r {A B} (f : A -> B) l : combine l (map f l) = map (fun x => (x, f x)) l.
Proof. induction l as [|a l IH]; cbn; [reflexivity|now rewrite IH]. Qed.

Lemma with_c_inv q a q' : with_c q a = Some q' -> exists c, a = Some c /\ q' = {| qv := qv q; qe := qe q; qc := c |}.
Proof. destruct a as [c|]; [|discriminate]. intros H. injection H as <-. eauto. Qed.
Lemma with_v_inv q a q' : with_v q a = Some q' -> exists c, a = Some c /\ q' = {| qv := c; qe := qe q; qc := qc q |}.
Proof. destruct a as [c|]; [|discriminate]. intros H. injection H as <-. eauto. Qed.
Lemma finished_inv loc q q' : finished loc q = Some q' -> exists r, q = Some r /\ q' = finish loc r.
Proof. destruct q as [c|]; [|discriminate]. intros H. injection H as <-. eauto. Qed.
Lemma with_c_some q a : with_c q a <> None <-> a <> None.
Proof. destruct a; cbn; split; congruence. Qed.
Lemma with_v_some q a : with_v q a <> None <-> a <> None.
Proof. destruct a; cbn; split; congruence. Qed.
Lemma finished_some loc q : finished loc q <> None <-> q <> None.
Proof. destruct q; cbn; split; congruence. Qed.

Lemma div3 k i : (i < 3)%nat -> ((3 * k + i) / 3 = k)%nat.
Proof. intros. rewrite (Nat.mul_comm 3), Nat.div_add_l, Nat.div_small; lia. Qed.
Lemma mod3 k i : (i < 3)%nat -> ((3 * k + i) mod 3 = i)%nat.
Proof. intros. rewrite Nat.add_comm, Nat.mul_comm, Nat.mod_add, Nat.mod_small; lia. Qed.

Lemma flat_rows_map (l : list nat) (g : nat -> nat -> R) :
  flat_map (fun k => row k (g k)) l = flat_map (fun kf => row (fst kf) (snd kf)) (map (fun k => (k, g k)) l).
Proof. rewrite flat_rows. reflexivity. Qed.
