(** Lemmas about [MeshFactoryModel]. *)
From Coq Require Import Reals Lra Lia List Arith Bool.
From Verif Require Import RealLib ListLib NeighbourModel NeighbourProofs MeshFactoryModel.
Import ListNotations.

Lemma index_inj n i j i' j' :
  j <= n -> j' <= n -> index n i j = index n i' j' -> i = i' /\ j = j'.
Proof.
  unfold index. intros Hj Hj' E.
  assert (i = i'); [|subst; split; auto; lia].
  destruct (Nat.lt_trichotomy i i') as [H|[H|H]]; auto; exfalso.
  - assert (i' * (n + 1) >= (i + 1) * (n + 1)) by (apply Nat.mul_le_mono_r; lia). lia.
  - assert (i * (n + 1) >= (i' + 1) * (n + 1)) by (apply Nat.mul_le_mono_r; lia). lia.
Qed.

Lemma index_lt m n i j : i <= m -> j <= n -> index n i j < (m + 1) * (n + 1).
Proof.
  unfold index. intros. assert (i * (n + 1) <= m * (n + 1)) by (apply Nat.mul_le_mono_r; lia). lia.
Qed.

(** ** Writes to an array *)
Lemma fold_set_nth {X A} (f : X -> nat) (g : X -> A) : forall xs l,
  NoDup (map f xs) ->
  let r := fold_left (fun l x => set_nth (f x) (g x) l) xs l in
  length r = length l /\
  (forall x, In x xs -> f x < length l -> nth_error r (f x) = Some (g x)) /\
  (forall k, ~ In k (map f xs) -> nth_error r k = nth_error l k).
Proof.
  induction xs as [|x xs IH]; intros l ND; simpl.
  - repeat split; auto. tauto.
  - inversion ND as [|? ? N1 N2]; subst.
    destruct (IH (set_nth (f x) (g x) l) N2) as (A1 & A2 & A3).
    rewrite set_nth_length in A1, A2. split; [auto|split].
    + intros y [->|Hy] Hl.
      * rewrite A3 by auto. rewrite nth_error_set_nth, Nat.eqb_refl.
        apply Nat.ltb_lt in Hl. rewrite Hl. reflexivity.
      * apply A2; auto.
    + intros k Hk. rewrite A3 by tauto. rewrite nth_error_set_nth.
      destruct (Nat.eqb_spec (f x) k); auto. tauto.
Qed.

Lemma NoDup_map_inj {A B} (f : A -> B) l :
  NoDup l -> (forall x y, In x l -> In y l -> f x = f y -> x = y) -> NoDup (map f l).
Proof.
  induction l as [|a l IH]; simpl; intros ND H; [constructor|].
  inversion ND; subst. constructor.
  - rewrite in_map_iff. intros (y & E & Hy). assert (y = a) by (apply H; auto). subst; tauto.
  - apply IH; auto.
Qed.

Lemma loop2_In a b i j : In (i, j) (loop2 a b) <-> i < a /\ j < b.
Proof. unfold loop2. rewrite in_prod_iff, !in_seq. lia. Qed.

Lemma loop2_NoDup a b : NoDup (loop2 a b).
Proof. apply NoDup_list_prod; apply seq_NoDup. Qed.

Lemma loop2_length a b : length (loop2 a b) = a * b.
Proof. unfold loop2. rewrite prod_length, !seq_length. auto. Qed.

Lemma rectangular_points_spec m n l1 l2 o :
  length (rectangular_points m n l1 l2 o) = (m + 1) * (n + 1) /\
  forall i j, i <= m -> j <= n ->
  nth_error (rectangular_points m n l1 l2 o) (index n i j) = Some (grid_point m n l1 l2 o (i, j)).
Proof.
  unfold rectangular_points.
  destruct (fold_set_nth (fun ij => index n (fst ij) (snd ij)) (grid_point m n l1 l2 o)
     (loop2 (m + 1) (n + 1)) (repeat (0%R, 0%R) ((m + 1) * (n + 1)))) as (A & B & _).
  - apply NoDup_map_inj; [apply loop2_NoDup|]. intros [i j] [i' j'] H H' E. simpl in E.
    apply loop2_In in H, H'. destruct (index_inj n i j i' j'); try lia. congruence.
  - rewrite repeat_length in A, B. split; [exact A|]. intros i j Hi Hj.
    apply (B (i, j)).
    + apply loop2_In. lia.
    + apply index_lt; auto.
Qed.

(** ** Closed form of the element and boundary lists *)
Definition rect_tris (n : nat) (ij : nat * nat) : list tri :=
  let (i, j) := ij in
  [(index n (i + 1) j, index n (i + 1) (j + 1), index n i j);
   (index n i (j + 1), index n i j, index n (i + 1) (j + 1))].

Definition rect_tags (m n nt : nat) (ij : nat * nat) : list ((nat * nat) * side) :=
  let (i, j) := ij in
  (if Nat.eqb i (m - 1) then [((nt, 2), right_)] else []) ++
  (if Nat.eqb j 0 then [((nt, 1), bottom_)] else []) ++
  (if Nat.eqb i 0 then [((nt + 1, 2), left_)] else []) ++
  (if Nat.eqb j (n - 1) then [((nt + 1, 1), top_)] else []).

Lemma rectangular_cell_eq m n st ij :
  rectangular_cell m n st ij = (fst st ++ rect_tris n ij, snd st ++ rect_tags m n (length (fst st)) ij).
Proof.
  destruct st as [el b], ij as [i j]. unfold rectangular_cell, rect_tris, rect_tags. simpl fst. simpl snd.
  f_equal.
  - rewrite <- app_assoc. reflexivity.
  - destruct (Nat.eqb i (m - 1)), (Nat.eqb j 0), (Nat.eqb i 0), (Nat.eqb j (n - 1));
      rewrite <- ?app_assoc; simpl; rewrite ?app_nil_r; reflexivity.
Qed.

Lemma rectangular_mesh_eq m n :
  rectangular_mesh m n =
  (flat_map (rect_tris n) (loop2 m n),
   flat_map (fun px => rect_tags m n (fst px * 2) (snd px)) (combine (seq 0 (m * n)) (loop2 m n))).
Proof.
  unfold rectangular_mesh.
  rewrite (append_loop (rect_tris n) (rect_tags m n) 2 _ (rectangular_cell_eq m n)).
  - simpl. rewrite loop2_length. reflexivity.
  - intros [i j] _. reflexivity.
Qed.

Lemma rect_element m n T t :
  nth_error (fst (rectangular_mesh m n)) T = Some t <->
  exists i j r, i < m /\ j < n /\ r < 2 /\ T = (i * n + j) * 2 + r /\ nth_error (rect_tris n (i, j)) r = Some t.
Proof.
  rewrite rectangular_mesh_eq. cbn [fst].
  rewrite (nth_error_flat_map_const _ 2) by (intros [i j] _; reflexivity). split.
  - intros (p & r & [i j] & E & Hr & Hp & Hb). apply nth_error_loop in Hp as (Hi & Hj & ->).
    exists i, j, r. auto.
  - intros (i & j & r & Hi & Hj & Hr & E & Hb). exists (i * n + j), r, (i, j).
    repeat split; auto. apply nth_error_loop. auto.
Qed.

Lemma rect_boundary m n T e s :
  In ((T, e), s) (snd (rectangular_mesh m n)) <->
  exists i j, i < m /\ j < n /\
   ((T = (i * n + j) * 2 /\ e = 2 /\ s = right_ /\ i = m - 1) \/
    (T = (i * n + j) * 2 /\ e = 1 /\ s = bottom_ /\ j = 0) \/
    (T = (i * n + j) * 2 + 1 /\ e = 2 /\ s = left_ /\ i = 0) \/
    (T = (i * n + j) * 2 + 1 /\ e = 1 /\ s = top_ /\ j = n - 1)).
Proof.
  rewrite rectangular_mesh_eq. cbn [snd]. rewrite <- loop2_length at 1.
  rewrite (in_numbered_flat_map (fun p ij => rect_tags m n (p * 2) ij)). split.
  - intros (p & [i j] & Hp & H). apply nth_error_loop in Hp as (Hi & Hj & ->).
    exists i, j. split; auto. split; auto. unfold rect_tags in H.
    rewrite !in_app_iff in H.
    destruct H as [H|[H|[H|H]]].
    + destruct (Nat.eqb_spec i (m - 1)); [destruct H as [H|[]]; injection H; intros; subst; tauto|destruct H].
    + destruct (Nat.eqb_spec j 0); [destruct H as [H|[]]; injection H; intros; subst; tauto|destruct H].
    + destruct (Nat.eqb_spec i 0); [destruct H as [H|[]]; injection H; intros; subst; tauto|destruct H].
    + destruct (Nat.eqb_spec j (n - 1)); [destruct H as [H|[]]; injection H; intros; subst; tauto|destruct H].
  - intros (i & j & Hi & Hj & H). exists (i * n + j), (i, j). split; [apply nth_error_loop; auto|].
    unfold rect_tags. rewrite !in_app_iff.
    destruct H as [(-> & -> & -> & E)|[(-> & -> & -> & E)|[(-> & -> & -> & E)|(-> & -> & -> & E)]]];
      apply Nat.eqb_eq in E; rewrite E; simpl; auto 10.
Qed.

Lemma cell_number_inj n i j i' j' : j < n -> j' < n -> i * n + j = i' * n + j' -> i = i' /\ j = j'.
Proof.
  intros Hj Hj' E.
  assert (i = i'); [|subst; split; auto; lia].
  destruct (Nat.lt_trichotomy i i') as [H|[H|H]]; auto; exfalso.
  - assert (i' * n >= (i + 1) * n) by (apply Nat.mul_le_mono_r; lia). lia.
  - assert (i * n >= (i' + 1) * n) by (apply Nat.mul_le_mono_r; lia). lia.
Qed.

(** ** Directed edges of the rectangular mesh, in grid coordinates *)
Definition rect_edge_at (n i j T e a b : nat) : Prop :=
  (T = (i * n + j) * 2 /\ e = 0 /\ a = index n (i + 1) (j + 1) /\ b = index n i j) \/
  (T = (i * n + j) * 2 /\ e = 1 /\ a = index n i j /\ b = index n (i + 1) j) \/
  (T = (i * n + j) * 2 /\ e = 2 /\ a = index n (i + 1) j /\ b = index n (i + 1) (j + 1)) \/
  (T = (i * n + j) * 2 + 1 /\ e = 0 /\ a = index n i j /\ b = index n (i + 1) (j + 1)) \/
  (T = (i * n + j) * 2 + 1 /\ e = 1 /\ a = index n (i + 1) (j + 1) /\ b = index n i (j + 1)) \/
  (T = (i * n + j) * 2 + 1 /\ e = 2 /\ a = index n i (j + 1) /\ b = index n i j).

Lemma rect_edge_iff m n T e a b :
  (exists t, nth_error (fst (rectangular_mesh m n)) T = Some t /\ e < 3 /\ edge_key t e = (a, b)) <->
  exists i j, i < m /\ j < n /\ rect_edge_at n i j T e a b.
Proof.
  split.
  - intros (t & Ht & He & E). apply rect_element in Ht as (i & j & r & Hi & Hj & Hr & HT & Ht).
    exists i, j. split; auto. split; auto. unfold rect_edge_at.
    destruct r as [|[|r]]; [| |lia]; simpl in Ht; injection Ht as <-;
    destruct e as [|[|[|e]]]; try lia; simpl in E; injection E as <- <-; subst T;
    rewrite ?Nat.add_0_r; tauto.
  - intros (i & j & Hi & Hj & H).
    destruct H as [(HT & -> & -> & ->)|[(HT & -> & -> & ->)|[(HT & -> & -> & ->)|
      [(HT & -> & -> & ->)|[(HT & -> & -> & ->)|(HT & -> & -> & ->)]]]]];
    (eexists; split; [apply rect_element; exists i, j|split; [lia|]]).
    + exists 0. repeat split; auto; lia. + reflexivity.
    + exists 0. repeat split; auto; lia. + reflexivity.
    + exists 0. repeat split; auto; lia. + reflexivity.
    + exists 1. repeat split; auto; lia. + reflexivity.
    + exists 1. repeat split; auto; lia. + reflexivity.
    + exists 1. repeat split; auto; lia. + reflexivity.
Qed.

Ltac index_inject :=
  repeat match goal with
  | H : index ?n ?i ?j = index ?n ?i' ?j' |- _ =>
      apply index_inj in H; [destruct H|lia|lia]
  end.

Lemma rect_edges_unique n i j i' j' T e T' e' a b :
  j < n -> j' < n ->
  rect_edge_at n i j T e a b -> rect_edge_at n i' j' T' e' a b -> T = T' /\ e = e'.
Proof.
  intros Hj Hj' H H'. unfold rect_edge_at in *.
  destruct H as [(-> & -> & -> & ->)|[(-> & -> & -> & ->)|[(-> & -> & -> & ->)|
      [(-> & -> & -> & ->)|[(-> & -> & -> & ->)|(-> & -> & -> & ->)]]]]];
  destruct H' as [(-> & -> & Ea & Eb)|[(-> & -> & Ea & Eb)|[(-> & -> & Ea & Eb)|
      [(-> & -> & Ea & Eb)|[(-> & -> & Ea & Eb)|(-> & -> & Ea & Eb)]]]]];
  index_inject; try (exfalso; lia);
  assert (i = i') by lia; assert (j = j') by lia; subst; auto.
Qed.

(** Tagged edges of cell (i,j). *)
Definition rect_tag_at (m n i j T e : nat) (s : side) : Prop :=
   ((T = (i * n + j) * 2 /\ e = 2 /\ s = right_ /\ i = m - 1) \/
    (T = (i * n + j) * 2 /\ e = 1 /\ s = bottom_ /\ j = 0) \/
    (T = (i * n + j) * 2 + 1 /\ e = 2 /\ s = left_ /\ i = 0) \/
    (T = (i * n + j) * 2 + 1 /\ e = 1 /\ s = top_ /\ j = n - 1)).

(** The partner of an edge: exists unless the edge is tagged. *)
Lemma rect_partner m n i j T e a b :
  i < m -> j < n -> rect_edge_at n i j T e a b ->
  (exists s, rect_tag_at m n i j T e s) \/
  (exists i' j' T' e', i' < m /\ j' < n /\ rect_edge_at n i' j' T' e' b a).
Proof.
  intros Hi Hj H. unfold rect_edge_at, rect_tag_at in *.
  destruct H as [(-> & -> & -> & ->)|[(-> & -> & -> & ->)|[(-> & -> & -> & ->)|
      [(-> & -> & -> & ->)|[(-> & -> & -> & ->)|(-> & -> & -> & ->)]]]]].
  - right. exists i, j, ((i * n + j) * 2 + 1), 0. repeat split; auto. tauto.
  - destruct j as [|j].
    + left. exists bottom_. tauto.
    + right. exists i, j, ((i * n + j) * 2 + 1), 1. split; auto. split; [lia|].
      replace (S j) with (j + 1) by lia. tauto.
  - destruct (Nat.eq_dec i (m - 1)) as [E|N].
    + left. exists right_. tauto.
    + right. exists (i + 1), j, (((i + 1) * n + j) * 2 + 1), 2. split; [lia|]. split; [lia|]. tauto.
  - right. exists i, j, ((i * n + j) * 2), 0. repeat split; auto.
  - destruct (Nat.eq_dec j (n - 1)) as [E|N].
    + left. exists top_. tauto.
    + right. exists i, (j + 1), ((i * n + (j + 1)) * 2), 1. split; auto. split; [lia|]. tauto.
  - destruct i as [|i].
    + left. exists left_. tauto.
    + right. exists i, j, ((i * n + j) * 2), 2. split; [lia|]. split; auto.
      replace (S i) with (i + 1) by lia. tauto.
Qed.

Lemma rect_tagged_no_partner m n i j T e s a b i' j' T' e' :
  i < m -> j < n -> i' < m -> j' < n ->
  rect_tag_at m n i j T e s -> rect_edge_at n i j T e a b ->
  ~ rect_edge_at n i' j' T' e' b a.
Proof.
  intros Hi Hj Hi' Hj' Ht H H'. unfold rect_edge_at, rect_tag_at in *.
  destruct Ht as [(E1 & E2 & _ & E3)|[(E1 & E2 & _ & E3)|[(E1 & E2 & _ & E3)|(E1 & E2 & _ & E3)]]];
  destruct H as [(F1 & F2 & -> & ->)|[(F1 & F2 & -> & ->)|[(F1 & F2 & -> & ->)|
      [(F1 & F2 & -> & ->)|[(F1 & F2 & -> & ->)|(F1 & F2 & -> & ->)]]]]]; try lia;
  destruct H' as [(_ & _ & Ea & Eb)|[(_ & _ & Ea & Eb)|[(_ & _ & Ea & Eb)|
      [(_ & _ & Ea & Eb)|[(_ & _ & Ea & Eb)|(_ & _ & Ea & Eb)]]]]];
  index_inject; lia.
Qed.

(** A cell is determined by the triangle number. *)
Lemma rect_cell_unique n i j i' j' T e e' s s' m :
  j < n -> j' < n -> rect_tag_at m n i j T e s -> rect_tag_at m n i' j' T e' s' -> i = i' /\ j = j'.
Proof.
  intros Hj Hj' H H'. apply (cell_number_inj n); auto. unfold rect_tag_at in *. lia.
Qed.
Lemma rect_cell_unique' n i j i' j' T e e' s m a b :
  j < n -> j' < n -> rect_tag_at m n i j T e s -> rect_edge_at n i' j' T e' a b -> i = i' /\ j = j'.
Proof.
  intros Hj Hj' H H'. apply (cell_number_inj n); auto. unfold rect_tag_at, rect_edge_at in *. lia.
Qed.

Lemma rect_tag_edge m n i j T e s :
  rect_tag_at m n i j T e s -> exists a b, rect_edge_at n i j T e a b.
Proof.
  unfold rect_tag_at, rect_edge_at.
  intros [(-> & -> & -> & _)|[(-> & -> & -> & _)|[(-> & -> & -> & _)|(-> & -> & -> & _)]]].
  - do 2 eexists. right; right; left. eauto.
  - do 2 eexists. right; left. eauto.
  - do 2 eexists. right; right; right; right; right. eauto.
  - do 2 eexists. right; right; right; right; left. eauto.
Qed.

Lemma rect_tags_keys_NoDup m n p ij : NoDup (map fst (rect_tags m n p ij)).
Proof.
  destruct ij as [i j]. unfold rect_tags.
  destruct (Nat.eqb i (m - 1)), (Nat.eqb j 0), (Nat.eqb i 0), (Nat.eqb j (n - 1)); simpl;
    repeat constructor; simpl; intros H;
    repeat match goal with H : _ \/ _ |- _ => destruct H as [H|H] end;
    try (injection H; lia); auto.
Qed.

Lemma NoDup_combine_seq {A} (xs : list A) s : NoDup (combine (seq s (length xs)) xs).
Proof.
  revert s. induction xs as [|x xs IH]; intros s; simpl; constructor; auto.
  intros H. apply in_combine_seq in H as (H & _). lia.
Qed.

Lemma rect_boundary_NoDup m n : NoDup (map fst (snd (rectangular_mesh m n))).
Proof.
  rewrite rectangular_mesh_eq. cbn [snd]. rewrite <- (loop2_length m n) at 1.
  rewrite flat_map_concat_map, concat_map, map_map, <- flat_map_concat_map.
  apply NoDup_flat_map.
  - apply NoDup_combine_seq.
  - intros [p ij] _. apply rect_tags_keys_NoDup.
  - intros [p [i j]] [p' [i' j']] [T e] H H' Hb Hb'.
    apply in_combine_seq in H as (_ & H), H' as (_ & H').
    rewrite Nat.sub_0_r in H, H'.
    assert (p = p').
    { cbn [fst snd] in Hb, Hb'. apply in_map_iff in Hb as (x & Ex & Hb), Hb' as (y & Ey & Hb').
      assert (G : forall q ij x, In x (rect_tags m n (q * 2) ij) -> fst (fst x) = q * 2 \/ fst (fst x) = q * 2 + 1).
      { clear. intros q [i j] x. unfold rect_tags. rewrite !in_app_iff.
        destruct (Nat.eqb i (m - 1)), (Nat.eqb j 0), (Nat.eqb i 0), (Nat.eqb j (n - 1)); simpl;
        intuition (subst; simpl; auto). }
      apply G in Hb, Hb'. rewrite Ex in Hb. rewrite Ey in Hb'. simpl in *. lia. }
    subst. congruence.
Qed.

(** ** rectangular_cross *)
Lemma cross_grid_eq m n l1 l2 o :
  cross_grid m n l1 l2 o =
  (map (grid_point m n l1 l2 o) (loop2 (m + 1) (n + 1)),
   combine (loop2 (m + 1) (n + 1)) (seq 0 ((m + 1) * (n + 1)))).
Proof.
  unfold cross_grid. rewrite <- (loop2_length (m + 1) (n + 1)).
  assert (G : forall xs pts vs,
    fold_left (cross_grid_step m n l1 l2 o) xs (pts, vs) =
    (pts ++ map (grid_point m n l1 l2 o) xs, vs ++ combine xs (seq (length pts) (length xs)))).
  { induction xs as [|x xs IH]; intros pts vs; simpl.
    - rewrite !app_nil_r. auto.
    - unfold cross_grid_step at 2. simpl. rewrite IH, app_length. simpl.
      rewrite <- !app_assoc. simpl. rewrite Nat.add_1_r. reflexivity. }
  rewrite G. reflexivity.
Qed.

Lemma lookup_combine : forall (X : list (nat * nat)) key p s,
  NoDup X -> nth_error X p = Some key -> lookup (combine X (seq s (length X))) key = Some (s + p).
Proof.
  induction X as [|x X IH]; intros key p s ND H; [destruct p; discriminate|].
  inversion ND as [|? ? N1 N2]; subst. simpl. destruct p as [|p]; simpl in H.
  - injection H as ->. destruct (key_eqb_spec key key); [|congruence]. f_equal. lia.
  - destruct (key_eqb_spec x key) as [->|].
    + exfalso. apply N1. eapply nth_error_In; eauto.
    + rewrite (IH key p (S s)) by auto. f_equal. lia.
Qed.

Lemma vertex_eq m n i j : i <= m -> j <= n ->
  vertex (combine (loop2 (m + 1) (n + 1)) (seq 0 ((m + 1) * (n + 1)))) i j = index n i j.
Proof.
  intros Hi Hj. unfold vertex. rewrite <- (loop2_length (m + 1) (n + 1)).
  rewrite (lookup_combine _ (i, j) (index n i j) 0); auto.
  - apply loop2_NoDup.
  - apply nth_error_loop. unfold index. repeat split; lia.
Qed.

Definition cross_tris (n v5 : nat) (ij : nat * nat) : list tri :=
  let (i, j) := ij in
  let v1 := index n i (j + 1) in let v2 := index n i j in
  let v3 := index n (i + 1) (j + 1) in let v4 := index n (i + 1) j in
  [(v2, v5, v1); (v4, v5, v2); (v3, v5, v4); (v1, v5, v3)].

Definition cross_tags (m n ne : nat) (ij : nat * nat) : list ((nat * nat) * side) :=
  let (i, j) := ij in
  (if Nat.eqb i 0 then [((ne, 1), left_)] else []) ++
  (if Nat.eqb j 0 then [((ne + 1, 1), bottom_)] else []) ++
  (if Nat.eqb i (m - 1) then [((ne + 2, 1), right_)] else []) ++
  (if Nat.eqb j (n - 1) then [((ne + 3, 1), top_)] else []).

Definition centre (m n : nat) (l1 l2 : R) (o : point) (ij : nat * nat) : point :=
  let (i, j) := ij in
  let p1 := grid_point m n l1 l2 o (i, j + 1) in let p2 := grid_point m n l1 l2 o (i, j) in
  let p3 := grid_point m n l1 l2 o (i + 1, j + 1) in let p4 := grid_point m n l1 l2 o (i + 1, j) in
  (((fst p1 + fst p2 + fst p3 + fst p4) * (25 / 100))%R,
   ((snd p1 + snd p2 + snd p3 + snd p4) * (25 / 100))%R).

Lemma cross_eq m n l1 l2 o :
  let P := (m + 1) * (n + 1) in
  rectangular_cross m n l1 l2 o =
  (map (grid_point m n l1 l2 o) (loop2 (m + 1) (n + 1)) ++ map (centre m n l1 l2 o) (loop2 m n),
   (flat_map (fun px => cross_tris n (P + fst px) (snd px)) (combine (seq 0 (m * n)) (loop2 m n)),
    flat_map (fun px => cross_tags m n (fst px * 4) (snd px)) (combine (seq 0 (m * n)) (loop2 m n)))).
Proof.
  intros P. unfold rectangular_cross. rewrite cross_grid_eq.
  set (vs := combine _ _). set (P0 := map _ _).
  assert (LP : length P0 = P) by (unfold P0; rewrite map_length, loop2_length; reflexivity).
  assert (G : forall xs C el b,
    (forall i j, In (i, j) xs -> i < m /\ j < n) ->
    length el = length C * 4 ->
    fold_left (cross_cell m n vs) xs (P0 ++ C, (el, b)) =
    (P0 ++ C ++ map (centre m n l1 l2 o) xs,
     (el ++ flat_map (fun px => cross_tris n (P + fst px) (snd px)) (combine (seq (length C) (length xs)) xs),
      b ++ flat_map (fun px => cross_tags m n (fst px * 4) (snd px)) (combine (seq (length C) (length xs)) xs)))).
  { induction xs as [|[i j] xs IH]; intros C el b Hr Hl.
    - simpl. rewrite !app_nil_r. auto.
    - destruct (Hr i j) as (Hi & Hj); [left; auto|].
      assert (PT : forall a c, a <= m -> c <= n -> pt (P0 ++ C) (index n a c) = grid_point m n l1 l2 o (a, c)).
      { intros a c Ha Hc. unfold pt. rewrite app_nth1 by (rewrite LP; apply index_lt; auto).
        apply nth_error_nth. unfold P0. apply map_nth_error.
        apply nth_error_loop. unfold index. repeat split; lia. }
      cbn [fold_left].
      replace (cross_cell m n vs (P0 ++ C, (el, b)) (i, j)) with
        (P0 ++ (C ++ [centre m n l1 l2 o (i, j)]),
         (el ++ cross_tris n (P + length C) (i, j), b ++ cross_tags m n (length C * 4) (i, j))).
      + rewrite IH.
        * rewrite app_length. cbn [length map combine seq flat_map fst snd].
          rewrite <- !app_assoc. rewrite Nat.add_1_r. reflexivity.
        * intros; apply Hr; right; auto.
        * rewrite !app_length, Hl. simpl. lia.
      + unfold cross_cell, vs. rewrite !vertex_eq by lia. rewrite !PT by lia.
        rewrite app_length, LP, Hl. rewrite <- app_assoc.
        f_equal. f_equal.
        unfold cross_tags. rewrite <- ?app_assoc.
        destruct (Nat.eqb i 0), (Nat.eqb j 0), (Nat.eqb i (m - 1)), (Nat.eqb j (n - 1));
          rewrite <- ?app_assoc; simpl; rewrite ?app_nil_r; reflexivity. }
  specialize (G (loop2 m n) [] [] []). rewrite app_nil_r in G. rewrite G.
  - rewrite loop2_length. reflexivity.
  - intros i j H. apply loop2_In in H. auto.
  - reflexivity.
Qed.

Lemma nth_error_flat_map_const' {A B} (f : nat -> A -> list B) c xs :
  (forall p x, In x xs -> length (f p x) = c) ->
  forall T b, nth_error (flat_map (fun px => f (fst px) (snd px)) (combine (seq 0 (length xs)) xs)) T = Some b <->
  exists p r x, T = p * c + r /\ r < c /\ nth_error xs p = Some x /\ nth_error (f p x) r = Some b.
Proof.
  intros Hc T b. rewrite (nth_error_flat_map_const _ c).
  2:{ intros [p x] H. apply Hc. simpl. apply in_combine_r in H. exact H. }
  assert (NC : forall p q y, nth_error (combine (seq 0 (length xs)) xs) p = Some (q, y) <->
                             q = p /\ nth_error xs p = Some y).
  { clear. intros p q y.
    assert (G : forall s p, nth_error (combine (seq s (length xs)) xs) p = Some (q, y) <->
                             q = s + p /\ nth_error xs p = Some y).
    { induction xs as [|x l IH]; intros s k.
      - destruct k; simpl; split; try discriminate; intros (_ & H); discriminate.
      - destruct k as [|k]; simpl.
        + split; [intros H; injection H as <- <-; split; auto; lia|].
          intros (-> & H). injection H as <-. rewrite Nat.add_0_r. reflexivity.
        + rewrite IH. split; intros (-> & H); split; auto; lia. }
    apply (G 0). }
  split.
  - intros (p & r & [q x] & E & Hr & Hp & Hb). apply NC in Hp as (-> & Hp). exists p, r, x. auto.
  - intros (p & r & x & E & Hr & Hp & Hb). exists p, r, (p, x). repeat split; auto. apply NC. auto.
Qed.

Definition cross_elements m n l1 l2 o := fst (snd (rectangular_cross m n l1 l2 o)).
Definition cross_boundary m n l1 l2 o := snd (snd (rectangular_cross m n l1 l2 o)).

Lemma cross_element m n l1 l2 o T t :
  nth_error (cross_elements m n l1 l2 o) T = Some t <->
  exists i j r, i < m /\ j < n /\ r < 4 /\ T = (i * n + j) * 4 + r /\
    nth_error (cross_tris n ((m + 1) * (n + 1) + (i * n + j)) (i, j)) r = Some t.
Proof.
  unfold cross_elements. rewrite cross_eq. cbn [fst snd]. rewrite <- (loop2_length m n) at 1.
  rewrite (nth_error_flat_map_const' (fun p ij => cross_tris n ((m + 1) * (n + 1) + p) ij) 4)
    by (intros p [i j] _; reflexivity).
  split.
  - intros (p & r & [i j] & E & Hr & Hp & Hb). apply nth_error_loop in Hp as (Hi & Hj & ->).
    exists i, j, r. auto.
  - intros (i & j & r & Hi & Hj & Hr & E & Hb). exists (i * n + j), r, (i, j).
    repeat split; auto. apply nth_error_loop. auto.
Qed.

Definition cross_tag_at (m n i j T e : nat) (s : side) : Prop :=
  e = 1 /\
   ((T = (i * n + j) * 4 /\ s = left_ /\ i = 0) \/
    (T = (i * n + j) * 4 + 1 /\ s = bottom_ /\ j = 0) \/
    (T = (i * n + j) * 4 + 2 /\ s = right_ /\ i = m - 1) \/
    (T = (i * n + j) * 4 + 3 /\ s = top_ /\ j = n - 1)).

Lemma cross_boundary_iff m n l1 l2 o T e s :
  In ((T, e), s) (cross_boundary m n l1 l2 o) <->
  exists i j, i < m /\ j < n /\ cross_tag_at m n i j T e s.
Proof.
  unfold cross_boundary, cross_tag_at. rewrite cross_eq. cbn [fst snd]. rewrite <- (loop2_length m n) at 1.
  rewrite (in_numbered_flat_map (fun p ij => cross_tags m n (p * 4) ij)). split.
  - intros (p & [i j] & Hp & H). apply nth_error_loop in Hp as (Hi & Hj & ->).
    exists i, j. split; auto. split; auto. unfold cross_tags in H.
    rewrite !in_app_iff in H.
    destruct H as [H|[H|[H|H]]].
    + destruct (Nat.eqb_spec i 0); [destruct H as [H|[]]; injection H; intros; subst; tauto|destruct H].
    + destruct (Nat.eqb_spec j 0); [destruct H as [H|[]]; injection H; intros; subst; tauto|destruct H].
    + destruct (Nat.eqb_spec i (m - 1)); [destruct H as [H|[]]; injection H; intros; subst; tauto|destruct H].
    + destruct (Nat.eqb_spec j (n - 1)); [destruct H as [H|[]]; injection H; intros; subst; tauto|destruct H].
  - intros (i & j & Hi & Hj & -> & H). exists (i * n + j), (i, j). split; [apply nth_error_loop; auto|].
    unfold cross_tags. rewrite !in_app_iff.
    destruct H as [(-> & -> & E)|[(-> & -> & E)|[(-> & -> & E)|(-> & -> & E)]]];
      apply Nat.eqb_eq in E; rewrite E; simpl; auto 10.
Qed.

(** Directed edges of the cross mesh; [v5] is the centre node of cell (i,j).
    Triangle [r] of a cell runs from corner [A r] to the centre to corner
    [B r]. *)
Definition cornerA (n i j r : nat) : nat :=
  match r with 0 => index n i j | 1 => index n (i + 1) j
             | 2 => index n (i + 1) (j + 1) | _ => index n i (j + 1) end.
Definition cornerB (n i j r : nat) : nat :=
  match r with 0 => index n i (j + 1) | 1 => index n i j
             | 2 => index n (i + 1) j | _ => index n (i + 1) (j + 1) end.

Definition cross_edge_at (m n i j T e a b : nat) : Prop :=
  let v5 := (m + 1) * (n + 1) + (i * n + j) in
  exists r, r < 4 /\ T = (i * n + j) * 4 + r /\
  ((e = 0 /\ a = v5 /\ b = cornerB n i j r) \/
   (e = 1 /\ a = cornerB n i j r /\ b = cornerA n i j r) \/
   (e = 2 /\ a = cornerA n i j r /\ b = v5)).

Lemma cross_edge_iff m n l1 l2 o T e a b :
  (exists t, nth_error (cross_elements m n l1 l2 o) T = Some t /\ e < 3 /\ edge_key t e = (a, b)) <->
  exists i j, i < m /\ j < n /\ cross_edge_at m n i j T e a b.
Proof.
  split.
  - intros (t & Ht & He & E). apply cross_element in Ht as (i & j & r & Hi & Hj & Hr & HT & Ht).
    exists i, j. split; auto. split; auto. exists r. split; auto. split; auto.
    destruct r as [|[|[|[|r]]]]; try lia; simpl in Ht; injection Ht as <-;
    destruct e as [|[|[|e]]]; try lia; simpl in E; injection E as <- <-; simpl; tauto.
  - intros (i & j & Hi & Hj & r & Hr & HT & H).
    exists (cornerA n i j r, (m + 1) * (n + 1) + (i * n + j), cornerB n i j r). split; [|split].
    + apply cross_element. exists i, j, r. repeat split; auto.
      destruct r as [|[|[|[|r]]]]; try lia; reflexivity.
    + lia.
    + destruct H as [(-> & -> & ->)|[(-> & -> & ->)|(-> & -> & ->)]]; reflexivity.
Qed.

Lemma corner_lt m n i j r : i < m -> j < n ->
  cornerA n i j r < (m + 1) * (n + 1) /\ cornerB n i j r < (m + 1) * (n + 1).
Proof.
  intros Hi Hj. destruct r as [|[|[|r]]]; simpl; split; apply index_lt; lia.
Qed.

Lemma cross_edges_unique m n i j i' j' T e T' e' a b :
  i < m -> i' < m -> j < n -> j' < n ->
  cross_edge_at m n i j T e a b -> cross_edge_at m n i' j' T' e' a b -> T = T' /\ e = e'.
Proof.
  intros Hi Hi' Hj Hj' (r & Hr & -> & H) (r' & Hr' & -> & H').
  pose proof (corner_lt m n i j r Hi Hj) as (L1 & L2).
  pose proof (corner_lt m n i' j' r' Hi' Hj') as (L1' & L2').
  destruct H as [(-> & -> & ->)|[(-> & -> & ->)|(-> & -> & ->)]];
  destruct H' as [(-> & Ea & Eb)|[(-> & Ea & Eb)|(-> & Ea & Eb)]]; try lia.
  - assert (E : i * n + j = i' * n + j') by lia. apply cell_number_inj in E; auto. destruct E; subst i' j'.
    assert (r = r'); [|subst; auto].
    destruct r as [|[|[|[|r]]]], r' as [|[|[|[|r']]]]; simpl in Eb; try lia; auto; index_inject; lia.
  - destruct r as [|[|[|[|r]]]], r' as [|[|[|[|r']]]]; simpl in Ea, Eb; try lia; index_inject; try (exfalso; lia);
    assert (i = i') by lia; assert (j = j') by lia; subst; auto.
  - assert (E : i * n + j = i' * n + j') by lia. apply cell_number_inj in E; auto. destruct E; subst i' j'.
    assert (r = r'); [|subst; auto].
    destruct r as [|[|[|[|r]]]], r' as [|[|[|[|r']]]]; simpl in Ea; try lia; auto; index_inject; lia.
Qed.

Lemma cross_partner m n i j T e a b :
  i < m -> j < n -> cross_edge_at m n i j T e a b ->
  (exists s, cross_tag_at m n i j T e s) \/
  (exists i' j' T' e', i' < m /\ j' < n /\ cross_edge_at m n i' j' T' e' b a).
Proof.
  intros Hi Hj (r & Hr & -> & H). unfold cross_edge_at, cross_tag_at.
  destruct H as [(-> & -> & ->)|[(-> & -> & ->)|(-> & -> & ->)]].
  - right. exists i, j. do 2 eexists. split; auto. split; auto.
    exists (match r with 0 => 3 | S r' => r' end). split; [destruct r; lia|]. split; [reflexivity|].
    right; right. split; [reflexivity|]. split; auto.
    destruct r as [|[|[|[|r]]]]; simpl; auto; lia.
  - destruct r as [|[|[|[|r]]]]; [| | | |lia].
    + destruct i as [|i]; [left; exists left_; split; auto; left; lia|].
      right. exists i, j. do 2 eexists. split; [lia|]. split; auto. exists 2. split; [lia|].
      split; [reflexivity|]. right; left. split; [reflexivity|]. simpl. replace (S i) with (i + 1) by lia. auto.
    + destruct j as [|j]; [left; exists bottom_; split; auto; right; left; lia|].
      right. exists i, j. do 2 eexists. split; [lia|]. split; [lia|]. exists 3. split; [lia|].
      split; [reflexivity|]. right; left. split; [reflexivity|]. simpl. replace (S j) with (j + 1) by lia. auto.
    + destruct (Nat.eq_dec i (m - 1)) as [E|N]; [left; exists right_; split; auto; right; right; left; auto|].
      right. exists (i + 1), j. do 2 eexists. split; [lia|]. split; [lia|]. exists 0. split; [lia|].
      split; [reflexivity|]. right; left. split; [reflexivity|]. simpl. auto.
    + destruct (Nat.eq_dec j (n - 1)) as [E|N]; [left; exists top_; split; auto; right; right; right; auto|].
      right. exists i, (j + 1). do 2 eexists. split; [lia|]. split; [lia|]. exists 1. split; [lia|].
      split; [reflexivity|]. right; left. split; [reflexivity|]. simpl. auto.
  - right. exists i, j. do 2 eexists. split; auto. split; auto.
    exists (match r with 3 => 0 | r' => S r' end). split; [destruct r as [|[|[|[|r]]]]; lia|].
    split; [reflexivity|]. left. split; [reflexivity|]. split; auto.
    destruct r as [|[|[|[|r]]]]; simpl; auto; lia.
Qed.

Lemma cross_tagged_no_partner m n i j T e s a b i' j' T' e' :
  i < m -> j < n -> i' < m -> j' < n ->
  cross_tag_at m n i j T e s -> cross_edge_at m n i j T e a b ->
  ~ cross_edge_at m n i' j' T' e' b a.
Proof.
  intros Hi Hj Hi' Hj' (He & Ht) (r & Hr & HT & H) (r' & Hr' & HT' & H'). subst e.
  destruct H as [(F & _)|[(_ & -> & ->)|(F & _)]]; try lia.
  pose proof (corner_lt m n i j r Hi Hj) as (L1 & L2).
  pose proof (corner_lt m n i' j' r' Hi' Hj') as (L1' & L2').
  destruct H' as [(_ & Ea & Eb)|[(_ & Ea & Eb)|(_ & Ea & Eb)]]; try lia.
  destruct r as [|[|[|[|r]]]]; try lia;
  destruct r' as [|[|[|[|r']]]]; try lia; cbn [cornerA cornerB] in *;
  index_inject; lia.
Qed.

Lemma cross_cell_unique n i j i' j' T e e' s m a b :
  j < n -> j' < n -> cross_tag_at m n i j T e s -> cross_edge_at m n i' j' T e' a b -> i = i' /\ j = j'.
Proof.
  intros Hj Hj' (_ & H) (r & Hr & HT & _). apply (cell_number_inj n); auto. lia.
Qed.

Lemma cross_tag_edge m n i j T e s :
  cross_tag_at m n i j T e s ->
  cross_edge_at m n i j T e
    (cornerB n i j (match s with left_ => 0 | bottom_ => 1 | right_ => 2 | top_ => 3 end))
    (cornerA n i j (match s with left_ => 0 | bottom_ => 1 | right_ => 2 | top_ => 3 end)).
Proof.
  intros (-> & [(-> & -> & _)|[(-> & -> & _)|[(-> & -> & _)|(-> & -> & _)]]]).
  - exists 0. split; [lia|]. split; [lia|]. auto.
  - exists 1. split; [lia|]. split; [lia|]. auto.
  - exists 2. split; [lia|]. split; [lia|]. auto.
  - exists 3. split; [lia|]. split; [lia|]. auto.
Qed.

Lemma cross_boundary_NoDup m n l1 l2 o : NoDup (map fst (cross_boundary m n l1 l2 o)).
Proof.
  unfold cross_boundary. rewrite cross_eq. cbn [snd]. rewrite <- (loop2_length m n) at 1.
  rewrite flat_map_concat_map, concat_map, map_map, <- flat_map_concat_map.
  apply NoDup_flat_map.
  - apply NoDup_combine_seq.
  - intros [p [i j]] _. cbn [fst snd]. unfold cross_tags.
    destruct (Nat.eqb i (m - 1)), (Nat.eqb j 0), (Nat.eqb i 0), (Nat.eqb j (n - 1)); simpl;
    repeat constructor; simpl; intros H;
    repeat match goal with H : _ \/ _ |- _ => destruct H as [H|H] end;
    try (injection H; lia); auto.
  - intros [p [i j]] [p' [i' j']] [T e] H H' Hb Hb'.
    apply in_combine_seq in H as (_ & H), H' as (_ & H').
    rewrite Nat.sub_0_r in H, H'.
    assert (p = p').
    { cbn [fst snd] in Hb, Hb'. apply in_map_iff in Hb as (x & Ex & Hb), Hb' as (y & Ey & Hb').
      assert (G : forall q ij x, In x (cross_tags m n (q * 4) ij) -> q * 4 <= fst (fst x) < q * 4 + 4).
      { clear. intros q [i j] x. unfold cross_tags. rewrite !in_app_iff.
        destruct (Nat.eqb i (m - 1)), (Nat.eqb j 0), (Nat.eqb i 0), (Nat.eqb j (n - 1)); simpl;
        intuition (subst; simpl; lia). }
      apply G in Hb, Hb'. rewrite Ex in Hb. rewrite Ey in Hb'. simpl in *. lia. }
    subst. congruence.
Qed.
