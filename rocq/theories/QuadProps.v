(** C17: the Python quad tree. *)
From Coq Require Import Reals List Bool Arith Permutation Lia Lra Psatz.
From Verif Require Import RealLib QuadModel.
Import ListNotations.
Local Open Scope R_scope.

(** ** Boxes *)

Definition inside (p : R * R) (b : aabb) : Prop := xmin b <= fst p <= xmax b /\ ymin b <= snd p <= ymax b.
Definition box_within (a b : aabb) : Prop := xmin b <= xmin a /\ xmax a <= xmax b /\ ymin b <= ymin a /\ ymax a <= ymax b.

Lemma contains_spec b p : contains b p = true <-> inside p b.
Proof. unfold contains, inside. rewrite !andb_true_iff, !Rleb_true. tauto. Qed.

Lemma trivial_spec self test : is_trivial_in self test = true <-> box_within test self.
Proof.
  unfold is_trivial_in, box_within. destruct (Rltb_spec (xmin test) (xmin self)), (Rltb_spec (xmax self) (xmax test)),
    (Rltb_spec (ymin test) (ymin self)), (Rltb_spec (ymax self) (ymax test)); cbn [orb]; split; intros; try discriminate; try lra; auto.
Qed.

Lemma inside_within p a b : inside p a -> box_within a b -> inside p b.
Proof. unfold inside, box_within. lra. Qed.

(** The halves of a box: within it, together covering it, overlapping by a
    tenth of the side that is split, each with a perimeter at most 0.775 of
    the whole. *)
Lemma split_spec b r1 r2 : QuadModel.split b = Some (r1, r2) ->
  0 <= width b /\ 0 <= height b /\
  box_within r1 b /\ box_within r2 b /\ 0 <= width r1 /\ 0 <= height r1 /\ 0 <= width r2 /\ 0 <= height r2 /\
  (forall p, inside p b -> inside p r1 \/ inside p r2) /\
  width r1 + height r1 <= 775 / 1000 * (width b + height b) /\ width r2 + height r2 <= 775 / 1000 * (width b + height b).
Proof.
  unfold QuadModel.split. destruct (Rleb_spec 0 (width b)); [|discriminate]. destruct (Rleb_spec 0 (height b)); [|discriminate]. cbn [andb].
  destruct (Rltb_spec (height b) (width b)); intros H; injection H as <- <-; unfold box_within, inside, width, height, border in *; cbn [xmin xmax ymin ymax] in *;
  (repeat split; try lra; intros p Hp).
  - destruct (Rle_dec (fst p) (xmin b + (xmax b - xmin b) * (55 / 100))); [left|right]; lra.
  - destruct (Rle_dec (snd p) (ymin b + (ymax b - ymin b) * (55 / 100))); [left|right]; lra.
Qed.

Lemma split_total b : 0 <= width b -> 0 <= height b -> exists r1 r2, QuadModel.split b = Some (r1, r2).
Proof.
  intros Hw Hh. unfold QuadModel.split. rewrite (proj2 (Rleb_true _ _) Hw), (proj2 (Rleb_true _ _) Hh). cbn [andb].
  destruct (Rltb _ _); eauto.
Qed.

(** The smallest box around a list of points. *)
Theorem C17_box_of_points : forall pts b, aabb_of_points pts = Some b ->
  (forall p, In p pts -> inside p b) /\
  (forall b', (forall p, In p pts -> inside p b') -> box_within b b').
Proof.
  intros [|(x, y) pts] b H; [discriminate|]. cbn [aabb_of_points] in H. injection H as <-.
  assert (G : forall pts b, box_within b (include b pts) /\ (forall p, In p pts -> inside p (include b pts)) /\
     (forall b', box_within b b' -> (forall p, In p pts -> inside p b') -> box_within (include b pts) b')).
  { clear. induction pts as [|(u, v) pts IH]; intros b.
    - cbn. split; [unfold box_within; lra|]. split; [tauto|auto].
    - cbn [include fold_left]. fold (include (include1 b (u, v)) pts). destruct (IH (include1 b (u, v))) as (I1 & I2 & I3).
      assert (J : box_within b (include1 b (u, v)) /\ (xmin (include1 b (u, v)) <= u /\ ymin (include1 b (u, v)) <= v) /\
         (u <= xmax (include1 b (u, v)) /\ v <= ymax (include1 b (u, v)))).
      { unfold box_within, include1. cbn [xmin xmax ymin ymax]. rdestruct; lra. }
      split; [unfold box_within in *; lra|]. split.
      + intros p [<-|Hp]; [|apply I2, Hp]. unfold inside, box_within in *. cbn [fst snd]. lra.
      + intros b' Hb Hp. apply I3; [|intros; apply Hp; now right]. specialize (Hp (u, v) (or_introl eq_refl)).
        unfold inside, box_within, include1 in *. cbn [xmin xmax ymin ymax fst snd] in *. rdestruct; lra. }
  set (b0 := {| xmin := x; xmax := x; ymin := y; ymax := y |}). destruct (G pts b0) as (G1 & G2 & G3). split.
  - intros p [<-|Hp]; [|apply G2, Hp]. unfold inside, box_within, b0 in *. cbn [xmin xmax ymin ymax fst snd] in *. lra.
  - intros b' Hb. apply G3; [|intros; apply Hb; now right]. specialize (Hb (x, y) (or_introl eq_refl)).
    unfold inside, box_within, b0 in *. cbn [xmin xmax ymin ymax fst snd] in *. lra.
Qed.
Print Assumptions C17_box_of_points.

(** Growing a box by a non-negative amount keeps it inside the new one. *)
Theorem C17_grow : forall b amount, 0 <= amount -> xmin b <= xmax b -> ymin b <= ymax b -> box_within b (grow b amount).
Proof.
  intros b amount Ha Hx Hy. unfold box_within, grow. cbn [xmin xmax ymin ymax].
  assert (0 <= (xmax b - xmin b) * amount) by (apply Rmult_le_pos; lra).
  assert (0 <= (ymax b - ymin b) * amount) by (apply Rmult_le_pos; lra).
  assert (0 <= (xmax b + (xmax b - xmin b) * amount - xmin b) * amount) by (apply Rmult_le_pos; lra).
  assert (0 <= (ymax b + (ymax b - ymin b) * amount - ymin b) * amount) by (apply Rmult_le_pos; lra).
  lra.
Qed.
Print Assumptions C17_grow.

(** ** The tree *)
Section Data.
Context {D : Type}.
Notation cell := (cell D).

(** Two level induction on cells. *)
Lemma cell_ind2 (P : cell -> Prop) :
  (forall e l, P (Cell e l None)) ->
  (forall e l c1 c2, P c1 -> P c2 -> P (Cell e l (Some (c1, c2)))) -> forall c, P c.
Proof.
  intros H0 H1. fix IH 1. intros [e l [(c1, c2)|]]; [apply H1; apply IH|apply H0].
Qed.

(** Leaves below a child fit in the child's box. *)
Fixpoint fits (c : cell) : Prop :=
  let '(Cell _ _ children) := c in
  match children with
  | None => True
  | Some (c1, c2) =>
      (forall leaf, In leaf (retrieve c1) -> box_within (fst leaf) (extents_of c1)) /\
      (forall leaf, In leaf (retrieve c2) -> box_within (fst leaf) (extents_of c2)) /\ fits c1 /\ fits c2
  end.

Lemma insert_extents : forall fuel (c c' : cell) leaf, insert_item fuel c leaf = Some c' -> extents_of c' = extents_of c.
Proof.
  intros [|fuel] [e l [(c1, c2)|]] c' leaf H; try discriminate; cbn [insert_item] in H.
  - destruct (is_trivial_in _ _); [destruct (insert_item fuel c1 leaf); [|discriminate]|destruct (is_trivial_in _ _); [destruct (insert_item fuel c2 leaf); [|discriminate]|]];
    injection H as <-; reflexivity.
  - destruct (QuadModel.split e) as [(r1, r2)|]; [|discriminate].
    destruct (is_trivial_in r1 _); [destruct (insert_item fuel (new_cell r1) leaf); [|discriminate]|destruct (is_trivial_in r2 _); [destruct (insert_item fuel (new_cell r2) leaf); [|discriminate]|]];
    injection H as <-; reflexivity.
Qed.

Lemma insert_item_spec : forall fuel (c c' : cell) leaf, insert_item fuel c leaf = Some c' -> fits c ->
  fits c' /\ Permutation (retrieve c') (leaf :: retrieve c).
Proof.
  induction fuel as [|fuel IH]; intros [e l ch] c' leaf H F; [discriminate|]. cbn [insert_item] in H.
  assert (Nf : forall r, fits (new_cell r)) by (intros; exact I).
  destruct ch as [(c1, c2)|].
  - destruct F as (F1 & F2 & F3 & F4).
    destruct (is_trivial_in (extents_of c1) (fst leaf)) eqn:E1; [|destruct (is_trivial_in (extents_of c2) (fst leaf)) eqn:E2].
    + destruct (insert_item fuel c1 leaf) as [c1'|] eqn:E; [|discriminate]. injection H as <-.
      destruct (IH _ _ _ E F3) as (G1 & G2). apply trivial_spec in E1. split.
      * cbn [fits]. rewrite (insert_extents _ _ _ _ E). refine (conj _ (conj _ (conj _ _))); auto.
        intros x Hx. apply (Permutation_in x G2) in Hx as [<-|Hx]; auto.
      * cbn [retrieve]. rewrite G2. cbn [app]. apply Permutation_sym, Permutation_middle.
    + destruct (insert_item fuel c2 leaf) as [c2'|] eqn:E; [|discriminate]. injection H as <-.
      destruct (IH _ _ _ E F4) as (G1 & G2). apply trivial_spec in E2. split.
      * cbn [fits]. rewrite (insert_extents _ _ _ _ E). refine (conj _ (conj _ (conj _ _))); auto.
        intros x Hx. apply (Permutation_in x G2) in Hx as [<-|Hx]; auto.
      * cbn [retrieve]. rewrite G2, !app_assoc. apply Permutation_sym, Permutation_middle.
    + injection H as <-. split; [cbn; auto|]. cbn [retrieve]. rewrite <- app_assoc. apply Permutation_sym, Permutation_middle.
  - destruct (QuadModel.split e) as [(r1, r2)|] eqn:Es; [|discriminate].
    destruct (is_trivial_in r1 (fst leaf)) eqn:E1; [|destruct (is_trivial_in r2 (fst leaf)) eqn:E2].
    + destruct (insert_item fuel (new_cell r1) leaf) as [c1'|] eqn:E; [|discriminate]. injection H as <-.
      destruct (IH _ _ _ E (Nf r1)) as (G1 & G2). apply trivial_spec in E1. split.
      * cbn [fits]. rewrite (insert_extents _ _ _ _ E). refine (conj _ (conj _ (conj _ _))); auto; [|intros x []].
        intros x Hx. apply (Permutation_in x G2) in Hx as [<-|[]]. exact E1.
      * cbn [retrieve new_cell]. rewrite G2, app_nil_r. cbn [retrieve new_cell]. apply Permutation_sym, Permutation_cons_append.
    + destruct (insert_item fuel (new_cell r2) leaf) as [c2'|] eqn:E; [|discriminate]. injection H as <-.
      destruct (IH _ _ _ E (Nf r2)) as (G1 & G2). apply trivial_spec in E2. split.
      * cbn [fits]. rewrite (insert_extents _ _ _ _ E). refine (conj _ (conj _ (conj _ _))); auto; [intros x []|].
        intros x Hx. apply (Permutation_in x G2) in Hx as [<-|[]]. exact E2.
      * cbn [retrieve new_cell app]. rewrite G2. cbn [retrieve new_cell]. apply Permutation_sym, Permutation_cons_append.
    + injection H as <-. split; [exact I|]. cbn [retrieve]. apply Permutation_sym, Permutation_cons_append.
Qed.

Lemma count_retrieve (c : cell) : count c = length (retrieve c).
Proof.
  induction c as [e l|e l c1 c2 I1 I2] using cell_ind2; cbn [count retrieve]; [reflexivity|].
  rewrite !app_length, I1, I2. lia.
Qed.

Lemma test_leaves_spec (l : list (aabb * D)) p : test_leaves l p = map snd (filter (fun leaf => contains (fst leaf) p) l).
Proof.
  unfold test_leaves.
  assert (G : forall (l : list (aabb * D)) (acc : list D), fold_left (fun found leaf => if contains (fst leaf) p then found ++ [snd leaf] else found) l acc =
     acc ++ map snd (filter (fun leaf => contains (fst leaf) p) l)); [|apply (G l [])].
  clear. induction l as [|a l IH]; intros acc; cbn [fold_left filter map]; [now rewrite app_nil_r|].
  rewrite IH. destruct (contains (fst a) p); cbn [map]; [rewrite <- app_assoc; reflexivity|reflexivity].
Qed.

Lemma filter_none {A} (f : A -> bool) l : (forall x, In x l -> f x = false) -> filter f l = [].
Proof. induction l as [|a l IH]; intros H; cbn; auto. rewrite (H a (or_introl eq_refl)). apply IH. intros; apply H; now right. Qed.

Lemma search_spec (c : cell) p : fits c ->
  search c p = map snd (filter (fun leaf => contains (fst leaf) p) (retrieve c)).
Proof.
  induction c as [e l|e l c1 c2 I1 I2] using cell_ind2; intros F; cbn [search retrieve].
  - apply test_leaves_spec.
  - destruct F as (F1 & F2 & F3 & F4). rewrite test_leaves_spec, (I1 F3), (I2 F4), !filter_app, !map_app.
    assert (G : forall c : cell, (forall leaf, In leaf (retrieve c) -> box_within (fst leaf) (extents_of c)) -> contains (extents_of c) p = false ->
       filter (fun leaf => contains (fst leaf) p) (retrieve c) = []).
    { intros c Fc Hc. apply filter_none. intros x Hx. destruct (contains (fst x) p) eqn:E; [|reflexivity].
      apply contains_spec in E. apply (inside_within _ _ _ E) in Fc; [|exact Hx]. apply contains_spec in Fc. congruence. }
    destruct (contains (extents_of c1) p) eqn:E1, (contains (extents_of c2) p) eqn:E2.
    + now rewrite app_assoc.
    + rewrite (G c2 F2 E2). cbn [map]. now rewrite app_nil_r.
    + rewrite (G c1 F1 E1). reflexivity.
    + rewrite (G c1 F1 E1), (G c2 F2 E2). cbn [map app]. now rewrite app_nil_r.
Qed.

Lemma insert_spec fuel : forall leaves (c c' : cell), insert fuel c leaves = Some c' -> fits c ->
  fits c' /\ Permutation (retrieve c') (retrieve c ++ leaves).
Proof.
  induction leaves as [|leaf leaves IH]; intros c c' H F; cbn [insert] in H.
  - injection H as <-. rewrite app_nil_r. auto.
  - destruct (insert_item fuel c leaf) as [c1|] eqn:E; [|discriminate].
    destruct (insert_item_spec _ _ _ _ E F) as (F1 & P1). destruct (IH _ _ H F1) as (F2 & P2). split; [exact F2|].
    rewrite P2, P1. cbn [app]. apply Permutation_middle.
Qed.

(** After any sequence of insertions in a new tree, whatever the boxes and
    the root box: the count, the leaves and every search are exact (with
    multiplicity). *)
Theorem C17_exact : forall fuel root leaves (c : cell),
  insert fuel (new_cell root) leaves = Some c ->
  count c = length leaves /\ Permutation (retrieve c) leaves /\
  forall p, Permutation (search c p) (map snd (filter (fun leaf => contains (fst leaf) p) leaves)).
Proof.
  intros fuel root leaves c H. destruct (insert_spec _ _ _ _ H I) as (F & P). cbn [retrieve new_cell app] in P.
  split; [rewrite count_retrieve; apply Permutation_length, P|]. split; [exact P|].
  intros p. rewrite search_spec by exact F. apply Permutation_map. clear -P.
  induction P; cbn; auto.
  - destruct (contains _ _); auto.
  - destruct (contains (fst x) p), (contains (fst y) p); auto. constructor.
  - eapply perm_trans; eauto.
Qed.

(** Trees as the code builds them: children are the two halves. *)
Fixpoint regular (c : cell) : Prop :=
  let '(Cell e _ children) := c in
  0 <= width e /\ 0 <= height e /\
  match children with
  | None => True
  | Some (c1, c2) => QuadModel.split e = Some (extents_of c1, extents_of c2) /\ regular c1 /\ regular c2
  end.

Lemma fits_size a b : box_within a b -> width a + height a <= width b + height b.
Proof. unfold box_within, width, height. lra. Qed.

Lemma insert_item_total (leaf : aabb * D) : 0 < width (fst leaf) + height (fst leaf) ->
  forall n (c : cell), regular c ->
  (width (extents_of c) + height (extents_of c)) * (775 / 1000) ^ n < width (fst leaf) + height (fst leaf) ->
  exists c', insert_item (S n) c leaf = Some c' /\ regular c'.
Proof.
  intros Hl. induction n as [|n IH]; intros [e l ch] Hr Hs; cbn [extents_of] in Hs.
  - (* no half can hold the leaf *)
    rewrite pow_O, Rmult_1_r in Hs. cbn [insert_item]. destruct Hr as (R1 & R2 & R3).
    assert (N : forall r1 r2, QuadModel.split e = Some (r1, r2) -> is_trivial_in r1 (fst leaf) = false /\ is_trivial_in r2 (fst leaf) = false).
    { intros r1 r2 Es. destruct (split_spec _ _ _ Es) as (S1 & S2 & S3 & S4 & S5 & S6 & S7 & S8 & S9 & S10 & S11).
      split; [destruct (is_trivial_in r1 (fst leaf)) eqn:E|destruct (is_trivial_in r2 (fst leaf)) eqn:E]; auto;
      apply trivial_spec, fits_size in E; exfalso; lra. }
    destruct ch as [(c1, c2)|].
    + destruct R3 as (Es & R3 & R4). destruct (N _ _ Es) as (N1 & N2). rewrite N1, N2. eexists. split; [reflexivity|]. cbn; auto.
    + destruct (split_total e R1 R2) as (r1 & r2 & Es). rewrite Es. destruct (N _ _ Es) as (N1 & N2). rewrite N1, N2.
      eexists. split; [reflexivity|]. cbn; auto.
  - set (k := S n) in *. cbn [insert_item]. destruct Hr as (R1 & R2 & R3).
    assert (Pw : 0 < (775 / 1000) ^ n) by (apply pow_lt; lra).
    assert (Small : forall r, width r + height r <= 775 / 1000 * (width e + height e) -> (width r + height r) * (775 / 1000) ^ n < width (fst leaf) + height (fst leaf)).
    { intros r Hq. eapply Rle_lt_trans; [|exact Hs]. unfold k. cbn [pow].
      replace ((width e + height e) * (775 / 1000 * (775 / 1000) ^ n)) with (775 / 1000 * (width e + height e) * (775 / 1000) ^ n) by ring.
      apply Rmult_le_compat_r; lra. }
    destruct ch as [(c1, c2)|].
    + destruct R3 as (Es & R3 & R4). destruct (split_spec _ _ _ Es) as (S1 & S2 & S3 & S4 & S5 & S6 & S7 & S8 & S9 & S10 & S11).
      destruct (is_trivial_in (extents_of c1) (fst leaf)).
      * destruct (IH c1 R3 (Small _ S10)) as (c' & E' & Q). rewrite E'. eexists. split; [reflexivity|].
        cbn [regular]. rewrite (insert_extents _ _ _ _ E'). auto 10.
      * destruct (is_trivial_in (extents_of c2) (fst leaf)).
        -- destruct (IH c2 R4 (Small _ S11)) as (c' & E' & Q). rewrite E'. eexists. split; [reflexivity|].
           cbn [regular]. rewrite (insert_extents _ _ _ _ E'). auto 10.
        -- eexists. split; [reflexivity|]. cbn [regular]. auto 10.
    + destruct (split_total e R1 R2) as (r1 & r2 & Es). rewrite Es.
      destruct (split_spec _ _ _ Es) as (S1 & S2 & S3 & S4 & S5 & S6 & S7 & S8 & S9 & S10 & S11).
      assert (N1 : regular (new_cell r1)) by (cbn; auto). assert (N2 : regular (new_cell r2)) by (cbn; auto).
      destruct (is_trivial_in r1 (fst leaf)).
      * destruct (IH (new_cell r1) N1 (Small _ S10)) as (c' & E' & Q). rewrite E'. eexists. split; [reflexivity|].
        cbn [regular]. rewrite (insert_extents _ _ _ _ E'). auto 10.
      * destruct (is_trivial_in r2 (fst leaf)).
        -- destruct (IH (new_cell r2) N2 (Small _ S11)) as (c' & E' & Q). rewrite E'. eexists. split; [reflexivity|].
           cbn [regular]. rewrite (insert_extents _ _ _ _ E'). auto 10.
        -- eexists. split; [reflexivity|]. cbn [regular]. auto.
Qed.

(** Insertion ends: if every leaf box has at least one positive side (and the
    sides of the root box are not negative), a recursion depth of [n + 1] is
    enough for every leaf with (W + H) * 0.775^n < w + h, where W, H is the
    size of the root and w, h that of the leaf. *)
Theorem C17_terminates : forall n root (leaves : list (aabb * D)),
  0 <= width root -> 0 <= height root ->
  (forall leaf, In leaf leaves -> 0 < width (fst leaf) + height (fst leaf) /\
     (width root + height root) * (775 / 1000) ^ n < width (fst leaf) + height (fst leaf)) ->
  exists c : cell, insert (S n) (new_cell root) leaves = Some c.
Proof.
  intros n root leaves Hw Hh Hl.
  assert (G : forall leaves (c : cell), regular c -> extents_of c = root ->
    (forall leaf, In leaf leaves -> 0 < width (fst leaf) + height (fst leaf) /\
     (width root + height root) * (775 / 1000) ^ n < width (fst leaf) + height (fst leaf)) ->
    exists c', insert (S n) c leaves = Some c').
  { induction leaves0 as [|leaf ls IH]; intros c Rc Ec K; cbn [insert]; [eauto|].
    destruct (K leaf (or_introl eq_refl)) as (K1 & K2).
    destruct (insert_item_total leaf K1 n c Rc) as (c' & E & Rc'); [rewrite Ec; exact K2|]. rewrite E.
    apply IH; [exact Rc'|rewrite (insert_extents _ _ _ _ E); exact Ec|intros; apply K; now right]. }
  apply G; [cbn; auto|reflexivity|exact Hl].
Qed.

(** Such a depth always exists. *)
Theorem C17_depth_exists : forall S0 s, 0 < s -> exists n, S0 * (775 / 1000) ^ n < s.
Proof.
  intros S0 s Hs. destruct (Rle_dec S0 0) as [H|H]; [exists 0%nat; rewrite pow_O; lra|].
  destruct (pow_lt_1_zero (775 / 1000) ltac:(rewrite Rabs_right; lra) (s / S0)) as (N & HN).
  - apply Rmult_lt_0_compat; [exact Hs|apply Rinv_0_lt_compat; lra].
  - exists N. specialize (HN N (Nat.le_refl _)). rewrite Rabs_right in HN by (apply Rle_ge, pow_le; lra).
    apply (Rmult_lt_compat_l S0) in HN; [|lra]. replace (S0 * (s / S0)) with s in HN by (field; lra). exact HN.
Qed.

(** A leaf that is a single point of the root box is never placed: one of the
    halves always contains it, so the recursion has no end (the code raises
    RecursionError). *)
Theorem C17_point_leaf_refuted : forall x y (d : D) root, inside (x, y) root ->
  forall fuel, insert_item fuel (new_cell root) ({| xmin := x; xmax := x; ymin := y; ymax := y |}, d) = None.
Proof.
  intros x y d root H fuel. revert root H. induction fuel as [|fuel IH]; intros root H; [reflexivity|].
  cbn [insert_item new_cell fst]. destruct (QuadModel.split root) as [(r1, r2)|] eqn:Es; [|reflexivity].
  destruct (split_spec _ _ _ Es) as (_ & _ & _ & _ & _ & _ & _ & _ & Cv & _).
  assert (T : forall r, is_trivial_in r {| xmin := x; xmax := x; ymin := y; ymax := y |} = true <-> inside (x, y) r).
  { intros r. rewrite trivial_spec. unfold box_within, inside. cbn. lra. }
  destruct (is_trivial_in r1 _) eqn:E1.
  - apply T in E1. change (Cell r1 [] None) with (@new_cell D r1). rewrite (IH _ E1). reflexivity.
  - destruct (Cv _ H) as [K|K]; [apply T in K; congruence|].
    rewrite (proj2 (T r2) K). rewrite (IH _ K). reflexivity.
Qed.

End Data.
Print Assumptions C17_exact.
Print Assumptions C17_terminates.
Print Assumptions C17_depth_exists.
Print Assumptions C17_point_leaf_refuted.

(** Non-vacuity: two overlapping leaves in a 4 x 4 root. *)
Example C17_example : exists c : cell nat,
  insert 30 (new_cell {| xmin := 0; xmax := 4; ymin := 0; ymax := 4 |})
    [({| xmin := 0; xmax := 1; ymin := 0; ymax := 1 |}, 7%nat); ({| xmin := 0; xmax := 4; ymin := 0; ymax := 4 |}, 8%nat)] = Some c /\
  Permutation (search c (1, 1)) [7%nat; 8%nat] /\ Permutation (search c (2, 2)) [8%nat].
Proof.
  destruct (C17_terminates (D := nat) 29 {| xmin := 0; xmax := 4; ymin := 0; ymax := 4 |}
    [({| xmin := 0; xmax := 1; ymin := 0; ymax := 1 |}, 7%nat); ({| xmin := 0; xmax := 4; ymin := 0; ymax := 4 |}, 8%nat)]) as (c & Hc).
  - unfold width. cbn. lra.
  - unfold height. cbn. lra.
  - intros leaf [<- | [<- | []]]; unfold width, height; cbn [fst xmin xmax ymin ymax]; split; try lra.
  - exists c. split; [exact Hc|]. destruct (C17_exact _ _ _ _ Hc) as (_ & _ & S).
    split; [specialize (S (1, 1))|specialize (S (2, 2))]; unfold contains in S; cbn [filter fst snd xmin xmax ymin ymax] in S;
    revert S; rdecide; cbn [andb]; cbn [map snd]; auto.
Qed.
