(** Lemmas about [PeriodicModel]. *)
From Coq Require Import Reals Lra Lia List Arith ZArith Bool.
From Verif Require Import RealLib ListLib ArrayLib NeighbourModel NeighbourProofs NeighbourProps MeshFactoryModel MeshFactoryProofs PeriodicModel.
Import ListNotations.

(** ** Columns *)
Lemma col_seq n c k : flat_map (fun j => [eindex n c j; eindex n c j + 1]) (seq 0 k) = seq (2 * n * c) (2 * k).
Proof.
  induction k as [|k IH]; [reflexivity|]. rewrite seq_S, flat_map_app, IH. cbn [flat_map plus].
  replace (2 * S k) with (2 * k + 2) by lia. rewrite seq_app. unfold eindex. cbn [seq app]. f_equal. f_equal; [lia|]. f_equal. lia.
Qed.
Lemma pick_map {B} (f : nat -> nat -> list B) (c i : nat) (ns : list nat) :
  flat_map (fun ij : nat * nat => if Nat.eqb (fst ij) c then f (fst ij) (snd ij) else []) (map (fun y => (i, y)) ns) =
  if Nat.eqb i c then flat_map (f c) ns else [].
Proof.
  induction ns as [|j ns IH]; cbn; [now destruct (Nat.eqb i c)|]. rewrite IH. destruct (Nat.eqb_spec i c) as [-> | N]; reflexivity.
Qed.
Lemma pick_none {B} (f : nat -> nat -> list B) c ns : forall ms, ~ In c ms ->
  flat_map (fun ij : nat * nat => if Nat.eqb (fst ij) c then f (fst ij) (snd ij) else []) (list_prod ms ns) = [].
Proof.
  induction ms as [|i ms IH]; intros H; [reflexivity|]. cbn [list_prod]. rewrite flat_map_app, pick_map, IH by (intros K; apply H; now right).
  destruct (Nat.eqb_spec i c) as [-> | N]; [exfalso; apply H; now left | reflexivity].
Qed.
Lemma pick_column {B} (f : nat -> nat -> list B) m n c : c < m ->
  flat_map (fun ij : nat * nat => if Nat.eqb (fst ij) c then f (fst ij) (snd ij) else []) (loop2 m n) = flat_map (f c) (seq 0 n).
Proof.
  intros H. unfold loop2. replace m with (c + S (m - S c)) by lia. rewrite seq_app, list_prod_as_flat_map, flat_map_app, <- !list_prod_as_flat_map.
  rewrite flat_map_app, pick_none by (rewrite in_seq; lia). cbn [app plus seq list_prod]. rewrite flat_map_app, pick_map, Nat.eqb_refl.
  rewrite pick_none by (rewrite in_seq; lia). apply app_nil_r.
Qed.

(** ** The strip *)
Definition tri_at (n : nat) (p : nat * nat * nat) : tri := nth (snd p) (rect_tris n (fst p)) (0, 0, 0).
Definition strip_tags (m n : nat) (lft rgt : tag) (ij : nat * nat) : list ((nat * nat) * tag) :=
  let (i, j) := ij in let nt := eindex n i j in
  (if Nat.eqb i (m - 1) then [((nt, 2), rgt)] else []) ++
  (if Nat.eqb j 0 then [((nt, 1), Side bottom_)] else []) ++
  (if Nat.eqb i 0 then [((nt + 1, 2), lft)] else []) ++
  (if Nat.eqb j (n - 1) then [((nt + 1, 1), Side top_)] else []).
Definition col_ids (n c : nat) (xs : list (nat * nat)) : list nat :=
  flat_map (fun ij : nat * nat => if Nat.eqb (fst ij) c then [eindex n (fst ij) (snd ij); eindex n (fst ij) (snd ij) + 1] else []) xs.
Definition set_cell (n : nat) (l : list tri) (ij : nat * nat) : list tri :=
  set_nth (eindex n (fst ij) (snd ij) + 1) (tri_at n (ij, 1)) (set_nth (eindex n (fst ij) (snd ij)) (tri_at n (ij, 0)) l).

Lemma append_twice b l x y : append_if b (append_if b l x) y = l ++ (if b then [x; y] else []).
Proof. unfold append_if. destruct b; [now rewrite <- app_assoc | now rewrite app_nil_r]. Qed.

Lemma strip_fold m n lft rgt : forall xs s,
  fold_left (strip_cell m n lft rgt) xs s =
  Strip (fold_left (set_cell n) xs (st_elements s)) (st_boundary s ++ flat_map (strip_tags m n lft rgt) xs)
    (st_gl s ++ col_ids n 0 xs) (st_fl s ++ col_ids n 1 xs) (st_fr s ++ col_ids n (m - 2) xs) (st_gr s ++ col_ids n (m - 1) xs).
Proof.
  induction xs as [|[i j] xs IH]; intros s.
  - destruct s. cbn. now rewrite !app_nil_r.
  - cbn [fold_left]. rewrite IH. unfold strip_cell. cbn [st_elements st_boundary st_gl st_fl st_fr st_gr].
    rewrite !append_twice. unfold col_ids. cbn [flat_map fst snd]. rewrite !app_assoc. f_equal.
    + f_equal. unfold strip_tags. destruct (Nat.eqb i (m - 1)), (Nat.eqb j 0), (Nat.eqb i 0), (Nat.eqb j (n - 1)); rewrite <- ?app_assoc; cbn [app]; rewrite ?app_nil_r; reflexivity.
Qed.

Lemma set_cells n : forall xs l, fold_left (set_cell n) xs l =
  fold_left (fun l p => set_nth (eindex n (fst (fst p)) (snd (fst p)) + snd p) (tri_at n p) l) (flat_map (fun ij => [(ij, 0); (ij, 1)]) xs) l.
Proof.
  induction xs as [|[i j] xs IH]; intros l; [reflexivity|]. cbn [fold_left flat_map app]. rewrite IH. unfold set_cell. cbn [fst snd].
  now rewrite Nat.add_0_r.
Qed.
Lemma in_kinds {B} (xs : list B) x r : In (x, r) (flat_map (fun ij => [(ij, 0); (ij, 1)]) xs) <-> In x xs /\ r < 2.
Proof.
  rewrite in_flat_map. split.
  - intros (y & H & [E|[E|[]]]); injection E as <- <-; split; auto.
  - intros (H & L). exists x. split; [assumption|]. destruct r as [|[|r]]; cbn; auto. lia.
Qed.
Lemma NoDup_kinds {B} (xs : list B) : NoDup xs -> NoDup (flat_map (fun ij => [(ij, 0); (ij, 1)]) xs).
Proof.
  induction 1 as [|x xs N ND IH]; [constructor|]. cbn [flat_map app]. constructor; [|constructor; [|assumption]].
  - intros [E|H]; [discriminate|]. apply in_kinds in H. tauto.
  - intros H. apply in_kinds in H. tauto.
Qed.
Lemma eindex_inj n i j r i' j' r' : j < n -> j' < n -> r < 2 -> r' < 2 -> eindex n i j + r = eindex n i' j' + r' -> i = i' /\ j = j' /\ r = r'.
Proof.
  unfold eindex. intros. assert (r = r' /\ j + i * n = j' + i' * n) as (-> & E) by lia.
  destruct (cell_number_inj n i j i' j'); try lia. 
Qed.
Lemma eindex_lt m n i j r : i < m -> j < n -> r < 2 -> eindex n i j + r < 2 * m * n.
Proof. unfold eindex. intros. assert ((i + 1) * n <= m * n) by (apply Nat.mul_le_mono_r; lia). lia. Qed.
Lemma eindex_split m n T : T < 2 * m * n -> exists i j r, i < m /\ j < n /\ r < 2 /\ T = eindex n i j + r.
Proof.
  intros H. destruct (Nat.eq_dec n 0) as [-> | N]; [lia|]. exists (T / 2 / n), ((T / 2) mod n), (T mod 2).
  pose proof (Nat.div_mod T 2 ltac:(lia)). pose proof (Nat.div_mod (T / 2) n N). pose proof (Nat.mod_upper_bound T 2 ltac:(lia)).
  pose proof (Nat.mod_upper_bound (T / 2) n N). repeat split; auto.
  - apply Nat.div_lt_upper_bound; [assumption|]. apply Nat.div_lt_upper_bound; lia.
  - unfold eindex. lia.
Qed.

Lemma list_ext {B} (l l' : list B) : length l = length l' -> (forall k, k < length l -> nth_error l k = nth_error l' k) -> l = l'.
Proof.
  revert l'. induction l as [|x l IH]; destruct l' as [|y l']; cbn; intros L H; try lia; [reflexivity|]. f_equal.
  - specialize (H 0 ltac:(lia)). cbn in H. congruence.
  - apply IH; [lia|]. intros k Hk. apply (H (S k)). lia.
Qed.

Lemma strip_elements m n lft rgt : st_elements (strip_mesh m n lft rgt) = fst (rectangular_mesh m n).
Proof.
  unfold strip_mesh. rewrite strip_fold. cbn [st_elements]. rewrite set_cells.
  match goal with |- fold_left ?f ?xs ?l = _ =>
    destruct (fold_set_nth (fun p : nat * nat * nat => eindex n (fst (fst p)) (snd (fst p)) + snd p) (tri_at n) xs l) as (A & B & _) end.
  { apply NoDup_map_inj; [apply NoDup_kinds, loop2_NoDup|]. intros [[i j] r] [[i' j'] r'] H H' E. cbn [fst snd] in E.
    apply in_kinds in H, H'. destruct H as (H & L), H' as (H' & L'). apply loop2_In in H, H'.
    destruct (eindex_inj n i j r i' j' r') as (-> & -> & ->); lia || reflexivity. }
  rewrite repeat_length in A, B.
  assert (LE : length (fst (rectangular_mesh m n)) = 2 * m * n).
  { rewrite rectangular_mesh_eq. cbn [fst]. rewrite (flat_map_length_const _ 2) by (intros [i j] _; reflexivity). rewrite loop2_length. lia. }
  apply list_ext; [congruence|]. intros k Hk. rewrite A in Hk. destruct (eindex_split m n k Hk) as (i & j & r & Hi & Hj & Hr & ->).
  pose proof (B (i, j, r)) as Q. cbn [fst snd] in Q.
  rewrite Q; [| apply in_kinds; split; [apply loop2_In; lia | assumption] | apply eindex_lt; assumption].
  symmetry. apply rect_element. exists i, j, r. repeat split; auto; [unfold eindex; lia|]. unfold tri_at. cbn [fst snd].
  destruct r as [|[|r]]; [reflexivity|reflexivity|lia].
Qed.

Lemma strip_boundary m n :
  st_boundary (strip_mesh m n (Side left_) (Side right_)) = map (fun b => (fst b, Side (snd b))) (snd (rectangular_mesh m n)).
Proof.
  unfold strip_mesh. rewrite strip_fold. cbn [st_boundary app]. rewrite rectangular_mesh_eq. cbn [snd].
  assert (G : forall xs s, (forall p i j, nth_error xs p = Some (i, j) -> s + p = i * n + j) ->
    flat_map (strip_tags m n (Side left_) (Side right_)) xs =
    map (fun b : nat * nat * side => (fst b, Side (snd b))) (flat_map (fun px => rect_tags m n (fst px * 2) (snd px)) (combine (seq s (length xs)) xs))).
  { induction xs as [|[i j] xs IH]; intros s H; [reflexivity|]. cbn [length seq combine flat_map]. rewrite map_app. f_equal.
    - pose proof (H 0 i j eq_refl) as E. cbn [fst snd]. unfold strip_tags, rect_tags. replace (eindex n i j) with (s * 2) by (unfold eindex; lia).
      destruct (Nat.eqb i (m - 1)), (Nat.eqb j 0), (Nat.eqb i 0), (Nat.eqb j (n - 1)); reflexivity.
    - apply IH. intros p i' j' E. specialize (H (S p) i' j' E). lia. }
  rewrite (G (loop2 m n) 0), loop2_length; [reflexivity|]. intros p i j E. apply nth_error_loop in E. lia.
Qed.

Lemma strip_lists m n lft rgt : 2 <= m ->
  st_gl (strip_mesh m n lft rgt) = seq 0 (2 * n) /\
  st_fl (strip_mesh m n lft rgt) = seq (2 * n) (2 * n) /\
  st_fr (strip_mesh m n lft rgt) = seq (2 * n * (m - 2)) (2 * n) /\
  st_gr (strip_mesh m n lft rgt) = seq (2 * n * (m - 1)) (2 * n).
Proof.
  intros H. unfold strip_mesh. rewrite strip_fold. cbn [st_gl st_fl st_fr st_gr app]. unfold col_ids.
  rewrite !(pick_column (fun i j => [eindex n i j; eindex n i j + 1]) m n) by lia. rewrite !col_seq.
  rewrite Nat.mul_0_r, Nat.mul_1_r. auto.
Qed.

(** ** Writing ranges *)
Lemma put_app {V} (c : nat -> V) l1 l2 x1 x2 : length l1 = length x1 -> put c (l1 ++ l2) (x1 ++ x2) = put (put c l1 x1) l2 x2.
Proof.
  unfold put. revert c x1. induction l1 as [|a l1 IH]; destruct x1 as [|x x1]; cbn; intros L; try discriminate; [reflexivity|].
  apply IH. lia.
Qed.
Lemma put_seq {V} (f : nat -> V) : forall k (c : nat -> V) a b T,
  put c (seq a k) (map f (seq b k)) T = if (a <=? T) && (T <? a + k) then f (b + (T - a)) else c T.
Proof.
  induction k as [|k IH]; intros c a b T.
  - unfold put. cbn [seq map combine fold_left]. destruct (Nat.leb_spec a T), (Nat.ltb_spec T (a + 0)); cbn [andb]; try reflexivity; lia.
  - unfold put in *. cbn [seq map combine fold_left fst snd]. rewrite IH.
    destruct (Nat.leb_spec (S a) T), (Nat.ltb_spec T (S a + k)), (Nat.leb_spec a T), (Nat.ltb_spec T (a + S k)); cbn [andb]; try lia.
    all: first [rewrite upd_other by lia; reflexivity | (assert (T = a) by lia; subst T; rewrite upd_same; f_equal; lia) | f_equal; lia].
Qed.
Lemma flag_fold : forall l (f : nat -> nat) T, fold_left (fun f i => upd f i 0) l f T = if existsb (Nat.eqb T) l then 0 else f T.
Proof.
  induction l as [|i l IH]; intros f T; [reflexivity|]. cbn [fold_left existsb]. rewrite IH. unfold upd.
  destruct (Nat.eqb T i), (existsb (Nat.eqb T) l); reflexivity.
Qed.

Section Sizes.
Variables m n : nat.
Hypothesis Hm : 1 <= m.

Lemma ghosts_updated {V} (c : nat -> V) T :
  update_ghosts (periodic_sends m n) (periodic_recvs m n) c T =
  if T <? 2 * n then c (T + 2 * n * m)
  else if (2 * n * (m + 1) <=? T) && (T <? 2 * n * (m + 2)) then c (T - 2 * n * m) else c T.
Proof using Hm.
  unfold update_ghosts, periodic_sends, periodic_recvs, periodic_mesh. destruct (strip_lists (m + 2) n (Side left_) (Side right_)) as (-> & -> & -> & ->); [lia|].
  rewrite map_app, put_app by (now rewrite map_length, !seq_length). rewrite !put_seq. replace (m + 2 - 2) with m by lia. replace (m + 2 - 1) with (m + 1) by lia.
  replace (2 * n * (m + 1) + 2 * n) with (2 * n * (m + 2)) by lia. cbn [Nat.leb andb plus]. rewrite Nat.sub_0_r.
  destruct (Nat.ltb_spec T (2 * n)).
  - f_equal. lia.
  - destruct (Nat.leb_spec (2 * n * (m + 1)) T), (Nat.ltb_spec T (2 * n * (m + 2))); cbn [andb]; try reflexivity. f_equal. lia.
Qed.
Lemma flag_value T : T < 2 * (m + 2) * n ->
  tri_full_flag (periodic_recvs m n) T = if (2 * n <=? T) && (T <? 2 * n * (m + 1)) then 1 else 0.
Proof using Hm.
  intros H. unfold tri_full_flag. rewrite flag_fold. unfold periodic_recvs, periodic_mesh.
  destruct (strip_lists (m + 2) n (Side left_) (Side right_)) as (-> & _ & _ & ->); [lia|]. replace (m + 2 - 1) with (m + 1) by lia.
  destruct (existsb (Nat.eqb T) (seq (2 * n * (m + 1)) (2 * n) ++ seq 0 (2 * n))) eqn:E.
  - apply existsb_exists in E. destruct E as (x & I & E). apply Nat.eqb_eq in E. subst x. apply in_app_iff in I. rewrite !in_seq in I.
    destruct (Nat.leb_spec (2 * n) T), (Nat.ltb_spec T (2 * n * (m + 1))); cbn; try reflexivity; lia.
  - assert (N : ~ In T (seq (2 * n * (m + 1)) (2 * n) ++ seq 0 (2 * n))).
    { intros I. assert (K : existsb (Nat.eqb T) (seq (2 * n * (m + 1)) (2 * n) ++ seq 0 (2 * n)) = true)
        by (apply existsb_exists; exists T; split; [assumption | apply Nat.eqb_refl]). congruence. }
    rewrite in_app_iff, !in_seq in N.
    destruct (Nat.leb_spec (2 * n) T), (Nat.ltb_spec T (2 * n * (m + 1))); cbn; try reflexivity; lia.
Qed.
End Sizes.

(** ** Neighbours *)
Lemma nb_some ts rows k e a b l j : build_neighbour_structure ts = Some rows -> has_edge ts k e a b -> has_edge ts l j b a ->
  neighbour_at rows k e = Some l.
Proof.
  intros B H H'. apply (C06_neighbour_is_opposite_edge ts rows k e a b B H) in H'. destruct H' as (E & _). unfold neighbour_at. rewrite E.
  destruct (Z.ltb_spec (Z.of_nat l) 0); [lia|]. now rewrite Nat2Z.id.
Qed.
Lemma nb_none ts rows k e a b : build_neighbour_structure ts = Some rows -> has_edge ts k e a b -> (forall l j, ~ has_edge ts l j b a) ->
  neighbour_at rows k e = None.
Proof.
  intros B H N. apply (C06_boundary_iff_no_opposite_edge ts rows k e a b B H) in N. unfold neighbour_at.
  destruct (Z.ltb_spec (nb rows k e) 0); [reflexivity | lia].
Qed.

Section Neighbours.
Variables M n : nat.
Variable rows : list row.
Hypothesis HB : build_neighbour_structure (fst (rectangular_mesh M n)) = Some rows.

Lemma strip_edge i j T e a b : i < M -> j < n -> rect_edge_at n i j T e a b -> has_edge (fst (rectangular_mesh M n)) T e a b.
Proof. intros. apply has_edge_key, rect_edge_iff. eauto. Qed.
Lemma strip_tagged i j T e a b s : i < M -> j < n -> rect_edge_at n i j T e a b -> rect_tag_at M n i j T e s ->
  neighbour_at rows T e = None.
Proof using HB.
  intros Hi Hj H Ht. apply (nb_none _ rows T e a b HB); [now apply (strip_edge i j)|]. intros l k K.
  apply has_edge_key, rect_edge_iff in K. destruct K as (i' & j' & Hi' & Hj' & K). revert K.
  exact (rect_tagged_no_partner M n i j T e s a b i' j' l k Hi Hj Hi' Hj' Ht H).
Qed.
Ltac at_edge k := unfold rect_edge_at, eindex; repeat (first [left; solve [repeat split; lia || reflexivity || (f_equal; lia)] | right]); repeat split; lia || reflexivity || (f_equal; lia).

Lemma lower_0 i j : i < M -> j < n -> neighbour_at rows (eindex n i j) 0 = Some (eindex n i j + 1).
Proof using HB.
  intros Hi Hj. apply (nb_some _ rows _ _ (index n (i + 1) (j + 1)) (index n i j) _ 0 HB); apply (strip_edge i j); auto; at_edge 0.
Qed.
Lemma lower_1 i j : i < M -> j < n -> neighbour_at rows (eindex n i j) 1 = if j =? 0 then None else Some (eindex n i (j - 1) + 1).
Proof using HB.
  intros Hi Hj. destruct (Nat.eqb_spec j 0) as [-> | N].
  - apply (strip_tagged i 0 _ 1 (index n i 0) (index n (i + 1) 0) bottom_); auto; [at_edge 1|]. unfold rect_tag_at, eindex. right; left. repeat split; lia.
  - apply (nb_some _ rows _ _ (index n i j) (index n (i + 1) j) _ 1 HB); [apply (strip_edge i j) | apply (strip_edge i (j - 1))]; try lia; at_edge 1.
Qed.
Lemma lower_2 i j : i < M -> j < n -> neighbour_at rows (eindex n i j) 2 = if i =? M - 1 then None else Some (eindex n (i + 1) j + 1).
Proof using HB.
  intros Hi Hj. destruct (Nat.eqb_spec i (M - 1)) as [E | N].
  - apply (strip_tagged i j _ 2 (index n (i + 1) j) (index n (i + 1) (j + 1)) right_); auto; [at_edge 1|]. unfold rect_tag_at, eindex. left. repeat split; lia.
  - apply (nb_some _ rows _ _ (index n (i + 1) j) (index n (i + 1) (j + 1)) _ 2 HB); [apply (strip_edge i j) | apply (strip_edge (i + 1) j)]; try lia; at_edge 1.
Qed.
Lemma upper_0 i j : i < M -> j < n -> neighbour_at rows (eindex n i j + 1) 0 = Some (eindex n i j).
Proof using HB.
  intros Hi Hj. apply (nb_some _ rows _ _ (index n i j) (index n (i + 1) (j + 1)) _ 0 HB); apply (strip_edge i j); auto; at_edge 0.
Qed.
Lemma upper_1 i j : i < M -> j < n -> neighbour_at rows (eindex n i j + 1) 1 = if j =? n - 1 then None else Some (eindex n i (j + 1)).
Proof using HB.
  intros Hi Hj. destruct (Nat.eqb_spec j (n - 1)) as [E | N].
  - apply (strip_tagged i j _ 1 (index n (i + 1) (j + 1)) (index n i (j + 1)) top_); auto; [at_edge 1|]. unfold rect_tag_at, eindex. do 3 right. repeat split; lia.
  - apply (nb_some _ rows _ _ (index n (i + 1) (j + 1)) (index n i (j + 1)) _ 1 HB); [apply (strip_edge i j) | apply (strip_edge i (j + 1))]; try lia; at_edge 1.
Qed.
Lemma upper_2 i j : i < M -> j < n -> neighbour_at rows (eindex n i j + 1) 2 = if i =? 0 then None else Some (eindex n (i - 1) j).
Proof using HB.
  intros Hi Hj. destruct (Nat.eqb_spec i 0) as [-> | N].
  - apply (strip_tagged 0 j _ 2 (index n 0 (j + 1)) (index n 0 j) left_); auto; [at_edge 1|]. unfold rect_tag_at, eindex. do 2 right; left. repeat split; lia.
  - apply (nb_some _ rows _ _ (index n i (j + 1)) (index n i j) _ 2 HB); [apply (strip_edge i j) | apply (strip_edge (i - 1) j)]; try lia; at_edge 1.
Qed.
End Neighbours.

(** ** The full triangles in order *)
Definition cells (m n : nat) : list (nat * nat * nat) := flat_map (fun ij => [(ij, 0); (ij, 1)]) (loop2 m n).
Definition number (n : nat) (p : nat * nat * nat) : nat := eindex n (fst (fst p)) (snd (fst p)) + snd p.

Lemma cells_S m n : cells (S m) n = cells m n ++ flat_map (fun j => [(m, j, 0); (m, j, 1)]) (seq 0 n).
Proof.
  unfold cells, loop2. rewrite seq_S, list_prod_as_flat_map, flat_map_app, <- list_prod_as_flat_map, flat_map_app. f_equal.
  cbn [flat_map plus]. rewrite app_nil_r. induction (seq 0 n) as [|j l IH]; [reflexivity|]. cbn [map flat_map app]. now rewrite IH.
Qed.
Lemma column_numbers n i : map (number n) (flat_map (fun j => [(i, j, 0); (i, j, 1)]) (seq 0 n)) = seq (2 * n * i) (2 * n).
Proof.
  rewrite <- col_seq. generalize (seq 0 n). induction l as [|j l IH]; [reflexivity|]. cbn [map flat_map app]. rewrite IH. unfold number. cbn [fst snd].
  now rewrite Nat.add_0_r.
Qed.
Lemma cells_numbers m n : map (number n) (cells m n) = seq 0 (2 * n * m).
Proof.
  induction m as [|m IH]; [now rewrite Nat.mul_0_r|]. rewrite cells_S, map_app, IH, column_numbers.
  replace (2 * n * S m) with (2 * n * m + 2 * n) by lia. now rewrite seq_app.
Qed.
Lemma in_cells m n i j r : In (i, j, r) (cells m n) <-> i < m /\ j < n /\ r < 2.
Proof. unfold cells. rewrite in_kinds, loop2_In. tauto. Qed.
Lemma filter_all {B} (f : B -> bool) l : (forall x, In x l -> f x = true) -> filter f l = l.
Proof.
  induction l as [|x l IH]; intros H; [reflexivity|]. cbn. rewrite (H x) by now left. f_equal. apply IH. intros. apply H. now right.
Qed.
Lemma filter_none {B} (f : B -> bool) l : (forall x, In x l -> f x = false) -> filter f l = [].
Proof.
  induction l as [|x l IH]; intros H; [reflexivity|]. cbn. rewrite (H x) by now left. apply IH. intros. apply H. now right.
Qed.
Lemma full_list m n : 1 <= m -> full_triangles (2 * (m + 2) * n) (periodic_recvs m n) = seq (2 * n) (2 * n * m).
Proof.
  intros Hm. unfold full_triangles. replace (2 * (m + 2) * n) with (2 * n + (2 * n * m + 2 * n)) at 1 by lia.
  rewrite !seq_app, !filter_app. cbn [plus]. rewrite filter_none, filter_all, filter_none; [now rewrite app_nil_r | | |];
    intros T HT; apply in_seq in HT; rewrite flag_value by lia;
    destruct (Nat.leb_spec (2 * n) T), (Nat.ltb_spec T (2 * n * (m + 1))); cbn; try reflexivity; lia.
Qed.
Lemma seq_moved d k : seq d k = map (fun T => T + d) (seq 0 k).
Proof.
  replace d with (0 + d) at 1 by lia. generalize 0. induction k as [|k IH]; intros a; [reflexivity|]. cbn [seq map]. f_equal. apply (IH (S a)).
Qed.
Lemma full_cells m n : 1 <= m ->
  full_triangles (2 * (m + 2) * n) (periodic_recvs m n) = map (fun p => number n p + 2 * n) (cells m n).
Proof.
  intros Hm. rewrite full_list by assumption. rewrite <- (map_map (number n) (fun T => T + 2 * n)), cells_numbers.
  apply seq_moved.
Qed.

(** ** The dictionaries of parallel_meshes.py *)
Section Wrap.
Local Open Scope Z_scope.
Variables (both : bool) (m n : nat).
Let M := Z.of_nat m.
Let N := Z.of_nat n.

(** What is written for a triangle, the last write. *)
Definition wrapped (i j : Z) : option (Z * Z) :=
  if both && (j =? 0) then Some (i, N - 2)
  else if both && (j =? N - 1) then Some (i, 1)
  else if i =? 0 then Some (M - 2, j)
  else if i =? M - 1 then Some (1, j) else None.

Lemma keyZ_inj i j d i' j' d' : 0 <= j < N -> 0 <= j' < N -> 0 <= d < 2 -> 0 <= d' < 2 ->
  eindexZ N i j + d = eindexZ N i' j' + d' -> i = i' /\ j = j' /\ d = d'.
Proof.
  unfold eindexZ. intros. assert (d = d' /\ j + i * N = j' + i' * N) as (-> & E) by lia. assert (i = i') by nia. subst. repeat split; lia.
Qed.

Lemma wrap_cell_at i j d g i' j' d' : 0 <= j < N -> 0 <= j' < N -> 0 <= d < 2 -> 0 <= d' < 2 ->
  wrap_cell both M N i j d g (eindexZ N i' j' + d') =
  if (i' =? i) && (j' =? j) && (d' =? d) then
    match wrapped i j with Some (a, b) => Some (eindexZ N a b + d) | None => g (eindexZ N i' j' + d') end
  else g (eindexZ N i' j' + d').
Proof.
  intros Hj Hj' Hd Hd'. unfold wrap_cell, wrapped, set_if, set_ghost. cbv zeta.
  destruct (Z.eqb_spec (eindexZ N i' j' + d') (eindexZ N i j + d)) as [E | E].
  - apply keyZ_inj in E; [|assumption..]. destruct E as (-> & -> & ->). rewrite !Z.eqb_refl. cbn [andb].
    destruct both; cbn [andb]; destruct (j =? 0), (j =? N - 1), (i =? 0), (i =? M - 1); rewrite ?Z.eqb_refl; reflexivity.
  - assert (F : (i' =? i) && (j' =? j) && (d' =? d) = false).
    { destruct (Z.eqb_spec i' i), (Z.eqb_spec j' j), (Z.eqb_spec d' d); try reflexivity. subst. contradiction. }
    rewrite F. apply Z.eqb_neq in E.
    destruct both; cbn [andb]; destruct (j =? 0), (j =? N - 1), (i =? 0), (i =? M - 1); rewrite ?E; reflexivity.
Qed.
Lemma wrap_fold i j d : 0 <= j < N -> 0 <= d < 2 -> forall xs g, (forall a b, In (a, b) xs -> Z.of_nat b < N) ->
  fold_left (fun g ij => let (i, j) := (Z.of_nat (fst ij), Z.of_nat (snd ij)) in wrap_cell both M N i j 1 (wrap_cell both M N i j 0 g)) xs g (eindexZ N i j + d) =
  if existsb (fun ij : nat * nat => (i =? Z.of_nat (fst ij)) && (j =? Z.of_nat (snd ij))) xs
  then match wrapped i j with Some (a, b) => Some (eindexZ N a b + d) | None => g (eindexZ N i j + d) end
  else g (eindexZ N i j + d).
Proof.
  intros Hj Hd. induction xs as [|[a b] xs IH]; intros g L; [reflexivity|]. cbn [fold_left fst snd existsb].
  pose proof (L a b ltac:(now left)) as Lb. rewrite IH by (intros; eapply L; right; eassumption).
  rewrite !wrap_cell_at by lia.
  destruct (Z.eqb_spec i (Z.of_nat a)) as [-> | E1]; cbn [andb orb]; [|reflexivity].
  destruct (Z.eqb_spec j (Z.of_nat b)) as [-> | E2]; cbn [andb orb]; [|reflexivity].
  assert (D : d = 0 \/ d = 1) by lia.
  destruct D as [-> | ->]; cbn [Z.eqb andb Pos.eqb]; destruct (wrapped (Z.of_nat a) (Z.of_nat b)) as [[p q]|];
    destruct (existsb _ xs); reflexivity.
Qed.
Lemma wrap_cells_at i j d : 0 <= i < M -> 0 <= j < N -> 0 <= d < 2 ->
  wrap_cells both m n (eindexZ N i j + d) = match wrapped i j with Some (a, b) => Some (eindexZ N a b + d) | None => None end.
Proof.
  intros Hi Hj Hd. unfold wrap_cells. fold M N. rewrite wrap_fold; auto.
  - replace (existsb _ (loop2 m n)) with true; [reflexivity|]. symmetry. apply existsb_exists. exists (Z.to_nat i, Z.to_nat j). split.
    + apply loop2_In. lia.
    + cbn [fst snd]. rewrite !Z2Nat.id by lia. now rewrite !Z.eqb_refl.
  - intros a b I. apply loop2_In in I. lia.
Qed.
End Wrap.

Lemma wrap_corner_at (n : nat) i j d i0 j0 nf g : (let N := Z.of_nat n in 0 <= j < N -> 0 <= j0 < N -> 0 <= d < 2 ->
  wrap_corner (eindexZ N i0 j0) nf g (eindexZ N i j + d) =
  if (i =? i0) && (j =? j0) then Some (nf + d) else g (eindexZ N i j + d))%Z.
Proof.
  cbv zeta. intros Hj Hj0 Hd. unfold wrap_corner, set_ghost.
  destruct (Z.eqb_spec i i0) as [-> | E1], (Z.eqb_spec j j0) as [-> | E2]; cbn [andb].
  - assert (D : (d = 0 \/ d = 1)%Z) by lia. destruct D as [-> | ->].
    + rewrite Z.add_0_r, Z.add_0_r. destruct (Z.eqb_spec (eindexZ (Z.of_nat n) i0 j0) (eindexZ (Z.of_nat n) i0 j0 + 1)); [lia|]. now rewrite Z.eqb_refl.
    + now rewrite Z.eqb_refl.
  - destruct (Z.eqb_spec (eindexZ (Z.of_nat n) i0 j + d) (eindexZ (Z.of_nat n) i0 j0 + 1)) as [E | _].
    + apply (keyZ_inj n) in E; lia.
    + destruct (Z.eqb_spec (eindexZ (Z.of_nat n) i0 j + d) (eindexZ (Z.of_nat n) i0 j0)) as [E | _]; [|reflexivity].
      rewrite <- (Z.add_0_r (eindexZ (Z.of_nat n) i0 j0)) in E. apply (keyZ_inj n) in E; lia.
  - destruct (Z.eqb_spec (eindexZ (Z.of_nat n) i j0 + d) (eindexZ (Z.of_nat n) i0 j0 + 1)) as [E | _].
    + apply (keyZ_inj n) in E; lia.
    + destruct (Z.eqb_spec (eindexZ (Z.of_nat n) i j0 + d) (eindexZ (Z.of_nat n) i0 j0)) as [E | _]; [|reflexivity].
      rewrite <- (Z.add_0_r (eindexZ (Z.of_nat n) i0 j0)) in E. apply (keyZ_inj n) in E; lia.
  - destruct (Z.eqb_spec (eindexZ (Z.of_nat n) i j + d) (eindexZ (Z.of_nat n) i0 j0 + 1)) as [E | _].
    + apply (keyZ_inj n) in E; lia.
    + destruct (Z.eqb_spec (eindexZ (Z.of_nat n) i j + d) (eindexZ (Z.of_nat n) i0 j0)) as [E | _]; [|reflexivity].
      rewrite <- (Z.add_0_r (eindexZ (Z.of_nat n) i0 j0)) in E. apply (keyZ_inj n) in E; lia.
Qed.
