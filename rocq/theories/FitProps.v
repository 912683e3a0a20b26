(** C55, C56: assembly of the least squares system of fit.py. *)
From Coq Require Import Reals List Arith Bool Lia Lra Permutation.
From Verif Require Import RealLib ListLib ArrayLib SparseModel SparseProofs SparseProps PolygonModel PolygonProofs QuadTreeModel QuadTreeProps FitModel.
Import ListNotations.
Local Open Scope R_scope.

Lemma wf_make_dok : wf_dok make_dok.
Proof. split; [constructor|split; [reflexivity|intros k []]]. Qed.

(** ** Sequences of additions *)

(** What becomes of one entry: values of size at most 1e-10 are dropped. *)
Definition squash (e v : R) : R := if Rle_dec (Rabs (e + v)) (/ 10 ^ 10) then 0 else e + v.
Definition mine (k : key) (items : list (key * R)) : list R := map snd (filter (fun it : key * R => key_eqb (fst it) k) items).

Lemma add_entries_wf items : forall h, wf_dok h -> wf_dok (add_entries h items).
Proof.
  induction items as [|it items IH]; intros h W; [exact W|]. apply IH. exact (proj1 (C50_add_entry h (fst it) (snd it) W)).
Qed.

Lemma add_entries_entry items k : forall h, wf_dok h -> entry (add_entries h items) k = fold_left squash (mine k items) (entry h k).
Proof.
  induction items as [|it items IH]; intros h W; [reflexivity|]. destruct (C50_add_entry h (fst it) (snd it) W) as (W' & O & E). cbv zeta in *.
  change (add_entries h (it :: items)) with (add_entries (add_dok_entry h (fst it) (snd it)) items). rewrite IH by exact W'.
  unfold mine. cbn [filter]. destruct (key_eqb_spec (fst it) k) as [<-|Hne]; [|rewrite O by congruence; reflexivity].
  cbn [map fold_left]. f_equal. unfold squash. destruct (Rle_dec _ _), E as [(E1 & E2)|(E1 & E2)]; auto; lra.
Qed.

Lemma add_entries_app a b h : add_entries h (a ++ b) = add_entries (add_entries h a) b.
Proof. apply fold_left_app. Qed.

Lemma add_entries_error items k h : wf_dok h ->
  Rabs (entry (add_entries h items) k - (entry h k + Rsum (mine k items))) <= INR (length (mine k items)) * / 10 ^ 10.
Proof.
  intros W. destruct (C50_accumulate items h k W) as (_ & E). cbv zeta in E. unfold mine. rewrite map_length. exact E.
Qed.

Lemma mine_app k a b : mine k (a ++ b) = mine k a ++ mine k b.
Proof. unfold mine. rewrite filter_app, map_app. reflexivity. Qed.
Lemma mine_cons i j a b v l : mine (i, j) (((a, b), v) :: l) = (if (a =? i)%nat && (b =? j)%nat then [v] else []) ++ mine (i, j) l.
Proof. unfold mine. cbn [filter fst snd]. unfold key_eqb. cbn [fst snd]. destruct ((a =? i)%nat && (b =? j)%nat); reflexivity. Qed.
Lemma mine_nil k : mine k [] = [].
Proof. reflexivity. Qed.
Lemma mine_flat {A} k (f : A -> list (key * R)) l : mine k (flat_map f l) = flat_map (fun x => mine k (f x)) l.
Proof. induction l as [|x l IH]; [reflexivity|]. cbn [flat_map]. rewrite mine_app, IH. reflexivity. Qed.

Lemma Rsum_flat {A} (f : A -> list R) l : Rsum (flat_map f l) = Rsum (map (fun x => Rsum (f x)) l).
Proof. induction l as [|x l IH]; [reflexivity|]. cbn [flat_map map Rsum]. rewrite Rsum_app, IH. reflexivity. Qed.

Definition distinct (t : nat * nat * nat) : Prop := let '(a, b, c) := t in a <> b /\ b <> c /\ c <> a.

(** ** The interpolation matrix *)

Definition ind (b : bool) : R := if b then 1 else 0.

(** Row [p] of the interpolation matrix A: the weight of node [i]. *)
Definition weight (t : tree) (triangles : nat -> nat * nat * nat) (p : point) (i : nat) : R :=
  match search t p with
  | None => 0
  | Some T => let '(j0, j1, j2) := triangles (index T) in let '(s0, s1, s2) := calculate_sigma T (px p) (py p) in
      (if (j0 =? i)%nat then s0 else 0) + (if (j1 =? i)%nat then s1 else 0) + (if (j2 =? i)%nat then s2 else 0)
  end.

Definition point_items (t : tree) (triangles : nat -> nat * nat * nat) (d : datum) : list (key * R) :=
  match search t (fst d) with
  | None => []
  | Some T => let js := triangles (index T) in let s := calculate_sigma T (px (fst d)) (py (fst d)) in
      flat_map (fun i => map (fun w => ((pick js i, pick js w), pick s i * pick s w)) (seq 0 3)) (seq 0 3)
  end.

Lemma upd_rows (f : nat -> (nat -> R) -> nat -> R) : forall n s (A : rhs) w i,
  fold_left (fun A w => upd A w (f w (A w))) (seq s n) A w i = if ((s <=? w) && (w <? s + n))%nat then f w (A w) i else A w i.
Proof.
  induction n as [|n IH]; intros s A w i; cbn [seq fold_left].
  - destruct (Nat.leb_spec s w), (Nat.ltb_spec w (s + 0)); cbn [andb]; auto; lia.
  - rewrite IH. unfold upd. destruct (Nat.eqb_spec w s) as [->|Hne].
    + destruct (Nat.leb_spec (S s) s), (Nat.leb_spec s s), (Nat.ltb_spec s (s + S n)); try lia. cbn [andb]. reflexivity.
    + destruct (Nat.leb_spec (S s) w), (Nat.leb_spec s w), (Nat.ltb_spec w (S s + n)), (Nat.ltb_spec w (s + S n)); cbn [andb]; auto; lia.
Qed.

Lemma critical_spec js s zdims values AtA Atz :
  critical js s zdims values (AtA, Atz) =
  (add_entries AtA (flat_map (fun i => map (fun w => ((pick js i, pick js w), pick s i * pick s w)) (seq 0 3)) (seq 0 3)),
   snd (critical js s zdims values (AtA, Atz))) /\
  forall w i, (w < zdims)%nat -> snd (critical js s zdims values (AtA, Atz)) w i =
    Atz w i + ((if (pick js 0 =? i)%nat then pick s 0 else 0) + (if (pick js 1 =? i)%nat then pick s 1 else 0) + (if (pick js 2 =? i)%nat then pick s 2 else 0)) * values w.
Proof.
  split; [unfold critical, add_entries; cbn [seq fold_left flat_map map app fst snd]; reflexivity|].
  intros w i Hw. unfold critical. cbn [seq fold_left snd].
  pose proof (upd_rows (fun w row => upd row (pick js 0) (row (pick js 0) + pick s 0 * values w)) zdims 0) as U0.
  pose proof (upd_rows (fun w row => upd row (pick js 1) (row (pick js 1) + pick s 1 * values w)) zdims 0) as U1.
  pose proof (upd_rows (fun w row => upd row (pick js 2) (row (pick js 2) + pick s 2 * values w)) zdims 0) as U2.
  cbv beta in U0, U1, U2.
  assert (E : ((0 <=? w) && (w <? 0 + zdims) = true)%nat) by (apply andb_true_iff; split; [apply Nat.leb_le|apply Nat.ltb_lt]; lia).
  assert (UA : forall (f : nat -> R) a v b, upd f a v b = if (b =? a)%nat then v else f b) by reflexivity.
  rewrite U2, E, UA. rewrite !U1, E, !UA. rewrite !U0, E, !UA. clear UA.
  generalize (pick js 0) (pick js 1) (pick js 2) (pick s 0) (pick s 1) (pick s 2). intros a0 a1 a2 b0 b1 b2. clear.
  destruct (Nat.eqb_spec i a0), (Nat.eqb_spec i a1), (Nat.eqb_spec i a2); subst; rewrite ?Nat.eqb_refl;
    repeat match goal with |- context [(?a =? ?b)%nat] => destruct (Nat.eqb_spec a b); try congruence end; subst; try congruence; try ring.
Qed.

Lemma one_point_spec t triangles zdims AtA Atz d : exists z,
  one_point t triangles zdims (AtA, Atz) d = (add_entries AtA (point_items t triangles d), z) /\
  forall w i, (w < zdims)%nat -> z w i = Atz w i + weight t triangles (fst d) i * snd d w.
Proof.
  destruct d as (p, v). unfold one_point, point_items, weight. cbn [fst snd]. destruct (search t p) as [T|].
  - set (js := triangles (index T)). set (s := calculate_sigma T (px p) (py p)).
    destruct (critical_spec js s zdims v AtA Atz) as (E & Z). eexists. split; [exact E|].
    intros w i Hw. rewrite Z by exact Hw. destruct js as ((j0, j1), j2), s as ((s0, s1), s2). cbn [pick]. ring.
  - exists Atz. split; [reflexivity|]. intros. ring.
Qed.

Lemma build_spec t triangles zdims : forall order AtA Atz, exists z,
  fold_left (one_point t triangles zdims) order (AtA, Atz) = (add_entries AtA (flat_map (point_items t triangles) order), z) /\
  forall w i, (w < zdims)%nat -> z w i = Atz w i + Rsum (map (fun d : datum => weight t triangles (fst d) i * snd d w) order).
Proof.
  induction order as [|d order IH]; intros AtA Atz; cbn [fold_left flat_map map Rsum].
  - exists Atz. split; [reflexivity|intros; ring].
  - destruct (one_point_spec t triangles zdims AtA Atz d) as (z1 & E1 & Z1). rewrite E1.
    destruct (IH (add_entries AtA (point_items t triangles d)) z1) as (z & E & Z). exists z. split; [rewrite add_entries_app; exact E|].
    intros w i Hw. rewrite Z, Z1 by exact Hw. ring.
Qed.

Lemma point_items_sum t triangles d i j : Rsum (mine (i, j) (point_items t triangles d)) = weight t triangles (fst d) i * weight t triangles (fst d) j.
Proof.
  unfold point_items, weight. destruct (search t (fst d)) as [T|]; [|cbn; ring].
  destruct (triangles (index T)) as ((j0, j1), j2), (calculate_sigma T (px (fst d)) (py (fst d))) as ((s0, s1), s2).
  cbn [seq flat_map map pick app]. rewrite !mine_cons, mine_nil, !Rsum_app.
  destruct (j0 =? i)%nat, (j1 =? i)%nat, (j2 =? i)%nat, (j0 =? j)%nat, (j1 =? j)%nat, (j2 =? j)%nat; cbn [andb Rsum]; ring.
Qed.

Lemma point_items_count t triangles d k : (forall n, distinct (triangles n)) -> (length (mine k (point_items t triangles d)) <= 1)%nat.
Proof.
  intros Hd. unfold point_items. destruct (search t (fst d)) as [T|]; [|cbn; lia]. specialize (Hd (index T)).
  destruct (triangles (index T)) as ((j0, j1), j2), (calculate_sigma T (px (fst d)) (py (fst d))) as ((s0, s1), s2).
  destruct Hd as (D1 & D2 & D3), k as (i, j).
  cbn [seq flat_map map pick app]. rewrite !mine_cons, !mine_nil.
  destruct (Nat.eqb_spec j0 i), (Nat.eqb_spec j1 i), (Nat.eqb_spec j2 i); try congruence;
  destruct (Nat.eqb_spec j0 j), (Nat.eqb_spec j1 j), (Nat.eqb_spec j2 j); try congruence; cbn; lia.
Qed.

Lemma point_items_sym t triangles d i j : (forall n, distinct (triangles n)) ->
  mine (i, j) (point_items t triangles d) = mine (j, i) (point_items t triangles d).
Proof.
  intros Hd. unfold point_items. destruct (search t (fst d)) as [T|]; [|reflexivity]. specialize (Hd (index T)).
  destruct (triangles (index T)) as ((j0, j1), j2), (calculate_sigma T (px (fst d)) (py (fst d))) as ((s0, s1), s2).
  destruct Hd as (D1 & D2 & D3).
  cbn [seq flat_map map pick app]. rewrite !mine_cons, !mine_nil.
  destruct (Nat.eqb_spec j0 i), (Nat.eqb_spec j1 i), (Nat.eqb_spec j2 i); try congruence;
  destruct (Nat.eqb_spec j0 j), (Nat.eqb_spec j1 j), (Nat.eqb_spec j2 j); try congruence; cbn [andb app]; try reflexivity; apply (f_equal (fun x => [x])); ring.
Qed.

Lemma flat_map_length_le {A B} (f : A -> list B) c l : (forall x, (length (f x) <= c)%nat) -> (length (flat_map f l) <= c * length l)%nat.
Proof. intros H. induction l as [|x l IH]; cbn [flat_map length]; [lia|]. rewrite app_length. specialize (H x). lia. Qed.

(** Whatever the order in which the parallel iterations enter the critical
    section: the right hand side is A^T z, the matrix is symmetric and each
    entry is within 1e-10 per data point of A^T A, where A interpolates nodal
    values to the data points (and has empty rows for points outside). *)
Theorem C55_normal_equations : forall t triangles zdims points order n,
  Permutation points order -> (forall k, distinct (triangles k)) ->
  (forall k, let '(a, b, c) := triangles k in (a < n /\ b < n /\ c < n)%nat) ->
  let '(AtA, Atz) := build_matrix_AtA_Atz t triangles zdims order in
  let A := weight t triangles in
  (forall w i, (w < zdims)%nat -> Atz w i = Rsum (map (fun d : datum => A (fst d) i * snd d w) points)) /\
  (forall i j, Rabs (entry AtA (i, j) - Rsum (map (fun d : datum => A (fst d) i * A (fst d) j) points)) <= INR (length points) * / 10 ^ 10) /\
  (forall i j, entry AtA (i, j) = entry AtA (j, i)) /\
  (forall p f, Rsum (map (fun i => A p i * f i) (seq 0 n)) =
     match search t p with
     | None => 0
     | Some T => let '(j0, j1, j2) := triangles (index T) in let '(s0, s1, s2) := calculate_sigma T (px p) (py p) in s0 * f j0 + s1 * f j1 + s2 * f j2
     end).
Proof.
  intros t triangles zdims points order n Pm Hd Hn.
  destruct (build_spec t triangles zdims order make_dok (fun _ _ => 0)) as (Atz & EB & Z).
  change (build_matrix_AtA_Atz t triangles zdims order = (add_entries make_dok (flat_map (point_items t triangles) order), Atz)) in EB. rewrite EB.
  refine (conj _ (conj _ (conj _ _))).
  - intros w i Hw. rewrite Z by exact Hw. rewrite Rplus_0_l. apply Rsum_perm, Permutation_map, Permutation_sym, Pm.
  - intros i j. rewrite (Rsum_perm _ _ (Permutation_map _ Pm)), (Permutation_length Pm).
    pose proof (add_entries_error (flat_map (point_items t triangles) order) (i, j) make_dok wf_make_dok) as E.
    rewrite mine_flat, Rsum_flat in E. rewrite (map_ext _ (fun d : datum => weight t triangles (fst d) i * weight t triangles (fst d) j)) in E by (intros; apply point_items_sum).
    change (entry make_dok (i, j)) with 0 in E. rewrite Rplus_0_l in E. eapply Rle_trans; [exact E|].
    apply Rmult_le_compat_r; [apply Rlt_le, Rinv_0_lt_compat, pow_lt; lra|]. apply le_INR.
    pose proof (flat_map_length_le (fun x => mine (i, j) (point_items t triangles x)) 1 order (fun x => point_items_count t triangles x (i, j) Hd)). lia.
  - intros i j. rewrite !(add_entries_entry _ _ _ wf_make_dok), !mine_flat.
    f_equal. rewrite !flat_map_concat_map. f_equal. apply map_ext. intros d. apply point_items_sym, Hd.
  - intros p f. unfold weight. destruct (search t p) as [T|].
    + specialize (Hn (index T)). destruct (triangles (index T)) as ((j0, j1), j2), (calculate_sigma T (px p) (py p)) as ((s0, s1), s2). destruct Hn as (N0 & N1 & N2).
      rewrite (map_ext _ (fun i => ((if (j0 =? i)%nat then s0 * f i else 0) + (if (j1 =? i)%nat then s1 * f i else 0)) + (if (j2 =? i)%nat then s2 * f i else 0)))
        by (intros i; destruct (j0 =? i)%nat, (j1 =? i)%nat, (j2 =? i)%nat; ring).
      rewrite (Rsum_map_plus (fun i => (if (j0 =? i)%nat then s0 * f i else 0) + (if (j1 =? i)%nat then s1 * f i else 0))), (Rsum_map_plus (fun i => if (j0 =? i)%nat then s0 * f i else 0)).
      rewrite (Rsum_delta n j0 (fun i => s0 * f i)), (Rsum_delta n j1 (fun i => s1 * f i)), (Rsum_delta n j2 (fun i => s2 * f i)) by assumption. reflexivity.
    + induction (seq 0 n) as [|a l IH]; cbn [map Rsum]; [reflexivity|]. rewrite IH. ring.
Qed.
Print Assumptions C55_normal_equations.

(** ** The smoothing matrix *)

(** [g] is the gradient over [el] of the piecewise linear function with nodal
    values [F]. *)
Definition is_gradient (el : element) (F : nat -> R) (g : R * R) : Prop :=
  let '(v0, v1, v2) := nodes el in let '(p0, p1, p2) := vertices el in
  F v1 - F v0 = fst g * (px p1 - px p0) + snd g * (py p1 - py p0) /\
  F v2 - F v0 = fst g * (px p2 - px p0) + snd g * (py p2 - py p0).

(** The exact contribution of one element to entry (i, j). *)
Definition contribution (el : element) (i j : nat) : R := Rsum (mine (i, j) (smoothing_entries el)).

Lemma basis_gradients_spec p0 p1 p2 : tri_cross (p0, p1, p2) <> 0 ->
  let '(g0, g1, g2) := basis_gradients p0 p1 p2 in
  forall h0 h1 h2 (h : R * R), h1 - h0 = fst h * (px p1 - px p0) + snd h * (py p1 - py p0) -> h2 - h0 = fst h * (px p2 - px p0) + snd h * (py p2 - py p0) ->
    fst h = h0 * fst g0 + h1 * fst g1 + h2 * fst g2 /\ snd h = h0 * snd g0 + h1 * snd g1 + h2 * snd g2.
Proof.
  destruct p0 as (x0, y0), p1 as (x1, y1), p2 as (x2, y2). unfold tri_cross, basis_gradients. cbn [px py fst snd].
  intros HD h0 h1 h2 (hx, hy) A B. cbn [fst snd] in A, B |- *.
  replace h1 with (h0 + (hx * (x1 - x0) + hy * (y1 - y0))) by lra. replace h2 with (h0 + (hx * (x2 - x0) + hy * (y2 - y0))) by lra.
  split; field; lra.
Qed.

Lemma contribution_form el F G gF gG n : distinct (nodes el) -> tri_cross (vertices el) <> 0 ->
  (let '(v0, v1, v2) := nodes el in (v0 < n /\ v1 < n /\ v2 < n)%nat) ->
  is_gradient el F gF -> is_gradient el G gG ->
  Rsum (map (fun i => Rsum (map (fun j => F i * contribution el i j * G j) (seq 0 n))) (seq 0 n)) = area el * dot2 gF gG.
Proof.
  intros Hd HD Hn HF HG. unfold contribution, smoothing_entries, is_gradient in *. destruct el as (((v0, v1), v2), ar, ((p0, p1), p2)). cbn [nodes area vertices] in *.
  pose proof (basis_gradients_spec p0 p1 p2 HD) as GF. destruct (basis_gradients p0 p1 p2) as ((g0, g1), g2).
  destruct Hn as (N0 & N1 & N2).
  set (dl := fun (v : nat) (i : nat) => if (v =? i)%nat then 1 else 0).
  assert (E : forall i j, Rsum (mine (i, j) [(v0, v0, dot2 g0 g0 * ar); (v1, v1, dot2 g1 g1 * ar); (v2, v2, dot2 g2 g2 * ar); (v0, v1, dot2 g0 g1 * ar); (v1, v0, dot2 g0 g1 * ar);
    (v1, v2, dot2 g1 g2 * ar); (v2, v1, dot2 g1 g2 * ar); (v2, v0, dot2 g2 g0 * ar); (v0, v2, dot2 g2 g0 * ar)]) =
    ar * dot2 (dl v0 i * fst g0 + dl v1 i * fst g1 + dl v2 i * fst g2, dl v0 i * snd g0 + dl v1 i * snd g1 + dl v2 i * snd g2)
              (dl v0 j * fst g0 + dl v1 j * fst g1 + dl v2 j * fst g2, dl v0 j * snd g0 + dl v1 j * snd g1 + dl v2 j * snd g2)).
  { intros i j. rewrite !mine_cons, mine_nil, !Rsum_app. unfold dl, dot2. cbn [fst snd].
    destruct (v0 =? i)%nat, (v1 =? i)%nat, (v2 =? i)%nat, (v0 =? j)%nat, (v1 =? j)%nat, (v2 =? j)%nat; cbn [andb Rsum]; ring. }
  destruct HF as (F1 & F2), HG as (G1 & G2). destruct (GF (F v0) (F v1) (F v2) gF F1 F2) as (EF1 & EF2). destruct (GF (G v0) (G v1) (G v2) gG G1 G2) as (EG1 & EG2).
  clear - E EF1 EF2 EG1 EG2 N0 N1 N2.
  (* sum of H i * dl v i *)
  assert (SD : forall H v, (v < n)%nat -> Rsum (map (fun i => H i * dl v i) (seq 0 n)) = H v).
  { intros H v Hv. rewrite <- (Rsum_delta n v H Hv). apply Rsum_map_ext_in. intros i _. unfold dl. destruct (v =? i)%nat; ring. }
  assert (SL : forall H (a b c : R), Rsum (map (fun i => H i * (dl v0 i * a + dl v1 i * b + dl v2 i * c)) (seq 0 n)) = H v0 * a + H v1 * b + H v2 * c).
  { intros H a b c. rewrite (map_ext _ (fun i => (a * (H i * dl v0 i) + b * (H i * dl v1 i)) + c * (H i * dl v2 i))) by (intros; ring).
    rewrite (Rsum_map_plus (fun i => a * (H i * dl v0 i) + b * (H i * dl v1 i))), (Rsum_map_plus (fun i => a * (H i * dl v0 i))), !Rsum_map_scal, !SD by assumption. ring. }
  transitivity (Rsum (map (fun i => F i * (dl v0 i * (ar * (fst g0 * fst gG + snd g0 * snd gG)) + dl v1 i * (ar * (fst g1 * fst gG + snd g1 * snd gG)) + dl v2 i * (ar * (fst g2 * fst gG + snd g2 * snd gG)))) (seq 0 n))).
  - apply Rsum_map_ext_in. intros i _.
    set (fi := dl v0 i * fst g0 + dl v1 i * fst g1 + dl v2 i * fst g2) in *. set (si := dl v0 i * snd g0 + dl v1 i * snd g1 + dl v2 i * snd g2) in *.
    rewrite (map_ext _ (fun j => (F i * ar * fi) * (G j * (dl v0 j * fst g0 + dl v1 j * fst g1 + dl v2 j * fst g2)) + (F i * ar * si) * (G j * (dl v0 j * snd g0 + dl v1 j * snd g1 + dl v2 j * snd g2)))).
    2: { intros j. rewrite E. unfold dot2. cbn [fst snd]. fold fi si. ring. }
    rewrite (Rsum_map_plus (fun j => (F i * ar * fi) * (G j * (dl v0 j * fst g0 + dl v1 j * fst g1 + dl v2 j * fst g2)))), !Rsum_map_scal, !SL, <- EG1, <- EG2.
    unfold fi, si. ring.
  - rewrite SL. unfold dot2. rewrite EF1, EF2. ring.
Qed.

Lemma smoothing_flat : forall elements h, fold_left (fun h el => add_entries h (smoothing_entries el)) elements h = add_entries h (flat_map smoothing_entries elements).
Proof. induction elements as [|el elements IH]; intros h; cbn [fold_left flat_map]; [reflexivity|]. rewrite IH, add_entries_app. reflexivity. Qed.

Lemma smoothing_mine_count el k : distinct (nodes el) -> (length (mine k (smoothing_entries el)) <= 1)%nat.
Proof.
  unfold smoothing_entries. destruct (nodes el) as ((v0, v1), v2), (vertices el) as ((p0, p1), p2), (basis_gradients p0 p1 p2) as ((g0, g1), g2), k as (i, j).
  intros (D1 & D2 & D3). rewrite !mine_cons, mine_nil.
  destruct (Nat.eqb_spec v0 i), (Nat.eqb_spec v1 i), (Nat.eqb_spec v2 i); try congruence;
  destruct (Nat.eqb_spec v0 j), (Nat.eqb_spec v1 j), (Nat.eqb_spec v2 j); try congruence; cbn; lia.
Qed.
Lemma smoothing_mine_sym el i j : distinct (nodes el) -> mine (i, j) (smoothing_entries el) = mine (j, i) (smoothing_entries el).
Proof.
  unfold smoothing_entries. destruct (nodes el) as ((v0, v1), v2), (vertices el) as ((p0, p1), p2), (basis_gradients p0 p1 p2) as ((g0, g1), g2).
  intros (D1 & D2 & D3). rewrite !mine_cons, !mine_nil.
  destruct (Nat.eqb_spec v0 i), (Nat.eqb_spec v1 i), (Nat.eqb_spec v2 i); try congruence;
  destruct (Nat.eqb_spec v0 j), (Nat.eqb_spec v1 j), (Nat.eqb_spec v2 j); try congruence; reflexivity.
Qed.

Lemma flat_map_length_in {A B} (f : A -> list B) c l : (forall x, In x l -> (length (f x) <= c)%nat) -> (length (flat_map f l) <= c * length l)%nat.
Proof. induction l as [|x l IH]; intros H; cbn [flat_map length]; [lia|]. rewrite app_length. pose proof (H x (or_introl eq_refl)). assert (length (flat_map f l) <= c * length l)%nat by (apply IH; intros; apply H; now right). lia. Qed.

(** The smoothing matrix is symmetric and each entry is within 1e-10 per
    triangle of the matrix [E] of the Dirichlet form: F^T E G is the integral
    of grad F . grad G for all piecewise linear F, G; in particular F^T E F is
    not negative and constants are in the kernel of [E]. *)
Theorem C55_smoothing : forall elements n,
  (forall el, In el elements -> distinct (nodes el) /\ tri_cross (vertices el) <> 0 /\ 0 <= area el /\
     let '(v0, v1, v2) := nodes el in (v0 < n /\ v1 < n /\ v2 < n)%nat) ->
  let D := build_smoothing_matrix elements in
  (forall i j, entry D (i, j) = entry D (j, i)) /\
  exists E : nat -> nat -> R,
  (forall i j, Rabs (entry D (i, j) - E i j) <= INR (length elements) * / 10 ^ 10) /\
  (forall F G gF gG, (forall el, In el elements -> is_gradient el F (gF el) /\ is_gradient el G (gG el)) ->
     Rsum (map (fun i => Rsum (map (fun j => F i * E i j * G j) (seq 0 n))) (seq 0 n)) =
     Rsum (map (fun el => area el * (fst (gF el) * fst (gG el) + snd (gF el) * snd (gG el))) elements)).
Proof.
  intros elements n H. cbv zeta. unfold build_smoothing_matrix. rewrite smoothing_flat. split; [|exists (fun i j => Rsum (map (fun el => contribution el i j) elements)); split].
  - intros i j. rewrite !(add_entries_entry _ _ _ wf_make_dok), !mine_flat. f_equal. rewrite !flat_map_concat_map. f_equal.
    apply map_ext_in. intros el Hel. apply smoothing_mine_sym, H, Hel.
  - intros i j. pose proof (add_entries_error (flat_map smoothing_entries elements) (i, j) make_dok wf_make_dok) as E.
    rewrite mine_flat, Rsum_flat in E. change (entry make_dok (i, j)) with 0 in E. rewrite Rplus_0_l in E. unfold contribution. eapply Rle_trans; [exact E|].
    apply Rmult_le_compat_r; [apply Rlt_le, Rinv_0_lt_compat, pow_lt; lra|]. apply le_INR.
    pose proof (flat_map_length_in (fun x => mine (i, j) (smoothing_entries x)) 1 elements (fun el Hel => smoothing_mine_count el (i, j) (proj1 (H el Hel)))). lia.
  - intros F G gF gG Hg. induction elements as [|el elements IH]; cbn [map Rsum].
    + apply Rsum_map_zero. intros i _. apply Rsum_map_zero. intros j _. ring.
    + rewrite <- IH; [|intros el' Hel; apply H; now right|intros el' Hel; apply Hg; now right].
      destruct (H el (or_introl eq_refl)) as (K1 & K2 & K3 & K4). destruct (Hg el (or_introl eq_refl)) as (Q1 & Q2).
      pose proof (contribution_form el F G (gF el) (gG el) n K1 K2 K4 Q1 Q2) as CF. unfold dot2 in CF. rewrite <- CF.
      rewrite <- Rsum_map_plus. apply Rsum_map_ext_in. intros i _. rewrite <- Rsum_map_plus. apply Rsum_map_ext_in. intros j _. ring.
Qed.
Print Assumptions C55_smoothing.

(** ** Repeated use of one object *)

(** First fit: the matrix is within 1e-10 of alpha D + A^T A. *)
Theorem C56_first_fit : forall alpha f AtA B f', f_AtA f = Some AtA -> wf_dok (f_D f) -> wf_dok AtA ->
  build_coefficient_matrix alpha f = Some (B, f') ->
  (forall k, Rabs (entry B k - (alpha * entry (f_D f) k + entry AtA k)) <= / 10 ^ 10) /\ f_D f' = B /\ f_Atz f' = f_Atz f.
Proof.
  intros alpha f AtA B f' E W1 W2 H. unfold build_coefficient_matrix in H. rewrite E in H.
  pose proof (C50_add_sparse_dok (f_D f) alpha AtA 1 W1 W2) as S. destruct (add_sparse_dok (f_D f) alpha AtA 1) as (r1, r2).
  injection H as <- <-. destruct S as (_ & S & _). cbn [f_D f_Atz]. split; [|auto]. intros k. specialize (S k). rewrite Rmult_1_l in S. exact S.
Qed.
Print Assumptions C56_first_fit.

(** Points added in two batches before the first fit give, within 1e-10, the
    sum of the two matrices and right hand sides (but the table of the second
    batch is used up). *)
Theorem C56_batches : forall t triangles order1 order2 f, f_AtA f = None ->
  let '(A1, z1) := build_matrix_AtA_Atz t triangles 1 order1 in
  let '(A2, z2) := build_matrix_AtA_Atz t triangles 1 order2 in
  let f2 := build_fit_subset t triangles order2 (build_fit_subset t triangles order1 f) in
  f_D f2 = f_D f /\ (forall i, f_Atz f2 0%nat i = z1 0%nat i + z2 0%nat i) /\
  exists A, f_AtA f2 = Some A /\ forall k, Rabs (entry A k - (entry A1 k + entry A2 k)) <= / 10 ^ 10.
Proof.
  intros t triangles order1 order2 f Hf.
  destruct (build_spec t triangles 1 order1 make_dok (fun _ _ => 0)) as (z1 & E1 & _). change (build_matrix_AtA_Atz t triangles 1 order1 = (add_entries make_dok (flat_map (point_items t triangles) order1), z1)) in E1.
  destruct (build_spec t triangles 1 order2 make_dok (fun _ _ => 0)) as (z2 & E2 & _). change (build_matrix_AtA_Atz t triangles 1 order2 = (add_entries make_dok (flat_map (point_items t triangles) order2), z2)) in E2.
  set (A1 := add_entries make_dok (flat_map (point_items t triangles) order1)) in *. set (A2 := add_entries make_dok (flat_map (point_items t triangles) order2)) in *.
  assert (W1 : wf_dok A1) by (apply add_entries_wf, wf_make_dok). assert (W2 : wf_dok A2) by (apply add_entries_wf, wf_make_dok).
  clearbody A1 A2. unfold build_fit_subset. rewrite E1, Hf, E2. cbn [f_AtA f_Atz f_D]. unfold combine_partial.
  pose proof (C50_add_sparse_dok A1 1 A2 1 W1 W2) as S. destruct (add_sparse_dok A1 1 A2 1) as (r1, r2). destruct S as (_ & S & _). cbn [f_AtA f_Atz f_D].
  refine (conj eq_refl (conj (fun i => eq_refl) _)). exists r1. split; [reflexivity|]. intros k. specialize (S k). rewrite !Rmult_1_l in S. exact S.
Qed.
Print Assumptions C56_batches.

(** A second fit of the same object, with no new data and when all entries of
    A^T A are at places where D has an entry, uses alpha times the matrix of
    the first with the same right hand side: D has been overwritten. *)
Theorem C56_second_fit : forall alpha f AtA B f' B' f'', f_AtA f = Some AtA -> wf_dok (f_D f) -> wf_dok AtA ->
  (forall k, In k (map fst (edgetable AtA)) -> In k (map fst (edgetable (f_D f)))) ->
  build_coefficient_matrix alpha f = Some (B, f') -> build_coefficient_matrix alpha f' = Some (B', f'') ->
  (forall k, Rabs (entry B' k - alpha * entry B k) <= / 10 ^ 10) /\ f_Atz f'' = f_Atz f.
Proof.
  intros alpha f AtA B f' B' f'' E W1 W2 Inc H H'. unfold build_coefficient_matrix in H. rewrite E in H.
  assert (Keys : map fst (edgetable (snd (add_sparse_dok (f_D f) alpha AtA 1))) = map fst (edgetable AtA) /\
                 wf_dok (snd (add_sparse_dok (f_D f) alpha AtA 1))).
  { unfold add_sparse_dok, scale_first. pose proof (scale_first_spec alpha 1 (edgetable (f_D f)) [] (edgetable AtA)) as Sp. cbn [map app] in Sp. specialize (Sp (proj1 W1) (proj1 W2)).
    match goal with |- context [fold_left ?f (edgetable ?a) ([], edgetable ?b)] => set (st := fold_left f (edgetable a) ([], edgetable b)) in * end.
    destruct st as [d1 d2]. destruct Sp as (_ & S2 & S3 & _). cbn [snd edgetable]. split; [exact S3|].
    destruct W2 as (A & Bn & C). split; [exact S2|]. cbn [edgetable num_entries dok_rows]. split; [rewrite Bn, <- (map_length fst d2), S3, map_length; reflexivity|]. rewrite S3. exact C. }
  pose proof (C50_add_sparse_dok (f_D f) alpha AtA 1 W1 W2) as S. destruct (add_sparse_dok (f_D f) alpha AtA 1) as (r1, r2). cbn [snd] in Keys.
  destruct Keys as (Keys & Wr2). destruct S as (Wr1 & _ & Z). injection H as <- <-.
  unfold build_coefficient_matrix in H'. cbn [f_AtA f_D f_Atz] in H'.
  pose proof (C50_add_sparse_dok r1 alpha r2 1 Wr1 Wr2) as S'. destruct (add_sparse_dok r1 alpha r2 1) as (s1, s2). destruct S' as (_ & S' & _).
  injection H' as <- <-. cbn [f_Atz]. split; [|reflexivity]. intros k. specialize (S' k).
  assert (Z0 : entry r2 k = 0).
  { rewrite Z. destruct (lookup (edgetable (f_D f)) k) eqn:L; [reflexivity|]. unfold entry. destruct (lookup (edgetable AtA) k) eqn:L2; [|reflexivity].
    exfalso. apply lookup_None in L. apply L, Inc. eapply lookup_Some_key; eauto. }
  rewrite Z0, Rmult_0_r, Rplus_0_r in S'. exact S'.
Qed.
Print Assumptions C56_second_fit.

(** So repeating a fit does not solve the same system: with one entry in each
    matrix and alpha = 1/1000 the coefficient shrinks from about 1 to about
    1/1000, and the solution grows a thousandfold. *)
Theorem C56_refuted : exists alpha f B f' B' f'',
  build_coefficient_matrix alpha f = Some (B, f') /\ build_coefficient_matrix alpha f' = Some (B', f'') /\
  1 < entry B (0, 0)%nat /\ entry B' (0, 0)%nat < 1 / 100 /\ f_Atz f'' = f_Atz f.
Proof.
  set (D := Dok [((0, 0)%nat, 1)] 1 0). set (A := Dok [((0, 0)%nat, 1)] 1 0).
  assert (W : wf_dok D).
  { split; [repeat constructor; intros []|]. split; [reflexivity|]. intros k [<-|[]]. cbn. lia. }
  set (f := Fit (Some A) (fun _ _ => 1) D).
  destruct (build_coefficient_matrix (1 / 1000) f) as [(B, f')|] eqn:E1; [|unfold build_coefficient_matrix, f in E1; cbn [f_AtA f_D] in E1; destruct (add_sparse_dok D (1 / 1000) A 1); discriminate].
  destruct (C56_first_fit (1 / 1000) f A B f' eq_refl W W E1) as (F1 & FD & FZ).
  destruct (build_coefficient_matrix (1 / 1000) f') as [(B', f'')|] eqn:E2.
  2: { exfalso. unfold build_coefficient_matrix, f in E1. cbn [f_AtA f_D] in E1. destruct (add_sparse_dok D (1 / 1000) A 1) as (r1, r2). injection E1 as <- <-.
       unfold build_coefficient_matrix in E2. cbn [f_AtA f_D] in E2. destruct (add_sparse_dok r1 (1 / 1000) r2 1); discriminate. }
  destruct (C56_second_fit (1 / 1000) f A B f' B' f'' eq_refl W W (fun k Hk => Hk) E1 E2) as (F2 & FZ2).
  exists (1 / 1000), f, B, f', B', f''. specialize (F1 (0, 0)%nat). specialize (F2 (0, 0)%nat).
  change (entry (f_D f) (0, 0)%nat) with 1 in F1. change (entry A (0, 0)%nat) with 1 in F1.
  assert (RI : forall x y, Rabs x <= y -> - y <= x <= y) by (intros x y K; unfold Rabs in K; destruct (Rcase_abs x); lra).
  apply RI in F1. apply RI in F2.
  assert (T : / 10 ^ 10 < 1 / 10000).
  { apply (Rmult_lt_reg_l (10 ^ 10)); [lra|]. rewrite Rinv_r by lra. lra. }
  split; [exact E1|split; [exact E2|]]. repeat split; try lra. exact FZ2.
Qed.
Print Assumptions C56_refuted.

(** Non-vacuity: one element with its data. *)
Example C55_example :
  let el := Element (0, 1, 2)%nat (1 / 2) ((0, 0), (1, 0), (0, 1)) in
  distinct (nodes el) /\ tri_cross (vertices el) <> 0 /\ is_gradient el (fun i => INR i) (1, 2) /\
  Permutation [((0, 0), fun _ : nat => 1); ((1, 0), fun _ => 2)] [((1, 0), fun _ : nat => 2); ((0, 0), fun _ => 1)].
Proof. cbn. repeat split; try lia; try lra. apply perm_swap. Qed.
Example C56_example : exists B f', build_coefficient_matrix 1 (Fit (Some make_dok) (fun _ _ => 0) make_dok) = Some (B, f').
Proof. eexists _, _. reflexivity. Qed.
