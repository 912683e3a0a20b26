(** The walk of [get_boundary_polygon], and sums over the boundary. *)
From Coq Require Import Reals List Arith Bool Lra Lia Permutation.
From Verif Require Import RealLib PolygonModel BoundaryPolygonModel.
Import ListNotations.
Local Open Scope R_scope.

Lemma same_true p q : same p q = true <-> p = q.
Proof. unfold same. destruct (point_dec p q); split; congruence. Qed.

Lemma candidates_in segs p q : In q (candidates segs p) <-> In (p, q) segs.
Proof.
  unfold candidates. rewrite in_map_iff. split.
  - intros ((a, b) & E & H). apply filter_In in H. destruct H as (H & Ep). apply same_true in Ep. cbn in *. subst. exact H.
  - intros H. exists (p, q). split; [reflexivity|]. apply filter_In. split; [exact H|]. apply same_true. reflexivity.
Qed.

Lemma turn_angle_le v w : turn_angle v w <= PI.
Proof.
  unfold turn_angle, angle. cbv zeta. match goal with |- context [acos ?x] => set (p := x) end. pose proof (acos_bound p) as (A1 & A2). pose proof PI_RGT_0.
  destruct (Rltb _ 0); destruct (Rltb_spec PI (2 * PI - acos p)), (Rltb_spec PI (acos p)); lra.
Qed.

Lemma rightmost_in v p0 l : l <> [] -> In (rightmost v p0 l) l.
Proof.
  intros Hl. unfold rightmost. destruct l as [|a l]; [congruence|]. cbn [fold_left].
  rewrite (proj2 (Rltb_true _ (fst (2 * PI, p0)))).
  2:{ cbn [fst]. pose proof (turn_angle_le (minus a p0) v). pose proof PI_RGT_0. lra. }
  match goal with |- In (snd (fold_left ?g l _)) _ => set (g' := g) end.
  assert (G : forall l b, snd (fold_left g' l b) = snd b \/ In (snd (fold_left g' l b)) l).
  { clear. induction l as [|x l IH]; intros b; [left; reflexivity|]. cbn [fold_left]. destruct (IH (g' b x)) as [E|E].
    - rewrite E. unfold g'. cbv zeta. destruct (Rltb _ _); [right; left; reflexivity|left; reflexivity].
    - right. right. exact E. }
  match goal with |- In (snd (fold_left g' l ?b)) _ => destruct (G l b) as [E|E] end; [rewrite E; left; reflexivity|right; exact E].
Qed.

Lemma next_in segs b p q : next_point segs b p = Some q -> In (p, q) segs.
Proof.
  unfold next_point. intros H. apply candidates_in. destruct (candidates segs p) as [|a [|a' l]] eqn:E; [discriminate| |].
  - injection H as <-. left. reflexivity.
  - injection H as <-. apply rightmost_in. discriminate.
Qed.
Lemma next_some segs b p c : In (p, c) segs -> exists q, next_point segs b p = Some q.
Proof.
  intros H. apply candidates_in in H. unfold next_point. destruct (candidates segs p) as [|a [|a' l]]; [destruct H| |]; eexists; reflexivity.
Qed.

(** With one segment from every point, the direction does not matter. *)
Lemma candidates_single segs p : NoDup (map fst segs) -> (length (candidates segs p) <= 1)%nat.
Proof.
  intros N. unfold candidates. rewrite map_length. induction segs as [|(a, b) segs IH]; [cbn; lia|].
  cbn in N. inversion N as [|? ? Ni N']. subst. cbn [filter fst]. destruct (same a p) eqn:E; [|apply IH; exact N'].
  apply same_true in E. subst. cbn [length].
  assert (Z : filter (fun s => same (fst s) p) segs = []).
  { destruct (filter _ segs) as [|s l] eqn:F; [reflexivity|]. exfalso. assert (H : In s (s :: l)) by (left; reflexivity). rewrite <- F in H.
    apply filter_In in H. destruct H as (H & Es). apply same_true in Es. apply Ni. apply in_map_iff. exists s. split; assumption. }
  rewrite Z. cbn. lia.
Qed.
Lemma next_same segs b b' p : NoDup (map fst segs) -> next_point segs b p = next_point segs b' p.
Proof.
  intros N. pose proof (candidates_single segs p N) as H. unfold next_point. destruct (candidates segs p) as [|a [|a' l]]; [reflexivity..|cbn in H; lia].
Qed.

(** * The walk *)
Inductive walk (segs : list segment) (p0 : point) : list point -> Prop :=
| walk_start : walk segs p0 [p0]
| walk_step t p q : walk segs p0 (p :: t) -> next_point segs (hd_error t) p = Some q -> q <> p0 -> walk segs p0 (q :: p :: t).

Fixpoint edges_of (l : list point) : list segment :=
  match l with q :: ((p :: _) as r) => (p, q) :: edges_of r | _ => [] end.

Definition deterministic (segs : list segment) : Prop :=
  forall a a' p q, In (a, p) segs -> In (a', p) segs -> next_point segs (Some a) p = Some q -> next_point segs (Some a') p = Some q -> a = a'.

Lemma walk_head segs p0 q p t : walk segs p0 (q :: p :: t) -> walk segs p0 (p :: t) /\ next_point segs (hd_error t) p = Some q /\ q <> p0.
Proof. intros H. inversion H. subst. auto. Qed.
Lemma walk_edges segs p0 l : walk segs p0 l -> incl (edges_of l) segs.
Proof.
  induction 1 as [|t p q W IH N Hq]; [intros s []|]. cbn [edges_of]. intros s [<-|Hs]; [exact (next_in _ _ _ _ N)|exact (IH s Hs)].
Qed.
Lemma walk_suffix segs p0 l1 l2 : l2 <> [] -> walk segs p0 (l1 ++ l2) -> walk segs p0 l2.
Proof.
  intros Hl. induction l1 as [|a l1 IH]; [auto|]. intros W. apply IH. cbn in W. destruct (l1 ++ l2) as [|p t] eqn:E.
  - apply app_eq_nil in E. destruct E as (_ & E). congruence.
  - apply walk_head in W. apply W.
Qed.
Lemma walk_not_start segs p0 q p t : walk segs p0 (q :: p :: t) -> q <> p0.
Proof. intros W. apply walk_head in W. apply W. Qed.
Lemma walk_last segs p0 p : walk segs p0 [p] -> p = p0.
Proof. intros W. inversion W. reflexivity. Qed.

Lemma walk_ends segs p0 l : walk segs p0 l -> exists l', l = l' ++ [p0].
Proof. induction 1 as [|t p q W IH N Hq]; [exists []; reflexivity|]. destruct IH as (l' & E). exists (q :: l'). cbn. rewrite E. reflexivity. Qed.

Lemma no_repeat segs p0 : deterministic segs -> forall t' t p q,
  walk segs p0 (q :: p :: t) -> walk segs p0 (q :: p :: t') -> (length t' < length t)%nat -> False.
Proof.
  intros D. induction t' as [|b' t' IH]; intros t p q W W' L.
  - apply walk_head in W'. destruct W' as (W' & _). apply walk_last in W'. destruct t as [|b t]; [cbn in L; lia|].
    apply walk_head in W. destruct W as (W & _). apply walk_not_start in W. congruence.
  - destruct t as [|b t]; [cbn in L; lia|]. apply walk_head in W, W'. destruct W as (W & N & _), W' as (W' & N' & _).
    cbn [hd_error] in N, N'.
    assert (E : b = b').
    { apply (D b b' p q); try assumption.
      - apply (walk_edges _ _ _ W). left. reflexivity.
      - apply (walk_edges _ _ _ W'). left. reflexivity. }
    subst. apply (IH t b' p W W'). cbn in L. lia.
Qed.

Lemma edge_position p q l : In (p, q) (edges_of l) -> exists l1 t, l = l1 ++ q :: p :: t.
Proof.
  induction l as [|a l IH]; [intros []|]. destruct l as [|b l]; [intros []|]. cbn [edges_of]. intros [E|H].
  - injection E as -> ->. exists [], l. reflexivity.
  - destruct (IH H) as (l1 & t & E). exists (a :: l1), t. cbn. rewrite E. reflexivity.
Qed.

Lemma walk_nodup segs p0 l : deterministic segs -> walk segs p0 l -> NoDup (edges_of l).
Proof.
  intros D W. induction W as [|t p q W IH N Hq]; [constructor|]. change (edges_of (q :: p :: t)) with ((p, q) :: edges_of (p :: t)). constructor; [|exact IH].
  intros H. apply edge_position in H. destruct H as (l1 & t' & E).
  assert (W2 : walk segs p0 (q :: p :: t')) by (apply (walk_suffix _ _ l1); [discriminate|rewrite <- E; exact W]).
  apply (no_repeat segs p0 D t' t p q); [constructor; assumption|exact W2|].
  assert (L := f_equal (@length _) E). rewrite app_length in L. cbn in L. lia.
Qed.

Lemma edges_length l : length (edges_of l) = (length l - 1)%nat.
Proof.
  induction l as [|a l IH]; [reflexivity|]. destruct l as [|b l]; [reflexivity|]. cbn [edges_of length]. cbn [edges_of] in IH. rewrite IH. cbn. lia.
Qed.

Lemma allclose_refl p : allclose p p = true.
Proof.
  assert (A : 0 < atol) by (unfold atol; apply Rinv_0_lt_compat, pow_lt; lra). assert (B : 0 < rtol) by (unfold rtol; apply Rinv_0_lt_compat, pow_lt; lra).
  unfold allclose. apply andb_true_intro. split; apply Rleb_true; replace (_ - _) with 0 by ring; rewrite Rabs_R0.
  - pose proof (Rmult_le_pos _ _ (Rlt_le _ _ B) (Rabs_pos (px p))). lra.
  - pose proof (Rmult_le_pos _ _ (Rlt_le _ _ B) (Rabs_pos (py p))). lra.
Qed.

(** Every segment ends where another one begins. *)
Definition continued (segs : list segment) : Prop := forall a b, In (a, b) segs -> exists c, In (b, c) segs.

Lemma walk_source segs p0 l : continued segs -> (exists c, In (p0, c) segs) -> walk segs p0 l -> forall p, In p l -> exists c, In (p, c) segs.
Proof.
  intros C S0 W. induction W as [|t p q W IH N Hq]; intros x Hx.
  - destruct Hx as [<-|[]]. exact S0.
  - destruct Hx as [<-|Hx]; [|exact (IH x Hx)]. apply (C p). exact (next_in _ _ _ _ N).
Qed.

Lemma visited_position segs p0 l q : walk segs p0 l -> In q l -> q <> p0 -> exists l1 a t, l = l1 ++ q :: a :: t.
Proof.
  intros W H Hq. apply in_split in H. destruct H as (l1 & l2 & ->). destruct l2 as [|a t].
  - exfalso. assert (W2 : walk segs p0 [q]) by (apply (walk_suffix _ _ l1); [discriminate|exact W]). apply walk_last in W2. congruence.
  - exists l1, a, t. reflexivity.
Qed.

Lemma follow_ok segs p0 : deterministic segs -> continued segs -> (exists c, In (p0, c) segs) ->
  (forall p t q, walk segs p0 (p :: t) -> next_point segs (hd_error t) p = Some q -> In q (p :: t) -> allclose q p0 = true -> q = p0) ->
  forall fuel trail reg, walk segs p0 trail -> NoDup reg -> (forall x, In x reg <-> In x trail) -> (length segs + 1 < fuel + length trail)%nat ->
  exists p t, follow fuel segs p0 trail reg = Polygon (rev (p :: t)) /\ walk segs p0 (p :: t) /\ next_point segs (hd_error t) p = Some p0.
Proof.
  intros D C S0 NC. induction fuel as [|fuel IH]; intros trail reg W Nr Er L.
  - exfalso. pose proof (NoDup_incl_length (walk_nodup _ _ _ D W) (walk_edges _ _ _ W)) as H. rewrite edges_length in H. lia.
  - cbn [follow]. destruct trail as [|p t]; [inversion W|].
    destruct (walk_source segs p0 _ C S0 W p (or_introl eq_refl)) as (c & Hc). destruct (next_some segs (hd_error t) p c Hc) as (q & Eq).
    destruct (Nat.ltb_spec (length reg) (length segs)) as [Hl|Hl].
    + rewrite Eq. destruct (in_dec point_dec q reg) as [Hq|Hq].
      * apply Er in Hq. destruct (allclose q p0) eqn:Ec.
        -- exists p, t. split; [reflexivity|]. split; [exact W|]. rewrite Eq. f_equal. exact (NC p t q W Eq Hq Ec).
        -- assert (Hn : q <> p0) by (intros ->; rewrite allclose_refl in Ec; discriminate).
           apply IH; [constructor; assumption|exact Nr| |cbn in *; lia].
           intros x. rewrite Er. cbn. split; [intros H; right; exact H|intros [<-|H]; [exact Hq|exact H]].
      * assert (Hn : q <> p0).
        { intros ->. apply Hq, Er. destruct (walk_ends _ _ _ W) as (l & ->). apply in_or_app. right. left. reflexivity. }
        apply IH; [constructor; assumption|constructor; assumption| |cbn in *; lia].
        intros x. cbn. rewrite Er. cbn. tauto.
    + exists p, t. split; [reflexivity|]. split; [exact W|]. rewrite Eq. f_equal.
      destruct (point_dec q p0) as [|Hn]; [assumption|]. exfalso.
      assert (I : incl reg (map fst segs)).
      { intros x Hx. apply Er in Hx. destruct (walk_source segs p0 _ C S0 W x Hx) as (d & Hd). apply in_map_iff. exists (x, d). split; [reflexivity|exact Hd]. }
      assert (Lm : (length (map fst segs) <= length reg)%nat) by (rewrite map_length; exact Hl).
      pose proof (NoDup_incl_NoDup Nr Lm I) as Nf. pose proof (NoDup_length_incl Nr Lm I) as I2.
      assert (Hq : In q (p :: t)).
      { apply Er, I2. destruct (C p q (next_in _ _ _ _ Eq)) as (d & Hd). apply in_map_iff. exists (q, d). split; [reflexivity|exact Hd]. }
      destruct (visited_position segs p0 _ q W Hq Hn) as (l1 & a & t' & E).
      assert (W2 : walk segs p0 (q :: a :: t')) by (apply (walk_suffix _ _ l1); [discriminate|rewrite <- E; exact W]).
      destruct (C p q (next_in _ _ _ _ Eq)) as (d & Hd). destruct (next_some segs (Some a) q d Hd) as (r & Er').
      assert (Ea : a = p).
      { apply (D a p q r); [apply (walk_edges _ _ _ W2); left; reflexivity|exact (next_in _ _ _ _ Eq)|exact Er'|].
        rewrite (next_same segs (Some p) (Some a) q Nf). exact Er'. }
      subst a. apply (no_repeat segs p0 D t' t p q); [constructor; assumption|exact W2|].
      assert (L2 := f_equal (@length _) E). rewrite app_length in L2. cbn in L2. lia.
Qed.

(** * The sides of a polygon *)
Fixpoint pairs (l : list point) : list segment :=
  match l with p :: ((q :: _) as r) => (p, q) :: pairs r | _ => [] end.
Lemma pairs_end l p q : pairs (l ++ [p; q]) = pairs (l ++ [p]) ++ [(p, q)].
Proof.
  induction l as [|a l IH]; [reflexivity|]. destruct l as [|b l]; [reflexivity|].
  change (pairs ((a :: b :: l) ++ [p; q])) with ((a, b) :: pairs ((b :: l) ++ [p; q])).
  change (pairs ((a :: b :: l) ++ [p])) with ((a, b) :: pairs ((b :: l) ++ [p])). rewrite IH. reflexivity.
Qed.
Lemma pairs_rev l : pairs (rev l) = rev (edges_of l).
Proof.
  induction l as [|a l IH]; [reflexivity|]. destruct l as [|b l]; [reflexivity|].
  cbn [edges_of rev]. rewrite <- app_assoc. cbn [app]. rewrite pairs_end. cbn [rev] in IH. rewrite IH. reflexivity.
Qed.

(** * Sums over the edges of all triangles *)
Definition swap (s : segment) : segment := (snd s, fst s).
Lemma Rsum_perm (l l' : list R) : Permutation l l' -> Rsum l = Rsum l'.
Proof. induction 1; cbn [Rsum fold_right] in *; try lra. Qed.
Lemma Rsum_app' (l l' : list R) : Rsum (l ++ l') = Rsum l + Rsum l'.
Proof. induction l as [|x l IH]; cbn in *; lra. Qed.
Lemma sum_opposite (f : segment -> R) (l : list segment) : (forall s, f (swap s) = - f s) -> Rsum (map f (map swap l)) = - Rsum (map f l).
Proof. intros H. induction l as [|x l IH]; cbn; [lra|]. rewrite H. cbn in IH. lra. Qed.

(** * Crossings of the ray from [p] to the right, counted with their direction *)
Definition side (p a b : point) : R := (px b - px a) * (py p - py a) - (px p - px a) * (py b - py a).
Definition crossing (p : point) (s : segment) : R :=
  let (a, b) := s in
  if Rleb (py a) (py p) then
    if Rleb (py b) (py p) then 0 else if Rltb 0 (side p a b) then 1 else 0
  else
    if Rleb (py b) (py p) then if Rltb (side p a b) 0 then -1 else 0 else 0.
Lemma crossing_swap p s : crossing p (swap s) = - crossing p s.
Proof.
  destruct s as (a, b). unfold swap, crossing. cbn [fst snd]. assert (E : side p b a = - side p a b) by (unfold side; ring). rewrite E.
  destruct (Rleb (py a) (py p)), (Rleb (py b) (py p)); try lra.
  - destruct (Rltb_spec (- side p a b) 0), (Rltb_spec 0 (side p a b)); lra.
  - destruct (Rltb_spec 0 (- side p a b)), (Rltb_spec (side p a b) 0); lra.
Qed.

Definition ccw (a b c : point) : Prop := 0 < side c a b.
Definition crossings (p a b c : point) : R := crossing p (a, b) + crossing p (b, c) + crossing p (c, a).
Definition within (p a b c : point) : Prop := 0 < side p a b /\ 0 < side p b c /\ 0 < side p c a.
Definition beyond (p a b c : point) : Prop := side p a b < 0 \/ side p b c < 0 \/ side p c a < 0.

Lemma side_sum p a b c : side p b c * (py a - py p) + side p c a * (py b - py p) + side p a b * (py c - py p) = 0.
Proof. unfold side. ring. Qed.
Lemma side_total p a b c : side p a b + side p b c + side p c a = side c a b.
Proof. unfold side. ring. Qed.

Lemma one_low p a b c : ccw a b c -> py a <= py p -> py p < py b -> py p < py c ->
  (crossings p a b c = 0 \/ crossings p a b c = 1) /\ (within p a b c -> crossings p a b c = 1) /\ (beyond p a b c -> crossings p a b c = 0).
Proof.
  unfold ccw. intros O Ha Hb Hc. unfold crossings, crossing.
  rewrite (proj2 (Rleb_true (py a) (py p))), (proj2 (Rleb_false (py b) (py p))), (proj2 (Rleb_false (py c) (py p))) by lra.
  pose proof (side_sum p a b c) as E. pose proof (side_total p a b c) as T. unfold within, beyond.
  set (A := side p b c) in *. set (B := side p c a) in *. set (C := side p a b) in *. set (T0 := side c a b) in *.
  assert (K : B < 0 -> 0 < C).
  { intros HB. destruct (Rlt_le_dec 0 C) as [|HC]; [assumption|exfalso].
    assert (HA : 0 < A) by lra.
    assert (A * (py a - py p) <= 0) by nra. assert (B * (py b - py p) < 0) by nra. assert (C * (py c - py p) <= 0) by nra. lra. }
  assert (K2 : A < 0 -> 0 < C -> 0 <= B -> False).
  { intros HA HC HB. assert (0 <= A * (py a - py p)) by nra. assert (0 <= B * (py b - py p)) by nra. assert (0 < C * (py c - py p)) by nra. lra. }
  destruct (Rltb_spec 0 C) as [HC|HC], (Rltb_spec B 0) as [HB|HB].
  - split; [left; lra|]. split; [intros (_ & _ & H); lra|intros _; lra].
  - split; [right; lra|]. split; [intros _; lra|]. intros [H|[H|H]]; [lra|exfalso; apply K2; lra|lra].
  - exfalso. specialize (K HB). lra.
  - split; [left; lra|]. split; [intros (H & _ & _); lra|intros _; lra].
Qed.
Lemma one_high p a b c : ccw a b c -> py p < py a -> py b <= py p -> py c <= py p ->
  (crossings p a b c = 0 \/ crossings p a b c = 1) /\ (within p a b c -> crossings p a b c = 1) /\ (beyond p a b c -> crossings p a b c = 0).
Proof.
  unfold ccw. intros O Ha Hb Hc. unfold crossings, crossing.
  rewrite (proj2 (Rleb_false (py a) (py p))), (proj2 (Rleb_true (py b) (py p))), (proj2 (Rleb_true (py c) (py p))) by lra.
  pose proof (side_sum p a b c) as E. pose proof (side_total p a b c) as T. unfold within, beyond.
  set (A := side p b c) in *. set (B := side p c a) in *. set (C := side p a b) in *. set (T0 := side c a b) in *.
  assert (K : C < 0 -> 0 < B).
  { intros HC. destruct (Rlt_le_dec 0 B) as [|HB]; [assumption|exfalso]. assert (HA : 0 < A) by lra.
    assert (0 < A * (py a - py p)) by nra. assert (0 <= B * (py b - py p)) by nra. assert (0 <= C * (py c - py p)) by nra. lra. }
  assert (K2 : A < 0 -> 0 < B -> 0 <= C -> False).
  { intros HA HB HC. assert (A * (py a - py p) < 0) by nra. assert (B * (py b - py p) <= 0) by nra. assert (C * (py c - py p) <= 0) by nra. lra. }
  destruct (Rltb_spec 0 B) as [HB|HB], (Rltb_spec C 0) as [HC|HC].
  - split; [left; lra|]. split; [intros (H & _ & _); lra|intros _; lra].
  - split; [right; lra|]. split; [intros _; lra|]. intros [H|[H|H]]; [lra|exfalso; apply K2; lra|lra].
  - exfalso. specialize (K HC). lra.
  - split; [left; lra|]. split; [intros (_ & _ & H); lra|intros _; lra].
Qed.
Lemma crossings_turn p a b c : crossings p b c a = crossings p a b c.
Proof. unfold crossings. ring. Qed.
Lemma ccw_turn a b c : ccw a b c -> ccw b c a.
Proof. unfold ccw, side. intros H. lra. Qed.

Lemma triangle_crossings p a b c : ccw a b c ->
  (crossings p a b c = 0 \/ crossings p a b c = 1) /\ (within p a b c -> crossings p a b c = 1) /\ (beyond p a b c -> crossings p a b c = 0).
Proof.
  intros O. pose proof (ccw_turn _ _ _ O) as O1. pose proof (ccw_turn _ _ _ O1) as O2.
  assert (T1 : within p a b c <-> within p b c a) by (unfold within; tauto). assert (T2 : within p a b c <-> within p c a b) by (unfold within; tauto).
  assert (B1 : beyond p a b c <-> beyond p b c a) by (unfold beyond; tauto). assert (B2 : beyond p a b c <-> beyond p c a b) by (unfold beyond; tauto).
  assert (R1 := crossings_turn p a b c). assert (R2 : crossings p c a b = crossings p a b c) by (unfold crossings; ring).
  destruct (Rle_lt_dec (py a) (py p)) as [Ha|Ha], (Rle_lt_dec (py b) (py p)) as [Hb|Hb], (Rle_lt_dec (py c) (py p)) as [Hc|Hc].
  2: rewrite T2, B2, <- R2; apply one_high; assumption.
  2: rewrite T1, B1, <- R1; apply one_high; assumption.
  2: apply one_low; assumption.
  2: apply one_high; assumption.
  2: rewrite T1, B1, <- R1; apply one_low; assumption.
  2: rewrite T2, B2, <- R2; apply one_low; assumption.
  - assert (E : crossings p a b c = 0).
    { unfold crossings, crossing. rewrite !(proj2 (Rleb_true _ _)) by assumption. ring. }
    rewrite E. split; [left; reflexivity|]. split; [|reflexivity]. intros (H1 & H2 & H3). exfalso. pose proof (side_sum p a b c) as Sm.
    assert (Hs : side p b c * (py a - py p) <= 0) by nra. assert (Hs' : side p c a * (py b - py p) <= 0) by nra. assert (Hs'' : side p a b * (py c - py p) <= 0) by nra.
    assert (Z1 : side p b c * (py a - py p) = 0) by lra. assert (Z2 : side p c a * (py b - py p) = 0) by lra. assert (Z3 : side p a b * (py c - py p) = 0) by lra.
    apply Rmult_integral in Z1, Z2, Z3. destruct Z1 as [Z1|Z1]; [lra|]. destruct Z2 as [Z2|Z2]; [lra|]. destruct Z3 as [Z3|Z3]; [lra|].
    unfold ccw, side in O. replace (py c - py a) with 0 in O by lra. replace (py b - py a) with 0 in O by lra. lra.
  - assert (E : crossings p a b c = 0).
    { unfold crossings, crossing. rewrite !(proj2 (Rleb_false _ _)) by assumption. ring. }
    rewrite E. split; [left; reflexivity|]. split; [|reflexivity]. intros (H1 & H2 & H3). exfalso. pose proof (side_sum p a b c) as Sm.
    assert (0 < side p b c * (py a - py p)) by nra. assert (0 < side p c a * (py b - py p)) by nra. assert (0 < side p a b * (py c - py p)) by nra. lra.
Qed.
