(** Lemmas for [AdvectionProps]. *)
From Coq Require Import Reals List ZArith Arith Bool Lia Lra Psatz.
From Verif Require Import RealLib ArrayLib CentroidModel AdvectionModel.
Import ListNotations.
Local Open Scope R_scope.

Section Fluxes.
Variable D : adomain.
Variables edge bdry : nat -> R.
Variable huge : R.

Definition flux_sum (k : nat) : R :=
  - (edge_flux D edge bdry (3 * k + 0) * a_edgelengths D (3 * k + 0)) -
    edge_flux D edge bdry (3 * k + 1) * a_edgelengths D (3 * k + 1) -
    edge_flux D edge bdry (3 * k + 2) * a_edgelengths D (3 * k + 2).

Lemma cell_fluxes_flux k : fst (cell_fluxes D edge bdry huge k) = flux_sum k.
Proof. unfold cell_fluxes, flux_sum. cbn [fold_left edge_step fst]. ring. Qed.

Lemma min_as_if a b : (if Rltb a b then a else b) = Rmin b a.
Proof. destruct (Rltb_spec a b); [rewrite Rmin_right; lra | rewrite Rmin_left; lra]. Qed.

Definition speed_limit (k i : nat) (optimal : R) : R :=
  if Z.eqb (a_full D k) 1 then
    if Reqb (Rabs (normal_velocity D (3 * k + i))) 0 then optimal
    else Rmin optimal (a_radii D k / Rabs (normal_velocity D (3 * k + i)))
  else optimal.

Lemma edge_step_snd k st i : snd (edge_step D edge bdry k st i) = speed_limit k i (snd st).
Proof.
  destruct st as [f o]. unfold edge_step, speed_limit. cbn [snd].
  destruct (Z.eqb (a_full D k) 1); [| reflexivity].
  destruct (Reqb (Rabs (normal_velocity D (3 * k + i))) 0); cbn [negb]; [reflexivity |]. apply min_as_if.
Qed.
Lemma cell_fluxes_step k :
  snd (cell_fluxes D edge bdry huge k) = speed_limit k 2 (speed_limit k 1 (speed_limit k 0 huge)).
Proof. unfold cell_fluxes. cbn [fold_left]. now rewrite !edge_step_snd. Qed.

Lemma speed_limit_le k i o : speed_limit k i o <= o.
Proof.
  unfold speed_limit. destruct (Z.eqb (a_full D k) 1); [| lra].
  destruct (Reqb (Rabs (normal_velocity D (3 * k + i))) 0); [lra | apply Rmin_l].
Qed.
Lemma speed_limit_bound k i o : a_full D k = 1%Z -> normal_velocity D (3 * k + i) <> 0 ->
  speed_limit k i o <= a_radii D k / Rabs (normal_velocity D (3 * k + i)).
Proof.
  intros Hf Hv. unfold speed_limit. rewrite Hf. cbn [Z.eqb Pos.eqb].
  rewrite (proj2 (Reqb_false _ _)) by (now apply Rabs_no_R0). apply Rmin_r.
Qed.

Definition cell_limit (k : nat) : R := snd (cell_fluxes D edge bdry huge k).

Lemma tri_fold ks : forall u t, NoDup ks ->
  let r := fold_left (tri_step D edge bdry huge) ks (u, t) in
  (forall k, fst r k = if in_dec Nat.eq_dec k ks then flux_sum k / a_areas D k else u k) /\
  snd r = fold_left Rmin (map cell_limit ks) t.
Proof.
  induction ks as [| a ks IH]; intros u t ND; cbn [fold_left map].
  - split; [| reflexivity]. intros k. now destruct (in_dec _ _ _).
  - inversion ND; subst. unfold tri_step at 2 4.
    assert (E : cell_fluxes D edge bdry huge a = (flux_sum a, cell_limit a)).
    { unfold cell_limit. rewrite <- cell_fluxes_flux. apply surjective_pairing. }
    rewrite E. cbn zeta. rewrite min_as_if.
    destruct (IH (upd u a (flux_sum a / a_areas D a)) (Rmin t (cell_limit a)) H2) as [I1 I2].
    split; [| exact I2]. intros k. rewrite I1.
    destruct (in_dec Nat.eq_dec k ks) as [i | n], (in_dec Nat.eq_dec k (a :: ks)) as [i' | n']; try reflexivity.
    + exfalso. apply n'. now right.
    + destruct i' as [-> | i']; [now rewrite upd_same | contradiction].
    + apply upd_other. intros ->. apply n'. now left.
Qed.

Lemma compute_fluxes_update mt u k : (k < a_n D)%nat ->
  fst (compute_fluxes D edge bdry huge mt u) k = flux_sum k / a_areas D k.
Proof.
  intros H. unfold compute_fluxes. rewrite (proj1 (tri_fold (seq 0 (a_n D)) u mt (seq_NoDup _ _))).
  destruct (in_dec _ _ _) as [i | n]; [reflexivity |]. exfalso. apply n, in_seq. lia.
Qed.
Lemma compute_fluxes_step mt u :
  snd (compute_fluxes D edge bdry huge mt u) = fold_left Rmin (map cell_limit (seq 0 (a_n D))) mt.
Proof. apply (proj2 (tri_fold (seq 0 (a_n D)) u mt (seq_NoDup _ _))). Qed.
End Fluxes.

Lemma fold_min_le l : forall t, fold_left Rmin l t <= t /\ forall x, In x l -> fold_left Rmin l t <= x.
Proof.
  induction l as [| a l IH]; intros t; cbn [fold_left].
  - split; [lra | contradiction].
  - destruct (IH (Rmin t a)) as [I1 I2]. split.
    + eapply Rle_trans; [exact I1 | apply Rmin_l].
    + intros x [<- | Hx]; [eapply Rle_trans; [exact I1 | apply Rmin_r] | now apply I2].
Qed.
Lemma fold_min_attained l : forall t, fold_left Rmin l t = t \/ In (fold_left Rmin l t) l.
Proof.
  induction l as [| a l IH]; intros t; cbn [fold_left]; [now left |].
  destruct (IH (Rmin t a)) as [E | H]; [| right; now right].
  rewrite E. unfold Rmin. destruct (Rle_dec t a); [now left | right; now left].
Qed.

Lemma map2_nth {A B C} (f : A -> B -> C) da db dc : forall xs ys k, (k < length xs)%nat -> length ys = length xs ->
  nth k (map2 f xs ys) dc = f (nth k xs da) (nth k ys db).
Proof.
  induction xs as [| x xs IH]; intros [| y ys] k Hk E; cbn in *; try lia.
  destruct k; [reflexivity |]. apply IH; lia.
Qed.
Lemma map2_length {A B C} (f : A -> B -> C) : forall xs ys, length ys = length xs -> length (map2 f xs ys) = length xs.
Proof. induction xs as [| x xs IH]; intros [| y ys] E; cbn in *; try lia. now rewrite IH by lia. Qed.

Lemma semi_loop_zero dt : forall xs zs, length zs = length xs -> (forall z, In z zs -> z = 0) ->
  semi_implicit_loop dt xs zs = (xs, true).
Proof.
  induction xs as [| x xs IH]; intros [| z zs] E H; cbn in *; try lia; [reflexivity |].
  rewrite (H z) by now left. replace (1 - dt * 0) with 1 by ring.
  rewrite (proj2 (Rleb_false 1 0)) by lra. rewrite IH; [| lia | intros; apply H; now right].
  f_equal. f_equal. field.
Qed.

Lemma update_zero dt q es : length es = length q ->
  update dt q es (map (fun _ => 0) q) = (map2 (fun x e => x + dt * e) q es, map (fun _ => 0) q, 0%Z).
Proof.
  intros E. unfold update.
  assert (Z : forall l : list R, map2 divide_semi l (map (fun _ => 0) l) = map (fun _ => 0) l).
  { induction l as [| x l IH]; cbn; [reflexivity |]. rewrite IH. f_equal. unfold divide_semi.
    destruct (Reqb_spec x 0); [reflexivity | field; assumption]. }
  rewrite Z. rewrite semi_loop_zero.
  - now rewrite map_map.
  - rewrite map_length, map2_length; lia.
  - intros z Hz. apply in_map_iff in Hz as (y & <- & _). reflexivity.
Qed.

Lemma euler_length D b dt q : length (euler D b dt q) = length q.
Proof.
  unfold euler. rewrite update_zero by (unfold explicit_update; now rewrite map_length, seq_length).
  cbn [fst]. apply map2_length. unfold explicit_update. now rewrite map_length, seq_length.
Qed.
Lemma euler_nth D b dt q k : length q = a_n D -> (k < a_n D)%nat ->
  nth k (euler D b dt q) 0 = nth k q 0 + dt * (flux_sum D (first_order_edges q) b k / a_areas D k).
Proof.
  intros E Hk. unfold euler.
  rewrite update_zero by (unfold explicit_update; now rewrite map_length, seq_length). cbn [fst].
  rewrite (map2_nth _ 0 0) by (unfold explicit_update; rewrite ?map_length, ?seq_length; lia).
  f_equal. f_equal. unfold explicit_update. rewrite E.
  rewrite nth_indep with (d' := fst (compute_fluxes D (first_order_edges q) b 0 0 (fun _ => 0)) 0%nat)
    by (rewrite map_length, seq_length; lia).
  rewrite map_nth, seq_nth by lia. cbn [plus]. now apply compute_fluxes_update.
Qed.

Lemma first_order_edges_at q k i : (i < 3)%nat -> first_order_edges q (3 * k + i) = nth k q 0.
Proof.
  intros H. unfold first_order_edges.
  replace ((3 * k + i) / 3)%nat with k; [reflexivity |].
  rewrite Nat.mul_comm, Nat.div_add_l by lia. rewrite Nat.div_small by lia. lia.
Qed.

(** The update of one triangle as a convex combination. *)
Lemma upwind_combination q r0 r1 r2 w0 w1 w2 lam m M :
  (* w_i: outward normal velocity times length; lam: dt / area *)
  w0 + w1 + w2 = 0 -> 0 <= lam ->
  lam * (Rmax 0 (- w0) + Rmax 0 (- w1) + Rmax 0 (- w2)) <= 1 ->
  m <= q <= M -> m <= r0 <= M -> m <= r1 <= M -> m <= r2 <= M ->
  m <= q + lam * (- ((if Rltb w0 0 then r0 * w0 else q * w0)) - (if Rltb w1 0 then r1 * w1 else q * w1)
                  - (if Rltb w2 0 then r2 * w2 else q * w2)) <= M.
Proof.
  intros W Hl HL Hq H0 H1 H2.
  set (p0 := Rmax 0 (- w0)) in *. set (p1 := Rmax 0 (- w1)) in *. set (p2 := Rmax 0 (- w2)) in *.
  assert (P0 : 0 <= p0) by apply Rmax_l. assert (P1 : 0 <= p1) by apply Rmax_l. assert (P2 : 0 <= p2) by apply Rmax_l.
  assert (E : forall w r, (if Rltb w 0 then r * w else q * w) = q * w - Rmax 0 (- w) * (r - q)).
  { intros w r. destruct (Rltb_spec w 0).
    - rewrite (Rmax_right 0 (- w)) by lra. ring.
    - rewrite (Rmax_left 0 (- w)) by lra. ring. }
  rewrite (E w0), (E w1), (E w2). fold p0 p1 p2.
  replace (q + lam * (- (q * w0 - p0 * (r0 - q)) - (q * w1 - p1 * (r1 - q)) - (q * w2 - p2 * (r2 - q))))
    with ((1 - lam * (p0 + p1 + p2)) * q + lam * p0 * r0 + lam * p1 * r1 + lam * p2 * r2 - lam * q * (w0 + w1 + w2)) by ring.
  rewrite W.
  set (a0 := lam * p0). set (a1 := lam * p1). set (a2 := lam * p2).
  assert (A0 : 0 <= a0) by (apply Rmult_le_pos; assumption).
  assert (A1 : 0 <= a1) by (apply Rmult_le_pos; assumption).
  assert (A2 : 0 <= a2) by (apply Rmult_le_pos; assumption).
  replace (lam * (p0 + p1 + p2)) with (a0 + a1 + a2) in * by (unfold a0, a1, a2; ring).
  clearbody a0 a1 a2. clear E W p0 p1 p2 P0 P1 P2.
  set (c := 1 - (a0 + a1 + a2)). assert (0 <= c) by (unfold c; lra).
  assert (Ec : c + a0 + a1 + a2 = 1) by (unfold c; ring). clearbody c.
  assert (B : forall a x, 0 <= a -> m <= x <= M -> a * m <= a * x <= a * M).
  { intros a x Ha Hx. split; apply Rmult_le_compat_l; lra. }
  pose proof (B c q H Hq). pose proof (B a0 r0 A0 H0). pose proof (B a1 r1 A1 H1). pose proof (B a2 r2 A2 H2).
  assert (m = (c + a0 + a1 + a2) * m) by (rewrite Ec; ring).
  assert (M = (c + a0 + a1 + a2) * M) by (rewrite Ec; ring). nra.
Qed.

Lemma inflow_half w0 w1 w2 : w0 + w1 + w2 = 0 ->
  2 * (Rmax 0 (- w0) + Rmax 0 (- w1) + Rmax 0 (- w2)) = Rabs w0 + Rabs w1 + Rabs w2.
Proof.
  intros W. unfold Rmax, Rabs. repeat destruct (Rle_dec _ _); repeat destruct (Rcase_abs _); lra.
Qed.
