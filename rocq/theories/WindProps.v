(** C94: wind and pressure act on the water with the right force at all times. *)
From Coq Require Import Reals List Arith Bool Lia Lra Sorted.
From Verif Require Import RealLib ArrayLib WindModel.
Import ListNotations.
Open Scope R_scope.

(** ** Loops that change one place per turn *)

Lemma loop_cells (step : (nat -> R) * (nat -> R) -> nat -> (nat -> R) * (nat -> R)) (dx dy : nat -> R) :
  (forall st k, step st k = (upd (fst st) k (fst st k + dx k), upd (snd st) k (snd st k + dy k))) ->
  forall n xm ym, let '(xm', ym') := fold_left step (seq 0 n) (xm, ym) in
  forall k, ((k < n)%nat -> xm' k = xm k + dx k /\ ym' k = ym k + dy k) /\ ((n <= k)%nat -> xm' k = xm k /\ ym' k = ym k).
Proof.
  intros H n xm ym.
  assert (G : forall l xm ym, NoDup l -> let '(xm', ym') := fold_left step l (xm, ym) in
    forall k, (In k l -> xm' k = xm k + dx k /\ ym' k = ym k + dy k) /\ (~ In k l -> xm' k = xm k /\ ym' k = ym k)).
  { clear n xm ym. induction l as [|j l IH]; intros xm ym N; cbn [fold_left]; [intros k; split; [intros []|auto]|].
    inversion N as [|? ? Nj Nl]; subst. rewrite H. cbn [fst snd].
    specialize (IH (upd xm j (xm j + dx j)) (upd ym j (ym j + dy j)) Nl). destruct (fold_left step l _) as [xm' ym'].
    intros k. destruct (IH k) as (I1 & I2). split.
    - intros [<-|Hk].
      + destruct (I2 Nj) as (-> & ->). rewrite !upd_same. auto.
      + destruct (I1 Hk) as (-> & ->). rewrite !upd_other by (intros ->; contradiction). auto.
    - intros Hk. destruct (I2 (fun K => Hk (or_intror K))) as (-> & ->). rewrite !upd_other by (intros ->; apply Hk; left; reflexivity). auto. }
  specialize (G (seq 0 n) xm ym (seq_NoDup n 0)). destruct (fold_left step _ _) as [xm' ym']. intros k. destruct (G k) as (G1 & G2). split; intros Hk.
  - apply G1, in_seq. lia.
  - apply G2. intros K. apply in_seq in K. lia.
Qed.

(** ** Wind *)

(** The wind adds [const * s * |s|] in the direction [phi] to the momentum of
    every triangle, and nothing else. *)
Theorem C94_wind :
  forall s phi n t centroid xmom ymom,
  let '(xmom', ymom') := wind_stress s phi n t centroid xmom ymom in
  forall k,
  let sp := match s with Number x => x | Field g => g t (fst (centroid k)) (snd (centroid k)) end in
  let ph := match phi with Number x => x | Field g => g t (fst (centroid k)) (snd (centroid k)) end in
  ((k < n)%nat -> xmom' k = xmom k + wind_const * (Rabs sp * sp) * cos (ph * PI / 180) /\
                  ymom' k = ymom k + wind_const * (Rabs sp * sp) * sin (ph * PI / 180) /\
                  (xmom' k - xmom k) ^ 2 + (ymom' k - ymom k) ^ 2 = (wind_const * sp ^ 2) ^ 2) /\
  ((n <= k)%nat -> xmom' k = xmom k /\ ymom' k = ymom k).
Proof.
  intros s phi n t centroid xmom ymom. unfold wind_stress, assign_windfield.
  pose proof (loop_cells (wind_cell wind_const (values s t centroid) (values phi t centroid))
    (fun k => wind_const * (Rabs (values s t centroid k) * values s t centroid k) * cos (values phi t centroid k * PI / 180))
    (fun k => wind_const * (Rabs (values s t centroid k) * values s t centroid k) * sin (values phi t centroid k * PI / 180))) as L.
  assert (St : forall st k, wind_cell wind_const (values s t centroid) (values phi t centroid) st k =
    (upd (fst st) k (fst st k + wind_const * (Rabs (values s t centroid k) * values s t centroid k) * cos (values phi t centroid k * PI / 180)),
     upd (snd st) k (snd st k + wind_const * (Rabs (values s t centroid k) * values s t centroid k) * sin (values phi t centroid k * PI / 180)))).
  { intros [xm ym] k. unfold wind_cell. cbn [fst snd]. set (sp := values s t centroid k). set (ph := values phi t centroid k * PI / 180).
    assert (E : sqrt (sp * cos ph * (sp * cos ph) + sp * sin ph * (sp * sin ph)) = Rabs sp).
    { replace (sp * cos ph * (sp * cos ph) + sp * sin ph * (sp * sin ph)) with (Rsqr sp * (Rsqr (sin ph) + Rsqr (cos ph))) by (unfold Rsqr; ring).
      rewrite sin2_cos2, Rmult_1_r. apply sqrt_Rsqr_abs. }
    rewrite E. f_equal; f_equal; ring. }
  specialize (L St n xmom ymom). destruct (fold_left _ _ _) as [xm' ym']. intros k. cbv zeta. destruct (L k) as (L1 & L2).
  assert (V : forall f, match f with Number x => x | Field g => g t (fst (centroid k)) (snd (centroid k)) end = values f t centroid k).
  { intros [x|g]; cbn; ring. }
  rewrite !V. split; [|exact L2]. intros Hk. destruct (L1 Hk) as (E1 & E2). split; [exact E1|]. split; [exact E2|].
  rewrite E1, E2. set (sp := values s t centroid k). set (ph := values phi t centroid k * PI / 180).
  replace ((xmom k + wind_const * (Rabs sp * sp) * cos ph - xmom k) ^ 2 + (ymom k + wind_const * (Rabs sp * sp) * sin ph - ymom k) ^ 2)
    with ((wind_const * sp) ^ 2 * (Rabs sp * Rabs sp) * (Rsqr (sin ph) + Rsqr (cos ph))) by (unfold Rsqr; ring).
  rewrite sin2_cos2. replace (Rabs sp * Rabs sp) with (sp * sp) by (rewrite <- Rabs_mult; symmetry; apply Rabs_right; pose proof (Rle_0_sqr sp) as K; unfold Rsqr in K; lra).
  ring.
Qed.
Print Assumptions C94_wind.

(** ** Pressure *)

(** A triangle of the mesh with its three nodes, not flat. *)
Definition sound_triangle (node vertex : nat -> R * R) (triangle : nat -> nat * nat * nat) (k : nat) : Prop :=
  let '(a, b, c) := triangle k in
  vertex (3 * k)%nat = node a /\ vertex (3 * k + 1)%nat = node b /\ vertex (3 * k + 2)%nat = node c /\
  (fst (node b) - fst (node a)) * (snd (node c) - snd (node a)) - (fst (node c) - fst (node a)) * (snd (node b) - snd (node a)) <> 0.

(** The gradient of the pressure is exact where the pressure is linear on a
    triangle: the momentum there changes by depth times gradient over density. *)
Theorem C94_pressure :
  forall p n t node stage bed vertex triangle xmom ymom c0 gx gy k, (k < n)%nat -> sound_triangle node vertex triangle k ->
  (let '(a, b, c) := triangle k in forall i, i = a \/ i = b \/ i = c -> values p t node i = c0 + gx * fst (node i) + gy * snd (node i)) ->
  let '(xmom', ymom') := barometric p n t node stage bed vertex triangle xmom ymom in
  xmom' k = xmom k + (stage k - bed k) * gx / rho_w /\ ymom' k = ymom k + (stage k - bed k) * gy / rho_w.
Proof.
  intros p n t node stage bed vertex triangle xmom ymom c0 gx gy k Hk Snd Lin. unfold barometric, assign_pressure.
  set (grad := fun j => let '(a, b, c) := triangle j in
    gradient (fst (vertex (3 * j)%nat)) (snd (vertex (3 * j)%nat)) (fst (vertex (3 * j + 1)%nat)) (snd (vertex (3 * j + 1)%nat))
      (fst (vertex (3 * j + 2)%nat)) (snd (vertex (3 * j + 2)%nat)) (values p t node a) (values p t node b) (values p t node c)).
  pose proof (loop_cells (pressure_cell (fun k => stage k - bed k) (values p t node) vertex triangle)
    (fun j => (stage j - bed j) * fst (grad j) / rho_w) (fun j => (stage j - bed j) * snd (grad j) / rho_w)) as L.
  assert (St : forall st j, pressure_cell (fun k => stage k - bed k) (values p t node) vertex triangle st j =
    (upd (fst st) j (fst st j + (stage j - bed j) * fst (grad j) / rho_w), upd (snd st) j (snd st j + (stage j - bed j) * snd (grad j) / rho_w))).
  { intros [xm ym] j. unfold pressure_cell, grad. destruct (triangle j) as [[a b] c].
    destruct (vertex (3 * j)%nat) as [x0 y0], (vertex (3 * j + 1)%nat) as [x1 y1], (vertex (3 * j + 2)%nat) as [x2 y2]. cbn [fst snd].
    unfold gradient. reflexivity. }
  specialize (L St n xmom ymom). destruct (fold_left _ _ _) as [xm' ym']. destruct (L k) as (L1 & _). destruct (L1 Hk) as (-> & ->).
  assert (G : grad k = (gx, gy)).
  { unfold grad. unfold sound_triangle in Snd. destruct (triangle k) as [[a b] c]. destruct Snd as (-> & -> & -> & D).
    rewrite !Lin by auto. unfold gradient. destruct (node a) as [x0 y0], (node b) as [x1 y1], (node c) as [x2 y2]. cbn [fst snd] in *.
    f_equal; field; lra. }
  rewrite G. auto.
Qed.
Print Assumptions C94_pressure.

(** ** Values between the times of a file *)

Definition increasing (times : list R) : Prop := forall i j a b, (i < j)%nat -> nth_error times i = Some a -> nth_error times j = Some b -> a < b.
(** The function follows the straight line between neighbouring times. *)
Definition straight (times : list R) (F : R -> R) : Prop :=
  forall i a b t, nth_error times i = Some a -> nth_error times (i + 1) = Some b -> a <= t <= b -> F t = F a + (t - a) / (b - a) * (F b - F a).

(** The object holds the values of the ends of its interval. *)
Definition holds (times : list R) (F : R -> R) (s : stored) (t : R) : Prop :=
  exists a b, nth_error times (index s) = Some a /\ nth_error times (index s + 1) = Some b /\ prev s = F a /\ next s = F b /\ a <= t.

Lemma advance_holds times F t : forall fuel s t0, increasing times -> holds times F s t0 -> t0 <= t ->
  (length times <= fuel + index s)%nat -> (exists z, nth_error times (length times - 1) = Some z /\ t <= z) ->
  exists s', advance fuel times F t s = inr s' /\ holds times F s' t /\ exists b, nth_error times (index s' + 1) = Some b /\ t <= b.
Proof.
  induction fuel as [|fuel IH]; intros s t0 Inc (a & b & Ea & Eb & Pa & Pb & Ha) Ht Hf (z & Ez & Hz).
  { assert (index s < length times)%nat by (apply nth_error_Some; rewrite Ea; discriminate). cbn in Hf. lia. }
  cbn [advance]. unfold time_at. rewrite Eb. destruct (Rltb_spec b t) as [Lt|Le].
  - assert (Hi : (index s + 1 < length times - 1)%nat).
    { assert (index s + 1 < length times)%nat by (apply nth_error_Some; rewrite Eb; discriminate).
      assert (index s + 1 <> length times - 1)%nat; [|lia]. intros K. rewrite K, Ez in Eb. injection Eb as ->. lra. }
    destruct (nth_error times (index s + 2)) as [e'|] eqn:Ee; [|apply nth_error_None in Ee; lia].
    apply (IH _ b); auto; try lra.
    + exists b, e'. cbn [index prev next]. rewrite <- Nat.add_assoc. split; [exact Eb|]. split; [exact Ee|]. repeat split; auto. lra.
    + cbn [index]. lia.
    + exists z. auto.
  - exists s. split; [reflexivity|]. split; [exists a, b; repeat split; auto; lra|]. exists b. split; [exact Eb|]. lra.
Qed.

Lemma value_exact times F t s t0 z : increasing times -> straight times F -> holds times F s t0 -> t0 <= t ->
  nth_error times (length times - 1) = Some z -> t <= z -> exists s', fast_value times F t s = inr (F t, s') /\ holds times F s' t.
Proof.
  intros Inc Str H Ht Ez Hz. destruct (advance_holds times F t (S (length times)) s t0 Inc H Ht ltac:(lia) (ex_intro _ z (conj Ez Hz))) as (s' & Ea & H' & b' & Eb' & Hb').
  exists s'. split; [|exact H']. unfold fast_value. rewrite Ea. destruct H' as (a & b & E1 & E2 & P1 & P2 & Ha). unfold time_at. rewrite E1, E2.
  rewrite E2 in Eb'. injection Eb' as <-. rewrite P1, P2. rewrite (Str _ a b t E1 E2); auto.
Qed.

(** Called at times that do not go back, the object gives the values of the
    function of the file. *)
Theorem C94_forward :
  forall times F ts s start, increasing times -> straight times F -> create_stored times F start = inr s ->
  Sorted Rle (start :: ts) -> (exists z, nth_error times (length times - 1) = Some z /\ forall t, In t ts -> t <= z) ->
  fast_values times F ts s = inr (map F ts).
Proof.
  intros times F ts s start Inc Str Cr So (z & Ez & Hz).
  assert (H : holds times F s start).
  { unfold create_stored in Cr. destruct times as [|first rest]; [discriminate|]. set (times := first :: rest) in *.
    destruct (nth_error times (length times - 2)); [|discriminate]. destruct (Rltb_spec start first) as [|Hf]; [discriminate|].
    destruct (Rltb _ _); [discriminate|]. destruct (_ && _); [discriminate|].
    assert (B : forall l i found, (forall m, nth_error l m = nth_error times (i + m)) -> (exists a, nth_error times found = Some a /\ a <= start) ->
      exists a, nth_error times (start_index l start i found) = Some a /\ a <= start).
    { induction l as [|x l IH]; intros i found Hl Hfd; cbn [start_index]; [exact Hfd|]. destruct (Rltb_spec x start) as [Hx|Hx]; [|exact Hfd].
      apply IH.
      - intros m. specialize (Hl (S m)). cbn in Hl. rewrite Hl. f_equal. lia.
      - exists x. specialize (Hl 0%nat). cbn in Hl. rewrite Nat.add_0_r in Hl. split; [auto|lra]. }
    destruct (B times 0%nat 0%nat) as (a & Ea & Ha); [reflexivity|exists first; split; [reflexivity|lra]|].
    unfold time_at in Cr. rewrite Ea in Cr. destruct (nth_error times (start_index times start 0 0 + 1)) as [b|] eqn:Eb; [|discriminate].
    injection Cr as <-. exists a, b. auto. }
  clear Cr. revert s start H So Hz. induction ts as [|t ts IH]; intros s start H So Hz; [reflexivity|].
  inversion So as [|? ? So' Hd]; subst. inversion Hd; subst.
  destruct (value_exact times F t s start z Inc Str H) as (s' & E & H'); [assumption|assumption|apply Hz; left; reflexivity|].
  cbn [fast_values]. rewrite E, (IH s' t H' So'); [reflexivity|]. intros x Hx. apply Hz. right. exact Hx.
Qed.
Print Assumptions C94_forward.

(** After the end of the file there is an error, not a value. *)
Lemma advance_end times F t z : increasing times -> nth_error times (length times - 1) = Some z -> z < t ->
  forall fuel s, exists e, advance fuel times F t s = inl e.
Proof.
  intros Inc Ez Hz. induction fuel as [|fuel IH]; intros s; cbn [advance]; [eexists; reflexivity|]. unfold time_at.
  destruct (nth_error times (index s + 1)) as [e|] eqn:Ee; [|eexists; reflexivity].
  assert (Le : e <= z).
  { assert (index s + 1 < length times)%nat by (apply nth_error_Some; rewrite Ee; discriminate).
    destruct (Nat.eq_dec (index s + 1) (length times - 1)) as [K|K]; [rewrite K, Ez in Ee; injection Ee as ->; lra|].
    left. apply (Inc (index s + 1)%nat (length times - 1)%nat); auto. lia. }
  destruct (Rltb_spec e t); [|lra]. destruct (nth_error times (index s + 2)); [apply IH|eexists; reflexivity].
Qed.

Theorem C94_end :
  forall times F t s z, increasing times -> nth_error times (length times - 1) = Some z -> z < t -> exists e, fast_value times F t s = inl e.
Proof.
  intros times F t s z Inc Ez Hz. unfold fast_value. destruct (advance_end times F t z Inc Ez Hz (S (length times)) s) as (e & ->). exists e. reflexivity.
Qed.
Print Assumptions C94_end.

(** ** What goes wrong *)

(** The pressure pushes the water towards the high pressure: the acceleration of
    the column, [- depth * gradient / density] with the gradient in Pa/m (100 times
    that in hPa/m, the documented unit), is minus 100 times what is added.  Where the
    surface already balances the pressure, the two forces add up instead. *)
Definition physical (depth gradient_hPa : R) : R := - depth * (100 * gradient_hPa) / rho_w.

Theorem C94_pressure_sign_refuted :
  forall p n t node stage bed vertex triangle xmom ymom c0 gx k, (k < n)%nat -> sound_triangle node vertex triangle k ->
  (let '(a, b, c) := triangle k in forall i, i = a \/ i = b \/ i = c -> values p t node i = c0 + gx * fst (node i) + 0 * snd (node i)) ->
  bed k < stage k -> 0 < gx ->
  let '(xmom', _) := barometric p n t node stage bed vertex triangle xmom ymom in
  0 < xmom' k - xmom k /\ physical (stage k - bed k) gx = - 100 * (xmom' k - xmom k).
Proof.
  intros p n t node stage bed vertex triangle xmom ymom c0 gx k Hk Snd Lin Hd Hg.
  pose proof (C94_pressure p n t node stage bed vertex triangle xmom ymom c0 gx 0 k Hk Snd Lin) as P.
  destruct (barometric p n t node stage bed vertex triangle xmom ymom) as [xm' ym']. destruct P as (P & _).
  assert (E : xm' k - xmom k = (stage k - bed k) * gx / rho_w) by lra. rewrite E. unfold physical, rho_w. split; [|field].
  apply Rdiv_lt_0_compat; [apply Rmult_lt_0_compat; lra|lra].
Qed.
Print Assumptions C94_pressure_sign_refuted.

(** The density of the air is given in other units than that of water: with 1.2
    kg/m^3 the wind would be a thousand times stronger. *)
Theorem C94_density_refuted : eta_w * (12 / 10) / rho_w = 1000 * wind_const.
Proof. unfold wind_const, eta_w, rho_a, rho_w. lra. Qed.
Print Assumptions C94_density_refuted.

(** A Runge-Kutta step of third order asks at t, t + dt and t + dt/2
    (generic_domain.py 2060-2160): if a time of the file lies between the last
    two, the third value is extrapolated from the wrong interval. *)
Definition tent (t : R) : R := 1 - Rabs (t - 1).

Lemma tent_straight : increasing [0; 1; 2] /\ straight [0; 1; 2] tent.
Proof.
  split.
  - intros i j a b Hij Ei Ej. destruct i as [|[|[|[|i]]]], j as [|[|[|[|j]]]]; cbn in Ei, Ej; try discriminate; try lia; injection Ei as <-; injection Ej as <-; lra.
  - intros i a b t Ei Ej Ht. destruct i as [|[|[|[|i]]]]; cbn in Ei, Ej; try discriminate; injection Ei as <-; injection Ej as <-; unfold tent.
    + rewrite (Rabs_left1 (t - 1)), (Rabs_left1 (0 - 1)), (Rabs_right (1 - 1)) by lra. field.
    + rewrite (Rabs_right (t - 1)), (Rabs_right (2 - 1)), (Rabs_right (1 - 1)) by lra. field.
Qed.

Theorem C94_rk3_refuted :
  increasing [0; 1; 2] /\ straight [0; 1; 2] tent /\
  exists s, create_stored [0; 1; 2] tent (1 / 2) = inr s /\
  exists v, fast_values [0; 1; 2] tent [1 / 2; 1 / 2 + 8 / 10; 1 / 2 + (8 / 10) / 2] s = inr [tent (1 / 2); tent (1 / 2 + 8 / 10); v] /\
  v = 11 / 10 /\ tent (1 / 2 + (8 / 10) / 2) = 9 / 10.
Proof.
  split; [apply tent_straight|]. split; [apply tent_straight|].
  assert (T0 : tent 0 = 0) by (unfold tent; rewrite Rabs_left1; lra). assert (T1 : tent 1 = 1) by (unfold tent; rewrite Rabs_right; lra).
  assert (T2 : tent 2 = 0) by (unfold tent; rewrite Rabs_right; lra).
  exists {| index := 0; prev := tent 0; next := tent 1 |}. split.
  { unfold create_stored, time_at. cbn [nth_error length Nat.sub last start_index Nat.add].
    rewrite (proj2 (Rltb_false (1/2) 0)), (proj2 (Rltb_false 2 (1/2))), (proj2 (Rltb_false 1 (1/2))), (proj2 (Rltb_true 0 (1/2))) by lra.
    cbn [andb nth_error Nat.add]. reflexivity. }
  exists (11 / 10). split; [|split; [reflexivity|unfold tent; rewrite Rabs_left1; lra]].
  set (s0 := {| index := 0; prev := tent 0; next := tent 1 |}). set (s1 := {| index := 1; prev := tent 1; next := tent 2 |}).
  assert (V1 : fast_value [0; 1; 2] tent (1/2) s0 = inr (tent (1/2), s0)).
  { unfold fast_value, time_at. cbn [length advance s0 index Nat.add nth_error time_at]. rewrite (proj2 (Rltb_false 1 (1/2))) by lra. cbn [index Nat.add nth_error prev next].
    cbv zeta. apply f_equal, f_equal2; [|reflexivity]. unfold s0. cbn [prev next]. rewrite T0, T1. unfold tent. rewrite Rabs_left1 by lra. field. }
  assert (V2 : fast_value [0; 1; 2] tent (1/2 + 8/10) s0 = inr (tent (1/2 + 8/10), s1)).
  { unfold fast_value, time_at. cbn [length advance s0 index Nat.add nth_error time_at]. rewrite (proj2 (Rltb_true 1 (1/2 + 8/10))) by lra. cbn [advance time_at nth_error index Nat.add prev next].
    rewrite (proj2 (Rltb_false 2 (1/2 + 8/10))) by lra. cbn [index Nat.add nth_error prev next]. cbv zeta. apply f_equal, f_equal2; [|reflexivity].
    unfold s0. cbn [prev next]. rewrite T1, T2. unfold tent. rewrite Rabs_right by lra. field. }
  assert (V3 : fast_value [0; 1; 2] tent (1/2 + (8/10)/2) s1 = inr (11/10, s1)).
  { unfold fast_value, time_at. cbn [length advance s1 index Nat.add nth_error time_at]. rewrite (proj2 (Rltb_false 2 (1/2 + (8/10)/2))) by lra.
    cbn [index Nat.add nth_error prev next]. cbv zeta. apply f_equal, f_equal2; [|reflexivity]. unfold s1. cbn [prev next]. rewrite T1, T2. field. }
  cbn [fast_values]. rewrite V1, V2, V3. reflexivity.
Qed.
Print Assumptions C94_rk3_refuted.

(** A start in the last interval of the file is refused, although there are
    values for it. *)
Theorem C94_last_interval_refuted :
  forall F, increasing [0; 1] /\ create_stored [0; 1] F (1 / 2) = inl LastInterval.
Proof.
  intros F. split.
  - intros i j a b Hij Ei Ej. destruct i as [|[|[|i]]], j as [|[|[|j]]]; cbn in Ei, Ej; try discriminate; try lia; injection Ei as <-; injection Ej as <-; lra.
  - unfold create_stored. cbn [nth_error length Nat.sub last].
    rewrite (proj2 (Rltb_false (1/2) 0)), (proj2 (Rltb_false 1 (1/2))), (proj2 (Rltb_true 0 (1/2))), (proj2 (Rltb_true (1/2) 1)) by lra. reflexivity.
Qed.
Print Assumptions C94_last_interval_refuted.

(** Halfway between the directions 350 and 10 degrees the wind blows backwards. *)
Theorem C94_angle_refuted :
  exists s, fast_value [0; 1] (fun t => 350 + t * (10 - 350)) (1 / 2) {| index := 0; prev := 350; next := 10 |} = inr (180, s) /\
  cos (180 * PI / 180) = - 1.
Proof.
  exists {| index := 0; prev := 350; next := 10 |}. split.
  - unfold fast_value, time_at. cbn [length advance index Nat.add nth_error time_at]. rewrite (proj2 (Rltb_false 1 (1/2))) by lra.
    cbn [index Nat.add nth_error prev next]. cbv zeta. apply f_equal, f_equal2; [field|reflexivity].
  - replace (180 * PI / 180) with PI by field. apply cos_PI.
Qed.
Print Assumptions C94_angle_refuted.

(** Documented ways to create the objects that fail: a constant pressure, and for
    the fast classes every form but one. *)
Theorem C94_create_refuted :
  create_pressure OneNumber = UnboundName /\ create_pressure_fast OneNumber = UnboundName /\ create_pressure_fast OneFunction = UnboundName /\
  create_pressure_fast OneFunctionFile = NotIndexable /\ create_wind_fast TwoFields = UnboundName /\ create_wind_fast OneFunction = UnboundName /\
  create_wind_fast Keywords = UnboundName.
Proof. repeat split. Qed.
Print Assumptions C94_create_refuted.

(** A triangle on which the pressure rises, and a file that can be followed. *)
Example C94_case :
  sound_triangle (fun i => nth i [(0, 0); (1, 0); (0, 1)] (0, 0)) (fun i => nth i [(0, 0); (1, 0); (0, 1)] (0, 0)) (fun _ => (0, 1, 2)%nat) 0 /\
  (exists s, create_stored [0; 1; 2] tent 0 = inr s) /\ Sorted Rle [0; 1 / 2; 3 / 2; 2].
Proof.
  split; [cbn; repeat split; lra|]. split.
  - unfold create_stored, time_at. cbn [nth_error length Nat.sub last start_index Nat.add].
    rewrite (proj2 (Rltb_false 0 0)), (proj2 (Rltb_false 2 0)), (proj2 (Rltb_false 1 0)) by lra. cbn [andb start_index nth_error Nat.add]. eexists. reflexivity.
  - repeat constructor; lra.
Qed.
