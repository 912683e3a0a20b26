(** C67: the implicit step of the kinematic viscosity operator. *)
From Coq Require Import Reals Lra Lia ZArith Arith List Bool Permutation.
From Verif Require Import RealLib ListLib ArrayLib SparseModel CGModel CGProofs CGProps FluxProofs KinematicModel KinematicProofs KinematicProps.
Import ListNotations.
Open Scope R_scope.

Lemma mv_entries A x i : csr_mv A x i = Rsum (map (fun e : nat * R => snd e * x (fst e)) (row_entries A i)).
Proof. unfold csr_mv. rewrite fold_entries. lra. Qed.

Lemma sum_unit n (F : nat -> R) k : Rsum (map (fun j => F j * unit j k) (seq 0 n)) = if (k <? n)%nat then F k else 0.
Proof.
  induction n as [|n IH]; [reflexivity|]. rewrite seq_S, map_app, Rsum_app, IH. cbn [map Rsum plus]. unfold unit.
  destruct (Nat.ltb_spec k n); destruct (Nat.ltb_spec k (S n)); destruct (Nat.eqb_spec k n); try lia; subst; lra.
Qed.

Lemma extend_inside n u b k : (k < n)%nat -> extend n u b k = u k.
Proof. intros. unfold extend. destruct (Nat.ltb_spec k n); [reflexivity|lia]. Qed.

(** What the solver sees is the product with the operator. *)
Theorem C67_operator : forall M flag A dt x i, (i < ntri M)%nat ->
  apply (ntri M) (operator M flag A dt) x i = parabolic_multiply M flag A dt x i.
Proof.
  intros M flag A dt x i Hi. unfold apply, operator, parabolic_multiply.
  transitivity (Rsum (map (fun j => x j * unit j i) (seq 0 (ntri M))) -
    dt * Rsum (map (fun j => x j * csr_mv A (extend (ntri M) (if flag then times_areas M (unit j) else unit j) (fun _ => 0)) i) (seq 0 (ntri M)))).
  - rewrite <- Rsum_map_scal, <- Rsum_map_minus. apply Rsum_map_ext_in. intros; ring.
  - rewrite sum_unit. destruct (Nat.ltb_spec i (ntri M)); [|lia]. f_equal. f_equal. rewrite mv_entries.
    transitivity (Rsum (map (fun j => Rsum (map (fun e : nat * R => x j * (snd e * extend (ntri M) (if flag then times_areas M (unit j) else unit j) (fun _ => 0) (fst e))) (row_entries A i))) (seq 0 (ntri M)))).
    { apply Rsum_map_ext_in. intros j _. rewrite mv_entries, <- Rsum_map_scal. reflexivity. }
    rewrite Rsum_swap. apply Rsum_map_ext_in. intros (k & v) _. cbn [fst snd]. unfold extend.
    destruct (Nat.ltb_spec k (ntri M)) as [L|L].
    + destruct flag.
      * transitivity (v * (1 / area M k) * Rsum (map (fun j => x j * unit j k) (seq 0 (ntri M)))).
        -- rewrite <- Rsum_map_scal. apply Rsum_map_ext_in. intros j _. unfold times_areas. ring.
        -- rewrite sum_unit. destruct (Nat.ltb_spec k (ntri M)); [|lia]. unfold times_areas. ring.
      * transitivity (v * Rsum (map (fun j => x j * unit j k) (seq 0 (ntri M)))).
        -- rewrite <- Rsum_map_scal. apply Rsum_map_ext_in. intros j _. ring.
        -- rewrite sum_unit. destruct (Nat.ltb_spec k (ntri M)); [|lia]. ring.
    + rewrite Rmult_0_r. apply Rsum_map_zero. intros j _. ring.
Qed.
Print Assumptions C67_operator.

(** Without the area scaling, or with equal areas, and every triangle wet, the
    operator is symmetric and positive definite. *)
Lemma scaled M flag A x i q : (i < ntri M)%nat -> (flag = false /\ q = 1 \/ flag = true /\ forall k, (k < ntri M)%nat -> 1 / area M k = q) ->
  csr_mv A (extend (ntri M) (if flag then times_areas M x else x) (fun _ => 0)) i = q * csr_mv A (extend (ntri M) x (fun _ => 0)) i.
Proof.
  intros Hi Hq. rewrite !mv_entries, <- Rsum_map_scal. apply Rsum_map_ext_in. intros (k & v) _. cbn [fst snd]. unfold extend.
  destruct (Nat.ltb_spec k (ntri M)); [|ring]. destruct Hq as [(-> & ->)|(-> & Hq)]; [ring|]. unfold times_areas. rewrite (Hq k) by lia. ring.
Qed.

Lemma ext_unit M A i j : (i < ntri M)%nat -> (j < ntri M)%nat -> csr_mv A (extend (ntri M) (unit j) (fun _ => 0)) i = csr_mv A (unit j) i.
Proof.
  intros Hi Hj. rewrite !mv_entries. apply Rsum_map_ext_in. intros (k & v) _. cbn [fst snd]. unfold extend, unit.
  destruct (Nat.ltb_spec k (ntri M)); [reflexivity|]. destruct (Nat.eqb_spec k j); [lia|reflexivity].
Qed.

Theorem C67_positive_definite_partial : forall M flag d db A dt, sound M -> mutual M -> elliptic_matrix M d db = Some A ->
  (flag = false \/ exists a, 0 < a /\ forall k, (k < ntri M)%nat -> area M k = a) ->
  (forall k, (k < ntri M)%nat -> 0 < d k) -> (forall k, (k < nbdry M)%nat -> 0 <= db k) -> 0 <= dt ->
  spd (ntri M) (operator M flag A dt).
Proof.
  intros M flag d db A dt Sd Mu EA Hf Hd Hb Hdt.
  assert (Q : exists q, 0 < q /\ (flag = false /\ q = 1 \/ flag = true /\ forall k, (k < ntri M)%nat -> 1 / area M k = q)).
  { destruct flag.
    - destruct Hf as [Hf|(a & Ha & Hf)]; [discriminate|]. exists (1 / a). split; [apply Rdiv_lt_0_compat; lra|]. right. split; [reflexivity|]. intros k Hk. now rewrite Hf.
    - exists 1. split; [lra|]. now left. }
  destruct Q as (q & Hq0 & Hq). split.
  - intros i j Hi Hj. unfold operator, parabolic_multiply. rewrite !(scaled M flag A _ _ q) by auto. rewrite !ext_unit by auto.
    rewrite (C66_symmetric M d db A Sd Mu EA Hd i j Hi Hj). unfold unit. rewrite (Nat.eqb_sym i j). ring.
  - intros v (i0 & Hi0 & Nz).
    replace (Rsum (map (fun i => v i * Rsum (map (fun j => operator M flag A dt i j * v j) (seq 0 (ntri M)))) (seq 0 (ntri M))))
      with (Rsum (map (fun i => v i * v i) (seq 0 (ntri M))) - dt * q * Rsum (map (fun i => v i * csr_mv A (extend (ntri M) v (fun _ => 0)) i) (seq 0 (ntri M)))).
    + assert (D : Rsum (map (fun i => v i * csr_mv A (extend (ntri M) v (fun _ => 0)) i) (seq 0 (ntri M))) <= 0).
      { apply (C66_dissipation M d db A v Sd Mu EA); auto. - intros k Hk. specialize (Hd k Hk). lra. - intros k Hk. specialize (Hd k Hk). lra. }
      assert (P : 0 < Rsum (map (fun i => v i * v i) (seq 0 (ntri M)))).
      { assert (I : In i0 (seq 0 (ntri M))) by (apply in_seq; lia). apply in_split in I as (l1 & l2 & ->).
        rewrite map_app, Rsum_app. cbn [map Rsum].
        assert (N : forall l, 0 <= Rsum (map (fun i => v i * v i) l)). { intros l. apply Rsum_nonneg. intros x Hx. apply in_map_iff in Hx as (k & <- & _). apply Rle_0_sqr. }
        pose proof (N l1); pose proof (N l2). assert (0 < v i0 * v i0) by (apply Rlt_0_sqr; exact Nz). lra. }
      assert (0 <= dt * q) by (apply Rmult_le_pos; lra). nra.
    + rewrite <- Rsum_map_scal, <- Rsum_map_minus. apply Rsum_map_ext_in. intros i Hi. apply in_seq in Hi.
      change (Rsum (map (fun j => operator M flag A dt i j * v j) (seq 0 (ntri M)))) with (apply (ntri M) (operator M flag A dt) v i).
      rewrite C67_operator by lia. unfold parabolic_multiply. rewrite (scaled M flag A v i q) by (auto; lia). ring.
Qed.
Print Assumptions C67_positive_definite_partial.

(** So the solver ends, and what it returns solves the implicit equation up to
    its tolerance. *)
Theorem C67_converges_partial : forall M flag d db A dt u b g imax, sound M -> mutual M -> elliptic_matrix M d db = Some A ->
  (flag = false \/ exists a, 0 < a /\ forall k, (k < ntri M)%nat -> area M k = a) ->
  (forall k, (k < ntri M)%nat -> 0 < d k) -> (forall k, (k < nbdry M)%nat -> 0 <= db k) -> 0 <= dt -> (ntri M + 2 <= imax)%nat ->
  exists x, parabolic_solve M flag A dt u b g imax = Converged x.
Proof.
  intros M flag d db A dt u b g imax Sd Mu EA Hf Hd Hb Hdt Hi. unfold parabolic_solve.
  apply (C23_converges (ntri M) (operator M flag A dt) ones); auto.
  - apply (C67_positive_definite_partial M flag d db A dt); auto.
  - intros; unfold ones; lra.
Qed.
Print Assumptions C67_converges_partial.

(** Whatever the areas and the wet pattern, a result returned as converged has
    a small residual in the equation the operator poses. *)
Theorem C67_residual : forall M flag A dt u b g imax x, (2 <= imax)%nat -> 0 <= dt ->
  parabolic_solve M flag A dt u b g imax = Converged x ->
  let res := fun y => Rsum (map (fun i => (b i + dt * boundary_term M flag A g i - parabolic_multiply M flag A dt y i) ^ 2) (seq 0 (ntri M))) in
  res x <= Rmax ((Rmin dt (1 / 100000)) ^ 2 * res u) ((Rmin dt (1 / 100000)) ^ 2).
Proof.
  intros M flag A dt u b g imax x Hi Hdt H res. unfold parabolic_solve in H.
  pose proof (C23_python _ _ _ _ _ _ _ _ Hi H) as R.
  assert (E : forall y, residual_norm2 (ntri M) (operator M flag A dt) (rhs M flag A dt b g) y = res y).
  { intros y. unfold residual_norm2, res. apply Rsum_map_ext_in. intros i Hin. apply in_seq in Hin.
    pose proof (C67_operator M flag A dt y i ltac:(lia)) as E. unfold apply in E. rewrite E. unfold rhs. ring. }
  rewrite !E in R. exact R.
Qed.
Print Assumptions C67_residual.

(** ** Exact solutions *)

Definition solves (M : mesh) (flag : bool) (A : csr) (dt : R) (u g x : nat -> R) : Prop :=
  forall i, (i < ntri M)%nat -> parabolic_multiply M flag A dt x i = u i + dt * boundary_term M flag A g i.

Lemma argmin (f : nat -> R) : forall n, (0 < n)%nat -> exists i, (i < n)%nat /\ forall k, (k < n)%nat -> f i <= f k.
Proof.
  induction n as [|n IH]; [lia|]. intros _. destruct n as [|n].
  - exists 0%nat. split; [lia|]. intros k Hk. replace k with 0%nat by lia. lra.
  - destruct IH as (i & Hi & Mi); [lia|]. destruct (Rle_dec (f i) (f (S n))) as [L|L].
    + exists i. split; [lia|]. intros k Hk. destruct (Nat.eq_dec k (S n)); [subst; exact L|apply Mi; lia].
    + exists (S n). split; [lia|]. intros k Hk. destruct (Nat.eq_dec k (S n)); [subst; lra|]. specialize (Mi k ltac:(lia)). lra.
Qed.

(** Comparison: nothing goes below zero. *)
Lemma comparison M d db (D y gb : nat -> R) dt : sound M ->
  (forall k, (k < ntri M)%nat -> 0 <= d k) -> (forall k, (k < nbdry M)%nat -> 0 <= db k) -> 0 <= dt ->
  (forall i, (i < ntri M)%nat -> 0 < D i) -> (forall k, (k < nbdry M)%nat -> 0 <= gb k) ->
  (forall i, (i < ntri M)%nat -> 0 <= D i * y i - dt * Rsum (map (fun e => weight M d db i e * (extend (ntri M) y gb (col M i e) - y i)) [0; 1; 2]%nat)) ->
  forall i, (i < ntri M)%nat -> 0 <= y i.
Proof.
  intros Sd Hd Hb Hdt HD Hg H i Hi. destruct (argmin y (ntri M)) as (k & Hk & Mk); [lia|].
  apply Rle_trans with (y k); [|auto]. destruct (Rle_dec 0 (y k)) as [|N]; [assumption|]. exfalso. apply Rnot_le_lt in N.
  specialize (H k Hk). assert (S : 0 <= Rsum (map (fun e => weight M d db k e * (extend (ntri M) y gb (col M k e) - y k)) [0; 1; 2]%nat)).
  { apply Rsum_nonneg. intros r Hr. apply in_map_iff in Hr as (e & <- & He). assert (He' : (e < 3)%nat) by (cbn [In] in He; lia).
    apply Rmult_le_pos; [apply weight_nonneg; auto|]. unfold extend. pose proof (s_range M Sd k e Hk He') as Rg.
    destruct (Nat.ltb_spec (col M k e) (ntri M)) as [L|L]; [specialize (Mk _ L); lra|].
    assert (col M k e - ntri M < nbdry M)%nat. { unfold col, geo_index in *. destruct (Z.ltb_spec (neighbour M k e) 0); lia. }
    specialize (Hg _ H0). lra. }
  specialize (HD k Hk). assert (0 <= dt * Rsum (map (fun e => weight M d db k e * (extend (ntri M) y gb (col M k e) - y k)) [0; 1; 2]%nat)) by (apply Rmult_le_pos; auto).
  assert (D k * y k < 0) by nra. lra.
Qed.

(** Without the scaling: the new velocities lie between the extremes of the old
    ones and the boundary values. *)
Theorem C67_maximum_principle_partial : forall M d db A dt u g x lo hi, sound M -> elliptic_matrix M d db = Some A ->
  (forall k, (k < ntri M)%nat -> 0 <= d k) -> (forall k, (k < nbdry M)%nat -> 0 <= db k) -> 0 <= dt ->
  (forall k, (k < ntri M)%nat -> lo <= u k <= hi) -> (forall k, (k < nbdry M)%nat -> lo <= g k <= hi) ->
  solves M false A dt u g x -> forall i, (i < ntri M)%nat -> lo <= x i <= hi.
Proof.
  intros M d db A dt u g x lo hi Sd EA Hd Hb Hdt Hu Hg Hx.
  assert (X : forall i, (i < ntri M)%nat -> x i - dt * Rsum (map (fun e => weight M d db i e * (extend (ntri M) x g (col M i e) - x i)) [0; 1; 2]%nat) = u i).
  { intros i Hi. specialize (Hx i Hi). unfold parabolic_multiply, boundary_term in Hx.
    rewrite !(mv_spec M d db A _ i Sd EA Hi) in Hx. rewrite !extend_inside in Hx by exact Hi.
    replace (Rsum (map (fun e => weight M d db i e * (extend (ntri M) x g (col M i e) - x i)) [0; 1; 2]%nat))
      with (Rsum (map (fun e => weight M d db i e * (extend (ntri M) x (fun _ => 0) (col M i e) - x i)) [0; 1; 2]%nat) +
            Rsum (map (fun e => weight M d db i e * (extend (ntri M) (fun _ => 0) g (col M i e) - 0)) [0; 1; 2]%nat)); [lra|].
    rewrite <- Rsum_map_plus. apply Rsum_map_ext_in. intros e _. unfold extend. destruct (Nat.ltb_spec (col M i e) (ntri M)); ring. }
  intros i Hi. split.
  - enough (0 <= x i - lo) by lra. apply (comparison M d db (fun _ => 1) (fun k => x k - lo) (fun k => g k - lo) dt Sd Hd Hb Hdt); auto.
    + intros; lra.
    + intros k Hk. specialize (Hg k Hk). lra.
    + intros k Hk. specialize (X k Hk). specialize (Hu k Hk).
      replace (Rsum (map (fun e => weight M d db k e * (extend (ntri M) (fun k => x k - lo) (fun k => g k - lo) (col M k e) - (x k - lo))) [0; 1; 2]%nat))
        with (Rsum (map (fun e => weight M d db k e * (extend (ntri M) x g (col M k e) - x k)) [0; 1; 2]%nat)); [lra|].
      apply Rsum_map_ext_in. intros e _. unfold extend. destruct (col M k e <? ntri M)%nat; ring.
  - enough (0 <= hi - x i) by lra. apply (comparison M d db (fun _ => 1) (fun k => hi - x k) (fun k => hi - g k) dt Sd Hd Hb Hdt); auto.
    + intros; lra.
    + intros k Hk. specialize (Hg k Hk). lra.
    + intros k Hk. specialize (X k Hk). specialize (Hu k Hk).
      replace (Rsum (map (fun e => weight M d db k e * (extend (ntri M) (fun k => hi - x k) (fun k => hi - g k) (col M k e) - (hi - x k))) [0; 1; 2]%nat))
        with (- Rsum (map (fun e => weight M d db k e * (extend (ntri M) x g (col M k e) - x k)) [0; 1; 2]%nat)); [lra|].
      replace (- Rsum (map (fun e => weight M d db k e * (extend (ntri M) x g (col M k e) - x k)) [0; 1; 2]%nat))
        with (-1 * Rsum (map (fun e => weight M d db k e * (extend (ntri M) x g (col M k e) - x k)) [0; 1; 2]%nat)) by ring.
      rewrite <- Rsum_map_scal. apply Rsum_map_ext_in. intros e _. unfold extend. destruct (col M k e <? ntri M)%nat; ring.
Qed.
Print Assumptions C67_maximum_principle_partial.

(** With the scaling too, velocities of one sign keep it. *)
Theorem C67_sign : forall M flag d db A dt u g x, sound M -> elliptic_matrix M d db = Some A ->
  (forall k, (k < ntri M)%nat -> 0 < area M k) ->
  (forall k, (k < ntri M)%nat -> 0 <= d k) -> (forall k, (k < nbdry M)%nat -> 0 <= db k) -> 0 <= dt ->
  (forall k, (k < ntri M)%nat -> 0 <= u k) -> (forall k, (k < nbdry M)%nat -> 0 <= g k) ->
  solves M flag A dt u g x -> forall i, (i < ntri M)%nat -> 0 <= x i.
Proof.
  intros M flag d db A dt u g x Sd EA Ha Hd Hb Hdt Hu Hg Hx.
  destruct flag.
  2: { intros i Hi. assert (exists hi, (forall k, (k < ntri M)%nat -> u k <= hi) /\ (forall k, (k < nbdry M)%nat -> g k <= hi)) as (hi & H1 & H2).
       { assert (B : forall (f : nat -> R) n, exists hi, forall k, (k < n)%nat -> f k <= hi).
         { intros f n. induction n as [|n (h & IH)]; [exists 0; intros; lia|]. exists (Rmax h (f n)). intros k Hk. destruct (Nat.eq_dec k n); [subst; apply Rmax_r|].
           eapply Rle_trans; [apply IH; lia|apply Rmax_l]. }
         destruct (B u (ntri M)) as (h1 & B1). destruct (B g (nbdry M)) as (h2 & B2). exists (Rmax h1 h2). split; intros k Hk.
         - eapply Rle_trans; [apply B1; auto|apply Rmax_l]. - eapply Rle_trans; [apply B2; auto|apply Rmax_r]. }
       apply (C67_maximum_principle_partial M d db A dt u g x 0 hi); auto. }
  set (y := times_areas M x).
  assert (Y : forall i, (i < ntri M)%nat -> 0 <= y i).
  { apply (comparison M d db (area M) y (fun _ => 0) dt Sd Hd Hb Hdt Ha); [intros; lra|].
    intros i Hi. specialize (Hx i Hi). unfold parabolic_multiply in Hx. fold y in Hx.
    assert (Bt : 0 <= boundary_term M true A g i).
    { unfold boundary_term, times_areas. apply Rmult_le_pos.
      - apply Rlt_le, Rdiv_lt_0_compat; [lra|auto].
      - rewrite (mv_spec M d db A _ i Sd EA Hi). apply Rsum_nonneg. intros r Hr. apply in_map_iff in Hr as (e & <- & He). assert (He' : (e < 3)%nat) by (cbn [In] in He; lia).
        apply Rmult_le_pos; [apply weight_nonneg; auto|]. rewrite (extend_inside _ _ _ i Hi). unfold extend. pose proof (s_range M Sd i e Hi He') as Rg.
        destruct (Nat.ltb_spec (col M i e) (ntri M)); [lra|]. assert (col M i e - ntri M < nbdry M)%nat by (unfold col, geo_index in *; destruct (Z.ltb_spec (neighbour M i e) 0); lia).
        specialize (Hg _ H0). lra. }
    rewrite (mv_spec M d db A _ i Sd EA Hi) in Hx. rewrite extend_inside in Hx by exact Hi.
    assert (area M i * y i = x i) by (unfold y, times_areas; specialize (Ha i Hi); field; lra).
    specialize (Hu i Hi). assert (0 <= dt * boundary_term M true A g i) by (apply Rmult_le_pos; auto). lra. }
  intros i Hi. specialize (Y i Hi). unfold y, times_areas in Y. specialize (Ha i Hi).
  destruct (Rle_dec 0 (x i)) as [|N]; [assumption|]. exfalso. assert (0 < 1 / area M i) by (apply Rdiv_lt_0_compat; lra). nra.
Qed.
Print Assumptions C67_sign.

(** Without the scaling, with resting boundaries and dry triangles at rest, the
    sum of squares does not grow. *)
Theorem C67_energy_partial : forall M d db A dt u x, sound M -> mutual M -> elliptic_matrix M d db = Some A ->
  (forall k, (k < ntri M)%nat -> 0 <= d k) -> (forall k, (k < nbdry M)%nat -> 0 <= db k) -> 0 <= dt ->
  (forall k, (k < ntri M)%nat -> d k <= 0 -> u k = 0) ->
  solves M false A dt u (fun _ => 0) x ->
  Rsum (map (fun i => x i * x i) (seq 0 (ntri M))) <= Rsum (map (fun i => u i * u i) (seq 0 (ntri M))).
Proof.
  intros M d db A dt u x Sd Mu EA Hd Hb Hdt Hu Hx.
  assert (B0 : forall i, (i < ntri M)%nat -> boundary_term M false A (fun _ => 0) i = 0).
  { intros i Hi. unfold boundary_term. rewrite mv_entries. apply Rsum_map_zero. intros (k & v) _. cbn [fst snd]. unfold extend. destruct (k <? ntri M)%nat; ring. }
  assert (X : forall i, (i < ntri M)%nat -> x i - dt * csr_mv A (extend (ntri M) x (fun _ => 0)) i = u i).
  { intros i Hi. specialize (Hx i Hi). rewrite B0 in Hx by exact Hi. unfold parabolic_multiply in Hx. lra. }
  assert (Dx : forall k, (k < ntri M)%nat -> d k <= 0 -> x k = 0).
  { intros k Hk Hdk. rewrite <- (Hu k Hk Hdk), <- (X k Hk). rewrite (mv_spec M d db A _ k Sd EA Hk).
    rewrite Rsum_map_zero; [lra|]. intros e _. unfold weight. destruct (Rleb_spec (d k) 0); [ring|lra]. }
  pose proof (C66_dissipation M d db A x Sd Mu EA Hd Hb Dx) as Ds.
  assert (E : Rsum (map (fun i => x i * x i) (seq 0 (ntri M))) = Rsum (map (fun i => x i * u i) (seq 0 (ntri M))) + dt * Rsum (map (fun i => x i * csr_mv A (extend (ntri M) x (fun _ => 0)) i) (seq 0 (ntri M)))).
  { rewrite <- Rsum_map_scal, <- Rsum_map_plus. apply Rsum_map_ext_in. intros i Hi. apply in_seq in Hi. rewrite <- (X i) by lia. ring. }
  assert (C : 0 <= Rsum (map (fun i => x i * x i + u i * u i - 2 * (x i * u i)) (seq 0 (ntri M)))).
  { apply Rsum_nonneg. intros r Hr. apply in_map_iff in Hr as (i & <- & _). replace (x i * x i + u i * u i - 2 * (x i * u i)) with ((x i - u i) * (x i - u i)) by ring. apply Rle_0_sqr. }
  rewrite Rsum_map_minus, Rsum_map_plus, Rsum_map_scal in C. nra.
Qed.
Print Assumptions C67_energy_partial.

(** ** A uniform flow *)

(** How far a uniform velocity with the same boundary values is from solving
    the equation: nothing without the scaling; with it, the differences of the
    inverse areas of neighbours. *)
Definition inverse_area_terms (M : mesh) (d : nat -> R) (i : nat) : R :=
  Rsum (map (fun e => let j := Z.to_nat (neighbour M i e) in
    if (neighbour M i e <? 0)%Z then 0
    else (d i + d j) / 2 * (edgelength M i e / distance (centroid M i) (centroid M j)) * (1 / area M j - 1 / area M i)) [0; 1; 2]%nat).

Theorem C67_uniform : forall M flag d db A dt v i, sound M -> elliptic_matrix M d db = Some A -> (i < ntri M)%nat -> 0 < d i ->
  parabolic_multiply M flag A dt (fun _ => v) i - (v + dt * boundary_term M flag A (fun _ => v) i) =
  if flag then - dt * v * inverse_area_terms M d i else 0.
Proof.
  intros M flag d db A dt v i Sd EA Hi Hd. unfold parabolic_multiply, boundary_term. destruct flag.
  - unfold times_areas at 2. rewrite !(mv_spec M d db A _ i Sd EA Hi). rewrite !extend_inside by exact Hi. unfold times_areas, inverse_area_terms.
    transitivity (- dt * v * Rsum (map (fun e => weight M d db i e * (extend (ntri M) (fun k => 1 / area M k) (fun _ => 0) (col M i e) - 1 / area M i + 1 / area M i * extend (ntri M) (fun _ => 0) (fun _ => 1) (col M i e))) [0; 1; 2]%nat)).
    + cbn [map Rsum].
      assert (E1 : forall k, extend (ntri M) (fun i => 1 / area M i * v) (fun _ => 0) k = v * extend (ntri M) (fun k => 1 / area M k) (fun _ => 0) k) by (intros k; unfold extend; destruct (k <? ntri M)%nat; ring).
      assert (E2 : forall k, extend (ntri M) (fun _ => 0) (fun _ => v) k = v * extend (ntri M) (fun _ => 0) (fun _ => 1) k) by (intros k; unfold extend; destruct (k <? ntri M)%nat; ring).
      rewrite !E1, !E2. ring.
    + f_equal. apply Rsum_map_ext_in. intros e He. assert (He' : (e < 3)%nat) by (cbn [In] in He; lia). pose proof (s_range M Sd i e Hi He') as Rg.
      destruct (Z.ltb_spec (neighbour M i e) 0) as [L|L].
      * pose proof (col_boundary M i e L). unfold extend. destruct (Nat.ltb_spec (col M i e) (ntri M)); [lia|]. ring.
      * rewrite (col_interior M i e (Z.to_nat (neighbour M i e))) by lia. unfold extend. destruct (Nat.ltb_spec (Z.to_nat (neighbour M i e)) (ntri M)); [|lia].
        unfold weight. destruct (Rleb_spec (d i) 0); [lra|]. unfold h_other, other_point, geo_index.
        destruct (Z.ltb_spec (neighbour M i e) 0); [lia|]. destruct (Z.ltb_spec (neighbour M i e) (Z.of_nat (ntri M))); [|lia]. unfold Rdiv. ring.
  - rewrite !(mv_spec M d db A _ i Sd EA Hi). rewrite !extend_inside by exact Hi. cbn [map Rsum].
    assert (E : forall k, extend (ntri M) (fun _ => v) (fun _ => 0) k = v - extend (ntri M) (fun _ => 0) (fun _ => v) k) by (intros k; unfold extend; destruct (k <? ntri M)%nat; ring).
    rewrite !E. ring.
Qed.
Print Assumptions C67_uniform.

(** With the scaling, the default, a uniform flow on two triangles of different
    areas is not a solution, and the operator is not symmetric. *)
Theorem C67_areas_refuted : forall dt v, 0 < dt -> v <> 0 ->
  exists M d db A, sound M /\ mutual M /\ (forall k, 0 < d k) /\ (forall k, 0 < db k) /\ elliptic_matrix M d db = Some A /\
    (forall k, (k < ntri M)%nat -> 0 < area M k) /\
    ~ solves M true A dt (fun _ => v) (fun _ => v) (fun _ => v) /\
    exists i j, (i < ntri M)%nat /\ (j < ntri M)%nat /\ operator M true A dt i j <> operator M true A dt j i.
Proof.
  intros dt v Hdt Hv. destruct (matrix_exists kite (fun _ => 1) (fun _ => 1)) as (A & EA & _).
  exists kite, (fun _ => 1), (fun _ => 1), A.
  split; [exact kite_sound|]. split; [exact kite_mutual|]. split; [intros; lra|]. split; [intros; lra|]. split; [exact EA|].
  split. { intros k Hk. cbn in Hk. destruct k as [|[|k]]; [cbn; lra|cbn; lra|lia]. }
  split.
  - intros H. specialize (H 0%nat ltac:(cbn; lia)). pose proof (C67_uniform kite true (fun _ => 1) (fun _ => 1) A dt v 0%nat kite_sound EA ltac:(cbn; lia) ltac:(lra)) as U.
    rewrite H in U. cbn [ntri] in U.
    assert (I : inverse_area_terms kite (fun _ => 1) 0 = -2).
    { pose proof (kite_weight (fun _ => 1) (fun _ => 1) ltac:(lra)) as W. unfold weight in W. destruct (Rleb_spec 1 0); [lra|].
      unfold h_other, geo_index, other_point in W. cbn [ntri kite neighbour nth Z.ltb Z.compare] in W.
      unfold inverse_area_terms. cbn [map Rsum kite neighbour nth Z.ltb Z.compare edgelength centroid area]. cbn [edgelength nth kite centroid] in W.
      change (Z.to_nat 1) with 1%nat in *. cbn [Z.of_nat Pos.of_succ_nat Pos.succ Pos.compare Pos.compare_cont nth] in *.
      set (q := sqrt 2 / distance (1 / 3, 1 / 3) (1, 1)) in *. assert (q = 3 / 2) by (change (if (1 <? 2)%Z then 1 else 1) with 1 in W; lra). rewrite H0. field. }
    rewrite I in U. apply Rmult_integral_contrapositive_currified with (r1 := dt) (r2 := v) in Hv; [|lra]. lra.
  - exists 0%nat, 1%nat. split; [cbn; lia|]. split; [cbn; lia|]. unfold operator, parabolic_multiply.
    rewrite !(mv_spec kite (fun _ => 1) (fun _ => 1) A _ _ kite_sound EA) by (cbn; lia). cbn [map Rsum].
    rewrite kite_weight, kite_weight' by lra.
    assert (C0 : col kite 0 0 = 1%nat) by reflexivity. assert (C1 : col kite 1 0 = 0%nat) by reflexivity.
    assert (C2 : forall a b, (b < 3)%nat -> extend (ntri kite) a (fun _ => 0) (col kite 0 b) = if (b =? 0)%nat then a 1%nat else 0) by (intros a [|[|[|b]]] Hb; [reflexivity|reflexivity|reflexivity|lia]).
    assert (C3 : forall a b, (b < 3)%nat -> extend (ntri kite) a (fun _ => 0) (col kite 1 b) = if (b =? 0)%nat then a 0%nat else 0) by (intros a [|[|[|b]]] Hb; [reflexivity|reflexivity|reflexivity|lia]).
    rewrite !C2, !C3 by lia. cbn [Nat.eqb]. rewrite !extend_inside by (cbn; lia).
    unfold times_areas, unit. cbn [Nat.eqb kite area nth]. intros E.
    assert (E' : dt * (3 / 2) * (2 / 3) = dt * (3 / 2) * 2) by lra. nra.
Qed.
Print Assumptions C67_areas_refuted.

(** ** The whole call *)

(** The momentum handed back is the solved velocity times the height; going to
    velocity and back alone shrinks the momentum. *)
Theorem C67_momentum : forall uh w z, let h := height_of w z in
  0 <= h /\ (z <= w -> h = w - z) /\
  momentum_of (velocity_of uh h) h = uh * (h ^ 2 / (h ^ 2 + 1 / 100000000)) /\
  Rabs (momentum_of (velocity_of uh h) h) <= Rabs uh /\ (uh <> 0 -> Rabs (momentum_of (velocity_of uh h) h) < Rabs uh).
Proof.
  intros uh w z h. assert (H0 : 0 <= h) by (unfold h, height_of; destruct (Rleb_spec 0 (w - z)); lra).
  assert (Hp : 0 < h ^ 2 + 1 / 100000000) by (pose proof (pow2_ge_0 h); lra).
  assert (E : momentum_of (velocity_of uh h) h = uh * (h ^ 2 / (h ^ 2 + 1 / 100000000))).
  { unfold momentum_of, velocity_of. field. lra. }
  assert (F : 0 <= h ^ 2 / (h ^ 2 + 1 / 100000000) < 1).
  { split; [apply Rmult_le_pos; [apply pow2_ge_0|apply Rlt_le, Rinv_0_lt_compat, Hp]|]. apply (Rmult_lt_reg_r (h ^ 2 + 1 / 100000000)); [exact Hp|]. unfold Rdiv at 1. rewrite Rmult_assoc, Rinv_l by lra. lra. }
  split; [exact H0|]. split; [intros; unfold h, height_of; destruct (Rleb_spec 0 (w - z)); lra|]. split; [exact E|].
  rewrite E, Rabs_mult, (Rabs_right (h ^ 2 / (h ^ 2 + 1 / 100000000))) by lra. pose proof (Rabs_pos uh). split; [nra|].
  intros N. pose proof (Rabs_pos_lt uh N). nra.
Qed.
Print Assumptions C67_momentum.

(** With the safety term or positive diffusivity and no scaling the call
    succeeds, and returns height times a velocity that solves the implicit
    equation up to the tolerance. *)
Theorem C67_call_partial : forall M safe dt d db w z uh wb zb uhb imax, sound M -> mutual M -> 0 <= dt -> (ntri M + 2 <= imax)%nat ->
  (forall k, (k < ntri M)%nat -> 0 <= d k /\ (safe = false -> 0 < d k)) -> (forall k, (k < nbdry M)%nat -> 0 <= db k) ->
  let plus := fun f k => f k + (if safe then 1 / 10 else 0) in
  let h := fun i => Rmax 0 (w i - z i) in
  let hb := fun i => Rmax 0 (wb i - zb i) in
  let u := fun i => uh i * (h i / (h i * h i + 1 / 100000000)) in
  let ub := fun i => uhb i * (hb i / (hb i * hb i + 1 / 100000000)) in
  let res := fun y => Rsum (map (fun i => (u i - (y i - dt * edge_terms M (plus d) (plus db) y ub i)) ^ 2) (seq 0 (ntri M))) in
  exists x, call M false safe dt d db w z uh wb zb uhb imax = Some (fun i => x i * h i) /\
    res x <= Rmax ((Rmin dt (1 / 100000)) ^ 2 * res u) ((Rmin dt (1 / 100000)) ^ 2).
Proof.
  intros M safe dt d db w z uh wb zb uhb imax Sd Mu Hdt Hi Hd Hb plus h hb u ub res.
  assert (Eh : forall a b, height_of a b = Rmax 0 (a - b)) by (intros a b; unfold height_of, Rmax; destruct (Rleb_spec 0 (a - b)); destruct (Rle_dec 0 (a - b)); lra).
  set (D := fun i : nat => if safe then d i + 1 / 10 else d i). set (DB := fun i : nat => if safe then db i + 1 / 10 else db i).
  assert (HD : forall k, (k < ntri M)%nat -> 0 < D k) by (intros k Hk; destruct (Hd k Hk) as (H1 & H2); unfold D; destruct safe; [lra|apply H2; reflexivity]).
  assert (HB : forall k, (k < nbdry M)%nat -> 0 <= DB k) by (intros k Hk; specialize (Hb k Hk); unfold DB; destruct safe; lra).
  destruct (C66_operator M D DB Sd) as (A & EA & HA).
  destruct (C67_converges_partial M false D DB A dt (fun i => velocity_of (uh i) (height_of (w i) (z i))) (fun i => velocity_of (uh i) (height_of (w i) (z i)))
    (fun i => velocity_of (uhb i) (height_of (wb i) (zb i))) imax Sd Mu EA (or_introl eq_refl) HD HB Hdt Hi) as (x & Ex).
  exists x. split.
  - assert (F : forallb (fun i => Rleb 0 (D i)) (seq 0 (ntri M)) = true).
    { apply forallb_forall. intros i Hin. apply in_seq in Hin. apply Rleb_true. specialize (HD i ltac:(lia)). lra. }
    unfold call. cbv zeta. fold D DB. unfold D in F. rewrite F. fold D. rewrite EA, Ex. f_equal.
    apply FunctionalExtensionality.functional_extensionality. intros i. unfold momentum_of, h. now rewrite Eh.
  - pose proof (C67_residual M false A dt _ _ _ imax x ltac:(lia) Hdt Ex) as R. cbv zeta beta in R.
    assert (E : forall y, Rsum (map (fun i => (velocity_of (uh i) (height_of (w i) (z i)) + dt * boundary_term M false A (fun i => velocity_of (uhb i) (height_of (wb i) (zb i))) i - parabolic_multiply M false A dt y i) ^ 2) (seq 0 (ntri M))) = res y).
    { intros y. unfold res. apply Rsum_map_ext_in. intros i Hin. apply in_seq in Hin. f_equal. unfold u, velocity_of. rewrite Eh. fold (h i).
      unfold parabolic_multiply, boundary_term.
      assert (G : forall k, uhb k * (height_of (wb k) (zb k) / (height_of (wb k) (zb k) * height_of (wb k) (zb k) + 1 / 100000000)) = ub k) by (intros k; rewrite !Eh; reflexivity).
      assert (S : csr_mv A (extend (ntri M) y ub) i = csr_mv A (extend (ntri M) y (fun _ => 0)) i + csr_mv A (extend (ntri M) (fun _ => 0) (fun i0 => uhb i0 * (height_of (wb i0) (zb i0) / (height_of (wb i0) (zb i0) * height_of (wb i0) (zb i0) + 1 / 100000000)))) i).
      { rewrite !mv_entries, <- Rsum_map_plus. apply Rsum_map_ext_in. intros (k & v) _. cbn [fst snd]. unfold extend. rewrite G. destruct (k <? ntri M)%nat; ring. }
      rewrite (HA y ub i ltac:(lia)) in S. destruct (Rltb_spec 0 (D i)) as [_|Q]; [|specialize (HD i ltac:(lia)); lra].
      assert (ET : edge_terms M D DB y ub i = edge_terms M (plus d) (plus db) y ub i).
      { unfold edge_terms. apply Rsum_map_ext_in. intros e _. unfold D, DB, plus. destruct (neighbour M i e <? 0)%Z; destruct safe; rewrite ?Rplus_0_r; reflexivity. }
      rewrite ET in S. rewrite S. ring. }
    rewrite !E in R. replace (res u) with (res (fun i => velocity_of (uh i) (height_of (w i) (z i)))); [exact R|].
    f_equal. apply FunctionalExtensionality.functional_extensionality. intros i. unfold velocity_of, u, h. now rewrite !Eh.
Qed.
Print Assumptions C67_call_partial.

(** The hypotheses of the theorems above hold on the two triangles, and without
    the scaling a uniform flow solves the equation there. *)
Example C67_example : exists M d db A, sound M /\ mutual M /\ (forall k, 0 < d k) /\ (forall k, 0 < db k) /\ elliptic_matrix M d db = Some A /\
  (forall k, (k < ntri M)%nat -> 0 < area M k) /\ solves M false A 1 (fun _ => 2) (fun _ => 2) (fun _ => 2).
Proof.
  destruct (matrix_exists kite (fun _ => 1) (fun _ => 1)) as (A & EA & _). exists kite, (fun _ => 1), (fun _ => 1), A.
  split; [exact kite_sound|]. split; [exact kite_mutual|]. split; [intros; lra|]. split; [intros; lra|]. split; [exact EA|].
  split. { intros k Hk. cbn in Hk. destruct k as [|[|k]]; [cbn; lra|cbn; lra|lia]. }
  intros i Hi. pose proof (C67_uniform kite false (fun _ => 1) (fun _ => 1) A 1 2 i kite_sound EA Hi ltac:(lra)) as U. cbv iota in U. lra.
Qed.
