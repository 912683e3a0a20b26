(** C66: the matrix of the kinematic viscosity operator.
    C67: its implicit step. *)
From Coq Require Import Reals Lra Lia ZArith Arith List Bool Permutation.
From Verif Require Import RealLib ListLib ArrayLib SparseModel CGModel CGProofs CGProps FluxProofs KinematicModel KinematicProofs.
Import ListNotations.
Open Scope R_scope.

(** ** C66 *)

(** The sort ends, stays inside the array and the range asked for, and leaves
    the same values in order, whatever the array and the range. *)
Theorem C66_quicksort : forall (len : Z) (l : Z -> Z) (m n : Z), (0 <= m)%Z -> (n < len)%Z ->
  exists l', quicksort (Z.to_nat (n - m + 2) + 1) len l m n = Some l' /\
    (forall x y, (m <= x <= y)%Z -> (y <= n)%Z -> (l' x <= l' y)%Z) /\
    (forall x, (x < m \/ n < x)%Z -> l' x = l x) /\
    Permutation (map (fun k => l (m + Z.of_nat k)%Z) (seq 0 (Z.to_nat (n - m + 1))))
                (map (fun k => l' (m + Z.of_nat k)%Z) (seq 0 (Z.to_nat (n - m + 1)))).
Proof.
  intros len l m n Hm Hn. destruct (quicksort_spec len (Z.to_nat (n - m + 2) + 1) l m n Hm Hn) as (l' & E & P & S); [lia|].
  exists l'. split; [exact E|]. split; [exact S|]. split; [intros x Hx; apply (rearranged_outside m n); auto|].
  destruct (Z_lt_le_dec n m) as [L|L].
  - replace (Z.to_nat (n - m + 1)) with 0%nat by lia. constructor.
  - pose proof (rearranged_perm m n l l' (Z.to_nat (n - m + 1)) P ltac:(lia)) as Q. unfold zlist in Q. rewrite !map_map in Q. exact Q.
Qed.
Print Assumptions C66_quicksort.
Example C66_quicksort_example : exists l', quicksort 6 4 (fun k => nth (Z.to_nat k) [7; 2; 7; 1]%Z 0%Z) 0 3 = Some l' /\ map l' [0; 1; 2; 3]%Z = [1; 2; 7; 7]%Z.
Proof. eexists. split; [vm_compute; reflexivity|]. vm_compute. reflexivity. Qed.

(** The value of the operator div(d grad u) on triangle [i], from the
    neighbours: half the sum of the diffusivities, times length over distance,
    times the difference of the values. *)
Definition edge_terms (M : mesh) (d db u g : nat -> R) (i : nat) : R :=
  Rsum (map (fun e =>
    let j := neighbour M i e in
    let '(d', u', p) := if (j <? 0)%Z then (db (Z.to_nat (- j - 1)), g (Z.to_nat (- j - 1)), midpoint M i e)
                        else (d (Z.to_nat j), u (Z.to_nat j), centroid M (Z.to_nat j)) in
    (d i + d') / 2 * (edgelength M i e / distance (centroid M i) p) * (u' - u i)) [0; 1; 2]%nat).

Theorem C66_operator : forall M d db, sound M ->
  exists A, elliptic_matrix M d db = Some A /\
    forall u g i, (i < ntri M)%nat ->
      csr_mv A (extend (ntri M) u g) i = if Rltb 0 (d i) then edge_terms M d db u g i else 0.
Proof.
  intros M d db Sd. destruct (matrix_exists M d db) as (A & EA & _). exists A. split; [exact EA|]. intros u g i Hi.
  rewrite (mv_spec M d db A _ i Sd EA Hi). unfold edge_terms.
  assert (Xi : extend (ntri M) u g i = u i) by (unfold extend; destruct (Nat.ltb_spec i (ntri M)); [reflexivity|lia]).
  destruct (Rltb_spec 0 (d i)) as [P|P].
  - apply Rsum_map_ext_in. intros e He. assert (He' : (e < 3)%nat) by (cbn [In] in He; lia).
    pose proof (s_range M Sd i e Hi He') as Rg. rewrite Xi. unfold weight. destruct (Rleb_spec (d i) 0); [lra|].
    unfold h_other, other_point, col, geo_index. destruct (Z.ltb_spec (neighbour M i e) 0) as [L|L].
    + destruct (Z.ltb_spec (Z.of_nat (ntri M) + (- neighbour M i e - 1)) (Z.of_nat (ntri M))); [lia|].
      replace (Z.of_nat (ntri M) + (- neighbour M i e - 1) - Z.of_nat (ntri M))%Z with (- neighbour M i e - 1)%Z by lia.
      unfold extend. destruct (Nat.ltb_spec (Z.to_nat (Z.of_nat (ntri M) + (- neighbour M i e - 1))) (ntri M)); [lia|].
      replace (Z.to_nat (Z.of_nat (ntri M) + (- neighbour M i e - 1)) - ntri M)%nat with (Z.to_nat (- neighbour M i e - 1)) by lia.
      unfold Rdiv. ring.
    + destruct (Z.ltb_spec (neighbour M i e) (Z.of_nat (ntri M))); [|lia].
      unfold extend. destruct (Nat.ltb_spec (Z.to_nat (neighbour M i e)) (ntri M)); [|lia]. unfold Rdiv. ring.
  - apply Rsum_map_zero. intros e _. unfold weight. destruct (Rleb_spec (d i) 0); [ring|lra].
Qed.
Print Assumptions C66_operator.

(** Each row holds its columns in increasing order. *)
Theorem C66_columns : forall M d db A i, sound M -> elliptic_matrix M d db = Some A -> (i < ntri M)%nat ->
  exists c0 c1 c2 c3, map fst (row_entries A i) = [c0; c1; c2; c3] /\ (c0 < c1 < c2)%nat /\ (c2 < c3)%nat /\ (c3 < ntri M + nbdry M)%nat /\
    forall k, In k [c0; c1; c2; c3] <-> k = i \/ exists e, (e < 3)%nat /\
      (neighbour M i e = Z.of_nat k \/ (neighbour M i e < 0)%Z /\ Z.of_nat k = (Z.of_nat (ntri M) - neighbour M i e - 1)%Z).
Proof.
  intros M d db A i Sd EA Hi. destruct (matrix_exists M d db) as (A' & EA' & HA). assert (A' = A) by congruence. subst A'.
  specialize (HA i Hi). unfold row in HA. destruct (quick4 (cols M i)) as (s & Es & P & (S0 & S1) & S2). rewrite Es in HA. injection HA as HA. rewrite <- HA.
  destruct (geo_distinct M i 0 Sd Hi) as (N0 & F0 & D0); [lia|].
  destruct (geo_distinct M i 1 Sd Hi) as (N1 & F1 & D1); [lia|].
  destruct (geo_distinct M i 2 Sd Hi) as (N2 & F2 & D2); [lia|].
  assert (geo_index M i 1 <> geo_index M i 0) by (intros E; specialize (D0 1%nat ltac:(lia) E); lia).
  assert (geo_index M i 2 <> geo_index M i 0) by (intros E; specialize (D0 2%nat ltac:(lia) E); lia).
  assert (geo_index M i 2 <> geo_index M i 1) by (intros E; specialize (D1 2%nat ltac:(lia) E); lia).
  change [cols M i 0%Z; cols M i 1%Z; cols M i 2%Z; cols M i 3%Z] with [geo_index M i 0; geo_index M i 1; geo_index M i 2; Z.of_nat i] in P.
  assert (St : forall x, In x [geo_index M i 0; geo_index M i 1; geo_index M i 2; Z.of_nat i] -> fst (stored M d db i x) = Z.to_nat x).
  { intros x Hx. unfold stored. destruct (Z.eqb_spec x (Z.of_nat i)); [subst; cbn; lia|].
    destruct (Z.eqb_spec x (geo_index M i 0)); [subst; reflexivity|]. destruct (Z.eqb_spec x (geo_index M i 1)); [subst; reflexivity|].
    cbn [In] in Hx. cbn [fst]. f_equal. intuition congruence. }
  assert (In4 : forall x, In x [s 0%Z; s 1%Z; s 2%Z; s 3%Z] -> In x [geo_index M i 0; geo_index M i 1; geo_index M i 2; Z.of_nat i]).
  { intros x. apply Permutation_in, Permutation_sym, P. }
  assert (Nd : NoDup [s 0%Z; s 1%Z; s 2%Z; s 3%Z]).
  { apply (Permutation_NoDup P). repeat constructor; cbn [In]; intuition congruence. }
  assert (Q01 : s 0%Z <> s 1%Z) by (inversion Nd; cbn [In] in *; intuition congruence).
  assert (Q12 : s 1%Z <> s 2%Z) by (inversion Nd as [|? ? ? Nd1]; inversion Nd1; cbn [In] in *; intuition congruence).
  assert (Q23 : s 2%Z <> s 3%Z) by (inversion Nd as [|? ? ? Nd1]; inversion Nd1 as [|? ? ? Nd2]; inversion Nd2; cbn [In] in *; intuition congruence).
  assert (Gr : forall x, In x [geo_index M i 0; geo_index M i 1; geo_index M i 2; Z.of_nat i] -> (0 <= x < Z.of_nat (ntri M + nbdry M))%Z).
  { assert (G : forall e, (e < 3)%nat -> (0 <= geo_index M i e < Z.of_nat (ntri M + nbdry M))%Z).
    { intros e He. pose proof (s_range M Sd i e Hi He). unfold geo_index. destruct (Z.ltb_spec (neighbour M i e) 0); lia. }
    pose proof (G 0%nat ltac:(lia)); pose proof (G 1%nat ltac:(lia)); pose proof (G 2%nat ltac:(lia)).
    intros x Hx. cbn [In] in Hx. destruct Hx as [<-|[<-|[<-|[<-|[]]]]]; auto. lia. }
  assert (B : forall x, In x [s 0%Z; s 1%Z; s 2%Z; s 3%Z] -> (0 <= x < Z.of_nat (ntri M + nbdry M))%Z) by auto.
  pose proof (B (s 0%Z) ltac:(cbn [In]; auto)). pose proof (B (s 1%Z) ltac:(cbn [In]; auto)). pose proof (B (s 2%Z) ltac:(cbn [In]; auto)). pose proof (B (s 3%Z) ltac:(cbn [In]; auto)).
  exists (Z.to_nat (s 0%Z)), (Z.to_nat (s 1%Z)), (Z.to_nat (s 2%Z)), (Z.to_nat (s 3%Z)).
  split; [cbn [map]; rewrite !St by (apply In4; cbn [In]; auto 6); reflexivity|].
  split; [lia|]. split; [lia|]. split; [lia|].
  assert (G : forall k e, (e < 3)%nat -> (geo_index M i e = Z.of_nat k <-> neighbour M i e = Z.of_nat k \/ (neighbour M i e < 0)%Z /\ Z.of_nat k = (Z.of_nat (ntri M) - neighbour M i e - 1)%Z)).
  { intros k e He. unfold geo_index. destruct (Z.ltb_spec (neighbour M i e) 0); lia. }
  intros k. split.
  - intros Hk. assert (I : In (Z.of_nat k) [s 0%Z; s 1%Z; s 2%Z; s 3%Z]).
    { cbn [In] in *. destruct Hk as [K|[K|[K|[K|[]]]]]; subst k; rewrite Z2Nat.id by lia; auto 6. }
    apply In4 in I. cbn [In] in I. destruct I as [I|[I|[I|[I|[]]]]].
    + right. exists 0%nat. split; [lia|apply G; auto].
    + right. exists 1%nat. split; [lia|apply G; auto].
    + right. exists 2%nat. split; [lia|apply G; auto].
    + left. lia.
  - intros Hk. assert (I : In (Z.of_nat k) [geo_index M i 0; geo_index M i 1; geo_index M i 2; Z.of_nat i]).
    { destruct Hk as [->|(e & He & Hk)]; [cbn [In]; auto 6|]. apply G in Hk; [|exact He]. rewrite <- Hk.
      destruct e as [|[|[|e]]]; [cbn [In]; auto 6|cbn [In]; auto 6|cbn [In]; auto 6|lia]. }
    apply (Permutation_in _ P) in I. cbn [In] in *. destruct I as [I|[I|[I|[I|[]]]]]; rewrite I, Nat2Z.id; auto 6.
Qed.
Print Assumptions C66_columns.

(** With every triangle wet the interior part is symmetric. *)
Theorem C66_symmetric : forall M d db A, sound M -> mutual M -> elliptic_matrix M d db = Some A ->
  (forall k, (k < ntri M)%nat -> 0 < d k) ->
  forall i j, (i < ntri M)%nat -> (j < ntri M)%nat -> csr_mv A (unit j) i = csr_mv A (unit i) j.
Proof.
  intros M d db A Sd (twin & Mu) EA Hd i j Hi Hj. destruct (Nat.eq_dec i j) as [->|Nij]; [reflexivity|].
  rewrite !(mv_spec M d db A _ _ Sd EA) by assumption.
  assert (Z1 : unit j i = 0) by (unfold unit; destruct (Nat.eqb_spec i j); [contradiction|reflexivity]).
  assert (Z2 : unit i j = 0) by (unfold unit; destruct (Nat.eqb_spec j i); [congruence|reflexivity]).
  assert (K : forall a b, (a < ntri M)%nat -> (b < ntri M)%nat -> (forall e, (e < 3)%nat -> neighbour M a e <> Z.of_nat b) ->
    forall e, (e < 3)%nat -> unit b (col M a e) = 0).
  { intros a b Ha Hb Q e He. unfold unit. destruct (Nat.eqb_spec (col M a e) b) as [E|]; [|reflexivity]. exfalso.
    pose proof (s_range M Sd a e Ha He). destruct (Z_lt_le_dec (neighbour M a e) 0) as [L|L]; [pose proof (col_boundary M a e L); lia|].
    rewrite (col_interior M a e (Z.to_nat (neighbour M a e))) in E by lia. apply (Q e He). lia. }
  assert (K1 : forall a b e, (a < ntri M)%nat -> (b < ntri M)%nat -> (e < 3)%nat -> neighbour M a e = Z.of_nat b -> forall e', (e' < 3)%nat ->
    unit b (col M a e') = if (e' =? e)%nat then 1 else 0).
  { intros a b e Ha Hb He E e' He'. destruct (Nat.eqb_spec e' e) as [->|Ne].
    - rewrite (col_interior M a e b Hb E). unfold unit. now rewrite Nat.eqb_refl.
    - unfold unit. destruct (Nat.eqb_spec (col M a e') b) as [E'|]; [|reflexivity]. exfalso. apply Ne.
      destruct (geo_distinct M a e Sd Ha He) as (G0 & _ & G). apply G; [exact He'|]. destruct (geo_distinct M a e' Sd Ha He') as (G0' & _ & _).
      rewrite <- (col_interior M a e b Hb E) in E'. unfold col in E'. lia. }
  rewrite Z1, Z2.
  destruct (existsb (fun e => (neighbour M i e =? Z.of_nat j)%Z) [0; 1; 2]%nat) eqn:Ex.
  - apply existsb_exists in Ex as (e & Ie & E). apply Z.eqb_eq in E. assert (He : (e < 3)%nat) by (cbn [In] in Ie; lia).
    destruct (Mu i e Hi He) as (T1 & T2 & T3); [lia|]. rewrite E, Nat2Z.id in T2, T3.
    pose proof (weight_twin M d db i e j (twin i e) Sd Hi He E Hj T1 T2 T3 (Hd i Hi) (Hd j Hj)) as Ew.
    cbn [map Rsum]. rewrite !(K1 i j e Hi Hj He E) by lia. rewrite !(K1 j i (twin i e) Hj Hi T1 T2) by lia.
    transitivity (weight M d db i e).
    + destruct e as [|[|[|e]]]; [| | |lia]; cbn [Nat.eqb]; ring.
    + rewrite <- Ew. clear Ew T2 T3. destruct (twin i e) as [|[|[|t]]]; [| | |lia]; cbn [Nat.eqb]; ring.
  - assert (N1 : forall e, (e < 3)%nat -> neighbour M i e <> Z.of_nat j).
    { intros e He E. assert (existsb (fun e => (neighbour M i e =? Z.of_nat j)%Z) [0; 1; 2]%nat = true); [|congruence].
      apply existsb_exists. exists e. split; [cbn [In]; lia|now apply Z.eqb_eq]. }
    assert (N2 : forall e, (e < 3)%nat -> neighbour M j e <> Z.of_nat i).
    { intros e He E. destruct (Mu j e Hj He) as (T1 & T2 & _); [lia|]. rewrite E, Nat2Z.id in T2. exact (N1 _ T1 T2). }
    cbn [map Rsum]. rewrite !(K i j Hi Hj N1) by lia. rewrite !(K j i Hj Hi N2) by lia. ring.
Qed.
Print Assumptions C66_symmetric.

(** It takes energy out, dry triangles included, as long as they are at rest. *)
Theorem C66_dissipation : forall M d db A u, sound M -> mutual M -> elliptic_matrix M d db = Some A ->
  (forall k, (k < ntri M)%nat -> 0 <= d k) -> (forall k, (k < nbdry M)%nat -> 0 <= db k) ->
  (forall k, (k < ntri M)%nat -> d k <= 0 -> u k = 0) ->
  Rsum (map (fun i => u i * csr_mv A (extend (ntri M) u (fun _ => 0)) i) (seq 0 (ntri M))) <= 0.
Proof. exact dissipation. Qed.
Print Assumptions C66_dissipation.

(** Two triangles (0,0),(1,0),(0,1) and (1,0),(2,2),(0,1). *)
Definition kite : mesh :=
  Mesh 2 4 (fun i e => nth e (nth i [[1; -1; -2]; [0; -3; -4]]%Z []) 0%Z)
    (fun i => nth i [(1 / 3, 1 / 3); (1, 1)] (0, 0))
    (fun i e => nth e (nth i [[(1 / 2, 1 / 2); (0, 1 / 2); (1 / 2, 0)]; [(1 / 2, 1 / 2); (3 / 2, 1); (1, 3 / 2)]] []) (0, 0))
    (fun i e => nth e (nth i [[sqrt 2; 1; 1]; [sqrt 2; sqrt 5; sqrt 5]] []) 0)
    (fun i => nth i [1 / 2; 3 / 2] 0).

Lemma kite_sound : sound kite.
Proof.
  assert (0 < sqrt 2) by (apply sqrt_lt_R0; lra). assert (0 < sqrt 5) by (apply sqrt_lt_R0; lra).
  split; cbn [ntri nbdry kite]; intros i e.
  - intros Hi He. destruct i as [|[|i]]; [| |lia]; (destruct e as [|[|[|e]]]; [| | |lia]); cbn; lia.
  - intros Hi He. destruct i as [|[|i]]; [| |lia]; (destruct e as [|[|[|e]]]; [| | |lia]); cbn; lia.
  - intros e' Hi He. destruct i as [|[|i]]; [| |lia]; (destruct e as [|[|[|e]]]; [| | |lia]); (destruct e' as [|[|[|e']]]; [| | |lia]); cbn; intros; lia.
  - intros Hi He. destruct i as [|[|i]]; [| |lia]; (destruct e as [|[|[|e]]]; [| | |lia]); cbn; lra.
  - intros Hi He. destruct i as [|[|i]]; [| |lia]; (destruct e as [|[|[|e]]]; [| | |lia]); cbn; intros E; injection E; intros; lra.
Qed.
Lemma kite_mutual : mutual kite.
Proof.
  exists (fun _ _ => 0%nat). intros i e. cbn [ntri kite]. intros Hi He. destruct i as [|[|i]]; [| |lia]; (destruct e as [|[|[|e]]]; [| | |lia]); cbn; intros; repeat split; lia.
Qed.
Example C66_example : exists M, sound M /\ mutual M /\ ntri M = 2%nat.
Proof. exists kite. refine (conj kite_sound (conj kite_mutual eq_refl)). Qed.

(** The weight of the shared edge of the example. *)
Lemma kite_weight d db : 0 < d 0%nat -> weight kite d db 0 0 = 3 / 4 * (d 0%nat + d 1%nat).
Proof.
  intros H. unfold weight. destruct (Rleb_spec (d 0%nat) 0); [lra|]. unfold h_other, geo_index, other_point, distance. cbn. try change (Pos.to_nat 1) with 1%nat. cbn.
  replace ((1 / 3 - 1) * (1 / 3 - 1) + (1 / 3 - 1) * (1 / 3 - 1)) with ((2 / 3) * (2 / 3) * 2) by field.
  rewrite sqrt_mult, sqrt_square by lra. assert (0 < sqrt 2) by (apply sqrt_lt_R0; lra). field. lra.
Qed.
Lemma kite_weight' d db : 0 < d 1%nat -> weight kite d db 1 0 = 3 / 4 * (d 0%nat + d 1%nat).
Proof.
  intros H. unfold weight. destruct (Rleb_spec (d 1%nat) 0); [lra|]. unfold h_other, geo_index, other_point, distance. cbn. try change (Pos.to_nat 1) with 1%nat. cbn.
  replace ((1 - 1 / 3) * (1 - 1 / 3) + (1 - 1 / 3) * (1 - 1 / 3)) with ((2 / 3) * (2 / 3) * 2) by field.
  rewrite sqrt_mult, sqrt_square by lra. assert (0 < sqrt 2) by (apply sqrt_lt_R0; lra). field. lra.
Qed.

(** Beside a dry triangle the matrix is not symmetric: the row of the dry
    triangle is zero, the wet neighbour's entry for it is not. *)
Theorem C66_dry_refuted : exists M d db A i j, sound M /\ mutual M /\ (i < ntri M)%nat /\ (j < ntri M)%nat /\
  (forall k, 0 <= d k) /\ (forall k, 0 <= db k) /\ elliptic_matrix M d db = Some A /\
  csr_mv A (unit j) i = 0 /\ csr_mv A (unit i) j = 3 / 4.
Proof.
  set (d := fun k : nat => if (k =? 0)%nat then 1 else 0).
  destruct (matrix_exists kite d (fun _ => 0)) as (A & EA & _).
  exists kite, d, (fun _ => 0), A, 1%nat, 0%nat.
  split; [exact kite_sound|]. split; [exact kite_mutual|]. split; [cbn; lia|]. split; [cbn; lia|].
  split; [intros k; unfold d; destruct (k =? 0)%nat; lra|]. split; [intros; lra|]. split; [exact EA|].
  rewrite !(mv_spec kite d (fun _ => 0) A _ _ kite_sound EA) by (cbn; lia). split.
  - assert (W : forall e, weight kite d (fun _ => 0) 1 e = 0). { intros e. unfold weight. replace (d 1%nat) with 0 by reflexivity. destruct (Rleb_spec 0 0); [reflexivity|lra]. }
    cbn [map Rsum]. rewrite !W. ring.
  - cbn [map Rsum]. rewrite kite_weight by (unfold d; cbn; lra).
    replace (unit 1 (col kite 0 0)) with 1 by reflexivity. replace (unit 1 (col kite 0 1)) with 0 by reflexivity. replace (unit 1 (col kite 0 2)) with 0 by reflexivity.
    replace (unit 1 0) with 0 by reflexivity. unfold d. cbn [Nat.eqb]. field.
Qed.
Print Assumptions C66_dry_refuted.
