(** Lemmas on the OpenMP kernels. *)
From Coq Require Import Reals List ZArith Arith Bool Lia Lra Permutation.
From Verif Require Import RealLib ListLib ArrayLib ParLib FluxModel FluxFunctionProofs FluxFunctionProps FluxProofs
  ReconModel CentroidModel OmpModel.
Import ListNotations.
Local Open Scope R_scope.

Lemma array_eqb_spec a b : reflect (a = b) (array_eqb a b).
Proof.
  destruct a, b; cbn [array_eqb]; try (constructor; congruence);
    (destruct (Nat.eqb_spec i i0); constructor; congruence).
Qed.
Lemma loc_eqb_spec (a b : loc) : reflect (a = b) (loc_eqb a b).
Proof.
  destruct a as [a i], b as [b j]. unfold loc_eqb. cbn [fst snd].
  destruct (array_eqb_spec a b), (Nat.eqb_spec i j); cbn [andb]; constructor; congruence.
Qed.

Lemma put_eq (m : loc -> R) l v x : put loc_eqb m l v x = if loc_eqb x l then v else m x.
Proof. reflexivity. Qed.

(** ** Iterations that access only their own entries *)
Inductive local {A} (k : nat) : prog loc R A -> Prop :=
| local_ret a : local k (Ret a)
| local_rd a f : (forall v, local k (f v)) -> local k (Rd (a, k) f)
| local_wr a v p : local k p -> local k (Wr (a, k) v p).

Lemma local_trace {A} k (p : prog loc R A) m l :
  local k p -> In l (map event_loc (trace loc_eqb p m)) -> snd l = k.
Proof.
  intros H. revert m. induction H as [a|a f H IH|a v p H IH]; intros m Hl; cbn in Hl; [tauto| |];
    destruct Hl as [<-|Hl]; eauto.
Qed.

Lemma local_race_free {A} n (ps : nat -> prog loc R A) m :
  (forall i, (i < n)%nat -> local i (ps i)) -> race_free loc_eqb n ps m.
Proof.
  intros H i j l Hi Hj N W E. apply (writes_In _ _ _ loc_eqb_spec) in W.
  apply (local_trace i) in W; [|auto]. apply (local_trace j) in E; [|auto]. congruence.
Qed.

Lemma alone_unwritten {A} (p : prog loc R A) m l :
  writes loc_eqb l (trace loc_eqb p m) = false -> fst (alone loc_eqb p m) l = m l.
Proof. intros W. rewrite (alone_apply _ _ _ loc_eqb). apply (apply_unwritten _ _ _ loc_eqb_spec). exact W. Qed.

Lemma local_result {A} n (ps : nat -> prog loc R A) m c m' ps' :
  (forall i, (i < n)%nat -> local i (ps i)) -> steps loc_eqb n c (m, ps) (m', ps') -> finished n ps' ->
  (forall a i, (i < n)%nat -> m' (a, i) = fst (alone loc_eqb (ps i) m) (a, i)) /\
  (forall a i, (n <= i)%nat -> m' (a, i) = m (a, i)) /\
  (forall i, (i < n)%nat -> ps' i = Ret (snd (alone loc_eqb (ps i) m))).
Proof.
  intros L H F. pose proof (local_race_free n ps m L) as RF.
  destruct (race_free_result _ _ _ _ loc_eqb_spec _ _ _ _ _ _ RF H F) as (A1 & A2 & A3).
  assert (O : forall a i j, (j < n)%nat -> j <> i -> writes loc_eqb (a, i) (trace loc_eqb (ps j) m) = false).
  { intros a i j Hj N. destruct (writes _ _ _) eqn:W; [|reflexivity]. apply (writes_In _ _ _ loc_eqb_spec) in W.
    apply (local_trace j) in W; [|auto]. cbn in W. congruence. }
  refine (conj _ (conj _ A1)).
  - intros a i Hi. destruct (writes loc_eqb (a, i) (trace loc_eqb (ps i) m)) eqn:W; [apply (A2 i); auto|].
    rewrite alone_unwritten by exact W. apply A3. intros j Hj.
    destruct (Nat.eq_dec j i) as [->|N]; auto.
  - intros a i Hi. apply A3. intros j Hj. apply O; auto. lia.
Qed.

Lemma local_modify {A} k a f (p : prog loc R A) : local k p -> local k (modify (a, k) f p).
Proof. intros H. unfold modify. constructor. intros v. constructor. exact H. Qed.

Lemma alone_modify {A} l f (p : prog loc R A) m :
  alone loc_eqb (modify l f p) m = alone loc_eqb p (put loc_eqb m l (f (m l))).
Proof. reflexivity. Qed.

(** ** Reductions *)
Lemma fold_left_monoid {A} (op : A -> A -> A) (assoc : forall x y z, op (op x y) z = op x (op y z)) l x y :
  fold_left op l (op x y) = op x (fold_left op l y).
Proof. revert y. induction l as [|a l IH]; intros y; cbn; [reflexivity|]. rewrite assoc. apply IH. Qed.

Lemma reduce_plus l threads init : Permutation (concat threads) l -> omp_reduce Rplus 0 init threads = init + Rsum l.
Proof.
  intros P. rewrite <- (Rsum_perm _ _ P). clear P. unfold omp_reduce. revert init.
  induction threads as [|t threads IH]; intros init; cbn [concat map fold_left]; [cbn; lra|].
  rewrite IH, Rsum_app.
  assert (E : forall l x, fold_left Rplus l x = x + Rsum l).
  { clear. induction l as [|a l IH]; intros x; cbn; [lra|]. rewrite IH. lra. }
  rewrite E. lra.
Qed.

Lemma Rsum_flat_map {A} (f : A -> list R) l : Rsum (flat_map f l) = Rsum (map (fun a => Rsum (f a)) l).
Proof. induction l as [|a l IH]; cbn [flat_map map]; [reflexivity|]. rewrite Rsum_app, IH. reflexivity. Qed.

Lemma flat_map_map {A B C} (f : B -> list C) (h : A -> B) l : flat_map f (map h l) = flat_map (fun a => f (h a)) l.
Proof. induction l; cbn; congruence. Qed.

Lemma fold_Rmin_le l x y : fold_left Rmin l x <= y <-> (x <= y \/ exists a, In a l /\ a <= y).
Proof.
  revert x. induction l as [|a l IH]; intros x; cbn [fold_left].
  - split; [tauto|]. intros [H|(a & [] & _)]. exact H.
  - rewrite IH. split.
    + intros [H|(b & Hb & H)]; [|right; exists b; cbn; auto].
      unfold Rmin in H. destruct (Rle_dec x a); [auto|right; exists a; cbn; auto].
    + intros [H|(b & [<-|Hb] & H)]; [left|left|right; eauto]; unfold Rmin; destruct (Rle_dec x a); lra.
Qed.

Lemma same_le x y : (forall z, x <= z <-> y <= z) -> x = y.
Proof. intros H. apply Rle_antisym; apply H; lra. Qed.

Lemma reduce_min l threads big init : init <= big -> Permutation (concat threads) l ->
  omp_reduce Rmin big init threads = fold_left Rmin l init.
Proof.
  intros Hb P. apply same_le. intros z. unfold omp_reduce. rewrite !fold_Rmin_le. split.
  - intros [H|(a & Ha & H)]; [auto|]. apply in_map_iff in Ha as (t & <- & Ht).
    apply fold_Rmin_le in H as [H|(b & Hb' & H)]; [left; lra|].
    right. exists b. split; auto. eapply Permutation_in; [exact P|]. apply in_concat. eauto.
  - intros [H|(a & Ha & H)]; [auto|]. right.
    apply (Permutation_in a (Permutation_sym P)) in Ha. apply in_concat in Ha as (t & Ht & Ha).
    exists (fold_left Rmin t big). split; [apply in_map_iff; eauto|]. apply fold_Rmin_le. right. eauto.
Qed.

(** ** The flux loop *)
Lemma compute_edge_no_wall D r r' e : Z.eqb (edge_flux_type D e) 1 = false -> compute_edge D r e = compute_edge D r' e.
Proof. intros W. unfold compute_edge. cbv zeta. rewrite W. reflexivity. Qed.

Lemma walls_before_S D j : walls_before D (S j) =
  if Z.eqb (edge_flux_type D j) 1 then S (walls_before D j) else walls_before D j.
Proof.
  unfold walls_before. rewrite seq_S, filter_app, app_length. cbn [filter plus].
  destruct (edge_flux_type D j =? 1)%Z; cbn [length]; lia.
Qed.

Lemma counter_fold D n : 
  fst (fold_left (counter_step D) (seq 0 n) (0%nat, fun _ => 0%nat)) = walls_before D n /\
  forall e, snd (fold_left (counter_step D) (seq 0 n) (0%nat, fun _ => 0%nat)) e =
    if (e <? n)%nat && Z.eqb (edge_flux_type D e) 1 then S (walls_before D e) else 0%nat.
Proof.
  induction n as [|n [IH1 IH2]]; [split; reflexivity|].
  rewrite seq_S, fold_left_app. cbn [fold_left plus].
  destruct (fold_left (counter_step D) (seq 0 n) (0%nat, fun _ => 0%nat)) as [c arr]. cbn [fst snd] in *.
  unfold counter_step. rewrite walls_before_S. destruct (Z.eqb (edge_flux_type D n) 1) eqn:W; cbn [fst snd].
  - split; [congruence|]. intros e. unfold upd. destruct (Nat.eqb_spec e n) as [->|N].
    + rewrite W. destruct (Nat.ltb_spec n (S n)); [|lia]. cbn [andb]. congruence.
    + rewrite IH2. destruct (Nat.ltb_spec e n), (Nat.ltb_spec e (S n)); try lia; reflexivity.
  - split; [congruence|]. intros e. unfold upd. destruct (Nat.eqb_spec e n) as [->|N].
    + rewrite W. rewrite andb_false_r. reflexivity.
    + rewrite IH2. destruct (Nat.ltb_spec e n), (Nat.ltb_spec e (S n)); try lia; reflexivity.
Qed.

Lemma counter_edge D e : (e < 3 * number_of_elements D)%nat ->
  compute_edge D (edge_river_wall_counter D e - 1) e = final_edge D e.
Proof.
  intros He. unfold final_edge, edge_river_wall_counter. rewrite (proj2 (counter_fold D _)).
  destruct (Nat.ltb_spec e (3 * number_of_elements D)); [|lia]. cbn [andb].
  destruct (Z.eqb (edge_flux_type D e) 1) eqn:W.
  - f_equal. lia.
  - apply compute_edge_no_wall. exact W.
Qed.

Lemma flux_edges_local D counter sub k is : forall sp ts bs, local k (flux_edges D counter sub k is sp ts bs).
Proof.
  induction is as [|i is IH]; intros; cbn [flux_edges].
  - destruct (Nat.eqb sub 0); [constructor|]; repeat apply local_modify; constructor.
  - cbv zeta. repeat apply local_modify. apply IH.
Qed.
Lemma flux_iteration_local D counter sub k : local k (flux_iteration D counter sub k).
Proof. unfold flux_iteration. do 3 constructor. apply flux_edges_local. Qed.

Lemma put_at (m : loc -> R) l v : put loc_eqb m l v l = v.
Proof. apply (put_same _ _ _ loc_eqb_spec). Qed.
Lemma put_off (m : loc -> R) l v x : x <> l -> put loc_eqb m l v x = m x.
Proof. apply (put_other _ _ _ loc_eqb_spec). Qed.

Ltac putsimp := repeat first [rewrite put_at | rewrite put_off by discriminate].

Section FluxAlone.
Variables (D : domain) (counter : nat -> nat) (sub k : nat).
Let r (i : nat) := compute_edge D (counter (3 * k + i)%nat - 1) (3 * k + i).
Let counted (i : nat) : bool := Nat.eqb sub 0 && Z.eqb (tri_full_flag D k) 1 && Rltb (epsilon D) (er_speed (r i)).

Lemma flux_edges_alone is : forall sp ts bs m,
  let o := alone loc_eqb (flux_edges D counter sub k is sp ts bs) m in
  fst o (SU, k) = fold_left (fun u i => u + c0 (vneg (er_flux (r i)))) is (m (SU, k)) * (1 / areas D k) /\
  fst o (XU, k) = fold_left (fun u i => u + c1 (vneg (er_flux (r i))) - normal_x D (3 * k + i) * er_pg_k (r i)) is (m (XU, k))
                  * (1 / areas D k) /\
  fst o (YU, k) = fold_left (fun u i => u + c2 (vneg (er_flux (r i))) - normal_y D (3 * k + i) * er_pg_k (r i)) is (m (YU, k))
                  * (1 / areas D k) /\
  fst o (MaxSpeed, k) = (if Nat.eqb sub 0 then
     fold_left (fun s i => if counted i then Rmax s (er_speed (r i)) else s) is sp else m (MaxSpeed, k)) /\
  snd o = (ts ++ map (fun i => radii D k * 1 / Rmax (er_speed (r i)) (epsilon D)) (filter counted is),
           bs ++ map (fun i => c0 (vneg (er_flux (r i)))) (filter (fun i => counts_as_boundary D (3 * k + i)) is)).
Proof.
  induction is as [|i is IH]; intros sp ts bs m; cbn [flux_edges]; cbv zeta.
  - destruct (Nat.eqb sub 0); cbn [alone]; rewrite !alone_modify; cbn [alone fst snd fold_left filter map];
      rewrite !app_nil_r; putsimp; auto.
  - rewrite !alone_modify. fold (r i). fold (counted i).
    match goal with |- context [alone loc_eqb (flux_edges _ _ _ _ _ ?a ?b ?c) ?mm] =>
      destruct (IH a b c mm) as (I1 & I2 & I3 & I4 & I5) end.
    rewrite I1, I2, I3, I4, I5. clear I1 I2 I3 I4 I5 IH. putsimp.
    cbn [fold_left filter map]. refine (conj eq_refl (conj eq_refl (conj eq_refl (conj eq_refl _)))).
    destruct (counted i), (counts_as_boundary D (3 * k + i)); cbn [map]; rewrite <- ?app_assoc; reflexivity.
Qed.
End FluxAlone.

(** ** The same edge seen from its two triangles *)
Lemma flux_swap ql qr hl hr hle hre n1 n2 eps ze g lf :
  let F := flux_function_central ql qr hl hr hle hre n1 n2 eps ze g lf in
  flux_function_central qr ql hr hl hre hle (- n1) (- n2) eps ze g lf
  = Flux (vneg (f_edge F)) (f_speed F) (f_pressure F).
Proof.
  intros F. destruct (C10_antisymmetric ql qr hl hr hle hre n1 n2 eps ze g lf) as (A & B & C & E & P & _).
  fold F in A, B, C, E, P.
  destruct (flux_function_central qr ql hr hl hre hle (- n1) (- n2) eps ze g lf) as [[x y z] s p].
  cbn in *. subst. reflexivity.
Qed.

Lemma adjust_swap F hl hr g wh Q s1 s2 h1 h2 sp :
  (hl = hr -> tiny <= hl /\ s2 <= 1) ->
  adjust_edgeflux_with_weir (vneg F) hr hl g wh Q s1 s2 h1 h2 sp =
  (vneg (fst (adjust_edgeflux_with_weir F hl hr g wh Q s1 s2 h1 h2 sp)),
   snd (adjust_edgeflux_with_weir F hl hr g wh Q s1 s2 h1 h2 sp)).
Proof.
  intros H. pose proof tiny_pos as Ht. unfold adjust_edgeflux_with_weir.
  rewrite (Rmin_comm hr hl), (Rmax_comm hr hl). cbv zeta. cbn [fst snd].
  set (rw0 := Q * (2 / 3) * Rmax hl hr * sqrt (2 / 3 * g * Rmax hl hr)).
  set (rat := Q * (2 / 3) * Rmin hl hr * sqrt (2 / 3 * g * Rmin hl hr) / Rmax rw0 tiny).
  set (rw := rw0 * cpow (1 - rat) (385 / 1000)).
  set (hdRat := Rmin hl hr / Rmax (Rmax hl hr) tiny).
  set (hdWrRat := Rmin hl hr / Rmax wh tiny).
  set (w1 := Rmin (Rmax (hdRat - s1) 0 / (s2 - s1)) 1).
  set (w2 := Rmin (Rmax (hdWrRat - h1) 0 / (h2 - h1)) 1).
  assert (K : forall E E', E' = vneg E ->
    (E', if Rltb 0 (Rabs (c0 E')) then sqrt (g * (Rmax hl hr + wh)) + Rabs (c0 E' / (Rmax hl hr + / 10 ^ 12)) else sp) =
    (vneg E, if Rltb 0 (Rabs (c0 E)) then sqrt (g * (Rmax hl hr + wh)) + Rabs (c0 E / (Rmax hl hr + / 10 ^ 12)) else sp)).
  { intros E E' ->. cbn [vneg c0]. rewrite Rabs_Ropp. replace (- c0 E / (Rmax hl hr + / 10 ^ 12)) with
      (- (c0 E / (Rmax hl hr + / 10 ^ 12))) by (unfold Rdiv; ring). rewrite Rabs_Ropp. reflexivity. }
  destruct (Req_dec hl hr) as [E|N].
  - destruct (H E) as [H1 H2].
    assert (Hd : hdRat = 1).
    { unfold hdRat. rewrite <- E, Rmin_left, (Rmax_left hl hl), (Rmax_left hl tiny) by lra. field. lra. }
    assert (X : Rltb hdRat s2 = false) by (apply Rltb_false; lra).
    rewrite X. cbn [andb]. apply K. reflexivity.
  - destruct (Rltb hdRat s2 && Rltb hdWrRat h2); [|apply K; reflexivity].
    set (rwl := if Rltb hl hr then rw * - 1 else rw). set (rwr := if Rltb hr hl then rw * - 1 else rw).
    assert (Er : rwr = - rwl).
    { unfold rwr, rwl. rdestruct; lra. }
    rewrite Er. apply K. cbn [vneg c0 c1 c2]. rewrite Rabs_Ropp.
    set (nf := (rwl * (1 - w1) + w1 * c0 F) * (1 - w2) + w2 * c0 F).
    replace ((- rwl * (1 - w1) + w1 * - c0 F) * (1 - w2) + w2 * - c0 F) with (- nf) by (unfold nf; ring).
    assert (S1 : (if Rltb tiny (Rabs (c0 F)) then - nf / - c0 F else 0) =
                 (if Rltb tiny (Rabs (c0 F)) then nf / c0 F else 0)).
    { destruct (Rltb_spec tiny (Rabs (c0 F))) as [L|L]; [|reflexivity].
      field. intros Z. rewrite Z, Rabs_R0 in L. lra. }
    rewrite S1. unfold vneg. cbn [c0 c1 c2]. f_equal; ring.
Qed.

(** What the OpenMP kernel needs from the mesh and the riverwalls. *)
Record consistent_edges (D : domain) : Prop := {
  ce_normals : forall e, (e < 3 * number_of_elements D)%nat -> interior D e = true ->
    normal_x D (partner D e) = - normal_x D e /\ normal_y D (partner D e) = - normal_y D e;
  ce_lengths : forall e, (e < 3 * number_of_elements D)%nat -> interior D e = true ->
    edgelengths D (partner D e) = edgelengths D e;
  ce_walls : forall e, (e < 3 * number_of_elements D)%nat -> interior D e = true ->
    Z.eqb (edge_flux_type D (partner D e)) 1 = Z.eqb (edge_flux_type D e) 1;
  ce_entries : forall e, (e < 3 * number_of_elements D)%nat -> interior D e = true -> edge_flux_type D e = 1%Z ->
    let w := walls_before D e in let w' := walls_before D (partner D e) in
    riverwall_elevation D w' = riverwall_elevation D w /\
    forall i, (i < 5)%nat ->
      riverwall_props D (riverwall_rowIndex D w' * ncol_riverwall D + i) =
      riverwall_props D (riverwall_rowIndex D w * ncol_riverwall D + i);
  (** the two heads over a wall are not equal and positive below 1e-100 *)
  ce_heads : forall e, (e < 3 * number_of_elements D)%nat -> interior D e = true -> edge_flux_type D e = 1%Z ->
    let w := walls_before D e in
    let z := Rmax (riverwall_elevation D w) (Rmax (bed_edge D e) (bed_edge D (partner D e))) in
    let hl := Rmax (stage_centroid D (e / 3) - z) 0 in
    let hr := Rmax (stage_centroid D (partner D e / 3) - z) 0 in
    hl = hr -> hl = 0 \/ (tiny <= hl /\ riverwall_props D (riverwall_rowIndex D w * ncol_riverwall D + 2) <= 1) }.

Lemma partner_div D e : wf_mesh D -> (e < 3 * number_of_elements D)%nat -> interior D e = true ->
  (partner D e < 3 * number_of_elements D)%nat /\ (partner D e / 3)%nat = Z.to_nat (neighbours D e) /\
  Z.to_nat (neighbours D (partner D e)) = (e / 3)%nat.
Proof.
  intros W He Hi. destruct (wf_range D W e He Hi) as [R1 R2].
  assert (P : (partner D e < 3 * number_of_elements D)%nat) by (unfold partner; lia).
  assert (Q : forall f, (neighbour_edges D f < 3)%nat -> (partner D f / 3)%nat = Z.to_nat (neighbours D f)).
  { intros f Hf. unfold partner. rewrite Nat.mul_comm, Nat.add_comm, Nat.mul_comm, Nat.div_add by lia.
    rewrite Nat.div_small by lia. reflexivity. }
  split; [exact P|split; [apply Q; exact R2|]].
  destruct (wf_back D W e He Hi) as (B1 & B2 & _).
  destruct (wf_range D W _ P B1) as [_ R4]. rewrite <- (Q _ R4), B2. reflexivity.
Qed.

Lemma final_edge_partner D e : wf_mesh D -> consistent_edges D ->
  (e < 3 * number_of_elements D)%nat -> interior D e = true ->
  er_flux (final_edge D (partner D e)) = vneg (er_flux (final_edge D e)) /\
  er_pg_k (final_edge D (partner D e)) = er_pg_n (final_edge D e) /\
  er_speed (final_edge D (partner D e)) = er_speed (final_edge D e).
Proof.
  intros W C He Hi.
  destruct (partner_div D e W He Hi) as (P1 & P2 & P3).
  destruct (wf_back D W e He Hi) as (B1 & B2 & _).
  destruct (ce_normals D C e He Hi) as [N1 N2].
  pose proof (ce_lengths D C e He Hi) as L. pose proof (ce_walls D C e He Hi) as Wl.
  pose proof (ce_entries D C e He Hi) as En. pose proof (ce_heads D C e He Hi) as Hd.
  unfold final_edge. set (w' := walls_before D (partner D e)) in *. set (w := walls_before D e) in *.
  unfold compute_edge. cbv zeta. rewrite B1, B2, Hi, Wl, N1, N2, L, P2, P3.
  destruct (Z.eqb_spec (edge_flux_type D e) 1) as [T|T].
  - destruct (En T) as [En1 En2]. specialize (Hd T). cbv zeta in Hd. rewrite P2 in Hd.
    pose proof (En2 0%nat ltac:(lia)) as Q0. pose proof (En2 1%nat ltac:(lia)) as Q1.
    pose proof (En2 2%nat ltac:(lia)) as Q2. pose proof (En2 3%nat ltac:(lia)) as Q3.
    pose proof (En2 4%nat ltac:(lia)) as Q4. rewrite !Nat.add_0_r in Q0.
    rewrite En1, Q0, Q1, Q2, Q3, Q4. clear En En1 En2 Q0 Q1 Q2 Q3 Q4.
    rewrite (Rmax_comm (bed_edge D (partner D e)) (bed_edge D e)),
      (Rmin_comm (bed_edge D (partner D e)) (bed_edge D e)),
      (Rmax_comm (bed_centroid D (Z.to_nat (neighbours D e))) (bed_centroid D (e / 3))).
    rewrite flux_swap. cbn [f_edge f_speed f_pressure].
    set (z := Rmax (riverwall_elevation D w) (Rmax (bed_edge D e) (bed_edge D (partner D e)))) in *.
    match goal with |- context [flux_function_central ?a ?b ?c ?d ?ee ?f ?gg ?h ?i ?j ?k ?l] =>
      set (F := flux_function_central a b c d ee f gg h i j k l) end.
    cbn [er_flux er_pg_k er_pg_n er_speed].
    split; [|split]; [|reflexivity|].
    + destruct (Rltb (Rmax (bed_centroid D (e / 3)) (bed_centroid D (Z.to_nat (neighbours D e)))) (riverwall_elevation D w));
        [|cbn [fst vneg c0 c1 c2]; unfold vneg; cbn [c0 c1 c2]; f_equal; ring].
      rewrite (orb_comm (Rltb 0 (Rmax (stage_centroid D (Z.to_nat (neighbours D e)) - z) 0))).
      destruct (Rltb 0 (Rmax (stage_centroid D (e / 3) - z) 0) || Rltb 0 (Rmax (stage_centroid D (Z.to_nat (neighbours D e)) - z) 0)) eqn:Pos;
        [|cbn [fst vneg c0 c1 c2]; unfold vneg; cbn [c0 c1 c2]; f_equal; ring].
      rewrite adjust_swap.
      * cbn [fst]. unfold vneg. cbn [c0 c1 c2]. f_equal; ring.
      * intros E. destruct (Hd E) as [Z|H]; [|exact H]. exfalso. rewrite <- E, Z in Pos.
        rewrite (proj2 (Rltb_false 0 0)) in Pos by lra. discriminate.
    + destruct (Rltb (Rmax (bed_centroid D (e / 3)) (bed_centroid D (Z.to_nat (neighbours D e)))) (riverwall_elevation D w));
        [|reflexivity].
      rewrite (orb_comm (Rltb 0 (Rmax (stage_centroid D (Z.to_nat (neighbours D e)) - z) 0))).
      destruct (Rltb 0 (Rmax (stage_centroid D (e / 3) - z) 0) || Rltb 0 (Rmax (stage_centroid D (Z.to_nat (neighbours D e)) - z) 0)) eqn:Pos;
        [|reflexivity].
      rewrite adjust_swap; [reflexivity|].
      intros E. destruct (Hd E) as [Z|H]; [|exact H]. exfalso. rewrite <- E, Z in Pos.
      rewrite (proj2 (Rltb_false 0 0)) in Pos by lra. discriminate.
  - clear En Hd.
    rewrite (Rmax_comm (bed_edge D (partner D e)) (bed_edge D e)).
    rewrite flux_swap. cbn [f_edge f_speed f_pressure er_flux er_pg_k er_pg_n er_speed fst snd].
    split; [|split; reflexivity]. unfold vneg. cbn [c0 c1 c2]. f_equal; ring.
Qed.
