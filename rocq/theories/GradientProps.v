(** C40: gradients and linear extrapolation are exact on linear fields. *)
From Coq Require Import Reals List ZArith Arith Lra Lia Bool.
From Verif Require Import RealLib ArrayLib CentroidModel GradientModel.
Import ListNotations.
Local Open Scope R_scope.

(** Twice the signed area of the triangle of three points. *)
Definition cross (x0 y0 x1 y1 x2 y2 : R) : R := (x1 - x0) * (y2 - y0) - (x2 - x0) * (y1 - y0).

(** The gradient reproduces three values at non-collinear points, and it is
    the only (a,b) that does. *)
Theorem C40_gradient :
  forall x0 y0 x1 y1 x2 y2 q0 q1 q2 a b, cross x0 y0 x1 y1 x2 y2 <> 0 ->
  gradient x0 y0 x1 y1 x2 y2 q0 q1 q2 = (a, b) <->
  (q1 = q0 + a * (x1 - x0) + b * (y1 - y0) /\ q2 = q0 + a * (x2 - x0) + b * (y2 - y0)).
Proof.
  intros * H. unfold cross in H. unfold gradient.
  set (det := (y2 - y0) * (x1 - x0) - (y1 - y0) * (x2 - x0)).
  assert (D : det <> 0) by (unfold det; intros E; apply H; lra).
  split.
  - intros E. apply pair_equal_spec in E as (<- & <-). unfold det in *. split; field; exact D.
  - intros (-> & ->). f_equal; unfold det in *; field; exact D.
Qed.
Print Assumptions C40_gradient.

(** The two point gradient reproduces both values and has no component across
    the segment. *)
Theorem C40_gradient2 :
  forall x0 y0 x1 y1 q0 q1, (x0, y0) <> (x1, y1) ->
  let '(a, b) := gradient2 x0 y0 x1 y1 q0 q1 in
  q1 = q0 + a * (x1 - x0) + b * (y1 - y0) /\ a * (y1 - y0) = b * (x1 - x0).
Proof.
  intros * H. unfold gradient2.
  assert (D : (x1 - x0) * (x1 - x0) + (y1 - y0) * (y1 - y0) <> 0).
  { intros E. apply H. apply (Rplus_sqr_eq_0 (x1 - x0) (y1 - y0)) in E as (E1 & E2). f_equal; lra. }
  split; field; exact D.
Qed.
Print Assumptions C40_gradient2.

(** What the kernel needs of triangle k: three distinct surrogate neighbours
    with non-collinear centroids, or exactly one true neighbour. *)
Definition neighbours_ok (M : gmesh) (k : nat) : Prop :=
  let s i := g_surrogate M (3 * k + i)%nat in
  ((g_boundaries M k < 2)%Z ->
     s 0%nat <> s 1%nat /\ s 1%nat <> s 2%nat /\
     cross (g_cx M (s 0%nat)) (g_cy M (s 0%nat)) (g_cx M (s 1%nat)) (g_cy M (s 1%nat)) (g_cx M (s 2%nat)) (g_cy M (s 2%nat)) <> 0) /\
  (g_boundaries M k = 2%Z -> exists j, (j < 3)%nat /\ s j <> k) /\
  (g_boundaries M k = 2%Z -> forall j, (j < 3)%nat -> s j <> k -> (g_cx M (s j), g_cy M (s j)) <> (g_cx M k, g_cy M k)).

Lemma one_neighbour_spec M k : (exists j, (j < 3)%nat /\ g_surrogate M (3 * k + j) <> k) ->
  exists j, (j < 3)%nat /\ one_neighbour M k = g_surrogate M (3 * k + j) /\ g_surrogate M (3 * k + j) <> k.
Proof.
  intros (j & Hj & Hs). unfold one_neighbour.
  destruct (Nat.eqb_spec (g_surrogate M (3 * k + 0)) k) as [E0|E0]; [|exists 0%nat; auto].
  destruct (Nat.eqb_spec (g_surrogate M (3 * k + 1)) k) as [E1|E1]; [|exists 1%nat; auto].
  exists 2%nat. split; [lia|]. split; [reflexivity|]. destruct j as [|[|[|j]]]; try lia; congruence.
Qed.

Lemma gradient_loop_spec M q : forall ks a b, NoDup ks ->
  (forall k, In k ks -> gradient_cell M q k <> None) ->
  let '(a', b', st) := gradient_loop M q ks a b in
  st = 0%Z /\
  (forall k, In k ks -> match gradient_cell M q k with
                        | Some (Some (x, y)) => a' k = x /\ b' k = y
                        | _ => a' k = a k /\ b' k = b k end) /\
  (forall k, ~ In k ks -> a' k = a k /\ b' k = b k).
Proof.
  induction ks as [|k ks IH]; intros a b ND H; cbn [gradient_loop].
  - repeat split; intros k []; auto.
  - inversion ND as [|? ? Hk ND']; subst.
    destruct (gradient_cell M q k) as [[[x y]|]|] eqn:E; [| |exfalso; apply (H k); [left|]; auto].
    + specialize (IH (upd a k x) (upd b k y) ND' (fun j Hj => H j (or_intror Hj))).
      destruct (gradient_loop M q ks (upd a k x) (upd b k y)) as [[a' b'] st]. destruct IH as (S & I1 & I2).
      split; [exact S|]. split.
      * intros j [<-|Hj].
        -- rewrite E. destruct (I2 k Hk) as (A & B). rewrite A, B, !upd_same. auto.
        -- specialize (I1 j Hj). assert (j <> k) by (intros ->; auto).
           rewrite !upd_other in I1 by auto. exact I1.
      * intros j Hj. assert (j <> k) by (intros ->; apply Hj; left; auto).
        destruct (I2 j) as (A & B); [intros F; apply Hj; right; auto|]. rewrite !upd_other in A, B by auto. auto.
    + specialize (IH a b ND' (fun j Hj => H j (or_intror Hj))).
      destruct (gradient_loop M q ks a b) as [[a' b'] st]. destruct IH as (S & I1 & I2).
      split; [exact S|]. split.
      * intros j [<-|Hj]; [rewrite E; apply I2; auto|apply I1; auto].
      * intros j Hj. apply I2. intros F. apply Hj. right. auto.
Qed.

(** On a field that is linear at the centroids [compute_gradients] succeeds;
    triangles with at most one boundary edge get the exact gradient, corner
    triangles the exact slope towards their only neighbour and none across,
    isolated triangles are left alone. *)
Theorem C40_compute_gradients :
  forall M q a0 b0 al be ga,
  (forall k, (k < g_n M)%nat -> neighbours_ok M k) ->
  (forall k, q k = al * g_cx M k + be * g_cy M k + ga) ->
  let '(a, b, status) := compute_gradients M q a0 b0 in
  status = 0%Z /\
  (forall k, (g_n M <= k)%nat -> a k = a0 k /\ b k = b0 k) /\
  forall k, (k < g_n M)%nat ->
  ((g_boundaries M k < 2)%Z -> a k = al /\ b k = be) /\
  (g_boundaries M k = 2%Z -> exists j, (j < 3)%nat /\ g_surrogate M (3 * k + j) <> k /\
     let s := g_surrogate M (3 * k + j) in
     a k * (g_cx M s - g_cx M k) + b k * (g_cy M s - g_cy M k) = q s - q k /\
     a k * (g_cy M s - g_cy M k) = b k * (g_cx M s - g_cx M k)) /\
  ((2 < g_boundaries M k)%Z -> a k = a0 k /\ b k = b0 k).
Proof.
  intros M q a0 b0 al be ga Ok Lin.
  assert (Cell1 : forall k, (k < g_n M)%nat -> (g_boundaries M k < 2)%Z -> gradient_cell M q k = Some (Some (al, be))).
  { intros k Hk Hb. destruct (Ok k Hk) as (O1 & _). destruct (O1 Hb) as (N1 & N2 & Cr).
    unfold gradient_cell. rewrite (proj2 (Z.ltb_lt _ _) Hb), (proj2 (Nat.eqb_neq _ _) N1), (proj2 (Nat.eqb_neq _ _) N2).
    cbn [orb]. do 2 f_equal. apply C40_gradient; [exact Cr|]. rewrite !Lin. split; ring. }
  assert (Cell2 : forall k, (k < g_n M)%nat -> g_boundaries M k = 2%Z -> exists j, (j < 3)%nat /\ g_surrogate M (3 * k + j) <> k /\
     let s := g_surrogate M (3 * k + j) in
     gradient_cell M q k = Some (Some (gradient2 (g_cx M s) (g_cy M s) (g_cx M k) (g_cy M k) (q s) (q k)))).
  { intros k Hk Hb. destruct (Ok k Hk) as (_ & O2 & _). destruct (one_neighbour_spec M k (O2 Hb)) as (j & Hj & E & N).
    exists j. split; [auto|]. split; [auto|]. cbv zeta. unfold gradient_cell. rewrite Hb. cbn [Z.ltb Z.compare Pos.compare Pos.compare_cont Z.eqb Pos.eqb].
    rewrite E, (proj2 (Nat.eqb_neq _ _) N). reflexivity. }
  assert (Cell3 : forall k, (2 < g_boundaries M k)%Z -> gradient_cell M q k = Some None).
  { intros k Hb. unfold gradient_cell. destruct (Z.ltb_spec (g_boundaries M k) 2); [lia|].
    destruct (Z.eqb_spec (g_boundaries M k) 2); [lia|reflexivity]. }
  pose proof (gradient_loop_spec M q (seq 0 (g_n M)) a0 b0 (seq_NoDup _ _)) as L.
  unfold compute_gradients. destruct (gradient_loop M q (seq 0 (g_n M)) a0 b0) as [[a b] st].
  destruct L as (S & I1 & I2).
  { intros k Hk. apply in_seq in Hk. destruct (Z.lt_trichotomy (g_boundaries M k) 2) as [H|[H|H]].
    - rewrite Cell1 by (auto; lia). discriminate.
    - destruct (Cell2 k ltac:(lia) H) as (j & _ & _ & ->). discriminate.
    - rewrite Cell3 by auto. discriminate. }
  split; [exact S|]. split; [intros k Hk; apply I2; rewrite in_seq; lia|].
  intros k Hk. assert (In k (seq 0 (g_n M))) as Hin by (apply in_seq; lia). specialize (I1 k Hin). split; [|split].
  - intros Hb. rewrite (Cell1 k Hk Hb) in I1. exact I1.
  - intros Hb. destruct (Cell2 k Hk Hb) as (j & Hj & N & E). exists j. split; [auto|]. split; [auto|]. cbv zeta in *.
    rewrite E in I1. set (s := g_surrogate M (3 * k + j)) in *.
    destruct (Ok k Hk) as (_ & _ & O3). specialize (O3 Hb j Hj N). fold s in O3.
    pose proof (C40_gradient2 (g_cx M s) (g_cy M s) (g_cx M k) (g_cy M k) (q s) (q k) O3) as G.
    destruct (gradient2 _ _ _ _ _ _) as [x y]. destruct G as (G1 & G2). destruct I1 as (-> & ->). split; lra.
  - intros Hb. rewrite (Cell3 k Hb) in I1. exact I1.
Qed.
Print Assumptions C40_compute_gradients.

(** Extrapolating with the exact gradient gives the exact vertex values and
    the exact values at the edge midpoints. *)
Theorem C40_extrapolation_exact :
  forall M q a b k al be ga,
  q k = al * g_cx M k + be * g_cy M k + ga -> a k = al -> b k = be ->
  (forall i, extrapolate_vertex M q a b k i = al * g_vx M (3 * k + i) + be * g_vy M (3 * k + i) + ga) /\
  (forall i, (i < 3)%nat ->
     let p := (3 * k + (i + 1) mod 3)%nat in let r := (3 * k + (i + 2) mod 3)%nat in
     extrapolate_edge M q a b k i = al * ((g_vx M p + g_vx M r) / 2) + be * ((g_vy M p + g_vy M r) / 2) + ga).
Proof.
  intros * Hq Ha Hb.
  assert (V : forall i, extrapolate_vertex M q a b k i = al * g_vx M (3 * k + i) + be * g_vy M (3 * k + i) + ga).
  { intros i. unfold extrapolate_vertex. rewrite Hq, Ha, Hb. ring. }
  split; [exact V|]. intros i Hi. cbv zeta. unfold extrapolate_edge. rewrite !V.
  destruct i as [|[|[|i]]]; [| | |lia]; cbn [Nat.add Nat.modulo Nat.divmod Nat.sub fst snd]; field.
Qed.
Print Assumptions C40_extrapolation_exact.

(** Whatever the gradient, the centroid keeps its value: the mean of the
    extrapolated vertex (and edge) values is the centroid value. *)
Theorem C40_extrapolation_conservative :
  forall M q a b k,
  g_cx M k = (g_vx M (3 * k + 0) + g_vx M (3 * k + 1) + g_vx M (3 * k + 2)) / 3 ->
  g_cy M k = (g_vy M (3 * k + 0) + g_vy M (3 * k + 1) + g_vy M (3 * k + 2)) / 3 ->
  let v := extrapolate_vertex M q a b k in let e := extrapolate_edge M q a b k in
  (v 0%nat + v 1%nat + v 2%nat) / 3 = q k /\ (e 0%nat + e 1%nat + e 2%nat) / 3 = q k.
Proof. intros * Hx Hy. unfold extrapolate_edge, extrapolate_vertex. rewrite Hx, Hy. split; field. Qed.
Print Assumptions C40_extrapolation_conservative.

(** Vertex to edge interpolation and back are inverse to each other. *)
Theorem C40_interpolation_roundtrip :
  forall v0 v1 v2 e0 e1 e2,
  (let e := interpolate_edge v0 v1 v2 in
   forall i, (i < 3)%nat -> vertex_from_edges (e 0%nat) (e 1%nat) (e 2%nat) i = nth i [v0; v1; v2] 0) /\
  (let v := vertex_from_edges e0 e1 e2 in
   forall i, (i < 3)%nat -> interpolate_edge (v 0%nat) (v 1%nat) (v 2%nat) i = nth i [e0; e1; e2] 0) /\
  (let e := interpolate_edge v0 v1 v2 in
   interpolate_centroid v0 v1 v2 = (e 0%nat + e 1%nat + e 2%nat) / 3).
Proof.
  intros. repeat split; cbv zeta.
  - intros [|[|[|i]]] H; [| | |lia]; cbn [interpolate_edge vertex_from_edges nth]; field.
  - intros [|[|[|i]]] H; [| | |lia]; cbn [interpolate_edge vertex_from_edges nth]; field.
  - cbn [interpolate_edge]; unfold interpolate_centroid; field.
Qed.
Print Assumptions C40_interpolation_roundtrip.

(** The error check compares the first neighbour with the second and the
    second with the third only: equal first and third neighbours are not
    reported although the gradient is undefined (division by zero). *)
Theorem C40_degenerate_neighbours_undetected :
  exists M, forall q, (g_boundaries M 0 < 2)%Z /\ gradient_cell M q 0 <> None /\
  let s i := g_surrogate M i in
  cross (g_cx M (s 0%nat)) (g_cy M (s 0%nat)) (g_cx M (s 1%nat)) (g_cy M (s 1%nat)) (g_cx M (s 2%nat)) (g_cy M (s 2%nat)) = 0.
Proof.
  exists (GMesh 3 (fun _ => 0) (fun _ => 0) (fun _ => 0) (fun _ => 0) (fun _ => 0%Z) (fun i => if Nat.eqb i 1 then 2%nat else 1%nat)).
  intros q. split; [cbn; lia|]. split; [cbn; discriminate|]. unfold cross. cbn [g_cx g_cy]. ring.
Qed.
Print Assumptions C40_degenerate_neighbours_undetected.

(** Non-vacuity: three cells around a central one. *)
Definition ex_mesh : gmesh :=
  GMesh 1 (fun k => match k with 1%nat => 1 | 2%nat => 0 | 3%nat => -1 | _ => 0 end)
          (fun k => match k with 1%nat => 0 | 2%nat => 1 | 3%nat => -1 | _ => 0 end)
          (fun _ => 0) (fun _ => 0) (fun _ => 0%Z) (fun i => S i).
Example C40_example : forall k, (k < g_n ex_mesh)%nat -> neighbours_ok ex_mesh k.
Proof.
  intros k Hk. cbn in Hk. assert (k = 0%nat) by lia. subst. unfold neighbours_ok, cross. cbn.
  split; [intros _; repeat split; try lia; lra|]. split; discriminate.
Qed.
