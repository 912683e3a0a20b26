(** Property C07: triangle geometry. *)
From Coq Require Import Reals Lra Lia Psatz.
From Verif Require Import RealLib GeometryModel.
Local Open Scope R_scope.

(** Half the cross product of two edge vectors: signed area, positive for
    counter-clockwise vertex order. *)
Definition cross_half (x0 y0 x1 y1 x2 y2 : R) : R :=
  ((x1 - x0) * (y2 - y0) - (x2 - x0) * (y1 - y0)) / 2.

(** Vertex [i] and a point on edge [i] (edge [i] is opposite vertex [i]). *)
Definition vertexi (x0 y0 x1 y1 x2 y2 : R) (i : nat) : R * R :=
  match i with 0%nat => (x0, y0) | 1%nat => (x1, y1) | _ => (x2, y2) end.
Definition edge_point (x0 y0 x1 y1 x2 y2 : R) (i : nat) : R * R :=
  match i with 0%nat => (x1, y1) | 1%nat => (x2, y2) | _ => (x0, y0) end.
Definition edge_end (x0 y0 x1 y1 x2 y2 : R) (i : nat) : R * R :=
  match i with 0%nat => (x2, y2) | 1%nat => (x0, y0) | _ => (x1, y1) end.
Definition dot (a b : R * R) : R := fst a * fst b + snd a * snd b.
Definition vsub (a b : R * R) : R * R := (fst a - fst b, snd a - snd b).

Lemma sq_pos_of_ne a b : (a <> 0 \/ b <> 0) -> 0 < a ^ 2 + b ^ 2.
Proof. intros [H|H]; assert (0 < a^2 \/ 0 < b^2) by nra; nra. Qed.

Lemma len_pos xa ya xb yb xc yc :
  0 < cross_half xa ya xb yb xc yc ->
  0 < (xc - xb)^2 + (yc - yb)^2.
Proof.
  unfold cross_half. intros H.
  destruct (Req_dec (xc - xb) 0) as [E|]; [|apply sq_pos_of_ne; auto].
  destruct (Req_dec (yc - yb) 0) as [F|]; [|apply sq_pos_of_ne; auto].
  exfalso. assert (xc = xb) by lra. assert (yc = yb) by lra. subst. lra.
Qed.

Lemma cross_rot x0 y0 x1 y1 x2 y2 :
  cross_half x1 y1 x2 y2 x0 y0 = cross_half x0 y0 x1 y1 x2 y2.
Proof. unfold cross_half. lra. Qed.

Lemma sqrt_sq_pos a : 0 < a -> 0 < sqrt a /\ sqrt a * sqrt a = a.
Proof. intros. split; [apply sqrt_lt_R0; auto|apply sqrt_sqrt; lra]. Qed.

Section C07.
Variables x0 y0 x1 y1 x2 y2 : R.
Notation T f := (f x0 y0 x1 y1 x2 y2).
Hypothesis ccw : 0 < T cross_half.

Lemma L0 : 0 < l0 x1 y1 x2 y2 /\ l0 x1 y1 x2 y2 * l0 x1 y1 x2 y2 = (x2 - x1)^2 + (y2 - y1)^2.
Proof. apply sqrt_sq_pos. eapply len_pos; eauto. Qed.
Lemma L1 : 0 < l1 x0 y0 x2 y2 /\ l1 x0 y0 x2 y2 * l1 x0 y0 x2 y2 = (x0 - x2)^2 + (y0 - y2)^2.
Proof. apply sqrt_sq_pos. eapply (len_pos x1 y1 x2 y2 x0 y0). rewrite cross_rot. auto. Qed.
Lemma L2 : 0 < l2 x0 y0 x1 y1 /\ l2 x0 y0 x1 y1 * l2 x0 y0 x1 y1 = (x1 - x0)^2 + (y1 - y0)^2.
Proof. apply sqrt_sq_pos. eapply (len_pos x2 y2 x0 y0 x1 y1). rewrite <- cross_rot. auto. Qed.
End C07.

(** The constructor accepts exactly the counter-clockwise non-degenerate
    triangles, and the stored area is half the cross product. *)
Theorem C07_area :
  forall x0 y0 x1 y1 x2 y2,
  area x0 y0 x1 y1 x2 y2 = cross_half x0 y0 x1 y1 x2 y2 /\
  (area_ok x0 y0 x1 y1 x2 y2 = true <-> 0 < cross_half x0 y0 x1 y1 x2 y2).
Proof.
  intros. assert (E : area x0 y0 x1 y1 x2 y2 = cross_half x0 y0 x1 y1 x2 y2)
    by (unfold area, cross_half; lra).
  split; [exact E|]. unfold area_ok. rewrite E. apply Rltb_true.
Qed.
Print Assumptions C07_area.

(** Edge lengths are Euclidean lengths; normals are unit vectors,
    perpendicular to their edge, pointing away from the opposite vertex. *)
Theorem C07_normals_unit_outward :
  forall x0 y0 x1 y1 x2 y2 i, 0 < cross_half x0 y0 x1 y1 x2 y2 -> (i < 3)%nat ->
  let n := normal x0 y0 x1 y1 x2 y2 i in
  let p := edge_point x0 y0 x1 y1 x2 y2 i in
  let q := edge_end x0 y0 x1 y1 x2 y2 i in
  let v := vertexi x0 y0 x1 y1 x2 y2 i in
  let l := edgelength x0 y0 x1 y1 x2 y2 i in
  l = sqrt (dot (vsub q p) (vsub q p)) /\ 0 < l /\
  dot n n = 1 /\ dot n (vsub q p) = 0 /\ dot n (vsub p v) > 0.
Proof.
  intros x0 y0 x1 y1 x2 y2 i H Hi. cbv zeta.
  pose proof (L0 _ _ _ _ _ _ H) as (P0 & S0).
  pose proof (L1 _ _ _ _ _ _ H) as (P1 & S1).
  pose proof (L2 _ _ _ _ _ _ H) as (P2 & S2).
  unfold cross_half in H.
  assert (K : forall l a b, 0 < l -> l * l = b^2 + a^2 -> a / l * (a / l) + - (b / l) * - (b / l) = 1).
  { intros l a b Hl E. replace (a / l * (a / l) + - (b / l) * - (b / l)) with ((b^2 + a^2) / (l * l)) by (field; lra).
    rewrite E. field. nra. }
  destruct i as [|[|[|i]]]; [| | |lia];
    unfold dot, vsub, normal, edgelength, edge_point, edge_end, vertexi; cbn [fst snd].
  - split; [unfold l0; f_equal; ring|]. split; [auto|]. split; [apply K; auto|].
    split; [field; lra|].
    replace ((y2 - y1) / l0 x1 y1 x2 y2 * (x1 - x0) + - ((x2 - x1) / l0 x1 y1 x2 y2) * (y1 - y0))
      with (((y2 - y1) * (x1 - x0) - (x2 - x1) * (y1 - y0)) / l0 x1 y1 x2 y2) by (field; lra).
    apply Rdiv_lt_0_compat; lra.
  - split; [unfold l1; f_equal; ring|]. split; [auto|]. split; [apply K; auto|].
    split; [field; lra|].
    replace ((y0 - y2) / l1 x0 y0 x2 y2 * (x2 - x1) + - ((x0 - x2) / l1 x0 y0 x2 y2) * (y2 - y1))
      with (((y0 - y2) * (x2 - x1) - (x0 - x2) * (y2 - y1)) / l1 x0 y0 x2 y2) by (field; lra).
    apply Rdiv_lt_0_compat; lra.
  - split; [unfold l2; f_equal; ring|]. split; [auto|]. split; [apply K; auto|].
    split; [field; lra|].
    replace ((y1 - y0) / l2 x0 y0 x1 y1 * (x0 - x2) + - ((x1 - x0) / l2 x0 y0 x1 y1) * (y0 - y2))
      with (((y1 - y0) * (x0 - x2) - (x1 - x0) * (y0 - y2)) / l2 x0 y0 x1 y1) by (field; lra).
    apply Rdiv_lt_0_compat; lra.
Qed.
Print Assumptions C07_normals_unit_outward.

(** The edge-length weighted normals sum to zero (closed polygon). *)
Theorem C07_normals_closed :
  forall x0 y0 x1 y1 x2 y2, 0 < cross_half x0 y0 x1 y1 x2 y2 ->
  let n := normal x0 y0 x1 y1 x2 y2 in let l := edgelength x0 y0 x1 y1 x2 y2 in
  l 0%nat * fst (n 0%nat) + l 1%nat * fst (n 1%nat) + l 2%nat * fst (n 2%nat) = 0 /\
  l 0%nat * snd (n 0%nat) + l 1%nat * snd (n 1%nat) + l 2%nat * snd (n 2%nat) = 0.
Proof.
  intros x0 y0 x1 y1 x2 y2 H. cbv zeta.
  pose proof (L0 _ _ _ _ _ _ H) as (P0 & _).
  pose proof (L1 _ _ _ _ _ _ H) as (P1 & _).
  pose proof (L2 _ _ _ _ _ _ H) as (P2 & _).
  unfold normal, edgelength; cbn [fst snd]. split; field; repeat split; lra.
Qed.
Print Assumptions C07_normals_closed.

(** The centroid lies strictly inside: strictly behind every edge. *)
Theorem C07_centroid_inside :
  forall x0 y0 x1 y1 x2 y2 i, 0 < cross_half x0 y0 x1 y1 x2 y2 -> (i < 3)%nat ->
  dot (normal x0 y0 x1 y1 x2 y2 i)
      (vsub (centroid x0 y0 x1 y1 x2 y2) (edge_point x0 y0 x1 y1 x2 y2 i)) < 0.
Proof.
  intros x0 y0 x1 y1 x2 y2 i H Hi.
  pose proof (L0 _ _ _ _ _ _ H) as (P0 & _).
  pose proof (L1 _ _ _ _ _ _ H) as (P1 & _).
  pose proof (L2 _ _ _ _ _ _ H) as (P2 & _).
  unfold cross_half in H.
  assert (K : forall l a, 0 < l -> a < 0 -> a / l < 0).
  { intros l a Hl Ha. assert (0 < - a / l) by (apply Rdiv_lt_0_compat; lra).
    unfold Rdiv in *. lra. }
  destruct i as [|[|[|i]]]; [| | |lia];
    unfold dot, vsub, normal, centroid, edge_point; cbn [fst snd].
  - match goal with |- ?e < 0 => replace e with
      (((y2 - y1) * ((x0 + x1 + x2) / 3 - x1) - (x2 - x1) * ((y0 + y1 + y2) / 3 - y1)) / l0 x1 y1 x2 y2) by (field; lra) end.
    apply K; auto. lra.
  - match goal with |- ?e < 0 => replace e with
      (((y0 - y2) * ((x0 + x1 + x2) / 3 - x2) - (x0 - x2) * ((y0 + y1 + y2) / 3 - y2)) / l1 x0 y0 x2 y2) by (field; lra) end.
    apply K; auto. lra.
  - match goal with |- ?e < 0 => replace e with
      (((y1 - y0) * ((x0 + x1 + x2) / 3 - x0) - (x1 - x0) * ((y0 + y1 + y2) / 3 - y0)) / l2 x0 y0 x1 y1) by (field; lra) end.
    apply K; auto. lra.
Qed.
Print Assumptions C07_centroid_inside.

(** Both radius formulas give a positive number. *)
Theorem C07_radius_positive :
  forall x0 y0 x1 y1 x2 y2, 0 < cross_half x0 y0 x1 y1 x2 y2 ->
  0 < radius_old x0 y0 x1 y1 x2 y2 /\ 0 < radius_inscribed x0 y0 x1 y1 x2 y2.
Proof.
  intros x0 y0 x1 y1 x2 y2 H. split.
  - unfold radius_old.
    assert (K : forall xa ya xb yb xc yc, 0 < cross_half xa ya xb yb xc yc ->
      0 < ((xa + xb + xc) / 3 - (xb + xc) / 2)^2 + ((ya + yb + yc) / 3 - (yb + yc) / 2)^2).
    { clear. intros xa ya xb yb xc yc H. unfold cross_half in H. apply sq_pos_of_ne.
      destruct (Req_dec ((xa + xb + xc) / 3 - (xb + xc) / 2) 0) as [E|]; auto.
      destruct (Req_dec ((ya + yb + yc) / 3 - (yb + yc) / 2) 0) as [F|]; auto.
      exfalso. assert (xa = (xb + xc) / 2) by lra. assert (ya = (yb + yc) / 2) by lra. subst. lra. }
    repeat apply Rmin_glb_lt; apply sqrt_lt_R0; cbn [centroid fst snd].
    + apply K. exact H.
    + replace (x0 + x1 + x2) with (x1 + x2 + x0) by ring. replace (y0 + y1 + y2) with (y1 + y2 + y0) by ring.
      apply K. rewrite cross_rot. exact H.
    + replace (x0 + x1 + x2) with (x2 + x0 + x1) by ring. replace (y0 + y1 + y2) with (y2 + y0 + y1) by ring.
      apply K. rewrite <- cross_rot. exact H.
  - unfold radius_inscribed. rewrite (proj1 (C07_area _ _ _ _ _ _)).
    pose proof (L0 _ _ _ _ _ _ H) as (P0 & _).
    apply Rdiv_lt_0_compat; [lra|].
    assert (0 < sqrt ((x1 - x2)^2 + (y1 - y2)^2)).
    { replace ((x1 - x2)^2 + (y1 - y2)^2) with ((x2 - x1)^2 + (y2 - y1)^2) by ring. exact P0. }
    pose proof (sqrt_pos ((x0 - x1)^2 + (y0 - y1)^2)). pose proof (sqrt_pos ((x2 - x0)^2 + (y2 - y0)^2)). lra.
Qed.
Print Assumptions C07_radius_positive.

(** With [use_inscribed_circle] the radius is that of the inscribed circle:
    some interior point is at exactly that distance from all three edges. *)
Theorem C07_inscribed_radius :
  forall x0 y0 x1 y1 x2 y2, 0 < cross_half x0 y0 x1 y1 x2 y2 ->
  exists c, forall i, (i < 3)%nat ->
  - dot (normal x0 y0 x1 y1 x2 y2 i) (vsub c (edge_point x0 y0 x1 y1 x2 y2 i))
    = radius_inscribed x0 y0 x1 y1 x2 y2.
Proof.
  intros x0 y0 x1 y1 x2 y2 H.
  pose proof (L0 _ _ _ _ _ _ H) as (P0 & S0).
  pose proof (L1 _ _ _ _ _ _ H) as (P1 & S1).
  pose proof (L2 _ _ _ _ _ _ H) as (P2 & S2).
  set (a := l0 x1 y1 x2 y2) in *. set (b := l1 x0 y0 x2 y2) in *. set (c := l2 x0 y0 x1 y1) in *.
  assert (ER : radius_inscribed x0 y0 x1 y1 x2 y2 =
     ((x1 - x0) * (y2 - y0) - (x2 - x0) * (y1 - y0)) / (a + b + c)).
  { unfold radius_inscribed. rewrite (proj1 (C07_area _ _ _ _ _ _)). unfold cross_half.
    replace (sqrt ((x0 - x1)^2 + (y0 - y1)^2)) with c by (unfold c, l2; f_equal; ring).
    replace (sqrt ((x1 - x2)^2 + (y1 - y2)^2)) with a by (unfold a, l0; f_equal; ring).
    replace (sqrt ((x2 - x0)^2 + (y2 - y0)^2)) with b by (unfold b, l1; f_equal; ring).
    field. lra. }
  exists ((a * x0 + b * x1 + c * x2) / (a + b + c), (a * y0 + b * y1 + c * y2) / (a + b + c)).
  intros i Hi. rewrite ER.
  destruct i as [|[|[|i]]]; [| | |lia];
    unfold dot, vsub, normal, edge_point; cbn [fst snd]; fold a b c; field; lra.
Qed.
Print Assumptions C07_inscribed_radius.

(** Non-vacuity. *)
Example C07_example : 0 < cross_half 0 0 4 0 0 3 /\ area 0 0 4 0 0 3 = 6.
Proof. unfold cross_half, area. split; lra. Qed.
