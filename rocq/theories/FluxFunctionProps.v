(** Property C10: the numerical flux is consistent and symmetric. *)
From Coq Require Import Reals List ZArith Bool Lra Psatz.
From Verif Require Import RealLib FluxModel FluxFunctionProofs.
Local Open Scope R_scope.

(** Velocity of a state (stage, x momentum, y momentum) with depth [h] along
    the direction (n1, n2). *)
Definition normal_velocity (q : vec3) (h n1 n2 : R) : R := (c1 q * n1 + c2 q * n2) / h.

(** Exact shallow water flux through a unit normal of a state of depth [h]:
    (h u_n, h u u_n + g h^2/2 n). *)
Definition exact_flux (q : vec3) (h g n1 n2 : R) : vec3 :=
  let un := normal_velocity q h n1 n2 in
  V3 (h * un) (c1 q * un + g * h^2 / 2 * n1) (c2 q * un + g * h^2 / 2 * n2).

(** The flux the scheme transports through the edge: [edgeflux] plus the
    pressure flux along the normal. *)
Definition total_flux (F : flux_result) (n1 n2 : R) : vec3 :=
  V3 (c0 (f_edge F)) (c1 (f_edge F) + f_pressure F * n1) (c2 (f_edge F) + f_pressure F * n2).

(** Equal wet states: the exact flux, for every [low_froude] mode. *)
Theorem C10_consistent :
  forall q h n1 n2 eps ze g lf,
  0 < h -> 0 <= g -> n1^2 + n2^2 = 1 -> tiny <= eps -> eps <= sqrt (g * h) ->
  total_flux (flux_function_central q q h h h h n1 n2 eps ze g lf) n1 n2 = exact_flux q h g n1 n2.
Proof.
  intros q h n1 n2 eps ze g lf Hh Hg Hn He Hc. pose proof tiny_pos as Ht.
  rewrite flux_function_unfold. cbv zeta.
  rewrite (proj2 (Reqb_false h 0)) by lra. cbn [andb].
  unfold flux_body. cbv zeta. set (s := side_state (rotate q n1 n2) h h).
  set (c := sqrt (g * h)) in *. set (fr := local_froude lf s s c c).
  pose proof (smax_ge (s_u s) (s_u s) c c) as (A1 & A2 & _).
  pose proof (smin_le (s_u s) (s_u s) c c) as (B1 & B2 & _).
  set (M := smax (s_u s) (s_u s) c c) in *. set (m := smin (s_u s) (s_u s) c c) in *.
  assert (HD : c <= M - m) by lra.
  rewrite (proj2 (Rltb_false (M - m) eps)) by lra.
  rewrite (Rmax_left (M - m) tiny) by lra.
  assert (E : s = Side ((n1 * c1 q + n2 * c2 q) / h) (n1 * c1 q + n2 * c2 q) (- n2 * c1 q + n1 * c2 q) ((- n2 * c1 q + n1 * c2 q) / h)).
  { unfold s, side_state. rewrite (proj2 (Rltb_true 0 h)) by lra. cbn [rotate c0 c1 c2].
    f_equal; field; lra. }
  unfold total_flux, exact_flux, normal_velocity, rotate; cbn [f_edge f_speed f_pressure c0 c1 c2].
  clearbody M m s fr. subst s. cbn [s_u s_uh s_vh s_v].
  assert (HD' : M - m <> 0) by lra.
  f_equal.
  - field. split; lra.
  - transitivity ((n1 * c1 q + n2 * c2 q) / h * ((n1^2 + n2^2) * c1 q) + g * h^2 / 2 * n1).
    + field. split; lra.
    + rewrite Hn. field. lra.
  - transitivity ((n1 * c1 q + n2 * c2 q) / h * ((n1^2 + n2^2) * c2 q) + g * h^2 / 2 * n2).
    + field. split; lra.
    + rewrite Hn. field. lra.
Qed.
Print Assumptions C10_consistent.

(** Two dry sides exchange nothing. *)
Theorem C10_dry_exchanges_nothing :
  forall ql qr hle hre n1 n2 eps ze g lf,
  flux_function_central ql qr 0 0 hle hre n1 n2 eps ze g lf = Flux (V3 0 0 0) 0 0.
Proof.
  intros. rewrite flux_function_unfold. rewrite (proj2 (Reqb_true 0 0)) by reflexivity. reflexivity.
Qed.
Print Assumptions C10_dry_exchanges_nothing.

(** Exchanging the sides and reversing the normal reverses the flux
    vectors and keeps the speed and the pressure. *)
Theorem C10_antisymmetric :
  forall ql qr hl hr hle hre n1 n2 eps ze g lf,
  let F := flux_function_central ql qr hl hr hle hre n1 n2 eps ze g lf in
  let F' := flux_function_central qr ql hr hl hre hle (- n1) (- n2) eps ze g lf in
  c0 (f_edge F') = - c0 (f_edge F) /\ c1 (f_edge F') = - c1 (f_edge F) /\
  c2 (f_edge F') = - c2 (f_edge F) /\
  f_speed F' = f_speed F /\ f_pressure F' = f_pressure F /\
  total_flux F' (- n1) (- n2) = vneg (total_flux F n1 n2).
Proof.
  intros. unfold F'. rewrite flux_function_swap. cbv zeta. fold F.
  unfold total_flux, vneg. cbn. repeat (split; [reflexivity|]). f_equal; ring.
Qed.
Print Assumptions C10_antisymmetric.

(** Normal velocity of one side as the scheme sees it: zero on a dry side. *)
Definition side_velocity (q : vec3) (he n1 n2 : R) : R :=
  if Rlt_dec 0 he then normal_velocity q he n1 n2 else 0.

Lemma side_u q h he n1 n2 : s_u (side_state (rotate q n1 n2) h he) = side_velocity q he n1 n2.
Proof.
  unfold side_state, side_velocity, Rltb, normal_velocity. destruct (Rlt_dec 0 he); cbn; [|reflexivity].
  field. lra.
Qed.

Lemma speed_of_side u c M m : u + c <= M -> m <= u - c -> Rabs u + c <= Rmax M (- m).
Proof.
  intros. pose proof (Rmax_l M (- m)). pose proof (Rmax_r M (- m)).
  unfold Rabs. destruct (Rcase_abs u); lra.
Qed.

(** The returned speed is non-negative.  Whenever the edge is not dry on both
    sides and one side's wave speed reaches [epsilon], the returned speed
    dominates |u_n| + sqrt(g h) of both sides; otherwise nothing is
    transported through the edge. *)
Theorem C10_max_speed :
  forall ql qr hl hr hle hre n1 n2 eps ze g lf,
  let F := flux_function_central ql qr hl hr hle hre n1 n2 eps ze g lf in
  let wl := Rabs (side_velocity ql hle n1 n2) + sqrt (g * hl) in
  let wr := Rabs (side_velocity qr hre n1 n2) + sqrt (g * hr) in
  0 <= f_speed F /\
  ((hl <> 0 \/ hr <> 0) -> eps <= Rmax wl wr -> wl <= f_speed F /\ wr <= f_speed F) /\
  (f_speed F = 0 /\ f_edge F = V3 0 0 0 \/ wl <= f_speed F /\ wr <= f_speed F).
Proof.
  intros ql qr hl hr hle hre n1 n2 eps ze g lf F wl wr.
  unfold F. rewrite flux_function_unfold. cbv zeta.
  destruct (Reqb_spec hl 0) as [E1|E1], (Reqb_spec hr 0) as [E2|E2]; cbn [andb].
  1: { cbn. split; [lra|]. split; [intros [?|?]; contradiction|]. left; auto. }
  all: unfold flux_body; cbv zeta;
    set (l := side_state (rotate ql n1 n2) hl hle); set (r := side_state (rotate qr n1 n2) hr hre);
    pose proof (side_u ql hl hle n1 n2) as Ul; pose proof (side_u qr hr hre n1 n2) as Ur;
    fold l in Ul; fold r in Ur; unfold wl, wr; rewrite <- Ul, <- Ur;
    set (cl := sqrt (g * hl)); set (cr := sqrt (g * hr));
    pose proof (smax_ge (s_u l) (s_u r) cl cr) as (A1 & A2 & A3);
    pose proof (smin_le (s_u l) (s_u r) cl cr) as (B1 & B2 & B3);
    set (M := smax (s_u l) (s_u r) cl cr) in *; set (m := smin (s_u l) (s_u r) cl cr) in *;
    pose proof (speed_of_side (s_u l) cl M m A2 B2); pose proof (speed_of_side (s_u r) cr M m A3 B3);
    pose proof (Rmax_l M (- m)); pose proof (Rmax_r M (- m));
    assert (Rmax (Rabs (s_u l) + cl) (Rabs (s_u r) + cr) <= M - m)
      by (apply Rmax_lub; unfold Rabs; destruct (Rcase_abs _); lra);
    destruct (Rltb_spec (M - m) eps); cbn [f_speed f_edge].
  all: try (split; [lra|split; [intros _ K; exfalso; lra|left; auto]]).
  all: split; [lra|split; [intros; split; lra|right; split; lra]].
Qed.
Print Assumptions C10_max_speed.

(** Non-vacuity: a wet state at rest with g h = 9.8. *)
Example C10_example :
  tiny <= / 10 ^ 12 /\ / 10 ^ 12 <= sqrt (98 / 10 * 1) /\ 1 ^ 2 + 0 ^ 2 = 1 /\
  total_flux (flux_function_central (V3 1 0 0) (V3 1 0 0) 1 1 1 1 1 0 (/ 10 ^ 12) 0 (98 / 10) 0) 1 0
  = V3 0 (49 / 10) 0.
Proof.
  assert (A : tiny <= / 10 ^ 12).
  { unfold tiny. apply Rinv_le_contravar; [apply pow_lt; lra|]. apply Rle_pow; [lra|]. repeat constructor. }
  assert (B : / 10 ^ 12 <= sqrt (98 / 10 * 1)).
  { apply Rle_trans with 1.
    - rewrite <- Rinv_1. apply Rinv_le_contravar; [lra|]. apply pow_R1_Rle; lra.
    - rewrite <- sqrt_1 at 1. apply sqrt_le_1; lra. }
  split; [exact A|]. split; [exact B|]. split; [ring|].
  rewrite C10_consistent; try lra; auto. unfold exact_flux, normal_velocity; cbn [c0 c1 c2].
  f_equal; field.
Qed.
