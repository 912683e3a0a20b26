(** Lemmas about the numerical flux function. *)
From Coq Require Import Reals List ZArith Bool Lra Psatz.
From Verif Require Import RealLib ArrayLib FluxModel.
Local Open Scope R_scope.

Definition side_neg (s : side) : side := Side (- s_u s) (- s_uh s) (- s_vh s) (- s_v s).

Lemma tiny_pos : 0 < tiny.
Proof. unfold tiny. apply Rinv_0_lt_compat. apply pow_lt. lra. Qed.

Lemma rotate_neg q n1 n2 : rotate q (- n1) (- n2) = V3 (c0 q) (- c1 (rotate q n1 n2)) (- c2 (rotate q n1 n2)).
Proof. unfold rotate; simpl. f_equal; ring. Qed.

Lemma side_state_neg q h he :
  side_state (V3 (c0 q) (- c1 q) (- c2 q)) h he = side_neg (side_state q h he).
Proof. unfold side_state, side_neg; simpl. destruct (Rltb 0 he); simpl; f_equal; ring. Qed.

Lemma side_rotate_neg q n1 n2 h he :
  side_state (rotate q (- n1) (- n2)) h he = side_neg (side_state (rotate q n1 n2) h he).
Proof. rewrite rotate_neg. exact (side_state_neg (rotate q n1 n2) h he). Qed.

Lemma local_froude_swap lf l r cl cr :
  local_froude lf (side_neg r) (side_neg l) cr cl = local_froude lf l r cl cr.
Proof.
  unfold local_froude. unfold side_neg; cbn [s_u s_v].
  replace ((- s_u l * - s_u l + - s_u r * - s_u r + - s_v l * - s_v l + - s_v r * - s_v r) /
    (cr * cr + cl * cl + / 10 ^ 10))
    with ((s_u r * s_u r + s_u l * s_u l + s_v r * s_v r + s_v l * s_v l) /
    (cl * cl + cr * cr + / 10 ^ 10)); [reflexivity|].
  f_equal; ring_simplify; lra.
Qed.

(** Clamped wave speeds. *)
Definition smax (ul ur cl cr : R) : R :=
  let m := Rmax (ul + cl) (ur + cr) in if Rltb m 0 then 0 else m.
Definition smin (ul ur cl cr : R) : R :=
  let m := Rmin (ul - cl) (ur - cr) in if Rltb 0 m then 0 else m.

Lemma smax_neg ul ur cl cr : smax (- ur) (- ul) cr cl = - smin ul ur cl cr.
Proof.
  unfold smax, smin. cbv zeta.
  replace (Rmax (- ur + cr) (- ul + cl)) with (- Rmin (ul - cl) (ur - cr)).
  - rdestruct; lra.
  - unfold Rmax, Rmin. destruct (Rle_dec _ _), (Rle_dec _ _); lra.
Qed.
Lemma smin_neg ul ur cl cr : smin (- ur) (- ul) cr cl = - smax ul ur cl cr.
Proof.
  unfold smax, smin. cbv zeta.
  replace (Rmin (- ur - cr) (- ul - cl)) with (- Rmax (ul + cl) (ur + cr)).
  - rdestruct; lra.
  - unfold Rmax, Rmin. destruct (Rle_dec _ _), (Rle_dec _ _); lra.
Qed.

Lemma smax_ge ul ur cl cr : 0 <= smax ul ur cl cr /\ ul + cl <= smax ul ur cl cr /\ ur + cr <= smax ul ur cl cr.
Proof.
  unfold smax. cbv zeta. pose proof (Rmax_l (ul+cl) (ur+cr)). pose proof (Rmax_r (ul+cl) (ur+cr)).
  rdestruct; lra.
Qed.
Lemma smin_le ul ur cl cr : smin ul ur cl cr <= 0 /\ smin ul ur cl cr <= ul - cl /\ smin ul ur cl cr <= ur - cr.
Proof.
  unfold smin. cbv zeta. pose proof (Rmin_l (ul-cl) (ur-cr)). pose proof (Rmin_r (ul-cl) (ur-cr)).
  rdestruct; lra.
Qed.

(** The flux function in terms of the clamped speeds. *)
Definition flux_body (ql0 qr0 : R) (l r : side) (h_left h_right cl cr fr n1 n2 epsilon ze g : R) : flux_result :=
  let sM := smax (s_u l) (s_u r) cl cr in
  let sm := smin (s_u l) (s_u r) cl cr in
  if Rltb (sM - sm) epsilon then
    Flux (V3 0 0 0) 0 (1 / 2 * g * (1 / 2) * (h_left * h_left + h_right * h_right))
  else
    let d := 1 / Rmax (sM - sm) tiny in
    Flux (rotate (V3
        ((sM * (s_u l * h_left) - sm * (s_u r * h_right) + (sM * sm) * (Rmax qr0 ze - Rmax ql0 ze)) * d)
        ((sM * (s_u l * s_uh l) - sm * (s_u r * s_uh r) + fr * (sM * sm) * (s_uh r - s_uh l)) * d)
        ((sM * (s_u l * s_vh l) - sm * (s_u r * s_vh r) + fr * (sM * sm) * (s_vh r - s_vh l)) * d)) n1 (- n2))
      (Rmax sM (- sm))
      (1 / 2 * g * (sM * h_left * h_left - sm * h_right * h_right) * d).

Lemma flux_function_unfold ql qr hl hr hle hre n1 n2 eps ze g lf :
  flux_function_central ql qr hl hr hle hre n1 n2 eps ze g lf =
  if Reqb hl 0 && Reqb hr 0 then Flux (V3 0 0 0) 0 0 else
  let l := side_state (rotate ql n1 n2) hl hle in
  let r := side_state (rotate qr n1 n2) hr hre in
  flux_body (c0 ql) (c0 qr) l r hl hr (sqrt (g * hl)) (sqrt (g * hr))
    (local_froude lf l r (sqrt (g * hl)) (sqrt (g * hr))) n1 n2 eps ze g.
Proof. reflexivity. Qed.

Lemma flux_body_swap ql0 qr0 l r hl hr cl cr fr n1 n2 eps ze g :
  flux_body qr0 ql0 (side_neg r) (side_neg l) hr hl cr cl fr (- n1) (- n2) eps ze g =
  let F := flux_body ql0 qr0 l r hl hr cl cr fr n1 n2 eps ze g in
  Flux (vneg (f_edge F)) (f_speed F) (f_pressure F).
Proof.
  unfold flux_body. cbv zeta. unfold side_neg; cbn [s_u s_uh s_vh s_v].
  rewrite smax_neg, smin_neg.
  set (M := smax (s_u l) (s_u r) cl cr). set (m := smin (s_u l) (s_u r) cl cr).
  replace (- m - - M) with (M - m) by ring.
  destruct (Rltb (M - m) eps); cbn [f_edge f_speed f_pressure].
  - unfold vneg; cbn. f_equal; [f_equal; ring|ring].
  - unfold vneg, rotate; cbn [c0 c1 c2]. f_equal.
    + f_equal; ring.
    + rewrite Ropp_involutive. apply Rmax_comm.
    + ring.
Qed.

Lemma flux_function_swap ql qr hl hr hle hre n1 n2 eps ze g lf :
  flux_function_central qr ql hr hl hre hle (- n1) (- n2) eps ze g lf =
  let F := flux_function_central ql qr hl hr hle hre n1 n2 eps ze g lf in
  Flux (vneg (f_edge F)) (f_speed F) (f_pressure F).
Proof.
  rewrite !flux_function_unfold. cbv zeta. rewrite (andb_comm (Reqb hr 0)).
  destruct (Reqb hl 0 && Reqb hr 0).
  - cbn. unfold vneg; cbn. f_equal. f_equal; ring.
  - rewrite !side_rotate_neg, local_froude_swap. apply flux_body_swap.
Qed.
