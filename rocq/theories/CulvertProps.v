(** C68: the culvert and weir formulas give a flow that is never negative, never
    exceeds what the inlet and the losses allow, and goes downhill. *)
From Coq Require Import Reals Lra Lia List Bool Rpower Ratan.
From Verif Require Import RealLib CulvertModel CulvertProofs.
Import ListNotations.
Open Scope R_scope.

Lemma resistance_mono ls a b : lossy ls -> 0 < a -> a <= b -> resistance ls b <= resistance ls a.
Proof.
  intros (H1 & H2 & H3) Ha Hab. unfold resistance. apply Rplus_le_compat_l. unfold Rdiv. apply Rmult_le_compat_l.
  - apply Rmult_le_pos; [apply pow2_ge_0|exact H2].
  - apply Rinv_le_contravar; [apply Rpower_pos|]. apply Rle_Rpower_l; lra.
Qed.

(** The last lines of the three functions. *)
Lemma finish_ok Q area fw barrels od (guard : bool) : 0 <= Q -> 0 < area -> 0 <= fw -> 0 <= barrels ->
  (fr <- (if Rleb area 0 then Some 0 else x <- div (Q ^ 2 * fw * barrels) (grav * area ^ 3) ;; root x) ;;
   p <- div velocity_protection area ;; bv <- div Q (area + p) ;; Some (Flow Q bv od area))
  = Some (Flow Q (Q / (area + velocity_protection / area)) od area).
Proof.
  intros HQ Ha Hf Hb. destruct (Rleb_spec area 0); [lra|]. pose proof grav_pos as G.
  assert (P : 0 < grav * area ^ 3) by (apply Rmult_lt_0_compat; [exact G|apply pow_lt, Ha]).
  rewrite div_ok by lra. cbn [bind]. rewrite root_ok.
  2: { apply Rmult_le_pos; [|apply Rlt_le, Rinv_0_lt_compat, P]. repeat apply Rmult_le_pos; try lra. }
  cbn [bind]. rewrite div_ok by lra. cbn [bind].
  assert (V : 0 < velocity_protection / area) by (apply Rdiv_lt_0_compat; [unfold velocity_protection; lra|exact Ha]).
  rewrite div_ok by lra. reflexivity.
Qed.

Lemma barrel_velocity_bounds Q area : 0 <= Q -> 0 < area -> 0 <= Q / (area + velocity_protection / area) <= Q / area.
Proof.
  intros HQ Ha. assert (V : 0 < velocity_protection / area) by (apply Rdiv_lt_0_compat; [unfold velocity_protection; lra|exact Ha]).
  split.
  - apply Rmult_le_pos; [exact HQ|apply Rlt_le, Rinv_0_lt_compat; lra].
  - apply Rmult_le_compat_l; [exact HQ|]. apply Rinv_le_contravar; lra.
Qed.

(** A flow a structure may report: neither the discharge nor the velocity is
    negative, the discharge is at most [qmax], the flow fills at most the section
    of area [amax] and height [dmax]. *)
Definition admissible (qmax amax dmax : R) (f : flow) : Prop :=
  0 <= Qf f <= qmax /\ 0 < farea f <= amax /\ 0 <= odepth f <= dmax /\ 0 <= velocity f <= Qf f / farea f.

(** The head used up at mean velocity [Q/A] through a section of wetted
    perimeter [p]: entry and exit losses, and Manning friction. *)
Definition head_loss (ls : losses) (f : flow) (p : R) : R := (Qf f / farea f) ^ 2 * resistance ls (farea f / p).

Lemma limited_loss ls delta Q area hr hr' : lossy ls -> 0 <= delta -> 0 < area -> 0 < hr -> hr <= hr' -> 0 <= Q ->
  let Q' := Rmin Q (area * sqrt (delta / resistance ls hr)) in (Q' / area) ^ 2 * resistance ls hr' <= delta.
Proof.
  intros Hl Hd Ha Hh Hhh HQ Q'. pose proof (resistance_pos ls hr Hl) as P. pose proof (resistance_pos ls hr' Hl) as P'.
  pose proof (resistance_mono ls hr hr' Hl Hh Hhh) as M. set (r := resistance ls hr) in *. set (r' := resistance ls hr') in *.
  assert (D : 0 <= delta / r) by (apply Rmult_le_pos; [exact Hd|apply Rlt_le, Rinv_0_lt_compat, P]).
  pose proof (sqrt_pos (delta / r)) as S0. pose proof (sqrt_def _ D) as S1. set (v := sqrt (delta / r)) in *.
  assert (Av : 0 <= area * v) by (apply Rmult_le_pos; lra).
  assert (Q0 : 0 <= Q') by (unfold Q'; apply Rmin_glb; lra). assert (Q1 : Q' <= area * v) by (unfold Q'; apply Rmin_r).
  assert (U : 0 <= Q' / area <= v).
  { split; [apply Rmult_le_pos; [exact Q0|apply Rlt_le, Rinv_0_lt_compat, Ha]|].
    apply (Rmult_le_reg_r area); [exact Ha|]. unfold Rdiv. rewrite Rmult_assoc, Rinv_l by lra. lra. }
  set (u := Q' / area) in *. clearbody u r r' v. assert (E : v * v * r = delta) by (rewrite S1; field; lra). rewrite <- E.
  assert (u ^ 2 <= v * v) by (cbn; rewrite Rmult_1_r; apply Rmult_le_compat; lra).
  apply Rmult_le_compat; try lra. apply pow2_ge_0.
Qed.

(** ** Box culverts *)

Definition box_inlet_flow (width depth blockage barrels driving : R) : R :=
  Rmin (544 / 1000 * sqrt grav * ((1 - blockage) * width * barrels) * Rpower driving (3 / 2))
       (702 / 1000 * sqrt grav * ((1 - blockage) * width * barrels) * Rpower depth (89 / 100) * Rpower driving (61 / 100)).

Lemma box_inlet_ok width depth blockage barrels driving : 0 < depth -> 0 < driving ->
  box_inlet (1 - blockage) width depth barrels driving = Some (box_inlet_flow width depth blockage barrels driving).
Proof.
  intros H1 H2. unfold box_inlet. rewrite !powr_pos by assumption. cbn [bind]. f_equal. unfold box_inlet_flow, Rmin.
  rewrite <- !Rmult_assoc.
  set (a := 544 / 1000 * _ * _ * _ * _ * _). set (b := 702 / 1000 * _ * _ * _ * _ * _ * _).
  destruct (Rltb_spec a b), (Rle_dec a b); lra.
Qed.

Lemma box_inlet_flow_pos width depth blockage barrels driving : 0 < width -> 0 < barrels -> blockage < 1 ->
  0 < box_inlet_flow width depth blockage barrels driving.
Proof.
  intros H1 H2 H3. unfold box_inlet_flow. pose proof sqrt_grav_pos.
  assert (0 < (1 - blockage) * width * barrels) by (repeat apply Rmult_lt_0_compat; lra).
  apply Rmin_glb_lt; repeat apply Rmult_lt_0_compat; try lra; apply Rpower_pos.
Qed.

Lemma box_section_spec bw depth d : 0 < bw -> 0 < depth -> 0 < d -> exists od p,
  box_section bw depth d = (od, bw * od, p) /\ 0 < od <= depth /\ bw + 2 * od <= p.
Proof.
  intros H1 H2 H3. unfold box_section. destruct (Rltb_spec depth d).
  - exists depth, (2 * (bw + depth)). repeat split; lra.
  - exists d, (bw + 2 * d). repeat split; lra.
Qed.

Theorem C68_box width depth blockage barrels ls driving delta outlet :
  0 < width -> 0 < depth -> 0 <= blockage -> 0 < barrels -> lossy ls -> 0 < driving -> 0 <= delta ->
  exists f, boyd_box width depth blockage barrels ls driving delta outlet = Some f /\
    (1 <= blockage -> Qf f = 0 /\ velocity f = 0) /\
    (blockage < 1 ->
       let bw := (1 - blockage) * width * barrels in
       admissible (box_inlet_flow width depth blockage barrels driving) (bw * depth) depth f /\
       farea f = bw * odepth f /\
       (driving <= delta -> Qf f = box_inlet_flow width depth blockage barrels driving) /\
       (delta < driving -> head_loss ls f (bw + 2 * odepth f) <= delta /\ (delta = 0 -> Qf f = 0))).
Proof.
  intros Hw Hd Hb Hn Hl He Hdl. unfold boyd_box. destruct (Rleb_spec 1 blockage) as [B|B].
  { eexists. split; [reflexivity|]. split; [intros _; split; reflexivity|lra]. }
  assert (Bl : blockage < 1) by lra. rewrite box_inlet_ok by assumption. cbn [bind].
  pose proof (box_inlet_flow_pos width depth blockage barrels driving Hw Hn Bl) as HQ.
  set (Q := box_inlet_flow width depth blockage barrels driving) in *.
  set (bw := (1 - blockage) * width * barrels). assert (Hbw : 0 < bw) by (unfold bw; repeat apply Rmult_lt_0_compat; lra).
  assert (Dc : exists d, box_dcrit Q bw = Some d /\ 0 < d).
  { unfold box_dcrit. rewrite div_ok by (pose proof (pow_lt bw 2 Hbw); lra). cbn [bind]. rewrite powr_pos.
    - eexists; split; [reflexivity|apply Rpower_pos].
    - pose proof grav_pos. apply Rdiv_lt_0_compat; [apply Rdiv_lt_0_compat; [apply pow_lt, HQ|lra]|apply pow_lt, Hbw]. }
  destruct Dc as (d & -> & Hdc). cbn [bind].
  destruct (box_section_spec bw depth d Hbw Hd Hdc) as (od & p & Es & Hod & Hp). rewrite Es.
  assert (Ha : 0 < bw * od) by (apply Rmult_lt_0_compat; lra). rewrite div_ok by lra. cbn [bind].
  assert (Hr : 0 < bw * od / p) by (apply Rdiv_lt_0_compat; lra). rewrite tailwater_ok by assumption. cbn [bind].
  (* the outlet section *)
  assert (X : exists od' p', (if Rltb depth outlet then (depth, bw * depth, 2 * (bw + depth)) else (od, bw * od, p)) = (od', bw * od', p')
              /\ 0 < od' <= depth /\ bw + 2 * od' <= p').
  { destruct (Rltb depth outlet); [exists depth, (2 * (bw + depth)); repeat split; lra|exists od, p; repeat split; lra]. }
  destruct X as (od' & p' & E' & Hod' & Hp'). rewrite E'.
  assert (Ha' : 0 < bw * od') by (apply Rmult_lt_0_compat; lra). assert (Hr' : 0 < bw * od' / p') by (apply Rdiv_lt_0_compat; lra).
  destruct (Rltb_spec delta driving) as [L|L].
  - rewrite div_ok by lra. cbn [bind]. rewrite tailwater_ok by assumption. cbn [bind].
    set (v := sqrt (delta / resistance ls (bw * od' / p'))) in *. assert (V : 0 <= v) by apply sqrt_pos.
    assert (Av : 0 <= bw * od' * v) by (apply Rmult_le_pos; lra). set (Q' := Rmin Q (bw * od' * v)).
    assert (Q0 : 0 <= Q' <= Q) by (unfold Q'; split; [apply Rmin_glb; lra|apply Rmin_l]).
    rewrite (finish_ok Q' (bw * od') width barrels od' true) by lra.
    eexists. split; [reflexivity|]. split; [lra|]. intros _. unfold admissible, head_loss. cbn [Qf velocity odepth farea].
    refine (conj (conj Q0 (conj (conj Ha' _) (conj _ (barrel_velocity_bounds _ _ (proj1 Q0) Ha')))) (conj eq_refl (conj _ _))).
    + apply Rmult_le_compat_l; lra.
    + lra.
    + lra.
    + intros _. split.
      * apply (limited_loss ls delta Q (bw * od') (bw * od' / p')); try assumption; try lra.
        apply Rmult_le_compat_l; [lra|]. apply Rinv_le_contravar; lra.
      * intros ->. unfold Q', v, Rdiv. rewrite Rmult_0_l, sqrt_0, Rmult_0_r, Rmin_right by lra. reflexivity.
  - cbn [bind]. rewrite (finish_ok Q (bw * od) width barrels od true) by lra.
    eexists. split; [reflexivity|]. split; [lra|]. intros _. unfold admissible, head_loss. cbn [Qf velocity odepth farea].
    refine (conj (conj _ (conj (conj Ha _) (conj _ (barrel_velocity_bounds _ _ _ Ha)))) (conj eq_refl (conj (fun _ => eq_refl) _))); try lra.
    apply Rmult_le_compat_l; lra.
Qed.
Print Assumptions C68_box.

(** ** Pipes *)

Definition pipe_area (D barrels d : R) : R := let a := 2 * acos (1 - 2 * d / D) in barrels * D ^ 2 / 8 * (a - sin a).
Definition pipe_perimeter (D barrels d : R) : R := barrels * D * acos (1 - 2 * d / D).
Definition pipe_inlet_flow (D barrels driving : R) : R :=
  barrels * sqrt grav * Rmin (421 / 1000 * Rpower D (87 / 100) * Rpower driving (163 / 100)) (530 / 1000 * Rpower D (187 / 100) * Rpower driving (63 / 100)).

Lemma pipe_bf_range b : 0 <= b < 1 -> 0 < pipe_bf b <= 1.
Proof.
  intros H. unfold pipe_bf. destruct (Rltb_spec (9 / 10) b); [lra|]. assert (0 <= b ^ 2 <= 81 / 100) by (cbn; nra). lra.
Qed.

Lemma pipe_inlet_ok D barrels driving : 0 < D -> 0 < barrels -> 0 < driving ->
  pipe_inlet D barrels driving = Some (pipe_inlet_flow D barrels driving) /\ 0 < pipe_inlet_flow D barrels driving.
Proof.
  intros H1 H2 H3. pose proof sqrt_grav_pos as G. unfold pipe_inlet, pipe_inlet_flow. rewrite !powr_pos by assumption. cbn [bind]. split.
  - f_equal.
    set (x := 421 / 1000 * Rpower D (87 / 100) * _). set (y := 530 / 1000 * Rpower D (187 / 100) * _).
    replace (barrels * (421 / 1000 * sqrt grav * Rpower D (87 / 100) * Rpower driving (163 / 100))) with (barrels * sqrt grav * x) by (unfold x; ring).
    replace (barrels * (530 / 1000 * sqrt grav * Rpower D (187 / 100) * Rpower driving (63 / 100))) with (barrels * sqrt grav * y) by (unfold y; ring).
    assert (K : 0 < barrels * sqrt grav) by (apply Rmult_lt_0_compat; lra). set (k := barrels * sqrt grav) in *. clearbody k x y.
    unfold Rmin. destruct (Rle_dec (k * x) (k * y)), (Rle_dec x y); try reflexivity; nra.
  - apply Rmult_lt_0_compat; [apply Rmult_lt_0_compat; lra|]. apply Rmin_glb_lt; repeat apply Rmult_lt_0_compat; try lra; apply Rpower_pos.
Qed.

Lemma acos_pos x : -1 <= x < 1 -> 0 < acos x <= PI.
Proof.
  intros H. pose proof (acos_bound x) as [B1 B2]. split; [|exact B2]. destruct (Rle_lt_or_eq_dec _ _ B1) as [L|E]; [exact L|].
  pose proof (cos_acos x ltac:(lra)) as C. rewrite <- E, cos_0 in C. lra.
Qed.

Lemma segment_bounds a : 0 < a <= 2 * PI -> 0 < a - sin a <= 2 * PI.
Proof.
  intros H. split.
  - pose proof (sin_lt_x a ltac:(lra)). lra.
  - assert (E : sin a = - sin (2 * PI - a)).
    { rewrite sin_minus, sin_2PI, cos_2PI. ring. }
    destruct (Req_dec a (2 * PI)) as [-> |N]; [rewrite sin_2PI; lra|].
    pose proof (sin_lt_x (2 * PI - a) ltac:(lra)). lra.
Qed.

Lemma pipe_section_bounds D barrels d : 0 < D -> 0 < barrels -> 0 < d <= D ->
  0 < pipe_area D barrels d <= barrels * (D / 2) ^ 2 * PI /\ 0 < pipe_perimeter D barrels d.
Proof.
  intros HD Hb Hd. assert (X : -1 <= 1 - 2 * d / D < 1).
  { assert (0 < 2 * d / D <= 2).
    { split; [apply Rdiv_lt_0_compat; lra|]. apply (Rmult_le_reg_r D); [exact HD|]. unfold Rdiv. rewrite Rmult_assoc, Rinv_l by lra. lra. }
    lra. }
  pose proof (acos_pos _ X) as A. unfold pipe_area, pipe_perimeter. set (a := acos (1 - 2 * d / D)) in *.
  pose proof (segment_bounds (2 * a) ltac:(lra)) as S. set (s := 2 * a - sin (2 * a)) in *.
  assert (K : 0 < barrels * D ^ 2 / 8) by (apply Rdiv_lt_0_compat; [apply Rmult_lt_0_compat; [lra|apply pow_lt; lra]|lra]).
  split; [split|].
  - cbv zeta. fold s. apply Rmult_lt_0_compat; lra.
  - cbv zeta. fold s. replace (barrels * (D / 2) ^ 2 * PI) with (barrels * D ^ 2 / 8 * (2 * PI)) by (field; lra). apply Rmult_le_compat_l; lra.
  - repeat apply Rmult_lt_0_compat; lra.
Qed.

Lemma acos_minus_1 : acos (-1) = PI.
Proof. rewrite <- cos_PI. apply acos_cos. pose proof PI_RGT_0. lra. Qed.

(** Both ways of computing a section agree with the geometry. *)
Definition pipe_geometry (D barrels : R) (s : R * R * R * R) : Prop :=
  let '(d, a, p, w) := s in 0 < d <= D /\ a = pipe_area D barrels d /\ p = pipe_perimeter D barrels d /\ 0 <= w.

Lemma full_pipe_geometry D barrels : 0 < D -> 0 < barrels -> pipe_geometry D barrels (full_pipe D barrels).
Proof.
  intros HD Hb. unfold pipe_geometry, full_pipe, pipe_area, pipe_perimeter. replace (1 - 2 * D / D) with (-1) by (field; lra).
  rewrite acos_minus_1. cbv zeta. rewrite sin_2PI. refine (conj _ (conj _ (conj _ _))); try lra. apply Rmult_le_pos; lra.
Qed.

Lemma part_full_geometry D barrels d : 0 < D -> 0 < barrels -> 0 < d <= D -> exists s, part_full D barrels d = Some s /\ pipe_geometry D barrels s.
Proof.
  intros HD Hb Hd. unfold part_full. rewrite div_ok by lra. cbn [bind].
  assert (X : -1 <= 1 - 2 * d / D < 1).
  { assert (0 < 2 * d / D <= 2).
    { split; [apply Rdiv_lt_0_compat; lra|]. apply (Rmult_le_reg_r D); [exact HD|]. unfold Rdiv. rewrite Rmult_assoc, Rinv_l by lra. lra. }
    lra. }
  unfold safe_acos. destruct (Rleb_spec (-1) (1 - 2 * d / D)); [|lra]. destruct (Rleb_spec (1 - 2 * d / D) 1); [|lra]. cbn [andb bind].
  eexists. split; [reflexivity|]. unfold pipe_geometry, pipe_area, pipe_perimeter. pose proof (acos_pos _ X) as A. set (a := acos (1 - 2 * d / D)) in *.
  refine (conj Hd (conj _ (conj _ _))).
  - cbv zeta. rewrite (Rmult_comm a 2). reflexivity.
  - field.
  - replace (a * 2 / 2) with a by field. apply Rmult_le_pos; [apply Rmult_le_pos; lra|apply sin_ge_0; lra].
Qed.

Theorem C68_pipe diameter blockage barrels ls driving delta outlet :
  0 < diameter -> 0 <= blockage -> 0 < barrels -> lossy ls -> 0 < driving -> 0 <= delta ->
  exists f, boyd_pipe diameter blockage barrels ls driving delta outlet = Some f /\
    (1 <= blockage -> Qf f = 0 /\ velocity f = 0) /\
    (blockage < 1 -> let D := pipe_bf blockage * diameter in
       0 < D <= diameter /\
       admissible (pipe_inlet_flow D barrels driving) (barrels * (D / 2) ^ 2 * PI) D f /\
       farea f = pipe_area D barrels (odepth f) /\
       head_loss ls f (pipe_perimeter D barrels (odepth f)) <= delta /\ (delta = 0 -> Qf f = 0)).
Proof.
  intros Hd0 Hb Hn Hl He Hdl. unfold boyd_pipe. destruct (Rleb_spec 1 blockage) as [B|B].
  { eexists. split; [reflexivity|]. split; [intros _; split; reflexivity|lra]. }
  assert (Bl : blockage < 1) by lra. pose proof (pipe_bf_range blockage ltac:(lra)) as BF.
  set (D := pipe_bf blockage * diameter). assert (HD : 0 < D <= diameter).
  { unfold D. split; [apply Rmult_lt_0_compat; lra|]. rewrite <- (Rmult_1_l diameter) at 2. apply Rmult_le_compat_r; lra. }
  destruct (pipe_inlet_ok D barrels driving (proj1 HD) Hn He) as (-> & HQ). cbn [bind]. set (Q := pipe_inlet_flow D barrels driving) in *.
  assert (Dc : exists d, pipe_dcrit Q D = Some d /\ 0 < d).
  { unfold pipe_dcrit. rewrite (powr_pos D) by lra. cbn [bind]. pose proof sqrt_grav_pos.
    assert (K : 0 < Q / sqrt grav * Rpower D (5 / 2)) by (apply Rmult_lt_0_compat; [apply Rdiv_lt_0_compat; lra|apply Rpower_pos]).
    rewrite !powr_pos by exact K. cbn [bind]. rewrite div_ok by lra. cbn [bind]. eexists. split; [reflexivity|].
    destruct (Rltb _ _); (apply Rmult_lt_0_compat; [apply Rdiv_lt_0_compat; lra|apply Rpower_pos]). }
  destruct Dc as (d & -> & Hdc). cbn [bind].
  assert (X : exists s, (if Rleb D d then Some (full_pipe D barrels) else part_full D barrels d) = Some s /\ pipe_geometry D barrels s).
  { destruct (Rleb_spec D d); [eexists; split; [reflexivity|apply full_pipe_geometry; lra]|apply part_full_geometry; lra]. }
  destruct X as (s & -> & Gs). cbn [bind].
  assert (X : exists s', (if Rltb delta driving then if Rltb D outlet then Some (full_pipe D barrels) else if Rltb D d then Some (full_pipe D barrels) else part_full D barrels d
                          else Some s) = Some s' /\ pipe_geometry D barrels s').
  { destruct (Rltb delta driving); [|eexists; split; [reflexivity|exact Gs]].
    destruct (Rltb D outlet); [eexists; split; [reflexivity|apply full_pipe_geometry; lra]|].
    destruct (Rltb_spec D d); [eexists; split; [reflexivity|apply full_pipe_geometry; lra]|apply part_full_geometry; lra]. }
  destruct X as (((( od & area) & p) & fw) & -> & Gs'). cbn [bind]. destruct Gs' as (G1 & -> & -> & G4).
  destruct (pipe_section_bounds D barrels od (proj1 HD) Hn G1) as (A & P). rewrite div_ok by lra. cbn [bind].
  assert (Hr : 0 < pipe_area D barrels od / pipe_perimeter D barrels od) by (apply Rdiv_lt_0_compat; lra).
  rewrite tailwater_ok by assumption. cbn [bind].
  set (v := sqrt (delta / resistance ls (pipe_area D barrels od / pipe_perimeter D barrels od))) in *.
  assert (V : 0 <= v) by apply sqrt_pos. set (area := pipe_area D barrels od) in *.
  assert (Av : 0 <= area * v) by (apply Rmult_le_pos; lra). set (Q' := Rmin Q (area * v)).
  assert (Q0 : 0 <= Q' <= Q) by (unfold Q'; split; [apply Rmin_glb; lra|apply Rmin_l]).
  pose proof (finish_ok Q' area fw barrels od true (proj1 Q0) ltac:(lra) G4 ltac:(lra)) as F.
  destruct (Rleb_spec area 0) as [N|_]; [lra|].
  match goal with |- exists f, ?e = _ /\ _ => assert (E : e = Some (Flow Q' (Q' / (area + velocity_protection / area)) od area)) end.
  { rewrite <- F. destruct (div (Q' ^ 2 * fw * barrels) (grav * area ^ 3)); reflexivity. }
  rewrite E. eexists. split; [reflexivity|]. split; [lra|]. intros _. unfold admissible, head_loss. cbn [Qf velocity odepth farea].
  refine (conj HD (conj (conj Q0 (conj A (conj _ (barrel_velocity_bounds _ _ (proj1 Q0) _)))) (conj eq_refl (conj _ _)))); try lra.
  - apply (limited_loss ls delta Q area (area / pipe_perimeter D barrels od)); try assumption; try lra.
  - intros ->. unfold Q', v, Rdiv. rewrite Rmult_0_l, sqrt_0, Rmult_0_r, Rmin_right by lra. reflexivity.
Qed.
Print Assumptions C68_pipe.

(** ** Trapezoidal weirs and orifices *)

Definition weir_inlet_flow (width depth blockage barrels : R) (t : trapezoid) (driving : R) : R :=
  (1 - blockage) * barrels * ((2 * width + depth * (z1 t + z2 t)) / 2) * Rmin (17 / 10 * (driving * sqrt driving)) (8 / 10 * sqrt grav * depth * sqrt driving).

Lemma weir_inlet_ok width depth blockage barrels t driving :
  0 < width -> 0 < depth -> blockage < 1 -> 0 < barrels -> 0 <= z1 t -> 0 <= z2 t -> 0 < driving ->
  weir_inlet (1 - blockage) width depth barrels t driving = Some (weir_inlet_flow width depth blockage barrels t driving) /\
  0 < weir_inlet_flow width depth blockage barrels t driving.
Proof.
  intros H1 H2 H3 H4 H5 H6 H7. unfold weir_inlet, weir_inlet_flow. rewrite !powr_pos by assumption. cbn [bind].
  rewrite power_3_2, sqrt_power by exact H7. pose proof (sqrt_lt_R0 driving H7) as S. pose proof sqrt_grav_pos as G.
  assert (Z : 0 <= depth * (z1 t + z2 t)) by (apply Rmult_le_pos; lra).
  assert (K : 0 < (1 - blockage) * barrels * ((2 * width + depth * (z1 t + z2 t)) / 2)) by (repeat apply Rmult_lt_0_compat; lra).
  set (x := 17 / 10 * (driving * sqrt driving)). set (y := 8 / 10 * sqrt grav * depth * sqrt driving).
  replace (17 / 10 * (1 - blockage) * barrels * ((2 * width + depth * (z1 t + z2 t)) / 2) * (driving * sqrt driving))
    with ((1 - blockage) * barrels * ((2 * width + depth * (z1 t + z2 t)) / 2) * x) by (unfold x; ring).
  replace (8 / 10 * (1 - blockage) * barrels * sqrt grav * (1 / 2 * depth * (2 * width + depth * (z1 t + z2 t))) * sqrt driving)
    with ((1 - blockage) * barrels * ((2 * width + depth * (z1 t + z2 t)) / 2) * y) by (unfold y; field).
  assert (X : 0 < x) by (unfold x; repeat apply Rmult_lt_0_compat; lra). assert (Y : 0 < y) by (unfold y; repeat apply Rmult_lt_0_compat; lra).
  set (k := (1 - blockage) * barrels * _) in *. clearbody k x y. split.
  - f_equal. unfold Rmin. destruct (Rltb_spec (k * x) (k * y)), (Rle_dec x y); try reflexivity; nra.
  - apply Rmult_lt_0_compat; [exact K|apply Rmin_glb_lt; assumption].
Qed.

Lemma sides_nonneg t d : 0 <= sides t d.
Proof. unfold sides. pose proof (sqrt_pos (d ^ 2 + (z1 t * d) ^ 2)). pose proof (sqrt_pos (d ^ 2 + (z2 t * d) ^ 2)). lra. Qed.

Lemma trapezoid_area_bounds t w d depth : 0 < w -> 0 <= z1 t -> 0 <= z2 t -> 0 < d <= depth ->
  0 < trapezoid_area t w d <= trapezoid_area t w depth.
Proof.
  intros H1 H2 H3 H4. unfold trapezoid_area. assert (D : 0 <= d ^ 2 <= depth ^ 2) by (split; [apply pow2_ge_0|apply pow_incr; lra]).
  assert (P : 0 < w * d) by (apply Rmult_lt_0_compat; lra). assert (w * d <= w * depth) by (apply Rmult_le_compat_l; lra).
  assert (0 <= 1 / 2 * (z1 t + z2 t) * d ^ 2) by (repeat apply Rmult_le_pos; lra).
  assert (1 / 2 * (z1 t + z2 t) * d ^ 2 <= 1 / 2 * (z1 t + z2 t) * depth ^ 2) by (apply Rmult_le_compat_l; lra). lra.
Qed.

Lemma dcrit_exists t w Q : 0 < w -> 0 <= z1 t -> 0 <= z2 t -> 0 <= Q ->
  exists n d, (forall fuel, (n <= fuel)%nat -> dcrit_of fuel t w Q = Some d) /\ 0 < d /\ Q / sqrt (981 / 100) <= section_factor t w d.
Proof.
  intros H1 H2 H3 H4. assert (G : 0 < sqrt (981 / 100)) by (apply sqrt_lt_R0; lra).
  destruct (dcrit_ends t w H1 H2 H3 (Q / sqrt (981 / 100))) as (n & d & D1 & D2 & D3).
  { apply Rmult_le_pos; [exact H4|apply Rlt_le, Rinv_0_lt_compat, G]. }
  exists n, d. split; [|split; assumption]. intros fuel Hf. specialize (D1 fuel Hf).
  replace (Q / sqrt (981 / 100) * sqrt (981 / 100)) with Q in D1 by (field; lra). exact D1.
Qed.

(** The loops end, however steep the banks and however large the flow: the same
    flow comes out for every number of allowed rounds from some number on. *)
Theorem C68_weir width depth blockage barrels t ls driving delta outlet :
  0 < width -> 0 < depth -> 0 <= blockage -> 0 < barrels -> 0 <= z1 t -> 0 <= z2 t -> lossy ls -> 0 < driving -> 0 <= delta ->
  exists n f, (forall fuel, (n <= fuel)%nat -> weir_orifice fuel width depth blockage barrels t ls driving delta outlet = Some f) /\
    (1 <= blockage -> Qf f = 0 /\ velocity f = 0) /\
    (blockage < 1 ->
       let w := (1 - blockage) * barrels * width in
       admissible (weir_inlet_flow width depth blockage barrels t driving) (trapezoid_area t w depth) depth f /\
       farea f = trapezoid_area t w (odepth f) /\
       (driving <= delta -> Qf f = weir_inlet_flow width depth blockage barrels t driving) /\
       (delta < driving -> head_loss ls f (w + sides t (odepth f)) <= delta /\ (delta = 0 -> Qf f = 0))).
Proof.
  intros Hw Hd Hb Hn Hz1 Hz2 Hl He Hdl. unfold weir_orifice. destruct (Rleb_spec 1 blockage) as [B|B].
  { exists O. eexists. split; [reflexivity|]. split; [intros _; split; reflexivity|lra]. }
  assert (Bl : blockage < 1) by lra. destruct (weir_inlet_ok width depth blockage barrels t driving Hw Hd Bl Hn Hz1 Hz2 He) as (-> & HQ). cbn [bind].
  set (Q := weir_inlet_flow width depth blockage barrels t driving) in *.
  set (w := (1 - blockage) * barrels * width). assert (W : 0 < w) by (unfold w; repeat apply Rmult_lt_0_compat; lra).
  destruct (dcrit_exists t w Q W Hz1 Hz2 ltac:(lra)) as (n1 & d & D1 & D2 & _).
  set (od := if Rltb depth d then depth else d). assert (Od : 0 < od <= depth) by (unfold od; destruct (Rltb_spec depth d); lra).
  pose proof (trapezoid_area_bounds t w od depth W Hz1 Hz2 Od) as A. pose proof (sides_nonneg t od) as Sd.
  assert (Zd : 0 <= (z1 t + z2 t) * od) by (apply Rmult_le_pos; lra).
  set (p := 2 * w + (z1 t + z2 t) * od + sides t od). assert (P : 0 < p) by (unfold p; lra).
  assert (Hr : 0 < trapezoid_area t w od / p) by (apply Rdiv_lt_0_compat; lra).
  set (v := sqrt (delta / resistance ls (trapezoid_area t w od / p))). assert (V : 0 <= v) by apply sqrt_pos.
  assert (Av : 0 <= trapezoid_area t w od * v) by (apply Rmult_le_pos; lra).
  destruct (Rltb_spec delta driving) as [L|L].
  - (* the section at the outlet *)
    assert (X : exists n2 Q' od', (forall fuel, (n2 <= fuel)%nat ->
        (if Rltb depth outlet then Some (Q, depth) else
           (dd <- dcrit_of fuel t w (Rmin Q (trapezoid_area t w od * v)) ;; Some (Rmin Q (trapezoid_area t w od * v), if Rltb depth dd then depth else dd))) = Some (Q', od'))
        /\ 0 <= Q' <= Q /\ 0 < od' <= depth).
    { destruct (Rltb depth outlet).
      - exists O, Q, depth. split; [reflexivity|lra].
      - assert (M : 0 <= Rmin Q (trapezoid_area t w od * v) <= Q) by (split; [apply Rmin_glb; lra|apply Rmin_l]).
        destruct (dcrit_exists t w _ W Hz1 Hz2 (proj1 M)) as (n2 & d2 & E1 & E2 & _).
        exists n2, (Rmin Q (trapezoid_area t w od * v)), (if Rltb depth d2 then depth else d2).
        split; [intros fuel Hf; rewrite E1 by exact Hf; reflexivity|]. split; [exact M|destruct (Rltb_spec depth d2); lra]. }
    destruct X as (n2 & Q1 & od' & X1 & X2 & X3).
    pose proof (trapezoid_area_bounds t w od' depth W Hz1 Hz2 X3) as A'. pose proof (sides_nonneg t od') as Sd'.
    set (area := trapezoid_area t w od') in *. set (p' := w + sides t od'). assert (P' : 0 < p') by (unfold p'; lra).
    assert (Hr' : 0 < area / p') by (apply Rdiv_lt_0_compat; lra).
    set (v' := sqrt (delta / resistance ls (area / p'))). assert (V' : 0 <= v') by apply sqrt_pos.
    assert (Av' : 0 <= area * v') by (apply Rmult_le_pos; lra). set (Q' := Rmin Q1 (area * v')).
    assert (Q0 : 0 <= Q' <= Q) by (unfold Q'; split; [apply Rmin_glb; lra|eapply Rle_trans; [apply Rmin_l|lra]]).
    exists (Nat.max n1 n2), (Flow Q' (Q' / (area + velocity_protection / area)) od' area). split.
    + intros fuel Hf. rewrite D1 by lia. cbn [bind]. fold od. fold p. rewrite div_ok by lra. cbn [bind]. rewrite tailwater_ok by assumption. cbn [bind]. fold v.
      rewrite X1 by lia. cbn [bind]. fold area. fold p'. rewrite div_ok by lra. cbn [bind]. rewrite tailwater_ok by assumption. cbn [bind]. fold v'. fold Q'.
      apply (finish_ok Q' area width barrels od' true); lra.
    + split; [lra|]. intros _. unfold admissible, head_loss. cbn [Qf velocity odepth farea].
      refine (conj (conj Q0 (conj A' (conj _ (barrel_velocity_bounds _ _ (proj1 Q0) _)))) (conj eq_refl (conj _ _))); try lra.
      intros _. split.
      * apply (limited_loss ls delta Q1 area (area / p')); try assumption; try lra. unfold p'. lra.
      * intros ->. unfold Q', v', Rdiv. rewrite Rmult_0_l, sqrt_0, Rmult_0_r, Rmin_right by lra. reflexivity.
  - exists n1, (Flow Q (Q / (trapezoid_area t w od + velocity_protection / trapezoid_area t w od)) od (trapezoid_area t w od)). split.
    + intros fuel Hf. rewrite D1 by lia. cbn [bind]. fold od. fold p. rewrite div_ok by lra. cbn [bind]. rewrite tailwater_ok by assumption. cbn [bind].
      apply (finish_ok Q _ width barrels od true); lra.
    + split; [lra|]. intros _. unfold admissible, head_loss. cbn [Qf velocity odepth farea].
      refine (conj (conj _ (conj A (conj _ (barrel_velocity_bounds _ _ _ _)))) (conj eq_refl (conj (fun _ => eq_refl) _))); lra.
Qed.
Print Assumptions C68_weir.

(** Inputs that satisfy every hypothesis. *)
Example C68_example_pipe : exists f, boyd_pipe 1 (1 / 2) 2 (Losses 1 (1 / 100) 10) 1 (1 / 2) 0 = Some f /\ head_loss (Losses 1 (1 / 100) 10) f
  (pipe_perimeter (pipe_bf (1 / 2) * 1) 2 (odepth f)) <= 1 / 2.
Proof.
  destruct (C68_pipe 1 (1 / 2) 2 (Losses 1 (1 / 100) 10) 1 (1 / 2) 0) as (f & E & _ & P); try lra.
  - unfold lossy; cbn; repeat split; try lra; left; lra.
  - exists f. split; [exact E|]. destruct (P ltac:(lra)) as (_ & _ & _ & H & _). exact H.
Qed.

Example C68_example_weir : exists fuel f, weir_orifice fuel 1 1 0 1 (Trapezoid 1 2) (Losses 1 (1 / 100) 10) 1 (1 / 2) 0 = Some f /\ 0 < farea f.
Proof.
  destruct (C68_weir 1 1 0 1 (Trapezoid 1 2) (Losses 1 (1 / 100) 10) 1 (1 / 2) 0) as (n & f & E & _ & P); cbn [z1 z2]; try lra.
  - unfold lossy; cbn; repeat split; try lra; left; lra.
  - exists n, f. split; [apply E; lia|]. destruct (P ltac:(lra)) as ((_ & A & _) & _). lra.
Qed.
