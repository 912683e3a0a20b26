(** Properties of the cell-wise kernels: protection against negative depths
    (C12, C43), friction (C13) and the update of a quantity (C14). *)
From Coq Require Import Reals List ZArith Lra Lia Bool Psatz.
From Verif Require Import RealLib CentroidModel CentroidProofs.
Import ListNotations.
Local Open Scope R_scope.

(** Volume above datum level zero, summed over the triangles. *)
Definition volume (cells : list cell) : R := Rsum (map (fun c => c_area c * (c_stage c - c_bed c)) cells).

(** * C12 *)

(** After [protect] each stage is the old stage raised to the bed if it was
    below it, nothing else about the triangle changes except that shallow
    triangles lose their momentum and raised triangles get flat vertex values,
    and the number returned is exactly the volume that was added. *)
Theorem C12_protect :
  forall mah cells, 0 <= mah ->
  let '(cells', mass_error) := protect_new mah cells in
  length cells' = length cells /\
  (forall k c c', nth_error cells k = Some c -> nth_error cells' k = Some c' ->
     c_bed c' = c_bed c /\ c_area c' = c_area c /\ c_full c' = c_full c /\
     c_bed c' <= c_stage c' /\ c_stage c' = Rmax (c_stage c) (c_bed c) /\
     (c_stage c - c_bed c < mah -> c_xmom c' = 0 /\ c_ymom c' = 0) /\
     (mah <= c_stage c - c_bed c -> c' = c) /\
     (c_stage c < c_bed c -> c_wv c' = (c_bed c, c_bed c, c_bed c)) /\
     (c_bed c <= c_stage c -> c_wv c' = c_wv c)) /\
  mass_error = volume cells' - volume cells.
Proof.
  intros mah cells Hm. unfold protect_new. rewrite protect_loop_eq. split; [apply map_length|]. split.
  - intros k c c' Hc Hc'. rewrite nth_error_map, Hc in Hc'. cbn in Hc'. injection Hc' as <-.
    destruct (protect_cell_spec mah c Hm) as (A & B & C & D & E & F & G & H & _).
    repeat match goal with |- _ /\ _ => split end; auto. rewrite A, D. apply Rmax_r.
  - rewrite Rsum_added by auto. unfold volume. rewrite !map_map.
    assert (K : forall c, c_area (protected mah c) * (c_stage (protected mah c) - c_bed (protected mah c)) =
      c_area (protected mah c) * c_stage (protected mah c) - c_area c * c_bed c).
    { intros c. destruct (protect_cell_spec mah c Hm) as (A & B & _). rewrite A, B. ring. }
    rewrite (Rsum_map_ext_in _ _ cells (fun c _ => K c)), Rsum_map_minus.
    rewrite (Rsum_map_ext_in (fun c => c_area c * (c_stage c - c_bed c)) (fun c => c_area c * c_stage c - c_area c * c_bed c) cells)
      by (intros; ring).
    rewrite Rsum_map_minus. ring.
Qed.
Print Assumptions C12_protect.

(** With non-negative areas the mass error is non-negative and it is zero when
    no stage is below the bed; protecting twice changes nothing more. *)
Theorem C12_protect_again :
  forall mah cells, 0 <= mah ->
  let '(cells1, e1) := protect_new mah cells in
  let '(cells2, e2) := protect_new mah cells1 in
  ((forall c, In c cells -> 0 <= c_area c) -> 0 <= e1) /\
  ((forall c, In c cells -> c_bed c <= c_stage c) -> e1 = 0) /\
  cells2 = cells1 /\ e2 = 0.
Proof.
  intros mah cells Hm. unfold protect_new. rewrite !protect_loop_eq.
  assert (A0 : forall l, (forall c, In c l -> c_bed c <= c_stage c) -> Rsum (map (added mah) l) = 0).
  { intros l F. induction l as [|c l IH]; cbn [map Rsum]; [lra|]. rewrite IH by (intros; apply F; right; auto).
    destruct (protect_cell_spec mah c Hm) as (_ & _ & _ & D & _ & _ & _ & _ & E).
    rewrite E, D, Rmax_left by (apply F; left; auto). ring. }
  split; [|split; [|split]].
  - intros Ha. rewrite Rplus_0_l. apply Rsum_nonneg. intros x Hx. apply in_map_iff in Hx as (c & <- & Hc).
    destruct (protect_cell_spec mah c Hm) as (_ & _ & _ & D & _ & _ & _ & _ & E). rewrite E, D.
    apply Rmult_le_pos; [auto|]. pose proof (Rmax_l (c_stage c) (c_bed c)). lra.
  - intros F. rewrite A0; auto. lra.
  - rewrite map_map. apply map_ext. intros c.
    unfold protected at 2. unfold protected.
    unfold protect_cell at 2. destruct (Rltb_spec (c_stage c - c_bed c) (mah * 1)) as [H1|H1].
    + destruct (Rleb_spec (c_stage c - c_bed c) 0) as [H2|H2].
      * destruct (Rltb_spec (c_stage c) (c_bed c)) as [H3|H3]; cbn [fst]; unfold protect_cell; cbn;
          repeat match goal with |- context [Rltb ?a ?b] => destruct (Rltb_spec a b) | |- context [Rleb ?a ?b] => destruct (Rleb_spec a b) end; cbn; auto; lra.
      * cbn [fst]; unfold protect_cell; cbn;
          repeat match goal with |- context [Rltb ?a ?b] => destruct (Rltb_spec a b) | |- context [Rleb ?a ?b] => destruct (Rleb_spec a b) end; cbn; auto; lra.
    + cbn [fst]. unfold protect_cell. destruct (Rltb_spec (c_stage c - c_bed c) (mah * 1)); [lra|reflexivity].
  - rewrite A0; [lra|]. intros c' Hc'. apply in_map_iff in Hc' as (c & <- & _).
    destruct (protect_cell_spec mah c Hm) as (A & _ & _ & D & _). rewrite A, D. apply Rmax_r.
Qed.
Print Assumptions C12_protect_again.

(** A negative cut-off lets a negative depth through, which is why C12 asks
    for a non-negative one. *)
Example C12_negative_cutoff :
  exists cells, let '(cells', _) := protect_new (-2) cells in
  exists c, In c cells' /\ c_stage c < c_bed c.
Proof.
  exists [Cell 0 1 0 0 1 1 (0, 0, 0)]. unfold protect_new, protect_loop, protect_cell. cbn [c_stage c_bed].
  destruct (Rltb_spec (0 - 1) (-2 * 1)) as [H|H]; [exfalso; lra|].
  eexists. split; [left; reflexivity|cbn; lra].
Qed.

Example C12_example :
  protect_new (1/2) [Cell 0 1 3 4 2 1 (0, 0, 0); Cell 5 1 3 4 2 1 (5, 5, 5)] =
  ([Cell 1 1 0 0 2 1 (1, 1, 1); Cell 5 1 3 4 2 1 (5, 5, 5)], 2).
Proof.
  unfold protect_new, protect_loop, protect_cell. cbn [c_stage c_bed c_area c_full c_wv].
  destruct (Rltb_spec (0 - 1) (1/2 * 1)); [|lra]. destruct (Rleb_spec (0 - 1) 0); [|lra].
  destruct (Rltb_spec 0 1); [|lra]. destruct (Rltb_spec (5 - 1) (1/2 * 1)); [lra|].
  replace (0 + (1 - 0) * 2) with 2 by ring. reflexivity.
Qed.

(** * C43 *)

Theorem C43_fix_negative_cells :
  forall cells,
  let '(cells', n) := fix_negative_cells cells in
  length cells' = length cells /\
  (forall k c c', nth_error cells k = Some c -> nth_error cells' k = Some c' ->
     ((0 < c_full c)%Z -> c_bed c' <= c_stage c') /\
     (c_stage c < c_bed c -> (0 < c_full c)%Z ->
        c_stage c' = c_bed c /\ c_xmom c' = 0 /\ c_ymom c' = 0 /\
        c_bed c' = c_bed c /\ c_area c' = c_area c /\ c_full c' = c_full c /\ c_wv c' = c_wv c) /\
     (c_bed c <= c_stage c \/ (c_full c <= 0)%Z -> c' = c)) /\
  n = Z.of_nat (length (filter (fun c => if Rlt_dec (c_stage c) (c_bed c) then (0 <? c_full c)%Z else false) cells)).
Proof.
  intros cells. unfold fix_negative_cells. rewrite fix_negative_loop_eq. split; [apply map_length|]. split.
  - intros k c c' Hc Hc'. rewrite nth_error_map, Hc in Hc'. cbn in Hc'. injection Hc' as <-.
    destruct (fixed_spec c) as (F & T). unfold is_negative in F, T.
    destruct (Rltb_spec (c_stage c) (c_bed c)) as [L|L], (Z.ltb_spec 0 (c_full c)) as [Z|Z]; cbn in F, T;
      try (rewrite F by reflexivity; repeat split; intros; try lra; try lia; auto).
    destruct (T eq_refl) as (A & B & C & D & E & G & H). repeat split; intros; auto; try lra.
    destruct H0; [lra|lia].
  - rewrite Z.add_0_l; do 2 f_equal; apply filter_ext; intros c; unfold is_negative, Rltb; destruct (Rlt_dec _ _); reflexivity.
Qed.
Print Assumptions C43_fix_negative_cells.

Example C43_example :
  fix_negative_cells [Cell 0 1 3 4 2 1 (0, 0, 0); Cell 0 1 3 4 2 0 (0, 0, 0); Cell 5 1 3 4 2 1 (5, 5, 5)] =
  ([Cell 1 1 0 0 2 1 (0, 0, 0); Cell 0 1 3 4 2 0 (0, 0, 0); Cell 5 1 3 4 2 1 (5, 5, 5)], 1%Z).
Proof.
  unfold fix_negative_cells, fix_negative_loop, fix_negative_cell. cbn [c_stage c_bed c_area c_full c_wv c_xmom c_ymom].
  destruct (Rltb_spec (0 - 1) 0); [|lra]. destruct (Rltb_spec (5 - 1) 0); [lra|]. reflexivity.
Qed.

(** * C14 *)

(** The update succeeds exactly when every denominator 1 - dt*S/x (1 when x is
    zero) is positive; then the new value solves the semi-implicit equation
    (1 - dt*S/x) x' = x + dt*E, which is the plain explicit update when S or x
    is zero, and the semi-implicit term is reset. *)
Theorem C14_update :
  forall dt xs es ss, length es = length xs -> length ss = length xs ->
  let '(xs', ss', status) := update dt xs es ss in
  length xs' = length xs /\ length ss' = length xs /\
  (status = 0%Z \/ status = (-1)%Z) /\
  (status = 0%Z <-> forall k x s, nth_error xs k = Some x -> nth_error ss k = Some s -> x <> 0 -> 0 < 1 - dt * (s / x)) /\
  (status = 0%Z ->
     (forall k s, nth_error ss' k = Some s -> s = 0) /\
     forall k x e s, nth_error xs k = Some x -> nth_error es k = Some e -> nth_error ss k = Some s ->
     exists x', nth_error xs' k = Some x' /\
       (x <> 0 -> x' * (1 - dt * (s / x)) = x + dt * e) /\
       (x = 0 \/ s = 0 -> x' = x + dt * e)).
Proof.
  intros dt xs es ss He Hs. pose proof (update_status dt xs es ss He Hs) as U.
  destruct (update dt xs es ss) as [[xs' ss'] st]. destruct U as (L1 & L2 & T & I & V).
  assert (D0 : forall x s, x = 0 -> denominator dt x s = 1).
  { intros x s ->. unfold denominator, divide_semi. destruct (Reqb_spec 0 0); [ring|contradiction]. }
  assert (D1 : forall x s, x <> 0 -> denominator dt x s = 1 - dt * (s / x)).
  { intros x s Hx. unfold denominator, divide_semi. destruct (Reqb_spec x 0); [contradiction|reflexivity]. }
  assert (I' : st = 0%Z <-> forall k x s, nth_error xs k = Some x -> nth_error ss k = Some s -> x <> 0 -> 0 < 1 - dt * (s / x)).
  { rewrite I. split; intros F k x s Hx Hs'.
    - intros Hn. rewrite <- D1 by auto. eauto.
    - destruct (Req_EM_T x 0) as [E|E]; [rewrite D0 by auto; lra|]. rewrite D1 by auto. eauto. }
  split; [auto|]. split; [auto|]. split; [auto|]. split; [exact I'|]. intros E0. destruct (V E0) as (V1 & V2).
  split; [exact V1|]. intros k x e s Hx He' Hs'. eexists. split; [apply (V2 k x e s); auto|].
  assert (P : 0 < denominator dt x s) by (apply (proj1 I E0 k); auto). split.
  - intros Hn. rewrite <- D1 by auto. field. lra.
  - intros [Hz|Hz].
    + rewrite D0 by auto. field.
    + subst s. replace (denominator dt x 0) with 1; [field|]. unfold denominator, divide_semi.
      destruct (Reqb x 0); unfold Rdiv; ring.
Qed.
Print Assumptions C14_update.

(** On failure the arrays are left half updated: entries before the first bad
    denominator have been divided, later ones not, and the semi-implicit term
    is not reset (it holds S/x).  The caller asserts on the error code. *)
Theorem C14_update_failure :
  forall dt xs es ss xs' ss', length es = length xs -> length ss = length xs ->
  update dt xs es ss = (xs', ss', (-1)%Z) ->
  exists i, (i < length xs)%nat /\
  (forall x s, nth_error xs i = Some x -> nth_error ss i = Some s -> x <> 0 /\ 1 - dt * (s / x) <= 0) /\
  (forall k x e s, nth_error xs k = Some x -> nth_error es k = Some e -> nth_error ss k = Some s ->
     exists x', nth_error xs' k = Some x' /\
     ((k < i)%nat -> x <> 0 -> 0 < 1 - dt * (s / x) /\ x' * (1 - dt * (s / x)) = x + dt * e) /\
     ((k < i)%nat -> x = 0 -> x' = x + dt * e) /\
     ((i <= k)%nat -> x' = x + dt * e) /\
     nth_error ss' k = Some (if Req_EM_T x 0 then 0 else s / x)).
Proof.
  intros dt xs es ss xs' ss' He Hs U.
  destruct (update_failed dt xs es ss xs' ss' He Hs U) as (i & Hi & G & B & V). exists i.
  assert (D0 : forall x s, x = 0 -> denominator dt x s = 1).
  { intros x s ->. unfold denominator, divide_semi. destruct (Reqb_spec 0 0); [ring|contradiction]. }
  assert (D1 : forall x s, x <> 0 -> denominator dt x s = 1 - dt * (s / x)).
  { intros x s Hx. unfold denominator, divide_semi. destruct (Reqb_spec x 0); [contradiction|reflexivity]. }
  split; [exact Hi|]. split.
  - intros x s Hx Hs'. pose proof (B x s Hx Hs') as L. destruct (Req_EM_T x 0) as [E|E].
    + rewrite D0 in L by auto. lra.
    + rewrite D1 in L by auto. auto.
  - intros k x e s Hx He' Hs'. destruct (V k x e s Hx He' Hs') as (V1 & V2).
    eexists. split; [exact V2|]. split; [|split; [|split]].
    + intros Lt Hn. pose proof (G k x s Hx Hs' Lt) as P. rewrite <- D1 by auto. split; [exact P|].
      destruct (Nat.ltb_spec k i); [|lia]. field. lra.
    + intros Lt Hz. destruct (Nat.ltb_spec k i); [|lia]. rewrite D0 by auto. field.
    + intros Ge. destruct (Nat.ltb_spec k i); [lia|reflexivity].
    + rewrite V1. unfold divide_semi, Reqb. destruct (Req_EM_T x 0); reflexivity.
Qed.
Print Assumptions C14_update_failure.

Example C14_example_success : update (1/2) [2; 0] [4; 6] [-4; 5] = ([2; 3], [0; 0], 0%Z).
Proof.
  unfold update. cbn. unfold divide_semi. destruct (Reqb_spec 2 0); [lra|]. destruct (Reqb_spec 0 0); [|lra].
  destruct (Rleb_spec (1 - 1/2 * (-4/2)) 0); [lra|]. destruct (Rleb_spec (1 - 1/2 * 0) 0); [lra|].
  f_equal. f_equal. f_equal; [field|]. f_equal. field.
Qed.

Example C14_example_failure : update 1 [2; 2] [0; 0] [0; 2] = ([2 / 1; 2], [0; 1], (-1)%Z).
Proof.
  unfold update. cbn. unfold divide_semi. destruct (Reqb_spec 2 0); [lra|].
  destruct (Rleb_spec (1 - 1 * (0/2)) 0); [lra|]. destruct (Rleb_spec (1 - 1 * (2/2)) 0); [|lra].
  f_equal. f_equal.
  - f_equal; [field|]. f_equal; ring.
  - f_equal; [field|]. f_equal; field.
Qed.

(** * C13 *)

(** Friction followed by the update of both momenta, starting from a reset
    semi-implicit term (the state C14 leaves): the update never fails; with
    E = 0 both momenta are multiplied by one factor in (0,1], so the flow
    never reverses, turns or accelerates; with E <> 0 each new momentum is
    (x + dt*E) times a factor in (0,1]. *)
Theorem C13_friction_decelerates :
  forall (sloped : bool) g eps dt cells ex ey, 0 <= g -> 0 < eps -> 0 <= dt ->
  length ex = length cells -> length ey = length cells ->
  let uh := map f_uh cells in let vh := map f_vh cells in
  let upd := manning_friction_implicit sloped g eps cells (map (fun _ => (0, 0)) cells) in
  let '(uh', _, status_x) := update dt uh ex (map fst upd) in
  let '(vh', _, status_y) := update dt vh ey (map snd upd) in
  status_x = 0%Z /\ status_y = 0%Z /\
  forall k c a b, nth_error cells k = Some c -> nth_error ex k = Some a -> nth_error ey k = Some b ->
  exists u v fx fy, nth_error uh' k = Some u /\ nth_error vh' k = Some v /\
    0 < fx <= 1 /\ 0 < fy <= 1 /\
    u = fx * (f_uh c + dt * a) /\ v = fy * (f_vh c + dt * b) /\
    (a = 0 -> b = 0 ->
       (exists f, 0 < f <= 1 /\ u = f * f_uh c /\ v = f * f_vh c) /\
       sqrt (u * u + v * v) <= sqrt (f_uh c * f_uh c + f_vh c * f_vh c)).
Proof.
  intros sloped g eps dt cells ex ey Hg He Hdt Lx Ly. cbv zeta.
  set (upd := manning_friction_implicit sloped g eps cells (map (fun _ => (0, 0)) cells)).
  assert (Lu : length upd = length cells) by (apply map2_length; symmetry; apply map_length).
  assert (R : forall k c, nth_error cells k = Some c -> exists f, 0 <= f /\ nth_error upd k = Some (0 - f * f_uh c, 0 - f * f_vh c)).
  { intros k c Hk. destruct (friction_rate sloped g eps c Hg He) as (f & Hf & F). exists f. split; [exact Hf|].
    unfold upd, manning_friction_implicit. rewrite (map2_nth_error _ _ _ k c (0, 0) Hk).
    - rewrite F. reflexivity.
    - rewrite nth_error_map, Hk. reflexivity. }
  pose proof (update_status dt (map f_uh cells) ex (map fst upd)) as Ux.
  pose proof (update_status dt (map f_vh cells) ey (map snd upd)) as Uy.
  rewrite !map_length in Ux, Uy. specialize (Ux Lx Lu). specialize (Uy Ly Lu).
  destruct (update dt (map f_uh cells) ex (map fst upd)) as [[uh' sx] stx].
  destruct (update dt (map f_vh cells) ey (map snd upd)) as [[vh' sy] sty].
  destruct Ux as (_ & _ & _ & Ix & Vx). destruct Uy as (_ & _ & _ & Iy & Vy).
  assert (Den : forall x f, 0 <= f -> 1 <= denominator dt x (0 - f * x) /\ (x <> 0 -> denominator dt x (0 - f * x) = 1 + dt * f)).
  { intros x f Hf. unfold denominator. rewrite divide_semi_rate. destruct (Reqb_spec x 0).
    - split; [lra|]. intros; contradiction.
    - split; [|intros; ring]. pose proof (Rmult_le_pos dt f Hdt Hf). lra. }
  assert (Sx : stx = 0%Z).
  { apply Ix. intros k x s Hx Hs. rewrite nth_error_map in Hx, Hs.
    destruct (nth_error cells k) as [c|] eqn:Ek; [|discriminate]. cbn in Hx. injection Hx as <-.
    destruct (R k c Ek) as (f & Hf & Eu). rewrite Eu in Hs. cbn in Hs. injection Hs as <-.
    pose proof (proj1 (Den (f_uh c) f Hf)). lra. }
  assert (Sy : sty = 0%Z).
  { apply Iy. intros k x s Hx Hs. rewrite nth_error_map in Hx, Hs.
    destruct (nth_error cells k) as [c|] eqn:Ek; [|discriminate]. cbn in Hx. injection Hx as <-.
    destruct (R k c Ek) as (f & Hf & Eu). rewrite Eu in Hs. cbn in Hs. injection Hs as <-.
    pose proof (proj1 (Den (f_vh c) f Hf)). lra. }
  split; [exact Sx|]. split; [exact Sy|]. intros k c a b Hc Ha Hb.
  destruct (R k c Hc) as (f & Hf & Eu).
  destruct (Den (f_uh c) f Hf) as (Dx1 & Dx2). destruct (Den (f_vh c) f Hf) as (Dy1 & Dy2).
  assert (Inv : forall d, 1 <= d -> 0 < / d <= 1).
  { intros d Hd. split; [apply Rinv_0_lt_compat; lra|]. rewrite <- Rinv_1. apply Rinv_le_contravar; lra. }
  exists ((f_uh c + dt * a) / denominator dt (f_uh c) (0 - f * f_uh c)), ((f_vh c + dt * b) / denominator dt (f_vh c) (0 - f * f_vh c)),
    (/ denominator dt (f_uh c) (0 - f * f_uh c)), (/ denominator dt (f_vh c) (0 - f * f_vh c)).
  split; [apply (proj2 (Vx Sx)); rewrite ?nth_error_map, ?Hc, ?Eu; auto|].
  split; [apply (proj2 (Vy Sy)); rewrite ?nth_error_map, ?Hc, ?Eu; auto|].
  split; [apply Inv; auto|]. split; [apply Inv; auto|].
  split; [unfold Rdiv; ring|]. split; [unfold Rdiv; ring|].
  intros -> ->.
  assert (Fac : exists f0, 0 < f0 <= 1 /\
      (f_uh c + dt * 0) / denominator dt (f_uh c) (0 - f * f_uh c) = f0 * f_uh c /\
      (f_vh c + dt * 0) / denominator dt (f_vh c) (0 - f * f_vh c) = f0 * f_vh c).
  { exists (/ (1 + dt * f)). pose proof (Rmult_le_pos dt f Hdt Hf) as P.
    split; [apply Inv; lra|]. split.
    - destruct (Req_EM_T (f_uh c) 0) as [E|E]; [rewrite E; unfold Rdiv; ring|]. rewrite Dx2 by auto. field. lra.
    - destruct (Req_EM_T (f_vh c) 0) as [E|E]; [rewrite E; unfold Rdiv; ring|]. rewrite Dy2 by auto. field. lra. }
  split; [exact Fac|]. destruct Fac as (f0 & Hf0 & -> & ->). apply sqrt_le_1_alt.
  set (x := f_uh c). set (y := f_vh c).
  replace (f0 * x * (f0 * x) + f0 * y * (f0 * y)) with ((f0 * f0) * (x * x + y * y)) by ring.
  assert (0 <= x * x + y * y) by nra. assert (f0 * f0 <= 1) by nra. nra.
Qed.
Print Assumptions C13_friction_decelerates.

(** With friction switched off or the water too shallow nothing is added. *)
Theorem C13_no_friction :
  forall (sloped : bool) g eps c u, f_eta c <= eps ->
  add_update (if sloped then friction_sloped_cell g eps c else friction_flat_cell g eps c) u = u.
Proof.
  intros sloped g eps c u H. unfold friction_sloped_cell, friction_flat_cell.
  destruct (Rltb_spec eps (f_eta c)); [lra|]. destruct sloped; reflexivity.
Qed.
Print Assumptions C13_no_friction.

(** The flat kernel slows a flowing cell down strictly. *)
Example C13_example :
  exists dx dy, friction_flat_cell 10 (1/100) (FrictionCell 2 1 (1,1,1) ((0,0),(1,0),(0,1)) 3 4 1) = Some (dx, dy) /\ dx < 0 /\ dy < 0.
Proof.
  unfold friction_flat_cell. cbn. destruct (Rltb_spec (1/100) 1); [|lra]. destruct (Rleb_spec (1/100) (2 - 1)); [|lra].
  assert (E : sqrt (3 * 3 + 4 * 4) = 5) by (replace (3 * 3 + 4 * 4) with (5 * 5) by ring; apply sqrt_square; lra).
  rewrite E. assert (P : 0 < / pow73 (2 - 1)) by (apply Rinv_0_lt_compat; unfold pow73, Rpower; apply exp_pos).
  eexists. eexists. split; [reflexivity|]. unfold Rdiv. split; nra.
Qed.
