(** C109: the report of the volume of water *)
From Coq Require Import Reals List Bool Lra Lia Permutation.
From Verif Require Import RealLib WaterVolumeModel WaterVolumeProofs.
Import ListNotations.
Local Open Scope R_scope.

(** The value that is integrated is the depth at the centroid. *)
Definition fresh (evolved discontinuous : bool) (t : triangle) : Prop :=
  evolved = true ->
  if discontinuous then height t = stage t - elevation t
  else let '(a, b, c) := stage_v t in let '(x, y, z) := elevation_v t in
       (a + b + c) / 3 = stage t /\ (x + y + z) / 3 = elevation t.

(** When each triangle of the whole mesh is full on exactly one process, every
    process gets the volume over the whole mesh. *)
Theorem C109_volume_partial e d ps whole : Permutation (concat (map (filter full) ps)) whole -> Forall (fresh e d) whole ->
  get_water_volume e d ps = map (fun _ => Rsum (map (fun t => area t * (stage t - elevation t)) whole)) ps.
Proof.
  intros P F. unfold get_water_volume. rewrite exchange_total, map_map. apply map_ext. intros _.
  rewrite (map_ext _ _ (local_shown e d)), integral_concat, (Rsum_perm _ _ (Permutation_map _ P)).
  apply Rsum_map_ext_in. intros t I. rewrite Forall_forall in F. specialize (F t I). f_equal.
  unfold fresh in F. unfold shown, difference. destruct e; cbn [negb]; [|reflexivity]. specialize (F eq_refl).
  destruct d; [exact F|]. destruct (stage_v t) as [[a b] c]. destruct (elevation_v t) as [[x y] z]. lra.
Qed.
Print Assumptions C109_volume_partial.

(** The flux integrals and the fractional step integrals: every process gets the
    sum over the processes. *)
Theorem C109_exchange values : length (exchange values) = length values /\ (forall v, In v (exchange values) -> v = Rsum values).
Proof.
  rewrite exchange_total. split; [apply map_length|]. intros v I. apply in_map_iff in I as [w [E _]]. symmetry; exact E.
Qed.
Print Assumptions C109_exchange.

(** The last line is the change of the volume since the first report, less the
    two integrals. *)
Definition volume_at (d : bool) (m : moment) : R := Rsum (map (local_volume (evolved m) d) (processes m)).
Definition let_in (m : moment) : R := Rsum (flux m) + Rsum (fractional m).
Lemma hd_exchange l : hd 0 (exchange l) = Rsum l.
Proof. rewrite exchange_total. destruct l; reflexivity. Qed.
Theorem C109_lines d m ms :
  reports d [] (m :: ms) = map (fun k => volume_at d k - volume_at d m - let_in k) (m :: ms).
Proof.
  cbn [reports]. unfold report_statistics. cbv zeta. cbn [app hd]. rewrite reports_from by discriminate. cbn [map hd].
  f_equal; [|apply map_ext; intros k]; unfold get_water_volume; rewrite !hd_exchange; unfold volume_at, let_in; lra.
Qed.
Print Assumptions C109_lines.

(** The lines are all 0 exactly when the first report is made before any water
    is let in and the volumes balance from then on. *)
Theorem C109_balance_partial d m ms :
  Forall (fun line => line = 0) (reports d [] (m :: ms)) <-> let_in m = 0 /\ Forall (fun k => volume_at d k = volume_at d m + let_in k) ms.
Proof.
  rewrite C109_lines, !Forall_forall. split.
  - intros H. split.
    + specialize (H _ (or_introl eq_refl)). lra.
    + intros k I. specialize (H _ (or_intror (in_map _ _ _ I))). cbn beta in H. lra.
  - intros [Z H] x I. apply in_map_iff in I as [k [<- [<-|I]]]; [lra|]. specialize (H k I). lra.
Qed.
Print Assumptions C109_balance_partial.

(** A first report that is made later gives a line that is not 0 in a run that
    balances exactly: the first report's volume is taken as the initial one. *)
Theorem C109_late_refuted d initial m ms : volume_at d m = initial + let_in m -> Forall (fun k => volume_at d k = initial + let_in k) ms ->
  let_in m <> 0 -> Forall (fun line => line = - let_in m /\ line <> 0) (reports d [] (m :: ms)).
Proof.
  intros B Bs Ne. rewrite C109_lines. rewrite Forall_forall in *. intros x I. apply in_map_iff in I as [k [<- I]].
  assert (K : volume_at d k = initial + let_in k) by (destruct I as [<-|I]; [exact B|exact (Bs k I)]). lra.
Qed.
Print Assumptions C109_late_refuted.

(** With discontinuous elevation the stage is not read after [evolve] is called:
    a stage that is set between two steps does not change the volume. *)
Definition with_stage (s : triangle -> R) (t : triangle) : triangle :=
  {| area := area t; full := full t; stage := s t; elevation := elevation t; height := height t; stage_v := (s t, s t, s t); elevation_v := elevation_v t |}.
Theorem C109_stale_refuted s ps : get_water_volume true true (map (map (with_stage s)) ps) = get_water_volume true true ps.
Proof.
  unfold get_water_volume. rewrite map_map. f_equal. apply map_ext. intros p. unfold local_volume, get_integral. cbn [negb].
  induction p as [|t p IH]; [reflexivity|]. cbn [map filter]. change (full (with_stage s t)) with (full t).
  destruct (full t); [|exact IH]. cbn [map Rsum]. rewrite IH. reflexivity.
Qed.
Print Assumptions C109_stale_refuted.

(** Before [evolve] a stage below the bed counts as negative water; once the
    height is the depth, or 0 if that is negative, the volume has grown with no
    water let in. *)
Definition settled (t : triangle) : Prop := height t = Rmax (stage t - elevation t) 0.
Theorem C109_below_bed_refuted p t : Forall settled p -> (forall t, In t p -> 0 < area t) -> In t p -> full t = true -> stage t < elevation t ->
  local_volume false true p < local_volume true true p.
Proof.
  intros F A I Fu B. unfold local_volume, get_integral. cbn [negb]. rewrite Forall_forall in F.
  assert (G : forall l, (forall t, In t l -> 0 < area t /\ settled t) ->
     Rsum (map (fun t => area t * (stage t - elevation t)) l) <= Rsum (map (fun t => area t * height t) l) /\
     (In t l -> Rsum (map (fun t => area t * (stage t - elevation t)) l) < Rsum (map (fun t => area t * height t) l))).
  { induction l as [|x l IH]; intros H; [cbn; split; [lra|intros []]|]. cbn [map Rsum].
    destruct IH as [IH1 IH2]; [intros y Iy; apply H; right; exact Iy|]. destruct (H x (or_introl eq_refl)) as [Ax Sx]. unfold settled in Sx.
    assert (Le : area x * (stage x - elevation x) <= area x * height x)
      by (apply Rmult_le_compat_l; [lra|rewrite Sx; apply Rmax_l]).
    split; [lra|]. intros [E|It]; [subst x|specialize (IH2 It); lra].
    assert (area t * (stage t - elevation t) < area t * height t) by (apply Rmult_lt_compat_l; [lra|rewrite Sx, Rmax_right; lra]). lra. }
  apply G.
  - intros y Iy. apply filter_In in Iy as [Iy _]. split; [apply A; exact Iy|apply F; exact Iy].
  - apply filter_In. split; assumption.
Qed.
Print Assumptions C109_below_bed_refuted.

(** Cases: two triangles, each a ghost on the other process *)
Definition one (f : bool) : triangle := {| area := 2; full := f; stage := 3; elevation := 1; height := 2; stage_v := (2, 3, 4); elevation_v := (1, 1, 1) |}.
Definition two (f : bool) : triangle := {| area := 1; full := f; stage := 1; elevation := 0; height := 1; stage_v := (1, 1, 1); elevation_v := (-1, 0, 1) |}.
Definition low (f : bool) : triangle := {| area := 1; full := f; stage := 0; elevation := 1; height := 0; stage_v := (0, 0, 0); elevation_v := (1, 1, 1) |}.
Definition parts : list process := [[one true; two false]; [one false; two true]].
Example C109_volume_case e d : get_water_volume e d parts = [5; 5].
Proof.
  rewrite (C109_volume_partial e d parts [two true; one true]).
  - cbn [parts map Rsum area stage elevation one two]. f_equal; [lra|f_equal; lra].
  - apply perm_swap.
  - repeat constructor; intros _; destruct d; cbn; try split; lra.
Qed.
Example C109_exchange_case : exchange [1; 2; 3] = [1 + 2 + 3; 1 + 2 + 3; 1 + 2 + 3].
Proof. reflexivity. Qed.
Definition start : moment := {| evolved := false; processes := [[two true]]; flux := [0]; fractional := [0] |}.
Definition later : moment := {| evolved := true; processes := [[one true]]; flux := [1]; fractional := [2] |}.
Example C109_lines_case : reports true [] [start; later] = [0; 0].
Proof.
  rewrite C109_lines. unfold volume_at, let_in, local_volume, get_integral, start, later, one, two.
  cbn [map evolved processes negb filter full Rsum area stage elevation height flux fractional]. f_equal; [lra|f_equal; lra].
Qed.
Example C109_balance_case : let_in start = 0 /\ Forall (fun k => volume_at true k = volume_at true start + let_in k) [later].
Proof. apply C109_balance_partial. rewrite C109_lines_case. repeat constructor. Qed.
Example C109_late_case : Forall (fun line => line = - let_in later /\ line <> 0) (reports true [] [later]).
Proof.
  apply (C109_late_refuted true 1); [|constructor|]; unfold volume_at, let_in, local_volume, get_integral, later, one;
    cbn [map evolved processes negb filter full Rsum area stage elevation height flux fractional]; lra.
Qed.
Example C109_stale_case : get_water_volume true true (map (map (with_stage (fun _ => 100))) parts) = [5; 5].
Proof. rewrite C109_stale_refuted. apply C109_volume_case. Qed.
Example C109_below_bed_case : local_volume false true [low true] < local_volume true true [low true].
Proof.
  apply (C109_below_bed_refuted _ (low true)).
  - repeat constructor. unfold settled. cbn. rewrite Rmax_right; lra.
  - intros t [<-|[]]. cbn. lra.
  - left; reflexivity.
  - reflexivity.
  - cbn. lra.
Qed.
