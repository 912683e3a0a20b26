(** C96: internal boundary structures pass the discharge of their function. *)
From Coq Require Import Reals List Arith Bool ZArith Lra Lia Sorted.
From Verif Require Import RealLib InternalBoundaryModel.
Import ListNotations.
Local Open Scope R_scope.

Lemma sign_pos x : 0 < x -> sign x = 1%Z.
Proof. intros H. unfold sign. rewrite (proj2 (Rltb_true 0 x) H). reflexivity. Qed.
Lemma sign_neg x : x < 0 -> sign x = (-1)%Z.
Proof. intros H. unfold sign. rewrite (proj2 (Rltb_false 0 x)), (proj2 (Rltb_true x 0) H) by lra. reflexivity. Qed.
Lemma sign_zero : sign 0 = 0%Z.
Proof. unfold sign. rewrite !(proj2 (Rltb_false 0 0)) by lra. reflexivity. Qed.
Lemma sign_eq x y : sign x = sign y -> (0 < x <-> 0 < y) /\ (x < 0 <-> y < 0).
Proof.
  unfold sign. destruct (Rltb_spec 0 x), (Rltb_spec 0 y), (Rltb_spec x 0), (Rltb_spec y 0); intros E; try discriminate; lra.
Qed.

(** A time scale that is not longer than the time step leaves nothing smoothed. *)
Lemma relax_one dt timescale : dt <= 0 \/ (timescale <= dt /\ / 10 ^ 30 <= dt) -> relax dt timescale = 1.
Proof.
  assert (P : 0 < / 10 ^ 30) by (apply Rinv_0_lt_compat, pow_lt; lra). intros H. unfold relax. destruct (Rltb_spec 0 dt) as [Hd|Hd]; [|reflexivity].
  destruct H as [H|(H1 & H2)]; [lra|]. rewrite (Rmax_left dt timescale) by lra. rewrite Rmax_left by exact H2. field. lra.
Qed.
Lemma relax_range dt timescale : 0 < relax dt timescale <= 1.
Proof.
  assert (P : 0 < / 10 ^ 30) by (apply Rinv_0_lt_compat, pow_lt; lra). unfold relax. destruct (Rltb_spec 0 dt) as [Hd|Hd]; [|lra].
  set (M := Rmax (Rmax dt timescale) (/ 10 ^ 30)). assert (M1 : dt <= M) by (unfold M; eapply Rle_trans; [apply Rmax_l|apply Rmax_l]).
  split; [apply Rdiv_lt_0_compat; lra|]. apply (Rmult_le_reg_r M); [lra|]. unfold Rdiv. rewrite Rmult_assoc, Rinv_l by lra. lra.
Qed.

(** ** The operator *)

(** Without smoothing: the discharge of the function at the two levels, from
    inlet 0 to inlet 1 if it is positive. *)
Theorem C96_explicit :
  forall f height dt timescale E0 E1 s, 0 < height -> dt <= 0 \/ (timescale <= dt /\ / 10 ^ 30 <= dt) ->
  let '(r, s') := explicit f height (relax dt timescale) E0 E1 s in
  discharge r = Rabs (f E0 E1) /\ from0 r = Rleb 0 (f E0 E1) /\ smooth_Q s' = f E0 E1.
Proof.
  intros f height dt timescale E0 E1 s Hh Ht. rewrite (relax_one _ _ Ht). unfold explicit. rewrite (proj2 (Rleb_false height 0)) by lra.
  replace (smooth_delta s + 1 * (E0 - E1 - smooth_delta s)) with (E0 - E1) by ring. rewrite Z.eqb_refl.
  assert (L : explicit_levels E0 E1 (E0 - E1) = (E0, E1)).
  { unfold explicit_levels. destruct (Rleb E1 E0); apply f_equal2; ring. }
  rewrite L. replace (smooth_Q s + 1 * (f E0 E1 - smooth_Q s)) with (f E0 E1) by ring. rewrite Z.eqb_refl. cbn [discharge from0 smooth_Q].
  split; [apply Rmin_left; lra|]. split; reflexivity.
Qed.
Print Assumptions C96_explicit.

(** With smoothing: never more than the function gives, and never against it. *)
Theorem C96_bounds :
  forall f height dt timescale E0 E1 s,
  let '(r, s') := explicit f height (relax dt timescale) E0 E1 s in
  0 <= discharge r /\
  (0 < height -> exists h t, (E0 >= E1 -> h = E0) /\ (E0 < E1 -> t = E1) /\ (E1 <= E0 -> t <= h) /\
    discharge r <= Rabs (f h t) /\ (0 < discharge r -> (from0 r = true <-> 0 < f h t))).
Proof.
  intros f height dt timescale E0 E1 s. pose proof (relax_range dt timescale) as Hts. set (ts := relax dt timescale) in *. clearbody ts.
  unfold explicit. destruct (Rleb_spec height 0) as [Hh|Hh]; [cbn; split; [lra|intros; lra]|].
  set (d0 := smooth_delta s + ts * (E0 - E1 - smooth_delta s)). set (d := if Z.eqb (sign d0) (sign (E0 - E1)) then d0 else 0).
  assert (Hd : 0 <= E0 - E1 -> 0 <= d).
  { intros H. unfold d. destruct (Z.eqb_spec (sign d0) (sign (E0 - E1))) as [E|_]; [|lra]. apply sign_eq in E. lra. }
  destruct (explicit_levels E0 E1 d) as (h, t) eqn:L. set (sq := smooth_Q s + ts * (f h t - smooth_Q s)). cbn [discharge from0].
  split.
  - destruct (Z.eqb (sign sq) (sign (f h t))); [|apply Rle_refl]. apply Rmin_glb; apply Rabs_pos.
  - intros _. exists h, t. unfold explicit_levels in L. destruct (Rleb_spec E1 E0) as [HE|HE]; injection L as <- <-.
    + split; [reflexivity|]. split; [intros; lra|]. split; [intros _; specialize (Hd ltac:(lra)); lra|].
      destruct (Z.eqb_spec (sign sq) (sign (f E0 (E0 - d)))) as [E|_].
      * split; [apply Rmin_r|]. intros Hp. apply sign_eq in E. destruct E as (S1 & S2).
        assert (sq <> 0) by (intros Z; rewrite Z, Rabs_R0 in Hp; pose proof (Rmin_l 0 (Rabs (f E0 (E0 - d)))); lra).
        destruct (Rleb_spec 0 sq); split; intros; try discriminate; try reflexivity; lra.
      * split; [apply Rabs_pos|intros; lra].
    + split; [intros; lra|]. split; [reflexivity|]. split; [intros; lra|].
      destruct (Z.eqb_spec (sign sq) (sign (f (E1 + d) E1))) as [E|_].
      * split; [apply Rmin_r|]. intros Hp. apply sign_eq in E. destruct E as (S1 & S2).
        assert (sq <> 0) by (intros Z; rewrite Z, Rabs_R0 in Hp; pose proof (Rmin_l 0 (Rabs (f (E1 + d) E1))); lra).
        destruct (Rleb_spec 0 sq); split; intros; try discriminate; try reflexivity; lra.
      * split; [apply Rabs_pos|intros; lra].
Qed.
Print Assumptions C96_bounds.

(** A discharge that stays the same is approached by a factor in every call. *)
Theorem C96_converges :
  forall Q height ts E0 E1 n s, 0 < height ->
  smooth_Q (Nat.iter n (fun s => snd (explicit (fun _ _ => Q) height ts E0 E1 s)) s) = Q + (1 - ts) ^ n * (smooth_Q s - Q).
Proof.
  intros Q height ts E0 E1 n s Hh. induction n as [|n IH]; [cbn; ring|].
  cbn [Nat.iter nat_rect]. set (s' := nat_rect _ _ _ n) in *. change (Nat.iter n _ s) with s' in IH.
  assert (E : smooth_Q (snd (explicit (fun _ _ => Q) height ts E0 E1 s')) = smooth_Q s' + ts * (Q - smooth_Q s')).
  { unfold explicit. rewrite (proj2 (Rleb_false height 0)) by lra. destruct (explicit_levels _ _ _). reflexivity. }
  cbn beta. rewrite E. unfold s' at 1 2. cbn [Nat.iter] in IH. fold s'. rewrite IH. cbn [pow]. ring.
Qed.
Print Assumptions C96_converges.

(** The implicit routine, with the equation solved: water flows from the higher
    to the lower level, the levels do not cross, and not more flows than the
    function gives at the levels before. *)
Definition downhill (f : R -> R -> R) : Prop := forall h t, (t <= h -> 0 <= f h t) /\ (h <= t -> f h t <= 0).
Definition monotone (f : R -> R -> R) : Prop := forall h h' t t', h <= h' -> t' <= t -> f h t <= f h' t'.

Theorem C96_implicit :
  forall ck f root height dt timescale E0 E1 A0 A1 s, 0 < height -> 0 < dt -> 0 < A0 -> 0 < A1 -> timescale <= dt -> / 10 ^ 30 <= dt ->
  downhill f -> residual f dt E0 E1 A0 A1 root = (0, 0) ->
  let '(r, s') := implicit ck f root height (relax dt timescale) dt E0 E1 s in
  let moved := if from0 r then discharge r else - discharge r in
  0 <= discharge r /\
  (E1 <= E0 -> 0 <= moved /\ E1 + moved * dt / A1 <= E0 - moved * dt / A0) /\
  (E0 <= E1 -> moved <= 0 /\ E0 - moved * dt / A0 <= E1 + moved * dt / A1) /\
  (monotone f -> discharge r <= Rabs (f E0 E1)).
Proof.
  intros ck f (s0, s1) height dt timescale E0 E1 A0 A1 s Hh Hdt HA0 HA1 Ht1 Ht2 Dn Res. rewrite relax_one by (right; lra).
  unfold implicit. rewrite (proj2 (Rleb_false height 0)) by lra. rewrite andb_false_r. rewrite (proj2 (Rltb_true 0 dt) Hdt). cbn [fst snd] in *.
  unfold residual in Res. cbn [fst snd] in Res. set (Q := f (E0 + s0) (E1 + s1)) in *. injection Res as R0 R1.
  replace (smooth_Q s + 1 * (Q - smooth_Q s)) with Q by ring. rewrite Z.eqb_refl. cbn [discharge from0]. rewrite Rmin_left by lra.
  assert (M : (if Rleb 0 Q then Rabs Q else - Rabs Q) = Q).
  { destruct (Rleb_spec 0 Q); [apply Rabs_right; lra|]. rewrite Rabs_left by lra. ring. }
  rewrite M. assert (S0 : s0 = - (Q * dt / A0)) by (apply (Rmult_eq_reg_r A0); [|lra]; field_simplify; [lra|lra]).
  assert (S1 : s1 = Q * dt / A1) by (apply (Rmult_eq_reg_r A1); [|lra]; field_simplify; [lra|lra]).
  destruct (Dn (E0 + s0) (E1 + s1)) as (D1 & D2). fold Q in D1, D2.
  assert (P0 : forall x, 0 <= x -> 0 <= x * dt / A0) by (intros x Hx; apply Rmult_le_pos; [apply Rmult_le_pos; lra|left; apply Rinv_0_lt_compat; lra]).
  assert (P1 : forall x, 0 <= x -> 0 <= x * dt / A1) by (intros x Hx; apply Rmult_le_pos; [apply Rmult_le_pos; lra|left; apply Rinv_0_lt_compat; lra]).
  assert (Z0 : forall x, - (x * dt / A0) = - x * dt / A0) by (intros x; field; lra). assert (Z1 : forall x, - (x * dt / A1) = - x * dt / A1) by (intros x; field; lra).
  assert (K1 : E1 <= E0 -> 0 <= Q).
  { intros HE. destruct (Rle_lt_dec 0 Q) as [|Hq]; [assumption|]. pose proof (P0 (- Q) ltac:(lra)) as X0. pose proof (P1 (- Q) ltac:(lra)) as X1.
    rewrite <- Z0 in X0. rewrite <- Z1 in X1. apply D1. lra. }
  assert (K2 : E0 <= E1 -> Q <= 0).
  { intros HE. destruct (Rle_lt_dec Q 0) as [|Hq]; [assumption|]. pose proof (P0 Q ltac:(lra)) as X0. pose proof (P1 Q ltac:(lra)) as X1. apply D2. lra. }
  split; [apply Rabs_pos|]. split; [|split].
  - intros HE. split; [exact (K1 HE)|]. destruct (Rle_lt_dec (E1 + s1) (E0 + s0)) as [|Hc]; [lra|]. exfalso.
    assert (Q = 0) by (pose proof (K1 HE); specialize (D2 ltac:(lra)); lra). rewrite H in S0, S1. unfold Rdiv in S0, S1. rewrite !Rmult_0_l in S0, S1. lra.
  - intros HE. split; [exact (K2 HE)|]. destruct (Rle_lt_dec (E0 + s0) (E1 + s1)) as [|Hc]; [lra|]. exfalso.
    assert (Q = 0) by (pose proof (K2 HE); specialize (D1 ltac:(lra)); lra). rewrite H in S0, S1. unfold Rdiv in S0, S1. rewrite !Rmult_0_l in S0, S1. lra.
  - intros Mo. destruct (Rle_lt_dec E1 E0) as [HE|HE].
    + pose proof (K1 HE) as Hq. rewrite (Rabs_right Q) by lra. eapply Rle_trans; [|apply Rle_abs]. apply Mo; [pose proof (P0 Q Hq); lra|pose proof (P1 Q Hq); lra].
    + pose proof (K2 (Rlt_le _ _ HE)) as Hq. rewrite (Rabs_left1 Q) by lra. rewrite <- Rabs_Ropp. eapply Rle_trans; [|apply Rle_abs].
      apply Ropp_le_contravar. apply Mo; [pose proof (P0 (- Q) ltac:(lra)) as X; rewrite <- Z0 in X; lra|pose proof (P1 (- Q) ltac:(lra)) as X; rewrite <- Z1 in X; lra].
Qed.
Print Assumptions C96_implicit.

(** ** Pumps *)
Definition sound_pump (p : station) (s : pump) : Prop := 0 <= increase p /\ 0 <= decrease p /\ 0 <= rate s <= capacity p.

Lemma call_sound p now hw s r s' : sound_pump p s -> call_pump p now hw s = Some (r, s') ->
  last_time s <= now /\ last_time s' = now /\ rate s' = r /\ sound_pump p s' /\
  (hw < stop_level p -> r = Rmax 0 (rate s - (now - last_time s) * decrease p)) /\
  (stop_level p <= hw -> start_level p < hw -> r = Rmin (capacity p) (rate s + (now - last_time s) * increase p)) /\
  (stop_level p <= hw <= start_level p -> r = rate s).
Proof.
  intros (Hi & Hd & Hr) E. unfold call_pump in E. destruct (Rltb_spec now (last_time s)) as [|Ht]; [discriminate|].
  set (dt := if Rltb (last_time s) now then now - last_time s else 0) in *. injection E as E1 E2.
  assert (Edt : dt = now - last_time s) by (unfold dt; destruct (Rltb_spec (last_time s) now); lra).
  assert (Pdt : 0 <= dt) by lra. assert (Pd : 0 <= dt * decrease p) by (apply Rmult_le_pos; lra). assert (Pi : 0 <= dt * increase p) by (apply Rmult_le_pos; lra).
  rewrite E1 in E2. subst s'. cbn [last_time rate]. split; [lra|]. split; [destruct (Rltb_spec (last_time s) now); lra|]. split; [reflexivity|].
  rewrite <- Edt. split; [|split; [|split]].
  - unfold sound_pump. cbn [rate]. split; [exact Hi|]. split; [exact Hd|]. rewrite <- E1.
    destruct (Rltb_spec hw (stop_level p)); [|destruct (Rltb_spec (start_level p) hw); [|lra]].
    + split; [apply Rmax_l|apply Rmax_lub; lra].
    + split; [apply Rmin_glb; lra|apply Rmin_l].
  - intros H. rewrite <- E1, (proj2 (Rltb_true hw (stop_level p)) H). reflexivity.
  - intros H1 H2. rewrite <- E1, (proj2 (Rltb_false hw (stop_level p)) H1), (proj2 (Rltb_true (start_level p) hw) H2). reflexivity.
  - intros (H1 & H2). rewrite <- E1, (proj2 (Rltb_false hw (stop_level p)) H1), (proj2 (Rltb_false (start_level p) hw) H2). reflexivity.
Qed.

(** In all sequences of calls at times that do not go back, the rate stays between
    0 and the capacity; it changes by the given accelerations times the time
    passed, falls only below the one level and rises only above the other. *)
Theorem C96_pump :
  forall p now r0 s, make_pump p now r0 = Some s -> forall calls, Sorted Rle (now :: map fst calls) ->
  exists rs s', call_pumps p calls s = Some (rs, s') /\ length rs = length calls /\
    forall i t hw r, nth_error calls i = Some (t, hw) -> nth_error rs i = Some r ->
    let before := nth i (r0 :: rs) 0 in let dt := t - nth i (now :: map fst calls) 0 in
    0 <= r <= capacity p /\
    (hw < stop_level p -> r = Rmax 0 (before - dt * decrease p)) /\
    (stop_level p <= hw -> start_level p < hw -> r = Rmin (capacity p) (before + dt * increase p)) /\
    (stop_level p <= hw <= start_level p -> r = before).
Proof.
  intros p now r0 s E calls. assert (Snd : sound_pump p s /\ last_time s = now /\ rate s = r0).
  { unfold make_pump in E. destruct (Rltb _ _); [discriminate|]. destruct (Rltb_spec (capacity p) r0); [discriminate|].
    destruct (Rltb_spec (increase p) 0), (Rltb_spec (decrease p) 0), (Rltb_spec (capacity p) 0), (Rltb_spec r0 0); try discriminate.
    cbn in E. injection E as <-. unfold sound_pump. cbn. repeat split; lra. }
  clear E. destruct Snd as (Snd & El & Er). revert now r0 s Snd El Er. induction calls as [|(t, hw) calls IH]; intros now r0 s Snd El Er So.
  - exists [], s. split; [reflexivity|]. split; [reflexivity|]. intros [|i] t hw r H; discriminate.
  - cbn [map fst] in So. inversion So as [|? ? So' Hd]. subst. inversion Hd as [|? ? Ht]. subst. cbn [call_pumps].
    destruct (call_pump p t hw s) as [(r, s')|] eqn:Ec.
    + destruct (call_sound _ _ _ _ _ _ Snd Ec) as (C1 & C2 & C3 & C4 & C5 & C6 & C7).
      destruct (IH t r s' C4 C2 C3 So') as (rs & s'' & Es & Ls & H). rewrite Es. exists (r :: rs), s''. split; [reflexivity|]. split; [cbn; rewrite Ls; reflexivity|].
      intros [|i] t' hw' r' E1 E2.
      * cbn in E1, E2. injection E1 as <- <-. injection E2 as <-. cbn [nth]. destruct C4 as (_ & _ & C4). rewrite C3 in C4. auto.
      * cbn in E1, E2. exact (H i t' hw' r' E1 E2).
    + exfalso. unfold call_pump in Ec. rewrite (proj2 (Rltb_false t (last_time s)) Ht) in Ec. discriminate.
Qed.
Print Assumptions C96_pump.

(** ** Rating curves *)
Definition good_curve (c : curve) : Prop :=
  tw_of c < hw_max c /\ exists x1 y1 rest, points c = (tw_of c, 0) :: (x1, y1) :: rest /\ tw_of c < x1.
Definition good_table (T : table) : Prop := Forall good_curve (curves T) /\ StronglySorted (fun c d => tw_of c < tw_of d) (curves T).

Lemma bracket_spec l tw : StronglySorted (fun c d => tw_of c < tw_of d) l -> (exists c0, hd_error l = Some c0 /\ tw_of c0 <= tw) ->
  exists c next, bracket l tw = Some (c, next) /\ In c l /\ tw_of c <= tw /\ (forall u, next = Some u -> In u l /\ tw < tw_of u /\ tw_of c < tw_of u).
Proof.
  induction l as [|c l IH]; intros So (c0 & E & H); [discriminate|]. cbn in E. injection E as <-. cbn [bracket].
  rewrite (proj2 (Rltb_false tw (tw_of c)) H). inversion So as [|? ? So' Fa]. subst. destruct l as [|d l].
  - cbn. exists c, None. split; [reflexivity|]. split; [left; reflexivity|]. split; [exact H|]. intros u Hu. discriminate.
  - destruct (Rle_lt_dec (tw_of d) tw) as [Hd|Hd].
    + destruct (IH So' (ex_intro _ d (conj eq_refl Hd))) as (c' & next & Eb & Hc & Ht & Hn). rewrite Eb. exists c', next.
      split; [reflexivity|]. split; [right; exact Hc|]. split; [exact Ht|]. intros u Hu. destruct (Hn u Hu) as (N1 & N2). split; [right; exact N1|exact N2].
    + assert (Eb : bracket (d :: l) tw = None) by (cbn [bracket]; rewrite (proj2 (Rltb_true tw (tw_of d)) Hd); reflexivity). rewrite Eb.
      exists c, (Some d). split; [reflexivity|]. split; [left; reflexivity|]. split; [exact H|]. intros u Hu. cbn in Hu. injection Hu as <-.
      split; [right; left; reflexivity|]. split; [exact Hd|]. inversion Fa. assumption.
Qed.
Lemma interpolate_start c : good_curve c -> interpolate (points c) (tw_of c) = Some 0.
Proof.
  intros (_ & x1 & y1 & rest & -> & H). cbn [interpolate]. rewrite (proj2 (Rltb_false _ _)), (proj2 (Rleb_true _ _)) by lra. f_equal. field. lra.
Qed.

(** Nothing flows between equal levels in the range of the curves; the discharge
    lies between those of the two curves; reversed levels reverse the discharge. *)
Theorem C96_rest :
  forall T h c0 m, good_table T -> hd_error (curves T) = Some c0 -> largest_tw (curves T) = Some m ->
  tw_of c0 <= h <= m -> free_min T <= h <= free_max T -> call_rating T h h = Some 0.
Proof.
  intros T h c0 m (Gc & So) E0 Em Hh Hf. unfold call_rating. rewrite (proj2 (Rltb_false h h)) by lra. cbn [andb].
  unfold rating. rewrite (proj2 (Rltb_false h h)), (proj2 (Rltb_false h (free_min T))), (proj2 (Rltb_false (free_max T) h)), Em by lra.
  destruct (curves T) as [|c l] eqn:Ec; [discriminate|]. cbn in E0. injection E0 as ->.
  rewrite (proj2 (Rltb_false m h)), (proj2 (Rltb_false h (tw_of c0))) by lra.
  destruct (bracket_spec (c0 :: l) h So (ex_intro _ c0 (conj eq_refl (proj1 Hh)))) as (b & next & -> & Hb & Ht & Hn).
  assert (Gb : good_curve b) by (rewrite Forall_forall in Gc; apply Gc; exact Hb). unfold on_curves.
  replace (h - h + tw_of b) with (tw_of b) by ring. pose proof (proj1 Gb) as Bb.
  assert (Lb : Rltb (Rmax (hw_max b) (free_max T)) (tw_of b) = false) by (apply Rltb_false; pose proof (Rmax_l (hw_max b) (free_max T)); lra). rewrite Lb.
  rewrite (proj2 (Rleb_true (tw_of b) (hw_max b))), (interpolate_start b Gb) by lra. destruct next as [u|].
  - destruct (Hn u eq_refl) as (Hu & Hl & Hl2). assert (Gu : good_curve u) by (rewrite Forall_forall in Gc; apply Gc; exact Hu). pose proof (proj1 Gu) as Bu.
    replace (h - h + tw_of u) with (tw_of u) by ring.
    assert (Lu : Rltb (Rmax (hw_max u) (free_max T)) (tw_of u) = false) by (apply Rltb_false; pose proof (Rmax_l (hw_max u) (free_max T)); lra). rewrite Lu.
    cbn [orb]. rewrite (proj2 (Rltb_true (tw_of u) (hw_max u))), (interpolate_start u Gu) by lra. f_equal. field. lra.
  - rewrite Lb. cbn [orb]. rewrite (proj2 (Rltb_true (tw_of b) (hw_max b))), (interpolate_start b Gb) by lra. f_equal. field.
Qed.
Print Assumptions C96_rest.

Theorem C96_between :
  forall T hw tw c u q l h, on_curves T hw tw c (Some u) = Some q -> tw_of c <= tw < tw_of u ->
  (if Rleb (hw - tw + tw_of c) (hw_max c) then interpolate (points c) (hw - tw + tw_of c) else interpolate (free T) hw) = Some l ->
  (if Rltb (hw - tw + tw_of u) (hw_max u) then interpolate (points u) (hw - tw + tw_of u) else interpolate (free T) hw) = Some h ->
  Rmin l h <= q <= Rmax l h.
Proof.
  intros T hw tw c u q l h E Ht El Eh. unfold on_curves in E. destruct (_ || _); [discriminate|]. rewrite El, Eh in E. injection E as <-.
  set (w0 := tw - tw_of c) in *. set (w1 := tw_of u - tw). assert (H0 : 0 <= w0) by (unfold w0; lra). assert (H1 : 0 < w1) by (unfold w1; lra). clearbody w0 w1.
  pose proof (Rmin_l l h). pose proof (Rmin_r l h). pose proof (Rmax_l l h). pose proof (Rmax_r l h).
  set (a := Rmin l h) in *. set (b := Rmax l h) in *. clearbody a b.
  assert (w0 * a <= w0 * h) by (apply Rmult_le_compat_l; lra). assert (w1 * a <= w1 * l) by (apply Rmult_le_compat_l; lra).
  assert (w0 * h <= w0 * b) by (apply Rmult_le_compat_l; lra). assert (w1 * l <= w1 * b) by (apply Rmult_le_compat_l; lra).
  split; (apply (Rmult_le_reg_r (w0 + w1)); [lra|]); unfold Rdiv; rewrite Rmult_assoc, Rinv_l by lra; lra.
Qed.
Print Assumptions C96_between.

Theorem C96_reversed :
  forall T a b, reversal T = true -> a <> b -> call_rating T b a = match call_rating T a b with Some q => Some (- q) | None => None end.
Proof.
  intros T a b Rv N. unfold call_rating. rewrite Rv, !andb_true_r. destruct (Rltb_spec a b), (Rltb_spec b a); try lra.
  - destruct (rating T b a); [f_equal; ring|reflexivity].
  - destruct (rating T a b); [f_equal; ring|reflexivity].
Qed.
Print Assumptions C96_reversed.

(** ** What goes wrong *)

(** The default (implicit) routine of the sequential operator lets water through a
    closed structure; the parallel one does not. *)
Theorem C96_closed_refuted :
  forall f root E0 E1 s, f E0 E1 <> 0 ->
  let '(r, _) := implicit false f root 0 1 0 E0 E1 s in let '(r', _) := implicit true f root 0 1 0 E0 E1 s in
  discharge r = Rabs (f E0 E1) /\ 0 < discharge r /\ discharge r' = 0.
Proof.
  intros f root E0 E1 s H. unfold implicit. rewrite (proj2 (Rleb_true 0 0)), (proj2 (Rltb_false 0 0)) by lra. cbn [andb].
  replace (smooth_Q s + 1 * (f E0 E1 - smooth_Q s)) with (f E0 E1) by ring. rewrite Z.eqb_refl. cbn [discharge]. rewrite Rmin_left by lra.
  split; [reflexivity|]. split; [apply Rabs_pos_lt; exact H|reflexivity].
Qed.
Print Assumptions C96_closed_refuted.

(** "hw will always be the stage at enquiry point 0": with smoothing the explicit
    routine passes another level, and a pump runs that should be off. *)
Theorem C96_headwater_refuted :
  let pump_at_5 h (_ : R) := if Rltb 5 h then 1 else 0 in
  relax 1 10 = 1 / 10 /\ pump_at_5 0 10 = 0 /\
  discharge (fst (explicit pump_at_5 1 (relax 1 10) 0 10 {| smooth_Q := 0; smooth_delta := 0 |})) = 1 / 10.
Proof.
  assert (E : relax 1 10 = 1 / 10).
  { unfold relax. rewrite (proj2 (Rltb_true 0 1)), (Rmax_right 1 10) by lra. rewrite Rmax_left; [reflexivity|].
    assert (/ 10 ^ 30 <= / 1) by (apply Rinv_le_contravar; [lra|apply pow_R1_Rle; lra]). lra. }
  cbv zeta. split; [exact E|]. split; [rewrite (proj2 (Rltb_false 5 0)) by lra; reflexivity|]. rewrite E. unfold explicit.
  rewrite (proj2 (Rleb_false 1 0)) by lra. cbn [smooth_Q smooth_delta]. replace (0 + 1 / 10 * (0 - 10 - 0)) with (-1) by field.
  rewrite (sign_neg (-1)), (sign_neg (0 - 10)) by lra. cbn [Z.eqb Pos.eqb]. unfold explicit_levels. rewrite (proj2 (Rleb_false 10 0)) by lra.
  rewrite (proj2 (Rltb_true 5 (10 + -1))) by lra. cbn [fst discharge]. replace (0 + 1 / 10 * (1 - 0)) with (1 / 10) by field.
  rewrite !sign_pos by lra. cbn [Z.eqb Pos.eqb]. rewrite !Rabs_right by lra. apply Rmin_left. lra.
Qed.
Print Assumptions C96_headwater_refuted.

(** The object starts from the size of the first discharge without its direction:
    water that flows from inlet 1 to inlet 0 is stopped at first. *)
Theorem C96_direction_refuted :
  let f (_ _ : R) := -5 in
  let s := initial (explicit f 1 (relax 0 10) 0 1) in
  smooth_Q s = 5 /\ discharge (fst (explicit f 1 (1 / 10) 0 1 s)) = 0 /\
  discharge (fst (explicit f 1 (1 / 10) 0 1 {| smooth_Q := -5; smooth_delta := smooth_delta s |})) = 5.
Proof.
  cbv zeta. assert (E : relax 0 10 = 1) by (apply relax_one; left; lra).
  assert (S0 : smooth_Q (initial (explicit (fun _ _ => -5) 1 (relax 0 10) 0 1)) = 5).
  { rewrite E. unfold initial, explicit. rewrite (proj2 (Rleb_false 1 0)) by lra. destruct (explicit_levels _ _ _). cbn [discharge smooth_Q].
    replace (0 + 1 * (-5 - 0)) with (-5) by ring. rewrite Z.eqb_refl, Rmin_left by lra. rewrite Rabs_left by lra. ring. }
  split; [exact S0|]. set (s := initial _) in *. clearbody s. unfold explicit. rewrite (proj2 (Rleb_false 1 0)) by lra. split.
  - destruct (explicit_levels _ _ _). cbn [fst discharge]. rewrite S0. replace (5 + 1 / 10 * (-5 - 5)) with 4 by field. rewrite sign_pos, sign_neg by lra. reflexivity.
  - destruct (explicit_levels _ _ _). cbn [fst discharge smooth_Q]. replace (-5 + 1 / 10 * (-5 - -5)) with (-5) by field. rewrite Z.eqb_refl, Rmin_left, Rabs_left by lra. ring.
Qed.
Print Assumptions C96_direction_refuted.

(** Sequential and parallel operators start from different discharges. *)
Theorem C96_parallel_refuted :
  let f (_ _ : R) := 5 in
  let s := initial (explicit f 1 (relax 0 10) 1 0) in let s' := initial (explicit f 1 (relax_parallel 0 10) 1 0) in
  discharge (fst (explicit f 1 (1 / 10) 1 0 s)) = 5 /\ discharge (fst (explicit f 1 (1 / 10) 1 0 s')) = 1 / 2.
Proof.
  cbv zeta. assert (E : relax 0 10 = 1) by (apply relax_one; left; lra). assert (E' : relax_parallel 0 10 = 0) by (unfold relax_parallel; unfold Rdiv; ring).
  assert (S0 : smooth_Q (initial (explicit (fun _ _ => 5) 1 (relax 0 10) 1 0)) = 5).
  { rewrite E. unfold initial, explicit. rewrite (proj2 (Rleb_false 1 0)) by lra. destruct (explicit_levels _ _ _). cbn [discharge smooth_Q].
    replace (0 + 1 * (5 - 0)) with 5 by ring. rewrite Z.eqb_refl, Rmin_left by lra. rewrite Rabs_right by lra. ring. }
  assert (S1 : smooth_Q (initial (explicit (fun _ _ => 5) 1 (relax_parallel 0 10) 1 0)) = 0).
  { rewrite E'. unfold initial, explicit. rewrite (proj2 (Rleb_false 1 0)) by lra. destruct (explicit_levels _ _ _). cbn [discharge smooth_Q].
    replace (0 + 0 * (5 - 0)) with 0 by ring. rewrite sign_zero, sign_pos by lra. reflexivity. }
  set (s := initial _) in *. clearbody s. set (s' := initial _) in *. clearbody s'. unfold explicit. rewrite (proj2 (Rleb_false 1 0)) by lra. split.
  - destruct (explicit_levels _ _ _). cbn [fst discharge]. rewrite S0. replace (5 + 1 / 10 * (5 - 5)) with 5 by field. rewrite Z.eqb_refl, Rmin_left, Rabs_right by lra. ring.
  - destruct (explicit_levels _ _ _). cbn [fst discharge]. rewrite S1. replace (0 + 1 / 10 * (5 - 0)) with (1 / 2) by field.
    rewrite !sign_pos by lra. cbn [Z.eqb Pos.eqb]. rewrite !Rabs_right by lra. apply Rmin_left. lra.
Qed.
Print Assumptions C96_parallel_refuted.

(** Below the first curve the free flow curve is used whatever the tailwater:
    water flows between equal levels. *)
Definition example_table : table :=
  {| free_min := 0; free_max := 10; free := [(0, 0); (10, 20)];
     curves := [{| tw_of := 5; hw_max := 9; points := [(5, 0); (9, 8)] |}; {| tw_of := 7; hw_max := 9; points := [(7, 0); (9, 6)] |}]; reversal := true |}.
Lemma example_good : good_table example_table.
Proof.
  split.
  - repeat constructor; cbn; try lra; do 3 eexists; (split; [reflexivity|lra]).
  - repeat constructor; cbn; lra.
Qed.
Theorem C96_free_refuted : good_table example_table /\ call_rating example_table 4 4 = Some 8.
Proof.
  split; [exact example_good|]. unfold call_rating. rewrite (proj2 (Rltb_false 4 4)) by lra. cbn [andb]. unfold rating.
  rewrite (proj2 (Rltb_false 4 4)), (proj2 (Rltb_false 4 (free_min example_table))), (proj2 (Rltb_false (free_max example_table) 4)) by (cbn; lra).
  cbn [example_table curves largest_tw fold_left tw_of]. rewrite (Rmax_right 5 7), (proj2 (Rltb_false 7 4)), (proj2 (Rltb_true 4 5)) by lra.
  cbn [example_table free interpolate]. rewrite (proj2 (Rltb_false 4 0)), (proj2 (Rleb_true 4 10)) by lra. f_equal. field.
Qed.
Print Assumptions C96_free_refuted.

(** A weir-like function, its exact solution for one step, a pump, and a table. *)
Example C96_case :
  downhill (fun h t => h - t) /\ monotone (fun h t => h - t) /\ residual (fun h t => h - t) 1 1 0 1 1 (- (1 / 3), 1 / 3) = (0, 0) /\
  (exists s, make_pump {| capacity := 2; start_level := 3; stop_level := 1; increase := 1; decrease := 1 |} 0 0 = Some s) /\
  good_table example_table /\ call_rating example_table 6 6 = Some 0.
Proof.
  split; [intros h t; lra|]. split; [intros h h' t t' H1 H2; lra|]. split; [unfold residual; cbn; apply f_equal2; field|]. split.
  - unfold make_pump. cbn. rewrite (proj2 (Rltb_false 3 1)), !(proj2 (Rltb_false 2 0)), !(proj2 (Rltb_false 1 0)), !(proj2 (Rltb_false 0 0)) by lra. cbn. eexists. reflexivity.
  - split; [exact example_good|]. apply (C96_rest example_table 6 {| tw_of := 5; hw_max := 9; points := [(5, 0); (9, 8)] |} 7 example_good); [reflexivity| |cbn; lra|cbn; lra].
    cbn. rewrite Rmax_right by lra. reflexivity.
Qed.
