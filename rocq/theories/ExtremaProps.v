(** C41 (monitored extrema) and C42 (running maxima). *)
From Coq Require Import Reals List ZArith Lra Lia Bool Arith.
From Verif Require Import RealLib ExtremaModel ExtremaProofs.
Import ListNotations.
Local Open Scope R_scope.

(** * C41 *)

(** The call is inside the monitored time interval. *)
Definition in_interval (interval : option (R * R)) (t : R) : Prop :=
  match interval with None => True | Some (a, b) => a <= t <= b end.

(** [v] was seen: some call in the interval had value [v] in a monitored
    triangle. *)
Definition seen (interval : option (R * R)) (indices : option (list nat)) (n : nat)
  (history : list (R * list R)) (v t : R) (k : nat) (V : list R) : Prop :=
  In (t, V) history /\ in_interval interval t /\ monitored indices n k /\ nth_error V k = Some v.

(** The recorded extremum [h] is correct for the history: it exists once a
    call was made in the interval, it was attained in a monitored triangle at
    the recorded time, and no value seen beats it by more than 1e-6 ([beats]
    is > + tolerance).  Without a polygon the recorded location is the centroid of a
    triangle holding that value at that time. *)
Definition correct_half (tol : R -> R -> bool) (coords : list (R * R)) (interval : option (R * R))
  (indices : option (list nat)) (n : nat) (history : list (R * list R)) (h : half) : Prop :=
  match h with
  | None => forall v t k V, ~ seen interval indices n history v t k V
  | Some e =>
      (exists k V, seen interval indices n history (x_val e) (x_time e) k V /\
         (indices = None -> nth_error coords k = Some (x_loc e))) /\
      (forall v t k V, seen interval indices n history v t k V -> tol v (x_val e) = false)
  end.

Lemma update_half_correct better tol coords interval indices n history t V h :
  strict_order better ->
  (forall a b, better b a = false -> tol b a = false) ->
  (forall a b c, better c b = false -> tol b a = false -> tol c a = false) ->
  (forall a b c, tol b a = true -> tol c a = false -> tol c b = false) ->
  length coords = n -> length V = n -> indices_ok indices n -> in_interval interval t ->
  correct_half tol coords interval indices n history h ->
  exists h', update_half better tol coords indices t V h = Some h' /\
             correct_half tol coords interval indices n (history ++ [(t, V)]) h'.
Proof.
  intros S T1 T2 T3 Lc LV Ok It C. rewrite <- LV in Ok.
  assert (Okn : indices_ok None (length V)).
  { cbn. destruct indices as [[|i ids]|]; cbn in Ok; [destruct Ok; congruence| |exact Ok].
    destruct Ok as (_ & F). specialize (F i (or_introl eq_refl)). lia. }
  unfold update_half, get_extremum_value.
  destruct (extremum_index_spec better V indices S Ok) as (i & v & Ei & Mi & Vi & Best).
  rewrite Ei, Vi.
  destruct (extremum_index_spec better V None S Okn) as (j & w & Ej & Mj & Vj & Bestj). cbn in Mj.
  assert (Seen' : forall u s k U, seen interval indices n (history ++ [(t, V)]) u s k U ->
    seen interval indices n history u s k U \/ (s = t /\ U = V /\ monitored indices n k /\ nth_error V k = Some u)).
  { intros u s k U (A & B & D & E). apply in_app_iff in A as [A|[A|[]]]; [left; split; auto|].
    injection A as <- <-. right. auto. }
  assert (SeenL : forall u s k U, seen interval indices n history u s k U -> seen interval indices n (history ++ [(t, V)]) u s k U).
  { intros u s k U (A & B). split; [apply in_app_iff; auto|exact B]. }
  assert (Here : seen interval indices n (history ++ [(t, V)]) v t i V).
  { split; [apply in_app_iff; right; left; reflexivity|]. split; [exact It|]. split; [rewrite <- LV; exact Mi|exact Vi]. }
  assert (New : forall loc, get_extremum_location better coords V None = Some loc ->
     (forall u s k U, seen interval indices n history u s k U -> tol u v = false) ->
     correct_half tol coords interval indices n (history ++ [(t, V)]) (Some {| x_val := v; x_loc := loc; x_time := t |})).
  { intros loc Hloc Old. cbn [correct_half x_val x_loc x_time]. split.
    - exists i, V. split; [exact Here|]. intros ->. unfold get_extremum_location in Hloc. rewrite Ei in Hloc. exact Hloc.
    - intros u s k U Hs. apply Seen' in Hs as [Hs|(-> & -> & Mk & Vk)]; [eauto|].
      apply T1. apply (Best k); auto. rewrite LV. exact Mk. }
  destruct (get_extremum_location better coords V None) as [loc|] eqn:Eloc.
  2: { unfold get_extremum_location in Eloc. rewrite Ej in Eloc. apply nth_error_None in Eloc. lia. }
  destruct h as [e|]; cbn [correct_half] in C.
  - destruct C as ((k0 & V0 & S0 & L0) & C2). destruct (tol v (x_val e)) eqn:Et.
    + eexists. split; [reflexivity|]. apply New; auto. intros u s k U Hs. apply (T3 (x_val e) v u Et). eauto.
    + eexists. split; [reflexivity|]. cbn [correct_half]. split.
      * exists k0, V0. auto.
      * intros u s k U Hs. apply Seen' in Hs as [Hs|(-> & -> & Mk & Vk)]; [eauto|].
        apply (T2 (x_val e) v u); auto. apply (Best k); auto. rewrite LV. exact Mk.
  - eexists. split; [reflexivity|]. apply New; auto. intros u s k U Hs. exfalso. apply (C u s k U Hs).
Qed.

(** Any history of calls on states with one value per triangle, with a
    non-empty set of monitored triangles: no exception is raised, and both
    recorded extrema are correct: for the maximum no value seen exceeds the
    recorded one by more than 1e-6, dually for the minimum. *)
Theorem C41_extrema :
  forall coords interval indices history,
  indices_ok indices (length coords) ->
  (forall t V, In (t, V) history -> length V = length coords) ->
  exists i, run_extrema coords interval indices info0 history = Some i /\
  correct_half (fun a b => if Rlt_dec (b + / 10 ^ 6) a then true else false) coords interval indices (length coords) history (i_max i) /\
  correct_half (fun a b => if Rlt_dec a (b - / 10 ^ 6) then true else false) coords interval indices (length coords) history (i_min i).
Proof.
  intros coords interval indices history Ok.
  change (fun a b => if Rlt_dec (b + / 10 ^ 6) a then true else false) with max_tol.
  change (fun a b => if Rlt_dec a (b - / 10 ^ 6) then true else false) with min_tol.
  assert (E6 : 0 < eps6) by (unfold eps6; apply Rinv_0_lt_compat, pow_lt; lra).
  enough (G : forall rest done i,
    (forall t V, In (t, V) rest -> length V = length coords) ->
    correct_half max_tol coords interval indices (length coords) done (i_max i) ->
    correct_half min_tol coords interval indices (length coords) done (i_min i) ->
    exists i', run_extrema coords interval indices i rest = Some i' /\
      correct_half max_tol coords interval indices (length coords) (done ++ rest) (i_max i') /\
      correct_half min_tol coords interval indices (length coords) (done ++ rest) (i_min i')).
  { intros HL. apply (G history [] info0); auto; cbn; intros v t k V (A & _); exact A. }
  induction rest as [|[t V] rest IH]; intros done i HL Cx Cn; cbn [run_extrema].
  - rewrite app_nil_r. eauto.
  - assert (LV : length V = length coords) by (apply (HL t); left; reflexivity).
    replace (done ++ (t, V) :: rest) with ((done ++ [(t, V)]) ++ rest) by (rewrite <- app_assoc; reflexivity).
    cbn [update_extrema].
    destruct (match interval with Some (a, b) => Rltb t a || Rltb b t | None => false end) eqn:Ei.
    + (* outside the interval *)
      assert (No : ~ in_interval interval t).
      { unfold in_interval. destruct interval as [[a b]|]; [|discriminate]. apply orb_true_iff in Ei.
        rewrite !Rltb_true in Ei. lra. }
      assert (Same : forall v s k U, seen interval indices (length coords) (done ++ [(t, V)]) v s k U <->
                                      seen interval indices (length coords) done v s k U).
      { intros v s k U. split; intros (A & B); split; auto; try (apply in_app_iff; auto).
        apply in_app_iff in A as [A|[A|[]]]; auto. injection A as -> ->. tauto. }
      assert (K : forall tol h, correct_half tol coords interval indices (length coords) done h ->
                 correct_half tol coords interval indices (length coords) (done ++ [(t, V)]) h).
      { intros tol [e|] C; cbn [correct_half] in *.
        - destruct C as ((k & U & A & B) & D). split; [exists k, U; split; [apply Same; exact A|exact B]|].
          intros v s k' U' Hs. apply Same in Hs. eauto.
        - intros v s k' U' Hs. apply Same in Hs. apply (C _ _ _ _ Hs). }
      apply IH; auto. intros; apply (HL t0); right; auto.
    + assert (It : in_interval interval t).
      { unfold in_interval. destruct interval as [[a b]|]; [|exact I]. apply orb_false_iff in Ei.
        rewrite !Rltb_false in Ei. lra. }
      destruct (update_half_correct greater max_tol coords interval indices (length coords) done t V (i_max i)) as (hx & Ex & Cx');
        auto; try (unfold greater, max_tol; intros *; rewrite ?Rltb_false, ?Rltb_true; lra); [apply greater_strict|].
      destruct (update_half_correct smaller min_tol coords interval indices (length coords) done t V (i_min i)) as (hn & En & Cn');
        auto; try (unfold smaller, min_tol; intros *; rewrite ?Rltb_false, ?Rltb_true; lra); [apply smaller_strict|].
      rewrite Ex, En. apply IH; auto. intros; apply (HL t0); right; auto.
Qed.
Print Assumptions C41_extrema.

(** With a polygon the recorded location is that of the extremum over the
    whole mesh, not over the monitored triangles: the recorded value need not
    be attained at the recorded location. *)
Theorem C41_location_with_polygon_refuted :
  exists coords indices history i e,
  indices_ok (Some indices) (length coords) /\
  (forall t V, In (t, V) history -> length V = length coords) /\
  NoDup coords /\
  run_extrema coords None (Some indices) info0 history = Some i /\ i_max i = Some e /\
  forall k V, seen None (Some indices) (length coords) history (x_val e) (x_time e) k V -> nth_error coords k <> Some (x_loc e).
Proof.
  exists [(0, 0); (1, 0)], [0%nat], [(0, [1; 2])].
  unfold run_extrema, update_extrema, update_half, get_extremum_value, get_extremum_location, get_extremum_index.
  cbn [take nth_error argbest argbest_from i_max i_min info0].
  unfold greater, smaller. rewrite (proj2 (Rltb_true 1 2)) by lra. rewrite (proj2 (Rltb_false 2 1)) by lra.
  cbn [nth_error].
  eexists. eexists. split; [|split; [|split; [|split; [reflexivity|split; [reflexivity|]]]]].
  - cbn. split; [discriminate|]. intros i [<-|[]]. lia.
  - intros t V [E|[]]. injection E as <- <-. reflexivity.
  - constructor; [intros [E|[]]; injection E; lra|]. constructor; [intros []|constructor].
  - cbn [x_val x_loc x_time]. intros k V (_ & _ & M & _). cbn in M. destruct M as [<-|[]].
    cbn. intros E. injection E. lra.
Qed.
Print Assumptions C41_location_with_polygon_refuted.

(** A polygon that contains no centroid makes the first call raise. *)
Theorem C41_empty_polygon_raises :
  forall coords t V, run_extrema coords None (Some []) info0 [(t, V)] = None.
Proof. reflexivity. Qed.
Print Assumptions C41_empty_polygon_raises.

Example C41_example : indices_ok None (length [(0, 0); (1, 0)]) /\ seen (Some (0, 2)) None 2 [(1, [3; 4])] 4 1 1 [3; 4].
Proof. split; [cbn; lia|]. split; [left; reflexivity|]. split; [cbn; lra|]. split; [cbn; lia|reflexivity]. Qed.

(** * C42 *)

(** After any calls the stored maximum of triangle k is the greatest of the
    initial value and the stages seen. *)
Theorem C42_max_stage :
  forall n calls, (forall s, In s calls -> length s = n) ->
  let m := fold_left max_stage_call calls (max_stage_init n) in
  length m = n /\
  forall k, (k < n)%nat -> exists v, nth_error m k = Some v /\
    is_max (- 10 ^ 100) (map (fun s => nth k s 0) calls) v.
Proof.
  intros n calls. induction calls as [|s calls IH] using rev_ind; intros H; cbv zeta.
  - cbn [fold_left map]. unfold max_stage_init. split; [apply repeat_length|]. intros k Hk.
    exists (- 10 ^ 100). split; [apply nth_error_repeat; auto|]. split; [lra|]. split; [intros v []|auto].
  - assert (Ls : length s = n) by (apply H, in_app_iff; right; left; reflexivity).
    destruct IH as (L & V); [intros; apply H, in_app_iff; auto|].
    rewrite fold_left_app. cbn [fold_left]. unfold max_stage_call at 1 3. split; [rewrite maximum_length; lia|].
    intros k Hk. destruct (V k Hk) as (v & Ev & Mv).
    exists (Rmax v (nth k s 0)). split.
    + apply maximum_nth; auto. apply nth_error_nth'. lia.
    + rewrite map_app. cbn [map]. apply is_max_snoc; auto.
Qed.
Print Assumptions C42_max_stage.

(** The calls whose values enter the maxima: every [f]-th of the calls made
    after the start time. *)
Fixpoint every (f : nat) (start : R) (count : nat) (calls : list obs) : list obs :=
  match calls with
  | [] => []
  | o :: rest =>
      if Rlt_dec start (o_t o) then
        if Nat.eqb (S count) f then o :: every f start 0 rest else every f start (S count) rest
      else every f start count rest
  end.

Lemma every_snoc f start : forall calls c o,
  every f start c (calls ++ [o]) = every f start c calls ++ every f start (fold_left (fun c o =>
    if Rlt_dec start (o_t o) then if Nat.eqb (S c) f then 0%nat else S c else c) calls c) [o].
Proof.
  induction calls as [|x calls IH]; intros c o; [reflexivity|].
  cbn [app every fold_left]. destruct (Rlt_dec start (o_t x)).
  - destruct (Nat.eqb (S c) f); [cbn [app]; f_equal|]; apply IH.
  - apply IH.
Qed.

Theorem C42_max_quantities :
  forall f start mah vzh max_float n calls,
  (forall o, In o calls -> length (o_cells o) = n) ->
  let m := fold_left (cmax_call f start mah vzh) calls (cmax_init max_float n) in
  let used := every f start 0 calls in
  length (m_stage m) = n /\ length (m_depth m) = n /\ length (m_speed m) = n /\ length (m_uh m) = n /\
  forall k, (k < n)%nat ->
  let cell o := nth k (o_cells o) (0, 0, 0, 0) in
  let depth o := let '(w, z, _, _) := cell o in Rmax (w - z) mah in
  let mom o := let '(_, _, uh, vh) := cell o in sqrt (uh * uh + vh * vh) in
  exists a b c d,
  nth_error (m_stage m) k = Some a /\ is_max (- max_float) (map (fun o => let '(w, _, _, _) := cell o in w) used) a /\
  nth_error (m_depth m) k = Some b /\ is_max 0 (map depth used) b /\
  nth_error (m_speed m) k = Some c /\
    is_max 0 (map (fun o => if Rlt_dec vzh (depth o) then mom o / depth o else 0) used) c /\
  nth_error (m_uh m) k = Some d /\ is_max 0 (map mom used) d.
Proof.
  intros f start mah vzh max_float n calls H. cbv zeta.
  enough (G : let m := fold_left (cmax_call f start mah vzh) calls (cmax_init max_float n) in
    m_counter m = fold_left (fun c o => if Rlt_dec start (o_t o) then if Nat.eqb (S c) f then 0%nat else S c else c) calls 0%nat /\
    length (m_stage m) = n /\ length (m_depth m) = n /\ length (m_speed m) = n /\ length (m_uh m) = n /\
    forall k, (k < n)%nat -> exists a b c d,
    nth_error (m_stage m) k = Some a /\ is_max (0 - max_float) (map (fun o => ob_stage (nth k (o_cells o) (0,0,0,0))) (every f start 0 calls)) a /\
    nth_error (m_depth m) k = Some b /\ is_max 0 (map (fun o => ob_depth mah (nth k (o_cells o) (0,0,0,0))) (every f start 0 calls)) b /\
    nth_error (m_speed m) k = Some c /\ is_max 0 (map (fun o => ob_speed mah vzh (nth k (o_cells o) (0,0,0,0))) (every f start 0 calls)) c /\
    nth_error (m_uh m) k = Some d /\ is_max 0 (map (fun o => ob_mom (nth k (o_cells o) (0,0,0,0))) (every f start 0 calls)) d).
  { cbv zeta in G. destruct G as (_ & A & B & C & D & V). repeat (split; [assumption|]).
    intros k Hk. destruct (V k Hk) as (a & b & c & d & V1 & V2 & V3 & V4 & V5 & V6 & V7 & V8).
    exists a, b, c, d. split; [exact V1|]. split.
    { replace (- max_float) with (0 - max_float) by ring. rewrite (map_ext _ (fun o => ob_stage (nth k (o_cells o) (0,0,0,0)))); [exact V2|].
      intros o. destruct (nth k (o_cells o) (0,0,0,0)) as [[[w z] u] v]. reflexivity. }
    split; [exact V3|]. split; [exact V4|]. split; [exact V5|]. split; [|split; [exact V7|exact V8]].
    rewrite (map_ext _ (fun o => ob_speed mah vzh (nth k (o_cells o) (0,0,0,0)))); [exact V6|]. intros o. cbv beta. unfold ob_speed, ob_mom, ob_depth, Rltb.
    destruct (nth k (o_cells o) (0,0,0,0)) as [[[w z] u] v]. destruct (Rlt_dec vzh _); ring. }
  induction calls as [|o calls IH] using rev_ind; cbv zeta.
  - cbn [fold_left every map]. unfold cmax_init. cbn [m_counter m_stage m_depth m_speed m_uh].
    split; [reflexivity|]. rewrite !repeat_length. repeat (split; [reflexivity|]).
    intros k Hk. assert (Z : forall x, is_max x [] x) by (intros x; split; [lra|split; [intros v []|auto]]).
    exists (0 - max_float), 0, 0, 0. repeat split; auto using nth_error_repeat; try lra; try (intros v []).
  - destruct IH as (Hc & La & Lb & Lc & Ld & V); [intros; apply H, in_app_iff; auto|].
    assert (Lo : length (o_cells o) = n) by (apply H, in_app_iff; right; left; reflexivity).
    rewrite !fold_left_app. cbn [fold_left]. rewrite every_snoc, <- Hc.
    set (m := fold_left (cmax_call f start mah vzh) calls (cmax_init max_float n)) in *.
    cbn [every]. unfold cmax_call, Rltb. destruct (Rlt_dec start (o_t o)) as [Ht|Ht].
    + destruct (Nat.eqb (S (m_counter m)) f) eqn:Ef; cbn [m_counter m_stage m_depth m_speed m_uh].
      * split; [reflexivity|]. rewrite !maximum_length by (rewrite map_length; lia). repeat (split; [assumption|]).
        intros k Hk. destruct (V k Hk) as (a & b & c & d & V1 & V2 & V3 & V4 & V5 & V6 & V7 & V8).
        set (cl := nth k (o_cells o) (0,0,0,0)).
        assert (Ecl : nth_error (o_cells o) k = Some cl) by (apply nth_error_nth'; lia).
        exists (Rmax a (ob_stage cl)), (Rmax b (ob_depth mah cl)), (Rmax c (ob_speed mah vzh cl)), (Rmax d (ob_mom cl)).
        rewrite !map_app. cbn [map].
        repeat match goal with |- _ /\ _ => split end;
          try (apply maximum_nth; [assumption|rewrite nth_error_map, Ecl; reflexivity]); apply is_max_snoc; assumption.
      * rewrite app_nil_r. split; [reflexivity|]. repeat (split; [assumption|]). exact V.
    + rewrite app_nil_r. split; [reflexivity|]. repeat (split; [assumption|]). exact V.
Qed.
Print Assumptions C42_max_quantities.

(** The depth recorded for a triangle that is always dry is the minimum
    allowed height, not zero. *)
Example C42_dry_depth :
  m_depth (cmax_call 1 0 (1/10) (1/10) (cmax_init 1 1) (Obs 1 [(0, 5, 0, 0)])) = [1/10].
Proof.
  unfold cmax_call, cmax_init. cbn. destruct (Rltb_spec 0 1); [|lra]. cbn.
  rewrite (Rmax_right (0 - 5)) by lra. rewrite Rmax_right by lra. reflexivity.
Qed.

Example C42_example :
  nth_error (fold_left max_stage_call [[1; 5]; [3; 2]] (max_stage_init 2)) 0 = Some (Rmax (Rmax (- 10 ^ 100) 1) 3).
Proof. reflexivity. Qed.
