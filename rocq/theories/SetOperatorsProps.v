(** C106: what the operators that set stage, momentum and friction do *)
From Coq Require Import Reals List Arith Bool Lia Lra ZArith.
From Verif Require Import RealLib ArrayLib PolygonModel GridModel GridProofs SetOperatorsModel SetOperatorsProofs.
Import ListNotations.
Local Open Scope R_scope.

(** A source that gives one number per place sets each triangle of the region
    to its value at the centroid and the current time, and nothing else. *)
Theorem C106_quantity_partial q s h indices d : follows s h ->
  exists c, set_quantity q s indices d = Some c /\
    (forall k, covered d indices k -> get q c k = h (centre d k) (time d)) /\
    (forall k, ~ covered d indices k -> get q c k = get q (values d) k) /\
    (forall q', q' <> q -> get q' c = get q' (values d)) /\
    elevation c = elevation (values d).
Proof.
  intros F. destruct (follows_value s h d (triangles d indices) F) as [v [E1 E2]].
  exists (put q (values d) (assign (get q (values d)) (triangles d indices) (map (fun k => h (centre d k) (time d)) (triangles d indices)))).
  split; [unfold set_quantity; rewrite E1, E2; reflexivity|]. rewrite put_get.
  split; [|split; [|split]].
  - intros k K. apply covered_triangles in K. exact (assign_map (fun k => h (centre d k) (time d)) _ _ k K).
  - intros k K. apply assign_out. intros H. apply K. apply covered_triangles. exact H.
  - intros q' Q. apply put_other. exact Q.
  - apply put_elevation.
Qed.
Print Assumptions C106_quantity_partial.

(** Set_stage sets the value or the bed, whichever is higher. *)
Theorem C106_stage_partial s h indices d : follows s h ->
  exists c, set_stage s indices d = Some c /\
    (forall k, covered d indices k -> stage c k = Rmax (elevation (values d) k) (h (centre d k) (time d))) /\
    (forall k, ~ covered d indices k -> stage c k = stage (values d) k) /\
    (forall q, q <> Stage -> get q c = get q (values d)) /\
    elevation c = elevation (values d).
Proof.
  intros F.
  assert (D : indices = Some [] \/ (triangles d indices <> [] \/ indices = None)).
  { destruct indices as [[|i ids]|]; [left; reflexivity|right; left; discriminate|right; right; reflexivity]. }
  destruct D as [->|D].
  - exists (values d). repeat split. intros k [].
  - destruct (follows_value s h d (triangles d indices) F) as [v [E1 E2]].
    pose proof (set_stage_some s indices d D) as E. rewrite E1, E2, max_map in E.
    exists (put Stage (values d) (assign (stage (values d)) (triangles d indices) (map (fun k => Rmax (elevation (values d) k) (h (centre d k) (time d))) (triangles d indices)))).
    split; [exact E|]. cbn [stage put].
    split; [|split; [|split]].
    + intros k K. apply covered_triangles in K. exact (assign_map (fun k => Rmax (elevation (values d) k) (h (centre d k) (time d))) _ _ k K).
    + intros k K. apply assign_out. intros H. apply K. apply covered_triangles. exact H.
    + intros q' Q. exact (put_other Stage q' (values d) _ Q).
    + reflexivity.
Qed.
Print Assumptions C106_stage_partial.

(** Whatever the source does, a call of Set_stage that ends normally either
    changes nothing or leaves no negative depth in the region. *)
Theorem C106_depth_partial s indices d c : set_stage s indices d = Some c ->
  c = values d \/ forall k, covered d indices k -> elevation c k <= stage c k.
Proof.
  intros E.
  assert (D : indices = Some [] \/ (triangles d indices <> [] \/ indices = None)).
  { destruct indices as [[|i ids]|]; [left; reflexivity|right; left; discriminate|right; right; reflexivity]. }
  destruct D as [->|D]; [left; injection E; intros <-; reflexivity|].
  rewrite (set_stage_some s indices d D) in E.
  destruct (get_value _ _ _) as [v|]; [|discriminate].
  destruct (spread _ v) as [vs|] eqn:V; [|left; injection E; intros <-; reflexivity].
  right. injection E; intros <-. intros k K. apply covered_triangles in K. cbn [elevation stage put].
  apply spread_length in V.
  apply (max_above (elevation (values d)) (triangles d indices) vs). apply assign_in; [|exact K].
  rewrite map_length, combine_length, map_length, V. apply Nat.min_id.
Qed.
Print Assumptions C106_depth_partial.

(** Three numbers set stage and both momenta of the region. *)
Theorem C106_triple_partial s w uh vh indices d :
  s = Three [One w; One uh; One vh] \/ (exists f, s = Of_time f /\ f (time d) = Some [One w; One uh; One vh]) ->
  exists c, set_w_uh_vh s indices d = Some c /\
    (forall k, covered d indices k -> stage c k = w /\ xmom c k = uh /\ ymom c k = vh) /\
    (forall k, ~ covered d indices k -> stage c k = stage (values d) k /\ xmom c k = xmom (values d) k /\ ymom c k = ymom (values d) k) /\
    friction c = friction (values d) /\ elevation c = elevation (values d).
Proof.
  intros F. set (ids := triangles d indices).
  exists (put Ymom (put Xmom (put Stage (values d) (assign (stage (values d)) ids (repeat w (length ids))))
            (assign (xmom (values d)) ids (repeat uh (length ids)))) (assign (ymom (values d)) ids (repeat vh (length ids)))).
  split; [destruct F as [->|[f [-> E]]]; unfold set_w_uh_vh; [|rewrite E]; reflexivity|].
  cbn [stage xmom ymom friction elevation put]. rewrite !repeat_map.
  split; [|split; [|split; reflexivity]].
  - intros k K. apply covered_triangles in K. fold ids in K.
    rewrite (assign_map (fun _ => w) ids _ k K), (assign_map (fun _ => uh) ids _ k K), (assign_map (fun _ => vh) ids _ k K). repeat split.
  - intros k K. assert (H : ~ In k ids) by (intros H; apply K; apply covered_triangles; exact H).
    rewrite !(assign_out ids _ _ k H). repeat split.
Qed.
Print Assumptions C106_triple_partial.

(** Friction as a function of depth, when the function gives floats and the
    region is not empty *)
Theorem C106_friction_partial f indices d : (exists k, covered d indices k) ->
  exists c, set_depth_friction (fun h => Float (f h)) indices d = Some c /\
    (forall k, covered d indices k -> friction c k = f (stage (values d) k - elevation (values d) k)) /\
    (forall k, ~ covered d indices k -> friction c k = friction (values d) k) /\
    (forall q, q <> Friction -> get q c = get q (values d)) /\
    elevation c = elevation (values d).
Proof.
  intros [i I]. apply covered_triangles in I. set (ids := triangles d indices) in *.
  exists (put Friction (values d) (assign (friction (values d)) ids (map (fun k => f (stage (values d) k - elevation (values d) k)) ids))).
  split.
  - unfold set_depth_friction. fold ids. destruct ids as [|j l]; [destruct I|].
    unfold vectorize. cbn [map]. rewrite map_map. reflexivity.
  - cbn [friction put]. split; [|split; [|split]].
    + intros k K. apply covered_triangles in K. exact (assign_map (fun k => f (stage (values d) k - elevation (values d) k)) ids _ k K).
    + intros k K. apply assign_out. intros H. apply K. apply covered_triangles. exact H.
    + intros q Q. exact (put_other Friction q (values d) _ Q).
    + reflexivity.
Qed.
Print Assumptions C106_friction_partial.

(** Manning's operator multiplies both momenta of a triangle by one factor
    between 0 and 1: the exact decay over the time step for a rate that is
    fixed at the start of the step. *)
Theorem C106_mannings_partial g dt n c x k : 0 <= g -> 0 <= dt -> (k < n)%nat ->
  exists e, 0 < e <= 1 /\
    xmom (fst (mannings g dt n c x)) k = e * xmom c k /\ ymom (fst (mannings g dt n c x)) k = e * ymom c k /\
    sqrt (xmom (fst (mannings g dt n c x)) k ^ 2 + ymom (fst (mannings g dt n c x)) k ^ 2) <= sqrt (xmom c k ^ 2 + ymom c k ^ 2) /\
    (stage c k <= elevation c k -> e = exp (-100 * dt)) /\
    (elevation c k < stage c k ->
       e = exp (- (g * friction c k ^ 2 * sqrt (xmom c k ^ 2 + ymom c k ^ 2) / Rpower (stage c k - elevation c k) (7 / 3)) * dt)) /\
    snd (snd (mannings g dt n c x)) <= e <= fst (snd (mannings g dt n c x)).
Proof.
  intros G T K. pose proof (gamma_sign g c k G) as S1.
  assert (E : 0 < exp (gamma g c k * dt) <= 1) by (apply exp_le1; assert (0 <= - gamma g c k * dt) by (apply Rmult_le_pos; lra); lra).
  assert (KB : (k <? n)%nat = true) by (apply Nat.ltb_lt; exact K).
  exists (exp (gamma g c k * dt)). split; [exact E|]. cbn [mannings fst snd put xmom ymom]. rewrite KB.
  split; [reflexivity|]. split; [reflexivity|]. split; [|split; [|split]].
  - rewrite speed_scale by lra. pose proof (sqrt_pos (xmom c k ^ 2 + ymom c k ^ 2)) as P.
    rewrite <- (Rmult_1_l (sqrt (xmom c k ^ 2 + ymom c k ^ 2))) at 2. apply Rmult_le_compat_r; lra.
  - intros H. f_equal. unfold gamma. rewrite (proj2 (Rltb_false 0 (stage c k - elevation c k))) by lra. reflexivity.
  - intros H. f_equal. unfold gamma. rewrite (proj2 (Rltb_true 0 (stage c k - elevation c k))) by lra. unfold Rdiv. ring.
  - assert (I : In (exp (gamma g c k * dt)) (map (fun k => exp (gamma g c k * dt)) (seq 0 n))).
    { apply (in_map (fun k => exp (gamma g c k * dt))). apply in_seq. lia. }
    split; [apply (proj2 (fold_min _ _)); exact I|apply (proj2 (fold_max _ _)); exact I].
Qed.
Print Assumptions C106_mannings_partial.
Theorem C106_mannings_rest g dt n c x :
  stage (fst (mannings g dt n c x)) = stage c /\ elevation (fst (mannings g dt n c x)) = elevation c /\ friction (fst (mannings g dt n c x)) = friction c.
Proof. repeat split. Qed.
Print Assumptions C106_mannings_rest.

(** A case: three triangles, the first and the last of them in the region *)
Definition three : domain :=
  {| count := 3; centre := fun k => (INR k, 0); time := 5;
     values := {| stage := fun _ => 1; elevation := fun k => INR k; xmom := fun _ => 3; ymom := fun _ => 4; friction := fun _ => 0 |} |}.
Example C106_case : exists c, set_stage (Both (fun l t => Many (map (fun p => fst p + t - 6) l))) (Some [0; 2]%nat) three = Some c /\
  stage c 0%nat = 0 /\ stage c 1%nat = 1 /\ stage c 2%nat = 2.
Proof.
  destruct (C106_stage_partial (Both (fun l t => Many (map (fun p => fst p + t - 6) l))) (fun p t => fst p + t - 6) (Some [0; 2]%nat) three) as [c [E [H1 [H2 _]]]].
  { intros t l. reflexivity. }
  exists c. split; [exact E|]. split; [|split].
  - rewrite H1; [|left; reflexivity]. simpl. apply Rmax_left. lra.
  - apply H2. intros [K|[K|[]]]; discriminate.
  - rewrite H1; [|right; left; reflexivity]. simpl. rewrite Rmax_left by lra. lra.
Qed.
Example C106_quantity_case : exists c, set_quantity Stage (Temporal (fun t => One (2 * t))) (Some [2]%nat) three = Some c /\ stage c 2%nat = 10 /\ stage c 0%nat = 1.
Proof.
  destruct (C106_quantity_partial Stage (Temporal (fun t => One (2 * t))) (fun _ t => 2 * t) (Some [2]%nat) three (fun p t => eq_refl)) as [c [E [H1 [H2 _]]]].
  exists c. split; [exact E|]. cbn [get] in H1, H2. split; [rewrite H1; [simpl; lra|left; reflexivity]|].
  rewrite H2; [reflexivity|intros [K|[]]; discriminate].
Qed.
(** Water of depth 1 with friction 1 slows down; without friction it does not. *)
Example C106_mannings_case : exists e, 0 < e <= 1 /\ xmom (fst (mannings 10 1 3 (values three) (0, 1))) 0%nat = e * 3 /\ e = 1.
Proof.
  destruct (C106_mannings_partial 10 1 3 (values three) (0, 1) 0%nat ltac:(lra) ltac:(lra) ltac:(lia)) as [e [E [X [_ [_ [_ [W _]]]]]]].
  exists e. split; [exact E|]. split; [rewrite X; simpl; lra|]. rewrite W by (simpl; lra).
  rewrite <- exp_0. f_equal. simpl. unfold Rdiv. ring.
Qed.
Example C106_friction_case : exists c, set_depth_friction (fun h => Float (2 * h)) None three = Some c /\ friction c 0%nat = 2.
Proof.
  destruct (C106_friction_partial (fun h => 2 * h) None three) as [c [E [H _]]]; [exists 0%nat; simpl; lia|].
  exists c. split; [exact E|]. rewrite H by (simpl; lia). simpl. lra.
Qed.
Example C106_triple_case : exists c, set_w_uh_vh (Three [One 7; One 8; One 9]) (Some [1]%nat) three = Some c /\ stage c 1%nat = 7 /\ ymom c 1%nat = 9 /\ ymom c 0%nat = 4.
Proof.
  destruct (C106_triple_partial (Three [One 7; One 8; One 9]) 7 8 9 (Some [1]%nat) three (or_introl eq_refl)) as [c [E [H1 [H2 _]]]].
  exists c. split; [exact E|]. destruct (H1 1%nat (or_introl eq_refl)) as [A [_ B]]. split; [exact A|]. split; [exact B|].
  destruct (H2 0%nat) as [_ [_ D]]; [intros [K|[]]; discriminate|]. exact D.
Qed.

(** The operator that sets the stage, and the one that sets stage and momenta,
    do not compare with the bed: every value below the bed gives a negative
    depth. *)
Theorem C106_below_bed_refuted w indices d k : covered d indices k -> w < elevation (values d) k ->
  (exists c, set_stage_operator (Scalar w) indices d = Some c /\ stage c k - elevation c k < 0) /\
  (forall uh vh, exists c, set_w_uh_vh (Three [One w; One uh; One vh]) indices d = Some c /\ stage c k - elevation c k < 0).
Proof.
  intros K H. split.
  - destruct (C106_quantity_partial Stage (Scalar w) (fun _ _ => w) indices d (fun p t => eq_refl)) as [c [E [H1 [_ [_ H2]]]]].
    exists c. split; [exact E|]. cbn [get] in H1. rewrite (H1 k K), H2. lra.
  - intros uh vh. destruct (C106_triple_partial (Three [One w; One uh; One vh]) w uh vh indices d (or_introl eq_refl)) as [c [E [H1 [_ [_ H2]]]]].
    exists c. split; [exact E|]. destruct (H1 k K) as [H3 _]. rewrite H3, H2. lra.
Qed.
Print Assumptions C106_below_bed_refuted.
Example C106_below_bed_case : covered three None 2%nat /\ 0 < elevation (values three) 2%nat.
Proof. split; [simpl; lia|simpl; lra]. Qed.

(** A function that returns a wrong number of values is ignored without a
    message, and so is one that raises ValueError. *)
Theorem C106_ignored_refuted q f indices d :
  (f (map (centre d) (triangles d indices)) = Value_error \/
   exists l, f (map (centre d) (triangles d indices)) = Many l /\ length l <> length (triangles d indices) /\ length l <> 1%nat) ->
  set_quantity q (Spatial f) indices d = Some (values d) /\ set_stage (Spatial f) indices d = Some (values d).
Proof.
  intros H.
  assert (E : spread (length (triangles d indices)) (f (map (centre d) (triangles d indices))) = None).
  { destruct H as [->|[l [-> [H1 H2]]]]; [reflexivity|]. apply spread_wrong; assumption. }
  split; [unfold set_quantity; cbn [get_value]; rewrite E; reflexivity|].
  destruct indices as [[|i ids]|]; [reflexivity| |]; cbn [set_stage get_value]; rewrite E; reflexivity.
Qed.
Print Assumptions C106_ignored_refuted.
Example C106_ignored_case : set_quantity Stage (Spatial (fun _ => Many [8; 9])) None three = Some (values three).
Proof.
  apply (C106_ignored_refuted Stage (fun _ => Many [8; 9]) None three). right. exists [8; 9]. split; [reflexivity|]. split; discriminate.
Qed.

(** Friction given by a function fails when no triangle is in the region, which
    happens on a process of a parallel run. *)
Theorem C106_friction_empty_refuted f d : set_depth_friction f (Some []) d = None.
Proof. reflexivity. Qed.
Print Assumptions C106_friction_empty_refuted.
(** If the value for the first triangle is an integer, then the values of all
    triangles are cut to integers. *)
Theorem C106_friction_integer_refuted f i ids d z : f (stage (values d) i - elevation (values d) i) = Int z ->
  exists c, set_depth_friction f (Some (i :: ids)) d = Some c /\
    forall k, In k (i :: ids) -> friction c k = IZR (trunc (to_real (f (stage (values d) k - elevation (values d) k)))).
Proof.
  intros H.
  exists (put Friction (values d) (assign (friction (values d)) (i :: ids)
    (map (fun k => IZR (trunc (to_real (f (stage (values d) k - elevation (values d) k))))) (i :: ids)))).
  split; [unfold set_depth_friction; cbn [triangles map vectorize]; rewrite H, map_map, ?H; reflexivity|].
  intros k K. cbn [friction put].
  exact (assign_map (fun k => IZR (trunc (to_real (f (stage (values d) k - elevation (values d) k))))) (i :: ids) _ k K).
Qed.
Print Assumptions C106_friction_integer_refuted.
(** Dry first triangle with friction 0, wet second one with 3/100: both get 0. *)
Example C106_friction_integer_case : exists c,
  set_depth_friction (fun h => if Rltb 0 h then Float (3 / 100) else Int 0) (Some [2; 0]%nat) three = Some c /\ friction c 0%nat = 0.
Proof.
  destruct (C106_friction_integer_refuted (fun h => if Rltb 0 h then Float (3 / 100) else Int 0) 2 [0%nat] three 0%Z) as [c [E H]].
  { cbn [three values stage elevation]. rewrite (proj2 (Rltb_false 0 (1 - INR 2))) by (simpl; lra). reflexivity. }
  exists c. split; [exact E|]. rewrite (H 0%nat) by (right; left; reflexivity). cbn [three values stage elevation].
  rewrite (proj2 (Rltb_true 0 (1 - INR 0))) by (simpl; lra). cbn [to_real]. 
  assert (T : trunc (3 / 100) = 0%Z).
  { pose proof (trunc_nonneg (3 / 100) ltac:(lra)) as B. assert (L : -1 < IZR (trunc (3 / 100)) < 1) by lra.
    destruct L as [L1 L2]. apply lt_IZR in L1. apply lt_IZR in L2. lia. }
  rewrite T. reflexivity.
Qed.

(** A function of place that uses its coordinates, and a single number, fail in
    the operator that sets stage and momenta. *)
Theorem C106_place_refuted (f : option (list point) -> option (list outcome)) (h : option (list point) -> R -> option (list outcome)) w indices d :
  f None = None -> (forall t, h None t = None) ->
  set_w_uh_vh (Of_place f) indices d = None /\ set_w_uh_vh (Of_both h) indices d = None /\ set_w_uh_vh (Number w) indices d = None.
Proof. intros F Hh. unfold set_w_uh_vh. rewrite F, Hh. repeat split. Qed.
Print Assumptions C106_place_refuted.
Example C106_place_case : set_w_uh_vh (Of_place (fun xy => match xy with Some l => Some [Many (map fst l); One 0; One 0] | None => None end)) None three = None.
Proof. reflexivity. Qed.

(** The polygonal operator cannot be built. *)
Theorem C106_polygonal_refuted q s polygon : polygonal_set_quantity_operator q s polygon = None.
Proof. reflexivity. Qed.
Print Assumptions C106_polygonal_refuted.

(** Without a value the call raises, unless the region of Set_stage is
    empty. *)
Theorem C106_nothing q indices d :
  set_quantity q Nothing indices d = None /\ (indices <> Some [] -> set_stage Nothing indices d = None) /\ set_stage Nothing (Some []) d = Some (values d).
Proof.
  split; [reflexivity|]. split; [|reflexivity]. intros H. destruct indices as [[|i ids]|]; [congruence|reflexivity|reflexivity].
Qed.
Print Assumptions C106_nothing.
