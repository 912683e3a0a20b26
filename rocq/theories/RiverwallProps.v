(** C91: riverwalls are placed on exactly the edges of the wall, with its
    elevation and parameters. *)
From Coq Require Import Reals List Arith ZArith Bool Lra Lia String Permutation SpecFloat.
From Verif Require Import RealLib ArrayLib PolygonModel RiverwallModel RiverwallProofs.
Import ListNotations.
Local Open Scope R_scope.

Definition clean (s : state) : Prop := forall e, flux_type s e = 0%Z.

Lemma create_inv m dis walls par given tol verbose s s' : create m dis walls par given tol verbose s = (s', true) ->
  dis = true /\
  (exists w, steps m tol (segments walls) {| w_type := flux_type s; w_elev := fun _ => - max_float; w_row := fun _ => (-1)%Z |} = (w, true) /\
     flux_type s' = w_type w /\
     let inds := filter (fun e => (w_type w e =? 1)%Z) (seq 0 (edges m)) in
     elevation s' = map (w_elev w) inds /\ row_index s' = map (w_row w) inds /\ wall_edges s' = inds /\
     exists c0, counter s' = count_edges (w_type w) (edges m) 0 0 c0) /\
  names s' = map fst walls /\
  defaults s' = update_defaults (defaults (match names s with [] => s | _ => reset s end)) given /\
  properties s' = table walls par (defaults s') /\ forallb row_ok (properties s') = true /\
  parameters_known walls par (defaults s') = true /\ defaults_known (defaults s') given = true /\
  (verbose = true -> connected m s' = true).
Proof.
  intros H. unfold create in H. destruct dis; [|discriminate]. cbn [negb] in H.
  set (s0 := match names s with [] => s | _ => reset s end) in *. set (d := update_defaults (defaults s0) given) in *. cbn [flux_type counter elevation row_index wall_edges names properties] in H.
  assert (F0 : flux_type s0 = flux_type s) by (unfold s0; destruct (names s); reflexivity). rewrite F0 in H.
  destruct (defaults_known d given && parameters_known walls par d) eqn:K; [|discriminate]. apply andb_true_iff in K as (K1 & K2). cbn [negb] in H.
  rewrite walls_steps in H. change (segments_from 0 walls) with (segments walls) in H.
  destruct (steps _ _ _ _) as (w, [|]) eqn:St; [|discriminate]. cbn [negb] in H.
  destruct (forallb row_ok (table walls par d)) eqn:Rk; [|discriminate]. cbn [negb] in H.
  injection H as E B. split; [reflexivity|]. split.
  { exists w. split; [reflexivity|]. subst s'. cbn. repeat split. now exists (counter s0). }
  subst s'. cbn [names defaults properties]. repeat split; auto.
  intros ->. cbn [andb] in B. apply negb_true_iff, negb_false_iff in B. exact B.
Qed.

(** ** Which edges *)
Definition marked (m : mesh) (tol : R) (walls : dict (list (list R))) (e : nat) : Prop :=
  exists g z, In g (segments walls) /\ meets m tol e g z.

Lemma misses_meets m tol e g z : misses m tol e g -> meets m tol e g z -> False.
Proof.
  intros (i & x0 & y0 & r0 & x1 & y1 & r1 & -> & N) (i' & x0' & y0' & z0 & r0' & x1' & y1' & z1 & r1' & t & E & M & _).
  injection E as -> -> -> -> -> -> ->. exact (N t M).
Qed.

Theorem C91_edges : forall m dis walls par given tol verbose s s', 0 < tol -> clean s ->
  create m dis walls par given tol verbose s = (s', true) ->
  forall e, (e < edges m)%nat ->
    (flux_type s' e = 1%Z <-> marked m tol walls e) /\ (flux_type s' e = 1%Z \/ flux_type s' e = 0%Z).
Proof.
  intros m dis walls par given tol verbose s s' Ht Cl H e He. apply create_inv in H as (_ & (w & St & F & _) & _).
  rewrite F. destruct (steps_spec _ _ _ Ht _ _ St e He) as [(N & T & _)|(l1 & g & l2 & E & N & M & T & _)].
  - cbn in T. rewrite T, Cl. split; [|now right]. split; [discriminate|]. intros (g & z & I & M). destruct (misses_meets _ _ _ _ _ (N g I) M).
  - rewrite T. split; [|now left]. split; [|auto]. intros _. exists g, (w_elev w e). split; [rewrite E; apply in_or_app; right; now left|exact M].
Qed.
Print Assumptions C91_edges.

(** ** With which elevation and parameters *)
Lemma wall_of_segments walls : forall i g, In g (segments_from i walls) -> (i <= wall_of g < i + List.length walls)%nat.
Proof.
  induction walls as [|(n, wall) walls IH]; intros i g H; [destruct H|]. cbn [segments_from List.length] in *. apply in_app_iff in H as [H|H].
  - assert (G : forall wl, In g (wall_segments i wl) -> wall_of g = i).
    { clear. induction wl as [|a [|b wl] IH]; [intros []|intros []|]. cbn [wall_segments]. intros [<-|H]; [reflexivity|exact (IH H)]. }
    rewrite (G _ H). lia.
  - apply IH in H. lia.
Qed.

Lemma position {A} (f : nat -> A) l j e : nth_error l j = Some e -> nth_error (map f l) j = Some (f e).
Proof. apply map_nth_error. Qed.

(** The entry of a riverwall edge is where its counter points; it holds the
    elevation interpolated along the last segment that meets the edge, and the
    number of that segment's wall, which is a row of the table. *)
Theorem C91_entries : forall m dis walls par given tol verbose s s', 0 < tol -> clean s ->
  create m dis walls par given tol verbose s = (s', true) ->
  List.length (elevation s') = List.length (wall_edges s') /\ List.length (row_index s') = List.length (wall_edges s') /\
  forall e, (e < edges m)%nat ->
    (flux_type s' e <> 1%Z -> counter s' e = 0%nat) /\
    (flux_type s' e = 1%Z -> exists j l1 g l2 z,
       counter s' e = S j /\ nth_error (wall_edges s') j = Some e /\
       segments walls = l1 ++ g :: l2 /\ meets m tol e g z /\ (forall g', In g' l2 -> forall z', ~ meets m tol e g' z') /\
       nth_error (elevation s') j = Some z /\ nth_error (row_index s') j = Some (Z.of_nat (wall_of g)) /\
       (wall_of g < List.length (properties s'))%nat).
Proof.
  intros m dis walls par given tol verbose s s' Ht Cl H. apply create_inv in H as (_ & (w & St & F & El & Ro & Wa & c0 & Co) & Na & De & Pr & _).
  rewrite El, Ro, Wa, Co, !map_length. split; [reflexivity|]. split; [reflexivity|]. intros e He. rewrite F.
  destruct (count_edges_spec (w_type w) (edges m) 0 0 c0 e ltac:(lia)) as (A & B). split; [exact A|]. intros T. destruct (B T) as (j & J1 & J2).
  destruct (steps_spec _ _ _ Ht _ _ St e He) as [(_ & T' & _)|(l1 & g & l2 & E & N & M & _ & Rw)].
  { cbn in T'. rewrite Cl in T'. congruence. }
  exists j, l1, g, l2, (w_elev w e). split; [exact J1|]. split; [exact J2|]. split; [exact E|]. split; [exact M|].
  split; [intros g' G z' M'; exact (misses_meets _ _ _ _ _ (N g' G) M')|]. split; [now apply position|]. split; [rewrite <- Rw; now apply position|].
  rewrite Pr. unfold table. rewrite map_length. assert (I : In g (segments walls)) by (rewrite E; apply in_or_app; right; now left).
  apply wall_of_segments in I. lia.
Qed.
Print Assumptions C91_entries.

(** Row [i] of the table: the parameters given for the wall [i], the defaults
    given otherwise, and the built-in defaults last. *)
Theorem C91_parameters : forall m dis walls par given tol verbose s s', defaults s = initial_defaults \/ names s <> [] ->
  create m dis walls par given tol verbose s = (s', true) ->
  List.length (properties s') = List.length walls /\ names s' = map fst walls /\
  forall i name wall, nth_error walls i = Some (name, wall) ->
  exists r, nth_error (properties s') i = Some r /\ List.length r = 5%nat /\
    (forall c v, nth_error variable_names c = Some v ->
       nth_error r c = match match get par name with Some p => get p v | None => None end with
                       | Some x => Some x
                       | None => match get given v with Some x => Some x | None => get initial_defaults v end
                       end) /\
    0 <= nth 1 r 0 < nth 2 r 0 /\ 0 <= nth 3 r 0 < nth 4 r 0.
Proof.
  intros m dis walls par given tol verbose s s' Hd H. apply create_inv in H as (_ & _ & Na & De & Pr & Ok & _).
  assert (D0 : defaults (match names s with [] => s | _ => reset s end) = initial_defaults).
  { destruct Hd as [E|E]; destruct (names s) eqn:N; [exact E|reflexivity|now contradiction E|reflexivity]. }
  rewrite D0 in De. split; [rewrite Pr; unfold table; apply map_length|]. split; [exact Na|]. intros i name wall Hi.
  exists (map (parameter (get par name) (defaults s')) variable_names).
  assert (Nr : nth_error (properties s') i = Some (map (parameter (get par name) (defaults s')) variable_names)).
  { rewrite Pr. unfold table. rewrite (map_nth_error _ _ _ Hi). reflexivity. }
  split; [exact Nr|]. split; [reflexivity|]. split.
  - intros c v Hc. rewrite (map_nth_error _ _ _ Hc). unfold parameter. rewrite De, get_map_defaults.
    assert (G : exists x, get initial_defaults v = Some x).
    { apply nth_error_In in Hc. unfold variable_names in Hc. cbn in Hc. repeat (destruct Hc as [<-|Hc]; [cbn; eauto|]). destruct Hc. }
    destruct G as (x & ->). destruct (get par name) as [p|]; [destruct (get p v)|]; destruct (get given v); reflexivity.
  - rewrite forallb_forall in Ok. specialize (Ok _ (nth_error_In _ _ Nr)). unfold row_ok in Ok. rewrite !andb_true_iff, !Rltb_true, !Rleb_true in Ok.
    destruct Ok as (((((A & B) & _) & C) & D) & _). repeat split; assumption.
Qed.
Print Assumptions C91_parameters.

(** Unknown parameters and walls are refused. *)
Theorem C91_unknown : forall m dis walls par given tol verbose s s',
  create m dis walls par given tol verbose s = (s', true) ->
  (forall k v, In (k, v) given -> In k (map fst (defaults s'))) /\
  (forall n p, In (n, p) par -> In n (map fst walls) /\ forall k v, In (k, v) p -> In k (map fst (defaults s'))).
Proof.
  intros m dis walls par given tol verbose s s' H. apply create_inv in H as (_ & _ & _ & _ & _ & _ & Pk & Dk & _).
  assert (G : forall A (d : dict A) k, has d k = true -> In k (map fst d)).
  { intros A d k. unfold has. induction d as [|(k', v) d IH]; cbn; [discriminate|]. destruct (string_dec k' k); [now left|]. intros X. right. now apply IH. }
  split.
  - intros k v I. unfold defaults_known in Dk. rewrite forallb_forall in Dk. apply G, (Dk _ I).
  - intros n p I. unfold parameters_known in Pk. rewrite forallb_forall in Pk. specialize (Pk _ I). apply andb_true_iff in Pk as (P1 & P2). cbn [fst snd] in *.
    split; [now apply G|]. intros k v I'. rewrite forallb_forall in P2. apply G, (P2 _ I').
Qed.
Print Assumptions C91_unknown.

(** ** Both sides of an edge *)
Lemma step_same m tol g w w' e e' : midpoint m e = midpoint m e' -> (e < edges m)%nat -> (e' < edges m)%nat ->
  segment_loop m tol (wall_of g) (snd (fst g)) (snd g) w = (w', true) ->
  w_type w e = w_type w e' -> w_elev w e = w_elev w e' -> w_row w e = w_row w e' ->
  w_type w' e = w_type w' e' /\ w_elev w' e = w_elev w' e' /\ w_row w' e = w_row w' e'.
Proof.
  intros Em He He' H T Z0 Rw. unfold segment_loop in H. destruct (bad_lengths _ _); [discriminate|].
  destruct (snd (fst g)) as [|x0 [|y0 r0]]; try discriminate. destruct (snd g) as [|x1 [|y1 r1]]; try discriminate.
  destruct (Rltb _ tol); [injection H as <-; auto|]. set (l := filter _ _) in H.
  assert (IL : In e l <-> In e' l). { unfold l. rewrite !filter_In, !in_seq, Em. intuition lia. }
  destruct l as [|e0 l0] eqn:El; [injection H as <-; auto|]. rewrite <- El in *. clearbody l. clear El.
  destruct r0 as [|z0 r0]; [discriminate|]. destruct r1 as [|z1 r1]; [discriminate|]. injection H as <-. cbn [w_type w_elev w_row assign_wall assign_type].
  unfold weight. rewrite Em. destruct (in_dec Nat.eq_dec e l), (in_dec Nat.eq_dec e' l); try tauto; auto.
Qed.
Lemma steps_same m tol l e e' : midpoint m e = midpoint m e' -> (e < edges m)%nat -> (e' < edges m)%nat -> forall w w',
  steps m tol l w = (w', true) -> w_type w e = w_type w e' -> w_elev w e = w_elev w e' -> w_row w e = w_row w e' ->
  w_type w' e = w_type w' e' /\ w_elev w' e = w_elev w' e' /\ w_row w' e = w_row w' e'.
Proof.
  intros Em He He'. induction l as [|((i, a), b) l IH]; intros w w' H T Z0 Rw; cbn [steps] in H; [injection H as <-; auto|].
  destruct (segment_loop m tol i a b w) as (w1, [|]) eqn:E; [|discriminate].
  destruct (step_same m tol (i, a, b) w w1 e e' Em He He' E T Z0 Rw) as (T1 & Z1 & R1). now apply (IH w1).
Qed.

(** The two triangles at an edge see the same wall, elevation and parameters. *)
Definition same_edge (m : mesh) (e e' : nat) : Prop :=
  (vertex m (vertex1 e) = vertex m (vertex1 e') /\ vertex m (vertex2 e) = vertex m (vertex2 e')) \/
  (vertex m (vertex1 e) = vertex m (vertex2 e') /\ vertex m (vertex2 e) = vertex m (vertex1 e')).
Theorem C91_both_sides : forall m dis walls par given tol verbose s s' e e', clean s ->
  create m dis walls par given tol verbose s = (s', true) -> (e < edges m)%nat -> (e' < edges m)%nat -> same_edge m e e' ->
  flux_type s' e = flux_type s' e' /\
  (flux_type s' e = 1%Z -> nth_error (elevation s') (counter s' e - 1) = nth_error (elevation s') (counter s' e' - 1) /\
     nth_error (row_index s') (counter s' e - 1) = nth_error (row_index s') (counter s' e' - 1)).
Proof.
  intros m dis walls par given tol verbose s s' e e' Cl H He He' SE. apply create_inv in H as (_ & (w & St & F & El & Ro & Wa & c0 & Co) & _).
  assert (Em : midpoint m e = midpoint m e'). { rewrite !midpoint_spec. destruct SE as [(-> & ->)|(-> & ->)]; [reflexivity|apply f_equal2; lra]. }
  destruct (steps_same m tol _ e e' Em He He' _ _ St) as (T & Z0 & Rw); [cbn; now rewrite !Cl|reflexivity|reflexivity|].
  rewrite F. split; [exact T|]. intros T1. pose proof T1 as T2. rewrite T in T2. rewrite El, Ro, Co.
  destruct (count_edges_spec (w_type w) (edges m) 0 0 c0 e ltac:(lia)) as (_ & B). destruct (B T1) as (j & -> & J).
  destruct (count_edges_spec (w_type w) (edges m) 0 0 c0 e' ltac:(lia)) as (_ & B'). destruct (B' T2) as (j' & -> & J').
  replace (0 + S j - 1)%nat with j by lia. replace (0 + S j' - 1)%nat with j' by lia.
  rewrite !(map_nth_error _ _ _ J), !(map_nth_error _ _ _ J'), Z0, Rw. auto.
Qed.
Print Assumptions C91_both_sides.

(** ** The whole wall *)
(** An edge of the mesh with both ends on a segment of a wall is a riverwall
    edge; unless other segments meet it, its elevation is the mean of the
    elevations of the wall at its ends. *)
Theorem C91_whole_wall : forall m dis walls par given tol verbose s s' i x0 y0 z0 x1 y1 z1 e u v, 0 < tol -> clean s ->
  create m dis walls par given tol verbose s = (s', true) -> (e < edges m)%nat ->
  In (i, [x0; y0; z0], [x1; y1; z1]) (segments walls) -> tol <= length_of (x0, y0) (x1, y1) -> 0 <= u <= 1 -> 0 <= v <= 1 ->
  (px (vertex m (vertex1 e)) + px (corner m), py (vertex m (vertex1 e)) + py (corner m)) = along (x0, y0) (x1, y1) u ->
  (px (vertex m (vertex2 e)) + px (corner m), py (vertex m (vertex2 e)) + py (corner m)) = along (x0, y0) (x1, y1) v ->
  flux_type s' e = 1%Z /\
  ((forall g z, In g (segments walls) -> meets m tol e g z -> g = (i, [x0; y0; z0], [x1; y1; z1])) ->
   nth_error (row_index s') (counter s' e - 1) = Some (Z.of_nat i) /\
   nth_error (elevation s') (counter s' e - 1) = Some (((z0 + u * (z1 - z0)) + (z0 + v * (z1 - z0))) / 2)).
Proof.
  intros m dis walls par given tol verbose s s' i x0 y0 z0 x1 y1 z1 e u v Ht Cl H He I HL Hu Hv Pu Pv.
  assert (N : near tol (x0, y0) (x1, y1) (place m e) ((u + v) / 2)).
  { unfold along in Pu, Pv. cbn [px py fst snd] in Pu, Pv. injection Pu as U1 U2. injection Pv as V1 V2.
    assert (E : place m e = along (x0, y0) (x1, y1) ((u + v) / 2)).
    { unfold place. rewrite midpoint_spec. unfold along. cbn [px py fst snd]. unfold px, py in *. apply f_equal2; lra. }
    unfold near. rewrite E. cbv zeta. set (L := length_of _ _) in *. unfold along. cbn [px py fst snd].
    assert (0 <= (u + v) / 2 * L <= 1 * L) by (split; [apply Rmult_le_pos; lra|apply Rmult_le_compat_r; lra]).
    split; [ring|]. split; [|repeat split; lra]. 
    replace ((x0 + (u + v) / 2 * (x1 - x0) - (x0 + (u + v) / 2 * (x1 - x0))) * (x0 + (u + v) / 2 * (x1 - x0) - (x0 + (u + v) / 2 * (x1 - x0))) +
      (y0 + (u + v) / 2 * (y1 - y0) - (y0 + (u + v) / 2 * (y1 - y0))) * (y0 + (u + v) / 2 * (y1 - y0) - (y0 + (u + v) / 2 * (y1 - y0)))) with 0 by ring.
    apply Rmult_lt_0_compat; exact Ht. }
  assert (M : meets m tol e (i, [x0; y0; z0], [x1; y1; z1]) (z0 + clamp ((u + v) / 2) * (z1 - z0))).
  { exists i, x0, y0, z0, [], x1, y1, z1, [], ((u + v) / 2). auto. }
  assert (T : flux_type s' e = 1%Z).
  { apply (proj1 (C91_edges _ _ _ _ _ _ _ _ _ Ht Cl H e He)). exists (i, [x0; y0; z0], [x1; y1; z1]). eauto. }
  split; [exact T|]. intros Only. destruct (C91_entries _ _ _ _ _ _ _ _ _ Ht Cl H) as (_ & _ & G). destruct (G e He) as (_ & G').
  destruct (G' T) as (j & l1 & g & l2 & z & -> & _ & E & Mg & _ & Ez & Er & _).
  assert (In g (segments walls)) by (rewrite E; apply in_or_app; right; now left). pose proof (Only g z H0 Mg) as ->.
  replace (S j - 1)%nat with j by lia. split; [exact Er|]. rewrite Ez. f_equal.
  destruct Mg as (i' & a0 & b0 & c0 & r0 & a1 & b1 & c1 & r1 & t & Eg & Nt & ->). injection Eg as <- <- <- <- <- <- <- <- <-.
  destruct (on_levee_near (x0, y0) (x1, y1) (corner m) (midpoint m e) tol Ht HL) as (_ & Un). cbv zeta in Un.
  rewrite (Un t Nt), <- (Un _ N). unfold clamp. rewrite Rmin_left by lra. rewrite Rmax_right by lra. field.
Qed.
Print Assumptions C91_whole_wall.

(** ** The check for gaps *)
Definition corners (m : mesh) (u : list nat) : list point :=
  map (fun e => vertex m (vertex1 e)) u ++ map (fun e => vertex m (vertex2 e)) u.
(** The ends of the pieces of a path *)
Fixpoint path_ends (P : list point) : list point :=
  match P with p :: ((q :: _) as r) => p :: q :: path_ends r | _ => [] end.

Lemma point_eqb_true p q : point_eqb p q = true <-> p = q.
Proof.
  unfold point_eqb. rewrite andb_true_iff, !Reqb_true. destruct p, q. cbn. split; [intros (-> & ->); reflexivity|]. intros E. now injection E.
Qed.
Definition free_point (m : mesh) (V : list point) (p : point) : bool :=
  (count_points p V =? 1)%nat &&
  negb (existsb (fun e => point_eqb (vertex m (vertex1 e)) p || point_eqb (vertex m (vertex2 e)) p) (boundary_edges m)).
Lemma filter_map_length {A B} (g : A -> B) (f : B -> bool) l : List.length (filter (fun x => f (g x)) l) = List.length (filter f (map g l)).
Proof. induction l as [|a l IH]; [reflexivity|]. cbn. destruct (f (g a)); cbn; now rewrite IH. Qed.
Lemma free_ends_eq m l : free_ends m l = List.length (filter (free_point m (corners m (unique_edges m [] l))) (corners m (unique_edges m [] l))).
Proof.
  unfold free_ends, corners. set (u := unique_edges m [] l). set (V := map _ u ++ map _ u).
  transitivity (List.length (filter (free_point m V) (map (fun e => vertex m (vertex1 e)) u ++ map (fun e => vertex m (vertex2 e)) u))); [|reflexivity].
  clearbody V. rewrite filter_app, app_length, <- !filter_map_length. reflexivity.
Qed.
Lemma count_perm p V V' : Permutation V V' -> count_points p V = count_points p V'.
Proof.
  intros H. unfold count_points. induction H; [reflexivity| | |congruence]; cbn; repeat match goal with |- context [point_eqb ?a ?b] => destruct (point_eqb a b) end; cbn; congruence.
Qed.
Lemma filter_perm {A} (f : A -> bool) V V' : Permutation V V' -> Permutation (filter f V) (filter f V').
Proof.
  induction 1; cbn; [constructor| | |exact (perm_trans IHPermutation1 IHPermutation2)]; repeat match goal with |- context [f ?a] => destruct (f a) end; auto using perm_skip, perm_swap.
Qed.
Lemma free_ends_perm m l V : Permutation (corners m (unique_edges m [] l)) V -> free_ends m l = List.length (filter (free_point m V) V).
Proof.
  intros H. rewrite free_ends_eq. rewrite (Permutation_length (filter_perm _ _ _ H)). f_equal. apply filter_ext. intros p.
  unfold free_point. now rewrite (count_perm p _ _ H).
Qed.
Lemma count_app p V W : count_points p (V ++ W) = (count_points p V + count_points p W)%nat.
Proof. unfold count_points. now rewrite filter_app, app_length. Qed.
Lemma count_in p V : In p V -> (1 <= count_points p V)%nat.
Proof.
  intros H. unfold count_points. assert (I : In p (filter (point_eqb p) V)) by (apply filter_In; split; [exact H|now apply point_eqb_true]).
  destruct (filter (point_eqb p) V); [destruct I|cbn; lia].
Qed.
Lemma count_notin p V : ~ In p V -> count_points p V = 0%nat.
Proof.
  intros H. unfold count_points. destruct (filter (point_eqb p) V) as [|x l] eqn:E; [reflexivity|].
  assert (I : In x (filter (point_eqb p) V)) by (rewrite E; now left). apply filter_In in I as (I & J). apply point_eqb_true in J. congruence.
Qed.
(** In a path the ends of inner pieces occur twice. *)
Lemma path_free f : forall P p q, (forall x, In x P -> f x = true -> count_points x (path_ends (p :: q :: P)) = 1%nat) ->
  (f q = true -> count_points q (path_ends (p :: q :: P)) = 1%nat) ->
  (List.length (filter f (path_ends (q :: P))) <= match P with [] => 0 | _ => 1 end)%nat.
Proof.
  induction P as [|x P IH]; intros p q H Hq; [cbn; lia|].
  assert (Q : f q = false).
  { destruct (f q); [|reflexivity]. specialize (Hq eq_refl). 
    change (path_ends (p :: q :: x :: P)) with ([p] ++ [q] ++ [q] ++ x :: path_ends (x :: P)) in Hq. rewrite !count_app in Hq.
    pose proof (count_in q [q] (or_introl eq_refl)). lia. }
  change (path_ends (q :: x :: P)) with (q :: x :: path_ends (x :: P)). cbn [filter]. rewrite Q.
  specialize (IH q x). destruct P as [|y P].
  - cbn. destruct (f x); cbn; lia.
  - assert (X : f x = false).
    { destruct (f x) eqn:E; [|reflexivity]. pose proof (H x (or_introl eq_refl) E) as C. 
      change (path_ends (p :: q :: x :: y :: P)) with ([p; q; q] ++ [x] ++ [x] ++ y :: path_ends (y :: P)) in C. rewrite !count_app in C.
      pose proof (count_in x [x] (or_introl eq_refl)). lia. }
    rewrite X. apply IH; [|congruence]. intros z I Fz. specialize (H z (or_intror I) Fz).
    change (path_ends (p :: q :: x :: y :: P)) with ([p; q] ++ path_ends (q :: x :: y :: P)) in H. rewrite count_app in H.
    assert (1 <= count_points z (path_ends (q :: x :: y :: P)))%nat; [|lia].
    { apply count_in. change (path_ends (q :: x :: y :: P)) with ([q; x] ++ path_ends (x :: y :: P)). apply in_or_app. right.
      clear - I. revert x y I. induction P as [|w P IH]; intros x y I; [destruct I as [<-|[]]; cbn; auto|].
      change (path_ends (x :: y :: w :: P)) with ([x; y] ++ path_ends (y :: w :: P)). apply in_or_app. destruct I as [<-|I]; [left; cbn; auto|right; now apply IH]. }
Qed.

(** A wall whose edges make up a path is never taken for a wall with gaps. *)
Theorem C91_path_accepted : forall m l P, Permutation (corners m (unique_edges m [] l)) (path_ends P) -> (free_ends m l <= 2)%nat.
Proof.
  intros m l P H. rewrite (free_ends_perm _ _ _ H). set (V := path_ends P). set (f := free_point m V).
  assert (F : forall x, f x = true -> count_points x V = 1%nat). { intros x. unfold f, free_point. rewrite andb_true_iff, Nat.eqb_eq. tauto. }
  unfold V in *. clearbody f. clear V H. destruct P as [|p [|q P]]; [cbn; lia|cbn; lia|].
  change (path_ends (p :: q :: P)) with (p :: q :: path_ends (q :: P)) at 1. cbn [filter].
  pose proof (path_free f P p q (fun x _ => F x) (F q)) as K.
  destruct P as [|x P]; [cbn; destruct (f p), (f q); cbn; lia|].
  assert (Q : f q = false).
  { destruct (f q) eqn:E; [|reflexivity]. specialize (F q E). 
    change (path_ends (p :: q :: x :: P)) with ([p] ++ [q] ++ [q] ++ x :: path_ends (x :: P)) in F. rewrite !count_app in F.
    pose proof (count_in q [q] (or_introl eq_refl)). lia. }
  rewrite Q. destruct (f p); cbn [List.length]; lia.
Qed.
Print Assumptions C91_path_accepted.

(** Two pieces with a gap between them: the ends that are not on the boundary
    of the domain count, so that the gap is found if all four are inside. *)
Definition inner (m : mesh) (p : point) : bool :=
  negb (existsb (fun e => point_eqb (vertex m (vertex1 e)) p || point_eqb (vertex m (vertex2 e)) p) (boundary_edges m)).
Theorem C91_gap : forall m l p q p' q', NoDup [p; q; p'; q'] ->
  Permutation (corners m (unique_edges m [] l)) [p; q; p'; q'] ->
  free_ends m l = List.length (filter (inner m) [p; q; p'; q']).
Proof.
  intros m l p q p' q' ND H. rewrite (free_ends_perm _ _ _ H). f_equal. apply filter_ext_in. intros x I. unfold free_point.
  assert (C : count_points x [p; q; p'; q'] = 1%nat).
  { destruct (in_split _ _ I) as (l1 & l2 & E). rewrite E in *. apply NoDup_remove_2 in ND. change (x :: l2) with ([x] ++ l2). rewrite !count_app.
    rewrite (count_notin x l1), (count_notin x l2) by (intros J; apply ND, in_or_app; auto). assert (X : point_eqb x x = true) by now apply point_eqb_true. unfold count_points. cbn [filter]. rewrite X. reflexivity. }
  rewrite C. reflexivity.
Qed.
Print Assumptions C91_gap.

(** ** What fails *)

(** A second call leaves the edges of the old walls marked: with no elevation,
    and with the row -1 of the table, five entries before its start. *)
Theorem C91_second_call_refuted : forall m dis walls par given tol verbose s s' e, 0 < tol ->
  create m dis walls par given tol verbose s = (s', true) -> (e < edges m)%nat ->
  flux_type s e = 1%Z -> (forall g, In g (segments walls) -> misses m tol e g) ->
  exists j, flux_type s' e = 1%Z /\ counter s' e = S j /\
    nth_error (elevation s') j = Some (- max_float) /\ nth_error (row_index s') j = Some (-1)%Z.
Proof.
  intros m dis walls par given tol verbose s s' e Ht H He T0 Ms. apply create_inv in H as (_ & (w & St & F & El & Ro & Wa & c0 & Co) & _).
  destruct (steps_spec _ _ _ Ht _ _ St e He) as [(_ & T & Z0 & Rw)|(l1 & g & l2 & E & _ & M & _)].
  2:{ exfalso. apply (misses_meets m tol e g (w_elev w e)); [|exact M]. apply Ms. rewrite E. apply in_or_app. right. now left. }
  cbn [w_type w_elev w_row] in T, Z0, Rw. rewrite T0 in T. destruct (count_edges_spec (w_type w) (edges m) 0 0 c0 e ltac:(lia)) as (_ & B). destruct (B T) as (j & J1 & J2).
  exists j. rewrite F, El, Ro, Co. split; [exact T|]. split; [exact J1|]. rewrite <- Z0, <- Rw. split; now apply map_nth_error.
Qed.
Print Assumptions C91_second_call_refuted.

(** Without [verbose] a wall with gaps is accepted: nothing but the outcome
    depends on it. *)
Theorem C91_quiet_refuted : forall m dis walls par given tol s s',
  create m dis walls par given tol false s = (s', true) ->
  create m dis walls par given tol true s = (s', connected m s').
Proof.
  intros m dis walls par given tol s s' H. unfold create in *. destruct dis; [|discriminate]. cbn [negb] in *.
  destruct (negb (_ && _)); [discriminate|]. destruct (walls_loop _ _ _ _ _) as (w, [|]); [|discriminate]. cbn [negb] in *.
  destruct (negb (forallb _ _)); [discriminate|]. cbn [andb negb] in *. injection H as <-. rewrite negb_involutive. reflexivity.
Qed.
Print Assumptions C91_quiet_refuted.

(** The check of the lengths of the coordinates, line 324, never complains when
    the second point has at most three entries, nor about seven and four. *)
Theorem C91_lengths_refuted :
  (forall a b, (b <= 3)%nat -> bad_lengths a b = false) /\ bad_lengths 7 4 = false /\
  (** coordinates without elevation are then accepted where no edge is met,
      and elsewhere raise only after the edges have been marked *)
  (forall m tol i x0 y0 x1 y1 w, (forall e, (e < edges m)%nat -> on_levee real_arith (x0, y0) (x1, y1) (corner m) (midpoint m e) 0 tol = false) ->
     segment_loop m tol i [x0; y0] [x1; y1] w = (w, true)) /\
  (forall m tol i x0 y0 x1 y1 w w' e, (e < edges m)%nat -> tol <= length_of (x0, y0) (x1, y1) ->
     on_levee real_arith (x0, y0) (x1, y1) (corner m) (midpoint m e) 0 tol = true ->
     segment_loop m tol i [x0; y0] [x1; y1] w = w' -> snd w' = false /\ w_type (fst w') e = 1%Z).
Proof.
  split; [|split; [reflexivity|split]].
  - intros a b H. unfold bad_lengths. assert (E : Nat.lor 3 b = 3%nat) by (destruct b as [|[|[|[|]]]]; [reflexivity..|lia]). rewrite E. apply andb_false_r.
  - intros m tol i x0 y0 x1 y1 w H. unfold segment_loop. cbn [List.length bad_lengths]. change (bad_lengths 2 2) with false. cbv iota.
    destruct (Rltb _ _); [reflexivity|]. match goal with |- context [filter ?f ?l0] => assert (E : forall e, ~ In e (filter f l0)) end.
    { intros e I. apply filter_In in I as (I & J). apply in_seq in I. cbn [real_arith] in J. rewrite H in J by lia. discriminate. }
    destruct (filter _ _) as [|e l]; [reflexivity|]. destruct (E e). now left.
  - intros m tol i x0 y0 x1 y1 w w' e He HL On <-. unfold segment_loop. change (bad_lengths (List.length [x0; y0]) (List.length [x1; y1])) with false. cbv iota.
    rewrite seg_len_eq, (proj2 (Rltb_false _ _)) by exact HL. set (l := filter _ _). assert (I : In e l) by (apply filter_In; split; [apply in_seq; lia|exact On]).
    destruct l as [|e0 l0] eqn:El; [destruct I|]. rewrite <- El in *. cbn [snd fst assign_type w_type]. split; [reflexivity|]. destruct (in_dec Nat.eq_dec e l); [reflexivity|contradiction].
Qed.
Print Assumptions C91_lengths_refuted.

(** An edge is taken for a part of the wall when its midpoint is on it, also
    when it crosses the wall. *)
Theorem C91_crossing_refuted : forall m dis walls par given tol verbose s s' i z0 z1 e, 0 < tol <= 1 -> clean s ->
  create m dis walls par given tol verbose s = (s', true) -> (e < edges m)%nat ->
  In (i, [0; 0; z0], [1; 0; z1]) (segments walls) -> corner m = (0, 0) ->
  vertex m (vertex1 e) = (1 / 2, 1) -> vertex m (vertex2 e) = (1 / 2, - 1) -> flux_type s' e = 1%Z.
Proof.
  intros m dis walls par given tol verbose s s' i z0 z1 e Ht Cl H He I C V1 V2. apply (proj1 (C91_edges _ _ _ _ _ _ _ _ _ (proj1 Ht) Cl H e He)).
  eexists. eexists. split; [exact I|]. do 9 eexists. exists (1 / 2). split; [reflexivity|]. split; [|reflexivity].
  assert (L : length_of (0, 0) (1, 0) = 1). { unfold length_of. cbn [px py fst snd]. replace ((1 - 0) * (1 - 0) + (0 - 0) * (0 - 0)) with 1 by ring. apply sqrt_1. }
  unfold near, place. rewrite L, midpoint_spec, C, V1, V2. unfold along. cbn [px py fst snd]. split; [lra|]. split; [|lra].
  replace ((1 / 2 + 1 / 2) / 2 + 0 - (0 + 1 / 2 * (1 - 0))) with 0 by field. replace ((1 + - (1)) / 2 + 0 - (0 + 1 / 2 * (0 - 0))) with 0 by field. nra.
Qed.
Print Assumptions C91_crossing_refuted.

(** Parameters that are refused leave the edges marked and numbered, but the
    table as it was: for the first wall with one row of one entry. *)
Theorem C91_refused_refuted : forall m walls par given tol verbose w s s',
  names s = [] -> parameters_known walls par (update_defaults (defaults s) given) = true -> defaults_known (update_defaults (defaults s) given) given = true ->
  steps m tol (segments walls) {| w_type := flux_type s; w_elev := fun _ => - max_float; w_row := fun _ => (-1)%Z |} = (w, true) ->
  forallb row_ok (table walls par (update_defaults (defaults s) given)) = false ->
  create m true walls par given tol verbose s = s' ->
  snd s' = false /\ flux_type (fst s') = w_type w /\ properties (fst s') = properties s /\ names (fst s') = map fst walls.
Proof.
  intros m walls par given tol verbose w s s' N K1 K2 St B <-. unfold create. rewrite N. cbn [negb]. rewrite K1, K2. cbn [andb negb flux_type].
  rewrite walls_steps. change (segments_from 0 walls) with (segments walls). rewrite St. cbn [negb]. rewrite B. cbn. auto.
Qed.
Print Assumptions C91_refused_refuted.

(** Defaults given to a call that is refused are used by the next call. *)
Theorem C91_defaults_refuted : forall m tol verbose wall, exists s1,
  create m true [("w", wall)]%string [] [("Qfactor", 2); ("q", 1)]%string tol verbose fresh = (s1, false) /\
  forall s2, create m true [("w", wall)]%string [] [] tol verbose s1 = (s2, true) -> exists r, properties s2 = [r] /\ nth 0 r 0 = 2.
Proof.
  intros m tol verbose wall. eexists. split; [reflexivity|]. intros s2 H. apply create_inv in H as (_ & _ & _ & De & Pr & _).
  rewrite Pr, De. eexists. split; reflexivity.
Qed.
Print Assumptions C91_defaults_refuted.

(** binary64: an edge in the middle of a wall of 6250 m, 5375 m from its start,
    is not found with the default tolerance, 1e-4, although its midpoint
    (1505, 5160) is exactly on the segment from (0, 0) to (1750, 6000). *)
Definition float_arith : arith :=
  {| num := spec_float; a_add := SFadd 53 1024; a_sub := SFsub 53 1024; a_mul := SFmul 53 1024; a_div := SFdiv 53 1024;
     a_opp := SFopp; a_sqrt := SFsqrt 53 1024; a_ltb := SFltb |}.
Definition fl (m : positive) (e : Z) : spec_float := S754_finite false m e.
Definition f0 := S754_zero false.
Theorem C91_roundoff_refuted :
  on_levee float_arith (f0, f0) (fl 7696581394432000 (-42), fl 6597069766656000 (-40)) (f0, f0)
    (fl 6619059999211520 (-42), fl 5673479999324160 (-40)) f0 (fl 7378697629483821 (-66)) = false /\
  on_levee real_arith (0, 0) (1750, 6000) (0, 0) (1505, 5160) 0 (1 / 10000) = true.
Proof.
  split; [vm_compute; reflexivity|].
  assert (L : length_of (0, 0) (1750, 6000) = 6250). { unfold length_of. cbn [px py fst snd]. replace ((1750 - 0) * (1750 - 0) + (6000 - 0) * (6000 - 0)) with (6250 * 6250) by ring. apply sqrt_square. lra. }
  destruct (on_levee_near (0, 0) (1750, 6000) (0, 0) (1505, 5160) (1 / 10000) ltac:(lra) ltac:(rewrite L; lra)) as (I & _). apply I. clear I.
  rewrite dot_eq by (rewrite L; lra). unfold near. rewrite L. unfold along. cbn [px py fst snd].
  replace (((1505 + 0 - 0) * (1750 - 0) + (5160 + 0 - 0) * (6000 - 0)) / 6250 / 6250) with (215 / 250) by field. repeat split; lra.
Qed.
Print Assumptions C91_roundoff_refuted.

(** ** Cases that meet the hypotheses *)
(** One triangle; the wall crosses its last edge. *)
Definition needle : mesh :=
  {| edges := 3; vertex := fun v => nth v [(1 / 2, 1); (1 / 2, - 1); (5, 0)] (0, 0); corner := (0, 0); boundary_edges := [0; 1; 2]%nat |}.
Definition one_wall : dict (list (list R)) := [("w", [[0; 0; 4]; [1; 0; 6]])]%string.

Lemma on_levee_axis x y tol : 0 < tol <= 1 ->
  on_levee real_arith (0, 0) (1, 0) (0, 0) (x, y) 0 tol = Rltb (y * y) (tol * tol) && Rltb (- tol) x && Rltb x (1 + tol).
Proof.
  intros Ht. assert (L : length_of (0, 0) (1, 0) = 1). { unfold length_of. cbn [px py fst snd]. replace ((1 - 0) * (1 - 0) + (0 - 0) * (0 - 0)) with 1 by ring. apply sqrt_1. }
  assert (L0 : 0 < length_of (0, 0) (1, 0)) by lra.
  assert (D : pv_dot_se real_arith (0, 0) (1, 0) (0, 0) (x, y) = x). { rewrite (dot_eq (0, 0) (1, 0) (0, 0) (x, y) L0), L. cbn [px py fst snd]. lra. }
  assert (P : perp_len_sq real_arith (0, 0) (1, 0) (0, 0) (x, y) = y * y). { rewrite (perp_eq (0, 0) (1, 0) (0, 0) (x, y) L0), D. cbn [px py fst snd]. cbn [num real_arith]. ring. }
  unfold on_levee. rewrite D, P, seg_len_eq, L. cbn [a_sub a_mul a_add a_ltb real_arith]. replace (0 - tol) with (- tol) by ring. reflexivity.
Qed.

Lemma needle_segment : exists w,
  segment_loop needle (1 / 10) 0 [0; 0; 4] [1; 0; 6] {| w_type := fun _ => 0%Z; w_elev := fun _ => - max_float; w_row := fun _ => (-1)%Z |} = (w, true) /\
  w_type w 0 = 0%Z /\ w_type w 1 = 0%Z /\ w_type w 2 = 1%Z /\ w_elev w 2%nat = 5 /\ w_row w 2%nat = 0%Z.
Proof.
  assert (L : length_of (0, 0) (1, 0) = 1). { unfold length_of. cbn [px py fst snd]. replace ((1 - 0) * (1 - 0) + (0 - 0) * (0 - 0)) with 1 by ring. apply sqrt_1. }
  unfold segment_loop. change (bad_lengths _ _) with false. cbv iota. rewrite seg_len_eq, L, (proj2 (Rltb_false _ _)) by lra.
  assert (E : filter (fun e => on_levee real_arith (0, 0) (1, 0) (corner needle) (midpoint needle e) 0 (1 / 10)) (seq 0 (edges needle)) = [2%nat]).
  { cbn [edges needle seq filter corner].
    assert (M0 : midpoint needle 0 = ((1 / 2 + 5) / 2, (- 1 + 0) / 2)) by reflexivity.
    assert (M1 : midpoint needle 1 = ((5 + 1 / 2) / 2, (0 + 1) / 2)) by reflexivity.
    assert (M2 : midpoint needle 2 = ((1 / 2 + 1 / 2) / 2, (1 + - 1) / 2)) by reflexivity.
    rewrite M0, M1, M2, !on_levee_axis by lra. clear. rdecide. reflexivity. }
  match goal with |- context [filter ?f ?l0] => change (filter f l0) with (filter (fun e => on_levee real_arith (0, 0) (1, 0) (corner needle) (midpoint needle e) 0 (1 / 10)) (seq 0 (edges needle))) end.
  rewrite E. eexists. split; [reflexivity|]. cbn [assign_wall assign_type w_type w_elev w_row].
  destruct (in_dec Nat.eq_dec 0%nat [2%nat]) as [I|_]; [cbn in I; lia|]. destruct (in_dec Nat.eq_dec 1%nat [2%nat]) as [I|_]; [cbn in I; lia|].
  destruct (in_dec Nat.eq_dec 2%nat [2%nat]) as [_|I]; [|cbn in I; lia]. repeat split.
  assert (W : weight needle (0, 0) (1, 0) 2 = clamp (1 / 2)).
  { apply (weight_clamp needle (0, 0) (1, 0) 2 (1 / 2) (1 / 10)); [lra|]. unfold near. rewrite L. unfold place, along. rewrite midpoint_spec. cbn. repeat split; lra. }
  rewrite W. unfold clamp. rewrite Rmin_left, Rmax_right by lra. lra.
Qed.

Example C91_case : exists s1, create needle true one_wall [] [] (1 / 10) true fresh = (s1, true) /\ clean fresh /\
  flux_type s1 2 = 1%Z /\ elevation s1 = [5] /\ row_index s1 = [0%Z] /\ wall_edges s1 = [2%nat] /\ counter s1 2 = 1%nat /\
  properties s1 = [[1; 9/10; 95/100; 1; 15/10]] /\
  (** and a second call, without walls, leaves the edge as described above *)
  exists s2, create needle true [] [] [] (1 / 10) true s1 = (s2, true) /\ flux_type s2 2 = 1%Z /\ elevation s2 = [- max_float] /\ row_index s2 = [(-1)%Z].
Proof.
  destruct needle_segment as (w & W & T0 & T1 & T2 & Z2 & R2).
  assert (F : filter (fun e => (w_type w e =? 1)%Z) (seq 0 3) = [2%nat]) by (cbn; rewrite T0, T1, T2; reflexivity).
  set (s1 := {| flux_type := w_type w; counter := count_edges (w_type w) 3 0 0 (fun _ => 0%nat); elevation := [5]; row_index := [0%Z]; wall_edges := [2%nat];
                names := ["w"%string]; defaults := initial_defaults; properties := [[1; 9/10; 95/100; 1; 15/10]] |}).
  assert (Con : connected needle s1 = true).
  { unfold connected. cbn [s1 names List.length seq forallb]. assert (E : edges_of_wall s1 0 = [2%nat]) by reflexivity. rewrite E, andb_true_r. apply Nat.leb_le.
    apply (C91_path_accepted needle [2%nat] [(1/2, 1); (1/2, -1)]). cbn. apply Permutation_refl. }
  exists s1. split; [|split; [intros e; reflexivity|]].
  - unfold create. cbn [negb names fresh reset]. change (defaults_known _ _) with true. change (parameters_known _ _ _) with true. cbn [andb negb].
    unfold one_wall at 1. cbn [walls_loop wall_loop]. change (flux_type _) with (fun _ : nat => 0%Z) at 1.
    match goal with |- context [segment_loop needle _ _ _ _ ?w0] => change w0 with {| w_type := fun _ => 0%Z; w_elev := fun _ => - max_float; w_row := fun _ => (-1)%Z |} end.
    rewrite W. cbn [negb]. change (edges needle) with 3%nat. rewrite F. cbn [map]. rewrite Z2, R2.
    assert (Tb : table one_wall [] (update_defaults initial_defaults []) = [[1; 9/10; 95/100; 1; 15/10]]) by reflexivity.
    cbn [defaults fresh reset properties]. rewrite Tb. cbn [forallb]. 
    assert (Rk : row_ok [1; 9/10; 95/100; 1; 15/10] = true) by (unfold row_ok; cbn [nth]; rdecide; reflexivity). rewrite Rk. cbn [andb negb].
    cbn [flux_type counter elevation row_index wall_edges names]. change (map fst one_wall) with ["w"%string].
    match goal with |- context [connected needle ?x] => change x with s1 end. rewrite Con. reflexivity.
  - split; [exact T2|]. split; [reflexivity|]. split; [reflexivity|]. split; [reflexivity|]. split; [cbn; rewrite T0, T1, T2; reflexivity|]. split; [reflexivity|].
    eexists. split; [unfold create; cbn [negb names s1]; change (defaults_known _ _) with true; change (parameters_known _ _ _) with true; cbn; rewrite ?andb_false_r; reflexivity|].
    cbn [flux_type elevation row_index w_type w_elev w_row]. split; [exact T2|].
    assert (F' : filter (fun e => (flux_type (reset s1) e =? 1)%Z) (seq 0 (edges needle)) = [2%nat]) by exact F.
    cbn; rewrite T0, T1, T2; split; reflexivity.
Qed.

(** A wall from boundary to boundary, y = 0 between x = 0 and x = 3, with the
    edge in the middle missing, passes the check: two triangles fans with apexes
    (3/2, 2) and (3/2, -2) on the three edges of the line. *)
Definition fans : mesh :=
  {| edges := 18;
     vertex := fun v => nth v [(0, 0); (1, 0); (3/2, 2);  (1, 0); (2, 0); (3/2, 2);  (2, 0); (3, 0); (3/2, 2);
                               (1, 0); (0, 0); (3/2, -2); (2, 0); (1, 0); (3/2, -2); (3, 0); (2, 0); (3/2, -2)] (0, 0);
     corner := (0, 0); boundary_edges := [1; 6; 9; 16]%nat |}.
Theorem C91_boundary_gap_refuted :
  vertex fans (vertex1 2) = (0, 0) /\ vertex fans (vertex2 2) = (1, 0) /\ vertex fans (vertex1 8) = (2, 0) /\ vertex fans (vertex2 8) = (3, 0) /\
  free_ends fans [2; 8; 11; 17]%nat = 2%nat.
Proof.
  split; [reflexivity|]. split; [reflexivity|]. split; [reflexivity|]. split; [reflexivity|].
  assert (U : unique_edges fans [] [2; 8; 11; 17]%nat = [2; 8]%nat).
  { assert (M2 : midpoint fans 2 = ((0 + 1) / 2, (0 + 0) / 2)) by reflexivity. assert (M8 : midpoint fans 8 = ((2 + 3) / 2, (0 + 0) / 2)) by reflexivity.
    assert (M11 : midpoint fans 11 = ((1 + 0) / 2, (0 + 0) / 2)) by reflexivity. assert (M17 : midpoint fans 17 = ((3 + 2) / 2, (0 + 0) / 2)) by reflexivity.
    cbn [unique_edges existsb]. rewrite M2, M8, M11, M17. unfold point_eqb. cbn [px py fst snd]. rdecide. reflexivity. }
  rewrite (C91_gap fans _ (0, 0) (2, 0) (1, 0) (3, 0)).
  - unfold inner. cbn [filter boundary_edges fans existsb].
    repeat match goal with |- context [vertex ?f (vertex1 ?e)] => let v := eval cbn in (vertex fans (vertex1 e)) in change (vertex f (vertex1 e)) with v
                         | |- context [vertex ?f (vertex2 ?e)] => let v := eval cbn in (vertex fans (vertex2 e)) in change (vertex f (vertex2 e)) with v end.
    unfold point_eqb. cbn [px py fst snd]. rdecide. reflexivity.
  - repeat constructor; cbn; intuition; match goal with H : (_, _) = (_, _) |- _ => injection H; lra end.
  - rewrite U. apply Permutation_refl.
Qed.
Print Assumptions C91_boundary_gap_refuted.
