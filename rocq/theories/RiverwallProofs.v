(** Proofs for C91. *)
From Coq Require Import Reals List Arith ZArith Bool Lra Lia String.
From Verif Require Import RealLib ArrayLib PolygonModel RiverwallModel.
Import ListNotations.
Local Open Scope R_scope.

(** ** Points near a segment *)
Definition length_of (a b : point) : R := sqrt ((px b - px a) * (px b - px a) + (py b - py a) * (py b - py a)).
Definition along (a b : point) (t : R) : point := (px a + t * (px b - px a), py a + t * (py b - py a)).
(** The point [P] is less than [tol] from the line, and its foot, the point [t]
    of the way from [a] to [b], is between them, give or take [tol]; segments
    shorter than [tol] do not count. *)
Definition near (tol : R) (a b P : point) (t : R) : Prop :=
  let F := along a b t in
  (px P - px F) * (px b - px a) + (py P - py F) * (py b - py a) = 0 /\
  (px P - px F) * (px P - px F) + (py P - py F) * (py P - py F) < tol * tol /\
  - tol < t * length_of a b < length_of a b + tol /\ tol <= length_of a b.
Definition place (m : mesh) (e : nat) : point := (px (midpoint m e) + px (corner m), py (midpoint m e) + py (corner m)).

Lemma length_sq a b : length_of a b * length_of a b = (px b - px a) * (px b - px a) + (py b - py a) * (py b - py a).
Proof. unfold length_of. apply sqrt_sqrt. apply Rplus_le_le_0_compat; apply Rle_0_sqr. Qed.
Lemma length_nonneg a b : 0 <= length_of a b.
Proof. apply sqrt_pos. Qed.
Lemma seg_len_eq a b : seg_len real_arith a b = length_of a b.
Proof. unfold seg_len, length_of. cbn. f_equal. unfold px, py. ring. Qed.

Lemma dot_eq a b c p : 0 < length_of a b ->
  pv_dot_se real_arith a b c p = ((px p + px c - px a) * (px b - px a) + (py p + py c - py a) * (py b - py a)) / length_of a b.
Proof.
  intros H. unfold pv_dot_se, pv_0, pv_1. rewrite seg_len_eq. cbn. unfold px, py. field. unfold px, py in H. lra.
Qed.

Lemma perp_eq a b c p : 0 < length_of a b ->
  perp_len_sq real_arith a b c p =
  ((px p + px c - px a) * (px p + px c - px a) + (py p + py c - py a) * (py p + py c - py a)) - pv_dot_se real_arith a b c p * pv_dot_se real_arith a b c p.
Proof.
  intros H. unfold perp_len_sq. cbn [a_sub a_mul a_sqrt a_add real_arith]. rewrite sqrt_sqrt.
  - unfold pv_0, pv_1. cbn. unfold px, py. ring.
  - apply Rplus_le_le_0_compat; apply Rle_0_sqr.
Qed.

Lemma on_levee_near a b c p tol : 0 < tol -> tol <= length_of a b ->
  let P := (px p + px c, py p + py c) in
  let t := pv_dot_se real_arith a b c p / length_of a b in
  (on_levee real_arith a b c p 0 tol = true <-> near tol a b P t) /\
  (forall t', near tol a b P t' -> t' = t).
Proof.
  intros Ht HL. cbv zeta. destruct a as (ax, ay), b as (bx, by_), c as (cx, cy), p as (p0, p1).
  set (L := length_of _ _) in *. assert (L0 : 0 < L) by lra. pose proof (length_sq (ax, ay) (bx, by_)) as LS. fold L in LS.
  set (d := pv_dot_se real_arith _ _ _ _). pose proof (dot_eq (ax, ay) (bx, by_) (cx, cy) (p0, p1) L0) as D. fold L d in D.
  cbn [px py fst snd] in *.
  set (x := p0 + cx) in *. set (y := p1 + cy) in *. set (u := bx - ax) in *. set (v := by_ - ay) in *.
  assert (DL : d * L = (x - ax) * u + (y - ay) * v) by (rewrite D; field; lra).
  assert (tL : d / L * L = d) by (field; lra).
  split.
  - unfold on_levee. cbn [a_sub a_mul a_add a_ltb real_arith]. rewrite seg_len_eq, perp_eq by exact L0. cbn [px py fst snd]. fold L d x y. rewrite !andb_true_iff, !Rltb_true.
    unfold near, along. cbn [px py fst snd]. fold L u v. rewrite tL.
    assert (E : (x - (ax + d / L * u)) * (x - (ax + d / L * u)) + (y - (ay + d / L * v)) * (y - (ay + d / L * v))
              = (x - ax) * (x - ax) + (y - ay) * (y - ay) - d * d).
    { replace ((x - (ax + d / L * u)) * (x - (ax + d / L * u)) + (y - (ay + d / L * v)) * (y - (ay + d / L * v)))
        with ((x - ax) * (x - ax) + (y - ay) * (y - ay) - 2 * (d / L) * ((x - ax) * u + (y - ay) * v) + d / L * (d / L) * (u * u + v * v)) by ring.
      rewrite <- DL, <- LS. field. lra. }
    rewrite E. split.
    + intros ((A & B) & C). split; [|repeat split; lra].
      replace ((x - (ax + d / L * u)) * u + (y - (ay + d / L * v)) * v) with ((x - ax) * u + (y - ay) * v - d / L * (u * u + v * v)) by ring.
      rewrite <- DL, <- LS. field. lra.
    + intros (_ & A & (B & C) & _). repeat split; lra.
  - intros t' (O & _). unfold along in O. cbn [px py fst snd] in O. fold u v in O.
    assert (X : t' * (L * L) = d * L). { rewrite LS, DL. lra. }
    apply (Rmult_eq_reg_r (L * L)); [|nra]. rewrite X. field. lra.
Qed.

Definition clamp (t : R) : R := Rmax 0 (Rmin t 1).
Lemma weight_clamp m a b e t tol : 0 < tol -> near tol a b (place m e) t -> weight m a b e = clamp t.
Proof.
  intros Ht N. pose proof N as (_ & _ & _ & HL). destruct (on_levee_near a b (corner m) (midpoint m e) tol Ht HL) as (_ & U). cbv zeta in U.
  rewrite (U t N). unfold weight. cbv zeta. rewrite seg_len_eq. 
  set (w := Rdiv (pv_dot_se real_arith a b (corner m) (midpoint m e)) _). clearbody w. unfold clamp, Rmax, Rmin.
  destruct (Rleb_spec 0 w); repeat (destruct Rle_dec); try lra; try (destruct (Rleb_spec w 1); lra); destruct (Rleb_spec 0 1); lra.
Qed.

(** ** The loop, segment by segment *)
Definition segment : Type := nat * list R * list R.
Fixpoint wall_segments (i : nat) (wall : list (list R)) : list segment :=
  match wall with
  | start :: ((stop :: _) as rest) => (i, start, stop) :: wall_segments i rest
  | _ => []
  end.
Fixpoint segments_from (i : nat) (walls : dict (list (list R))) : list segment :=
  match walls with [] => [] | (_, wall) :: rest => wall_segments i wall ++ segments_from (S i) rest end.
(** All segments of all walls, in the order of the dictionary *)
Definition segments (walls : dict (list (list R))) : list segment := segments_from 0 walls.

Fixpoint steps (m : mesh) (tol : R) (l : list segment) (w : work) : work * bool :=
  match l with
  | [] => (w, true)
  | (i, start, stop) :: l => match segment_loop m tol i start stop w with (w, true) => steps m tol l w | r => r end
  end.
Lemma steps_app m tol l1 l2 : forall w, steps m tol (l1 ++ l2) w = match steps m tol l1 w with (w, true) => steps m tol l2 w | r => r end.
Proof.
  induction l1 as [|((i, a), b) l1 IH]; intros w; cbn [steps app]; [reflexivity|].
  destruct (segment_loop m tol i a b w) as (w', [|]); [apply IH|reflexivity].
Qed.
Lemma wall_steps m tol i wall : forall w, wall_loop m tol i wall w = steps m tol (wall_segments i wall) w.
Proof.
  induction wall as [|a [|b wall] IH]; intros w; [reflexivity|reflexivity|].
  cbn [wall_loop wall_segments steps]. destruct (segment_loop m tol i a b w) as (w', [|]); [apply IH|reflexivity].
Qed.
Lemma walls_steps m tol walls : forall i w, walls_loop m tol i walls w = steps m tol (segments_from i walls) w.
Proof.
  induction walls as [|(n, wall) walls IH]; intros i w; [reflexivity|]. cbn [walls_loop segments_from]. rewrite steps_app, wall_steps.
  destruct (steps m tol (wall_segments i wall) w) as (w', [|]); [apply IH|reflexivity].
Qed.

(** The edge [e] is on the segment, with elevation [z]. *)
Definition meets (m : mesh) (tol : R) (e : nat) (g : segment) (z : R) : Prop :=
  exists i x0 y0 z0 r0 x1 y1 z1 r1 t, g = (i, x0 :: y0 :: z0 :: r0, x1 :: y1 :: z1 :: r1) /\
    near tol (x0, y0) (x1, y1) (place m e) t /\ z = z0 + clamp t * (z1 - z0).
Definition misses (m : mesh) (tol : R) (e : nat) (g : segment) : Prop :=
  exists i x0 y0 r0 x1 y1 r1, g = (i, x0 :: y0 :: r0, x1 :: y1 :: r1) /\ forall t, ~ near tol (x0, y0) (x1, y1) (place m e) t.
Definition wall_of (g : segment) : nat := fst (fst g).

Lemma segment_step m tol g w w' : 0 < tol -> segment_loop m tol (wall_of g) (snd (fst g)) (snd g) w = (w', true) ->
  forall e, (e < edges m)%nat ->
    (misses m tol e g /\ w_type w' e = w_type w e /\ w_elev w' e = w_elev w e /\ w_row w' e = w_row w e) \/
    (meets m tol e g (w_elev w' e) /\ w_type w' e = 1%Z /\ w_row w' e = Z.of_nat (wall_of g)).
Proof.
  intros Ht H e He. destruct g as ((i, start), stop). unfold wall_of in *. cbn [fst snd] in *. unfold segment_loop in H.
  destruct (bad_lengths _ _); [discriminate|].
  destruct start as [|x0 [|y0 r0]]; try discriminate. destruct stop as [|x1 [|y1 r1]]; try discriminate.
  rewrite seg_len_eq in H. destruct (Rltb_spec (length_of (x0, y0) (x1, y1)) tol) as [S0|S0].
  { injection H as <-. left. split; [|auto]. exists i, x0, y0, r0, x1, y1, r1. split; [reflexivity|]. intros t (_ & _ & _ & N). lra. }
  apply Rnot_lt_le in S0. destruct (on_levee_near (x0, y0) (x1, y1) (corner m) (midpoint m e) tol Ht S0) as (N & U). cbv zeta in N, U. fold (place m e) in N, U.
  set (l := filter _ _) in H.
  assert (IL : In e l <-> near tol (x0, y0) (x1, y1) (place m e) (pv_dot_se real_arith (x0, y0) (x1, y1) (corner m) (midpoint m e) / length_of (x0, y0) (x1, y1))).
  { unfold l. rewrite filter_In, <- N, in_seq. intuition lia. }
  destruct l as [|e0 l0] eqn:El.
  { injection H as <-. left. split; [|auto]. exists i, x0, y0, r0, x1, y1, r1. split; [reflexivity|]. intros t T. pose proof (U t T) as ->. now apply IL in T. }
  rewrite <- El in *. clearbody l. clear El. destruct r0 as [|z0 r0]; [discriminate|]. destruct r1 as [|z1 r1]; [discriminate|]. injection H as <-. cbn [w_type w_elev w_row assign_wall assign_type].
  destruct (in_dec Nat.eq_dec e l) as [I|I].
  - right. split; [|auto]. apply IL in I. do 10 eexists. split; [reflexivity|]. split; [exact I|].
    rewrite (weight_clamp _ _ _ _ _ _ Ht I). ring.
  - left. split; [|auto]. exists i, x0, y0, (z0 :: r0), x1, y1, (z1 :: r1). split; [reflexivity|]. intros t T. pose proof (U t T) as ->. now apply I, IL.
Qed.

Lemma steps_spec m tol l : 0 < tol -> forall w w', steps m tol l w = (w', true) -> forall e, (e < edges m)%nat ->
  ((forall g, In g l -> misses m tol e g) /\ w_type w' e = w_type w e /\ w_elev w' e = w_elev w e /\ w_row w' e = w_row w e) \/
  (exists l1 g l2, l = l1 ++ g :: l2 /\ (forall g', In g' l2 -> misses m tol e g') /\ meets m tol e g (w_elev w' e) /\
     w_type w' e = 1%Z /\ w_row w' e = Z.of_nat (wall_of g)).
Proof.
  intros Ht. induction l as [|((i, a), b) l IH]; intros w w' H e He; cbn [steps] in H.
  - injection H as <-. left. split; [intros g []|auto].
  - destruct (segment_loop m tol i a b w) as (w1, [|]) eqn:E; [|discriminate].
    pose proof (segment_step m tol (i, a, b) w w1 Ht E e He) as S1.
    destruct (IH w1 w' H e He) as [(N & T & Z & Rw)|(l1 & g & l2 & -> & N & M & T & Rw)].
    + destruct S1 as [(N1 & T1 & Z1 & R1)|(M1 & T1 & R1)].
      * left. split; [intros g [<-|G]; auto|]. rewrite T, Z, Rw. auto.
      * right. exists [], (i, a, b), l. split; [reflexivity|]. split; [exact N|]. rewrite T, Z, Rw. auto.
    + right. exists ((i, a, b) :: l1), g, l2. split; [reflexivity|]. auto.
Qed.

(** ** Numbering *)
Lemma count_edges_other type n : forall k c a e, (e < k \/ k + n <= e)%nat -> count_edges type n k c a e = a e.
Proof.
  induction n as [|n IH]; intros k c a e H; [reflexivity|]. cbn [count_edges].
  destruct (type k =? 1)%Z; rewrite IH by lia; apply upd_other; lia.
Qed.
Lemma count_edges_spec type n : forall k c a e, (k <= e < k + n)%nat ->
  (type e <> 1%Z -> count_edges type n k c a e = 0%nat) /\
  (type e = 1%Z -> exists j, count_edges type n k c a e = (c + S j)%nat /\ nth_error (filter (fun x => (type x =? 1)%Z) (seq k n)) j = Some e).
Proof.
  induction n as [|n IH]; intros k c a e H; [lia|]. cbn [count_edges seq filter].
  destruct (Z.eqb_spec (type k) 1) as [E|E].
  - destruct (Nat.eq_dec e k) as [->|N].
    + split; [congruence|]. intros _. exists 0%nat. rewrite count_edges_other by lia. rewrite upd_same. split; [lia|reflexivity].
    + destruct (IH (S k) (S c) (upd a k (S c)) e ltac:(lia)) as (A & B). split; [exact A|]. intros T. destruct (B T) as (j & J1 & J2). exists (S j). split; [lia|exact J2].
  - destruct (Nat.eq_dec e k) as [->|N].
    + split; [|congruence]. intros _. rewrite count_edges_other by lia. apply upd_same.
    + destruct (IH (S k) c (upd a k 0%nat) e ltac:(lia)) as (A & B). split; [exact A|exact B].
Qed.

(** ** Parameters *)
Lemma get_map_defaults given d k : get (update_defaults d given) k =
  match get d k with None => None | Some v => match get given k with Some x => Some x | None => Some v end end.
Proof.
  induction d as [|(k', v) d IH]; [reflexivity|]. unfold update_defaults in *. cbn [map get fst snd].
  destruct (string_dec k' k) as [->|N]; [destruct (get given k); reflexivity|exact IH].
Qed.

(** ** Corners of edges *)
Lemma vertex1_spec k i : (i < 3)%nat -> vertex1 (3 * k + i) = (3 * k + match i with 0 => 1 | _ => 0 end)%nat.
Proof.
  intros H. unfold vertex1. replace (3 * k + i)%nat with (i + k * 3)%nat by lia. rewrite Nat.mod_add by lia. destruct i as [|[|[|]]]; [| | |lia]; cbn; lia.
Qed.
Lemma vertex2_spec k i : (i < 3)%nat -> vertex2 (3 * k + i) = (3 * k + match i with 2 => 1 | _ => 2 end)%nat.
Proof.
  intros H. unfold vertex2. replace (3 * k + i)%nat with (i + k * 3)%nat by lia. rewrite Nat.mod_add by lia. destruct i as [|[|[|]]]; [| | |lia]; cbn; lia.
Qed.
Lemma midpoint_spec m e : midpoint m e = ((px (vertex m (vertex1 e)) + px (vertex m (vertex2 e))) / 2, (py (vertex m (vertex1 e)) + py (vertex m (vertex2 e))) / 2).
Proof.
  rewrite (Nat.div_mod e 3) by lia. set (k := (e / 3)%nat). set (i := (e mod 3)%nat). assert (Hi : (i < 3)%nat) by (apply Nat.mod_upper_bound; lia). clearbody k i.
  rewrite vertex1_spec, vertex2_spec by exact Hi. unfold midpoint.
  assert (D : ((3 * k + i) / 3 = k)%nat). { replace (3 * k + i)%nat with (i + k * 3)%nat by lia. rewrite Nat.div_add by lia. rewrite Nat.div_small by lia. lia. }
  assert (M : ((3 * k + i) mod 3 = i)%nat). { replace (3 * k + i)%nat with (i + k * 3)%nat by lia. rewrite Nat.mod_add by lia. apply Nat.mod_small. lia. }
  rewrite D, M. destruct i as [|[|[|]]]; [| | |lia]; cbn [Nat.add Nat.modulo Nat.divmod fst snd Nat.sub]; rewrite ?Nat.add_0_r; [reflexivity| |reflexivity].
  apply f_equal2; lra.
Qed.
