(** Lemmas about polygon functions. *)
From Coq Require Import Reals List Arith Bool Lra Lia.
From Verif Require Import RealLib ArrayLib PolygonModel PolygonProofs RegionProofs GeoRefModel GridModel PolygonFunctionModel.
Import ListNotations.
Local Open Scope R_scope.

(** ** Moving a polygon and a point together *)
Section Move.
Variables dx dy : R.
Definition move (p : point) : point := (fst p + dx, snd p + dy).

Lemma Rltb_move a b d : Rltb (a + d) (b + d) = Rltb a b.
Proof. destruct (Rltb_spec (a + d) (b + d)), (Rltb_spec a b); auto; lra. Qed.
Lemma Rleb_move a b d : Rleb (a + d) (b + d) = Rleb a b.
Proof. destruct (Rleb_spec (a + d) (b + d)), (Rleb_spec a b); auto; lra. Qed.
Lemma on_line_move x y p q :
  point_on_line (x + dx) (y + dy) (px (move p)) (py (move p)) (px (move q)) (py (move q)) 0 0 = point_on_line x y (px p) (py p) (px q) (py q) 0 0.
Proof.
  unfold point_on_line, move, px, py. cbn [fst snd].
  replace (x + dx - (fst p + dx)) with (x - fst p) by lra. replace (y + dy - (snd p + dy)) with (y - snd p) by lra.
  replace (fst q + dx - (fst p + dx)) with (fst q - fst p) by lra. replace (snd q + dy - (snd p + dy)) with (snd q - snd p) by lra. reflexivity.
Qed.
Lemma crosses_move x y p q : crosses_left (x + dx) (y + dy) (move p) (move q) = crosses_left x y p q.
Proof.
  unfold crosses_left, move, px, py. cbn [fst snd].
  replace (y + dy - (snd p + dy)) with (y - snd p) by lra. replace (snd q + dy - (snd p + dy)) with (snd q - snd p) by lra.
  replace (fst q + dx - (fst p + dx)) with (fst q - fst p) by lra.
  replace (fst p + dx + (y - snd p) / (snd q - snd p) * (fst q - fst p)) with (fst p + (y - snd p) / (snd q - snd p) * (fst q - fst p) + dx) by lra.
  now rewrite !Rltb_move, !Rleb_move.
Qed.
Lemma check_move x y closed : forall edges inside,
  check_edges (map (fun e => (move (fst e), move (snd e))) edges) (x + dx) (y + dy) closed inside = check_edges edges x y closed inside.
Proof.
  induction edges as [|[p q] edges IH]; intros inside; cbn [map check_edges fst snd]; [reflexivity|].
  rewrite on_line_move, crosses_move. destruct point_on_line; [reflexivity|apply IH].
Qed.
Lemma combine_move : forall (l k : list point), combine (map move l) (map move k) = map (fun e => (move (fst e), move (snd e))) (combine l k).
Proof. induction l as [|a l IH]; intros [|b k]; cbn; try reflexivity. now rewrite IH. Qed.
Lemma box_move : forall l a b c d,
  fold_left (fun b p => let '(minpx, maxpx, minpy, maxpy) := b in
      (if Rltb (px p) minpx then px p else minpx, if Rltb maxpx (px p) then px p else maxpx,
       if Rltb (py p) minpy then py p else minpy, if Rltb maxpy (py p) then py p else maxpy)) (map move l) (a + dx, b + dx, c + dy, d + dy) =
  let '(a, b, c, d) := fold_left (fun b p => let '(minpx, maxpx, minpy, maxpy) := b in
      (if Rltb (px p) minpx then px p else minpx, if Rltb maxpx (px p) then px p else maxpx,
       if Rltb (py p) minpy then py p else minpy, if Rltb maxpy (py p) then py p else maxpy)) l (a, b, c, d) in
  (a + dx, b + dx, c + dy, d + dy).
Proof.
  induction l as [|p l IH]; intros a b c d; cbn [map fold_left]; [reflexivity|]. rewrite <- IH. f_equal.
  unfold move, px, py. cbn [fst snd]. rewrite !Rltb_move.
  destruct (Rltb (fst p) a), (Rltb b (fst p)), (Rltb (snd p) c), (Rltb d (snd p)); reflexivity.
Qed.
Lemma inside_move polygon closed p : point_inside (map move polygon) closed (move p) = point_inside polygon closed p.
Proof.
  destruct p as [x y]. destruct polygon as [|p0 rest].
  - unfold point_inside. destruct (box (map move [])) as [[[? ?] ?] ?], (box []) as [[[? ?] ?] ?]. cbn.
    destruct (_ || _ || _ || _), (_ || _ || _ || _); reflexivity.
  - unfold point_inside.
    assert (B : box (map move (p0 :: rest)) = let '(a, b, c, d) := box (p0 :: rest) in (a + dx, b + dx, c + dy, d + dy)).
    { unfold box. cbn [map nth]. change (px (move p0)) with (px p0 + dx). change (py (move p0)) with (py p0 + dy).
      exact (box_move (p0 :: rest) (px p0) (px p0) (py p0) (py p0)). }
    rewrite B. destruct (box (p0 :: rest)) as [[[a b] c] d]. unfold move at 1. cbn [fst snd]. rewrite !Rltb_move. destruct (_ || _ || _ || _); [reflexivity|].
    cbn [map]. rewrite !edges_combine. change (move p0 :: map move rest) with (map move (p0 :: rest)).
    change [move p0] with (map move [p0]). rewrite <- map_app, combine_move. apply check_move.
Qed.
End Move.

(** A polygon relative to a georeference contains a relative point exactly if
    the absolute polygon contains the absolute point. *)
Lemma relative_inside g polygon closed p :
  point_inside (relative g polygon) closed p = point_inside polygon closed (px p + xllcorner g, py p + yllcorner g).
Proof.
  unfold relative, change_points_geo_ref. cbn [negb].
  rewrite <- (inside_move (- xllcorner g) (- yllcorner g) polygon closed (px p + xllcorner g, py p + yllcorner g)). f_equal.
  unfold move, px, py. cbn [fst snd]. destruct p as [x y]. cbn [fst snd]. f_equal; lra.
Qed.

(** ** The loop over the points of one region *)
Section Loop.
Variable points : list point.

Definition place_of (a : arrays) (i : nat) : point := (xs a i, ys a i).
Definition stored (t : target) (v : R) : R := match t with Own_integers => IZR (trunc v) | _ => v end.
Definition value_at (v : value) (p : point) : R := match v with Number c => c | Callable f => f p end.

Lemma store_fetch t a i v k : fetch t (store t a i v) k = if Nat.eqb k i then stored t v else fetch t a k.
Proof. destruct t; cbn; unfold upd; reflexivity. Qed.
Lemma store_place t a i v k : k <> i -> place_of (store t a i v) k = place_of a k.
Proof.
  intros H. apply Nat.eqb_neq in H. destruct t; unfold place_of; cbn; unfold upd; rewrite ?H; reflexivity.
Qed.
Lemma store_place_own t a i v k : (t = Own \/ t = Own_integers) -> place_of (store t a i v) k = place_of a k.
Proof. intros [-> | ->]; reflexivity. Qed.

Lemma loop_spec t v : forall inds a, NoDup inds -> forall k,
  let a' := fold_left (fun a i => store t a i (value_at v (place_of a i))) inds a in
  fetch t a' k = (if existsb (Nat.eqb k) inds then stored t (value_at v (place_of a k)) else fetch t a k) /\
  (~ In k inds \/ t = Own \/ t = Own_integers -> place_of a' k = place_of a k).
Proof.
  induction inds as [|i inds IH]; intros a N k; cbn [fold_left existsb]; [auto|]. inversion N as [|? ? Ni N']. subst.
  specialize (IH (store t a i (value_at v (place_of a i))) N' k). cbv zeta in *. destruct IH as (A & B). split.
  - rewrite A. destruct (Nat.eqb_spec k i) as [->|H]; cbn [orb].
    + assert (E : existsb (Nat.eqb i) inds = false).
      { destruct (existsb (Nat.eqb i) inds) eqn:E; [|reflexivity]. apply existsb_exists in E. destruct E as (x & I & E). apply Nat.eqb_eq in E. subst. contradiction. }
      rewrite E, store_fetch, Nat.eqb_refl. reflexivity.
    + rewrite store_place by exact H. rewrite store_fetch. apply Nat.eqb_neq in H. now rewrite H.
  - intros [H|H].
    + rewrite B by (left; intros I; apply H; now right). apply store_place. intros ->. apply H. now left.
    + rewrite B by now right. now apply store_place_own.
Qed.
End Loop.

Lemma inside_nodup points polygon : NoDup (inside_polygon points polygon true).
Proof.
  pose proof (inside_sorted points polygon) as H. induction H as [|x l H IH F]; constructor; [|exact IH].
  intros I. rewrite Forall_forall in F. specialize (F x I). lia.
Qed.

Definition own_target (t : target) : Prop := t = Own \/ t = Own_integers.
Definition all_numbers (regions : list (list point * value)) : Prop := forall polygon v, In (polygon, v) regions -> exists c, v = Number c.

Lemma regions_spec t points a : forall regions k, (k < length points)%nat -> own_target t \/ all_numbers regions ->
  let a' := fold_left (set_region t points) regions a in
  let inside (r : list point * value) := point_inside (fst r) true (nth k points (0, 0)) in
  (own_target t -> place_of a' k = place_of a k) /\
  ((exists j r, nth_error regions j = Some r /\ inside r = true /\
      (forall j' r', (j < j')%nat -> nth_error regions j' = Some r' -> inside r' = false) /\
      fetch t a' k = stored t (value_at (snd r) (place_of a k))) \/
   ((forall r, In r regions -> inside r = false) /\ fetch t a' k = fetch t a k)).
Proof.
  induction regions as [|r regions IH] using rev_ind; intros k K H; cbv zeta.
  - split; [reflexivity|]. right. split; [intros r []|reflexivity].
  - assert (H' : own_target t \/ all_numbers regions).
    { destruct H as [H|H]; [now left|right]. intros polygon v I. apply (H polygon v), in_or_app. now left. }
    specialize (IH k K H'). cbv zeta in IH. destruct IH as (A & B). rewrite fold_left_app. cbn [fold_left].
    set (b := fold_left (set_region t points) regions a) in *.
    pose proof (loop_spec t (snd r) (inside_polygon points (fst r) true) b (inside_nodup points (fst r)) k) as L. cbv zeta in L.
    change (fold_left (fun a i => store t a i (value_at (snd r) (place_of a i))) (inside_polygon points (fst r) true) b) with (set_region t points b r) in L.
    destruct L as (L1 & L2). split; [intros O; rewrite L2 by (right; exact O); now apply A|].
    destruct (point_inside (fst r) true (nth k points (0, 0))) eqn:I.
    + left. exists (length regions), r. split; [rewrite nth_error_app2, Nat.sub_diag by lia; reflexivity|]. split; [exact I|]. split.
      * intros j' r' J N. assert (X : nth_error (regions ++ [r]) j' = None) by (apply nth_error_None; rewrite app_length; cbn; lia). congruence.
      * rewrite L1. assert (E : existsb (Nat.eqb k) (inside_polygon points (fst r) true) = true).
        { apply existsb_exists. exists k. split; [apply inside_in; auto|apply Nat.eqb_refl]. }
        rewrite E. f_equal. destruct H as [O|N]; [now rewrite A|].
        destruct r as [polygon v]. destruct (N polygon v) as (c & ->); [apply in_or_app; right; now left|reflexivity].
    + assert (E : existsb (Nat.eqb k) (inside_polygon points (fst r) true) = false).
      { destruct existsb eqn:E; [|reflexivity]. apply existsb_exists in E. destruct E as (x & J & E). apply Nat.eqb_eq in E. subst x.
        apply inside_in in J. destruct J as (_ & J). congruence. }
      rewrite E in L1. rewrite L1. destruct B as [(j & q & N & J & M & V)|(M & V)].
      * left. exists j, q. split; [rewrite nth_error_app1; [exact N|]; apply nth_error_Some; congruence|]. split; [exact J|]. split; [|exact V].
        intros j' r' Q N'. destruct (lt_dec j' (length regions)) as [Y|Y].
        -- rewrite nth_error_app1 in N' by exact Y. now apply (M j' r').
        -- rewrite nth_error_app2 in N' by lia. destruct (j' - length regions)%nat as [|[|?]]; cbn in N'; try discriminate. injection N' as <-. exact I.
      * right. split; [|exact V]. intros q J. apply in_app_or in J. destruct J as [J|[<-|[]]]; [now apply M|exact I].
Qed.
