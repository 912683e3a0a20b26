(** C22: polygon_area. *)
From Coq Require Import Reals List Arith Bool Lia Lra Psatz.
From Verif Require Import RealLib PolygonModel PolygonProofs.
Import ListNotations.
Local Open Scope R_scope.

(** Cross product of two position vectors, and its sum along a path from [p]
    through [l] to [q]. *)
Definition turn (p q : point) : R := px p * py q - px q * py p.
Fixpoint path (p : point) (l : list point) (q : point) : R :=
  match l with [] => turn p q | r :: l => turn p r + path r l q end.

(** Twice the signed area. *)
Definition shoelace (polygon : list point) : R :=
  match polygon with [] => 0 | p :: l => path p l p end.

Lemma path_app p l1 r l2 q : path p (l1 ++ r :: l2) q = path p l1 r + path r l2 q.
Proof. revert p. induction l1 as [|s l1 IH]; intros p; cbn; [lra|]. rewrite IH. lra. Qed.

Lemma path_rev : forall l p q, path q (rev l) p = - path p l q.
Proof.
  induction l as [|r l IH]; intros p q; cbn [rev path]; [unfold turn; lra|].
  rewrite path_app, IH. cbn [path]. unfold turn. lra.
Qed.

Definition affine (k dx dy : R) (p : point) : point := (k * px p + dx, k * py p + dy).

Lemma path_affine k dx dy : forall l p q,
  path (affine k dx dy p) (map (affine k dx dy) l) (affine k dx dy q) =
  k * k * path p l q + k * (dx * (py q - py p) - dy * (px q - px p)).
Proof.
  induction l as [|r l IH]; intros p q; cbn [path map]; [unfold turn, affine; cbn [px py fst snd]; ring|].
  rewrite IH. unfold turn, affine. cbn [px py fst snd]. ring.
Qed.

Lemma fold_Rsum {A} (f : A -> R) l : forall acc, fold_left (fun a i => a + f i) l acc = acc + Rsum (map f l).
Proof. induction l as [|a l IH]; intros acc; cbn; [lra|]. rewrite IH. lra. Qed.

Lemma path_combine : forall l p q, path p l q = Rsum (map (fun e => turn (fst e) (snd e)) (combine (p :: l) (l ++ [q]))).
Proof. induction l as [|r l IH]; intros p q; cbn [path app combine map Rsum fst snd]; [lra|]. rewrite IH. reflexivity. Qed.

Lemma area_shoelace l : polygon_area l = Rabs (shoelace l) / 2.
Proof.
  unfold polygon_area. set (mx := list_min _). set (my := list_min _).
  set (q := map _ l). change (@length (R * R)) with (@length point). change (@nth (R * R)) with (@nth point). rewrite fold_Rsum, Rplus_0_l.
  assert (E : Rsum (map (fun i => px (nth i q (0, 0)) * py (if (i =? length q - 1)%nat then nth 0 q (0, 0) else nth (i + 1) q (0, 0)) -
                px (if (i =? length q - 1)%nat then nth 0 q (0, 0) else nth (i + 1) q (0, 0)) * py (nth i q (0, 0))) (seq 0 (length q))) =
              Rsum (map (fun e => turn (fst e) (snd e)) (edges_of q))).
  { unfold edges_of. rewrite map_map. f_equal. apply map_ext_in. intros i Hi. apply in_seq in Hi. cbn [fst snd]. unfold turn.
    destruct (Nat.eqb_spec i (length q - 1)) as [Ei|Ei].
    - change (@length (R * R) q) with (@length point q) in Ei. replace (S i) with (@length point q) by lia. rewrite Nat.mod_same by lia. reflexivity.
    - change (@length (R * R) q) with (@length point q) in Ei. rewrite Nat.mod_small by lia. replace (S i) with (i + 1)%nat by lia. reflexivity. }
  refine (eq_trans (f_equal (fun z => Rabs (z / 2)) E) _).
  assert (K : Rsum (map (fun e => turn (fst e) (snd e)) (edges_of q)) = shoelace l).
  { destruct l as [|p l]; [reflexivity|]. cbn [map] in q. unfold q. rewrite edges_combine, <- path_combine.
    rewrite <- (map_ext (affine 1 (- mx) (- my))) by (intros a; unfold affine; f_equal; ring).
    replace (px p - mx, py p - my) with (affine 1 (- mx) (- my) p) by (unfold affine; f_equal; ring).
    rewrite path_affine. cbn [shoelace]. ring. }
  rewrite K. unfold Rdiv. rewrite Rabs_mult, (Rabs_right (/ 2)) by lra. reflexivity.
Qed.

Theorem C22_nonneg : forall l, 0 <= polygon_area l.
Proof. intros l. rewrite area_shoelace. pose proof (Rabs_pos (shoelace l)). lra. Qed.
Print Assumptions C22_nonneg.

(** Independent of the starting vertex: any rotation of the vertex list. *)
Lemma shoelace_rotate l1 l2 : shoelace (l1 ++ l2) = shoelace (l2 ++ l1).
Proof.
  destruct l1 as [|p a]; [now rewrite app_nil_r|]. destruct l2 as [|r b]; [now rewrite app_nil_r|].
  cbn [shoelace app]. rewrite !path_app. lra.
Qed.

Theorem C22_start_vertex : forall l1 l2, polygon_area (l1 ++ l2) = polygon_area (l2 ++ l1).
Proof. intros. rewrite !area_shoelace, shoelace_rotate. reflexivity. Qed.
Print Assumptions C22_start_vertex.

(** Independent of orientation. *)
Lemma shoelace_rev l : shoelace (rev l) = - shoelace l.
Proof.
  destruct l as [|p l]; [cbn; lra|]. cbn [rev]. rewrite shoelace_rotate. cbn [app shoelace]. apply path_rev.
Qed.

Theorem C22_orientation : forall l, polygon_area (rev l) = polygon_area l.
Proof. intros. rewrite !area_shoelace, shoelace_rev, Rabs_Ropp. reflexivity. Qed.
Print Assumptions C22_orientation.

(** Translation invariance and quadratic scaling. *)
Theorem C22_translate_scale : forall k dx dy l,
  polygon_area (map (fun p => (k * px p + dx, k * py p + dy)) l) = k * k * polygon_area l.
Proof.
  intros k dx dy l. change (polygon_area (map (affine k dx dy) l) = k * k * polygon_area l). rewrite !area_shoelace.
  assert (E : shoelace (map (affine k dx dy) l) = k * k * shoelace l).
  { destruct l as [|p l]; [cbn; ring|]. cbn [map shoelace]. rewrite path_affine. ring. }
  rewrite E, Rabs_mult, (Rabs_right (k * k)) by (apply Rle_ge, Rle_0_sqr). lra.
Qed.
Print Assumptions C22_translate_scale.

Theorem C22_triangle : forall a b c,
  polygon_area [a; b; c] = Rabs ((px b - px a) * (py c - py a) - (px c - px a) * (py b - py a)) / 2.
Proof. intros a b c. rewrite area_shoelace. f_equal. f_equal. cbn. unfold turn. ring. Qed.
Print Assumptions C22_triangle.

(** Cutting a polygon along the diagonal from [p] to [r]: the signed areas
    add; so do the areas when both parts have the same orientation. *)
Theorem C22_diagonal : forall p a r b,
  shoelace (p :: a ++ r :: b) = shoelace (p :: a ++ [r]) + shoelace (r :: b ++ [p]) /\
  (0 <= shoelace (p :: a ++ [r]) * shoelace (r :: b ++ [p]) ->
   polygon_area (p :: a ++ r :: b) = polygon_area (p :: a ++ [r]) + polygon_area (r :: b ++ [p])).
Proof.
  intros p a r b.
  assert (E : shoelace (p :: a ++ r :: b) = shoelace (p :: a ++ [r]) + shoelace (r :: b ++ [p])).
  { cbn [shoelace]. rewrite !path_app. cbn [path]. unfold turn. lra. }
  split; [exact E|]. intros H. rewrite !area_shoelace, E.
  set (u := shoelace (p :: a ++ [r])) in *. set (v := shoelace (r :: b ++ [p])) in *. clearbody u v.
  unfold Rabs. repeat destruct Rcase_abs; nra.
Qed.
Print Assumptions C22_diagonal.

(** Fan of triangles from the first vertex. *)
Fixpoint fan (p q : point) (l : list point) : list triangle :=
  match l with [] => [] | r :: l => (p, q, r) :: fan p r l end.

Lemma shoelace_fan : forall l p q, shoelace (p :: q :: l) = Rsum (map tri_cross (fan p q l)).
Proof.
  intros l p q. cbn [shoelace path].
  assert (G : forall l q, path q l p + turn p q = Rsum (map tri_cross (fan p q l))); [|rewrite <- G; lra].
  induction l0 as [|r l0 IH]; intros q0; cbn [path fan map Rsum]; [unfold turn; lra|].
  rewrite <- IH. unfold tri_cross, turn. ring.
Qed.

(** When the triangles of the fan all have the same orientation (every convex
    polygon, and every polygon star shaped about its first vertex), the area
    is the sum of their areas. *)
Theorem C22_convex : forall p q l,
  (forall t, In t (fan p q l) -> 0 <= tri_cross t) \/ (forall t, In t (fan p q l) -> tri_cross t <= 0) ->
  polygon_area (p :: q :: l) = Rsum (map (fun t : triangle => let '(a, b, c) := t in polygon_area [a; b; c]) (fan p q l)).
Proof.
  intros p q l H. rewrite area_shoelace, shoelace_fan.
  assert (T : forall t : triangle, (let '(a, b, c) := t in polygon_area [a; b; c]) = Rabs (tri_cross t) / 2).
  { intros ((a, b), c). apply C22_triangle. }
  rewrite (map_ext _ _ T). clear T.
  assert (G : forall ts, (forall t, In t ts -> 0 <= tri_cross t) ->
     Rsum (map (fun t => Rabs (tri_cross t) / 2) ts) = Rsum (map tri_cross ts) / 2 /\ 0 <= Rsum (map tri_cross ts)).
  { induction ts as [|t ts IH]; intros K; cbn; [lra|]. destruct IH as (I1 & I2); [intros; apply K; now right|].
    rewrite I1, Rabs_right by (apply Rle_ge, K; now left). specialize (K t (or_introl eq_refl)). lra. }
  assert (G' : forall ts, (forall t, In t ts -> tri_cross t <= 0) ->
     Rsum (map (fun t => Rabs (tri_cross t) / 2) ts) = - Rsum (map tri_cross ts) / 2 /\ Rsum (map tri_cross ts) <= 0).
  { induction ts as [|t ts IH]; intros K; cbn; [lra|]. destruct IH as (I1 & I2); [intros; apply K; now right|].
    rewrite I1, Rabs_left1 by (apply K; now left). specialize (K t (or_introl eq_refl)). lra. }
  destruct H as [H|H].
  - destruct (G _ H) as (G1 & G2). rewrite G1, Rabs_right by lra. reflexivity.
  - destruct (G' _ H) as (G1 & G2). rewrite G1, Rabs_left1 by lra. reflexivity.
Qed.
Print Assumptions C22_convex.

(** Non-vacuity: the 2 x 3 rectangle. *)
Example C22_example : polygon_area [(1, 1); (3, 1); (3, 4); (1, 4)] = 6 /\
  (forall t, In t (fan (1, 1) (3, 1) [(3, 4); (1, 4)]) -> 0 <= tri_cross t).
Proof.
  split.
  - rewrite area_shoelace. cbn. unfold turn. cbn. rewrite Rabs_right; lra.
  - cbn [fan In]. intros t [<- | [<- | []]]; cbn; lra.
Qed.
