(** C120: what is left of a decimated polygon *)
From Coq Require Import Reals List Arith Bool Lra Lia.
From Verif Require Import RealLib DecimateModel.
Import ListNotations.
Local Open Scope R_scope.

(** [r] is [l] with entries left out *)
Inductive part : list point -> list point -> Prop :=
| part_nil : part [] []
| part_keep p r l : part r l -> part (p :: r) (p :: l)
| part_drop p r l : part r l -> part r (p :: l).
(** [b] is an upper, a lower bound of [l] that is attained *)
Definition top (b : R) (l : list R) : Prop := In b l /\ forall x, In x l -> x <= b.
Definition bottom (b : R) (l : list R) : Prop := In b l /\ forall x, In x l -> b <= x.

Lemma greatest_top x l : top (greatest x l) (x :: l).
Proof.
  unfold greatest. revert x. induction l as [|y l IH]; intros x; cbn [fold_left]; [split; [left; reflexivity|intros z [<-|[]]; lra]|].
  destruct (IH (Rmax x y)) as [A B]. split.
  - destruct A as [A|A]; [|right; right; exact A]. rewrite <- A. unfold Rmax. destruct (Rle_dec x y); [right; left|left]; reflexivity.
  - assert (M := B (Rmax x y) (or_introl eq_refl)). pose proof (Rmax_l x y). pose proof (Rmax_r x y). intros z [<-|[<-|I]]; [lra|lra|apply B; right; exact I].
Qed.
Lemma smallest_bottom x l : bottom (smallest x l) (x :: l).
Proof.
  unfold smallest. revert x. induction l as [|y l IH]; intros x; cbn [fold_left]; [split; [left; reflexivity|intros z [<-|[]]; lra]|].
  destruct (IH (Rmin x y)) as [A B]. split.
  - destruct A as [A|A]; [|right; right; exact A]. rewrite <- A. unfold Rmin. destruct (Rle_dec x y); [left|right; left]; reflexivity.
  - assert (M := B (Rmin x y) (or_introl eq_refl)). pose proof (Rmin_l x y). pose proof (Rmin_r x y). intros z [<-|[<-|I]]; [lra|lra|apply B; right; exact I].
Qed.
Lemma top_unique a b l : top a l -> top b l -> a = b.
Proof. intros [A A'] [B B']. specialize (A' b B). specialize (B' a A). lra. Qed.
Lemma bottom_unique a b l : bottom a l -> bottom b l -> a = b.
Proof. intros [A A'] [B B']. specialize (A' b B). specialize (B' a A). lra. Qed.
Lemma keep_part c f l : forall i k, part (keep c f i k l) l.
Proof.
  induction l as [|p l IH]; intros i k; cbn [keep]; [constructor|]. destruct (c p); [constructor; apply IH|].
  destruct (Nat.ltb (k * f) i); constructor; apply IH.
Qed.
Lemma keep_corner c f l p : In p l -> c p = true -> forall i k, In p (keep c f i k l).
Proof.
  intros H C. induction l as [|q l IH]; [destruct H|]. intros i k. cbn [keep]. destruct H as [->|H]; [rewrite C; left; reflexivity|].
  destruct (c q); [right; apply IH; exact H|]. destruct (Nat.ltb (k * f) i); [right|]; apply IH; exact H.
Qed.
Lemma keep_lower c f l : (1 <= f)%nat -> forall i k, (i <= k * f + 1)%nat -> (i + length l <= (k + length (keep c f i k l)) * f + 1)%nat.
Proof.
  intros F. induction l as [|p l IH]; intros i k H; cbn [keep length]; [rewrite !Nat.add_0_r; exact H|].
  assert (A : (S i <= S k * f + 1)%nat) by (cbn; lia).
  destruct (c p); [specialize (IH (S i) (S k) A); cbn [length]; rewrite Nat.add_succ_r; cbn in *; lia|].
  destruct (Nat.ltb_spec (k * f) i) as [K|K]; [specialize (IH (S i) (S k) A); cbn [length]; rewrite !Nat.add_succ_r; cbn in *; lia|].
  specialize (IH (S i) k ltac:(lia)). lia.
Qed.
Lemma keep_upper c f l : (1 <= f)%nat -> (forall p, In p l -> c p = false) -> forall i k, (k * f + 2 <= i + f)%nat ->
  ((k + length (keep c f i k l)) * f + 2 <= i + length l + f)%nat.
Proof.
  intros F. induction l as [|p l IH]; intros C i k H; cbn [keep length]; [rewrite !Nat.add_0_r; exact H|].
  rewrite (C p (or_introl eq_refl)). assert (C' : forall q, In q l -> c q = false) by (intros q I; apply C; right; exact I).
  destruct (Nat.ltb_spec (k * f) i) as [K|K].
  - specialize (IH C' (S i) (S k) ltac:(cbn; lia)). cbn [length]. rewrite Nat.add_succ_r. cbn in *. lia.
  - specialize (IH C' (S i) k ltac:(lia)). lia.
Qed.

Lemma decimated f p t r : decimate_polygon f (p :: t) = Some r ->
  r = keep (is_corner (smallest (fst p) (map fst t)) (greatest (fst p) (map fst t)) (smallest (snd p) (map snd t)) (greatest (snd p) (map snd t))) f 0 0 (p :: t).
Proof. intros H. apply (f_equal (fun o => match o with Some x => x | None => [] end)) in H. symmetry. exact H. Qed.

(** Points are left out, none is moved or added *)
Theorem C120_part f l r : decimate_polygon f l = Some r -> part r l.
Proof. destruct l as [|p t]; [discriminate|]. intros H. apply decimated in H. rewrite H. exact (keep_part _ f (p :: t) 0 0). Qed.
Print Assumptions C120_part.
(** The points at the corners of the bounding box are kept *)
Theorem C120_corners f l r p a b c d : decimate_polygon f l = Some r -> In p l ->
  bottom a (map fst l) -> top b (map fst l) -> bottom c (map snd l) -> top d (map snd l) ->
  (fst p = a \/ fst p = b) -> (snd p = c \/ snd p = d) -> In p r.
Proof.
  destruct l as [|q t]; [discriminate|]. intros H I A B C D X Y. apply decimated in H. rewrite H. apply (keep_corner _ f (q :: t) p I). cbn [map] in *.
  rewrite (bottom_unique _ _ _ (smallest_bottom (fst q) (map fst t)) A), (top_unique _ _ _ (greatest_top (fst q) (map fst t)) B),
    (bottom_unique _ _ _ (smallest_bottom (snd q) (map snd t)) C), (top_unique _ _ _ (greatest_top (snd q) (map snd t)) D).
  unfold is_corner. apply andb_true_iff. split; apply orb_true_iff; [destruct X as [X|X]|destruct Y as [Y|Y]]; [left|right|left|right]; apply Reqb_true; assumption.
Qed.
Print Assumptions C120_corners.
(** At least one in [f] of the points after the first is kept *)
Theorem C120_at_least f l r : (1 <= f)%nat -> decimate_polygon f l = Some r -> (length l - 1 <= length r * f)%nat.
Proof.
  intros F. destruct l as [|p t]; [discriminate|]. intros H. apply decimated in H. rewrite H.
  pose proof (keep_lower (is_corner (smallest (fst p) (map fst t)) (greatest (fst p) (map fst t)) (smallest (snd p) (map snd t)) (greatest (snd p) (map snd t)))
    f (p :: t) F 0 0 ltac:(lia)) as K. change (0 + length (p :: t) <= length (keep (is_corner (smallest (fst p) (map fst t)) (greatest (fst p) (map fst t)) (smallest (snd p) (map snd t)) (greatest (snd p) (map snd t)))
    f 0 0 (p :: t)) * f + 1)%nat in K. lia.
Qed.
Print Assumptions C120_at_least.
(** and exactly one in [f], rounded up, if no point is at a corner *)
Theorem C120_count f l r : (1 <= f)%nat -> decimate_polygon f l = Some r ->
  (forall p a b c d, In p l -> bottom a (map fst l) -> top b (map fst l) -> bottom c (map snd l) -> top d (map snd l) ->
    ~ ((fst p = a \/ fst p = b) /\ (snd p = c \/ snd p = d))) ->
  (length l - 1 <= length r * f < length l - 1 + f)%nat.
Proof.
  intros F H N. split; [apply C120_at_least; assumption|]. destruct l as [|p t]; [discriminate|]. apply decimated in H. rewrite H.
  set (cn := is_corner (smallest (fst p) (map fst t)) (greatest (fst p) (map fst t)) (smallest (snd p) (map snd t)) (greatest (snd p) (map snd t))) in *.
  assert (C : forall q, In q (p :: t) -> cn q = false).
  { intros q I. destruct (cn q) eqn:E; [|reflexivity]. exfalso. unfold cn, is_corner in E. apply andb_true_iff in E. destruct E as [X Y].
    apply orb_true_iff in X, Y. rewrite !Reqb_true in X, Y.
    exact (N q _ _ _ _ I (smallest_bottom (fst p) (map fst t)) (greatest_top (fst p) (map fst t)) (smallest_bottom (snd p) (map snd t)) (greatest_top (snd p) (map snd t)) (conj X Y)). }
  assert (Z : keep cn f 0 0 (p :: t) = keep cn f 1 0 t) by (cbn [keep]; rewrite (C p (or_introl eq_refl)); reflexivity). rewrite Z.
  pose proof (keep_upper cn f t F (fun q I => C q (or_intror I)) 1 0 ltac:(lia)) as K. cbn [length Nat.add] in *. lia.
Qed.
Print Assumptions C120_count.
(** The extrema are not preserved, although documented to be: of a diamond one
    point is left. *)
Lemma diamond : decimate_polygon 10 [(0, 1); (1, 0); (2, 1); (1, 2)] = Some [(1, 0)].
Proof.
  unfold decimate_polygon, greatest, smallest. cbn [map fst snd fold_left].
  rewrite (Rmax_right 0 1), (Rmax_right 1 2), (Rmax_left 2 1), (Rmax_left 1 0), (Rmax_left 1 1), (Rmax_right 1 2), (Rmin_left 0 1), (Rmin_left 0 2), (Rmin_left 0 1), (Rmin_right 1 0), (Rmin_left 0 1), (Rmin_left 0 2) by lra.
  assert (C : forall x y, (x <> 0 /\ x <> 2) \/ (y <> 0 /\ y <> 2) -> is_corner 0 2 0 2 (x, y) = false).
  { intros x y H. unfold is_corner. cbn [fst snd]. destruct (Reqb_spec x 0), (Reqb_spec x 2), (Reqb_spec y 0), (Reqb_spec y 2); cbn; try reflexivity; exfalso; lra. }
  cbn [keep]. rewrite !C by lra. reflexivity.
Qed.
Theorem C120_extrema_refuted : ~ (forall f l r b, decimate_polygon f l = Some r -> top b (map fst l) -> top b (map fst r)).
Proof.
  intros H. specialize (H 10%nat _ _ 2 diamond). destruct H as [I _].
  - split; [cbn; auto|]. intros x I. cbn in I. destruct I as [<-|[<-|[<-|[<-|[]]]]]; lra.
  - cbn in I. destruct I as [I|[]]. lra.
Qed.
Print Assumptions C120_extrema_refuted.

(** Cases *)
Example C120_case : exists r, decimate_polygon 10 [(0, 1); (1, 0); (2, 1); (1, 2)] = Some r /\ part r [(0, 1); (1, 0); (2, 1); (1, 2)] /\ (3 <= length r * 10)%nat.
Proof. eexists. split; [apply diamond|]. split; [exact (C120_part _ _ _ diamond)|]. pose proof (C120_at_least 10 _ _ ltac:(lia) diamond) as K. exact K. Qed.
Example C120_corners_case : exists r, decimate_polygon 10 [(0, 0); (1, 1)] = Some r /\ In (1, 1) r.
Proof.
  eexists. split; [reflexivity|]. apply (C120_corners 10 [(0, 0); (1, 1)] _ (1, 1) 0 1 0 1); [reflexivity|cbn; auto|..];
    try (split; [cbn; auto|]; intros x I; cbn in I; destruct I as [<-|[<-|[]]]; lra); right; reflexivity.
Qed.
Example C120_count_case : forall r, decimate_polygon 10 [(0, 1); (1, 0); (2, 1); (1, 2)] = Some r -> (3 <= length r * 10 < 13)%nat.
Proof.
  intros r H. apply (C120_count 10 _ r ltac:(lia) H). intros p a b c d I A B C D [X Y].
  assert (Ea : a = 0) by (apply (bottom_unique _ _ _ A); split; [cbn; auto|]; intros x J; cbn in J; destruct J as [<-|[<-|[<-|[<-|[]]]]]; lra).
  assert (Eb : b = 2) by (apply (top_unique _ _ _ B); split; [cbn; auto|]; intros x J; cbn in J; destruct J as [<-|[<-|[<-|[<-|[]]]]]; lra).
  assert (Ec : c = 0) by (apply (bottom_unique _ _ _ C); split; [cbn; auto|]; intros x J; cbn in J; destruct J as [<-|[<-|[<-|[<-|[]]]]]; lra).
  assert (Ed : d = 2) by (apply (top_unique _ _ _ D); split; [cbn; auto|]; intros x J; cbn in J; destruct J as [<-|[<-|[<-|[<-|[]]]]]; lra).
  subst a b c d. cbn in I. destruct I as [<-|[<-|[<-|[<-|[]]]]]; cbn [fst snd] in X, Y; lra.
Qed.
