(** C98: periodic meshes. *)
From Coq Require Import Reals Lra Lia List Arith ZArith Bool Permutation.
From Verif Require Import RealLib ListLib ArrayLib NeighbourModel NeighbourProofs NeighbourProps MeshFactoryModel MeshFactoryProofs
  MeshFactoryProps PeriodicModel PeriodicProofs.
Import ListNotations.

(** ** The strip of [rectangular_periodic] *)

(** The corners of triangle [T]. *)
Definition corners (points : list point) (elements : list tri) (T : nat) : list point :=
  match nth_error elements T with Some (a, b, c) => [pt points a; pt points b; pt points c] | None => [] end.
Definition moved (dx dy : R) (p : point) : point := ((fst p + dx)%R, (snd p + dy)%R).

Lemma point_eq m n l1 l2 o ij : 1 <= m ->
  strip_point m n l1 l2 o (-1) ij = grid_point (m + 2) n (l1 + 2 * (l1 / INR m)) l2 ((fst o - l1 / INR m)%R, snd o) ij.
Proof.
  intros H. pose proof (INR_pos m H). unfold strip_point, grid_point. cbn [fst snd]. apply f_equal2; [|reflexivity].
  rewrite plus_INR. cbn [INR]. field. lra.
Qed.
Lemma points_eq m n l1 l2 o : 1 <= m ->
  periodic_points m n l1 l2 o = rectangular_points (m + 2) n (l1 + 2 * (l1 / INR m)) l2 ((fst o - l1 / INR m)%R, snd o).
Proof.
  intros H. unfold periodic_points, strip_points, rectangular_points. generalize (repeat (0%R, 0%R) ((m + 2 + 1) * (n + 1))).
  induction (loop2 (m + 2 + 1) (n + 1)) as [|ij xs IH]; intros l; [reflexivity|]. cbn [fold_left]. rewrite IH. f_equal. f_equal. now apply point_eq.
Qed.

(** The mesh is a valid mesh of the rectangle asked for with one more column of
    cells on each side; the constructor of meshes accepts it. *)
Theorem C98_mesh : forall m n len1 len2 origin, 1 <= m -> 1 <= n -> (0 < len1)%R -> (0 < len2)%R ->
  let dx := (len1 / INR m)%R in
  let s := periodic_mesh m n in
  let points := periodic_points m n len1 len2 origin in
  exists sides, st_boundary s = map (fun b => (fst b, Side (snd b))) sides /\
  rectangle_mesh (len1 + 2 * dx) len2 (len1 * len2 / (2 * INR m * INR n)) (moved (- dx) 0 origin) points (st_elements s) sides /\
  length points = (m + 3) * (n + 1) /\ length (st_elements s) = 2 * (m + 2) * n /\
  build_neighbour_structure (st_elements s) <> None.
Proof.
  intros m n l1 l2 o Hm Hn H1 H2 dx s points. exists (snd (rectangular_mesh (m + 2) n)).
  pose proof (INR_pos m Hm) as Pm. pose proof (INR_pos n Hn) as Pn.
  assert (Hdx : (0 < dx)%R) by (unfold dx; now apply Rdiv_lt_0_compat).
  destruct (C04_rectangular_mesh_valid (m + 2) n (l1 + 2 * dx) l2 (moved (- dx) 0 o)) as (A & B & _ & C & _); try lia; try lra.
  unfold s, points. unfold periodic_mesh. rewrite strip_boundary, strip_elements, points_eq by assumption.
  replace (moved (- dx) 0 o) with ((fst o - l1 / INR m)%R, snd o) in * by (unfold moved, dx; apply f_equal2; lra).
  replace (l1 * l2 / (2 * INR m * INR n))%R with ((l1 + 2 * dx) * l2 / (2 * INR (m + 2) * INR n))%R.
  2:{ unfold dx. rewrite plus_INR. cbn [INR]. field. repeat split; lra. }
  unfold dx in *. split; [reflexivity|]. split; [exact C|]. split; [rewrite A; lia|]. split; [rewrite B; lia|]. apply C04_rectangular_accepted_by_mesh.
Qed.
Print Assumptions C98_mesh.

Lemma strip_corners m n l1 l2 o i j r : 1 <= m -> i < m + 2 -> j < n -> r < 2 ->
  let P i j := strip_point m n l1 l2 o (-1) (i, j) in
  corners (periodic_points m n l1 l2 o) (st_elements (periodic_mesh m n)) (eindex n i j + r) =
  if r =? 0 then [P (i + 1) j; P (i + 1) (j + 1); P i j] else [P i (j + 1); P i j; P (i + 1) (j + 1)].
Proof.
  intros Hm Hi Hj Hr P. unfold corners, periodic_mesh. rewrite strip_elements.
  destruct (rectangular_points_spec (m + 2) n (l1 + 2 * (l1 / INR m)) l2 ((fst o - l1 / INR m)%R, snd o)) as (_ & NP).
  assert (PT : forall i j, i <= m + 2 -> j <= n -> pt (periodic_points m n l1 l2 o) (index n i j) = P i j).
  { intros i' j' Hi' Hj'. unfold pt. rewrite points_eq by assumption. rewrite (nth_error_nth _ _ _ (NP i' j' Hi' Hj')). unfold P. symmetry. now apply point_eq. }
  destruct r as [|[|r]]; [| |lia].
  - replace (nth_error _ _) with (Some (index n (i + 1) j, index n (i + 1) (j + 1), index n i j)).
    2:{ symmetry. apply rect_element. exists i, j, 0. repeat split; try lia. unfold eindex. lia. }
    cbn [Nat.eqb]. rewrite !PT by lia. reflexivity.
  - replace (nth_error _ _) with (Some (index n i (j + 1), index n i j, index n (i + 1) (j + 1))).
    2:{ symmetry. apply rect_element. exists i, j, 1. repeat split; try lia. unfold eindex. lia. }
    cbn [Nat.eqb]. rewrite !PT by lia. reflexivity.
Qed.
Lemma column_of n i j r : j < n -> r < 2 -> 2 * n * i <= eindex n i j + r < 2 * n * (i + 1).
Proof. unfold eindex. intros. assert (j + 1 <= n) by lia. nia. Qed.
Lemma flag_at m n i j r : 1 <= m -> i < m + 2 -> j < n -> r < 2 ->
  tri_full_flag (periodic_recvs m n) (eindex n i j + r) = if (1 <=? i) && (i <=? m) then 1 else 0.
Proof.
  intros Hm Hi Hj Hr. rewrite flag_value by (assumption || (apply eindex_lt; assumption)). pose proof (column_of n i j r Hj Hr) as K.
  destruct (Nat.leb_spec 1 i), (Nat.leb_spec i m), (Nat.leb_spec (2 * n) (eindex n i j + r)), (Nat.ltb_spec (eindex n i j + r) (2 * n * (m + 1)));
    cbn [andb]; try reflexivity; exfalso; nia.
Qed.
Lemma ghosts_at {V} m n (c : nat -> V) i j r : 1 <= m -> i < m + 2 -> j < n -> r < 2 ->
  update_ghosts (periodic_sends m n) (periodic_recvs m n) c (eindex n i j + r) =
  c (eindex n (if i =? 0 then m else if i =? m + 1 then 1 else i) j + r).
Proof.
  intros Hm Hi Hj Hr. rewrite ghosts_updated by assumption. pose proof (column_of n i j r Hj Hr) as K. pose proof (eindex_lt (m + 2) n i j r Hi Hj Hr) as L.
  destruct (Nat.eqb_spec i 0) as [-> | N0].
  - destruct (Nat.ltb_spec (eindex n 0 j + r) (2 * n)); [|lia]. f_equal. unfold eindex. lia.
  - destruct (Nat.ltb_spec (eindex n i j + r) (2 * n)); [exfalso; nia|].
    destruct (Nat.leb_spec (2 * n * (m + 1)) (eindex n i j + r)), (Nat.ltb_spec (eindex n i j + r) (2 * n * (m + 2))); cbn [andb]; try (exfalso; lia).
    + assert (i = m + 1) as -> by nia. rewrite Nat.eqb_refl. f_equal. unfold eindex. nia.
    + assert (i <> m + 1) by nia. destruct (Nat.eqb_spec i (m + 1)); [contradiction | reflexivity].
Qed.

(** The full triangles are those inside the rectangle asked for. *)
Theorem C98_full : forall m n len1 len2 origin T, 1 <= m -> 1 <= n -> (0 < len1)%R -> T < 2 * (m + 2) * n ->
  (tri_full_flag (periodic_recvs m n) T = 1 <->
   forall p, In p (corners (periodic_points m n len1 len2 origin) (st_elements (periodic_mesh m n)) T) ->
     (fst origin <= fst p <= fst origin + len1)%R) /\
  (tri_full_flag (periodic_recvs m n) T = 1 \/ tri_full_flag (periodic_recvs m n) T = 0).
Proof.
  intros m n l1 l2 o T Hm Hn H1 HT. destruct (eindex_split (m + 2) n T HT) as (i & j & r & Hi & Hj & Hr & ->).
  rewrite flag_at, strip_corners by assumption. split; [| destruct ((1 <=? i) && (i <=? m)); auto].
  pose proof (INR_pos m Hm) as Pm. set (d := (l1 / INR m)%R). assert (Hd : (0 < d)%R) by (now apply Rdiv_lt_0_compat).
  assert (Hl : l1 = (INR m * d)%R) by (unfold d; field; lra).
  assert (X : forall i j, fst (strip_point m n l1 l2 o (-1) (i, j)) = (fst o + (INR i - 1) * d)%R).
  { intros i' j'. unfold strip_point. cbn [fst snd]. fold d. unfold d. field. lra. }
  assert (G : forall k, 1 <= k <= m + 1 -> (fst o <= fst o + (INR k - 1) * d <= fst o + l1)%R).
  { intros k (K1 & K2). apply le_INR in K1, K2. rewrite plus_INR in K2. cbn [INR] in K1, K2. rewrite Hl.
    assert (0 <= (INR k - 1) * d)%R by (apply Rmult_le_pos; lra).
    assert ((INR k - 1) * d <= INR m * d)%R by (apply Rmult_le_compat_r; lra). lra. }
  split.
  - destruct (Nat.leb_spec 1 i), (Nat.leb_spec i m); cbn [andb]; intros E; try discriminate. intros p I.
    destruct (r =? 0); destruct I as [<- | [<- | [<- | []]]]; rewrite X; apply G; lia.
  - intros H. assert (K : 1 <= i <= m).
    { assert (A : (fst o <= fst o + (INR i - 1) * d)%R).
      { specialize (H (strip_point m n l1 l2 o (-1) (i, j))). rewrite X in H. apply H. destruct (r =? 0); cbn; auto. }
      assert (B : (fst o + (INR (i + 1) - 1) * d <= fst o + l1)%R).
      { specialize (H (strip_point m n l1 l2 o (-1) (i + 1, j + 1))). rewrite X in H. apply H. destruct (r =? 0); cbn; auto. }
      split.
      - apply INR_le. cbn [INR]. destruct (Rle_or_lt 1 (INR i)) as [|L]; [assumption|]. exfalso.
        assert ((INR i - 1) * d < 0)%R by nra. lra.
      - apply INR_le. destruct (Rle_or_lt (INR i) (INR m)) as [|L]; [assumption|]. exfalso. rewrite plus_INR in B. cbn [INR] in B.
        rewrite Hl in B. assert (INR m * d < INR i * d)%R by (apply Rmult_lt_compat_r; assumption). lra. }
    destruct (Nat.leb_spec 1 i), (Nat.leb_spec i m); cbn [andb]; lia.
Qed.
Print Assumptions C98_full.

(** [update_ghosts] gives every ghost the values of the full triangle that lies
    one length of the rectangle further left or right, and leaves the full
    triangles alone. *)
Theorem C98_ghosts : forall m n len1 len2 origin T, 1 <= m -> 1 <= n -> T < 2 * (m + 2) * n ->
  let flag := tri_full_flag (periodic_recvs m n) in
  let ghosts V (c : nat -> V) := update_ghosts (periodic_sends m n) (periodic_recvs m n) c in
  let place := corners (periodic_points m n len1 len2 origin) (st_elements (periodic_mesh m n)) in
  (flag T = 1 -> forall V c, ghosts V c T = c T) /\
  (flag T = 0 -> exists T' d, T' < 2 * (m + 2) * n /\ flag T' = 1 /\ (d = len1 \/ d = - len1)%R /\
     place T' = map (moved d 0) (place T) /\ forall V c, ghosts V c T = c T').
Proof.
  intros m n l1 l2 o T Hm Hn HT flag ghosts place. destruct (eindex_split (m + 2) n T HT) as (i & j & r & Hi & Hj & Hr & ->).
  unfold flag, ghosts, place. clear flag ghosts place. rewrite flag_at by assumption.
  pose proof (INR_pos m Hm) as Pm.
  split.
  - destruct (Nat.leb_spec 1 i), (Nat.leb_spec i m); cbn [andb]; intros E; try discriminate. intros V c. rewrite ghosts_at by assumption.
    destruct (Nat.eqb_spec i 0), (Nat.eqb_spec i (m + 1)); try lia. reflexivity.
  - intros E. assert (I : i = 0 \/ i = m + 1) by (destruct (Nat.leb_spec 1 i), (Nat.leb_spec i m); cbn [andb] in E; try discriminate; lia).
    set (i' := if i =? 0 then m else 1).
    assert (Hi' : 1 <= i' <= m) by (unfold i'; destruct (i =? 0); lia).
    exists (eindex n i' j + r), (if i =? 0 then l1 else (- l1)%R). split; [apply eindex_lt; lia|]. split.
    { rewrite flag_at by lia. destruct (Nat.leb_spec 1 i'), (Nat.leb_spec i' m); cbn [andb]; lia. }
    split; [destruct (i =? 0); auto|]. split.
    + rewrite !strip_corners by lia.
      assert (X : forall j' k, strip_point m n l1 l2 o (-1) (i' + k, j') = moved (if i =? 0 then l1 else (- l1)%R) 0 (strip_point m n l1 l2 o (-1) (i + k, j'))).
      { intros j' k. unfold strip_point, moved. cbn [fst snd]. apply f_equal2; [|lra]. unfold i'. destruct I as [-> | ->]; cbn [Nat.eqb].
        - rewrite !plus_INR. cbn [INR]. field. lra.
        - destruct (Nat.eqb_spec (m + 1) 0); [lia|]. rewrite !plus_INR. cbn [INR]. field. lra. }
      assert (X1 : forall j', strip_point m n l1 l2 o (-1) (i', j') = moved (if i =? 0 then l1 else (- l1)%R) 0 (strip_point m n l1 l2 o (-1) (i, j'))).
      { intros j'. pose proof (X j' 0) as Y. now rewrite !Nat.add_0_r in Y. }
      destruct (r =? 0); cbn [map]; rewrite !X, !X1; reflexivity.
    + intros V c. rewrite ghosts_at by assumption. unfold i'. destruct I as [-> | ->]; [reflexivity|].
      destruct (Nat.eqb_spec (m + 1) 0); [lia|]. now rewrite Nat.eqb_refl.
Qed.
Print Assumptions C98_ghosts.

(** ** Runs on the strip

    The strip without ends: its columns are numbered by all integers.  The
    places next to lower (0) and upper (1) triangles. *)
Definition place : Type := (Z * nat * nat)%type.
Definition next_to (n : nat) (c : Z) (j r e : nat) : option place :=
  match r, e with
  | 0, 0 => Some (c, j, 1)
  | 0, 1 => if j =? 0 then None else Some (c, j - 1, 1)
  | 0, _ => Some ((c + 1)%Z, j, 1)
  | _, 0 => Some (c, j, 0)
  | _, 1 => if j =? n - 1 then None else Some (c, j + 1, 0)
  | _, _ => Some ((c - 1)%Z, j, 0)
  end.
Definition endless_around {A} (n : nat) (u : Z -> nat -> nat -> A) (c : Z) (j r : nat) : around_of A :=
  let f p := let '(c, j, r) := p : place in u c j r in
  (u c j r, (option_map f (next_to n c j r 0), option_map f (next_to n c j r 1), option_map f (next_to n c j r 2))).
Definition endless_view {A} (n : nat) (u : Z -> nat -> nat -> A) := endless_around n (endless_around n u).
(** One pass of the scheme on the endless strip; what all triangles are told is
    computed from the triangles of columns 0 to m-1. *)
Definition endless_pass {A X} (m n : nat) (s : scheme A X) (u : Z -> nat -> nat -> A) : Z -> nat -> nat -> A :=
  let x := globally s (map (fun p => endless_view n u (Z.of_nat (fst (fst p))) (snd (fst p)) (snd p)) (cells m n)) in
  fun c j r => rule s x j r (endless_view n u c j r).

Definition repeats {A} (m : nat) (u : Z -> nat -> nat -> A) : Prop := forall c j r, u (c + Z.of_nat m)%Z j r = u c j r.
(** Column [i] of the mesh holds column [i - 1] of the endless strip. *)
Definition holds {A} (m n : nat) (c : nat -> A) (u : Z -> nat -> nat -> A) : Prop :=
  forall i j r, i < m + 2 -> j < n -> r < 2 -> c (eindex n i j + r) = u (Z.of_nat i - 1)%Z j r.

Lemma endless_around_repeats {A} m n (u : Z -> nat -> nat -> A) : repeats m u -> repeats m (endless_around n u).
Proof.
  intros H c j r. unfold endless_around, next_to. replace (c + Z.of_nat m + 1)%Z with (c + 1 + Z.of_nat m)%Z by lia.
  replace (c + Z.of_nat m - 1)%Z with (c - 1 + Z.of_nat m)%Z by lia.
  destruct r as [|r]; [destruct (j =? 0) | destruct (j =? n - 1)]; cbn [option_map]; rewrite !H; reflexivity.
Qed.
Lemma endless_pass_repeats {A X} m n (s : scheme A X) u : repeats m u -> repeats m (endless_pass m n s u).
Proof.
  intros H c j r. unfold endless_pass. cbv zeta. f_equal. unfold endless_view. apply (endless_around_repeats m n), (endless_around_repeats m n), H.
Qed.

Section Strip.
Variables m n : nat.
Variable rows : list row.
Hypothesis Hm : 1 <= m.
Hypothesis Hn : 1 <= n.
Hypothesis HB : build_neighbour_structure (st_elements (periodic_mesh m n)) = Some rows.

Lemma HB' : build_neighbour_structure (fst (rectangular_mesh (m + 2) n)) = Some rows.
Proof using HB. rewrite <- HB. unfold periodic_mesh. now rewrite strip_elements. Qed.

(** [f] holds what [g] says on a triangle and next to it. *)
Lemma around_at {A} (f : nat -> A) (g : Z -> nat -> nat -> A) i j r : i < m + 2 -> j < n -> r < 2 ->
  (r = 0 -> i < m + 1) -> (r = 1 -> 0 < i) ->
  f (eindex n i j + r) = g (Z.of_nat i - 1)%Z j r ->
  (forall i' j', j' < n -> i' < m + 2 -> i <= i' -> r = 0 -> f (eindex n i' j' + 1) = g (Z.of_nat i' - 1)%Z j' 1) ->
  (forall i' j', j' < n -> i' <= i -> r = 1 -> f (eindex n i' j' + 0) = g (Z.of_nat i' - 1)%Z j' 0) ->
  around rows f (eindex n i j + r) = endless_around n g (Z.of_nat i - 1)%Z j r.
Proof using HB Hm Hn.
  intros Hi Hj Hr S0 S1 E U L. unfold around, endless_around. rewrite E. destruct r as [|[|r]]; [| |lia].
  - rewrite Nat.add_0_r. rewrite (lower_0 (m + 2) n rows HB'), (lower_1 (m + 2) n rows HB'), (lower_2 (m + 2) n rows HB') by lia. cbn [next_to].
    replace (m + 2 - 1) with (m + 1) by lia. destruct (Nat.eqb_spec i (m + 1)); [lia|]. cbn [option_map]. rewrite U by lia. rewrite (U (i + 1) j) by lia.
    replace (Z.of_nat (i + 1) - 1)%Z with (Z.of_nat i - 1 + 1)%Z by lia. destruct (Nat.eqb_spec j 0); [reflexivity|]. cbn [option_map]. now rewrite U by lia.
  - rewrite (upper_0 (m + 2) n rows HB'), (upper_1 (m + 2) n rows HB'), (upper_2 (m + 2) n rows HB') by lia. cbn [next_to].
    destruct (Nat.eqb_spec i 0); [lia|]. cbn [option_map]. specialize (L) as L'. pose proof (L i j Hj ltac:(lia) eq_refl) as L0. rewrite Nat.add_0_r in L0. rewrite L0.
    pose proof (L (i - 1) j Hj ltac:(lia) eq_refl) as L2. rewrite Nat.add_0_r in L2. rewrite L2.
    replace (Z.of_nat (i - 1) - 1)%Z with (Z.of_nat i - 1 - 1)%Z by lia. destruct (Nat.eqb_spec j (n - 1)); [reflexivity|]. cbn [option_map].
    pose proof (L i (j + 1) ltac:(lia) ltac:(lia) eq_refl) as L1. rewrite Nat.add_0_r in L1. now rewrite L1.
Qed.
Lemma around_held {A} (c : nat -> A) u i j r : holds m n c u -> i < m + 2 -> j < n -> r < 2 -> (r = 0 -> i < m + 1) -> (r = 1 -> 0 < i) ->
  around rows c (eindex n i j + r) = endless_around n u (Z.of_nat i - 1)%Z j r.
Proof using HB Hm Hn.
  intros H Hi Hj Hr S0 S1. apply around_at; auto; intros; apply H; auto; lia.
Qed.
Lemma view_held {A} (c : nat -> A) u i j r : holds m n c u -> 1 <= i <= m -> j < n -> r < 2 ->
  view rows c (eindex n i j + r) = endless_view n u (Z.of_nat i - 1)%Z j r.
Proof using HB Hm Hn.
  intros H Hi Hj Hr. unfold view, endless_view. apply around_at; try lia.
  - apply around_held; auto; lia.
  - intros. apply around_held; auto; lia.
  - intros. apply around_held; auto; lia.
Qed.

Lemma full_views {A} (c : nat -> A) u : holds m n c u ->
  map (view rows c) (full_triangles (2 * (m + 2) * n) (periodic_recvs m n)) =
  map (fun p => endless_view n u (Z.of_nat (fst (fst p))) (snd (fst p)) (snd p)) (cells m n).
Proof using HB Hm Hn.
  intros H. rewrite full_cells, map_map by assumption. apply map_ext_in. intros [[i j] r] I. apply in_cells in I. unfold number. cbn [fst snd].
  replace (eindex n i j + r + 2 * n) with (eindex n (i + 1) j + r) by (unfold eindex; lia). rewrite (view_held c u) by (assumption || lia). f_equal. lia.
Qed.

Lemma ghosts_held {A} (c : nat -> A) u : repeats m u ->
  (forall i j r, 1 <= i <= m -> j < n -> r < 2 -> c (eindex n i j + r) = u (Z.of_nat i - 1)%Z j r) ->
  holds m n (update_ghosts (periodic_sends m n) (periodic_recvs m n) c) u.
Proof using Hm Hn.
  intros P H i j r Hi Hj Hr. rewrite ghosts_at by assumption. destruct (Nat.eqb_spec i 0) as [-> | N0]; [|destruct (Nat.eqb_spec i (m + 1)) as [-> | N1]].
  - rewrite H by lia. rewrite <- (P (Z.of_nat 0 - 1)%Z). f_equal. lia.
  - rewrite H by lia. rewrite <- (P (Z.of_nat 1 - 1)%Z). f_equal. lia.
  - apply H; lia.
Qed.

Lemma place_number i j r : j < n -> r < 2 -> ((eindex n i j + r) / 2) mod n = j /\ (eindex n i j + r) mod 2 = r.
Proof using Hm Hn.
  intros Hj Hr. unfold eindex. replace (2 * (j + i * n) + r) with (r + (j + i * n) * 2) by lia. split.
  - rewrite Nat.div_add by lia. rewrite Nat.div_small by assumption. cbn [plus]. rewrite Nat.mod_add by lia. now apply Nat.mod_small.
  - rewrite Nat.mod_add by lia. now apply Nat.mod_small.
Qed.
Lemma pass_held {A X} (s : scheme A X) junk c u : repeats m u -> holds m n c u -> holds m n (periodic_pass m n rows s junk c) (endless_pass m n s u).
Proof using HB Hm Hn.
  intros P H. unfold periodic_pass. cbv zeta. rewrite (full_views c u H).
  apply ghosts_held; [now apply endless_pass_repeats|]. intros i j r Hi Hj Hr.
  rewrite flag_at by lia. destruct (Nat.leb_spec 1 i), (Nat.leb_spec i m); try lia. cbn [andb Nat.eqb].
  destruct (place_number i j r Hj Hr) as (-> & ->). unfold endless_pass. cbv zeta. f_equal. now apply view_held.
Qed.
End Strip.

(** A run on the mesh computes what a run on the endless strip computes from the
    repeated initial values: the seam is not felt, whatever the scheme, as long
    as new values depend on no more than neighbours of neighbours, and whatever
    is computed on the ghosts. *)
Theorem C98_seamless : forall A X m n rows (passes : list (scheme A X * (nat -> A))) c u, 1 <= m -> 1 <= n ->
  build_neighbour_structure (st_elements (periodic_mesh m n)) = Some rows ->
  repeats m u -> (forall i j r, 1 <= i <= m -> j < n -> r < 2 -> c (eindex n i j + r) = u (Z.of_nat i - 1)%Z j r) ->
  let v := fold_left (fun u p => endless_pass m n (fst p) u) passes u in
  repeats m v /\ holds m n (periodic_run m n rows passes c) v.
Proof.
  intros A X m n rows passes c u Hm Hn HB P H. unfold periodic_run. pose proof (ghosts_held m n Hm Hn c u P H) as G. revert G. clear H.
  generalize (update_ghosts (periodic_sends m n) (periodic_recvs m n) c). clear c. revert u P.
  induction passes as [|[s junk] passes IH]; intros u P c G; [split; assumption|]. cbn [fold_left fst snd]. apply IH.
  - now apply endless_pass_repeats.
  - now apply pass_held.
Qed.
Print Assumptions C98_seamless.

(** It does not matter where the strip is cut: a run from values moved along by
    [k] columns gives the values moved along by [k] columns, if what all
    triangles are told does not depend on the order of the triangles. *)
Definition moved_along {A} (k : nat) (u : Z -> nat -> nat -> A) : Z -> nat -> nat -> A := fun c => u (c + Z.of_nat k)%Z.
Lemma around_moved {A} n k (u : Z -> nat -> nat -> A) c j r : endless_around n (moved_along k u) c j r = endless_around n u (c + Z.of_nat k)%Z j r.
Proof.
  unfold endless_around, next_to, moved_along. replace (c + Z.of_nat k + 1)%Z with (c + 1 + Z.of_nat k)%Z by lia.
  replace (c + Z.of_nat k - 1)%Z with (c - 1 + Z.of_nat k)%Z by lia.
  destruct r as [|r]; [destruct (j =? 0) | destruct (j =? n - 1)]; reflexivity.
Qed.
Lemma around_ext {A} n (u v : Z -> nat -> nat -> A) c j r : (forall c j r, u c j r = v c j r) -> endless_around n u c j r = endless_around n v c j r.
Proof.
  intros H. unfold endless_around, next_to. destruct r as [|r]; [destruct (j =? 0) | destruct (j =? n - 1)]; cbn [option_map]; rewrite !H; reflexivity.
Qed.
Lemma view_moved {A} n k (u : Z -> nat -> nat -> A) c j r : endless_view n (moved_along k u) c j r = endless_view n u (c + Z.of_nat k)%Z j r.
Proof.
  unfold endless_view. rewrite <- (around_moved n k (endless_around n u)). apply around_ext. intros. apply around_moved.
Qed.
Definition window {B} (f : Z -> nat -> nat -> B) (n : nat) (a : nat) (m : nat) : list B :=
  flat_map (fun i => flat_map (fun j => [f (Z.of_nat i) j 0; f (Z.of_nat i) j 1]) (seq 0 n)) (seq a m).
Lemma window_cells {B} (f : Z -> nat -> nat -> B) m n k :
  map (fun p => f (Z.of_nat (fst (fst p)) + Z.of_nat k)%Z (snd (fst p)) (snd p)) (cells m n) = window f n k m.
Proof.
  induction m as [|m IH]; [reflexivity|]. rewrite cells_S, map_app, IH. unfold window. rewrite seq_S, flat_map_app. f_equal.
  cbn [flat_map]. rewrite app_nil_r. replace (k + m) with (m + k) by lia. rewrite Nat2Z.inj_add. generalize (seq 0 n).
  induction l as [|j l IHl]; [reflexivity|]. cbn [flat_map map app]. now rewrite IHl.
Qed.
Lemma window_moves {B} (f : Z -> nat -> nat -> B) n m : (forall c j r, f (c + Z.of_nat m)%Z j r = f c j r) ->
  forall k, Permutation (window f n k m) (window f n 0 m).
Proof.
  intros P. induction k as [|k IH]; [reflexivity|]. rewrite <- IH. clear IH. destruct m as [|m]; [reflexivity|]. unfold window.
  rewrite (seq_S m (S k)). cbn [seq flat_map]. rewrite flat_map_app. cbn [flat_map]. rewrite app_nil_r.
  replace (flat_map (fun j => [f (Z.of_nat (S k + m)) j 0; f (Z.of_nat (S k + m)) j 1]) (seq 0 n))
    with (flat_map (fun j => [f (Z.of_nat k) j 0; f (Z.of_nat k) j 1]) (seq 0 n)); [apply Permutation_app_comm|].
  replace (Z.of_nat (S k + m)) with (Z.of_nat k + Z.of_nat (S m))%Z by lia. generalize (seq 0 n).
  induction l as [|j l IHl]; [reflexivity|]. cbn [flat_map]. now rewrite IHl, !P.
Qed.
Theorem C98_cut : forall A X m n (passes : list (scheme A X)) k u, repeats m u ->
  (forall s l l', In s passes -> Permutation l l' -> globally s l = globally s l') ->
  forall c j r, fold_left (fun u s => endless_pass m n s u) passes (moved_along k u) c j r =
                moved_along k (fold_left (fun u s => endless_pass m n s u) passes u) c j r.
Proof.
  intros A X m n passes k.
  assert (G : forall (passes : list (scheme A X)) u v, repeats m u -> (forall s l l', In s passes -> Permutation l l' -> globally s l = globally s l') ->
    (forall c j r, v c j r = moved_along k u c j r) ->
    forall c j r, fold_left (fun u s => endless_pass m n s u) passes v c j r = moved_along k (fold_left (fun u s => endless_pass m n s u) passes u) c j r).
  { clear passes. induction passes as [|s passes IH]; intros u v P Q E; [exact E|]. cbn [fold_left]. apply IH.
    - now apply endless_pass_repeats.
    - intros. apply Q; [now right | assumption].
    - intros c j r. unfold moved_along at 1, endless_pass. cbv zeta.
      assert (EV : forall c j r, endless_view n v c j r = endless_view n u (c + Z.of_nat k)%Z j r).
      { intros c' j' r'. rewrite <- view_moved. unfold endless_view. apply around_ext. intros. apply around_ext. exact E. }
      rewrite EV. f_equal. apply (Q s); [now left|].
      rewrite (map_ext _ _ (fun p => EV (Z.of_nat (fst (fst p))) (snd (fst p)) (snd p))). rewrite (window_cells (endless_view n u)).
      rewrite <- (map_ext (fun p => endless_view n u (Z.of_nat (fst (fst p)) + Z.of_nat 0)%Z (snd (fst p)) (snd p))) by (intros p; now rewrite Z.add_0_r).
      rewrite (window_cells (endless_view n u)). apply window_moves. unfold endless_view.
      apply (endless_around_repeats m n), (endless_around_repeats m n), P. }
  intros u P Q. now apply G.
Qed.
Print Assumptions C98_cut.

(** ** Conservation

    A scheme that changes the amount [w] of a quantity by what passes through
    the edges: [gain x j r e a b] is what a triangle in row [j] of kind [r] gets
    through its edge [e]; what one side gets, the other loses. *)
Record flux_form {A X} (w : A -> R) (s : scheme A X) (gain : X -> nat -> nat -> nat -> around_of A -> option (around_of A) -> R) : Prop := {
  ff_rule : forall x j r V, w (rule s x j r V) =
    (w (fst (fst V)) + gain x j r 0%nat (fst V) (fst (fst (snd V))) + gain x j r 1%nat (fst V) (snd (fst (snd V))) + gain x j r 2%nat (fst V) (snd (snd V)))%R;
  ff_diagonal : forall x j a b, (gain x j 0%nat 0%nat a (Some b) + gain x j 1%nat 0%nat b (Some a) = 0)%R;
  ff_row : forall x j a b, (gain x (S j)%nat 0%nat 1%nat a (Some b) + gain x j 1%nat 1%nat b (Some a) = 0)%R;
  ff_column : forall x j a b, (gain x j 0%nat 2%nat a (Some b) + gain x j 1%nat 2%nat b (Some a) = 0)%R }.

Lemma Rsum_flat {A B} (f : B -> R) (g : A -> list B) l : Rsum (map f (flat_map g l)) = Rsum (map (fun a => Rsum (map f (g a))) l).
Proof. induction l as [|a l IH]; [reflexivity|]. cbn [flat_map map Rsum]. now rewrite map_app, Rsum_app, IH. Qed.
Lemma Rsum_plus_map {A} (f g : A -> R) l : (Rsum (map (fun a => f a + g a) l) = Rsum (map f l) + Rsum (map g l))%R.
Proof. induction l as [|a l IH]; cbn [map Rsum]; [lra|]. rewrite IH. lra. Qed.

Lemma cells_sum m n (f : nat * nat * nat -> R) :
  Rsum (map f (cells m n)) = Rsum (map (fun i => Rsum (map (fun j => (f (i, j, 0%nat) + f (i, j, 1%nat))%R) (seq 0 n))) (seq 0 m)).
Proof.
  induction m as [|m IH]; [reflexivity|]. rewrite cells_S, map_app, Rsum_app, IH, seq_S, map_app, Rsum_app. f_equal. cbn [map Rsum plus].
  rewrite Rsum_flat, Rplus_0_r. f_equal. apply map_ext. intros j. cbn. lra.
Qed.

Section Telescope.
Context {A X : Type}.
Variables (m n : nat) (w : A -> R) (s : scheme A X) (gain : X -> nat -> nat -> nat -> around_of A -> option (around_of A) -> R).
Hypothesis FF : flux_form w s gain.
Hypothesis Hn : 1 <= n.
Variables (u : Z -> nat -> nat -> A) (x : X).
Hypothesis P : repeats m u.
Let a (c : Z) (j r : nat) := endless_around n u c j r.
Let h (c : Z) (j : nat) : R := gain x j 0%nat 2%nat (a c j 0%nat) (Some (a (c + 1)%Z j 1%nat)).

Lemma cell_change c j : j < n ->
  (w (rule s x j 0 (endless_view n u c j 0)) + w (rule s x j 1 (endless_view n u c j 1)) =
   w (u c j 0%nat) + w (u c j 1%nat)
   + gain x j 0%nat 1%nat (a c j 0%nat) (if (j =? 0)%nat then None else Some (a c (j - 1)%nat 1%nat))
   + gain x j 1%nat 1%nat (a c j 1%nat) (if (j =? n - 1)%nat then None else Some (a c (j + 1)%nat 0%nat))
   + (h c j - h (c - 1)%Z j))%R.
Proof using FF Hn.
  intros Hj. rewrite !(ff_rule _ _ _ FF). unfold endless_view. cbn [endless_around fst snd next_to option_map].
  pose proof (ff_diagonal _ _ _ FF x j (a c j 0%nat) (a c j 1%nat)) as D. pose proof (ff_column _ _ _ FF x j (a (c - 1)%Z j 0%nat) (a c j 1%nat)) as C.
  unfold h. replace (c - 1 + 1)%Z with c by lia. unfold a in *. 
  change (fst (endless_around n (endless_around n u) c j 0)) with (endless_around n u c j 0).
  change (fst (endless_around n (endless_around n u) c j 1)) with (endless_around n u c j 1).
  cbn [endless_around] in *. 
  destruct (j =? 0), (j =? n - 1); cbn [option_map]; lra.
Qed.
Lemma column_change c : forall k, 1 <= k <= n ->
  (Rsum (map (fun j => w (rule s x j 0 (endless_view n u c j 0)) + w (rule s x j 1 (endless_view n u c j 1))) (seq 0 k)) =
   Rsum (map (fun j => w (u c j 0%nat) + w (u c j 1%nat)) (seq 0 k)) + gain x 0%nat 0%nat 1%nat (a c 0%nat 0%nat) None
   + gain x (k - 1)%nat 1%nat 1%nat (a c (k - 1)%nat 1%nat) (if (k - 1 =? n - 1)%nat then None else Some (a c k 0%nat))
   + (Rsum (map (h c) (seq 0 k)) - Rsum (map (h (c - 1)%Z) (seq 0 k))))%R.
Proof using FF Hn.
  induction k as [|k IH]; [lia|]. intros Hk. destruct (Nat.eq_dec k 0) as [-> | N].
  - cbn [seq map Rsum]. rewrite cell_change by lia. cbn [Nat.eqb Nat.sub plus]. lra.
  - rewrite seq_S, !map_app, !Rsum_app, IH by lia. cbn [map Rsum plus]. rewrite cell_change by lia.
    destruct (Nat.eqb_spec k 0); [lia|]. destruct (Nat.eqb_spec (k - 1) (n - 1)); [lia|]. replace (S k - 1) with k by lia. replace (k + 1) with (S k) by lia.
    pose proof (ff_row _ _ _ FF x (k - 1) (a c k 0%nat) (a c (k - 1)%nat 1%nat)) as E. replace (S (k - 1)) with k in E by lia. lra.
Qed.
Lemma strip_change : forall k,
  (Rsum (map (fun i => Rsum (map (fun j => w (rule s x j 0 (endless_view n u (Z.of_nat i) j 0)) + w (rule s x j 1 (endless_view n u (Z.of_nat i) j 1))) (seq 0 n))) (seq 0 k)) =
   Rsum (map (fun i => Rsum (map (fun j => w (u (Z.of_nat i) j 0%nat) + w (u (Z.of_nat i) j 1%nat)) (seq 0 n))) (seq 0 k))
   + Rsum (map (fun i => gain x 0%nat 0%nat 1%nat (a (Z.of_nat i) 0%nat 0%nat) None + gain x (n - 1)%nat 1%nat 1%nat (a (Z.of_nat i) (n - 1)%nat 1%nat) None) (seq 0 k))
   + (Rsum (map (h (Z.of_nat k - 1)%Z) (seq 0 n)) - Rsum (map (h (-1)%Z) (seq 0 n))))%R.
Proof using FF Hn.
  induction k as [|k IH]; [cbn [seq map Rsum]; replace (Z.of_nat 0 - 1)%Z with (-1)%Z by lia; lra|].
  rewrite seq_S, !map_app, !Rsum_app, IH. cbn [map Rsum plus]. rewrite (column_change (Z.of_nat k) n) by lia. rewrite Nat.eqb_refl.
  replace (Z.of_nat (S k) - 1)%Z with (Z.of_nat k) by lia. lra.
Qed.
Lemma strip_total :
  (Rsum (map (fun i => Rsum (map (fun j => w (rule s x j 0 (endless_view n u (Z.of_nat i) j 0)) + w (rule s x j 1 (endless_view n u (Z.of_nat i) j 1))) (seq 0 n))) (seq 0 m)) =
   Rsum (map (fun i => Rsum (map (fun j => w (u (Z.of_nat i) j 0%nat) + w (u (Z.of_nat i) j 1%nat)) (seq 0 n))) (seq 0 m))
   + Rsum (map (fun i => gain x 0%nat 0%nat 1%nat (a (Z.of_nat i) 0%nat 0%nat) None + gain x (n - 1)%nat 1%nat 1%nat (a (Z.of_nat i) (n - 1)%nat 1%nat) None) (seq 0 m)))%R.
Proof using FF Hn P.
  rewrite strip_change.
  assert (E : map (h (Z.of_nat m - 1)%Z) (seq 0 n) = map (h (-1)%Z) (seq 0 n)).
  { apply map_ext. intros j. unfold h, a. replace (Z.of_nat m - 1)%Z with (-1 + Z.of_nat m)%Z by lia.
    replace (-1 + Z.of_nat m + 1)%Z with (-1 + 1 + Z.of_nat m)%Z by lia. now rewrite !(endless_around_repeats m n u P). }
  rewrite E. lra.
Qed.
End Telescope.

(** A pass changes the total over the full triangles by what comes in through
    the bottom and the top, and by nothing else: what leaves at one end of the
    rectangle comes in at the other.  (All triangles have the same area.) *)
Theorem C98_conserved : forall A X m n rows (s : scheme A X) w gain junk c, 1 <= m -> 1 <= n ->
  build_neighbour_structure (st_elements (periodic_mesh m n)) = Some rows -> flux_form w s gain ->
  (forall T, T < 2 * (m + 2) * n -> update_ghosts (periodic_sends m n) (periodic_recvs m n) c T = c T) ->
  let full := full_triangles (2 * (m + 2) * n) (periodic_recvs m n) in
  let x := globally s (map (view rows c) full) in
  (Rsum (map (fun T => w (periodic_pass m n rows s junk c T)) full) =
   Rsum (map (fun T => w (c T)) full) +
   Rsum (map (fun i => gain x 0%nat 0%nat 1%nat (around rows c (eindex n (i + 1) 0)) None +
                       gain x (n - 1)%nat 1%nat 1%nat (around rows c (eindex n (i + 1) (n - 1) + 1)) None) (seq 0 m)))%R.
Proof.
  intros A X m n rows s w gain junk c Hm Hn HB FF HG full x.
  set (u := fun (z : Z) (j r : nat) => c (eindex n (Z.to_nat (z mod Z.of_nat m) + 1) j + r)).
  assert (P : repeats m u).
  { intros z j r. unfold u. replace (z + Z.of_nat m)%Z with (z + 1 * Z.of_nat m)%Z by lia. rewrite Z.mod_add by lia. reflexivity. }
  assert (H : holds m n c u).
  { intros i j r Hi Hj Hr. rewrite <- HG by (now apply eindex_lt). apply (ghosts_held m n Hm Hn c u P); auto. intros i' j' r' Hi' Hj' Hr'. unfold u.
    rewrite Z.mod_small by lia. do 2 f_equal. f_equal. lia. }
  assert (EX : x = globally s (map (fun p => endless_view n u (Z.of_nat (fst (fst p))) (snd (fst p)) (snd p)) (cells m n))).
  { unfold x. f_equal. unfold full. now apply full_views. }
  assert (HP := pass_held m n rows Hm Hn HB s junk c u P H).
  assert (S1 : forall (d : nat -> A) v, holds m n d v -> Rsum (map (fun T => w (d T)) full) =
    Rsum (map (fun i => Rsum (map (fun j => (w (v (Z.of_nat i) j 0%nat) + w (v (Z.of_nat i) j 1%nat))%R) (seq 0 n))) (seq 0 m))).
  { intros d v HD. unfold full. rewrite full_cells, map_map by assumption.
    rewrite (map_ext_in _ (fun p => w (v (Z.of_nat (fst (fst p))) (snd (fst p)) (snd p)))).
    - apply (cells_sum m n (fun p => w (v (Z.of_nat (fst (fst p))) (snd (fst p)) (snd p)))).
    - intros [[i j] r] I. apply in_cells in I. unfold number. cbn [fst snd].
      replace (eindex n i j + r + 2 * n) with (eindex n (i + 1) j + r) by (unfold eindex; lia). rewrite HD by lia. do 2 f_equal. lia. }
  rewrite (S1 _ _ HP), (S1 _ _ H).
  pose proof (strip_total m n w s gain FF Hn u x P) as ST. unfold endless_pass. cbv zeta. rewrite <- EX, ST. f_equal.
  f_equal. apply map_ext_in. intros i I. apply in_seq in I.
  pose proof (around_held m n rows Hm Hn HB c u (i + 1) 0 0 H ltac:(lia) ltac:(lia) ltac:(lia) ltac:(lia) ltac:(lia)) as E0.
  pose proof (around_held m n rows Hm Hn HB c u (i + 1) (n - 1) 1 H ltac:(lia) ltac:(lia) ltac:(lia) ltac:(lia) ltac:(lia)) as E1.
  rewrite Nat.add_0_r in E0. rewrite E0, E1. replace (Z.of_nat (i + 1) - 1)%Z with (Z.of_nat i) by lia. reflexivity.
Qed.
Print Assumptions C98_conserved.

(** ** Both directions: rectangular_periodic of parallel_meshes.py

    Its points, triangles and outer edges are those of [rectangular]. *)
Lemma rect_corners m n l1 l2 o i j r : i < m -> j < n -> r < 2 ->
  let P i j := grid_point m n l1 l2 o (i, j) in
  corners (rectangular_points m n l1 l2 o) (fst (rectangular_mesh m n)) (eindex n i j + r) =
  if r =? 0 then [P (i + 1) j; P (i + 1) (j + 1); P i j] else [P i (j + 1); P i j; P (i + 1) (j + 1)].
Proof.
  intros Hi Hj Hr P. unfold corners. destruct (rectangular_points_spec m n l1 l2 o) as (_ & NP).
  assert (PT : forall i j, i <= m -> j <= n -> pt (rectangular_points m n l1 l2 o) (index n i j) = P i j).
  { intros i' j' Hi' Hj'. unfold pt. now rewrite (nth_error_nth _ _ _ (NP i' j' Hi' Hj')). }
  destruct r as [|[|r]]; [| |lia].
  - replace (nth_error _ _) with (Some (index n (i + 1) j, index n (i + 1) (j + 1), index n i j)).
    2:{ symmetry. apply rect_element. exists i, j, 0. repeat split; try lia. unfold eindex. lia. }
    cbn [Nat.eqb]. rewrite !PT by lia. reflexivity.
  - replace (nth_error _ _) with (Some (index n i (j + 1), index n i j, index n (i + 1) (j + 1))).
    2:{ symmetry. apply rect_element. exists i, j, 1. repeat split; try lia. unfold eindex. lia. }
    cbn [Nat.eqb]. rewrite !PT by lia. reflexivity.
Qed.
Definition wrap (k i : nat) : nat := if i =? 0 then k - 2 else if i =? k - 1 then 1 else i.
Definition inner (k i : nat) : bool := (1 <=? i) && (i <=? k - 2).
Lemma wrap_inner k i : 3 <= k -> i < k -> inner k (wrap k i) = true.
Proof.
  intros H1 H2. unfold inner, wrap. destruct (Nat.eqb_spec i 0); [|destruct (Nat.eqb_spec i (k - 1))];
    match goal with |- (?a <=? ?b) && (?c <=? ?d) = true => destruct (Nat.leb_spec a b), (Nat.leb_spec c d); cbn; try reflexivity; lia end.
Qed.
Lemma wrap_grid m n l1 l2 o i j : 3 <= m -> 3 <= n -> i < m -> j < n ->
  let L k l := (l * INR (k - 2) / INR k)%R in
  exists a b, In a [0; L m l1; - L m l1]%R /\ In b [0; L n l2; - L n l2]%R /\
  forall i' j', i' <= 1 -> j' <= 1 ->
  grid_point m n l1 l2 o (wrap m i + i', wrap n j + j') = moved a b (grid_point m n l1 l2 o (i + i', j + j')).
Proof.
  intros Hm Hn Hi Hj L.
  assert (G : forall k l x i0, 3 <= k -> i0 < k -> exists a, In a [0; L k l; - L k l]%R /\
    forall i', (INR (wrap k i0 + i') * (l / INR k) + x = INR (i0 + i') * (l / INR k) + x + a)%R).
  { intros k l x i0 Hk Hi0. assert (0 < INR k)%R by (apply INR_pos; lia). unfold wrap.
    destruct (Nat.eqb_spec i0 0) as [-> | N0]; [|destruct (Nat.eqb_spec i0 (k - 1)) as [-> | N1]].
    - exists (L k l). split; [cbn; auto|]. intros. unfold L. rewrite !plus_INR. cbn [INR]. field. lra.
    - exists (- L k l)%R. split; [cbn; auto|]. intros. unfold L. rewrite !plus_INR, !minus_INR by lia. cbn [INR]. field. lra.
    - exists 0%R. split; [cbn; auto|]. intros. lra. }
  destruct (G m l1 (fst o) i Hm Hi) as (a & Ia & Ea). destruct (G n l2 (snd o) j Hn Hj) as (b & Ib & Eb).
  exists a, b. repeat split; auto. intros i' j' _ _. unfold grid_point, moved. cbn [fst snd]. now rewrite Ea, Eb.
Qed.
Lemma eindexZ_nat n i j r : (eindexZ (Z.of_nat n) (Z.of_nat i) (Z.of_nat j) + Z.of_nat r)%Z = Z.of_nat (eindex n i j + r).
Proof. unfold eindexZ, eindex. lia. Qed.

Lemma both_at m n i j r : 3 <= m -> 3 <= n -> i < m -> j < n -> r < 2 ->
  ghosts_both m n (Z.of_nat (eindex n i j + r)) =
  if inner m i && inner n j then None else Some (Z.of_nat (eindex n (wrap m i) (wrap n j) + r)).
Proof.
  intros Hm Hn Hi Hj Hr. rewrite <- !eindexZ_nat. unfold ghosts_both. cbv zeta.
  rewrite !wrap_corner_at by lia. rewrite wrap_cells_at by lia. unfold wrapped, inner, wrap. cbn [andb].
  destruct (Nat.leb_spec 1 i), (Nat.leb_spec i (m - 2)), (Nat.leb_spec 1 j), (Nat.leb_spec j (n - 2));
  destruct (Nat.eqb_spec i 0), (Nat.eqb_spec i (m - 1)), (Nat.eqb_spec j 0), (Nat.eqb_spec j (n - 1)); try lia;
  destruct (Z.eqb_spec (Z.of_nat i) 0), (Z.eqb_spec (Z.of_nat i) (Z.of_nat m - 1)), (Z.eqb_spec (Z.of_nat j) 0), (Z.eqb_spec (Z.of_nat j) (Z.of_nat n - 1));
  try lia; cbn [andb]; try reflexivity; do 2 f_equal; unfold eindexZ; nia.
Qed.
(** With at least three cells in each direction, the ghosts are the triangles of
    the outer ring of cells, and the entry of each is the triangle in the same
    place one period further, which is not a ghost. *)
Theorem C98_both : forall m n len1 len2 origin i j r, 3 <= m -> 3 <= n -> i < m -> j < n -> r < 2 ->
  let place := corners (rectangular_points m n len1 len2 origin) (fst (rectangular_mesh m n)) in
  let L k l := (l * INR (k - 2) / INR k)%R in
  let T := eindex n i j + r in
  match ghosts_both m n (Z.of_nat T) with
  | None => 1 <= i <= m - 2 /\ 1 <= j <= n - 2
  | Some t => ~ (1 <= i <= m - 2 /\ 1 <= j <= n - 2) /\
      exists T' a b, t = Z.of_nat T' /\ T' < 2 * m * n /\ ghosts_both m n (Z.of_nat T') = None /\
      In a [0; L m len1; - L m len1]%R /\ In b [0; L n len2; - L n len2]%R /\ place T' = map (moved a b) (place T)
  end.
Proof.
  intros m n l1 l2 o i j r Hm Hn Hi Hj Hr place L T. unfold T. rewrite both_at by assumption.
  pose proof (wrap_inner m i Hm Hi) as W1. pose proof (wrap_inner n j Hn Hj) as W2.
  assert (B1 : wrap m i < m) by (unfold wrap; destruct (i =? 0), (i =? m - 1); lia).
  assert (B2 : wrap n j < n) by (unfold wrap; destruct (j =? 0), (j =? n - 1); lia).
  destruct (inner m i && inner n j) eqn:E.
  - apply andb_true_iff in E. unfold inner in E. rewrite !andb_true_iff, !Nat.leb_le in E. tauto.
  - split.
    + intros ((K1 & K2) & (K3 & K4)). unfold inner in E. apply Nat.leb_le in K1, K2, K3, K4. rewrite K1, K2, K3, K4 in E. discriminate.
    + destruct (wrap_grid m n l1 l2 o i j) as (a & b & Ia & Ib & G); auto.
      exists (eindex n (wrap m i) (wrap n j) + r), a, b. split; [reflexivity|]. split; [now apply eindex_lt|]. split.
      { rewrite both_at by assumption. now rewrite W1, W2. }
      split; [exact Ia|]. split; [exact Ib|]. unfold place. rewrite !rect_corners by assumption.
      pose proof (G 0 0 ltac:(lia) ltac:(lia)) as G00. pose proof (G 1 0 ltac:(lia) ltac:(lia)) as G10.
      pose proof (G 0 1 ltac:(lia) ltac:(lia)) as G01. pose proof (G 1 1 ltac:(lia) ltac:(lia)) as G11. rewrite !Nat.add_0_r in *.
      destruct (r =? 0); cbn [map]; congruence.
Qed.
Print Assumptions C98_both.

(** [rectangular_periodic_lr] *)
Theorem C98_left_right : forall m n i j r, 3 <= m -> i < m -> j < n -> r < 2 ->
  ghosts_lr m n (Z.of_nat (eindex n i j + r)) =
  if i =? 0 then Some (Z.of_nat (eindex n (m - 2) j + r))
  else if i =? m - 1 then Some (Z.of_nat (eindex n 1 j + r)) else None.
Proof.
  intros m n i j r Hm Hi Hj Hr. rewrite <- !eindexZ_nat. unfold ghosts_lr. rewrite wrap_cells_at by lia. unfold wrapped. cbn [andb].
  destruct (Nat.eqb_spec i 0), (Nat.eqb_spec i (m - 1)), (Z.eqb_spec (Z.of_nat i) 0), (Z.eqb_spec (Z.of_nat i) (Z.of_nat m - 1)); try lia;
    try reflexivity; do 2 f_equal; unfold eindexZ; nia.
Qed.
Print Assumptions C98_left_right.

(** With two columns a ghost is its own source, with one column the source is
    no triangle at all; neither is reported. *)
Theorem C98_narrow_refuted :
  (forall n j r, 3 <= n -> 1 <= j <= n - 2 -> r < 2 ->
     ghosts_both 2 n (Z.of_nat (eindex n 0 j + r)) = Some (Z.of_nat (eindex n 0 j + r))) /\
  (forall n j r, 3 <= n -> 1 <= j <= n - 2 -> r < 2 ->
     exists t, ghosts_both 1 n (Z.of_nat (eindex n 0 j + r)) = Some t /\ (t < 0)%Z).
Proof.
  split.
  - intros n j r Hn Hj Hr. rewrite <- eindexZ_nat. unfold ghosts_both. cbv zeta. rewrite !wrap_corner_at by lia. rewrite wrap_cells_at by lia.
    unfold wrapped. cbn [andb]. destruct (Z.eqb_spec (Z.of_nat j) 0), (Z.eqb_spec (Z.of_nat j) (Z.of_nat n - 1)); try lia. reflexivity.
  - intros n j r Hn Hj Hr. rewrite <- eindexZ_nat. unfold ghosts_both. cbv zeta. rewrite !wrap_corner_at by lia. rewrite wrap_cells_at by lia.
    unfold wrapped. cbn [andb]. destruct (Z.eqb_spec (Z.of_nat j) 0), (Z.eqb_spec (Z.of_nat j) (Z.of_nat n - 1)); try lia. cbn [andb Z.eqb Z.of_nat].
    eexists. split; [reflexivity|]. unfold eindexZ. nia.
Qed.
Print Assumptions C98_narrow_refuted.

(** The mesh of mesh_factory.py does not have the m+1 by n+1 points and the
    side lengths that its description promises. *)
Theorem C98_description_refuted : forall m n len1 len2 origin, 1 <= m -> 1 <= n -> (0 < len1)%R -> (0 < len2)%R ->
  length (periodic_points m n len1 len2 origin) <> (m + 1) * (n + 1) /\
  (total_area (periodic_points m n len1 len2 origin) (st_elements (periodic_mesh m n)) = (len1 + 2 * (len1 / INR m)) * len2)%R.
Proof.
  intros m n l1 l2 o Hm Hn H1 H2. pose proof (INR_pos m Hm) as Pm. pose proof (INR_pos n Hn) as Pn.
  destruct (C98_mesh m n l1 l2 o Hm Hn H1 H2) as (sides & _ & RM & LP & LE & _). split.
  - rewrite LP. nia.
  - rewrite (total_area_const _ _ _ _ _ _ _ RM), LE, !mult_INR, plus_INR. cbn [INR]. field. split; lra.
Qed.
Print Assumptions C98_description_refuted.

(** ** Several processes: parallel_rectangle *)

(** The function fails whatever its arguments: [balance] does not exist. *)
Theorem C98_balance_refuted : forall numprocs myid m n len1 len2 origin,
  parallel_rectangle abstraction_balance numprocs myid m n len1 len2 origin = None.
Proof. reflexivity. Qed.
Print Assumptions C98_balance_refuted.

(** With a [balance] that cuts the columns into consecutive parts, the lists of
    all pairs of processes would fit: what is sent for a ghost is the triangle
    in the same row in the column of the same number, up to the period. *)
Definition consecutive (P m_g : nat) (f : nat -> nat -> nat -> Z * Z) : Prop :=
  fst (f m_g P 0) = 0%Z /\ snd (f m_g P (P - 1)) = Z.of_nat m_g /\
  (forall p, p + 1 < P -> snd (f m_g P p) = fst (f m_g P (p + 1))) /\
  (forall p, p < P -> (fst (f m_g P p) < snd (f m_g P p))%Z).

Definition same_triangle (m_g n : nat) (lo_p lo_q : Z) (g t : nat) (w_p w_q : nat) : Prop :=
  exists i i' j r, j < n /\ r < 2 /\ g = eindex n i j + r /\ t = eindex n i' j + r /\
    (i = 0 \/ i = w_p + 1) /\ 1 <= i' <= w_q /\
    exists k, (lo_p - 1 + Z.of_nat i = lo_q - 1 + Z.of_nat i' + k * Z.of_nat m_g)%Z.

Lemma columns_fit m_g n lo_p lo_q w_p w_q c c' : (c = 0 \/ c = w_p + 1) -> 1 <= c' <= w_q ->
  (exists k, (lo_p - 1 + Z.of_nat c = lo_q - 1 + Z.of_nat c' + k * Z.of_nat m_g)%Z) ->
  Forall2 (fun g t => same_triangle m_g n lo_p lo_q g t w_p w_q) (seq (2 * n * c) (2 * n)) (seq (2 * n * c') (2 * n)).
Proof.
  intros Hc Hc' K. rewrite <- !column_numbers. unfold number.
  assert (G : forall l, (forall j, In j l -> j < n) ->
    Forall2 (fun g t => same_triangle m_g n lo_p lo_q g t w_p w_q)
      (map (fun p => eindex n (fst (fst p)) (snd (fst p)) + snd p) (flat_map (fun j => [(c, j, 0); (c, j, 1)]) l))
      (map (fun p => eindex n (fst (fst p)) (snd (fst p)) + snd p) (flat_map (fun j => [(c', j, 0); (c', j, 1)]) l))).
  { induction l as [|j l IH]; intros H; [constructor|]. cbn [flat_map map app fst snd]. constructor; [|constructor; [|apply IH; intros; apply H; now right]].
    - exists c, c', j, 0. repeat split; auto; [apply H; now left | lia | lia].
    - exists c, c', j, 1. repeat split; auto; [apply H; now left | lia | lia]. }
  apply G. intros j I. apply in_seq in I. lia.
Qed.

Theorem C98_parallel_partial : forall f P p m n len1 len2 origin, p < P -> consecutive P m f ->
  exists share, parallel_rectangle (Some f) P p m n len1 len2 origin = Some share /\
  let w p := Z.to_nat (snd (f m P p) - fst (f m P p)) in
  (forall q g, In (q, g) (sh_recvs share) -> q < P /\
     exists share' t, parallel_rectangle (Some f) P q m n len1 len2 origin = Some share' /\ In (p, t) (sh_sends share') /\
     Forall2 (fun g t => same_triangle m n (fst (f m P p)) (fst (f m P q)) g t (w p) (w q)) g t) /\
  Permutation (concat (map snd (sh_recvs share))) (seq 0 (2 * n) ++ seq (2 * n * (w p + 1)) (2 * n)).
Proof.
  intros f P p m n l1 l2 o Hp (C0 & C1 & C2 & C3). 
  set (w := fun p => Z.to_nat (snd (f m P p) - fst (f m P p))).
  assert (W : forall p, p < P -> Z.of_nat (w p) = (snd (f m P p) - fst (f m P p))%Z /\ 1 <= w p).
  { intros p' H. specialize (C3 p' H). unfold w. lia. }
  (* the lists of a process *)
  set (gl := fun _ : nat => seq 0 (2 * n)). set (fl := fun _ : nat => seq (2 * n * 1) (2 * n)).
  set (fr := fun p => seq (2 * n * w p) (2 * n)). set (gr := fun p => seq (2 * n * (w p + 1)) (2 * n)).
  assert (SH : forall p, p < P -> exists sh, parallel_rectangle (Some f) P p m n l1 l2 o = Some sh /\
    (let prev := (p + (P - 1)) mod P in let next := (p + 1) mod P in
     (sh_sends sh, sh_recvs sh) =
     if P =? 1 then ([(p, fl p ++ fr p)], [(p, gr p ++ gl p)])
     else if P =? 2 then ([(prev, fl p ++ fr p)], [(prev, gr p ++ gl p)])
     else (set_key [(prev, fl p)] next (fr p), set_key [(prev, gl p)] next (gr p)))).
  { intros p' H. destruct (W p' H) as (W1 & W2). unfold parallel_rectangle. destruct (f m P p') as (lo, hi) eqn:E. cbn [fst snd] in *.
    assert (EM : Z.to_nat (hi + 1 - (lo - 1)) = w p' + 2) by (unfold w; rewrite E; cbn [fst snd]; unfold w in W1; rewrite E in W1; cbn [fst snd] in W1; lia).
    rewrite EM. match goal with |- context [strip_mesh ?a ?b ?c ?d] => destruct (strip_lists a b c d) as (E1 & E2 & E3 & E4); [lia|] end.
    rewrite E1, E2, E3, E4. replace (w p' + 2 - 2) with (w p') by lia. replace (w p' + 2 - 1) with (w p' + 1) by lia.
    unfold gl, fl, fr, gr. rewrite Nat.mul_1_r.
    destruct (P =? 1); [|destruct (P =? 2)]; eexists; (split; [reflexivity|]); reflexivity. }
  (* columns of neighbouring processes *)
  assert (NX : forall p, p < P -> exists k, (snd (f m P p) = fst (f m P ((p + 1) mod P)%nat) + k * Z.of_nat m)%Z).
  { intros p' H. destruct (Nat.eq_dec (p' + 1) P) as [E | N].
    - rewrite E, Nat.mod_same by lia. exists 1%Z. rewrite C0. replace p' with (P - 1) by lia. lia.
    - rewrite Nat.mod_small by lia. exists 0%Z. rewrite (C2 p') by lia. lia. }
  assert (NPL : forall p, p < P -> (p + 1) mod P < P) by (intros; apply Nat.mod_upper_bound; lia).
  assert (PPL : forall p, p < P -> (p + (P - 1)) mod P < P) by (intros; apply Nat.mod_upper_bound; lia).
  assert (NP : forall p, p < P -> ((p + (P - 1)) mod P + 1) mod P = p).
  { intros p' H. rewrite Nat.add_mod_idemp_l by lia. replace (p' + (P - 1) + 1) with (p' + 1 * P) by lia. rewrite Nat.mod_add by lia. now apply Nat.mod_small. }
  assert (PN : forall p, p < P -> ((p + 1) mod P + (P - 1)) mod P = p).
  { intros p' H. rewrite Nat.add_mod_idemp_l by lia. replace (p' + 1 + (P - 1)) with (p' + 1 * P) by lia. rewrite Nat.mod_add by lia. now apply Nat.mod_small. }
  (* right ghosts of p are the left full triangles of the next process, and the other way round *)
  assert (RG : forall p, p < P -> let q := (p + 1) mod P in
    Forall2 (fun g t => same_triangle m n (fst (f m P p)) (fst (f m P q)) g t (w p) (w q)) (gr p) (fl q)).
  { intros p' H q. unfold gr, fl. destruct (W p' H) as (W1 & W2). destruct (W q (NPL p' H)) as (W3 & W4). apply columns_fit; [now right | lia|].
    destruct (NX p' H) as (k & E). exists k. fold q in E. lia. }
  assert (LG : forall p, p < P -> let q := (p + (P - 1)) mod P in
    Forall2 (fun g t => same_triangle m n (fst (f m P p)) (fst (f m P q)) g t (w p) (w q)) (gl p) (fr q)).
  { intros p' H q. unfold gl, fr. destruct (W q (PPL p' H)) as (W3 & W4). replace (seq 0 (2 * n)) with (seq (2 * n * 0) (2 * n)) by (f_equal; lia).
    apply columns_fit; [now left | lia|]. destruct (NX q (PPL p' H)) as (k & E). unfold q in E at 2. rewrite (NP p' H) in E. exists (- k)%Z. lia. }
  destruct (SH p Hp) as (sh & E & D). exists sh. split; [exact E|]. cbv zeta in *. fold w. 
  destruct (Nat.eqb_spec P 1) as [P1 | N1]; [|destruct (Nat.eqb_spec P 2) as [P2 | N2]].
  - injection D as DS DR. rewrite DR. split.
    + intros q g [I | []]. injection I as <- <-. split; [assumption|]. exists sh, (fl p ++ fr p). split; [exact E|]. split; [rewrite DS; now left|].
      assert (EP : p = 0) by lia. pose proof (RG p Hp) as A1. pose proof (LG p Hp) as A2. cbv zeta in A1, A2.
      replace ((p + 1) mod P) with p in A1 by (rewrite P1, EP; reflexivity). replace ((p + (P - 1)) mod P) with p in A2 by (rewrite P1, EP; reflexivity).
      now apply Forall2_app.
    + cbn [map concat snd]. rewrite app_nil_r. apply Permutation_app_comm.
  - injection D as DS DR. rewrite DR. split.
    + intros q g [I | []]. injection I as <- <-. split; [now apply PPL|]. set (q := (p + (P - 1)) mod P). destruct (SH q (PPL p Hp)) as (sh' & E' & D').
      exists sh', (fl q ++ fr q). split; [exact E'|]. assert (EQ : (q + (P - 1)) mod P = p).
      { unfold q. rewrite P2. destruct p as [|[|p]]; [reflexivity | reflexivity | lia]. }
      destruct (Nat.eqb_spec P 1); [lia|]. destruct (Nat.eqb_spec P 2); [|lia]. injection D' as DS' DR'. split; [rewrite DS', EQ; now left|].
      pose proof (RG p Hp) as A1. pose proof (LG p Hp) as A2. cbv zeta in A1, A2.
      replace ((p + 1) mod P) with q in A1 by (unfold q; rewrite P2; destruct p as [|[|p]]; [reflexivity | reflexivity | lia]).
      now apply Forall2_app.
    + cbn [map concat snd]. rewrite app_nil_r. apply Permutation_app_comm.
  - assert (NE : forall p, p < P -> (p + (P - 1)) mod P <> (p + 1) mod P).
    { intros p' H K. pose proof (NP p' H) as K1. rewrite K in K1. rewrite Nat.add_mod_idemp_l in K1 by lia.
      destruct (Nat.lt_ge_cases (p' + 1 + 1) P) as [L | L].
      - rewrite Nat.mod_small in K1; lia.
      - replace (p' + 1 + 1) with (p' + 1 + 1 - P + 1 * P) in K1 by lia. rewrite Nat.mod_add in K1 by lia. rewrite Nat.mod_small in K1; lia. }
    assert (SK : forall p (a b : list nat), p < P -> set_key [((p + (P - 1)) mod P, a)] ((p + 1) mod P) b = [((p + (P - 1)) mod P, a); ((p + 1) mod P, b)]).
    { intros p' a b H. unfold set_key. cbn [filter fst]. destruct (Nat.eqb_spec ((p' + (P - 1)) mod P) ((p' + 1) mod P)) as [K | K]; [now apply NE in K | reflexivity]. }
    rewrite !SK in D by assumption. injection D as DS DR. rewrite DR. split.
    + intros q g [I | [I | []]]; injection I as <- <-.
      * split; [now apply PPL|]. set (q := (p + (P - 1)) mod P). destruct (SH q (PPL p Hp)) as (sh' & E' & D').
        exists sh', (fr q). split; [exact E'|]. destruct (Nat.eqb_spec P 1); [lia|]. destruct (Nat.eqb_spec P 2); [lia|].
        rewrite !SK in D' by (apply PPL; assumption). injection D' as DS' DR'. split; [rewrite DS'; right; left; f_equal; now apply NP|]. apply (LG p Hp).
      * split; [now apply NPL|]. set (q := (p + 1) mod P). destruct (SH q (NPL p Hp)) as (sh' & E' & D').
        exists sh', (fl q). split; [exact E'|]. destruct (Nat.eqb_spec P 1); [lia|]. destruct (Nat.eqb_spec P 2); [lia|].
        rewrite !SK in D' by (apply NPL; assumption). injection D' as DS' DR'. split; [rewrite DS'; left; f_equal; now apply PN|]. apply (RG p Hp).
    + cbn [map concat snd]. rewrite app_nil_r. reflexivity.
Qed.
Print Assumptions C98_parallel_partial.

(** Non-vacuity: the example of the test suite, and a scheme in flux form that
    moves a tenth of the difference through every edge. *)
Example C98_case :
  periodic_recvs 5 2 = [24; 25; 26; 27; 0; 1; 2; 3] /\ periodic_sends 5 2 = [4; 5; 6; 7; 20; 21; 22; 23] /\
  map (tri_full_flag (periodic_recvs 5 2)) (seq 0 28) =
    [0; 0; 0; 0; 1; 1; 1; 1; 1; 1; 1; 1; 1; 1; 1; 1; 1; 1; 1; 1; 1; 1; 1; 1; 0; 0; 0; 0] /\
  build_neighbour_structure (st_elements (periodic_mesh 5 2)) <> None /\
  ghosts_both 4 4 0 = Some 20%Z /\ ghosts_both 4 4 9 = Some 13%Z /\ ghosts_both 4 4 10 = None /\
  consecutive 3 6 (fun m P p => (Z.of_nat (2 * p), Z.of_nat (2 * p + 2))).
Proof.
  repeat split; try (vm_compute; (reflexivity || discriminate)).
  - intros p H. cbn [fst snd]. lia.
  - intros p H. cbn [fst snd]. lia.
Qed.
Definition exchange (a : around_of R) (b : option (around_of R)) : R :=
  match b with Some b => ((fst b - fst a) / 10)%R | None => 0%R end.
Definition diffusion : scheme R unit :=
  Scheme _ _ (fun _ => tt) (fun _ _ _ V => (fst (fst V) + exchange (fst V) (fst (fst (snd V))) + exchange (fst V) (snd (fst (snd V))) + exchange (fst V) (snd (snd V)))%R).
Example C98_case_scheme : flux_form (fun x => x) diffusion (fun _ _ _ _ a b => exchange a b).
Proof. constructor; intros; cbn; unfold Rdiv; ring. Qed.
