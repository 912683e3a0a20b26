(** C89: grids exported from results hold the interpolated quantity at the
    stated places. *)
From Coq Require Import Reals List ZArith Arith Bool Lra Lia Psatz.
From Verif Require Import RealLib ArrayLib PolygonModel PolygonProofs GridModel GridProofs.
Import ListNotations.
Local Open Scope R_scope.

(** The right value at the point [P] (relative to the corner of the
    surface): NODATA outside all triangles, otherwise the linear interpolant
    of the corner values of a triangle that contains [P], up to 1e-12 side
    lengths. *)
Definition nondegenerate (s : surface) : Prop := forall tri, In tri (s_volumes s) -> tri_cross (tri_of (point_of s) tri) <> 0.
Definition combined (val : nat -> R) (tri : nat * nat * nat) (s1 s2 s3 : R) : R :=
  let '(i1, i2, i3) := tri in s1 * val i1 + s2 * val i2 + s3 * val i3.
Definition sampled (s : surface) (val : nat -> R) (nodata : R) (P : point) (v : R) : Prop :=
  (v = nodata /\ forall tri, In tri (s_volumes s) -> ~ convex_combination false P (tri_of (point_of s) tri)) \/
  exists tri s1 s2 s3, In tri (s_volumes s) /\ near P (tri_of (point_of s) tri) /\
    barycentric (tri_of (point_of s) tri) P s1 s2 s3 /\ v = combined val tri s1 s2 s3.

Lemma make_grid_inv cell nodata w s val g : make_grid cell nodata w s val = Some g ->
  exists x0 x1 y0 y1, list_min (map px (s_points s)) = Some x0 /\ list_max (map px (s_points s)) = Some x1 /\
    list_min (map py (s_points s)) = Some y0 /\ list_max (map py (s_points s)) = Some y1 /\
    g_xmin g = limit (w_xmin w) (s_xll s) x0 /\ g_ymin g = limit (w_ymin w) (s_yll s) y0 /\
    g_xmin g <= limit (w_xmax w) (s_xll s) x1 /\ g_ymin g <= limit (w_ymax w) (s_yll s) y1 /\ cell <> 0 /\
    g_cols g = Z.to_nat (trunc ((limit (w_xmax w) (s_xll s) x1 - g_xmin g) / cell) + 1) /\
    g_rows g = Z.to_nat (trunc ((limit (w_ymax w) (s_yll s) y1 - g_ymin g) / cell) + 1) /\
    g_values g = calc_grid_values (g_rows g) (g_cols g) cell nodata
      (fun i => (px (point_of s i) + s_xll s - (g_xmin g + s_xll s), py (point_of s i) + s_yll s - (g_ymin g + s_yll s)))
      (s_volumes s) val (fun _ => 0).
Proof.
  unfold make_grid. destruct (list_min (map px _)) as [x0|]; [|discriminate]. destruct (list_max (map px _)) as [x1|]; [|discriminate].
  destruct (list_min (map py _)) as [y0|]; [|discriminate]. destruct (list_max (map py _)) as [y1|]; [|discriminate].
  destruct (Rleb (limit (w_xmin w) (s_xll s) x0) (limit (w_xmax w) (s_xll s) x1) && Rleb (limit (w_ymin w) (s_yll s) y0) (limit (w_ymax w) (s_yll s) y1)) eqn:E; [|discriminate].
  cbn [negb]. apply andb_true_iff in E as (E1 & E2). rewrite Rleb_true in E1, E2. destruct (Reqb_spec cell 0) as [Z|Z]; [discriminate|].
  intros H. injection H as <-. cbn [g_xmin g_ymin g_cols g_rows g_values].
  exists x0, x1, y0, y1. repeat split; auto.
Qed.

Lemma extent_count xmin xmax cell : 0 < cell -> xmin <= xmax ->
  let n := Z.to_nat (trunc ((xmax - xmin) / cell) + 1) in
  (1 <= n)%nat /\ xmin + (INR n - 1) * cell <= xmax < xmin + INR n * cell.
Proof.
  intros Hc H. cbv zeta. assert (Hq : 0 <= (xmax - xmin) / cell).
  { apply Rmult_le_pos; [lra|]. left. now apply Rinv_0_lt_compat. }
  pose proof (trunc_nonneg _ Hq) as T. pose proof (trunc_nonneg_pos _ Hq) as T0.
  split; [lia|]. rewrite INR_Z, Z2Nat.id, plus_IZR by lia.
  set (q := (xmax - xmin) / cell) in *. assert (E : xmax = xmin + q * cell) by (unfold q; field; lra).
  rewrite E. split.
  - apply Rplus_le_compat_l. apply Rmult_le_compat_r; lra.
  - apply Rplus_lt_compat_l. apply Rmult_lt_compat_r; lra.
Qed.

(** ** The grid *)

(** Every entry is the right value at its point; the grid has a row and a
    column, starts at the lower ends of the window (or of the points) and
    reaches the upper ones up to one cell. *)
Theorem C89_grid : forall cell nodata w s val g,
  0 < cell -> nondegenerate s -> make_grid cell nodata w s val = Some g ->
  (forall j k, (j < g_rows g)%nat -> (k < g_cols g)%nat ->
     sampled s val nodata (g_xmin g + INR k * cell, g_ymin g + INR j * cell) (at_grid g j k)) /\
  (1 <= g_rows g)%nat /\ (1 <= g_cols g)%nat /\
  (forall x0 x1 y0 y1, list_min (map px (s_points s)) = Some x0 -> list_max (map px (s_points s)) = Some x1 ->
     list_min (map py (s_points s)) = Some y0 -> list_max (map py (s_points s)) = Some y1 ->
     g_xmin g = limit (w_xmin w) (s_xll s) x0 /\ g_ymin g = limit (w_ymin w) (s_yll s) y0 /\
     g_xmin g + (INR (g_cols g) - 1) * cell <= limit (w_xmax w) (s_xll s) x1 < g_xmin g + INR (g_cols g) * cell /\
     g_ymin g + (INR (g_rows g) - 1) * cell <= limit (w_ymax w) (s_yll s) y1 < g_ymin g + INR (g_rows g) * cell).
Proof.
  intros cell nodata w s val g Hc Hnd H.
  destruct (make_grid_inv _ _ _ _ _ _ H) as (x0 & x1 & y0 & y1 & L1 & L2 & L3 & L4 & E1 & E2 & B1 & B2 & _ & Ec & Er & Ev).
  destruct (extent_count _ _ cell Hc B1) as (C1 & C2). destruct (extent_count _ _ cell Hc B2) as (R1 & R2). rewrite <- Ec in C1, C2. rewrite <- Er in R1, R2.
  split; [|split; [exact R1|split; [exact C1|]]].
  - intros j k Hj Hk. unfold at_grid. rewrite Ev, calc_in by assumption. clear - Hnd Hc.
    set (d := (g_xmin g, g_ymin g)). set (X := fun i => _).
    set (P := (g_xmin g + INR k * cell, g_ymin g + INR j * cell)).
    assert (EX : forall i, X i = shifted d (point_of s i)). { intros i. unfold X, shifted, d. cbn [px py fst snd]. f_equal; ring. }
    assert (ET : forall tri, tri_of X tri = shifted_tri d (tri_of (point_of s) tri)). { intros ((a, b), c). cbn [tri_of shifted_tri]. now rewrite !EX. }
    assert (EP : (INR k * cell, INR j * cell) = shifted d P). { unfold P, shifted, d. cbn [px py fst snd]. f_equal; ring. }
    rewrite EP. destruct (last_value_cases X val (s_volumes s) nodata (shifted d P)) as [(V & N)|(tri & I & A & V)].
    + left. split; [exact V|]. intros tri I C. specialize (N tri I). rewrite ET in N.
      rewrite closed_accepted in N; [discriminate| |now apply shift_convex_back]. rewrite shift_cross. now apply Hnd.
    + right. rewrite ET in A. assert (D : tri_cross (shifted_tri d (tri_of (point_of s) tri)) <> 0) by (rewrite shift_cross; now apply Hnd).
      destruct (value_barycentric _ (shifted d P) D) as (s1 & s2 & s3 & Bc & Bv).
      exists tri, s1, s2, s3. split; [exact I|]. split; [apply (shift_near d), accepted_near; assumption|]. split; [now apply (shift_barycentric d)|].
      rewrite V. rewrite <- ET in Bv. clear - Bv. destruct tri as ((a, b), c). apply Bv.
  - intros x0' x1' y0' y1' K1 K2 K3 K4. rewrite L1 in K1. rewrite L2 in K2. rewrite L3 in K3. rewrite L4 in K4.
    injection K1 as <-. injection K2 as <-. injection K3 as <-. injection K4 as <-. auto.
Qed.
Print Assumptions C89_grid.

(** The arrays are only written inside, and the last accepting triangle
    decides, whatever the array held before. *)
Theorem C89_array : forall nrow ncol cell nodata X volumes val grid0,
  (forall i, (nrow * ncol <= i)%nat -> calc_grid_values nrow ncol cell nodata X volumes val grid0 i = grid0 i) /\
  (0 < cell -> forall grid1 i, (i < nrow * ncol)%nat ->
     calc_grid_values nrow ncol cell nodata X volumes val grid0 i = calc_grid_values nrow ncol cell nodata X volumes val grid1 i).
Proof.
  intros. split; [intros; now apply calc_outside|]. intros Hc grid1 i Hi.
  assert (Hn : ncol <> 0%nat) by (intros ->; lia).
  rewrite (Nat.div_mod i ncol Hn). rewrite (Nat.mul_comm ncol).
  assert (i / ncol < nrow)%nat by (apply Nat.div_lt_upper_bound; lia). pose proof (Nat.mod_upper_bound i ncol Hn).
  now rewrite !calc_in.
Qed.
Print Assumptions C89_array.

(** For a quantity given by a function that is linear on every triangle, the
    grid holds the values of the function; a linear function is reproduced
    also at points accepted by the tolerance; no value leaves the range of
    the vertex values. *)
Definition linear_on (f : point -> R) (s : surface) (val : nat -> R) : Prop :=
  forall tri s1 s2 s3 P, In tri (s_volumes s) -> 0 <= s1 -> 0 <= s2 -> 0 <= s3 ->
    barycentric (tri_of (point_of s) tri) P s1 s2 s3 -> f P = combined val tri s1 s2 s3.

Lemma closed_coordinates t P s1 s2 s3 : tri_cross t <> 0 -> convex_combination false P t -> barycentric t P s1 s2 s3 -> 0 <= s1 /\ 0 <= s2 /\ 0 <= s3.
Proof.
  intros D C B. destruct t as ((a, b), c). destruct C as (l & m & n & Hp & S & E1 & E2).
  assert (B' : barycentric (a, b, c) P l m n) by (cbn; auto). destruct (barycentric_unique _ _ _ _ _ _ _ _ D B B') as (-> & -> & ->). lra.
Qed.

Theorem C89_function : forall s val nodata P v,
  nondegenerate s -> sampled s val nodata P v ->
  (forall f, linear_on f s val -> (exists tri, In tri (s_volumes s) /\ convex_combination false P (tri_of (point_of s) tri)) ->
     (forall tri, In tri (s_volumes s) -> near P (tri_of (point_of s) tri) -> convex_combination false P (tri_of (point_of s) tri)) ->
     v = f P) /\
  (forall f0 fx fy, (forall i, val i = f0 + fx * px (point_of s i) + fy * py (point_of s i)) ->
     v = f0 + fx * px P + fy * py P \/ v = nodata /\ forall tri, In tri (s_volumes s) -> ~ convex_combination false P (tri_of (point_of s) tri)) /\
  (forall lo hi, (forall i, lo <= val i <= hi) ->
     (forall tri, In tri (s_volumes s) -> near P (tri_of (point_of s) tri) -> convex_combination false P (tri_of (point_of s) tri)) ->
     lo <= v <= hi \/ v = nodata).
Proof.
  intros s val nodata P v Hnd H. destruct H as [(-> & N)|(tri & s1 & s2 & s3 & I & A & B & ->)].
  - split; [|split].
    + intros f _ (tri & I & C). exfalso. exact (N tri I C).
    + intros. right. auto.
    + intros. now right.
  - assert (Q : (forall tri, In tri (s_volumes s) -> near P (tri_of (point_of s) tri) -> convex_combination false P (tri_of (point_of s) tri)) -> 0 <= s1 /\ 0 <= s2 /\ 0 <= s3).
    { intros K. eapply closed_coordinates; [apply (Hnd tri I)|apply K; assumption|exact B]. }
    split; [|split].
    + intros f L _ K. destruct (Q K) as (P1 & P2 & P3). symmetry. apply (L tri); auto.
    + intros f0 fx fy L. left. destruct tri as ((a, b), c). cbn [combined]. rewrite !L. unfold tri_of, barycentric in B. destruct B as (S & E1 & E2).
      rewrite E1, E2. replace s3 with (1 - s1 - s2) by lra. ring.
    + intros lo hi L K. left. destruct (Q K) as (P1 & P2 & P3). destruct tri as ((a, b), c). cbn [combined]. destruct B as (S & _).
      pose proof (L a) as La. pose proof (L b) as Lb. pose proof (L c) as Lc. clear - P1 P2 P3 S La Lb Lc.
      assert (s3 = 1 - s1 - s2) by lra. split; nra.
Qed.
Print Assumptions C89_function.

(** ** The values at the vertices do not depend on the block size *)
Theorem C89_blocks : forall expr timed times reduction size points, (0 < size)%nat ->
  vertex_values expr timed times reduction size points =
  map (fun p => if timed then reduction (map (fun t => expr t p) (seq 0 times)) else expr 0%nat p) (seq 0 points).
Proof.
  intros expr timed times reduction size points Hs. unfold vertex_values.
  assert (G : forall fuel first remaining, (remaining <= fuel)%nat ->
    blocks expr timed times reduction size first remaining fuel = block expr timed times reduction first remaining).
  { induction fuel as [|fuel IH]; intros first remaining H; cbn [blocks].
    - replace remaining with 0%nat by lia. reflexivity.
    - destruct (Nat.eqb_spec remaining 0) as [->|N]; [reflexivity|]. rewrite IH by lia. unfold block. rewrite <- map_app, <- seq_app. do 2 f_equal. lia. }
  now rewrite G by lia.
Qed.
Print Assumptions C89_blocks.

(** ** Reading the exported file back *)
Definition no_window : window := {| w_xmin := None; w_xmax := None; w_ymin := None; w_ymax := None |}.
Definition between (lo : option R) (x : R) (hi : option R) : Prop :=
  match lo with Some e => e <= x | None => True end /\ match hi with Some e => x <= e | None => True end.

Lemma write_rows fixed expo cell nodata s g i k : (i < g_rows g)%nat -> (k < g_cols g)%nat ->
  nth k (nth i (r_data (write_asc fixed expo cell nodata s g)) []) 0 = expo (at_grid g (g_rows g - i - 1) k).
Proof.
  intros Hi Hk. unfold write_asc. cbn [r_data].
  assert (M : forall {A} (f : nat -> A) n i d, (i < n)%nat -> nth i (map f (seq 0 n)) d = f i).
  { intros A f n i' d H. rewrite (nth_indep _ d (f 0%nat)) by (rewrite map_length, seq_length; exact H). now rewrite (map_nth f), seq_nth. }
  rewrite M by exact Hi. now rewrite M by exact Hk.
Qed.

(** The file is accepted by asc2dem.  The points that dem2pts makes of it are
    the grid points, with the printed values, inside the window and other
    than the NODATA value of the header; their places follow from the corner
    and the cell size of the header. *)
Theorem C89_read_back : forall fixed expo cell nodata s g w,
  0 <= fixed cell ->
  let a := write_asc fixed expo cell nodata s g in
  asc2dem a = Some a /\
  exists p, dem2pts false w a = Some p /\
    (forall x y v, In ((x - p_xll p, y - p_yll p), v) (p_points p) <->
      exists j k, (j < g_rows g)%nat /\ (k < g_cols g)%nat /\
        v = expo (at_grid g j k) /\ v <> IZR (trunc nodata) /\
        x = IZR (trunc (g_xmin g + s_xll s)) + INR k * fixed cell /\ y = IZR (trunc (g_ymin g + s_yll s)) + INR j * fixed cell /\
        between (w_xmin w) x (w_xmax w) /\ between (w_ymin w) y (w_ymax w)).
Proof.
  intros fixed expo cell nodata s g w Hf a. split.
  - unfold asc2dem. replace (length (r_data a)) with (r_rows a) by (unfold a, write_asc; cbn [r_data r_rows]; now rewrite map_length, seq_length).
    rewrite Nat.eqb_refl. cbn [andb]. replace (forallb _ _) with true; [reflexivity|]. symmetry. apply forallb_forall. intros row I.
    unfold a, write_asc in I. cbn [r_data] in I. apply in_map_iff in I as (i & <- & _). rewrite map_length, seq_length. apply Nat.eqb_refl.
  - eexists. split; [reflexivity|]. intros x y v. cbn [p_points p_xll p_yll].
    set (X0 := match w_xmin w with Some e => e | None => _ end). set (X1 := match w_xmax w with Some e => e | None => _ end).
    set (Y0 := match w_ymin w with Some e => e | None => _ end). set (Y1 := match w_ymax w with Some e => e | None => _ end).
    rewrite in_map_iff. cbn [r_nodata r_cols r_rows r_cell r_xll r_yll a write_asc].
    set (xl := IZR (trunc (g_xmin g + s_xll s))). set (yl := IZR (trunc (g_ymin g + s_yll s))). set (h := fixed cell) in *.
    assert (W : forall j k, (j < g_rows g)%nat -> (k < g_cols g)%nat ->
       (X0 <= xl + INR k * h <= X1 <-> between (w_xmin w) (xl + INR k * h) (w_xmax w)) /\
       (Y0 <= yl + INR j * h <= Y1 <-> between (w_ymin w) (yl + INR j * h) (w_ymax w))).
    { intros j k Hj Hk. apply le_INR in Hj, Hk. rewrite S_INR in Hj, Hk. pose proof (pos_INR j). pose proof (pos_INR k).
      assert (0 <= INR k * h) by (apply Rmult_le_pos; lra). assert (0 <= INR j * h) by (apply Rmult_le_pos; lra).
      assert (INR k * h <= INR (g_cols g) * h) by (apply Rmult_le_compat_r; lra). assert (INR j * h <= INR (g_rows g) * h) by (apply Rmult_le_compat_r; lra).
      unfold between, X0, X1, Y0, Y1. cbn [a write_asc r_xll r_yll r_cols r_rows r_cell]. fold xl yl h.
      split; [destruct (w_xmin w), (w_xmax w)|destruct (w_ymin w), (w_ymax w)]; split; intros; lra. }
    split.
    + intros (((x', y'), v') & E & I). injection E as Ex Ey Ev. cbn [px py fst snd] in *. subst v'.
      apply filter_In in I as (I & N). apply filter_In in I as (I & B). cbn [px py fst snd] in *.
      apply in_flat_map in I as (i & Hi & I). apply in_map_iff in I as (k & E & Hk). apply in_seq in Hi, Hk.
      injection E as E1 E2 E3. exists (g_rows g - i - 1)%nat, k.
      assert (Ej : INR (g_rows g - i - 1) = INR (g_rows g) - 1 - INR i). { rewrite !minus_INR by lia. cbn [INR]. ring. }
      rewrite (write_rows fixed expo cell nodata s g) in E3 by lia. apply negb_true_iff in N. rewrite Reqb_false in N.
      rewrite !andb_true_iff, !Rleb_true in B.
      assert (Hj : (g_rows g - i - 1 < g_rows g)%nat) by lia. assert (Hk' : (k < g_cols g)%nat) by lia.
      destruct (W _ _ Hj Hk') as (W1 & W2). rewrite Ej in W2.
      assert (Ex' : x = xl + INR k * h) by lra. assert (Ey' : y = yl + (INR (g_rows g) - 1 - INR i) * h) by lra.
      split; [exact Hj|]. split; [exact Hk'|]. split; [now symmetry|]. split; [exact N|]. rewrite Ej. split; [exact Ex'|]. split; [exact Ey'|].
      rewrite Ex', Ey'. split; [apply W1|apply W2]; lra.
    + intros (j & k & Hj & Hk & -> & N & -> & -> & B1 & B2). destruct (W _ _ Hj Hk) as (W1 & W2). apply W1 in B1. apply W2 in B2.
      exists ((xl + INR k * h, yl + (INR (g_rows g) - 1) * h - INR (g_rows g - j - 1) * h), expo (at_grid g j k)).
      assert (Ej : INR (g_rows g - j - 1) = INR (g_rows g) - 1 - INR j). { rewrite !minus_INR by lia. cbn [INR]. ring. }
      cbn [px py fst snd]. split; [f_equal; f_equal; rewrite ?Ej; ring|].
      apply filter_In. cbn [px py fst snd]. split; [apply filter_In; cbn [px py fst snd]; split|].
      * apply in_flat_map. exists (g_rows g - j - 1)%nat. split; [apply in_seq; lia|]. apply in_map_iff. exists k. split; [|apply in_seq; lia].
        f_equal. rewrite (write_rows fixed expo cell nodata s g) by lia. do 2 f_equal. lia.
      * rewrite Ej. rewrite !andb_true_iff, !Rleb_true. lra.
      * apply negb_true_iff. now rewrite Reqb_false.
Qed.
Print Assumptions C89_read_back.

(** With the corner in whole metres, a cell size of at most six decimals and a
    printable integral NODATA value, the points read back are the points of
    the grid with data, at their places. *)
Theorem C89_round_trip : forall fixed expo cell nodata s g X Y N,
  g_xmin g + s_xll s = IZR X -> g_ymin g + s_yll s = IZR Y -> nodata = IZR N -> fixed cell = cell -> 0 <= cell ->
  exists p, dem2pts false no_window (write_asc fixed expo cell nodata s g) = Some p /\
    forall x y v, In ((x - p_xll p, y - p_yll p), v) (p_points p) <->
      exists j k, (j < g_rows g)%nat /\ (k < g_cols g)%nat /\ v = expo (at_grid g j k) /\ v <> nodata /\
        x = s_xll s + (g_xmin g + INR k * cell) /\ y = s_yll s + (g_ymin g + INR j * cell).
Proof.
  intros fixed expo cell nodata s g X Y N HX HY HN Hf Hc.
  destruct (C89_read_back fixed expo cell nodata s g no_window) as (_ & p & E & I); [lra|].
  exists p. split; [exact E|]. intros x y v. rewrite I. rewrite HX, HY, HN, !trunc_IZR, Hf.
  split.
  - intros (j & k & Hj & Hk & V & D & Ex & Ey & _). exists j, k. repeat split; auto; lra.
  - intros (j & k & Hj & Hk & V & D & Ex & Ey). exists j, k. repeat split; auto; lra.
Qed.
Print Assumptions C89_round_trip.

(** ** Number formats *)
Lemma powerRZ_10_mono e f : (e <= f)%Z -> powerRZ 10 e <= powerRZ 10 f.
Proof.
  intros H. replace f with (e + Z.of_nat (Z.to_nat (f - e)))%Z by lia. rewrite powerRZ_add by lra.
  pose proof (powerRZ_lt 10 e ltac:(lra)) as P. rewrite <- pow_powerRZ. pose proof (pow_R1_Rle 10 (Z.to_nat (f - e)) ltac:(lra)). nra.
Qed.

Lemma exponent_unique a e f : powerRZ 10 e <= a < powerRZ 10 (e + 1) -> powerRZ 10 f <= a < powerRZ 10 (f + 1) -> e = f.
Proof.
  intros H K. destruct (Z.lt_trichotomy e f) as [L|[E|L]]; [|exact E|].
  - pose proof (powerRZ_10_mono (e + 1) f ltac:(lia)). lra.
  - pose proof (powerRZ_10_mono (f + 1) e ltac:(lia)). lra.
Qed.

Lemma half_integer n m : Rabs (IZR n - IZR m) <= / 2 -> n = m.
Proof.
  intros H. rewrite <- minus_IZR in H. unfold Rabs in H.
  assert (n - m = 0)%Z; [|lia].
  assert (-1 < n - m < 1)%Z; [|lia]. split; apply lt_IZR; destruct (Rcase_abs _); lra.
Qed.

Lemma fixed_exact n y : prints_fixed (IZR n / 10 ^ 6) y -> y = IZR n / 10 ^ 6.
Proof.
  intros (m & -> & H). f_equal. f_equal. symmetry. apply half_integer.
  replace (IZR n / 10 ^ 6 - IZR m / 10 ^ 6) with ((IZR n - IZR m) * / 10 ^ 6) in H by (field; lra).
  rewrite Rabs_mult, (Rabs_right (/ 10 ^ 6)) in H by lra. lra.
Qed.

(** A number printed with [d] decimals is the nearest multiple of the last place. *)
Lemma exponent_prints d e x y : powerRZ 10 e <= Rabs x < powerRZ 10 (e + 1) -> prints_exponent d x y ->
  exists n, y = IZR n * powerRZ 10 (e - Z.of_nat d) /\ Rabs (x - y) <= / 2 * powerRZ 10 (e - Z.of_nat d).
Proof.
  intros H [(-> & ->)|(f & n & K & E & A)].
  - exfalso. rewrite Rabs_R0 in H. pose proof (powerRZ_lt 10 e ltac:(lra)). lra.
  - rewrite (exponent_unique _ _ _ H K). eauto.
Qed.

Lemma exponent_exact d e n y : let x := IZR n * powerRZ 10 (e - Z.of_nat d) in
  powerRZ 10 e <= Rabs x < powerRZ 10 (e + 1) -> prints_exponent d x y -> y = x.
Proof.
  intros x H K. destruct (exponent_prints _ _ _ _ H K) as (m & -> & A). unfold x in *.
  pose proof (powerRZ_lt 10 (e - Z.of_nat d) ltac:(lra)) as P. set (u := powerRZ _ _) in *.
  f_equal. f_equal. symmetry. apply half_integer. rewrite <- Rmult_minus_distr_r, Rabs_mult, (Rabs_right u) in A by lra. nra.
Qed.

(** Such numbers exist for all inputs. *)
Definition nearest (r : R) : Z := Int_part (r + / 2).
Lemma nearest_spec r : Rabs (r - IZR (nearest r)) <= / 2.
Proof. unfold nearest. pose proof (int_part_bounds (r + / 2)). apply Rabs_le. lra. Qed.

Example formats_exist : (forall x, exists y, prints_fixed x y) /\ (forall d x, exists y, prints_exponent d x y).
Proof.
  split.
  - intros x. exists (IZR (nearest (x * 10 ^ 6)) / 10 ^ 6). exists (nearest (x * 10 ^ 6)). split; [reflexivity|].
    pose proof (nearest_spec (x * 10 ^ 6)) as N. replace (x - _) with ((x * 10 ^ 6 - IZR (nearest (x * 10 ^ 6))) * / 10 ^ 6) by (field; lra).
    rewrite Rabs_mult, (Rabs_right (/ 10 ^ 6)) by lra. lra.
  - intros d x. destruct (Req_dec x 0) as [->|Hx]; [exists 0; left; auto|].
    pose proof (Rabs_pos_lt x Hx) as Ha. set (e := Int_part (ln (Rabs x) / ln 10)).
    pose proof (int_part_bounds (ln (Rabs x) / ln 10)) as B. fold e in B.
    assert (L : 0 < ln 10) by (rewrite <- ln_1; apply ln_increasing; lra).
    assert (Q : Rabs x = Rpower 10 (ln (Rabs x) / ln 10)). { unfold Rpower. replace (ln (Rabs x) / ln 10 * ln 10) with (ln (Rabs x)) by (field; lra). now rewrite exp_ln. }
    set (u := powerRZ 10 (e - Z.of_nat d)). assert (U : 0 < u) by (apply powerRZ_lt; lra).
    exists (IZR (nearest (x / u)) * u). right. exists e, (nearest (x / u)). split; [|split; [reflexivity|]].
    + rewrite !powerRZ_Rpower by lra. rewrite Q, plus_IZR. split; [apply Rle_Rpower; lra|apply Rpower_lt; lra].
    + fold u. pose proof (nearest_spec (x / u)) as N. replace (x - _) with ((x / u - IZR (nearest (x / u))) * u) by (field; lra).
      rewrite Rabs_mult, (Rabs_right u) by lra. apply Rmult_le_compat_r; lra.
Qed.

(** ** Where the exported file is wrong *)

Definition corner_triangle (xll : R) : surface :=
  {| s_xll := xll; s_yll := 0; s_points := [(0, 0); (4, 0); (0, 4)]; s_volumes := [(0, 1, 2)%nat] |}.

Lemma corner_nondegenerate xll : nondegenerate (corner_triangle xll).
Proof. intros tri [<-|[]]. cbn. unfold tri_cross. cbn [px py fst snd]. lra. Qed.

Lemma corner_grid xll cell nodata val : 0 < cell -> exists g, make_grid cell nodata no_window (corner_triangle xll) val = Some g /\ g_xmin g = 0 /\ g_ymin g = 0.
Proof.
  intros Hc. unfold make_grid. cbn [s_points corner_triangle map px py fst snd list_min list_max fold_left].
  rewrite (Rmin_left 0 4), (Rmin_left 0 0), (Rmin_left 0 4), (Rmax_right 0 4), (Rmax_left 4 0), (Rmax_left 0 0), (Rmax_right 0 4) by lra.
  cbn [limit no_window w_xmin w_xmax w_ymin w_ymax].
  rewrite (proj2 (Rleb_true 0 4)) by lra. cbn [andb negb]. rewrite (proj2 (Reqb_false cell 0)) by lra.
  eexists. split; [reflexivity|]. cbn. auto.
Qed.

(** The corner of the grid is written with "%d": for the corner [1/2] the
    points are displaced by half a metre.  Here the quantity is the easting
    itself, and the point read back at easting 0 has the value 1/2 (as for
    every correct rounding of the other numbers). *)
Theorem C89_corner_refuted : exists s val,
  (forall i, val i = px (point_of s i) + s_xll s) /\ nondegenerate s /\
  exists g, make_grid 1 (-9999) no_window s val = Some g /\
  forall fixed expo, (forall x, prints_fixed x (fixed x)) -> (forall x, prints_exponent 3 x (expo x)) ->
  exists p, dem2pts false no_window (write_asc fixed expo 1 (-9999) s g) = Some p /\
    In ((0 - p_xll p, 0 - p_yll p), / 2) (p_points p).
Proof.
  exists (corner_triangle (/ 2)), (fun i => px (point_of (corner_triangle (/ 2)) i) + / 2).
  split; [reflexivity|]. split; [apply corner_nondegenerate|].
  match goal with |- context [make_grid _ _ _ _ ?v] => set (val := v) end. destruct (corner_grid (/ 2) 1 (-9999) val ltac:(lra)) as (g & E & Gx & Gy). exists g. split; [exact E|].
  intros fixed expo F X. assert (F1 : fixed 1 = 1). { pose proof (F 1) as K. replace 1 with (IZR (10 ^ 6) / 10 ^ 6) in K at 1 by lra. apply fixed_exact in K. lra. }
  destruct (C89_read_back fixed expo 1 (-9999) (corner_triangle (/ 2)) g no_window) as (_ & p & Ep & I); [lra|].
  exists p. split; [exact Ep|]. apply I.
  destruct (C89_grid 1 (-9999) no_window _ val g ltac:(lra) (corner_nondegenerate _) E) as (G & R1 & C1 & _).
  specialize (G 0%nat 0%nat ltac:(lia) ltac:(lia)). rewrite Gx, Gy in G.
  replace (0 + INR 0 * 1) with 0 in G by (cbn; ring).
  destruct (C89_function _ _ _ _ _ (corner_nondegenerate _) G) as (_ & L & _).
  assert (V : at_grid g 0 0 = / 2).
  { destruct (L (/ 2) 1 0) as [V|(_ & V)].
    - intros i. unfold val. ring.
    - rewrite V. cbn [px py fst snd]. ring.
    - exfalso. apply (V (0, 1, 2)%nat); [now left|]. exists 1, 0, 0. cbn. lra. }
  exists 0%nat, 0%nat. split; [exact R1|]. split; [exact C1|]. rewrite V, Gx, Gy. cbn [s_xll s_yll corner_triangle].
  assert (X2 : expo (/ 2) = / 2).
  { pose proof (X (/ 2)) as K. assert (Q : / 2 = IZR 5000 * powerRZ 10 (-1 - Z.of_nat 3)) by (change (powerRZ 10 (-1 - Z.of_nat 3)) with (/ 10 ^ 4); lra).
    rewrite Q in K at 1. apply exponent_exact in K; [lra|]. rewrite <- Q, Rabs_right by lra.
    change (powerRZ 10 (-1)) with (/ 10 ^ 1). change (powerRZ 10 (-1 + 1)) with 1. lra. }
  rewrite X2. split; [reflexivity|]. split.
  { intros Q. replace (-9999) with (IZR (-9999)) in Q by lra. rewrite trunc_IZR in Q. lra. }
  rewrite F1. assert (T : trunc (0 + / 2) = 0%Z).
  { pose proof (trunc_nonneg (0 + / 2) ltac:(lra)) as T. assert (-1 < trunc (0 + / 2) < 1)%Z; [|lia]. split; apply lt_IZR; lra. }
  rewrite T. replace (trunc (0 + 0)) with 0%Z by (symmetry; replace (0 + 0) with (IZR 0) by (cbn; ring); apply trunc_IZR).
  cbn. repeat split; ring.
Qed.
Print Assumptions C89_corner_refuted.

(** With number_of_decimal_places = 2 the NODATA value -9999 is printed as
    -1.00e+04, and read back as data: every point outside the mesh becomes a
    point of elevation -10000. *)
Theorem C89_decimals_refuted : forall fixed expo cell s g,
  0 <= fixed cell -> (forall x, prints_exponent 2 x (expo x)) ->
  exists p, dem2pts false no_window (write_asc fixed expo cell (-9999) s g) = Some p /\
    forall j k, (j < g_rows g)%nat -> (k < g_cols g)%nat -> at_grid g j k = -9999 ->
      In ((IZR (trunc (g_xmin g + s_xll s)) + INR k * fixed cell - p_xll p, IZR (trunc (g_ymin g + s_yll s)) + INR j * fixed cell - p_yll p), -10000) (p_points p).
Proof.
  intros fixed expo cell s g Hf X. destruct (C89_read_back fixed expo cell (-9999) s g no_window Hf) as (_ & p & E & I).
  exists p. split; [exact E|]. intros j k Hj Hk V. apply I. exists j, k. split; [exact Hj|]. split; [exact Hk|]. rewrite V.
  assert (K : expo (-9999) = -10000).
  { destruct (exponent_prints 2 3 (-9999) (expo (-9999))) as (n & Q & A); [rewrite Rabs_left by lra; change (powerRZ 10 3) with (10 ^ 3); change (powerRZ 10 (3 + 1)) with (10 ^ 4); lra|apply X|].
    rewrite Q in *. replace (powerRZ 10 (3 - Z.of_nat 2)) with 10 in * by (change (powerRZ 10 (3 - Z.of_nat 2)) with (10 ^ 1); ring).
    assert (n = -1000)%Z; [|subst; lra]. assert (-1001 < n < -999)%Z; [|lia].
    unfold Rabs in A. split; apply lt_IZR; destruct (Rcase_abs _); lra. }
  rewrite K. split; [reflexivity|]. split; [|repeat split].
  replace (-9999) with (IZR (-9999)) by lra. rewrite trunc_IZR. lra.
Qed.
Print Assumptions C89_decimals_refuted.

Example C89_decimals_case : exists g,
  make_grid 1 (-9999) {| w_xmin := Some 10; w_xmax := Some 12; w_ymin := Some 10; w_ymax := Some 12 |} (corner_triangle 0) (fun _ => 1) = Some g /\
  (1 <= g_rows g)%nat /\ (1 <= g_cols g)%nat /\ at_grid g 0 0 = -9999.
Proof.
  set (w := {| w_xmin := _ |}). destruct (make_grid 1 (-9999) w (corner_triangle 0) (fun _ => 1)) as [g|] eqn:E.
  - exists g. split; [reflexivity|].
    destruct (C89_grid _ _ _ _ _ _ Rlt_0_1 (corner_nondegenerate _) E) as (_ & R1 & C1 & _). split; [exact R1|]. split; [exact C1|].
    destruct (make_grid_inv _ _ _ _ _ _ E) as (x0 & x1 & y0 & y1 & _ & _ & _ & _ & Gx & Gy & _ & _ & _ & _ & _ & Ev).
    cbn in Gx, Gy. unfold at_grid. rewrite Ev, calc_in by (lra || lia).
    destruct (last_value_cases (fun i => (px (point_of (corner_triangle 0) i) + s_xll (corner_triangle 0) - (g_xmin g + s_xll (corner_triangle 0)),
       py (point_of (corner_triangle 0) i) + s_yll (corner_triangle 0) - (g_ymin g + s_yll (corner_triangle 0)))) (fun _ => 1) (s_volumes (corner_triangle 0)) (-9999)
       (INR 0 * 1, INR 0 * 1)) as [(V & _)|(tri & I & A & _)]; [exact V|].
    exfalso. destruct I as [<-|[]]. apply accepts_box in A as ((_ & A) & _). rewrite Gx in A. cbn in A. revert A. unfold max3.
    repeat apply Rmax_case; lra.
  - exfalso. revert E. unfold make_grid. cbn [s_points corner_triangle map px py fst snd list_min list_max fold_left limit w_xmin w_xmax w_ymin w_ymax w s_xll s_yll].
    rewrite !(proj2 (Rleb_true _ _)) by lra. cbn [andb negb]. rewrite (proj2 (Reqb_false 1 0)) by lra. discriminate.
Qed.

(** save_to_array returns its values with the coordinates [k * cell - xmin]
    instead of [k * cell + xmin]: they are wrong unless the grid starts at the
    origin. *)
Theorem C89_array_coordinates_refuted : forall cell s g k,
  array_x cell s g k = INR k * cell - g_xmin g /\
  (array_x cell s g k = g_xmin g + INR k * cell <-> g_xmin g = 0).
Proof. intros. unfold array_x. split; [ring|]. split; lra. Qed.
Print Assumptions C89_array_coordinates_refuted.

Example C89_array_coordinates_case : exists g,
  make_grid 1 (-9999) {| w_xmin := Some 1; w_xmax := Some 3; w_ymin := None; w_ymax := None |} (corner_triangle 0) (fun _ => 1) = Some g /\
  g_xmin g = 1 /\ array_x 1 (corner_triangle 0) g 0 = -1.
Proof.
  unfold make_grid. cbn [s_points corner_triangle map px py fst snd list_min list_max fold_left limit w_xmin w_xmax w_ymin w_ymax s_xll s_yll].
  rewrite !(proj2 (Rleb_true (1 - 0) (3 - 0))) by lra. rewrite (Rmin_left 0 0), (Rmin_left 0 4), (Rmax_left 0 0), (Rmax_right 0 4) by lra.
  rewrite (proj2 (Rleb_true 0 4)) by lra. cbn [andb negb]. rewrite (proj2 (Reqb_false 1 0)) by lra.
  eexists. split; [reflexivity|]. unfold array_x. cbn. lra.
Qed.

(** dem2pts with a name for the output raises NameError. *)
Theorem C89_output_name_refuted : forall w d, dem2pts true w d = None /\ dem2pts false w d <> None.
Proof. intros. split; [reflexivity|discriminate]. Qed.
Print Assumptions C89_output_name_refuted.

(** ** Cases *)

(** The example's first point lies in the triangle and has the right value. *)
Example C89_case : exists g, make_grid 1 (-9999) no_window (corner_triangle 0) (fun i => px (point_of (corner_triangle 0) i)) = Some g /\
  (1 <= g_rows g)%nat /\ (1 <= g_cols g)%nat /\ at_grid g 0 0 = 0 /\ g_xmin g + s_xll (corner_triangle 0) = IZR 0.
Proof.
  match goal with |- context [make_grid _ _ _ _ ?v] => set (val := v) end. destruct (corner_grid 0 1 (-9999) val ltac:(lra)) as (g & E & Gx & Gy). exists g. split; [exact E|].
  destruct (C89_grid 1 (-9999) no_window _ val g ltac:(lra) (corner_nondegenerate _) E) as (G & R1 & C1 & _). split; [exact R1|]. split; [exact C1|].
  specialize (G 0%nat 0%nat ltac:(lia) ltac:(lia)). rewrite Gx, Gy in G. replace (0 + INR 0 * 1) with 0 in G by (cbn; ring).
  split; [|rewrite Gx; cbn; ring].
  destruct (C89_function _ _ _ _ _ (corner_nondegenerate _) G) as (_ & L & _). destruct (L 0 1 0) as [V|(_ & V)].
  - intros i. unfold val. ring.
  - rewrite V. cbn. ring.
  - exfalso. apply (V (0, 1, 2)%nat); [now left|]. exists 1, 0, 0. cbn. lra.
Qed.

Example C89_blocks_case : vertex_values (fun t p => INR t) true 3 (fun l => fold_left Rmax l 0) 2 5 = vertex_values (fun t p => INR t) true 3 (fun l => fold_left Rmax l 0) 1000 5.
Proof. rewrite !C89_blocks by lia. reflexivity. Qed.
