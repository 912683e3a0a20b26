(** C103: elevation grids are read and decimated with each value at its place. *)
From Coq Require Import Reals List ZArith Arith Bool Lra Lia Psatz.
From Verif Require Import RealLib ArrayLib GridModel GridProofs Interp2dModel Interp2dProps RasterModel RasterProofs.
Import ListNotations.
Local Open Scope R_scope.

(** The place of the value in row [i] from the top and column [k]. *)
Definition node_x (d : raster) (k : nat) : R := r_xll d + INR k * r_cell d.
Definition node_y (d : raster) (i : nat) : R := r_yll d + (INR (r_rows d) - 1 - INR i) * r_cell d.
Definition elevation (d : raster) (i k : nat) : flt :=
  if Req_EM_T (cell_of (r_data d) i k) (r_nodata d) then None else Some (cell_of (r_data d) i k).

(** The arrays have [rows] times [cols] values: [v i k] at [(x k, y i)]. *)
Definition shows (a : axes) (rows cols : nat) (x y : nat -> R) (v : nat -> nat -> flt) : Prop :=
  exists z, ax_z a = Matrix cols rows z /\ length (ax_x a) = cols /\ length (ax_y a) = rows /\
    (forall k, (k < cols)%nat -> at_ (ax_x a) k = x k) /\
    forall i, (i < rows)%nat -> exists j, (j < rows)%nat /\ at_ (ax_y a) j = y i /\
      forall k, (k < cols)%nat -> z k j = v i k.

(** ** Readers *)

Theorem C103_dem2array d : well_formed d = true ->
  exists a, dem2array d = Some a /\ shows a (r_rows d) (r_cols d) (node_x d) (node_y d) (elevation d).
Proof.
  intros W. unfold dem2array. rewrite W. cbn [negb]. eexists. split; [reflexivity|].
  unfold shows. cbn [ax_x ax_y ax_z transpose where_nan fliplr]. eexists. split; [reflexivity|].
  rewrite !linspace_length. do 2 (split; [reflexivity|]). split.
  - intros k K. now apply linspace_at.
  - intros i I. exists (r_rows d - 1 - i)%nat. split; [lia|]. split.
    + rewrite linspace_at by lia. unfold node_y. replace (r_rows d - 1 - i)%nat with (r_rows d - (1 + i))%nat by lia.
      rewrite minus_INR, plus_INR by lia. change (INR 1) with 1. ring.
    + intros k K. replace (r_rows d - 1 - (r_rows d - 1 - i))%nat with i by lia.
      unfold elevation, Reqb. now destruct Req_EM_T.
Qed.
Print Assumptions C103_dem2array.

(** Two ways from a text file to the arrays. *)
Theorem C103_grd2array f n : r_nodata (a_raster f) = IZR n -> (1 < r_rows (a_raster f))%nat -> (1 < r_cols (a_raster f))%nat ->
  forall d, asc2dem_file f = Some d -> grd2array f = dem2array d /\ exists a, grd2array f = Some a.
Proof.
  intros N R1 C1 d H. unfold asc2dem_file in H. unfold grd2array.
  destruct (known (a_xkey f) && known (a_ykey f)); [|discriminate]. cbn [negb].
  unfold asc2dem in H. fold (well_formed (a_raster f)) in H. destruct (well_formed (a_raster f)) eqn:W; [|discriminate].
  injection H as <-. pose proof W as W'. apply well_formed_spec in W'. destruct W' as (L & F).
  rewrite (proj2 (Nat.eqb_eq _ _) L). cbn [negb].
  rewrite (loadtxt_matrix _ _ _ L F R1 C1). unfold dem2array. rewrite W. cbn [negb].
  split; [|eexists; reflexivity]. rewrite N, trunc_IZR. rewrite !(Rmult_comm (r_cell (a_raster f))). reflexivity.
Qed.
Print Assumptions C103_grd2array.

Theorem C103_tif2array t :
  shows (tif2array t) (t_rows t) (t_cols t) (fun k => t_x t + INR k * t_xres t) (fun i => t_y t + INR i * t_yres t)
    (fun i k => match t_nodata t with
                | Some n => if Req_EM_T (t_data t i k) n then None else Some (t_data t i k)
                | None => Some (t_data t i k) end).
Proof.
  unfold tif2array, shows. destruct (Rltb_spec (t_yres t) 0) as [Y|Y];
    cbn [ax_x ax_y ax_z]; destruct (t_nodata t); cbn [where_nan transpose flipud];
    (eexists; split; [reflexivity|]; rewrite !linspace_length; do 2 (split; [reflexivity|]); split;
     [intros k K; now apply linspace_at|]).
  1,2: intros i I; exists (t_rows t - 1 - i)%nat; split; [lia|]; split; [now apply linspace_down|];
    intros k K; replace (t_rows t - 1 - (t_rows t - 1 - i))%nat with i by lia; unfold Reqb; try destruct Req_EM_T; reflexivity.
  all: intros i I; exists i; split; [exact I|]; split; [now apply linspace_at|];
    intros k K; unfold Reqb; try destruct Req_EM_T; reflexivity.
Qed.
Print Assumptions C103_tif2array.

(** The values of a quantity: exact for bilinear surfaces, within the range of
    the elevations otherwise, NaN outside the grid. *)
Lemma values_spec a rows cols x0 sx y0 sy v points :
  shows a rows cols (fun k => x0 + INR k * sx) (fun i => y0 + (INR rows - 1 - INR i) * sy) (fun i k => Some (v i k)) ->
  (forall j, (j < rows)%nat -> at_ (ax_y a) j = y0 + INR j * sy) ->
  (1 < rows)%nat -> (1 < cols)%nat -> 0 < sx -> 0 < sy ->
  let inside p := x0 <= fst p <= x0 + (INR cols - 1) * sx /\ y0 <= snd p <= y0 + (INR rows - 1) * sy in
  exists r, values_at a (map (fun p => (Some (fst p), Some (snd p))) points) = Some r /\
    length r = length points /\
    forall n p, nth_error points n = Some p ->
      (~ inside p -> nth_error r n = Some None) /\
      (inside p -> exists e, nth_error r n = Some (Some e) /\
         (forall c0 c1 c2 c3, (forall i k, (i < rows)%nat -> (k < cols)%nat ->
              let x := x0 + INR k * sx in let y := y0 + (INR rows - 1 - INR i) * sy in
              v i k = c0 + c1 * x + c2 * y + c3 * x * y) ->
            e = c0 + c1 * fst p + c2 * snd p + c3 * fst p * snd p) /\
         (forall lo hi, (forall i k, (i < rows)%nat -> (k < cols)%nat -> lo <= v i k <= hi) -> lo <= e <= hi)).
Proof.
  intros (z & Z1 & Lx & Ly & X & V) Y Nr Nc Sx Sy inside.
  assert (Gx : good_axis (ax_x a)) by (eapply even_axis; [exact Nc|exact Sx|exact Lx|exact X]).
  assert (Gy : good_axis (ax_y a)) by (eapply even_axis; [exact Nr|exact Sy|exact Ly|exact Y]).
  assert (Zv : forall k j, (k < length (ax_x a))%nat -> (j < length (ax_y a))%nat -> z k j = Some (v (rows - 1 - j)%nat k)).
  { rewrite Lx, Ly. intros k j K J. destruct (V (rows - 1 - j)%nat ltac:(lia)) as (j' & J' & E & Q).
    rewrite Y in E by exact J'. replace (rows - 1 - j)%nat with (rows - (1 + j))%nat in E by lia.
    rewrite minus_INR, plus_INR in E by lia. change (INR 1) with 1 in E.
    assert (INR j' = INR j) as F by (apply (Rmult_eq_reg_r sy); lra). apply INR_eq in F. subst j'. now apply Q. }
  assert (X0 : at_ (ax_x a) 0 = x0) by (rewrite X by lia; cbn; ring).
  assert (Y0 : at_ (ax_y a) 0 = y0) by (rewrite Y by lia; cbn; ring).
  assert (X1 : last_ (ax_x a) = x0 + (INR cols - 1) * sx).
  { unfold last_. rewrite Lx, X by lia. rewrite minus_INR by lia. reflexivity. }
  assert (Y1 : last_ (ax_y a) = y0 + (INR rows - 1) * sy).
  { unfold last_. rewrite Ly, Y by lia. rewrite minus_INR by lia. reflexivity. }
  destruct (C25_interpolate2d Linear (ax_x a) (ax_y a) z (map (fun p => (Some (fst p), Some (snd p))) points) Gx Gy)
    as (r & E & L & H).
  exists r. split; [unfold values_at; rewrite Z1, <- Lx, <- Ly; exact E|].
  split; [now rewrite L, map_length|]. intros n p P.
  specialize (H n _ (map_nth_error _ _ _ P)). cbn [fst snd] in H. rewrite X0, Y0, X1, Y1 in H.
  destruct H as (Hin & Hout). split; [exact Hout|]. intros I. specialize (Hin I).
  assert (Iu : at_ (ax_x a) 0 <= fst p <= last_ (ax_x a)) by (rewrite X0, X1; apply I).
  assert (Iv : at_ (ax_y a) 0 <= snd p <= last_ (ax_y a)) by (rewrite Y0, Y1; apply I).
  rewrite (value_ext _ _ z (fun k j => Some (v (rows - 1 - j)%nat k)) _ _ Gx Gy Iu Iv Zv) in Hin.
  destruct (C25_bounds (ax_x a) (ax_y a) (fun k j => v (rows - 1 - j)%nat k) _ _ Gx Gy Iu Iv)
    as (e & i & j & Ev & I1 & J1 & _ & _ & B).
  exists e. rewrite Hin, Ev. split; [reflexivity|]. split.
  - intros c0 c1 c2 c3 S.
    pose proof (C25_bilinear_exact (ax_x a) (ax_y a) c0 c1 c2 c3 _ _ Gx Gy Iu Iv) as Q.
    rewrite <- (value_ext _ _ (fun k j => Some (v (rows - 1 - j)%nat k)) _ _ _ Gx Gy Iu Iv) in Q.
    + rewrite Ev in Q. now injection Q.
    + rewrite Lx, Ly. intros k j' K J'. f_equal. rewrite S by lia. rewrite X, Y by lia.
      replace (rows - 1 - j')%nat with (rows - (1 + j'))%nat by lia. rewrite minus_INR, plus_INR by lia.
      change (INR 1) with 1. ring.
  - intros lo hi S. rewrite Lx in I1. rewrite Ly in J1.
    pose proof (S (rows - 1 - j)%nat i ltac:(lia) ltac:(lia)). pose proof (S (rows - 1 - Datatypes.S j)%nat i ltac:(lia) ltac:(lia)).
    pose proof (S (rows - 1 - j)%nat (Datatypes.S i) ltac:(lia) ltac:(lia)).
    pose proof (S (rows - 1 - Datatypes.S j)%nat (Datatypes.S i) ltac:(lia) ltac:(lia)).
    unfold min4, max4, Rmin, Rmax in B. repeat destruct Rle_dec in B; lra.
Qed.

Definition no_holes (d : raster) : Prop :=
  forall i k, (i < r_rows d)%nat -> (k < r_cols d)%nat -> cell_of (r_data d) i k <> r_nodata d.
Definition in_grid (d : raster) (p : R * R) : Prop :=
  r_xll d <= fst p <= r_xll d + (INR (r_cols d) - 1) * r_cell d /\
  r_yll d <= snd p <= r_yll d + (INR (r_rows d) - 1) * r_cell d.

Theorem C103_values d points : well_formed d = true -> no_holes d ->
  (1 < r_rows d)%nat -> (1 < r_cols d)%nat -> 0 < r_cell d ->
  exists a r, dem2array d = Some a /\
    values_at a (map (fun p => (Some (fst p), Some (snd p))) points) = Some r /\ length r = length points /\
    forall n p, nth_error points n = Some p ->
      (~ in_grid d p -> nth_error r n = Some None) /\
      (in_grid d p -> exists e, nth_error r n = Some (Some e) /\
         (forall c0 c1 c2 c3, (forall i k, (i < r_rows d)%nat -> (k < r_cols d)%nat ->
              cell_of (r_data d) i k = c0 + c1 * node_x d k + c2 * node_y d i + c3 * node_x d k * node_y d i) ->
            e = c0 + c1 * fst p + c2 * snd p + c3 * fst p * snd p) /\
         (forall lo hi, (forall i k, (i < r_rows d)%nat -> (k < r_cols d)%nat -> lo <= cell_of (r_data d) i k <= hi) ->
            lo <= e <= hi)).
Proof.
  intros W Hn R1 C1 S. destruct (C103_dem2array d W) as (a & E & z & Z1 & Lx & Ly & X & V).
  destruct (values_spec a (r_rows d) (r_cols d) (r_xll d) (r_cell d) (r_yll d) (r_cell d) (cell_of (r_data d)) points) as (r & H); auto.
  - exists z. split; [exact Z1|]. split; [exact Lx|]. split; [exact Ly|]. split; [exact X|].
    intros i I. destruct (V i I) as (j & J & A & B). exists j. split; [exact J|]. split; [exact A|].
    intros k K. rewrite (B k K). unfold elevation. destruct Req_EM_T as [Q|Q]; [|reflexivity]. now apply Hn in Q.
  - intros j J. unfold dem2array in E. rewrite W in E. injection E as <-. now apply linspace_at.
  - exists a, r. split; [exact E|exact H].
Qed.
Print Assumptions C103_values.

(** ** Decimation *)

(** The stencil is a weighted mean around its middle. *)
Definition weighted (st : stencil) (w : nat -> nat -> R) : R :=
  total (s_rows st) (fun a => total (s_cols st) (fun b => w a b * s_at st a b)).
Definition centred (st : stencil) : Prop :=
  weighted st (fun _ _ => 1) = 1 /\
  weighted st (fun _ b => INR b) = (INR (s_cols st) - 1) / 2 /\
  weighted st (fun a _ => INR a) = (INR (s_rows st) - 1) / 2.

(** What the code assumes: an integral cell size and NODATA value, and a new
    cell size of at least [rho] old ones. *)
Definition admissible (st : stencil) (rho : nat) (cell_new : R) (d : raster) : Prop :=
  well_formed d = true /\ (exists c, (0 < c)%Z /\ r_cell d = IZR c) /\ (exists n, r_nodata d = IZR n) /\
  (1 <= rho)%nat /\ INR rho * r_cell d <= cell_new < (INR rho + 1) * r_cell d /\
  (s_rows st <= r_rows d)%nat /\ (s_cols st <= r_cols d)%nat.

Lemma dem2dem_admissible st rho cell_new d : admissible st rho cell_new d ->
  exists d', dem2dem false st cell_new d = Some d' /\
    d' = {| r_cols := 1 + (r_cols d - s_cols st) / rho; r_rows := 1 + (r_rows d - s_rows st) / rho;
            r_xll := r_xll d + INR (s_cols st) / 2 * r_cell d; r_yll := r_yll d + INR (s_rows st) / 2 * r_cell d;
            r_cell := cell_new; r_nodata := r_nodata d;
            r_data := map (fun i => map (fun j => decimated st (r_nodata d) (r_data d) (i * rho) (j * rho))
                         (seq 0 (1 + (r_cols d - s_cols st) / rho))) (seq 0 (1 + (r_rows d - s_rows st) / rho)) |}.
Proof.
  intros (W & (c & C0 & C) & (n & N) & R1 & Q & Sr & Sc). unfold dem2dem. rewrite W, C, N, !trunc_IZR. cbn [negb].
  rewrite C in Q. assert (0 < IZR c) as C' by now apply (IZR_lt 0).
  rewrite (trunc_ratio (cell_new / IZR c) rho R1).
  2:{ assert (cell_new / IZR c * IZR c = cell_new) by (field; lra). split; [apply (Rmult_le_reg_r (IZR c))|apply (Rmult_lt_reg_r (IZR c))]; lra. }
  rewrite (proj2 (Z.eqb_neq c 0)), (proj2 (Z.eqb_neq (Z.of_nat rho) 0)) by lia.
  destruct (new_count (r_cols d) (s_cols st) rho R1 Sc) as (A1 & A2 & _).
  destruct (new_count (r_rows d) (s_rows st) rho R1 Sr) as (B1 & B2 & _).
  rewrite (proj2 (Z.ltb_ge _ 0)) by lia. rewrite (proj2 (Z.ltb_ge _ 0)) by lia. cbn [orb].
  rewrite A2, B2, Nat2Z.id. eexists. split; reflexivity.
Qed.

Theorem C103_dem2dem st rho cell_new d : admissible st rho cell_new d ->
  exists d', dem2dem false st cell_new d = Some d' /\ well_formed d' = true /\
    r_cell d' = cell_new /\ r_nodata d' = r_nodata d /\
    (rho * (r_rows d' - 1) + s_rows st + (r_rows d - s_rows st) mod rho = r_rows d)%nat /\ (1 <= r_rows d')%nat /\
    (rho * (r_cols d' - 1) + s_cols st + (r_cols d - s_cols st) mod rho = r_cols d)%nat /\ (1 <= r_cols d')%nat /\
    forall i j, (i < r_rows d')%nat -> (j < r_cols d')%nat ->
      (forall a b, (a < s_rows st)%nat -> (b < s_cols st)%nat ->
         (i * rho + a < r_rows d /\ j * rho + b < r_cols d)%nat /\
         (cell_of (r_data d) (i * rho + a) (j * rho + b) = r_nodata d -> cell_of (r_data d') i j = r_nodata d)) /\
      ((forall a b, (a < s_rows st)%nat -> (b < s_cols st)%nat -> cell_of (r_data d) (i * rho + a) (j * rho + b) <> r_nodata d) ->
       cell_of (r_data d') i j = weighted st (fun a b => cell_of (r_data d) (i * rho + a) (j * rho + b))).
Proof.
  intros H. destruct (dem2dem_admissible _ _ _ _ H) as (d' & E & D). exists d'. split; [exact E|].
  destruct H as (W & _ & _ & R1 & Q & Sr & Sc).
  destruct (new_count (r_cols d) (s_cols st) rho R1 Sc) as (_ & A2 & A3). rewrite A2 in A3.
  destruct (new_count (r_rows d) (s_rows st) rho R1 Sr) as (_ & B2 & B3). rewrite B2 in B3.
  split; [apply well_formed_spec; rewrite D; cbn [r_data r_rows r_cols]; split|].
  - now rewrite map_length, seq_length.
  - apply Forall_forall. intros row I. apply in_map_iff in I. destruct I as (i & <- & _). now rewrite map_length, seq_length.
  - rewrite D. cbn [r_cell r_nodata r_rows r_cols r_data]. do 2 (split; [reflexivity|]).
    split; [exact B3|]. split; [lia|]. split; [exact A3|]. split; [lia|].
    intros i j I J.
    assert (Ci : cell_of (map (fun i => map (fun j => decimated st (r_nodata d) (r_data d) (i * rho) (j * rho))
       (seq 0 (1 + (r_cols d - s_cols st) / rho))) (seq 0 (1 + (r_rows d - s_rows st) / rho))) i j =
       decimated st (r_nodata d) (r_data d) (i * rho) (j * rho)).
    { unfold cell_of at 1. rewrite nth_map_seq by exact I. now rewrite nth_map_seq by exact J. }
    rewrite Ci. split.
    + intros a b A B. split; [|intros V; now apply (decimated_hole _ _ _ _ _ a b)].
      replace (1 + (r_rows d - s_rows st) / rho - 1)%nat with ((r_rows d - s_rows st) / rho)%nat in B3 by lia.
      replace (1 + (r_cols d - s_cols st) / rho - 1)%nat with ((r_cols d - s_cols st) / rho)%nat in A3 by lia.
      assert (i * rho <= rho * ((r_rows d - s_rows st) / rho))%nat by (rewrite Nat.mul_comm; apply Nat.mul_le_mono_l; lia).
      assert (j * rho <= rho * ((r_cols d - s_cols st) / rho))%nat by (rewrite Nat.mul_comm; apply Nat.mul_le_mono_l; lia).
      lia.
    + intros F. now apply decimated_full.
Qed.
Print Assumptions C103_dem2dem.

(** The middle of the block used for row [i], column [j] of the new grid. *)
Definition block_x (st : stencil) (rho : nat) (d : raster) (j : nat) : R :=
  r_xll d + (INR j * INR rho + (INR (s_cols st) - 1) / 2) * r_cell d.
Definition block_y (st : stencil) (rho : nat) (d : raster) (i : nat) : R :=
  r_yll d + (INR (r_rows d) - 1 - (INR i * INR rho + (INR (s_rows st) - 1) / 2)) * r_cell d.

Lemma weighted_plane st c0 c1 c2 x s y t : centred st ->
  weighted st (fun a b => c0 + c1 * (x + INR b * s) + c2 * (y - INR a * t)) =
  c0 + c1 * (x + (INR (s_cols st) - 1) / 2 * s) + c2 * (y - (INR (s_rows st) - 1) / 2 * t).
Proof.
  intros (H0 & H1 & H2).
  assert (E : weighted st (fun a b => c0 + c1 * (x + INR b * s) + c2 * (y - INR a * t)) =
    (c0 + c1 * x + c2 * y) * weighted st (fun _ _ => 1) + (c1 * s) * weighted st (fun _ b => INR b) +
    (- (c2 * t)) * weighted st (fun a _ => INR a)).
  { unfold weighted. rewrite <- !total_scal, <- !total_plus. apply total_ext. intros a _.
    rewrite <- !total_scal, <- !total_plus. apply total_ext. intros b _. ring. }
  rewrite E, H0, H1, H2. ring.
Qed.

(** A plane is averaged to its value in the middle of the block, which is not
    where the new grid has its node: it is half an old cell away in both
    directions, and further if rows are left over or the cell sizes are no
    multiples. *)
Theorem C103_plane st rho cell_new d c0 c1 c2 : admissible st rho cell_new d -> centred st -> no_holes d ->
  (forall i k, (i < r_rows d)%nat -> (k < r_cols d)%nat -> cell_of (r_data d) i k = c0 + c1 * node_x d k + c2 * node_y d i) ->
  exists d', dem2dem false st cell_new d = Some d' /\
    forall i j, (i < r_rows d')%nat -> (j < r_cols d')%nat ->
      cell_of (r_data d') i j = c0 + c1 * block_x st rho d j + c2 * block_y st rho d i /\
      node_x d' j - block_x st rho d j = r_cell d / 2 + INR j * (cell_new - INR rho * r_cell d) /\
      node_y d' i - block_y st rho d i = r_cell d / 2 - INR ((r_rows d - s_rows st) mod rho) * r_cell d
        + (INR (r_rows d') - 1 - INR i) * (cell_new - INR rho * r_cell d).
Proof.
  intros H Ce Hn P. destruct (dem2dem_admissible _ _ _ _ H) as (e' & E' & D).
  destruct (C103_dem2dem _ _ _ _ H) as (d' & E & _ & _ & _ & B3 & B4 & A3 & A4 & V).
  rewrite E in E'. injection E' as <-. exists d'. split; [exact E|]. intros i j I J.
  destruct (V i j I J) as (V1 & V2). split; [|split].
  - rewrite V2 by (intros a b A B; destruct (V1 a b A B) as ((? & ?) & _); now apply Hn).
    transitivity (weighted st (fun a b => c0 + c1 * ((r_xll d + INR j * INR rho * r_cell d) + INR b * r_cell d)
        + c2 * ((r_yll d + (INR (r_rows d) - 1 - INR i * INR rho) * r_cell d) - INR a * r_cell d))).
    + unfold weighted. apply total_ext. intros a A. apply total_ext. intros b B.
      destruct (V1 a b A B) as ((? & ?) & _). rewrite P by assumption. unfold node_x, node_y.
      rewrite !plus_INR, !mult_INR. ring.
    + rewrite weighted_plane by exact Ce. unfold block_x, block_y. ring.
  - assert (X : r_xll d' = r_xll d + INR (s_cols st) / 2 * r_cell d) by now rewrite D.
    assert (X2 : r_cell d' = cell_new) by now rewrite D.
    unfold node_x, block_x. rewrite X, X2. field.
  - assert (X : r_yll d' = r_yll d + INR (s_rows st) / 2 * r_cell d) by now rewrite D.
    assert (X2 : r_cell d' = cell_new) by now rewrite D.
    apply (f_equal INR) in B3. rewrite !plus_INR, mult_INR, minus_INR in B3 by lia. change (INR 1) with 1 in B3.
    unfold node_y, block_y. rewrite X, X2. rewrite <- B3. field.
Qed.
Print Assumptions C103_plane.

(** ** Where the property fails *)

Definition unit_stencil : stencil := {| s_rows := 1; s_cols := 1; s_at := fun _ _ => 1 |}.

Lemma unit_centred : centred unit_stencil.
Proof. unfold centred, weighted, total. cbn. repeat split; lra. Qed.

(** A decimation that should change nothing moves the grid by half a cell to
    the north and to the east. *)
Theorem C103_shift_refuted d c n : well_formed d = true -> r_cell d = IZR c -> (0 < c)%Z -> r_nodata d = IZR n ->
  (1 <= r_rows d)%nat -> (1 <= r_cols d)%nat ->
  dem2dem false unit_stencil (r_cell d) d =
  Some {| r_cols := r_cols d; r_rows := r_rows d; r_xll := r_xll d + r_cell d / 2; r_yll := r_yll d + r_cell d / 2;
          r_cell := r_cell d; r_nodata := r_nodata d; r_data := r_data d |}.
Proof.
  intros W C C0 N R1 C1. assert (0 < r_cell d) as P by (rewrite C; now apply (IZR_lt 0)).
  destruct (dem2dem_admissible unit_stencil 1 (r_cell d) d) as (d' & E & D).
  { repeat split; auto; [now exists c|now exists n|cbn; lra|cbn; lra]. }
  rewrite E, D. cbn [unit_stencil s_rows s_cols]. rewrite !Nat.div_1_r.
  replace (1 + (r_cols d - 1))%nat with (r_cols d) by lia. replace (1 + (r_rows d - 1))%nat with (r_rows d) by lia.
  apply well_formed_spec in W. destruct W as (L & F).
  rewrite (data_ext (r_data d) (r_rows d) (r_cols d) _ L F).
  - f_equal. f_equal; cbn [INR]; field.
  - intros i k _ _. rewrite !Nat.mul_1_r. unfold decimated. cbn. rewrite !Nat.add_0_r, !orb_false_r.
    unfold Reqb. destruct Req_EM_T as [Q|Q]; [now rewrite Q|]. unfold total. cbn. rewrite ?Nat.add_0_r. ring.
Qed.
Print Assumptions C103_shift_refuted.

(** Two rows of the surface z = y, every second row asked for: the value of the
    upper row, at y = 1, is put at y = 1/2. *)
Definition column : raster := {| r_cols := 1; r_rows := 2; r_xll := 0; r_yll := 0; r_cell := 1; r_nodata := -9999; r_data := [[1]; [0]] |}.
Theorem C103_rows_refuted : exists d', dem2dem false unit_stencil 2 column = Some d' /\
  (forall i, (i < 2)%nat -> cell_of (r_data column) i 0 = node_y column i) /\
  r_rows d' = 1%nat /\ cell_of (r_data d') 0 0 = 1 /\ node_y d' 0 = 1 / 2.
Proof.
  destruct (dem2dem_admissible unit_stencil 2 2 column) as (d' & E & D).
  { repeat split; cbn; auto; [exists 1%Z; split; [lia|reflexivity]|exists (-9999)%Z; reflexivity|lra|lra]. }
  exists d'. split; [exact E|]. split.
  { intros [|[|]] I; [cbn; unfold node_y; cbn; lra|cbn; unfold node_y; cbn; lra|lia]. }
  rewrite D. split; [reflexivity|]. split.
  - unfold cell_of. cbn. unfold decimated. cbn. unfold total. cbn.
    unfold cell_of. cbn. unfold Reqb. destruct Req_EM_T; cbn; lra.
  - unfold node_y. cbn. lra.
Qed.
Print Assumptions C103_rows_refuted.

(** Cells of 2, new cells of 3: every old column is taken, and written as if
    three apart. *)
Definition line : raster := {| r_cols := 3; r_rows := 1; r_xll := 0; r_yll := 0; r_cell := 2; r_nodata := -9999; r_data := [[0; 2; 4]] |}.
Theorem C103_drift_refuted : exists d', dem2dem false unit_stencil 3 line = Some d' /\
  (forall k, (k < 3)%nat -> cell_of (r_data line) 0 k = node_x line k) /\
  r_cols d' = 3%nat /\ cell_of (r_data d') 0 2 = 4 /\ node_x d' 2 = 7.
Proof.
  destruct (dem2dem_admissible unit_stencil 1 3 line) as (d' & E & D).
  { repeat split; cbn; auto; [exists 2%Z; split; [lia|reflexivity]|exists (-9999)%Z; reflexivity|lra|lra]. }
  exists d'. split; [exact E|]. split.
  { intros [|[|[|]]] I; [cbn; unfold node_x; cbn; lra|cbn; unfold node_x; cbn; lra|cbn; unfold node_x; cbn; lra|lia]. }
  rewrite D. split; [reflexivity|]. split.
  - unfold cell_of. cbn. unfold decimated. cbn. unfold total. cbn.
    unfold cell_of. cbn. unfold Reqb. destruct Req_EM_T; cbn; lra.
  - unfold node_x. cbn. lra.
Qed.
Print Assumptions C103_drift_refuted.

(** Cells smaller than one unit cannot be decimated; nor can a name be given. *)
Theorem C103_fraction_refuted d st cell_new : 0 < r_cell d < 1 -> dem2dem false st cell_new d = None.
Proof.
  intros H. unfold dem2dem. destruct (negb (well_formed d)); [reflexivity|].
  rewrite (trunc_fraction (r_cell d)) by lra. reflexivity.
Qed.
Print Assumptions C103_fraction_refuted.

Theorem C103_name_refuted d st cell_new : dem2dem true st cell_new d = None.
Proof. reflexivity. Qed.
Print Assumptions C103_name_refuted.

(** A NODATA value that is no integer is not recognised: holes are averaged as
    elevations, and grd2array returns them. *)
Definition hole : raster := {| r_cols := 2; r_rows := 2; r_xll := 0; r_yll := 0; r_cell := 1; r_nodata := -9999 - / 2;
  r_data := [[-9999 - / 2; 1]; [1; 1]] |}.
Lemma trunc_hole : IZR (trunc (-9999 - / 2)) = -9999.
Proof.
  unfold trunc. rewrite (proj2 (Rltb_true _ _)) by lra.
  pose proof (int_part_bounds (- (-9999 - / 2))) as B.
  assert (9998 < Int_part (- (-9999 - / 2)) < 10000)%Z as I by (split; apply lt_IZR; lra).
  replace (Int_part (- (-9999 - / 2))) with 9999%Z by lia. reflexivity.
Qed.
Theorem C103_nodata_refuted :
  (exists d', dem2dem false unit_stencil 1 hole = Some d' /\ r_nodata d' = -9999 /\ cell_of (r_data d') 0 0 = -9999 - / 2) /\
  exists a z, grd2array {| a_xkey := Corner; a_ykey := Corner; a_raster := hole |} = Some a /\
    ax_z a = Matrix 2 2 z /\ z 0%nat 1%nat = Some (-9999 - / 2).
Proof.
  split.
  - unfold dem2dem, well_formed. cbn [hole r_data r_rows r_cols r_cell r_nodata r_xll r_yll length forallb Nat.eqb andb negb].
    rewrite (trunc_IZR 1 : trunc 1 = 1%Z). cbn [Z.eqb].
    replace (1 / IZR 1) with (IZR 1) by (cbn; field). rewrite trunc_IZR. cbn -[decimated trunc IZR]. rewrite trunc_hole.
    eexists. split; [reflexivity|]. split; [reflexivity|]. unfold cell_of. cbn [r_data nth map].
    unfold decimated. cbn. unfold cell_of. cbn.
    change (Pos.to_nat 1) with 1%nat. change (Pos.to_nat 2) with 2%nat. cbn.
    unfold Reqb. destruct Req_EM_T as [Q|Q]; cbn; [lra|]. unfold total. cbn. ring.
  - unfold grd2array. cbn -[trunc IZR]. rewrite trunc_hole. do 2 eexists. split; [reflexivity|].
    cbn [ax_z]. split; [reflexivity|]. cbn. unfold cell_of. cbn. unfold Reqb. destruct Req_EM_T as [Q|Q]; [lra|reflexivity].
Qed.
Print Assumptions C103_nodata_refuted.

(** The corner of the first cell and its centre are taken for the same point. *)
Theorem C103_center_refuted a :
  asc2dem_file {| a_xkey := Corner; a_ykey := Corner; a_raster := a |} =
  asc2dem_file {| a_xkey := Center; a_ykey := Center; a_raster := a |} /\
  grd2array {| a_xkey := Corner; a_ykey := Corner; a_raster := a |} =
  grd2array {| a_xkey := Center; a_ykey := Center; a_raster := a |}.
Proof. split; reflexivity. Qed.
Print Assumptions C103_center_refuted.

(** One row: the elevations are returned from east to west, in an array that
    cannot be interpolated. *)
Theorem C103_one_row_refuted f row : known (a_xkey f) = true -> known (a_ykey f) = true ->
  r_rows (a_raster f) = 1%nat -> r_data (a_raster f) = [row] -> (1 < length row)%nat ->
  exists a v, grd2array f = Some a /\ ax_z a = Vector (length row) v /\
    (forall k, (k < length row)%nat -> v k = if Req_EM_T (nth (length row - 1 - k) row 0) (IZR (trunc (r_nodata (a_raster f)))) then None
                                             else Some (nth (length row - 1 - k) row 0)) /\
    forall points, values_at a points = None.
Proof.
  intros X Y R1 D L. unfold grd2array. rewrite X, Y, D, R1. cbn [andb negb length Nat.eqb].
  unfold loadtxt. cbn [forallb negb]. rewrite (proj2 (Nat.eqb_neq (length row) 1)) by lia. cbn [length Nat.eqb].
  do 2 eexists. split; [reflexivity|]. cbn [ax_z flipud transpose where_nan]. split; [reflexivity|]. split; [|reflexivity].
  intros k K. unfold cell_of, Reqb. cbn [nth]. now destruct Req_EM_T.
Qed.
Print Assumptions C103_one_row_refuted.

(** A picture whose pixels hold a plane at their middles gives the plane moved
    by half a pixel. *)
Theorem C103_tif_refuted t c0 c1 c2 points : t_nodata t = None -> (1 < t_rows t)%nat -> (1 < t_cols t)%nat ->
  0 < t_xres t -> t_yres t < 0 ->
  (forall i k, (i < t_rows t)%nat -> (k < t_cols t)%nat ->
     t_data t i k = c0 + c1 * (t_x t + (INR k + / 2) * t_xres t) + c2 * (t_y t + (INR i + / 2) * t_yres t)) ->
  exists r, values_at (tif2array t) (map (fun p => (Some (fst p), Some (snd p))) points) = Some r /\
    forall n p, nth_error points n = Some p ->
      t_x t <= fst p <= t_x t + (INR (t_cols t) - 1) * t_xres t ->
      t_y t + (INR (t_rows t) - 1) * t_yres t <= snd p <= t_y t ->
      nth_error r n = Some (Some (c0 + c1 * fst p + c2 * snd p + (c1 * t_xres t + c2 * t_yres t) / 2)).
Proof.
  intros N R1 C1 X Y P.
  destruct (C103_tif2array t) as (z & Z1 & Lx & Ly & Ax & V).
  destruct (values_spec (tif2array t) (t_rows t) (t_cols t) (t_x t) (t_xres t) (t_y t + (INR (t_rows t) - 1) * t_yres t) (- t_yres t)
    (t_data t) points) as (r & E & _ & H); auto; [| |lra|].
  - exists z. split; [exact Z1|]. split; [exact Lx|]. split; [exact Ly|]. split; [exact Ax|].
    intros i I. destruct (V i I) as (j & J & A & B). exists j. split; [exact J|]. split; [rewrite A; ring|].
    intros k K. rewrite (B k K), N. reflexivity.
  - intros j J. unfold tif2array. rewrite (proj2 (Rltb_true _ _) Y). cbn [ax_y].
    replace j with (t_rows t - 1 - (t_rows t - 1 - j))%nat at 1 by lia. rewrite linspace_down by lia.
    replace (t_rows t - 1 - j)%nat with (t_rows t - (1 + j))%nat by lia. rewrite minus_INR, plus_INR by lia.
    change (INR 1) with 1. ring.
  - exists r. split; [exact E|]. intros n p Pn Ix Iy. destruct (H n p Pn) as (_ & H2).
    destruct H2 as (e & Ee & Ex & _); [split; [exact Ix|lra]|]. rewrite Ee. do 2 f_equal.
    rewrite (Ex (c0 + (c1 * t_xres t + c2 * t_yres t) / 2) c1 c2 0); [ring|].
    intros i k I K x y. unfold x, y. rewrite P by assumption. field.
Qed.
Print Assumptions C103_tif_refuted.

(** ** A case *)

(** The plane z = x on three rows and columns, averaged over two by two. *)
Definition slope : raster := {| r_cols := 3; r_rows := 3; r_xll := 10; r_yll := 20; r_cell := 1; r_nodata := -9999;
  r_data := [[10; 11; 12]; [10; 11; 12]; [10; 11; 12]] |}.
Definition mean_stencil : stencil := {| s_rows := 2; s_cols := 2; s_at := fun _ _ => / 4 |}.
Example C103_case : exists d', dem2dem false mean_stencil 1 slope = Some d' /\
  admissible mean_stencil 1 1 slope /\ centred mean_stencil /\ no_holes slope /\
  r_rows d' = 2%nat /\ cell_of (r_data d') 1 0 = 21 / 2 /\ node_x d' 0 = 11.
Proof.
  assert (H : admissible mean_stencil 1 1 slope).
  { repeat split; cbn; auto; [exists 1%Z; split; [lia|reflexivity]|exists (-9999)%Z; reflexivity|lra|lra]. }
  assert (C : centred mean_stencil) by (unfold centred, weighted, total; cbn; repeat split; lra).
  assert (N : no_holes slope).
  { intros i k I K. cbn in I, K. destruct i as [|[|[|]]]; try lia; destruct k as [|[|[|]]]; try lia; unfold cell_of; cbn; lra. }
  destruct (C103_plane mean_stencil 1 1 slope 0 1 0 H C N) as (d' & E & V).
  { intros i k I K. cbn in I, K. destruct i as [|[|[|]]]; try lia; destruct k as [|[|[|]]]; try lia; unfold cell_of, node_x; cbn; lra. }
  exists d'. split; [exact E|]. do 3 (split; [assumption|]).
  destruct (dem2dem_admissible _ _ _ _ H) as (e & E2 & D). rewrite E in E2. injection E2 as <-.
  assert (Rw : r_rows d' = 2%nat) by (rewrite D; reflexivity). assert (Cl : r_cols d' = 2%nat) by (rewrite D; reflexivity).
  split; [exact Rw|]. destruct (V 1%nat 0%nat ltac:(lia) ltac:(lia)) as (V1 & V2 & _).
  unfold block_x in V1, V2. cbn in V1, V2. split; lra.
Qed.
Example C103_values_case : exists a, dem2array slope = Some a /\ values_at a [(Some (21 / 2), Some 21); (Some 9, Some 21)] = Some [Some (21 / 2); None].
Proof.
  destruct (C103_values slope [(21 / 2, 21); (9, 21)]) as (a & r & E & V & L & H); [reflexivity| |cbn; lia|cbn; lia|cbn; lra|].
  { intros i k I K. cbn in I, K. destruct i as [|[|[|]]]; try lia; destruct k as [|[|[|]]]; try lia; unfold cell_of; cbn; lra. }
  exists a. split; [exact E|]. cbn [map fst snd] in V. rewrite V. f_equal.
  destruct (H 0%nat _ eq_refl) as (_ & A). destruct (H 1%nat _ eq_refl) as (B & _).
  destruct A as (e & A1 & A2 & _); [unfold in_grid; cbn; lra|].
  rewrite (A2 0 1 0 0) in A1.
  2:{ intros i k I K. cbn in I, K. destruct i as [|[|[|]]]; try lia; destruct k as [|[|[|]]]; try lia; unfold cell_of, node_x; cbn; lra. }
  destruct r as [|r0 [|r1 [|]]]; try discriminate L. cbn in A1, B. injection A1 as ->.
  assert (Q : Some r1 = Some None) by (apply B; unfold in_grid; cbn; lra). injection Q as ->.
  do 2 f_equal. lra.
Qed.
Example C103_grd_case : exists a, grd2array {| a_xkey := Corner; a_ykey := Center; a_raster := slope |} = Some a /\ dem2array slope = Some a.
Proof.
  destruct (C103_grd2array {| a_xkey := Corner; a_ykey := Center; a_raster := slope |} (-9999) eq_refl ltac:(cbn; lia) ltac:(cbn; lia) slope eq_refl)
    as (E & a & A). exists a. rewrite <- E. split; exact A.
Qed.
Example C103_tif_case : exists r, values_at (tif2array {| t_cols := 2; t_rows := 2; t_x := 0; t_xres := 1; t_y := 2; t_yres := -1; t_nodata := None;
    t_data := fun i k => INR k + / 2 |}) [(Some 0, Some 1)] = Some r /\ nth_error r 0 = Some (Some (/ 2)).
Proof.
  destruct (C103_tif_refuted {| t_cols := 2; t_rows := 2; t_x := 0; t_xres := 1; t_y := 2; t_yres := -1; t_nodata := None;
    t_data := fun i k => INR k + / 2 |} 0 1 0 [(0, 1)] eq_refl) as (r & E & H); [cbn; lia|cbn; lia|cbn; lra|cbn; lra|intros; cbn; lra|].
  exists r. split; [exact E|]. rewrite (H 0%nat _ eq_refl) by (cbn; lra). do 2 f_equal. cbn. lra.
Qed.
