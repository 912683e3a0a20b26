(** Model of the second order reconstruction of
    anuga/shallow_water/sw_domain_orig.c: [find_qmin_and_qmax],
    [limit_gradient] and [_extrapolate_second_order_edge_sw].

    Each loop of the source writes only entries of the triangle [k] it is
    visiting, and reads arrays that the same loop does not write (except
    entry [k] itself), so the loops are modelled as functions of [k]. *)
From Coq Require Import Reals List ZArith Arith Bool.
From Verif Require Import RealLib FluxModel.
Local Open Scope R_scope.

(** [dqv[3]] *)
Definition jumps : Type := (R * R * R)%type.
Definition jump (d : jumps) (i : nat) : R :=
  match i with 0%nat => fst (fst d) | 1%nat => snd (fst d) | _ => snd d end.

(** [find_qmin_and_qmax], lines 1286-1304. *)
Definition find_qmax (dq0 dq1 dq2 : R) : R := Rmax (Rmax dq0 (Rmax (dq0 + dq1) (dq0 + dq2))) 0.
Definition find_qmin (dq0 dq1 dq2 : R) : R := Rmin (Rmin dq0 (Rmin (dq0 + dq1) (dq0 + dq2))) 0.

(** One iteration of the loop of [limit_gradient] (lines 1323-1331) on (r, r0). *)
Definition limit_step (qmin qmax : R) (s : R * R) (d : R) : R * R :=
  let '(r, r0) := s in
  let r0 := if Rltb d (- tiny) then qmin / d else r0 in
  let r0 := if Rltb tiny d then qmax / d else r0 in
  (Rmin r0 r, r0).

(** The factor [phi] of [limit_gradient], lines 1306-1333. *)
Definition limit_phi (d : jumps) (qmin qmax beta_w : R) : R :=
  let s := (1000, 1) in
  let s := limit_step qmin qmax s (jump d 0) in
  let s := limit_step qmin qmax s (jump d 1) in
  let s := limit_step qmin qmax s (jump d 2) in
  Rmin (fst s * beta_w) 1.

(** [limit_gradient], lines 1306-1340. *)
Definition limit_gradient (d : jumps) (qmin qmax beta_w : R) : jumps :=
  let phi := limit_phi d qmin qmax beta_w in
  (jump d 0 * phi, jump d 1 * phi, jump d 2 * phi).

(** The inputs of the reconstruction. *)
Record recon := Recon {
  r_number_of_elements : nat;
  r_update : nat -> Z;                       (* update_extrapolation *)
  r_number_of_boundaries : nat -> Z;
  r_surrogate : nat -> nat;                  (* surrogate_neighbours[3k+i] *)
  r_ex : nat -> R; r_ey : nat -> R;          (* edge_coordinates *)
  r_cx : nat -> R; r_cy : nat -> R;          (* centroid_coordinates *)
  r_beta_w : R; r_beta_w_dry : R;
  r_beta_uh : R; r_beta_uh_dry : R;
  r_beta_vh : R; r_beta_vh_dry : R;
  r_minimum_allowed_height : R;
  r_velocity : Z;                            (* extrapolate_velocity_second_order *)
  r_stage : nat -> R; r_bed : nat -> R;      (* centroid values *)
  r_height : nat -> R;
  r_xmom : nat -> R; r_ymom : nat -> R;
  r_stage_e : nat -> R; r_height_e : nat -> R; r_xmom_e : nat -> R; r_ymom_e : nat -> R;
  r_bed_e : nat -> R;
  r_stage_v : nat -> R; r_height_v : nat -> R; r_xmom_v : nat -> R; r_ymom_v : nat -> R;
  r_bed_v : nat -> R }.

Section Reconstruct.
Variable I : recon.

(** Lines 2018-2042: depth at the centroid, and momentum replaced by velocity. *)
Definition height1 (k : nat) : R :=
  if Z.eqb (r_velocity I) 1 then Rmax (r_stage I k - r_bed I k) 0 else r_height I k.
Definition wet_cell (k : nat) : bool := Rltb (r_minimum_allowed_height I) (height1 k).
Definition work1 (mom : nat -> R) (k : nat) : R :=          (* x_centroid_work *)
  if Z.eqb (r_velocity I) 1 then (if wet_cell k then mom k else 0) else 0.
Definition mom1 (mom : nat -> R) (k : nat) : R :=           (* xmom_centroid_values *)
  if Z.eqb (r_velocity I) 1 then (if wet_cell k then mom k * (1 / height1 k) else 0) else mom k.

(** Lines 2048-2068: triangles surrounded by dry cells. *)
Definition dry_side (k i : nat) : bool :=
  let n := r_surrogate I (3 * k + i) in
  Rltb (height1 n) (r_minimum_allowed_height I) || Nat.eqb n k.
Definition surrounded (k : nat) : bool := dry_side k 0 && dry_side k 1 && dry_side k 2.
Definition work2 (mom : nat -> R) (k : nat) : R := if surrounded k then 0 else work1 mom k.
Definition mom2 (mom : nat -> R) (k : nat) : R := if surrounded k then 0 else mom1 mom k.

(** Lines 2125-2130: position of edge midpoint [i] relative to the centroid. *)
Definition dxv (k i : nat) : R := r_ex I (3 * k + i) - r_cx I k.
Definition dyv (k i : nat) : R := r_ey I (3 * k + i) - r_cy I k.
Definition edge_jumps (k : nat) (a b : R) : jumps :=
  (a * dxv k 0 + b * dyv k 0, a * dxv k 1 + b * dyv k 1, a * dxv k 2 + b * dyv k 2).

(** Constant extrapolation (number_of_boundaries = 3, area2 <= 0, beta = 0). *)
Definition flat : jumps := (0, 0, 0).

(** * Typical case, lines 2136-2426 *)
Definition nb0 (k : nat) := r_surrogate I (3 * k).
Definition nb1 (k : nat) := r_surrogate I (3 * k + 1).
Definition nb2 (k : nat) := r_surrogate I (3 * k + 2).
Definition dx1 (k : nat) := r_cx I (nb1 k) - r_cx I (nb0 k).
Definition dx2 (k : nat) := r_cx I (nb2 k) - r_cx I (nb0 k).
Definition dy1 (k : nat) := r_cy I (nb1 k) - r_cy I (nb0 k).
Definition dy2 (k : nat) := r_cy I (nb2 k) - r_cy I (nb0 k).
Definition area2 (k : nat) : R := dy2 k * dx1 k - dy1 k * dx2 k.

(** Lines 2008-2011 and 2215-2238: the factor that reduces the order near
    wet-dry fronts. *)
Definition hfactor (k : nat) : R :=
  let a_tmp := 3 / 10 in let b_tmp := 1 / 10 in
  let c_tmp := 1 / (a_tmp - b_tmp) in let d_tmp := 1 - c_tmp * a_tmp in
  let m := r_minimum_allowed_height I in
  let hc := height1 k in
  let h0 := height1 (nb0 k) in let h1 := height1 (nb1 k) in let h2 := height1 (nb2 k) in
  let hmin := Rmin (Rmin h0 (Rmin h1 h2)) hc in
  let hmax := Rmax (Rmax h0 (Rmax h1 h2)) hc in
  let hf := Rmax 0 (Rmin (c_tmp * Rmax hmin 0 / Rmax hc (/ 10 ^ 6) + d_tmp)
                         (Rmin (c_tmp * Rmax hc 0 / Rmax hmax (/ 10 ^ 6) + d_tmp) 1)) in
  Rmin (12 / 10 * Rmax (hmin - m) 0 / (Rmax hmin 0 + m)) hf.

(** Lines 2248-2279 (stage), repeated for height, x and y momentum. *)
Definition typical_jumps (q : nat -> R) (beta : R) (k : nat) : jumps :=
  if Rltb 0 beta then
    let dq0 := q (nb0 k) - q k in
    let dq1 := q (nb1 k) - q (nb0 k) in
    let dq2 := q (nb2 k) - q (nb0 k) in
    let a := (dy2 k * dq1 - dy1 k * dq2) * (1 / area2 k) in
    let b := (dx1 k * dq2 - dx2 k * dq1) * (1 / area2 k) in
    limit_gradient (edge_jumps k a b) (find_qmin dq0 dq1 dq2) (find_qmax dq0 dq1 dq2) beta
  else flat.

(** * One internal neighbour, lines 2428-2617 *)

(** Lines 2437-2456: the first surrogate neighbour different from [k]. *)
Definition internal_neighbour (k : nat) : option nat :=
  if negb (Nat.eqb (nb0 k) k) then Some (nb0 k)
  else if negb (Nat.eqb (nb1 k) k) then Some (nb1 k)
  else if negb (Nat.eqb (nb2 k) k) then Some (nb2 k)
  else None.

(** Lines 2466-2520 (stage), repeated for the other quantities, always with
    [beta_w]. *)
Definition single_jumps (q : nat -> R) (k n : nat) : jumps :=
  let dx1 := r_cx I n - r_cx I k in
  let dy1 := r_cy I n - r_cy I k in
  let area2 := dx1 * dx1 + dy1 * dy1 in
  let dy2 := 1 / area2 * dy1 in
  let dx2 := 1 / area2 * dx1 in
  let dq1 := q n - q k in
  let d := edge_jumps k (dq1 * dx2) (dq1 * dy2) in
  if Rleb 0 dq1 then limit_gradient d 0 dq1 (r_beta_w I) else limit_gradient d dq1 0 (r_beta_w I).

(** Lines 2071-2618 for triangle [k] and one quantity; [None] is the error
    return -1. *)
Definition cell_jumps (q : nat -> R) (beta beta_dry : R) (k : nat) : option jumps :=
  if Z.eqb (r_number_of_boundaries I k) 3 then Some flat
  else if Z.leb (r_number_of_boundaries I k) 1 then
    if Rleb (area2 k) 0 then Some flat
    else Some (typical_jumps q (beta_dry + (beta - beta_dry) * hfactor k) k)
  else match internal_neighbour k with
       | Some n => Some (single_jumps q k n)
       | None => None
       end.

Definition to_update (k : nat) : bool := negb (Z.eqb (r_update I k) 0).

(** The routine returns -1 when some updated triangle fails. *)
Definition recon_ok : bool :=
  forallb (fun k => negb (to_update k) ||
    match cell_jumps height1 (r_beta_w I) (r_beta_w_dry I) k with Some _ => true | None => false end)
    (seq 0 (r_number_of_elements I)).

(** Edge values after the extrapolation loop. *)
Definition extrapolated (q : nat -> R) (old : nat -> R) (beta beta_dry : R) (e : nat) : R :=
  let k := (e / 3)%nat in
  if to_update k then
    match cell_jumps q beta beta_dry k with
    | Some d => q k + jump d (e mod 3)
    | None => old e
    end
  else old e.

Definition stage_edges (e : nat) : R := extrapolated (r_stage I) (r_stage_e I) (r_beta_w I) (r_beta_w_dry I) e.
Definition height_edges (e : nat) : R := extrapolated height1 (r_height_e I) (r_beta_w I) (r_beta_w_dry I) e.

(** Lines 2647-2654: velocities at the edges are turned back into momenta. *)
Definition mom_edges (mom old : nat -> R) (beta beta_dry : R) (e : nat) : R :=
  let v := extrapolated (mom2 mom) old beta beta_dry e in
  if to_update (e / 3) && Z.eqb (r_velocity I) 1 then v * height_edges e else v.
Definition xmom_edges := mom_edges (r_xmom I) (r_xmom_e I) (r_beta_uh I) (r_beta_uh_dry I).
Definition ymom_edges := mom_edges (r_ymom I) (r_ymom_e I) (r_beta_vh I) (r_beta_vh_dry I).

(** Lines 2663-2666: bed at the edges. *)
Definition bed_edges (e : nat) : R :=
  if to_update (e / 3) then stage_edges e - height_edges e else r_bed_e I e.

(** Lines 2634-2669: vertex values from edge values. *)
Definition vertex_from_edges (edges old : nat -> R) (v : nat) : R :=
  let k := (v / 3)%nat in
  if to_update k then
    edges (3 * k + (v mod 3 + 1) mod 3)%nat + edges (3 * k + (v mod 3 + 2) mod 3)%nat
    - edges (3 * k + v mod 3)%nat
  else old v.

(** Lines 2625-2629: momentum at the centroids after the routine. *)
Definition mom_centroid (mom : nat -> R) (k : nat) : R :=
  if Z.eqb (r_velocity I) 1 then work2 mom k else mom2 mom k.
End Reconstruct.
