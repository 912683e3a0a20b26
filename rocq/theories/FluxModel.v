(** Model of the flux computation of anuga/shallow_water/sw_domain_orig.c:
    [_rotate], [_flux_function_central], [adjust_edgeflux_with_weir] and
    [_compute_fluxes_central].  Arithmetic is over the reals; C arrays are
    total functions of their linear index. *)
From Coq Require Import Reals List ZArith Arith Bool.
From Verif Require Import RealLib ArrayLib.
Import ListNotations.
Local Open Scope R_scope.

(** The arrays [q[3]], [edgeflux[3]]. *)
Record vec3 := V3 { c0 : R; c1 : R; c2 : R }.

(** [_rotate], lines 37-58. *)
Definition rotate (q : vec3) (n1 n2 : R) : vec3 :=
  V3 (c0 q) (n1 * c1 q + n2 * c2 q) (- n2 * c1 q + n1 * c2 q).

(** The literals of the source. *)
Definition tiny : R := / 10 ^ 100.

(** Lines 356-370 (left side) and 375-389 (right side): normal velocity, normal momentum,
    transverse momentum and transverse velocity of one side, from its rotated
    state, its depth [he] at the edge and its reconstructed depth [h]. *)
Record side := Side { s_u : R; s_uh : R; s_vh : R; s_v : R }.
Definition side_state (q : vec3) (h he : R) : side :=
  if Rltb 0 he then
    let tmp := 1 / he in
    let u := c1 q * tmp in
    Side u (h * u) (h * tmp * c2 q) (c2 q * tmp)
  else Side 0 0 0 0.

(** Lines 408-427. *)
Definition local_froude (low_froude : Z) (l r : side) (cl cr : R) : R :=
  let ratio := (s_u r * s_u r + s_u l * s_u l + s_v r * s_v r + s_v l * s_v l)
               / (cl * cl + cr * cr + / 10 ^ 10) in
  if Z.eqb low_froude 1 then sqrt (Rmax (1 / 1000) (Rmin 1 ratio))
  else if Z.eqb low_froude 2 then
    sqrt (Rmin 1 (1 / 100 + Rmax (sqrt ratio - 1 / 100) 0))
  else 1.

(** Result of the flux function: edge flux, maximal speed, pressure flux. *)
Record flux_result := Flux { f_edge : vec3; f_speed : R; f_pressure : R }.

(** [_flux_function_central], lines 284-505.  The parameters
    [limiting_threshold], [hc], [hc_n] are not used by the source. *)
Definition flux_function_central (ql qr : vec3) (h_left h_right hle hre n1 n2 epsilon ze g : R)
  (low_froude : Z) : flux_result :=
  if Reqb h_left 0 && Reqb h_right 0 then Flux (V3 0 0 0) 0 0
  else
    let qlr := rotate ql n1 n2 in
    let qrr := rotate qr n1 n2 in
    let l := side_state qlr h_left hle in
    let r := side_state qrr h_right hre in
    let cl := sqrt (g * h_left) in
    let cr := sqrt (g * h_right) in
    let local_fr := local_froude low_froude l r cl cr in
    let s_max0 := Rmax (s_u l + cl) (s_u r + cr) in
    let s_max := if Rltb s_max0 0 then 0 else s_max0 in
    let s_min0 := Rmin (s_u l - cl) (s_u r - cr) in
    let s_min := if Rltb 0 s_min0 then 0 else s_min0 in
    let fl := V3 (s_u l * h_left) (s_u l * s_uh l) (s_u l * s_vh l) in
    let fr := V3 (s_u r * h_right) (s_u r * s_uh r) (s_u r * s_vh r) in
    let denom := s_max - s_min in
    if Rltb denom epsilon then
      Flux (V3 0 0 0) 0 (1 / 2 * g * (1 / 2) * (h_left * h_left + h_right * h_right))
    else
      let inverse_denominator := 1 / Rmax denom tiny in
      let e0 := (s_max * c0 fl - s_min * c0 fr
                 + (s_max * s_min) * (Rmax (c0 qrr) ze - Rmax (c0 qlr) ze)) * inverse_denominator in
      let e1 := (s_max * c1 fl - s_min * c1 fr
                 + local_fr * (s_max * s_min) * (s_uh r - s_uh l)) * inverse_denominator in
      let e2 := (s_max * c2 fl - s_min * c2 fr
                 + local_fr * (s_max * s_min) * (s_vh r - s_vh l)) * inverse_denominator in
      Flux (rotate (V3 e0 e1 e2) n1 (- n2)) (Rmax s_max (- s_min))
           (1 / 2 * g * (s_max * h_left * h_left - s_min * h_right * h_right) * inverse_denominator).

(** [pow(x, y)] for [x >= 0]; the source only uses exponent 0.385. *)
Definition cpow (x y : R) : R := if Rltb 0 x then Rpower x y else 0.

(** [adjust_edgeflux_with_weir], lines 671-762: new edge flux and speed. *)
Definition adjust_edgeflux_with_weir (edgeflux : vec3) (h_left h_right g weir_height Qfactor s1 s2 h1 h2 max_speed : R)
  : vec3 * R :=
  let minhd := Rmin h_left h_right in
  let maxhd := Rmax h_left h_right in
  let rw := Qfactor * (2 / 3) * maxhd * sqrt (2 / 3 * g * maxhd) in
  let rw2 := Qfactor * (2 / 3) * minhd * sqrt (2 / 3 * g * minhd) in
  let rwRat := rw2 / Rmax rw tiny in
  let hdRat := minhd / Rmax maxhd tiny in
  let hdWrRat := minhd / Rmax weir_height tiny in
  let rw := rw * cpow (1 - rwRat) (385 / 1000) in
  let rw := if Rltb h_left h_right then rw * - 1 else rw in
  let edgeflux' :=
    if Rltb hdRat s2 && Rltb hdWrRat h2 then
      let w1 := Rmin (Rmax (hdRat - s1) 0 / (s2 - s1)) 1 in
      let w2 := Rmin (Rmax (hdWrRat - h1) 0 / (h2 - h1)) 1 in
      let newFlux := (rw * (1 - w1) + w1 * c0 edgeflux) * (1 - w2) + w2 * c0 edgeflux in
      let scaleFlux := if Rltb tiny (Rabs (c0 edgeflux)) then newFlux / c0 edgeflux else 0 in
      let scaleFlux := Rmax scaleFlux 0 in
      V3 newFlux (c1 edgeflux * Rmin scaleFlux 10) (c2 edgeflux * Rmin scaleFlux 10)
    else edgeflux in
  let max_speed' :=
    if Rltb 0 (Rabs (c0 edgeflux')) then
      sqrt (g * (maxhd + weir_height)) + Rabs (c0 edgeflux' / (maxhd + / 10 ^ 12))
    else max_speed in
  (edgeflux', max_speed').

(** The read-only part of [struct domain] used by the flux computation. *)
Record domain := Domain {
  number_of_elements : nat;
  epsilon : R; g : R; low_froude : Z;
  neighbours : nat -> Z; neighbour_edges : nat -> nat;
  normal_x : nat -> R; normal_y : nat -> R;      (* normals[2*ki], normals[2*ki+1] *)
  edgelengths : nat -> R; radii : nat -> R; areas : nat -> R;
  tri_full_flag : nat -> Z;
  stage_edge : nat -> R; xmom_edge : nat -> R; ymom_edge : nat -> R;
  bed_edge : nat -> R; height_edge : nat -> R;
  stage_centroid : nat -> R; bed_centroid : nat -> R; height_centroid : nat -> R;
  stage_boundary : nat -> R; xmom_boundary : nat -> R; ymom_boundary : nat -> R;
  edge_flux_type : nat -> Z; riverwall_elevation : nat -> R;
  riverwall_rowIndex : nat -> nat; ncol_riverwall : nat;
  riverwall_props : nat -> R;
  update_next_flux : nat -> Z;
  timestep_fluxcalls : nat;
  allow_timestep_increase : Z }.

(** Linear index of the edge on the other side (line 861). *)
Definition partner (D : domain) (ki : nat) : nat :=
  (Z.to_nat (neighbours D ki) * 3 + neighbour_edges D ki)%nat.
Definition interior (D : domain) (ki : nat) : bool := (0 <=? neighbours D ki)%Z.

(** Everything computed for one edge before it is stored. *)
Record edge_result := EdgeResult {
  er_flux : vec3;        (* edgeflux, multiplied by the edge length *)
  er_pg_k : R;           (* bedslope_work for triangle k, line 977 *)
  er_pg_n : R;           (* bedslope_work for triangle n, line 990 *)
  er_speed : R }.        (* max_speed_local *)

(** Lines 830-977 for edge [ki]; [rw] is the number of riverwall edges met
    before (so [riverwall_elevation[RiverWall_count-1]] is entry [rw]). *)
Definition compute_edge (D : domain) (rw ki : nat) : edge_result :=
  let k := (ki / 3)%nat in
  let ql := V3 (stage_edge D ki) (xmom_edge D ki) (ymom_edge D ki) in
  let zl := bed_edge D ki in
  let hc := height_centroid D k in
  let zc := bed_centroid D k in
  let hle := height_edge D ki in
  let n := Z.to_nat (neighbours D ki) in
  let b := Z.to_nat (- neighbours D ki - 1) in
  let nm := partner D ki in
  let inner := interior D ki in
  let hc_n := if inner then height_centroid D n else hc in
  let zc_n := if inner then bed_centroid D n else bed_centroid D k in
  let qr := if inner then V3 (stage_edge D nm) (xmom_edge D nm) (ymom_edge D nm)
            else V3 (stage_boundary D b) (xmom_boundary D b) (ymom_boundary D b) in
  let zr := if inner then bed_edge D nm else zl in
  let hre := if inner then height_edge D nm else Rmax (c0 qr - zr) 0 in
  let wall := Z.eqb (edge_flux_type D ki) 1 in
  let z_half0 := Rmax zl zr in
  let z_half := if wall then Rmax (riverwall_elevation D rw) z_half0 else z_half0 in
  let h_left := Rmax (hle + zl - z_half) 0 in
  let h_right := Rmax (hre + zr - z_half) 0 in
  let F := flux_function_central ql qr h_left h_right hle hre (normal_x D ki) (normal_y D ki)
             (epsilon D) z_half (g D) (low_froude D) in
  let FS :=
    if wall then
      let weir_height := Rmax (riverwall_elevation D rw - Rmin zl zr) 0 in
      if Rltb (Rmax zc zc_n) (riverwall_elevation D rw) then
        let h_left_tmp := Rmax (stage_centroid D k - z_half) 0 in
        let h_right_tmp := if inner then Rmax (stage_centroid D n - z_half) 0
                           else Rmax (hc_n + zr - z_half) 0 in
        if Rltb 0 h_left_tmp || Rltb 0 h_right_tmp then
          let ii := (riverwall_rowIndex D rw * ncol_riverwall D)%nat in
          adjust_edgeflux_with_weir (f_edge F) h_left_tmp h_right_tmp (g D) weir_height
            (riverwall_props D ii) (riverwall_props D (ii + 1)) (riverwall_props D (ii + 2))
            (riverwall_props D (ii + 3)) (riverwall_props D (ii + 4)) (f_speed F)
        else (f_edge F, f_speed F)
      else (f_edge F, f_speed F)
    else (f_edge F, f_speed F) in
  let length := edgelengths D ki in
  EdgeResult
    (V3 (c0 (fst FS) * length) (c1 (fst FS) * length) (c2 (fst FS) * length))
    (length * (- g D * (1 / 2) * (h_left * h_left - hle * hle - (hle + hc) * (zl - zc)) + f_pressure F))
    (length * (- g D * (1 / 2) * (h_right * h_right - hre * hre - (hre + hc_n) * (zr - zc_n)) + f_pressure F))
    (snd FS).

Definition vneg (v : vec3) : vec3 := V3 (- c0 v) (- c1 v) (- c2 v).

(** The arrays and counters written by the edge loop. *)
Record work := Work {
  edge_flux_work : nat -> vec3;
  pressuregrad_work : nat -> R;
  already_computed_flux : nat -> Z;
  edge_timestep : nat -> R;
  max_speed : nat -> R;
  local_timestep : R;
  riverwall_count : nat }.

(** Lines 1003-1034: time step bookkeeping, only on substep 0. *)
Definition timestep_update (D : domain) (ki : nat) (speed : R) (st : work) : work :=
  let k := (ki / 3)%nat in
  let n := Z.to_nat (neighbours D ki) in
  let nm := partner D ki in
  let inner := interior D ki in
  let full := Z.eqb (tri_full_flag D k) 1 in
  let tmp := 1 / Rmax speed (epsilon D) in
  let et1 := upd (edge_timestep st) ki (radii D k * tmp) in
  let et2 := if inner then upd et1 nm (radii D n * tmp) else et1 in
  let ms1 := if inner && full then upd (max_speed st) n (Rmax (max_speed st n) speed) else max_speed st in
  let ms2 := if full then upd ms1 k (Rmax (ms1 k) speed) else ms1 in
  let lt :=
    if full && Rltb (epsilon D) speed then
      let lt1 := Rmin (local_timestep st) (et2 ki) in
      if inner then Rmin lt1 (et2 nm) else lt1
    else local_timestep st in
  Work (edge_flux_work st) (pressuregrad_work st) (already_computed_flux st) et2 ms2 lt (riverwall_count st).

(** One iteration of the loop over triangles and edges, lines 819-1036. *)
Definition edge_step (D : domain) (call : Z) (substep_count : nat) (st : work) (ki : nat) : work :=
  let wall := Z.eqb (edge_flux_type D ki) 1 in
  let count' := if wall then S (riverwall_count st) else riverwall_count st in
  if Z.eqb (already_computed_flux st ki) call || negb (Z.eqb (update_next_flux D ki) 1) then
    Work (edge_flux_work st) (pressuregrad_work st) (already_computed_flux st)
         (edge_timestep st) (max_speed st) (local_timestep st) count'
  else
    let r := compute_edge D (riverwall_count st) ki in
    let nm := partner D ki in
    let inner := interior D ki in
    let efw := upd (edge_flux_work st) ki (vneg (er_flux r)) in
    let pgw := upd (pressuregrad_work st) ki (er_pg_k r) in
    let acf := upd (already_computed_flux st) ki call in
    let st' := Work (if inner then upd efw nm (er_flux r) else efw)
                    (if inner then upd pgw nm (er_pg_n r) else pgw)
                    (if inner then upd acf nm call else acf)
                    (edge_timestep st) (max_speed st) (local_timestep st) count' in
    if Nat.eqb substep_count 0 then timestep_update D ki (er_speed r) st' else st'.

(** Lines 815-1041: all triangles, all edges, in the order of the linear index. *)
Definition edge_loop (D : domain) (call : Z) (substep_count : nat) (st : work) : work :=
  fold_left (edge_step D call substep_count) (seq 0 (3 * number_of_elements D)) st.

(** The static variables of the function, lines 783-791. *)
Record statics := Statics {
  st_call : Z; st_fluxcalls : nat; st_base_call : Z; st_local_timestep : R }.

(** Lines 1099-1143 for triangle [k]: the three explicit updates. *)
Definition stage_update (D : domain) (w : work) (k : nat) : R :=
  fold_left (fun u i => u + c0 (edge_flux_work w (3 * k + i))) [0; 1; 2]%nat 0 * (1 / areas D k).
Definition xmom_update (D : domain) (w : work) (k : nat) : R :=
  fold_left (fun u i => u + c1 (edge_flux_work w (3 * k + i))
                        - normal_x D (3 * k + i) * pressuregrad_work w (3 * k + i)) [0; 1; 2]%nat 0
  * (1 / areas D k).
Definition ymom_update (D : domain) (w : work) (k : nat) : R :=
  fold_left (fun u i => u + c2 (edge_flux_work w (3 * k + i))
                        - normal_y D (3 * k + i) * pressuregrad_work w (3 * k + i)) [0; 1; 2]%nat 0
  * (1 / areas D k).

(** Lines 1119-1127: is the flux through edge [ki] added to the boundary sum? *)
Definition counts_as_boundary (D : domain) (ki : nat) : bool :=
  let k := (ki / 3)%nat in
  (negb (interior D ki) && Z.eqb (tri_full_flag D k) 1)
  || (interior D ki && (Z.eqb (tri_full_flag D k) 1
                        && Z.eqb (tri_full_flag D (Z.to_nat (neighbours D ki))) 0)).

(** The boundary sum accumulated by the second loop. *)
Definition boundary_flux (D : domain) (w : work) (s0 : R) : R :=
  fold_left (fun s ki => if counts_as_boundary D ki then s + c0 (edge_flux_work w ki) else s)
            (seq 0 (3 * number_of_elements D)) s0.

Record flux_output := FluxOutput {
  out_statics : statics; out_work : work;
  out_stage : nat -> R; out_xmom : nat -> R; out_ymom : nat -> R;
  out_boundary_flux_sum : nat -> R;
  out_timestep : R }.

(** The substep number used by the next call, lines 789-807. *)
Definition next_substep (D : domain) (s : statics) : nat :=
  let call := (st_call s + 1)%Z in
  let base_call := if Nat.eqb (timestep_fluxcalls D) (st_fluxcalls s) then st_base_call s else call in
  Z.to_nat ((call - base_call) mod Z.of_nat (timestep_fluxcalls D)).

(** [_compute_fluxes_central], lines 765-1150. *)
Definition compute_fluxes (D : domain) (s : statics) (w : work) (boundary_flux_sum : nat -> R)
  (timestep : R) : flux_output :=
  let call := (st_call s + 1)%Z in
  let base_call := if Nat.eqb (timestep_fluxcalls D) (st_fluxcalls s) then st_base_call s else call in
  let substep := next_substep D s in
  let lt := if Z.eqb (allow_timestep_increase D) 1 then 10 ^ 100 else st_local_timestep s in
  let w0 := Work (edge_flux_work w) (pressuregrad_work w) (already_computed_flux w)
                 (edge_timestep w) (fun _ => 0) lt 0 in
  let w' := edge_loop D call substep w0 in
  FluxOutput (Statics call (timestep_fluxcalls D) base_call (local_timestep w')) w'
    (stage_update D w') (xmom_update D w') (ymom_update D w')
    (upd boundary_flux_sum substep (boundary_flux D w' (boundary_flux_sum substep)))
    (if Nat.eqb substep 0 then local_timestep w' else timestep).
