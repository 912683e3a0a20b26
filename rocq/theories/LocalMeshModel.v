(** Model of the division of a mesh over processes and of the construction of
    the mesh of one process: anuga/parallel/distribute_mesh.py
    ([pmesh_divide_metis_helper] 152-280, [submesh_full] 318-393,
    [ghost_layer] 515-575, [ghost_bnd_layer] 650-715, [submesh_quantities]
    948-986, [build_submesh] 1004-1030, [build_local_GA] 1068-1105,
    [build_local_mesh] 1192-1262, [send_submesh]/[rec_submesh_flat]
    1290-1523, [extract_submesh] 1601-1642, [extract_l2g_map] 1643-1665), as
    used by sequential_distribute.py ([distribute] 36-98, [extract_submesh]
    101-212) and parallel_api.py ([distribute] 68-145).

    The ghost triangles and the communication patterns are those of
    [DistributeModel]; the neighbour structure is that of [NeighbourModel].
    Node ids stored in the first column of a float array (lines 375, 561) are
    kept as integers: they are exact below 2^53. *)
From Coq Require Import List ZArith Lia Bool.
From Verif Require Import NeighbourModel DistributeModel.
Import ListNotations.

(** Reading entry [i] of a numpy array of length [len]: negative indices count
    from the end; [None]: IndexError. *)
Definition pyidx (len : nat) (i : Z) : option nat :=
  if (0 <=? i)%Z then if (i <? Z.of_nat len)%Z then Some (Z.to_nat i) else None
  else if (0 <=? i + Z.of_nat len)%Z then Some (Z.to_nat (i + Z.of_nat len)) else None.
Definition zget {A} (a : list A) (i : Z) : option A :=
  match pyidx (length a) i with Some k => nth_error a k | None => None end.
(** a[ids] and num.take(a, ids) *)
Definition take {A} (a : list A) (ids : list Z) : option (list A) := osequence (map (zget a) ids).
(** a[lo:hi] for 0 <= lo *)
Definition slice {A} (a : list A) (lo hi : Z) : list A := firstn (Z.to_nat (hi - lo)) (skipn (Z.to_nat lo) a).

(** d[key] = v for a Python dictionary (insertion order kept). *)
Fixpoint dset {K V} (eqb : K -> K -> bool) (d : list (K * V)) (k : K) (v : V) : list (K * V) :=
  match d with
  | [] => [(k, v)]
  | (k', v') :: r => if eqb k' k then (k', v) :: r else (k', v') :: dset eqb r k v
  end.
Definition zkey_eqb (a b : Z * nat) : bool := (fst a =? fst b)%Z && Nat.eqb (snd a) (snd b).

(** ** Partition: [pmesh_divide_metis_helper] *)

(** num.bincount *)
Definition bincount (e : list nat) : list nat :=
  map (fun c => length (filter (Nat.eqb c) e)) (seq 0 (match e with [] => 0 | _ => S (fold_right Nat.max 0 e) end)).

(** num.argsort(epart, kind='mergesort'): the stable order, first the indices
    of the zeros, then those of the ones, and so on. *)
Definition argsort (e : list nat) : list nat :=
  flat_map (fun c => filter (fun i => Nat.eqb (nth i e 0) c) (seq 0 (length e)))
           (seq 0 (S (fold_right Nat.max 0 e))).

(** proc_sum[i] (224-225): cumulated sums. *)
Definition proc_sum (tpp : list nat) (i : nat) : nat := fold_right plus 0 (firstn i tpp).

(** new_tri_index (231-242): the process of each old triangle and its position
    there; rows that are never assigned stay (0,0). *)
Definition new_tri_index (tpp order : list nat) : nat -> nat * nat :=
  fold_left (fun m e => fun x => if Nat.eqb x (fst e) then snd e else m x)
    (flat_map (fun i => map (fun k => (nth (proc_sum tpp i + k) order 0, (i, k))) (seq 0 (nth i tpp 0)))
              (seq 0 (length tpp)))
    (fun _ => (0, 0)).

(** new_boundary (251-255) *)
Definition new_boundary (tpp order : list nat) (bd : bdict) : bdict :=
  fold_left (fun d e =>
    let t := new_tri_index tpp order (fst (fst e)) in
    dset key_eqb d (proc_sum tpp (fst t) + snd t, snd (fst e)) (snd e)) bd [].

(** The divided domain: triangles, boundary, triangles per process, quantities
    (name, three vertex values per triangle) and p2s_map. *)
Record divided {Q : Type} := {
  v_triangles : list tri;
  v_boundary : bdict;
  v_tpp : list nat;
  v_quantities : list (nat * list Q);
  v_p2s : list nat
}.
Arguments divided : clear implicits.

(** [epart]: what metis returned.  [None]: AssertionError (some process without
    triangles), or the exceptions raised when metis used fewer processes than
    asked for (lines 225, 234).  A single process (260-275) keeps the order and
    gets an empty map. *)
Definition pmesh_divide {Q} (ts : list tri) (bd : bdict) (qs : list (nat * list Q)) (nproc : nat) (epart : list nat)
  : option (divided Q) :=
  if Nat.eqb nproc 1 then
    Some {| v_triangles := ts; v_boundary := bd; v_tpp := [length ts]; v_quantities := qs; v_p2s := [] |}
  else
    let tpp := bincount epart in
    if forallb (fun c => Nat.ltb 0 c) tpp && Nat.eqb (length tpp) nproc then
      let order := argsort epart in
      match take ts (map Z.of_nat order),
            osequence (map (fun q => option_map (pair (fst q)) (take (snd q) (map Z.of_nat order))) qs) with
      | Some ts', Some qs' =>
          Some {| v_triangles := ts'; v_boundary := new_boundary tpp order bd; v_tpp := tpp;
                  v_quantities := qs'; v_p2s := order |}
      | _, _ => None
      end
    else None.

(** ** The part of one process *)

(** triangles.flat *)
Definition zflat (l : list tri) : list Z :=
  flat_map (fun t => let '(a, b, c) := t in [Z.of_nat a; Z.of_nat b; Z.of_nat c]) l.

Section Mesh.
Context {P Q : Type}.
(** mesh.nodes, mesh.triangles, mesh.boundary, mesh.neighbours of the divided
    mesh; the tag 'ghost'. *)
Variable nodes : list P.
Variable ts : list tri.
Variable bd : bdict.
Variable rows : list row.
Variable ghost_tag : nat.

Definition mesh_neighbours (t : Z) : list Z := map (nb rows (Z.to_nat t)) [0; 1; 2].

(** Rows [id, x, y]: num.concatenate of the ids and nodes[ids]. *)
Definition with_ids (ids : list Z) : option (list (Z * P)) :=
  match take nodes ids with Some l => Some (combine ids l) | None => None end.

(** submesh_full, lines 350-384 *)
Definition full_boundary (lo hi : Z) : bdict :=
  filter (fun e => (lo <=? Z.of_nat (fst (fst e)))%Z && (Z.of_nat (fst (fst e)) <? hi)%Z) bd.
Definition full_node_ids (lo hi : Z) : list Z := unique (zflat (slice ts lo hi)).

(** ghost_layer, lines 556-566 *)
Definition ghost_triangles (ghosts : list Z) : option (list (Z * tri)) :=
  match take ts ghosts with Some l => Some (combine ghosts l) | None => None end.
Definition ghost_node_ids (full : list Z) (gts : list (Z * tri)) : list Z :=
  setdiff1d (unique (zflat (map snd gts))) full.

(** ghost_bnd_layer, lines 661-691: the ghosts whose neighbour over edge [i] is
    neither a full triangle nor a ghost. *)
Definition open_ghosts (ghosts : list Z) (lo hi : Z) (i : nat) : list Z :=
  filter (fun g => negb (zmem (nb rows (Z.to_nat g) i) ghosts))
    (filter (fun g => (nb rows (Z.to_nat g) i <? lo)%Z || (hi <=? nb rows (Z.to_nat g) i)%Z) ghosts).
(** lines 693-710: first all 'ghost', then the tag of the mesh where it has one. *)
Definition ghost_boundary (ghosts : list Z) (lo hi : Z) : bdict :=
  let sub := fold_left (fun d k => dset key_eqb d k ghost_tag)
               (flat_map (fun i => map (fun g => (Z.to_nat g, i)) (open_ghosts ghosts lo hi i)) [0; 1; 2]) [] in
  map (fun e => match lookup bd (fst e) with Some t => (fst e, t) | None => e end) sub.
End Mesh.

(** What belongs to one process (the dictionary submesh_cell). *)
Record cell {P Q : Type} := {
  f_nodes : list (Z * P);
  g_nodes : list (Z * P);
  f_triangles : list tri;
  g_triangles : list (Z * tri);
  f_boundary : bdict;
  g_boundary : bdict;
  f_quan : list (nat * list Q);
  g_quan : list (nat * list Q)
}.
Arguments cell : clear implicits.

(** build_submesh for process [p] (1004-1030): the temporary mesh [rows], [bd]
    comes from [Mesh(nodes, triangles, boundary)]; submesh_quantities 966-984. *)
Definition build_cell {P Q} (nodes : list P) (ts : list tri) (bd : bdict) (rows : list row) (ghost_tag : nat)
  (qs : list (nat * list Q)) (tpp : list nat) (w p : nat) : option (cell P Q) :=
  let lo := fst (rng tpp p) in
  let hi := snd (rng tpp p) in
  let ghosts := ghosts_of (mesh_neighbours rows) tpp w p in
  match ghost_triangles ts ghosts with
  | None => None
  | Some gts =>
      match with_ids nodes (full_node_ids ts lo hi),
            with_ids nodes (ghost_node_ids (full_node_ids ts lo hi) gts),
            osequence (map (fun q => option_map (pair (fst q)) (take (snd q) ghosts)) qs) with
      | Some fn, Some gn, Some gq =>
          Some {| f_nodes := fn; g_nodes := gn; f_triangles := slice ts lo hi; g_triangles := gts;
                  f_boundary := full_boundary bd lo hi; g_boundary := ghost_boundary bd rows ghost_tag ghosts lo hi;
                  f_quan := map (fun q => (fst q, slice (snd q) lo hi)) qs; g_quan := gq |}
      | _, _, _ => None
      end
  end.

(** ** Sending a part: [send_submesh], [rec_submesh_flat]
    The tags are numbered in the order of their appearance (1302-1313), the
    boundary entries are sent with the number of their tag and the tag is looked
    up again (1430-1434, 1485-1501); everything else is sent unchanged. *)
Definition tag_number (tagmap : list (nat * nat)) (tag : nat) : option nat := dget Nat.eqb tagmap tag.
Definition make_tagmap (tags : list nat) : list (nat * nat) * nat :=
  fold_left (fun st t => match tag_number (fst st) t with
                         | Some _ => st
                         | None => (fst st ++ [(t, snd st)], S (snd st))
                         end) tags ([], 1).
Definition send_boundary (tagmap : list (nat * nat)) (b : bdict) : option (list (nat * nat * nat)) :=
  osequence (map (fun e => match tag_number tagmap (snd e) with
                           | Some c => Some (fst e, c) | None => None end) b).
Definition rec_boundary (tagmap : list (nat * nat)) (x : list (nat * nat * nat)) : option bdict :=
  let itagmap := fold_left (fun d e => dset Nat.eqb d (snd e) (fst e)) tagmap [] in
  ofold (fun d e => match dget Nat.eqb itagmap (snd e) with
                    | Some t => Some (dset key_eqb d (fst e) t) | None => None end) x [].
Definition transmit {P Q} (c : cell P Q) : option (cell P Q) :=
  let tagmap := fst (make_tagmap (map snd (f_boundary c) ++ map snd (g_boundary c))) in
  match send_boundary tagmap (f_boundary c), send_boundary tagmap (g_boundary c) with
  | Some xf, Some xg =>
      match rec_boundary tagmap xf, rec_boundary tagmap xg with
      | Some bf, Some bg =>
          Some {| f_nodes := f_nodes c; g_nodes := g_nodes c; f_triangles := f_triangles c;
                  g_triangles := g_triangles c; f_boundary := bf; g_boundary := bg;
                  f_quan := f_quan c; g_quan := g_quan c |}
      | _, _ => None
      end
  | _, _ => None
  end.

(** ** The mesh of one process *)

(** extract_l2g_map (1643-1665) of an array [m] of length [len]:
    [l2g = zeros_like(g_ids); l2g[l_ids] = g_ids]. *)
Definition extract_l2g (len : Z) (m : Z -> Z) : option (list Z) :=
  let g_ids := filter (fun x => (-1 <? m x)%Z) (arange 0 len) in
  ofold (fun l2g g => match pyidx (length l2g) (m g) with
                      | Some k => Some (set_nth k g l2g) | None => None end)
    g_ids (repeat 0%Z (length g_ids)).

(** node_map of build_local_GA (1077-1088): -1 everywhere, then
    [num.put(node_map, ids, arange(Nnodes))]; its length. *)
Definition node_map_len (ids : list Z) : Z := (fold_left Z.max ids 0 + 1)%Z.
Definition node_map (ids : list Z) : Z -> Z :=
  fold_left (fun m ig => fun x => if (x =? snd ig)%Z then Z.of_nat (fst ig) else m x)
    (combine (seq 0 (length ids)) ids) (fun _ => (-1)%Z).

Record local {P Q : Type} := {
  l_nodes : list P;
  l_triangles : list (Z * Z * Z);
  l_boundary : list ((Z * nat) * nat);
  l_quan : list (nat * list Q);
  l_tri_l2g : list Z;
  l_node_l2g : list Z;
  l_nfull : nat
}.
Arguments local : clear implicits.

(** build_local_mesh (1192-1262) with build_local_GA; the communication patterns
    are those of [DistributeModel.local_commun]. *)
Definition build_local {P Q} (c : cell P Q) (lo hi : Z) : option (local P Q) :=
  let nodes := f_nodes c ++ g_nodes c in
  let ids := map fst nodes in
  let triangles := f_triangles c ++ map snd (g_triangles c) in
  let ghosts := map fst (g_triangles c) in
  let boundaries := fold_left (fun d e => dset key_eqb d (fst e) (snd e)) (g_boundary c) (f_boundary c) in
  let tlen := tri_map_len hi ghosts in
  let tm := tri_map lo hi ghosts in
  let nlen := node_map_len ids in
  let nm := node_map ids in
  let nget := fun n => tget nlen nm (Z.of_nat n) in
  match osequence (map (fun t => let '(a, b, c) := t in
                     match nget a, nget b, nget c with
                     | Some x, Some y, Some z => Some (x, y, z)
                     | _, _, _ => None
                     end) triangles),
        ofold (fun d e => match tget tlen tm (Z.of_nat (fst (fst e))) with
                          | Some k => Some (dset zkey_eqb d (k, snd (fst e)) (snd e))
                          | None => None
                          end) boundaries [],
        osequence (map (fun q => match dget Nat.eqb (g_quan c) (fst q) with
                                 | Some g => Some (fst q, snd q ++ g) | None => None end) (f_quan c)),
        extract_l2g tlen tm, extract_l2g nlen nm with
  | Some gts, Some gbd, Some q, Some tl2g, Some nl2g =>
      Some {| l_nodes := map snd nodes; l_triangles := gts; l_boundary := gbd; l_quan := q;
              l_tri_l2g := tl2g; l_node_l2g := nl2g; l_nfull := length (f_triangles c) |}
  | _, _, _, _, _ => None
  end.

(** extract_submesh 1631-1637: [tri_l2g = p2s_map[tri_l2g]], or [p2s_map] itself
    if that raises. *)
Definition to_original (p2s : list nat) (l2g : list Z) : list Z :=
  match p2s with
  | [] => []
  | _ => match take p2s l2g with Some l => map Z.of_nat l | None => map Z.of_nat p2s end
  end.

(** From a domain to the data of process [p]: [pmesh_divide_metis_with_map],
    [build_submesh] (in which [Mesh] is constructed, 1010), [extract_submesh] or, if
    [received], [send_submesh]/[rec_submesh] (whose tri_l2g is not mapped back).
    [default]: the tag given by [Mesh] to edges without tag. *)
Definition distribute {P Q} (received : bool) (nodes : list P) (ts : list tri) (bd : bdict) (qs : list (nat * list Q))
  (default ghost_tag nproc : nat) (epart : list nat) (w p : nat) : option (local P Q) :=
  match pmesh_divide ts bd qs nproc epart with
  | None => None
  | Some v =>
      match mesh_boundary (v_triangles v) default (v_boundary v) with
      | None => None
      | Some (_, bd', bs) =>
          match build_cell nodes (v_triangles v) bd' (b_rows bs) ghost_tag (v_quantities v) (v_tpp v) w p with
          | None => None
          | Some c =>
              match (if received then transmit c else Some c) with
              | None => None
              | Some c' =>
                  match build_local c' (fst (rng (v_tpp v) p)) (snd (rng (v_tpp v) p)) with
                  | None => None
                  | Some l =>
                      Some (if received then l else
                            {| l_nodes := l_nodes l; l_triangles := l_triangles l; l_boundary := l_boundary l;
                               l_quan := l_quan l; l_tri_l2g := to_original (v_p2s v) (l_tri_l2g l);
                               l_node_l2g := l_node_l2g l; l_nfull := l_nfull l |})
                  end
              end
          end
      end
  end.

(** The constructor of the process's domain, [Mesh.__init__] on the local
    triangles and boundary; [None] also if a node or triangle number is negative
    (not rejected by the code, but not a mesh either). *)
Definition nat3 (t : Z * Z * Z) : option tri :=
  let '(a, b, c) := t in
  if (0 <=? a)%Z && (0 <=? b)%Z && (0 <=? c)%Z then Some (Z.to_nat a, Z.to_nat b, Z.to_nat c) else None.
Definition local_mesh {P Q} (l : local P Q) (default : nat) : option (list tri * (list row * bdict * boundary_structure)) :=
  match osequence (map nat3 (l_triangles l)),
        osequence (map (fun e => if (0 <=? fst (fst e))%Z then Some ((Z.to_nat (fst (fst e)), snd (fst e)), snd e) else None)
                       (l_boundary l)) with
  | Some ts, Some b =>
      match mesh_boundary ts default b with Some m => Some (ts, m) | None => None end
  | _, _ => None
  end.
