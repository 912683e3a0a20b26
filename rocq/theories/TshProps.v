(** C102: a mesh written to a text file (.tsh) is read back unchanged. *)
From Coq Require Import Ascii String ZArith Arith Bool List Lia.
From Verif Require Import TshModel TshProofs.
Import ListNotations.
Local Open Scope list_scope.

(** A tag or a title as a file can hold it: one line, no blanks around it *)
Definition tag_ok (t : text) : Prop := one_line t = true /\ strip t = t.
Definition given (n : option Z * option Z * option Z) : Prop := fst (fst n) <> None /\ snd (fst n) <> None /\ snd n <> None.
(** A complete mesh: every list has its length, there is a title for each
    attribute, and the hemisphere (which the format does not have) is not set. *)
Record complete (P : format) (M : mesh P) : Prop := {
  c_atts : (vertex_attributes P M = None /\ titles P M = []) \/
    (exists rows, vertex_attributes P M = Some rows /\ vertices P M <> [] /\ length rows = length (vertices P M) /\
       titles P M <> [] /\ forall r, In r rows -> length r = length (titles P M));
  c_titles : forall t, In t (titles P M) -> tag_ok t;
  c_neighbours : length (triangle_neighbors P M) = length (triangles P M) /\ forall n, In n (triangle_neighbors P M) -> given n;
  c_triangle_tags : length (triangle_tags P M) = length (triangles P M) /\ forall t, In t (triangle_tags P M) -> tag_ok t;
  c_segment_tags : length (segment_tags P M) = length (segments P M) /\ forall t, In t (segment_tags P M) -> tag_ok t;
  c_point_atts : length (point_attributes P M) = length (points P M);
  c_outline_tags : length (outline_tags P M) = length (outline_segments P M) /\ forall t, In t (outline_tags P M) -> tag_ok t;
  c_region_tags : length (region_tags P M) = length (regions P M) /\ forall t, In t (region_tags P M) -> tag_ok t;
  c_areas : length (region_areas P M) = length (regions P M);
  c_hemisphere : forall z h x y, reference P M = Some (z, h, x, y) -> h = 0 }.

Lemma ok_lines l : (forall t, In t l -> tag_ok t) -> forallb one_line l = true.
Proof. intros H. apply forallb_forall. intros t Ht. apply H, Ht. Qed.
Lemma ok_strip l : (forall t, In t l -> tag_ok t) -> map strip l = l.
Proof. intros H. rewrite <- (map_id l) at 2. apply map_ext_in. intros t Ht. apply H, Ht. Qed.

(** For every way of printing numbers that reads them back, the file can be
    written, and what is read is the mesh, field by field. *)
Theorem C102_round_trip : forall P, faithful P -> forall M, complete P M ->
  exists s, write_tsh P M = Some s /\ read_tsh P s = Some M.
Proof.
  intros P F M [Ca Ct [Ln Cn] [Lg Cg] [Ls Cs] Lp [Lo Co] [Lr Cr] La Ch].
  assert (Ea : exists rows, attribute_rows P M = Some rows /\ some_rows P rows = vertex_attributes P M /\ length (titles P M) = num_attributes P M).
  { unfold attribute_rows, num_attributes. destruct Ca as [(E & T)|(rows & E & Nv & L & Nt & R)]; rewrite E.
    - exists (repeat [] (length (vertices P M))). split; [reflexivity|]. rewrite T. split; [|destruct (vertices P M); reflexivity].
      unfold some_rows. induction (length (vertices P M)); [reflexivity|assumption].
    - destruct rows as [|r rows]; [destruct (vertices P M); [congruence|discriminate]|]. exists (r :: rows). rewrite L, Nat.leb_refl, <- L, firstn_all. split; [reflexivity|]. split.
      + unfold some_rows. assert (K : filter (fun row : list (number P) => match row with [] => false | _ => true end) (r :: rows) = r :: rows); [|rewrite K; reflexivity].
        assert (Kf : forall l : list (list (number P)), (forall q, In q l -> length q = length (titles P M)) -> filter (fun row : list (number P) => match row with [] => false | _ => true end) l = l).
        { induction l as [|q l IH]; intros H; [reflexivity|]. cbn [filter]. pose proof (H q (or_introl eq_refl)) as Q. destruct q as [|x q].
          - destruct (titles P M); [congruence|discriminate].
          - rewrite IH by (intros; apply H; right; assumption). reflexivity. }
        apply Kf. exact R.
      + destruct (vertices P M); [congruence|]. symmetry. apply R. left. reflexivity. }
  assert (En : exists rows, neighbour_rows P M = Some rows /\ map some3 rows = triangle_neighbors P M).
  { unfold neighbour_rows. destruct (triangle_neighbors P M) as [|n l]; [destruct (triangles P M); [exists []; split; reflexivity|discriminate]|].
    rewrite <- Ln, Nat.leb_refl, firstn_all. eexists. split; [reflexivity|]. rewrite map_map. rewrite <- (map_id (n :: l)) at 2. apply map_ext_in.
    intros [[[n0|] [n1|]] [n2|]] Hq; destruct (Cn _ Hq) as (A & B & C); cbn in A, B, C; first [reflexivity|congruence]. }
  assert (Eg : tag_rows P M = Some (triangle_tags P M)).
  { unfold tag_rows. destruct (triangle_tags P M) as [|t l]; [destruct (triangles P M); [reflexivity|discriminate]|]. rewrite <- Lg, Nat.leb_refl, firstn_all. reflexivity. }
  destruct Ea as (atts & Ea & Eo & Et). destruct En as (nbs & En & Em).
  destruct (file_stored P F M) as (s & W & Rd).
  { unfold writable. rewrite Ea, En, Eg. rewrite !ok_lines by assumption. repeat split; try assumption; try discriminate; lia. }
  exists s. split; [exact W|]. rewrite Rd. unfold stored. rewrite Ea, En, Eg. cbn [or_nil]. rewrite Eo, Em. rewrite <- Ls, <- Lp, <- Lo, <- Lr at 1.
  rewrite !firstn_all. rewrite <- La, firstn_all. rewrite !ok_strip by assumption.
  assert (Er : forget P (reference P M) = reference P M).
  { destruct (reference P M) as [[[[z h] x] y]|]; [|reflexivity]. rewrite (Ch z h x y eq_refl). reflexivity. }
  rewrite Er. destruct M. reflexivity.
Qed.
Print Assumptions C102_round_trip.

(** Without these conditions: blanks around tags are lost, missing neighbours
    become -1, missing tags empty, superfluous values are not written, the
    hemisphere is lost, and nothing else changes. *)
Theorem C102_stored : forall P, faithful P -> forall M, writable P M ->
  exists s, write_tsh P M = Some s /\ read_tsh P s = Some (stored P M).
Proof. intros P F M H. apply file_stored; assumption. Qed.
Print Assumptions C102_stored.

(** Missing neighbours are read as -1, those that are given as they are. *)
Theorem C102_missing : forall P, faithful P -> forall M, writable P M ->
  exists s M', write_tsh P M = Some s /\ read_tsh P s = Some M' /\
    length (triangle_neighbors P M') = length (triangles P M) /\
    forall i a b c, nth_error (triangle_neighbors P M') i = Some (a, b, c) ->
      (triangle_neighbors P M = [] -> (a, b, c) = (Some (-1), Some (-1), Some (-1))%Z) /\
      (triangle_neighbors P M <> [] -> exists a' b' c', nth_error (triangle_neighbors P M) i = Some (a', b', c') /\
         (a' = None -> a = Some (-1)%Z) /\ (a' <> None -> a = a') /\ (b' = None -> b = Some (-1)%Z) /\ (b' <> None -> b = b') /\
         (c' = None -> c = Some (-1)%Z) /\ (c' <> None -> c = c')).
Proof.
  intros P F M H. destruct (C102_stored P F M H) as (s & A & B). exists s, (stored P M). split; [exact A|]. split; [exact B|].
  assert (N : neighbour_rows P M <> None) by apply H. cbn [stored triangle_neighbors]. destruct (neighbour_rows P M) as [rows|] eqn:E; [|easy]. cbn [or_nil].
  split; [rewrite map_length; apply (neighbour_rows_length P M rows E)|]. unfold neighbour_rows in E.
  intros i a b c I. rewrite nth_error_map in I. destruct (nth_error rows i) as [[[x y] z]|] eqn:R; [|discriminate]. cbn in I. injection I as <- <- <-.
  destruct (triangle_neighbors P M) as [|n l].
  - injection E as <-. apply nth_error_In, repeat_spec in R. injection R as -> -> ->. split; [reflexivity|easy].
  - destruct Nat.leb; [|discriminate]. injection E as <-. split; [discriminate|]. intros _.
    change (firstn (length (triangles P M)) (n :: l)) with (firstn (length (triangles P M)) (n :: l)) in R.
    rewrite nth_error_map in R. destruct (nth_error (firstn (length (triangles P M)) (n :: l)) i) as [[[a b] c]|] eqn:Q; [|discriminate].
    cbn in R. injection R as <- <- <-. exists a, b, c. split.
    + assert (X : forall (k j : nat) (L : list (option Z * option Z * option Z)) v, nth_error (firstn k L) j = Some v -> nth_error L j = Some v).
      { induction k as [|k IH]; intros [|j] [|w L] v; cbn; try discriminate; auto. }
      apply X in Q. exact Q.
    + destruct a, b, c; cbn; repeat split; congruence.
Qed.
Print Assumptions C102_missing.

(** A file that ends after the triangulation is read as the triangulation
    without an outline. *)
Theorem C102_triangulation : forall P, faithful P -> forall M, writable P M ->
  exists s M', write_triangulation P M = Some s /\ read_tsh P s = Some M' /\
    vertices P M' = vertices P M /\ triangles P M' = triangles P M /\ segments P M' = segments P M /\
    titles P M' = map strip (titles P M) /\
    points P M' = [] /\ outline_segments P M' = [] /\ holes P M' = [] /\ regions P M' = [] /\ reference P M' = None.
Proof.
  intros P F M H. destruct (triangulation_stored P F M H) as (s & A & B). eexists s, _. split; [exact A|]. split; [exact B|]. repeat split; reflexivity.
Qed.
Print Assumptions C102_triangulation.

(** A number format with these properties, for the instances: a sign and as
    many ones *)
Definition tally (z : Z) : text := (if (z <? 0)%Z then "-"%char else "+"%char) :: repeat "1"%char (Z.abs_nat z).
Definition read_tally (s : text) : option Z :=
  match s with
  | c :: s => if Ascii.eqb c "-" then Some (- Z.of_nat (length s))%Z else if Ascii.eqb c "+" then Some (Z.of_nat (length s)) else None
  | [] => None
  end.
Definition tallies : format := Format Z tally read_tally tally read_tally.
Theorem C102_format : faithful tallies.
Proof.
  assert (W : forall z, word (tally z) /\ read_tally (tally z) = Some z).
  { intros z. split.
    - split; [discriminate|]. unfold tally. cbn [forallb]. apply andb_true_intro. split; [destruct (z <? 0)%Z; reflexivity|].
      apply forallb_forall. intros c Hc. apply repeat_spec in Hc. rewrite Hc. reflexivity.
    - unfold tally, read_tally. rewrite repeat_length, Zabs2Nat.id_abs. destruct (Z.ltb_spec z 0); cbn; f_equal; lia. }
  split; [exact W|]. split; [exact W|reflexivity].
Qed.
Print Assumptions C102_format.

Definition ex_mesh (atts : option (list (list Z))) (ts : list text) (tag : text) : mesh tallies :=
  Mesh tallies [(0, 0); (1, 0); (0, 1)]%Z atts ts
    [(0, 1, 2)%Z] [(Some (-1), Some (-1), Some (-1))%Z] [lit "the region"]
    [(0, 1)%Z; (1, 2)%Z] [lit "exterior"; tag]
    [(0, 0); (1, 0); (0, 1)]%Z [[]; []; []] [(0, 1)%Z] [lit "wall"] [(5, 6)%Z] [(2, 3)%Z] [lit "pool"] [None]
    (Some (56%Z, 0, 10%Z, 20%Z)).
Example C102_case : complete tallies (ex_mesh (Some [[1]; [2]; [3]]%Z) [lit "elevation"] []) /\
  exists s, write_tsh tallies (ex_mesh (Some [[1]; [2]; [3]]%Z) [lit "elevation"] []) = Some s /\
    read_tsh tallies s = Some (ex_mesh (Some [[1]; [2]; [3]]%Z) [lit "elevation"] []).
Proof.
  assert (C : complete tallies (ex_mesh (Some [[1]; [2]; [3]]%Z) [lit "elevation"] [])).
  { split.
    - right. exists [[1]; [2]; [3]]%Z. repeat split; try discriminate. intros r [<-|[<-|[<-|[]]]]; reflexivity.
    - intros t [<-|[]]; split; reflexivity.
    - split; [reflexivity|]. intros n [<-|[]]. repeat split; discriminate.
    - split; [reflexivity|]. intros n [<-|[]]; split; reflexivity.
    - split; [reflexivity|]. intros n [<-|[<-|[]]]; split; reflexivity.
    - reflexivity.
    - split; [reflexivity|]. intros n [<-|[]]; split; reflexivity.
    - split; [reflexivity|]. intros n [<-|[]]; split; reflexivity.
    - reflexivity.
    - intros z h x y E. injection E as _ <- _ _. reflexivity. }
  split; [exact C|]. apply (C102_round_trip tallies C102_format _ C).
Qed.

(** Refuted for incomplete meshes: with attributes that have no titles, the
    header of the triangles is taken for a title and the triangle is lost
    without an error. *)
Theorem C102_titles_refuted : exists s M', write_tsh tallies (ex_mesh (Some [[1]; [2]; [3]]%Z) [] []) = Some s /\
  read_tsh tallies s = Some M' /\ triangles tallies M' = [] /\ segments tallies M' = [(0, 1)%Z; (1, 2)%Z].
Proof.
  eexists _, _. split; [vm_compute; reflexivity|]. split; [vm_compute; reflexivity|]. split; reflexivity.
Qed.
Print Assumptions C102_titles_refuted.
(** Titles without attributes, and a newline in a tag, make a file that cannot
    be read. *)
Theorem C102_unreadable_refuted :
  (exists s, write_tsh tallies (ex_mesh None [lit "elevation"] []) = Some s /\ read_tsh tallies s = None) /\
  (exists s, write_tsh tallies (ex_mesh None [] (lit "in" ++ [newline] ++ lit "flow")) = Some s /\ read_tsh tallies s = None).
Proof. split; eexists; (split; [vm_compute; reflexivity|vm_compute; reflexivity]). Qed.
Print Assumptions C102_unreadable_refuted.
(** Blanks around a tag and the hemisphere are always lost. *)
Theorem C102_lost_refuted : forall P, faithful P -> forall M z h x y, writable P M -> reference P M = Some (z, h, x, y) ->
  exists s M', write_tsh P M = Some s /\ read_tsh P s = Some M' /\ reference P M' = Some (z, 0, x, y) /\
    segment_tags P M' = map strip (firstn (length (segments P M)) (segment_tags P M)).
Proof.
  intros P F M z h x y H E. destruct (C102_stored P F M H) as (s & W & Rd). exists s, (stored P M). split; [exact W|]. split; [exact Rd|].
  unfold stored. cbn [reference segment_tags]. rewrite E. split; reflexivity.
Qed.
Print Assumptions C102_lost_refuted.
Example C102_blanks : strip (lit " inner wall ") = lit "inner wall".
Proof. reflexivity. Qed.
