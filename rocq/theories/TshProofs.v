(** Lemmas for C102: lines, fields and the parts of a mesh file. *)
From Coq Require Import Ascii String ZArith Arith Bool List Lia.
From Verif Require Import TshModel.
Import ListNotations.
Local Open Scope list_scope.

(** A field: not empty, and without blanks *)
Definition word (w : text) : Prop := w <> [] /\ forallb (fun c => negb (is_space c)) w = true.
(** A text without a newline *)
Definition one_line (s : text) : bool := forallb (fun c => negb (Ascii.eqb c newline)) s.

Lemma one_line_app a b : one_line (a ++ b) = one_line a && one_line b.
Proof. apply forallb_app. Qed.
Lemma one_line_cons c s : one_line (c :: s) = negb (Ascii.eqb c newline) && one_line s.
Proof. reflexivity. Qed.
Lemma word_one_line w : word w -> one_line w = true.
Proof.
  intros [_ H]. unfold one_line. rewrite forallb_forall in *. intros c Hc. specialize (H c Hc). destruct (Ascii.eqb_spec c newline) as [->|]; [discriminate|reflexivity].
Qed.
Lemma readline_endl s rest : one_line s = true -> readline (endl s ++ rest) = (endl s, rest).
Proof.
  unfold endl. rewrite <- app_assoc. cbn [app]. induction s as [|c s IH]; [reflexivity|]. rewrite one_line_cons. intros H. apply andb_prop in H as [H1 H2].
  cbn [app readline]. destruct (Ascii.eqb c newline); [discriminate|]. rewrite (IH H2). reflexivity.
Qed.

Lemma word_head w : word w -> exists c v, w = c :: v /\ is_space c = false.
Proof. intros [N H]. destruct w as [|c v]; [congruence|]. exists c, v. cbn in H. apply andb_prop in H as [H _]. split; [reflexivity|]. destruct (is_space c); [discriminate|reflexivity]. Qed.
Lemma split_from_word v : forallb (fun c => negb (is_space c)) v = true -> forall w c rest, is_space c = true -> w ++ v <> [] ->
  split_from w (v ++ c :: rest) = (w ++ v) :: split rest.
Proof.
  induction v as [|d v IH]; intros H w c rest Hc N; cbn [app split_from].
  - rewrite app_nil_r in *. rewrite Hc. destruct w; [congruence|reflexivity].
  - cbn in H. apply andb_prop in H as [H1 H2]. destruct (is_space d); [discriminate|]. rewrite (IH H2); [rewrite <- app_assoc; reflexivity|exact Hc|destruct w; discriminate].
Qed.
Lemma split_word w c rest : word w -> is_space c = true -> split (w ++ c :: rest) = w :: split rest.
Proof. intros [N H] Hc. unfold split at 1. rewrite split_from_word; auto. Qed.
Lemma split_field w rest : word w -> split (field w ++ rest) = w :: split rest.
Proof. intros H. unfold field. rewrite <- app_assoc. apply split_word; [exact H|reflexivity]. Qed.
Lemma split_endl w : word w -> split (endl w) = [w].
Proof. intros H. unfold endl. rewrite split_word by (assumption || reflexivity). reflexivity. Qed.

Lemma lstrip_word w rest : word w -> lstrip (w ++ rest) = w ++ rest.
Proof. intros H. destruct (word_head w H) as (c & v & -> & E). cbn. rewrite E. reflexivity. Qed.
Lemma find_space_word w rest : forallb (fun c => negb (is_space c)) w = true -> find_space (w ++ space :: rest) = Some (space :: rest).
Proof.
  induction w as [|c w IH]; intros H; [reflexivity|]. cbn in H. apply andb_prop in H as [H1 H2]. cbn [app find_space].
  destruct (Ascii.eqb_spec c space) as [->|]; [discriminate|]. auto.
Qed.
Lemma from_space_field w rest : word w -> from_space (field w ++ rest) = space :: rest.
Proof. intros [_ H]. unfold from_space, field. rewrite <- app_assoc. cbn [app]. rewrite find_space_word by exact H. reflexivity. Qed.
Lemma drop_field_field w rest : word w -> drop_field (field w ++ rest) = lstrip rest.
Proof. intros H. unfold drop_field. rewrite from_space_field by exact H. reflexivity. Qed.
Lemma lstrip_field w rest : word w -> lstrip (field w ++ rest) = field w ++ rest.
Proof. intros H. unfold field. rewrite <- app_assoc. apply lstrip_word, H. Qed.

Lemma strip_space s c : is_space c = true -> strip (c :: s) = strip s.
Proof. intros H. unfold strip. cbn [lstrip]. rewrite H. reflexivity. Qed.
Lemma lstrip_lstrip s : lstrip (lstrip s) = lstrip s.
Proof. induction s as [|c s IH]; [reflexivity|]. cbn [lstrip]. destruct (is_space c) eqn:E; [exact IH|]. cbn [lstrip]. rewrite E. reflexivity. Qed.
Lemma strip_lstrip s : strip (lstrip s) = strip s.
Proof. unfold strip. rewrite lstrip_lstrip. reflexivity. Qed.
Lemma lstrip_snoc s c : is_space c = true -> lstrip (s ++ [c]) = match lstrip s with [] => [] | t => t ++ [c] end.
Proof.
  intros H. induction s as [|d s IH]; cbn [app lstrip]; [rewrite H; reflexivity|]. destruct (is_space d); [exact IH|reflexivity].
Qed.
Lemma strip_endl s : strip (endl s) = strip s.
Proof.
  unfold strip, endl. rewrite lstrip_snoc by reflexivity. destruct (lstrip s) as [|c t]; [reflexivity|]. rewrite rev_app_distr. cbn [rev app lstrip]. reflexivity.
Qed.
Lemma strip_word w : word w -> strip w = w.
Proof.
  intros H. unfold strip. rewrite <- (app_nil_r w), lstrip_word, app_nil_r by exact H. assert (W : word (rev w)).
  { destruct H as [N H]. split; [intros E; apply N; rewrite <- (rev_involutive w), E; reflexivity|]. rewrite forallb_forall in *. intros c Hc. apply H, in_rev, Hc. }
  rewrite <- (app_nil_r (rev w)), lstrip_word, app_nil_r by exact W. apply rev_involutive.
Qed.

(** Rows *)
Lemma repeat_read_rows {A B} (f : reader A) (enc : nat * B -> text) (dec : nat * B -> A) rest : forall rows,
  (forall r t, In r rows -> f (enc r ++ t) = Some (dec r, t)) ->
  repeat_read (length rows) f (concat (map enc rows) ++ rest) = Some (map dec rows, rest).
Proof.
  induction rows as [|r rows IH]; intros H; [reflexivity|]. cbn [length repeat_read map concat]. rewrite <- app_assoc, H by (left; reflexivity). cbn [bind].
  rewrite IH by (intros; apply H; right; assumption). reflexivity.
Qed.
Lemma combine_seq_length {B} (l : list B) : length (combine (seq 0 (length l)) l) = length l.
Proof. rewrite combine_length, seq_length. lia. Qed.
Lemma combine_seq_snd {A B} (g : B -> A) (l : list B) n : map (fun ix => g (snd ix)) (combine (seq n (length l)) l) = map g l.
Proof. revert n. induction l as [|x l IH]; intros n; [reflexivity|]. cbn. rewrite IH. reflexivity. Qed.

Section Faithful.
Variable P : format.
(** Printed numbers are fields, and are read back; 'None' is no number. *)
Definition faithful : Prop :=
  (forall x, word (show P x) /\ parse P (show P x) = Some x) /\
  (forall z, word (show_int P z) /\ parse_int P (show_int P z) = Some z) /\
  parse P (lit "None") = None.
Hypothesis F : faithful.

Lemma wn x : word (show P x). Proof. apply F. Qed.
Lemma wi z : word (show_int P z). Proof. apply F. Qed.
Lemma pn x : parse P (show P x) = Some x. Proof. apply F. Qed.
Lemma pi z : parse_int P (show_int P z) = Some z. Proof. apply F. Qed.
Lemma one_line_field w : word w -> one_line (field w) = true.
Proof. intros H. unfold field. rewrite one_line_app, word_one_line by exact H. reflexivity. Qed.
Lemma one_line_reals l : one_line (reals P l) = true.
Proof. induction l as [|x l IH]; [reflexivity|]. unfold reals in *. cbn [map concat]. rewrite one_line_app, IH. unfold real. rewrite one_line_field by apply wn. reflexivity. Qed.
Lemma split_reals l : split (endl (reals P l)) = map (show P) l.
Proof.
  unfold endl. induction l as [|x l IH]; [reflexivity|]. unfold reals in *. cbn [map concat]. rewrite <- app_assoc. unfold real at 1. rewrite split_field by apply wn. rewrite IH. reflexivity.
Qed.
Lemma all_numbers_show l : all_numbers P (map (show P) l) = Some l.
Proof. induction l as [|x l IH]; [reflexivity|]. cbn [map all_numbers]. rewrite pn. cbn [bind]. rewrite IH. reflexivity. Qed.

(** [numbered] rows are read row by row. *)
Lemma read_numbered {A B} (f : reader A) (line : text -> B -> text) (dec : B -> A) l rest :
  (forall z b t, In b l -> f (line (integer P z) b ++ t) = Some (dec b, t)) ->
  repeat_read (length l) f (numbered P line l ++ rest) = Some (map dec l, rest).
Proof.
  intros H. unfold numbered. rewrite <- (combine_seq_length l) at 1.
  rewrite (repeat_read_rows f (fun ix => line (integer P (Z.of_nat (fst ix))) (snd ix)) (fun ix => dec (snd ix))).
  - rewrite combine_seq_snd. reflexivity.
  - intros [i b] t Hin. cbn [fst snd]. apply H. eapply in_combine_r, Hin.
Qed.

Lemma endl_app a b : endl (a ++ b) = a ++ endl b.
Proof. unfold endl. rewrite app_assoc. reflexivity. Qed.
Lemma count_text {A} (l : list A) : count P l = show_int P (Z.of_nat (length l)).
Proof. reflexivity. Qed.

Lemma vertex_read z v t : read_vertex P (vertex_line P (integer P z) v ++ t) = Some (v, t).
Proof.
  destruct v as [[x y] l]. unfold read_vertex, vertex_line. cbn [fst snd]. unfold integer, real.
  rewrite readline_endl by (rewrite !one_line_app, !one_line_field by first [apply wn|apply wi]; rewrite one_line_reals; reflexivity).
  rewrite !endl_app, !split_field by first [apply wn|apply wi]. rewrite split_reals, !pn. cbn [bind]. rewrite all_numbers_show. reflexivity.
Qed.
Lemma triangle_read z r t : one_line (snd r) = true ->
  read_triangle P (triangle_line P (integer P z) r ++ t) = Some ((fst r, strip (snd r)), t).
Proof.
  destruct r as [[[[a b] c] [[n0 n1] n2]] tag]. cbn [fst snd]. intros H. unfold read_triangle, triangle_line, triple. cbn [fst snd]. unfold integer.
  rewrite readline_endl by (rewrite !one_line_app, !one_line_field by apply wi; rewrite H; reflexivity).
  rewrite <- !app_assoc, !endl_app, !split_field by apply wi. rewrite !pi. cbn [bind]. do 3 f_equal.
  cbn [Nat.iter nat_rect]. rewrite !(drop_field_field (show_int P z)), lstrip_field by apply wi.
  rewrite (drop_field_field (show_int P a)), lstrip_field by apply wi. rewrite (drop_field_field (show_int P b)), lstrip_field by apply wi.
  rewrite (drop_field_field (show_int P c)), lstrip_field by apply wi. rewrite (drop_field_field (show_int P n0)), lstrip_field by apply wi.
  rewrite (drop_field_field (show_int P n1)), lstrip_field by apply wi. rewrite (drop_field_field (show_int P n2)) by apply wi.
  rewrite strip_lstrip. cbn [app]. rewrite strip_space by reflexivity. apply strip_endl.
Qed.
Lemma third_tag a b c tag : word a -> word b -> word c -> third (field a ++ field b ++ field c ++ endl tag) = strip tag.
Proof.
  intros Ha Hb Hc. unfold third. rewrite (drop_field_field a), lstrip_field, (drop_field_field b), lstrip_field, from_space_field by assumption.
  rewrite strip_space by reflexivity. apply strip_endl.
Qed.
Lemma segment_read z r t : one_line (snd r) = true -> read_segment P (segment_line P (integer P z) r ++ t) = Some ((fst r, strip (snd r)), t).
Proof.
  destruct r as [[a b] tag]. cbn [fst snd]. intros H. unfold read_segment, segment_line. cbn [fst snd]. unfold integer.
  rewrite readline_endl by (rewrite !one_line_app, !one_line_field by apply wi; rewrite H; reflexivity).
  rewrite !endl_app, !split_field by apply wi. rewrite !pi. cbn [bind]. rewrite third_tag by apply wi. reflexivity.
Qed.
Lemma hole_read z h t : read_hole P (hole_line P (integer P z) h ++ t) = Some (h, t).
Proof.
  destruct h as [x y]. unfold read_hole, hole_line, integer, real. cbn [fst snd].
  rewrite readline_endl by (rewrite !one_line_app, !one_line_field, word_one_line by first [apply wn|apply wi]; reflexivity).
  rewrite !endl_app, !split_field by first [apply wn|apply wi]. rewrite split_endl by apply wn. rewrite !pn. reflexivity.
Qed.
Lemma region_read z r t : one_line (snd r) = true -> read_region P (region_line P (integer P z) r ++ t) = Some ((fst r, strip (snd r)), t).
Proof.
  destruct r as [[x y] tag]. cbn [fst snd]. intros H. unfold read_region, region_line, integer, real. cbn [fst snd].
  rewrite readline_endl by (rewrite !one_line_app, !one_line_field by first [apply wn|apply wi]; rewrite H; reflexivity).
  rewrite !endl_app, !split_field by first [apply wn|apply wi]. rewrite !pn. cbn [bind]. rewrite third_tag by first [apply wn|apply wi]. reflexivity.
Qed.
Lemma none_word : word (lit "None").
Proof. split; [discriminate|reflexivity]. Qed.
Lemma area_read z a t : read_area P (area_line P (integer P z) a ++ t) = Some (a, t).
Proof.
  unfold read_area, area_line, integer. assert (W : word (area_text P a)) by (destruct a; [apply wn|apply none_word]).
  rewrite readline_endl by (rewrite !one_line_app, one_line_field, word_one_line by first [apply wi|exact W]; reflexivity).
  rewrite endl_app, split_field by apply wi. rewrite split_endl by exact W. destruct a as [x|]; cbn [area_text]; [rewrite pn; reflexivity|].
  destruct F as (_ & _ & E). rewrite E. reflexivity.
Qed.
Lemma titles_read l rest : forallb one_line l = true -> repeat_read (length l) read_title (concat (map endl l) ++ rest) = Some (map strip l, rest).
Proof.
  induction l as [|x l IH]; intros H; [reflexivity|]. cbn in H. apply andb_prop in H as [H1 H2]. cbn [length repeat_read map concat]. rewrite <- app_assoc. unfold read_title at 1.
  rewrite readline_endl by exact H1. cbn [bind]. rewrite IH by exact H2. cbn [bind]. rewrite strip_endl. reflexivity.
Qed.
Lemma count_read blank z comment rest : one_line comment = true ->
  read_count P blank (endl (show_int P z ++ space :: comment) ++ rest) = Some (z, rest).
Proof.
  intros H. unfold read_count. rewrite readline_endl by (rewrite one_line_app, word_one_line, one_line_cons by apply wi; exact H).
  unfold endl. rewrite <- app_assoc. cbn [app]. rewrite split_word by (apply wi || reflexivity). rewrite pi. reflexivity.
Qed.
Lemma counts_read z z' comment rest : one_line comment = true ->
  read_counts P (endl (show_int P z ++ [space] ++ show_int P z' ++ space :: comment) ++ rest) = Some ((z, Some z'), rest).
Proof.
  intros H. unfold read_counts. rewrite readline_endl by (rewrite !one_line_app, (word_one_line _ (wi z)), (word_one_line _ (wi z')), !one_line_cons, H; reflexivity).
  unfold endl. rewrite <- !app_assoc. cbn [app]. rewrite split_word by (apply wi || reflexivity). rewrite split_word by (apply wi || reflexivity).
  rewrite !pi. reflexivity.
Qed.
Definition forget (g : option (Z * nat * number P * number P)) : option (Z * nat * number P * number P) :=
  match g with Some (z, _, x, y) => Some (z, 0, x, y) | None => None end.
Lemma reference_read g : read_reference P (write_reference P g) = forget g.
Proof.
  destruct g as [[[[z h] x] y]|]; [|reflexivity]. unfold read_reference, write_reference.
  rewrite readline_endl by reflexivity. change (text_eqb (upper_two (endl geo_title)) (upper_two geo_title)) with true. cbn iota.
  rewrite !readline_endl by (apply word_one_line; first [apply wn|apply wi]). rewrite <- (app_nil_r (endl (show P y))), readline_endl by (apply word_one_line, wn).
  rewrite !strip_endl, !strip_word by first [apply wn|apply wi]. rewrite pi, !pn. reflexivity.
Qed.
End Faithful.

Section Files.
Variable P : format.
Hypothesis F : faithful P.

(** What can be written and read again: one title per attribute, as many tags
    and values as needed, no newline in a tag *)
Definition writable (M : mesh P) : Prop :=
  length (titles P M) = num_attributes P M /\ forallb one_line (titles P M) = true /\
  attribute_rows P M <> None /\ neighbour_rows P M <> None /\ tag_rows P M <> None /\
  forallb one_line (triangle_tags P M) = true /\
  (length (segments P M) <= length (segment_tags P M)) /\ forallb one_line (segment_tags P M) = true /\
  (length (points P M) <= length (point_attributes P M)) /\
  (length (outline_segments P M) <= length (outline_tags P M)) /\ forallb one_line (outline_tags P M) = true /\
  (length (regions P M) <= length (region_tags P M)) /\ forallb one_line (region_tags P M) = true /\
  (length (regions P M) <= length (region_areas P M)).
Definition or_nil {A} (l : option (list A)) : list A := match l with Some l => l | None => [] end.
(** What is read. *)
Definition stored (M : mesh P) : mesh P :=
  Mesh P (vertices P M) (some_rows P (or_nil (attribute_rows P M))) (map strip (titles P M))
    (triangles P M) (map some3 (or_nil (neighbour_rows P M))) (map strip (or_nil (tag_rows P M)))
    (segments P M) (map strip (firstn (length (segments P M)) (segment_tags P M)))
    (points P M) (firstn (length (points P M)) (point_attributes P M))
    (outline_segments P M) (map strip (firstn (length (outline_segments P M)) (outline_tags P M)))
    (holes P M) (regions P M) (map strip (firstn (length (regions P M)) (region_tags P M)))
    (firstn (length (regions P M)) (region_areas P M)) (forget P (reference P M)).

Lemma combine_fst {A B} : forall (a : list A) (b : list B), length a <= length b -> map fst (combine a b) = a.
Proof. induction a as [|x a IH]; intros [|y b] H; cbn in *; try lia; try reflexivity. rewrite IH by lia. reflexivity. Qed.
Lemma combine_snd {A B} : forall (a : list A) (b : list B), length a <= length b -> map snd (combine a b) = firstn (length a) b.
Proof. induction a as [|x a IH]; intros [|y b] H; cbn in *; try lia; try reflexivity. rewrite IH by lia. reflexivity. Qed.
Lemma combine_len {A B} (a : list A) (b : list B) : length a <= length b -> length (combine a b) = length a.
Proof. rewrite combine_length. lia. Qed.
Lemma combine_tag {A} (a : list A) b r : forallb one_line b = true -> In r (combine a b) -> one_line (snd r) = true.
Proof. intros H Hin. rewrite forallb_forall in H. apply H. destruct r. eapply in_combine_r, Hin. Qed.
Lemma times_of n : times (Z.of_nat n) = n.
Proof. apply Nat2Z.id. Qed.
Lemma numbered_read {A B} (f : reader A) (line : text -> B -> text) (dec : B -> A) l rest n : length l = n ->
  (forall z b t, In b l -> f (line (integer P z) b ++ t) = Some (dec b, t)) ->
  repeat_read (times (Z.of_nat n)) f (numbered P line l ++ rest) = Some (map dec l, rest).
Proof. intros <- H. rewrite times_of. apply read_numbered. exact H. Qed.
Lemma map_self {A} (l : list A) : map (fun a => a) l = l.
Proof. apply map_id. Qed.

Lemma attribute_rows_length M rows : attribute_rows P M = Some rows -> length rows = length (vertices P M).
Proof.
  unfold attribute_rows. destruct (vertex_attributes P M) as [[|r l]|]; [intros H; injection H as <-; apply repeat_length| |intros H; injection H as <-; apply repeat_length].
  destruct (Nat.leb_spec (length (vertices P M)) (length (r :: l))); [|discriminate]. intros E. injection E as <-. apply firstn_length_le. assumption.
Qed.
Lemma neighbour_rows_length M rows : neighbour_rows P M = Some rows -> length rows = length (triangles P M).
Proof.
  unfold neighbour_rows. destruct (triangle_neighbors P M) as [|r l]; [intros H; injection H as <-; apply repeat_length|].
  destruct (Nat.leb_spec (length (triangles P M)) (length (r :: l))); [|discriminate]. intros E. injection E as <-. rewrite map_length. apply firstn_length_le. assumption.
Qed.
Lemma tag_rows_spec M rows : forallb one_line (triangle_tags P M) = true -> tag_rows P M = Some rows -> length rows = length (triangles P M) /\ forallb one_line rows = true.
Proof.
  intros C. unfold tag_rows. destruct (triangle_tags P M) as [|r l].
  { intros H. injection H as <-. split; [apply repeat_length|]. apply forallb_forall. intros x Hx. apply repeat_spec in Hx. rewrite Hx. reflexivity. }
  destruct (Nat.leb_spec (length (triangles P M)) (length (r :: l))); [|discriminate]. intros E. injection E as <-. split; [apply firstn_length_le; assumption|].
  rewrite forallb_forall in *. intros x Hx. apply C. rewrite <- (firstn_skipn (length (triangles P M)) (r :: l)). apply in_or_app. left. exact Hx.
Qed.

Lemma file_stored M : writable M -> exists s, write_tsh P M = Some s /\ read_tsh P s = Some (stored M).
Proof.
  intros (Ht & Ct & Na & Nn & Ng & Cg & Ls & Cs & Lp & Lo & Co & Lr & Cr & La).
  unfold write_tsh, write_triangulation, write_outline, stored.
  destruct (attribute_rows P M) as [atts|] eqn:Ea; [|congruence]. destruct (neighbour_rows P M) as [nbs|] eqn:En; [|congruence].
  destruct (tag_rows P M) as [tags|] eqn:Eg; [|congruence]. cbn [or_nil].
  pose proof (attribute_rows_length M atts Ea) as La'. pose proof (neighbour_rows_length M nbs En) as Ln. destruct (tag_rows_spec M tags Cg Eg) as (Lg & Cg').
  rewrite (proj2 (Nat.leb_le _ _) Ls). 
  assert (W : forall T U : option text, (points P M <> [] -> point_attributes P M <> []) -> match points P M with [] => U | _ :: _ => match point_attributes P M with [] => T | _ :: _ => U end end = U).
  { intros T U H. destruct (points P M); [reflexivity|]. destruct (point_attributes P M); [exfalso; apply H; [discriminate|reflexivity]|reflexivity]. }
  rewrite (proj2 (Nat.leb_le _ _) Lp), (proj2 (Nat.leb_le _ _) Lo), (proj2 (Nat.leb_le _ _) Lr), (proj2 (Nat.leb_le _ _) La). cbn [andb].
  rewrite W by (destruct (points P M), (point_attributes P M); cbn in *; congruence || lia).
  eexists. split; [reflexivity|]. clear W. rewrite <- !app_assoc. rewrite !count_text.
  unfold read_tsh.
  change vertex_comment with (space :: tl vertex_comment). rewrite (counts_read P F) by reflexivity. cbn [bind].
  rewrite (numbered_read _ _ (fun v => v)) by first [apply combine_len; lia|intros; apply (vertex_read P F)]. cbn [bind].
  rewrite readline_endl by reflexivity. cbn [snd]. rewrite times_of, <- Ht. rewrite titles_read by exact Ct. cbn [bind].
  change triangle_comment with (space :: tl triangle_comment). rewrite (count_read P F) by reflexivity. cbn [bind].
  assert (Lc : length (combine (triangles P M) nbs) = length (triangles P M)) by (apply combine_len; lia).
  rewrite (numbered_read _ _ (fun r => (fst r, strip (snd r)))).
  2: { rewrite combine_len; lia. }
  2: { intros z b t Hb. apply (triangle_read P F). eapply combine_tag; [exact Cg'|exact Hb]. }
  cbn [bind]. change segment_comment with (space :: tl segment_comment). rewrite (count_read P F) by reflexivity. cbn [bind].
  rewrite (numbered_read _ _ (fun r => (fst r, strip (snd r)))).
  2: { apply combine_len; exact Ls. }
  2: { intros z b t Hb. apply (segment_read P F). eapply combine_tag; [exact Cs|exact Hb]. }
  cbn [bind]. change point_comment with (space :: tl point_comment). rewrite (counts_read P F) by reflexivity. cbn [bind].
  rewrite (numbered_read _ _ (fun v => v)) by first [apply combine_len; exact Lp|intros; apply (vertex_read P F)]. cbn [bind].
  change outline_comment with (space :: tl outline_comment). rewrite (count_read P F) by reflexivity. cbn [bind].
  rewrite (numbered_read _ _ (fun r => (fst r, strip (snd r)))).
  2: { apply combine_len; exact Lo. }
  2: { intros z b t Hb. apply (segment_read P F). eapply combine_tag; [exact Co|exact Hb]. }
  cbn [bind]. change hole_comment with (space :: tl hole_comment). rewrite (count_read P F) by reflexivity. cbn [bind].
  rewrite (numbered_read _ _ (fun v => v)) by first [reflexivity|intros; apply (hole_read P F)]. cbn [bind].
  change region_comment with (space :: tl region_comment). rewrite (count_read P F) by reflexivity. cbn [bind].
  rewrite (numbered_read _ _ (fun r => (fst r, strip (snd r)))).
  2: { apply combine_len; exact Lr. }
  2: { intros z b t Hb. apply (region_read P F). eapply combine_tag; [exact Cr|exact Hb]. }
  cbn [bind]. rewrite readline_endl.
  2: { rewrite one_line_app, word_one_line by apply (wi P F). reflexivity. }
  cbn [snd]. rewrite (numbered_read _ _ (fun v => v)) by first [apply firstn_length_le; exact La|intros; apply (area_read P F)]. cbn [bind].
  rewrite (reference_read P F), !map_self, !map_map. cbn [fst snd].
  assert (T1 : forall (A B C : Type) (g : B -> C) (l : list (A * B)), map (fun x => g (snd x)) l = map g (map snd l)) by (intros; rewrite map_map; reflexivity).
  assert (T2 : forall (A B : Type) (l : list (A * B)), map (fun x => fst x) l = map fst l) by reflexivity.
  rewrite !T1, !combine_snd by lia. rewrite !combine_fst by lia. rewrite (firstn_all2 (n := length (combine (triangles P M) nbs)) tags) by lia.
  rewrite <- (map_map fst fst), <- (map_map fst (fun t => some3 (snd t))), combine_fst by lia. rewrite (combine_fst (triangles P M)) by lia.
  rewrite <- (map_map snd some3), (combine_snd (triangles P M)) by lia. rewrite <- Ln, <- La', !firstn_all. reflexivity.
Qed.
(** A file that ends after the triangulation: nothing else is read. *)
Lemma triangulation_stored M : writable M -> exists s, write_triangulation P M = Some s /\
  read_tsh P s = Some (Mesh P (vertices P (stored M)) (vertex_attributes P (stored M)) (titles P (stored M))
    (triangles P (stored M)) (triangle_neighbors P (stored M)) (triangle_tags P (stored M))
    (segments P (stored M)) (segment_tags P (stored M)) [] [] [] [] [] [] [] [] None).
Proof.
  intros (Ht & Ct & Na & Nn & Ng & Cg & Ls & Cs & _).
  unfold write_triangulation, stored.
  destruct (attribute_rows P M) as [atts|] eqn:Ea; [|congruence]. destruct (neighbour_rows P M) as [nbs|] eqn:En; [|congruence].
  destruct (tag_rows P M) as [tags|] eqn:Eg; [|congruence]. cbn [or_nil vertices vertex_attributes titles triangles triangle_neighbors triangle_tags segments segment_tags].
  pose proof (attribute_rows_length M atts Ea) as La'. pose proof (neighbour_rows_length M nbs En) as Ln. destruct (tag_rows_spec M tags Cg Eg) as (Lg & Cg').
  rewrite (proj2 (Nat.leb_le _ _) Ls).
  eexists. split; [reflexivity|]. rewrite !count_text.
  rewrite <- (app_nil_r (numbered P (segment_line P) _)).
  unfold read_tsh.
  change vertex_comment with (space :: tl vertex_comment). rewrite (counts_read P F) by reflexivity. cbn [bind].
  rewrite (numbered_read _ _ (fun v => v)) by first [apply combine_len; lia|intros; apply (vertex_read P F)]. cbn [bind].
  rewrite readline_endl by reflexivity. cbn [snd]. rewrite times_of, <- Ht. rewrite titles_read by exact Ct. cbn [bind].
  change triangle_comment with (space :: tl triangle_comment). rewrite (count_read P F) by reflexivity. cbn [bind].
  assert (Lc : length (combine (triangles P M) nbs) = length (triangles P M)) by (apply combine_len; lia).
  rewrite (numbered_read _ _ (fun r => (fst r, strip (snd r)))).
  2: { rewrite combine_len; lia. }
  2: { intros z b t Hb. apply (triangle_read P F). eapply combine_tag; [exact Cg'|exact Hb]. }
  cbn [bind]. change segment_comment with (space :: tl segment_comment). rewrite (count_read P F) by reflexivity. cbn [bind].
  rewrite (numbered_read _ _ (fun r => (fst r, strip (snd r)))).
  2: { apply combine_len; exact Ls. }
  2: { intros z b t Hb. apply (segment_read P F). eapply combine_tag; [exact Cs|exact Hb]. }
  cbn [bind]. change (read_counts P []) with (Some ((0%Z, Some 0%Z), @nil Ascii.ascii)). cbn [bind]. 
  change (repeat_read (times 0) (read_vertex P) []) with (Some (@nil ((number P * number P) * list (number P)), @nil Ascii.ascii)). cbn [bind].
  change (read_count P (Some 0%Z) []) with (Some (0%Z, @nil Ascii.ascii)). cbn [bind]. cbn [times Z.to_nat repeat_read bind].
  change (read_count P (Some 0%Z) []) with (Some (0%Z, @nil Ascii.ascii)). cbn [bind]. cbn [times Z.to_nat repeat_read bind].
  change (read_count P (Some 0%Z) []) with (Some (0%Z, @nil Ascii.ascii)). cbn [bind]. cbn [times Z.to_nat repeat_read bind snd readline].
  change (read_reference P (snd (readline []))) with (@None (Z * nat * number P * number P)).
  rewrite ?map_self, !map_map. cbn [fst snd map].
  assert (T1 : forall (A B C : Type) (g : B -> C) (l : list (A * B)), map (fun x => g (snd x)) l = map g (map snd l)) by (intros; rewrite map_map; reflexivity).
  assert (T2 : forall (A B : Type) (l : list (A * B)), map (fun x => fst x) l = map fst l) by reflexivity.
  rewrite !T1, !combine_snd by lia. rewrite !combine_fst by lia. rewrite (firstn_all2 (n := length (combine (triangles P M) nbs)) tags) by lia.
  rewrite <- (map_map fst fst), <- (map_map fst (fun t => some3 (snd t))), combine_fst by lia. rewrite (combine_fst (triangles P M)) by lia.
  rewrite <- (map_map snd some3), (combine_snd (triangles P M)) by lia. rewrite <- Ln, <- La', !firstn_all. reflexivity.
Qed.
End Files.
