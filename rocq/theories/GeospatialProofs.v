(** Lemmas for C101: points, attributes and points files. *)
From Coq Require Import Reals List ZArith Arith Bool Lia Lra Permutation Sorted.
From Verif Require Import RealLib GeoRefModel PolygonModel PolygonProps GeospatialModel.
From Verif Require ExchangeModel ExchangeProofs.
Import ListNotations.
Local Open Scope R_scope.

(** Where the points are. *)
Definition located (G : geospatial) : list (R * R) :=
  map (fun p => (fst p + xllcorner (geo_reference G), snd p + yllcorner (geo_reference G))) (data_points G).
(** Corners that are treated as zero are zero. *)
Definition honest (g : georef) : Prop := is_absolute g = true -> xllcorner g = 0 /\ yllcorner g = 0.
(** Every attribute has one value for each point. *)
Definition aligned (G : geospatial) : Prop := forall key v, In (key, v) (dictionary G) -> length v = length (data_points G).
(** Point [i] with its attributes. *)
Definition record_at (G : geospatial) (i : nat) : (R * R) * list (nat * R) :=
  (nth i (located G) (0, 0), map (fun kv : nat * list R => (fst kv, nth i (snd kv) 0)) (dictionary G)).
Definition records (G : geospatial) : list ((R * R) * list (nat * R)) := map (record_at G) (seq 0 (length (data_points G))).

Lemma shift_map a b c d rows : shift c d (shift a b rows) = map (fun p => (fst p + a + c, snd p + b + d)) rows.
Proof. unfold shift. rewrite map_map. reflexivity. Qed.
Lemma map_id_pair (f : R * R -> R * R) rows : (forall p, f p = p) -> map f rows = rows.
Proof. intros H. rewrite (map_ext _ (fun p => p)) by exact H. apply map_id. Qed.

Lemma absolute_located G : honest (geo_reference G) -> absolute_points G = located G.
Proof.
  intros H. unfold absolute_points, located, get_absolute. destruct (is_absolute (geo_reference G)) eqn:E; cbn [negb].
  - destruct (H E) as [-> ->]. symmetry. apply map_id_pair. intros [x y]. cbn. f_equal; ring.
  - reflexivity.
Qed.
Lemma located_length G : length (located G) = length (data_points G).
Proof. apply map_length. Qed.

Lemma records_same S G : length (data_points S) = length (data_points G) -> located S = located G -> dictionary S = dictionary G -> records S = records G.
Proof. intros L E D. unfold records, record_at. rewrite L, E, D. reflexivity. Qed.

Lemma moved_located p g g' rows : (ident g = ident g' -> xllcorner g = xllcorner g' /\ yllcorner g = yllcorner g') ->
  moved_points (Table p) g g' = Some rows ->
  map (fun p => (fst p + xllcorner g', snd p + yllcorner g')) rows = map (fun p => (fst p + xllcorner g, snd p + yllcorner g)) p.
Proof.
  intros Hi. unfold moved_points, change_points_geo_ref. destruct (Nat.eqb_spec (ident g) (ident g')) as [E|E]; cbn [negb]; intros H; injection H as <-.
  - destruct (Hi E) as [-> ->]. reflexivity.
  - rewrite shift_map, map_map. apply map_ext. intros [x y]. cbn. f_equal; ring.
Qed.

Lemma construct_none k rows a : construct k (Table rows) a NoReference = Some (Geospatial rows (set_attributes a) (default_reference (S k))).
Proof.
  unfold construct. cbn [check_data_points argument_reference]. unfold moved_points, change_points_geo_ref, default_reference, new_reference.
  cbn [ident xllcorner yllcorner]. destruct (negb _); [|reflexivity]. rewrite shift_map. f_equal. f_equal. apply map_id_pair.
  intros [x y]. cbn. f_equal; ring.
Qed.
Lemma construct_ref k rows a g : construct k (Table rows) a (Reference g) = Some (Geospatial rows (set_attributes a) g).
Proof.
  unfold construct. cbn [check_data_points argument_reference]. unfold moved_points, change_points_geo_ref. rewrite Nat.eqb_refl. reflexivity.
Qed.

Lemma default_located k rows a : located (Geospatial rows a (default_reference k)) = rows.
Proof. unfold located. cbn. apply map_id_pair. intros [x y]. cbn. f_equal; ring. Qed.
Lemma absolute_ref_located k z rows a : located (Geospatial rows a (new_reference k z 0 0)) = rows.
Proof. unfold located. cbn. apply map_id_pair. intros [x y]. cbn. f_equal; ring. Qed.
Lemma default_honest k z : honest (new_reference k z 0 0).
Proof. intros _. split; reflexivity. Qed.

(** ** Samples *)
Lemma take_some {A} (d : A) l indices : (forall i, In i indices -> (i < length l)%nat) -> take d l indices = Some (map (fun i => nth i l d) indices).
Proof.
  intros H. unfold take. replace (forallb _ indices) with true; [reflexivity|]. symmetry. apply forallb_forall. intros i Hi. apply Nat.ltb_lt. auto.
Qed.
Lemma take_all_some d indices n : (forall key v, In (key, v) d -> length v = n) -> (forall i, In i indices -> (i < n)%nat) ->
  take_all d indices = Some (map (fun kv : nat * list R => (fst kv, map (fun i => nth i (snd kv) 0) indices)) d).
Proof.
  intros Hd Hi. induction d as [|[key v] d IH]; [reflexivity|]. cbn [take_all map fst snd].
  rewrite take_some by (intros i H; rewrite (Hd key v) by (left; reflexivity); auto).
  rewrite IH by (intros; eapply Hd; right; eassumption). reflexivity.
Qed.

Lemma sample_spec k G indices : honest (geo_reference G) -> aligned G -> (forall i, In i indices -> (i < length (data_points G))%nat) ->
  exists S, get_sample k G indices = Some S /\ records S = map (record_at G) indices /\ aligned S /\
    geo_reference S = default_reference (Datatypes.S k) /\ atts S <> None /\ length (data_points S) = length indices.
Proof.
  intros Hh Ha Hi. unfold get_sample. rewrite absolute_located by exact Hh.
  rewrite take_some by (intros i H; rewrite located_length; auto).
  rewrite (take_all_some _ _ (length (data_points G))) by auto. rewrite construct_none. eexists. split; [reflexivity|].
  split; [|split; [|split; [reflexivity|split; [discriminate|apply map_length]]]].
  - unfold records. cbn [data_points]. rewrite map_length. unfold record_at at 1. rewrite default_located. unfold dictionary at 1. cbn [atts set_attributes].
    apply nth_ext with (d := ((0, 0), [])) (d' := ((0, 0), [])); rewrite ?map_length, ?seq_length; [reflexivity|].
    intros n Hn.
    assert (N : forall B (f : nat -> B) l d, (n < length l)%nat -> nth n (map f l) d = f (nth n l O)).
    { intros B f l d L. rewrite (nth_indep _ d (f O)) by (rewrite map_length; exact L). apply map_nth. }
    rewrite !N by (rewrite ?seq_length; exact Hn). rewrite seq_nth by exact Hn. cbn [Nat.add]. rewrite !N by exact Hn. unfold record_at. f_equal.
    rewrite map_map. apply map_ext. intros [key v]. cbn [fst snd]. rewrite N by exact Hn. reflexivity.
  - intros key v Hin. unfold dictionary in Hin. cbn [atts set_attributes data_points] in *. apply in_map_iff in Hin as ([key' v'] & E & _).
    injection E as _ <-. rewrite !map_length. reflexivity.
Qed.

Lemma filter_map_comm {A B} (f : B -> bool) (h : A -> B) l : filter f (map h l) = map h (filter (fun a => f (h a)) l).
Proof. induction l as [|a l IH]; [reflexivity|]. cbn [map filter]. destruct (f (h a)); cbn [map]; congruence. Qed.

Lemma filter_partition {A} (f : A -> bool) l : Permutation (filter f l ++ filter (fun a => negb (f a)) l) l.
Proof.
  induction l as [|a l IH]; [constructor|]. cbn [filter]. destruct (f a); cbn [negb app].
  - apply perm_skip. exact IH.
  - apply Permutation_sym, Permutation_cons_app, Permutation_sym. exact IH.
Qed.

Lemma inside_filter pts polygon closed :
  inside_polygon pts polygon closed = filter (fun i => point_inside polygon closed (nth i pts (0, 0))) (seq 0 (length pts)) /\
  outside_polygon pts polygon closed = filter (fun i => negb (point_inside polygon closed (nth i pts (0, 0)))) (seq 0 (length pts)).
Proof.
  pose proof (C19_partition pts polygon closed) as H. destruct (separate_points_by_polygon pts polygon closed) as [c l]. cbv zeta in H.
  tauto.
Qed.

(** ** Splitting *)
Lemma pop_spec : forall l i, match pop l i with
  | Some (x, l') => (i < length l)%nat /\ Permutation l (x :: l') /\ length l = S (length l')
  | None => (length l <= i)%nat
  end.
Proof.
  induction l as [|y l IH]; intros i; [cbn; lia|]. destruct i as [|i]; cbn [pop].
  - cbn [length]. repeat split; [lia|reflexivity].
  - specialize (IH i). destruct (pop l i) as [[x l']|]; cbn [length] in *; [|lia]. destruct IH as (A & B & C). repeat split; [lia| |lia].
    apply Permutation_trans with (y :: x :: l'); [constructor; exact B|constructor].
Qed.
Lemma pop_all_spec : forall r rem acc, match pop_all r rem acc with
  | Some (a, b) => Permutation (acc ++ rem) (a ++ b) /\ length a = (length acc + length r)%nat /\
      forall j i, nth_error r j = Some i -> (i + j < length rem)%nat
  | None => exists j i, nth_error r j = Some i /\ (length rem <= i + j)%nat
  end.
Proof.
  induction r as [|i r IH]; intros rem acc; cbn [pop_all].
  - split; [reflexivity|]. split; [cbn; lia|]. intros [|j] i; discriminate.
  - pose proof (pop_spec rem i) as Hp. destruct (pop rem i) as [[x rem']|].
    + destruct Hp as (L & Pm & Len). specialize (IH rem' (acc ++ [x])). destruct (pop_all r rem' (acc ++ [x])) as [[a b]|].
      * destruct IH as (A & B & C). split; [|split].
        -- eapply Permutation_trans; [|exact A]. rewrite <- app_assoc. apply Permutation_app_head. exact Pm.
        -- rewrite B, app_length. cbn [length]. lia.
        -- intros [|j] i' E; cbn in E; [injection E as <-; lia|]. specialize (C j i' E). lia.
      * destruct IH as (j & i' & E & B). exists (S j), i'. split; [exact E|lia].
    + exists O, i. split; [reflexivity|lia].
Qed.

Lemma sort_nat_keys l : sort_nat l = ExchangeModel.sort_keys l.
Proof. reflexivity. Qed.
Lemma insert_perm x l : Permutation (x :: l) (insert_nat x l).
Proof.
  induction l as [|y l IH]; cbn [insert_nat]; [reflexivity|]. destruct (x <=? y)%nat; [reflexivity|].
  eapply Permutation_trans; [apply perm_swap|]. constructor. exact IH.
Qed.
Lemma sort_nat_perm l : Permutation l (sort_nat l).
Proof.
  induction l as [|x l IH]; [constructor|]. change (sort_nat (x :: l)) with (insert_nat x (sort_nat l)).
  eapply Permutation_trans; [|apply insert_perm]. constructor. exact IH.
Qed.
Lemma sort_seq l n : Permutation l (seq 0 n) -> sort_nat l = seq 0 n.
Proof.
  intros P. rewrite sort_nat_keys. apply ExchangeProofs.sorted_unique.
  - apply ExchangeProofs.sort_sorted. eapply Permutation_NoDup; [apply Permutation_sym, P|apply seq_NoDup].
  - apply ExchangeProofs.seq_sorted.
  - intros x. rewrite ExchangeProofs.sort_in. split; apply Permutation_in; [exact P|apply Permutation_sym, P].
Qed.

(** ** Sums *)
Lemma lookup_in d key v : lookup d key = Some v -> In (key, v) d.
Proof.
  induction d as [|[x w] d IH]; cbn [lookup]; [discriminate|]. destruct (Nat.eqb_spec x key) as [->|N]; [intros E; injection E as ->; left; reflexivity|right; auto].
Qed.
Lemma in_lookup d key v : NoDup (map fst d) -> In (key, v) d -> lookup d key = Some v.
Proof.
  induction d as [|[x w] d IH]; intros N H; [contradiction|]. cbn [map fst] in N. apply NoDup_cons_iff in N as [N1 N2]. cbn [lookup].
  destruct H as [E|H]; [injection E as -> ->; rewrite Nat.eqb_refl; reflexivity|].
  destruct (Nat.eqb_spec x key) as [->|N]; [|auto]. exfalso. apply N1. apply in_map_iff. exists (key, v). auto.
Qed.
Lemma join_spec d1 d2 : match join d1 d2 with
  | Some d => map fst d = map fst d1 /\
      (forall key v, lookup d1 key = Some v -> exists w, lookup d2 key = Some w /\ lookup d key = Some (v ++ w)) /\
      (forall key u, In (key, u) d -> exists v w, In (key, v) d1 /\ In (key, w) d2 /\ u = v ++ w)
  | None => exists key, In key (map fst d1) /\ lookup d2 key = None
  end.
Proof.
  induction d1 as [|[x v] d1 IH]; cbn [join]; [repeat split; [intros key v; discriminate|intros key u []]|].
  destruct (lookup d2 x) as [w|] eqn:E; [|exists x; split; [left; reflexivity|exact E]].
  destruct (join d1 d2) as [d|]; [|destruct IH as (key & H1 & H2); exists key; split; [right; exact H1|exact H2]].
  destruct IH as (A & B & C). split; [cbn; congruence|]. split.
  - intros key v'. cbn [lookup]. destruct (Nat.eqb_spec x key) as [->|N]; [intros H; injection H as <-; eauto|auto].
  - intros key u [H|H]; [injection H as -> <-; exists v, w; split; [left; reflexivity|]; split; [apply lookup_in, E|reflexivity]|].
    destruct (C key u H) as (v' & w' & H1 & H2 & ->). exists v', w'. split; [right; exact H1|auto].
Qed.

(** ** Blocks of a .pts file *)
Lemma slice_length {A} a b (l : list A) : (a <= b <= length l)%nat -> length (slice a b l) = (b - a)%nat.
Proof. intros H. unfold slice. rewrite firstn_length, skipn_length. lia. Qed.
Lemma slice_nth {A} a b (l : list A) i d : (i < b - a)%nat -> nth i (slice a b l) d = nth (a + i) l d.
Proof.
  intros H. unfold slice. assert (E : forall (m : list A) n i, (i < n)%nat -> nth i (firstn n m) d = nth i m d).
  { clear. intros m n. revert m. induction n as [|n IH]; intros m i Hi; [lia|]. destruct m as [|x m]; [reflexivity|]. destruct i as [|i]; [reflexivity|]. cbn. apply IH. lia. }
  rewrite E by exact H. clear. revert l. induction a as [|a IH]; intros l; [reflexivity|]. destruct l as [|x l]; [destruct i; reflexivity|]. cbn. apply IH.
Qed.

Definition aligned_file (f : pts_file) : Prop := forall key v, In (key, v) (f_atts f) -> length v = length (f_points f).
(** The rows of the file as records. *)
Definition file_record (f : pts_file) (i : nat) : (R * R) * list (nat * R) :=
  (let p := nth i (f_points f) (0, 0) in (fst p + f_x f, snd p + f_y f),
   map (fun kv : nat * list R => (fst kv, nth i (snd kv) 0)) (f_atts f)).
Definition file_records (f : pts_file) (a b : nat) : list ((R * R) * list (nat * R)) := map (file_record f) (seq a (b - a)).

Lemma located_nth G i : (i < length (data_points G))%nat ->
  nth i (located G) (0, 0) = (fst (nth i (data_points G) (0, 0)) + xllcorner (geo_reference G), snd (nth i (data_points G) (0, 0)) + yllcorner (geo_reference G)).
Proof.
  intros H. unfold located.
  rewrite (nth_indep _ (0, 0) ((fun p => (fst p + xllcorner (geo_reference G), snd p + yllcorner (geo_reference G))) (0, 0))) by (rewrite map_length; exact H).
  rewrite (map_nth (fun p => (fst p + xllcorner (geo_reference G), snd p + yllcorner (geo_reference G)))). reflexivity.
Qed.

Lemma pts_block_spec k f a b : (a <= b <= length (f_points f))%nat -> aligned_file f ->
  exists G, pts_block k f a b = Some G /\ records G = file_records f a b /\ length (data_points G) = (b - a)%nat /\ aligned G /\
    zone (geo_reference G) = f_zone f /\ hemi (geo_reference G) = f_hemi f.
Proof.
  intros H Ha. unfold pts_block. rewrite construct_ref. eexists. split; [reflexivity|]. cbn [data_points geo_reference].
  split; [|split; [apply slice_length; exact H|split; [|split; reflexivity]]].
  - unfold records, file_records. cbn [data_points]. rewrite slice_length by exact H.
    assert (E : forall l s, (forall i, In i l -> (i < b - a)%nat) -> s = (fun i => (a + i)%nat) ->
      map (record_at (Geospatial (slice a b (f_points f)) (set_attributes (Dictionary (map (fun kv : nat * list R => (fst kv, slice a b (snd kv))) (f_atts f)))) (file_reference k f))) l =
      map (file_record f) (map s l)).
    { intros l s Hl ->. rewrite map_map. apply map_ext_in. intros i Hi. specialize (Hl i Hi). unfold record_at, file_record.
      rewrite located_nth by (cbn [data_points]; rewrite slice_length by exact H; exact Hl). cbn [data_points geo_reference file_reference xllcorner yllcorner].
      rewrite slice_nth by exact Hl. f_equal. unfold dictionary. cbn [atts set_attributes]. rewrite map_map. apply map_ext_in. intros [key v] Hv.
      cbn [fst snd]. rewrite slice_nth by exact Hl. reflexivity. }
    rewrite (E (seq 0 (b - a)) _ ltac:(intros i Hi; apply in_seq in Hi; lia) eq_refl). f_equal.
    clear. generalize (b - a)%nat as n. intros n. assert (E : forall c, map (fun i => (a + i)%nat) (seq c n) = seq (a + c) n).
    { induction n as [|n IH]; intros c; [reflexivity|]. cbn [seq map]. rewrite IH. do 2 f_equal. lia. }
    rewrite E, Nat.add_0_r. reflexivity.
  - intros key v Hin. unfold dictionary in Hin. cbn [atts set_attributes data_points] in *. apply in_map_iff in Hin as ([key' v'] & E & Hv).
    injection E as _ <-. cbn [snd] in *. rewrite !slice_length; [reflexivity|exact H|]. rewrite (Ha key' v' Hv). exact H.
Qed.

Lemma seq_split a b c : (a <= b <= c)%nat -> seq a (c - a) = seq a (b - a) ++ seq b (c - b).
Proof.
  intros H. replace (c - a)%nat with ((b - a) + (c - b))%nat by lia. rewrite seq_app. do 2 f_equal. lia.
Qed.
Lemma file_records_split f a b c : (a <= b <= c)%nat -> file_records f a c = file_records f a b ++ file_records f b c.
Proof. intros H. unfold file_records. rewrite (seq_split a b c H), map_app. reflexivity. Qed.

Lemma pts_blocks_spec k f B : aligned_file f -> (1 <= B)%nat -> forall fuel start, (start <= length (f_points f))%nat -> (length (f_points f) - start <= fuel)%nat ->
  exists l, pts_blocks fuel k f B start = Some l /\ concat (map records l) = file_records f start (length (f_points f)) /\
    (forall j G, nth_error l j = Some G -> length (data_points G) = Nat.min B (length (f_points f) - start - j * B) /\ aligned G /\
       zone (geo_reference G) = f_zone f /\ hemi (geo_reference G) = f_hemi f) /\
    (length (f_points f) - start <= B * length l)%nat.
Proof.
  intros Ha HB. induction fuel as [|fuel IH]; intros start Hs Hf; cbn [pts_blocks].
  - replace start with (length (f_points f)) by lia. rewrite Nat.eqb_refl. exists []. split; [reflexivity|]. split.
    + unfold file_records. rewrite Nat.sub_diag. reflexivity.
    + split; [intros [|j] G; discriminate|cbn; lia].
  - destruct (Nat.eqb_spec start (length (f_points f))) as [->|N].
    { exists []. split; [reflexivity|]. split; [unfold file_records; rewrite Nat.sub_diag; reflexivity|]. split; [intros [|j] G; discriminate|cbn; lia]. }
    set (fin := if (length (f_points f) <? start + B)%nat then length (f_points f) else (start + B)%nat).
    assert (Hfin : (start < fin <= length (f_points f))%nat /\ (fin - start = Nat.min B (length (f_points f) - start))%nat).
    { unfold fin. destruct (Nat.ltb_spec (length (f_points f)) (start + B)); lia. }
    destruct (pts_block_spec k f start fin ltac:(lia) Ha) as (G & E & R1 & L1 & A1 & Z1 & H1). rewrite E.
    destruct (IH fin ltac:(lia) ltac:(lia)) as (l & El & Rl & Ll & Cl). rewrite El. exists (G :: l). split; [reflexivity|].
    split; [cbn [map concat]; rewrite R1, Rl, <- file_records_split by lia; reflexivity|]. split.
    + intros [|j] G' Ej; cbn [nth_error] in Ej.
      * injection Ej as <-. rewrite L1. repeat split; try assumption. lia.
      * destruct (Ll j G' Ej) as (Lj & Rest). split; [|exact Rest]. rewrite Lj. unfold fin.
        destruct (Nat.ltb_spec (length (f_points f)) (start + B)); cbn [Nat.mul]; lia.
    + cbn [length]. lia.
Qed.

(** ** Text files *)

(** A row of a text file: a point and its values. *)
Definition row := ((R * R) * list R)%type.
(** The lines that give these rows, with any number of blank lines and
    comments with commas between them *)
Inductive reads (names : list nat) : list line -> list row -> Prop :=
| reads_nil : reads names [] []
| reads_blank l ls rows : newline l = true -> reads names ls rows -> reads names (l :: ls) rows
| reads_comment l ls rows : newline l = false -> hash l = true -> (2 <= length (fields l))%nat -> reads names ls rows -> reads names (l :: ls) rows
| reads_row x y v ls rows : length v = length names -> reads names ls rows ->
    reads names (Line false false (Number x :: Number y :: map Number v) :: ls) (((x, y), v) :: rows).

Definition columns (names : list nat) (rows : list row) : attributes :=
  match rows with [] => [] | _ => combine names (map (fun j => map (fun r : row => nth j (snd r) 0) rows) (seq 0 (length names))) end.
Definition shaped (names : list nat) (rows : list row) : Prop := forall r, In r rows -> length (snd r) = length names.

Lemma reads_shaped names ls rows : reads names ls rows -> shaped names rows.
Proof. induction 1; intros r Hr; try (destruct Hr as [<-|Hr]); auto; contradiction. Qed.

Lemma append_new name v : forall d, ~ In name (map fst d) -> append_value name v d = d ++ [(name, [v])].
Proof.
  induction d as [|[x l] d IH]; intros H; [reflexivity|]. cbn [append_value app map fst In] in *.
  destruct (Nat.eqb_spec x name) as [->|N]; [exfalso; apply H; left; reflexivity|]. rewrite IH by tauto. reflexivity.
Qed.
Lemma append_old name v l : forall d d', ~ In name (map fst d) -> append_value name v (d ++ (name, l) :: d') = d ++ (name, l ++ [v]) :: d'.
Proof.
  induction d as [|[x m] d IH]; intros d' H; cbn [append_value app map fst In] in *; [rewrite Nat.eqb_refl; reflexivity|].
  destruct (Nat.eqb_spec x name) as [->|N]; [exfalso; apply H; left; reflexivity|]. rewrite IH by tauto. reflexivity.
Qed.
Lemma add_values_new : forall names v d, NoDup names -> (forall n, In n names -> ~ In n (map fst d)) -> length v = length names ->
  add_values names (map Number v) d = Some (d ++ combine names (map (fun x => [x]) v)).
Proof.
  induction names as [|n names IH]; intros [|x v] d N H L; try discriminate; [cbn; rewrite app_nil_r; reflexivity|].
  cbn [map add_values combine]. apply NoDup_cons_iff in N as [N1 N2]. rewrite append_new by (apply H; left; reflexivity).
  rewrite IH; [rewrite <- app_assoc; reflexivity|exact N2| |cbn in L; lia].
  intros m Hm. rewrite map_app, in_app_iff. cbn. intros [A|[->|[]]]; [exact (H m (or_intror Hm) A)|exact (N1 Hm)].
Qed.
Lemma add_values_old : forall names v cs d, NoDup names -> (forall n, In n names -> ~ In n (map fst d)) -> length v = length names -> length cs = length names ->
  add_values names (map Number v) (d ++ combine names cs) = Some (d ++ combine names (map (fun p : list R * R => fst p ++ [snd p]) (combine cs v))).
Proof.
  induction names as [|n names IH]; intros [|x v] [|c cs] d N H L L'; try discriminate; [reflexivity|].
  cbn [map add_values combine fst snd]. apply NoDup_cons_iff in N as [N1 N2]. rewrite append_old by (apply H; left; reflexivity).
  change (d ++ (n, c ++ [x]) :: combine names cs) with (d ++ [(n, c ++ [x])] ++ combine names cs). rewrite app_assoc.
  rewrite IH; [rewrite <- app_assoc; reflexivity|exact N2| |cbn in L; lia|cbn in L'; lia].
  intros m Hm. rewrite map_app, in_app_iff. cbn. intros [A|[->|[]]]; [exact (H m (or_intror Hm) A)|exact (N1 Hm)].
Qed.
Lemma nth_seq_all {A} (d : A) l : map (fun j => nth j l d) (seq 0 (length l)) = l.
Proof.
  apply nth_ext with (d := d) (d' := d); rewrite ?map_length, ?seq_length; [reflexivity|]. intros n Hn.
  rewrite (nth_indep _ d (nth 0 l d)) by (rewrite map_length, seq_length; exact Hn). rewrite (map_nth (fun j => nth j l d)), seq_nth by exact Hn. reflexivity.
Qed.
Lemma combine_maps {A B C} (f : A -> B) (g : A -> C) l : combine (map f l) (map g l) = map (fun a => (f a, g a)) l.
Proof. induction l as [|a l IH]; [reflexivity|]. cbn. rewrite IH. reflexivity. Qed.

Lemma columns_step names done r : NoDup names -> length (snd r) = length names ->
  add_values names (map Number (snd r)) (columns names done) = Some (columns names (done ++ [r])).
Proof.
  intros N L. destruct done as [|r0 done].
  - cbn [columns app]. rewrite (add_values_new names (snd r) []) by first [assumption|intros n _ []]. cbn [app]. do 2 f_equal. cbn [map].
    rewrite <- L. rewrite <- (nth_seq_all 0 (snd r)) at 1. rewrite map_map. reflexivity.
  - change (columns names (r0 :: done)) with ([] ++ combine names (map (fun j => map (fun r : row => nth j (snd r) 0) (r0 :: done)) (seq 0 (length names)))).
    rewrite add_values_old by first [assumption|intros n _ []|rewrite map_length, seq_length; reflexivity].
    cbn [app columns]. do 2 f_equal. rewrite <- (nth_seq_all 0 (snd r)) at 1. rewrite L, combine_maps, map_map. apply map_ext. intros j. cbn [fst snd].
    change (r0 :: done ++ [r]) with ((r0 :: done) ++ [r]). rewrite map_app. reflexivity.
Qed.

Definition taken (todo : option nat) (rows : list row) : list row := match todo with None => rows | Some n => firstn n rows end.
Definition left_over (todo : option nat) (rows : list row) : list row := match todo with None => [] | Some n => skipn n rows end.
Lemma read_lines_spec names : NoDup names -> forall ls rows, reads names ls rows -> forall todo done,
  exists rest, read_lines names todo ls (map fst done) (columns names done) =
      Some (map fst (done ++ taken todo rows), columns names (done ++ taken todo rows), rest) /\ reads names rest (left_over todo rows).
Proof.
  intros N ls rows H. induction H as [|l ls rows B H IH|l ls rows B C L H IH|x y v ls rows L H IH]; intros todo done.
  - exists []. cbn [read_lines]. assert (taken todo [] = []) as -> by (destruct todo as [[|n]|]; reflexivity).
    assert (left_over todo [] = []) as -> by (destruct todo as [[|n]|]; reflexivity). rewrite app_nil_r. split; [reflexivity|constructor].
  - destruct todo as [[|n]|].
    + exists (l :: ls). cbn [read_lines taken left_over firstn skipn]. rewrite app_nil_r. split; [reflexivity|apply reads_blank; assumption].
    + cbn [read_lines]. rewrite B. apply IH.
    + cbn [read_lines]. rewrite B. apply IH.
  - destruct todo as [[|n]|].
    + exists (l :: ls). cbn [read_lines taken left_over firstn skipn]. rewrite app_nil_r. split; [reflexivity|apply reads_comment; assumption].
    + cbn [read_lines]. rewrite B, C. destruct (Nat.leb_spec (length (fields l)) 1); [lia|]. apply IH.
    + cbn [read_lines]. rewrite B, C. destruct (Nat.leb_spec (length (fields l)) 1); [lia|]. apply IH.
  - assert (Step : forall todo, todo <> Some O ->
      read_lines names todo (Line false false (Number x :: Number y :: map Number v) :: ls) (map fst done) (columns names done) =
      read_lines names (option_map pred todo) ls (map fst (done ++ [((x, y), v)])) (columns names (done ++ [((x, y), v)]))).
    { intros t Ht. cbn [read_lines newline hash fields length]. rewrite map_length, L, Nat.eqb_refl. pose proof (columns_step names done ((x, y), v) N L) as Q. cbn [snd] in Q. rewrite Q.
      rewrite map_app. cbn [map fst]. destruct t as [[|n]|]; [congruence|reflexivity|reflexivity]. }
    destruct todo as [[|n]|].
    + eexists. cbn [read_lines taken left_over firstn skipn]. rewrite app_nil_r. split; [reflexivity|apply reads_row; assumption].
    + rewrite Step by discriminate. cbn [option_map pred]. destruct (IH (Some n) (done ++ [((x, y), v)])) as (rest & E & Rd). exists rest.
      rewrite E, <- app_assoc. split; [reflexivity|exact Rd].
    + rewrite Step by discriminate. cbn [option_map pred]. destruct (IH None (done ++ [((x, y), v)])) as (rest & E & Rd). exists rest.
      rewrite E, <- app_assoc. split; [reflexivity|exact Rd].
Qed.

Lemma map_combine_snd {A B C} (f : B -> C) : forall (a : list A) (b : list B), map (fun kv => (fst kv, f (snd kv))) (combine a b) = combine a (map f b).
Proof. induction a as [|x a IH]; intros [|y b]; try reflexivity. cbn. rewrite IH. reflexivity. Qed.

Lemma columns_records names rows k : shaped names rows ->
  records (Geospatial (map fst rows) (Some (columns names rows)) (default_reference k)) = map (fun r : row => (fst r, combine names (snd r))) rows /\
  aligned (Geospatial (map fst rows) (Some (columns names rows)) (default_reference k)).
Proof.
  intros Sh. split.
  - transitivity (map (fun r : row => (fst r, combine names (snd r))) (map (fun i => nth i rows ((0, 0), [])) (seq 0 (length rows)))); [|rewrite nth_seq_all; reflexivity].
    unfold records. cbn [data_points]. rewrite map_length, map_map. apply map_ext_in. intros i Hi.
    apply in_seq in Hi. unfold record_at. rewrite default_located. unfold dictionary. cbn [atts]. f_equal.
    + change (0, 0) with (fst (((0, 0), []) : row)). apply map_nth.
    + destruct rows as [|r0 rows]; [cbn in Hi; lia|]. cbn [columns]. rewrite (map_combine_snd (fun l => nth i l 0)), map_map. f_equal.
      set (all := r0 :: rows) in *. rewrite <- (Sh (nth i all ((0, 0), []))) by (apply nth_In; lia). etransitivity; [|apply (nth_seq_all 0)].
      apply map_ext. intros j. rewrite (nth_indep _ 0 ((fun r : row => nth j (snd r) 0) ((0, 0), []))) by (rewrite map_length; lia).
      apply (map_nth (fun r : row => nth j (snd r) 0)).
  - intros key v H. unfold dictionary in H. cbn [atts data_points] in *. rewrite map_length. destruct rows as [|r0 rows]; [contradiction|]. cbn [columns] in H.
    apply in_combine_r in H. apply in_map_iff in H as (j & <- & _). apply map_length.
Qed.

Definition values_of (names : list nat) (rows : list row) := map (fun r : row => (fst r, combine names (snd r))) rows.

Lemma read_csv_spec names c1 c2 ls rows todo : NoDup names -> reads names ls rows ->
  match taken todo rows with
  | [] => read_csv_blocking (c1 :: c2 :: names) todo ls = Stop
  | t => exists rest, read_csv_blocking (c1 :: c2 :: names) todo ls = Block (map fst t) (columns names t) rest /\ reads names rest (left_over todo rows)
  end.
Proof.
  intros N H. destruct (read_lines_spec names N ls rows H todo []) as (rest & E & Rd). cbn [map columns app] in E. unfold read_csv_blocking.
  rewrite E. destruct (taken todo rows) as [|r t]; [reflexivity|]. exists rest. split; [reflexivity|exact Rd].
Qed.

Lemma csv_blocks_spec k names c1 c2 B : NoDup names -> (1 <= B)%nat -> forall fuel ls rows, reads names ls rows -> (length rows < fuel)%nat ->
  exists l, csv_blocks fuel k (c1 :: c2 :: names) B ls = Some l /\ concat (map records l) = values_of names rows /\
    (forall j G, nth_error l j = Some G -> length (data_points G) = Nat.min B (length rows - j * B) /\ aligned G) /\
    (length rows <= B * length l)%nat.
Proof.
  intros N HB. induction fuel as [|fuel IH]; intros ls rows H Hf; [lia|]. cbn [csv_blocks].
  pose proof (read_csv_spec names c1 c2 ls rows (Some B) N H) as Q. pose proof (reads_shaped _ _ _ H) as Sh. cbn [taken left_over] in Q.
  destruct (firstn B rows) as [|r t] eqn:E.
  - rewrite Q. destruct rows as [|r rows]; [|destruct B; [lia|discriminate]]. exists []. split; [reflexivity|]. split; [reflexivity|].
    split; [intros [|j] G; discriminate|cbn; lia].
  - destruct Q as (rest & -> & Rd). set (tk := r :: t) in *. rewrite construct_none. cbn [set_attributes].
    assert (Ln : length tk = Nat.min B (length rows)) by (rewrite <- E; apply firstn_length).
    destruct (IH rest (skipn B rows) Rd) as (l & El & Rl & Ll & Cl). { rewrite skipn_length. unfold tk in Ln. cbn [length] in Ln. lia. }
    rewrite El. eexists. split; [reflexivity|]. rewrite skipn_length in *.
    destruct (columns_records names tk (S k)) as (C1 & C2). { intros q Hq. apply Sh. rewrite <- (firstn_skipn B rows), in_app_iff. left. rewrite E. exact Hq. }
    split; [|split].
    + cbn [map concat]. rewrite C1, Rl. unfold values_of. rewrite <- map_app, <- E, firstn_skipn. reflexivity.
    + intros [|j] G Ej; cbn [nth_error] in Ej; [injection Ej as <-; split; [transitivity (length tk); [exact (map_length fst tk)|rewrite Ln; lia]|exact C2]|].
      destruct (Ll j G Ej) as (Lj & Aj). split; [|exact Aj]. rewrite Lj. cbn [Nat.mul]. lia.
    + cbn [length]. lia.
Qed.

Lemma write_csv_reads rows d : (forall key v, In (key, v) d -> length v = length rows) ->
  exists f, write_csv rows (Some d) = Some f /\ header f = x_name :: y_name :: map fst d /\
    reads (map fst d) (body f) (map (fun i => (nth i rows (0, 0), map (fun kv : nat * list R => nth i (snd kv) 0) d)) (seq 0 (length rows))).
Proof.
  intros Ha. unfold write_csv. replace (forallb _ d) with true; cycle 1.
  { symmetry. apply forallb_forall. intros [key v] H. apply Nat.leb_le. cbn. rewrite (Ha key v H). lia. }
  eexists. split; [reflexivity|]. split; [reflexivity|]. cbn [body]. induction (seq 0 (length rows)) as [|i l IH]; [constructor|]. cbn [map].
  rewrite (surjective_pairing (nth i rows (0, 0))) at 3. rewrite <- (map_map (fun kv : nat * list R => nth i (snd kv) 0) Number).
  apply reads_row; [rewrite !map_length; reflexivity|exact IH].
Qed.
