(** C115: merging columns of CSV files *)
From Coq Require Import String List Arith Bool Lia.
From Verif Require Import CsvMergeModel CsvMergeProofs.
Import ListNotations.

(** Reading takes the first columns with the two titles, of all rows that are
    long enough, in order; it raises if a title is missing. *)
Theorem C115_read strip h lines key data l :
  (read_csv_file strip (h :: lines) key data = Some l <->
   exists k d, nth_error (map strip h) k = Some key /\ (forall j, j < k -> nth_error (map strip h) j <> Some key) /\
     nth_error (map strip h) d = Some data /\ (forall j, j < d -> nth_error (map strip h) j <> Some data) /\
     l = map (fun line => (strip (nth k line ""%string), strip (nth d line ""%string))) (filter (fun line => (k <? length line) && (d <? length line)) lines)) /\
  (read_csv_file strip (h :: lines) key data = None <-> ~ (In key (map strip h) /\ In data (map strip h))).
Proof.
  assert (X : forall k d, flat_map (extract strip k d) lines =
    map (fun line => (strip (nth k line ""%string), strip (nth d line ""%string))) (filter (fun line => (k <? length line) && (d <? length line)) lines)).
  { intros k d. induction lines as [|line lines IH]; [reflexivity|]. cbn [flat_map filter]. rewrite IH. unfold extract.
    destruct (Nat.ltb_spec k (length line)) as [K|K].
    - rewrite (nth_error_nth' line ""%string K). destruct (Nat.ltb_spec d (length line)) as [D|D].
      + rewrite (nth_error_nth' line ""%string D). reflexivity.
      + rewrite (proj2 (nth_error_None line d) D). reflexivity.
    - rewrite (proj2 (nth_error_None line k) K). reflexivity. }
  cbn [read_csv_file]. pose proof (index_in key (map strip h)) as IK. pose proof (index_in data (map strip h)) as ID.
  destruct (index key (map strip h)) as [k|] eqn:K, (index data (map strip h)) as [d|] eqn:D.
  - split.
    + split.
      * intros H. injection H; intros <-. exists k, d. apply index_some in K. apply index_some in D. destruct K, D. repeat (split; [assumption|]). apply X.
      * intros (k' & d' & A & B & C & E & ->). assert (Some k = Some k') by (rewrite <- K; apply index_some; auto). assert (Some d = Some d') by (rewrite <- D; apply index_some; auto).
        replace k' with k by congruence. replace d' with d by congruence. f_equal. apply X.
    + split; [discriminate|]. intros H. exfalso. apply H. split; [apply IK|apply ID]; eauto.
  - split; [split; [discriminate|]; intros (k' & d' & A & B & C & E & _); exfalso; assert (None = Some d') by (rewrite <- D; apply index_some; auto); discriminate|].
    split; [|reflexivity]. intros _ [_ H]. apply ID in H. destruct H; discriminate.
  - split; [split; [discriminate|]; intros (k' & d' & A & B & C & E & _); exfalso; assert (None = Some k') by (rewrite <- K; apply index_some; auto); discriminate|].
    split; [|reflexivity]. intros _ [H _]. apply IK in H. destruct H; discriminate.
  - split; [split; [discriminate|]; intros (k' & d' & A & B & C & E & _); exfalso; assert (None = Some k') by (rewrite <- K; apply index_some; auto); discriminate|].
    split; [|reflexivity]. intros _ [H _]. apply IK in H. destruct H; discriminate.
Qed.
Print Assumptions C115_read.

(** Merging succeeds exactly when there are files, all can be read, and all have
    the same keys in the same order. *)
Theorem C115_merge strip files key data :
  (exists out, merge_csv_key_values strip files key data = Some out) <->
  (files <> [] /\ exists keys, forall f, In f files -> exists l, read_csv_file strip (fst f) key data = Some l /\ map fst l = keys).
Proof.
  split.
  - intros [out H]. apply merge_spec in H. destruct H as (title & first & rest & R & K & _). apply read_all_spec in R.
    split; [intros ->; inversion R|]. exists (map fst first). intros f I.
    assert (G : forall l, Forall2 (fun f g => snd f = fst g /\ read_csv_file strip (fst f) key data = Some (snd g)) files l -> exists g, In g l /\ read_csv_file strip (fst f) key data = Some (snd g)).
    { clear R. intros l F. induction F as [|a b fs gs [P1 P2] F IH]; [destruct I|]. destruct I as [<-|I].
      - exists b. split; [left; reflexivity|exact P2].
      - destruct (IH I) as (g & G & E). exists g. split; [right; exact G|exact E]. }
    destruct (G _ R) as (g & [<-|J] & E); exists (snd g) || exists first; (split; [exact E|]); [reflexivity|apply K, J].
  - intros [N (keys & H)]. assert (F : exists l, Forall2 (fun f g => snd f = fst g /\ read_csv_file strip (fst f) key data = Some (snd g)) files l /\ forall g, In g l -> map fst (snd g) = keys).
    { clear N. induction files as [|f files IH]; [exists []; split; [constructor|intros g []]|].
      destruct IH as (l & F & G); [intros f' I; apply H; right; exact I|]. destruct (H f (or_introl eq_refl)) as (d & R & K).
      exists ((snd f, d) :: l). split; [constructor; [split; [reflexivity|exact R]|exact F]|]. intros g [<-|I]; [exact K|apply G, I]. }
    destruct F as ([|[title first] rest] & F & G); [inversion F; congruence|]. eexists. apply merge_spec. exists title, first, rest.
    split; [apply read_all_spec; exact F|]. split; [|reflexivity]. intros f I. rewrite (G f (or_intror I)). symmetry. apply (G (title, first)). left. reflexivity.
Qed.
Print Assumptions C115_merge.

(** With different titles, every column of the output reads back as the column
    of its file. *)
Lemma read_stripped strip rows key data l : (forall s, strip (strip s) = strip s) -> read_csv_file strip rows key data = Some l ->
  forall p, In p l -> strip (fst p) = fst p /\ strip (snd p) = snd p.
Proof.
  intros S H p I. destruct rows as [|h lines]; [discriminate|]. cbn in H. destruct (index key (map strip h)) as [k|]; [|discriminate].
  destruct (index data (map strip h)) as [d|]; [|discriminate]. injection H; intros <-. apply in_flat_map in I. destruct I as (line & _ & I). unfold extract in I.
  destruct (nth_error line k), (nth_error line d); cbn in I; try tauto. destruct I as [<-|[]]. cbn. auto.
Qed.
Theorem C115_back_partial strip files key data out : (forall s, strip (strip s) = strip s) ->
  NoDup (key :: map snd files) -> (forall t, In t (key :: map snd files) -> strip t = t) ->
  merge_csv_key_values strip files key data = Some out ->
  forall f, In f files -> read_csv_file strip out key (snd f) = read_csv_file strip (fst f) key data.
Proof.
  intros S N T H f I. apply merge_spec in H. destruct H as (title & first & rest & R & K & ->). apply read_all_spec in R.
  set (l := (title, first) :: rest) in *.
  assert (TT : map fst l = map snd files).
  { clear -R. induction R as [|a b fs gs [P _] F IH]; [reflexivity|]. cbn. rewrite IH, P. reflexivity. }
  assert (G : exists j g, nth_error l j = Some g /\ fst g = snd f /\ read_csv_file strip (fst f) key data = Some (snd g)).
  { clear -R I. induction R as [|a b fs gs [P Q] F IH]; [destruct I|]. destruct I as [<-|I].
    - exists 0, b. auto.
    - destruct (IH I) as (j & g & A & B). exists (Datatypes.S j), g. auto. }
  destruct G as (j & g & J & Tg & E). rewrite E.
  assert (KG : map fst (snd g) = map fst first).
  { apply nth_error_In in J. destruct J as [<-|J]; [reflexivity|apply K, J]. }
  assert (LG : length (snd g) = length first) by (rewrite <- (map_length fst (snd g)), <- (map_length fst first), KG; reflexivity).
  change (title :: map fst rest) with (map fst l). cbn [read_csv_file]. rewrite TT.
  assert (M : map strip (key :: map snd files) = key :: map snd files).
  { rewrite <- (map_id (key :: map snd files)) at 2. apply map_ext_in. exact T. }
  rewrite M, (index_at key (key :: map snd files) 0 eq_refl N). rewrite (index_at (snd f) (key :: map snd files) (Datatypes.S j)); [| |exact N].
  2: { cbn [nth_error]. rewrite <- TT, <- Tg. apply map_nth_error. exact J. }
  f_equal. rewrite <- (nth_seq (snd g) (""%string, ""%string)) at 1. rewrite LG.
  assert (W : forall i, i < length first -> extract strip 0 (Datatypes.S j) (row first l i) = [nth i (snd g) (""%string, ""%string)]).
  { intros i Hi. unfold extract, row. cbn [nth_error].
    rewrite (map_nth_error (fun f => snd (nth i (snd f) (""%string, ""%string))) j l J).
    assert (Q : fst (nth i first (""%string, ""%string)) = fst (nth i (snd g) (""%string, ""%string))).
    { change ""%string with (fst (""%string, ""%string)) at 1. rewrite <- !(map_nth fst), KG. reflexivity. }
    rewrite Q. destruct (read_stripped strip (fst f) key data (snd g) S E (nth i (snd g) (""%string, ""%string))) as [S1 S2]; [apply nth_In; lia|].
    rewrite S1, S2. f_equal. symmetry. apply surjective_pairing. }
  clear -W. assert (V : forall i, In i (seq 0 (length first)) -> i < length first) by (intros i H; apply in_seq in H; lia).
  induction (seq 0 (length first)) as [|i s IH]; [reflexivity|]. cbn [map flat_map]. rewrite W by (apply V; left; reflexivity). cbn [app]. f_equal.
  apply IH. intros k Hk. apply V. right. exact Hk.
Qed.
Print Assumptions C115_back_partial.

(** With equal titles the second column is lost, and a row too short is left
    out without a message. *)
Definition file_a : list (list string) := [["hours"; "stage"]; ["0"; "1"]; ["1"; "2"]; ["3"]]%string.
Definition file_b : list (list string) := [["stage"; "hours"]; ["5"; "0"]; ["6"; "1"]]%string.
Theorem C115_back_refuted :
  merge_csv_key_values (fun s => s) [(file_a, "g"); (file_b, "g")]%string "hours" "stage" = Some [["hours"; "g"; "g"]; ["0"; "1"; "5"]; ["1"; "2"; "6"]]%string /\
  read_csv_file (fun s => s) [["hours"; "g"; "g"]; ["0"; "1"; "5"]; ["1"; "2"; "6"]]%string "hours" "g" = Some [("0", "1"); ("1", "2")]%string.
Proof. split; reflexivity. Qed.
Print Assumptions C115_back_refuted.

(** Cases *)
Example C115_read_case : read_csv_file (fun s => s) file_b "hours" "stage" = Some [("0", "5"); ("1", "6")]%string /\
  read_csv_file (fun s => s) file_b "hours" "depth" = None.
Proof. split; [reflexivity|]. apply (C115_read _ _ _ _ _ []). cbn. intros [_ [H|[H|[]]]]; discriminate. Qed.
Example C115_merge_case : exists out, merge_csv_key_values (fun s => s) [(file_a, "a"); (file_b, "b")]%string "hours" "stage" = Some out.
Proof.
  apply C115_merge. split; [discriminate|]. exists ["0"; "1"]%string. intros f [<-|[<-|[]]]; eexists; split; reflexivity.
Qed.
Example C115_back_case : exists out, merge_csv_key_values (fun s => s) [(file_a, "a"); (file_b, "b")]%string "hours" "stage" = Some out /\
  read_csv_file (fun s => s) out "hours" "b" = Some [("0", "5"); ("1", "6")]%string.
Proof.
  eexists. split; [reflexivity|]. change "b"%string with (snd (file_b, "b"%string)).
  rewrite (C115_back_partial (fun s => s) [(file_a, "a"); (file_b, "b")]%string "hours" "stage"); [reflexivity|reflexivity| |reflexivity|reflexivity|cbn; auto].
  repeat constructor; cbn; intros H; repeat (destruct H as [H|H]; [discriminate|]); destruct H.
Qed.
