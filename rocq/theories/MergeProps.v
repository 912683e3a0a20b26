(** Properties of merging the SWW files of a parallel run (C36). *)
From Coq Require Import List Arith ZArith Lia Bool FinFun.
From Verif Require Import MergeModel MergeProofs.
Import ListNotations.

Section Props.
Variable A B : Type.
Variable cast : A -> B.
Variable zero : B.
Local Notation file := (swwfile A).

(** Local triangle [i] of file [f] is full and is global triangle [t]. *)
Definition owns (f : file) (i t : nat) : Prop :=
  nth_error (tri_full_flag A f) i = Some 1%Z /\ nth_error (tri_l2g A f) i = Some t.
(** Local node [l] of [f] is a vertex of a full triangle and is global node [g]. *)
Definition full_node (f : file) (l g : nat) : Prop :=
  exists i r, nth_error (tri_full_flag A f) i = Some 1%Z /\ nth_error (volumes A f) i = Some r /\ In l r /\
              nth_error (node_l2g A f) l = Some g.

(** What the merge assumes of one file. *)
Definition well_formed (ntri : nat) (f : file) : Prop :=
  length (tri_l2g A f) = length (tri_full_flag A f) /\
  (forall c, In c (tri_full_flag A f) -> c = 0%Z \/ c = 1%Z) /\
  (forall i t, owns f i t -> t < ntri).
(** Every global triangle is full in exactly one file, at one place. *)
Definition partition (ntri : nat) (files : list file) : Prop :=
  (forall t, t < ntri -> exists a f i, nth_error files a = Some f /\ owns f i t) /\
  (forall a b f f' i j t, nth_error files a = Some f -> nth_error files b = Some f' ->
     owns f i t -> owns f' j t -> a = b /\ i = j).

(** The pairs (local, global) of full triangles and of their vertices. *)
Definition tri_pairs (f : file) (g : list nat) : list (nat * nat) := combine (f_ids A f) g.

Lemma f_ids_In (f : file) i : In i (f_ids A f) <-> nth_error (tri_full_flag A f) i = Some 1%Z.
Proof.
  unfold f_ids. rewrite where_In. split.
  - intros (x & E & H). apply Z.eqb_eq in H. congruence.
  - intros E. exists 1%Z. split; [exact E|reflexivity].
Qed.

Lemma f_gids_some ntri (f : file) : well_formed ntri f -> exists g, f_gids A f = Some g /\
  length (f_ids A f) = length g /\ (forall i t, In (i, t) (tri_pairs f g) <-> owns f i t).
Proof.
  intros (L & _ & _). unfold f_gids.
  destruct (fancy_get_some (tri_l2g A f) (f_ids A f)) as (g & E & F).
  { intros i Hi. apply f_ids_In in Hi. rewrite L. apply nth_error_Some. congruence. }
  exists g. split; [exact E|]. destruct (Forall2_combine _ _ _ F) as [Lg HI]. split; [exact Lg|].
  intros i t. unfold tri_pairs, owns. rewrite <- f_ids_In. split; [apply HI|]. intros [H1 H2].
  eapply Forall2_combine_back; [exact F| |exact H1|exact H2]. cbn. intros x y y' E1 E2. congruence.
Qed.

(** In well-formed files the three ways to select full triangles agree. *)
Lemma ftri_ids_f (f : file) ntri : well_formed ntri f -> ftri_ids A f = f_ids A f.
Proof.
  intros (_ & H & _). apply where_ext. intros c Hc. destruct (H c Hc) as [-> | ->]; reflexivity.
Qed.
Lemma ftri_l2g_f (f : file) ntri : well_formed ntri f -> ftri_l2g A f = f_gids A f.
Proof.
  intros (_ & H & _). unfold ftri_l2g, compress, f_gids, f_ids. f_equal. apply where_ext. intros c Hc.
  destruct (H c Hc) as [-> | ->]; reflexivity.
Qed.
Lemma compress_f {X} (f : file) ntri (a : list X) : well_formed ntri f -> compress (tri_full_flag A f) a = fancy_get a (f_ids A f).
Proof.
  intros (_ & H & _). unfold compress, f_ids. f_equal. apply where_ext. intros c Hc.
  destruct (H c Hc) as [-> | ->]; reflexivity.
Qed.

Lemma in_files (files : list file) f : In f files -> exists a, nth_error files a = Some f.
Proof. apply In_nth_error. Qed.

(** *** Centroid based quantities *)

Definition writes_tri (row : file -> list A) (f : file) (t : nat) (v : B) : Prop :=
  exists i a, owns f i t /\ nth_error (row f) i = Some a /\ v = cast a.

Lemma centroids_ok ntri (row : file -> list A) f : well_formed ntri f ->
  length (tri_full_flag A f) <= length (row f) ->
  put_ok (fun out f => put_centroids A B cast out f (row f)) (writes_tri row) ntri f.
Proof.
  intros Wf Lr out Lo. destruct (f_gids_some ntri f Wf) as (g & E & Lg & HI). unfold put_centroids. rewrite E.
  destruct (transfer_spec cast (tri_pairs f g) (row f) out) as (o & E' & L' & N).
  { intros l j Hi. apply HI in Hi. split.
    - assert (l < length (tri_full_flag A f)) by (apply nth_error_Some; destruct Hi; congruence). lia.
    - rewrite Lo. destruct Wf as (_ & _ & Hr). exact (Hr l j Hi). }
  unfold transfer, tri_pairs in E'. rewrite map_fst_combine, map_snd_combine in E' by exact Lg.
  destruct (fancy_get (row f) (f_ids A f)) as [vals|] eqn:EV; [|discriminate].
  exists o. split; [exact E'|]. split; [congruence|]. intros j. destruct (N j) as [[E1 H1]|(v & (l & a & H1 & H2 & H3) & E1)].
  - left. split; [exact E1|]. intros v (i & a & Ho & Ha & ->). apply (H1 (cast a)). exists i, a. split; [apply HI; exact Ho|].
    split; [exact Ha|reflexivity].
  - right. exists v. split; [|exact E1]. exists l, a. split; [apply HI; exact H1|]. split; assumption.
Qed.

Lemma smooth_centroids_eq ntri out (f : file) row : well_formed ntri f ->
  put_smooth_centroids A B cast out f row = put_centroids A B cast out f row.
Proof.
  intros Wf. unfold put_smooth_centroids, put_centroids. rewrite (ftri_ids_f _ _ Wf), (ftri_l2g_f _ _ Wf). reflexivity.
Qed.

(** *** Vertex based quantities of non-smooth files *)

Definition vert_pairs (P : list (nat * nat)) : list (nat * nat) :=
  flat_map (fun p => [(3 * fst p, 3 * snd p); (3 * fst p + 1, 3 * snd p + 1); (3 * fst p + 2, 3 * snd p + 2)]) P.
Lemma vert_pairs_fst P : map fst (vert_pairs P) = vids (map fst P).
Proof. induction P as [|p P IH]; [reflexivity|]. unfold vids in *. cbn [vert_pairs flat_map map app fst]. unfold triple at 1. cbn [app]. repeat f_equal. exact IH. Qed.
Lemma vert_pairs_snd P : map snd (vert_pairs P) = vids (map snd P).
Proof. induction P as [|p P IH]; [reflexivity|]. unfold vids in *. cbn [vert_pairs flat_map map app snd]. unfold triple at 1. cbn [app]. repeat f_equal. exact IH. Qed.
Lemma vert_pairs_In P l j : In (l, j) (vert_pairs P) <-> exists i t k, In (i, t) P /\ k < 3 /\ l = 3 * i + k /\ j = 3 * t + k.
Proof.
  unfold vert_pairs. rewrite in_flat_map. split.
  - intros ([i t] & Hi & H). cbn [fst snd In] in H. destruct H as [E|[E|[E|[]]]]; injection E as <- <-; exists i, t;
      [exists 0|exists 1|exists 2]; (split; [exact Hi|lia]).
  - intros (i & t & k & Hi & Hk & -> & ->). exists (i, t). split; [exact Hi|]. cbn [fst snd In].
    destruct k as [|[|[|k]]]; [left|right; left|right; right; left|lia]; f_equal; lia.
Qed.

Definition writes_vert (row : file -> list A) (f : file) (j : nat) (v : B) : Prop :=
  exists i t k a, owns f i t /\ k < 3 /\ j = 3 * t + k /\ nth_error (row f) (3 * i + k) = Some a /\ v = cast a.

Lemma vertices_ok ntri (row : file -> list A) f : well_formed ntri f ->
  3 * length (tri_full_flag A f) <= length (row f) ->
  put_ok (fun out f => put_vertices A B cast out f (row f)) (writes_vert row) (3 * ntri) f.
Proof.
  intros Wf Lr out Lo. destruct (f_gids_some ntri f Wf) as (g & E & Lg & HI). unfold put_vertices. rewrite E.
  destruct (transfer_spec cast (vert_pairs (tri_pairs f g)) (row f) out) as (o & E' & L' & N).
  { intros l j Hi. apply vert_pairs_In in Hi as (i & t & k & Hi & Hk & -> & ->). apply HI in Hi. split.
    - assert (i < length (tri_full_flag A f)) by (apply nth_error_Some; destruct Hi; congruence). lia.
    - destruct Wf as (_ & _ & Hr). specialize (Hr i t Hi). lia. }
  unfold transfer in E'. rewrite vert_pairs_fst, vert_pairs_snd in E'. unfold tri_pairs in E'.
  rewrite map_fst_combine, map_snd_combine in E' by exact Lg.
  destruct (fancy_get (row f) (vids (f_ids A f))) as [vals|] eqn:EV; [|discriminate].
  exists o. split; [exact E'|]. split; [congruence|]. intros j. destruct (N j) as [[E1 H1]|(v & (l & a & H1 & H2 & H3) & E1)].
  - left. split; [exact E1|]. intros v (i & t & k & a & Ho & Hk & -> & Ha & ->). apply (H1 (cast a)). exists (3 * i + k), a.
    split; [|split; [exact Ha|reflexivity]]. apply vert_pairs_In. exists i, t, k. split; [apply HI; exact Ho|]. repeat split; assumption || lia.
  - right. exists v. split; [|exact E1]. apply vert_pairs_In in H1 as (i & t & k & Hi & Hk & -> & ->).
    exists i, t, k, a. split; [apply HI; exact Hi|]. repeat split; assumption.
Qed.

(** *** Triangles of smooth files *)
Definition writes_vol (k : nat) (f : file) (t g : nat) : Prop :=
  exists i r l, owns f i t /\ nth_error (volumes A f) i = Some r /\ nth_error r k = Some l /\ nth_error (node_l2g A f) l = Some g.

(** The triangles of the file are rows of three local nodes. *)
Definition volumes_ok (f : file) : Prop :=
  length (volumes A f) = length (tri_full_flag A f) /\
  (forall r, In r (volumes A f) -> length r = 3 /\ forall l, In l r -> l < length (node_l2g A f)).

Lemma volumes_put_ok ntri k f : well_formed ntri f -> volumes_ok f -> k < 3 -> put_ok (put_volumes A k) (writes_vol k) ntri f.
Proof.
  intros Wf (Lv & Hv) Hk out Lo. destruct (f_gids_some ntri f Wf) as (g & E & Lg & HI). unfold put_volumes.
  rewrite (ftri_l2g_f _ _ Wf), E, (compress_f f ntri _ Wf).
  destruct (fancy_get_some (volumes A f) (f_ids A f)) as (rows & ER & FR).
  { intros i Hi. apply f_ids_In in Hi. rewrite Lv. apply nth_error_Some. congruence. }
  rewrite ER.
  assert (C : exists col, sequence (map (fun r => nth_error r k) rows) = Some col /\
     Forall2 (fun i l => exists r, nth_error (volumes A f) i = Some r /\ nth_error r k = Some l) (f_ids A f) col).
  { clear -FR Hv Hk. induction FR as [|i r is rows Hi FR IH]; [exists []; split; [reflexivity|constructor]|].
    destruct IH as (col & EC & FC). destruct (Hv r (nth_error_In _ _ Hi)) as [Lr _]. cbn [map sequence].
    destruct (nth_error r k) as [l|] eqn:El; [|apply nth_error_None in El; lia]. rewrite EC. exists (l :: col).
    split; [reflexivity|]. constructor; [|exact FC]. exists r. split; assumption. }
  destruct C as (col & EC & FC). rewrite EC.
  destruct (fancy_get_some (node_l2g A f) col) as (vals & EV & FV).
  { intros l Hl. clear -FC Hl Hv. induction FC as [|i l' is col (r & H1 & H2) FC IH]; [destruct Hl|].
    destruct Hl as [->|Hl]; [|apply IH, Hl]. destruct (Hv r (nth_error_In _ _ H1)) as [_ H]. exact (H l (nth_error_In _ _ H2)). }
  rewrite EV.
  assert (F : Forall2 (fun i v => exists r l, nth_error (volumes A f) i = Some r /\ nth_error r k = Some l /\ nth_error (node_l2g A f) l = Some v) (f_ids A f) vals).
  { clear -FC FV. revert vals FV. induction FC as [|i l is col (r & H1 & H2) FC IH]; intros vals FV; inversion FV; subst; constructor; eauto. }
  destruct (Forall2_combine _ _ _ F) as [Lval HV].
  destruct (fancy_set_some g out vals) as (o & EO & L & N).
  { congruence. }
  { intros t Ht. rewrite Lo. destruct (In_nth_error _ _ Ht) as (n & Hn).
    assert (HI' : exists i, In (i, t) (tri_pairs f g)).
    { clear -Ht Lg. unfold tri_pairs. revert Lg Ht. generalize (f_ids A f). induction g as [|x g IH]; intros [|y l] Lg Ht; try discriminate; [destruct Ht|].
      destruct Ht as [->|Ht]; [exists y; left; reflexivity|]. destruct (IH l ltac:(cbn in Lg; lia) Ht) as (i & Hi). exists i. right. exact Hi. }
    destruct HI' as (i & Hi). apply HI in Hi. destruct Wf as (_ & _ & Hr). exact (Hr i t Hi). }
  exists o. split; [exact EO|]. split; [congruence|]. intros t. destruct (N t) as [[E1 H1]|(v & Hv' & E1)].
  - left. split; [exact E1|]. intros v (i & r & l & Ho & _). apply H1. apply HI in Ho. unfold tri_pairs in Ho.
    eapply in_combine_r. exact Ho.
  - right. exists v. split; [|exact E1].
    assert (Q : exists i, owns f i t /\ In (i, v) (combine (f_ids A f) vals)).
    { assert (Q : exists i, In (i, t) (tri_pairs f g) /\ In (i, v) (combine (f_ids A f) vals)).
      { clear -Hv' Lg Lval. unfold tri_pairs. revert g vals Lg Lval Hv'. induction (f_ids A f) as [|i l IH]; intros [|x g] [|y vals] L1 L2 H; try discriminate; [destruct H|].
        destruct H as [H|H]; [injection H as -> ->; exists i; split; left; reflexivity|].
        destruct (IH g vals ltac:(cbn in L1; lia) ltac:(cbn in L2; lia) H) as (j & H1 & H2). exists j. split; right; assumption. }
      destruct Q as (i & H1 & H2). exists i. split; [apply HI; exact H1|exact H2]. }
    destruct Q as (i & Ho & Hi). destruct (HV i v Hi) as [_ (r & l & H1 & H2 & H3)]. exists i, r, l. split; [exact Ho|]. repeat split; assumption.
Qed.

(** *** Nodes of smooth files *)
Definition writes_node (row : file -> list A) (f : file) (g : nat) (v : B) : Prop :=
  exists l a, full_node f l g /\ nth_error (row f) l = Some a /\ v = cast a.

Definition nodes_ok (nnodes : nat) (f : file) : Prop :=
  NoDup (node_l2g A f) /\ forall g, In g (node_l2g A f) -> g < nnodes.

Lemma nodes_put_ok ntri nnodes (row : file -> list A) f : well_formed ntri f -> volumes_ok f -> nodes_ok nnodes f ->
  length (row f) = length (node_l2g A f) ->
  put_ok (fun out f => put_nodes A B cast out f (row f)) (writes_node row) nnodes f.
Proof.
  intros Wf (Lv & Hv) (ND & Hn) Lr out Lo. unfold put_nodes, f_node_l2g, fl_nodes. rewrite (compress_f f ntri _ Wf).
  destruct (fancy_get_some (volumes A f) (f_ids A f)) as (rows & ER & FR).
  { intros i Hi. apply f_ids_In in Hi. rewrite Lv. apply nth_error_Some. congruence. }
  rewrite ER.
  assert (NS : forall l, In l (nunique (concat rows)) <-> exists i r, nth_error (tri_full_flag A f) i = Some 1%Z /\ nth_error (volumes A f) i = Some r /\ In l r).
  { intros l. rewrite nunique_In, in_concat.
    assert (Q : forall r, In r rows <-> exists i, In i (f_ids A f) /\ nth_error (volumes A f) i = Some r).
    { clear -FR. induction FR as [|i r is rows Hi FR IH]; intros r'; [split; [intros []|intros (i & [] & _)]|]. cbn [In]. rewrite IH. split.
      - intros [<-|(j & Hj & E)]; [exists i; auto|exists j; auto].
      - intros (j & [->|Hj] & E); [left; congruence|right; exists j; auto]. }
    split.
    - intros (r & Hr & Hl). apply Q in Hr as (i & Hi & E). exists i, r. apply f_ids_In in Hi. auto.
    - intros (i & r & Hi & E & Hl). exists r. split; [|exact Hl]. apply Q. exists i. split; [apply f_ids_In; exact Hi|exact E]. }
  destruct (fancy_get_some (node_l2g A f) (nunique (concat rows))) as (g & EG & FG).
  { intros l Hl. apply NS in Hl as (i & r & _ & Hr & Hl). destruct (Hv r (nth_error_In _ _ Hr)) as [_ H]. exact (H l Hl). }
  rewrite EG. destruct (Forall2_combine _ _ _ FG) as [Lg HG].
  destruct (transfer_spec cast (combine (nunique (concat rows)) g) (row f) out) as (o & E' & L' & N).
  { intros l j Hi. apply HG in Hi as [Hl Hj]. split.
    - rewrite Lr. apply nth_error_Some. congruence.
    - rewrite Lo. apply Hn. eapply nth_error_In. exact Hj. }
  unfold transfer in E'. rewrite map_fst_combine, map_snd_combine in E' by exact Lg.
  destruct (fancy_get (row f) (nunique (concat rows))) as [vals|] eqn:EV; [|discriminate].
  assert (HF : forall l j, In (l, j) (combine (nunique (concat rows)) g) <-> full_node f l j).
  { intros l j. split.
    - intros Hi. apply HG in Hi as [Hl Hj]. apply NS in Hl as (i & r & H1 & H2 & H3). exists i, r. auto.
    - intros (i & r & H1 & H2 & H3 & H4). eapply Forall2_combine_back; [exact FG| | |exact H4]; [cbn; intros; congruence|].
      apply NS. exists i, r. auto. }
  exists o. split; [exact E'|]. split; [congruence|]. intros j. destruct (N j) as [[E1 H1]|(v & (l & a & H1 & H2 & H3) & E1)].
  - left. split; [exact E1|]. intros v (l & a & Ho & Ha & ->). apply (H1 (cast a)). exists l, a. split; [apply HF; exact Ho|].
    split; [exact Ha|reflexivity].
  - right. exists v. split; [|exact E1]. exists l, a. split; [apply HF; exact H1|]. split; assumption.
Qed.

Definition writes_point (coord : file -> list A) (f : file) (g : nat) (v : B) : Prop :=
  exists l a, nth_error (node_l2g A f) l = Some g /\ nth_error (coord f) l = Some a /\ v = cast a.

Lemma points_put_ok nnodes (coord : file -> list A) f : nodes_ok nnodes f -> length (coord f) = length (node_l2g A f) ->
  put_ok (put_points A B cast coord) (writes_point coord) nnodes f.
Proof.
  intros (ND & Hn) Lc out Lo. unfold put_points.
  destruct (fancy_set_some (node_l2g A f) out (map cast (coord f))) as (o & E & L & N).
  { rewrite map_length. congruence. }
  { intros g Hg. rewrite Lo. apply Hn, Hg. }
  exists o. split; [exact E|]. split; [congruence|]. intros g. destruct (N g) as [[E1 H1]|(v & Hv & E1)].
  - left. split; [exact E1|]. intros v (l & a & Hl & _). apply H1. eapply nth_error_In. exact Hl.
  - right. exists v. split; [|exact E1].
    clear -Hv Lc. unfold writes_point. revert Hv Lc. generalize (node_l2g A f) as m, (coord f) as c.
    induction m as [|x m IH]; intros [|y c] Hv Lc; try discriminate; [destruct Hv|]. destruct Hv as [H|H].
    + injection H as -> <-. exists 0, y. repeat split.
    + destruct (IH c H ltac:(cbn in Lc; lia)) as (l & a & H1 & H2 & H3). exists (S l), a. repeat split; assumption.
Qed.

(** *** Rows and whole quantities *)

(** Each file holds the quantity as [dyn] says, with rows of length [len f]. *)
Definition rows_ok (q : file -> variable A) (len : file -> nat) (dyn : bool) (steps : nat) (files : list file) : Prop :=
  forall f, In f files -> forall i, i < steps -> exists r, row_of A dyn (q f) i = Some r /\ length r = len f.

Definition row_at (q : file -> variable A) (dyn : bool) (i : nat) (f : file) : list A :=
  match row_of A dyn (q f) i with Some r => r | None => [] end.

Lemma merge_rows_ofold put q size dyn files i : (forall f, In f files -> exists r, row_of A dyn (q f) i = Some r) ->
  merge_rows A B zero put q size dyn files i = ofold (fun out f => put out f (row_at q dyn i f)) files (repeat zero size).
Proof.
  unfold merge_rows. generalize (repeat zero size) as out. induction files as [|f files IH]; intros out H; [reflexivity|].
  cbn [ofold]. destruct (H f (or_introl eq_refl)) as (r & E). unfold row_at at 1. rewrite E.
  destruct (put out f r) as [o|]; [|reflexivity]. apply IH. intros f' Hf. apply H. right. exact Hf.
Qed.

(** **** Theorem: centroid based quantities (both kinds of files).
    The merge of a row succeeds, every global triangle is written, and its value
    is the one stored by the file that owns the triangle. *)
Theorem C36_centroids : forall (smooth : bool) q ntri dyn steps files,
  partition ntri files -> (forall f, In f files -> well_formed ntri f) ->
  rows_ok q (fun f => length (tri_full_flag A f)) dyn steps files ->
  forall i, i < steps -> exists out,
    merge_rows A B zero (if smooth then put_smooth_centroids A B cast else put_centroids A B cast) q ntri dyn files i = Some out /\
    length out = ntri /\
    (forall t, t < ntri -> exists f l r a, In f files /\ owns f l t /\ row_of A dyn (q f) i = Some r /\
        nth_error r l = Some a /\ nth_error out t = Some (cast a)) /\
    (forall f l t r a, In f files -> owns f l t -> row_of A dyn (q f) i = Some r -> nth_error r l = Some a ->
        nth_error out t = Some (cast a)).
Proof.
  intros smooth q ntri dyn steps files (Ex & Un) Wf Rw i Hi.
  rewrite merge_rows_ofold by (intros f Hf; destruct (Rw f Hf i Hi) as (r & E & _); exists r; exact E).
  set (row := row_at q dyn i).
  assert (Hok : forall f, In f files -> put_ok (fun out f => (if smooth then put_smooth_centroids A B cast else put_centroids A B cast) out f (row f)) (writes_tri row) ntri f).
  { intros f Hf. destruct (Rw f Hf i Hi) as (r & E & L).
    assert (P : put_ok (fun out f => put_centroids A B cast out f (row f)) (writes_tri row) ntri f).
    { apply centroids_ok; [apply Wf, Hf|]. unfold row, row_at. rewrite E, L. apply le_n. }
    destruct smooth; [|exact P]. intros out Lo. rewrite (smooth_centroids_eq ntri _ _ _ (Wf f Hf)). apply P, Lo. }
  destruct (fold_run _ _ ntri files Hok (repeat zero ntri) (repeat_length _ _)) as (out & E & L & _).
  assert (Own : forall f l t r a, In f files -> owns f l t -> row_of A dyn (q f) i = Some r -> nth_error r l = Some a ->
        nth_error out t = Some (cast a)).
  { intros f l t r a Hf Ho Er Ha. eapply (fold_agree _ _ ntri files _ out Hok (repeat_length _ _) E).
    - exists f. split; [exact Hf|]. exists l, a. split; [exact Ho|]. split; [|reflexivity]. unfold row, row_at. rewrite Er. exact Ha.
    - intros f' v' Hf' (l' & a' & Ho' & Ha' & ->). f_equal. destruct (in_files _ _ Hf) as (n & Hn), (in_files _ _ Hf') as (n' & Hn').
      destruct (Un n n' f f' l l' t Hn Hn' Ho Ho') as [<- <-]. assert (f = f') by congruence. subst f'.
      unfold row, row_at in Ha'. rewrite Er in Ha'. congruence. }
  exists out. split; [exact E|]. split; [exact L|]. split; [|exact Own].
  intros t Ht. destruct (Ex t Ht) as (n & f & l & Hn & Ho). assert (Hf := nth_error_In _ _ Hn).
  destruct (Rw f Hf i Hi) as (r & Er & Lr).
  destruct (nth_error r l) as [a|] eqn:Ea.
  - exists f, l, r, a. split; [exact Hf|]. split; [exact Ho|]. split; [exact Er|]. split; [exact Ea|]. eapply Own; eassumption.
  - exfalso. apply nth_error_None in Ea. assert (l < length (tri_full_flag A f)) by (apply nth_error_Some; destruct Ho; congruence). lia.
Qed.

(** **** Theorem: vertex based quantities and coordinates of non-smooth files. *)
Theorem C36_vertices_non_smooth : forall q ntri dyn steps files,
  partition ntri files -> (forall f, In f files -> well_formed ntri f) ->
  rows_ok q (fun f => 3 * length (tri_full_flag A f)) dyn steps files ->
  forall i, i < steps -> exists out,
    merge_rows A B zero (put_vertices A B cast) q (3 * ntri) dyn files i = Some out /\
    length out = 3 * ntri /\
    (forall t k, t < ntri -> k < 3 -> exists f l r a, In f files /\ owns f l t /\ row_of A dyn (q f) i = Some r /\
        nth_error r (3 * l + k) = Some a /\ nth_error out (3 * t + k) = Some (cast a)) /\
    (forall f l t k r a, In f files -> owns f l t -> k < 3 -> row_of A dyn (q f) i = Some r -> nth_error r (3 * l + k) = Some a ->
        nth_error out (3 * t + k) = Some (cast a)).
Proof.
  intros q ntri dyn steps files (Ex & Un) Wf Rw i Hi.
  rewrite merge_rows_ofold by (intros f Hf; destruct (Rw f Hf i Hi) as (r & E & _); exists r; exact E).
  set (row := row_at q dyn i).
  assert (Hok : forall f, In f files -> put_ok (fun out f => put_vertices A B cast out f (row f)) (writes_vert row) (3 * ntri) f).
  { intros f Hf. destruct (Rw f Hf i Hi) as (r & E & L). apply vertices_ok; [apply Wf, Hf|]. unfold row, row_at. rewrite E, L. apply le_n. }
  destruct (fold_run _ _ (3 * ntri) files Hok (repeat zero (3 * ntri)) (repeat_length _ _)) as (out & E & L & _).
  assert (Own : forall f l t k r a, In f files -> owns f l t -> k < 3 -> row_of A dyn (q f) i = Some r -> nth_error r (3 * l + k) = Some a ->
        nth_error out (3 * t + k) = Some (cast a)).
  { intros f l t k r a Hf Ho Hk Er Ha. eapply (fold_agree _ _ (3 * ntri) files _ out Hok (repeat_length _ _) E).
    - exists f. split; [exact Hf|]. exists l, t, k, a. split; [exact Ho|]. split; [exact Hk|]. split; [reflexivity|]. split; [|reflexivity].
      unfold row, row_at. rewrite Er. exact Ha.
    - intros f' v' Hf' (l' & t' & k' & a' & Ho' & Hk' & Et & Ha' & ->). f_equal. assert (t' = t /\ k' = k) as [-> ->] by lia.
      destruct (in_files _ _ Hf) as (n & Hn), (in_files _ _ Hf') as (n' & Hn').
      destruct (Un n n' f f' l l' t Hn Hn' Ho Ho') as [<- <-]. assert (f = f') by congruence. subst f'.
      unfold row, row_at in Ha'. rewrite Er in Ha'. congruence. }
  exists out. split; [exact E|]. split; [exact L|]. split; [|exact Own].
  intros t k Ht Hk. destruct (Ex t Ht) as (n & f & l & Hn & Ho). assert (Hf := nth_error_In _ _ Hn).
  destruct (Rw f Hf i Hi) as (r & Er & Lr).
  destruct (nth_error r (3 * l + k)) as [a|] eqn:Ea.
  - exists f, l, r, a. split; [exact Hf|]. split; [exact Ho|]. split; [exact Er|]. split; [exact Ea|]. eapply Own; eassumption.
  - exfalso. apply nth_error_None in Ea. assert (l < length (tri_full_flag A f)) by (apply nth_error_Some; destruct Ho; congruence). lia.
Qed.

(** **** Theorem: the triangles of smooth files, in global node numbers. *)
Theorem C36_triangles_smooth : forall ntri k files, k < 3 ->
  partition ntri files -> (forall f, In f files -> well_formed ntri f /\ volumes_ok f) ->
  exists out, merge_volumes_smooth A ntri k files = Some out /\ length out = ntri /\
    (forall t, t < ntri -> exists f i r l g, In f files /\ owns f i t /\ nth_error (volumes A f) i = Some r /\
        nth_error r k = Some l /\ nth_error (node_l2g A f) l = Some g /\ nth_error out t = Some g) /\
    (forall f i t r l g, In f files -> owns f i t -> nth_error (volumes A f) i = Some r ->
        nth_error r k = Some l -> nth_error (node_l2g A f) l = Some g -> nth_error out t = Some g).
Proof.
  intros ntri k files Hk (Ex & Un) Wf. unfold merge_volumes_smooth.
  assert (Hok : forall f, In f files -> put_ok (put_volumes A k) (writes_vol k) ntri f).
  { intros f Hf. destruct (Wf f Hf). apply volumes_put_ok; assumption. }
  destruct (fold_run _ _ ntri files Hok (repeat 0 ntri) (repeat_length _ _)) as (out & E & L & _).
  assert (Own : forall f i t r l g, In f files -> owns f i t -> nth_error (volumes A f) i = Some r ->
        nth_error r k = Some l -> nth_error (node_l2g A f) l = Some g -> nth_error out t = Some g).
  { intros f i t r l g Hf Ho Hr Hl Hg. eapply (fold_agree _ _ ntri files _ out Hok (repeat_length _ _) E).
    - exists f. split; [exact Hf|]. exists i, r, l. auto.
    - intros f' v' Hf' (i' & r' & l' & Ho' & Hr' & Hl' & Hg'). destruct (in_files _ _ Hf) as (n & Hn), (in_files _ _ Hf') as (n' & Hn').
      destruct (Un n n' f f' i i' t Hn Hn' Ho Ho') as [<- <-]. assert (f = f') by congruence. subst f'. congruence. }
  exists out. split; [exact E|]. split; [exact L|]. split; [|exact Own].
  intros t Ht. destruct (Ex t Ht) as (n & f & i & Hn & Ho). assert (Hf := nth_error_In _ _ Hn). destruct (Wf f Hf) as [_ (Lv & Hv)].
  assert (Li : i < length (volumes A f)) by (rewrite Lv; apply nth_error_Some; destruct Ho; congruence).
  destruct (nth_error (volumes A f) i) as [r|] eqn:Er; [|apply nth_error_None in Er; lia].
  destruct (Hv r (nth_error_In _ _ Er)) as [Lr Hl].
  destruct (nth_error r k) as [l|] eqn:El; [|apply nth_error_None in El; lia].
  specialize (Hl l (nth_error_In _ _ El)).
  destruct (nth_error (node_l2g A f) l) as [g|] eqn:Eg; [|apply nth_error_None in Eg; lia].
  exists f, i, r, l, g. split; [exact Hf|]. split; [exact Ho|]. split; [exact Er|]. split; [exact El|]. split; [exact Eg|].
  eapply Own; eassumption.
Qed.

Lemma full_node_inj ntri nnodes f l l' g : well_formed ntri f -> nodes_ok nnodes f -> full_node f l g -> full_node f l' g -> l = l'.
Proof.
  intros _ (ND & _) (i & r & _ & _ & _ & E) (i' & r' & _ & _ & _ & E').
  apply (proj1 (NoDup_nth_error _) ND); [apply nth_error_Some; congruence|congruence].
Qed.

(** **** Theorem: vertex based quantities of smooth files.  An entry is taken
    from the last file in which the node is a vertex of a full triangle; ghost
    nodes are never used, and nodes of no full triangle stay zero. *)
Theorem C36_nodes_smooth : forall q ntri nnodes dyn steps files,
  (forall f, In f files -> well_formed ntri f /\ volumes_ok f /\ nodes_ok nnodes f) ->
  rows_ok q (fun f => length (node_l2g A f)) dyn steps files ->
  forall i, i < steps -> exists out,
    merge_rows A B zero (put_nodes A B cast) q nnodes dyn files i = Some out /\ length out = nnodes /\
    (forall pre f post l g r a, files = pre ++ f :: post -> full_node f l g ->
       (forall f' l', In f' post -> ~ full_node f' l' g) ->
       row_of A dyn (q f) i = Some r -> nth_error r l = Some a -> nth_error out g = Some (cast a)) /\
    (forall f l g r a, In f files -> full_node f l g -> row_of A dyn (q f) i = Some r -> nth_error r l = Some a ->
       (forall f' l' r' a', In f' files -> full_node f' l' g -> row_of A dyn (q f') i = Some r' -> nth_error r' l' = Some a' -> a' = a) ->
       nth_error out g = Some (cast a)) /\
    (forall g, g < nnodes -> (forall f l, In f files -> ~ full_node f l g) -> nth_error out g = Some zero).
Proof.
  intros q ntri nnodes dyn steps files Wf Rw i Hi.
  rewrite merge_rows_ofold by (intros f Hf; destruct (Rw f Hf i Hi) as (r & E & _); exists r; exact E).
  set (row := row_at q dyn i).
  assert (Hok : forall f, In f files -> put_ok (fun out f => put_nodes A B cast out f (row f)) (writes_node row) nnodes f).
  { intros f Hf. destruct (Rw f Hf i Hi) as (r & E & L). destruct (Wf f Hf) as (W1 & W2 & W3).
    apply (nodes_put_ok ntri); try assumption. unfold row, row_at. rewrite E. exact L. }
  destruct (fold_run _ _ nnodes files Hok (repeat zero nnodes) (repeat_length _ _)) as (out & E & L & _).
  assert (Fn : forall f j v v', In f files -> writes_node row f j v -> writes_node row f j v' -> v = v').
  { intros f j v v' Hf (l & a & Ho & Ha & ->) (l' & a' & Ho' & Ha' & ->). destruct (Wf f Hf) as (W1 & W2 & W3).
    assert (l = l') by (eapply full_node_inj; eassumption). subst. congruence. }
  destruct (fold_last _ _ nnodes files _ out Hok (repeat_length _ _) Fn E) as [Last None].
  exists out. split; [exact E|]. split; [exact L|]. split; [|split].
  - intros pre f post l g r a Ef Ho Hp Er Ha. apply (Last pre f post g (cast a) Ef).
    + exists l, a. split; [exact Ho|]. split; [|reflexivity]. unfold row, row_at. rewrite Er. exact Ha.
    + intros f' v' Hf' (l' & a' & Ho' & _). exact (Hp f' l' Hf' Ho').
  - intros f l g r a Hf Ho Er Ha Ag. eapply (fold_agree _ _ nnodes files _ out Hok (repeat_length _ _) E).
    + exists f. split; [exact Hf|]. exists l, a. split; [exact Ho|]. split; [|reflexivity]. unfold row, row_at. rewrite Er. exact Ha.
    + intros f' v' Hf' (l' & a' & Ho' & Ha' & ->). f_equal. destruct (Rw f' Hf' i Hi) as (r' & Er' & _).
      apply (Ag f' l' r' a' Hf' Ho' Er'). unfold row, row_at in Ha'. rewrite Er' in Ha'. exact Ha'.
  - intros g Hg Hn. rewrite None by (intros f v Hf (l & a & Ho & _); exact (Hn f l Hf Ho)).
    clear -Hg. revert g Hg. induction nnodes as [|n IH]; intros g Hg; [lia|]. destruct g as [|g]; [reflexivity|]. cbn. apply IH. lia.
Qed.

(** **** Theorem: coordinates of smooth files: the last file holding the node,
    full or ghost; nodes in no file keep the coordinate zero. *)
Theorem C36_points_smooth : forall coord nnodes files,
  (forall f, In f files -> nodes_ok nnodes f /\ length (coord f) = length (node_l2g A f)) ->
  exists out, merge_points_smooth A B cast zero nnodes coord files = Some out /\ length out = nnodes /\
    (forall pre f post l g a, files = pre ++ f :: post -> nth_error (node_l2g A f) l = Some g ->
       (forall f', In f' post -> ~ In g (node_l2g A f')) -> nth_error (coord f) l = Some a -> nth_error out g = Some (cast a)) /\
    (forall f l g a, In f files -> nth_error (node_l2g A f) l = Some g -> nth_error (coord f) l = Some a ->
       (forall f' l' a', In f' files -> nth_error (node_l2g A f') l' = Some g -> nth_error (coord f') l' = Some a' -> a' = a) ->
       nth_error out g = Some (cast a)) /\
    (forall g, g < nnodes -> (forall f, In f files -> ~ In g (node_l2g A f)) -> nth_error out g = Some zero).
Proof.
  intros coord nnodes files Wf. unfold merge_points_smooth.
  assert (Hok : forall f, In f files -> put_ok (put_points A B cast coord) (writes_point coord) nnodes f).
  { intros f Hf. destruct (Wf f Hf). apply points_put_ok; assumption. }
  destruct (fold_run _ _ nnodes files Hok (repeat zero nnodes) (repeat_length _ _)) as (out & E & L & _).
  assert (Fn : forall f j v v', In f files -> writes_point coord f j v -> writes_point coord f j v' -> v = v').
  { intros f j v v' Hf (l & a & Ho & Ha & ->) (l' & a' & Ho' & Ha' & ->). destruct (Wf f Hf) as ((ND & _) & _).
    assert (l = l') by (apply (proj1 (NoDup_nth_error _) ND); [apply nth_error_Some; congruence|congruence]). subst. congruence. }
  destruct (fold_last _ _ nnodes files _ out Hok (repeat_length _ _) Fn E) as [Last None].
  exists out. split; [exact E|]. split; [exact L|]. split; [|split].
  - intros pre f post l g a Ef Ho Hp Ha. apply (Last pre f post g (cast a) Ef).
    + exists l, a. auto.
    + intros f' v' Hf' (l' & a' & Ho' & _). apply (Hp f' Hf'). eapply nth_error_In. exact Ho'.
  - intros f l g a Hf Ho Ha Ag. eapply (fold_agree _ _ nnodes files _ out Hok (repeat_length _ _) E).
    + exists f. split; [exact Hf|]. exists l, a. auto.
    + intros f' v' Hf' (l' & a' & Ho' & Ha' & ->). f_equal. exact (Ag f' l' a' Hf' Ho' Ha').
  - intros g Hg Hn. rewrite None by (intros f v Hf (l & a & Ho & _); apply (Hn f Hf); eapply nth_error_In; exact Ho).
    clear -Hg. revert g Hg. induction nnodes as [|n IH]; intros g Hg; [lia|]. destruct g as [|g]; [reflexivity|]. cbn. apply IH. lia.
Qed.

(** **** Theorem: ghost copies have no influence.  Two lists of files that
    differ only in the values stored at triangles that are not full give the
    same merged rows. *)
Theorem C36_ghosts_ignored : forall (smooth : bool) q q' ntri dyn steps files,
  partition ntri files -> (forall f, In f files -> well_formed ntri f) ->
  rows_ok q (fun f => length (tri_full_flag A f)) dyn steps files ->
  rows_ok q' (fun f => length (tri_full_flag A f)) dyn steps files ->
  forall i, i < steps ->
  (forall f l r r', In f files -> nth_error (tri_full_flag A f) l = Some 1%Z -> row_of A dyn (q f) i = Some r ->
      row_of A dyn (q' f) i = Some r' -> nth_error r l = nth_error r' l) ->
  let put := if smooth then put_smooth_centroids A B cast else put_centroids A B cast in
  merge_rows A B zero put q ntri dyn files i = merge_rows A B zero put q' ntri dyn files i.
Proof.
  intros smooth q q' ntri dyn steps files P Wf R R' i Hi Same put.
  destruct (C36_centroids smooth q ntri dyn steps files P Wf R i Hi) as (o & E & L & Ex & _).
  destruct (C36_centroids smooth q' ntri dyn steps files P Wf R' i Hi) as (o' & E' & L' & _ & Own).
  subst put. rewrite E, E'. f_equal. apply (nth_ext _ _ zero zero); [congruence|]. intros t Ht. rewrite L in Ht.
  destruct (Ex t Ht) as (f & l & r & a & Hf & Ho & Er & Ea & Eo). destruct (R' f Hf i Hi) as (r' & Er' & _).
  assert (Ea' : nth_error r' l = Some a) by (rewrite <- (Same f l r r' Hf (proj1 Ho) Er Er'); exact Ea).
  rewrite (nth_error_nth _ _ _ Eo), (nth_error_nth _ _ _ (Own f l t r' a Hf Ho Er' Ea')). reflexivity.
Qed.

(** **** Theorem: a dynamic quantity stored with one row per timestep is merged
    completely; a static one too, unless its length is the number of timesteps. *)
Lemma sequence_some {X} (h : nat -> option X) n : (forall i, i < n -> exists x, h i = Some x) -> forall m, m <= n ->
  exists l, sequence (map h (seq (n - m) m)) = Some l /\ forall i, i < m -> nth_error l i = h (n - m + i).
Proof.
  intros H m. induction m as [|m IH]; intros Hm; [exists []; split; [reflexivity|intros; lia]|].
  destruct (IH ltac:(lia)) as (l & E & N). cbn [seq map sequence].
  destruct (H (n - S m) ltac:(lia)) as (x & Ex). rewrite Ex. replace (S (n - S m)) with (n - m) by lia. rewrite E.
  exists (x :: l). split; [reflexivity|]. intros [|i] Hi; cbn [nth_error].
  - rewrite Nat.add_0_r. symmetry. exact Ex.
  - rewrite N by lia. f_equal. lia.
Qed.

Lemma sequence_length {X} (l : list (option X)) m : sequence l = Some m -> length m = length l.
Proof.
  revert m. induction l as [|[x|] l IH]; intros m E; cbn [sequence] in E; [injection E as <-; reflexivity| |discriminate].
  destruct (sequence l) as [y|]; [|discriminate]. injection E as <-. cbn. f_equal. apply IH. reflexivity.
Qed.

Theorem C36_centroid_quantity : forall (smooth : bool) q ntri first files,
  partition ntri (first :: files) -> (forall f, In f (first :: files) -> well_formed ntri f) ->
  (* all files dynamic with the same number of timesteps, or all static *)
  (exists dyn, (forall f, In f (first :: files) ->
      match q f with
      | Dynamic _ rs => dyn = true /\ length rs = n_steps A first /\ forall r, In r rs -> length r = length (tri_full_flag A f)
      | Static _ r => dyn = false /\ length r = length (tri_full_flag A f)
      end) /\ (dyn = false -> shape0 A (q first) <> n_steps A first)) ->
  exists rows, merge_quantity A B zero (if smooth then put_smooth_centroids A B cast else put_centroids A B cast) q ntri (first :: files) = Some rows /\
    (forall f l t i a, In f (first :: files) -> owns f l t ->
       match q f with Dynamic _ rs => exists r, nth_error rs i = Some r /\ nth_error r l = Some a
                    | Static _ r => i = 0 /\ nth_error r l = Some a end ->
       exists out, nth_error rows i = Some out /\ nth_error out t = Some (cast a)) /\
    (forall out, In out rows -> length out = ntri).
Proof.
  intros smooth q ntri first files P Wf (dyn & Hq & Hs).
  assert (D : is_dynamic A first (q first) = dyn).
  { unfold is_dynamic. specialize (Hq first (or_introl eq_refl)). destruct (q first) as [r|rs] eqn:Q; cbn [shape0] in *.
    - destruct Hq as [-> _]. apply Nat.eqb_neq. intros E. apply (Hs eq_refl). congruence.
    - destruct Hq as (-> & L & _). apply Nat.eqb_eq. congruence. }
  set (steps := if dyn then n_steps A first else 1).
  assert (Rw : rows_ok q (fun f => length (tri_full_flag A f)) dyn steps (first :: files)).
  { intros f Hf i Hi. specialize (Hq f Hf). destruct (q f) as [r|rs]; [destruct Hq as [-> L]|destruct Hq as (-> & L & Hr)]; cbn [row_of].
    - exists r. split; [reflexivity|exact L].
    - destruct (nth_error rs i) as [r|] eqn:Er.
      + exists r. split; [reflexivity|]. apply Hr. eapply nth_error_In. exact Er.
      + apply nth_error_None in Er. unfold steps in Hi. lia. }
  set (put := if smooth then put_smooth_centroids A B cast else put_centroids A B cast).
  assert (M := C36_centroids smooth q ntri dyn steps (first :: files) P Wf Rw). fold put in M.
  destruct (sequence_some (merge_rows A B zero put q ntri dyn (first :: files)) steps
     ltac:(intros i Hi; destruct (M i Hi) as (o & E & _); exists o; exact E) steps (le_n _)) as (rows & E & N).
  rewrite Nat.sub_diag in E, N. exists rows.
  assert (EM : merge_quantity A B zero put q ntri (first :: files) = Some rows).
  { unfold merge_quantity. rewrite D. exact E. }
  assert (LR : length rows = steps).
  { rewrite (sequence_length _ _ E), map_length. apply seq_length. }
  split; [exact EM|]. split.
  - intros f l t i a Hf Ho Ha. specialize (Hq f Hf).
    assert (HR : i < steps /\ exists r, row_of A dyn (q f) i = Some r /\ nth_error r l = Some a).
    { destruct (q f) as [r|rs]; cbn [row_of].
      - destruct Ha as [-> Ha], Hq as [-> L]. split; [unfold steps; lia|]. exists r. split; [reflexivity|exact Ha].
      - destruct Ha as (r & Er & Ha), Hq as (-> & L & _). split; [|exists r; split; assumption].
        unfold steps. rewrite <- L. apply nth_error_Some. congruence. }
    destruct HR as [Hi (r & Er & Ea)]. destruct (M i Hi) as (o & Eo & _ & _ & Own). exists o. split; [rewrite (N i Hi); exact Eo|].
    eapply Own; eassumption.
  - intros out Hin. destruct (In_nth_error _ _ Hin) as (i & Ei).
    assert (Hi : i < steps) by (rewrite <- LR; apply nth_error_Some; congruence).
    destruct (M i Hi) as (o & Eo & Lo & _). rewrite (N i Hi), Nat.add_0_l in Ei. congruence.
Qed.
End Props.

Print Assumptions C36_centroids.
Print Assumptions C36_vertices_non_smooth.
Print Assumptions C36_triangles_smooth.
Print Assumptions C36_nodes_smooth.
Print Assumptions C36_points_smooth.
Print Assumptions C36_ghosts_ignored.
Print Assumptions C36_centroid_quantity.

(** *** Example and refutations *)
Local Open Scope nat_scope.

(** Two triangles 0 = (0,1,2), 1 = (1,3,2) of a four node mesh, one per process,
    each holding the other as a ghost; node 4 belongs to no triangle. *)
Definition ex_file0 : swwfile nat :=
  SWW nat 1 [0; 1] [0; 1; 2; 3] [1; 0]%Z [[0; 1; 2]; [1; 3; 2]] [10; 11; 12; 13] [20; 21; 22; 23]
      (Dynamic nat [[100; 101; 102; 103]]) (Dynamic nat [[7; 99]]).
Definition ex_file1 : swwfile nat :=
  SWW nat 1 [1; 0] [1; 3; 2; 0] [1; 0]%Z [[0; 1; 2]; [3; 0; 2]] [11; 13; 12; 10] [21; 23; 22; 20]
      (Dynamic nat [[101; 103; 102; 900]]) (Dynamic nat [[8; 99]]).
Definition ex_files := [ex_file0; ex_file1].

Lemma ex_partition : partition nat 2 ex_files.
Proof.
  split.
  - intros [|[|t]] Ht; [exists 0, ex_file0, 0|exists 1, ex_file1, 0|lia]; repeat split.
  - intros a b f f' i j t Ha Hb (Ho1 & Ho2) (Ho3 & Ho4). unfold ex_files in *.
    assert (C : forall n g, nth_error [ex_file0; ex_file1] n = Some g -> n = 0 /\ g = ex_file0 \/ n = 1 /\ g = ex_file1)
      by (intros [|[|[|n]]] g H; cbn in H; try discriminate; injection H as <-; auto).
    destruct (C _ _ Ha) as [[-> ->]|[-> ->]], (C _ _ Hb) as [[-> ->]|[-> ->]];
      destruct i as [|[|[|i]]]; try discriminate; destruct j as [|[|[|j]]]; try discriminate; auto;
      cbn in *; congruence.
Qed.
Lemma ex_well_formed : forall f, In f ex_files -> well_formed nat 2 f /\ volumes_ok nat f /\ nodes_ok nat 5 f.
Proof.
  intros f [<-|[<-|[]]]; (split; [|split]).
  1, 4: split; [reflexivity|]; split; [intros c [<-|[<-|[]]]; auto|];
        intros [|[|[|i]]] t (H1 & H2); cbn in *; try discriminate; injection H2 as <-; lia.
  1, 3: split; [reflexivity|]; intros r [<-|[<-|[]]]; (split; [reflexivity|]); cbn; lia.
  1, 2: split; [repeat constructor; cbn; lia|cbn; lia].
Qed.
Example C36_applies :
  (exists out, merge_rows nat nat 0 (put_centroids nat nat (fun x => x)) (centroid_q nat) 2 true ex_files 0 = Some out /\ out = [7; 8]) /\
  rows_ok nat (centroid_q nat) (fun f => length (tri_full_flag nat f)) true 1 ex_files /\
  rows_ok nat (vertex_q nat) (fun f => length (node_l2g nat f)) true 1 ex_files /\
  merge_rows nat nat 0 (put_nodes nat nat (fun x => x)) (vertex_q nat) 5 true ex_files 0 = Some [100; 101; 102; 103; 0] /\
  merge_volumes_smooth nat 2 0 ex_files = Some [0; 1].
Proof.
  split; [eexists; split; reflexivity|].
  split; [intros f [<-|[<-|[]]] [|i] Hi; try lia; eexists; split; reflexivity|].
  split; [intros f [<-|[<-|[]]] [|i] Hi; try lia; eexists; split; reflexivity|]. split; reflexivity.
Qed.
Example C36_quantity_applies : exists rows,
  merge_quantity nat nat 0 (put_centroids nat nat (fun x => x)) (centroid_q nat) 2 ex_files = Some rows.
Proof.
  destruct (C36_centroid_quantity nat nat (fun x => x) 0 false (centroid_q nat) 2 ex_file0 [ex_file1] ex_partition) as (rows & E & _).
  - intros f Hf. apply ex_well_formed, Hf.
  - exists true. split; [|discriminate]. intros f [<-|[<-|[]]]; cbn; repeat split; intros r [<-|[]]; reflexivity.
  - exists rows. exact E.
Qed.

(** A node of the global mesh that is in no triangle is in no file; the merged
    file gives it the coordinates and values zero: "every global entry is
    written" fails for nodes.  (Node 4 of a mesh of five nodes.) *)
Theorem C36_lone_node_refuted :
  partition nat 2 ex_files /\ (forall f, In f ex_files -> well_formed nat 2 f /\ volumes_ok nat f /\ nodes_ok nat 5 f) /\
  exists out, merge_points_smooth nat (option nat) Some None 5 (px nat) ex_files = Some out /\ nth_error out 4 = Some None.
Proof.
  split; [apply ex_partition|]. split; [apply ex_well_formed|]. eexists. split; reflexivity.
Qed.
Print Assumptions C36_lone_node_refuted.

(** A static quantity whose length in the first file is the number of timesteps
    is taken for a dynamic one, and the merge raises an exception. *)
Definition ex_static (n : nat) (f : swwfile nat) (row : list nat) : swwfile nat :=
  SWW nat n (tri_l2g nat f) (node_l2g nat f) (tri_full_flag nat f) (volumes nat f) (px nat f) (py nat f) (vertex_q nat f) (Static nat row).
Theorem C36_static_as_dynamic_refuted :
  merge_quantity nat nat 0 (put_centroids nat nat (fun x => x)) (centroid_q nat) 2 [ex_static 2 ex_file0 [7; 99]; ex_static 2 ex_file1 [8; 99]] = None /\
  merge_quantity nat nat 0 (put_smooth_centroids nat nat (fun x => x)) (centroid_q nat) 2 [ex_static 2 ex_file0 [7; 99]; ex_static 2 ex_file1 [8; 99]] = None /\
  merge_quantity nat nat 0 (put_centroids nat nat (fun x => x)) (centroid_q nat) 2 [ex_static 3 ex_file0 [7; 99]; ex_static 3 ex_file1 [8; 99]] = Some [[7; 8]].
Proof. split; [|split]; reflexivity. Qed.
Print Assumptions C36_static_as_dynamic_refuted.

(** Which merge is used depends on the first file: if its triangles share no
    node, smooth files are merged as non-smooth ones, with an exception or with
    wrong values.  First file: triangle (0,1,2) alone; second file: triangles
    (3,4,5) and (4,6,5) sharing two nodes. *)
Definition ex_first : swwfile nat :=
  SWW nat 1 [0] [0; 1; 2] [1]%Z [[0; 1; 2]] [10; 11; 12] [20; 21; 22] (Dynamic nat [[100; 101; 102]]) (Dynamic nat [[7]]).
Definition ex_second : swwfile nat :=
  SWW nat 1 [1; 2] [3; 4; 5; 6] [1; 1]%Z [[0; 1; 2]; [1; 3; 2]] [13; 14; 15; 16] [23; 24; 25; 26]
      (Dynamic nat [[103; 104; 105; 106]]) (Dynamic nat [[8; 9]]).
Theorem C36_dispatch_refuted :
  partition nat 3 [ex_first; ex_second] /\
  merge_parallel_vertices nat nat (fun x => x) 0 3 7 [ex_first; ex_second] = None /\
  merge_quantity nat nat 0 (put_nodes nat nat (fun x => x)) (vertex_q nat) 7 [ex_first; ex_second] = Some [[100; 101; 102; 103; 104; 105; 106]].
Proof.
  split; [|split; reflexivity]. split.
  - intros [|[|[|t]]] Ht; [exists 0, ex_first, 0|exists 1, ex_second, 0|exists 1, ex_second, 1|lia]; repeat split.
  - intros a b f f' i j t Ha Hb (Ho1 & Ho2) (Ho3 & Ho4).
    assert (C : forall n g, nth_error [ex_first; ex_second] n = Some g -> n = 0 /\ g = ex_first \/ n = 1 /\ g = ex_second)
      by (intros [|[|[|n]]] g H; cbn in H; try discriminate; injection H as <-; auto).
    destruct (C _ _ Ha) as [[-> ->]|[-> ->]], (C _ _ Hb) as [[-> ->]|[-> ->]];
      destruct i as [|[|[|i]]]; try discriminate; destruct j as [|[|[|j]]]; try discriminate; auto;
      cbn in *; congruence.
Qed.
Print Assumptions C36_dispatch_refuted.

(** A node on the border of two processes is a vertex of full triangles of both;
    the merged value is that of the later file, so the order of the files matters
    when the processes disagree. *)
Definition ex_file1' : swwfile nat :=
  SWW nat 1 [1; 0] [1; 3; 2; 0] [1; 0]%Z [[0; 1; 2]; [3; 0; 2]] [11; 13; 12; 10] [21; 23; 22; 20]
      (Dynamic nat [[501; 103; 102; 900]]) (Dynamic nat [[8; 99]]).
Theorem C36_shared_node_order_refuted :
  merge_rows nat nat 0 (put_nodes nat nat (fun x => x)) (vertex_q nat) 4 true [ex_file0; ex_file1'] 0 = Some [100; 501; 102; 103] /\
  merge_rows nat nat 0 (put_nodes nat nat (fun x => x)) (vertex_q nat) 4 true [ex_file1'; ex_file0] 0 = Some [100; 101; 102; 103].
Proof. split; reflexivity. Qed.
Print Assumptions C36_shared_node_order_refuted.
