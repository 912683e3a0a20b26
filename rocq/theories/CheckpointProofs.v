(** Lemmas about the checkpoint restart. *)
From Coq Require Import Reals Lra List Arith Lia Bool Ascii Sorted.
From Verif Require Import RealLib KahnLib CheckpointModel.
Import ListNotations.

(** ** Names *)
Lemma str_eqb_spec a : forall b, str_eqb a b = true <-> a = b.
Proof.
  induction a as [|x a IH]; intros [|y b]; simpl; try (split; congruence).
  rewrite andb_true_iff, IH, Ascii.eqb_eq. split; [intros [-> ->]; reflexivity|intros E; injection E; auto].
Qed.

Lemma rsplit_none c s : ~ In c s -> rsplit c s = None.
Proof.
  induction s as [|x s IH]; intros H; [reflexivity|]. cbn [rsplit].
  rewrite IH by (intros ?; apply H; right; auto).
  destruct (Ascii.eqb_spec x c); [|reflexivity]. subst. exfalso. apply H. left. reflexivity.
Qed.
Lemma rsplit_last c b a : ~ In c a -> rsplit c (b ++ c :: a) = Some (b, a).
Proof.
  intros H. induction b as [|x b IH].
  - cbn [app rsplit]. rewrite rsplit_none by auto. rewrite Ascii.eqb_refl. reflexivity.
  - cbn [app rsplit]. rewrite IH. reflexivity.
Qed.

Lemma parse_pickle_name py_str ext name t : ~ In dot ext -> ~ In underscore (py_str t) ->
  rpartition_underscore (splitext_base (pickle_name py_str ext name t)) = (name, py_str t).
Proof.
  intros He Hu. unfold splitext_base, pickle_name.
  replace (name ++ underscore :: py_str t ++ dot :: ext) with ((name ++ underscore :: py_str t) ++ dot :: ext)
    by (rewrite <- app_assoc; reflexivity).
  rewrite rsplit_last by auto.
  replace (existsb _ _) with true.
  - unfold rpartition_underscore. rewrite rsplit_last by auto. reflexivity.
  - symmetry. apply existsb_exists. exists underscore. split; [apply in_or_app; right; left; reflexivity|reflexivity].
Qed.

(** ** Sets *)
Lemma mem_In t l : mem t l = true <-> In t l.
Proof.
  unfold mem. rewrite existsb_exists. split.
  - intros (x & Hx & E). apply Reqb_true in E. subst. exact Hx.
  - intros H. exists t. split; [exact H|]. apply Reqb_true. reflexivity.
Qed.
Lemma set_add_In t x l : In x (set_add t l) <-> x = t \/ In x l.
Proof.
  unfold set_add. destruct (mem t l) eqn:E.
  - apply mem_In in E. split; [auto|]. intros [->|]; auto.
  - simpl. split; intros [|]; auto.
Qed.
Lemma set_add_NoDup t l : NoDup l -> NoDup (set_add t l).
Proof.
  intros H. unfold set_add. destruct (mem t l) eqn:E; [exact H|]. constructor; [|exact H].
  intros Hi. apply mem_In in Hi. congruence.
Qed.
Lemma set_inter_In x a b : In x (set_inter a b) <-> In x a /\ In x b.
Proof. unfold set_inter. rewrite filter_In, mem_In. reflexivity. Qed.
Lemma inter_all_In x : forall ls a, In x (fold_left set_inter ls a) <-> In x a /\ forall l, In l ls -> In x l.
Proof.
  induction ls as [|l ls IH]; intros a; cbn [fold_left].
  - split; [intros H; split; [exact H|intros ? []]|tauto].
  - rewrite IH, set_inter_In. split.
    + intros [[A B] C]. split; [exact A|]. intros l' [<-|]; auto.
    + intros [A B]. split; [split; [exact A|apply B; left; reflexivity]|]. intros l' Hl. apply B. right. exact Hl.
Qed.
Lemma inter_all_NoDup : forall ls a, NoDup a -> NoDup (fold_left set_inter ls a).
Proof. induction ls as [|l ls IH]; intros a H; cbn [fold_left]; [exact H|]. apply IH, NoDup_filter, H. Qed.

Lemma insert_In t x l : In x (insert t l) <-> x = t \/ In x l.
Proof.
  induction l as [|y l IH]; simpl; [intuition|].
  destruct (Rleb t y); simpl; [intuition|]. rewrite IH. intuition.
Qed.
Lemma sort_In x l : In x (sort l) <-> In x l.
Proof. induction l as [|y l IH]; simpl; [reflexivity|]. rewrite insert_In, IH. intuition. Qed.
Lemma insert_sorted t l : ~ In t l -> StronglySorted Rlt l -> StronglySorted Rlt (insert t l).
Proof.
  intros N H. induction H as [|y l H IH F]; simpl; [repeat constructor|].
  destruct (Rleb_spec t y) as [Hle|Hgt].
  - assert (t < y)%R. { destruct Hle as [|E]; [assumption|]. exfalso. apply N. left. auto. }
    constructor; [constructor; assumption|]. constructor; [assumption|].
    eapply Forall_impl; [|exact F]. intros z Hz. cbn in Hz. lra.
  - constructor.
    + apply IH. intros ?. apply N. right. assumption.
    + apply Forall_forall. intros z Hz. apply insert_In in Hz. destruct Hz as [->|Hz]; [lra|].
      rewrite Forall_forall in F. auto.
Qed.
Lemma sort_sorted l : NoDup l -> StronglySorted Rlt (sort l).
Proof.
  induction 1 as [|x l Hx _ IH]; simpl; [constructor|]. apply insert_sorted; [|exact IH]. rewrite sort_In. exact Hx.
Qed.
Lemma sorted_unique : forall a b, StronglySorted Rlt a -> StronglySorted Rlt b ->
  (forall x, In x a <-> In x b) -> a = b.
Proof.
  induction a as [|x a IH]; intros [|y b] Ha Hb H.
  - reflexivity.
  - exfalso. apply (proj2 (H y)). left. reflexivity.
  - exfalso. apply (proj1 (H x)). left. reflexivity.
  - inversion Ha as [|x' a' Ha' Fa]; subst. inversion Hb as [|y' b' Hb' Fb]; subst.
    rewrite Forall_forall in Fa, Fb.
    assert (x = y).
    { destruct (proj1 (H x) (or_introl eq_refl)) as [|Hx]; [auto|].
      destruct (proj2 (H y) (or_introl eq_refl)) as [|Hy]; [auto|].
      specialize (Fa y Hy). specialize (Fb x Hx). lra. }
    subst y. f_equal. apply IH; [exact Ha'|exact Hb'|].
    intros z. split; intros Hz.
    + destruct (proj1 (H z) (or_intror Hz)) as [<-|]; [|assumption]. specialize (Fa x Hz). lra.
    + destruct (proj2 (H z) (or_intror Hz)) as [<-|]; [|assumption]. specialize (Fb x Hz). lra.
Qed.
Lemma rev_decreasing : forall l, StronglySorted Rlt l -> StronglySorted Rgt (rev l).
Proof.
  assert (G : forall l a, StronglySorted Rgt a -> StronglySorted Rlt l ->
     (forall x y, In x l -> In y a -> (y < x)%R) -> StronglySorted Rgt (rev l ++ a)).
  { induction l as [|x l IH]; intros a Ha Hl H; simpl; [exact Ha|].
    inversion Hl as [|x' l' Hl' F]; subst. rewrite Forall_forall in F.
    rewrite <- app_assoc. apply IH; [|exact Hl'|].
    - cbn [app]. constructor; [exact Ha|]. apply Forall_forall. intros z Hz. apply Rlt_gt, H; [left; reflexivity|exact Hz].
    - cbn [app]. intros x0 y Hx [<-|Hy]; [apply F, Hx|]. apply H; [right; exact Hx|exact Hy]. }
  intros l Hl. rewrite <- (app_nil_r (rev l)). apply G; [constructor|exact Hl|intros x y _ []].
Qed.

(** ** Scanning the directories *)
Section Scan.
Variable py_float : str -> option R.

(** File [f] is taken for a checkpoint of [name] at time [t]. *)
Definition names (name f : str) (t : R) : Prop :=
  fst (rpartition_underscore (splitext_base f)) = name /\
  py_float (snd (rpartition_underscore (splitext_base f))) = Some t.

Lemma scan_files_In name : forall fs acc times, scan_files py_float name fs acc = Some times ->
  forall t, In t times <-> In t acc \/ exists f, In f fs /\ names name f t.
Proof.
  induction fs as [|f fs IH]; intros acc times H t; cbn [scan_files] in H.
  - injection H as <-. split; [auto|]. intros [|(f & [] & _)]; assumption.
  - destruct (str_eqb _ name) eqn:E.
    + destruct (py_float _) as [u|] eqn:P; [|discriminate]. rewrite (IH _ _ H t), set_add_In.
      apply str_eqb_spec in E. split.
      * intros [[->|]|(g & Hg & Hn)]; auto; right; [exists f|exists g]; (split; [|]); auto; [left; auto|split; auto|right; auto].
      * intros [|(g & [<-|Hg] & Hn)]; auto; [|right; exists g; auto].
        destruct Hn as [_ Hn]. rewrite P in Hn. injection Hn as ->. auto.
    + rewrite (IH _ _ H t). split.
      * intros [|(g & Hg & Hn)]; auto. right. exists g. split; [right; auto|auto].
      * intros [|(g & [<-|Hg] & Hn)]; auto; [|right; exists g; auto].
        destruct Hn as [Hn _]. apply str_eqb_spec in Hn. congruence.
Qed.
Lemma scan_In name : forall dirs acc times, scan py_float name dirs acc = Some times ->
  forall t, In t times <-> In t acc \/ exists fs f, In fs dirs /\ In f fs /\ names name f t.
Proof.
  induction dirs as [|fs dirs IH]; intros acc times H t; cbn [scan] in H.
  - injection H as <-. split; [auto|]. intros [|(fs & f & [] & _)]; assumption.
  - assert (H' : exists a', scan_files py_float name fs acc = Some a' /\ scan py_float name dirs a' = Some times).
    { destruct fs as [|f fs]; [discriminate|].
      destruct (scan_files py_float name (f :: fs) acc) as [a'|]; [|discriminate]. exists a'. auto. }
    destruct H' as (a' & Hf & Hs). rewrite (IH _ _ Hs t), (scan_files_In _ _ _ _ Hf t). split.
    + intros [[|(f & Hi & Hn)]|(gs & g & Hg & Hi & Hn)]; auto; right.
      * exists fs, f. split; [left; auto|auto].
      * exists gs, g. split; [right; auto|auto].
    + intros [|(gs & g & [<-|Hg] & Hi & Hn)]; auto; [left; right|right]; eauto.
Qed.
Lemma scan_files_NoDup name : forall fs acc times, NoDup acc -> scan_files py_float name fs acc = Some times -> NoDup times.
Proof.
  induction fs as [|f fs IH]; intros acc times N H; cbn [scan_files] in H.
  - injection H as <-. exact N.
  - destruct (str_eqb _ name); [|eapply IH; eassumption].
    destruct (py_float _); [|discriminate]. eapply IH; [|exact H]. apply set_add_NoDup, N.
Qed.
Lemma scan_NoDup name : forall dirs acc times, NoDup acc -> scan py_float name dirs acc = Some times -> NoDup times.
Proof.
  induction dirs as [|fs dirs IH]; intros acc times N H; cbn [scan] in H.
  - injection H as <-. exact N.
  - destruct fs as [|f fs]; [discriminate|].
    destruct (scan_files py_float name (f :: fs) acc) as [a'|] eqn:E; [|discriminate].
    eapply IH; [|exact H]. eapply scan_files_NoDup; eassumption.
Qed.

(** No directory is without files, and every name of the form <name>_x.ext has a
    number for x. *)
Definition clean (name : str) (dirs : list (list str)) : Prop :=
  ~ In [] dirs /\
  forall fs f, In fs dirs -> In f fs -> fst (rpartition_underscore (splitext_base f)) = name ->
    exists t, py_float (snd (rpartition_underscore (splitext_base f))) = Some t.

Lemma scan_files_some name : forall fs acc,
  (forall f, In f fs -> fst (rpartition_underscore (splitext_base f)) = name ->
    exists t, py_float (snd (rpartition_underscore (splitext_base f))) = Some t) ->
  exists times, scan_files py_float name fs acc = Some times.
Proof.
  induction fs as [|f fs IH]; intros acc H; cbn [scan_files]; [eauto|].
  destruct (str_eqb _ name) eqn:E.
  - apply str_eqb_spec in E. destruct (H f (or_introl eq_refl) E) as (t & ->). apply IH. intros; apply H; auto. right; auto.
  - apply IH. intros; apply H; auto. right; auto.
Qed.
Lemma scan_some name : forall dirs acc, clean name dirs -> exists times, scan py_float name dirs acc = Some times.
Proof.
  induction dirs as [|fs dirs IH]; intros acc [H1 H2]; cbn [scan]; [eauto|].
  destruct fs as [|f fs]; [exfalso; apply H1; left; reflexivity|].
  destruct (scan_files_some name (f :: fs) acc) as (a' & ->).
  - intros g Hg. apply (H2 (f :: fs)); [left; reflexivity|exact Hg].
  - apply IH. split; [intros ?; apply H1; right; assumption|]. intros gs g Hg. apply H2. right. exact Hg.
Qed.
End Scan.

(** ** The loop over times *)
Section Try.
Variable D : Type.
Variable py_str : R -> str.
Variable ext : str.
Variables (n : nat) (nm : nat -> str) (vw : nat -> view D).

Definition rd (p : nat) (t : R) : option D := load D (vw p) (pickle_name py_str ext (nm p) t).
Definition all_readable (t : R) : Prop := forall p, p < n -> exists d, rd p t = Some d.

Lemma fold_and_spec l : forall b, fold_left andb l b = true <-> b = true /\ forall x, In x l -> x = true.
Proof.
  induction l as [|x l IH]; intros b; cbn [fold_left].
  - split; [intros ->; split; [reflexivity|intros ? []]|tauto].
  - rewrite IH, andb_true_iff. split.
    + intros [[-> ->] H]. split; [reflexivity|]. intros y [<-|]; auto.
    + intros [-> H]. split; [split; [reflexivity|apply H; left; reflexivity]|]. intros y Hy. apply H. right. exact Hy.
Qed.

Definition flag (p : nat) (t : R) : bool := match rd p t with Some _ => true | None => false end.

Lemma overall_spec p t : p < n ->
  fold_left andb (map flag_of (map (fun q => MFlag (flag q t)) (others n p))) (flag p t) = true <-> all_readable t.
Proof.
  intros Hp. rewrite fold_and_spec. unfold all_readable. split.
  - intros [H1 H2] q Hq. destruct (Nat.eq_dec q p) as [->|Hn].
    + unfold flag in H1. destruct (rd p t) as [d|]; [eauto|discriminate].
    + assert (F : flag q t = true).
      { apply H2. rewrite map_map. apply in_map_iff. exists q. split; [reflexivity|]. apply others_In. auto. }
      unfold flag in F. destruct (rd q t) as [d|]; [eauto|discriminate].
  - intros H. split.
    + unfold flag. destruct (H p Hp) as (d & ->). reflexivity.
    + intros x Hx. rewrite map_map in Hx. apply in_map_iff in Hx as (q & <- & Hq). apply others_In in Hq.
      cbn. unfold flag. destruct (H q (proj1 Hq)) as (d & ->). reflexivity.
Qed.

Lemma try_times_run : 0 < n -> forall ts pr,
  (forall p, p < n -> pr p = try_times D py_str ext n p (nm p) (vw p) ts) -> StronglySorted Rgt ts ->
  exists c pr', steps n c (Net pr no_messages) (Net pr' no_messages) /\
    ((exists t, In t ts /\ all_readable t /\ (forall t', In t' ts -> all_readable t' -> (t' <= t)%R) /\
        forall p, p < n -> pr' p = Ret (rd p t)) \/
     ((forall t, In t ts -> ~ all_readable t) /\ forall p, p < n -> pr' p = Ret None)).
Proof.
  intros Hn. induction ts as [|t ts IH]; intros pr H Hs.
  - exists 0, pr. split; [constructor|]. right. split; [intros ? []|exact H].
  - cbn [try_times] in H.
    destruct (exchange_bulk_runs msg (result D) n (fun p => MFlag (flag p t)) 
      (fun p ms => if fold_left andb (map flag_of ms) (flag p t) then Ret (rd p t)
                   else try_times D py_str ext n p (nm p) (vw p) ts) pr H) as (c & pr1 & S1 & E1 & _).
    inversion Hs as [|t0 ts0 Hs' F]; subst. rewrite Forall_forall in F.
    destruct (fold_left andb (map flag_of (map (fun q => MFlag (flag q t)) (others n 0))) (flag 0 t)) eqn:Ov.
    + apply overall_spec in Ov; [|exact Hn].
      exists c, pr1. split; [exact S1|]. left. exists t. split; [left; reflexivity|]. split; [exact Ov|]. split.
      * intros t' [<-|Ht'] _; [lra|]. specialize (F t' Ht'). lra.
      * intros p Hp. rewrite E1 by exact Hp. rewrite (proj2 (overall_spec p t Hp) Ov). reflexivity.
    + assert (No : ~ all_readable t).
      { intros A. apply (overall_spec 0 t Hn) in A. congruence. }
      destruct (IH pr1) as (c2 & pr2 & S2 & E2); [|exact Hs'|].
      * intros p Hp. rewrite E1 by exact Hp.
        destruct (fold_left andb (map flag_of (map (fun q => MFlag (flag q t)) (others n p))) (flag p t)) eqn:Ov'; [|reflexivity].
        apply overall_spec in Ov'; [tauto|exact Hp].
      * exists (c + c2), pr2. split; [eapply steps_trans; eassumption|].
        destruct E2 as [(u & Hu & A & M & Ef)|[A Ef]].
        -- left. exists u. split; [right; exact Hu|]. split; [exact A|]. split; [|exact Ef].
           intros t' [<-|Ht'] Ha; [tauto|]. apply M; assumption.
        -- right. split; [|exact Ef]. intros t' [<-|Ht']; [exact No|apply A, Ht'].
Qed.
End Try.
