(** C33: restart from checkpoints, on any number of processes and under every
    schedule. *)
From Coq Require Import Reals Lra List Arith Lia Bool Ascii String Sorted.
From Verif Require Import RealLib KahnLib CheckpointModel CheckpointProofs.
Import ListNotations.
Local Open Scope list_scope.

Section C33.
Variable D : Type.
Variable py_float : str -> option R.
Variable py_str : R -> str.
Variable dec : nat -> str.
Variable ext : str.
(** The times that are floating point numbers. *)
Variable is_float : R -> Prop.
Hypothesis float_str : forall t, is_float t -> py_float (py_str t) = Some t.
Hypothesis float_range : forall s t, py_float s = Some t -> is_float t.
Hypothesis str_plain : forall t, is_float t -> ~ In underscore (py_str t).
Hypothesis ext_plain : ~ In dot ext.

Variables (n : nat) (name : str) (vw : nat -> view D).
Hypothesis n_pos : 0 < n.

Let nm (p : nat) : str := proc_name dec n name p.
Let file (p : nat) (t : R) : str := pickle_name py_str ext (nm p) t.

(** Process [p] holds a readable checkpoint for time [t]. *)
Let readable (p : nat) (t : R) : Prop := exists d, load D (vw p) (file p t) = Some d.
Let complete (t : R) : Prop := is_float t /\ forall p, p < n -> readable p t.

(** What opens is listed. *)
Definition listed : Prop := forall p f d, p < n -> load D (vw p) f = Some d -> exists fs, In fs (walk D (vw p)) /\ In f fs.
Definition clean_dirs : Prop := forall p, p < n -> clean py_float (nm p) (walk D (vw p)).

Let prg : nat -> prog msg (result D) := fun p => load_checkpoint_file D py_float py_str dec ext n name (vw p) p.

Lemma run_exists : listed -> clean_dirs -> exists c pr', steps n c (Net prg no_messages) (Net pr' no_messages) /\
    ((exists t, complete t /\ (forall t', complete t' -> (t' <= t)%R) /\
        forall p, p < n -> pr' p = Ret (load D (vw p) (file p t))) \/
     ((forall t, ~ complete t) /\ forall p, p < n -> pr' p = Ret None)).
Proof.
  intros HL HC.
  assert (T : exists times : nat -> list R, forall p, p < n -> scan py_float (nm p) (walk D (vw p)) [] = Some (times p)).
  { exists (fun p => match scan py_float (nm p) (walk D (vw p)) [] with Some l => l | None => [] end).
    intros p Hp. destruct (scan_some py_float (nm p) (walk D (vw p)) [] (HC p Hp)) as (l & ->). reflexivity. }
  destruct T as (times & T).
  set (cmb := fun p ms => fold_left set_inter (map times_of ms) (times p)).
  destruct (exchange_pairwise_runs msg (result D) n (fun p => MTimes (times p))
    (fun p ms => try_times D py_str ext n p (nm p) (vw p) (rev (sort (cmb p ms)))) prg) as (c1 & pr1 & S1 & E1 & _).
  { intros p Hp. unfold prg, load_checkpoint_file. fold (nm p). rewrite (T p Hp). reflexivity. }
  set (com := fun p => cmb p (map (fun p => MTimes (times p)) (others n p))) in *.
  assert (In_com : forall p t, p < n -> In t (com p) <-> forall q, q < n -> In t (times q)).
  { intros p t Hp. unfold com, cmb. rewrite inter_all_In. split.
    - intros [A B] q Hq. destruct (Nat.eq_dec q p) as [->|]; [exact A|]. apply B. rewrite map_map.
      apply in_map_iff. exists q. split; [reflexivity|]. apply others_In. auto.
    - intros A. split; [apply A, Hp|]. intros l Hl. rewrite map_map in Hl. apply in_map_iff in Hl as (q & <- & Hq).
      apply A. apply others_In in Hq. tauto. }
  assert (ND : forall p, p < n -> NoDup (com p)).
  { intros p Hp. unfold com, cmb. apply inter_all_NoDup. eapply scan_NoDup; [constructor|apply T, Hp]. }
  assert (Same : forall p, p < n -> sort (com p) = sort (com 0)).
  { intros p Hp. apply sorted_unique.
    - apply sort_sorted, ND, Hp.
    - apply sort_sorted, ND, n_pos.
    - intros x. rewrite !sort_In, !In_com by auto. reflexivity. }
  destruct (try_times_run D py_str ext n nm vw n_pos (rev (sort (com 0))) pr1) as (c2 & pr2 & S2 & E2).
  { intros p Hp. rewrite E1 by exact Hp. fold (com p). rewrite Same by exact Hp. reflexivity. }
  { apply rev_decreasing, sort_sorted, ND, n_pos. }
  assert (Lst : forall t, is_float t -> all_readable D py_str ext n nm vw t -> In t (rev (sort (com 0)))).
  { intros t Hf Ha. rewrite <- in_rev, sort_In, In_com by exact n_pos. intros q Hq.
    apply (scan_In _ _ _ _ _ (T q Hq)). right. destruct (Ha q Hq) as (d & Hd).
    destruct (HL q _ d Hq Hd) as (fs & Hfs & Hin). exists fs. eexists. split; [exact Hfs|]. split; [exact Hin|].
    unfold names. rewrite parse_pickle_name by auto. cbn [fst snd]. split; [reflexivity|apply float_str, Hf]. }
  assert (Flt : forall t, In t (rev (sort (com 0))) -> is_float t).
  { intros t Ht. rewrite <- in_rev, sort_In, In_com in Ht by exact n_pos.
    pose proof (Ht 0 n_pos) as H0. apply (scan_In _ _ _ _ _ (T 0 n_pos)) in H0.
    destruct H0 as [[]|(fs & f & _ & _ & _ & Hn)]. exact (float_range _ _ Hn). }
  exists (c1 + c2), pr2. split; [eapply steps_trans; eassumption|].
  destruct E2 as [(t & Ht & Ha & Mx & Ef)|[No Ef]].
  - left. exists t. split; [split; [apply Flt, Ht|exact Ha]|]. split; [|exact Ef].
    intros t' [Hf Hc]. apply Mx; [|exact Hc]. apply Lst; assumption.
  - right. split; [|exact Ef]. intros t [Hf Hc]. apply (No t); [|exact Hc]. apply Lst; assumption.
Qed.

(** Under every schedule the restart ends, and then all processes have loaded
    the greatest time that is complete on all of them, or all have raised
    because there is none. *)
Theorem C33_latest_complete : listed -> clean_dirs ->
  exists bound, forall k s, steps n k (start D n prg) s -> k <= bound /\
    (terminal n s ->
      (exists t, complete t /\ (forall t', complete t' -> (t' <= t)%R) /\
         forall p, p < n -> exists d, load D (vw p) (file p t) = Some d /\ procs s p = Ret (Some d)) \/
      ((forall t, ~ complete t) /\ forall p, p < n -> procs s p = Ret None)).
Proof.
  intros HL HC. destruct (run_exists HL HC) as (c & pr' & S1 & [(t & A & B & E)|[A E]]); exists c; intros k s S2.
  - destruct (every_schedule _ _ n _ (fun p => load D (vw p) (file p t)) c _ S1 E k s S2) as [Hk Ht].
    split; [exact Hk|]. intros Te. left. exists t. split; [exact A|]. split; [exact B|]. intros p Hp.
    destruct (proj2 A p Hp) as (d & Hd). exists d. split; [exact Hd|]. eapply eq_trans; [exact (Ht Te p Hp)|]. f_equal. exact Hd.
  - destruct (every_schedule _ _ n _ (fun p => None) c _ S1 E k s S2) as [Hk Ht].
    split; [exact Hk|]. intros Te. right. split; [exact A|]. exact (Ht Te).
Qed.

(** A crash while saving the checkpoint of time [t1]: each process has or has
    not written its file completely.  The restart takes [t1] if all have, and
    the previous complete time [t0] otherwise. *)
Theorem C33_crash_falls_back t0 t1 : listed -> clean_dirs ->
  complete t0 -> (t0 < t1)%R -> (forall t, complete t -> (t <= t0)%R \/ t = t1) ->
  forall k s, steps n k (start D n prg) s -> terminal n s ->
    exists t, (t = t1 /\ complete t1 \/ t = t0 /\ ~ complete t1) /\
      forall p, p < n -> exists d, load D (vw p) (file p t) = Some d /\ procs s p = Ret (Some d).
Proof.
  intros HL HC H0 Hlt Honly k s St Te.
  destruct (C33_latest_complete HL HC) as (b & Hb). destruct (Hb k s St) as [_ H].
  destruct (H Te) as [(t & Hc & Hm & Hr)|[No _]]; [|exfalso; exact (No t0 H0)].
  exists t. split; [|exact Hr].
  destruct (Honly t Hc) as [Hle| ->].
  - right. assert (t = t0) by (specialize (Hm t0 H0); lra). subst t. split; [reflexivity|].
    intros Hc1. specialize (Hm t1 Hc1). lra.
  - left. auto.
Qed.

(** With an explicit time: that time if it is complete, otherwise all raise. *)
Theorem C33_explicit_time t :
  exists bound, forall k s,
    steps n k (start D n (fun p => load_checkpoint_time D py_str dec ext n name (vw p) t p)) s -> k <= bound /\
    (terminal n s ->
      ((forall p, p < n -> readable p t) /\
         forall p, p < n -> exists d, load D (vw p) (file p t) = Some d /\ procs s p = Ret (Some d)) \/
      (~ (forall p, p < n -> readable p t) /\ forall p, p < n -> procs s p = Ret None)).
Proof.
  destruct (try_times_run D py_str ext n nm vw n_pos [t]
     (fun p => load_checkpoint_time D py_str dec ext n name (vw p) t p)) as (c & pr' & S1 & E).
  { intros p Hp. reflexivity. }
  { repeat constructor. }
  exists c. intros k s S2. destruct E as [(u & [<-|[]] & Ha & _ & Ef)|[No Ef]].
  - destruct (every_schedule _ _ n _ (fun p => load D (vw p) (file p t)) c _ S1 Ef k s S2) as [Hk Ht].
    split; [exact Hk|]. intros Te. left. split; [exact Ha|]. intros p Hp.
    destruct (Ha p Hp) as (d & Hd). exists d. split; [exact Hd|]. eapply eq_trans; [exact (Ht Te p Hp)|]. f_equal. exact Hd.
  - destruct (every_schedule _ _ n _ (fun p => None) c _ S1 Ef k s S2) as [Hk Ht].
    split; [exact Hk|]. intros Te. right. split; [|exact (Ht Te)]. exact (No t (or_introl eq_refl)).
Qed.
End C33.
Print Assumptions C33_latest_complete.
Print Assumptions C33_crash_falls_back.
Print Assumptions C33_explicit_time.

(** ** An instance: times 0 and 1, written "0.0" and "1.0". *)
Definition s2 (s : string) : str := list_ascii_of_string s.
Definition ex_float (s : str) : option R :=
  if str_eqb s (s2 "0.0") then Some 0%R else if str_eqb s (s2 "1.0") then Some 1%R else None.
Definition ex_str (t : R) : str := if Reqb t 0 then s2 "0.0" else s2 "1.0".
Definition ex_dec (k : nat) : str := match k with 0 => s2 "0" | 1 => s2 "1" | _ => s2 "2" end.
Definition ex_is_float (t : R) : Prop := t = 0%R \/ t = 1%R.

Lemma ex_float_str t : ex_is_float t -> ex_float (ex_str t) = Some t.
Proof.
  intros [-> | ->]; unfold ex_str; rdecide; reflexivity.
Qed.
Lemma ex_float_range s t : ex_float s = Some t -> ex_is_float t.
Proof.
  unfold ex_float, ex_is_float. destruct (str_eqb s _); [intros H; injection H; auto|].
  destruct (str_eqb s _); [intros H; injection H; auto|discriminate].
Qed.
Lemma ex_str_plain t : ex_is_float t -> ~ In underscore (ex_str t).
Proof. intros _. unfold ex_str. destruct (Reqb t 0); cbn; intuition discriminate. Qed.
Lemma ex_ext_plain : ~ In dot (s2 "pickle").
Proof. cbn. intuition discriminate. Qed.

(** Two processes, both with time 0; process 1 crashed while writing time 1
    (its file is truncated), process 0 finished. *)
Definition ex_name (p : nat) : str := proc_name ex_dec 2 (s2 "d") p.
Definition ex_file (p : nat) (t : string) : str := ex_name p ++ s2 "_" ++ s2 t ++ s2 ".pickle".
Definition ex_dir : list str := [ex_file 0 "0.0"; ex_file 0 "1.0"; ex_file 1 "0.0"; ex_file 1 "1.0"].
Definition ex_view (_ : nat) : view nat :=
  View nat [ex_dir] (fun f => if str_eqb f (ex_file 0 "0.0") then Some 10 else
                              if str_eqb f (ex_file 1 "0.0") then Some 20 else
                              if str_eqb f (ex_file 0 "1.0") then Some 11 else None).

Lemma ex_listed : listed nat 2 ex_view.
Proof.
  intros p f d _ H. exists ex_dir. split; [left; reflexivity|]. cbn [load ex_view] in H.
  destruct (str_eqb f (ex_file 0 "0.0")) eqn:E1; [apply str_eqb_spec in E1; subst; left; reflexivity|].
  destruct (str_eqb f (ex_file 1 "0.0")) eqn:E2; [apply str_eqb_spec in E2; subst; right; right; left; reflexivity|].
  destruct (str_eqb f (ex_file 0 "1.0")) eqn:E3; [apply str_eqb_spec in E3; subst; right; left; reflexivity|discriminate].
Qed.
Lemma ex_clean : clean_dirs nat ex_float ex_dec 2 (s2 "d") ex_view.
Proof.
  intros p Hp. split.
  - cbn. intros [H|[]]; discriminate.
  - intros fs f [<-|[]] Hf. destruct Hf as [<-|[<-|[<-|[<-|[]]]]]; vm_compute; intros _; eexists; reflexivity.
Qed.

(** The hypotheses of the theorems hold of it, and both processes restart from
    time 0. *)
Example ex_restart : forall k s,
  steps 2 k (start nat 2 (fun p => load_checkpoint_file nat ex_float ex_str ex_dec (s2 "pickle") 2 (s2 "d") (ex_view p) p)) s ->
  terminal 2 s -> procs s 0 = Ret (Some 10) /\ procs s 1 = Ret (Some 20).
Proof.
  intros k s St Te.
  assert (L0 : forall p, p < 2 -> pickle_name ex_str (s2 "pickle") (proc_name ex_dec 2 (s2 "d") p) 0 = ex_file p "0.0").
  { intros [|[|p]] Hp; try lia; unfold pickle_name, ex_str; rdecide; reflexivity. }
  assert (L1 : forall p, p < 2 -> pickle_name ex_str (s2 "pickle") (proc_name ex_dec 2 (s2 "d") p) 1 = ex_file p "1.0").
  { intros [|[|p]] Hp; try lia; unfold pickle_name, ex_str; rdecide; reflexivity. }
  destruct (C33_crash_falls_back nat ex_float ex_str ex_dec (s2 "pickle") ex_is_float ex_float_str ex_float_range
    ex_str_plain ex_ext_plain 2 (s2 "d") ex_view ltac:(lia) 0%R 1%R ex_listed ex_clean) with (k := k) (s := s)
    as (t & Ht & Hr); try assumption.
  - split; [left; reflexivity|]. intros p Hp. rewrite L0 by exact Hp.
    destruct p as [|[|p]]; try lia; vm_compute; eexists; reflexivity.
  - lra.
  - intros t [[-> | ->] _]; [left; lra|right; reflexivity].
  - assert (t = 0%R) as ->.
    { destruct Ht as [[-> [_ H]]|[-> _]]; [|reflexivity]. exfalso.
      destruct (H 1 ltac:(lia)) as (d & Hd). rewrite L1 in Hd by lia. vm_compute in Hd. discriminate. }
    split.
    + destruct (Hr 0 ltac:(lia)) as (d & Hd & ->). rewrite L0 in Hd by lia. vm_compute in Hd. injection Hd as <-. reflexivity.
    + destruct (Hr 1 ltac:(lia)) as (d & Hd & ->). rewrite L0 in Hd by lia. vm_compute in Hd. injection Hd as <-. reflexivity.
Qed.
Print Assumptions ex_restart.

(** ** Where the stated property fails *)

(** An empty subdirectory of checkpoint_dir makes the restart raise although a
    complete checkpoint exists: lines 93-94 return None for it. *)
Definition one_view (dirs : list (list str)) : view nat :=
  View nat dirs (fun f => if str_eqb f (s2 "d_0.0.pickle") then Some 10 else None).
Theorem C33_empty_subdirectory_refuted :
  load nat (one_view [[s2 "d_0.0.pickle"]; []]) (s2 "d_0.0.pickle") = Some 10 /\
  load_checkpoint_file nat ex_float ex_str ex_dec (s2 "pickle") 1 (s2 "d")
    (one_view [[s2 "d_0.0.pickle"]; []]) 0 = Ret None.
Proof. split; reflexivity. Qed.
Print Assumptions C33_empty_subdirectory_refuted.

(** So does any other file called <name>_<not a number>, such as d_old.sww:
    float("old") raises in line 102. *)
Theorem C33_other_file_refuted :
  load nat (one_view [[s2 "d_0.0.pickle"; s2 "d_old.sww"]]) (s2 "d_0.0.pickle") = Some 10 /\
  load_checkpoint_file nat ex_float ex_str ex_dec (s2 "pickle") 1 (s2 "d")
    (one_view [[s2 "d_0.0.pickle"; s2 "d_old.sww"]]) 0 = Ret None.
Proof. split; reflexivity. Qed.
Print Assumptions C33_other_file_refuted.

(** When the directory of one process has no files, that process raises before
    the exchange and the other waits for its message for ever. *)
Definition local_view (p : nat) : view nat :=
  match p with
  | 0 => View nat [[]] (fun _ => None)
  | _ => View nat [[ex_file 1 "0.0"]] (fun f => if str_eqb f (ex_file 1 "0.0") then Some 20 else None)
  end.
Theorem C33_waits_forever_refuted : exists k s,
  steps 2 k (start nat 2 (fun p => load_checkpoint_file nat ex_float ex_str ex_dec (s2 "pickle") 2 (s2 "d") (local_view p) p)) s /\
  terminal 2 s /\ procs s 0 = Ret None /\ (forall r, procs s 1 <> Ret r).
Proof.
  eexists 1, _. split; [|split].
  - eapply steps_cons; [|eapply (step_send _ _ 1)|apply steps_refl].
    + lia.
    + cbv [start procs]. unfold load_checkpoint_file.
      replace (scan ex_float (proc_name ex_dec 2 (s2 "d") 1) (walk nat (local_view 1)) []) with (Some [0%R]).
      * cbn. reflexivity.
      * cbn [local_view walk scan scan_files].
        replace (str_eqb _ _) with true by (vm_compute; reflexivity).
        replace (ex_float _) with (Some 0%R) by (vm_compute; reflexivity). reflexivity.
  - intros i t Hi St. inversion St as [s' d m k E|s' j k m l E F]; subst; cbn [procs chan start] in *.
    + destruct i as [|[|i]]; [cbn in E; discriminate|cbn in E; discriminate|lia].
    + destruct i as [|[|i]]; [cbn in E; discriminate| |lia].
      cbn in E. injection E as <- _. cbn in F. discriminate.
  - split; [reflexivity|]. intros r. cbn. discriminate.
Qed.
Print Assumptions C33_waits_forever_refuted.
