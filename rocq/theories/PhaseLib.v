(** Patterns of communication in which a group of processes takes part: values
    to one process, values from one process to several, a sum over several.
    The programs are those of [KahnLib], the runs those of [SyncLib]; the
    lemmas say what every process knows after such an exchange. *)
From Coq Require Import Reals List Arith Lia Bool.
From Verif Require Import ArrayLib KahnLib SyncLib.
Import ListNotations.

Definition mem (i : nat) (l : list nat) : bool := existsb (Nat.eqb i) l.
Lemma mem_true i l : mem i l = true <-> In i l.
Proof.
  unfold mem. rewrite existsb_exists. split.
  - intros (x & H & E). apply Nat.eqb_eq in E. now subst.
  - intros H. exists i. split; [assumption | apply Nat.eqb_refl].
Qed.
Lemma mem_false i l : mem i l = false <-> ~ In i l.
Proof. rewrite <- mem_true. destruct (mem i l); split; congruence. Qed.
Definition without (i : nat) (l : list nat) : list nat := filter (fun j => negb (Nat.eqb j i)) l.
Lemma in_without i j l : In j (without i l) <-> In j l /\ j <> i.
Proof.
  unfold without. rewrite filter_In. destruct (Nat.eqb_spec j i) as [-> | N]; cbn; intuition congruence.
Qed.
Lemma NoDup_without i l : NoDup l -> NoDup (without i l).
Proof. apply NoDup_filter. Qed.

Section Phases.
Context {M A : Type}.
Local Notation prog := (KahnLib.prog M A).

(** if me == dst: (if me != src: receive from src) elif me == src: send *)
Definition to_one (me src dst c : nat) (vals : list M) (K : option (list M) -> prog) : prog :=
  if Nat.eqb me dst then
    if Nat.eqb me src then K (Some vals) else recv_list src c [] (fun vs => K (Some vs))
  else if Nat.eqb me src then send_list dst vals (K None)
  else K None.

(** if me == src: for i in dsts: (if i != src: send) elif me in dsts: receive *)
Definition to_all (me src : nat) (dsts : list nat) (c : nat) (vals : list M) (K : option (list M) -> prog) : prog :=
  if Nat.eqb me src then scatter (without src dsts) (fun _ => vals) (K (Some vals))
  else if mem me dsts then recv_list src c [] (fun vs => K (Some vs))
  else K None.

(** [phase n l s t]: there is a run from [s] to [t] in which only processes of
    [l] take part. *)
Definition phase (n : nat) (l : list nat) (s t : nat -> prog) : Prop :=
  (exists c, syncs n c s t) /\ forall p, ~ In p l -> t p = s p.

Lemma phase_refl n l s : phase n l s s.
Proof. split; [exists 0; apply syncs_refl | auto]. Qed.
Lemma phase_trans n l s t u : phase n l s t -> phase n l t u -> phase n l s u.
Proof.
  intros [[c1 H1] E1] [[c2 H2] E2]. split; [exists (c1 + c2); eapply syncs_trans; eassumption |].
  intros p Hp. now rewrite E2, E1.
Qed.
Lemma phase_sub n l l' s t : incl l l' -> phase n l s t -> phase n l' s t.
Proof. intros I [H E]. split; [exact H |]. intros p Hp. apply E. auto. Qed.

Section Group.
Variables (n : nat) (l : list nat).
Hypothesis HN : forall p, In p l -> p < n.

Lemma to_one_phase src dst c (vals : nat -> list M) (K : nat -> option (list M) -> prog) s :
  In src l -> In dst l -> length (vals src) = c ->
  (forall p, In p l -> s p = to_one p src dst c (vals p) (K p)) ->
  exists t, phase n l s t /\ forall p, In p l -> t p = K p (if Nat.eqb p dst then Some (vals src) else None).
Proof using HN.
  intros Hs Hd L H. unfold to_one in H.
  destruct (Nat.eq_dec src dst) as [-> | N].
  - exists s. split; [apply phase_refl |]. intros p Hp. rewrite H by assumption.
    destruct (Nat.eqb_spec p dst) as [-> | N]; [reflexivity |]. reflexivity.
  - destruct (transfer n src dst (vals src) s (K src None) [] (fun vs => K dst (Some vs)) (HN src Hs) (HN dst Hd) N)
      as (c1 & t & T1 & T2 & T3 & T4).
    + rewrite H by assumption. rewrite Nat.eqb_refl. destruct (Nat.eqb_spec src dst); [contradiction | reflexivity].
    + rewrite H by assumption. rewrite Nat.eqb_refl, L. destruct (Nat.eqb_spec dst src); [congruence | reflexivity].
    + exists t. split.
      * split; [now exists c1 |]. intros p Hp. apply T4; intros ->; contradiction.
      * intros p Hp. destruct (Nat.eqb_spec p dst) as [-> | Nd]; [exact T3 |].
        destruct (Nat.eq_dec p src) as [-> | Ns]; [exact T2 |].
        rewrite T4, H by assumption. destruct (Nat.eqb_spec p dst); [contradiction |].
        destruct (Nat.eqb_spec p src); [contradiction | reflexivity].
Qed.

Lemma to_all_phase src dsts c (vals : nat -> list M) (K : nat -> option (list M) -> prog) s :
  In src l -> incl dsts l -> NoDup dsts -> length (vals src) = c ->
  (forall p, In p l -> s p = to_all p src dsts c (vals p) (K p)) ->
  exists t, phase n l s t /\ forall p, In p l ->
    t p = K p (if Nat.eqb p src || mem p dsts then Some (vals src) else None).
Proof using HN.
  intros Hs Hd ND L H. unfold to_all in H.
  destruct (scatter_run n src (fun _ => vals src) (without src dsts) s (K src (Some (vals src)))
    (fun i vs => K i (Some vs)) (HN src Hs) (NoDup_without _ _ ND)) as (c1 & t & T1 & T2 & T3 & T4).
  - intros i Hi. apply in_without in Hi as [Hi Ni]. split; [apply HN, Hd, Hi | exact Ni].
  - intros i Hi. apply in_without in Hi as [Hi Ni]. rewrite H by (apply Hd, Hi).
    destruct (Nat.eqb_spec i src); [contradiction |]. rewrite (proj2 (mem_true i dsts) Hi), L. reflexivity.
  - rewrite H by assumption. now rewrite Nat.eqb_refl.
  - exists t. split.
    + split; [now exists c1 |]. intros p Hp. apply T4; [intros ->; contradiction |].
      intros X. apply in_without in X as [X _]. apply Hp, Hd, X.
    + intros p Hp. destruct (Nat.eqb_spec p src) as [-> | Ns]; [exact T2 |]. cbn [orb].
      destruct (mem p dsts) eqn:E.
      * apply mem_true in E. apply T3. apply in_without. auto.
      * rewrite T4, H by (try assumption; rewrite in_without; apply mem_false in E; tauto).
        destruct (Nat.eqb_spec p src); [contradiction |]. now rewrite E.
Qed.
End Group.

(** ** Sums *)
Section Sums.
Variable num : R -> M.
Variable num_of : M -> option R.
Hypothesis num_of_num : forall x, num_of (num x) = Some x.

Fixpoint numbers_of (vs : list (list M)) : option (list R) :=
  match vs with
  | [] => Some []
  | [m] :: vs => match num_of m, numbers_of vs with Some x, Some l => Some (x :: l) | _, _ => None end
  | _ => None
  end.
Lemma numbers_of_map (x : nat -> R) l : numbers_of (map (fun i => [num (x i)]) l) = Some (map x l).
Proof using num_of_num.
  induction l as [| a l IH]; [reflexivity |]. cbn [map numbers_of]. now rewrite num_of_num, IH.
Qed.

(** The master [m] of the group [ps] adds up the numbers of all of them, the
    others send their own and keep it. *)
Definition sum_at (me m : nat) (ps : list nat) (x : R) (K : R -> prog) : prog :=
  if Nat.eqb me m then
    gather (without m ps) 1 [] (fun vs => match numbers_of vs with
                                          | Some l => K (fold_left Rplus l x)
                                          | None => Fail
                                          end)
  else Send m (num x) (K x).

Lemma sum_at_phase n ps m (x : nat -> R) (K : nat -> R -> prog) s :
  (forall p, In p ps -> p < n) -> NoDup ps -> In m ps ->
  (forall p, In p ps -> s p = sum_at p m ps (x p) (K p)) ->
  exists t, phase n ps s t /\ forall p, In p ps ->
    t p = K p (if Nat.eqb p m then fold_left Rplus (map x (without m ps)) (x m) else x p).
Proof using num_of_num.
  intros HN ND Hm H. unfold sum_at in H.
  destruct (gather_run n m (fun i => [num (x i)]) 1 (without m ps) s (fun i => K i (x i)) []
    (fun vs => match numbers_of vs with Some l => K m (fold_left Rplus l (x m)) | None => Fail end)
    (HN m Hm) (NoDup_without _ _ ND)) as (c1 & t & T1 & T2 & T3 & T4).
  - intros i Hi. apply in_without in Hi as [Hi Ni]. auto.
  - intros i Hi. apply in_without in Hi as [Hi Ni]. rewrite H by assumption.
    destruct (Nat.eqb_spec i m); [contradiction | reflexivity].
  - rewrite H by assumption. now rewrite Nat.eqb_refl.
  - exists t. split.
    + split; [now exists c1 |]. intros p Hp. apply T4; [intros ->; contradiction |].
      intros X. apply in_without in X as [X _]. contradiction.
    + intros p Hp. destruct (Nat.eqb_spec p m) as [-> | N].
      * rewrite T2. cbn [app]. now rewrite numbers_of_map.
      * apply T3. apply in_without. auto.
Qed.
End Sums.
End Phases.
