(** Lemmas about the recording of extrema. *)
From Coq Require Import Reals List ZArith Lra Lia Bool Arith.
From Verif Require Import RealLib ExtremaModel.
Import ListNotations.
Local Open Scope R_scope.

(** ** argbest for a strict total preorder on R *)

(** [better] is a strict order whose complement is transitive. *)
Definition strict_order (better : R -> R -> bool) : Prop :=
  (forall a, better a a = false) /\
  (forall a b c, better b a = false -> better c b = false -> better c a = false) /\
  (forall a b, better a b = true -> better b a = false).

Lemma greater_strict : strict_order greater.
Proof.
  unfold greater. repeat split; intros *.
  - apply Rltb_false. lra.
  - rewrite !Rltb_false. lra.
  - rewrite Rltb_true, Rltb_false. lra.
Qed.
Lemma smaller_strict : strict_order smaller.
Proof.
  unfold smaller. repeat split; intros *.
  - apply Rltb_false. lra.
  - rewrite !Rltb_false. lra.
  - rewrite Rltb_true, Rltb_false. lra.
Qed.

Lemma argbest_from_spec better : strict_order better -> forall l pre bi bv,
  nth_error pre bi = Some bv -> (forall v, In v pre -> better v bv = false) ->
  exists v, nth_error (pre ++ l) (argbest_from better l (length pre) bi bv) = Some v /\
            forall u, In u (pre ++ l) -> better u v = false.
Proof.
  intros (Irr & Tr & As). induction l as [|a l IH]; intros pre bi bv Hb Hm; cbn [argbest_from].
  - rewrite app_nil_r. eauto.
  - replace (pre ++ a :: l) with ((pre ++ [a]) ++ l) by (rewrite <- app_assoc; reflexivity).
    replace (S (length pre)) with (length (pre ++ [a])) by (rewrite app_length; cbn; lia).
    destruct (better a bv) eqn:E.
    + apply IH.
      * rewrite nth_error_app2, Nat.sub_diag by lia. reflexivity.
      * intros v Hv. apply in_app_iff in Hv as [Hv|[<-|[]]]; [|apply Irr].
        apply (Tr a bv v); auto.
    + apply IH.
      * rewrite nth_error_app1; auto. apply nth_error_Some. congruence.
      * intros v Hv. apply in_app_iff in Hv as [Hv|[<-|[]]]; auto.
Qed.

Lemma argbest_spec better l : strict_order better -> l <> [] ->
  exists i v, argbest better l = Some i /\ nth_error l i = Some v /\ forall u, In u l -> better u v = false.
Proof.
  intros S Hl. destruct l as [|a l]; [congruence|]. cbn [argbest].
  destruct (argbest_from_spec better S l [a] 0 a eq_refl) as (v & Hv & Hm).
  - intros v [<-|[]]. apply (proj1 S).
  - eauto.
Qed.

Lemma take_spec V : forall ids, (forall i, In i ids -> (i < length V)%nat) ->
  exists W, take V ids = Some W /\ length W = length ids /\ forall k i, nth_error ids k = Some i -> nth_error W k = nth_error V i.
Proof.
  induction ids as [|i ids IH]; intros H; cbn [take].
  - exists []. split; [reflexivity|]. split; [reflexivity|]. intros [|k] i; discriminate.
  - destruct IH as (W & E & L & N); [intros; apply H; right; auto|].
    destruct (nth_error V i) as [v|] eqn:Ev; [|apply nth_error_None in Ev; specialize (H i (or_introl eq_refl)); lia].
    rewrite E. exists (v :: W). split; [reflexivity|]. split; [cbn; lia|].
    intros [|k] j Hj; cbn in *; [injection Hj as <-; auto|auto].
Qed.

(** The triangles that are monitored. *)
Definition monitored (indices : option (list nat)) (n : nat) (k : nat) : Prop :=
  match indices with None => (k < n)%nat | Some ids => In k ids end.

Definition indices_ok (indices : option (list nat)) (n : nat) : Prop :=
  match indices with None => (0 < n)%nat | Some ids => ids <> [] /\ forall i, In i ids -> (i < n)%nat end.

Lemma extremum_index_spec better V indices : strict_order better -> indices_ok indices (length V) ->
  exists i v, get_extremum_index better V indices = Some i /\ monitored indices (length V) i /\ nth_error V i = Some v /\
  forall k u, monitored indices (length V) k -> nth_error V k = Some u -> better u v = false.
Proof.
  intros S Ok. destruct indices as [ids|]; cbn [get_extremum_index monitored indices_ok] in *.
  - destruct Ok as (Ne & Lt). destruct (take_spec V ids Lt) as (W & E & L & N). rewrite E.
    destruct (argbest_spec better W S) as (i & v & A & B & C).
    { intros ->. destruct ids; [congruence|discriminate]. }
    rewrite A. assert (Hi : (i < length ids)%nat) by (rewrite <- L; apply nth_error_Some; congruence).
    destruct (nth_error ids i) as [j|] eqn:Ej; [|apply nth_error_None in Ej; lia].
    exists j, v. split; [reflexivity|]. split; [eapply nth_error_In; eauto|].
    split; [rewrite <- (N i j Ej); exact B|].
    intros k u Hk Hu. apply In_nth_error in Hk as (m & Hm). apply C.
    eapply nth_error_In. rewrite (N m k Hm). exact Hu.
  - destruct (argbest_spec better V S) as (i & v & A & B & C); [intros ->; cbn in Ok; lia|].
    exists i, v. split; [exact A|]. split; [apply nth_error_Some; congruence|]. split; [exact B|].
    intros k u _ Hu. apply C. eapply nth_error_In; eauto.
Qed.

(** ** the running maximum *)

Lemma maximum_length : forall xs ys, length xs = length ys -> length (maximum xs ys) = length xs.
Proof. induction xs as [|x xs IH]; intros [|y ys] H; cbn in *; auto; discriminate. Qed.

Lemma maximum_nth : forall xs ys k x y, nth_error xs k = Some x -> nth_error ys k = Some y ->
  nth_error (maximum xs ys) k = Some (Rmax x y).
Proof.
  induction xs as [|x0 xs IH]; intros [|y0 ys] [|k] x y Hx Hy; cbn in *; try discriminate; [congruence|auto].
Qed.

(** [m] is the greatest of [init] and the elements of [l]. *)
Definition is_max (init : R) (l : list R) (m : R) : Prop :=
  init <= m /\ (forall v, In v l -> v <= m) /\ (m = init \/ In m l).

Lemma is_max_snoc init l m v : is_max init l m -> is_max init (l ++ [v]) (Rmax m v).
Proof.
  intros (A & B & C). pose proof (Rmax_l m v). pose proof (Rmax_r m v). split; [lra|]. split.
  - intros u Hu. apply in_app_iff in Hu as [Hu|[<-|[]]]; [specialize (B u Hu); lra|lra].
  - destruct (Rle_dec m v) as [L|L].
    + rewrite Rmax_right by lra. right. apply in_app_iff. right. left. reflexivity.
    + rewrite Rmax_left by lra. destruct C as [C|C]; [auto|right; apply in_app_iff; auto].
Qed.
