(** Small library on the standard reals shared by all numeric models:
    boolean comparisons (the C and Python relational operators on
    [double]/[float], without NaN) and sums over lists. *)
From Coq Require Import Reals Lra Lia List Bool ZArith.
Import ListNotations.
Local Open Scope R_scope.

(** [x < y] as evaluated by the code. *)
Definition Rltb (x y : R) : bool := if Rlt_dec x y then true else false.
(** [x <= y] as evaluated by the code. *)
Definition Rleb (x y : R) : bool := if Rle_dec x y then true else false.
(** [x == y] as evaluated by the code. *)
Definition Reqb (x y : R) : bool := if Req_EM_T x y then true else false.

Lemma Rltb_spec x y : reflect (x < y) (Rltb x y).
Proof. unfold Rltb; destruct (Rlt_dec x y); constructor; lra. Qed.
Lemma Rleb_spec x y : reflect (x <= y) (Rleb x y).
Proof. unfold Rleb; destruct (Rle_dec x y); constructor; lra. Qed.
Lemma Reqb_spec x y : reflect (x = y) (Reqb x y).
Proof. unfold Reqb; destruct (Req_EM_T x y); constructor; auto. Qed.

Lemma Rltb_true x y : Rltb x y = true <-> x < y.
Proof. destruct (Rltb_spec x y); split; intros; auto; try discriminate; lra. Qed.
Lemma Rltb_false x y : Rltb x y = false <-> y <= x.
Proof. destruct (Rltb_spec x y); split; intros; auto; try discriminate; lra. Qed.
Lemma Rleb_true x y : Rleb x y = true <-> x <= y.
Proof. destruct (Rleb_spec x y); split; intros; auto; try discriminate; lra. Qed.
Lemma Rleb_false x y : Rleb x y = false <-> y < x.
Proof. destruct (Rleb_spec x y); split; intros; auto; try discriminate; lra. Qed.
Lemma Reqb_true x y : Reqb x y = true <-> x = y.
Proof. destruct (Reqb_spec x y); split; intros; auto; discriminate. Qed.
Lemma Reqb_false x y : Reqb x y = false <-> x <> y.
Proof. destruct (Reqb_spec x y); split; intros; auto; try discriminate; contradiction. Qed.

(** Destruct every boolean real comparison in sight, adding its meaning to
    the context. *)
Ltac rdestruct :=
  repeat match goal with
  | |- context [Rltb ?a ?b] => destruct (Rltb_spec a b); simpl
  | |- context [Rleb ?a ?b] => destruct (Rleb_spec a b); simpl
  | |- context [Reqb ?a ?b] => destruct (Reqb_spec a b); simpl
  | H : context [Rltb ?a ?b] |- _ => destruct (Rltb_spec a b); simpl in H
  | H : context [Rleb ?a ?b] |- _ => destruct (Rleb_spec a b); simpl in H
  | H : context [Reqb ?a ?b] |- _ => destruct (Reqb_spec a b); simpl in H
  end.

(** Evaluate comparisons decided by [lra] (used in concrete examples). *)
Ltac rdecide :=
  repeat match goal with
  | |- context [Rltb ?a ?b] =>
      first [ rewrite (proj2 (Rltb_true a b)) by lra
            | rewrite (proj2 (Rltb_false a b)) by lra ]
  | |- context [Rleb ?a ?b] =>
      first [ rewrite (proj2 (Rleb_true a b)) by lra
            | rewrite (proj2 (Rleb_false a b)) by lra ]
  | |- context [Reqb ?a ?b] =>
      first [ rewrite (proj2 (Reqb_true a b)) by lra
            | rewrite (proj2 (Reqb_false a b)) by lra ]
  end.

(** Sum of a list of reals. *)
Fixpoint Rsum (l : list R) : R :=
  match l with
  | [] => 0
  | x :: t => x + Rsum t
  end.

Lemma Rsum_app l1 l2 : Rsum (l1 ++ l2) = Rsum l1 + Rsum l2.
Proof. induction l1; simpl; lra. Qed.

Lemma Rsum_map_plus {A} (f g : A -> R) l :
  Rsum (map (fun x => f x + g x) l) = Rsum (map f l) + Rsum (map g l).
Proof. induction l; simpl; lra. Qed.

Lemma Rsum_map_minus {A} (f g : A -> R) l :
  Rsum (map (fun x => f x - g x) l) = Rsum (map f l) - Rsum (map g l).
Proof. induction l; simpl; lra. Qed.

Lemma Rsum_map_scal {A} (c : R) (f : A -> R) l :
  Rsum (map (fun x => c * f x) l) = c * Rsum (map f l).
Proof. induction l; simpl; lra. Qed.

Lemma Rsum_map_ext_in {A} (f g : A -> R) l :
  (forall x, In x l -> f x = g x) -> Rsum (map f l) = Rsum (map g l).
Proof.
  induction l; simpl; intros H; [reflexivity|].
  rewrite H by auto. rewrite IHl; auto.
Qed.

Lemma Rsum_map_zero {A} (l : list A) (f : A -> R) :
  (forall x, In x l -> f x = 0) -> Rsum (map f l) = 0.
Proof. induction l; simpl; intros H; [reflexivity|]. rewrite H, IHl; auto; lra. Qed.

Lemma Rsum_nonneg l : (forall x, In x l -> 0 <= x) -> 0 <= Rsum l.
Proof.
  induction l; simpl; intros H; [lra|].
  pose proof (H a (or_introl eq_refl)). assert (0 <= Rsum l) by auto. lra.
Qed.

Lemma Rsum_pos l : l <> [] -> (forall x, In x l -> 0 < x) -> 0 < Rsum l.
Proof.
  destruct l as [|a l]; [congruence|]. intros _ H. simpl.
  pose proof (H a (or_introl eq_refl)).
  assert (0 <= Rsum l) by (apply Rsum_nonneg; intros; apply Rlt_le, H; right; auto).
  lra.
Qed.

Lemma Rsum_rev l : Rsum (rev l) = Rsum l.
Proof. induction l; simpl; [reflexivity|]. rewrite Rsum_app; simpl; lra. Qed.

From Coq Require Import Permutation.

Lemma Rsum_perm l1 l2 : Permutation l1 l2 -> Rsum l1 = Rsum l2.
Proof. induction 1; simpl; lra. Qed.

(** Archimedean property in the form used for step counts. *)
Lemma INR_archimed (x y : R) : 0 < x -> exists n : nat, y < INR n * x.
Proof.
  intros Hx. destruct (archimed (y / x)) as [H _].
  exists (Z.to_nat (Z.max 0 (up (y / x)))).
  rewrite INR_IZR_INZ, Z2Nat.id by lia.
  assert (IZR (up (y / x)) <= IZR (Z.max 0 (up (y / x)))) by (apply IZR_le; lia).
  apply Rmult_lt_reg_r with (/ x); [apply Rinv_0_lt_compat; auto|].
  rewrite Rmult_assoc, Rinv_r, Rmult_1_r by lra. fold (y / x). lra.
Qed.
