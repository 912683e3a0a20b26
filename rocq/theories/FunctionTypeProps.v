(** C116: types of functions, and functions of time with defaults *)
From Coq Require Import Reals Bool Lra.
From Verif Require Import FunctionTypeModel.
Local Open Scope R_scope.

(** A function that accepts the numbers of arguments of [accepts]: a call with
    another number of arguments is a TypeError, a call with one of these is
    not. *)
Definition takes {V} (f : thing V) (accepts : nat -> bool) : Prop :=
  match f with
  | Callable xyt xy time =>
      (xyt = Type_error <-> accepts 3%nat = false) /\ (xy = Type_error <-> accepts 2%nat = false) /\ (forall t, time t = Type_error <-> accepts 1%nat = false)
  | _ => False
  end.
Definition calm {V} (o : outcome V) : Prop := match o with Too_early | Too_late | Other => False | _ => True end.

(** The type is that of the greatest number of arguments that is accepted, for
    functions that give a value or a ValueError on the test arguments; functions
    of time may also be out of range. *)
Theorem C116_type_partial {V} (xyt xy : outcome V) time accepts :
  takes (Callable xyt xy time) accepts -> calm xyt -> calm xy -> time 0 <> Other ->
  determine_function_type (Callable xyt xy time) =
    if accepts 3%nat then Value Is_xyt else if accepts 2%nat then Value Is_xy else if accepts 1%nat then Value Is_t else Other.
Proof.
  intros (A & B & C) X Y T. specialize (C 0). cbn. destruct (accepts 3%nat).
  - destruct xyt; cbn in X; try tauto. exfalso. assert (true = false) by (apply A; reflexivity). discriminate.
  - rewrite (proj2 A eq_refl). destruct (accepts 2%nat).
    + destruct xy; cbn in Y; try tauto. exfalso. assert (true = false) by (apply B; reflexivity). discriminate.
    + rewrite (proj2 B eq_refl). unfold time_kind. destruct (accepts 1%nat).
      * destruct (time 0); try tauto. exfalso. assert (true = false) by (apply C; reflexivity). discriminate.
      * rewrite (proj2 C eq_refl). reflexivity.
Qed.
Print Assumptions C116_type_partial.

(** Values that cannot be called have their own types. *)
Theorem C116_values {V} (f : thing V) k : determine_function_type f = Value k ->
  (k = Is_none <-> f = Nothing) /\ (k = Is_scalar <-> exists v, f = Number v) /\ (k = Is_array <-> exists v, f = Sequence v) /\
  (k = Is_t \/ k = Is_xy \/ k = Is_xyt <-> exists a b c, f = Callable a b c).
Proof.
  destruct f as [|v|v|a b c|]; cbn; intros H.
  - injection H; intros <-. repeat split; try discriminate; try (intros (? & ?); discriminate); try (intros [?|[?|?]]; discriminate); try (intros (? & ? & ? & ?); discriminate).
  - injection H; intros <-. repeat split; try discriminate; eauto; try (intros (? & ?); discriminate); try (intros [?|[?|?]]; discriminate); try (intros (? & ? & ? & ?); discriminate).
  - injection H; intros <-. repeat split; try discriminate; eauto; try (intros (? & ?); discriminate); try (intros [?|[?|?]]; discriminate); try (intros (? & ? & ? & ?); discriminate).
  - assert (K : k = Is_t \/ k = Is_xy \/ k = Is_xyt).
    { destruct a; try discriminate; try (injection H; intros <-; auto). destruct b; try discriminate; try (injection H; intros <-; auto).
      unfold time_kind in H. destruct (c 0); try discriminate; injection H; intros <-; auto. }
    repeat split; try (intros ->; destruct K as [K|[K|K]]; discriminate); try discriminate; try (intros (? & ?); discriminate); [eauto|auto].
  - discriminate.
Qed.
Print Assumptions C116_values.

(** A function of place and time that is out of range at time 0 has no type: the
    exception is not caught, unlike that of a function of time alone. *)
Theorem C116_range_refuted {V} (xy : outcome V) time :
  determine_function_type (Callable Too_early xy time) = Too_early /\ determine_function_type (Callable Too_late xy time) = Too_late /\
  determine_function_type (Callable Type_error Type_error (fun _ => @Too_early V)) = Value Is_t.
Proof. repeat split. Qed.
Print Assumptions C116_range_refuted.
(** A TypeError inside a function of place and time passes as a wrong number of
    arguments. *)
Theorem C116_inside_refuted {V} : determine_function_type (Callable (@Type_error V) Type_error (fun _ => Type_error)) = Other.
Proof. reflexivity. Qed.
Print Assumptions C116_inside_refuted.

(** In range the value is that of the function; before and after it that of the
    default of that side, without which the exception is raised again; other
    exceptions are raised. *)
Theorem C116_evaluate {V} (g : R -> outcome V) t left right o : g t = o ->
  (o <> Too_early -> o <> Too_late -> evaluate_temporal_function (inr g) t left right = o) /\
  (o = Too_early -> (left = No_default -> evaluate_temporal_function (inr g) t left right = Too_early) /\
     (forall v, left = Constant v -> evaluate_temporal_function (inr g) t left right = Value v) /\
     (forall h, left = Function h -> evaluate_temporal_function (inr g) t left right = h t)) /\
  (o = Too_late -> (right = No_default -> evaluate_temporal_function (inr g) t left right = Too_late) /\
     (forall v, right = Constant v -> evaluate_temporal_function (inr g) t left right = Value v) /\
     (forall h, right = Function h -> evaluate_temporal_function (inr g) t left right = h t)) /\
  (forall v, evaluate_temporal_function (inl v) t left right = @Value V v).
Proof.
  intros H. unfold evaluate_temporal_function. rewrite H. split; [|split; [|split; [|reflexivity]]].
  - destruct o; congruence.
  - intros ->. repeat split; intros; subst; reflexivity.
  - intros ->. repeat split; intros; subst; reflexivity.
Qed.
Print Assumptions C116_evaluate.
(** The default of the other side is not used. *)
Theorem C116_sides {V} (f : V + (R -> outcome V)) t left left' right right' :
  ((forall g, f = inr g -> g t <> Too_late) -> evaluate_temporal_function f t left right = evaluate_temporal_function f t left right') /\
  ((forall g, f = inr g -> g t <> Too_early) -> evaluate_temporal_function f t left right = evaluate_temporal_function f t left' right).
Proof. destruct f as [v|g]; [split; reflexivity|]. split; intros H; specialize (H g eq_refl); cbn; destruct (g t); try reflexivity; congruence. Qed.
Print Assumptions C116_sides.

(** Cases *)
Example C116_type_case : determine_function_type (Callable Type_error Type_error (fun t => Value t)) = Value Is_t.
Proof.
  refine (C116_type_partial (V := R) _ _ _ (fun n => Nat.eqb n 1) _ _ _ _); cbn; try exact I; [|discriminate].
  repeat split; try discriminate; auto.
Qed.
Example C116_values_case : determine_function_type (Number 1) = Value Is_scalar /\ determine_function_type (Sequence 1) = Value Is_array.
Proof. split; reflexivity. Qed.
Definition data (t : R) : outcome R := if Rlt_dec t 0 then Too_early else if Rlt_dec 10 t then Too_late else Value (2 * t).
Example C116_evaluate_case : evaluate_temporal_function (inr data) (-1) (Constant 7) No_default = Value 7 /\
  evaluate_temporal_function (inr data) 11 (Constant 7) No_default = Too_late.
Proof.
  split.
  - destruct (C116_evaluate data (-1) (Constant 7) No_default Too_early) as (_ & A & _); [unfold data; destruct (Rlt_dec (-1) 0); [reflexivity|lra]|].
    apply (A eq_refl). reflexivity.
  - destruct (C116_evaluate data 11 (Constant 7) No_default Too_late) as (_ & _ & A & _).
    + unfold data. destruct (Rlt_dec 11 0); [lra|]. destruct (Rlt_dec 10 11); [reflexivity|lra].
    + apply (A eq_refl). reflexivity.
Qed.
Example C116_sides_case : evaluate_temporal_function (inr data) (-1) (Constant 7) No_default = evaluate_temporal_function (inr data) (-1) (Constant 7) (Constant 3).
Proof. apply (C116_sides _ _ _ No_default). intros g H. injection H; intros <-. unfold data. destruct (Rlt_dec (-1) 0); [discriminate|lra]. Qed.
