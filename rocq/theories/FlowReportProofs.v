(** Lemmas about the report of boundary flows and the inflow boundary *)
From Coq Require Import String Reals List Arith Bool Lia Lra Permutation.
From Verif Require Import RealLib PolygonModel FlowReportModel.
Import ListNotations.
Local Open Scope R_scope.

(** The value of a tag, 0 without an entry *)
Fixpoint value_of (tag : string) (flows : list (string * R)) : R :=
  match flows with [] => 0 | (t, v) :: rest => if String.eqb t tag then v else value_of tag rest end.
Lemma add_value tag t v flows : value_of tag (add_flow t v flows) = value_of tag flows + (if String.eqb t tag then v else 0).
Proof.
  induction flows as [|[s w] flows IH]; cbn [add_flow value_of].
  - destruct (String.eqb t tag); lra.
  - destruct (String.eqb s t) eqn:E; cbn [value_of].
    + apply String.eqb_eq in E. subst s. destruct (String.eqb t tag); lra.
    + destruct (String.eqb s tag) eqn:F; [|exact IH]. apply String.eqb_eq in F. subst s. rewrite String.eqb_sym, E. lra.
Qed.
Lemma add_sum t v flows : Rsum (map snd (add_flow t v flows)) = Rsum (map snd flows) + v.
Proof.
  induction flows as [|[s w] flows IH]; cbn [add_flow map Rsum snd]; [lra|].
  destruct (String.eqb s t); cbn [map Rsum snd]; lra.
Qed.
Lemma add_keys t v flows x : In x (map fst (add_flow t v flows)) <-> x = t \/ In x (map fst flows).
Proof.
  induction flows as [|[s w] flows IH]; cbn [add_flow map fst In]; [intuition congruence|].
  destruct (String.eqb s t) eqn:E; cbn [map fst In].
  - apply String.eqb_eq in E. subst s. intuition congruence.
  - rewrite IH. intuition congruence.
Qed.
Lemma add_nodup t v flows : NoDup (map fst flows) -> NoDup (map fst (add_flow t v flows)).
Proof.
  induction flows as [|[s w] flows IH]; cbn [add_flow map fst]; intros N; [constructor; [intros []|constructor]|].
  inversion N as [|? ? N1 N2]; subst. destruct (String.eqb s t) eqn:E; cbn [map fst]; [exact N|].
  constructor; [|exact (IH N2)]. intros K. apply add_keys in K as [->|K]; [rewrite String.eqb_refl in E; discriminate|contradiction].
Qed.

Section Report.
Variable d : edges.
Definition flow_at (b : nat * nat * string) : R := edge_flow d (fst (fst b)) (snd (fst b)).
Definition with_tag (tag : string) (b : nat * nat * string) : bool := String.eqb (snd b) tag.

Lemma report_from : forall b flows inflow outflow flows' inflow' outflow',
  fold_left (add_edge d) b (flows, inflow, outflow) = (flows', inflow', outflow') ->
  (forall tag, value_of tag flows' = value_of tag flows + Rsum (map flow_at (filter (with_tag tag) b))) /\
  Rsum (map snd flows') = Rsum (map snd flows) + Rsum (map flow_at b) /\
  (forall x, In x (map fst flows') <-> In x (map fst flows) \/ In x (map snd b)) /\
  (NoDup (map fst flows) -> NoDup (map fst flows')) /\
  inflow' = inflow + Rsum (map (fun e => Rmax 0 (flow_at e)) b) /\
  outflow' = outflow + Rsum (map (fun e => Rmin 0 (flow_at e)) b).
Proof.
  induction b as [|[[vol edge] tag] b IH]; intros flows inflow outflow flows' inflow' outflow' E.
  - cbn in E. injection E; intros <- <- <-. cbn.
    split; [intros; lra|]. split; [lra|]. split; [intros; tauto|]. split; [tauto|]. split; lra.
  - cbn [fold_left add_edge] in E. apply IH in E as (A & B & C & D & F & G).
    change (edge_flow d vol edge) with (flow_at (vol, edge, tag)) in *.
    split; [|split; [|split; [|split; [|split]]]].
    + intros t. rewrite A, add_value. cbn [filter]. unfold with_tag at 2. cbn [snd]. destruct (String.eqb tag t); cbn [map Rsum]; lra.
    + rewrite B, add_sum. cbn [map Rsum]. lra.
    + intros x. rewrite C, add_keys. cbn [map snd In]. intuition congruence.
    + intros N. apply D, add_nodup. exact N.
    + rewrite F. cbn [map Rsum]. destruct (Rltb 0 (flow_at (vol, edge, tag))) eqn:L.
      * apply Rltb_true in L. rewrite Rmax_right by lra. lra.
      * apply Rltb_false in L. rewrite Rmax_left by lra. lra.
    + rewrite G. cbn [map Rsum]. destruct (Rltb 0 (flow_at (vol, edge, tag))) eqn:L.
      * apply Rltb_true in L. rewrite Rmin_left by lra. lra.
      * apply Rltb_false in L. rewrite Rmin_right by lra. lra.
Qed.

(** The edges that carry a tag *)
Definition edges_of (b : boundary) (tag : string) : list (nat * nat) := map fst (filter (with_tag tag) b).
Lemma tag_length_sum b tag : tag_length d b tag = Rsum (map (fun e => edgelength d (fst e) (snd e)) (edges_of b tag)).
Proof.
  unfold tag_length, edges_of.
  assert (H : forall b a, fold_left (fun length x => let '(v, e, t) := x in if String.eqb tag t then length + edgelength d v e else length) b a
            = a + Rsum (map (fun e => edgelength d (fst e) (snd e)) (map fst (filter (with_tag tag) b)))).
  { clear b. induction b as [|[[v e] t] b IH]; intros a; cbn [fold_left filter map Rsum]; [lra|].
    rewrite IH. unfold with_tag at 2. cbn [snd]. rewrite String.eqb_sym. destruct (String.eqb t tag); cbn [map Rsum fst snd]; lra. }
  rewrite H. lra.
Qed.
Lemma tag_of_in b v e t : NoDup (map fst b) -> In (v, e, t) b -> tag_of b v e = Some t.
Proof.
  induction b as [|[[v' e'] t'] b IH]; intros N I; [destruct I|]. cbn [map fst] in N. inversion N as [|? ? N1 N2]; subst. cbn [tag_of].
  destruct I as [I|I].
  - injection I; intros -> -> ->. rewrite !Nat.eqb_refl. reflexivity.
  - destruct ((v' =? v)%nat && (e' =? e)%nat) eqn:E; [|exact (IH N2 I)]. exfalso. apply andb_true_iff in E as [E1 E2].
    apply Nat.eqb_eq in E1, E2. subst. apply N1. exact (in_map fst b (v, e, t) I).
Qed.
Definition unit_normals (l : list (nat * nat)) : Prop :=
  forall v e, In (v, e) l -> px (normal d v e) * px (normal d v e) + py (normal d v e) * py (normal d v e) = 1.
Lemma step_known rate b t a : forall own, unit_normals own ->
  inflow_step rate d b (Some (t, a)) own = Some (Some (t, a), a * Rsum (map (fun e => edgelength d (fst e) (snd e)) own)).
Proof.
  induction own as [|[v e] own IH]; intros U; cbn [inflow_step]; [f_equal; f_equal; cbn; lra|].
  cbn [inflow_evaluate]. rewrite IH by (intros v' e' K; apply U; right; exact K).
  f_equal. f_equal. cbn [entering map Rsum fst snd]. specialize (U v e (or_introl eq_refl)).
  replace (- (a * - px (normal d v e) * px (normal d v e) + a * - py (normal d v e) * py (normal d v e)) * edgelength d v e)
    with (a * (px (normal d v e) * px (normal d v e) + py (normal d v e) * py (normal d v e)) * edgelength d v e) by ring.
  rewrite U. ring.
Qed.
(** The first edge fixes the tag and the average momentum. *)
Lemma step_first rate b v e t own : NoDup (map fst b) -> In (v, e, t) b -> unit_normals ((v, e) :: own) ->
  inflow_step rate d b None ((v, e) :: own) =
    Some (Some (t, rate / tag_length d b t), rate / tag_length d b t * Rsum (map (fun e => edgelength d (fst e) (snd e)) ((v, e) :: own))).
Proof.
  intros N I U. rewrite <- (step_known rate b t (rate / tag_length d b t) ((v, e) :: own) U).
  cbn [inflow_step]. replace (inflow_evaluate rate d b None v e) with (inflow_evaluate rate d b (Some (t, rate / tag_length d b t)) v e); [reflexivity|].
  unfold inflow_evaluate. rewrite (tag_of_in b v e t N I). reflexivity.
Qed.
End Report.
