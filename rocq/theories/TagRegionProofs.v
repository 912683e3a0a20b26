(** Proofs about quantities set by regional tag *)
From Coq Require Import String Reals List Arith Bool Lra Lia.
From Verif Require Import RealLib ArrayLib PolygonModel InvertedModel SetValuesModel SetValuesProofs TagRegionModel.
Import ListNotations.
Local Open Scope R_scope.

Lemma each_absent m d f l : ~ In (own_tag f) (map fst l) -> forall qs, each_tag m d f l qs = Some qs.
Proof.
  induction l as [|[t ids] l IH]; intros N qs; [reflexivity|]. cbn [each_tag map fst] in *. unfold call.
  destruct (String.eqb_spec t (own_tag f)) as [E|E]; [elim N; left; exact E|]. apply IH. intros I; apply N; right; exact I.
Qed.
Lemma each_present m d f l ids : NoDup (map fst l) -> In (own_tag f, ids) l -> forall qs, each_tag m d f l qs = call m d f (own_tag f) ids qs.
Proof.
  induction l as [|[t e] l IH]; intros N I qs; [destruct I|]. cbn [map fst] in N. inversion N as [|? ? N1 N2]; subst. cbn [each_tag].
  destruct I as [E|I].
  - injection E; intros -> ->. destruct (call m d f (own_tag f) ids qs) as [qs'|]; [|reflexivity]. apply each_absent. exact N1.
  - assert (Ne : t <> own_tag f) by (intros ->; apply N1; change (own_tag f) with (fst (own_tag f, ids)); apply in_map; exact I).
    unfold call at 1. destruct (String.eqb_spec t (own_tag f)); [contradiction|]. apply IH; assumption.
Qed.

Lemma put_same qs n q : put qs n q n = Some q.
Proof. unfold put. rewrite String.eqb_refl. reflexivity. Qed.
Lemma put_other qs n q k : k <> n -> put qs n q k = qs k.
Proof. intros H. unfold put. destruct (String.eqb_spec k n); [contradiction|reflexivity]. Qed.

Lemma set_named_inv m qs name x loc ids qs' : set_named m qs name x loc ids = Some qs' ->
  exists q q', qs name = Some q /\ set_values m x loc (match loc with Unique_vertices => false | _ => true end) (Some ids) q = Some q' /\
    qs' name = Some q' /\ (forall n, n <> name -> qs' n = qs n).
Proof.
  unfold set_named. destruct (qs name) as [q|]; [|discriminate]. destruct (set_values _ _ _ _ _ q) as [q'|] eqn:E; [|discriminate].
  intros H. injection H; intros <-. exists q, q'. split; [reflexivity|]. split; [exact E|]. split; [apply put_same|]. intros n. apply put_other.
Qed.

Lemma get_vertices_some m ids q A : get_vertices m (Some ids) q = Some A -> A = map (fun k => map (fun i => qv q (3 * k + i)%nat) [0; 1; 2]%nat) ids.
Proof. unfold get_vertices, take. destruct (forallb _ ids); [|discriminate]. intros H. injection H; intros <-. reflexivity. Qed.
Lemma get_centroids_some m ids q A : get_centroids m (Some ids) q = Some A -> A = map (qc q) ids.
Proof. unfold get_centroids, take. destruct (forallb _ ids); [|discriminate]. intros H. injection H; intros <-. reflexivity. Qed.

Lemma nth_three q k i : (i < 3)%nat -> nth i (map (fun i => qv q (3 * k + i)%nat) [0; 1; 2]%nat) 0 = qv q (3 * k + i)%nat.
Proof. intros H. destruct i as [|[|[|i]]]; [reflexivity..|lia]. Qed.

Lemma combine_maps {A B C} (f : A -> B) (g : A -> C) l : combine (map f l) (map g l) = map (fun x => (f x, g x)) l.
Proof. induction l as [|x l IH]; [reflexivity|]. cbn. rewrite IH. reflexivity. Qed.

Lemma nodes_in m elements n : In n (get_unique_vertices m elements) <->
  (n < m_nodes m)%nat /\ exists k i, In k elements /\ (i < 3)%nat /\ node_at (m_flat m) (3 * k + i) = n.
Proof.
  unfold get_unique_vertices. rewrite filter_In, in_seq, existsb_exists. split.
  - intros [L (k & Ik & H)]. split; [lia|]. apply existsb_exists in H as (i & Ii & H). apply Nat.eqb_eq in H.
    exists k, i. split; [exact Ik|]. split; [cbn in Ii; lia|exact H].
  - intros [L (k & i & Ik & Li & H)]. split; [lia|]. exists k. split; [exact Ik|]. apply existsb_exists. exists i. split; [cbn; lia|apply Nat.eqb_eq; exact H].
Qed.
