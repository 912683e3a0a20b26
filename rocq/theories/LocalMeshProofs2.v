(** Lemmas about [LocalMeshModel]: parts of a mesh, reordered meshes,
    transmission. *)
From Coq Require Import List ZArith Arith Lia Bool Permutation Sorted.
From Verif Require Import NeighbourModel NeighbourProofs NeighbourProps DistributeModel DistributeProofs
  LocalMeshModel LocalMeshProofs.
Import ListNotations.

(** * A part of a mesh with other node numbers *)

Definition node (t : tri) (v : nat) : nat := let '(a, b, c) := t in match v with 0 => a | 1 => b | _ => c end.
Definition rename (f : nat -> nat) (t : tri) : tri := let '(a, b, c) := t in (f a, f b, f c).
Definition d3 : tri := (0, 0, 0).

Lemma has_edge_node ts k i a b :
  has_edge ts k i a b <-> exists t, nth_error ts k = Some t /\ i < 3 /\
    a = node t (match i with 0 => 1 | 1 => 2 | _ => 0 end) /\ b = node t (match i with 0 => 2 | 1 => 0 | _ => 1 end).
Proof.
  rewrite has_edge_key. split; intros ([[x y] z] & H & Hi & E); exists (x, y, z); (split; [exact H|]); (split; [exact Hi|]).
  - destruct i as [|[|i]]; cbn in E |- *; injection E as <- <-; auto.
  - destruct E as [-> ->]. destruct i as [|[|i]]; reflexivity.
Qed.

Section Part.
Variable ts : list tri.
Variable rows : list row.
Hypothesis Hrows : build_neighbour_structure ts = Some rows.
(** The triangles of the part, and the new numbers of the nodes. *)
Variable ids : list nat.
Hypothesis Hids : forall k, In k ids -> k < length ts.
Hypothesis NDids : NoDup ids.
Variable f : nat -> nat.
Hypothesis Hf : forall k l u v, In k ids -> In l ids ->
  f (node (nth k ts d3) u) = f (node (nth l ts d3) v) -> node (nth k ts d3) u = node (nth l ts d3) v.
Let lts := map (fun k => rename f (nth k ts d3)) ids.

Lemma part_nth j k : nth_error ids j = Some k -> nth_error lts j = Some (rename f (nth k ts d3)) /\ nth_error ts k = Some (nth k ts d3).
Proof.
  intros H. split.
  - unfold lts. rewrite nth_error_map, H. reflexivity.
  - apply nth_error_nth'. apply Hids. eapply nth_error_In. exact H.
Qed.
Lemma node_rename t v : node (rename f t) v = f (node t v).
Proof. destruct t as [[a b] c], v as [|[|v]]; reflexivity. Qed.

Lemma part_edge j i a' b' : has_edge lts j i a' b' <->
  exists k a b, nth_error ids j = Some k /\ has_edge ts k i a b /\ a' = f a /\ b' = f b.
Proof.
  rewrite has_edge_node. split.
  - intros (t & H & Hi & -> & ->). unfold lts in H. rewrite nth_error_map in H.
    destruct (nth_error ids j) as [k|] eqn:E; [|discriminate]. injection H as <-.
    exists k. rewrite !node_rename. eexists _, _. split; [reflexivity|]. split; [|split; reflexivity].
    apply has_edge_node. exists (nth k ts d3). split; [apply (part_nth j k E)|]. split; [exact Hi|]. split; reflexivity.
  - intros (k & a & b & E & H & -> & ->). apply has_edge_node in H as (t & Ht & Hi & -> & ->).
    destruct (part_nth j k E) as [A B]. exists (rename f (nth k ts d3)). split; [exact A|]. split; [exact Hi|].
    rewrite Ht in B. injection B as ->. rewrite !node_rename. split; reflexivity.
Qed.

Lemma f_inj k l i e a b c d : In k ids -> In l ids -> has_edge ts k i a b -> has_edge ts l e c d ->
  (f a = f c -> a = c) /\ (f b = f d -> b = d) /\ (f a = f d -> a = d) /\ (f b = f c -> b = c).
Proof.
  intros Hk Hl H1 H2. apply has_edge_node in H1 as (t & Ht & Hi & -> & ->). apply has_edge_node in H2 as (u & Hu & He & -> & ->).
  rewrite (nth_error_nth' ts d3) in Ht by (apply Hids, Hk). rewrite (nth_error_nth' ts d3) in Hu by (apply Hids, Hl).
  injection Ht as <-. injection Hu as <-. repeat split; intros E; eapply Hf; eauto.
Qed.

Lemma part_unique : edges_unique lts.
Proof.
  intros j i l e a b H1 H2. apply part_edge in H1 as (k1 & a1 & b1 & E1 & H1 & -> & ->).
  apply part_edge in H2 as (k2 & a2 & b2 & E2 & H2 & Ea & Eb).
  destruct (f_inj k1 k2 i e a1 b1 a2 b2) as (A & B & _); try (eapply nth_error_In; eassumption); try assumption.
  apply A in Ea. apply B in Eb. subst a2 b2.
  assert (U : edges_unique ts) by (apply C06_rejected_iff_duplicate_edge; congruence).
  destruct (U k1 i k2 e a1 b1 H1 H2) as [<- <-]. split; [|reflexivity].
  apply (proj1 (NoDup_nth_error ids) NDids); [apply nth_error_Some; congruence|congruence].
Qed.

(** The neighbour structure of the part exists and is that of the mesh,
    restricted to the part. *)
Lemma part_neighbours : exists lrows, build_neighbour_structure lts = Some lrows /\
  length lrows = length ids /\
  (forall j k i, nth_error ids j = Some k -> i < 3 ->
    (forall l k' e, nth_error ids l = Some k' -> (neighbour_is lrows j i l e <-> neighbour_is rows k i k' e)) /\
    (forall l e, neighbour_is lrows j i l e -> l < length ids) /\
    ((nb lrows j i < 0)%Z <-> (forall k', nb rows k i = Z.of_nat k' -> ~ In k' ids))).
Proof.
  destruct (build_neighbour_structure lts) as [lrows|] eqn:E.
  2:{ exfalso. apply (proj2 (C06_rejected_iff_duplicate_edge lts) part_unique). exact E. }
  exists lrows. split; [reflexivity|]. split.
  { rewrite (proj2 (rows_shape lts lrows E)). unfold lts. apply map_length. }
  intros j k i Hj Hi.
  destruct (part_nth j k Hj) as [Hlj Hk].
  set (t := nth k ts d3) in *.
  set (a := node t (match i with 0 => 1 | 1 => 2 | _ => 0 end)). set (b := node t (match i with 0 => 2 | 1 => 0 | _ => 1 end)).
  assert (He : has_edge ts k i a b) by (apply has_edge_node; exists t; auto).
  assert (Hle : has_edge lts j i (f a) (f b)) by (apply part_edge; exists k, a, b; auto).
  assert (L : forall l e, neighbour_is lrows j i l e -> l < length ids).
  { intros l e H. apply (C06_neighbour_is_opposite_edge lts lrows j i _ _ E Hle) in H.
    apply part_edge in H as (k' & x & y & H & _). apply nth_error_Some. congruence. }
  assert (N : forall l k' e, nth_error ids l = Some k' -> (neighbour_is lrows j i l e <-> neighbour_is rows k i k' e)).
  { intros l k' e Hl.
    rewrite (C06_neighbour_is_opposite_edge lts lrows j i _ _ E Hle).
    rewrite (C06_neighbour_is_opposite_edge ts rows k i _ _ Hrows He). split.
    - intros H. apply part_edge in H as (k2 & x & y & E2 & H & X & Y). assert (k2 = k') by congruence. subst k2.
      destruct (f_inj k k' i e a b x y) as (_ & _ & A & B); try (eapply nth_error_In; eassumption); try assumption.
      apply A in Y. apply B in X. subst x y. exact H.
    - intros H. apply part_edge. exists k', b, a. auto. }
  split; [exact N|]. split; [exact L|].
  destruct (C06_boundary_iff_no_opposite_edge lts lrows j i _ _ E Hle) as [B1 B2].
  destruct (C06_boundary_iff_no_opposite_edge ts rows k i _ _ Hrows He) as [G1 G2].
  split.
  - intros H k' Hk' Hin. apply In_nth_error in Hin as [l Hl].
    destruct G2 as (l' & e & H'); [lia|]. assert (l' = k') by (destruct H'; lia). subst l'.
    apply (N l k' e Hl) in H'. destruct H'; lia.
  - intros H. destruct (Z.lt_ge_cases (nb lrows j i) 0) as [|C]; [assumption|]. exfalso.
    destruct (B2 C) as (l & e & H'). pose proof (L l e H') as Ll.
    destruct (nth_error ids l) as [k'|] eqn:El; [|apply nth_error_None in El; lia].
    apply (N l k' e El) in H'. apply (H k'); [apply H'|]. eapply nth_error_In. exact El.
Qed.
End Part.

(** * Transmission keeps the part *)

Lemma tagmap_ok : forall tags st,
  (forall t c, dget Nat.eqb (fst st) t = Some c -> c < snd st) ->
  (forall t c, In (t, c) (fst st) -> c < snd st) ->
  NoDup (map snd (fst st)) -> NoDup (map fst (fst st)) ->
  let r := fold_left (fun st t => match tag_number (fst st) t with
                         | Some _ => st
                         | None => (fst st ++ [(t, snd st)], S (snd st))
                         end) tags st in
  NoDup (map snd (fst r)) /\ NoDup (map fst (fst r)) /\
  (forall t, In t tags \/ In t (map fst (fst st)) -> In t (map fst (fst r))).
Proof.
  induction tags as [|t tags IH]; intros st H1 H2 H3 H4; cbn [fold_left].
  - split; [exact H3|]. split; [exact H4|]. intros t [[]|H]; exact H.
  - destruct (tag_number (fst st) t) as [c|] eqn:E; unfold tag_number in E.
    + destruct (IH st H1 H2 H3 H4) as (A & B & C). split; [exact A|]. split; [exact B|].
      intros x [[->|H]|H]; apply C; [right|left|right]; try assumption.
      clear - E. induction (fst st) as [|[k v] l IH]; [discriminate|]. cbn in *. destruct (Nat.eqb_spec x k); auto.
    + assert (Nt : ~ In t (map fst (fst st))).
      { clear - E. induction (fst st) as [|[k v] l IH]; [simpl; tauto|]. cbn in *.
        destruct (Nat.eqb_spec t k) as [|N]; [discriminate|]. intros [X|X]; [congruence|exact (IH E X)]. }
      assert (Nc : ~ In (snd st) (map snd (fst st))).
      { intros H. apply in_map_iff in H as ([k c] & Ec & H). cbn in Ec. apply H2 in H. lia. }
      destruct (IH (fst st ++ [(t, snd st)], S (snd st))) as (A & B & C); cbn [fst snd].
      * intros x c H. rewrite dget_app in H. destruct (dget Nat.eqb (fst st) x) as [c'|] eqn:X.
        -- injection H as <-. apply H1 in X. lia.
        -- cbn in H. destruct (Nat.eqb_spec x t); [|discriminate]. injection H as <-. lia.
      * intros x c H. apply in_app_iff in H as [H|[H|[]]]; [apply H2 in H; lia|]. injection H as <- <-. lia.
      * rewrite map_app. apply NoDup_snoc; assumption.
      * rewrite map_app. apply NoDup_snoc; assumption.
      * split; [exact A|]. split; [exact B|]. intros x Hx. apply C. cbn [fst]. rewrite map_app, in_app_iff. cbn [map fst In].
        destruct Hx as [[->|H]|H]; auto.
Qed.
Lemma dget_In {V} (d : list (nat * V)) k v : NoDup (map fst d) -> In (k, v) d -> dget Nat.eqb d k = Some v.
Proof.
  induction d as [|[x y] d IH]; intros ND H; [destruct H|]. cbn [map fst] in ND. inversion ND; subst. cbn [dget].
  destruct H as [E|H].
  - injection E as <- <-. rewrite Nat.eqb_refl. reflexivity.
  - destruct (Nat.eqb_spec k x) as [->|]; [|apply IH; assumption].
    exfalso. apply H2. apply in_map_iff. exists (x, v). auto.
Qed.
Lemma transmit_id {P Q} (c : cell P Q) :
  NoDup (map fst (f_boundary c)) -> NoDup (map fst (g_boundary c)) -> transmit c = Some c.
Proof.
  intros Hf Hg. unfold transmit.
  set (tags := map snd (f_boundary c) ++ map snd (g_boundary c)).
  destruct (tagmap_ok tags ([], 1)) as (A & B & C); cbn [fst snd]; try (intros; contradiction); try constructor; try discriminate.
  fold (make_tagmap tags) in A, B, C. set (tm := fst (make_tagmap tags)) in *.
  assert (Inv : fold_left (fun d e => dset Nat.eqb d (snd e) (fst e)) tm [] = map (fun e => (snd e, fst e)) tm).
  { transitivity (fold_left (fun d x => dset Nat.eqb d (fst x) (snd x)) (map (fun e => (snd e, fst e)) tm) []).
    - generalize (@nil (nat * nat)). clear. induction tm as [|e l IH]; intros d; [reflexivity|]. apply IH.
    - apply (dset_fold Nat.eqb Nat.eqb_eq _ []). cbn [app]. rewrite map_map. cbn [fst]. exact A. }
  assert (One : forall b, NoDup (map fst b) -> (forall t, In t (map snd b) -> In t (map fst tm)) ->
    exists x, send_boundary tm b = Some x /\ rec_boundary tm x = Some b).
  { intros b ND Hb. unfold send_boundary, rec_boundary. rewrite Inv.
    set (code := fun t => match tag_number tm t with Some n => n | None => 0 end).
    exists (map (fun e => (fst e, code (snd e))) b). split.
    - apply osequence_map. intros e He. unfold code.
      assert (In (snd e) (map fst tm)) as Hin by (apply Hb, in_map, He).
      apply in_map_iff in Hin as ([t n] & Et & Hin). cbn in Et. subst t.
      unfold tag_number. rewrite (dget_In tm (snd e) n B Hin). reflexivity.
    - assert (Go : forall e d, NoDup (map fst (d ++ e)) -> (forall t, In t (map snd e) -> In t (map fst tm)) ->
        ofold (fun d e => match dget Nat.eqb (map (fun e0 => (snd e0, fst e0)) tm) (snd e) with
                    | Some t => Some (dset key_eqb d (fst e) t) | None => None end)
           (map (fun e => (fst e, code (snd e))) e) d = Some (d ++ e)).
      { induction e as [|[k t] e IH]; intros d HD HT; cbn [map ofold fst snd]; [rewrite app_nil_r; reflexivity|].
        assert (In t (map fst tm)) as Hin by (apply HT; left; reflexivity).
        apply in_map_iff in Hin as ([t' n] & Et & Hin). cbn in Et. subst t'.
        unfold code at 1, tag_number. rewrite (dget_In tm t n B Hin).
        rewrite (dget_In _ n t).
        - rewrite map_app in HD. cbn [map fst] in HD. pose proof (NoDup_remove _ _ _ HD) as [_ H2].
          destruct (dset_keys key_eqb key_eqb_iff d k t) as [[I M]|[I M]]; [exfalso; apply H2, in_or_app; left; exact I|].
          rewrite M, IH; [rewrite <- app_assoc; reflexivity| |intros x Hx; apply HT; right; exact Hx].
          rewrite <- app_assoc, map_app. exact HD.
        - rewrite map_map. cbn [fst]. exact A.
        - apply in_map_iff. exists (t, n). auto. }
      apply (Go b []); assumption. }
  destruct (One (f_boundary c) Hf) as (xf & -> & ->).
  { intros t Ht. apply C. left. unfold tags. apply in_or_app. left. exact Ht. }
  destruct (One (g_boundary c) Hg) as (xg & -> & ->).
  { intros t Ht. apply C. left. unfold tags. apply in_or_app. right. exact Ht. }
  destruct c. reflexivity.
Qed.
