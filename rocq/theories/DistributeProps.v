(** C34: the ghost layers and the communication patterns built for every
    process fit together. *)
From Coq Require Import List ZArith Lia Bool Sorted.
From Verif Require Import DistributeModel DistributeProofs DistributeProofs2.
Import ListNotations.
Local Open Scope Z_scope.

Section C34.
Variable neighbours : Z -> list Z.
Variable tpp : list nat.
Variable w : nat.
Let nproc := length tpp.
Let N := total tpp.
(** The neighbours of a triangle are triangles of the mesh, or negative. *)
Hypothesis Hneigh : forall t n, 0 <= t < N -> In n (neighbours t) -> n < N.

Let lo (p : nat) := fst (rng tpp p).
Let hi (p : nat) := snd (rng tpp p).
(** Process [p] owns triangle [g]: it is one of its full triangles. *)
Let owns (p : nat) (g : Z) : Prop := (p < nproc)%nat /\ lo p <= g < hi p.
Let G (p : nat) : list Z := ghosts_of neighbours tpp w p.

Lemma within_range p k t : (p < nproc)%nat -> within neighbours (lo p) (hi p) k t -> 0 <= t < N.
Proof.
  intros Hp. destruct (rng_bounds tpp p Hp) as (A & B & C & _). fold (lo p) (hi p) in A, B, C.
  induction 1 as [k t Ht|k t n Ht IH Hn H0]; [unfold N; lia|]. split; [exact H0|]. eapply Hneigh; eassumption.
Qed.
Lemma ghost_spec p g : (p < nproc)%nat -> In g (G p) ->
  0 <= g < N /\ ~ (lo p <= g < hi p) /\ within neighbours (lo p) (hi p) (S (w - 1)) g.
Proof.
  intros Hp H. unfold G, ghosts_of in H. apply ghost_ids_In in H as (l & Hl & Hx).
  destruct (layers_within neighbours (fst (rng tpp p)) (snd (rng tpp p)) (w - 1) l g Hl Hx) as (A & B & C).
  split; [|split; assumption]. eapply within_range; eassumption.
Qed.
Lemma ghosts_sorted p : ssorted (G p).
Proof. apply ghost_ids_sorted. Qed.

Let owner (g : Z) : nat := searchsorted (map (fun r => snd r - 1) (ranges 0 tpp)) g.
Lemma owner_owns g : 0 <= g < N -> owns (owner g) g.
Proof. intros H. destruct (owner_in tpp 0 g) as [A B]; [unfold N in H; lia|]. split; [exact A|exact B]. Qed.
Lemma owns_owner p g : owns p g -> owner g = p.
Proof.
  intros [Hp H]. apply owner_unique; [|exact Hp|exact H].
  destruct (rng_bounds tpp p Hp) as (A & _). fold (lo p) in A. lia.
Qed.

Let loc (p : nat) : Z -> Z := tri_map (lo p) (hi p) (G p).

Lemma lookup_some {A} (l : list A) (f : A -> Z) :
  match map (fun g => (g, f g)) l with [] => None | e => Some e end =
  match l with [] => None | _ => Some (map (fun g => (g, f g)) l) end.
Proof. destruct l; reflexivity. Qed.

Lemma local_commun_spec received p : (p < nproc)%nat ->
  exists r s, local_commun neighbours received tpp w p = Some (r, s) /\
    (forall c, (c < nproc)%nat -> dget Nat.eqb r c =
       match filter (fun g => (owner g =? c)%nat) (G p) with [] => None | d => Some (map (loc p) d, d) end) /\
    (forall q, (q < nproc)%nat -> dget Nat.eqb s q =
       match filter (fun g => zmem g (G q)) (arange (lo p) (hi p)) with [] => None | d => Some (map (loc p) d, d) end).
Proof.
  intros Hp. destruct (rng_bounds tpp p Hp) as (B1 & B2 & B3 & _). fold (lo p) (hi p) in B1, B2, B3.
  assert (GND : forall q, NoDup (G q)) by (intros q; apply sorted_NoDup, ghosts_sorted).
  assert (Gout : forall g, In g (G p) -> 0 <= g /\ ~ (lo p <= g < hi p)).
  { intros g Hg. destruct (ghost_spec p g Hp Hg) as (A & B & _). split; [lia|exact B]. }
  unfold local_commun.
  pose proof (full_commun_run tpp G GND) as FC.
  change (fun p0 : nat => ghost_commun tpp (ghosts_of neighbours tpp w p0)) with (fun p => ghost_commun tpp (G p)).
  rewrite FC by (intros q g Hq Hg; destruct (ghost_spec q g Hq Hg) as [A _]; exact A).
  fold (G p) (lo p) (hi p). rewrite (nth_state tpp _ p Hp). fold (lo p) (hi p).
  set (tm := tget (tri_map_len (hi p) (G p)) (tri_map (lo p) (hi p) (G p))).
  assert (Htm : forall g, lo p <= g < hi p \/ In g (G p) -> tm g = Some (loc p g)).
  { intros g Hg. apply (tget_ok (lo p) (hi p) (G p)); [lia|exact Gout|exact Hg]. }
  destruct (ghost_recv_run tpp (G p) (ghosts_sorted p) tm (loc p) (fun g Hg => Htm g (or_intror Hg)) nproc) as (r & Er & Hr).
  unfold nproc in Er. rewrite Er.
  set (fc := map (fun i => (i, holders tpp G i)) (arange (lo p) (hi p))).
  assert (KND : NoDup (map fst fc)).
  { unfold fc. rewrite map_map. cbn [fst]. rewrite map_id. apply sorted_NoDup, arange_sorted. }
  set (fc' := if received then rebuild (flatten fc) else fc).
  assert (Same : forall q, map fst (filter (fun e => existsb (Nat.eqb q) (snd e)) fc')
                         = map fst (filter (fun e => existsb (Nat.eqb q) (snd e)) fc)).
  { intros q. unfold fc'. destruct received; [|reflexivity]. rewrite rebuild_flatten by exact KND.
    f_equal. clear. induction fc as [|[g l] fc IH]; [reflexivity|]. cbn [filter snd].
    destruct l as [|n l]; cbn [filter snd]; [cbn [existsb]; exact IH|].
    rewrite IH. reflexivity. }
  assert (Sub : forall e, In e fc' -> In e fc).
  { intros e He. unfold fc' in He. destruct received; [|exact He]. rewrite rebuild_flatten in He by exact KND.
    apply filter_In in He. tauto. }
  assert (Fc : forall e, In e fc -> NoDup (snd e) /\ lo p <= fst e < hi p).
  { intros e He. unfold fc in He. apply in_map_iff in He as (g & <- & Hg). cbn [fst snd]. split.
    - apply NoDup_filter, seq_NoDup.
    - apply arange_In, Hg. }
  destruct (tmp_send_run tm (loc p) fc' []) as (d & Ed & NE & Ld).
  { intros q l H. discriminate. }
  { intros e He. apply Fc, Sub, He. }
  { intros e He _. apply Htm. left. apply Fc, Sub, He. }
  unfold full_send, tmp_send. rewrite Ed.
  eexists r, _. split; [reflexivity|]. split; [exact Hr|].
  intros q Hq. rewrite (dget_map (fun l => (zsort (map snd l), zsort (map fst l)))). rewrite no_empty_get by exact NE.
  rewrite Ld, Same. unfold dlist at 1. cbn [dget app].
  assert (E : map fst (filter (fun e => existsb (Nat.eqb q) (snd e)) fc)
            = filter (fun g => zmem g (G q)) (arange (lo p) (hi p))).
  { unfold fc. generalize (arange (lo p) (hi p)). induction l as [|g l IH]; [reflexivity|]. cbn [map filter snd].
    replace (existsb (Nat.eqb q) (holders tpp G g)) with (zmem g (G q)).
    - destruct (zmem g (G q)); cbn [map fst]; rewrite IH; reflexivity.
    - unfold holders. destruct (zmem g (G q)) eqn:X.
      + symmetry. apply existsb_exists. exists q. split; [|apply Nat.eqb_refl]. apply filter_In. split; [apply in_seq; unfold nproc in Hq; lia|exact X].
      + symmetry. destruct (existsb _ _) eqn:Y; [|reflexivity]. apply existsb_exists in Y as (y & Hy & Ey).
        apply Nat.eqb_eq in Ey. subst y. apply filter_In in Hy as [_ Hy]. congruence. }
  rewrite E.
  assert (Sr : ssorted (filter (fun g => zmem g (G q)) (arange (lo p) (hi p)))) by (apply filter_sorted, arange_sorted).
  assert (In_rng : forall g, In g (filter (fun g => zmem g (G q)) (arange (lo p) (hi p))) -> lo p <= g < hi p).
  { intros g Hg. apply filter_In in Hg as [Hg _]. apply arange_In, Hg. }
  revert Sr In_rng. generalize (filter (fun g => zmem g (G q)) (arange (lo p) (hi p))). intros l Sr In_rng.
  rewrite lookup_some. destruct l as [|g l]; [reflexivity|]. cbn [option_map]. f_equal.
  rewrite !map_map. cbn [fst snd]. rewrite map_id.
  rewrite (zsort_id (g :: l)) by (apply sorted_le, Sr). rewrite zsort_id; [reflexivity|].
  apply (sorted_map_le Z.lt); [exact Sr|]. intros x y Hx Hy L. unfold loc.
  rewrite !tri_map_full; auto; lia.
Qed.

(** Building never fails. *)
Theorem C34_succeeds received p : (p < nproc)%nat -> exists r s, local_commun neighbours received tpp w p = Some (r, s).
Proof. intros Hp. destruct (local_commun_spec received p Hp) as (r & s & E & _). eauto. Qed.

(** The global ids of what [p] sends to [q] are those of what [q] receives from
    [p], in the same order; the entry exists on both sides or on neither. *)
Theorem C34_patterns_match b b' p q rp sp rq sq : (p < nproc)%nat -> (q < nproc)%nat ->
  local_commun neighbours b tpp w p = Some (rp, sp) -> local_commun neighbours b' tpp w q = Some (rq, sq) ->
  option_map snd (dget Nat.eqb sp q) = option_map snd (dget Nat.eqb rq p).
Proof.
  intros Hp Hq Ep Eq. destruct (local_commun_spec b p Hp) as (r1 & s1 & E1 & _ & S1).
  destruct (local_commun_spec b' q Hq) as (r2 & s2 & E2 & R2 & _).
  rewrite E1 in Ep. injection Ep as <- <-. rewrite E2 in Eq. injection Eq as <- <-.
  rewrite (S1 q Hq), (R2 p Hp).
  replace (filter (fun g => zmem g (G q)) (arange (lo p) (hi p))) with (filter (fun g => (owner g =? p)%nat) (G q)).
  - destruct (filter (fun g => (owner g =? p)%nat) (G q)); reflexivity.
  - apply sorted_eq; [apply filter_sorted, ghosts_sorted|apply filter_sorted, arange_sorted|].
    intros g. rewrite !filter_In, Nat.eqb_eq, zmem_In, arange_In. split.
    + intros [Hg E]. split; [|exact Hg]. destruct (ghost_spec q g Hq Hg) as (A & _).
      destruct (owner_owns g A) as [_ Ho]. rewrite E in Ho. exact Ho.
    + intros [Hr Hg]. split; [exact Hg|]. apply owns_owner. split; assumption.
Qed.

(** Every ghost triangle of [q] is owned by exactly one process, which is not
    [q], and occurs once in what [q] receives from that process and in nothing
    else that it receives; nothing else is received. *)
Theorem C34_ghosts_owned b q r s : (q < nproc)%nat -> local_commun neighbours b tpp w q = Some (r, s) ->
  (forall g, In g (G q) -> exists p, owns p g /\ (forall p', owns p' g -> p' = p) /\ p <> q /\
     exists locals globals, dget Nat.eqb r p = Some (locals, globals) /\ In g globals /\
       forall p' l' g', (p' < nproc)%nat -> dget Nat.eqb r p' = Some (l', g') -> In g g' -> p' = p) /\
  (forall p locals globals, (p < nproc)%nat -> dget Nat.eqb r p = Some (locals, globals) ->
     globals <> [] /\ NoDup globals /\ StronglySorted Z.lt globals /\ forall g, In g globals -> In g (G q) /\ owns p g).
Proof.
  intros Hq E. destruct (local_commun_spec b q Hq) as (r1 & s1 & E1 & R1 & _).
  rewrite E1 in E. injection E as <- <-. split.
  - intros g Hg. destruct (ghost_spec q g Hq Hg) as (A & B & _). pose proof (owner_owns g A) as Ho.
    exists (owner g). split; [exact Ho|]. split; [intros p' Hp'; symmetry; apply owns_owner, Hp'|]. split.
    + intros Eq. apply B. rewrite <- Eq. apply Ho.
    + assert (Hin : In g (filter (fun x => (owner x =? owner g)%nat) (G q))).
      { apply filter_In. split; [exact Hg|apply Nat.eqb_refl]. }
      rewrite (R1 (owner g) (proj1 Ho)). destruct (filter (fun x => (owner x =? owner g)%nat) (G q)) as [|x l] eqn:F; [destruct Hin|].
      eexists _, _. split; [reflexivity|]. split; [exact Hin|].
      intros p' l' g' Hp' Hd Hg'. rewrite (R1 p' Hp') in Hd.
      destruct (filter (fun g => (owner g =? p')%nat) (G q)) as [|y l2] eqn:F2; [discriminate|].
      injection Hd as _ <-. rewrite <- F2 in Hg'. apply filter_In in Hg' as [_ E']. apply Nat.eqb_eq in E'. auto.
  - intros p locals globals Hp Hd. rewrite (R1 p Hp) in Hd.
    destruct (filter (fun g => (owner g =? p)%nat) (G q)) as [|y l2] eqn:F2; [discriminate|].
    injection Hd as _ <-. split; [discriminate|]. rewrite <- F2.
    assert (Sr : ssorted (filter (fun g => (owner g =? p)%nat) (G q))) by (apply filter_sorted, ghosts_sorted).
    split; [apply sorted_NoDup, Sr|]. split; [exact Sr|].
    intros g Hg. apply filter_In in Hg as [Hg E']. apply Nat.eqb_eq in E'. split; [exact Hg|].
    destruct (ghost_spec q g Hq Hg) as (A & _). rewrite <- E'. apply owner_owns, A.
Qed.

(** Every triangle within [w] edges of a full triangle of [q] is present on [q]
    as a full or ghost triangle, and every ghost triangle is within [max w 1]
    edges. *)
Theorem C34_layer_width q t : (q < nproc)%nat ->
  within neighbours (lo q) (hi q) (Nat.max w 1) t <-> (lo q <= t < hi q \/ In t (G q)).
Proof.
  intros Hq. replace (Nat.max w 1) with (S (w - 1)) by lia. split.
  - intros H. destruct (within_layers _ _ _ _ _ H) as [A|A]; [left; exact A|right]. apply ghost_ids_In. exact A.
  - intros [H|H]; [apply within_full, H|]. destruct (ghost_spec q t Hq H) as (_ & _ & A). exact A.
Qed.

(** The local ids point to the right triangles of the local mesh, which lists
    the full triangles and then the ghost triangles. *)
Theorem C34_local_ids b q r s : (q < nproc)%nat -> local_commun neighbours b tpp w q = Some (r, s) ->
  (forall p locals globals, (p < nproc)%nat -> dget Nat.eqb r p = Some (locals, globals) ->
     Forall2 (fun l g => hi q - lo q <= l /\ nth_error (arange (lo q) (hi q) ++ G q) (Z.to_nat l) = Some g) locals globals) /\
  (forall p locals globals, (p < nproc)%nat -> dget Nat.eqb s p = Some (locals, globals) ->
     Forall2 (fun l g => 0 <= l < hi q - lo q /\ nth_error (arange (lo q) (hi q) ++ G q) (Z.to_nat l) = Some g) locals globals).
Proof.
  intros Hq E. destruct (local_commun_spec b q Hq) as (r1 & s1 & E1 & R1 & S1).
  rewrite E1 in E. injection E as <- <-.
  destruct (rng_bounds tpp q Hq) as (B1 & B2 & B3 & _). fold (lo q) (hi q) in B1, B2, B3.
  assert (GND : NoDup (G q)) by (apply sorted_NoDup, ghosts_sorted).
  assert (Gout : forall g, In g (G q) -> 0 <= g /\ ~ (lo q <= g < hi q)).
  { intros g Hg. destruct (ghost_spec q g Hq Hg) as (A & B & _). split; [lia|exact B]. }
  assert (F2 : forall (P : Z -> Z -> Prop) l, (forall g, In g l -> P (loc q g) g) -> Forall2 P (map (loc q) l) l).
  { intros P l. induction l as [|g l IH]; intros H; cbn [map]; constructor.
    - apply H. left. reflexivity.
    - apply IH. intros; apply H; right; assumption. }
  split; intros p locals globals Hp Hd.
  - rewrite (R1 p Hp) in Hd. destruct (filter (fun g => (owner g =? p)%nat) (G q)) as [|y l2] eqn:F; [discriminate|].
    injection Hd as <- <-. change (loc q y :: map (loc q) l2) with (map (loc q) (y :: l2)).
    rewrite <- F. apply F2. intros g Hg. apply filter_In in Hg as [Hg _].
    destruct (local_position (lo q) (hi q) (G q) ltac:(lia) GND Gout g (or_intror Hg)) as [_ L]. split; [|exact L].
    apply In_nth_error in Hg as (i & Hi). unfold loc. rewrite (tri_map_ghost (lo q) (hi q) (G q) ltac:(lia) GND i g Hi). lia.
  - rewrite (S1 p Hp) in Hd. destruct (filter (fun g => zmem g (G p)) (arange (lo q) (hi q))) as [|y l2] eqn:F; [discriminate|].
    injection Hd as <- <-. change (loc q y :: map (loc q) l2) with (map (loc q) (y :: l2)).
    rewrite <- F. apply F2. intros g Hg. apply filter_In in Hg as [Hg _].
    apply arange_In in Hg.
    destruct (local_position (lo q) (hi q) (G q) ltac:(lia) GND Gout g (or_introl Hg)) as [_ L]. split; [|exact L].
    unfold loc. rewrite tri_map_full by (auto; lia). lia.
Qed.
End C34.
Print Assumptions C34_succeeds.
Print Assumptions C34_patterns_match.
Print Assumptions C34_ghosts_owned.
Print Assumptions C34_layer_width.
Print Assumptions C34_local_ids.

(** A strip of six triangles on three processes, two ghost layers. *)
Definition strip (t : Z) : list Z := [(if t =? 0 then -1 else t - 1); (if t =? 5 then -1 else t + 1); -1].
Example strip_neighbours : forall t n, 0 <= t < total [1; 2; 3]%nat -> In n (strip t) -> n < total [1; 2; 3]%nat.
Proof.
  unfold total, strip. cbn. intros t n Ht [<-|[<-|[<-|[]]]]; destruct (Z.eqb_spec t 0), (Z.eqb_spec t 5); lia.
Qed.
Example strip_patterns_0 :
  local_commun strip false [1; 2; 3]%nat 2 0 = Some ([(1%nat, ([1; 2], [1; 2]))], [(1%nat, ([0], [0]))]).
Proof. vm_compute. reflexivity. Qed.
Example strip_patterns_1 :
  local_commun strip true [1; 2; 3]%nat 2 1
  = Some ([(0%nat, ([2], [0])); (2%nat, ([3; 4], [3; 4]))], [(0%nat, ([0; 1], [1; 2])); (2%nat, ([0; 1], [1; 2]))]).
Proof. vm_compute. reflexivity. Qed.

(** A ghost layer width of 0 still gives one layer. *)
Theorem C34_width_zero_refuted : exists neighbours tpp q t,
  In t (ghosts_of neighbours tpp 0 q) /\ ~ within neighbours (fst (rng tpp q)) (snd (rng tpp q)) 0 t.
Proof.
  exists strip, [1; 2; 3]%nat, 0%nat, 1. split.
  - vm_compute. left. reflexivity.
  - intros H. inversion H as [k t Ht|]; subst.
    change (fst (rng [1; 2; 3]%nat 0)) with 0 in Ht. change (snd (rng [1; 2; 3]%nat 0)) with 1 in Ht. lia.
Qed.
Print Assumptions C34_width_zero_refuted.
