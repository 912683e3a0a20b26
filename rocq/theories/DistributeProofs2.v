(** The communication patterns built by the distribution. *)
From Coq Require Import List ZArith Lia Bool Sorted.
From Verif Require Import DistributeModel DistributeProofs.
Import ListNotations.
Local Open Scope Z_scope.

(** ** full_commun_pattern *)
Section FullCommun.
Variable tpp : list nat.
Variable G : nat -> list Z.
Hypothesis GND : forall p, NoDup (G p).
Hypothesis Grange : forall p g, (p < length tpp)%nat -> In g (G p) -> 0 <= g < total tpp.

Definition holders (g : Z) : list nat := filter (fun p => zmem g (G p)) (seq 0 (length tpp)).

Lemma state_ext f f' : (forall x, f x = f' x) -> state tpp f = state tpp f'.
Proof. intros H. unfold state. apply map_ext. intros r. apply map_ext. intros i. rewrite H. reflexivity. Qed.

Lemma inner_run p : forall l f, NoDup l -> (forall g, In g l -> 0 <= g < total tpp) ->
  ofold (fun fc g =>
      match nth_error fc (snd g) with
      | None => None
      | Some d => match dappend Z.eqb (fst g) p d with
                  | None => None
                  | Some d' => Some (firstn (snd g) fc ++ d' :: skipn (S (snd g)) fc)
                  end
      end) (ghost_commun tpp l) (state tpp f)
  = Some (state tpp (fun x => if zmem x l then f x ++ [p] else f x)).
Proof.
  induction l as [|g l IH]; intros f ND H.
  - cbn [ghost_commun map ofold]. reflexivity.
  - inversion ND; subst. unfold ghost_commun. cbn [map ofold fst snd]. fold (ghost_commun tpp l).
    rewrite (state_step tpp f g p (H g (or_introl eq_refl))).
    rewrite IH by (auto; intros; apply H; right; assumption). f_equal. apply state_ext. intros x.
    unfold zmem. cbn [existsb]. fold (zmem x l). destruct (Z.eqb_spec x g) as [->|].
    + cbn [orb]. replace (zmem g l) with false; [reflexivity|]. symmetry. apply zmem_false. assumption.
    + reflexivity.
Qed.

Lemma full_commun_run : full_commun tpp (fun p => ghost_commun tpp (G p)) = Some (state tpp holders).
Proof.
  unfold full_commun, holders.
  change (map (fun r => map (fun i => (i, @nil nat)) (arange (fst r) (snd r))) (ranges 0 tpp))
    with (state tpp (fun _ => [])).
  assert (K : forall m, (m <= length tpp)%nat ->
    ofold (fun fc p =>
      ofold (fun fc g =>
        match nth_error fc (snd g) with
        | None => None
        | Some d => match dappend Z.eqb (fst g) p d with
                    | None => None
                    | Some d' => Some (firstn (snd g) fc ++ d' :: skipn (S (snd g)) fc)
                    end
        end) (ghost_commun tpp (G p)) fc) (seq 0 m) (state tpp (fun _ => []))
    = Some (state tpp (fun g => filter (fun p => zmem g (G p)) (seq 0 m)))).
  { induction m as [|m IH]; intros Hm; [reflexivity|].
    rewrite seq_S, ofold_app, IH by lia. cbn [ofold Nat.add]. rewrite inner_run.
    - f_equal. apply state_ext. intros x. rewrite filter_app. cbn [filter].
      destruct (zmem x (G m)); [reflexivity|rewrite app_nil_r; reflexivity].
    - apply GND.
    - intros g Hg. apply (Grange m); [lia|exact Hg]. }
  apply K. lia.
Qed.

Lemma nth_state f p : (p < length tpp)%nat ->
  nth p (state tpp f) [] = map (fun i => (i, f i)) (arange (fst (rng tpp p)) (snd (rng tpp p))).
Proof.
  intros Hp. apply nth_error_nth. unfold state, rng.
  rewrite nth_error_map, (nth_error_nth' _ (0, 0)) by (rewrite ranges_length; exact Hp). reflexivity.
Qed.
End FullCommun.

(** ** send / receive of the dictionary *)
Lemma dget_notin (d : list (Z * list nat)) k : ~ In k (map fst d) -> dget Z.eqb d k = None.
Proof.
  induction d as [|[k' l] d IH]; intros H; [reflexivity|]. cbn [dget]. destruct (Z.eqb_spec k k') as [->|].
  - exfalso. apply H. left. reflexivity.
  - apply IH. intros ?. apply H. right. assumption.
Qed.
Lemma dappend_last (d : list (Z * list nat)) k l v : ~ In k (map fst d) ->
  dappend Z.eqb k v (d ++ [(k, l)]) = Some (d ++ [(k, l ++ [v])]).
Proof.
  induction d as [|[k' l'] d IH]; intros H.
  - cbn [app dappend]. rewrite Z.eqb_refl. reflexivity.
  - cbn [app dappend]. destruct (Z.eqb_spec k k') as [->|]; [exfalso; apply H; left; reflexivity|].
    rewrite IH; [reflexivity|]. intros ?. apply H. right. assumption.
Qed.
Lemma push_all (k : Z) : forall (l : list nat) (d : list (Z * list nat)) l0, ~ In k (map fst d) ->
  fold_left (fun d c => dpush Z.eqb (fst c) (snd c) d) (map (fun p => (k, p)) l) (d ++ [(k, l0)]) = d ++ [(k, l0 ++ l)].
Proof.
  induction l as [|p l IH]; intros d l0 H; cbn [map fold_left]; [rewrite app_nil_r; reflexivity|].
  unfold dpush at 2. cbn [fst snd]. rewrite dappend_last by exact H. rewrite IH by exact H.
  rewrite <- app_assoc. reflexivity.
Qed.
Lemma rebuild_flatten : forall fc, NoDup (map fst fc) ->
  rebuild (flatten fc) = filter (fun e => match snd e with [] => false | _ => true end) fc.
Proof.
  intros fc ND. unfold rebuild.
  assert (K : forall fc d, NoDup (map fst fc) -> (forall k, In k (map fst fc) -> ~ In k (map fst d)) ->
    fold_left (fun d c => dpush Z.eqb (fst c) (snd c) d) (flatten fc) d
    = d ++ filter (fun e => match snd e with [] => false | _ => true end) fc).
  { clear. induction fc as [|[k l] fc IH]; intros d ND H; [rewrite app_nil_r; reflexivity|].
    inversion ND as [|? ? N1 N2]; subst. unfold flatten. cbn [flat_map fst snd]. fold (flatten fc). rewrite fold_left_app.
    cbn [filter snd]. destruct l as [|p l].
    - cbn [map fold_left]. rewrite IH; [reflexivity|exact N2|]. intros k' Hk'. apply H. right. exact Hk'.
    - cbn [map fold_left fst snd]. unfold dpush at 3.
      replace (dappend Z.eqb k p d) with (@None (list (Z * list nat))).
      2:{ symmetry. apply dappend_none, dget_notin, H. left. reflexivity. }
      rewrite push_all by (apply H; left; reflexivity). cbn [app].
      rewrite IH.
      + rewrite <- app_assoc. reflexivity.
      + exact N2.
      + intros k' Hk'. rewrite map_app. intros Hin. apply in_app_or in Hin as [Hin|[<-|[]]].
        * revert Hin. apply H. right. exact Hk'.
        * tauto. }
  rewrite K; [reflexivity|exact ND|intros ? _ []].
Qed.

(** ** build_local_commun: sending *)
Section Send.
Variable tm : Z -> option Z.
Variable loc : Z -> Z.

Lemma push_neighs g : forall ns d, NoDup ns -> no_empty d -> tm g = Some (loc g) ->
  exists d', ofold (fun d neigh =>
      match tm g with Some l => Some (dpush Nat.eqb neigh (g, l) d) | None => None end) ns d = Some d' /\
    no_empty d' /\ forall q, dlist d' q = dlist d q ++ (if existsb (Nat.eqb q) ns then [(g, loc g)] else []).
Proof.
  intros ns d ND NE Hg. rewrite Hg. revert d NE. induction ND as [|n ns Hn ND IH]; intros d NE.
  - exists d. cbn [ofold existsb]. split; [reflexivity|]. split; [exact NE|]. intros q. rewrite app_nil_r. reflexivity.
  - cbn [ofold]. destruct (IH (dpush Nat.eqb n (g, loc g) d)) as (d' & E & NE' & L); [apply dpush_no_empty, NE|].
    exists d'. split; [exact E|]. split; [exact NE'|]. intros q. rewrite L, dpush_list. cbn [existsb].
    destruct (Nat.eqb_spec q n) as [->|]; cbn [orb]; [|reflexivity].
    replace (existsb (Nat.eqb n) ns) with false; [rewrite app_nil_r; reflexivity|].
    symmetry. destruct (existsb (Nat.eqb n) ns) eqn:X; [|reflexivity]. apply existsb_exists in X as (y & Hy & Ey).
    apply Nat.eqb_eq in Ey. subst. tauto.
Qed.

Lemma tmp_send_run : forall fc d, no_empty d -> (forall e, In e fc -> NoDup (snd e)) ->
  (forall e, In e fc -> snd e <> [] -> tm (fst e) = Some (loc (fst e))) ->
  exists d', ofold (fun d e =>
    ofold (fun d neigh =>
      match tm (fst e) with Some l => Some (dpush Nat.eqb neigh (fst e, l) d) | None => None end)
      (snd e) d) fc d = Some d' /\
    no_empty d' /\
    forall q, dlist d' q = dlist d q ++ map (fun g => (g, loc g)) (map fst (filter (fun e => existsb (Nat.eqb q) (snd e)) fc)).
Proof.
  induction fc as [|[g ns] fc IH]; intros d NE HN HT.
  - exists d. split; [reflexivity|]. split; [exact NE|]. intros q. cbn. rewrite app_nil_r. reflexivity.
  - cbn [ofold fst snd].
    assert (P : exists d1, ofold (fun d neigh =>
      match tm g with Some l => Some (dpush Nat.eqb neigh (g, l) d) | None => None end) ns d = Some d1 /\
      no_empty d1 /\ forall q, dlist d1 q = dlist d q ++ (if existsb (Nat.eqb q) ns then [(g, loc g)] else [])).
    { destruct ns as [|n ns].
      - exists d. split; [reflexivity|]. split; [exact NE|]. intros q. rewrite app_nil_r. reflexivity.
      - apply push_neighs; [apply (HN _ (or_introl eq_refl))|exact NE|apply (HT _ (or_introl eq_refl)); discriminate]. }
    destruct P as (d1 & -> & NE1 & L1).
    destruct (IH d1 NE1) as (d' & E & NE' & L'); [intros; apply HN; right; assumption|intros e He; apply HT; right; exact He|].
    exists d'. split; [exact E|]. split; [exact NE'|]. intros q. rewrite L', L1, <- app_assoc. f_equal.
    cbn [filter snd]. destruct (existsb (Nat.eqb q) ns); reflexivity.
Qed.
End Send.

Lemma dget_map {V W} (f : V -> W) (d : list (nat * V)) q :
  dget Nat.eqb (map (fun e => (fst e, f (snd e))) d) q = option_map f (dget Nat.eqb d q).
Proof. induction d as [|[k v] d IH]; cbn [map dget fst snd]; [reflexivity|]. destruct (q =? k)%nat; [reflexivity|exact IH]. Qed.

(** ** The local numbering *)
Section TriMap.
Variables (lo hi : Z) (ghosts : list Z).
Hypothesis Hlo : 0 <= lo <= hi.
Hypothesis GND : NoDup ghosts.
Hypothesis Gout : forall g, In g ghosts -> 0 <= g /\ ~ (lo <= g < hi).

Lemma tri_map_step : forall gs k m, NoDup gs -> forall x,
  fold_left (fun m ig => fun x => if x =? snd ig then Z.of_nat (fst ig) + hi - lo else m x)
    (combine (seq k (length gs)) gs) m x =
  match find (fun ig => x =? snd ig) (combine (seq k (length gs)) gs) with
  | Some ig => Z.of_nat (fst ig) + hi - lo
  | None => m x
  end.
Proof.
  induction gs as [|g gs IH]; intros k m ND x; [reflexivity|]. inversion ND; subst.
  cbn [length seq combine fold_left find snd fst]. rewrite IH by assumption.
  destruct (Z.eqb_spec x g) as [->|]; [|reflexivity].
  destruct (find _ _) as [ig|] eqn:F; [|reflexivity]. exfalso. apply find_some in F as [Hin E]. apply Z.eqb_eq in E.
  destruct ig as [i y]. cbn [snd] in E. subst y. apply in_combine_r in Hin. tauto.
Qed.

Lemma tri_map_full x : lo <= x < hi -> tri_map lo hi ghosts x = x - lo.
Proof.
  intros H. unfold tri_map. rewrite tri_map_step by exact GND.
  destruct (find _ _) as [[i y]|] eqn:F.
  - apply find_some in F as [Hin E]. apply Z.eqb_eq in E. cbn [snd] in E. subst y. apply in_combine_r in Hin.
    destruct (Gout x Hin). lia.
  - destruct (Z.leb_spec lo x), (Z.ltb_spec x hi); try lia. reflexivity.
Qed.
Lemma find_combine x : forall gs k i, NoDup gs -> nth_error gs i = Some x ->
  find (fun ig : nat * Z => x =? snd ig) (combine (seq k (length gs)) gs) = Some ((k + i)%nat, x).
Proof.
  induction gs as [|g gs IH]; intros k i ND H; [destruct i; discriminate|]. inversion ND; subst.
  cbn [length seq combine find snd]. destruct i as [|i].
  - cbn [nth_error] in H. injection H as ->. rewrite Z.eqb_refl. rewrite Nat.add_0_r. reflexivity.
  - cbn [nth_error] in H. destruct (Z.eqb_spec x g) as [->|].
    + apply nth_error_In in H. tauto.
    + rewrite (IH (S k) i) by assumption. f_equal. f_equal. lia.
Qed.
Lemma tri_map_ghost i g : nth_error ghosts i = Some g -> tri_map lo hi ghosts g = Z.of_nat i + hi - lo.
Proof.
  intros H. unfold tri_map. rewrite tri_map_step by exact GND. rewrite (find_combine g ghosts 0 i GND H). reflexivity.
Qed.
Lemma fold_max_ge : forall l a, a <= fold_left Z.max l a /\ forall x, In x l -> x <= fold_left Z.max l a.
Proof.
  induction l as [|y l IH]; intros a; cbn [fold_left].
  - split; [lia|]. intros x [].
  - destruct (IH (Z.max a y)) as [A B]. split; [lia|]. intros x [<-|Hx]; [lia|auto].
Qed.
Lemma tget_ok g : lo <= g < hi \/ In g ghosts ->
  tget (tri_map_len hi ghosts) (tri_map lo hi ghosts) g = Some (tri_map lo hi ghosts g).
Proof.
  intros H. unfold tget, tri_map_len. destruct (fold_max_ge ghosts hi) as [A B].
  destruct H as [H|H].
  - destruct (Z.leb_spec 0 g), (Z.ltb_spec g (fold_left Z.max ghosts hi + 1)); try lia. reflexivity.
  - specialize (B g H). destruct (Gout g H).
    destruct (Z.leb_spec 0 g), (Z.ltb_spec g (fold_left Z.max ghosts hi + 1)); try lia. reflexivity.
Qed.
(** The local mesh lists the full and then the ghost triangles. *)
Lemma local_position g : lo <= g < hi \/ In g ghosts ->
  0 <= tri_map lo hi ghosts g /\ nth_error (arange lo hi ++ ghosts) (Z.to_nat (tri_map lo hi ghosts g)) = Some g.
Proof.
  intros [H|H].
  - rewrite tri_map_full by exact H. split; [lia|]. rewrite nth_error_app1 by (rewrite arange_length; lia).
    rewrite arange_nth by lia. f_equal. lia.
  - apply In_nth_error in H as (i & Hi). rewrite (tri_map_ghost i g Hi). split; [lia|].
    rewrite nth_error_app2 by (rewrite arange_length; lia). rewrite arange_length. rewrite <- Hi. f_equal. lia.
Qed.
End TriMap.

(** ** build_local_commun: receiving *)
Section Recv.
Variable tpp : list nat.
Variable ghosts : list Z.
Hypothesis Gs : ssorted ghosts.
Variable tm : Z -> option Z.
Variable loc : Z -> Z.
Hypothesis Htm : forall g, In g ghosts -> tm g = Some (loc g).
Let owner (g : Z) : nat := searchsorted (map (fun r => snd r - 1) (ranges 0 tpp)) g.

Lemma ghost_recv_run nproc : exists r, ghost_recv tm (ghost_commun tpp ghosts) nproc = Some r /\
  forall c, (c < nproc)%nat -> dget Nat.eqb r c =
    match filter (fun g => (owner g =? c)%nat) ghosts with
    | [] => None
    | d => Some (map loc d, d)
    end.
Proof.
  unfold ghost_recv.
  assert (E1 : map fst (ghost_commun tpp ghosts) = ghosts).
  { unfold ghost_commun. rewrite map_map. cbn [fst]. apply map_id. }
  assert (E2 : map (fun g => Z.of_nat (snd g)) (ghost_commun tpp ghosts) = map (fun g => Z.of_nat (owner g)) ghosts).
  { unfold ghost_commun. rewrite map_map. reflexivity. }
  rewrite E1, E2. rewrite (zsort_id ghosts) by (apply sorted_le, Gs).
  rewrite (zsort_id (map _ ghosts)).
  2:{ apply (sorted_map_le Z.lt); [exact Gs|]. intros x y _ _ L. apply Nat2Z.inj_le, searchsorted_mono. lia. }
  assert (E3 : forall c l, map fst (filter (fun x : Z * Z => snd x =? Z.of_nat c) (combine l (map (fun g => Z.of_nat (owner g)) l)))
                         = filter (fun g => (owner g =? c)%nat) l).
  { intros c. induction l as [|g l IH]; [reflexivity|]. cbn [map combine filter snd].
    destruct (Z.eqb_spec (Z.of_nat (owner g)) (Z.of_nat c)), (Nat.eqb_spec (owner g) c); try lia; cbn [map fst]; rewrite IH; reflexivity. }
  set (part := fun c => filter (fun g => (owner g =? c)%nat) ghosts).
  set (entry := fun c => match part c with [] => [] | d => [(c, (map loc d, d))] end).
  assert (E4 : forall l, osequence (flat_map (fun c =>
    let d := map fst (filter (fun x => snd x =? Z.of_nat c) (combine ghosts (map (fun g => Z.of_nat (owner g)) ghosts))) in
    match d with
    | [] => []
    | _ => [match osequence (map tm d) with Some l => Some (c, (l, d)) | None => None end]
    end) l) = Some (flat_map entry l)).
  { induction l as [|c l IH]; [reflexivity|]. cbn [flat_map]. rewrite E3. fold (part c). cbv zeta in IH |- *. unfold entry at 1.
    destruct (part c) as [|g d] eqn:Ep; [exact IH|]. rewrite <- Ep. rewrite (osequence_map tm loc).
    - cbn [app osequence]. rewrite IH. reflexivity.
    - intros x Hx. apply Htm. unfold part in Hx. apply filter_In in Hx. tauto. }
  rewrite E4. eexists. split; [reflexivity|]. intros c Hc.
  assert (K : forall l, NoDup l -> dget Nat.eqb (flat_map entry l) c =
     if existsb (Nat.eqb c) l then match part c with [] => None | d => Some (map loc d, d) end else None).
  { induction l as [|c' l IH]; intros ND; [reflexivity|]. inversion ND as [|? ? N1 N2]; subst. cbn [flat_map existsb].
    rewrite dget_app, IH by exact N2. destruct (Nat.eqb_spec c c') as [->|Nc]; cbn [orb].
    - replace (existsb (Nat.eqb c') l) with false.
      2:{ symmetry. destruct (existsb (Nat.eqb c') l) eqn:X; [|reflexivity]. apply existsb_exists in X as (y & Hy & Ey).
          apply Nat.eqb_eq in Ey. subst. tauto. }
      unfold entry. destruct (part c') as [|g d]; [reflexivity|]. cbn [dget]. rewrite Nat.eqb_refl. reflexivity.
    - unfold entry at 1. destruct (part c') as [|g d]; [reflexivity|]. cbn [dget].
      destruct (Nat.eqb_spec c c'); [congruence|]. reflexivity. }
  rewrite K by apply seq_NoDup. replace (existsb (Nat.eqb c) (seq 0 nproc)) with true; [reflexivity|].
  symmetry. apply existsb_exists. exists c. split; [apply in_seq; lia|apply Nat.eqb_refl].
Qed.
End Recv.
