(** Lemmas about the distribution of a mesh. *)
From Coq Require Import List ZArith Lia Bool Sorted.
From Verif Require Import DistributeModel.
Import ListNotations.
Local Open Scope Z_scope.

(** ** Sorted lists *)
Notation ssorted := (StronglySorted Z.lt).

Lemma zmem_In x l : zmem x l = true <-> In x l.
Proof.
  unfold zmem. rewrite existsb_exists. split.
  - intros (y & Hy & E). apply Z.eqb_eq in E. subst. exact Hy.
  - intros H. exists x. split; [exact H|apply Z.eqb_refl].
Qed.
Lemma zmem_false x l : zmem x l = false <-> ~ In x l.
Proof. rewrite <- zmem_In. destruct (zmem x l); split; congruence. Qed.

Lemma uinsert_In x y l : In y (uinsert x l) <-> y = x \/ In y l.
Proof.
  induction l as [|z l IH]; cbn [uinsert]; [simpl; intuition|].
  destruct (Z.ltb_spec x z); [simpl; intuition|].
  destruct (Z.eqb_spec x z); [subst; simpl; intuition|]. simpl. rewrite IH. intuition.
Qed.
Lemma unique_In y l : In y (unique l) <-> In y l.
Proof. induction l as [|x l IH]; [reflexivity|]. cbn [unique fold_right]. fold (unique l). rewrite uinsert_In, IH. simpl. intuition. Qed.
Lemma uinsert_sorted x l : ssorted l -> ssorted (uinsert x l).
Proof.
  induction 1 as [|z l H IH F]; cbn [uinsert]; [repeat constructor|].
  destruct (Z.ltb_spec x z).
  - constructor; [constructor; assumption|]. constructor; [assumption|]. eapply Forall_impl; [|exact F]. intros; lia.
  - destruct (Z.eqb_spec x z); [constructor; assumption|]. constructor; [exact IH|].
    apply Forall_forall. intros y Hy. apply uinsert_In in Hy. rewrite Forall_forall in F. destruct Hy as [->|Hy]; [lia|auto].
Qed.
Lemma unique_sorted l : ssorted (unique l).
Proof. induction l; [constructor|]. apply uinsert_sorted. assumption. Qed.
Lemma filter_sorted f l : ssorted l -> ssorted (filter f l).
Proof.
  induction 1 as [|z l H IH F]; cbn [filter]; [constructor|]. destruct (f z); [|exact IH].
  constructor; [exact IH|]. apply Forall_forall. intros y Hy. apply filter_In in Hy. rewrite Forall_forall in F. apply F. tauto.
Qed.
Lemma sorted_eq : forall a b, ssorted a -> ssorted b -> (forall x, In x a <-> In x b) -> a = b.
Proof.
  induction a as [|x a IH]; intros [|y b] Ha Hb H.
  - reflexivity.
  - exfalso. apply (proj2 (H y)). left. reflexivity.
  - exfalso. apply (proj1 (H x)). left. reflexivity.
  - inversion Ha as [|x' a' Ha' Fa]; subst. inversion Hb as [|y' b' Hb' Fb]; subst.
    rewrite Forall_forall in Fa, Fb.
    assert (x = y).
    { destruct (proj1 (H x) (or_introl eq_refl)) as [|Hx]; [auto|].
      destruct (proj2 (H y) (or_introl eq_refl)) as [|Hy]; [auto|].
      specialize (Fa y Hy). specialize (Fb x Hx). lia. }
    subst y. f_equal. apply IH; [exact Ha'|exact Hb'|].
    intros z. split; intros Hz.
    + destruct (proj1 (H z) (or_intror Hz)) as [<-|]; [|assumption]. specialize (Fa x Hz). lia.
    + destruct (proj2 (H z) (or_intror Hz)) as [<-|]; [|assumption]. specialize (Fb x Hz). lia.
Qed.
Lemma sorted_NoDup l : ssorted l -> NoDup l.
Proof.
  induction 1 as [|z l H IH F]; constructor; [|exact IH]. intros Hin. rewrite Forall_forall in F. specialize (F z Hin). lia.
Qed.
Lemma zsort_id l : StronglySorted Z.le l -> zsort l = l.
Proof.
  induction 1 as [|x l H IH F]; [reflexivity|]. cbn [zsort fold_right]. fold (zsort l). rewrite IH.
  destruct l as [|y l]; [reflexivity|]. cbn [zinsert]. inversion F; subst. destruct (Z.leb_spec x y); [reflexivity|lia].
Qed.
Lemma sorted_map_le {A} (R : A -> A -> Prop) (f : A -> Z) l : StronglySorted R l ->
  (forall x y, In x l -> In y l -> R x y -> f x <= f y) -> StronglySorted Z.le (map f l).
Proof.
  induction 1 as [|x l H IH F]; intros M; cbn [map]; [constructor|]. constructor.
  - apply IH. intros a b Ha Hb. apply M; right; assumption.
  - apply Forall_forall. intros y Hy. apply in_map_iff in Hy as (z & <- & Hz). rewrite Forall_forall in F.
    apply M; [left; reflexivity|right; exact Hz|apply F, Hz].
Qed.
Lemma sorted_le l : ssorted l -> StronglySorted Z.le l.
Proof. intros H. rewrite <- (map_id l). apply (sorted_map_le Z.lt); [exact H|]. intros; lia. Qed.

Lemma arange_In x lo hi : In x (arange lo hi) <-> lo <= x < hi.
Proof.
  unfold arange. rewrite in_map_iff. split.
  - intros (i & <- & Hi). apply in_seq in Hi. lia.
  - intros H. exists (Z.to_nat (x - lo)). split; [lia|]. apply in_seq. lia.
Qed.
Lemma arange_sorted lo hi : ssorted (arange lo hi).
Proof.
  unfold arange. generalize 0%nat. induction (Z.to_nat (hi - lo)) as [|n IH]; intros k; cbn [seq map]; [constructor|].
  constructor; [apply IH|]. apply Forall_forall. intros y Hy. apply in_map_iff in Hy as (i & <- & Hi). apply in_seq in Hi. lia.
Qed.
Lemma arange_length lo hi : length (arange lo hi) = Z.to_nat (hi - lo).
Proof. unfold arange. rewrite map_length, seq_length. reflexivity. Qed.
Lemma arange_nth lo hi i : (i < Z.to_nat (hi - lo))%nat -> nth_error (arange lo hi) i = Some (lo + Z.of_nat i).
Proof.
  intros H. unfold arange. rewrite nth_error_map.
  rewrite (nth_error_nth' (seq 0 (Z.to_nat (hi - lo))) 0%nat) by (rewrite seq_length; exact H).
  rewrite seq_nth by exact H. reflexivity.
Qed.

(** ** Ranges and owners *)
Lemma ranges_length : forall tpp lo, length (ranges lo tpp) = length tpp.
Proof. induction tpp as [|c tpp IH]; intros lo; cbn [ranges length]; [reflexivity|]. rewrite IH. reflexivity. Qed.

Definition total (tpp : list nat) : Z := Z.of_nat (fold_right plus 0%nat tpp).

Lemma owner_in : forall tpp lo g, lo <= g < lo + total tpp ->
  let p := searchsorted (map (fun r => snd r - 1) (ranges lo tpp)) g in
  (p < length tpp)%nat /\ fst (nth p (ranges lo tpp) (0, 0)) <= g < snd (nth p (ranges lo tpp) (0, 0)).
Proof.
  induction tpp as [|c tpp IH]; intros lo g H; cbv zeta.
  - unfold total in H. simpl in H. lia.
  - cbn [ranges map searchsorted]. cbv zeta. destruct (Z.leb_spec g (snd (lo, Z.of_nat c + lo) - 1)) as [L|L]; cbn [snd] in L.
    + cbn [nth fst snd length]. lia.
    + unfold total in H. cbn [fold_right] in H.
      destruct (IH (Z.of_nat c + lo) g) as [A B]; [unfold total; lia|].
      cbn [nth length]. split; [lia|exact B].
Qed.
Lemma owner_unique : forall tpp lo g p, lo <= g -> (p < length tpp)%nat ->
  fst (nth p (ranges lo tpp) (0, 0)) <= g < snd (nth p (ranges lo tpp) (0, 0)) ->
  searchsorted (map (fun r => snd r - 1) (ranges lo tpp)) g = p.
Proof.
  induction tpp as [|c tpp IH]; intros lo g p Hlo Hp H; [simpl in Hp; lia|].
  cbn [ranges map searchsorted] in *. cbv zeta in *. cbn [snd]. 
  destruct p as [|p].
  - cbn [nth fst snd] in H. destruct (Z.leb_spec g (Z.of_nat c + lo - 1)); [reflexivity|lia].
  - cbn [nth] in H. cbn [length] in Hp.
    assert (G : forall tpp lo p, lo <= fst (nth p (ranges lo tpp) (lo, lo))).
    { clear. induction tpp as [|c tpp IH]; intros lo p; cbn [ranges]; [destruct p; simpl; lia|].
      destruct p as [|p]; cbn [nth fst]; [lia|].
      destruct (lt_dec p (length (ranges (Z.of_nat c + lo) tpp))) as [L|L].
      - rewrite (nth_indep _ _ (Z.of_nat c + lo, Z.of_nat c + lo) L). specialize (IH (Z.of_nat c + lo) p). lia.
      - rewrite nth_overflow by lia. simpl. lia. }
    assert (L : (p < length (ranges (Z.of_nat c + lo) tpp))%nat) by (rewrite ranges_length; lia).
    specialize (G tpp (Z.of_nat c + lo) p). rewrite (nth_indep _ _ (0, 0) L) in G.
    destruct (Z.leb_spec g (Z.of_nat c + lo - 1)); [lia|]. f_equal. apply IH; [lia|lia|exact H].
Qed.
Lemma searchsorted_mono : forall a x y, x <= y -> (searchsorted a x <= searchsorted a y)%nat.
Proof.
  induction a as [|z a IH]; intros x y H; cbn [searchsorted]; [lia|].
  destruct (Z.leb_spec x z), (Z.leb_spec y z); try lia. apply le_n_S, IH, H.
Qed.

Lemma rng_bounds tpp p : (p < length tpp)%nat ->
  0 <= fst (rng tpp p) /\ fst (rng tpp p) <= snd (rng tpp p) /\ snd (rng tpp p) <= total tpp /\
  snd (rng tpp p) - fst (rng tpp p) = Z.of_nat (nth p tpp 0%nat).
Proof.
  unfold rng.
  assert (G : forall tpp lo p, (p < length tpp)%nat ->
    lo <= fst (nth p (ranges lo tpp) (0, 0)) /\ fst (nth p (ranges lo tpp) (0, 0)) <= snd (nth p (ranges lo tpp) (0, 0)) /\
    snd (nth p (ranges lo tpp) (0, 0)) <= lo + total tpp /\
    snd (nth p (ranges lo tpp) (0, 0)) - fst (nth p (ranges lo tpp) (0, 0)) = Z.of_nat (nth p tpp 0%nat)).
  { clear. induction tpp as [|c tpp IH]; intros lo p H; [simpl in H; lia|]. cbn [ranges]. cbv zeta.
    unfold total. cbn [fold_right]. destruct p as [|p].
    - cbn [nth fst snd]. lia.
    - cbn [nth]. cbn [length] in H. destruct (IH (Z.of_nat c + lo) p) as (A & B & C & E); [lia|].
      unfold total in C. lia. }
  intros H. destruct (G tpp 0 p H) as (A & B & C & E). lia.
Qed.
(** ** The ghost layers *)
Section Ghost.
Variable neighbours : Z -> list Z.
Variables lo hi : Z.

Lemma outside_In n ids : In n (outside neighbours lo hi ids) <->
  0 <= n /\ ~ (lo <= n < hi) /\ exists t, In t ids /\ In n (neighbours t).
Proof.
  unfold outside. rewrite !filter_In, unique_In, in_flat_map, orb_true_iff, Z.ltb_lt, !Z.leb_le.
  split; [intros [[(t & Ht & Hn) H0] Ho]|intros (H0 & Ho & t & Ht & Hn)].
  - split; [exact H0|]. split; [lia|]. eauto.
  - split; [split; [eauto|exact H0]|lia].
Qed.
Lemma outside_sorted ids : ssorted (outside neighbours lo hi ids).
Proof. apply filter_sorted, filter_sorted, unique_sorted. Qed.

Lemma setdiff_In x a b : In x (setdiff1d a b) <-> In x a /\ ~ In x b.
Proof. unfold setdiff1d. rewrite filter_In, unique_In, negb_true_iff, zmem_false. reflexivity. Qed.
Lemma setdiffs_In x : forall ls a, In x (fold_left setdiff1d ls a) <-> In x a /\ forall l, In l ls -> ~ In x l.
Proof.
  induction ls as [|l ls IH]; intros a; cbn [fold_left].
  - split; [intros; split; [assumption|intros ? []]|tauto].
  - rewrite IH, setdiff_In. split.
    + intros [[A B] C]. split; [exact A|]. intros l' [<-|]; auto.
    + intros [A B]. split; [split; [exact A|apply B; left; reflexivity]|]. intros; apply B; right; assumption.
Qed.

Definition add_layer (layers : list (list Z)) : list (list Z) :=
  fold_left setdiff1d (rev layers) (outside neighbours lo hi (hd [] layers)) :: layers.
Lemma more_layers_S : forall k layers,
  more_layers neighbours lo hi (S k) layers = add_layer (more_layers neighbours lo hi k layers).
Proof.
  induction k as [|k IH]; intros layers; [reflexivity|].
  change (more_layers neighbours lo hi (S (S k)) layers) with (more_layers neighbours lo hi (S k) (add_layer layers)).
  rewrite IH. reflexivity.
Qed.

Definition in_layers (layers : list (list Z)) (x : Z) : Prop := exists l, In l layers /\ In x l.

(** Triangles reached from the range by at most [k] edges. *)
Inductive within : nat -> Z -> Prop :=
| within_full : forall k t, lo <= t < hi -> within k t
| within_step : forall k t n, within k t -> In n (neighbours t) -> 0 <= n -> within (S k) n.

Let layers (k : nat) := more_layers neighbours lo hi k [outside neighbours lo hi (arange lo hi)].

Lemma layers_nonempty k : layers k <> [].
Proof. unfold layers. destruct k; [discriminate|]. rewrite more_layers_S. discriminate. Qed.

(** Neighbours of all but the newest layer are full or in the layers. *)
Lemma layers_closed k : forall t n, ((lo <= t < hi) \/ in_layers (tl (layers k)) t) -> In n (neighbours t) -> 0 <= n ->
  lo <= n < hi \/ in_layers (layers k) n.
Proof.
  assert (Z0 : forall n, lo <= n < hi \/ ~ (lo <= n < hi)) by (intros; lia).
  induction k as [|k IH]; intros t n Ht Hn H0.
  - destruct (Z0 n) as [|No]; [left; assumption|right]. destruct Ht as [Ht|(l & [] & _)].
    exists (outside neighbours lo hi (arange lo hi)). split; [left; reflexivity|]. apply outside_In.
    split; [exact H0|]. split; [exact No|]. exists t. split; [apply arange_In, Ht|exact Hn].
  - destruct (Z0 n) as [|No]; [left; assumption|right]. unfold layers. rewrite more_layers_S. fold (layers k).
    unfold layers in Ht. rewrite more_layers_S in Ht. fold (layers k) in Ht. unfold add_layer in Ht. cbn [tl] in Ht.
    assert (Old : in_layers (layers k) n -> in_layers (add_layer (layers k)) n).
    { intros (l & Hl & Hx). exists l. split; [right; exact Hl|exact Hx]. }
    destruct Ht as [Ht|(l & Hl & Hx)].
    { destruct (IH t n (or_introl Ht) Hn H0) as [|A]; [tauto|]. apply Old, A. }
    pose proof (layers_nonempty k) as NE. destruct (layers k) as [|h tlk] eqn:E; [congruence|]. clear NE.
    destruct Hl as [<-|Hl].
    + (* the newest layer *)
      assert (D : (exists l', In l' (h :: tlk) /\ In n l') \/ (forall l', In l' (h :: tlk) -> ~ In n l')).
      { destruct (existsb (zmem n) (h :: tlk)) eqn:Ex.
        - left. apply existsb_exists in Ex as (l' & Hl' & Hm). exists l'. split; [exact Hl'|apply zmem_In, Hm].
        - right. intros l' Hl' Hm. assert (existsb (zmem n) (h :: tlk) = true); [|congruence].
          apply existsb_exists. exists l'. split; [exact Hl'|apply zmem_In, Hm]. }
      destruct D as [(l' & Hl' & Hm)|D].
      * apply Old. exists l'. auto.
      * exists (fold_left setdiff1d (rev (h :: tlk)) (outside neighbours lo hi h)). split; [left; reflexivity|].
        apply setdiffs_In. split.
        -- apply outside_In. split; [exact H0|]. split; [exact No|]. exists t. auto.
        -- intros l' Hl'. apply D. apply in_rev. exact Hl'.
    + cbn [tl] in IH. assert (Ht : in_layers tlk t) by (exists l; auto).
      destruct (IH t n (or_intror Ht) Hn H0) as [|A]; [tauto|apply Old, A].
Qed.

Lemma within_layers : forall k t, within (S k) t -> lo <= t < hi \/ in_layers (layers k) t.
Proof.
  assert (G : forall m t, within m t -> forall k, m = S k -> lo <= t < hi \/ in_layers (layers k) t).
  { induction 1 as [m t Ht|m t n Ht IH Hn H0]; intros k E; [left; exact Ht|]. injection E as ->.
    destruct k as [|k].
    - inversion Ht; subst. destruct (layers_closed 0 t n) as [|A]; auto.
    - destruct (IH k eq_refl) as [F|F].
      + destruct (layers_closed (S k) t n) as [|A]; auto.
      + destruct (layers_closed (S k) t n) as [|A]; auto. right. unfold layers. rewrite more_layers_S. cbn [add_layer tl]. exact F. }
  intros k t H. exact (G (S k) t H k eq_refl).
Qed.

Lemma layers_within : forall k l x, In l (layers k) -> In x l ->
  0 <= x /\ ~ (lo <= x < hi) /\ within (S k) x.
Proof.
  assert (Up : forall a t, within a t -> forall b, (a <= b)%nat -> within b t).
  { induction 1 as [m t Ht|m t n Ht IH Hn H0]; intros b Hb; [apply within_full; exact Ht|].
    destruct b as [|b]; [lia|]. eapply within_step; [apply IH; lia|exact Hn|exact H0]. }
  induction k as [|k IH]; intros l x Hl Hx.
  - destruct Hl as [<-|[]]. apply outside_In in Hx as (A & B & t & Ht & Hn). split; [exact A|]. split; [exact B|].
    eapply within_step; [apply within_full, arange_In, Ht|exact Hn|exact A].
  - unfold layers in Hl. rewrite more_layers_S in Hl. fold (layers k) in Hl. destruct Hl as [<-|Hl].
    + apply setdiffs_In in Hx as [Hx _]. apply outside_In in Hx as (A & B & t & Ht & Hn). split; [exact A|]. split; [exact B|].
      pose proof (layers_nonempty k) as NE. destruct (layers k) as [|h tlk]; [congruence|]. cbn [hd] in Ht.
      destruct (IH h t (or_introl eq_refl) Ht) as (_ & _ & W). eapply within_step; eassumption.
    + destruct (IH l x Hl Hx) as (A & B & C). split; [exact A|]. split; [exact B|]. eapply Up; [exact C|lia].
Qed.

Lemma unions_In x : forall ls a, In x (fold_left union1d ls a) <-> In x a \/ in_layers ls x.
Proof.
  induction ls as [|l ls IH]; intros a; cbn [fold_left].
  - split; [auto|]. intros [|(l & [] & _)]; assumption.
  - rewrite IH. unfold union1d. rewrite unique_In, in_app_iff. unfold in_layers. split.
    + intros [[|]|(l' & Hl & Hx)]; auto; right; [exists l|exists l']; split; auto; [left; reflexivity|right; exact Hl].
    + intros [|(l' & [<-|Hl] & Hx)]; auto. right. exists l'. auto.
Qed.
Lemma ghost_ids_In w x : In x (ghost_ids neighbours lo hi w) <-> in_layers (layers (w - 1)) x.
Proof.
  unfold ghost_ids. fold (layers (w - 1)). rewrite unions_In. unfold in_layers.
  pose proof (layers_nonempty (w - 1)) as NE.
  assert (R : rev (layers (w - 1)) <> []).
  { intros E. apply NE. rewrite <- (rev_involutive (layers (w - 1))), E. reflexivity. }
  destruct (rev (layers (w - 1))) as [|h t] eqn:E; [congruence|]. cbn [hd tl].
  assert (M : forall l, In l (layers (w - 1)) <-> In l (h :: t)) by (intros l; rewrite <- E; apply in_rev).
  split.
  - intros [Hx|(l & Hl & Hx)]; [exists h|exists l]; split; auto; apply M; [left; reflexivity|right; exact Hl].
  - intros (l & Hl & Hx). apply M in Hl. destruct Hl as [->|Hl]; [left; exact Hx|right; exists l; auto].
Qed.
Lemma ghost_ids_sorted w : ssorted (ghost_ids neighbours lo hi w).
Proof.
  unfold ghost_ids.
  assert (F : forall l, In l (rev (more_layers neighbours lo hi (w - 1) [outside neighbours lo hi (arange lo hi)])) -> ssorted l).
  { intros l Hl. apply in_rev in Hl. fold (layers (w - 1)) in Hl. revert l Hl.
    induction (w - 1)%nat as [|k IH]; intros l Hl.
    - destruct Hl as [<-|[]]. apply outside_sorted.
    - unfold layers in Hl. rewrite more_layers_S in Hl. fold (layers k) in Hl. destruct Hl as [<-|Hl]; [|auto].
      assert (G : forall ls a, ssorted a -> ssorted (fold_left setdiff1d ls a)).
      { induction ls as [|b ls IHl]; intros a Ha; cbn [fold_left]; [exact Ha|]. apply IHl, filter_sorted, unique_sorted. }
      apply G, outside_sorted. }
  revert F. generalize (rev (more_layers neighbours lo hi (w - 1) [outside neighbours lo hi (arange lo hi)])). intros ls F.
  assert (G : forall ls a, ssorted a -> ssorted (fold_left union1d ls a)).
  { induction ls0 as [|b ls0 IHl]; intros a Ha; cbn [fold_left]; [exact Ha|]. apply IHl, unique_sorted. }
  apply G. destruct ls as [|h t]; [constructor|]. apply F. left. reflexivity.
Qed.
End Ghost.

(** ** Dictionaries *)
Lemma dget_dappend {K V} (eqb : K -> K -> bool) (Heq : forall a b, eqb a b = true <-> a = b) (k : K) (v : V) : forall d d',
  dappend eqb k v d = Some d' -> forall q,
  dget eqb d' q = if eqb q k then match dget eqb d q with Some l => Some (l ++ [v]) | None => None end else dget eqb d q.
Proof.
  induction d as [|[k' l] d IH]; intros d' H q; cbn [dappend] in H; [discriminate|].
  destruct (eqb k k') eqn:E.
  - injection H as <-. cbn [dget]. apply Heq in E. subst k'.
    destruct (eqb q k) eqn:E2; [reflexivity|]. reflexivity.
  - destruct (dappend eqb k v d) as [r'|] eqn:D; [|discriminate]. injection H as <-. cbn [dget].
    rewrite (IH r' eq_refl q). destruct (eqb q k') eqn:E2; [|reflexivity].
    destruct (eqb q k) eqn:E3; [|reflexivity]. apply Heq in E2, E3. assert (eqb k k' = true) by (apply Heq; congruence). congruence.
Qed.
Lemma dappend_none {K V} (eqb : K -> K -> bool) (k : K) (v : V) : forall d,
  dappend eqb k v d = None <-> dget eqb d k = None.
Proof.
  induction d as [|[k' l] d IH]; cbn [dappend dget]; [tauto|].
  destruct (eqb k k'); [split; discriminate|]. destruct (dappend eqb k v d); split; try discriminate; try tauto.
  intros H. apply IH in H. discriminate.
Qed.
Lemma dget_app {K V} (eqb : K -> K -> bool) (a b : list (K * V)) q :
  dget eqb (a ++ b) q = match dget eqb a q with Some v => Some v | None => dget eqb b q end.
Proof. induction a as [|[k v] a IH]; cbn [app dget]; [reflexivity|]. destruct (eqb q k); [reflexivity|exact IH]. Qed.

Definition dlist {V} (d : list (nat * list V)) (q : nat) : list V :=
  match dget Nat.eqb d q with Some l => l | None => [] end.
Definition no_empty {V} (d : list (nat * list V)) : Prop := forall q l, dget Nat.eqb d q = Some l -> l <> [].

Lemma dpush_list {V} k (v : V) d q : dlist (dpush Nat.eqb k v d) q = if Nat.eqb q k then dlist d q ++ [v] else dlist d q.
Proof.
  unfold dlist, dpush. destruct (dappend Nat.eqb k v d) as [d'|] eqn:D.
  - rewrite (dget_dappend Nat.eqb Nat.eqb_eq k v d d' D q). destruct (Nat.eqb_spec q k) as [->|]; [|reflexivity].
    destruct (dget Nat.eqb d k) eqn:G; [reflexivity|]. apply (dappend_none Nat.eqb k v d) in G. congruence.
  - apply dappend_none in D. rewrite dget_app. cbn [dget]. destruct (Nat.eqb_spec q k) as [->|].
    + rewrite D. reflexivity.
    + destruct (dget Nat.eqb d q); reflexivity.
Qed.
Lemma dpush_no_empty {V} k (v : V) d : no_empty d -> no_empty (dpush Nat.eqb k v d).
Proof.
  unfold no_empty, dpush. intros H q l. destruct (dappend Nat.eqb k v d) as [d'|] eqn:D.
  - rewrite (dget_dappend Nat.eqb Nat.eqb_eq k v d d' D q). destruct (Nat.eqb_spec q k) as [->|]; [|apply H].
    destruct (dget Nat.eqb d k); [|discriminate]. intros E. injection E as <-. destruct l0; discriminate.
  - rewrite dget_app. cbn [dget]. destruct (dget Nat.eqb d q) as [l0|] eqn:G.
    + intros E. injection E as <-. eapply H, G.
    + destruct (Nat.eqb q k); [|discriminate]. intros E. injection E as <-. discriminate.
Qed.
Lemma no_empty_get {V} (d : list (nat * list V)) q : no_empty d ->
  dget Nat.eqb d q = match dlist d q with [] => None | l => Some l end.
Proof.
  intros H. unfold dlist. destruct (dget Nat.eqb d q) as [l|] eqn:G; [|reflexivity].
  pose proof (H q l G). destruct l; [congruence|reflexivity].
Qed.

Lemma ofold_app {A B} (f : B -> A -> option B) l1 l2 b :
  ofold f (l1 ++ l2) b = match ofold f l1 b with Some b' => ofold f l2 b' | None => None end.
Proof. revert b. induction l1 as [|x l1 IH]; intros b; cbn [app ofold]; [reflexivity|]. destruct (f b x); [apply IH|reflexivity]. Qed.

Lemma osequence_map {A B} (f : A -> option B) (g : A -> B) l : (forall x, In x l -> f x = Some (g x)) ->
  osequence (map f l) = Some (map g l).
Proof.
  induction l as [|x l IH]; intros H; [reflexivity|]. cbn [map osequence]. rewrite (H x (or_introl eq_refl)).
  rewrite IH; [reflexivity|]. intros y Hy. apply H. right. exact Hy.
Qed.

(** ** The dictionary of full triangles *)
Section Full.
Variable tpp : list nat.
Let N := total tpp.
Let owner (g : Z) : nat := searchsorted (map (fun r => snd r - 1) (ranges 0 tpp)) g.

Definition state (f : Z -> list nat) : list (list (Z * list nat)) :=
  map (fun r => map (fun i => (i, f i)) (arange (fst r) (snd r))) (ranges 0 tpp).

Lemma nth_error_ext {A} : forall (a b : list A), (forall i, nth_error a i = nth_error b i) -> a = b.
Proof.
  induction a as [|x a IH]; intros [|y b] H.
  - reflexivity.
  - specialize (H 0%nat). discriminate.
  - specialize (H 0%nat). discriminate.
  - pose proof (H 0%nat) as H0. cbn in H0. injection H0 as ->. f_equal. apply IH. intros i. exact (H (S i)).
Qed.

Lemma dappend_map (f : Z -> list nat) g p : forall l, NoDup l -> In g l ->
  dappend Z.eqb g p (map (fun i => (i, f i)) l) = Some (map (fun i => (i, if i =? g then f i ++ [p] else f i)) l).
Proof.
  induction l as [|x l IH]; intros ND H; [destruct H|]. inversion ND; subst. cbn [map dappend].
  destruct (Z.eqb_spec g x) as [->|Nx].
  - rewrite Z.eqb_refl. f_equal. f_equal. apply map_ext_in. intros y Hy.
    destruct (Z.eqb_spec y x); [subst; tauto|reflexivity].
  - destruct H as [|H]; [congruence|]. rewrite IH by assumption.
    destruct (Z.eqb_spec x g); [congruence|]. reflexivity.
Qed.

Lemma state_step f g p : 0 <= g < N ->
  match nth_error (state f) (owner g) with
  | None => None
  | Some d => match dappend Z.eqb g p d with
              | None => None
              | Some d' => Some (firstn (owner g) (state f) ++ d' :: skipn (S (owner g)) (state f))
              end
  end = Some (state (fun x => if x =? g then f x ++ [p] else f x)).
Proof.
  intros Hg. destruct (owner_in tpp 0 g ltac:(unfold N in *; lia)) as [Ho Hr]. fold (owner g) in Ho, Hr.
  assert (Lr : (owner g < length (ranges 0 tpp))%nat) by (rewrite ranges_length; exact Ho).
  unfold state at 1. rewrite nth_error_map, (nth_error_nth' _ (0, 0) Lr). cbn [option_map].
  rewrite dappend_map.
  2:{ apply sorted_NoDup, arange_sorted. }
  2:{ apply arange_In. exact Hr. }
  f_equal.
  apply nth_error_ext. intros i.
  assert (Lf : length (firstn (owner g) (state f)) = owner g).
  { rewrite firstn_length. unfold state. rewrite map_length. lia. }
  destruct (lt_eq_lt_dec i (owner g)) as [[L| ->]|L].
  - rewrite nth_error_app1 by lia.
    rewrite <- (firstn_skipn (owner g) (state f)) in *.
    assert (E : nth_error (firstn (owner g) (state f)) i = nth_error (state f) i).
    { rewrite <- (firstn_skipn (owner g) (state f)) at 2. rewrite nth_error_app1 by (rewrite firstn_skipn in Lf; lia). reflexivity. }
    rewrite firstn_skipn in *. rewrite E. unfold state. rewrite !nth_error_map.
    destruct (nth_error (ranges 0 tpp) i) as [r|] eqn:Er; [|reflexivity]. cbn [option_map]. f_equal.
    apply map_ext_in. intros x Hx. apply arange_In in Hx. destruct (Z.eqb_spec x g) as [->|]; [|reflexivity]. exfalso.
    assert (i = owner g); [|lia]. symmetry. apply owner_unique; [lia|rewrite <- ranges_length with (lo := 0); lia|].
    rewrite (nth_error_nth _ _ (0, 0) Er). exact Hx.
  - rewrite nth_error_app2 by lia. rewrite Lf, Nat.sub_diag. cbn [nth_error].
    unfold state. rewrite nth_error_map, (nth_error_nth' _ (0, 0) Lr). reflexivity.
  - rewrite nth_error_app2 by lia. rewrite Lf. destruct (i - owner g)%nat as [|m] eqn:Em; [lia|]. cbn [nth_error].
    assert (E : nth_error (skipn (S (owner g)) (state f)) m = nth_error (state f) i).
    { rewrite <- (firstn_skipn (S (owner g)) (state f)) at 2.
      assert (Lf' : length (firstn (S (owner g)) (state f)) = S (owner g)).
      { rewrite firstn_length. unfold state. rewrite map_length. lia. }
      rewrite nth_error_app2 by lia. rewrite Lf'. f_equal. lia. }
    rewrite E. unfold state. rewrite !nth_error_map.
    destruct (nth_error (ranges 0 tpp) i) as [r|] eqn:Er; [|reflexivity]. cbn [option_map]. f_equal.
    apply map_ext_in. intros x Hx. apply arange_In in Hx. destruct (Z.eqb_spec x g) as [->|]; [|reflexivity]. exfalso.
    assert (i = owner g); [|lia]. symmetry. apply owner_unique; [lia| |].
    + rewrite <- ranges_length with (lo := 0). apply nth_error_Some. congruence.
    + rewrite (nth_error_nth _ _ (0, 0) Er). exact Hx.
Qed.
End Full.
