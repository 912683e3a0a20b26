(** C31: boundary objects of a domain. *)
From Coq Require Import List Arith Bool Lia Permutation Sorted.
From Verif Require Import ArrayLib NeighbourModel NeighbourProofs SetBoundaryModel.
Import ListNotations.

(** ** Dictionaries *)
Lemma dget_dset d k v t : dget (dset d k v) t = if Nat.eqb t k then Some v else dget d t.
Proof.
  induction d as [|[a w] d IH]; simpl.
  - rewrite (Nat.eqb_sym k t). reflexivity.
  - destruct (Nat.eqb_spec a k) as [->|N]; simpl.
    + rewrite (Nat.eqb_sym k t). destruct (Nat.eqb t k); reflexivity.
    + destruct (Nat.eqb_spec a t) as [->|M].
      * destruct (Nat.eqb_spec t k); [congruence|reflexivity].
      * exact IH.
Qed.
Lemma dget_In d t : (exists v, dget d t = Some v) <-> In t (map fst d).
Proof.
  induction d as [|[a w] d IH]; simpl.
  - split; [intros (v & H); discriminate|tauto].
  - destruct (Nat.eqb_spec a t) as [->|N].
    + split; eauto.
    + rewrite IH. tauto.
Qed.

(** ** The merged map *)
Lemma update_map_spec dm r h bm : update_map dm r = (h, bm) ->
  (exists r0, bm = Some r0 /\ (forall t, dget (h r0) t =
     match dget (heap dm r) t with Some v => Some v | None => dget (current_map dm) t end) /\
     (forall r', r' <> r0 -> h r' = heap dm r') /\
     (forall x, boundary_map dm = Some x -> x = r0) /\ (boundary_map dm = None -> r0 = r /\ h = heap dm)).
Proof.
  unfold update_map, current_map. destruct (boundary_map dm) as [r0|]; intros H; injection H as <- <-.
  - exists r0. split; [reflexivity|].
    assert (G : forall keys hh, (forall t, dget (hh r) t = dget (heap dm r) t) ->
      let h' := fold_left (fun h key => match dget (h r) key with
                  | Some v => upd h r0 (dset (h r0) key v) | None => h end) keys hh in
      (forall t, dget (h' r0) t =
         match (if in_dec Nat.eq_dec t keys then dget (heap dm r) t else None) with
         | Some v => Some v | None => dget (hh r0) t end) /\
      (forall t, dget (h' r) t = dget (heap dm r) t) /\ forall r', r' <> r0 -> h' r' = hh r').
    { induction keys as [|k keys IH]; intros hh Hh; [split; auto|]. cbn [fold_left].
      rewrite Hh. destruct (dget (heap dm r) k) as [v|] eqn:E.
      - destruct (IH (upd hh r0 (dset (hh r0) k v))) as (A & B & C).
        { intros t. unfold upd. destruct (Nat.eqb_spec r r0) as [<-|]; [|apply Hh].
          rewrite dget_dset. destruct (Nat.eqb_spec t k) as [->|]; [congruence|apply Hh]. }
        split; [|split].
        + intros t. rewrite A, upd_same, dget_dset.
          destruct (in_dec Nat.eq_dec t keys) as [i|n], (in_dec Nat.eq_dec t (k :: keys)) as [i'|n'];
            simpl in i' || simpl in n'; try tauto.
          * destruct (Nat.eqb_spec t k) as [->|]; [rewrite E|]; reflexivity.
          * destruct i' as [->|]; [|tauto]. rewrite E, Nat.eqb_refl. reflexivity.
          * destruct (Nat.eqb_spec t k) as [->|]; [tauto|reflexivity].
        + exact B.
        + intros r' Hr. rewrite C by auto. apply upd_other. auto.
      - destruct (IH hh Hh) as (A & B & C). split; [|auto]. intros t. rewrite A.
        destruct (in_dec Nat.eq_dec t keys) as [i|n], (in_dec Nat.eq_dec t (k :: keys)) as [i'|n'];
          simpl in i' || simpl in n'; try tauto; try reflexivity.
        destruct i' as [->|]; [rewrite E; reflexivity|tauto]. }
    destruct (G (map fst (heap dm r)) (heap dm) (fun t => eq_refl)) as (A & _ & C). split; [|split; [|split]].
    + intros t. rewrite A. destruct (in_dec Nat.eq_dec t (map fst (heap dm r))) as [i|n]; [reflexivity|].
      destruct (dget (heap dm r) t) as [v|] eqn:E; [|reflexivity].
      exfalso. apply n. apply dget_In. eauto.
    + exact C.
    + intros x H. injection H as ->. reflexivity.
    + discriminate.
  - exists r. split; [reflexivity|]. split; [|split; [auto|split; [discriminate|auto]]].
    intros t. simpl. destruct (dget (heap dm r) t); reflexivity.
Qed.

Lemma collect_spec b m : forall xs acc,
  (forall x, In x xs -> exists t, lookup b x = Some t) ->
  (snd (collect b m xs acc) = true <->
     forall x t, In x xs -> lookup b x = Some t -> exists v, dget m t = Some v) /\
  (snd (collect b m xs acc) = true ->
   fst (collect b m xs acc) = acc ++ flat_map (fun x =>
     match lookup b x with
     | Some t => match dget m t with Some (Some o) => [(x, o)] | _ => [] end
     | None => [] end) xs).
Proof.
  induction xs as [|x xs IH]; intros acc Hx.
  - split; [split; [intros _ x t []|reflexivity]|]. intros _. simpl. now rewrite app_nil_r.
  - destruct (Hx x (or_introl eq_refl)) as (t & Et). cbn [collect flat_map]. rewrite Et.
    assert (Hxs : forall y, In y xs -> exists t, lookup b y = Some t) by (intros; apply Hx; right; auto).
    destruct (dget m t) as [[o|]|] eqn:E; cbn [snd fst].
    + destruct (IH (acc ++ [(x, o)]) Hxs) as (A & B). split.
      * rewrite A. split; intros H y ty Hy Ey.
        -- destruct Hy as [<-|Hy]; [assert (ty = t) by congruence; subst; eauto|eauto].
        -- apply (H y ty); [right; auto|auto].
      * intros H. rewrite B by auto. rewrite <- app_assoc. reflexivity.
    + destruct (IH acc Hxs) as (A & B). split.
      * rewrite A. split; intros H y ty Hy Ey.
        -- destruct Hy as [<-|Hy]; [assert (ty = t) by congruence; subst; eauto|eauto].
        -- apply (H y ty); [right; auto|auto].
      * intros H. rewrite B by auto. reflexivity.
    + split.
      * split; [discriminate|]. intros H. destruct (H x t (or_introl eq_refl) Et). congruence.
      * discriminate.
Qed.

Lemma sorted_keys_lookup b x : In x (sorted_keys b) -> exists t, lookup b x = Some t.
Proof.
  intros H. apply (Permutation_in _ (sorted_keys_perm b)) in H.
  induction b as [|[k v] b IH]; simpl in *; [tauto|].
  destruct (key_eqb_spec k x); [eauto|]. destruct H; [congruence|auto].
Qed.

(** ** What a call does *)

(** A non-parallel domain rejects a map with a tag it does not know (other
    than 'ghost'), and is then left as it was. *)
Theorem C31_unknown_tag_rejected : forall is_flux dm r tag v,
  parallel dm = false -> In (tag, v) (heap dm r) -> ~ In tag (map snd (boundary dm)) ->
  tag <> ghost_tag -> set_boundary is_flux dm r = (dm, false).
Proof.
  intros f dm r tag v P Hin Hn Hg. unfold set_boundary.
  assert (E : tags_allowed dm (heap dm r) = false).
  { unfold tags_allowed. rewrite P. cbn [orb].
    apply not_true_is_false. intros H. rewrite forallb_forall in H.
    specialize (H _ Hin). cbn [fst] in H. apply existsb_exists in H as (y & Hy & E).
    apply Nat.eqb_eq in E. subst y. apply in_app_or in Hy. simpl in Hy.
    destruct Hy as [Hy|[Hy|[]]]; congruence. }
  rewrite E. reflexivity.
Qed.
Print Assumptions C31_unknown_tag_rejected.

(** Once the tags are accepted, the map in force is the old one overridden by
    the new one, whether or not the call goes on to raise. *)
Theorem C31_maps_are_merged : forall is_flux dm r dm' ok,
  tags_allowed dm (heap dm r) = true -> set_boundary is_flux dm r = (dm', ok) ->
  forall tag, dget (current_map dm') tag =
    match dget (heap dm r) tag with Some v => Some v | None => dget (current_map dm) tag end.
Proof.
  intros f dm r dm' ok A H tag. unfold set_boundary in H. rewrite A in H. cbn [negb] in H.
  destruct (update_map dm r) as [h bm] eqn:E. apply update_map_spec in E.
  destruct E as (r0 & -> & L & _).
  destruct (collect _ _ _ _) as [objs ok']. injection H as <- <-.
  unfold current_map at 1. cbn [boundary_map heap]. apply L.
Qed.
Print Assumptions C31_maps_are_merged.

(** A call succeeds exactly when its tags are accepted and the merged map has
    an entry for the tag of every boundary edge. *)
Theorem C31_succeeds_iff : forall is_flux dm r dm' ok,
  set_boundary is_flux dm r = (dm', ok) ->
  (ok = true <-> tags_allowed dm (heap dm r) = true /\
     forall key tag, lookup (boundary dm) key = Some tag ->
       dget (heap dm r) tag <> None \/ dget (current_map dm) tag <> None).
Proof.
  intros f dm r dm' ok H. pose proof H as H0. unfold set_boundary in H.
  destruct (tags_allowed dm (heap dm r)) eqn:A; cbn [negb] in H.
  2:{ injection H as <- <-. split; [discriminate|intros (? & _); congruence]. }
  destruct (update_map dm r) as [h bm] eqn:E. apply update_map_spec in E.
  destruct E as (r0 & -> & L & _).
  pose proof (collect_spec (boundary dm) (h r0) (sorted_keys (boundary dm)) []
                (sorted_keys_lookup (boundary dm))) as (C & _).
  destruct (collect (boundary dm) (h r0) (sorted_keys (boundary dm)) []) as [objs ok'].
  injection H as <- <-. cbn [snd] in C. rewrite C. split.
  - intros G. split; [reflexivity|]. intros key tag Hk.
    destruct (G key tag) as (v & Ev); auto.
    { apply (Permutation_in _ (Permutation_sym (sorted_keys_perm _))). eapply lookup_Some_In; eauto. }
    rewrite L in Ev. destruct (dget (heap dm r) tag); [left; discriminate|right; congruence].
  - intros (_ & G) key tag _ Hk. destruct (G key tag Hk) as [N|N]; rewrite L.
    + destruct (dget (heap dm r) tag); [eauto|congruence].
    + destruct (dget (heap dm r) tag); [eauto|]. destruct (dget (current_map dm) tag); [eauto|congruence].
Qed.
Print Assumptions C31_succeeds_iff.

(** After success every boundary edge, in sorted order, is paired with the
    object the merged map gives for its tag; edges whose object is None are
    left out. *)
Theorem C31_one_object_per_edge : forall is_flux dm r dm',
  set_boundary is_flux dm r = (dm', true) ->
  boundary dm' = boundary dm /\
  exists X, Permutation X (map fst (boundary dm)) /\ Sorted key_le X /\
    (forall key, In key X -> exists tag v, lookup (boundary dm) key = Some tag /\
                                           dget (current_map dm') tag = Some v) /\
    boundary_objects dm' = flat_map (fun key =>
      match lookup (boundary dm) key with
      | Some tag => match dget (current_map dm') tag with Some (Some o) => [(key, o)] | _ => [] end
      | None => [] end) X.
Proof.
  intros f dm r dm' H. unfold set_boundary in H.
  destruct (tags_allowed dm (heap dm r)) eqn:A; cbn [negb] in H; [|discriminate].
  destruct (update_map dm r) as [h bm] eqn:E. apply update_map_spec in E.
  destruct E as (r0 & -> & L & _).
  pose proof (collect_spec (boundary dm) (h r0) (sorted_keys (boundary dm)) []
                (sorted_keys_lookup (boundary dm))) as (C & D).
  destruct (collect (boundary dm) (h r0) (sorted_keys (boundary dm)) []) as [objs ok'].
  cbn [snd fst] in C, D. injection H as <- ->. split; [reflexivity|].
  exists (sorted_keys (boundary dm)). unfold current_map. cbn [boundary_map heap boundary_objects].
  split; [apply sorted_keys_perm|]. split; [apply sorted_keys_sorted|]. split.
  - intros key Hk. destruct (sorted_keys_lookup _ _ Hk) as (t & Et).
    destruct (proj1 C eq_refl key t Hk Et) as (v & Ev). eauto.
  - apply D. reflexivity.
Qed.
Print Assumptions C31_one_object_per_edge.

(** ** Histories *)
Fixpoint calls (is_flux : nat -> bool) (dm : domain) (rs : list nat) : domain :=
  match rs with
  | [] => dm
  | r :: rest => calls is_flux (fst (set_boundary is_flux dm r)) rest
  end.

(** The value given for [tag] by the last of a list of maps that mentions it. *)
Fixpoint last_given (maps : list dict) (tag : nat) (before : option (option nat)) : option (option nat) :=
  match maps with
  | [] => before
  | m :: rest => last_given rest tag (match dget m tag with Some v => Some v | None => before end)
  end.

(** Every call of a sequence that passes distinct dictionaries, all with known
    tags: afterwards each tag has the value of the last map that mentions it. *)
Theorem C31_history : forall is_flux rs dm,
  boundary_map dm = None -> NoDup rs ->
  (forall r, In r rs -> tags_allowed dm (heap dm r) = true) ->
  forall tag, dget (current_map (calls is_flux dm rs)) tag = last_given (map (heap dm) rs) tag None.
Proof.
  intros f rs.
  assert (G : forall rs dm before r0, (forall t, dget (current_map dm) t = before t) ->
    (rs = [] \/ match boundary_map dm with Some x => x = r0 | None => False end) -> ~ In r0 rs -> NoDup rs ->
    (forall r, In r rs -> tags_allowed dm (heap dm r) = true) ->
    forall tag, dget (current_map (calls f dm rs)) tag = last_given (map (heap dm) rs) tag (before tag)).
  { clear rs. induction rs as [|r rs IH]; intros dm before r0 Hb Hm Hn ND Ha tag; [apply Hb|].
    cbn [calls map last_given]. inversion ND; subst.
    destruct (set_boundary f dm r) as [dm' ok] eqn:E. cbn [fst].
    assert (A : tags_allowed dm (heap dm r) = true) by (apply Ha; left; auto).
    pose proof (C31_maps_are_merged f dm r dm' ok A E) as L.
    unfold set_boundary in E. rewrite A in E. cbn [negb] in E.
    destruct (update_map dm r) as [h bm] eqn:EU. apply update_map_spec in EU.
    destruct EU as (rr & -> & _ & O & S1 & _).
    destruct (collect _ _ _ _) as [objs ok']. injection E as E <-.
    assert (B1 : boundary dm' = boundary dm) by (rewrite <- E; reflexivity).
    assert (B2 : parallel dm' = parallel dm) by (rewrite <- E; reflexivity).
    assert (B3 : boundary_map dm' = Some rr) by (rewrite <- E; reflexivity).
    assert (B4 : heap dm' = h) by (rewrite <- E; reflexivity). clear E.
    destruct Hm as [Hm|Hm]; [discriminate|].
    destruct (boundary_map dm) as [x|] eqn:EB; [|tauto]. subst x.
    assert (rr = r0) by (symmetry; apply S1; reflexivity). subst rr.
    assert (HH : forall q, In q rs -> heap dm' q = heap dm q).
    { intros q Hq. rewrite B4. apply O. intros ->. apply Hn. right. exact Hq. }
    rewrite (IH dm' (fun t => match dget (heap dm r) t with Some v => Some v | None => before t end) r0).
    - f_equal. apply map_ext_in. exact HH.
    - intros t. rewrite L, Hb. reflexivity.
    - right. rewrite B3. reflexivity.
    - intros Hi. apply Hn. right. exact Hi.
    - assumption.
    - intros q Hq. unfold tags_allowed in *. rewrite B1, B2, HH by exact Hq. apply Ha. right. exact Hq. }
  intros dm Hm ND Ha tag. destruct rs as [|r rs].
  - simpl. unfold current_map. rewrite Hm. reflexivity.
  - cbn [calls map last_given]. inversion ND; subst.
    destruct (set_boundary f dm r) as [dm' ok] eqn:E. cbn [fst].
    assert (A : tags_allowed dm (heap dm r) = true) by (apply Ha; left; auto).
    pose proof (C31_maps_are_merged f dm r dm' ok A E) as L.
    unfold set_boundary in E. rewrite A in E. cbn [negb] in E.
    destruct (update_map dm r) as [h bm] eqn:EU. apply update_map_spec in EU.
    destruct EU as (rr & -> & _ & _ & _ & S2).
    destruct (collect _ _ _ _) as [objs ok']. injection E as E <-.
    destruct (S2 Hm) as (-> & ->).
    assert (B1 : boundary dm' = boundary dm) by (rewrite <- E; reflexivity).
    assert (B2 : parallel dm' = parallel dm) by (rewrite <- E; reflexivity).
    assert (B3 : boundary_map dm' = Some r) by (rewrite <- E; reflexivity).
    assert (B4 : heap dm' = heap dm) by (rewrite <- E; reflexivity). clear E.
    rewrite (G rs dm' (fun t => dget (heap dm r) t) r).
    + rewrite B4. f_equal. destruct (dget (heap dm r) tag); reflexivity.
    + intros t. rewrite L. unfold current_map. rewrite Hm. destruct (dget (heap dm r) t); reflexivity.
    + right. rewrite B3. reflexivity.
    + assumption.
    + assumption.
    + intros q Hq. unfold tags_allowed in *. rewrite B1, B2, B4. apply Ha. right. exact Hq.
Qed.
Print Assumptions C31_history.

(** Because the first dictionary is kept by reference, passing it again does
    not restore its values: boundary 1 was replaced by 2, and the third call
    asks for 1 again and gets 2. *)
Definition small_heap (r : nat) : dict :=
  match r with 0 => [(5, Some 1)] | _ => [(5, Some 2)] end.
Definition small_domain : domain :=
  {| boundary := [((0, 0), 5)]; parallel := false; heap := small_heap; boundary_map := None;
     boundary_objects := []; boundary_flux_type := fun _ => 0 |}.
Theorem C31_reused_first_map_refuted : exists dm is_flux,
  boundary_map dm = None /\ dget (heap dm 0) 5 = Some (Some 1) /\
  let dm' := calls is_flux dm [0; 1; 0] in
  boundary_objects dm' = [((0, 0), 2)] /\ dget (heap dm' 0) 5 = Some (Some 2).
Proof. exists small_domain, (fun _ => false). vm_compute. auto. Qed.
Print Assumptions C31_reused_first_map_refuted.

(** A failing call is not undone: the new entries stay in the map in force
    and the list of objects is left incomplete. *)
Definition partial_domain : domain :=
  {| boundary := [((0, 0), 5); ((0, 1), 6)]; parallel := false;
     heap := fun r => match r with 0 => [(5, Some 1)] | _ => [(6, Some 2)] end; boundary_map := None;
     boundary_objects := []; boundary_flux_type := fun _ => 0 |}.
Theorem C31_failure_not_undone_refuted : exists dm is_flux r,
  let (dm', ok) := set_boundary is_flux dm r in
  ok = false /\ current_map dm = [] /\ dget (current_map dm') 5 = Some (Some 1) /\
  boundary_objects dm' = [((0, 0), 1)].
Proof. exists partial_domain, (fun _ => false), 0. vm_compute. auto. Qed.
Print Assumptions C31_failure_not_undone_refuted.

Example C31_example :
  set_boundary (fun _ => false) partial_domain 1 = (fst (set_boundary (fun _ => false) partial_domain 1), false) /\
  snd (set_boundary (fun _ => false) (calls (fun _ => false) partial_domain [0]) 1) = true /\
  boundary_objects (calls (fun _ => false) partial_domain [0; 1]) = [((0, 0), 1); ((0, 1), 2)].
Proof. vm_compute. auto. Qed.

(** ** Flux flags *)
Lemma flux_types_spec f objs k : flux_types f objs k =
  if Nat.ltb k (length objs) && f (snd (nth k objs ((0, 0), 0))) then 1 else 0.
Proof.
  unfold flux_types.
  assert (G : forall n a, (forall j, n <= j -> a j = 0) ->
    forall s, n <= s -> forall m k,
    fold_left (fun a k => if f (snd (nth k objs ((0, 0), 0))) then upd a k 1 else a) (seq s m) a k =
    if (s <=? k) && (k <? s + m) && f (snd (nth k objs ((0, 0), 0))) then 1 else a k).
  { intros n a Ha s Hs m. revert n a Ha s Hs. induction m as [|m IH]; intros n a Ha s Hs i; cbn [seq fold_left].
    - destruct (Nat.leb_spec s i), (Nat.ltb_spec i (s + 0)); try lia; reflexivity.
    - rewrite (IH (S s)); [| |lia].
      + destruct (Nat.leb_spec (S s) i), (Nat.leb_spec s i), (Nat.ltb_spec i (S s + m)),
          (Nat.ltb_spec i (s + S m)); try lia; cbn [andb].
        * destruct (f (snd (nth i objs (0, 0, 0)))); [reflexivity|].
          destruct (f (snd (nth s objs (0, 0, 0)))); [apply upd_other; lia|reflexivity].
        * destruct (f (snd (nth s objs (0, 0, 0)))); [apply upd_other; lia|reflexivity].
        * assert (i = s) by lia. subst i.
          destruct (f (snd (nth s objs (0, 0, 0)))); [apply upd_same|reflexivity].
        * destruct (f (snd (nth s objs (0, 0, 0)))); [apply upd_other; lia|reflexivity].
      + intros j Hj. destruct (f (snd (nth s objs (0, 0, 0)))); [rewrite upd_other by lia|]; apply Ha; lia. }
  rewrite (G 0 (fun _ => 0) (fun _ _ => eq_refl) 0 (le_n 0)). cbn [Nat.leb andb Nat.add]. reflexivity.
Qed.

(** Without None objects, flag number m tells whether the object of boundary
    segment number m is a flux boundary. *)
Theorem C31_flux_flags : forall is_flux dm r dm', set_boundary is_flux dm r = (dm', true) ->
  (forall key tag, lookup (boundary dm) key = Some tag -> dget (current_map dm') tag <> Some None) ->
  map fst (boundary_objects dm') = sorted_keys (boundary dm) /\
  forall m key o, nth_error (boundary_objects dm') m = Some (key, o) ->
    boundary_flux_type dm' m = (if is_flux o then 1 else 0).
Proof.
  intros f dm r dm' H NN. pose proof H as H0. unfold set_boundary in H.
  destruct (tags_allowed dm (heap dm r)) eqn:A; cbn [negb] in H; [|discriminate].
  destruct (update_map dm r) as [h bm] eqn:E. apply update_map_spec in E.
  destruct E as (r0 & -> & L & _).
  pose proof (collect_spec (boundary dm) (h r0) (sorted_keys (boundary dm)) []
                (sorted_keys_lookup (boundary dm))) as (C & D).
  destruct (collect (boundary dm) (h r0) (sorted_keys (boundary dm)) []) as [objs ok'].
  cbn [snd fst] in C, D. injection H as <- ->. unfold current_map in NN.
  cbn [boundary_objects boundary_flux_type boundary_map heap] in *. split.
  - rewrite D by reflexivity. cbn [app].
    assert (G : forall xs, incl xs (sorted_keys (boundary dm)) -> map fst (flat_map (fun x =>
       match lookup (boundary dm) x with
       | Some t => match dget (h r0) t with Some (Some o) => [(x, o)] | _ => [] end
       | None => [] end) xs) = xs).
    { induction xs as [|x xs IH]; intros I; [reflexivity|]. cbn [flat_map].
      assert (Hx : In x (sorted_keys (boundary dm))) by (apply I; left; auto).
      destruct (sorted_keys_lookup _ _ Hx) as (t & Et). rewrite Et.
      destruct (proj1 C eq_refl x t Hx Et) as (v & Ev). rewrite Ev.
      destruct v as [o|]; [|exfalso; exact (NN x t Et Ev)].
      cbn [app map fst]. f_equal. apply IH. intros y Hy. apply I. right. exact Hy. }
    apply G. intros x Hx. exact Hx.
  - intros m key o Hm. rewrite flux_types_spec.
    assert (Hl : m < length objs) by (apply nth_error_Some; congruence).
    apply Nat.ltb_lt in Hl. rewrite Hl. cbn [andb].
    rewrite (nth_error_nth objs m ((0, 0), 0) Hm). reflexivity.
Qed.
Print Assumptions C31_flux_flags.

(** With a None object before it in the order, the flag of a flux boundary is
    set on another segment. *)
Definition none_domain : domain :=
  {| boundary := [((0, 0), 5); ((0, 1), 6)]; parallel := false;
     heap := fun _ => [(5, None); (6, Some 9)]; boundary_map := None;
     boundary_objects := []; boundary_flux_type := fun _ => 0 |}.
Theorem C31_flux_flags_shifted_refuted : exists dm is_flux r,
  let (dm', ok) := set_boundary is_flux dm r in
  ok = true /\ sorted_keys (boundary dm) = [(0, 0); (0, 1)] /\
  boundary_objects dm' = [((0, 1), 9)] /\ is_flux 9 = true /\
  boundary_flux_type dm' 0 = 1 /\ boundary_flux_type dm' 1 = 0.
Proof. exists none_domain, (fun o => Nat.eqb o 9), 0. vm_compute. auto 10. Qed.
Print Assumptions C31_flux_flags_shifted_refuted.

(** ** Updating the boundary *)
Lemma dict_append_keys d tag j : map fst (dict_append d tag j) = map fst d.
Proof.
  induction d as [|[t l] d IH]; [reflexivity|]. simpl. destruct (Nat.eqb t tag); simpl; congruence.
Qed.
Lemma tag_cells_keys b cells edges : map fst (tag_cells b cells edges) = boundary_tags b.
Proof.
  unfold tag_cells.
  assert (G : forall js d, map fst (fold_left (fun d j =>
     match lookup b (nth j cells 0, nth j edges 0) with
     | Some tag => dict_append d tag j | None => d end) js d) = map fst d).
  { induction js as [|j js IH]; intros d; [reflexivity|]. cbn [fold_left]. rewrite IH.
    destruct (lookup b _); [apply dict_append_keys|reflexivity]. }
  rewrite G, map_map. cbn [fst]. apply map_id.
Qed.
Lemma boundary_tags_NoDup b : NoDup (boundary_tags b).
Proof.
  unfold boundary_tags.
  assert (G : forall l acc, NoDup acc ->
    NoDup (fold_left (fun acc t => if existsb (Nat.eqb t) acc then acc else acc ++ [t]) l acc)).
  { induction l as [|x l IH]; intros acc H; [exact H|]. cbn [fold_left]. apply IH.
    destruct (existsb (Nat.eqb x) acc) eqn:E; [exact H|]. apply NoDup_snoc; [exact H|].
    intros Hi. assert (existsb (Nat.eqb x) acc = true); [|congruence].
    apply existsb_exists. exists x. split; [exact Hi|apply Nat.eqb_refl]. }
  apply G. constructor.
Qed.
Lemma tag_list_In d t l : NoDup (map fst d) -> (tag_list d t = Some l <-> In (t, l) d).
Proof.
  induction d as [|[a m] d IH]; simpl; intros ND; [split; [discriminate|tauto]|].
  inversion ND; subst. destruct (Nat.eqb_spec a t) as [->|N].
  - split; [intros E; injection E as ->; auto|]. intros [E|Hi]; [congruence|].
    exfalso. apply H1. apply (in_map fst) in Hi. exact Hi.
  - rewrite IH by auto. split; [auto|]. intros [E|]; [congruence|auto].
Qed.

(** [update_boundary] hands each boundary segment with an object exactly once
    to that object, and no other segment to anything. *)
Theorem C31_update_boundary : forall b cells edges m cs,
  update_boundary m (tag_cells b cells edges) = Some cs ->
  (forall o s, (exists l, In (o, l) cs /\ In s l) <->
     s < length b /\ exists tag, lookup b (nth s cells 0, nth s edges 0) = Some tag /\
                                 dget m tag = Some (Some o)) /\
  NoDup (concat (map snd cs)).
Proof.
  intros b cells edges m cs H.
  set (tagged := fun tag s => match lookup b (nth s cells 0, nth s edges 0) with
                              | Some t => Nat.eqb t tag | None => false end).
  assert (D : forall t l, In (t, l) (tag_cells b cells edges) -> l = filter (tagged t) (seq 0 (length b))).
  { intros t l Hi. assert (K : In t (boundary_tags b)).
    { rewrite <- (tag_cells_keys b cells edges). apply (in_map fst) in Hi. exact Hi. }
    apply tag_list_In in Hi; [|rewrite tag_cells_keys; apply boundary_tags_NoDup].
    unfold tag_cells in Hi. rewrite (tag_cells_fold b cells edges _ _ t []) in Hi.
    - injection Hi as <-. reflexivity.
    - apply tag_list_init. exact K. }
  assert (D2 : forall t, In t (map snd b) -> In (t, filter (tagged t) (seq 0 (length b))) (tag_cells b cells edges)).
  { intros t Ht. assert (K : In t (map fst (tag_cells b cells edges))).
    { rewrite tag_cells_keys. apply boundary_tags_In. exact Ht. }
    apply in_map_iff in K as ((t' & l) & E & Hi). cbn [fst] in E. subst t'.
    rewrite <- (D t l Hi). exact Hi. }
  assert (ND : NoDup (map fst (tag_cells b cells edges)))
    by (rewrite tag_cells_keys; apply boundary_tags_NoDup).
  assert (LT : forall key t, lookup b key = Some t -> In t (map snd b)).
  { clear. intros key t. induction b as [|[k v] b IH]; simpl; [discriminate|].
    destruct (key_eqb k key); [intros E; injection E as ->; auto|auto]. }
  generalize dependent (tag_cells b cells edges). intros tc H D D2 ND.
  assert (M : forall cs, update_boundary m tc = Some cs ->
    forall o l, In (o, l) cs <-> exists t, In (t, l) tc /\ dget m t = Some (Some o)).
  { clear -m. induction tc as [|[t l] tc IH]; simpl; intros cs H o l0.
    - injection H as <-. split; [intros []|intros (t & [] & _)].
    - destruct (dget m t) as [v|] eqn:E; [|discriminate].
      destruct (update_boundary m tc) as [cs'|]; [|discriminate]. injection H as <-.
      specialize (IH cs' eq_refl o l0). destruct v as [ob|].
      + simpl. rewrite IH. split.
        * intros [Eq|(t' & Hi & Hd)]; [injection Eq as -> ->; exists t; auto|exists t'; auto].
        * intros (t' & [Eq|Hi] & Hd); [injection Eq as -> ->; left; congruence|right; eauto].
      + rewrite IH. split.
        * intros (t' & Hi & Hd). exists t'. auto.
        * intros (t' & [Eq|Hi] & Hd); [injection Eq as -> ->; congruence|eauto]. }
  split.
  - intros o s. split.
    + intros (l & Hi & Hs). apply (M cs H) in Hi as (t & Hi & Hd).
      rewrite (D t l Hi) in Hs. apply filter_In in Hs as (Hs & Ht). apply in_seq in Hs.
      split; [lia|]. unfold tagged in Ht. destruct (lookup b _) as [t'|]; [|discriminate].
      apply Nat.eqb_eq in Ht. subst t'. eauto.
    + intros (Hs & t & Et & Hd). exists (filter (tagged t) (seq 0 (length b))). split.
      * apply (M cs H). exists t. split; [apply D2; eapply LT; eauto|exact Hd].
      * apply filter_In. split; [apply in_seq; lia|]. unfold tagged. rewrite Et. apply Nat.eqb_refl.
  - clear D2 M. revert cs H. induction tc as [|[t l] tc IH]; cbn [update_boundary]; intros cs H.
    + injection H as <-. constructor.
    + destruct (dget m t) as [v|] eqn:E; [|discriminate].
      destruct (update_boundary m tc) as [cs'|] eqn:EU; [|discriminate]. injection H as <-.
      cbn [map fst] in ND. inversion ND; subst.
      assert (IH' : NoDup (concat (map snd cs'))).
      { apply IH; [intros; apply D; right; auto|assumption|reflexivity]. }
      destruct v as [o|]; [|exact IH']. cbn [map snd concat].
      assert (El : l = filter (tagged t) (seq 0 (length b))) by (apply D; left; auto).
      assert (Sub : forall cs' , update_boundary m tc = Some cs' -> forall x, In x (concat (map snd cs')) ->
                exists t' l', In (t', l') tc /\ In x l').
      { clear. induction tc as [|[t l] tc IH]; simpl; intros cs H x Hx.
        - injection H as <-. destruct Hx.
        - destruct (dget m t) as [v|]; [|discriminate].
          destruct (update_boundary m tc) as [c|]; [|discriminate]. injection H as <-.
          destruct v as [o|].
          + simpl in Hx. apply in_app_or in Hx. destruct Hx as [Hx|Hx]; [exists t, l; auto|].
            destruct (IH c eq_refl x Hx) as (t' & l' & A & B). exists t', l'; auto.
          + destruct (IH c eq_refl x Hx) as (t' & l' & A & B). exists t', l'; auto. }
      clear IH.
      assert (NDl : NoDup l) by (rewrite El; apply NoDup_filter, seq_NoDup).
      assert (Dis : forall x, In x l -> ~ In x (concat (map snd cs'))).
      { intros x Hx Hc. destruct (Sub cs' EU x Hc) as (t' & l' & A & B).
        rewrite (D t' l' (or_intror A)) in B. rewrite El in Hx.
        apply filter_In in Hx as (_ & Hx). apply filter_In in B as (_ & B). unfold tagged in Hx, B.
        destruct (lookup b (nth x cells 0, nth x edges 0)); [|discriminate].
        apply Nat.eqb_eq in Hx, B. subst. apply H1. apply (in_map fst) in A. exact A. }
      clear -NDl IH' Dis. induction l as [|a l IHl]; [exact IH'|]. inversion NDl; subst. cbn [app].
      constructor.
      * intros Hi. apply in_app_or in Hi. destruct Hi as [Hi|Hi]; [tauto|].
        apply (Dis a); [left; auto|exact Hi].
      * apply IHl; [assumption|]. intros x Hx. apply Dis. right. exact Hx.
Qed.
Print Assumptions C31_update_boundary.

Example C31_update_example :
  update_boundary [(5, Some 1); (7, None)] (tag_cells [((1, 1), 5); ((0, 1), 7)] [0; 1] [1; 1])
  = Some [(1, [1])].
Proof. reflexivity. Qed.
