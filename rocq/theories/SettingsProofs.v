(** Proofs about SettingsModel. *)
From Coq Require Import Reals List ZArith Bool String Ascii Lia.
From Coq Require Decimal DecimalString DecimalNat.
From Verif Require Import RealLib SettingsModel.
Import ListNotations.
Local Open Scope string_scope.

Lemma put_other a v o b : a <> b -> attrs (put a v o) b = attrs o b.
Proof. intros H. cbn. destruct (String.eqb_spec a b); congruence. Qed.

Lemma put_same a v o : attrs (put a v o) a = Some v.
Proof. cbn. now rewrite String.eqb_refl. Qed.

Lemma assign_cons a v l o : assign ((a, v) :: l) o = assign l (put a v o).
Proof. reflexivity. Qed.

Lemma assign_app l1 l2 o : assign (l1 ++ l2) o = assign l2 (assign l1 o).
Proof. unfold assign. now rewrite fold_left_app. Qed.

Lemma assign_same l o o' a : attrs o a = attrs o' a -> attrs (assign l o) a = attrs (assign l o') a.
Proof.
  revert o o'. induction l as [|[b v] l IH]; intros o o' H; [exact H|].
  rewrite !assign_cons. apply IH. cbn. now rewrite H.
Qed.

Lemma assign_other l o a : ~ In a (map fst l) -> attrs (assign l o) a = attrs o a.
Proof.
  revert o. induction l as [|[b v] l IH]; intros o H; [reflexivity|].
  rewrite assign_cons, IH by (intros K; apply H; now right).
  apply put_other. intros ->. apply H. now left.
Qed.

(** What the last assignment to [a] in [l] leaves. *)
Lemma assign_hit l o o' a : In a (map fst l) -> attrs (assign l o) a = attrs (assign l o') a.
Proof.
  revert o o'. induction l as [|[b v] l IH]; intros o o' H; [destruct H|].
  rewrite !assign_cons.
  destruct (String.eqb_spec b a) as [->|n].
  - apply assign_same. cbn. now rewrite String.eqb_refl.
  - apply IH. destruct H as [H|H]; [cbn in H; congruence|exact H].
Qed.

Lemma put_quantities a v o : quantities (put a v o) = quantities o.
Proof. reflexivity. Qed.
Lemma put_tags a v o : tags (put a v o) = tags o.
Proof. reflexivity. Qed.
Lemma put_place a v o : place (put a v o) = place o.
Proof. reflexivity. Qed.
Lemma assign_quantities l o : quantities (assign l o) = quantities o.
Proof. revert o. induction l as [|[b v] l IH]; intros o; [reflexivity|]. now rewrite assign_cons, IH. Qed.
Lemma assign_tags l o : tags (assign l o) = tags o.
Proof. revert o. induction l as [|[b v] l IH]; intros o; [reflexivity|]. now rewrite assign_cons, IH. Qed.
Lemma assign_place l o : place (assign l o) = place o.
Proof. revert o. induction l as [|[b v] l IH]; intros o; [reflexivity|]. now rewrite assign_cons, IH. Qed.

Lemma has_In k l : has k l = true <-> In k l.
Proof.
  unfold has. rewrite existsb_exists. split.
  - intros [x [H E]]. apply String.eqb_eq in E. now subst.
  - intros H. exists k. split; [exact H|apply String.eqb_refl].
Qed.

(** The five names. *)
Lemma choice_names s c : algorithm_choice s = Some c ->
  In s ["DE0"; "DE1"; "DE2"; "DE0_7"; "DE1_7"].
Proof.
  unfold algorithm_choice. intros H.
  repeat match type of H with context [String.eqb s ?t] => destruct (String.eqb_spec s t) as [->|]; [cbn; tauto|] end.
  discriminate.
Qed.

Lemma choice_undot s c : algorithm_choice s = Some c -> undot s = s.
Proof. intros H. apply choice_names in H. cbn in H. intuition (subst; reflexivity). Qed.

Definition algorithm_attributes (s : string) (c : choice) : list (string * value) :=
  ("flow_algorithm", Text s) :: before_viscosity c ++ after_viscosity c.

Lemma before_viscosity_kv c o :
  attrs (assign (before_viscosity c) o) "kv_operator" = attrs o "kv_operator".
Proof. apply assign_other. cbn. intuition discriminate. Qed.

Lemma set_flow_algorithm_ok s c o : algorithm_choice s = Some c -> attrs o "kv_operator" = Some Null ->
  set_flow_algorithm (Text s) o = Some (assign (algorithm_attributes s c) o).
Proof.
  intros H K. unfold set_flow_algorithm. rewrite (choice_undot s c H), H. cbn [bind].
  unfold no_viscosity. rewrite before_viscosity_kv, put_other, K by discriminate. cbn [bind].
  unfold algorithm_attributes. rewrite assign_cons, assign_app. reflexivity.
Qed.

(** A new domain. *)
Definition new_attributes (geo : value) : list (string * value) :=
  generic_attributes geo ++ algorithm_attributes "DE0" (Choice (9 / 10) 1 (1 / 1000000000000) (1 / 2) 0)
  ++ storage_attributes.

Definition empty (tg : list string) (w : option (nat * nat)) : object :=
  Object (fun _ => None) standard_quantities tg w.

Lemma new_domain_ok geo tg w :
  new_domain geo tg w =
  Some (match w with
        | Some _ => put "global_name" (Text "domain") (assign (new_attributes geo) (empty tg w))
        | None => assign (new_attributes geo) (empty tg w)
        end).
Proof.
  unfold new_domain.
  rewrite (set_flow_algorithm_ok "DE0" (Choice (9 / 10) 1 (1 / 1000000000000) (1 / 2) 0)).
  - cbn [bind]. unfold new_attributes, empty. rewrite !assign_app. reflexivity.
  - reflexivity.
  - reflexivity.
Qed.

Lemma register_attrs l d : attrs (fold_left (fun d q => register q d) l d) = attrs d.
Proof.
  revert d. induction l as [|q l IH]; intros d; [reflexivity|]. cbn [fold_left]. rewrite IH.
  unfold register. now destruct (has q (quantities d)).
Qed.
Lemma register_tags l d : tags (fold_left (fun d q => register q d) l d) = tags d.
Proof.
  revert d. induction l as [|q l IH]; intros d; [reflexivity|]. cbn [fold_left]. rewrite IH.
  unfold register. now destruct (has q (quantities d)).
Qed.
Lemma register_place l d : place (fold_left (fun d q => register q d) l d) = place d.
Proof.
  revert d. induction l as [|q l IH]; intros d; [reflexivity|]. cbn [fold_left]. rewrite IH.
  unfold register. now destruct (has q (quantities d)).
Qed.
Lemma register_one q d x : In x (quantities (register q d)) <-> x = q \/ In x (quantities d).
Proof.
  unfold register. destruct (has q (quantities d)) eqn:E.
  - apply has_In in E. split; [tauto|]. intros [->|H]; assumption.
  - cbn. rewrite in_app_iff. cbn. intuition congruence.
Qed.
Lemma register_all l d x :
  In x (quantities (fold_left (fun d q => register q d) l d)) <-> In x l \/ In x (quantities d).
Proof.
  revert d. induction l as [|q l IH]; intros d; [cbn; tauto|].
  cbn [fold_left]. rewrite IH, register_one. cbn. intuition congruence.
Qed.
Lemma register_known l d : (forall q, In q l -> In q (quantities d)) ->
  fold_left (fun d q => register q d) l d = d.
Proof.
  revert d. induction l as [|q l IH]; intros d H; [reflexivity|]. cbn [fold_left].
  assert (E : register q d = d).
  { unfold register. destruct (has q (quantities d)) eqn:E; [reflexivity|].
    assert (has q (quantities d) = true) by (apply has_In, H; now left). congruence. }
  rewrite E. apply IH. intros x Hx. apply H. now right.
Qed.

(** Dictionaries. *)
Lemma store_key_same k v l : lookup k (store_key k v l) = Some v.
Proof.
  induction l as [|[k' v'] l IH]; cbn; [now rewrite String.eqb_refl|].
  destruct (String.eqb_spec k k') as [->|n]; cbn.
  - now rewrite String.eqb_refl.
  - destruct (String.eqb_spec k k'); [congruence|exact IH].
Qed.
Lemma store_key_other k v l t : t <> k -> lookup t (store_key k v l) = lookup t l.
Proof.
  intros H. induction l as [|[k' v'] l IH]; cbn.
  - destruct (String.eqb_spec t k); congruence.
  - destruct (String.eqb_spec k k') as [->|n]; cbn.
    + destruct (String.eqb_spec t k'); [congruence|reflexivity].
    + destruct (String.eqb t k'); [reflexivity|exact IH].
Qed.
Lemma none_map_lookup ts t : In t ts -> lookup t (map (fun t => (t, Null)) ts) = Some Null.
Proof.
  induction ts as [|u ts IH]; [intros []|]. cbn. intros H.
  destruct (String.eqb_spec t u) as [->|n]; [reflexivity|]. apply IH. destruct H; [congruence|assumption].
Qed.
Lemma update_lookup ts l t :
  lookup t (fold_left (fun l kv => store_key (fst kv) (snd kv) l) (map (fun t => (t, Null)) ts) l)
  = if has t ts then Some Null else lookup t l.
Proof.
  revert l. induction ts as [|u ts IH]; intros l; [reflexivity|]. cbn [map fold_left fst snd].
  rewrite IH. cbn. destruct (String.eqb_spec t u) as [->|n]; cbn.
  - fold (has u ts). destruct (has u ts); [reflexivity|]. apply store_key_same.
  - fold (has t ts). destruct (has t ts); [reflexivity|]. now apply store_key_other.
Qed.

(** The boundary map of the message: every tag bound to [None]. *)
Definition map_ok (ts : list string) (l : list (string * value)) : Prop :=
  forall t, In t ts -> lookup t l = Some Null.

Definition boundary_state (o : object) : Prop :=
  attrs o "boundary_map" = Some Null \/ exists l, attrs o "boundary_map" = Some (Dict l).

Lemma clear_boundary o : boundary_state o ->
  exists l, map_ok (tags o) l /\
    set_boundary (map (fun t => (t, Null)) (tags o)) o = Some (put "boundary_map" (Dict l) o).
Proof.
  intros B. unfold set_boundary.
  assert (K : (match place o with
               | Some _ => true
               | None => forallb (fun kv => has (fst kv) ("ghost" :: tags o)) (map (fun t => (t, Null)) (tags o))
               end) = true).
  { destruct (place o); [reflexivity|]. apply forallb_forall. intros [k v] H. apply in_map_iff in H.
    destruct H as [t [E H]]. injection E as <- <-. apply has_In. now right. }
  rewrite K. clear K.
  destruct B as [B|[l B]]; rewrite B; cbn [bind].
  - exists (map (fun t => (t, Null)) (tags o)). split; [intros t Ht; now apply none_map_lookup|].
    replace (forallb _ (tags o)) with true; [reflexivity|]. symmetry. apply forallb_forall.
    intros t Ht. now rewrite none_map_lookup.
  - eexists. split; [|replace (forallb _ (tags o)) with true; [reflexivity|]].
    + intros t Ht. rewrite update_lookup. apply has_In in Ht. now rewrite Ht.
    + symmetry. apply forallb_forall. intros t Ht. rewrite update_lookup. apply has_In in Ht. now rewrite Ht.
Qed.

(** A domain as the setters leave it. *)
Record valid (o : object) (s : string) (c : choice) (z : Z) (stored : list (string * value)) (name : string) : Prop := {
  v_algorithm : attrs o "flow_algorithm" = Some (Text s);
  v_choice : algorithm_choice s = Some c;
  v_froude : attrs o "low_froude" = Some (Int z) /\ (0 <= z <= 2)%Z;
  v_stored : attrs o "quantities_to_be_stored" = Some (Dict stored);
  v_known : forall q v, In (q, v) stored -> In q (quantities o);
  v_name : attrs o "simulation_name" = Some (Text name);
  v_others : forall a, In a ["datadir"; "store"; "store_centroids"; "minimum_storable_height";
                             "minimum_allowed_height"; "geo_reference"; "smooth"] -> attrs o a <> None;
  v_boundary : boundary_state o }.

Definition value_of (o : object) (a : string) : value :=
  match attrs o a with Some v => v | None => Null end.

Lemma value_of_some o a : attrs o a <> None -> attrs o a = Some (value_of o a).
Proof. unfold value_of. now destruct (attrs o a). Qed.

Lemma read_settings_ok o geo qs l name dir sto cen stb alw alg sq smo fro :
  quantities o = qs -> attrs o "boundary_map" = Some (Dict l) ->
  attrs o "simulation_name" = Some name -> attrs o "datadir" = Some dir -> attrs o "store" = Some sto ->
  attrs o "store_centroids" = Some cen -> attrs o "minimum_storable_height" = Some stb ->
  attrs o "flow_algorithm" = Some alg -> attrs o "minimum_allowed_height" = Some alw ->
  attrs o "geo_reference" = Some geo -> attrs o "quantities_to_be_stored" = Some sq ->
  attrs o "smooth" = Some smo -> attrs o "low_froude" = Some fro ->
  read_settings o = Some (Message geo qs l name dir sto cen stb alw alg sq smo fro).
Proof.
  intros Hq H1 H2 H3 H4 H5 H6 H7 H8 H9 H10 H11 H12. unfold read_settings.
  rewrite H1, H2, H3, H4, H5, H6, H7, H8, H9, H10, H11, H12, Hq. reflexivity.
Qed.

Lemma message_ok o s c z stored name : valid o s c z stored name ->
  exists l, map_ok (tags o) l /\
    distribute_message o = Some (put "boundary_map" (Dict l) o,
      Message (value_of o "geo_reference") (quantities o) l (Text name) (value_of o "datadir") (value_of o "store")
        (value_of o "store_centroids") (value_of o "minimum_storable_height") (value_of o "minimum_allowed_height")
        (Text s) (Dict stored) (value_of o "smooth") (Int z)).
Proof.
  intros V. destruct (clear_boundary o (v_boundary _ _ _ _ _ _ V)) as [l [M E]].
  exists l. split; [exact M|]. unfold distribute_message. rewrite E. cbn [bind].
  pose proof (v_others _ _ _ _ _ _ V) as W.
  rewrite (read_settings_ok _ (value_of o "geo_reference") (quantities o) l (Text name) (value_of o "datadir")
    (value_of o "store") (value_of o "store_centroids") (value_of o "minimum_storable_height")
    (value_of o "minimum_allowed_height") (Text s) (Dict stored) (value_of o "smooth") (Int z));
    try reflexivity; rewrite put_other by discriminate;
    try (apply value_of_some; apply W; cbn; tauto).
  - exact (v_name _ _ _ _ _ _ V).
  - exact (v_algorithm _ _ _ _ _ _ V).
  - exact (v_stored _ _ _ _ _ _ V).
  - exact (proj1 (v_froude _ _ _ _ _ _ V)).
Qed.

Lemma bind_boundary l tg d : tags d = tg -> place d <> None -> attrs d "boundary_map" = Some Null ->
  (forall t, In t tg -> lookup t l <> None) ->
  set_boundary l d = Some (put "boundary_map" (Dict l) d).
Proof.
  intros T P A H. unfold set_boundary. destruct (place d) as [w|]; [|congruence]. rewrite A. cbn [bind].
  replace (forallb _ (tags d)) with true; [reflexivity|]. symmetry. apply forallb_forall.
  intros t Ht. rewrite T in Ht. specialize (H t Ht). now destruct (lookup t l).
Qed.

(** The same for a sequential domain. *)
Lemma bind_boundary_sequential l tg d : tags d = tg -> attrs d "boundary_map" = Some Null ->
  (forall k v, In (k, v) l -> k = "ghost" \/ In k tg) ->
  (forall t, In t tg -> lookup t l <> None) ->
  set_boundary l d = Some (put "boundary_map" (Dict l) d).
Proof.
  intros T A K H. unfold set_boundary.
  assert (E : (match place d with
               | Some _ => true
               | None => forallb (fun kv => has (fst kv) ("ghost" :: tags d)) l
               end) = true).
  { destruct (place d); [reflexivity|]. apply forallb_forall. intros [k v] Hk. apply has_In. rewrite T.
    destruct (K k v Hk) as [->|I]; [now left|now right]. }
  rewrite E, A. cbn [bind].
  replace (forallb _ (tags d)) with true; [reflexivity|]. symmetry. apply forallb_forall.
  intros t Ht. rewrite T in Ht. specialize (H t Ht). now destruct (lookup t l).
Qed.

(** The settings that are handed over by [distribute] after the algorithm has been set. *)
Definition handed_over (o : object) (z : Z) (stored : list (string * value)) : list (string * value) :=
  [("datadir", value_of o "datadir"); ("store", value_of o "store"); ("low_froude", Int z);
   ("store_centroids", value_of o "store_centroids");
   ("minimum_storable_height", value_of o "minimum_storable_height");
   ("minimum_allowed_height", value_of o "minimum_allowed_height"); ("H0", value_of o "minimum_allowed_height");
   ("geo_reference", value_of o "geo_reference");
   ("quantities_to_be_stored", Dict stored); ("smooth", value_of o "smooth")].

Definition local_name (name : string) (n p : nat) : string :=
  strip_sww (strip_sww name ++ "_P" ++ decimal n ++ "_" ++ decimal p).

Definition names (name : string) (n p : nat) : list (string * value) :=
  [("global_name", Text (strip_sww name)); ("simulation_name", Text (local_name name n p))].

Definition ghosted (l : list (string * value)) : list (string * value) := store_key "ghost" Null l.

Lemma ghosted_bound ts l tg : map_ok ts l -> (forall t, In t tg -> t = "ghost" \/ In t ts) ->
  forall t, In t tg -> lookup t (ghosted l) = Some Null.
Proof.
  intros M H t Ht. unfold ghosted. destruct (String.eqb_spec t "ghost") as [->|n].
  - apply store_key_same.
  - rewrite store_key_other by exact n. apply M. destruct (H t Ht); [contradiction|assumption].
Qed.

Lemma froude_ok z o : (0 <= z <= 2)%Z -> set_low_froude (Int z) o = Some (put "low_froude" (Int z) o).
Proof.
  intros H. unfold set_low_froude.
  replace (Z.eqb z 0 || Z.eqb z 1 || Z.eqb z 2) with true; [reflexivity|].
  assert (z = 0 \/ z = 1 \/ z = 2)%Z as [-> | [-> | ->]] by lia; reflexivity.
Qed.

Lemma stored_ok stored d : (forall q v, In (q, v) stored -> In q (quantities d)) ->
  set_quantities_to_be_stored (Dict stored) d = Some (put "quantities_to_be_stored" (Dict stored) d).
Proof.
  intros H. unfold set_quantities_to_be_stored.
  replace (forallb _ stored) with true; [reflexivity|]. symmetry. apply forallb_forall.
  intros [q v] Hq. apply has_In. exact (H q v Hq).
Qed.

Definition base (geo : value) (qs tg : list string) (n p : nat) : object :=
  fold_left (fun d q => register q d) qs
    (put "global_name" (Text "domain") (assign (new_attributes geo) (empty tg (Some (n, p))))).

Definition distributed (o : object) s c z stored name (l : list (string * value)) n p tg : object :=
  assign (handed_over o z stored)
    (assign (names name n p)
      (assign (algorithm_attributes s c)
        (put "boundary_map" (Dict (ghosted l)) (base (value_of o "geo_reference") (quantities o) tg n p)))).

Lemma base_tags geo qs tg n p : tags (base geo qs tg n p) = tg.
Proof. unfold base. rewrite register_tags. rewrite put_tags. apply (assign_tags (new_attributes geo)). Qed.
Lemma base_place geo qs tg n p : place (base geo qs tg n p) = Some (n, p).
Proof. unfold base. rewrite register_place. rewrite put_place. apply (assign_place (new_attributes geo)). Qed.
Lemma base_quantities geo qs tg n p q :
  In q (quantities (base geo qs tg n p)) <-> In q qs \/ In q standard_quantities.
Proof. unfold base. rewrite register_all, put_quantities, (assign_quantities (new_attributes geo)). reflexivity. Qed.
Lemma base_attrs geo qs tg n p a : a <> "global_name" ->
  attrs (base geo qs tg n p) a = attrs (assign (new_attributes geo) (empty [] None)) a.
Proof.
  intros H. unfold base. rewrite register_attrs, put_other by congruence. apply assign_same. reflexivity.
Qed.

Lemma base_map geo qs tg n p : attrs (base geo qs tg n p) "boundary_map" = Some Null.
Proof. rewrite base_attrs by discriminate. reflexivity. Qed.
Lemma base_kv geo qs tg n p : attrs (base geo qs tg n p) "kv_operator" = Some Null.
Proof. rewrite base_attrs by discriminate. reflexivity. Qed.

Theorem distribute_ok o s c z stored name n p tg :
  valid o s c z stored name -> n <> 1%nat ->
  (forall t, In t tg -> t = "ghost" \/ In t (tags o)) ->
  exists l, map_ok (tags o) l /\
    distribute o n p tg = Some (distributed o s c z stored name l n p tg).
Proof.
  intros V Hn T. destruct (message_ok _ _ _ _ _ _ V) as [l [M E]]. exists l. split; [exact M|].
  unfold distribute. apply Nat.eqb_neq in Hn. rewrite Hn, E. cbn [bind snd].
  unfold build_distributed. rewrite new_domain_ok. cbn [bind m_geo m_quantities].
  fold (base (value_of o "geo_reference") (quantities o) tg n p).
  cbn [m_boundary]. fold (ghosted l).
  rewrite (bind_boundary _ tg) by
    (try apply base_tags; try apply base_map; try (rewrite base_place; discriminate);
     intros t Ht; rewrite (ghosted_bound _ _ _ M T t Ht); discriminate).
  cbn [bind m_algorithm].
  rewrite (set_flow_algorithm_ok s c) by
    (try exact (v_choice _ _ _ _ _ _ V); rewrite put_other by discriminate; apply base_kv).
  cbn [bind m_name]. unfold set_name.
  replace (place (assign (algorithm_attributes s c)
             (put "boundary_map" (Dict (ghosted l)) (base (value_of o "geo_reference") (quantities o) tg n p))))
    with (Some (n, p)) by (rewrite assign_place; symmetry; apply base_place).
  cbn [bind m_dir m_store m_froude m_store_centroids m_storable m_allowed m_geo m_to_be_stored m_smooth].
  rewrite froude_ok by apply (v_froude _ _ _ _ _ _ V). cbn [bind].
  rewrite stored_ok.
  - cbn [bind]. reflexivity.
  - intros q v Hq. unfold set_minimum_allowed_height. rewrite assign_cons, assign_cons. cbn [assign fold_left].
    rewrite ?put_quantities, assign_quantities, put_quantities. apply base_quantities. left.
    exact (v_known _ _ _ _ _ _ V q v Hq).
Qed.
