(** C81: what distribution does to the settings of a domain. *)
From Coq Require Import Reals Lra List ZArith Bool String Ascii Lia.
From Coq Require Decimal DecimalString DecimalNat.
From Verif Require Import RealLib SettingsModel SettingsProofs.
Import ListNotations.
Local Open Scope string_scope.

(** The settings that are handed to the processes. *)
Definition kept : list string :=
  ["flow_algorithm"; "datadir"; "store"; "low_froude"; "store_centroids"; "minimum_storable_height";
   "minimum_allowed_height"; "geo_reference"; "quantities_to_be_stored"; "smooth"].

(** A domain on which distribution works: the algorithm is one of the five,
    [low_froude] is 0, 1 or 2, the quantities to be stored exist, the
    attributes of a domain are there. *)
Definition usable (o : object) : Prop :=
  exists s c z stored name, valid o s c z stored name.

(** A new domain for which only the algorithm has been chosen. *)
Definition plain (geo : value) (alg : value) (d : object) : Prop :=
  exists d0, new_domain geo [] None = Some d0 /\ set_flow_algorithm alg d0 = Some d.

Lemma plain_ok geo s c : algorithm_choice s = Some c ->
  forall d, plain geo (Text s) d -> d = assign (algorithm_attributes s c) (assign (new_attributes geo) (empty [] None)).
Proof.
  intros H d [d0 [E1 E2]]. rewrite new_domain_ok in E1.
  assert (E : d0 = assign (new_attributes geo) (empty [] None)) by congruence. subst d0. clear E1.
  rewrite (set_flow_algorithm_ok s c) in E2; [congruence|exact H|reflexivity].
Qed.

Definition naming : list string := ["simulation_name"; "global_name"; "H0"; "boundary_map"].

Ltac each := match goal with
  | H : In _ (_ :: _) |- _ => destruct H as [H|H]; [subst|each]
  | H : In _ [] |- _ => destruct H
  end.

(** The settings handed over arrive; every other one is that of a new domain
    with the same algorithm, whatever it was before (the names, [H0] and the
    boundary map are treated below). *)
Theorem C81_distribution_of_settings_partial o n p tg :
  usable o -> n <> 1%nat -> (forall t, In t tg -> t = "ghost" \/ In t (tags o)) ->
  exists d, distribute o n p tg = Some d
    /\ (forall a, In a kept -> attrs d a = attrs o a)
    /\ (forall geo alg d', attrs o "geo_reference" = Some geo -> attrs o "flow_algorithm" = Some alg ->
          plain geo alg d' ->
          forall a, ~ In a kept -> ~ In a naming -> attrs d a = attrs d' a)
    /\ attrs d "H0" = attrs o "minimum_allowed_height".
Proof.
  intros [s [c [z [stored [name V]]]]] Hn T.
  destruct (distribute_ok o s c z stored name n p tg V Hn T) as [l [M E]].
  exists (distributed o s c z stored name l n p tg). split; [exact E|].
  pose proof (v_others _ _ _ _ _ _ V) as W. unfold distributed. repeat split.
  - intros a Ha. unfold kept in Ha.
    destruct (String.eqb_spec a "flow_algorithm") as [->|na].
    + rewrite assign_other by (cbn; intuition discriminate).
      rewrite assign_other by (cbn; intuition discriminate).
      rewrite (v_algorithm _ _ _ _ _ _ V). reflexivity.
    + destruct Ha as [Ha|Ha]; [congruence|]. clear na.
      rewrite (assign_hit _ _ (empty [] None)) by (cbn; cbn in Ha; tauto).
      each; symmetry; try (etransitivity; [apply value_of_some; apply W; cbn; tauto|reflexivity]).
      * exact (proj1 (v_froude _ _ _ _ _ _ V)).
      * exact (v_stored _ _ _ _ _ _ V).
  - intros geo alg d' Eg Ea Ed a Hk Hm.
    rewrite (v_algorithm _ _ _ _ _ _ V) in Ea. assert (X : alg = Text s) by congruence. subst alg.
    rewrite (plain_ok geo s c (v_choice _ _ _ _ _ _ V) d' Ed). unfold kept, naming in *. cbn in Hk, Hm.
    rewrite assign_other by (cbn; tauto). rewrite assign_other by (cbn; tauto).
    apply assign_same. rewrite put_other by (intros X; apply Hm; tauto).
    rewrite base_attrs by (intros X; apply Hm; subst; tauto).
    replace (value_of o "geo_reference") with geo by (unfold value_of; now rewrite Eg). reflexivity.
  - rewrite (assign_hit _ _ (empty [] None)) by (cbn; tauto).
    symmetry. etransitivity; [apply value_of_some; apply W; cbn; tauto|reflexivity].
Qed.
Print Assumptions C81_distribution_of_settings_partial.

(** So if nothing but those settings had been changed on the domain, then the
    distributed domains have all its settings, with the exceptions listed in
    [naming]. *)
Theorem C81_settings_kept_partial o n p tg geo alg d' :
  usable o -> n <> 1%nat -> (forall t, In t tg -> t = "ghost" \/ In t (tags o)) ->
  attrs o "geo_reference" = Some geo -> attrs o "flow_algorithm" = Some alg -> plain geo alg d' ->
  (forall a, ~ In a kept -> ~ In a naming -> attrs o a = attrs d' a) ->
  exists d, distribute o n p tg = Some d
    /\ forall a, ~ In a naming -> attrs d a = attrs o a.
Proof.
  intros U Hn T Eg Ea Ed H.
  destruct (C81_distribution_of_settings_partial o n p tg U Hn T) as [d [E [K [F _]]]].
  exists d. split; [exact E|]. intros a Ha.
  destruct (in_dec string_dec a kept) as [I|I]; [now apply K|].
  rewrite (F geo alg d' Eg Ea Ed a I Ha). symmetry. now apply H.
Qed.
Print Assumptions C81_settings_kept_partial.

(** The settings the processes are told. *)
Definition told : list string := "simulation_name" :: "boundary_map" :: kept.

Lemma read_settings_same o1 o2 : (forall a, In a told -> attrs o1 a = attrs o2 a) ->
  quantities o1 = quantities o2 -> read_settings o1 = read_settings o2.
Proof.
  intros E Q. unfold read_settings. rewrite Q, !E by (cbn; tauto). reflexivity.
Qed.

(** [set_boundary] commutes with the assignment of another attribute. *)
Lemma set_boundary_same m a v o : a <> "boundary_map" ->
  match set_boundary m (put a v o), set_boundary m o with
  | Some o1, Some o2 => quantities o1 = quantities o2 /\ forall b, b <> a -> attrs o1 b = attrs o2 b
  | None, None => True
  | _, _ => False
  end.
Proof.
  intros Ha. unfold set_boundary. rewrite put_tags, put_place.
  match goal with |- context [if ?b then _ else _] => destruct b; [|exact I] end.
  rewrite put_other by exact Ha.
  destruct (attrs o "boundary_map") as [old|]; [cbn [bind]|exact I].
  destruct old; cbn [bind]; try exact I.
  all: match goal with |- context [if ?b then _ else _] => destruct b; [|exact I] end.
  all: split; [reflexivity|]; intros b Hb; cbn [attrs put]; destruct (String.eqb "boundary_map" b); [reflexivity|].
  all: destruct (String.eqb_spec a b); congruence.
Qed.

(** The result does not depend on any other setting of the domain. *)
Theorem C81_other_settings_ignored o n p tg a v :
  ~ In a told -> n <> 1%nat -> distribute (put a v o) n p tg = distribute o n p tg.
Proof.
  intros Ha Hn. unfold distribute. apply Nat.eqb_neq in Hn. rewrite Hn.
  generalize build_distributed. intros B.
  unfold distribute_message. rewrite put_tags.
  pose proof (set_boundary_same (map (fun t => (t, Null)) (tags o)) a v o) as H.
  destruct (set_boundary _ (put a v o)) as [o1|], (set_boundary _ o) as [o2|];
    try (destruct H; intros ->; apply Ha; cbn; tauto).
  - destruct H as [Q E]; [intros ->; apply Ha; cbn; tauto|]. cbn [bind].
    rewrite (read_settings_same o1 o2); [|intros b Hb; apply E; intros ->; contradiction|exact Q].
    destruct (read_settings o2); reflexivity.
  - reflexivity.
Qed.
Print Assumptions C81_other_settings_ignored.

(** Whatever boundary conditions had been set are lost: each tag of the domain
    is bound to [None] on every process. *)
Theorem C81_boundary_conditions_lost o n p tg :
  usable o -> n <> 1%nat -> (forall t, In t tg -> t = "ghost" \/ In t (tags o)) ->
  exists d l, distribute o n p tg = Some d /\ attrs d "boundary_map" = Some (Dict l)
    /\ forall t, In t (tags o) \/ t = "ghost" -> lookup t l = Some Null.
Proof.
  intros [s [c [z [stored [name V]]]]] Hn T.
  destruct (distribute_ok o s c z stored name n p tg V Hn T) as [l [M E]].
  exists (distributed o s c z stored name l n p tg), (ghosted l). split; [exact E|]. split.
  - unfold distributed. rewrite !assign_other by (cbn; intuition discriminate). reflexivity.
  - intros t Ht. apply (ghosted_bound (tags o) l (t :: nil) M); [|now left].
    intros u [->|[]]. tauto.
Qed.
Print Assumptions C81_boundary_conditions_lost.

(** ** The names of the processes *)

Lemma append_inj_l (s a b : string) : (s ++ a = s ++ b)%string -> a = b.
Proof. induction s as [|x s IH]; cbn; [trivial|]. intros H. injection H as H. now apply IH. Qed.

Lemma append_length (a b : string) : String.length (a ++ b) = (String.length a + String.length b)%nat.
Proof. induction a as [|x a IH]; cbn; [reflexivity|]. now rewrite IH. Qed.

Lemma append_assoc' (a b c : string) : (a ++ (b ++ c) = (a ++ b) ++ c)%string.
Proof. induction a as [|x a IH]; cbn; [reflexivity|]. now rewrite IH. Qed.

Definition digit (c : ascii) : Prop := In c (list_ascii_of_string "0123456789").

Lemma uint_digits u k c : get k (DecimalString.NilEmpty.string_of_uint u) = Some c -> digit c.
Proof.
  revert k. induction u; intros k H; cbn in H; try discriminate;
    destruct k; try (injection H as <-; unfold digit; cbn; tauto); now apply (IHu k).
Qed.

Lemma decimal_nonempty n : exists k, String.length (decimal n) = S k.
Proof.
  unfold decimal. destruct (Nat.to_uint n) eqn:E; cbn; eauto.
  exfalso. assert (H := DecimalNat.Unsigned.of_to n). rewrite E in H. cbn in H. subst n. discriminate.
Qed.

Lemma get_some k s : (k < String.length s)%nat -> exists c, get k s = Some c.
Proof.
  revert k. induction s as [|x s IH]; intros k H; cbn in H; [lia|].
  destruct k; cbn; [eauto|]. apply IH. lia.
Qed.

Lemma decimal_last n : exists c, get (String.length (decimal n) - 1) (decimal n) = Some c /\ digit c.
Proof.
  destruct (decimal_nonempty n) as [k E].
  destruct (get_some (String.length (decimal n) - 1) (decimal n)) as [c H]; [lia|].
  exists c. split; [exact H|]. exact (uint_digits _ _ _ H).
Qed.

Lemma numbered_not_sww (x : string) p : (4 <= String.length (x ++ decimal p))%nat ->
  strip_sww (x ++ decimal p) = (x ++ decimal p)%string.
Proof.
  intros L. unfold strip_sww. set (s := (x ++ decimal p)%string) in *.
  destruct (String.eqb_spec (substring (String.length s - 4) 4 s) ".sww") as [E|]; [|reflexivity].
  exfalso. destruct (decimal_last p) as [c [G D]].
  assert (G1 : get (String.length s - 1) s = Some c).
  { unfold s. rewrite append_length. destruct (decimal_nonempty p) as [k K].
    replace (String.length x + String.length (decimal p) - 1)%nat
      with ((String.length (decimal p) - 1) + String.length x)%nat by lia.
    rewrite <- append_correct2. exact G. }
  assert (G2 : get 3 (substring (String.length s - 4) 4 s) = Some c).
  { rewrite substring_correct1 by lia. replace (3 + (String.length s - 4))%nat with (String.length s - 1)%nat by lia.
    exact G1. }
  rewrite E in G2. cbn in G2. injection G2 as <-. unfold digit in D. cbn in D.
  intuition discriminate.
Qed.

Lemma decimal_inj m n : decimal m = decimal n -> m = n.
Proof.
  unfold decimal. intros H. apply (f_equal DecimalString.NilEmpty.uint_of_string) in H.
  rewrite !DecimalString.NilEmpty.usu in H. injection H as H.
  apply (f_equal Nat.of_uint) in H. now rewrite !DecimalNat.Unsigned.of_to in H.
Qed.

Lemma local_name_ok name n p :
  local_name name n p = (strip_sww name ++ "_P" ++ decimal n ++ "_" ++ decimal p)%string.
Proof.
  unfold local_name.
  replace (strip_sww name ++ "_P" ++ decimal n ++ "_" ++ decimal p)%string
    with (((strip_sww name ++ "_P" ++ decimal n ++ "_") ++ decimal p)%string).
  - apply numbered_not_sww. rewrite !append_length.
    destruct (decimal_nonempty p) as [k ->]. destruct (decimal_nonempty n) as [k' ->]. cbn. lia.
  - rewrite <- append_assoc'. f_equal. rewrite <- append_assoc'. f_equal. now rewrite <- append_assoc'.
Qed.

(** The processes of a run write to files of different names. *)
Theorem C81_process_names o n p p' tg tg' : usable o -> n <> 1%nat ->
  (forall t, In t tg \/ In t tg' -> t = "ghost" \/ In t (tags o)) ->
  exists d d', distribute o n p tg = Some d /\ distribute o n p' tg' = Some d'
    /\ attrs d "global_name" = attrs d' "global_name"
    /\ (attrs d "simulation_name" = attrs d' "simulation_name" -> p = p').
Proof.
  intros [s [c [z [stored [name V]]]]] Hn T.
  destruct (distribute_ok o s c z stored name n p tg V Hn) as [l [_ E]]; [intros t Ht; apply T; now left|].
  destruct (distribute_ok o s c z stored name n p' tg' V Hn) as [l' [_ E']]; [intros t Ht; apply T; now right|].
  eexists _, _. split; [exact E|]. split; [exact E'|]. unfold distributed. split.
  - rewrite !(assign_other (handed_over o z stored)) by (cbn; intuition discriminate). reflexivity.
  - rewrite !(assign_other (handed_over o z stored)) by (cbn; intuition discriminate).
    rewrite !(assign_hit (names _ _ _) _ (empty [] None)) by (cbn; tauto).
    unfold names. cbn [assign fold_left fst snd]. rewrite !local_name_ok. cbn [attrs put].
    replace (String.eqb "simulation_name" "simulation_name") with true by reflexivity.
    intros H. assert (K : forall a b, Some (Text a) = Some (Text b) -> a = b) by congruence.
    apply K in H. apply append_inj_l in H. apply (append_inj_l "_P") in H. apply append_inj_l in H.
    apply (append_inj_l "_") in H. now apply decimal_inj.
Qed.
Print Assumptions C81_process_names.

(** ** Dumping and loading *)

(** The settings loaded from a dump are those [distribute] hands over, if the
    domain has only the standard quantities. *)
Theorem C81_dump_and_load o n p tg :
  usable o -> (1 < n)%nat -> (forall t, In t tg -> t = "ghost" \/ In t (tags o)) ->
  (forall q, In q (quantities o) -> In q standard_quantities) ->
  exists d d', distribute o n p tg = Some d /\ dump_and_load o n p tg = Some d'
    /\ (forall a, attrs d a = attrs d' a) /\ quantities d = quantities d' /\ place d = place d'.
Proof.
  intros [s [c [z [stored [name V]]]]] Hn T Q.
  destruct (message_ok _ _ _ _ _ _ V) as [l [M E]].
  set (geo := value_of o "geo_reference") in *.
  set (b := put "global_name" (Text "domain") (assign (new_attributes geo) (empty tg (Some (n, p))))).
  assert (Bq : quantities b = standard_quantities).
  { unfold b. rewrite put_quantities. apply (assign_quantities (new_attributes geo)). }
  assert (Bb : base geo (quantities o) tg n p = b).
  { unfold base. apply register_known. intros q Hq. fold b. rewrite Bq. now apply Q. }
  assert (Bt : tags b = tg). { rewrite <- Bb. apply base_tags. }
  assert (Bp : place b = Some (n, p)). { rewrite <- Bb. apply base_place. }
  assert (Bm : attrs b "boundary_map" = Some Null). { rewrite <- Bb. apply base_map. }
  assert (Bk : attrs b "kv_operator" = Some Null). { rewrite <- Bb. apply base_kv. }
  set (b1 := put "boundary_map" (Dict (ghosted l)) b).
  exists (assign (handed_over o z stored) (assign (names name n p) (assign (algorithm_attributes s c) b1))).
  exists (assign (skipn 3 (handed_over o z stored))
           (put "store" (value_of o "store") (put "low_froude" (Int z)
             (assign (algorithm_attributes s c) (put "datadir" (value_of o "datadir")
               (assign (names name n p) b1)))))).
  assert (Hb : set_boundary (ghosted l) b = Some b1).
  { apply (bind_boundary _ tg); [exact Bt|rewrite Bp; discriminate|exact Bm|].
    intros t Ht. rewrite (ghosted_bound _ _ _ M T t Ht). discriminate. }
  split; [|split; [|split]].
  - unfold distribute. replace (Nat.eqb n 1) with false by (symmetry; apply Nat.eqb_neq; lia).
    rewrite E. cbn [bind snd]. unfold build_distributed. rewrite new_domain_ok.
    cbn [bind m_geo m_quantities]. fold b.
    replace (fold_left (fun d q => register q d) (quantities o) b) with b by (symmetry; exact Bb).
    cbn [m_boundary]. fold (ghosted l). rewrite Hb. cbn [bind m_algorithm].
    rewrite (set_flow_algorithm_ok s c);
      [|exact (v_choice _ _ _ _ _ _ V)|unfold b1; rewrite put_other by discriminate; exact Bk].
    cbn [bind m_name]. unfold set_name. rewrite assign_place. unfold b1 at 1. rewrite put_place, Bp.
    cbn [bind m_dir m_store m_froude m_store_centroids m_storable m_allowed m_geo m_to_be_stored m_smooth].
    rewrite froude_ok by apply (v_froude _ _ _ _ _ _ V). cbn [bind].
    rewrite stored_ok.
    + cbn [bind]. reflexivity.
    + intros q v Hq. unfold set_minimum_allowed_height. rewrite assign_cons, assign_cons. cbn [assign fold_left].
      rewrite ?put_quantities, assign_quantities. unfold b1. rewrite put_quantities, Bq. apply Q.
      exact (v_known _ _ _ _ _ _ V q v Hq).
  - unfold dump_and_load. rewrite E. cbn [bind snd]. unfold load_distributed.
    replace (Nat.ltb 1 n) with true by (symmetry; apply Nat.ltb_lt; lia). rewrite new_domain_ok.
    cbn [bind m_geo m_quantities]. fold b.
    replace (forallb _ (quantities o)) with true.
    2:{ symmetry. apply forallb_forall. intros q Hq. apply has_In. rewrite Bq. now apply Q. }
    cbn [m_boundary]. fold (ghosted l). rewrite Hb. cbn [bind m_name].
    unfold set_name. unfold b1 at 1. rewrite put_place, Bp. cbn [bind m_algorithm m_dir].
    rewrite (set_flow_algorithm_ok s c);
      [|exact (v_choice _ _ _ _ _ _ V)|unfold b1; rewrite !put_other by discriminate; exact Bk].
    cbn [bind m_store m_froude m_store_centroids m_storable m_allowed m_geo m_to_be_stored m_smooth].
    rewrite froude_ok by apply (v_froude _ _ _ _ _ _ V). cbn [bind].
    rewrite stored_ok.
    + cbn [bind]. reflexivity.
    + intros q v Hq. unfold set_minimum_allowed_height. rewrite assign_cons, assign_cons. cbn [assign fold_left].
      rewrite ?put_quantities, assign_quantities. unfold b1. rewrite !put_quantities, Bq. apply Q.
      exact (v_known _ _ _ _ _ _ V q v Hq).
  - intros a.
    set (r := skipn 3 (handed_over o z stored)).
    assert (Er : forall x, assign (handed_over o z stored) x
        = assign r (put "low_froude" (Int z) (put "store" (value_of o "store") (put "datadir" (value_of o "datadir") x))))
      by reflexivity.
    rewrite Er.
    assert (Kr : forall x, In x (map fst r) -> x <> "datadir" /\ x <> "store" /\ x <> "low_froude").
    { intros x Hx. unfold r in Hx. cbn in Hx. repeat split; intros ->; intuition discriminate. }
    clearbody r. clear Er.
    destruct (in_dec string_dec a ["datadir"; "store"; "low_froude"]) as [I|I].
    + rewrite !(assign_other r) by (intros X; apply Kr in X; cbn in I; intuition congruence).
      cbn in I. destruct I as [<- | [<- | [<- | []]]].
      * rewrite !(put_other "store"), !(put_other "low_froude"), !(put_other "store") by discriminate.
        rewrite (assign_other (algorithm_attributes s c)) by (cbn; intuition discriminate). rewrite !put_same. reflexivity.
      * rewrite !(put_other "low_froude") by discriminate. rewrite !put_same. reflexivity.
      * rewrite (put_other "store") by discriminate. rewrite !put_same. reflexivity.
    + apply assign_same.
      cbn in I. rewrite !put_other by (intros <-; tauto).
      destruct (in_dec string_dec a ["global_name"; "simulation_name"]) as [J|J].
      * rewrite (assign_hit (names name n p) _ b1) by (cbn; cbn in J; tauto).
        rewrite (assign_other (algorithm_attributes s c)) by (cbn; cbn in J; destruct J as [<- | [<- | []]]; intuition discriminate).
        rewrite put_other by (intros <-; tauto). reflexivity.
      * rewrite (assign_other (names name n p)) by (cbn; cbn in J; tauto).
        apply assign_same. rewrite put_other by (intros <-; tauto).
        rewrite (assign_other (names name n p)) by (cbn; cbn in J; tauto). reflexivity.
  - rewrite !assign_quantities, ?put_quantities, !assign_quantities, ?put_quantities, ?assign_quantities.
    rewrite !assign_place, ?put_place, !assign_place, ?put_place, ?assign_place. split; reflexivity.
Qed.
Print Assumptions C81_dump_and_load.

(** ** A domain *)

(** DE1, output in another directory, CFL number 1/2, walls bound to object 7. *)
Definition example : object :=
  assign [("datadir", Text "out"); ("CFL", Real (1 / 2)); ("boundary_map", Dict [("wall", Ref 7)])]
    (assign (algorithm_attributes "DE1" (Choice 1 2 (1 / 100000) 1 0))
      (assign (new_attributes (Ref 1)) (empty ["wall"] None))).

Example C81_example_made :
  (o <- new_domain (Ref 1) ["wall"] None;
   o <- set_flow_algorithm (Text "DE1") o;
   let o := put "datadir" (Text "out") o in
   let o := put "CFL" (Real (1 / 2)) o in
   set_boundary [("wall", Ref 7)] o) = Some example.
Proof.
  rewrite new_domain_ok. cbn [bind].
  rewrite (set_flow_algorithm_ok "DE1" (Choice 1 2 (1 / 100000) 1 0)) by (vm_compute; reflexivity). cbn [bind].
  rewrite (bind_boundary_sequential _ ["wall"]).
  - unfold example. rewrite !assign_cons. reflexivity.
  - rewrite !put_tags, !assign_tags. reflexivity.
  - vm_compute. reflexivity.
  - intros k v [H|[]]. injection H as <- <-. right. now left.
  - intros t [<-|[]]. discriminate.
Qed.

Example C81_example_usable : usable example.
Proof.
  exists "DE1", (Choice 1 2 (1 / 100000) 1 0), 0%Z,
    [("elevation", Int 1); ("friction", Int 1); ("stage", Int 2); ("xmomentum", Int 2); ("ymomentum", Int 2)], "domain".
  constructor; try (vm_compute; reflexivity).
  - split; [vm_compute; reflexivity|lia].
  - unfold example. rewrite !assign_quantities. intros q v H. cbn in H.
    repeat match type of H with _ \/ _ => destruct H as [H|H]; [injection H as <- <-; cbn; tauto|] end. destruct H.
  - intros a H. cbn in H.
    repeat match type of H with _ \/ _ => destruct H as [H|H]; [subst; vm_compute; discriminate|] end. destruct H.
  - right. exists [("wall", Ref 7)]. vm_compute. reflexivity.
Qed.

(** The CFL number and the boundary condition set by the user are lost, the
    directory is kept. *)
Theorem C81_settings_lost_refuted :
  let got a := (d <- distribute example 2 1 ["wall"; "ghost"]; attrs d a) in
  attrs example "CFL" = Some (Real (1 / 2)) /\ got "CFL" = Some (Real 1)
  /\ attrs example "boundary_map" = Some (Dict [("wall", Ref 7)])
  /\ got "boundary_map" = Some (Dict [("wall", Null); ("ghost", Null)])
  /\ got "datadir" = Some (Text "out")
  /\ got "simulation_name" = Some (Text "domain_P2_1").
Proof. vm_compute. repeat split. Qed.
Print Assumptions C81_settings_lost_refuted.

(** With one process [distribute] keeps everything but a dump loaded again
    has lost the boundary condition. *)
Theorem C81_one_process_refuted :
  distribute example 1 0 ["wall"] = Some example
  /\ (d <- dump_and_load example 1 0 ["wall"]; attrs d "boundary_map")
     = Some (Dict [("wall", Null); ("ghost", Null)]).
Proof. split; [reflexivity|]. vm_compute. reflexivity. Qed.
Print Assumptions C81_one_process_refuted.

(** A domain with another quantity can be distributed but its dump cannot be loaded. *)
Theorem C81_extra_quantity_refuted :
  let o := register "concentration" example in
  usable o /\ (exists d, distribute o 2 0 ["wall"] = Some d) /\ dump_and_load o 2 0 ["wall"] = None.
Proof.
  cbv zeta.
  assert (U : usable (register "concentration" example)).
  { destruct C81_example_usable as [s [c [z [st [nm [V1 V2 V3 V4 V5 V6 V7 V8]]]]]].
    revert V1 V3 V4 V5 V6 V7 V8. generalize example. intros o V1 V3 V4 V5 V6 V7 V8.
    assert (R : attrs (register "concentration" o) = attrs o)
      by (unfold register; destruct (has "concentration" (quantities o)); reflexivity).
    exists s, c, z, st, nm. constructor; unfold boundary_state; rewrite ?R; try assumption.
    intros q v H. apply register_one. right. exact (V5 q v H). }
  split; [exact U|]. split.
  - destruct (C81_distribution_of_settings_partial _ 2 0 ["wall"] U) as [d [E _]].
    + discriminate.
    + intros t [<-|[]]. right. vm_compute. now left.
    + exists d. exact E.
  - vm_compute. reflexivity.
Qed.
Print Assumptions C81_extra_quantity_refuted.
