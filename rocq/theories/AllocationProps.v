(** C86: the processes that take part in an inlet or structure. *)
From Coq Require Import Reals List Arith Bool Lia Lra.
From Verif Require Import RealLib ListLib ArrayLib KahnLib SyncLib PhaseLib ParallelStructureModel ParallelStructureProofs
  AllocationModel AllocationProofs.
Import ListNotations.

(** All processes of the list call [allocate_inlet_procs]; the others have
    other things to do. *)
Definition begin (procs : list nat) (master : nat) (size : nat -> nat) (has : nat -> bool) (want : bool) (p : nat)
    : KahnLib.prog msg (option result) :=
  if in_dec Nat.eq_dec p procs then allocate procs master p (size p) (has p) want (fun r => Ret (Some r)) else Ret None.

(** What is gathered in the good case. *)
Lemma gathered_well (procs : list nat) master size has want :
  NoDup procs -> In master procs -> (forall p, has p = true -> (0 < size p)%nat) ->
  (exists p, In p procs /\ (0 < size p)%nat) ->
  (forall p q, In p procs -> In q procs -> has p = true -> has q = true -> p = q) ->
  (want = true -> exists p, In p procs /\ has p = true) ->
  exists m g e, absorb_all size has (without master procs) (own master (size master) (has master)) =
      Some (Gathered g (Some (size m)) (Some m) e) /\
    NoDup g /\ (forall p, In p g <-> In p procs /\ (0 < size p)%nat) /\ In m g /\
    (forall p, In p procs -> (size p <= size m)%nat) /\ (forall p, e = Some p <-> In p procs /\ has p = true) /\
    (want = true -> e <> None).
Proof.
  intros ND HM HP (p0 & Hp0 & S0) HU HW.
  assert (HP' : forall p, has p = true -> part size p = true) by (intros p H; unfold part; apply Nat.ltb_lt; auto).
  set (vs := master :: without master procs).
  assert (NV : NoDup vs). { constructor; [rewrite in_without; tauto | now apply NoDup_without]. }
  assert (IV : forall p, In p vs <-> In p procs).
  { intros p. unfold vs. cbn [In]. rewrite in_without. destruct (Nat.eq_dec p master) as [-> | N]; [tauto |].
    split; [intros [-> | [H _]]; tauto | auto]. }
  destruct (absorb_all_ok size has HP' (without master procs) [master] (own master (size master) (has master)) (own_good size has HP' master)) as (g & E).
  { change ([master] ++ without master procs) with vs.
    assert (NF : NoDup (filter has vs)) by now apply NoDup_filter.
    assert (U : forall p q, In p (filter has vs) -> In q (filter has vs) -> p = q).
    { intros p q Hp Hq. apply filter_In in Hp as [Hp1 Hp2]. apply filter_In in Hq as [Hq1 Hq2]. apply IV in Hp1, Hq1. eauto. }
    destruct (filter has vs) as [| a [| b l]]; cbn; try lia. exfalso. inversion NF as [| x xs N1 _]; subst. apply N1.
    rewrite (U a b); [now left | now left | right; now left]. }
  destruct (absorb_all_good size has HP' _ [master] _ g (own_good size has HP' master) E) as [G1 G2 G3].
  change ([master] ++ without master procs) with vs in G1, G2, G3.
  assert (PI : forall p, In p (filter (part size) vs) <-> In p procs /\ (0 < size p)%nat).
  { intros p. rewrite filter_In, IV. unfold part. now rewrite Nat.ltb_lt. }
  destruct (g_master g) as [m |] eqn:EM.
  2:{ exfalso. destruct G3 as [_ F]. assert (In p0 (filter (part size) vs)) by (apply PI; auto). rewrite F in H. destruct H. }
  destruct G3 as (M1 & M2 & M3 & M4). exists m, (filter (part size) vs), (g_enq g). split.
  { rewrite E. f_equal. destruct g as [gp gm gma ge]; cbn in *. congruence. }
  assert (EQ : forall p, g_enq g = Some p <-> In p procs /\ has p = true).
  { intros p. rewrite <- IV, <- filter_In, G2. destruct (g_enq g) as [q |]; cbn; [| split; [discriminate | tauto]].
    split; [intros X; left; congruence | intros [-> | []]; reflexivity]. }
  split; [now apply NoDup_filter |]. split; [exact PI |]. split; [apply filter_In; auto |].
  split; [intros p Hp; apply M4, IV, Hp |]. split; [exact EQ |].
  intros W. destruct (HW W) as (p & Hp & H). rewrite (proj2 (EQ p)); [discriminate | auto].
Qed.

Theorem C86_allocation : forall n procs master size has want,
  NoDup procs -> (forall p, In p procs -> (p < n)%nat) -> In master procs ->
  (forall p, has p = true -> (0 < size p)%nat) ->
  (* some process has a part of the inlet *)
  (exists p, In p procs /\ (0 < size p)%nat) ->
  (* the enquiry point, if there is one, belongs to exactly one process *)
  (forall p q, In p procs -> In q procs -> has p = true -> has q = true -> p = q) ->
  (want = true -> exists p, In p procs /\ has p = true) ->
  exists fin m g e, always_ends n (begin procs master size has want) fin /\
    (* all processes get the same answer *)
    (forall p, In p procs -> fin p = Ret (Some (Result (0 <? size p)%nat (Some m) g e))) /\
    (* the group: exactly the processes with a part, each once *)
    NoDup g /\ (forall p, In p g <-> In p procs /\ (0 < size p)%nat) /\
    (* the master of the inlet belongs to it and has the largest part *)
    In m g /\ (forall p, In p procs -> (size p <= size m)%nat) /\
    (* and so does the process with the enquiry point *)
    (forall p, e = Some p <-> In p procs /\ has p = true).
Proof.
  intros n procs master size has want ND HN HM HP HS HU HW.
  destruct (gathered_well procs master size has want ND HM HP HS HU HW) as (m & g & e & E & P1 & P2 & P3 & P4 & P5 & P6).
  destruct (allocate_phase n procs master size has want HN ND HM (fun _ r => Ret (Some r)) (begin procs master size has want)) with (g := Gathered g (Some (size m)) (Some m) e)
    as (t & [[c PC] PO] & T); cbn [g_procs g_master g_enq] in *.
  - intros p Hp. unfold begin. destruct (in_dec Nat.eq_dec p procs); [reflexivity | contradiction].
  - exact E.
  - intros X. rewrite X in P3. destruct P3.
  - discriminate.
  - exact P6.
  - intros p Hp H. apply P5. auto.
  - exists t, m, g, e. split.
    { apply (one_run_is_enough n c); [exact PC |]. intros p _. destruct (in_dec Nat.eq_dec p procs) as [Hp | Hp].
      - rewrite T by assumption. exact I.
      - rewrite PO by assumption. unfold begin. destruct (in_dec Nat.eq_dec p procs); [contradiction | exact I]. }
    split; [exact T |]. auto 6.
Qed.
Print Assumptions C86_allocation.

(** ** The factory of a structure *)
Definition begin_factory procs master (mesh : nat -> mesh_part) lines ends enq width apron gap (p : nat)
    : KahnLib.prog msg (option placement) :=
  if in_dec Nat.eq_dec p procs then factory procs master p (mesh p) lines ends enq width apron gap else Ret None.

(** The lines and points the master finds. *)
Definition geometry (lines : option (line * line)) (ends enq : option (point * point)) (width apron gap : R)
    : option ((line * line) * (point * point)) :=
  match lines, ends with
  | Some l, _ => match skew l ends enq apron gap with Some e => Some (l, e) | None => None end
  | None, Some e => non_skew e width enq apron gap
  | None, None => None
  end.
Definition side {X} (b : bool) (p : X * X) : X := if b then fst p else snd p.
Definition has_point (m : mesh_part) (e : point) : bool := has_enquiry (contains m e) (full m) (ntri m).
Definition takes_part (m : mesh_part) (l : line) (e : point) : Prop := meets m l <> [] \/ has_point m e = true.

Lemma size_pos m l e : (0 < size_of (meets m l) (has_point m e))%nat <-> takes_part m l e.
Proof.
  unfold size_of, takes_part. destruct (meets m l) as [| a r]; destruct (has_point m e); cbn; split; intros H; auto; try lia;
    try (left; discriminate); try (destruct H as [H | H]; [contradiction | discriminate]).
Qed.

Theorem C86_factory : forall n procs master mesh lines ends enq width apron gap ls es,
  NoDup procs -> (forall p, In p procs -> (p < n)%nat) -> In master procs ->
  geometry lines ends enq width apron gap = Some (ls, es) ->
  (* each enquiry point belongs to exactly one process *)
  (forall b, exists p, In p procs /\ has_point (mesh p) (side b es) = true /\
     forall q, In q procs -> has_point (mesh q) (side b es) = true -> q = p) ->
  exists fin pl, always_ends n (begin_factory procs master mesh lines ends enq width apron gap) fin /\
    (* the operator exists on exactly the processes that take part *)
    (forall p, In p procs -> (fin p = Ret (Some pl) /\ exists b, takes_part (mesh p) (side b ls) (side b es)) \/
       (fin p = Ret None /\ forall b, ~ takes_part (mesh p) (side b ls) (side b es))) /\
    (forall b p, In p (pl_inlet_procs pl b) <-> In p procs /\ takes_part (mesh p) (side b ls) (side b es)) /\
    (* it satisfies what the calls rely on (C85) *)
    exists master' imaster enquiry,
      pl_master pl = Some master' /\ (forall b, pl_inlet_master pl b = Some (imaster b)) /\
      (forall b, pl_enquiry pl b = Some (enquiry b) /\ has_point (mesh (enquiry b)) (side b es) = true) /\
      forall inv out cul fo sm jet zero old always ys,
        group n (Operator (pl_procs pl) master' (pl_inlet_procs pl) imaster enquiry inv out cul fo sm jet zero old always ys).
Proof.
  intros n procs master mesh lines ends enq width apron gap ls es ND HN HM HG HE.
  set (s0 := begin_factory procs master mesh lines ends enq width apron gap).
  (* the geometry is sent around *)
  assert (exists t0, phase n procs s0 t0 /\ forall p, In p procs -> t0 p = allocate_both procs master p (mesh p) ls es) as (t0 & PH0 & T0).
  { assert (S0 : forall p, In p procs -> s0 p = factory procs master p (mesh p) lines ends enq width apron gap).
    { intros p Hp. unfold s0, begin_factory. destruct (in_dec Nat.eq_dec p procs); [reflexivity | contradiction]. }
    assert (OR : forall i, In i (without master procs) -> (i < n)%nat /\ i <> master).
    { intros i Hi. apply in_without in Hi as [Hi Ni]. auto. }
    unfold geometry in HG. unfold factory in S0. destruct lines as [l |].
    - destruct (skew l ends enq apron gap) as [e |] eqn:SK; [| discriminate]. injection HG as <- <-.
      destruct (scatter_run n master (fun _ => [MPoints e]) (without master procs) s0
        (allocate_both procs master master (mesh master) l e)
        (fun p vs => match vs with [MPoints pts] => allocate_both procs master p (mesh p) l pts | _ => Fail end)
        (HN master HM) (NoDup_without _ _ ND) OR) as (c & t & T1 & T2 & T3 & T4).
      + intros i Hi. destruct (OR i Hi) as [_ Ni]. apply in_without in Hi as [Hi _]. rewrite S0 by assumption.
        destruct (Nat.eqb_spec i master); [contradiction | reflexivity].
      + rewrite S0 by assumption. rewrite Nat.eqb_refl. reflexivity.
      + exists t. split.
        * split; [now exists c |]. intros p Hp. apply T4; [intros ->; contradiction | rewrite in_without; tauto].
        * intros p Hp. destruct (Nat.eq_dec p master) as [-> | Np]; [exact T2 |]. apply (T3 p). apply in_without. auto.
    - destruct ends as [e |]; [| discriminate].
      destruct (non_skew e width enq apron gap) as [[l pts] |] eqn:SK; [| discriminate]. injection HG as <- <-.
      destruct (scatter_run n master (fun _ => [MLines l; MPoints pts]) (without master procs) s0
        (allocate_both procs master master (mesh master) l pts)
        (fun p vs => match vs with [MLines l; MPoints pts] => allocate_both procs master p (mesh p) l pts | _ => Fail end)
        (HN master HM) (NoDup_without _ _ ND) OR) as (c & t & T1 & T2 & T3 & T4).
      + intros i Hi. destruct (OR i Hi) as [_ Ni]. apply in_without in Hi as [Hi _]. rewrite S0 by assumption.
        destruct (Nat.eqb_spec i master); [contradiction | reflexivity].
      + rewrite S0 by assumption. rewrite Nat.eqb_refl. reflexivity.
      + exists t. split.
        * split; [now exists c |]. intros p Hp. apply T4; [intros ->; contradiction | rewrite in_without; tauto].
        * intros p Hp. destruct (Nat.eq_dec p master) as [-> | Np]; [exact T2 |]. apply (T3 p). apply in_without. auto. }
  set (has := fun b p => has_point (mesh p) (side b es)).
  set (size := fun b p => size_of (meets (mesh p) (side b ls)) (has b p)).
  assert (SP : forall b p, (0 < size b p)%nat <-> takes_part (mesh p) (side b ls) (side b es)) by (intros b p; apply size_pos).
  assert (HP : forall b p, has b p = true -> (0 < size b p)%nat).
  { intros b p H. apply SP. right. exact H. }
  assert (GW : forall b, exists m g e, absorb_all (size b) (has b) (without master procs) (own master (size b master) (has b master)) =
      Some (Gathered g (Some (size b m)) (Some m) (Some e)) /\
      NoDup g /\ (forall p, In p g <-> In p procs /\ (0 < size b p)%nat) /\ In m g /\ In e procs /\ has b e = true /\
      (forall p, In p procs -> has b p = true -> p = e)).
  { intros b. destruct (HE b) as (p0 & H0 & H1 & H2).
    destruct (gathered_well procs master (size b) (has b) true ND HM (HP b)) as (m & g & e & E & P1 & P2 & P3 & P4 & P5 & P6).
    - exists p0. split; [exact H0 |]. apply HP. exact H1.
    - intros p q Hp Hq Kp Kq. rewrite (H2 p Hp Kp), (H2 q Hq Kq). reflexivity.
    - intros _. exists p0. auto.
    - destruct e as [e |]; [| now destruct P6]. destruct (proj1 (P5 e) eq_refl) as [Q1 Q2].
      exists m, g, e. repeat split; auto; try (now apply P2). intros p Hp H. assert (Some e = Some p) by (apply P5; auto). congruence. }
  destruct (GW true) as (m0 & g0 & e0 & A1 & A2 & A3 & A4 & A5 & A6 & A7).
  destruct (GW false) as (m1 & g1 & e1 & B1 & B2 & B3 & B4 & B5 & B6 & B7).
  destruct (allocate_phase n procs master (size true) (has true) true HN ND HM
    (fun p r0 => allocate_line procs master p (mesh p) (snd ls) (snd es) (fun r1 => Ret (placed r0 r1))) t0) with (g := Gathered g0 (Some (size true m0)) (Some m0) (Some e0))
    as (t1 & PH1 & T1); cbn [g_procs g_master g_enq] in *.
  { exact T0. } { exact A1. } { intros X. rewrite X in A4. destruct A4. } { discriminate. } { discriminate. }
  { intros p Hp H. f_equal. symmetry. auto. }
  destruct (allocate_phase n procs master (size false) (has false) true HN ND HM
    (fun p r1 => Ret (placed (Result (part (size true) p) (Some m0) g0 (Some e0)) r1)) t1) with (g := Gathered g1 (Some (size false m1)) (Some m1) (Some e1))
    as (t2 & PH2 & T2); cbn [g_procs g_master g_enq] in *.
  { exact T1. } { exact B1. } { intros X. rewrite X in B4. destruct B4. } { discriminate. } { discriminate. }
  { intros p Hp H. f_equal. symmetry. auto. }
  destruct (phase_trans _ _ _ _ _ PH0 (phase_trans _ _ _ _ _ PH1 PH2)) as [[c PC] PO].
  set (pl := Placement (Some m0) (nodup Nat.eq_dec (g0 ++ g1)) (fun b : bool => if b then Some m0 else Some m1)
    (fun b : bool => if b then g0 else g1) (fun b : bool => if b then Some e0 else Some e1)).
  assert (PLI : forall b p, In p (pl_inlet_procs pl b) <-> In p procs /\ takes_part (mesh p) (side b ls) (side b es)).
  { intros [|] p; cbn [pl pl_inlet_procs]; [rewrite A3 | rewrite B3]; rewrite SP; reflexivity. }
  exists t2, pl. split; [| split; [| split; [exact PLI |]]].
  - apply (one_run_is_enough n c); [exact PC |]. intros p _. destruct (in_dec Nat.eq_dec p procs) as [Hp | Hp].
    + rewrite T2 by assumption. exact I.
    + rewrite PO by assumption. unfold s0, begin_factory. destruct (in_dec Nat.eq_dec p procs); [contradiction | exact I].
  - intros p Hp. rewrite T2 by assumption. unfold placed. cbn [alloc r_master r_procs r_enq]. unfold part.
    destruct (Nat.ltb_spec 0 (size true p)) as [L0 | L0]; cbn [orb].
    + left. split; [reflexivity |]. exists true. now apply SP.
    + destruct (Nat.ltb_spec 0 (size false p)) as [L1 | L1].
      * left. split; [reflexivity |]. exists false. now apply SP.
      * right. split; [reflexivity |]. intros [|] X; apply SP in X; lia.
  - exists m0, (fun b : bool => if b then m0 else m1), (fun b : bool => if b then e0 else e1).
    split; [reflexivity |]. split; [intros [|]; reflexivity |]. split; [intros [|]; split; (reflexivity || assumption) |].
    intros. split; cbn [o_procs o_master inlet_procs inlet_master enquiry_proc pl pl_procs pl_inlet_procs].
    + apply NoDup_nodup.
    + intros p Hp. apply nodup_In, in_app_iff in Hp as [Hp | Hp]; [apply A3 in Hp | apply B3 in Hp]; apply HN; tauto.
    + apply nodup_In, in_app_iff. now left.
    + intros [|] p Hp; apply nodup_In, in_app_iff; auto.
    + intros [|]; assumption.
    + intros [|]; assumption.
    + intros [|]; [apply A3 | apply B3]; split; auto.
Qed.
Print Assumptions C86_factory.

(** ** What goes wrong *)
(** The line meets no triangle of any process: the master's assertion fails, all
    others wait for its message for ever. *)
Theorem C86_nothing_found_refuted : forall n procs master size has want,
  NoDup procs -> (forall p, In p procs -> (p < n)%nat) -> In master procs ->
  (forall p, has p = true -> (0 < size p)%nat) -> (forall p, In p procs -> size p = 0%nat) ->
  exists fin, always_ends n (begin procs master size has want) fin /\ fin master = Fail /\
    forall p, In p procs -> p <> master -> exists k, fin p = Recv master k.
Proof.
  intros n procs master size has want ND HN HM HP HZ.
  assert (HP' : forall p, has p = true -> part size p = true) by (intros p H; unfold part; apply Nat.ltb_lt; auto).
  assert (S0 : forall p, In p procs -> begin procs master size has want p = allocate procs master p (size p) (has p) want (fun r => Ret (Some r))).
  { intros p Hp. unfold begin. destruct (in_dec Nat.eq_dec p procs); [reflexivity | contradiction]. }
  assert (F0 : filter has ([master] ++ without master procs) = []).
  { destruct (filter has ([master] ++ without master procs)) as [| a l] eqn:F; [reflexivity |]. exfalso.
    assert (I : In a (filter has ([master] ++ without master procs))) by (rewrite F; now left).
    apply filter_In in I as [I H]. apply HP in H. rewrite HZ in H; [lia |].
    apply in_app_iff in I as [[<- | []] | I]; [assumption | apply in_without in I; tauto]. }
  destruct (absorb_all_ok size has HP' (without master procs) [master] (own master (size master) (has master)) (own_good size has HP' master)) as (g & E).
  { rewrite F0. cbn. lia. }
  destruct (absorb_all_good size has HP' _ [master] _ g (own_good size has HP' master) E) as [G1 _ _].
  destruct (collected n procs master size has want HN ND HM (fun _ r => Ret (Some r)) _ S0 g E) as (c & t & T1 & T2 & T3 & T4).
  assert (G0 : g_procs g = []).
  { rewrite G1. destruct (filter (part size) ([master] ++ without master procs)) as [| a l] eqn:F; [reflexivity |]. exfalso.
    assert (I : In a (filter (part size) ([master] ++ without master procs))) by (rewrite F; now left).
    apply filter_In in I as [I H]. unfold part in H. apply Nat.ltb_lt in H. rewrite HZ in H; [lia |].
    apply in_app_iff in I as [[<- | []] | I]; [assumption | apply in_without in I; tauto]. }
  assert (TM : t master = Fail) by (rewrite T2; unfold checked; now rewrite G0).
  exists t. split; [| split; [exact TM |]].
  - assert (ID : forall p, (p < n)%nat -> idle (t p)).
    { intros p _. destruct (in_dec Nat.eq_dec p procs) as [Hp | Hp].
      - destruct (Nat.eq_dec p master) as [-> | Np]; [rewrite TM; exact I |]. rewrite T3 by assumption. exact I.
      - rewrite T4 by assumption. unfold begin. destruct (in_dec Nat.eq_dec p procs); [contradiction | exact I]. }
    apply (one_run_to_the_end n c); [exact T1 | now apply idle_sync | now apply idle_steps].
  - intros p Hp Np. rewrite T3 by assumption. eexists. reflexivity.
Qed.
Print Assumptions C86_nothing_found_refuted.

(** The enquiry point is in no process: the same. *)
Theorem C86_enquiry_point_lost_refuted : forall n procs master size has,
  NoDup procs -> (forall p, In p procs -> (p < n)%nat) -> In master procs ->
  (forall p, has p = true -> (0 < size p)%nat) -> (forall p, In p procs -> has p = false) ->
  exists fin, always_ends n (begin procs master size has true) fin /\ fin master = Fail /\
    forall p, In p procs -> p <> master -> exists k, fin p = Recv master k.
Proof.
  intros n procs master size has ND HN HM HP HZ.
  assert (HP' : forall p, has p = true -> part size p = true) by (intros p H; unfold part; apply Nat.ltb_lt; auto).
  assert (S0 : forall p, In p procs -> begin procs master size has true p = allocate procs master p (size p) (has p) true (fun r => Ret (Some r))).
  { intros p Hp. unfold begin. destruct (in_dec Nat.eq_dec p procs); [reflexivity | contradiction]. }
  assert (F0 : filter has ([master] ++ without master procs) = []).
  { destruct (filter has ([master] ++ without master procs)) as [| a l] eqn:F; [reflexivity |]. exfalso.
    assert (I : In a (filter has ([master] ++ without master procs))) by (rewrite F; now left).
    apply filter_In in I as [I H]. rewrite HZ in H; [discriminate |].
    apply in_app_iff in I as [[<- | []] | I]; [assumption | apply in_without in I; tauto]. }
  destruct (absorb_all_ok size has HP' (without master procs) [master] (own master (size master) (has master)) (own_good size has HP' master)) as (g & E).
  { rewrite F0. cbn. lia. }
  destruct (absorb_all_good size has HP' _ [master] _ g (own_good size has HP' master) E) as [_ G2 _].
  destruct (collected n procs master size has true HN ND HM (fun _ r => Ret (Some r)) _ S0 g E) as (c & t & T1 & T2 & T3 & T4).
  assert (G0 : g_enq g = None). { rewrite F0 in G2. destruct (g_enq g); [discriminate | reflexivity]. }
  assert (TM : t master = Fail).
  { rewrite T2. unfold checked. rewrite G0. destruct (length (g_procs g) =? 0)%nat; [reflexivity |]. destruct (is_none (g_master g)); reflexivity. }
  exists t. split; [| split; [exact TM |]].
  - assert (ID : forall p, (p < n)%nat -> idle (t p)).
    { intros p _. destruct (in_dec Nat.eq_dec p procs) as [Hp | Hp].
      - destruct (Nat.eq_dec p master) as [-> | Np]; [rewrite TM; exact I |]. rewrite T3 by assumption. exact I.
      - rewrite T4 by assumption. unfold begin. destruct (in_dec Nat.eq_dec p procs); [contradiction | exact I]. }
    apply (one_run_to_the_end n c); [exact T1 | now apply idle_sync | now apply idle_steps].
  - intros p Hp Np. rewrite T3 by assumption. eexists. reflexivity.
Qed.
Print Assumptions C86_enquiry_point_lost_refuted.

(** A process whose full triangles come first has the enquiry point as soon as
    one of them contains it, edges included. *)
Theorem C86_has_point : forall contains full nfull ntri, (nfull <= ntri)%nat ->
  (forall k, (k < ntri)%nat -> full k = (k <? nfull)%nat) ->
  (has_enquiry contains full ntri = true <-> exists k, (k < nfull)%nat /\ contains k = true).
Proof.
  intros cont full nfull ntri L F. unfold has_enquiry, find_triangle.
  destruct (find cont (seq 0 ntri)) as [k |] eqn:E.
  - pose proof (find_some _ _ E) as [I C]. apply in_seq in I. rewrite F by lia. split.
    + intros H. exists k. split; [now apply Nat.ltb_lt | exact C].
    + intros (j & Hj & Cj). apply Nat.ltb_lt. destruct (Nat.le_gt_cases nfull k) as [X | X]; [| exact X]. exfalso.
      assert (GEN : forall l a k, find cont (seq a l) = Some k -> forall j, (a <= j < k)%nat -> cont j = false).
      { clear. induction l as [| l IH]; intros a k H j Hj; cbn in H; [discriminate |].
        destruct (cont a) eqn:Ca; [injection H as <-; lia |]. destruct (Nat.eq_dec j a) as [-> | N]; [exact Ca |]. apply (IH (S a) k H). lia. }
      rewrite (GEN ntri 0%nat k E j) in Cj; [discriminate | lia].
  - split; [discriminate |]. intros (j & Hj & Cj). pose proof (find_none _ _ E j) as N. rewrite N in Cj; [discriminate |]. apply in_seq. lia.
Qed.
Print Assumptions C86_has_point.

(** So a point on an edge between triangles of two processes is claimed twice;
    the allocation fails on the master and no other process ever returns. *)
Theorem C86_enquiry_on_interface_refuted : forall n procs master size has want p q,
  NoDup procs -> (forall p, In p procs -> (p < n)%nat) -> In master procs ->
  (forall p, has p = true -> (0 < size p)%nat) ->
  In p procs -> In q procs -> p <> q -> has p = true -> has q = true ->
  exists fs fb, ends_in n (begin procs master size has want) fs fb /\
    fs master = Fail /\ KahnLib.procs fb master = Fail /\
    forall i, In i procs -> i <> master -> ~ ended (fs i) /\ exists k, KahnLib.procs fb i = Recv master k.
Proof.
  intros n procs master size has want p q ND HN HM HP Ip Iq Npq Hp Hq.
  assert (HP' : forall p, has p = true -> part size p = true) by (intros x H; unfold part; apply Nat.ltb_lt; auto).
  assert (S0 : forall p, In p procs -> begin procs master size has want p = allocate procs master p (size p) (has p) want (fun r => Ret (Some r))).
  { intros x Hx. unfold begin. destruct (in_dec Nat.eq_dec x procs); [reflexivity | contradiction]. }
  set (K := fun (_ : nat) r => Ret (Some r) : KahnLib.prog msg (option result)) in *.
  set (vs := [master] ++ without master procs).
  assert (IV : forall x, In x procs -> In x vs).
  { intros x Hx. unfold vs. cbn [app In]. rewrite in_without. destruct (Nat.eq_dec x master) as [-> | N]; auto. }
  assert (NONE : absorb_all size has (without master procs) (own master (size master) (has master)) = None).
  { apply (absorb_all_two size has HP' (without master procs) [master]); [apply own_good; exact HP' |]. fold vs.
    assert (A1 : In p (filter has vs)) by (apply filter_In; auto). assert (A2 : In q (filter has vs)) by (apply filter_In; auto).
    destruct (filter has vs) as [| a [| b l]]; cbn; [destruct A1 | | lia].
    destruct A1 as [<- | []]. destruct A2 as [<- | []]. contradiction. }
  destruct (absorb_all_none size has _ _ NONE) as (l1 & j & l2 & g1 & EL & E1 & E2).
  assert (NL : NoDup (l1 ++ j :: l2)) by (rewrite <- EL; now apply NoDup_without).
  assert (IL : forall x, In x (l1 ++ j :: l2) <-> In x procs /\ x <> master) by (intros x; rewrite <- EL; apply in_without).
  pose proof (master_prog procs master size has want HM K _ S0) as MP. rewrite EL in MP.
  assert (SN : forall i, In i procs -> i <> master -> begin procs master size has want i =
      Send master (MSize (size i)) (Send master (MFlag (has i)) (after_send master size has K i))).
  { intros i Hi Ni. exact (sender procs master size has want K _ S0 i Hi Ni). }
  apply NoDup_remove in NL as NL'. destruct NL' as [NL1 NJ].
  assert (ND1 : NoDup l1). { clear - NL1. induction l1; [constructor |]. inversion NL1; subst. constructor; [| now apply IHl1]. rewrite in_app_iff in H1. tauto. }
  assert (ND2 : NoDup l2). { clear - NL1. induction l1; [exact NL1 |]. inversion NL1; subst. now apply IHl1. }
  destruct (collect_run n master size has (HN master HM) l1 (begin procs master size has want)
     (own master (size master) (has master)) g1 (checked procs master size want K) (after_send master size has K) ND1)
     with (r := j :: l2) as (c1 & t1 & R1 & R2 & R3 & R4).
  { intros i Hi. destruct (proj1 (IL i)); [apply in_app_iff; now left |]. auto. }
  { intros i Hi. destruct (proj1 (IL i)); [apply in_app_iff; now left |]. now apply SN. }
  { exact MP. } { exact E1. }
  destruct (proj1 (IL j)) as [Ij Nj]; [apply in_app_iff; right; now left |].
  destruct (collect_one n master size has (HN master HM) j l2 t1 g1 (checked procs master size want K) (after_send master size has K j) (HN j Ij) Nj) as (c2 & t2 & Q1 & Q2 & Q3 & Q4).
  { rewrite R4; [now apply SN | exact Nj |]. intros X. apply NJ, in_app_iff. now left. }
  { exact R2. }
  rewrite E2 in Q3.
  assert (T : forall i, i <> master -> t2 i = if in_dec Nat.eq_dec i (l1 ++ [j]) then after_send master size has K i else begin procs master size has want i).
  { intros i Ni. destruct (Nat.eq_dec i j) as [-> | Nij].
    - rewrite Q2. destruct (in_dec Nat.eq_dec j (l1 ++ [j])) as [_ | X]; [reflexivity |]. exfalso. apply X, in_app_iff. right. now left.
    - rewrite Q4 by assumption. destruct (in_dec Nat.eq_dec i (l1 ++ [j])) as [X | X].
      + apply in_app_iff in X as [X | [X | []]]; [now apply R3 | congruence].
      + apply R4; [exact Ni |]. intros Y. apply X, in_app_iff. now left. }
  assert (L2 : forall i, In i l2 -> In i procs /\ i <> master /\ ~ In i (l1 ++ [j])).
  { intros i Hi. destruct (proj1 (IL i)); [apply in_app_iff; right; now right |]. split; [assumption |]. split; [assumption |].
    intros X. apply in_app_iff in X as [X | [<- | []]].
    - clear - NL1 X Hi. induction l1 as [| a l IH]; [destruct X |]. cbn in NL1. inversion NL1 as [| x xs NN NL2]; subst. destruct X as [<- | X]; [| now apply IH].
      apply NN, in_app_iff. now right.
    - apply NJ, in_app_iff. now right. }
  destruct (jam n (c1 + c2) (begin procs master size has want) t2 master (fun i => MSize (size i)) (fun i => MFlag (has i)) (after_send master size has K) l2)
    as (fb & F1 & F2 & F3 & F4).
  - eapply syncs_trans; eassumption.
  - exact ND2.
  - now apply HN.
  - rewrite Q3. exact I.
  - intros i Hi. destruct (L2 i Hi) as (X1 & X2 & X3). split; [now apply HN |]. rewrite T by assumption.
    destruct (in_dec Nat.eq_dec i (l1 ++ [j])); [contradiction |]. now apply SN.
  - intros i _. eexists. reflexivity.
  - intros i Hi Ni Nm. rewrite T by assumption. destruct (in_dec Nat.eq_dec i (l1 ++ [j])); [exact I |].
    unfold begin. destruct (in_dec Nat.eq_dec i procs) as [X | X]; [| exact I]. exfalso.
    destruct (proj1 (in_app_iff l1 (j :: l2) i) (proj2 (IL i) (conj X Nm))) as [Y | [Y | Y]]; [| | contradiction];
      apply n0, in_app_iff; [now left | right; now left].
  - exists t2, fb. split; [exact F1 |]. split; [exact Q3 |]. split; [now rewrite F2 |].
    intros i Hi Ni. destruct (in_dec Nat.eq_dec i l2) as [X | X].
    + destruct (L2 i X) as (_ & _ & X3). split.
      * rewrite T by assumption. destruct (in_dec Nat.eq_dec i (l1 ++ [j])); [contradiction |]. rewrite SN by assumption. intros [].
      * rewrite F3 by assumption. eexists. reflexivity.
    + assert (Y : In i (l1 ++ [j])).
      { destruct (proj1 (in_app_iff l1 (j :: l2) i) (proj2 (IL i) (conj Hi Ni))) as [Y | [Y | Y]]; [| | contradiction];
          apply in_app_iff; [now left | right; now left]. }
      rewrite F4 by assumption. rewrite T by assumption. destruct (in_dec Nat.eq_dec i (l1 ++ [j])); [| contradiction].
      split; [intros [] | eexists; reflexivity].
Qed.
Print Assumptions C86_enquiry_on_interface_refuted.

(** [procs] is described as the list of processes the structure may be given
    to; a process outside the list that makes the call never returns from it. *)
Definition begin_all (callers procs : list nat) (master : nat) (size : nat -> nat) (has : nat -> bool) (want : bool) (p : nat)
    : KahnLib.prog msg (option result) :=
  if in_dec Nat.eq_dec p callers then allocate procs master p (size p) (has p) want (fun r => Ret (Some r)) else Ret None.
Theorem C86_other_callers_wait_refuted : forall n callers procs master size has want,
  NoDup callers -> (forall p, In p callers -> (p < n)%nat) -> incl procs callers ->
  NoDup procs -> In master procs ->
  (forall p, has p = true -> (0 < size p)%nat) ->
  (exists p, In p procs /\ (0 < size p)%nat) ->
  (forall p q, In p procs -> In q procs -> has p = true -> has q = true -> p = q) ->
  (want = true -> exists p, In p procs /\ has p = true) ->
  exists fs fb, ends_in n (begin_all callers procs master size has want) fs fb /\
    (forall p, In p procs -> exists r, fs p = Ret (Some r) /\ KahnLib.procs fb p = Ret (Some r)) /\
    (forall p, In p callers -> ~ In p procs -> ~ ended (fs p) /\ exists k, KahnLib.procs fb p = Recv master k).
Proof.
  intros n callers procs master size has want NC HC IC ND HM HP HS HU HW.
  assert (HN : forall p, In p procs -> (p < n)%nat) by auto.
  destruct (gathered_well procs master size has want ND HM HP HS HU HW) as (m & g & e & E & P1 & P2 & P3 & P4 & P5 & P6).
  set (s0 := begin_all callers procs master size has want). set (K := fun (_ : nat) r => Ret (Some r) : KahnLib.prog msg (option result)).
  assert (S0 : forall p, In p callers -> s0 p = allocate procs master p (size p) (has p) want (K p)).
  { intros p Hp. unfold s0, begin_all. destruct (in_dec Nat.eq_dec p callers); [reflexivity | contradiction]. }
  destruct (allocate_phase n procs master size has want HN ND HM K s0) with (g := Gathered g (Some (size m)) (Some m) e)
    as (t & [[c PC] PO] & T); cbn [g_procs g_master g_enq] in *.
  - intros p Hp. apply S0. auto.
  - exact E.
  - intros X. rewrite X in P3. destruct P3.
  - discriminate.
  - exact P6.
  - intros p Hp H. apply P5. auto.
  - set (l := filter (fun p => negb (mem p procs)) callers).
    assert (IL : forall p, In p l <-> In p callers /\ ~ In p procs).
    { intros p. unfold l. rewrite filter_In, negb_true_iff. now rewrite mem_false. }
    assert (SL : forall p, In p l -> t p = Send master (MSize (size p)) (Send master (MFlag (has p)) (after_send master size has K p))).
    { intros p Hp. apply IL in Hp as [Hp Np]. rewrite PO, S0 by assumption. unfold allocate.
      destruct (Nat.eqb_spec p master) as [-> | _]; [contradiction | reflexivity]. }
    destruct (jam n c s0 t master (fun i => MSize (size i)) (fun i => MFlag (has i)) (after_send master size has K) l) as (fb & F1 & F2 & F3 & F4).
    + exact PC.
    + now apply NoDup_filter.
    + auto.
    + rewrite T by assumption. exact I.
    + intros i Hi. split; [apply IL in Hi as [Hi _]; auto | now apply SL].
    + intros i _. eexists. reflexivity.
    + intros i Hi Ni _. destruct (in_dec Nat.eq_dec i procs) as [X | X]; [rewrite T by assumption; exact I |].
      rewrite PO by assumption. unfold s0, begin_all. destruct (in_dec Nat.eq_dec i callers) as [Y | Y]; [| exact I].
      exfalso. apply Ni, IL. auto.
    + exists t, fb. split; [exact F1 |]. split.
      * intros p Hp. eexists. split; [apply T; exact Hp |]. rewrite F4, T; [reflexivity | exact Hp |]. rewrite IL. tauto.
      * intros p Hp Np. assert (X : In p l) by (apply IL; auto). split; [rewrite SL by assumption; intros [] |].
        rewrite F3 by assumption. eexists. reflexivity.
Qed.
Print Assumptions C86_other_callers_wait_refuted.

(** ** The enquiry points of the factory and of the operator *)
Local Open Scope R_scope.
Lemma vlength_opposite v : vlength (vscale (-1) v) = vlength v.
Proof. unfold vlength, vscale. cbn. f_equal. ring. Qed.
Theorem C86_same_points : forall lines ends enq apron gap,
  length (fst lines) = 2%nat -> length (snd lines) = 2%nat ->
  operator_skew lines ends enq apron gap = skew lines ends enq apron gap.
Proof.
  intros [l0 l1] ends enq apron gap L0 L1. cbn [fst snd] in L0, L1.
  destruct l0 as [| a [| b [| ? ?]]]; try discriminate. destruct l1 as [| a' [| b' [| ? ?]]]; try discriminate.
  unfold operator_skew, skew. cbv zeta. cbn [fst snd length Nat.eqb negb].
  set (v := match ends with None => _ | Some _ => _ end). unfold unit_vector. rewrite vlength_opposite.
  destruct (Rltb 0 (vlength v)); reflexivity.
Qed.
Print Assumptions C86_same_points.

(** With four points to each line and end points as well, the operator looks
    elsewhere than the factory did. *)
Definition box_lines : line * line :=
  ([(0, 0); (0, 2); (-1, 2); (-1, 0)], [(10, 0); (10, 2); (11, 2); (11, 0)]).
Theorem C86_four_points_refuted :
  skew box_lines (Some ((0, 0), (0, 5))) None 1 0 = Some ((0, 0), (10, 2)) /\
  operator_skew box_lines (Some ((0, 0), (0, 5))) None 1 0 = Some ((-1, 1), (11, 1)).
Proof.
  assert (U : forall x y l, 0 < l -> x * x + y * y = l * l -> unit_vector (x, y) = Some (x / l, y / l)).
  { intros x y l Hl E. unfold unit_vector, vlength, vscale. cbn [fst snd]. rewrite E, sqrt_square by lra.
    rewrite (proj2 (Rltb_true 0 l) Hl). f_equal. f_equal; unfold Rdiv; ring. }
  unfold skew, operator_skew, box_lines. cbn [fst snd length Nat.eqb negb nth].
  unfold centre, vadd, vsub, vscale. cbn [fst snd nth]. split.
  - rewrite (U _ _ 5) by lra. cbn [fst snd]. apply f_equal. apply f_equal2; apply f_equal2; field.
  - rewrite (U _ _ 10), !(U _ _ 2) by lra. cbn [fst snd]. apply f_equal. apply f_equal2; apply f_equal2; field.
Qed.
Print Assumptions C86_four_points_refuted.

(** ** Non-vacuity *)
(** Two processes with one full triangle each and the other one as ghost; the
    culvert goes from one to the other. *)
Definition ex_mesh (p : nat) : mesh_part :=
  MeshPart (fun l => match l with (x, _) :: _ => if Bool.eqb (Rltb 5 x) (Nat.eqb p 1) then [0%nat] else [] | [] => [] end)
    (fun e k => Bool.eqb (Rltb 5 (fst e)) (Nat.eqb ((p + k) mod 2) 1)) (fun k => Nat.eqb k 0) 2.
Example C86_example : exists fin pl,
  always_ends 2 (begin_factory [0; 1]%nat 0 ex_mesh None (Some ((0, 0), (10, 0))) None 1 1 0) fin /\
  (forall b, pl_inlet_procs pl b <> []).
Proof.
  destruct (C86_factory 2 [0; 1]%nat 0%nat ex_mesh None (Some ((0, 0), (10, 0))) None 1 1 0
    ([(0, 1 / 2); (0, - (1 / 2))], [(10, 1 / 2); (10, - (1 / 2))]) ((-1, 0), (11, 0))) as (fin & pl & A & B & C & D).
  - repeat constructor; simpl; lia.
  - intros p [<- | [<- | []]]; lia.
  - now left.
  - unfold geometry, non_skew, unit_vector, vsub, vlength, vscale, vadd. cbn [fst snd].
    replace ((10 - 0) * (10 - 0) + (0 - 0) * (0 - 0)) with (10 * 10) by ring. rewrite sqrt_square by lra.
    rewrite (proj2 (Rltb_true 0 10)) by lra. cbn [fst snd].
    apply f_equal. apply f_equal2; [apply f_equal2; apply f_equal2; [| apply f_equal2; [| reflexivity] | | apply f_equal2; [| reflexivity]] |];
      apply f_equal2; try (field); apply f_equal2; field.
  - intros [|]; unfold side, has_point, has_enquiry, find_triangle, ex_mesh; cbn [fst snd contains AllocationModel.full ntri seq find].
    + rewrite (proj2 (Rltb_false 5 (-1))) by lra. exists 0%nat. split; [now left |]. split; [reflexivity |].
      intros q [<- | [<- | []]]; [auto | cbn; discriminate].
    + rewrite (proj2 (Rltb_true 5 11)) by lra. exists 1%nat. split; [right; now left |]. split; [reflexivity |].
      intros q [<- | [<- | []]]; [cbn; discriminate | auto].
  - exists fin, pl. split; [exact A |].
    destruct D as (m0 & imaster & enquiry & _ & _ & E & G). intros b X.
    destruct (E b) as [E1 E2].
    specialize (G (fun _ => None) (fun _ => (0, 0)) (CulvertModel.Settings true false 1 0) (fun _ _ _ => None) (fun _ _ _ _ _ => None) false false false false 1).
    pose proof (g_imaster _ _ G b) as M. cbn [inlet_procs] in M. rewrite X in M. destruct M.
Qed.
