(** C80: a domain distributed by the distribution code and evolved on several
    processes gives the values of the undivided domain. *)
From Coq Require Import Reals List ZArith Arith Lia Lra Bool.
From Verif Require Import NeighbourModel NeighbourProofs NeighbourProps DistributeModel LocalMeshModel LocalMeshProofs2 LocalMeshProps
  RealLib ArrayLib GeometryModel BoundaryModel FluxModel FluxProofs FluxProps ReconModel RKModel StepModel ParallelStepModel
  ParallelStepProofs ParallelStepProps DistributedRunModel DistributedRunProofs DistributedRunProofs2.
Import ListNotations.
Local Open Scope R_scope.

(** What the theorem assumes of a domain and its distribution. *)
Record setup (D : LocalMeshProps.domain (R * R)%type (R * R * R)%type) (T : config) (bmap : nat -> boundary_object)
  (nproc : nat) (epart : list nat) (ghost_tag w : nat) : Prop := {
  su_valid : valid D;
  (* asserted by the constructor of General_mesh *)
  su_area : forall t, In t (d_ts D) -> 0 < geo area (d_nodes D) t;
  su_procs : (2 <= nproc)%nat;
  su_part : partition (length (d_ts D)) nproc epart;
  su_width : (2 <= w)%nat;                          (* ghost_layer_width, default 2 *)
  su_template : template_ok T;
  (* the user gives every tag of the domain a boundary condition and does not use the tag 'ghost' *)
  su_tag : forall key, ~ In (key, ghost_tag) (d_bd D);
  su_map : forall key tag, In (key, tag) (d_bd D) -> bmap tag <> NoBoundary }.

Lemma choose_processes {A} (P : nat -> A -> Prop) (d : A) : forall n, (forall p, (p < n)%nat -> exists a, P p a) ->
  exists f, forall p, (p < n)%nat -> P p (f p).
Proof.
  induction n as [|n IH]; intros H; [exists (fun _ => d); intros; lia|].
  destruct IH as (f & Hf); [intros; apply H; lia|]. destruct (H n) as (a & Ha); [lia|].
  exists (fun p => if Nat.eqb p n then a else f p). intros p Hp. destruct (Nat.eqb_spec p n) as [->|N]; [exact Ha|apply Hf; lia].
Qed.

(** Distribution succeeds on every process; every triangle is a full triangle of
    some process; and after any number of steps of any of the schemes no process has
    raised, all use the time step of the undivided run, and each process holds the
    values of the undivided run on all its triangles, ghosts included.  [X0], [X0']:
    contents of arrays before the run. *)
Theorem C80_distributed_domain D T bmap nproc epart ghost_tag w dts b0 bs : setup D T bmap nproc epart ghost_tag w ->
  (forall i t, 0 <= dts i t) ->
  mesh_boundary (d_ts D) (d_default D) b0 = Some (d_rows D, d_bd D, bs) ->
  let C := mesh_config T (d_nodes D) (d_ts D) (d_rows D) bs (fun _ => 1%Z) (d_quan D) bmap in
  exists procs : nat -> process,
  (forall p, (p < nproc)%nat ->
     start_process T (d_nodes D) (d_ts D) (d_bd D) (d_quan D) (d_default D) ghost_tag nproc epart w bmap p = Some (procs p)) /\
  (forall k, (k < length (d_ts D))%nat -> exists p j, (p < nproc)%nat /\ nth_error (pr_l2g (procs p)) j = Some (Z.of_nat k) /\
     tri_full_flag (cf_dom (pr_config (procs p))) j = 1%Z) /\
  forall m n X0 X0' t0 p, (p < nproc)%nat ->
  let s := p_steps nproc (fun p => pr_config (procs p)) dts (message_source procs) m n
             (fun p => start_state (X0 p) t0 (pr_quan (procs p))) p in
  let S := sw_steps C dts m n (start_state X0' t0 (d_quan D)) in
  dt _ s = dt _ S /\
  exists x X, RKModel.rest _ s = Some x /\ RKModel.rest _ S = Some X /\
    forall j k, nth_error (pr_l2g (procs p)) j = Some (Z.of_nat k) ->
      RKModel.q _ s j = RKModel.q _ S k /\ x_xmom x j = x_xmom X k /\ x_ymom x j = x_ymom X k.
Proof.
  intros [VD HA Hn Hpart Hw HT Htag Hmap] Hdts EB C.
  assert (Ebs : bs = build_boundary_neighbours (d_rows D) (d_bd D)).
  { unfold mesh_boundary in EB. destruct (build_neighbour_structure (d_ts D)) as [r|]; [|discriminate].
    destruct (boundary_dictionary r (d_default D) b0) as [b|]; [|discriminate]. injection EB as <- <- <-. reflexivity. }
  subst bs. change C with (whole D T bmap). clear C.
  destruct (choose_processes (holds D T bmap nproc epart ghost_tag w) {| pr_config := T; pr_recv := []; pr_send := []; pr_l2g := []; pr_quan := [] |} nproc)
    as (procs & HP).
  { intros p Hp. apply process_holds; assumption. }
  exists procs.
  assert (DS : distribution (whole D T bmap) nproc (fun p => pr_config (procs p)) (fun p => up_of (procs p)) (nf epart) (message_source procs))
    by (apply (is_distribution D VD T bmap nproc epart ghost_tag w); assumption).
  assert (Len : forall p, (p < nproc)%nat -> N (pr_config (procs p)) = length (pr_l2g (procs p)) /\
     forall j, nth_error (pr_l2g (procs p)) j = if (j <? length (pr_l2g (procs p)))%nat then Some (Z.of_nat (up_of (procs p) j)) else None).
  { intros p Hp. destruct (HP p Hp) as (U & l & lts & lrows & lbd & V & _ & IP & -> & E1 & _). split.
    - rewrite E1, map_length. apply (ip_number _ _ _ _ _ _ _ _ _ _ IP).
    - intros j. rewrite (up_nth _ U E1), E1, map_length, nth_error_map. destruct (Nat.ltb_spec j (length U)) as [H|H].
      + rewrite (nth_error_nth' U 0%nat H). reflexivity.
      + rewrite (proj2 (nth_error_None U j) H). reflexivity. }
  split; [|split].
  - intros p Hp. destruct (HP p Hp) as (U & l & lts & lrows & lbd & V & E & _). exact E.
  - intros k Hk. destruct (ds_cover _ _ _ _ _ _ DS k Hk) as (p & j & Hp & Hj & E).
    pose proof (ds_part _ _ _ _ _ _ DS p Hp) as SM. pose proof (sm_full _ _ _ _ SM) as F.
    exists p, j. split; [exact Hp|]. destruct (Len p Hp) as [L1 L2]. cbv beta in F. split.
    + rewrite L2, <- L1, (proj2 (Nat.ltb_lt _ _)) by lia. cbv beta in E. rewrite E. reflexivity.
    + rewrite (sm_flag _ _ _ _ SM) by (cbv beta; lia). rewrite (proj2 (Nat.ltb_lt _ _) Hj). reflexivity.
  - intros m n X0 X0' t0 p Hp.
    pose proof (is_start D T bmap nproc epart ghost_tag w Hn Hw procs X0 X0' t0 HP) as St.
    assert (Se : settings (whole D T bmap)) by (destruct (tp_settings T HT); split; assumption).
    destruct (C78_distributed_run _ _ _ _ _ _ dts DS Se Hdts m n _ _ St p Hp) as (A & x & X & Ex & EX & G).
    split; [exact A|]. exists x, X. split; [exact Ex|]. split; [exact EX|].
    intros j k E. destruct (Len p Hp) as [L1 L2]. rewrite L2 in E. destruct (Nat.ltb_spec j (length (pr_l2g (procs p)))) as [H|H]; [|discriminate].
    injection E as E. apply Nat2Z.inj in E. rewrite <- E. apply G. rewrite L1. exact H.
Qed.
Print Assumptions C80_distributed_domain.

(** ** Example: a strip of six triangles on two processes *)
Definition pt (x y : R) : R * R := (x, y).
Definition flat (a b c : R) : R * R * R := (a, b, c).
Definition run_strip (bed st : list (R * R * R)) : LocalMeshProps.domain (R * R)%type (R * R * R)%type :=
  {| d_nodes := [pt 0 0; pt 0 1; pt 1 0; pt 1 1; pt 2 0; pt 2 1; pt 3 0; pt 3 1]; d_ts := strip_ts; d_rows := strip_rows;
     d_bd := strip_bd; d_quan := [(elevation, bed); (stage, st)]; d_default := 9 |}.
Definition run_template : config := ex_C (fun _ => 0) 0.

Lemma run_template_ok : template_ok run_template.
Proof. split; [intros e; discriminate|split; reflexivity|reflexivity|reflexivity|split; cbn; try lra; split; reflexivity]. Qed.

Example C80_setup bed st : length bed = 6%nat -> length st = 6%nat ->
  setup (run_strip bed st) run_template (fun _ => Reflective) 2 strip_epart 8 2 /\
  exists b0 bs, mesh_boundary (d_ts (run_strip bed st)) (d_default (run_strip bed st)) b0
    = Some (d_rows (run_strip bed st), d_bd (run_strip bed st), bs).
Proof.
  intros Hb Hs. assert (V : valid (run_strip bed st)).
  { destruct strip_valid as [A B _ _]. split; [exact A|exact B| |].
    - intros q [<-|[<-|[]]]; cbn [snd]; assumption.
    - repeat constructor; cbn; intuition discriminate. }
  split.
  - split; [exact V| |lia|exact strip_partition|lia|exact run_template_ok| |].
    + intros t Ht. cbn [run_strip d_ts strip_ts] in Ht. unfold geo, area, vertex.
      repeat (destruct Ht as [<-|Ht]; [cbn; lra|]). destruct Ht.
    + intros key Hk. cbn in Hk. intuition discriminate.
    + intros key tag _. discriminate.
  - destruct (va_mesh _ V) as (b0 & bs & _ & _ & E). exists b0, bs. exact E.
Qed.
(** Which triangles the processes hold, and the messages: the ghosts of process 0
    (triangles 3, 4 and 5 there) are the full triangles of process 1. *)
Definition run_process (p : nat) : option process :=
  let D := run_strip (repeat (flat 0 0 0) 6) (repeat (flat 1 1 1) 6) in
  start_process run_template (d_nodes D) (d_ts D) (d_bd D) (d_quan D) (d_default D) 8 2 strip_epart 2 (fun _ => Reflective) p.
Example C80_strip : exists p0 p1, run_process 0 = Some p0 /\ run_process 1 = Some p1 /\
  pr_l2g p0 = [1; 3; 4; 0; 2; 5]%Z /\ pr_l2g p1 = [0; 2; 5; 1; 3; 4]%Z /\
  map (message_source (fun p => match p with 0%nat => p0 | _ => p1 end) 0%nat) [3; 4; 5]%nat = [(1, 0); (1, 1); (1, 2)]%nat.
Proof.
  assert (E : forall p, (p < 2)%nat -> exists pr, run_process p = Some pr).
  { intros p Hp. destruct (C80_setup (repeat (flat 0 0 0) 6) (repeat (flat 1 1 1) 6) eq_refl eq_refl) as [S (b0 & bs & B)].
    destruct (C80_distributed_domain _ _ _ _ _ _ _ (fun _ _ => 0) b0 bs S ltac:(intros; lra) B) as (procs & P & _).
    exists (procs p). apply (P p Hp). }
  destruct (E 0%nat) as [p0 E0]; [lia|]. destruct (E 1%nat) as [p1 E1]; [lia|]. exists p0, p1. split; [exact E0|]. split; [exact E1|].
  assert (X0 : option_map (fun pr => (pr_l2g pr, pr_recv pr, pr_send pr)) (run_process 0) = Some (pr_l2g p0, pr_recv p0, pr_send p0)) by (rewrite E0; reflexivity).
  assert (X1 : option_map (fun pr => (pr_l2g pr, pr_recv pr, pr_send pr)) (run_process 1) = Some (pr_l2g p1, pr_recv p1, pr_send p1)) by (rewrite E1; reflexivity).
  remember (pr_l2g p0) as l0. remember (pr_recv p0) as r0 eqn:R0. remember (pr_send p0) as s0.
  remember (pr_l2g p1) as l1. remember (pr_recv p1) as r1. remember (pr_send p1) as s1 eqn:S1.
  vm_compute in X0. vm_compute in X1. injection X0 as A1 A2 A3. injection X1 as B1 B2 B3.
  split; [symmetry; exact A1|]. split; [symmetry; exact B1|].
  cbn [map]. unfold message_source. rewrite <- R0, <- A2. cbn -[pr_send dget index_of]. rewrite <- S1, <- B3. vm_compute. reflexivity.
Qed.
