(** C32: cached calls. *)
From Coq Require Import ZArith QArith List Arith Bool Lia.
From Verif Require Import CacheModel.
Import ListNotations.
Local Open Scope nat_scope.

(** Arguments on which [compare] decides equality: atoms, and tuples and
    lists of such values. *)
Inductive plain : pyval -> Prop :=
| plain_atom : forall t v, plain (Atom t v)
| plain_tup : forall l, Forall plain l -> plain (Tup l)
| plain_lst : forall l, Forall plain l -> plain (Lst l).

Fixpoint pyval_rect' (P : pyval -> Prop) (fa : forall t v, P (Atom t v))
  (ft : forall l, Forall P l -> P (Tup l)) (fl : forall l, Forall P l -> P (Lst l))
  (fd : forall d, P (Dct d)) (fr : forall x, P (Arr x)) (v : pyval) : P v :=
  match v with
  | Atom t z => fa t z
  | Tup l => ft l ((fix go l : Forall P l := match l with
       | [] => Forall_nil P
       | x :: l => Forall_cons x (pyval_rect' P fa ft fl fd fr x) (go l) end) l)
  | Lst l => fl l ((fix go l : Forall P l := match l with
       | [] => Forall_nil P
       | x :: l => Forall_cons x (pyval_rect' P fa ft fl fd fr x) (go l) end) l)
  | Dct d => fd d
  | Arr x => fr x
  end.

Lemma compare_plain : forall a, plain a -> forall b, compare a b = true -> a = b.
Proof.
  assert (G : forall l, Forall (fun a => plain a -> forall b, compare a b = true -> a = b) l -> Forall plain l ->
    forall l', (fix cmp (l l' : list pyval) {struct l} : bool :=
      match l, l' with
      | [], [] => true
      | x :: l, y :: l' => compare x y && cmp l l'
      | _, _ => false
      end) l l' = true -> l = l').
  { induction l as [|x l IH]; intros F P l' H; destruct l' as [|y l']; try discriminate; [reflexivity|].
    apply andb_true_iff in H as (H1 & H2). inversion F; inversion P; subst. f_equal; auto. }
  induction a using pyval_rect'; intros P b E; destruct b; try discriminate.
  - simpl in E. apply andb_true_iff in E as (H1 & H2). apply Nat.eqb_eq in H1. apply Z.eqb_eq in H2. congruence.
  - inversion P; subst. f_equal. apply G; auto.
  - inversion P; subst. f_equal. apply G; auto.
  - inversion P.
  - inversion P.
Qed.

Lemma key_eqb_eq a b : key_eqb a b = true <-> a = b.
Proof.
  destruct a as [[a1 a2] a3], b as [[b1 b2] b3]. unfold key_eqb. simpl.
  rewrite !andb_true_iff, !Nat.eqb_eq, Z.eqb_eq. split; [intros ((-> & ->) & ->)|intros E; injection E]; auto.
Qed.

Section Correct.
Variable T : Type.
Variable hash_atom : nat -> Z -> Z.
Variable hash_seq : list Z -> Z.
Variable hash_avg : option Q -> Z.
Variable apply : fn -> pyval -> pyval -> (nat -> Z) -> option T.
(** The behaviour of a function is determined by its name and the part of its
    code the cache records. *)
Variable sem : nat -> Z -> pyval -> pyval -> option T.
Hypothesis apply_sem : forall f a k w, apply f a k w = sem (fname f) (code f) a k.

Notation run := (run T hash_atom hash_seq hash_avg apply).
Notation cache := (cache T hash_atom hash_seq hash_avg apply).
Notation hash a k := (myhash hash_atom hash_seq hash_avg (Tup [a; k])).

Lemma put_same (st : store T) k s : put T st k s k = s.
Proof. unfold put. rewrite (proj2 (key_eqb_eq k k) eq_refl). reflexivity. Qed.
Lemma put_other (st : store T) k s k' : k' <> k -> put T st k s k' = st k'.
Proof.
  unfold put. destruct (key_eqb k' k) eqn:E; [|reflexivity]. apply key_eqb_eq in E. congruence.
Qed.

(** The outcome of a completed request in normal mode is that of the call. *)
Definition correct (q : request) (o : outcome T) : Prop :=
  match o with
  | Returned (Some r) => sem (fname (q_fn q)) (code (q_fn q)) (q_args q) (q_kwargs q) = Some r
  | Returned None => q_test q = true
  | Raised => sem (fname (q_fn q)) (code (q_fn q)) (q_args q) (q_kwargs q) = None
  | Recursion | Crashed => True
  end.

(** All intermediate states of an entry. *)
Lemma cache_cases st w q :
  let k n := (fname (q_fn q), hash (q_args q) (q_kwargs q), n) in
  let found := if q_evaluate q then Some (Miss 0)
    else cache_lookup T (q_fuel q) st (q_fn q) (hash (q_args q) (q_kwargs q)) 0 (q_args q) (q_kwargs q)
           (match q_deps q with [] => false | _ => true end) (depstats w (q_deps q)) in
  let res := sem (fname (q_fn q)) (code (q_fn q)) (q_args q) (q_kwargs q) in
  (exists r, found = Some (Hit r) /\ cache st w q = (st, Returned (Some r))) \/
  (fst (cache st w q) = st /\ (snd (cache st w q) = Recursion \/ snd (cache st w q) = Crashed
      \/ (snd (cache st w q) = Returned None /\ q_test q = true))) \/
  (exists n s, found = Some (Miss n) /\ fst (cache st w q) = put T st (k n) s /\ correct q (snd (cache st w q)) /\
     ((exists o, s = set_args T (st (k n)) o /\ (o = Some None \/ o = Some (Some (q_args q, q_kwargs q)))) \/
      (exists r c, res = Some r /\ c <= 6 /\
        s = nth c (saving T (st (k n)) (q_args q, q_kwargs q) r (depstats w (q_deps q), code (q_fn q))) (st (k n))))).
Proof.
  intros k found res. unfold CacheModel.cache. fold found.
  destruct found as [[r|n]|].
  - left. eauto.
  - right. destruct (q_test q) eqn:Et.
    + left. cbn [fst snd]. auto.
    + rewrite apply_sem. fold res. fold (k n). destruct res as [r|] eqn:Er.
      * right. destruct (q_crash q) as [c|].
        -- exists n. eexists. split; [reflexivity|]. split; [reflexivity|]. split.
           ++ cbn [snd]. unfold correct. destruct (Nat.ltb c 6); [exact I|exact Er].
           ++ right. exists r, (Nat.min c 6). split; [reflexivity|]. split; [lia|].
              destruct c as [|[|[|[|[|[|c]]]]]]; cbn [Nat.min]; try reflexivity.
              replace (S (S (S (S (S (Nat.min c 1)))))) with (5 + Nat.min c 1) by reflexivity.
              destruct c as [|c]; [reflexivity|]. destruct c as [|c]; reflexivity.
        -- exists n. eexists. split; [reflexivity|]. split; [reflexivity|]. split; [exact Er|].
           right. exists r, 6. split; [reflexivity|]. split; [lia|reflexivity].
      * destruct (q_crash q) as [[|[|c]]|].
        -- left. cbn [fst snd]. auto.
        -- right. exists n. eexists. split; [reflexivity|]. split; [reflexivity|]. split; [exact I|].
           left. eauto.
        -- right. exists n. eexists. split; [reflexivity|]. split; [reflexivity|]. split; [exact Er|]. left. eauto.
        -- right. exists n. eexists. split; [reflexivity|]. split; [reflexivity|]. split; [exact Er|]. left. eauto.
  - right. left. cbn [fst snd]. auto.
Qed.

(** ** Any hash function, plain arguments, no forced evaluation *)

Definition good1 (k : key) (s : slot T) : Prop :=
  forall d c, readable (s_adm T s) = Some (d, c) ->
  exists a kw r, readable (s_args T s) = Some (a, kw) /\ readable (s_data T s) = Some r /\
    plain a /\ kw = Dct [] /\ sem (fst (fst k)) c a kw = Some r.

Lemma good1_lookup fuel : forall st f h n a dp,
  (forall k, good1 k (st k)) -> plain a ->
  match cache_lookup T fuel st f h n a (Dct []) false dp with
  | Some (Hit r) => sem (fname f) (code f) a (Dct []) = Some r
  | Some (Miss m) => readable (s_adm T (st (fname f, h, m))) = None
  | None => True
  end.
Proof.
  induction fuel as [|fuel IH]; intros st f h n a dp G P; [exact I|]. cbn [cache_lookup].
  specialize (IH st f h (S n) a dp G P). pose proof (G (fname f, h, n)) as Gn. unfold good1 in Gn.
  destruct (st (fname f, h, n)) as [dt ar ad] eqn:Es. cbn [s_args s_data s_adm] in *.
  destruct ad as [[[dref cref]|]|]; cbn [readable] in *.
  - destruct (Gn dref cref eq_refl) as (a' & kw & r & E1 & E2 & P' & -> & E3).
    destruct ar as [[x|]|]; try discriminate. injection E1 as ->.
    destruct dt as [[y|]|]; try discriminate. injection E2 as ->.
    cbn [andb]. destruct (compare a' a && compare (Dct []) (Dct []) && Z.eqb (code f) cref) eqn:C; [|exact IH].
    rewrite !andb_true_iff in C. destruct C as ((C1 & _) & C2). apply Z.eqb_eq in C2. subst cref.
    apply compare_plain in C1; auto. subst a'. exact E3.
  - destruct ar as [[[? ?]|]|]; try (rewrite Es; reflexivity).
    + destruct dt; rewrite Es; reflexivity.
    + destruct dt; rewrite Es; reflexivity.
  - destruct ar; [destruct dt|]; rewrite Es; reflexivity.
Qed.

Definition ordinary (e : event) : Prop :=
  match e with
  | Request q => plain (q_args q) /\ q_kwargs q = Dct [] /\ q_deps q = [] /\ q_evaluate q = false
  | Touch _ _ => True
  | Clear _ => True
  | Delete _ _ => False
  end.

Lemma good1_cache st w q : (forall k, good1 k (st k)) -> ordinary (Request q) ->
  correct q (snd (cache st w q)) /\ forall k, good1 k (fst (cache st w q) k).
Proof.
  intros G (P & K & D & E).
  pose proof (good1_lookup (q_fuel q) st (q_fn q) (hash (q_args q) (q_kwargs q)) 0 (q_args q)
                (depstats w []) G P) as L.
  destruct (cache_cases st w q) as [(r & F & C)|[(S1 & O)|(n & s & F & S1 & C & W)]];
    try (rewrite E, D in F; cbv iota in F; rewrite K in F at 2; rewrite F in L).
  - rewrite C. cbn [fst snd]. split; [|exact G]. unfold correct. rewrite K. exact L.
  - rewrite S1. split; [|exact G]. destruct O as [O|[O|(O & Ht)]]; rewrite O; [exact I|exact I|exact Ht].
  - split; [exact C|]. intros k'. rewrite S1.
    set (k := (fname (q_fn q), hash (q_args q) (q_kwargs q), n)) in *.
    destruct (key_eqb k' k) eqn:Ek.
    2:{ rewrite put_other; [apply G|]. intros ->. rewrite (proj2 (key_eqb_eq k k) eq_refl) in Ek. discriminate. }
    apply key_eqb_eq in Ek. subst k'. rewrite put_same. destruct W as [(o & -> & _)|(r & c & R & Hc & ->)].
    + intros d c H. cbn [set_args s_adm] in H. rewrite L in H. discriminate.
    + intros d c' H.
      destruct c as [|[|[|[|[|[|[|c]]]]]]]; cbn [nth saving set_args set_data set_adm s_adm readable] in H;
        try (rewrite L in H; discriminate); try discriminate; [|lia].
      injection H as <- <-. exists (q_args q), (q_kwargs q), r.
      cbn [nth saving set_args set_data set_adm s_adm s_args s_data readable].
      repeat split; auto.
Qed.

Lemma good1_run es : forall s, Forall ordinary es -> (forall k, good1 k (fst s k)) ->
  forall k, good1 k (fst (run s es) k).
Proof.
  induction es as [|e es IH]; intros [st w] F G; [exact G|]. inversion F; subst.
  change (run (st, w) (e :: es)) with (run (step T hash_atom hash_seq hash_avg apply (st, w) e) es).
  apply IH; [assumption|]. destruct e as [q|f v|which|k x]; cbn [step fst].
  - apply good1_cache; assumption.
  - exact G.
  - intros k. destruct (which k); [|apply G]. intros d c H. discriminate.
  - destruct H1.
Qed.

Theorem C32_any_hash : forall w es q, Forall ordinary es -> ordinary (Request q) ->
  let s := run (fresh T w) es in
  correct q (snd (cache (fst s) (snd s) q)).
Proof.
  intros w es q F O s. apply good1_cache; [|exact O].
  apply good1_run; [exact F|]. intros k d c H. discriminate.
Qed.

(** ** No collisions: forced evaluations, loss of single files and arbitrary
    arguments are harmless *)

Variable used : pyval -> pyval -> Prop.
Hypothesis no_collision : forall a k a' k', used a k -> used a' k' -> hash a k = hash a' k' -> a = a' /\ k = k'.

Definition good2 (k : key) (s : slot T) : Prop :=
  (forall a kw, readable (s_args T s) = Some (a, kw) -> used a kw /\ hash a kw = snd (fst k)) /\
  (forall d c r, readable (s_adm T s) = Some (d, c) -> readable (s_data T s) = Some r ->
     exists a kw, used a kw /\ hash a kw = snd (fst k) /\ sem (fst (fst k)) c a kw = Some r).

Lemma good2_lookup fuel : forall st f n a kw dp,
  (forall k, good2 k (st k)) -> used a kw ->
  match cache_lookup T fuel st f (hash a kw) n a kw false dp with
  | Some (Hit r) => sem (fname f) (code f) a kw = Some r
  | _ => True
  end.
Proof.
  induction fuel as [|fuel IH]; intros st f n a kw dp G U; [exact I|]. cbn [cache_lookup].
  specialize (IH st f (S n) a kw dp G U). destruct (G (fname f, hash a kw, n)) as (_ & G2).
  destruct (st (fname f, hash a kw, n)) as [dt ar ad]. cbn [s_args s_data s_adm fst snd] in *.
  destruct ar as [[[ra rk]|]|]; [|destruct dt; [destruct ad|]; exact I|exact I].
  destruct dt as [dt|]; [|exact I]. destruct ad as [[[rd rc]|]|]; [|exact I|exact I].
  cbn [andb]. destruct (compare ra a && compare rk kw && Z.eqb (code f) rc) eqn:C; [|exact IH].
  rewrite !andb_true_iff in C. destruct C as (_ & C2). apply Z.eqb_eq in C2. subst rc.
  destruct dt as [r|]; [|exact I]. destruct (G2 rd (code f) r eq_refl eq_refl) as (a' & k' & U' & H & S).
  destruct (no_collision a kw a' k' U U' (eq_sym H)) as (-> & ->). exact S.
Qed.

Definition admissible (e : event) : Prop :=
  match e with
  | Request q => used (q_args q) (q_kwargs q) /\ q_deps q = []
  | _ => True
  end.

Lemma good2_cache st w q : (forall k, good2 k (st k)) -> admissible (Request q) ->
  correct q (snd (cache st w q)) /\ forall k, good2 k (fst (cache st w q) k).
Proof.
  intros G (U & D).
  pose proof (good2_lookup (q_fuel q) st (q_fn q) 0 (q_args q) (q_kwargs q) (depstats w []) G U) as L.
  destruct (cache_cases st w q) as [(r & F & C)|[(S1 & O)|(n & s & F & S1 & C & W)]].
  - rewrite C. cbn [fst snd]. split; [|exact G]. unfold correct.
    destruct (q_evaluate q); [discriminate|]. rewrite D in F. rewrite F in L. exact L.
  - rewrite S1. split; [|exact G]. destruct O as [O|[O|(O & Ht)]]; rewrite O; [exact I|exact I|exact Ht].
  - split; [exact C|]. intros k'. rewrite S1.
    set (k := (fname (q_fn q), hash (q_args q) (q_kwargs q), n)) in *.
    destruct (key_eqb k' k) eqn:Ek.
    2:{ rewrite put_other; [apply G|]. intros ->. rewrite (proj2 (key_eqb_eq k k) eq_refl) in Ek. discriminate. }
    apply key_eqb_eq in Ek. subst k'. rewrite put_same. destruct (G k) as (G1 & G2).
    assert (A : forall a kw, Some (q_args q, q_kwargs q) = Some (a, kw) -> used a kw /\ hash a kw = snd (fst k)).
    { intros a kw E. injection E as <- <-. split; [exact U|reflexivity]. }
    destruct W as [(o & -> & O)|(r & c & R & Hc & ->)].
    + split; cbn [set_args s_args s_adm s_data].
      * intros a kw H. destruct O as [-> | ->]; cbn [readable] in H; [discriminate|apply A; exact H].
      * exact G2.
    + destruct c as [|[|[|[|[|[|[|c]]]]]]]; [| | | | | | |lia];
        split; cbn [nth saving set_args set_data set_adm s_adm s_args s_data readable];
        try exact G1; try exact G2; try exact A; try (intros; discriminate).
      intros d c r' H1 H2. injection H1 as <- <-. injection H2 as <-.
      exists (q_args q), (q_kwargs q). repeat split; auto.
Qed.

Lemma good2_run es : forall s, Forall admissible es -> (forall k, good2 k (fst s k)) ->
  forall k, good2 k (fst (run s es) k).
Proof.
  induction es as [|e es IH]; intros [st w] F G; [exact G|]. inversion F; subst.
  change (run (st, w) (e :: es)) with (run (step T hash_atom hash_seq hash_avg apply (st, w) e) es).
  apply IH; [assumption|]. destruct e as [q|f v|which|k x]; cbn [step fst].
  - apply good2_cache; assumption.
  - exact G.
  - intros k. destruct (which k); [|apply G]. split; intros; discriminate.
  - intros k'. destruct (key_eqb k' k) eqn:Ek.
    2:{ rewrite put_other; [apply G|]. intros ->. rewrite (proj2 (key_eqb_eq k k) eq_refl) in Ek. discriminate. }
    apply key_eqb_eq in Ek. subst k'. rewrite put_same. destruct (G k) as (G1 & G2).
    destruct x; split; cbn [delete set_args set_data set_adm s_adm s_args s_data readable];
      try exact G1; try exact G2; intros; discriminate.
Qed.

Theorem C32_no_collision : forall w es q, Forall admissible es -> admissible (Request q) ->
  let s := run (fresh T w) es in
  correct q (snd (cache (fst s) (snd s) q)).
Proof.
  intros w es q F O s. apply good2_cache; [|exact O].
  apply good2_run; [exact F|]. intros k. split; intros; discriminate.
Qed.
End Correct.
Print Assumptions C32_any_hash.
Print Assumptions C32_no_collision.

(** The search ends as soon as it meets an unused file name. *)
Theorem C32_lookup_terminates : forall T m st f h n a k b d fuel,
  st (fname f, h, n + m) = empty_slot T -> m < fuel -> cache_lookup T fuel st f h n a k b d <> None.
Proof.
  intros T. induction m as [|m IH]; intros st f h n a k b d fuel H L.
  - destruct fuel; [lia|]. cbn [cache_lookup]. rewrite Nat.add_0_r in H. rewrite H. discriminate.
  - destruct fuel as [|fuel]; [lia|]. cbn [cache_lookup].
    destruct (s_args T _) as [[[? ?]|]|]; try discriminate;
      destruct (s_data T _) as [dt|]; try discriminate; destruct (s_adm T _) as [[[? ?]|]|]; try discriminate.
    destruct (b && _); [discriminate|]. destruct (_ && _ && _).
    + destruct dt; discriminate.
    + apply IH; [|lia]. rewrite <- H. f_equal. f_equal. lia.
Qed.
Print Assumptions C32_lookup_terminates.

(** ** What goes wrong *)

(** The dependencies are compared by their number only: no change of the files
    a result depends on is ever noticed. *)
Theorem C32_dependencies_ignored : forall T fuel st f h n a k b w w' deps deps',
  length deps = length deps' ->
  (forall key r, st key = r -> match s_adm T r with Some (Some (d, _)) => exists l, d = Dct l | _ => True end) ->
  cache_lookup T fuel st f h n a k b (depstats w deps) = cache_lookup T fuel st f h n a k b (depstats w' deps').
Proof.
  intros T fuel st f h n a k b w w' deps deps' L D. revert n.
  induction fuel as [|fuel IH]; intros n; [reflexivity|]. cbn [cache_lookup]. rewrite IH.
  specialize (D (fname f, h, n) _ eq_refl).
  destruct (s_args T _) as [[[? ?]|]|]; try reflexivity;
    destruct (s_data T _) as [dt|]; try reflexivity; destruct (s_adm T _) as [[[d c]|]|]; try reflexivity.
  destruct D as (l & ->).
  assert (E : compare (Dct l) (depstats w deps) = compare (Dct l) (depstats w' deps')).
  { unfold depstats. cbn [compare]. rewrite !map_length, L. reflexivity. }
  rewrite E. reflexivity.
Qed.
Print Assumptions C32_dependencies_ignored.

(** A function that reads file 3. *)
Definition reads_file (f : fn) (a k : pyval) (w : nat -> Z) : option Z := Some (w 3).
Definition plain_request f a k deps :=
  {| q_fn := f; q_args := a; q_kwargs := k; q_deps := deps; q_evaluate := false; q_test := false;
     q_fuel := 5; q_crash := None |}.
Definition fn1 : fn := {| fname := 1; code := 0; rest := 0 |}.

Theorem C32_dependency_change_refuted : forall ha hs hv,
  exists w es q, q_deps q = [3] /\
  let s := run Z ha hs hv reads_file (fresh Z w) es in
  exists r, snd (cache Z ha hs hv reads_file (fst s) (snd s) q) = Returned (Some r) /\
  reads_file (q_fn q) (q_args q) (q_kwargs q) (snd s) <> Some r.
Proof.
  intros ha hs hv.
  pose (q := plain_request fn1 (Tup []) (Dct []) [3]).
  exists (fun _ => 0%Z), [Request q; Touch 3 7], q. split; [reflexivity|]. cbn zeta. exists 0%Z.
  cbn -[key_eqb]. unfold put, cache. cbn -[key_eqb].
  rewrite (proj2 (key_eqb_eq _ _) eq_refl). cbn. split; [reflexivity|discriminate].
Qed.
Print Assumptions C32_dependency_change_refuted.

(** Keyword arguments are compared by their number only, and arrays are hashed
    by their average: calls with two arrays of equal average as keyword
    argument share one result. *)
Definition sees_kwargs (f : fn) (a k : pyval) (w : nat -> Z) : option pyval := Some k.
Theorem C32_keyword_array_refuted : forall ha hs hv,
  exists w es q,
  let s := run pyval ha hs hv sees_kwargs (fresh pyval w) es in
  exists r, snd (cache pyval ha hs hv sees_kwargs (fst s) (snd s) q) = Returned (Some r) /\
  sees_kwargs (q_fn q) (q_args q) (q_kwargs q) (snd s) <> Some r.
Proof.
  intros ha hs hv.
  exists (fun _ => 0%Z), [Request (plain_request fn1 (Tup []) (Dct [(Atom 0 1, Arr [1; 3]%Z)]) [])],
    (plain_request fn1 (Tup []) (Dct [(Atom 0 1, Arr [2; 2]%Z)]) []).
  cbn zeta. exists (Dct [(Atom 0 1, Arr [1; 3]%Z)]).
  cbn -[key_eqb]. unfold put, cache. cbn -[key_eqb].
  rewrite (proj2 (key_eqb_eq _ _) eq_refl). cbn. split; [reflexivity|discriminate].
Qed.
Print Assumptions C32_keyword_array_refuted.

(** Arrays are compared with broadcasting: [2] and [2, 2] are the same
    argument to the cache. *)
Definition sees_args (f : fn) (a k : pyval) (w : nat -> Z) : option pyval := Some a.
Theorem C32_array_broadcast_refuted : forall ha hs hv,
  exists w es q, q_kwargs q = Dct [] /\
  let s := run pyval ha hs hv sees_args (fresh pyval w) es in
  exists r, snd (cache pyval ha hs hv sees_args (fst s) (snd s) q) = Returned (Some r) /\
  sees_args (q_fn q) (q_args q) (q_kwargs q) (snd s) <> Some r.
Proof.
  intros ha hs hv.
  exists (fun _ => 0%Z), [Request (plain_request fn1 (Tup [Arr [2]%Z]) (Dct []) [])],
    (plain_request fn1 (Tup [Arr [2; 2]%Z]) (Dct []) []).
  split; [reflexivity|]. cbn zeta. exists (Tup [Arr [2]%Z]).
  cbn -[key_eqb]. unfold put, cache. cbn -[key_eqb].
  rewrite (proj2 (key_eqb_eq _ _) eq_refl). cbn. split; [reflexivity|discriminate].
Qed.
Print Assumptions C32_array_broadcast_refuted.

(** Functions that differ only in the global names they use have the same
    recorded code: editing the body from one global function to another keeps
    the old results. *)
Definition sees_rest (f : fn) (a k : pyval) (w : nat -> Z) : option Z := Some (rest f).
Theorem C32_global_names_refuted : forall ha hs hv,
  exists w es q,
  let s := run Z ha hs hv sees_rest (fresh Z w) es in
  exists r, snd (cache Z ha hs hv sees_rest (fst s) (snd s) q) = Returned (Some r) /\
  sees_rest (q_fn q) (q_args q) (q_kwargs q) (snd s) <> Some r.
Proof.
  intros ha hs hv.
  exists (fun _ => 0%Z), [Request (plain_request fn1 (Tup []) (Dct []) [])],
    (plain_request {| fname := 1; code := 0; rest := 1 |} (Tup []) (Dct []) []).
  cbn zeta. exists 0%Z.
  cbn -[key_eqb]. unfold put, cache. cbn -[key_eqb].
  rewrite (proj2 (key_eqb_eq _ _) eq_refl). cbn. split; [reflexivity|discriminate].
Qed.
Print Assumptions C32_global_names_refuted.

(** A forced evaluation that does not complete (the function raises, or the
    process dies) leaves its arguments beside the result of a colliding call:
    the next ordinary call with these arguments returns the other result,
    here instead of raising.  Only plain positional arguments are used; the
    hash function is one under which the two collide. *)
Definition raises_on_two (f : fn) (a k : pyval) (w : nat -> Z) : option Z :=
  match a with Tup [Atom 0 1%Z] => Some 10%Z | _ => None end.
Theorem C32_failed_forced_evaluation_refuted : exists ha hs hv w es q,
  plain (q_args q) /\ q_kwargs q = Dct [] /\ q_evaluate q = false /\
  let s := run Z ha hs hv raises_on_two (fresh Z w) es in
  snd (cache Z ha hs hv raises_on_two (fst s) (snd s) q) = Returned (Some 10%Z) /\
  raises_on_two (q_fn q) (q_args q) (q_kwargs q) (snd s) = None.
Proof.
  exists (fun _ _ => 0%Z), (fun _ => 0%Z), (fun _ => 0%Z), (fun _ => 0%Z),
    [Request (plain_request fn1 (Tup [Atom 0 1]) (Dct []) []);
     Request {| q_fn := fn1; q_args := Tup [Atom 0 2]; q_kwargs := Dct []; q_deps := []; q_evaluate := true;
                q_test := false; q_fuel := 5; q_crash := None |}],
    (plain_request fn1 (Tup [Atom 0 2]) (Dct []) []).
  split; [repeat constructor|]. vm_compute. auto.
Qed.
Print Assumptions C32_failed_forced_evaluation_refuted.

(** The same without forced evaluation when an arguments file has been removed
    (option 'expire' removes single files). *)
Theorem C32_expired_arguments_refuted : exists ha hs hv w es q,
  plain (q_args q) /\ q_kwargs q = Dct [] /\
  let s := run Z ha hs hv raises_on_two (fresh Z w) es in
  snd (cache Z ha hs hv raises_on_two (fst s) (snd s) q) = Returned (Some 10%Z) /\
  raises_on_two (q_fn q) (q_args q) (q_kwargs q) (snd s) = None.
Proof.
  exists (fun _ _ => 0%Z), (fun _ => 0%Z), (fun _ => 0%Z), (fun _ => 0%Z),
    [Request (plain_request fn1 (Tup [Atom 0 1]) (Dct []) []); Delete (1, 0%Z, 0) FArgs;
     Request (plain_request fn1 (Tup [Atom 0 2]) (Dct []) [])],
    (plain_request fn1 (Tup [Atom 0 2]) (Dct []) []).
  split; [repeat constructor|]. vm_compute. auto.
Qed.
Print Assumptions C32_expired_arguments_refuted.

(** Non-vacuity: with every hash colliding, a second call finds the right
    entry among colliding ones, also after a crash while saving. *)
Definition doubles (f : fn) (a k : pyval) (w : nat -> Z) : option Z :=
  match a with Tup [Atom 0 v] => Some (2 * v)%Z | _ => None end.
Definition sem_doubles (n : nat) (c : Z) (a k : pyval) : option Z :=
  match a with Tup [Atom 0 v] => Some (2 * v)%Z | _ => None end.
Example C32_example :
  let r v c := Request {| q_fn := fn1; q_args := Tup [Atom 0 v]; q_kwargs := Dct []; q_deps := [];
                 q_evaluate := false; q_test := false; q_fuel := 9; q_crash := c |} in
  let es := [r 1%Z None; r 2%Z (Some 3); r 2%Z None; r 3%Z (Some 5)] in
  Forall ordinary es /\ (forall f a k w, doubles f a k w = sem_doubles (fname f) (code f) a k) /\
  let s := run Z (fun _ _ => 0%Z) (fun _ => 0%Z) (fun _ => 0%Z) doubles (fresh Z (fun _ => 0%Z)) es in
  readable (s_data Z (fst s (1, 0%Z, 1))) = Some 4%Z /\
  snd (cache Z (fun _ _ => 0%Z) (fun _ => 0%Z) (fun _ => 0%Z) doubles (fst s) (snd s)
        (plain_request fn1 (Tup [Atom 0 2]) (Dct []) [])) = Returned (Some 4%Z).
Proof.
  cbn zeta. split; [|split; [reflexivity|vm_compute; auto]].
  repeat constructor; unfold ordinary; cbn; repeat split; repeat constructor.
Qed.
