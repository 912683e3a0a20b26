(** Lemmas on PolygonModel. *)
From Coq Require Import Reals List Arith Bool Permutation Lia Lra Psatz.
From Verif Require Import RealLib ArrayLib PolygonModel.
Import ListNotations.

(** ** The two ended index array *)

Lemma place_spec : forall (kps : list (nat * bool)) i o f,
  i + length kps = o ->
  let ins := map fst (filter snd kps) in
  let outs := map fst (filter (fun kp => negb (snd kp)) kps) in
  let '(i', o', f') := fold_left place kps (i, o, f) in
  i' = i + length ins /\ o' = i' /\
  forall j, f' j = if j <? i then f j else if j <? i + length ins then nth (j - i) ins 0
                   else if j <? o then nth (o - 1 - j) outs 0 else f j.
Proof.
  induction kps as [|(k, b) kps IH]; intros i o f Ho; cbv zeta.
  - cbn [map filter length fold_left] in Ho |- *. split; [lia|]. split; [lia|]. intros j.
    destruct (Nat.ltb_spec j i); auto. destruct (Nat.ltb_spec j (i + 0)); [lia|]. destruct (Nat.ltb_spec j o); [lia|auto].
  - cbn [fold_left length] in Ho |- *. destruct b.
    + change (place (i, o, f) (k, true)) with (S i, o, upd f i k).
      specialize (IH (S i) o (upd f i k) ltac:(lia)). cbv zeta in IH.
      destruct (fold_left place kps (S i, o, upd f i k)) as [[i' o'] f']. cbn [filter snd negb map fst length] in *.
      destruct IH as (I1 & I2 & I3). split; [lia|]. split; [auto|]. intros j. rewrite I3.
      set (ins := map fst (filter snd kps)) in *. set (outs := map fst (filter (fun kp => negb (snd kp)) kps)) in *.
      unfold upd. destruct (Nat.ltb_spec j (S i)), (Nat.ltb_spec j i), (Nat.eqb_spec j i); try lia; auto.
      * destruct (Nat.ltb_spec j (i + S (length ins))); [|lia]. subst. rewrite Nat.sub_diag. reflexivity.
      * destruct (Nat.ltb_spec j (S i + length ins)), (Nat.ltb_spec j (i + S (length ins))); try lia; auto.
        replace (j - i) with (S (j - S i)) by lia. reflexivity.
    + change (place (i, o, f) (k, false)) with (i, pred o, upd f (pred o) k).
      specialize (IH i (pred o) (upd f (pred o) k) ltac:(lia)). cbv zeta in IH.
      destruct (fold_left place kps (i, pred o, upd f (pred o) k)) as [[i' o'] f']. cbn [filter snd negb map fst length] in *.
      destruct IH as (I1 & I2 & I3). split; [lia|]. split; [auto|]. intros j. rewrite I3.
      assert (Hl : length (map fst (filter snd kps)) <= length kps).
      { rewrite map_length. clear. induction kps as [|(a, b) l IH]; cbn; auto. destruct b; cbn; lia. }
      set (ins := map fst (filter snd kps)) in *. set (outs := map fst (filter (fun kp => negb (snd kp)) kps)) in *.
      unfold upd. destruct (Nat.ltb_spec j i); [destruct (Nat.eqb_spec j (pred o)); [lia|auto]|].
      destruct (Nat.ltb_spec j (i + length ins)); auto.
      destruct (Nat.ltb_spec j (pred o)), (Nat.ltb_spec j o), (Nat.eqb_spec j (pred o)); try lia; auto.
      * replace (o - 1 - j) with (S (pred o - 1 - j)) by lia. reflexivity.
      * replace (o - 1 - j) with 0 by lia. reflexivity.
Qed.

Lemma filter_split_length {A} (f : A -> bool) l : length (filter f l) + length (filter (fun x => negb (f x)) l) = length l.
Proof. induction l as [|a l IH]; cbn; auto. destruct (f a); cbn; lia. Qed.

(** Positions of the [true] and of the [false] flags. *)
Definition trues (flags : list bool) : list nat := filter (fun k => nth k flags false) (seq 0 (length flags)).
Definition falses (flags : list bool) : list nat := filter (fun k => negb (nth k flags false)) (seq 0 (length flags)).

Lemma combine_filter (g : bool -> bool) : forall (flags : list bool) (h : nat -> bool) s,
  (forall k, k < length flags -> h (s + k) = nth k flags false) ->
  map fst (filter (fun kp => g (snd kp)) (combine (seq s (length flags)) flags)) =
  filter (fun k => g (h k)) (seq s (length flags)).
Proof.
  induction flags as [|b flags IH]; intros h s H; [reflexivity|]. cbn [length seq combine filter snd].
  pose proof (H 0 ltac:(cbn; lia)) as H0. cbn in H0. rewrite Nat.add_0_r in H0. rewrite H0.
  assert (E : map fst (filter (fun kp => g (snd kp)) (combine (seq (S s) (length flags)) flags)) =
              filter (fun k => g (h k)) (seq (S s) (length flags))).
  { apply IH. intros k Hk. specialize (H (S k) ltac:(cbn; lia)). cbn in H. rewrite <- H. f_equal. lia. }
  destruct (g b); cbn [map fst]; rewrite E; reflexivity.
Qed.

Lemma separate_flags_spec flags :
  separate_flags flags = (length (trues flags), trues flags ++ rev (falses flags)).
Proof.
  unfold separate_flags. set (m := length flags).
  pose proof (place_spec (combine (seq 0 m) flags) 0 m (fun _ => 0)) as P. cbv zeta in P.
  assert (Hl : length (combine (seq 0 m) flags) = m) by (rewrite combine_length, seq_length; unfold m; lia).
  specialize (P ltac:(lia)).
  pose proof (combine_filter (fun b => b) flags (fun k => nth k flags false) 0 (fun k _ => eq_refl)) as E1.
  pose proof (combine_filter negb flags (fun k => nth k flags false) 0 (fun k _ => eq_refl)) as E2.
  fold m in E1, E2. change (filter (fun k => nth k flags false) (seq 0 m)) with (trues flags) in E1.
  change (filter (fun k => negb (nth k flags false)) (seq 0 m)) with (falses flags) in E2.
  assert (E1' : map fst (filter snd (combine (seq 0 m) flags)) = trues flags) by exact E1.
  rewrite E1', E2 in P. destruct (fold_left place _ _) as [[count o'] indices]. destruct P as (P1 & P2 & P3).
  cbn [Nat.add] in P1. f_equal; [exact P1|].
  assert (Hm : length (trues flags) + length (falses flags) = m).
  { unfold trues, falses. fold m. rewrite <- (seq_length m 0) at 3. apply filter_split_length. }
  apply nth_ext with (d := 0) (d' := 0).
  - rewrite map_length, seq_length, app_length, rev_length. lia.
  - intros j Hj. rewrite map_length, seq_length in Hj.
    rewrite (nth_indep _ 0 (indices 0)) by (rewrite map_length, seq_length; auto).
    rewrite (map_nth indices), seq_nth by auto. cbn [Nat.add]. rewrite P3, Nat.sub_0_r. fold (falses flags).
    destruct (Nat.ltb_spec j 0); [lia|]. cbn [Nat.add].
    destruct (Nat.ltb_spec j (length (trues flags))).
    + rewrite app_nth1 by auto. reflexivity.
    + rewrite app_nth2 by auto. rewrite rev_nth by lia. destruct (Nat.ltb_spec j m); [|lia]. f_equal. lia.
Qed.

(** ** Edges of a polygon *)

Lemma edges_combine p0 rest : edges_of (p0 :: rest) = combine (p0 :: rest) (rest ++ [p0]).
Proof.
  apply nth_ext with (d := ((0, 0), (0, 0))%R) (d' := ((0, 0), (0, 0))%R).
  - unfold edges_of. rewrite map_length, seq_length, combine_length, app_length. cbn [length]. lia.
  - intros i Hi. unfold edges_of in *. rewrite map_length, seq_length in Hi. cbn [length] in *.
    assert (El : length (p0 :: rest) = length (rest ++ [p0])).
    { rewrite app_length. cbn [length]. lia. }
    rewrite combine_nth by exact El.
    set (n := S (length rest)) in *.
    rewrite (nth_indep _ _ ((fun i => (nth i (p0 :: rest) (0, 0)%R, nth (S i mod n) (p0 :: rest) (0, 0)%R)) 0))
      by (rewrite map_length, seq_length; auto).
    rewrite (map_nth (fun i => (nth i (p0 :: rest) (0, 0)%R, nth (S i mod n) (p0 :: rest) (0, 0)%R))), seq_nth by auto.
    cbn [Nat.add]. f_equal. destruct (Nat.eq_dec (S i) n) as [E|E].
    + rewrite E, Nat.mod_same by lia. cbn [nth]. rewrite app_nth2 by (unfold n in E; lia).
      replace (i - length rest) with 0 by (unfold n in E; lia). reflexivity.
    + rewrite Nat.mod_small by lia. cbn [nth]. rewrite app_nth1 by (unfold n in *; lia). reflexivity.
Qed.

(** ** The decision for one point *)

Definition on_edge (x y : R) (e : point * point) : bool :=
  point_on_line x y (px (fst e)) (py (fst e)) (px (snd e)) (py (snd e)) 0 0.
Definition crossings (edges : list (point * point)) (x y : R) : nat :=
  length (filter (fun e => crosses_left x y (fst e) (snd e)) edges).

Lemma check_edges_spec edges x y closed : forall inside,
  check_edges edges x y closed inside =
  if existsb (on_edge x y) edges then closed else xorb inside (Nat.odd (crossings edges x y)).
Proof.
  induction edges as [|(pi, pj) edges IH]; intros inside; [cbn; now rewrite xorb_false_r|].
  cbn [check_edges existsb]. unfold on_edge at 1. cbn [fst snd].
  destruct (point_on_line _ _ _ _ _ _ _ _); [reflexivity|]. cbn [orb]. rewrite IH.
  destruct (existsb _ edges); auto. unfold crossings. cbn [filter fst snd].
  destruct (crosses_left x y pi pj); cbn [length]; auto.
  rewrite Nat.odd_succ, <- Nat.negb_odd. now destruct inside, (Nat.odd _).
Qed.

Lemma box_spec polygon : let '(a, b, c, d) := box polygon in
  forall p, In p polygon -> (a <= px p <= b /\ c <= py p <= d)%R.
Proof.
  unfold box. set (p0 := nth 0 polygon (0, 0)%R).
  assert (G : forall l a b c d, let '(a', b', c', d') := fold_left (fun b p => let '(minpx, maxpx, minpy, maxpy) := b in
      (if Rltb (px p) minpx then px p else minpx, if Rltb maxpx (px p) then px p else maxpx,
       if Rltb (py p) minpy then py p else minpy, if Rltb maxpy (py p) then py p else maxpy)) l (a, b, c, d) in
      (a' <= a /\ b <= b' /\ c' <= c /\ d <= d')%R /\ forall p, In p l -> (a' <= px p <= b' /\ c' <= py p <= d')%R).
  { induction l as [|q l IH]; intros a b c d.
    - cbn. split; [lra|intros p []].
    - cbn [fold_left]. 
      specialize (IH (if Rltb (px q) a then px q else a) (if Rltb b (px q) then px q else b)
                     (if Rltb (py q) c then py q else c) (if Rltb d (py q) then py q else d)).
      destruct (fold_left _ l _) as [[[a' b'] c'] d']. destruct IH as (I1 & I2).
      assert (H : (a' <= a /\ b <= b' /\ c' <= c /\ d <= d' /\ a' <= px q <= b' /\ c' <= py q <= d')%R) by (rdestruct; lra).
      split; [lra|]. intros p [<-|Hp]; [lra|apply I2, Hp]. }
  specialize (G polygon (px p0) (px p0) (py p0) (py p0)). destruct (fold_left _ polygon _) as [[[a b] c] d]. apply G.
Qed.

Lemma edges_vertices polygon e : In e (edges_of polygon) -> In (fst e) polygon /\ In (snd e) polygon.
Proof.
  unfold edges_of. intros H. apply in_map_iff in H as (i & <- & H). apply in_seq in H. cbn [fst snd].
  split; apply nth_In; [lia|]. apply Nat.mod_upper_bound. lia.
Qed.

(** Each closed chain changes side of a horizontal line an even number of times. *)
Definition straddles (y : R) (e : point * point) : bool := xorb (Rltb (py (fst e)) y) (Rltb (py (snd e)) y).

Lemma straddle_code y pi pj :
  ((Rltb (py pi) y && Rleb y (py pj)) || (Rltb (py pj) y && Rleb y (py pi))) = straddles y (pi, pj).
Proof. unfold straddles. cbn [fst snd]. rdestruct; reflexivity || lra. Qed.

Lemma chain_parity y : forall l p q, Nat.odd (length (filter (straddles y) (combine (p :: l) (l ++ [q])))) =
  xorb (Rltb (py p) y) (Rltb (py q) y).
Proof.
  induction l as [|r l IH]; intros p q.
  - cbn [app combine filter]. unfold straddles. cbn [fst snd]. destruct (xorb _ _); reflexivity.
  - cbn [app]. change (combine (p :: r :: l) (r :: l ++ [q])) with ((p, r) :: combine (r :: l) (l ++ [q])).
    cbn [filter]. specialize (IH r q). unfold straddles at 1. cbn [fst snd].
    destruct (xorb (Rltb (py p) y) (Rltb (py r) y)) eqn:E; [cbn [length]; rewrite Nat.odd_succ, <- Nat.negb_odd|]; rewrite IH;
    destruct (Rltb (py p) y), (Rltb (py r) y), (Rltb (py q) y); cbn in E |- *; congruence.
Qed.

Lemma closed_parity y polygon : Nat.odd (length (filter (straddles y) (edges_of polygon))) = false.
Proof.
  destruct polygon as [|p l]; [reflexivity|]. rewrite edges_combine, chain_parity. apply xorb_nilpotent.
Qed.

Lemma crosses_left_straddles x y e : crosses_left x y (fst e) (snd e) =
  straddles y e && Rltb (px (fst e) + (y - py (fst e)) / (py (snd e) - py (fst e)) * (px (snd e) - px (fst e))) x.
Proof. unfold crosses_left. destruct e as [pi pj]. cbn [fst snd]. rewrite straddle_code. reflexivity. Qed.

(** The abscissa where a straddling edge meets the line lies between those of
    its ends. *)
Lemma crossing_between y pi pj lo hi : straddles y (pi, pj) = true ->
  (lo <= px pi <= hi)%R -> (lo <= px pj <= hi)%R ->
  (lo <= px pi + (y - py pi) / (py pj - py pi) * (px pj - px pi) <= hi)%R.
Proof.
  unfold straddles. cbn [fst snd]. intros Hs Hi Hj.
  set (t := ((y - py pi) / (py pj - py pi))%R).
  assert (Ht : (0 <= t <= 1)%R).
  { unfold t. destruct (Rltb_spec (py pi) y), (Rltb_spec (py pj) y); try discriminate.
    - split; [apply Rmult_le_pos; [lra|left; apply Rinv_0_lt_compat; lra]|].
      apply (Rmult_le_reg_r (py pj - py pi)); [lra|]. unfold Rdiv. rewrite Rmult_assoc, Rinv_l by lra. lra.
    - replace ((y - py pi) / (py pj - py pi))%R with ((py pi - y) / (py pi - py pj))%R by (field; lra).
      split; [apply Rmult_le_pos; [lra|left; apply Rinv_0_lt_compat; lra]|].
      apply (Rmult_le_reg_r (py pi - py pj)); [lra|]. unfold Rdiv. rewrite Rmult_assoc, Rinv_l by lra. lra. }
  clearbody t. split; nra.
Qed.

(** Outside the bounding box the number of crossings is even. *)
Lemma outside_box_even polygon x y : let '(a, b, c, d) := box polygon in
  (b < x \/ x < a \/ d < y \/ y < c)%R -> Nat.odd (crossings (edges_of polygon) x y) = false.
Proof.
  pose proof (box_spec polygon) as B. destruct (box polygon) as [[[a b] c] d]. intros H. unfold crossings.
  assert (Bv : forall e, In e (edges_of polygon) -> (a <= px (fst e) <= b /\ c <= py (fst e) <= d /\ a <= px (snd e) <= b /\ c <= py (snd e) <= d)%R).
  { intros e He. apply edges_vertices in He as (H1 & H2). apply B in H1, H2. lra. }
  destruct H as [H|H].
  - rewrite (filter_ext_in _ (straddles y)); [apply closed_parity|]. intros (pi, pj) He. rewrite crosses_left_straddles.
    destruct (straddles y (pi, pj)) eqn:E; auto. apply Bv in He. cbn [fst snd andb] in *.
    apply Rltb_true. pose proof (crossing_between y pi pj a b E) as K. lra.
  - rewrite (filter_ext_in _ (fun _ => false)).
    + replace (filter (fun _ => false) (edges_of polygon)) with (@nil (point * point)); [reflexivity|].
      clear. induction (edges_of polygon); cbn; auto.
    + intros (pi, pj) He. rewrite crosses_left_straddles. apply Bv in He. cbn [fst snd] in *.
      destruct (straddles y (pi, pj)) eqn:E; auto. cbn [andb]. destruct H as [H|H].
      * apply Rltb_false. pose proof (crossing_between y pi pj a b E). lra.
      * unfold straddles in E. cbn [fst snd] in E. exfalso. destruct (Rltb_spec (py pi) y), (Rltb_spec (py pj) y); try discriminate; lra.
Qed.

(** ** point_on_line *)

(** A point of the segment is accepted whatever the tolerances. *)
Lemma point_on_line_exact x y x0 y0 x1 y1 rtol atol t :
  (0 <= rtol -> 0 <= atol -> 0 <= t <= 1 -> x = x0 + t * (x1 - x0) -> y = y0 + t * (y1 - y0) ->
  point_on_line x y x0 y0 x1 y1 rtol atol = true)%R.
Proof.
  intros Hr Ha Ht -> ->. unfold point_on_line.
  set (b0 := (x1 - x0)%R). set (b1 := (y1 - y0)%R).
  replace (x0 + t * b0 - x0)%R with (t * b0)%R by ring. replace (y0 + t * b1 - y0)%R with (t * b1)%R by ring.
  replace (t * b1 * b0 + - (t * b0) * b1)%R with 0%R by ring. rewrite Rabs_R0.
  replace (0 / (b0 * b0 + b1 * b1))%R with 0%R by (unfold Rdiv; ring).
  rewrite (proj2 (Rleb_true 0 atol) Ha), (proj2 (Rleb_true 0 rtol) Hr).
  assert (P1 : (0 < tiny_dot)%R) by (apply Rinv_0_lt_compat, pow_lt; lra).
  assert (P2 : (0 < tiny_len)%R) by (apply Rinv_0_lt_compat, pow_lt; lra).
  assert (D : dist (t * b0) (t * b1) = (t * dist b0 b1)%R).
  { unfold dist. replace (t * b0 * (t * b0) + t * b1 * (t * b1))%R with ((t * t) * (b0 * b0 + b1 * b1))%R by ring.
    rewrite sqrt_mult_alt by nra. f_equal. apply sqrt_square. lra. }
  rewrite D. assert (Dp : (0 <= dist b0 b1)%R) by apply sqrt_pos.
  destruct (Reqb _ 0); apply andb_true_iff; split; apply Rleb_true; generalize dependent (dist b0 b1); intros; nra.
Qed.

(** With zero tolerances an accepted point lies on the line through the ends,
    not further than [tiny_len] past the far end, and not before the near one
    beyond what [tiny_dot] lets pass. *)
Lemma point_on_line_sound x y x0 y0 x1 y1 :
  point_on_line x y x0 y0 x1 y1 0 0 = true ->
  let a0 := (x - x0)%R in let a1 := (y - y0)%R in let b0 := (x1 - x0)%R in let b1 := (y1 - y0)%R in
  (a1 * b0 = a0 * b1 /\ - tiny_dot <= a0 * b0 + a1 * b1 /\ dist a0 a1 <= dist b0 b1 + tiny_len)%R.
Proof.
  intros H. cbv zeta. unfold point_on_line in H. 
  set (a0 := (x - x0)%R) in *. set (a1 := (y - y0)%R) in *. set (b0 := (x1 - x0)%R) in *. set (b1 := (y1 - y0)%R) in *.
  destruct (Reqb_spec (b0 * b0 + b1 * b1) 0) as [Z|Z].
  - assert (b0 = 0 /\ b1 = 0)%R as (Z0 & Z1) by (split; nra). rewrite Z0, Z1 in *.
    destruct (Rleb _ 0); [|discriminate]. apply andb_true_iff in H as (H1 & H2). apply Rleb_true in H1, H2. split; [ring|]. lra.
  - destruct (Rleb_spec (Rabs (a1 * b0 + - a0 * b1) / (b0 * b0 + b1 * b1)) 0) as [L|]; [|discriminate].
    apply andb_true_iff in H as (H1 & H2). apply Rleb_true in H1, H2.
    assert (P : (0 < b0 * b0 + b1 * b1)%R) by nra.
    assert (N : (Rabs (a1 * b0 + - a0 * b1) <= 0)%R).
    { apply (Rmult_le_reg_r (/ (b0 * b0 + b1 * b1))); [apply Rinv_0_lt_compat, P|]. rewrite Rmult_0_l. exact L. }
    pose proof (Rabs_pos (a1 * b0 + - a0 * b1)). assert (E : (a1 * b0 + - a0 * b1 = 0)%R).
    { destruct (Req_dec (a1 * b0 + - a0 * b1) 0) as [|Hne]; auto. apply Rabs_pos_lt in Hne. lra. }
    split; [lra|]. lra.
Qed.

Lemma box_attained polygon : polygon <> [] -> let '(a, b, c, d) := box polygon in
  (exists p, In p polygon /\ a = px p) /\ (exists p, In p polygon /\ b = px p) /\
  (exists p, In p polygon /\ c = py p) /\ (exists p, In p polygon /\ d = py p).
Proof.
  intros Hne. unfold box. set (p0 := nth 0 polygon (0, 0)%R).
  assert (I0 : In p0 polygon) by (destruct polygon; [congruence|left; reflexivity]). clearbody p0. clear Hne.
  assert (G : forall l a b c d, incl l polygon ->
      (exists p, In p polygon /\ a = px p) -> (exists p, In p polygon /\ b = px p) ->
      (exists p, In p polygon /\ c = py p) -> (exists p, In p polygon /\ d = py p) ->
      let '(a', b', c', d') := fold_left (fun b p => let '(minpx, maxpx, minpy, maxpy) := b in
      (if Rltb (px p) minpx then px p else minpx, if Rltb maxpx (px p) then px p else maxpx,
       if Rltb (py p) minpy then py p else minpy, if Rltb maxpy (py p) then py p else maxpy)) l (a, b, c, d) in
      (exists p, In p polygon /\ a' = px p) /\ (exists p, In p polygon /\ b' = px p) /\
      (exists p, In p polygon /\ c' = py p) /\ (exists p, In p polygon /\ d' = py p)).
  { induction l as [|q l IH]; intros a b c d Hi Ha Hb Hc Hd; [cbn; auto|]. cbn [fold_left].
    assert (Iq : In q polygon) by (apply Hi; left; auto).
    apply IH; [intros r Hr; apply Hi; right; auto| | | |]; [destruct (Rltb (px q) a)|destruct (Rltb b (px q))|destruct (Rltb (py q) c)|destruct (Rltb d (py q))];
    auto; exists q; auto. }
  apply (G polygon (px p0) (px p0) (py p0) (py p0)); [apply incl_refl|..]; exists p0; auto.
Qed.

Lemma box_perm l l' : l <> [] -> Permutation l l' -> box l = box l'.
Proof.
  intros Hne P. assert (Hne' : l' <> []) by (intros ->; apply Permutation_sym, Permutation_nil in P; auto).
  pose proof (box_spec l) as B. pose proof (box_spec l') as B'. pose proof (box_attained l Hne) as T. pose proof (box_attained l' Hne') as T'.
  destruct (box l) as [[[a b] c] d], (box l') as [[[a' b'] c'] d'].
  destruct T as ((p1 & I1 & E1) & (p2 & I2 & E2) & (p3 & I3 & E3) & (p4 & I4 & E4)).
  destruct T' as ((q1 & J1 & F1) & (q2 & J2 & F2) & (q3 & J3 & F3) & (q4 & J4 & F4)).
  apply (Permutation_in _ P), B' in I1, I2, I3, I4. apply (Permutation_in _ (Permutation_sym P)), B in J1, J2, J3, J4.
  assert (a = a' /\ b = b' /\ c = c' /\ d = d') as (-> & -> & -> & ->); [|reflexivity]. repeat split; apply Rle_antisym; lra.
Qed.

Lemma combine_app_last {A B} (a : A) (b : B) : forall l l', length l = length l' ->
  combine (l ++ [a]) (l' ++ [b]) = combine l l' ++ [(a, b)].
Proof.
  induction l as [|x l IH]; intros [|y l'] H; try discriminate; [reflexivity|]. cbn in H |- *. rewrite IH by lia. reflexivity.
Qed.

(** ** Triangles *)

Definition convex_combination (strict : bool) (p : point) (t : triangle) : Prop :=
  let '(a, b, c) := t in
  exists l m n : R, ((if strict then 0 < l /\ 0 < m /\ 0 < n else 0 <= l /\ 0 <= m /\ 0 <= n) /\ l + m + n = 1 /\
  px p = l * px a + m * px b + n * px c /\ py p = l * py a + m * py b + n * py c)%R.

(** Twice the signed area. *)
Definition tri_cross (t : triangle) : R :=
  let '(a, b, c) := t in ((px b - px a) * (py c - py a) - (px c - px a) * (py b - py a))%R.

Lemma not_all_above l m n x a b c : (0 <= l -> 0 <= m -> 0 <= n -> l + m + n = 1 -> x = l * a + m * b + n * c ->
  Rltb x a && Rltb x b && Rltb x c = false /\ Rltb a x && Rltb b x && Rltb c x = false)%R.
Proof.
  intros Hl Hm Hn Hs Hx. split.
  - destruct (Rltb_spec x a), (Rltb_spec x b), (Rltb_spec x c); try reflexivity. exfalso.
    assert (0 <= l * (a - x) /\ 0 <= m * (b - x) /\ 0 <= n * (c - x))%R by (repeat split; apply Rmult_le_pos; lra).
    assert (0 < l \/ 0 < m \/ 0 < n)%R as [K|[K|K]] by lra.
    + assert (0 < l * (a - x))%R by (apply Rmult_lt_0_compat; lra). nra.
    + assert (0 < m * (b - x))%R by (apply Rmult_lt_0_compat; lra). nra.
    + assert (0 < n * (c - x))%R by (apply Rmult_lt_0_compat; lra). nra.
  - destruct (Rltb_spec a x), (Rltb_spec b x), (Rltb_spec c x); try reflexivity. exfalso.
    assert (0 <= l * (x - a) /\ 0 <= m * (x - b) /\ 0 <= n * (x - c))%R by (repeat split; apply Rmult_le_pos; lra).
    assert (0 < l \/ 0 < m \/ 0 < n)%R as [K|[K|K]] by lra.
    + assert (0 < l * (x - a))%R by (apply Rmult_lt_0_compat; lra). nra.
    + assert (0 < m * (x - b))%R by (apply Rmult_lt_0_compat; lra). nra.
    + assert (0 < n * (x - c))%R by (apply Rmult_lt_0_compat; lra). nra.
Qed.

Lemma inside_open_with on_line :
  forall p t rtol atol,
  is_inside_triangle_with on_line p t false rtol atol = true <-> tri_cross t <> 0%R /\ convex_combination true p t.
Proof.
  intros (x, y) (((t0, t1), (t2, t3)), (t4, t5)) rtol atol.
  unfold is_inside_triangle_with, tri_cross, convex_combination. cbn [px py fst snd].
  set (v0x := (t4 - t0)%R). set (v0y := (t5 - t1)%R). set (v1x := (t2 - t0)%R). set (v1y := (t3 - t1)%R).
  set (D := (v1x * v0y - v0x * v1y)%R).
  assert (Ed : ((v1x * v1x + v1y * v1y) * (v0x * v0x + v0y * v0y) - (v0x * v1x + v0y * v1y) * (v0x * v1x + v0y * v1y) = D * D)%R)
    by (unfold D; ring).
  rewrite Ed.
  set (vx := (x - t0)%R). set (vy := (y - t1)%R).
  assert (Ea : forall d, (d = D * D -> D <> 0 -> ((v0x * vx + v0y * vy) * (v1x * v1x + v1y * v1y) - (v1x * vx + v1y * vy) * (v0x * v1x + v0y * v1y)) / d = (v1x * vy - v1y * vx) / D)%R).
  { intros d -> Hd. unfold D in *. field. exact Hd. }
  assert (Eb : forall d, (d = D * D -> D <> 0 -> ((v1x * vx + v1y * vy) * (v0x * v0x + v0y * v0y) - (v0x * vx + v0y * vy) * (v0x * v1x + v0y * v1y)) / d = (vx * v0y - vy * v0x) / D)%R).
  { intros d -> Hd. unfold D in *. field. exact Hd. }
  rewrite andb_false_l.
  split.
  - intros H. destruct (_ && _ && _) in H; [discriminate|]. destruct (_ && _ && _) in H; [discriminate|].
    destruct (_ && _ && _) in H; [discriminate|]. destruct (_ && _ && _) in H; [discriminate|].
    destruct (Rltb 0 (Rabs (D * D)) && _) eqn:E in H; [|discriminate]. apply andb_true_iff in E as (E1 & E2).
    apply andb_true_iff in E2 as (E2 & E4). apply andb_true_iff in E2 as (E2 & E3). apply Rltb_true in E1, E2, E3, E4.
    assert (Hd : D <> 0%R) by (intros Z; rewrite Z in E1; rewrite Rmult_0_l, Rabs_R0 in E1; lra).
    rewrite (Ea _ eq_refl Hd) in E2, E4. rewrite (Eb _ eq_refl Hd) in E3, E4.
    split; [exact Hd|].
    exists (1 - (v1x * vy - v1y * vx) / D - (vx * v0y - vy * v0x) / D)%R, ((vx * v0y - vy * v0x) / D)%R, ((v1x * vy - v1y * vx) / D)%R.
    split; [lra|]. split; [lra|]. clear -Hd. subst D v0x v0y v1x v1y vx vy. split; field; exact Hd.
  - intros (Hd & l & m & n & (Hl & Hm & Hn) & Hs & Hx & Hy).
    destruct (not_all_above l m n x t0 t2 t4) as (K1 & K2); [lra..|exact Hx|].
    destruct (not_all_above l m n y t1 t3 t5) as (K3 & K4); [lra..|exact Hy|]. rewrite K1, K2, K3, K4.
    rewrite (Ea _ eq_refl Hd), (Eb _ eq_refl Hd).
    replace ((v1x * vy - v1y * vx) / D)%R with n.
    2: { apply (Rmult_eq_reg_r D); [|exact Hd]. unfold Rdiv. rewrite Rmult_assoc, Rinv_l by exact Hd.
         subst D v0x v0y v1x v1y vx vy. rewrite Hx, Hy. replace l with (1 - m - n)%R by lra. ring. }
    replace ((vx * v0y - vy * v0x) / D)%R with m.
    2: { apply (Rmult_eq_reg_r D); [|exact Hd]. unfold Rdiv. rewrite Rmult_assoc, Rinv_l by exact Hd.
         subst D v0x v0y v1x v1y vx vy. rewrite Hx, Hy. replace l with (1 - m - n)%R by lra. ring. }
    assert (Hp : (0 < Rabs (D * D))%R) by (apply Rabs_pos_lt; nra). clearbody D. rdecide. reflexivity.
Qed.

(** With [closed] the edges are tried as well. *)
Lemma inside_closed_eq on_line p t rtol atol :
  is_inside_triangle_with on_line p t true rtol atol = true ->
  is_inside_triangle_with on_line p t false rtol atol = true \/
  exists e, In e (tri_edges t) /\ on_line (px p) (py p) (px (fst e)) (py (fst e)) (px (snd e)) (py (snd e)) rtol atol = true.
Proof.
  destruct p as [x y], t as [[[t0 t1] [t2 t3]] [t4 t5]]. unfold is_inside_triangle_with, tri_edges. cbn [px py fst snd andb].
  destruct (_ && _ && _); [discriminate|]. destruct (_ && _ && _); [discriminate|].
  destruct (_ && _ && _); [discriminate|]. destruct (_ && _ && _); [discriminate|].
  destruct (Rltb 0 (Rabs _) && _); [auto|]. intros H. right.
  apply orb_true_iff in H as [H|H]; [apply orb_true_iff in H as [H|H]|].
  - exists ((t0, t1), (t2, t3)). split; [cbn; auto|exact H].
  - exists ((t2, t3), (t4, t5)). split; [cbn; auto|exact H].
  - exists ((t4, t5), (t0, t1)). split; [cbn; auto|exact H].
Qed.

Lemma inside_closed_sound on_line p t rtol atol :
  is_inside_triangle_with on_line p t true rtol atol = true ->
  (tri_cross t <> 0%R /\ convex_combination true p t) \/
  exists e, In e (tri_edges t) /\ on_line (px p) (py p) (px (fst e)) (py (fst e)) (px (snd e)) (py (snd e)) rtol atol = true.
Proof. intros H. apply inside_closed_eq in H as [H|H]; auto. left. eapply inside_open_with. exact H. Qed.

Lemma inside_closed_with on_line p t rtol atol :
  (forall x y x0 y0 x1 y1 t, 0 <= t <= 1 -> x = x0 + t * (x1 - x0) -> y = y0 + t * (y1 - y0) ->
     on_line x y x0 y0 x1 y1 rtol atol = true)%R ->
  tri_cross t <> 0%R -> convex_combination false p t -> is_inside_triangle_with on_line p t true rtol atol = true.
Proof.
  intros Hon Hd Hc.
  destruct p as [x y], t as [[[t0 t1] [t2 t3]] [t4 t5]]. destruct Hc as (l & m & n & (Hl & Hm & Hn) & Hs & Hx & Hy). cbn [px py fst snd] in Hx, Hy.
  destruct (Req_EM_T l 0) as [Zl|Pl]; [|destruct (Req_EM_T m 0) as [Zm|Pm]; [|destruct (Req_EM_T n 0) as [Zn|Pn]]].
  4: { assert (E : is_inside_triangle_with on_line (x, y) (t0, t1, (t2, t3), (t4, t5)) false rtol atol = true).
       { apply inside_open_with. split; [exact Hd|]. exists l, m, n. cbn [px py fst snd]. repeat split; auto; lra. }
       revert E. unfold is_inside_triangle_with.
       destruct (_ && _ && _); [discriminate|]. destruct (_ && _ && _); [discriminate|].
       destruct (_ && _ && _); [discriminate|]. destruct (_ && _ && _); [discriminate|].
       destruct (Rltb 0 (Rabs _) && _); [auto|discriminate]. }
  all: destruct (not_all_above l m n x t0 t2 t4) as (K1 & K2); [lra..|exact Hx|];
       destruct (not_all_above l m n y t1 t3 t5) as (K3 & K4); [lra..|exact Hy|];
       unfold is_inside_triangle_with; rewrite K1, K2, K3, K4;
       destruct (Rltb 0 (Rabs _) && _); [reflexivity|]; cbn [andb].
  - subst l. rewrite (Hon x y t2 t3 t4 t5 n); [|lra| |].
    + rewrite orb_true_r. reflexivity.
    + rewrite Hx. replace m with (1 - n)%R by lra. ring.
    + rewrite Hy. replace m with (1 - n)%R by lra. ring.
  - subst m. rewrite (Hon x y t4 t5 t0 t1 l); [|lra| |].
    + rewrite !orb_true_r. reflexivity.
    + rewrite Hx. replace n with (1 - l)%R by lra. ring.
    + rewrite Hy. replace n with (1 - l)%R by lra. ring.
  - subst n. rewrite (Hon x y t0 t1 t2 t3 m); [|lra| |].
    + reflexivity.
    + rewrite Hx. replace l with (1 - m)%R by lra. ring.
    + rewrite Hy. replace l with (1 - m)%R by lra. ring.
Qed.
