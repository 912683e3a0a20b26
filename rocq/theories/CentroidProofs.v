(** Lemmas about the cell-wise kernels of [CentroidModel]. *)
From Coq Require Import Reals List ZArith Lra Lia Bool Psatz.
From Verif Require Import RealLib CentroidModel.
Import ListNotations.
Local Open Scope R_scope.

(** ** protection *)

Definition protected (mah : R) (c : cell) : cell := fst (protect_cell mah c).
Definition added (mah : R) (c : cell) : R := match snd (protect_cell mah c) with Some d => d | None => 0 end.

Lemma protect_loop_eq mah : forall cells acc,
  protect_loop mah cells acc = (map (protected mah) cells, acc + Rsum (map (added mah) cells)).
Proof.
  induction cells as [|c cs IH]; intros acc; cbn [protect_loop map Rsum].
  - f_equal. lra.
  - unfold protected at 1, added at 1. destruct (protect_cell mah c) as [c' d] eqn:E. cbn [fst snd].
    rewrite IH. f_equal. destruct d; lra.
Qed.

Lemma protect_cell_spec mah c : 0 <= mah ->
  let c' := protected mah c in
  c_bed c' = c_bed c /\ c_area c' = c_area c /\ c_full c' = c_full c /\
  c_stage c' = Rmax (c_stage c) (c_bed c) /\
  (c_stage c - c_bed c < mah -> c_xmom c' = 0 /\ c_ymom c' = 0) /\
  (mah <= c_stage c - c_bed c -> c' = c) /\
  (c_stage c < c_bed c -> c_wv c' = (c_bed c, c_bed c, c_bed c)) /\
  (c_bed c <= c_stage c -> c_wv c' = c_wv c) /\
  added mah c = c_area c * (c_stage c' - c_stage c).
Proof.
  intros Hm. unfold protected, added, protect_cell.
  destruct (Rltb_spec (c_stage c - c_bed c) (mah * 1)) as [H1|H1].
  - destruct (Rleb_spec (c_stage c - c_bed c) 0) as [H2|H2].
    + destruct (Rltb_spec (c_stage c) (c_bed c)) as [H3|H3]; cbn [fst snd c_bed c_area c_full c_stage c_xmom c_ymom c_wv].
      * rewrite Rmax_right by lra. repeat split; intros; try lra; auto.
      * rewrite Rmax_left by lra. repeat split; intros; try lra; auto.
    + cbn [fst snd c_bed c_area c_full c_stage c_xmom c_ymom c_wv]. rewrite Rmax_left by lra. repeat split; intros; try lra; auto.
  - cbn [fst snd]. rewrite Rmax_left by lra. repeat split; intros; try lra; auto.
Qed.

Lemma Rsum_added mah cells : 0 <= mah ->
  Rsum (map (added mah) cells) =
  Rsum (map (fun c => c_area c * c_stage c) (map (protected mah) cells)) - Rsum (map (fun c => c_area c * c_stage c) cells).
Proof.
  intros Hm. induction cells as [|c cs IH]; cbn [map Rsum]; [lra|].
  rewrite IH. destruct (protect_cell_spec mah c Hm) as (_ & A & _ & _ & _ & _ & _ & _ & E). rewrite E, A. ring.
Qed.

(** ** negative cells *)

Definition fixed (c : cell) : cell := fst (fix_negative_cell c).
Definition is_negative (c : cell) : bool := Rltb (c_stage c) (c_bed c) && Z.ltb 0 (c_full c).

Lemma fix_negative_cell_eq c : fix_negative_cell c = (fixed c, if is_negative c then 1%Z else 0%Z).
Proof.
  unfold fixed, fix_negative_cell, is_negative.
  replace (Rltb (c_stage c - c_bed c) 0) with (Rltb (c_stage c) (c_bed c)).
  - destruct (_ && _); reflexivity.
  - destruct (Rltb_spec (c_stage c) (c_bed c)), (Rltb_spec (c_stage c - c_bed c) 0); auto; lra.
Qed.

Lemma fix_negative_loop_eq : forall cells n,
  fix_negative_loop cells n = (map fixed cells, (n + Z.of_nat (length (filter is_negative cells)))%Z).
Proof.
  induction cells as [|c cs IH]; intros n; cbn [fix_negative_loop map filter].
  - f_equal. cbn. lia.
  - rewrite fix_negative_cell_eq, IH. destruct (is_negative c); cbn [length]; f_equal; lia.
Qed.

Lemma fixed_spec c :
  (is_negative c = false -> fixed c = c) /\
  (is_negative c = true -> c_stage (fixed c) = c_bed c /\ c_bed (fixed c) = c_bed c /\ c_xmom (fixed c) = 0 /\
     c_ymom (fixed c) = 0 /\ c_area (fixed c) = c_area c /\ c_full (fixed c) = c_full c /\ c_wv (fixed c) = c_wv c).
Proof.
  unfold fixed, fix_negative_cell, is_negative.
  replace (Rltb (c_stage c - c_bed c) 0) with (Rltb (c_stage c) (c_bed c)).
  - destruct (_ && _); split; intros E; try discriminate; repeat split; reflexivity.
  - destruct (Rltb_spec (c_stage c) (c_bed c)), (Rltb_spec (c_stage c - c_bed c) 0); auto; lra.
Qed.

(** ** update *)

Lemma map2_length {A B C} (f : A -> B -> C) : forall xs ys, length xs = length ys -> length (map2 f xs ys) = length xs.
Proof. induction xs as [|x xs IH]; intros [|y ys] H; cbn in *; auto; try discriminate. Qed.

Lemma map2_nth_error {A B C} (f : A -> B -> C) : forall xs ys k x y,
  nth_error xs k = Some x -> nth_error ys k = Some y -> nth_error (map2 f xs ys) k = Some (f x y).
Proof.
  induction xs as [|x0 xs IH]; intros ys k x y Hx Hy; [destruct k; discriminate|].
  destruct ys as [|y0 ys]; [destruct k; discriminate|]. destruct k; cbn in *; [congruence|auto].
Qed.

Lemma map2_nth_error_inv {A B C} (f : A -> B -> C) : forall xs ys k z,
  nth_error (map2 f xs ys) k = Some z -> exists x y, nth_error xs k = Some x /\ nth_error ys k = Some y /\ z = f x y.
Proof.
  induction xs as [|x0 xs IH]; intros ys k z H; [destruct k; discriminate|].
  destruct ys as [|y0 ys]; [destruct k; discriminate|]. destruct k; cbn in *; [injection H as <-; eauto|auto].
Qed.

Lemma semi_loop_length dt : forall xs ss, length xs = length ss -> length (fst (semi_implicit_loop dt xs ss)) = length xs.
Proof.
  induction xs as [|x xs IH]; intros [|s ss] H; cbn in *; try discriminate; auto.
  destruct (Rleb _ _); [reflexivity|]. specialize (IH ss ltac:(lia)).
  destruct (semi_implicit_loop dt xs ss). cbn in *. lia.
Qed.

Lemma semi_loop_ok dt : forall xs ss, length xs = length ss ->
  (snd (semi_implicit_loop dt xs ss) = true <-> forall k s, nth_error ss k = Some s -> 0 < 1 - dt * s).
Proof.
  induction xs as [|x xs IH]; intros [|s ss] H; cbn in *; try discriminate.
  - split; auto. intros _ k s. destruct k; discriminate.
  - specialize (IH ss ltac:(lia)). destruct (Rleb_spec (1 - dt * s) 0) as [L|L].
    + cbn. split; [discriminate|]. intros F. specialize (F 0%nat s eq_refl). lra.
    + destruct (semi_implicit_loop dt xs ss) as [r ok]. cbn in *. rewrite IH. split; intros F.
      * intros [|k] s' E; cbn in E; [injection E as <-; lra|eauto].
      * intros k s' E. apply (F (S k) s' E).
Qed.

Lemma firstn_nth_error {A} : forall (l : list A) i k, (k < i)%nat -> nth_error (firstn i l) k = nth_error l k.
Proof. induction l as [|a l IH]; intros [|i] [|k] H; cbn; auto; try lia. apply IH. lia. Qed.

(** Entries before the first bad denominator are divided, the others are not. *)
Lemma semi_loop_value dt : forall xs ss k x s, length xs = length ss ->
  nth_error xs k = Some x -> nth_error ss k = Some s ->
  nth_error (fst (semi_implicit_loop dt xs ss)) k =
  Some (if existsb (fun s => Rleb (1 - dt * s) 0) (firstn (S k) ss) then x else x / (1 - dt * s)).
Proof.
  induction xs as [|x0 xs IH]; intros [|s0 ss] k x s H Hx Hs; try discriminate; [destruct k; discriminate|].
  cbn [semi_implicit_loop firstn existsb]. destruct (Rleb (1 - dt * s0) 0) eqn:E; cbn [fst orb].
  - exact Hx.
  - specialize (IH ss). destruct (semi_implicit_loop dt xs ss) as [r ok] eqn:Er. cbn [fst] in *.
    destruct k as [|k]; cbn [nth_error firstn existsb] in *.
    + injection Hx as <-. injection Hs as <-. destruct ss; reflexivity.
    + apply (IH k x s); auto.
Qed.

Definition denominator (dt x s : R) : R := 1 - dt * divide_semi x s.

Lemma update_status dt xs es ss : length es = length xs -> length ss = length xs ->
  let '(xs', ss', st) := update dt xs es ss in
  length xs' = length xs /\ length ss' = length xs /\
  (st = 0%Z \/ st = (-1)%Z) /\
  (st = 0%Z <-> forall k x s, nth_error xs k = Some x -> nth_error ss k = Some s -> 0 < denominator dt x s) /\
  (st = 0%Z -> (forall k s, nth_error ss' k = Some s -> s = 0) /\
     forall k x e s, nth_error xs k = Some x -> nth_error es k = Some e -> nth_error ss k = Some s ->
     nth_error xs' k = Some ((x + dt * e) / denominator dt x s)).
Proof.
  intros He Hs. unfold update.
  assert (L1 : length (map2 divide_semi xs ss) = length xs) by (apply map2_length; lia).
  assert (L2 : length (map2 (fun x e => x + dt * e) xs es) = length xs) by (apply map2_length; lia).
  pose proof (semi_loop_ok dt (map2 (fun x e => x + dt * e) xs es) (map2 divide_semi xs ss) ltac:(lia)) as Ok.
  pose proof (semi_loop_length dt (map2 (fun x e => x + dt * e) xs es) (map2 divide_semi xs ss) ltac:(lia)) as Len.
  pose proof (fun k x s => semi_loop_value dt (map2 (fun x e => x + dt * e) xs es) (map2 divide_semi xs ss) k x s ltac:(lia)) as Val.
  destruct (semi_implicit_loop _ _ _) as [xs2 ok] eqn:E. cbn [fst snd] in *.
  assert (Q : (forall k s, nth_error (map2 divide_semi xs ss) k = Some s -> 0 < 1 - dt * s) <->
    forall k x s, nth_error xs k = Some x -> nth_error ss k = Some s -> 0 < denominator dt x s).
  { split.
    - intros F k x s Hx Hs'. apply (F k). apply map2_nth_error; auto.
    - intros F k s Hk. apply map2_nth_error_inv in Hk as (x & s0 & Hx & Hs0 & ->). apply (F k); auto. }
  destruct ok.
  - split; [lia|]. split; [rewrite map_length; lia|]. split; [auto|]. split; [rewrite <- Q; tauto|].
    intros _. split.
    + intros k s Hk. apply nth_error_In in Hk. apply in_map_iff in Hk as (y & <- & _). reflexivity.
    + intros k x e s Hx He' Hs'.
      rewrite (Val k (x + dt * e) (divide_semi x s)); [|apply (map2_nth_error (fun x e => x + dt * e)); auto|apply map2_nth_error; auto].
      destruct (existsb _ _) eqn:Ex; [|reflexivity]. exfalso.
      apply existsb_exists in Ex as (y & Hy & L). apply Rleb_true in L.
      assert (In y (map2 divide_semi xs ss)).
      { rewrite <- (firstn_skipn (S k) (map2 divide_semi xs ss)). apply in_or_app. auto. }
      apply In_nth_error in H as (j & Hj). pose proof (proj1 Ok eq_refl j y Hj). lra.
  - split; [lia|]. split; [lia|]. split; [auto|]. split; [|discriminate].
    split; [discriminate|]. intros F. pose proof (proj2 Ok (proj2 Q F)). discriminate.
Qed.

Lemma update_failed dt xs es ss xs' ss' : length es = length xs -> length ss = length xs ->
  update dt xs es ss = (xs', ss', (-1)%Z) ->
  exists i, (i < length xs)%nat /\
  (forall k x s, nth_error xs k = Some x -> nth_error ss k = Some s -> (k < i)%nat -> 0 < denominator dt x s) /\
  (forall x s, nth_error xs i = Some x -> nth_error ss i = Some s -> denominator dt x s <= 0) /\
  (forall k x e s, nth_error xs k = Some x -> nth_error es k = Some e -> nth_error ss k = Some s ->
     nth_error ss' k = Some (divide_semi x s) /\
     nth_error xs' k = Some (if Nat.ltb k i then (x + dt * e) / denominator dt x s else x + dt * e)).
Proof.
  intros He Hs. unfold update.
  assert (L1 : length (map2 divide_semi xs ss) = length xs) by (apply map2_length; lia).
  assert (L2 : length (map2 (fun x e => x + dt * e) xs es) = length xs) by (apply map2_length; lia).
  pose proof (semi_loop_ok dt (map2 (fun x e => x + dt * e) xs es) (map2 divide_semi xs ss) ltac:(lia)) as Ok.
  pose proof (fun k x s => semi_loop_value dt (map2 (fun x e => x + dt * e) xs es) (map2 divide_semi xs ss) k x s ltac:(lia)) as Val.
  destruct (semi_implicit_loop _ _ _) as [xs2 ok] eqn:E. cbn [fst snd] in *.
  destruct ok; [discriminate|]. intros U. injection U as <- <-.
  set (bad := fun s => Rleb (1 - dt * s) 0) in *.
  set (l := map2 divide_semi xs ss) in *.
  assert (Ex : exists i s, nth_error l i = Some s /\ bad s = true /\ existsb bad (firstn i l) = false).
  { assert (B : existsb bad l = true).
    { destruct (existsb bad l) eqn:B; auto. exfalso.
      enough (false = true) by discriminate. apply Ok. intros k s Hk.
      destruct (Rle_lt_dec (1 - dt * s) 0) as [Q|Q]; [|exact Q]. exfalso.
      assert (existsb bad l = true) by (apply existsb_exists; exists s; split; [eapply nth_error_In; eauto|apply Rleb_true; auto]). congruence. }
    clear - B. induction l as [|s l IH]; [discriminate|]. cbn in B. destruct (bad s) eqn:Es.
    - exists 0%nat, s. auto.
    - cbn in B. destruct (IH B) as (i & s' & H1 & H2 & H3). exists (S i), s'. cbn. rewrite Es. auto. }
  destruct Ex as (i & s0 & Hi & Hb & Hf). exists i.
  assert (Li : (i < length xs)%nat) by (rewrite <- L1; apply nth_error_Some; fold l; congruence).
  assert (Good : forall k s, nth_error l k = Some s -> (k < i)%nat -> 0 < 1 - dt * s).
  { intros k s Hk Hki. destruct (Rle_lt_dec (1 - dt * s) 0) as [Q|Q]; [|exact Q]. exfalso.
    assert (existsb bad (firstn i l) = true); [|congruence].
    apply existsb_exists. exists s. split; [|apply Rleb_true; auto].
    rewrite <- (firstn_nth_error l i k Hki) in Hk. eapply nth_error_In; eauto. }
  split; [exact Li|]. split; [|split].
  - intros k x s Hx Hs' Hk. apply (Good k); auto. apply map2_nth_error; auto.
  - intros x s Hx Hs'. unfold l in Hi. rewrite (map2_nth_error _ xs ss i x s Hx Hs') in Hi. injection Hi as <-.
    apply Rleb_true in Hb. exact Hb.
  - intros k x e s Hx He' Hs'.
    assert (Hk : nth_error l k = Some (divide_semi x s)) by (apply map2_nth_error; auto).
    split; [exact Hk|].
    rewrite (Val k (x + dt * e) (divide_semi x s)); [|apply (map2_nth_error (fun x e => x + dt * e)); auto|exact Hk].
    destruct (Nat.ltb_spec k i) as [Lt|Ge].
    + destruct (existsb bad (firstn (S k) l)) eqn:Ex; [|reflexivity]. exfalso.
      apply existsb_exists in Ex as (y & Hy & By). apply In_nth_error in Hy as (j & Hj).
      assert (j < S k)%nat.
      { assert (nth_error (firstn (S k) l) j <> None) by congruence. apply nth_error_Some in H.
        rewrite firstn_length in H. lia. }
      assert (nth_error l j = Some y).
      { rewrite <- (firstn_nth_error l (S k) j) by auto. exact Hj. }
      pose proof (Good j y H0 ltac:(lia)). apply Rleb_true in By. lra.
    + replace (existsb bad (firstn (S k) l)) with true; [reflexivity|]. symmetry.
      apply existsb_exists. exists s0. split; [|exact Hb].
      assert (nth_error (firstn (S k) l) i = Some s0).
      { rewrite firstn_nth_error by lia. exact Hi. }
      eapply nth_error_In; eauto.
Qed.

(** ** friction *)

(** Both kernels decelerate by a rate that is the same for both components. *)
Lemma friction_rate (sloped : bool) g eps c : 0 <= g -> 0 < eps ->
  exists f, 0 <= f /\ forall u,
  add_update (if sloped then friction_sloped_cell g eps c else friction_flat_cell g eps c) u =
  (fst u - f * f_uh c, snd u - f * f_vh c).
Proof.
  intros Hg He.
  assert (P : forall h, 0 < pow73 h) by (intros; unfold pow73, Rpower; apply exp_pos).
  assert (Z : exists f, 0 <= f /\ forall u, u = (fst u - f * f_uh c, snd u - f * f_vh c)).
  { exists 0. split; [lra|]. intros [a b]; cbn. f_equal; ring. }
  destruct sloped.
  - unfold friction_sloped_cell. destruct (Rltb _ _); [|exact Z].
    destruct (f_zv c) as [[z0 z1] z2]. destruct (f_x c) as [[[x0 y0] [x1 y1]] [x2 y2]].
    destruct (gradient _ _ _ _ _ _ _ _ _) as [zx zy]. destruct (Rleb _ _); [|exact Z].
    set (zs := sqrt (1 + zx * zx + zy * zy)). set (v := sqrt _). set (h := f_w c - _).
    exists (g * (f_eta c * f_eta c) * zs * v / pow73 h). split.
    + apply Rmult_le_pos; [|left; apply Rinv_0_lt_compat; apply P].
      apply Rmult_le_pos; [|apply sqrt_pos]. apply Rmult_le_pos; [|apply sqrt_pos].
      apply Rmult_le_pos; [lra|nra].
    + intros [a b]. cbn [add_update fst snd]. unfold Rdiv. f_equal; ring.
  - unfold friction_flat_cell. destruct (Rltb _ _); [|exact Z]. destruct (Rleb _ _); [|exact Z].
    set (v := sqrt _). set (h := f_w c - _).
    exists (g * (f_eta c * f_eta c) * v / pow73 h). split.
    + apply Rmult_le_pos; [|left; apply Rinv_0_lt_compat; apply P].
      apply Rmult_le_pos; [|apply sqrt_pos]. apply Rmult_le_pos; [lra|nra].
    + intros [a b]. cbn [add_update fst snd]. unfold Rdiv. f_equal; ring.
Qed.

Lemma divide_semi_rate x f : divide_semi x (0 - f * x) = if Reqb x 0 then 0 else - f.
Proof. unfold divide_semi. destruct (Reqb_spec x 0); [reflexivity|]. field. auto. Qed.
