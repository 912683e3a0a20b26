(** C93: rain and inflow add exactly the water that was asked for. *)
From Coq Require Import Reals List Arith Bool Lia Lra Sorted Permutation FunctionalExtensionality.
From Verif Require Import RealLib ArrayLib PolygonModel PolygonProofs PolygonProps RegionModel RegionProofs ForcingModel.
Import ListNotations.
Open Scope R_scope.

(** The water that the array [update] adds per second. *)
Definition discharge (s : site) (update : nat -> R) : R :=
  fold_right Rplus 0 (map (fun k => nth k (areas s) 0 * update k) (seq 0 (length (areas s)))).

Definition total_area (s : site) (l : list nat) : R := fold_right Rplus 0 (map (fun k => nth k (areas s) 0) l).

(** One centroid and one positive area for every triangle. *)
Definition proper (s : site) : Prop := length (centres s) = length (areas s) /\ forall k, (k < length (areas s))%nat -> 0 < nth k (areas s) 0.

Lemma discharge_upd s u k x : (k < length (areas s))%nat -> discharge s (upd u k (u k + x)) = discharge s u + x * nth k (areas s) 0.
Proof.
  intros H. unfold discharge.
  assert (G : forall l, NoDup l -> fold_right Rplus 0 (map (fun j => nth j (areas s) 0 * upd u k (u k + x) j) l) =
    fold_right Rplus 0 (map (fun j => nth j (areas s) 0 * u j) l) + (if in_dec Nat.eq_dec k l then x * nth k (areas s) 0 else 0)).
  { induction l as [|j l IH]; intros N; cbn [map fold_right]; [destruct (in_dec _ k []) as [[]|]; lra|].
    inversion N as [|? ? Nj Nl]; subst. rewrite (IH Nl). destruct (Nat.eq_dec j k) as [->|Ne].
    - rewrite upd_same. destruct (in_dec Nat.eq_dec k l); [contradiction|]. destruct (in_dec Nat.eq_dec k (k :: l)) as [_|K]; [ring|exfalso; apply K; left; reflexivity].
    - rewrite upd_other by auto. destruct (in_dec Nat.eq_dec k l) as [K|K], (in_dec Nat.eq_dec k (j :: l)) as [K'|K'].
      + ring.
      + exfalso. apply K'. right. exact K.
      + exfalso. destruct K' as [K'|K']; [auto|contradiction].
      + ring. }
  rewrite G by apply seq_NoDup. destruct (in_dec Nat.eq_dec k (seq 0 (length (areas s)))) as [_|K]; [reflexivity|].
  exfalso. apply K, in_seq. lia.
Qed.

Lemma discharge_fold s x : forall l u, (forall k, In k l -> (k < length (areas s))%nat) ->
  discharge s (fold_left (fun u k => upd u k (u k + x)) l u) = discharge s u + x * total_area s l.
Proof.
  induction l as [|k l IH]; intros u H; cbn [fold_left]; [unfold total_area; cbn; lra|].
  rewrite IH by (intros j Hj; apply H; right; exact Hj). rewrite discharge_upd by (apply H; left; reflexivity).
  unfold total_area. cbn [map fold_right]. lra.
Qed.

Lemma fold_upd_value x : forall l u k, NoDup l -> fold_left (fun u k => upd u k (u k + x)) l u k = if in_dec Nat.eq_dec k l then u k + x else u k.
Proof.
  induction l as [|j l IH]; intros u k N; cbn [fold_left].
  { destruct (in_dec Nat.eq_dec k []) as [[]|]. reflexivity. }
  inversion N as [|? ? Nj Nl]; subst. rewrite (IH _ _ Nl).
  destruct (in_dec Nat.eq_dec k l) as [K|K], (in_dec Nat.eq_dec k (j :: l)) as [K'|K'].
  - rewrite upd_other; [reflexivity|]. intros ->. contradiction.
  - exfalso. apply K'. right. exact K.
  - destruct K' as [->|K']; [|contradiction]. apply upd_same.
  - apply upd_other. intros ->. apply K'. left. reflexivity.
Qed.

Lemma sorted_nodup : forall l, StronglySorted lt l -> NoDup l.
Proof.
  induction l as [|x l IH]; intros H; constructor; inversion H as [|? ? Hs Hf]; subst; [|auto].
  intros K. rewrite Forall_forall in Hf. specialize (Hf x K). lia.
Qed.

Lemma area_sum s l : exchange_area s (Some l) = total_area s l.
Proof.
  unfold exchange_area, total_area. rewrite <- fold_left_rev_right.
  assert (G : forall m, fold_right (fun i a => a + nth i (areas s) 0) 0 m = fold_right Rplus 0 (map (fun k => nth k (areas s) 0) m)).
  { induction m as [|i m IH]; cbn; [reflexivity|]. rewrite IH. lra. }
  rewrite G. clear G.
  assert (P : forall a b, Permutation a b -> fold_right Rplus 0 (map (fun k => nth k (areas s) 0) a) = fold_right Rplus 0 (map (fun k => nth k (areas s) 0) b)).
  { intros a b H. induction H; cbn; lra. }
  apply P, Permutation_sym, Permutation_rev.
Qed.

(** The triangles that the description chooses. *)
Definition described (s : site) (center : option point) (radius : option R) (polygon : option (list point)) (k : nat) : Prop :=
  (k < length (areas s))%nat /\
  match center, radius, polygon with
  | Some c, Some r, _ => (px (nth k (centres s) (0, 0)) - px c) ^ 2 + (py (nth k (centres s) (0, 0)) - py c) ^ 2 < r ^ 2
  | _, _, Some l => point_inside l true (nth k (centres s) (0, 0)) = true
  | _, _, None => True
  end.

(** What every object created looks like. *)
Lemma made s r center radius polygon default inflow f : proper s -> make_forcing s r center radius polygon default inflow = inr f ->
  its_rate f = r /\ is_inflow f = inflow /\ 0 < area f /\
  match place f with
  | None => area f = polygon_area (bounding_polygon s) /\ center = None /\ radius = None /\ polygon = None
  | Some l => area f = total_area s l /\ NoDup l /\ l <> [] /\ (center <> None \/ polygon <> None) /\ forall k, In k l <-> described s center radius polygon k
  end /\
  default_rate f = match default with None | Some (Constant None) => None | Some (Constant (Some x)) => Some (fun _ => Value x) | Some (Function g) => Some g end.
Proof.
  intros (L & _) H.
  assert (Ex : exists ind, exchange_indices s center radius polygon = ind /\ ind <> Some [] /\ 0 < exchange_area s ind /\
     (polygon = None \/ (center = None /\ radius = None)) /\ ((center = None /\ radius = None) \/ exists c rd, center = Some c /\ radius = Some rd) /\
     f = {| place := ind; area := exchange_area s ind; its_rate := r; default_rate := default_rate f; is_inflow := inflow |} /\
     default_rate f = match default with None | Some (Constant None) => None | Some (Constant (Some x)) => Some (fun _ => Value x) | Some (Function g) => Some g end).
  { exists (exchange_indices s center radius polygon). split; [reflexivity|]. unfold make_forcing in H.
    assert (Gen : forall ind, exchange_indices s center radius polygon = ind ->
      match ind with
      | Some [] => inl NoTriangles
      | _ =>
              if Rltb 0 (exchange_area s ind) then
                match default with
                | None => inr {| place := ind; area := exchange_area s ind; its_rate := r; default_rate := None; is_inflow := inflow |}
                | Some (Constant None) => inr {| place := ind; area := exchange_area s ind; its_rate := r; default_rate := None; is_inflow := inflow |}
                | Some (Constant (Some x)) => inr {| place := ind; area := exchange_area s ind; its_rate := r; default_rate := Some (fun _ => Value x); is_inflow := inflow |}
                | Some (Function f) =>
                    match f 0 with
                    | Value _ | NoRate => inr {| place := ind; area := exchange_area s ind; its_rate := r; default_rate := Some f; is_inflow := inflow |}
                    | _ => inl BadDefault
                    end
                end
              else inl NoArea
      end = inr f ->
      ind <> Some [] /\ 0 < exchange_area s ind /\
      f = {| place := ind; area := exchange_area s ind; its_rate := r; default_rate := default_rate f; is_inflow := inflow |} /\
      default_rate f = match default with None | Some (Constant None) => None | Some (Constant (Some x)) => Some (fun _ => Value x) | Some (Function g) => Some g end).
    { intros ind _ G. assert (Ni : ind <> Some []) by (intros ->; discriminate). split; [exact Ni|].
      assert (G' : (if Rltb 0 (exchange_area s ind) then
                match default with
                | None => inr {| place := ind; area := exchange_area s ind; its_rate := r; default_rate := None; is_inflow := inflow |}
                | Some (Constant None) => inr {| place := ind; area := exchange_area s ind; its_rate := r; default_rate := None; is_inflow := inflow |}
                | Some (Constant (Some x)) => inr {| place := ind; area := exchange_area s ind; its_rate := r; default_rate := Some (fun _ => Value x); is_inflow := inflow |}
                | Some (Function f) =>
                    match f 0 with
                    | Value _ | NoRate => inr {| place := ind; area := exchange_area s ind; its_rate := r; default_rate := Some f; is_inflow := inflow |}
                    | _ => inl BadDefault
                    end
                end
              else inl NoArea) = inr f) by (destruct ind as [[|]|]; [contradiction|exact G|exact G]).
      destruct (Rltb 0 (exchange_area s ind)) eqn:Ea; [|discriminate]. apply Rltb_true in Ea. split; [exact Ea|].
      destruct default as [[[x|]|g]|]; [| |destruct (g 0)|]; try discriminate; injection G' as <-; auto. }
    destruct center as [c|], radius as [rd|]; try discriminate.
    - destruct polygon as [l|]; [discriminate|]. cbn [given] in H. destruct (forallb (in_domain s) (c :: periphery c rd)); [|discriminate]. cbn [negb] in H.
      destruct (Gen _ eq_refl H) as (G1 & G2 & G3 & G4). repeat split; auto. right. exists c, rd. auto.
    - cbn [negb] in H. destruct (negb _) in H; [discriminate|].
      destruct (Gen _ eq_refl H) as (G1 & G2 & G3 & G4). repeat split; auto. }
  destruct Ex as (ind & Ei & Ni & Ap & P1 & P2 & Ef & Ed).
  rewrite Ef. cbn [its_rate is_inflow area place default_rate]. repeat (split; [solve [auto]|]). split; [|rewrite <- Ed; reflexivity].
  destruct ind as [l|].
  - split; [apply area_sum|]. unfold exchange_indices in Ei. destruct polygon as [pl|].
    + injection Ei as <-. split; [apply sorted_nodup, inside_sorted|]. split; [intros K; apply Ni; rewrite K; reflexivity|]. split; [right; discriminate|].
      intros k. rewrite inside_in, L. destruct P1 as [P1|(-> & ->)]; [discriminate|]. unfold described. tauto.
    + destruct P2 as [(-> & ->)|(c & rd & -> & ->)]; [discriminate|]. injection Ei as <-.
      split; [apply sorted_nodup, filter_sorted, seq_sorted|]. split; [intros K; apply Ni; rewrite K; reflexivity|]. split; [left; discriminate|].
      intros k. unfold circle_exchange, described. rewrite filter_In, in_seq, L. unfold in_circle. rewrite Rltb_true. cbn [pow]. rewrite !Rmult_1_r.
      cbn [Nat.add]. intuition lia.
  - split; [reflexivity|]. unfold exchange_indices in Ei. destruct polygon; [discriminate|].
    destruct P2 as [(-> & ->)|(c & rd & -> & ->)]; [auto|discriminate].
Qed.

(** An inflow with a described place, when the rate gives the number [q] m^3/s:
    exactly [q] per second is added, spread evenly over the triangles described,
    and nothing elsewhere. *)
Theorem C93_inflow :
  forall s r center radius polygon default f t q update, proper s -> make_inflow s r center radius polygon default = inr f ->
  center <> None \/ polygon <> None ->
  match r with Constant (Some x) => q = x | Constant None => False | Function g => g t = Value q end ->
  exists update', call_forcing f (length (areas s)) t update = inr update' /\
  discharge s update' = discharge s update + q /\
  (forall k, ~ described s center radius polygon k -> update' k = update k) /\
  (forall j k, described s center radius polygon j -> described s center radius polygon k -> update' j - update j = update' k - update k).
Proof.
  intros s r center radius polygon default f t q update Ps Hf Hp Hr. destruct (made _ _ _ _ _ _ _ _ Ps Hf) as (Er & Ei & Ap & Pl & _).
  assert (Eu : update_rate f t = Value (q / area f)).
  { unfold update_rate. rewrite Er, Ei. destruct r as [[x|]|g]; [subst q; reflexivity|contradiction|rewrite Hr; reflexivity]. }
  unfold call_forcing. rewrite Eu. eexists. split; [reflexivity|]. unfold apply_rate.
  destruct (place f) as [l|].
  - destruct Pl as (Ea & Nd & _ & _ & Hl). split; [|split].
    + rewrite discharge_fold by (intros k Hk; apply Hl in Hk; apply Hk). rewrite <- Ea. field. lra.
    + intros k Hk. rewrite fold_upd_value by exact Nd. destruct (in_dec Nat.eq_dec k l) as [K|K]; [apply Hl in K; contradiction|reflexivity].
    + intros j k Hj Hk. apply Hl in Hj, Hk. rewrite !fold_upd_value by exact Nd.
      destruct (in_dec Nat.eq_dec j l); [|contradiction]. destruct (in_dec Nat.eq_dec k l); [|contradiction]. ring.
  - destruct Pl as (_ & -> & _ & ->). destruct Hp as [Hp|Hp]; contradiction.
Qed.
Print Assumptions C93_inflow.

(** Without a place, the inflow is spread over all triangles; what arrives is
    [q] times the area of the mesh over that of the boundary polygon. *)
Theorem C93_inflow_everywhere :
  forall s r default f t q update, proper s -> make_inflow s r None None None default = inr f ->
  match r with Constant (Some x) => q = x | Constant None => False | Function g => g t = Value q end ->
  exists update', call_forcing f (length (areas s)) t update = inr update' /\
  discharge s update' = discharge s update + q * (total_area s (seq 0 (length (areas s))) / polygon_area (bounding_polygon s)) /\
  forall k, (k < length (areas s))%nat -> update' k = update k + q / polygon_area (bounding_polygon s).
Proof.
  intros s r default f t q update Ps Hf Hr. destruct (made _ _ _ _ _ _ _ _ Ps Hf) as (Er & Ei & Ap & Pl & _).
  assert (Eu : update_rate f t = Value (q / area f)).
  { unfold update_rate. rewrite Er, Ei. destruct r as [[x|]|g]; [subst q; reflexivity|contradiction|rewrite Hr; reflexivity]. }
  unfold call_forcing. rewrite Eu. eexists. split; [reflexivity|]. unfold apply_rate.
  destruct (place f) as [l|].
  - exfalso. destruct Pl as (_ & _ & _ & [K|K] & _); contradiction.
  - destruct Pl as (Ea & _). split.
    + rewrite discharge_fold by (intros k Hk; apply in_seq in Hk; lia). rewrite Ea. field. rewrite <- Ea. lra.
    + intros k Hk. rewrite fold_upd_value by apply seq_NoDup. destruct (in_dec Nat.eq_dec k (seq 0 (length (areas s)))) as [_|K]; [rewrite Ea; reflexivity|].
      exfalso. apply K, in_seq. lia.
Qed.
Print Assumptions C93_inflow_everywhere.

(** Rain of [q] mm/s raises the water in every triangle described by [q]/1000
    m/s, and nothing elsewhere. *)
Theorem C93_rainfall :
  forall s r center radius polygon default f t q update, proper s -> make_rainfall s r center radius polygon default = inr f ->
  match r with Constant (Some x) => q = x | Constant None => False | Function g => g t = Value q end ->
  exists update', call_forcing f (length (areas s)) t update = inr update' /\
  forall k, (described s center radius polygon k -> update' k = update k + q / 1000) /\
            (~ described s center radius polygon k -> (k < length (areas s))%nat -> update' k = update k).
Proof.
  intros s r center radius polygon default f t q update Ps Hf Hr. unfold make_rainfall in Hf.
  destruct (rain_rate r) as [r'|] eqn:Err; [|discriminate].
  assert (M : exists d, make_forcing s r' center radius polygon d false = inr f).
  { destruct default as [[[x|]|g]|]; cbn [rain_rate] in Hf; eexists; exact Hf. }
  destruct M as (d & M). destruct (made _ _ _ _ _ _ _ _ Ps M) as (Er & Ei & Ap & Pl & _).
  assert (Eu : update_rate f t = Value (q / 1000)).
  { unfold update_rate. rewrite Er, Ei. destruct r as [[x|]|g]; cbn [rain_rate] in Err; [| discriminate|]; injection Err as <-; [subst q; reflexivity|rewrite Hr; reflexivity]. }
  unfold call_forcing. rewrite Eu. eexists. split; [reflexivity|]. unfold apply_rate. intros k.
  destruct (place f) as [l|].
  - destruct Pl as (_ & Nd & _ & _ & Hl). rewrite fold_upd_value by exact Nd.
    split; intros Hk; (destruct (in_dec Nat.eq_dec k l) as [K|K]; [|try reflexivity]); [reflexivity|apply Hl in Hk; contradiction|apply Hl in K; contradiction].
  - destruct Pl as (_ & -> & -> & ->). rewrite fold_upd_value by apply seq_NoDup.
    destruct (in_dec Nat.eq_dec k (seq 0 (length (areas s)))) as [K|K].
    + split; [reflexivity|]. intros Hk _. exfalso. apply Hk. split; [apply in_seq in K; lia|exact I].
    + split; [|reflexivity]. intros (Hk & _). exfalso. apply K, in_seq. lia.
Qed.
Print Assumptions C93_rainfall.

(** When the data of the rate have ended: the default, if there is one, and
    otherwise an error; before they begin always an error.  Nothing is added
    when there is an error. *)
Theorem C93_default :
  forall s r center radius polygon default f n t update g, proper s -> make_forcing s r center radius polygon default false = inr f -> r = Function g ->
  (g t = TooEarly -> call_forcing f n t update = inl ModelTimeTooEarly) /\
  (g t = TooLate -> default = None -> call_forcing f n t update = inl ModelTimeTooLate) /\
  (forall x, g t = TooLate -> default = Some (Constant (Some x)) -> call_forcing f n t update = inr (apply_rate f n update x)) /\
  (forall h x, g t = TooLate -> default = Some (Function h) -> h t = Value x -> call_forcing f n t update = inr (apply_rate f n update x)).
Proof.
  intros s r center radius polygon default f n t update g Ps Hf ->. destruct (made _ _ _ _ _ _ _ _ Ps Hf) as (Er & Ei & Ap & Pl & Ed).
  unfold call_forcing, update_rate. rewrite Er, Ei, Ed. repeat split.
  - intros ->. reflexivity.
  - intros -> ->. reflexivity.
  - intros x -> ->. reflexivity.
  - intros h x -> -> Hh. rewrite Hh. reflexivity.
Qed.
Print Assumptions C93_default.

(** The order of the terms does not matter. *)
Lemma apply_fold f n u x : exists l, apply_rate f n u x = fold_left (fun u k => upd u k (u k + x)) l u /\ (forall u', apply_rate f n u' x = fold_left (fun u k => upd u k (u k + x)) l u').
Proof. unfold apply_rate. destruct (place f) as [l|]; eexists; split; reflexivity. Qed.

Lemma fold_add_exchange x : forall l u k, fold_left (fun u k => upd u k (u k + x)) l u k = u k + x * INR (count_occ Nat.eq_dec l k).
Proof.
  induction l as [|j l IH]; intros u k; cbn [fold_left count_occ]; [cbn; lra|]. rewrite IH. destruct (Nat.eq_dec j k) as [->|Ne].
  - rewrite upd_same, S_INR. ring.
  - rewrite upd_other by auto. reflexivity.
Qed.

Lemma call_value f n t : (exists e, forall u, call_forcing f n t u = inl e) \/ (exists x, forall u, call_forcing f n t u = inr (apply_rate f n u x)).
Proof.
  unfold call_forcing. destruct (update_rate f t) as [x| | | |]; [right; exists x; auto|left; eexists; auto|left; eexists; auto| |left; eexists; auto].
  destruct (default_rate f) as [g|]; [|left; eexists; auto]. destruct (g t) as [x| | | |]; [right; exists x; auto| | | |]; left; eexists; auto.
Qed.

Theorem C93_order :
  forall fs fs' n t update u, Permutation fs fs' -> call_all fs n t update = inr u -> call_all fs' n t update = inr u.
Proof.
  intros fs fs' n t update u P. revert update u. induction P as [|f a b P IH|f g a|a b c P1 IH1 P2 IH2]; intros update u H.
  - exact H.
  - cbn [call_all] in *. destruct (call_forcing f n t update); [discriminate|]. apply IH, H.
  - cbn [call_all] in *. destruct (call_value f n t) as [(e & Ef)|(x & Ef)], (call_value g n t) as [(e' & Eg)|(y & Eg)];
      rewrite ?Ef, ?Eg in *; try rewrite Ef in H; try rewrite Eg in H; try discriminate.
    assert (E : apply_rate f n (apply_rate g n update y) x = apply_rate g n (apply_rate f n update x) y); [|rewrite <- E; exact H].
    destruct (apply_fold f n update x) as (l & _ & Hl), (apply_fold g n update y) as (m & _ & Hm). rewrite !Hl, !Hm. extensionality k.
    rewrite !fold_add_exchange. ring.
  - apply IH2, IH1, H.
Qed.
Print Assumptions C93_order.

(** [get_quantity_values] reads the quantity that is asked for, in the triangles
    of the place. *)
Theorem C93_values :
  forall f own name n q l, place f = Some l -> get_quantity_values f own (Some name) n q = map (q name) l /\ get_quantity_values f own None n q = map (q own) l.
Proof. intros f own name n q l H. unfold get_quantity_values. rewrite H. auto. Qed.
Print Assumptions C93_values.

(** ** What goes wrong *)

(** [set_quantity_values] sets the quantity of the forcing term, whatever
    quantity is asked for. *)
Theorem C93_set_values_refuted :
  forall f own name val q k, name <> own ->
  set_quantity_values f own (Some name) val q name k = q name k /\ set_quantity_values f own (Some name) val q = set_quantity_values f own None val q.
Proof. intros f own name val q k Ne. unfold set_quantity_values. split; [rewrite upd_other by exact Ne; reflexivity|reflexivity]. Qed.
Print Assumptions C93_set_values_refuted.

(** The default rate of an inflow, in m^3/s like the rate, is not divided by the
    area: [area] times too much (or too little) water. *)
Theorem C93_default_inflow_refuted :
  forall s g center radius polygon x f t update, proper s ->
  make_inflow s (Function g) center radius polygon (Some (Constant (Some x))) = inr f -> center <> None \/ polygon <> None -> g t = TooLate ->
  exists update', call_forcing f (length (areas s)) t update = inr update' /\ discharge s update' = discharge s update + x * area f.
Proof.
  intros s g center radius polygon x f t update Ps Hf Hp Hg. destruct (made _ _ _ _ _ _ _ _ Ps Hf) as (Er & Ei & Ap & Pl & Ed).
  unfold call_forcing, update_rate. rewrite Er, Ei, Hg, Ed. cbn [divided]. eexists. split; [reflexivity|]. unfold apply_rate.
  destruct (place f) as [l|].
  - destruct Pl as (Ea & _ & _ & _ & Hl). rewrite discharge_fold by (intros k Hk; apply Hl in Hk; apply Hk). rewrite <- Ea. reflexivity.
  - destruct Pl as (_ & -> & _ & ->). destruct Hp as [Hp|Hp]; contradiction.
Qed.
Print Assumptions C93_default_inflow_refuted.

(** A frame: the square of side 3 without the unit square in the middle, in 16
    triangles of area 1/2. *)
Definition frame_centres : list point :=
  flat_map (fun c : point => [(px c + 1 / 3, py c + 1 / 3); (px c + 2 / 3, py c + 2 / 3)]) [(0, 0); (1, 0); (2, 0); (0, 1); (2, 1); (0, 2); (1, 2); (2, 2)].
Definition frame : site := {| centres := frame_centres; areas := repeat (1 / 2) 16; bounding_polygon := [(0, 0); (3, 0); (3, 3); (0, 3)] |}.

Lemma frame_proper : proper frame.
Proof. split; [reflexivity|]. intros k Hk. cbn in Hk. do 16 (destruct k as [|k]; [cbn; lra|]). lia. Qed.

Lemma frame_area : polygon_area (bounding_polygon frame) = 9.
Proof.
  unfold polygon_area, list_min. cbn [frame bounding_polygon map fold_left px py fst snd].
  repeat match goal with |- context [Rltb ?a ?b] => first [rewrite (proj2 (Rltb_true a b)) by lra | rewrite (proj2 (Rltb_false a b)) by lra] end.
  cbn [length seq fold_left nth Nat.eqb Nat.sub Nat.add px py fst snd].
  rewrite Rabs_right; lra.
Qed.

(** Of an inflow of 9 m^3/s over a domain with a hole, 8 arrive. *)
Theorem C93_hole_refuted :
  proper frame /\ exists f update', make_inflow frame (Constant (Some 9)) None None None None = inr f /\
  call_forcing f 16 0 (fun _ => 0) = inr update' /\ discharge frame update' = 8.
Proof.
  split; [exact frame_proper|].
  assert (E : exists f, make_inflow frame (Constant (Some 9)) None None None None = inr f).
  { unfold make_inflow, make_forcing. cbn [negb exchange_indices]. rewrite (proj2 (Rltb_true 0 (exchange_area frame None))) by (cbn [exchange_area]; rewrite frame_area; lra).
    eexists. reflexivity. }
  destruct E as (f & E). exists f.
  destruct (C93_inflow_everywhere frame (Constant (Some 9)) None f 0 9 (fun _ => 0) frame_proper E eq_refl) as (u & Hu & Hd & _).
  exists u. split; [exact E|]. split; [exact Hu|]. rewrite Hd, frame_area. unfold discharge, total_area. cbn [frame areas repeat length seq map nth fold_right]. lra.
Qed.
Print Assumptions C93_hole_refuted.

(** On several processes every process adds its share of the whole rate to its
    own triangles (the first [own] of its mesh): with two processes of four
    triangles, of which one is a copy, half as much again. *)
Definition half_of_two : site := {| centres := repeat (0, 0) 4; areas := repeat 1 4; bounding_polygon := [(0, 0); (2, 0); (2, 2); (0, 2)] |}.
Definition owned_discharge (s : site) (own : nat) (update : nat -> R) : R :=
  fold_right Rplus 0 (map (fun k => nth k (areas s) 0 * update k) (seq 0 own)).

Theorem C93_parallel_refuted :
  exists f u, make_inflow half_of_two (Constant (Some 12)) None None None None = inr f /\ call_forcing f 4 0 (fun _ => 0) = inr u /\
  owned_discharge half_of_two 3 u + owned_discharge half_of_two 3 u = 18.
Proof.
  assert (Pr : proper half_of_two).
  { split; [reflexivity|]. intros k Hk. cbn in Hk. do 4 (destruct k as [|k]; [cbn; lra|]). lia. }
  assert (A : polygon_area (bounding_polygon half_of_two) = 4).
  { unfold polygon_area, list_min. cbn [half_of_two bounding_polygon map fold_left px py fst snd].
    repeat match goal with |- context [Rltb ?a ?b] => first [rewrite (proj2 (Rltb_true a b)) by lra | rewrite (proj2 (Rltb_false a b)) by lra] end.
    cbn [length seq fold_left nth Nat.eqb Nat.sub Nat.add px py fst snd]. rewrite Rabs_right; lra. }
  assert (E : exists f, make_inflow half_of_two (Constant (Some 12)) None None None None = inr f).
  { unfold make_inflow, make_forcing. cbn [negb exchange_indices]. rewrite (proj2 (Rltb_true 0 (exchange_area half_of_two None))) by (cbn [exchange_area]; rewrite A; lra).
    eexists. reflexivity. }
  destruct E as (f & E). exists f.
  destruct (C93_inflow_everywhere half_of_two (Constant (Some 12)) None f 0 12 (fun _ => 0) Pr E eq_refl) as (u & Hu & _ & Hk).
  exists u. split; [exact E|]. split; [exact Hu|]. unfold owned_discharge. cbn [half_of_two areas repeat length] in Hk.
  cbn [half_of_two areas repeat seq map nth fold_right]. rewrite (Hk 0%nat), (Hk 1%nat), (Hk 2%nat) by lia. rewrite A. lra.
Qed.
Print Assumptions C93_parallel_refuted.

(** A negative rate takes water that is not there: an outflow of any size, over
    any time step, is applied to a dry place. *)
Theorem C93_drain_refuted :
  forall s q center radius polygon f t dt h, proper s -> q < 0 -> 0 < dt -> make_inflow s (Constant (Some q)) center radius polygon None = inr f ->
  center <> None \/ polygon <> None -> h = 0 ->
  exists update' k, call_forcing f (length (areas s)) t (fun _ => 0) = inr update' /\ described s center radius polygon k /\ h + dt * update' k < 0.
Proof.
  intros s q center radius polygon f t dt h Ps Hq Hdt Hf Hp ->. destruct (made _ _ _ _ _ _ _ _ Ps Hf) as (Er & Ei & Ap & Pl & _).
  unfold call_forcing, update_rate. rewrite Er, Ei. cbn [divided]. unfold apply_rate. destruct (place f) as [l|].
  - destruct Pl as (_ & Nd & Nl & _ & Hl). destruct l as [|k l]; [contradiction|]. eexists. exists k. split; [reflexivity|].
    split; [apply Hl; left; reflexivity|]. rewrite fold_upd_value by exact Nd.
    destruct (in_dec Nat.eq_dec k (k :: l)) as [_|K]; [|exfalso; apply K; left; reflexivity].
    assert (0 < - q / area f) by (apply Rdiv_lt_0_compat; lra). assert (0 < dt * (- q / area f)) by (apply Rmult_lt_0_compat; lra). unfold Rdiv in *. lra.
  - destruct Pl as (_ & -> & _ & ->). destruct Hp as [Hp|Hp]; contradiction.
Qed.
Print Assumptions C93_drain_refuted.

(** [None] as the rate, to be filled in later, is refused by [Rainfall] and
    fails in [Inflow] with a TypeError instead of the message intended. *)
Theorem C93_none_refuted :
  (forall s center radius polygon default, make_rainfall s (Constant None) center radius polygon default = inl DividesNone) /\
  (forall s center radius polygon default f n t u, proper s -> make_inflow s (Constant None) center radius polygon default = inr f ->
     call_forcing f n t u = inl DividesNone).
Proof.
  split; [reflexivity|]. intros s center radius polygon default f n t u Ps Hf. destruct (made _ _ _ _ _ _ _ _ Ps Hf) as (Er & Ei & _).
  unfold call_forcing, update_rate. rewrite Er, Ei. reflexivity.
Qed.
Print Assumptions C93_none_refuted.

(** On the frame, rain can be made, and a circle takes some of its triangles. *)
Example C93_case : proper frame /\ exists f, make_rainfall frame (Constant (Some 1)) None None None (Some (Function (fun _ => Value 2))) = inr f /\
  described frame None None None 3 /\ described frame (Some (0, 0)) (Some 1) None 0 /\ ~ described frame (Some (0, 0)) (Some 1) None 2.
Proof.
  split; [exact frame_proper|].
  unfold make_rainfall, make_forcing. cbn [rain_rate negb exchange_indices divided].
  rewrite (proj2 (Rltb_true 0 (exchange_area frame None))) by (cbn [exchange_area]; rewrite frame_area; lra).
  eexists. split; [reflexivity|]. unfold described. cbn [frame areas repeat length centres frame_centres flat_map app nth px py fst snd].
  repeat split; try lia; try lra.
Qed.
