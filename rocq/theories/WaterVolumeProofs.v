(** Proofs about the report of the volume of water *)
From Coq Require Import Reals List Bool Lra Lia Permutation.
From Verif Require Import RealLib WaterVolumeModel.
Import ListNotations.
Local Open Scope R_scope.

Lemma fold_plus l : forall v, fold_left Rplus l v = v + Rsum l.
Proof. induction l as [|a l IH]; intros v; cbn [fold_left Rsum]; [lra|]. rewrite IH. lra. Qed.

Lemma exchange_total l : exchange l = map (fun _ => Rsum l) l.
Proof.
  destruct l as [|v [|w l]]; [reflexivity|cbn; f_equal; lra|].
  unfold exchange. cbv zeta. rewrite fold_plus. reflexivity.
Qed.

Lemma integral_concat f ps : Rsum (map (get_integral f) ps) = Rsum (map (fun t => area t * f t) (concat (map (filter full) ps))).
Proof. induction ps as [|p ps IH]; [reflexivity|]. cbn [map Rsum concat]. rewrite IH, map_app, Rsum_app. reflexivity. Qed.

Definition shown (evolved discontinuous : bool) (t : triangle) : R :=
  if negb evolved then stage t - elevation t else if discontinuous then height t else difference t.
Lemma local_shown e d p : local_volume e d p = get_integral (shown e d) p.
Proof. unfold local_volume, shown. destruct e, d; reflexivity. Qed.

Lemma reports_from d h : h <> [] -> forall ms, reports d h ms =
  map (fun m => hd 0 (get_water_volume (evolved m) d (processes m)) - hd 0 (exchange (flux m)) - hd 0 (exchange (fractional m)) - hd 0 h) ms.
Proof.
  intros Ne ms. revert h Ne. induction ms as [|m ms IH]; intros h Ne; [reflexivity|].
  cbn [reports]. unfold report_statistics. cbv zeta. destruct h as [|h0 h]; [congruence|].
  rewrite IH by discriminate. reflexivity.
Qed.
