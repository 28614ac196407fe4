(** Property theorem C99: from a million samples on one unlucky resample makes
    curve_boot fail in double precision.  Model: PerfCurves.v, CurveBoot.v. *)
From Coq Require Import Reals ZArith Lra Lia List Bool.
From Flocq Require Import Core BinarySingleNaN.
From Verif Require Import PyBase F64 F64Lemmas Num NumOk Util UtilProofs ListLemmas BootUtil BootProofs2 BootProofs4
  PerfCurves PerfProofs PerfProofs2 PerfProofs7 PerfProofs8 PerfProofs9 CurveBoot CurveProofs3 CurveProofs5 CurveProofs6 CurveProofs7 CurveProofs8 Props_Boot.
Import ListNotations.
Open Scope list_scope.
Open Scope Z_scope.

(** ** The specification *)
(** one resample of n samples with replacement: how often each one was drawn *)
Definition resample (n : Z) (ks : list Z) : Prop := Z.of_nat (length ks) = n /\ Forall (fun k => 0 <= k) ks /\ fold_right Z.add 0 ks = n.
(** log probabilities with two columns *)
Definition log_probs (m : list (list f64)) : Prop :=
  Forall (fun r => length r = 2%nat /\ Forall (fun v => fisfin v = true /\ fleb v f0 = true) r) m.

Section Large.
  Context (k : nat).
  Hypothesis (K : 2 ^ 20 <= Z.of_nat k <= 2 ^ 30 - 2).

  Let y : list Z := 0 :: repeat 1 (S k).
  Let preds : list (list f64) := map (fun v => [f_of_Z (-1); v]) (big_s k).

  Lemma ylen : Z.of_nat (length y) = Z.of_nat k + 2.
  Proof. unfold y. cbn [length]. rewrite repeat_length. lia. Qed.
  Lemma y_bits : map (fun v => negb (v =? 0)) y = big_y k.
  Proof. unfold y, big_y. cbn [map]. f_equal. generalize (S k). induction n as [|n IH]; [reflexivity|]. cbn [repeat map]. now rewrite IH. Qed.
  Lemma plen : length preds = length y.
  Proof. unfold preds, y, big_s. rewrite map_length. cbn [length]. now rewrite !repeat_length. Qed.
  Lemma pcol : col1 preds = big_s k.
  Proof. unfold col1, preds. rewrite map_map. cbn [nth]. apply map_id. Qed.
  Lemma s_vals v : In v (big_s k) -> v = f_of_Z (-1) \/ v = f_of_Z (-2).
  Proof. intros [<-|H]; [now left|]. apply repeat_spec in H. now right. Qed.
  Lemma preds_log : log_probs preds.
  Proof.
    apply Forall_forall. intros r Hr. apply in_map_iff in Hr as (v & <- & Hv). split; [reflexivity|]. 
    constructor; [vm_compute; auto|]. constructor; [|constructor]. destruct (s_vals v Hv) as [->| ->]; vm_compute; auto.
  Qed.
  Lemma preds_notnan : existsb (existsb nisnan) preds = false.
  Proof.
    apply not_true_iff_false. intros H. apply existsb_exists in H as (r & Hr & N). apply in_map_iff in Hr as (v & <- & Hv).
    destruct (s_vals v Hv) as [->| ->]; vm_compute in N; discriminate.
  Qed.

  Lemma plain_works : works2 near_area in01f recall_precision_curve (big_y k) (big_s k) None 1 /\ works2 gain_area pgain prg_curve (big_y k) (big_s k) None 1.
  Proof.
    assert (length (big_s k) = S (S k)) as Ls by (unfold big_s; cbn [length]; now rewrite repeat_length).
    assert (length (big_y k) = S (S k)) as Lb by (unfold big_y; cbn [length]; now rewrite repeat_length).
    assert (thr (big_s k) = [f_of_Z (-1); f_of_Z (-2)]) as Et.
    { unfold thr. rewrite <- (take_tidx_mask (big_s k) (sorted_scores (big_s k))) by (apply sorted_scores_length || (intros Z; rewrite Z in Ls; discriminate)).
      unfold tidx, sorted_scores. rewrite big_desc, big_scores. change (diff (big_s k)) with (diff (f_of_Z (-1) :: repeat (f_of_Z (-2)) (S k))). rewrite big_tidx, Ls. replace (S (S k) - 1)%nat with (S k) by lia.
      unfold big_s, take. cbn [app flat_map nth_error]. rewrite (nth_error_nth' _ (f_of_Z (-2))) by (rewrite repeat_length; lia). rewrite nth_repeat. reflexivity. }
    destruct (clf_unweighted_f64 (big_s k) (big_y k)) as (f & t & E & G).
    - apply Forall_forall. intros v Hv. destruct (s_vals v Hv) as [->| ->]; vm_compute; reflexivity.
    - lia.
    - discriminate.
    - rewrite Lb. lia.
    - rewrite Et in *. destruct (curves_work2 _ _ _ _ _ _ E G) as (_ & A & B); [discriminate|cbn; lia|cbn; lia|]. split; [exact A|exact B].
  Qed.

  Lemma fails (QA QG : f64 -> Prop) (f : curve_fun f64) : works2 QA QG f (big_y k) (big_s k) None 1 ->
    (forall sw g, In (map W (big_ks k)) sw -> (do r <- f (big_y k) (big_s k) (Some sw); check_curve r g) = Err AssertionError) ->
    forall counts n_boot ref g pairwise c, In (big_ks k) counts -> 1 <= n_boot -> good_ref ref (length y) -> good_grid g ->
    curve_boot counts Ki y preds 2 ref f g n_boot pairwise c = Err AssertionError.
  Proof.
    intros W0 WB counts n_boot ref g pairwise c I Nb Vr Vg. destruct (the_grid_ok g Vg) as [Ug Ng].
    pose proof ylen as Ly. unfold curve_boot, shape_and_validate. rewrite plen.
    assert ((1 <=? Z.of_nat (length y)) = true) as -> by (apply Z.leb_le; lia). cbn [py_assert bind].
    change (1 <=? Z.of_nat 2) with true. cbn [py_assert bind]. rewrite Z.eqb_refl. cbn [dkind_eqb orb andb py_assert bind].
    assert (forallb (fun v => (0 <=? v)) y = true /\ forallb (fun v => (v <? Z.of_nat 2)) y = true) as [-> ->].
    { split; apply forallb_forall; intros v [<-|Hv]; try reflexivity; apply repeat_spec in Hv; subst; reflexivity. }
    cbn [andb py_assert bind]. change (Z.of_nat 2 =? 2) with true. cbn [py_assert bind].
    assert (match ref with
            | RefScalar _ => true
            | RefPred m => (length m =? length y)%nat && forallb (fun r => (length r =? 2)%nat) m
            end = true) as ->.
    { destruct ref as [r|m]; auto. destruct Vr as [V1 V2]. rewrite V1, Nat.eqb_refl. cbn [andb].
      apply forallb_forall. intros r Hr. unfold pred_rows in V2. rewrite Forall_forall in V2. destruct (V2 r Hr) as (-> & _). reflexivity. }
    cbn [py_assert bind].
    assert (match ref with RefScalar r => nisnan r | RefPred m => existsb (existsb nisnan) m end = false) as ->.
    { destruct ref as [r|m]; [exact Vr|apply rows_notnan, Vr]. }
    cbn [negb py_assert bind]. rewrite (proj2 (Z.leb_le _ _) Nb). cbn [py_assert bind]. rewrite preds_notnan. cbn [negb py_assert bind].
    change (match g with None => default_grid | Some g0 => g0 end) with (the_grid g). rewrite y_bits, pcol.
    destruct W0 as (rows0 & k0 & th0 & ar0 & E0 & _ & A0 & Q0 & LA0 & I0). rewrite E0. cbn [bind]. destruct (I0 _ Ng Ug) as (C0 & out0 & O0 & Lo0 & Fo0).
    rewrite C0. cbn [bind]. rewrite A0. cbn [bind fst snd].
    destruct ar0 as [|auc [|]]; cbn in LA0; [lia| |lia]. cbn [unpack1 bind].
    rewrite O0. cbn [bind]. destruct out0 as [|yg [|]]; cbn in Lo0; [lia| |lia]. cbn [unpack1 bind].
    assert (boot_weights counts (Z.of_nat (length y)) n_boot (ndiv n1 (nofZ (10 ^ 10))) = Ok (map (map W) counts)) as ->.
    { unfold boot_weights. rewrite (proj2 (Z.leb_le _ _) Nb). assert ((1 <=? Z.of_nat (length y))%Z = true) as -> by (apply Z.leb_le; lia). reflexivity. }
    cbn [bind]. specialize (WB (map (map W) counts) (Some (the_grid g)) (in_map (map W) _ _ I)).
    destruct (f (big_y k) (big_s k) (Some (map (map W) counts))) as [r|e]; cbn [bind] in *; [|injection WB as ->; reflexivity]. rewrite WB. reflexivity.
  Qed.
End Large.

(** ** C99 *)
(** For every number of samples from 2^20 + 2 (to 2^30) there are labels with one
    negative, log probabilities and one resample that draws no sample more than
    twice such that both the recall-precision and the precision-recall-gain
    curve raise AssertionError as soon as this resample is among those drawn,
    whatever the reference, the grid, the number of resamples and the confidence
    are. *)
Theorem C99_large_samples_refuted :
  forall n, 2 ^ 20 + 2 <= n <= 2 ^ 30 ->
  exists y preds ks, Z.of_nat (length y) = n /\ Forall (fun v => v = 0 \/ v = 1) y /\ In 0 y /\ In 1 y /\
    length preds = length y /\ log_probs preds /\ resample n ks /\ Forall (fun k => k <= 2) ks /\
    forall counts n_boot ref g pairwise c, multinomial_outcome n n_boot counts -> In ks counts -> 1 <= n_boot ->
      good_ref ref (length y) -> good_grid g ->
      curve_boot counts Ki y preds 2 ref recall_precision_curve g n_boot pairwise c = Err AssertionError /\
      curve_boot counts Ki y preds 2 ref prg_curve g n_boot pairwise c = Err AssertionError.
Proof.
  intros n Hn. set (k := Z.to_nat (n - 2)). assert (Z.of_nat k = n - 2) as Ek by (unfold k; lia).
  assert (2 ^ 20 <= Z.of_nat k <= 2 ^ 30 - 2) as K by lia. assert (2 ^ 20 <= Z.of_nat k <= 2 ^ 30) as K' by lia. clearbody k.
  exists (0 :: repeat 1 (S k)), (map (fun v => [f_of_Z (-1); v]) (big_s k)), (big_ks k).
  split; [rewrite ylen; lia|]. split; [|split; [now left|split; [right; now left|split; [apply plen|split; [apply preds_log|split; [|split]]]]]].
  - constructor; [now left|]. apply Forall_forall. intros v Hv. apply repeat_spec in Hv. now right.
  - unfold resample, big_ks. split; [cbn [length]; rewrite repeat_length; lia|]. split.
    + constructor; [lia|]. constructor; [lia|]. apply Forall_forall. intros v Hv. apply repeat_spec in Hv. lia.
    + cbn [fold_right]. assert (fold_right Z.add 0 (repeat 1 k) = Z.of_nat k) as ->; [|lia]. clear. induction k as [|m IH]; [reflexivity|]. cbn [repeat fold_right]. lia.
  - constructor; [lia|]. constructor; [lia|]. apply Forall_forall. intros v Hv. apply repeat_spec in Hv. lia.
  - intros counts n_boot ref g pairwise c _ I Nb Vr Vg. destruct (plain_works k K) as [A B]. split.
    + apply (fails k K near_area in01f); auto. intros sw g' Hs. rewrite (big_rp k K' sw Hs). reflexivity.
    + apply (fails k K gain_area pgain); auto. intros sw g' Hs. exact (big_prg k K' sw g' Hs).
Qed.
Print Assumptions C99_large_samples_refuted.

(** the resample of the theorem for the smallest n, among other resamples *)
Example C99_hyp :
  let n := 2 ^ 20 + 2 in let ks := 0 :: 2 :: repeat 1 (Z.to_nat (n - 2)) in
  (2 ^ 20 + 2 <= n <= 2 ^ 30) /\ multinomial_outcome n 2 [repeat 1 (Z.to_nat n); ks] /\ good_ref (RefScalar (f_lit 1 2)) 5 /\ good_grid (Some [f0; f_lit 1 2]).
Proof.
  cbv zeta. split; [lia|]. assert (forall m, fold_right Z.add 0 (repeat 1 m) = Z.of_nat m) as S1 by (induction m as [|m IH]; [reflexivity|]; cbn [repeat fold_right]; lia).
  assert (forall m, Forall (fun k => 0 <= k) (repeat 1 m)) as P1 by (intros m; apply Forall_forall; intros v Hv; apply repeat_spec in Hv; lia).
  split; [|split; [reflexivity|]].
  - assert (forall n m, Z.of_nat n = 2 ^ 20 + 2 -> Z.of_nat m = 2 ^ 20 -> multinomial_outcome (2 ^ 20 + 2) 2 [repeat 1 n; 0 :: 2 :: repeat 1 m]) as H.
    { intros n m En Em. rewrite <- En. split; [reflexivity|]. constructor; [|constructor; [|constructor]].
      - rewrite repeat_length, S1. auto.
      - cbn [length fold_right]. rewrite repeat_length, S1. split; [lia|]. split; [|lia]. constructor; [lia|]. constructor; [lia|]. apply P1. }
    apply H; lia.
  - split; [discriminate|]. intros x [<-|[<-|[]]]; vm_compute; auto.
Qed.
