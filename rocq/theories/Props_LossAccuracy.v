(** Property theorems C104: in double precision the losses of the tables are
    those of exact arithmetic up to rounding.  [sum] is the order in which numpy
    adds up a row; the theorems are about every order. *)
From Coq Require Import Reals Lra Lia.
From Flocq Require Import Core BinarySingleNaN.
From Verif Require Import PyBase ListLemmas F64 Num F64Lemmas NumOk SumProofs Util UtilProofs BootUtil BootProofs2 PerfCurves CurveBoot MLPaper MLProofs MLProofs4 BootProofs5 CompareProofs
  SwapProofs MeanProofs DoublesProofs DoublesProofs2 Checkpoint CheckpointProofs Classification Regression Benchmark ClassProofs ClassProofs2 ClassProofs3 ClassProofs4 ClassProofs5
  RegrProofs LossTableProofs BenchProofs DoublesProofs3 AnyNormalize DoublesProofs4 DoublesProofs5 AccuracyProofs LossAccuracy.
From Verif Require Import Props_Boot Props_Curves Props_MLPaper Props_Classification Props_Predict Props_Regression Props_Tables Props_Benchmark Props_Mean Props_Doubles Props_DoublesBench Props_DoublesClass.
Open Scope R_scope.

(** ** The specification *)
(** the probability an estimator means by its scores: proportional to the
    exponential of the score, nothing where the score is minus infinity *)
Definition weight (a : f64) : R := if fisfin a then exp (B2R a) else 0.
Definition total (l : list R) : R := fold_right Rplus 0 l.
Definition share (row : list f64) (k : nat) : R := weight (nth k row f0) / total (map weight row).
(** the exact losses of the probabilities [p 0 .. p (L-1)] when the label is [v] *)
Definition exact_log (p : nat -> R) (v L : nat) : R := - ln (p v).
Definition exact_brier (rescale : bool) (p : nat -> R) (v L : nat) : R :=
  (if rescale && (1 <? L)%nat then INR L / (INR L - 1) else 1) * total (map (fun k => (p k - if (k =? v)%nat then 1 else 0) ^ 2) (seq 0 L)).
Definition exact_spherical (rescale : bool) (p : nat -> R) (v L : nat) : R :=
  let s := - (p v / sqrt (total (map (fun k => p k ^ 2) (seq 0 L)))) in
  if rescale then (1 + s) / (if (1 <? L)%nat then 1 - 1 / sqrt (INR L) else 1) else s.
(** a row of scores up to [A] in size that does not exclude every label *)
Definition scores (L : nat) (A : R) (row : list f64) : Prop :=
  length row = L /\ Forall (fun a => a = fninf \/ (fisfin a = true /\ Rabs (B2R a) <= A)) row /\ Exists (fun a => fisfin a = true) row.

Lemma total_Rsum l : total l = Rsum l. Proof. reflexivity. Qed.
Lemma scores_entry L A row : scores L A row -> length row = L /\ Forall (entry A) row /\ Exists (fun a => fisfin a = true) row.
Proof.
  intros (Ln & F & E). split; [exact Ln|]. split; [|exact E]. eapply Forall_impl; [|exact F]. intros a [->|[H B]]; [now left|right]. exists (B2R a). split; [now apply v64_fin|exact B].
Qed.
Lemma weight_pr L A row : scores L A row -> map weight row = map (fun a => pr (v64 a)) row.
Proof.
  intros (_ & F & _). apply map_ext_in. intros a Ia. rewrite Forall_forall in F. unfold weight. destruct (F a Ia) as [->|[H _]]; [reflexivity|]. now rewrite H, (v64_fin a H).
Qed.
Lemma share_soft L A row k : scores L A row -> (k < L)%nat -> share row k = soft row k.
Proof.
  intros S Hk. destruct (scores_entry _ _ _ S) as (Ln & _). unfold share, soft. rewrite prob_nth by (rewrite Ln; exact Hk). rewrite (seq_prob (fun r => r)). rewrite (weight_pr L A row S), total_Rsum. f_equal.
  change (weight (nth k row f0) = pr (v64 (nth k row f0))). destruct S as (_ & F & _). rewrite Forall_forall in F. unfold weight.
  destruct (F (nth k row f0)) as [->|[H _]]; [apply nth_In; lia|reflexivity|now rewrite H, (v64_fin _ H)].
Qed.
Lemma exact_ext (g : R -> nat -> R) p p' L : (forall k, (k < L)%nat -> p k = p' k) -> total (map (fun k => g (p k) k) (seq 0 L)) = total (map (fun k => g (p' k) k) (seq 0 L)).
Proof. intros H. f_equal. apply map_ext_in. intros k Hk. apply in_seq in Hk. rewrite H by lia. reflexivity. Qed.
Lemma exact_brier_R rescale L A row v : scores L A row ->
  exact_brier rescale (share row) v L = (if rescale && (1 <? L)%nat then INR L / (INR L - 1) else 1) * brier_R (soft row) v L.
Proof.
  intros S. unfold exact_brier. f_equal. exact (exact_ext (fun r k => (r - (if (k =? v)%nat then 1 else 0)) ^ 2) (share row) (soft row) L (fun k Hk => share_soft L A row k S Hk)).
Qed.
Lemma exact_spherical_R rescale L A row v : scores L A row -> (v < L)%nat ->
  exact_spherical rescale (share row) v L = if rescale then (1 - sphere_R (soft row) v L) / sphere_scale L else - sphere_R (soft row) v L.
Proof.
  intros S Hv. unfold exact_spherical. cbv zeta.
  rewrite (exact_ext (fun r k => r ^ 2) (share row) (soft row) L (fun k Hk => share_soft L A row k S Hk)), (share_soft L A row v S Hv).
  destruct rescale; reflexivity.
Qed.

Lemma Forall2_of_nth {A B} (R : A -> B -> Prop) l m : length l = length m -> (forall i a b, nth_error l i = Some a -> nth_error m i = Some b -> R a b) -> Forall2 R l m.
Proof.
  revert m. induction l as [|a l IH]; intros [|b m] L H; try discriminate; constructor; [exact (H 0%nat a b eq_refl eq_refl)|]. apply IH; [now injection L|]. intros i. exact (H (Datatypes.S i)).
Qed.
Lemma pinf_v64 x : v64 x = PInf -> x = finf.
Proof. destruct x as [s|[]| |s m e B]; cbn; try discriminate. reflexivity. Qed.
Lemma fin_of x t : v64 x = Fin t -> fisfin x = true /\ B2R x = t. Proof. apply v64_Fin. Qed.

Section C104.
  Context (fexp flog : f64 -> f64) (sf ppf : Z -> f64 -> f64) (eig : f64 -> f64 -> option (f64 * f64)) (EL : exp_log fexp flog) (AE : accurate_exp_log fexp flog).
  Notation lib := (fn_f64 fexp flog sf ppf eig).
  Context (sum : list f64 -> f64) (SUM : forall l, sums_to l (sum l)).

  (** The column of a metric, computed in doubles from the scores [rows],
      against the exact loss of the probabilities the scores stand for;
      without [may_exclude] only for scores that exclude no label. *)
  Definition accurate_metric (may_exclude : bool) (f : metric_fun f64) (exact : (nat -> R) -> nat -> nat -> R) (e : Z) : Prop :=
    forall L A rows P kd y l,
    0 <= A <= bpow radix2 26 -> INR L <= bpow radix2 26 -> Forall (scores L A) rows ->
    (may_exclude = false -> Forall (Forall (fun a => fisfin a = true)) rows) ->
    @any_normalize _ _ lib sum L rows = Ok P -> f kd y P L = Ok l ->
    length l = length y /\
    forall i v row, nth_error y i = Some v -> nth_error rows i = Some row ->
    exists x, nth_error l i = Some x /\ fisfin x = true /\ Rabs (B2R x - exact (share row) (Z.to_nat v) L) <= bpow radix2 e * (INR L + A).

  Lemma scores_at L A rows i row : Forall (scores L A) rows -> nth_error rows i = Some row -> scores L A row.
  Proof. intros F I. rewrite Forall_forall in F. apply F. eapply nth_error_In. exact I. Qed.
  Lemma label_at kd y n L i v : valid_y kd y n L -> nth_error y i = Some v -> (Z.to_nat v < L)%nat.
  Proof. intros (_ & _ & _ & _ & F) I. rewrite Forall_forall in F. specialize (F v (nth_error_In _ _ I)). lia. Qed.
  Lemma up30 x : x <= bpow radix2 26 -> x <= MAXN.
  Proof. intros H. eapply Rle_trans; [exact H|]. apply bpow_le. lia. Qed.

  Theorem C104_brier_loss : forall rescale, accurate_metric true (@brier_loss _ _ lib rescale) (exact_brier rescale) (-43).
  Proof.
    intros rescale L A rows P kd y l AB LB F _ EP EM. split.
    { revert EM. unfold brier_loss. destruct (shape_and_validate kd y P L) eqn:V; cbn [bind]; [|discriminate]. apply validate_ok in V. pose proof V as (_ & L1 & LP & _ & Fy).
      assert (one_hot Ki y (Z.of_nat L) = Ok (map (fun v => set_true (repeat false L) (Z.to_nat v)) y)) as ->.
      { rewrite one_hot_ok, Nat2Z.id. replace (1 <=? Z.of_nat L)%Z with true by (symmetry; apply Z.leb_le; lia). cbn [andb dkind_eqb].
        replace (forallb _ y) with true; [reflexivity|]. symmetry. apply forallb_forall. intros w Hw.
        rewrite Forall_forall in Fy. specialize (Fy w Hw). apply Bool.andb_true_iff. rewrite Z.leb_le, Z.ltb_lt. lia. }
      cbn [bind]. intros H. apply Ok_inj in H. subst l. destruct (rescale && (1 <? Z.of_nat L)%Z); rewrite ?map_length, BootProofs5.map2_length, map_length; lia. }
    intros i v row Iv Ir. pose proof (scores_at _ _ _ _ _ F Ir) as S. destruct (scores_entry _ _ _ S) as (Ln & FE & Ex).
    destruct (normalize_cell fexp flog sf ppf eig sum L rows P i row EP Ir) as [Iq _]. set (q := @any_normalize_row _ _ lib sum row) in *.
    assert (length q = L) as Lq by (unfold q; rewrite norm_len; exact Ln).
    destruct (brier_cell fexp flog sf ppf eig sum rescale kd y P L l i v q EM Iv Iq Lq) as [V Il]. pose proof (label_at _ _ _ _ _ _ V Iv) as Hv. rewrite <- Ln in Hv.
    destruct (brier_soft_err fexp flog sf ppf eig EL AE sum SUM row A (conj (proj1 AB) (up30 _ (proj2 AB))) ltac:(rewrite Ln; apply up30, LB) FE Ex (Z.to_nat v) Hv) as [B1 B2]. fold q in B1, B2. rewrite Ln in B1, B2.
    rewrite (exact_brier_R rescale L A row (Z.to_nat v) S). replace (1 <? Z.of_nat L)%Z with (1 <? L)%nat in Il by (destruct (Nat.ltb_spec 1 L), (Z.ltb_spec 1 (Z.of_nat L)); auto; lia).
    eexists. split; [exact Il|]. destruct (rescale && (1 <? L)%nat) eqn:E.
    - apply andb_prop in E as [_ E]. apply Nat.ltb_lt in E. destruct (B2 ltac:(lia)) as (t & Et & T). apply fin_of in Et as [Ft ->]. split; [exact Ft|exact T].
    - destruct B1 as (t & Et & T). apply fin_of in Et as [Ft ->]. split; [exact Ft|]. rewrite Rmult_1_l. exact T.
  Qed.

  Theorem C104_spherical_loss : forall rescale, accurate_metric true (@any_spherical_loss _ _ lib sum rescale) (exact_spherical rescale) (if rescale then -41 else -44).
  Proof.
    intros rescale L A rows P kd y l AB LB F _ EP EM. split.
    { revert EM. unfold any_spherical_loss. destruct (shape_and_validate kd y P L) eqn:V; cbn [bind]; [|discriminate]. apply validate_ok in V. pose proof V as (_ & _ & LP & _).
      intros H. apply Ok_inj in H. subst l. destruct rescale; rewrite ?map_length, BootProofs5.map2_length; lia. }
    intros i v row Iv Ir. pose proof (scores_at _ _ _ _ _ F Ir) as S. destruct (scores_entry _ _ _ S) as (Ln & FE & Ex).
    destruct (normalize_cell fexp flog sf ppf eig sum L rows P i row EP Ir) as [Iq _]. set (q := @any_normalize_row _ _ lib sum row) in *.
    destruct (sphere_cell fexp flog sf ppf eig sum rescale kd y P L l i v q EM Iv Iq) as [V Il]. pose proof (label_at _ _ _ _ _ _ V Iv) as HvL. pose proof HvL as Hv. rewrite <- Ln in Hv.
    destruct (sphere_soft_err fexp flog sf ppf eig EL AE sum SUM row A (conj (proj1 AB) (up30 _ (proj2 AB))) ltac:(rewrite Ln; apply up30, LB) FE Ex (Z.to_nat v) Hv ltac:(rewrite Ln; exact LB) (proj2 AB)) as [B1 B2].
    fold q in B1, B2. rewrite Ln in B1, B2. rewrite (exact_spherical_R rescale L A row (Z.to_nat v) S HvL). eexists. split; [exact Il|].
    destruct rescale; [destruct B2 as (t & Et & T)|destruct B1 as (t & Et & T)]; apply fin_of in Et as [Ft ->]; split; assumption.
  Qed.

  (** The log loss is infinite exactly where the label was excluded. *)
  Theorem C104_log_loss :
    forall L A rows P kd y l,
    0 <= A <= bpow radix2 30 -> INR L <= bpow radix2 30 -> Forall (scores L A) rows ->
    @any_normalize _ _ lib sum L rows = Ok P -> log_loss kd y P L = Ok l ->
    length l = length y /\
    forall i v row, nth_error y i = Some v -> nth_error rows i = Some row ->
    exists x, nth_error l i = Some x /\
      (nth (Z.to_nat v) row f0 = fninf -> x = finf) /\
      (nth (Z.to_nat v) row f0 <> fninf -> 0 < share row (Z.to_nat v) /\ fisfin x = true /\
         Rabs (B2R x - exact_log (share row) (Z.to_nat v) L) <= bpow radix2 (-47) * (INR L + A)).
  Proof.
    intros L A rows P kd y l AB LB F EP EM. split.
    { revert EM. unfold log_loss. destruct (shape_and_validate kd y P L) eqn:V; cbn [bind]; [|discriminate]. apply validate_ok in V. pose proof V as (_ & _ & LP & _).
      intros H. apply Ok_inj in H. subst l. rewrite BootProofs5.map2_length. lia. }
    intros i v row Iv Ir. pose proof (scores_at _ _ _ _ _ F Ir) as S. destruct (scores_entry _ _ _ S) as (Ln & FE & Ex).
    destruct (normalize_cell fexp flog sf ppf eig sum L rows P i row EP Ir) as [Iq _]. set (q := @any_normalize_row _ _ lib sum row) in *.
    destruct (log_cell kd y P L l i v q EM Iv Iq) as [V Il]. pose proof (label_at _ _ _ _ _ _ V Iv) as HvL. pose proof HvL as Hv. rewrite <- Ln in Hv.
    destruct (log_soft_err fexp flog sf ppf eig EL AE sum SUM row A AB ltac:(rewrite Ln; exact LB) FE Ex (Z.to_nat v) Hv) as [B1 B2]. fold q in B1, B2. rewrite Ln in B2.
    eexists. split; [exact Il|]. rewrite (share_soft L A row (Z.to_nat v) S HvL). unfold exact_log. rewrite (share_soft L A row (Z.to_nat v) S HvL). destruct S as (_ & Fr & _). rewrite Forall_forall in Fr.
    specialize (Fr (nth (Z.to_nat v) row f0) (nth_In _ _ Hv)). set (a := nth (Z.to_nat v) row f0) in *. split.
    - intros Q. apply pinf_v64. apply B1. now rewrite Q.
    - intros Q. destruct Fr as [Fr|[Fa _]]; [contradiction|]. destruct (B2 _ (v64_fin a Fa)) as (t & Et & T & SP). apply fin_of in Et as [Ft ->]. auto.
  Qed.

  Theorem C104_log_loss_no_exclusion : accurate_metric false log_loss exact_log (-47).
  Proof.
    intros L A rows P kd y l AB LB F FF EP EM. destruct (C104_log_loss L A rows P kd y l (conj (proj1 AB) (up30 _ (proj2 AB))) (up30 _ LB) F EP EM) as [LL H].
    split; [exact LL|]. intros i v row Iv Ir. destruct (H i v row Iv Ir) as (x & Ix & _ & X). exists x. split; [exact Ix|]. apply X.
    destruct (normalize_cell fexp flog sf ppf eig sum L rows P i row EP Ir) as [Iq _].
    destruct (log_cell kd y P L l i v _ EM Iv Iq) as [V _]. pose proof (label_at _ _ _ _ _ _ V Iv) as Hv. specialize (FF eq_refl). rewrite Forall_forall in FF. specialize (FF row (nth_error_In _ _ Ir)).
    rewrite Forall_forall in FF. destruct (scores_at _ _ _ _ _ F Ir) as (Ln & _). specialize (FF (nth (Z.to_nat v) row f0) (nth_In _ _ ltac:(rewrite Ln; exact Hv))). intros Q. rewrite Q in FF. discriminate.
  Qed.

  (** The action chosen is as good as any other, up to rounding. *)
  Theorem C104_decision :
    forall L A rows P mat n_actions acts M,
    0 <= A <= bpow radix2 30 -> INR L <= bpow radix2 30 -> Forall (scores L A) rows ->
    length mat = L -> Forall (fun r => length r = n_actions /\ Forall (fun c => fisfin c = true /\ Rabs (B2R c) <= M) r) mat -> bpow radix2 (-900) <= M <= bpow radix2 900 ->
    @any_normalize _ _ lib sum L rows = Ok P -> @hard_loss_decision _ _ lib P L mat n_actions = Ok acts ->
    Forall2 (fun row a =>
      let risk b := total (map (fun k => share row k * B2R (nth b (nth k mat []) f0)) (seq 0 L)) in
      (a < n_actions)%nat /\ forall b, (b < n_actions)%nat -> risk a <= risk b + bpow radix2 (-44) * (INR L + A) * M) rows acts.
  Proof.
    intros L A rows P mat na acts M AB LB F LM FM MB EP ED.
    pose proof (C63_decision_any_arithmetic _ _ f64_ok lib P L mat na acts ED) as D.
    assert (P = map (@any_normalize_row _ _ lib sum) rows) as -> by (unfold any_normalize in EP; destruct (1 <=? Z.of_nat L)%Z; cbn [py_assert bind] in EP; [apply Ok_inj in EP; auto|discriminate]).
    clear EP ED. revert acts D. induction F as [|row rows S F IH]; intros acts D; cbn [map] in D; inversion D as [|? a ? acts' D1 D2]; subst; constructor; [|now apply IH]. clear IH D2 D.
    cbv zeta in *. destruct D1 as [D1 D3]. split; [exact D1|]. destruct (scores_entry _ _ _ S) as (Ln & FE & Ex).
    assert (forall b, (b < na)%nat -> exists t, v64 (fold_left nadd (map2 (fun lp r => nmul (@nexp _ lib lp) (nth b r n0)) (@any_normalize_row _ _ lib sum row) mat) n0) = Fin t /\
      Rabs (t - total (map (fun k => share row k * B2R (nth b (nth k mat []) f0)) (seq 0 (length mat)))) <= bpow radix2 (-45) * (INR (length mat) + A) * M) as RK.
    { intros b Hb. destruct (risk_err fexp flog sf ppf eig EL AE sum SUM row A AB ltac:(rewrite Ln; exact LB) FE Ex mat b M (eq_sym Ln) MB) as (t & Et & T).
      - intros k Hk. rewrite Forall_forall in FM. destruct (FM (nth k mat [])) as [Lk Fk]; [apply nth_In; lia|]. rewrite Forall_forall in Fk. apply Fk, nth_In. lia.
      - exists t. split; [exact Et|]. rewrite Ln in T. rewrite (exact_ext (fun r k => r * B2R (nth b (nth k mat []) f0)) (share row) (soft row) (length mat) (fun k Hk => share_soft _ A row k S Hk)). exact T. }
    intros b Hb. destruct D3 as [D3 _].
    { intros c Hc. destruct (RK c Hc) as (t & Et & _). change nisnan with fisnan. rewrite v64_nan. now rewrite Et. }
    specialize (D3 b Hb). change nleb with fleb in D3. rewrite v64_leb in D3. destruct (RK a D1) as (t & Et & T), (RK b Hb) as (t' & Et' & T'). rewrite Et, Et' in D3. apply Rleb_spec in D3.
    replace (bpow radix2 (-44)) with (2 * bpow radix2 (-45)) by (replace (-44)%Z with (1 + -45)%Z by lia; rewrite bpow_plus; reflexivity).
    apply Rabs_le_inv in T, T'. set (e := bpow radix2 (-45)) in *. lra.
  Qed.

  (** The averages printed in the table: those of the exact losses, up to the
      error of the losses and that of averaging. *)
  Theorem C104_table_means :
    forall draw (tbl : pred_table f64) kd y losses ref_method pairwise confidence m limits lt out may_exclude metric f exact e method cols rows c A K,
    NoDup (map fst (pt_methods tbl)) -> NoDup (map fst losses) ->
    loss_table (@any_normalize _ _ lib sum) tbl kd y losses false = Ok lt ->
    @loss_summary_table _ _ lib draw lt ref_method pairwise confidence m limits = Ok out ->
    In (metric, f) losses -> accurate_metric may_exclude f exact e -> (e <= -30)%Z ->
    In (method, (cols, rows)) (pt_methods tbl) -> In ((metric, method), c) out ->
    let L := length (pt_labels tbl) in
    let exact_losses := map2 (fun v row => exact (share row) (Z.to_nat v) L) y rows in
    0 <= A <= bpow radix2 26 -> INR L <= bpow radix2 26 -> INR (length y) <= bpow radix2 30 ->
    Forall (scores L A) rows -> (may_exclude = false -> Forall (Forall (fun a => fisfin a = true)) rows) ->
    Forall (fun r => Rabs r <= K) exact_losses -> 0 <= K <= bpow radix2 60 ->
    fisfin (cell_mean c) = true /\
    Rabs (B2R (cell_mean c) - total exact_losses / INR (length y)) <= bpow radix2 e * (INR L + A) + (INR (length y) + 1) * bpow radix2 (-52) * (K + 1) + bpow radix2 (-1075).
  Proof.
    intros draw tbl kd y losses ref pw cf m lim lt out me metric f exact e method cols rows c A K N1 N2 ET ES If AM He Im Ic L ex AB LB NB F FF FK KB.
    destruct (C76_classification _ tbl kd y losses false lt N2 N1 ET) as (T1 & _ & _ & _ & _ & T6).
    destruct (T6 metric f method cols rows If Im) as (P & loss & EP & EM & LL & CL). fold L in EP, EM. cbn [seen] in EP.
    destruct (AM L A rows P kd y loss AB LB F FF EP EM) as [_ AC].
    pose proof (proj1 (C76_classification_accepts _ tbl kd y losses false) (ex_intro _ lt ET)) as (EY & Y1 & _ & _ & FR). destruct (FR method _ Im) as [(_ & LR & _) _]. cbn [snd] in LR.
    assert (length ex = length y) as LX by (unfold ex; rewrite BootProofs5.map2_length; lia).
    set (d := bpow radix2 e * (INR L + A)) in *. pose proof (pos_INR L) as PL.
    assert (0 <= d <= 1) as D1.
    { unfold d. pose proof (bpow_gt_0 radix2 e). split; [apply Rmult_le_pos; lra|]. apply Rle_trans with (bpow radix2 (-30) * bpow radix2 27); [|rewrite <- bpow_plus; apply (bpow_le radix2 _ 0); lia].
      apply Rmult_le_compat; [lra|lra|now apply bpow_le|]. replace (bpow radix2 27) with (bpow radix2 26 + bpow radix2 26) by (replace 27%Z with (1 + 26)%Z by lia; rewrite bpow_plus; change (bpow radix2 1) with 2; ring). lra. }
    assert (Forall2 (fun x r => fisfin x = true /\ Rabs (B2R x - r) <= d) loss ex) as C.
    { apply Forall2_of_nth; [rewrite LL, LX; reflexivity|]. intros i x r Ix Ir. assert (i < length y)%nat as Hi by (rewrite <- LL; apply nth_error_Some; congruence).
      destruct (nth_error y i) as [v|] eqn:Iv; [|apply nth_error_None in Iv; lia]. destruct (nth_error rows i) as [row|] eqn:Irow; [|apply nth_error_None in Irow; lia].
      destruct (AC i v row Iv Irow) as (x' & Ix' & Fx & X). rewrite Ix in Ix'. injection Ix' as <-.
      pose proof (nth_map2_some (fun v row => exact (share row) (Z.to_nat v) L) y rows i v row Iv Irow) as Q. fold ex in Q. rewrite Q in Ir. injection Ir as <-. auto. }
    assert (Forall (fun v => fisfin v = true) loss) as FL by (clear -C; induction C as [|? ? ? ? [H _] C IH]; constructor; assumption).
    assert (total_size loss <= INR (length loss) * (K + 1)) as TS.
    { clear -C FK D1. unfold total_size. induction C as [|x r ? ? [_ H] C IH]; [cbn; lra|]. inversion FK; subst. cbn [map fold_right length]. rewrite S_INR. specialize (IH ltac:(assumption)).
      assert (Rabs (B2R x) <= K + 1); [|lra]. replace (B2R x) with (B2R x - r + r) by ring. eapply Rle_trans; [apply Rabs_triang|]. lra. }
    assert (Rabs (exact_sum loss - total ex) <= INR (length loss) * d) as TD.
    { clear -C. unfold exact_sum, total. induction C as [|x r ? ? [_ H] C IH]; [cbn; rewrite Rminus_eq_0, Rabs_R0; lra|]. cbn [map fold_right length]. rewrite S_INR.
      apply Rabs_le_inv in H, IH. apply Rabs_le. lra. }
    assert (0 < INR (length y)) as NP by (apply lt_0_INR; lia).
    destruct (C91_table_means lib draw lt ref pw cf m lim out metric method c loss ES Ic CL) as [Fc MC].
    { split; [lia|]. rewrite LL. exact NB. }
    { exact FL. }
    { eapply Rle_trans; [exact TS|]. rewrite LL. apply Rle_trans with (bpow radix2 30 * bpow radix2 61); [|rewrite <- bpow_plus; apply bpow_le; lia]. apply Rmult_le_compat; try lra.
      replace (bpow radix2 61) with (bpow radix2 60 + bpow radix2 60) by (replace 61%Z with (1 + 60)%Z by lia; rewrite bpow_plus; change (bpow radix2 1) with 2; ring). pose proof (bpow_le radix2 0 60 ltac:(lia)) as Q. change (bpow radix2 0) with 1 in Q. lra. }
    split; [exact Fc|]. cbv zeta in MC. rewrite LL in *. unfold exact_mean in MC. rewrite LL in MC. set (N := INR (length y)) in *.
    assert (Rabs (exact_sum loss / N - total ex / N) <= d) as Q1.
    { unfold Rdiv. rewrite <- Rmult_minus_distr_r, Rabs_mult, (Rabs_pos_eq (/ N)) by (apply Rlt_le, Rinv_0_lt_compat, NP). apply (Rmult_le_reg_r N); [exact NP|]. rewrite Rmult_assoc, Rinv_l by lra. lra. }
    assert (total_size loss / N <= K + 1) as Q2 by (apply (Rmult_le_reg_r N); [exact NP|]; unfold Rdiv; rewrite Rmult_assoc, Rinv_l by lra; lra).
    assert ((N + 1) * bpow radix2 (-52) * (total_size loss / N) <= (N + 1) * bpow radix2 (-52) * (K + 1)) as Q3 by (apply Rmult_le_compat_l; [apply Rmult_le_pos; [lra|apply bpow_ge_0]|exact Q2]).
    apply Rabs_le_inv in MC, Q1. apply Rabs_le. lra.
  Qed.
End C104.
Print Assumptions C104_brier_loss.
Print Assumptions C104_spherical_loss.
Print Assumptions C104_log_loss.
Print Assumptions C104_log_loss_no_exclusion.
Print Assumptions C104_decision.
Print Assumptions C104_table_means.

(** ** Regression *)
Definition sized (v : f64) : Prop := fisfin v = true /\ Rabs (B2R v) <= bpow radix2 200.
Lemma sized_v64 v : sized v -> v64 v = Fin (B2R v) /\ Rabs (B2R v) <= bpow radix2 200.
Proof. intros [F B]. split; [now apply v64_fin|exact B]. Qed.

Theorem C104_square_and_abs :
  forall (y mu std : list f64) ls la,
  Forall sized y -> Forall sized mu -> square_loss y mu std = Ok ls -> abs_loss y mu std = Ok la ->
  length ls = length y /\ length la = length y /\
  forall i v m, nth_error y i = Some v -> nth_error mu i = Some m ->
  let d := B2R v - B2R m in
  exists s a, nth_error ls i = Some s /\ nth_error la i = Some a /\ fisfin s = true /\ fisfin a = true /\
    Rabs (B2R s - d ^ 2) <= bpow radix2 (-51) * d ^ 2 + bpow radix2 (-1075) /\
    Rabs (B2R a - Rabs d) <= bpow radix2 (-53) * Rabs d.
Proof.
  intros y mu std ls la Fy Fm ES EA. unfold square_loss, abs_loss in *. destruct (r_shape_and_validate y mu std) eqn:V; cbn [bind] in *; [|discriminate]. apply Ok_inj in ES, EA. subst ls la.
  assert (length mu = length y) as LM.
  { revert V. unfold r_shape_and_validate. destruct (1 <=? length y)%nat; cbn [py_assert bind]; [|discriminate]. destruct (forallb nisfin y); cbn [py_assert bind]; [|discriminate].
    destruct ((length mu =? length y)%nat && (length std =? length y)%nat) eqn:E; cbn [py_assert bind]; [|discriminate]. intros _. apply andb_prop in E as [E _]. now apply Nat.eqb_eq in E. }
  rewrite !BootProofs5.map2_length, LM. split; [lia|]. split; [lia|]. intros i v m Iv Im. set (d := B2R v - B2R m).
  rewrite Forall_forall in Fy, Fm. destruct (sized_v64 _ (Fy v (nth_error_In _ _ Iv))) as [Ev Bv], (sized_v64 _ (Fm m (nth_error_In _ _ Im))) as [Em Bm].
  destruct (square_loss_err v m _ _ Ev Em Bv Bm) as (t & Et & T). destruct (abs_loss_err v m _ _ Ev Em Bv Bm) as (t' & Et' & T'). fold d in T, T'.
  exists (fmul (fsub v m) (fsub v m)), (nabs (fsub v m)). split; [exact (nth_map2_some _ _ _ _ _ _ Iv Im)|]. split; [exact (nth_map2_some _ _ _ _ _ _ Iv Im)|].
  apply fin_of in Et as [Ft Vt]. apply fin_of in Et' as [Ft' Vt']. rewrite Vt, Vt'. auto.
Qed.
Print Assumptions C104_square_and_abs.

Theorem C104_gaussian_log_loss :
  forall fexp flog sf ppf eig logC (y mu std : list f64) l,
  accurate_log flog -> sized logC -> Forall sized y -> Forall sized mu -> Forall (fun s => bpow radix2 (-200) <= B2R s <= bpow radix2 1000) std ->
  @r_log_loss _ _ (fn_f64 fexp flog sf ppf eig) logC y mu std = Ok l ->
  length l = length y /\
  forall i v m s, nth_error y i = Some v -> nth_error mu i = Some m -> nth_error std i = Some s ->
  exists x, nth_error l i = Some x /\ fisfin x = true /\
    Rabs (B2R x - gauss_nll (B2R logC) (B2R v) (B2R m) (B2R s)) <=
    bpow radix2 (-49) * ((B2R v - B2R m) ^ 2 / (2 * B2R s ^ 2) + Rabs (B2R logC) + Rabs (ln (B2R s)) + 1).
Proof.
  intros fexp flog sf ppf eig lc y mu std l AL Sc Fy Fm Fs EM. unfold r_log_loss in EM. destruct (r_shape_and_validate y mu std) eqn:V; cbn [bind] in EM; [|discriminate]. apply Ok_inj in EM. subst l.
  assert (length mu = length y /\ length std = length y /\ Forall (fun s => fisfin s = true) std) as (LM & LS & FS).
  { revert V. unfold r_shape_and_validate. destruct (1 <=? length y)%nat; cbn [py_assert bind]; [|discriminate]. destruct (forallb nisfin y); cbn [py_assert bind]; [|discriminate].
    destruct ((length mu =? length y)%nat && (length std =? length y)%nat) eqn:E; cbn [py_assert bind]; [|discriminate]. destruct (forallb nisfin mu && forallb nisfin std) eqn:G; cbn [py_assert bind]; [|discriminate]. intros _.
    apply andb_prop in E as [E1 E2]. apply Nat.eqb_eq in E1, E2. apply andb_prop in G as [_ G]. split; [exact E1|]. split; [exact E2|]. apply Forall_forall. now apply forallb_forall. }
  rewrite BootProofs5.map2_length, combine_length, LM, LS. split; [lia|]. intros i v m s Iv Im Is.
  rewrite Forall_forall in Fy, Fm, Fs, FS. destruct (sized_v64 _ (Fy v (nth_error_In _ _ Iv))) as [Ev Bv], (sized_v64 _ (Fm m (nth_error_In _ _ Im))) as [Em Bm], (sized_v64 _ Sc) as [Ec Bc].
  pose proof (v64_fin s (FS s (nth_error_In _ _ Is))) as Es. pose proof (Fs s (nth_error_In _ _ Is)) as Bs.
  destruct (gauss_err fexp flog sf ppf eig AL lc v m s _ _ _ _ Ec Ev Em Es Bc Bv Bm Bs) as (t & Et & T).
  eexists. split; [exact (nth_map2_some _ _ _ _ _ _ Iv (Props_Regression.nth_combine _ _ _ _ _ Im Is))|]. cbn [fst snd]. apply fin_of in Et as [Ft ->]. split; [exact Ft|exact T].
Qed.
Print Assumptions C104_gaussian_log_loss.

(** ** The hypotheses are met *)
(** An exponential and a logarithm rounded to nearest. *)
Example C104_library :
  exp_log round_exp round_log /\ accurate_exp_log round_exp round_log /\ accurate_log round_log /\ good_library round_exp round_log tame_sf tame_ppf tame_eig.
Proof.
  destruct C95_rounded as [EL AE]. split; [exact EL|]. split; [exact AE|].
  assert (forall z, fisfin z = true -> 0 < B2R z -> Rabs (ln (B2R z)) <= 2000) as BL.
  { intros z F P. assert (forall k, (0 <= k)%Z -> ln (bpow radix2 k) <= IZR k) as LN.
    { intros k Hk. rewrite <- (ln_exp (IZR k)). assert (bpow radix2 k <= exp (IZR k)) as G; [|destruct G as [G| ->]; [apply Rlt_le, ln_increasing; [apply bpow_gt_0|exact G]|lra]].
      rewrite bpow_powerRZ. rewrite <- (Z2Nat.id k) by exact Hk. rewrite <- pow_powerRZ, <- INR_IZR_INZ. change (IZR radix2) with 2. clear. induction (Z.to_nat k) as [|j IH]; [change (INR 0) with 0; rewrite exp_0; cbn; lra|].
      rewrite S_INR, exp_plus. cbn [pow]. pose proof (exp_ineq1_le 1). pose proof (exp_pos (INR j)). assert (0 < 2 ^ j) by (apply pow_lt; lra). nra. }
    assert (forall a b, 0 < a -> a <= b -> ln a <= ln b) as LM by (intros a' b' Ha [H|<-]; [apply Rlt_le, ln_increasing; assumption|lra]).
    assert (bpow radix2 (-1074) <= B2R z <= bpow radix2 1024) as [B1 B2].
    { rewrite <- (Rabs_pos_eq (B2R z)) by lra. split; [|apply Rlt_le, (abs_B2R_lt_emax prec64 emax64)]. apply (abs_B2R_ge_emin prec64 emax64). destruct z; try discriminate; [cbn in P; lra|reflexivity]. }
    pose proof (LN 1024%Z ltac:(lia)) as L1. pose proof (LN 1074%Z ltac:(lia)) as L2. pose proof (LM _ _ P B2) as L3. pose proof (LM _ _ (bpow_gt_0 radix2 (-1074)) B1) as L4.
    replace (bpow radix2 (-1074)) with (/ bpow radix2 1074) in L4 by (rewrite <- bpow_opp; reflexivity). rewrite ln_Rinv in L4 by apply bpow_gt_0. apply Rabs_le. lra. }
  assert (forall z, fisfin z = true -> 0 < B2R z -> fisfin (round_log z) = true /\ B2R (round_log z) = rnd64 (ln (B2R z))) as RL.
  { intros z F P. apply nearest64_correct. eapply Rle_trans; [now apply BL|]. apply Rle_trans with (IZR (2 ^ 11)); [cbn; lra|]. change (IZR (2 ^ 11)) with (bpow radix2 11). apply bpow_le. lia. }
  split.
  - intros z F P. destruct (RL z F P) as [F' V]. split; [exact F'|]. rewrite V. eapply Rle_trans; [apply rnd_err|].
    destruct u_facts as (U & _ & T1 & T2 & E50). rewrite E50. pose proof (Rabs_pos (ln (B2R z))). nra.
  - destruct C92_library as [G1 G2 G3 G4 _ _ G7]. split; auto.
    + intros z F B. destruct (RL z F ltac:(lra)) as [F' V]. split; [exact F'|]. rewrite V. pose proof (BL z F ltac:(lra)) as BB.
      assert (/ 2 <= ln (B2R z) <= 60) as BZ.
      { split.
        - apply Rle_trans with (ln 2); [|destruct B as [[H|H] _]; [apply Rlt_le, ln_increasing; lra|rewrite H; lra]].
          rewrite <- (ln_exp (/ 2)). apply Rlt_le, ln_increasing; [apply exp_pos|]. replace 2 with (sqrt 4) at 2 by (replace 4 with (2 * 2) by ring; apply sqrt_square; lra).
          assert (exp (/ 2) = sqrt (exp 1)) as -> by (symmetry; apply sqrt_lem_1; [apply Rlt_le, exp_pos|apply Rlt_le, exp_pos|rewrite <- exp_plus; f_equal; lra]).
          apply sqrt_lt_1; [apply Rlt_le, exp_pos|lra|]. pose proof exp_le_3. lra.
        - eapply Rle_trans; [|apply ln_P2]. destruct B as [A [H|H]]; [apply Rlt_le, ln_increasing; lra|rewrite H; lra]. }
      split.
      * apply Rlt_le_trans with (bpow radix2 (-1)); [apply bpow_gt_0|]. apply rnd64_ge; [apply format_P2; lia|]. change (bpow radix2 (-1)) with (/ 2). lra.
      * apply rnd64_le; [apply format_P2; lia|]. change (bpow radix2 10) with (IZR (2 ^ 10)). cbn. lra.
    + intros z H. exact (proj1 (el_exp _ _ EL z H)).
Qed.

Lemma three_26 : INR 3 <= bpow radix2 26.
Proof. change (bpow radix2 26) with (IZR (2 ^ 26)). rewrite INR_IZR_INZ. apply IZR_le. cbn. lia. Qed.
Definition ex_lib : fn f64 := fn_f64 round_exp round_log tame_sf tame_ppf tame_eig.
(** Scores that exclude a label and are far from normalised. *)
Definition ex_tbl : pred_table f64 := {| pt_len := 2; pt_labels := [0; 1; 2]%Z; pt_methods := [(tA, ([0; 1; 2]%Z, ex_scores))] |}.
Definition ex_losses : dict (metric_fun f64) := [(tM, @brier_loss _ _ ex_lib true); (tB, @any_spherical_loss _ _ ex_lib nsum true)].
Example C104_example :
  exists lt out c, loss_table (@any_normalize _ _ ex_lib nsum) ex_tbl Ki [2; 1]%Z ex_losses false = Ok lt /\
    @loss_summary_table _ _ ex_lib (fun _ _ _ => repeat [1; 1]%Z 1000) lt tA false (ndiv (nofZ 95) (nofZ 100)) Mt [] = Ok out /\ In ((tM, tA), c) out /\
    Rabs (B2R (cell_mean c) - (exact_brier true (share [f_of_Z 700; fninf; f_of_Z 705]) 2 3 + exact_brier true (share [f_of_Z (-1000); f_of_Z 3; f_of_Z 3]) 1 3) / 2) <= / 1000000000.
Proof.
  destruct C104_library as (EL & AE & _ & GL).
  destruct (C97_loss_table round_exp round_log tame_sf tame_ppf tame_eig GL EL nsum nsum_sums (fun _ _ _ => repeat [1; 1]%Z 1000) ex_tbl Ki [2; 1]%Z ex_losses tA false (ndiv (nofZ 95) (nofZ 100)) Mt [])
      as (lt & out & E2 & E3 & K1 & K2).
  - constructor; [intros []|constructor].
  - constructor; [intros [Q|[]]; discriminate|]. constructor; [intros []|constructor].
  - cbn. lia.
  - apply three_labels.
  - reflexivity.
  - cbn. lia.
  - change (INR (length [2; 1]%Z)) with (1 + 1). change (bpow radix2 30) with (IZR (2 ^ 30)). apply (IZR_le 2). cbn. lia.
  - now right.
  - repeat constructor; cbn; lia.
  - intros method frame [Q|[]]. injection Q as <- <-. split; [reflexivity|]. split; [reflexivity|]. apply ex_scores_ok. lia.
  - now left.
  - discriminate.
  - discriminate.
  - apply conf_95.
  - assert (limit_below 0 fninf) as LB by (split; [now left|split; intros H; discriminate H]).
    intros metric f [Q|[Q|[]]]; injection Q as <- <-; [apply c_float_brier; [exact LB|apply inf_above]|apply c_float_spherical_rescaled; [exact LB|apply inf_above]].
  - intros _ _ _. split; [now rewrite repeat_length|]. apply Forall_forall. intros r Hr. apply repeat_spec in Hr. subst r. repeat split; auto. repeat constructor; lia.
  - exists lt, out. destruct out as [|[lab c] out]; [discriminate|]. exists c. cbn [map fst] in K1. injection K1 as Q K1. cbn [fst] in Q. subst lab. split; [exact E2|]. split; [exact E3|]. split; [now left|].
    assert (Forall (scores 3 1000) ex_scores) as SC by (eapply Forall_impl; [|exact ex_scores_small]; intros row Q; exact Q).
    assert (forall row v, scores 3 1000 row -> (v < 3)%nat -> Rabs (exact_brier true (share row) v 3) <= 4) as BB.
    { intros row v S Hv. rewrite (exact_brier_R true 3 1000 row v S). destruct (scores_entry _ _ _ S) as (Ln & FE & Ex).
      assert (0 <= 1000 <= MAXN) as AM by (unfold MAXN; change (bpow radix2 30) with (IZR (2 ^ 30)); cbn; lra).
      pose proof (brier_soft round_exp round_log tame_sf tame_ppf tame_eig EL AE nsum nsum_sums row 1000 AM ltac:(rewrite Ln; exact three_labels) FE Ex v ltac:(rewrite Ln; exact Hv)) as B. rewrite Ln in B.
      cbn [andb Nat.ltb Nat.leb]. replace (INR 3) with 3 by (cbn; lra). rewrite Rabs_pos_eq; lra. }
    assert (accurate_metric round_exp round_log tame_sf tame_ppf tame_eig nsum true (@brier_loss _ _ ex_lib true) (exact_brier true) (-43)) as AM by exact (C104_brier_loss round_exp round_log tame_sf tame_ppf tame_eig EL AE nsum nsum_sums true).
    pose proof (C104_table_means round_exp round_log tame_sf tame_ppf tame_eig nsum nsum_sums (fun _ _ _ => repeat [1; 1]%Z 1000) ex_tbl Ki [2; 1]%Z ex_losses tA false (ndiv (nofZ 95) (nofZ 100)) Mt [] lt _ true tM _ (exact_brier true) (-43) tA [0; 1; 2]%Z ex_scores c 1000 4
      ltac:(constructor; [intros []|constructor]) ltac:(constructor; [intros [Q|[]]; discriminate|]; constructor; [intros []|constructor]) E2 E3 (or_introl eq_refl) AM ltac:(lia) (or_introl eq_refl) (or_introl eq_refl)) as H. cbv zeta in H.
    destruct H as [_ H].
    + change (bpow radix2 26) with (IZR (2 ^ 26)). cbn. lra.
    + apply three_26.
    + change (INR (length [2; 1]%Z)) with (1 + 1). change (bpow radix2 30) with (IZR (2 ^ 30)). apply (IZR_le 2). cbn. lia.
    + exact SC.
    + discriminate.
    + inversion SC as [|? ? S1 SC']; subst. inversion SC' as [|? ? S2 _]; subst. unfold ex_scores. cbn [map2]. apply Forall_cons; [apply (BB _ 2%nat S1); lia|]. apply Forall_cons; [apply (BB _ 1%nat S2); lia|apply Forall_nil].
    + change (bpow radix2 60) with (IZR (2 ^ 60)). cbn. lra.
    + unfold ex_scores in H. cbn [map2] in H. change (length (pt_labels ex_tbl)) with 3%nat in H. change (Z.to_nat 2) with 2%nat in H. change (Z.to_nat 1) with 1%nat in H.
      set (e1 := exact_brier true (share [f_of_Z 700; fninf; f_of_Z 705]) 2 3) in *. set (e2 := exact_brier true (share [f_of_Z (-1000); f_of_Z 3; f_of_Z 3]) 1 3) in *.
      change (total [e1; e2]) with (e1 + (e2 + 0)) in H. change (INR (length [2; 1]%Z)) with (1 + 1) in H. replace (INR 3) with 3 in H by (cbn; lra).
      replace ((e1 + e2) / 2) with ((e1 + (e2 + 0)) / (1 + 1)) by field. eapply Rle_trans; [exact H|].
      pose proof (bpow_le radix2 (-1075) (-52) ltac:(lia)). pose proof (bpow_le radix2 (-52) (-43) ltac:(lia)). assert (bpow radix2 (-43) <= / 8796093022208) by (cbn; lra). lra.
Qed.
(** The same for a Gaussian prediction and for a decision. *)
Example C104_regression_example :
  exists x, @r_log_loss _ _ ex_lib (f_of_Z 1) [f_of_Z 1] [f_of_Z 3] [f_of_Z 2] = Ok [x] /\ fisfin x = true /\ Rabs (B2R x - gauss_nll 1 1 3 2) <= / 10000000000000.
Proof.
  destruct C104_library as (_ & _ & AL & _).
  assert (forall n, (Z.abs n <= 1000)%Z -> sized (f_of_Z n) /\ B2R (f_of_Z n) = IZR n) as SZ.
  { intros n H. destruct (small_score n H) as [F B]. split; [|apply f_of_Z_correct; lia]. split; [exact F|]. eapply Rle_trans; [exact B|]. apply Rle_trans with (bpow radix2 10); [change (bpow radix2 10) with (IZR (2 ^ 10)); cbn; lra|]. apply bpow_le. lia. }
  assert (exists x, @r_log_loss _ _ ex_lib (f_of_Z 1) [f_of_Z 1] [f_of_Z 3] [f_of_Z 2] = Ok [x]) as [x E].
  { unfold r_log_loss. replace (r_shape_and_validate [f_of_Z 1] [f_of_Z 3] [f_of_Z 2]) with (Ok 1%nat) by (vm_compute; reflexivity). cbn [bind combine map2 fst snd]. eexists. reflexivity. }
  destruct (SZ 1%Z ltac:(lia)) as [S1 V1], (SZ 2%Z ltac:(lia)) as [S2 V2], (SZ 3%Z ltac:(lia)) as [S3 V3].
  destruct (C104_gaussian_log_loss round_exp round_log tame_sf tame_ppf tame_eig (f_of_Z 1) [f_of_Z 1] [f_of_Z 3] [f_of_Z 2] [x] AL S1 (Forall_cons _ S1 (Forall_nil _)) (Forall_cons _ S3 (Forall_nil _))) as [_ H].
  - apply Forall_cons; [|apply Forall_nil]. rewrite V2. split; [apply (bpow_le radix2 _ 1); lia|apply (bpow_le radix2 1); lia].
  - exact E.
  - destruct (H 0%nat _ _ _ eq_refl eq_refl eq_refl) as (x' & Q & Fx & B). injection Q as <-. exists x. split; [exact E|]. split; [exact Fx|]. rewrite V1, V2, V3 in B. eapply Rle_trans; [exact B|].
    assert (Rabs (ln 2) <= 1) as L2.
    { pose proof (exp_ineq1_le (ln 2)) as I. rewrite exp_ln in I by lra. pose proof (ln_increasing 1 2 ltac:(lra) ltac:(lra)) as J. rewrite ln_1 in J. apply Rabs_le. lra. }
    rewrite Rabs_R1. replace ((1 - 3) ^ 2 / (2 * 2 ^ 2)) with (/ 2) by field. assert (0 < bpow radix2 (-49) <= / 562949953421312) by (cbn; lra). nra.
Qed.
Example C104_decision_example :
  let mat := [[f0; f_of_Z 1]; [f_of_Z 5; f0]; [f_of_Z 2; f_of_Z 2]] in
  exists P acts, @any_normalize _ _ ex_lib nsum 3 ex_scores = Ok P /\ @hard_loss_decision _ _ ex_lib P 3 mat 2 = Ok acts /\
    Forall2 (fun row a => forall b, (b < 2)%nat ->
      total (map (fun k => share row k * B2R (nth a (nth k mat []) f0)) (seq 0 3)) <= total (map (fun k => share row k * B2R (nth b (nth k mat []) f0)) (seq 0 3)) + / 1000000000) ex_scores acts.
Proof.
  intros mat. destruct C104_library as (EL & AE & _ & _).
  destruct (C95_normalize _ _ tame_sf tame_ppf tame_eig EL nsum nsum_sums 10 3 ex_scores) as (P & EP & _); [lia|lia|exact three_labels|apply ex_scores_ok; lia|].
  assert (exists acts, @hard_loss_decision _ _ ex_lib P 3 mat 2 = Ok acts) as [acts EA].
  { unfold hard_loss_decision. cbn [Nat.eqb length mat negb]. apply ListLemmas.mapM_total. intros row _. unfold expected_losses. cbn [seq map argmin]. eexists. reflexivity. }
  exists P, acts. split; [exact EP|]. split; [exact EA|].
  assert (forall n, (Z.abs n <= 5)%Z -> fisfin (f_of_Z n) = true /\ Rabs (B2R (f_of_Z n)) <= 5) as SZ.
  { intros n H. destruct (f_of_Z_correct n) as [V F]; [lia|]. split; [exact F|]. rewrite V, <- abs_IZR. now apply (IZR_le _ 5). }
  assert (fisfin f0 = true /\ Rabs (B2R f0) <= 5) as SZ0 by (split; [reflexivity|]; change (B2R f0) with 0; rewrite Rabs_R0; lra).
  assert (0 <= 1000 <= bpow radix2 30) as A30 by (change (bpow radix2 30) with (IZR (2 ^ 30)); cbn; lra).
  assert (bpow radix2 (-900) <= 5 <= bpow radix2 900) as M5.
  { split; [apply Rle_trans with (bpow radix2 0); [apply bpow_le; lia|change (bpow radix2 0) with 1; lra]|apply Rle_trans with (bpow radix2 3); [change (bpow radix2 3) with 8; lra|apply bpow_le; lia]]. }
  pose proof (C104_decision round_exp round_log tame_sf tame_ppf tame_eig EL AE nsum nsum_sums 3 1000 ex_scores P mat 2 acts 5 A30 three_labels) as H.
  assert (Forall (scores 3 1000) ex_scores) as SC by (eapply Forall_impl; [|exact ex_scores_small]; intros row Q; exact Q).
  specialize (H SC eq_refl). assert (Forall2 (fun row a => let risk b := total (map (fun k => share row k * B2R (nth b (nth k mat []) f0)) (seq 0 3)) in
      (a < 2)%nat /\ forall b, (b < 2)%nat -> risk a <= risk b + bpow radix2 (-44) * (INR 3 + 1000) * 5) ex_scores acts) as G.
  { apply H; auto. unfold mat. repeat (apply Forall_cons; [split; [reflexivity|repeat (apply Forall_cons; [first [exact SZ0|apply SZ; lia]|]); apply Forall_nil]|]). apply Forall_nil. }
  clear H EA EP. induction G as [|row a l m [_ H] G IH]; constructor; [|apply IH; now inversion SC]. intros b Hb. specialize (H b Hb). cbv zeta in H. eapply Rle_trans; [exact H|]. apply Rplus_le_compat_l.
  replace (INR 3) with 3 by (cbn; lra). assert (0 < bpow radix2 (-44) <= / 17592186044416) by (cbn; lra). lra.
Qed.
