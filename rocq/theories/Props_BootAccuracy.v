(** Property theorems C105: bootstrap intervals, error bars and p-values in
    double precision against the exact ones for the same draw.  Model:
    BootUtil.v, MLPaper.v. *)
From Coq Require Import Reals Lra Lia Permutation Sorted.
From Flocq Require Import Core BinarySingleNaN.
From Verif Require Import PyBase ListLemmas F64 Num F64Lemmas NumOk SumProofs Util UtilProofs BootUtil BootProofs BootProofs2 PerfCurves MLPaper MLProofs CompareProofs
  SwapProofs MeanProofs DoublesProofs DoublesProofs2 AccuracyProofs BootAccuracy.
From Verif Require Import Props_Boot Props_MLPaper Props_Mean Props_Doubles Props_Accuracy.
Open Scope R_scope.

(** ** The specification *)
(** entry [k], from 0, of [l] in increasing order *)
Definition order_statistic (l : list R) (k : nat) (v : R) : Prop := exists s, Permutation l s /\ Sorted Rle s /\ nth_error s k = Some v.
(** how many entries satisfy a test *)
Definition how_many (f : R -> bool) (l : list R) : nat := length (filter f l).
(** the mean of the sample in which value [i] occurs [nth i row] times *)
Definition resampled_mean (values : list R) (row : list Z) : R := fold_right Rplus 0 (map2 (fun a k => IZR k * a) values row) / INR (length values).
(** the rank of the lower end of a percentile interval of [n] replicates; the
    upper end has the same rank from above *)
Definition end_rank (confidence : f64) (n : nat) : nat := Z.to_nat (Zfloor ((1 - B2R confidence) / 2 * (INR n - 1))).
(** the confidence level does not fall on a replicate, up to rounding *)
Definition off_rank (confidence : f64) (n : nat) : Prop :=
  forall z : Z, INR n * bpow radix2 (-50) < Rabs ((1 - B2R confidence) / 2 * (INR n - 1) - IZR z).
(** at most 2^30 losses, none larger than [K] *)
Definition sized_losses (K : R) (x : list f64) : Prop :=
  (2 <= length x)%nat /\ INR (length x) <= bpow radix2 30 /\ Forall (fun v => fisfin v = true /\ Rabs (B2R v) <= K) x /\ K <= bpow radix2 400.
(** what rounding does to a replicate *)
Definition replicate_slack (x : list f64) (K : R) : R := (INR (length x) + 3) * bpow radix2 (-52) * K + bpow radix2 (-1070).
Definition values (x : list f64) : list R := map B2R x.

(** *** bridges *)
Lemma resampled_rmean v row : resampled_mean v row = rmean v row.
Proof. reflexivity. Qed.
Lemma resampled_all x counts : map (resampled_mean (values x)) counts = map (wmean x) counts.
Proof. apply map_ext. intros row. symmetry. exact (wmean_rmean x row). Qed.
Lemma away_off c n : off_rank c n -> away (Z.of_nat n) ((1 - B2R c) / 2 * (INR n - 1)).
Proof. intros H z. rewrite <- INR_IZR_INZ. apply H. Qed.
Lemma sized_pos K x : sized_losses K x -> 0 <= K.
Proof. intros (N & _ & F & _). destruct F as [|a l [_ H] _]; [cbn in N; lia|]. pose proof (Rabs_pos (B2R a)). lra. Qed.
Lemma slack_bound K x : sized_losses K x -> 0 <= replicate_slack x K <= bpow radix2 390.
Proof.
  intros S. pose proof (sized_pos _ _ S) as P. destruct S as (N & M & _ & KB). pose proof (pos_INR (length x)) as Pn. pose proof (bpow_gt_0 radix2 (-52)) as P52. pose proof (bpow_gt_0 radix2 (-1070)) as T.
  unfold replicate_slack. assert (0 <= (INR (length x) + 3) * bpow radix2 (-52)) as Q by (apply Rmult_le_pos; lra). split; [assert (0 <= (INR (length x) + 3) * bpow radix2 (-52) * K) by (apply Rmult_le_pos; assumption); lra|].
  assert ((INR (length x) + 3) * bpow radix2 (-52) <= bpow radix2 (-11)) as Q1.
  { replace (bpow radix2 (-11)) with (bpow radix2 41 * bpow radix2 (-52)) by (now rewrite <- bpow_plus). apply Rmult_le_compat_r; [lra|]. replace (bpow radix2 41) with (bpow radix2 30 * 2048) by (change 2048 with (bpow radix2 11); now rewrite <- bpow_plus). assert (3 <= bpow radix2 30) by (cbn; lra). lra. }
  assert ((INR (length x) + 3) * bpow radix2 (-52) * K <= bpow radix2 (-11) * bpow radix2 400) as Q2 by (apply Rmult_le_compat; assumption). rewrite <- bpow_plus in Q2.
  assert (bpow radix2 (-1070) <= bpow radix2 (-11 + 400)) as Q3 by (apply bpow_le; lia). replace (bpow radix2 390) with (2 * bpow radix2 (-11 + 400)) by (change 2 with (bpow radix2 1); now rewrite <- bpow_plus). lra.
Qed.
Lemma K_usual K x : sized_losses K x -> usual_losses x.
Proof. intros (N & M & F & KB). split; [exact N|]. split; [exact M|]. eapply Forall_impl; [|exact F]. intros v [A B]. split; [exact A|lra]. Qed.
Lemma mean_of K x : sized_losses K x -> fisfin (nmean x) = true /\ Rabs (B2R (nmean x) - exact_mean x) <= replicate_slack x K /\ Rabs (exact_mean x) <= K.
Proof.
  intros S. pose proof (sized_pos _ _ S) as P. pose proof (K_usual _ _ S) as U. destruct S as (N & M & F & KB). assert (usual_length x) as UL by (split; [lia|exact M]).
  destruct (C91_mean_accuracy x UL (usual_fin x U) (usual_total x U)) as [Fm E]. split; [exact Fm|].
  assert (1 <= INR (length x)) as N1 by (apply (le_INR 1); lia). set (n := INR (length x)) in *.
  assert (total_size x / n <= K) as T.
  { apply (Rmult_le_reg_r n); [lra|]. unfold Rdiv. rewrite Rmult_assoc, Rinv_l by lra. rewrite Rmult_1_r, (Rmult_comm K). unfold total_size, n. clear - F. induction F as [|a l [_ A] F IH]; [cbn; lra|]. cbn [map fold_right length]. rewrite S_INR. lra. }
  split.
  - eapply Rle_trans; [exact E|]. unfold replicate_slack. fold n. pose proof (bpow_gt_0 radix2 (-52)) as P52. assert (bpow radix2 (-1075) <= bpow radix2 (-1070)) by (apply bpow_le; lia).
    assert ((n + 1) * bpow radix2 (-52) * (total_size x / n) <= (n + 3) * bpow radix2 (-52) * K); [|lra].
    apply Rle_trans with ((n + 1) * bpow radix2 (-52) * K); [apply Rmult_le_compat_l; [apply Rmult_le_pos; lra|exact T]|]. apply Rmult_le_compat_r; [exact P|]. apply Rmult_le_compat_r; lra.
  - apply Rabs_le. split; [apply exact_mean_ge|apply exact_mean_le]; try (exact (proj1 UL)); (eapply Forall_impl; [|exact F]); intros a [_ A]; apply Rabs_le_inv in A; lra.
Qed.

(** ** The percentile interval is made of the order statistics *)
Theorem C105_percentile :
  forall (b : list f64) confidence lb ub,
  Forall (fun v => fisfin v = true) b -> (Z.of_nat (length b) <= 2 ^ 53)%Z -> off_rank confidence (length b) -> percentile b confidence = Ok (lb, ub) ->
  let k := end_rank confidence (length b) in
  (k <= length b - 1 - k)%nat /\ (k < length b)%nat /\
  order_statistic (values b) k (B2R lb) /\ order_statistic (values b) (length b - 1 - k) (B2R ub).
Proof.
  intros b c lb ub F N O H k. destruct (percentile_exact b c lb ub F N H (away_off _ _ O)) as (A & B & C & D & _). auto.
Qed.
Print Assumptions C105_percentile.

(** ** The replicates *)
Theorem C105_replicates :
  forall (x : list f64) counts K W,
  sized_losses K x -> multinomial_outcome (Z.of_nat (length x)) 1000 counts -> boot_weights counts (Z.of_nat (length x)) 1000 n0 = Ok W ->
  Forall2 (fun w row => fisfin (weighted_mean x w) = true /\ Rabs (B2R (weighted_mean x w) - resampled_mean (values x) row) <= replicate_slack x K) W counts.
Proof.
  intros x counts K W (N & M & F & KB) MO H. unfold boot_weights in H. apply assert_ok in H as [_ H]. apply assert_ok in H as [_ H]. apply Ok_inj in H. subst W.
  destruct MO as [_ MO]. induction MO as [|row counts (L & P & S) MO IH]; cbn [map]; constructor; [|exact IH].
  destruct (replicate_err x row K ltac:(lia) M F KB L P S) as (A & B & _). rewrite wmean_rmean in B. split; [exact A|exact B].
Qed.
Print Assumptions C105_replicates.

(** ** The error bar of one column *)
Definition plain_mean (v : list R) : R := fold_right Rplus 0 v / INR (length v).
(** [w] is the half-width of the symmetric interval around the mean of [v] that
    contains the percentile interval of its replicates *)
Definition boot_half_width (v : list R) (counts : list (list Z)) (confidence : f64) (w : R) : Prop :=
  let replicates := map (resampled_mean v) counts in let k := end_rank confidence (length counts) in let m := plain_mean v in
  exists lo hi, order_statistic replicates k lo /\ order_statistic replicates (length counts - 1 - k) hi /\ lo <= hi /\ w = Rmax (hi - m) (m - lo).
Definition width_slack (x : list f64) (K : R) : R := (INR (length x) + 4) * bpow radix2 (-51) * K + bpow radix2 (-1068).

Lemma plain_exact x : plain_mean (values x) = exact_mean x.
Proof. unfold plain_mean, values, exact_mean, exact_sum. now rewrite map_length. Qed.
Lemma half_width_pos v counts c w : boot_half_width v counts c w -> 0 <= w.
Proof. intros (lo & hi & _ & _ & L & ->). unfold Rmax. destruct Rle_dec; lra. Qed.
Lemma close_self (x : list f64) : Forall2 (fun a r => Rabs (B2R a - r) <= 0) x (values x).
Proof. unfold values. induction x; cbn [map]; constructor; auto. rewrite Rminus_eq_0, Rabs_R0. lra. Qed.
Lemma values_length (x : list f64) : length (values x) = length x.
Proof. apply map_length. Qed.
Lemma F2_values d (x : list f64) v : Forall2 (fun a r => Rabs (B2R a - r) <= d) x v -> Forall2 (fun a r => Rabs (a - r) <= d) (values x) v.
Proof. unfold values. intros F. induction F; cbn [map]; constructor; auto. Qed.
Lemma near_all (x : list f64) counts v d : Forall2 (fun a r => Rabs (B2R a - r) <= d) x v -> (2 <= length x)%nat -> multinomial_outcome (Z.of_nat (length x)) 1000 counts ->
  Forall2 (fun a r => Rabs (a - r) <= d) (map (wmean x) counts) (map (resampled_mean v) counts).
Proof.
  intros FV N [_ MO]. induction MO as [|row counts (L & P & S) MO IH]; cbn [map]; constructor; [|exact IH].
  rewrite wmean_rmean. fold (values x). pose proof (values_length x) as LX. apply rmean_close; try lia; [|exact P]. now apply F2_values.
Qed.
Lemma core_err (x : list f64) counts c K rT e p ci d v :
  sized_losses K x -> multinomial_outcome (Z.of_nat (length x)) 1000 counts -> off_rank c 1000 ->
  @_boot_EB_and_test _ _ counts x c 1000 true rT false = Ok (e, p, ci) -> Forall2 (fun a r => Rabs (B2R a - r) <= d) x v -> 0 <= d <= bpow radix2 390 -> Forall (fun r => Rabs r <= K) v ->
  exists w, boot_half_width v counts c w /\ fisfin e = true /\ Rabs (B2R e - w) <= 2 * (replicate_slack x K + d) + bpow radix2 (-53) * (2 * K + 2 * (replicate_slack x K + d)).
Proof.
  intros S MO O H FV D0 KV. pose proof (slack_bound _ _ S) as SB. pose proof (mean_of _ _ S) as (Fm & Em & Km). pose proof S as (N & M & F & KB).
  destruct (replicates_err x counts K ltac:(lia) M F KB MO) as (L1 & F1 & K1 & F2). cbv zeta in *. set (ms := map (weighted_mean x) _) in *.
  assert (length counts = 1000)%nat as LC by (destruct MO as [Q _]; lia). assert (length v = length x) as LV by (symmetry; exact (F2_length _ _ _ FV)).
  unfold _boot_EB_and_test in H. apply assert_ok in H as [_ H]. destruct (degenerate x) eqn:D.
  { unfold degenerate in D. apply orb_prop in D as [D|D]; [apply Z.leb_le in D; lia|]. exfalso. apply negb_true_iff in D. assert (forallb nisfin x = true) as Q; [|congruence].
    apply forallb_forall. intros a I. rewrite Forall_forall in F. now apply F. }
  unfold boot_weights in H. apply bind_ok in H as (W & Q & H). apply assert_ok in Q as [_ Q]. apply assert_ok in Q as [_ Q]. apply Ok_inj in Q. subst W. fold ms in H.
  apply bind_ok in H as (pv & _ & H). apply bind_ok in H as (e' & E & H). cbn [bind] in H. apply Ok_inj in H. apply pair_equal_spec in H as [H _]. apply pair_equal_spec in H as [<- _].
  pose proof (near_all x counts v d FV N MO) as NA.
  assert (Rabs (exact_mean x - plain_mean v) <= d) as MC. { rewrite <- plain_exact. apply mean_close; [now apply F2_values|]. rewrite values_length. lia. }
  destruct (error_bar_err ms (map (resampled_mean v) counts) (nmean x) c e' (plain_mean v) K (replicate_slack x K + d)) as (lo & hi & H1 & H2 & H3 & H4 & H5); auto.
  - rewrite L1. lia.
  - eapply F2_widen; [exact F2|exact NA].
  - clear - KV MO LV N. destruct MO as [_ MO]. induction MO as [|row counts (L & P & S) MO IH]; cbn [map]; constructor; [|exact IH]. apply rmean_bound; auto; lia.
  - replace (B2R (nmean x) - plain_mean v) with ((B2R (nmean x) - exact_mean x) + (exact_mean x - plain_mean v)) by ring. eapply Rle_trans; [apply Rabs_triang|]. lra.
  - replace (plain_mean v) with (rmean v (repeat 1%Z (length v))).
    + apply rmean_bound; auto; try lia; [now rewrite repeat_length| |].
      * apply Forall_forall. intros k I. apply repeat_spec in I. lia.
      * clear. induction v as [|a v IH]; [reflexivity|]. cbn [length repeat fold_right]. rewrite IH. lia.
    + unfold rmean, plain_mean. f_equal. clear. induction v as [|a v IH]; [reflexivity|]. cbn [length repeat map2 fold_right]. rewrite Rsum_cons, IH. ring.
  - split; [lra|]. apply Rle_trans with (2 * bpow radix2 390); [lra|]. change 2 with (bpow radix2 1). rewrite <- bpow_plus. apply bpow_le. lia.
  - rewrite L1. exact (away_off _ _ O).
  - rewrite L1 in H1, H2. exists (Rmax (hi - plain_mean v) (plain_mean v - lo)). split.
    { exists lo, hi. rewrite LC. auto. }
    split; [exact H4|]. exact H5.
Qed.
Lemma width_slack_bound K x : sized_losses K x ->
  2 * replicate_slack x K + bpow radix2 (-53) * (2 * K + 2 * replicate_slack x K) <= width_slack x K.
Proof.
  intros S. pose proof (sized_pos _ _ S) as PK. pose proof S as (N & M & F & KB). fold u64.
  unfold width_slack, replicate_slack in *. set (n := INR (length x)) in *.
  assert (bpow radix2 (-51) = 4 * u64 /\ bpow radix2 (-52) = 2 * u64 /\ bpow radix2 (-1068) = 4 * bpow radix2 (-1070)) as (B1 & B2 & B3).
  { unfold u64. change 4 with (bpow radix2 2). change 2 with (bpow radix2 1). now rewrite <- !bpow_plus. }
  pose proof u64_pos as U. pose proof u64_small as U'. pose proof (bpow_gt_0 radix2 (-1070)) as T. rewrite B1, B3. rewrite B2 in *.
  assert (2 <= n) as N2 by (apply (le_INR 2); exact N). pose proof (maxn_u (length x) M) as MU. fold n in MU. pose proof p23 as P23.
  assert (0 <= u64 * K) as UK by (apply Rmult_le_pos; lra). assert (u64 * ((n + 3) * (2 * u64) * K) <= u64 * K) as Q1.
  { replace (u64 * ((n + 3) * (2 * u64) * K)) with ((2 * (n * u64) + 6 * u64) * (u64 * K)) by ring. apply Rle_trans with (1 * (u64 * K)); [apply Rmult_le_compat_r; lra|lra]. }
  assert (u64 * bpow radix2 (-1070) <= / 1024 * bpow radix2 (-1070)) as Q2 by (apply Rmult_le_compat_r; lra).
  replace (u64 * (2 * K + 2 * ((n + 3) * (2 * u64) * K + bpow radix2 (-1070)))) with (2 * (u64 * K) + 2 * (u64 * ((n + 3) * (2 * u64) * K)) + 2 * (u64 * bpow radix2 (-1070))) by ring.
  replace ((n + 4) * (4 * u64) * K) with (2 * ((n + 3) * (2 * u64) * K) + 4 * (u64 * K)) by ring. lra.
Qed.
Lemma self_err (x : list f64) counts c K rT e p ci :
  sized_losses K x -> multinomial_outcome (Z.of_nat (length x)) 1000 counts -> off_rank c 1000 ->
  @_boot_EB_and_test _ _ counts x c 1000 true rT false = Ok (e, p, ci) ->
  exists w, boot_half_width (values x) counts c w /\ fisfin e = true /\ Rabs (B2R e - w) <= width_slack x K.
Proof.
  intros S MO O E. destruct (core_err x counts c K rT e p ci 0 (values x) S MO O E (close_self x)) as (w & A & B & D).
  - split; [lra|apply bpow_ge_0].
  - destruct S as (_ & _ & F & _). unfold values. apply Forall_forall. intros r I. apply in_map_iff in I as (a & <- & I). rewrite Forall_forall in F. now apply F.
  - exists w. split; [exact A|]. split; [exact B|]. rewrite !Rplus_0_r in D. eapply Rle_trans; [exact D|]. exact (width_slack_bound K x S).
Qed.
Theorem C105_error_bar :
  forall (x : list f64) counts confidence K e,
  sized_losses K x -> multinomial_outcome (Z.of_nat (length x)) 1000 counts -> off_rank confidence 1000 ->
  boot_EB counts x confidence 1000 = Ok e ->
  exists w, boot_half_width (values x) counts confidence w /\ fisfin e = true /\ Rabs (B2R e - w) <= width_slack x K.
Proof.
  intros x counts c K e S MO O H. unfold boot_EB in H. apply bind_ok in H as ([[e' p] ci] & E & H). cbn [fst snd] in H. apply assert_ok in H as [_ H]. apply Ok_inj in H. subst e'.
  exact (self_err x counts c K false e p ci S MO O E).
Qed.
Print Assumptions C105_error_bar.

(** ** The p-value of one column *)
(** twice the smaller tail: the fraction of the replicates on the other side of 0 *)
Definition boot_p_value (replicates : list R) : R :=
  Rmin 1 (2 * (INR (Nat.min (how_many (fun r => Rleb r 0) replicates) (how_many (fun r => Rleb 0 r) replicates)) / INR (length replicates))).
Lemma test_err (x : list f64) counts c K rE e p ci d (v : list R) :
  sized_losses K x -> multinomial_outcome (Z.of_nat (length x)) 1000 counts ->
  @_boot_EB_and_test _ _ counts x c 1000 rE true false = Ok (e, p, ci) -> Forall2 (fun a r => Rabs (B2R a - r) <= d) x v -> 0 <= d ->
  let replicates := map (resampled_mean v) counts in
  Rabs (B2R p - boot_p_value replicates) <= 2 * (INR (how_many (fun r => Rleb (Rabs r) (replicate_slack x K + d)) replicates) / 1000) + bpow radix2 (-51).
Proof.
  intros S MO H FV D0 reps. pose proof S as (N & M & F & KB).
  destruct (replicates_err x counts K ltac:(lia) M F KB MO) as (L1 & F1 & K1 & F2). cbv zeta in *. set (ms := map (weighted_mean x) _) in *.
  assert (length counts = 1000)%nat as LC by (destruct MO as [Q _]; lia).
  unfold _boot_EB_and_test in H. apply assert_ok in H as [_ H]. destruct (degenerate x) eqn:D.
  { unfold degenerate in D. apply orb_prop in D as [D|D]; [apply Z.leb_le in D; lia|]. exfalso. apply negb_true_iff in D. assert (forallb nisfin x = true) as Q; [|congruence].
    apply forallb_forall. intros a I. rewrite Forall_forall in F. now apply F. }
  unfold boot_weights in H. apply bind_ok in H as (W & Q & H). apply assert_ok in Q as [_ Q]. apply assert_ok in Q as [_ Q]. apply Ok_inj in Q. subst W. fold ms in H.
  apply bind_ok in H as (pv & E & H). apply bind_ok in H as (e' & _ & H). cbn [bind] in H. apply Ok_inj in H. apply pair_equal_spec in H as [H _]. apply pair_equal_spec in H as [_ ->].
  assert (Props_Boot.sized ms) as SZ by (split; [intros Q; rewrite Q in L1; discriminate|rewrite L1; lia]).
  pose proof (C40_tail_fractions ms (Scalar f0) p SZ eq_refl E) as T. cbv zeta in T. cbn [ref_values] in T. destruct (tails ms F1) as [T1 T2]. cbv zeta in T1, T2. rewrite T1, T2 in T. clear T1 T2.
  assert (Forall2 (fun a r => Rabs (a - r) <= replicate_slack x K + d) (map B2R ms) reps) as G.
  { eapply F2_widen; [exact F2|exact (near_all x counts v d FV N MO)]. }
  pose proof (p_value_err ms reps (replicate_slack x K + d) F1 G ltac:(lia)) as R. cbv zeta in R. rewrite <- T in R. rewrite L1 in R. replace (INR 1000) with 1000 in R by (rewrite INR_IZR_INZ; reflexivity).
  unfold boot_p_value. replace (INR (length reps)) with 1000 by (unfold reps; rewrite map_length, LC, INR_IZR_INZ; reflexivity). exact R.
Qed.
Theorem C105_p_value :
  forall (x : list f64) counts K p,
  sized_losses K x -> multinomial_outcome (Z.of_nat (length x)) 1000 counts -> boot_test counts x 1000 = Ok p ->
  let replicates := map (resampled_mean (values x)) counts in
  Rabs (B2R p - boot_p_value replicates) <= 2 * (INR (how_many (fun r => Rleb (Rabs r) (replicate_slack x K)) replicates) / 1000) + bpow radix2 (-51).
Proof.
  intros x counts K p S MO H reps. unfold boot_test in H. apply bind_ok in H as ([[e p'] ci] & E & H). cbn [fst snd] in H. apply assert_ok in H as [_ H]. apply Ok_inj in H. subst p'.
  pose proof (test_err x counts _ K false e p ci 0 (values x) S MO E (close_self x) (Rle_refl 0)) as R. cbv zeta in R. rewrite Rplus_0_r in R. exact R.
Qed.
Print Assumptions C105_p_value.

(** ** What the estimators return, after clipping *)
Lemma mean_slack_le K x : sized_losses K x -> mean_slack x <= replicate_slack x K.
Proof.
  intros S. pose proof (sized_pos _ _ S) as P. destruct S as (N & M & F & KB). assert (1 <= INR (length x)) as N1 by (apply (le_INR 1); lia). unfold mean_slack, mean_size, replicate_slack. set (n := INR (length x)) in *.
  assert (total_size x / n <= K) as T.
  { apply (Rmult_le_reg_r n); [lra|]. unfold Rdiv. rewrite Rmult_assoc, Rinv_l by lra. rewrite Rmult_1_r, (Rmult_comm K). unfold total_size, n. clear - F. induction F as [|a l [_ A] F IH]; [cbn; lra|]. cbn [map fold_right length]. rewrite S_INR. lra. }
  pose proof (bpow_gt_0 radix2 (-52)) as P52. assert (bpow radix2 (-1075) <= bpow radix2 (-1070)) by (apply bpow_le; lia).
  assert ((n + 1) * bpow radix2 (-52) * (total_size x / n) <= (n + 3) * bpow radix2 (-52) * K); [|lra].
  apply Rle_trans with ((n + 1) * bpow radix2 (-52) * K); [apply Rmult_le_compat_l; [apply Rmult_le_pos; lra|exact T]|]. apply Rmult_le_compat_r; [exact P|]. apply Rmult_le_compat_r; lra.
Qed.
Lemma fitted_lip w a b d lo up : Rabs (a - b) <= d -> Rabs (fitted w a lo up - fitted w b lo up) <= d.
Proof.
  intros D. assert (0 <= d) as P by (eapply Rle_trans; [apply Rabs_pos|exact D]). unfold fitted. destruct (fisfin lo && fisfin up).
  - apply Rmin_lip; [rewrite Rminus_eq_0, Rabs_R0; exact P|]. apply Rmax_lip; apply Rabs_le_inv in D; apply Rabs_le; lra.
  - rewrite Rminus_eq_0, Rabs_R0. exact P.
Qed.

Section C105.
  Context (FT : fn f64).

  (** [returned b ... mu e p]: one of the two estimators returned [mu] and [e],
      and the second of them ([b]) the p-value [p] *)
  Definition returned (with_test : bool) counts (x : list f64) confidence lower upper mu e p : Prop :=
    if with_test then get_mean_EB_test counts x confidence f0 lower upper Mboot = Ok (mu, e, p)
    else get_mean_and_EB counts x confidence f0 lower upper Mboot = Ok (mu, e).

  Lemma boot_parts b counts (x : list f64) c lo up mu e p K : sized_losses K x -> ordinary_limit lo -> ordinary_limit up -> returned b counts x c lo up mu e p ->
    exists eb ci q, @_boot_EB_and_test _ _ counts x c 1000 true b false = Ok (eb, q, ci) /\ (b = true -> q = p) /\ clip_EB mu eb lo up f0 = Ok e /\ bdd 400 mu /\
      Rabs (B2R mu - exact_mean x) <= replicate_slack x K /\ (fisfin lo = true -> B2R lo <= exact_mean x) /\ (fisfin up = true -> exact_mean x <= B2R up).
  Proof.
    intros S Ol Ou H. pose proof (mean_slack_le _ _ S) as MS. pose proof (K_usual _ _ S) as U. pose proof (usual_bdd x U) as F. pose proof (usual_fin x U) as Ff. pose proof (usual_total x U) as T. destruct U as (N & M & _).
    assert (usual_length x) as UL by (split; [lia|exact M]).
    assert (fisfin mu = true /\ Rabs (B2R mu - exact_mean x) <= mean_slack x) as [Fm E].
    { apply (C91_reported_mean FT counts x c f0 lo up mu e p Mboot UL Ff T). destruct b; [right|left]; exact H. }
    assert (exists eb ci q, @_boot_EB_and_test _ _ counts x c 1000 true b false = Ok (eb, q, ci) /\ (b = true -> q = p) /\ clip_EB mu eb lo up f0 = Ok e /\ within lo up x = true /\ clip_chk isclose (nmean x) lo up = Ok mu)
      as (eb & ci & q & X & PQ & Y & W & K').
    { unfold returned in H. destruct b; [unfold get_mean_EB_test in H|unfold get_mean_and_EB in H]; apply assert_ok in H as [W H].
      - apply bind_ok in H as (r & X & H). apply bind_ok in H as (mu' & K' & H). apply bind_ok in H as (e' & Y & H). apply Ok_inj in H. apply pair_equal_spec in H as [H Hp]. apply pair_equal_spec in H as [<- <-].
        apply bind_ok in X as ([[eb q] ci] & X & Q). apply Ok_inj in Q. subst r. cbn [fst snd] in *. exists eb, ci, q. auto.
      - apply bind_ok in H as (eb & X & H). apply bind_ok in H as (mu' & K' & H). apply bind_ok in H as (e' & Y & H). apply Ok_inj in H. apply pair_equal_spec in H as [<- <-].
        unfold boot_EB in X. apply bind_ok in X as ([[eb' q] ci] & X & Q). cbn [fst snd] in Q. apply assert_ok in Q as [_ Q]. apply Ok_inj in Q. subst eb'. exists eb, ci, q. split; [exact X|]. split; [discriminate|auto]. }
    exists eb, ci, q. split; [exact X|]. split; [exact PQ|]. split; [exact Y|]. pose proof (of_within _ _ _ W) as L.
    assert (bdd 400 mu) as Bm.
    { unfold clip_chk in K'. apply assert_ok in K' as [_ K']. apply Ok_inj in K'. unfold nclip in K'. destruct (nltb (nmean x) lo); [subst mu; apply bdd_iff; auto|].
      destruct (nltb up (nmean x)); [subst mu; apply bdd_iff; auto|]. subst mu. apply bdd_mean; auto; lia. }
    split; [exact Bm|]. split; [lra|].
    unfold in_limits in L. rewrite Forall_forall in L, Ff. split; intros Fb.
    - apply exact_mean_ge; [exact (proj1 UL)|]. apply Forall_forall. intros v I. apply fleb_fin; auto. now apply L.
    - apply exact_mean_le; [exact (proj1 UL)|]. apply Forall_forall. intros v I. apply fleb_fin; auto. now apply L.
  Qed.

  Lemma boot_fit b counts (x : list f64) c lo up mu e p K d v :
    sized_losses K x -> multinomial_outcome (Z.of_nat (length x)) 1000 counts -> off_rank c 1000 -> ordinary_limit lo -> ordinary_limit up -> returned b counts x c lo up mu e p ->
    Forall2 (fun a r => Rabs (B2R a - r) <= d) x v -> 0 <= d <= bpow radix2 390 -> Forall (fun r => Rabs r <= K) v ->
    exists w, boot_half_width v counts c w /\ fisfin e = true /\ 0 <= B2R e /\
    Rabs (B2R e - fitted w (plain_mean v) lo up) <=
      2 * (replicate_slack x K + d) + bpow radix2 (-53) * (2 * K + 2 * (replicate_slack x K + d)) + (replicate_slack x K + d) + bpow radix2 (-53) * range_of lo up.
  Proof.
    intros S MO O Ol Ou H FV D0 KV. destruct (boot_parts _ _ _ _ _ _ _ _ _ _ S Ol Ou H) as (eb & ci & q & X & _ & Y & Bm & Em & L1 & L2).
    destruct (core_err x counts c K b eb q ci d v S MO O X FV D0 KV) as (w & W & Fe & D). exists w. split; [exact W|].
    assert (Rabs (exact_mean x - plain_mean v) <= d) as MC.
    { rewrite <- plain_exact. apply mean_close; [now apply F2_values|]. rewrite values_length. destruct S as (N & _). lia. }
    pose proof (half_width_pos _ _ _ _ W) as Pw.
    destruct (clip_err mu eb lo up e w (exact_mean x) (2 * (replicate_slack x K + d) + bpow radix2 (-53) * (2 * K + 2 * (replicate_slack x K + d))) (replicate_slack x K)) as (A & B & C); auto.
    - intros Fl. apply bdd_iff. auto.
    - intros Fl. apply bdd_iff. auto.
    - split; [exact A|]. split; [exact B|]. change (capped w (exact_mean x) lo up) with (fitted w (exact_mean x) lo up) in C. change (u64 * width lo up) with (bpow radix2 (-53) * range_of lo up) in C.
      pose proof (fitted_lip w _ _ d lo up MC) as FL. replace (B2R e - fitted w (plain_mean v) lo up) with ((B2R e - fitted w (exact_mean x) lo up) + (fitted w (exact_mean x) lo up - fitted w (plain_mean v) lo up)) by ring.
      eapply Rle_trans; [apply Rabs_triang|]. lra.
  Qed.

  Theorem C105_estimators :
    forall with_test counts (x : list f64) confidence lower upper mu e p K,
    sized_losses K x -> multinomial_outcome (Z.of_nat (length x)) 1000 counts -> off_rank confidence 1000 ->
    ordinary_limit lower -> ordinary_limit upper -> returned with_test counts x confidence lower upper mu e p ->
    (exists w, boot_half_width (values x) counts confidence w /\ fisfin e = true /\ 0 <= B2R e /\
       Rabs (B2R e - fitted w (exact_mean x) lower upper) <= width_slack x K + replicate_slack x K + bpow radix2 (-53) * range_of lower upper) /\
    (with_test = true ->
       let replicates := map (resampled_mean (values x)) counts in
       Rabs (B2R p - boot_p_value replicates) <= 2 * (INR (how_many (fun r => Rleb (Rabs r) (replicate_slack x K)) replicates) / 1000) + bpow radix2 (-51)).
  Proof.
    intros b counts x c lo up mu e p K S MO O Ol Ou H. split.
    - destruct (boot_fit b counts x c lo up mu e p K 0 (values x) S MO O Ol Ou H (close_self x)) as (w & A & B & C & D).
      + split; [lra|apply bpow_ge_0].
      + destruct S as (_ & _ & F & _). unfold values. apply Forall_forall. intros r I. apply in_map_iff in I as (a & <- & I). rewrite Forall_forall in F. now apply F.
      + exists w. split; [exact A|]. split; [exact B|]. split; [exact C|]. rewrite plain_exact in D. rewrite !Rplus_0_r in D. pose proof (width_slack_bound K x S). lra.
    - intros ->. destruct (boot_parts _ _ _ _ _ _ _ _ _ _ S Ol Ou H) as (eb & ci & q & X & PQ & _). rewrite (PQ eq_refl) in X.
      pose proof (test_err x counts _ K true eb p ci 0 (values x) S MO X (close_self x) (Rle_refl 0)) as R. cbv zeta in R. rewrite Rplus_0_r in R. exact R.
  Qed.

  (** ** The cells of a summary table *)
  Definition differences (x r : list f64) : list R := map2 (fun a b => B2R a - B2R b) x r.

  Lemma deltas_ok K (x r : list f64) : sized_losses K x -> sized_losses K r -> length r = length x -> K <= bpow radix2 398 ->
    let Kd := 2 * K * (1 + bpow radix2 (-53)) in let s := replicate_slack x K in let D := map2 nsub x r in let d := 2 * K * bpow radix2 (-53) in
    sized_losses Kd D /\ length D = length x /\ Forall2 (fun a v => Rabs (B2R a - v) <= d) D (differences x r) /\ 0 <= d <= bpow radix2 390 /\ Forall (fun v => Rabs v <= Kd) (differences x r) /\
    replicate_slack D Kd + d <= 3 * s /\ 2 * (replicate_slack D Kd + d) + bpow radix2 (-53) * (2 * Kd + 2 * (replicate_slack D Kd + d)) <= 7 * s.
  Proof.
    intros S1 S2 L KB Kd s D d. pose proof (sized_pos _ _ S1) as PK. pose proof u64_pos as U. pose proof u64_small as U'. fold u64 in Kd, d.
    assert (length D = length x) as LD by (unfold D; rewrite BootProofs5.map2_length; lia).
    assert (Forall (fun v => fisfin v = true /\ Rabs (B2R v) <= Kd) D /\ Forall2 (fun a v => Rabs (B2R a - v) <= d) D (differences x r) /\ Forall (fun v => Rabs v <= Kd) (differences x r)) as (E1 & E2 & E3).
    { destruct S1 as (_ & _ & F1 & K1). destruct S2 as (_ & _ & F2 & _). unfold D, differences. clear - F1 F2 K1 L PK U. revert r L F2. induction F1 as [|a x [Fa A] F1 IH]; intros [|b r] L F2; try discriminate; [repeat split; constructor|].
      inversion F2 as [|? ? [Fb B] F2']; subst. specialize (IH r ltac:(cbn in L; lia) F2') as (I1 & I2 & I3). cbn [map2].
      assert (bdd 400 a) as Ba by (apply bdd_iff; split; [exact Fa|lra]). assert (bdd 400 b) as Bb by (apply bdd_iff; split; [exact Fb|lra]).
      destruct (sub_err 400 a b Ba Bb ltac:(lia)) as [Fs Es].
      assert (Rabs (B2R a - B2R b) <= 2 * K) as Q by (apply Rabs_le_inv in A, B; apply Rabs_le; lra).
      assert (u64 * Rabs (B2R a - B2R b) <= u64 * (2 * K)) as Q2 by (apply Rmult_le_compat_l; lra). assert (0 <= u64 * (2 * K)) as Q3 by (apply Rmult_le_pos; lra).
      assert (Rabs (B2R (fsub a b) - (B2R a - B2R b)) <= d) as Q4 by (unfold d; lra).
      split; [constructor; [|exact I1]|split; constructor; try assumption].
      - split; [exact Fs|]. change (nsub a b) with (fsub a b). replace (B2R (fsub a b)) with ((B2R (fsub a b) - (B2R a - B2R b)) + (B2R a - B2R b)) by ring. eapply Rle_trans; [apply Rabs_triang|]. unfold Kd. lra.
      - unfold Kd. lra. }
    pose proof S1 as (N & M & _ & _).
    assert (0 <= u64 * K) as UK by (apply Rmult_le_pos; lra). assert (u64 * K <= / 1024 * K) as UK' by (apply Rmult_le_compat_r; lra).
    assert (bpow radix2 400 = 4 * bpow radix2 398) as B4 by (change 4 with (bpow radix2 2); now rewrite <- bpow_plus).
    assert (sized_losses Kd D) as SD.
    { split; [rewrite LD; exact N|]. split; [rewrite LD; exact M|]. split; [exact E1|]. unfold Kd. rewrite B4. lra. }
    split; [exact SD|]. split; [exact LD|]. split; [exact E2|]. split.
    { split; [unfold d; lra|]. unfold d, u64. apply Rle_trans with (2 * bpow radix2 398 * bpow radix2 (-53)); [apply Rmult_le_compat_r; [apply bpow_ge_0|lra]|]. change 2 with (bpow radix2 1). rewrite <- !bpow_plus. apply bpow_le. lia. }
    split; [exact E3|]. unfold replicate_slack in *. rewrite LD. fold u64. assert (bpow radix2 (-52) = 2 * u64) as B2 by (unfold u64; change 2 with (bpow radix2 1); now rewrite <- bpow_plus).
    pose proof (maxn_u (length x) M) as MU. pose proof p23 as P23. assert (2 <= INR (length x)) as N2 by (apply (le_INR 2); exact N). pose proof (bpow_gt_0 radix2 (-1070)) as T.
    unfold s, Kd, d. rewrite B2. clear E1 E2 E3 SD LD D s Kd d S1 S2 L M N B2 B4. set (n := INR (length x)) in *. set (t := bpow radix2 (-1070)) in *. clearbody n t.
    assert ((n + 3) * (2 * u64) * (2 * K * (1 + u64)) + t + 2 * K * u64 <= 3 * ((n + 3) * (2 * u64) * K + t)) as G1.
    { replace ((n + 3) * (2 * u64) * (2 * K * (1 + u64))) with ((4 * n + 12 + 4 * (n * u64) + 12 * u64) * (u64 * K)) by ring.
      assert ((4 * n + 12 + 4 * (n * u64) + 12 * u64) * (u64 * K) <= (6 * n + 16) * (u64 * K)) by (apply Rmult_le_compat_r; lra). replace (3 * ((n + 3) * (2 * u64) * K + t)) with ((6 * n + 16) * (u64 * K) + 2 * (u64 * K) + 3 * t) by ring. lra. }
    split; [exact G1|]. set (q := (n + 3) * (2 * u64) * (2 * K * (1 + u64)) + t + 2 * K * u64) in *. set (s := (n + 3) * (2 * u64) * K + t) in *.
    assert (10 * (u64 * K) <= s) as G2. { unfold s. assert ((10) * (u64 * K) <= (2 * n + 6) * (u64 * K)) by (apply Rmult_le_compat_r; lra). replace ((n + 3) * (2 * u64) * K) with ((2 * n + 6) * (u64 * K)) by ring. lra. }
    assert (u64 * (u64 * K) <= / 1024 * (u64 * K)) as G3 by (apply Rmult_le_compat_r; lra). assert (0 <= s) as Ps by lra. assert (u64 * q <= u64 * (3 * s)) as G4 by (apply Rmult_le_compat_l; lra). assert (u64 * s <= / 1024 * s) as G5 by (apply Rmult_le_compat_r; lra).
    clearbody q s. replace (u64 * (2 * (2 * K * (1 + u64)) + 2 * q)) with (4 * (u64 * K) + 4 * (u64 * (u64 * K)) + 2 * (u64 * q)) by ring. lra.
  Qed.

  Theorem C105_table :
    forall draw (t : loss_table_t f64) ref confidence limits out metric method c loss loss_ref K,
    loss_summary_table draw t ref false confidence Mboot limits = Ok out -> In ((metric, method), c) out ->
    column t metric method loss -> column t metric ref loss_ref -> length loss_ref = length loss -> sized_losses K loss -> sized_losses K loss_ref -> K <= bpow radix2 398 ->
    (forall b, multinomial_outcome (Z.of_nat (length loss)) 1000 (draw metric method b)) -> off_rank confidence 1000 ->
    let (lower, upper) := limits_of limits metric in
    ordinary_limit lower -> ordinary_limit upper ->
    (exists w, boot_half_width (values loss) (draw metric method false) confidence w /\ fisfin (cell_error c) = true /\ 0 <= B2R (cell_error c) /\
       Rabs (B2R (cell_error c) - fitted w (exact_mean loss) lower upper) <= width_slack loss K + replicate_slack loss K + bpow radix2 (-53) * range_of lower upper) /\
    (method <> ref ->
       let replicates := map (resampled_mean (differences loss loss_ref)) (draw metric method true) in
       Rabs (B2R (cell_pval c) - boot_p_value replicates) <=
         2 * (INR (how_many (fun r => Rleb (Rabs r) (3 * replicate_slack loss K)) replicates) / 1000) + bpow radix2 (-51)).
  Proof.
    intros draw t ref cf limits out metric method c loss loss_ref K H I C1 C2 L S1 S2 KB MO O. destruct (C60_cells _ _ _ _ _ _ _ _ H) as [_ K2]. destruct (K2 _ _ _ I) as (x & r & X & R & D).
    rewrite (column_unique _ _ _ _ _ X C1), (column_unique _ _ _ _ _ R C2) in D. destruct (limits_of limits metric) as [lo up]. intros Ol Ou. cbv zeta in D. destruct D as (_ & D1 & _ & D2 & _).
    split.
    - destruct (D1 eq_refl) as (mu & G). exact (proj1 (C105_estimators false _ _ _ _ _ _ _ fnan K S1 (MO false) O Ol Ou G)).
    - intros NE reps. specialize (D2 eq_refl NE). unfold get_test, boot_test in D2. apply bind_ok in D2 as ([[e p'] ci] & E & D2). cbn [fst snd] in D2. apply assert_ok in D2 as [_ D2]. apply Ok_inj in D2. subst p'.
      destruct (deltas_ok K loss loss_ref S1 S2 L KB) as (SD & LD & FD & Pd & _ & B & _). cbv zeta in *.
      assert (multinomial_outcome (Z.of_nat (length (map2 nsub loss loss_ref))) 1000 (draw metric method true)) as MD by (rewrite LD; apply MO).
      pose proof (test_err _ _ _ _ _ _ _ _ _ _ SD MD E FD (proj1 Pd)) as Q. cbv zeta in Q. fold reps in Q.
      eapply Rle_trans; [exact Q|]. apply Rplus_le_compat_r. apply Rmult_le_compat_l; [lra|]. apply Rmult_le_compat_r; [lra|]. apply le_INR. unfold how_many. clear - B.
      induction reps as [|a l IH]; [cbn; lia|]. cbn [filter]. destruct (Rleb (Rabs a) (replicate_slack _ _ + _)) eqn:Q1.
      + apply Rleb_spec in Q1. assert (Rleb (Rabs a) (3 * replicate_slack loss K) = true) as -> by (apply Rleb_spec; lra). cbn [length]. lia.
      + destruct (Rleb (Rabs a) (3 * _)); cbn [length]; lia.
  Qed.

  (** differences lie between minus and plus the range *)
  Definition gap_fitted (g m : R) (range : f64) : R := if fisfin range then Rmin g (B2R range + Rabs m) else g.
  Lemma gap_fit w m (r : f64) : fitted w m (nopp r) r = gap_fitted w m r /\ bpow radix2 (-53) * range_of (nopp r) r = bpow radix2 (-52) * (if fisfin r then B2R r else 0).
  Proof.
    unfold fitted, gap_fitted, range_of. destruct (fisfin r) eqn:F; [|rewrite andb_false_r, !Rmult_0_r; auto].
    pose proof (opp_val r (B2R r) (v64_fin r F)) as E. apply v64_Fin in E as [Fo Eo]. change (fisfin (nopp r)) with (fisfin (nopp r : f64)). rewrite Fo. cbn [andb]. rewrite Eo. split.
    - f_equal. unfold Rmax, Rabs. destruct Rle_dec; destruct Rcase_abs; lra.
    - change (bpow radix2 (-52)) with (bpow radix2 (-53 + 1)). rewrite bpow_plus. change (bpow radix2 1) with 2. ring.
  Qed.

  (** the same with pairwise intervals: both numbers are those of the exact
      differences with the reference *)
  Theorem C105_pairwise_table :
    forall draw (t : loss_table_t f64) ref confidence limits out metric method c loss loss_ref K,
    loss_summary_table draw t ref true confidence Mboot limits = Ok out -> In ((metric, method), c) out -> method <> ref ->
    column t metric method loss -> column t metric ref loss_ref -> length loss_ref = length loss -> sized_losses K loss -> sized_losses K loss_ref -> K <= bpow radix2 398 ->
    multinomial_outcome (Z.of_nat (length loss)) 1000 (draw metric method false) -> off_rank confidence 1000 ->
    let (lower, upper) := limits_of limits metric in
    let range := fsub upper lower in let gaps := differences loss loss_ref in let s := replicate_slack loss K in
    ordinary_limit range ->
    (exists w, boot_half_width gaps (draw metric method false) confidence w /\ fisfin (cell_error c) = true /\ 0 <= B2R (cell_error c) /\
       Rabs (B2R (cell_error c) - gap_fitted w (plain_mean gaps) range) <= 10 * s + bpow radix2 (-52) * (if fisfin range then B2R range else 0)) /\
    let replicates := map (resampled_mean gaps) (draw metric method false) in
    Rabs (B2R (cell_pval c) - boot_p_value replicates) <=
      2 * (INR (how_many (fun r => Rleb (Rabs r) (3 * s)) replicates) / 1000) + bpow radix2 (-51).
  Proof.
    intros draw t ref cf limits out metric method c loss loss_ref K H I NE C1 C2 L S1 S2 KB MO O. destruct (C60_cells _ _ _ _ _ _ _ _ H) as [_ K2]. destruct (K2 _ _ _ I) as (x & r & X & R & D).
    rewrite (column_unique _ _ _ _ _ X C1), (column_unique _ _ _ _ _ R C2) in D. destruct (limits_of limits metric) as [lo up]. cbv zeta in D |- *. destruct D as (_ & _ & D1 & _). intros Or.
    destruct (D1 eq_refl NE) as (mu & G). clear D1.
    destruct (deltas_ok K loss loss_ref S1 S2 L KB) as (SD & LD & FD & Pd & KD & B & B7). cbv zeta in *.
    assert (multinomial_outcome (Z.of_nat (length (map2 nsub loss loss_ref))) 1000 (draw metric method false)) as MD by (rewrite LD; apply MO).
    assert (ordinary_limit (nopp (fsub up lo))) as On.
    { destruct (fisfin (fsub up lo)) eqn:Fr; intros Fo.
      - pose proof (opp_val _ _ (v64_fin _ Fr)) as E. apply v64_Fin in E as [_ Eo]. rewrite Eo, Rabs_Ropp. auto.
      - exfalso. unfold nopp in Fo. cbn [nsub n0 f64_num] in Fo. destruct (fsub up lo); try discriminate Fr; discriminate Fo. }
    change (nsub up lo) with (fsub up lo) in G. destruct (gap_fit 0 0 (fsub up lo)) as [_ RG]. split.
    - destruct (boot_fit true _ _ _ _ _ _ _ _ _ _ _ SD MD O On Or G FD Pd KD) as (w & W1 & W2 & W3 & W4). exists w. split; [exact W1|]. split; [exact W2|]. split; [exact W3|]. rewrite (proj1 (gap_fit _ _ _)) in W4. lra.
    - destruct (boot_parts true _ _ _ _ _ _ _ _ _ SD On Or G) as (eb & ci & q & E & PQ & _). rewrite (PQ eq_refl) in E.
      pose proof (test_err _ _ _ _ _ _ _ _ _ _ SD MD E FD (proj1 Pd)) as Q. cbv zeta in Q. set (reps := map _ _) in *.
      eapply Rle_trans; [exact Q|]. apply Rplus_le_compat_r. apply Rmult_le_compat_l; [lra|]. apply Rmult_le_compat_r; [lra|]. apply le_INR. unfold how_many. clear - B.
      induction reps as [|a l IH]; [cbn; lia|]. cbn [filter]. destruct (Rleb (Rabs a) (replicate_slack _ _ + _)) eqn:Q1.
      + apply Rleb_spec in Q1. assert (Rleb (Rabs a) (3 * replicate_slack loss K) = true) as -> by (apply Rleb_spec; lra). cbn [length]. lia.
      + destruct (Rleb (Rabs a) (3 * _)); cbn [length]; lia.
  Qed.
End C105.
Print Assumptions C105_estimators.
Print Assumptions C105_table.
Print Assumptions C105_pairwise_table.

(** ** The hypotheses are met *)
(** the usual confidence level: (1 - 0.95) / 2 * 999 = 24.975 *)
Lemma off_95 : off_rank (fdiv (f_of_Z 95) (f_of_Z 100)) 1000.
Proof.
  assert (Rabs (B2R (fdiv (f_of_Z 95) (f_of_Z 100)) - 95 / 100) <= / 1000000) as E.
  { assert (B2R (f_of_Z 95) = 95) as V1 by (apply f_of_Z_val; lia). assert (B2R (f_of_Z 100) = 100) as V2 by (apply f_of_Z_val; lia).
    destruct (f_of_Z_correct 95) as [_ F1]; [lia|]. pose proof (v64_div_fin (f_of_Z 95) (f_of_Z 100) F1 ltac:(rewrite V2; lra)) as D. rewrite V1, V2 in D.
    assert (Rabs (95 / 100) <= P2 0) as B by (cbn; rewrite Rabs_pos_eq; lra). rewrite xround_ok in D.
    - apply v64_Fin in D as [_ D]. rewrite D. eapply Rle_trans; [apply rnd_err|]. assert (P2 (-1075) <= P2 (-30)) by (apply bpow_le; lia). assert (u64 <= P2 (-30)) by (apply bpow_le; lia). pose proof u64_pos.
      change (P2 0) with 1 in B. pose proof (Rabs_pos (95 / 100)). assert (u64 * Rabs (95 / 100) <= u64 * 1) by (apply Rmult_le_compat_l; lra). assert (P2 (-30) = / IZR (2 ^ 30)) as Q by reflexivity. rewrite Q in *. change (2 ^ 30)%Z with 1073741824%Z in *. lra.
    - apply Rle_trans with (P2 0); [exact B|apply bpow_le; lia]. }
  apply Rabs_le_inv in E. intros z. set (c := B2R _) in *. clearbody c. replace (INR 1000) with 1000 by (rewrite INR_IZR_INZ; reflexivity).
  assert (bpow radix2 (-50) = / IZR (2 ^ 50)) as Q by reflexivity. rewrite Q. change (2 ^ 50)%Z with 1125899906842624%Z.
  assert (1000 * / 1125899906842624 < / 1000) as R by lra. eapply Rlt_trans; [exact R|].
  destruct (Z_le_gt_dec z 24) as [L|L].
  - apply IZR_le in L. rewrite Rabs_pos_eq; lra.
  - assert (25 <= z)%Z as G by lia. apply IZR_le in G. rewrite Rabs_left; lra.
Qed.
Example C105_percentile_example :
  (* 0, 1, ..., 999 in reverse order *)
  let b := map (fun k => f_of_Z (Z.of_nat k)) (rev (seq 0 1000)) in let confidence := fdiv (f_of_Z 95) (f_of_Z 100) in
  Forall (fun v => fisfin v = true) b /\ (Z.of_nat (length b) <= 2 ^ 53)%Z /\ off_rank confidence (length b) /\
  match percentile b confidence with Ok (lb, ub) => Some (ftruncZ lb, ftruncZ ub) | _ => None end = Some (24%Z, 975%Z).
Proof.
  cbv zeta. split; [|split; [rewrite map_length, rev_length, seq_length; lia|split]].
  - apply Forall_forall. intros v I. apply in_map_iff in I as (k & <- & I). apply in_rev, in_seq in I. apply f_of_Z_correct. lia.
  - rewrite map_length, rev_length, seq_length. exact off_95.
  - vm_compute. reflexivity.
Qed.

(** two losses, and 900 replicates that draw one of each, 60 the first loss
    twice, 40 the second twice *)
Definition uneven_draw : list (list Z) := repeat [1; 1]%Z 900 ++ repeat [2; 0]%Z 60 ++ repeat [0; 2]%Z 40.
Example C105_example :
  let x := [f_of_Z (-1); f_of_Z 3] in let confidence := fdiv (f_of_Z 95) (f_of_Z 100) in
  sized_losses 3 x /\ multinomial_outcome (Z.of_nat (length x)) 1000 uneven_draw /\ off_rank confidence 1000 /\
  milli (boot_EB uneven_draw x confidence 1000) = Some 2000%Z /\ milli (boot_test uneven_draw x 1000) = Some 120%Z.
Proof.
  cbv zeta. split.
  { split; [cbn; lia|]. split; [cbn; lra|]. split; [|apply Rle_trans with (bpow radix2 2); [cbn; lra|apply bpow_le; lia]].
    assert (forall z, (Z.abs z <= 3)%Z -> fisfin (f_of_Z z) = true /\ Rabs (B2R (f_of_Z z)) <= 3) as Q.
    { intros z Hz. destruct (f_of_Z_correct z) as [V F]; [lia|]. split; [exact F|]. rewrite V, <- abs_IZR. now apply IZR_le. }
    repeat (apply Forall_cons; [apply Q; cbn; lia|]). apply Forall_nil. }
  split; [|split; [exact off_95|split; vm_compute; reflexivity]].
  split; [reflexivity|]. unfold uneven_draw. repeat (apply Forall_app; split); apply Forall_forall; intros row I; apply repeat_spec in I; subst row;
    (split; [reflexivity|]; split; [repeat constructor; lia|reflexivity]).
Qed.

(** a table in both modes: every hypothesis of C105_table and C105_pairwise_table *)
Example C105_table_example : forall pairwise,
  exists out, let confidence := fdiv (f_of_Z 95) (f_of_Z 100) in let loss := [f0; f_of_Z 1; lit 1 5] in let loss_ref := [lit 1 10; lit 1 2; lit 3 10] in
  @loss_summary_table _ _ (fn_f64 tame_one tame_one tame_sf tame_ppf tame_eig) even_draw quarter_table mA pairwise confidence Mboot unit_limits = Ok out /\
  (exists c, In ((mL, mB), c) out) /\ mB <> mA /\ column quarter_table mL mB loss /\ column quarter_table mL mA loss_ref /\ length loss_ref = length loss /\
  sized_losses 1 loss /\ sized_losses 1 loss_ref /\ 1 <= bpow radix2 398 /\ (forall b, multinomial_outcome (Z.of_nat (length loss)) 1000 (even_draw mL mB b)) /\ off_rank confidence 1000 /\
  let (lower, upper) := limits_of unit_limits mL in ordinary_limit lower /\ ordinary_limit upper /\ ordinary_limit (fsub upper lower).
Proof.
  intros pw. destruct (C92_table pw Mboot) as [out H]; [discriminate|]. exists out. destruct C92_example as (A & B & C & _). cbv zeta. split; [exact H|]. destruct (C60_cells _ _ _ _ _ _ _ _ H) as [K _]. split.
  { assert (In (mL, mB) (map fst out)) as I by (rewrite K; right; now left). apply in_map_iff in I as ([k c] & E & I). cbn in E. subst k. now exists c. }
  split; [discriminate|]. split; [split; [right; now left|intros y [Q|[Q|[]]]; now inversion Q]|]. split; [split; [now left|intros y [Q|[Q|[]]]; now inversion Q]|]. split; [reflexivity|].
  assert (forall x, length x = 3%nat -> Forall (fun v => fleb f0 v = true /\ fleb v (f_of_Z 1) = true) x -> sized_losses 1 x) as SL.
  { intros x L F. split; [lia|]. split; [rewrite L; cbn; lra|]. split; [|change 1 with (bpow radix2 0); apply bpow_le; lia]. eapply Forall_impl; [|exact F]. intros v [Q1 Q2]. destruct (clean_unit v Q1 Q2) as [Fv V]. split; [exact Fv|]. rewrite Rabs_pos_eq; lra. }
  split; [apply SL; [reflexivity|repeat (apply Forall_cons; [split; vm_compute; reflexivity|]); apply Forall_nil]|].
  split; [apply SL; [reflexivity|repeat (apply Forall_cons; [split; vm_compute; reflexivity|]); apply Forall_nil]|].
  split; [change 1 with (bpow radix2 0); apply bpow_le; lia|]. split; [intros b; exact (C mL mB b)|]. split; [exact off_95|].
  change (limits_of unit_limits mL) with (f0, f_of_Z 1). destruct (f_of_Z_correct 1) as [V1 F1]; [lia|].
  assert (ordinary_limit (f_of_Z 1)) as O1 by (intros _; rewrite V1, Rabs_pos_eq by lra; change (IZR 1) with (P2 0); apply bpow_le; lia).
  split; [intros _; cbn [f0 B2R]; rewrite Rabs_R0; apply bpow_ge_0|]. split; [exact O1|]. intros _.
  assert (bdd 0 (f_of_Z 1)) as B1 by (apply bdd_iff; split; [exact F1|rewrite V1, Rabs_pos_eq; cbn; lra]). assert (bdd 0 f0) as B0 by (apply bdd_iff; split; [reflexivity|cbn [f0 B2R]; rewrite Rabs_R0; cbn; lra]).
  destruct (sub_err 0 _ _ B1 B0 ltac:(lia)) as [_ E]. rewrite V1 in E. change (B2R f0) with 0 in E. rewrite Rminus_0_r, (Rabs_pos_eq 1) in E by lra. pose proof u64_small. apply Rabs_le_inv in E. apply Rle_trans with (bpow radix2 1); [|apply bpow_le; lia]. change (bpow radix2 1) with 2. apply Rabs_le. lra.
Qed.
