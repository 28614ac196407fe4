(** Property theorem C102: how far the error bars computed in double precision
    are from the exact ones.  The quantiles of the t distribution and the
    logarithm are taken as the library returns them; everything else
    (mean, deviations, squares, their sum, square roots, clipping) is compared with
    the formula in real numbers.  Model: MLPaper.v. *)
From Coq Require Import Reals Lra Lia.
From Flocq Require Import Core BinarySingleNaN.
From Verif Require Import PyBase ListLemmas F64 Num F64Lemmas NumOk SumProofs Util UtilProofs BootUtil BootProofs2 PerfCurves MLPaper MLProofs CompareProofs
  SwapProofs MeanProofs DoublesProofs DoublesProofs2 AccuracyProofs.
From Verif Require Import Props_MLPaper Props_Mean Props_Doubles.
Open Scope R_scope.

(** ** The specification *)
(** the standard deviation of the values of some doubles, in real numbers *)
Definition exact_deviation (ddof : R) (x : list f64) : R :=
  sqrt (fold_right Rplus 0 (map (fun a => (B2R a - exact_mean x) ^ 2) x) / (INR (length x) - ddof)).
(** at least two and at most 2^30 losses, at most 2^400 in size *)
Definition usual_losses (x : list f64) : Prop :=
  (2 <= length x)%nat /\ INR (length x) <= bpow radix2 30 /\ Forall (fun v => fisfin v = true /\ Rabs (B2R v) <= bpow radix2 400) x.
(** the average size of the losses *)
Definition mean_size (x : list f64) : R := total_size x / INR (length x).
(** an error bar of size [g] around [m] need not reach beyond the further limit *)
Definition fitted (g m : R) (lower upper : f64) : R :=
  if fisfin lower && fisfin upper then Rmin g (Rmax (B2R upper - m) (m - B2R lower)) else g.
Definition range_of (lower upper : f64) : R := if fisfin lower && fisfin upper then B2R upper - B2R lower else 0.

(** the textbook error bars: t and empirical Bernstein *)
Definition t_factor (ppf : Z -> f64 -> f64) (confidence : f64) (x : list f64) : R :=
  let df := (Z.of_nat (length x) - 1)%Z in
  (B2R (ppf df (fdiv (fadd (f_of_Z 1) confidence) (f_of_Z 2))) - B2R (ppf df (fdiv (fsub (f_of_Z 1) confidence) (f_of_Z 2)))) / 2 / sqrt (INR (length x)).
Definition log_term (flog : f64 -> f64) (confidence : f64) : R := B2R (flog (fdiv (f_of_Z 3) (fsub (f_of_Z 1) confidence))).
Definition bernstein_factor (flog : f64 -> f64) (confidence : f64) (x : list f64) : R := sqrt (2 * log_term flog confidence / INR (length x)).
Definition bernstein_offset (flog : f64 -> f64) (confidence lower upper : f64) (x : list f64) : R :=
  3 * log_term flog confidence * (B2R upper - B2R lower) / INR (length x).
(** what rounding may add *)
Definition slack (x : list f64) (deviation : R) : R :=
  (INR (length x) + 12) * bpow radix2 (-52) * (deviation + 3 * mean_size x) + bpow radix2 (-500).
Definition mean_slack (x : list f64) : R := (INR (length x) + 1) * bpow radix2 (-52) * mean_size x + bpow radix2 (-1075).

(** *** bridges *)
Lemma mid_mean x : mid x = exact_mean x.
Proof. reflexivity. Qed.
Lemma dev_exact d x : dev d x = exact_deviation (IZR d) x.
Proof.
  unfold dev, exact_deviation, sq_sum, Rsum. rewrite mid_mean. do 2 f_equal. apply f_equal. apply map_ext. intros a. ring.
Qed.
Lemma usual_bdd x : usual_losses x -> Forall (bdd 400) x.
Proof. intros (_ & _ & F). eapply Forall_impl; [|exact F]. intros a [A B]. exists (B2R a). split; [now apply v64_fin|exact B]. Qed.
Lemma usual_fin x : usual_losses x -> Forall (fun v => fisfin v = true) x.
Proof. intros (_ & _ & F). eapply Forall_impl; [|exact F]. now intros a [A B]. Qed.
Lemma usual_total x : usual_losses x -> total_size x <= bpow radix2 990.
Proof.
  intros (_ & M & F). assert (total_size x <= INR (length x) * P2 400) as B.
  { clear M. unfold total_size. induction F as [|a l [_ A] F IH]; [cbn; lra|]. cbn [map fold_right length]. rewrite S_INR. lra. }
  eapply Rle_trans; [exact B|]. apply Rle_trans with (P2 30 * P2 400); [apply Rmult_le_compat_r; [apply bpow_ge_0|exact M]|]. rewrite <- bpow_plus. apply bpow_le. lia.
Qed.
Lemma clean_unit v : fleb f0 v = true -> fleb v (f_of_Z 1) = true -> fisfin v = true /\ 0 <= B2R v <= 1.
Proof.
  intros A B. rewrite v64_leb in A, B. rewrite (v64_ofZ 1) in B by lia. change (v64 f0) with (Fin 0) in A.
  destruct (v64 v) as [q| | |] eqn:E; try discriminate. apply v64_Fin in E as [F <-]. cbn in A, B. apply Rleb_spec in A, B. auto.
Qed.
Lemma deviation_pos d x : 0 <= exact_deviation d x.
Proof. apply sqrt_pos. Qed.

(** ** The standard deviation *)
Theorem C102_deviation :
  forall (FT : fn f64) (x : list f64) (ddof : Z),
  nsqrt = fsqrt -> usual_losses x -> (0 <= ddof <= 1)%Z ->
  fisfin (nstd ddof x) = true /\ 0 <= B2R (nstd ddof x) /\
  Rabs (B2R (nstd ddof x) - exact_deviation (IZR ddof) x) <= slack x (exact_deviation (IZR ddof) x).
Proof.
  intros FT x d E U D. pose proof (usual_bdd x U) as F. destruct U as (N & M & _). destruct (std_err FT d 400 x E D N M F ltac:(lia)) as (A & B & C). cbv zeta in C.
  split; [exact A|]. split; [exact B|]. rewrite dev_exact in C. eapply Rle_trans; [exact C|]. unfold slack, mean_size. rewrite total_abs.
  pose proof (bpow_gt_0 radix2 (-52)) as P. pose proof (deviation_pos (IZR d) x) as Pd. assert (2 <= INR (length x)) as N2 by (apply (le_INR 2); exact N).
  assert (0 <= abs_sum x / INR (length x)) as PA by (apply Rmult_le_pos; [apply abs_sum_pos|apply Rlt_le, Rinv_0_lt_compat; lra]).
  assert (P2 (-534) <= P2 (-500)) by (apply bpow_le; lia). set (s := exact_deviation (IZR d) x) in *. set (A' := abs_sum x / INR (length x)) in *. clearbody s A'.
  assert (0 <= P2 (-52) * s) by (apply Rmult_le_pos; lra). assert (0 <= P2 (-52) * A') by (apply Rmult_le_pos; lra).
  replace ((INR (length x) + 12) * P2 (-52) * (s + 3 * A')) with ((INR (length x) + 5) * P2 (-52) * s + 7 * (P2 (-52) * s) + (3 * (INR (length x) + 1) * P2 (-52) * A' + 33 * (P2 (-52) * A'))) by ring. lra.
Qed.
Print Assumptions C102_deviation.

Section C102.
  Context (fexp flog : f64 -> f64) (sf ppf : Z -> f64 -> f64) (eig : f64 -> f64 -> option (f64 * f64)) (GL : good_library fexp flog sf ppf eig).
  Notation lib := (fn_f64 fexp flog sf ppf eig).
  Notation summary := (@loss_summary_table _ _ lib).

  Theorem C102_t_error_bar :
    forall (x : list f64) confidence e,
    usual_losses x -> ordinary_confidence confidence -> @t_EB _ _ lib x confidence = Ok e ->
    let g := t_factor ppf confidence x in let s := exact_deviation 1 x in
    fisfin e = true /\ 0 <= g /\ Rabs (B2R e - g * s) <= g * slack x s + bpow radix2 (-1074).
  Proof.
    intros x c e U C H g s. pose proof (usual_bdd x U) as F. destruct U as (N & M & _). destruct (t_EB_err _ _ _ _ _ GL 400 x c e N M F ltac:(lia) C H) as (A & B & D).
    assert (2 <= INR (length x)) as N2 by (apply (le_INR 2); exact N). pose proof (sqrt_lt_R0 (INR (length x)) ltac:(lra)) as Pn.
    rewrite dev_exact, <- total_abs in D. fold s in D. fold (mean_size x) in D. fold (slack x s) in D. split; [exact A|].
    match type of D with Rabs (_ - ?G * _) <= _ => assert (G = g) as E by (unfold g, t_factor; cbv zeta; field; lra) end. rewrite E in D. split; [|exact D].
    unfold g, t_factor. cbv zeta. unfold Rdiv. apply Rmult_le_pos; [lra|]. apply Rlt_le, Rinv_0_lt_compat, Pn.
  Qed.

  (** The logarithm of 3 / delta is at least 1/2 for any library that is not
      completely off: delta is below 1. *)
  Theorem C102_bernstein_error_bar :
    forall (x : list f64) lower upper confidence e,
    usual_losses x -> Forall (fun v => fisfin v = true /\ Rabs (B2R v) <= bpow radix2 400) [lower; upper] ->
    ordinary_confidence confidence -> / 2 <= log_term flog confidence -> @bernstein_EB _ _ lib x lower upper confidence = Ok e ->
    let g := bernstein_factor flog confidence x in let s := exact_deviation 0 x in let b := bernstein_offset flog confidence lower upper x in
    fisfin e = true /\ Rabs (B2R e - (g * s + b)) <= g * slack x s + 5 * bpow radix2 (-52) * b + bpow radix2 (-1072).
  Proof.
    intros x lo up c e U L C A H g s b. pose proof (usual_bdd x U) as F. destruct U as (N & M & _). inversion L as [|? ? L1 L']; subst. inversion L' as [|? ? L2 _]; subst.
    assert (bdd 400 lo) as B1 by now apply bdd_iff. assert (bdd 400 up) as B2 by now apply bdd_iff.
    destruct (bernstein_EB_err _ _ _ _ _ GL x lo up c e N M F B1 B2 C H A) as [Fe D].
    rewrite dev_exact, <- total_abs in D. auto.
  Qed.

  (** ** What the estimators return, after clipping *)
  Lemma mean_parts counts (x : list f64) c lo up mu e p m : usual_losses x -> ordinary_limit lo -> ordinary_limit up ->
    @get_mean_and_EB _ _ lib counts x c f0 lo up m = Ok (mu, e) \/ @get_mean_EB_test _ _ lib counts x c f0 lo up m = Ok (mu, e, p) -> m = Mt \/ m = Mbernstein ->
    exists eb, match m with Mt => @t_EB _ _ lib x c | _ => @bernstein_EB _ _ lib x lo up c end = Ok eb /\ clip_EB mu eb lo up f0 = Ok e /\ bdd 400 mu /\
      Rabs (B2R mu - exact_mean x) <= mean_slack x /\ (fisfin lo = true -> B2R lo <= exact_mean x) /\ (fisfin up = true -> exact_mean x <= B2R up).
  Proof.
    intros U Ol Ou H Mm. pose proof (usual_bdd x U) as F. pose proof (usual_fin x U) as Ff. pose proof (usual_total x U) as T. destruct U as (N & M & _).
    assert (usual_length x) as UL by (split; [lia|exact M]). destruct (C91_reported_mean lib counts x c f0 lo up mu e p m UL Ff T H) as [Fm E].
    assert (exists eb, match m with Mt => @t_EB _ _ lib x c | _ => @bernstein_EB _ _ lib x lo up c end = Ok eb /\ clip_EB mu eb lo up f0 = Ok e /\ within lo up x = true /\ clip_chk isclose (nmean x) lo up = Ok mu)
      as (eb & X & Y & W & K).
    { destruct H as [H|H]; [unfold get_mean_and_EB in H|unfold get_mean_EB_test in H]; apply assert_ok in H as [W H].
      - apply bind_ok in H as (eb & X & H). apply bind_ok in H as (mu' & K & H). apply bind_ok in H as (e' & Y & H). apply Ok_inj in H. apply pair_equal_spec in H as [<- <-].
        exists eb. split; [|auto]. destruct Mm as [-> | ->]; exact X.
      - apply bind_ok in H as (r & X & H). apply bind_ok in H as (mu' & K & H). apply bind_ok in H as (e' & Y & H). apply Ok_inj in H. apply pair_equal_spec in H as [H <-]. apply pair_equal_spec in H as [<- <-].
        exists (fst r). split; [|auto]. destruct Mm as [-> | ->]; apply bind_ok in X as (eb & X & H); apply bind_ok in H as (q & _ & H); apply Ok_inj in H; subst r; exact X. }
    exists eb. split; [exact X|]. split; [exact Y|]. pose proof (of_within _ _ _ W) as L.
    assert (bdd 400 mu) as Bm.
    { unfold clip_chk in K. apply assert_ok in K as [_ K]. apply Ok_inj in K. unfold nclip in K. destruct (nltb (nmean x) lo); [subst mu; apply bdd_iff; auto|].
      destruct (nltb up (nmean x)); [subst mu; apply bdd_iff; auto|]. subst mu. apply bdd_mean; auto; lia. }
    split; [exact Bm|]. split; [exact E|].
    unfold in_limits in L. rewrite Forall_forall in L, Ff. split; intros Fb.
    - apply exact_mean_ge; [exact (proj1 UL)|]. apply Forall_forall. intros v I. apply fleb_fin; auto. now apply L.
    - apply exact_mean_le; [exact (proj1 UL)|]. apply Forall_forall. intros v I. apply fleb_fin; auto. now apply L.
  Qed.

  Theorem C102_estimators_t :
    forall counts (x : list f64) confidence lower upper mu e p,
    usual_losses x -> ordinary_limit lower -> ordinary_limit upper -> ordinary_confidence confidence ->
    @get_mean_and_EB _ _ lib counts x confidence f0 lower upper Mt = Ok (mu, e) \/
    @get_mean_EB_test _ _ lib counts x confidence f0 lower upper Mt = Ok (mu, e, p) ->
    let g := t_factor ppf confidence x in let s := exact_deviation 1 x in
    fisfin e = true /\ 0 <= B2R e /\
    Rabs (B2R e - fitted (g * s) (exact_mean x) lower upper) <=
      g * slack x s + bpow radix2 (-1074) + mean_slack x + bpow radix2 (-53) * range_of lower upper.
  Proof.
    intros counts x c lo up mu e p U Ol Ou C H g s. destruct (mean_parts _ _ _ _ _ _ _ _ _ U Ol Ou H (or_introl eq_refl)) as (eb & X & Y & Bm & Em & L1 & L2).
    destruct (C102_t_error_bar x c eb U C X) as (Fe & Pg & D). fold g in Pg, D. fold s in D.
    apply (clip_err mu eb lo up e (g * s) (exact_mean x) (g * slack x s + bpow radix2 (-1074)) (mean_slack x)); auto.
    - intros Fl. apply bdd_iff. auto.
    - intros Fl. apply bdd_iff. auto.
    - apply Rmult_le_pos; [exact Pg|apply deviation_pos].
  Qed.

  Theorem C102_estimators_bernstein :
    forall counts (x : list f64) confidence lower upper mu e p,
    usual_losses x -> Forall (fun v => fisfin v = true /\ Rabs (B2R v) <= bpow radix2 400) [lower; upper] ->
    ordinary_confidence confidence -> / 2 <= log_term flog confidence ->
    @get_mean_and_EB _ _ lib counts x confidence f0 lower upper Mbernstein = Ok (mu, e) \/
    @get_mean_EB_test _ _ lib counts x confidence f0 lower upper Mbernstein = Ok (mu, e, p) ->
    let g := bernstein_factor flog confidence x in let s := exact_deviation 0 x in let b := bernstein_offset flog confidence lower upper x in
    fisfin e = true /\ 0 <= B2R e /\
    Rabs (B2R e - fitted (g * s + b) (exact_mean x) lower upper) <=
      g * slack x s + 5 * bpow radix2 (-52) * b + bpow radix2 (-1072) + mean_slack x + bpow radix2 (-53) * range_of lower upper.
  Proof.
    intros counts x c lo up mu e p U L C A H g s b. pose proof L as L'. inversion L' as [|? ? L1 L'']; subst. inversion L'' as [|? ? L2 _]; subst.
    assert (ordinary_limit lo) as Ol by (intros _; apply L1). assert (ordinary_limit up) as Ou by (intros _; apply L2).
    destruct (mean_parts _ _ _ _ _ _ _ _ _ U Ol Ou H (or_intror eq_refl)) as (eb & X & Y & Bm & Em & M1 & M2).
    destruct (C102_bernstein_error_bar x lo up c eb U L C A X) as (Fe & D). fold g s b in D.
    apply (clip_err mu eb lo up e (g * s + b) (exact_mean x) (g * slack x s + 5 * bpow radix2 (-52) * b + bpow radix2 (-1072)) (mean_slack x)); auto.
    - intros Fl. apply bdd_iff. auto.
    - intros Fl. apply bdd_iff. auto.
    - apply Rplus_le_le_0_compat; [apply Rmult_le_pos; [apply sqrt_pos|apply deviation_pos]|]. unfold b, bernstein_offset. destruct U as (N & _). assert (2 <= INR (length x)) as N2 by (apply (le_INR 2); exact N).
      specialize (M1 (proj1 L1)). specialize (M2 (proj1 L2)). apply Rmult_le_pos; [|apply Rlt_le, Rinv_0_lt_compat; lra]. apply Rmult_le_pos; lra.
  Qed.

  (** ** The cells of a summary table without pairwise intervals *)
  Theorem C102_table :
    forall draw (t : loss_table_t f64) ref confidence method_EB limits out metric method c loss,
    ordinary_table t ref limits -> ordinary_confidence confidence ->
    summary draw t ref false confidence method_EB limits = Ok out -> In ((metric, method), c) out -> column t metric method loss -> (2 <= length loss)%nat ->
    let (lower, upper) := limits_of limits metric in let m := exact_mean loss in
    (method_EB = Mt ->
       let g := t_factor ppf confidence loss in let s := exact_deviation 1 loss in
       fisfin (cell_error c) = true /\ 0 <= B2R (cell_error c) /\
       Rabs (B2R (cell_error c) - fitted (g * s) m lower upper) <=
         g * slack loss s + bpow radix2 (-1074) + mean_slack loss + bpow radix2 (-53) * range_of lower upper) /\
    (method_EB = Mbernstein -> fisfin lower = true -> fisfin upper = true -> / 2 <= log_term flog confidence ->
       let g := bernstein_factor flog confidence loss in let s := exact_deviation 0 loss in let b := bernstein_offset flog confidence lower upper loss in
       fisfin (cell_error c) = true /\ 0 <= B2R (cell_error c) /\
       Rabs (B2R (cell_error c) - fitted (g * s + b) m lower upper) <=
         g * slack loss s + 5 * bpow radix2 (-52) * b + bpow radix2 (-1072) + mean_slack loss + bpow radix2 (-53) * range_of lower upper).
  Proof.
    intros draw t ref cf meth limits out metric method c loss O C H I CL N. destruct (C60_cells _ _ _ _ _ _ _ _ H) as [K1 K2]. destruct (K2 _ _ _ I) as (x & r & X & _ & D).
    pose proof (column_unique _ _ _ _ _ X CL) as E. subst x.
    assert (In metric (lt_metrics t) /\ In method (lt_methods t)) as [Im Ih].
    { apply (in_map fst) in I. rewrite K1 in I. now apply in_prod_iff in I. }
    destruct O as (_ & _ & _ & M & _ & O). specialize (O metric Im). destruct (limits_of limits metric) as [lo up]. destruct O as (Ol & Ou & _ & O). destruct (O method Ih) as (y & Y & Ly & Fy).
    pose proof (column_unique _ _ _ _ _ Y CL) as E. subst y.
    assert (usual_losses loss) as U. { split; [exact N|]. split; [now rewrite Ly|]. eapply Forall_impl; [|exact Fy]. intros v (A & B & _). auto. }
    cbv zeta in D. destruct D as (_ & D & _). destruct (D eq_refl) as (mu & G). clear D. cbv zeta. split.
    - intros ->. exact (C102_estimators_t _ _ _ _ _ _ _ fnan U Ol Ou C (or_introl G)).
    - intros -> Fl Fu A. apply (C102_estimators_bernstein _ _ _ _ _ _ _ fnan U) with (3 := A) (4 := or_introl G); [|exact C].
      apply Forall_cons; [split; [exact Fl|exact (Ol Fl)]|]. apply Forall_cons; [split; [exact Fu|exact (Ou Fu)]|apply Forall_nil].
  Qed.
  (** For the usual losses between 0 and 1, of which there are up to a million:
      the t error bar is right to eight digits or so. *)
  Lemma unit_deviation (x : list f64) : (2 <= length x)%nat -> Forall (fun v => 0 <= B2R v <= 1) x -> exact_deviation 1 x <= 2.
  Proof.
    intros N F. assert (2 <= INR (length x)) as N2 by (apply (le_INR 2); exact N). unfold exact_deviation. rewrite <- (sqrt_square 2) by lra. apply sqrt_le_1_alt.
    assert (0 <= exact_mean x <= 1) as M.
    { split; [apply exact_mean_ge|apply exact_mean_le]; try exact (Nat.le_trans 1 2 _ (le_S _ _ (le_n 1)) N); (eapply Forall_impl; [|exact F]); intros a A; lra. }
    set (m := exact_mean x) in *. clearbody m.
    assert (fold_right Rplus 0 (map (fun a => (B2R a - m) ^ 2) x) <= INR (length x)) as B.
    { clear N N2. induction F as [|a l A F IH]; [cbn; lra|]. cbn [map fold_right length]. rewrite S_INR. assert ((B2R a - m) ^ 2 <= 1) by nra. lra. }
    apply (Rmult_le_reg_r (INR (length x) - 1)); [lra|]. unfold Rdiv. rewrite Rmult_assoc, Rinv_l by lra. lra.
  Qed.
  Theorem C102_unit_losses :
    forall counts (x : list f64) confidence mu e p,
    (2 <= length x)%nat -> INR (length x) <= bpow radix2 20 -> ordinary_confidence confidence ->
    @get_mean_and_EB _ _ lib counts x confidence f0 f0 (f_of_Z 1) Mt = Ok (mu, e) \/
    @get_mean_EB_test _ _ lib counts x confidence f0 f0 (f_of_Z 1) Mt = Ok (mu, e, p) ->
    let g := t_factor ppf confidence x in let m := exact_mean x in
    Rabs (B2R mu - m) <= bpow radix2 (-31) /\
    Rabs (B2R e - Rmin (g * exact_deviation 1 x) (Rmax (1 - m) m)) <= (g + 1) * bpow radix2 (-29).
  Proof.
    intros counts x c mu e p N M C H g m.
    assert (Forall (fun v => fleb f0 v = true /\ fleb v (f_of_Z 1) = true) x) as L.
    { apply of_within. destruct H as [H|H]; [unfold get_mean_and_EB in H|unfold get_mean_EB_test in H]; now apply assert_ok in H as [W _]. }
    assert (Forall (fun v => fisfin v = true /\ 0 <= B2R v <= 1) x) as F.
    { eapply Forall_impl; [|exact L]. intros v [A B]. exact (clean_unit v A B). }
    assert (usual_losses x) as U.
    { split; [exact N|]. split; [eapply Rle_trans; [exact M|apply bpow_le; lia]|]. eapply Forall_impl; [|exact F]. intros v [A B]. split; [exact A|]. rewrite Rabs_pos_eq by lra.
      apply Rle_trans with (P2 0); [cbn; lra|apply bpow_le; lia]. }
    destruct (f_of_Z_correct 1) as [V1 F1]; [lia|].
    assert (ordinary_limit f0) as Ol by (intros _; change (B2R f0) with 0; rewrite Rabs_R0; apply bpow_ge_0).
    assert (ordinary_limit (f_of_Z 1)) as Ou by (intros _; rewrite V1, Rabs_pos_eq by lra; change (IZR 1) with (P2 0); apply bpow_le; lia).
    destruct (mean_parts _ _ _ _ _ _ _ _ _ U Ol Ou H (or_introl eq_refl)) as (eb & X & _ & _ & Em & _). fold m in Em.
    destruct (C102_t_error_bar x c eb U C X) as (_ & Pg & _). fold g in Pg.
    destruct (C102_estimators_t _ _ _ _ _ _ _ _ U Ol Ou C H) as (_ & _ & D). fold g m in D.
    unfold fitted, range_of in D. rewrite F1 in D. change (fisfin f0) with true in D. cbn [andb] in D. change (B2R f0) with 0 in D. rewrite V1, !Rminus_0_r in D.
    assert (2 <= INR (length x)) as N2 by (apply (le_INR 2); exact N).
    assert (exact_deviation 1 x <= 2) as Ds. { apply unit_deviation; [exact N|]. eapply Forall_impl; [|exact F]. now intros v [_ B]. }
    pose proof (deviation_pos 1 x) as Ps. set (s := exact_deviation 1 x) in *.
    assert (0 <= mean_size x <= 1) as Ms.
    { unfold mean_size. assert (0 <= total_size x <= INR (length x)) as T.
      { unfold total_size. clear -F. induction F as [|a l [_ A] F IH]; [cbn; lra|]. cbn [map fold_right length]. rewrite S_INR, Rabs_pos_eq; lra. }
      split; [apply Rmult_le_pos; [lra|apply Rlt_le, Rinv_0_lt_compat; lra]|]. apply (Rmult_le_reg_r (INR (length x))); [lra|]. unfold Rdiv. rewrite Rmult_assoc, Rinv_l by lra. lra. }
    set (A := mean_size x) in *. set (n := INR (length x)) in *.
    assert (mean_slack x <= P2 (-31)) as MS.
    { unfold mean_slack. fold n A. assert ((n + 1) * P2 (-52) <= P2 21 * P2 (-52)) as Q.
      { apply Rmult_le_compat_r; [apply bpow_ge_0|]. assert (P2 21 = P2 20 + P2 20) by (cbn; lra). assert (1 <= P2 20) by (cbn; lra). lra. }
      rewrite <- bpow_plus in Q. change (21 + -52)%Z with (-31)%Z in Q.
      assert ((n + 1) * P2 (-52) <= (P2 20 + 1) * P2 (-52)) as Q' by (apply Rmult_le_compat_r; [apply bpow_ge_0|lra]).
      assert (P2 (-1075) <= P2 (-52)) as Q2 by (apply bpow_le; lia). pose proof (bpow_gt_0 radix2 (-52)) as Pp.
      assert ((n + 1) * P2 (-52) * A <= (P2 20 + 1) * P2 (-52) * 1) as Q3 by (apply Rmult_le_compat; try lra; apply Rmult_le_pos; lra).
      assert (P2 (-31) = P2 21 * P2 (-52)) as -> by now rewrite <- bpow_plus. assert (P2 21 = P2 20 + P2 20) as -> by (cbn; lra). assert (2 <= P2 20) by (cbn; lra). 
      assert (2 * P2 (-52) <= P2 20 * P2 (-52)) by (apply Rmult_le_compat_r; lra). lra. }
    split; [lra|].
    assert (slack x s <= P2 (-29)) as SL.
    { unfold slack. fold n A. pose proof (bpow_gt_0 radix2 (-52)) as Pp. assert (P2 (-500) <= P2 (-52)) as Q2 by (apply bpow_le; lia).
      assert ((n + 12) * P2 (-52) * (s + 3 * A) <= (P2 20 + 12) * P2 (-52) * 5) as Q3.
      { apply Rmult_le_compat; [apply Rmult_le_pos; lra|lra| |lra]. apply Rmult_le_compat_r; lra. }
      assert (P2 (-29) = P2 23 * P2 (-52)) as -> by now rewrite <- bpow_plus. assert (P2 23 = 8 * P2 20) as -> by (cbn; lra). assert (100 <= P2 20) by (cbn; lra).
      assert (100 * P2 (-52) <= P2 20 * P2 (-52)) by (apply Rmult_le_compat_r; lra). lra. }
    eapply Rle_trans; [exact D|]. assert (g * slack x s <= g * P2 (-29)) as G by (apply Rmult_le_compat_l; assumption).
    assert (P2 (-1074) <= P2 (-31) /\ P2 (-53) <= P2 (-31) /\ P2 (-29) = 4 * P2 (-31)) as (R1 & R2 & R3).
    { split; [apply bpow_le; lia|]. split; [apply bpow_le; lia|]. change 4 with (P2 2). now rewrite <- bpow_plus. }
    pose proof (bpow_gt_0 radix2 (-31)). lra.
  Qed.
End C102.
Print Assumptions C102_t_error_bar.
Print Assumptions C102_bernstein_error_bar.
Print Assumptions C102_estimators_t.
Print Assumptions C102_estimators_bernstein.
Print Assumptions C102_table.
Print Assumptions C102_unit_losses.

(** ** The hypotheses are met *)
Example C102_deviation_example :
  (* 1, 2, 4, 5: the standard deviations are sqrt (10/3) = 1.8257... and sqrt (5/2) = 1.5811... *)
  let x := [f_of_Z 1; f_of_Z 2; f_of_Z 4; f_of_Z 5] in
  usual_losses x /\ exact_deviation 1 x = sqrt (10 / 3) /\ exact_deviation 0 x = sqrt (10 / 4) /\
  milli (Ok (@nstd _ _ any_fn 1 x)) = Some 1825%Z /\ milli (Ok (@nstd _ _ any_fn 0 x)) = Some 1581%Z.
Proof.
  cbv zeta. split.
  - split; [cbn; lia|]. split; [cbn; lra|].
    assert (forall z, (Z.abs z <= 5)%Z -> fisfin (f_of_Z z) = true /\ Rabs (B2R (f_of_Z z)) <= bpow radix2 400) as K.
    { intros z Hz. destruct (f_of_Z_correct z) as [V F]; [lia|]. split; [exact F|]. rewrite V, <- abs_IZR. apply Rle_trans with (bpow radix2 3); [change (bpow radix2 3) with (IZR 8); apply IZR_le; lia|apply bpow_le; lia]. }
    repeat (apply Forall_cons; [apply K; cbn; lia|]). apply Forall_nil.
  - assert (exact_mean [f_of_Z 1; f_of_Z 2; f_of_Z 4; f_of_Z 5] = 3) as M by (unfold exact_mean, exact_sum; cbn [map fold_right length]; rewrite !f_of_Z_val by lia; cbn; lra).
    unfold exact_deviation. rewrite M. cbn [map fold_right length]. rewrite !f_of_Z_val by lia.
    split; [f_equal; cbn; field|]. split; [f_equal; cbn; field|]. split; vm_compute; reflexivity.
Qed.

(** A library, a table and a confidence level that satisfy the hypotheses of
    C102_table; the table exists, so both halves say something about its cells. *)
Example C102_table_example : forall method_EB, method_EB = Mt \/ method_EB = Mbernstein ->
  exists out, let confidence := fdiv (f_of_Z 95) (f_of_Z 100) in
  @loss_summary_table _ _ (fn_f64 tame_one tame_one tame_sf tame_ppf tame_eig) even_draw quarter_table mA false confidence method_EB unit_limits = Ok out /\
  ordinary_table quarter_table mA unit_limits /\ ordinary_confidence confidence /\ good_library tame_one tame_one tame_sf tame_ppf tame_eig /\
  (exists c, In ((mL, mB), c) out) /\ column quarter_table mL mB [f0; f_of_Z 1; lit 1 5] /\ / 2 <= log_term tame_one confidence /\
  fisfin (fst (limits_of unit_limits mL)) = true /\ fisfin (snd (limits_of unit_limits mL)) = true.
Proof.
  intros m Hm. destruct (C92_table false m) as [out H]; [destruct Hm as [-> | ->]; discriminate|]. exists out. destruct C92_example as (A & B & _). cbv zeta.
  split; [exact H|]. split; [exact A|]. split; [exact B|]. split; [exact C92_library|]. destruct (C60_cells _ _ _ _ _ _ _ _ H) as [K _]. split.
  - assert (In (mL, mB) (map fst out)) as I by (rewrite K; right; now left). apply in_map_iff in I as ([k c] & E & I). cbn in E. subst k. now exists c.
  - split; [split; [right; now left|intros y [Q|[Q|[]]]; now inversion Q]|]. split; [|split; reflexivity].
    unfold log_term, tame_one. rewrite f_of_Z_val by lia. lra.
Qed.

(** The same for a vector of losses by itself: C102_unit_losses applies to it. *)
Example C102_unit_example :
  let x := [lit 1 10; lit 1 2; lit 3 10] in let confidence := fdiv (f_of_Z 95) (f_of_Z 100) in
  INR (length x) <= bpow radix2 20 /\
  (exists mu e, @get_mean_and_EB _ _ (fn_f64 tame_one tame_one tame_sf tame_ppf tame_eig) [] x confidence f0 f0 (f_of_Z 1) Mt = Ok (mu, e)) /\
  milli (do r <- @get_mean_and_EB _ _ (fn_f64 tame_one tame_one tame_sf tame_ppf tame_eig) [] x confidence f0 f0 (f_of_Z 1) Mt; Ok (snd r)) = Some 54%Z.
Proof.
  cbv zeta. split; [cbn; lra|]. assert (milli (do r <- @get_mean_and_EB _ _ (fn_f64 tame_one tame_one tame_sf tame_ppf tame_eig) [] [lit 1 10; lit 1 2; lit 3 10] (fdiv (f_of_Z 95) (f_of_Z 100)) f0 f0 (f_of_Z 1) Mt; Ok (snd r)) = Some 54%Z) as E by (vm_compute; reflexivity).
  split; [|exact E]. match type of E with milli (do r <- ?G; _) = _ => destruct G as [[mu e]|]; [now exists mu, e|discriminate E] end.
Qed.
