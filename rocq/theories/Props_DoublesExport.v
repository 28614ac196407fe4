(** Property theorem C101: the tables computed in double precision can be
    printed.  Without pairwise intervals an error bar that is not 0 is at least
    2^-86 times its mean, which leaves room for the 28 digits of sciprint.py; with
    pairwise intervals there is no such bound.  Model: MLPaper.v, Benchmark.v,
    TableExport.v. *)
From Coq Require Import Reals Lra Lia.
From Flocq Require Import Core BinarySingleNaN.
From Verif Require Import PyBase ListLemmas F64 Num F64Lemmas NumOk SumProofs Util UtilProofs BootUtil BootProofs2 PerfCurves CurveBoot MLPaper MLProofs MLProofs4 CompareProofs
  SwapProofs MeanProofs DoublesProofs DoublesProofs2 Checkpoint CheckpointProofs Classification Regression Benchmark ClassProofs ClassProofs2 ClassProofs3 ClassProofs4 ClassProofs5
  RegrProofs LossTableProofs BenchProofs DoublesProofs3 AnyNormalize DoublesProofs4 DoublesProofs5 CurveProofs7 DoublesProofs6.
From Verif Require Import Dec Sciprint Spec_Sciprint DecRound DecimalizeProofs TableProofs FormatProofs FormatTableProofs TableExport ExportProofs ArgsortInst.
From Verif Require Import Props_Boot Props_Curves Props_MLPaper Props_Classification Props_Predict Props_Regression Props_Tables Props_Benchmark Props_Mean Props_Doubles Props_DoublesBench
  Props_DoublesClass Props_DoublesCurves Props_DoublesFull Props_Compare Props_Export.
Open Scope R_scope.

(** ** A resolved error bar fits *)
Lemma resolved_fits k m e p : fisfin m = true -> resolved (B2R m) e -> ~ too_wide 2 k (m, e, p).
Proof.
  intros Fm R (sb & c & x & H & Nc & _ & W). destruct R as [E|(s & E & P & R)].
  - assert (e = finf) as -> by (destruct e as [?|[]| |?]; try discriminate; reflexivity). discriminate H.
  - apply v64_Fin in E as [Fe Be]. destruct (create_decimal_ceiling e 2 Fe ltac:(lia)) as (sb' & c' & x' & H' & Hc & Hr & _). rewrite H in H'. apply Ok_inj in H'. injection H' as <- <- <-.
    rewrite Be in Hr. destruct Hr as [R1 R2]. assert (0 < p10 x) as Px by (unfold p10; apply bpow_gt_0).
    assert (sb = false) as -> by (apply (dR_nonneg_sign sb c x); [lra|exact Nc]). unfold dR in R1, R2.
    assert (1 <= IZR (Z.of_N c) <= 99) as Bc by (split; apply IZR_le; [destruct c; [contradiction|lia]|change (10 ^ 2)%Z with 100%Z in Hc; lia]).
    destruct R as [->|R]; [nra|].
    assert (P2 86 * P2 (-86) = 1) as PP by (rewrite <- bpow_plus; reflexivity). pose proof (bpow_gt_0 radix2 86) as P86. pose proof (bpow_gt_0 radix2 (-86)) as Pm86.
    assert (Rabs (B2R m) <= P2 86 * s) as B. { apply Rle_trans with (P2 86 * (P2 (-86) * Rabs (B2R m))); [rewrite <- Rmult_assoc, PP; lra|]. apply Rmult_le_compat_l; lra. }
    assert (P2 86 * 99 < p10 28 - / 2) as Big.
    { change (P2 86) with (IZR (2 ^ 86)). change (p10 28) with (IZR (10 ^ 28)). assert (IZR (2 ^ 86) * 99 + 1 <= IZR (10 ^ 28)); [|lra]. rewrite <- mult_IZR, <- plus_IZR. apply IZR_le. vm_compute. discriminate. }
    assert (P2 86 * s <= P2 86 * 99 * p10 x) as U. { rewrite Rmult_assoc. apply Rmult_le_compat_l; [lra|]. nra. }
    assert (P2 86 * 99 * p10 x < (p10 28 - / 2) * p10 x) by (apply Rmult_lt_compat_r; assumption). lra.
Qed.
Lemma clean_p p : fleb f0 p = true -> fleb p (f_of_Z 1) = true -> fisfin p = true /\ 0 <= B2R p <= 1.
Proof.
  intros A B. rewrite v64_leb in A, B. rewrite (v64_ofZ 1) in B by lia. change (v64 f0) with (Fin 0) in A.
  destruct (v64 p) as [q| | |] eqn:E; try discriminate. apply v64_Fin in E as [F <-]. cbn in A, B. apply Rleb_spec in A, B. auto.
Qed.
Lemma resolved_clean m e p : fisfin m = true -> resolved (B2R m) e -> (fisnan p = true \/ (fleb f0 p = true /\ fleb p (f_of_Z 1) = true)) -> clean_cell (m, e, p).
Proof.
  intros Fm R P. split; [exact Fm|]. split.
  - destruct R as [E|(s & E & L & _)]; right; [left; destruct e as [?|[]| |?]; try discriminate; reflexivity|right]. apply v64_Fin in E as [Fe <-]. auto.
  - destruct P as [N|[A B]]; [left; destruct p; try discriminate; reflexivity|right; now apply clean_p].
Qed.

(** ** The specification *)
(** every table whose entries are among [cells] is printed, showing the numbers
    truthfully; with shift_mod=None it may only be refused for a mean that would
    need a shift *)
Definition exports (cells : pystr -> pystr -> f64 * f64 * f64 -> Prop) : Prop :=
  forall methods t, nonempty_table t -> one_index methods t ->
  (forall i j metric method v, cell_at t i j metric method v -> cells metric method v) ->
  (forall argsort md cmax cmin lim nf ud tex up, argsort_ok argsort -> (1 <= md)%Z ->
   exists align F,
    (forall to_string to_latex,
       just_format_it to_string to_latex argsort t ud (Some md) cmax cmin lim nf tex up = Ok (if tex then to_latex align F else to_string F)) /\
    shows tex (fun sh => (md | sh)%Z) methods t 4 ud up cmax cmin nf F) /\
  (forall to_string to_latex argsort nf ud tex up,
   let out := just_format_it to_string to_latex argsort t ud None [] [] [] nf tex up in
   (out = Err ValueError <-> exists i j metric method mf ef pf, cell_at t i j metric method (mf, ef, pf) /\ needs_shift mf ef) /\
   (out = Err ValueError \/ exists s, out = Ok s)).
Definition triple (c : cell f64) : f64 * f64 * f64 := (cell_mean c, cell_error c, cell_pval c).
(** the entry of a table of losses *)
Definition loss_entry (out : list ((pystr * pystr) * cell f64)) (metric method : pystr) (v : f64 * f64 * f64) : Prop :=
  exists c, In ((metric, method), c) out /\ v = triple c.
(** a finite entry of a table of curves *)
Definition area_entry (out : list ((pystr * pystr) * (cell f64 * list (f64 * f64 * f64 * f64)))) (curve method : pystr) (v : f64 * f64 * f64) : Prop :=
  exists c dump, In ((method, curve), (c, dump)) out /\ fisfin (cell_mean c) = true /\ v = triple c.

Lemma exports_of (cells : pystr -> pystr -> f64 * f64 * f64 -> Prop) : (forall metric method v, cells metric method v -> clean_cell v /\ forall k, ~ too_wide 2 k v) -> exports cells.
Proof.
  intros H methods t NE OI C. split.
  - intros. apply C79_export_truthful; auto. intros i j metric method v I. destruct (H metric method v (C _ _ _ _ _ I)). auto.
  - intros. apply C80_default_fails_iff; eauto. intros i j metric method v I. destruct (H metric method v (C _ _ _ _ _ I)). auto.
Qed.

(** the error bar of any bootstrap estimate, as used for the areas *)
Theorem C101_boot_resolution :
  forall (b : list f64) estimate confidence e,
  b <> [] -> (Z.of_nat (length b) <= 2 ^ 53)%Z -> fisfin estimate = true -> error_bar b estimate confidence = Ok e ->
  e = finf \/ (fisfin e = true /\ (B2R e = 0 \/ bpow radix2 (-86) * Rabs (B2R estimate) <= B2R e)).
Proof.
  intros b m c e N L F H. destruct (error_bar_resolved b m (B2R m) c e (conj N L) (v64_fin m F) H) as [E|(s & E & _ & R)].
  - left. destruct e as [?|[]| |?]; try discriminate; reflexivity.
  - right. apply v64_Fin in E as [Fe <-]. auto.
Qed.
Print Assumptions C101_boot_resolution.

Section C101.
  Context (fexp flog : f64 -> f64) (sf ppf : Z -> f64 -> f64) (eig : f64 -> f64 -> option (f64 * f64)).
  Context (GL : good_library fexp flog sf ppf eig).
  Notation lib := (fn_f64 fexp flog sf ppf eig).

  Lemma loss_resolved draw t ref c m limits out : ordinary_table t ref limits -> ordinary_confidence c -> m <> Mother -> resamples t draw ->
    (m = Mt -> wide_quantiles ppf c) -> (m = Mbernstein -> log_half flog) -> @loss_summary_table _ _ lib draw t ref false c m limits = Ok out ->
    forall metric method cl, In ((metric, method), cl) out -> fisfin (cell_mean cl) = true /\ resolved (B2R (cell_mean cl)) (cell_error cl).
  Proof.
    intros OT OC M RS WQ LH H metric method cl I.
    destruct (C93_sane_numbers fexp flog sf ppf eig GL draw t ref false c m limits out OT OC M RS H) as [K1 K2].
    destruct (K2 metric method cl I) as ((S1 & S2 & S3) & _).
    pose proof (proj1 (C92_accepted_iff fexp flog sf ppf eig GL draw t ref false c m limits OT OC M RS) (ex_intro _ out H) eq_refl) as ML. clear K2.
    assert (In (metric, method) (list_prod (lt_metrics t) (lt_methods t))) as IP.
    { rewrite <- K1. exact (in_map fst _ _ I). }
    apply in_prod_iff in IP as [Hm Hd]. destruct (C60_cells _ _ _ _ _ _ _ _ H) as [_ K]. destruct (K _ _ _ I) as (x & y & CX & _ & D). clear K.
    destruct OT as (_ & _ & N1 & N2 & _ & P). specialize (P metric Hm). specialize (ML metric method x Hm Hd CX).
    destruct (limits_of limits metric) as [lo up]. destruct P as (Ll & Lu & RO & P). destruct (P method Hd) as (x' & CX' & LX & FX). rewrite <- (column_unique _ _ _ _ _ CX CX') in LX, FX. clear x' CX' P.
    cbv zeta in D. destruct D as (D1 & D2 & _). destruct (D2 eq_refl) as [mu D3].
    split; [exact S1|]. rewrite <- LX in N1, N2. destruct ML as [ML1 ML2]. rewrite D1 in S1 |- *.
    apply (mean_and_EB_resolved fexp flog sf ppf eig GL (draw metric method false) x c lo up m mu); auto.
    - now apply ordinary_bdd.
    - rewrite LX. apply RS.
    - now apply v64_fin.
  Qed.
  Lemma loss_printable draw t ref c m limits out : ordinary_table t ref limits -> ordinary_confidence c -> m <> Mother -> resamples t draw ->
    (m = Mt -> wide_quantiles ppf c) -> (m = Mbernstein -> log_half flog) -> @loss_summary_table _ _ lib draw t ref false c m limits = Ok out ->
    forall metric method v, loss_entry out metric method v -> clean_cell v /\ forall k, ~ too_wide 2 k v.
  Proof.
    intros OT OC M RS WQ LH H metric method v (cl & I & ->).
    destruct (loss_resolved draw t ref c m limits out OT OC M RS WQ LH H metric method cl I) as [S1 R].
    destruct (C93_sane_numbers fexp flog sf ppf eig GL draw t ref false c m limits out OT OC M RS H) as [_ K]. destruct (K metric method cl I) as ((_ & _ & S3) & _).
    split; [|intros k; now apply resolved_fits]. apply resolved_clean; [exact S1|exact R|]. destruct (pystr_eqb method ref); [now left|right; exact S3].
  Qed.

  (** C101: an error bar is infinite, zero or not too small for its mean. *)
  Theorem C101_loss_resolution :
    forall draw t ref confidence m limits out,
    ordinary_table t ref limits -> ordinary_confidence confidence -> m <> Mother -> resamples t draw ->
    (m = Mt -> wide_quantiles ppf confidence) -> (m = Mbernstein -> log_half flog) ->
    @loss_summary_table _ _ lib draw t ref false confidence m limits = Ok out ->
    forall metric method cl, In ((metric, method), cl) out ->
    cell_error cl = finf \/
    (fisfin (cell_error cl) = true /\ (B2R (cell_error cl) = 0 \/ bpow radix2 (-86) * Rabs (B2R (cell_mean cl)) <= B2R (cell_error cl))).
  Proof.
    intros draw t ref c m limits out OT OC M RS WQ LH H metric method cl I. destruct (loss_resolved draw t ref c m limits out OT OC M RS WQ LH H metric method cl I) as [_ R].
    destruct R as [E|(s & E & _ & R)]; [left; destruct (cell_error cl) as [?|[]| |?]; try discriminate; reflexivity|right].
    apply v64_Fin in E as [F <-]. auto.
  Qed.

  (** C101: a table of losses that was computed without pairwise intervals can
      always be printed. *)
  Theorem C101_loss_table :
    forall draw t ref confidence m limits out,
    ordinary_table t ref limits -> ordinary_confidence confidence -> m <> Mother -> resamples t draw ->
    (m = Mt -> wide_quantiles ppf confidence) -> (m = Mbernstein -> log_half flog) ->
    @loss_summary_table _ _ lib draw t ref false confidence m limits = Ok out -> exports (loss_entry out).
  Proof. intros. apply exports_of. eapply loss_printable; eauto. Qed.

  Theorem C101_regression :
    log_moderate flog ->
    forall (S X : Type) key_eqb (o : regressor f64 S X) draw X_train y_train X_test y_test methods losses ref_method min_std m limits
      (mu std : S -> list f64),
    NoDup (map fst methods) -> NoDup (map fst losses) ->
    r_inputs X_train y_train X_test min_std (length y_test) -> INR (length y_test) <= bpow radix2 30 ->
    Forall ordinary_value y_test ->
    (forall name s, In (name, s) methods -> r_predicts o s (fa_data X_train) y_train (fa_data X_test) (mu s) (std s) /\
       length (mu s) = length y_test /\ length (std s) = length y_test /\
       Forall ordinary_value (mu s) /\ Forall (fun d => ordinary_std (nmax min_std d)) (std s)) ->
    In ref_method (map fst methods) -> losses <> [] -> m <> Mother ->
    (m = Mt -> wide_quantiles ppf (fdiv (f_of_Z 95) (f_of_Z 100))) -> (m = Mbernstein -> log_half flog) ->
    (forall metric f, In (metric, f) losses -> r_float_loss lib f (limits_of limits metric)) ->
    (forall metric method b, multinomial_outcome (Z.of_nat (length y_test)) 1000 (draw metric method b)) ->
    exists out,
      @r_just_benchmark _ _ lib _ _ key_eqb o draw X_train y_train X_test y_test methods losses ref_method min_std false m limits = Ok out /\
      map fst out = list_prod (map fst losses) (map fst methods) /\ exports (loss_entry out).
  Proof.
    intros LM S X key_eqb o draw Xtr ytr Xte yte ms ls ref fl m lim mu std N1 N2 RI NB YV P IR LN M WQ LH SL DL.
    destruct (r_bench_table fexp flog sf ppf eig GL LM S X key_eqb o draw Xtr ytr Xte yte ms ls ref fl false m lim mu std N1 N2 RI NB YV P IR LN M SL DL) as (lt & out & OT & RS & E & B & K & _).
    exists out. split; [exact B|]. split; [exact K|]. eapply C101_loss_table; eauto. exact conf_95.
  Qed.

  Theorem C101_classification :
    exp_log fexp flog ->
    forall (sum : list f64 -> f64), (forall l, sums_to l (sum l)) ->
    forall (S X : Type) key_eqb (o : classifier f64 S X) draw_curve draw_loss X_train kd y_train X_test y_test methods losses curves ref_method min_log_prob m limits
      (rows : S -> list (list f64)),
    NoDup (map fst methods) -> NoDup (map fst losses) -> NoDup (map fst curves) ->
    c_inputs X_train kd y_train X_test 2 min_log_prob (length y_test) -> Forall (fun v => v = 0%Z \/ v = 1%Z) y_test ->
    fisfin min_log_prob = true -> score 100 min_log_prob ->
    (forall name s, In (name, s) methods -> @c_predicts _ lib _ _ o s (fa_data X_train) y_train (fa_data X_test) (rows s) 2 /\
       length (rows s) = length y_test /\ Forall (fun row => length row = 2%nat /\ Forall (score 100) row) (rows s)) ->
    In ref_method (map fst methods) -> losses <> [] -> curves <> [] -> m <> Mother ->
    (m = Mt -> wide_quantiles ppf (fdiv (f_of_Z 95) (f_of_Z 100))) -> (m = Mbernstein -> log_half flog) ->
    (forall metric f, In (metric, f) losses -> c_float_loss lib sum 2 True f (limits_of limits metric)) ->
    (forall curve f, In (curve, f) curves -> exists QA QG, float_curve false f QA QG) ->
    (forall method curve, multinomial_outcome (Z.of_nat (length y_test)) 1000 (draw_curve method curve) /\ enough_draws y_test (draw_curve method curve)) ->
    (forall metric method b, multinomial_outcome (Z.of_nat (length y_test)) 1000 (draw_loss metric method b)) ->
    exists lo cu, @just_benchmark _ _ lib (@any_normalize _ _ lib sum) _ _ key_eqb o draw_curve draw_loss X_train kd y_train X_test y_test 2 methods losses curves ref_method min_log_prob
        false m limits = Ok (lo, cu) /\
    map fst lo = list_prod (map fst losses) (map fst methods) /\
    (forall method curve, In (method, curve) (map fst cu) <-> In method (map fst methods) /\ In curve (map fst curves)) /\
    (forall method curve c dump, In ((method, curve), (c, dump)) cu -> In (curve, roc_curve) curves \/ In (curve, recall_precision_curve) curves -> fisfin (cell_mean c) = true) /\
    exports (fun metric method v => loss_entry lo metric method v \/ area_entry cu metric method v).
  Proof.
    intros EL sum SUM S X key_eqb o dc dl Xtr kd ytr Xte yte ms ls cs ref fl m lim rows N1 N2 N3 CI Y FF FS P RI LN CN M WQ LH LR CR DC DL.
    destruct (full_bench_table fexp flog sf ppf eig GL EL sum SUM S X key_eqb o dc dl Xtr kd ytr Xte yte ms ls cs ref fl false m lim rows N1 N2 N3 CI Y FF FS P RI LN CN M LR CR DC DL)
      as (lt & lo & cu & OT & RS & E & B & K1 & K2 & _ & K3).
    exists lo, cu. split; [exact B|]. split; [exact K1|]. split; [exact K2|]. split.
    { intros method curve c dump I [J|J].
      - destruct (K3 _ _ _ _ _ _ _ J (float_roc false) I) as [[Q _] _]. exact Q.
      - destruct (K3 _ _ _ _ _ _ _ J (float_rp false) I) as [[Q _] _]. exact Q. }
    apply exports_of. intros metric method v [L|(c & dump & I & Fc & ->)].
    - eapply loss_printable; eauto. exact conf_95.
    - destruct (C84_cells _ _ _ _ _ _ _ _ _ _ _ _ _ _ _ _ _ _ _ _ _ N1 N2 N3 B) as (_ & _ & _ & sr & _ & C).
      assert (In (method, metric) (map fst cu)) as J by exact (in_map fst _ _ I). apply K2 in J as [J1 J2]. apply NoDup_entry in J1 as [s J1]. apply NoDup_entry in J2 as [f J2].
      destruct (C method s J1) as [_ C2]. specialize (C2 metric f (c, dump) J2 I). clear C. cbn [fst snd] in C2.
      destruct C2 as (P0 & P1 & auc & EB & p & _ & _ & CB & C1 & C2 & _). rewrite andb_false_r in C2. cbn [fst snd] in C1, C2, CB.
      apply curve_boot_ref_inv in CB. cbv zeta in CB. destruct CB as (w & ab & rb & v & _ & _ & _ & _ & _ & _ & _ & LA & _ & _ & EBQ).
      destruct (CR metric f J2) as (QA & QG & FC). destruct (K3 _ _ _ _ _ _ _ J2 FC I) as (_ & _ & PV & _).
      assert (resolved (B2R (cell_mean c)) (cell_error c)) as R.
      { rewrite C1 in Fc |- *. rewrite C2. eapply error_bar_resolved; [|now apply v64_fin|exact EBQ]. split; [intros ->; cbn in LA; lia|lia]. }
      split; [|intros k; now apply resolved_fits]. apply resolved_clean; [exact Fc|exact R|]. destruct (pystr_eqb method ref); [now left|right].
      destruct PV as [F [A U]]. split; rewrite v64_leb, (v64_fin _ F); [change (v64 f0) with (Fin 0)|rewrite (v64_ofZ 1) by lia]; apply Rleb_spec; lra.
  Qed.
End C101.
Print Assumptions C101_loss_resolution.
Print Assumptions C101_loss_table.
Print Assumptions C101_regression.
Print Assumptions C101_classification.

(** ** Pairwise intervals *)
(** Two samples on which the methods differ by 2^-300 and by nothing: the error
    bar of the difference is about 10^-90 while the mean is a half. *)
Definition speck : f64 := fdiv (f_of_Z 1) (f_of_Z (2 ^ 300)).
Definition speck_table : loss_table_t f64 := small_table [f0; f_of_Z 1] [speck; f_of_Z 1].

Lemma speck_ordinary : ordinary_table speck_table mA [].
Proof.
  split; [now left|]. split; [discriminate|]. split; [cbn; lia|]. split.
  { change (lt_len speck_table) with 2%nat. change (bpow radix2 30) with (IZR (2 ^ 30)). rewrite INR_IZR_INZ. apply IZR_le. cbn. lia. }
  split. { cbn. repeat constructor; cbn; try tauto. intros [H|[]]. discriminate. }
  intros metric [<-|[]]. change (limits_of (T := f64) [] mL) with (fninf, finf).
  split; [intros H; discriminate H|]. split; [intros H; discriminate H|]. split; [intros H; discriminate H|].
  assert (forall v, ordinary_loss f0 (f_of_Z 1) v -> ordinary_loss fninf finf v) as W.
  { intros v (F & B & L). split; [exact F|]. split; [exact B|]. destruct v; try discriminate; split; reflexivity. }
  intros method [<-|[<-|[]]].
  + exists [f0; f_of_Z 1]. split; [split; [now left|intros y [H|[H|[]]]; now inversion H]|split; [reflexivity|]].
    repeat (apply Forall_cons; [apply W, unit_ordinary; vm_compute; reflexivity|]). apply Forall_nil.
  + exists [speck; f_of_Z 1]. split; [split; [right; now left|intros y [H|[H|[]]]; now inversion H]|split; [reflexivity|]].
    repeat (apply Forall_cons; [apply W, unit_ordinary; vm_compute; reflexivity|]). apply Forall_nil.
Qed.

Lemma tiny_too_wide m e p r : fisfin m = true -> P2 (-1) <= B2R m -> v64 e = Fin r -> 0 < r <= P2 (-150) -> too_wide 2 None (m, e, p).
Proof.
  intros Fm Bm E R. apply v64_Fin in E as [Fe Be]. destruct (create_decimal_ceiling e 2 Fe ltac:(lia)) as (sb & c & x & H & _ & [R1 R2] & X & Z). rewrite Be in *.
  assert (0 < p10 x) as Px by (unfold p10; apply bpow_gt_0).
  assert (c <> 0%N) as Nc. { intros Q. destruct (Z Q). lra. }
  exists sb, c, x. split; [exact H|]. split; [exact Nc|]. split; [discriminate|].
  assert (sb = false) as -> by (apply (dR_nonneg_sign sb c x); [lra|exact Nc]). unfold dR in *.
  assert (p10 x <= r) as U.
  { destruct X as [X|X].
    - assert (1 <= IZR (Z.of_N c)) by (apply IZR_le; destruct c; [contradiction|lia]). nra.
    - change (10 ^ (2 - 1))%Z with 10%Z in X. apply IZR_le in X. nra. }
  assert (p10 28 <= P2 100) as P28 by (change (p10 28) with (IZR (10 ^ 28)); change (P2 100) with (IZR (2 ^ 100)); apply IZR_le; vm_compute; discriminate).
  assert (P2 100 * P2 (-150) <= P2 (-1)) as PP by (rewrite <- bpow_plus; apply bpow_le; lia). pose proof (bpow_gt_0 radix2 100). pose proof (bpow_gt_0 radix2 (-150)).
  assert (0 < p10 28) by (unfold p10; apply bpow_gt_0). pose proof (Rle_abs (B2R m)). nra.
Qed.

Theorem C101_pairwise_refuted :
  exists t, ordinary_table t mA [] /\ lt_metrics t = [mL] /\ lt_methods t = [mA; mB] /\
  forall fexp flog sf ppf eig, good_library fexp flog sf ppf eig -> wide_quantiles ppf (fdiv (f_of_Z 95) (f_of_Z 100)) ->
  forall draw, resamples t draw ->
  exists out, @loss_summary_table _ _ (fn_f64 fexp flog sf ppf eig) draw t mA true (fdiv (f_of_Z 95) (f_of_Z 100)) Mt [] = Ok out /\
  map fst out = [(mL, mA); (mL, mB)] /\
  forall frame i j v, cell_at frame i j mL mB v -> loss_entry out mL mB v ->
  forall to_string to_latex argsort ud sm cmax cmin lim nf tex up, dict_get lim mL = None ->
  forall s, just_format_it to_string to_latex argsort frame ud sm cmax cmin lim nf tex up <> Ok s.
Proof.
  exists speck_table. split; [exact speck_ordinary|]. split; [reflexivity|]. split; [reflexivity|].
  intros fexp flog sf ppf eig GL WQ draw RS.
  destruct (C92_pairwise_accepted fexp flog sf ppf eig GL draw speck_table mA _ Mt [] speck_ordinary conf_95 ltac:(discriminate) RS) as [out H].
  exists out. split; [exact H|].
  destruct (C93_sane_numbers fexp flog sf ppf eig GL draw speck_table mA true _ Mt [] out speck_ordinary conf_95 ltac:(discriminate) RS H) as [K1 K2].
  split; [exact K1|]. intros frame i j v CA (cl & I & ->) ts tl argsort ud sm cmax cmin lim nf tex up NL s.
  destruct (K2 _ _ _ I) as ((S1 & S2 & S3) & _). change (true && pystr_eqb mB mA)%bool with false in S2. change (pystr_eqb mB mA) with false in S3. cbv iota in S2, S3. clear K1 K2.
  destruct (C60_cells _ _ _ _ _ _ _ _ H) as [_ K]. destruct (K _ _ _ I) as (x & y & CX & CY & D). clear K.
  assert (x = [speck; f_of_Z 1]) as -> by (eapply column_unique; [exact CX|]; split; [right; now left|intros z [Q|[Q|[]]]; now inversion Q]).
  assert (y = [f0; f_of_Z 1]) as -> by (eapply column_unique; [exact CY|]; split; [now left|intros z [Q|[Q|[]]]; now inversion Q]).
  change (limits_of (T := f64) [] mL) with (fninf, finf) in D. cbv zeta in D. destruct D as (D1 & _ & D3 & _). destruct (D3 eq_refl ltac:(discriminate)) as [mu D4]. clear D3 CX CY.
  cbn [map2] in D4. set (dl := [nsub speck f0; nsub (f_of_Z 1) (f_of_Z 1)]) in D4.
  assert (exists r, v64 (cell_error cl) = Fin r /\ 0 < r <= P2 (-150)) as (r & Er & Br).
  { unfold get_mean_EB_test in D4. apply assert_ok in D4 as [_ D4]. destruct (@t_EB _ _ _ dl _) as [EB|] eqn:ET; [|discriminate]. cbn [bind] in D4.
    destruct (t_test dl) as [pv|]; [|discriminate]. cbn [bind fst snd] in D4. destruct (clip_chk _ _ _ _) as [mu'|]; [|discriminate]. cbn [bind] in D4.
    destruct (clip_EB _ _ _ _ _) as [e|] eqn:CE; [|discriminate]. cbn [bind] in D4. apply Ok_inj in D4. assert (e = cell_error cl) as -> by congruence. clear D4.
    unfold t_EB in ET. apply assert_ok in ET as [_ ET]. apply assert_ok in ET as [_ ET]. replace (degenerate dl) with false in ET by (vm_compute; reflexivity). cbv zeta in ET.
    apply assert_ok in ET as [_ ET]. apply assert_ok in ET as [_ ET]. apply Ok_inj in ET.
    cbn [t_ppf fn_f64 ndiv nsub nadd n1 nofZ nmul nsqrt f64_num] in ET.
    destruct (quantiles _ _ _ _ _ GL (fdiv (f_of_Z 95) (f_of_Z 100)) 1%Z conf_95 ltac:(lia)) as [_ (w & Ew & Bw)].
    pose proof (half_leb _ _ Ew (WQ 1%Z ltac:(lia))) as W. change (Z.of_nat (length dl) - 1)%Z with 1%Z in ET. set (Dq := fsub (ppf _ _) (ppf _ _)) in *. clearbody Dq.
    set (h := fmul nhalf _) in ET.
    assert (fisfin h = true /\ P2 (-303) <= B2R h <= P2 (-301)) as [Fh Bh].
    { unfold h. split; [vm_compute; reflexivity|]. rewrite <- SF2R_B2SF. set (z := B2SF _). vm_compute in z. unfold z. cbn [SF2R cond_Zopp]. unfold F2R. cbn [Fnum Fexp].
      split; [replace (P2 (-303)) with (IZR (2 ^ 51) * P2 (-354)) by (change (IZR (2 ^ 51)) with (P2 51); now rewrite <- bpow_plus)|
              replace (P2 (-301)) with (IZR (2 ^ 53) * P2 (-354)) by (change (IZR (2 ^ 53)) with (P2 53); now rewrite <- bpow_plus)];
      (apply Rmult_le_compat_r; [apply bpow_ge_0|]; apply IZR_le; vm_compute; discriminate). }
    clearbody h.
    assert (v64 EB = Fin (rnd64 (B2R h * w)) /\ 0 <= rnd64 (B2R h * w) <= P2 (-200)) as [Ee Be].
    { rewrite <- ET, v64_mul, (v64_fin h Fh), Ew. cbn [xr2]. pose proof (bpow_gt_0 radix2 (-303)). apply rnd_nng; [|lia]. split; [nra|].
      change (-200)%Z with (-301 + 101)%Z. rewrite bpow_plus. apply Rmult_le_compat; lra. }
    assert (P2 (-304) <= rnd64 (B2R h * w)) as Le.
    { apply rnd64_ge; [apply format_P2; lia|]. assert (P2 (-303) = 2 * P2 (-304)) as Q by (change (-303)%Z with (-304 + 1)%Z; rewrite P2_S; lra). pose proof (bpow_gt_0 radix2 (-304)). nra. }
    assert (P2 (-200) <= P2 (-150)) by (apply bpow_le; lia). pose proof (bpow_gt_0 radix2 (-304)).
    exists (rnd64 (B2R h * w)). split; [|lra]. rewrite <- Ee.
    unfold clip_EB in CE. apply assert_ok in CE as [_ CE]. apply assert_ok in CE as [_ CE]. destruct (_ || _); [discriminate|]. destruct (nltb _ (nmul _ _)); [discriminate|].
    apply assert_ok in CE as [_ CE]. apply Ok_inj in CE. rewrite <- CE. unfold nclip. cbn [nltb n0 f64_num].
    assert (fltb EB f0 = false) as -> by (apply fltb_asym_le; rewrite v64_leb, Ee; change (v64 f0) with (Fin 0); cbn; apply Rleb_spec; lra).
    replace (fltb (nfmax _ _) EB) with false; [reflexivity|]. symmetry. unfold nfmax. cbn [nsub nopp nleb nisnan f64_num].
    change (fsub finf fninf) with finf. clear - Ee. destruct (_ || _); [set (a := fsub finf mu')|set (a := fsub mu' (fsub n0 finf))];
      (assert (v64 a = PInf \/ fisnan a = true) as [Q|Q] by (unfold a; destruct mu' as [?|[]| |?]; cbn; auto);
       [apply fltb_asym_le; rewrite v64_leb, Q, Ee; reflexivity|clearbody a; destruct a; try discriminate Q; reflexivity]). }
  assert (P2 (-1) <= B2R (cell_mean cl)) as Bm.
  { rewrite D1. rewrite <- SF2R_B2SF. set (z := B2SF _). vm_compute in z. unfold z. cbn [SF2R cond_Zopp]. unfold F2R. cbn [Fnum Fexp].
    replace (P2 (-1)) with (IZR (2 ^ 52) * P2 (-53)) by (change (IZR (2 ^ 52)) with (P2 52); now rewrite <- bpow_plus). apply Rle_refl. }
  unfold just_format_it. destruct (decimalize 2 4 5 lim frame) as [d|] eqn:ED; [|discriminate]. exfalso. revert ED.
  apply (decimalize_too_wide 2 4 5 lim frame i j mL mB (triple cl)); [lia|lia|lia|exact CA| |].
  - apply v64_Fin in Er as [Fe Re]. split; [exact S1|]. split; [right; right; split; [exact Fe|lra]|]. right. destruct S3 as [S3 S4]. exact (clean_p _ S3 S4).
  - rewrite NL. eapply tiny_too_wide; eauto.
Qed.
Print Assumptions C101_pairwise_refuted.

(** ** The hypotheses are met *)
Example C101_library : good_library tame_one tame_one tame_sf tame_ppf tame_eig /\ wide_quantiles tame_ppf (fdiv (f_of_Z 95) (f_of_Z 100)) /\ log_half tame_one.
Proof.
  split; [exact C92_library|]. split.
  - intros df _. vm_compute. reflexivity.
  - intros z _ _. vm_compute. reflexivity.
Qed.
(** the table of Props_Doubles.v, by all three methods *)
Example C101_example : forall m, m <> Mother ->
  exists out, @loss_summary_table _ _ (fn_f64 tame_one tame_one tame_sf tame_ppf tame_eig) even_draw quarter_table mA false (fdiv (f_of_Z 95) (f_of_Z 100)) m unit_limits = Ok out /\
    exports (loss_entry out) /\ (forall a b, In ((mL, mA), a) out -> In ((mL, mB), b) out ->
      exists s, just_format_it (fun _ => []) (fun _ _ => []) argsort_ins [(mL, [(mA, triple a); (mB, triple b)])] [] (Some 3%Z) [] [] [] [] true true = Ok s).
Proof.
  intros m M. destruct C92_example as (A & B & C & D). destruct C101_library as (GL & WQ & LH). destruct (C92_table false m M) as [out H]. exists out. split; [exact H|].
  pose proof (C101_loss_table _ _ _ _ _ GL even_draw quarter_table mA _ m unit_limits out A B M C (fun _ => WQ) (fun _ => LH) H) as E. split; [exact E|].
  intros a b Ia Ib.
  destruct (E [mA; mB] [(mL, [(mA, triple a); (mB, triple b)])]) as [P _].
  - split; [discriminate|]. intros x [<-|[]]. discriminate.
  - split; [constructor; [intros []|constructor]|]. intros x [<-|[]]. reflexivity.
  - intros [|[|i]] [|[|[|j]]] metric method v (rows & Q1 & Q2); 
      cbn [nth_error] in Q1, Q2; try discriminate Q1; try (destruct i; discriminate Q1);
      (assert (metric = mL) as -> by congruence); (assert (rows = [(mA, triple a); (mB, triple b)]) as -> by congruence); cbn [nth_error] in Q2;
      [assert (method = mA) as -> by congruence|assert (method = mB) as -> by congruence|discriminate Q2|destruct j; discriminate Q2];
      [exists a|exists b]; (split; [assumption|congruence]).
  - destruct (P argsort_ins 3%Z [] [] [] [] [] true true argsort_ins_ok ltac:(lia)) as (align & F & Q & _). eauto.
Qed.
(** the benchmarks of Props_DoublesBench.v and Props_DoublesFull.v *)
Example C101_regression_example :
  forall m, m <> Mother ->
  exists out, ex_f_bench m false = Ok out /\ map fst out = [(tM, tA); (tM, tB); (tA, tA); (tA, tB)] /\ exports (loss_entry out).
Proof.
  intros m M.
  destruct (C101_regression tame_one tame_one tame_sf tame_ppf tame_eig C92_library C94_log (list Z) unit (fun _ _ => false) ex_f_regressor (fun _ _ _ => repeat [0; 2]%Z 1000)
    (ex_points 2) [f_of_Z 1; f_of_Z 4] (ex_points 2) (map f_of_Z [1; 2]%Z) [(tA, [0; 2]%Z); (tB, [-3; 0]%Z)]
    [(tM, square_loss); (tA, @r_log_loss _ _ (fn_f64 tame_one tame_one tame_sf tame_ppf tame_eig) (f_of_Z 1))] tA (f_of_Z 1) m ex_f_limits (map f_of_Z) (map f_of_Z)) as (out & E & K & C).
  - constructor; [intros [Q|[]]; discriminate|]. constructor; [intros []|constructor].
  - constructor; [intros [Q|[]]; discriminate|]. constructor; [intros []|constructor].
  - exists 1%Z. split; [reflexivity|]. split; [reflexivity|]. split; [cbn; lia|]. split; [reflexivity|]. vm_compute. reflexivity.
  - change (INR (length (map f_of_Z [1; 2]%Z))) with (1 + 1). change (bpow radix2 30) with (IZR (2 ^ 30)). apply (IZR_le 2). cbn. lia.
  - repeat (apply Forall_cons; [apply small_ordinary; lia|]). apply Forall_nil.
  - intros name s [Q|[Q|[]]]; injection Q as <- <-; (split; [eexists; split; [reflexivity|left; reflexivity]|]); (split; [reflexivity|]); (split; [reflexivity|]); split.
    + repeat (apply Forall_cons; [apply small_ordinary; lia|]). apply Forall_nil.
    + apply Forall_cons; [|apply Forall_cons; [|apply Forall_nil]]; unfold nmax; [change (ordinary_std (f_of_Z 1))|change (ordinary_std (f_of_Z 2))]; apply small_std; lia.
    + repeat (apply Forall_cons; [apply small_ordinary; lia|]). apply Forall_nil.
    + apply Forall_cons; [|apply Forall_cons; [|apply Forall_nil]]; unfold nmax; change (ordinary_std (f_of_Z 1)); apply small_std; lia.
  - now left.
  - discriminate.
  - exact M.
  - intros _. apply C101_library.
  - intros _. apply C101_library.
  - intros metric f [Q|[Q|[]]]; injection Q as <- <-.
    + change (limits_of ex_f_limits tM) with (f0, finf). constructor. split; [reflexivity|]. split.
      * intros _. cbn [f0 B2R]. rewrite Rabs_R0. apply bpow_ge_0.
      * intros _. exists 0%Z, 0%Z. split; [cbn; lia|]. split; [lia|]. cbn. lra.
    + change (limits_of ex_f_limits tA) with (fninf, finf). destruct (f_of_Z_correct 1) as [V1 F1]; [lia|]. change (r_float_loss (fn_f64 tame_one tame_one tame_sf tame_ppf tame_eig) (@r_log_loss _ _ (fn_f64 tame_one tame_one tame_sf tame_ppf tame_eig) (f_of_Z 1)) (fninf, finf)).
      apply r_float_log; [exact F1|].
      rewrite V1, Rabs_pos_eq by lra. change (IZR 1) with (bpow radix2 0). apply bpow_le. lia.
  - intros _ _ _. split; [now rewrite repeat_length|]. apply Forall_forall. intros r Hr. apply repeat_spec in Hr. subst r. repeat split; auto. repeat constructor; lia.
  - exists out. auto.
Qed.
Example C101_classification_example :
  forall m, m <> Mother ->
  exists lo cu, @just_benchmark _ _ ex_float_lib (@any_normalize _ _ ex_float_lib nsum) _ _ (fun _ _ => false) ex_full_classifier
      (fun _ _ => repeat [2; 0]%Z 1000) (fun _ _ _ => repeat [0; 2]%Z 1000) (ex_points 2) Ki [0; 1]%Z (ex_points 2) [1; 0]%Z 2
      ex_full_methods [(tM, log_loss); (tA, @brier_loss _ _ ex_float_lib true)] [(tA, roc_curve); (tB, recall_precision_curve); (tM, prg_curve)] tB (f_of_Z (-50)) false m [] = Ok (lo, cu) /\
  (forall method cl dump, In ((method, tA), (cl, dump)) cu -> fisfin (cell_mean cl) = true) /\
  exports (fun metric method v => loss_entry lo metric method v \/ area_entry cu metric method v).
Proof.
  intros m M.
  assert (forall n, (Z.abs n <= 1000)%Z -> score 100 (f_of_Z n)) as SC.
  { intros n H. right. destruct (small_score n H) as [A B]. split; [exact A|]. eapply Rle_trans; [exact B|]. apply Rle_trans with (bpow radix2 10); [change (bpow radix2 10) with (IZR (2 ^ 10)); cbn; lra|]. apply bpow_le. lia. }
  destruct (C101_classification tame_one tame_one tame_sf tame_ppf tame_eig C92_library C96_library nsum nsum_sums (list (list f64)) unit (fun _ _ => false) ex_full_classifier
    (fun _ _ => repeat [2; 0]%Z 1000) (fun _ _ _ => repeat [0; 2]%Z 1000) (ex_points 2) Ki [0; 1]%Z (ex_points 2) [1; 0]%Z
    ex_full_methods [(tM, log_loss); (tA, @brier_loss _ _ ex_float_lib true)] [(tA, roc_curve); (tB, recall_precision_curve); (tM, prg_curve)] tB (f_of_Z (-50)) m [] (fun s => s))
    as (lo & cu & E & _ & _ & K1 & K2).
  - constructor; [intros [Q|[]]; discriminate|]. constructor; [intros []|constructor].
  - constructor; [intros [Q|[]]; discriminate|]. constructor; [intros []|constructor].
  - constructor; [intros [Q|[Q|[]]]; discriminate|]. constructor; [intros [Q|[]]; discriminate|]. constructor; [intros []|constructor].
  - exists 1%Z, [], []. split; [reflexivity|]. split; [reflexivity|]. split; [reflexivity|]. split; [cbn; lia|]. split; [discriminate|]. split; [now right|]. split; [repeat constructor; lia|].
    split; [reflexivity|]. vm_compute. reflexivity.
  - constructor; [now right|constructor; [now left|constructor]].
  - apply (small_score (-50)). lia.
  - apply SC. lia.
  - assert (forall a b, (a = fninf \/ score 100 a) -> score 100 b -> length [a; b] = 2%nat /\ Forall (score 100) [a; b]) as RW.
    { intros a b [->|A] B; (split; [reflexivity|]); (apply Forall_cons; [|apply Forall_cons; [exact B|apply Forall_nil]]); [now left|exact A]. }
    intros name s [Q|[Q|[]]]; apply pair_equal_spec in Q as [<- <-]; (split; [eexists; split; [reflexivity|left; reflexivity]|]); (split; [reflexivity|]);
      (apply Forall_cons; [|apply Forall_cons; [|apply Forall_nil]]); (apply RW; [|apply SC; lia]); [left; reflexivity|right; apply SC; lia..].
  - now right; left.
  - discriminate.
  - discriminate.
  - exact M.
  - intros _. apply C101_library.
  - intros _. apply C101_library.
  - assert (limit_below 0 fninf) as LB by (split; [now left|split; intros H; discriminate H]).
    intros metric f [Q|[Q|[]]]; injection Q as <- <-.
    + change (limits_of (T := f64) [] tM) with (fninf, finf). constructor; [exact I|exact LB].
    + apply c_float_brier; [exact LB|apply inf_above].
  - intros curve f [Q|[Q|[Q|[]]]]; injection Q as <- <-; do 2 eexists; [apply float_roc|apply float_rp|now apply float_prg].
  - intros _ _. split; [|split; [cbn; lia|left; cbn; lia]]. split; [now rewrite repeat_length|]. apply Forall_forall. intros r Hr. apply repeat_spec in Hr. subst r. repeat split; auto. repeat constructor; lia.
  - intros _ _ _. split; [now rewrite repeat_length|]. apply Forall_forall. intros r Hr. apply repeat_spec in Hr. subst r. repeat split; auto. repeat constructor; lia.
  - exists lo, cu. split; [exact E|]. split; [|exact K2]. intros method cl dump I. apply (K1 method tA cl dump I). left. now left.
Qed.
