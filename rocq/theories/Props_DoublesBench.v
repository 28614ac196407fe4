(** Property theorem C94: regression.just_benchmark in double precision.  With
    predictions of ordinary size and standard deviations that are neither tiny
    nor huge after the floor, the benchmark returns a table and every number in
    it is sane. *)
From Coq Require Import Reals Lra Lia.
From Flocq Require Import Core BinarySingleNaN.
From Verif Require Import PyBase ListLemmas F64 Num F64Lemmas NumOk SumProofs Util UtilProofs BootUtil BootProofs2 PerfCurves MLPaper MLProofs MLProofs4 CompareProofs
  SwapProofs MeanProofs DoublesProofs DoublesProofs2 Checkpoint CheckpointProofs Classification Regression Benchmark ClassProofs ClassProofs2 ClassProofs3 ClassProofs4 ClassProofs5
  RegrProofs LossTableProofs BenchProofs DoublesProofs3.
From Verif Require Import Props_Boot Props_Curves Props_MLPaper Props_Classification Props_Predict Props_Regression Props_Tables Props_Benchmark Props_Mean Props_Doubles.
Open Scope R_scope.

(** ** The specification *)
(** a finite number up to 2^100 in size *)
Definition ordinary_value (v : f64) : Prop := fisfin v = true /\ Rabs (B2R v) <= bpow radix2 100.
(** a finite number from 2^-90 to 2^90 *)
Definition ordinary_std (s : f64) : Prop := fisfin s = true /\ bpow radix2 (-90) <= B2R s <= bpow radix2 90.
(** the only thing assumed of log: it is of ordinary size where it should be *)
Definition log_moderate (flog : f64 -> f64) : Prop :=
  forall z, ordinary_std z -> fisfin (flog z) = true /\ Rabs (B2R (flog z)) <= bpow radix2 10.
(** the losses of regression.py with limits that they respect *)
Definition lower_for_nonneg (lower : f64) : Prop := fleb lower f0 = true /\ ordinary_limit lower /\ short_limit lower.
Inductive r_float_loss (lib : fn f64) : r_metric_fun f64 -> f64 * f64 -> Prop :=
  | r_float_square lower : lower_for_nonneg lower -> r_float_loss lib square_loss (lower, finf)
  | r_float_abs lower : lower_for_nonneg lower -> r_float_loss lib abs_loss (lower, finf)
  | r_float_log logC : fisfin logC = true -> Rabs (B2R logC) <= bpow radix2 10 -> r_float_loss lib (@r_log_loss _ _ lib logC) (fninf, finf).

Lemma value_bdd k v : fisfin v = true -> Rabs (B2R v) <= bpow radix2 k -> bdd k v.
Proof. intros F B. exists (B2R v). split; [now apply v64_fin|exact B]. Qed.
Lemma values_bdd l : Forall ordinary_value l -> Forall (bdd 100) l.
Proof. apply Forall_impl. intros v [F B]. now apply value_bdd. Qed.
Lemma nng_ordinary lower v : fleb lower f0 = true -> nng 400 v -> ordinary_loss lower finf v.
Proof.
  intros L (r & E & R0 & R). pose proof E as E'. apply v64_Fin in E' as [F B]. split; [exact F|]. rewrite B. split; [now rewrite Rabs_pos_eq|]. split.
  - eapply fleb_trans; [exact L|]. rewrite v64_leb, E. change (v64 f0) with (Fin 0). now apply Rleb_spec.
  - rewrite v64_leb, E. reflexivity.
Qed.
Lemma bdd_ordinary v : bdd 400 v -> ordinary_loss fninf finf v.
Proof.
  intros (r & E & R). pose proof E as E'. apply v64_Fin in E' as [F B]. split; [exact F|]. rewrite B. split; [exact R|]. split; rewrite v64_leb, E; reflexivity.
Qed.

Section C94.
  Context (fexp flog : f64 -> f64) (sf ppf : Z -> f64 -> f64) (eig : f64 -> f64 -> option (f64 * f64)) (GL : good_library fexp flog sf ppf eig) (LM : log_moderate flog).
  Notation lib := (fn_f64 fexp flog sf ppf eig).

  Lemma r_float_ok f lim y mu std : r_float_loss lib f lim -> (1 <= length y)%nat -> length mu = length y -> length std = length y ->
    Forall ordinary_value y -> Forall ordinary_value mu -> Forall ordinary_std std ->
    exists l, f y mu std = Ok l /\ length l = length y /\ Forall (ordinary_loss (fst lim) (snd lim)) l.
  Proof.
    intros FL N L1 L2 Y M S. apply values_bdd in Y, M. destruct FL as [lower (A & _)|lower (A & _)|logC F B]; cbn [fst snd].
    - destruct (square_ok y mu std) as (l & E & L & Q); auto. exists l. split; [exact E|]. split; [exact L|]. eapply Forall_impl; [|exact Q]. intros v. now apply nng_ordinary.
    - destruct (abs_ok y mu std) as (l & E & L & Q); auto. exists l. split; [exact E|]. split; [exact L|]. eapply Forall_impl; [|exact Q]. intros v. now apply nng_ordinary.
    - destruct (log_loss_ok fexp flog sf ppf eig) with (y := y) (mu := mu) (std := std) (logC := logC) as (l & E & L & Q); auto.
      + intros z Z. destruct (LM z Z). now apply value_bdd.
      + now apply value_bdd.
      + exists l. split; [exact E|]. split; [exact L|]. eapply Forall_impl; [|exact Q]. intros v. apply bdd_ordinary.
  Qed.
  Lemma r_float_limits f lim : r_float_loss lib f lim -> (ordinary_limit (fst lim) /\ ordinary_limit (snd lim) /\ ordinary_range (fst lim) (snd lim)) /\
    short_limit (fst lim) /\ short_limit (snd lim).
  Proof.
    assert (forall x : f64, fisfin x = false -> ordinary_limit x /\ short_limit x) as INF by (intros x F; split; intros F'; congruence).
    destruct (INF finf eq_refl) as [A B]. destruct (INF fninf eq_refl) as [C D].
    assert (forall x, ordinary_range x finf) as R by (intros x _ H; discriminate H).
    intros [lower (_ & O & S)|lower (_ & O & S)|logC _ _]; cbn [fst snd]; auto 6.
  Qed.

  (* the benchmark with the table of losses it goes through *)
  Lemma r_bench_table :
    forall (S X : Type) key_eqb (o : regressor f64 S X) draw X_train y_train X_test y_test methods losses ref_method min_std pairwise m limits
      (mu std : S -> list f64),
    NoDup (map fst methods) -> NoDup (map fst losses) ->
    r_inputs X_train y_train X_test min_std (length y_test) -> INR (length y_test) <= bpow radix2 30 ->
    Forall ordinary_value y_test ->
    (forall name s, In (name, s) methods -> r_predicts o s (fa_data X_train) y_train (fa_data X_test) (mu s) (std s) /\
       length (mu s) = length y_test /\ length (std s) = length y_test /\
       Forall ordinary_value (mu s) /\ Forall (fun d => ordinary_std (nmax min_std d)) (std s)) ->
    In ref_method (map fst methods) -> losses <> [] -> m <> Mother ->
    (forall metric f, In (metric, f) losses -> r_float_loss lib f (limits_of limits metric)) ->
    (forall metric method b, multinomial_outcome (Z.of_nat (length y_test)) 1000 (draw metric method b)) ->
    exists lt out, ordinary_table lt ref_method limits /\ resamples lt draw /\
      @loss_summary_table _ _ lib draw lt ref_method pairwise (fdiv (f_of_Z 95) (f_of_Z 100)) m limits = Ok out /\
      @r_just_benchmark _ _ lib _ _ key_eqb o draw X_train y_train X_test y_test methods losses ref_method min_std pairwise m limits = Ok out /\
      map fst out = list_prod (map fst losses) (map fst methods) /\
      forall metric method cl, In ((metric, method), cl) out -> sane_numbers pairwise (pystr_eqb method ref_method) cl /\
        forall f s, In (metric, f) losses -> In (method, s) methods ->
        exists loss, f y_test (mu s) (map (nmax min_std) (std s)) = Ok loss /\ cell_mean cl = nmean loss /\
          fleb (fst (limits_of limits metric)) (cell_mean cl) = true /\ fleb (cell_mean cl) (snd (limits_of limits metric)) = true.
  Proof.
    intros S X key_eqb o draw Xtr ytr Xte yte ms ls ref fl pw m lim mu std N1 N2 RI NB YV P IR LN M SL DL.
    assert (exists tbl, get_gauss_pred key_eqb o false [] Xtr ytr Xte ms fl = Ok tbl) as [tbl E1].
    { apply get_gauss_iff. exists (length yte). split; [exact RI|]. intros name s Im. destruct (P name s Im) as (A & B & C & _). exists (mu s), (std s). auto. }
    pose proof (r_inputs_len _ _ _ _ _ RI) as En.
    assert (Yn : (1 <= length yte)%nat) by (destruct RI as (? & _ & _ & RI & _); exact RI).
    assert (@r_just_benchmark _ _ lib _ _ key_eqb o draw Xtr ytr Xte yte ms ls ref fl pw m lim = (do loss_tbl <- r_loss_table tbl yte ls;
      @loss_summary_table _ _ lib draw loss_tbl ref pw (ndiv (nofZ 95) (nofZ 100)) m lim)) as EBench by (unfold r_just_benchmark; rewrite E1; reflexivity).
    apply get_gauss_inv in E1 as (EL & _ & _ & F). rewrite <- En in EL.
    assert (map fst (gt_methods tbl) = map fst ms) as EM.
    { clear - F. induction F as [|? ? ? ? (H & _) F IH]; cbn; [reflexivity|]. now rewrite H, IH. }
    assert (NoDup (map fst (gt_methods tbl))) as N1' by now rewrite EM.
    assert (forall method frame, In (method, frame) (gt_methods tbl) -> exists s, In (method, s) ms /\ frame = (mu s, map (nmax fl) (std s))) as FR.
    { intros method frame I. destruct (Forall2_in_r _ _ _ _ F I) as ([n s'] & I' & A & mu' & std' & B & _ & _ & D). cbn [fst snd] in *. subst n. exists s'. split; [exact I'|].
      destruct (P method s' I') as (Q1 & _). apply r_train_predict_iff in Q1. rewrite Q1 in B. apply Ok_inj in B. injection B as <- <-. exact D. }
    assert (forall method frame metric f, In (method, frame) (gt_methods tbl) -> In (metric, f) ls -> exists l, f yte (fst frame) (snd frame) = Ok l /\ length l = length yte /\
      Forall (ordinary_loss (fst (limits_of lim metric)) (snd (limits_of lim metric))) l) as RL.
    { intros method frame metric f I1 I2. destruct (FR _ _ I1) as (s & Is & ->). cbn [fst snd]. destruct (P _ _ Is) as (_ & L1 & L2 & MV & SV).
      apply r_float_ok; auto; [now rewrite map_length|]. now apply Forall_map. }
    set (one := fun m0 : pystr * (list f64 * list f64) => mapM (fun mf : pystr * r_metric_fun f64 =>
       do loss <- (snd mf) yte (fst (snd m0)) (snd (snd m0)); do v <- r_column_values (gt_len tbl) loss; Ok ((fst mf, fst m0), v)) ls).
    assert (forall m0, In m0 (gt_methods tbl) -> exists c, one m0 = Ok c) as ONE.
    { intros [method frame] I1. apply mapM_mix_ok. intros [metric f] I2. cbn [fst snd] in *. destruct (RL _ _ _ _ I1 I2) as (l & Q1 & Q2 & _). rewrite Q1. cbn [bind].
      unfold r_column_values. rewrite Q2, EL, Nat.eqb_refl. cbn [bind]. eauto. }
    assert (r_loss_table tbl yte ls = (do cols <- mapM one (gt_methods tbl);
      Ok {| lt_metrics := map fst ls; lt_methods := map fst (gt_methods tbl); lt_len := gt_len tbl; lt_cols := concat cols |})) as ET.
    { unfold r_loss_table. rewrite EL, Nat.eqb_refl. cbn [py_assert bind].
      destruct (Nat.leb_spec 1 (length yte)); [|lia]. destruct (Nat.leb_spec 1 (length (gt_methods tbl))) as [_|Q].
      2:{ assert (gt_methods tbl = []) as G by (destruct (gt_methods tbl); [reflexivity|cbn in Q; lia]). rewrite G in EM. cbn in EM. rewrite <- EM in IR. destruct IR. }
      cbn [andb py_assert bind]. unfold one. rewrite EL. reflexivity. }
    assert (exists lt, r_loss_table tbl yte ls = Ok lt) as [lt E2].
    { destruct (mapM_mix_ok one (gt_methods tbl)) as [cols E]; [intros [method frame] I1; now apply ONE|]. rewrite ET, E. cbn [bind]. eauto. }
    destruct (C76_regression tbl yte ls lt N2 N1' E2) as (T1 & T2 & T3 & T4 & T5 & T6).
    assert (forall metric method, In metric (lt_metrics lt) -> In method (lt_methods lt) ->
      exists f s x, In (metric, f) ls /\ In (method, s) ms /\ f yte (mu s) (map (nmax fl) (std s)) = Ok x /\ column lt metric method x /\ length x = length yte /\
        Forall (ordinary_loss (fst (limits_of lim metric)) (snd (limits_of lim metric))) x) as COL.
    { intros metric method I1 I2. rewrite T2 in I1. rewrite T3 in I2. apply NoDup_entry in I1, I2. destruct I1 as [f I1], I2 as [[mu1 std1] I2].
      destruct (T6 metric f method mu1 std1 I1 I2) as (l & A2 & A3 & A4). destruct (RL _ _ _ _ I2 I1) as (l' & B1 & B2 & B3). cbn [fst snd] in B1. rewrite A2 in B1. apply Ok_inj in B1. subst l'.
      destruct (FR _ _ I2) as (s & Is & Ef). injection Ef as -> ->. exists f, s, l. auto 10. }
    assert (ordinary_table lt ref lim) as OT.
    { split; [now rewrite T3, EM|]. split; [rewrite T2; destruct ls; [easy|discriminate]|]. rewrite T1. split; [exact Yn|]. split; [exact NB|]. split; [exact T4|].
      intros metric I1. assert (exists f, In (metric, f) ls) as [f If] by (rewrite T2 in I1; now apply NoDup_entry in I1).
      destruct (r_float_limits f _ (SL metric f If)) as ((A & B & C) & _). specialize (COL metric).
      destruct (limits_of lim metric) as [lo up]. cbn [fst snd] in *. split; [exact A|]. split; [exact B|]. split; [exact C|].
      intros method I2. destruct (COL method I1 I2) as (_ & _ & x & _ & _ & _ & Q1 & Q2 & Q3). exists x. auto. }
    assert (resamples lt draw) as RS by (intros ? ? ?; rewrite T1; apply DL).
    assert (forall metric, In metric (lt_metrics lt) -> short_limit (fst (limits_of lim metric)) /\ short_limit (snd (limits_of lim metric))) as SH.
    { intros metric I1. rewrite T2 in I1. apply NoDup_entry in I1 as [f If]. exact (proj2 (r_float_limits f _ (SL metric f If))). }
    destruct (C92_short_limits_accepted fexp flog sf ppf eig GL draw lt ref pw _ m lim OT conf_95 M RS SH) as [out E4].
    destruct (C93_sane_numbers fexp flog sf ppf eig GL draw lt ref pw _ m lim out OT conf_95 M RS E4) as [K1 K2].
    exists lt, out. split; [exact OT|]. split; [exact RS|]. split; [exact E4|]. split; [rewrite EBench, E2; exact E4|]. split; [now rewrite K1, T2, T3, EM|].
    intros metric method cl I. destruct (K2 metric method cl I) as (Q1 & loss & Q2 & Q3). split; [exact Q1|].
    intros f s If Is. assert (In metric (lt_metrics lt)) as Im by (rewrite T2; exact (in_map fst _ _ If)).
    assert (In method (lt_methods lt)) as Id by (rewrite T3, EM; exact (in_map fst _ _ Is)).
    destruct (COL metric method Im Id) as (f' & s' & x & A1 & A2 & A3 & A4 & _).
    rewrite (NoDup_fst_inj _ _ _ _ N2 If A1), (NoDup_fst_inj _ _ _ _ N1 Is A2). exists x. split; [exact A3|].
    rewrite (column_unique _ _ _ _ _ Q2 A4) in Q3. split; [exact Q3|]. rewrite Q3.
    pose proof (short_means lt ref lim OT SH metric method x Im Id A4) as W. destruct (limits_of lim metric). exact W.
  Qed.

  (** C94 *)
  Theorem C94_regression_succeeds :
    forall (S X : Type) key_eqb (o : regressor f64 S X) draw X_train y_train X_test y_test methods losses ref_method min_std pairwise m limits
      (mu std : S -> list f64),
    NoDup (map fst methods) -> NoDup (map fst losses) ->
    r_inputs X_train y_train X_test min_std (length y_test) -> INR (length y_test) <= bpow radix2 30 ->
    Forall ordinary_value y_test ->
    (forall name s, In (name, s) methods -> r_predicts o s (fa_data X_train) y_train (fa_data X_test) (mu s) (std s) /\
       length (mu s) = length y_test /\ length (std s) = length y_test /\
       Forall ordinary_value (mu s) /\ Forall (fun d => ordinary_std (nmax min_std d)) (std s)) ->
    In ref_method (map fst methods) -> losses <> [] -> m <> Mother ->
    (forall metric f, In (metric, f) losses -> r_float_loss lib f (limits_of limits metric)) ->
    (forall metric method b, multinomial_outcome (Z.of_nat (length y_test)) 1000 (draw metric method b)) ->
    exists out,
      @r_just_benchmark _ _ lib _ _ key_eqb o draw X_train y_train X_test y_test methods losses ref_method min_std pairwise m limits = Ok out /\
      map fst out = list_prod (map fst losses) (map fst methods) /\
      forall metric method cl, In ((metric, method), cl) out -> sane_numbers pairwise (pystr_eqb method ref_method) cl /\
        forall f s, In (metric, f) losses -> In (method, s) methods ->
        exists loss, f y_test (mu s) (map (nmax min_std) (std s)) = Ok loss /\ cell_mean cl = nmean loss /\
          fleb (fst (limits_of limits metric)) (cell_mean cl) = true /\ fleb (cell_mean cl) (snd (limits_of limits metric)) = true.
  Proof.
    intros S X key_eqb o draw Xtr ytr Xte yte ms ls ref fl pw m lim mu std N1 N2 RI NB YV P IR LN M SL DL.
    destruct (r_bench_table S X key_eqb o draw Xtr ytr Xte yte ms ls ref fl pw m lim mu std N1 N2 RI NB YV P IR LN M SL DL) as (lt & out & _ & _ & _ & K).
    exists out. exact K.
  Qed.
End C94.
Print Assumptions C94_regression_succeeds.

(** ** The hypotheses are met *)
Example C94_log : log_moderate tame_one.
Proof.
  intros z _. destruct (f_of_Z_correct 1) as [V1 F1]; [lia|]. split; [exact F1|]. unfold tame_one. rewrite V1, Rabs_pos_eq by lra. change (IZR 1) with (bpow radix2 0). apply bpow_le. lia.
Qed.
(** Two regressors on two points with three losses; both predict a zero
    standard deviation somewhere, which the floor of one removes. *)
Definition ex_f_regressor : regressor f64 (list Z) unit :=
  {| rg_fit := fun s _ _ => Ok s; rg_predict_std := fun s _ => Ok (map f_of_Z s, map f_of_Z s); rg_predict := fun _ _ => Err KeyError |}.
Definition ex_f_limits : dict (f64 * f64) := [(tM, (f0, finf))].
Definition ex_f_bench (m : eb_method) (pairwise : bool) :=
  @r_just_benchmark _ _ (fn_f64 tame_one tame_one tame_sf tame_ppf tame_eig) _ _ (fun _ _ => false) ex_f_regressor (fun _ _ _ => repeat [0; 2]%Z 1000)
  (ex_points 2) [f_of_Z 1; f_of_Z 4] (ex_points 2) (map f_of_Z [1; 2]%Z) [(tA, [0; 2]%Z); (tB, [-3; 0]%Z)]
  [(tM, square_loss); (tA, @r_log_loss _ _ (fn_f64 tame_one tame_one tame_sf tame_ppf tame_eig) (f_of_Z 1))] tA (f_of_Z 1) pairwise m ex_f_limits.

Lemma small_ordinary k : (Z.abs k <= 2 ^ 53)%Z -> ordinary_value (f_of_Z k).
Proof.
  intros K. destruct (f_of_Z_correct k) as [V F]; [lia|]. split; [exact F|]. rewrite V, <- abs_IZR. apply Rle_trans with (IZR (2 ^ 53)); [now apply IZR_le|].
  change (IZR (2 ^ 53)) with (bpow radix2 53). apply bpow_le. lia.
Qed.
Lemma small_std k : (1 <= k <= 2 ^ 53)%Z -> ordinary_std (f_of_Z k).
Proof.
  intros K. destruct (f_of_Z_correct k) as [V F]; [lia|]. split; [exact F|]. rewrite V. split.
  - apply Rle_trans with (IZR 1); [change (IZR 1) with (bpow radix2 0); apply bpow_le; lia|apply IZR_le; lia].
  - apply Rle_trans with (IZR (2 ^ 53)); [apply IZR_le; lia|]. change (IZR (2 ^ 53)) with (bpow radix2 53). apply bpow_le. lia.
Qed.
Example C94_example :
  forall m pairwise, m <> Mother ->
  exists out, ex_f_bench m pairwise = Ok out /\ map fst out = [(tM, tA); (tM, tB); (tA, tA); (tA, tB)] /\
  forall metric method cl, In ((metric, method), cl) out -> sane_numbers pairwise (pystr_eqb method tA) cl.
Proof.
  intros m pw M.
  destruct (C94_regression_succeeds tame_one tame_one tame_sf tame_ppf tame_eig C92_library C94_log (list Z) unit (fun _ _ => false) ex_f_regressor (fun _ _ _ => repeat [0; 2]%Z 1000)
    (ex_points 2) [f_of_Z 1; f_of_Z 4] (ex_points 2) (map f_of_Z [1; 2]%Z) [(tA, [0; 2]%Z); (tB, [-3; 0]%Z)]
    [(tM, square_loss); (tA, @r_log_loss _ _ (fn_f64 tame_one tame_one tame_sf tame_ppf tame_eig) (f_of_Z 1))] tA (f_of_Z 1) pw m ex_f_limits (map f_of_Z) (map f_of_Z)) as (out & E & K & C).
  - constructor; [intros [Q|[]]; discriminate|]. constructor; [intros []|constructor].
  - constructor; [intros [Q|[]]; discriminate|]. constructor; [intros []|constructor].
  - exists 1%Z. split; [reflexivity|]. split; [reflexivity|]. split; [cbn; lia|]. split; [reflexivity|]. vm_compute. reflexivity.
  - change (INR (length (map f_of_Z [1; 2]%Z))) with (1 + 1). change (bpow radix2 30) with (IZR (2 ^ 30)). apply (IZR_le 2). cbn. lia.
  - repeat (apply Forall_cons; [apply small_ordinary; lia|]). apply Forall_nil.
  - intros name s [Q|[Q|[]]]; injection Q as <- <-; (split; [eexists; split; [reflexivity|left; reflexivity]|]); (split; [reflexivity|]); (split; [reflexivity|]); split.
    + repeat (apply Forall_cons; [apply small_ordinary; lia|]). apply Forall_nil.
    + apply Forall_cons; [|apply Forall_cons; [|apply Forall_nil]]; unfold nmax; [change (ordinary_std (f_of_Z 1))|change (ordinary_std (f_of_Z 2))]; apply small_std; lia.
    + repeat (apply Forall_cons; [apply small_ordinary; lia|]). apply Forall_nil.
    + apply Forall_cons; [|apply Forall_cons; [|apply Forall_nil]]; unfold nmax; change (ordinary_std (f_of_Z 1)); apply small_std; lia.
  - now left.
  - discriminate.
  - exact M.
  - intros metric f [Q|[Q|[]]]; injection Q as <- <-.
    + change (limits_of ex_f_limits tM) with (f0, finf). constructor. split; [reflexivity|]. split.
      * intros _. cbn [f0 B2R]. rewrite Rabs_R0. apply bpow_ge_0.
      * intros _. exists 0%Z, 0%Z. split; [cbn; lia|]. split; [lia|]. cbn. lra.
    + change (limits_of ex_f_limits tA) with (fninf, finf). destruct (f_of_Z_correct 1) as [V1 F1]; [lia|]. change (r_float_loss (fn_f64 tame_one tame_one tame_sf tame_ppf tame_eig) (@r_log_loss _ _ (fn_f64 tame_one tame_one tame_sf tame_ppf tame_eig) (f_of_Z 1)) (fninf, finf)).
      apply r_float_log; [exact F1|].
      rewrite V1, Rabs_pos_eq by lra. change (IZR 1) with (bpow radix2 0). apply bpow_le. lia.
  - intros _ _ _. split; [now rewrite repeat_length|]. apply Forall_forall. intros r Hr. apply repeat_spec in Hr. subst r. repeat split; auto. repeat constructor; lia.
  - exists out. split; [exact E|]. split; [exact K|]. intros metric method cl I. exact (proj1 (C metric method cl I)).
Qed.
