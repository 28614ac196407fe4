(** Property theorems C92-C93: loss tables computed in double precision.  For
    up to 2^30 losses of ordinary size, with a numerical library that behaves
    ([good_library]), the only thing that can go wrong is that the rounded mean
    of a method leaves the limits of the loss. *)
From Coq Require Import Reals Lra Lia.
From Flocq Require Import Core BinarySingleNaN.
From Verif Require Import PyBase ListLemmas F64 Num F64Lemmas NumOk SumProofs Util UtilProofs BootUtil BootProofs2 PerfCurves MLPaper MLProofs MLProofs4 CompareProofs
  SwapProofs MeanProofs DoublesProofs DoublesProofs2.
From Verif Require Import Props_MLPaper Props_Mean.
Open Scope R_scope.

(** ** The specification *)
(** what is assumed of scipy and numpy on doubles is the record [good_library]
    of DoublesProofs.v: the range of the survival function, range and
    monotonicity of the quantiles, the signs of log, exp and the eigenvalues. *)

(** a finite limit is at most 2^400 in size *)
Definition ordinary_limit (b : f64) : Prop := fisfin b = true -> Rabs (B2R b) <= bpow radix2 400.
(** two finite limits are equal or at least 2^-400 apart *)
Definition ordinary_range (lower upper : f64) : Prop :=
  fisfin lower = true -> fisfin upper = true -> B2R lower = B2R upper \/ bpow radix2 (-400) <= B2R upper - B2R lower.
Definition ordinary_loss (lower upper v : f64) : Prop :=
  fisfin v = true /\ Rabs (B2R v) <= bpow radix2 400 /\ fleb lower v = true /\ fleb v upper = true.
Definition ordinary_table (t : loss_table_t f64) (ref : pystr) (limits : dict (f64 * f64)) : Prop :=
  In ref (lt_methods t) /\ lt_metrics t <> [] /\ (1 <= lt_len t)%nat /\ INR (lt_len t) <= bpow radix2 30 /\ NoDup (map fst (lt_cols t)) /\
  forall metric, In metric (lt_metrics t) ->
    let (lower, upper) := limits_of limits metric in
    ordinary_limit lower /\ ordinary_limit upper /\ ordinary_range lower upper /\
    forall method, In method (lt_methods t) ->
    exists x, column t metric method x /\ length x = lt_len t /\ Forall (ordinary_loss lower upper) x.
(** 0 < confidence < 1, but not the largest double below one *)
Definition ordinary_confidence (c : f64) : Prop := fisfin c = true /\ 0 < B2R c <= 1 - bpow radix2 (-52).

Definition resamples (t : loss_table_t f64) (draw : pystr -> pystr -> bool -> list (list Z)) : Prop :=
  forall metric method b, multinomial_outcome (Z.of_nat (lt_len t)) 1000 (draw metric method b).

(** the rounded mean of every column is within the limits of its metric *)
Definition means_in_limits (t : loss_table_t f64) (limits : dict (f64 * f64)) : Prop :=
  forall metric method loss, In metric (lt_metrics t) -> In method (lt_methods t) -> column t metric method loss ->
    let (lower, upper) := limits_of limits metric in fleb lower (nmean loss) = true /\ fleb (nmean loss) upper = true.

Lemma ordinary_bdd lower upper x : Forall (ordinary_loss lower upper) x -> loss_ok lower upper x.
Proof.
  apply Forall_impl. intros v (F & B & L & U). split; [|auto]. exists (B2R v). split; [now apply v64_fin|exact B].
Qed.

Section C92.
  Context (fexp flog : f64 -> f64) (sf ppf : Z -> f64 -> f64) (eig : f64 -> f64 -> option (f64 * f64)) (GL : good_library fexp flog sf ppf eig).
  Notation lib := (fn_f64 fexp flog sf ppf eig).
  Notation summary := (@loss_summary_table _ _ lib).

  Lemma table_cell draw t ref pw c m limits metric method : ordinary_table t ref limits -> ordinary_confidence c -> m <> Mother -> resamples t draw ->
    In metric (lt_metrics t) -> In method (lt_methods t) ->
    exists x y, column t metric method x /\ column t metric ref y /\ select t (metric, ref) = Ok y /\ existsb nisnan y = false /\
      within (fst (lims limits metric)) (snd (lims limits metric)) y = true /\ nleb (fst (lims limits metric)) (snd (lims limits metric)) = true /\
      if pw || (fleb (fst (lims limits metric)) (nmean x) && fleb (nmean x) (snd (lims limits metric)))
      then exists cl, @summary_cell _ _ lib draw t ref pw c m metric (fst (lims limits metric)) (snd (lims limits metric)) y method = Ok cl /\
                      sane_cell pw (pystr_eqb method ref) x cl
      else @summary_cell _ _ lib draw t ref pw c m metric (fst (lims limits metric)) (snd (lims limits metric)) y method = Err AssertionError.
  Proof.
    intros (RI & MN & L1 & L2 & ND & P) C M G Hm Hd. specialize (P metric Hm). change (limits_of limits metric) with (lims limits metric) in P.
    destruct (lims limits metric) as [lo up]. cbn [fst snd]. destruct P as (Ll & Lu & R & P).
    destruct (P method Hd) as (x & CX & LX & FX). destruct (P ref RI) as (y & CY & LY & FY). apply ordinary_bdd in FX, FY.
    exists x, y. split; [exact CX|]. split; [exact CY|]. split; [now apply column_select|].
    split; [exact (fin_nonan y (bdd_all _ _ (loss_bdd _ _ _ FY)))|]. split; [now apply loss_within|].
    split; [destruct y as [|v y]; [cbn in LY; lia|]; inversion FY as [|? ? (_ & A & B) _]; subst; cbn [nleb f64_num]; eapply fleb_trans; eauto|].
    apply (cell_ok fexp flog sf ppf eig GL); auto; try (rewrite LX; auto); try congruence; try (now apply column_select).
  Qed.

  (** C92: exactly when loss_summary_table accepts a table of ordinary losses. *)
  Theorem C92_accepted_iff :
    forall draw t ref pairwise confidence method_EB limits,
    ordinary_table t ref limits -> ordinary_confidence confidence -> method_EB <> Mother -> resamples t draw ->
    ((exists out, summary draw t ref pairwise confidence method_EB limits = Ok out) <-> (pairwise = false -> means_in_limits t limits)).
  Proof.
    intros draw t ref pw c m limits T C M G. pose proof T as (RI & MN & L1 & _). split.
    - intros [out H] -> metric method loss Hm Hd CL. change (limits_of limits metric) with (lims limits metric).
      destruct (table_cell draw t ref false c m limits metric method T C M G Hm Hd) as (x & y & CX & CY & SY & _ & _ & _ & RES).
      rewrite (column_unique _ _ _ _ _ CL CX). destruct (lims limits metric) as [lo up] eqn:EL. cbn [fst snd orb] in RES.
      destruct (fleb lo (nmean x) && fleb (nmean x) up) eqn:Q; [now apply andb_true_iff in Q|exfalso].
      destruct (table_inv _ _ _ _ _ _ _ _ H) as (_ & _ & _ & K & I).
      assert (In (metric, method) (map fst out)) as IN by (rewrite K; apply in_prod; assumption).
      apply in_map_iff in IN as ([k cl] & E & IN). cbn [fst] in E. subst k.
      destruct (I metric method cl IN) as (y' & SY' & _ & _ & _ & C'). rewrite SY in SY'. apply Ok_inj in SY'. subst y'. rewrite EL in C'. cbn [fst snd] in C'. congruence.
    - intros ACC. apply (@table_total _ _ lib draw t ref pw c m limits).
      + apply existsb_exists. exists ref. split; [exact RI|]. now apply pystr_eqb_spec.
      + exact L1.
      + exact MN.
      + intros metric Hm. destruct (table_cell draw t ref pw c m limits metric ref T C M G Hm RI) as (_ & y & _ & CY & SY & NY & WY & LE & _).
        split; [exact LE|]. exists y. split; [exact SY|]. split; [exact NY|]. split; [exact WY|].
        intros method Hd. destruct (table_cell draw t ref pw c m limits metric method T C M G Hm Hd) as (x & y' & CX & CY' & SY' & _ & _ & _ & RES).
        rewrite SY in SY'. apply Ok_inj in SY'. subst y'.
        assert (pw || (fleb (fst (lims limits metric)) (nmean x) && fleb (nmean x) (snd (lims limits metric))) = true) as Q.
        { destruct pw; [reflexivity|]. cbn [orb]. specialize (ACC eq_refl metric method x Hm Hd CX). change (limits_of limits metric) with (lims limits metric) in ACC.
          destruct (lims limits metric) as [lo up]. cbn [fst snd]. now apply andb_true_iff. }
        rewrite Q in RES. destruct RES as (cl & RES & _). eauto.
  Qed.

  (** With pairwise intervals nothing can go wrong. *)
  Theorem C92_pairwise_accepted :
    forall draw t ref confidence method_EB limits,
    ordinary_table t ref limits -> ordinary_confidence confidence -> method_EB <> Mother -> resamples t draw ->
    exists out, summary draw t ref true confidence method_EB limits = Ok out.
  Proof. intros. apply C92_accepted_iff; auto. discriminate. Qed.

  (** The limits used in practice have few bits: infinite, or a multiple m * 2^e
      with m at most 2^22, such as 0, 1, 0.5 or any integer up to 2^22. *)
  Definition short_limit (b : f64) : Prop := fisfin b = true -> exists m e, (Z.abs m <= 2 ^ 22)%Z /\ (-1074 <= e)%Z /\ B2R b = IZR m * bpow radix2 e.

  Lemma short_mult c k n : (k <= n)%nat -> INR n <= bpow radix2 30 -> (exists m e, (Z.abs m <= 2 ^ 22)%Z /\ (-1074 <= e)%Z /\ c = IZR m * bpow radix2 e) -> format64 (INR k * c).
  Proof.
    intros K N (m & e & A & B & ->). apply small_multiple; auto. apply Rle_trans with (INR n); [now apply le_INR|exact N].
  Qed.
  Lemma short_means t ref limits : ordinary_table t ref limits ->
    (forall metric, In metric (lt_metrics t) -> short_limit (fst (limits_of limits metric)) /\ short_limit (snd (limits_of limits metric))) -> means_in_limits t limits.
  Proof.
    intros (RI & MN & L1 & L2 & ND & P) SL metric method loss Hm Hd CL. specialize (P metric Hm). specialize (SL metric Hm).
    destruct (limits_of limits metric) as [lo up]. cbn [fst snd] in SL. destruct SL as [Sl Su]. destruct P as (Ll & Lu & _ & P).
    destruct (P method Hd) as (x & CX & LX & FX). rewrite (column_unique _ _ _ _ _ CL CX). clear loss CL.
    pose proof (ordinary_bdd _ _ _ FX) as FB. pose proof (loss_bdd _ _ _ FB) as F4.
    assert (1 <= length x)%nat as N by lia. assert (INR (length x) <= MAXN) as M by (rewrite LX; exact L2).
    assert (bdd 400 (nmean x)) as (mu & Em & _) by (apply bdd_mean; auto; lia).
    assert (0 <= INR (length x)) as P0 by apply pos_INR.
    assert (forall b, Rabs b <= P2 400 -> Rabs (INR (length x) * b) <= P2 1000) as BIG.
    { intros b B. rewrite Rabs_mult, (Rabs_pos_eq _ P0). apply Rle_trans with (P2 30 * P2 400).
      - apply Rmult_le_compat; auto. apply Rabs_pos.
      - rewrite <- bpow_plus. apply bpow_le. lia. }
    destruct x as [|v x]; [cbn in N; lia|]. pose proof FX as FX'. inversion FX' as [|? ? (Fv & _ & Lv & Uv) _]; subst.
    rewrite !v64_leb, Em. split.
    - destruct (low_cases lo v (B2R v) (v64_fin v Fv) Lv) as [->|(a & E & _ & Fl & Bl)]; [reflexivity|].
      destruct (mean_mult_low a (v :: x)) as [E'|(r & E' & R)]; auto.
      + intros k K. eapply short_mult; [exact K|exact M|]. rewrite <- Bl. now apply Sl.
      + apply BIG. rewrite <- Bl. now apply Ll.
      + eapply Forall_impl; [|exact FX]. intros b (Fb & _ & Lb & _). right. exists (B2R b). split; [now apply v64_fin|].
        rewrite v64_leb, E, (v64_fin b Fb) in Lb. now apply Rleb_spec in Lb.
      + rewrite Em in E'. discriminate.
      + rewrite Em in E'. injection E' as ->. rewrite E. now apply Rleb_spec.
    - destruct (up_cases up v (B2R v) (v64_fin v Fv) Uv) as [->|(a & E & _ & Fu & Bu)]; [reflexivity|].
      destruct (mean_mult a (v :: x)) as [E'|(r & E' & R)]; auto.
      + intros k K. eapply short_mult; [exact K|exact M|]. rewrite <- Bu. now apply Su.
      + apply BIG. rewrite <- Bu. now apply Lu.
      + eapply Forall_impl; [|exact FX]. intros b (Fb & _ & _ & Ub). right. exists (B2R b). split; [now apply v64_fin|].
        rewrite v64_leb, E, (v64_fin b Fb) in Ub. now apply Rleb_spec in Ub.
      + rewrite Em in E'. discriminate.
      + rewrite Em in E'. injection E' as ->. rewrite E. now apply Rleb_spec.
  Qed.

  Theorem C92_short_limits_accepted :
    forall draw t ref pairwise confidence method_EB limits,
    ordinary_table t ref limits -> ordinary_confidence confidence -> method_EB <> Mother -> resamples t draw ->
    (forall metric, In metric (lt_metrics t) -> short_limit (fst (limits_of limits metric)) /\ short_limit (snd (limits_of limits metric))) ->
    exists out, summary draw t ref pairwise confidence method_EB limits = Ok out.
  Proof. intros draw t ref pw c m limits T C M G S. apply C92_accepted_iff; auto. intros _. eapply short_means; eauto. Qed.

  (** C93: what the accepted table holds.  Means are finite; an error bar is a
      number that is at least zero (possibly infinite) and a p-value a number
      between zero and one, except for the reference: it has no p-value, and in
      pairwise mode no error bar. *)
  Definition sane_numbers (pairwise is_ref : bool) (cl : cell f64) : Prop :=
    fisfin (cell_mean cl) = true /\
    (if pairwise && is_ref then fisnan (cell_error cl) = true else fleb f0 (cell_error cl) = true) /\
    (if is_ref then fisnan (cell_pval cl) = true else fleb f0 (cell_pval cl) = true /\ fleb (cell_pval cl) (f_of_Z 1) = true).

  Theorem C93_sane_numbers :
    forall draw t ref pairwise confidence method_EB limits out,
    ordinary_table t ref limits -> ordinary_confidence confidence -> method_EB <> Mother -> resamples t draw ->
    summary draw t ref pairwise confidence method_EB limits = Ok out ->
    map fst out = list_prod (lt_metrics t) (lt_methods t) /\
    forall metric method cl, In ((metric, method), cl) out -> sane_numbers pairwise (pystr_eqb method ref) cl /\
      exists loss, column t metric method loss /\ cell_mean cl = nmean loss.
  Proof.
    intros draw t ref pw c m limits out T C M G H. destruct (table_inv _ _ _ _ _ _ _ _ H) as (_ & _ & _ & K & I). split; [exact K|].
    intros metric method cl IN. assert (In (metric, method) (list_prod (lt_metrics t) (lt_methods t))) as IP.
    { rewrite <- K. change (metric, method) with (fst ((metric, method), cl)). now apply in_map. }
    apply in_prod_iff in IP as [Hm Hd]. destruct (I metric method cl IN) as (y' & SY' & _ & _ & _ & C').
    destruct (table_cell draw t ref pw c m limits metric method T C M G Hm Hd) as (x & y & CX & CY & SY & _ & _ & _ & RES).
    rewrite SY in SY'. apply Ok_inj in SY'. subst y'. rewrite C' in RES. destruct (_ || _); [|discriminate].
    destruct RES as (cl' & E & (S1 & S2 & S3 & S4)). apply Ok_inj in E. subst cl'. split; [|exists x; auto]. split; [exact S2|]. split; [exact S3|]. exact S4.
  Qed.
End C92.
Print Assumptions C92_accepted_iff.
Print Assumptions C92_pairwise_accepted.
Print Assumptions C92_short_limits_accepted.
Print Assumptions C93_sane_numbers.

(** The largest double below one, 1 - 2^-53, is a confidence the code lets
    through, yet (1 + c) / 2 rounds to one and the quantile is infinite.  Two
    equal losses have standard error zero, and infinity times zero is NaN. *)
Definition top_confidence : f64 := fsub (f_of_Z 1) (fdiv (f_of_Z 1) (f_of_Z (2 ^ 53))).
Theorem C92_top_confidence_refuted :
  exists t : loss_table_t f64,
  (forall c, In c (lt_cols t) -> Forall (fun v => v = f0) (snd c)) /\
  fltb f0 top_confidence = true /\ fltb top_confidence (f_of_Z 1) = true /\
  forall fexp flog sf ppf eig draw,
    (forall df q, feqb q (f_of_Z 1) = true -> ppf df q = finf) ->
    (forall df q, fltb f0 q = true -> fltb q (f_of_Z 1) = true -> fisfin (ppf df q) = true) ->
    @loss_summary_table _ _ (fn_f64 fexp flog sf ppf eig) draw t mA false top_confidence Mt [] = Err AssertionError.
Proof.
  exists (small_table [f0; f0] [f0; f0]). split; [|split; [vm_compute; reflexivity|split; [vm_compute; reflexivity|]]].
  { intros c [<-|[<-|[]]]; repeat constructor. }
  intros fexp flog sf ppf eig draw H1 H2.
  assert (@t_EB _ _ (fn_f64 fexp flog sf ppf eig) [f0; f0] top_confidence = Err AssertionError) as E.
  { unfold t_EB. replace (negb (existsb nisnan [f0; f0])) with true by reflexivity.
    replace (nltb n0 top_confidence && nltb top_confidence n1) with true by (vm_compute; reflexivity). cbn [py_assert bind].
    replace (degenerate [f0; f0]) with false by reflexivity. cbv zeta. cbn [t_ppf fn_f64].
    rewrite (H1 _ (ndiv (nadd n1 top_confidence) (nofZ 2))) by (vm_compute; reflexivity).
    assert (fisfin (ppf (Z.of_nat (length [f0; f0]) - 1)%Z (ndiv (nsub n1 top_confidence) (nofZ 2))) = true) as F by (apply H2; vm_compute; reflexivity).
    set (LB := ppf _ (ndiv (nsub n1 top_confidence) (nofZ 2))) in *.
    replace (nmul nhalf (ndiv (nstd 1 [f0; f0]) (nsqrt (lenT [f0; f0])))) with f0 by (vm_compute; reflexivity).
    clearbody LB. destruct LB as [s|s| |s mm ee B]; try discriminate F; reflexivity. }
  unfold loss_summary_table.
  replace (existsb (pystr_eqb mA) (lt_methods (small_table [f0; f0] [f0; f0]))) with true by (vm_compute; reflexivity).
  replace ((1 <=? lt_len (small_table [f0; f0] [f0; f0]))%nat && (1 <=? length (lt_metrics (small_table [f0; f0] [f0; f0])))%nat) with true by reflexivity.
  cbn [py_assert bind]. change (lt_metrics (small_table [f0; f0] [f0; f0])) with [mL]. change (lt_methods (small_table [f0; f0] [f0; f0])) with [mA; mB].
  cbn [mapM]. change (dict_get_def [] mL (nninf, ninf)) with (nninf : f64, ninf : f64). cbn [fst snd].
  replace (nleb nninf ninf) with true by reflexivity. assert (select (small_table [f0; f0] [f0; f0]) (mL, mA) = Ok [f0; f0]) as S by reflexivity.
  rewrite S. cbn [py_assert bind].
  replace (negb (existsb nisnan [f0; f0])) with true by reflexivity. replace (within nninf ninf [f0; f0]) with true by reflexivity. cbn [py_assert bind].
  unfold summary_cell at 1. rewrite S. cbn [bind].
  replace (negb (existsb nisnan [f0; f0])) with true by reflexivity. replace (within nninf ninf [f0; f0]) with true by reflexivity. cbn [py_assert bind].
  cbv zeta. unfold get_mean_and_EB. replace (within nninf ninf [f0; f0]) with true by reflexivity. cbn [py_assert bind]. rewrite E. reflexivity.
Qed.
Print Assumptions C92_top_confidence_refuted.

(** ** The hypotheses are met *)
Definition tame_sf (df : Z) (x : f64) : f64 := if fisnan x then x else f0.
Definition tame_ppf (df : Z) (q : f64) : f64 := fsub q (fdiv (f_of_Z 1) (f_of_Z 2)).
Definition tame_one (x : f64) : f64 := f_of_Z 1.
Definition tame_eig (p q : f64) : option (f64 * f64) := Some (fopp p, f0).

Example C92_library : good_library tame_one tame_one tame_sf tame_ppf tame_eig.
Proof.
  destruct (f_of_Z_correct 1) as [V1 F1]; [lia|].
  assert (v64 (fdiv (f_of_Z 1) (f_of_Z 2)) = Fin (/ 2)) as Eh.
  { destruct (f_of_Z_correct 2) as [V2 F2]; [lia|]. rewrite v64_div_fin; [|exact F1|lra]. rewrite V1, V2. rewrite xround_ok.
    - f_equal. replace (1 / 2) with (P2 (-1)) by (cbn; lra). rewrite rnd64_id; [reflexivity|apply format_P2; lia].
    - replace (1 / 2) with (P2 (-1)) by (cbn; lra). rewrite Rabs_pos_eq by apply bpow_ge_0. apply bpow_le. lia. }
  assert (forall df q, fisfin q = true -> P2 (-54) <= B2R q <= 1 - P2 (-53) -> v64 (tame_ppf df q) = Fin (rnd64 (B2R q - / 2)) /\ Rabs (rnd64 (B2R q - / 2)) <= P2 100) as PP.
  { intros df q F R. unfold tame_ppf. rewrite v64_sub, (v64_fin q F), Eh. cbn [xr2]. pose proof (bpow_gt_0 radix2 (-54)). pose proof (bpow_gt_0 radix2 (-53)).
    assert (1 <= P2 100) by (change 1 with (P2 0); apply bpow_le; lia).
    destruct (rnd_bdd (B2R q - / 2) 100) as [-> Q]; [apply Rabs_le; lra|lia|]. auto. }
  constructor.
  - intros df x N. unfold tame_sf. rewrite N. exact N.
  - intros df x _ L. unfold tame_sf. destruct (fleb_notnan _ _ L) as [_ ->]. split; vm_compute; reflexivity.
  - intros df q _ F R. destruct (PP df q F R) as [E B]. apply v64_Fin in E as [Ff E]. split; [exact Ff|]. now rewrite E.
  - intros df q q' _ F F' A B C. destruct (PP df q F) as [E _]; [lra|]. destruct (PP df q' F') as [E' _]; [lra|].
    rewrite v64_leb, E, E'. cbn. apply Rleb_spec. apply rnd64_mono. lra.
  - intros z _ _. split; [exact F1|]. unfold tame_one. rewrite V1. split; [lra|]. change 1 with (P2 0). apply bpow_le. lia.
  - intros z _. vm_compute. reflexivity.
  - intros p q Fp Fq P Q. exists (fopp p), f0. split; [reflexivity|]. left. split; [|reflexivity].
    rewrite v64_leb, v64_opp, (v64_fin p Fp). cbn. apply Rleb_spec. lra.
Qed.

Lemma unit_ordinary v : fleb f0 v = true -> fleb v (f_of_Z 1) = true -> ordinary_loss f0 (f_of_Z 1) v.
Proof.
  intros A B. destruct (f_of_Z_correct 1) as [V1 F1]; [lia|].
  pose proof A as A'. pose proof B as B'. rewrite v64_leb in A', B'. rewrite (v64_fin (f_of_Z 1) F1), V1 in B'. change (v64 f0) with (Fin 0) in A'.
  destruct (v64 v) as [r| | |] eqn:E; try discriminate. apply v64_Fin in E as [F E]. cbn in A', B'. apply Rleb_spec in A', B'.
  split; [exact F|]. split; [|auto]. rewrite E. rewrite Rabs_pos_eq by lra. apply Rle_trans with (P2 0); [exact B'|apply bpow_le; lia].
Qed.

Definition quarter_table : loss_table_t f64 := small_table [lit 1 10; lit 1 2; lit 3 10] [f0; f_of_Z 1; lit 1 5].
Definition unit_limits : dict (f64 * f64) := [(mL, (f0, f_of_Z 1))].
Definition even_draw (metric method : pystr) (b : bool) : list (list Z) := repeat (repeat 1%Z 3) 1000.

Example C92_example :
  ordinary_table quarter_table mA unit_limits /\ ordinary_confidence (fdiv (f_of_Z 95) (f_of_Z 100)) /\ resamples quarter_table even_draw /\
  (forall metric, In metric (lt_metrics quarter_table) -> short_limit (fst (limits_of unit_limits metric)) /\ short_limit (snd (limits_of unit_limits metric))).
Proof.
  split; [|split; [exact conf_95|split]].
  - split; [now left|]. split; [discriminate|]. split; [cbn; lia|]. split.
    { change (lt_len quarter_table) with 3%nat. change (bpow radix2 30) with (IZR (2 ^ 30)). rewrite INR_IZR_INZ. apply IZR_le. cbn. lia. }
    split. { cbn. repeat constructor; cbn; try tauto. intros [H|[]]. discriminate. }
    intros metric [<-|[]]. change (limits_of unit_limits mL) with (f0, f_of_Z 1). destruct (f_of_Z_correct 1) as [V1 F1]; [lia|].
    split; [intros _; cbn [f0 B2R]; rewrite Rabs_R0; apply bpow_ge_0|].
    split; [intros _; rewrite V1, Rabs_pos_eq by lra; change (IZR 1) with (P2 0); apply bpow_le; lia|].
    split; [intros _ _; right; rewrite V1; change (B2R f0) with 0; rewrite Rminus_0_r; change (IZR 1) with (P2 0); apply bpow_le; lia|].
    intros method [<-|[<-|[]]].
    + exists [lit 1 10; lit 1 2; lit 3 10]. split; [split; [now left|intros y [H|[H|[]]]; now inversion H]|split; [reflexivity|]].
      repeat (apply Forall_cons; [apply unit_ordinary; vm_compute; reflexivity|]). apply Forall_nil.
    + exists [f0; f_of_Z 1; lit 1 5]. split; [split; [right; now left|intros y [H|[H|[]]]; now inversion H]|split; [reflexivity|]].
      repeat (apply Forall_cons; [apply unit_ordinary; vm_compute; reflexivity|]). apply Forall_nil.
  - intros metric method b. split; [reflexivity|]. unfold even_draw. apply Forall_forall. intros row I. apply repeat_spec in I. subst row.
    split; [reflexivity|]. split; [repeat constructor; lia|reflexivity].
  - intros metric [<-|[]]. change (limits_of unit_limits mL) with (f0, f_of_Z 1). cbn [fst snd]. destruct (f_of_Z_correct 1) as [V1 F1]; [lia|]. split.
    + intros _. exists 0%Z, 0%Z. split; [cbn; lia|]. split; [lia|]. cbn. lra.
    + intros _. exists 1%Z, 0%Z. split; [cbn; lia|]. split; [lia|]. rewrite V1. cbn. lra.
Qed.

(** so the table is accepted in both modes and by all three methods *)
Example C92_table : forall pairwise m, m <> Mother ->
  exists out, @loss_summary_table _ _ (fn_f64 tame_one tame_one tame_sf tame_ppf tame_eig) even_draw quarter_table mA pairwise (fdiv (f_of_Z 95) (f_of_Z 100)) m unit_limits = Ok out.
Proof. intros pw m M. destruct C92_example as (A & B & C & D). apply C92_short_limits_accepted; auto. exact C92_library. Qed.
