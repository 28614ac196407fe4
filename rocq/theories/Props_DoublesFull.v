(** Property theorem C100: the curve table and the whole binary classification
    benchmark in double precision.  Model: Classification.v, Benchmark.v.  [sum]
    is the order in which numpy adds up a row; the theorems are about every
    order. *)
From Coq Require Import Reals Lra Lia.
From Flocq Require Import Core BinarySingleNaN.
From Verif Require Import PyBase ListLemmas F64 Num F64Lemmas NumOk SumProofs Util UtilProofs BootUtil BootProofs2 PerfCurves CurveBoot MLPaper MLProofs MLProofs4 CompareProofs
  SwapProofs MeanProofs DoublesProofs DoublesProofs2 Checkpoint CheckpointProofs Classification Regression Benchmark ClassProofs ClassProofs2 ClassProofs3 ClassProofs4 ClassProofs5
  RegrProofs LossTableProofs BenchProofs DoublesProofs3 AnyNormalize DoublesProofs4 DoublesProofs5 CurveProofs7.
From Verif Require Import Props_Boot Props_Curves Props_MLPaper Props_Classification Props_Predict Props_Regression Props_Tables Props_Benchmark Props_Mean Props_Doubles Props_DoublesBench
  Props_DoublesClass Props_DoublesCurves.
Open Scope R_scope.

(** ** The specification *)
(** a curve of perf_curves.py that may be used, the range of its area and of its
    values *)
Inductive float_curve (pairwise : bool) : curve_fun f64 -> (f64 -> Prop) -> (f64 -> Prop) -> Prop :=
| float_roc : float_curve pairwise roc_curve (unit_upto (bpow radix2 (-35))) (unit_upto (bpow radix2 (-49)))
| float_rp : float_curve pairwise recall_precision_curve (unit_upto (bpow radix2 (-35))) (unit_upto 0)
| float_prg : pairwise = false -> float_curve pairwise prg_curve (gain_upto (bpow radix2 (-35))) (gain_upto 0).

(** an entry of the curve table: as in loss tables there is no p-value for the
    reference and no pairwise error bar *)
Definition sane_curve (QA QG : f64 -> Prop) (pairwise is_ref : bool) (g : option (list f64)) (c : cell f64) (dump : list (f64 * f64 * f64 * f64)) : Prop :=
  QA (cell_mean c) /\
  (if pairwise && is_ref then fisnan (cell_error c) = true
   else fltb (cell_error c) f0 = false /\ ((forall v, QA v -> fisfin v = true) -> fleb f0 (cell_error c) = true)) /\
  (if is_ref then fisnan (cell_pval c) = true else unit_upto 0 (cell_pval c)) /\
  x_column g (map (fun r => fst (fst (fst r))) dump) /\
  Forall (fun r => QG (snd (fst (fst r))) /\ QG (snd (fst r)) /\ QG (snd r) /\ fleb (snd (fst r)) (snd r) = true) dump.

(** at most 100000 samples; above 5000, if there are negatives, one is drawn in
    each replicate *)
Definition enough_draws (y : list Z) (counts : list (list Z)) : Prop :=
  (Z.of_nat (length y) <= 100000)%Z /\
  ((Z.of_nat (length y) <= 5000)%Z \/ Forall (fun v => v = 1%Z) y \/ negatives_drawn y counts).

Lemma float_boot pw f QA QG kd y preds counts n_boot ref g c : float_curve pw f QA QG ->
  boot_input kd y preds counts n_boot -> good_ref (RefPred ref) (length y) -> good_grid g -> confidence c ->
  boot_result64 QA QG g (forall v, QA v -> fisfin v = true) (curve_boot counts kd y preds 2 (RefPred ref) f g n_boot pw c).
Proof.
  intros FC BI R G C.
  assert (forall (QA QG : f64 -> Prop) g (P P' : Prop) r, (P' -> P) -> boot_result64 QA QG g P r -> boot_result64 QA QG g P' r) as MP.
  { intros QA' QG' g' P P' r H (auc & EB & p & rows & E & A & B & D & I & J). exists auc, EB, p, rows. split; [exact E|]. split; [exact A|]. split; [exact B|]. split; [exact D|]. split; [tauto|exact J]. }
  assert (moderate pw (RefPred ref)) as M by (right; exact I).
  destruct FC as [| |Hp].
  - eapply MP; [|now apply C98_curve_boot_roc]. auto.
  - eapply MP; [|now apply C98_curve_boot_rp]. auto.
  - eapply MP; [|apply C98_curve_boot_prg; auto; congruence]. intros H. specialize (H fninf ltac:(now left)). discriminate.
Qed.

(** C100: the table of curves of finite scores is always produced and every
    number in it is sane. *)
Theorem C100_curve_table :
  forall draw (tbl : pred_table f64) kd y (curves : dict (curve_fun f64)) ref_method g n_boot pairwise c,
  NoDup (map fst curves) -> NoDup (map fst (pt_methods tbl)) ->
  kd = Kb \/ kd = Ki -> y <> [] -> Forall (fun v => v = 0%Z \/ v = 1%Z) y -> (1 <= n_boot <= 2 ^ 53)%Z -> good_grid g -> confidence c ->
  length y = pt_len tbl -> length (pt_labels tbl) = 2%nat -> In ref_method (map fst (pt_methods tbl)) -> curves <> [] ->
  (forall curve f, In (curve, f) curves -> exists QA QG, float_curve pairwise f QA QG) ->
  (forall method frame, In (method, frame) (pt_methods tbl) -> fst frame = [0; 1]%Z /\ length (snd frame) = length y /\ pred_rows (snd frame)) ->
  (forall method curve, multinomial_outcome (Z.of_nat (length y)) n_boot (draw method curve) /\ enough_draws y (draw method curve)) ->
  exists out, curve_summary_table draw tbl kd y curves ref_method g n_boot pairwise c = Ok out /\
  (forall method curve, In (method, curve) (map fst out) <-> In method (map fst (pt_methods tbl)) /\ In curve (map fst curves)) /\
  forall method curve f QA QG cl dump, In (curve, f) curves -> float_curve pairwise f QA QG -> In ((method, curve), (cl, dump)) out ->
    sane_curve QA QG pairwise (pystr_eqb method ref_method) g cl dump.
Proof.
  intros draw tbl kd y cd refm g nb pw c N1 N2 Kd Ny Lab Nb Vg Hc Ly Ll Hr Ncd Hf Ht Dr.
  assert (forall method rows curve f ref QA QG, frame_of tbl method rows -> frame_of tbl refm ref -> In (curve, f) cd -> float_curve pw f QA QG ->
    boot_result64 QA QG g (forall v, QA v -> fisfin v = true) (curve_boot (draw method curve) kd y rows (length (pt_labels tbl)) (RefPred ref) f g nb pw c)) as B.
  { intros method rows curve f ref QA QG [c1 H1] [c2 H2] H3 HQ. destruct (Ht _ _ H1) as (_ & L1 & F1), (Ht _ _ H2) as (_ & L2 & F2). cbn [snd] in *.
    destruct (Dr method curve) as [D1 [D2 D3]]. rewrite Ll. apply float_boot; auto; [constructor; auto|split; assumption]. }
  apply in_map_iff in Hr. destruct Hr as ([k [rc ref]] & Q & Hr). cbn [fst] in Q. subst k.
  assert (forall method f, In (method, f) (pt_methods tbl) -> shaped tbl f) as SH.
  { intros method f H. destruct (Ht _ _ H) as (A & L & F). unfold shaped. rewrite Ll. split; [exact A|]. split; [congruence|].
    eapply Forall_impl; [|exact F]. intros r (Lr & _). exact Lr. }
  assert (exists out, curve_summary_table draw tbl kd y cd refm g nb pw c = Ok out) as [out E].
  { assert (exists cols, Forall2 (fun m o => curve_method draw tbl kd y cd refm ref g nb pw c m = Ok o) (pt_methods tbl) cols) as [cols F].
    { assert (forall m, In m (pt_methods tbl) -> exists o, curve_method draw tbl kd y cd refm ref g nb pw c m = Ok o) as One.
      { intros [method [cs rows]] H.
        assert (forall curve f, In (curve, f) cd -> exists r, curve_boot (draw method curve) kd y rows (length (pt_labels tbl)) (RefPred ref) f g nb pw c = Ok r) as K.
        { intros curve f Hcf. destruct (Hf _ _ Hcf) as (QA & QG & HQ). destruct (B method rows curve f ref QA QG (ex_intro _ cs H) (ex_intro _ rc Hr) Hcf HQ) as (auc & EB & p & d & -> & _). eexists; reflexivity. }
        assert (exists o, Forall2 (fun (cf : pystr * curve_fun f64) e => exists auc EB p dump,
          curve_boot (draw method (fst cf)) kd y rows (length (pt_labels tbl)) (RefPred ref) (snd cf) g nb pw c = Ok ((auc, EB, p), dump) /\
          e = ((method, fst cf), ({| cell_mean := auc; cell_error := if pw && pystr_eqb method refm then nnan else EB;
                              cell_pval := if pystr_eqb method refm then nnan else p |}, dump))) cd o) as [o Fo].
        { clear -K. induction cd as [|[k f] cd IH]; [exists []; constructor|]. destruct IH as [o IH]; [intros; eapply K; right; eassumption|].
          destruct (K k f (or_introl eq_refl)) as [[[[auc EB] p] d] E]. eexists (_ :: o). constructor; [|exact IH].
          exists auc, EB, p, d. split; [exact E|reflexivity]. }
        exists o. apply curve_method_iff. split; [exact (SH _ _ H)|exact Fo]. }
      clear -One. induction (pt_methods tbl) as [|m l IH]; [exists []; constructor|]. destruct IH as [cols IH]; [intros; apply One; now right|].
      destruct (One m (or_introl eq_refl)) as [o E]. exists (o :: cols). now constructor. }
    exists (concat cols). apply curve_table_iff. split; [exact Ly|]. split; [destruct y; [congruence|cbn in Ly; lia]|]. split; [lia|].
    split; [destruct cd; [congruence|cbn; lia]|]. exists (rc, ref). split; [now apply dict_get_in|]. split; [exact (SH _ _ Hr)|]. exists cols. auto. }
  exists out. split; [exact E|]. destruct (C77_entries _ _ _ _ _ _ _ _ _ _ _ N1 N2 E) as (_ & LAB & ref' & Hr' & K). split; [exact LAB|].
  intros method curve f QA QG cl dump If HQ I.
  assert (In (method, curve) (map fst out)) as J by (exact (in_map fst _ _ I)). apply LAB in J. destruct J as [J1 _].
  apply in_map_iff in J1. destruct J1 as ([k1 [cols rows]] & Ek & J1). cbn [fst] in Ek. subst k1.
  destruct (K method rows curve f (ex_intro _ cols J1) If) as (auc & EB & p & d & c1 & BB & [_ E1] & C1 & C2 & C3).
  apply E1 in I. injection I as -> ->.
  destruct (B method rows curve f ref' QA QG (ex_intro _ cols J1) Hr' If HQ) as (auc' & EB' & p' & d' & BB' & U & P & E0 & E2 & G & FF). rewrite BB in BB'. apply Ok_inj in BB'.
  pose proof (f_equal (fun t => fst (fst (fst t))) BB') as Z1. pose proof (f_equal (fun t => snd (fst (fst t))) BB') as Z2. pose proof (f_equal (fun t => snd (fst t)) BB') as Z3. pose proof (f_equal snd BB') as Z4.
  cbn [fst snd] in Z1, Z2, Z3, Z4. subst auc' EB' p' d'. clear BB BB'.
  split; [now rewrite C1|]. destruct (pystr_eqb method refm) eqn:Q.
  - apply pystr_eqb_spec in Q. destruct (C3 Q) as (P1 & P2 & P3). rewrite andb_true_r. split; [|split; [now rewrite P1|split; [exact G|exact FF]]].
    destruct pw; [now rewrite (P2 eq_refl)|]. destruct (P3 eq_refl) as [-> _]. auto.
  - assert (method <> refm) as Nm by (intros ->; rewrite (proj2 (pystr_eqb_spec refm refm) eq_refl) in Q; discriminate). destruct (C2 Nm) as [-> ->]. rewrite andb_false_r.
    split; [auto|]. split; [exact P|]. split; [exact G|exact FF].
Qed.
Print Assumptions C100_curve_table.

(** ** The benchmark *)
Section C100.
  Context (fexp flog : f64 -> f64) (sf ppf : Z -> f64 -> f64) (eig : f64 -> f64 -> option (f64 * f64)).
  Context (GL : good_library fexp flog sf ppf eig) (EL : exp_log fexp flog).
  Notation lib := (fn_f64 fexp flog sf ppf eig).
  Context (sum : list f64 -> f64) (SUM : forall l, sums_to l (sum l)).

  Lemma float_loss_fin L (fin fin' : Prop) f lim : (fin -> fin') -> c_float_loss lib sum L fin f lim -> c_float_loss lib sum L fin' f lim.
  Proof. intros H []; econstructor; eauto. Qed.
  Lemma two_labels : INR 2 <= bpow radix2 30.
  Proof. eapply Rle_trans; [apply le_INR|apply three_labels]. lia. Qed.

  (* the benchmark with the table of losses it goes through *)
  Lemma full_bench_table :
    forall (S X : Type) key_eqb (o : classifier f64 S X) draw_curve draw_loss X_train kd y_train X_test y_test methods losses curves ref_method min_log_prob pairwise m limits
      (rows : S -> list (list f64)),
    NoDup (map fst methods) -> NoDup (map fst losses) -> NoDup (map fst curves) ->
    c_inputs X_train kd y_train X_test 2 min_log_prob (length y_test) -> Forall (fun v => v = 0%Z \/ v = 1%Z) y_test ->
    fisfin min_log_prob = true -> score 100 min_log_prob ->
    (forall name s, In (name, s) methods -> @c_predicts _ lib _ _ o s (fa_data X_train) y_train (fa_data X_test) (rows s) 2 /\
       length (rows s) = length y_test /\ Forall (fun row => length row = 2%nat /\ Forall (score 100) row) (rows s)) ->
    In ref_method (map fst methods) -> losses <> [] -> curves <> [] -> m <> Mother ->
    (forall metric f, In (metric, f) losses -> c_float_loss lib sum 2 True f (limits_of limits metric)) ->
    (forall curve f, In (curve, f) curves -> exists QA QG, float_curve pairwise f QA QG) ->
    (forall method curve, multinomial_outcome (Z.of_nat (length y_test)) 1000 (draw_curve method curve) /\ enough_draws y_test (draw_curve method curve)) ->
    (forall metric method b, multinomial_outcome (Z.of_nat (length y_test)) 1000 (draw_loss metric method b)) ->
    exists lt lo cu, ordinary_table lt ref_method limits /\ resamples lt draw_loss /\
    @loss_summary_table _ _ lib draw_loss lt ref_method pairwise (fdiv (f_of_Z 95) (f_of_Z 100)) m limits = Ok lo /\
    @just_benchmark _ _ lib (@any_normalize _ _ lib sum) _ _ key_eqb o draw_curve draw_loss X_train kd y_train X_test y_test 2 methods losses curves ref_method min_log_prob
        pairwise m limits = Ok (lo, cu) /\
    map fst lo = list_prod (map fst losses) (map fst methods) /\
    (forall method curve, In (method, curve) (map fst cu) <-> In method (map fst methods) /\ In curve (map fst curves)) /\
    (forall metric method cl, In ((metric, method), cl) lo -> sane_numbers pairwise (pystr_eqb method ref_method) cl /\
       fleb (fst (limits_of limits metric)) (cell_mean cl) = true /\ fleb (cell_mean cl) (snd (limits_of limits metric)) = true) /\
    (forall method curve f QA QG cl dump, In (curve, f) curves -> float_curve pairwise f QA QG -> In ((method, curve), (cl, dump)) cu ->
       sane_curve QA QG pairwise (pystr_eqb method ref_method) None cl dump).
  Proof.
    intros S X key_eqb o dc dl Xtr kd ytr Xte yte ms ls cs ref fl pw m lim rows N1 N2 N3 CI Y FF FS P RI LN CN M LR CR DC DL.
    destruct (C97_predictions fexp flog sf ppf eig EL sum SUM S X key_eqb o Xtr kd ytr Xte 2 ms fl (length yte) rows CI ltac:(lia) two_labels FS) as (tbl & E1 & T1 & T2 & T3 & T4).
    { intros name s I. destruct (P name s I) as (A & B & C). split; [exact A|]. split; [exact B|]. eapply Forall_impl; [|exact C]. intros row [C1 C2]. auto. }
    assert (KD : kd = Kb \/ kd = Ki) by (destruct CI as (? & ? & ? & ? & ? & ? & ? & ? & ? & ?); assumption).
    assert (Yn : yte <> []) by (destruct CI as (? & ? & ? & ? & ? & ? & CI & ?); destruct yte; [cbn in CI; lia|discriminate]).
    unfold just_benchmark. rewrite E1. cbn [bind]. clear E1 P.
    change (@ndiv f64 f64_num (nofZ 95) (nofZ 100)) with (fdiv (f_of_Z 95) (f_of_Z 100)).
    set (c := fdiv (f_of_Z 95) (f_of_Z 100)) in *.
    assert (confidence c) as HC by (split; vm_compute; reflexivity).
    assert (ordinary_confidence c) as OC by exact conf_95. clearbody c.
    destruct (C100_curve_table dc tbl kd yte cs ref None 1000 pw c) as (cu & E2 & K2 & K3); auto.
    { now rewrite T3. } { lia. } { exact I. } { now rewrite T3. }
    { intros method frame I. destruct (T4 _ _ I) as (A & B & C & D). split; [exact A|]. split; [exact B|]. specialize (D FF). unfold pred_rows. rewrite Forall_forall in C, D |- *.
      intros r Hr. specialize (C r Hr). specialize (D r Hr). destruct C as [(C1 & _) _]. split; [exact C1|]. split.
      - eapply Forall_impl; [|exact D]. intros a. apply fisfin_notnan.
      - rewrite Forall_forall in D. apply D, nth_In. lia. }
    unfold summary_table. rewrite E2. cbn [bind].
    destruct (c_bench_table fexp flog sf ppf eig GL EL sum SUM dl tbl kd yte ls ref pw c m lim) as (lt & lo & OT & RS & E3 & E4 & K4 & K5); auto.
    { now rewrite T3. } { rewrite T2. lia. } { rewrite T2. apply two_labels. } { destruct yte; [congruence|cbn; lia]. }
    { destruct (DC ref ref) as [_ [H _]]. rewrite INR_IZR_INZ. apply Rle_trans with (IZR 100000); [now apply IZR_le|]. change (bpow radix2 30) with (IZR (2 ^ 30)). apply IZR_le. cbn. lia. }
    { rewrite T2. eapply Forall_impl; [|exact Y]. cbn. intros v [->| ->]; lia. }
    { rewrite T2. intros method frame I. destruct (T4 _ _ I) as (A & B & C & D). split; [exact A|]. split; [exact B|]. eapply Forall_impl; [|exact C].
      intros row [(R1 & R2 & R3) _]. split; [exact R1|]. split; [|exact R3]. eapply Forall_impl; [|exact R2].
      intros a [->|[Fa Ba]]; [now left|right]. split; [exact Fa|]. eapply Rle_trans; [exact Ba|]. apply bpow_le. lia. }
    { now rewrite T3. }
    { intros metric f I. rewrite T2. eapply float_loss_fin; [|now apply LR]. intros _ method frame J. destruct (T4 _ _ J) as (_ & _ & _ & D). exact (D FF). }
    rewrite E3. cbn [bind]. rewrite E4. cbn [bind]. exists lt, lo, cu. split; [exact OT|]. split; [exact RS|]. split; [exact E4|]. split; [reflexivity|]. split; [now rewrite K4, T3|]. split; [rewrite <- T3; exact K2|]. split; [|exact K3].
    intros metric method cl I. destruct (K5 _ _ _ I) as [Q1 Q2]. split; [exact Q1|].
    assert (In (metric, method) (map fst lo)) as J by exact (in_map fst _ _ I). rewrite K4 in J. apply in_prod_iff in J as [J1 J2]. apply in_map_iff in J1 as ([k1 f] & <- & J1), J2 as ([k2 frame] & <- & J2).
    destruct (Q2 f frame J1 J2) as (? & ? & _ & _ & _ & Q3). exact Q3.
  Qed.

  (** C100: with a finite floor the binary classification benchmark on predictions
      of ordinary size always ends with both tables, and every number in them is
      sane. *)
  Theorem C100_benchmark :
    forall (S X : Type) key_eqb (o : classifier f64 S X) draw_curve draw_loss X_train kd y_train X_test y_test methods losses curves ref_method min_log_prob pairwise m limits
      (rows : S -> list (list f64)),
    NoDup (map fst methods) -> NoDup (map fst losses) -> NoDup (map fst curves) ->
    c_inputs X_train kd y_train X_test 2 min_log_prob (length y_test) -> Forall (fun v => v = 0%Z \/ v = 1%Z) y_test ->
    fisfin min_log_prob = true -> score 100 min_log_prob ->
    (forall name s, In (name, s) methods -> @c_predicts _ lib _ _ o s (fa_data X_train) y_train (fa_data X_test) (rows s) 2 /\
       length (rows s) = length y_test /\ Forall (fun row => length row = 2%nat /\ Forall (score 100) row) (rows s)) ->
    In ref_method (map fst methods) -> losses <> [] -> curves <> [] -> m <> Mother ->
    (forall metric f, In (metric, f) losses -> c_float_loss lib sum 2 True f (limits_of limits metric)) ->
    (forall curve f, In (curve, f) curves -> exists QA QG, float_curve pairwise f QA QG) ->
    (forall method curve, multinomial_outcome (Z.of_nat (length y_test)) 1000 (draw_curve method curve) /\ enough_draws y_test (draw_curve method curve)) ->
    (forall metric method b, multinomial_outcome (Z.of_nat (length y_test)) 1000 (draw_loss metric method b)) ->
    exists lo cu, @just_benchmark _ _ lib (@any_normalize _ _ lib sum) _ _ key_eqb o draw_curve draw_loss X_train kd y_train X_test y_test 2 methods losses curves ref_method min_log_prob
        pairwise m limits = Ok (lo, cu) /\
    map fst lo = list_prod (map fst losses) (map fst methods) /\
    (forall method curve, In (method, curve) (map fst cu) <-> In method (map fst methods) /\ In curve (map fst curves)) /\
    (forall metric method cl, In ((metric, method), cl) lo -> sane_numbers pairwise (pystr_eqb method ref_method) cl /\
       fleb (fst (limits_of limits metric)) (cell_mean cl) = true /\ fleb (cell_mean cl) (snd (limits_of limits metric)) = true) /\
    (forall method curve f QA QG cl dump, In (curve, f) curves -> float_curve pairwise f QA QG -> In ((method, curve), (cl, dump)) cu ->
       sane_curve QA QG pairwise (pystr_eqb method ref_method) None cl dump).
  Proof.
    intros S X key_eqb o dc dl Xtr kd ytr Xte yte ms ls cs ref fl pw m lim rows N1 N2 N3 CI Y FF FS P RI LN CN M LR CR DC DL.
    destruct (full_bench_table S X key_eqb o dc dl Xtr kd ytr Xte yte ms ls cs ref fl pw m lim rows N1 N2 N3 CI Y FF FS P RI LN CN M LR CR DC DL) as (lt & lo & cu & _ & _ & _ & K).
    exists lo, cu. exact K.
  Qed.
End C100.
Print Assumptions C100_benchmark.

(** ** The hypotheses are met: two methods on two test points, one of which is
    given a zero probability *)
Definition ex_full_classifier : classifier f64 (list (list f64)) unit :=
  {| cl_fit := fun s _ _ => Ok s; cl_predict_log_proba := fun s _ => Ok (s, 2%nat); cl_predict_proba := fun _ _ => Err KeyError |}.
Definition ex_full_methods : list (pystr * list (list f64)) := [(tA, [[fninf; f_of_Z 0]; [f_of_Z (-1); f_of_Z 2]]); (tB, [[f_of_Z 0; f_of_Z 0]; [f_of_Z 1; f_of_Z 0]])].
Example C100_example :
  forall m, m <> Mother ->
  exists lo cu, @just_benchmark _ _ ex_float_lib (@any_normalize _ _ ex_float_lib nsum) _ _ (fun _ _ => false) ex_full_classifier
      (fun _ _ => repeat [2; 0]%Z 1000) (fun _ _ _ => repeat [0; 2]%Z 1000) (ex_points 2) Ki [0; 1]%Z (ex_points 2) [1; 0]%Z 2
      ex_full_methods [(tM, log_loss); (tA, @brier_loss _ _ ex_float_lib true)] [(tA, roc_curve); (tB, recall_precision_curve); (tM, prg_curve)] tB (f_of_Z (-50)) false m [] = Ok (lo, cu) /\
  map fst lo = [(tM, tA); (tM, tB); (tA, tA); (tA, tB)] /\
  (forall metric method cl, In ((metric, method), cl) lo -> sane_numbers false (pystr_eqb method tB) cl) /\
  (forall method cl dump, In ((method, tA), (cl, dump)) cu -> sane_curve (unit_upto (bpow radix2 (-35))) (unit_upto (bpow radix2 (-49))) false (pystr_eqb method tB) None cl dump).
Proof.
  intros m M.
  assert (forall n, (Z.abs n <= 1000)%Z -> score 100 (f_of_Z n)) as SC.
  { intros n H. right. destruct (small_score n H) as [A B]. split; [exact A|]. eapply Rle_trans; [exact B|]. apply Rle_trans with (bpow radix2 10); [change (bpow radix2 10) with (IZR (2 ^ 10)); cbn; lra|]. apply bpow_le. lia. }
  destruct (C100_benchmark tame_one tame_one tame_sf tame_ppf tame_eig C92_library C96_library nsum nsum_sums (list (list f64)) unit (fun _ _ => false) ex_full_classifier
    (fun _ _ => repeat [2; 0]%Z 1000) (fun _ _ _ => repeat [0; 2]%Z 1000) (ex_points 2) Ki [0; 1]%Z (ex_points 2) [1; 0]%Z
    ex_full_methods [(tM, log_loss); (tA, @brier_loss _ _ ex_float_lib true)] [(tA, roc_curve); (tB, recall_precision_curve); (tM, prg_curve)] tB (f_of_Z (-50)) false m [] (fun s => s))
    as (lo & cu & E & K1 & _ & K2 & K3).
  - constructor; [intros [Q|[]]; discriminate|]. constructor; [intros []|constructor].
  - constructor; [intros [Q|[]]; discriminate|]. constructor; [intros []|constructor].
  - constructor; [intros [Q|[Q|[]]]; discriminate|]. constructor; [intros [Q|[]]; discriminate|]. constructor; [intros []|constructor].
  - exists 1%Z, [], []. split; [reflexivity|]. split; [reflexivity|]. split; [reflexivity|]. split; [cbn; lia|]. split; [discriminate|]. split; [now right|]. split; [repeat constructor; lia|].
    split; [reflexivity|]. vm_compute. reflexivity.
  - constructor; [now right|constructor; [now left|constructor]].
  - apply (small_score (-50)). lia.
  - apply SC. lia.
  - assert (forall a b, (a = fninf \/ score 100 a) -> score 100 b -> length [a; b] = 2%nat /\ Forall (score 100) [a; b]) as RW.
    { intros a b [->|A] B; (split; [reflexivity|]); (apply Forall_cons; [|apply Forall_cons; [exact B|apply Forall_nil]]); [now left|exact A]. }
    intros name s [Q|[Q|[]]]; apply pair_equal_spec in Q as [<- <-]; (split; [eexists; split; [reflexivity|left; reflexivity]|]); (split; [reflexivity|]);
      (apply Forall_cons; [|apply Forall_cons; [|apply Forall_nil]]); (apply RW; [|apply SC; lia]); [left; reflexivity|right; apply SC; lia..].
  - now right; left.
  - discriminate.
  - discriminate.
  - exact M.
  - assert (limit_below 0 fninf) as LB by (split; [now left|split; intros H; discriminate H]).
    intros metric f [Q|[Q|[]]]; injection Q as <- <-.
    + change (limits_of (T := f64) [] tM) with (fninf, finf). constructor; [exact I|exact LB].
    + apply c_float_brier; [exact LB|apply inf_above].
  - intros curve f [Q|[Q|[Q|[]]]]; injection Q as <- <-; do 2 eexists; [apply float_roc|apply float_rp|now apply float_prg].
  - intros _ _. split; [|split; [cbn; lia|left; cbn; lia]]. split; [now rewrite repeat_length|]. apply Forall_forall. intros r Hr. apply repeat_spec in Hr. subst r. repeat split; auto. repeat constructor; lia.
  - intros _ _ _. split; [now rewrite repeat_length|]. apply Forall_forall. intros r Hr. apply repeat_spec in Hr. subst r. repeat split; auto. repeat constructor; lia.
  - exists lo, cu. split; [exact E|]. split; [exact K1|]. split; [intros metric method cl I; exact (proj1 (K2 metric method cl I))|].
    intros method cl dump I. exact (K3 method tA roc_curve _ _ cl dump (or_introl eq_refl) (float_roc false) I).
Qed.
