(** Property theorems C90-C91: the mean loss in double precision, for vectors
    of up to 2^30 losses added in numpy's pairwise order.  The assertion that
    guards the clipping never fires, the reported mean respects the limits of
    the loss, and it is the exact mean up to rounding. *)
From Coq Require Import Reals Lra Lia.
From Flocq Require Import Core BinarySingleNaN.
From Verif Require Import PyBase ListLemmas F64 Num F64Lemmas NumOk SumProofs Util UtilProofs BootUtil BootProofs2 PerfCurves MLPaper MLProofs CompareProofs
  SwapProofs MeanProofs.
From Verif Require Import Props_MLPaper.
Open Scope R_scope.

(** ** The specification *)
(** the exact sum of the values of some doubles, and of their magnitudes *)
Definition exact_sum (x : list f64) : R := fold_right Rplus 0 (map B2R x).
Definition total_size (x : list f64) : R := fold_right Rplus 0 (map (fun a => Rabs (B2R a)) x).
Definition exact_mean (x : list f64) : R := exact_sum x / INR (length x).
(** between one and 2^30 entries *)
Definition usual_length (x : list f64) : Prop := (1 <= length x)%nat /\ INR (length x) <= bpow radix2 30.
Definition in_limits (lower upper : f64) (x : list f64) : Prop := Forall (fun v => fleb lower v = true /\ fleb v upper = true) x.
(** a limit is infinite or at most 2^900 in size, and one of them is finite *)
Definition usual_limits (lower upper : f64) : Prop :=
  (fisfin lower = true -> Rabs (B2R lower) <= bpow radix2 900) /\ (fisfin upper = true -> Rabs (B2R upper) <= bpow radix2 900) /\
  (fisfin lower = true \/ fisfin upper = true).

Lemma total_abs x : total_size x = abs_sum x.
Proof. unfold total_size, abs_sum, vals. now rewrite map_map. Qed.
Lemma within_of lower upper x : in_limits lower upper x -> within lower upper x = true.
Proof.
  unfold in_limits. rewrite Forall_forall. intros F. unfold within. apply andb_true_iff. split; apply forallb_forall; intros a I; now apply F in I as [? ?].
Qed.
Lemma of_within lower upper x : within lower upper x = true -> in_limits lower upper x.
Proof.
  unfold within. intros H. apply andb_true_iff in H as [A B]. rewrite forallb_forall in A, B. apply Forall_forall. intros a I. split; [now apply A|now apply B].
Qed.

(** ** C90: the mean of losses within the limits passes the check of clip_chk *)
Theorem C90_mean_within_limits :
  forall (x : list f64) (lower upper : f64),
  usual_length x -> in_limits lower upper x -> usual_limits lower upper ->
  exists mu, clip_chk isclose (nmean x) lower upper = Ok mu /\ fleb lower mu = true /\ fleb mu upper = true.
Proof. intros x lower upper [N M] F (A & B & O). now apply mean_clip. Qed.
Print Assumptions C90_mean_within_limits.

(** So the mean is never what makes the estimators fail, whatever the method:
    they fail only when the error bar or the test does. *)
Theorem C90_estimators :
  forall (FT : fn f64) (counts : list (list Z)) (x : list f64) (confidence min_EB lower upper : f64) (method : eb_method),
  usual_length x -> in_limits lower upper x -> usual_limits lower upper ->
  exists mu, fleb lower mu = true /\ fleb mu upper = true /\
    get_mean_and_EB counts x confidence min_EB lower upper method =
      (do EB <- match method with
                | Mt => t_EB x confidence
                | Mbernstein => bernstein_EB x lower upper confidence
                | Mboot => boot_EB counts x confidence 1000
                | Mother => Err AssertionError
                end;
       do EB <- clip_EB mu EB lower upper min_EB; Ok (mu, EB)) /\
    get_mean_EB_test counts x confidence min_EB lower upper method =
      (do r <- match method with
               | Mt => do EB <- t_EB x confidence; do pval <- t_test x; Ok (EB, pval)
               | Mbernstein => do EB <- bernstein_EB x lower upper confidence; do pval <- bernstein_test x lower upper; Ok (EB, pval)
               | Mboot => do r <- _boot_EB_and_test counts x confidence 1000 true true false; Ok (fst r)
               | Mother => Err AssertionError
               end;
       do EB <- clip_EB mu (fst r) lower upper min_EB; Ok (mu, EB, snd r)).
Proof.
  intros FT counts x c me lower upper method N F L. destruct (C90_mean_within_limits x lower upper N F L) as (mu & E & A & B).
  exists mu. split; [exact A|]. split; [exact B|]. unfold get_mean_and_EB, get_mean_EB_test. rewrite (within_of _ _ _ F), E.
  cbn [py_assert bind]. split; reflexivity.
Qed.
Print Assumptions C90_estimators.

(** Without limits the same holds for finite losses of a moderate total. *)
Theorem C90_no_limits :
  forall (x : list f64),
  usual_length x -> Forall (fun v => fisfin v = true) x -> total_size x <= bpow radix2 990 ->
  clip_chk isclose (nmean x) fninf finf = Ok (nmean x).
Proof.
  intros x [N M] F T. rewrite total_abs in T. destruct (mean_err x N M F T) as [Fm _]. set (m := nmean x) in *. clearbody m.
  unfold clip_chk, nclip. cbn [nltb neqb f64_num].
  replace (fltb m fninf) with false by (destruct m as [?|[]| |?]; try discriminate; reflexivity).
  replace (fltb finf m) with false by (destruct m as [?|[]| |?]; try discriminate; reflexivity).
  assert (feqb m m = true) as -> by (apply feqb_key; auto; destruct m as [?|[]| |?]; auto; discriminate). reflexivity.
Qed.
Print Assumptions C90_no_limits.

(** The sizes matter.  Two losses of 2^1023 in (0, 2^1023) add up to infinity,
    and the assertion on the clipping fires.  Without limits, finite losses
    whose exact mean is zero have NaN for a mean, and the assertion fires too. *)
Definition huge : f64 := f_of_Z (2 ^ 1023).
Definition nhuge : f64 := fopp huge.
Theorem C90_overflow_refuted :
  exists (x : list f64) (lower upper : f64),
  usual_length x /\ in_limits lower upper x /\ fisfin lower = true /\ fisfin upper = true /\
  clip_chk isclose (nmean x) lower upper = Err AssertionError.
Proof.
  exists [huge; huge], f0, huge. split; [split; cbn; [lia|lra]|]. split; [repeat constructor; vm_compute; reflexivity|].
  repeat split; vm_compute; reflexivity.
Qed.
Print Assumptions C90_overflow_refuted.
Theorem C90_cancelling_refuted :
  exists (x : list f64),
  usual_length x /\ Forall (fun v => fisfin v = true) x /\ exact_sum x = 0 /\
  fisnan (nmean x) = true /\ clip_chk isclose (nmean x) fninf finf = Err AssertionError.
Proof.
  exists [huge; nhuge; huge; nhuge; huge; nhuge; huge; nhuge; huge; nhuge; huge; nhuge; huge; nhuge; huge; nhuge].
  split; [split; cbn; [lia|lra]|].
  split; [repeat constructor; vm_compute; reflexivity|]. split.
  - assert (B2R nhuge = - B2R huge) as E by apply B2R_Bopp. unfold exact_sum. cbn [map fold_right]. rewrite E. lra.
  - split; vm_compute; reflexivity.
Qed.
Print Assumptions C90_cancelling_refuted.

Example C90_example :
  (* three losses of 0.1 in (0, 0.1): their mean exceeds 0.1 by a rounding error and is clipped *)
  let x := [lit 1 10; lit 1 10; lit 1 10] in
  usual_length x /\ in_limits f0 (lit 1 10) x /\ usual_limits f0 (lit 1 10) /\
  fltb (lit 1 10) (nmean x) = true /\
  milli (clip_chk isclose (nmean x) f0 (lit 1 10)) = Some 100%Z.
Proof.
  cbv zeta. split; [split; cbn; [lia|lra]|]. split; [repeat constructor; vm_compute; reflexivity|]. split.
  - split; [|split; [|left; reflexivity]]; intros _.
    + change (B2R f0) with 0. rewrite Rabs_R0. apply bpow_ge_0.
    + assert (B2R (lit 1 10) <= B2R (f_of_Z 1)) as U by (apply fleb_fin; reflexivity).
      assert (B2R f0 <= B2R (lit 1 10)) as L by (apply fleb_fin; reflexivity). change (B2R f0) with 0 in L.
      rewrite f_of_Z_val in U by lia. rewrite Rabs_pos_eq by exact L. apply Rle_trans with (1 := U). apply (bpow_le radix2 0 900). lia.
  - split; vm_compute; reflexivity.
Qed.

(** ** C91: the mean is the exact mean up to rounding *)
Theorem C91_mean_accuracy :
  forall (x : list f64),
  usual_length x -> Forall (fun v => fisfin v = true) x -> total_size x <= bpow radix2 990 ->
  let n := INR (length x) in
  fisfin (nmean x) = true /\
  Rabs (B2R (nmean x) - exact_mean x) <= (n + 1) * bpow radix2 (-52) * (total_size x / n) + bpow radix2 (-1075).
Proof. intros x [N M] F T n. rewrite total_abs in *. exact (mean_err x N M F T). Qed.
Print Assumptions C91_mean_accuracy.

(** Clipping to limits that hold the losses only helps. *)
Lemma exact_mean_le x b : (1 <= length x)%nat -> Forall (fun v => B2R v <= b) x -> exact_mean x <= b.
Proof.
  intros N F. unfold exact_mean. assert (0 < INR (length x)) as P by (apply lt_0_INR; lia).
  apply Rmult_le_reg_r with (1 := P). unfold Rdiv. rewrite Rmult_assoc, Rinv_l, Rmult_1_r by lra.
  clear N P. unfold exact_sum. induction F as [|a l A F IH]; [cbn; lra|]. cbn [map fold_right length]. rewrite S_INR. lra.
Qed.
Lemma exact_mean_ge x b : (1 <= length x)%nat -> Forall (fun v => b <= B2R v) x -> b <= exact_mean x.
Proof.
  intros N F. unfold exact_mean. assert (0 < INR (length x)) as P by (apply lt_0_INR; lia).
  apply Rmult_le_reg_r with (1 := P). unfold Rdiv. rewrite Rmult_assoc, Rinv_l, Rmult_1_r by lra.
  clear N P. unfold exact_sum. induction F as [|a l A F IH]; [cbn; lra|]. cbn [map fold_right length]. rewrite S_INR. lra.
Qed.
Lemma clipped_closer x lower upper mu e :
  (1 <= length x)%nat -> Forall (fun v => fisfin v = true) x -> in_limits lower upper x ->
  fisfin (nmean x) = true -> Rabs (B2R (nmean x) - exact_mean x) <= e ->
  clip_chk isclose (nmean x) lower upper = Ok mu -> fisfin mu = true /\ Rabs (B2R mu - exact_mean x) <= e.
Proof.
  intros N F L Fm E H. unfold clip_chk in H. apply assert_ok in H as [_ H]. apply Ok_inj in H. subst mu.
  set (m := nmean x) in *. clearbody m. unfold nclip. cbn [nltb f64_num].
  destruct (fltb m lower) eqn:A.
  - assert (fisfin lower = true) as Fl.
    { destruct x as [|a x]; [cbn in N; lia|]. inversion F; subst. inversion L as [|? ? [L1 _] _]; subst.
      destruct lower as [?|[]| |?]; try reflexivity; destruct m as [?|[]| |?]; try discriminate; destruct a as [?|[]| |?]; discriminate. }
    split; [exact Fl|]. apply (fltb_fin m lower Fm Fl) in A.
    assert (B2R lower <= exact_mean x).
    { apply exact_mean_ge; [exact N|]. unfold in_limits in L. rewrite Forall_forall in *. intros v I. destruct (L v I) as [L1 _].
      apply fleb_fin; auto. }
    unfold Rabs in *. repeat destruct Rcase_abs; lra.
  - destruct (fltb upper m) eqn:B; [|split; assumption].
    assert (fisfin upper = true) as Fu.
    { destruct x as [|a x]; [cbn in N; lia|]. inversion F; subst. inversion L as [|? ? [_ L1] _]; subst.
      destruct upper as [?|[]| |?]; try reflexivity; destruct m as [?|[]| |?]; try discriminate; destruct a as [?|[]| |?]; discriminate. }
    split; [exact Fu|]. apply (fltb_fin upper m Fu Fm) in B.
    assert (exact_mean x <= B2R upper).
    { apply exact_mean_le; [exact N|]. unfold in_limits in L. rewrite Forall_forall in *. intros v I. destruct (L v I) as [_ L1].
      apply fleb_fin; auto. }
    unfold Rabs in *. repeat destruct Rcase_abs; lra.
Qed.

(** The mean reported by either estimator, for every method. *)
Theorem C91_reported_mean :
  forall (FT : fn f64) (counts : list (list Z)) (x : list f64) (confidence min_EB lower upper mu EB pval : f64) (method : eb_method),
  usual_length x -> Forall (fun v => fisfin v = true) x -> total_size x <= bpow radix2 990 ->
  get_mean_and_EB counts x confidence min_EB lower upper method = Ok (mu, EB) \/
  get_mean_EB_test counts x confidence min_EB lower upper method = Ok (mu, EB, pval) ->
  let n := INR (length x) in
  fisfin mu = true /\
  Rabs (B2R mu - exact_mean x) <= (n + 1) * bpow radix2 (-52) * (total_size x / n) + bpow radix2 (-1075).
Proof.
  intros FT counts x c me lower upper mu EB pval method U F T H n. destruct (C91_mean_accuracy x U F T) as [Fm E].
  assert (within lower upper x = true /\ clip_chk isclose (nmean x) lower upper = Ok mu) as [W C].
  { destruct H as [H|H]; [unfold get_mean_and_EB in H|unfold get_mean_EB_test in H]; apply assert_ok in H as [W H];
      apply bind_ok in H as (r & _ & H); apply bind_ok in H as (mu' & C & H); apply bind_ok in H as (eb & _ & H); apply Ok_inj in H;
      injection H; intros; subst; auto. }
  destruct U as [N M]. eapply clipped_closer; eauto. now apply of_within.
Qed.
Print Assumptions C91_reported_mean.

(** And the mean in every cell of a summary table, in both modes. *)
Theorem C91_table_means :
  forall (FT : fn f64) draw (t : loss_table_t f64) ref pairwise confidence method_EB limits out metric method c loss,
  loss_summary_table draw t ref pairwise confidence method_EB limits = Ok out -> In ((metric, method), c) out -> column t metric method loss ->
  usual_length loss -> Forall (fun v => fisfin v = true) loss -> total_size loss <= bpow radix2 990 ->
  let n := INR (length loss) in
  fisfin (cell_mean c) = true /\
  Rabs (B2R (cell_mean c) - exact_mean loss) <= (n + 1) * bpow radix2 (-52) * (total_size loss / n) + bpow radix2 (-1075).
Proof.
  intros FT draw t ref pw cf m limits out metric method c loss H I CL U F T n.
  destruct (C60_cells _ _ _ _ _ _ _ _ H) as [_ K]. destruct (K _ _ _ I) as (x & r & X & _ & D).
  rewrite (column_unique _ _ _ _ _ X CL) in D. destruct (limits_of limits metric). cbv zeta in D. destruct D as [-> _].
  now apply C91_mean_accuracy.
Qed.
Print Assumptions C91_table_means.

Example C91_example :
  (* 1, 2 and 4: the mean is within 4 * 2^-52 * 7/3 (and a denormal) of 7/3 *)
  let x := [f_of_Z 1; f_of_Z 2; f_of_Z 4] in
  usual_length x /\ Forall (fun v => fisfin v = true) x /\ total_size x <= bpow radix2 990 /\ exact_mean x = 7 / 3 /\
  milli (Ok (nmean x)) = Some 2333%Z /\
  milli (do r <- @get_mean_and_EB _ _ any_fn [] x (lit 95 100) f0 fninf finf Mt; Ok (fst r)) = Some 2333%Z.
Proof.
  cbv zeta. split; [split; cbn; [lia|lra]|]. split; [repeat constructor; reflexivity|].
  unfold total_size, exact_mean, exact_sum. cbn [map fold_right length]. rewrite !f_of_Z_val by lia. rewrite !Rabs_pos_eq by lra.
  split; [|split; [cbn; lra|split; vm_compute; reflexivity]].
  apply Rle_trans with (bpow radix2 3); [cbn; lra|apply bpow_le; lia].
Qed.
