(** Property theorems C72-C74 about regression.py. *)
From Coq Require Import Reals Lra Lia.
From Flocq Require Import Core BinarySingleNaN.
From Verif Require Import PyBase ListLemmas F64 Num F64Lemmas NumOk Util UtilProofs BootUtil BootProofs5 PerfCurves PerfProofs PerfProofs4 CurveBoot
  MLPaper MLProofs2 Checkpoint CheckpointProofs Classification Regression Benchmark RegrProofs ClassProofs5.
Open Scope R_scope.

(** ** C72 *)

(** valid inputs over the reals *)
Definition real_input (y mu std : list R) : Prop :=
  (1 <= length y)%nat /\ length mu = length y /\ length std = length y /\ Forall (fun s => 0 < s) std.

Lemma nth_map_Fin (l : list R) i x : nth_error l i = Some x -> nth_error (map Fin l) i = Some (Fin x).
Proof. intros H. now apply map_nth_error. Qed.
Lemma nth_map2 {A B C} (f : A -> B -> C) l m i a b : nth_error l i = Some a -> nth_error m i = Some b -> nth_error (map2 f l m) i = Some (f a b).
Proof.
  revert m i. induction l as [|x l IH]; intros [|y m] [|i]; cbn; try discriminate.
  - intros E1 E2. injection E1 as ->. injection E2 as ->. reflexivity.
  - apply IH.
Qed.
Lemma nth_combine {A B} (l : list A) (m : list B) i a b : nth_error l i = Some a -> nth_error m i = Some b -> nth_error (combine l m) i = Some (a, b).
Proof.
  revert m i. induction l as [|x l IH]; intros [|y m] [|i]; cbn; try discriminate.
  - intros E1 E2. injection E1 as ->. injection E2 as ->. reflexivity.
  - apply IH.
Qed.

Theorem C72_square_and_abs :
  forall y mu std, real_input y mu std ->
  exists sq ab, square_loss (map Fin y) (map Fin mu) (map Fin std) = Ok sq /\ abs_loss (map Fin y) (map Fin mu) (map Fin std) = Ok ab /\
  length sq = length y /\ length ab = length y /\
  forall i v m, nth_error y i = Some v -> nth_error mu i = Some m ->
  nth_error sq i = Some (Fin ((v - m) ^ 2)) /\ nth_error ab i = Some (Fin (Rabs (v - m))) /\
  0 <= (v - m) ^ 2 /\ 0 <= Rabs (v - m) /\ ((v - m) ^ 2 = 0 <-> v = m) /\ (Rabs (v - m) = 0 <-> v = m).
Proof.
  intros y mu std (L1 & L2 & L3 & F). eexists. eexists. split; [now apply square_loss_fin|]. split; [now apply abs_loss_fin|].
  rewrite !map_length, !map2_length. split; [lia|]. split; [lia|]. intros i v m Hv Hm.
  split; [rewrite (nth_map_Fin _ _ ((v - m) * (v - m))); [do 2 f_equal; ring|]; now apply (nth_map2 (fun a m => (a - m) * (a - m)))|].
  split; [apply nth_map_Fin; now apply (nth_map2 (fun a m => Rabs (a - m)))|].
  split; [apply pow2_ge_0|]. split; [apply Rabs_pos|]. split; split; intros H.
  - apply Rmult_integral in H. rewrite Rmult_1_r in H. lra.
  - subst. ring.
  - destruct (Req_dec (v - m) 0) as [E|E]; [lra|]. now apply Rabs_no_R0 in E.
  - subst. rewrite Rminus_diag_eq by reflexivity. apply Rabs_R0.
Qed.
Print Assumptions C72_square_and_abs.

(** negative log density of a Gaussian; [c] is scipy's constant log sqrt(2 pi) *)
Definition gauss_nll (c v m s : R) : R := (v - m) ^ 2 / (2 * s ^ 2) + c + ln s.
Lemma gauss_nll_form c v m s : 0 < s -> nll c v m s = gauss_nll c v m s.
Proof. intros H. unfold nll, gauss_nll. field. lra. Qed.

Theorem C72_log_loss :
  forall sf ppf c y mu std, real_input y mu std ->
  exists l, @r_log_loss _ _ (fn_xr sf ppf) (Fin c) (map Fin y) (map Fin mu) (map Fin std) = Ok l /\ length l = length y /\
  forall i v m s, nth_error y i = Some v -> nth_error mu i = Some m -> nth_error std i = Some s ->
  nth_error l i = Some (Fin (gauss_nll c v m s)) /\
  (forall m', gauss_nll c v v s <= gauss_nll c v m' s /\ (gauss_nll c v m' s = gauss_nll c v v s -> m' = v)) /\
  (v <> m -> forall s', 0 < s' -> gauss_nll c v m (Rabs (v - m)) <= gauss_nll c v m s' /\ (gauss_nll c v m s' = gauss_nll c v m (Rabs (v - m)) -> s' = Rabs (v - m))).
Proof.
  intros sf ppf c y mu std (L1 & L2 & L3 & F). eexists. split; [now apply r_log_loss_fin|]. rewrite map_length, map2_length, combine_length.
  split; [lia|]. intros i v m s Hv Hm Hs.
  assert (0 < s) as SP by (rewrite Forall_forall in F; apply F; eapply nth_error_In; eassumption).
  split; [|split].
  - rewrite <- gauss_nll_form by exact SP. apply nth_map_Fin.
    rewrite (nth_map2 _ _ _ _ _ _ Hv (nth_combine _ _ _ _ _ Hm Hs)). reflexivity.
  - intros m'. rewrite <- !gauss_nll_form by exact SP. apply (nll_mean c v m' s SP).
  - intros NE s' SP'. assert (0 < Rabs (v - m)) by (apply Rabs_pos_lt; lra). rewrite <- !gauss_nll_form by assumption. now apply nll_scale.
Qed.
Print Assumptions C72_log_loss.

(** Invalid inputs raise AssertionError in every loss, in any arithmetic. *)
Theorem C72_validation :
  forall (T : Type) (NT : num T) (FT : fn T) logC y mu std,
  (y = [] \/ length mu <> length y \/ length std <> length y \/ Exists (fun a => nisfin a = false) (y ++ mu ++ std) \/ Exists (fun s => nltb n0 s = false) std) ->
  square_loss y mu std = Err AssertionError /\ abs_loss y mu std = Err AssertionError /\ r_log_loss logC y mu std = Err AssertionError.
Proof.
  intros T NT FT logC y mu std H.
  assert (~ valid_r y mu std) as NV.
  { intros (V1 & V2 & V3 & V4 & V5 & V6 & V7). destruct H as [->|[H|[H|[H|H]]]]; [cbn in V1; lia|lia|lia| |].
    - apply Exists_exists in H as (a & Ha & E). rewrite !in_app_iff in Ha. rewrite Forall_forall in V4, V5, V6.
      destruct Ha as [Ha|[Ha|Ha]]; [rewrite V4 in E by exact Ha|rewrite V5 in E by exact Ha|rewrite V6 in E by exact Ha]; discriminate.
    - apply Exists_exists in H as (a & Ha & E). rewrite Forall_forall in V7. rewrite V7 in E by exact Ha. discriminate. }
  unfold square_loss, abs_loss, r_log_loss. rewrite (r_validate_err y mu std NV). auto.
Qed.
Print Assumptions C72_validation.

(** IEEE doubles: the absolute loss is never NaN or negative, and 0 exactly for
    equal numbers; the square loss of equal numbers is 0. *)
Lemma fsub_nonnan x y : fisfin x = true -> fisfin y = true -> fisnan (fsub x y) = false.
Proof.
  intros Hx Hy. destruct (fisnan (fsub x y)) eqn:E; [|reflexivity]. exfalso.
  pose proof (Bminus_correct prec64 emax64 _ _ mode_NE x y Hx Hy) as C. cbv zeta in C. fold (fsub x y) in C.
  destruct (Rlt_bool _ _).
  - destruct C as (_ & F & _). destruct (fsub x y); discriminate.
  - destruct C as (C & _). unfold fisnan in E. destruct (fsub x y); try discriminate.
Qed.
Lemma fabs_spec d : fisnan d = false -> fleb f0 (nabs d) = true /\ (feqb (nabs d) f0 = true <-> feqb d f0 = true).
Proof.
  intros N. unfold nabs. change (nleb d n0) with (fleb d f0). change (nsub n0 d) with (fsub f0 d).
  destruct (fleb d f0) eqn:L.
  - destruct d as [s|s| |s m e H]; try discriminate.
    + destruct s; split; try reflexivity; split; reflexivity.
    + destruct s; [split; [reflexivity|split; discriminate]|discriminate].
    + set (d := B754_finite s m e H) in *.
      assert (B2R d <= B2R f0) as LR by (apply fleb_fin in L; [exact L|reflexivity|reflexivity]).
      destruct (fsub_sign d f0 eq_refl eq_refl) as (P1 & P2). split; [apply P2; lra|]. split; intros E.
      * apply not_false_iff_true. intros E0. assert (fltb f0 (fsub f0 d) = true) as Q.
        { apply P1. apply Rle_lt_or_eq_dec in LR as [LR|LR]; [exact LR|].
          assert (feqb d f0 = true) as C by (apply feqb_fin; [reflexivity|reflexivity|exact LR]). congruence. }
        pose proof (fltb_notnan _ _ Q) as (_ & N'). apply feqb_key in E; [|exact N'|reflexivity]. apply fltb_key in Q; [|reflexivity|exact N']. lra.
      * exfalso. apply feqb_fin in E; [|reflexivity|reflexivity]. cbn [B2R f0] in E. apply eq_0_F2R in E. destruct s; discriminate.
  - split; [|tauto]. apply fleb_false_lt in L; [|exact N|reflexivity]. apply fleb_key; [reflexivity|exact N|lra].
Qed.
Lemma fsquare_spec d : fisnan d = false -> fleb f0 (fmul d d) = true /\ (feqb d f0 = true -> feqb (fmul d d) f0 = true).
Proof.
  intros N. destruct d as [s|s| |s m e H]; try discriminate.
  - destruct s; split; reflexivity.
  - destruct s; split; try reflexivity; discriminate.
  - set (d := B754_finite s m e H) in *. split.
    + pose proof (Bmult_correct prec64 emax64 _ _ mode_NE d d) as C. cbv zeta in C. fold (fmul d d) in C.
      assert (0 <= round radix2 (SpecFloat.fexp prec64 emax64) (round_mode mode_NE) (B2R d * B2R d)) as NN.
      { rewrite <- rnd64_0. apply rnd64_mono. apply Rle_0_sqr. }
      destruct (Rlt_bool _ _).
      * destruct C as (C & F & _). apply fleb_fin; [reflexivity|exact F|]. cbn [B2R f0]. rewrite C. exact NN.
      * change (Bsign d) with s in C. rewrite xorb_nilpotent in C. destruct (fmul d d) as [?|[]| |?]; try discriminate. reflexivity.
    + intros E. exfalso. apply feqb_fin in E; [|reflexivity|reflexivity]. cbn in E. apply eq_0_F2R in E. destruct s; discriminate.
Qed.

Theorem C72_doubles :
  forall y mu std : list f64, valid_r y mu std ->
  exists sq ab, square_loss y mu std = Ok sq /\ abs_loss y mu std = Ok ab /\ length sq = length y /\ length ab = length y /\
  forall i v m, nth_error y i = Some v -> nth_error mu i = Some m ->
  exists s a, nth_error sq i = Some s /\ nth_error ab i = Some a /\ fleb f0 s = true /\ fleb f0 a = true /\
    (feqb a f0 = true <-> feqb v m = true) /\ (feqb v m = true -> feqb s f0 = true).
Proof.
  intros y mu std V. pose proof V as (V1 & V2 & V3 & V4 & V5 & V6 & V7).
  unfold square_loss, abs_loss. rewrite (proj2 (r_validate_iff y mu std) V). cbn [bind]. eexists. eexists. split; [reflexivity|]. split; [reflexivity|].
  rewrite !map2_length. split; [lia|]. split; [lia|]. intros i v m Hv Hm.
  rewrite Forall_forall in V4, V5. assert (fisfin v = true) as FV by (apply V4; eapply nth_error_In; eassumption).
  assert (fisfin m = true) as FM by (apply V5; eapply nth_error_In; eassumption).
  pose proof (fsub_nonnan v m FV FM) as N. destruct (fabs_spec _ N) as (A1 & A2). destruct (fsquare_spec _ N) as (S1 & S2).
  assert (feqb (fsub v m) f0 = feqb m v) as Z by (exact (diff_zero m v FM FV)).
  assert (feqb m v = feqb v m) as SY.
  { apply bool_iff with (P := B2R v = B2R m); [|now apply feqb_fin]. split; intros H; [symmetry|]; apply feqb_fin; auto. }
  exists (fmul (fsub v m) (fsub v m)), (nabs (fsub v m)).
  split; [now rewrite (nth_map2 _ _ _ _ _ _ Hv Hm)|]. split; [now rewrite (nth_map2 _ _ _ _ _ _ Hv Hm)|].
  split; [exact S1|]. split; [exact A1|]. split.
  - rewrite A2, Z, SY. reflexivity.
  - intros E. apply S2. now rewrite Z, SY.
Qed.
Print Assumptions C72_doubles.

(** but the square loss of different doubles can be 0 *)
Theorem C72_square_zero_doubles_refuted :
  exists v m std : f64, valid_r [v] [m] [std] /\ feqb v m = false /\
  exists s, square_loss [v] [m] [std] = Ok [s] /\ feqb s f0 = true.
Proof.
  exists (f_of_me 1 (-600)), f0, (f_of_Z 1).
  assert (valid_r [f_of_me 1 (-600)] [f0] [f_of_Z 1]) as V.
  { split; [cbn; lia|]. split; [reflexivity|]. split; [reflexivity|].
    repeat split; (apply Forall_cons; [vm_compute; reflexivity|apply Forall_nil]). }
  split; [exact V|]. split; [vm_compute; reflexivity|]. unfold square_loss. rewrite (proj2 (r_validate_iff _ _ _) V). cbn [bind map2].
  eexists. split; [reflexivity|]. vm_compute. reflexivity.
Qed.
Print Assumptions C72_square_zero_doubles_refuted.

Example C72_example : real_input [1; 2] [1; 5 / 2] [1; 3] /\ valid_r [f_of_Z 1; f_lit 1 3] [f_of_Z 1; f_lit 1 10] [f_of_Z 1; f_of_Z 2].
Proof.
  split.
  - split; [cbn; lia|]. split; [reflexivity|]. split; [reflexivity|]. repeat constructor; lra.
  - split; [cbn; lia|]. split; [reflexivity|]. split; [reflexivity|].
    repeat split; repeat (apply Forall_cons; [vm_compute; reflexivity|]); apply Forall_nil.
Qed.

(** ** C73 *)
Section C73.
  Context (sf ppf : Z -> R -> R).
  Notation r_noise_fit_ := (@r_noise_fit _ _ (fn_xr sf ppf)).
  Notation r_log_loss_ := (@r_log_loss _ _ (fn_xr sf ppf)).
  (** mean loss on [y] of predicting N(m, s) for every point *)
  Definition mean_square (y : list R) (m : R) : option R :=
    match square_loss (map Fin y) (repeat (Fin m) (length y)) (repeat (Fin 1) (length y)) with
    | Ok l => match nmean l with Fin x => Some x | _ => None end
    | Err _ => None
    end.
  Definition mean_log (c : R) (y : list R) (m s : R) : option R :=
    match r_log_loss_ (Fin c) (map Fin y) (repeat (Fin m) (length y)) (repeat (Fin s) (length y)) with
    | Ok l => match nmean l with Fin x => Some x | _ => None end
    | Err _ => None
    end.

  Lemma repeat_fin (x : R) n : repeat (Fin x) n = map Fin (repeat x n).
  Proof. induction n; cbn; congruence. Qed.
  Lemma map2_repeat {A B C} (f : A -> B -> C) l b : map2 f l (repeat b (length l)) = map (fun a => f a b) l.
  Proof. induction l; cbn; congruence. Qed.
  Lemma combine_repeat {A B} (a : A) (b : B) n : combine (repeat a n) (repeat b n) = repeat (a, b) n.
  Proof. induction n; cbn; congruence. Qed.
  Lemma Forall_repeat {A} (P : A -> Prop) a n : P a -> Forall P (repeat a n).
  Proof. intros H. apply Forall_forall. intros x Hx. apply repeat_spec in Hx. now subst. Qed.

  Lemma mean_square_form y m : y <> [] -> mean_square y m = Some (rmean (map (fun a => (a - m) * (a - m)) y)).
  Proof.
    intros NE. assert (1 <= length y)%nat by (destruct y; [contradiction|cbn; lia]). unfold mean_square. rewrite !repeat_fin.
    rewrite square_loss_fin by (first [assumption|apply repeat_length|apply Forall_repeat; lra]). rewrite map2_repeat, nmean_r; [reflexivity|].
    destruct y; [contradiction|discriminate].
  Qed.
  Lemma mean_log_form c y m s : y <> [] -> 0 < s -> mean_log c y m s = Some (rmean (map (fun a => nll c a m s) y)).
  Proof.
    intros NE SP. assert (1 <= length y)%nat by (destruct y; [contradiction|cbn; lia]). unfold mean_log. rewrite !repeat_fin.
    rewrite r_log_loss_fin by (first [assumption|apply repeat_length|now apply Forall_repeat]). rewrite combine_repeat, map2_repeat, nmean_r; [reflexivity|].
    destruct y; [contradiction|discriminate].
  Qed.

  Theorem C73_noise_fit :
    forall y, (2 <= length y)%nat ->
    exists m s, r_noise_fit_ (map Fin y) = Ok (Fin m, Fin s) /\
    m = Rsum y / INR (length y) /\ s = sqrt (Rsum (map (fun a => (a - m) ^ 2) y) / INR (length y)) /\
    (forall n, r_noise_predict (Fin m, Fin s) n = (repeat (Fin m) n, repeat (Fin s) n)) /\
    (* best constant prediction for the square loss *)
    (exists e, mean_square y m = Some e /\ forall m', exists e', mean_square y m' = Some e' /\ e <= e' /\ (e' = e -> m' = m)) /\
    (* best constant Gaussian for the log loss *)
    (forall a b, In a y -> In b y -> a <> b -> 0 < s /\
      forall c, exists e, mean_log c y m s = Some e /\
      forall m' s', 0 < s' -> exists e', mean_log c y m' s' = Some e' /\ e <= e' /\ (e' = e -> m' = m /\ s' = s)).
  Proof.
    intros y L2. assert (y <> []) as NE by (intros ->; cbn in L2; lia).
    assert (0 < INR (length y)) as NP by (apply lt_0_INR; lia).
    exists (rmean y), (b_dev y). split; [|split; [reflexivity|split; [|split; [reflexivity|split]]]].
    - unfold r_noise_fit. rewrite map_length. replace (2 <=? length y)%nat with true by (symmetry; now apply Nat.leb_le). cbn [py_assert bind].
      rewrite nmean_r by exact NE. f_equal. f_equal. apply (nstd0_fin sf ppf y NE).
    - unfold b_dev, rss. do 3 f_equal. apply map_ext. intros a. ring.
    - rewrite mean_square_form by exact NE. eexists. split; [reflexivity|]. intros m'. rewrite mean_square_form by exact NE. eexists. split; [reflexivity|].
      assert (forall t, rmean (map (fun a => (a - t) * (a - t)) y) = rss y / INR (length y) + (rmean y - t) * (rmean y - t)) as D.
      { intros t. unfold rmean at 1. rewrite map_length, ss_shift by exact NE. field. lra. }
      rewrite !D.
      pose proof (Rle_0_sqr (rmean y - m')) as Q. unfold Rsqr in Q. split; [rewrite (Rminus_diag_eq (rmean y) (rmean y)) by reflexivity; lra|].
      intros E. rewrite (Rminus_diag_eq (rmean y) (rmean y)) in E by reflexivity. assert ((rmean y - m') * (rmean y - m') = 0) as Z by lra.
      apply Rmult_integral in Z. lra.
    - intros a b Ha Hb AB.
      assert (0 < rss y / INR (length y)) as VP.
      { apply Rdiv_lt_0_compat; [|exact NP]. destruct (rss_nonneg y) as [H|H]; [exact H|]. exfalso. apply AB. symmetry in H. now apply (proj1 (rss_zero_iff y NE) H). }
      assert (0 < b_dev y) as SP by (unfold b_dev; now apply sqrt_lt_R0). split; [exact SP|].
      assert (rss y / INR (length y) = b_dev y * b_dev y) as SQ by (unfold b_dev; rewrite sqrt_sqrt; lra).
      intros c. rewrite mean_log_form by assumption. eexists. split; [reflexivity|]. intros m' s' SP'. rewrite mean_log_form by assumption.
      eexists. split; [reflexivity|]. rewrite !mean_nll by assumption. rewrite (Rminus_diag_eq (rmean y) (rmean y)) by reflexivity. rewrite SQ.
      replace ((b_dev y * b_dev y + 0 * 0) / (b_dev y * b_dev y) / 2) with (1 / 2) by (field; lra).
      set (v := b_dev y * b_dev y) in *. set (q := (rmean y - m') * (rmean y - m')).
      assert (0 <= q) as Q by (apply Rle_0_sqr). assert (0 < s' * s') as SS by (now apply Rmult_lt_0_compat).
      replace ((v + q) / (s' * s') / 2) with (v / (s' * s') / 2 + q / (s' * s') / 2) by (field; lra).
      destruct (scale_opt v (b_dev y) s' SP eq_refl SP') as (O1 & O2).
      assert (0 <= q / (s' * s')) as Q2 by (apply Rmult_le_pos; [exact Q|]; left; now apply Rinv_0_lt_compat).
      split; [lra|]. intros E. assert (q / (s' * s') = 0) as Z by lra. split.
      + apply Rmult_integral in Z as [Z|Z]; [|pose proof (Rinv_0_lt_compat _ SS); lra]. unfold q in Z. apply Rmult_integral in Z. lra.
      + apply O2. lra.
  Qed.

  (** On constant data the predicted standard deviation is 0 and every loss
      function raises, unless a positive [min_std] replaces it. *)
  Theorem C73_constant_data :
    forall a n k c, (2 <= n)%nat -> (1 <= k)%nat ->
    exists s, r_noise_fit_ (map Fin (repeat a n)) = Ok (Fin a, Fin s) /\ s = 0 /\
    forall y, length y = k -> let p := r_noise_predict (Fin a, Fin s) k in
      square_loss y (fst p) (snd p) = Err AssertionError /\ abs_loss y (fst p) (snd p) = Err AssertionError /\ r_log_loss_ (Fin c) y (fst p) (snd p) = Err AssertionError.
  Proof.
    intros a n k c N2 K1. set (y0 := repeat a n). assert (length y0 = n) as LY by apply repeat_length.
    assert (y0 <> []) as NE by (intros E; rewrite E in LY; cbn in LY; lia).
    assert (rmean y0 = a) as EM.
    { unfold rmean, y0. rewrite Rsum_repeat, repeat_length. field. apply not_0_INR. lia. }
    assert (rss y0 = 0) as EV.
    { apply rss_zero_iff; [exact NE|]. intros x z Hx Hz. unfold y0 in *. apply repeat_spec in Hx, Hz. congruence. }
    exists 0. split; [|split; [reflexivity|]].
    - unfold r_noise_fit. rewrite map_length, LY. replace (2 <=? n)%nat with true by (symmetry; now apply Nat.leb_le). cbn [py_assert bind].
      rewrite nmean_r by exact NE. rewrite EM. f_equal. f_equal.
      etransitivity; [apply (nstd0_fin sf ppf y0 NE)|]. unfold b_dev. rewrite EV. unfold Rdiv. now rewrite Rmult_0_l, sqrt_0.
    - intros y Ly p. apply C72_validation. right. right. right. right. cbn [snd p r_noise_predict]. destruct k; [lia|]. cbn [repeat]. constructor.
      apply Rltb_false. lra.
  Qed.

  (** fewer than two training points raise *)
  Theorem C73_too_few : forall (y : list xr), (length y < 2)%nat -> r_noise_fit_ y = Err AssertionError.
  Proof. intros [|a [|b y]] H; cbn in H; try lia; reflexivity. Qed.
End C73.
Print Assumptions C73_noise_fit.
Print Assumptions C73_constant_data.
Print Assumptions C73_too_few.

Example C73_example : (2 <= length [1; 2; 4])%nat /\ In 1 [1; 2; 4] /\ In 2 [1; 2; 4] /\ 1 <> 2.
Proof. split; [cbn; lia|]. split; [now left|]. split; [now right; left|lra]. Qed.

(** ** C74 *)

(** In any arithmetic (doubles included). *)
Theorem C74_min_std :
  forall (T : Type) (NT : num T) (OK : num_ok NT) (S X : Type) key_eqb (o : regressor T S X) Xtr ytr Xte methods (min_std : T) tbl name s mu std out,
  get_gauss_pred key_eqb o false [] Xtr ytr Xte methods min_std = Ok tbl -> NoDup (map fst methods) -> In (name, s) methods ->
  r_train_predict o s (fa_data Xtr, ytr, fa_data Xte) = Ok (mu, std) -> In (name, out) (gt_methods tbl) ->
  fst out = mu /\ length mu = gt_len tbl /\
  Forall2 (fun s s' => (nisnan s = false -> nleb min_std s' = true) /\ (nisnan s = true -> s' = s) /\
                       (nltb min_std s = true -> s' = s) /\ (nleb s min_std = true -> s' = min_std)) std (snd out).
Proof.
  intros T NT OK S X key_eqb o Xtr ytr Xte methods ms tbl name s mu std out E ND IM ET IO.
  apply get_gauss_inv in E as (_ & _ & NM & F).
  destruct (Forall2_in_r _ _ _ _ F IO) as ((name', s') & IM' & H1 & mu' & std' & H2 & H3 & H4 & H5). cbn [fst snd] in *. subst name'.
  assert (s' = s) as -> by (eapply NoDup_fst_inj; eassumption). rewrite ET in H2. apply Ok_inj in H2. injection H2 as <- <-.
  rewrite H5. cbn [fst snd]. split; [reflexivity|]. split; [exact H3|]. pose proof (leb_notnan_ _ _ NM) as (_ & MN). clear -MN OK.
  induction std as [|x std IH]; cbn [map]; constructor; [|exact IH]. unfold nmax. rewrite MN, orb_false_r. repeat split.
  - intros N. destruct (nleb x ms) eqn:L; [now apply leb_refl_|]. destruct (leb_total_ x ms N MN) as [H|H]; [congruence|exact H].
  - intros N. destruct (nleb x ms) eqn:L; [|reflexivity]. apply leb_notnan_ in L as (L & _). congruence.
  - intros L. pose proof (ltb_notnan_ _ _ L) as (_ & N). rewrite ltb_leb_ in L by assumption. now destruct (nleb x ms).
  - intros ->. reflexivity.
Qed.
Print Assumptions C74_min_std.

(** With a positive floor every log loss of real predictions is a real number. *)
Theorem C74_finite_log_loss :
  forall sf ppf c (S X : Type) key_eqb (o : regressor xr S X) Xtr ytr Xte methods min_std tbl name s mu std out y,
  0 < min_std -> get_gauss_pred key_eqb o false [] Xtr ytr Xte methods (Fin min_std) = Ok tbl -> NoDup (map fst methods) -> In (name, s) methods ->
  r_train_predict o s (fa_data Xtr, ytr, fa_data Xte) = Ok (map Fin mu, map Fin std) -> In (name, out) (gt_methods tbl) -> length y = gt_len tbl ->
  exists l, @r_log_loss _ _ (fn_xr sf ppf) (Fin c) (map Fin y) (fst out) (snd out) = Ok (map Fin l) /\ length l = length y /\
  square_loss (map Fin y) (fst out) (snd out) <> Err AssertionError /\ abs_loss (map Fin y) (fst out) (snd out) <> Err AssertionError /\
  (* no loss falls below that of a perfect mean with the smallest deviation *)
  Forall (fun x => c + ln min_std <= x) l.
Proof.
  intros sf ppf c S X key_eqb o Xtr ytr Xte methods ms tbl name s mu std out y MP E ND IM ET IO LY.
  apply get_gauss_inv in E as (_ & L1 & NM & F).
  destruct (Forall2_in_r _ _ _ _ F IO) as ((name', s') & IM' & H1 & mu' & std' & H2 & H3 & H4 & H5). cbn [fst snd] in *. subst name'.
  assert (s' = s) as -> by (eapply NoDup_fst_inj; eassumption). rewrite ET in H2. apply Ok_inj in H2. injection H2 as <- <-.
  rewrite H5. cbn [fst snd]. rewrite map_length in H3, H4. clear -MP L1 H3 H4 LY.
  assert (map (nmax (Fin ms)) (map Fin std) = map Fin (map (Rmax ms) std)) as ->.
  { rewrite !map_map. apply map_ext. intros a. unfold nmax. cbn. rewrite orb_false_r. unfold Rmax. destruct (Rleb a ms) eqn:L.
    - apply Rleb_spec in L. destruct (Rle_dec ms a); [f_equal; lra|reflexivity].
    - apply Rleb_false in L. destruct (Rle_dec ms a); [reflexivity|lra]. }
  assert (Forall (fun x => ms <= x) (map (Rmax ms) std)) as GE.
  { apply Forall_forall. intros x Hx. apply in_map_iff in Hx as (a & <- & _). apply Rmax_l. }
  assert (Forall (fun x => 0 < x) (map (Rmax ms) std)) as GP by (eapply Forall_impl; [|exact GE]; intros; cbn in *; lra).
  eexists. split; [apply r_log_loss_fin; first [rewrite map_length; lia|lia|exact GP]|]. split; [rewrite map2_length, combine_length, map_length; lia|].
  split; [rewrite square_loss_fin by (first [rewrite map_length; lia|lia|exact GP]); discriminate|].
  split; [rewrite abs_loss_fin by (first [rewrite map_length; lia|lia|exact GP]); discriminate|].
  assert (forall (l1 l2 l3 : list R), Forall (fun x => ms <= x) l3 -> Forall (fun x => c + ln ms <= x) (map2 (fun a p => nll c a (fst p) (snd p)) l1 (combine l2 l3))) as K; [|now apply K].
  clear -MP. intros l1 l2 l3 F. revert l1 l2. induction F as [|x l3 Hx F IH]; intros [|a l1] [|b l2]; cbn; try constructor; [|apply IH].
  unfold nll. pose proof (Rle_0_sqr ((a - b) / x)) as Q. unfold Rsqr in Q.
  assert (ln ms <= ln x); [|lra]. destruct Hx as [Hx|Hx]; [left; now apply ln_increasing|right; now f_equal].
Qed.
Print Assumptions C74_finite_log_loss.

(** an estimator that always predicts N(1, 0) for a single point *)
Definition const_regressor : regressor xr unit unit :=
  {| rg_fit := fun s _ _ => Ok s; rg_predict_std := fun _ _ => Ok ([Fin 1], [Fin 0]); rg_predict := fun _ _ => Ok [Fin 1] |}.
Example C74_example : exists tbl out,
  get_gauss_pred (fun _ _ => true) const_regressor false [] {| fa_shape := [1; 1]%Z; fa_kind := Kf; fa_data := tt |} [Fin 0]
    {| fa_shape := [1; 1]%Z; fa_kind := Kf; fa_data := tt |} [(["a"%char], tt)] (Fin 2) = Ok tbl /\
  r_train_predict const_regressor tt (tt, [Fin 0], tt) = Ok (map Fin [1], map Fin [0]) /\ In (["a"%char], out) (gt_methods tbl) /\ snd out = [Fin 2] /\ gt_len tbl = 1%nat.
Proof.
  assert (Rleb 0 2 = true) as H by (apply Rleb_spec; lra).
  unfold get_gauss_pred, r_checks. cbn. rewrite H. cbn. eexists. eexists. split; [reflexivity|]. split; [reflexivity|]. split; [now left|]. cbn.
  unfold nmax. cbn. rewrite H. split; reflexivity.
Qed.
