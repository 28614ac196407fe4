(** Real-number consequences used by the statements of Props_Splitter.v. *)
From Coq Require Import Reals Lra Permutation Sorted.
From Verif Require Import PyBase F64 F64Lemmas DataSplitter SplitProofs SplitProofs2.
Open Scope Z_scope.
Open Scope list_scope.

Lemma piv_enough_R frac n : fisfin frac = true -> (0 <= B2R frac <= 1)%R -> 1 <= n <= 2 ^ 53 ->
  (B2R frac * IZR n <= IZR (piv_idx frac n + 1))%R.
Proof.
  intros F B Hn. pose proof (piv_idx_range frac n F B Hn) as PR.
  assert (1 <= IZR n)%R as Pn by (apply IZR_le; lia).
  unfold piv_idx in *. destruct (Z.min_spec (Zfloor (rnd64 (B2R frac * IZR n))) (n - 1)) as [[L E]|[L E]]; rewrite E in *.
  - assert (~ (IZR (Zfloor (rnd64 (B2R frac * IZR n)) + 1) < B2R frac * IZR n))%R as C.
    { intros C. set (k := Zfloor (rnd64 (B2R frac * IZR n))) in *.
      assert (IZR (k + 1) <= rnd64 (B2R frac * IZR n))%R as C2.
      { apply rnd64_ge; [apply format64_IZR; lia|lra]. }
      apply Zfloor_lub in C2. fold k in C2. lia. }
    lra.
  - replace (n - 1 + 1) with n by lia. nra.
Qed.

Lemma fdiv_lt_frac k n frac : fisfin frac = true -> 0 <= k <= n -> 1 <= n <= 2 ^ 53 ->
  (fltb (fdiv (f_of_Z k) (f_of_Z n)) frac = true <-> (rnd64 (IZR k / IZR n) < B2R frac)%R).
Proof.
  intros F Hk Hn. destruct (fdiv_nn k n Hk Hn) as [V FV]. rewrite fltb_fin by auto. now rewrite V.
Qed.

Lemma rnd_lt_exact x y : format64 y -> (rnd64 x < y)%R -> (x < y)%R.
Proof.
  intros G H. destruct (Rlt_le_dec x y); auto. exfalso.
  pose proof (rnd64_ge y x G r). lra.
Qed.

Lemma n_train_exact frac n : fisfin frac = true -> (0 <= B2R frac <= 1)%R -> 1 <= n <= 2 ^ 53 ->
  (piv_idx frac n =? 0) || fltb (fdiv (f_of_Z (piv_idx frac n)) (f_of_Z n)) frac = true ->
  piv_idx frac n + 1 = Z.max 1 (Zceil (B2R frac * IZR n)).
Proof.
  intros F B Hn H. pose proof (piv_idx_range frac n F B Hn) as PR.
  pose proof (piv_enough_R frac n F B Hn) as PE.
  set (k := piv_idx frac n) in *.
  assert (Zceil (B2R frac * IZR n) <= k + 1) as U by (apply Zceil_glb, PE).
  apply orb_true_iff in H as [H|H].
  - apply Z.eqb_eq in H. lia.
  - apply fdiv_lt_frac in H; auto; [|lia]. apply rnd_lt_exact in H; [|apply B2R_format].
    assert (1 <= IZR n)%R as Pn by (apply IZR_le; lia).
    assert (IZR k < B2R frac * IZR n)%R as L.
    { apply Rmult_lt_compat_r with (r := IZR n) in H; [|lra]. unfold Rdiv in H.
      rewrite Rmult_assoc, Rinv_l in H by lra. lra. }
    assert (k < Zceil (B2R frac * IZR n)) as L2.
    { apply lt_IZR. eapply Rlt_le_trans; [exact L|apply Zceil_ub]. }
    lia.
Qed.

(** frac * n an exact integer strictly between 0 and n: the code's second
    rounding assertion fails. *)
Lemma ordered_exact_fails frac n k : fisfin frac = true -> (0 <= B2R frac <= 1)%R -> 1 <= n <= 2 ^ 53 ->
  1 <= k <= n - 1 -> (B2R frac * IZR n = IZR k)%R ->
  (piv_idx frac n =? 0) || fltb (fdiv (f_of_Z (piv_idx frac n)) (f_of_Z n)) frac = false.
Proof.
  intros F B Hn Hk E.
  assert (1 <= IZR n)%R as Pn by (apply IZR_le; lia).
  assert (piv_idx frac n = k) as EP.
  { unfold piv_idx. rewrite E, rnd64_id by (apply format64_IZR; lia). rewrite Zfloor_IZR. lia. }
  rewrite EP. replace (k =? 0) with false by (symmetry; apply Z.eqb_neq; lia). cbn [orb].
  destruct (fltb _ frac) eqn:L; auto. exfalso. apply fdiv_lt_frac in L; auto; [|lia].
  apply rnd_lt_exact in L; [|apply B2R_format].
  assert (B2R frac = IZR k / IZR n)%R; [|lra].
  rewrite <- E. unfold Rdiv. rewrite Rmult_assoc, Rinv_r by lra. lra.
Qed.

Lemma format_pred1 : format64 (1 - bpow radix2 (-53)).
Proof.
  apply (generic_format_FLT radix2 (SpecFloat.emin prec64 emax64) prec64).
  apply FLT_spec with (Float radix2 (2 ^ 53 - 1) (-53)).
  - unfold F2R. cbn [Fnum Fexp]. rewrite minus_IZR.
    change (IZR (2 ^ 53)) with (IZR (radix2 ^ 53)). rewrite (IZR_Zpower radix2 53) by lia.
    rewrite Rmult_minus_distr_r, <- bpow_plus. simpl (bpow radix2 (53 + -53)). ring.
  - reflexivity.
  - cbn. unfold SpecFloat.emin, emax64, prec64. lia.
Qed.

Lemma ordered_one_accepts frac n : fisfin frac = true -> B2R frac = 1%R -> 1 <= n <= 2 ^ 53 ->
  (piv_idx frac n =? 0) || fltb (fdiv (f_of_Z (piv_idx frac n)) (f_of_Z n)) frac = true.
Proof.
  intros F E Hn.
  assert (1 <= IZR n)%R as Pn by (apply IZR_le; lia).
  assert (piv_idx frac n = n - 1) as EP.
  { unfold piv_idx. rewrite E, Rmult_1_l, rnd64_id by (apply format64_IZR; lia). rewrite Zfloor_IZR. lia. }
  rewrite EP. apply orb_true_iff. right. apply fdiv_lt_frac; auto; [lia|]. rewrite E.
  apply Rle_lt_trans with (1 - bpow radix2 (-53))%R.
  - apply rnd64_le; [apply format_pred1|]. rewrite minus_IZR.
    unfold Rdiv. rewrite Rmult_minus_distr_r, Rinv_r by lra.
    assert (bpow radix2 (-53) <= / IZR n)%R; [|lra].
    change (-53) with (- (53)). rewrite (bpow_opp radix2 53). apply Rinv_le; [lra|].
    rewrite <- (IZR_Zpower radix2 53) by lia. apply IZR_le. change (radix2 ^ 53)%Z with (2 ^ 53). lia.
  - pose proof (bpow_gt_0 radix2 (-53)). lra.
Qed.

Lemma ordered_zero_accepts frac n : B2R frac = 0%R -> 1 <= n <= 2 ^ 53 -> piv_idx frac n = 0.
Proof.
  intros E Hn. unfold piv_idx. rewrite E, Rmult_0_l, rnd64_0. change 0%R with (IZR 0). rewrite Zfloor_IZR. lia.
Qed.

(** ** Linear pivots at the two ends *)
Lemma linear_pivot_one s e frac : fisfin s = true -> fisfin e = true -> (B2R s <= B2R e)%R ->
  fisfin frac = true -> B2R frac = 1%R -> B2R (linear_pivot s e frac) = B2R e.
Proof.
  intros Fs Fe L F E.
  destruct (one_minus_fin frac F) as (F1 & V1 & B1); [lra|].
  rewrite E in V1. replace (1 - 1)%R with 0%R in V1 by lra. rewrite rnd64_0 in V1.
  destruct (unit_mul_fin (fsub f1 frac) s F1 B1 Fs) as [P1 W1]. rewrite V1, Rmult_0_l, rnd64_0 in W1.
  destruct (unit_mul_fin frac e F ltac:(lra) Fe) as [P2 W2]. rewrite E, Rmult_1_l, rnd64_id in W2 by apply B2R_format.
  destruct (fadd_correct _ _ P1 P2) as [V FV].
  { rewrite W1, W2, Rplus_0_l, rnd64_id by apply B2R_format. apply abs_B2R_lt_emax. }
  rewrite W1, W2, Rplus_0_l, rnd64_id in V by apply B2R_format.
  destruct (linear_pivot_range s e frac Fs Fe L F ltac:(lra)) as [FP _].
  unfold linear_pivot in *. set (q := fadd _ _) in *.
  destruct (fmin_spec q e (fisfin_notnan _ FV) (fisfin_notnan _ Fe)) as (N1 & K1 & _).
  destruct (fmax_spec s (fmin q e) (fisfin_notnan _ Fs) N1) as (N2 & K2 & _).
  rewrite <- fkey_fin by auto. rewrite K2, K1, !fkey_fin, V by auto. rewrite Rmin_left by lra. apply Rmax_right. lra.
Qed.

Lemma linear_pivot_zero s e frac : fisfin s = true -> fisfin e = true -> (B2R s <= B2R e)%R ->
  fisfin frac = true -> B2R frac = 0%R -> B2R (linear_pivot s e frac) = B2R s.
Proof.
  intros Fs Fe L F E.
  destruct (one_minus_fin frac F) as (F1 & V1 & B1); [lra|].
  rewrite E in V1. replace (1 - 0)%R with 1%R in V1 by lra. rewrite rnd64_1 in V1.
  destruct (unit_mul_fin (fsub f1 frac) s F1 B1 Fs) as [P1 W1]. rewrite V1, Rmult_1_l, rnd64_id in W1 by apply B2R_format.
  destruct (unit_mul_fin frac e F ltac:(lra) Fe) as [P2 W2]. rewrite E, Rmult_0_l, rnd64_0 in W2.
  destruct (fadd_correct _ _ P1 P2) as [V FV].
  { rewrite W1, W2, Rplus_0_r, rnd64_id by apply B2R_format. apply abs_B2R_lt_emax. }
  rewrite W1, W2, Rplus_0_r, rnd64_id in V by apply B2R_format.
  destruct (linear_pivot_range s e frac Fs Fe L F ltac:(lra)) as [FP _].
  unfold linear_pivot in *. set (q := fadd _ _) in *.
  destruct (fmin_spec q e (fisfin_notnan _ FV) (fisfin_notnan _ Fe)) as (N1 & K1 & _).
  destruct (fmax_spec s (fmin q e) (fisfin_notnan _ Fs) N1) as (N2 & K2 & _).
  rewrite <- fkey_fin by auto. rewrite K2, K1, !fkey_fin, V by auto. rewrite Rmin_left by lra. apply Rmax_right. lra.
Qed.

Lemma feqv_of_key x y : fisnan x = false -> fisnan y = false -> fkey x = fkey y -> feqv x y.
Proof.
  intros Nx Ny E. destruct (fisfin x) eqn:Fx; destruct (fisfin y) eqn:Fy.
  - apply feqv_of_B2R; auto. rewrite !fkey_fin in E by auto. exact E.
  - exfalso. rewrite fkey_fin in E by auto. pose proof (abs_lt_emax x).
    destruct y as [|[]| |]; try discriminate; cbn [fkey] in E; lra.
  - exfalso. rewrite (fkey_fin y) in E by auto. pose proof (abs_lt_emax y).
    destruct x as [|[]| |]; try discriminate; cbn [fkey] in E; lra.
  - left. pose proof bpow_emax_pos.
    destruct x as [|[]| |]; try discriminate; destruct y as [|[]| |]; try discriminate; auto; cbn [fkey] in E; lra.
Qed.

Lemma linear_hint S frac srt uniq : S <> [] ->
  (srt = true -> StronglySorted (fun a b => fleb a b = true) S) ->
  linear_split_series S frac srt uniq = linear_split_series S frac false false.
Proof.
  intros HE HS. unfold linear_split_series. fold (extremes S srt). fold (extremes S false).
  destruct (existsb fisnan S) eqn:EN; [reflexivity|]. cbn [negb py_assert bind].
  destruct (frac_ok frac); [|reflexivity]. cbn [py_assert bind].
  rewrite existsb_fisnan in EN.
  destruct (extremes_spec S srt HE EN HS) as (s & e & E1 & Is & Ie & M1).
  destruct (extremes_spec S false HE EN ltac:(discriminate)) as (s' & e' & E2 & Is' & Ie' & M2).
  rewrite E1, E2. cbn [bind].
  assert (feqv s s') as Qs.
  { apply feqv_of_key; auto. apply Rle_antisym; [apply M1|apply M2]; auto. }
  assert (feqv e e') as Qe.
  { apply feqv_of_key; auto. apply Rle_antisym; [apply M2|apply M1]; auto. }
  rewrite (feqv_fin _ _ Qs), (feqv_fin _ _ Qe).
  destruct (fisfin s' && fisfin e'); [|reflexivity]. cbn [py_assert bind].
  pose proof (linear_pivot_feqv s e s' e' frac Qs Qe) as QP.
  rewrite (fleb_feqv _ _ _ _ Qs QP), (fleb_feqv _ _ _ _ QP Qe).
  destruct (_ && _); [|reflexivity]. cbn [py_assert bind]. f_equal.
  apply map_ext. intros v. apply fleb_feqv; auto. now left.
Qed.
