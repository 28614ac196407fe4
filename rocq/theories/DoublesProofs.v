(** The statistics of mlpaper.py in doubles: no overflow, no NaN and no failing
    assertion for up to 2^30 losses of moderate size. *)
From Coq Require Import Reals Lra Lia Permutation.
From Flocq Require Import Core BinarySingleNaN.
From Verif Require Import PyBase ListLemmas F64 F64Lemmas Num NumOk SumProofs Util UtilProofs BootUtil BootProofs2 PerfCurves PerfProofs7 MLPaper MLProofs CompareProofs
  SwapProofs MeanProofs.
Open Scope R_scope.

(** ** Doubles of bounded size *)
Definition bdd (k : Z) (x : f64) : Prop := exists r, v64 x = Fin r /\ Rabs r <= P2 k.
Definition nng (k : Z) (x : f64) : Prop := exists r, v64 x = Fin r /\ 0 <= r <= P2 k.

Lemma bdd_fin k x : bdd k x -> fisfin x = true.
Proof. intros (r & H & _). now apply v64_Fin in H. Qed.
Lemma bdd_iff k x : bdd k x <-> fisfin x = true /\ Rabs (B2R x) <= P2 k.
Proof.
  split.
  - intros (r & H & R). apply v64_Fin in H as [F <-]. auto.
  - intros [F R]. exists (B2R x). split; [now apply v64_fin|exact R].
Qed.
Lemma nng_bdd k x : nng k x -> bdd k x.
Proof. intros (r & H & R). exists r. split; [exact H|]. rewrite Rabs_pos_eq; lra. Qed.
Lemma bdd_le j k x : bdd j x -> (j <= k)%Z -> bdd k x.
Proof. intros (r & H & R) L. exists r. split; [exact H|]. eapply Rle_trans; [exact R|]. now apply bpow_le. Qed.
Lemma nng_le j k x : nng j x -> (j <= k)%Z -> nng k x.
Proof. intros (r & H & R) L. exists r. split; [exact H|]. pose proof (bpow_le radix2 _ _ L). lra. Qed.
Lemma nng_leb0 k x : nng k x -> fleb f0 x = true.
Proof. intros (r & H & R). rewrite v64_leb, H. change (v64 f0) with (Fin 0). cbn. apply Rleb_spec. lra. Qed.
Lemma nng_iff k x : nng k x <-> bdd k x /\ fleb f0 x = true.
Proof.
  split; [intros H; split; [now apply nng_bdd|now apply (nng_leb0 k)]|]. intros [(r & H & R) L]. exists r. split; [exact H|].
  rewrite v64_leb, H in L. change (v64 f0) with (Fin 0) in L. cbn in L. apply Rleb_spec in L. split; [exact L|]. now rewrite Rabs_pos_eq in R.
Qed.

Lemma format_P2 k : (-1074 <= k)%Z -> format64 (P2 k).
Proof. intros H. apply generic_format_bpow. unfold FLT_exp, SpecFloat.fexp, SpecFloat.emin, prec64, emax64. lia. Qed.

Lemma rnd_bdd r k : Rabs r <= P2 k -> (-1074 <= k <= 1000)%Z -> xround r = Fin (rnd64 r) /\ Rabs (rnd64 r) <= P2 k.
Proof.
  intros R K. split; [apply xround_ok; eapply Rle_trans; [exact R|apply bpow_le; lia]|].
  pose proof (format_P2 k ltac:(lia)) as F. apply Rabs_le_inv in R. apply Rabs_le. split.
  - rewrite <- (rnd64_id (P2 k)) at 1 by exact F. rewrite <- rnd64_opp. apply rnd64_mono. lra.
  - apply rnd64_le; [exact F|lra].
Qed.
Lemma rnd_nng r k : 0 <= r <= P2 k -> (-1074 <= k <= 1000)%Z -> xround r = Fin (rnd64 r) /\ 0 <= rnd64 r <= P2 k.
Proof.
  intros R K. destruct (rnd_bdd r k) as [E B]; [now rewrite Rabs_pos_eq by lra|exact K|]. split; [exact E|].
  assert (0 <= rnd64 r) by (apply rnd64_ge; [apply format64_0|lra]). rewrite Rabs_pos_eq in B; lra.
Qed.

Lemma P2_S k : P2 (k + 1) = P2 k + P2 k.
Proof. rewrite bpow_plus. change (P2 1) with 2. lra. Qed.
Lemma bdd_add j x y : bdd j x -> bdd j y -> (-1074 <= j <= 999)%Z -> bdd (j + 1) (fadd x y).
Proof.
  intros (r & Er & R) (s & Es & S) J. unfold bdd. rewrite v64_add, Er, Es. cbn [xr2].
  destruct (rnd_bdd (r + s) (j + 1)) as [-> B]; [|lia|eauto]. rewrite P2_S. pose proof (Rabs_triang r s). lra.
Qed.
Lemma bdd_sub j x y : bdd j x -> bdd j y -> (-1074 <= j <= 999)%Z -> bdd (j + 1) (fsub x y).
Proof.
  intros (r & Er & R) (s & Es & S) J. unfold bdd. rewrite v64_sub, Er, Es. cbn [xr2].
  destruct (rnd_bdd (r - s) (j + 1)) as [-> B]; [|lia|eauto]. rewrite P2_S. pose proof (Rabs_triang r (- s)). rewrite Rabs_Ropp in *. unfold Rminus. lra.
Qed.
Lemma bdd_mul j k x y : bdd j x -> bdd k y -> (-1074 <= j + k <= 1000)%Z -> bdd (j + k) (fmul x y).
Proof.
  intros (r & Er & R) (s & Es & S) J. unfold bdd. rewrite v64_mul, Er, Es. cbn [xr2].
  destruct (rnd_bdd (r * s) (j + k)) as [-> B]; [|lia|eauto]. rewrite Rabs_mult, bpow_plus. apply Rmult_le_compat; auto using Rabs_pos.
Qed.
Lemma nng_mul j k x y : nng j x -> nng k y -> (-1074 <= j + k <= 1000)%Z -> nng (j + k) (fmul x y).
Proof.
  intros (r & Er & R) (s & Es & S) J. unfold nng. rewrite v64_mul, Er, Es. cbn [xr2].
  destruct (rnd_nng (r * s) (j + k)) as [-> B]; [|lia|eauto]. split; [apply Rmult_le_pos; lra|]. rewrite bpow_plus. apply Rmult_le_compat; lra.
Qed.
Lemma nng_sq j x : bdd j x -> (-1074 <= j + j <= 1000)%Z -> nng (j + j) (fmul x x).
Proof.
  intros (r & Er & R) J. unfold nng. rewrite v64_mul, Er. cbn [xr2].
  destruct (rnd_nng (r * r) (j + j)) as [-> B]; [|lia|eauto]. split; [nra|]. rewrite bpow_plus. apply Rabs_le_inv in R. nra.
Qed.
Lemma nng_add j x y : nng j x -> nng j y -> (-1074 <= j <= 999)%Z -> nng (j + 1) (fadd x y).
Proof.
  intros (r & Er & R) (s & Es & S) J. unfold nng. rewrite v64_add, Er, Es. cbn [xr2].
  destruct (rnd_nng (r + s) (j + 1)) as [-> B]; [|lia|eauto]. rewrite P2_S. lra.
Qed.
Lemma bdd_div j x y s : bdd j x -> v64 y = Fin s -> 1 <= s -> (-1074 <= j <= 1000)%Z -> bdd j (fdiv x y).
Proof.
  intros (r & Er & R) Es S J. apply v64_Fin in Er as [Fx <-]. apply v64_Fin in Es as [Fy <-]. unfold bdd. rewrite v64_div_fin; [|exact Fx|lra].
  destruct (rnd_bdd (B2R x / B2R y) j) as [-> B]; [|lia|eauto]. unfold Rdiv. rewrite Rabs_mult, Rabs_inv, (Rabs_pos_eq (B2R y)) by lra.
  eapply Rle_trans; [|exact R]. rewrite <- (Rmult_1_r (Rabs (B2R x))) at 2. apply Rmult_le_compat_l; [apply Rabs_pos|].
  rewrite <- Rinv_1. apply Rinv_le_contravar; lra.
Qed.
Lemma nng_div j x y s : nng j x -> v64 y = Fin s -> 1 <= s -> (-1074 <= j <= 1000)%Z -> nng j (fdiv x y).
Proof.
  intros N Es S J. apply nng_iff. split; [eapply bdd_div; eauto using nng_bdd|]. destruct N as (r & Er & R).
  apply v64_Fin in Er as [Fx <-]. apply v64_Fin in Es as [Fy <-]. rewrite v64_leb, v64_div_fin; [|exact Fx|lra]. change (v64 f0) with (Fin 0).
  assert (0 <= B2R x / B2R y) by (apply Rmult_le_pos; [lra|apply Rlt_le, Rinv_0_lt_compat; lra]).
  unfold xround. destruct (Rlt_bool _ _); cbn; [apply Rleb_spec; apply rnd64_ge; [apply format64_0|lra]|].
  destruct (Rltb (B2R x / B2R y) 0) eqn:E; [apply Rltb_spec in E; lra|reflexivity].
Qed.
Lemma v64_sqrt x r : v64 x = Fin r -> 0 <= r -> v64 (fsqrt x) = Fin (rnd64 (sqrt r)).
Proof.
  intros E R. apply v64_Fin in E as [F <-]. pose proof (Bsqrt_correct prec64 emax64 _ _ mode_NE x) as (V & G & _). fold (fsqrt x) in V, G.
  assert (fisfin (fsqrt x) = true) as Fs.
  { unfold fisfin. rewrite G. destruct x as [s|s| |s m e B]; try discriminate; [reflexivity|]. destruct s; [|reflexivity].
    exfalso. assert (B2R (B754_finite true m e B : f64) < 0) by (apply F2R_lt_0; cbn; lia). lra. }
  rewrite v64_fin by exact Fs. f_equal. exact V.
Qed.
Lemma nng_sqrt j x : nng (j + j) x -> (-1074 <= j <= 1000)%Z -> nng j (fsqrt x).
Proof.
  intros (r & E & R) J. exists (rnd64 (sqrt r)). split; [apply v64_sqrt; [exact E|lra]|].
  apply rnd_nng; [|exact J]. split; [apply sqrt_pos|]. replace (P2 j) with (sqrt (P2 (j + j))); [apply sqrt_le_1; lra|].
  rewrite bpow_plus. apply sqrt_square. apply bpow_ge_0.
Qed.
Lemma v64_ofZ n : (Z.abs n <= 2 ^ 53)%Z -> v64 (f_of_Z n) = Fin (IZR n).
Proof. intros H. destruct (f_of_Z_correct n H) as [V F]. now rewrite v64_fin, V. Qed.

(** ** Sums of terms whose bound has representable multiples *)
Lemma sums_mult c (l : list f64) v : sums_to l v -> (forall k, (k <= length l)%nat -> format64 (INR k * c)) -> Rabs (INR (length l) * c) <= P2 1000 ->
  Forall (below1 c) l -> v64 v = NInf \/ exists r, v64 v = Fin r /\ r <= INR (length l) * c.
Proof.
  induction 1 as [|a|l m v w Hv IHv Hw IHw|l m v P _ IH]; intros K B F.
  - right. exists 0. split; [reflexivity|]. cbn. lra.
  - inversion F as [|? ? [A|(r & A & R)] _]; subst; [now left|right]. exists r. split; [exact A|]. cbn. lra.
  - apply Forall_app in F as [F1 F2]. rewrite app_length, plus_INR in *.
    pose proof (pos_INR (length l)) as Pl. pose proof (pos_INR (length m)) as Pm.
    assert (forall i j, 0 <= i -> 0 <= j -> Rabs ((i + j) * c) <= P2 1000 -> Rabs (i * c) <= P2 1000) as Q.
    { intros i j I J H. rewrite Rabs_mult in *. rewrite (Rabs_pos_eq (i + j)) in H by lra. rewrite (Rabs_pos_eq i) by lra. pose proof (Rabs_pos c). nra. }
    assert (v64 v = NInf \/ exists r, v64 v = Fin r /\ r <= INR (length l) * c) as D1 by (apply IHv; [intros k H; apply K; lia|apply (Q _ (INR (length m))); auto|exact F1]).
    assert (v64 w = NInf \/ exists r, v64 w = Fin r /\ r <= INR (length m) * c) as D2
      by (apply IHw; [intros k H; apply K; lia|rewrite Rplus_comm in B; apply (Q _ (INR (length l))); auto|exact F2]).
    change (nadd v w) with (fadd v w). rewrite v64_add.
    destruct D1 as [E1|(r & E1 & R1)], D2 as [E2|(s & E2 & R2)]; rewrite E1, E2; try (left; reflexivity).
    cbn [xr2]. assert (rnd64 (r + s) <= (INR (length l) + INR (length m)) * c) as L.
    { apply rnd64_le; [|lra]. rewrite <- plus_INR. apply K. lia. }
    destruct (xround_up (r + s) _ L) as [->| ->]; [|now left|right; eauto]. pose proof (Rle_abs ((INR (length l) + INR (length m)) * c)). lra.
  - rewrite <- (Permutation_length P) in *. apply IH; auto. now apply (Permutation_Forall (Permutation_sym P)).
Qed.
Lemma mean_mult c (x : list f64) : (1 <= length x)%nat -> INR (length x) <= MAXN -> (forall k, (k <= length x)%nat -> format64 (INR k * c)) ->
  Rabs (INR (length x) * c) <= P2 1000 -> Forall (below1 c) x -> v64 (nmean x) = NInf \/ exists r, v64 (nmean x) = Fin r /\ r <= c.
Proof.
  intros N M K B F. assert (1 <= INR (length x)) as N1 by (apply (le_INR 1); exact N).
  assert (format64 c) as Fc by (replace c with (INR 1 * c) by (cbn; lra); apply K; exact N).
  destruct (sums_mult c x _ (psum_sums x) K B F) as [E|(r & E & R)]; unfold nmean; cbn [ndiv nofZ f64_num].
  - left. assert (psum x = B754_infinity true) as -> by (destruct (psum x) as [?|[]| |?]; try discriminate; reflexivity). now rewrite div_inf.
  - rewrite (div_n _ _ r N M E). assert (rnd64 (r / INR (length x)) <= c) as L.
    { apply rnd64_le; [exact Fc|]. apply (Rmult_le_reg_r (INR (length x))); [lra|]. unfold Rdiv. rewrite Rmult_assoc, Rinv_l by lra. lra. }
    destruct (xround_up _ _ L) as [->| ->]; [|now left|right; eauto].
    rewrite Rabs_mult, Rabs_pos_eq in B by lra. pose proof (Rle_abs c). pose proof (Rabs_pos c). nra.
Qed.
Lemma mean_opp (x : list f64) : frel (nmean (map fopp x)) (nmean x).
Proof.
  apply (swap_mean (NT := f64_num) (rel := frel)). induction x as [|a x IH]; constructor; auto. unfold frel. rewrite v64_opp. symmetry. apply xopp_opp.
Qed.
Lemma mean_mult_low c (x : list f64) : (1 <= length x)%nat -> INR (length x) <= MAXN -> (forall k, (k <= length x)%nat -> format64 (INR k * c)) ->
  Rabs (INR (length x) * c) <= P2 1000 -> Forall (above1 c) x -> v64 (nmean x) = PInf \/ exists r, v64 (nmean x) = Fin r /\ c <= r.
Proof.
  intros N M K B F. destruct (mean_mult (- c) (map fopp x)) as [E|(r & E & R)].
  - now rewrite map_length.
  - now rewrite map_length.
  - rewrite map_length. intros k H. replace (INR k * - c) with (- (INR k * c)) by ring. apply generic_format_opp. now apply K.
  - rewrite map_length. replace (INR (length x) * - c) with (- (INR (length x) * c)) by ring. now rewrite Rabs_Ropp.
  - apply Forall_map. eapply Forall_impl; [|exact F]. intros a [H|(r & H & R)]; unfold below1; rewrite v64_opp, H; [now left|right].
    exists (- r). split; [reflexivity|lra].
  - left. pose proof (mean_opp x) as S. unfold frel in S. rewrite E in S. rewrite S. reflexivity.
  - right. pose proof (mean_opp x) as S. unfold frel in S. rewrite E in S. exists (- r). split; [exact S|lra].
Qed.

Lemma small_multiple m e k : (Z.abs m <= 2 ^ 22)%Z -> (-1074 <= e)%Z -> INR k <= MAXN -> format64 (INR k * (IZR m * P2 e)).
Proof.
  intros M E K. assert (Z.of_nat k <= 2 ^ 30)%Z as K'.
  { apply le_IZR. rewrite <- INR_IZR_INZ. exact K. }
  rewrite INR_IZR_INZ, <- Rmult_assoc, <- mult_IZR.
  apply (generic_format_FLT radix2 (SpecFloat.emin prec64 emax64) prec64). exists (Float radix2 (Z.of_nat k * m) e); [reflexivity| |exact E].
  cbn [Fnum]. change (Z.pow radix2 prec64) with (2 ^ 53)%Z. rewrite Z.abs_mul. rewrite (Z.abs_eq (Z.of_nat k)) by lia.
  apply Z.le_lt_trans with (2 ^ 30 * 2 ^ 22)%Z; [|reflexivity]. apply Z.mul_le_mono_nonneg; lia.
Qed.
Lemma P2_multiple j k : (-1074 <= j)%Z -> INR k <= MAXN -> format64 (INR k * P2 j).
Proof. intros J K. rewrite <- (Rmult_1_l (P2 j)). change 1 with (IZR 1). apply small_multiple; [cbn; lia|exact J|exact K]. Qed.

Lemma bdd_below1 j x : bdd j x -> below1 (P2 j) x.
Proof. intros (r & E & R). right. exists r. split; [exact E|]. apply Rabs_le_inv in R. lra. Qed.
Lemma bdd_above1 j x : bdd j x -> above1 (- P2 j) x.
Proof. intros (r & E & R). right. exists r. split; [exact E|]. apply Rabs_le_inv in R. lra. Qed.
Lemma maxn_P2 j n : INR n <= MAXN -> (j <= 970)%Z -> Rabs (INR n * P2 j) <= P2 1000.
Proof.
  intros N J. rewrite Rabs_pos_eq by (apply Rmult_le_pos; [apply pos_INR|apply bpow_ge_0]).
  apply Rle_trans with (MAXN * P2 j); [apply Rmult_le_compat_r; [apply bpow_ge_0|exact N]|]. unfold MAXN. rewrite <- bpow_plus. apply bpow_le. lia.
Qed.
Lemma bdd_mean j (x : list f64) : (1 <= length x)%nat -> INR (length x) <= MAXN -> Forall (bdd j) x -> (-1074 <= j <= 970)%Z -> bdd j (nmean x).
Proof.
  intros N M F J.
  destruct (mean_mult (P2 j) x N M) as [E|(r & E & R)].
  - intros k H. apply P2_multiple; [lia|]. eapply Rle_trans; [apply le_INR, H|exact M].
  - apply maxn_P2; [exact M|lia].
  - eapply Forall_impl; [|exact F]. apply bdd_below1.
  - exfalso. destruct (mean_mult_low (- P2 j) x N M) as [E'|(r & E' & _)].
    + intros k H. replace (INR k * - P2 j) with (- (INR k * P2 j)) by ring. apply generic_format_opp. apply P2_multiple; [lia|].
      eapply Rle_trans; [apply le_INR, H|exact M].
    + replace (INR (length x) * - P2 j) with (- (INR (length x) * P2 j)) by ring. rewrite Rabs_Ropp. apply maxn_P2; [exact M|lia].
    + eapply Forall_impl; [|exact F]. apply bdd_above1.
    + congruence.
    + congruence.
  - destruct (mean_mult_low (- P2 j) x N M) as [E'|(r' & E' & R')].
    + intros k H. replace (INR k * - P2 j) with (- (INR k * P2 j)) by ring. apply generic_format_opp. apply P2_multiple; [lia|].
      eapply Rle_trans; [apply le_INR, H|exact M].
    + replace (INR (length x) * - P2 j) with (- (INR (length x) * P2 j)) by ring. rewrite Rabs_Ropp. apply maxn_P2; [exact M|lia].
    + eapply Forall_impl; [|exact F]. apply bdd_above1.
    + congruence.
    + rewrite E in E'. injection E' as <-. exists r. split; [exact E|]. apply Rabs_le. lra.
Qed.
Lemma sums_nng j (l : list f64) v : sums_to l v -> INR (length l) <= MAXN -> Forall (nng j) l -> (-1074 <= j <= 970)%Z -> nng (j + 30) v.
Proof.
  intros S M F J.
  assert (v64 v = NInf \/ exists r, v64 v = Fin r /\ r <= INR (length l) * P2 j) as U.
  { apply (sums_mult (P2 j) l v S).
    - intros k H. apply P2_multiple; [lia|]. eapply Rle_trans; [apply le_INR, H|exact M].
    - apply maxn_P2; [exact M|lia].
    - eapply Forall_impl; [|exact F]. intros a A. now apply bdd_below1, nng_bdd. }
  assert (fleb f0 v = true) as L.
  { clear U M J. induction S as [|a|l m v w Hv IHv Hw IHw|l m v P _ IH].
    - reflexivity.
    - inversion F; subst. eapply nng_leb0; eauto.
    - apply Forall_app in F as [F1 F2]. specialize (IHv F1). specialize (IHw F2). change (nadd v w) with (fadd v w).
      rewrite v64_leb in *. change (v64 f0) with (Fin 0) in *. rewrite v64_add.
      destruct (v64 v) as [r| | |], (v64 w) as [s| | |]; cbn in *; try discriminate; try reflexivity.
      apply Rleb_spec in IHv, IHw. unfold xround. destruct (Rlt_bool _ _); cbn.
      + apply Rleb_spec. apply rnd64_ge; [apply format64_0|lra].
      + destruct (Rltb (r + s) 0) eqn:E; [apply Rltb_spec in E; lra|reflexivity].
    - apply IH. now apply (Permutation_Forall (Permutation_sym P)). }
  destruct U as [E|(r & E & R)].
  - rewrite v64_leb, E in L. discriminate.
  - apply nng_iff. split; [|exact L]. exists r. split; [exact E|]. rewrite v64_leb, E in L. cbn in L. apply Rleb_spec in L. rewrite Rabs_pos_eq by exact L.
    eapply Rle_trans; [exact R|]. replace (j + 30)%Z with (30 + j)%Z by lia. rewrite bpow_plus. apply Rmult_le_compat_r; [apply bpow_ge_0|exact M].
Qed.

(** ** The variance *)
Lemma maxn_Z n : INR n <= MAXN -> (Z.of_nat n <= 2 ^ 30)%Z.
Proof. intros H. apply le_IZR. rewrite <- INR_IZR_INZ. exact H. Qed.
Lemma nng_var d j (x : list f64) : (0 <= d <= 1)%Z -> (d < Z.of_nat (length x))%Z -> INR (length x) <= MAXN -> Forall (bdd j) x -> (-500 <= j <= 460)%Z ->
  nng (j + j + 32) (nvar d x).
Proof.
  intros D N M F J. unfold nvar. cbn [ndiv nofZ nmul nsub f64_num]. set (m := nmean x). assert (bdd j m) as Bm by (apply bdd_mean; auto; lia).
  pose proof (maxn_Z _ M) as MZ.
  eapply nng_div; [|apply v64_ofZ; lia|apply IZR_le; lia|lia].
  replace (j + j + 32)%Z with ((j + 1) + (j + 1) + 30)%Z by lia. eapply sums_nng; [apply psum_sums|now rewrite map_length| |lia].
  apply Forall_map. eapply Forall_impl; [|exact F]. intros a A. apply nng_sq; [|lia]. apply bdd_sub; auto. lia.
Qed.

(** ** The mathematical library.  What is assumed of the functions that numpy
    and scipy take from elsewhere; nothing is assumed about their accuracy. *)
Record good_library (fexp flog : f64 -> f64) (sf ppf : Z -> f64 -> f64) (eig : f64 -> f64 -> option (f64 * f64)) : Prop := {
  (* the survival function of the t distribution, on the right half *)
  gl_sf_nan : forall df x, fisnan x = true -> fisnan (sf df x) = true;
  gl_sf : forall df x, (1 <= df)%Z -> fleb f0 x = true -> fleb f0 (sf df x) = true /\ fleb (sf df x) nhalf = true;
  (* its quantiles, for probabilities from 2^-54 to 1 - 2^-53 *)
  gl_ppf : forall df q, (1 <= df)%Z -> fisfin q = true -> P2 (-54) <= B2R q <= 1 - P2 (-53) -> fisfin (ppf df q) = true /\ Rabs (B2R (ppf df q)) <= P2 100;
  gl_ppf_mono : forall df q q', (1 <= df)%Z -> fisfin q = true -> fisfin q' = true -> P2 (-54) <= B2R q -> B2R q <= B2R q' -> B2R q' <= 1 - P2 (-53) ->
    fleb (ppf df q) (ppf df q') = true;
  gl_log : forall z, fisfin z = true -> 2 <= B2R z <= P2 60 -> fisfin (flog z) = true /\ 0 < B2R (flog z) <= P2 10;
  gl_exp : forall z, fleb z f0 = true -> fleb f0 (fexp z) = true;
  (* the eigenvalues of [[-p, -q], [1, 0]] for p >= 0 >= q: one of each sign *)
  gl_eig : forall p q, fisfin p = true -> fisfin q = true -> 0 <= B2R p -> B2R q <= 0 ->
    exists r s, eig p q = Some (r, s) /\ ((fleb r f0 = true /\ fleb f0 s = true) \/ (fleb s f0 = true /\ fleb f0 r = true))
}.

Lemma v64_ofZ_big n : Rabs (IZR n) <= P2 1000 -> v64 (f_of_Z n) = Fin (rnd64 (IZR n)).
Proof.
  intros H. pose proof (binary_normalize_correct prec64 emax64 _ _ mode_NE n 0 false) as C. cbv zeta in C.
  fold (f_of_Z n) in C. simpl (round_mode mode_NE) in C.
  replace (F2R (Float radix2 n 0)) with (IZR n) in C by (unfold F2R; cbn; lra).
  rewrite Rlt_bool_true in C by (now apply no_ovf). destruct C as (V & F & _). rewrite v64_fin by exact F. f_equal. exact V.
Qed.
Lemma e100 : v64 (fdiv (f_of_Z 1) (f_of_Z (10 ^ 100))) = Fin (rnd64 (1 / B2R (f_of_Z (10 ^ 100)))) /\ P2 (-400) <= rnd64 (1 / B2R (f_of_Z (10 ^ 100))).
Proof.
  assert (1 <= IZR (10 ^ 100) <= P2 333) as B.
  { change (P2 333) with (IZR (2 ^ 333)). split; apply IZR_le; apply Z.leb_le; vm_compute; reflexivity. }
  assert (v64 (f_of_Z (10 ^ 100)) = Fin (rnd64 (IZR (10 ^ 100)))) as E.
  { apply v64_ofZ_big. rewrite Rabs_pos_eq by lra. eapply Rle_trans; [apply B|]. apply bpow_le. lia. }
  apply v64_Fin in E as [_ E].
  assert (1 <= B2R (f_of_Z (10 ^ 100)) <= P2 333) as B'.
  { rewrite E. split; [apply rnd64_ge; [apply format64_1|apply B]|apply rnd64_le; [apply format_P2; lia|apply B]]. }
  set (y := f_of_Z (10 ^ 100)) in *. clearbody y.
  assert (P2 (-333) <= 1 / B2R y <= 1) as Q.
  { change (-333)%Z with (- (333))%Z. rewrite bpow_opp. unfold Rdiv. rewrite Rmult_1_l. split; [apply Rinv_le_contravar; lra|].
    rewrite <- Rinv_1. apply Rinv_le_contravar; lra. }
  assert (P2 (-400) <= P2 (-333)) by (apply bpow_le; lia). pose proof (bpow_gt_0 radix2 (-400)).
  destruct (f_of_Z_correct 1) as [V1 F1]; [lia|].
  rewrite v64_div_fin; [|exact F1|lra]. rewrite V1. split.
  - apply rnd_bdd with (k := 0%Z); [|lia]. rewrite Rabs_pos_eq by lra. cbn. lra.
  - apply rnd64_ge; [apply format_P2; lia|lra].
Qed.
Lemma e100_leb x : nng (-400) x -> nleb x (ndiv n1 (nofZ (10 ^ 100))) = true.
Proof.
  intros (r & E & R). destruct e100 as [A B]. cbn [nleb ndiv n1 nofZ f64_num]. rewrite v64_leb, E, A. cbn [xleb]. apply Rleb_spec. lra.
Qed.

Lemma format_pos r : format64 r -> 0 < r -> P2 (-1074) <= r.
Proof.
  intros F P. apply (generic_format_ge_bpow radix2 (SpecFloat.fexp prec64 emax64) (-1074)); auto.
  intros e. unfold SpecFloat.fexp, SpecFloat.emin, prec64, emax64. lia.
Qed.
Lemma sqrt_zero r : format64 r -> 0 <= r -> rnd64 (sqrt r) = 0 -> r = 0.
Proof.
  intros F P E. destruct (Req_EM_T r 0) as [Z|NZ]; [exact Z|exfalso]. pose proof (format_pos r F ltac:(lra)) as B.
  assert (P2 (-537) <= rnd64 (sqrt r)) as C.
  { apply rnd64_ge; [apply format_P2; lia|]. replace (P2 (-537)) with (sqrt (P2 (-1074))); [apply sqrt_le_1; [apply bpow_ge_0|lra|lra]|].
    replace (-1074)%Z with (-537 + -537)%Z by lia. rewrite bpow_plus. apply sqrt_square, bpow_ge_0. }
  pose proof (bpow_gt_0 radix2 (-537)). lra.
Qed.
Lemma rnd_zero r : rnd64 r = 0 -> Rabs r <= P2 (-1074).
Proof.
  intros E. pose proof (rnd_err r) as H. rewrite E in H. replace (0 - r) with (- r) in H by ring. rewrite Rabs_Ropp in H.
  pose proof u64_small. pose proof (Rabs_pos r). replace (-1074)%Z with (-1075 + 1)%Z by lia. rewrite P2_S. pose proof (bpow_gt_0 radix2 (-1075)). nra.
Qed.
Lemma xround_notnan r : xround r <> NaN.
Proof. unfold xround. destruct (Rlt_bool _ _); [discriminate|]. destruct (Rltb r 0); discriminate. Qed.
Lemma div_notnan (a b : f64) : fisfin a = true -> B2R b <> 0 -> fisnan (fdiv a b) = false.
Proof. intros F N. rewrite v64_nan, v64_div_fin by assumption. pose proof (xround_notnan (B2R a / B2R b)). destruct (xround _); auto. contradiction. Qed.

Lemma leb_range k x : nng k x -> fleb f0 x = true.
Proof. apply nng_leb0. Qed.
Lemma fin_nonan (x : list f64) : Forall (fun a => fisfin a = true) x -> existsb nisnan x = false.
Proof. induction 1 as [|a x A F IH]; [reflexivity|]. cbn [existsb]. rewrite IH, orb_false_r. change (nisnan a) with (fisnan a). now apply fisfin_notnan. Qed.
Lemma fin_all (x : list f64) : Forall (fun a => fisfin a = true) x -> forallb nisfin x = true.
Proof. intros H. apply forallb_forall. intros a I. rewrite Forall_forall in H. now apply H. Qed.
Lemma degenerate_fin (x : list f64) : Forall (fun a => fisfin a = true) x -> degenerate x = (Z.of_nat (length x) <=? 1)%Z.
Proof. intros F. unfold degenerate. rewrite (fin_all x F). apply orb_false_r. Qed.
Lemma bdd_all j (x : list f64) : Forall (bdd j) x -> Forall (fun a => fisfin a = true) x.
Proof. apply Forall_impl. intros a. apply bdd_fin. Qed.

Section Library.
  Context (fexp flog : f64 -> f64) (sf ppf : Z -> f64 -> f64) (eig : f64 -> f64 -> option (f64 * f64)) (GL : good_library fexp flog sf ppf eig).
  Notation lib := (fn_f64 fexp flog sf ppf eig).

  Definition unit_p (p : f64) : Prop := fleb f0 p = true /\ fleb p (f_of_Z 1) = true.
  Lemma unit_p_1 : unit_p (f_of_Z 1).
  Proof. split; vm_compute; reflexivity. Qed.
  Lemma unit_p_0 : unit_p f0.
  Proof. split; vm_compute; reflexivity. Qed.

  Lemma t_test_ok j (x : list f64) : (1 <= length x)%nat -> INR (length x) <= MAXN -> Forall (bdd j) x -> (-400 <= j <= 460)%Z ->
    exists p, @t_test _ _ lib x = Ok p /\ unit_p p.
  Proof.
    intros N M F J. pose proof (bdd_all _ _ F) as FF. unfold t_test. rewrite (fin_nonan x FF), (degenerate_fin x FF). cbn [negb py_assert bind].
    destruct (Z.leb_spec (Z.of_nat (length x)) 1) as [S|S]; [exists (f_of_Z 1); split; [reflexivity|apply unit_p_1]|].
    pose proof (maxn_Z _ M) as MZ.
    unfold ttest_1samp. cbn [nsub ndiv nsqrt t_sf nmul nofZ n0 fn_f64 f64_num]. rewrite nabs_fabs.
    assert (bdd (j + 1) (fsub (nmean x) f0)) as (d & Ed & _).
    { apply bdd_sub; [apply bdd_mean; auto; lia| |lia]. exists 0. split; [reflexivity|]. rewrite Rabs_R0. apply bpow_ge_0. }
    assert (nng (j + j + 32) (nvar 1 x)) as NV by (apply nng_var; auto; lia).
    assert (v64 (lenT x) = Fin (INR (length x))) as EN by (unfold lenT; rewrite INR_IZR_INZ; apply v64_ofZ; lia).
    assert (1 <= INR (length x)) as N1 by (apply (le_INR 1); exact N).
    set (V := nvar 1 x) in *. set (q := fdiv V (lenT x)).
    assert (nng (j + j + 32) q) as NQ by (eapply nng_div; eauto; lia).
    destruct NQ as (r & Er & R). pose proof (v64_sqrt q r Er ltac:(lra)) as Es.
    set (t := fdiv (fsub (nmean x) f0) (fsqrt q)) in *.
    set (s := sf (Z.of_nat (length x) - 1) (fabs t)).
    destruct (fisnan t) eqn:NT.
    - (* 0 / 0 *)
      assert (fisnan (fmul s (f_of_Z 2)) = true) as Np.
      { assert (fisnan s = true) as Ns by (apply (gl_sf_nan _ _ _ _ _ GL); destruct t; try discriminate; reflexivity).
        destruct s as [?|?| |?]; try discriminate. reflexivity. }
      change (nisnan (fmul s (f_of_Z 2))) with (fisnan (fmul s (f_of_Z 2))). rewrite Np.
      assert (nng (-400) V) as NV'.
      { apply v64_Fin in Ed as [Fd _]. pose proof Es as Es'. apply v64_Fin in Es' as [_ Bs].
        assert (rnd64 (sqrt r) = 0) as Z.
        { destruct (Req_EM_T (rnd64 (sqrt r)) 0) as [Z|Z]; [exact Z|exfalso]. rewrite <- Bs in Z. unfold t in NT.
          rewrite div_notnan in NT; [discriminate|exact Fd|exact Z]. }
        apply sqrt_zero in Z; [|eapply v64_Fin_format; eauto|lra]. subst r.
        destruct NV as (v & Ev & Hv). pose proof Ev as Ev'. apply v64_Fin in Ev' as [Fv Bv]. pose proof EN as EN'. apply v64_Fin in EN' as [_ Bn].
        unfold q in Er. rewrite v64_div_fin in Er; [|exact Fv|lra]. rewrite Bv, Bn in Er.
        destruct (rnd_bdd (v / INR (length x)) (j + j + 32)) as [Q _]; [|lia|].
        { rewrite Rabs_pos_eq by (apply Rmult_le_pos; [lra|apply Rlt_le, Rinv_0_lt_compat; lra]).
          apply Rle_trans with v; [|lra]. apply (Rmult_le_reg_r (INR (length x))); [lra|]. unfold Rdiv. rewrite Rmult_assoc, Rinv_l by lra. nra. }
        rewrite Q in Er. injection Er as Er. apply rnd_zero in Er.
        rewrite Rabs_pos_eq in Er by (apply Rmult_le_pos; [lra|apply Rlt_le, Rinv_0_lt_compat; lra]).
        exists v. split; [exact Ev|]. split; [lra|].
        apply Rle_trans with (P2 (-1074) * P2 30); [|rewrite <- bpow_plus; apply bpow_le; lia].
        apply Rle_trans with (v / INR (length x) * INR (length x)); [unfold Rdiv; rewrite Rmult_assoc, Rinv_l by lra; lra|].
        apply Rmult_le_compat; [apply Rmult_le_pos; [lra|apply Rlt_le, Rinv_0_lt_compat; lra]|lra|exact Er|exact M]. }
      pose proof (e100_leb V NV') as EL. cbn [nsub ndiv nsqrt t_sf nmul nofZ n0 fn_f64 f64_num] in EL. rewrite EL. cbn [py_assert bind]. cbn [nleb n0 n1 f64_num].
      match goal with |- context [if ?b then f_of_Z 1 else _] => destruct b end.
      + destruct unit_p_1 as [A B]. rewrite A, B. cbn [andb py_assert bind]. eauto using unit_p_1.
      + destruct unit_p_0 as [A B]. rewrite A, B. cbn [andb py_assert bind]. eauto using unit_p_0.
    - assert (unit_p (fmul s (f_of_Z 2))) as U.
      { assert (fleb f0 (fabs t) = true) as L0.
        { rewrite v64_leb, v64_abs. rewrite v64_nan in NT. change (v64 f0) with (Fin 0). destruct (v64 t) as [v| | |]; try discriminate; try reflexivity.
          cbn. apply Rleb_spec. apply Rabs_pos. }
        destruct (gl_sf _ _ _ _ _ GL (Z.of_nat (length x) - 1) (fabs t) ltac:(lia) L0) as [A B]. fold s in A, B.
        destruct half_val as [Hv Hf]. rewrite v64_leb in A, B. rewrite (v64_fin _ Hf), Hv in B. change (v64 f0) with (Fin 0) in A.
        destruct (v64 s) as [v| | |] eqn:Esv; try discriminate. cbn in A, B. apply Rleb_spec in A, B.
        assert (nng 0 (fmul s (f_of_Z 2))) as (w & Ew & W).
        { apply (nng_mul (-1) 1); [| |lia].
          - exists v. split; [exact Esv|]. cbn. lra.
          - exists 2. split; [apply v64_ofZ; lia|]. cbn. lra. }
        split; rewrite v64_leb, Ew; [change (v64 f0) with (Fin 0)|rewrite v64_ofZ by lia]; cbn; apply Rleb_spec; cbn in W; lra. }
      destruct U as [A B]. change (nisnan (fmul s (f_of_Z 2))) with (fisnan (fmul s (f_of_Z 2))).
      destruct (fleb_notnan _ _ A) as [_ NN]. rewrite NN. cbn [bind nleb n0 n1 f64_num]. rewrite A, B. cbn [andb py_assert bind].
      eexists. split; [reflexivity|split; assumption].
  Qed.

  (** confidence levels up to 1 - 2^-52 *)
  Definition conf_ok (c : f64) : Prop := fisfin c = true /\ 0 < B2R c <= 1 - P2 (-52).
  Lemma P2_small k : (k <= 0)%Z -> P2 k <= 1.
  Proof. intros H. change 1 with (P2 0). now apply bpow_le. Qed.
  Lemma conf_in01' c : conf_ok c -> nltb n0 c && nltb c n1 = true.
  Proof. intros [F [A B]]. apply (in01_f64 c). split; [exact F|]. pose proof (bpow_gt_0 radix2 (-52)). lra. Qed.
  Lemma format_ulp k : (-1000 <= k)%Z -> format64 (IZR (2 ^ 53 - 1) * P2 k).
  Proof.
    intros H. apply (generic_format_FLT radix2 (SpecFloat.emin prec64 emax64) prec64). exists (Float radix2 (2 ^ 53 - 1) k); [reflexivity|cbn; lia|].
    unfold SpecFloat.emin, prec64, emax64. cbn. lia.
  Qed.
  Lemma one_ulp k : IZR (2 ^ 53 - 1) * P2 k = P2 (53 + k) - P2 k.
  Proof. rewrite minus_IZR, Rmult_minus_distr_r. replace (IZR (2 ^ 53)) with (P2 53) by reflexivity. rewrite <- bpow_plus. lra. Qed.
  Lemma delta_val c : conf_ok c -> exists d, v64 (fsub (f_of_Z 1) c) = Fin d /\ P2 (-53) <= d <= 1.
  Proof.
    intros [F [A B]]. rewrite v64_sub, v64_ofZ, (v64_fin c F) by lia. cbn [xr2].
    assert (P2 (-53) <= P2 (-52)) by (apply bpow_le; lia). pose proof (bpow_gt_0 radix2 (-53)).
    destruct (rnd_nng (1 - B2R c) 0) as [-> [_ U]]; [cbn; lra|lia|]. exists (rnd64 (1 - B2R c)). split; [reflexivity|]. split; [|exact U].
    apply rnd64_ge; [apply format_P2; lia|lra].
  Qed.
  Lemma sum_val c : conf_ok c -> exists d, v64 (fadd (f_of_Z 1) c) = Fin d /\ 1 <= d <= 2 - P2 (-52).
  Proof.
    intros [F [A B]]. rewrite v64_add, v64_ofZ, (v64_fin c F) by lia. cbn [xr2].
    pose proof (bpow_gt_0 radix2 (-52)).
    destruct (rnd_nng (1 + B2R c) 1) as [-> [_ U]]; [cbn; lra|lia|]. exists (rnd64 (1 + B2R c)). split; [reflexivity|]. split.
    - apply rnd64_ge; [apply format64_1|lra].
    - apply rnd64_le; [|lra]. change 2 with (P2 (53 + -52)). rewrite <- one_ulp. apply format_ulp. lia.
  Qed.
  Lemma half_of x d lo hi : v64 x = Fin d -> lo <= d / 2 <= hi -> format64 lo -> format64 hi -> 0 <= lo -> hi <= 1 ->
    exists h, v64 (fdiv x (f_of_Z 2)) = Fin h /\ lo <= h <= hi.
  Proof.
    intros E L F1 F2 P U. pose proof E as E'. apply v64_Fin in E' as [F B]. destruct (f_of_Z_correct 2) as [V2 _]; [lia|].
    rewrite v64_div_fin; [|exact F|lra]. rewrite B, V2.
    destruct (rnd_nng (d / 2) 2) as [-> _]; [cbn; lra|lia|]. eexists. split; [reflexivity|]. split; [apply rnd64_ge|apply rnd64_le]; auto; lra.
  Qed.
  Lemma half_format : format64 (/ 2).
  Proof. replace (/ 2) with (P2 (-1)) by (cbn; lra). apply format_P2. lia. Qed.
  Lemma quantiles c df : conf_ok c -> (1 <= df)%Z ->
    let LB := ppf df (fdiv (fsub (f_of_Z 1) c) (f_of_Z 2)) in
    let UB := ppf df (fdiv (fadd (f_of_Z 1) c) (f_of_Z 2)) in
    fltb UB LB = false /\ nng 101 (fsub UB LB).
  Proof.
    intros C D. destruct (delta_val c C) as (d & Ed & Hd). destruct (sum_val c C) as (e & Ee & He).
    assert (P2 (-54) = P2 (-53) / 2) as P54. { replace (-53)%Z with (-54 + 1)%Z by lia. rewrite P2_S. lra. }
    assert (P2 (-53) = P2 (-52) / 2) as P53. { replace (-52)%Z with (-53 + 1)%Z by lia. rewrite P2_S. lra. }
    destruct (half_of _ d (P2 (-54)) (/ 2) Ed) as (h & Eh & Hh); [lra|apply format_P2; lia|apply half_format|apply bpow_ge_0|lra|].
    pose proof (bpow_gt_0 radix2 (-54)) as P0.
    destruct (half_of _ e (/ 2) (1 - P2 (-53)) Ee) as (k & Ek & Hk); [lra|apply half_format| |lra|lra|].
    { change 1 with (P2 (53 + -53)). rewrite <- one_ulp. apply format_ulp. lia. }
    apply v64_Fin in Eh as [Fh Bh]. apply v64_Fin in Ek as [Fk Bk].
    set (q := fdiv (fsub (f_of_Z 1) c) (f_of_Z 2)) in *. set (q' := fdiv (fadd (f_of_Z 1) c) (f_of_Z 2)) in *. cbv zeta.
    assert (P2 (-52) <= / 2) by (replace (/ 2) with (P2 (-1)) by (cbn; lra); apply bpow_le; lia).
    destruct (gl_ppf _ _ _ _ _ GL df q D Fh ltac:(lra)) as [F1 B1]. destruct (gl_ppf _ _ _ _ _ GL df q' D Fk ltac:(lra)) as [F2 B2].
    pose proof (gl_ppf_mono _ _ _ _ _ GL df q q' D Fh Fk ltac:(lra) ltac:(lra) ltac:(lra)) as L.
    split; [now apply fltb_asym_le|]. apply fleb_fin in L; auto. set (l := ppf df q) in *. set (u := ppf df q') in *.
    apply nng_iff. split; [apply (bdd_sub 100); [now apply bdd_iff|now apply bdd_iff|lia]|].
    rewrite v64_leb, v64_sub, (v64_fin u F2), (v64_fin l F1). change (v64 f0) with (Fin 0). cbn [xr2].
    destruct (rnd_nng (B2R u - B2R l) 101) as [-> [A _]]; [|lia|cbn; now apply Rleb_spec].
    replace 101%Z with (100 + 1)%Z by lia. rewrite P2_S. apply Rabs_le_inv in B1, B2. lra.
  Qed.
  Lemma len_val (x : list f64) : INR (length x) <= MAXN -> v64 (lenT x) = Fin (INR (length x)).
  Proof. intros M. unfold lenT. rewrite INR_IZR_INZ. apply v64_ofZ. pose proof (maxn_Z _ M). lia. Qed.
  Lemma sqrt_len (x : list f64) : (1 <= length x)%nat -> INR (length x) <= MAXN -> exists s, v64 (fsqrt (lenT x)) = Fin s /\ 1 <= s.
  Proof.
    intros N M. assert (1 <= INR (length x)) as N1 by (apply (le_INR 1); exact N).
    exists (rnd64 (sqrt (INR (length x)))). split; [apply v64_sqrt; [now apply len_val|lra]|].
    apply rnd64_ge; [apply format64_1|]. rewrite <- sqrt_1. apply sqrt_le_1_alt. exact N1.
  Qed.
  Lemma nng_std d j (x : list f64) : (0 <= d <= 1)%Z -> (d < Z.of_nat (length x))%Z -> INR (length x) <= MAXN -> Forall (bdd j) x -> (-500 <= j <= 460)%Z ->
    nng (j + 16) (@nstd _ _ lib d x).
  Proof.
    intros D N M F J. unfold nstd. cbn [nsqrt fn_f64]. apply nng_sqrt; [|lia]. replace (j + 16 + (j + 16))%Z with (j + j + 32)%Z by lia.
    now apply nng_var.
  Qed.

  Lemma t_EB_ok j (x : list f64) c : (1 <= length x)%nat -> INR (length x) <= MAXN -> Forall (bdd j) x -> (-400 <= j <= 460)%Z -> conf_ok c ->
    exists e, @t_EB _ _ lib x c = Ok e /\ fleb f0 e = true.
  Proof.
    intros N M F J C. pose proof (bdd_all _ _ F) as FF. unfold t_EB. rewrite (fin_nonan x FF), (degenerate_fin x FF), (conf_in01' c C). cbn [negb py_assert bind].
    destruct (Z.leb_spec (Z.of_nat (length x)) 1) as [S|S]; [exists finf; split; reflexivity|].
    cbn [t_ppf fn_f64 ndiv nsub nadd n1 nofZ nltb nmul nleb n0 nsqrt f64_num].
    destruct (quantiles c (Z.of_nat (length x) - 1) C ltac:(lia)) as [L U]. rewrite L. cbn [negb py_assert bind].
    assert (nng (j + 16) (@nstd _ _ lib 1 x)) as NS by (apply nng_std; auto; lia).
    destruct (sqrt_len x N M) as (s & Es & Hs).
    assert (nng (j + 16) (fdiv (@nstd _ _ lib 1 x) (fsqrt (lenT x)))) as NE by (eapply nng_div; eauto; lia).
    assert (nng (-1) (nhalf : f64)) as NH.
    { destruct half_val as [V H]. exists (/ 2). split; [now rewrite v64_fin, V|]. cbn. lra. }
    match goal with |- context [fleb f0 ?e] => set (EB := e) end.
    assert (nng (-1 + (j + 16) + 101) EB) as NB by (apply nng_mul; [apply nng_mul; auto; lia|exact U|lia]).
    rewrite (nng_leb0 _ _ NB). cbn [py_assert bind]. exists EB. split; [reflexivity|]. eapply nng_leb0; eauto.
  Qed.

  (** ** Bernstein *)
  Lemma log_ok c : conf_ok c -> exists a, v64 (flog (fdiv (f_of_Z 3) (fsub (f_of_Z 1) c))) = Fin a /\ 0 < a <= P2 10.
  Proof.
    intros C. destruct (delta_val c C) as (d & Ed & Hd). apply v64_Fin in Ed as [Fd Bd]. pose proof (bpow_gt_0 radix2 (-53)) as P0.
    destruct (f_of_Z_correct 3) as [V3 F3]; [lia|].
    assert (v64 (fdiv (f_of_Z 3) (fsub (f_of_Z 1) c)) = Fin (rnd64 (3 / d)) /\ 2 <= rnd64 (3 / d) <= P2 60) as [E B].
    { rewrite v64_div_fin; [|exact F3|lra]. rewrite V3, Bd.
      assert (3 <= 3 / d) as L1.
      { apply (Rmult_le_reg_r d); [lra|]. unfold Rdiv. rewrite Rmult_assoc, Rinv_l by lra. nra. }
      assert (3 / d <= P2 60) as L2.
      { apply (Rmult_le_reg_r d); [lra|]. unfold Rdiv. rewrite Rmult_assoc, Rinv_l by lra.
        apply Rle_trans with (P2 60 * P2 (-53)); [|apply Rmult_le_compat_l; [apply bpow_ge_0|lra]]. rewrite <- bpow_plus. cbn. lra. }
      destruct (rnd_nng (3 / d) 60) as [-> [_ U]]; [lra|lia|]. split; [reflexivity|]. split; [|exact U]. apply rnd64_ge; [apply (format64_IZR 2); lia|lra]. }
    apply v64_Fin in E as [F E]. rewrite <- E in B. destruct (gl_log _ _ _ _ _ GL _ F B) as [Fl Bl]. eexists. split; [apply v64_fin, Fl|exact Bl].
  Qed.
  Lemma nng_ofZ n k : (0 <= n <= 2 ^ 53)%Z -> IZR n <= P2 k -> nng k (f_of_Z n).
  Proof. intros H L. exists (IZR n). split; [apply v64_ofZ; lia|]. split; [apply IZR_le; lia|exact L]. Qed.
  Lemma nng_pos_mul j x a : nng j x -> v64 x = Fin a -> 0 < a -> (j <= 900)%Z -> (-1000 <= j)%Z -> exists b, v64 (fmul (f_of_Z 3) x) = Fin b /\ 0 < b <= P2 (2 + j).
  Proof.
    intros N E A J J'. assert (nng (2 + j) (fmul (f_of_Z 3) x)) as (b & Eb & B) by (apply nng_mul; [apply nng_ofZ; [lia|cbn; lra]|exact N|lia]).
    exists b. split; [exact Eb|]. split; [|lra]. rewrite v64_mul, v64_ofZ, E in Eb by lia. cbn [xr2] in Eb.
    assert (a <= P2 j) by (destruct N as (a' & E' & N); rewrite E in E'; injection E' as <-; lra).
    destruct (rnd_nng (3 * a) (2 + j)) as [Q _]; [rewrite bpow_plus; cbn [bpow]; change (Z.pow_pos radix2 2) with 4%Z; lra|lia|].
    rewrite Q in Eb. injection Eb as <-. apply Rlt_le_trans with a; [exact A|]. apply rnd64_ge; [eapply v64_Fin_format; eauto|lra].
  Qed.

  Lemma bernstein_EB_ok j (x : list f64) lo up c : (1 <= length x)%nat -> INR (length x) <= MAXN -> Forall (bdd j) x -> (-400 <= j <= 460)%Z -> conf_ok c ->
    within lo up x = true -> v64 (fsub up lo) = PInf \/ nng 500 (fsub up lo) ->
    exists e, @bernstein_EB _ _ lib x lo up c = Ok e /\ fleb f0 e = true.
  Proof.
    intros N M F J C W R. pose proof (bdd_all _ _ F) as FF. unfold bernstein_EB. cbv zeta. cbn [nsub f64_num].
    assert (fleb f0 (fsub up lo) = true) as L0.
    { destruct R as [R|R]; [rewrite v64_leb, R; reflexivity|eapply nng_leb0; eauto]. }
    set (range_ := fsub up lo) in *. clearbody range_.
    rewrite (fin_nonan x FF), (degenerate_fin x FF), (conf_in01' c C), W. cbn [nleb n0 f64_num]. rewrite L0. cbn [negb py_assert bind].
    destruct (Z.leb_spec (Z.of_nat (length x)) 1) as [S|S]; [exists range_; split; [reflexivity|exact L0]|].
    cbn [nlog nsqrt fn_f64 ndiv nadd n1 nofZ nmul f64_num].
    destruct (log_ok c C) as (a & Ea & Ha). set (A := flog (fdiv (f_of_Z 3) (fsub (f_of_Z 1) c))) in *. clearbody A.
    assert (nng 10 A) as NA by (exists a; split; [exact Ea|lra]).
    assert (nng (j + 16) (@nstd _ _ lib 0 x)) as NS by (apply nng_std; auto; lia).
    pose proof (len_val x M) as EN. assert (1 <= INR (length x)) as N1 by (apply (le_INR 1); exact N).
    assert (nng (j + 16 + 6) (fmul (@nstd _ _ lib 0 x) (fsqrt (fdiv (fmul (f_of_Z 2) A) (lenT x))))) as T1.
    { apply nng_mul; [exact NS| |lia]. apply nng_sqrt; [|lia]. apply (nng_le 11); [|lia]. eapply nng_div; [|exact EN|exact N1|lia].
      apply (nng_mul 1 10); [apply nng_ofZ; [lia|cbn; lra]|exact NA|lia]. }
    set (t1 := fmul (@nstd _ _ lib 0 x) _) in *. clearbody t1.
    destruct (nng_pos_mul 10 A a NA Ea ltac:(lra) ltac:(lia) ltac:(lia)) as (b & Eb & Hb). set (A3 := fmul (f_of_Z 3) A) in *. clearbody A3.
    destruct R as [R|R].
    - assert (v64 (fadd t1 (fdiv (fmul A3 range_) (lenT x))) = PInf) as E.
      { assert (v64 (fmul A3 range_) = PInf) as E3.
        { rewrite v64_mul, Eb, R. cbn [xr2 xmul]. unfold xinf_mul. rewrite Reqb_ne by lra. replace (Rltb 0 b) with true; [reflexivity|].
          symmetry. apply Rltb_spec. lra. }
        assert (fmul A3 range_ = B754_infinity false) as -> by (destruct (fmul A3 range_) as [?|[]| |?]; try discriminate; reflexivity).
        unfold lenT. cbn [nofZ f64_num]. rewrite div_inf by assumption. destruct T1 as (r & Er & _). now rewrite v64_add, Er. }
      eexists. assert (fleb f0 (fadd t1 (fdiv (fmul A3 range_) (lenT x))) = true) as Q by (rewrite v64_leb, E; reflexivity).
      rewrite Q. cbn [py_assert bind]. split; [reflexivity|exact Q].
    - assert (nng 513 (fadd t1 (fdiv (fmul A3 range_) (lenT x)))) as T.
      { apply (nng_add 512); [eapply nng_le; [exact T1|lia]| |lia]. eapply nng_div; [|exact EN|exact N1|lia].
        apply (nng_mul 12 500); [exists b; split; [exact Eb|]; change (2 + 10)%Z with 12%Z in Hb; lra|exact R|lia]. }
      eexists. rewrite (nng_leb0 _ _ T). cbn [py_assert bind]. split; [reflexivity|eapply nng_leb0; eauto].
  Qed.

  Definition split_roots (r s : f64) : Prop := (fleb r f0 = true /\ fleb f0 s = true) \/ (fleb s f0 = true /\ fleb f0 r = true).
  Lemma feqb0 x r : v64 x = Fin r -> feqb x f0 = true <-> r = 0.
  Proof.
    intros E. apply v64_Fin in E as [F <-]. rewrite feqb_key by (auto; now apply fisfin_notnan). destruct x as [s|s| |s m e B]; try discriminate; cbn; try tauto.
  Qed.
  Lemma np_roots_ok a b c va vb vc : v64 a = Fin va -> v64 b = Fin vb -> v64 c = Fin vc -> 0 < va -> 0 <= vb -> vc <= 0 ->
    vb / va <= P2 900 -> - vc / va <= P2 900 -> exists r s, @np_roots _ _ lib a b c = Some [r; s] /\ split_roots r s.
  Proof.
    intros Ea Eb Ec Pa Pb Pc Qb Qc. unfold np_roots. cbn [neqb n0 f64_num].
    assert (feqb a f0 = false) as ->. { apply Bool.not_true_iff_false. rewrite (feqb0 a va Ea). lra. } cbn [andb].
    pose proof Ea as Ea'. apply v64_Fin in Ea' as [Fa Ba].
    assert (fleb f0 f0 = true) as R0 by reflexivity.
    assert (vb / va >= 0) as D1 by (apply Rle_ge, Rmult_le_pos; [lra|apply Rlt_le, Rinv_0_lt_compat; lra]).
    destruct (feqb c f0) eqn:Zc.
    - destruct (feqb b f0) eqn:Zb; cbn [andb]; [exists f0, f0; split; [reflexivity|now left]|].
      exists (ndiv (nopp b) a), f0. split; [reflexivity|]. left. split; [|exact R0]. unfold nopp. cbn [ndiv nsub n0 f64_num].
      assert (v64 (fsub f0 b) = Fin (- vb)) as En.
      { rewrite v64_sub, Eb. change (v64 f0) with (Fin 0). cbn [xr2]. replace (0 - vb) with (- vb) by ring. rewrite xround_odd. 
        apply v64_Fin in Eb as [_ <-]. unfold xround. rewrite rnd64_id by apply B2R_format. rewrite Rlt_bool_true by apply abs_B2R_lt_emax. reflexivity. }
      apply v64_Fin in En as [Fn Bn]. rewrite v64_leb, v64_div_fin; [|exact Fn|lra]. rewrite Bn, Ba. change (v64 f0) with (Fin 0).
      replace (- vb / va) with (- (vb / va)) by (unfold Rdiv; ring).
      destruct (rnd_nng (vb / va) 900) as [E [P _]]; [lra|lia|]. rewrite xround_odd, E. cbn. apply Rleb_spec. lra.
    - rewrite !andb_false_r. apply v64_Fin in Eb as [Fb Bb]. apply v64_Fin in Ec as [Fc Bc].
      assert (exists p, v64 (fdiv b a) = Fin p /\ 0 <= p) as (p & Ep & Pp).
      { rewrite v64_div_fin; [|exact Fb|lra]. rewrite Bb, Ba. destruct (rnd_nng (vb / va) 900) as [-> [P _]]; [lra|lia|eauto]. }
      assert (exists q, v64 (fdiv c a) = Fin q /\ q <= 0) as (q & Eq & Pq).
      { rewrite v64_div_fin; [|exact Fc|lra]. rewrite Bc, Ba. replace (vc / va) with (- (- vc / va)) by (unfold Rdiv; ring). rewrite xround_odd.
        destruct (rnd_nng (- vc / va) 900) as [-> [P _]]; [|lia|exists (- rnd64 (- vc / va)); split; [reflexivity|lra]].
        split; [apply Rmult_le_pos; [lra|apply Rlt_le, Rinv_0_lt_compat; lra]|exact Qc]. }
      cbn [eig2 fn_f64 ndiv f64_num]. apply v64_Fin in Ep as [Fp Bp]. apply v64_Fin in Eq as [Fq Bq].
      destruct (gl_eig _ _ _ _ _ GL (fdiv b a) (fdiv c a) Fp Fq ltac:(lra) ltac:(lra)) as (r & s & -> & H). exists r, s. auto.
  Qed.

  (** limits -R and R of differences *)
  Lemma opp_val R r : v64 R = Fin r -> v64 (nopp R) = Fin (- r).
  Proof.
    intros E. unfold nopp. cbn [nsub n0 f64_num]. rewrite v64_sub, E. change (v64 f0) with (Fin 0). cbn [xr2]. replace (0 - r) with (- r) by ring.
    rewrite xround_odd. apply v64_Fin in E as [_ <-]. unfold xround. rewrite rnd64_id by apply B2R_format. rewrite Rlt_bool_true by apply abs_B2R_lt_emax. reflexivity.
  Qed.
  Lemma within_bdd R r e (x : list f64) : v64 R = Fin r -> r <= P2 e -> within (nopp R) R x = true -> Forall (bdd e) x.
  Proof.
    intros E L W. unfold within in W. apply andb_true_iff in W as [A B]. rewrite forallb_forall in A, B. apply Forall_forall. intros a I.
    specialize (A a I). specialize (B a I). cbn [nleb f64_num] in A, B. rewrite v64_leb, (opp_val R r E) in A. rewrite v64_leb, E in B.
    destruct (v64 a) as [v| | |] eqn:Ea; try discriminate. cbn in A, B. apply Rleb_spec in A, B. exists v. split; [exact Ea|]. apply Rabs_le. lra.
  Qed.
  Lemma root_pval r s : split_roots r s ->
    let m := fold_left nmax [s] r in unit_p (nmin n1 (nmul (nofZ 3) (fexp (nopp (nmul m m))))) .
  Proof.
    intros H m.
    assert (fisnan m = false) as Nm.
    { unfold m. cbn [fold_left]. unfold nmax. destruct H as [[A B]|[A B]]; destruct (fleb_notnan _ _ A), (fleb_notnan _ _ B); destruct (_ || _); auto. }
    clearbody m. assert (fleb f0 (fmul m m) = true) as S.
    { rewrite v64_leb, v64_mul. rewrite v64_nan in Nm. change (v64 f0) with (Fin 0). destruct (v64 m) as [v| | |]; try discriminate; try reflexivity.
      cbn [xr2]. assert (0 <= v * v) by nra. unfold xround. destruct (Rlt_bool _ _); cbn; [apply Rleb_spec; apply rnd64_ge; [apply format64_0|lra]|].
      destruct (Rltb (v * v) 0) eqn:Q; [apply Rltb_spec in Q; lra|reflexivity]. }
    cbn [nmul nofZ n1 f64_num]. set (B := fmul m m) in *. clearbody B.
    assert (fleb (nopp B) f0 = true) as S'.
    { rewrite v64_leb in *. change (v64 f0) with (Fin 0) in *. destruct (v64 B) as [v| | |] eqn:E; try discriminate.
      - rewrite (opp_val B v E). cbn in *. apply Rleb_spec in S. apply Rleb_spec. lra.
      - unfold nopp. cbn [nsub n0 f64_num]. rewrite v64_sub, E. reflexivity. }
    pose proof (gl_exp _ _ _ _ _ GL _ S') as X. set (E := fexp (nopp B)) in *. clearbody E.
    assert (fleb f0 (fmul (f_of_Z 3) E) = true) as D.
    { rewrite v64_leb in *. change (v64 f0) with (Fin 0) in *. rewrite v64_mul, v64_ofZ by lia. destruct (v64 E) as [v| | |]; try discriminate.
      - cbn in X. apply Rleb_spec in X. cbn [xr2]. unfold xround. destruct (Rlt_bool _ _); cbn; [apply Rleb_spec; apply rnd64_ge; [apply format64_0|lra]|].
        destruct (Rltb (3 * v) 0) eqn:Q; [apply Rltb_spec in Q; lra|reflexivity].
      - cbn [xr2 xmul]. unfold xinf_mul. rewrite Reqb_ne by lra. replace (Rltb 0 3) with true; [reflexivity|]. symmetry. apply Rltb_spec. lra. }
    set (d := fmul (f_of_Z 3) E) in *. clearbody d. unfold nmin. cbn [nleb f64_num nisnan]. destruct (fleb (f_of_Z 1) d) eqn:L; cbn [orb].
    - apply unit_p_1.
    - replace (fisnan (f_of_Z 1)) with false by reflexivity. split; [exact D|]. destruct (fleb_notnan _ _ D) as [_ Nd].
      destruct (fleb d (f_of_Z 1)) eqn:Q; [reflexivity|exfalso]. rewrite v64_leb in *. rewrite v64_ofZ in * by lia. rewrite v64_nan in Nd.
      destruct (v64 d) as [v| | |]; cbn in *; try discriminate. apply Rleb_false in L, Q. lra.
  Qed.
  Lemma bernstein_test_ok (x : list f64) R : (1 <= length x)%nat -> INR (length x) <= MAXN -> Forall (fun a => fisfin a = true) x ->
    within (nopp R) R x = true -> v64 R = PInf \/ (exists r, v64 R = Fin r /\ (r = 0 \/ P2 (-400) <= r <= P2 450)) ->
    exists p, @bernstein_test _ _ lib x (nopp R) R = Ok p /\ unit_p p.
  Proof.
    intros N M FF W HR. unfold bernstein_test. cbv zeta. rewrite (fin_nonan x FF), (degenerate_fin x FF), W.
    assert (nleb n0 (nsub R (nopp R)) = true) as L0.
    { cbn [nleb nsub n0 f64_num]. rewrite v64_leb, v64_sub. change (v64 f0) with (Fin 0). destruct HR as [E|(r & E & H)].
      - unfold nopp. cbn [nsub n0 f64_num]. rewrite v64_sub, E. reflexivity.
      - rewrite (opp_val R r E), E. cbn [xr2]. assert (0 <= r) by (pose proof (bpow_gt_0 radix2 (-400)); lra).
        unfold xround. destruct (Rlt_bool _ _); cbn; [apply Rleb_spec; apply rnd64_ge; [apply format64_0|lra]|].
        destruct (Rltb (r - - r) 0) eqn:Q; [apply Rltb_spec in Q; lra|reflexivity]. }
    rewrite L0. cbn [negb py_assert bind].
    destruct (Z.leb_spec (Z.of_nat (length x)) 1) as [S|S]; [exists (f_of_Z 1); split; [reflexivity|apply unit_p_1]|].
    destruct HR as [E|(r & E & H)].
    { replace (neqb (nsub R (nopp R)) ninf) with true; [rewrite orb_true_r; exists (f_of_Z 1); split; [reflexivity|apply unit_p_1]|].
      assert (R = B754_infinity false) as -> by (destruct R as [?|[]| |?]; try discriminate; reflexivity). reflexivity. }
    destruct H as [->|H].
    { assert (v64 (fsub R (nopp R)) = Fin 0) as E0.
      { rewrite v64_sub, (opp_val R 0 E), E. cbn [xr2]. replace (0 - - 0) with 0 by ring. apply xround_0. }
      replace (neqb (nsub R (nopp R)) n0) with true; [exists (f_of_Z 1); split; [reflexivity|apply unit_p_1]|].
      symmetry. cbn [neqb nsub n0 f64_num]. now apply (feqb0 _ 0 E0). }
    (* the size of R *)
    pose proof (bpow_gt_0 radix2 (-400)) as P400.
    destruct (mag radix2 r) as (e & He). specialize (He ltac:(lra)). rewrite Rabs_pos_eq in He by lra.
    assert (-400 < e)%Z as Le by (apply (lt_bpow radix2); lra). assert (e - 1 <= 450)%Z as Ue by (apply (le_bpow radix2); lra).
    assert (exists g, v64 (fsub R (nopp R)) = Fin g /\ P2 e <= g <= P2 (e + 1)) as (g & Eg & Hg).
    { rewrite v64_sub, (opp_val R r E), E. cbn [xr2]. pose proof (P2_S e) as S1. pose proof (P2_S (e - 1)) as S2. replace (e - 1 + 1)%Z with e in S2 by lia.
      destruct (rnd_nng (r - - r) (e + 1)) as [-> [_ U]]; [lra|lia|]. eexists. split; [reflexivity|]. split; [|exact U].
      apply rnd64_ge; [apply format_P2; lia|lra]. }
    cbn [neqb n0 ninf nsub f64_num]. set (range_ := fsub R (nopp R)) in *. clearbody range_.
    pose proof (bpow_gt_0 radix2 e) as Pe.
    assert (feqb range_ f0 = false) as ->. { apply Bool.not_true_iff_false. rewrite (feqb0 _ _ Eg). lra. }
    assert (feqb range_ finf = false) as ->. { destruct range_ as [?|[]| |?]; try discriminate; reflexivity. }
    cbn [orb]. cbn [ndiv nmul nofZ nsqrt fn_f64 f64_num].
    assert (Forall (bdd e) x) as F by (apply (within_bdd R r e); [exact E|lra|exact W]).
    pose proof (len_val x M) as EN. assert (1 <= INR (length x)) as N1 by (apply (le_INR 1); exact N).
    (* a *)
    assert (exists a, v64 (fdiv (fmul (f_of_Z 3) range_) (lenT x)) = Fin a /\ P2 (e - 30) <= a) as (a & Ea & Ha).
    { assert (exists b, v64 (fmul (f_of_Z 3) range_) = Fin b /\ P2 e <= b <= P2 (e + 3)) as (b & Eb & Hb).
      { rewrite v64_mul, v64_ofZ, Eg by lia. cbn [xr2].
        destruct (rnd_nng (3 * g) (e + 3)) as [-> [_ U]].
        - split; [lra|]. apply Rle_trans with (4 * P2 (e + 1)); [lra|]. replace (e + 3)%Z with (2 + (e + 1))%Z by lia. rewrite (bpow_plus radix2 2). cbn [bpow].
          change (Z.pow_pos radix2 2) with 4%Z. lra.
        - lia.
        - eexists. split; [reflexivity|]. split; [|exact U]. apply rnd64_ge; [apply format_P2; lia|lra]. }
      apply v64_Fin in Eb as [Fb Bb]. apply v64_Fin in EN as [_ Bn]. rewrite v64_div_fin; [|exact Fb|lra]. rewrite Bb, Bn.
      assert (P2 (e - 30) <= b / INR (length x)) as L.
      { apply (Rmult_le_reg_r (INR (length x))); [lra|]. unfold Rdiv. rewrite Rmult_assoc, Rinv_l by lra.
        apply Rle_trans with (P2 (e - 30) * P2 30); [apply Rmult_le_compat_l; [apply bpow_ge_0|exact M]|]. rewrite <- bpow_plus. replace (e - 30 + 30)%Z with e by lia. lra. }
      pose proof (bpow_gt_0 radix2 (e - 30)).
      destruct (rnd_nng (b / INR (length x)) (e + 3)) as [-> _].
      - split; [lra|]. apply Rle_trans with b; [|lra]. apply (Rmult_le_reg_r (INR (length x))); [lra|]. unfold Rdiv. rewrite Rmult_assoc, Rinv_l by lra. nra.
      - lia.
      - eexists. split; [reflexivity|]. apply rnd64_ge; [apply format_P2; lia|lra]. }
    set (A := fdiv (fmul (f_of_Z 3) range_) (lenT x)) in *. clearbody A.
    (* b *)
    assert (nng (e + 16 + 1) (fmul (@nstd _ _ lib 0 x) (fsqrt (fdiv (f_of_Z 2) (lenT x))))) as (b & Eb & Hb).
    { apply nng_mul; [apply nng_std; auto; lia| |lia]. apply nng_sqrt; [|lia]. eapply nng_div; [|exact EN|exact N1|lia]. apply nng_ofZ; [lia|cbn; lra]. }
    set (Bc := fmul (@nstd _ _ lib 0 x) (fsqrt (fdiv (f_of_Z 2) (lenT x)))) in *. clearbody Bc.
    (* c *)
    assert (exists c, v64 (nopp (nabs (nmean x))) = Fin c /\ - P2 e <= c <= 0) as (c & Ec & Hc).
    { assert (bdd e (nmean x)) as (m & Em & Hm) by (apply bdd_mean; auto; lia). exists (- Rabs m). split; [|pose proof (Rabs_pos m); lra].
      apply opp_val. rewrite nabs_fabs, v64_abs, Em. reflexivity. }
    set (Cc := nopp (nabs (nmean x))) in *. clearbody Cc.
    pose proof Ea as Ea'. apply v64_Fin in Ea' as [Fa _]. pose proof Eb as Eb'. apply v64_Fin in Eb' as [Fb _]. pose proof Ec as Ec'. apply v64_Fin in Ec' as [Fc _].
    cbn [nisfin f64_num]. rewrite Fa, Fb, Fc. cbn [andb py_assert bind].
    pose proof (bpow_gt_0 radix2 (e - 30)) as Pe30.
    assert (forall v k, 0 <= v <= P2 k -> (k <= e + 20)%Z -> v / a <= P2 900) as Q.
    { intros v k Hv Hk. apply (Rmult_le_reg_r a); [lra|]. unfold Rdiv. rewrite Rmult_assoc, Rinv_l by lra.
      apply Rle_trans with (P2 900 * P2 (e - 30)); [|apply Rmult_le_compat_l; [apply bpow_ge_0|lra]]. rewrite <- bpow_plus, Rmult_1_r.
      apply Rle_trans with (P2 k); [lra|]. apply bpow_le. lia. }
    destruct (np_roots_ok A Bc Cc a b c Ea Eb Ec) as (r1 & r2 & -> & SR); try lra.
    { apply (Q b (e + 16 + 1)%Z); [lra|lia]. }
    { apply (Q (- c) e); [lra|lia]. }
    cbn [length Nat.eqb py_assert bind].
    assert (existsb (fun r => nleb r f0) [r1; r2] = true) as ->.
    { cbn [existsb nleb n0 f64_num]. destruct SR as [[-> _]|[-> _]]; [reflexivity|now rewrite orb_true_r]. }
    assert (existsb (fun r => nleb f0 r) [r1; r2] = true) as ->.
    { cbn [existsb nleb n0 f64_num]. destruct SR as [[_ ->]|[_ ->]]; [now rewrite orb_true_r|reflexivity]. }
    cbn [py_assert bind nexp fn_f64]. destruct (root_pval r1 r2 SR) as [U1 U2].
    match goal with |- context [nmin n1 ?d] => set (pv := nmin n1 d) end.
    cbn [nleb n0 n1 f64_num].
    assert (fleb f0 pv = true) as -> by exact U1. assert (fleb pv (f_of_Z 1) = true) as -> by exact U2. cbn [andb py_assert bind].
    exists pv. split; [reflexivity|]. split; [exact U1|exact U2].
  Qed.
End Library.
