(** The running sums of bootstrap weights in doubles: a replicate gives each
    point its count, or 1e-10 if it was not drawn.  The sum over all points stays
    strictly above the sum over the positives, although 1e-10 is added to
    thousands. *)
From Coq Require Import Reals ZArith Lra Lia List Bool.
From Flocq Require Import Core BinarySingleNaN.
From Verif Require Import PyBase F64 F64Lemmas Num PerfCurves PerfProofs7 PerfProofs9 MeanProofs.
Open Scope R_scope.
Open Scope list_scope.

(** ** Rounding within a binade *)
Lemma cexp_bin m x : P2 m <= x < P2 (m + 1) -> (-900 <= m)%Z -> cexp radix2 fexp64 x = (m - 52)%Z.
Proof.
  intros B M. unfold cexp. rewrite (mag_unique_pos radix2 x (m + 1)).
  - unfold SpecFloat.fexp, SpecFloat.emin, prec64, emax64. lia.
  - replace (m + 1 - 1)%Z with m by lia. exact B.
Qed.

Lemma rnd_bin m x : P2 m <= x < P2 (m + 1) -> (-900 <= m)%Z ->
  rnd64 x = IZR (ZnearestE (x * P2 (52 - m))) * P2 (m - 52).
Proof.
  intros B M. unfold round, scaled_mantissa, F2R. cbn [Fnum Fexp]. rewrite (cexp_bin m x B M).
  replace (- (m - 52))%Z with (52 - m)%Z by lia. reflexivity.
Qed.

Lemma P2_cancel a : P2 a * P2 (- a) = 1.
Proof. rewrite <- bpow_plus. replace (a + - a)%Z with 0%Z by lia. reflexivity. Qed.

Lemma fmt_bin m x : format64 x -> P2 m <= x < P2 (m + 1) -> (-900 <= m)%Z -> exists z, x = IZR z * P2 (m - 52).
Proof.
  intros F B M. exists (ZnearestE (x * P2 (52 - m))). rewrite <- (rnd_bin m x B M). symmetry. now apply rnd64_id.
Qed.

Lemma bin_scale z m : IZR z * P2 (m - 52) * P2 (52 - m) = IZR z.
Proof. rewrite Rmult_assoc, <- bpow_plus. replace (m - 52 + (52 - m))%Z with 0%Z by lia. change (P2 0) with 1. lra. Qed.

Lemma near_err m x : P2 m <= x < P2 (m + 1) -> (-900 <= m)%Z -> Rabs (rnd64 x - x) <= P2 (m - 52) / 2.
Proof.
  intros B M. rewrite (rnd_bin m x B M). pose proof (Znearest_half (fun n => negb (Z.even n)) (x * P2 (52 - m))) as H.
  replace x with (x * P2 (52 - m) * P2 (m - 52)) at 2
    by (rewrite Rmult_assoc, <- bpow_plus; replace (52 - m + (m - 52))%Z with 0%Z by lia; change (P2 0) with 1; lra).
  rewrite <- Rmult_minus_distr_r, Rabs_mult, (Rabs_pos_eq (P2 (m - 52))) by apply bpow_ge_0.
  rewrite Rabs_minus_sym. unfold Rdiv. rewrite (Rmult_comm (P2 (m - 52))). apply Rmult_le_compat_r; [apply bpow_ge_0|exact H].
Qed.

(** ** The weight of a point that was not drawn *)
Definition e10 : R := B2R EPS.
Definition M10 : Z := 7737125245533627.
Lemma e10_val : e10 = IZR M10 * P2 (-86).
Proof.
  unfold e10. rewrite <- SF2R_B2SF. assert (B2SF EPS = SpecFloat.S754_finite false 7737125245533627 (-86)) as -> by (vm_compute; reflexivity).
  reflexivity.
Qed.
Lemma e10_range : P2 (-34) <= e10 <= P2 (-33).
Proof. apply EPS_val. Qed.
Lemma e10_dec : 99 / 10 ^ 12 <= e10 <= 101 / 10 ^ 12.
Proof. rewrite e10_val. unfold M10. change (P2 (-86)) with (/ IZR (2 ^ 86)). cbn [Z.pow Z.pow_pos Pos.iter Z.mul Pos.mul]. lra. Qed.
Lemma e10_pos : 0 < e10.
Proof. pose proof e10_dec. lra. Qed.

(** adding it in a binade adds the same number, whatever it is added to *)
Lemma add_e10 m : (0 <= m)%Z -> exists z, (0 <= z)%Z /\ Rabs (IZR z * P2 (m - 52) - e10) <= P2 (m - 52) / 2 /\
  forall x, format64 x -> P2 m <= x -> x + e10 < P2 (m + 1) -> rnd64 (x + e10) = x + IZR z * P2 (m - 52).
Proof.
  intros M. set (q := e10 * P2 (52 - m)). exists (ZnearestE q).
  pose proof (Znearest_half (fun n => negb (Z.even n)) q) as H.
  assert (0 <= q) as Q by (apply Rmult_le_pos; [left; apply e10_pos|apply bpow_ge_0]).
  assert (q * P2 (m - 52) = e10) as Qe.
  { unfold q. rewrite Rmult_assoc, <- bpow_plus. replace (52 - m + (m - 52))%Z with 0%Z by lia. change (P2 0) with 1. lra. }
  assert (Rabs (q - IZR (ZnearestE q)) < / 2) as S.
  { destruct H as [H|H]; [exact H|]. exfalso.
    assert (exists s, (s = 1 \/ s = -1)%Z /\ 2 * q = IZR (2 * ZnearestE q + s)) as (s & Hs & E).
    { unfold Rabs in H. destruct (Rcase_abs _); [exists (-1)%Z|exists 1%Z]; (split; [auto|]); rewrite plus_IZR, mult_IZR; lra. }
    assert (q = IZR M10 * P2 (- (34 + m))) as Eq.
    { unfold q. rewrite e10_val, Rmult_assoc, <- bpow_plus. do 2 f_equal. lia. }
    assert (IZR M10 * 2 = 2 * q * P2 (34 + m)) as E2.
    { rewrite Eq at 1. pose proof (P2_cancel (34 + m)) as C. rewrite <- (Rmult_1_r (IZR M10)) at 1. rewrite <- C. ring. }
    rewrite E in E2.
    replace (34 + m)%Z with (33 + m + 1)%Z in E2 by lia. rewrite bpow_plus in E2. change (P2 1) with 2 in E2.
    assert (IZR M10 = IZR (2 * ZnearestE q + s) * P2 (33 + m)) as E3 by lra.
    rewrite <- IZR_Zpower in E3 by lia. rewrite <- mult_IZR in E3. apply eq_IZR in E3.
    replace (33 + m)%Z with (1 + (32 + m))%Z in E3 by lia. rewrite Z.pow_add_r in E3 by lia.
    change (Zpower_nat radix2 1) with 2%Z in E3. change (radix2 ^ 1)%Z with 2%Z in E3.
    unfold M10 in E3. apply (f_equal Z.odd) in E3.
    replace ((2 * ZnearestE q + s) * (2 * radix2 ^ (32 + m)))%Z with (2 * ((2 * ZnearestE q + s) * radix2 ^ (32 + m)))%Z in E3 by ring.
    rewrite Z.odd_mul in E3. cbn in E3. discriminate. }
  split; [|split].
  - apply le_IZR. apply Rnot_lt_le. intros N. assert (ZnearestE q <= -1)%Z as N1 by (apply lt_IZR in N; lia).
    apply IZR_le in N1. rewrite Rabs_pos_eq in S by lra. lra.
  - rewrite <- Qe, <- Rmult_minus_distr_r, Rabs_mult, (Rabs_pos_eq (P2 (m - 52))) by apply bpow_ge_0.
    rewrite Rabs_minus_sym. unfold Rdiv. rewrite (Rmult_comm (P2 (m - 52))). apply Rmult_le_compat_r; [apply bpow_ge_0|lra].
  - intros x F L U. pose proof e10_pos as P. destruct (fmt_bin m x F) as [z Z]; [lra|lia|].
    rewrite (rnd_bin m (x + e10)) by (try lra; lia).
    replace (ZnearestE ((x + e10) * P2 (52 - m))) with (z + ZnearestE q)%Z.
    + rewrite plus_IZR, Z. ring.
    + symmetry. apply Znearest_imp. rewrite Rmult_plus_distr_r. fold q. rewrite Z, bin_scale, plus_IZR.
      replace (IZR z + q - (IZR z + IZR (ZnearestE q))) with (q - IZR (ZnearestE q)) by ring. exact S.
Qed.

(** adding an integer in a binade is exact *)
Lemma add_int m x k : (0 <= m <= 52)%Z -> format64 x -> P2 m <= x -> (0 <= k)%Z -> x + IZR k < P2 (m + 1) -> rnd64 (x + IZR k) = x + IZR k.
Proof.
  intros M F L K U. assert (0 <= IZR k) as K0 by now apply IZR_le. destruct (fmt_bin m x F) as [z Z]; [lra|lia|].
  rewrite (rnd_bin m) by (try lra; lia).
  assert (IZR k = IZR (k * 2 ^ (52 - m)) * P2 (m - 52)) as Ek.
  { rewrite mult_IZR. change 2%Z with (radix_val radix2) at 1. rewrite IZR_Zpower by lia. rewrite Rmult_assoc, <- bpow_plus.
    replace (52 - m + (m - 52))%Z with 0%Z by lia. change (P2 0) with 1. lra. }
  assert (x + IZR k = IZR (z + k * 2 ^ (52 - m)) * P2 (m - 52)) as E by (rewrite plus_IZR, Rmult_plus_distr_r, <- Z, <- Ek; reflexivity).
  rewrite E, bin_scale. f_equal. f_equal. apply Znearest_imp. rewrite Rminus_eq_0, Rabs_R0. lra.
Qed.

(** ** The two running sums *)
Definition wt (k : Z) : R := if (k =? 0)%Z then e10 else IZR k.
Definition step (s : R * R) (p : bool * Z) : R * R :=
  (rnd64 (fst s + wt (snd p)), if fst p then rnd64 (snd s + wt (snd p)) else snd s).
Definition sumk (L : list (bool * Z)) : Z := fold_right (fun p a => (snd p + a)%Z) 0%Z L.

Definition gap_ok (A : Z) (seen : bool) (p c t : R) : Prop :=
  if seen then
    if (A =? 0)%Z then e10 - p * P2 (-70) <= c - t
    else forall m, (2 ^ m <= A < 2 ^ (m + 1))%Z -> (0 <= m)%Z -> e10 - 2 * P2 (m - 52) <= c - t
  else c = t.

Record inv (p : R) (A : Z) (seen : bool) (c t : R) : Prop := {
  iv_fc : format64 c; iv_ft : format64 t; iv_A : (0 <= A)%Z; iv_lo : IZR A <= t; iv_le : t <= c;
  iv_up : c <= IZR A + p * P2 (-32);
  iv_gap : gap_ok A seen p c t
}.

Lemma IZR_P2 m : (0 <= m)%Z -> IZR (2 ^ m) = P2 m.
Proof. intros M. change 2%Z with (radix_val radix2). now rewrite IZR_Zpower. Qed.

Lemma rnd_up_small x : 0 <= x <= 8192 -> format64 x -> forall w, 0 <= w -> format64 w -> x + w <= 8192 ->
  Rabs (rnd64 (x + w) - (x + w)) <= P2 (-40).
Proof.
  intros X F w W G L. eapply Rle_trans; [apply rnd_add_err; auto|]. rewrite Rabs_pos_eq by lra. unfold u64.
  replace (P2 (-40)) with (P2 (-53) * 8192); [apply Rmult_le_compat_l; [apply bpow_ge_0|lra]|].
  change 8192 with (P2 13). rewrite <- bpow_plus. reflexivity.
Qed.

Lemma fmt_e10 : format64 e10.
Proof. apply B2R_format. Qed.
Lemma wt_fmt k : (0 <= k <= 2 ^ 53)%Z -> format64 (wt k).
Proof. intros K. unfold wt. destruct (k =? 0)%Z; [apply fmt_e10|apply format64_IZR; lia]. Qed.

Lemma binade_of A : (1 <= A)%Z -> exists m, (0 <= m)%Z /\ (2 ^ m <= A < 2 ^ (m + 1))%Z.
Proof.
  intros H. exists (Z.log2 A). split; [apply Z.log2_nonneg|]. pose proof (Z.log2_spec A ltac:(lia)) as S.
  replace (Z.log2 A + 1)%Z with (Z.succ (Z.log2 A)) by lia. exact S.
Qed.

Lemma binade_val m A x : (0 <= m)%Z -> (2 ^ m <= A < 2 ^ (m + 1))%Z -> IZR A <= x < IZR A + 1 -> P2 m <= x < P2 (m + 1).
Proof.
  intros M B X. rewrite <- !IZR_P2 by lia. split.
  - apply Rle_trans with (IZR A); [apply IZR_le; lia|lra].
  - assert (A + 1 <= 2 ^ (m + 1))%Z as H by lia. apply IZR_le in H. rewrite plus_IZR in H. lra.
Qed.

Lemma binade_mono m n A B : (0 <= m)%Z -> (0 <= n)%Z -> (2 ^ m <= A < 2 ^ (m + 1))%Z -> (2 ^ n <= B < 2 ^ (n + 1))%Z -> (A <= B)%Z -> (m <= n)%Z.
Proof.
  intros M N HA HB L. destruct (Z.le_gt_cases m n) as [|G]; auto. exfalso.
  assert (2 ^ (n + 1) <= 2 ^ m)%Z by (apply Z.pow_le_mono_r; lia). lia.
Qed.

Lemma P2_le1 k : (k <= 0)%Z -> P2 k <= 1.
Proof. intros. change 1 with (P2 0). now apply bpow_le. Qed.

Lemma inv_step p A seen c t b k : inv p A seen c t -> 0 <= p -> p + 1 <= 8192 -> (0 <= k)%Z -> (A + k <= 8190)%Z -> (b = false -> k = 0%Z) ->
  let s := step (c, t) (b, k) in inv (p + 1) (A + k) (seen || negb b) (fst s) (snd s).
Proof.
  intros [Fc Ft A0 Lo Le Up Gap] P0 P1 K0 AK BK s.
  assert (0 <= IZR A) as A0' by now apply IZR_le. assert (0 <= IZR k) as K0' by now apply IZR_le.
  assert (IZR (A + k) <= 8190) as AK' by now apply IZR_le. rewrite plus_IZR in AK'.
  pose proof e10_range as ER. pose proof e10_pos as EP. pose proof e10_dec as ED.
  assert (P2 (-32) = / IZR (2 ^ 32)) as Q32 by reflexivity. cbn [Z.pow Z.pow_pos Pos.iter Z.mul Pos.mul] in Q32.
  assert (P2 (-40) = / IZR (2 ^ 40)) as Q40 by reflexivity. cbn [Z.pow Z.pow_pos Pos.iter Z.mul Pos.mul] in Q40.
  assert (p * P2 (-32) <= / 1000) as SM by (rewrite Q32; lra).
  assert (0 <= p * P2 (-32)) as SM0 by (rewrite Q32; lra).
  set (w := wt k) in *.
  assert (format64 w) as Fw by (apply wt_fmt; lia).
  assert (0 <= w <= IZR k + P2 (-33)) as Bw.
  { unfold w, wt. pose proof (bpow_ge_0 radix2 (-33)). destruct (k =? 0)%Z eqn:E; [apply Z.eqb_eq in E; subst k|]; lra. }
  assert (IZR k <= w) as Bk.
  { unfold w, wt. destruct (k =? 0)%Z eqn:E; [apply Z.eqb_eq in E; subst k; lra|lra]. }
  assert (P2 (-33) = / IZR (2 ^ 33)) as Q33 by reflexivity. cbn [Z.pow Z.pow_pos Pos.iter Z.mul Pos.mul] in Q33.
  pose proof (rnd_up_small c ltac:(lra) Fc w (proj1 Bw) Fw ltac:(lra)) as Ec.
  pose proof (rnd_up_small t ltac:(lra) Ft w (proj1 Bw) Fw ltac:(lra)) as Et.
  assert (s = (rnd64 (c + w), if b then rnd64 (t + w) else t)) as Es by reflexivity. rewrite Es. cbn [fst snd]. clear Es s.
  assert (IZR (A + k) <= rnd64 (t + w)) as Lt.
  { apply rnd64_ge; [apply format64_IZR; lia|]. rewrite plus_IZR. lra. }
  assert (rnd64 (c + w) <= IZR (A + k) + (p + 1) * P2 (-32)) as Uc.
  { apply Rabs_le_inv in Ec. rewrite plus_IZR. rewrite Q40 in Ec. rewrite Q32 in *. lra. }
  assert (t <= rnd64 (t + w)) as Gt by (apply rnd64_ge; [exact Ft|lra]).
  assert (rnd64 (t + w) <= rnd64 (c + w)) as Mtc by (apply rnd64_mono; lra).
  constructor.
  - apply generic_format_round; [apply (fexp_correct prec64 emax64); reflexivity|apply valid_rnd_N].
  - destruct b; [|exact Ft]. apply generic_format_round; [apply (fexp_correct prec64 emax64); reflexivity|apply valid_rnd_N].
  - lia.
  - destruct b; [exact Lt|]. rewrite (BK eq_refl), Z.add_0_r. exact Lo.
  - destruct b; lra.
  - exact Uc.
  - assert (forall x, IZR (A + k) <= x + w -> x <= c -> forall m, (2 ^ m <= A + k < 2 ^ (m + 1))%Z -> (0 <= m)%Z -> Rabs (rnd64 (x + w) - (x + w)) <= P2 (m - 52) / 2) as NE.
    { intros x Hx Hc m B M. apply near_err; [|lia]. apply (binade_val m (A + k)); auto. rewrite plus_IZR. rewrite plus_IZR in Hx. lra. }
    assert (P2 (-70) = / IZR (2 ^ 70)) as Q70 by reflexivity. cbn [Z.pow Z.pow_pos Pos.iter Z.mul Pos.mul] in Q70.
    assert (forall x, 0 <= x <= c -> format64 x -> (A + k = 0)%Z -> Rabs (rnd64 (x + w) - (x + w)) <= P2 (-70) / 2) as E0.
    { intros x X Fx Z. eapply Rle_trans; [apply rnd_add_err; auto|]. rewrite Rabs_pos_eq by lra. unfold u64.
      assert (A = 0%Z) as -> by lia. assert (k = 0%Z) as -> by lia.
      replace (P2 (-70) / 2) with (P2 (-53) * P2 (-18)) by (rewrite <- bpow_plus; change (-53 + -18)%Z with (-71)%Z; replace (-70)%Z with (-71 + 1)%Z by lia; rewrite bpow_plus; change (P2 1) with 2; lra).
      apply Rmult_le_compat_l; [apply bpow_ge_0|]. assert (P2 (-18) = / IZR (2 ^ 18)) as -> by reflexivity.
      cbn [Z.pow Z.pow_pos Pos.iter Z.mul Pos.mul]. rewrite Q32, Q33 in *. lra. }
    assert (forall m, (0 <= m)%Z -> P2 (-52) <= P2 (m - 52)) as H52 by (intros; apply bpow_le; lia).
    assert (P2 (-52) = / IZR (2 ^ 52)) as Q52 by reflexivity. cbn [Z.pow Z.pow_pos Pos.iter Z.mul Pos.mul] in Q52.
    assert (c <= rnd64 (c + w)) as Gc by (apply rnd64_ge; [exact Fc|lra]).
    assert (IZR (A + k) <= c + w /\ IZR (A + k) <= t + w) as [Hc Ht] by (rewrite plus_IZR; lra).
    unfold gap_ok in *. destruct b; cbn [negb]; [rewrite orb_false_r|rewrite orb_true_r].
    + destruct seen; [|now rewrite Gap].
      destruct (A =? 0)%Z eqn:EA; [apply Z.eqb_eq in EA|apply Z.eqb_neq in EA].
      * destruct (A + k =? 0)%Z eqn:EK; [apply Z.eqb_eq in EK|apply Z.eqb_neq in EK].
        { pose proof (E0 c ltac:(lra) Fc EK) as C1. pose proof (E0 t ltac:(lra) Ft EK) as C2.
          apply Rabs_le_inv in C1. apply Rabs_le_inv in C2. lra. }
        intros m B M. pose proof (NE c Hc (Rle_refl _) m B M) as C1. pose proof (NE t Ht Le m B M) as C2.
        apply Rabs_le_inv in C1. apply Rabs_le_inv in C2. specialize (H52 m M). rewrite Q52 in H52. rewrite Q70 in Gap. lra.
      * assert ((A + k =? 0)%Z = false) as -> by (apply Z.eqb_neq; lia). intros m B M.
        destruct (binade_of A) as (m0 & M0 & B0); [lia|]. specialize (Gap m0 B0 M0).
        pose proof (binade_mono _ _ _ _ M0 M B0 B ltac:(lia)) as MM.
        destruct (Z.eq_dec m0 m) as [<-|Nm].
        { assert (forall x, format64 x -> IZR A <= x <= c -> P2 m0 <= x /\ x + w < P2 (m0 + 1)) as In.
          { intros x Fx X. split; [apply (binade_val m0 A x M0 B0); lra|]. apply (binade_val m0 (A + k) (x + w) M0 B). rewrite plus_IZR. lra. }
          destruct (In c Fc ltac:(lra)) as [c1 c2]. destruct (In t Ft ltac:(lra)) as [t1 t2].
          assert (m0 <= 52)%Z as M52.
          { destruct (Z.le_gt_cases m0 52); auto. exfalso. assert (2 ^ 52 <= 2 ^ m0)%Z by (apply Z.pow_le_mono_r; lia). lia. }
          unfold w, wt in *. destruct (k =? 0)%Z eqn:EK.
          - destruct (add_e10 m0 M0) as (z & _ & _ & H). rewrite !H by auto. lra.
          - rewrite !(add_int m0) by (auto; lia). lra. }
        pose proof (NE c Hc (Rle_refl _) m B M) as C1. pose proof (NE t Ht Le m B M) as C2.
        apply Rabs_le_inv in C1. apply Rabs_le_inv in C2.
        assert (P2 (m0 - 52) * 2 <= P2 (m - 52)).
        { change 2 with (P2 1). rewrite <- bpow_plus. apply bpow_le. lia. }
        lra.
    + assert (k = 0%Z) as Kz by auto. rewrite Kz, Z.add_0_r in *.
      assert (w = e10) as We by (unfold w; rewrite Kz; reflexivity).
      destruct (A =? 0)%Z eqn:EA; [apply Z.eqb_eq in EA|apply Z.eqb_neq in EA].
      * destruct seen; [rewrite Q70 in *; lra|]. pose proof (E0 c ltac:(lra) Fc EA) as C1. apply Rabs_le_inv in C1. rewrite Q70 in *. lra.
      * intros m B M. destruct seen; [specialize (Gap m B M); lra|].
        pose proof (NE c Hc (Rle_refl _) m B M) as C1. apply Rabs_le_inv in C1. pose proof (bpow_gt_0 radix2 (m - 52)). lra.
Qed.

Lemma inv_run L : forall p A seen c t, inv p A seen c t -> 0 <= p -> p + INR (length L) <= 8192 ->
  Forall (fun q => 0 <= snd q)%Z L -> (A + sumk L <= 8190)%Z -> Forall (fun q => fst q = false -> snd q = 0%Z) L ->
  let s := fold_left step L (c, t) in inv (p + INR (length L)) (A + sumk L) (seen || existsb (fun q => negb (fst q)) L) (fst s) (snd s).
Proof.
  induction L as [|[b k] L IH]; intros p A seen c t I P0 P1 K S B s.
  - unfold s. cbn. rewrite Rplus_0_r, Z.add_0_r, orb_false_r. exact I.
  - inversion K as [|? ? K1 K2]; subst. inversion B as [|? ? B1 B2]; subst. cbn [fst snd sumk fold_right] in *.
    fold (sumk L) in *.
    assert (0 <= sumk L)%Z as S0.
    { clear -K2. induction K2; cbn [sumk fold_right]; [lia|]. fold (sumk l). lia. }
    rewrite (S_INR (length L) : INR (length ((b, k) :: L)) = _) in *. pose proof (pos_INR (length L)) as LN.
    pose proof (inv_step p A seen c t b k I P0 ltac:(lra) K1 ltac:(lia) B1) as I1. cbv zeta in I1.
    unfold s. cbn [fold_left existsb fst snd]. destruct (step (c, t) (b, k)) as [c1 t1]. cbn [fst snd] in I1.
    replace (A + (k + sumk L))%Z with (A + k + sumk L)%Z by lia. rewrite orb_assoc.
    replace (p + (INR (length L) + 1)) with (p + 1 + INR (length L)) by lra.
    apply IH; auto; try lra; lia.
Qed.

Theorem gap_final L : INR (length L) <= 8192 -> Forall (fun q => 0 <= snd q)%Z L -> (1 <= sumk L <= 8190)%Z ->
  Forall (fun q => fst q = false -> snd q = 0%Z) L -> existsb (fun q => negb (fst q)) L = true ->
  let s := fold_left step L (0, 0) in snd s < fst s.
Proof.
  intros LN K S B Ex s. assert (inv 0 0 false 0 0) as I.
  { constructor; try lra; try apply format64_0; try lia; try reflexivity. }
  pose proof (inv_run L 0 0 false 0 0 I (Rle_refl _) ltac:(lra) K ltac:(lia) B) as J. cbv zeta in J. fold s in J.
  rewrite Ex, orb_true_r, Z.add_0_l in J. destruct J as [_ _ _ _ _ _ G]. unfold gap_ok in G.
  assert ((sumk L =? 0)%Z = false) as E by (apply Z.eqb_neq; lia). rewrite E in G.
  destruct (binade_of (sumk L)) as (m & M & Bm); [lia|]. specialize (G m Bm M).
  assert (m <= 12)%Z as M12.
  { destruct (Z.le_gt_cases m 12); auto. exfalso. assert (2 ^ 13 <= 2 ^ m)%Z by (apply Z.pow_le_mono_r; lia). lia. }
  assert (P2 (m - 52) <= P2 (-40)) as Hm by (apply bpow_le; lia). pose proof e10_dec.
  assert (P2 (-40) = / IZR (2 ^ 40)) as Q40 by reflexivity. cbn [Z.pow Z.pow_pos Pos.iter Z.mul Pos.mul] in Q40. lra.
Qed.
