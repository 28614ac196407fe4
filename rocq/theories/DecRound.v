(** Rounding of decimals: context rounding, quantize, create_decimal. *)
From Coq Require Import Reals Lra ZifyBool ZifyNat ZifyN.
From Verif Require Import PyBase F64 Dec Sciprint Spec_Sciprint DecProofs.
Open Scope Z_scope.

Arguments Z.pow : simpl never.

(** Integer form of "q*10^k is c rounded in mode m" (c, q magnitudes). *)
Definition rc_ok (m : rmode) (s : bool) (c q : N) (k : Z) : Prop :=
  match m with
  | ROUND_CEILING => sval s c <= sval s q * 10 ^ k < sval s c + 10 ^ k
  | ROUND_HALF_UP => 2 * Z.of_N c - 10 ^ k < 2 * Z.of_N q * 10 ^ k <= 2 * Z.of_N c + 10 ^ k
  | ROUND_HALF_EVEN => 2 * Z.of_N c - 10 ^ k <= 2 * Z.of_N q * 10 ^ k <= 2 * Z.of_N c + 10 ^ k
  end.

Lemma round_coef_ok m s c k : 0 <= k -> rc_ok m s c (round_coef m s c k) k.
Proof.
  intros Hk. destruct m; cbn [rc_ok].
  - apply round_ceiling; exact Hk.
  - apply round_half_up; exact Hk.
  - apply round_half_even; exact Hk.
Qed.

(** A coarser unit is fine when the rounded value is unchanged. *)
Lemma rc_ok_coarser m s c q k : 0 <= k -> rc_ok m s c (q * 10) k -> rc_ok m s c q (k + 1).
Proof.
  intros Hk. pose proof (Z.pow_pos_nonneg 10 k). unfold rc_ok, sval.
  rewrite Z.pow_add_r, Z.pow_1_r by lia. rewrite N2Z.inj_mul.
  destruct m, s; lia.
Qed.

Lemma d_fix_spec prec m s c e : 1 <= prec ->
  exists q e', d_fix prec m s c e = DFin s q e' /\ e <= e' /\ Z.of_N q < 10 ^ prec /\
    ((e' = e /\ q = c) \/ (10 ^ (prec - 1) <= Z.of_N q /\ rc_ok m s c q (e' - e))).
Proof.
  intros Hp. unfold d_fix. destruct (Z.leb_spec (ndig c) prec) as [Hn|Hn].
  - exists c, e. split; [reflexivity|]. split; [lia|]. split; [apply ndig_le_iff; assumption|left; auto].
  - cbn zeta. set (k := ndig c - prec) in *. assert (Hk : 0 <= k) by lia.
    set (q := round_coef m s c k).
    pose proof (round_coef_ok m s c k Hk) as Hok. fold q in Hok.
    assert (Hc0 : c <> 0%N) by (intros ->; rewrite ndig_0 in Hn; lia).
    pose proof (ndig_lower c Hc0) as Hl. pose proof (ndig_upper c) as Hu.
    destruct (rc_divmod c k Hk) as [Hd Hm].
    pose proof (round_coef_le_succ s c k m) as Hq1. pose proof (round_coef_ge s c k m) as Hq2.
    fold q in Hq1, Hq2.
    assert (Hpk : 0 < 10 ^ k) by (apply Z.pow_pos_nonneg; lia).
    replace (ndig c) with (prec + k) in Hu by lia. replace (ndig c - 1) with ((prec - 1) + k) in Hl by lia.
    rewrite Z.pow_add_r in Hu, Hl by lia.
    assert (Hdl : 10 ^ (prec - 1) <= Z.of_N (c / pow10 k)) by nia.
    assert (Hdu : Z.of_N (c / pow10 k) < 10 ^ prec) by nia.
    destruct (Z.leb_spec (ndig q) prec) as [Hnq|Hnq].
    + exists q, (e + k). split; [reflexivity|]. split; [lia|].
      split; [apply ndig_le_iff; assumption|]. right. split; [lia|].
      replace (e + k - e) with k by lia. exact Hok.
    + assert (Hq : Z.of_N q = 10 ^ prec).
      { apply Znot_le_gt in Hnq || idtac. assert (~ (Z.of_N q < 10 ^ prec)).
        { intros Hlt. apply ndig_le_iff in Hlt; lia. } lia. }
      assert (Hqd : (q = q / 10 * 10)%N).
      { apply N2Z.inj. rewrite N2Z.inj_mul, N2Z.inj_div.
        replace prec with ((prec - 1) + 1) in Hq by lia.
        rewrite Z.pow_add_r, Z.pow_1_r in Hq by lia. rewrite Hq.
        change (Z.of_N 10) with 10. rewrite Z.div_mul by lia. reflexivity. }
      assert (Hq' : Z.of_N (q / 10) = 10 ^ (prec - 1)).
      { rewrite Hqd in Hq. rewrite N2Z.inj_mul in Hq. change (Z.of_N 10) with 10 in Hq.
        replace prec with ((prec - 1) + 1) in Hq by lia.
        rewrite Z.pow_add_r, Z.pow_1_r in Hq by lia. lia. }
      exists (q / 10)%N, (e + k + 1). split; [reflexivity|]. split; [lia|].
      split; [rewrite Hq'; apply Z.pow_lt_mono_r; lia|]. right. split; [lia|].
      replace (e + k + 1 - e) with (k + 1) by lia. apply rc_ok_coarser; [lia|].
      rewrite <- Hqd. exact Hok.
Qed.

(** ** Real-valued form *)

Lemma IZR_pow10 k : 0 <= k -> IZR (10 ^ k) = p10 k.
Proof. intros. symmetry. apply p10_IZR; assumption. Qed.

Lemma sval_abs s c : (Rabs (IZR (sval s c)) = IZR (Z.of_N c))%R.
Proof.
  rewrite <- abs_IZR. f_equal. unfold sval. destruct s; lia.
Qed.

Lemma dR_abs s c e : Rabs (dR s c e) = (IZR (Z.of_N c) * p10 e)%R.
Proof.
  rewrite dR_sval, Rabs_mult, sval_abs, (Rabs_pos_eq (p10 e)); [reflexivity|].
  apply Rlt_le, p10_pos.
Qed.

Lemma dR_scale s c e e' : e <= e' -> (dR s c e' = IZR (sval s c * 10 ^ (e' - e)) * p10 e)%R.
Proof.
  intros H. rewrite dR_sval, mult_IZR, IZR_pow10 by lia.
  rewrite Rmult_assoc, <- p10_plus. do 2 f_equal. lia.
Qed.

Lemma rc_ceiling_R s c q e e' : e <= e' -> rc_ok ROUND_CEILING s c q (e' - e) ->
  rounds_up (dR s c e) (dR s q e') (p10 e').
Proof.
  intros He [H1 H2]. unfold rounds_up. rewrite (dR_scale s q e e') by exact He.
  rewrite (dR_sval s c e). replace (p10 e') with (p10 (e' - e) * p10 e)%R by (rewrite <- p10_plus; f_equal; lia).
  rewrite <- (IZR_pow10 (e' - e)) by lia. rewrite <- Rmult_plus_distr_r, <- plus_IZR.
  pose proof (p10_pos e). split.
  - apply Rmult_le_compat_r; [lra|]. apply IZR_le. exact H1.
  - apply Rmult_lt_compat_r; [lra|]. apply IZR_lt. exact H2.
Qed.

Lemma rc_half_up_R s c q e e' : e <= e' -> rc_ok ROUND_HALF_UP s c q (e' - e) ->
  rounds_half_up (dR s c e) (dR s q e') (p10 e').
Proof.
  intros He [H1 H2]. set (k := e' - e) in *.
  assert (Hs : (dR s q e' - dR s c e = IZR (sval s q * 10 ^ k - sval s c) * p10 e)%R).
  { rewrite (dR_scale s q e e') by exact He. rewrite (dR_sval s c e), minus_IZR. fold k. ring. }
  assert (Hu : (p10 e' = IZR (10 ^ k) * p10 e)%R).
  { rewrite IZR_pow10 by lia. rewrite <- p10_plus. f_equal. lia. }
  assert (Hz : Z.abs (sval s q * 10 ^ k - sval s c) = Z.abs (Z.of_N q * 10 ^ k - Z.of_N c)).
  { unfold sval. destruct s; lia. }
  pose proof (p10_pos e) as Hp. unfold rounds_half_up. rewrite Hs, Hu, Rabs_mult.
  rewrite (Rabs_pos_eq (p10 e)) by lra. rewrite <- abs_IZR, Hz. split.
  - assert (H : 2 * Z.abs (Z.of_N q * 10 ^ k - Z.of_N c) <= 10 ^ k) by lia.
    apply IZR_le in H. rewrite mult_IZR in H. nra.
  - intros Heq.
    assert (H : 2 * Z.abs (Z.of_N q * 10 ^ k - Z.of_N c) = 10 ^ k).
    { apply eq_IZR. rewrite mult_IZR. nra. }
    assert (Hlt : Z.of_N c < Z.of_N q * 10 ^ k) by lia.
    rewrite !dR_abs. rewrite Hu, <- Rmult_assoc. apply Rmult_lt_compat_r; [lra|].
    rewrite <- mult_IZR. apply IZR_lt. exact Hlt.
Qed.

Lemma rounds_up_exact x u : (0 < u)%R -> rounds_up x x u.
Proof. unfold rounds_up. lra. Qed.
Lemma rounds_half_up_exact x u : (0 < u)%R -> rounds_half_up x x u.
Proof.
  intros H. unfold rounds_half_up. rewrite Rminus_diag_eq, Rabs_R0 by reflexivity. lra.
Qed.

(** ** create_decimal *)

Lemma d_plus_dR_zero s e : dR s 0 e = 0%R.
Proof. rewrite dR_sval. unfold sval. destruct s; cbn; lra. Qed.

Lemma create_decimal_finite (P : R -> R -> R -> Prop) m x dgs :
  (forall x u, (0 < u)%R -> P x x u) ->
  (forall s c q e e', e <= e' -> rc_ok m s c q (e' - e) -> P (dR s c e) (dR s q e') (p10 e')) ->
  fisfin x = true -> 1 <= dgs ->
  exists s c e, create_decimal x dgs m = Ok (DFin s c e)
    /\ Z.of_N c < 10 ^ dgs
    /\ P (B2R64 x) (dR s c e) (p10 e)
    /\ (dR s c e = B2R64 x \/ 10 ^ (dgs - 1) <= Z.of_N c)
    /\ (c = 0%N -> s = false /\ B2R64 x = 0%R).
Proof.
  intros Hex HP Hx Hd. unfold create_decimal.
  destruct (Z.leb_spec 1 dgs) as [_|]; [|lia]. cbn [py_assert bind].
  destruct (d_of_float_finite x Hx) as (s & c & e & -> & Hv & He).
  cbn [d_plus]. destruct (N.eqb_spec c 0) as [->|Hc].
  - rewrite d_plus_dR_zero in Hv.
    exists false, 0%N, e. rewrite d_plus_dR_zero, <- Hv. repeat split; auto.
    + pose proof (Z.pow_pos_nonneg 10 dgs). lia.
    + apply Hex, p10_pos.
  - destruct (d_fix_spec dgs m s c e Hd) as (q & e' & -> & He' & Hq & H).
    exists s, q, e'. split; [reflexivity|]. split; [exact Hq|].
    destruct H as [[-> ->]|[Hl Hr]].
    + rewrite Hv. repeat split; auto; try contradiction. apply Hex, p10_pos.
    + rewrite <- Hv. pose proof (Z.pow_pos_nonneg 10 (dgs - 1)).
      repeat split; auto; try lia. 
Qed.

Lemma create_decimal_ceiling x dgs : fisfin x = true -> 1 <= dgs ->
  exists s c e, create_decimal x dgs ROUND_CEILING = Ok (DFin s c e)
    /\ Z.of_N c < 10 ^ dgs
    /\ rounds_up (B2R64 x) (dR s c e) (p10 e)
    /\ (dR s c e = B2R64 x \/ 10 ^ (dgs - 1) <= Z.of_N c)
    /\ (c = 0%N -> s = false /\ B2R64 x = 0%R).
Proof.
  intros. apply create_decimal_finite; auto using rounds_up_exact, rc_ceiling_R.
Qed.

Lemma create_decimal_half_up x dgs : fisfin x = true -> 1 <= dgs ->
  exists s c e, create_decimal x dgs ROUND_HALF_UP = Ok (DFin s c e)
    /\ Z.of_N c < 10 ^ dgs
    /\ rounds_half_up (B2R64 x) (dR s c e) (p10 e)
    /\ (dR s c e = B2R64 x \/ 10 ^ (dgs - 1) <= Z.of_N c)
    /\ (c = 0%N -> s = false /\ B2R64 x = 0%R).
Proof.
  intros. apply create_decimal_finite; auto using rounds_half_up_exact, rc_half_up_R.
Qed.

(** ** quantize *)

(** The coefficient of the quantized number. *)
Definition quant_coef (m : rmode) (s : bool) (c : N) (e e' : Z) : N :=
  if e' <=? e then (c * pow10 (e - e'))%N else round_coef m s c (e' - e).

Lemma quant_coef_exact m s c e e' : e' <= e -> dR s (quant_coef m s c e e') e' = dR s c e.
Proof.
  intros H. unfold quant_coef. destruct (Z.leb_spec e' e); [|lia].
  rewrite (dR_scale s c e' e) by lia. rewrite dR_sval. f_equal. f_equal.
  unfold sval. destruct s; rewrite N2Z.inj_mul, Zpow_N by lia; lia.
Qed.

Lemma quant_ceiling s c e e' :
  rounds_up (dR s c e) (dR s (quant_coef ROUND_CEILING s c e e') e') (p10 e').
Proof.
  destruct (Z.leb_spec e' e) as [H|H].
  - rewrite quant_coef_exact by exact H. apply rounds_up_exact, p10_pos.
  - unfold quant_coef. destruct (Z.leb_spec e' e); [lia|].
    apply rc_ceiling_R; [lia|]. apply round_coef_ok. lia.
Qed.

Lemma quant_half_up s c e e' :
  rounds_half_up (dR s c e) (dR s (quant_coef ROUND_HALF_UP s c e e') e') (p10 e').
Proof.
  destruct (Z.leb_spec e' e) as [H|H].
  - rewrite quant_coef_exact by exact H. apply rounds_half_up_exact, p10_pos.
  - unfold quant_coef. destruct (Z.leb_spec e' e); [lia|].
    apply rc_half_up_R; [lia|]. apply round_coef_ok. lia.
Qed.

Lemma quant_coef_0 m s e e' : quant_coef m s 0 e e' = 0%N.
Proof.
  unfold quant_coef. destruct (e' <=? e); [reflexivity|].
  pose proof (pow10_pos (e' - e)) as Hp.
  unfold round_coef. cbn zeta. rewrite N.div_0_l, N.mod_0_l by lia.
  destruct m; cbn [N.eqb negb andb orb].
  - rewrite andb_false_r. reflexivity.
  - destruct (N.leb_spec (pow10 (e' - e)) (2 * 0)); [lia|reflexivity].
  - destruct (N.ltb_spec (pow10 (e' - e)) (2 * 0)); [lia|].
    destruct (N.eqb_spec (pow10 (e' - e)) (2 * 0)); [lia|reflexivity].
Qed.

Lemma d_quantize_fin m s c e s' c' e' :
  d_quantize (DFin s c e) (DFin s' c' e') m =
  if Z.of_N (quant_coef m s c e e') <? 10 ^ 28 then Ok (DFin s (quant_coef m s c e e') e')
  else Err InvalidOperation.
Proof.
  cbn [d_quantize]. fold (quant_coef m s c e e').
  destruct (N.eqb_spec c 0) as [->|Hc]; cbn [negb andb].
  - rewrite quant_coef_0. reflexivity.
  - unfold default_prec.
    destruct (Z.ltb_spec 28 (ndig (quant_coef m s c e e'))) as [H|H];
    destruct (Z.ltb_spec (Z.of_N (quant_coef m s c e e')) (10 ^ 28)) as [H'|H']; try reflexivity.
    + apply ndig_le_iff in H'; lia.
    + apply ndig_le_iff in H; lia.
Qed.
