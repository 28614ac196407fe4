(** Proofs about decimalize and print_pval. *)
From Coq Require Import Reals Lra ZifyBool ZifyNat ZifyN.
From Verif Require Import PyBase F64 Dec Sciprint Spec_Sciprint DecProofs DecRound FormatProofs EstimateProofs.
Open Scope Z_scope.

Arguments Z.pow : simpl never.

(** ** mapM *)

Lemma mapM_Forall2 {A B} (f : A -> res B) l l' :
  mapM f l = Ok l' -> Forall2 (fun a b => f a = Ok b) l l'.
Proof.
  revert l'. induction l as [|a l IH]; intros l' H; cbn [mapM] in H.
  - inversion H; subst. constructor.
  - destruct (f a) as [b|] eqn:E; [|discriminate]. cbn [bind] in H.
    destruct (mapM f l) as [bs|]; [|discriminate]. cbn [bind] in H. inversion H; subst.
    constructor; auto.
Qed.

Lemma Forall2_mapM {A B} (f : A -> res B) l l' :
  Forall2 (fun a b => f a = Ok b) l l' -> mapM f l = Ok l'.
Proof.
  induction 1 as [|a b l l' H _ IH]; cbn [mapM]; [reflexivity|]. rewrite H, IH. reflexivity.
Qed.

Lemma mapM_ok {A B} (f : A -> res B) l :
  (forall a, In a l -> exists b, f a = Ok b) -> exists l', mapM f l = Ok l'.
Proof.
  induction l as [|a l IH]; intros H; cbn [mapM]; [eauto|].
  destruct (H a) as [b Hb]; [left; reflexivity|]. rewrite Hb. cbn [bind].
  destruct IH as [l' Hl']; [intros; apply H; right; assumption|]. rewrite Hl'. cbn [bind]. eauto.
Qed.

Lemma Forall2_nth_error {A B} (P : A -> B -> Prop) l l' i a :
  Forall2 P l l' -> nth_error l i = Some a -> exists b, nth_error l' i = Some b /\ P a b.
Proof.
  intros H. revert i. induction H as [|x y l l' Hxy _ IH]; intros [|i] Hi; cbn in *; try discriminate.
  - inversion Hi; subst. eauto.
  - apply IH; exact Hi.
Qed.

(** ** Stages of a cell *)

Definition eb_stage (ed : Z) (EB_clip : dec) (err_f : f64) : res dec :=
  do EB <- create_decimal err_f ed ROUND_CEILING;
  do ok <- (if d_is_nan EB then Ok true else d_le D_ZERO EB);
  assert! ok;
  do keep <- (if d_is_nan EB then Ok true else d_le EB EB_clip);
  Ok (if keep : bool then EB else D_INF).

Definition mu_stage (dd : Z) (EB : dec) (mean_f : f64) : res dec :=
  if d_is_finite EB && negb (d_is_zero EB)
  then d_quantize (d_of_float mean_f) EB ROUND_HALF_UP
  else create_decimal mean_f dd ROUND_HALF_UP.

Definition pv_stage (pd : Z) (pval_f : f64) : res dec :=
  do pval <- d_quantize (d_of_float pval_f) (DFin false 1 (- pd)) ROUND_CEILING;
  do okp <- (if d_is_nan pval then Ok true
             else do a <- d_le D_ZERO pval;
                  if a : bool then d_le pval (DFin false 1 0) else Ok false);
  assert! okp;
  Ok pval.

Lemma decimalize_cell_stages ed pd dd clip mf ef pf :
  decimalize_cell ed pd dd clip (mf, ef, pf) =
  do EB <- eb_stage ed clip ef; do mu <- mu_stage dd EB mf; do p <- pv_stage pd pf; Ok (mu, EB, p).
Proof.
  unfold decimalize_cell, eb_stage.
  destruct (create_decimal ef ed ROUND_CEILING) as [EB|]; [|reflexivity]. cbn [bind].
  destruct (if d_is_nan EB then Ok true else d_le D_ZERO EB) as [ok|]; [|reflexivity]. cbn [bind].
  destruct ok; [|reflexivity]. cbn [py_assert bind].
  destruct (if d_is_nan EB then Ok true else d_le EB clip) as [keep|]; [|reflexivity]. cbn [bind].
  set (EB' := if keep then EB else D_INF). fold (mu_stage dd EB' mf).
  destruct (mu_stage dd EB' mf) as [mu|]; [|reflexivity]. cbn [bind].
  unfold pv_stage, decimal_1ek, decimal_from_tuple_1.
  destruct (d_quantize (d_of_float pf) (DFin false 1 (- pd)) ROUND_CEILING) as [p|]; [|reflexivity].
  cbn [bind]. destruct (d_is_nan p); cbn [bind py_assert]; [reflexivity|].
  destruct (d_le D_ZERO p) as [[|]|]; cbn [bind py_assert]; try reflexivity.
  destruct (d_le p (DFin false 1 0)) as [[|]|]; cbn [bind py_assert]; reflexivity.
Qed.

(** Error bar limits as decimals. *)
Definition limit_dec (k : option Z) : dec :=
  match k with Some k => DFin false 1 k | None => DInf false end.

Lemma limit_expo_dec d metric : decimal_1ek (limit_expo d metric) false = limit_dec (dict_get d metric).
Proof. unfold limit_expo, decimal_1ek, limit_dec. destruct (dict_get d metric); reflexivity. Qed.

Lemma dR_1 k : dR false 1 k = p10 k.
Proof. rewrite dR_sval. cbn. lra. Qed.

Lemma dR_nonneg_sign s c e : (0 <= dR s c e)%R -> c <> 0%N -> s = false.
Proof.
  intros H Hc. destruct s; [|reflexivity]. exfalso. rewrite dR_sval in H. unfold sval in H.
  pose proof (p10_pos e). assert (- Z.of_N c < 0) by lia. apply IZR_lt in H1. nra.
Qed.

Lemma dR_neg_sign s c e : (dR s c e < 0)%R -> s = true /\ c <> 0%N.
Proof.
  intros H. rewrite dR_sval in H. unfold sval in H. pose proof (p10_pos e).
  destruct s.
  - split; [reflexivity|]. intros ->. cbn in H. lra.
  - assert (0 <= Z.of_N c) by lia. apply IZR_le in H1. nra.
Qed.

(** The error entry for a finite non-negative float. *)
Definition err_rounded (ed : Z) (x : R) (c : N) (e : Z) : Prop :=
  Z.of_N c < 10 ^ ed /\ rounds_up x (dR false c e) (p10 e) /\
  (dR false c e = x \/ 10 ^ (ed - 1) <= Z.of_N c) /\ (c = 0%N -> x = 0%R).

Lemma eb_stage_finite ed k ef : fisfin ef = true -> (0 <= B2R64 ef)%R -> 1 <= ed ->
  exists c e, err_rounded ed (B2R64 ef) c e /\
    eb_stage ed (limit_dec k) ef =
    Ok (match k with
        | None => DFin false c e
        | Some k => if Rle_bool (dR false c e) (p10 k) then DFin false c e else DInf false
        end).
Proof.
  intros Hf H0 Hd. destruct (create_decimal_ceiling ef ed Hf Hd) as (s & c & e & Hcd & Hc & Hr & Hx & Hz).
  assert (s = false).
  { destruct (N.eq_dec c 0) as [E|E]; [apply Hz; exact E|].
    apply (dR_nonneg_sign s c e); [unfold rounds_up in Hr; lra|exact E]. }
  subst s. exists c, e. split.
  - unfold err_rounded. repeat split; auto; try (apply Hr). intros E; apply Hz; exact E.
  - unfold eb_stage. rewrite Hcd. cbn [bind d_is_nan]. rewrite d_le_zero_fin. cbn [bind negb orb py_assert].
    destruct k as [k|]; cbn [limit_dec].
    + assert (Hle : d_le (DFin false c e) (DFin false 1 k) = Ok (Rle_bool (dR false c e) (p10 k))).
      { destruct (Rle_bool_spec (dR false c e) (p10 k)) as [H|H].
        - apply d_le_true; auto. cbn [ext_lt]. rewrite dR_1. lra.
        - apply d_le_false; auto. cbn [ext_lt]. rewrite dR_1. lra. }
      rewrite Hle. cbn [bind]. destruct (Rle_bool _ _); reflexivity.
    + assert (Hle : d_le (DFin false c e) (DInf false) = Ok true) by reflexivity.
      rewrite Hle. reflexivity.
Qed.

Lemma eb_stage_negative ed k ef : fisfin ef = true -> (B2R64 ef < 0)%R -> 1 <= ed ->
  eb_stage ed (limit_dec k) ef = Err AssertionError.
Proof.
  intros Hf H0 Hd. unfold eb_stage, create_decimal.
  destruct (Z.leb_spec 1 ed); [|lia]. cbn [py_assert bind].
  destruct (d_of_float_finite ef Hf) as (s & c & e & -> & Hv & He).
  rewrite <- Hv in H0. apply dR_neg_sign in H0. destruct H0 as [-> Hc].
  cbn [d_plus]. destruct (N.eqb_spec c 0); [contradiction|].
  destruct (d_fix_spec ed ROUND_CEILING true c e Hd) as (q & e' & -> & _ & _ & Hq).
  cbn [d_is_nan]. rewrite d_le_zero_fin. cbn [negb orb bind].
  assert (Hq0 : q <> 0%N).
  { destruct Hq as [[_ ->]|[Hq _]]; [assumption|].
    pose proof (Z.pow_pos_nonneg 10 (ed - 1)). lia. }
  destruct (N.eqb_spec q 0); [contradiction|]. reflexivity.
Qed.

Lemma eb_stage_special ed k : 1 <= ed ->
  eb_stage ed (limit_dec k) fnan = Ok DNaN /\
  eb_stage ed (limit_dec k) finf = Ok (DInf false) /\
  eb_stage ed (limit_dec k) fninf = Err AssertionError.
Proof.
  intros Hd. unfold eb_stage, create_decimal. destruct (Z.leb_spec 1 ed); [|lia].
  cbn [py_assert bind d_of_float fnan finf fninf d_plus]. repeat split.
  destruct k; reflexivity.
Qed.

(** ** The mean *)

Lemma quant_half_up_fits s c e e' :
  Z.of_N (quant_coef ROUND_HALF_UP s c e e') < 10 ^ 28 <->
  (Rabs (dR s c e) < (p10 28 - / 2) * p10 e')%R.
Proof.
  set (q := quant_coef ROUND_HALF_UP s c e e').
  destruct (quant_half_up s c e e') as [H1 H2]. fold q in H1, H2.
  pose proof (p10_pos e') as Hu. set (u := p10 e') in *.
  pose proof (dR_abs s q e') as Hq. fold u in Hq.
  assert (Hsame : (Rabs (dR s q e' - dR s c e) = Rabs (Rabs (dR s q e') - Rabs (dR s c e)))%R).
  { destruct s.
    - assert (Ha : forall a e, dR true a e = (- Rabs (dR true a e))%R).
      { intros a ea. rewrite dR_abs, dR_sval. unfold sval. rewrite opp_IZR. ring. }
      rewrite (Ha q e'), (Ha c e) at 1.
      replace (- Rabs (dR true q e') - - Rabs (dR true c e))%R
        with (- (Rabs (dR true q e') - Rabs (dR true c e)))%R by ring.
      apply Rabs_Ropp.
    - assert (Ha : forall a e, dR false a e = Rabs (dR false a e)).
      { intros a ea. rewrite dR_abs, dR_sval. reflexivity. }
      rewrite (Ha q e'), (Ha c e) at 1. reflexivity. }
  rewrite Hsame in H1, H2. set (X := Rabs (dR s c e)) in *.
  rewrite Hq in *. set (Q := IZR (Z.of_N q)) in *.
  assert (Hb : (- (u / 2) <= Q * u - X <= u / 2)%R) by (apply Rabs_le_inv; exact H1).
  assert (H28 : p10 28 = IZR (10 ^ 28)) by (apply p10_IZR; lia).
  split; intros H.
  - assert (Hz : Z.of_N q <= 10 ^ 28 - 1) by lia. apply IZR_le in Hz. rewrite minus_IZR, <- H28 in Hz.
    fold Q in Hz.
    assert (HX : (X <= (Q + / 2) * u)%R) by lra.
    destruct (Rle_lt_or_eq_dec _ _ HX) as [Hlt|Heq].
    + assert ((Q + / 2) * u <= (p10 28 - / 2) * u)%R by (apply Rmult_le_compat_r; lra). lra.
    + exfalso. assert (X < Q * u)%R; [|lra]. apply H2.
      replace (Q * u - X)%R with (- (u / 2))%R by lra. rewrite Rabs_Ropp. apply Rabs_pos_eq. lra.
  - apply lt_IZR. fold Q. rewrite <- H28.
    assert (HQ : (Q * u < p10 28 * u)%R) by lra. apply Rmult_lt_reg_r in HQ; assumption.
Qed.

Lemma mu_stage_quantized dd sb c e mf : c <> 0%N -> fisfin mf = true ->
  (Rabs (B2R64 mf) < (p10 28 - / 2) * p10 e)%R ->
  exists s q, mu_stage dd (DFin sb c e) mf = Ok (DFin s q e)
    /\ rounds_half_up (B2R64 mf) (dR s q e) (p10 e) /\ Z.of_N q < 10 ^ 28.
Proof.
  intros Hc Hf Hfit. unfold mu_stage. cbn [d_is_finite d_is_zero].
  destruct (N.eqb_spec c 0); [contradiction|]. cbn [negb andb].
  destruct (d_of_float_finite mf Hf) as (s & cm & em & -> & Hv & _).
  rewrite d_quantize_fin. rewrite <- Hv in *.
  assert (Hq := proj2 (quant_half_up_fits s cm em e) Hfit).
  destruct (Z.ltb_spec (Z.of_N (quant_coef ROUND_HALF_UP s cm em e)) (10 ^ 28)); [|lia].
  exists s, (quant_coef ROUND_HALF_UP s cm em e). split; [reflexivity|]. split; [|assumption].
  apply quant_half_up.
Qed.

Lemma mu_stage_overflow dd sb c e mf : c <> 0%N -> fisfin mf = true ->
  (~ Rabs (B2R64 mf) < (p10 28 - / 2) * p10 e)%R ->
  mu_stage dd (DFin sb c e) mf = Err InvalidOperation.
Proof.
  intros Hc Hf Hfit. unfold mu_stage. cbn [d_is_finite d_is_zero].
  destruct (N.eqb_spec c 0); [contradiction|]. cbn [negb andb].
  destruct (d_of_float_finite mf Hf) as (s & cm & em & -> & Hv & _).
  rewrite d_quantize_fin. rewrite <- Hv in *.
  rewrite <- quant_half_up_fits in Hfit.
  destruct (Z.ltb_spec (Z.of_N (quant_coef ROUND_HALF_UP s cm em e)) (10 ^ 28)); [lia|reflexivity].
Qed.

Lemma mu_stage_default dd EB mf :
  d_is_finite EB = false \/ d_is_zero EB = true -> fisfin mf = true -> 1 <= dd ->
  exists s c e, mu_stage dd EB mf = Ok (DFin s c e)
    /\ Z.of_N c < 10 ^ dd
    /\ rounds_half_up (B2R64 mf) (dR s c e) (p10 e)
    /\ (dR s c e = B2R64 mf \/ 10 ^ (dd - 1) <= Z.of_N c).
Proof.
  intros HEB Hf Hd. unfold mu_stage.
  assert (E : (d_is_finite EB && negb (d_is_zero EB))%bool = false).
  { destruct HEB as [->| ->]; [reflexivity|apply andb_false_r]. }
  rewrite E. destruct (create_decimal_half_up mf dd Hf Hd) as (s & c & e & H & H1 & H2 & H3 & _).
  exists s, c, e. auto.
Qed.

(** ** p-values *)

Lemma pv_stage_finite pd pf : 1 <= pd <= 27 -> fisfin pf = true -> (0 <= B2R64 pf <= 1)%R ->
  exists s q, pv_stage pd pf = Ok (DFin s q (- pd))
    /\ rounds_up (B2R64 pf) (dR s q (- pd)) (p10 (- pd))
    /\ (0 <= dR s q (- pd) <= 1)%R
    /\ Z.of_N q <= 10 ^ pd /\ (q <> 0%N -> s = false).
Proof.
  intros Hpd Hf H01. destruct (d_of_float_finite pf Hf) as (s & c & e & Hd & Hv & _).
  pose proof (quant_ceiling s c e (- pd)) as Hr. rewrite Hv in Hr.
  set (q := quant_coef ROUND_CEILING s c e (- pd)) in *.
  pose proof (p10_pos (- pd)) as Hu.
  assert (H1u : (p10 pd * p10 (- pd) = 1)%R).
  { rewrite <- p10_plus. replace (pd + - pd) with 0 by lia. reflexivity. }
  assert (Hq : Z.of_N q <= 10 ^ pd).
  { destruct (Z_lt_le_dec (10 ^ pd) (Z.of_N q)) as [Hlt|]; [|assumption]. exfalso.
    assert (s = false).
    { destruct s; [exfalso|reflexivity]. unfold rounds_up in Hr. rewrite dR_sval in Hr.
      unfold sval in Hr. pose proof (Z.pow_pos_nonneg 10 pd). assert (- Z.of_N q < 0) as Hn by lia.
      apply IZR_lt in Hn. nra. }
    subst s. unfold rounds_up in Hr. rewrite dR_sval in Hr. unfold sval in Hr.
    assert (Hn : 10 ^ pd + 1 <= Z.of_N q) by lia. apply IZR_le in Hn.
    rewrite plus_IZR, IZR_pow10 in Hn by lia. nra. }
  assert (Hq28 : Z.of_N q < 10 ^ 28).
  { eapply Z.le_lt_trans; [exact Hq|]. apply Z.pow_lt_mono_r; lia. }
  assert (Hr0 : (0 <= dR s q (- pd))%R) by (unfold rounds_up in Hr; lra).
  assert (Hs : q <> 0%N -> s = false) by (intros; eapply dR_nonneg_sign; eauto).
  assert (Hle1 : (dR s q (- pd) <= 1)%R).
  { rewrite dR_sval. rewrite <- H1u. rewrite <- (IZR_pow10 pd) by lia.
    apply Rmult_le_compat_r; [lra|]. apply IZR_le. unfold sval. destruct s; lia. }
  exists s, q. split; [|repeat split; auto; try apply Hr].
  unfold pv_stage. rewrite Hd, d_quantize_fin. fold q.
  destruct (Z.ltb_spec (Z.of_N q) (10 ^ 28)); [|lia]. cbn [bind d_is_nan].
  assert (Ha : d_le D_ZERO (DFin s q (- pd)) = Ok true).
  { apply d_le_true; auto. cbn [D_ZERO ext_lt]. rewrite d_plus_dR_zero. lra. }
  assert (Hb : d_le (DFin s q (- pd)) (DFin false 1 0) = Ok true).
  { apply d_le_true; auto. cbn [ext_lt]. rewrite dR_1, p10_0. lra. }
  rewrite Ha. cbn [bind]. rewrite Hb. reflexivity.
Qed.

Lemma pv_stage_nan pd : pv_stage pd fnan = Ok DNaN.
Proof. reflexivity. Qed.

(** 10^-k is not a double. *)
Lemma pow2_mod5 n : 2 ^ Z.of_nat n mod 5 <> 0.
Proof.
  induction n as [|n IH]; [cbn; lia|].
  rewrite Nat2Z.inj_succ, Z.pow_succ_r by lia.
  pose proof (Z.mod_pos_bound (2 ^ Z.of_nat n) 5). rewrite Z.mul_mod by lia.
  change (2 mod 5) with 2. set (r := 2 ^ Z.of_nat n mod 5) in *.
  assert (Hr : r = 1 \/ r = 2 \/ r = 3 \/ r = 4) by lia.
  destruct Hr as [->|[->|[->| ->]]]; cbn; lia.
Qed.

Lemma not_dyadic_10 x k : 1 <= k -> B2R64 x <> p10 (- k).
Proof.
  intros Hk Heq.
  destruct x as [s|s| |s m e Hb]; cbn [B2R] in Heq; pose proof (p10_pos (- k)) as Hp; try lra.
  unfold F2R in Heq. cbn [Fnum Fexp] in Heq.
  assert (H1 : (IZR (cond_Zopp s (Z.pos m)) * bpow radix2 e * p10 k = 1)%R).
  { rewrite Heq, <- p10_plus. replace (- k + k) with 0 by lia. reflexivity. }
  rewrite (p10_IZR k) in H1 by lia.
  assert (Hdiv : 10 ^ k = 5 * (2 * 10 ^ (k - 1))).
  { replace k with (1 + (k - 1)) at 1 by lia. rewrite Z.pow_add_r by lia. lia. }
  destruct (Z_le_gt_dec 0 e) as [He|He].
  - rewrite <- (IZR_Zpower radix2) in H1 by exact He. rewrite <- !mult_IZR in H1.
    apply eq_IZR in H1. rewrite Hdiv in H1. nia.
  - assert (H2 : (IZR (cond_Zopp s (Z.pos m)) * IZR (10 ^ k) = bpow radix2 (- e))%R).
    { rewrite bpow_opp. pose proof (bpow_gt_0 radix2 e). field_simplify_eq; [|lra].
      rewrite <- H1. ring. }
    rewrite <- (IZR_Zpower radix2) in H2 by lia. rewrite <- mult_IZR in H2. apply eq_IZR in H2.
    change (Z.pow radix2 (- e)) with (2 ^ (- e)) in H2.
    apply (pow2_mod5 (Z.to_nat (- e))). rewrite Z2Nat.id by lia. rewrite <- H2, Hdiv.
    replace (cond_Zopp s (Z.pos m) * (5 * (2 * 10 ^ (k - 1))))
      with ((cond_Zopp s (Z.pos m) * (2 * 10 ^ (k - 1))) * 5) by lia.
    apply Z.mod_mul. lia.
Qed.

(** print_pval on a quantized p-value in [0,1]. *)
Lemma print_pval_fin s q pd nf : (0 <= dR s q (- pd) <= 1)%R -> (q <> 0%N -> s = false) ->
  print_pval (DFin s q (- pd)) nf =
  Ok (if Z.of_N q <=? 1 then "<"%char :: d_format (DFin false 1 (- pd)) else d_format (DFin s q (- pd))).
Proof.
  intros H01 Hs. unfold print_pval, decimal_eps, as_tuple_exponent, decimal_1ek, decimal_from_tuple_1.
  cbn [d_is_nan]. pose proof (p10_pos (- pd)) as Hu.
  assert (Hsv : sval s q = Z.of_N q) by (unfold sval; destruct s; [|reflexivity];
     destruct (N.eq_dec q 0) as [->|E]; [reflexivity|discriminate Hs; exact E]).
  destruct (Z.leb_spec (Z.of_N q) 1) as [Hq|Hq].
  - assert (H : d_le (DFin s q (- pd)) (DFin false 1 (- pd)) = Ok true).
    { apply d_le_true; auto. cbn [ext_lt]. rewrite dR_1, dR_sval, Hsv.
      apply IZR_le in Hq. nra. }
    assert (H0 : d_le D_ZERO (DFin s q (- pd)) = Ok true).
    { apply d_le_true; auto. cbn [D_ZERO ext_lt]. rewrite d_plus_dR_zero. lra. }
    rewrite H. cbn [bind]. rewrite H0. cbn [bind py_assert]. reflexivity.
  - assert (Hlt : (dR false 1 (- pd) < dR s q (- pd))%R).
    { rewrite dR_1, dR_sval, Hsv. apply IZR_lt in Hq. nra. }
    assert (H : d_le (DFin s q (- pd)) (DFin false 1 (- pd)) = Ok false)
      by (apply d_le_false; auto).
    assert (H1 : d_lt (DFin false 1 (- pd)) (DFin s q (- pd)) = Ok true)
      by (apply d_lt_true; auto).
    assert (Hb : d_le (DFin s q (- pd)) (DFin false 1 0) = Ok true).
    { apply d_le_true; auto. cbn [ext_lt]. rewrite dR_1, p10_0. lra. }
    rewrite H. cbn [bind]. rewrite H1. cbn [bind]. rewrite Hb. reflexivity.
Qed.
