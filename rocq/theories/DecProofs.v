(** Proofs about the decimal model: digits, rounding, exact conversion. *)
From Coq Require Import Reals Lra ZifyBool ZifyNat ZifyN.
From Verif Require Import PyBase F64 Dec Spec_Sciprint.
Open Scope Z_scope.

Arguments N.add : simpl never.
Arguments N.mul : simpl never.
Arguments N.div : simpl never.
Arguments N.modulo : simpl never.
Arguments N.pow : simpl never.
Arguments Z.pow : simpl never.

(** ** Value of a digit string *)

Definition dval (l : list N) : N := fold_left (fun a d => 10 * a + d)%N l 0%N.

Lemma fold_dval_acc : forall l a,
  fold_left (fun a d => 10 * a + d)%N l a = (a * 10 ^ N.of_nat (length l) + dval l)%N.
Proof.
  unfold dval. induction l as [|d l IH]; intros a; cbn [fold_left length].
  - rewrite N.pow_0_r. lia.
  - rewrite IH, (IH (10 * 0 + d)%N). rewrite Nat2N.inj_succ, N.pow_succ_r'. nia.
Qed.

Lemma dval_app l1 l2 : dval (l1 ++ l2) = (dval l1 * 10 ^ N.of_nat (length l2) + dval l2)%N.
Proof. unfold dval at 1. rewrite fold_left_app. rewrite fold_dval_acc. reflexivity. Qed.

Lemma dval_cons d l : dval (d :: l) = (d * 10 ^ N.of_nat (length l) + dval l)%N.
Proof. unfold dval at 1. cbn [fold_left]. rewrite fold_dval_acc. f_equal. Qed.

Lemma dval_snoc l d : dval (l ++ [d]) = (10 * dval l + d)%N.
Proof.
  rewrite dval_app. cbn [length]. change (N.of_nat 1) with 1%N. rewrite N.pow_1_r.
  unfold dval at 2. cbn [fold_left]. lia.
Qed.

Definition digit_ok (d : N) : Prop := (d < 10)%N.

Lemma dval_bound l : Forall digit_ok l -> (dval l < 10 ^ N.of_nat (length l))%N.
Proof.
  induction 1 as [|d l Hd Hl IH].
  - cbn. lia.
  - rewrite dval_cons. cbn [length]. rewrite Nat2N.inj_succ, N.pow_succ_r'.
    unfold digit_ok in Hd. nia.
Qed.

(** ** [ldig] *)

Lemma ldig_val : forall f n, (n < 2 ^ N.of_nat f)%N -> dval (rev (ldig f n)) = n.
Proof.
  induction f as [|f IH]; intros n Hn.
  - cbn in *. unfold dval; cbn. lia.
  - cbn [ldig]. destruct (N.eqb_spec n 0) as [->|Hz]; [reflexivity|].
    cbn [rev]. rewrite dval_snoc, IH.
    + pose proof (N.div_mod n 10). lia.
    + rewrite Nat2N.inj_succ, N.pow_succ_r' in Hn.
      apply N.div_lt_upper_bound; [lia|]. lia.
Qed.

Lemma ldig_ok : forall f n, Forall digit_ok (ldig f n).
Proof.
  induction f as [|f IH]; intros n; cbn [ldig]; [constructor|].
  destruct (N.eqb n 0); constructor; [|apply IH].
  unfold digit_ok. apply N.mod_lt. lia.
Qed.

Lemma size_nat_bound n : (n < 2 ^ N.of_nat (N.size_nat n))%N.
Proof.
  destruct n as [|p]; [cbn; lia|]. cbn [N.size_nat].
  induction p as [p IH|p IH|]; cbn [Pos.size_nat];
    rewrite ?Nat2N.inj_succ, ?N.pow_succ_r'; try lia.
Qed.

Lemma ldig_fuel_lead : forall f n, (n < 2 ^ N.of_nat f)%N -> n <> 0%N ->
  exists l d, ldig f n = l ++ [d] /\ d <> 0%N.
Proof.
  induction f as [|f IH]; intros n Hn Hz; [cbn in Hn; lia|].
  cbn [ldig]. destruct (N.eqb_spec n 0) as [|_]; [contradiction|].
  destruct (N.eq_dec (n / 10) 0) as [H0|H0].
  - exists [], (n mod 10)%N. rewrite H0. split.
    + cbn [app]. f_equal. destruct f; reflexivity.
    + pose proof (N.div_mod n 10). lia.
  - destruct (IH (n / 10)%N) as (l & d & Hl & Hd); [|exact H0|].
    + rewrite Nat2N.inj_succ, N.pow_succ_r' in Hn.
      apply N.div_lt_upper_bound; [lia|]. lia.
    + exists ((n mod 10)%N :: l), d. rewrite Hl. split; [reflexivity|exact Hd].
Qed.

(** ** [digits] *)

Lemma digits_val n : dval (digits n) = n.
Proof.
  unfold digits. destruct (N.eqb_spec n 0) as [->|Hz]; [reflexivity|].
  apply ldig_val, size_nat_bound.
Qed.

Lemma digits_ok n : Forall digit_ok (digits n).
Proof.
  unfold digits. destruct (N.eqb n 0).
  - constructor; [unfold digit_ok; lia|constructor].
  - apply Forall_rev, ldig_ok.
Qed.

Lemma digits_lead n : n <> 0%N -> exists d l, digits n = d :: l /\ d <> 0%N.
Proof.
  intros Hz. unfold digits. destruct (N.eqb_spec n 0) as [|_]; [contradiction|].
  destruct (ldig_fuel_lead _ _ (size_nat_bound n) Hz) as (l & d & Hl & Hd).
  rewrite Hl, rev_app_distr. cbn [rev app]. exists d, (rev l). split; auto.
Qed.

Lemma digits_nonempty n : digits n <> [].
Proof.
  destruct (N.eq_dec n 0) as [->|H]; [discriminate|].
  destruct (digits_lead n H) as (d & l & -> & _). discriminate.
Qed.

Lemma ndig_pos n : 1 <= ndig n.
Proof.
  unfold ndig. pose proof (digits_nonempty n). destruct (digits n); [contradiction|].
  cbn [length]. lia.
Qed.

Lemma ndig_0 : ndig 0 = 1. Proof. reflexivity. Qed.

Lemma Zpow_N k : 0 <= k -> Z.of_N (pow10 k) = 10 ^ k.
Proof. intros H. unfold pow10. rewrite N2Z.inj_pow, Z2N.id by exact H. reflexivity. Qed.

Lemma pow10_pos k : (0 < pow10 k)%N.
Proof. unfold pow10. assert (10 ^ Z.to_N k <> 0)%N by (apply N.pow_nonzero; lia). lia. Qed.

Lemma ndig_upper n : Z.of_N n < 10 ^ ndig n.
Proof.
  pose proof (dval_bound _ (digits_ok n)) as H. rewrite digits_val in H.
  apply N2Z.inj_lt in H. rewrite N2Z.inj_pow in H.
  unfold ndig. replace (Z.of_nat (length (digits n))) with (Z.of_N (N.of_nat (length (digits n)))) by lia.
  exact H.
Qed.

Lemma ndig_lower n : n <> 0%N -> 10 ^ (ndig n - 1) <= Z.of_N n.
Proof.
  intros Hz. destruct (digits_lead n Hz) as (d & l & Hd & Hnz).
  pose proof (digits_val n) as Hv. rewrite Hd, dval_cons in Hv.
  unfold ndig. rewrite Hd. cbn [length].
  replace (Z.of_nat (S (length l)) - 1) with (Z.of_N (N.of_nat (length l))) by lia.
  change 10 with (Z.of_N 10). rewrite <- N2Z.inj_pow. apply N2Z.inj_le.
  assert (1 <= d)%N by lia. nia.
Qed.

Lemma pow10_lt_inv a b : 0 <= b -> 10 ^ a < 10 ^ b -> a < b.
Proof. intros Hb H. apply Z.pow_lt_mono_r_iff in H; lia. Qed.

Lemma ndig_unique n k : 1 <= k -> 10 ^ (k - 1) <= Z.of_N n < 10 ^ k -> ndig n = k.
Proof.
  intros Hk [Hl Hu].
  assert (n <> 0%N) by (intros ->; pose proof (Z.pow_pos_nonneg 10 (k - 1)); lia).
  pose proof (ndig_lower n H) as Hl'. pose proof (ndig_upper n) as Hu'.
  pose proof (ndig_pos n).
  assert (k - 1 < ndig n) by (apply pow10_lt_inv; lia).
  assert (ndig n - 1 < k) by (apply pow10_lt_inv; lia). lia.
Qed.

Lemma ndig_le_iff n k : 1 <= k -> (ndig n <= k <-> Z.of_N n < 10 ^ k).
Proof.
  intros Hk. pose proof (ndig_upper n) as Hu. split; intros H.
  - eapply Z.lt_le_trans; [exact Hu|]. apply Z.pow_le_mono_r; lia.
  - destruct (N.eq_dec n 0) as [->|Hz]; [rewrite ndig_0; lia|].
    pose proof (ndig_lower n Hz) as Hl.
    assert (ndig n - 1 < k) by (apply pow10_lt_inv; lia). lia.
Qed.

Lemma ndig_mono a b : (a <= b)%N -> ndig a <= ndig b.
Proof.
  intros H. apply ndig_le_iff; [apply ndig_pos|].
  pose proof (ndig_upper b). lia.
Qed.

Lemma ndig_mul_pow10 c k : c <> 0%N -> 0 <= k -> ndig (c * pow10 k) = ndig c + k.
Proof.
  intros Hz Hk. pose proof (ndig_pos c). apply ndig_unique; [lia|].
  rewrite N2Z.inj_mul, Zpow_N by exact Hk.
  pose proof (ndig_lower c Hz). pose proof (ndig_upper c).
  replace (ndig c + k - 1) with ((ndig c - 1) + k) by lia.
  rewrite !Z.pow_add_r by lia. pose proof (Z.pow_pos_nonneg 10 k). nia.
Qed.

(** ** [fixdig] *)

Lemma fixdig_length k : forall n, length (fixdig k n) = k.
Proof.
  induction k as [|k IH]; intros n; cbn [fixdig]; [reflexivity|].
  rewrite app_length, IH. cbn. lia.
Qed.

Lemma fixdig_ok k : forall n, Forall digit_ok (fixdig k n).
Proof.
  induction k as [|k IH]; intros n; cbn [fixdig]; [constructor|].
  apply Forall_app; split; [apply IH|]. constructor; [|constructor].
  unfold digit_ok. apply N.mod_lt. lia.
Qed.

Lemma fixdig_val k : forall n, dval (fixdig k n) = (n mod 10 ^ N.of_nat k)%N.
Proof.
  induction k as [|k IH]; intros n; cbn [fixdig].
  - rewrite N.pow_0_r, N.mod_1_r. reflexivity.
  - rewrite dval_snoc, IH, Nat2N.inj_succ, N.pow_succ_r'.
    assert (10 ^ N.of_nat k <> 0)%N by (apply N.pow_nonzero; lia).
    rewrite N.mod_mul_r by lia. lia.
Qed.

(** ** Rounding of the coefficient *)

Section RoundCoef.
  Variables (s : bool) (c : N) (k : Z).
  Hypothesis Hk : 0 <= k.

  Lemma rc_divmod : Z.of_N c = Z.of_N (c / pow10 k) * 10 ^ k + Z.of_N (c mod pow10 k)
                    /\ 0 <= Z.of_N (c mod pow10 k) < 10 ^ k.
  Proof.
    pose proof (pow10_pos k) as Hp. pose proof (N.div_mod c (pow10 k)) as Hd.
    pose proof (N.mod_lt c (pow10 k)) as Hm. rewrite <- !Zpow_N by exact Hk. split; nia.
  Qed.

  (** Rounding towards plus infinity of the signed value. *)
  Lemma round_ceiling :
    let q := round_coef ROUND_CEILING s c k in
    sval s c <= sval s q * 10 ^ k < sval s c + 10 ^ k.
  Proof.
    destruct rc_divmod as [Hd Hm]. unfold round_coef, sval. cbn zeta.
    destruct s; cbn [negb andb].
    - nia.
    - destruct (N.eqb_spec (c mod pow10 k) 0) as [E|E]; cbn [negb].
      + rewrite E in *. nia.
      + rewrite N2Z.inj_succ. nia.
  Qed.

  (** Rounding to nearest, ties away from zero. *)
  Lemma round_half_up :
    let q := round_coef ROUND_HALF_UP s c k in
    2 * Z.of_N c - 10 ^ k < 2 * Z.of_N q * 10 ^ k <= 2 * Z.of_N c + 10 ^ k.
  Proof.
    destruct rc_divmod as [Hd Hm]. unfold round_coef. cbn zeta.
    pose proof (Zpow_N k Hk) as Hp.
    destruct (N.leb_spec (pow10 k) (2 * (c mod pow10 k))) as [E|E];
      rewrite ?N2Z.inj_succ; nia.
  Qed.

  Lemma round_half_even :
    let q := round_coef ROUND_HALF_EVEN s c k in
    2 * Z.of_N c - 10 ^ k <= 2 * Z.of_N q * 10 ^ k <= 2 * Z.of_N c + 10 ^ k.
  Proof.
    destruct rc_divmod as [Hd Hm]. unfold round_coef. cbn zeta.
    pose proof (Zpow_N k Hk) as Hp.
    destruct (N.ltb_spec (pow10 k) (2 * (c mod pow10 k))) as [E|E]; cbn [orb];
      [rewrite ?N2Z.inj_succ; nia|].
    destruct (N.eqb_spec (pow10 k) (2 * (c mod pow10 k))) as [E'|E']; cbn [andb]; [|nia].
    destruct (N.odd _); rewrite ?N2Z.inj_succ; nia.
  Qed.

  Lemma round_coef_le_succ m : (round_coef m s c k <= N.succ (c / pow10 k))%N.
  Proof. unfold round_coef. cbn zeta. destruct m; match goal with |- context [if ?b then _ else _] => destruct b end; lia. Qed.
  Lemma round_coef_ge m : (c / pow10 k <= round_coef m s c k)%N.
  Proof. unfold round_coef. cbn zeta. destruct m; match goal with |- context [if ?b then _ else _] => destruct b end; lia. Qed.
End RoundCoef.

(** ** Values in R *)


Lemma p10_pos k : (0 < p10 k)%R. Proof. apply bpow_gt_0. Qed.
Lemma p10_plus a b : p10 (a + b) = (p10 a * p10 b)%R. Proof. apply bpow_plus. Qed.
Lemma p10_IZR k : 0 <= k -> p10 k = IZR (10 ^ k).
Proof. intros H. unfold p10. rewrite <- IZR_Zpower by exact H. reflexivity. Qed.
Lemma p10_0 : p10 0 = 1%R. Proof. reflexivity. Qed.

Lemma dR_sval s c e : dR s c e = (IZR (sval s c) * p10 e)%R.
Proof. reflexivity. Qed.

(** [d_cmp] on finite numbers is comparison of values. *)
Lemma d_cmp_R s c e s' c' e' :
  d_cmp (DFin s c e) (DFin s' c' e') = Some (Rcompare (dR s c e) (dR s' c' e')).
Proof.
  cbn [d_cmp]. f_equal. set (m := Z.min e e').
  rewrite !dR_sval. replace e with ((e - m) + m) at 2 by lia. replace e' with ((e' - m) + m) at 2 by lia.
  rewrite !p10_plus, <- !Rmult_assoc. rewrite (p10_IZR (e - m)), (p10_IZR (e' - m)) by lia.
  rewrite <- !mult_IZR. rewrite Rcompare_mult_r by apply p10_pos.
  rewrite Rcompare_IZR. reflexivity.
Qed.

(** ** Exact conversion from doubles *)

Lemma reduce2_spec : forall k m n k', reduce2 m k = (n, k') ->
  (k' <= k)%nat /\ Z.pos m = Z.pos n * 2 ^ Z.of_nat (k - k').
Proof.
  induction k as [|k IH]; intros m n k' H; cbn [reduce2] in H.
  - inversion H; subst. split; [lia|]. change (Z.of_nat (0 - 0)) with 0. rewrite Z.pow_0_r. lia.
  - destruct m as [m|m|].
    + inversion H; subst. replace (Z.of_nat (S k - S k)) with 0 by lia. rewrite Z.pow_0_r. split; lia.
    + apply IH in H. destruct H as [H1 H2]. split; [lia|].
      replace (Z.of_nat (S k - k')) with (Z.succ (Z.of_nat (k - k'))) by lia.
      rewrite Z.pow_succ_r by lia. lia.
    + inversion H; subst. replace (Z.of_nat (S k - S k)) with 0 by lia. rewrite Z.pow_0_r. split; lia.
Qed.

Lemma d_of_float_finite x : fisfin x = true ->
  exists s c e, d_of_float x = DFin s c e /\ dR s c e = B2R64 x /\ e <= 0.
Proof.
  destruct x as [s|s| |s m e Hb]; cbn [fisfin is_finite]; intros H; try discriminate.
  - exists s, 0%N, 0. repeat split; try lia. unfold dR, sval. destruct s; cbn; lra.
  - cbn [d_of_float]. destruct (Z.leb_spec 0 e) as [He|He].
    + eexists _, _, _. split; [reflexivity|]. split; [|lia].
      cbn [B2R]. rewrite dR_sval; unfold F2R. cbn [Fnum Fexp]. rewrite p10_0.
      rewrite Rmult_1_r, <- (IZR_Zpower radix2) by exact He. rewrite <- mult_IZR. f_equal.
      unfold sval, cond_Zopp. change (Z.pow radix2 e) with (2 ^ e).
      assert (Hc : Z.of_N (N.pos m * 2 ^ Z.to_N e) = Z.pos m * 2 ^ e).
      { rewrite N2Z.inj_mul, N2Z.inj_pow, Z2N.id by exact He. reflexivity. }
      rewrite Hc. destruct s; lia.
    + destruct (reduce2 m (Z.to_nat (- e))) as [n k] eqn:Er.
      apply reduce2_spec in Er. destruct Er as [Hk Hm].
      eexists _, _, _. split; [reflexivity|]. split; [|lia].
      cbn [B2R]. rewrite dR_sval; unfold F2R. cbn [Fnum Fexp].
      assert (Hc : Z.of_N (N.pos n * 5 ^ N.of_nat k) = Z.pos n * 5 ^ Z.of_nat k).
      { rewrite N2Z.inj_mul, N2Z.inj_pow. f_equal. f_equal. lia. }
      assert (Hs : sval s (N.pos n * 5 ^ N.of_nat k) = cond_Zopp s (Z.pos n * 5 ^ Z.of_nat k)).
      { unfold sval, cond_Zopp. rewrite Hc. reflexivity. }
      rewrite Hs.
      assert (Hcz : forall a b, IZR (cond_Zopp s (a * b)) = (IZR (cond_Zopp s a) * IZR b)%R).
      { intros a b. destruct s; cbn [cond_Zopp]; rewrite ?opp_IZR, mult_IZR; ring. }
      rewrite Hcz, Hm, Hcz.
      rewrite !Rmult_assoc. f_equal.
      (* 5^k * 10^-k = 2^(-e-k) * 2^e = 2^-k *)
      replace (Z.of_nat (Z.to_nat (- e) - k)) with (- e - Z.of_nat k) by lia.
      set (kk := Z.of_nat k) in *. assert (0 <= kk) by lia.
      assert (H2 : IZR (2 ^ (- e - kk)) = bpow radix2 (- e - kk)).
      { rewrite <- (IZR_Zpower radix2) by lia. reflexivity. }
      rewrite H2, <- bpow_plus. replace (- e - kk + e) with (- kk) by lia.
      unfold p10. rewrite !bpow_opp.
      rewrite <- (IZR_Zpower radix2), <- (IZR_Zpower radix10) by lia.
      change (Z.pow radix2 kk) with (2 ^ kk). change (Z.pow radix10 kk) with ((5 * 2) ^ kk).
      rewrite Z.pow_mul_l, mult_IZR.
      assert (0 < 5 ^ kk) by (apply Z.pow_pos_nonneg; lia).
      assert (0 < 2 ^ kk) by (apply Z.pow_pos_nonneg; lia).
      field. split; apply Rgt_not_eq, IZR_lt; assumption.
Qed.
