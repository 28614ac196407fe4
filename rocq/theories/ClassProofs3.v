(** Brier and spherical loss *)
From Coq Require Import Reals Lra Lia.
From Verif Require Import PyBase ListLemmas F64 Num NumOk Util UtilProofs BootUtil BootProofs5 PerfCurves PerfProofs4 CurveBoot
  MLPaper MLProofs2 MLProofs3 Classification ClassProofs ClassProofs2.
Open Scope R_scope.

Definition ind (b : bool) : R := if b then 1 else 0.
(** squared distance of the prediction to the label *)
Definition brier_R (row : list xr) (y : nat) : R :=
  Rsum (map (fun k => (prob row k - ind (k =? y)%nat) * (prob row k - ind (k =? y)%nat)) (seq 0 (length row))).
Definition bscale (rescale : bool) (L : nat) : R := if rescale && (1 <? L)%nat then INR L / (INR L - 1) else 1.
Definition norm2 (row : list xr) : R := Rsum (map (fun k => prob row k * prob row k) (seq 0 (length row))).

Lemma bscale_pos r L : 0 < bscale r L.
Proof.
  unfold bscale. destruct (r && (1 <? L)%nat) eqn:E; [|lra]. apply Bool.andb_true_iff in E as (_ & E). apply Nat.ltb_lt in E.
  assert (1 < INR L) by (apply (lt_INR 1); lia). apply Rdiv_lt_0_compat; lra.
Qed.
Lemma brier_R_nonneg row y : 0 <= brier_R row y.
Proof. apply Rsum_map_nonneg. intros. apply Rle_0_sqr. Qed.
Lemma norm2_nonneg row : 0 <= norm2 row.
Proof. apply Rsum_map_nonneg. intros. apply Rle_0_sqr. Qed.

Lemma brier_expand row y : (y < length row)%nat -> brier_R row y = norm2 row - 2 * prob row y + 1.
Proof.
  intros H. unfold brier_R, norm2.
  rewrite (Rsum_map_ext _ (fun k => prob row k * prob row k + ((-2) * (if (k =? y)%nat then prob row k else 0) + (if (k =? y)%nat then 1 else 0)))).
  - rewrite Rsum_map_plus, Rsum_map_plus, Rsum_map_mult, (Rsum_delta (prob row)), (Rsum_delta (fun _ => 1)) by exact H. lra.
  - intros k _. unfold ind. destruct (k =? y)%nat; lra.
Qed.

Section Exact.
  Context (sf ppf : Z -> R -> R).
  Local Instance FX3 : fn xr := fn_xr sf ppf.

  Lemma brier_row row hot y : Forall logp row -> hot = set_true (repeat false (length row)) y ->
    nsum (map2 (fun lp (b : bool) => let d := nsub (nexp lp) (if b then n1 else n0) in nmul d d) row hot) = Fin (brier_R row y).
  Proof.
    intros F ->. unfold brier_R. rewrite <- nsum_fin. f_equal.
    rewrite (map2_seq _ _ _ NaN false) by (now rewrite set_true_length, repeat_length).
    rewrite map_map. apply map_ext_in. intros k Hk. apply in_seq in Hk.
    assert (nth k (set_true (repeat false (length row)) y) false = (k =? y)%nat) as ->.
    { apply nth_error_nth with (d := false). apply set_true_nth. lia. }
    assert (nexp (nth k row NaN) = Fin (prob row k)) as ->.
    { rewrite prob_pr. assert (logp (nth k row NaN)) as Lk.
      { rewrite Forall_forall in F. apply F, nth_In. lia. }
      destruct (nth k row NaN); cbn in *; try contradiction; reflexivity. }
    unfold ind. destruct (k =? y)%nat; cbn; f_equal; ring.
  Qed.

  Lemma brier_form rescale kd y m L : valid_y kd y (length m) L -> Forall (ok_row L) m ->
    brier_loss rescale kd y m L = Ok (map2 (fun v row => Fin (bscale rescale L * brier_R row (Z.to_nat v))) y m).
  Proof.
    intros V F. unfold brier_loss. rewrite (proj2 (validate_iff kd y m L) V). cbn [bind].
    destruct V as (_ & L1 & Ly & _ & Fy).
    assert (one_hot Ki y (Z.of_nat L) = Ok (map (fun v => set_true (repeat false L) (Z.to_nat v)) y)) as ->.
    { rewrite one_hot_ok, Nat2Z.id. replace (1 <=? Z.of_nat L)%Z with true by (symmetry; apply Z.leb_le; lia). cbn [andb dkind_eqb].
      replace (forallb _ y) with true; [reflexivity|]. symmetry. apply forallb_forall. intros v Hv.
      rewrite Forall_forall in Fy. specialize (Fy v Hv). apply Bool.andb_true_iff. rewrite Z.leb_le, Z.ltb_lt. lia. }
    cbn [bind].
    assert (map2 (fun row hot => nsum (map2 (fun lp (b : bool) => nmul (nsub (nexp lp) (if b then n1 else n0)) (nsub (nexp lp) (if b then n1 else n0))) row hot))
      m (map (fun v => set_true (repeat false L) (Z.to_nat v)) y) = map Fin (map2 (fun v row => brier_R row (Z.to_nat v)) y m)) as ->.
    { clear Fy L1. revert m Ly F. induction y as [|v y IH]; intros [|row m] Ly F; try discriminate; [reflexivity|].
      inversion F as [|? ? (H1 & H2) F']; subst. cbn [map map2]. f_equal; [|apply IH; auto; now injection Ly].
      apply (brier_row row _ (Z.to_nat v)); auto. }
    f_equal. unfold bscale. replace (1 <? Z.of_nat L)%Z with (1 <? L)%nat.
    2:{ apply eq_true_iff_eq. rewrite Nat.ltb_lt, Z.ltb_lt. lia. }
    destruct (rescale && (1 <? L)%nat) eqn:E.
    - apply Bool.andb_true_iff in E as (_ & E). apply Nat.ltb_lt in E.
      assert (1 < INR L) by (apply (lt_INR 1); lia).
      cbn [nofZ xr_num ndiv]. rewrite minus_IZR, <- INR_IZR_INZ, xdiv_fin by lra.
      rewrite map_map. clear -L. revert m. induction y as [|v y IH]; intros [|row m]; try reflexivity.
      cbn [map2 map]. f_equal. apply IH.
    - clear -L. revert m. induction y as [|v y IH]; intros [|row m]; try reflexivity.
      cbn [map2 map]. f_equal; [|apply IH]. f_equal. ring.
  Qed.

  Lemma loss_of_brier r row k : Forall logp row -> (k < length row)%nat ->
    loss_of (brier_loss r) row k = Fin (bscale r (length row) * brier_R row k).
  Proof.
    intros F H. unfold loss_of. rewrite brier_form; [|apply valid1; exact H|repeat constructor; auto].
    cbn. now rewrite Nat2Z.id.
  Qed.

  (** the expected excess loss is the squared distance *)
  Lemma brier_excess r L p q : (1 <= L)%nat -> dist L p -> ok_row L q ->
    expected (map pr p) (loss_of (brier_loss r) q) =
    Fin (bscale r L * (1 - norm2 p + Rsum (map (fun k => (prob q k - prob p k) * (prob q k - prob p k)) (seq 0 L)))).
  Proof.
    intros L1 ((Lp & Fp) & Sp) (Lq & Fq).
    rewrite (expected_fin _ (fun k => bscale r L * brier_R q k)).
    2:{ intros k. apply prob_nonneg. }
    2:{ rewrite map_length, Lp. intros k Hk _. rewrite loss_of_brier by (auto; lia). now rewrite Lq. }
    rewrite map_length, Lp. f_equal.
    rewrite (Rsum_map_ext _ (fun k => bscale r L * (prob p k * (norm2 q + 1) - 2 * (prob p k * prob q k)))).
    2:{ intros k Hk. apply in_seq in Hk. rewrite brier_expand by lia. unfold prob. ring. }
    rewrite Rsum_map_mult. f_equal. rewrite Rsum_map_minus, Rsum_map_mult.
    rewrite (Rsum_map_ext _ (fun k => (norm2 q + 1) * prob p k)) by (intros; ring). rewrite Rsum_map_mult.
    rewrite prob_sum, Lp in Sp. rewrite Sp.
    rewrite (Rsum_map_ext (fun k => (prob q k - prob p k) * (prob q k - prob p k))
      (fun k => (prob q k * prob q k + prob p k * prob p k) - 2 * (prob p k * prob q k))) by (intros; ring).
    rewrite Rsum_map_minus, Rsum_map_mult, Rsum_map_plus. unfold norm2. rewrite Lp, Lq. ring.
  Qed.

  Theorem brier_proper r : strictly_proper (brier_loss r).
  Proof.
    intros L p q L1 Dp Dq. pose proof Dp as (Op & Sp). pose proof Dq as (Oq & Sq).
    pose proof Op as (Lp & Fp). pose proof Oq as (Lq & Fq).
    rewrite (brier_excess r L p p), (brier_excess r L p q) by auto.
    rewrite (Rsum_map_ext (fun k => (prob p k - prob p k) * (prob p k - prob p k)) (fun _ => 0)) by (intros; ring).
    rewrite Rsum_map_zero. eexists. split; [reflexivity|].
    set (D := fun k => (prob q k - prob p k) * (prob q k - prob p k)).
    assert (forall k, In k (seq 0 L) -> 0 <= D k) as DP by (intros; apply Rle_0_sqr).
    pose proof (Rsum_map_nonneg D (seq 0 L) DP) as NN. pose proof (bscale_pos r L) as BP.
    split.
    - apply Rleb_spec. apply Rmult_le_compat_l; lra.
    - intros E. injection E as E. apply Rmult_eq_reg_l in E; [|lra].
      apply rows_eq; auto; [lia|]. intros k Hk.
      assert (D k = 0) as Z by (apply (Rsum_zero D (seq 0 L)); auto; [lra|apply in_seq; lia]).
      unfold D in Z. apply Rmult_integral in Z. lra.
  Qed.

End Exact.
Lemma norm2_le1 L row : dist L row -> norm2 row <= 1.
Proof.
  intros D. pose proof D as ((Lr & F) & S). rewrite <- S, prob_sum. unfold norm2. apply Rsum_map_le. intros k _.
  pose proof (prob_nonneg row k). pose proof (prob_le1 L row k D). nra.
Qed.

Lemma brier_range L row y : dist L row -> (y < L)%nat -> 0 <= brier_R row y <= 2.
Proof.
  intros D H. split; [apply brier_R_nonneg|]. pose proof D as ((Lr & F) & S). rewrite brier_expand by lia.
  pose proof (norm2_le1 L row D). pose proof (prob_nonneg row y). lra.
Qed.

Lemma prob_others L row y k : dist L row -> (y < L)%nat -> (k < L)%nat -> prob row y = 1 -> k <> y -> prob row k = 0.
Proof.
  intros ((Lr & F) & S) Hy Hk Y N. rewrite prob_sum, Lr in S.
  pose proof (Rsum_delta (prob row) L y Hy) as Sy.
  assert (Rsum (map (fun k => prob row k - (if (k =? y)%nat then prob row k else 0)) (seq 0 L)) = 0) as Z
    by (rewrite Rsum_map_minus; lra).
  assert (forall j, In j (seq 0 L) -> 0 <= prob row j - (if (j =? y)%nat then prob row j else 0)) as P.
  { intros j _. pose proof (prob_nonneg row j). destruct (j =? y)%nat; lra. }
  pose proof (Rsum_zero _ (seq 0 L) P Z k ltac:(apply in_seq; lia)) as K.
  cbv beta in K. apply Nat.eqb_neq in N. rewrite N in K. lra.
Qed.

Lemma brier_zero_iff L row y : dist L row -> (y < L)%nat -> (brier_R row y = 0 <-> prob row y = 1).
Proof.
  intros D H. pose proof D as ((Lr & F) & S). split.
  - intros Z. pose proof (Rsum_zero _ (seq 0 (length row)) (fun k _ => Rle_0_sqr _) Z y ltac:(apply in_seq; lia)) as K.
    cbv beta in K. rewrite Nat.eqb_refl in K. cbn in K. apply Rmult_integral in K. lra.
  - intros Y. unfold brier_R. rewrite (Rsum_map_ext _ (fun _ => 0)), Rsum_map_zero; [reflexivity|].
    intros k Hk. apply in_seq in Hk. destruct (Nat.eqb_spec k y) as [->|N]; cbn [ind]; [rewrite Y; ring|].
    rewrite (prob_others L row y k) by (auto; lia). ring.
Qed.

Lemma norm2_uniform L row : length row = L -> (1 <= L)%nat -> (forall k, (k < L)%nat -> prob row k = 1 / INR L) -> norm2 row = 1 / INR L.
Proof.
  intros H L1 U. unfold norm2. rewrite (Rsum_map_ext _ (fun _ => (1 / INR L * (1 / INR L)) * 1)), Rsum_map_mult.
  - assert (Rsum (map (fun _ : nat => 1) (seq 0 (length row))) = INR L) as ->.
    { rewrite H. assert (forall s n, Rsum (map (fun _ : nat => 1) (seq s n)) = INR n) as G.
      { intros s n. revert s. induction n as [|n IH]; intros s; [reflexivity|]. cbn [seq map]. rewrite Rsum_cons, IH, S_INR. ring. }
      apply G. }
    assert (0 < INR L) by (apply lt_0_INR; lia). field. lra.
  - intros k Hk. apply in_seq in Hk. rewrite U by lia. ring.
Qed.

Lemma brier_uniform L row y : length row = L -> (y < L)%nat -> (forall k, (k < L)%nat -> prob row k = 1 / INR L) ->
  brier_R row y = 1 - 1 / INR L.
Proof. intros H Y U. rewrite brier_expand by lia. rewrite (norm2_uniform L) by (auto; lia). rewrite U by lia. lra. Qed.

(** ** Spherical loss *)
Definition norm (row : list xr) : R := sqrt (norm2 row).
Definition sphere_R (row : list xr) (y : nat) : R := - (prob row y / norm row).
Definition sscale (L : nat) : R := if (1 <? L)%nat then 1 - 1 / sqrt (INR L) else 1.

Lemma sscale_pos L : 0 < sscale L.
Proof.
  unfold sscale. destruct (1 <? L)%nat eqn:E; [|lra]. apply Nat.ltb_lt in E.
  assert (1 < sqrt (INR L)). { rewrite <- sqrt_1. apply sqrt_lt_1; try lra; [apply pos_INR|]. apply (lt_INR 1). lia. }
  assert (1 / sqrt (INR L) < 1); [|lra]. apply Rmult_lt_reg_r with (sqrt (INR L)); [lra|]. field_simplify; lra.
Qed.

Lemma lse_form row : Forall logp row -> Exists is_fin row -> logsumexp row = Fin (ln (Rsum (map pr row))).
Proof.
  intros F E. pose proof (normalize_row_spec row F E) as N. unfold normalize_row in N.
  apply Exists_exists in E as (a & Ia & Ea). destruct a as [x| | |]; try contradiction.
  assert (nsub (Fin x) (logsumexp row) = shift (ln (Rsum (map pr row))) (Fin x)) as H.
  { clear Ea F. set (s := ln _) in *. set (z := logsumexp row) in *. clearbody s z. induction row as [|b row IH]; [contradiction|].
    cbn [map] in N. injection N as N1 N2. destruct Ia as [->|Ia]; auto. }
  cbn [shift] in H. destruct (logsumexp row) as [z| | |]; cbn in H; try discriminate. injection H as H. f_equal. lra.
Qed.

Lemma double_pr a : logp a -> logp (nmul (nofZ 2) a) /\ pr (nmul (nofZ 2) a) = pr a * pr a /\ (is_fin a -> is_fin (nmul (nofZ 2) a)).
Proof.
  destruct a as [x| | |]; cbn; intros H; try contradiction.
  - split; [exact I|]. split; [|auto]. rewrite <- exp_plus. f_equal. lra.
  - unfold xinf_mul. rewrite Reqb_neq by lra. replace (Rltb 0 2) with true by (symmetry; apply Rltb_spec; lra). cbn.
    split; [exact I|]. split; [lra|auto].
Qed.

Lemma sphere_norm row : Forall logp row -> Exists is_fin row ->
  0 < norm2 row /\ logsumexp (map (nmul (nofZ 2)) row) = Fin (ln (norm2 row)).
Proof.
  intros F E.
  assert (Rsum (map pr (map (nmul (nofZ 2)) row)) = norm2 row) as N.
  { unfold norm2. rewrite map_map.
    rewrite <- (nth_all row NaN) at 1. rewrite map_map. apply Rsum_map_ext. intros k Hk. apply in_seq in Hk.
    rewrite prob_pr. apply double_pr. rewrite Forall_forall in F. apply F, nth_In. lia. }
  assert (Forall logp (map (nmul (nofZ 2)) row)) as F2.
  { apply Forall_forall. intros x Hx. apply in_map_iff in Hx as (a & <- & Ha). rewrite Forall_forall in F. now apply double_pr, F. }
  assert (Exists is_fin (map (nmul (nofZ 2)) row)) as E2.
  { apply Exists_exists in E as (a & Ha & Ea). apply Exists_exists. exists (nmul (nofZ 2) a). split; [now apply in_map|].
    rewrite Forall_forall in F. apply double_pr; auto. }
  split; [rewrite <- N; now apply Exists_pr_pos|]. rewrite lse_form by auto. now rewrite N.
Qed.

Lemma exp_half_ln x : 0 < x -> exp (ln x / 2) = sqrt x.
Proof. intros H. rewrite <- (Rpower_sqrt x H). unfold Rpower. f_equal. lra. Qed.

Lemma sphere_one row k : Forall logp row -> Exists is_fin row -> (k < length row)%nat ->
  nopp (xexp (nsub (nth k row n0) (nmul (ndiv n1 (nofZ 2)) (logsumexp (map (nmul (nofZ 2)) row))))) = Fin (sphere_R row k).
Proof.
  intros F E H. destruct (sphere_norm row F E) as (P & ->).
  cbn [ndiv n1 nofZ xr_num]. rewrite xdiv_fin by lra. cbn [nmul xr_num xmul].
  unfold sphere_R, norm. rewrite <- (prob_nth row k n0 H). pose proof (nth_logp row k F H) as Lk.
  rewrite <- exp_half_ln by exact P. pose proof (exp_pos (ln (norm2 row) / 2)) as PE.
  destruct (nth k row n0) as [x| | |]; cbn in Lk |- *; try contradiction; f_equal.
  - replace (x + - (1 / 2 * ln (norm2 row))) with (x + - (ln (norm2 row) / 2)) by lra. rewrite exp_plus, exp_Ropp. unfold Rdiv. ring.
  - unfold Rdiv. ring.
Qed.

Lemma sphere_form rescale kd y m L : valid_y kd y (length m) L -> Forall (fun row => ok_row L row /\ Exists is_fin row) m ->
  spherical_loss rescale kd y m L =
  Ok (map2 (fun v row => Fin (if rescale then (1 + sphere_R row (Z.to_nat v)) / sscale L else sphere_R row (Z.to_nat v))) y m).
Proof.
  intros V F. unfold spherical_loss. rewrite (proj2 (validate_iff kd y m L) V). cbn [bind].
  destruct V as (_ & L1 & Ly & _ & Fy).
  match goal with |- context [map2 ?one y m] => assert (map2 one y m = map Fin (map2 (fun v row => sphere_R row (Z.to_nat v)) y m)) as -> end.
  { clear L1. revert m Ly F. induction y as [|v y IH]; intros [|row m] Ly F; try discriminate; [reflexivity|].
    inversion F as [|? ? ((H1 & H2) & H3) F']; subst. inversion Fy as [|? ? Hv Fy']; subst. cbn [map map2].
    f_equal; [|apply IH; auto; now injection Ly]. apply sphere_one; auto. lia. }
  destruct rescale; f_equal.
  2:{ clear. revert m. induction y as [|v y IH]; intros [|row m]; try reflexivity. cbn [map2 map]. f_equal. apply IH. }
  assert ((if (1 <? L)%nat then nsub n1 (ndiv n1 (xsqrt (nofZ (Z.of_nat L)))) else n1) = Fin (sscale L)) as ->.
  { unfold sscale. destruct (1 <? L)%nat eqn:E; [|reflexivity]. apply Nat.ltb_lt in E.
    cbn [nofZ xr_num]. rewrite <- INR_IZR_INZ, xsqrt_fin by apply pos_INR.
    assert (0 < sqrt (INR L)) by (apply sqrt_lt_R0, lt_0_INR; lia).
    cbn [ndiv n1 xr_num]. rewrite xdiv_fin by lra. reflexivity. }
  pose proof (sscale_pos L) as SP. rewrite map_map. clear -SP. revert m.
  induction y as [|v y IH]; intros [|row m]; try reflexivity. cbn [map2 map]. f_equal; [|apply IH].
  cbn [nadd n1 ndiv xr_num xadd]. now rewrite xdiv_fin by lra.
Qed.

Lemma loss_of_sphere r row k : Forall logp row -> Exists is_fin row -> (k < length row)%nat ->
  loss_of (spherical_loss r) row k = Fin (if r then (1 + sphere_R row k) / sscale (length row) else sphere_R row k).
Proof.
  intros F E H. unfold loss_of. rewrite sphere_form; [|apply valid1; exact H|repeat constructor; auto].
  cbn. now rewrite Nat2Z.id.
Qed.

Lemma norm_pos row : Forall logp row -> Exists is_fin row -> 0 < norm row.
Proof. intros F E. unfold norm. apply sqrt_lt_R0. now apply sphere_norm. Qed.
Lemma norm_sq row : norm row * norm row = norm2 row.
Proof. unfold norm. apply sqrt_sqrt, norm2_nonneg. Qed.

Lemma prob_le_norm row k : (k < length row)%nat -> prob row k <= norm row.
Proof.
  intros H. unfold norm. rewrite <- (sqrt_square (prob row k)) by apply prob_nonneg. apply sqrt_le_1_alt.
  unfold norm2. apply Rsum_ge.
  - apply Forall_forall. intros x Hx. apply in_map_iff in Hx as (j & <- & _). apply Rle_0_sqr.
  - apply (in_map (fun k => prob row k * prob row k)), in_seq. lia.
Qed.
Lemma sphere_range row k : Forall logp row -> Exists is_fin row -> (k < length row)%nat -> -1 <= sphere_R row k <= 0.
Proof.
  intros F E H. unfold sphere_R. pose proof (norm_pos row F E). pose proof (prob_le_norm row k H). pose proof (prob_nonneg row k).
  assert (0 <= prob row k / norm row) by (apply Rmult_le_pos; [lra|]; left; now apply Rinv_0_lt_compat).
  assert (prob row k / norm row <= 1) by (apply Rmult_le_reg_r with (norm row); [lra|]; field_simplify; lra). lra.
Qed.

(** expected excess: half the norm times the squared distance of the
    directions *)
Lemma sphere_inner L p q : dist L p -> ok_row L q -> Exists is_fin q ->
  Rsum (map (fun k => prob p k * sphere_R q k) (seq 0 L)) =
  - norm p + norm p / 2 * Rsum (map (fun k => (prob p k / norm p - prob q k / norm q) * (prob p k / norm p - prob q k / norm q)) (seq 0 L)).
Proof.
  intros Dp (Lq & Fq) Eq. pose proof Dp as ((Lp & Fp) & Sp). pose proof (dist_exists_fin L p Dp) as Ep.
  pose proof (norm_pos p Fp Ep) as Np. pose proof (norm_pos q Fq Eq) as Nq.
  rewrite (Rsum_map_ext (fun k => (prob p k / norm p - prob q k / norm q) * _)
    (fun k => (/ norm2 p * (prob p k * prob p k) + / norm2 q * (prob q k * prob q k)) + (2 / norm p) * (prob p k * sphere_R q k))).
  - rewrite Rsum_map_plus, Rsum_map_plus, !Rsum_map_mult.
    replace (Rsum (map (fun k => prob p k * prob p k) (seq 0 L))) with (norm2 p) by (unfold norm2; now rewrite Lp).
    replace (Rsum (map (fun k => prob q k * prob q k) (seq 0 L))) with (norm2 q) by (unfold norm2; now rewrite Lq).
    assert (0 < norm2 p) by (rewrite <- norm_sq; nra). assert (0 < norm2 q) by (rewrite <- norm_sq; nra).
    field. repeat split; lra.
  - intros k _. unfold sphere_R. rewrite <- !norm_sq. field. lra.
Qed.

Theorem sphere_proper r : strictly_proper (spherical_loss r).
Proof.
  intros L p q L1 Dp Dq. pose proof Dp as (Op & Sp). pose proof Dq as (Oq & Sq).
  pose proof Op as (Lp & Fp). pose proof Oq as (Lq & Fq).
  pose proof (dist_exists_fin L p Dp) as Ep. pose proof (dist_exists_fin L q Dq) as Eq.
  pose proof (norm_pos p Fp Ep) as Np. pose proof (norm_pos q Fq Eq) as Nq. pose proof (sscale_pos L) as SP.
  set (c := if r then / sscale L else 1). set (d := if r then / sscale L else 0).
  assert (0 < c) as Cp by (unfold c; destruct r; [now apply Rinv_0_lt_compat|lra]).
  assert (forall x, dist L x -> expected (map pr p) (loss_of (spherical_loss r) x) =
    Fin (d + c * Rsum (map (fun k => prob p k * sphere_R x k) (seq 0 L)))) as EX.
  { intros x ((Lx & Fx) & Sx). rewrite (expected_fin _ (fun k => d + c * sphere_R x k)).
    - rewrite map_length, Lp. f_equal.
      rewrite (Rsum_map_ext _ (fun k => d * prob p k + c * (prob p k * sphere_R x k))) by (intros; unfold prob; ring).
      rewrite Rsum_map_plus, !Rsum_map_mult. rewrite prob_sum, Lp in Sp. rewrite Sp. ring.
    - intros k. apply prob_nonneg.
    - rewrite map_length. intros k Hk _. rewrite loss_of_sphere; [|auto| |lia].
      + f_equal. unfold c, d. rewrite Lx. destruct r; [field; lra|ring].
      + apply (dist_exists_fin L). now repeat split. }
  rewrite (EX p Dp), (EX q Dq). eexists. split; [reflexivity|].
  rewrite (sphere_inner L p p), (sphere_inner L p q) by auto.
  rewrite (Rsum_map_ext (fun k => (prob p k / norm p - prob p k / norm p) * _) (fun _ => 0)) by (intros; ring).
  rewrite Rsum_map_zero.
  set (D := fun k => (prob p k / norm p - prob q k / norm q) * (prob p k / norm p - prob q k / norm q)).
  assert (forall k, In k (seq 0 L) -> 0 <= D k) as DP by (intros; apply Rle_0_sqr).
  pose proof (Rsum_map_nonneg D (seq 0 L) DP) as NN.
  split.
  - apply Rleb_spec. apply Rplus_le_compat_l, Rmult_le_compat_l; [lra|]. nra.
  - intros E. injection E as E. apply Rplus_eq_reg_l, Rmult_eq_reg_l in E; [|lra].
    assert (norm p / 2 * Rsum (map D (seq 0 L)) = 0) as Z by (unfold D in *; lra).
    apply Rmult_integral in Z as [Z|Z]; [lra|].
    assert (forall k, (k < L)%nat -> prob q k = norm q / norm p * prob p k) as K.
    { intros k Hk. pose proof (Rsum_zero D (seq 0 L) DP Z k ltac:(apply in_seq; lia)) as Dk.
      unfold D in Dk. assert (prob p k / norm p = prob q k / norm q) as K by (apply Rmult_integral in Dk; lra).
      replace (prob q k) with (prob q k / norm q * norm q) by (field; lra). rewrite <- K. field. lra. }
    assert (norm q / norm p = 1) as K1.
    { rewrite prob_sum, Lp in Sp. rewrite prob_sum, Lq in Sq.
      rewrite (Rsum_map_ext _ (fun k => norm q / norm p * prob p k)) in Sq by (intros k Hk; apply in_seq in Hk; apply K; lia).
      rewrite Rsum_map_mult, Sp in Sq. lra. }
    apply rows_eq; auto; [lia|]. intros k Hk. rewrite K by lia. rewrite K1. ring.
Qed.

Lemma sphere_uniform L row y : ok_row L row -> (y < L)%nat -> (forall k, (k < L)%nat -> prob row k = 1 / INR L) ->
  sphere_R row y = - (1 / sqrt (INR L)).
Proof.
  intros (H & F) Y U. unfold sphere_R, norm. rewrite (norm2_uniform L) by (auto; lia). rewrite U by lia. f_equal.
  assert (0 < INR L) as PL by (apply lt_0_INR; lia). assert (0 < sqrt (INR L)) as PS by (now apply sqrt_lt_R0).
  rewrite sqrt_div by lra. rewrite sqrt_1. pose proof (sqrt_sqrt (INR L)) as SS. rewrite <- SS at 1 by lra. field. lra.
Qed.

Lemma sphere_perfect L row y : ok_row L row -> Exists is_fin row -> (y < L)%nat ->
  (sphere_R row y = -1 <-> forall k, (k < L)%nat -> k <> y -> prob row k = 0).
Proof.
  intros (H & F) E Y. pose proof (norm_pos row F E) as N. unfold sphere_R.
  assert (norm2 row = prob row y * prob row y + Rsum (map (fun k => if (k =? y)%nat then 0 else prob row k * prob row k) (seq 0 L))) as S.
  { unfold norm2. rewrite H. rewrite <- (Rsum_delta (fun k => prob row k * prob row k) L y Y), <- Rsum_map_plus.
    apply Rsum_map_ext. intros k _. destruct (k =? y)%nat; ring. }
  split.
  - intros G. assert (prob row y = norm row) as P.
    { replace (prob row y) with (prob row y / norm row * norm row) by (field; lra). replace (prob row y / norm row) with 1 by lra. ring. }
    rewrite P, norm_sq in S. intros k Hk NE.
    assert (Rsum (map (fun k => if (k =? y)%nat then 0 else prob row k * prob row k) (seq 0 L)) = 0) as Z by lra.
    apply Rsum_zero with (a := k) in Z.
    + apply Nat.eqb_neq in NE. rewrite NE in Z. apply Rmult_integral in Z. lra.
    + intros j _. destruct (j =? y)%nat; [lra|]. apply Rle_0_sqr.
    + apply in_seq. lia.
  - intros G. assert (norm row = prob row y) as ->.
    { unfold norm. rewrite S, (Rsum_map_ext _ (fun _ => 0)), Rsum_map_zero, Rplus_0_r; [apply sqrt_square, prob_nonneg|].
      intros k Hk. apply in_seq in Hk. destruct (Nat.eqb_spec k y); [reflexivity|]. rewrite G by (auto; lia). ring. }
    assert (prob row y <> 0).
    { intros Z. rewrite <- norm_sq in S. rewrite Z in S. rewrite (Rsum_map_ext _ (fun _ => 0)), Rsum_map_zero in S; [nra|].
      intros k Hk. apply in_seq in Hk. destruct (Nat.eqb_spec k y); [reflexivity|]. rewrite G by (auto; lia). ring. }
    field. exact H0.
Qed.

(** scaling all probabilities does not change the direction *)
Lemma sphere_offset c row k : Forall logp row -> Exists is_fin row -> sphere_R (map (nadd (Fin c)) row) k = sphere_R row k.
Proof.
  intros F E.
  assert (forall j, prob (map (nadd (Fin c)) row) j = exp c * prob row j) as P.
  { intros j. destruct (lt_dec j (length row)) as [H|H].
    - rewrite prob_pr. rewrite (nth_indep _ NaN (nadd (Fin c) NaN)) by (now rewrite map_length). rewrite (map_nth (nadd (Fin c))).
      rewrite <- (prob_nth row j NaN H). assert (logp (nth j row NaN)) as Lj by (rewrite Forall_forall in F; now apply F, nth_In).
      destruct (nth j row NaN); cbn in *; try contradiction; [apply exp_plus|ring].
    - unfold prob. rewrite !nth_overflow by (rewrite !map_length; lia). ring. }
  unfold sphere_R, norm, norm2. rewrite map_length, P.
  rewrite (Rsum_map_ext _ (fun k => (exp c * exp c) * (prob row k * prob row k))) by (intros; rewrite !P; ring).
  rewrite Rsum_map_mult. pose proof (exp_pos c) as Pc. rewrite sqrt_mult_alt by nra. rewrite sqrt_square by lra.
  fold (norm2 row). fold (norm row). pose proof (norm_pos row F E). field. lra.
Qed.
