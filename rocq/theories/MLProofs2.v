(** Exact closed forms of the t and Bernstein statistics *)
From Coq Require Import Reals Lra Lia.
From Verif Require Import PyBase ListLemmas F64 Num NumOk Util UtilProofs BootUtil BootProofs5 PerfCurves MLPaper SumProofs.
Open Scope R_scope.

(** ** Mean, sum of squared deviations *)
Definition rmean (l : list R) : R := Rsum l / INR (length l).
Definition rss (l : list R) : R := Rsum (map (fun a => (a - rmean l) * (a - rmean l)) l).

Lemma rss_nonneg l : 0 <= rss l.
Proof.
  apply Rsum_nonneg. apply Forall_forall. intros z Hz. apply in_map_iff in Hz as (a & <- & _).
  apply Rle_0_sqr.
Qed.

Lemma len_pos (l : list R) : l <> [] -> 0 < INR (length l).
Proof. destruct l; [congruence|]. intros _. apply lt_0_INR. cbn [length]. lia. Qed.

Lemma lenT_fin l : lenT (map Fin l) = Fin (INR (length l)).
Proof. unfold lenT. rewrite map_length. cbn [nofZ xr_num]. now rewrite INR_IZR_INZ. Qed.

Lemma nmean_r l : l <> [] -> nmean (map Fin l) = Fin (rmean l).
Proof. apply nmean_fin. Qed.

Lemma nvar_fin (k : nat) l : (k < length l)%nat ->
  nvar (Z.of_nat k) (map Fin l) = Fin (rss l / (INR (length l) - INR k)).
Proof.
  intros H. assert (l <> []) as NE by (destruct l; [cbn in H; lia|discriminate]).
  unfold nvar. rewrite (nmean_r l NE), map_map, map_length.
  change (map (fun x => nmul (nsub (Fin x) (Fin (rmean l))) (nsub (Fin x) (Fin (rmean l)))) l)
    with (map (fun x => Fin ((x + - rmean l) * (x + - rmean l))) l).
  rewrite <- (map_map (fun x => (x + - rmean l) * (x + - rmean l)) Fin), psum_xr, nsum_fin.
  rewrite Z.max_l by lia. cbn [ndiv nofZ xr_num]. rewrite minus_IZR, <- !INR_IZR_INZ.
  rewrite xdiv_fin by (apply lt_INR in H; lra). reflexivity.
Qed.

Lemma xsqrt_fin r : 0 <= r -> xsqrt (Fin r) = Fin (sqrt r).
Proof. intros H. unfold xsqrt. destruct (Rltb r 0) eqn:E; [apply Rltb_spec in E; lra|reflexivity]. Qed.

Section Fn.
Context (sf ppf : Z -> R -> R).
Local Instance FX : fn xr := fn_xr sf ppf.

Lemma nstd_fin (k : nat) l : (k < length l)%nat ->
  nstd (Z.of_nat k) (map Fin l) = Fin (sqrt (rss l / (INR (length l) - INR k))).
Proof.
  intros H. unfold nstd. rewrite nvar_fin by exact H. apply xsqrt_fin.
  apply lt_INR in H. pose proof (rss_nonneg l). apply Rmult_le_pos; [lra|]. apply Rlt_le, Rinv_0_lt_compat. lra.
Qed.

Lemma nvar1_fin l : (2 <= length l)%nat -> nvar 1 (map Fin l) = Fin (rss l / (INR (length l) - 1)).
Proof. intros H. exact (nvar_fin 1 l H). Qed.
Lemma nstd1_fin l : (2 <= length l)%nat -> nstd 1 (map Fin l) = Fin (sqrt (rss l / (INR (length l) - 1))).
Proof. intros H. exact (nstd_fin 1 l H). Qed.

Lemma no_nan l : existsb nisnan (map Fin l) = false.
Proof. induction l; auto. Qed.
Lemma all_fin l : forallb nisfin (map Fin l) = true.
Proof. induction l; auto. Qed.
Lemma not_degenerate l : (2 <= length l)%nat -> degenerate (map Fin l) = false.
Proof.
  intros H. unfold degenerate. rewrite all_fin, map_length. cbn [negb]. rewrite orb_false_r.
  apply Z.leb_gt. lia.
Qed.
Lemma conf_ok c : 0 < c < 1 -> nltb n0 (Fin c) && nltb (Fin c) n1 = true.
Proof. intros [A B]. cbn [nltb n0 n1 xr_num xltb]. apply andb_true_iff. split; now apply Rltb_spec. Qed.

(** ** Student's t *)

(** What is assumed of the distribution functions: the survival function is
    strictly decreasing and symmetric, the quantile function is its inverse. *)
Record t_dist (S Q : R -> R) : Prop := {
  t_decr : forall a b, a < b -> S b < S a;
  t_sym : forall a, S (- a) = 1 - S a;
  t_pos : forall a, 0 < S a;
  t_inv : forall q, 0 < q < 1 -> S (Q q) = 1 - q
}.

Lemma t_le_iff S Q a b : t_dist S Q -> (S b < S a <-> a < b).
Proof.
  intros D. split; [|apply (t_decr _ _ D)]. intros H. destruct (Rlt_or_le a b) as [?|L]; [assumption|].
  destruct L as [L|<-]; [|lra]. pose proof (t_decr _ _ D b a L). lra.
Qed.
Lemma t_inj S Q a b : t_dist S Q -> S a = S b -> a = b.
Proof.
  intros D E. destruct (Rtotal_order a b) as [L|[L|L]]; [|assumption|]; pose proof (t_decr _ _ D _ _ L); lra.
Qed.
Lemma t_zero S Q : t_dist S Q -> S 0 = 1 / 2.
Proof. intros D. pose proof (t_sym _ _ D 0) as H. rewrite Ropp_0 in H. lra. Qed.
Lemma t_q_sym S Q c : t_dist S Q -> 0 < c < 1 -> Q ((1 - c) / 2) = - Q ((1 + c) / 2).
Proof.
  intros D C. apply (t_inj S Q); [exact D|]. rewrite (t_sym _ _ D), !(t_inv _ _ D); lra.
Qed.
Lemma t_q_pos S Q c : t_dist S Q -> 0 < c < 1 -> 0 < Q ((1 + c) / 2).
Proof.
  intros D C. apply (t_le_iff S Q); [exact D|]. rewrite (t_zero _ _ D), (t_inv _ _ D); lra.
Qed.
Lemma t_q_mono S Q c c' : t_dist S Q -> 0 < c < 1 -> 0 < c' < 1 -> c < c' -> Q ((1 + c) / 2) < Q ((1 + c') / 2).
Proof.
  intros D C C' L. apply (t_le_iff S Q); [exact D|]. rewrite !(t_inv _ _ D); lra.
Qed.

Definition t_scale (l : list R) : R := sqrt (rss l / (INR (length l) - 1)) / sqrt (INR (length l)).

Lemma t_scale_alt l : (2 <= length l)%nat -> t_scale l = sqrt (rss l / (INR (length l) - 1) / INR (length l)).
Proof.
  intros H. unfold t_scale. apply le_INR in H. cbn [INR] in H. symmetry. apply sqrt_div_alt. lra.
Qed.
Lemma t_scale_nonneg l : (2 <= length l)%nat -> 0 <= t_scale l.
Proof. intros H. rewrite t_scale_alt by exact H. apply sqrt_pos. Qed.

Notation dfl l := (Z.of_nat (length l) - 1)%Z.

Theorem t_EB_form l c : (2 <= length l)%nat -> 0 < c < 1 -> t_dist (sf (dfl l)) (ppf (dfl l)) ->
  t_EB (map Fin l) (Fin c) = Ok (Fin (ppf (dfl l) ((1 + c) / 2) * t_scale l)).
Proof.
  intros L C D. unfold t_EB. rewrite no_nan, (conf_ok c C), (not_degenerate l L). cbn [negb py_assert bind].
  rewrite (nstd1_fin l L), lenT_fin, map_length.
  change (nsqrt (Fin (INR (length l)))) with (xsqrt (Fin (INR (length l)))). rewrite xsqrt_fin by apply pos_INR.
  cbn [n1 nofZ nsub nadd xr_num xsub xadd xopp]. cbn [ndiv xr_num]. rewrite !xdiv_fin by lra.
  apply le_INR in L. cbn [INR] in L.
  assert (sqrt (INR (length l)) <> 0) as NZ. { apply Rgt_not_eq, sqrt_lt_R0. lra. }
  rewrite (xdiv_fin _ _ NZ). cbn [t_ppf FX fn_xr].
  replace (1 + - c) with (1 - c) by ring.
  pose proof (t_q_sym _ _ c D C) as E. pose proof (t_q_pos _ _ c D C) as P. rewrite E.
  set (q := ppf (dfl l) ((1 + c) / 2)) in *.
  cbn [nltb xr_num xltb]. assert (Rltb q (- q) = false) as -> by (apply Rltb_false; lra). cbn [negb py_assert bind].
  rewrite nhalf_xr. cbn [nmul nsub xr_num xmul xsub xadd xopp]. fold (t_scale l).
  replace (1 / 2 * t_scale l * (q + - - q)) with (q * t_scale l) by field.
  cbn [nleb n0 xr_num xleb].
  assert (0 <= t_scale l) as S0. { apply Rmult_le_pos; [apply sqrt_pos|]. apply Rlt_le, Rinv_0_lt_compat. pose proof (sqrt_pos (INR (length l))). lra. }
  assert (Rleb 0 (q * t_scale l) = true) as ->. { apply Rleb_spec. apply Rmult_le_pos; lra. }
  reflexivity.
Qed.

(** The p-value: 2 P(T > |mean| / scale), with the conventions for data of
    zero spread. *)
Definition t_pvalue (S : R -> R) (m s : R) : R :=
  if Req_EM_T s 0 then (if Req_EM_T m 0 then 1 else 0) else 2 * S (Rabs m / s).

Lemma nabs_fin r : nabs (Fin r) = Fin (Rabs r).
Proof.
  unfold nabs. cbn [nleb n0 nsub xr_num xleb xsub xadd xopp]. destruct (Rleb r 0) eqn:E.
  - apply Rleb_spec in E. rewrite Rabs_left1 by lra. f_equal. ring.
  - apply Rleb_false in E. rewrite Rabs_pos_eq by lra. reflexivity.
Qed.

Theorem t_test_form l : (2 <= length l)%nat -> t_dist (sf (dfl l)) (ppf (dfl l)) ->
  t_test (map Fin l) = Ok (Fin (t_pvalue (sf (dfl l)) (rmean l) (t_scale l))).
Proof.
  intros L D. assert (l <> []) as NE by (destruct l; [cbn in L; lia|discriminate]).
  unfold t_test. rewrite no_nan, (not_degenerate l L). cbn [negb py_assert bind].
  assert (2 <= INR (length l)) as L2. { apply le_INR in L. exact L. }
  unfold ttest_1samp. rewrite (nvar1_fin l L).
  rewrite (nmean_r l NE), lenT_fin, map_length.
  cbn [nsub n0 ndiv xr_num xsub xadd xopp]. rewrite (xdiv_fin _ (INR (length l))) by lra.
  change (@nsqrt xr FX) with xsqrt.
  assert (0 <= rss l / (INR (length l) - 1) / INR (length l)) as NN.
  { pose proof (rss_nonneg l). apply Rmult_le_pos; [apply Rmult_le_pos; [lra|]|]; apply Rlt_le, Rinv_0_lt_compat; lra. }
  rewrite (xsqrt_fin _ NN), <- (t_scale_alt l L). replace (rmean l + - 0) with (rmean l) by ring.
  unfold t_pvalue. destruct (Req_EM_T (t_scale l) 0) as [Z|NZ].
  - rewrite Z. assert (xdiv (Fin (rmean l)) (Fin 0) = if Reqb (rmean l) 0 then NaN else if Rltb 0 (rmean l) then PInf else NInf) as ->.
    { unfold xdiv. now rewrite (proj2 (Reqb_spec 0 0) eq_refl). }
    assert (rss l / (INR (length l) - 1) = 0) as V0.
    { rewrite t_scale_alt in Z by exact L. apply sqrt_eq_0 in Z; [|exact NN].
      apply Rmult_integral in Z as [Z|Z]; [exact Z|]. pose proof (Rinv_0_lt_compat (INR (length l)) ltac:(lra)). lra. }
    destruct (Req_EM_T (rmean l) 0) as [M|M].
    + rewrite M. assert (Reqb 0 0 = true) as -> by now apply Reqb_spec.
      change (nabs NaN) with NaN. cbn [t_sf FX fn_xr]. cbn [nmul xr_num xmul nisnan xisnan].
      rewrite V0. cbn [nleb xr_num n1 nofZ ndiv neqb xeqb n0]. rewrite xdiv_fin by (apply not_0_IZR; lia).
      cbn [xleb].
      assert (Rleb 0 (1 / IZR (10 ^ 100)) = true) as ->.
      { apply Rleb_spec. apply Rmult_le_pos; [lra|]. apply Rlt_le, Rinv_0_lt_compat, IZR_lt. reflexivity. }
      assert (Reqb 0 0 = true) as -> by now apply Reqb_spec. cbn [py_assert bind xleb].
      assert (Rleb 0 1 = true) as -> by (apply Rleb_spec; lra). assert (Rleb 1 1 = true) as -> by (apply Rleb_spec; lra).
      reflexivity.
    + assert (Reqb (rmean l) 0 = false) as -> by now apply Reqb_neq.
      assert (nabs (if Rltb 0 (rmean l) then PInf else NInf) = PInf) as ->.
      { destruct (Rltb 0 (rmean l)); reflexivity. }
      cbn [t_sf FX fn_xr]. cbn [nmul nofZ xr_num xmul nisnan xisnan]. cbn [bind nleb n0 n1 xr_num xleb].
      rewrite Rmult_0_l.
      assert (Rleb 0 0 = true) as -> by (apply Rleb_spec; lra). assert (Rleb 0 1 = true) as -> by (apply Rleb_spec; lra).
      reflexivity.
  - rewrite xdiv_fin by exact NZ. rewrite nabs_fin. cbn [t_sf FX fn_xr]. cbn [nmul nofZ xr_num xmul nisnan xisnan].
    cbn [bind nleb n0 n1 xr_num xleb].
    pose proof (t_scale_nonneg l L) as S0.
    assert (Rabs (rmean l / t_scale l) = Rabs (rmean l) / t_scale l) as ->.
    { unfold Rdiv. rewrite Rabs_mult, Rabs_inv, (Rabs_pos_eq (t_scale l)) by exact S0. reflexivity. }
    set (S := sf (dfl l)) in *. set (t := Rabs (rmean l) / t_scale l).
    assert (0 <= t) as T0. { apply Rmult_le_pos; [apply Rabs_pos|]. apply Rlt_le, Rinv_0_lt_compat. lra. }
    assert (0 < S t <= 1 / 2) as [P1 P2].
    { split; [apply (t_pos _ _ D)|]. rewrite <- (t_zero _ _ D). destruct T0 as [T0|<-]; [|lra].
      apply Rlt_le, (t_decr _ _ D). exact T0. }
    rewrite (Rmult_comm (S t) 2).
    assert (Rleb 0 (2 * S t) = true) as -> by (apply Rleb_spec; lra).
    assert (Rleb (2 * S t) 1 = true) as -> by (apply Rleb_spec; lra). reflexivity.
Qed.

Lemma t_pvalue_range S Q m s : t_dist S Q -> 0 <= s -> 0 <= t_pvalue S m s <= 1.
Proof.
  intros D H. unfold t_pvalue. destruct (Req_EM_T s 0) as [_|NZ]; [destruct (Req_EM_T m 0); lra|].
  assert (0 <= Rabs m / s) as T0. { apply Rmult_le_pos; [apply Rabs_pos|]. apply Rlt_le, Rinv_0_lt_compat. lra. }
  pose proof (t_pos _ _ D (Rabs m / s)). pose proof (t_zero _ _ D).
  destruct T0 as [T0|E]; [pose proof (t_decr _ _ D _ _ T0)|rewrite <- E in *]; lra.
Qed.

Theorem t_coherent S Q m s c : t_dist S Q -> 0 <= s -> 0 < c < 1 ->
  (t_pvalue S m s < 1 - c <-> Q ((1 + c) / 2) * s < Rabs m).
Proof.
  intros D H C. unfold t_pvalue. destruct (Req_EM_T s 0) as [->|NZ].
  - rewrite Rmult_0_r. destruct (Req_EM_T m 0) as [->|M].
    + rewrite Rabs_R0. lra.
    + pose proof (Rabs_pos_lt m M). lra.
  - assert (0 < s) as P by lra.
    transitivity (S (Rabs m / s) < S (Q ((1 + c) / 2))).
    { rewrite (t_inv _ _ D) by lra. lra. }
    rewrite (t_le_iff _ _ _ _ D). split; intros K.
    + apply (Rmult_lt_compat_r s) in K; [|exact P]. unfold Rdiv in K. rewrite Rmult_assoc, Rinv_l in K by lra. lra.
    + apply (Rmult_lt_reg_r s); [exact P|]. unfold Rdiv. rewrite Rmult_assoc, Rinv_l by lra. lra.
Qed.

(** ** Bernstein *)
Definition b_dev (l : list R) : R := sqrt (rss l / INR (length l)).
Definition b_EB (l : list R) (range A : R) : R :=
  b_dev l * sqrt (2 * A / INR (length l)) + 3 * A * range / INR (length l).

Lemma nstd0_fin l : l <> [] -> nstd 0 (map Fin l) = Fin (b_dev l).
Proof.
  intros NE. change 0%Z with (Z.of_nat 0). rewrite nstd_fin by (destruct l; [congruence|cbn; lia]).
  change (INR 0) with 0. rewrite Rminus_0_r. reflexivity.
Qed.

Lemma within_spec (lo up : xr) l : within lo up (map Fin l) = true <->
  Forall (fun a => nleb lo (Fin a) = true /\ nleb (Fin a) up = true) l.
Proof.
  unfold within. rewrite andb_true_iff, !forallb_forall, Forall_forall. split.
  - intros [A B] a Ha. split; [apply A|apply B]; now apply in_map.
  - intros H. split; intros a Ha; apply in_map_iff in Ha as (r & <- & Hr); now apply H.
Qed.

Definition conf_log (c : R) : R := ln (3 / (1 - c)).
Lemma conf_log_pos c : 0 < c < 1 -> 0 < conf_log c.
Proof.
  intros C. unfold conf_log. rewrite <- ln_1. apply ln_increasing; [lra|].
  apply (Rmult_lt_reg_r (1 - c)); [lra|]. unfold Rdiv. rewrite Rmult_assoc, Rinv_l; lra.
Qed.
Lemma conf_log_mono c c' : 0 < c -> c < c' -> c' < 1 -> conf_log c < conf_log c'.
Proof.
  intros C L C'. unfold conf_log. apply ln_increasing.
  - apply Rdiv_lt_0_compat; lra.
  - apply Rmult_lt_compat_l; [lra|]. apply Rinv_lt_contravar; [apply Rmult_lt_0_compat; lra|lra].
Qed.

Lemma b_EB_nonneg l r A : l <> [] -> 0 <= r -> 0 <= A -> 0 <= b_EB l r A.
Proof.
  intros NE Hr HA. pose proof (len_pos l NE). unfold b_EB. apply Rplus_le_le_0_compat.
  - apply Rmult_le_pos; apply sqrt_pos.
  - apply Rmult_le_pos; [apply Rmult_le_pos; lra|]. apply Rlt_le, Rinv_0_lt_compat. lra.
Qed.

Theorem bernstein_EB_form l lo up c : (2 <= length l)%nat -> lo <= up -> 0 < c < 1 ->
  Forall (fun a => lo <= a <= up) l ->
  bernstein_EB (map Fin l) (Fin lo) (Fin up) (Fin c) = Ok (Fin (b_EB l (up - lo) (conf_log c))).
Proof.
  intros L LU C W. assert (l <> []) as NE by (destruct l; [cbn in L; lia|discriminate]).
  unfold bernstein_EB. rewrite no_nan. cbn [negb py_assert bind nsub xr_num xsub xadd xopp nleb n0 xleb].
  assert (Rleb 0 (up + - lo) = true) as -> by (apply Rleb_spec; lra).
  assert (within (Fin lo) (Fin up) (map Fin l) = true) as ->.
  { apply within_spec. eapply Forall_impl; [|exact W]. intros a [A B]. cbn [nleb xr_num xleb]. now rewrite !Rleb_spec. }
  pose proof (conf_ok c C) as CC. cbn [n0 xr_num] in CC. rewrite CC, (not_degenerate l L). cbn [py_assert bind].
  rewrite (nstd0_fin l NE), lenT_fin. cbn [nofZ n1 ndiv xr_num xsub xadd xopp].
  rewrite (xdiv_fin 3) by lra. change (@nlog xr FX) with xlog. unfold xlog.
  assert (Rltb 0 (3 / (1 + - c)) = true) as ->. { apply Rltb_spec. apply Rdiv_lt_0_compat; lra. }
  replace (ln (3 / (1 + - c))) with (conf_log c) by reflexivity. pose proof (conf_log_pos c C) as AP.
  pose proof (len_pos l NE) as LP.
  cbn [nmul xr_num xmul]. rewrite !xdiv_fin by lra. change (@nsqrt xr FX) with xsqrt.
  rewrite xsqrt_fin. 2:{ apply Rmult_le_pos; [lra|]. apply Rlt_le, Rinv_0_lt_compat, LP. }
  cbn [nadd xr_num xmul xadd xleb].
  change (b_dev l * sqrt (2 * conf_log c / INR (length l)) + 3 * conf_log c * (up + - lo) / INR (length l))
    with (b_EB l (up - lo) (conf_log c)).
  assert (Rleb 0 (b_EB l (up - lo) (conf_log c)) = true) as ->. { apply Rleb_spec, b_EB_nonneg; auto; lra. }
  reflexivity.
Qed.

(** The test statistic: the non-negative root of a z^2 + b z = |mean|. *)
Definition b_coef (l : list R) (range z : R) : R :=
  3 * range / INR (length l) * (z * z) + b_dev l * sqrt (2 / INR (length l)) * z.

Lemma b_EB_coef l r A : l <> [] -> 0 <= A -> b_EB l r A = b_coef l r (sqrt A).
Proof.
  intros NE HA. pose proof (len_pos l NE). unfold b_EB, b_coef. rewrite sqrt_sqrt by exact HA.
  replace (2 * A / INR (length l)) with (2 / INR (length l) * A) by (field; lra).
  rewrite sqrt_mult_alt by (apply Rlt_le, Rdiv_lt_0_compat; lra). field. lra.
Qed.

Lemma b_coef_mono l r y z : l <> [] -> 0 < r -> 0 <= y -> y < z -> b_coef l r y < b_coef l r z.
Proof.
  intros NE Hr Hy Hz. pose proof (len_pos l NE). unfold b_coef.
  assert (0 < 3 * r / INR (length l)) as A by (apply Rdiv_lt_0_compat; lra).
  assert (0 <= b_dev l * sqrt (2 / INR (length l))) as B by (apply Rmult_le_pos; apply sqrt_pos).
  apply Rplus_lt_le_compat.
  - apply Rmult_lt_compat_l; [exact A|]. apply Rmult_le_0_lt_compat; lra.
  - apply Rmult_le_compat_l; lra.
Qed.
Lemma b_coef_lt_iff l r y z : l <> [] -> 0 < r -> 0 <= y -> 0 <= z -> (b_coef l r y < b_coef l r z <-> y < z).
Proof.
  intros NE Hr Hy Hz. split; [|now apply b_coef_mono].
  intros H. destruct (Rlt_or_le y z) as [?|[K|<-]]; [assumption| |lra].
  pose proof (b_coef_mono l r z y NE Hr Hz K). lra.
Qed.

Lemma quad_root a b m : 0 < a -> 0 <= b -> 0 < m ->
  let disc := b / a * (b / a) - 4 * (- m / a) in
  let z := (- (b / a) + sqrt disc) / 2 in
  let z' := (- (b / a) - sqrt disc) / 2 in
  0 < disc /\ 0 < z /\ z' < 0 /\ a * (z * z) + b * z = m.
Proof.
  intros A B M disc z z'. assert (0 < m / a) as Q by (apply Rdiv_lt_0_compat; lra).
  assert (0 <= b / a) as P. { apply Rmult_le_pos; [lra|]. apply Rlt_le, Rinv_0_lt_compat, A. }
  assert (disc = b / a * (b / a) + 4 * (m / a)) as ED by (unfold disc; field; lra).
  assert (0 < disc) as D. { rewrite ED. pose proof (Rmult_le_pos _ _ P P). lra. }
  assert (b / a < sqrt disc) as S.
  { rewrite <- (sqrt_square (b / a)) at 1 by exact P. apply sqrt_lt_1_alt. split; [now apply Rmult_le_pos|lra]. }
  split; [exact D|]. split; [unfold z; lra|]. split; [unfold z'; lra|].
  assert (z * z + b / a * z = m / a) as E.
  { pose proof (sqrt_sqrt disc ltac:(lra)) as SS. unfold z. set (p := b / a) in *. set (w := sqrt disc) in *.
    replace ((- p + w) / 2 * ((- p + w) / 2) + p * ((- p + w) / 2)) with ((w * w - p * p) / 4) by field.
    rewrite SS, ED. lra. }
  replace (a * (z * z) + b * z) with (a * (z * z + b / a * z)) by (field; lra). rewrite E. field. lra.
Qed.

Theorem bernstein_test_form l lo up : (2 <= length l)%nat -> lo < up -> Forall (fun a => lo <= a <= up) l ->
  exists z, 0 <= z /\ b_coef l (up - lo) z = Rabs (rmean l) /\
  bernstein_test (map Fin l) (Fin lo) (Fin up) = Ok (Fin (Rmin 1 (3 * exp (- (z * z))))).
Proof.
  intros L LU W. assert (l <> []) as NE by (destruct l; [cbn in L; lia|discriminate]). pose proof (len_pos l NE) as LP.
  unfold bernstein_test. rewrite no_nan. cbn [negb py_assert bind nsub xr_num xsub xadd xopp nleb n0].
  change (xleb (Fin 0) (Fin (up + - lo))) with (Rleb 0 (up + - lo)).
  assert (Rleb 0 (up + - lo) = true) as -> by (apply Rleb_spec; lra).
  assert (within (Fin lo) (Fin up) (map Fin l) = true) as ->.
  { apply within_spec. eapply Forall_impl; [|exact W]. intros a [A B]. cbn [nleb xr_num xleb]. now rewrite !Rleb_spec. }
  rewrite (not_degenerate l L). cbn [py_assert bind neqb xr_num xeqb ninf].
  assert (Reqb (up + - lo) 0 = false) as -> by (apply Reqb_neq; lra). cbn [orb].
  rewrite (nmean_r l NE), (nstd0_fin l NE), lenT_fin, nabs_fin. cbn [nofZ nmul ndiv nopp nsub n0 xr_num xmul xsub xadd xopp].
  change (nopp (Fin (Rabs (rmean l)))) with (Fin (0 + - Rabs (rmean l))).
  rewrite !(xdiv_fin _ (INR (length l))) by lra. change (@nsqrt xr FX) with xsqrt.
  rewrite xsqrt_fin by (apply Rlt_le, Rdiv_lt_0_compat; lra). cbn [xmul].
  set (a := 3 * (up + - lo) / INR (length l)). set (b := b_dev l * sqrt (2 / INR (length l))).
  assert (0 < a) as PA by (apply Rdiv_lt_0_compat; lra).
  assert (0 <= b) as PB by (apply Rmult_le_pos; apply sqrt_pos).
  cbn [nisfin xr_num xisfin andb py_assert bind].
  assert (forall z, b_coef l (up - lo) z = a * (z * z) + b * z) as EC by (intros; reflexivity).
  assert (exists z z', 0 <= z /\ z' <= 0 /\ a * (z * z) + b * z = Rabs (rmean l) /\
            (np_roots (Fin a) (Fin b) (Fin (0 + - Rabs (rmean l))) = Some [Fin z; Fin z'] \/
             np_roots (Fin a) (Fin b) (Fin (0 + - Rabs (rmean l))) = Some [Fin z'; Fin z])) as (z & z' & Z & Z' & EZ & RT).
  { unfold np_roots. cbn [neqb n0 xr_num xeqb]. rewrite (Reqb_neq a 0) by lra. cbn [andb].
    destruct (Req_EM_T (rmean l) 0) as [M0|M0].
    - rewrite M0, Rabs_R0. rewrite (proj2 (Reqb_spec (0 + - 0) 0)) by ring. rewrite andb_true_r.
      destruct (Reqb b 0) eqn:B0.
      + exists 0, 0. repeat split; auto; lra.
      + exists 0, (- b / a). split; [lra|]. split.
        { pose proof (Rinv_0_lt_compat a PA). unfold Rdiv. nra. }
        split; [ring|]. right. cbn [ndiv nopp nsub n0 xr_num xsub xadd xopp].
        change (nopp (Fin b)) with (Fin (0 + - b)). rewrite xdiv_fin by lra. repeat f_equal. ring.
    - pose proof (Rabs_pos_lt _ M0) as MP. rewrite (Reqb_neq (0 + - Rabs (rmean l)) 0) by lra.
      rewrite andb_false_r. cbn [ndiv xr_num]. rewrite !xdiv_fin by lra. cbn [eig2 FX fn_xr].
      destruct (quad_root a b (Rabs (rmean l)) PA PB MP) as (D & Q1 & Q2 & Q3).
      replace (0 + - Rabs (rmean l)) with (- Rabs (rmean l)) by ring.
      assert (Rltb (b / a * (b / a) - 4 * (- Rabs (rmean l) / a)) 0 = false) as -> by (apply Rltb_false; lra).
      eexists. eexists. split; [apply Rlt_le, Q1|]. split; [apply Rlt_le, Q2|]. split; [exact Q3|]. left. reflexivity. }
  exists z. split; [exact Z|]. split; [rewrite EC; exact EZ|].
  assert (forall (rts : list xr), rts = [Fin z; Fin z'] \/ rts = [Fin z'; Fin z] ->
    bind (py_assert (length rts =? 2)%nat) (fun _ => bind (py_assert (existsb (fun r => nleb r (Fin 0)) rts)) (fun _ =>
    bind (py_assert (existsb (fun r => nleb (Fin 0) r) rts)) (fun _ => Ok (match rts with r :: l => fold_left nmax l r | [] => Fin 0 end)))) = Ok (Fin z)) as FIN.
  { intros rts [->| ->]; cbn [length Nat.eqb py_assert bind existsb nleb xr_num xleb fold_left nmax nisnan xisnan orb];
      rewrite (proj2 (Rleb_spec z' 0) Z'), (proj2 (Rleb_spec 0 z) Z); rewrite ?orb_true_r; cbn [orb py_assert bind];
      f_equal; unfold nmax; cbn [nleb nisnan xr_num xleb xisnan]; rewrite orb_false_r.
    - rewrite (proj2 (Rleb_spec z' z)) by lra. reflexivity.
    - destruct (Rleb z z') eqn:Q; [|reflexivity]. apply Rleb_spec in Q. f_equal. lra. }
  assert (forall rts, bind (py_assert (length rts =? 2)%nat) (fun _ => bind (py_assert (existsb (fun r => nleb r (Fin 0)) rts)) (fun _ =>
    bind (py_assert (existsb (fun r => nleb (Fin 0) r) rts)) (fun _ => Ok (match rts with r :: l => fold_left nmax l r | [] => Fin 0 end)))) = Ok (Fin z) ->
    (length rts =? 2)%nat = true /\ existsb (fun r => nleb r (Fin 0)) rts = true /\ existsb (fun r => nleb (Fin 0) r) rts = true /\
    match rts with r :: l => fold_left nmax l r | [] => Fin 0 end = Fin z) as INV.
  { intros rts. destruct (length rts =? 2)%nat; [|discriminate]. destruct (existsb (fun r => nleb r (Fin 0)) rts); [|discriminate].
    destruct (existsb (fun r => nleb (Fin 0) r) rts); [|discriminate]. cbn [py_assert bind]. intros H. apply Ok_inj in H. auto. }
  assert (exists rts, np_roots (Fin a) (Fin b) (Fin (0 + - Rabs (rmean l))) = Some rts /\ (rts = [Fin z; Fin z'] \/ rts = [Fin z'; Fin z]))
    as (rts & -> & RR) by (destruct RT as [-> | ->]; eauto).
  destruct (INV rts (FIN rts RR)) as (I1 & I2 & I3 & I4). cbn [nleb xr_num] in I2, I3.
  rewrite I1, I2, I3. cbn [py_assert bind]. rewrite I4. cbn [nmul xr_num xmul].
  change (nopp (Fin (z * z))) with (Fin (0 + - (z * z))). cbn [nexp FX fn_xr xexp xmul]. change (@nexp xr FX (Fin (0 + - (z * z)))) with (Fin (exp (0 + - (z * z)))).
  cbn [xmul]. cbn [xopp xexp xmul]. rewrite !Rplus_0_l. change (n1 : xr) with (Fin 1). rewrite nmin_xr.
  pose proof (exp_pos (- (z * z))) as EP. cbn [xleb].
  assert (Rleb 0 (Rmin 1 (3 * exp (- (z * z)))) = true) as ->. { apply Rleb_spec, Rmin_glb; lra. }
  assert (Rleb (Rmin 1 (3 * exp (- (z * z)))) 1 = true) as ->. { apply Rleb_spec, Rmin_l. }
  reflexivity.
Qed.

(** ** Coherence *)
Theorem bernstein_coherent l r z c : l <> [] -> 0 < r -> 0 <= z -> 0 < c < 1 ->
  b_coef l r z = Rabs (rmean l) ->
  (Rmin 1 (3 * exp (- (z * z))) < 1 - c <-> b_EB l r (conf_log c) < Rabs (rmean l)).
Proof.
  intros NE Hr Z C E. pose proof (conf_log_pos c C) as AP. rewrite (b_EB_coef l r _ NE) by lra. rewrite <- E.
  rewrite b_coef_lt_iff; auto using sqrt_pos.
  transitivity (3 * exp (- (z * z)) < 1 - c).
  { unfold Rmin. destruct (Rle_dec 1 (3 * exp (- (z * z)))); lra. }
  transitivity (conf_log c < z * z).
  { unfold conf_log. split; intros H.
    - rewrite <- (ln_exp (z * z)). apply ln_increasing; [apply Rdiv_lt_0_compat; lra|].
      rewrite exp_Ropp in H. pose proof (exp_pos (z * z)) as P.
      apply (Rmult_lt_compat_r (exp (z * z))) in H; [|exact P]. rewrite Rmult_assoc, Rinv_l in H by lra.
      apply (Rmult_lt_reg_r (1 - c)); [lra|]. unfold Rdiv. rewrite Rmult_assoc, Rinv_l by lra. lra.
    - apply exp_increasing in H. rewrite exp_ln in H by (apply Rdiv_lt_0_compat; lra).
      rewrite exp_Ropp. pose proof (exp_pos (z * z)) as P.
      apply (Rmult_lt_reg_r (exp (z * z))); [exact P|]. rewrite Rmult_assoc, Rinv_l by lra.
      apply (Rmult_lt_compat_r (1 - c)) in H; [|lra]. unfold Rdiv in H. rewrite Rmult_assoc, Rinv_l in H by lra. lra. }
  rewrite <- (sqrt_sqrt (conf_log c)) at 1 by lra. split; intros H.
  - destruct (Rlt_or_le (sqrt (conf_log c)) z) as [?|K]; [assumption|].
    pose proof (Rmult_le_compat _ _ _ _ Z Z K K). lra.
  - pose proof (sqrt_pos (conf_log c)). apply Rmult_le_0_lt_compat; lra.
Qed.

(** ** Degenerate data *)
Lemma degenerate_spec (x : list xr) : degenerate x = true <-> (length x <= 1)%nat \/ Exists (fun a => nisfin a = false) x.
Proof.
  unfold degenerate. rewrite orb_true_iff, Z.leb_le, negb_true_iff. split; (intros [H|H]; [left; lia|right]).
  - apply Exists_exists. apply Bool.not_true_iff_false in H. rewrite forallb_forall in H.
    assert (exists a, In a x /\ nisfin a = false) as (a & A & B); [|eauto].
    clear -H. induction x as [|a x IH]; [exfalso; apply H; intros ? []|].
    destruct (nisfin a) eqn:E; [|exists a; split; [left; reflexivity|exact E]].
    destruct IH as (b & B1 & B2). { intros K. apply H. intros c [<-|Hc]; auto. }
    exists b; split; [right; exact B1|exact B2].
  - apply Exists_exists in H as (a & A & B). apply Bool.not_true_iff_false. rewrite forallb_forall. intros K. rewrite K in B; [discriminate|exact A].
Qed.

Lemma t_degenerate x c : existsb nisnan x = false -> degenerate x = true -> 0 < c < 1 ->
  t_test x = Ok (Fin 1) /\ t_EB x (Fin c) = Ok PInf.
Proof.
  intros N D C. unfold t_test, t_EB. rewrite N, D, (conf_ok c C). split; reflexivity.
Qed.
End Fn.

(** ** Affine maps of the data *)
Definition affine (k s : R) (l : list R) : list R := map (fun a => k * a + s) l.

Lemma Rsum_affine k s l : Rsum (affine k s l) = k * Rsum l + INR (length l) * s.
Proof.
  induction l as [|a l IH]; [cbn [affine map length INR]; change (Rsum []) with 0; ring|].
  unfold affine in *. cbn [map]. rewrite !Rsum_cons, IH. cbn [length]. rewrite S_INR. ring.
Qed.
Lemma affine_length k s l : length (affine k s l) = length l.
Proof. apply map_length. Qed.
Lemma rmean_affine k s l : l <> [] -> rmean (affine k s l) = k * rmean l + s.
Proof.
  intros NE. pose proof (len_pos l NE). unfold rmean. rewrite Rsum_affine, affine_length. field. lra.
Qed.
Lemma Rsum_scale k l (f : R -> R) : Rsum (map (fun a => k * f a) l) = k * Rsum (map f l).
Proof. induction l as [|a l IH]; [cbn [map]; change (Rsum []) with 0; ring|]. cbn [map]. rewrite !Rsum_cons, IH. ring. Qed.
Lemma rss_affine k s l : rss (affine k s l) = k * k * rss l.
Proof.
  destruct l as [|a0 l0] eqn:E; [unfold rss, affine; cbn [map]; change (Rsum []) with 0; ring|]. rewrite <- E.
  assert (l <> []) as NE by (subst; discriminate). unfold rss. rewrite rmean_affine by exact NE.
  rewrite <- Rsum_scale. unfold affine. rewrite map_map. f_equal. apply map_ext. intros a. ring.
Qed.
Lemma t_scale_affine k s l : (2 <= length l)%nat -> t_scale (affine k s l) = Rabs k * t_scale l.
Proof.
  intros H. rewrite !t_scale_alt by (rewrite ?affine_length; exact H). rewrite rss_affine, affine_length.
  assert (2 <= INR (length l)) as L2. { apply le_INR in H. exact H. }
  replace (k * k * rss l / (INR (length l) - 1) / INR (length l)) with (k * k * (rss l / (INR (length l) - 1) / INR (length l))) by (field; lra).
  rewrite sqrt_mult_alt by apply Rle_0_sqr. fold (Rsqr k). rewrite sqrt_Rsqr_abs. reflexivity.
Qed.
Lemma b_dev_affine k s l : l <> [] -> b_dev (affine k s l) = Rabs k * b_dev l.
Proof.
  intros NE. pose proof (len_pos l NE). unfold b_dev. rewrite rss_affine, affine_length.
  replace (k * k * rss l / INR (length l)) with (k * k * (rss l / INR (length l))) by (field; lra).
  rewrite sqrt_mult_alt by apply Rle_0_sqr. fold (Rsqr k). rewrite sqrt_Rsqr_abs. reflexivity.
Qed.
Lemma b_coef_affine k s l r z : l <> [] -> b_coef (affine k s l) (Rabs k * r) z = Rabs k * b_coef l r z.
Proof.
  intros NE. pose proof (len_pos l NE). unfold b_coef. rewrite b_dev_affine, affine_length by exact NE. field. lra.
Qed.
