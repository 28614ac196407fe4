(** The mean in doubles, for vectors of up to 2^30 entries in whatever order
    they are added: it exceeds a bound of the entries by a rounding error only,
    and it differs from the exact mean by a rounding error. *)
From Coq Require Import Reals Lra Lia Permutation.
From Flocq Require Import Core BinarySingleNaN Relative Plus_error.
From Verif Require Import PyBase F64 F64Lemmas Num NumOk SumProofs Util UtilProofs BootUtil BootProofs2 PerfCurves PerfProofs7 MLPaper SwapProofs.
Open Scope R_scope.

Notation P2 := (bpow radix2).
Definition u64 : R := P2 (-53).

Lemma u64_pos : 0 < u64.
Proof. apply bpow_gt_0. Qed.
Lemma u64_small : u64 <= / 1024.
Proof. unfold u64. replace (/ 1024) with (P2 (-10)) by (cbn; lra). apply bpow_le. lia. Qed.
Lemma u_ro_64 : u_ro radix2 prec64 = u64.
Proof. unfold u_ro, u64. cbn. lra. Qed.

Lemma rnd_add_err a b : format64 a -> format64 b -> Rabs (rnd64 (a + b) - (a + b)) <= u64 * Rabs (a + b).
Proof.
  intros A B. destruct (FLT_plus_error_N_ex radix2 (SpecFloat.emin prec64 emax64) prec64 (fun x => negb (Z.even x)) a b A B) as (e & He & E).
  change (rnd64 (a + b) = (a + b) * (1 + e)) in E. rewrite E.
  rewrite u_ro_64 in He. replace ((a + b) * (1 + e) - (a + b)) with (e * (a + b)) by ring. rewrite Rabs_mult.
  apply Rmult_le_compat_r; [apply Rabs_pos|]. pose proof u64_pos. eapply Rle_trans; [exact He|].
  apply (Rmult_le_reg_r (1 + u64)); [lra|]. unfold Rdiv. rewrite Rmult_assoc, Rinv_l by lra. nra.
Qed.
Lemma rnd_err x : Rabs (rnd64 x - x) <= u64 * Rabs x + P2 (-1075).
Proof.
  destruct (relative_error_N_FLT'_ex radix2 (SpecFloat.emin prec64 emax64) prec64 eq_refl (fun x => negb (Z.even x)) x) as (e & t & He & Ht & _ & E).
  change (rnd64 x = x * (1 + e) + t) in E. rewrite E.
  rewrite u_ro_64 in He. replace (x * (1 + e) + t - x) with (e * x + t) by ring.
  eapply Rle_trans; [apply Rabs_triang|]. rewrite Rabs_mult. apply Rplus_le_compat.
  - apply Rmult_le_compat_r; [apply Rabs_pos|]. pose proof u64_pos. eapply Rle_trans; [exact He|].
    apply (Rmult_le_reg_r (1 + u64)); [lra|]. unfold Rdiv. rewrite Rmult_assoc, Rinv_l by lra. nra.
  - eapply Rle_trans; [exact Ht|]. change (SpecFloat.emin prec64 emax64) with (-1074)%Z.
    replace (-1075)%Z with (-1 + -1074)%Z by lia. rewrite bpow_plus. cbn [bpow]. change (Z.pow_pos radix2 1) with 2%Z. lra.
Qed.

Lemma v64_Fin x r : v64 x = Fin r -> fisfin x = true /\ B2R x = r.
Proof. destruct x as [s|[]| |s m e B]; cbn; intros H; try discriminate; injection H as <-; auto. Qed.
Lemma v64_Fin_format x r : v64 x = Fin r -> format64 r.
Proof. intros H. apply v64_Fin in H as [_ <-]. apply B2R_format. Qed.
Lemma xround_ok r : Rabs r <= P2 1000 -> xround r = Fin (rnd64 r).
Proof. intros H. unfold xround. now rewrite Rlt_bool_true by now apply no_ovf. Qed.
(* an upper bound excludes overflow to plus infinity *)
Lemma xround_up r b : rnd64 r <= b -> b <= P2 1000 -> xround r = NInf \/ xround r = Fin (rnd64 r).
Proof.
  intros H B. unfold xround. destruct (Rlt_bool_spec (Rabs (rnd64 r)) (bpow radix2 emax64)) as [L|L]; [now right|left].
  assert (P2 1000 < bpow radix2 emax64) by (apply bpow_lt; reflexivity).
  destruct (Rltb r 0) eqn:E; [reflexivity|]. apply Rltb_false in E. rewrite Rabs_pos_eq in L; [lra|]. apply rnd64_ge; [apply format64_0|lra].
Qed.

Lemma pow_up n : INR n * u64 <= / 2 -> (1 + u64) ^ n <= 1 + 2 * (INR n * u64).
Proof.
  induction n as [|n IH]; intros H; [cbn; lra|]. rewrite S_INR in *. pose proof u64_pos. cbn [pow].
  assert (INR n * u64 <= / 2) as H' by nra. specialize (IH H'). pose proof (pos_INR n). nra.
Qed.
Lemma pow_down n : 1 - INR n * u64 <= (1 - u64) ^ n.
Proof.
  induction n as [|n IH]; [cbn; lra|]. rewrite S_INR. cbn [pow]. pose proof u64_pos. pose proof u64_small. pose proof (pos_INR n).
  apply Rle_trans with ((1 - u64) * (1 - INR n * u64)); [nra|]. apply Rmult_le_compat_l; lra.
Qed.

Definition MAXN : R := P2 30.
Lemma maxn_u n : INR n <= MAXN -> INR n * u64 <= P2 (-23).
Proof.
  intros H. replace (P2 (-23)) with (MAXN * u64) by (unfold MAXN, u64; rewrite <- bpow_plus; reflexivity).
  apply Rmult_le_compat_r; [apply Rlt_le, u64_pos|exact H].
Qed.
Lemma p23 : P2 (-23) <= / 8.
Proof. replace (/ 8) with (P2 (-3)) by (cbn; lra). apply bpow_le. lia. Qed.

Lemma sums_nil (v : f64) : sums_to [] v -> v = f0.
Proof.
  intros H. remember [] as l eqn:E. revert E. induction H as [|a|l m v w _ IHv _ IHw|l m v P _ IH]; intros E; try discriminate.
  - reflexivity.
  - apply app_eq_nil in E as [-> ->]. rewrite IHv, IHw by reflexivity. reflexivity.
  - subst. apply IH. apply Permutation_sym in P. now apply Permutation_nil in P.
Qed.
Lemma v64_add_0_l x r : v64 x = Fin r -> v64 (fadd f0 x) = Fin r.
Proof.
  intros H. rewrite v64_add, H. change (v64 f0) with (Fin 0). cbn [xr2]. rewrite Rplus_0_l.
  pose proof (v64_Fin_format _ _ H) as F. apply v64_Fin in H as [H <-]. unfold xround. rewrite rnd64_id by exact F.
  rewrite Rlt_bool_true; [reflexivity|]. apply abs_B2R_lt_emax.
Qed.
Lemma v64_add_0_r x r : v64 x = Fin r -> v64 (fadd x f0) = Fin r.
Proof.
  intros H. rewrite v64_add, H. change (v64 f0) with (Fin 0). cbn [xr2]. rewrite Rplus_0_r.
  pose proof (v64_Fin_format _ _ H) as F. apply v64_Fin in H as [H <-]. unfold xround. rewrite rnd64_id by exact F.
  rewrite Rlt_bool_true; [reflexivity|]. apply abs_B2R_lt_emax.
Qed.

(** ** One-sided bounds *)
Section Upper.
  Context (c : R) (Hc : Rabs c <= P2 900).
  Definition qc : R := if Rle_dec 0 c then 1 + u64 else 1 - u64.
  Lemma qc_pos : 0 <= qc.
  Proof. unfold qc. pose proof u64_pos. pose proof u64_small. destruct (Rle_dec 0 c); lra. Qed.
  Lemma qc_sign : 0 <= c * (qc - 1).
  Proof. unfold qc. pose proof u64_pos. destruct (Rle_dec 0 c); [apply Rmult_le_pos; lra|]. replace (c * (1 - u64 - 1)) with (- c * u64) by ring. apply Rmult_le_pos; lra. Qed.
  Lemma cq_S n : c * qc ^ n <= c * qc ^ Datatypes.S n.
  Proof.
    cbn [pow]. pose proof (Rmult_le_pos _ _ qc_sign (pow_le _ n qc_pos)). lra.
  Qed.
  Lemma cq_mono n m : (n <= m)%nat -> c * qc ^ n <= c * qc ^ m.
  Proof. induction 1 as [|m H IH]; [lra|]. eapply Rle_trans; [exact IH|apply cq_S]. Qed.
  Lemma cq_up n : INR n <= MAXN -> c * qc ^ n <= c + 2 * (INR n * u64) * Rabs c.
  Proof.
    intros H. pose proof (maxn_u n H) as M. pose proof p23 as P. pose proof (pow_up n ltac:(lra)) as A. pose proof (pow_down n) as B.
    pose proof u64_pos. pose proof (pos_INR n). assert (0 <= INR n * u64) by (apply Rmult_le_pos; lra).
    unfold qc. destruct (Rle_dec 0 c) as [L|L].
    - rewrite Rabs_pos_eq by lra. nra.
    - rewrite Rabs_left by lra. nra.
  Qed.
  Lemma rnd_step a b Z k n : format64 a -> format64 b -> 0 <= k -> Z = k * (c * qc ^ n) -> a + b <= Z -> rnd64 (a + b) <= k * (c * qc ^ Datatypes.S n).
  Proof.
    intros A B K E L. pose proof (rnd_add_err a b A B) as D. apply Rabs_le_inv in D. pose proof u64_pos. pose proof u64_small.
    pose proof (pow_le _ n qc_pos) as Q. assert (k * (c * qc ^ Datatypes.S n) = Z * qc) as -> by (subst Z; cbn [pow]; ring).
    unfold qc. destruct (Rle_dec 0 c) as [C|C].
    - assert (0 <= Z) by (subst Z; apply Rmult_le_pos; [|apply Rmult_le_pos]; lra).
      destruct (Rle_dec 0 (a + b)); [rewrite Rabs_pos_eq in D by lra; nra|]. rewrite Rabs_left in D by lra. nra.
    - assert (Z <= 0). { subst Z. assert (0 <= k * (- c * qc ^ n)); [|lra]. apply Rmult_le_pos; [|apply Rmult_le_pos]; lra. }
      rewrite Rabs_left1 in D by lra. nra.
  Qed.

  Definition below (n : nat) (x : f64) : Prop := v64 x = NInf \/ exists r, v64 x = Fin r /\ r <= INR n * (c * qc ^ n).

  Lemma small_sum n : INR n <= MAXN -> INR n * (c * qc ^ n) <= P2 1000.
  Proof.
    intros H. pose proof (cq_up n H) as U. pose proof (maxn_u n H). pose proof p23. pose proof (pos_INR n). pose proof u64_pos.
    assert (c * qc ^ n <= 2 * P2 900) as V.
    { pose proof (Rle_abs c). assert (0 <= INR n * u64) by (apply Rmult_le_pos; lra). pose proof (Rabs_pos c). nra. }
    apply Rle_trans with (INR n * (2 * P2 900)); [now apply Rmult_le_compat_l|].
    apply Rle_trans with (MAXN * (2 * P2 900)).
    { apply Rmult_le_compat_r; [|exact H]. pose proof (bpow_gt_0 radix2 900). lra. }
    unfold MAXN. replace 2 with (P2 1) by reflexivity. rewrite <- !bpow_plus. apply bpow_le. lia.
  Qed.

  Lemma add_below i j a b : (1 <= i)%nat -> (1 <= j)%nat -> INR (i + j) <= MAXN -> below i a -> below j b -> below (i + j) (fadd a b).
  Proof.
    intros I J N A B. unfold below. rewrite v64_add. destruct A as [->|(r & Ea & A)], B as [->|(s & Eb & B)]; try (left; reflexivity).
    { rewrite Eb. left. reflexivity. }
    { rewrite Ea. left. reflexivity. }
    pose proof (v64_Fin_format _ _ Ea) as Fr. pose proof (v64_Fin_format _ _ Eb) as Fs. rewrite Ea, Eb. cbn [xr2].
    set (m := Nat.max i j). pose proof (pos_INR i) as Pi. pose proof (pos_INR j) as Pj.
    assert (rnd64 (r + s) <= INR (i + j) * (c * qc ^ (i + j))) as L.
    { eapply Rle_trans; [apply (rnd_step r s (INR (i + j) * (c * qc ^ m)) (INR (i + j)) m); auto using pos_INR|].
      - rewrite plus_INR. pose proof (cq_mono i m ltac:(lia)). pose proof (cq_mono j m ltac:(lia)). nra.
      - apply Rmult_le_compat_l; [apply pos_INR|]. apply cq_mono. lia. }
    destruct (xround_up (r + s) _ L) as [->| ->]; [now apply small_sum|now left|right]. exists (rnd64 (r + s)). auto.
  Qed.

  Definition below1 (x : f64) : Prop := v64 x = NInf \/ exists r, v64 x = Fin r /\ r <= c.

  Lemma sums_below l v : sums_to l v -> Forall below1 l -> (1 <= length l)%nat -> INR (length l) <= MAXN -> below (length l) v.
  Proof.
    induction 1 as [|a|l m v w Hv IHv Hw IHw|l m v P _ IH]; intros F L N.
    - cbn in L. lia.
    - inversion F as [|? ? H _]; subst. destruct H as [H|(r & H & R)]; [now left|right]. exists r. split; [exact H|].
      pose proof (cq_mono 0 1 ltac:(lia)). cbn [length INR] in *. cbn [pow] in *. lra.
    - apply Forall_app in F as [F1 F2]. rewrite app_length in *. pose proof (plus_INR (length l) (length m)) as PI.
      pose proof (pos_INR (length l)). pose proof (pos_INR (length m)).
      destruct l as [|a l]; [|destruct m as [|b m]].
      + apply sums_nil in Hv. subst v. cbn [length Nat.add] in *. assert (below (length m) w) as B by (apply IHw; auto).
        destruct B as [B|(r & B & R)].
        * left. change (nadd f0 w) with (fadd f0 w). rewrite v64_add, B. reflexivity.
        * right. exists r. split; [now apply v64_add_0_l|exact R].
      + apply sums_nil in Hw. subst w. rewrite Nat.add_0_r in *. assert (below (length (a :: l)) v) as B by (apply IHv; auto).
        destruct B as [B|(r & B & R)].
        * left. change (nadd v f0) with (fadd v f0). rewrite v64_add, B. reflexivity.
        * right. exists r. split; [now apply v64_add_0_r|exact R].
      + apply add_below; [cbn; lia|cbn; lia|exact N|apply IHv; auto; [cbn; lia|lra]|apply IHw; auto; [cbn; lia|lra]].
    - rewrite <- (Permutation_length P) in *. apply IH; auto. now apply (Permutation_Forall (Permutation_sym P)).
  Qed.
End Upper.

Lemma div_n (v : f64) n r : (1 <= n)%nat -> INR n <= MAXN -> v64 v = Fin r -> v64 (fdiv v (f_of_Z (Z.of_nat n))) = xround (r / INR n).
Proof.
  intros N M H. apply v64_Fin in H as [F <-].
  assert (Z.of_nat n <= 2 ^ 53)%Z as B.
  { apply le_IZR. rewrite <- INR_IZR_INZ. eapply Rle_trans; [exact M|]. unfold MAXN. change (IZR (2 ^ 53)) with (P2 53). apply bpow_le. lia. }
  destruct (f_of_Z_correct (Z.of_nat n)) as [V _]; [lia|]. rewrite <- INR_IZR_INZ in V.
  assert (INR n <> 0) as N0 by (apply not_0_INR; lia). rewrite v64_div_fin; [now rewrite V|exact F|rewrite V; exact N0].
Qed.
Lemma div_inf n s : (1 <= n)%nat -> INR n <= MAXN -> fdiv (B754_infinity s) (f_of_Z (Z.of_nat n)) = B754_infinity s.
Proof.
  intros N M.
  assert (Z.of_nat n <= 2 ^ 53)%Z as B.
  { apply le_IZR. rewrite <- INR_IZR_INZ. eapply Rle_trans; [exact M|]. unfold MAXN. change (IZR (2 ^ 53)) with (P2 53). apply bpow_le. lia. }
  destruct (f_of_Z_correct (Z.of_nat n)) as [V F]; [lia|]. rewrite <- INR_IZR_INZ in V.
  assert (0 < INR n) as N0 by (apply lt_0_INR; lia).
  destruct (f_of_Z (Z.of_nat n)) as [t|t| |t m e Bd]; try discriminate; [cbn in V; lra|].
  destruct t; [|destruct s; reflexivity]. exfalso. assert (B2R (B754_finite true m e Bd : f64) <= 0) by (apply F2R_le_0; cbn; lia). lra.
Qed.

Definition slack (c : R) : R := P2 (-21) * Rabs c + P2 (-1075).

Theorem mean_upper (x : list f64) c : Rabs c <= P2 900 -> (1 <= length x)%nat -> INR (length x) <= MAXN -> Forall (below1 c) x ->
  v64 (nmean x) = NInf \/ exists r, v64 (nmean x) = Fin r /\ r <= c + slack c.
Proof.
  intros C N M F. pose proof (sums_below c C x _ (psum_sums x) F N M) as B. unfold nmean. cbn [ndiv nofZ f64_num].
  destruct B as [B|(r & B & R)].
  - left. assert (psum x = B754_infinity true) as -> by (destruct (psum x) as [?|[]| |?]; try discriminate; reflexivity).
    now rewrite div_inf.
  - rewrite (div_n _ _ r N M B). set (n := length x) in *.
    assert (0 < INR n) as N0 by (apply lt_0_INR; lia). pose proof (cq_up c n M) as U. pose proof (maxn_u n M) as Mu.
    assert (r / INR n <= c * qc c ^ n) as D.
    { apply (Rmult_le_reg_r (INR n)); [exact N0|]. unfold Rdiv. rewrite Rmult_assoc, Rinv_l by lra. lra. }
    set (z := c + 2 * (INR n * u64) * Rabs c) in *.
    assert (0 <= INR n * u64) as Pu by (apply Rmult_le_pos; [lra|apply Rlt_le, u64_pos]). pose proof (Rabs_pos c) as Pc. pose proof p23 as P.
    assert (Rabs z <= 2 * Rabs c) as Az.
    { unfold z. eapply Rle_trans; [apply Rabs_triang|]. rewrite Rabs_mult, (Rabs_pos_eq (2 * _)), Rabs_Rabsolu by lra. nra. }
    assert (rnd64 (r / INR n) <= c + slack c) as L.
    { eapply Rle_trans; [apply rnd64_mono; eapply Rle_trans; [exact D|exact U]|]. pose proof (rnd_err z) as E. apply Rabs_le_inv in E.
      unfold slack. assert (2 * (INR n * u64) * Rabs c <= 2 * P2 (-23) * Rabs c) by (apply Rmult_le_compat_r; lra).
      assert (u64 * Rabs z <= 2 * u64 * Rabs c). { pose proof u64_pos. nra. }
      assert (2 * P2 (-23) + 2 * u64 <= P2 (-21)) as K.
      { replace (P2 (-21)) with (4 * P2 (-23)) by (change 4 with (P2 2); rewrite <- bpow_plus; reflexivity).
        assert (u64 <= P2 (-23)) by (apply bpow_le; lia). lra. }
      pose proof (Rmult_le_compat_r _ _ _ Pc K). assert (z = c + 2 * (INR n * u64) * Rabs c) as Ez by reflexivity. clearbody z. lra. }
    destruct (xround_up _ _ L) as [->| ->]; [|now left|right; exists (rnd64 (r / INR n)); auto].
    unfold slack. pose proof (Rle_abs c). assert (P2 (-21) <= 1) by (change 1 with (P2 0); apply bpow_le; lia).
    assert (P2 (-1075) <= P2 900) by (apply bpow_le; lia). pose proof (bpow_gt_0 radix2 900).
    assert (P2 (-21) * Rabs c <= 1 * P2 900) by (apply Rmult_le_compat; [apply bpow_ge_0|lra|lra|lra]).
    assert (4 * P2 900 <= P2 1000); [|lra]. change 4 with (P2 2). rewrite <- bpow_plus. apply bpow_le. lia.
Qed.

Definition above1 (c : R) (x : f64) : Prop := v64 x = PInf \/ exists r, v64 x = Fin r /\ c <= r.

Theorem mean_lower (x : list f64) c : Rabs c <= P2 900 -> (1 <= length x)%nat -> INR (length x) <= MAXN -> Forall (above1 c) x ->
  v64 (nmean x) = PInf \/ exists r, v64 (nmean x) = Fin r /\ c - slack c <= r.
Proof.
  intros C N M F.
  assert (frel (nmean (map fopp x)) (nmean x)) as S.
  { apply (swap_mean (NT := f64_num) (rel := frel)). clear. induction x as [|a x IH]; constructor; auto. unfold frel. rewrite v64_opp. symmetry. apply xopp_opp. }
  destruct (mean_upper (map fopp x) (- c)) as [U|(r & U & R)].
  - now rewrite Rabs_Ropp.
  - now rewrite map_length.
  - now rewrite map_length.
  - apply Forall_map. eapply Forall_impl; [|exact F]. intros a [H|(r & H & R)]; unfold below1; rewrite v64_opp, H; [now left|right].
    exists (- r). split; [reflexivity|lra].
  - left. unfold frel in S. now rewrite S, U.
  - right. exists (- r). unfold frel in S. rewrite S, U. split; [reflexivity|]. unfold slack in *. rewrite Rabs_Ropp in R. lra.
Qed.

(** ** What lies within [slack] of a bound is close in the sense of numpy *)
Lemma isclose_slack a b : fisfin a = true -> fisfin b = true -> Rabs (B2R b) <= P2 900 -> Rabs (B2R a - B2R b) <= slack (B2R b) -> isclose a b = true.
Proof.
  intros Fa Fb Bb D. unfold isclose. cbn [nisfin f64_num]. rewrite Fa, Fb. cbn [andb]. rewrite !nabs_fabs. cbn [nsub nadd ndiv nmul nofZ n1 nleb f64_num].
  set (B := Rabs (B2R b)) in *. assert (0 <= B) as PB by apply Rabs_pos. pose proof u64_pos as Up. pose proof u64_small as Us.
  (* the difference *)
  assert (slack (B2R b) <= P2 901) as S9.
  { unfold slack. fold B. assert (P2 (-21) <= 1) by (change 1 with (P2 0); apply bpow_le; lia). assert (P2 (-1075) <= P2 900) by (apply bpow_le; lia).
    replace (P2 901) with (2 * P2 900) by (change 2 with (P2 1); rewrite <- bpow_plus; reflexivity). pose proof (bpow_ge_0 radix2 (-21)). nra. }
  assert (v64 (fsub a b) = Fin (rnd64 (B2R a - B2R b))) as Vd.
  { rewrite v64_sub, (v64_fin a Fa), (v64_fin b Fb). cbn [xr2]. apply xround_ok. eapply Rle_trans; [exact D|]. eapply Rle_trans; [exact S9|]. apply bpow_le. lia. }
  assert (Rabs (rnd64 (B2R a - B2R b)) <= 2 * slack (B2R b)) as Ld.
  { pose proof (rnd_add_err (B2R a) (- B2R b) (B2R_format a) (generic_format_opp _ _ _ (B2R_format b))) as E.
    replace (B2R a + - B2R b) with (B2R a - B2R b) in E by ring.
    replace (rnd64 (B2R a - B2R b)) with ((rnd64 (B2R a - B2R b) - (B2R a - B2R b)) + (B2R a - B2R b)) by ring.
    eapply Rle_trans; [apply Rabs_triang|]. pose proof (Rabs_pos (B2R a - B2R b)). nra. }
  (* the tolerances *)
  assert (forall k j, (1 <= k <= 2 ^ 53)%Z -> (-100 <= j <= 0)%Z -> P2 j <= 1 / IZR k -> exists r, v64 (fdiv (f_of_Z 1) (f_of_Z k)) = Fin r /\ P2 j <= r <= 1) as T.
  { intros k j K J L. destruct (f_of_Z_correct 1) as [V1 F1]; [lia|]. destruct (f_of_Z_correct k) as [Vk Fk]; [lia|].
    assert (1 <= IZR k) as K1 by (apply IZR_le; lia). assert (1 / IZR k <= 1) as K2.
    { apply (Rmult_le_reg_r (IZR k)); [lra|]. unfold Rdiv. rewrite Rmult_assoc, Rinv_l by lra. lra. }
    pose proof (bpow_gt_0 radix2 j).
    exists (rnd64 (1 / IZR k)). rewrite v64_div_fin; [|exact F1|rewrite Vk; lra]. rewrite V1, Vk. split.
    - apply xround_ok. rewrite Rabs_pos_eq by lra. eapply Rle_trans; [exact K2|]. change 1 with (P2 0). apply bpow_le. lia.
    - split; [apply rnd64_ge; [apply format64_pow; lia|exact L]|apply rnd64_le; [apply format64_1|exact K2]]. }
  destruct (T (10 ^ 8)%Z (-27)%Z) as (r8 & V8 & L8); [lia|lia|cbn; lra|].
  destruct (T (10 ^ 5)%Z (-17)%Z) as (r5 & V5 & L5); [lia|lia|cbn; lra|]. clear T.
  assert (v64 (fabs b) = Fin B) as Vb by (rewrite v64_abs, (v64_fin b Fb); reflexivity).
  pose proof (bpow_gt_0 radix2 (-17)) as P17. pose proof (bpow_gt_0 radix2 (-27)) as P27.
  assert (0 <= r5 * B <= B) as Bm by (split; [apply Rmult_le_pos; lra|nra]).
  assert (v64 (fmul (fdiv (f_of_Z 1) (f_of_Z (10 ^ 5))) (fabs b)) = Fin (rnd64 (r5 * B))) as Vm.
  { rewrite v64_mul, V5, Vb. cbn [xr2]. apply xround_ok. rewrite Rabs_pos_eq by lra. eapply Rle_trans; [apply Bm|]. eapply Rle_trans; [exact Bb|]. apply bpow_le. lia. }
  assert (P2 (-18) * B - P2 (-1075) <= rnd64 (r5 * B) <= P2 900) as Lm.
  { split.
    - pose proof (rnd_err (r5 * B)) as E. rewrite (Rabs_pos_eq (r5 * B)) in E by lra. apply Rabs_le_inv in E.
      replace (P2 (-18)) with (P2 (-17) / 2) by (replace (P2 (-17)) with (2 * P2 (-18)) by (change 2 with (P2 1); rewrite <- bpow_plus; reflexivity); lra). nra.
    - apply rnd64_le; [apply format64_pow; lia|]. lra. }
  assert (0 <= rnd64 (r5 * B)) as Pm by (apply rnd64_ge; [apply format64_0|lra]).
  set (t := rnd64 (r5 * B)) in *.
  assert (0 <= r8 + t) as P8 by lra.
  assert (v64 (fadd (fdiv (f_of_Z 1) (f_of_Z (10 ^ 8))) (fmul (fdiv (f_of_Z 1) (f_of_Z (10 ^ 5))) (fabs b))) = Fin (rnd64 (r8 + t))) as Vs.
  { rewrite v64_add, V8, Vm. cbn [xr2]. apply xround_ok. rewrite Rabs_pos_eq by lra.
    apply Rle_trans with (2 * P2 900). { assert (1 <= P2 900) by (change 1 with (P2 0); apply bpow_le; lia). lra. }
    change 2 with (P2 1). rewrite <- bpow_plus. apply bpow_le. lia. }
  assert ((r8 + t) / 2 <= rnd64 (r8 + t)) as Ls.
  { pose proof (rnd_add_err r8 t (v64_Fin_format _ _ V8) (v64_Fin_format _ _ Vm)) as E. rewrite (Rabs_pos_eq (r8 + t)) in E by lra. apply Rabs_le_inv in E. nra. }
  change (fleb (fabs (fsub a b)) (fadd (fdiv (f_of_Z 1) (f_of_Z (10 ^ 8))) (fmul (fdiv (f_of_Z 1) (f_of_Z (10 ^ 5))) (fabs b))) = true).
  rewrite v64_leb, v64_abs, Vd, Vs. cbn [xabs xleb]. apply Rleb_spec.
  eapply Rle_trans; [exact Ld|]. eapply Rle_trans; [|exact Ls]. unfold slack. fold B.
  assert (P2 (-18) = 8 * P2 (-21)) as E18 by (change 8 with (P2 3); rewrite <- bpow_plus; reflexivity).
  assert (8 * P2 (-1075) <= P2 (-27)) by (change 8 with (P2 3); rewrite <- bpow_plus; apply bpow_le; lia). pose proof (bpow_gt_0 radix2 (-21)). nra.
Qed.

(** ** The check on the clipped mean does not fire *)
Definition moderate (b : f64) : Prop := fisfin b = true -> Rabs (B2R b) <= P2 900.

Lemma v64_cases x : fisnan x = false -> v64 x = NInf \/ v64 x = PInf \/ exists r, v64 x = Fin r.
Proof. destruct x as [s|[]| |s m e B]; cbn; intros H; try discriminate; eauto. Qed.

Theorem mean_clip (x : list f64) lo hi : (1 <= length x)%nat -> INR (length x) <= MAXN ->
  Forall (fun v => fleb lo v = true /\ fleb v hi = true) x ->
  moderate lo -> moderate hi -> fisfin lo = true \/ fisfin hi = true ->
  exists v, clip_chk isclose (nmean x) lo hi = Ok v /\ fleb lo v = true /\ fleb v hi = true.
Proof.
  intros N M F Mlo Mhi O.
  assert (fleb lo hi = true) as LH.
  { destruct x as [|a x]; [cbn in N; lia|]. inversion F as [|? ? [A B] _]; subst. eapply fleb_trans; eauto. }
  destruct (fleb_notnan _ _ LH) as [Nl Nh].
  assert (fisfin hi = true -> v64 (nmean x) = NInf \/ exists r, v64 (nmean x) = Fin r /\ r <= B2R hi + slack (B2R hi)) as U.
  { intros Fh. apply mean_upper; auto. eapply Forall_impl; [|exact F]. intros a [_ A]. rewrite v64_leb, (v64_fin hi Fh) in A.
    unfold below1. destruct (v64 a) as [r| | |]; try discriminate; [right|now left]. exists r. split; [reflexivity|]. now apply Rleb_spec in A. }
  assert (fisfin lo = true -> v64 (nmean x) = PInf \/ exists r, v64 (nmean x) = Fin r /\ B2R lo - slack (B2R lo) <= r) as L.
  { intros Fl. apply mean_lower; auto. eapply Forall_impl; [|exact F]. intros a [A _]. rewrite v64_leb, (v64_fin lo Fl) in A.
    unfold above1. destruct (v64 a) as [r| | |]; try discriminate; [right|now left]. exists r. split; [reflexivity|]. now apply Rleb_spec in A. }
  set (m := nmean x) in *. clearbody m.
  assert (fisnan m = false) as Nm.
  { rewrite v64_nan. destruct O as [O|O]; [destruct (L O) as [->|(r & -> & _)]|destruct (U O) as [->|(r & -> & _)]]; reflexivity. }
  unfold clip_chk, nclip. cbn [nltb neqb f64_num]. destruct (fltb m lo) eqn:A.
  - (* below the interval *)
    assert (fisfin lo = true) as Fl.
    { destruct (fisfin lo) eqn:Fl; [reflexivity|]. exfalso. destruct O as [O|Fh]; [discriminate|].
      destruct lo as [?|[]| |?]; try discriminate.
      - destruct m as [?|[]| |?]; discriminate.
      - rewrite v64_leb, (v64_fin hi Fh) in LH. discriminate. }
    destruct (L Fl) as [E|(r & E & R)]; [exfalso; destruct m as [?|[]| |?]; try discriminate; destruct lo as [?|[]| |?]; discriminate|].
    apply v64_Fin in E as [Fm Vm]. apply (fltb_fin m lo Fm Fl) in A.
    rewrite (isclose_slack m lo); auto.
    + rewrite orb_true_r. cbn [orb py_assert bind]. exists lo. split; [reflexivity|]. split; [now apply fleb_refl|exact LH].
    + subst r. rewrite Rabs_left by lra. lra.
  - destruct (fltb hi m) eqn:B.
    + assert (fisfin hi = true) as Fh.
      { destruct (fisfin hi) eqn:Fh; [reflexivity|]. exfalso. destruct O as [Fl|O]; [|discriminate].
        destruct hi as [?|[]| |?]; try discriminate.
        - rewrite v64_leb, (v64_fin lo Fl) in LH. discriminate.
        - destruct m as [?|[]| |?]; discriminate. }
      destruct (U Fh) as [E|(r & E & R)]; [exfalso; destruct m as [?|[]| |?]; try discriminate; destruct hi as [?|[]| |?]; discriminate|].
      apply v64_Fin in E as [Fm Vm]. apply (fltb_fin hi m Fh Fm) in B.
      rewrite (isclose_slack m hi); auto.
      * rewrite orb_true_r. cbn [orb py_assert bind]. exists hi. split; [reflexivity|]. split; [exact LH|now apply fleb_refl].
      * subst r. rewrite Rabs_pos_eq by lra. lra.
    + assert (feqb m m = true) as -> by now apply feqb_key. cbn [orb py_assert bind]. exists m. split; [reflexivity|].
      apply fltb_false_le in A; [|assumption|assumption]. apply fltb_false_le in B; [|assumption|assumption]. split; now apply fleb_key.
Qed.

(** ** The error of a sum *)
Definition vals (l : list f64) : list R := map B2R l.
Lemma Rsum_app l m : Rsum (l ++ m) = Rsum l + Rsum m.
Proof. induction l as [|a l IH]; cbn [app]; [unfold Rsum; cbn; lra|]. rewrite !Rsum_cons. lra. Qed.
Lemma Rsum_perm l m : Permutation l m -> Rsum l = Rsum m.
Proof. induction 1; rewrite ?Rsum_cons; lra. Qed.
Definition abs_sum (l : list f64) : R := Rsum (map Rabs (vals l)).
Lemma abs_sum_pos l : 0 <= abs_sum l.
Proof. unfold abs_sum, vals. induction l as [|a l IH]; cbn [map]; [unfold Rsum; cbn; lra|]. rewrite Rsum_cons. pose proof (Rabs_pos (B2R a)). lra. Qed.
Lemma abs_sum_app l m : abs_sum (l ++ m) = abs_sum l + abs_sum m.
Proof. unfold abs_sum, vals. rewrite !map_app. apply Rsum_app. Qed.
Lemma Rsum_abs_sum l : Rabs (Rsum (vals l)) <= abs_sum l.
Proof.
  unfold abs_sum, vals. induction l as [|a l IH]; cbn [map]; [unfold Rsum; cbn; rewrite Rabs_R0; lra|]. rewrite !Rsum_cons.
  eapply Rle_trans; [apply Rabs_triang|]. lra.
Qed.

Lemma sums_err l (v : f64) : sums_to l v -> Forall (fun a => fisfin a = true) l -> INR (length l) <= MAXN -> abs_sum l <= P2 990 ->
  fisfin v = true /\ Rabs (B2R v - Rsum (vals l)) <= ((1 + u64) ^ (Nat.pred (length l)) - 1) * abs_sum l.
Proof.
  induction 1 as [|a|l m v w Hv IHv Hw IHw|l m v P _ IH]; intros F N A.
  - split; [reflexivity|]. cbn. rewrite Rminus_diag_eq, Rabs_R0 by reflexivity. lra.
  - inversion F; subst. split; [assumption|]. unfold abs_sum, vals. cbn [map length Nat.pred pow]. rewrite !Rsum_cons. unfold Rsum. cbn [fold_right].
    replace (B2R a - (B2R a + 0)) with 0 by ring. rewrite Rabs_R0. lra.
  - apply Forall_app in F as [F1 F2]. rewrite app_length, abs_sum_app in *. unfold vals. rewrite map_app, Rsum_app. fold (vals l) (vals m).
    pose proof (plus_INR (length l) (length m)) as PI. pose proof (pos_INR (length l)). pose proof (pos_INR (length m)).
    pose proof (abs_sum_pos l) as Al. pose proof (abs_sum_pos m) as Am.
    destruct (IHv F1) as [Fv Ev]; [lra|lra|]. destruct (IHw F2) as [Fw Ew]; [lra|lra|]. clear IHv IHw.
    destruct l as [|a l]; [|destruct m as [|b m]].
    + apply sums_nil in Hv. subst v. pose proof (v64_add_0_l w _ (v64_fin w Fw)) as E. apply v64_Fin in E as [E1 E2].
      change (nadd f0 w) with (fadd f0 w). rewrite E2. split; [exact E1|]. cbn [length Nat.add vals map]. unfold abs_sum at 1. cbn [vals map].
      replace (Rsum []) with 0 by (unfold Rsum; cbn; lra). rewrite !Rplus_0_l. exact Ew.
    + apply sums_nil in Hw. subst w. pose proof (v64_add_0_r v _ (v64_fin v Fv)) as E. apply v64_Fin in E as [E1 E2].
      change (nadd v f0) with (fadd v f0). rewrite E2. split; [exact E1|]. rewrite Nat.add_0_r. unfold abs_sum at 2. cbn [vals map].
      replace (Rsum []) with 0 by (unfold Rsum; cbn; lra). rewrite !Rplus_0_r. exact Ev.
    + set (i := length (a :: l)) in *. set (j := length (b :: m)) in *. assert (1 <= i)%nat as I by (unfold i; cbn; lia). assert (1 <= j)%nat as J by (unfold j; cbn; lia).
      set (k := Nat.pred (Nat.max i j)).
      assert (forall n, (1 <= n <= Nat.max i j)%nat -> (1 + u64) ^ Nat.pred n <= (1 + u64) ^ k) as Mo.
      { intros n Hn. apply Rle_pow; [pose proof u64_pos; lra|unfold k; lia]. }
      pose proof (Mo i ltac:(lia)) as Mi. pose proof (Mo j ltac:(lia)) as Mj.
      set (S := Rsum (vals (a :: l)) + Rsum (vals (b :: m))). set (B := abs_sum (a :: l) + abs_sum (b :: m)) in *.
      set (g := (1 + u64) ^ k) in *.
      assert (Rabs (B2R v + B2R w - S) <= (g - 1) * B) as E1.
      { replace (B2R v + B2R w - S) with ((B2R v - Rsum (vals (a :: l))) + (B2R w - Rsum (vals (b :: m)))) by (unfold S; ring).
        eapply Rle_trans; [apply Rabs_triang|]. unfold B. nra. }
      assert (Rabs S <= B) as ES.
      { unfold S. eapply Rle_trans; [apply Rabs_triang|]. apply Rplus_le_compat; apply Rsum_abs_sum. }
      assert (Rabs (B2R v + B2R w) <= g * B) as E2.
      { replace (B2R v + B2R w) with ((B2R v + B2R w - S) + S) by ring. eapply Rle_trans; [apply Rabs_triang|]. lra. }
      assert (0 <= B) as PB by (unfold B; lra).
      assert (1 <= g <= 2) as G.
      { split; [unfold g; apply pow_R1_Rle; pose proof u64_pos; lra|].
        assert (INR k <= MAXN) as Nk. { eapply Rle_trans; [|exact N]. apply le_INR. unfold k. lia. }
        pose proof (maxn_u k Nk) as Mk. pose proof p23. pose proof (pow_up k ltac:(lra)). unfold g. lra. }
      pose proof (rnd_add_err (B2R v) (B2R w) (B2R_format v) (B2R_format w)) as R.
      assert (Rabs (B2R v + B2R w) <= P2 1000) as Small.
      { eapply Rle_trans; [exact E2|]. apply Rle_trans with (2 * P2 990); [nra|]. change 2 with (P2 1). rewrite <- bpow_plus. apply bpow_le. lia. }
      destruct (fadd_correct v w Fv Fw (no_ovf _ Small)) as [V Fin]. change (nadd v w) with (fadd v w). split; [exact Fin|]. rewrite V.
      change (Rabs (rnd64 (B2R v + B2R w) - S) <= ((1 + u64) ^ Nat.pred (i + j) - 1) * B).
      replace (rnd64 (B2R v + B2R w) - S) with ((rnd64 (B2R v + B2R w) - (B2R v + B2R w)) + (B2R v + B2R w - S)) by ring.
      eapply Rle_trans; [apply Rabs_triang|]. pose proof u64_pos as Up.
      assert (u64 * Rabs (B2R v + B2R w) <= u64 * (g * B)) by (apply Rmult_le_compat_l; lra).
      assert ((1 + u64) ^ Datatypes.S k <= (1 + u64) ^ Nat.pred (i + j)) as Last by (apply Rle_pow; [lra|unfold k; lia]).
      cbn [pow] in Last. fold g in Last.
      assert (((1 + u64) * g - 1) * B <= ((1 + u64) ^ Nat.pred (i + j) - 1) * B) by (apply Rmult_le_compat_r; lra).
      lra.
  - assert (vals l = map B2R l /\ vals m = map B2R m) as _ by (split; reflexivity).
    assert (Rsum (vals l) = Rsum (vals m)) as E1 by (apply Rsum_perm, Permutation_map, P).
    assert (abs_sum l = abs_sum m) as E2 by (apply Rsum_perm, Permutation_map, Permutation_map, P).
    rewrite <- E1, <- E2, <- (Permutation_length P) in *. apply IH; auto. now apply (Permutation_Forall (Permutation_sym P)).
Qed.

(** ** The error of the mean *)
Theorem mean_err (x : list f64) : (1 <= length x)%nat -> INR (length x) <= MAXN -> Forall (fun a => fisfin a = true) x -> abs_sum x <= P2 990 ->
  let n := INR (length x) in
  fisfin (nmean x) = true /\ Rabs (B2R (nmean x) - Rsum (vals x) / n) <= (n + 1) * P2 (-52) * (abs_sum x / n) + P2 (-1075).
Proof.
  intros N M F A n. destruct (sums_err x _ (psum_sums x) F M A) as [Fv E]. set (v := psum x) in *.
  assert (0 < n) as N0 by (apply lt_0_INR; lia). assert (n <= MAXN) as M' by exact M.
  pose proof (abs_sum_pos x) as PA. pose proof u64_pos as Up. pose proof (maxn_u _ M) as Mu. pose proof p23 as P3.
  assert (1 <= n) as N1 by (apply (le_INR 1); lia).
  set (k := Nat.pred (length x)) in *. assert (INR k = n - 1) as Ek. { unfold n. replace (length x) with (Datatypes.S k) by (unfold k; lia). rewrite S_INR. ring. }
  assert (INR k * u64 <= / 2) as Hk. { rewrite Ek. fold n in Mu. nra. }
  pose proof (pow_up k Hk) as Pk. assert (1 <= (1 + u64) ^ k) as P1 by (apply pow_R1_Rle; lra). set (g := (1 + u64) ^ k) in *. rewrite Ek in Pk.
  assert (Rabs (B2R v) <= g * abs_sum x) as Bv.
  { replace (B2R v) with ((B2R v - Rsum (vals x)) + Rsum (vals x)) by ring. eapply Rle_trans; [apply Rabs_triang|]. pose proof (Rsum_abs_sum x). lra. }
  assert (Rabs (B2R v / n) <= g * abs_sum x / n) as Bq.
  { unfold Rdiv. rewrite Rabs_mult, Rabs_inv, (Rabs_pos_eq n) by lra. apply Rmult_le_compat_r; [|exact Bv]. apply Rlt_le, Rinv_0_lt_compat. exact N0. }
  assert (g <= 2) as G2. { fold n in Mu. nra. }
  assert (Rabs (B2R v / n) <= P2 1000) as Small.
  { eapply Rle_trans; [exact Bq|]. apply (Rmult_le_reg_r n); [exact N0|]. unfold Rdiv. rewrite Rmult_assoc, Rinv_l by lra.
    apply Rle_trans with (2 * P2 990); [nra|]. apply Rle_trans with (P2 1000); [change 2 with (P2 1); rewrite <- bpow_plus; apply bpow_le; lia|].
    pose proof (bpow_gt_0 radix2 1000). nra. }
  unfold nmean. cbn [ndiv nofZ f64_num]. fold v.
  pose proof (div_n v (length x) (B2R v) N M (v64_fin v Fv)) as D. fold n in D. rewrite xround_ok in D by exact Small.
  apply v64_Fin in D as [Fd Vd]. split; [exact Fd|]. rewrite Vd.
  replace (rnd64 (B2R v / n) - Rsum (vals x) / n) with ((rnd64 (B2R v / n) - B2R v / n) + (B2R v - Rsum (vals x)) / n) by (field; lra).
  eapply Rle_trans; [apply Rabs_triang|]. pose proof (rnd_err (B2R v / n)) as R.
  assert (Rabs ((B2R v - Rsum (vals x)) / n) <= (g - 1) * abs_sum x / n) as Q.
  { unfold Rdiv. rewrite Rabs_mult, Rabs_inv, (Rabs_pos_eq n) by lra. apply Rmult_le_compat_r; [|exact E]. apply Rlt_le, Rinv_0_lt_compat. exact N0. }
  assert (P2 (-52) = 2 * u64) as E52 by (unfold u64; change 2 with (P2 1); rewrite <- bpow_plus; reflexivity).
  set (a := abs_sum x / n). assert (0 <= a) as Pa by (apply Rmult_le_pos; [exact PA|apply Rlt_le, Rinv_0_lt_compat; exact N0]).
  replace (g * abs_sum x / n) with (g * a) in Bq by (unfold a; field; lra). replace ((g - 1) * abs_sum x / n) with ((g - 1) * a) in Q by (unfold a; field; lra).
  rewrite E52.
  assert (u64 * Rabs (B2R v / n) <= u64 * (g * a)) by (apply Rmult_le_compat_l; lra).
  assert (u64 * g + (g - 1) <= (n + 1) * (2 * u64)) as K. { nra. }
  assert ((u64 * g + (g - 1)) * a <= (n + 1) * (2 * u64) * a) by (apply Rmult_le_compat_r; lra). lra.
Qed.
