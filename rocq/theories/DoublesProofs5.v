(** How accurate normalize is in doubles. *)
From Coq Require Import Reals Lra Lia Permutation.
From Flocq Require Import Core BinarySingleNaN.
From Verif Require Import PyBase ListLemmas F64 F64Lemmas Num NumOk SumProofs Util UtilProofs BootUtil BootProofs2 PerfCurves CurveBoot MLPaper MLProofs MLProofs4 CompareProofs
  SwapProofs MeanProofs DoublesProofs DoublesProofs2 DoublesProofs3 Classification ClassProofs AnyNormalize DoublesProofs4.
Open Scope R_scope.

(** exp and log with an error of at most 2^-50 (a few units in the last place) *)
Record accurate_exp_log (fexp flog : f64 -> f64) : Prop := {
  ae_exp : forall z, fleb z f0 = true -> fisfin (fexp z) = true /\ Rabs (B2R (fexp z) - pr (v64 z)) <= bpow radix2 (-50);
  ae_log : forall z, fisfin z = true -> 1 <= B2R z <= bpow radix2 60 ->
    fisfin (flog z) = true /\ Rabs (B2R (flog z) - ln (B2R z)) <= bpow radix2 (-50) * (1 + ln (B2R z))
}.

(** ** analysis *)
Lemma exp_lip d t : Rabs (exp d - exp t) <= Rabs (d - t) * exp (Rmax d t).
Proof.
  assert (forall a b, a <= b -> Rabs (exp b - exp a) <= Rabs (b - a) * exp b) as H.
  { intros a b L. assert (exp a <= exp b) by (destruct L as [L| ->]; [apply Rlt_le, exp_increasing, L|lra]). rewrite !Rabs_pos_eq by lra.
    pose proof (exp_ineq1_le (a - b)) as I. pose proof (exp_pos b) as P. assert (exp a = exp b * exp (a - b)) as -> by (rewrite <- exp_plus; f_equal; lra). nra. }
  unfold Rmax. destruct (Rle_dec d t) as [L|L].
  - rewrite (Rabs_minus_sym (exp d)), (Rabs_minus_sym d). now apply H.
  - apply H. lra.
Qed.
Lemma lin_exp x : 0 <= x -> x <= exp (x / 2).
Proof.
  intros H. pose proof (exp_ineq1_le (x / 4)) as I. assert (exp (x / 2) = exp (x / 4) * exp (x / 4)) as -> by (rewrite <- exp_plus; f_equal; lra).
  assert (0 <= (x / 4 - 1) * (x / 4 - 1)) by apply Rle_0_sqr. nra.
Qed.
Lemma exp_rel t d u : t <= 0 -> 0 <= u <= / 2 -> Rabs (d - t) <= u * Rabs t -> Rabs (exp d - exp t) <= u.
Proof.
  intros T U D. eapply Rle_trans; [apply exp_lip|]. rewrite (Rabs_left1 t) in D by exact T.
  assert (Rmax d t <= t / 2) as M by (apply Rabs_le_inv in D; apply Rmax_lub; nra).
  pose proof (lin_exp (- t) ltac:(lra)) as L. assert (exp (Rmax d t) <= exp (t / 2)) by (destruct M as [M|M]; [apply Rlt_le, exp_increasing, M|rewrite M; lra]).
  pose proof (exp_pos (Rmax d t)). pose proof (Rabs_pos (d - t)).
  assert (- t * exp (t / 2) <= 1) as Q.
  { pose proof (exp_pos (t / 2)). assert (exp (- t / 2) * exp (t / 2) = 1) as <- by (rewrite <- exp_plus; replace (- t / 2 + t / 2) with 0 by lra; apply exp_0).
    apply Rmult_le_compat_r; lra. }
  apply Rle_trans with (u * - t * exp (t / 2)); [apply Rmult_le_compat; auto; lra|]. rewrite Rmult_assoc. rewrite <- (Rmult_1_r u) at 2. apply Rmult_le_compat_l; lra.
Qed.
Lemma ln_near x d : Rabs (x - 1) <= d -> d <= / 2 -> Rabs (ln x) <= 2 * d.
Proof.
  intros H D. apply Rabs_le_inv in H. pose proof (exp_ineq1_le (ln x)) as I. rewrite exp_ln in I by lra.
  pose proof (exp_ineq1_le (- ln x)) as J. rewrite exp_Ropp, exp_ln in J by lra. apply Rabs_le. split; [|lra].
  assert (/ x <= 1 + 2 * d); [|lra]. apply (Rmult_le_reg_r x); [lra|]. rewrite Rinv_l by lra. nra.
Qed.
Lemma exp_near d D : Rabs d <= D -> D <= / 2 -> Rabs (exp d - 1) <= 2 * D.
Proof.
  intros H L. apply Rabs_le_inv in H. pose proof (exp_ineq1_le d) as I. pose proof (exp_ineq1_le (- d)) as J. rewrite exp_Ropp in J. pose proof (exp_pos d) as P.
  apply Rabs_le. split; [lra|]. assert (exp d <= 1 + 2 * D); [|lra].
  assert (exp d * (1 - D) <= 1); [|nra]. apply (Rmult_le_compat_l (exp d)) in J; [|lra]. rewrite Rinv_r in J by lra. nra.
Qed.

Lemma Rsum_close c l m : Forall2 (fun x y => Rabs (x - y) <= c) l m -> Rabs (Rsum l - Rsum m) <= INR (length l) * c.
Proof.
  induction 1 as [|x y l m H F IH]; [cbn; rewrite Rminus_diag_eq, Rabs_R0 by reflexivity; lra|]. rewrite !Rsum_cons. cbn [length]. rewrite S_INR.
  replace (x + Rsum l - (y + Rsum m)) with ((x - y) + (Rsum l - Rsum m)) by ring. eapply Rle_trans; [apply Rabs_triang|]. lra.
Qed.
Lemma Rsum_rel c l m : Forall2 (fun x y => Rabs (x - y) <= c * y) l m -> Rabs (Rsum l - Rsum m) <= c * Rsum m.
Proof.
  induction 1 as [|x y l m H F IH]; [cbn; rewrite Rminus_diag_eq, Rabs_R0 by reflexivity; lra|]. rewrite !Rsum_cons.
  replace (x + Rsum l - (y + Rsum m)) with ((x - y) + (Rsum l - Rsum m)) by ring. eapply Rle_trans; [apply Rabs_triang|]. lra.
Qed.
Lemma Rsum_scale c l : Rsum (map (Rmult c) l) = c * Rsum l.
Proof. induction l as [|x l IH]; cbn [map]; [unfold Rsum; cbn; lra|]. rewrite !Rsum_cons, IH. lra. Qed.
Lemma Rsum_nonneg l : Forall (fun x => 0 <= x) l -> 0 <= Rsum l.
Proof. induction 1 as [|x l H F IH]; [unfold Rsum; cbn; lra|]. rewrite Rsum_cons. lra. Qed.
Lemma Rsum_ge x l : Forall (fun x => 0 <= x) l -> In x l -> x <= Rsum l.
Proof.
  induction 1 as [|y l H F IH]; [easy|]. rewrite Rsum_cons. pose proof (Rsum_nonneg l F). intros [->|I]; [lra|]. specialize (IH I). lra.
Qed.

Section Accuracy.
  Context (fexp flog : f64 -> f64) (sf ppf : Z -> f64 -> f64) (eig : f64 -> f64 -> option (f64 * f64)) (EL : exp_log fexp flog) (AE : accurate_exp_log fexp flog).
  Notation lib := (fn_f64 fexp flog sf ppf eig).
  Context (sum : list f64 -> f64) (SUM : forall l, sums_to l (sum l)).
  Variables (row : list f64) (A : R).
  Definition entry (x : f64) : Prop := v64 x = NInf \/ exists r, v64 x = Fin r /\ Rabs r <= A.
  Hypothesis (AB : 0 <= A <= MAXN) (N : INR (length row) <= MAXN) (F : Forall entry row) (E : Exists (fun x => fisfin x = true) row).
  Notation n := (INR (length row)).
  Notation U := u64.

  Lemma row_1 : 1 <= n.
  Proof. clear - E. destruct row; [inversion E|]. cbn [length]. rewrite S_INR. pose proof (pos_INR (length l)). lra. Qed.
  Lemma nU : n * U <= P2 (-23) /\ A * U <= P2 (-23).
  Proof.
    split; [now apply maxn_u|]. replace (P2 (-23)) with (MAXN * U) by (unfold MAXN, u64; rewrite <- bpow_plus; reflexivity).
    apply Rmult_le_compat_r; [apply Rlt_le, u64_pos|lra].
  Qed.

  (** the exact normaliser *)
  Definition lse : R := ln (Rsum (map (fun x => pr (v64 x)) row)).

  Lemma normaliser_accurate : exists e, v64 (@any_logsumexp _ _ lib sum row) = Fin e /\ Rabs (e - lse) <= U * (50 * n + A) /\ Rabs e <= 3 * n + 2 * A /\
    0 < Rsum (map (fun x => pr (v64 x)) row).
  Proof.
    pose proof row_1 as N1. pose proof nU as [NU AU]. pose proof u64_pos as UP. pose proof u64_small as US.
    assert (P2 (-23) <= / 1024) as P23 by (replace (/ 1024) with (P2 (-10)) by (cbn; lra); apply bpow_le; lia).
    assert (A <= P2 30) as A30 by (unfold MAXN in AB; lra).
    assert (Forall (lprob 30) row) as LP.
    { eapply Forall_impl; [|exact F]. intros x [H|(r & H & R)]; [now left|right]. exists r. split; [exact H|lra]. }
    assert (Exists (bdd 30) row) as EB.
    { apply Exists_exists in E as (x & I & Fx). apply Exists_exists. exists x. split; [exact I|]. rewrite Forall_forall in LP. destruct (LP x I) as [H|H]; [|exact H].
      rewrite (v64_fin x Fx) in H. discriminate. }
    destruct (lprob_amax 30 row LP EB) as (m & Em & Bm & I & AM). unfold any_logsumexp.
    pose proof Em as Em'. apply v64_Fin in Em' as [Fm Vm]. cbn [nisfin nadd nlog nexp nsub fn_f64 f64_num]. rewrite Fm.
    assert (Rabs m <= A) as BmA.
    { rewrite Forall_forall in F. destruct (F _ I) as [H|(r & H & R)]; rewrite Em in H; [discriminate|]. injection H as ->. exact R. }
    set (mx := amax row) in *. clearbody mx.
    set (l := map (fun a => fexp (fsub a mx)) row). set (p := map (fun a => pr (v64 a) * exp (- m)) row).
    assert (Forall (nng 0) l) as L0.
    { unfold l. apply Forall_map. rewrite Forall_forall in *. intros a Ia. destruct (el_exp _ _ EL (fsub a mx)); [eapply sub_neg; eauto|]. now apply unit_nng. }
    destruct (sums_unit l (sum l) (SUM l)) as (s & Es & Rs & G); [unfold l; now rewrite map_length|exact L0|].
    assert (length l = length row) as Ll by (unfold l; now rewrite map_length). rewrite Ll in Rs.
    (* the terms *)
    assert (Forall2 (fun x y => Rabs (x - y) <= 9 * U) (vals l) p) as TE.
    { clear - F AM AE Em A30 BmA. unfold l, p, vals. rewrite map_map.
      assert (P2 (-50) = 8 * U) as E50 by (unfold u64; replace (-50)%Z with (3 + -53)%Z by lia; rewrite bpow_plus; change (P2 3) with 8; lra). pose proof u64_pos as UP. pose proof u64_small as US.
      induction row as [|a rest IH]; cbn [map]; [constructor|]. inversion F as [|? ? Fa F']; subst. inversion AM as [|? ? Aa AM']; subst. constructor; [|now apply IH].
      destruct (ae_exp _ _ AE (fsub a mx)) as [Fe Ve]; [eapply sub_neg; eauto|].
      destruct Fa as [Na|(r & Ea & Ra)].
      - assert (v64 (fsub a mx) = NInf) as Q by (rewrite v64_sub, Na, Em; reflexivity). rewrite Q in Ve. rewrite Na. cbn [pr] in *. rewrite Rmult_0_l. lra.
      - rewrite v64_leb, Ea, Em in Aa. apply Rleb_spec in Aa. rewrite v64_sub, Ea, Em in Ve. cbn [xr2] in Ve.
        pose proof (v64_Fin_format _ _ Ea) as Fr. pose proof (v64_Fin_format _ _ Em) as Fmm.
        assert (Rabs (rnd64 (r - m) - (r - m)) <= U * Rabs (r - m)) as RE.
        { unfold Rminus at 2 3 4. apply rnd_add_err; [exact Fr|]. now apply generic_format_opp. }
        rewrite xround_ok in Ve.
        2:{ apply Rle_trans with (P2 31); [|apply bpow_le; lia]. apply Rabs_le_inv in Ra, BmA. assert (P2 31 = 2 * P2 30) by (replace 31%Z with (1 + 30)%Z by lia; rewrite bpow_plus; reflexivity).
            apply Rabs_le. lra. }
        rewrite Ea. cbn [pr] in *. rewrite <- exp_plus. replace (r + - m) with (r - m) by ring.
        pose proof (exp_rel (r - m) (rnd64 (r - m)) U ltac:(lra) ltac:(lra) RE) as ER.
        replace (B2R (fexp (fsub a mx)) - exp (r - m)) with ((B2R (fexp (fsub a mx)) - exp (rnd64 (r - m))) + (exp (rnd64 (r - m)) - exp (r - m))) by ring.
        eapply Rle_trans; [apply Rabs_triang|]. lra. }
    (* the exact sum *)
    set (S := Rsum p) in *.
    assert (Rsum (map (fun x => pr (v64 x)) row) = exp m * S) as ES.
    { unfold S, p. rewrite <- Rsum_scale, map_map. f_equal. apply map_ext. intros a. rewrite (Rmult_comm (pr _)), <- Rmult_assoc, <- exp_plus.
      replace (m + - m) with 0 by ring. rewrite exp_0. ring. }
    assert (1 <= S) as S1.
    { apply Rsum_ge.
      - unfold p. apply Forall_map, Forall_forall. intros a _. apply Rmult_le_pos; [apply pr_nonneg|apply Rlt_le, exp_pos].
      - unfold p. apply in_map_iff. exists mx. split; [|exact I]. rewrite Em. cbn [pr]. rewrite <- exp_plus. replace (m + - m) with 0 by ring. apply exp_0. }
    assert (S <= n) as Sn.
    { unfold S, p. clear - AM Em. induction row as [|a rest IH]; cbn [map]; [cbn; lra|]. inversion AM as [|? ? Aa AM']; subst. rewrite Rsum_cons. cbn [length]. rewrite S_INR. specialize (IH AM').
      assert (pr (v64 a) * exp (- m) <= 1); [|lra]. rewrite v64_leb, Em in Aa. destruct (v64 a) as [r| | |]; cbn [pr]; try lra. apply Rleb_spec in Aa.
      rewrite <- exp_plus. rewrite <- exp_0. destruct Aa as [Aa| ->]; [apply Rlt_le, exp_increasing; lra|right; f_equal; lra]. }
    (* the computed sum *)
    assert (Forall (fun a => fisfin a = true) l) as FL by (eapply Forall_impl; [|exact L0]; intros a (t & Et & _); now apply v64_Fin in Et).
    assert (abs_sum l = Rsum (vals l)) as AS.
    { unfold abs_sum. f_equal. unfold vals. rewrite map_map. apply map_ext_in. intros a Ia. rewrite Forall_forall in L0. destruct (L0 a Ia) as (t & Et & T). apply v64_Fin in Et as [_ ->]. apply Rabs_pos_eq. lra. }
    pose proof (Rsum_close _ _ _ TE) as C1. assert (length (vals l) = length row) as Lv by (unfold vals; now rewrite map_length). rewrite Lv in C1. fold S in C1.
    set (V := Rsum (vals l)) in *. apply Rabs_le_inv in C1.
    destruct (sums_err l (sum l) (SUM l) FL) as [Fs Es2]; [now rewrite Ll|rewrite AS|].
    { apply Rle_trans with (P2 31); [|apply bpow_le; lia]. assert (P2 31 = 2 * P2 30) by (replace 31%Z with (1 + 30)%Z by lia; rewrite bpow_plus; reflexivity). unfold MAXN in N.
      assert (n * (9 * U) <= n) by nra. lra. }
    rewrite AS, Ll in Es2. apply v64_Fin in Es as [_ Vs]. rewrite Vs in Es2.
    assert ((1 + U) ^ Nat.pred (length row) - 1 <= 2 * (n * U)) as PW.
    { assert (INR (Nat.pred (length row)) <= n) as Q by (apply le_INR; lia). pose proof (pow_up (Nat.pred (length row))) as PU. pose proof (pos_INR (Nat.pred (length row))).
      assert (INR (Nat.pred (length row)) * U <= n * U) by (apply Rmult_le_compat_r; lra). specialize (PU ltac:(lra)). lra. }
    set (x := n * U) in *. assert (0 <= x) as X0 by (unfold x; nra). replace (n * (9 * U)) with (9 * x) in C1 by (unfold x; ring).
    assert (0 <= V) as V0 by (rewrite <- AS; apply abs_sum_pos).
    assert (Rabs (s - S) <= 12 * x * S) as C2.
    { apply Rabs_le_inv in Es2. fold V in Es2. assert (((1 + U) ^ Nat.pred (length row) - 1) * V <= 2 * x * V) as Q by (apply Rmult_le_compat_r; lra).
      assert (2 * x * V <= 2 * x * S + / 2 * x) by (replace (2 * x * S + / 2 * x) with (2 * x * (S + / 4)) by field; apply Rmult_le_compat_l; lra). assert (x <= x * S) by (rewrite <- (Rmult_1_r x) at 1; apply Rmult_le_compat_l; lra). apply Rabs_le. split; lra. }
    assert (0 < s) as S0 by (apply Rabs_le_inv in C2; nra).
    assert (1 <= s) as s1.
    { rewrite Forall_forall in G. destruct (G (fexp (fsub mx mx))) as (t & Et & T); [unfold l; apply in_map_iff; eauto|].
      assert (v64 (fsub mx mx) = Fin 0) as Q.
      { rewrite v64_sub, Em. cbn [xr2]. replace (m - m) with 0 by lra. rewrite xround_ok, rnd64_id; [reflexivity|apply format64_0|]. rewrite Rabs_R0. apply bpow_ge_0. }
      apply v64_Fin in Q as [Q1 Q2]. destruct (el_exp_0 _ _ EL (fsub mx mx) Q1 Q2) as [F1 V1]. rewrite (v64_fin _ F1), V1 in Et. injection Et as <-. exact T. }
    (* logarithms *)
    assert (Rabs (ln s - ln S) <= 24 * x) as C3.
    { replace (ln s - ln S) with (ln (s / S)) by (unfold Rdiv; rewrite ln_mult, ln_Rinv by (try apply Rinv_0_lt_compat; lra); ring).
      replace (24 * x) with (2 * (12 * x)) by ring. apply ln_near; [|lra]. replace (s / S - 1) with ((s - S) / S) by (field; lra). unfold Rdiv. rewrite Rabs_mult, (Rabs_pos_eq (/ S)) by (apply Rlt_le, Rinv_0_lt_compat; lra).
      apply (Rmult_le_reg_r S); [lra|]. rewrite Rmult_assoc, Rinv_l by lra. lra. }
    destruct (ae_log _ _ AE (sum l) Fs) as [Fl El]; [rewrite Vs; split; [exact s1|]; unfold MAXN in N; assert (P2 30 <= P2 60) by (apply bpow_le; lia); lra|].
    rewrite Vs in El. assert (P2 (-50) = 8 * U) as E50 by (unfold u64; replace (-50)%Z with (3 + -53)%Z by lia; rewrite bpow_plus; change (P2 3) with 8; lra).
    assert (ln s <= n - 1) as LS by (pose proof (exp_ineq1_le (ln s)) as Q; rewrite exp_ln in Q by lra; lra).
    assert (0 <= ln S <= n - 1) as LSS.
    { split; [rewrite <- ln_1; destruct S1 as [Q|<-]; [apply Rlt_le, ln_increasing; lra|lra]|]. pose proof (exp_ineq1_le (ln S)) as Q. rewrite exp_ln in Q by lra. lra. }
    set (lg := B2R (flog (sum l))) in *.
    assert (Rabs (lg - ln s) <= 8 * x) as C4 by (eapply Rle_trans; [exact El|]; rewrite E50; unfold x; nra).
    apply Rabs_le_inv in C3, C4.
    assert (Rabs (lg - ln S) <= 32 * x) as C5 by (apply Rabs_le; lra).
    (* the rounding *)
    fold l.
    assert (Rabs (lg + m) <= 2 * n + A) as BL by (apply Rabs_le_inv in C5, BmA; apply Rabs_le; lra).
    assert (v64 (fadd (flog (sum l)) mx) = Fin (rnd64 (lg + m))) as Ee.
    { rewrite v64_add, (v64_fin _ Fl), Em. cbn [xr2]. apply xround_ok. eapply Rle_trans; [exact BL|]. apply Rle_trans with (P2 32); [|apply bpow_le; lia].
      assert (P2 32 = 4 * P2 30) by (replace 32%Z with (2 + 30)%Z by lia; rewrite bpow_plus; reflexivity). unfold MAXN in N. lra. }
    exists (rnd64 (lg + m)). split; [exact Ee|].
    pose proof (rnd_add_err lg m (B2R_format _) (v64_Fin_format _ _ Em)) as RE.
    assert (U * Rabs (lg + m) <= U * (2 * n + A)) as RE2 by (apply Rmult_le_compat_l; lra).
    assert (lse = m + ln S) as LE by (unfold lse; rewrite ES, ln_mult, ln_exp by (try apply exp_pos; lra); reflexivity).
    assert (0 < exp m * S) by (apply Rmult_lt_0_compat; [apply exp_pos|lra]). rewrite ES.
    apply Rabs_le_inv in C5, RE, BL. fold x in RE2. assert (U * (2 * n + A) = 2 * x + A * U) as Q by (unfold x; ring). rewrite Q in RE2.
    split; [|split; [|assumption]]; apply Rabs_le; rewrite ?LE.
    - replace (U * (50 * n + A)) with (50 * x + A * U) by (unfold x; ring). lra.
    - split; lra.
  Qed.

  Lemma normalize_accurate :
    Forall2 (fun a b => forall r, v64 a = Fin r -> exists t, v64 b = Fin t /\ Rabs (t - (r - lse)) <= bpow radix2 (-47) * (n + A))
      row (@any_normalize_row _ _ lib sum row) /\
    Rabs (Rsum (map (fun b => pr (v64 b)) (@any_normalize_row _ _ lib sum row)) - 1) <= bpow radix2 (-46) * (n + A).
  Proof.
    destruct normaliser_accurate as (e & Ee & Ce & Be & SP). pose proof row_1 as N1. pose proof nU as [NU AU]. pose proof u64_pos as UP. pose proof u64_small as US.
    assert (P2 (-23) <= / 1024) as P23 by (replace (/ 1024) with (P2 (-10)) by (cbn; lra); apply bpow_le; lia).
    assert (P2 (-47) = 64 * U) as E47 by (unfold u64; replace (-47)%Z with (6 + -53)%Z by lia; rewrite bpow_plus; change (P2 6) with 64; lra).
    assert (P2 (-46) = 128 * U) as E46 by (unfold u64; replace (-46)%Z with (7 + -53)%Z by lia; rewrite bpow_plus; change (P2 7) with 128; lra).
    unfold any_normalize_row. cbn [nsub f64_num]. set (z := any_logsumexp sum row) in *. clearbody z.
    set (D := 64 * U * (n + A)).
    assert (forall a r, v64 a = Fin r -> Rabs r <= A -> exists t, v64 (fsub a z) = Fin t /\ Rabs (t - (r - lse)) <= D) as H.
    { intros a r Ea Ra. assert (Rabs (r - e) <= 3 * n + 3 * A) as B by (apply Rabs_le_inv in Ra, Be; apply Rabs_le; lra).
      exists (rnd64 (r - e)). split.
      - rewrite v64_sub, Ea, Ee. cbn [xr2]. apply xround_ok. eapply Rle_trans; [exact B|]. apply Rle_trans with (P2 33); [|apply bpow_le; lia].
        assert (P2 33 = 8 * P2 30) by (replace 33%Z with (3 + 30)%Z by lia; rewrite bpow_plus; reflexivity). unfold MAXN in N, AB. lra.
      - pose proof (rnd_add_err r (- e) (v64_Fin_format _ _ Ea) (generic_format_opp _ _ _ (v64_Fin_format _ _ Ee))) as RE.
        change (r + - e) with (r - e) in RE. assert (U * Rabs (r - e) <= U * (3 * n + 3 * A)) by (apply Rmult_le_compat_l; lra).
        apply Rabs_le_inv in RE, Ce. unfold D. apply Rabs_le. split; nra. }
    rewrite E47, E46. fold D. split.
    - clear - F H. clearbody D. set (L := lse) in *. clearbody L. induction row as [|a rest IH]; cbn [map]; [constructor|]. inversion F as [|? ? Fa F']; subst. constructor; [|now apply IH].
      intros r Ea. apply H; [exact Ea|]. destruct Fa as [Na|(r' & Er & R)]; [congruence|]. rewrite Ea in Er. now injection Er as ->.
    - replace (128 * U * (n + A)) with (2 * D * 1) by (unfold D; ring).
      assert (D <= / 2) as D2 by (unfold D; nra).
      assert (Rsum (map (fun a => exp (- lse) * pr (v64 a)) row) = 1) as S1.
      { rewrite <- (map_map (fun a => pr (v64 a)) (Rmult (exp (- lse)))), Rsum_scale. unfold lse. rewrite exp_Ropp, exp_ln by exact SP. field. lra. }
      rewrite map_map. rewrite <- S1. apply Rsum_rel. clear - F H D2 Ee. clearbody D. set (L := lse) in *. clearbody L. induction row as [|a rest IH]; cbn [map]; [constructor|]. inversion F as [|? ? Fa F']; subst. constructor; [|now apply IH].
      destruct Fa as [Na|(r & Ea & Ra)].
      + assert (v64 (fsub a z) = NInf) as -> by (rewrite v64_sub, Na, Ee; reflexivity). rewrite Na. cbn [pr]. rewrite Rmult_0_r, Rmult_0_r, Rminus_0_r, Rabs_R0. lra.
      + destruct (H a r Ea Ra) as (t & -> & T). rewrite Ea. cbn [pr]. rewrite <- exp_plus. replace (- L + r) with (r - L) by ring.
        replace t with ((t - (r - L)) + (r - L)) at 1 by ring. rewrite exp_plus.
        replace (exp (t - (r - L)) * exp (r - L) - exp (r - L)) with ((exp (t - (r - L)) - 1) * exp (r - L)) by ring.
        pose proof (exp_pos (r - L)) as EP. rewrite Rabs_mult, (Rabs_pos_eq (exp (r - L))) by lra. apply Rmult_le_compat_r; [lra|]. now apply exp_near.
  Qed.
End Accuracy.
