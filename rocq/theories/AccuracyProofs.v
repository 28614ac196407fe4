(** How far variance, standard deviation and error bars in doubles are from
    the exact values. *)
From Coq Require Import Reals Lra Lia Permutation.
From Flocq Require Import Core BinarySingleNaN.
From Verif Require Import PyBase ListLemmas F64 Num F64Lemmas NumOk SumProofs Util UtilProofs BootUtil BootProofs2 PerfCurves MLPaper MLProofs CompareProofs
  SwapProofs MeanProofs DoublesProofs DoublesProofs2.
Open Scope R_scope.

(** ** Sums of squares *)
Definition sq_sum (c : R) (l : list f64) : R := Rsum (map (fun a => (B2R a - c) * (B2R a - c)) l).
Lemma sq_sum_cons c a l : sq_sum c (a :: l) = (B2R a - c) * (B2R a - c) + sq_sum c l.
Proof. apply Rsum_cons. Qed.
Lemma sq_sum_pos c l : 0 <= sq_sum c l.
Proof. induction l as [|a l IH]; [cbn; lra|]. rewrite sq_sum_cons. pose proof (Rle_0_sqr (B2R a - c)). unfold Rsqr in *. lra. Qed.
Lemma sq_sum_shift c d l : sq_sum c l = sq_sum d l + 2 * (d - c) * (Rsum (vals l) - INR (length l) * d) + INR (length l) * ((d - c) * (d - c)).
Proof.
  induction l as [|a l IH]; [unfold sq_sum, vals, Rsum; cbn; ring|]. rewrite !sq_sum_cons, IH. unfold vals. cbn [map length]. rewrite Rsum_cons. fold (vals l). rewrite S_INR. ring.
Qed.
Definition mid (l : list f64) : R := Rsum (vals l) / INR (length l).
Lemma sq_sum_mid c l : (1 <= length l)%nat -> sq_sum c l = sq_sum (mid l) l + INR (length l) * ((mid l - c) * (mid l - c)).
Proof.
  intros N. assert (1 <= INR (length l)) as P by (apply (le_INR 1); exact N). rewrite (sq_sum_shift c (mid l)).
  replace (Rsum (vals l) - INR (length l) * mid l) with 0 by (unfold mid; field; lra). ring.
Qed.

(** ** Rounding *)
Notation eta := (P2 (-1075)).
Lemma rnd_model x : exists t z, Rabs t <= u64 /\ Rabs z <= eta /\ rnd64 x = x * (1 + t) + z.
Proof.
  pose proof (rnd_err x) as H. pose proof u64_pos as U. pose proof (bpow_gt_0 radix2 (-1075)) as E.
  destruct (Req_EM_T x 0) as [->|N].
  - exists 0, (rnd64 0). rewrite rnd64_0, Rabs_R0. repeat split; lra.
  - assert (0 < Rabs x) as P by now apply Rabs_pos_lt. set (w := u64 * Rabs x + eta) in *. assert (0 < w) as W by (unfold w; nra).
    set (r := (rnd64 x - x) / w). assert (Rabs r <= 1) as R.
    { unfold r, Rdiv. rewrite Rabs_mult, Rabs_inv, (Rabs_pos_eq w) by lra. apply (Rmult_le_reg_r w); [exact W|]. rewrite Rmult_assoc, Rinv_l by lra. lra. }
    assert (rnd64 x - x = r * w) as Q by (unfold r; field; lra).
    exists (r * u64 * (Rabs x / x)), (r * eta). repeat split.
    + rewrite !Rabs_mult, (Rabs_pos_eq u64) by lra. unfold Rdiv. rewrite Rabs_mult, Rabs_Rabsolu, Rabs_inv, Rinv_r by lra. nra.
    + rewrite Rabs_mult, (Rabs_pos_eq eta) by lra. nra.
    + replace (rnd64 x) with (x + r * w) by lra. unfold w. field. exact N.
Qed.

(** ** The variance *)
Lemma u_val n : INR n <= MAXN -> 0 < u64 /\ u64 <= P2 (-23) /\ INR n * u64 <= P2 (-23) /\ P2 (-23) <= / 1024.
Proof.
  intros M. pose proof (maxn_u n M). split; [apply u64_pos|]. split; [apply bpow_le; lia|]. split; [assumption|].
  apply Rle_trans with (P2 (-10)); [apply bpow_le; lia|cbn; lra].
Qed.
Lemma xround_val r s : xround r = Fin s -> s = rnd64 r.
Proof. unfold xround. destruct (Rlt_bool _ _); [intros H; now injection H|]. destruct (Rltb r 0); discriminate. Qed.
(** one square *)
Lemma square_err (j : Z) (a m : f64) : bdd j a -> bdd j m -> (-500 <= j <= 460)%Z ->
  let t := (B2R a - B2R m) * (B2R a - B2R m) in
  let s := fmul (fsub a m) (fsub a m) in fisfin s = true /\ 0 <= B2R s /\ Rabs (B2R s - t) <= 5 * u64 * t + eta.
Proof.
  intros A M J t s. assert (nng (j + 1 + (j + 1)) s) as (r & Er & Br) by (apply nng_sq; [apply bdd_sub; auto; lia|lia]).
  apply v64_Fin in Er as [Fs Bs]. split; [exact Fs|]. split; [lra|].
  pose proof (bdd_sub j a m A M ltac:(lia)) as (d & Ed & Bd). pose proof (bdd_fin _ _ A) as Fa. pose proof (bdd_fin _ _ M) as Fm.
  assert (d = rnd64 (B2R a - B2R m)) as Hd.
  { pose proof Ed as Q. rewrite v64_sub, (v64_fin a Fa), (v64_fin m Fm) in Q. exact (xround_val _ _ Q). }
  assert (B2R s = rnd64 (d * d)) as Hs.
  { assert (v64 s = xround (d * d)) as Q by (unfold s; rewrite v64_mul, Ed; reflexivity). rewrite (v64_fin s Fs) in Q. exact (xround_val _ _ (eq_sym Q)). }
  set (y := B2R a - B2R m) in *.
  assert (Rabs (d - y) <= u64 * Rabs y) as E1.
  { rewrite Hd. replace y with (B2R a + B2R (Bopp m)) by (rewrite B2R_Bopp; reflexivity). apply rnd_add_err; apply B2R_format. }
  pose proof u64_pos as U. pose proof u64_small as U'.
  assert (Rabs (d * d - t) <= 3 * u64 * t) as E2.
  { replace (d * d - t) with ((d - y) * (2 * y + (d - y))) by (unfold t, y; ring). rewrite Rabs_mult.
    assert (Rabs (2 * y + (d - y)) <= (2 + u64) * Rabs y) as B. { eapply Rle_trans; [apply Rabs_triang|]. rewrite Rabs_mult, (Rabs_pos_eq 2) by lra. lra. }
    assert (t = Rabs y * Rabs y) as -> by (rewrite <- Rabs_mult; symmetry; apply Rabs_pos_eq; fold (Rsqr y); apply Rle_0_sqr).
    pose proof (Rabs_pos y). pose proof (Rabs_pos (d - y)). apply Rle_trans with (u64 * Rabs y * ((2 + u64) * Rabs y)); [apply Rmult_le_compat; auto using Rabs_pos|].
    replace (u64 * Rabs y * ((2 + u64) * Rabs y)) with ((2 + u64) * u64 * (Rabs y * Rabs y)) by ring. apply Rmult_le_compat_r; [nra|]. nra. }
  assert (0 <= t) as Pt by (unfold t; fold (Rsqr y); apply Rle_0_sqr).
  pose proof (rnd_err (d * d)) as E3. rewrite <- Hs in E3. assert (Rabs (d * d) <= (1 + 3 * u64) * t) as B.
  { replace (d * d) with (t + (d * d - t)) by ring. eapply Rle_trans; [apply Rabs_triang|]. rewrite (Rabs_pos_eq t) by exact Pt. lra. }
  replace (B2R s - t) with ((B2R s - d * d) + (d * d - t)) by ring. eapply Rle_trans; [apply Rabs_triang|].
  assert (u64 * Rabs (d * d) <= u64 * ((1 + 3 * u64) * t)) by (apply Rmult_le_compat_l; lra).
  assert (u64 * ((1 + 3 * u64) * t) <= 2 * u64 * t). { assert (0 <= u64 * t) by nra. replace (u64 * ((1 + 3 * u64) * t)) with ((1 + 3 * u64) * (u64 * t)) by ring. nra. } lra.
Qed.

Lemma squares_err (j : Z) (m : f64) l : Forall (bdd j) l -> bdd j m -> (-500 <= j <= 460)%Z ->
  let L := map (fun a => fmul (fsub a m) (fsub a m)) l in
  Forall (fun a => fisfin a = true) L /\ abs_sum L = Rsum (vals L) /\ Rabs (Rsum (vals L) - sq_sum (B2R m) l) <= 5 * u64 * sq_sum (B2R m) l + INR (length l) * eta.
Proof.
  intros F M J L. unfold L. clear L. induction F as [|a l A F (F1 & F2 & F3)].
  - split; [constructor|]. split; [reflexivity|]. unfold sq_sum, vals, Rsum. cbn. rewrite Rminus_0_r, Rabs_R0. lra.
  - destruct (square_err j a m A M J) as (G1 & G2 & G3). cbv zeta in G1, G2, G3. cbn [map length]. set (L := map _ l) in *. set (s := fmul _ _) in *.
    split; [now constructor|]. unfold abs_sum, vals in *. cbn [map]. rewrite !Rsum_cons, F2, sq_sum_cons, S_INR, (Rabs_pos_eq (B2R s)) by exact G2. split; [reflexivity|].
    set (t := (B2R a - B2R m) * (B2R a - B2R m)) in *. replace (B2R s + Rsum (map B2R L) - (t + sq_sum (B2R m) l)) with ((B2R s - t) + (Rsum (map B2R L) - sq_sum (B2R m) l)) by ring.
    eapply Rle_trans; [apply Rabs_triang|]. lra.
Qed.
Lemma sq_sum_bdd j m l : Forall (bdd j) l -> bdd j m -> INR (length l) <= MAXN -> sq_sum (B2R m) l <= P2 (j + j + 32).
Proof.
  intros F M N. replace (j + j + 32)%Z with (30 + ((j + 1) + (j + 1)))%Z by lia. rewrite bpow_plus. apply Rle_trans with (INR (length l) * P2 (j + 1 + (j + 1))); [|apply Rmult_le_compat_r; [apply bpow_ge_0|exact N]].
  clear N. induction F as [|a l A F IH]; [unfold sq_sum, Rsum; cbn; lra|]. rewrite sq_sum_cons. cbn [length]. rewrite S_INR.
  assert (Rabs (B2R a - B2R m) <= P2 (j + 1)) as D.
  { apply bdd_iff in A as [_ A], M as [_ M]. rewrite P2_S. eapply Rle_trans; [apply Rabs_triang|]. rewrite Rabs_Ropp. lra. }
  assert ((B2R a - B2R m) * (B2R a - B2R m) <= P2 (j + 1 + (j + 1))).
  { rewrite bpow_plus. set (y := B2R a - B2R m) in *. assert (y * y = Rabs y * Rabs y) as -> by (rewrite <- Rabs_mult; symmetry; apply Rabs_pos_eq; fold (Rsqr y); apply Rle_0_sqr).
    apply Rmult_le_compat; auto using Rabs_pos. }
  lra.
Qed.
Lemma var_err (d j : Z) (x : list f64) : (0 <= d <= 1)%Z -> (2 <= length x)%nat -> INR (length x) <= MAXN -> Forall (bdd j) x -> (-400 <= j <= 460)%Z ->
  let n := INR (length x) in let V := sq_sum (B2R (nmean x)) x / (n - IZR d) in
  fisfin (nvar d x) = true /\ 0 <= B2R (nvar d x) /\ Rabs (B2R (nvar d x) - V) <= (2 * n + 8) * u64 * V + 8 * eta.
Proof.
  intros D N M F J n V. pose proof (maxn_Z _ M) as MZ.
  destruct (nng_var d j x D ltac:(lia) M F ltac:(lia)) as (v & Ev & Bv). destruct (v64_Fin _ _ Ev) as [Fv Hv]. split; [exact Fv|]. split; [lra|].
  assert (bdd j (nmean x)) as Bm by (apply bdd_mean; auto; lia).
  unfold nvar in Ev. cbn [nmul nsub ndiv nofZ f64_num] in Ev. set (m := nmean x) in *. set (L := map (fun a => fmul (fsub a m) (fsub a m)) x) in *.
  destruct (squares_err j m x F Bm ltac:(lia)) as (F1 & F2 & F3). fold L in F1, F2, F3. set (T := sq_sum (B2R m) x) in *. clearbody m.
  assert (0 <= T) as PT by apply sq_sum_pos. assert (T <= P2 (j + j + 32)) as UT by (apply sq_sum_bdd; auto).
  pose proof (bpow_gt_0 radix2 (-1075)) as Pe. destruct (u_val _ M) as (U1 & U2 & U3 & U4). fold n in U3, F3. pose proof (pos_INR (length x)) as Pn. fold n in Pn.
  assert (n <= P2 30) as Mn by exact M.
  assert (n * eta <= P2 0) as Ne. { apply Rle_trans with (P2 30 * eta); [apply Rmult_le_compat_r; lra|]. rewrite <- bpow_plus. apply bpow_le. lia. }
  assert (abs_sum L <= P2 990) as AL.
  { rewrite F2. apply Rabs_le_inv in F3. assert (5 * u64 * T <= T) by nra. apply Rle_trans with (P2 (j + j + 32) + P2 (j + j + 32) + P2 0); [lra|].
    assert (P2 (j + j + 32) <= P2 980) by (apply bpow_le; lia). assert (P2 0 <= P2 980) by (apply bpow_le; lia). assert (P2 990 = 1024 * P2 980) as -> by (change 1024 with (P2 10); now rewrite <- bpow_plus).
    pose proof (bpow_gt_0 radix2 980). lra. }
  assert (length L = length x) as LL by (unfold L; apply map_length).
  destruct (sums_err L (psum L) (psum_sums L) F1 ltac:(now rewrite LL) AL) as [Fs Es]. rewrite LL, F2 in Es.
  set (A := Rsum (vals L)) in *. set (p := psum L) in *. clearbody p.
  assert ((1 + u64) ^ Nat.pred (length x) - 1 <= 2 * n * u64) as PU.
  { assert (INR (Nat.pred (length x)) <= n) as Q by (apply le_INR; lia). assert (INR (Nat.pred (length x)) * u64 <= n * u64) by (apply Rmult_le_compat_r; lra). pose proof (pow_up (Nat.pred (length x)) ltac:(lra)). lra. }
  assert (0 <= A) as PA by (rewrite <- F2; apply abs_sum_pos).
  assert (Rabs (B2R p - A) <= 2 * n * u64 * A) as Es'. { eapply Rle_trans; [exact Es|]. apply Rmult_le_compat_r; assumption. }
  assert (Rabs (B2R p - T) <= (2 * n + 6) * u64 * T + 2 * n * eta) as EP.
  { replace (B2R p - T) with ((B2R p - A) + (A - T)) by ring. eapply Rle_trans; [apply Rabs_triang|].
    assert (A <= (1 + 5 * u64) * T + n * eta) as UA by (apply Rabs_le_inv in F3; lra).
    assert (2 * n * u64 * A <= 2 * n * u64 * ((1 + 5 * u64) * T + n * eta)) as Q by (apply Rmult_le_compat_l; [nra|exact UA]).
    assert (2 * n * u64 * ((1 + 5 * u64) * T + n * eta) = 2 * n * u64 * T + 10 * (n * u64) * (u64 * T) + 2 * (n * u64) * (n * eta)) as Q2 by ring.
    assert (0 <= u64 * T) by nra. assert (0 <= n * eta) by nra. assert (10 * (n * u64) * (u64 * T) <= 1 * (u64 * T)) by (apply Rmult_le_compat_r; lra).
    assert (2 * (n * u64) * (n * eta) <= 1 * (n * eta)) by (apply Rmult_le_compat_r; lra). lra. }
  assert (IZR (Z.max (Z.of_nat (length x) - d) 0) = n - IZR d) as Ek by (rewrite Z.max_l, minus_IZR, <- INR_IZR_INZ by lia; reflexivity).
  destruct (f_of_Z_correct (Z.max (Z.of_nat (length x) - d) 0)) as [VN FN]; [lia|]. rewrite Ek in VN.
  assert (2 <= n) as N2 by (apply (le_INR 2); exact N). assert (0 <= IZR d <= 1) as Dd by (split; apply IZR_le; lia). set (k := n - IZR d) in *. assert (1 <= k) as K1 by (unfold k; lra). assert (n <= 2 * k) as K2 by (unfold k; lra).
  rewrite v64_div_fin in Ev; [|exact Fs|lra]. rewrite VN in Ev. apply xround_val in Ev. rewrite Hv, Ev.
  assert (Rabs (B2R p / k - V) <= (2 * n + 6) * u64 * V + 4 * eta) as ED.
  { unfold V. fold T. replace (B2R p / k - T / k) with ((B2R p - T) * / k) by (unfold Rdiv; ring). assert (0 < / k) as Ik by (apply Rinv_0_lt_compat; lra). rewrite Rabs_mult, (Rabs_pos_eq (/ k)) by lra.
    apply Rle_trans with (((2 * n + 6) * u64 * T + 2 * n * eta) * / k); [apply Rmult_le_compat_r; lra|].
    assert (n * / k <= 2) by (apply (Rmult_le_reg_r k); [lra|]; rewrite Rmult_assoc, Rinv_l by lra; lra).
    replace (((2 * n + 6) * u64 * T + 2 * n * eta) * / k) with ((2 * n + 6) * u64 * (T / k) + 2 * (n * / k) * eta) by (unfold Rdiv; ring). nra. }
  assert (0 <= V) as PV by (unfold V; apply Rmult_le_pos; [exact PT|apply Rlt_le, Rinv_0_lt_compat; lra]).
  pose proof (rnd_err (B2R p / k)) as ER. set (q := B2R p / k) in *. set (E := (2 * n + 6) * u64) in *.
  assert (0 <= E <= / 4) as BE by (unfold E; nra).
  assert (Rabs q <= (1 + E) * V + 4 * eta) as BQ. { replace q with (V + (q - V)) by ring. eapply Rle_trans; [apply Rabs_triang|]. rewrite (Rabs_pos_eq V) by exact PV. lra. }
  replace (rnd64 q - V) with ((rnd64 q - q) + (q - V)) by ring. eapply Rle_trans; [apply Rabs_triang|].
  assert (u64 * Rabs q <= u64 * ((1 + E) * V + 4 * eta)) as Q by (apply Rmult_le_compat_l; lra).
  assert (u64 * ((1 + E) * V + 4 * eta) = u64 * V + E * (u64 * V) + 4 * u64 * eta) as Q2 by ring. assert (0 <= u64 * V) by nra.
  assert (E * (u64 * V) <= 1 * (u64 * V)) by (apply Rmult_le_compat_r; lra). assert (4 * u64 * eta <= 1 * eta) by (apply Rmult_le_compat_r; lra).
  replace ((2 * n + 8) * u64 * V) with (E * V + 2 * (u64 * V)) by (unfold E; ring). lra.
Qed.

(** ** The standard deviation *)
Definition dev (d : Z) (x : list f64) : R := sqrt (sq_sum (mid x) x / (INR (length x) - IZR d)).
Lemma sq_le a b : 0 <= b -> a * a <= b * b -> a <= b.
Proof. intros B H. apply Rsqr_incr_0_var; assumption. Qed.
Lemma sqrt_err v V E z : 0 <= v -> 0 <= V -> 0 <= E <= 1 -> 0 <= z -> Rabs (v - V) <= E * V + z * z -> Rabs (sqrt v - sqrt V) <= E * sqrt V + z.
Proof.
  intros Pv PV BE Pz H. apply Rabs_le_inv in H. pose proof (sqrt_pos v). pose proof (sqrt_pos V). pose proof (sqrt_sqrt v Pv) as Sv. pose proof (sqrt_sqrt V PV) as SV.
  set (r := sqrt v) in *. set (S := sqrt V) in *. clearbody r S. subst v V. assert (0 <= S * S) by nra. assert (0 <= E * S) by nra. assert (E * E <= E) by nra. assert (0 <= E * (S * S)) by nra.
  apply Rabs_le. split.
  - assert ((1 - E) * S <= r + z); [|lra]. apply sq_le; [lra|].
    assert ((1 - E) * S * ((1 - E) * S) <= (1 - E) * (S * S)). { replace ((1 - E) * S * ((1 - E) * S)) with ((1 - E) * ((1 - E) * (S * S))) by ring. apply Rmult_le_compat_l; [lra|]. lra. }
    assert (0 <= r * z) by nra. replace ((r + z) * (r + z)) with (r * r + 2 * (r * z) + z * z) by ring. lra.
  - assert (r <= (1 + E) * S + z); [|lra]. assert (0 <= (1 + E) * S) by nra. apply sq_le; [lra|].
    replace (((1 + E) * S + z) * ((1 + E) * S + z)) with ((1 + 2 * E + E * E) * (S * S) + 2 * ((1 + E) * S * z) + z * z) by ring.
    assert (0 <= (1 + E) * S * z) by (apply Rmult_le_pos; assumption). assert (0 <= E * E * (S * S)) by (apply Rmult_le_pos; nra). lra.
Qed.

Lemma std_err (FT : fn f64) (d j : Z) (x : list f64) : @nsqrt _ FT = fsqrt -> (0 <= d <= 1)%Z -> (2 <= length x)%nat -> INR (length x) <= MAXN -> Forall (bdd j) x -> (-400 <= j <= 460)%Z ->
  let n := INR (length x) in
  fisfin (nstd d x) = true /\ 0 <= B2R (nstd d x) /\
  Rabs (B2R (nstd d x) - dev d x) <= (n + 5) * P2 (-52) * dev d x + 3 * (n + 1) * P2 (-52) * (abs_sum x / n) + P2 (-534).
Proof.
  intros SQ D N M F J n. destruct (var_err d j x D N M F J) as (Fv & Pv & Ev). cbv zeta in Ev. fold n in Ev. unfold nstd. rewrite SQ. set (v := nvar d x) in *.
  pose proof (v64_sqrt v _ (v64_fin v Fv) Pv) as Es. apply v64_Fin in Es as [Fs Bs]. split; [exact Fs|].
  assert (Forall (fun a => fisfin a = true) x) as Ff by (eapply Forall_impl; [|exact F]; intros a; apply bdd_fin).
  assert (abs_sum x <= P2 990) as AS.
  { apply Rle_trans with (P2 30 * P2 j); [|rewrite <- bpow_plus; apply bpow_le; lia]. apply Rle_trans with (INR (length x) * P2 j); [|apply Rmult_le_compat_r; [apply bpow_ge_0|exact M]].
    clear - F. unfold abs_sum, vals. induction F as [|a l A F IH]; [unfold Rsum; cbn; lra|]. cbn [map length]. rewrite Rsum_cons, S_INR. apply bdd_iff in A as [_ A]. lra. }
  destruct (mean_err x ltac:(lia) M Ff AS) as [Fm Em]. cbv zeta in Em. fold n in Em. change (Rsum (vals x) / n) with (mid x) in Em. set (m := nmean x) in *. clearbody m v.
  destruct (u_val _ M) as (U1 & U2 & U3 & U4). fold n in U3. assert (2 <= n) as N2 by (apply (le_INR 2); exact N). assert (0 <= IZR d <= 1) as Dd by (split; apply IZR_le; lia).
  unfold dev. fold n. set (k := n - IZR d) in *. assert (1 <= k) as K1 by (unfold k; lra). assert (n <= 2 * k) as K2 by (unfold k; lra). assert (0 < / k) as Ik by (apply Rinv_0_lt_compat; lra).
  assert (n * / k <= 2) as NK by (apply (Rmult_le_reg_r k); [lra|]; rewrite Rmult_assoc, Rinv_l by lra; lra).
  assert (0 <= n * / k) as NK0 by (apply Rmult_le_pos; lra).
  pose proof (sq_sum_mid (B2R m) x ltac:(lia)) as SM. fold n in SM. pose proof (sq_sum_pos (mid x) x) as P0. set (V := sq_sum (B2R m) x / k) in *. set (W := sq_sum (mid x) x / k).
  set (e := mid x - B2R m) in *. assert (V = W + n * / k * (e * e)) as VW by (unfold V, W; rewrite SM; unfold Rdiv; ring).
  assert (0 <= W) as PW by (unfold W; apply Rmult_le_pos; lra). assert (0 <= e * e) as Pee by nra. assert (0 <= n * / k * (e * e)) as Pke by (apply Rmult_le_pos; assumption). assert (0 <= V) as PV by lra.
  set (dl := Rabs e). assert (e * e = dl * dl) as Edl by (unfold dl; rewrite <- Rabs_mult; symmetry; apply Rabs_pos_eq; exact Pee). assert (0 <= dl) as Pdl by apply Rabs_pos.
  assert (dl <= (n + 1) * P2 (-52) * (abs_sum x / n) + eta) as Udl by (unfold dl, e; rewrite Rabs_minus_sym; exact Em).
  set (E := (2 * n + 8) * u64) in *. assert (0 <= E <= / 4) as BE by (unfold E; nra).
  assert (P2 (-536) * P2 (-536) = 8 * eta) as Z8 by (change 8 with (P2 3); rewrite <- !bpow_plus; reflexivity).
  pose proof (bpow_gt_0 radix2 (-536)) as Pz. pose proof (bpow_gt_0 radix2 (-1075)) as Pe. set (z := P2 (-536)) in *.
  assert (Rabs (sqrt (B2R v) - sqrt V) <= E * sqrt V + z) as R1 by (apply sqrt_err; lra).
  pose proof (sqrt_pos V) as PS. pose proof (sqrt_pos W) as Pw. pose proof (sqrt_pos (B2R v)) as Pr.
  assert (sqrt W <= sqrt V) as L1 by (apply sqrt_le_1; lra).
  assert (sqrt V <= sqrt W + 2 * dl) as L2.
  { apply sq_le; [lra|]. rewrite sqrt_sqrt by exact PV. replace ((sqrt W + 2 * dl) * (sqrt W + 2 * dl)) with (sqrt W * sqrt W + 4 * (sqrt W * dl) + 4 * (dl * dl)) by ring. rewrite sqrt_sqrt by exact PW.
    assert (0 <= sqrt W * dl) by (apply Rmult_le_pos; lra). assert (n * / k * (e * e) <= 2 * (e * e)) by (apply Rmult_le_compat_r; assumption). lra. }
  set (r := sqrt (B2R v)) in *. set (S := sqrt V) in *. set (sg := sqrt W) in *. clearbody S sg r. 
  pose proof (rnd_err r) as R2. rewrite (Rabs_pos_eq r) in R2 by exact Pr. rewrite Bs. split.
  { apply rnd64_ge; [apply format64_0|exact Pr]. }
  assert (r <= (1 + E) * S + z) as Ur by (apply Rabs_le_inv in R1; lra).
  assert (u64 * r <= u64 * ((1 + E) * S + z)) as Q1 by (apply Rmult_le_compat_l; lra). assert (0 <= u64 * S) by (apply Rmult_le_pos; lra).
  assert (u64 * ((1 + E) * S + z) <= 2 * (u64 * S) + u64 * z) as Q2.
  { replace (u64 * ((1 + E) * S + z)) with ((1 + E) * (u64 * S) + u64 * z) by ring. apply Rplus_le_compat_r. apply Rmult_le_compat_r; lra. }
  assert (u64 * z <= / 1024 * z) as Q3 by (apply Rmult_le_compat_r; lra).
  assert (eta <= / 1024 * z) as Q4. { replace (/ 1024) with (P2 (-10)) by (cbn; lra). unfold z. rewrite <- bpow_plus. apply bpow_le. lia. }
  assert (P2 (-534) = 4 * z) as -> by (change 4 with (P2 2); unfold z; now rewrite <- bpow_plus).
  assert ((n + 5) * P2 (-52) = E + 2 * u64) as ->. { assert (P2 (-52) = 2 * u64) as -> by (unfold u64; change 2 with (P2 1); now rewrite <- bpow_plus). unfold E. ring. }
  set (E' := E + 2 * u64). assert (0 <= E' <= / 2) as BE' by (unfold E'; lra).
  assert (E' * S <= E' * (sg + 2 * dl)) as Q5 by (apply Rmult_le_compat_l; lra). assert (E' * dl <= / 2 * dl) by (apply Rmult_le_compat_r; lra).
  replace (rnd64 r - sg) with ((rnd64 r - r) + ((r - S) + (S - sg))) by ring.
  eapply Rle_trans; [apply Rabs_triang|]. eapply Rle_trans; [apply Rplus_le_compat_l, Rabs_triang|]. rewrite (Rabs_pos_eq (S - sg)) by lra.
  replace (E' * (sg + 2 * dl)) with (E' * sg + 2 * (E' * dl)) in Q5 by ring. replace (E' * S) with (E * S + 2 * (u64 * S)) in Q5 by (unfold E'; ring).
  replace (3 * (n + 1) * P2 (-52) * (abs_sum x / n)) with (3 * ((n + 1) * P2 (-52) * (abs_sum x / n))) by ring. lra.
Qed.

(** ** Factors close to one *)
Definition near (k a : R) : Prop := Rabs (a - 1) <= k * u64.
Lemma near_1 t : Rabs t <= u64 -> near 1 (1 + t).
Proof. intros H. unfold near. replace (1 + t - 1) with t by ring. lra. Qed.
Lemma near_mul k m a b : 0 <= k <= 30 -> 0 <= m <= 30 -> near k a -> near m b -> near (k + m + 1) (a * b).
Proof.
  unfold near. intros K M A B. replace (a * b - 1) with ((a - 1) + (b - 1) + (a - 1) * (b - 1)) by ring. eapply Rle_trans; [apply Rabs_triang|].
  eapply Rle_trans; [apply Rplus_le_compat_r, Rabs_triang|]. rewrite Rabs_mult. pose proof (Rabs_pos (a - 1)). pose proof (Rabs_pos (b - 1)).
  assert (Rabs (a - 1) * Rabs (b - 1) <= k * u64 * (m * u64)) by (apply Rmult_le_compat; assumption).
  assert (k * u64 * (m * u64) <= 1 * u64); [|lra]. pose proof u64_pos. assert (u64 <= / 1024) as U by apply u64_small.
  replace (k * u64 * (m * u64)) with (k * m * u64 * u64) by ring. apply Rmult_le_compat_r; [lra|]. assert (k * m <= 900) by nra. nra.
Qed.
Lemma near_inv k a : 0 <= k <= 30 -> near k a -> near (k + 1) (/ a) /\ 0 < a.
Proof.
  unfold near. intros K A. pose proof u64_pos. assert (u64 <= / 1024) as U by apply u64_small. assert (k * u64 <= 30 * / 1024) as Q by (apply Rmult_le_compat; lra).
  apply Rabs_le_inv in A. assert (0 < a) as P by lra. split; [|exact P]. assert (/ a - 1 = (1 - a) * / a) as -> by (field; lra). rewrite Rabs_mult, Rabs_inv, (Rabs_pos_eq a) by lra.
  apply (Rmult_le_reg_r a); [exact P|]. rewrite Rmult_assoc, Rinv_l, Rmult_1_r by lra. assert (Rabs (1 - a) <= k * u64) by (apply Rabs_le; lra).
  eapply Rle_trans; [eassumption|]. assert (0 <= k * u64) by nra. 
  assert (k * u64 * (k * u64) <= / 30 * (k * u64)) by (apply Rmult_le_compat_r; lra).
  assert ((k + 1) * u64 * (1 - k * u64) <= (k + 1) * u64 * a) by (apply Rmult_le_compat_l; [nra|lra]). nra.
Qed.
Lemma near_pos k a : 0 <= k <= 30 -> near k a -> 0 < a <= 2.
Proof.
  unfold near. intros K A. pose proof u64_pos. assert (u64 <= / 1024) as U by apply u64_small. assert (k * u64 <= 30 * / 1024) as Q by (apply Rmult_le_compat; lra).
  apply Rabs_le_inv in A. lra.
Qed.
Lemma near_low k a : 0 <= k <= 30 -> near k a -> / 2 <= a.
Proof.
  unfold near. intros K A. pose proof u64_pos. assert (u64 <= / 1024) as U by apply u64_small. assert (k * u64 <= 30 * / 1024) as Q by (apply Rmult_le_compat; lra).
  apply Rabs_le_inv in A. lra.
Qed.
(** the rounded square root of a number from 1 on *)
Lemma sqrt_near r : 1 <= r -> exists q, near 2 q /\ rnd64 (sqrt r) = sqrt r * q.
Proof.
  intros R. assert (1 <= sqrt r) as S by (rewrite <- sqrt_1; apply sqrt_le_1; lra). pose proof (rnd_err (sqrt r)) as H. rewrite (Rabs_pos_eq (sqrt r)) in H by lra.
  exists (rnd64 (sqrt r) / sqrt r). split; [|field; lra]. unfold near. replace (rnd64 (sqrt r) / sqrt r - 1) with ((rnd64 (sqrt r) - sqrt r) * / sqrt r) by (field; lra).
  assert (0 < / sqrt r) by (apply Rinv_0_lt_compat; lra). rewrite Rabs_mult, (Rabs_pos_eq (/ sqrt r)) by lra. apply (Rmult_le_reg_r (sqrt r)); [lra|]. rewrite Rmult_assoc, Rinv_l, Rmult_1_r by lra.
  assert (eta <= u64) by (apply bpow_le; lia). pose proof u64_pos. nra.
Qed.

Lemma rel_near r : P2 (-500) <= r -> exists q, near 2 q /\ rnd64 r = r * q.
Proof.
  intros R. pose proof (bpow_gt_0 radix2 (-500)) as P. pose proof (rnd_err r) as H. rewrite (Rabs_pos_eq r) in H by lra.
  exists (rnd64 r / r). split; [|field; lra]. unfold near. replace (rnd64 r / r - 1) with ((rnd64 r - r) * / r) by (field; lra).
  assert (0 < / r) by (apply Rinv_0_lt_compat; lra). rewrite Rabs_mult, (Rabs_pos_eq (/ r)) by lra. apply (Rmult_le_reg_r r); [lra|]. rewrite Rmult_assoc, Rinv_l, Rmult_1_r by lra.
  assert (eta <= u64 * P2 (-500)) by (unfold u64; rewrite <- bpow_plus; apply bpow_le; lia). pose proof u64_pos. assert (u64 * P2 (-500) <= u64 * r) by (apply Rmult_le_compat_l; lra). lra.
Qed.
Lemma near_sqrt k q : 0 <= k <= 30 -> near k q -> near k (sqrt q).
Proof.
  intros K Q. pose proof (near_pos k q K Q) as P. unfold near in *. pose proof (sqrt_pos q) as S. pose proof (sqrt_sqrt q ltac:(lra)) as SS. set (s := sqrt q) in *. clearbody s. subst q.
  replace (s * s - 1) with ((s - 1) * (s + 1)) in Q by ring. rewrite Rabs_mult, (Rabs_pos_eq (s + 1)) in Q by lra. pose proof (Rabs_pos (s - 1)). nra.
Qed.

Lemma add_near a b : format64 a -> format64 b -> exists q, near 1 q /\ rnd64 (a + b) = (a + b) * q.
Proof.
  intros A B. pose proof (rnd_add_err a b A B) as R. destruct (Req_EM_T (a + b) 0) as [Z|Z].
  - exists 1. split; [unfold near; rewrite Rminus_eq_0, Rabs_R0; pose proof u64_pos; lra|]. rewrite Z, rnd64_0. ring.
  - exists (rnd64 (a + b) / (a + b)). split; [|field; exact Z]. unfold near. replace (rnd64 (a + b) / (a + b) - 1) with ((rnd64 (a + b) - (a + b)) * / (a + b)) by (field; exact Z).
    assert (0 < Rabs (a + b)) as P by now apply Rabs_pos_lt. rewrite Rabs_mult, Rabs_inv. apply (Rmult_le_reg_r (Rabs (a + b))); [exact P|]. rewrite Rmult_assoc, Rinv_l, Rmult_1_r by lra. lra.
Qed.
(** the difference of two doubles *)
Lemma diff_near (a b : f64) wh : v64 (fsub a b) = Fin wh -> 0 <= wh -> let w := B2R a - B2R b in 0 <= w /\ exists q, near 1 q /\ wh = w * q.
Proof.
  intros E P w. pose proof E as Q. rewrite v64_sub in Q. destruct (v64 a) as [ra| | |] eqn:Ea, (v64 b) as [rb| | |] eqn:Eb; try discriminate Q. apply xround_val in Q.
  apply v64_Fin in Ea as [Fa <-], Eb as [Fb <-]. fold w in Q.
  assert (Rabs (wh - w) <= u64 * Rabs w) as R.
  { rewrite Q. replace w with (B2R a + B2R (Bopp b)) by (rewrite B2R_Bopp; reflexivity). apply rnd_add_err; apply B2R_format. }
  pose proof u64_pos as U. assert (u64 <= / 1024) as U' by apply u64_small.
  assert (0 <= w) as W. { apply Rnot_lt_le. intros L. rewrite (Rabs_left w) in R by exact L. apply Rabs_le_inv in R. nra. }
  split; [exact W|]. rewrite (Rabs_pos_eq w) in R by exact W. destruct (Req_EM_T w 0) as [Z|Z].
  - exists 1. split; [unfold near; rewrite Rminus_eq_0, Rabs_R0; lra|]. rewrite Z, Rmult_0_r, Rminus_0_r in R. rewrite Z. apply Rabs_le_inv in R. lra.
  - exists (wh / w). split; [|field; exact Z]. unfold near. replace (wh / w - 1) with ((wh - w) * / w) by (field; exact Z).
    assert (0 < / w) by (apply Rinv_0_lt_compat; lra). rewrite Rabs_mult, (Rabs_pos_eq (/ w)) by lra. apply (Rmult_le_reg_r w); [lra|]. rewrite Rmult_assoc, Rinv_l, Rmult_1_r by lra. lra.
Qed.

(** a product with an accurate standard deviation *)
Lemma scaled_err s sg E g k q z : 0 <= k <= 30 -> 0 <= g -> 0 <= sg -> Rabs (s - sg) <= E -> near k q -> Rabs (s * g * q + z - g * sg) <= g * (E + k * u64 * E + k * u64 * sg) + Rabs z.
Proof.
  intros K G S H Q. replace (s * g * q + z - g * sg) with (g * ((s - sg) + (q - 1) * (s - sg) + (q - 1) * sg) + z) by ring.
  eapply Rle_trans; [apply Rabs_triang|]. apply Rplus_le_compat_r. rewrite Rabs_mult, (Rabs_pos_eq g) by exact G. apply Rmult_le_compat_l; [exact G|].
  eapply Rle_trans; [apply Rabs_triang|]. eapply Rle_trans; [apply Rplus_le_compat_r, Rabs_triang|]. rewrite !Rabs_mult, (Rabs_pos_eq sg) by exact S. unfold near in Q.
  pose proof (Rabs_pos (q - 1)). pose proof (Rabs_pos (s - sg)). assert (Rabs (q - 1) * Rabs (s - sg) <= k * u64 * E) by (apply Rmult_le_compat; assumption).
  assert (Rabs (q - 1) * sg <= k * u64 * sg) by (apply Rmult_le_compat_r; assumption). lra.
Qed.

Section Library.
  Context (fexp flog : f64 -> f64) (sf ppf : Z -> f64 -> f64) (eig : f64 -> f64 -> option (f64 * f64)).
  Context (GL : good_library fexp flog sf ppf eig).
  Notation lib := (fn_f64 fexp flog sf ppf eig).
  Notation LBq c n := (ppf (Z.of_nat n - 1) (fdiv (fsub (f_of_Z 1) c) (f_of_Z 2))).
  Notation UBq c n := (ppf (Z.of_nat n - 1) (fdiv (fadd (f_of_Z 1) c) (f_of_Z 2))).

  Lemma t_EB_err (j : Z) (x : list f64) c e : (2 <= length x)%nat -> INR (length x) <= MAXN -> Forall (bdd j) x -> (-400 <= j <= 460)%Z -> conf_ok c ->
    @t_EB _ _ lib x c = Ok e ->
    let n := INR (length x) in let w := B2R (UBq c (length x)) - B2R (LBq c (length x)) in let g := w / (2 * sqrt n) in
    fisfin e = true /\ 0 <= w /\ Rabs (B2R e - g * dev 1 x) <= g * ((n + 12) * P2 (-52) * (dev 1 x + 3 * (abs_sum x / n)) + P2 (-500)) + P2 (-1074).
  Proof.
    intros N M F J C H n w g. unfold t_EB in H. apply assert_ok in H as [_ H]. apply assert_ok in H as [_ H]. rewrite (degenerate_fin x (bdd_all _ _ F)) in H.
    destruct (Z.leb_spec (Z.of_nat (length x)) 1) as [S|S]; [lia|]. cbv zeta in H. apply assert_ok in H as [_ H]. apply assert_ok in H as [_ H]. apply Ok_inj in H.
    cbn [t_ppf fn_f64 ndiv nsub nadd n1 nofZ nmul nsqrt f64_num] in H.
    destruct (quantiles _ _ _ _ _ GL c (Z.of_nat (length x) - 1) C ltac:(lia)) as [_ (wh & Ew & Bw)]. cbv zeta in Ew.
    destruct (diff_near _ _ _ Ew (proj1 Bw)) as (W & qw & Nw & Hw). fold w in W, Hw. set (D := fsub (ppf _ _) (ppf _ _)) in *. clearbody D. clearbody w.
    assert (nng (j + 16) (@nstd _ _ lib 1 x)) as Ns by (apply nng_std; auto; lia).
    destruct (std_err lib 1 j x eq_refl ltac:(lia) N M F J) as (Fs & Ps & Es). cbv zeta in Es. fold n in Es. set (st := @nstd _ _ lib 1 x) in *. clearbody st.
    destruct (sqrt_len x ltac:(lia) M) as (nh & En & Hn). pose proof (v64_sqrt _ _ (len_val x M) (pos_INR _)) as En'. rewrite En in En'. injection En' as En'.
    assert (2 <= n) as N2 by (apply (le_INR 2); exact N). destruct (sqrt_near n ltac:(lra)) as (qn & Nn & Hq). fold n in En'. rewrite Hq in En'. clear Hq.
    destruct (near_inv 2 qn ltac:(lra) Nn) as [Ni Pq]. pose proof (sqrt_lt_R0 n ltac:(lra)) as Psn.
    pose proof (nng_div (j + 16) st (fsqrt (lenT x)) nh Ns En Hn ltac:(lia)) as Nd. apply v64_Fin in En as [Fn Bn].
    set (d := fdiv st (fsqrt (lenT x))) in *. assert (v64 d = xround (B2R st / nh)) as Ed by (unfold d; rewrite v64_div_fin; [now rewrite Bn|exact Fs|lra]). clearbody d.
    destruct half_val as [Vh Fh]. pose proof (v64_fin (nhalf : f64) Fh) as Eh. rewrite Vh in Eh.
    assert (nng (j + 16) (fmul nhalf d)) as Nh.
    { destruct Nd as (r & Er & Br). destruct (rnd_nng (/ 2 * r) (j + 16)) as [Q1 Q2]; [lra|lia|]. exists (rnd64 (/ 2 * r)). split; [|exact Q2]. rewrite v64_mul, Eh, Er. exact Q1. }
    assert (nng (j + 16 + 101) (fmul (fmul nhalf d) D)) as Ne by (apply nng_mul; [exact Nh|now exists wh|lia]).
    destruct Nd as (r1 & E1 & B1), Nh as (r2 & E2 & B2), Ne as (r3 & E3 & B3). rewrite E1 in Ed. apply eq_sym, xround_val in Ed.
    pose proof E2 as Q2. rewrite v64_mul, Eh, E1 in Q2. apply xround_val in Q2. pose proof E3 as Q3. rewrite v64_mul, E2, Ew in Q3. apply xround_val in Q3.
    rewrite H in E3. apply v64_Fin in E3 as [Fe Be]. split; [exact Fe|]. split; [exact W|]. rewrite Be.
    destruct (rnd_model (B2R st / nh)) as (t1 & z1 & T1 & Z1 & M1). destruct (rnd_model (/ 2 * r1)) as (t2 & z2 & T2 & Z2 & M2). destruct (rnd_model (r2 * wh)) as (t3 & z3 & T3 & Z3 & M3).
    rewrite M1 in Ed. rewrite M2 in Q2. rewrite M3 in Q3. clear M1 M2 M3. apply near_1 in T1, T2, T3.
    set (a1 := 1 + t1) in *. set (a2 := 1 + t2) in *. set (a3 := 1 + t3) in *. clearbody a1 a2 a3.
    assert (near 3 (a1 * a2)) as A2 by (replace 3 with (1 + 1 + 1) by lra; apply near_mul; auto; lra).
    assert (near 7 (a1 * a2 * / qn)) as A3 by (replace 7 with (3 + (2 + 1) + 1) by lra; apply near_mul; auto; lra).
    assert (near 9 (a1 * a2 * / qn * qw)) as A4 by (replace 9 with (7 + 1 + 1) by lra; apply near_mul; auto; lra).
    assert (near 11 (a1 * a2 * / qn * qw * a3)) as A5 by (replace 11 with (9 + 1 + 1) by lra; apply near_mul; auto; lra).
    pose proof (near_pos 1 a2 ltac:(lra) T2) as P2'. pose proof (near_pos 1 qw ltac:(lra) Nw) as P4'. pose proof (near_pos 1 a3 ltac:(lra) T3) as P5'.
    set (z := (/ 2 * z1 * a2 + z2) * (w * (qw * a3)) + z3).
    assert (r3 = B2R st * g * (a1 * a2 * / qn * qw * a3) + z) as ->.
    { rewrite Q3, Q2, Ed, Hw, En'. unfold g, z. field. lra. }
    assert (0 <= g) as PG by (unfold g; apply Rmult_le_pos; [exact W|apply Rlt_le, Rinv_0_lt_compat; lra]).
    pose proof (sqrt_pos (sq_sum (mid x) x / (INR (length x) - IZR 1))) as Pd. change (0 <= dev 1 x) in Pd.
    pose proof (scaled_err _ _ _ g 11 _ z ltac:(lra) PG Pd Es A5) as SE. eapply Rle_trans; [exact SE|]. clear SE Es A2 A3 A4 A5.
    assert (Rabs z <= 8 * eta * w + eta) as Bz.
    { unfold z. eapply Rle_trans; [apply Rabs_triang|]. apply Rplus_le_compat; [|exact Z3]. rewrite Rabs_mult.
      assert (0 <= qw * a3 <= 4) as PQ by nra. rewrite (Rabs_pos_eq (w * (qw * a3))) by (apply Rmult_le_pos; lra).
      assert (Rabs (/ 2 * z1 * a2 + z2) <= 2 * eta) as BB.
      { eapply Rle_trans; [apply Rabs_triang|]. rewrite !Rabs_mult, (Rabs_pos_eq (/ 2)), (Rabs_pos_eq a2) by lra. pose proof (Rabs_pos z1). nra. }
      pose proof (Rabs_pos (/ 2 * z1 * a2 + z2)). pose proof (bpow_gt_0 radix2 (-1075)). apply Rle_trans with (2 * eta * (w * 4)); [|lra].
      apply Rmult_le_compat; [assumption|apply Rmult_le_pos; lra|exact BB|apply Rmult_le_compat_l; lra]. }
    assert (sqrt n <= P2 15) as U15.
    { rewrite <- (sqrt_square (P2 15)) by apply bpow_ge_0. apply sqrt_le_1; [lra|rewrite <- bpow_plus; apply bpow_ge_0|]. rewrite <- bpow_plus. exact M. }
    assert (w = g * (2 * sqrt n)) as Wg by (unfold g; field; lra).
    assert (8 * eta * w <= g * P2 (-533)) as Bw'.
    { rewrite Wg. replace (8 * eta * (g * (2 * sqrt n))) with (g * (16 * eta * sqrt n)) by ring. apply Rmult_le_compat_l; [exact PG|].
      apply Rle_trans with (16 * eta * P2 15); [apply Rmult_le_compat_l; [pose proof (bpow_gt_0 radix2 (-1075)); lra|exact U15]|]. change 16 with (P2 4). rewrite <- !bpow_plus. apply bpow_le. lia. }
    assert (P2 (-1074) = 2 * eta) as -> by (change 2 with (P2 1); now rewrite <- bpow_plus). pose proof (bpow_gt_0 radix2 (-1075)) as Pe.
    apply Rle_trans with (g * ((n + 5) * P2 (-52) * dev 1 x + 3 * (n + 1) * P2 (-52) * (abs_sum x / n) + P2 (-534) + 11 * u64 * ((n + 5) * P2 (-52) * dev 1 x + 3 * (n + 1) * P2 (-52) * (abs_sum x / n) + P2 (-534)) + 11 * u64 * dev 1 x) + g * P2 (-533) + eta); [lra|].
    rewrite <- Rmult_plus_distr_l. apply Rplus_le_compat; [|lra]. apply Rmult_le_compat_l; [exact PG|].
    destruct (u_val _ M) as (U1 & U2 & U3 & U4). fold n in U3. assert (P2 (-52) = 2 * u64) as Eu by (unfold u64; change 2 with (P2 1); now rewrite <- bpow_plus).
    assert (0 <= abs_sum x / n) as PA by (apply Rmult_le_pos; [apply abs_sum_pos|apply Rlt_le, Rinv_0_lt_compat; lra]). set (A := abs_sum x / n) in *. set (s := dev 1 x) in *. clearbody A s.
    assert (P2 (-534) <= P2 (-502) /\ P2 (-533) <= P2 (-502) /\ P2 (-500) = 4 * P2 (-502)) as (R1 & R2 & R3) by (split; [apply bpow_le; lia|split; [apply bpow_le; lia|change 4 with (P2 2); now rewrite <- bpow_plus]]).
    pose proof (bpow_gt_0 radix2 (-534)) as P534. rewrite Eu. assert (11 * u64 <= / 2) as U11 by lra.
    assert (11 * u64 * ((n + 5) * (2 * u64) * s) <= 1 * (2 * u64 * s)) as C1.
    { replace (11 * u64 * ((n + 5) * (2 * u64) * s)) with ((11 * (n * u64) + 55 * u64) * (2 * u64 * s)) by ring. apply Rmult_le_compat_r; [|lra]. apply Rmult_le_pos; lra. }
    assert (11 * u64 * (3 * (n + 1) * (2 * u64) * A) <= 1 * (2 * u64 * A)) as C2.
    { replace (11 * u64 * (3 * (n + 1) * (2 * u64) * A)) with ((33 * (n * u64) + 33 * u64) * (2 * u64 * A)) by ring. apply Rmult_le_compat_r; [|lra]. apply Rmult_le_pos; lra. }
    assert (11 * u64 * P2 (-534) <= / 2 * P2 (-534)) as C3 by (apply Rmult_le_compat_r; lra).
    assert (0 <= u64 * s) by (apply Rmult_le_pos; lra). assert (0 <= u64 * A) by (apply Rmult_le_pos; lra).
    replace ((n + 12) * (2 * u64) * (s + 3 * A)) with ((n + 5) * (2 * u64) * s + 14 * (u64 * s) + 3 * (n + 1) * (2 * u64) * A + 66 * (u64 * A)) by ring. lra.
  Qed.

  Lemma bernstein_EB_err (x : list f64) lo up c e : (2 <= length x)%nat -> INR (length x) <= MAXN -> Forall (bdd 400) x -> bdd 400 lo -> bdd 400 up -> conf_ok c ->
    @bernstein_EB _ _ lib x lo up c = Ok e ->
    let n := INR (length x) in let a := B2R (flog (fdiv (f_of_Z 3) (fsub (f_of_Z 1) c))) in let g := sqrt (2 * a / n) in let b := 3 * a * (B2R up - B2R lo) / n in
    / 2 <= a ->
    fisfin e = true /\ Rabs (B2R e - (g * dev 0 x + b)) <= g * ((n + 12) * P2 (-52) * (dev 0 x + 3 * (abs_sum x / n)) + P2 (-500)) + 5 * P2 (-52) * b + P2 (-1072).
  Proof.
    intros N M F Bl Bu C H n a g b Ha2. unfold bernstein_EB in H. apply assert_ok in H as [_ H]. cbv zeta in H. apply assert_ok in H as [P0 H]. apply assert_ok in H as [_ H]. apply assert_ok in H as [_ H].
    rewrite (degenerate_fin x (bdd_all _ _ F)) in H. destruct (Z.leb_spec (Z.of_nat (length x)) 1) as [S|S]; [lia|]. apply assert_ok in H as [_ H]. apply Ok_inj in H.
    cbn [nlog nsqrt fn_f64 ndiv nadd nsub n1 nofZ nmul nleb n0 f64_num] in H, P0.
    (* the range *)
    assert (nng 401 (fsub up lo)) as NR by (apply nng_iff; split; [apply (bdd_sub 400); auto; lia|exact P0]).
    pose proof NR as (Rh & ER & BR). destruct (diff_near _ _ _ ER (proj1 BR)) as (PR & qr & Nr & Hr). set (R := B2R up - B2R lo) in *. set (range_ := fsub up lo) in *. clearbody range_ R.
    (* the logarithm *)
    destruct (log_ok _ _ _ _ _ GL c C) as (a' & Ea & Ha). assert (a' = a) as -> by (apply v64_Fin in Ea as [_ Ea]; rewrite <- Ea; reflexivity).
    set (A := flog (fdiv (f_of_Z 3) (fsub (f_of_Z 1) c))) in *. clearbody A a. assert (nng 10 A) as NA by (exists a; split; [exact Ea|lra]).
    pose proof (len_val x M) as EN. fold n in EN. assert (2 <= n) as N2 by (apply (le_INR 2); exact N). assert (n <= P2 30) as Mn by exact M.
    destruct (v64_Fin _ _ EN) as [FN BN].
    (* the standard deviation *)
    assert (nng 416 (@nstd _ _ lib 0 x)) as Ns by (apply (nng_std _ _ _ _ _ 0 400); auto; lia).
    destruct (std_err lib 0 400 x eq_refl ltac:(lia) N M F ltac:(lia)) as (Fs & Ps & Es). cbv zeta in Es. fold n in Es. set (st := @nstd _ _ lib 0 x) in *. clearbody st.
    (* the factor *)
    assert (nng 11 (fmul (f_of_Z 2) A)) as N2A by (apply (nng_mul 1 10); [apply nng_ofZ; [lia|cbn; lra]|exact NA|lia]).
    assert (nng 12 (fdiv (fmul (f_of_Z 2) A) (lenT x))) as NQ by (apply (nng_le 11); [|lia]; eapply nng_div; [exact N2A|exact EN|lra|lia]).
    assert (nng 6 (fsqrt (fdiv (fmul (f_of_Z 2) A) (lenT x)))) as NS by (apply nng_sqrt; [exact NQ|lia]).
    assert (exists q, near 8 q /\ v64 (fsqrt (fdiv (fmul (f_of_Z 2) A) (lenT x))) = Fin (g * q)) as (qg & Ng & Eg).
    { destruct N2A as (r1 & E1 & B1). pose proof E1 as Q1. rewrite v64_mul, (v64_ofZ 2), Ea in Q1 by lia. apply xround_val in Q1.
      destruct (rel_near (2 * a) ltac:(apply Rle_trans with (P2 0); [apply bpow_le; lia|cbn; lra])) as (q1 & Nq1 & Hq1). rewrite Hq1 in Q1.
      destruct NQ as (r2 & E2 & B2). pose proof E2 as Q2. rewrite v64_div_fin in Q2; [|apply (v64_Fin _ _ E1)|lra]. rewrite (proj2 (v64_Fin _ _ E1)), BN in Q2. apply xround_val in Q2.
      pose proof (near_low 2 q1 ltac:(lra) Nq1) as Lq1. assert (P2 (-500) <= r1 / n) as L1.
      { rewrite Q1. apply Rle_trans with (P2 (-31)); [apply bpow_le; lia|]. apply (Rmult_le_reg_r n); [lra|]. unfold Rdiv. rewrite Rmult_assoc, Rinv_l by lra.
        apply Rle_trans with (P2 (-31) * P2 30); [apply Rmult_le_compat_l; [apply bpow_ge_0|exact Mn]|]. rewrite <- bpow_plus. change (P2 (-31 + 30)) with (/ 2). nra. }
      destruct (rel_near _ L1) as (q2 & Nq2 & Hq2). rewrite Hq2 in Q2.
      assert (near 5 (q1 * q2)) as N5 by (replace 5 with (2 + 2 + 1) by lra; apply near_mul; auto; lra). pose proof (near_pos 5 _ ltac:(lra) N5) as P5.
      assert (0 < 2 * a / n) as Pan by (apply Rmult_lt_0_compat; [lra|apply Rinv_0_lt_compat; lra]).
      assert (r2 = 2 * a / n * (q1 * q2)) as Hr2 by (rewrite Q2, Q1; field; lra).
      pose proof (v64_sqrt _ _ E2 (proj1 B2)) as E3. rewrite Hr2, sqrt_mult in E3 by lra. fold g in E3.
      assert (P2 (-17) <= g) as Lg.
      { unfold g. rewrite <- (sqrt_square (P2 (-17))) by apply bpow_ge_0. apply sqrt_le_1_alt. rewrite <- bpow_plus. apply (Rmult_le_reg_r n); [lra|]. unfold Rdiv. rewrite Rmult_assoc, Rinv_l by lra.
        apply Rle_trans with (P2 (-17 + -17) * P2 30); [apply Rmult_le_compat_l; [apply bpow_ge_0|exact Mn]|]. rewrite <- bpow_plus. apply Rle_trans with (P2 0); [apply bpow_le; lia|cbn; lra]. }
      pose proof (near_sqrt 5 _ ltac:(lra) N5) as N5'. pose proof (near_low 5 _ ltac:(lra) N5') as L5.
      assert (P2 (-500) <= g * sqrt (q1 * q2)) as L3.
      { apply Rle_trans with (P2 (-17) * P2 (-1)); [rewrite <- bpow_plus; apply bpow_le; lia|]. apply Rmult_le_compat; [apply bpow_ge_0|apply bpow_ge_0|exact Lg|]. change (P2 (-1)) with (/ 2). lra. }
      destruct (rel_near _ L3) as (q3 & Nq3 & Hq3). rewrite Hq3 in E3. exists (sqrt (q1 * q2) * q3). split; [replace 8 with (5 + 2 + 1) by lra; apply near_mul; auto; lra|].
      rewrite E3. f_equal. ring. }
    set (sq := fsqrt _) in *. clearbody sq. assert (0 <= g) as PG by apply sqrt_pos. clearbody g.
    (* first summand *)
    assert (nng 422 (fmul st sq)) as N1 by (apply (nng_mul 416 6); auto; lia). destruct N1 as (p1 & E1 & B1).
    pose proof E1 as Q1. rewrite v64_mul, (v64_fin st Fs), Eg in Q1. apply xround_val in Q1.
    destruct (rnd_model (B2R st * (g * qg))) as (t1 & z1 & T1 & Z1 & M1). rewrite M1 in Q1. clear M1. apply near_1 in T1. set (a1 := 1 + t1) in *. clearbody a1.
    (* second summand *)
    assert (nng 12 (fmul (f_of_Z 3) A)) as N3A by (apply (nng_mul 2 10); [apply nng_ofZ; [lia|cbn; lra]|exact NA|lia]).
    assert (nng 413 (fmul (fmul (f_of_Z 3) A) range_)) as N3R by (apply (nng_mul 12 401); auto; lia).
    assert (nng 422 (fdiv (fmul (fmul (f_of_Z 3) A) range_) (lenT x))) as N3 by (apply (nng_le 413); [|lia]; eapply nng_div; [exact N3R|exact EN|lra|lia]).
    destruct N3A as (r1 & E2 & B2). pose proof E2 as Q2. rewrite v64_mul, (v64_ofZ 3), Ea in Q2 by lia. apply xround_val in Q2.
    destruct (rel_near (3 * a) ltac:(apply Rle_trans with (P2 0); [apply bpow_le; lia|cbn; lra])) as (q1 & Nq1 & Hq1). rewrite Hq1 in Q2.
    destruct N3R as (r2 & E3 & B3). pose proof E3 as Q3. rewrite v64_mul, E2, ER in Q3. apply xround_val in Q3.
    destruct (rnd_model (r1 * Rh)) as (t2 & z2 & T2 & Z2 & M2). rewrite M2 in Q3. clear M2. apply near_1 in T2. set (a2 := 1 + t2) in *. clearbody a2.
    destruct N3 as (p2 & E4 & B4). pose proof E4 as Q4. rewrite v64_div_fin in Q4; [|apply (v64_Fin _ _ E3)|lra]. rewrite (proj2 (v64_Fin _ _ E3)), BN in Q4. apply xround_val in Q4.
    destruct (rnd_model (r2 / n)) as (t3 & z3 & T3 & Z3 & M3). rewrite M3 in Q4. clear M3. apply near_1 in T3. set (a3 := 1 + t3) in *. clearbody a3.
    (* the sum *)
    assert (nng 423 (fadd (fmul st sq) (fdiv (fmul (fmul (f_of_Z 3) A) range_) (lenT x)))) as NE by (apply (nng_add 422); [now exists p1|now exists p2|lia]).
    destruct NE as (r & Er & Br). pose proof Er as Q5. rewrite v64_add, E1, E4 in Q5. apply xround_val in Q5. rewrite H in Er. apply v64_Fin in Er as [Fe Be]. split; [exact Fe|]. rewrite Be.
    destruct (add_near p1 p2 (v64_Fin_format _ _ E1) (v64_Fin_format _ _ E4)) as (qs & Nqs & Hqs). rewrite Hqs in Q5. clear Hqs.
    assert (near 10 (qg * a1)) as A1 by (replace 10 with (8 + 1 + 1) by lra; apply near_mul; auto; lra).
    assert (near 12 (qg * a1 * qs)) as A2 by (replace 12 with (10 + 1 + 1) by lra; apply near_mul; auto; lra).
    assert (near 4 (q1 * qr)) as A3 by (replace 4 with (2 + 1 + 1) by lra; apply near_mul; auto; lra).
    assert (near 6 (q1 * qr * a2)) as A4 by (replace 6 with (4 + 1 + 1) by lra; apply near_mul; auto; lra).
    assert (near 8 (q1 * qr * a2 * a3)) as A5 by (replace 8 with (6 + 1 + 1) by lra; apply near_mul; auto; lra).
    assert (near 10 (q1 * qr * a2 * a3 * qs)) as A6 by (replace 10 with (8 + 1 + 1) by lra; apply near_mul; auto; lra).
    pose proof (near_pos 1 a3 ltac:(lra) T3) as P3'. pose proof (near_pos 1 qs ltac:(lra) Nqs) as Ps'.
    set (z := (z1 + (z2 / n * a3 + z3)) * qs). set (Q := q1 * qr * a2 * a3 * qs) in *.
    assert (r = B2R st * g * (qg * a1 * qs) + (b * Q + z)) as ->. { rewrite Q5, Q1, Q4, Q3, Q2, Hr. unfold b, z, Q. field. lra. }
    pose proof (bpow_gt_0 radix2 (-1075)) as Pe.
    assert (Rabs z <= 8 * eta) as Bz.
    { unfold z. rewrite Rabs_mult, (Rabs_pos_eq qs) by lra. apply Rle_trans with (4 * eta * 2); [|lra]. apply Rmult_le_compat; [apply Rabs_pos|lra| |lra].
      eapply Rle_trans; [apply Rabs_triang|]. apply Rle_trans with (eta + 3 * eta); [apply Rplus_le_compat; [exact Z1|]|lra].
      eapply Rle_trans; [apply Rabs_triang|]. unfold Rdiv. rewrite !Rabs_mult, (Rabs_pos_eq a3) by lra. assert (0 < / n <= 1) as In by (split; [apply Rinv_0_lt_compat; lra|rewrite <- Rinv_1; apply Rinv_le_contravar; lra]).
      rewrite (Rabs_pos_eq (/ n)) by lra. pose proof (Rabs_pos z2). assert (Rabs z2 * / n <= eta * 1) by (apply Rmult_le_compat; lra). assert (0 <= Rabs z2 * / n) by (apply Rmult_le_pos; lra).
      assert (Rabs z2 * / n * a3 <= eta * 1 * 2) by (apply Rmult_le_compat; lra). lra. }
    pose proof (sqrt_pos (sq_sum (mid x) x / (INR (length x) - IZR 0))) as Pd. change (0 <= dev 0 x) in Pd.
    pose proof (scaled_err _ _ _ g 12 _ (z + b * (Q - 1)) ltac:(lra) PG Pd Es A2) as SE.
    replace (B2R st * g * (qg * a1 * qs) + (b * Q + z) - (g * dev 0 x + b)) with (B2R st * g * (qg * a1 * qs) + (z + b * (Q - 1)) - g * dev 0 x) by ring.
    eapply Rle_trans; [exact SE|]. clear SE Es A1 A2 A3 A4 A5.
    assert (0 <= b) as Pb by (unfold b; apply Rmult_le_pos; [apply Rmult_le_pos; lra|apply Rlt_le, Rinv_0_lt_compat; lra]).
    assert (P2 (-52) = 2 * u64) as Eu by (unfold u64; change 2 with (P2 1); now rewrite <- bpow_plus).
    assert (Rabs (z + b * (Q - 1)) <= 5 * P2 (-52) * b + P2 (-1072)) as BZ.
    { eapply Rle_trans; [apply Rabs_triang|]. rewrite Rabs_mult, (Rabs_pos_eq b), Eu by exact Pb. unfold near in A6. assert (b * Rabs (Q - 1) <= b * (10 * u64)) by (apply Rmult_le_compat_l; assumption).
      assert (P2 (-1072) = 8 * eta) as -> by (change 8 with (P2 3); now rewrite <- bpow_plus). lra. }
    enough (g * ((n + 5) * P2 (-52) * dev 0 x + 3 * (n + 1) * P2 (-52) * (abs_sum x / n) + P2 (-534) + 12 * u64 * ((n + 5) * P2 (-52) * dev 0 x + 3 * (n + 1) * P2 (-52) * (abs_sum x / n) + P2 (-534)) + 12 * u64 * dev 0 x) <=
      g * ((n + 12) * P2 (-52) * (dev 0 x + 3 * (abs_sum x / n)) + P2 (-500))) by lra.
    apply Rmult_le_compat_l; [exact PG|]. clear BZ Bz.
    destruct (u_val _ M) as (U1 & U2 & U3 & U4). fold n in U3.
    assert (0 <= abs_sum x / n) as PA by (apply Rmult_le_pos; [apply abs_sum_pos|apply Rlt_le, Rinv_0_lt_compat; lra]). set (AA := abs_sum x / n) in *. set (s := dev 0 x) in *. clearbody AA s.
    assert (P2 (-534) <= P2 (-502) /\ P2 (-500) = 4 * P2 (-502)) as (R1 & R3) by (split; [apply bpow_le; lia|change 4 with (P2 2); now rewrite <- bpow_plus]).
    pose proof (bpow_gt_0 radix2 (-534)) as P534. rewrite Eu. assert (12 * u64 <= / 2) as U11 by lra.
    assert (12 * u64 * ((n + 5) * (2 * u64) * s) <= 1 * (2 * u64 * s)) as C1.
    { replace (12 * u64 * ((n + 5) * (2 * u64) * s)) with ((12 * (n * u64) + 60 * u64) * (2 * u64 * s)) by ring. apply Rmult_le_compat_r; [|lra]. apply Rmult_le_pos; lra. }
    assert (12 * u64 * (3 * (n + 1) * (2 * u64) * AA) <= 1 * (2 * u64 * AA)) as C2.
    { replace (12 * u64 * (3 * (n + 1) * (2 * u64) * AA)) with ((36 * (n * u64) + 36 * u64) * (2 * u64 * AA)) by ring. apply Rmult_le_compat_r; [|lra]. apply Rmult_le_pos; lra. }
    assert (12 * u64 * P2 (-534) <= / 2 * P2 (-534)) as C3 by (apply Rmult_le_compat_r; lra).
    assert (0 <= u64 * s) by (apply Rmult_le_pos; lra). assert (0 <= u64 * AA) by (apply Rmult_le_pos; lra).
    replace ((n + 12) * (2 * u64) * (s + 3 * AA)) with ((n + 5) * (2 * u64) * s + 14 * (u64 * s) + 3 * (n + 1) * (2 * u64) * AA + 66 * (u64 * AA)) by ring. lra.
  Qed.
End Library.

(** ** Clipping an error bar to the limits *)
Lemma sub_err (k : Z) (a b : f64) : bdd k a -> bdd k b -> (-1000 <= k <= 900)%Z ->
  fisfin (fsub a b) = true /\ Rabs (B2R (fsub a b) - (B2R a - B2R b)) <= u64 * Rabs (B2R a - B2R b).
Proof.
  intros A B K. destruct (bdd_sub k a b A B ltac:(lia)) as (r & E & _). pose proof E as Q. rewrite v64_sub, (v64_fin a (bdd_fin _ _ A)), (v64_fin b (bdd_fin _ _ B)) in Q.
  apply xround_val in Q. apply v64_Fin in E as [F ->]. split; [exact F|]. rewrite Q. replace (B2R a - B2R b) with (B2R a + B2R (Bopp b)) by (rewrite B2R_Bopp; reflexivity).
  apply rnd_add_err; apply B2R_format.
Qed.
Lemma nfmax_val (a b : f64) : fisfin a = true -> fisfin b = true -> fisfin (nfmax a b) = true /\ B2R (nfmax a b) = Rmax (B2R a) (B2R b).
Proof.
  intros A B. unfold nfmax. cbn [nleb nisnan f64_num]. assert (fisnan b = false) as -> by (destruct b as [?|[]| |?]; try discriminate; reflexivity). rewrite orb_false_r.
  destruct (fleb b a) eqn:L.
  - apply (fleb_fin b a B A) in L. split; [exact A|]. now rewrite Rmax_left.
  - split; [exact B|]. assert (B2R a < B2R b). { apply Rnot_le_lt. intros C. apply (fleb_fin b a B A) in C. congruence. } rewrite Rmax_right; lra.
Qed.
Lemma nclip_val (a lo hi : f64) : fisfin a = true -> fisfin lo = true -> fisfin hi = true -> B2R lo <= B2R hi ->
  fisfin (nclip a lo hi) = true /\ B2R (nclip a lo hi) = Rmax (B2R lo) (Rmin (B2R a) (B2R hi)).
Proof.
  intros A L H O. unfold nclip. cbn [nltb f64_num]. destruct (fltb a lo) eqn:E1.
  - apply (fltb_fin a lo A L) in E1. split; [exact L|]. rewrite (Rmin_left (B2R a)), Rmax_left; lra.
  - assert (B2R lo <= B2R a) as G1. { apply Rnot_lt_le. intros C. apply (fltb_fin a lo A L) in C. congruence. } destruct (fltb hi a) eqn:E2.
    + apply (fltb_fin hi a H A) in E2. split; [exact H|]. rewrite Rmin_right, Rmax_right; lra.
    + assert (B2R a <= B2R hi) as G2. { apply Rnot_lt_le. intros C. apply (fltb_fin hi a H A) in C. congruence. } split; [exact A|]. rewrite Rmin_left, Rmax_right; lra.
Qed.
Lemma Rmax_lip a b c d e : Rabs (a - b) <= e -> Rabs (c - d) <= e -> Rabs (Rmax a c - Rmax b d) <= e.
Proof. intros A B. apply Rabs_le_inv in A, B. apply Rabs_le. unfold Rmax. repeat destruct Rle_dec; lra. Qed.
Lemma Rmin_lip a b c d e : Rabs (a - b) <= e -> Rabs (c - d) <= e -> Rabs (Rmin a c - Rmin b d) <= e.
Proof. intros A B. apply Rabs_le_inv in A, B. apply Rabs_le. unfold Rmin. repeat destruct Rle_dec; lra. Qed.
Lemma Rmax0_lip a b e : Rabs (a - b) <= e -> 0 <= b -> Rabs (Rmax 0 a - b) <= e.
Proof. intros A B. apply Rabs_le_inv in A. apply Rabs_le. unfold Rmax. destruct Rle_dec; lra. Qed.

(** the error bar that fits between the limits *)
Definition capped (G m : R) (lo up : f64) : R := if fisfin lo && fisfin up then Rmin G (Rmax (B2R up - m) (m - B2R lo)) else G.
Definition width (lo up : f64) : R := if fisfin lo && fisfin up then B2R up - B2R lo else 0.
Lemma clip_err (mu EB lo up e : f64) (G m d dm : R) :
  bdd 400 mu -> (fisfin lo = true -> bdd 400 lo) -> (fisfin up = true -> bdd 400 up) -> fisfin EB = true -> clip_EB mu EB lo up f0 = Ok e ->
  0 <= G -> Rabs (B2R EB - G) <= d -> Rabs (B2R mu - m) <= dm -> (fisfin lo = true -> B2R lo <= m) -> (fisfin up = true -> m <= B2R up) ->
  fisfin e = true /\ 0 <= B2R e /\ Rabs (B2R e - capped G m lo up) <= d + dm + u64 * width lo up.
Proof.
  intros Bm Bl Bu FE H PG DE DM Lm Um. unfold clip_EB in H. apply assert_ok in H as [W H]. apply assert_ok in H as [_ H]. cbn [nltb nleb nofZ nmul nsub n0 f64_num] in H, W.
  destruct (fltb mu lo || fltb up mu) eqn:O; [discriminate|]. apply orb_false_iff in O as [O1 O2]. destruct (fltb (fsub up lo) _); [discriminate|].
  apply assert_ok in H as [T H]. apply Ok_inj in H. pose proof (bdd_fin _ _ Bm) as Fm. pose proof u64_pos as U.
  assert (0 <= d) as Pd by (eapply Rle_trans; [apply Rabs_pos|exact DE]). assert (0 <= dm) as Pm by (eapply Rle_trans; [apply Rabs_pos|exact DM]).
  assert (fisfin f0 = true) as F0 by reflexivity. assert (B2R f0 = 0) as B0 by reflexivity.
  unfold capped, width. destruct (fisfin lo) eqn:Fl; [destruct (fisfin up) eqn:Fu|]; cbn [andb].
  - specialize (Bl eq_refl). specialize (Bu eq_refl). specialize (Lm eq_refl). specialize (Um eq_refl).
    assert (B2R lo <= B2R mu) as M1. { apply Rnot_lt_le. intros C. apply (fltb_fin mu lo Fm Fl) in C. congruence. }
    assert (B2R mu <= B2R up) as M2. { apply Rnot_lt_le. intros C. apply (fltb_fin up mu Fu Fm) in C. congruence. }
    destruct (sub_err 400 up mu Bu Bm ltac:(lia)) as [FA EA]. destruct (sub_err 400 mu lo Bm Bl ltac:(lia)) as [FB EB']. rewrite (Rabs_pos_eq (B2R up - B2R mu)) in EA by lra. rewrite (Rabs_pos_eq (B2R mu - B2R lo)) in EB' by lra.
    set (R := B2R up - B2R lo) in *. assert (u64 * (B2R up - B2R mu) <= u64 * R /\ u64 * (B2R mu - B2R lo) <= u64 * R) as [U1 U2] by (unfold R; split; apply Rmult_le_compat_l; lra).
    assert (0 <= u64 * R) as PR by (apply Rmult_le_pos; unfold R; lra).
    destruct (nfmax_val _ _ FA FB) as [FT ET]. set (tr := nfmax (fsub up mu) (fsub mu lo)) in *.
    assert (0 <= B2R tr) as PT. { apply negb_true_iff in T. apply Rnot_lt_le. intros C. rewrite <- B0 in C. apply (fltb_fin tr f0 FT F0) in C. cbn [nltb f64_num] in T. congruence. }
    assert (Rabs (B2R tr - Rmax (B2R up - m) (m - B2R lo)) <= dm + u64 * R) as DT.
    { rewrite ET. apply Rabs_le_inv in EA, EB', DM. apply Rmax_lip; apply Rabs_le; lra. }
    clearbody tr. destruct (nclip_val EB f0 tr FE F0 FT ltac:(lra)) as [FX EX]. rewrite H in FX, EX. split; [exact FX|]. rewrite EX, B0. split; [apply Rmax_l|].
    apply Rmax0_lip.
    + apply Rmin_lip; apply Rabs_le_inv in DE, DT; apply Rabs_le; lra.
    + apply Rmin_glb; [exact PG|]. eapply Rle_trans; [|apply Rmax_l]. lra.
  - assert (up = finf) as ->. { destruct up as [?|[]| |?]; try discriminate Fu; try reflexivity; destruct mu as [?|[]| |?]; try discriminate Fm; try discriminate O2; destruct lo as [?|[]| |?]; discriminate. }
    assert (nfmax (fsub finf mu) (fsub mu lo) = finf) as E.
    { unfold nfmax. cbn [nleb nisnan f64_num]. replace (fsub finf mu) with finf by (destruct mu as [?|[]| |?]; try discriminate Fm; reflexivity).
      destruct (sub_err 400 mu lo Bm (Bl eq_refl) ltac:(lia)) as [FB _]. set (z := fsub mu lo) in *. clearbody z. replace (fleb z finf) with true; [reflexivity|]. destruct z as [?|[]| |?]; try discriminate FB; reflexivity. }
    rewrite E in H. unfold nclip in H. cbn [nltb n0 f64_num] in H. replace (fltb finf EB) with false in H by (destruct EB as [?|[]| |?]; try discriminate FE; reflexivity).
    rewrite Rmult_0_r, Rplus_0_r. destruct (fltb EB f0) eqn:C; subst e.
    + apply (fltb_fin EB f0 FE F0) in C. rewrite B0 in C |- *. split; [reflexivity|]. split; [lra|]. apply Rabs_le_inv in DE. apply Rabs_le. lra.
    + assert (0 <= B2R EB). { apply Rnot_lt_le. intros Q. rewrite <- B0 in Q. apply (fltb_fin EB f0 FE F0) in Q. congruence. } split; [exact FE|]. split; [assumption|]. lra.
  - assert (lo = fninf) as ->. { destruct lo as [?|[]| |?]; try discriminate Fl; try reflexivity; destruct mu as [?|[]| |?]; try discriminate Fm; try discriminate O1; destruct up as [?|[]| |?]; discriminate. }
    assert (nfmax (fsub up mu) (fsub mu fninf) = finf) as E.
    { unfold nfmax. cbn [nleb nisnan f64_num]. replace (fsub mu fninf) with finf by (destruct mu as [?|[]| |?]; try discriminate Fm; reflexivity). cbn [fisnan orb]. destruct (fleb finf (fsub up mu)) eqn:Q; [|reflexivity].
      cbn [orb]. destruct (fsub up mu) as [?|[]| |?]; try discriminate Q; reflexivity. }
    rewrite E in H. unfold nclip in H. cbn [nltb n0 f64_num] in H. replace (fltb finf EB) with false in H by (destruct EB as [?|[]| |?]; try discriminate FE; reflexivity).
    rewrite Rmult_0_r, Rplus_0_r. destruct (fltb EB f0) eqn:C; subst e.
    + apply (fltb_fin EB f0 FE F0) in C. rewrite B0 in C |- *. split; [reflexivity|]. split; [lra|]. apply Rabs_le_inv in DE. apply Rabs_le. lra.
    + assert (0 <= B2R EB). { apply Rnot_lt_le. intros Q. rewrite <- B0 in Q. apply (fltb_fin EB f0 FE F0) in Q. congruence. } split; [exact FE|]. split; [assumption|]. lra.
Qed.
