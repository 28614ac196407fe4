(** How small an error bar can be next to its mean: the doubles next to a double
    are not arbitrarily close to it, so an error bar that is not 0 is at least
    2^-86 times the mean. *)
From Coq Require Import Reals Lra Lia Permutation.
From Flocq Require Import Core BinarySingleNaN.
From Verif Require Import PyBase ListLemmas F64 F64Lemmas Num NumOk SumProofs Util UtilProofs BootUtil BootProofs BootProofs2 BootProofs4 PerfCurves MLPaper MLProofs MLProofs4 CompareProofs
  SwapProofs MeanProofs DoublesProofs DoublesProofs2.
From Verif Require Import Props_Boot Props_MLPaper.
Open Scope R_scope.

(** ** The distance of two doubles *)
Notation exp64 := (SpecFloat.fexp prec64 emax64).
Lemma format_grid x e : format64 x -> (e <= exp64 (mag radix2 x))%Z -> exists n, x = IZR n * P2 e.
Proof.
  intros F L. exists (Ztrunc (scaled_mantissa radix2 exp64 x) * 2 ^ (exp64 (mag radix2 x) - e))%Z.
  rewrite F at 1. unfold F2R. cbn [Fnum Fexp]. unfold cexp. rewrite mult_IZR, Rmult_assoc. f_equal.
  change 2%Z with (radix_val radix2). rewrite IZR_Zpower by lia. rewrite <- bpow_plus. f_equal. lia.
Qed.
Lemma grid_gap n k e : IZR n * P2 e <> IZR k * P2 e -> P2 e <= Rabs (IZR n * P2 e - IZR k * P2 e).
Proof.
  intros H. rewrite <- Rmult_minus_distr_r, <- minus_IZR, Rabs_mult, (Rabs_pos_eq (P2 e)) by apply bpow_ge_0.
  rewrite <- (Rmult_1_l (P2 e)) at 1. apply Rmult_le_compat_r; [apply bpow_ge_0|]. rewrite <- abs_IZR. apply IZR_le.
  destruct (Z.eq_dec n k) as [->|]; [contradiction|lia].
Qed.
Lemma gap_R a b : format64 a -> format64 b -> b <> 0 -> a <> b ->
  P2 (Z.max (mag radix2 b - 54) (-1074)) <= Rabs (rnd64 (a - b)) /\ P2 (Z.max (mag radix2 b - 54) (-1074)) <= Rabs (a - b).
Proof.
  intros Fa Fb Zb N. set (k := mag radix2 b : Z). set (q := Z.max (k - 54) (-1074)).
  assert (P2 q <= Rabs (a - b)) as G.
  { assert (forall x, format64 x -> exists n, x = IZR n * P2 (-1074)) as G0.
    { intros x Fx. apply (format_grid x _ Fx). unfold SpecFloat.fexp, SpecFloat.emin, prec64, emax64. lia. }
    assert (P2 (-1074) <= Rabs (a - b)) as G1.
    { destruct (G0 a Fa) as [n Hn], (G0 b Fb) as [m Hm]. rewrite Hn, Hm in N |- *. now apply grid_gap. }
    unfold q. destruct (Z.max_spec (k - 54) (-1074)) as [[_ ->]|[L ->]]; [exact G1|].
    assert (P2 (k - 1) <= Rabs b) as B by (apply bpow_mag_le; exact Zb).
    destruct (Rle_or_lt (P2 (k - 2)) (Rabs a)) as [A|A].
    - assert (k - 1 <= mag radix2 a)%Z as K by (apply mag_ge_bpow; replace (k - 1 - 1)%Z with (k - 2)%Z by lia; exact A).
      destruct (format_grid a (k - 54) Fa) as [n Hn]; [unfold SpecFloat.fexp, SpecFloat.emin, prec64, emax64; lia|].
      destruct (format_grid b (k - 54) Fb) as [m Hm]; [fold k; unfold SpecFloat.fexp, SpecFloat.emin, prec64, emax64; lia|].
      rewrite Hn, Hm in N |- *. now apply grid_gap.
    - apply Rle_trans with (P2 (k - 2)); [apply bpow_le; lia|]. replace (k - 1)%Z with (k - 2 + 1)%Z in B by lia. rewrite P2_S in B.
      pose proof (Rabs_triang_inv b a) as T. rewrite Rabs_minus_sym in T. lra. }
  split; [|exact G]. assert (format64 (P2 q)) as F by (apply format_P2; lia).
  destruct (Rle_or_lt 0 (a - b)) as [S|S].
  - rewrite Rabs_pos_eq in G by exact S. rewrite Rabs_pos_eq; [now apply rnd64_ge|]. apply rnd64_ge; [apply format64_0|exact S].
  - rewrite Rabs_left in G by exact S. assert (P2 q <= - rnd64 (a - b)) as H. { rewrite <- rnd64_opp. apply rnd64_ge; [exact F|exact G]. }
    pose proof (bpow_gt_0 radix2 q). rewrite Rabs_left; lra.
Qed.
Lemma mag_up b : b <> 0 -> Rabs b < P2 (mag radix2 b).
Proof. intros H. apply bpow_mag_gt. Qed.

(** ** Distances from the mean *)
Definition apart (m : R) (d : f64) : Prop := v64 d = PInf \/ v64 d = NInf \/ exists s, v64 d = Fin s /\ (s = 0 \/ P2 (-86) * Rabs m <= Rabs s).
Definition resolved (m : R) (e : f64) : Prop := v64 e = PInf \/ exists s, v64 e = Fin s /\ 0 <= s /\ (s = 0 \/ P2 (-86) * Rabs m <= s).

Lemma apart_resolved m d : apart m d -> fleb f0 d = true -> resolved m d.
Proof.
  intros [E|[E|(s & E & H)]] L; rewrite v64_leb, E in L; try discriminate; [now left|]. cbn in L. apply Rleb_spec in L. right. exists s. split; [exact E|]. split; [exact L|].
  rewrite (Rabs_pos_eq s) in H by exact L. exact H.
Qed.
Lemma resolved_apart m d : resolved m d -> apart m d.
Proof. intros [E|(s & E & P & H)]; [now left|right; right]. exists s. split; [exact E|]. now rewrite (Rabs_pos_eq s). Qed.
Lemma small_scale m k : Rabs m < P2 k -> forall s q, (k - 86 <= q)%Z -> P2 q <= s -> P2 (-86) * Rabs m <= s.
Proof.
  intros B s q K H. apply Rle_trans with (P2 q); [|exact H]. apply Rle_trans with (P2 (-86) * P2 k); [apply Rmult_le_compat_l; [apply bpow_ge_0|lra]|].
  rewrite <- bpow_plus. apply bpow_le. lia.
Qed.
Lemma apart_xround m r : (rnd64 r = 0 \/ P2 (-86) * Rabs m <= Rabs (rnd64 r)) -> forall d, v64 d = xround r -> apart m d.
Proof.
  intros H d E. unfold apart. rewrite E. unfold xround. destruct (Rlt_bool _ _); [|destruct (Rltb r 0); auto]. right. right. eauto.
Qed.
Lemma apart_sub a m r : fisnan a = false -> v64 m = Fin r -> apart r (fsub a m) /\ apart r (fsub m a).
Proof.
  intros Na E. pose proof (v64_Fin_format _ _ E) as Fr. rewrite v64_nan in Na.
  destruct (v64 a) as [b| | |] eqn:Ea; [| | |discriminate].
  2: split; unfold apart; rewrite v64_sub, E, Ea; [now left|now (right; left)]. 2: split; unfold apart; rewrite v64_sub, E, Ea; [now (right; left)|now left].
  pose proof (v64_Fin_format _ _ Ea) as Fb.
  assert (rnd64 (b - r) = 0 \/ P2 (-86) * Rabs r <= Rabs (rnd64 (b - r))) as G.
  { destruct (Req_EM_T r 0) as [->|Z]; [right; rewrite Rabs_R0, Rmult_0_r; apply Rabs_pos|].
    destruct (Req_EM_T b r) as [->|N]; [left; rewrite Rminus_eq_0; apply rnd64_0|].
    right. destruct (gap_R b r Fb Fr Z N) as [G _]. eapply small_scale; [apply (mag_up r Z)| |exact G]. lia. }
  split.
  - eapply apart_xround; [exact G|]. rewrite v64_sub, E, Ea. reflexivity.
  - apply (apart_xround r (r - b)); [|rewrite v64_sub, E, Ea; reflexivity]. replace (r - b) with (- (b - r)) by ring. rewrite rnd64_opp, Rabs_Ropp. destruct G as [->|G]; [left; lra|now right].
Qed.
Lemma resolved_0 m : resolved m f0.
Proof. right. exists 0. split; [reflexivity|]. split; [lra|now left]. Qed.
Lemma resolved_inf m : resolved m finf.
Proof. now left. Qed.

(** the bootstrap *)
Lemma error_bar_resolved b m r c e : sized b -> v64 m = Fin r -> @error_bar _ f64_num b m c = Ok e -> resolved r e.
Proof.
  intros S E H. destruct (error_bar_inv _ _ _ _ S H) as (lb & ub & P & L & ->).
  destruct (fleb_notnan _ _ L) as [Nl Nu]. destruct (apart_sub ub m r Nu E) as [A _]. destruct (apart_sub lb m r Nl E) as [_ B].
  assert (fisfin m = true) as Fm by (now apply v64_Fin in E). 
  apply apart_resolved.
  - unfold ebar, nfmax. destruct (_ || _); assumption.
  - pose proof (ebar_nonneg lb ub m L) as Q. apply fltb_false_le in Q; auto using ebar_notnan. apply fleb_key; auto using ebar_notnan.
Qed.
(** clipping *)
Lemma clip_EB_resolved mu r EB lo up e : v64 mu = Fin r -> fisnan EB = false -> resolved r EB -> fisnan lo = false -> fisnan up = false ->
  clip_EB mu EB lo up n0 = Ok e -> resolved r e.
Proof.
  intros E NE R Nl Nu H. destruct (v64_Fin _ _ E) as [Fm _]. pose proof (fisfin_notnan _ Fm) as Nm. destruct (C55_between mu EB lo up n0 e H Nm NE) as [P _].
  apply apart_resolved; [|exact P].
  destruct (apart_sub up mu r Nu E) as [A _]. destruct (apart_sub lo mu r Nl E) as [_ B].
  unfold clip_EB in H. apply assert_ok in H as [_ H]. apply assert_ok in H as [_ H]. destruct (nltb mu lo || nltb up mu); [discriminate|].
  destruct (nltb (nsub up lo) _); [discriminate|]. apply assert_ok in H as [_ H]. apply Ok_inj in H. subst e. unfold nclip, nfmax.
  destruct (nltb EB n0); [apply resolved_apart, resolved_0|]. destruct (nltb _ EB); [|now apply resolved_apart]. destruct (_ || _); assumption.
Qed.

(** ** The variance *)
Lemma sums_ge (l : list f64) v : sums_to l v -> Forall (fun a => fleb f0 a = true) l -> fleb f0 v = true /\ forall a, In a l -> fleb a v = true.
Proof.
  induction 1 as [|a|l m v w Hv IHv Hw IHw|l m v P _ IH]; intros F.
  - split; [reflexivity|intros a []].
  - inversion F as [|? ? A _]; subst. split; [exact A|]. intros b [<-|[]]. destruct (fleb_notnan _ _ A) as [_ N]. apply fleb_key; auto. lra.
  - apply Forall_app in F as [F1 F2]. destruct (IHv F1) as [Pv Gv], (IHw F2) as [Pw Gw]. change (nadd v w) with (fadd v w).
    assert (fleb v (fadd v w) = true /\ fleb w (fadd v w) = true) as [Lv Lw].
    { rewrite v64_leb in Pv, Pw. change (v64 f0) with (Fin 0) in Pv, Pw. rewrite !v64_leb, v64_add.
      destruct (v64 v) as [r| | |] eqn:Ev, (v64 w) as [s| | |] eqn:Ew; cbn in Pv, Pw; try discriminate; try (split; reflexivity).
      apply Rleb_spec in Pv, Pw. cbn [xr2]. apply v64_Fin_format in Ev, Ew. unfold xround. destruct (Rlt_bool _ _); cbn.
      - split; apply Rleb_spec; apply rnd64_ge; auto; lra.
      - destruct (Rltb (r + s) 0) eqn:E; [apply Rltb_spec in E; lra|split; reflexivity]. }
    split; [eapply fleb_trans; [exact Pv|exact Lv]|]. intros a I. apply in_app_or in I as [I|I]; [eapply fleb_trans; [exact (Gv a I)|exact Lv]|eapply fleb_trans; [exact (Gw a I)|exact Lw]].
  - destruct IH as [A B]; [now apply (Permutation_Forall (Permutation_sym P))|]. split; [exact A|]. intros a I. apply B. now apply (Permutation_in _ (Permutation_sym P)).
Qed.
Lemma sums_zero (l : list f64) v : sums_to l v -> Forall (fun a => v64 a = Fin 0) l -> v64 v = Fin 0.
Proof.
  induction 1 as [|a|l m v w Hv IHv Hw IHw|l m v P _ IH]; intros F.
  - reflexivity.
  - now inversion F.
  - apply Forall_app in F as [F1 F2]. change (nadd v w) with (fadd v w). rewrite v64_add, (IHv F1), (IHw F2). cbn [xr2]. rewrite Rplus_0_r, xround_ok, rnd64_0; [reflexivity|].
    rewrite Rabs_R0. apply bpow_ge_0.
  - apply IH. now apply (Permutation_Forall (Permutation_sym P)).
Qed.

Lemma var_low d j (x : list f64) r v : (0 <= d <= 1)%Z -> (d < Z.of_nat (length x))%Z -> INR (length x) <= MAXN -> Forall (bdd j) x -> (-500 <= j <= 460)%Z ->
  v64 (nmean x) = Fin r -> v64 (nvar d x) = Fin v -> v = 0 \/ r = 0 \/ exists k, (mag radix2 r <= k + 69)%Z /\ P2 (k + k) <= v.
Proof.
  intros D N M F J Er Ev. pose proof (maxn_Z _ M) as MZ. destruct (Req_EM_T v 0) as [|Nv]; [now left|right]. destruct (Req_EM_T r 0) as [|Nr]; [now left|right].
  assert (0 <= v) as Pv by (destruct (nng_var d j x D N M F J) as (v' & E & B); rewrite Ev in E; injection E as <-; lra).
  pose proof (format_pos v (v64_Fin_format _ _ Ev) ltac:(lra)) as V0.
  set (k := (mag radix2 r : Z)) in *.
  destruct (Z_lt_le_dec k (-468)) as [K|K]; [exists (-537)%Z; split; [lia|exact V0]|].
  exists (k - 69)%Z. split; [lia|].
  assert (exists a, In a x /\ v64 a <> Fin r) as (a & Ia & Na).
  { apply Classical_Prop.NNPP. intros H. apply Nv.
    assert (v64 (psum (map (fun a => nmul (nsub a (nmean x)) (nsub a (nmean x))) x)) = Fin 0) as S.
    { apply (sums_zero _ _ (psum_sums _)). apply Forall_map, Forall_forall. intros a I. cbn [nmul nsub f64_num].
      assert (v64 a = Fin r) as Ea by (apply Classical_Prop.NNPP; intros Q; apply H; eauto).
      assert (v64 (fsub a (nmean x)) = Fin 0) as Z. { rewrite v64_sub, Ea, Er. cbn [xr2]. rewrite Rminus_eq_0, xround_ok, rnd64_0; [reflexivity|]. rewrite Rabs_R0. apply bpow_ge_0. }
      rewrite v64_mul, Z. cbn [xr2]. rewrite Rmult_0_r, xround_ok, rnd64_0; [reflexivity|]. rewrite Rabs_R0. apply bpow_ge_0. }
    unfold nvar in Ev. cbn [ndiv nofZ f64_num] in Ev. apply v64_Fin in S as [FS BS].
    destruct (f_of_Z_correct (Z.max (Z.of_nat (length x) - d) 0)) as [VN FN]; [lia|].
    assert (1 <= IZR (Z.max (Z.of_nat (length x) - d) 0)) as L1 by (apply IZR_le; lia).
    rewrite v64_div_fin in Ev; [|exact FS|lra]. rewrite BS in Ev. unfold Rdiv in Ev. rewrite Rmult_0_l, xround_ok, rnd64_0 in Ev; [now injection Ev|]. rewrite Rabs_R0. apply bpow_ge_0. }
  rewrite Forall_forall in F. destruct (F a Ia) as (b & Eb & Bb).
  assert (b <> r) as NB by (intros ->; auto).
  destruct (gap_R b r (v64_Fin_format _ _ Eb) (v64_Fin_format _ _ Er) Nr NB) as [G _]. fold k in G. set (q := Z.max (k - 54) (-1074)) in *.
  assert (q = k - 54)%Z as Eq by lia.
  assert (v64 (fsub a (nmean x)) = Fin (rnd64 (b - r))) as Ed.
  { assert (bdd j (nmean x)) as (r' & Er' & Br). { apply bdd_mean; [lia|exact M|apply Forall_forall, F|lia]. } rewrite Er in Er'. injection Er' as <-.
    rewrite v64_sub, Eb, Er. cbn [xr2]. apply xround_ok. apply Rle_trans with (P2 (j + 1)); [|apply bpow_le; lia]. rewrite P2_S.
    pose proof (Rabs_triang b (- r)). rewrite Rabs_Ropp in *. unfold Rminus. lra. }
  set (dd := rnd64 (b - r)) in *.
  assert (P2 (q + q) <= dd * dd) as Sq.
  { rewrite bpow_plus. replace (dd * dd) with (Rabs dd * Rabs dd) by (rewrite <- Rabs_mult; apply Rabs_pos_eq; nra). pose proof (bpow_ge_0 radix2 q). apply Rmult_le_compat; lra. }
  assert (Forall (fun a => fleb f0 a = true) (map (fun a => nmul (nsub a (nmean x)) (nsub a (nmean x))) x)) as SP.
  { apply Forall_map, Forall_forall. intros c Ic. cbn [nmul nsub f64_num]. apply (nng_leb0 (j + 1 + (j + 1))). apply nng_sq; [|lia]. apply bdd_sub; [auto| |lia].
    apply bdd_mean; [lia|exact M|apply Forall_forall, F|lia]. }
  destruct (sums_ge _ _ (psum_sums _) SP) as [_ GE].
  specialize (GE _ (in_map (fun a => nmul (nsub a (nmean x)) (nsub a (nmean x))) _ _ Ia)). cbn [nmul nsub f64_num] in GE.
  assert (exists s, v64 (psum (map (fun a => fmul (fsub a (nmean x)) (fsub a (nmean x))) x)) = Fin s /\ P2 (q + q) <= s) as (s & Es & Ps).
  { assert (nng (j + 1 + (j + 1) + 30) (psum (map (fun a => fmul (fsub a (nmean x)) (fsub a (nmean x))) x))) as (s & Es & Bs).
    { eapply sums_nng; [apply psum_sums|now rewrite map_length| |lia]. apply Forall_map, Forall_forall. intros c Ic. apply nng_sq; [|lia]. apply bdd_sub; [auto| |lia].
      apply bdd_mean; [lia|exact M|apply Forall_forall, F|lia]. }
    exists s. split; [exact Es|]. rewrite v64_leb, v64_mul, Ed in GE. cbn [xr2] in GE.
    match type of GE with xleb _ (v64 ?t) = true => change (v64 t) with (v64 (psum (map (fun a => fmul (fsub a (nmean x)) (fsub a (nmean x))) x))) in GE end. rewrite Es in GE.
    unfold xround in GE. destruct (Rlt_bool _ _); cbn in GE.
    - apply Rleb_spec in GE. eapply Rle_trans; [|exact GE]. apply rnd64_ge; [apply format_P2; lia|exact Sq].
    - destruct (Rltb (dd * dd) 0) eqn:E; [apply Rltb_spec in E; nra|discriminate]. }
  unfold nvar in Ev. cbn [ndiv nofZ nmul nsub f64_num] in Ev. apply v64_Fin in Es as [FS BS].
  destruct (f_of_Z_correct (Z.max (Z.of_nat (length x) - d) 0)) as [VN FN]; [lia|].
  assert (1 <= IZR (Z.max (Z.of_nat (length x) - d) 0) <= P2 30) as L1.
  { change (P2 30) with (IZR (2 ^ 30)). split; apply IZR_le; lia. }
  rewrite v64_div_fin in Ev; [|exact FS|lra]. rewrite BS, VN in Ev. set (n := IZR _) in *.
  assert (P2 (k - 69 + (k - 69)) <= s / n) as Q.
  { apply (Rmult_le_reg_r n); [lra|]. unfold Rdiv. rewrite Rmult_assoc, Rinv_l, Rmult_1_r by lra.
    apply Rle_trans with (P2 (k - 69 + (k - 69)) * P2 30); [apply Rmult_le_compat_l; [apply bpow_ge_0|lra]|]. rewrite <- bpow_plus. eapply Rle_trans; [|exact Ps]. apply bpow_le. lia. }
  unfold xround in Ev. destruct (Rlt_bool _ _); [|destruct (Rltb (s / n) 0); discriminate]. injection Ev as <-. apply rnd64_ge; [apply format_P2; lia|exact Q].
Qed.

(** ** The error bars *)
Lemma std_low d j (x : list f64) r (FT : fn f64) s : @nsqrt f64 FT = fsqrt -> (0 <= d <= 1)%Z -> (d < Z.of_nat (length x))%Z -> INR (length x) <= MAXN -> Forall (bdd j) x ->
  (-500 <= j <= 460)%Z -> v64 (nmean x) = Fin r -> v64 (@nstd _ _ FT d x) = Fin s -> s = 0 \/ r = 0 \/ exists k, (-537 <= k)%Z /\ (mag radix2 r <= k + 69)%Z /\ P2 k <= s.
Proof.
  intros Q D N M F J Er Es. unfold nstd in Es. rewrite Q in Es. destruct (nng_var d j x D N M F J) as (v & Ev & Bv). pose proof (v64_sqrt _ _ Ev ltac:(lra)) as E. rewrite E in Es. injection Es as <-.
  destruct (var_low d j x r v D N M F J Er Ev) as [->|[->|(k & K & P)]]; [left; rewrite sqrt_0; apply rnd64_0|right; now left|right; right].
  assert (forall i, (-1074 <= i)%Z -> P2 (i + i) <= v -> P2 i <= rnd64 (sqrt v)) as G.
  { intros i I H. apply rnd64_ge; [apply format_P2; exact I|]. rewrite <- (sqrt_square (P2 i)) by apply bpow_ge_0. apply sqrt_le_1; [|lra|]; rewrite <- bpow_plus; [apply bpow_ge_0|exact H]. }
  destruct (Z_le_gt_dec (-537) k) as [L|L]; [exists k; split; [exact L|split; [exact K|apply G; [lia|exact P]]]|].
  exists (-537)%Z. split; [lia|]. split; [lia|]. apply G; [lia|]. apply (format_pos v (v64_Fin_format _ _ Ev)). pose proof (bpow_gt_0 radix2 (k + k)). lra.
Qed.

(** the quantiles at the two ends of the interval lie at least 1/2 apart *)
Definition wide_quantiles (ppf : Z -> f64 -> f64) (c : f64) : Prop :=
  forall df, (1 <= df)%Z -> fleb nhalf (fsub (ppf df (fdiv (fadd (f_of_Z 1) c) (f_of_Z 2))) (ppf df (fdiv (fsub (f_of_Z 1) c) (f_of_Z 2)))) = true.
(** the logarithm of anything from 2 on is at least 1/2 *)
Definition log_half (flog : f64 -> f64) : Prop := forall z, fisfin z = true -> 2 <= B2R z <= P2 60 -> fleb nhalf (flog z) = true.

Lemma half_leb x r : v64 x = Fin r -> fleb nhalf x = true -> / 2 <= r.
Proof.
  intros E H. destruct half_val as [V F]. rewrite v64_leb, E, (v64_fin nhalf F), V in H. cbn in H. now apply Rleb_spec in H.
Qed.

Section Library.
  Context (fexp flog : f64 -> f64) (sf ppf : Z -> f64 -> f64) (eig : f64 -> f64 -> option (f64 * f64)) (GL : good_library fexp flog sf ppf eig).
  Notation lib := (fn_f64 fexp flog sf ppf eig).

  Lemma t_EB_resolved j (x : list f64) c r e : (1 <= length x)%nat -> INR (length x) <= MAXN -> Forall (bdd j) x -> (-400 <= j <= 460)%Z -> conf_ok c -> wide_quantiles ppf c ->
    v64 (nmean x) = Fin r -> @t_EB _ _ lib x c = Ok e -> resolved r e.
  Proof.
    intros N M F J C WQ Er H. unfold t_EB in H. apply assert_ok in H as [_ H]. apply assert_ok in H as [_ H]. rewrite (degenerate_fin x (bdd_all _ _ F)) in H.
    destruct (Z.leb_spec (Z.of_nat (length x)) 1) as [S|S]; [apply Ok_inj in H; subst e; apply resolved_inf|].
    cbv zeta in H. apply assert_ok in H as [_ H]. apply assert_ok in H as [P H]. apply Ok_inj in H. subst e.
    cbn [t_ppf fn_f64 ndiv nsub nadd n1 nofZ nltb nmul nleb n0 nsqrt f64_num] in P |- *.
    destruct (quantiles _ _ _ _ _ GL c (Z.of_nat (length x) - 1) C ltac:(lia)) as [_ (w & Ew & Bw)].
    pose proof (half_leb _ _ Ew (WQ (Z.of_nat (length x) - 1)%Z ltac:(lia))) as W.
    set (D := fsub (ppf _ _) (ppf _ _)) in *. clearbody D.
    assert (nng (j + 16) (@nstd _ _ lib 1 x)) as (s & Es & Bs) by (apply nng_std; auto; lia).
    pose proof (std_low 1 j x r lib s eq_refl ltac:(lia) ltac:(lia) M F ltac:(lia) Er Es) as SL. set (st := @nstd _ _ lib 1 x) in *. clearbody st.
    destruct (sqrt_len x N M) as (n & En & Hn).
    assert (n <= P2 15) as Hn'.
    { pose proof (len_val x M) as EN. pose proof (v64_sqrt _ _ EN (pos_INR _)) as E. rewrite En in E. injection E as ->. apply rnd64_le; [apply format_P2; lia|].
      rewrite <- (sqrt_square (P2 15)) by apply bpow_ge_0. apply sqrt_le_1; [apply pos_INR|rewrite <- bpow_plus; apply bpow_ge_0|]. rewrite <- bpow_plus. exact M. }
    apply v64_Fin in En as [Fn Bn]. destruct (v64_Fin _ _ Es) as [Fs Bss].
    assert (0 <= s / n) as P1 by (apply Rmult_le_pos; [lra|apply Rlt_le, Rinv_0_lt_compat; lra]).
    assert (v64 (fdiv st (fsqrt (lenT x))) = Fin (rnd64 (s / n)) /\ 0 <= rnd64 (s / n) <= P2 (j + 16)) as [Eq Bq].
    { rewrite v64_div_fin; [|exact Fs|lra]. rewrite Bss, Bn. apply rnd_nng; [|lia]. split; [exact P1|]. apply Rle_trans with s; [|lra].
      apply (Rmult_le_reg_r n); [lra|]. unfold Rdiv. rewrite Rmult_assoc, Rinv_l by lra. nra. }
    destruct half_val as [Vh Fh]. pose proof (v64_fin (nhalf : f64) Fh) as Eh. rewrite Vh in Eh.
    set (q := rnd64 (s / n)) in *.
    assert (v64 (fmul nhalf (fdiv st (fsqrt (lenT x)))) = Fin (rnd64 (/ 2 * q)) /\ 0 <= rnd64 (/ 2 * q) <= P2 (j + 16)) as [E2 B2].
    { rewrite v64_mul, Eh, Eq. cbn [xr2]. apply rnd_nng; [|lia]. lra. }
    set (h := rnd64 (/ 2 * q)) in *.
    assert (v64 (fmul (fmul nhalf (fdiv st (fsqrt (lenT x)))) D) = Fin (rnd64 (h * w)) /\ 0 <= rnd64 (h * w)) as [E3 B3].
    { rewrite v64_mul, E2, Ew. cbn [xr2]. destruct (rnd_nng (h * w) (j + 16 + 101)) as [-> B]; [|lia|split; [reflexivity|lra]]. split; [nra|]. rewrite bpow_plus. apply Rmult_le_compat; lra. }
    right. exists (rnd64 (h * w)). split; [exact E3|]. split; [exact B3|].
    destruct SL as [Z|[Z|(k & K0 & K & L)]].
    - left. unfold h, q. rewrite Z. unfold Rdiv. rewrite Rmult_0_l, rnd64_0, Rmult_0_r, rnd64_0, Rmult_0_l. apply rnd64_0.
    - right. rewrite Z, Rabs_R0, Rmult_0_r. exact B3.
    - right. destruct (Req_EM_T r 0) as [Z|Nr]; [rewrite Z, Rabs_R0, Rmult_0_r; exact B3|].
      assert (P2 (k - 15) <= q) as Lq.
      { apply rnd64_ge; [apply format_P2; lia|]. apply (Rmult_le_reg_r n); [lra|]. unfold Rdiv. rewrite Rmult_assoc, Rinv_l, Rmult_1_r by lra.
        apply Rle_trans with (P2 (k - 15) * P2 15); [apply Rmult_le_compat_l; [apply bpow_ge_0|lra]|]. rewrite <- bpow_plus. eapply Rle_trans; [|exact L]. apply bpow_le. lia. }
      assert (forall i, P2 i = 2 * P2 (i - 1)) as P2h. { intros i. replace i with (i - 1 + 1)%Z at 1 by lia. rewrite P2_S. lra. }
      assert (P2 (k - 16) <= h) as Lh. { apply rnd64_ge; [apply format_P2; lia|]. rewrite (P2h (k - 15)%Z) in Lq. replace (k - 15 - 1)%Z with (k - 16)%Z in Lq by lia. lra. }
      apply (small_scale r _ (mag_up r Nr) _ (k - 17)%Z); [lia|]. apply rnd64_ge; [apply format_P2; lia|].
      rewrite (P2h (k - 16)%Z) in Lh. replace (k - 16 - 1)%Z with (k - 17)%Z in Lh by lia. pose proof (bpow_ge_0 radix2 (k - 17)). nra.
  Qed.

  Lemma log_half_ok c a : conf_ok c -> log_half flog -> v64 (flog (fdiv (f_of_Z 3) (fsub (f_of_Z 1) c))) = Fin a -> / 2 <= a.
  Proof.
    intros C LH Ea. destruct (delta_val c C) as (d & Ed & Hd). apply v64_Fin in Ed as [Fd Bd]. pose proof (bpow_gt_0 radix2 (-53)) as P0.
    destruct (f_of_Z_correct 3) as [V3 F3]; [lia|].
    assert (v64 (fdiv (f_of_Z 3) (fsub (f_of_Z 1) c)) = Fin (rnd64 (3 / d)) /\ 2 <= rnd64 (3 / d) <= P2 60) as [E B].
    { rewrite v64_div_fin; [|exact F3|lra]. rewrite V3, Bd.
      assert (3 <= 3 / d) as L1.
      { apply (Rmult_le_reg_r d); [lra|]. unfold Rdiv. rewrite Rmult_assoc, Rinv_l by lra. nra. }
      assert (3 / d <= P2 60) as L2.
      { apply (Rmult_le_reg_r d); [lra|]. unfold Rdiv. rewrite Rmult_assoc, Rinv_l by lra.
        apply Rle_trans with (P2 60 * P2 (-53)); [|apply Rmult_le_compat_l; [apply bpow_ge_0|lra]]. rewrite <- bpow_plus. cbn. lra. }
      destruct (rnd_nng (3 / d) 60) as [-> [_ U]]; [lra|lia|]. split; [reflexivity|]. split; [|exact U]. apply rnd64_ge; [apply (format64_IZR 2); lia|lra]. }
    apply v64_Fin in E as [F E]. rewrite <- E in B. exact (half_leb _ _ Ea (LH _ F B)).
  Qed.

  (** the range next to the mean *)
  Lemma range_gap a b m : format64 a -> format64 b -> format64 m -> a <= m <= b -> m <> 0 -> a <> b -> P2 (mag radix2 m - 54) <= rnd64 (b - a).
  Proof.
    intros Fa Fb Fm B Z N. set (q := Z.max (mag radix2 m - 54) (-1074)). apply Rle_trans with (P2 q); [apply bpow_le; lia|].
    apply rnd64_ge; [apply format_P2; lia|]. destruct (Req_EM_T a m) as [->|Na].
    - destruct (gap_R b m Fb Fm Z ltac:(auto)) as [_ G]. fold q in G. rewrite Rabs_pos_eq in G; lra.
    - destruct (gap_R a m Fa Fm Z Na) as [_ G]. fold q in G. rewrite Rabs_left1 in G; lra.
  Qed.

  Lemma bernstein_EB_resolved (x : list f64) lo up c r e : (1 <= length x)%nat -> INR (length x) <= MAXN -> loss_ok lo up x -> limit_ok lo -> limit_ok up -> range_ok lo up ->
    conf_ok c -> log_half flog -> v64 (nmean x) = Fin r -> fleb lo (nmean x) = true -> fleb (nmean x) up = true ->
    @bernstein_EB _ _ lib x lo up c = Ok e -> resolved r e.
  Proof.
    intros N M L Ll Lu RO C LH Er Lm Um H. pose proof (loss_bdd _ _ _ L) as F. unfold bernstein_EB in H. apply assert_ok in H as [_ H]. cbv zeta in H.
    apply assert_ok in H as [P0 H]. apply assert_ok in H as [_ H]. apply assert_ok in H as [_ H]. rewrite (degenerate_fin x (bdd_all _ _ F)) in H. cbn [nsub nleb n0 f64_num] in P0, H.
    pose proof (range_cases lo up x N L Ll Lu RO) as RC.
    assert (v64 (fsub up lo) = PInf \/ exists R, v64 (fsub up lo) = Fin R /\ (R = 0 /\ Forall (fun a => v64 a = Fin r) x \/ P2 (-400) <= R <= P2 401 /\ (r = 0 \/ P2 (mag radix2 r - 54) <= R))) as RR.
    { destruct RC as [[_ E]|(a & b & Ea & Eb & AB & E & Q)]; [now left|right]. exists (rnd64 (b - a)). split; [exact E|].
      rewrite v64_leb, Er, Ea in Lm. rewrite v64_leb, Er, Eb in Um. cbn in Lm, Um. apply Rleb_spec in Lm, Um.
      destruct (Req_EM_T a b) as [<-|Nab].
      - left. rewrite Rminus_eq_0. split; [apply rnd64_0|]. eapply Forall_impl; [|exact L]. intros v ((s & Es & _) & A & B).
        rewrite v64_leb, Es, Ea in A. rewrite v64_leb, Es, Eb in B. cbn in A, B. apply Rleb_spec in A, B. rewrite Es. f_equal. lra.
      - right. split.
        + destruct Q as [Q|Q]; [exfalso|exact Q]. apply v64_Fin in Ea as [F1 B1], Eb as [F2 B2]. destruct (RO F1 F2) as [R|R]; [congruence|]. rewrite B1, B2 in R.
          pose proof (rnd64_ge (P2 (-400)) (b - a) (format_P2 (-400) ltac:(lia)) R). pose proof (bpow_gt_0 radix2 (-400)). lra.
        + destruct (Req_EM_T r 0) as [|Nr]; [now left|right]. apply range_gap; eauto using v64_Fin_format. }
    clear RC. set (range_ := fsub up lo) in *. clearbody range_.
    destruct (Z.leb_spec (Z.of_nat (length x)) 1) as [S|S].
    { apply Ok_inj in H. subst e. destruct RR as [E|(R & E & [[Z _]|[B [Z|Q]]])]; [now left| | |]; right; exists R; (split; [exact E|]); pose proof (bpow_gt_0 radix2 (-400)); (split; [lra|]).
      - now left.
      - right. rewrite Z, Rabs_R0, Rmult_0_r. lra.
      - right. destruct (Req_EM_T r 0) as [Z|Nr]; [rewrite Z, Rabs_R0, Rmult_0_r; lra|]. eapply small_scale; [apply (mag_up r Nr)| |exact Q]. lia. }
    apply assert_ok in H as [P H]. apply Ok_inj in H. subst e. cbn [nlog nsqrt fn_f64 ndiv nadd nsub n1 nofZ nmul nleb n0 f64_num] in P |- *.
    destruct (log_ok _ _ _ _ _ GL c C) as (a & Ea & Ha). pose proof (log_half_ok c a C LH Ea) as Ha2.
    set (A := flog (fdiv (f_of_Z 3) (fsub (f_of_Z 1) c))) in *. clearbody A.
    assert (nng 10 A) as NA by (exists a; split; [exact Ea|lra]).
    assert (nng (400 + 16) (@nstd _ _ lib 0 x)) as NS by (apply nng_std; auto; lia).
    pose proof (len_val x M) as EN. assert (1 <= INR (length x)) as N1 by (apply (le_INR 1); exact N).
    set (sq := fsqrt (fdiv (fmul (f_of_Z 2) A) (lenT x))) in *.
    assert (nng 6 sq) as NQ.
    { apply nng_sqrt; [|lia]. apply (nng_le 11); [|lia]. eapply nng_div; [|exact EN|exact N1|lia].
      apply (nng_mul 1 10); [apply nng_ofZ; [lia|cbn; lra]|exact NA|lia]. } clearbody sq.
    assert (Forall (fun a => v64 a = Fin r) x -> v64 (@nstd _ _ lib 0 x) = Fin 0) as SZ.
    { intros Q. unfold nstd. cbn [nsqrt fn_f64]. rewrite (v64_sqrt _ 0); [now rewrite sqrt_0, rnd64_0| |lra]. unfold nvar. cbn [nmul nsub ndiv nofZ f64_num].
      assert (v64 (psum (map (fun a => fmul (fsub a (nmean x)) (fsub a (nmean x))) x)) = Fin 0) as S0.
      { apply (sums_zero _ _ (psum_sums _)). apply Forall_map. eapply Forall_impl; [|exact Q]. intros b Eb. cbn [nmul nsub f64_num].
        assert (v64 (fsub b (nmean x)) = Fin 0) as Z. { rewrite v64_sub, Eb, Er. cbn [xr2]. rewrite Rminus_eq_0, xround_ok, rnd64_0; [reflexivity|]. rewrite Rabs_R0. apply bpow_ge_0. }
        rewrite v64_mul, Z. cbn [xr2]. rewrite Rmult_0_r, xround_ok, rnd64_0; [reflexivity|]. rewrite Rabs_R0. apply bpow_ge_0. }
      pose proof (maxn_Z _ M) as MZ. destruct (f_of_Z_correct (Z.max (Z.of_nat (length x) - 0) 0)) as [VN FN]; [lia|].
      assert (1 <= IZR (Z.max (Z.of_nat (length x) - 0) 0)) as L1 by (apply IZR_le; lia). apply v64_Fin in S0 as [FS BS].
      rewrite v64_div_fin; [|exact FS|lra]. rewrite BS. unfold Rdiv. rewrite Rmult_0_l, xround_ok, rnd64_0; [reflexivity|]. rewrite Rabs_R0. apply bpow_ge_0. }
    set (st := @nstd _ _ lib 0 x) in *. clearbody st.
    assert (nng (400 + 16 + 6) (fmul st sq)) as T1 by (apply nng_mul; [exact NS|exact NQ|lia]).
    assert (Forall (fun a => v64 a = Fin r) x -> v64 (fmul st sq) = Fin 0) as TZ.
    { intros Q. destruct NQ as (s & Eq & _). rewrite v64_mul, (SZ Q), Eq. cbn [xr2]. rewrite Rmult_0_l, xround_ok, rnd64_0; [reflexivity|]. rewrite Rabs_R0. apply bpow_ge_0. }
    set (t1 := fmul st sq) in *. clearbody t1. clear SZ.
    destruct (nng_pos_mul 10 A a NA Ea ltac:(lra) ltac:(lia) ltac:(lia)) as (b & Eb & Hb).
    assert (1 <= b) as Hb1.
    { rewrite v64_mul, v64_ofZ, Ea in Eb by lia. cbn [xr2] in Eb. unfold xround in Eb. destruct (Rlt_bool _ _); [|destruct (Rltb (3 * a) 0); discriminate].
      injection Eb as <-. apply rnd64_ge; [apply format64_1|lra]. }
    set (A3 := fmul (f_of_Z 3) A) in *. clearbody A3. change (2 + 10)%Z with 12%Z in Hb.
    destruct T1 as (u & Eu & Bu).
    destruct RR as [R|(R & ER & RR)].
    - left. assert (v64 (fmul A3 range_) = PInf) as E3.
      { rewrite v64_mul, Eb, R. cbn [xr2 xmul]. unfold xinf_mul. rewrite Reqb_ne by lra. replace (Rltb 0 b) with true; [reflexivity|].
        symmetry. apply Rltb_spec. lra. }
      assert (fmul A3 range_ = B754_infinity false) as -> by (destruct (fmul A3 range_) as [?|[]| |?]; try discriminate; reflexivity).
      unfold lenT. cbn [nofZ f64_num]. rewrite div_inf by assumption. now rewrite v64_add, Eu.
    - assert (0 <= R <= P2 401) as BR. { pose proof (bpow_gt_0 radix2 (-400)). pose proof (bpow_ge_0 radix2 401). destruct RR as [[-> _]|[B _]]; lra. }
      assert (v64 (fmul A3 range_) = Fin (rnd64 (b * R)) /\ 0 <= rnd64 (b * R) <= P2 (12 + 401)) as [E3 B3].
      { rewrite v64_mul, Eb, ER. cbn [xr2]. apply rnd_nng; [|lia]. split; [nra|]. rewrite bpow_plus. apply Rmult_le_compat; lra. }
      apply v64_Fin in EN as [Fn Bn]. destruct (v64_Fin _ _ E3) as [F3 V3].
      set (y := rnd64 (b * R)) in *. set (n := INR (length x)) in *. assert (n <= P2 30) as Hn by exact M.
      assert (0 <= y / n <= P2 (12 + 401)) as P1.
      { split; [apply Rmult_le_pos; [lra|apply Rlt_le, Rinv_0_lt_compat; lra]|]. apply Rle_trans with y; [|lra]. apply (Rmult_le_reg_r n); [lra|]. unfold Rdiv. rewrite Rmult_assoc, Rinv_l by lra. nra. }
      destruct (rnd_nng _ _ P1 ltac:(lia)) as [E4 B4].
      assert (v64 (fdiv (fmul A3 range_) (lenT x)) = Fin (rnd64 (y / n))) as E5. { rewrite v64_div_fin; [|exact F3|lra]. rewrite V3, Bn. exact E4. }
      set (z := rnd64 (y / n)) in *.
      assert (v64 (fadd t1 (fdiv (fmul A3 range_) (lenT x))) = Fin (rnd64 (u + z))) as E6.
      { rewrite v64_add, Eu, E5. cbn [xr2]. apply (rnd_nng (u + z) 500); [|lia]. assert (P2 (400 + 16 + 6) <= P2 499) by (apply bpow_le; lia). assert (P2 (12 + 401) <= P2 499) by (apply bpow_le; lia).
        replace 500%Z with (499 + 1)%Z by lia. rewrite P2_S. lra. }
      assert (0 <= rnd64 (u + z)) as P6 by (apply rnd64_ge; [apply format64_0|lra]).
      right. exists (rnd64 (u + z)). split; [exact E6|]. split; [exact P6|].
      destruct RR as [[Z Q]|[B Q]].
      + left. rewrite (TZ Q) in Eu. injection Eu as <-. unfold z, y. rewrite Z. unfold Rdiv. rewrite Rmult_0_r, rnd64_0, Rmult_0_l, rnd64_0, Rplus_0_r. apply rnd64_0.
      + right. destruct (Req_EM_T r 0) as [Z|Nr]; [rewrite Z, Rabs_R0, Rmult_0_r; exact P6|]. destruct Q as [Q|Q]; [contradiction|].
        set (k := Z.max (mag radix2 r - 54) (-400)). assert (P2 k <= R) as LR. { unfold k. destruct (Z.max_spec (mag radix2 r - 54) (-400)) as [[_ ->]|[_ ->]]; [apply B|exact Q]. }
        assert (P2 k <= y) as Ly. { apply rnd64_ge; [apply format_P2; lia|]. pose proof (bpow_ge_0 radix2 k). nra. }
        assert (P2 (k - 30) <= z) as Lz.
        { apply rnd64_ge; [apply format_P2; lia|]. apply (Rmult_le_reg_r n); [lra|]. unfold Rdiv. rewrite Rmult_assoc, Rinv_l, Rmult_1_r by lra.
          apply Rle_trans with (P2 (k - 30) * P2 30); [apply Rmult_le_compat_l; [apply bpow_ge_0|lra]|]. rewrite <- bpow_plus. replace (k - 30 + 30)%Z with k by lia. exact Ly. }
        apply (small_scale r _ (mag_up r Nr) _ (k - 30)%Z); [lia|]. apply rnd64_ge; [apply format_P2; lia|lra].
  Qed.

  Lemma mean_and_EB_resolved counts (x : list f64) c lo up m mu e r : (1 <= length x)%nat -> INR (length x) <= MAXN -> loss_ok lo up x -> limit_ok lo -> limit_ok up -> range_ok lo up ->
    conf_ok c -> known m -> multinomial_outcome (Z.of_nat (length x)) 1000 counts -> (m = Mt -> wide_quantiles ppf c) -> (m = Mbernstein -> log_half flog) ->
    v64 (nmean x) = Fin r -> fleb lo (nmean x) = true -> fleb (nmean x) up = true ->
    @get_mean_and_EB _ _ lib counts x c n0 lo up m = Ok (mu, e) -> resolved r e.
  Proof.
    intros N M L Ll Lu RO C K MO WQ LH Er Lm Um H. pose proof (loss_bdd _ _ _ L) as F. pose proof (loss_within _ _ _ L) as W. destruct (fleb_notnan _ _ Lm) as [Nl _]. destruct (fleb_notnan _ _ Um) as [_ Nu].
    unfold get_mean_and_EB in H. rewrite W in H. cbn [py_assert bind] in H.
    assert (v64 (fsub up lo) = PInf \/ nng 500 (fsub up lo)) as RR.
    { destruct (range_cases lo up x N L Ll Lu RO) as [[A B]|(a & b & _ & _ & _ & E & Q)]; [now left|right]. exists (rnd64 (b - a)). split; [exact E|].
      assert (P2 401 <= P2 500) by (apply bpow_le; lia). pose proof (bpow_gt_0 radix2 (-400)). pose proof (bpow_gt_0 radix2 401). destruct Q as [->|Q]; lra. }
    destruct (eb_ok _ _ _ _ _ GL 400 counts x c lo up m N M F ltac:(lia) C W RR K MO) as (EB & E & P). rewrite E in H. cbn [bind] in H.
    assert (resolved r EB) as RE.
    { destruct m; [| | |contradiction].
      - eapply t_EB_resolved; eauto. lia.
      - eapply bernstein_EB_resolved; eauto.
      - unfold boot_EB in E. change N_BOOT with 1000%Z in E. unfold _boot_EB_and_test in E. rewrite (fin_nonan x (bdd_all _ _ F)), (degenerate_fin x (bdd_all _ _ F)) in E. cbn [negb py_assert bind] in E.
        destruct (Z.leb_spec (Z.of_nat (length x)) 1) as [S|S].
        { cbn [bind fst snd] in E. apply assert_ok in E as [_ E]. apply Ok_inj in E. rewrite <- E. apply resolved_inf. }
        unfold boot_weights in E. replace (1 <=? Z.of_nat (length x))%Z with true in E by (symmetry; apply Z.leb_le; lia). change (1 <=? 1000)%Z with true in E. cbn [py_assert bind] in E.
        set (ms := map (weighted_mean x) _) in *.
        assert (Z.of_nat (length ms) = 1000)%Z as LM. { unfold ms. rewrite !map_length. apply MO. } clearbody ms.
        assert (sized ms) as SZ by (split; [intros ->; cbn in LM; lia|lia]).
        destruct (error_bar ms (nmean x) c) as [e1|] eqn:E1; cbn [bind] in E; [|discriminate]. cbn [fst snd] in E.
        apply assert_ok in E as [_ E]. apply Ok_inj in E. rewrite <- E. now apply (error_bar_resolved ms (nmean x) r c). }
    destruct (clip_chk isclose (nmean x) lo up) as [mu'|] eqn:Q; cbn [bind] in H; [|discriminate].
    assert (mu' = nmean x) as ->.
    { unfold clip_chk, nclip in Q. cbn [nltb f64_num] in Q. rewrite (fltb_asym_le _ _ Lm), (fltb_asym_le _ _ Um) in Q. apply assert_ok in Q as [_ Q]. apply Ok_inj in Q. now subst. }
    destruct (clip_EB (nmean x) EB lo up n0) as [e'|] eqn:Q2; cbn [bind] in H; [|discriminate]. apply Ok_inj in H. apply pair_equal_spec in H as [_ H]. rewrite <- H.
    destruct (fleb_notnan _ _ P) as [_ Ne]. eapply clip_EB_resolved; [exact Er|exact Ne|exact RE|exact Nl|exact Nu|exact Q2].
  Qed.
End Library.
