(** Lemmas for the comparison of two methods: differences that are all zero. *)
From Coq Require Import Reals Lra Lia.
From Flocq Require Import Core BinarySingleNaN.
From Verif Require Import PyBase ListLemmas F64 F64Lemmas Num NumOk Util UtilProofs BootUtil PerfCurves CurveBoot MLPaper SumProofs.
Open Scope Z_scope.

(** Zeros of both number instances. *)
Class zero_laws {T} (NT : num T) : Prop := {
  zl_sub : forall x : T, nisfin x = true -> nsub x x = n0;
  zl_sub_bad : forall x : T, nisfin x = false -> nisnan (nsub x x) = true;
  zl_add : nadd n0 n0 = (n0 : T);
  zl_mul : nmul n0 n0 = (n0 : T);
  zl_half : nmul nhalf n0 = (n0 : T);
  zl_mul_any : forall x : T, nleb n0 (nmul n0 x) = true -> neqb (nmul n0 x) n0 = true;
  zl_mul_nan : forall x y : T, nisnan x = true -> nisnan (nmul x y) = true;
  zl_weight : forall k, 0 <= k -> nisfin (nofZ k : T) = true -> nmul n0 (nmax n0 (nofZ k)) = (n0 : T);
  zl_div : forall k, 1 <= k -> ndiv n0 (nofZ k) = (n0 : T);
  zl_div00 : nisnan (ndiv n0 n0 : T) = true;
  zl_fin : nisfin (n0 : T) = true;
  zl_one : forall k, 1 <= k -> nisfin (nofZ k : T) = true -> ndiv (nofZ k) (nofZ k) = (n1 : T);
  zl_two : nmin n1 (nmul (nofZ 2) n1) = (n1 : T);
  zl_tiny : nleb n0 (ndiv n1 (nofZ (10 ^ 100)) : T) = true;
  zl_unit : nleb n0 (n1 : T) = true
}.
(** The special functions at zero. *)
Class fn_zero_laws {T} (NT : num T) (FT : fn T) : Prop := {
  fz_sqrt : nsqrt n0 = (n0 : T);
  fz_exp : nleb n1 (nmul (nofZ 3) (nexp n0) : T) = true;
  fz_sf : forall df (x : T), nisnan x = true -> nisnan (t_sf df x) = true;
  fz_root : forall k, 1 <= k -> nmul n0 (nsqrt (ndiv (nofZ 2) (nofZ k))) = (n0 : T);
  fz_div : forall k, 1 <= k -> ndiv n0 (nsqrt (nofZ k)) = (n0 : T)
}.

Lemma bind_ok {A B} (m : res A) (f : A -> res B) b : bind m f = Ok b -> exists a, m = Ok a /\ f a = Ok b.
Proof. destruct m; cbn; [eauto|discriminate]. Qed.

Section Zero.
  Context {T : Type} {NT : num T} {OK : num_ok NT} {ZL : zero_laws NT}.
  Notation zeros n := (repeat (n0 : T) n).

  Lemma zero_notnan : nisnan (n0 : T) = false.
  Proof. apply fin_notnan_, zl_fin. Qed.
  Lemma zero_leb : nleb (n0 : T) n0 = true.
  Proof. apply leb_refl_, zero_notnan. Qed.
  Lemma zero_eqb : neqb (n0 : T) n0 = true.
  Proof. rewrite eqb_leb_, zero_leb. reflexivity. Qed.
  Lemma one_notnan : nisnan (n1 : T) = false.
  Proof. exact (proj2 (leb_notnan_ _ _ zl_unit)). Qed.
  Lemma zsum n : psum (zeros n) = n0.
  Proof.
    apply (psum_closed (fun v => v = n0)); [reflexivity|intros a b -> ->; apply zl_add|].
    apply Forall_forall. intros v H. exact (repeat_spec _ _ _ H).
  Qed.
  Lemma zmean n : (1 <= n)%nat -> nmean (zeros n) = n0.
  Proof. intros H. unfold nmean. rewrite zsum, repeat_length. apply zl_div. lia. Qed.
  Lemma zsub : nsub (n0 : T) n0 = n0.
  Proof. apply zl_sub, zl_fin. Qed.
  Lemma map_repeat {A B} (f : A -> B) a n : map f (repeat a n) = repeat (f a) n.
  Proof. induction n; cbn; congruence. Qed.
  Lemma zvar ddof n : (1 <= n)%nat -> 1 <= Z.max (Z.of_nat n - ddof) 0 -> nvar ddof (zeros n) = n0.
  Proof.
    intros H K. unfold nvar. rewrite zmean by exact H. rewrite map_repeat, zsub, zl_mul, zsum, repeat_length. now apply zl_div.
  Qed.
  Lemma zeros_nonan n : existsb nisnan (zeros n) = false.
  Proof. induction n; cbn; [reflexivity|]. now rewrite zero_notnan. Qed.
  Lemma zeros_degenerate n : (2 <= n)%nat -> degenerate (zeros n) = false.
  Proof.
    intros H. unfold degenerate. rewrite repeat_length. replace (Z.of_nat n <=? 1) with false by (symmetry; apply Z.leb_gt; lia).
    assert (forallb nisfin (zeros n) = true) as ->; [|reflexivity]. clear H. induction n; cbn; [reflexivity|]. now rewrite zl_fin.
  Qed.
  Lemma zabs : nabs (n0 : T) = n0.
  Proof. unfold nabs. rewrite zero_leb. apply zsub. Qed.
  Lemma zopp : nopp (n0 : T) = n0.
  Proof. apply zsub. Qed.
  Lemma nabs_nan (x : T) : nisnan x = true -> nabs x = x.
  Proof.
    intros N. unfold nabs. destruct (nleb x n0) eqn:E; [|reflexivity]. apply leb_notnan_ in E as [E _]. congruence.
  Qed.

  (** [x - x] for a column without NaN: all zeros, or there is an infinity and
      the difference has a NaN. *)
  Lemma self_deltas (x : list T) : existsb nisnan (map2 nsub x x) = false -> map2 nsub x x = zeros (length x).
  Proof.
    induction x as [|a x IH]; cbn; [reflexivity|]. intros H. apply orb_false_iff in H as [Ha H]. rewrite (IH H). f_equal.
    destruct (nisfin a) eqn:F; [now apply zl_sub|]. rewrite (zl_sub_bad a F) in Ha. discriminate.
  Qed.

  (** *** bootstrap *)
  Lemma zweighted n row : Forall (fun k => 0 <= k /\ nisfin (nofZ k : T) = true) row -> length row = n -> (1 <= n)%nat ->
    weighted_mean (zeros n) (map (fun k => nmax n0 (nofZ k)) row) = n0.
  Proof.
    intros F L P. unfold weighted_mean. assert (map2 nmul (zeros n) (map (fun k => nmax n0 (nofZ k)) row) = zeros n) as ->.
    { subst n. clear P. induction F as [|k row [K1 K2] F IH]; cbn; [reflexivity|]. now rewrite zl_weight, IH. }
    now apply zmean.
  Qed.
  Lemma filter_repeat_true {A} (f : A -> bool) a n : f a = true -> filter f (repeat a n) = repeat a n.
  Proof. intros H. induction n; cbn; [reflexivity|]. now rewrite H, IHn. Qed.
  Lemma mean_bool_true n : (1 <= n)%nat -> nisfin (nofZ (Z.of_nat n) : T) = true -> mean_bool (repeat true n) = (n1 : T).
  Proof. intros H F. unfold mean_bool. rewrite filter_repeat_true by reflexivity. rewrite repeat_length. apply zl_one; [lia|exact F]. Qed.
  Lemma map2_self {A B} (f : A -> A -> B) b l : Forall (fun a => f a a = b) l -> map2 f l l = repeat b (length l).
  Proof. induction 1 as [|a l H F IH]; cbn; [reflexivity|]. now rewrite H, IH. Qed.
  Lemma min_one : nmin n1 (nmul (nofZ 2) (nmin n1 n1)) = (n1 : T).
  Proof. replace (nmin n1 n1) with (n1 : T); [apply zl_two|]. unfold nmin. now destruct (nleb n1 n1 || nisnan n1). Qed.

  (** The bootstrap test of a list against itself. *)
  Lemma significance_self (b : list T) p : b <> [] -> nisfin (nofZ (Z.of_nat (length b)) : T) = true ->
    significance b (Paired b) = Ok p -> p = n1.
  Proof.
    intros NE F. unfold significance. rewrite Nat.eqb_refl. cbn [py_assert bind].
    destruct (existsb nisnan b) eqn:N; [discriminate|]. cbn [negb py_assert bind ref_values].
    assert (Forall (fun a : T => nleb a a = true) b) as R.
    { apply Forall_forall. intros a I. apply leb_refl_. apply not_true_iff_false. intros Q. rewrite <- not_true_iff_false in N.
      apply N, existsb_exists. eauto. }
    rewrite (map2_self _ _ _ R). rewrite mean_bool_true; [|destruct b; [contradiction|cbn; lia]|exact F].
    rewrite min_one. intros H. now apply Ok_inj in H.
  Qed.
  Lemma significance_zero n p : (1 <= n)%nat -> nisfin (nofZ (Z.of_nat n) : T) = true ->
    significance (zeros n) (Scalar n0) = Ok p -> p = n1.
  Proof.
    intros P F H. apply (significance_self (zeros n)).
    - destruct n; [lia|discriminate].
    - now rewrite repeat_length.
    - rewrite <- H. unfold significance. cbn [ref_values]. rewrite repeat_length, Nat.eqb_refl, zeros_nonan, zero_notnan. reflexivity.
  Qed.
  Lemma index_repeat {A} (a : A) n i v : py_index (repeat a n) i = Ok v -> v = a.
  Proof.
    unfold py_index. destruct (_ <? 0); [discriminate|]. destruct (nth_error _ _) eqn:E; [|discriminate]. intros H. apply Ok_inj in H. subst.
    apply nth_error_In in E. now apply repeat_spec in E.
  Qed.
  Lemma sort_zeros n : sort (zeros n) = zeros n.
  Proof. induction n as [|n IH]; cbn; [reflexivity|]. rewrite IH. destruct n; cbn; [reflexivity|]. now rewrite zero_leb. Qed.
  Lemma percentile_zeros n c lb ub : percentile (zeros n) c = Ok (lb, ub) -> lb = n0 /\ ub = n0.
  Proof.
    unfold percentile. rewrite zeros_nonan. cbn [negb py_assert bind]. destruct (confidence_to_percentiles c) as [[p q]|]; [|discriminate].
    cbn [bind]. intros H. apply bind_ok in H as (l & E1 & H). apply bind_ok in H as (u & E2 & H). apply Ok_inj in H. injection H as <- <-.
    unfold np_percentile in E1, E2. destruct (nltb _ _ || _) in E1; [discriminate|]. destruct (nltb _ _ || _) in E2; [discriminate|].
    rewrite sort_zeros in *. split; eapply index_repeat; eauto.
  Qed.
  Lemma error_bar_zeros n c e : error_bar (zeros n) n0 c = Ok e -> e = n0.
  Proof.
    unfold error_bar. destruct (percentile (zeros n) c) as [[lb ub]|] eqn:P; [|discriminate]. cbn [bind fst snd].
    apply percentile_zeros in P as [-> ->]. rewrite zsub. intros H.
    apply bind_ok in H as (? & _ & H). apply bind_ok in H as (? & _ & H). apply Ok_inj in H. subst e.
    unfold nfmax. now rewrite zero_leb.
  Qed.
End Zero.

Lemma assert_ok {B} b (f : res B) v : (assert! b; f) = Ok v -> b = true /\ f = Ok v.
Proof. destruct b; cbn; [auto|discriminate]. Qed.

Section ZeroTests.
  Context {T : Type} {NT : num T} {OK : num_ok NT} {ZL : zero_laws NT} {FT : fn T} {FZ : fn_zero_laws NT FT}.
  Notation zeros n := (repeat (n0 : T) n).

  Lemma zstd ddof n : (1 <= n)%nat -> 1 <= Z.max (Z.of_nat n - ddof) 0 -> nstd ddof (zeros n) = n0.
  Proof. intros H K. unfold nstd. rewrite zvar by assumption. apply fz_sqrt. Qed.

  (** Degenerate data (at most one point) have p-value one anyway. *)
  Lemma t_test_zeros n p : t_test (zeros n) = Ok p -> p = n1.
  Proof.
    unfold t_test. rewrite zeros_nonan. cbn [negb py_assert bind]. destruct (Nat.lt_ge_cases n 2) as [L|L].
    - unfold degenerate. rewrite repeat_length. replace (Z.of_nat n <=? 1) with true by (symmetry; apply Z.leb_le; lia). cbn [orb].
      intros H. now apply Ok_inj in H.
    - rewrite zeros_degenerate by exact L. unfold ttest_1samp. rewrite zmean, zvar by lia. unfold lenT. rewrite repeat_length, zl_div by lia.
      rewrite fz_sqrt, zsub.
      assert (nisnan (nmul (t_sf (Z.of_nat n - 1) (nabs (ndiv n0 n0))) (nofZ 2 : T)) = true) as ->.
      { apply zl_mul_nan, fz_sf. rewrite nabs_nan; apply zl_div00. }
      rewrite zl_tiny, zero_eqb. cbn [py_assert bind]. intros H. apply assert_ok in H as [_ H]. now apply Ok_inj in H.
  Qed.

  Lemma bernstein_test_zeros n lo up p : bernstein_test (zeros n) lo up = Ok p -> p = n1.
  Proof.
    unfold bernstein_test. rewrite zeros_nonan. cbn [negb]. intros H. apply assert_ok in H as [_ H]. apply assert_ok in H as [_ H].
    apply assert_ok in H as [_ H]. destruct (degenerate (zeros n)) eqn:D; [now apply Ok_inj in H|].
    assert (2 <= n)%nat as L.
    { destruct (Nat.lt_ge_cases n 2) as [L|L]; [|exact L]. unfold degenerate in D. rewrite repeat_length in D.
      replace (Z.of_nat n <=? 1) with true in D by (symmetry; apply Z.leb_le; lia). discriminate. }
    destruct (neqb _ n0 || _); [now apply Ok_inj in H|]. apply assert_ok in H as [_ H].
    rewrite zmean, zabs, zopp, zstd in H by lia. unfold lenT in H. rewrite repeat_length, fz_root in H by lia.
    unfold np_roots in H. rewrite zero_eqb in H. rewrite !andb_true_r in H.
    destruct (neqb (ndiv _ _) n0) eqn:A.
    - cbn [andb] in H. discriminate H.
    - cbn [andb] in H. cbn [length Nat.eqb py_assert bind existsb] in H. rewrite zero_leb in H. cbn [orb py_assert bind fold_left] in H.
      assert (nmax n0 n0 = (n0 : T)) as M by (unfold nmax; now rewrite zero_leb). rewrite M, zl_mul, zopp in H.
      apply assert_ok in H as [_ H]. apply Ok_inj in H. subst p. unfold nmin. now rewrite fz_exp.
  Qed.

  Section BootZeros.
    Context (n : nat) (n_boot : Z) (counts : list (list Z)).
    Hypothesis (L : (2 <= n)%nat) (MO : multinomial_outcome (Z.of_nat n) n_boot counts) (NB : 1 <= n_boot)
      (FN : forall k, 0 <= k <= Z.max (Z.of_nat n) n_boot -> nisfin (nofZ k : T) = true).

    Lemma boot_means_zeros :
      map (weighted_mean (zeros n)) (map (map (fun k => nmax n0 (nofZ k))) counts) = zeros (length counts).
    Proof.
      pose proof (proj2 MO) as F. clear NB MO. induction F as [|row cs (F1 & F2 & F3) F IH]; cbn; [reflexivity|]. f_equal; [|exact IH].
      apply zweighted; [|lia|lia]. assert (forall r, Forall (fun k => 0 <= k) r -> Forall (fun k => 0 <= k <= fold_right Z.add 0 r) r) as G.
      { clear. induction 1 as [|k r K F IH]; constructor; cbn [fold_right].
        - assert (0 <= fold_right Z.add 0 r); [|lia]. clear - F. induction F; cbn [fold_right]; lia.
        - eapply Forall_impl; [|exact IH]. cbn. intros; lia. }
      specialize (G row F2). rewrite F3 in G. eapply Forall_impl; [|exact G]. cbn. intros k K. split; [lia|]. apply FN. lia.
    Qed.
    Lemma boot_core_zeros c rE rT rC EB p CI : _boot_EB_and_test counts (zeros n) c n_boot rE rT rC = Ok (EB, p, CI) ->
      p = n1 /\ (rE = true -> EB = n0).
    Proof.
      unfold _boot_EB_and_test. intros H. apply assert_ok in H as [_ H]. rewrite zeros_degenerate in H by exact L.
      apply bind_ok in H as (w & W & H). unfold boot_weights in W. apply assert_ok in W as [_ W]. apply assert_ok in W as [_ W].
      apply Ok_inj in W. subst w. rewrite boot_means_zeros in H. rewrite zmean in H by lia.
      apply bind_ok in H as (q & Q & H). apply bind_ok in H as (e & E & H). apply bind_ok in H as (ci & _ & H).
      apply Ok_inj in H. injection H as <- <- <-. destruct MO as [LC _]. split.
      - destruct rT; [|now apply Ok_inj in Q]. eapply significance_zero; [| |exact Q]; [lia|]. apply FN. lia.
      - intros ->. eapply error_bar_zeros; eauto.
    Qed.
    Lemma boot_test_zeros p : boot_test counts (zeros n) n_boot = Ok p -> p = n1.
    Proof.
      unfold boot_test. intros H. apply bind_ok in H as ([[e q] ci] & E & H). cbn [fst snd] in H. apply assert_ok in H as [_ H].
      apply Ok_inj in H. subst q. now apply boot_core_zeros in E as [E _].
    Qed.
  End BootZeros.

  Lemma t_EB_zeros n c e : (2 <= n)%nat -> t_EB (zeros n) c = Ok e -> neqb e n0 = true.
  Proof.
    intros L. unfold t_EB. intros H. apply assert_ok in H as [_ H]. apply assert_ok in H as [_ H].
    rewrite zeros_degenerate in H by exact L. apply assert_ok in H as [_ H]. apply assert_ok in H as [N H]. apply Ok_inj in H.
    rewrite zstd in * by lia. unfold lenT in *. rewrite repeat_length in *. rewrite fz_div, zl_half in * by lia. subst e. now apply zl_mul_any.
  Qed.

  Lemma clip_EB_zero mu EB lo up v : clip_EB mu EB lo up n0 = Ok v -> neqb EB n0 = true -> v = EB.
  Proof.
    intros H E. unfold clip_EB in H. apply assert_ok in H as [_ H]. apply assert_ok in H as [_ H].
    destruct (nltb mu lo || _); [discriminate|]. destruct (nltb (nsub up lo) _); [discriminate|]. apply assert_ok in H as [A H].
    apply Ok_inj in H. subst v. rewrite eqb_leb_ in E. apply andb_true_iff in E as [E1 E2]. unfold nclip.
    destruct (leb_notnan_ _ _ E1) as [N1 N0]. rewrite ltb_leb_, E2 by assumption. cbn [negb].
    destruct (nltb (nfmax _ _) EB) eqn:Q; [|reflexivity]. exfalso. destruct (ltb_notnan_ _ _ Q) as [M _].
    rewrite ltb_leb_ in Q by assumption. rewrite ltb_leb_ in A by assumption. rewrite negb_involutive in A.
    rewrite (leb_trans_ _ _ _ E1 A) in Q. discriminate.
  Qed.

  (** The two cell computations of loss_summary_table on zero differences. *)
  Lemma get_test_zeros counts n lo up m p :
    (m = Mboot -> multinomial_outcome (Z.of_nat n) N_BOOT counts) ->
    (forall k, 0 <= k <= Z.max (Z.of_nat n) N_BOOT -> nisfin (nofZ k : T) = true) ->
    get_test counts (zeros n) lo up m = Ok p -> p = n1.
  Proof.
    intros MO FN. destruct m; cbn [get_test]; intros H.
    - eapply t_test_zeros; eauto.
    - eapply bernstein_test_zeros; eauto.
    - destruct (Nat.lt_ge_cases n 2) as [L|L].
      + unfold boot_test, _boot_EB_and_test in H. rewrite zeros_nonan in H. cbn [negb py_assert bind] in H.
        unfold degenerate in H. rewrite repeat_length in H. replace (Z.of_nat n <=? 1) with true in H by (symmetry; apply Z.leb_le; lia).
        cbn [orb bind fst snd] in H. apply assert_ok in H as [_ H]. now apply Ok_inj in H.
      + eapply boot_test_zeros; eauto. unfold N_BOOT. lia.
    - discriminate.
  Qed.
  Lemma get_mean_EB_test_zeros counts n c lo up m mu e p :
    (m = Mboot -> multinomial_outcome (Z.of_nat n) N_BOOT counts) ->
    (forall k, 0 <= k <= Z.max (Z.of_nat n) N_BOOT -> nisfin (nofZ k : T) = true) ->
    get_mean_EB_test counts (zeros n) c n0 lo up m = Ok (mu, e, p) ->
    p = n1 /\ ((2 <= n)%nat -> m = Mt \/ m = Mboot -> neqb e n0 = true).
  Proof.
    intros MO FN H. unfold get_mean_EB_test in H. apply assert_ok in H as [_ H]. apply bind_ok in H as ([eb q] & E & H).
    cbn [fst snd] in H. apply bind_ok in H as (mu' & _ & H). apply bind_ok in H as (e' & C & H). apply Ok_inj in H. injection H as <- <- <-.
    destruct m.
    - apply bind_ok in E as (a & A & E). apply bind_ok in E as (b & B & E). apply Ok_inj in E. injection E as <- <-.
      split; [eapply t_test_zeros; eauto|]. intros L _. pose proof (t_EB_zeros _ _ _ L A) as Z. rewrite (clip_EB_zero _ _ _ _ _ C Z). exact Z.
    - apply bind_ok in E as (a & A & E). apply bind_ok in E as (b & B & E). apply Ok_inj in E. injection E as <- <-.
      split; [eapply bernstein_test_zeros; eauto|]. intros _ [|]; discriminate.
    - apply bind_ok in E as ([[a b] ci] & A & E). apply Ok_inj in E. cbn [fst] in E. injection E as <- <-.
      destruct (Nat.lt_ge_cases n 2) as [L|L].
      + unfold _boot_EB_and_test in A. rewrite zeros_nonan in A. cbn [negb py_assert bind] in A.
        unfold degenerate in A. rewrite repeat_length in A. replace (Z.of_nat n <=? 1) with true in A by (symmetry; apply Z.leb_le; lia).
        cbn [orb] in A. apply Ok_inj in A. injection A as _ <- _. split; [reflexivity|]. lia.
      + apply boot_core_zeros in A as [A1 A2]; auto; [|unfold N_BOOT; lia]. split; [exact A1|]. intros _ _.
        specialize (A2 eq_refl). subst a. rewrite (clip_EB_zero _ _ _ _ _ C zero_eqb). apply zero_eqb.
    - discriminate.
  Qed.
End ZeroTests.

(** ** Exact numbers *)
Open Scope R_scope.
Lemma xr_ofZ_ne k : (1 <= k)%Z -> Reqb (IZR k) 0 = false.
Proof. intros H. destruct (Reqb (IZR k) 0) eqn:E; [|reflexivity]. apply Reqb_spec in E. apply eq_IZR in E. lia. Qed.
Lemma Reqb00 : Reqb 0 0 = true. Proof. now apply Reqb_spec. Qed.
Global Instance xr_zero_laws : zero_laws xr_num.
Proof.
  constructor; cbn -[IZR Z.pow].
  - intros [] H; try discriminate. unfold xsub. cbn. f_equal. lra.
  - intros [] H; try discriminate; reflexivity.
  - f_equal. lra.
  - f_equal. lra.
  - unfold nhalf. cbn -[IZR]. rewrite xr_ofZ_ne by lia. cbn -[IZR]. f_equal. lra.
  - intros [r| | |]; cbn -[IZR].
    + intros _. apply Reqb_spec. lra.
    + unfold xinf_mul. rewrite Reqb00. discriminate.
    + unfold xinf_mul. rewrite Reqb00. discriminate.
    + discriminate.
  - intros [] y H; try discriminate. destruct y; reflexivity.
  - intros k H _. unfold nmax. cbn -[IZR]. destruct (Rleb _ _); cbn; f_equal; lra.
  - intros k H. rewrite xr_ofZ_ne by exact H. f_equal. unfold Rdiv. lra.
  - now rewrite Reqb00.
  - reflexivity.
  - intros k H _. rewrite xr_ofZ_ne by exact H. f_equal. apply Rinv_r. apply not_0_IZR. lia.
  - unfold nmin. cbn -[IZR]. destruct (Rleb 1 (2 * 1)) eqn:E; [reflexivity|]. apply Rleb_false in E. lra.
  - rewrite xr_ofZ_ne by lia. apply Rleb_spec. apply Rlt_le, Rdiv_lt_0_compat; [lra|]. apply IZR_lt. lia.
  - apply Rleb_spec. lra.
Qed.
Lemma fn_xr_zero_laws sf ppf : fn_zero_laws xr_num (fn_xr sf ppf).
Proof.
  constructor; cbn -[IZR Z.pow].
  - destruct (Rltb 0 0) eqn:E; [apply Rltb_spec in E; lra|]. now rewrite sqrt_0.
  - apply Rleb_spec. rewrite exp_0. lra.
  - intros df [] H; try discriminate; reflexivity.
  - intros k H. rewrite xr_ofZ_ne by exact H. cbn -[IZR].
    assert (0 < IZR k) as K by (apply IZR_lt; lia). destruct (Rltb (2 / IZR k) 0) eqn:E.
    + apply Rltb_spec in E. assert (0 < 2 / IZR k) by (apply Rdiv_lt_0_compat; lra). lra.
    + cbn. f_equal. lra.
  - intros k H. assert (0 < IZR k) as K by (apply IZR_lt; lia). destruct (Rltb (IZR k) 0) eqn:E; [apply Rltb_spec in E; lra|].
    cbn -[IZR]. pose proof (sqrt_lt_R0 _ K) as S. destruct (Reqb (sqrt (IZR k)) 0) eqn:Q; [apply Reqb_spec in Q; lra|]. f_equal. unfold Rdiv. lra.
Qed.

(** ** Doubles *)
(** positive and not zero; infinity included *)
Definition fpos (x : f64) : Prop :=
  match x with B754_finite s _ _ _ => s = false | B754_infinity s => s = false | _ => False end.
Lemma fpos_ofZ k : (1 <= k)%Z -> fpos (f_of_Z k).
Proof.
  intros H. pose proof (binary_normalize_correct prec64 emax64 _ _ mode_NE k 0 false) as C. cbv zeta in C.
  fold (f_of_Z k) in C. simpl (round_mode mode_NE) in C. assert (F2R (Float radix2 k 0) = IZR k) as E by (unfold F2R; cbn; lra).
  rewrite E in C. assert (1 <= IZR k) as K by now apply IZR_le.
  destruct (Rlt_bool _ _).
  - destruct C as (V & F & _). assert (1 <= B2R (f_of_Z k)) as P by (rewrite V; apply rnd64_ge; [apply format64_1|exact K]).
    destruct (f_of_Z k) as [s|s| |s m e B]; try discriminate; cbn [B2R] in P; [lra|]. destruct s; [|reflexivity].
    exfalso. assert (F2R (Float radix2 (Zneg m) e) < 0) by now apply F2R_lt_0. cbn [cond_Zopp] in P. change (- Z.pos m)%Z with (Zneg m) in P. lra.
  - rewrite Rlt_bool_false in C by lra. destruct (f_of_Z k) as [s|s| |s m e B]; try discriminate. cbn in C. injection C as ->. reflexivity.
Qed.
Lemma fofZ_ge1 k : (1 <= k)%Z -> fisfin (f_of_Z k) = true -> 1 <= B2R (f_of_Z k).
Proof.
  intros H G. pose proof (binary_normalize_correct prec64 emax64 _ _ mode_NE k 0 false) as C. cbv zeta in C.
  fold (f_of_Z k) in C. simpl (round_mode mode_NE) in C. assert (F2R (Float radix2 k 0) = IZR k) as E by (unfold F2R; cbn; lra).
  rewrite E in C. assert (1 <= IZR k) as K by now apply IZR_le. destruct (Rlt_bool _ _).
  - destruct C as (V & F & _). rewrite V. apply rnd64_ge; [apply format64_1|exact K].
  - rewrite Rlt_bool_false in C by lra. destruct (f_of_Z k) as [s|s| |s m e B]; discriminate.
Qed.
Lemma fzero_div x : fpos x -> fdiv f0 x = f0.
Proof. destruct x as [s|s| |s m e B]; cbn; try contradiction; intros ->; reflexivity. Qed.
Lemma fzero_mul x : fpos x -> fisfin x = true -> fmul f0 x = f0.
Proof. destruct x as [s|s| |s m e B]; cbn; try contradiction; try discriminate; intros -> _; reflexivity. Qed.
Lemma fsub_self x : fisfin x = true -> fsub x x = f0.
Proof.
  intros F. pose proof (Bminus_correct prec64 emax64 _ _ mode_NE x x F F) as C. cbv zeta in C. fold (fsub x x) in C.
  simpl (round_mode mode_NE) in C. rewrite Rminus_diag_eq, rnd64_0, Rabs_R0, Rlt_bool_true in C by (auto; apply bpow_gt_0).
  destruct C as (V & G & S). rewrite Rcompare_Eq in S by reflexivity. destruct (fsub x x) as [s|s| |s m e B] eqn:E; try discriminate.
  - cbn in S. destruct (Bsign x); cbn in S; subst; reflexivity.
  - cbn [B2R] in V. symmetry in V. exfalso. assert (F2R (Float radix2 (cond_Zopp s (Z.pos m)) e) <> 0); [|lra].
    intros Q. apply eq_0_F2R in Q. destruct s; discriminate.
Qed.
Lemma fdiv_self x : fpos x -> fisfin x = true -> fdiv x x = f_of_Z 1.
Proof.
  intros P F. assert (0 < B2R x) as PR.
  { destruct x as [s|s| |s m e B]; cbn in P; try contradiction; try discriminate. subst s. cbn [B2R]. now apply F2R_gt_0. }
  assert (B2R x / B2R x = 1) as Q by (field; lra). destruct (fdiv_correct x x F) as [V G]; [lra| |].
  { rewrite Q, rnd64_1. rewrite Rabs_R1. pose proof bpow_emax_big. lra. }
  rewrite Q, rnd64_1 in V. destruct (f_of_Z_correct 1) as [V1 G1]; [lia|].
  apply B2R_inj.
  - destruct (fdiv x x) as [s|s| |s m e B]; try discriminate; cbn [B2R] in V; [lra|reflexivity].
  - reflexivity.
  - rewrite V, V1. reflexivity.
Qed.
Global Instance f64_zero_laws : zero_laws f64_num.
Proof.
  constructor; cbn -[f_of_Z fadd fsub fmul fdiv f0 fleb feqb Z.pow].
  - exact fsub_self.
  - intros [s|[]| |s m e B] H; try discriminate; reflexivity.
  - reflexivity.
  - reflexivity.
  - vm_compute. reflexivity.
  - intros [[]|[]| |[] m e B]; try discriminate; reflexivity.
  - intros [s|s| |s m e B] y H; try discriminate. destruct y; reflexivity.
  - intros k H F. unfold nmax. cbn -[f_of_Z fleb fmul f0]. destruct (fleb _ _ || _); [reflexivity|].
    destruct (Z.eq_dec k 0) as [->|N]; [reflexivity|]. apply fzero_mul; [apply fpos_ofZ; lia|exact F].
  - intros k H. apply fzero_div, fpos_ofZ, H.
  - reflexivity.
  - reflexivity.
  - intros k H F. apply fdiv_self; [apply fpos_ofZ, H|exact F].
  - unfold nmin. change (nleb (f_of_Z 1) (fmul (f_of_Z 2) (f_of_Z 1))) with (fleb (f_of_Z 1) (fmul (f_of_Z 2) (f_of_Z 1))).
    assert (fleb (f_of_Z 1) (fmul (f_of_Z 2) (f_of_Z 1)) = true) as -> by (vm_compute; reflexivity). reflexivity.
  - vm_compute. reflexivity.
  - vm_compute. reflexivity.
Qed.

(** finite and not negative *)
Definition fnn (x : f64) : Prop := fisfin x = true /\ Bsign x = false.
Lemma fzero_mul_nn x : fnn x -> fmul f0 x = f0.
Proof. intros [F S]. destruct x as [s|s| |s m e B]; try discriminate; cbn in S; subst s; reflexivity. Qed.
Lemma fnn_sqrt x : fnn x -> fnn (fsqrt x).
Proof.
  intros [F S]. pose proof (Bsqrt_correct prec64 emax64 _ _ mode_NE x) as (V & G & H). fold (fsqrt x) in V, G, H.
  destruct x as [s|s| |s m e B]; try discriminate; cbn in S; subst s; [split; reflexivity|]. split; [exact G|]. apply H.
  now apply fisfin_notnan.
Qed.
Lemma fnn_div2 k : (1 <= k)%Z -> fnn (fdiv (f_of_Z 2) (f_of_Z k)).
Proof.
  intros K. pose proof (fpos_ofZ k K) as P. destruct (fisfin (f_of_Z k)) eqn:F.
  - pose proof (fofZ_ge1 k K F) as G. set (y := f_of_Z k) in *. assert (B2R y <> 0) as NZ by lra.
    destruct (f_of_Z_correct 2) as [V2 F2]; [lia|].
    assert (0 <= B2R (f_of_Z 2) / B2R y <= 2) as R.
    { rewrite V2. split; [apply Rlt_le, Rdiv_lt_0_compat; lra|]. apply Rmult_le_reg_r with (B2R y); [lra|]. unfold Rdiv. rewrite Rmult_assoc, Rinv_l by lra. lra. }
    pose proof (Bdiv_correct prec64 emax64 _ _ mode_NE (f_of_Z 2) y NZ) as C. cbv zeta in C. fold (fdiv (f_of_Z 2) y) in C.
    simpl (round_mode mode_NE) in C. rewrite Rlt_bool_true in C.
    + destruct C as (V & G' & S). split; [etransitivity; [exact G'|exact F2]|]. rewrite S; [|apply fisfin_notnan; etransitivity; [exact G'|exact F2]].
      assert (Bsign y = false) as -> by (destruct y as [s|s| |s m e B]; cbn in P |- *; try contradiction; auto).
      reflexivity.
    + pose proof bpow_emax_big. assert (0 <= rnd64 (B2R (f_of_Z 2) / B2R y)) by (rewrite <- rnd64_0 at 1; apply rnd64_mono; lra).
      assert (rnd64 (B2R (f_of_Z 2) / B2R y) <= 2) by (apply rnd64_le; [apply (format64_IZR 2); lia|lra]).
      rewrite Rabs_pos_eq by lra. lra.
  - destruct (f_of_Z k) as [s|s| |s m e B]; cbn in P; try contradiction; try discriminate. subst s. split; reflexivity.
Qed.
Lemma fpos_sqrtZ k : (1 <= k)%Z -> fpos (fsqrt (f_of_Z k)).
Proof.
  intros K. pose proof (fpos_ofZ k K) as P. destruct (fisfin (f_of_Z k)) eqn:F.
  - pose proof (fofZ_ge1 k K F) as G. set (y := f_of_Z k) in *.
    assert (fnn (fsqrt y)) as [N1 N2].
    { apply fnn_sqrt. split; [exact F|]. destruct y as [s|s| |s m e B]; cbn in P |- *; try contradiction; auto. }
    pose proof (Bsqrt_correct prec64 emax64 _ _ mode_NE y) as (V & _). fold (fsqrt y) in V. simpl (round_mode mode_NE) in V.
    assert (1 <= B2R (fsqrt y)) as Q.
    { rewrite V. apply rnd64_ge; [apply format64_1|]. rewrite <- sqrt_1. apply sqrt_le_1_alt. exact G. }
    destruct (fsqrt y) as [s|s| |s m e B]; try discriminate; cbn in N2; subst s; cbn in Q |- *; [lra|reflexivity].
  - destruct (f_of_Z k) as [s|s| |s m e B]; cbn in P; try contradiction; try discriminate. subst s. reflexivity.
Qed.

(** Any mathematical library whose exp(0) is 1 and whose t distribution
    propagates NaN. *)
Lemma fn_f64_zero_laws fexp flog sf ppf eig :
  fexp f0 = f_of_Z 1 -> (forall df x, fisnan x = true -> fisnan (sf df x) = true) ->
  fn_zero_laws f64_num (fn_f64 fexp flog sf ppf eig).
Proof.
  intros E N. constructor; cbn -[f_of_Z fleb fmul fdiv fsqrt f0].
  - reflexivity.
  - rewrite E. vm_compute. reflexivity.
  - exact N.
  - intros k K. apply fzero_mul_nn, fnn_sqrt, fnn_div2, K.
  - intros k K. apply fzero_div, fpos_sqrtZ, K.
Qed.
