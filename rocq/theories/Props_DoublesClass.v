(** Property theorems C95 (normalize in double precision), C96 (the
    classification losses in double precision) and C97 (predictions and loss
    tables of classification.py in double precision).  [sum] is the order in
    which numpy adds up a row; the theorems are about every order. *)
From Coq Require Import Reals Lra Lia.
From Flocq Require Import Core BinarySingleNaN.
From Verif Require Import PyBase ListLemmas F64 Num F64Lemmas NumOk SumProofs Util UtilProofs BootUtil BootProofs2 PerfCurves CurveBoot MLPaper MLProofs MLProofs4 CompareProofs
  SwapProofs MeanProofs DoublesProofs DoublesProofs2 Checkpoint CheckpointProofs Classification Regression Benchmark ClassProofs ClassProofs2 ClassProofs3 ClassProofs4 ClassProofs5
  RegrProofs LossTableProofs BenchProofs DoublesProofs3 AnyNormalize DoublesProofs4 DoublesProofs5.
From Verif Require Import Props_Boot Props_Curves Props_MLPaper Props_Classification Props_Predict Props_Regression Props_Tables Props_Benchmark Props_Mean Props_Doubles Props_DoublesBench.
Open Scope R_scope.

(** ** The specification *)
(** a log probability: minus infinity or a finite number up to 2^k in size *)
Definition score (k : Z) (a : f64) : Prop := a = fninf \/ (fisfin a = true /\ Rabs (B2R a) <= bpow radix2 k).
(** a row of them that does not exclude every label *)
Definition score_row (k : Z) (L : nat) (row : list f64) : Prop :=
  length row = L /\ Forall (score k) row /\ Exists (fun a => fisfin a = true) row.
(** a row of normalised log probabilities *)
Definition logp_row (k : Z) (L : nat) (row : list f64) : Prop := score_row k L row /\ Forall (fun a => fleb a f0 = true) row.
(** finite and in a range *)
Definition in_range (lo up : R) (v : f64) : Prop := fisfin v = true /\ lo <= B2R v <= up.

Lemma ninf_v64 x : v64 x = NInf <-> x = fninf.
Proof.
  split; [|intros ->; reflexivity]. destruct x as [s|[]| |s m e B]; cbn; try discriminate. reflexivity.
Qed.
Lemma score_lprob k a : score k a <-> lprob k a.
Proof.
  unfold score, lprob. rewrite ninf_v64. split; (intros [H|H]; [now left|right]).
  - destruct H as [F B]. now apply value_bdd.
  - now apply bdd_iff.
Qed.
Lemma score_fin k a : score k a -> fisfin a = true -> bdd k a.
Proof. intros [->|[F B]] H; [discriminate|now apply value_bdd]. Qed.
Lemma score_lprobs k row : Forall (score k) row -> Forall (lprob k) row.
Proof. apply Forall_impl. intros a. apply score_lprob. Qed.
Lemma score_exists k row : Forall (score k) row -> Exists (fun a => fisfin a = true) row -> Exists (bdd k) row.
Proof.
  intros F E. apply Exists_exists in E as (a & I & H). apply Exists_exists. exists a. split; [exact I|]. rewrite Forall_forall in F. now apply score_fin; auto.
Qed.
Lemma logp_nrow k L row : logp_row k L row -> nrow k L row.
Proof. intros [(A & B & C) D]. split; [exact A|]. split; [now apply score_lprobs|]. split; [exact D|now apply score_exists]. Qed.
Lemma rng_range lo up v : rng lo up v <-> in_range lo up v.
Proof.
  split; [intros (r & E & R); apply v64_Fin in E as [F <-]; now split|]. intros [F R]. exists (B2R v). split; [now apply v64_fin|exact R].
Qed.
Lemma rng_ranges lo up l : Forall (rng lo up) l -> Forall (in_range lo up) l.
Proof. apply Forall_impl. intros a. apply rng_range. Qed.

Section C95.
  Context (fexp flog : f64 -> f64) (sf ppf : Z -> f64 -> f64) (eig : f64 -> f64 -> option (f64 * f64)) (EL : exp_log fexp flog).
  Notation lib := (fn_f64 fexp flog sf ppf eig).
  Context (sum : list f64 -> f64) (SUM : forall l, sums_to l (sum l)).

  (** C95: normalize returns, never creates a NaN or a positive log
      probability, and keeps what was excluded excluded, what was finite finite
      and the order of the labels. *)
  Theorem C95_normalize :
    forall k L m, (10 <= k <= 900)%Z -> (1 <= L)%nat -> INR L <= bpow radix2 30 -> Forall (score_row k L) m ->
    exists p, @any_normalize _ _ lib sum L m = Ok p /\
    Forall2 (fun row q =>
      logp_row (k + 2) L q /\
      Forall2 (fun a b => (a = fninf <-> b = fninf) /\ (fisfin a = true <-> fisfin b = true)) row q /\
      forall i j a a' b b', nth_error row i = Some a -> nth_error row j = Some a' -> nth_error q i = Some b -> nth_error q j = Some b' ->
        fleb a a' = true -> fleb b b' = true) m p.
  Proof.
    intros k L m K L1 LB F. unfold any_normalize. destruct (Z.leb_spec 1 (Z.of_nat L)) as [_|]; [|lia]. cbn [py_assert bind]. eexists. split; [reflexivity|].
    induction F as [|row m (Ln & Fr & Ex) F IH]; cbn [map]; constructor; [|exact IH].
    pose proof (score_lprobs _ _ Fr) as LP. pose proof (score_exists _ _ Fr Ex) as EB. assert (INR (length row) <= MAXN) as LB' by (rewrite Ln; exact LB).
    pose proof (normalize_row_ok fexp flog sf ppf eig EL sum SUM k row K LB' LP EB) as Q.
    assert (Forall2 (fun a b : f64 => score k a /\ fleb b f0 = true /\ (v64 a = NInf -> v64 b = NInf) /\ (bdd k a -> bdd (k + 2) b)) row (@any_normalize_row _ _ lib sum row)) as Q'.
    { clear - Fr Q. induction Q as [|a b ? ? H Q IH]; constructor; inversion Fr; subst; auto. }
    split; [|split].
    - split; [split; [|split]|].
      + unfold any_normalize_row. now rewrite map_length.
      + clear - Q'. induction Q' as [|a b ? ? (S & _ & N & B) Q IH]; constructor; [|exact IH]. apply score_lprob. apply score_lprob in S. destruct S; [left|right]; auto.
      + clear - Q' Ex. induction Q' as [|a b ? ? (S & _ & N & B) Q IH]; [inversion Ex|]. inversion Ex as [? ? H|? ? H]; subst.
        * left. eapply bdd_fin, B, score_fin; eauto.
        * right. auto.
      + clear - Q'. induction Q' as [|a b ? ? (S & H & _) Q IH]; constructor; assumption.
    - clear - Q'. induction Q' as [|a b ? ? (S & _ & N & B) Q IH]; constructor; [|exact IH]. rewrite <- !ninf_v64. destruct S as [->|[Fa Ba]].
      + specialize (N eq_refl). pose proof N as N'. apply ninf_v64 in N' as ->. repeat split; auto.
      + pose proof (value_bdd _ _ Fa Ba) as Z. destruct (B Z) as (r & E & R). pose proof E as E'. apply v64_Fin in E' as [Fb _]. rewrite E, (v64_fin a Fa), Fa, Fb. repeat split; auto; discriminate.
    - intros i j a a' b b' Ia Ia' Ib Ib' LE.
      destruct (logsumexp_ok fexp flog sf ppf eig EL sum SUM k row K LB' LP EB) as (mx & e & _ & Ee & _ & Be & _). unfold any_normalize_row in Ib, Ib'. rewrite nth_error_map, Ia in Ib. rewrite nth_error_map, Ia' in Ib'.
      cbv zeta in Ib, Ib'. match type of Ee with v64 ?t = _ => set (z := t) in * end. clearbody z.
      assert (b = fsub a z) as -> by (now injection Ib). assert (b' = fsub a' z) as -> by (now injection Ib').
      rewrite Forall_forall in Fr. pose proof (Fr a (nth_error_In _ _ Ia)) as Sa. pose proof (Fr a' (nth_error_In _ _ Ia')) as Sa'. apply score_lprob in Sa, Sa'.
      assert (forall t, Rabs t <= P2 k -> xround (t - e) = Fin (rnd64 (t - e))) as XO.
      { intros t T. apply xround_ok. apply Rle_trans with (P2 (k + 1 + 1)); [|apply bpow_le; lia]. rewrite P2_S. pose proof (bpow_le radix2 k (k + 1) ltac:(lia)).
        apply Rabs_le_inv in T, Be. apply Rabs_le. lra. }
      rewrite v64_leb in LE. rewrite v64_leb, !v64_sub, Ee. destruct Sa as [Na|(r & Er & R)].
      + rewrite Na in *. destruct Sa' as [Na'|(r' & Er' & R')]; [rewrite Na'; reflexivity|]. rewrite Er'. cbn [xr2]. rewrite (XO r' R'). reflexivity.
      + rewrite Er in *. destruct Sa' as [Na'|(r' & Er' & R')]; [rewrite Na' in LE; discriminate|]. rewrite Er' in *. apply Rleb_spec in LE. cbn [xr2].
        pose proof (rnd64_mono (r - e) (r' - e) ltac:(lra)) as MO.
        rewrite (XO r R), (XO r' R'). now apply Rleb_spec.
  Qed.

  (** The log probabilities are those of the exact normaliser, and the
      probabilities sum to one, up to an error of a few units in the last place
      per label. *)
  Theorem C95_accurate :
    forall L A m p, accurate_exp_log fexp flog -> 0 <= A <= bpow radix2 30 -> INR L <= bpow radix2 30 ->
    Forall (fun row => length row = L /\ Forall (fun a => a = fninf \/ (fisfin a = true /\ Rabs (B2R a) <= A)) row /\ Exists (fun a => fisfin a = true) row) m ->
    @any_normalize _ _ lib sum L m = Ok p ->
    Forall2 (fun row q =>
      let log_total := ln (Rsum (map (fun a => pr (v64 a)) row)) in
      Forall2 (fun a b => fisfin a = true -> Rabs (B2R b - (B2R a - log_total)) <= bpow radix2 (-47) * (INR L + A)) row q /\
      Rabs (Rsum (map (fun b => pr (v64 b)) q) - 1) <= bpow radix2 (-46) * (INR L + A)) m p.
  Proof.
    intros L A m p AE AB LB F E. unfold any_normalize in E. destruct (1 <=? Z.of_nat L)%Z; [|discriminate]. cbn [py_assert bind] in E. apply Ok_inj in E. subst p.
    induction F as [|row m (Ln & Fr & Ex) F IH]; cbn [map]; constructor; [|exact IH]. cbv zeta.
    assert (Forall (entry A) row) as FE.
    { eapply Forall_impl; [|exact Fr]. intros a [->|[H B]]; [now left|right]. exists (B2R a). split; [now apply v64_fin|exact B]. }
    destruct (normalize_accurate fexp flog sf ppf eig EL AE sum SUM row A AB) as [H1 H2]; [rewrite Ln; exact LB|exact FE|exact Ex|].
    rewrite Ln in H1, H2. split; [|exact H2]. clear - H1. fold (lse row). set (tot := lse row) in *. clearbody tot. induction H1 as [|a b ? ? H H1 IH]; constructor; [|exact IH]. intros Fa. destruct (H _ (v64_fin a Fa)) as (t & Et & T). apply v64_Fin in Et as [_ <-]. exact T.
  Qed.
End C95.
Print Assumptions C95_normalize.
Print Assumptions C95_accurate.

(** ** The hypotheses are met: by the correctly rounded exp and log *)
(** the double nearest to a real number *)
Definition nearest64 (r : R) : f64 := f_of_me (Ztrunc (scaled_mantissa radix2 fexp64 (rnd64 r))) (cexp radix2 fexp64 (rnd64 r)).
Lemma nearest64_correct r : Rabs r <= bpow radix2 1000 -> fisfin (nearest64 r) = true /\ B2R (nearest64 r) = rnd64 r.
Proof.
  intros H. assert (format64 (rnd64 r)) as FM by (apply generic_format_round; typeclasses eauto).
  pose proof (binary_normalize_correct prec64 emax64 _ _ mode_NE (Ztrunc (scaled_mantissa radix2 fexp64 (rnd64 r))) (cexp radix2 fexp64 (rnd64 r)) false) as C.
  assert (F2R (Float radix2 (Ztrunc (scaled_mantissa radix2 fexp64 (rnd64 r))) (cexp radix2 fexp64 (rnd64 r))) = rnd64 r) as E by (symmetry; exact FM).
  cbv zeta in C. rewrite E in C. simpl (round_mode mode_NE) in C. rewrite (rnd64_id _ FM) in C.
  destruct (rnd_bdd r 1000 H) as [_ B]; [lia|]. rewrite Rlt_bool_true in C; [|eapply Rle_lt_trans; [exact B|apply bpow_lt; unfold emax64; lia]].
  destruct C as (C1 & C2 & _). split; [exact C2|exact C1].
Qed.
Definition round_exp (z : f64) : f64 := match v64 z with Fin r => nearest64 (exp r) | NInf => f0 | _ => z end.
Definition round_log (z : f64) : f64 := nearest64 (ln (B2R z)).
Lemma ln_P2 : ln (bpow radix2 60) <= 60.
Proof.
  replace (bpow radix2 60) with (2 ^ 60) by (cbn; lra). rewrite ln_pow by lra. assert (ln 2 <= 1); [|cbn; lra].
  pose proof (exp_ineq1_le (ln 2)) as I. rewrite exp_ln in I by lra. lra.
Qed.
Lemma round_exp_ok z : fleb z f0 = true -> exists r, v64 (round_exp z) = Fin r /\ 0 <= r <= 1 /\ Rabs (r - pr (v64 z)) <= bpow radix2 (-50) /\ (v64 z = Fin 0 -> r = 1).
Proof.
  intros H. rewrite v64_leb in H. change (v64 f0) with (Fin 0) in H. unfold round_exp. destruct (v64 z) as [r| | |] eqn:E; try discriminate.
  - apply Rleb_spec in H. assert (0 <= exp r <= 1) as B by (split; [apply Rlt_le, exp_pos|rewrite <- exp_0; destruct H as [H| ->]; [apply Rlt_le, exp_increasing, H|lra]]).
    destruct (nearest64_correct (exp r)) as [F V].
    { rewrite Rabs_pos_eq by lra. apply Rle_trans with (bpow radix2 0); [exact (proj2 B)|apply bpow_le; lia]. }
    exists (rnd64 (exp r)). rewrite <- V at 1. split; [now apply v64_fin|]. split; [split; [apply rnd64_ge; [apply format64_0|lra]|apply rnd64_le; [apply format64_1|lra]]|]. split.
    + cbn [pr]. eapply Rle_trans; [apply rnd_err|]. rewrite Rabs_pos_eq by lra. assert (bpow radix2 (-1075) <= u64) by (apply bpow_le; unfold prec64; lia).
      assert (bpow radix2 (-50) = 8 * u64) by (unfold u64; replace (-50)%Z with (3 + -53)%Z by lia; rewrite bpow_plus; change (bpow radix2 3) with 8; lra). pose proof u64_pos. nra.
    + intros Q. injection Q as ->. rewrite exp_0. apply rnd64_1.
  - exists 0. split; [reflexivity|]. split; [lra|]. split; [cbn [pr]; rewrite Rminus_0_r, Rabs_R0; apply bpow_ge_0|discriminate].
Qed.
Example C95_rounded : exp_log round_exp round_log /\ accurate_exp_log round_exp round_log.
Proof.
  assert (forall z : f64, 1 <= B2R z <= bpow radix2 60 -> 0 <= ln (B2R z) <= 60) as LN.
  { intros z [A B]. split; [rewrite <- ln_1; destruct A as [A|<-]; [apply Rlt_le, ln_increasing; lra|lra]|]. eapply Rle_trans; [|apply ln_P2]. destruct B as [B| ->]; [apply Rlt_le, ln_increasing; lra|lra]. }
  assert (forall z : f64, 1 <= B2R z <= bpow radix2 60 -> fisfin (round_log z) = true /\ B2R (round_log z) = rnd64 (ln (B2R z))) as RL.
  { intros z B. apply nearest64_correct. pose proof (LN z B). rewrite Rabs_pos_eq by lra. apply Rle_trans with (IZR (2 ^ 6)); [cbn; lra|]. change (IZR (2 ^ 6)) with (bpow radix2 6). apply bpow_le. lia. }
  split; split.
  - intros z F V. destruct (round_exp_ok z) as (r & E & _ & _ & Q); [rewrite v64_leb, (v64_fin z F), V; change (v64 f0) with (Fin 0); apply Rleb_spec; lra|]. rewrite (v64_fin z F), V in Q. specialize (Q eq_refl). subst r. now apply v64_Fin in E.
  - intros z H. destruct (round_exp_ok z H) as (r & E & R & _). rewrite !v64_leb, E, (v64_ofZ 1) by lia. change (v64 f0) with (Fin 0). split; apply Rleb_spec; lra.
  - intros z F B. destruct (RL z B) as [F' V]. pose proof (LN z B) as L. split; [exact F'|]. rewrite V. split; [apply rnd64_ge; [apply format64_0|lra]|]. apply rnd64_le; [apply format_P2; lia|].
    change (bpow radix2 10) with (IZR (2 ^ 10)). cbn. lra.
  - intros z H. destruct (round_exp_ok z H) as (r & E & _ & A & _). apply v64_Fin in E as [F <-]. auto.
  - intros z F B. destruct (RL z B) as [F' V]. pose proof (LN z B) as L. split; [exact F'|]. rewrite V. eapply Rle_trans; [apply rnd_err|]. rewrite Rabs_pos_eq by lra.
    assert (bpow radix2 (-1075) <= u64) by (apply bpow_le; unfold prec64; lia).
    assert (bpow radix2 (-50) = 8 * u64) by (unfold u64; replace (-50)%Z with (3 + -53)%Z by lia; rewrite bpow_plus; change (bpow radix2 3) with 8; lra). pose proof u64_pos. nra.
Qed.
(** A row that excludes one label and is far from normalised. *)
Definition ex_scores : list (list f64) := [[f_of_Z 700; fninf; f_of_Z 705]; [f_of_Z (-1000); f_of_Z 3; f_of_Z 3]].
Lemma small_score n : (Z.abs n <= 1000)%Z -> fisfin (f_of_Z n) = true /\ Rabs (B2R (f_of_Z n)) <= 1000.
Proof. intros H. destruct (f_of_Z_correct n) as [V F]; [lia|]. split; [exact F|]. rewrite V, <- abs_IZR. now apply (IZR_le _ 1000). Qed.
Lemma ex_scores_small : Forall (fun row => length row = 3%nat /\ Forall (fun a => a = fninf \/ (fisfin a = true /\ Rabs (B2R a) <= 1000)) row /\ Exists (fun a => fisfin a = true) row) ex_scores.
Proof.
  assert (forall n, (Z.abs n <= 1000)%Z -> f_of_Z n = fninf \/ (fisfin (f_of_Z n) = true /\ Rabs (B2R (f_of_Z n)) <= 1000)) as S by (intros n H; right; now apply small_score).
  unfold ex_scores. apply Forall_cons; [|apply Forall_cons; [|apply Forall_nil]]; (split; [reflexivity|split]).
  - apply Forall_cons; [apply S; lia|]. apply Forall_cons; [now left|]. apply Forall_cons; [apply S; lia|apply Forall_nil].
  - apply Exists_cons_hd. reflexivity.
  - do 3 (apply Forall_cons; [apply S; lia|]). apply Forall_nil.
  - apply Exists_cons_hd. reflexivity.
Qed.
Lemma ex_scores_ok k : (10 <= k)%Z -> Forall (score_row k 3) ex_scores.
Proof.
  intros K. eapply Forall_impl; [|exact ex_scores_small]. intros row (A & B & C). split; [exact A|]. split; [|exact C]. eapply Forall_impl; [|exact B].
  intros a [H|[H1 H2]]; [now left|right]. split; [exact H1|]. eapply Rle_trans; [exact H2|]. apply Rle_trans with (bpow radix2 10); [cbn; lra|now apply bpow_le].
Qed.
Example C95_example :
  exists p, @any_normalize _ _ (fn_f64 round_exp round_log tame_sf tame_ppf tame_eig) nsum 3 ex_scores = Ok p /\ Forall (logp_row 12 3) p /\
  Forall (fun q => Rabs (Rsum (map (fun b => pr (v64 b)) q) - 1) <= / 1000000000) p.
Proof.
  assert (INR 3 <= bpow radix2 30) as L3 by (change (bpow radix2 30) with (IZR (2 ^ 30)); rewrite INR_IZR_INZ; apply IZR_le; cbn; lia).
  destruct C95_rounded as [EL AE]. destruct (C95_normalize _ _ tame_sf tame_ppf tame_eig EL nsum nsum_sums 10 3 ex_scores) as (p & E & F); [lia|lia|exact L3|apply ex_scores_ok; lia|].
  exists p. split; [exact E|]. split; [clear E; induction F as [|? ? ? ? (H & _) F IH]; constructor; assumption|].
  pose proof (C95_accurate _ _ tame_sf tame_ppf tame_eig EL nsum nsum_sums 3 1000 ex_scores p AE) as G. assert (Q : 0 <= 1000 <= bpow radix2 30) by (change (bpow radix2 30) with (IZR (2 ^ 30)); cbn; lra).
  specialize (G Q L3 ex_scores_small E). clear - G. induction G as [|? ? ? ? (_ & H) G IH]; constructor; [|exact IH]. eapply Rle_trans; [exact H|].
  apply Rle_trans with (bpow radix2 (-46) * bpow radix2 11); [apply Rmult_le_compat_l; [apply bpow_ge_0|cbn; lra]|]. rewrite <- bpow_plus. cbn. lra.
Qed.

Section C96.
  Context (fexp flog : f64 -> f64) (sf ppf : Z -> f64 -> f64) (eig : f64 -> f64 -> option (f64 * f64)) (EL : exp_log fexp flog).
  Notation lib := (fn_f64 fexp flog sf ppf eig).
  Context (sum : list f64 -> f64) (SUM : forall l, sums_to l (sum l)).
  Variables (kd : dkind) (y : list Z) (P : list (list f64)) (L : nat) (k : Z).
  Hypotheses (V : valid_y kd y (length P) L) (LB : INR L <= bpow radix2 30) (K : (10 <= k <= 800)%Z) (F : Forall (logp_row k L) P).

  Lemma logp_nrows : Forall (nrow k L) P.
  Proof. eapply Forall_impl; [|exact F]. intros row. apply logp_nrow. Qed.

  (** C96 *)
  Theorem C96_log_loss : Forall (Forall (fun a => fisfin a = true)) P ->
    exists l, log_loss kd y P L = Ok l /\ length l = length y /\ Forall (in_range 0 (bpow radix2 k)) l.
  Proof.
    clear EL SUM LB K. intros FF. destruct (log_ok kd y P L k V logp_nrows) as (l & A & B & C).
    - rewrite Forall_forall in *. intros row I. specialize (F row I) as [(_ & S & _) _]. specialize (FF row I). rewrite Forall_forall in *. intros a Ia. apply score_fin; auto.
    - exists l. split; [exact A|]. split; [exact B|]. eapply Forall_impl; [|exact C]. intros v Hv. now apply rng_range.
  Qed.
  Theorem C96_brier_loss : forall rescale,
    exists l, @brier_loss _ _ lib rescale kd y P L = Ok l /\ length l = length y /\
      Forall (in_range 0 (if rescale && (1 <? Z.of_nat L)%Z then 2 * INR L else INR L)) l.
  Proof.
    clear SUM K. intros rescale. destruct (brier_ok fexp flog sf ppf eig EL kd y P L k V logp_nrows rescale LB) as (l & A & B & C).
    exists l. split; [exact A|]. split; [exact B|]. apply rng_ranges. replace (if rescale && (1 <? Z.of_nat L)%Z then 2 * INR L else INR L) with (IZR (Z.of_nat L * (if rescale && (1 <? Z.of_nat L)%Z then 2 else 1))); [exact C|].
    rewrite INR_IZR_INZ. destruct (rescale && (1 <? Z.of_nat L)%Z); rewrite mult_IZR; lra.
  Qed.
  Theorem C96_spherical_loss : forall rescale,
    exists l, @any_spherical_loss _ _ lib sum rescale kd y P L = Ok l /\ length l = length y /\
      Forall (if rescale then in_range 0 4 else in_range (-1) 0) l.
  Proof.
    intros rescale. destruct (spherical_ok fexp flog sf ppf eig EL sum SUM kd y P L k V logp_nrows rescale LB K) as (l & A & B & C).
    exists l. split; [exact A|]. split; [exact B|]. destruct rescale; now apply rng_ranges.
  Qed.
  Theorem C96_hard_loss : forall mat n (Q : f64 -> Prop), length mat = L -> (1 <= n)%nat -> Forall (fun r => length r = n /\ Forall Q r) mat ->
    exists l, @hard_loss _ _ lib kd y P L (Some (mat, n)) = Ok l /\ length l = length y /\ Forall Q l.
  Proof. clear EL SUM LB K. intros mat n Q A B C. now apply (hard_ok fexp flog sf ppf eig kd y P L V Q mat n A B). Qed.
  Theorem C96_zero_one_loss :
    exists l, @hard_loss _ _ lib kd y P L None = Ok l /\ length l = length y /\ Forall (in_range 0 1) l.
  Proof.
    clear EL SUM LB K. rewrite hard_none. destruct (zero_one_ok L) as [A B]. pose proof V as (_ & L1 & _).
    destruct (hard_ok fexp flog sf ppf eig kd y P L V (rng 0 1) (zero_one L) L A L1 B) as (l & C & D & G). exists l. split; [exact C|]. split; [exact D|now apply rng_ranges].
  Qed.
End C96.
Print Assumptions C96_log_loss.
Print Assumptions C96_brier_loss.
Print Assumptions C96_spherical_loss.
Print Assumptions C96_hard_loss.
Print Assumptions C96_zero_one_loss.

(** ** Limits that the losses respect *)
Definition limit_below (c : R) (b : f64) : Prop := (b = fninf \/ (fisfin b = true /\ B2R b <= c)) /\ ordinary_limit b /\ short_limit b.
Definition limit_above (c : R) (b : f64) : Prop := (b = finf \/ (fisfin b = true /\ c <= B2R b)) /\ ordinary_limit b /\ short_limit b.
(** the losses of classification.py for [L] labels; [fin]: no label is excluded *)
Inductive c_float_loss (lib : fn f64) (sum : list f64 -> f64) (L : nat) (fin : Prop) : metric_fun f64 -> f64 * f64 -> Prop :=
  | c_float_log lower : fin -> limit_below 0 lower -> c_float_loss lib sum L fin log_loss (lower, finf)
  | c_float_brier rescale lower upper : limit_below 0 lower -> limit_above (2 * INR L) upper -> c_float_loss lib sum L fin (@brier_loss _ _ lib rescale) (lower, upper)
  | c_float_spherical lower upper : limit_below (-1) lower -> limit_above 0 upper -> c_float_loss lib sum L fin (@any_spherical_loss _ _ lib sum false) (lower, upper)
  | c_float_spherical_rescaled lower upper : limit_below 0 lower -> limit_above 4 upper -> c_float_loss lib sum L fin (@any_spherical_loss _ _ lib sum true) (lower, upper)
  | c_float_zero_one lower upper : limit_below 0 lower -> limit_above 1 upper ->
      c_float_loss lib sum L fin (fun kd y P ncol => @hard_loss _ _ lib kd y P ncol None) (lower, upper)
  | c_float_hard mat n lower upper : length mat = L -> (1 <= n)%nat -> Forall (fun r => length r = n /\ Forall (ordinary_loss lower upper) r) mat ->
      ordinary_limit lower -> ordinary_limit upper -> short_limit lower -> short_limit upper -> ordinary_range lower upper ->
      c_float_loss lib sum L fin (fun kd y P ncol => @hard_loss _ _ lib kd y P ncol (Some (mat, n))) (lower, upper).

Lemma below_leb c lower v up : limit_below c lower -> in_range c up v -> fleb lower v = true.
Proof.
  intros ([->|[Fl Bl]] & _) [Fv [A _]]; rewrite v64_leb, (v64_fin v Fv); [reflexivity|]. rewrite (v64_fin lower Fl). apply Rleb_spec. lra.
Qed.
Lemma above_leb c upper v lo : limit_above c upper -> in_range lo c v -> fleb v upper = true.
Proof.
  intros ([->|[Fl Bl]] & _) [Fv [_ A]]; rewrite v64_leb, (v64_fin v Fv); [reflexivity|]. rewrite (v64_fin upper Fl). apply Rleb_spec. lra.
Qed.
Lemma range_ordinary lo up lower upper l : limit_below lo lower -> limit_above up upper -> - bpow radix2 400 <= lo -> up <= bpow radix2 400 ->
  Forall (in_range lo up) l -> Forall (ordinary_loss lower upper) l.
Proof.
  intros B A L U. apply Forall_impl. intros v R. split; [apply R|]. split; [|split; [eapply below_leb; eauto|eapply above_leb; eauto]].
  destruct R as [_ R]. apply Rabs_le. lra.
Qed.
Lemma range_limits lo up lower upper : limit_below lo lower -> limit_above up upper -> 1 <= up - lo ->
  (ordinary_limit lower /\ ordinary_limit upper /\ ordinary_range lower upper) /\ short_limit lower /\ short_limit upper.
Proof.
  intros (B & O1 & S1) (A & O2 & S2) D. split; [|auto]. split; [exact O1|]. split; [exact O2|]. intros F1 F2.
  destruct B as [->|[_ B]]; [discriminate|]. destruct A as [->|[_ A]]; [discriminate|]. right. apply Rle_trans with (bpow radix2 0); [apply bpow_le; lia|cbn; lra].
Qed.
Lemma inf_above c : limit_above c finf.
Proof. split; [now left|]. split; intros H; discriminate H. Qed.

Section C97.
  Context (fexp flog : f64 -> f64) (sf ppf : Z -> f64 -> f64) (eig : f64 -> f64 -> option (f64 * f64)) (GL : good_library fexp flog sf ppf eig) (EL : exp_log fexp flog).
  Notation lib := (fn_f64 fexp flog sf ppf eig).
  Context (sum : list f64 -> f64) (SUM : forall l, sums_to l (sum l)).

  Lemma c_float_ok f lim kd y P L fin : c_float_loss lib sum L fin f lim -> valid_y kd y (length P) L -> INR L <= bpow radix2 30 ->
    Forall (logp_row 200 L) P -> (fin -> Forall (Forall (fun a => fisfin a = true)) P) ->
    exists l, f kd y P L = Ok l /\ length l = length y /\ Forall (ordinary_loss (fst lim) (snd lim)) l.
  Proof.
    clear GL. intros FL V LB F FIN.
    assert (bpow radix2 200 <= bpow radix2 400) as P24 by (apply bpow_le; lia). assert (bpow radix2 30 * bpow radix2 1 <= bpow radix2 200) as P31 by (rewrite <- bpow_plus; apply bpow_le; lia).
    change (bpow radix2 1) with 2 in P31. assert (4 <= bpow radix2 400) as P4 by (change 4 with (bpow radix2 2); apply bpow_le; lia).
    assert (0 <= INR L) as L0 by apply pos_INR. assert (0 <= bpow radix2 400) as P0 by apply bpow_ge_0.
    destruct FL as [lower FN B|rescale lower upper B A|lower upper B A|lower upper B A|lower upper B A|mat n lower upper LM N FM O1 O2 S1 S2 OR]; cbn [fst snd].
    - destruct (C96_log_loss kd y P L 200 V F (FIN FN)) as (l & E & LL & Q). exists l. split; [exact E|]. split; [exact LL|]. eapply range_ordinary; [exact B|apply (inf_above (bpow radix2 200))|lra|lra|exact Q].
    - destruct (C96_brier_loss fexp flog sf ppf eig EL kd y P L 200 V LB F rescale) as (l & E & LL & Q). exists l. split; [exact E|]. split; [exact LL|].
      eapply range_ordinary; [exact B|exact A|lra|lra|]. eapply Forall_impl; [|exact Q]. intros v [Fv R]. split; [exact Fv|]. destruct (rescale && (1 <? Z.of_nat L)%Z); lra.
    - destruct (C96_spherical_loss fexp flog sf ppf eig EL sum SUM kd y P L 200 V LB ltac:(lia) F false) as (l & E & LL & Q). exists l. split; [exact E|]. split; [exact LL|].
      eapply range_ordinary; [exact B|exact A|lra|lra|exact Q].
    - destruct (C96_spherical_loss fexp flog sf ppf eig EL sum SUM kd y P L 200 V LB ltac:(lia) F true) as (l & E & LL & Q). exists l. split; [exact E|]. split; [exact LL|].
      eapply range_ordinary; [exact B|exact A|lra|lra|exact Q].
    - destruct (C96_zero_one_loss fexp flog sf ppf eig kd y P L V) as (l & E & LL & Q). exists l. split; [exact E|]. split; [exact LL|].
      eapply range_ordinary; [exact B|exact A|lra|lra|exact Q].
    - destruct (C96_hard_loss fexp flog sf ppf eig kd y P L V mat n _ LM N FM) as (l & E & LL & Q). exists l. auto.
  Qed.
  Lemma c_float_limits f lim L fin : (1 <= L)%nat -> c_float_loss lib sum L fin f lim -> (ordinary_limit (fst lim) /\ ordinary_limit (snd lim) /\ ordinary_range (fst lim) (snd lim)) /\
    short_limit (fst lim) /\ short_limit (snd lim).
  Proof.
    clear GL EL. intros L1 FL. apply le_INR in L1. cbn [INR] in L1.
    destruct FL as [lower FN B|rescale lower upper B A|lower upper B A|lower upper B A|lower upper B A|mat n lower upper LM N FM O1 O2 S1 S2 OR]; cbn [fst snd]; [| | | | |auto].
    - apply (range_limits 0 1); [exact B|apply inf_above|lra].
    - apply (range_limits 0 (2 * INR L)); auto; lra.
    - apply (range_limits (-1) 0); auto; lra.
    - apply (range_limits 0 4); auto; lra.
    - apply (range_limits 0 1); auto; lra.
  Qed.
  Lemma any_seen k L rows : (10 <= k <= 900)%Z -> (1 <= L)%nat -> INR L <= bpow radix2 30 -> Forall (score_row k L) rows ->
    exists P, @any_normalize _ _ lib sum L rows = Ok P /\ length P = length rows /\ Forall (logp_row (k + 2) L) P /\
      (Forall (Forall (fun a => fisfin a = true)) rows -> Forall (Forall (fun a => fisfin a = true)) P).
  Proof.
    clear GL. intros K L1 LB F. destruct (C95_normalize fexp flog sf ppf eig EL sum SUM k L rows K L1 LB F) as (P & E & Q). exists P. split; [exact E|]. clear E F. induction Q as [|row q m p (H1 & H2 & _) Q (A & B & C)].
    - auto.
    - split; [cbn; lia|]. split; [now constructor|]. intros FF. inversion FF as [|? ? Fr FF']; subst. constructor; [|now apply C]. clear - H2 Fr. induction H2 as [|a b ? ? (_ & H) H2 IH]; constructor; inversion Fr; subst; [now apply H|auto].
  Qed.

  (** C97: the table of losses of predictions of ordinary size exists, is
      accepted by the summary, and every number in the summary is sane. *)
  Lemma c_bench_table :
    forall draw (tbl : pred_table f64) kd y losses ref_method pairwise confidence m limits,
    NoDup (map fst (pt_methods tbl)) -> NoDup (map fst losses) ->
    let L := length (pt_labels tbl) in
    let fin := forall method frame, In (method, frame) (pt_methods tbl) -> Forall (Forall (fun a => fisfin a = true)) (snd frame) in
    (1 <= L)%nat -> INR L <= bpow radix2 30 ->
    length y = pt_len tbl -> (1 <= length y)%nat -> INR (length y) <= bpow radix2 30 ->
    (kd = Kb \/ kd = Ki) -> Forall (fun v => (0 <= v < Z.of_nat L)%Z) y ->
    (forall method frame, In (method, frame) (pt_methods tbl) -> fst frame = map Z.of_nat (seq 0 L) /\ length (snd frame) = length y /\ Forall (score_row 110 L) (snd frame)) ->
    In ref_method (map fst (pt_methods tbl)) -> losses <> [] -> m <> Mother -> ordinary_confidence confidence ->
    (forall metric f, In (metric, f) losses -> c_float_loss lib sum L fin f (limits_of limits metric)) ->
    (forall metric method b, multinomial_outcome (Z.of_nat (length y)) 1000 (draw metric method b)) ->
    exists lt out, ordinary_table lt ref_method limits /\ resamples lt draw /\
      loss_table (@any_normalize _ _ lib sum) tbl kd y losses false = Ok lt /\
      @loss_summary_table _ _ lib draw lt ref_method pairwise confidence m limits = Ok out /\
      map fst out = list_prod (map fst losses) (map fst (pt_methods tbl)) /\
      forall metric method cl, In ((metric, method), cl) out -> sane_numbers pairwise (pystr_eqb method ref_method) cl /\
        forall f frame, In (metric, f) losses -> In (method, frame) (pt_methods tbl) ->
        exists P loss, @any_normalize _ _ lib sum L (snd frame) = Ok P /\ f kd y P L = Ok loss /\ cell_mean cl = nmean loss /\
          fleb (fst (limits_of limits metric)) (cell_mean cl) = true /\ fleb (cell_mean cl) (snd (limits_of limits metric)) = true.
  Proof.
    intros draw tbl kd y ls ref pw c m lim N1 N2 L fin L1 LB EY Yn YB KD YV FR IR LN M OC LR DL.
    assert (forall method frame, In (method, frame) (pt_methods tbl) -> exists P, @any_normalize _ _ lib sum L (snd frame) = Ok P /\ valid_y kd y (length P) L /\ Forall (logp_row 200 L) P /\
      (fin -> Forall (Forall (fun a => fisfin a = true)) P)) as NM.
    { intros method frame I. destruct (FR _ _ I) as (A & B & C). destruct (any_seen 110 L (snd frame) ltac:(lia) L1 LB C) as (P & E & LP & Q & FF). exists P. split; [exact E|].
      split; [|split].
      - split; [lia|]. split; [exact L1|]. split; [congruence|]. auto.
      - eapply Forall_impl; [|exact Q]. intros row [(R1 & R2 & R3) R4]. split; [|exact R4]. split; [exact R1|]. split; [|exact R3]. eapply Forall_impl; [|exact R2].
        intros a [->|[Fa Ba]]; [now left|right]. split; [exact Fa|]. eapply Rle_trans; [exact Ba|]. apply bpow_le. lia.
      - intros H. apply FF. exact (H _ _ I). }
    assert (forall method frame metric f P, In (method, frame) (pt_methods tbl) -> In (metric, f) ls -> @any_normalize _ _ lib sum L (snd frame) = Ok P -> exists l, f kd y P L = Ok l /\ length l = length y /\
      Forall (ordinary_loss (fst (limits_of lim metric)) (snd (limits_of lim metric))) l) as RL.
    { intros method frame metric f P I1 I2 E. destruct (NM _ _ I1) as (P' & E' & V & Q & FF). rewrite E in E'. apply Ok_inj in E'. subst P'. eapply c_float_ok; eauto. }
    assert (exists lt, loss_table (@any_normalize _ _ lib sum) tbl kd y ls false = Ok lt) as [lt E2].
    { apply C76_classification_accepts. split; [exact EY|]. split; [exact Yn|]. split; [intros Q; unfold L in L1; rewrite Q in L1; cbn in L1; lia|]. split; [intros Q; rewrite Q in IR; destruct IR|].
      intros method frame I. destruct (FR _ _ I) as (A & B & C). split.
      - split; [exact A|]. split; [congruence|]. eapply Forall_impl; [|exact C]. intros row (R1 & R2 & _). split; [exact R1|]. eapply Forall_impl; [|exact R2].
        intros a [->|[Fa _]]; [reflexivity|]. change (fisnan a = false). rewrite v64_nan, (v64_fin a Fa). reflexivity.
      - destruct (NM _ _ I) as (P & E & _). exists P. split; [exact E|]. intros metric f If. destruct (RL _ _ _ _ _ I If E) as (l & Q1 & Q2 & _). eauto. }
    destruct (C76_classification (@any_normalize _ _ lib sum) tbl kd y ls false lt N2 N1 E2) as (T1 & T2 & T3 & T4 & T5 & T6).
    assert (forall metric method, In metric (lt_metrics lt) -> In method (lt_methods lt) ->
      exists f frame P x, In (metric, f) ls /\ In (method, frame) (pt_methods tbl) /\ @any_normalize _ _ lib sum L (snd frame) = Ok P /\ f kd y P L = Ok x /\ column lt metric method x /\ length x = length y /\
        Forall (ordinary_loss (fst (limits_of lim metric)) (snd (limits_of lim metric))) x) as COL.
    { intros metric method I1 I2. rewrite T2 in I1. rewrite T3 in I2. apply NoDup_entry in I1, I2. destruct I1 as [f I1], I2 as [[cols rows] I2].
      destruct (T6 metric f method cols rows I1 I2) as (P & l & A1 & A2 & A3 & A4). cbn [seen] in A1. destruct (RL _ _ _ _ P I2 I1 A1) as (l' & B1 & B2 & B3). fold L in A2. rewrite A2 in B1. apply Ok_inj in B1. subst l'.
      exists f, (cols, rows), P, l. auto 10. }
    assert (ordinary_table lt ref lim) as OT.
    { split; [now rewrite T3|]. split; [rewrite T2; destruct ls; [easy|discriminate]|]. rewrite T1. split; [exact Yn|]. split; [exact YB|]. split; [exact T4|].
      intros metric I1. assert (exists f, In (metric, f) ls) as [f If] by (rewrite T2 in I1; now apply NoDup_entry in I1).
      destruct (c_float_limits f _ L fin L1 (LR metric f If)) as ((A & B & C) & _). specialize (COL metric).
      destruct (limits_of lim metric) as [lo up]. cbn [fst snd] in *. split; [exact A|]. split; [exact B|]. split; [exact C|].
      intros method I2. destruct (COL method I1 I2) as (_ & _ & _ & x & _ & _ & _ & _ & Q1 & Q2 & Q3). exists x. auto. }
    assert (resamples lt draw) as RS by (intros ? ? ?; rewrite T1; apply DL).
    assert (forall metric, In metric (lt_metrics lt) -> short_limit (fst (limits_of lim metric)) /\ short_limit (snd (limits_of lim metric))) as SH.
    { intros metric I1. rewrite T2 in I1. apply NoDup_entry in I1 as [f If]. exact (proj2 (c_float_limits f _ L fin L1 (LR metric f If))). }
    destruct (C92_short_limits_accepted fexp flog sf ppf eig GL draw lt ref pw c m lim OT OC M RS SH) as [out E4].
    destruct (C93_sane_numbers fexp flog sf ppf eig GL draw lt ref pw c m lim out OT OC M RS E4) as [K1 K2].
    exists lt, out. split; [exact OT|]. split; [exact RS|]. split; [exact E2|]. split; [exact E4|]. split; [now rewrite K1, T2, T3|].
    intros metric method cl I. destruct (K2 metric method cl I) as (Q1 & loss & Q2 & Q3). split; [exact Q1|].
    intros f frame If Is. assert (In metric (lt_metrics lt)) as Im by (rewrite T2; exact (in_map fst _ _ If)).
    assert (In method (lt_methods lt)) as Id by (rewrite T3; exact (in_map fst _ _ Is)).
    destruct (COL metric method Im Id) as (f' & frame' & P & x & A1 & A2 & A3 & A4 & A5 & _).
    rewrite (NoDup_fst_inj _ _ _ _ N2 If A1), (NoDup_fst_inj _ _ _ _ N1 Is A2). exists P, x. split; [exact A3|]. split; [exact A4|].
    rewrite (column_unique _ _ _ _ _ Q2 A5) in Q3. split; [exact Q3|]. rewrite Q3.
    pose proof (short_means lt ref lim OT SH metric method x Im Id A5) as W. destruct (limits_of lim metric). exact W.
  Qed.

  Theorem C97_loss_table :
    forall draw (tbl : pred_table f64) kd y losses ref_method pairwise confidence m limits,
    NoDup (map fst (pt_methods tbl)) -> NoDup (map fst losses) ->
    let L := length (pt_labels tbl) in
    let fin := forall method frame, In (method, frame) (pt_methods tbl) -> Forall (Forall (fun a => fisfin a = true)) (snd frame) in
    (1 <= L)%nat -> INR L <= bpow radix2 30 ->
    length y = pt_len tbl -> (1 <= length y)%nat -> INR (length y) <= bpow radix2 30 ->
    (kd = Kb \/ kd = Ki) -> Forall (fun v => (0 <= v < Z.of_nat L)%Z) y ->
    (forall method frame, In (method, frame) (pt_methods tbl) -> fst frame = map Z.of_nat (seq 0 L) /\ length (snd frame) = length y /\ Forall (score_row 110 L) (snd frame)) ->
    In ref_method (map fst (pt_methods tbl)) -> losses <> [] -> m <> Mother -> ordinary_confidence confidence ->
    (forall metric f, In (metric, f) losses -> c_float_loss lib sum L fin f (limits_of limits metric)) ->
    (forall metric method b, multinomial_outcome (Z.of_nat (length y)) 1000 (draw metric method b)) ->
    exists lt out,
      loss_table (@any_normalize _ _ lib sum) tbl kd y losses false = Ok lt /\
      @loss_summary_table _ _ lib draw lt ref_method pairwise confidence m limits = Ok out /\
      map fst out = list_prod (map fst losses) (map fst (pt_methods tbl)) /\
      forall metric method cl, In ((metric, method), cl) out -> sane_numbers pairwise (pystr_eqb method ref_method) cl /\
        forall f frame, In (metric, f) losses -> In (method, frame) (pt_methods tbl) ->
        exists P loss, @any_normalize _ _ lib sum L (snd frame) = Ok P /\ f kd y P L = Ok loss /\ cell_mean cl = nmean loss /\
          fleb (fst (limits_of limits metric)) (cell_mean cl) = true /\ fleb (cell_mean cl) (snd (limits_of limits metric)) = true.
  Proof.
    intros draw tbl kd y ls ref pw c m lim N1 N2 L fin L1 LB EY Yn YB KD YV FR IR LN M OC LR DL.
    destruct (c_bench_table draw tbl kd y ls ref pw c m lim N1 N2 L1 LB EY Yn YB KD YV FR IR LN M OC LR DL) as (lt & out & _ & _ & K).
    exists lt, out. exact K.
  Qed.

  (** The predictions: what get_pred_log_prob returns for estimators whose
      scores are of ordinary size is such a table; with a finite floor no label
      is excluded whatever the estimators said. *)
  Theorem C97_predictions :
    forall (S X : Type) key_eqb (o : classifier f64 S X) X_train kd y_train X_test L methods min_log_prob n (rows : S -> list (list f64)),
    c_inputs X_train kd y_train X_test L min_log_prob n -> (1 <= L)%nat -> INR L <= bpow radix2 30 -> score 100 min_log_prob ->
    (forall name s, In (name, s) methods -> @c_predicts _ lib _ _ o s (fa_data X_train) y_train (fa_data X_test) (rows s) L /\
       length (rows s) = n /\
       Forall (fun row => length row = L /\ Forall (score 100) row /\ (fisfin min_log_prob = true \/ Exists (fun a => fisfin a = true) row)) (rows s)) ->
    exists tbl, @get_pred_log_prob _ _ lib (@any_normalize _ _ lib sum) _ _ key_eqb o false [] X_train kd y_train X_test L methods min_log_prob = Ok tbl /\
      pt_len tbl = n /\ length (pt_labels tbl) = L /\ map fst (pt_methods tbl) = map fst methods /\
      forall method frame, In (method, frame) (pt_methods tbl) ->
        fst frame = map Z.of_nat (seq 0 L) /\ length (snd frame) = n /\ Forall (logp_row 102 L) (snd frame) /\
        (fisfin min_log_prob = true -> Forall (Forall (fun a => fisfin a = true)) (snd frame)).
  Proof.
    clear GL. intros S X key_eqb o Xtr kd ytr Xte L ms fl n rows CI L1 LB FL P.
    assert (forall a, score 100 a -> score 100 (nmax fl a) /\ (fisfin fl = true \/ fisfin a = true -> fisfin (nmax fl a) = true)) as MX.
    { assert (forall u, score 100 u -> fisnan u = false /\ (fisfin u = true -> v64 u = Fin (B2R u)) /\ (fisfin u = false -> u = fninf)) as SV.
      { intros u [->|[Fu _]]; [repeat split; auto; discriminate|]. rewrite v64_nan, (v64_fin u Fu), Fu. repeat split; auto; discriminate. }
      intros a Sa. unfold nmax. cbn [nleb nisnan f64_num]. destruct (SV fl FL) as (N1 & V1 & I1), (SV a Sa) as (N2 & V2 & I2). rewrite N1, orb_false_r.
      destruct (fisfin fl) eqn:F1, (fisfin a) eqn:F2.
      - destruct (fleb a fl); auto.
      - rewrite (I2 eq_refl) in *. rewrite v64_leb, (V1 eq_refl). auto.
      - rewrite (I1 eq_refl) in *. rewrite v64_leb, (V2 eq_refl). auto.
      - rewrite (I2 eq_refl) in *. split; [destruct (fleb fninf fl); auto|]. intros [H|H]; discriminate. }
    assert (forall row, length row = L -> Forall (score 100) row -> (fisfin fl = true \/ Exists (fun a => fisfin a = true) row) ->
      score_row 100 L (map (nmax fl) row) /\ (fisfin fl = true -> Forall (fun a => fisfin a = true) (map (nmax fl) row))) as FRow.
    { intros row Ln Sr Ex. split; [split; [now rewrite map_length|split]|].
      - apply Forall_map. eapply Forall_impl; [|exact Sr]. intros a Sa. now apply MX.
      - rewrite Forall_forall in Sr. apply Exists_exists. assert (exists a, In a row /\ (fisfin fl = true \/ fisfin a = true)) as (a & Ia & H).
        { destruct Ex as [H|H]; [|apply Exists_exists in H as (a & Ia & H); eauto]. destruct row as [|a r]; [cbn in Ln; lia|]. exists a. split; [now left|auto]. }
        exists (nmax fl a). split; [apply in_map_iff; eauto|]. apply MX; auto.
      - intros Ff. apply Forall_map. eapply Forall_impl; [|exact Sr]. intros a Sa. apply MX; auto. }
    assert (forall name s, In (name, s) ms -> Forall (score_row 100 L) (map (map (nmax fl)) (rows s)) /\ (fisfin fl = true -> Forall (Forall (fun a => fisfin a = true)) (map (map (nmax fl)) (rows s)))) as FS.
    { intros name s I. destruct (P _ _ I) as (_ & _ & Q). split; [|intros Ff]; apply Forall_map; (eapply Forall_impl; [|exact Q]); intros row (A & B & C); now apply FRow. }
    assert (exists tbl, @get_pred_log_prob _ _ lib (@any_normalize _ _ lib sum) _ _ key_eqb o false [] Xtr kd ytr Xte L ms fl = Ok tbl) as [tbl E].
    { apply get_pred_iff. exists n. split; [exact CI|]. intros name s I. destruct (P _ _ I) as (A & B & _). destruct (FS _ _ I) as [Q _].
      destruct (any_seen 100 L _ ltac:(lia) L1 LB Q) as (PP & EP & _). exists (rows s), PP. auto. }
    exists tbl. split; [exact E|]. pose proof (c_inputs_len _ _ _ _ _ _ _ CI) as En. apply get_pred_inv in E as (EL1 & EB & _ & F). rewrite <- En in EL1.
    split; [exact EL1|]. split; [rewrite EB; unfold range_Z; now rewrite map_length, seq_length|]. split.
    { clear - F. induction F as [|? ? ? ? (H & _) F IH]; cbn; [reflexivity|]. now rewrite H, IH. }
    intros method frame I. destruct (Forall2_in_r _ _ _ _ F I) as ([nm s] & I' & A & B & rows' & C & D & G). cbn [fst snd] in *. subst nm.
    destruct (P _ _ I') as (A1 & A2 & _). apply c_train_predict_iff in A1. rewrite A1 in C. apply Ok_inj in C. injection C as <-.
    destruct (FS _ _ I') as [Q1 Q2]. destruct (any_seen 100 L _ ltac:(lia) L1 LB Q1) as (PP & EP & LP & LR & FF). rewrite G in EP. apply Ok_inj in EP. subst PP.
    split; [exact B|]. rewrite LP, map_length. split; [exact A2|]. auto.
  Qed.
End C97.
Print Assumptions C97_loss_table.
Print Assumptions C97_predictions.

(** ** The hypotheses are met *)
Example C96_library : exp_log tame_one tame_one.
Proof.
  destruct (f_of_Z_correct 1) as [V1 F1]; [lia|]. split; unfold tame_one.
  - auto.
  - intros z _. rewrite !v64_leb, (v64_ofZ 1) by lia. change (v64 f0) with (Fin 0). split; apply Rleb_spec; lra.
  - intros z _ _. split; [exact F1|]. rewrite V1. change (bpow radix2 10) with (IZR (2 ^ 10)). cbn. lra.
Qed.
Definition ex_logp : list (list f64) := [[f_of_Z (-1); fninf; f_of_Z (-2)]; [f_of_Z (-3); f0; f_of_Z (-700)]].
Lemma ex_logp_ok : Forall (logp_row 10 3) ex_logp.
Proof.
  assert (forall n, (Z.abs n <= 1000)%Z -> score 10 (f_of_Z n)) as S.
  { intros n H. right. destruct (small_score n H) as [A B]. split; [exact A|]. eapply Rle_trans; [exact B|]. change (bpow radix2 10) with (IZR (2 ^ 10)). cbn. lra. }
  assert (forall n, (- 1000 <= n <= 0)%Z -> fleb (f_of_Z n) f0 = true) as N.
  { intros n H. rewrite v64_leb, (v64_ofZ n) by lia. change (v64 f0) with (Fin 0). apply Rleb_spec, IZR_le. lia. }
  unfold ex_logp. change f0 with (f_of_Z 0). apply Forall_cons; [|apply Forall_cons; [|apply Forall_nil]]; (split; [split; [reflexivity|split]|]).
  - apply Forall_cons; [apply S; lia|]. apply Forall_cons; [now left|]. apply Forall_cons; [apply S; lia|apply Forall_nil].
  - apply Exists_cons_hd. reflexivity.
  - apply Forall_cons; [apply N; lia|]. apply Forall_cons; [reflexivity|]. apply Forall_cons; [apply N; lia|apply Forall_nil].
  - do 3 (apply Forall_cons; [apply S; lia|]). apply Forall_nil.
  - apply Exists_cons_hd. reflexivity.
  - do 3 (apply Forall_cons; [apply N; lia|]). apply Forall_nil.
Qed.
Lemma three_labels : INR 3 <= bpow radix2 30.
Proof. change (bpow radix2 30) with (IZR (2 ^ 30)). rewrite INR_IZR_INZ. apply IZR_le. cbn. lia. Qed.
Example C96_example :
  exists l, @any_spherical_loss _ _ (fn_f64 round_exp round_log tame_sf tame_ppf tame_eig) nsum true Ki [1; 2]%Z ex_logp 3 = Ok l /\ length l = 2%nat /\ Forall (in_range 0 4) l.
Proof.
  apply (C96_spherical_loss round_exp round_log tame_sf tame_ppf tame_eig (proj1 C95_rounded) nsum nsum_sums Ki [1; 2]%Z ex_logp 3 10).
  - split; [cbn; lia|]. split; [lia|]. split; [reflexivity|]. split; [now right|]. repeat constructor; lia.
  - apply three_labels.
  - lia.
  - apply ex_logp_ok.
Qed.

Definition ex_float_lib : fn f64 := fn_f64 tame_one tame_one tame_sf tame_ppf tame_eig.
Definition ex_float_classifier : classifier f64 (list (list Z)) unit :=
  {| cl_fit := fun s _ _ => Ok s; cl_predict_log_proba := fun s _ => Ok (map (map f_of_Z) s, 3%nat); cl_predict_proba := fun _ _ => Err KeyError |}.
Definition ex_float_methods : list (pystr * list (list Z)) := [(tA, [[0; 5; -7]; [1; 1; 1]]%Z); (tB, [[700; -700; 0]; [2; 1; 0]]%Z)].
Definition ex_float_losses : dict (metric_fun f64) :=
  [(tM, log_loss); (tA, @brier_loss _ _ ex_float_lib true); (tB, @any_spherical_loss _ _ ex_float_lib nsum false)].
Example C97_example :
  forall m pairwise, m <> Mother ->
  exists tbl lt out,
    @get_pred_log_prob _ _ ex_float_lib (@any_normalize _ _ ex_float_lib nsum) _ _ (fun _ _ => false) ex_float_classifier false [] (ex_points 2) Ki [0; 2]%Z (ex_points 2) 3
      ex_float_methods (f_of_Z (-50)) = Ok tbl /\
    loss_table (@any_normalize _ _ ex_float_lib nsum) tbl Ki [1; 0]%Z ex_float_losses false = Ok lt /\
    @loss_summary_table _ _ ex_float_lib (fun _ _ _ => repeat [1; 1]%Z 1000) lt tB pairwise (ndiv (nofZ 95) (nofZ 100)) m [] = Ok out /\
    map fst out = [(tM, tA); (tM, tB); (tA, tA); (tA, tB); (tB, tA); (tB, tB)] /\
    forall metric method cl, In ((metric, method), cl) out -> sane_numbers pairwise (pystr_eqb method tB) cl.
Proof.
  intros m pw M.
  assert (forall n, (Z.abs n <= 1000)%Z -> score 100 (f_of_Z n)) as SC.
  { intros n H. right. destruct (small_score n H) as [A B]. split; [exact A|]. eapply Rle_trans; [exact B|]. apply Rle_trans with (bpow radix2 10); [change (bpow radix2 10) with (IZR (2 ^ 10)); cbn; lra|]. apply bpow_le. lia. }
  destruct (small_score (-50) ltac:(lia)) as [FF _].
  destruct (C97_predictions tame_one tame_one tame_sf tame_ppf tame_eig C96_library nsum nsum_sums (list (list Z)) unit (fun _ _ => false) ex_float_classifier (ex_points 2) Ki [0; 2]%Z (ex_points 2) 3
    ex_float_methods (f_of_Z (-50)) 2 (fun s => map (map f_of_Z) s)) as (tbl & E1 & T1 & T2 & T3 & T4).
  - exists 1%Z, [], []. split; [reflexivity|]. split; [reflexivity|]. split; [reflexivity|]. split; [lia|]. split; [discriminate|]. split; [now right|]. split; [repeat constructor; lia|].
    split; [reflexivity|]. vm_compute. reflexivity.
  - lia.
  - apply three_labels.
  - apply SC. lia.
  - assert (forall row : list Z, length row = 3%nat -> Forall (fun n => (Z.abs n <= 1000)%Z) row -> length (map f_of_Z row) = 3%nat /\ Forall (score 100) (map f_of_Z row) /\
      (fisfin (f_of_Z (-50)) = true \/ Exists (fun a => fisfin a = true) (map f_of_Z row))) as RW.
    { intros row H R. rewrite map_length. split; [exact H|]. split; [|left; exact FF]. apply Forall_map. eapply Forall_impl; [|exact R]. exact SC. }
    intros name s [Q|[Q|[]]]; injection Q as <- <-; (split; [eexists; split; [reflexivity|left; reflexivity]|]); (split; [reflexivity|]); apply Forall_map;
      (apply Forall_cons; [|apply Forall_cons; [|apply Forall_nil]]); (apply RW; [reflexivity|repeat constructor; cbn; lia]).
  - destruct (C97_loss_table tame_one tame_one tame_sf tame_ppf tame_eig C92_library C96_library nsum nsum_sums (fun _ _ _ => repeat [1; 1]%Z 1000) tbl Ki [1; 0]%Z ex_float_losses tB pw (ndiv (nofZ 95) (nofZ 100)) m [])
      as (lt & out & E2 & E3 & K1 & K2).
    + rewrite T3. constructor; [intros [Q|[]]; discriminate|]. constructor; [intros []|constructor].
    + constructor; [intros [Q|[Q|[]]]; discriminate|]. constructor; [intros [Q|[]]; discriminate|]. constructor; [intros []|constructor].
    + rewrite T2. lia.
    + rewrite T2. apply three_labels.
    + now rewrite T1.
    + cbn. lia.
    + change (INR (length [1; 0]%Z)) with (1 + 1). change (bpow radix2 30) with (IZR (2 ^ 30)). apply (IZR_le 2). cbn. lia.
    + now right.
    + rewrite T2. repeat constructor; lia.
    + intros method frame I. destruct (T4 _ _ I) as (A & B & C & _). rewrite T2. split; [exact A|]. split; [exact B|]. eapply Forall_impl; [|exact C]. intros row [(R1 & R2 & R3) _].
      split; [exact R1|]. split; [|exact R3]. eapply Forall_impl; [|exact R2]. intros a [->|[Fa Ba]]; [now left|right]. split; [exact Fa|]. eapply Rle_trans; [exact Ba|]. apply bpow_le. lia.
    + rewrite T3. right. now left.
    + discriminate.
    + exact M.
    + apply conf_95.
    + assert (limit_below 0 fninf) as LB by (split; [now left|split; intros H; discriminate H]). assert (limit_below (-1) fninf) as LB1 by (split; [now left|split; intros H; discriminate H]).
      intros metric f [Q|[Q|[Q|[]]]]; injection Q as <- <-.
      * change (limits_of (T := f64) [] tM) with (fninf, finf). constructor; [|exact LB]. intros method frame I. destruct (T4 _ _ I) as (_ & _ & _ & D). exact (D FF).
      * apply c_float_brier; [exact LB|apply inf_above].
      * apply c_float_spherical; [exact LB1|apply inf_above].
    + intros _ _ _. split; [now rewrite repeat_length|]. apply Forall_forall. intros r Hr. apply repeat_spec in Hr. subst r. repeat split; auto. repeat constructor; lia.
    + exists tbl, lt, out. split; [exact E1|]. split; [exact E2|]. split; [exact E3|]. split; [rewrite K1, T3; reflexivity|]. intros metric method cl I. exact (proj1 (K2 metric method cl I)).
Qed.
