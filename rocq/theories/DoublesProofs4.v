(** normalize and the losses of classification.py in doubles. *)
From Coq Require Import Reals Lra Lia Permutation.
From Flocq Require Import Core BinarySingleNaN Mult_error.
From Verif Require Import PyBase ListLemmas F64 F64Lemmas Num NumOk SumProofs Util UtilProofs BootUtil BootProofs2 PerfCurves CurveBoot MLPaper MLProofs MLProofs4 CompareProofs
  SwapProofs MeanProofs DoublesProofs DoublesProofs2 DoublesProofs3 Classification ClassProofs AnyNormalize.
Open Scope R_scope.

(** What is assumed of exp and log: exp is 1 at zero and between 0 and 1 below
    zero, log is between 0 and 2^10 from 1 to 2^60. *)
Record exp_log (fexp flog : f64 -> f64) : Prop := {
  el_exp_0 : forall z, fisfin z = true -> B2R z = 0 -> fisfin (fexp z) = true /\ B2R (fexp z) = 1;
  el_exp : forall z, fleb z f0 = true -> fleb f0 (fexp z) = true /\ fleb (fexp z) (f_of_Z 1) = true;
  el_log : forall z, fisfin z = true -> 1 <= B2R z <= bpow radix2 60 -> fisfin (flog z) = true /\ 0 <= B2R (flog z) <= bpow radix2 10
}.

(** ** the largest entry *)
Lemma amax_loop l : forall a : f64, fisnan a = false -> Forall (fun x => fisnan x = false) l ->
  fisnan (fold_left nmax l a) = false /\ fleb a (fold_left nmax l a) = true /\ Forall (fun x => fleb x (fold_left nmax l a) = true) l /\ In (fold_left nmax l a) (a :: l).
Proof.
  induction l as [|b l IH]; intros a A F; cbn [fold_left].
  - split; [exact A|]. split; [now apply fleb_refl|]. split; [constructor|now left].
  - inversion F as [|? ? B F']; subst. assert (fisnan (nmax a b) = false /\ fleb a (nmax a b) = true /\ fleb b (nmax a b) = true /\ (nmax a b = a \/ nmax a b = b)) as (C & D & E & G).
    { unfold nmax. cbn [nleb nisnan f64_num]. rewrite A, orb_false_r. destruct (fleb b a) eqn:Q.
      - split; [exact A|]. split; [now apply fleb_refl|]. split; [exact Q|now left].
      - split; [exact B|]. split; [|split; [now apply fleb_refl|now right]]. destruct (fleb_total a b A B); congruence. }
    destruct (IH _ C F') as (I1 & I2 & I3 & I4). split; [exact I1|]. split; [eapply fleb_trans; eauto|]. split.
    + constructor; [eapply fleb_trans; eauto|exact I3].
    + cbn [In] in *. destruct I4 as [I4|I4]; [|auto]. destruct G as [G|G]; [left|right; left]; congruence.
Qed.
Lemma amax_f (l : list f64) : l <> [] -> Forall (fun x => fisnan x = false) l -> In (amax l) l /\ Forall (fun x => fleb x (amax l) = true) l.
Proof.
  destruct l as [|a l]; [easy|]. intros _ F. inversion F; subst. destruct (amax_loop l a) as (_ & B & C & D); auto.
Qed.

(** ** sums of terms in [0, 1] *)
Lemma unit_nng e : fleb f0 e = true -> fleb e (f_of_Z 1) = true -> nng 0 e.
Proof.
  intros A B. rewrite v64_leb in A, B. rewrite (v64_ofZ 1) in B by lia. change (v64 f0) with (Fin 0) in A. unfold nng.
  destruct (v64 e) as [r| | |]; try discriminate. apply Rleb_spec in A, B. exists r. split; [reflexivity|]. change (P2 0) with 1. lra.
Qed.
Lemma format_nat n : INR n <= MAXN -> format64 (INR n).
Proof.
  intros H. replace (INR n) with (INR n * (IZR 1 * P2 0)) by (change (P2 0) with 1; lra). apply small_multiple; auto; lia.
Qed.
Lemma sums_unit l v : sums_to l v -> INR (length l) <= MAXN -> Forall (nng 0) l ->
  exists r, v64 v = Fin r /\ 0 <= r <= INR (length l) /\ Forall (fun a => exists s, v64 a = Fin s /\ s <= r) l.
Proof.
  induction 1 as [|a|l m v w Hv IHv Hw IHw|l m v P _ IH]; intros M F.
  - exists 0. split; [reflexivity|]. split; [cbn; lra|constructor].
  - inversion F as [|? ? (r & E & R) _]; subst. exists r. split; [exact E|]. change (P2 0) with 1 in R. split; [cbn; lra|]. constructor; [|constructor]. exists r. split; [exact E|lra].
  - apply Forall_app in F as [F1 F2]. rewrite app_length, plus_INR in *. pose proof (pos_INR (length l)). pose proof (pos_INR (length m)).
    destruct IHv as (r & E1 & R1 & G1); [lra|exact F1|]. destruct IHw as (s & E2 & R2 & G2); [lra|exact F2|].
    change (nadd v w) with (fadd v w). rewrite v64_add, E1, E2. cbn [xr2].
    assert (rnd64 (r + s) <= INR (length l) + INR (length m)) as U by (apply rnd64_le; [rewrite <- plus_INR; apply format_nat; rewrite plus_INR; exact M|lra]).
    assert (r <= rnd64 (r + s)) as L1 by (apply rnd64_ge; [eapply v64_Fin_format, E1|lra]).
    assert (s <= rnd64 (r + s)) as L2 by (apply rnd64_ge; [eapply v64_Fin_format, E2|lra]).
    exists (rnd64 (r + s)). split; [apply xround_ok; rewrite Rabs_pos_eq by lra; apply Rle_trans with MAXN; [lra|apply bpow_le; lia]|]. split; [lra|].
    apply Forall_app. split; [eapply Forall_impl; [|exact G1]|eapply Forall_impl; [|exact G2]]; intros a (t & Ea & T); exists t; (split; [exact Ea|lra]).
  - rewrite <- (Permutation_length P) in *. destruct IH as (r & A & B & C); [exact M|now apply (Permutation_Forall (Permutation_sym P))|].
    exists r. split; [exact A|]. split; [exact B|]. now apply (Permutation_Forall P).
Qed.

(** ** a log probability: minus infinity or not too large *)
Definition lprob (k : Z) (x : f64) : Prop := v64 x = NInf \/ bdd k x.
Lemma lprob_notnan k x : lprob k x -> fisnan x = false.
Proof. intros [H|(r & H & _)]; now rewrite v64_nan, H. Qed.
Lemma lprob_amax k row : Forall (lprob k) row -> Exists (bdd k) row ->
  exists m, v64 (amax row) = Fin m /\ Rabs m <= P2 k /\ In (amax row) row /\ Forall (fun x => fleb x (amax row) = true) row.
Proof.
  intros F E. assert (row <> []) as N by (intros ->; inversion E). destruct (amax_f row N) as [I A]; [eapply Forall_impl; [|exact F]; apply lprob_notnan|].
  apply Exists_exists in E as (b & Ib & (r & Er & R)). rewrite Forall_forall in F, A. pose proof (A b Ib) as L. rewrite v64_leb, Er in L.
  destruct (F _ I) as [H|(m & H & M)]; [rewrite H in L; discriminate|]. exists m. split; [exact H|]. split; [exact M|]. split; [exact I|]. now apply Forall_forall.
Qed.

Section Normalize.
  Context (fexp flog : f64 -> f64) (sf ppf : Z -> f64 -> f64) (eig : f64 -> f64 -> option (f64 * f64)) (EL : exp_log fexp flog).
  Notation lib := (fn_f64 fexp flog sf ppf eig).
  Context (sum : list f64 -> f64) (SUM : forall l, sums_to l (sum l)).

  (* subtracting the normaliser *)
  Lemma sub_neg a m r : fleb a m = true -> v64 m = Fin r -> fleb (fsub a m) f0 = true.
  Proof.
    intros L E. rewrite v64_leb, E in L. rewrite v64_leb, v64_sub, E. change (v64 f0) with (Fin 0). destruct (v64 a) as [s| | |]; try discriminate; [|reflexivity].
    cbn [xr2]. apply Rleb_spec in L. assert (rnd64 (s - r) <= 0) as U by (apply rnd64_le; [apply format64_0|lra]).
    pose proof (bpow_ge_0 radix2 1000). destruct (xround_up _ _ U) as [->| ->]; [lra|reflexivity|]. now apply Rleb_spec.
  Qed.

  Lemma logsumexp_ok k row : (10 <= k <= 900)%Z -> INR (length row) <= MAXN -> Forall (lprob k) row -> Exists (bdd k) row ->
    exists m e, v64 (amax row) = Fin m /\ v64 (@any_logsumexp _ _ lib sum row) = Fin e /\ m <= e /\ Rabs e <= P2 (k + 1) /\ Forall (fun x => fleb x (amax row) = true) row.
  Proof.
    intros K M F E. destruct (lprob_amax k row F E) as (m & Em & Bm & I & A). exists m. unfold any_logsumexp.
    pose proof Em as Em'. apply v64_Fin in Em' as [Fm Vm]. cbn [nisfin nadd nlog nexp nsub fn_f64 f64_num]. rewrite Fm. set (mx := amax row) in *. clearbody mx.
    set (l := map (fun a => fexp (fsub a mx)) row). destruct (sums_unit l (sum l) (SUM l)) as (s & Es & Rs & G); [unfold l; now rewrite map_length| |].
    { unfold l. apply Forall_map. rewrite Forall_forall in *. intros a Ia. destruct (el_exp _ _ EL (fsub a mx)); [eapply sub_neg; eauto|]. now apply unit_nng. }
    assert (1 <= s) as S1.
    { rewrite Forall_forall in G. destruct (G (fexp (fsub mx mx))) as (t & Et & T); [unfold l; apply in_map_iff; eauto|].
      destruct (el_exp_0 _ _ EL (fsub mx mx)) as [F1 V1].
      - assert (v64 (fsub mx mx) = Fin 0) as Q; [|now apply v64_Fin in Q]. rewrite v64_sub, Em. cbn [xr2]. replace (m - m) with 0 by lra. rewrite xround_ok, rnd64_id; [reflexivity|apply format64_0|].
        rewrite Rabs_R0. apply bpow_ge_0.
      - assert (v64 (fsub mx mx) = Fin 0) as Q; [|now apply v64_Fin in Q]. rewrite v64_sub, Em. cbn [xr2]. replace (m - m) with 0 by lra. rewrite xround_ok, rnd64_id; [reflexivity|apply format64_0|].
        rewrite Rabs_R0. apply bpow_ge_0.
      - rewrite (v64_fin _ F1), V1 in Et. injection Et as <-. exact T. }
    assert (INR (length l) <= P2 60) as L60 by (unfold l; rewrite map_length; eapply Rle_trans; [exact M|apply bpow_le; lia]).
    apply v64_Fin in Es as [Fs Vs]. destruct (el_log _ _ EL (sum l) Fs) as [Fl [Ll Ul]]; [lra|]. fold l.
    destruct (bdd_add k (flog (sum l)) mx) as (e & Ee & Re).
    { exists (B2R (flog (sum l))). split; [now apply v64_fin|]. rewrite Rabs_pos_eq by exact Ll. eapply Rle_trans; [exact Ul|apply bpow_le; lia]. }
    { exists m. auto. } { lia. }
    exists e. split; [exact Em|]. split; [exact Ee|]. split; [|split; [exact Re|exact A]].
    rewrite v64_add, Em, (v64_fin _ Fl) in Ee. cbn [xr2] in Ee. rewrite xround_ok in Ee.
    - injection Ee as <-. apply rnd64_ge; [eapply v64_Fin_format, Em|lra].
    - apply Rle_trans with (P2 (k + 1)); [|apply bpow_le; lia]. rewrite P2_S. pose proof (Rabs_triang (B2R (flog (sum l))) m). rewrite (Rabs_pos_eq _ Ll) in *.
      assert (P2 10 <= P2 k) by (apply bpow_le; lia). lra.
  Qed.

  (** C95's core: normalised log probabilities are at most zero. *)
  Lemma normalize_row_ok k row : (10 <= k <= 900)%Z -> INR (length row) <= MAXN -> Forall (lprob k) row -> Exists (bdd k) row ->
    Forall2 (fun a b => fleb b f0 = true /\ (v64 a = NInf -> v64 b = NInf) /\ (bdd k a -> bdd (k + 2) b)) row (@any_normalize_row _ _ lib sum row).
  Proof.
    intros K M F E. destruct (logsumexp_ok k row K M F E) as (m & e & Em & Ee & Le & Be & A). unfold any_normalize_row.
    cbn [nsub f64_num]. set (z := any_logsumexp sum row) in *. clearbody z. revert A. generalize (amax row) as mx, Em. clear Em. intros mx Em A. clear E.
    induction row as [|a row IH]; cbn [map]; [constructor|]. inversion F; subst. inversion A as [|? ? A1 A2]; subst. constructor; [|apply IH; auto].
    2:{ rewrite <- Rplus_0_r. rewrite S_INR in M || (cbn [length] in M; rewrite S_INR in M). lra. }
    assert (fleb a z = true) as L.
    { eapply fleb_trans; [exact A1|]. rewrite v64_leb, Em, Ee. now apply Rleb_spec. }
    split; [eapply sub_neg; eauto|]. split.
    - intros N. rewrite v64_sub, N, Ee. reflexivity.
    - intros B. replace (k + 2)%Z with (k + 1 + 1)%Z by lia. apply bdd_sub; [eapply bdd_le; [exact B|lia]| |lia]. exists e. auto.
  Qed.
End Normalize.

(** ** the losses *)
Definition rng (lo up : R) (x : f64) : Prop := exists r, v64 x = Fin r /\ lo <= r <= up.
Lemma rnd_rng r lo up : lo <= r <= up -> format64 lo -> format64 up -> - P2 1000 <= lo -> up <= P2 1000 -> xround r = Fin (rnd64 r) /\ lo <= rnd64 r <= up.
Proof.
  intros R L U B1 B2. split; [apply xround_ok; apply Rabs_le; lra|]. split; [now apply rnd64_ge|now apply rnd64_le].
Qed.
Lemma format_Z n : (Z.abs n <= 2 ^ 53)%Z -> format64 (IZR n).
Proof. intros H. destruct (f_of_Z_correct n H) as [<- _]. apply B2R_format. Qed.
Lemma big_Z n : (Z.abs n <= 2 ^ 53)%Z -> - P2 1000 <= IZR n <= P2 1000.
Proof.
  intros H. assert (P2 53 <= P2 1000) by (apply bpow_le; lia). change (P2 53) with (IZR (2 ^ 53)) in *.
  assert (- IZR (2 ^ 53) <= IZR n <= IZR (2 ^ 53)); [|lra]. rewrite <- opp_IZR. split; apply IZR_le; lia.
Qed.
Lemma rng_Z a b r : (Z.abs a <= 2 ^ 53)%Z -> (Z.abs b <= 2 ^ 53)%Z -> IZR a <= r <= IZR b -> xround r = Fin (rnd64 r) /\ IZR a <= rnd64 r <= IZR b.
Proof. intros A B R. apply rnd_rng; auto using format_Z; [apply (big_Z a A)|apply (big_Z b B)]. Qed.
Lemma rng_opp lo up x : rng lo up x -> rng (- up) (- lo) (nopp x).
Proof. intros (r & E & R). exists (- r). split; [now apply opp_val|lra]. Qed.

(** a row of normalised log probabilities *)
Definition nrow (k : Z) (L : nat) (row : list f64) : Prop :=
  length row = L /\ Forall (lprob k) row /\ Forall (fun x => fleb x f0 = true) row /\ Exists (bdd k) row.

Section ClassLosses.
  Context (fexp flog : f64 -> f64) (sf ppf : Z -> f64 -> f64) (eig : f64 -> f64 -> option (f64 * f64)) (EL : exp_log fexp flog).
  Notation lib := (fn_f64 fexp flog sf ppf eig).
  Context (sum : list f64 -> f64) (SUM : forall l, sums_to l (sum l)).
  Variables (kd : dkind) (y : list Z) (P : list (list f64)) (L : nat) (k : Z).
  Hypothesis (V : valid_y kd y (length P) L) (F : Forall (nrow k L) P).

  Lemma nrow_nth v row : nrow k L row -> (0 <= v < Z.of_nat L)%Z -> In (nth (Z.to_nat v) row f0) row.
  Proof. intros (H & _) R. apply nth_In. lia. Qed.
  Lemma class_map2 {C} (f : Z -> list f64 -> C) (Q : C -> Prop) : (forall v row, (0 <= v < Z.of_nat L)%Z -> nrow k L row -> Q (f v row)) ->
    length (map2 f y P) = length y /\ Forall Q (map2 f y P).
  Proof.
    intros H. destruct V as (_ & _ & LY & _ & VV). split; [now apply map2_len|]. eapply Forall_map2; [|exact VV|exact F]. cbn. auto.
  Qed.

  Lemma log_ok : Forall (Forall (bdd k)) P -> exists l, log_loss kd y P L = Ok l /\ length l = length y /\ Forall (nng k) l.
  Proof.
    clear - V F. intros B. unfold log_loss. rewrite (proj2 (validate_iff kd y P L) V). cbn [bind]. eexists. split; [reflexivity|].
    destruct V as (_ & _ & LY & _ & VV). split; [now apply map2_len|].
    assert (Forall (fun row => nrow k L row /\ Forall (bdd k) row) P) as F2 by (rewrite Forall_forall in *; auto).
    eapply Forall_map2; [|exact VV|exact F2]. intros v row Hv [(Ln & _ & NG & _) Br]. cbn beta in *. cbn [n0 f64_num].
    assert (In (nth (Z.to_nat v) row f0) row) as I by (apply nth_In; lia). rewrite Forall_forall in NG, Br. specialize (NG _ I). destruct (Br _ I) as (r & E & R).
    exists (- r). split; [now apply opp_val|]. rewrite v64_leb, E in NG. change (v64 f0) with (Fin 0) in NG. apply Rleb_spec in NG. rewrite Rabs_left1 in R; lra.
  Qed.

  Lemma brier_ok rescale : INR L <= MAXN ->
    exists l, @brier_loss _ _ lib rescale kd y P L = Ok l /\ length l = length y /\ Forall (rng 0 (IZR (Z.of_nat L * if rescale && (1 <? Z.of_nat L)%Z then 2 else 1))) l.
  Proof.
    clear sum SUM. intros B. unfold brier_loss. rewrite (proj2 (validate_iff kd y P L) V). cbn [bind]. destruct V as (_ & L1 & LY & _ & VV).
    rewrite one_hot_ok. destruct (Z.leb_spec 1 (Z.of_nat L)) as [_|]; [|lia]. cbn [dkind_eqb andb].
    assert (forallb (fun v => (0 <=? v)%Z && (v <? Z.of_nat L)%Z) y = true) as ->.
    { apply forallb_forall. intros v I. rewrite Forall_forall in VV. specialize (VV v I). apply andb_true_iff. split; [apply Z.leb_le|apply Z.ltb_lt]; lia. }
    cbn [bind]. set (hot := map _ y). set (base := map2 _ P hot).
    assert (length base = length y) as LB by (unfold base; rewrite map2_len; [lia|unfold hot; rewrite map_length; lia]).
    assert (Forall (rng 0 (IZR (Z.of_nat L))) base) as FB.
    { unfold base. assert (Forall (fun _ : list bool => True) hot) as FT by (apply Forall_forall; auto). eapply Forall_map2; [|exact F|exact FT]. intros row h (Ln & _ & NG & _) _.
      set (terms := map2 _ row h). assert (Forall (nng 0) terms) as N0.
      { unfold terms. assert (Forall (fun _ : bool => True) h) as FT' by (apply Forall_forall; auto). eapply Forall_map2; [|exact NG|exact FT']. intros x b Hx _. cbn beta in *.
        cbn [nmul nsub nexp n1 n0 f64_num fn_f64]. destruct (el_exp _ _ EL x Hx) as [E1 E2]. destruct (unit_nng _ E1 E2) as (r & Er & R). change (P2 0) with 1 in R.
        apply (nng_sq 0); [|lia]. unfold bdd. change (P2 0) with 1. rewrite v64_sub, Er. destruct b.
        - rewrite (v64_ofZ 1) by lia. cbn [xr2]. destruct (rng_Z (-1) 0 (r - IZR 1)) as [-> Q]; [lia|lia|lra|]. eexists. split; [reflexivity|]. apply Rabs_le. lra.
        - change (v64 f0) with (Fin 0). cbn [xr2]. destruct (rng_Z 0 1 (r - 0)) as [-> Q]; [lia|lia|lra|]. eexists. split; [reflexivity|]. apply Rabs_le. lra. }
      assert (length terms <= L)%nat as LT by (unfold terms; rewrite BootProofs5.map2_length; lia). apply le_INR in LT.
      destruct (sums_unit terms _ (nsum_sums terms)) as (r & E & R & _); [lra|exact N0|]. exists r. split; [exact E|]. rewrite <- INR_IZR_INZ. lra. }
    pose proof (maxn_Z _ B) as LZ.
    destruct (rescale && (1 <? Z.of_nat L)%Z) eqn:RS; (eexists; split; [reflexivity|]).
    - apply andb_true_iff in RS as [_ RS]. apply Z.ltb_lt in RS. split; [now rewrite map_length|]. apply Forall_map. eapply Forall_impl; [|exact FB]. intros x (r & E & R).
      cbn [nmul ndiv nofZ f64_num]. destruct (f_of_Z_correct (Z.of_nat L)) as [V1 F1]; [lia|]. destruct (f_of_Z_correct (Z.of_nat L - 1)) as [V2 F2]; [lia|].
      assert (1 <= IZR (Z.of_nat L - 1)) as G by (apply (IZR_le 1); lia). rewrite minus_IZR in G.
      assert (0 <= IZR (Z.of_nat L) / IZR (Z.of_nat L - 1) <= 2) as Q.
      { rewrite minus_IZR. split; [apply Rmult_le_pos; [lra|apply Rlt_le, Rinv_0_lt_compat; lra]|].
        apply (Rmult_le_reg_r (IZR (Z.of_nat L) - 1)); [lra|]. unfold Rdiv. rewrite Rmult_assoc, Rinv_l by lra. lra. }
      unfold rng. rewrite v64_mul, v64_div_fin, V1, V2, E; [|exact F1|rewrite V2, minus_IZR; lra].
      destruct (rng_Z 0 2 _ ltac:(lia) ltac:(lia) Q) as [-> Q']. cbn [xr2].
      destruct (rng_Z 0 (Z.of_nat L * 2) (rnd64 (IZR (Z.of_nat L) / IZR (Z.of_nat L - 1)) * r)) as [-> Q2]; [lia|lia| |eauto].
      rewrite mult_IZR. split; [apply Rmult_le_pos; lra|]. rewrite Rmult_comm. apply Rmult_le_compat; lra.
    - split; [exact LB|]. now rewrite Z.mul_1_r.
  Qed.

  Lemma spherical_ok rescale : INR L <= MAXN -> (10 <= k <= 800)%Z ->
    exists l, @any_spherical_loss _ _ lib sum rescale kd y P L = Ok l /\ length l = length y /\ Forall (if rescale then rng 0 4 else rng (-1) 0) l.
  Proof.
    intros B K. pose proof (maxn_Z _ B) as LZ. unfold any_spherical_loss. rewrite (proj2 (validate_iff kd y P L) V). cbn [bind]. pose proof V as (_ & L1 & LY & _ & VV).
    match goal with |- context [map2 ?f y P] => set (one := f) end.
    assert (length (map2 one y P) = length y /\ Forall (rng (-1) 0) (map2 one y P)) as [LB FB].
    { apply class_map2. intros v row Hv R. unfold one. destruct R as (Ln & LP & NG & EX).
      assert (In (nth (Z.to_nat v) row f0) row) as I by (apply nth_In; lia).
      assert (forall x, v64 x = NInf -> v64 (fmul (f_of_Z 2) x) = NInf) as TI.
      { intros x E. rewrite v64_mul, E, (v64_ofZ 2) by lia. cbn. unfold xinf_mul, Reqb, Rltb. destruct (Req_EM_T 2 0); [lra|]. destruct (Rlt_dec 0 2); [reflexivity|lra]. }
      assert (forall x r, v64 x = Fin r -> Rabs r <= P2 k -> v64 (fmul (f_of_Z 2) x) = Fin (2 * r)) as TF.
      { intros x r E R. rewrite v64_mul, E, (v64_ofZ 2) by lia. cbn [xr2]. rewrite xround_ok.
        - f_equal. apply rnd64_id. replace (2 * r) with (r * P2 1) by (change (P2 1) with 2; lra). apply mult_bpow_pos_exact_FLT; [eapply v64_Fin_format, E|lia].
        - rewrite Rabs_mult, (Rabs_pos_eq 2) by lra. apply Rle_trans with (P2 (k + 1)); [rewrite P2_S; lra|apply bpow_le; lia]. }
      set (dbl := map (nmul (nofZ 2)) row).
      assert (Forall (lprob (k + 1)) dbl) as LD.
      { apply Forall_map. eapply Forall_impl; [|exact LP]. intros x [N|(r & E & R)]; cbn [nmul nofZ f64_num]; [left; now apply TI|right].
        exists (2 * r). split; [now apply TF|]. rewrite Rabs_mult, (Rabs_pos_eq 2), P2_S by lra. lra. }
      assert (Exists (bdd (k + 1)) dbl) as ED.
      { apply Exists_exists in EX as (x & Ix & (r & E & R)). apply Exists_exists. exists (fmul (f_of_Z 2) x). split; [unfold dbl; apply in_map_iff; eauto|].
        exists (2 * r). split; [now apply TF|]. rewrite Rabs_mult, (Rabs_pos_eq 2), P2_S by lra. lra. }
      destruct (logsumexp_ok fexp flog sf ppf eig EL sum SUM (k + 1) dbl) as (m & e & Em & Ee & Le & Be & AM); [lia|unfold dbl; rewrite map_length, Ln; exact B|exact LD|exact ED|].
      cbn [nopp nexp nsub nmul ndiv nofZ n1 n0 fn_f64 f64_num]. set (z := any_logsumexp sum dbl) in *. clearbody z. set (a := nth (Z.to_nat v) row f0) in *.
      assert (v64 (fdiv (f_of_Z 1) (f_of_Z 2)) = Fin (/ 2)) as Eh.
      { destruct (f_of_Z_correct 1) as [V1 F1]; [lia|]. destruct (f_of_Z_correct 2) as [V2 F2]; [lia|]. rewrite v64_div_fin; [|exact F1|lra]. rewrite V1, V2.
        replace (1 / 2) with (P2 (-1)) by (cbn; lra). rewrite xround_ok, rnd64_id; [f_equal; cbn; lra|apply format_P2; lia|]. rewrite Rabs_pos_eq by apply bpow_ge_0. apply bpow_le. lia. }
      assert (v64 (fmul (fdiv (f_of_Z 1) (f_of_Z 2)) z) = Fin (rnd64 (/ 2 * e))) as Ez.
      { rewrite v64_mul, Eh, Ee. cbn [xr2]. apply xround_ok. rewrite Rabs_mult, (Rabs_pos_eq (/ 2)) by lra. apply Rle_trans with (P2 (k + 1 + 1)); [|apply bpow_le; lia].
        pose proof (Rabs_pos e). lra. }
      assert (fleb a (fmul (fdiv (f_of_Z 1) (f_of_Z 2)) z) = true) as LE.
      { rewrite v64_leb, Ez. rewrite Forall_forall in AM, LP. specialize (AM (fmul (f_of_Z 2) a)). rewrite v64_leb, Em in AM.
        destruct (LP a I) as [N|(r & E & R)]; [rewrite N; reflexivity|]. rewrite E. apply Rleb_spec.
        rewrite (TF a r E R) in AM. assert (2 * r <= m) by (apply Rleb_spec; apply AM; unfold dbl; apply in_map_iff; eauto).
        apply rnd64_ge; [eapply v64_Fin_format, E|lra]. }
      pose proof (sub_neg _ _ _ LE Ez) as NG2. destruct (el_exp _ _ EL _ NG2) as [E1 E2]. destruct (unit_nng _ E1 E2) as (r & Er & R). change (P2 0) with 1 in R.
      replace (-1) with (- (1)) by lra. replace 0 with (- 0) by lra. apply (rng_opp 0 1). exists r. auto. }
    destruct rescale; (eexists; split; [reflexivity|]).
    - split; [now rewrite map_length|]. apply Forall_map. eapply Forall_impl; [|exact FB]. intros x (r & E & R). cbn [nadd nsub ndiv nsqrt nofZ n1 fn_f64 f64_num].
      assert (exists d, v64 (if (1 <? L)%nat then fsub (f_of_Z 1) (fdiv (f_of_Z 1) (fsqrt (f_of_Z (Z.of_nat L)))) else f_of_Z 1) = Fin d /\ / 4 <= d) as (d & Ed & D).
      { destruct (Nat.ltb_spec 1 L) as [G|G]; [|exists 1; split; [now apply v64_ofZ|lra]].
        destruct (f_of_Z_correct 1) as [V1 F1]; [lia|]. destruct (f_of_Z_correct (Z.of_nat L)) as [V2 F2]; [lia|].
        assert (2 <= IZR (Z.of_nat L)) as L2 by (apply (IZR_le 2); lia).
        pose proof (v64_sqrt (f_of_Z (Z.of_nat L)) _ (v64_fin _ F2)) as ES. rewrite V2 in ES. specialize (ES ltac:(lra)). apply v64_Fin in ES as [Fs Vs].
        assert (11 / 8 <= rnd64 (sqrt (IZR (Z.of_nat L)))) as SQ.
        { apply rnd64_ge.
          - replace (11 / 8) with (INR 1 * (IZR 11 * P2 (-3))) by (cbn; lra). apply small_multiple; [lia|lia|]. unfold MAXN. cbn [INR]. change 1 with (P2 0). apply bpow_le. lia.
          - apply Rsqr_incr_0_var; [|apply sqrt_pos]. rewrite Rsqr_sqrt by lra. unfold Rsqr. lra. }
        rewrite v64_sub, v64_div_fin, V1, Vs; [|exact F1|rewrite Vs; lra]. rewrite (v64_fin _ F1), V1.
        assert (0 <= 1 / rnd64 (sqrt (IZR (Z.of_nat L))) <= 3 / 4) as Q.
        { split; [apply Rmult_le_pos; [lra|apply Rlt_le, Rinv_0_lt_compat; lra]|]. apply (Rmult_le_reg_r (rnd64 (sqrt (IZR (Z.of_nat L))))); [lra|]. unfold Rdiv. rewrite Rmult_assoc, Rinv_l by lra. lra. }
        assert (forall n, (Z.abs n <= 2 ^ 22)%Z -> format64 (IZR n / 4)) as F4.
        { intros n Hn. replace (IZR n / 4) with (INR 1 * (IZR n * P2 (-2))) by (cbn; lra). apply small_multiple; [lia|lia|]. unfold MAXN. cbn [INR]. change 1 with (P2 0). apply bpow_le. lia. }
        pose proof (bpow_gt_0 radix2 1000). assert (1 <= P2 1000) by (change 1 with (P2 0); apply bpow_le; lia).
        destruct (rnd_rng (1 / rnd64 (sqrt (IZR (Z.of_nat L)))) 0 (3 / 4)) as [-> Q2]; [exact Q|apply format64_0|apply (F4 3%Z); lia|lra|lra|]. cbn [xr2].
        destruct (rnd_rng (1 - rnd64 (1 / rnd64 (sqrt (IZR (Z.of_nat L))))) (1 / 4) 1) as [-> Q3]; [lra|apply (F4 1%Z); lia|replace 1 with (IZR 4 / 4) by lra; apply (F4 4%Z); lia|lra|lra|].
        eexists. split; [reflexivity|]. lra. }
      match type of Ed with v64 ?t = _ => set (c := t) in * end. clearbody c. apply v64_Fin in Ed as [Fc Vc].
      destruct (rng_Z 0 1 (1 + r)) as [E1 Q1]; [lia|lia|lra|]. assert (v64 (fadd (f_of_Z 1) x) = Fin (rnd64 (1 + r))) as Ea by (rewrite v64_add, E, (v64_ofZ 1) by lia; exact E1).
      apply v64_Fin in Ea as [Fa Va]. unfold rng. rewrite v64_div_fin, Va; [|exact Fa|lra].
      destruct (rng_Z 0 4 (rnd64 (1 + r) / B2R c)) as [-> Q2]; [lia|lia| |eauto].
      split; [apply Rmult_le_pos; [lra|apply Rlt_le, Rinv_0_lt_compat; lra]|]. apply (Rmult_le_reg_r (B2R c)); [lra|]. unfold Rdiv. rewrite Rmult_assoc, Rinv_l by lra. lra.
    - auto.
  Qed.
  Lemma hard_ok (Q : f64 -> Prop) mat n : length mat = L -> (1 <= n)%nat -> Forall (fun r => length r = n /\ Forall Q r) mat ->
    exists l, @hard_loss _ _ lib kd y P L (Some (mat, n)) = Ok l /\ length l = length y /\ Forall Q l.
  Proof.
    clear - V. intros LM N FM. unfold hard_loss. rewrite (proj2 (validate_iff kd y P L) V). cbn [bind]. pose proof V as (_ & L1 & LY & _ & VV).
    rewrite LM, Nat.eqb_refl. destruct (Nat.leb_spec 1 n); [|lia]. cbn [py_assert bind]. unfold hard_loss_decision. rewrite LM, Nat.eqb_refl. cbn [negb].
    assert (exists acts, mapM (fun row => argmin (expected_losses (map nexp row) mat n)) P = Ok acts /\ length acts = length P /\ Forall (fun a => (a < n)%nat) acts) as (acts & -> & LA & FA).
    { clear - N. induction P as [|row rest IH]; [exists []; auto|]. destruct IH as (acts & E & La & Fa). cbn [mapM].
      assert (length (expected_losses (map (nexp (fn := lib)) row) mat n) = n) as LE by (unfold expected_losses; now rewrite map_length, seq_length).
      destruct (argmin_total (expected_losses (map (nexp (fn := lib)) row) mat n)) as [a Ea]; [intros Q0; rewrite Q0 in LE; cbn in LE; lia|].
      rewrite Ea. cbn [bind]. rewrite E. cbn [bind]. exists (a :: acts). split; [reflexivity|]. split; [cbn; lia|]. constructor; [|exact Fa]. apply argmin_lt in Ea. lia. }
    cbn [bind]. eexists. split; [reflexivity|]. split; [apply map2_len; lia|]. eapply Forall_map2; [|exact VV|exact FA]. intros v a Hv Ha. cbn beta in *.
    rewrite Forall_forall in FM. destruct (FM (nth (Z.to_nat v) mat [])) as [Lr Fr]; [apply nth_In; lia|]. rewrite Forall_forall in Fr. apply Fr. apply nth_In. lia.
  Qed.
  Lemma hard_none : @hard_loss _ _ lib kd y P L None = @hard_loss _ _ lib kd y P L (Some (zero_one L, L)).
  Proof. reflexivity. Qed.
End ClassLosses.
Lemma zero_one_ok L : length (zero_one L : list (list f64)) = L /\ Forall (fun r : list f64 => length r = L /\ Forall (rng 0 1) r) (zero_one L).
Proof.
  unfold zero_one. rewrite map_length, seq_length. split; [reflexivity|]. apply Forall_forall. intros r I. apply in_map_iff in I as (i & <- & _). rewrite map_length, seq_length.
  split; [reflexivity|]. apply Forall_forall. intros x I. apply in_map_iff in I as (j & <- & _). cbn [nsub n1 n0 f64_num]. unfold rng. rewrite v64_sub, (v64_ofZ 1) by lia.
  destruct (i =? j)%nat.
  - rewrite (v64_ofZ 1) by lia. cbn [xr2]. destruct (rng_Z 0 1 (1 - 1)) as [-> Q]; [lia|lia|lra|eauto].
  - change (v64 f0) with (Fin 0). cbn [xr2]. destruct (rng_Z 0 1 (1 - 0)) as [-> Q]; [lia|lia|lra|eauto].
Qed.
