(** How far the losses computed in doubles are from the exact losses. *)
From Coq Require Import Reals Lra Lia List Permutation.
From Flocq Require Import Core BinarySingleNaN Mult_error.
From Verif Require Import PyBase ListLemmas F64 F64Lemmas Num NumOk SumProofs Util UtilProofs BootUtil BootProofs2 PerfCurves CurveBoot MLPaper MLProofs MLProofs4 CompareProofs
  SwapProofs MeanProofs DoublesProofs DoublesProofs2 DoublesProofs3 Classification ClassProofs ClassProofs2 AnyNormalize DoublesProofs4 DoublesProofs5 AccuracyProofs Regression.
Open Scope R_scope.

Lemma u_facts : 0 < u64 /\ u64 <= / 1024 /\ eta <= u64 * / 1024 /\ 0 < eta /\ P2 (-50) = 8 * u64.
Proof.
  pose proof u64_pos. pose proof u64_small. repeat split; auto; [|apply bpow_gt_0|].
  - replace (u64 * / 1024) with (P2 (-63)); [apply bpow_le; lia|]. replace (-63)%Z with (-53 + -10)%Z by lia. rewrite bpow_plus. unfold u64. f_equal.
  - unfold u64. replace (-50)%Z with (3 + -53)%Z by lia. rewrite bpow_plus. change (P2 3) with 8. lra.
Qed.
Lemma pr_unit x : fleb x f0 = true -> 0 <= pr (v64 x) <= 1.
Proof.
  intros H. rewrite v64_leb in H. change (v64 f0) with (Fin 0) in H. destruct (v64 x) as [r| | |]; cbn [pr]; try lra. apply Rleb_spec in H.
  split; [apply Rlt_le, exp_pos|]. rewrite <- exp_0. destruct H as [H| ->]; [apply Rlt_le, exp_increasing, H|lra].
Qed.

(** ** Brier loss *)
Lemma cold_terms {A} (f : f64 -> bool -> A) d row : map2 f row (repeat false (length row)) = map (fun k => f (nth k row d) false) (seq 0 (length row)).
Proof. induction row as [|a row IH]; [reflexivity|]. cbn [length repeat map2 seq map nth]. f_equal. rewrite IH, <- seq_shift, map_map. reflexivity. Qed.
Lemma hot_terms {A} (f : f64 -> bool -> A) d row : forall v,
  map2 f row (set_true (repeat false (length row)) v) = map (fun k => f (nth k row d) (k =? v)%nat) (seq 0 (length row)).
Proof.
  induction row as [|a row IH]; intros v; [reflexivity|]. cbn [length repeat set_true seq map nth]. destruct v as [|v]; cbn [map2 Nat.eqb]; f_equal.
  - rewrite (cold_terms f d), <- seq_shift, map_map. reflexivity.
  - rewrite IH, <- seq_shift, map_map. reflexivity.
Qed.

Section Brier.
  Context (fexp flog : f64 -> f64) (sf ppf : Z -> f64 -> f64) (eig : f64 -> f64 -> option (f64 * f64)) (EL : exp_log fexp flog) (AE : accurate_exp_log fexp flog).
  Notation lib := (fn_f64 fexp flog sf ppf eig).
  Definition brier_term (x : f64) (b : bool) : f64 := let d := fsub (fexp x) (if b then f_of_Z 1 else f0) in fmul d d.
  Lemma brier_term_err (x : f64) (b : bool) : fleb x f0 = true ->
    let D := pr (v64 x) - (if b then 1 else 0) in
    exists t, v64 (brier_term x b) = Fin t /\ 0 <= t <= 1 /\ Rabs (t - D * D) <= 20 * u64.
  Proof.
    intros H D. destruct u_facts as (U & U1 & T1 & T2 & E50). destruct (el_exp _ _ EL x H) as [X1 X2]. destruct (unit_nng _ X1 X2) as (e & Ee & Re). change (P2 0) with 1 in Re.
    destruct (ae_exp _ _ AE x H) as [Fe Ae]. pose proof Ee as Ee'. apply v64_Fin in Ee' as [_ Ve]. rewrite Ve in Ae. pose proof (pr_unit x H) as Pu.
    set (c := if b then 1 else 0 : R) in *. assert (v64 (if b then f_of_Z 1 else f0) = Fin c) as Ec by (unfold c; destruct b; [now apply v64_ofZ|reflexivity]).
    assert (0 <= c <= 1) as Rc by (unfold c; destruct b; lra).
    assert (-1 <= e - c <= 1) as Rd by lra.
    destruct (rng_Z (-1) 1 (e - c) ltac:(lia) ltac:(lia) Rd) as [Q1 Q2].
    assert (v64 (fsub (fexp x) (if b then f_of_Z 1 else f0)) = Fin (rnd64 (e - c))) as Ed by (rewrite v64_sub, Ee, Ec; exact Q1).
    pose proof (rnd_add_err e (- c) (v64_Fin_format _ _ Ee) (generic_format_opp _ _ _ (v64_Fin_format _ _ Ec))) as R1. change (e + - c) with (e - c) in R1.
    set (d := rnd64 (e - c)) in *. assert (Rabs (d - D) <= 9 * u64) as Dd.
    { assert (Rabs (e - c) <= 1) by (apply Rabs_le; lra). rewrite E50 in Ae. apply Rabs_le_inv in Ae. assert (u64 * Rabs (e - c) <= u64 * 1) as G by (apply Rmult_le_compat_l; lra).
      apply Rabs_le_inv in R1. apply Rabs_le. unfold D. fold c. lra. }
    assert (-1 <= D <= 1) as RD by (unfold D; fold c; lra). assert (0 <= d * d <= 1) as Rdd by nra.
    destruct (rng_Z 0 1 (d * d) ltac:(lia) ltac:(lia) Rdd) as [Q3 Q4]. exists (rnd64 (d * d)). split.
    - unfold brier_term. cbv zeta. rewrite v64_mul, Ed. cbn [xr2]. exact Q3.
    - split; [exact Q4|]. pose proof (rnd_err (d * d)) as R2. rewrite (Rabs_pos_eq (d * d)) in R2 by lra. assert (u64 * (d * d) <= u64 * 1) as G by (apply Rmult_le_compat_l; lra).
      assert (Rabs (d * d - D * D) <= 18 * u64) as R3.
      { replace (d * d - D * D) with ((d - D) * (d + D)) by ring. rewrite Rabs_mult. assert (Rabs (d + D) <= 2) by (apply Rabs_le; lra). pose proof (Rabs_pos (d - D)). pose proof (Rabs_pos (d + D)).
        replace (18 * u64) with (9 * u64 * 2) by ring. apply Rmult_le_compat; assumption. }
      apply Rabs_le_inv in R2, R3. apply Rabs_le. lra.
  Qed.

  (** the squared distance to the one-hot label *)
  Definition brier_R (p : nat -> R) (v L : nat) : R := Rsum (map (fun k => (p k - if (k =? v)%nat then 1 else 0) ^ 2) (seq 0 L)).

  Lemma brier_sum_err row v s : Forall (fun x => fleb x f0 = true) row -> INR (length row) <= MAXN -> (1 <= length row)%nat ->
    sums_to (map (fun k => brier_term (nth k row f0) (k =? v)%nat) (seq 0 (length row))) s ->
    let B := brier_R (prob (map v64 row)) v (length row) in
    exists t, v64 s = Fin t /\ 0 <= t /\ 0 <= B <= INR (length row) /\ Rabs (t - B) <= 21 * (INR (length row) * u64) * (1 + B).
  Proof.
    intros F N N1 S B. destruct u_facts as (U & U1 & T1 & T2 & E50). set (terms := map _ (seq 0 (length row))) in *. set (n := INR (length row)) in *.
    set (ex := fun k => (prob (map v64 row) k - if (k =? v)%nat then 1 else 0) ^ 2) in *.
    assert (forall k, In k (seq 0 (length row)) -> exists t, v64 (brier_term (nth k row f0) (k =? v)%nat) = Fin t /\ 0 <= t <= 1 /\ Rabs (t - ex k) <= 20 * u64 /\ 0 <= ex k <= 1) as H.
    { intros k Hk. apply in_seq in Hk. assert (fleb (nth k row f0) f0 = true) as L by (rewrite Forall_forall in F; apply F, nth_In; lia).
      destruct (brier_term_err (nth k row f0) (k =? v)%nat L) as (t & Et & Rt & Dt). exists t. split; [exact Et|]. split; [exact Rt|]. unfold ex. rewrite prob_pr.
      rewrite (nth_indep _ NaN (v64 f0)) by (rewrite map_length; lia). rewrite map_nth. pose proof (pr_unit _ L) as Pu. split; [|destruct (k =? v)%nat; split; nra].
      replace ((pr (v64 (nth k row f0)) - (if (k =? v)%nat then 1 else 0)) ^ 2) with ((pr (v64 (nth k row f0)) - (if (k =? v)%nat then 1 else 0)) * (pr (v64 (nth k row f0)) - (if (k =? v)%nat then 1 else 0))) by ring. exact Dt. }
    assert (length terms = length row) as LT by (unfold terms; now rewrite map_length, seq_length).
    assert (Forall (nng 0) terms) as N0.
    { unfold terms. apply Forall_map, Forall_forall. intros k Hk. destruct (H k Hk) as (t & Et & Rt & _). exists t. split; [exact Et|]. exact Rt. }
    assert (Forall2 (fun x y => Rabs (x - y) <= 20 * u64) (vals terms) (map ex (seq 0 (length row)))) as C.
    { unfold vals, terms. rewrite map_map. clear -H. revert H. generalize (seq 0 (length row)) as l. induction l as [|k l IH]; intros H; cbn [map]; constructor; [|apply IH; intros; apply H; now right].
      destruct (H k (or_introl eq_refl)) as (t & Et & _ & Dt & _). apply v64_Fin in Et as [_ ->]. exact Dt. }
    apply Rsum_close in C. assert (length (vals terms) = length row) as LV by (unfold vals; now rewrite map_length). rewrite LV in C. fold n in C. change (Rsum (map ex (seq 0 (length row)))) with B in C.
    assert (0 <= B <= n) as RB.
    { cut (0 <= Rsum (map ex (seq 0 (length row))) <= INR (length (seq 0 (length row)))); [rewrite seq_length; intros Q; exact Q|]. clear -H. revert H. generalize (seq 0 (length row)) as l. induction l as [|k l IH]; intros H; [cbn; lra|].
      cbn [map length]. rewrite Rsum_cons, S_INR. destruct (H k (or_introl eq_refl)) as (_ & _ & _ & _ & Q). specialize (IH (fun j Hj => H j (or_intror Hj))). lra. }
    assert (Forall (fun a => fisfin a = true) terms) as FT by (eapply Forall_impl; [|exact N0]; intros a (t & Et & _); now apply v64_Fin in Et).
    assert (abs_sum terms = Rsum (vals terms)) as AS.
    { unfold abs_sum. f_equal. unfold vals. rewrite map_map. apply map_ext_in. intros a Ia. rewrite Forall_forall in N0. destruct (N0 a Ia) as (t & Et & T). apply v64_Fin in Et as [_ ->]. apply Rabs_pos_eq. lra. }
    pose proof (maxn_u (length row) N) as M. fold n in M. pose proof p23 as P8. assert (P2 (-23) <= / 1024) as P23 by (replace (/ 1024) with (P2 (-10)) by (cbn; lra); apply bpow_le; lia).
    set (x := n * u64) in *. assert (1 <= n) as n1 by (apply (le_INR 1); exact N1). assert (0 < x) as X0 by (unfold x; nra). replace (n * (20 * u64)) with (20 * x) in C by (unfold x; ring).
    destruct (sums_unit terms s S) as (t & Et & Rt & _); [rewrite LT; exact N|exact N0|].
    destruct (sums_err terms s S FT) as [Fs Es]; [rewrite LT; exact N|rewrite AS; apply Rabs_le_inv in C; apply Rle_trans with (P2 31); [|apply bpow_le; lia];
      assert (P2 31 = 2 * P2 30) by (replace 31%Z with (1 + 30)%Z by lia; rewrite bpow_plus; reflexivity); unfold MAXN in N; lra|].
    rewrite AS, LT in Es. pose proof Et as Et'. apply v64_Fin in Et' as [_ Vt]. rewrite Vt in Es. exists t. split; [exact Et|]. split; [lra|]. split; [exact RB|].
    assert ((1 + u64) ^ Nat.pred (length row) - 1 <= 2 * x) as PW.
    { assert (INR (Nat.pred (length row)) <= n) as Q by (apply le_INR; lia). pose proof (pow_up (Nat.pred (length row))) as PU. pose proof (pos_INR (Nat.pred (length row))).
      assert (INR (Nat.pred (length row)) * u64 <= x) by (apply Rmult_le_compat_r; lra). specialize (PU ltac:(lra)). lra. }
    set (V := Rsum (vals terms)) in *. assert (0 <= V) as V0 by (rewrite <- AS; apply abs_sum_pos).
    assert (((1 + u64) ^ Nat.pred (length row) - 1) * V <= 2 * x * V) as Q by (apply Rmult_le_compat_r; lra).
    apply Rabs_le_inv in C. assert (2 * x * V <= 2 * x * (B + / 4)) as Q2 by (apply Rmult_le_compat_l; lra).
    assert (0 <= x * B) by (apply Rmult_le_pos; lra). apply Rabs_le_inv in Es. apply Rabs_le. split; lra.
  Qed.
End Brier.

Lemma brier_scale_err (L : nat) (s : f64) t B : (2 <= L)%nat -> INR L <= MAXN -> v64 s = Fin t -> 0 <= t -> 0 <= B <= INR L -> Rabs (t - B) <= 21 * (INR L * u64) * (1 + B) ->
  let C := INR L / (INR L - 1) in 1 <= C <= 2 /\
  exists r, v64 (fmul (fdiv (f_of_Z (Z.of_nat L)) (f_of_Z (Z.of_nat L - 1))) s) = Fin r /\ 0 <= r /\ Rabs (r - C * B) <= 26 * (INR L * u64) * C * (1 + B).
Proof.
  intros L2 N Et T0 RB H C. destruct u_facts as (U & U1 & T1 & T2 & _). pose proof (maxn_Z _ N) as LZ.
  destruct (f_of_Z_correct (Z.of_nat L)) as [V1 F1]; [lia|]. destruct (f_of_Z_correct (Z.of_nat L - 1)) as [V2 F2]; [lia|].
  assert (1 <= IZR (Z.of_nat L - 1)) as G by (apply (IZR_le 1); lia). rewrite minus_IZR in V2, G. rewrite <- INR_IZR_INZ in V1, V2, G. set (n := INR L) in *.
  assert (1 <= C <= 2) as RC.
  { unfold C. split; apply (Rmult_le_reg_r (n - 1)); try lra; unfold Rdiv; rewrite Rmult_assoc, Rinv_l by lra; lra. }
  split; [exact RC|]. pose proof (maxn_u L N) as M. fold n in M. assert (P2 (-23) <= / 1024) as P23 by (replace (/ 1024) with (P2 (-10)) by (cbn; lra); apply bpow_le; lia).
  set (x := n * u64) in *. assert (2 * u64 <= x) as X0 by (unfold x; apply Rmult_le_compat_r; lra).
  assert (v64 (fdiv (f_of_Z (Z.of_nat L)) (f_of_Z (Z.of_nat L - 1))) = Fin (rnd64 C)) as Ec.
  { rewrite v64_div_fin; [|exact F1|rewrite V2; lra]. rewrite V1, V2. apply xround_ok. rewrite Rabs_pos_eq by lra. apply Rle_trans with (P2 1); [cbn; lra|apply bpow_le; lia]. }
  destruct (rel_near C) as (q & Q & Eq); [apply Rle_trans with (P2 0); [apply bpow_le; lia|cbn; lra]|]. rewrite Eq in Ec. unfold near in Q.
  assert (t <= 2 * (1 + B)) as Tb by (apply Rabs_le_inv in H; nra).
  assert (Rabs (C * q - C) <= 2 * u64 * C) as R1 by (replace (C * q - C) with (C * (q - 1)) by ring; rewrite Rabs_mult, (Rabs_pos_eq C) by lra; nra).
  assert (0 <= C * q <= 3) as R0 by (apply Rabs_le_inv in R1; split; nra).
  exists (rnd64 (C * q * t)). split.
  - rewrite v64_mul, Ec, Et. cbn [xr2]. apply xround_ok. rewrite Rabs_pos_eq by (apply Rmult_le_pos; lra). apply Rle_trans with (P2 40); [|apply bpow_le; lia].
    apply Rle_trans with (3 * (2 * (1 + P2 30))).
    + apply Rmult_le_compat; try lra. unfold MAXN in N. lra.
    + replace (P2 40) with (1024 * P2 30) by (replace 40%Z with (10 + 30)%Z by lia; rewrite bpow_plus; f_equal). assert (1 <= P2 30) by (change 1 with (P2 0); apply bpow_le; lia). lra.
  - split; [apply rnd64_ge; [apply format64_0|apply Rmult_le_pos; lra]|].
    pose proof (rnd_err (C * q * t)) as R2. rewrite (Rabs_pos_eq (C * q * t)) in R2 by (apply Rmult_le_pos; lra).
    set (r := rnd64 (C * q * t)) in *. clearbody r. replace (r - C * B) with ((r - C * q * t) + ((C * q - C) * t + C * (t - B))) by ring.
    assert (Rabs ((C * q - C) * t) <= 2 * u64 * C * t) as R3 by (rewrite Rabs_mult, (Rabs_pos_eq t) by lra; apply Rmult_le_compat_r; lra).
    assert (Rabs (C * (t - B)) <= C * (21 * x * (1 + B))) as R4 by (rewrite Rabs_mult, (Rabs_pos_eq C) by lra; apply Rmult_le_compat_l; lra).
    assert (C * q * t <= C * t * (1 + / 100)) as R5 by (apply Rabs_le_inv in R1; replace (C * t * (1 + / 100)) with (C * (1 + / 100) * t) by ring; apply Rmult_le_compat_r; nra).
    assert (t <= (1 + / 40) * (1 + B)) as Tb2 by (apply Rabs_le_inv in H; nra).
    assert (C * t <= C * ((1 + / 40) * (1 + B))) as R6 by (apply Rmult_le_compat_l; lra).
    set (CB := C * (1 + B)). assert (1 <= CB) as CB1 by (unfold CB; nra). replace (C * ((1 + / 40) * (1 + B))) with ((1 + / 40) * CB) in R6 by (unfold CB; ring).
    replace (C * (21 * x * (1 + B))) with (21 * (x * CB)) in R4 by (unfold CB; ring). replace (26 * x * C * (1 + B)) with (26 * (x * CB)) by (unfold CB; ring).
    assert (u64 * (C * q * t) <= u64 * (11 / 10 * CB)) as R7 by (apply Rmult_le_compat_l; lra).
    assert (2 * u64 * C * t <= u64 * (21 / 10 * CB)) as R8 by (replace (2 * u64 * C * t) with (u64 * (2 * (C * t))) by ring; apply Rmult_le_compat_l; lra).
    assert (2 * (u64 * CB) <= x * CB) as R9 by (rewrite <- Rmult_assoc; apply Rmult_le_compat_r; lra).
    assert (u64 <= u64 * CB) as R10 by (rewrite <- (Rmult_1_r u64) at 1; apply Rmult_le_compat_l; lra).
    apply Rabs_le_inv in R2, R3, R4. apply Rabs_le. split; lra.
Qed.

(** ** spherical loss *)
Lemma half_log S : 0 < S -> exp (- (/ 2 * ln S)) = / sqrt S.
Proof.
  intros P. rewrite exp_Ropp. f_equal. symmetry. apply sqrt_lem_1; [lra|apply Rlt_le, exp_pos|]. rewrite <- exp_plus. replace (/ 2 * ln S + / 2 * ln S) with (ln S) by lra. now apply exp_ln.
Qed.

Section Sphere.
  Context (fexp flog : f64 -> f64) (sf ppf : Z -> f64 -> f64) (eig : f64 -> f64 -> option (f64 * f64)) (EL : exp_log fexp flog) (AE : accurate_exp_log fexp flog).
  Notation lib := (fn_f64 fexp flog sf ppf eig).
  Context (sum : list f64 -> f64) (SUM : forall l, sums_to l (sum l)).

  (** the probability of the label over the length of the probability vector *)
  Definition sphere_R (p : nat -> R) (v L : nat) : R := p v / sqrt (Rsum (map (fun k => p k ^ 2) (seq 0 L))).

  Lemma sphere_err row v A : 0 <= A -> 2 * A <= MAXN -> INR (length row) <= MAXN -> Forall (entry A) row -> Exists (fun x => fisfin x = true) row -> (v < length row)%nat ->
    exists r, v64 (fexp (fsub (nth v row f0) (fmul (fdiv (f_of_Z 1) (f_of_Z 2)) (@any_logsumexp _ _ lib sum (map (fmul (f_of_Z 2)) row))))) = Fin r /\ 0 <= r <= 1 /\
      0 <= sphere_R (prob (map v64 row)) v (length row) <= 1 /\
      Rabs (r - sphere_R (prob (map v64 row)) v (length row)) <= u64 * (40 * INR (length row) + 8 * A).
  Proof.
    intros A0 A1 N F E Hv. destruct u_facts as (U & U1 & T1 & T2 & E50).
    assert (A <= P2 29) as A29 by (unfold MAXN in A1; replace (P2 30) with (2 * P2 29) in A1 by (replace 30%Z with (1 + 29)%Z by lia; rewrite bpow_plus; reflexivity); lra).
    assert (forall x, v64 x = NInf -> v64 (fmul (f_of_Z 2) x) = NInf) as TI.
    { intros x Ex. rewrite v64_mul, Ex, (v64_ofZ 2) by lia. cbn. unfold xinf_mul, Reqb, Rltb. destruct (Req_EM_T 2 0); [lra|]. destruct (Rlt_dec 0 2); [reflexivity|lra]. }
    assert (forall x r, v64 x = Fin r -> Rabs r <= A -> v64 (fmul (f_of_Z 2) x) = Fin (2 * r)) as TF.
    { intros x r Ex R. rewrite v64_mul, Ex, (v64_ofZ 2) by lia. cbn [xr2]. rewrite xround_ok.
      - f_equal. apply rnd64_id. replace (2 * r) with (r * P2 1) by (change (P2 1) with 2; lra). apply mult_bpow_pos_exact_FLT; [eapply v64_Fin_format, Ex|lia].
      - rewrite Rabs_mult, (Rabs_pos_eq 2) by lra. apply Rle_trans with (P2 30); [unfold MAXN in A1; lra|apply bpow_le; lia]. }
    set (dbl := map (fmul (f_of_Z 2)) row). assert (length dbl = length row) as LD by (unfold dbl; now rewrite map_length).
    assert (Forall (entry (2 * A)) dbl) as FD.
    { apply Forall_map. eapply Forall_impl; [|exact F]. intros x [H|(r & H & R)]; [left; now apply TI|right]. exists (2 * r). split; [now apply TF|]. rewrite Rabs_mult, (Rabs_pos_eq 2) by lra. lra. }
    assert (Exists (fun x => fisfin x = true) dbl) as ED.
    { apply Exists_exists in E as (x & Ix & Fx). apply Exists_exists. exists (fmul (f_of_Z 2) x). split; [unfold dbl; now apply in_map|].
      rewrite Forall_forall in F. destruct (F x Ix) as [H|(r & H & R)]; [rewrite (v64_fin x Fx) in H; discriminate|]. pose proof (TF x r H R) as Q. now apply v64_Fin in Q. }
    destruct (normaliser_accurate fexp flog sf ppf eig EL AE sum SUM dbl (2 * A) ltac:(lra) ltac:(rewrite LD; exact N) FD ED) as (e & Ee & Ce & Be & SP). rewrite LD in Ce, Be.
    assert (Rsum (map (fun x => pr (v64 x)) dbl) = Rsum (map (fun k => prob (map v64 row) k ^ 2) (seq 0 (length row)))) as ES.
    { transitivity (Rsum (map (fun x => pr (v64 x) ^ 2) row)).
      - unfold dbl. rewrite map_map. f_equal. apply map_ext_in. intros x Ix. rewrite Forall_forall in F. destruct (F x Ix) as [H|(r & H & R)].
        + rewrite (TI x H), H. cbn [pr]. ring.
        + rewrite (TF x r H R), H. cbn [pr]. replace (2 * r) with (r + r) by ring. rewrite exp_plus. ring.
      - f_equal. clear. assert (forall l, map (fun k => prob (map v64 l) k ^ 2) (seq 0 (length l)) = map (fun x => pr (v64 x) ^ 2) l) as H; [|now rewrite H].
        induction l as [|a l IH]; [reflexivity|]. cbn [length seq map]. f_equal. rewrite <- IH, <- seq_shift, map_map. reflexivity. }
    unfold lse in Ce. rewrite ES in Ce, SP. set (S := Rsum (map (fun k => prob (map v64 row) k ^ 2) (seq 0 (length row)))) in *.
    assert (0 < sqrt S) as SQ by (now apply sqrt_lt_R0).
    set (a := nth v row f0). assert (In a row) as Ia by (now apply nth_In).
    assert (prob (map v64 row) v = pr (v64 a)) as Pa.
    { rewrite prob_pr. rewrite (nth_indep _ NaN (v64 f0)) by (rewrite map_length; exact Hv). now rewrite map_nth. }
    assert (pr (v64 a) * pr (v64 a) <= S) as PS.
    { replace (pr (v64 a) * pr (v64 a)) with (prob (map v64 row) v ^ 2) by (rewrite Pa; ring). apply Rsum_ge.
      - apply Forall_map, Forall_forall. intros k _. apply pow2_ge_0.
      - apply in_map_iff. exists v. split; [reflexivity|]. apply in_seq. lia. }
    assert (0 <= sphere_R (prob (map v64 row)) v (length row) <= 1) as RS.
    { unfold sphere_R. fold S. rewrite Pa. pose proof (pr_nonneg (v64 a)) as P0. split; [apply Rle_mult_inv_pos; lra|]. apply (Rmult_le_reg_r (sqrt S)); [exact SQ|]. unfold Rdiv. rewrite Rmult_assoc, Rinv_l, Rmult_1_l, Rmult_1_r by lra.
      apply sq_le; [lra|]. rewrite sqrt_sqrt by lra. exact PS. }
    set (n := INR (length row)) in *.
    assert (1 <= n) as n1 by (apply (le_INR 1); lia). pose proof (maxn_u (length row) N) as M. fold n in M.
    assert (P2 (-23) <= / 1024) as P23 by (replace (/ 1024) with (P2 (-10)) by (cbn; lra); apply bpow_le; lia).
    assert (u64 * A <= / 1024) as UA by (eapply Rle_trans; [|exact P23]; replace (P2 (-23)) with (u64 * P2 30) by (unfold u64; rewrite <- bpow_plus; reflexivity); apply Rmult_le_compat_l; unfold MAXN in A1; lra).
    assert (v64 (fdiv (f_of_Z 1) (f_of_Z 2)) = Fin (/ 2)) as Eh.
    { destruct (f_of_Z_correct 1) as [V1 F1]; [lia|]. destruct (f_of_Z_correct 2) as [V2 F2]; [lia|]. rewrite v64_div_fin; [|exact F1|lra]. rewrite V1, V2.
      replace (1 / 2) with (P2 (-1)) by (cbn; lra). rewrite xround_ok, rnd64_id; [f_equal; cbn; lra|apply format_P2; lia|]. rewrite Rabs_pos_eq by apply bpow_ge_0. apply bpow_le. lia. }
    assert (3 * n + 2 * (2 * A) <= P2 33) as B33.
    { unfold MAXN in *. replace (P2 33) with (8 * P2 30) by (replace 33%Z with (3 + 30)%Z by lia; rewrite bpow_plus; reflexivity). lra. }
    fold dbl in Ee |- *. set (z := any_logsumexp sum dbl) in *.
    assert (v64 (fmul (fdiv (f_of_Z 1) (f_of_Z 2)) z) = Fin (rnd64 (/ 2 * e))) as Ez.
    { rewrite v64_mul, Eh, Ee. cbn [xr2]. apply xround_ok. rewrite Rabs_mult, (Rabs_pos_eq (/ 2)) by lra. apply Rle_trans with (P2 33); [|apply bpow_le; lia]. pose proof (Rabs_pos e). lra. }
    assert (fleb a (fmul (fdiv (f_of_Z 1) (f_of_Z 2)) z) = true) as LE.
    { assert (Forall (lprob 30) dbl) as LP.
      { eapply Forall_impl; [|exact FD]. intros x [H|(r & H & R)]; [now left|right]. exists r. split; [exact H|]. unfold MAXN in A1. lra. }
      assert (Exists (bdd 30) dbl) as EB.
      { apply Exists_exists in ED as (x & Ix & Fx). apply Exists_exists. exists x. split; [exact Ix|]. rewrite Forall_forall in LP. destruct (LP x Ix) as [H|H]; [|exact H]. rewrite (v64_fin x Fx) in H. discriminate. }
      destruct (logsumexp_ok fexp flog sf ppf eig EL sum SUM 30 dbl) as (m & e' & Em & Ee' & Le & _ & AM); [lia|rewrite LD; exact N|exact LP|exact EB|]. fold z in Ee'. rewrite Ee in Ee'. injection Ee' as <-.
      rewrite v64_leb, Ez. rewrite Forall_forall in AM, F. specialize (AM (fmul (f_of_Z 2) a)). rewrite v64_leb, Em in AM.
      destruct (F a Ia) as [H|(r & H & R)]; [rewrite H; reflexivity|]. rewrite H. apply Rleb_spec. rewrite (TF a r H R) in AM.
      assert (2 * r <= m) by (apply Rleb_spec; apply AM; unfold dbl; now apply in_map). apply rnd64_ge; [eapply v64_Fin_format, H|lra]. }
    pose proof (sub_neg _ _ _ LE Ez) as NG. destruct (el_exp _ _ EL _ NG) as [X1 X2]. destruct (unit_nng _ X1 X2) as (r & Er & R). change (P2 0) with 1 in R.
    exists r. split; [exact Er|]. split; [exact R|]. split; [exact RS|]. destruct (ae_exp _ _ AE _ NG) as [_ Ae]. apply v64_Fin in Er as [_ Vr]. rewrite Vr, E50 in Ae.
    assert (0 <= u64 * n) as un by nra. assert (0 <= u64 * A) as uA by nra. assert (u64 <= u64 * n) as u_n by (rewrite <- (Rmult_1_r u64) at 1; apply Rmult_le_compat_l; lra).
    rewrite Forall_forall in F. destruct (F a Ia) as [H|(ra & H & Ra)].
    - rewrite v64_sub, H, Ez in Ae. cbn [xr2 pr] in Ae. unfold sphere_R. rewrite Pa, H. cbn [pr]. unfold Rdiv. rewrite Rmult_0_l. eapply Rle_trans; [exact Ae|]. lra.
    - set (h := rnd64 (/ 2 * e)) in *. pose proof (rnd_err (/ 2 * e)) as Rh. fold h in Rh. rewrite Rabs_mult, (Rabs_pos_eq (/ 2)) in Rh by lra.
      assert (Rabs (h - / 2 * e) <= u64 * (2 * n + 2 * A)) as Rh2.
      { eapply Rle_trans; [exact Rh|]. assert (u64 * (/ 2 * Rabs e) <= u64 * (3 / 2 * n + 2 * A)) by (apply Rmult_le_compat_l; lra). lra. }
      assert (Rabs (ra - h) <= 2 * n + 4 * A) as Bh.
      { apply Rabs_le_inv in Rh2, Ra, Be. apply Rabs_le. split; nra. }
      assert (v64 (fsub a (fmul (fdiv (f_of_Z 1) (f_of_Z 2)) z)) = Fin (rnd64 (ra - h))) as Ed.
      { rewrite v64_sub, H, Ez. cbn [xr2]. apply xround_ok. apply Rle_trans with (P2 33); [unfold MAXN in *; lra|apply bpow_le; lia]. }
      rewrite Ed in Ae. cbn [pr] in Ae.
      pose proof (rnd_add_err ra (- h) (v64_Fin_format _ _ H) (generic_format_opp _ _ _ (v64_Fin_format _ _ Ez))) as Rd. change (ra + - h) with (ra - h) in Rd.
      assert (u64 * Rabs (ra - h) <= u64 * (2 * n + 4 * A)) as Rd2 by (apply Rmult_le_compat_l; lra).
      set (d := rnd64 (ra - h)) in *. set (D := ra - / 2 * ln S).
      assert (sphere_R (prob (map v64 row)) v (length row) = exp D) as ED2.
      { unfold sphere_R. fold S. rewrite Pa, H. cbn [pr]. unfold D, Rminus, Rdiv. rewrite exp_plus, half_log by exact SP. reflexivity. }
      rewrite ED2 in *.
      assert (Rabs (d - D) <= u64 * (32 * n + 8 * A)) as Rt.
      { assert (Rabs (/ 2 * e - / 2 * ln S) <= u64 * (25 * n + A)) as Q by (rewrite <- Rmult_minus_distr_l, Rabs_mult, (Rabs_pos_eq (/ 2)) by lra; lra).
        apply Rabs_le_inv in Rd, Rh2, Q. unfold D. apply Rabs_le. split; lra. }
      assert (d <= 0) as d0 by (unfold d; rewrite v64_leb, Ed in NG; now apply Rleb_spec in NG).
      assert (D <= 0) as D0.
      { apply Rnot_lt_le. intros G. apply exp_increasing in G. rewrite exp_0 in G. lra. }
      pose proof (exp_lip d D) as Q. assert (exp (Rmax d D) <= 1) as Q1.
      { rewrite <- exp_0. assert (Rmax d D <= 0) as [G|G] by (apply Rmax_lub; lra); [apply Rlt_le, exp_increasing, G|rewrite G; lra]. }
      pose proof (Rabs_pos (d - D)) as Q2. assert (Rabs (d - D) * exp (Rmax d D) <= Rabs (d - D) * 1) as Q3 by (apply Rmult_le_compat_l; lra).
      replace (r - exp D) with ((r - exp d) + (exp d - exp D)) by ring. eapply Rle_trans; [apply Rabs_triang|]. lra.
  Qed.
End Sphere.

Definition sphere_scale (L : nat) : R := if (1 <? L)%nat then 1 - 1 / sqrt (INR L) else 1.
Lemma sphere_scale_range L : / 4 <= sphere_scale L <= 1.
Proof.
  unfold sphere_scale. destruct (Nat.ltb_spec 1 L) as [G|_]; [|lra]. assert (2 <= INR L) as L2 by (apply (le_INR 2); lia).
  assert (11 / 8 <= sqrt (INR L)) as S by (apply sq_le; [apply sqrt_pos|rewrite sqrt_sqrt by lra; lra]).
  assert (0 <= 1 / sqrt (INR L) <= 8 / 11); [|lra]. split; [apply Rle_mult_inv_pos; lra|]. apply (Rmult_le_reg_r (sqrt (INR L))); [lra|]. unfold Rdiv at 1. rewrite Rmult_assoc, Rinv_l by lra. lra.
Qed.
Lemma sphere_scale_err (L : nat) : INR L <= MAXN ->
  exists c, v64 (if (1 <? L)%nat then fsub (f_of_Z 1) (fdiv (f_of_Z 1) (fsqrt (f_of_Z (Z.of_nat L)))) else f_of_Z 1) = Fin c /\ / 5 <= c /\ Rabs (c - sphere_scale L) <= 5 * u64.
Proof.
  intros N. destruct u_facts as (U & U1 & T1 & T2 & _). pose proof (sphere_scale_range L) as R. unfold sphere_scale in *. destruct (Nat.ltb_spec 1 L) as [G|G].
  2:{ exists 1. split; [now apply v64_ofZ|]. split; [lra|]. rewrite Rminus_eq_0, Rabs_R0. lra. }
  pose proof (maxn_Z _ N) as LZ. destruct (f_of_Z_correct 1) as [V1 F1]; [lia|]. destruct (f_of_Z_correct (Z.of_nat L)) as [V2 F2]; [lia|]. rewrite <- INR_IZR_INZ in V2.
  assert (2 <= INR L) as L2 by (apply (le_INR 2); lia).
  pose proof (v64_sqrt (f_of_Z (Z.of_nat L)) _ (v64_fin _ F2)) as ES. rewrite V2 in ES. specialize (ES ltac:(lra)).
  destruct (sqrt_near (INR L) ltac:(lra)) as (q & Q & Eq). rewrite Eq in ES. apply v64_Fin in ES as [Fs Vs].
  set (s := sqrt (INR L)) in *. assert (11 / 8 <= s) as S by (apply sq_le; [apply sqrt_pos|unfold s; rewrite sqrt_sqrt by lra; lra]).
  destruct (near_inv 2 q ltac:(lra) Q) as [Qi Qp]. unfold near in Qi.
  assert (0 < / s <= 8 / 11) as Is. { split; [apply Rinv_0_lt_compat; lra|]. apply (Rmult_le_reg_r s); [lra|]. rewrite Rinv_l by lra. lra. }
  assert (1 / (s * q) = / s * / q) as Ei by (field; split; lra).
  assert (Rabs (/ s * / q - / s) <= 3 * u64) as R1.
  { replace (/ s * / q - / s) with (/ s * (/ q - 1)) by ring. rewrite Rabs_mult, (Rabs_pos_eq (/ s)) by lra. pose proof (Rabs_pos (/ q - 1)). nra. }
  assert (0 <= / s * / q <= 1) as R2 by (apply Rabs_le_inv in R1; split; [apply Rmult_le_pos; [lra|apply Rlt_le, Rinv_0_lt_compat, Qp]|lra]).
  destruct (rng_Z 0 1 (/ s * / q) ltac:(lia) ltac:(lia) R2) as [W1 W2].
  pose proof (rnd_err (/ s * / q)) as R3. rewrite (Rabs_pos_eq (/ s * / q)) in R3 by lra. assert (u64 * (/ s * / q) <= u64 * (3 / 4)) as R3' by (apply Rmult_le_compat_l; [lra|apply Rabs_le_inv in R1; lra]).
  assert (v64 (fdiv (f_of_Z 1) (fsqrt (f_of_Z (Z.of_nat L)))) = Fin (rnd64 (/ s * / q))) as Ed.
  { rewrite v64_div_fin; [|exact F1|rewrite Vs; apply Rmult_integral_contrapositive_currified; lra]. rewrite V1, Vs, Ei. exact W1. }
  set (i := rnd64 (/ s * / q)) in *. assert (0 <= 1 - i <= 1) as R4 by lra. destruct (rng_Z 0 1 (1 - i) ltac:(lia) ltac:(lia) R4) as [W3 W4].
  pose proof (rnd_err (1 - i)) as R5. rewrite (Rabs_pos_eq (1 - i)) in R5 by lra. assert (u64 * (1 - i) <= u64 * 1) as R5' by (apply Rmult_le_compat_l; lra).
  exists (rnd64 (1 - i)). split; [rewrite v64_sub, Ed, (v64_ofZ 1) by lia; exact W3|].
  assert (Rabs (rnd64 (1 - i) - (1 - 1 / s)) <= 5 * u64) as R6 by (unfold Rdiv; rewrite Rmult_1_l; apply Rabs_le_inv in R1, R3, R5; apply Rabs_le; lra).
  split; [|exact R6]. apply Rabs_le_inv in R6. lra.
Qed.
Lemma sphere_rescaled_err (L : nat) (c s : f64) ct t X d : v64 c = Fin ct -> / 5 <= ct -> Rabs (ct - sphere_scale L) <= 5 * u64 ->
  v64 s = Fin t -> -1 <= t <= 0 -> 0 <= X <= 1 -> Rabs (t + X) <= d ->
  exists r, v64 (fdiv (fadd (f_of_Z 1) s) c) = Fin r /\ Rabs (r - (1 - X) / sphere_scale L) <= 5 * d + 120 * u64.
Proof.
  intros Ec C5 Rc Es Rt RX H. destruct u_facts as (U & U1 & T1 & T2 & _). pose proof (sphere_scale_range L) as RC. set (C := sphere_scale L) in *.
  assert (0 <= 1 + t <= 1) as R1 by lra. destruct (rng_Z 0 1 (1 + t) ltac:(lia) ltac:(lia) R1) as [W1 W2].
  assert (v64 (fadd (f_of_Z 1) s) = Fin (rnd64 (1 + t))) as Ea by (rewrite v64_add, Es, (v64_ofZ 1) by lia; exact W1).
  pose proof (rnd_err (1 + t)) as R2. rewrite (Rabs_pos_eq (1 + t)) in R2 by lra. assert (u64 * (1 + t) <= u64 * 1) as R2' by (apply Rmult_le_compat_l; lra).
  set (m := rnd64 (1 + t)) in *. apply v64_Fin in Ea as [Fa Va]. apply v64_Fin in Ec as [Fc Vc].
  assert (0 < / ct <= 5) as Ic. { split; [apply Rinv_0_lt_compat; lra|]. apply (Rmult_le_reg_r ct); [lra|]. rewrite Rinv_l by lra. lra. }
  assert (0 < / C <= 4) as IC. { split; [apply Rinv_0_lt_compat; lra|]. apply (Rmult_le_reg_r C); [lra|]. rewrite Rinv_l by lra. lra. }
  assert (0 <= m * / ct <= 5) as R3 by (split; [apply Rmult_le_pos; lra|nra]).
  exists (rnd64 (m * / ct)). split.
  - rewrite v64_div_fin; [|exact Fa|rewrite Vc; lra]. rewrite Va, Vc. apply xround_ok. unfold Rdiv. rewrite Rabs_pos_eq by lra. apply Rle_trans with (P2 3); [cbn; lra|apply bpow_le; lia].
  - pose proof (rnd_err (m * / ct)) as R4. rewrite (Rabs_pos_eq (m * / ct)) in R4 by lra. assert (u64 * (m * / ct) <= u64 * 5) as R4' by (apply Rmult_le_compat_l; lra).
    assert (m * / ct - (1 - X) / C = (m - (1 - X)) * / ct + (1 - X) * ((C - ct) * (/ ct * / C))) as E by (field; split; lra).
    assert (Rabs (m - (1 - X)) <= d + 2 * u64) as R5 by (apply Rabs_le_inv in H, R2; apply Rabs_le; lra).
    assert (Rabs ((m - (1 - X)) * / ct) <= (d + 2 * u64) * 5) as R6 by (rewrite Rabs_mult, (Rabs_pos_eq (/ ct)) by lra; pose proof (Rabs_pos (m - (1 - X))); apply Rmult_le_compat; lra).
    assert (Rabs ((1 - X) * ((C - ct) * (/ ct * / C))) <= 1 * (5 * u64 * 20)) as R7.
    { rewrite !Rabs_mult, (Rabs_pos_eq (1 - X)), (Rabs_pos_eq (/ ct)), (Rabs_pos_eq (/ C)) by lra. rewrite (Rabs_minus_sym C).
      assert (0 <= / ct * / C <= 20) as Q by nra. pose proof (Rabs_pos (ct - C)).
      apply Rmult_le_compat; [lra| |lra|apply Rmult_le_compat; lra]. apply Rmult_le_pos; lra. }
    apply Rabs_le_inv in R4, R6, R7. apply Rabs_le. split; lra.
Qed.

(** ** The losses of normalised scores *)
Lemma seq_prob {A} (g : R -> A) (l : list f64) : map (fun k => g (prob (map v64 l) k)) (seq 0 (length l)) = map (fun x => g (pr (v64 x))) l.
Proof. induction l as [|a l IH]; [reflexivity|]. cbn [length seq map]. f_equal. rewrite <- IH, <- seq_shift, map_map. reflexivity. Qed.
Lemma prob_nth (l : list f64) k : (k < length l)%nat -> prob (map v64 l) k = pr (v64 (nth k l f0)).
Proof. intros H. rewrite prob_pr. rewrite (nth_indep _ NaN (v64 f0)) by (rewrite map_length; exact H). now rewrite map_nth. Qed.

Section Soft.
  Context (fexp flog : f64 -> f64) (sf ppf : Z -> f64 -> f64) (eig : f64 -> f64 -> option (f64 * f64)) (EL : exp_log fexp flog) (AE : accurate_exp_log fexp flog).
  Notation lib := (fn_f64 fexp flog sf ppf eig).
  Context (sum : list f64 -> f64) (SUM : forall l, sums_to l (sum l)).
  Variables (row : list f64) (A : R).
  Hypothesis (AB : 0 <= A <= MAXN) (N : INR (length row) <= MAXN) (F : Forall (entry A) row) (E : Exists (fun x => fisfin x = true) row).
  Notation n := (INR (length row)).
  Notation q := (@any_normalize_row _ _ lib sum row).
  Definition soft (row : list f64) (k : nat) : R := prob (map v64 row) k / Rsum (map (prob (map v64 row)) (seq 0 (length row))).
  Let D := P2 (-47) * (n + A).

  Lemma soft_D : 0 <= D <= / 1000 /\ D = 64 * u64 * (n + A).
  Proof.
    pose proof u64_pos as U. assert (P2 (-47) = 64 * u64) as E47 by (unfold u64; replace (-47)%Z with (6 + -53)%Z by lia; rewrite bpow_plus; change (P2 6) with 64; lra).
    unfold D. rewrite E47. destruct (nU row A AB N) as [H1 H2].
    assert (P2 (-23) <= / 4194304) as P23 by (replace (/ 4194304) with (P2 (-22)) by (cbn; lra); apply bpow_le; lia). pose proof (pos_INR (length row)). repeat split; nra.
  Qed.
  Lemma soft_total : 0 < Rsum (map (prob (map v64 row)) (seq 0 (length row))) /\ Rsum (map (prob (map v64 row)) (seq 0 (length row))) = exp (lse row).
  Proof.
    rewrite (seq_prob (fun r => r)). destruct (normaliser_accurate fexp flog sf ppf eig EL AE sum SUM row A AB N F E) as (_ & _ & _ & _ & SP).
    split; [exact SP|]. unfold lse. now rewrite exp_ln.
  Qed.
  Lemma soft_sum : Rsum (map (soft row) (seq 0 (length row))) = 1 /\ forall k, 0 <= soft row k <= 1.
  Proof.
    destruct soft_total as [P _]. unfold soft. set (T := Rsum _) in *. assert (0 < / T) as I by (now apply Rinv_0_lt_compat). split.
    - rewrite (map_ext _ (fun k => / T * prob (map v64 row) k)) by (intros; unfold Rdiv; ring). rewrite <- (map_map (prob (map v64 row)) (Rmult (/ T))), Rsum_scale. fold T. field. lra.
    - intros k. pose proof (prob_nonneg (map v64 row) k) as P0. split; [apply Rle_mult_inv_pos; lra|]. apply (Rmult_le_reg_r T); [exact P|]. unfold Rdiv. rewrite Rmult_assoc, Rinv_l, Rmult_1_l, Rmult_1_r by lra.
      destruct (Nat.lt_ge_cases k (length row)) as [L|L].
      + apply Rsum_ge; [apply Forall_map, Forall_forall; intros; apply prob_nonneg|]. apply in_map. apply in_seq. lia.
      + rewrite prob_pr, nth_overflow by (rewrite map_length; lia). cbn. lra.
  Qed.

  Lemma norm_len : length q = length row.
  Proof. unfold any_normalize_row. now rewrite map_length. Qed.
  Lemma norm_prob k : (k < length row)%nat ->
    fleb (nth k q f0) f0 = true /\ entry (5 * n + 3 * A) (nth k q f0) /\ Rabs (prob (map v64 q) k - soft row k) <= 2 * D * soft row k /\
    (forall r, v64 (nth k row f0) = Fin r -> exists t, v64 (nth k q f0) = Fin t /\ Rabs (t - (r - lse row)) <= D /\ ln (soft row k) = r - lse row).
  Proof.
    intros Hk. destruct soft_D as [D1 D2]. destruct (normaliser_accurate fexp flog sf ppf eig EL AE sum SUM row A AB N F E) as (e & _ & Ce & Be & _).
    pose proof (row_1 row E) as n1. destruct (nU row A AB N) as [NU AU]. pose proof p23 as P8. pose proof u64_pos as U.
    assert (Rabs (lse row) <= 4 * n + 2 * A + n / 2) as BL.
    { assert (u64 * (50 * n + A) <= 50 * P2 (-23) + P2 (-23)) by (replace (u64 * (50 * n + A)) with (50 * (n * u64) + A * u64) by ring; lra).
      assert (P2 (-23) <= / 1024) as P23 by (replace (/ 1024) with (P2 (-10)) by (cbn; lra); apply bpow_le; lia).
      apply Rabs_le_inv in Ce, Be. apply Rabs_le. lra. }
    destruct (normalize_accurate fexp flog sf ppf eig EL AE sum SUM row A AB N F E) as [H _]. fold D in H.
    assert (Forall (lprob 30) row) as LP.
    { eapply Forall_impl; [|exact F]. intros x [G|(r & G & R)]; [now left|right]. exists r. split; [exact G|]. unfold MAXN in AB. lra. }
    assert (Exists (bdd 30) row) as EB.
    { apply Exists_exists in E as (x & I & Fx). apply Exists_exists. exists x. split; [exact I|]. rewrite Forall_forall in LP. destruct (LP x I) as [G|G]; [|exact G]. rewrite (v64_fin x Fx) in G. discriminate. }
    pose proof (normalize_row_ok fexp flog sf ppf eig EL sum SUM 30 row ltac:(lia) N LP EB) as H2.
    assert (forall (P : f64 -> f64 -> Prop) l m, Forall2 P l m -> (k < length l)%nat -> P (nth k l f0) (nth k m f0)) as NT.
    { clear. intros P l m H. revert k. induction H as [|a b l m Hab H IH]; intros k Hk; [cbn in Hk; lia|]. destruct k; [exact Hab|]. cbn [nth]. apply IH. cbn in Hk. lia. }
    pose proof (NT _ _ _ H Hk) as G. pose proof (NT _ _ _ H2 Hk) as (G1 & G2 & _). cbv beta in G.
    rewrite (prob_nth q k) by (rewrite norm_len; exact Hk). set (a := nth k row f0) in *. set (b := nth k q f0) in *.
    destruct soft_total as [TP TE]. assert (soft row k = pr (v64 a) * exp (- lse row)) as ES by (unfold soft; rewrite (prob_nth row k Hk), TE, exp_Ropp; reflexivity).
    split; [exact G1|]. rewrite Forall_forall in F. destruct (F a) as [Na|(r & Ea & Ra)]; [apply nth_In; exact Hk| |].
    - rewrite (G2 Na), ES, Na. cbn [pr]. split; [left; exact (G2 Na)|]. split; [rewrite !Rmult_0_l, Rmult_0_r, Rminus_0_r, Rabs_R0; lra|]. intros r Q. discriminate.
    - destruct (G r Ea) as (t & Et & T). split; [|split].
      + right. exists t. split; [exact Et|]. apply Rabs_le_inv in T, Ra, BL. apply Rabs_le. lra.
      + rewrite ES, Ea, Et. cbn [pr]. rewrite <- exp_plus. change (r + - lse row) with (r - lse row).
        replace (exp t) with (exp (r - lse row) * exp (t - (r - lse row))) by (rewrite <- exp_plus; f_equal; ring).
        replace (exp (r - lse row) * exp (t - (r - lse row)) - exp (r - lse row)) with ((exp (t - (r - lse row)) - 1) * exp (r - lse row)) by ring.
        rewrite Rabs_mult, (Rabs_pos_eq (exp (r - lse row))) by (apply Rlt_le, exp_pos). apply Rmult_le_compat_r; [apply Rlt_le, exp_pos|]. apply exp_near; [exact T|lra].
      + intros r' Q. rewrite Ea in Q. injection Q as <-. exists t. split; [exact Et|]. split; [exact T|]. rewrite ES, Ea. cbn [pr]. rewrite <- exp_plus. apply ln_exp.
  Qed.

  (** Brier loss of nearly the same probabilities *)
  Lemma brier_lip v : Rabs (brier_R (prob (map v64 q)) v (length row) - brier_R (soft row) v (length row)) <= 4 * D.
  Proof.
    destruct soft_sum as [SS S01]. destruct soft_D as [D1 _]. unfold brier_R. replace (4 * D) with (4 * D * Rsum (map (soft row) (seq 0 (length row)))) by (rewrite SS; ring).
    assert (forall l, Forall (fun k => (k < length row)%nat) l ->
      Rabs (Rsum (map (fun k => (prob (map v64 q) k - (if (k =? v)%nat then 1 else 0)) ^ 2) l) - Rsum (map (fun k => (soft row k - (if (k =? v)%nat then 1 else 0)) ^ 2) l)) <= 4 * D * Rsum (map (soft row) l)) as H.
    { induction 1 as [|k l Hk _ IH]; [cbn; rewrite Rminus_eq_0, Rabs_R0; lra|]. cbn [map]. rewrite !Rsum_cons.
      destruct (norm_prob k Hk) as (G1 & _ & G2 & _). pose proof (pr_unit _ G1) as P1. rewrite (prob_nth q k) in * by (rewrite norm_len; exact Hk). specialize (S01 k).
      set (p := pr (v64 (nth k q f0))) in *. set (s := soft row k) in *. set (c := if (k =? v)%nat then 1 else 0 : R). assert (0 <= c <= 1) as C by (unfold c; destruct (k =? v)%nat; lra).
      assert (Rabs ((p - c) ^ 2 - (s - c) ^ 2) <= 4 * D * s) as Q.
      { replace ((p - c) ^ 2 - (s - c) ^ 2) with ((p - s) * (p + s - 2 * c)) by ring. rewrite Rabs_mult. assert (Rabs (p + s - 2 * c) <= 2) by (apply Rabs_le; lra).
        replace (4 * D * s) with (2 * D * s * 2) by ring. apply Rmult_le_compat; try apply Rabs_pos; assumption. }
      replace (4 * D * (s + Rsum (map (soft row) l))) with (4 * D * s + 4 * D * Rsum (map (soft row) l)) by ring.
      match goal with |- Rabs (?a + ?b - (?c + ?d)) <= _ => replace (a + b - (c + d)) with ((a - c) + (b - d)) by ring end. eapply Rle_trans; [apply Rabs_triang|]. lra. }
    apply H. apply Forall_forall. intros k Hk. apply in_seq in Hk. lia.
  Qed.
  Lemma brier_soft v : (v < length row)%nat -> 0 <= brier_R (soft row) v (length row) <= 2.
  Proof.
    intros Hv. destruct soft_sum as [SS S01]. unfold brier_R.
    assert (forall l, NoDup l -> 0 <= Rsum (map (fun k => (soft row k - (if (k =? v)%nat then 1 else 0)) ^ 2) l) <= Rsum (map (soft row) l) + (if in_dec Nat.eq_dec v l then 1 else 0)) as H.
    { induction 1 as [|k l NI ND IH]; [cbn; lra|]. cbn [map]. rewrite !Rsum_cons. specialize (S01 k). destruct (Nat.eqb_spec k v) as [->|NE].
      - destruct (in_dec Nat.eq_dec v (v :: l)) as [_|Q]; [|destruct Q; now left]. destruct (in_dec Nat.eq_dec v l) as [Q|_]; [contradiction|]. set (s := soft row v) in *. assert (0 <= (s - 1) ^ 2 <= s + 1) by nra. lra.
      - assert (0 <= (soft row k - 0) ^ 2 <= soft row k) by nra. destruct (in_dec Nat.eq_dec v (k :: l)) as [Q|Q], (in_dec Nat.eq_dec v l) as [Q'|Q']; try lra.
        exfalso; apply Q; now right. }
    specialize (H _ (seq_NoDup (length row) 0)). rewrite SS in H. destruct (in_dec Nat.eq_dec v (seq 0 (length row))); lra.
  Qed.

  (** spherical loss of nearly the same probabilities *)
  Lemma sphere_lip v : (v < length row)%nat -> Rabs (sphere_R (prob (map v64 q)) v (length row) - sphere_R (soft row) v (length row)) <= 5 * D /\ 0 <= sphere_R (soft row) v (length row) <= 1.
  Proof.
    intros Hv. destruct soft_sum as [SS S01]. destruct soft_D as [D1 _]. unfold sphere_R.
    set (P := fun k => prob (map v64 q) k). set (l := seq 0 (length row)). assert (Forall (fun k => (k < length row)%nat) l) as Fl by (apply Forall_forall; intros k Hk; apply in_seq in Hk; lia).
    assert (Forall (fun k => soft row k * (1 - 2 * D) <= P k <= soft row k * (1 + 2 * D)) l) as HP.
    { eapply Forall_impl; [|exact Fl]. intros k Hk. destruct (norm_prob k Hk) as (_ & _ & G & _). apply Rabs_le_inv in G. fold (P k) in G. lra. }
    set (SQ := Rsum (map (fun k => soft row k ^ 2) l)). set (SP := Rsum (map (fun k => P k ^ 2) l)).
    assert ((1 - 2 * D) ^ 2 * SQ <= SP <= (1 + 2 * D) ^ 2 * SQ) as B.
    { unfold SQ, SP. clear -HP S01 D1. induction HP as [|k l H _ IH]; [cbn; lra|]. cbn [map]. rewrite !Rsum_cons. specialize (S01 k).
      assert ((1 - 2 * D) ^ 2 * soft row k ^ 2 <= P k ^ 2 <= (1 + 2 * D) ^ 2 * soft row k ^ 2).
      { split; [replace ((1 - 2 * D) ^ 2 * soft row k ^ 2) with ((soft row k * (1 - 2 * D)) ^ 2) by ring|replace ((1 + 2 * D) ^ 2 * soft row k ^ 2) with ((soft row k * (1 + 2 * D)) ^ 2) by ring].
        - apply pow_incr. split; [apply Rmult_le_pos; lra|lra].
        - apply pow_incr. split; [|lra]. assert (0 <= soft row k * (1 - 2 * D)) by (apply Rmult_le_pos; lra). lra. }
      lra. }
    assert (0 < SQ) as SQ0.
    { assert (0 <= SQ) as [Q|Q] by (apply Rsum_nonneg, Forall_map, Forall_forall; intros; apply pow2_ge_0); [exact Q|exfalso].
      assert (forall k, In k l -> soft row k = 0) as Z.
      { intros k Hk. assert (soft row k ^ 2 <= SQ) as W by (apply Rsum_ge; [apply Forall_map, Forall_forall; intros; apply pow2_ge_0|apply (in_map (fun k => soft row k ^ 2)); exact Hk]).
        rewrite <- Q in W. pose proof (pow2_ge_0 (soft row k)). nra. }
      assert (Rsum (map (soft row) l) = 0) as Z2; [|fold l in SS; lra]. clear -Z. induction l as [|k l IH]; [reflexivity|]. cbn [map]. rewrite Rsum_cons, IH, (Z k) by (intros; try apply Z; cbn; auto). lra. }
    assert (0 < SP) as SP0 by (assert (0 < (1 - 2 * D) ^ 2 * SQ) by (apply Rmult_lt_0_compat; [apply pow_lt; lra|exact SQ0]); lra).
    set (a := sqrt SQ). set (b := sqrt SP). assert (0 < a) as a0 by (now apply sqrt_lt_R0). assert (0 < b) as b0 by (now apply sqrt_lt_R0).
    assert (a * a = SQ) as aa by (apply sqrt_sqrt; lra). assert (b * b = SP) as bb by (apply sqrt_sqrt; lra).
    assert ((1 - 2 * D) * a <= b <= (1 + 2 * D) * a) as Bb.
    { split; apply sq_le; try (apply Rmult_le_pos; lra); try lra.
      - rewrite bb. replace ((1 - 2 * D) * a * ((1 - 2 * D) * a)) with ((1 - 2 * D) ^ 2 * (a * a)) by ring. rewrite aa. lra.
      - rewrite bb. replace ((1 + 2 * D) * a * ((1 + 2 * D) * a)) with ((1 + 2 * D) ^ 2 * (a * a)) by ring. rewrite aa. lra. }
    assert (In v l) as Iv by (apply in_seq; lia).
    assert (0 <= soft row v <= a) as Sa.
    { split; [apply S01|]. apply sq_le; [lra|]. rewrite aa. replace (soft row v * soft row v) with (soft row v ^ 2) by ring. apply Rsum_ge; [apply Forall_map, Forall_forall; intros; apply pow2_ge_0|now apply (in_map (fun k => soft row k ^ 2))]. }
    assert (soft row v * (1 - 2 * D) <= P v <= soft row v * (1 + 2 * D)) as Hp by (rewrite Forall_forall in HP; exact (HP v Iv)).
    assert (0 <= soft row v / a <= 1) as R1 by (split; [apply Rle_mult_inv_pos; lra|apply (Rmult_le_reg_r a); [exact a0|]; unfold Rdiv; rewrite Rmult_assoc, Rinv_l by lra; lra]).
    split; [|exact R1]. change (prob (map v64 q) v) with (P v). set (x := soft row v / a) in *. assert (soft row v = x * a) as Ex by (unfold x; field; lra). rewrite Ex in Hp.
    assert (P v / b <= x * (1 + 5 * D)) as U1.
    { apply (Rmult_le_reg_r b); [exact b0|]. unfold Rdiv. rewrite Rmult_assoc, Rinv_l, Rmult_1_r by lra. apply Rle_trans with (x * a * (1 + 2 * D)); [lra|].
      apply Rle_trans with (x * (1 + 5 * D) * ((1 - 2 * D) * a)); [|apply Rmult_le_compat_l; [apply Rmult_le_pos; lra|lra]].
      replace (x * a * (1 + 2 * D)) with (x * a * (1 + 2 * D)) by ring. replace (x * (1 + 5 * D) * ((1 - 2 * D) * a)) with (x * a * ((1 + 5 * D) * (1 - 2 * D))) by ring.
      apply Rmult_le_compat_l; [apply Rmult_le_pos; lra|]. nra. }
    assert (x * (1 - 5 * D) <= P v / b) as U2.
    { apply (Rmult_le_reg_r b); [exact b0|]. unfold Rdiv. rewrite (Rmult_assoc (P v)), Rinv_l, Rmult_1_r by lra. apply Rle_trans with (x * a * (1 - 2 * D)); [|lra].
      apply Rle_trans with (x * (1 - 5 * D) * ((1 + 2 * D) * a)); [apply Rmult_le_compat_l; [apply Rmult_le_pos; lra|lra]|].
      replace (x * (1 - 5 * D) * ((1 + 2 * D) * a)) with (x * a * ((1 - 5 * D) * (1 + 2 * D))) by ring. apply Rmult_le_compat_l; [apply Rmult_le_pos; lra|]. nra. }
    assert (x * D <= D) by nra. change (Rabs (P v / b - x) <= 5 * D). apply Rabs_le. split; lra.
  Qed.
End Soft.

Lemma nth_map2_some {A B C} (f : A -> B -> C) l m i a b : nth_error l i = Some a -> nth_error m i = Some b -> nth_error (map2 f l m) i = Some (f a b).
Proof.
  revert l m. induction i as [|i IH]; intros [|x l] [|z m]; cbn; try discriminate; [intros H J; injection H as <-; injection J as <-; reflexivity|apply IH].
Qed.
Section Cells.
  Context (fexp flog : f64 -> f64) (sf ppf : Z -> f64 -> f64) (eig : f64 -> f64 -> option (f64 * f64)).
  Notation lib := (fn_f64 fexp flog sf ppf eig).
  Variable sum : list f64 -> f64.

  Lemma normalize_cell L rows P i row : @any_normalize _ _ lib sum L rows = Ok P -> nth_error rows i = Some row ->
    nth_error P i = Some (@any_normalize_row _ _ lib sum row) /\ length P = length rows.
  Proof.
    unfold any_normalize. destruct (1 <=? Z.of_nat L)%Z; cbn [py_assert bind]; [|discriminate]. intros H I. apply Ok_inj in H. subst P.
    split; [now apply map_nth_error|apply map_length].
  Qed.
  Lemma log_cell kd y (P : list (list f64)) L l i v q : log_loss kd y P L = Ok l -> nth_error y i = Some v -> nth_error P i = Some q ->
    valid_y kd y (length P) L /\ nth_error l i = Some (nopp (nth (Z.to_nat v) q f0)).
  Proof.
    unfold log_loss. destruct (shape_and_validate kd y P L) eqn:V; cbn [bind]; [|discriminate]. intros H Iv Iq. apply Ok_inj in H. subst l.
    split; [now apply validate_ok in V|]. exact (nth_map2_some _ _ _ _ _ _ Iv Iq).
  Qed.
  Definition brier_raw (q : list f64) (v : nat) : f64 := nsum (map (fun k => brier_term fexp (nth k q f0) (k =? v)%nat) (seq 0 (length q))).
  Lemma brier_cell rescale kd y (P : list (list f64)) L l i v q : @brier_loss _ _ lib rescale kd y P L = Ok l -> nth_error y i = Some v -> nth_error P i = Some q -> length q = L ->
    valid_y kd y (length P) L /\
    nth_error l i = Some (if rescale && (1 <? Z.of_nat L)%Z then fmul (fdiv (f_of_Z (Z.of_nat L)) (f_of_Z (Z.of_nat L - 1))) (brier_raw q (Z.to_nat v)) else brier_raw q (Z.to_nat v)).
  Proof.
    unfold brier_loss. destruct (shape_and_validate kd y P L) eqn:V; cbn [bind]; [|discriminate]. apply validate_ok in V. pose proof V as (_ & L1 & _ & _ & Fy).
    assert (one_hot Ki y (Z.of_nat L) = Ok (map (fun v => set_true (repeat false L) (Z.to_nat v)) y)) as ->.
    { rewrite one_hot_ok, Nat2Z.id. replace (1 <=? Z.of_nat L)%Z with true by (symmetry; apply Z.leb_le; lia). cbn [andb dkind_eqb].
      replace (forallb _ y) with true; [reflexivity|]. symmetry. apply forallb_forall. intros w Hw.
      rewrite Forall_forall in Fy. specialize (Fy w Hw). apply Bool.andb_true_iff. rewrite Z.leb_le, Z.ltb_lt. lia. }
    cbn [bind]. intros H Iv Iq Lq. apply Ok_inj in H. split; [exact V|].
    match type of H with context [map2 ?f P ?z] => pose proof (nth_map2_some f P z i q (set_true (repeat false L) (Z.to_nat v)) Iq (map_nth_error (fun v => set_true (repeat false L) (Z.to_nat v)) i y Iv)) as R; set (raw := map2 f P z) in * end.
    cbv beta zeta in R. rewrite <- Lq in R at 1.
    match type of R with _ = Some ?t => assert (t = brier_raw q (Z.to_nat v)) as Et end.
    { unfold brier_raw. f_equal. exact (hot_terms (fun lp b => brier_term fexp lp b) f0 q (Z.to_nat v)). }
    rewrite Et in R. subst l. destruct (rescale && (1 <? Z.of_nat L)%Z); [|exact R]. exact (map_nth_error _ _ _ R).
  Qed.
  Definition sphere_raw (q : list f64) (v : nat) : f64 :=
    nopp (fexp (fsub (nth v q f0) (fmul (fdiv (f_of_Z 1) (f_of_Z 2)) (@any_logsumexp _ _ lib sum (map (fmul (f_of_Z 2)) q))))).
  Lemma sphere_cell rescale kd y (P : list (list f64)) L l i v q : @any_spherical_loss _ _ lib sum rescale kd y P L = Ok l -> nth_error y i = Some v -> nth_error P i = Some q ->
    valid_y kd y (length P) L /\
    nth_error l i = Some (if rescale then fdiv (fadd (f_of_Z 1) (sphere_raw q (Z.to_nat v)))
                                       (if (1 <? L)%nat then fsub (f_of_Z 1) (fdiv (f_of_Z 1) (fsqrt (f_of_Z (Z.of_nat L)))) else f_of_Z 1) else sphere_raw q (Z.to_nat v)).
  Proof.
    unfold any_spherical_loss. destruct (shape_and_validate kd y P L) eqn:V; cbn [bind]; [|discriminate]. intros H Iv Iq. apply Ok_inj in H. split; [now apply validate_ok in V|].
    match type of H with context [map2 ?f y P] => pose proof (nth_map2_some f y P i v q Iv Iq) as R; set (raw := map2 f y P) in * end.
    cbv beta zeta in R. match type of R with _ = Some ?t => change t with (sphere_raw q (Z.to_nat v)) in R end.
    subst l. destruct rescale; [|exact R]. exact (map_nth_error _ _ _ R).
  Qed.
End Cells.

Section Rows.
  Context (fexp flog : f64 -> f64) (sf ppf : Z -> f64 -> f64) (eig : f64 -> f64 -> option (f64 * f64)) (EL : exp_log fexp flog) (AE : accurate_exp_log fexp flog).
  Notation lib := (fn_f64 fexp flog sf ppf eig).
  Context (sum : list f64 -> f64) (SUM : forall l, sums_to l (sum l)).
  Variables (row : list f64) (A : R).
  Hypothesis (AB : 0 <= A <= MAXN) (N : INR (length row) <= MAXN) (F : Forall (entry A) row) (E : Exists (fun x => fisfin x = true) row).
  Notation n := (INR (length row)).
  Notation q := (@any_normalize_row _ _ lib sum row).

  Lemma row_len1 : (1 <= length row)%nat.
  Proof. destruct row; [inversion E|cbn; lia]. Qed.
  Lemma norm_nonpos : Forall (fun x => fleb x f0 = true) q.
  Proof.
    apply Forall_nth. intros k d Hk. rewrite norm_len in Hk. rewrite (nth_indep _ d f0) by (rewrite norm_len; exact Hk).
    exact (proj1 (norm_prob fexp flog sf ppf eig EL AE sum SUM row A AB N F E k Hk)).
  Qed.
  Lemma brier_soft_err v : (v < length row)%nat ->
    (exists t, v64 (brier_raw fexp q v) = Fin t /\ Rabs (t - brier_R (soft row) v (length row)) <= P2 (-43) * (n + A)) /\
    ((2 <= length row)%nat -> exists t, v64 (fmul (fdiv (f_of_Z (Z.of_nat (length row))) (f_of_Z (Z.of_nat (length row) - 1))) (brier_raw fexp q v)) = Fin t /\
       Rabs (t - n / (n - 1) * brier_R (soft row) v (length row)) <= P2 (-43) * (n + A)).
  Proof.
    intros Hv. pose proof row_len1 as L1. destruct (soft_D sum SUM row A AB N) as [D1 D2]. destruct u_facts as (U & _).
    pose proof (brier_lip fexp flog sf ppf eig EL AE sum SUM row A AB N F E v) as LIP. pose proof (brier_soft fexp flog sf ppf eig EL AE sum SUM row A AB N F E v Hv) as SB.
    assert (length q = length row) as Lq by apply norm_len.
    assert (sums_to (map (fun k => brier_term fexp (nth k q f0) (k =? v)%nat) (seq 0 (length q))) (brier_raw fexp q v)) as SM by apply nsum_sums.
    destruct (brier_sum_err fexp flog sf ppf eig EL AE q v (brier_raw fexp q v) norm_nonpos ltac:(rewrite Lq; exact N) ltac:(rewrite Lq; exact L1) SM) as (t & Et & T0 & RB & H).
    rewrite Lq in *. set (B := brier_R (prob (map v64 q)) v (length row)) in *. set (S := brier_R (soft row) v (length row)) in *. set (D := P2 (-47) * (n + A)) in *.
    assert (P2 (-43) * (n + A) = 1024 * (u64 * (n + A))) as E43.
    { replace (P2 (-43)) with (1024 * u64); [ring|]. unfold u64. replace (-43)%Z with (10 + -53)%Z by lia. rewrite bpow_plus. change (P2 10) with 1024. reflexivity. }
    rewrite E43. rewrite D2 in *. set (x := u64 * (n + A)) in *. replace (64 * u64 * (n + A)) with (64 * x) in * by (unfold x; ring).
    assert (0 <= n * u64 <= x) as NX by (pose proof (pos_INR (length row)); unfold x; split; nra). apply Rabs_le_inv in LIP.
    set (w := n * u64) in *. assert (B <= 3) as B3 by lra.
    assert (w * (1 + B) <= w * 4) as W by (apply Rmult_le_compat_l; lra).
    split.
    - exists t. split; [exact Et|]. apply Rabs_le_inv in H. apply Rabs_le. lra.
    - intros L2. destruct (brier_scale_err (length row) (brier_raw fexp q v) t B L2 N Et T0 RB H) as (CR & r & Er & _ & R). exists r. split; [exact Er|].
      set (C := n / (n - 1)) in *. fold w in R. assert (26 * w * C * (1 + B) <= 208 * x) as Q.
      { replace (26 * w * C * (1 + B)) with (26 * (w * (1 + B)) * C) by ring. apply Rle_trans with (26 * (w * 4) * 2); [|lra]. apply Rmult_le_compat; try lra. assert (0 <= w * (1 + B)) by (apply Rmult_le_pos; lra). lra. }
      assert (Rabs (C * B - C * S) <= 512 * x) as Q2.
      { rewrite <- Rmult_minus_distr_l, Rabs_mult, (Rabs_pos_eq C) by lra. assert (Rabs (B - S) <= 256 * x) as G by (apply Rabs_le; lra).
        replace (512 * x) with (2 * (256 * x)) by ring. apply Rmult_le_compat; try apply Rabs_pos; lra. }
      apply Rabs_le_inv in R, Q2. apply Rabs_le. lra.
  Qed.

  Lemma norm_fin : Exists (fun x => fisfin x = true) q.
  Proof.
    pose proof E as E'. apply Exists_exists in E' as (x & I & Fx). apply (In_nth _ _ f0) in I as (k & Hk & Ek). apply Exists_exists. exists (nth k q f0). split; [apply nth_In; rewrite norm_len; exact Hk|].
    destruct (norm_prob fexp flog sf ppf eig EL AE sum SUM row A AB N F E k Hk) as (_ & _ & _ & G). rewrite Ek in G. destruct (G _ (v64_fin x Fx)) as (t & Et & _). now apply v64_Fin in Et.
  Qed.
  Lemma sphere_soft_err v : (v < length row)%nat -> n <= P2 26 -> A <= P2 26 ->
    (exists t, v64 (sphere_raw fexp flog sf ppf eig sum q v) = Fin t /\ Rabs (t - - sphere_R (soft row) v (length row)) <= P2 (-44) * (n + A)) /\
    (exists t, v64 (fdiv (fadd (f_of_Z 1) (sphere_raw fexp flog sf ppf eig sum q v))
                   (if (1 <? length row)%nat then fsub (f_of_Z 1) (fdiv (f_of_Z 1) (fsqrt (f_of_Z (Z.of_nat (length row))))) else f_of_Z 1)) = Fin t /\
       Rabs (t - (1 - sphere_R (soft row) v (length row)) / sphere_scale (length row)) <= P2 (-41) * (n + A)).
  Proof.
    intros Hv N26 A26. pose proof row_len1 as L1. destruct (soft_D sum SUM row A AB N) as [D1 D2]. destruct u_facts as (U & _).
    destruct (sphere_lip fexp flog sf ppf eig EL AE sum SUM row A AB N F E v Hv) as [LIP SB].
    assert (1 <= n) as n1 by (apply (le_INR 1); exact L1).
    assert (length q = length row) as Lq by apply norm_len. set (A' := 5 * n + 3 * A).
    assert (2 * A' <= MAXN) as A2 by (unfold A', MAXN; replace (P2 30) with (16 * P2 26) by (replace 30%Z with (4 + 26)%Z by lia; rewrite bpow_plus; reflexivity); lra).
    assert (Forall (entry A') q) as Fq.
    { apply Forall_nth. intros k d Hk. rewrite norm_len in Hk. rewrite (nth_indep _ d f0) by (rewrite norm_len; exact Hk).
      exact (proj1 (proj2 (norm_prob fexp flog sf ppf eig EL AE sum SUM row A AB N F E k Hk))). }
    destruct (sphere_err fexp flog sf ppf eig EL AE sum SUM q v A' ltac:(unfold A'; lra) A2 ltac:(rewrite Lq; exact N) Fq norm_fin ltac:(rewrite Lq; exact Hv)) as (r & Er & R01 & X01 & H).
    rewrite Lq in *. set (X := sphere_R (prob (map v64 q)) v (length row)) in *. set (S := sphere_R (soft row) v (length row)) in *. set (D := P2 (-47) * (n + A)) in *.
    assert (forall k, (0 <= k)%Z -> P2 (k - 53) * (n + A) = IZR (2 ^ k) * (u64 * (n + A))) as EK.
    { intros k Hk. replace (k - 53)%Z with (k + -53)%Z by lia. rewrite bpow_plus, (IZR_Zpower radix2) by lia || rewrite bpow_plus. unfold u64. ring. }
    pose proof (EK 9%Z ltac:(lia)) as E44. pose proof (EK 12%Z ltac:(lia)) as E41. change (9 - 53)%Z with (-44)%Z in E44. change (12 - 53)%Z with (-41)%Z in E41. change (2 ^ 9)%Z with 512%Z in E44. change (2 ^ 12)%Z with 4096%Z in E41. rewrite E44, E41.
    rewrite D2 in *. set (x := u64 * (n + A)) in *. replace (64 * u64 * (n + A)) with (64 * x) in * by (unfold x; ring).
    assert (u64 * (40 * n + 8 * A') <= 80 * x) as H1 by (unfold A', x; nra). assert (u64 <= x) as UX by (unfold x; nra).
    assert (v64 (sphere_raw fexp flog sf ppf eig sum q v) = Fin (- r)) as Es by (unfold sphere_raw; now apply opp_val).
    assert (Rabs (- r + S) <= 400 * x) as HS by (apply Rabs_le_inv in H, LIP; apply Rabs_le; lra).
    split.
    - exists (- r). split; [exact Es|]. replace (- r - - S) with (- r + S) by ring. lra.
    - destruct (sphere_scale_err (length row) N) as (c & Ec & C5 & Cc).
      destruct (sphere_rescaled_err (length row) _ _ c (- r) S (400 * x) Ec C5 Cc Es ltac:(lra) SB HS) as (t & Et & T). exists t. split; [exact Et|]. lra.
  Qed.
  Lemma log_soft_err v : (v < length row)%nat ->
    (v64 (nth v row f0) = NInf -> v64 (nopp (nth v q f0)) = PInf) /\
    (forall r, v64 (nth v row f0) = Fin r -> exists t, v64 (nopp (nth v q f0)) = Fin t /\ Rabs (t - - ln (soft row v)) <= P2 (-47) * (n + A) /\ 0 < soft row v).
  Proof.
    intros Hv. destruct (norm_prob fexp flog sf ppf eig EL AE sum SUM row A AB N F E v Hv) as (H1 & H2 & H3 & H4). split.
    - intros Q. destruct H2 as [H2|(t & Et & _)]; [unfold nopp; cbn [nsub n0 f64_num]; rewrite v64_sub, H2; reflexivity|].
      exfalso. rewrite prob_nth in H3 by (rewrite norm_len; exact Hv). unfold soft in H3. rewrite (prob_nth row v Hv), Q, Et in H3. cbn [pr] in H3. unfold Rdiv in H3. rewrite Rmult_0_l, Rmult_0_r, Rminus_0_r in H3.
      rewrite Rabs_pos_eq in H3 by (apply Rlt_le, exp_pos). pose proof (exp_pos t). lra.
    - intros r Q. destruct (H4 r Q) as (t & Et & T & Es). exists (- t). split; [now apply opp_val|]. split.
      + rewrite Es. replace (- t - - (r - lse row)) with (- (t - (r - lse row))) by ring. rewrite Rabs_Ropp. exact T.
      + unfold soft. rewrite (prob_nth row v Hv), Q. cbn [pr]. apply Rdiv_lt_0_compat; [apply exp_pos|]. exact (proj1 (soft_total fexp flog sf ppf eig EL AE sum SUM row A AB N F E)).
  Qed.
End Rows.

(** ** Decisions *)
Section Decide.
  Context (fexp flog : f64 -> f64) (sf ppf : Z -> f64 -> f64) (eig : f64 -> f64 -> option (f64 * f64)) (EL : exp_log fexp flog) (AE : accurate_exp_log fexp flog).
  Notation lib := (fn_f64 fexp flog sf ppf eig).
  Context (sum : list f64 -> f64) (SUM : forall l, sums_to l (sum l)).
  Variables (row : list f64) (A : R).
  Hypothesis (AB : 0 <= A <= MAXN) (N : INR (length row) <= MAXN) (F : Forall (entry A) row) (E : Exists (fun x => fisfin x = true) row).
  Notation n := (INR (length row)).
  Notation q := (@any_normalize_row _ _ lib sum row).
  Variables (mat : list (list f64)) (b : nat) (M : R).
  Notation cost k := (nth b (nth k mat []) f0).
  Hypothesis (LM : length mat = length row) (MB : P2 (-900) <= M <= P2 900) (C : forall k, (k < length row)%nat -> fisfin (cost k) = true /\ Rabs (B2R (cost k)) <= M).

  Lemma risk_err :
    exists t, v64 (fold_left nadd (map2 (fun lp r => nmul (@nexp _ lib lp) (nth b r n0)) q mat) n0) = Fin t /\
      Rabs (t - Rsum (map (fun k => soft row k * B2R (cost k)) (seq 0 (length row)))) <= P2 (-45) * (n + A) * M.
  Proof.
    destruct u_facts as (U & U1 & T1 & T2 & E50). destruct (soft_D sum SUM row A AB N) as [D1 D2]. destruct (soft_sum fexp flog sf ppf eig EL AE sum SUM row A AB N F E) as [SS S01].
    assert (length q = length row) as Lq by apply norm_len. assert (0 < M) as M0 by (pose proof (bpow_gt_0 radix2 (-900)); lra).
    assert (eta <= u64 * M) as EM.
    { apply Rle_trans with (u64 * P2 (-900)); [|apply Rmult_le_compat_l; lra]. unfold u64. rewrite <- bpow_plus. apply bpow_le. lia. }
    change (fold_left nadd ?l n0) with (@nsum f64 _ l). rewrite (map2_seq _ q mat f0 []) by (rewrite Lq, LM; reflexivity). rewrite Lq.
    set (terms := map _ (seq 0 (length row))). set (p := fun k => prob (map v64 q) k). set (c := fun k => B2R (cost k)).
    assert (forall k, In k (seq 0 (length row)) -> exists t, v64 (fmul (fexp (nth k q f0)) (cost k)) = Fin t /\ Rabs (t - p k * c k) <= 10 * u64 * M /\ Rabs (t - soft row k * c k) <= 10 * u64 * M + 2 * (P2 (-47) * (n + A)) * M * soft row k /\ Rabs t <= (2 * soft row k + 10 * u64) * M) as H.
    { intros k Hk. apply in_seq in Hk. destruct (norm_prob fexp flog sf ppf eig EL AE sum SUM row A AB N F E k ltac:(lia)) as (G & _ & G3 & _). set (x := nth k q f0) in *.
      destruct (el_exp _ _ EL x G) as [X1 X2]. destruct (unit_nng _ X1 X2) as (e & Ee & Re). change (P2 0) with 1 in Re.
      destruct (ae_exp _ _ AE x G) as [Fe Ae]. pose proof Ee as Ee'. apply v64_Fin in Ee' as [_ Ve]. rewrite Ve in Ae. pose proof (pr_unit x G) as Pu.
      assert (p k = pr (v64 x)) as Pk by (unfold p; apply prob_nth; rewrite Lq; lia). rewrite <- Pk in *. fold (p k) in G3.
      destruct (C k ltac:(lia)) as [Fc Bc]. fold (c k) in Bc. pose proof (v64_fin _ Fc) as Ec. fold (c k) in Ec.
      assert (Rabs (e * c k) <= e * M) as B1 by (rewrite Rabs_mult, (Rabs_pos_eq e) by lra; apply Rmult_le_compat_l; lra). assert (e * M <= M) as B2 by nra.
      pose proof (rnd_err (e * c k)) as RE. change (P2 (-1075)) with eta in RE. exists (rnd64 (e * c k)). split.
      { rewrite v64_mul, Ee, Ec. cbn [xr2]. apply xround_ok. apply Rle_trans with (P2 900); [lra|apply bpow_le; lia]. }
      assert (Rabs (rnd64 (e * c k) - e * c k) <= 2 * u64 * M) as R1 by (assert (u64 * Rabs (e * c k) <= u64 * M) by (apply Rmult_le_compat_l; lra); lra).
      assert (Rabs (e * c k - p k * c k) <= 8 * u64 * M) as R2 by (rewrite <- Rmult_minus_distr_r, Rabs_mult, <- E50; apply Rmult_le_compat; try apply Rabs_pos; assumption).
      assert (Rabs (rnd64 (e * c k) - p k * c k) <= 10 * u64 * M) as R3 by (apply Rabs_le_inv in R1, R2; apply Rabs_le; lra).
      specialize (S01 k). assert (Rabs (p k * c k - soft row k * c k) <= 2 * (P2 (-47) * (n + A)) * M * soft row k) as R4.
      { rewrite <- Rmult_minus_distr_r, Rabs_mult. replace (2 * (P2 (-47) * (n + A)) * M * soft row k) with (2 * (P2 (-47) * (n + A)) * soft row k * M) by ring. apply Rmult_le_compat; try apply Rabs_pos; assumption. }
      split; [exact R3|]. split; [apply Rabs_le_inv in R3, R4; apply Rabs_le; lra|].
      assert (Rabs (p k * c k) <= 2 * soft row k * M) as R5.
      { rewrite Rabs_mult. apply Rmult_le_compat; try apply Rabs_pos; [|exact Bc]. rewrite (Rabs_pos_eq (p k)) by lra. apply Rabs_le_inv in G3. nra. }
      replace ((2 * soft row k + 10 * u64) * M) with (2 * soft row k * M + 10 * u64 * M) by ring. apply Rabs_le_inv in R3, R5. apply Rabs_le. lra. }
    assert (length terms = length row) as LT by (unfold terms; now rewrite map_length, seq_length).
    assert (Forall (fun a => fisfin a = true) terms) as FT by (unfold terms; apply Forall_map, Forall_forall; intros k Hk; destruct (H k Hk) as (t & Et & _); now apply v64_Fin in Et).
    assert (forall l, (forall k, In k l -> In k (seq 0 (length row))) ->
      Rabs (Rsum (vals (map (fun k => fmul (fexp (nth k q f0)) (cost k)) l)) - Rsum (map (fun k => soft row k * c k) l)) <= INR (length l) * (10 * u64 * M) + 2 * (P2 (-47) * (n + A)) * M * Rsum (map (soft row) l) /\
      abs_sum (map (fun k => fmul (fexp (nth k q f0)) (cost k)) l) <= 2 * M * Rsum (map (soft row) l) + INR (length l) * (10 * u64 * M)) as IND.
    { clear LT FT. induction l as [|k l IH]; intros I; [unfold abs_sum; cbn; rewrite Rminus_eq_0, Rabs_R0; split; lra|]. destruct IH as [I1 I2]; [intros; apply I; now right|].
      destruct (H k (I k (or_introl eq_refl))) as (t & Et & _ & Q1 & Q2). apply v64_Fin in Et as [_ Vt]. unfold abs_sum, vals in *. cbn [map length]. rewrite !Rsum_cons, S_INR, Vt. split.
      - apply Rabs_le_inv in I1, Q1. apply Rabs_le. lra.
      - lra. }
    destruct (IND (seq 0 (length row)) (fun k Hk => Hk)) as [I1 I2]. change (map _ (seq 0 (length row))) with terms in I1 at 1. change (abs_sum terms <= 2 * M * Rsum (map (soft row) (seq 0 (length row))) + INR (length (seq 0 (length row))) * (10 * u64 * M)) in I2.
    rewrite SS, seq_length in I1, I2. pose proof (maxn_u (length row) N) as MU. assert (P2 (-23) <= / 1024) as P23 by (replace (/ 1024) with (P2 (-10)) by (cbn; lra); apply bpow_le; lia).
    pose proof (pos_INR (length row)) as n0'. set (x := n * u64) in *. replace (n * (10 * u64 * M)) with (10 * (x * M)) in * by (unfold x; ring). assert (0 <= x) as X0 by (unfold x; nra).
    assert (x * M <= / 1024 * M) as XM by (apply Rmult_le_compat_r; lra). assert (abs_sum terms <= 3 * M) as AS by lra.
    destruct (sums_err terms (nsum terms) (nsum_sums terms) FT) as [Fs Es]; [rewrite LT; exact N| |].
    { apply Rle_trans with (P2 2 * P2 900); [change (P2 2) with 4; lra|]. rewrite <- bpow_plus. apply bpow_le. lia. }
    rewrite LT in Es. assert ((1 + u64) ^ Nat.pred (length row) - 1 <= 2 * x) as PW.
    { assert (INR (Nat.pred (length row)) <= n) as Q by (apply le_INR; lia). pose proof (pow_up (Nat.pred (length row))) as PU. pose proof (pos_INR (Nat.pred (length row))).
      assert (INR (Nat.pred (length row)) * u64 <= x) by (apply Rmult_le_compat_r; lra). specialize (PU ltac:(lra)). lra. }
    exists (B2R (nsum terms)). split; [now apply v64_fin|]. fold c.
    assert (((1 + u64) ^ Nat.pred (length row) - 1) * abs_sum terms <= 6 * (x * M)) as Q.
    { replace (6 * (x * M)) with (2 * x * (3 * M)) by ring. pose proof (abs_sum_pos terms). apply Rle_trans with (2 * x * abs_sum terms); [apply Rmult_le_compat_r; assumption|apply Rmult_le_compat_l; lra]. }
    assert (P2 (-45) = 256 * u64) as -> by (unfold u64; replace (-45)%Z with (8 + -53)%Z by lia; rewrite bpow_plus; change (P2 8) with 256; lra).
    rewrite D2 in I1. assert (x * M <= u64 * (n + A) * M) as Q2 by (apply Rmult_le_compat_r; [lra|]; unfold x; nra). set (w := u64 * (n + A) * M) in *.
    replace (2 * (64 * u64 * (n + A)) * M * 1) with (128 * w) in I1 by (unfold w; ring). replace (256 * u64 * (n + A) * M) with (256 * w) by (unfold w; ring).
    assert (0 <= w) by (assert (0 <= x * M) by (apply Rmult_le_pos; lra); lra). apply Rabs_le_inv in I1, Es. apply Rabs_le. change (map (fun k => soft row k * B2R (cost k)) (seq 0 (length row))) with (map (fun k => soft row k * c k) (seq 0 (length row))). split; lra.
  Qed.
End Decide.

(** ** Regression *)
Lemma diff_err (a b : f64) x y : v64 a = Fin x -> v64 b = Fin y -> Rabs x <= P2 200 -> Rabs y <= P2 200 ->
  exists d, v64 (fsub a b) = Fin d /\ Rabs (d - (x - y)) <= u64 * Rabs (x - y) /\ Rabs (x - y) <= P2 201.
Proof.
  intros Ea Eb A B. assert (Rabs (x - y) <= P2 201) as G.
  { replace (P2 201) with (P2 200 + P2 200) by (replace 201%Z with (1 + 200)%Z by lia; rewrite bpow_plus; change (P2 1) with 2; ring). apply Rabs_le_inv in A, B. apply Rabs_le. lra. }
  exists (rnd64 (x - y)). split; [|split; [|exact G]].
  - rewrite v64_sub, Ea, Eb. cbn [xr2]. apply xround_ok. eapply Rle_trans; [exact G|]. apply bpow_le. lia.
  - exact (rnd_add_err x (- y) (v64_Fin_format _ _ Ea) (generic_format_opp _ _ _ (v64_Fin_format _ _ Eb))).
Qed.
Lemma square_err (d : f64) r D e : v64 d = Fin r -> Rabs (r - D) <= e * u64 * Rabs D + eta -> 0 <= e <= 4 -> Rabs D <= P2 420 ->
  exists t, v64 (fmul d d) = Fin t /\ Rabs (t - D * D) <= (2 * e + 2) * u64 * (D * D) + u64 * / 16.
Proof.
  intros Ed H E4 B. destruct u_facts as (U & U1 & T1 & T2 & _). assert (Rabs D * Rabs D = D * D) as DD by (rewrite <- Rabs_mult; apply Rabs_pos_eq; nra).
  set (w := Rabs D) in *. assert (0 <= w) as w0 by apply Rabs_pos.
  assert (e * u64 <= / 256) as EU by nra. set (h := e * u64) in *. assert (0 <= h) as h0 by (unfold h; nra).
  assert (Rabs (r + D) <= 2 * w + h * w + eta) as S.
  { replace (r + D) with ((r - D) + 2 * D) by ring. eapply Rle_trans; [apply Rabs_triang|]. rewrite Rabs_mult, (Rabs_pos_eq 2) by lra. fold w. lra. }
  assert (w <= 1 + w * w) as W by nra.
  assert (Rabs (r * r - D * D) <= (2 * e + / 2) * u64 * (w * w) + u64 * / 32) as Q.
  { replace (r * r - D * D) with ((r - D) * (r + D)) by ring. rewrite Rabs_mult. apply Rle_trans with ((h * w + eta) * (2 * w + h * w + eta)); [apply Rmult_le_compat; try apply Rabs_pos; assumption|].
    replace ((h * w + eta) * (2 * w + h * w + eta)) with (2 * h * (w * w) + h * (h * (w * w)) + eta * (2 * h * w + 2 * w + eta)) by ring.
    assert (h * (h * (w * w)) <= / 64 * (u64 * (w * w))) as Q1.
    { assert (h <= 4 * u64) as H4 by (unfold h; apply Rmult_le_compat_r; lra). assert (h * h <= / 64 * u64) by (apply Rle_trans with (/ 256 * (4 * u64)); [apply Rmult_le_compat; lra|lra]). replace (h * (h * (w * w))) with (h * h * (w * w)) by ring. replace (/ 64 * (u64 * (w * w))) with (/ 64 * u64 * (w * w)) by ring. apply Rmult_le_compat_r; nra. }
    assert (2 * h * w + 2 * w + eta <= 3 * w + 1) as Q2 by (assert (h * w <= / 256 * w) by (apply Rmult_le_compat_r; lra); lra).
    assert (eta * (2 * h * w + 2 * w + eta) <= u64 * / 1024 * (4 + 3 * (w * w))) as Q3.
    { apply Rmult_le_compat; [lra| |exact T1|]; [|lra]. assert (0 <= h * w) by (apply Rmult_le_pos; lra). lra. }
    assert (0 <= u64 * (w * w)) by (apply Rmult_le_pos; [lra|nra]). replace (2 * h * (w * w)) with (2 * e * (u64 * (w * w))) by (unfold h; ring). lra. }
  rewrite DD in Q. assert (0 <= D * D) as D0 by nra. set (z := D * D) in *. assert (Rabs (r * r) <= 2 * z + u64 * / 32) as RR.
  { assert (0 <= u64 * z) by (apply Rmult_le_pos; lra). apply Rabs_le_inv in Q. rewrite Rabs_pos_eq by nra. assert ((2 * e + / 2) * u64 * z <= z) as G; [|lra]. apply Rle_trans with (1 * z); [apply Rmult_le_compat_r; [exact D0|nra]|lra]. }
  assert (z <= P2 840) as ZB by (rewrite <- DD; replace (P2 840) with (P2 420 * P2 420) by (rewrite <- bpow_plus; f_equal; lia); apply Rmult_le_compat; assumption).
  exists (rnd64 (r * r)). split.
  - rewrite v64_mul, Ed. cbn [xr2]. apply xround_ok. eapply Rle_trans; [exact RR|]. apply Rle_trans with (P2 2 * P2 840); [|rewrite <- bpow_plus; apply bpow_le; lia]. change (P2 2) with 4.
    assert (1 <= P2 840) by (apply (bpow_le radix2 0); lia). lra.
  - pose proof (rnd_err (r * r)) as R1. change (P2 (-1075)) with eta in R1.
    assert (Rabs (r * r) <= z + (/ 4 * z + u64 * / 32)) as RR2.
    { apply Rabs_le_inv in Q. rewrite Rabs_pos_eq by nra. assert ((2 * e + / 2) * u64 * z <= / 4 * z) as G; [|lra]. apply Rmult_le_compat_r; nra. }
    assert (u64 * Rabs (r * r) <= u64 * (z + (/ 4 * z + u64 * / 32))) as R2 by (apply Rmult_le_compat_l; lra).
    assert (u64 * (u64 * / 32) <= u64 * / 1024) by nra. assert (0 <= u64 * z) by (apply Rmult_le_pos; lra).
    apply Rabs_le_inv in R1, Q. apply Rabs_le. split; lra.
Qed.
Lemma square_loss_err (a b : f64) x y : v64 a = Fin x -> v64 b = Fin y -> Rabs x <= P2 200 -> Rabs y <= P2 200 ->
  exists t, v64 (fmul (fsub a b) (fsub a b)) = Fin t /\ Rabs (t - (x - y) ^ 2) <= P2 (-51) * (x - y) ^ 2 + P2 (-1075).
Proof.
  intros Ea Eb Bx By. destruct u_facts as (U & U1 & T1 & T2 & _). destruct (diff_err a b x y Ea Eb Bx By) as (r & Er & R & B). set (D := x - y) in *.
  assert (P2 (-51) = 4 * u64) as -> by (unfold u64; replace (-51)%Z with (2 + -53)%Z by lia; rewrite bpow_plus; change (P2 2) with 4; lra).
  assert (Rabs D * Rabs D = D * D) as DD by (rewrite <- Rabs_mult; apply Rabs_pos_eq; nra). replace (D ^ 2) with (D * D) by ring.
  set (w := Rabs D) in *. assert (0 <= w) as w0 by apply Rabs_pos. set (z := D * D) in *. assert (0 <= z) as z0 by (rewrite <- DD; nra).
  assert (u64 * (u64 * z) <= / 1024 * (u64 * z)) as UU by (apply Rmult_le_compat_r; [apply Rmult_le_pos; lra|lra]). assert (0 <= u64 * z) by (apply Rmult_le_pos; lra).
  assert (Rabs (r * r - z) <= (2 + / 1024) * (u64 * z)) as Q.
  { replace (r * r - z) with ((r - D) * (r + D)) by (unfold z; ring). rewrite Rabs_mult. assert (Rabs (r + D) <= (2 + u64) * w) as S.
    { replace (r + D) with ((r - D) + 2 * D) by ring. eapply Rle_trans; [apply Rabs_triang|]. rewrite Rabs_mult, (Rabs_pos_eq 2) by lra. fold w. lra. }
    apply Rle_trans with (u64 * w * ((2 + u64) * w)); [apply Rmult_le_compat; try apply Rabs_pos; assumption|]. replace (u64 * w * ((2 + u64) * w)) with (2 * (u64 * (w * w)) + u64 * (u64 * (w * w))) by ring. rewrite DD. lra. }
  assert (u64 * z <= / 1024 * z) as UZ by (apply Rmult_le_compat_r; lra). assert (Rabs (r * r) <= (1 + / 256) * z) as RR by (apply Rabs_le_inv in Q; rewrite Rabs_pos_eq by nra; lra).
  assert (z <= P2 402) as ZB by (rewrite <- DD; replace (P2 402) with (P2 201 * P2 201) by (rewrite <- bpow_plus; f_equal; lia); apply Rmult_le_compat; assumption).
  exists (rnd64 (r * r)). split.
  - rewrite v64_mul, Er. cbn [xr2]. apply xround_ok. eapply Rle_trans; [exact RR|]. apply Rle_trans with (P2 1 * P2 402); [|rewrite <- bpow_plus; apply bpow_le; lia]. change (P2 1) with 2. lra.
  - pose proof (rnd_err (r * r)) as R1. assert (u64 * Rabs (r * r) <= u64 * ((1 + / 256) * z)) as R2 by (apply Rmult_le_compat_l; lra).
    apply Rabs_le_inv in R1, Q. apply Rabs_le. split; lra.
Qed.
Lemma abs_loss_err (a b : f64) x y : v64 a = Fin x -> v64 b = Fin y -> Rabs x <= P2 200 -> Rabs y <= P2 200 ->
  exists t, v64 (nabs (fsub a b)) = Fin t /\ Rabs (t - Rabs (x - y)) <= P2 (-53) * Rabs (x - y).
Proof.
  intros Ea Eb Bx By. destruct (diff_err a b x y Ea Eb Bx By) as (r & Er & R & B). exists (Rabs r). rewrite nabs_fabs, v64_abs, Er. split; [reflexivity|].
  eapply Rle_trans; [apply Rabs_triang_inv2|]. exact R.
Qed.

(** an accurate natural logarithm of positive numbers *)
Definition accurate_log (flog : f64 -> f64) : Prop := forall z, fisfin z = true -> 0 < B2R z ->
  fisfin (flog z) = true /\ Rabs (B2R (flog z) - ln (B2R z)) <= P2 (-50) * (1 + Rabs (ln (B2R z))).

Section Gauss.
  Context (fexp flog : f64 -> f64) (sf ppf : Z -> f64 -> f64) (eig : f64 -> f64 -> option (f64 * f64)) (AL : accurate_log flog).
  Notation lib := (fn_f64 fexp flog sf ppf eig).
  Lemma gauss_err (lc a m s : f64) c x y d : v64 lc = Fin c -> v64 a = Fin x -> v64 m = Fin y -> v64 s = Fin d ->
    Rabs c <= P2 200 -> Rabs x <= P2 200 -> Rabs y <= P2 200 -> P2 (-200) <= d <= P2 1000 ->
    exists t, v64 (nopp (@norm_logpdf _ _ lib lc a m s)) = Fin t /\
      Rabs (t - ((x - y) ^ 2 / (2 * d ^ 2) + c + ln d)) <= P2 (-49) * ((x - y) ^ 2 / (2 * d ^ 2) + Rabs c + Rabs (ln d) + 1).
  Proof.
    intros Ec Ea Em Es Bc Bx By Bd. destruct u_facts as (U & U1 & T1 & T2 & E50). destruct (diff_err a m x y Ea Em Bx By) as (r & Er & R & B). set (D := x - y) in *.
    assert (0 < d) as d0 by (pose proof (bpow_gt_0 radix2 (-200)); lra). set (Z := D / d).
    replace (D ^ 2 / (2 * d ^ 2)) with (Z * Z / 2) by (unfold Z; field; lra).
    assert (Rabs (r / d - Z) <= u64 * Rabs Z) as RZ.
    { unfold Z, Rdiv. rewrite <- Rmult_minus_distr_r, !Rabs_mult, <- Rmult_assoc. apply Rmult_le_compat_r; [apply Rabs_pos|exact R]. }
    assert (Rabs Z <= P2 401) as BZ.
    { unfold Z, Rdiv. rewrite Rabs_mult, (Rabs_pos_eq (/ d)) by (apply Rlt_le, Rinv_0_lt_compat, d0). replace (P2 401) with (P2 201 * P2 200) by (rewrite <- bpow_plus; f_equal; lia).
      apply Rmult_le_compat; [apply Rabs_pos|apply Rlt_le, Rinv_0_lt_compat, d0|exact B|]. replace (P2 200) with (/ P2 (-200)) by (rewrite <- bpow_opp; f_equal; lia). apply Rinv_le; [apply bpow_gt_0|apply Bd]. }
    assert (Rabs (r / d) <= 2 * Rabs Z) as B2.
    { replace (r / d) with ((r / d - Z) + Z) by ring. eapply Rle_trans; [apply Rabs_triang|]. pose proof (Rabs_pos Z). assert (u64 * Rabs Z <= 1 * Rabs Z) by (apply Rmult_le_compat_r; lra). lra. }
    pose proof (rnd_err (r / d)) as R1. set (z := rnd64 (r / d)) in *.
    assert (v64 (fdiv (fsub a m) s) = Fin z) as Ez.
    { pose proof Er as Er'. apply v64_Fin in Er' as [Fr Vr]. pose proof Es as Es'. apply v64_Fin in Es' as [Fs Vs]. rewrite v64_div_fin by (rewrite ?Vs; auto; lra). rewrite Vr, Vs. apply xround_ok.
      eapply Rle_trans; [exact B2|]. apply Rle_trans with (P2 1 * P2 401); [change (P2 1) with 2; lra|rewrite <- bpow_plus; apply bpow_le; lia]. }
    assert (Rabs (z - Z) <= 3 * u64 * Rabs Z + eta) as R2.
    { assert (u64 * Rabs (r / d) <= u64 * (2 * Rabs Z)) by (apply Rmult_le_compat_l; lra). apply Rabs_le_inv in R1, RZ. apply Rabs_le. lra. }
    destruct (square_err _ z Z 3 Ez R2) as (q & Eq & Q); [lra|eapply Rle_trans; [exact BZ|apply bpow_le; lia]|].
    set (T := Z * Z / 2). assert (Z * Z = 2 * T) as ET by (unfold T; field). assert (0 <= T) as T0 by (unfold T; nra). rewrite ET in Q.
    assert (T <= P2 802) as BT.
    { assert (Z * Z <= P2 802); [|unfold T; pose proof (Rle_0_sqr Z); unfold Rsqr in *; lra]. replace (Z * Z) with (Rabs Z * Rabs Z) by (rewrite <- Rabs_mult; apply Rabs_pos_eq; nra).
      replace (P2 802) with (P2 401 * P2 401) by (rewrite <- bpow_plus; f_equal; lia). apply Rmult_le_compat; try apply Rabs_pos; exact BZ. }
    assert (v64 (nopp (fmul (fdiv (fsub a m) s) (fdiv (fsub a m) s))) = Fin (- q)) as Eo by now apply opp_val.
    assert (u64 * T <= / 1024 * T) as UT by (apply Rmult_le_compat_r; lra). assert (0 <= u64 * T) as UT0 by (apply Rmult_le_pos; lra).
    assert (Rabs (- q / 2) <= 2 * T + 1) as B3.
    { apply Rabs_le_inv in Q. apply Rabs_le. lra. }
    pose proof (rnd_err (- q / 2)) as R3. set (h := rnd64 (- q / 2)) in *.
    assert (v64 (fdiv (nopp (fmul (fdiv (fsub a m) s) (fdiv (fsub a m) s))) (f_of_Z 2)) = Fin h) as Eh.
    { pose proof Eo as Eo'. apply v64_Fin in Eo' as [Fo Vo]. destruct (f_of_Z_correct 2) as [V2 F2]; [lia|]. rewrite v64_div_fin by (auto; rewrite V2; lra). rewrite Vo, V2. apply xround_ok.
      eapply Rle_trans; [exact B3|]. apply Rle_trans with (P2 2 * P2 802); [|rewrite <- bpow_plus; apply bpow_le; lia]. change (P2 2) with 4. assert (1 <= P2 802) by (apply (bpow_le radix2 0); lia). lra. }
    assert (Rabs (h + T) <= 10 * (u64 * T) + u64 * / 8) as R4.
    { assert (Rabs (- q / 2 + T) <= 8 * (u64 * T) + u64 * / 32) as G by (apply Rabs_le_inv in Q; apply Rabs_le; lra).
      assert (Rabs (- q / 2) <= (1 + / 100) * T + / 1024) as G2 by (apply Rabs_le_inv in G; apply Rabs_le; lra).
      assert (u64 * Rabs (- q / 2) <= u64 * ((1 + / 100) * T + / 1024)) by (apply Rmult_le_compat_l; lra). apply Rabs_le_inv in R3, G. apply Rabs_le. lra. }
    assert (Rabs (h - c) <= 2 * T + 1 + Rabs c) as B4.
    { apply Rabs_le_inv in R4. pose proof (Rle_abs c). pose proof (Rle_abs (- c)). rewrite Rabs_Ropp in *. apply Rabs_le. lra. }
    pose proof (rnd_err (h - c)) as R5. set (g := rnd64 (h - c)) in *.
    assert (P2 200 <= P2 802 /\ 1 <= P2 802) as [P8 P1] by (split; [apply bpow_le; lia|apply (bpow_le radix2 0); lia]).
    assert (v64 (fsub (fdiv (nopp (fmul (fdiv (fsub a m) s) (fdiv (fsub a m) s))) (f_of_Z 2)) lc) = Fin g) as Eg.
    { rewrite v64_sub, Eh, Ec. cbn [xr2]. apply xround_ok. eapply Rle_trans; [exact B4|]. apply Rle_trans with (P2 2 * P2 802); [|rewrite <- bpow_plus; apply bpow_le; lia]. change (P2 2) with 4. lra. }
    pose proof Es as Es'. apply v64_Fin in Es' as [Fs Vs]. destruct (AL s Fs ltac:(rewrite Vs; exact d0)) as [Fl Al]. rewrite Vs, E50 in Al. set (l := B2R (flog s)) in *.
    assert (Rabs (ln d) <= 1000) as BL.
    { assert (forall k, (0 <= k)%Z -> ln (P2 k) <= IZR k) as LN.
      { intros k Hk. rewrite <- (ln_exp (IZR k)). assert (P2 k <= exp (IZR k)) as G; [|destruct G as [G| ->]; [apply Rlt_le, ln_increasing; [apply bpow_gt_0|exact G]|lra]].
        rewrite bpow_powerRZ. rewrite <- (Z2Nat.id k) by exact Hk. rewrite <- pow_powerRZ, <- INR_IZR_INZ. change (IZR radix2) with 2. clear. induction (Z.to_nat k) as [|j IH]; [change (INR 0) with 0; rewrite exp_0; cbn; lra|].
        rewrite S_INR, exp_plus. cbn [pow]. pose proof (exp_ineq1_le 1). pose proof (exp_pos (INR j)). assert (0 < 2 ^ j) by (apply pow_lt; lra). nra. }
      assert (forall a b, 0 < a -> a <= b -> ln a <= ln b) as LM by (intros a' b' Ha [H|<-]; [apply Rlt_le, ln_increasing; assumption|lra]).
      pose proof (LN 1000%Z ltac:(lia)) as L1. pose proof (LN 200%Z ltac:(lia)) as L2. pose proof (LM d (P2 1000) d0 (proj2 Bd)) as L3. pose proof (LM (P2 (-200)) d (bpow_gt_0 _ _) (proj1 Bd)) as L4.
      replace (P2 (-200)) with (/ P2 200) in L4 by (rewrite <- bpow_opp; reflexivity). rewrite ln_Rinv in L4 by apply bpow_gt_0. apply Rabs_le. lra. }
    set (Lg := ln d) in *. assert (Rabs (l - Lg) <= 8 * u64 * (1 + Rabs Lg)) as Al' by exact Al.
    assert (u64 * Rabs Lg <= / 1024 * Rabs Lg) as UL by (apply Rmult_le_compat_r; [apply Rabs_pos|lra]). pose proof (Rabs_pos Lg) as L0. pose proof (Rabs_pos c) as c0.
    assert (u64 * Rabs c <= / 1024 * Rabs c) as UC by (apply Rmult_le_compat_r; lra). assert (0 <= u64 * Rabs c) as UC0 by (apply Rmult_le_pos; lra). assert (0 <= u64 * Rabs Lg) as UL0 by (apply Rmult_le_pos; lra).
    assert (Rabs (g - (- T - c)) <= 13 * (u64 * T) + u64 * (Rabs c) + u64 * / 2) as R6.
    { assert (Rabs (h - c) <= (1 + / 64) * T + Rabs c + / 1024) as G.
      { apply Rabs_le_inv in R4. pose proof (Rle_abs c). pose proof (Rle_abs (- c)). rewrite Rabs_Ropp in *. apply Rabs_le. lra. }
      assert (u64 * Rabs (h - c) <= u64 * ((1 + / 64) * T + Rabs c + / 1024)) by (apply Rmult_le_compat_l; lra). apply Rabs_le_inv in R4, R5. apply Rabs_le. lra. }
    assert (Rabs (g - l) <= (1 + / 32) * T + (1 + / 32) * Rabs c + (1 + / 64) * Rabs Lg + / 32) as B5.
    { apply Rabs_le_inv in R6, Al'. pose proof (Rle_abs c). pose proof (Rle_abs (- c)). pose proof (Rle_abs Lg). pose proof (Rle_abs (- Lg)). rewrite !Rabs_Ropp in *. apply Rabs_le. lra. }
    pose proof (rnd_err (g - l)) as R7. set (f := rnd64 (g - l)) in *.
    assert (v64 (@norm_logpdf _ _ lib lc a m s) = Fin f) as Ef.
    { unfold norm_logpdf. cbv zeta. change (v64 (fsub (fsub (fdiv (nopp (fmul (fdiv (fsub a m) s) (fdiv (fsub a m) s))) (f_of_Z 2)) lc) (flog s)) = Fin f). rewrite v64_sub, Eg, (v64_fin _ Fl). cbn [xr2]. apply xround_ok.
      eapply Rle_trans; [exact B5|]. apply Rle_trans with (P2 12 * P2 802); [|rewrite <- bpow_plus; apply bpow_le; lia]. change (P2 12) with 4096. lra. }
    exists (- f). split; [now apply opp_val|].
    assert (u64 * Rabs (g - l) <= u64 * ((1 + / 32) * T + (1 + / 32) * Rabs c + (1 + / 64) * Rabs Lg + / 32)) as R8 by (apply Rmult_le_compat_l; lra).
    assert (P2 (-49) = 16 * u64) as -> by (unfold u64; replace (-49)%Z with (4 + -53)%Z by lia; rewrite bpow_plus; change (P2 4) with 16; lra).
    apply Rabs_le_inv in R7, R6, Al'. apply Rabs_le. lra.
  Qed.
End Gauss.
