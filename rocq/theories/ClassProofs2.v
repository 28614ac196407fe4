(** Scoring rules: closed forms and propriety *)
From Coq Require Import Reals Lra Lia.
From Verif Require Import PyBase ListLemmas F64 Num NumOk Util UtilProofs BootUtil BootProofs5 PerfCurves PerfProofs4 CurveBoot
  MLPaper MLProofs2 MLProofs3 Classification ClassProofs.
Open Scope R_scope.

(** probability of label [k] *)
Definition prob (row : list xr) (k : nat) : R := nth k (map pr row) 0.
Lemma prob_pr row k : prob row k = pr (nth k row NaN).
Proof. unfold prob. now rewrite <- (map_nth pr row NaN k). Qed.
Lemma prob_nonneg row k : 0 <= prob row k.
Proof. rewrite prob_pr. apply pr_nonneg. Qed.
Lemma prob_sum row : Rsum (map pr row) = Rsum (map (prob row) (seq 0 (length row))).
Proof. f_equal. symmetry. rewrite <- (map_length pr row). apply nth_all. Qed.
Lemma Rsum_ge (l : list R) a : Forall (fun x => 0 <= x) l -> In a l -> a <= Rsum l.
Proof.
  induction 1 as [|b l Hb Hl IH]; [intros []|]. rewrite Rsum_cons. intros [->|H].
  - pose proof (Rsum_nonneg l Hl). lra.
  - specialize (IH H). lra.
Qed.
Lemma Forall_pr row : Forall (fun x => 0 <= x) (map pr row).
Proof. apply Forall_forall. intros x Hx. apply in_map_iff in Hx as (a & <- & _). apply pr_nonneg. Qed.
Lemma prob_le1 L row k : dist L row -> prob row k <= 1.
Proof.
  intros (_ & S). destruct (lt_dec k (length (map pr row))) as [H|H].
  - rewrite <- S. apply Rsum_ge; [apply Forall_pr|]. apply nth_In. exact H.
  - unfold prob. rewrite nth_overflow by lia. lra.
Qed.
Lemma dist_exists_fin L row : dist L row -> Exists is_fin row.
Proof.
  intros ((_ & F) & S). destruct (Exists_dec is_fin row) as [E|E]; [intros [| | |]; cbn; auto|exact E|].
  exfalso. assert (Rsum (map pr row) = 0) as Z; [|lra].
  clear S. induction row as [|a row IH]; [reflexivity|]. cbn [map]. rewrite Rsum_cons, IH.
  - destruct a; cbn; try lra. exfalso. apply E. now constructor.
  - now inversion F.
  - intros H. apply E. now constructor 2.
Qed.
Lemma pr_inj a b : logp a -> logp b -> pr a = pr b -> a = b.
Proof.
  destruct a as [x| | |], b as [z| | |]; cbn; intros A B E; try contradiction; auto.
  - f_equal. now apply exp_inv.
  - pose proof (exp_pos x). lra.
  - pose proof (exp_pos z). lra.
Qed.
Lemma rows_eq p q : length p = length q -> Forall logp p -> Forall logp q -> (forall k, (k < length p)%nat -> prob p k = prob q k) -> p = q.
Proof.
  revert q. induction p as [|a p IH]; intros [|b q] H Fp Fq E; try discriminate; auto.
  inversion Fp; inversion Fq; subst. f_equal.
  - apply pr_inj; auto. specialize (E 0%nat). cbn in E. apply E. lia.
  - apply IH; auto. intros k Hk. apply (E (S k)). cbn. lia.
Qed.

(** A sum of non-negative terms is 0 only if all are. *)
Lemma Rsum_zero {A} (f : A -> R) l : (forall a, In a l -> 0 <= f a) -> Rsum (map f l) = 0 -> forall a, In a l -> f a = 0.
Proof.
  intros P Z a Ha. assert (f a <= Rsum (map f l)).
  { apply Rsum_ge; [|now apply in_map]. apply Forall_forall. intros x Hx. apply in_map_iff in Hx as (b & <- & Hb). auto. }
  specialize (P a Ha). lra.
Qed.
Lemma Rsum_map_nonneg {A} (f : A -> R) l : (forall a, In a l -> 0 <= f a) -> 0 <= Rsum (map f l).
Proof. intros P. apply Rsum_nonneg. apply Forall_forall. intros x Hx. apply in_map_iff in Hx as (b & <- & Hb). auto. Qed.
Lemma Rsum_map_minus {A} (f g : A -> R) l : Rsum (map (fun a => f a - g a) l) = Rsum (map f l) - Rsum (map g l).
Proof.
  rewrite (Rsum_map_ext _ (fun a => f a + (-1) * g a)) by (intros; lra).
  rewrite Rsum_map_plus, Rsum_map_mult. lra.
Qed.

(** ** Expected loss under a distribution
    The sum runs over the labels of positive probability, so that an infinite
    loss counts exactly when it can happen. *)
Definition expected (p : list R) (loss : nat -> xr) : xr :=
  nsum (map (fun k => if Rltb 0 (nth k p 0) then nmul (Fin (nth k p 0)) (loss k) else Fin 0) (seq 0 (length p))).

(** Loss of the prediction [row] when the label is [k]. *)
Definition loss_of (f : metric_fun xr) (row : list xr) (k : nat) : xr :=
  match f Ki [Z.of_nat k] [row] (length row) with Ok [v] => v | _ => NaN end.

Definition strictly_proper (f : metric_fun xr) : Prop :=
  forall L p q, (1 <= L)%nat -> dist L p -> dist L q ->
  exists e, expected (map pr p) (loss_of f p) = Fin e /\
    nleb (Fin e) (expected (map pr p) (loss_of f q)) = true /\
    (expected (map pr p) (loss_of f q) = Fin e -> q = p).

Lemma expected_fin p (f : nat -> R) : (forall k, 0 <= nth k p 0) ->
  forall loss, (forall k, (k < length p)%nat -> 0 < nth k p 0 -> loss k = Fin (f k)) ->
  expected p loss = Fin (Rsum (map (fun k => nth k p 0 * f k) (seq 0 (length p)))).
Proof.
  intros P loss H. unfold expected. rewrite <- nsum_fin, map_map. f_equal. apply map_ext_in. intros k Hk. apply in_seq in Hk.
  destruct (Rltb 0 (nth k p 0)) eqn:E.
  - apply Rltb_spec in E. rewrite H by (auto; lia). reflexivity.
  - apply Rltb_false in E. specialize (P k). f_equal. replace (nth k p 0) with 0 by lra. lra.
Qed.

Lemma expected_inf p loss k : (k < length p)%nat -> 0 < nth k p 0 -> loss k = PInf ->
  (forall j, (j < length p)%nat -> 0 < nth j p 0 -> loss j = PInf \/ exists r, loss j = Fin r) ->
  expected p loss = PInf.
Proof.
  intros Hk Pk Lk A. unfold expected.
  set (g := fun k => if Rltb 0 (nth k p 0) then nmul (Fin (nth k p 0)) (loss k) else Fin 0).
  assert (forall j, In j (seq 0 (length p)) -> g j = PInf \/ exists r, g j = Fin r) as G.
  { intros j Hj. apply in_seq in Hj. unfold g. destruct (Rltb 0 (nth j p 0)) eqn:E; [|eauto].
    apply Rltb_spec in E. destruct (A j) as [->|(r & ->)]; [lia|exact E| |cbn; eauto].
    left. cbn. unfold xinf_mul. rewrite Reqb_neq by lra. now apply Rltb_spec in E as ->. }
  assert (g k = PInf) as Gk.
  { unfold g. replace (Rltb 0 (nth k p 0)) with true by (symmetry; now apply Rltb_spec). rewrite Lk. cbn. unfold xinf_mul.
    rewrite Reqb_neq by lra. now replace (Rltb 0 (nth k p 0)) with true by (symmetry; now apply Rltb_spec). }
  unfold nsum. change (@nadd xr xr_num) with xadd. change (@n0 xr xr_num) with (Fin 0). rewrite fold_Fin.
  - replace (hasP _) with true by (symmetry; apply hasP_in; rewrite <- Gk; apply in_map, in_seq; lia).
    replace (hasN (map g (seq 0 (length p)))) with false; [reflexivity|].
    symmetry. apply Bool.not_true_is_false. intros H. apply hasN_in in H. apply in_map_iff in H as (j & E & Hj).
    destruct (G j Hj) as [H|(r & H)]; rewrite H in E; discriminate.
  - apply Bool.not_true_is_false. intros H. apply existsb_exists in H as (x & Hx & N). apply in_map_iff in Hx as (j & <- & Hj).
    destruct (G j Hj) as [H|(r & H)]; rewrite H in N; discriminate.
Qed.

(** ** Log loss *)
Definition neg_log (p : R) : xr := if Req_EM_T p 0 then PInf else Fin (- ln p).
Lemma neg_log_pr a : logp a -> nopp a = neg_log (pr a).
Proof.
  unfold neg_log. destruct a as [x| | |]; cbn; intros H; try contradiction.
  - pose proof (exp_pos x). destruct (Req_EM_T (exp x) 0); [lra|]. rewrite ln_exp. f_equal. lra.
  - destruct (Req_EM_T 0 0); [reflexivity|lra].
Qed.
Lemma nth_logp row k : Forall logp row -> (k < length row)%nat -> logp (nth k row n0).
Proof. intros F H. rewrite Forall_forall in F. apply F, nth_In. exact H. Qed.
Lemma prob_nth row k d : (k < length row)%nat -> pr (nth k row d) = prob row k.
Proof. intros H. rewrite prob_pr. f_equal. now apply nth_indep. Qed.

Lemma log_loss_form kd y m L : valid_y kd y (length m) L -> Forall (ok_row L) m ->
  log_loss kd y m L = Ok (map2 (fun v row => neg_log (prob row (Z.to_nat v))) y m).
Proof.
  intros V F. unfold log_loss. rewrite (proj2 (validate_iff kd y m L) V). cbn [bind]. f_equal.
  destruct V as (_ & _ & Ly & _ & Fy). revert m Ly F. induction y as [|v y IH]; intros [|row m] Ly F; try discriminate; [reflexivity|].
  cbn [map2]. inversion F as [|? ? (H1 & H2) F']; subst. inversion Fy; subst. f_equal; [|apply IH; auto; now injection Ly].
  rewrite neg_log_pr by (apply nth_logp; auto; lia). f_equal. apply prob_nth. lia.
Qed.

Lemma valid1 L k : (k < L)%nat -> valid_y Ki [Z.of_nat k] 1 L.
Proof. intros H. repeat split; auto; try lia. repeat constructor; lia. Qed.

Lemma loss_of_log row k : Forall logp row -> (k < length row)%nat -> loss_of log_loss row k = neg_log (prob row k).
Proof.
  intros F H. unfold loss_of. rewrite log_loss_form; [|apply valid1; exact H|repeat constructor; auto].
  cbn. now rewrite Nat2Z.id.
Qed.

Lemma neg_log_range p : 0 <= p <= 1 -> nleb n0 (neg_log p) = true /\ (neg_log p = Fin 0 <-> p = 1) /\ (neg_log p = PInf <-> p = 0).
Proof.
  intros H. unfold neg_log. destruct (Req_EM_T p 0) as [->|N].
  - split; [reflexivity|]. split; split; auto; try discriminate. lra.
  - assert (ln p <= 0) as H1.
    { destruct (Req_EM_T p 1) as [->|N1]; [rewrite ln_1; lra|]. left. rewrite <- ln_1. apply ln_increasing; lra. }
    split; [apply Rleb_spec; lra|]. split; split; try discriminate; try contradiction.
    + intros E. injection E as E. apply ln_inv; [lra|lra|]. rewrite ln_1. lra.
    + intros ->. rewrite ln_1. f_equal. lra.
Qed.

Lemma gibbs_term p q : 0 < p -> 0 < q -> 0 <= p * - ln q - p * - ln p - p + q /\ (p * - ln q - p * - ln p - p + q = 0 -> q = p).
Proof.
  intros P Q. assert (exists t, 0 < t /\ q = t * p) as (t & Pt & ->).
  { exists (q / p). split; [apply Rdiv_lt_0_compat; lra|field; lra]. }
  rewrite ln_mult by lra.
  replace (p * - (ln t + ln p) - p * - ln p - p + t * p) with (p * (t - 1 - ln t)) by ring.
  destruct (Req_EM_T (ln t) 0) as [Z|N].
  - assert (t = 1) as -> by (apply ln_inv; [lra|lra|]; now rewrite ln_1). rewrite ln_1. lra.
  - pose proof (exp_ineq1 (ln t) N) as E. rewrite exp_ln in E by exact Pt.
    assert (0 < p * (t - 1 - ln t)) by (apply Rmult_lt_0_compat; lra). lra.
Qed.

Lemma classic_dec_inf p q L : (exists k, (k < L)%nat /\ 0 < prob p k /\ prob q k = 0) \/
  (forall k, (k < L)%nat -> 0 < prob p k -> 0 < prob q k).
Proof.
  destruct (Exists_dec (fun k => 0 < prob p k /\ prob q k = 0) (seq 0 L)) as [E|E].
  - intros k. destruct (Rlt_dec 0 (prob p k)); [|right; tauto]. destruct (Req_EM_T (prob q k) 0); [left|right]; tauto.
  - left. apply Exists_exists in E as (k & Hk & E). apply in_seq in Hk. exists k. split; [lia|exact E].
  - right. intros k Hk P. destruct (prob_nonneg q k) as [H|H]; [exact H|]. exfalso. apply E, Exists_exists.
    exists k. split; [apply in_seq; lia|]. auto.
Qed.

Theorem log_loss_proper : strictly_proper log_loss.
Proof.
  intros L p q L1 Dp Dq. pose proof Dp as ((Lp & Fp) & Sp). pose proof Dq as ((Lq & Fq) & Sq).
  assert (forall k, 0 <= nth k (map pr p) 0) as P0 by (intros k; apply prob_nonneg).
  set (f := fun (r : list xr) k => - ln (prob r k)).
  assert (length (map pr p) = L) as LP by (now rewrite map_length).
  assert (forall r, Forall logp r -> length r = L -> forall k, (k < L)%nat -> 0 < prob r k -> loss_of log_loss r k = Fin (f r k)) as LF.
  { intros r Fr Lr k Hk Pk. rewrite loss_of_log by (auto; lia). unfold neg_log.
    destruct (Req_EM_T (prob r k) 0); [lra|reflexivity]. }
  exists (Rsum (map (fun k => prob p k * f p k) (seq 0 L))).
  assert (expected (map pr p) (loss_of log_loss p) = Fin (Rsum (map (fun k => prob p k * f p k) (seq 0 L)))) as E1.
  { rewrite (expected_fin _ (f p) P0), LP; [reflexivity|]. rewrite LP. intros k Hk Pk. apply LF; auto. }
  split; [exact E1|].
  destruct (classic_dec_inf p q L) as [(k & Hk & Pk & Qk)|All].
  - rewrite (expected_inf (map pr p) (loss_of log_loss q) k); [split; [reflexivity|discriminate]|lia|exact Pk| |].
    + rewrite loss_of_log by (auto; lia). unfold neg_log. rewrite Qk. destruct (Req_EM_T 0 0); [reflexivity|lra].
    + intros j Hj _. rewrite LP in Hj. rewrite loss_of_log by (auto; lia). unfold neg_log.
      destruct (Req_EM_T (prob q j) 0); eauto.
  - rewrite (expected_fin _ (f q) P0), LP.
    2:{ rewrite LP. intros k Hk Pk. apply LF; auto. }
    set (D := fun k => prob p k * f q k - prob p k * f p k - prob p k + prob q k).
    assert (Rsum (map D (seq 0 L)) = Rsum (map (fun k => prob p k * f q k) (seq 0 L)) - Rsum (map (fun k => prob p k * f p k) (seq 0 L))) as ED.
    { unfold D. rewrite (Rsum_map_plus (fun k => prob p k * f q k - prob p k * f p k - prob p k) (prob q)).
      rewrite (Rsum_map_minus (fun k => prob p k * f q k - prob p k * f p k) (prob p)), Rsum_map_minus.
      rewrite prob_sum, Lp in Sp. rewrite prob_sum, Lq in Sq. lra. }
    assert (forall k, In k (seq 0 L) -> 0 <= D k /\ (D k = 0 -> prob q k = prob p k)) as DP.
    { intros k Hk. apply in_seq in Hk. unfold D, f. destruct (Req_EM_T (prob p k) 0) as [Z|N].
      - rewrite Z. pose proof (prob_nonneg q k). split; lra.
      - pose proof (prob_nonneg p k). apply gibbs_term; [lra|]. apply All; [lia|lra]. }
    pose proof (Rsum_map_nonneg D (seq 0 L) (fun k Hk => proj1 (DP k Hk))) as NN.
    split; [apply Rleb_spec; unfold prob in *; lra|]. intros E. injection E as E.
    apply rows_eq; auto; [lia|]. intros k Hk.
    assert (In k (seq 0 L)) as Ik by (apply in_seq; lia).
    apply DP; [exact Ik|]. apply (Rsum_zero D (seq 0 L)); auto; [intros; now apply DP|]. unfold prob in *. lra.
Qed.
