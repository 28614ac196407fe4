(** Property theorems C63-C71 about the losses, the probability floor and
    JustNoise of classification.py.

    Vocabulary (ClassProofs.v, ClassProofs2.v): [ok_row L row] is a row of [L]
    log probabilities (real or -inf), [dist L row] a normalised one, [prob row k]
    the probability it gives to label [k]; [risk p mat a] the expected loss of
    action [a]; [best_action n r a]: [a] is the first minimiser of [r] among
    [0..n-1]; [first_mode p a]: [a] is the first most probable label;
    [loss_of f row k] the loss [f] reports for the one-row prediction [row] when
    the label is [k]; [expected p loss] its expectation when the label is drawn
    from [p]. *)
From Coq Require Import Reals Lra Lia.
From Verif Require Import PyBase ListLemmas F64 Num NumOk Util UtilProofs BootUtil BootProofs5 PerfCurves PerfProofs4 CurveBoot
  MLPaper MLProofs2 MLProofs3 Classification ClassProofs ClassProofs2 ClassProofs3 ClassProofs4.
Open Scope R_scope.

(** ** C63 *)
Section C63.
  Context (sf ppf : Z -> R -> R).
  Notation decide := (@hard_loss_decision _ _ (fn_xr sf ppf)).

  Theorem C63_bayes_decision :
    forall m (mat : list (list R)) n_actions, Forall (ok_row (length mat)) m -> Forall (fun r => length r = n_actions) mat -> (1 <= n_actions)%nat ->
    exists acts, decide m (length mat) (map (map Fin) mat) n_actions = Ok acts /\
      Forall2 (fun row a => best_action n_actions (fun b => Rsum (map (fun y => prob row y * cellR mat y b) (seq 0 (length mat)))) a) m acts.
  Proof.
    intros m mat n F FM N. destruct (decide_exact sf ppf m mat n F N) as (acts & A & B). exists acts. split; [exact A|].
    clear A. induction B as [|row a m acts H B IH]; [constructor|]. inversion F as [|? ? (L & _) F']; subst. constructor; [|now apply IH].
    assert (forall b, risk (map pr row) mat b = Rsum (map (fun y => prob row y * cellR mat y b) (seq 0 (length mat)))) as E.
    { intros b. rewrite risk_sum by (now rewrite map_length). now rewrite map_length, L. }
    destruct H as (H1 & H2 & H3). split; [exact H1|]. split; intros b Hb; rewrite <- !E; auto.
  Qed.

  Theorem C63_zero_one_mode :
    forall m L, (1 <= L)%nat -> Forall (ok_row L) m ->
    exists acts, decide m L (zero_one L) L = Ok acts /\ Forall2 (fun row a => first_mode (map pr row) a) m acts.
  Proof.
    intros m L L1 F. rewrite zero_one_fin.
    pose proof (decide_exact sf ppf m (zero_one_R L) L) as D. rewrite zero_one_length in D.
    destruct (D F L1) as (acts & A & B). exists acts. split; [exact A|]. clear A D.
    induction B as [|row a m acts H B IH]; [constructor|]. inversion F as [|? ? (LR & _) F']; subst. constructor; [|now apply IH].
    apply best_zero_one. now rewrite map_length.
  Qed.
End C63.
Print Assumptions C63_bayes_decision.
Print Assumptions C63_zero_one_mode.

(** In any arithmetic, rounded or not, and for any exponential: the first
    minimiser of the computed expected losses. *)
Theorem C63_decision_any_arithmetic :
  forall (T : Type) (NT : num T) (OK : num_ok NT) (FT : fn T) m ncol (mat : list (list T)) n_actions acts,
  hard_loss_decision m ncol mat n_actions = Ok acts ->
  Forall2 (fun row a =>
    let e b := fold_left nadd (map2 (fun lp r => nmul (nexp lp) (nth b r n0)) row mat) n0 in
    (a < n_actions)%nat /\
    ((forall b, (b < n_actions)%nat -> nisnan (e b) = false) ->
     (forall b, (b < n_actions)%nat -> nleb (e a) (e b) = true) /\ (forall b, (b < a)%nat -> nltb (e a) (e b) = true))) m acts.
Proof.
  intros T NT OK FT m ncol mat n acts. unfold hard_loss_decision. destruct (negb (ncol =? length mat)%nat); [discriminate|].
  intros H. apply mapM_Forall2 in H. revert H. induction 1 as [|row a m acts H F IH]; constructor; [|exact IH]. clear IH F. cbv zeta.
  set (e := fun b => fold_left nadd (map2 (fun lp r => nmul (nexp lp) (nth b r n0)) row mat) n0).
  assert (expected_losses (map nexp row) mat n = map e (seq 0 n)) as E.
  { unfold expected_losses. apply map_ext. intros b. unfold e, nsum, column_of. f_equal. clear.
    revert mat. induction row as [|x row IH]; intros [|r mat]; try reflexivity. cbn [map map2]. f_equal. apply IH. }
  rewrite E in H. pose proof (argmin_lt _ _ H) as LT. rewrite map_length, seq_length in LT. split; [exact LT|]. intros NN.
  apply argmin_spec in H.
  2:{ apply Forall_forall. intros x Hx. apply in_map_iff in Hx as (b & <- & Hb). apply in_seq in Hb. apply NN. lia. }
  rewrite map_length, seq_length in H. destruct H as (_ & H2 & H3). split.
  - intros b Hb. specialize (H2 b Hb). now rewrite !nth_map_seq in H2 by lia.
  - intros b Hb. specialize (H3 b Hb). now rewrite !nth_map_seq in H3 by lia.
Qed.
Print Assumptions C63_decision_any_arithmetic.

(** With doubles the 0-1 decision need not be the most probable label: the
    second label below is strictly more probable than the first, yet the rounded
    expected losses tie and the first label is chosen, whatever exponential
    produced these probabilities. *)
Theorem C63_mode_in_doubles_refuted :
  exists p0 p1 p2 : f64, fltb p0 p1 = true /\ fltb p2 p0 = true /\ fleb f0 p2 = true /\ feqb (fadd (fadd p0 p1) p2) (f_of_Z 1) = true /\
  forall fexp flog sf ppf eig row, map fexp row = [p0; p1; p2] ->
  @hard_loss_decision f64 _ (fn_f64 fexp flog sf ppf eig) [row] 3 (zero_one 3) 3 = Ok [0%nat].
Proof.
  exists (f_lit 4 10), (fsucc (f_lit 4 10)), (f_lit 2 10).
  split; [vm_compute; reflexivity|]. split; [vm_compute; reflexivity|]. split; [vm_compute; reflexivity|]. split; [vm_compute; reflexivity|].
  intros fexp flog sf ppf eig row E.
  assert (argmin (expected_losses [f_lit 4 10; fsucc (f_lit 4 10); f_lit 2 10] (zero_one 3) 3) = Ok 0%nat) as A by (vm_compute; reflexivity).
  unfold hard_loss_decision. cbn [mapM]. change (map nexp row) with (map fexp row). rewrite E, A. reflexivity.
Qed.
Print Assumptions C63_mode_in_doubles_refuted.

(** two labels with probabilities 1/3 and 2/3 *)
Definition third_row : list xr := [Fin (ln (1 / 3)); Fin (ln (2 / 3))].
Lemma third_prob : map pr third_row = [1 / 3; 2 / 3].
Proof. cbn. now rewrite !exp_ln by lra. Qed.
Lemma third_dist : dist 2 third_row.
Proof. split; [split; [reflexivity|repeat constructor]|]. rewrite third_prob. cbn. lra. Qed.
(** a certain prediction of label 1 *)
Definition sure_row : list xr := [NInf; Fin 0].
Lemma sure_dist : dist 2 sure_row.
Proof. split; [split; [reflexivity|repeat constructor]|]. cbn. rewrite exp_0. lra. Qed.

Example C63_example :
  Forall (ok_row 2) [third_row; sure_row] /\ Forall (fun r => length r = 3%nat) [[0; 1; 5]; [1; 0; 5]] /\
  best_action 3 (fun b => Rsum (map (fun y => prob third_row y * cellR [[0; 1; 5]; [1; 0; 5]] y b) (seq 0 2))) 1.
Proof.
  split; [repeat constructor; first [apply third_dist|apply sure_dist]|]. split; [repeat constructor|].
  unfold prob. rewrite third_prob. unfold best_action, cellR. cbn. split; [lia|]. split.
  - intros [|[|[|b]]] Hb; try lia; cbn; lra.
  - intros [|b] Hb; [cbn; lra|lia].
Qed.

(** ** C64 *)
Section C64.
  Context (sf ppf : Z -> R -> R).
  Notation hard_loss_ := (@hard_loss _ _ (fn_xr sf ppf)).
  Definition hard_metric (mat : option (list (list xr) * nat)) : metric_fun xr := fun kd y m L => hard_loss_ kd y m L mat.

  Lemma hard_loss_unfold kd y m mat n : valid_y kd y (length m) (length mat) -> Forall (ok_row (length mat)) m -> (1 <= n)%nat ->
    exists acts, Forall2 (fun row a => best_action n (risk (map pr row) mat) a) m acts /\
      hard_loss_ kd y m (length mat) (Some (map (map Fin) mat, n)) = Ok (map2 (fun v a => Fin (cellR mat (Z.to_nat v) a)) y acts).
  Proof.
    intros V F N. destruct (decide_exact sf ppf m mat n F N) as (acts & A & B). exists acts. split; [exact B|].
    unfold hard_loss. rewrite (proj2 (validate_iff kd y m (length mat)) V). cbn [bind]. rewrite map_length, Nat.eqb_refl. cbn [py_assert bind].
    replace (1 <=? n)%nat with true by (symmetry; now apply Nat.leb_le). cbn [py_assert bind].
    change (@hard_loss_decision _ _ (fn_xr sf ppf) m (length mat) (map (map Fin) mat) n = Ok acts) in A. rewrite A. cbn [bind]. f_equal.
    clear. revert acts. induction y as [|v y IH]; intros [|a acts]; try reflexivity. cbn [map2]. f_equal; [|apply IH].
    unfold cellR. change (@nil xr) with (map Fin []). rewrite (map_nth (map Fin)). apply nth_Fin.
  Qed.
  Lemma hard_loss_default kd y m L : hard_loss_ kd y m L None = hard_loss_ kd y m L (Some (map (map Fin) (zero_one_R L), L)).
  Proof. unfold hard_loss. now rewrite zero_one_fin. Qed.

  (** every loss is the cell of the true label and the decided action *)
  Theorem C64_hard_loss_cells :
    forall kd y m (mat : list (list R)) n_actions, valid_y kd y (length m) (length mat) -> Forall (ok_row (length mat)) m ->
    Forall (fun r => length r = n_actions) mat -> (1 <= n_actions)%nat ->
    exists acts l, @hard_loss_decision _ _ (fn_xr sf ppf) m (length mat) (map (map Fin) mat) n_actions = Ok acts /\
      hard_loss_ kd y m (length mat) (Some (map (map Fin) mat, n_actions)) = Ok l /\ length l = length y /\
      forall i v a, nth_error y i = Some v -> nth_error acts i = Some a -> nth_error l i = Some (Fin (nth a (nth (Z.to_nat v) mat []) 0)).
  Proof.
    intros kd y m mat n V F FM N. destruct (hard_loss_unfold kd y m mat n V F N) as (acts & B & E).
    destruct (decide_exact sf ppf m mat n F N) as (acts' & A' & B').
    assert (acts' = acts) as ->.
    { clear -B B'. revert acts' B'. induction B as [|row a m acts H B IH]; intros acts' B'; inversion B' as [|? ? ? ? H' B'']; subst; [reflexivity|].
      f_equal; [eapply best_action_unique; eassumption|now apply IH]. }
    exists acts. eexists. split; [exact A'|]. split; [exact E|]. split.
    - rewrite map2_length. pose proof (Forall2_len _ _ _ B). destruct V as (_ & _ & LY & _). lia.
    - clear -y. intros i v a. revert acts i. induction y as [|v' y IH]; intros [|a' acts] [|i]; cbn; try discriminate.
      + intros E1 E2. injection E1 as ->. injection E2 as ->. reflexivity.
      + apply IH.
  Qed.

  (** default loss: 0 when the first most probable label is right, else 1 *)
  Theorem C64_zero_one :
    forall kd y m L, valid_y kd y (length m) L -> Forall (ok_row L) m ->
    exists acts l, Forall2 (fun row a => first_mode (map pr row) a) m acts /\ hard_loss_ kd y m L None = Ok l /\ length l = length y /\
      forall i v a, nth_error y i = Some v -> nth_error acts i = Some a -> nth_error l i = Some (Fin (if (v =? Z.of_nat a)%Z then 0 else 1)).
  Proof.
    intros kd y m L V F. rewrite hard_loss_default. pose proof V as (_ & L1 & LY & _ & FY).
    pose proof (hard_loss_unfold kd y m (zero_one_R L) L) as U. rewrite zero_one_length in U. destruct (U V F L1) as (acts & B & E). clear U.
    assert (Forall (fun a => (a < L)%nat) acts) as FA by (clear -B; induction B as [|? ? ? ? H]; constructor; [apply H|auto]).
    exists acts. eexists. split; [|split; [exact E|split]].
    - clear -B F. induction B as [|row a m acts H B IH]; [constructor|]. inversion F as [|? ? (LR & _) F']; subst. constructor; [|now apply IH].
      apply best_zero_one. now rewrite map_length.
    - rewrite map2_length. pose proof (Forall2_len _ _ _ B). lia.
    - clear E B LY V F. intros i v a. revert acts i FA. induction y as [|v' y IH]; intros [|a' acts] [|i] FA; cbn; try discriminate.
      + intros E1 E2. injection E1 as ->. injection E2 as ->. inversion FY; inversion FA; subst. rewrite zero_one_cell by lia. do 2 f_equal.
        destruct (Nat.eqb_spec (Z.to_nat v) a), (Z.eqb_spec v (Z.of_nat a)); try lia; reflexivity.
      + inversion FY; inversion FA; subst. now apply IH.
  Qed.

  Lemma loss_of_hard row mat n : ok_row (length mat) row -> (1 <= n)%nat ->
    exists a, best_action n (risk (map pr row) mat) a /\
    forall k, (k < length mat)%nat -> loss_of (hard_metric (Some (map (map Fin) mat, n))) row k = Fin (cellR mat k a).
  Proof.
    intros (L & F) N. destruct (decide_row sf ppf row mat n F N) as (a & _ & BA). exists a. split; [exact BA|].
    intros k Hk. unfold loss_of, hard_metric. rewrite L.
    destruct (hard_loss_unfold Ki [Z.of_nat k] [row] mat n) as (acts & B & E).
    - now apply valid1.
    - repeat constructor; auto.
    - exact N.
    - rewrite E. inversion B as [|? a' ? ? H B']; subst. inversion B'; subst. cbn. rewrite Nat2Z.id. f_equal.
      f_equal. eapply best_action_unique; eassumption.
  Qed.

  (** In expectation under the prediction no fixed action beats the decision,
      and no other prediction would give a smaller expected loss. *)
  Theorem C64_optimal_in_expectation :
    forall (mat : list (list R)) n_actions p, (1 <= length mat)%nat -> (1 <= n_actions)%nat -> dist (length mat) p ->
    exists e, expected (map pr p) (loss_of (hard_metric (Some (map (map Fin) mat, n_actions))) p) = Fin e /\
      (forall b, (b < n_actions)%nat -> e <= Rsum (map (fun y => prob p y * cellR mat y b) (seq 0 (length mat)))) /\
      (forall q, dist (length mat) q ->
        nleb (Fin e) (expected (map pr p) (loss_of (hard_metric (Some (map (map Fin) mat, n_actions))) q)) = true).
  Proof.
    intros mat n p L1 N Dp. pose proof Dp as ((Lp & Fp) & Sp).
    assert (forall b, risk (map pr p) mat b = Rsum (map (fun y => prob p y * cellR mat y b) (seq 0 (length mat)))) as ER.
    { intros b. rewrite risk_sum by (now rewrite map_length). now rewrite map_length, Lp. }
    assert (forall q, dist (length mat) q -> exists a, best_action n (risk (map pr q) mat) a /\
      expected (map pr p) (loss_of (hard_metric (Some (map (map Fin) mat, n))) q) = Fin (risk (map pr p) mat a)) as K.
    { intros q (Oq & Sq). destruct (loss_of_hard q mat n Oq N) as (a & BA & EA). exists a. split; [exact BA|].
      rewrite (expected_fin _ (fun k => cellR mat k a)).
      - rewrite ER. now rewrite map_length, Lp.
      - intros k. apply prob_nonneg.
      - rewrite map_length, Lp. intros k Hk _. now apply EA. }
    destruct (K p Dp) as (a & (A1 & A2 & _) & E). exists (risk (map pr p) mat a). split; [exact E|]. split.
    - intros b Hb. rewrite <- ER. now apply A2.
    - intros q Dq. destruct (K q Dq) as (b & (B1 & _) & ->). apply Rleb_spec. now apply A2.
  Qed.

  (** a wrong number of rows or no action at all is an error *)
  Theorem C64_bad_matrix :
    forall kd y m L (mat : list (list xr)) n, length mat <> L \/ n = 0%nat -> hard_loss_ kd y m L (Some (mat, n)) = Err AssertionError.
  Proof.
    intros kd y m L mat n H. unfold hard_loss. destruct (shape_and_validate kd y m L) eqn:V.
    - cbn [bind]. destruct (Nat.eqb_spec (length mat) L); cbn [py_assert bind]; [|reflexivity]. destruct H as [H| ->]; [lia|]. reflexivity.
    - cbn [bind]. revert V. unfold shape_and_validate.
      repeat (match goal with |- context [py_assert ?b] => destruct b end; cbn [py_assert bind]; [|congruence]). discriminate.
  Qed.
End C64.
Print Assumptions C64_hard_loss_cells.
Print Assumptions C64_zero_one.
Print Assumptions C64_optimal_in_expectation.
Print Assumptions C64_bad_matrix.

Example C64_example : valid_y Kb [1; 0]%Z 2 2 /\ Forall (ok_row 2) [third_row; sure_row] /\ first_mode (map pr third_row) 1.
Proof.
  split; [split; [lia|]; split; [lia|]; split; [reflexivity|]; split; [now left|repeat constructor; lia]|].
  split; [repeat constructor; first [apply third_dist|apply sure_dist]|]. rewrite third_prob.
  split; [cbn; lia|]. split.
  - intros [|[|b]] Hb; cbn in *; try lia; lra.
  - intros [|b] Hb; [cbn; lra|lia].
Qed.

(** ** C65 *)

(** -log of the probability of the true label, +inf when that is 0 *)
Theorem C65_log_loss_values :
  forall kd y m L, valid_y kd y (length m) L -> Forall (dist L) m ->
  exists l, log_loss kd y m L = Ok l /\ length l = length y /\
  forall i v row, nth_error y i = Some v -> nth_error m i = Some row ->
  exists x, nth_error l i = Some x /\ x = (if Req_EM_T (prob row (Z.to_nat v)) 0 then PInf else Fin (- ln (prob row (Z.to_nat v)))) /\
    nleb (Fin 0) x = true /\ (x = Fin 0 <-> prob row (Z.to_nat v) = 1) /\ (x = PInf <-> prob row (Z.to_nat v) = 0).
Proof.
  intros kd y m L V F. eexists. split; [apply log_loss_form; [exact V|]|split].
  - eapply Forall_impl; [|exact F]. intros r D. apply D.
  - rewrite map2_length. destruct V as (_ & _ & H & _). lia.
  - clear V. intros i v row. revert m F i. induction y as [|v' y IH]; intros [|r m] F [|i]; cbn; try discriminate.
    + intros E1 E2. injection E1 as ->. injection E2 as ->. inversion F; subst. eexists. split; [reflexivity|]. split; [reflexivity|].
      apply neg_log_range. split; [apply prob_nonneg|eapply prob_le1; eassumption].
    + inversion F; subst. now apply IH.
Qed.
Print Assumptions C65_log_loss_values.

Theorem C65_log_loss_strictly_proper : strictly_proper log_loss.
Proof. exact log_loss_proper. Qed.
Print Assumptions C65_log_loss_strictly_proper.

(** Invalid labels or shapes raise, in every loss function. *)
Theorem C65_validation :
  forall sf ppf kd y m L, ~ valid_y kd y (length m) L ->
  log_loss kd y m L = Err AssertionError /\ (forall r, spherical_loss r kd y m L = Err AssertionError) /\
  (forall r, @brier_loss _ _ (fn_xr sf ppf) r kd y m L = Err AssertionError) /\
  (forall mat, @hard_loss _ _ (fn_xr sf ppf) kd y m L mat = Err AssertionError).
Proof.
  intros sf ppf kd y m L V. pose proof (validate_err kd y m L V) as E.
  unfold log_loss, spherical_loss, brier_loss, hard_loss. rewrite E. auto.
Qed.
Print Assumptions C65_validation.

Example C65_example : dist 2 third_row /\ dist 2 sure_row /\ third_row <> sure_row /\
  loss_of log_loss sure_row 0 = PInf /\ loss_of log_loss sure_row 1 = Fin 0 /\ ~ valid_y Kf [0]%Z 1 2.
Proof.
  split; [exact third_dist|]. split; [exact sure_dist|]. split; [discriminate|].
  rewrite !loss_of_log by (first [apply sure_dist|cbn; lia]). unfold neg_log, prob. cbn. rewrite exp_0, ln_1.
  destruct (Req_EM_T 0 0) as [_|H]; [|contradiction]. destruct (Req_EM_T 1 0) as [H|_]; [lra|].
  split; [reflexivity|]. split; [f_equal; lra|]. intros (_ & _ & _ & [H|H] & _); discriminate.
Qed.

(** ** C66 *)
Section C66.
  Context (sf ppf : Z -> R -> R).
  Notation brier_ := (@brier_loss _ _ (fn_xr sf ppf)).

  (** (rescaled) squared distance of the prediction to the one-hot label *)
  Theorem C66_brier_values :
    forall rescale kd y m L, valid_y kd y (length m) L -> Forall (dist L) m ->
    let scale := if rescale && (1 <? L)%nat then INR L / (INR L - 1) else 1 in
    exists l, brier_ rescale kd y m L = Ok l /\ length l = length y /\
    forall i v row, nth_error y i = Some v -> nth_error m i = Some row ->
    exists x, nth_error l i = Some (Fin x) /\
      x = scale * Rsum (map (fun k => (prob row k - if (k =? Z.to_nat v)%nat then 1 else 0) ^ 2) (seq 0 L)) /\
      0 <= x <= scale * 2 /\ (x = 0 <-> prob row (Z.to_nat v) = 1) /\
      ((forall k, (k < L)%nat -> prob row k = 1 / INR L) -> x = scale * (1 - 1 / INR L)).
  Proof.
    intros rescale kd y m L V F scale. change scale with (bscale rescale L). pose proof (bscale_pos rescale L) as BP.
    eexists. split; [apply brier_form; [exact V|]|split].
    - eapply Forall_impl; [|exact F]. intros r D. apply D.
    - rewrite map2_length. destruct V as (_ & _ & H & _). lia.
    - destruct V as (_ & _ & _ & _ & FY). intros i v row. revert m F i. induction y as [|v' y IH]; intros [|r m] F [|i]; cbn; try discriminate.
      + intros E1 E2. injection E1 as ->. injection E2 as ->. inversion F as [|? ? D]; subst. inversion FY; subst. eexists. split; [reflexivity|].
        pose proof D as ((LR & FR) & SR). split; [|split; [|split]].
        * f_equal. unfold brier_R. rewrite LR. apply Rsum_map_ext. intros k _. unfold ind. destruct (k =? Z.to_nat v)%nat; ring.
        * pose proof (brier_range L row (Z.to_nat v) D ltac:(lia)). split; [apply Rmult_le_pos; lra|apply Rmult_le_compat_l; lra].
        * rewrite <- (brier_zero_iff L row (Z.to_nat v) D) by lia. split; [|intros ->; ring].
          intros E. apply Rmult_integral in E. lra.
        * intros U. rewrite (brier_uniform L) by (auto; lia). reflexivity.
      + inversion F; inversion FY; subst. now apply IH.
  Qed.

  (** so the rescaled loss of the uniform prediction is 1 *)
  Theorem C66_brier_uniform_is_one :
    forall row L k, (2 <= L)%nat -> ok_row L row -> (forall k, (k < L)%nat -> prob row k = 1 / INR L) -> (k < L)%nat ->
    loss_of (brier_ true) row k = Fin 1.
  Proof.
    intros row L k L2 (LR & FR) U Hk. rewrite loss_of_brier by (auto; lia). f_equal. rewrite (brier_uniform L) by auto. rewrite LR.
    unfold bscale. replace (1 <? L)%nat with true by (symmetry; apply Nat.ltb_lt; lia). cbn [andb].
    assert (1 < INR L) by (apply (lt_INR 1); lia). field. lra.
  Qed.

  Theorem C66_brier_strictly_proper : forall rescale, strictly_proper (brier_ rescale).
  Proof. intros r. apply brier_proper. Qed.
End C66.
Print Assumptions C66_brier_values.
Print Assumptions C66_brier_uniform_is_one.
Print Assumptions C66_brier_strictly_proper.

Definition uniform_row (L : nat) : list xr := repeat (Fin (ln (1 / INR L))) L.
Lemma uniform_ok L : (1 <= L)%nat -> ok_row L (uniform_row L) /\ forall k, (k < L)%nat -> prob (uniform_row L) k = 1 / INR L.
Proof.
  intros L1. unfold uniform_row. split; [split; [apply repeat_length|]|].
  - apply Forall_forall. intros x Hx. apply repeat_spec in Hx. subst x. exact I.
  - intros k Hk. rewrite prob_pr. rewrite (nth_indep _ NaN (Fin (ln (1 / INR L)))) by (now rewrite repeat_length).
    rewrite nth_repeat. cbn. apply exp_ln. apply Rdiv_lt_0_compat; [lra|]. apply lt_0_INR. lia.
Qed.
Example C66_example : valid_y Ki [1; 0]%Z 2 2 /\ Forall (dist 2) [third_row; sure_row] /\
  ok_row 3 (uniform_row 3) /\ (forall k, (k < 3)%nat -> prob (uniform_row 3) k = 1 / INR 3).
Proof.
  split; [split; [lia|]; split; [lia|]; split; [reflexivity|]; split; [now right|repeat constructor; lia]|].
  split; [repeat constructor; first [apply third_dist|apply sure_dist]|]. apply uniform_ok. lia.
Qed.

(** ** C67 *)
Theorem C67_spherical_values :
  forall kd y m L, valid_y kd y (length m) L -> Forall (fun row => ok_row L row /\ Exists is_fin row) m ->
  let c := if (1 <? L)%nat then 1 - 1 / sqrt (INR L) else 1 in
  exists l l', spherical_loss false kd y m L = Ok l /\ spherical_loss true kd y m L = Ok l' /\ length l = length y /\ length l' = length y /\
  forall i v row, nth_error y i = Some v -> nth_error m i = Some row ->
  exists x, x = prob row (Z.to_nat v) / sqrt (Rsum (map (fun k => prob row k ^ 2) (seq 0 L))) /\ 0 <= x <= 1 /\
    nth_error l i = Some (Fin (- x)) /\ nth_error l' i = Some (Fin ((1 - x) / c)) /\ 0 <= (1 - x) / c <= 1 / c /\
    ((1 - x) / c = 0 <-> forall k, (k < L)%nat -> k <> Z.to_nat v -> prob row k = 0) /\
    ((2 <= L)%nat -> (forall k, (k < L)%nat -> prob row k = 1 / INR L) -> (1 - x) / c = 1).
Proof.
  intros kd y m L V F c. change c with (sscale L). pose proof (sscale_pos L) as SP.
  eexists. eexists. split; [now apply sphere_form|]. split; [now apply sphere_form|]. rewrite !map2_length.
  pose proof V as (_ & L1 & LY & _ & FY). split; [lia|]. split; [lia|]. clear V LY.
  intros i v row. revert m F i. induction y as [|v' y IH]; intros [|r m] F [|i]; cbn [nth_error map2]; try discriminate.
  - intros E1 E2. injection E1 as ->. injection E2 as ->. inversion F as [|? ? ((LR & FR) & ER)]; subst. inversion FY as [|? ? Hv _]; subst.
    exists (- sphere_R row (Z.to_nat v)). pose proof (sphere_range row (Z.to_nat v) FR ER ltac:(lia)) as SR.
    set (s := sphere_R row (Z.to_nat v)) in *.
    assert (0 < / sscale (length row)) as IP by (now apply Rinv_0_lt_compat).
    assert ((1 - - s) / sscale (length row) = (1 + s) / sscale (length row)) as E by (f_equal; lra).
    split; [|split; [lra|split; [|split; [|split; [|split]]]]].
    + unfold s, sphere_R, norm, norm2. rewrite Ropp_involutive. do 2 f_equal. apply Rsum_map_ext. intros k _. ring.
    + do 2 f_equal. lra.
    + now rewrite E.
    + unfold Rdiv. split; [apply Rmult_le_pos; lra|]. apply Rmult_le_compat_r; lra.
    + rewrite <- (sphere_perfect (length row) row (Z.to_nat v)) by (first [lia|now split|assumption]). fold s. split.
      * intros G. apply Rmult_integral in G. lra.
      * intros ->. unfold Rdiv. replace (1 - - -1) with 0 by lra. ring.
    + intros L2 U. unfold s. rewrite (sphere_uniform (length row)) by (first [lia|now split|assumption]). unfold sscale in *.
      replace (1 <? length row)%nat with true in * by (symmetry; apply Nat.ltb_lt; lia). field.
      assert (0 < sqrt (INR (length row))) as SQ by (apply sqrt_lt_R0, lt_0_INR; lia). split; [lra|].
      intros Z. apply (f_equal (fun t => t / sqrt (INR (length row)))) in Z. replace ((sqrt (INR (length row)) - 1) / sqrt (INR (length row))) with (1 - 1 / sqrt (INR (length row))) in Z by (field; lra).
      unfold Rdiv in Z. lra.
  - inversion F; inversion FY; subst. now apply IH.
Qed.
Print Assumptions C67_spherical_values.

Theorem C67_spherical_strictly_proper : forall rescale, strictly_proper (spherical_loss rescale).
Proof. intros r. apply sphere_proper. Qed.
Print Assumptions C67_spherical_strictly_proper.

(** Adding any constant to the log probabilities changes nothing. *)
Theorem C67_spherical_ignores_normalisation :
  forall rescale kd y m L offsets, valid_y kd y (length m) L -> Forall (fun row => ok_row L row /\ Exists is_fin row) m -> length offsets = length m ->
  spherical_loss rescale kd y (map2 (fun c row => map (nadd (Fin c)) row) offsets m) L = spherical_loss rescale kd y m L.
Proof.
  intros r kd y m L off V F LO.
  assert (forall c row, ok_row L row -> ok_row L (map (nadd (Fin c)) row)) as K1.
  { intros c row (H1 & H2). split; [now rewrite map_length|]. apply Forall_forall. intros x Hx. apply in_map_iff in Hx as (a & <- & Ha).
    rewrite Forall_forall in H2. specialize (H2 a Ha). destruct a; cbn in *; try contradiction; exact I. }
  assert (forall c row, Exists is_fin row -> Exists is_fin (map (nadd (Fin c)) row)) as K2.
  { intros c row H. apply Exists_exists in H as (a & Ha & E). apply Exists_exists. exists (nadd (Fin c) a). split; [now apply in_map|].
    destruct a; cbn in *; try contradiction; exact I. }
  assert (length (map2 (fun c row => map (nadd (Fin c)) row) off m) = length m) as LM by (rewrite map2_length; lia).
  assert (Forall (fun row => ok_row L row /\ Exists is_fin row) (map2 (fun c row => map (nadd (Fin c)) row) off m)) as F'.
  { clear -F K1 K2. revert off. induction F as [|row m (H1 & H2) F IH]; intros [|c off]; cbn [map2]; constructor; auto. }
  rewrite !sphere_form; [|exact V|exact F|now rewrite LM|exact F']. f_equal. clear V F' LM.
  revert y off LO. induction F as [|row m ((_ & H1) & H2) F IH]; intros [|v y] [|c off] LO; try discriminate; try reflexivity.
  cbn [map2]. rewrite sphere_offset by assumption. f_equal. apply IH. now injection LO.
Qed.
Print Assumptions C67_spherical_ignores_normalisation.

Example C67_example : valid_y Ki [1; 0]%Z 2 2 /\ Forall (fun row => ok_row 2 row /\ Exists is_fin row) [third_row; sure_row] /\
  loss_of (spherical_loss true) sure_row 1 = Fin 0.
Proof.
  split; [split; [lia|]; split; [lia|]; split; [reflexivity|]; split; [now right|repeat constructor; lia]|].
  split.
  - constructor; [split; [apply third_dist|now constructor]|]. constructor; [split; [apply sure_dist|now constructor 2; constructor]|constructor].
  - rewrite loss_of_sphere by (first [apply sure_dist|cbn; lia|now constructor 2; constructor]). f_equal.
    unfold sphere_R, norm, norm2, prob. cbn. rewrite exp_0. replace (0 * 0 + (1 * 1 + 0)) with 1 by ring. rewrite sqrt_1.
    unfold Rdiv. rewrite Rinv_1. ring.
Qed.
