(** JustNoise, probability floor, row offsets *)
From Coq Require Import Reals Lra Lia.
From Verif Require Import PyBase ListLemmas F64 Num NumOk Util UtilProofs BootUtil BootProofs5 PerfCurves PerfProofs4 CurveBoot
  MLPaper MLProofs2 MLProofs3 Classification ClassProofs ClassProofs2 ClassProofs3.
Open Scope R_scope.

(** number of training points with label [k] *)
Definition count (k : nat) (y : list Z) : nat := length (filter (fun v => (v =? Z.of_nat k)%Z) y).

Lemma count_cons k v y : count k (v :: y) = ((if (v =? Z.of_nat k)%Z then 1 else 0) + count k y)%nat.
Proof. unfold count. cbn [filter]. destruct (v =? Z.of_nat k)%Z; reflexivity. Qed.

(** a sum over the training points, grouped by label *)
Lemma sum_by_label (f : nat -> R) L y : Forall (fun v => (0 <= v < Z.of_nat L)%Z) y ->
  Rsum (map (fun v => f (Z.to_nat v)) y) = Rsum (map (fun k => INR (count k y) * f k) (seq 0 L)).
Proof.
  induction 1 as [|v y Hv Hy IH].
  - cbn [map]. rewrite (Rsum_map_ext _ (fun _ => 0)), Rsum_map_zero; [reflexivity|]. intros. cbn. ring.
  - cbn [map]. rewrite Rsum_cons, IH. rewrite <- (Rsum_delta f L (Z.to_nat v)) by lia. rewrite <- Rsum_map_plus.
    apply Rsum_map_ext. intros k _. rewrite count_cons, plus_INR.
    destruct (Nat.eqb_spec k (Z.to_nat v)) as [->|N].
    + replace (v =? Z.of_nat (Z.to_nat v))%Z with true by (symmetry; apply Z.eqb_eq; lia). cbn. ring.
    + replace (v =? Z.of_nat k)%Z with false by (symmetry; apply Z.eqb_neq; lia). cbn. ring.
Qed.
Lemma count_total L y : Forall (fun v => (0 <= v < Z.of_nat L)%Z) y -> Rsum (map (fun k => INR (count k y)) (seq 0 L)) = INR (length y).
Proof.
  intros F. rewrite (Rsum_map_ext _ (fun k => INR (count k y) * 1)) by (intros; ring).
  rewrite <- (sum_by_label (fun _ => 1)) by exact F.
  clear. induction y as [|v y IH]; [reflexivity|]. cbn [map length]. rewrite Rsum_cons, IH, S_INR. ring.
Qed.

Definition freq (a : R) (L : nat) (y : list Z) (k : nat) : R := (INR (count k y) + a) / (INR (length y) + INR L * a).

Section Exact.
  Context (sf ppf : Z -> R -> R).
  Local Instance FX4 : fn xr := fn_xr sf ppf.

  Lemma noise_form L a y : (1 <= L)%nat -> Forall (fun v => (0 <= v < Z.of_nat L)%Z) y -> 0 < INR (length y) + INR L * a ->
    noise_fit L (Fin a) Ki y = Ok (map (fun k => xlog (Fin (freq a L y k))) (seq 0 L)).
  Proof.
    intros L1 F P. unfold noise_fit. rewrite one_hot_ok, Nat2Z.id.
    replace (1 <=? Z.of_nat L)%Z with true by (symmetry; apply Z.leb_le; lia). cbn [andb dkind_eqb].
    replace (forallb _ y) with true.
    2:{ symmetry. apply forallb_forall. intros v Hv.
        rewrite Forall_forall in F. specialize (F v Hv). apply Bool.andb_true_iff. rewrite Z.leb_le, Z.ltb_lt. lia. }
    cbn [bind]. f_equal. rewrite map_map. apply map_ext_in. intros k Hk. apply in_seq in Hk.
    assert (nsum (map (fun row => if nth k row false then n1 else n0) (map (fun v => set_true (repeat false L) (Z.to_nat v)) y)) = Fin (INR (count k y))) as ->.
    { rewrite map_map.
      assert (map (fun v => if nth k (set_true (repeat false L) (Z.to_nat v)) false then n1 else n0) y =
        map Fin (map (fun v => if (v =? Z.of_nat k)%Z then 1 else 0) y)) as ->.
      { rewrite map_map. apply map_ext_in. intros v Hv. rewrite Forall_forall in F. specialize (F v Hv).
        assert (nth k (set_true (repeat false L) (Z.to_nat v)) false = (v =? Z.of_nat k)%Z) as ->.
        { rewrite (nth_error_nth _ _ _ (set_true_nth L (Z.to_nat v) k ltac:(lia))).
          apply eq_true_iff_eq. rewrite Nat.eqb_eq, Z.eqb_eq. lia. }
        destruct (v =? Z.of_nat k)%Z; reflexivity. }
      rewrite nsum_fin. f_equal. clear. induction y as [|v y IH]; [reflexivity|].
      cbn [map]. rewrite Rsum_cons, IH, count_cons, plus_INR. destruct (v =? Z.of_nat k)%Z; reflexivity. }
    cbn [nadd nmul nofZ ndiv nlog FX4 fn_xr xr_num xadd xmul]. rewrite <- !INR_IZR_INZ.
    rewrite xdiv_fin by lra. unfold freq. do 3 f_equal. lra.
  Qed.

  Lemma xlog_pr x : 0 <= x -> logp (xlog (Fin x)) /\ pr (xlog (Fin x)) = x.
  Proof.
    intros H. cbn. destruct (Rltb 0 x) eqn:E.
    - apply Rltb_spec in E. split; [exact I|]. now apply exp_ln.
    - apply Rltb_false in E. replace x with 0 by lra. replace (Reqb 0 0) with true by (symmetry; now apply Reqb_spec). split; [exact I|reflexivity].
  Qed.

  Lemma noise_dist L a y pred : (1 <= L)%nat -> 0 <= a -> Forall (fun v => (0 <= v < Z.of_nat L)%Z) y -> 0 < INR (length y) + INR L * a ->
    noise_fit L (Fin a) Ki y = Ok pred -> dist L pred /\ (forall k, (k < L)%nat -> prob pred k = freq a L y k).
  Proof.
    intros L1 A F P H. rewrite noise_form in H by auto. apply Ok_inj in H. subst pred.
    assert (forall k, 0 <= freq a L y k) as FP.
    { intros k. unfold freq. apply Rmult_le_pos; [pose proof (pos_INR (count k y)); lra|]. left. now apply Rinv_0_lt_compat. }
    assert (map pr (map (fun k => xlog (Fin (freq a L y k))) (seq 0 L)) = map (freq a L y) (seq 0 L)) as E.
    { rewrite map_map. apply map_ext. intros k. apply xlog_pr, FP. }
    split; [split|].
    - split; [now rewrite map_length, seq_length|]. apply Forall_forall. intros x Hx. apply in_map_iff in Hx as (k & <- & _). apply xlog_pr, FP.
    - rewrite E. unfold freq.
      rewrite (Rsum_map_ext _ (fun k => / (INR (length y) + INR L * a) * (INR (count k y) + a))) by (intros; unfold Rdiv; ring).
      rewrite Rsum_map_mult, Rsum_map_plus, count_total by exact F.
      assert (Rsum (map (fun _ : nat => a) (seq 0 L)) = INR L * a) as ->.
      { generalize 0%nat. clear. induction L as [|L IH]; intros s; [cbn; ring|]. cbn [seq map]. rewrite Rsum_cons, IH, S_INR. ring. }
      field. lra.
    - intros k Hk. unfold prob. rewrite E. apply (nth_map_seq (freq a L y)). exact Hk.
  Qed.

  (** mean training loss of a constant prediction *)
  Lemma mean_log_loss L y q pred : (1 <= L)%nat -> y <> [] -> Forall (fun v => (0 <= v < Z.of_nat L)%Z) y -> ok_row L q ->
    noise_fit L (Fin 0) Ki y = Ok pred ->
    exists l, log_loss Ki y (noise_predict q (length y)) L = Ok l /\ nmean l = expected (map pr pred) (loss_of log_loss q).
  Proof.
    intros L1 NE F (Lq & Fq) NP.
    assert (0 < INR (length y)) as PY by (apply lt_0_INR; destruct y; [congruence|cbn; lia]).
    destruct (noise_dist L 0 y pred L1 (Rle_refl 0) F ltac:(lra) NP) as (Dp & Fr).
    assert (valid_y Ki y (length (noise_predict q (length y))) L) as V.
    { unfold noise_predict. rewrite repeat_length. repeat split; auto; destruct y; try congruence; cbn; lia. }
    rewrite log_loss_form; [|exact V|].
    2:{ unfold noise_predict. apply Forall_forall. intros x Hx. apply repeat_spec in Hx. subst x. now split. }
    eexists. split; [reflexivity|].
    assert (map2 (fun v row => neg_log (prob row (Z.to_nat v))) y (noise_predict q (length y)) = map (fun v => neg_log (prob q (Z.to_nat v))) y) as ->.
    { clear. unfold noise_predict. induction y as [|v y IH]; [reflexivity|]. cbn [length repeat map2 map]. f_equal. exact IH. }
    set (l := map (fun v => neg_log (prob q (Z.to_nat v))) y).
    assert (existsb nisnan l = false) as NN.
    { apply Bool.not_true_is_false. intros H. apply existsb_exists in H as (x & Hx & N). apply in_map_iff in Hx as (v & <- & _).
      revert N. unfold neg_log. destruct (Req_EM_T _ _); discriminate. }
    assert (hasN l = false) as HN.
    { apply Bool.not_true_is_false. intros H. apply hasN_in, in_map_iff in H as (v & E & _).
      revert E. unfold neg_log. destruct (Req_EM_T _ _); discriminate. }
    assert (length pred = L) as LP by apply Dp.
    assert (forall k, nth k (map pr pred) 0 = prob pred k) as Pk by reflexivity.
    assert (forall k, (k < L)%nat -> (0 < prob pred k <-> In (Z.of_nat k) y)) as Pos.
    { intros k Hk. rewrite Fr by exact Hk. unfold freq. split.
      - intros P. destruct (count k y) eqn:C; [change (INR 0) with 0 in P; unfold Rdiv in P; rewrite Rplus_0_l, Rmult_0_l in P; lra|].
        unfold count in C. destruct (filter (fun v => (v =? Z.of_nat k)%Z) y) as [|z r] eqn:EF; [discriminate|].
        assert (In z (filter (fun v => (v =? Z.of_nat k)%Z) y)) as I by (rewrite EF; now left).
        apply filter_In in I as (I & E). apply Z.eqb_eq in E. now subst.
      - intros I. assert (0 < count k y)%nat as C.
        { unfold count. assert (In (Z.of_nat k) (filter (fun v => (v =? Z.of_nat k)%Z) y)) as I2 by (apply filter_In; split; [exact I|apply Z.eqb_refl]).
          destruct (filter (fun v => (v =? Z.of_nat k)%Z) y); [contradiction|cbn; lia]. }
        apply lt_0_INR in C. apply Rdiv_lt_0_compat; lra. }
    assert (l <> []) as LNE by (unfold l; destruct y; [congruence|discriminate]).
    rewrite nmean_cases by auto. rewrite HN.
    destruct (hasP l) eqn:HP.
    - apply hasP_in, in_map_iff in HP as (v & E & Iv).
      pose proof (proj1 (Forall_forall _ _) F v Iv) as Hv. cbv beta in Hv.
      symmetry. apply (expected_inf _ _ (Z.to_nat v)).
      + rewrite map_length, LP. lia.
      + rewrite Pk. apply Pos; [lia|]. now rewrite Z2Nat.id by lia.
      + rewrite loss_of_log by (auto; lia). exact E.
      + rewrite map_length, LP. intros j Hj _. rewrite loss_of_log by (auto; lia). unfold neg_log. destruct (Req_EM_T _ _); eauto.
    - assert (forall v, In v y -> neg_log (prob q (Z.to_nat v)) = Fin (- ln (prob q (Z.to_nat v)))) as FV.
      { intros v Iv. unfold neg_log. destruct (Req_EM_T (prob q (Z.to_nat v)) 0) as [E|]; [|reflexivity].
        exfalso. assert (hasP l = true) as HP'; [|congruence]. apply hasP_in, in_map_iff. exists v. split; [|exact Iv].
        unfold neg_log. destruct (Req_EM_T _ _); [reflexivity|contradiction]. }
      rewrite (expected_fin _ (fun k => - ln (prob q k))).
      + f_equal. rewrite map_length, LP. unfold rmean. unfold l. rewrite !map_map, map_length.
        rewrite (Rsum_map_ext _ (fun v => - ln (prob q (Z.to_nat v)))) by (intros v Iv; now rewrite FV).
        rewrite (sum_by_label (fun k => - ln (prob q k)) L) by exact F.
        rewrite (Rsum_map_ext (fun k => nth k (map pr pred) 0 * - ln (prob q k)) (fun k => / INR (length y) * (INR (count k y) * - ln (prob q k)))).
        * rewrite Rsum_map_mult. unfold Rdiv. ring.
        * intros k Hk. apply in_seq in Hk. rewrite Pk, Fr by lia. unfold freq. rewrite Rmult_0_r, !Rplus_0_r. unfold Rdiv. ring.
      + intros k. apply prob_nonneg.
      + rewrite map_length, LP. intros k Hk P. rewrite loss_of_log by (auto; lia). apply Pos in P; [|exact Hk].
        specialize (FV _ P). now rewrite Nat2Z.id in FV.
  Qed.
End Exact.

(** ** The floor of get_pred_log_prob *)
(** log probability raised to the floor [m] *)
Definition raised (m : R) (a : xr) : R := match a with Fin x => Rmax m x | _ => m end.
Definition mass (m : R) (row : list xr) : R := Rsum (map (fun a => exp (raised m a)) row).

Lemma nmax_raised m a : logp a -> nmax (Fin m) a = Fin (raised m a).
Proof.
  destruct a as [x| | |]; cbn; intros H; try contradiction; [|reflexivity].
  unfold nmax. cbn. rewrite Bool.orb_false_r. destruct (Rleb x m) eqn:E.
  - apply Rleb_spec in E. now rewrite Rmax_left.
  - apply Rleb_false in E. rewrite Rmax_right by lra. reflexivity.
Qed.

Lemma floor_form m row : row <> [] -> Forall logp row ->
  normalize_row (map (nmax (Fin m)) row) = map (fun a => Fin (raised m a - ln (mass m row))) row.
Proof.
  intros NE F.
  assert (map (nmax (Fin m)) row = map (fun a => Fin (raised m a)) row) as ->.
  { apply map_ext_Forall. eapply Forall_impl; [|exact F]. intros a. apply nmax_raised. }
  rewrite normalize_row_spec.
  - rewrite !map_map. reflexivity.
  - apply Forall_forall. intros x Hx. apply in_map_iff in Hx as (a & <- & _). exact I.
  - destruct row; [congruence|]. now constructor.
Qed.
Lemma mass_pos m row : row <> [] -> 0 < mass m row.
Proof.
  intros NE. destruct row as [|a row]; [congruence|]. unfold mass. cbn [map]. rewrite Rsum_cons.
  pose proof (exp_pos (raised m a)). assert (0 <= Rsum (map (fun a => exp (raised m a)) row)); [|lra].
  apply Rsum_map_nonneg. intros. left. apply exp_pos.
Qed.
Lemma exp_raised m a : pr a <= exp (raised m a) <= pr a + exp m.
Proof.
  pose proof (exp_pos m). destruct a as [x| | |]; cbn; try lra. pose proof (exp_pos x).
  unfold Rmax. destruct (Rle_dec m x) as [H1|H1]; [lra|].
  assert (exp x < exp m) by (apply exp_increasing; lra). lra.
Qed.
Lemma mass_bounds m row : Rsum (map pr row) <= mass m row <= Rsum (map pr row) + INR (length row) * exp m.
Proof.
  unfold mass. induction row as [|a row IH]; cbn [map length]; [cbn; lra|].
  rewrite !Rsum_cons, S_INR. pose proof (exp_raised m a). lra.
Qed.
Lemma raised_mono m a b : logp a -> logp b -> nleb a b = true -> raised m a <= raised m b.
Proof.
  destruct a as [x| | |], b as [z| | |]; cbn; intros A B H; try contradiction; try discriminate; try lra.
  - apply Rleb_spec in H. apply Rle_max_compat_l. exact H.
  - apply Rmax_l.
Qed.
Lemma raised_ge m a : m <= raised m a.
Proof. destruct a; cbn; try lra. apply Rmax_l. Qed.
Lemma raised_id m a : nleb (Fin m) a = true -> logp a -> Fin (raised m a) = a.
Proof. destruct a as [x| | |]; cbn; intros H L; try contradiction; try discriminate. apply Rleb_spec in H. now rewrite Rmax_right. Qed.
Lemma raised_low m a : logp a -> nleb a (Fin m) = true -> raised m a = m.
Proof. destruct a as [x| | |]; cbn; intros L H; try contradiction; auto. apply Rleb_spec in H. now rewrite Rmax_left. Qed.
(** strictly more than 1 as soon as some entry was raised *)
Lemma mass_strict m row : Forall logp row -> Exists (fun a => nltb a (Fin m) = true) row -> Rsum (map pr row) < mass m row.
Proof.
  intros F E. unfold mass. induction E as [a row Ea|a row E IH]; inversion F; subst; cbn [map]; rewrite !Rsum_cons.
  - pose proof (proj1 (mass_bounds m row)) as B. unfold mass in B. assert (pr a < exp (raised m a)); [|lra].
    destruct a as [x| | |]; cbn in *; try contradiction; [|apply exp_pos].
    apply Rltb_spec in Ea. apply exp_increasing. rewrite Rmax_left; lra.
  - specialize (IH H2). pose proof (exp_raised m a). lra.
Qed.
Lemma mass_same m row : Forall logp row -> Forall (fun a => nleb (Fin m) a = true) row -> mass m row = Rsum (map pr row).
Proof.
  intros F G. unfold mass. f_equal. apply map_ext_in. intros a Ha. rewrite Forall_forall in F, G.
  specialize (F a Ha). specialize (G a Ha). destruct a as [x| | |]; cbn in *; try contradiction; try discriminate.
  apply Rleb_spec in G. now rewrite Rmax_right.
Qed.

(** without a floor (-inf) only the normalisation is left *)
Lemma no_floor row : Forall logp row -> map (nmax NInf) row = row.
Proof.
  intros F. rewrite <- (map_id row) at 2. apply map_ext_Forall. eapply Forall_impl; [|exact F].
  intros [x| | |]; cbn; intros; try contradiction; reflexivity.
Qed.
