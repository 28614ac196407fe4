(** Property theorems C68-C71: renormalisation in loss_table, the probability
    floor of get_pred_log_prob and JustNoise (classification.py).  Vocabulary as
    in Props_Classification.v. *)
From Coq Require Import Reals Lra Lia.
From Verif Require Import PyBase ListLemmas F64 Num NumOk Util UtilProofs BootUtil BootProofs5 PerfCurves PerfProofs4 CurveBoot
  MLPaper MLProofs2 MLProofs3 Classification ClassProofs ClassProofs2 ClassProofs3 ClassProofs4
  Checkpoint CheckpointProofs Regression Benchmark ClassProofs5 Props_Classification.
Open Scope R_scope.

(** ** C68 *)

(** add [c] to every log probability of a row *)
Definition offset_row (c : R) (row : list xr) : list xr := map (nadd (Fin c)) row.
(** another table with the same methods and columns, every row offset *)
Definition offset_of (m m' : pystr * (list Z * list (list xr))) : Prop :=
  fst m' = fst m /\ fst (snd m') = fst (snd m) /\ Forall2 (fun row row' => exists c, row' = offset_row c row) (snd (snd m)) (snd (snd m')).

Theorem C68_offset_invariant :
  forall tbl tbl' kd y (metrics : dict (metric_fun xr)),
  pt_len tbl' = pt_len tbl -> pt_labels tbl' = pt_labels tbl -> Forall2 offset_of (pt_methods tbl) (pt_methods tbl') ->
  (forall name cols rows, In (name, (cols, rows)) (pt_methods tbl) -> Forall (fun row => Forall logp row /\ Exists is_fin row) rows) ->
  loss_table normalize tbl' kd y metrics false = loss_table normalize tbl kd y metrics false.
Proof.
  intros tbl tbl' kd y md EL EB F LP. unfold loss_table. rewrite EL, EB, <- (Forall2_len _ _ _ F).
  assert (map fst (pt_methods tbl') = map fst (pt_methods tbl)) as EM.
  { clear LP. induction F as [|m m' l l' (H & _) F IH]; cbn [map]; congruence. }
  assert (mapM (method_losses normalize tbl' kd y md false) (pt_methods tbl') = mapM (method_losses normalize tbl kd y md false) (pt_methods tbl)) as E.
  { clear EM. induction F as [|(n1, (c1, r1)) (n2, (c2, r2)) l l' (H1 & H2 & H3) F IH]; cbn [mapM]; [reflexivity|]. cbn [fst snd] in *. subst n2 c2.
    rewrite IH by (intros; eapply LP; right; eassumption). f_equal. specialize (LP n1 c1 r1 (or_introl eq_refl)). clear IH F.
    unfold method_losses. rewrite EL, EB, <- (Forall2_len _ _ _ H3).
    assert (forallb (fun r => (length r =? length (pt_labels tbl))%nat) r2 = forallb (fun r => (length r =? length (pt_labels tbl))%nat) r1) as ->.
    { clear LP. induction H3 as [|row row' r1 r2 (c & ->) H3 IH]; [reflexivity|]. cbn [forallb]. rewrite IH. f_equal. unfold offset_row. now rewrite map_length. }
    assert (existsb (existsb nisnan) r2 = existsb (existsb nisnan) r1) as ->.
    { clear LP. induction H3 as [|row row' r1 r2 (c & ->) H3 IH]; [reflexivity|]. cbn [existsb]. rewrite IH. f_equal.
      unfold offset_row. clear. induction row as [|a row IH]; [reflexivity|]. cbn [map existsb]. rewrite IH. f_equal. now destruct a. }
    assert (normalize (length (pt_labels tbl)) r2 = normalize (length (pt_labels tbl)) r1) as ->; [|reflexivity].
    unfold normalize. destruct (1 <=? Z.of_nat (length (pt_labels tbl)))%Z; [|reflexivity]. cbn [py_assert bind]. f_equal.
    induction H3 as [|row row' r1 r2 (c & ->) H3 IH]; [reflexivity|]. inversion LP as [|? ? (L1 & L2) LP']; subst. cbn [map].
    rewrite IH by assumption. f_equal. now apply normalize_row_offset. }
  now rewrite E, EM.
Qed.
Print Assumptions C68_offset_invariant.

(** what the metrics get is normalised, so the log loss cannot be negative *)
Theorem C68_log_loss_nonneg :
  forall tbl kd y (metrics : dict (metric_fun xr)) lt metric method f l,
  loss_table normalize tbl kd y metrics false = Ok lt -> NoDup (map fst metrics) -> In (metric, log_loss) metrics ->
  NoDup (map fst (pt_methods tbl)) -> In (method, f) (pt_methods tbl) -> Forall (fun row => Forall logp row /\ Exists is_fin row) (snd f) ->
  In ((metric, method), l) (lt_cols lt) ->
  length l = length y /\ Forall (fun x => nleb (Fin 0) x = true) l.
Proof.
  intros tbl kd y md lt metric method f l E ND IM NDM IF LP IC.
  pose proof (loss_table_inv _ _ _ _ _ _ _ E) as (LY & L1 & L2 & _ & _ & _ & _ & cols & _ & FM).
  destruct (Forall2_in_l _ _ _ _ FM IF) as (c & _ & G). apply method_losses_iff in G as ((_ & LR & FR & _) & _).
  apply (loss_table_entry _ _ _ _ _ _ _ E) in IC as (mf & name & f' & P & l' & I1 & I2 & HP & El & EE). injection EE as -> -> <-.
  assert (f' = f) as -> by (eapply NoDup_fst_inj; eassumption).
  assert (snd mf = log_loss) as EL by (destruct mf as (a, b); eapply NoDup_fst_inj; [exact ND|exact I1|exact IM]).
  rewrite EL in El. unfold prepared in HP. unfold normalize in HP. replace (1 <=? Z.of_nat (length (pt_labels tbl)))%Z with true in HP by (symmetry; apply Z.leb_le; lia).
  cbn [py_assert bind] in HP. apply Ok_inj in HP. subst P.
  assert (Forall (dist (length (pt_labels tbl))) (map normalize_row (snd f))) as FD.
  { clear -LP FR. induction LP as [|row rows (H1 & H2) LP IH]; [constructor|]. inversion FR; subst. cbn [map]. constructor; [|now apply IH].
    split; [|now apply normalize_row_sum]. split; [unfold normalize_row; now rewrite map_length|]. rewrite normalize_row_spec by assumption. now apply shift_logp. }
  assert (valid_y kd y (length (map normalize_row (snd f))) (length (pt_labels tbl))) as V.
  { destruct (shape_and_validate kd y (map normalize_row (snd f)) (length (pt_labels tbl))) eqn:SV.
    - eapply validate_ok. exact SV.
    - unfold log_loss in El. rewrite SV in El. discriminate. }
  destruct (C65_log_loss_values kd y _ _ V FD) as (l2 & E2 & LL & VV). rewrite E2 in El. apply Ok_inj in El. subst l2. split; [exact LL|].
  apply Forall_forall. intros x Hx. apply In_nth_error in Hx as (i & Hi).
  assert (i < length l)%nat as Hl by (apply nth_error_Some; congruence).
  destruct (nth_error y i) as [v|] eqn:Ey; [|apply nth_error_None in Ey; lia].
  destruct (nth_error (map normalize_row (snd f)) i) as [row|] eqn:Er; [|apply nth_error_None in Er; rewrite map_length in Er; lia].
  destruct (VV i v row Ey Er) as (x' & Ex & _ & H & _). congruence.
Qed.
Print Assumptions C68_log_loss_nonneg.

(** The check for NaN is made before the renormalisation: a row of all -inf (or
    one that contains +inf) passes it, and its loss is NaN. *)
Theorem C68_nan_check_bypassed :
  forall kd metric method, kd = Kb \/ kd = Ki ->
  let tbl row := {| pt_len := 1; pt_labels := [0; 1]%Z; pt_methods := [(method, ([0; 1]%Z, [row]))] |} in
  (exists lt, loss_table normalize (tbl [NInf; NInf]) kd [0]%Z [(metric, log_loss)] false = Ok lt /\ lt_cols lt = [((metric, method), [NaN])]) /\
  (exists lt, loss_table normalize (tbl [PInf; Fin 0]) kd [0]%Z [(metric, log_loss)] false = Ok lt /\ lt_cols lt = [((metric, method), [NaN])]).
Proof.
  intros kd metric method K tbl.
  split.
  - assert (normalize 2 [[NInf; NInf]] = Ok [[NaN; NaN]]) as E.
    { unfold normalize. cbn [py_assert bind Z.leb]. replace (1 <=? Z.of_nat 2)%Z with true by reflexivity. cbn [py_assert bind map]. do 2 f_equal.
      unfold normalize_row, logsumexp. cbn. rewrite !Rplus_0_r. replace (Rltb 0 0) with false by (symmetry; apply Rltb_false; lra).
      replace (Reqb 0 0) with true by (symmetry; now apply Reqb_spec). reflexivity. }
    unfold loss_table, tbl. cbn -[normalize]. rewrite E. cbn. destruct K as [-> | ->]; (eexists; split; reflexivity).
  - assert (exists x, normalize 2 [[PInf; Fin 0]] = Ok [[NaN; x]]) as (x & E).
    { unfold normalize. replace (1 <=? Z.of_nat 2)%Z with true by reflexivity. cbn [py_assert bind map]. eexists. do 2 f_equal.
      unfold normalize_row, logsumexp. cbn. reflexivity. }
    unfold loss_table, tbl. cbn -[normalize]. rewrite E. cbn. destruct K as [-> | ->]; (eexists; split; reflexivity).
Qed.
Print Assumptions C68_nan_check_bypassed.

Definition tA : pystr := ["a"%char].
Definition tB : pystr := ["b"%char].
Definition tM : pystr := ["l"%char].
Example C68_example :
  let f row := ([0; 1]%Z, [row; sure_row]) in
  offset_of (tA, f third_row) (tA, ([0; 1]%Z, [offset_row 5 third_row; offset_row (-3) sure_row])) /\
  Forall (fun row => Forall logp row /\ Exists is_fin row) (snd (f third_row)) /\
  exists lt, loss_table normalize {| pt_len := 2; pt_labels := [0; 1]%Z; pt_methods := [(tA, f third_row)] |} Ki [0; 1]%Z [(tM, log_loss)] false = Ok lt.
Proof.
  intros f. split; [|split].
  - split; [reflexivity|]. split; [reflexivity|]. cbn [snd fst f]. constructor; [now exists 5|]. constructor; [now exists (-3)|constructor].
  - unfold f. cbn [snd]. constructor; [split; [apply third_dist|now constructor]|].
    constructor; [split; [apply sure_dist|now constructor 2; constructor]|constructor].
  - eexists. unfold loss_table. cbn. reflexivity.
Qed.

(** ** C69 *)
Section C69.
  Context (sf ppf : Z -> R -> R) {S X : Type} (key_eqb : S * (X * list Z * X) -> S * (X * list Z * X) -> bool).
  Notation get_pred_log_prob_ := (@get_pred_log_prob _ _ (fn_xr sf ppf) normalize S X key_eqb).
  Notation c_train_predict_ := (@c_train_predict _ (fn_xr sf ppf) S X).

  Lemma floored o Xtr kd ytr Xte L methods m tbl name s rows out : (1 <= L)%nat ->
    get_pred_log_prob_ o false [] Xtr kd ytr Xte L methods m = Ok tbl -> NoDup (map fst methods) -> In (name, s) methods ->
    c_train_predict_ o s (fa_data Xtr, ytr, fa_data Xte) = Ok (rows, L) -> In (name, out) (pt_methods tbl) ->
    fst out = range_Z L /\ length (snd out) = pt_len tbl /\ nltb m n0 = true /\ snd out = map (fun row => normalize_row (map (nmax m) row)) rows.
  Proof.
    intros L1 E ND IM ET IO. apply get_pred_inv in E as (_ & _ & NM & F).
    destruct (Forall2_in_r _ _ _ _ F IO) as ((name', s') & IM' & H1 & H2 & rows' & H3 & H4 & H5). cbn [fst snd] in *. subst name'.
    assert (s' = s) as -> by (eapply NoDup_fst_inj; eassumption). rewrite ET in H3. apply Ok_inj in H3. injection H3 as <-.
    unfold normalize in H5. replace (1 <=? Z.of_nat L)%Z with true in H5 by (symmetry; apply Z.leb_le; lia). cbn [py_assert bind] in H5.
    apply Ok_inj in H5. rewrite map_map in H5. subst. split; [assumption|]. split; [now rewrite <- H5, map_length|]. auto.
  Qed.

  (** Rows of log probabilities [row] reported as [r] with the floor [m]. *)
  Theorem C69_floor :
    forall o Xtr kd ytr Xte L methods m tbl name s rows out, (1 <= L)%nat ->
    get_pred_log_prob_ o false [] Xtr kd ytr Xte L methods (Fin m) = Ok tbl -> NoDup (map fst methods) -> In (name, s) methods ->
    c_train_predict_ o s (fa_data Xtr, ytr, fa_data Xte) = Ok (rows, L) -> Forall (ok_row L) rows -> In (name, out) (pt_methods tbl) ->
    fst out = range_Z L /\ length (snd out) = pt_len tbl /\ m < 0 /\
    Forall2 (fun row r => dist L r /\ Forall is_fin r /\
      (forall j k, (j < L)%nat -> (k < L)%nat -> nleb (nth j row NaN) (nth k row NaN) = true -> nleb (nth j r NaN) (nth k r NaN) = true) /\
      (Rsum (map pr row) = 1 -> forall k, (k < L)%nat -> nleb (Fin (m - ln (1 + INR L * exp m))) (nth k r NaN) = true)) rows (snd out).
  Proof.
    intros o Xtr kd ytr Xte L methods m tbl name s rows out L1 E ND IM ET FR IO.
    destruct (floored _ _ _ _ _ _ _ _ _ _ _ _ _ L1 E ND IM ET IO) as (H1 & H2 & H3 & H4). split; [exact H1|]. split; [exact H2|].
    split; [now apply Rltb_spec in H3|]. rewrite H4. clear -FR L1.
    induction FR as [|row rows (LR & F) FR IH]; cbn [map]; constructor; [|exact IH]. clear IH FR. subst L.
    assert (row <> []) as NE by (intros ->; cbn in L1; lia). rewrite floor_form by assumption.
    assert (forall k, (k < length row)%nat -> nth k (map (fun a => Fin (raised m a - ln (mass m row))) row) NaN = Fin (raised m (nth k row NaN) - ln (mass m row))) as NTH.
    { intros k Hk. rewrite (nth_indep _ NaN (Fin (raised m NaN - ln (mass m row)))) by (now rewrite map_length). now rewrite (map_nth (fun a => Fin (raised m a - ln (mass m row)))). }
    assert (Forall is_fin (map (fun a => Fin (raised m a - ln (mass m row))) row)) as FF by (apply Forall_forall; intros x Hx; apply in_map_iff in Hx as (a & <- & _); exact I).
    assert (forall k, (k < length row)%nat -> logp (nth k row NaN)) as LK by (intros k Hk; rewrite Forall_forall in F; now apply F, nth_In).
    split; [|split; [exact FF|split]].
    - split; [split; [now rewrite map_length|]|].
      + eapply Forall_impl; [|exact FF]. intros [] Hx; try contradiction; exact I.
      + rewrite map_map. cbn [pr]. rewrite (Rsum_map_ext _ (fun a => / mass m row * exp (raised m a))).
        * rewrite Rsum_map_mult. fold (mass m row). apply Rinv_l. apply Rgt_not_eq. now apply mass_pos.
        * intros a _. unfold Rminus. rewrite exp_plus, exp_Ropp, exp_ln by (now apply mass_pos). ring.
    - intros j k Hj Hk H. rewrite !NTH by assumption. apply Rleb_spec. apply Rplus_le_compat_r. apply raised_mono; auto.
    - intros S1 k Hk. rewrite NTH by assumption. apply Rleb_spec. pose proof (raised_ge m (nth k row NaN)). pose proof (mass_bounds m row) as (_ & MB).
      pose proof (mass_pos m row NE) as MP. rewrite S1 in MB. assert (ln (mass m row) <= ln (1 + INR (length row) * exp m)); [|lra].
      destruct MB as [MB|MB]; [left; now apply ln_increasing|right; now f_equal].
  Qed.

  (** without a floor normalised rows are reported as they are *)
  Theorem C69_no_floor :
    forall o Xtr kd ytr Xte L methods tbl name s rows out, (1 <= L)%nat ->
    get_pred_log_prob_ o false [] Xtr kd ytr Xte L methods NInf = Ok tbl -> NoDup (map fst methods) -> In (name, s) methods ->
    c_train_predict_ o s (fa_data Xtr, ytr, fa_data Xte) = Ok (rows, L) -> Forall (dist L) rows -> In (name, out) (pt_methods tbl) ->
    snd out = rows.
  Proof.
    intros o Xtr kd ytr Xte L methods tbl name s rows out L1 E ND IM ET FR IO.
    destruct (floored _ _ _ _ _ _ _ _ _ _ _ _ _ L1 E ND IM ET IO) as (_ & _ & _ & ->). clear -FR L1.
    induction FR as [|row rows D FR IH]; [reflexivity|]. cbn [map]. f_equal; [|exact IH]. pose proof D as ((LR & F) & SR).
    rewrite no_floor by assumption. rewrite normalize_row_spec by (first [assumption|eapply dist_exists_fin; eassumption]). rewrite SR, ln_1.
    rewrite <- (map_id row) at 2. apply map_ext_in. intros a Ha. rewrite Forall_forall in F. specialize (F a Ha).
    destruct a; try contradiction; cbn; [f_equal; lra|reflexivity].
  Qed.

  (** ** C70: [min_log_prob] itself is not a lower bound of what is reported *)
  Theorem C70_floor_exact :
    forall o Xtr kd ytr Xte L methods m tbl name s rows out, (1 <= L)%nat ->
    get_pred_log_prob_ o false [] Xtr kd ytr Xte L methods (Fin m) = Ok tbl -> NoDup (map fst methods) -> In (name, s) methods ->
    c_train_predict_ o s (fa_data Xtr, ytr, fa_data Xte) = Ok (rows, L) -> Forall (dist L) rows -> In (name, out) (pt_methods tbl) ->
    Forall2 (fun row r =>
      ((forall k, (k < L)%nat -> nleb (Fin m) (nth k r NaN) = true) <-> (forall k, (k < L)%nat -> nleb (Fin m) (nth k row NaN) = true)) /\
      ((exists k, (k < L)%nat /\ nltb (nth k row NaN) (Fin m) = true) ->
       forall j, (j < L)%nat -> nleb (nth j row NaN) (Fin m) = true -> nltb (nth j r NaN) (Fin m) = true)) rows (snd out).
  Proof.
    intros o Xtr kd ytr Xte L methods m tbl name s rows out L1 E ND IM ET FR IO.
    destruct (floored _ _ _ _ _ _ _ _ _ _ _ _ _ L1 E ND IM ET IO) as (_ & _ & _ & ->). clear -FR L1.
    induction FR as [|row rows D FR IH]; cbn [map]; constructor; [|exact IH]. clear IH FR. pose proof D as ((LR & F) & SR). subst L.
    assert (row <> []) as NE by (intros ->; cbn in L1; lia). rewrite floor_form by assumption.
    assert (forall k, (k < length row)%nat -> nth k (map (fun a => Fin (raised m a - ln (mass m row))) row) NaN = Fin (raised m (nth k row NaN) - ln (mass m row))) as NTH.
    { intros k Hk. rewrite (nth_indep _ NaN (Fin (raised m NaN - ln (mass m row)))) by (now rewrite map_length). now rewrite (map_nth (fun a => Fin (raised m a - ln (mass m row)))). }
    assert (forall k, (k < length row)%nat -> logp (nth k row NaN)) as LK by (intros k Hk; rewrite Forall_forall in F; now apply F, nth_In).
    assert ((exists k, (k < length row)%nat /\ nltb (nth k row NaN) (Fin m) = true) -> 0 < ln (mass m row)) as POS.
    { intros (k & Hk & H). rewrite <- ln_1. apply ln_increasing; [lra|]. rewrite <- SR. apply mass_strict; [exact F|].
      apply Exists_exists. exists (nth k row NaN). split; [now apply nth_In|exact H]. }
    assert ((exists k, (k < length row)%nat /\ nltb (nth k row NaN) (Fin m) = true) ->
       forall j, (j < length row)%nat -> nleb (nth j row NaN) (Fin m) = true -> nltb (nth j (map (fun a => Fin (raised m a - ln (mass m row))) row) NaN) (Fin m) = true) as K.
    { intros EX j Hj H. rewrite NTH by assumption. rewrite raised_low by auto. apply Rltb_spec. specialize (POS EX). lra. }
    split; [|exact K]. split.
    - intros H k Hk. specialize (LK k Hk). destruct (nth k row NaN) as [x| | |] eqn:EK; try contradiction.
      + cbn. destruct (Rle_dec m x) as [Hx|Hx]; [now apply Rleb_spec|]. exfalso.
        assert (nltb (nth k row NaN) (Fin m) = true) as LT by (rewrite EK; apply Rltb_spec; lra).
        specialize (H k Hk). pose proof (K (ex_intro _ k (conj Hk LT)) k Hk) as K'. rewrite EK in K'. specialize (K' ltac:(apply Rleb_spec; lra)).
        rewrite NTH in * by assumption. apply Rleb_spec in H. apply Rltb_spec in K'. lra.
      + exfalso. assert (nltb (nth k row NaN) (Fin m) = true) as LT by (rewrite EK; reflexivity).
        specialize (H k Hk). pose proof (K (ex_intro _ k (conj Hk LT)) k Hk) as K'. rewrite EK in K'. specialize (K' eq_refl).
        rewrite NTH in * by assumption. apply Rleb_spec in H. apply Rltb_spec in K'. lra.
    - intros H k Hk. rewrite NTH by assumption. assert (mass m row = 1) as ->.
      { rewrite mass_same; [exact SR|exact F|]. apply Forall_forall. intros a Ha. destruct (In_nth _ _ NaN Ha) as (i & Hi & <-). now apply H. }
      rewrite ln_1. apply Rleb_spec. pose proof (raised_ge m (nth k row NaN)). lra.
  Qed.
End C69.
Print Assumptions C69_floor.
Print Assumptions C69_no_floor.
Print Assumptions C70_floor_exact.

(** a classifier that always predicts the same rows *)
Definition const_classifier (rows : list (list xr)) : classifier xr unit unit :=
  {| cl_fit := fun s _ _ => Ok s; cl_predict_log_proba := fun _ _ => Ok (rows, 2%nat); cl_predict_proba := fun _ _ => Err NotImplementedError |}.
Definition one_point : farray unit := {| fa_shape := [1; 1]%Z; fa_kind := Kf; fa_data := tt |}.

Lemma const_pred sf ppf row m : m < 0 ->
  @get_pred_log_prob _ _ (fn_xr sf ppf) normalize unit unit (fun _ _ => true) (const_classifier [row]) false [] one_point Ki [0]%Z one_point 2 [(tA, tt)] (Fin m)
  = Ok {| pt_len := 1; pt_labels := range_Z 2; pt_methods := [(tA, (range_Z 2, [normalize_row (map (nmax (Fin m)) row)]))] |}.
Proof.
  intros H. unfold get_pred_log_prob. cbn -[range_Z normalize_row nmax Rltb]. apply Rltb_spec in H. rewrite H. reflexivity.
Qed.

Theorem C70_min_log_prob_floor_refuted :
  forall sf ppf, exists (o : classifier xr unit unit) Xtr ytr Xte methods m tbl name row r,
  @get_pred_log_prob _ _ (fn_xr sf ppf) normalize unit unit (fun _ _ => true) o false [] Xtr Ki ytr Xte 2 methods (Fin m) = Ok tbl /\
  dist 2 row /\ c_train_predict (FT := fn_xr sf ppf) o tt (fa_data Xtr, ytr, fa_data Xte) = Ok ([row], 2%nat) /\
  pt_methods tbl = [(name, (range_Z 2, [r]))] /\ nltb (nth 0 r NaN) (Fin m) = true.
Proof.
  intros sf ppf. exists (const_classifier [sure_row]), one_point, [0]%Z, one_point, [(tA, tt)], (-1). eexists. exists tA, sure_row. eexists.
  split; [apply const_pred; lra|]. split; [exact sure_dist|]. split; [reflexivity|]. cbn [pt_methods]. split; [reflexivity|].
  rewrite floor_form by (first [discriminate|apply sure_dist]). cbn [nth map sure_row raised]. apply Rltb_spec.
  assert (0 < ln (mass (-1) sure_row)); [|unfold sure_row in *; cbn [raised] in *; lra].
  rewrite <- ln_1. apply ln_increasing; [lra|].
  replace 1 with (Rsum (map pr sure_row)) by (apply sure_dist). apply mass_strict; [apply sure_dist|]. now constructor.
Qed.
Print Assumptions C70_min_log_prob_floor_refuted.

Example C69_example : forall sf ppf, exists tbl out,
  @get_pred_log_prob _ _ (fn_xr sf ppf) normalize unit unit (fun _ _ => true) (const_classifier [third_row]) false [] one_point Ki [0]%Z one_point 2 [(tA, tt)] (Fin (-5)) = Ok tbl /\
  c_train_predict (FT := fn_xr sf ppf) (const_classifier [third_row]) tt (tt, [0]%Z, tt) = Ok ([third_row], 2%nat) /\
  NoDup (map fst [(tA, tt)]) /\ In (tA, tt) [(tA, tt)] /\ Forall (dist 2) [third_row] /\ In (tA, out) (pt_methods tbl).
Proof.
  intros sf ppf. eexists. eexists. split; [apply const_pred; lra|]. split; [reflexivity|]. split; [repeat constructor; intros []|]. split; [now left|].
  split; [repeat constructor; apply third_dist|]. now left.
Qed.

(** ** C71 *)
Section C71.
  Context (sf ppf : Z -> R -> R).
  Notation noise_fit_ := (@noise_fit _ _ (fn_xr sf ppf)).
  Notation occurrences k y := (INR (count_occ Z.eq_dec y (Z.of_nat k))).

  Lemma count_is_occ k y : count k y = count_occ Z.eq_dec y (Z.of_nat k).
  Proof.
    induction y as [|v y IH]; [reflexivity|]. rewrite count_cons. cbn [count_occ]. destruct (Z.eqb_spec v (Z.of_nat k)), (Z.eq_dec v (Z.of_nat k)); try contradiction; lia.
  Qed.

  Theorem C71_noise_frequencies :
    forall L a y, (1 <= L)%nat -> 0 <= a -> Forall (fun v => (0 <= v < Z.of_nat L)%Z) y -> y <> [] ->
    exists pred, noise_fit_ L (Fin a) Ki y = Ok pred /\ dist L pred /\
      (forall k, (k < L)%nat -> prob pred k = (occurrences k y + a) / (INR (length y) + INR L * a)) /\
      forall n, length (noise_predict pred n) = n /\ Forall (eq pred) (noise_predict pred n).
  Proof.
    intros L a y L1 A F NE.
    assert (0 < INR (length y) + INR L * a) as P.
    { assert (0 < INR (length y)) by (apply lt_0_INR; destruct y; [contradiction|cbn; lia]). pose proof (pos_INR L). assert (0 <= INR L * a) by (now apply Rmult_le_pos). lra. }
    pose proof (noise_form sf ppf L a y L1 F P) as E.
    destruct (noise_dist sf ppf L a y _ L1 A F P E) as (D & PR). eexists. split; [exact E|]. split; [exact D|]. split.
    - intros k Hk. rewrite PR by exact Hk. unfold freq. now rewrite count_is_occ.
    - intros n. unfold noise_predict. split; [apply repeat_length|]. apply Forall_forall. intros x Hx. apply repeat_spec in Hx. now subst.
  Qed.

  (** no other constant prediction has a mean training log loss as small *)
  Theorem C71_noise_best_constant :
    forall L y pred q, (1 <= L)%nat -> Forall (fun v => (0 <= v < Z.of_nat L)%Z) y -> y <> [] ->
    noise_fit_ L (Fin 0) Ki y = Ok pred -> dist L q ->
    exists l lq, log_loss Ki y (noise_predict pred (length y)) L = Ok l /\ log_loss Ki y (repeat q (length y)) L = Ok lq /\
      is_fin (nmean l) /\ nleb (nmean l) (nmean lq) = true /\ (nmean lq = nmean l -> q = pred).
  Proof.
    intros L y pred q L1 F NE E Dq.
    assert (0 < INR (length y) + INR L * 0) as P.
    { rewrite Rmult_0_r, Rplus_0_r. apply lt_0_INR. destruct y; [contradiction|cbn; lia]. }
    destruct (noise_dist sf ppf L 0 y _ L1 (Rle_refl 0) F P E) as (D & _).
    destruct (mean_log_loss sf ppf L y pred pred L1 NE F (proj1 D) E) as (l & E1 & M1).
    destruct (mean_log_loss sf ppf L y q pred L1 NE F (proj1 Dq) E) as (lq & E2 & M2).
    exists l, lq. split; [exact E1|]. split; [exact E2|]. rewrite M1, M2.
    destruct (log_loss_proper L pred q L1 D Dq) as (e & X1 & X2 & X3).
    rewrite X1. split; [exact I|]. split; [exact X2|exact X3].
  Qed.

  (** boolean labels are not accepted *)
  Theorem C71_noise_bool_raises : forall L a y, noise_fit_ L a Kb y = Err AssertionError.
  Proof. intros L a y. unfold noise_fit. unfold one_hot. destruct (1 <=? Z.of_nat L)%Z; reflexivity. Qed.
End C71.
Print Assumptions C71_noise_frequencies.
Print Assumptions C71_noise_best_constant.
Print Assumptions C71_noise_bool_raises.

Example C71_example : Forall (fun v => (0 <= v < Z.of_nat 3)%Z) [0; 2; 2]%Z /\ count_occ Z.eq_dec [0; 2; 2]%Z (Z.of_nat 2) = 2%nat.
Proof. split; [repeat constructor; lia|reflexivity]. Qed.
